(** C47: inserting lines never loses source. *)
From Verif Require Import Base UtilModel UtilProps InsertModel.

Section Ins.
Variable S : Type.
Variable cb : S -> nat -> bytes -> S * (bytes * bool).
Variable func_line : nat.
Variable toks : list tok.
Notation body := (insert_body S cb func_line toks).
Notation lines_new := (insert_lines S cb func_line toks).

(** The callback asked about these lines in turn, with its replies. *)
Inductive asked (lines : list bytes) : S -> list (nat * (bytes * bool)) -> Prop :=
  | as_nil : forall st, asked lines st []
  | as_cons : forall st st' n r qs, cb st (n - func_line) (nth (n - 1) lines []) = (st', r) -> asked lines st' qs -> asked lines st ((n, r) :: qs).

(** The text put above line [n], given the replies. *)
Fixpoint above (lines : list bytes) (qs : list (nat * (bytes * bool))) (n : nat) : list bytes :=
  match qs with
  | [] => []
  | (m, (txt, _)) :: qs' => if Nat.eqb m n then match txt with [] => [] | _ => [indent_of (nth (n - 1) lines []) ++ txt] end else above lines qs' n
  end.

(** All but the last reply say to go on; when fewer lines than [total] were asked about,
    the last one says to stop. *)
Fixpoint stopped_right (qs : list (nat * (bytes * bool))) (total : nat) : Prop :=
  match qs with
  | [] => total = 0%nat
  | [(_, (_, cont))] => cont = true -> total = 1%nat
  | (_, (_, cont)) :: qs' => cont = true /\ match total with O => False | Datatypes.S t => stopped_right qs' t end
  end.

Definition codes (n m : nat) : list nat := filter (code_line toks) (seq n m).

Lemma above_notin lines qs n : ~ In n (map fst qs) -> above lines qs n = [].
Proof.
  induction qs as [|[m [t c]] qs IH]; cbn; intros H; [reflexivity|]. destruct (Nat.eqb_spec m n) as [->|N]; [exfalso; apply H; left; reflexivity|]. apply IH. tauto.
Qed.

Lemma codes_S n m : codes n (Datatypes.S m) = (if code_line toks n then [n] else []) ++ codes (Datatypes.S n) m.
Proof. unfold codes. cbn [seq filter]. destruct (code_line toks n); reflexivity. Qed.

Lemma stopped_cons n t qs k : stopped_right qs k -> (qs = [] -> k = 0%nat) -> stopped_right ((n, (t, true)) :: qs) (Datatypes.S k).
Proof. intros H E. destruct qs; cbn in *; [intros _; f_equal; exact H|]. split; [reflexivity|exact H]. Qed.

(** What the body loop gives, for the lines [bl] numbered from [n] of a whole file. *)
Lemma body_spec (lines : list bytes) : forall (bl : list bytes) st n, (forall i, (i < length bl)%nat -> nth (n + i - 1) lines [] = nth i bl []) -> (1 <= n)%nat ->
  exists qs, asked lines st qs /\ map fst qs = firstn (length qs) (codes n (length bl)) /\ stopped_right qs (length (codes n (length bl))) /\
    body st n bl = flat_map (fun i => above lines qs i ++ [nth (i - 1) lines []]) (seq n (length bl)).
Proof.
  induction bl as [|src bl IH]; intros st n Hn Hp.
  - exists []. repeat split; constructor.
  - assert (nth (n - 1) lines [] = src) as Hs by (specialize (Hn 0%nat); cbn in Hn; rewrite Nat.add_0_r in Hn; apply Hn; lia).
    assert (forall i, (i < length bl)%nat -> nth (Datatypes.S n + i - 1) lines [] = nth i bl []) as Hn'.
    { intros i Hi. specialize (Hn (Datatypes.S i)). cbn [nth length] in Hn. rewrite <- Hn by lia. f_equal. lia. }
    assert (forall (qs : list (nat * (bytes * bool))) k, map fst qs = firstn (length qs) (codes (Datatypes.S n) k) -> ~ In n (map fst qs)) as Out.
    { intros qs k E X. rewrite E in X. assert (In n (codes (Datatypes.S n) k)) as Y by (rewrite <- (firstn_skipn (length qs) (codes (Datatypes.S n) k)); apply in_or_app; left; exact X).
      apply filter_In in Y as [Y _]. apply in_seq in Y. lia. }
    cbn [length insert_body seq flat_map]. rewrite codes_S. destruct (code_line toks n) eqn:Ec.
    + destruct (cb st (n - func_line) src) as [st' [txt cont]] eqn:Eb. destruct cont.
      * destruct (IH st' (Datatypes.S n) Hn' ltac:(lia)) as (qs & Q1 & Q2 & Q3 & Q4). exists ((n, (txt, true)) :: qs).
        split; [econstructor; [rewrite Hs; exact Eb|exact Q1]|]. split; [cbn [map fst length app firstn]; f_equal; exact Q2|]. split.
        { cbn [length app]. apply stopped_cons; [exact Q3|]. intros ->. cbn in Q3. exact Q3. }
        rewrite Q4. cbn [above]. rewrite Nat.eqb_refl, Hs. unfold inserted. rewrite <- app_assoc. f_equal. cbn [app]. f_equal.
        rewrite !flat_map_concat_map. f_equal. apply map_ext_in. intros i Hi. apply in_seq in Hi. destruct (Nat.eqb_spec n i); [lia|reflexivity].
      * exists [(n, (txt, false))]. split; [econstructor; [rewrite Hs; exact Eb|constructor]|]. split; [reflexivity|]. split; [cbn; discriminate|].
        cbn [above]. rewrite Nat.eqb_refl, Hs. unfold inserted. rewrite <- app_assoc. f_equal. cbn [app]. f_equal.
        transitivity (flat_map (fun i => [nth (i - 1) lines []]) (seq (Datatypes.S n) (length bl))).
        { clear - Hn'. revert n Hn'. induction bl as [|x bl IH]; intros n Hn'; [reflexivity|]. cbn [length seq flat_map app].
          rewrite <- (IH (Datatypes.S n)).
          - f_equal. specialize (Hn' 0%nat ltac:(cbn; lia)). cbn [nth] in Hn'. rewrite Nat.add_0_r in Hn'. symmetry. exact Hn'.
          - intros i Hi. specialize (Hn' (Datatypes.S i) ltac:(cbn; lia)). cbn [nth] in Hn'. rewrite <- Hn'. f_equal. lia. }
        rewrite !flat_map_concat_map. f_equal. apply map_ext_in. intros i Hi. apply in_seq in Hi. destruct (Nat.eqb_spec n i); [lia|reflexivity].
    + destruct (IH st (Datatypes.S n) Hn' ltac:(lia)) as (qs & Q1 & Q2 & Q3 & Q4). exists qs. split; [exact Q1|]. split; [exact Q2|]. split; [exact Q3|].
      rewrite Q4, (above_notin _ _ _ (Out _ _ Q2)), Hs. reflexivity.
Qed.

Lemma whole (lines : list bytes) : forall k, flat_map (fun i => [nth (i - 1) lines []]) (seq 1 k) = firstn k (lines ++ repeat [] k).
Proof.
  assert (forall (l : list bytes) n k, flat_map (fun i => [nth (i - n) l []]) (seq n k) = firstn k (l ++ repeat [] k)) as G; [|intros k; apply G].
  intros l n k. revert l n. induction k as [|k IH]; intros l n; [reflexivity|]. cbn [seq flat_map app]. rewrite Nat.sub_diag.
  assert (flat_map (fun i => [nth (i - n) l []]) (seq (Datatypes.S n) k) = flat_map (fun i => [nth (i - Datatypes.S n) (tl l) []]) (seq (Datatypes.S n) k)) as ->.
  { rewrite !flat_map_concat_map. f_equal. apply map_ext_in. intros i Hi. apply in_seq in Hi. replace (i - n)%nat with (Datatypes.S (i - Datatypes.S n)) by lia. destruct l; [destruct (i - Datatypes.S n)%nat; reflexivity|reflexivity]. }
  rewrite IH. destruct l as [|x l]; cbn [tl app nth firstn repeat]; [reflexivity|]. f_equal.
  replace (l ++ [] :: repeat [] k) with ((l ++ repeat [] k) ++ [[]]).
  - rewrite (firstn_app k (l ++ repeat [] k)). rewrite (app_length l), repeat_length. replace (k - (length l + k))%nat with 0%nat by lia. cbn. rewrite app_nil_r. reflexivity.
  - rewrite <- app_assoc. f_equal. symmetry. apply repeat_cons.
Qed.

Lemma whole_firstn (lines : list bytes) k : (k <= length lines)%nat -> flat_map (fun i => [nth (i - 1) lines []]) (seq 1 k) = firstn k lines.
Proof. intros H. rewrite whole, firstn_app. replace (k - length lines)%nat with 0%nat by lia. cbn. apply app_nil_r. Qed.

Lemma whole_skipn (lines : list bytes) k : (k <= length lines)%nat -> flat_map (fun i => [nth (i - 1) lines []]) (seq (1 + k) (length lines - k)) = skipn k lines.
Proof.
  intros H. apply (app_inv_head (firstn k lines)). rewrite firstn_skipn. rewrite <- (whole_firstn lines k H), <- flat_map_app, <- seq_app.
  replace (k + (length lines - k))%nat with (length lines) by lia. rewrite whole_firstn by lia. apply firstn_all.
Qed.

(** The lines of the new file: every line of the old one, in order, each with at most
    one line put right above it; and that only above code lines of the body, in turn
    until the callback says stop, with the text the callback gave. *)
Theorem C47_insertions_exact : forall st lbrace rbrace (lines : list bytes), (rbrace <= length lines)%nat -> (1 <= lbrace)%nat ->
  exists qs, asked lines st qs /\
    map fst qs = firstn (length qs) (codes (lbrace + 1) (rbrace - 1 - lbrace)) /\
    stopped_right qs (length (codes (lbrace + 1) (rbrace - 1 - lbrace))) /\
    lines_new st lbrace rbrace lines = flat_map (fun i => above lines qs i ++ [nth (i - 1) lines []]) (seq 1 (length lines)).
Proof.
  intros st lb rb lines Hr Hl. unfold insert_lines.
  assert (flat_map (fun i => above lines [] i ++ [nth (i - 1) lines []]) (seq 1 (length lines)) = lines) as Id by (cbn [above app]; rewrite whole_firstn by lia; apply firstn_all).
  destruct (Nat.ltb_spec (rb - 1) (lb + 1)) as [Hlt|Hge].
  - exists []. split; [constructor|]. replace (rb - 1 - lb)%nat with 0%nat by lia. split; [reflexivity|]. split; [reflexivity|]. symmetry. exact Id.
  - set (k := (rb - 1 - lb)%nat). replace (rb - 1 - (lb + 1 - 1))%nat with k by lia. replace (lb + 1 - 1)%nat with lb by lia.
    set (bl := firstn k (skipn lb lines)). assert (length bl = k) as Lb by (unfold bl; rewrite firstn_length, skipn_length; lia).
    destruct (body_spec lines bl st (lb + 1)) as (qs & Q1 & Q2 & Q3 & Q4); [|lia|].
    { intros i Hi. unfold bl. rewrite Lb in Hi. rewrite <- (firstn_skipn lb lines) at 1. rewrite app_nth2; rewrite firstn_length; [|lia].
      rewrite <- (firstn_skipn k (skipn lb lines)) at 1. rewrite app_nth1; [f_equal; lia|rewrite firstn_length, skipn_length; lia]. }
    rewrite Lb in *. exists qs. split; [exact Q1|]. split; [exact Q2|]. split; [exact Q3|]. rewrite Q4.
    assert (forall a m, (a + m <= lb + 1 \/ rb <= a)%nat -> flat_map (fun i => above lines qs i ++ [nth (i - 1) lines []]) (seq a m) = flat_map (fun i => [nth (i - 1) lines []]) (seq a m)) as Out.
    { intros a m Ho. rewrite !flat_map_concat_map. f_equal. apply map_ext_in. intros i Hi. apply in_seq in Hi. rewrite above_notin; [reflexivity|].
      rewrite Q2. intros X. assert (In i (codes (lb + 1) k)) as Y by (rewrite <- (firstn_skipn (length qs) (codes (lb + 1) k)); apply in_or_app; left; exact X).
      apply filter_In in Y as [Y _]. apply in_seq in Y. lia. }
    replace (length lines) with (lb + (k + (length lines - (rb - 1))))%nat at 1 by lia. rewrite seq_app, seq_app, !flat_map_app.
    rewrite (Out 1%nat lb) by lia. rewrite whole_firstn by lia. f_equal. replace (1 + lb)%nat with (lb + 1)%nat by lia. f_equal. rewrite (Out (lb + 1 + k)%nat) by lia.
    replace (lb + 1 + k)%nat with (1 + (rb - 1))%nat by lia. rewrite whole_skipn by lia. reflexivity.
Qed.

(** Deleting the inserted lines gives back the file: tag each line of the result as
    inserted or not. *)
Theorem C47_source_kept : forall st lbrace rbrace (lines : list bytes), (rbrace <= length lines)%nat -> (1 <= lbrace)%nat ->
  exists tags : list (bool * bytes), map snd tags = lines_new st lbrace rbrace lines /\ map snd (filter (fun t => negb (fst t)) tags) = lines /\
    (length (filter fst tags) <= length (codes (lbrace + 1) (rbrace - 1 - lbrace)))%nat.
Proof.
  intros st lb rb lines Hr Hl. destruct (C47_insertions_exact st lb rb lines Hr Hl) as (qs & _ & Q2 & _ & Q4).
  exists (flat_map (fun i => map (pair true) (above lines qs i) ++ [(false, nth (i - 1) lines [])]) (seq 1 (length lines))). split; [|split].
  - rewrite Q4. generalize (seq 1 (length lines)). induction l as [|i l IH]; [reflexivity|]. cbn [flat_map]. rewrite !map_app, IH, map_map. cbn [snd map]. rewrite map_id. reflexivity.
  - transitivity (flat_map (fun i => [nth (i - 1) lines []]) (seq 1 (length lines))); [|rewrite whole_firstn by lia; apply firstn_all].
    generalize (seq 1 (length lines)). induction l as [|i l IH]; [reflexivity|]. cbn [flat_map]. rewrite !filter_app, !map_app, IH. f_equal.
    induction (above lines qs i) as [|x a IHa]; [reflexivity|exact IHa].
  - assert (length (filter fst (flat_map (fun i => map (pair true) (above lines qs i) ++ [(false, nth (i - 1) lines [])]) (seq 1 (length lines)))) <= length qs)%nat as L.
    { assert (forall n l qs, NoDup l -> n = length qs -> length (filter fst (flat_map (fun i => map (pair true) (above lines qs i) ++ [(false, nth (i - 1) lines [])]) l)) <= n)%nat as G; [|apply G; [apply seq_NoDup|reflexivity]].
      induction n as [|n IH]; intros l qs0 ND E; destruct qs0 as [|[m [t c]] qs0]; try discriminate.
      - cbn. induction l as [|i l IHl]; [cbn; lia|]. cbn. inversion ND; subst. auto.
      - injection E as E. specialize (IH l qs0 ND E). eapply Nat.le_trans; [|apply le_n_S; exact IH]. clear IH E.
        assert (forall i, (length (above lines ((m, (t, c)) :: qs0) i) <= 1)%nat) as L1.
        { intros i. generalize ((m, (t, c)) :: qs0). intros z. induction z as [|[m' [t' c']] z IHz]; cbn; [lia|]. destruct (Nat.eqb m' i); [destruct t'; cbn; lia|exact IHz]. }
        induction l as [|i l IHl]; [cbn; lia|]. inversion ND as [|? ? Ni ND']; subst. cbn [flat_map]. rewrite !filter_app, !app_length.
        destruct (Nat.eq_dec m i) as [->|Nm].
        + assert (flat_map (fun i0 => map (pair true) (above lines ((i, (t, c)) :: qs0) i0) ++ [(false, nth (i0 - 1) lines [])]) l =
                  flat_map (fun i0 => map (pair true) (above lines qs0 i0) ++ [(false, nth (i0 - 1) lines [])]) l) as ->.
          { rewrite !flat_map_concat_map. f_equal. apply map_ext_in. intros j Hj. cbn [above]. destruct (Nat.eqb_spec i j); [subst; contradiction|reflexivity]. }
          specialize (L1 i). assert (forall z : list bytes, length (filter fst (map (pair true) z)) = length z) as Lm by (induction z; cbn; [reflexivity|f_equal; assumption]).
          rewrite !Lm. cbn [filter fst length]. lia.
        + cbn [above]. destruct (Nat.eqb_spec m i); [contradiction|]. specialize (IHl ND'). cbn [above] in IHl. lia. }
    eapply Nat.le_trans; [exact L|]. rewrite <- (map_length fst qs), Q2, firstn_length. lia.
Qed.

(** The same for the file itself, when the callback gives single lines. *)
Theorem C47_file_lines : forall st lbrace rbrace data, (rbrace <= length (split_on nl data))%nat -> (1 <= lbrace)%nat ->
  (forall s n l, ~ In nl (fst (snd (cb s n l)))) ->
  split_on nl (insert_file S cb func_line toks st lbrace rbrace data) = lines_new st lbrace rbrace (split_on nl data).
Proof.
  intros st lb rb data Hr Hl Hc. unfold insert_file. destruct (C47_insertions_exact st lb rb _ Hr Hl) as (qs & Q1 & _ & _ & Q4).
  destruct (split_on_spec nl data) as [Hn _]. rewrite Forall_forall in Hn. assert (forall i, ~ In nl (nth i (split_on nl data) [])) as Hnth.
  { intros i. destruct (nth_in_or_default i (split_on nl data) []) as [X|X]; [apply Hn, X|rewrite X; intros []]. }
  apply split_unique.
  - rewrite Q4. pose proof (split_on_nonempty nl data) as Ne. destruct (split_on nl data) as [|x l]; [contradiction|]. cbn [length seq flat_map]. intros X.
    apply app_eq_nil in X as [X _]. apply app_eq_nil in X as [_ X]. discriminate.
  - rewrite Q4. apply Forall_forall. intros x Hx. apply in_flat_map in Hx as (i & _ & Hx). apply in_app_or in Hx as [Hx|[<-|[]]]; [|apply Hnth].
    clear - Q1 Hx Hc Hnth. induction Q1 as [st|st st' n [txt c] qs E Q IH]; [destruct Hx|]. cbn [above] in Hx. destruct (Nat.eqb n i); [|exact (IH Hx)].
    specialize (Hc st (n - func_line)%nat (nth (n - 1) (split_on nl data) [])). rewrite E in Hc. cbn in Hc. destruct txt as [|y txt]; [destruct Hx|]. destruct Hx as [<-|[]].
    rewrite in_app_iff. intros [X|X]; [|exact (Hc X)]. apply (Hnth (i - 1)%nat). unfold indent_of in X. destruct (Nat.eqb _ _); [destruct X|].
    clear - X. induction (nth (i - 1) (split_on nl data) []) as [|z l IH]; [destruct X|]. cbn [leading] in X. right.
    destruct (ascii_dec z " ") as [->|N]; [|destruct (ascii_dec z (ascii_of_N 9)) as [->|N']; [|destruct X]];
      (destruct X as [X|X]; [exfalso; revert X; unfold nl; vm_compute; discriminate|exact (IH X)]).
Qed.
End Ins.
Print Assumptions C47_insertions_exact.
Print Assumptions C47_source_kept.
Print Assumptions C47_file_lines.

(** Which lines are asked about: those of the body on which a token starts that is neither
    comment nor bracket and no literal reaching over a line end. *)
Definition bears_code (toks : list tok) (n : nat) : Prop :=
  exists t, In t toks /\ tk_line t = n /\ tk_kind t <> KComment /\ tk_kind t <> KBracket /\ (tk_kind t = KLiteral -> tk_newlines t = 0%nat).
Theorem C47_code_lines : forall toks lbrace rbrace n,
  In n (codes toks (lbrace + 1) (rbrace - 1 - lbrace)) <-> (lbrace < n < rbrace)%nat /\ bears_code toks n.
Proof.
  intros toks lb rb n. unfold codes. rewrite filter_In, in_seq. split.
  - intros [R C]. split; [lia|]. apply existsb_exists in C. destruct C as (t & Ht & C). apply andb_true_iff in C. destruct C as [El M]. apply Nat.eqb_eq in El.
    exists t. unfold marks in M. destruct (tk_kind t); try discriminate; repeat split; try assumption; try discriminate. intros _. destruct (tk_newlines t); [reflexivity|discriminate].
  - intros [R (t & Ht & El & N1 & N2 & L)]. split; [lia|]. apply existsb_exists. exists t. split; [exact Ht|]. rewrite El, Nat.eqb_refl. unfold marks.
    destruct (tk_kind t); try contradiction; try reflexivity. rewrite L by reflexivity. reflexivity.
Qed.
Print Assumptions C47_code_lines.
(** Above any other line nothing is put: not above comments, blank lines or lines within a literal
    on which nothing else starts. *)
Theorem C47_other_lines_untouched : forall S cb func_line toks st lbrace rbrace (lines : list bytes), (rbrace <= length lines)%nat -> (1 <= lbrace)%nat ->
  exists put : nat -> list bytes, insert_lines S cb func_line toks st lbrace rbrace lines = flat_map (fun i => put i ++ [nth (i - 1) lines []]) (seq 1 (length lines)) /\
    (forall n, put n <> [] -> (lbrace < n < rbrace)%nat /\ bears_code toks n) /\ (forall n, length (put n) <= 1)%nat.
Proof.
  intros S cb fl toks st lb rb lines Hr Hl. destruct (C47_insertions_exact S cb fl toks st lb rb lines Hr Hl) as (qs & _ & Q2 & _ & Q4).
  exists (above lines qs). split; [exact Q4|]. split.
  - intros n Hn. apply C47_code_lines. destruct (in_dec Nat.eq_dec n (map fst qs)) as [X|X]; [|rewrite (above_notin _ _ _ X) in Hn; contradiction].
    rewrite Q2 in X. rewrite <- (firstn_skipn (length qs) (codes toks (lb + 1) (rb - 1 - lb))). apply in_or_app. left. exact X.
  - intros n. induction qs as [|[m [t c]] qs IH] in |- *; cbn; [lia|]. destruct (Nat.eqb m n); [destruct t; cbn; lia|exact IH].
Qed.
Print Assumptions C47_other_lines_untouched.

(** ** A concrete file *)
Definition src47 : list bytes := map B ["package p"; "func f(a int) int {"; "  x := a"; "  // note"; "  if x > 1 {"; "    return 2"; "  }"; "  return x"; "}"; "// end"]%string.
Definition toks47 : list tok :=
  [Tok 1 KOther 0; Tok 2 KOther 0; Tok 2 KBracket 0; Tok 3 KOther 0; Tok 4 KComment 0; Tok 5 KOther 0; Tok 5 KBracket 0; Tok 6 KOther 0; Tok 7 KBracket 0; Tok 7 KOther 0; Tok 8 KOther 0; Tok 9 KBracket 0; Tok 10 KComment 0].
(** mutation.go's callback: a remark above lines that are not marked as changed. *)
Definition cb47 (bitmap : list bool) (s : unit) (i : nat) (l : bytes) : unit * (bytes * bool) :=
  (s, (if nth i bitmap true then [] else B "// skip", true)).

Example C47_example :
  insert_lines _ (cb47 [false; false; true; false; true]) 2 toks47 tt 2 9 src47 =
  map B ["package p"; "func f(a int) int {"; "  // skip"; "  x := a"; "  // note"; "  // skip"; "  if x > 1 {"; "    return 2"; "  }"; "  return x"; "}"; "// end"]%string.
Proof. vm_compute. reflexivity. Qed.

Example C47_code_lines_example : bears_code toks47 5 /\ ~ bears_code toks47 4 /\ bears_code toks47 7.
Proof.
  split; [exists (Tok 5 KOther 0); repeat split; try discriminate; vm_compute; tauto|]. split; [|exists (Tok 7 KOther 0); repeat split; try discriminate; vm_compute; tauto].
  intros (t & Ht & El & N & _). repeat (destruct Ht as [<-|Ht]; [try discriminate El; try (apply N; reflexivity)|]). destruct Ht.
Qed.

(** A callback that stops: its second reply is the last one used. *)
Definition cb47_stop (s : nat) (i : nat) (l : bytes) : nat * (bytes * bool) := (Datatypes.S s, (B "// first two", Nat.ltb s 1)).
Example C47_example_stop :
  insert_lines _ cb47_stop 2 toks47 0%nat 2 9 src47 =
  map B ["package p"; "func f(a int) int {"; "  // first two"; "  x := a"; "  // note"; "  // first two"; "  if x > 1 {"; "    return 2"; "  }"; "  return x"; "}"; "// end"]%string.
Proof. vm_compute. reflexivity. Qed.

(** ** What does not hold *)
(** Lines holding just a closing brace are taken for code: the scanner reports the
    semicolon it inserts at their end. *)
Theorem C47_brace_lines_are_code_refuted :
  ~ forall toks n, (forall t, In t toks -> tk_line t = n -> tk_kind t = KBracket \/ (tk_kind t = KOther /\ exists b, In b toks /\ tk_line b = n /\ tk_kind b = KBracket)) ->
      code_line toks n = false.
Proof.
  intros H. specialize (H toks47 7%nat). assert (code_line toks47 7 = true) as E by (vm_compute; reflexivity). rewrite H in E; [discriminate|].
  intros t Ht El. repeat (destruct Ht as [<-|Ht]; [cbn in El; try discriminate; cbn; first [left; reflexivity|right; split; [reflexivity|exists (Tok 7 KBracket 0); split; [right; right; right; right; right; right; right; right; left; reflexivity|split; reflexivity]]]|]). destruct Ht.
Qed.

(** A multi-line string: the last line of the literal is marked by the semicolon at its
    end, so text is put inside the literal and the value of the string changes. *)
Definition src47s : list bytes := map B ["func f() string {"; "  return `one"; "two`"; "}"]%string.
Definition toks47s : list tok := [Tok 1 KOther 0; Tok 1 KBracket 0; Tok 2 KOther 0; Tok 2 KLiteral 1; Tok 3 KOther 0; Tok 4 KBracket 0; Tok 4 KOther 0].
Definition inside_literal (toks : list tok) (n : nat) : Prop := exists t, In t toks /\ tk_kind t = KLiteral /\ (tk_line t < n <= tk_line t + tk_newlines t)%nat.
Theorem C47_literals_kept_refuted :
  ~ forall S cb fl toks st lb rb lines qs, insert_lines S cb fl toks st lb rb lines = flat_map (fun i => above lines qs i ++ [nth (i - 1) lines []]) (seq 1 (length lines)) ->
      forall n, above lines qs n <> [] -> ~ inside_literal toks n.
Proof.
  intros H. apply (H unit (cb47 [true; true; false; true]) 1%nat toks47s tt 1%nat 4%nat src47s [(2, ([], true)); (3, (B "// skip", true))]%nat) with (n := 3%nat).
  - vm_compute. reflexivity.
  - vm_compute. discriminate.
  - exists (Tok 2 KLiteral 1). split; [right; right; right; left; reflexivity|split; [reflexivity|cbn; lia]].
Qed.
Print Assumptions C47_brace_lines_are_code_refuted.
Print Assumptions C47_literals_kept_refuted.
