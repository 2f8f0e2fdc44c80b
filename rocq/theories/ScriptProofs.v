From Coq Require Import Permutation.
From Verif Require Import Base Maps UtilModel UtilProps MutationModel MutationProps ScriptModel.

(** Text that double quotes keep as it is. *)
Definition plain (s : bytes) : Prop := forall c, In c s -> ~ In c [dq; "`"; "$"; "\"]%char.
(** A text that is one word when it is not quoted. *)
Definition one_word (s : bytes) : Prop := s <> [] /\ forall c, In c s -> blank c = false /\ magic c = false.

Lemma plain_cons c s : plain (c :: s) -> ~ In c [dq; "`"; "$"; "\"]%char /\ plain s.
Proof. intros H. split; [apply H; left; reflexivity|]. intros d Hd. apply H. right. exact Hd. Qed.

Lemma read_plain : forall s r, plain s -> read_dq (s ++ dq :: r) = QText s r.
Proof.
  induction s as [|c s IH]; intros r H; [reflexivity|]. apply plain_cons in H as [Hc H]. cbn [app read_dq].
  destruct (Ascii.eqb_spec c dq) as [->|_]; [exfalso; apply Hc; cbn; auto|].
  destruct (Ascii.eqb_spec c "`"%char) as [->|_]; [exfalso; apply Hc; cbn; auto|].
  destruct (Ascii.eqb_spec c "$"%char) as [->|_]; [exfalso; apply Hc; cbn; auto|].
  destruct (Ascii.eqb_spec c "\"%char) as [->|_]; [exfalso; apply Hc; cbn; auto|].
  rewrite (IH r H). reflexivity.
Qed.

Lemma lit_app p r : lit p (p ++ r) = Some r.
Proof. apply lit_spec. reflexivity. Qed.

Lemma plain_join sep l : plain sep -> (forall x, In x l -> plain x) -> plain (join_with sep l).
Proof.
  intros Hs. induction l as [|x l IH]; intros H; [intros c []|]. destruct l as [|y l]; [cbn; apply H; left; reflexivity|].
  rewrite join_cons by discriminate. intros c Hc. rewrite !in_app_iff in Hc.
  destruct Hc as [Hc|[Hc|Hc]]; [apply (H x); [left; reflexivity|exact Hc]|apply Hs; exact Hc|].
  apply IH; [intros z Hz; apply H; right; exact Hz|exact Hc].
Qed.

Lemma plain_entry tests : (forall t, In t tests -> plain t) -> plain (test_entry tests).
Proof.
  intros H. unfold test_entry. apply plain_join; [|intros x Hx; apply (proj1 (bsort_in tests x)) in Hx; auto].
  intros c [<-|[]]. cbn. intuition discriminate.
Qed.

Lemma read_entries_spec : forall es tail fuel,
  (forall e, In e es -> plain (fst e) /\ plain (test_entry (snd e))) -> (length es < fuel)%nat ->
  lit (B "FILE_TEST_MAP[" ++ [dq]) tail = None ->
  read_entries fuel (flat_map entry_line es ++ tail) = Some (map (fun e => (fst e, test_entry (snd e))) es, tail).
Proof.
  induction es as [|[k ts] es IH]; intros tail fuel H L T; (destruct fuel as [|fuel]; [cbn in L; lia|]).
  - cbn [flat_map app map read_entries]. rewrite T. reflexivity.
  - cbn [flat_map map]. destruct (H (k, ts) (or_introl eq_refl)) as [Pk Pt]. cbn [fst snd] in Pk, Pt |- *.
    assert ((entry_line (k, ts) ++ flat_map entry_line es) ++ tail =
      (B "FILE_TEST_MAP[" ++ [dq]) ++ (k ++ dq :: ((B "]=" ++ [dq]) ++ (test_entry ts ++ dq :: nl :: (flat_map entry_line es ++ tail))))) as ->.
    { unfold entry_line. cbn [fst snd]. rewrite <- !app_assoc. reflexivity. }
    cbn [read_entries]. rewrite lit_app, (read_plain k _ Pk), lit_app, (read_plain _ _ Pt), Ascii.eqb_refl.
    rewrite IH; [reflexivity| | |exact T].
    + intros e He. apply H. right. exact He.
    + cbn in L. lia.
Qed.

Lemma lookup_spec : forall (es : list (bytes * list bytes)) f, NoDup (map fst es) ->
  lookup (map (fun e => (fst e, test_entry (snd e))) es) f =
  match find (fun e => beq (fst e) f) es with Some e => test_entry (snd e) | None => [] end.
Proof.
  intros es f. unfold lookup. rewrite <- map_rev.
  assert (forall l : list (bytes * list bytes), find (fun e => beq (fst e) f) (map (fun e => (fst e, test_entry (snd e))) l)
    = option_map (fun e => (fst e, test_entry (snd e))) (find (fun e => beq (fst e) f) l)) as Hm.
  { induction l as [|e l IH]; [reflexivity|]. cbn [map find fst]. destruct (beq (fst e) f); [reflexivity|exact IH]. }
  rewrite Hm. intros N.
  assert (find (fun e => beq (fst e) f) (rev es) = find (fun e => beq (fst e) f) es) as ->; [|destruct (find _ es); reflexivity].
  destruct (find (fun e => beq (fst e) f) es) as [e|] eqn:E.
  - apply find_some in E as [Hin B]. apply beq_true in B.
    destruct (find (fun e => beq (fst e) f) (rev es)) as [e'|] eqn:E'.
    + apply find_some in E' as [Hin' B']. apply beq_true in B'. rewrite <- in_rev in Hin'. f_equal.
      clear - N Hin Hin' B B'. induction es as [|x es IH]; [destruct Hin|]. cbn in N. inversion N as [|? ? Nx N']; subst.
      destruct Hin as [->|Hin], Hin' as [->|Hin']; auto.
      * exfalso. apply Nx. rewrite <- B'. apply in_map. exact Hin'.
      * exfalso. apply Nx. rewrite B'. apply in_map. exact Hin.
    + exfalso. pose proof (find_none _ _ E' e) as X. cbn in X. rewrite <- in_rev in X. specialize (X Hin). apply beq_false in X. congruence.
  - destruct (find (fun e => beq (fst e) f) (rev es)) as [e'|] eqn:E'; [|reflexivity].
    exfalso. apply find_some in E' as [Hin' B']. rewrite <- in_rev in Hin'. pose proof (find_none _ _ E e' Hin'). cbn in *. congruence.
Qed.

Lemma find_entries (m : amap (list bytes)) f : mwf m ->
  find (fun e => beq (fst e) f) (entries m) = match mget f m with Some l => Some (f, l) | None => None end.
Proof.
  intros W. unfold entries.
  assert (forall ks, find (fun e : bytes * list bytes => beq (fst e) f) (map (fun k => (k, match mget k m with Some l => l | None => [] end)) ks)
    = if existsb (beq f) ks then Some (f, match mget f m with Some l => l | None => [] end) else None) as Hk.
  { induction ks as [|k ks IH]; [reflexivity|]. cbn [map find fst existsb]. rewrite (beq_sym f k). destruct (beq k f) eqn:B; [|exact IH].
    apply beq_true in B as ->. reflexivity. }
  rewrite Hk. destruct (mget f m) as [l|] eqn:E.
  - assert (existsb (beq f) (bsort (mkeys m)) = true) as ->; [|reflexivity]. apply existsb_exists. exists f. split; [|apply beq_refl].
    apply bsort_in. apply mget_keys. congruence.
  - destruct (existsb (beq f) (bsort (mkeys m))) eqn:X; [|reflexivity]. exfalso. apply existsb_exists in X as (k & Hk' & B).
    apply beq_true in B as <-. apply (proj1 (bsort_in _ _)) in Hk'. apply mget_keys in Hk'. congruence.
Qed.

Section Words.
Variable glob : bytes -> list bytes.
Notation finish := (finish glob). Notation split_var := (split_var glob). Notation fields := (fields glob).

Lemma add_text_add cur s t a b : add_text (add_text cur s a) t b = add_text cur (s ++ t) (a || b).
Proof. destruct cur as [[w m]|]; cbn; [rewrite app_assoc, Bool.orb_assoc|]; reflexivity. Qed.

Lemma split_noblank : forall s cur, s <> [] -> (forall c, In c s -> blank c = false) ->
  split_var cur s = ([], add_text cur s (existsb magic s)).
Proof.
  induction s as [|c s IH]; intros cur Hn H; [congruence|]. cbn [ScriptModel.split_var]. rewrite (H c (or_introl eq_refl)).
  destruct s as [|d s]; [cbn [ScriptModel.split_var existsb]; rewrite Bool.orb_false_r; reflexivity|]. rewrite IH by (try discriminate; intros x Hx; apply H; right; exact Hx).
  rewrite add_text_add. reflexivity.
Qed.

Lemma split_app_blank : forall s cur c r, s <> [] -> (forall c, In c s -> blank c = false) -> blank c = true ->
  split_var cur (s ++ c :: r) = (let '(l, cur') := split_var None r in (finish (add_text cur s (existsb magic s)) ++ l, cur')).
Proof.
  induction s as [|d s IH]; intros cur c r Hn H Hc; [congruence|]. cbn [app ScriptModel.split_var]. rewrite (H d (or_introl eq_refl)).
  destruct s as [|e s].
  - cbn [app ScriptModel.split_var]. rewrite Hc. cbn [existsb]. rewrite Bool.orb_false_r. reflexivity.
  - rewrite IH by (try discriminate; auto; intros x Hx; apply H; right; exact Hx). rewrite add_text_add. reflexivity.
Qed.

Lemma fields_join : forall ws, (forall w, In w ws -> w <> [] /\ forall c, In c w -> blank c = false) ->
  fields None [Unquoted (join_with (B " ") ws)] = flat_map (fun w => finish (Some (w, existsb magic w))) ws.
Proof.
  induction ws as [|w ws IH]; intros H; [reflexivity|]. destruct (H w (or_introl eq_refl)) as [Hn Hb].
  destruct ws as [|v ws].
  - cbn [join_with flat_map ScriptModel.fields]. rewrite (split_noblank w None Hn Hb). cbn [add_text app ScriptModel.fields]. rewrite app_nil_r. reflexivity.
  - rewrite join_cons by discriminate. cbn [ScriptModel.fields] in *. change (B " " ++ join_with (B " ") (v :: ws)) with (" "%char :: join_with (B " ") (v :: ws)).
    rewrite (split_app_blank w None " "%char _ Hn Hb eq_refl). specialize (IH (fun x Hx => H x (or_intror Hx))).
    cbn [flat_map] in IH |- *. destruct (split_var None (join_with (B " ") (v :: ws))) as [l cur]. rewrite <- app_assoc, IH. reflexivity.
Qed.
End Words.

(** Without matching names: fields of an unquoted variable have no blanks and are not empty. *)
Definition solid (w : bytes) : Prop := w <> [] /\ forall c, In c w -> blank c = false.
Definition solid_cur (cur : option (bytes * bool)) : Prop := match cur with None => True | Some (w, _) => solid w end.
Lemma finish_solid cur : solid_cur cur -> Forall solid (finish (fun _ => []) cur).
Proof. destruct cur as [[w []]|]; cbn; intros H; repeat constructor; apply H. Qed.
Lemma split_solid : forall s cur, solid_cur cur ->
  Forall solid (fst (split_var (fun _ => []) cur s)) /\ solid_cur (snd (split_var (fun _ => []) cur s)).
Proof.
  induction s as [|c s IH]; intros cur H; [split; [constructor|exact H]|]. cbn [split_var]. destruct (blank c) eqn:B.
  - specialize (IH None I). destruct (split_var (fun _ => []) None s) as [l cur']. cbn [fst snd] in *. destruct IH as [A D].
    split; [|exact D]. apply Forall_app. split; [apply finish_solid; exact H|exact A].
  - apply IH. destruct cur as [[w m]|]; cbn in *.
    + split; [destruct w; discriminate|]. intros d Hd. apply in_app_iff in Hd as [Hd|[<-|[]]]; [apply H; exact Hd|exact B].
    + split; [discriminate|]. intros d [<-|[]]. exact B.
Qed.
Lemma fields_solid s : Forall solid (fields (fun _ => []) None [Unquoted s]).
Proof.
  cbn [fields]. pose proof (split_solid s None I) as [A D]. destruct (split_var (fun _ => []) None s) as [l cur]. cbn [fst snd] in *.
  apply Forall_app. split; [exact A|apply finish_solid; exact D].
Qed.

Lemma existsb_magic_false s : existsb magic s = false <-> forall c, In c s -> magic c = false.
Proof.
  split.
  - intros H c Hc. destruct (magic c) eqn:M; [|reflexivity]. assert (existsb magic s = true); [|congruence]. apply existsb_exists. eauto.
  - intros H. apply Bool.not_true_iff_false. intros X. apply existsb_exists in X as (c & Hc & M). rewrite (H c Hc) in M. discriminate.
Qed.

(** A list of texts, joined by blanks and not quoted, comes back exactly when each is one word. *)
Lemma join_comes_back ws : (forall glob, fields glob None [Unquoted (join_with (B " ") ws)] = ws) <-> Forall one_word ws.
Proof.
  split.
  - intros H. pose proof (fields_solid (join_with (B " ") ws)) as S. rewrite (H (fun _ => [])) in S.
    assert (forall w, In w ws -> w <> [] /\ forall c, In c w -> blank c = false) as S'.
    { intros w Hw. apply (proj1 (Forall_forall _ _) S w Hw). }
    apply Forall_forall. intros w Hw. destruct (S' w Hw) as [Hn Hb]. split; [exact Hn|]. intros c Hc. split; [auto|].
    destruct (existsb magic w) eqn:M; [|apply existsb_magic_false with (s := w); assumption]. exfalso.
    specialize (H (fun _ => [[]])). rewrite fields_join in H by exact S'.
    assert (In [] (flat_map (fun w => finish (fun _ => [[]]) (Some (w, existsb magic w))) ws)) as X.
    { apply in_flat_map. exists w. rewrite M. split; [exact Hw|left; reflexivity]. }
    rewrite H in X. destruct (S' [] X) as [E _]. congruence.
  - intros F glob. rewrite Forall_forall in F. rewrite fields_join.
    + induction ws as [|w ws IH]; [reflexivity|]. cbn [flat_map]. destruct (F w (or_introl eq_refl)) as [_ H].
      assert (existsb magic w = false) as -> by (apply existsb_magic_false; intros c Hc; apply H; exact Hc).
      change (finish glob (Some (w, false))) with [w]. cbn [app]. rewrite IH by (intros x Hx; apply F; right; exact Hx). reflexivity.
    + intros w Hw. destruct (F w Hw) as [Hn H]. split; [exact Hn|]. intros c Hc. apply H. exact Hc.
Qed.
