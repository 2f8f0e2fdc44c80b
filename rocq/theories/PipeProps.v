(** Property C81: from a value in the program to a reported difference. *)
From Verif Require Import Base Maps StaticModel StaticProps TypesModel TypesSpec TypesProofs StableModel StableProps MonitorModel FieldsProps CompareModel CompareProps WireModel WireSpec WireProps ClientModel ClientSpec ClientProps PipeModel PipeSpec PipeProofs.
Local Open Scope N_scope.

Section C81.
Variable utf8 : bytes -> bool.
Variable sprint : prim -> bytes.
Variable digest : bytes -> bytes.
Variable trim : bytes -> option bytes.
Variable maxlen : N.
Variable maxrec ufuel : nat.
Notation recorded := (recorded utf8 sprint digest trim maxlen maxrec ufuel).
Notation good := (good_capture utf8 trim maxlen maxrec ufuel).
Notation captured := (captured utf8).

Lemma streamed h snaps : chains_end h ufuel ->
  (forall nm v, In (nm, v) (filter (fun s => negb (beq (fst s) (B "nil"))) snaps) -> exists ty w A, shows h utf8 maxlen maxrec v ty w A /\ NoDup A) ->
  exists ws A, stream_snaps h utf8 maxlen ufuel maxrec snaps = Some ws /\ shows_kids h utf8 maxlen maxrec (filter (fun s => negb (beq (fst s) (B "nil"))) snaps) ws A.
Proof.
  intros Ch. induction snaps as [|[nm v] l IH]; intros H.
  - exists [], []. split; [reflexivity|constructor].
  - cbn [filter fst stream_snaps] in *. destruct (beq nm (B "nil")); cbn [negb] in *; [apply IH; exact H|].
    destruct (H nm v (or_introl eq_refl)) as (ty & w & A & S & D). destruct (C08_unshared_values_are_exact h utf8 maxlen ufuel Ch maxrec nm v ty w A S D) as (vis & ->).
    destruct IH as (ws & A' & -> & K); [intros nm' v' I; apply (H nm' v'); right; exact I|]. eexists. exists (A ++ A'). split; [reflexivity|]. constructor; assumption.
Qed.

Lemma recorded_full c : good c -> exists f, recorded c = Some f /\ fvals_wf (cf_fields f) /\ fvals_plain (cf_fields f) /\
  forall name text, mget name (flatten (cf_fields f)) = Some text <->
    exists ty p, captured c name ty p /\ stored_as digest ty (sprint p) text.
Proof.
  intros ((K & Hh & Hm & HK & HL & Hs & Hn & Hid & Hts & Hst & Htr) & Ch & Nd & Sh). unfold shown in *.
  destruct (streamed (c_heap c) (c_snaps c) Ch) as (ws & A & Ew & Kd); [intros nm v I; apply (Sh nm v I)|].
  unfold PipeModel.recorded. assert (send_state (c_heap c) utf8 maxlen ufuel maxrec (c_id c) (c_time c) (c_stack c) (c_snaps c) = Some (CState (c_id c) (c_time c) (c_stack c) ws)) as Es by (unfold send_state; rewrite Ew; reflexivity).
  rewrite Es. rewrite (C08_server_accepts _ _ _ _ K _ _ _ _ _ _ Hh Hm HK HL Hs Hn Hid Hts Hst Es). cbn [cmsg_view].
  unfold state_frame. cbn [ms_stack ms_fields ms_time].
  match goal with |- context [match ?F (c_stack c) with Some _ => _ | None => _ end] => assert (forall l, (forall f, In f l -> trim (fr_file f) <> None) -> exists r, F l = Some r) as Tr end.
  { induction l as [|f l IH]; intros H; [eexists; reflexivity|]. destruct (trim (fr_file f)) as [x|] eqn:Ef; [|exfalso; apply (H f (or_introl eq_refl)); exact Ef].
    destruct IH as (r & Er); [intros g I; apply H; right; exact I|]. rewrite Er. eexists. reflexivity. }
  destruct (Tr (c_stack c) Htr) as (st & ->). eexists. split; [reflexivity|]. cbn [cf_fields].
  assert (forall f, In f (map view_field ws) -> lplain f) as Pl.
  { intros f I. apply in_map_iff in I as ([[nm ty] w] & <- & I). destruct (kids_out _ _ _ _ _ _ _ _ _ _ Kd I) as (v & A' & J & Sw). destruct (Sh nm v J) as (Pn & _ & T). apply (shows_plain (c_heap c) utf8 maxlen (S (wdepth w)) maxrec nm v ty w A'); auto. }
  split; [apply collected_wf|]. split; [apply collected_plain; exact Pl|].
  intros name text. rewrite (flatten_spec _ (collected_wf sprint digest (map view_field ws) []) (collected_plain sprint digest _ [] Pl)).
  split.
  - intros (p & L & ->). apply C34_stored_fields_exact in L. apply (kept_iff (c_heap c) utf8 maxlen sprint digest p maxrec _ ws A [] text Kd Nd) in L; [|intros nm v I; apply (Sh nm v I)|discriminate].
    destruct L as (nm & v & q & ty & x & I & -> & Hv & Sa). exists ty, x. split; [|exact Sa]. exists nm, v, q. split; [exact I|]. auto.
  - intros (ty & x & (nm & v & q & I & Hv & ->) & Sa). exists (nm :: q). split; [|reflexivity]. apply C34_stored_fields_exact. apply (kept_iff (c_heap c) utf8 maxlen sprint digest (nm :: q) maxrec _ ws A [] text Kd Nd); [intros nm' v' I'; apply (Sh nm' v' I')|discriminate|].
    exists nm, v, q, ty, x. auto.
Qed.
(** What is kept of a capture are exactly the undivided values, each under its dotted path, in the stored form of its text. *)
Theorem C81_recorded c : good c -> exists f, recorded c = Some f /\
  forall name text, mget name (flatten (cf_fields f)) = Some text <->
    exists ty p, captured c name ty p /\ stored_as digest ty (sprint p) text.
Proof. intros G. destruct (recorded_full c G) as (f & E & _ & _ & H). exists f. auto. Qed.

(** ** What is kept survives storing *)
(** A frame with the content of what was recorded, as it is after storing and loading (C15). *)
Definition kept (c : capture) (f : cframe) : Prop :=
  exists f0, recorded c = Some f0 /\ same_fields (cf_fields f0) (cf_fields f) /\ fvals_wf (cf_fields f).

Lemma leaf_same f p v : leaf_at f p v -> forall g, same_fields f g -> leaf_at g p v.
Proof.
  induction 1 as [f k v c E C|f k w c p v E L IH]; intros g [S _]; destruct (S k _ E) as ([w' c'] & E' & T); apply same_tree_inv in T as [-> T].
  - eapply leaf_here; [exact E'|]. eapply same_fields_nil; eassumption.
  - eapply leaf_below; [exact E'|]. apply IH. exact T.
Qed.
Lemma tree_plain n : names_plain n -> forall m, fwf m -> same_tree n m -> names_plain m.
Proof.
  intros P m W. revert n P. induction W as [v c N W IH]. intros [v' c'] P S. apply same_tree_inv in S as [-> [_ S]]. inversion P; subst. constructor. intros k x I.
  destruct (S k x (mget_in_wf k x _ N I)) as (a & Ea & Ta). apply mget_in in Ea. destruct (H0 k a Ea) as [Pk Pa]. split; [exact Pk|]. apply (IH k x I a Pa Ta).
Qed.
Lemma plain_same f g : fvals_plain f -> fvals_wf g -> same_fields f g -> fvals_plain g.
Proof.
  intros P [N W] [_ S] k x I. destruct (S k x (mget_in_wf k x _ N I)) as (a & Ea & Ta). apply mget_in in Ea. destruct (P k a Ea) as [Pk Pa]. split; [exact Pk|]. apply (tree_plain a Pa x (W k x I) Ta).
Qed.
Lemma kept_fields c f : good c -> kept c f -> forall name text, field_is f name text <-> exists ty p, captured c name ty p /\ stored_as digest ty (sprint p) text.
Proof.
  intros G (f0 & E & S & W) name text. destruct (recorded_full c G) as (f1 & E1 & W0 & P0 & H). assert (f1 = f0) as -> by congruence. clear E1. rewrite <- H. unfold field_is.
  rewrite (flatten_spec _ W (plain_same _ _ P0 W S)), (flatten_spec _ W0 P0). split; intros (p & L & ->); exists p; split; auto; [apply (leaf_same _ _ _ L); apply same_fields_sym; exact S|apply (leaf_same _ _ _ L); exact S].
Qed.

Variable quote : bytes -> bytes.
Variable unified : bytes -> bytes -> option bytes.
Variable key : cframe -> bytes.
Variable mult : N.
Notation report pre post := (cmp_result quote unified key mult pre post).

(** The calls of caller [c] in a result, and what was captured at them. *)
Definition calls_of (r : tresult) (c : bytes) (xs : list capture) : Prop := Forall good xs /\ Forall2 kept xs (frames_of r c).

Lemma forall2_nth {X Y} (R : X -> Y -> Prop) l m : Forall2 R l m -> forall i, match nth_error l i, nth_error m i with Some x, Some y => R x y | None, None => True | _, _ => False end.
Proof. induction 1 as [|x y l m H F IH]; intros [|i]; cbn; auto. apply IH. Qed.
Lemma call_at r c xs i x : calls_of r c xs -> nth_error xs i = Some x -> exists f, nth_error (frames_of r c) i = Some f /\ good x /\ kept x f.
Proof.
  intros [G K] E. pose proof (forall2_nth _ _ _ K i) as H. rewrite E in H. destruct (nth_error (frames_of r c) i) as [f|]; [|destruct H]. exists f. split; [reflexivity|]. split; [|exact H]. rewrite Forall_forall in G. apply G. eapply nth_error_In; eassumption.
Qed.
Lemma call_of r c xs i f : calls_of r c xs -> nth_error (frames_of r c) i = Some f -> exists x, nth_error xs i = Some x /\ good x /\ kept x f.
Proof.
  intros [G K] E. pose proof (forall2_nth _ _ _ K i) as H. rewrite E in H. destruct (nth_error xs i) as [x|] eqn:Ex; [|destruct H]. exists x. split; [reflexivity|]. split; [|exact H]. rewrite Forall_forall in G. apply G. eapply nth_error_In; eassumption.
Qed.

(** Two matched calls had at a name values that are stored differently. *)
Definition differs (pre post : tresult) (c : bytes) (xs ys : list capture) (name : bytes) (i : nat) (t t' : bytes) : Prop :=
  exists j x y ty p ty' p', matched key (frames_of pre c) (frames_of post c) i j /\ nth_error xs i = Some x /\ nth_error ys j = Some y /\
    captured x name ty p /\ captured y name ty' p' /\ stored_as digest ty (sprint p) t /\ stored_as digest ty' (sprint p') t' /\ t <> t'.

Lemma pair_captured pre post c xs ys name i j t t' : calls_of pre c xs -> calls_of post c ys ->
  (pair_values key pre post c name i j t t' <->
   exists x y ty p ty' p', matched key (frames_of pre c) (frames_of post c) i j /\ nth_error xs i = Some x /\ nth_error ys j = Some y /\
     captured x name ty p /\ captured y name ty' p' /\ stored_as digest ty (sprint p) t /\ stored_as digest ty' (sprint p') t').
Proof.
  intros Hx Hy. split.
  - intros (f & g & Ef & Eg & M & V & W). destruct (call_of _ _ _ _ _ Hx Ef) as (x & Ex & Gx & Kx). destruct (call_of _ _ _ _ _ Hy Eg) as (y & Ey & Gy & Ky).
    apply (kept_fields x f Gx Kx) in V as (ty & p & C & S). apply (kept_fields y g Gy Ky) in W as (ty' & p' & C' & S'). exists x, y, ty, p, ty', p'. auto 10.
  - intros (x & y & ty & p & ty' & p' & M & Ex & Ey & C & C' & S & S'). destruct (call_at _ _ _ _ _ Hx Ex) as (f & Ef & Gx & Kx). destruct (call_at _ _ _ _ _ Hy Ey) as (g & Eg & Gy & Ky).
    exists f, g. split; [exact Ef|]. split; [exact Eg|]. split; [exact M|]. split; [apply (kept_fields x f Gx Kx); eauto|apply (kept_fields y g Gy Ky); eauto].
Qed.

(** A field is reported for a caller exactly if two matched calls of it had values there that are stored differently; the text is that of the last
    such call. *)
Theorem C81_reported pre post c xs ys name text : calls_of pre c xs -> calls_of post c ys ->
  ((exists l, mget c (olist (rp_fields (report pre post))) = Some l /\ mget name l = Some text) <->
   exists i t t', differs pre post c xs ys name i t t' /\ text = diff_values quote unified t t' /\
     forall i' u u', (i < i')%nat -> ~ differs pre post c xs ys name i' u u').
Proof.
  intros Hx Hy. rewrite (C41_field_changes_exact quote unified key mult pre post c name text). split.
  - intros (i & j & v & w & P & N & -> & L). exists i, v, w. split; [|split; [reflexivity|]].
    + apply (pair_captured _ _ _ _ _ _ _ _ _ _ Hx Hy) in P as (x & y & ty & p & ty' & p' & H). exists j, x, y, ty, p, ty', p'. tauto.
    + intros i' u u' Li (j' & x & y & ty & p & ty' & p' & M & Ex & Ey & C & C' & S & S' & Ne). apply Ne. apply (L i' j' u u' Li). apply (pair_captured _ _ _ _ _ _ _ _ _ _ Hx Hy). exists x, y, ty, p, ty', p'. auto 10.
  - intros (i & t & t' & (j & x & y & ty & p & ty' & p' & M & Ex & Ey & C & C' & S & S' & Ne) & -> & L). exists i, j, t, t'. split; [|split; [exact Ne|split; [reflexivity|]]].
    + apply (pair_captured _ _ _ _ _ _ _ _ _ _ Hx Hy). exists x, y, ty, p, ty', p'. auto 10.
    + intros i' j' u u' Li P. destruct (bytes_eq_dec u u') as [E|N]; [exact E|]. exfalso. apply (L i' u u' Li). apply (pair_captured _ _ _ _ _ _ _ _ _ _ Hx Hy) in P as (x1 & y1 & ty1 & p1 & ty1' & p1' & H). exists j', x1, y1, ty1, p1, ty1', p1'. tauto.
Qed.

(** So a value printed differently after the update, both texts short or of string types, is noticed. *)
Theorem C81_noticed pre post c xs ys i j x y name ty p ty' p' : calls_of pre c xs -> calls_of post c ys ->
  matched key (frames_of pre c) (frames_of post c) i j -> nth_error xs i = Some x -> nth_error ys j = Some y ->
  captured x name ty p -> captured y name ty' p' -> sprint p <> sprint p' ->
  ((length (sprint p) <= 128)%nat \/ exists s, ty = s ++ B "string") -> ((length (sprint p') <= 128)%nat \/ exists s, ty' = s ++ B "string") ->
  exists l text, mget c (olist (rp_fields (report pre post))) = Some l /\ mget name l = Some text /\ text <> [].
Proof.
  intros Hx Hy M Ex Ey C C' N S S'.
  assert (differs pre post c xs ys name i (sprint p) (sprint p')) as D.
  { exists j, x, y, ty, p, ty', p'. repeat (split; [assumption|]). split; [destruct S as [S|S]; [apply sa_short; exact S|apply sa_string; exact S]|]. split; [destruct S' as [S1|S1]; [apply sa_short; exact S1|apply sa_string; exact S1]|exact N]. }
  (* the last call that differs *)
  assert (exists i' t t', differs pre post c xs ys name i' t t' /\ forall i'' u u', (i' < i'')%nat -> ~ differs pre post c xs ys name i'' u u') as (i' & t & t' & D' & L).
  { clear -D Hx Hy. revert D. generalize (sprint p), (sprint p'). intros t t' D.
    assert (forall i t t', differs pre post c xs ys name i t t' -> (i < length xs)%nat) as Bd by (intros k u u' (j1 & x1 & y1 & ty1 & p1 & ty1' & p1' & _ & E & _); apply nth_error_Some; congruence).
    assert (forall i, (exists t t', differs pre post c xs ys name i t t') \/ ~ (exists t t', differs pre post c xs ys name i t t')) as Dec.
    { intros k. destruct (nth_error (frames_of pre c) k) as [f|] eqn:Ef.
      2:{ right. intros (u & u' & j1 & x1 & y1 & ty1 & p1 & ty1' & p1' & (f1 & g1 & E & _) & _). congruence. }
      destruct (partner key (frames_of post c) (frames_of pre c) k f) as [g|] eqn:Eg.
      2:{ right. intros (u & u' & j1 & x1 & y1 & ty1 & p1 & ty1' & p1' & M & _). pose proof M as (f1 & g1 & E1 & E2 & _). assert (partner key (frames_of post c) (frames_of pre c) k f = Some g1) as X by (apply (partner_matched key _ _ _ _ _ Ef); eauto). congruence. }
      pose proof Eg as Eg0. apply (partner_matched key _ _ _ _ _ Ef) in Eg as (j1 & M & E2).
      destruct (mget name (flatten (cf_fields f))) as [u|] eqn:U; [destruct (mget name (flatten (cf_fields g))) as [u'|] eqn:U'|].
      - destruct (bytes_eq_dec u u') as [E|N].
        + right. intros (a & a' & j2 & x1 & y1 & ty1 & p1 & ty1' & p1' & M2 & R & R2 & R3 & R4 & R5 & R6 & R7). assert (pair_values key pre post c name k j2 a a') as P by (apply (pair_captured _ _ _ _ _ _ _ _ _ _ Hx Hy); exists x1, y1, ty1, p1, ty1', p1'; auto 10).
          destruct P as (f1 & g1 & F1 & G1 & _ & V1 & V2). unfold field_is in *. assert (f1 = f) as -> by congruence. assert (j2 = j1) as -> by (apply (C41_matching_one_to_one key (frames_of pre c) (frames_of post c) k j2 k j1 M2 M); reflexivity). assert (g1 = g) as -> by congruence. congruence.
        + left. exists u, u'. assert (pair_values key pre post c name k j1 u u') as P by (exists f, g; auto 10). apply (pair_captured _ _ _ _ _ _ _ _ _ _ Hx Hy) in P as (x1 & y1 & ty1 & p1 & ty1' & p1' & H). exists j1, x1, y1, ty1, p1, ty1', p1'. tauto.
      - right. intros (a & a' & j2 & x1 & y1 & ty1 & p1 & ty1' & p1' & M2 & R & R2 & R3 & R4 & R5 & R6 & R7). assert (pair_values key pre post c name k j2 a a') as P by (apply (pair_captured _ _ _ _ _ _ _ _ _ _ Hx Hy); exists x1, y1, ty1, p1, ty1', p1'; auto 10).
        destruct P as (f1 & g1 & F1 & G1 & _ & V1 & V2). unfold field_is in *. assert (f1 = f) as -> by congruence. assert (j2 = j1) as -> by (apply (C41_matching_one_to_one key (frames_of pre c) (frames_of post c) k j2 k j1 M2 M); reflexivity). assert (g1 = g) as -> by congruence. congruence.
      - right. intros (a & a' & j2 & x1 & y1 & ty1 & p1 & ty1' & p1' & M2 & R & R2 & R3 & R4 & R5 & R6 & R7). assert (pair_values key pre post c name k j2 a a') as P by (apply (pair_captured _ _ _ _ _ _ _ _ _ _ Hx Hy); exists x1, y1, ty1, p1, ty1', p1'; auto 10).
        destruct P as (f1 & g1 & F1 & G1 & _ & V1 & V2). unfold field_is in *. assert (f1 = f) as -> by congruence. congruence. }
    assert (forall d i t t', (length xs - i <= d)%nat -> differs pre post c xs ys name i t t' -> exists i' t t', differs pre post c xs ys name i' t t' /\ forall i'' u u', (i' < i'')%nat -> ~ differs pre post c xs ys name i'' u u') as Go.
    { induction d as [|d IH]; intros k u u' Lk Dk; [pose proof (Bd _ _ _ Dk); lia|].
      assert ((exists k' u u', (k < k')%nat /\ differs pre post c xs ys name k' u u') \/ ~ (exists k' u u', (k < k')%nat /\ differs pre post c xs ys name k' u u')) as [(k' & u1 & u1' & L1 & D1)|No].
      { assert (forall n, (exists k' u u', (k < k' < n)%nat /\ differs pre post c xs ys name k' u u') \/ ~ (exists k' u u', (k < k' < n)%nat /\ differs pre post c xs ys name k' u u')) as H.
        { induction n as [|n In]; [right; intros (k' & a & a' & X & _); lia|]. destruct In as [(k' & a & a' & X & Y)|In]; [left; exists k', a, a'; split; [lia|exact Y]|].
          destruct (Dec n) as [(a & a' & Y)|Y]; [destruct (Nat.lt_ge_cases k n); [left; exists n, a, a'; split; [lia|exact Y]|]|].
          - right. intros (k' & b & b' & X & _). lia.
          - right. intros (k' & b & b' & X & Z). destruct (Nat.eq_dec k' n) as [->|Nn]; [apply Y; eauto|]. apply In. exists k', b, b'. split; [lia|exact Z]. }
        destruct (H (length xs)) as [(k' & a & a' & X & Y)|No]; [left; exists k', a, a'; split; [lia|exact Y]|]. right. intros (k' & a & a' & X & Y). apply No. exists k', a, a'. split; [|exact Y]. pose proof (Bd _ _ _ Y). lia. }
      - apply (IH k' u1 u1'); [pose proof (Bd _ _ _ D1); lia|exact D1].
      - exists k, u, u'. split; [exact Dk|]. intros k' a a' L1 D1. apply No. eauto. }
    apply (Go (length xs) i t t'); [lia|exact D]. }
  destruct (proj2 (C81_reported pre post c xs ys name (diff_values quote unified t t') Hx Hy)) as (l & El & En).
  { exists i', t, t'. auto. }
  exists l, (diff_values quote unified t t'). split; [exact El|]. split; [exact En|]. intros E. destruct D' as (j1 & x1 & y1 & ty1 & p1 & ty1' & p1' & _ & _ & _ & _ & _ & _ & _ & Ne). exact (Ne (proj1 (C40_empty_iff_equal quote unified t t') E)).
Qed.

(** And if every call has its match with the same values, nothing is reported, whatever the addresses, the order of maps and the times. *)
Theorem C81_unchanged pre post : result_ok pre -> result_ok post ->
  (forall c, In c (mkeys (olist (tr_callers pre))) -> exists xs ys, calls_of pre c xs /\ calls_of post c ys /\
     forall i x, nth_error xs i = Some x -> exists j y, matched key (frames_of pre c) (frames_of post c) i j /\ nth_error ys j = Some y /\
       forall name ty p, captured x name ty p -> captured y name ty p) ->
  (forall id m, count_occ bytes_eq_dec (messages (olist (tr_ppanics pre)) id) m = count_occ bytes_eq_dec (messages (olist (tr_ppanics post)) id) m) ->
  (forall id m, count_occ bytes_eq_dec (messages (olist (tr_mpanics pre)) id) m = count_occ bytes_eq_dec (messages (olist (tr_mpanics post)) id) m) ->
  rp_diff (report pre post) = 0.
Proof.
  intros O O' H P P'. apply C41_no_difference_iff; [exact O|exact O'|]. split; [|auto]. intros c i f I E _. destruct (H c I) as (xs & ys & Hx & Hy & S).
  destruct (call_of _ _ _ _ _ Hx E) as (x & Ex & Gx & Kx). destruct (S i x Ex) as (j & y & M & Ey & C). destruct (call_at _ _ _ _ _ Hy Ey) as (g & Eg & Gy & Ky). exists j, g. split; [exact M|]. split; [exact Eg|].
  intros n v V. apply (kept_fields x f Gx Kx) in V as (ty & p & Cx & Sx). apply (kept_fields y g Gy Ky). exists ty, p. auto.
Qed.
End C81.
Print Assumptions C81_recorded.
Print Assumptions C81_reported.
Print Assumptions C81_noticed.
Print Assumptions C81_unchanged.

(** ** Concrete captures *)
Lemma tidy_intro h v t : ends_at h v t -> NoDup (map fst (parts h t)) -> Forall (fun s => plain_name (fst s)) (parts h t) -> ~ reflective (type_at t) ->
  (forall nm c, In (nm, c) (parts h t) -> tidy h c) -> tidy h v.
Proof.
  intros E N P R K path t' F. inversion F as [v0 t0 E0|v0 t0 nm c pa t1 E0 J F']; subst.
  - rewrite (ends_det h v t' t E0 E). split; [exact N|]. split; [|exact R]. intros nm c I. rewrite Forall_forall in P. exact (P (nm, c) I).
  - rewrite (ends_det h v t0 t E0 E) in J. exact (K nm c J pa t' F').
Qed.
Definition no_heap : heap := mkHeap (fun _ => RInvalid) (fun _ => EBools []) (fun _ => []) (fun _ => []).
Lemma chains_flat h : (forall a n, ends h n (h_ptr h a)) -> chains_end h 1.
Proof.
  intros Hp. unfold chains_end. fix IH 1. intros [| ty' [v''|] | ty' [a|] | | | | | | | | |];
    try (apply en_stop; discriminate); try (constructor; fail).
  - apply en_iface, IH.
  - apply en_ptr, Hp.
Qed.
(** type T struct { N int; M map[string]any; L []S }, two entries, one S of one string. *)
Definition h81 (n : Z) (swap : bool) : heap :=
  let m := [(B "a", RScalar (B "bool") (PBool true)); (B "b", RStr (B "string") (B "x"))] in
  mkHeap (fun a => if a =? 1 then RStruct (B "p.T") [(B "N", RScalar (B "int") (PInt64 n)); (B "M", RMap (B "map[string]any") (Some 2)); (B "L", RSlice (B "[]p.S") (Some (3, 4)))] else RInvalid)
         (fun i => if i =? 4 then EVals [RStruct (B "p.S") [(B "W", RStr (B "string") (B "y"))]] else EBools [])
         (fun a => if swap then rev m else m) (fun a => m).
Definition x81 (n : Z) (swap : bool) (ts : Z) : capture :=
  Capture (h81 n swap) 7 ts [mkFrame (B "/p/f.go") (B "p.f") 12] [(B "t", RPtr (B "*p.T") (Some 1)); (B "nil", RInvalid); (B "err", RIface (B "error") None)].
Ltac names := repeat constructor; cbn; intuition discriminate.
Ltac plain := repeat constructor; cbn; try discriminate; intuition discriminate.
Ltac leafy t := apply (tidy_intro _ _ t); [cbn; first [apply re_stop; discriminate|constructor]|constructor|constructor|intros [E|[E|E]]; discriminate E|intros ? ? []].
Lemma map_shown n swap : exists ws A, shows_kids (h81 n swap) all_text 1024 98 (h_map (h81 n swap) 2) ws A /\ A = [].
Proof.
  destruct swap; cbn [h_map h81 rev app]; eexists; eexists; (split; [|reflexivity]).
  - eapply (shk_cons _ _ _ _ _ _ _ _ _ _ []); [eapply (sh_str _ _ _ _ (RStr _ _)); [apply re_stop; discriminate|vm_compute; discriminate]|]. eapply (shk_cons _ _ _ _ _ _ _ _ _ _ []); [apply (sh_scalar _ _ _ _ (RScalar _ _)), re_stop; discriminate|apply shk_nil].
  - eapply (shk_cons _ _ _ _ _ _ _ _ _ _ []); [apply (sh_scalar _ _ _ _ (RScalar _ _)), re_stop; discriminate|]. eapply (shk_cons _ _ _ _ _ _ _ _ _ _ []); [eapply (sh_str _ _ _ _ (RStr _ _)); [apply re_stop; discriminate|vm_compute; discriminate]|apply shk_nil].
Qed.
Example C81_good n swap ts : in_i64 n -> in_i64 ts -> good_capture all_text (fun f => Some f) 1024 100 1 (x81 n swap ts).
Proof.
  intros Hi Hts. split; [exists 21; split; [|repeat split]|split; [|split]].
  - split; [|split].
    + intros a. cbn. destruct (a =? 1); [|constructor]. constructor; [reflexivity|vm_compute; discriminate|]. intros nm v [E|[E|[E|[]]]]; apply pair_equal_spec in E; destruct E as [<- <-]; (split; [vm_compute; discriminate|constructor; auto; reflexivity]).
    + intros i. cbn. destruct (i =? 4); [|constructor]. constructor. intros v [<-|[]]. constructor; [reflexivity|vm_compute; discriminate|]. intros nm v [E|[]]. apply pair_equal_spec in E; destruct E as [<- <-]. split; [vm_compute; discriminate|constructor; reflexivity].
    + intros a nm v H. assert (In (nm, v) [(B "a", RScalar (B "bool") (PBool true)); (B "b", RStr (B "string") (B "x"))]) as [E|[E|[]]].
      { destruct H as [H|H]; [|exact H]. cbn in H. destruct swap; [cbn in H|exact H]. cbn. tauto. }
      all: apply pair_equal_spec in E; destruct E as [<- <-]; (split; [vm_compute; discriminate|constructor; auto; reflexivity]).
  - discriminate.
  - discriminate.
  - cbn in H. destruct H as [E|[E|[E|[]]]]; apply pair_equal_spec in E; destruct E as [<- <-]; vm_compute; discriminate.
  - cbn in H. destruct H as [E|[E|[E|[]]]]; apply pair_equal_spec in E; destruct E as [<- <-]; constructor; reflexivity.
  - apply Hts.
  - apply Hts.
  - vm_compute; discriminate.
  - repeat constructor; vm_compute; reflexivity.
  - discriminate.
  - apply chains_flat. intros a k. cbn. destruct (a =? 1); apply en_stop; discriminate.
  - cbn. repeat constructor; cbn; intuition discriminate.
  - assert (forall v, In v [RPtr (B "*p.T") (Some 1); RIface (B "error") None] -> exact_value all_text 1024 100 (h81 n swap) v) as H.
    { destruct (map_shown n swap) as (wm & Am & Km & ->). intros v [<-|[<-|[]]].
      - split.
        + eexists. eexists. eexists. split.
          * eapply sh_struct; [apply re_ptr; cbn; apply re_stop; discriminate|]. eapply shk_cons; [apply sh_scalar, re_stop; discriminate|].
            eapply shk_cons; [eapply sh_map; [apply re_stop; discriminate|destruct swap; vm_compute; discriminate|]|].
            { exact Km. }
            eapply shk_cons; [|apply shk_nil]. eapply sh_slice; [apply re_stop; discriminate|]. cbn [h_slice h81]. change (4 =? 4) with true. cbn iota. eapply she_vals; [vm_compute; discriminate| |].
            { instantiate (1 := [(B "[0]", RStruct (B "p.S") [(B "W", RStr (B "string") (B "y"))])]). split; [reflexivity|]. intros [|[|i]] v E; [|discriminate E|destruct i; discriminate E]. injection E as <-. reflexivity. }
            eapply shk_cons; [|apply shk_nil]. eapply sh_struct; [apply re_stop; discriminate|]. eapply shk_cons; [|apply shk_nil]. apply sh_str; [apply re_stop; discriminate|vm_compute; discriminate].
          * cbn. repeat constructor; cbn; intuition discriminate.
        + apply (tidy_intro _ _ (At (h_ptr (h81 n swap) 1))); [cbn; apply re_ptr; cbn; apply re_stop; discriminate|names|plain|intros [E|[E|E]]; discriminate E|].
          intros nm c [E|[E|[E|[]]]]; apply pair_equal_spec in E; destruct E as [<- <-].
          * leafy (At (RScalar (B "int") (PInt64 n))).
          * apply (tidy_intro _ _ (At (RMap (B "map[string]any") (Some 2)))); [cbn; apply re_stop; discriminate|destruct swap; names|destruct swap; plain|intros [E|[E|E]]; discriminate E|].
            intros nm c I. assert (c = RScalar (B "bool") (PBool true) \/ c = RStr (B "string") (B "x")) as [-> | ->].
            { destruct swap; cbn in I; destruct I as [E|[E|[]]]; apply pair_equal_spec in E; destruct E as [_ <-]; auto. }
            { leafy (At (RScalar (B "bool") (PBool true))). } { leafy (At (RStr (B "string") (B "x"))). }
          * apply (tidy_intro _ _ (At (RSlice (B "[]p.S") (Some (3, 4))))); [cbn; apply re_stop; discriminate|names|plain|intros [E|[E|E]]; discriminate E|].
            intros nm c [E|[]]; apply pair_equal_spec in E; destruct E as [<- <-]. apply (tidy_intro _ _ (At (RStruct (B "p.S") [(B "W", RStr (B "string") (B "y"))]))); [cbn; apply re_stop; discriminate|names|plain|intros [E|[E|E]]; discriminate E|].
            intros nm c [E|[]]; apply pair_equal_spec in E; destruct E as [<- <-]. leafy (At (RStr (B "string") (B "y"))).
      - split.
        + exists (B "error"), (WPrim PNil), []. split; [apply (sh_nil _ _ _ _ (RIface (B "error") None)), rn_iface|constructor].
        + leafy (AtNil (B "error")). }
    intros nm v I. cbn in I. destruct I as [E|[E|[]]]; apply pair_equal_spec in E; destruct E as [<- <-]; (split; [plain|apply H; cbn; auto]).
Qed.
(** Printing as Go does it, for the values of the examples. *)
Definition print81 (p : prim) : bytes :=
  match p with PInt64 z => (if (z <? 0)%Z then B "-" else []) ++ itoa (Z.to_N (Z.abs z)) | PBool true => B "true" | PBool false => B "false" | PStr s => s | _ => B "<nil>" end.
Definition rec81 (x : capture) : option cframe := recorded all_text print81 (fun s => s) (fun f => Some f) 1024 100 1 x.
Definition res81 (x : capture) : tresult := match rec81 x with Some f => TResult (B "p.TestF") (B "TestF") (Some [(B "p.f", [f])]) None None 1 false None | None => tresult0 end.
Example C81_example :
  option_map (fun f => (flatten (cf_fields f), cf_time f)) (rec81 (x81 5 false 3000000)) =
    Some ([(B "t.N", B "5"); (B "t.M.a", B "true"); (B "t.M.b", B "x"); (B "t.L.[0].W", B "y"); (B "err", B "<nil>")], 3) /\
  (let r := cmp_result (fun s => s) (fun _ _ => None) (fun _ => []) 2 (res81 (x81 5 false 1)) (res81 (x81 5 true 900)) in rp_diff r = 0 /\ rp_same r = 5 /\ olist (rp_fields r) = []) /\
  (let r := cmp_result (fun s => s) (fun _ _ => None) (fun _ => []) 2 (res81 (x81 5 false 1)) (res81 (x81 6 true 900)) in rp_diff r = 1 /\ rp_same r = 4 /\ map (fun e => (fst e, mkeys (snd e))) (olist (rp_fields r)) = [(B "p.f", [B "t.N"])]).
Proof. vm_compute. repeat split; reflexivity. Qed.

(** ** Where values and reports part *)
(** Refuted: values of different types are told apart.  Types are not kept, so an int that becomes a string of the same text is not noticed. *)
Definition one81 (v : rv) : capture := Capture no_heap 7 0 [] [(B "v", v)].
Theorem C81_types_refuted : exists v w, v <> w /\ rv_type v <> rv_type w /\
  forall utf8 sprint digest trim, sprint (PInt64 1) = B "1" -> (forall s, sprint (PStr s) = s) ->
    exists f, recorded utf8 sprint digest trim 1024 100 1 (one81 v) = Some f /\ recorded utf8 sprint digest trim 1024 100 1 (one81 w) = Some f.
Proof.
  exists (RScalar (B "int") (PInt64 1)), (RStr (B "string") (B "1")). split; [discriminate|]. split; [discriminate|]. intros utf8 sprint digest trim E1 E2.
  assert (forall v ty p, stream_snaps no_heap utf8 1024 1 100 [(B "v", v)] = Some [(B "v", ty, WPrim p)] -> serve 1024 (post (CState 7 0 [] [(B "v", ty, WPrim p)])) = Served 200 (Some (EvState (mkState 7 0 [] [LF (B "v") ty p []]))) ->
    recorded utf8 sprint digest trim 1024 100 1 (one81 v) = Some (CFrame (Some (collect_all sprint digest [] [LF (B "v") ty p []] [])) (Some []) 0)) as R.
  { intros v ty p S V. unfold recorded, send_state. cbn [c_heap c_snaps one81 c_id c_time c_stack]. rewrite S, V. reflexivity. }
  eexists. split.
  - rewrite (R _ (B "int") (PInt64 1)); [|reflexivity|vm_compute; reflexivity]. unfold collect_all. cbn [fold_left]. rewrite collect_field_eq. cbn [node_of]. rewrite E1. vm_compute. reflexivity.
  - rewrite (R _ (B "string") (PStr (B "1"))); [|reflexivity|vm_compute; reflexivity]. unfold collect_all. cbn [fold_left]. rewrite collect_field_eq. cbn [node_of]. rewrite E2. vm_compute. reflexivity.
Qed.
Print Assumptions C81_types_refuted.
(** Refuted: nil and empty are told apart. *)
Theorem C81_nil_refuted : forall ty utf8 sprint digest trim, str_ok ty -> rv_type (RMap ty None) = ty /\
  recorded utf8 sprint digest trim 1024 100 1 (one81 (RMap ty None)) = recorded utf8 sprint digest trim 1024 100 1 (one81 (RMap ty (Some 2))) /\
  recorded utf8 sprint digest trim 1024 100 1 (one81 (RMap ty None)) <> None.
Proof.
  intros ty utf8 sprint digest trim T. split; [reflexivity|].
  assert (forall w, str_ok ty -> val_ok 1024 w -> serve 1024 (post (CState 7 0 [] [(B "v", ty, w)])) = Served 200 (Some (EvState (mkState 7 0 [] [view_field (B "v", ty, w)])))) as V.
  { intros w Ht Hw. assert (cmsg_ok 1024 (CState 7 0 [] [(B "v", ty, w)])) as O.
    { split; [reflexivity|]. split; [unfold in_i64; lia|]. split; [split; [vm_compute; discriminate|constructor]|]. split; [|reflexivity]. constructor; [|constructor]. split; [reflexivity|]. split; assumption. }
    pose proof (C05_messages_delivered 1024 [CState 7 0 [] [(B "v", ty, w)]] ltac:(reflexivity) ltac:(constructor; [exact O|constructor])) as H. cbn [map] in H. injection H as H. exact H. }
  unfold recorded, send_state. cbn [c_heap c_snaps one81 c_id c_time c_stack].
  assert (stream_snaps no_heap utf8 1024 1 100 [(B "v", RMap ty None)] = Some [(B "v", ty, WPrim PNil)]) as -> by reflexivity.
  assert (stream_snaps no_heap utf8 1024 1 100 [(B "v", RMap ty (Some 2))] = Some [(B "v", ty, WNode KMap [])]) as -> by reflexivity.
  rewrite (V (WPrim PNil) T ltac:(constructor; exact I)), (V (WNode KMap []) T ltac:(constructor; [vm_compute; discriminate|constructor])). cbn [view_field view_val fst snd map]. split; [reflexivity|discriminate].
Qed.
Print Assumptions C81_nil_refuted.
(** Refuted: the same values give no difference.  Two entries of a map that hold the same pointer: the one that comes first is shown, the other is
    called a cycle, and Go iterates maps in any order.  Not even the addresses differ between the runs. *)
Definition shared81 (swap : bool) : capture :=
  let m := [(B "a", RPtr (B "*int") (Some 5)); (B "b", RPtr (B "*int") (Some 5))] in
  Capture (mkHeap (fun _ => RScalar (B "int") (PInt64 7)) (fun _ => EBools []) (fun _ => if swap then rev m else m) (fun _ => m)) 7 0 [] [(B "m", RMap (B "map[string]*int") (Some 2))].
Theorem C81_map_order_refuted : forall quote unified mult,
  (forall path ty p nm v, In (nm, v) (c_snaps (shared81 false)) -> In (nm, v) (c_snaps (shared81 true)) /\
     (has_value (c_heap (shared81 false)) all_text v path ty p <-> has_value (c_heap (shared81 true)) all_text v path ty p)) /\
  option_map (fun f => flatten (cf_fields f)) (rec81 (shared81 false)) = Some [(B "m.a", B "7"); (B "m.b", B "<cycle:m.a>")] /\
  option_map (fun f => flatten (cf_fields f)) (rec81 (shared81 true)) = Some [(B "m.b", B "7"); (B "m.a", B "<cycle:m.b>")] /\
  rp_diff (cmp_result quote unified (fun _ => []) mult (res81 (shared81 false)) (res81 (shared81 true))) = 2.
Proof.
  intros quote unified mult. split; [|vm_compute; repeat split; reflexivity].
  intros path ty p nm v I. split; [exact I|].
  assert (forall b v t, ends_at (c_heap (shared81 b)) v t -> ends_at (c_heap (shared81 (negb b))) v t) as En.
  { intros b w [ty0|u]; cbn [ends_at]; intros H; induction H; try (constructor; assumption). }
  assert (forall b t nm c, In (nm, c) (parts (c_heap (shared81 b)) t) -> In (nm, c) (parts (c_heap (shared81 (negb b))) t)) as Pa.
  { intros b [|[| | | | | |? [[? ?]|]|? [a|]| | | |]] k c; cbn; auto; destruct b; cbn; tauto. }
  assert (forall b v path t, found (c_heap (shared81 b)) v path t -> found (c_heap (shared81 (negb b))) v path t) as Fo.
  { intros b w q t F. induction F; [constructor; apply En; assumption|]. eapply fo_down; [apply En; eassumption|apply Pa; eassumption|assumption]. }
  assert (forall b, has_value (c_heap (shared81 b)) all_text v path ty p -> has_value (c_heap (shared81 (negb b))) all_text v path ty p) as Hv.
  { intros b (t & F & P & E1 & E2). exists t. split; [apply Fo; exact F|]. split; [|split; [exact E1|rewrite E2; destruct t as [|u]; [reflexivity|destruct u as [| | | | | |? [[? ?]|]| | | | |]; reflexivity]]].
    destruct (parts (c_heap (shared81 (negb b))) t) as [|[k c] l] eqn:Ep; [reflexivity|]. exfalso. assert (In (k, c) (parts (c_heap (shared81 b)) t)) as J by (rewrite <- (negb_involutive b); apply Pa; rewrite Ep; left; reflexivity). rewrite P in J. destruct J. }
  split; [exact (Hv false)|exact (Hv true)].
Qed.
Print Assumptions C81_map_order_refuted.
