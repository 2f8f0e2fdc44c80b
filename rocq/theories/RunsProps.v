(** Property C86: what is reported, from the two runs of a test before the update and its run after it. *)
From Verif Require Import Base Maps TypesModel TypesSpec TypesProofs StableModel StableProps MonitorModel FieldsProps CompareModel CompareProps WireModel WireSpec ClientModel ClientSpec ClientProps PipeModel PipeSpec PipeProps ModifierModel BatchModel AttrModel AttrSpec MonitorProps PointIdProps AttrProps RunsModel RunsProofs.
From Coq Require Import Permutation.

Section C86.
Variable quote : bytes -> bytes.
Variable unified : bytes -> bytes -> option bytes.
Variable mult : N.
Variable sha1 : bytes -> bytes.
Notation key := (project_key sha1).
Notation report pre post := (cmp_result quote unified key mult pre post).

(** Frames as the monitor makes them (C81_recorded): maps with each name once, names without dots. *)
Definition plain_frames (l : list cframe) : Prop := Forall (fun f => fvals_wf (cf_fields f) /\ fvals_plain (cf_fields f)) l.
(** [r] is [r0] stored and loaded (C15). *)
Definition reloaded (r0 r : tresult) : Prop := same_frames (tr_callers r) (tr_callers r0) /\ tr_callers r <> None /\ forall c, frames_wf (frames_of r c).

Lemma key_same f g : same_frame f g -> key f = key g.
Proof. intros (_ & S & _). unfold project_key, project_frames. unfold same_list in S. rewrite S. reflexivity. Qed.
Lemma reloaded_frames r0 r c : reloaded r0 r -> Forall2 same_frame (frames_of r c) (frames_of r0 c).
Proof. intros (S & _). specialize (S c). unfold frames_of. destruct (mget c (olist (tr_callers r))), (mget c (olist (tr_callers r0))); try contradiction; [exact S|constructor]. Qed.
Lemma forall2_nth1 {X Y} (R : X -> Y -> Prop) l m i x : Forall2 R l m -> nth_error l i = Some x -> exists y, nth_error m i = Some y /\ R x y.
Proof. intros F E. pose proof (forall2_nth R l m F i) as H. rewrite E in H. destruct (nth_error m i) as [y|]; [eauto|destruct H]. Qed.
Lemma forall2_nth2 {X Y} (R : X -> Y -> Prop) l m i y : Forall2 R l m -> nth_error m i = Some y -> exists x, nth_error l i = Some x /\ R x y.
Proof. intros F E. pose proof (forall2_nth R l m F i) as H. rewrite E in H. destruct (nth_error l i) as [x|]; [eauto|destruct H]. Qed.
Lemma common_none l : forall u, common key [] u l = [].
Proof. induction l as [|f l IH]; intros u; [reflexivity|]. cbn [common with_key filter]. destruct (used_at u (key f)); cbn [nth_error]; apply IH. Qed.

Section Caller.
Variable r1 r2 pre post0 post : tresult.
Variable c : bytes.
Variable ps : list cframe.
Notation l1 := (sort_frames (frames_of r1 c)).
Notation l2 := (sort_frames (frames_of r2 c)).
Hypothesis Hn : NoDup (mkeys (olist (tr_callers r1))).
Hypothesis P1 : plain_frames (frames_of r1 c).
Hypothesis P2 : plain_frames (frames_of r2 c).
Hypothesis Pp : plain_frames ps.
Hypothesis Hpre : reloaded (stable_result sha1 r1 r2) pre.
Hypothesis Hfil : frames_of post0 c = record_all key (option_map (fun s => s c) (filter_of (Some pre))) ps.
Hypothesis Hpost : reloaded post0 post.

Lemma stable_of_caller : frames_of (stable_result sha1 r1 r2) c = common key l2 [] l1.
Proof.
  unfold frames_of. cbn [tr_callers stable_result olist]. rewrite mget_stable_frames by exact Hn. destruct (mget c (olist (tr_callers r1))) as [a|]; [|reflexivity].
  destruct (mget c (olist (tr_callers r2))) as [b|]; [reflexivity|]. symmetry. apply common_none.
Qed.
Lemma plain_sorted l f : plain_frames l -> In f (sort_frames l) -> fvals_wf (cf_fields f) /\ fvals_plain (cf_fields f).
Proof. unfold plain_frames. rewrite Forall_forall. intros H I. apply H. eapply Permutation_in; [apply sort_frames_perm|exact I]. Qed.
Lemma leaf_same_iff f g p v : same_fields f g -> (leaf_at f p v <-> leaf_at g p v).
Proof. intros S. split; intros L; [apply (leaf_same _ _ _ L _ S)|apply (leaf_same _ _ _ L), same_fields_sym, S]. Qed.
Lemma field_leaf f name v : fvals_wf (cf_fields f) -> fvals_plain (cf_fields f) -> (field_is f name v <-> exists p, leaf_at (cf_fields f) p v /\ name = dotted p).
Proof. intros W P. apply flatten_spec; assumption. Qed.

Lemma paths_eq f g p q v w : fvals_plain f -> fvals_plain g -> leaf_at f p v -> leaf_at g q w -> dotted p = dotted q -> p = q.
Proof.
  intros Pf Pg L L' E. apply dotted_inj; [intros ->; destruct (leaf_at_nil _ _ L)|intros ->; destruct (leaf_at_nil _ _ L')|exact (leaf_at_plain _ _ _ Pf L)|exact (leaf_at_plain _ _ _ Pg L')|exact E].
Qed.
(** The fields of a call before the update that is kept. *)
Lemma pre_field i f1 f2 f name t : nth_error l1 i = Some f1 -> In f2 l2 -> same_frame f (stab f1 f2) -> fvals_wf (cf_fields f) ->
  (field_is f name t <-> field_is f1 name t /\ field_is f2 name t).
Proof.
  intros E1 I2 (S & _) W. destruct (plain_sorted _ f1 P1) as [W1 Q1]; [eapply nth_error_In; exact E1|]. destruct (plain_sorted _ f2 P2 I2) as [W2 Q2]. cbn [stab cf_fields] in S.
  assert (fvals_plain (cf_fields f)) as Q by (apply (plain_same (stable_fields (cf_fields f1) (cf_fields f2))); [apply stable_plain, Q1|exact W|apply same_fields_sym, S]).
  rewrite (field_leaf f) by assumption. rewrite (field_leaf f1), (field_leaf f2) by assumption. split.
  - intros (p & L & ->). rewrite (leaf_same_iff _ _ _ _ S) in L. apply (C32_stable_fields_exact _ _ _ _ W1) in L as [A C]. split; exists p; auto.
  - intros ((p & A & ->) & (q & C & E)). assert (p = q) as <- by (apply (paths_eq _ _ _ _ _ _ Q1 Q2 A C E)).
    exists p. split; [|reflexivity]. rewrite (leaf_same_iff _ _ _ _ S). apply (C32_stable_fields_exact _ _ _ _ W1). auto.
Qed.
(** The fields of a call after the update: those of the call, under the names at top that its match before has. *)
Lemma post_leaf m f g0 g i' p t : nth_error (frames_of pre c) i' = Some f -> nth_error ps m = Some g0 -> nth_error (frames_of post c) m = Some g ->
  key f = key g0 -> before key (frames_of pre c) i' (key f) = before key ps m (key g0) ->
  (leaf_at (cf_fields g) p t <-> leaf_at (cf_fields g0) p t /\ exists k q, p = k :: q /\ mget k (olist (cf_fields f)) <> None).
Proof.
  intros Ef E0 Eg K Bf. destruct (forall2_nth1 _ _ _ _ _ (reloaded_frames _ _ c Hpost) Eg) as (g1 & E1 & (S & _)). rewrite (leaf_same_iff _ _ _ _ S). clear S.
  rewrite Hfil in E1. destruct Hpre as (_ & Some_ & _). unfold filter_of in E1. destruct (tr_callers pre) as [mp|] eqn:Em; [|contradiction]. cbn [option_map] in E1.
  rewrite (record_nth key (project_key_stack sha1) _ _ _ _ E0) in E1. injection E1 as <-. cbn [cf_fields].
  assert (mget c mp = Some (frames_of pre c)) as Ec. { unfold frames_of in *. rewrite Em in *. cbn [olist] in *. destruct (mget c mp); [reflexivity|destruct i'; discriminate]. }
  rewrite Ec. assert (nth_error (with_key key (key g0) (frames_of pre c)) (before key ps m (key g0)) = Some f) as ->.
  { apply nth_with_key. exists i'. split; [exact Ef|]. split; [exact K|]. rewrite <- Bf, K. reflexivity. }
  rewrite (leaf_olist (cf_fields g0)). rewrite (leaf_filter (fun k => match mget k (olist (cf_fields f)) with Some _ => true | None => false end)).
  split; intros (A & k & q & -> & H); (split; [exact A|]); exists k, q; (split; [reflexivity|]); destruct (mget k (olist (cf_fields f))); congruence.
Qed.
Lemma post_plain m g0 g : nth_error ps m = Some g0 -> nth_error (frames_of post c) m = Some g -> fvals_wf (cf_fields g) /\ fvals_plain (cf_fields g).
Proof.
  intros E0 Eg. destruct (forall2_nth1 _ _ _ _ _ (reloaded_frames _ _ c Hpost) Eg) as (g1 & E1 & (S & _)). destruct Hpost as (_ & _ & W). specialize (W c). unfold frames_wf in W. rewrite Forall_forall in W.
  assert (fvals_wf (cf_fields g)) as Wg by (apply W; eapply nth_error_In; exact Eg). split; [exact Wg|]. apply (plain_same (cf_fields g1)); [|exact Wg|apply same_fields_sym, S].
  rewrite Hfil in E1. destruct Hpre as (_ & Some_ & _). unfold filter_of in E1. destruct (tr_callers pre) as [mp|] eqn:Em; [|contradiction]. cbn [option_map] in E1.
  rewrite (record_nth key (project_key_stack sha1) _ _ _ _ E0) in E1. injection E1 as <-. cbn [cf_fields]. unfold plain_frames in Pp. rewrite Forall_forall in Pp. destruct (Pp g0 (nth_error_In _ _ E0)) as [_ Q].
  intros k x I. cbn [olist] in I. destruct (mget c mp) as [frames|]; [|destruct I]. match type of I with context [match ?o with Some _ => _ | None => _ end] => destruct o end; [|destruct I]. apply filter_In in I as [I _]. exact (Q k x I).
Qed.

(** Call [i] of the first run, in the order of time, has its matches in the second run and after the update; at a name it had the same value in
    both runs before and another one after. *)
Definition changed (name : bytes) (i : nat) (t t' : bytes) : Prop :=
  exists j m f1 f2 g, matched key l1 l2 i j /\ matched key l1 ps i m /\ nth_error l1 i = Some f1 /\ nth_error l2 j = Some f2 /\ nth_error ps m = Some g /\
    field_is f1 name t /\ field_is f2 name t /\ field_is g name t' /\ t <> t'.

Lemma post_before m K : before key (frames_of post c) m K = before key ps m K.
Proof.
  apply stacks_before. pose proof (reloaded_frames _ _ c Hpost) as F. rewrite Hfil in F.
  assert (Forall2 (fun a b => key a = key b) (record_all key (option_map (fun s => s c) (filter_of (Some pre))) ps) ps) as G by (apply (forall2_impl (fun a b => cf_stack a = cf_stack b)); [apply project_key_stack|apply record_stacks]).
  revert F G. generalize (record_all key (option_map (fun s => s c) (filter_of (Some pre))) ps). intros R F G. clear - F G. revert G. generalize ps. induction F as [|a b l l' S F IH]; intros q G; inversion G; subst; constructor; [rewrite (key_same a b S); assumption|apply IH; assumption].
Qed.
Lemma post_nth m : match nth_error (frames_of post c) m, nth_error ps m with Some g, Some g0 => key g = key g0 | None, None => True | _, _ => False end.
Proof.
  pose proof (forall2_nth _ _ _ (reloaded_frames _ _ c Hpost) m) as A. rewrite Hfil in A. pose proof (forall2_nth _ _ _ (record_stacks key (option_map (fun s => s c) (filter_of (Some pre))) ps) m) as C.
  destruct (nth_error (frames_of post c) m), (nth_error (record_all _ _ _) m), (nth_error ps m); try contradiction; [|exact Logic.I]. rewrite (key_same _ _ A). apply project_key_stack, C.
Qed.
Lemma pre_before i K : before key (frames_of pre c) i K = before key (common key l2 [] l1) i K.
Proof. apply stacks_before. rewrite <- stable_of_caller. apply (forall2_impl same_frame); [apply key_same|apply reloaded_frames, Hpre]. Qed.

(** A pair of matched calls with their values at a name in the comparison, and the calls it comes from. *)
Lemma pair_from name i' m t t' : pair_values key pre post c name i' m t t' <->
  exists i j f1 f2 g, i' = place_of key l2 l1 i /\ matched key l1 l2 i j /\ matched key l1 ps i m /\ nth_error l1 i = Some f1 /\ nth_error l2 j = Some f2 /\ nth_error ps m = Some g /\
    field_is f1 name t /\ field_is f2 name t /\ field_is g name t'.
Proof.
  pose proof (project_key_stack sha1) as KS. split.
  - intros (f & g & Ef & Eg & (f' & g' & Ef' & Eg' & K & Bf) & Vf & Vg). assert (f' = f) as -> by congruence. assert (g' = g) as -> by congruence. clear Ef' Eg'.
    destruct (forall2_nth1 _ _ _ _ _ (reloaded_frames _ _ c Hpre) Ef) as (h & Eh & Sh). rewrite stable_of_caller in Eh. destruct (kept_place key l2 l1 i' h Eh) as (i & f1 & f2 & M & -> & ->).
    pose proof M as [E1 M2]. pose proof M2 as N2. apply nth_with_key in M2 as (j & E2 & K2 & B2). pose proof (post_nth m) as Pn. rewrite Eg in Pn. destruct (nth_error ps m) as [g0|] eqn:E0; [|destruct Pn].
    assert (key f = key f1) as Kf by (rewrite (key_same f _ Sh); apply KS; reflexivity).
    assert (before key l1 i (key f1) = before key ps m (key g0)) as Bm by (rewrite <- (place_before key l2 KS l1 i f1 f2 M), <- pre_before, <- Kf, Bf, post_before, Pn; reflexivity).
    assert (fvals_wf (cf_fields f)) as Wf by (destruct Hpre as (_ & _ & W); specialize (W c); unfold frames_wf in W; rewrite Forall_forall in W; apply W; eapply nth_error_In; exact Ef).
    exists i, j, f1, f2, g0. split; [reflexivity|]. split; [exists f1, f2; rewrite K2; auto|]. split; [exists f1, g0; split; [exact E1|]; split; [exact E0|]; split; [congruence|exact Bm]|].
    split; [exact E1|]. split; [exact E2|]. split; [reflexivity|]. apply (pre_field i f1 f2 f name t E1 (nth_error_In _ _ E2) Sh Wf) in Vf as [V1 V2]. split; [exact V1|]. split; [exact V2|].
    destruct (post_plain m g0 g E0 Eg) as [Wg Qg]. apply (field_leaf g name t' Wg Qg) in Vg as (p & L & ->).
    apply (post_leaf m f g0 g (place_of key l2 l1 i) p t' Ef E0 Eg) in L as [L _]; [|congruence|rewrite Bf, post_before, Pn; reflexivity].
    unfold plain_frames in Pp. rewrite Forall_forall in Pp. destruct (Pp g0 (nth_error_In _ _ E0)) as [W0 Q0]. apply (field_leaf g0 _ _ W0 Q0). eauto.
  - intros (i & j & f1 & f2 & g0 & -> & (a & b & Ea & Eb & K & Bj) & (a' & b' & Ea' & Eb' & K' & Bm) & E1 & E2 & E0 & V1 & V2 & V3).
    assert (a = f1) as -> by congruence. assert (b = f2) as -> by congruence. assert (a' = f1) as -> by congruence. assert (b' = g0) as -> by congruence. clear Ea Eb Ea' Eb'.
    assert (has_match key l2 l1 i f1 f2) as M. { split; [exact E1|]. apply nth_with_key. exists j. rewrite Bj, K. auto. }
    pose proof (place_kept key l2 l1 i f1 f2 M) as Eh. rewrite <- stable_of_caller in Eh. destruct (forall2_nth2 _ _ _ _ _ (reloaded_frames _ _ c Hpre) Eh) as (f & Ef & Sh).
    pose proof (post_nth m) as Pn. rewrite E0 in Pn. destruct (nth_error (frames_of post c) m) as [g|] eqn:Eg; [|destruct Pn].
    assert (key f = key f1) as Kf by (rewrite (key_same f _ Sh); apply KS; reflexivity).
    assert (before key (frames_of pre c) (place_of key l2 l1 i) (key f) = before key ps m (key g0)) as Bf by (rewrite pre_before, Kf, (place_before key l2 KS l1 i f1 f2 M); exact Bm).
    assert (fvals_wf (cf_fields f)) as Wf by (destruct Hpre as (_ & _ & W); specialize (W c); unfold frames_wf in W; rewrite Forall_forall in W; apply W; eapply nth_error_In; exact Ef).
    assert (field_is f name t) as Vf by (apply (pre_field i f1 f2 f name t E1 (nth_error_In _ _ E2) Sh Wf); auto).
    exists f, g. split; [exact Ef|]. split; [exact Eg|]. split; [exists f, g; split; [exact Ef|]; split; [exact Eg|]; split; [congruence|rewrite Bf, post_before, Pn; reflexivity]|]. split; [exact Vf|].
    destruct (post_plain m g0 g E0 Eg) as [Wg Qg]. unfold plain_frames in Pp. rewrite Forall_forall in Pp. destruct (Pp g0 (nth_error_In _ _ E0)) as [W0 Q0]. apply (field_leaf g0 _ _ W0 Q0) in V3 as (p & L & ->).
    apply (field_leaf g _ _ Wg Qg). exists p. split; [|reflexivity]. apply (post_leaf m f g0 g (place_of key l2 l1 i) p t' Ef E0 Eg); [congruence|exact Bf|]. split; [exact L|].
    destruct (plain_sorted _ f1 P1 (nth_error_In _ _ E1)) as [W1 Q1]. destruct (plain_sorted _ f2 P2 (nth_error_In _ _ E2)) as [W2 Q2].
    pose proof V1 as L1. pose proof V2 as L2. apply (field_leaf f1 _ _ W1 Q1) in L1 as (p1 & L1 & X1). apply (field_leaf f2 _ _ W2 Q2) in L2 as (p2 & L2 & X2).
    assert (p1 = p) as -> by (symmetry; apply (paths_eq _ _ _ _ _ _ Q0 Q1 L L1 X1)). assert (p2 = p) as -> by (symmetry; apply (paths_eq _ _ _ _ _ _ Q0 Q2 L L2 X2)).
    assert (leaf_at (cf_fields f) p t) as Lf by (destruct Sh as (S & _); rewrite (leaf_same_iff _ _ _ _ S); apply (C32_stable_fields_exact _ _ _ _ W1); auto).
    destruct p as [|k q]; [destruct (leaf_at_nil _ _ Lf)|]. exists k, q. split; [reflexivity|]. apply leaf_at_cons in Lf as (n & En & _). congruence.
Qed.

(** A difference is reported at a name exactly if some call had the same value there in both runs before and another after; the text is that of the
    last such call. *)
Theorem C86_reported : forall name text,
  (exists l, mget c (olist (rp_fields (report pre post))) = Some l /\ mget name l = Some text) <->
  exists i t t', changed name i t t' /\ text = diff_values quote unified t t' /\ forall i' u u', (i < i')%nat -> ~ changed name i' u u'.
Proof.
  pose proof (project_key_stack sha1) as KS. intros name text. rewrite (C41_field_changes_exact quote unified key mult pre post c name text).
  assert (forall i j, matched key l1 l2 i j -> exists f1 f2, has_match key l2 l1 i f1 f2) as HM.
  { intros i j (f1 & f2 & E1 & E2 & K & Bj). exists f1, f2. split; [exact E1|]. apply nth_with_key. exists j. rewrite Bj, K. auto. }
  split.
  - intros (i' & m & v & w & P & N & -> & L). apply pair_from in P as (i & j & f1 & f2 & g & -> & M & M' & E1 & E2 & E0 & V1 & V2 & V3). exists i, v, w. split; [exists j, m, f1, f2, g; auto 10|]. split; [reflexivity|].
    intros i2 u u' Li (j2 & m2 & a1 & a2 & b & M2 & M2' & A1 & A2 & A0 & U1 & U2 & U3 & Ne). apply Ne. destruct (HM _ _ M) as (h1 & h2 & Mh).
    apply (L (place_of key l2 l1 i2) m2 u u'); [apply (place_mono key l2 l1 i i2 h1 h2 Mh Li); assert (i2 < length l1)%nat by (apply nth_error_Some; congruence); lia|]. apply pair_from. exists i2, j2, a1, a2, b. auto 10.
  - intros (i & t & t' & (j & m & f1 & f2 & g & M & M' & E1 & E2 & E0 & V1 & V2 & V3 & Ne) & -> & L). exists (place_of key l2 l1 i), m, t, t'. split; [apply pair_from; exists i, j, f1, f2, g; auto 10|]. split; [exact Ne|]. split; [reflexivity|].
    intros i2' m2 u u' Li P. apply pair_from in P as (i2 & j2 & a1 & a2 & b & -> & M2 & M2' & A1 & A2 & A0 & U1 & U2 & U3).
    destruct (bytes_eq_dec u u') as [E|Nu]; [exact E|]. exfalso. apply (L i2 u u'); [|exists j2, m2, a1, a2, b; auto 10]. destruct (HM _ _ M2) as (h1 & h2 & Mh). destruct (Nat.lt_ge_cases i i2) as [|G]; [assumption|exfalso].
    destruct (Nat.eq_dec i2 i) as [->|Ni]; [lia|]. pose proof (place_mono key l2 l1 i2 i h1 h2 Mh ltac:(lia) ltac:(apply Nat.lt_le_incl, nth_error_Some; congruence)). lia.
Qed.

(** Whether something changed at a call can be found out. *)
Definition changed_at (name : bytes) (i : nat) : bool :=
  match nth_error l1 i with
  | Some f1 =>
      match partner key l2 l1 i f1, partner key ps l1 i f1 with
      | Some f2, Some g =>
          match mget name (flatten (cf_fields f1)), mget name (flatten (cf_fields f2)), mget name (flatten (cf_fields g)) with
          | Some t, Some u, Some t' => beq t u && negb (beq t t')
          | _, _, _ => false
          end
      | _, _ => false
      end
  | None => false
  end.
Lemma changed_at_spec name i : changed_at name i = true <-> exists t t', changed name i t t'.
Proof.
  unfold changed_at, changed, field_is. split.
  - intros H. destruct (nth_error l1 i) as [f1|] eqn:E1; [|discriminate]. destruct (partner key l2 l1 i f1) as [f2|] eqn:E2; [|discriminate]. destruct (partner key ps l1 i f1) as [g|] eqn:E3; [|discriminate].
    apply (partner_matched key _ _ _ _ _ E1) in E2 as (j & M & E2). apply (partner_matched key _ _ _ _ _ E1) in E3 as (m & M' & E3).
    destruct (mget name (flatten (cf_fields f1))) as [t|] eqn:V1; [|discriminate]. destruct (mget name (flatten (cf_fields f2))) as [u|] eqn:V2; [|discriminate]. destruct (mget name (flatten (cf_fields g))) as [t'|] eqn:V3; [|discriminate].
    apply andb_prop in H as [A C]. destruct (beq_spec t u) as [->|]; [|discriminate]. destruct (beq_spec u t') as [->|Ne]; [discriminate|]. exists u, t', j, m, f1, f2, g. auto 12.
  - intros (t & t' & j & m & f1 & f2 & g & M & M' & E1 & E2 & E3 & V1 & V2 & V3 & Ne). rewrite E1. rewrite (proj2 (partner_matched key l1 l2 i f1 f2 E1)) by eauto. rewrite (proj2 (partner_matched key l1 ps i f1 g E1)) by eauto.
    rewrite V1, V2, V3, beq_refl. destruct (beq_spec t t'); [contradiction|reflexivity].
Qed.
Lemma last_true (P : nat -> bool) n i : P i = true -> (i < n)%nat -> exists k, P k = true /\ (i <= k)%nat /\ forall k', (k < k' < n)%nat -> P k' = false.
Proof.
  induction n as [|n IH]; intros H L; [lia|]. destruct (P n) eqn:En; [exists n; split; [exact En|]; split; [lia|intros; lia]|]. destruct (Nat.eq_dec i n) as [->|Ni]; [congruence|].
  destruct (IH H) as (k & A & G & C); [lia|]. exists k. split; [exact A|]. split; [exact G|]. intros k' K. destruct (Nat.eq_dec k' n) as [->|]; [exact En|apply C; lia].
Qed.
(** So every change is noticed. *)
Theorem C86_noticed : forall name i t t', changed name i t t' ->
  exists l text, mget c (olist (rp_fields (report pre post))) = Some l /\ mget name l = Some text /\ text <> [].
Proof.
  intros name i t t' H. assert (changed_at name i = true) as A by (apply changed_at_spec; eauto).
  assert (i < length l1)%nat as L by (destruct H as (j & m & f1 & f2 & g & _ & _ & E & _); apply nth_error_Some; congruence).
  destruct (last_true (changed_at name) (length l1) i A L) as (k & Hk & _ & No). apply changed_at_spec in Hk as (u & u' & Hk).
  destruct (proj2 (C86_reported name (diff_values quote unified u u'))) as (l & El & Et).
  { exists k, u, u'. split; [exact Hk|]. split; [reflexivity|]. intros k' v v' G C. assert (changed_at name k' = true) as X by (apply changed_at_spec; eauto).
    rewrite No in X; [discriminate|]. split; [exact G|]. destruct C as (j & m & f1 & f2 & g & _ & _ & E & _). apply nth_error_Some. congruence. }
  exists l, (diff_values quote unified u u'). split; [exact El|]. split; [exact Et|]. intros E. apply C40_empty_iff_equal in E. destruct Hk as (j & m & f1 & f2 & g & _ & _ & _ & _ & _ & _ & _ & _ & Ne). contradiction.
Qed.

(** Every call with a match in the second run before has one after the update, with the values that both runs agreed on. *)
Definition goes_on : Prop := forall i j f1 f2, matched key l1 l2 i j -> nth_error l1 i = Some f1 -> nth_error l2 j = Some f2 ->
  exists m g, matched key l1 ps i m /\ nth_error ps m = Some g /\ forall name t, field_is f1 name t -> field_is f2 name t -> field_is g name t.
Lemma caller_unchanged : goes_on -> forall i' f, nth_error (frames_of pre c) i' = Some f -> fields_of f <> 0%nat ->
  exists m g, matched key (frames_of pre c) (frames_of post c) i' m /\ nth_error (frames_of post c) m = Some g /\ forall name t, field_is f name t -> field_is g name t.
Proof.
  intros H i' f Ef Nz. pose proof (forall2_nth1 _ _ _ _ _ (reloaded_frames _ _ c Hpre) Ef) as (h & Eh & Sh). rewrite stable_of_caller in Eh. destruct (kept_place key l2 l1 i' h Eh) as (i & f1 & f2 & [E1 M2] & -> & ->).
  apply nth_with_key in M2 as (j & E2 & K2 & B2).
  assert (matched key l1 l2 i j) as M by (exists f1, f2; rewrite K2; auto). destruct (H i j f1 f2 M E1 E2) as (m & g0 & M' & E0 & Sa).
  assert (fvals_wf (cf_fields f)) as Wf by (destruct Hpre as (_ & _ & W); specialize (W c); unfold frames_wf in W; rewrite Forall_forall in W; apply W; eapply nth_error_In; exact Ef).
  assert (forall name t, field_is f name t -> pair_values key pre post c name (place_of key l2 l1 i) m t t) as Pv.
  { intros name t V. apply (pre_field i f1 f2 f name t E1 (nth_error_In _ _ E2) Sh Wf) in V as [V1 V2]. apply pair_from. exists i, j, f1, f2, g0. repeat (split; [first [reflexivity|assumption]|]). apply Sa; assumption. }
  assert (exists name t, field_is f name t) as (n0 & t0 & V0).
  { unfold fields_of in Nz. destruct (flatten (cf_fields f)) as [|[n t] l] eqn:E; [contradiction|]. exists n, t. unfold field_is. rewrite E. cbn. rewrite beq_refl. reflexivity. }
  destruct (Pv n0 t0 V0) as (f' & g & Ef' & Eg & Mg & _ & _). exists m, g. split; [exact Mg|]. split; [exact Eg|]. intros name t V. destruct (Pv name t V) as (f'' & g'' & _ & Eg'' & _ & _ & V''). congruence.
Qed.
End Caller.

(** A program that goes on as it did, in what its two runs before agreed on, is said to have no differences. *)
Theorem C86_unchanged : forall r1 r2 pre post0 post, NoDup (mkeys (olist (tr_callers r1))) -> result_ok pre -> result_ok post ->
  reloaded (stable_result sha1 r1 r2) pre -> reloaded post0 post ->
  (forall c, exists ps, plain_frames (frames_of r1 c) /\ plain_frames (frames_of r2 c) /\ plain_frames ps /\
     frames_of post0 c = record_all key (option_map (fun s => s c) (filter_of (Some pre))) ps /\ goes_on r1 r2 c ps) ->
  (forall id m, count_occ bytes_eq_dec (messages (olist (tr_ppanics pre)) id) m = count_occ bytes_eq_dec (messages (olist (tr_ppanics post)) id) m) ->
  (forall id m, count_occ bytes_eq_dec (messages (olist (tr_mpanics pre)) id) m = count_occ bytes_eq_dec (messages (olist (tr_mpanics post)) id) m) ->
  rp_diff (report pre post) = 0%N.
Proof.
  intros r1 r2 pre post0 post N O O' Hpre Hpost H P P'. apply C41_no_difference_iff; [exact O|exact O'|]. split; [|auto]. intros c i f _ E Nz.
  destruct (H c) as (ps & Q1 & Q2 & Q3 & Hf & G). exact (caller_unchanged r1 r2 pre post0 post c ps N Q1 Q2 Q3 Hpre Hf Hpost G i f E Nz).
Qed.
End C86.
Print Assumptions C86_reported.
Print Assumptions C86_noticed.
Print Assumptions C86_unchanged.

(** ** From the program *)
(** A program with its functions, how they were instrumented, and the tables that came of it (C85). *)
Record program := Program {
  g_P : Type; g_M : Type; g_peq : forall a b : g_P, {a = b} + {a <> b}; g_meq : forall a b : g_M, {a = b} + {a <> b};
  g_pfile : g_P -> bytes; g_mfile : g_M -> bytes; g_pident : g_P -> bytes; g_mident : g_M -> bytes; g_ppanics : g_P -> bool; g_mpanics : g_M -> bool;
  g_returns : g_P -> inj (list N); g_panic : g_P -> inj N; g_entry : g_M -> inj N; g_mpanic : g_M -> inj N;
  g_dir : bytes -> bytes; g_client : bytes -> bool; g_commit : bytes -> bool;
  g_ps : list g_P; g_ms : list g_M; g_who : nat -> owner g_P g_M; g_evs : list pevent; g_pre : hook; g_post : hook; g_tables : tables }.
Definition instrumented (g : program) : Prop :=
  injected (g_P g) (g_M g) (g_peq g) (g_meq g) (g_pfile g) (g_mfile g) (g_pident g) (g_mident g) (g_ppanics g) (g_mpanics g) (g_returns g) (g_panic g) (g_entry g) (g_mpanic g)
    (g_dir g) (g_client g) (g_commit g) (g_ps g) (g_ms g) (g_who g) (g_evs g) (g_pre g) (g_post g) (g_tables g).

Section Programs.
Variable utf8 : bytes -> bool.
Variable sprint : prim -> bytes.
Variable digest : bytes -> bytes.
Variable trim : bytes -> option bytes.
Variable maxlen : N.
Variable maxrec ufuel : nat.
Notation recorded := (recorded utf8 sprint digest trim maxlen maxrec ufuel).
Notation good := (good_capture utf8 trim maxlen maxrec ufuel).
Notation captured := (captured utf8).
Variable quote : bytes -> bytes.
Variable unified : bytes -> bytes -> option bytes.
Variable mult : N.
Variable sha1 : bytes -> bytes.
Variable stripe : bytes -> nat.
Notation key := (project_key sha1).
Notation report pre post := (cmp_result quote unified key mult pre post).

(** A run of the program, one list of events per connection, all messages handled. *)
Definition runs (g : program) (stable : option (bytes -> option (list cframe))) (progs : list (list (pev (g_P g) (g_M g)))) (st : mstate) : Prop :=
  exists qs ls, Forall2 (Forall2 (sends (g_P g) (g_M g) (g_who g) (ids (g_evs g)) (g_ps g) (g_ms g) (g_pre g) (g_post g))) progs qs /\
    monitors (g_tables g) stripe key stable (m_init qs) ls st /\ finished st.
(** What is sent at returns of functions of identifier [k] comes of values within the limits. *)
Definition within_limits (g : program) (k : bytes) (es : list (pev (g_P g) (g_M g))) : Prop :=
  forall f fr, In (VReturn f fr) es -> g_pident g f = k -> exists x, good x /\ recorded x = Some fr.
(** At a return of a function of identifier [k] the values [x] were seen. *)
Definition seen (g : program) (k : bytes) (es : list (pev (g_P g) (g_M g))) (x : capture) (fr : cframe) : Prop :=
  exists f, In (VReturn f fr) es /\ g_pident g f = k /\ good x /\ recorded x = Some fr.

Lemma callers_nodup e pp qp mp key' stb st ls st' : mexec e pp qp mp stripe key' stb st ls st' -> NoDup (mkeys (m_callers st)) -> NoDup (mkeys (m_callers st')).
Proof.
  intros H. induction H as [|st l st1 ls st2 S _ IH]; [auto|]. intros N. apply IH. clear IH. destruct S; destruct st as [cs ws h w n cal ex pps mps r]; try exact N.
  - destruct m as [id|id f|id t]; cbn in *.
    + match goal with E : Some _ = Some _ |- _ => injection E as <- end. exact N.
    + destruct (storage_key e pp id); [discriminate|]. match goal with E : Some _ = Some _ |- _ => injection E as <- end. exact N.
    + match goal with E : Some _ = Some _ |- _ => injection E as <- end. destruct (qp id); [exact N|]. destruct (mp id); exact N.
  - match goal with |- context [record_frame _ _ _ ?x _ _ _] => idtac | _ => idtac end. cbn [record_frame with_workers m_callers] in *. destruct e0; [exact N|]. cbn [with_workers m_callers]. unfold appendm. apply mwf_mset. exact N.
Qed.
Lemma record_none l : record_all key None l = l.
Proof. induction l as [|f l IH] using rev_ind; [reflexivity|]. rewrite record_all_app, IH. reflexivity. Qed.
Lemma recs_one e pp c ek ls : length (recs_from e pp c ek ls) = length (recs e pp ek ls) -> recs_from e pp c ek ls = recs e pp ek ls.
Proof.
  unfold recs_from, recs. 
  assert (forall l, (length (flat_map (fun l => match l with LRecord c' id f => if Nat.eqb c' c then pick e pp ek id f else [] | _ => [] end) l) <= length (flat_map (fun l => match l with LRecord _ id f => pick e pp ek id f | _ => [] end) l))%nat) as Le.
  { induction l as [|x l IH]; [cbn; lia|]. cbn [flat_map]. rewrite !app_length. destruct x; try (cbn [length]; lia). destruct (Nat.eqb c0 c); cbn [length]; lia. }
  induction ls as [|x ls IH]; [reflexivity|]. cbn [flat_map]. rewrite !app_length. intros H. pose proof (Le ls) as L. destruct x; try (cbn [length app] in *; apply IH; lia).
  destruct (Nat.eqb c0 c); [f_equal; apply IH; lia|]. cbn [length app] in *. destruct (pick e pp ek id f); [apply IH; cbn [length] in H; lia|cbn [length] in H; lia].
Qed.

Lemma run_frames g stable progs st k id nm fl : instrumented g -> runs g stable progs st ->
  NoDup (mkeys (m_callers st)) /\
  exists rs, frames_of (make_result id nm st fl) k = record_all key (option_map (fun s => s k) stable) rs /\
    Permutation rs (returned (g_P g) (g_M g) (g_pident g) k (concat progs)) /\ (forall es, progs = [es] -> rs = returned (g_P g) (g_M g) (g_pident g) k es).
Proof.
  intros I (qs & ls & S & X & F). split; [apply (callers_nodup _ _ _ _ _ _ _ _ _ X); constructor|].
  pose proof (C85_attributed _ _ _ _ _ _ _ _ _ _ _ _ _ _ _ _ _ _ _ _ _ _ _ _ I stripe key stable progs qs ls st S X F) as (_ & _ & Ca & _ & Of & _). destruct (Ca k) as [E Pm].
  eexists. split; [exact E|]. split; [exact Pm|]. intros es ->. specialize (Of 0 k). cbn [nth] in Of. rewrite <- Of. symmetry. apply recs_one. rewrite Of, (Permutation_length Pm). cbn [concat]. rewrite app_nil_r. reflexivity.
Qed.

(** The test was run twice before the update and once after it; [pre] and [post] are what was stored of it. *)
Definition tested (a b : program) (progs1 progs2 : list (list (pev (g_P a) (g_M a)))) (progs3 : list (list (pev (g_P b) (g_M b)))) (pre post : tresult) : Prop :=
  exists id nm run1 run2 run3 other force,
    runs a None progs1 (fst run1) /\ runs a None progs2 (fst run2) /\ reloaded (test_result sha1 None force id nm run1 run2) pre /\
    runs b (filter_of (Some pre)) progs3 (fst run3) /\ reloaded (test_result sha1 (Some pre) false id nm run3 other) post.

Section Two.
Variable a b : program.
Hypothesis Ia : instrumented a.
Hypothesis Ib : instrumented b.
Variable progs1 progs2 : list (list (pev (g_P a) (g_M a))).
Variable progs3 : list (list (pev (g_P b) (g_M b))).
Variable pre post : tresult.
Hypothesis T : tested a b progs1 progs2 progs3 pre post.
Variable k : bytes.
Hypothesis W1 : within_limits a k (concat progs1).
Hypothesis W2 : within_limits a k (concat progs2).
Hypothesis W3 : within_limits b k (concat progs3).
Notation returned_a := (returned (g_P a) (g_M a) (g_pident a) k).
Notation returned_b := (returned (g_P b) (g_M b) (g_pident b) k).

Lemma in_returned g k' es fr : In fr (returned (g_P g) (g_M g) (g_pident g) k' es) -> exists f, In (VReturn f fr) es /\ g_pident g f = k'.
Proof.
  unfold returned. rewrite in_flat_map. intros (e & I & H). destruct e as [f fr'| | | |]; try (destruct H; fail). destruct (beq_spec (g_pident g f) k') as [E|]; [|destruct H]. destruct H as [->|[]]. eauto.
Qed.
Lemma limits_seen g k' es fr : within_limits g k' es -> In fr (returned (g_P g) (g_M g) (g_pident g) k' es) -> exists x, seen g k' es x fr.
Proof. intros W I. apply in_returned in I as (f & I & E). destruct (W f fr I E) as (x & G & R). exists x, f. auto. Qed.
Lemma seen_plain g k' es x fr : seen g k' es x fr -> fvals_wf (cf_fields fr) /\ fvals_plain (cf_fields fr) /\
  forall name t, field_is fr name t <-> exists ty p, captured x name ty p /\ stored_as digest ty (sprint p) t.
Proof.
  intros (f & _ & _ & G & R). destruct (recorded_full utf8 sprint digest trim maxlen maxrec ufuel x G) as (f0 & E & A & C & D). assert (f0 = fr) as -> by congruence. auto.
Qed.
Lemma limits_plain g k' es rs : within_limits g k' es -> Permutation rs (returned (g_P g) (g_M g) (g_pident g) k' es) -> plain_frames rs.
Proof.
  intros W Pm. unfold plain_frames. rewrite Forall_forall. intros fr I. destruct (limits_seen g k' es fr W) as (x & S); [eapply Permutation_in; eassumption|]. destruct (seen_plain _ _ _ _ _ S) as (A & C & _). auto.
Qed.

(** What is reported for an identifier was seen at returns of functions of that identifier: at calls from the same place in the program,
    with values at that name stored alike in both runs before, and otherwise after the update. *)
Theorem C86_only_changes : forall l name text, mget k (olist (rp_fields (report pre post))) = Some l -> mget name l = Some text ->
  exists x1 x2 x3 fr1 fr2 fr3 ty1 p1 ty2 p2 ty3 p3 t t',
    seen a k (concat progs1) x1 fr1 /\ seen a k (concat progs2) x2 fr2 /\ seen b k (concat progs3) x3 fr3 /\ key fr1 = key fr2 /\ key fr1 = key fr3 /\
    captured x1 name ty1 p1 /\ captured x2 name ty2 p2 /\ captured x3 name ty3 p3 /\
    stored_as digest ty1 (sprint p1) t /\ stored_as digest ty2 (sprint p2) t /\ stored_as digest ty3 (sprint p3) t' /\ t <> t' /\ text = diff_values quote unified t t'.
Proof.
  intros l name text El Et. destruct T as (id & nm & run1 & run2 & run3 & other & force & R1 & R2 & Hpre & R3 & Hpost).
  destruct (run_frames a None progs1 (fst run1) k id nm (snd run1) Ia R1) as (N1 & rs1 & E1 & Pm1 & _). destruct (run_frames a None progs2 (fst run2) k id nm (snd run2) Ia R2) as (_ & rs2 & E2 & Pm2 & _).
  destruct (run_frames b _ progs3 (fst run3) k id nm (snd run3) Ib R3) as (_ & rs3 & E3 & Pm3 & _). cbn [option_map] in E1, E2. rewrite record_none in E1, E2.
  pose proof (limits_plain a k _ _ W1 Pm1) as Q1. pose proof (limits_plain a k _ _ W2 Pm2) as Q2. pose proof (limits_plain b k _ _ W3 Pm3) as Q3. rewrite <- E1 in Q1, Pm1. rewrite <- E2 in Q2, Pm2.
  destruct (proj1 (C86_reported quote unified mult sha1 (make_result id nm (fst run1) (snd run1)) (make_result id nm (fst run2) (snd run2)) pre (make_result id nm (fst run3) (snd run3)) post k rs3 N1 Q1 Q2 Q3 Hpre E3 Hpost name text) (ex_intro _ l (conj El Et))) as (i & t & t' & Ch & -> & _).
  destruct Ch as (j & m & f1 & f2 & g & (h1 & h2 & A1 & A2 & K & _) & (h1' & h3 & A1' & A3 & K' & _) & F1 & F2 & F3 & V1 & V2 & V3 & Ne).
  assert (h1 = f1) as -> by congruence. assert (h1' = f1) as -> by congruence. assert (h2 = f2) as -> by congruence. assert (h3 = g) as -> by congruence.
  destruct (limits_seen a k _ f1 W1) as (x1 & S1); [eapply Permutation_in; [exact Pm1|]; eapply Permutation_in; [apply sort_frames_perm|]; eapply nth_error_In; exact F1|].
  destruct (limits_seen a k _ f2 W2) as (x2 & S2); [eapply Permutation_in; [exact Pm2|]; eapply Permutation_in; [apply sort_frames_perm|]; eapply nth_error_In; exact F2|].
  destruct (limits_seen b k _ g W3) as (x3 & S3); [eapply Permutation_in; [exact Pm3|]; eapply nth_error_In; exact F3|].
  destruct (seen_plain _ _ _ _ _ S1) as (_ & _ & D1). destruct (seen_plain _ _ _ _ _ S2) as (_ & _ & D2). destruct (seen_plain _ _ _ _ _ S3) as (_ & _ & D3).
  apply D1 in V1 as (ty1 & p1 & C1 & G1). apply D2 in V2 as (ty2 & p2 & C2 & G2). apply D3 in V3 as (ty3 & p3 & C3 & G3).
  exists x1, x2, x3, f1, f2, g, ty1, p1, ty2, p2, ty3, p3, t, t'. repeat (split; [assumption|]). reflexivity.
Qed.

(** With one connection in each run every such change is reported. *)
Theorem C86_every_change : forall es1 es2 es3, progs1 = [es1] -> progs2 = [es2] -> progs3 = [es3] ->
  forall i j m fr1 fr2 fr3 x1 x2 x3 name ty1 p1 ty2 p2 ty3 p3 t t',
    matched key (sort_frames (returned_a es1)) (sort_frames (returned_a es2)) i j -> matched key (sort_frames (returned_a es1)) (returned_b es3) i m ->
    nth_error (sort_frames (returned_a es1)) i = Some fr1 -> nth_error (sort_frames (returned_a es2)) j = Some fr2 -> nth_error (returned_b es3) m = Some fr3 ->
    seen a k es1 x1 fr1 -> seen a k es2 x2 fr2 -> seen b k es3 x3 fr3 ->
    captured x1 name ty1 p1 -> captured x2 name ty2 p2 -> captured x3 name ty3 p3 ->
    stored_as digest ty1 (sprint p1) t -> stored_as digest ty2 (sprint p2) t -> stored_as digest ty3 (sprint p3) t' -> t <> t' ->
  exists l text, mget k (olist (rp_fields (report pre post))) = Some l /\ mget name l = Some text /\ text <> [].
Proof.
  intros es1 es2 es3 X1 X2 X3 i j m fr1 fr2 fr3 x1 x2 x3 name ty1 p1 ty2 p2 ty3 p3 t t' M M' F1 F2 F3 S1 S2 S3 C1 C2 C3 G1 G2 G3 Ne. destruct T as (id & nm & run1 & run2 & run3 & other & force & R1 & R2 & Hpre & R3 & Hpost).
  destruct (run_frames a None progs1 (fst run1) k id nm (snd run1) Ia R1) as (N1 & rs1 & E1 & Pm1 & O1). destruct (run_frames a None progs2 (fst run2) k id nm (snd run2) Ia R2) as (_ & rs2 & E2 & Pm2 & O2).
  destruct (run_frames b _ progs3 (fst run3) k id nm (snd run3) Ib R3) as (_ & rs3 & E3 & Pm3 & O3). cbn [option_map] in E1, E2. rewrite record_none in E1, E2.
  pose proof (limits_plain a k _ _ W1 Pm1) as Q1. pose proof (limits_plain a k _ _ W2 Pm2) as Q2. pose proof (limits_plain b k _ _ W3 Pm3) as Q3.
  rewrite (O1 _ X1) in *. rewrite (O2 _ X2) in *. rewrite (O3 _ X3) in *. rewrite <- E1 in Q1, M, M', F1. rewrite <- E2 in Q2, M, F2.
  apply (C86_noticed quote unified mult sha1 (make_result id nm (fst run1) (snd run1)) (make_result id nm (fst run2) (snd run2)) pre (make_result id nm (fst run3) (snd run3)) post k _ N1 Q1 Q2 Q3 Hpre E3 Hpost name i t t'). exists j, m, fr1, fr2, fr3.
  destruct (seen_plain _ _ _ _ _ S1) as (_ & _ & D1). destruct (seen_plain _ _ _ _ _ S2) as (_ & _ & D2). destruct (seen_plain _ _ _ _ _ S3) as (_ & _ & D3).
  repeat (split; [assumption|]). split; [apply D1; eauto|]. split; [apply D2; eauto|]. split; [apply D3; eauto|]. exact Ne.
Qed.
End Two.
End Programs.
Print Assumptions C86_only_changes.
Print Assumptions C86_every_change.

(** ** Concrete runs *)
Definition st86 : stack := Some [SFrame (B "./p/f.go") 12 (B "p.f"); SFrame (B "/usr/lib/go/src/testing/testing.go") 9 (B "testing.tRunner")].
Definition fr86 (t : N) (x y : string) : cframe := CFrame (Some [(B "a", FVal [] (Some [(B "x", FVal (B x) None)])); (B "y", FVal (B y) None)]) st86 t.
Definition res86 (l : list cframe) : tresult := TResult (B "t") (B "T") (Some [(B "p:f", l)]) (Some []) (Some []) 0 false (Some []).
Lemma plain86 t x y : fvals_wf (cf_fields (fr86 t x y)) /\ fvals_plain (cf_fields (fr86 t x y)).
Proof.
  split.
  - split; [repeat constructor; cbn; intuition discriminate|]. intros k z [[= <- <-]|[[= <- <-]|[]]]; repeat constructor; cbn; try (intros ? ? []); intuition (try discriminate); match goal with E : (_, _) = _ |- _ => injection E as <- <- end; repeat constructor; intros ? ? [].
  - intros k z [[= <- <-]|[[= <- <-]|[]]]; (split; [split; [discriminate|cbn; intuition discriminate]|]); constructor; intros k' z' I; cbn in I; [|destruct I]. destruct I as [[= <- <-]|[]]. split; [split; [discriminate|cbn; intuition discriminate]|constructor; intros ? ? []].
Qed.
Lemma same_frame_refl f : same_frame f f.
Proof. split; [apply same_fields_refl|]. split; reflexivity. Qed.
Lemma reloaded_same r : tr_callers r <> None -> (forall c, frames_wf (frames_of r c)) -> reloaded r r.
Proof. intros A C. split; [|auto]. intros k. destruct (mget k (olist (tr_callers r))) as [l|]; [|exact I]. induction l; constructor; [apply same_frame_refl|assumption]. Qed.

(** Two calls from one place; a.x was 1 in both runs before and is 2 after; y of the first call was different in the runs before. *)
Definition ex86_1 := res86 [fr86 5 "3" "v"; fr86 1 "1" "u"]%N.
Definition ex86_2 := res86 [fr86 2 "1" "w"; fr86 6 "3" "v"]%N.
Definition ex86_ps := [fr86 1 "2" "q"; fr86 7 "3" "v"]%N.
Definition ex86_pre := stable_result ex_sha1 ex86_1 ex86_2.
Definition ex86_post := res86 (record_all (project_key ex_sha1) (option_map (fun s => s (B "p:f")) (filter_of (Some ex86_pre))) ex86_ps).
Lemma wf86 l : Forall (fun f => exists t x y, f = fr86 t x y) l -> plain_frames l.
Proof. intros H. eapply Forall_impl; [|exact H]. intros f (t & x & y & ->). apply plain86. Qed.
Lemma frames86 l c : frames_of (res86 l) c = if beq c (B "p:f") then l else [].
Proof. unfold frames_of. cbn. destruct (beq c _); reflexivity. Qed.
Example C86_example :
  plain_frames (frames_of ex86_1 (B "p:f")) /\ plain_frames (frames_of ex86_2 (B "p:f")) /\ plain_frames ex86_ps /\ reloaded (stable_result ex_sha1 ex86_1 ex86_2) ex86_pre /\ reloaded ex86_post ex86_post /\
  changed ex_sha1 ex86_1 ex86_2 (B "p:f") ex86_ps (B "a.x") 0 (B "1") (B "2") /\
  olist (rp_fields (cmp_result (fun s => s) (fun _ _ => None) (project_key ex_sha1) 2 ex86_pre ex86_post)) = [(B "p:f", [(B "a.x", diff_values (fun s => s) (fun _ _ => None) (B "1") (B "2"))])].
Proof.
  assert (forall a b, plain_frames a -> frames_wf (common (project_key ex_sha1) (sort_frames b) [] (sort_frames a))) as Cw.
  { intros a b H. apply common_wf. unfold frames_wf. rewrite sort_frames_perm. eapply Forall_impl; [|exact H]. cbn. tauto. }
  assert (plain_frames (frames_of ex86_1 (B "p:f"))) as Q1 by (apply wf86; repeat constructor; eauto). assert (plain_frames (frames_of ex86_2 (B "p:f"))) as Q2 by (apply wf86; repeat constructor; eauto). assert (plain_frames ex86_ps) as Q3 by (apply wf86; repeat constructor; eauto).
  split; [exact Q1|]. split; [exact Q2|]. split; [exact Q3|]. split; [|split; [|split]].
  - apply reloaded_same; [discriminate|]. intros c. unfold frames_of. cbn [tr_callers ex86_pre stable_result olist]. rewrite mget_stable_frames by (repeat constructor; intros []). cbn [ex86_1 ex86_2 res86 tr_callers olist mget].
    destruct (beq c (B "p:f")); [|constructor]. exact (Cw (frames_of ex86_1 (B "p:f")) (frames_of ex86_2 (B "p:f")) Q1).
  - apply reloaded_same; [discriminate|]. intros c. unfold ex86_post. rewrite frames86. destruct (beq c (B "p:f")); [|constructor].
    match goal with |- frames_wf ?l => let v := eval vm_compute in l in change l with v end. repeat constructor; cbn; try (intros ? ? []); intuition (try discriminate); repeat match goal with E : (_, _) = (_, _) |- _ => injection E as <- <- end; repeat constructor; cbn; try (intros ? ? []); intuition (try discriminate); repeat match goal with E : (_, _) = (_, _) |- _ => injection E as <- <- end; repeat constructor; intros ? ? [].
  - exists 0%nat, 0%nat, (fr86 1 "1" "u"), (fr86 2 "1" "w"), (fr86 1 "2" "q"). split; [exists (fr86 1 "1" "u"), (fr86 2 "1" "w"); vm_compute; auto|]. split; [exists (fr86 1 "1" "u"), (fr86 1 "2" "q"); vm_compute; auto|].
    repeat (split; [vm_compute; reflexivity|]). discriminate.
  - vm_compute. reflexivity.
Qed.

Lemma filter_wf (p : bytes -> bool) f : fvals_wf f -> fvals_wf (Some (filter (fun e => p (fst e)) (olist f))).
Proof.
  destruct f as [l|]; cbn [olist filter]; intros H; [|split; [constructor|intros ? ? []]]. destruct H as [N F]. split; [|intros k z I; apply filter_In in I as [I _]; exact (F k z I)].
  clear F. unfold mkeys, mwf in *. induction l as [|[k z] l IH]; [constructor|]. cbn [map fst filter] in *. inversion N as [|? ? Nk N']; subst. destruct (p k); [|auto]. cbn [map fst]. constructor; [|auto].
  intros I. apply Nk. apply in_map_iff in I as (e & E & I). apply in_map_iff. exists e. split; [exact E|]. apply filter_In in I as [I _]. exact I.
Qed.
Lemma record_wf key s ps : plain_frames ps -> frames_wf (record_all key s ps).
Proof.
  intros H. induction ps as [|f l IH] using rev_ind; [constructor|]. apply Forall_app in H as [A C]. inversion C as [|? ? [Wf _] _]; subst. rewrite record_all_app. apply Forall_app. split; [exact (IH A)|]. constructor; [|constructor].
  destruct s as [s|]; [|exact Wf]. unfold apply_filter. cbn [cf_fields]. destruct s as [fr|]; [|split; [constructor|intros ? ? []]]. destruct (nth_error _ _) as [g|]; [|split; [constructor|intros ? ? []]]. apply (filter_wf (fun k => match mget k (olist (cf_fields g)) with Some _ => true | None => false end)). exact Wf.
Qed.
Lemma stable_reloaded sha1 r1 r2 : NoDup (mkeys (olist (tr_callers r1))) -> (forall c, plain_frames (frames_of r1 c)) -> reloaded (stable_result sha1 r1 r2) (stable_result sha1 r1 r2).
Proof.
  intros N H. apply reloaded_same; [discriminate|]. intros c. rewrite stable_of_caller by exact N. apply common_wf. unfold frames_wf. rewrite sort_frames_perm. eapply Forall_impl; [|exact (H c)]. cbn. tauto.
Qed.
Lemma plain_res86 l : plain_frames l -> forall c, plain_frames (frames_of (res86 l) c).
Proof. intros H c. rewrite frames86. destruct (beq c (B "p:f")); [exact H|constructor]. Qed.

(** Refuted: a program whose calls, in the order of time, have the same values in all three runs has no differences.  Before the update calls are put in
    the order of time, after it they are left in the order they were recorded in. *)
Theorem C86_order_refuted : forall quote unified mult sha1, exists r ps pre,
  let key := project_key sha1 in
  let post ps := res86 (record_all key (option_map (fun s => s (B "p:f")) (filter_of (Some pre))) ps) in
  plain_frames (frames_of r (B "p:f")) /\ Permutation (frames_of r (B "p:f")) ps /\ sort_frames (frames_of r (B "p:f")) = sort_frames ps /\ pre = stable_result sha1 r r /\
  (exists l text, mget (B "p:f") (olist (rp_fields (cmp_result quote unified key mult pre (post ps)))) = Some l /\ mget (B "a.x") l = Some text /\ text <> []) /\
  rp_diff (cmp_result quote unified key mult pre (post (sort_frames ps))) = 0%N.
Proof.
  intros quote unified mult sha1. set (l := [fr86 1 "1" "u"; fr86 2 "2" "u"]). set (ps := [fr86 2 "2" "u"; fr86 1 "1" "u"]).
  assert (plain_frames l) as Ql by (apply wf86; repeat constructor; eauto). assert (plain_frames ps) as Qp by (apply wf86; repeat constructor; eauto).
  assert (NoDup (mkeys (olist (tr_callers (res86 l))))) as Nr by (repeat constructor; intros []).
  exists (res86 l), ps, (stable_result sha1 (res86 l) (res86 l)). cbv zeta. pose proof (stable_reloaded sha1 (res86 l) (res86 l) Nr (plain_res86 l Ql)) as Rp.
  assert (forall q, plain_frames q -> let z := res86 (record_all (project_key sha1) (option_map (fun s => s (B "p:f")) (filter_of (Some (stable_result sha1 (res86 l) (res86 l))))) q) in reloaded z z) as Rq.
  { intros q Q. apply reloaded_same; [discriminate|]. intros c. rewrite frames86. destruct (beq c (B "p:f")); [apply record_wf, Q|constructor]. }
  split; [exact Ql|]. split; [apply perm_swap|]. split; [vm_compute; reflexivity|]. split; [reflexivity|]. split.
  - apply (C86_noticed quote unified mult sha1 (res86 l) (res86 l) (stable_result sha1 (res86 l) (res86 l)) (res86 (record_all (project_key sha1) (option_map (fun s => s (B "p:f")) (filter_of (Some (stable_result sha1 (res86 l) (res86 l))))) ps)) _ (B "p:f") ps Nr (plain_res86 l Ql _) (plain_res86 l Ql _) Qp Rp eq_refl (Rq ps Qp) (B "a.x") 0 (B "1") (B "2")).
    exists 0%nat, 0%nat, (fr86 1 "1" "u"), (fr86 1 "1" "u"), (fr86 2 "2" "u"). split; [exists (fr86 1 "1" "u"), (fr86 1 "1" "u"); auto|]. split; [exists (fr86 1 "1" "u"), (fr86 2 "2" "u"); auto|].
    repeat (split; [vm_compute; reflexivity|]). discriminate.
  - assert (sort_frames ps = l) as El by (vm_compute; reflexivity). rewrite El.
    apply (C86_unchanged quote unified mult sha1 (res86 l) (res86 l) _ (res86 (record_all (project_key sha1) (option_map (fun s => s (B "p:f")) (filter_of (Some (stable_result sha1 (res86 l) (res86 l))))) l)) _ Nr); try exact Rp; try exact (Rq l Ql); try reflexivity.
    + split; [apply stable_frames_wf; split; [exact Nr|]|split; constructor]. intros c0 fs0 I. pose proof (plain_res86 l Ql c0) as X. cbn in I. destruct I as [[= <- <-]|[]]. eapply Forall_impl; [|exact Ql]. cbn. tauto.
    + split; [|split]; repeat constructor; intros [].
    + intros c. exists (if beq c (B "p:f") then l else []). split; [apply plain_res86, Ql|]. split; [apply plain_res86, Ql|]. split; [destruct (beq c (B "p:f")); [exact Ql|constructor]|]. split.
      * rewrite frames86. destruct (beq_spec c (B "p:f")) as [->|]; reflexivity.
      * intros i j f1 f2 M E1 _. rewrite frames86 in E1. assert ((if beq c (B "p:f") then l else []) = sort_frames (frames_of (res86 l) c)) as Es by (rewrite frames86; destruct (beq c (B "p:f")); vm_compute; reflexivity). rewrite Es.
        exists i, f1. rewrite frames86. split; [exists f1, f1; auto|]. auto.
Qed.
Print Assumptions C86_order_refuted.

(** The program of C85_injected: its function f returns once in each run, with t.N 5 in both runs before the update and 6 after it. *)
Definition prog86 : program := Program nat nat Nat.eq_dec Nat.eq_dec ex85_pfile (fun _ => B "m/z.go") ex85_pid ex85_mid (fun n => Nat.eqb n 2) (fun n => Nat.eqb n 1)
  ex85_returns ex85_panic ex85_entry ex85_mpanic (fun p => firstn 1 p) (fun _ => true) (fun _ => true) [0; 1; 2]%nat [0; 1]%nat ex85_who ex85_evs HNone (HMap (Some [(9%N, B "ext")])) ex85_t.
Definition ret86 (fr : cframe) : list (list (pev nat nat)) := [[VReturn 0 fr]]%nat.
Definition st_after (stable : option (bytes -> option (list cframe))) (fr : cframe) : mstate :=
  with_workers (with_conns (record_frame (project_key ex_sha1) stable (m_init [[]]) false (B "p:f") fr) [MConn [] None]) [] [] 0%Z.
Lemma runs86 stable fr : runs ex_sha1 (fun _ => 0%nat) prog86 stable (ret86 fr) (st_after stable fr).
Proof.
  exists [[MState 3 fr]]. eexists. split; [|split; [|split; [repeat constructor|reflexivity]]].
  - apply Forall2_cons; [apply Forall2_cons; [constructor; [cbn; auto|exists 2%nat; split; reflexivity]|constructor]|constructor].
  - unfold monitors.
    eapply me_cons; [eapply (ms_state _ _ _ _ _ _ _ _ 0%nat); reflexivity|].
    eapply me_cons; [eapply (ms_acquire _ _ _ _ _ _ _ _ 0%nat); [reflexivity|reflexivity|intros []]|].
    eapply me_cons; [eapply (ms_record _ _ _ _ _ _ _ _ []); reflexivity|].
    eapply me_cons; [eapply (ms_unlock _ _ _ _ _ _ _ _ []); reflexivity|].
    eapply me_cons; [eapply (ms_done _ _ _ _ _ _ _ _ []); reflexivity|].
    apply me_nil.
Qed.
Definition frame86 (n : Z) (swap : bool) (ts : Z) : cframe := match rec81 (x81 n swap ts) with Some f => f | None => CFrame None None 0 end.
Notation limits86 := (within_limits all_text print81 (fun s => s) (fun f => Some f) 1024 100 1 prog86).
Lemma rec86 n swap ts : in_i64 n -> in_i64 ts -> rec81 (x81 n swap ts) = Some (frame86 n swap ts).
Proof. intros Hn Ht. unfold frame86. destruct (recorded_full all_text print81 (fun s => s) (fun f => Some f) 1024 100 1 (x81 n swap ts) (C81_good n swap ts Hn Ht)) as (f & E & _). unfold rec81. rewrite E. reflexivity. Qed.
Lemma limits86_one x fr k : good_capture all_text (fun f => Some f) 1024 100 1 x -> rec81 x = Some fr -> limits86 k (concat (ret86 fr)).
Proof. intros G R f fr' I _. destruct I as [E|[]]. assert (fr = fr') as <- by congruence. exists x. split; [exact G|exact R]. Qed.
Lemma limits86_met n swap ts k : in_i64 n -> in_i64 ts -> limits86 k (concat (ret86 (frame86 n swap ts))).
Proof. intros Hn Ht. apply (limits86_one (x81 n swap ts)); [exact (C81_good n swap ts Hn Ht)|exact (rec86 n swap ts Hn Ht)]. Qed.
Definition made86 (stable : option (bytes -> option (list cframe))) (fr : cframe) : tresult := make_result (B "t") (B "T") (st_after stable fr) false.
Definition pre86 (fr1 fr2 : cframe) : tresult := stable_result ex_sha1 (made86 None fr1) (made86 None fr2).
Definition post86 (fr1 fr2 fr3 : cframe) : tresult := made86 (filter_of (Some (pre86 fr1 fr2))) fr3.
Lemma frames_made86 stable fr c : frames_of (made86 stable fr) c = if beq c (B "p:f") then record_all (project_key ex_sha1) (option_map (fun s => s (B "p:f")) stable) [fr] else [].
Proof. unfold frames_of, made86, make_result. cbn [tr_callers olist]. destruct stable; cbn; destruct (beq c _); reflexivity. Qed.
Lemma tested86 fr1 fr2 fr3 : plain_frames [fr1] -> plain_frames [fr3] -> tested ex_sha1 (fun _ => 0%nat) prog86 prog86 (ret86 fr1) (ret86 fr2) (ret86 fr3) (pre86 fr1 fr2) (post86 fr1 fr2 fr3).
Proof.
  intros Q1 Q3. exists (B "t"), (B "T"), (st_after None fr1, false), (st_after None fr2, false), (st_after (filter_of (Some (pre86 fr1 fr2))) fr3, false), (st_after None fr2, false), false.
  cbn [fst snd]. split; [apply runs86|]. split; [apply runs86|]. split; [|split; [apply runs86|]].
  - unfold test_result. cbn [fst snd]. apply stable_reloaded; [repeat constructor; intros []|]. intros c. change (plain_frames (frames_of (made86 None fr1) c)). rewrite frames_made86. destruct (beq c (B "p:f")); [exact Q1|constructor].
  - unfold test_result. cbn [fst snd]. apply reloaded_same; [discriminate|]. intros c. change (frames_wf (frames_of (post86 fr1 fr2 fr3) c)). unfold post86. rewrite frames_made86. destruct (beq c (B "p:f")); [apply record_wf, Q3|constructor].
Qed.
Lemma plain_one x fr : good_capture all_text (fun f => Some f) 1024 100 1 x -> rec81 x = Some fr -> plain_frames [fr].
Proof.
  intros G R. destruct (recorded_full all_text print81 (fun s => s) (fun f => Some f) 1024 100 1 x G) as (f & E & A & C & _). unfold rec81 in R. assert (f = fr) as -> by congruence. unfold plain_frames. apply Forall_cons; [split; assumption|apply Forall_nil].
Qed.
Example C86_program : let fr1 := frame86 5 false 1 in let fr2 := frame86 5 true 900 in let fr3 := frame86 6 true 77 in
  instrumented prog86 /\ tested ex_sha1 (fun _ => 0%nat) prog86 prog86 (ret86 fr1) (ret86 fr2) (ret86 fr3) (pre86 fr1 fr2) (post86 fr1 fr2 fr3) /\
  (forall k, limits86 k (concat (ret86 fr1)) /\ limits86 k (concat (ret86 fr2)) /\ limits86 k (concat (ret86 fr3))) /\
  map (fun e => (fst e, mkeys (snd e))) (olist (rp_fields (cmp_result (fun s => s) (fun _ _ => None) (project_key ex_sha1) 2 (pre86 fr1 fr2) (post86 fr1 fr2 fr3)))) = [(B "p:f", [B "t.N"])].
Proof.
  assert (in_i64 5 /\ in_i64 6 /\ in_i64 1 /\ in_i64 900 /\ in_i64 77) as (I5 & I6 & I1 & I9 & I7) by (unfold in_i64; lia).
  intros fr1 fr2 fr3. split; [exact C85_injected|]. split; [|split; [intros k; split; [|split]; apply limits86_met; assumption|vm_compute; reflexivity]].
  apply tested86; [exact (plain_one _ _ (C81_good 5 false 1 I5 I1) (rec86 5 false 1 I5 I1))|exact (plain_one _ _ (C81_good 6 true 77 I6 I7) (rec86 6 true 77 I6 I7))].
Qed.
