(** Proofs about the loop over the tests. *)
From Verif Require Import Base Maps TestRunModel TestRunSpec.
From Coq Require Import Permutation.

Section Proofs.
Context {R E : Type} (combine : R -> R -> R) (enc : R -> bytes) (ntests : nat) (ident : nat -> bytes)
  (servers : list nat) (force update : bool).
Notation outcome := (outcome R).
Notation phase := (phase R E).
Notation state := (state R E).
Notation event := (event R E).
Notation final := (final R combine).
Notation step := (step R combine E enc ntests ident servers force update).
Notation exec := (exec R combine E enc ntests ident servers force update).
Notation init := (init R E servers).
Notation running := (running R E).
Notation distinct := (distinct ntests ident).

(** The tests that updated the totals. *)
Definition committed (tr : list event) : list nat :=
  flat_map (fun e => match e with ECommit _ _ i => [i] | _ => [] end) tr.

Lemma exec_snoc tr : forall st e, exec st (tr ++ [e]) = match exec st tr with Some st' => step st' e | None => None end.
Proof. induction tr as [|x tr IH]; intros st e; cbn [app TestRunModel.exec]; [destruct (step st e); reflexivity|]. destruct (step st x); [apply IH|reflexivity]. Qed.

Lemma exec_ind (P : list event -> state -> Prop) :
  P [] init -> (forall tr st e st', exec init tr = Some st -> P tr st -> step st e = Some st' -> P (tr ++ [e]) st') ->
  forall tr st, exec init tr = Some st -> P tr st.
Proof.
  intros H0 HS tr. induction tr as [|e tr IH] using rev_ind; intros st H.
  - injection H as <-. exact H0.
  - rewrite exec_snoc in H. destruct (exec init tr) as [st1|] eqn:Ex; [|discriminate]. eapply HS; [exact Ex|apply IH; reflexivity|exact H].
Qed.

Lemma outs_snoc (tr : list event) e i : outs (tr ++ [e]) i = outs tr i ++ match e with EExec _ _ j o => if j =? i then [o] else [] | _ => [] end.
Proof. unfold outs. rewrite flat_map_app; cbn. rewrite app_nil_r. reflexivity. Qed.
Lemma committed_snoc tr e : committed (tr ++ [e]) = committed tr ++ match e with ECommit _ _ i => [i] | _ => [] end.
Proof. unfold committed. rewrite flat_map_app; cbn. rewrite app_nil_r. reflexivity. Qed.

Ltac dstep H :=
  unfold TestRunModel.step, set_test in H;
  repeat match type of H with
  | context [match ?x with _ => _ end] => let Q := fresh "Q" in destruct x eqn:Q
  end; try discriminate; injection H as <-;
  cbn [t_main t_next t_chan t_tests t_handler t_store t_total t_reached t_err t_rec] in *.

Ltac ifs := repeat match goal with
  | |- context [?a =? ?b] => destruct (Nat.eqb_spec a b); subst
  | H : context [?a =? ?b] |- _ => destruct (Nat.eqb_spec a b); subst
  end.

(** Started and not started tests. *)
Definition inv1 (st : state) : Prop :=
  (forall i, (t_next _ _ st <= i)%nat <-> t_tests _ _ st i = PIdle _ _) /\ (t_next _ _ st <= ntests)%nat.
Lemma inv1_step st e st' : inv1 st -> step st e = Some st' -> inv1 st'.
Proof.
  intros [H1 H2] H. unfold inv1.
  destruct e; dstep H; (split; [|try lia]); intros j; specialize (H1 j); ifs; try tauto;
    try (split; [intros; lia|discriminate]); try lia;
    try (split; [intros L; apply H1 in L; congruence|discriminate]);
    try (split; [intros L; apply H1; lia|intros L; apply H1 in L; lia]).
  all: try (apply Nat.ltb_lt in Q0; lia).
Qed.

(** Servers: in the channel or held by one test. *)
Definition inv2 (st : state) : Prop :=
  NoDup (t_chan _ _ st) /\
  (forall i j s, holds (t_tests _ _ st i) s -> holds (t_tests _ _ st j) s -> i = j) /\
  (forall i s, holds (t_tests _ _ st i) s -> ~ In s (t_chan _ _ st)) /\
  (forall s, In s servers <-> In s (t_chan _ _ st) \/ exists i, holds (t_tests _ _ st i) s).

(** A test that keeps its server. *)
Lemma inv2_keep st i p p' (ch := t_chan _ _ st) (ts := t_tests _ _ st) : inv2 st -> ts i = p ->
  (forall s, holds p' s <-> holds p s) ->
  let ts' := fun j => if j =? i then p' else ts j in
  (forall a b s, holds (ts' a) s -> holds (ts' b) s -> a = b) /\
  (forall a s, holds (ts' a) s -> ~ In s ch) /\
  (forall s, In s servers <-> In s ch \/ exists a, holds (ts' a) s).
Proof.
  intros (_ & H2 & H3 & H4) Hp K ts'.
  assert (A : forall a s, holds (ts' a) s <-> holds (ts a) s).
  { intros a s. unfold ts'. destruct (Nat.eqb_spec a i) as [->|]; [rewrite Hp; apply K|reflexivity]. }
  split; [|split].
  - intros a b s Ha Hb. apply A in Ha, Hb. eapply H2; eassumption.
  - intros a s Ha. apply A in Ha. eapply H3; eassumption.
  - intros s. rewrite H4. split; (intros [X|[a X]]; [left; exact X|right; exists a; apply A; exact X]).
Qed.

Lemma inv2_put st i s r (ch := t_chan _ _ st ++ [s]) : inv2 st -> t_tests _ _ st i = PPut _ _ s r ->
  let ts' := fun j => if j =? i then PDone _ _ r else t_tests _ _ st j in
  NoDup ch /\
  (forall a b s, holds (ts' a) s -> holds (ts' b) s -> a = b) /\
  (forall a s, holds (ts' a) s -> ~ In s ch) /\
  (forall s, In s servers <-> In s ch \/ exists a, holds (ts' a) s).
Proof.
  intros (H1 & H2 & H3 & H4) Q ts'. unfold ts', ch.
    assert (Hi : holds (t_tests _ _ st i) s) by (rewrite Q; reflexivity).
    split; [|repeat split].
    + apply NoDup_app_iff. repeat split; [exact H1|constructor; [intros []|constructor]|].
      intros x Hx [->|[]]. exact (H3 _ _ Hi Hx).
    + intros a b x Ha Hb. ifs; cbn in *; try contradiction. eapply H2; eassumption.
    + intros a x Ha Hx. ifs; cbn in *; [contradiction|]. apply in_app_or in Hx as [Hx|[->|[]]]; [exact (H3 _ _ Ha Hx)|].
      apply n. eapply H2; eassumption.
    + intros Hs. apply H4 in Hs as [Hs|[a Ha]]; [left; apply in_or_app; left; exact Hs|].
      destruct (Nat.eqb_spec a i) as [->|Ne].
      * rewrite Q in Ha. cbn in Ha. subst. left. apply in_or_app; right; left; reflexivity.
      * right. exists a. destruct (Nat.eqb_spec a i); [contradiction|exact Ha].
    + intros [Hs|[a Ha]]; apply H4.
      * apply in_app_or in Hs as [Hs|[->|[]]]; [left; exact Hs|right; exists i; exact Hi].
      * ifs; cbn in Ha; [contradiction|]. right; exists a; exact Ha.
Qed.

Lemma inv2_step st e st' : inv1 st -> inv2 st -> step st e = Some st' -> inv2 st'.
Proof.
  intros I1 I2 H. pose proof I2 as (H1 & H2 & H3 & H4).
  destruct e; dstep H; unfold inv2; cbn [t_chan t_tests]; try exact I2;
    try (split; [exact H1|]; eapply inv2_keep; [exact I2|eassumption|intros ?; reflexivity]).
  - (* start *)
    split; [exact H1|]. apply (inv2_keep st (t_next _ _ st) (PIdle _ _) (PWait _ _) I2); [apply I1; lia|intros ?; reflexivity].
  - (* start *)
    split; [exact H1|]. apply (inv2_keep st (t_next _ _ st) (PIdle _ _) (PWait _ _) I2); [apply I1; lia|intros ?; reflexivity].
  - (* take *)
    inversion H1 as [|? ? N1 N2]; subst. split; [exact N2|].
    assert (NH : forall a, ~ holds (t_tests _ _ st a) n) by (intros a Ha; apply (H3 a n Ha); left; reflexivity).
    repeat split.
    + intros a b s Ha Hb. ifs; cbn in *; subst; try reflexivity; try (exfalso; eapply NH; eassumption). eapply H2; eassumption.
    + intros a s Ha Hs. ifs; cbn in *; subst; [contradiction|]. apply (H3 a s Ha). right; exact Hs.
    + intros Hs. apply H4 in Hs as [[->|Hs]|[a Ha]].
      * right. exists i. rewrite Nat.eqb_refl. reflexivity.
      * left; exact Hs.
      * right. exists a. destruct (Nat.eqb_spec a i) as [->|]; [rewrite Q in Ha; contradiction|exact Ha].
    + intros [Hs|[a Ha]]; apply H4; [left; right; exact Hs|]. ifs; cbn in Ha; [subst; left; left; reflexivity|right; exists a; exact Ha].
  - eapply inv2_put; eassumption.
  - eapply inv2_put; eassumption.
  - eapply inv2_put; eassumption.
Qed.

(** The runs made. *)
Definition single (tr : list event) (i : nat) : Prop := update = true /\ force = false /\ found tr i.
Definition enough (tr : list event) (i : nat) (os : list outcome) : Prop :=
  (exists o1 o2, os = [o1; o2]) /\ ~ single tr i \/ (exists o, os = [o]) /\ single tr i.
Definition ran (tr : list event) (i : nat) (p : phase) : Prop :=
  match p with
  | PIdle _ _ | PWait _ _ | PLoad _ _ _ => outs tr i = [] /\ ~ found tr i
  | PSet _ _ _ b os | PExec _ _ _ b os =>
      outs tr i = os /\ (b = true <-> update = true /\ found tr i) /\ (os = [] \/ (exists o, os = [o]) /\ (b = false \/ force = true))
  | PSave _ _ _ os | PCommit _ _ _ os => outs tr i = os /\ enough tr i os
  | PPut _ _ _ None | PDone _ _ None => enough tr i (outs tr i)
  | _ => True
  end.
Lemma ran_ext (tr tr' : list event) i p : outs tr' i = outs tr i -> (found tr' i <-> found tr i) -> ran tr i p -> ran tr' i p.
Proof.
  intros E1 E2. assert (E3 : forall os, enough tr' i os <-> enough tr i os) by (intros os; unfold enough, single; rewrite E2; reflexivity).
  destruct p as [| | | | | | |? [|]|[|]]; cbn; rewrite ?E1, ?E2, ?E3; auto.
Qed.
Lemma found_snoc (tr : list event) e i : found (tr ++ [e]) i <-> found tr i \/ e = ELoad _ _ i (inr true).
Proof. unfold found. rewrite in_app_iff. cbn. tauto. Qed.
Definition inv3 (tr : list event) (st : state) : Prop := forall i, ran tr i (t_tests _ _ st i).
Lemma inv3_step tr st e st' : inv3 tr st -> inv1 st -> step st e = Some st' -> inv3 (tr ++ [e]) st'.
Proof.
  intros I I1 H i. unfold inv3 in I.
  pose proof (I i) as Ii.
  assert (F : (forall r, e <> ELoad _ _ i r) -> (found (tr ++ [e]) i <-> found tr i)).
  { intros N. rewrite found_snoc. split; [intros [X|X]; [exact X|exfalso; eapply N, X]|tauto]. }
  assert (O : (forall o, e <> EExec _ _ i o) -> outs (tr ++ [e]) i = outs tr i).
  { intros N. rewrite outs_snoc. destruct e; try apply app_nil_r. destruct (Nat.eqb_spec i0 i) as [->|]; [exfalso; eapply N; reflexivity|apply app_nil_r]. }
  assert (G : (forall r, e <> ELoad _ _ i r) -> (forall o, e <> EExec _ _ i o) -> forall p, ran tr i p -> ran (tr ++ [e]) i p).
  { intros N1 N2 p. apply ran_ext; [apply O, N2|apply F, N1]. }
  destruct e; dstep H;
    try (apply G; [discriminate|discriminate|exact Ii]);
    try (destruct (Nat.eqb_spec i i0) as [->|Ne]; [|apply G; [congruence|congruence|exact Ii]]);
    try exact Logic.I;
    try (apply G; [discriminate|discriminate|]; rewrite Q in Ii; exact Ii).
  - (* start *) destruct (Nat.eqb_spec i (t_next _ _ st)) as [->|]; [|apply G; [discriminate|discriminate|exact Ii]].
    apply G; [discriminate|discriminate|]. rewrite (proj1 (proj1 I1 _)) in Ii by lia. exact Ii.
  - destruct (Nat.eqb_spec i (t_next _ _ st)) as [->|]; [|apply G; [discriminate|discriminate|exact Ii]].
    apply G; [discriminate|discriminate|]. rewrite (proj1 (proj1 I1 _)) in Ii by lia. exact Ii.
  - (* load *) rewrite Q in Ii. cbn in Ii |- *. destruct Ii as [Io If]. rewrite O by discriminate. split; [exact Io|]. split; [|left; reflexivity].
    rewrite found_snoc, andb_true_iff. split; intros [U X]; (split; [exact U|]); [right; congruence|].
    destruct X as [X|X]; [contradiction|congruence].
  - (* exec *) rewrite Q in Ii. cbn in Ii |- *. rewrite outs_snoc, Nat.eqb_refl. destruct Ii as (-> & B & _). split; [reflexivity|].
    right. apply andb_true_iff in Q1 as [Bt Ff]. apply negb_true_iff in Ff. apply B in Bt as [U X].
    split; [eexists; reflexivity|]. split; [exact U|]. split; [exact Ff|]. apply F; [discriminate|exact X].
  - rewrite Q in Ii. cbn in Ii |- *. rewrite outs_snoc, Nat.eqb_refl. destruct Ii as (-> & B & _). split; [reflexivity|].
    split; [rewrite F by discriminate; exact B|]. right. split; [eexists; reflexivity|]. apply andb_false_iff in Q1 as [Bf|Ff]; [left; exact Bf|].
    right. apply negb_false_iff in Ff. exact Ff.
  - rewrite Q in Ii. cbn in Ii |- *. rewrite outs_snoc, Nat.eqb_refl. destruct Ii as (-> & B & [D|[(o1 & D) C]]); [discriminate|].
    injection D as -> ->. split; [reflexivity|]. left. split; [eexists; eexists; reflexivity|].
    intros (U & Ff & X). apply F in X; [|discriminate]. assert (st0 = true) by (apply B; split; assumption). destruct C; congruence.
  - (* commit *) apply G; [discriminate|discriminate|]. rewrite Q in Ii. cbn in Ii |- *. destruct Ii as [-> Ii]. exact Ii.
Qed.

Lemma final_amounts os r c l : final os = Some (r, c, l) <-> amounts combine os r c l.
Proof.
  split.
  - destruct os as [|[[r1 c1] l1] [|[[r2 c2] l2] [|? ?]]]; cbn; intros H; try discriminate; injection H as <- <- <-; constructor.
  - intros []; reflexivity.
Qed.
Lemma final_chk os r c l : final os = Some (r, c, l) -> chk os = c /\ rch os = l.
Proof. intros H. apply final_amounts in H. destruct H; split; reflexivity. Qed.
Lemma final_some os : (exists o1 o2 : outcome, os = [o1; o2]) \/ (exists o, os = [o]) -> exists o, final os = Some o.
Proof.
  intros [(o1 & o2 & ->)|(o & ->)]; [destruct o1 as [[r1 c1] l1], o2 as [[r2 c2] l2]|destruct o as [[r1 c1] l1]]; eexists; reflexivity.
Qed.

(** The handler of a server with a running test. *)
Definition inv4 (st : state) : Prop :=
  forall i s b os, t_tests _ _ st i = PExec _ _ s b os -> t_handler _ _ st s = Some (i, length os).
Lemma inv4_step st e st' : inv2 st -> inv4 st -> step st e = Some st' -> inv4 st'.
Proof.
  intros (_ & U & _ & _) I H j s' b' os' Hj.
  assert (X : forall i s, holds (t_tests _ _ st i) s -> i <> j -> t_tests _ _ st j = PExec _ _ s' b' os' -> s' <> s).
  { intros i s Hi Ne Hj' ->. apply Ne. eapply U; [exact Hi|rewrite Hj'; reflexivity]. }
  destruct e; dstep H; try (eapply I; exact Hj);
    repeat match type of Hj with context [?a =? ?b] => destruct (Nat.eqb_spec a b); subst end;
    try discriminate; try (eapply I; exact Hj).
  - destruct (Nat.eqb_spec s' s) as [->|]; [|eapply I; exact Hj]. exfalso. eapply (X i s); [rewrite Q; reflexivity|congruence|exact Hj|reflexivity].
  - injection Hj as -> -> ->. rewrite Nat.eqb_refl. reflexivity.
  - destruct (Nat.eqb_spec s' s) as [->|]; [|eapply I; exact Hj]. exfalso. eapply (X i s); [rewrite Q; reflexivity|congruence|exact Hj|reflexivity].
Qed.

(** Errors of the group. *)
Definition inv5 (st : state) : Prop :=
  match t_err _ _ st with
  | Some x => exists i, (0 < i)%nat /\ t_tests _ _ st i = PDone _ _ (Some x)
  | None => forall i x, (0 < i)%nat -> t_tests _ _ st i <> PDone _ _ (Some x)
  end.
Lemma inv5_keep st i p (ts := t_tests _ _ st) : inv5 st -> (forall r, ts i <> PDone _ _ r) -> (forall r, p <> PDone _ _ r) ->
  match t_err _ _ st with
  | Some x => exists j, (0 < j)%nat /\ (if j =? i then p else ts j) = PDone _ _ (Some x)
  | None => forall j x, (0 < j)%nat -> (if j =? i then p else ts j) <> PDone _ _ (Some x)
  end.
Proof.
  unfold inv5. intros H N1 N2. destruct (t_err _ _ st).
  - destruct H as (j & L & H). exists j. split; [exact L|]. destruct (Nat.eqb_spec j i) as [->|]; [exfalso; eapply N1, H|exact H].
  - intros j x L. destruct (Nat.eqb_spec j i) as [->|]; [apply N2|apply H, L].
Qed.
Lemma inv5_step st e st' : inv1 st -> inv5 st -> step st e = Some st' -> inv5 st'.
Proof.
  intros I1 I H.
  destruct e; dstep H; try exact I;
    try (apply (inv5_keep st); [exact I|intros ?; congruence|intros ?; discriminate]).
  1, 2: apply (inv5_keep st); [exact I|intros ?; rewrite (proj1 (proj1 I1 _)) by lia; discriminate|intros ?; discriminate].
  - apply Nat.eqb_eq in Q0. subst. unfold inv5 in *. cbn [t_err t_tests]. destruct (t_err _ _ st) eqn:Er.
    + destruct I as (j & L & I). exists j. split; [exact L|]. destruct (Nat.eqb_spec j 0); [lia|exact I].
    + intros j x L. destruct (Nat.eqb_spec j 0); [lia|apply I, L].
  - unfold inv5 in *. cbn [t_err t_tests]. rewrite Q1 in I. destruct I as (j & L & I). exists j. split; [exact L|].
    destruct (Nat.eqb_spec j i) as [->|]; [congruence|exact I].
  - unfold inv5 in *. cbn [t_err t_tests]. rewrite Q1 in I. apply Nat.eqb_neq in Q0. destruct e as [x|].
    + exists i. rewrite Nat.eqb_refl. split; [lia|reflexivity].
    + intros j x L. destruct (Nat.eqb_spec j i) as [->|]; [discriminate|apply I, L].
Qed.

(** The loop. *)
Definition inv6 (st : state) : Prop :=
  match t_main _ _ st with
  | MLoop _ => t_next _ _ st = 0%nat \/ t_tests _ _ st 0%nat = PDone _ _ None
  | MFirst _ => t_next _ _ st = 1%nat
  | MRet _ r =>
    (t_next _ _ st = 1%nat /\ (exists x, r = Some x) /\ t_tests _ _ st 0%nat = PDone _ _ r) \/
    (t_next _ _ st = ntests /\ r = t_err _ _ st /\ (forall i, (0 < i < ntests)%nat -> exists q, t_tests _ _ st i = PDone _ _ q) /\
     (0 < ntests -> t_tests _ _ st 0%nat = PDone _ _ None)%nat)
  end.
Lemma inv6_keep st i p st' : inv1 st -> inv6 st -> (t_tests _ _ st i <> PIdle _ _) -> (forall r, t_tests _ _ st i <> PDone _ _ r) ->
  t_main _ _ st' = t_main _ _ st -> t_next _ _ st' = t_next _ _ st -> t_tests _ _ st' = (fun j => if j =? i then p else t_tests _ _ st j) ->
  inv6 st'.
Proof.
  intros [I1 I2] I N1 N2 Em En Et. unfold inv6 in *. rewrite Em, En, Et.
  assert (Li : (i < t_next _ _ st)%nat) by (destruct (Nat.lt_ge_cases i (t_next _ _ st)) as [|G]; [assumption|apply I1 in G; contradiction]).
  destruct (t_main _ _ st) as [| |r].
  - destruct I as [I|I]; [left; exact I|]. right. destruct (Nat.eqb_spec 0 i) as [<-|]; [exfalso; eapply N2, I|exact I].
  - exact I.
  - exfalso. destruct I as [(I & _ & J)|(I & _ & J & K)].
    + replace i with 0%nat in N2 by lia. eapply N2, J.
    + destruct i as [|i]; [eapply N2, K; lia|]. destruct (J (S i)) as [q J']; [lia|]. eapply N2, J'.
Qed.
Lemma running0 st : inv1 st -> running st = 0%nat -> forall i, (0 < i < t_next _ _ st)%nat -> exists q, t_tests _ _ st i = PDone _ _ q.
Proof.
  intros [I1 _] H i L. unfold TestRunModel.running in H. apply length_zero_iff_nil in H.
  assert (A : active _ _ (t_tests _ _ st i) = false).
  { destruct (active _ _ (t_tests _ _ st i)) eqn:A; [|reflexivity]. exfalso.
    assert (In i (filter (fun i => active _ _ (t_tests _ _ st i)) (seq 1 (t_next _ _ st - 1)))) as X by (apply filter_In; split; [apply in_seq; lia|exact A]).
    rewrite H in X. exact X. }
  destruct (t_tests _ _ st i) eqn:T; try discriminate A; [|eexists; reflexivity]. apply I1 in T. lia.
Qed.
Lemma inv6_step st e st' : inv1 st -> inv6 st -> step st e = Some st' -> inv6 st'.
Proof.
  intros I1 I H. pose proof I1 as [I1a I1b].
  destruct e; dstep H; try (unfold inv6 in *; cbn [t_main t_next t_tests t_err] in *; exact I);
    try (eapply (inv6_keep st); [exact I1|exact I|erewrite ?Q; discriminate|intros ?; erewrite ?Q; discriminate|reflexivity|reflexivity|reflexivity]).
  - unfold inv6. cbn [t_main t_next]. apply Nat.eqb_eq in Q2. lia.
  - unfold inv6 in *. cbn [t_main t_next t_tests]. rewrite Q in I. apply Nat.eqb_neq in Q2. destruct I as [I|I]; [contradiction|].
    right. destruct (Nat.eqb_spec 0 (t_next _ _ st)); [lia|exact I].
  - unfold inv6 in *. cbn [t_main t_next t_tests]. rewrite Q in I. left. split; [exact I|]. split; [eexists; reflexivity|exact Q0].
  - unfold inv6 in *. cbn [t_main t_next t_tests]. right. exact Q0.
  - unfold inv6 in *. cbn [t_main t_next t_tests t_err]. rewrite Q in I. apply andb_true_iff in Q0 as [A B].
    apply Nat.eqb_eq in A, B. right. split; [exact A|]. split; [reflexivity|]. split.
    + intros i L. apply (running0 st I1 B). lia.
    + intros L. destruct I as [I|I]; [lia|exact I].
Qed.

(** Totals and stored results. *)
Definition finished (p : phase) : Prop := match p with PPut _ _ _ None | PDone _ _ None => True | _ => False end.
Lemma sumN_app f a b : sumN f (a ++ b) = (sumN f a + sumN f b)%N.
Proof. induction a as [|x a IH]; cbn; [reflexivity|]. unfold sumN in *. rewrite IH. lia. Qed.
Lemma sumN_ext f g l : (forall i, In i l -> f i = g i) -> sumN f l = sumN g l.
Proof. induction l as [|x l IH]; cbn; intros H; [reflexivity|]. unfold sumN in *. rewrite H, IH by auto. reflexivity. Qed.
Lemma sumN_perm f a b : Permutation a b -> sumN f a = sumN f b.
Proof. clear combine enc ntests ident servers force update. unfold sumN. induction 1; cbn; lia. Qed.

Definition inv7 (tr : list event) (st : state) : Prop :=
  (forall i, In i (committed tr) <-> finished (t_tests _ _ st i)) /\ NoDup (committed tr) /\
  t_total _ _ st = sumN (fun i => chk (outs tr i)) (committed tr) /\
  (forall x, In x (t_reached _ _ st) <-> exists i, In i (committed tr) /\ In x (rch (outs tr i))).
Lemma inv7_step tr st e st' : inv1 st -> inv3 tr st -> inv7 tr st -> step st e = Some st' -> inv7 (tr ++ [e]) st'.
Proof.
  intros I1 I3 (J1 & J2 & J3 & J4) H.
  assert (S1 : forall i p, ~ finished (t_tests _ _ st i) -> ~ finished p ->
    forall j, In j (committed tr) <-> finished (if j =? i then p else t_tests _ _ st j)).
  { intros i p N1 N2 j. destruct (Nat.eqb_spec j i) as [->|]; [rewrite J1; tauto|apply J1]. }
  assert (S2 : forall i r s, t_tests _ _ st i = PPut _ _ s r ->
    forall j, In j (committed tr) <-> finished (if j =? i then PDone _ _ r else t_tests _ _ st j)).
  { intros i r s T j. destruct (Nat.eqb_spec j i) as [->|]; [rewrite J1, T; cbn; tauto|apply J1]. }
  assert (S3 : t_total _ _ st = sumN (fun i => chk (outs (tr ++ [e]) i)) (committed tr) /\
    (forall x, In x (t_reached _ _ st) <-> exists i, In i (committed tr) /\ In x (rch (outs (tr ++ [e]) i)))).
  { assert (O : forall i, In i (committed tr) -> outs (tr ++ [e]) i = outs tr i).
    { intros i Hi. rewrite outs_snoc. destruct e; try apply app_nil_r. destruct (Nat.eqb_spec i0 i) as [->|]; [|apply app_nil_r].
      exfalso. apply J1 in Hi. unfold TestRunModel.step in H. destruct (t_tests _ _ st i) eqn:T; try discriminate. exact Hi. }
    split; [rewrite J3; apply sumN_ext; intros i Hi; rewrite O by exact Hi; reflexivity|].
    intros x. rewrite J4. split; intros (i & Hi & Hx); exists i; (split; [exact Hi|]); [rewrite O by exact Hi|rewrite <- (O i Hi)]; exact Hx. }
  destruct S3 as [S3 S4].
  unfold inv7. rewrite committed_snoc.
  destruct e; dstep H; rewrite ?app_nil_r;
    try (split; [first [exact J1|eapply S2; eassumption|apply S1; [erewrite Q; intros []|intros []]]|]; split; [exact J2|]; split; [exact S3|exact S4]).
  1, 2: split; [apply S1; [rewrite (proj1 (proj1 I1 _)) by lia; intros []|intros []]|]; split; [exact J2|]; split; [exact S3|exact S4].
  (* commit *)
  pose proof (I3 i) as I3i. rewrite Q in I3i. cbn in I3i. destruct I3i as [Ho _].
  assert (Ni : ~ In i (committed tr)) by (rewrite J1, Q; intros []).
  split; [|split; [|split]].
  - intros j. rewrite in_app_iff, J1. cbn [In]. destruct (Nat.eqb_spec j i) as [->|Ne]; cbn [finished]; [tauto|].
    split; [intros [X|[X|[]]]; [exact X|congruence]|intros X; left; exact X].
  - apply NoDup_app_iff. repeat split; [exact J2|constructor; [intros []|constructor]|]. intros x Hx [->|[]]. contradiction.
  - rewrite sumN_app, <- S3. cbn. rewrite outs_snoc, app_nil_r, Ho, (proj1 (final_chk _ _ _ _ Q0)). lia.
  - intros x. rewrite in_app_iff, S4. split.
    + intros [(j & Hj & Hx)|Hx]; [exists j; split; [apply in_or_app; left; exact Hj|exact Hx]|].
      exists i. split; [apply in_or_app; right; left; reflexivity|]. rewrite outs_snoc, app_nil_r, Ho, (proj2 (final_chk _ _ _ _ Q0)). exact Hx.
    + intros (j & Hj & Hx). apply in_app_or in Hj as [Hj|[<-|[]]]; [left; exists j; split; assumption|right].
      rewrite outs_snoc, app_nil_r, Ho, (proj2 (final_chk _ _ _ _ Q0)) in Hx. exact Hx.
Qed.

Definition saved (p : phase) : Prop := match p with PCommit _ _ _ _ => True | _ => finished p end.
Definition inv8 (tr : list event) (st : state) : Prop :=
  forall i, saved (t_tests _ _ st i) -> exists r c l, final (outs tr i) = Some (r, c, l) /\ mget (ident i) (t_store _ _ st) = Some (enc r).
Lemma inv8_step tr st e st' : distinct -> inv1 st -> inv3 tr st -> inv8 tr st -> step st e = Some st' -> inv8 (tr ++ [e]) st'.
Proof.
  intros D I1 I3 I H j Hj.
  assert (K : saved (t_tests _ _ st j) -> (forall o, e <> EExec _ _ j o) -> exists r c l, final (outs (tr ++ [e]) j) = Some (r, c, l) /\ mget (ident j) (t_store _ _ st) = Some (enc r)).
  { intros Sj Nj. destruct (I j Sj) as (r & c & l & A & B). exists r, c, l. split; [|exact B]. rewrite outs_snoc.
    destruct e; rewrite ?app_nil_r; try exact A. destruct (Nat.eqb_spec i j) as [->|]; [congruence|]. rewrite app_nil_r. exact A. }
  assert (L : forall i, t_tests _ _ st i <> PIdle _ _ -> (i < ntests)%nat).
  { intros i N. destruct (Nat.lt_ge_cases i (t_next _ _ st)) as [|G]; [destruct I1; lia|]. apply I1 in G. contradiction. }
  destruct e; dstep H; try (apply K; [exact Hj|congruence]);
    repeat match type of Hj with context [?a =? ?b] => destruct (Nat.eqb_spec a b); subst end;
    try contradiction; try (apply K; [exact Hj|congruence]);
    try (apply K; [rewrite Q; exact Hj|congruence]).
  - (* failed save *)
    destruct K as (r' & c' & l' & A & B); [exact Hj|congruence|]. exists r', c', l'. split; [exact A|].
    assert (Ne : ident j <> ident i).
    { intros X. apply n0. apply D; [apply L; intros T; rewrite T in Hj; exact Hj|apply L; congruence|exact X]. }
    unfold save_to. destruct o0; [rewrite mget_mset_other by exact Ne; exact B|rewrite mget_mdel; destruct (beq (ident j) (ident i)) eqn:Bq; [apply beq_true in Bq; contradiction|exact B]].
  - specialize (I3 i). rewrite Q in I3. cbn in I3. destruct I3 as [Ho _]. exists r, n, l.
    rewrite outs_snoc, app_nil_r, Ho. split; [exact Q0|apply mget_mset_same].
  - destruct K as (r' & c' & l' & A & B); [exact Hj|congruence|]. exists r', c', l'. split; [exact A|].
    assert (Ne : ident j <> ident i).
    { intros X. apply n0. apply D; [apply L; intros T; rewrite T in Hj; exact Hj|apply L; congruence|exact X]. }
    rewrite mget_mset_other by exact Ne. exact B.
Qed.

(** Everything together. *)
Lemma all_inv tr st : NoDup servers -> exec init tr = Some st ->
  inv1 st /\ inv2 st /\ inv3 tr st /\ inv4 st /\ inv5 st /\ inv6 st /\ inv7 tr st.
Proof.
  intros ND. revert tr st. apply exec_ind.
  - split; [split; [intros i; cbn; split; [reflexivity|lia]|cbn; lia]|].
    split; [split; [exact ND|split; [intros i j s []|split; [intros i s []|]]]|].
    { intros s. cbn. split; [intros H; left; exact H|intros [H|[i []]]; exact H]. }
    split; [intros i; split; [reflexivity|intros []]|]. split; [intros i s b os H; discriminate|].
    split; [intros i x L H; discriminate|]. split; [left; reflexivity|].
    split; [intros i; cbn; tauto|]. split; [constructor|]. split; [reflexivity|].
    intros x. cbn. split; [intros []|intros (i & [] & _)].
  - intros tr st e st' _ (I1 & I2 & I3 & I4 & I5 & I6 & I7) H.
    split; [eapply inv1_step; eassumption|]. split; [eapply inv2_step; eassumption|]. split; [eapply inv3_step; eassumption|].
    split; [eapply inv4_step; eassumption|]. split; [eapply inv5_step; eassumption|]. split; [eapply inv6_step; eassumption|].
    eapply inv7_step; eassumption.
Qed.
Lemma store_inv tr st : NoDup servers -> distinct -> exec init tr = Some st -> inv8 tr st.
Proof.
  intros ND D. revert tr st. apply exec_ind.
  - intros i [].
  - intros tr st e st' Ex I H. destruct (all_inv _ _ ND Ex) as (I1 & _ & I3 & _). eapply inv8_step; eassumption.
Qed.

(** Progress. *)
Lemma step_of st i (r0 : R) : inv3 [] st \/ (exists tr, inv3 tr st) -> active _ _ (t_tests _ _ st i) = true -> t_tests _ _ st i <> PWait _ _ ->
  exists e st', is_msg e = false /\ step st e = Some st'.
Proof.
  intros I A N. assert (I' : exists tr, inv3 tr st) by (destruct I as [I|I]; [eexists; exact I|exact I]). destruct I' as [tr I3].
  specialize (I3 i). destruct (t_tests _ _ st i) eqn:T; try discriminate; [congruence|..].
  - exists (ELoad _ _ i (inr false)). cbn. rewrite T. eexists; split; reflexivity.
  - exists (ESet _ _ i None). cbn. rewrite T. eexists; split; reflexivity.
  - exists (EExec _ _ i (r0, 0%N, [])). cbn. rewrite T. destruct os; [destruct (st0 && negb force)|]; eexists; split; reflexivity.
  - cbn in I3. destruct I3 as [_ I3].
    destruct (final_some os) as [[[r c] l] F]; [destruct I3 as [[I3 _]|[I3 _]]; [left|right]; exact I3|].
    exists (ESave _ _ i None). cbn -[TestRunModel.final]. rewrite T, F. eexists; split; reflexivity.
  - cbn in I3. destruct I3 as [_ I3].
    destruct (final_some os) as [[[r c] l] F]; [destruct I3 as [[I3 _]|[I3 _]]; [left|right]; exact I3|].
    exists (ECommit _ _ i). cbn -[TestRunModel.final]. rewrite T, F. eexists; split; reflexivity.
  - exists (EPut _ _ i). cbn. rewrite T. eexists; split; reflexivity.
Qed.
Lemma someone (f : nat -> bool) n : (exists i, (i < n)%nat /\ f i = true) \/ forall i, (i < n)%nat -> f i = false.
Proof.
  induction n as [|n [(i & L & H)|IH]]; [right; intros; lia|left; exists i; split; [lia|exact H]|].
  destruct (f n) eqn:F; [left; exists n; split; [lia|exact F]|]. right. intros i L.
  destruct (Nat.eq_dec i n) as [->|]; [exact F|apply IH; lia].
Qed.
Lemma progress tr st (r0 : R) : NoDup servers -> (servers = [] -> ntests = 0%nat) -> exec init tr = Some st -> (forall r, t_main _ _ st <> MRet _ r) ->
  exists e st', is_msg e = false /\ step st e = Some st'.
Proof.
  intros ND NE Ex NR. destruct (all_inv _ _ ND Ex) as (I1 & I2 & I3 & _ & _ & I6 & _).
  destruct (someone (fun i => active _ _ (t_tests _ _ st i) && match t_tests _ _ st i with PWait _ _ => false | _ => true end) (t_next _ _ st)) as [(i & L & H)|NA].
  { apply andb_true_iff in H as [A W]. eapply (step_of st i r0); [right; eexists; exact I3|exact A|]. intros T. rewrite T in W. discriminate. }
  assert (NH : forall i s, ~ holds (t_tests _ _ st i) s).
  { intros i s H. destruct (Nat.lt_ge_cases i (t_next _ _ st)) as [L|G]; [|apply I1 in G; rewrite G in H; exact H].
    specialize (NA i L). destruct (t_tests _ _ st i); try discriminate NA; exact H. }
  assert (Ch : servers <> [] -> exists s rest, t_chan _ _ st = s :: rest).
  { intros NE'. destruct I2 as (_ & _ & _ & I2). destruct servers as [|s ss] eqn:Es; [congruence|].
    destruct (proj1 (I2 s)) as [Hs|[i Hi]]; [left; reflexivity| |exfalso; eapply NH, Hi].
    destruct (t_chan _ _ st); [contradiction|eexists; eexists; reflexivity]. }
  destruct (someone (fun i => active _ _ (t_tests _ _ st i)) (t_next _ _ st)) as [(i & L & A)|NA2].
  { destruct Ch as (s & rest & Ch); [intros X; apply NE in X; destruct I1; lia|].
    exists (ETake _ _ i). assert (T : t_tests _ _ st i = PWait _ _).
    { specialize (NA i L). cbn in NA. rewrite A in NA. destruct (t_tests _ _ st i); try discriminate; reflexivity. }
    cbn. rewrite T, Ch. eexists; split; reflexivity. }
  assert (R0 : running st = 0%nat).
  { unfold TestRunModel.running. apply length_zero_iff_nil. 
    destruct (filter _ _) as [|x xs] eqn:F; [reflexivity|]. exfalso.
    assert (In x (x :: xs)) as X by (left; reflexivity). rewrite <- F in X. apply filter_In in X as [X Y]. apply in_seq in X.
    rewrite NA2 in Y by lia. discriminate. }
  unfold inv6 in I6. destruct (t_main _ _ st) as [| |r] eqn:M.
  - destruct (Nat.lt_ge_cases (t_next _ _ st) ntests) as [L|G].
    + exists (EStart _ _). unfold TestRunModel.step. rewrite M. apply Nat.ltb_lt in L. rewrite L, R0.
      replace (0 <? length servers) with true by (symmetry; apply Nat.ltb_lt; apply Nat.ltb_lt in L; destruct servers; [specialize (NE eq_refl); lia|cbn; lia]).
      rewrite orb_true_r. eexists; split; reflexivity.
    + exists (EWait _ _). unfold TestRunModel.step. rewrite M, R0. replace (t_next _ _ st) with ntests by (destruct I1; lia).
      rewrite Nat.eqb_refl. eexists; split; reflexivity.
  - exists (EFirst _ _). cbn. rewrite M. specialize (NA2 0%nat). rewrite I6 in NA2. specialize (NA2 ltac:(lia)).
    destruct (t_tests _ _ st 0%nat) eqn:T; try discriminate NA2; [|eexists; split; reflexivity].
    apply I1 in T. lia.
  - exfalso. eapply NR; reflexivity.
Qed.

(** Termination. *)
Definition rank (p : phase) : nat :=
  match p with
  | PIdle _ _ => 10 | PWait _ _ => 9 | PLoad _ _ _ => 8
  | PSet _ _ _ _ [] => 7 | PExec _ _ _ _ [] => 6 | PSet _ _ _ _ _ => 5 | PExec _ _ _ _ _ => 4
  | PSave _ _ _ _ => 3 | PCommit _ _ _ _ => 2 | PPut _ _ _ _ => 1 | PDone _ _ _ => 0
  end.
Definition mrank (st : state) : nat :=
  match t_main _ _ st with MLoop _ => if t_next _ _ st =? 0 then 3 else 1 | MFirst _ => 2 | MRet _ _ => 0 end.
Definition measure (st : state) : nat := mrank st + list_sum (map (fun i => rank (t_tests _ _ st i)) (seq 0 ntests)).
Lemma sum_update (f : nat -> nat) i v l : NoDup l -> In i l -> list_sum (map (fun j => if j =? i then v else f j) l) + f i = list_sum (map f l) + v.
Proof.
  intros ND Hi. induction l as [|x l IH]; [contradiction|]. inversion ND as [|? ? N1 N2]; subst. cbn. destruct Hi as [->|Hi].
  - rewrite Nat.eqb_refl. assert (X : map (fun j => if j =? i then v else f j) l = map f l).
    { apply map_ext_in. intros a Ha. destruct (Nat.eqb_spec a i) as [->|]; [contradiction|reflexivity]. }
    rewrite X. lia.
  - specialize (IH N2 Hi). unfold list_sum in IH. destruct (Nat.eqb_spec x i) as [->|]; [contradiction|]. lia.
Qed.
Lemma measure_keep st i p : (i < ntests)%nat -> (rank p < rank (t_tests _ _ st i))%nat ->
  (list_sum (map (fun j => rank (if (j =? i)%nat then p else t_tests _ _ st j)) (seq 0 ntests)) < list_sum (map (fun i => rank (t_tests _ _ st i)) (seq 0 ntests)))%nat.
Proof.
  intros L H. pose proof (sum_update (fun j => rank (t_tests _ _ st j)) i (rank p) (seq 0 ntests) (seq_NoDup _ _)) as S.
  specialize (S ltac:(apply in_seq; lia)).
  assert (X : map (fun j => rank (if j =? i then p else t_tests _ _ st j)) (seq 0 ntests) =
    map (fun j => if j =? i then rank p else rank (t_tests _ _ st j)) (seq 0 ntests)) by (apply map_ext; intros a; destruct (a =? i); reflexivity).
  rewrite X. cbn in S |- *. lia.
Qed.
Lemma measure_step st e st' : inv1 st -> step st e = Some st' -> is_msg e = false -> (measure st' < measure st)%nat.
Proof.
  intros I1 H M. 
  assert (L : forall i, t_tests _ _ st i <> PIdle _ _ -> (i < ntests)%nat).
  { intros i N. destruct (Nat.lt_ge_cases i (t_next _ _ st)) as [|G]; [destruct I1; lia|]. apply I1 in G. contradiction. }
  unfold measure, mrank.
  destruct e; try discriminate M; dstep H;
    try (apply Nat.add_lt_mono_l; apply measure_keep; [apply L; congruence|rewrite Q; try destruct os; cbn; lia]).
  - apply Nat.ltb_lt in Q0. pose proof (measure_keep st (t_next _ _ st) (PWait _ _) Q0) as K.
    rewrite (proj1 (proj1 I1 _)) in K by lia. specialize (K ltac:(cbn; lia)). lia.
  - apply Nat.ltb_lt in Q0. pose proof (measure_keep st (t_next _ _ st) (PWait _ _) Q0) as K.
    rewrite (proj1 (proj1 I1 _)) in K by lia. specialize (K ltac:(cbn; lia)). cbn [Nat.eqb]. lia.
  - lia.
  - destruct (t_next _ _ st) eqn:Nx; cbn; [|lia]. exfalso.
    assert (T : t_tests _ _ st 0%nat = PIdle _ _) by (apply I1; lia). congruence.
  - destruct (t_next _ _ st =? 0); lia.
Qed.
Lemma steps_bound tr st : exec init tr = Some st -> (length (filter (fun e => negb (is_msg e)) tr) + measure st <= 10 * ntests + 3)%nat.
Proof.
  intros Ex. assert (inv1 st /\ (length (filter (fun e => negb (is_msg e)) tr) + measure st <= 10 * ntests + 3)%nat) as [_ H]; [|exact H].
  revert tr st Ex. apply exec_ind.
  - split; [split; [intros i; cbn; split; [reflexivity|lia]|cbn; lia]|]. unfold measure, mrank. cbn -[list_sum seq Nat.mul].
    assert (S : forall n k, list_sum (map (fun _ : nat => 10%nat) (seq k n)) = (10 * n)%nat).
    { induction n as [|n IH]; intros k; [reflexivity|]. cbn [seq map list_sum fold_right]. unfold list_sum in IH |- *. cbn [fold_right]. rewrite IH. lia. }
    rewrite S. lia.
  - intros tr st e st' _ [I1 I] H. split; [eapply inv1_step; eassumption|]. rewrite filter_app, app_length. cbn. destruct (is_msg e) eqn:M.
    + cbn. destruct e; try discriminate M. dstep H. unfold measure, mrank in *. cbn [t_main t_next t_tests] in *. lia.
    + cbn. pose proof (measure_step _ _ _ I1 H M). lia.
Qed.

(** Messages recorded. *)
Lemma rec_own tr st : NoDup servers -> exec init tr = Some st ->
  (forall tr1 e tr2 st1, tr = tr1 ++ e :: tr2 -> exec init tr1 = Some st1 -> well_sent st1 e) ->
  forall h x, In (h, x) (t_rec _ _ st) -> h = x.
Proof.
  intros ND. revert tr st. apply (exec_ind (fun tr st =>
    (forall tr1 e tr2 st1, tr = tr1 ++ e :: tr2 -> exec init tr1 = Some st1 -> well_sent st1 e) ->
    forall h x, In (h, x) (t_rec _ _ st) -> h = x)).
  - intros _ h x [].
  - intros tr st e st' Ex IH S W.
    assert (I : forall h x, In (h, x) (t_rec _ _ st) -> h = x).
    { apply IH. intros tr1 e1 tr2 st1 -> Ex1. eapply (W tr1 e1 (tr2 ++ [e])); [rewrite <- app_assoc; reflexivity|exact Ex1]. }
    specialize (W tr e [] st eq_refl Ex).
    destruct (all_inv _ _ ND Ex) as (_ & _ & _ & I4 & _).
    destruct e; dstep S; try exact I.
    intros h x Hx. apply in_app_or in Hx as [Hx|[Hx|[]]]; [eapply I; exact Hx|]. injection Hx as <- <-.
    destruct sender as [i k]. destruct W as (b & os & W & <-). rewrite (I4 _ _ _ _ W) in Q. congruence.
Qed.
End Proofs.
