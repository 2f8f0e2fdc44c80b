(** C31: point ids are unique under concurrency. *)
From Verif Require Import Base ModifierModel.

(** The ids handed out, in the order of the successful compare-and-swaps. *)
Definition ids (evs : list pevent) : list N := flat_map (fun e => match e with PGot _ id => [id] | _ => [] end) evs.

(** 1, 2, ..., k *)
Definition first_ids (k : nat) : list N := map N.of_nat (seq 1 k).
Definition counter_for (k : nat) : N := match k with O => 0%N | S _ => (N.of_nat k + 1)%N end.

Lemma set_nth_spec {A} (l : list A) : forall n x m y, nth_error (set_nth n x l) m = Some y -> (y = x) \/ nth_error l m = Some y.
Proof.
  induction l as [|z l IH]; intros [|n] x m y H; cbn in H; try (destruct m; discriminate).
  - destruct m; cbn in *; [left; congruence|right; exact H].
  - destruct m; cbn in *; [right; exact H|]. apply (IH n x m y H).
Qed.

Lemma set_nth_other {A} (l : list A) : forall n x m, m <> n -> nth_error (set_nth n x l) m = nth_error l m.
Proof.
  induction l as [|z l IH]; intros [|n] x [|m] H; cbn; try reflexivity; try congruence. apply IH. congruence.
Qed.
Lemma set_nth_same {A} (l : list A) : forall n x y, nth_error l n = Some y -> nth_error (set_nth n x l) n = Some x.
Proof. induction l as [|z l IH]; intros [|n] x y H; cbn in *; try discriminate; [reflexivity|eauto]. Qed.

Lemma pexec_app s a s1 b s2 : pexec s a s1 -> pexec s1 b s2 -> pexec s (a ++ b) s2.
Proof. induction 1; cbn; [auto|econstructor; eauto]. Qed.
Lemma pexec_split a : forall s b s2, pexec s (a ++ b) s2 -> exists s1, pexec s a s1 /\ pexec s1 b s2.
Proof.
  induction a as [|v a IH]; cbn; intros s b s2 H; [exists s; split; [constructor|exact H]|].
  inversion H; subst. destruct (IH _ _ _ H5) as (s3 & A & C). exists s3. split; [econstructor; eauto|exact C].
Qed.

Lemma ids_app a b : ids (a ++ b) = ids a ++ ids b.
Proof. apply flat_map_app. Qed.

Lemma first_ids_S k : first_ids (S k) = first_ids k ++ [N.of_nat (S k)].
Proof. unfold first_ids. rewrite seq_S, map_app. reflexivity. Qed.
Lemma first_ids_length k : length (first_ids k) = k.
Proof. unfold first_ids. rewrite map_length, seq_length. reflexivity. Qed.

(** What holds in every reachable state, [k] ids having been handed out. *)
Definition pinv (k : nat) (s : pstate) : Prop :=
  p_counter s = counter_for k /\ (p_counter s < 4294967296)%N /\
  forall i v, nth_error (p_threads s) i = Some (PRead v) -> (v <= p_counter s)%N.

Lemma pstep_inv k s v s' : pstep s v s' -> pinv k s ->
  (ids [v] = [] /\ pinv k s' /\ p_counter s' = p_counter s) \/ (ids [v] = [N.of_nat (S k)] /\ pinv (S k) s').
Proof.
  intros H (C & L & T). destruct H as [c ts i Hi|ts i Hi|c ts i w Hi Hw Ho|ts i w Hi Hw Ho|c ts i w Hi Hw Hc]; cbn [p_counter p_threads] in *.
  - left. split; [reflexivity|]. split; [|reflexivity]. split; [exact C|]. split; [exact L|]. cbn. intros j u Hj. apply set_nth_spec in Hj as [E|Hj]; [injection E as ->; lia|eauto].
  - right. destruct k; [|unfold counter_for in C; lia]. split; [reflexivity|]. split; [reflexivity|]. split; [reflexivity|]. cbn. intros j u Hj.
    apply set_nth_spec in Hj as [E|Hj]; [discriminate|]. specialize (T _ _ Hj). lia.
  - left. split; [reflexivity|]. split; [|reflexivity]. split; [exact C|]. split; [exact L|]. cbn. intros j u Hj. apply set_nth_spec in Hj as [E|Hj]; [discriminate|eauto].
  - right. assert (wrap32 (w + 1) = w + 1)%N as W.
    { unfold wrap32 in *. apply N.mod_small. destruct (N.eq_dec (w + 1) 4294967296) as [E|NE]; [rewrite E in Ho; exfalso; apply Ho; reflexivity|lia]. }
    assert (w = N.of_nat (S k)) as E by (destruct k; unfold counter_for in C; lia). cbn [ids flat_map app]. rewrite <- E. split; [reflexivity|].
    assert (w + 1 < 4294967296)%N by (unfold wrap32 in *; destruct (N.eq_dec (w + 1) 4294967296) as [E2|NE]; [rewrite E2 in Ho; exfalso; apply Ho; reflexivity|lia]).
    split; [cbn; rewrite W, E; reflexivity|]. split; [cbn; rewrite W; assumption|]. cbn. rewrite W. intros j u Hj. apply set_nth_spec in Hj as [E3|Hj]; [discriminate|].
    specialize (T _ _ Hj). lia.
  - left. split; [reflexivity|]. split; [|reflexivity]. split; [exact C|]. split; [exact L|]. cbn. intros j u Hj. apply set_nth_spec in Hj as [E|Hj]; [discriminate|eauto].
Qed.

Lemma pexec_inv s evs s' : pexec s evs s' -> forall k, pinv k s ->
  exists k', pinv k' s' /\ (k <= k')%nat /\ first_ids k ++ ids evs = first_ids k'.
Proof.
  induction 1 as [s|s v s1 vs s2 H _ IH]; intros k I.
  - exists k. split; [exact I|]. split; [lia|]. apply app_nil_r.
  - change (ids (v :: vs)) with (ids ([v] ++ vs)). rewrite ids_app. destruct (pstep_inv _ _ _ _ H I) as [(E & I1 & _)|(E & I1)]; rewrite E.
    + exact (IH _ I1).
    + destruct (IH _ I1) as (k' & A & C & D). exists k'. split; [exact A|]. split; [lia|]. rewrite app_assoc, <- first_ids_S. exact D.
Qed.

Lemma pinv_init n : pinv 0 (p_init n).
Proof.
  split; [reflexivity|]. split; [reflexivity|]. cbn. intros i v H. apply nth_error_In, repeat_spec in H. discriminate.
Qed.

Lemma run_inv n evs s : pexec (p_init n) evs s -> pinv (length (ids evs)) s /\ ids evs = first_ids (length (ids evs)).
Proof.
  intros H. destruct (pexec_inv _ _ _ H 0%nat (pinv_init n)) as (k & A & _ & E). cbn in E. rewrite E, first_ids_length. auto.
Qed.

(** However the threads interleave, the ids handed out are 1, 2, 3, ... in the order of
    the successful swaps: none twice, none zero, all below 2^32 - 1. *)
Theorem C31_ids_consecutive : forall n evs s, pexec (p_init n) evs s ->
  ids evs = first_ids (length (ids evs)) /\ NoDup (ids evs) /\ Forall (fun id => (0 < id < 4294967295)%N) (ids evs).
Proof.
  intros n evs s H. destruct (run_inv _ _ _ H) as [(C & L & _) E]. split; [exact E|]. rewrite E. split.
  - apply FinFun.Injective_map_NoDup; [intros a b X; apply Nat2N.inj, X|apply seq_NoDup].
  - apply Forall_forall. intros id Hi. unfold first_ids in Hi. apply in_map_iff in Hi as (j & <- & Hj). apply in_seq in Hj.
    rewrite C in L. destruct (length (ids evs)) eqn:El; [lia|]. unfold counter_for in L. lia.
Qed.

(** An allocation is refused only when all 2^32 - 2 ids are handed out, and then every
    later one is refused too. *)
Theorem C31_refused_only_when_used_up : forall n a i b s, pexec (p_init n) (a ++ PRefused i :: b) s ->
  ids a = first_ids (N.to_nat 4294967294) /\ ids b = [].
Proof.
  intros n a i b s H. destruct (pexec_split _ _ _ _ H) as (s1 & Ha & Hb). inversion Hb as [|? ? s2 ? ? Hs Hb']; subst.
  destruct (run_inv _ _ _ Ha) as [(C & L & T) E].
  assert (p_counter s1 = 4294967295)%N as Cm.
  { inversion Hs as [| |c ts j v Hj Hv Ho| |]; subst. cbn [p_counter p_threads] in *. specialize (T _ _ Hj).
    unfold wrap32 in Ho. destruct (N.eq_dec v 4294967295); [lia|]. rewrite N.mod_small in Ho by lia. lia. }
  assert (length (ids a) = N.to_nat 4294967294) as Len.
  { rewrite Cm in C. destruct (length (ids a)); unfold counter_for in C; lia. }
  split; [rewrite <- Len; exact E|].
  destruct (run_inv _ _ _ H) as [(C2 & L2 & _) E2]. rewrite ids_app in *. change (ids (PRefused i :: b)) with (ids b) in *.
  rewrite app_length in *. destruct (ids b) as [|x l] eqn:Eb; [reflexivity|]. exfalso. rewrite Len in C2. cbn [length] in C2. rewrite C2 in L2.
  destruct (N.to_nat 4294967294 + S (length l))%nat eqn:Z; [lia|]. unfold counter_for in L2. lia.
Qed.

(** A swap fails only because another thread got an id since this one's load. *)
Theorem C31_retry_means_progress : forall n a i m b s, pexec (p_init n) (a ++ PLoad i :: m ++ PRetry i :: b) s ->
  ~ In (PLoad i) m -> exists j id, In (PGot j id) m.
Proof.
  intros n a i m b s H Nl. destruct (pexec_split _ _ _ _ H) as (s1 & Ha & Hb). inversion Hb as [|? ? s2 ? ? Hs Hb']; subst.
  destruct (pexec_split _ _ _ _ Hb') as (s3 & Hm & Hr). inversion Hr as [|? ? s4 ? ? Hrs _]; subst.
  destruct (run_inv _ _ _ Ha) as [I _]. inversion Hs as [c ts j Hj| | | |]; subst.
  assert (nth_error (p_threads (PSt c (set_nth i (PRead c) ts))) i = Some (PRead c)) as R by (cbn; eapply set_nth_same; exact Hj).
  assert (forall s, nth_error (p_threads s) i = Some (PRead (p_counter s)) -> forall k, pinv k s -> forall m s3, pexec s m s3 -> ~ In (PLoad i) m ->
    (exists j id, In (PGot j id) m) \/ nth_error (p_threads s3) i = Some (PRead (p_counter s3)) \/ nth_error (p_threads s3) i = Some POut) as G.
  { assert (forall m s s3, pexec s m s3 -> nth_error (p_threads s) i = Some POut -> ~ In (PLoad i) m -> nth_error (p_threads s3) i = Some POut) as G0.
    { induction 1 as [s0|s0 v s5 vs s6 Hv _ IH]; [auto|]. intros Ho Nm. apply IH; [|intros X; apply Nm; right; exact X].
      destruct Hv as [c0 ts0 j0 Hj0|ts0 j0 Hj0|c0 ts0 j0 w Hj0 ? ?|ts0 j0 w Hj0 ? ?|c0 ts0 j0 w Hj0 ? ?]; cbn [p_threads] in *;
        (destruct (Nat.eq_dec i j0) as [<-|Ne]; [|rewrite set_nth_other by exact Ne; exact Ho]); try (eapply set_nth_same; exact Hj0).
      exfalso. apply Nm. left. reflexivity. }
    intros s0 R0 k0 I0 m0 s5 Hx. revert k0 I0 R0. induction Hx as [s0|s0 v s5 vs s6 Hv Hx IH]; intros k0 I0 R0 Nm; [auto|].
    destruct (pstep_inv _ _ _ _ Hv I0) as [(E & I1 & Ec)|(E & I1)].
    - assert (nth_error (p_threads s5) i = Some (PRead (p_counter s5)) \/ nth_error (p_threads s5) i = Some POut) as [R5|R5].
      { destruct Hv as [c0 ts0 j0 Hj0|ts0 j0 Hj0|c0 ts0 j0 w Hj0 ? ?|ts0 j0 w Hj0 ? ?|c0 ts0 j0 w Hj0 ? ?]; cbn [p_threads p_counter] in *;
          (destruct (Nat.eq_dec i j0) as [<-|Ne]; [|left; rewrite set_nth_other by exact Ne; try exact R0; rewrite Ec; exact R0]);
          first [exfalso; apply Nm; left; reflexivity|right; eapply set_nth_same; exact Hj0]. }
      + destruct (IH _ I1 R5) as [(j0 & id & X)|X]; [intros X; apply Nm; right; exact X|left; exists j0, id; right; exact X|right; exact X].
      + right. right. eapply G0; [exact Hx|exact R5|]. intros X; apply Nm; right; exact X.
    - left. destruct v; try discriminate E. eexists. eexists. left. reflexivity. }
  destruct (pstep_inv _ _ _ _ Hs I) as [(_ & I2 & _)|(X & _)]; [|discriminate].
  destruct (G _ R _ I2 _ _ Hm Nl) as [X|[X|X]]; [exact X| |]; exfalso; inversion Hrs as [| | | |c0 ts0 j0 w Hj0 Hw Hc]; subst; cbn [p_threads p_counter] in *; congruence.
Qed.

(** A thread that runs alone finishes in at most three steps, in any reachable state. *)
Theorem C31_alone_finishes : forall n evs s i t, pexec (p_init n) evs s -> nth_error (p_threads s) i = Some t ->
  exists vs s', pexec s vs s' /\ (length vs <= 3)%nat /\ Forall (fun v => match v with PLoad j | PGot j _ | PRetry j | PRefused j => j = i end) vs /\
    exists v, last vs (PLoad i) = v /\ match v with PGot _ _ | PRefused _ => True | _ => False end.
Proof.
  intros n evs s i t H Ht. destruct s as [c ts]. cbn in Ht.
  assert (forall c ts, nth_error ts i = Some (PRead c) -> exists v s', pstep (PSt c ts) v s' /\ match v with PGot j _ | PRefused j => j = i | _ => False end) as Fin.
  { clear. intros c ts Hr. destruct (N.eq_dec c 0) as [->|Hz]; [eexists; eexists; split; [apply ps_first; exact Hr|reflexivity]|].
    destruct (N.eq_dec (wrap32 (c + 1)) 0) as [Ho|Ho]; [eexists; eexists; split; [eapply ps_over; eassumption|reflexivity]|].
    eexists. eexists. split; [apply ps_got; eassumption|reflexivity]. }
  assert (forall ts, nth_error ts i = Some POut -> exists vs s', pexec (PSt c ts) vs s' /\ (length vs <= 2)%nat /\
     Forall (fun v => match v with PLoad j | PGot j _ | PRetry j | PRefused j => j = i end) vs /\
     exists v, last vs (PLoad i) = v /\ match v with PGot _ _ | PRefused _ => True | _ => False end) as Out.
  { intros ts0 Ho. destruct (Fin c (set_nth i (PRead c) ts0)) as (v & s' & Hs & Hv); [eapply set_nth_same; exact Ho|].
    exists [PLoad i; v], s'. split; [econstructor; [apply ps_load; exact Ho|econstructor; [exact Hs|constructor]]|]. split; [cbn; lia|].
    split; [repeat constructor; destruct v; tauto|]. exists v. split; [reflexivity|]. destruct v; tauto. }
  destruct t as [|v].
  - destruct (Out ts Ht) as (vs & s' & A & L & F & X). exists vs, s'. split; [exact A|]. split; [lia|]. split; assumption.
  - destruct (N.eq_dec c v) as [<-|Ne].
    + destruct (Fin c ts Ht) as (w & s' & Hs & Hv). exists [w], s'. split; [econstructor; [exact Hs|constructor]|]. split; [cbn; lia|].
      split; [repeat constructor; destruct w; tauto|]. exists w. split; [reflexivity|]. destruct w; tauto.
    + destruct (N.eq_dec v 0) as [Hz|Hz]; [|destruct (N.eq_dec (wrap32 (v + 1)) 0) as [Hw|Hw]].
      1, 3: destruct (Out (set_nth i POut ts)) as (vs & s' & A & L & F & X); [eapply set_nth_same; exact Ht|];
        exists (PRetry i :: vs), s'; (split; [econstructor; [eapply ps_retry; [exact Ht|tauto|exact Ne]|exact A]|]); (split; [cbn; lia|]); (split; [constructor; [reflexivity|exact F]|]);
        destruct X as (x & Hl & Hx); exists x; split; [|exact Hx]; destruct vs; [cbn in Hl; subst; destruct Hx|exact Hl].
      exists [PRefused i]. eexists. split; [econstructor; [eapply ps_over; eassumption|constructor]|]. split; [cbn; lia|]. split; [repeat constructor|].
      exists (PRefused i). split; [reflexivity|exact I].
Qed.
Print Assumptions C31_ids_consecutive.
Print Assumptions C31_refused_only_when_used_up.
Print Assumptions C31_retry_means_progress.
Print Assumptions C31_alone_finishes.

(** Two threads read the same value; one swap fails, is retried, and both get an id. *)
Example C31_example : exists s, pexec (p_init 2) [PLoad 0; PLoad 1; PGot 1 1; PRetry 0; PLoad 0; PGot 0 2] s /\ p_counter s = 3%N.
Proof.
  eexists. split.
  - eapply px_cons; [apply ps_load; reflexivity|]. eapply px_cons; [apply ps_load; reflexivity|]. eapply px_cons; [apply ps_first; reflexivity|].
    eapply px_cons; [eapply ps_retry; [reflexivity|left; reflexivity|discriminate]|]. eapply px_cons; [apply ps_load; reflexivity|].
    eapply px_cons; [apply ps_got; [reflexivity|discriminate|discriminate]|]. constructor.
  - reflexivity.
Qed.

(** The last id is handed out once, and both later attempts are refused. *)
Example C31_example_last : exists s, pexec (PSt 4294967294 [POut; POut]) [PLoad 0; PLoad 1; PGot 0 4294967294; PRetry 1; PLoad 1; PRefused 1; PLoad 0; PRefused 0] s.
Proof.
  eexists. eapply px_cons; [apply ps_load; reflexivity|]. eapply px_cons; [apply ps_load; reflexivity|].
  eapply px_cons; [apply ps_got; [reflexivity|discriminate|discriminate]|].
  eapply px_cons; [eapply ps_retry; [reflexivity|right; discriminate|discriminate]|]. eapply px_cons; [apply ps_load; reflexivity|].
  eapply px_cons; [eapply ps_over; [reflexivity|discriminate|reflexivity]|]. eapply px_cons; [apply ps_load; reflexivity|].
  eapply px_cons; [eapply ps_over; [reflexivity|discriminate|reflexivity]|]. constructor.
Qed.
