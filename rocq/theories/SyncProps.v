(** Properties C17 and C18: the limiting wait group and the striped mutex. *)

From Verif Require Import Base SyncModel.
From Coq Require Import Relations.

(** ** Specification vocabulary *)

Inductive reaches {S} (step : S -> S -> Prop) : S -> S -> Prop :=
| r_refl s : reaches step s s
| r_step s1 s2 s3 : reaches step s1 s2 -> step s2 s3 -> reaches step s1 s3.

Definition running (ws : list wpc) : nat := length (filter (fun w => match w with Running => true | _ => false end) ws).

Lemma reaches_trans {S} (step : S -> S -> Prop) a b c : reaches step a b -> reaches step b c -> reaches step a c.
Proof. intros H1 H2; induction H2; auto. eapply r_step; [apply IHreaches; exact H1|assumption]. Qed.
Lemma reaches_one {S} (step : S -> S -> Prop) a b : step a b -> reaches step a b.
Proof. intros H. eapply r_step; [apply r_refl|exact H]. Qed.

(** ** Lemmas about the wait group *)

Lemma set_nth_length {A} (l : list A) : forall i x, length (set_nth l i x) = length l.
Proof. induction l as [|y l IH]; intros [|i] x; cbn; auto. Qed.
Lemma set_nth_same {A} (l : list A) : forall i x, (i < length l)%nat -> nth_error (set_nth l i x) i = Some x.
Proof. induction l as [|y l IH]; intros [|i] x H; cbn in *; try lia; auto. apply IH; lia. Qed.
Lemma set_nth_other {A} (l : list A) : forall i j x, i <> j -> nth_error (set_nth l i x) j = nth_error l j.
Proof. induction l as [|y l IH]; intros [|i] [|j] x H; cbn; auto; try lia. Qed.
Lemma set_nth_in {A} (l : list A) : forall i x y, In y (set_nth l i x) -> y = x \/ In y l.
Proof.
  induction l as [|z l IH]; intros [|i] x y H; cbn in *; auto; destruct H as [->|H]; auto.
  destruct (IH i x y H); auto.
Qed.

Lemma running_app a b : running (a ++ b) = (running a + running b)%nat.
Proof. unfold running. rewrite filter_app, app_length. reflexivity. Qed.
Lemma running_take ws : forall i, nth_error ws i = Some Waiting -> running (set_nth ws i Running) = S (running ws).
Proof.
  induction ws as [|w ws IH]; intros [|i] E; cbn in E; try discriminate.
  - injection E as ->. reflexivity.
  - specialize (IH i E). unfold running in *. cbn. destruct w; cbn; lia.
Qed.
Lemma running_release ws : forall i, nth_error ws i = Some Running -> S (running (set_nth ws i Finished)) = running ws.
Proof.
  induction ws as [|w ws IH]; intros [|i] E; cbn in E; try discriminate.
  - injection E as ->. reflexivity.
  - specialize (IH i E). unfold running in *. cbn. destruct w; cbn; lia.
Qed.
Lemma running_pos ws i : nth_error ws i = Some Running -> (0 < running ws)%nat.
Proof. intros H. apply running_release in H. lia. Qed.
Lemma running_find ws : (0 < running ws)%nat -> exists i, nth_error ws i = Some Running.
Proof.
  induction ws as [|w ws IH]; cbn; [lia|]. destruct w.
  - intros H. destruct (IH H) as [i Hi]. exists (S i); exact Hi.
  - intros _. exists O; reflexivity.
  - intros H. destruct (IH H) as [i Hi]. exists (S i); exact Hi.
Qed.

Lemma fill_full k : forall cap c, (c + k = cap)%nat -> fill k cap c = cap.
Proof.
  induction k as [|k IH]; intros cap c H; cbn [fill]; [lia|].
  destruct (Nat.ltb_spec c cap); [apply IH; lia|lia].
Qed.

Definition taken (j : jpc) (limit : nat) : nat := match j with NotJoining => 0 | Joining i => i | Joined => limit end.

Lemma lwg_inv limit g : reaches lstep (new_lwg limit) g ->
  g_limit g = limit /\ g_cap g = limit /\
  (g_chan g + running (g_ws g) + taken (g_join g) limit = limit)%nat /\
  (g_join g <> NotJoining -> ~ In Waiting (g_ws g)) /\
  (forall i, g_join g = Joining i -> (i <= limit)%nat).
Proof.
  intros H. remember (new_lwg limit) as g0 eqn:E0. induction H as [g0|g0 g1 g2 H IH St]; subst.
  - unfold new_lwg. cbn [g_limit g_cap g_chan g_ws g_join taken]. rewrite fill_full by lia. cbn.
    split; [reflexivity|]. split; [reflexivity|]. split; [lia|]. split; [congruence|]. discriminate.
  - specialize (IH eq_refl). destruct IH as (L & K & I & W & J).
    inversion St as [l cap c ws|l cap c ws j i Hw|l cap c ws j i Hr Hc|l cap c ws Hn|l cap c ws i Hi|l cap c ws i Hi]; subst;
      cbn [g_limit g_cap g_chan g_ws g_join taken] in *; subst.
    + rewrite running_app. cbn. split; [reflexivity|]. split; [reflexivity|]. split; [lia|].
      split; [congruence|discriminate].
    + rewrite running_take by exact Hw. split; [reflexivity|]. split; [reflexivity|]. split; [lia|].
      split; [|exact J]. intros Hj. exfalso. apply (W Hj). eapply nth_error_In; exact Hw.
    + apply running_release in Hr. split; [reflexivity|]. split; [reflexivity|]. split; [lia|].
      split; [|exact J]. intros Hj Hin. apply set_nth_in in Hin as [Hin|Hin]; [discriminate|]. apply (W Hj Hin).
    + split; [reflexivity|]. split; [reflexivity|]. split; [lia|]. split; [auto|]. intros i [= <-]; lia.
    + split; [reflexivity|]. split; [reflexivity|]. split; [lia|]. split; [intros _; apply W; discriminate|].
      intros i' [= <-]; lia.
    + split; [reflexivity|]. split; [reflexivity|]. specialize (J i eq_refl). split; [lia|].
      split; [intros _; apply W; discriminate|discriminate].
Qed.

(** ** C17 *)

(** Never more than [limit] goroutines are between [Take] and [Release]. *)
Theorem C17_never_over_limit : forall limit g,
  reaches lstep (new_lwg limit) g -> (running (g_ws g) <= limit)%nat.
Proof. intros limit g H. destruct (lwg_inv limit g H) as (_ & _ & I & _). lia. Qed.
Print Assumptions C17_never_over_limit.

(** A [Release] never blocks: it is enabled whenever a goroutine is running. *)
Theorem C17_release_never_blocks : forall limit g i,
  reaches lstep (new_lwg limit) g -> nth_error (g_ws g) i = Some Running ->
  exists g', lstep g g' /\ nth_error (g_ws g') i = Some Finished.
Proof.
  intros limit [l cap c ws j] i H Hi. destruct (lwg_inv limit _ H) as (L & K & I & _).
  cbn [g_limit g_cap g_chan g_ws g_join] in *. subst.
  eexists. split.
  - apply ls_release; [exact Hi|]. pose proof (running_pos _ _ Hi). lia.
  - cbn. apply set_nth_same. apply nth_error_Some. congruence.
Qed.
Print Assumptions C17_release_never_blocks.

(** When [Join] has returned nobody is running (or waiting) any more. *)
Theorem C17_join_returns_only_when_all_done : forall limit g,
  reaches lstep (new_lwg limit) g -> g_join g = Joined ->
  Forall (fun w => w = Finished) (g_ws g).
Proof.
  intros limit g H HJ. destruct (lwg_inv limit g H) as (_ & _ & I & W & _). rewrite HJ in *. cbn in I.
  apply Forall_forall. intros w Hw. destruct w; [exfalso; apply W; [discriminate|exact Hw]| |reflexivity].
  apply In_nth_error in Hw as [i Hi]. pose proof (running_pos _ _ Hi). lia.
Qed.
Print Assumptions C17_join_returns_only_when_all_done.

(** The only steps needed to let a waiting goroutine run, or [Join] return, are
    running goroutines releasing. *)
Lemma drain limit : forall n g, reaches lstep (new_lwg limit) g -> running (g_ws g) = n ->
  exists g', reaches lstep g g' /\ running (g_ws g') = O /\ g_join g' = g_join g /\
    length (g_ws g') = length (g_ws g) /\
    (forall i, nth_error (g_ws g) i = Some Waiting -> nth_error (g_ws g') i = Some Waiting).
Proof.
  induction n as [|n IH]; intros g H E.
  - exists g. split; [apply r_refl|]. auto.
  - destruct (running_find (g_ws g)) as [i Hi]; [lia|].
    destruct g as [l cap c ws j]. destruct (lwg_inv limit _ H) as (L & K & I & _).
    cbn [g_limit g_cap g_chan g_ws g_join] in *. subst.
    assert (lstep (Lwg limit limit c ws j) (Lwg limit limit (S c) (set_nth ws i Finished) j)) as St
      by (apply ls_release; [exact Hi|lia]).
    destruct (IH (Lwg limit limit (S c) (set_nth ws i Finished) j)) as (g' & R & Z & J & Ln & Wt).
    + eapply r_step; eassumption.
    + cbn [g_ws]. apply running_release in Hi. lia.
    + exists g'. cbn [g_ws g_join] in *. split; [eapply reaches_trans; [apply reaches_one; exact St|exact R]|].
      split; [exact Z|]. split; [exact J|]. split; [rewrite Ln; apply set_nth_length|].
      intros k Hk. apply Wt. rewrite set_nth_other; [exact Hk|]. intros ->. congruence.
Qed.

(** Every goroutine waiting in [Take] can still get to run. *)
Theorem C17_waiting_can_always_run : forall limit g i,
  (0 < limit)%nat -> reaches lstep (new_lwg limit) g -> nth_error (g_ws g) i = Some Waiting ->
  exists g', reaches lstep g g' /\ nth_error (g_ws g') i = Some Running.
Proof.
  intros limit g i Hl H Hi. destruct (drain limit _ g H eq_refl) as (g' & R & Z & J & Ln & Wt).
  pose proof (reaches_trans _ _ _ _ H R) as H'. destruct g' as [l cap c ws j].
  destruct (lwg_inv limit _ H') as (L & K & I & W & _). cbn [g_limit g_cap g_chan g_ws g_join] in *. subst.
  destruct g as [l0 cap0 c0 ws0 j]. cbn [g_ws g_join] in *.
  assert (j = NotJoining) as ->.
  { destruct j; [reflexivity| |]; exfalso; apply W; try discriminate; eapply nth_error_In; apply Wt; exact Hi. }
  cbn in I. destruct c as [|c]; [lia|].
  eexists. split.
  - eapply r_step; [exact R|]. apply ls_take. apply Wt. exact Hi.
  - cbn. apply set_nth_same. rewrite Ln. apply nth_error_Some. congruence.
Qed.
Print Assumptions C17_waiting_can_always_run.

(** A [Join] that has been called can always still return. *)
Theorem C17_join_can_always_return : forall limit g,
  reaches lstep (new_lwg limit) g -> g_join g <> NotJoining ->
  exists g', reaches lstep g g' /\ g_join g' = Joined.
Proof.
  intros limit g H HJ. destruct (drain limit _ g H eq_refl) as (g' & R & Z & J & _ & _).
  pose proof (reaches_trans _ _ _ _ H R) as H'.
  destruct (g_join g) as [|i|] eqn:Ej; [congruence| |exists g; split; [apply r_refl|exact Ej]].
  assert (forall k g, reaches lstep (new_lwg limit) g -> running (g_ws g) = O ->
    (exists i, g_join g = Joining i /\ i + k = limit)%nat -> exists g', reaches lstep g g' /\ g_join g' = Joined) as F.
  { clear. induction k as [|k IH]; intros [l cap c ws j] H Z (i & E & Hk);
      destruct (lwg_inv limit _ H) as (L & K & I & _); cbn [g_limit g_cap g_chan g_ws g_join] in *; subst l cap j; cbn [taken] in I.
    - eexists. split; [apply reaches_one; apply ls_join_done; lia|reflexivity].
    - destruct c as [|c]; [lia|].
      assert (lstep (Lwg limit limit (S c) ws (Joining i)) (Lwg limit limit c ws (Joining (S i)))) as St
        by (apply ls_join_take; lia).
      destruct (IH (Lwg limit limit c ws (Joining (S i)))) as (g' & R & E).
      + eapply r_step; eassumption.
      + exact Z.
      + exists (S i). split; [reflexivity|lia].
      + exists g'. split; [eapply reaches_trans; [apply reaches_one; exact St|exact R]|exact E]. }
  destruct (lwg_inv limit _ H') as (_ & _ & _ & _ & Jb). specialize (Jb i J).
  destruct (F (limit - i)%nat g' H' Z) as (g'' & R' & E'); [exists i; split; [exact J|lia]|].
  exists g''. split; [eapply reaches_trans; eassumption|exact E'].
Qed.
Print Assumptions C17_join_can_always_return.

(** Example: limit 2, three goroutines; a reachable state with two running and
    one waiting, and a run to the end. *)
Example C17_example_reachable :
  reaches lstep (new_lwg 2) (Lwg 2 2 0 [Running; Running; Waiting] NotJoining) /\
  reaches lstep (new_lwg 2) (Lwg 2 2 0 [Finished; Finished] Joined).
Proof.
  assert (reaches lstep (new_lwg 2) (Lwg 2 2 0 [Running; Running] NotJoining)) as H.
  { eapply r_step; [eapply r_step; [eapply r_step; [eapply r_step; [apply r_refl|]|]|]|].
    - apply ls_spawn.
    - apply (ls_take 2 2 1 [Waiting] NotJoining 0). reflexivity.
    - apply ls_spawn.
    - apply (ls_take 2 2 0 [Running; Waiting] NotJoining 1). reflexivity. }
  split; [eapply r_step; [exact H|]; apply (ls_spawn 2 2 0 [Running; Running])|].
  eapply r_step; [eapply r_step; [eapply r_step; [eapply r_step; [eapply r_step; [eapply r_step; [exact H|]|]|]|]|]|].
  - apply ls_join. intros [|[|[]]]; discriminate.
  - apply (ls_release 2 2 0 [Running; Running] (Joining 0) 0); [reflexivity|lia].
  - apply ls_join_take; lia.
  - apply (ls_release 2 2 0 [Finished; Running] (Joining 1) 1); [reflexivity|lia].
  - apply ls_join_take; lia.
  - apply ls_join_done; lia.
Qed.

(** If [Join] is called while a goroutine still waits in [Take], [Join] can return
    with that goroutine blocked for ever: no step lets it run. *)
Theorem C17_join_with_waiters_strands_them_refuted : exists g,
  reaches lstep_free (new_lwg 1) g /\ g_join g = Joined /\ nth_error (g_ws g) 0 = Some Waiting /\
  forall g', reaches lstep_free g g' -> nth_error (g_ws g') 0 = Some Waiting.
Proof.
  exists (Lwg 1 1 0 [Waiting] Joined). split; [|split; [reflexivity|split; [reflexivity|]]].
  - eapply r_step; [eapply r_step; [eapply r_step; [eapply r_step; [apply r_refl|]|]|]|].
    + apply lf_step, ls_spawn.
    + apply lf_join.
    + apply lf_step. apply (ls_join_take 1 1 0 [Waiting] 0). lia.
    + apply lf_step, ls_join_done. lia.
  - intros g' R. enough (g_ws g' = [Waiting] /\ g_chan g' = O /\ g_join g' = Joined) as (-> & _) by reflexivity.
    remember (Lwg 1 1 0 [Waiting] Joined) as g0 eqn:E0.
    induction R as [g0|g0 g1 g2 R IH St]; subst; [auto|].
    destruct (IH eq_refl) as (E1 & E2 & E3). destruct g1 as [l cap c ws j]. cbn in E1, E2, E3. subst.
    inversion St as [a b St'|]; subst. inversion St' as [| |? ? ? ? ? i Hi| | |]; subst.
    destruct i as [|[|]]; discriminate.
Qed.
Print Assumptions C17_join_with_waiters_strands_them_refuted.

(** ** C18 *)

Section C18.
Context {hst : Type}.
Variables (hreset : hst) (hbyte : hst -> byte -> hst) (hsum : hst -> N).
Let step := sstep hreset hbyte hsum.

(** The stripe of a key. *)
Definition stripe (n : nat) (key : bytes) : nat :=
  N.to_nat (hsum (fold_left hbyte key hreset) mod N.of_nat n).

Lemma get_lock_stripe n h key i h' :
  get_lock hreset hbyte hsum n h key = (Some i, h') -> i = stripe n key /\ n <> O.
Proof.
  unfold get_lock, h_reset, h_write. destruct n; intros E.
  - discriminate.
  - apply pair_equal_spec in E as [E _]. split; [unfold stripe; congruence|discriminate].
Qed.

Lemma smx_inv n m : reaches step (new_smx n) m ->
  length (m_locks m) = n /\
  (forall t k i, In (t, k, i) (m_held m) \/ In (t, k, i) (m_pending m) -> i = stripe n k) /\
  NoDup (map snd (m_held m)) /\
  (forall t k i, In (t, k, i) (m_held m) -> exists t', nth_error (m_locks m) i = Some (Some t')).
Proof.
  intros H. remember (new_smx n) as m0 eqn:E0. induction H as [m0|m0 m1 m2 H IH St]; subst.
  - cbn. split; [apply repeat_length|]. split; [intros t k i [[]|[]]|]. split; [constructor|intros t k i []].
  - destruct (IH eq_refl) as (Ln & Is & Nd & Hl). clear IH H.
    inversion St as [locks p1 h p2 pend held t key i h' G|locks pool pend held t key i h' G|
                     locks p1 h p2 pend held|locks pool q1 q2 held t key i F|
                     locks pool pend q1 q2 t key i]; subst; cbn [m_locks m_pool m_pending m_held] in *.
    + apply get_lock_stripe in G as [-> _]. split; [reflexivity|]. split; [|split; [exact Nd|exact Hl]].
      intros t0 k0 i0 [Hin|[Hin|Hin]]; [apply (Is t0); auto| |apply (Is t0); auto]. congruence.
    + apply get_lock_stripe in G as [-> _]. split; [reflexivity|]. split; [|split; [exact Nd|exact Hl]].
      intros t0 k0 i0 [Hin|[Hin|Hin]]; [apply (Is t0); auto| |apply (Is t0); auto]. congruence.
    + split; [reflexivity|]. split; [exact Is|]. split; [exact Nd|exact Hl].
    + split; [apply set_nth_length|]. split.
      { intros t0 k0 i0 [[Hin|Hin]|Hin].
        - injection Hin as <- <- <-. apply (Is t). right. apply in_elt.
        - apply (Is t0). auto.
        - apply (Is t0). right. apply in_app_iff in Hin. apply in_app_iff. cbn. tauto. }
      split.
      { cbn [map snd]. constructor; [|exact Nd]. intros Hin. apply in_map_iff in Hin as ([[t0 k0] i0] & E & Hin).
        cbn in E. subst i0. destruct (Hl _ _ _ Hin) as [t' Ht']. congruence. }
      intros t0 k0 i0 Hin. destruct (Nat.eq_dec i i0) as [<-|Hne].
      * exists t. apply set_nth_same. apply nth_error_Some. congruence.
      * rewrite set_nth_other by exact Hne. destruct Hin as [Hin|Hin]; [injection Hin; congruence|].
        apply (Hl t0 k0). exact Hin.
    + split; [apply set_nth_length|].
      rewrite map_app in Nd. cbn [map snd] in Nd.
      split; [intros t0 k0 i0 [Hin|Hin]; apply (Is t0); [left; apply in_app_iff in Hin; apply in_app_iff; cbn; tauto|auto]|].
      split; [rewrite map_app; apply NoDup_remove_1 in Nd; exact Nd|].
      intros t0 k0 i0 Hin.
      assert (i <> i0).
      { intros <-. apply NoDup_remove_2 in Nd. apply Nd. rewrite <- map_app. apply in_map_iff. exists (t0, k0, i). auto. }
      rewrite set_nth_other by assumption. apply (Hl t0 k0). apply in_app_iff in Hin. apply in_app_iff. cbn. tauto.
Qed.

Definition sections_of (key : bytes) (m : smx hst) : list (nat * bytes * nat) :=
  filter (fun s => beq (snd (fst s)) key) (m_held m).
End C18.

(** At any moment at most one critical section per key is entered, for every hash
    function, number of stripes and interleaving, and whatever stale state the
    pooled hash objects carry. *)
Theorem C18_one_section_per_key : forall hst (hreset : hst) hbyte hsum n m key,
  reaches (sstep hreset hbyte hsum) (new_smx n) m -> (length (sections_of key m) <= 1)%nat.
Proof.
  intros hst hreset hbyte hsum n m key H. destruct (smx_inv hreset hbyte hsum n m H) as (_ & Is & Nd & _).
  unfold sections_of.
  assert (forall t k i, In (t, k, i) (m_held m) -> i = stripe hreset hbyte hsum n k) as Is'
    by (intros t k i Hin; apply (Is t); auto).
  clear - Is' Nd. revert Is' Nd. generalize (m_held m) as l. intros l Is' Nd. induction l as [|[[t k] i] l IH]; [cbn; lia|].
  cbn [filter fst snd map] in *. inversion Nd as [|? ? N1 N2]; subst.
  assert (length (filter (fun s : nat * bytes * nat => beq (snd (fst s)) key) l) <= 1)%nat as IH'
    by (apply IH; [intros t0 k0 i0 Hin; apply (Is' t0); right; exact Hin|exact N2]).
  destruct (beq_spec k key) as [->|]; [|exact IH'].
  destruct (filter (fun s : nat * bytes * nat => beq (snd (fst s)) key) l) as [|[[t1 k1] i1] r] eqn:Ef; [cbn; lia|].
  exfalso. assert (In (t1, k1, i1) (filter (fun s : nat * bytes * nat => beq (snd (fst s)) key) l)) as Hin
    by (rewrite Ef; left; reflexivity).
  apply filter_In in Hin as [Hin Hk]. cbn in Hk. apply beq_true in Hk. subst k1.
  apply N1. apply in_map_iff. exists (t1, key, i1). split; [|exact Hin]. cbn.
  rewrite (Is' t1 key i1 (or_intror Hin)), (Is' t key i (or_introl eq_refl)). reflexivity.
Qed.
Print Assumptions C18_one_section_per_key.

(** A lock request goes through as soon as the sections on its own stripe have
    ended; sections of keys on other stripes do not block it. *)
Theorem C18_only_own_stripe_blocks : forall hst (hreset : hst) hbyte hsum n m t key i,
  reaches (sstep hreset hbyte hsum) (new_smx n) m -> In (t, key, i) (m_pending m) ->
  nth_error (m_locks m) i = Some None ->
  exists m', sstep hreset hbyte hsum m m' /\ In (t, key, i) (m_held m').
Proof.
  intros hst hreset hbyte hsum n [locks pool pend held] t key i H Hin F. cbn in Hin, F.
  apply in_split in Hin as (q1 & q2 & ->). eexists. split; [apply ss_acquire; exact F|left; reflexivity].
Qed.
Print Assumptions C18_only_own_stripe_blocks.

(** Example with the code's hash and number of stripes: key "a" is held by
    goroutine 0 while goroutine 1 has asked for it (with the stale pooled hash
    object) and goroutine 2 holds "b". *)
Definition ex_smx : smx N :=
  Smx (set_nth (set_nth (repeat None default_stripes) (stripe fnv_reset fnv_byte fnv_sum default_stripes (B "a")) (Some 0%nat))
         (stripe fnv_reset fnv_byte fnv_sum default_stripes (B "b")) (Some 2%nat))
      [fold_left fnv_byte (B "a") fnv_reset]
      [(1%nat, B "a", stripe fnv_reset fnv_byte fnv_sum default_stripes (B "a"))]
      [(2%nat, B "b", stripe fnv_reset fnv_byte fnv_sum default_stripes (B "b"));
       (0%nat, B "a", stripe fnv_reset fnv_byte fnv_sum default_stripes (B "a"))].
Example C18_example : reaches (sstep fnv_reset fnv_byte fnv_sum) (new_smx default_stripes) ex_smx.
Proof.
  assert (forall h key, get_lock fnv_reset fnv_byte fnv_sum default_stripes h key =
    (Some (stripe fnv_reset fnv_byte fnv_sum default_stripes key), fold_left fnv_byte key fnv_reset)) as G
    by (intros h key; reflexivity).
  assert (default_stripes = length (repeat (@None nat) default_stripes)) as L by (symmetry; apply repeat_length).
  set (sa := stripe fnv_reset fnv_byte fnv_sum default_stripes (B "a")).
  set (sb := stripe fnv_reset fnv_byte fnv_sum default_stripes (B "b")).
  assert (sa <> sb) as Hab by (vm_compute; lia).
  assert (sa < default_stripes /\ sb < default_stripes)%nat as [La Lb] by (vm_compute; lia).
  unfold ex_smx. fold sa sb.
  set (ha := fold_left fnv_byte (B "a") fnv_reset). set (hb := fold_left fnv_byte (B "b") fnv_reset).
  set (l0 := repeat (@None nat) default_stripes) in *.
  assert (forall i, (i < default_stripes)%nat -> nth_error l0 i = Some None) as Hl0
    by (intros i Hi; unfold l0; apply nth_error_repeat; exact Hi).
  eapply r_step; [eapply r_step; [eapply r_step; [eapply r_step; [eapply r_step; [apply r_refl|]|]|]|]|].
  - apply (ss_get_new fnv_reset fnv_byte fnv_sum l0 [] [] [] 0%nat (B "a") sa ha). rewrite <- L. apply G.
  - apply (ss_acquire fnv_reset fnv_byte fnv_sum l0 [ha] [] [] [] 0%nat (B "a") sa). apply Hl0; exact La.
  - apply (ss_get_pooled fnv_reset fnv_byte fnv_sum (set_nth l0 sa (Some 0%nat)) [] ha [] [] _ 2%nat (B "b") sb hb).
    rewrite set_nth_length, <- L. apply G.
  - apply (ss_acquire fnv_reset fnv_byte fnv_sum (set_nth l0 sa (Some 0%nat)) [hb] [] [] _ 2%nat (B "b") sb).
    rewrite set_nth_other by exact Hab. apply Hl0; exact Lb.
  - apply (ss_get_pooled fnv_reset fnv_byte fnv_sum _ [] hb [] [] _ 1%nat (B "a") sa ha).
    rewrite !set_nth_length, <- L. apply G.
Qed.
