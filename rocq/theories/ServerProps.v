(** C73: the monitor servers of an analysis.  See ServerModel.v. *)
From Verif Require Import Base ServerModel.
From Coq Require Import Lia.

Lemma set_nth_same : forall l i s x, nth_error l i = Some x -> nth_error (set_nth i s l) i = Some s.
Proof. induction l as [|y l IH]; intros [|i] s x E; cbn in *; try discriminate; auto. eapply IH; eassumption. Qed.
Lemma set_nth_other : forall l i j s, i <> j -> nth_error (set_nth i s l) j = nth_error l j.
Proof. induction l as [|y l IH]; intros [|i] [|j] s N; cbn; auto; try congruence. Qed.
Lemma set_nth_length : forall l i s, length (set_nth i s l) = length l.
Proof. induction l as [|y l IH]; intros [|i] s; cbn; auto. Qed.

Section Servers.
Variables (count : nat) (bindable : nat -> bool).
Notation step := (step count bindable).
Notation reach := (reach count bindable).
Notation follows := (follows count bindable).

(** Servers whose Stop has been called and has returned. *)
Definition stopped (p : apc) (k : nat) : nat := match p with PStop j => j | PDone => k | _ => 0 end.
(** The analysis has not begun to stop its servers. *)
Definition before_stop (p : apc) : Prop := match p with PStop _ | PDone => False | _ => True end.

Record inv (st : state) : Prop := {
  i_listen : forall i s, nth_error (a_servers st) i = Some s -> s_phase s = Listening -> s_shut s = false /\ bindable i = true;
  i_len : match a_pc st with
          | PNext | PRun => length (a_servers st) = a_kept st
          | PStarting => length (a_servers st) = S (a_kept st)
          | _ => length (a_servers st) = a_kept st /\ a_ran st = true \/
                 length (a_servers st) = S (a_kept st) /\ a_ran st = false /\ exists s, nth_error (a_servers st) (a_kept st) = Some s /\ s_phase s = Failed
          end;
  i_cnt : (length (a_servers st) <= count)%nat;
  i_kept : (a_kept st <= count)%nat /\ (a_pc st = PStarting -> (a_kept st < count)%nat) /\ (a_pc st = PRun -> a_kept st = count) /\ (a_ran st = true -> a_kept st = count);
  i_ran : match a_pc st with PNext | PStarting => a_ran st = false | PRun => a_ran st = true | _ => True end;
  i_shut : forall i s, nth_error (a_servers st) i = Some s -> (i < stopped (a_pc st) (a_kept st))%nat -> s_shut s = true /\ (s_active s = 0%nat \/ In i (a_late st));
  i_open : before_stop (a_pc st) -> forall i s, nth_error (a_servers st) i = Some s -> s_shut s = false;
  i_stop : forall j, a_pc st = PStop j -> (j <= a_kept st)%nat;
  i_after : (forall j, a_pc st = PStop j -> forall i s, nth_error (a_servers st) i = Some s -> (j < i)%nat -> s_shut s = false);
  i_late : NoDup (a_late st) /\ forall i, In i (a_late st) -> (i < stopped (a_pc st) (a_kept st))%nat }.

Ltac dflt := try solve [auto | discriminate | intros; contradiction | intros; lia | rewrite ?set_nth_length; lia
  | intros ?j ?E; injection E as <-; lia | repeat split; solve [tauto | lia | congruence | discriminate]].

Lemma own_keeps : forall b s s', own_step b s s' ->
  s_shut s' = s_shut s /\ (s_phase s' = Listening -> s_phase s = Listening \/ (s_shut s = false /\ b = true)) /\
  (s_phase s = Failed -> s_phase s' = Failed) /\
  (s_active s' <= s_active s \/ s_phase s = Listening)%nat.
Proof. intros b s s' H. destruct H; cbn; repeat split; auto; intros; try discriminate; auto; lia. Qed.

Lemma inv_reach : forall st, reach st -> inv st.
Proof.
  intros st H. induction H as [|st st' H IH S].
  { constructor; cbn; try lia; intros; try (destruct i; discriminate); try discriminate; auto; repeat split; try lia; try discriminate; try constructor; try contradiction. }
  destruct IH as [L N C K R Sh O Sp Af La].
  destruct S; cbn [a_pc a_servers a_kept a_ran a_late stopped before_stop] in *.
  - (* start *) constructor; cbn [a_pc a_servers a_kept a_ran a_late stopped before_stop] in *; dflt.
    + intros i s E P. destruct (Nat.lt_ge_cases i (length l)) as [Q|Q].
      * rewrite nth_error_app1 in E by assumption. eauto.
      * rewrite nth_error_app2 in E by assumption. destruct (i - length l)%nat as [|[|z]]; cbn in E; try discriminate. injection E as <-. discriminate.
    + rewrite app_length. cbn. lia.
    + rewrite app_length. cbn. lia.
    + intros _ i s E. destruct (Nat.lt_ge_cases i (length l)) as [Q|Q].
      * rewrite nth_error_app1 in E by assumption. eapply O; eauto.
      * rewrite nth_error_app2 in E by assumption. destruct (i - length l)%nat as [|[|z]]; cbn in E; try discriminate. injection E as <-. reflexivity.
  - (* refused *) constructor; cbn [a_pc a_servers a_kept a_ran a_late stopped before_stop] in *; dflt.
    + right. repeat split; auto. exists s. split; auto. unfold err_check in *. destruct (s_phase s); try discriminate; reflexivity.
    + intros; eapply O; eauto.
  - (* started *) constructor; cbn [a_pc a_servers a_kept a_ran a_late stopped before_stop] in *; dflt.
  - (* run *) constructor; cbn [a_pc a_servers a_kept a_ran a_late stopped before_stop] in *; dflt.
  - (* return *) constructor; cbn [a_pc a_servers a_kept a_ran a_late stopped before_stop] in *; dflt.
    + intros; eapply O; eauto.
  - (* shut *) constructor; cbn [a_pc a_servers a_kept a_ran a_late stopped before_stop] in *; dflt.
    + intros i0 s0 E P. destruct (Nat.eq_dec i i0) as [<-|Ne].
      * rewrite (set_nth_same _ _ _ _ H1) in E. injection E as <-. unfold shut in P. cbn in P. destruct (s_phase s); discriminate.
      * rewrite set_nth_other in E by assumption. eauto.
    + rewrite set_nth_length. destruct N as [N|(N1 & N2 & s1 & N3 & N4)]; [left; exact N|right; repeat split; auto].
      exists s1. rewrite set_nth_other by lia. auto.
    + intros i0 s0 E P. rewrite set_nth_other in E by lia. eauto.
    + intros j E i0 s0 E0 P. injection E as <-. rewrite set_nth_other in E0 by lia. eapply Af; eauto.
  - (* quiet *) constructor; cbn [a_pc a_servers a_kept a_ran a_late stopped before_stop] in *; dflt.
    + intros i0 s0 E P. destruct (Nat.eq_dec i i0) as [<-|Ne]; [|apply (Sh i0 s0 E); lia].
      replace s0 with s by congruence. auto.
    + intros j E i0 s0 E0 P. injection E as <-. apply (Af i eq_refl i0 s0 E0). lia.
    + destruct La as [La1 La2]. split; auto. intros i0 Q. specialize (La2 i0 Q). lia.
  - (* gave up *) constructor; cbn [a_pc a_servers a_kept a_ran a_late stopped before_stop] in *; dflt.
    + intros i0 s0 E P. destruct (Nat.eq_dec i i0) as [<-|Ne].
      * replace s0 with s by congruence. split; auto. right. apply in_or_app. right. left. reflexivity.
      * destruct (Sh i0 s0 E ltac:(lia)) as [Q1 [Q2|Q2]]; split; auto. right. apply in_or_app. auto.
    + intros j E i0 s0 E0 P. injection E as <-. apply (Af i eq_refl i0 s0 E0). lia.
    + destruct La as [La1 La2]. split.
      * assert (X : ~ In i t) by (intros Q; specialize (La2 i Q); lia).
        clear -La1 X. induction t as [|y t IH]; cbn; [constructor; [tauto|constructor]|].
        inversion La1; subst. constructor; [rewrite in_app_iff; cbn in *; intros [Q|[Q|[]]]; subst; tauto|apply IH; auto; cbn in X; tauto].
      * intros i0 Q. apply in_app_or in Q. destruct Q as [Q|[<-|[]]]; [specialize (La2 i0 Q)|]; lia.
  - (* done *) constructor; cbn [a_pc a_servers a_kept a_ran a_late stopped before_stop] in *; dflt.
  - (* own *) destruct (own_keeps _ _ _ H1) as (W1 & W2 & W3 & W4).
    constructor; cbn [a_pc a_servers a_kept a_ran a_late stopped before_stop] in *; dflt.
    + intros i0 s0 E P. destruct (Nat.eq_dec i i0) as [<-|Ne]; [|rewrite set_nth_other in E by assumption; eauto].
      rewrite (set_nth_same _ _ _ _ H0) in E. injection E as <-. rewrite W1. destruct (W2 P) as [Q|[Q Q']]; eauto.
    + rewrite set_nth_length.
      assert (X : forall k, (exists s1, nth_error l k = Some s1 /\ s_phase s1 = Failed) -> exists s1, nth_error (set_nth i s' l) k = Some s1 /\ s_phase s1 = Failed).
      { intros k0 (s1 & E1 & E2). destruct (Nat.eq_dec i k0) as [<-|Ne]; [|exists s1; rewrite set_nth_other by assumption; auto].
        exists s'. rewrite (set_nth_same _ _ _ _ H0). split; auto. apply W3. congruence. }
      destruct p; auto; (destruct N as [N|(N1 & N2 & N3)]; [left; exact N|right; repeat split; auto]).
    + intros i0 s0 E P. destruct (Nat.eq_dec i i0) as [<-|Ne]; [|rewrite set_nth_other in E by assumption; eauto].
      rewrite (set_nth_same _ _ _ _ H0) in E. injection E as <-. destruct (Sh _ _ H0 P) as [Q1 Q2].
      rewrite W1. split; auto. destruct Q2 as [Q2|Q2]; auto. left. destruct W4 as [W4|W4]; [lia|]. destruct (L _ _ H0 W4). congruence.
    + intros Bf i0 s0 E. destruct (Nat.eq_dec i i0) as [<-|Ne]; [|rewrite set_nth_other in E by assumption; eapply O; eauto].
      rewrite (set_nth_same _ _ _ _ H0) in E. injection E as <-. rewrite W1. eapply O; eauto.
    + intros j Ej i0 s0 E P. destruct (Nat.eq_dec i i0) as [<-|Ne]; [|rewrite set_nth_other in E by assumption; eapply Af; eauto].
      rewrite (set_nth_same _ _ _ _ H0) in E. injection E as <-. rewrite W1. eapply Af; eauto.
Qed.


Lemma follows_reach : forall st st', reach st -> follows st st' -> reach st'.
Proof. intros st st' H F. induction F as [|st1 st2 F IH S]; auto. eapply re_step; eauto. Qed.

(** Server [i] accepts connections. *)
Definition accepting (st : state) (i : nat) : Prop := exists s, nth_error (a_servers st) i = Some s /\ s_phase s = Listening.
(** Server [i] ended with an error. *)
Definition broken (st : state) (i : nat) : Prop := exists s, nth_error (a_servers st) i = Some s /\ s_phase s = Failed.
(** Server [i] works on a request. *)
Definition busy (st : state) (i : nat) : Prop := exists s, nth_error (a_servers st) i = Some s /\ s_active s <> 0%nat.

(** At most [count] servers are made, and one that accepts connections sits on a port of its
    own that could be bound. *)
Theorem C73_bounded : forall st, reach st ->
  (length (a_servers st) <= count)%nat /\ forall i, accepting st i -> (i < count)%nat /\ bindable i = true.
Proof.
  intros st H. destruct (inv_reach _ H) as [L N C K R Sh O Sp Af La].
  split; [exact C|]. intros i (s & E & P). split; [|eapply L; eauto].
  assert (i < length (a_servers st))%nat by (apply nth_error_Some; congruence). lia.
Qed.
Print Assumptions C73_bounded.

(** When the analysis has returned, however it ended, no server accepts connections, and none
    does so ever after. *)
Theorem C73_all_closed : forall st st', reach st -> a_pc st = PDone -> follows st st' -> a_pc st' = PDone /\ forall i, ~ accepting st' i.
Proof.
  intros st st' H D F.
  assert (D' : a_pc st' = PDone) by (induction F as [|st1 st2 F IH S]; [exact D|]; inversion S; subst; cbn in *; congruence).
  split; [exact D'|]. intros i (s & E & P).
  destruct (inv_reach _ (follows_reach _ _ H F)) as [L N C K R Sh O Sp Af La]. rewrite D' in *. cbn in *.
  destruct (L _ _ E P) as [Q _].
  destruct (Nat.lt_ge_cases i (a_kept st')) as [Lt|Ge]; [destruct (Sh _ _ E Lt); congruence|].
  assert (X : (i < length (a_servers st'))%nat) by (apply nth_error_Some; congruence).
  destruct N as [[N _]|(N & _ & s1 & N1 & N2)]; [lia|].
  replace i with (a_kept st') in E by lia. congruence.
Qed.
Print Assumptions C73_all_closed.

(** The requests of a server that was handed to the tests are over when the analysis returns,
    unless its stop ran into the 20 s limit. *)
Theorem C73_requests_over : forall st st' i, reach st -> a_pc st = PDone -> follows st st' -> (i < a_kept st)%nat -> ~ In i (a_late st) -> ~ busy st' i.
Proof.
  intros st st' i H D F Lt Nl (s & E & B).
  assert (D' : a_pc st' = PDone /\ a_kept st' = a_kept st /\ a_late st' = a_late st).
  { clear -D F. induction F as [|st1 st2 F IH S]; [auto|]. destruct IH as (I1 & I2 & I3). inversion S; subst; cbn in *; try congruence; auto. }
  destruct D' as (D1 & D2 & D3).
  destruct (inv_reach _ (follows_reach _ _ H F)) as [L N C K R Sh O Sp Af La]. rewrite D1 in *. cbn in *.
  destruct (Sh _ _ E ltac:(lia)) as [_ [Q|Q]]; [auto|]. rewrite D3 in Q. auto.
Qed.
Print Assumptions C73_requests_over.

(** Each server runs into the 20 s limit at most once, so all stops together take at most
    20 s for each server. *)
Theorem C73_stop_time : forall st, reach st -> (20 * length (a_late st) <= 20 * a_kept st)%nat /\ (a_kept st <= count)%nat.
Proof.
  intros st H. destruct (inv_reach _ H) as [L N C K R Sh O Sp Af [La1 La2]]. split; [|tauto].
  assert (X : (stopped (a_pc st) (a_kept st) <= a_kept st)%nat) by (destruct (a_pc st); cbn; try lia; apply Sp; reflexivity).
  assert (Y : (length (a_late st) <= length (seq 0 (a_kept st)))%nat).
  { apply NoDup_incl_length; [exact La1|]. intros i Q. apply in_seq. specialize (La2 i Q). lia. }
  rewrite seq_length in Y. lia.
Qed.
Print Assumptions C73_stop_time.

(** Tests run only when every server was started, none of them stopped yet; an analysis that
    stops its servers without having run tests had a server that could not be started, and it
    was the last one made. *)
Theorem C73_tests_need_all : forall st, reach st ->
  (a_pc st = PRun -> length (a_servers st) = count /\ a_kept st = count /\ forall i s, nth_error (a_servers st) i = Some s -> s_shut s = false) /\
  (~ before_stop (a_pc st) -> a_ran st = false -> length (a_servers st) = S (a_kept st) /\ broken st (a_kept st)) /\
  (~ before_stop (a_pc st) -> a_ran st = true -> length (a_servers st) = count /\ a_kept st = count).
Proof.
  intros st H. destruct (inv_reach _ H) as [L N C K R Sh O Sp Af La]. destruct K as (K1 & K2 & K3 & K4). repeat split.
  - rewrite H0 in N. rewrite N. auto.
  - auto.
  - intros i s E. apply (O ltac:(rewrite H0; exact I) i s E).
  - destruct (a_pc st); cbn in *; try tauto; destruct N as [[_ N]|N]; try congruence; tauto.
  - destruct (a_pc st); cbn in *; try tauto; destruct N as [[_ N]|N]; try congruence; unfold broken; tauto.
  - destruct (a_pc st); cbn in *; try tauto; destruct N as [[N N1]|(N & N1 & _)]; try congruence; rewrite N; auto.
  - auto.
Qed.
Print Assumptions C73_tests_need_all.

(** An error of a server is never forgotten: every later SetPointHandler and Stop of it
    reports it. *)
Theorem C73_error_stays : forall st st' i, reach st -> follows st st' -> broken st i -> exists s, nth_error (a_servers st') i = Some s /\ err_check s = true.
Proof.
  intros st st' i _ F (s & E & P).
  assert (X : broken st' i).
  { induction F as [|st1 st2 F IH S]; [exists s; auto|]. destruct IH as (s1 & E1 & P1).
    inversion S; subst; cbn in *; try (exists s1; split; assumption).
    - exists s1. cbn. rewrite nth_error_app1 by (apply nth_error_Some; congruence). auto.
    - destruct (Nat.eq_dec i0 i) as [->|Ne]; [|exists s1; cbn; rewrite set_nth_other by assumption; auto].
      exists (shut s0). cbn. rewrite (set_nth_same _ _ _ _ H0). split; auto. unfold shut. cbn. replace s0 with s1 by congruence. rewrite P1. reflexivity.
    - destruct (Nat.eq_dec i0 i) as [->|Ne]; [|exists s1; cbn; rewrite set_nth_other by assumption; auto].
      exists s'. cbn. rewrite (set_nth_same _ _ _ _ H). split; auto. destruct (own_keeps _ _ _ H0) as (_ & _ & W & _). apply W. congruence. }
  destruct X as (s1 & E1 & P1). exists s1. split; auto. unfold err_check. rewrite P1. reflexivity.
Qed.
Print Assumptions C73_error_stays.

(** The analysis can always go on: no server, whatever its state, keeps it from returning. *)
Theorem C73_can_return : forall st, reach st -> exists st', follows st st' /\ a_pc st' = PDone.
Proof.
  assert (Tr : forall a b c, follows a b -> follows b c -> follows a c) by (intros a b c F G; induction G; [exact F|]; eapply fo_step; eauto).
  assert (One : forall a b, step a b -> follows a b) by (intros a b S; eapply fo_step; [apply fo_same|exact S]).
  assert (Stop : forall m l k r t j, (k - j = m)%nat -> (j <= k)%nat -> (k <= length l)%nat -> exists st', follows (State (PStop j) l k r t) st' /\ a_pc st' = PDone).
  { induction m as [|m IH]; intros l k r t j Em Lj Ll.
    - assert (j = k) by lia. subst. eexists. split; [apply One; apply st_done|reflexivity].
    - assert (Lt : (j < length l)%nat) by lia. destruct (nth_error l j) as [s|] eqn:E; [|apply nth_error_Some in Lt; congruence].
      destruct (s_shut s) eqn:Es.
      + destruct (IH l k r (t ++ [j]) (S j)) as (st' & F & P); try lia. exists st'. split; auto. eapply Tr; [apply One; eapply st_gave_up; eauto; lia|exact F].
      + destruct (IH (set_nth j (shut s) l) k r (t ++ [j]) (S j)) as (st' & F & P); try lia; [rewrite set_nth_length; lia|]. exists st'. split; auto.
        eapply Tr; [apply One; eapply st_shut; eauto; lia|]. eapply Tr; [apply One; eapply st_gave_up|exact F]; [lia|apply (set_nth_same _ _ _ _ E)|reflexivity]. }
  assert (Run : forall l k r t, (k <= length l)%nat -> exists st', follows (State PRun l k r t) st' /\ a_pc st' = PDone).
  { intros l k r t Ll. destruct (Stop (k - 0)%nat l k r t 0%nat) as (st' & F & P); try lia. exists st'. split; auto. eapply Tr; [apply One; apply st_return|exact F]. }
  assert (Starting : forall m l k r t, (count - k = m)%nat -> (k < count)%nat -> length l = S k ->
    (forall l r t, length l = S k -> exists st', follows (State PNext l (S k) r t) st' /\ a_pc st' = PDone) ->
    exists st', follows (State PStarting l k r t) st' /\ a_pc st' = PDone).
  { intros m l k r t Em Lk Ll Nx. destruct (nth_error l k) as [s|] eqn:E; [|apply nth_error_None in E; lia].
    destruct (err_check s) eqn:Es.
    - destruct (Stop (k - 0)%nat l k r t 0%nat) as (st' & F & P); try lia. exists st'. split; auto. eapply Tr; [apply One; eapply st_refused; eauto|exact F].
    - destruct (Nx l r t Ll) as (st' & F & P). exists st'. split; auto. eapply Tr; [apply One; eapply st_started; eauto|exact F]. }
  assert (Next : forall m l k r t, (count - k = m)%nat -> (k <= count)%nat -> length l = k -> exists st', follows (State PNext l k r t) st' /\ a_pc st' = PDone).
  { induction m as [|m IH]; intros l k r t Em Lk Ll.
    - assert (Ek : k = count) by lia. subst k. destruct (Run l count true t) as (st' & F & P); try lia. exists st'. split; auto.
      eapply Tr; [apply One|exact F]. rewrite Ek. apply st_run.
    - destruct (Starting (S m) (l ++ [new_server]) k r t) as (st' & F & P); auto; try lia.
      + rewrite app_length. cbn. lia.
      + intros l0 r0 t0 L0. apply IH; lia.
      + exists st'. split; auto. eapply Tr; [apply One; apply st_start; lia|exact F]. }
  intros st H. destruct (inv_reach _ H) as [L N C K R Sh O Sp Af La]. destruct st as [p l k r t]. cbn in *. destruct K as (K1 & K2 & K3 & K4).
  destruct p as [| | |j|].
  - apply (Next (count - k)%nat); lia.
  - specialize (K2 eq_refl). apply (Starting (count - k)%nat); auto. intros l0 r0 t0 L0. apply (Next (count - S k)%nat); lia.
  - apply Run. lia.
  - apply (Stop (k - j)%nat); auto. destruct N as [[N _]|[N _]]; lia.
  - exists (State PDone l k r t). split; [apply fo_same|reflexivity].
Qed.
Print Assumptions C73_can_return.
End Servers.

(** ** What does not hold *)

(** A start returns without error when 100 ms passed and nothing was reported yet, so tests may
    run although a server does not accept connections: still not, or not any more. *)
Theorem C73_all_accepting_refuted : ~ (forall count bindable st, reach count bindable st -> a_pc st = PRun ->
  forall i, (i < count)%nat -> accepting st i).
Proof.
  intros A. specialize (A 1%nat (fun _ => true) (State PRun [new_server] 1 true [])).
  destruct (A) with (i := 0%nat) as (s & E & P); auto.
  - apply re_step with (s := State PNext [new_server] 1 false []); [|apply st_run].
    apply re_step with (s := State PStarting [new_server] 0 false []); [|eapply st_started; reflexivity].
    apply re_step with (s := initial); [apply re_start|]. apply (st_start 1 (fun _ => true) [] 0 false []). lia.
  - cbn in E. injection E as <-. discriminate.
Qed.
Print Assumptions C73_all_accepting_refuted.

(** A server that failed to bind after its start was taken as successful: tests run with it, and
    its own SetPointHandler is the first to tell. *)
Theorem C73_late_failure_refuted : ~ (forall count bindable st, reach count bindable st -> a_pc st = PRun -> forall i, ~ broken st i).
Proof.
  intros A. apply (A 1%nat (fun _ => false) (State PRun [Server Failed false 0] 1 true [])) with (i := 0%nat); auto.
  - apply re_step with (s := State PRun [new_server] 1 true []); [|apply (st_own 1 (fun _ => false) PRun [new_server] 1 true [] 0 new_server (Server Failed false 0)); [reflexivity|apply os_refused]].
    apply re_step with (s := State PNext [new_server] 1 false []); [|apply st_run].
    apply re_step with (s := State PStarting [new_server] 0 false []); [|eapply st_started; reflexivity].
    apply re_step with (s := initial); [apply re_start|]. apply (st_start 1 (fun _ => false) [] 0 false []). lia.
  - exists (Server Failed false 0). auto.
Qed.
Print Assumptions C73_late_failure_refuted.

(** A request that outlives the 20 s limit of Stop is still being handled after the analysis
    returned: the error of Stop is dropped. *)
Theorem C73_quiet_refuted : ~ (forall count bindable st, reach count bindable st -> a_pc st = PDone -> forall i, ~ busy st i).
Proof.
  intros A. apply (A 1%nat (fun _ => true) (State PDone [Server Closed true 1] 1 true [0%nat])) with (i := 0%nat); auto.
  - pose (b := fun _ : nat => true).
    apply re_step with (s := State (PStop 1) [Server Closed true 1] 1 true [0%nat]); [|apply st_done].
    apply re_step with (s := State (PStop 0) [Server Closed true 1] 1 true []); [|apply (st_gave_up 1 b [Server Closed true 1] 1 true [] 0 (Server Closed true 1)); [lia|reflexivity|reflexivity]].
    apply re_step with (s := State (PStop 0) [Server Listening false 1] 1 true []); [|apply (st_shut 1 b [Server Listening false 1] 1 true [] 0 (Server Listening false 1)); [lia|reflexivity|reflexivity]].
    apply re_step with (s := State PRun [Server Listening false 1] 1 true []); [|apply st_return].
    apply re_step with (s := State PRun [Server Listening false 0] 1 true []); [|apply (st_own 1 b PRun [Server Listening false 0] 1 true [] 0 (Server Listening false 0) (Server Listening false 1)); [reflexivity|apply os_request]].
    apply re_step with (s := State PRun [new_server] 1 true []); [|apply (st_own 1 b PRun [new_server] 1 true [] 0 new_server (Server Listening false 0)); [reflexivity|apply os_listen; reflexivity]].
    apply re_step with (s := State PNext [new_server] 1 false []); [|apply st_run].
    apply re_step with (s := State PStarting [new_server] 0 false []); [|eapply st_started; reflexivity].
    apply re_step with (s := initial); [apply re_start|]. apply (st_start 1 b [] 0 false []). lia.
  - exists (Server Closed true 1). split; [reflexivity|discriminate].
Qed.
Print Assumptions C73_quiet_refuted.

(** ** Ports *)
(** The ports of an analysis are usable as far as numbers go exactly when the last one is below
    2^16. *)
Theorem C73_ports_usable : forall port_start count, (0 <= port_start)%Z -> (0 < count)%nat ->
  ((forall i, (i < count)%nat -> port_bindable port_start (fun _ => true) i = true) <-> (port_start + Z.of_nat count <= 65536)%Z).
Proof.
  intros p n Hp Hn. split.
  - intros A. specialize (A (n - 1)%nat ltac:(lia)). unfold port_bindable in A. rewrite !Bool.andb_true_iff, !Z.leb_le in A. lia.
  - intros L i Hi. unfold port_bindable. rewrite !Bool.andb_true_iff, !Z.leb_le. repeat split; lia.
Qed.
Print Assumptions C73_ports_usable.

(** A first port that is valid by itself need not do: with 65535 and two servers the second can
    never listen (the command line and prepare accept that port). *)
Theorem C73_port_range_refuted : ~ (forall port_start count i, (0 < port_start <= 65535)%Z -> (i < count)%nat -> port_bindable port_start (fun _ => true) i = true).
Proof. intros A. specialize (A 65535%Z 2%nat 1%nat ltac:(lia) ltac:(lia)). discriminate. Qed.
Print Assumptions C73_port_range_refuted.

(** ** Waiting for a process *)
Section Poll.
Variables (timeout begun : Z) (now : nat -> Z) (kill : nat -> kill_result).
(** The loop has a reason to end in turn [k]. *)
Definition reason (k : nat) : Prop := ((0 < timeout)%Z /\ (begun + timeout < now k)%Z) \/ kill k <> Alive.

Lemma overdue_spec : forall k, overdue timeout begun now k = true <-> (0 < timeout)%Z /\ (begun + timeout < now k)%Z.
Proof. intros k. unfold overdue. rewrite Bool.andb_true_iff, !Z.ltb_lt. tauto. Qed.

Lemma poll_spec : forall fuel k j e, poll timeout begun now kill fuel k = Some (j, e) ->
  (k <= j < k + fuel)%nat /\ (forall i, (k <= i < j)%nat -> ~ reason i) /\
  (e = TimedOut <-> (0 < timeout)%Z /\ (begun + timeout < now j)%Z) /\
  (e = NoErr <-> ~ ((0 < timeout)%Z /\ (begun + timeout < now j)%Z) /\ kill j = Gone) /\
  (e = KillErr <-> ~ ((0 < timeout)%Z /\ (begun + timeout < now j)%Z) /\ kill j = Odd).
Proof.
  induction fuel as [|fuel IH]; intros k j e E; [discriminate|]. cbn in E.
  destruct (overdue timeout begun now k) eqn:O.
  - injection E as <- <-. apply overdue_spec in O. repeat split; try lia; try tauto; try discriminate; intros; try lia; tauto.
  - assert (O' : ~ ((0 < timeout)%Z /\ (begun + timeout < now k)%Z)) by (rewrite <- overdue_spec; congruence).
    destruct (kill k) eqn:K.
    + destruct (IH _ _ _ E) as (I1 & I2 & I3). repeat split; try lia; try tauto.
      intros i Hi. destruct (Nat.eq_dec i k) as [->|Ne]; [|apply I2; lia]. intros [Q|Q]; auto.
    + injection E as <- <-. repeat split; try lia; try tauto; try discriminate; intros; try lia; try tauto. destruct H; congruence.
    + injection E as <- <-. repeat split; try lia; try tauto; try discriminate; intros; try lia; try tauto. destruct H; congruence.
Qed.

Lemma poll_none : forall fuel k, poll timeout begun now kill fuel k = None -> forall i, (k <= i < k + fuel)%nat -> ~ reason i.
Proof.
  induction fuel as [|fuel IH]; intros k E i Hi; [lia|]. cbn in E.
  destruct (overdue timeout begun now k) eqn:O; [discriminate|].
  destruct (kill k) eqn:K; try discriminate.
  destruct (Nat.eq_dec i k) as [->|Ne]; [|apply (IH (S k) E); lia].
  intros [Q|Q]; [apply overdue_spec in Q|]; congruence.
Qed.

(** The server is shut down after the first turn in which the process is gone, kill fails or
    the deadline has passed; an error is returned exactly for the last two, an error of the
    shutdown or an error of the server. *)
Theorem C73_wait_exact : forall fuel shut_err serve_err k err,
  stop_on_process timeout begun now kill fuel shut_err serve_err = Some (k, err) ->
  reason k /\ (forall i, (i < k)%nat -> ~ reason i) /\
  (err = false <-> ~ ((0 < timeout)%Z /\ (begun + timeout < now k)%Z) /\ kill k = Gone /\ shut_err = false /\ serve_err = false).
Proof.
  intros fuel se ve k err E. unfold stop_on_process in E. destruct (poll timeout begun now kill fuel 0) as [[j e]|] eqn:P; [|discriminate].
  injection E as <- <-. destruct (poll_spec _ _ _ _ P) as (P1 & P2 & P3 & P4 & P5). repeat split.
  - unfold reason. destruct e; [destruct (proj1 P4 eq_refl) as [_ Q]|destruct (proj1 P3 eq_refl)|destruct (proj1 P5 eq_refl) as [_ Q]]; try (right; congruence); left; auto.
  - intros i Hi. apply P2. lia.
  - destruct e; try discriminate. apply P4. reflexivity.
  - destruct e; try discriminate. apply P4. reflexivity.
  - destruct e, se, ve; try discriminate; reflexivity.
  - destruct e, se, ve; try discriminate; reflexivity.
  - intros (Q1 & Q2 & -> & ->). replace e with NoErr by (symmetry; apply P4; auto). reflexivity.
Qed.
Print Assumptions C73_wait_exact.

(** The first reason is always found. *)
Theorem C73_wait_ends : forall k shut_err serve_err, reason k -> exists j err, (j <= k)%nat /\ stop_on_process timeout begun now kill (S k) shut_err serve_err = Some (j, err).
Proof.
  intros k se ve R. unfold stop_on_process. destruct (poll timeout begun now kill (S k) 0) as [[j e]|] eqn:P.
  - destruct (poll_spec _ _ _ _ P) as (P1 & _). exists j. eexists. split; [lia|reflexivity].
  - exfalso. apply (poll_none _ _ P k); [lia|exact R].
Qed.
Print Assumptions C73_wait_ends.

(** With a positive timeout the wait is over [slack] after the deadline at the latest, when turns
    are at most [slack] apart (200 ms and the time the process is not scheduled). *)
Theorem C73_wait_in_time : forall slack fuel shut_err serve_err k err, (0 < timeout)%Z ->
  (now 0%nat <= begun + slack)%Z -> (forall i, (now (S i) <= now i + slack)%Z) ->
  stop_on_process timeout begun now kill fuel shut_err serve_err = Some (k, err) -> (now k <= begun + timeout + slack)%Z.
Proof.
  intros slack fuel se ve k err T N0 N E. destruct (C73_wait_exact _ _ _ _ _ E) as (_ & F & _).
  destruct k as [|k]; [lia|]. specialize (F k ltac:(lia)). specialize (N k).
  destruct (Z.le_gt_cases (now k) (begun + timeout)) as [Q|Q]; [lia|]. destruct F. left. split; lia.
Qed.
Print Assumptions C73_wait_in_time.
End Poll.

(** Without a positive timeout a process that lives on is waited for forever: no number of turns
    is enough. *)
Theorem C73_wait_forever_refuted : forall timeout begun now kill, (timeout <= 0)%Z -> (forall k, kill k = Alive) ->
  forall fuel shut_err serve_err, stop_on_process timeout begun now kill fuel shut_err serve_err = None.
Proof.
  intros timeout begun now kill T A fuel se ve. unfold stop_on_process. generalize 0%nat. induction fuel as [|fuel IH]; intros k; [reflexivity|].
  cbn. unfold overdue. replace (0 <? timeout)%Z with false by (symmetry; apply Z.ltb_ge; lia). cbn. rewrite A. apply IH.
Qed.
Print Assumptions C73_wait_forever_refuted.

(** A process that was gone before the deadline still counts as a timeout when the loop looks
    too late. *)
Theorem C73_wait_gone_refuted : ~ (forall timeout begun now kill fuel k err, (forall i, kill i = Gone) ->
  stop_on_process timeout begun now kill fuel false false = Some (k, err) -> err = false).
Proof. intros A. specialize (A 100%Z 0%Z (fun _ => 150%Z) (fun _ => Gone) 1%nat 0%nat true (fun _ => eq_refl) eq_refl). discriminate. Qed.
Print Assumptions C73_wait_gone_refuted.

(** ** Examples *)
(** Two servers, the second refused: the first is stopped, none accepts connections. *)
Definition ex_end : state := State PDone [Server Closed true 0; Server Failed false 0] 1 false [].
Example C73_example_refused : reach 2 (fun i => Nat.eqb i 0) ex_end /\ (forall i, ~ accepting ex_end i) /\ broken ex_end 1.
Proof.
  pose (b := fun i => Nat.eqb i 0).
  assert (R : reach 2 b ex_end).
  { unfold ex_end.
    apply re_step with (s := State (PStop 1) [Server Closed true 0; Server Failed false 0] 1 false []); [|apply st_done].
    apply re_step with (s := State (PStop 0) [Server Closed true 0; Server Failed false 0] 1 false []);
      [|apply (st_quiet 2 b [Server Closed true 0; Server Failed false 0] 1 false [] 0 (Server Closed true 0)); [lia|reflexivity|reflexivity|reflexivity]].
    apply re_step with (s := State (PStop 0) [Server Listening false 0; Server Failed false 0] 1 false []);
      [|apply (st_shut 2 b [Server Listening false 0; Server Failed false 0] 1 false [] 0 (Server Listening false 0)); [lia|reflexivity|reflexivity]].
    apply re_step with (s := State PStarting [Server Listening false 0; Server Failed false 0] 1 false []); [|eapply st_refused; reflexivity].
    apply re_step with (s := State PStarting [Server Listening false 0; new_server] 1 false []);
      [|apply (st_own 2 b PStarting [Server Listening false 0; new_server] 1 false [] 1 new_server (Server Failed false 0)); [reflexivity|apply os_refused]].
    apply re_step with (s := State PNext [Server Listening false 0] 1 false []); [|apply (st_start 2 b [Server Listening false 0]); lia].
    apply re_step with (s := State PStarting [Server Listening false 0] 0 false []); [|eapply st_started; reflexivity].
    apply re_step with (s := State PStarting [new_server] 0 false []);
      [|apply (st_own 2 b PStarting [new_server] 0 false [] 0 new_server (Server Listening false 0)); [reflexivity|apply os_listen; reflexivity]].
    apply re_step with (s := initial); [apply re_start|]. apply (st_start 2 b [] 0 false []). lia. }
  split; [exact R|]. split.
  - apply (C73_all_closed 2 b ex_end ex_end R eq_refl (fo_same _ _ _)).
  - exists (Server Failed false 0). auto.
Qed.
(** A process that exits in the third turn, before the deadline. *)
Example C73_example_wait :
  let kill k := if (k <? 2)%nat then Alive else Gone in
  stop_on_process 1000 0 (fun k => 200 * Z.of_nat k)%Z kill 9 false false = Some (2%nat, false) /\
  stop_on_process 300 0 (fun k => 200 * Z.of_nat k)%Z kill 9 false false = Some (2%nat, true) /\
  stop_on_process 1000 0 (fun k => 200 * Z.of_nat k)%Z (fun _ => Alive) 9 false false = Some (6%nat, true).
Proof. repeat split. Qed.
