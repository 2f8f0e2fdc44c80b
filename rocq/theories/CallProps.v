(** C49: instrumentation of calls. *)

From Verif Require Import Base InstrModel InstrSpec InstrProofs CallModel CallSpec CallProofs.

(** Every run of the instrumented function is a run of the original function
    with the same effects, final state and results, in which the message of
    every reported call comes directly before the call and shows the values
    the call gets.  [D] is any order of reading that permits to read names and
    selections after the calls among the operands. *)
Theorem C49_refines : forall Op (W : world2 Op) pkgs pid pt opsof nop D body u t' u' r,
  prog_ok W pt opsof body -> may_read_last D ->
  run W D (inject pkgs pid nop body) u t' u' r ->
  exists t, run W D body u t u' r /\ t' = announced pkgs pid pt opsof t.
Proof. intros. eapply run_within; eauto. apply prog_sok; assumption. Qed.
Print Assumptions C49_refines.

(** Conversely every run of the original function in which names and
    selections are read after the calls among the operands is still there. *)
Theorem C49_realised : forall Op (W : world2 Op) pkgs pid pt opsof nop D body u t u' r,
  prog_ok W pt opsof body -> may_read_last D ->
  run W reads_last body u t u' r ->
  run W D (inject pkgs pid nop body) u (announced pkgs pid pt opsof t) u' r.
Proof. intros. apply run_realised; auto. apply prog_sok; assumption. Qed.
Print Assumptions C49_realised.

(** Without the messages nothing has changed. *)
Theorem C49_behaviour_kept : forall Op (W : world2 Op) pkgs pid pt opsof nop body u t u' r,
  prog_ok W pt opsof body ->
  (run W reads_last body u t u' r <->
   exists t', run W reads_last (inject pkgs pid nop body) u t' u' r /\ doings t' = t).
Proof.
  intros Op W pkgs pid pt opsof nop body u t u' r Hok.
  assert (forall t0 : list (cevent Op W), doings (announced pkgs pid pt opsof t0) = doings t0) as HD.
  { unfold announced, doings. induction t0 as [ | e t0 IH ]; [ reflexivity | ]. cbn [flat_map]. rewrite filter_app, IH. cbn [filter].
    destruct e as [e | k f vs | p fs]; try reflexivity. destruct (pt k); reflexivity. }
  split.
  - intros H. exists (announced pkgs pid pt opsof t). split; [ apply run_realised; [ reflexivity | apply prog_sok; assumption | exact H ] | ].
    rewrite HD. eapply quiet_run; [ apply (po_written _ _ _ _ Hok) | exact H ].
  - intros (t' & H & E). eapply run_within in H; [ | reflexivity | apply prog_sok; eassumption ].
    destruct H as (t0 & H & ->). rewrite HD in E. subst t. erewrite quiet_run; [ exact H | apply (po_written _ _ _ _ Hok) | exact H ].
Qed.
Print Assumptions C49_behaviour_kept.

(** Every reported call comes directly after its message, which shows the
    operands with the values the call gets. *)
Theorem C49_call_announced : forall Op (W : world2 Op) pkgs pid pt opsof nop D body u t1 t2 u' r k f vs,
  prog_ok W pt opsof body -> may_read_last D ->
  run W D (inject pkgs pid nop body) u (t1 ++ CeCall k f vs :: t2) u' r -> pt k = true ->
  exists t0, t1 = t0 ++ [CeState (pid k) (fields pkgs (opsof k) vs)].
Proof.
  intros Op W pkgs pid pt opsof nop D body u t1 t2 u' r k f vs Hok HD H Hk.
  eapply run_within in H; [ | exact HD | apply prog_sok; eassumption ]. destruct H as (t & H & E).
  assert (forall t0 : list (cevent Op W), (t1 ++ CeCall k f vs :: t2) = announced pkgs pid pt opsof t0 ->
            exists t3, t1 = t3 ++ [CeState (pid k) (fields pkgs (opsof k) vs)]) as HX; [ | eapply HX, E ].
  clear H E t. induction t1 as [ | e t1 IH ] using rev_ind; intros t0 E.
  - exfalso. destruct t0 as [ | e t0 ]; [ discriminate | ]. unfold announced in E. cbn [flat_map app] in E.
    destruct e as [e | k0 f0 vs0 | p fs]; try discriminate. destruct (pt k0) eqn:E0; [ discriminate | ]. injection E as -> -> -> _. congruence.
  - clear IH. revert t1 E. induction t0 as [ | x t0 IH0 ]; intros t1 E.
    { destruct t1; discriminate. }
    unfold announced in E. cbn [flat_map] in E. fold (announced pkgs pid pt opsof t0) in E.
    assert (forall e0 (l : list (cevent Op W)), (t1 ++ [e]) ++ CeCall k f vs :: t2 = e0 :: l ->
              (t1 = [] /\ e = e0 /\ l = CeCall k f vs :: t2) \/ exists t1', t1 = e0 :: t1' /\ l = (t1' ++ [e]) ++ CeCall k f vs :: t2) as HC.
    { intros e0 l E1. destruct t1 as [ | y t1 ]; cbn in E1; injection E1 as -> <-; [ left | right ]; eauto. }
    assert (forall e0, ~ (t1 = [] /\ e = e0 /\ announced pkgs pid pt opsof t0 = CeCall k f vs :: t2)) as HN.
    { intros e0 (_ & _ & E1). destruct t0 as [ | y t0 ]; [ discriminate | ]. unfold announced in E1. cbn [flat_map app] in E1.
      destruct y as [y | k0 f0 vs0 | p fs]; try discriminate. destruct (pt k0) eqn:E0; [ discriminate | ]. injection E1 as -> -> -> _. congruence. }
    destruct x as [x | k0 f0 vs0 | p fs].
    + cbn [app] in E. destruct (HC _ _ E) as [HA | (t1' & -> & E1)]; [ exfalso; eapply HN, HA | ].
      destruct (IH0 _ (eq_sym E1)) as (t3 & Et). exists (CeUser x :: t3). cbn. rewrite Et. reflexivity.
    + destruct (pt k0) eqn:E0; cbn [app] in E.
      * destruct (HC _ _ E) as [(-> & -> & E1) | (t1' & -> & E1)].
        -- injection E1 as -> -> -> _. exists []. reflexivity.
        -- destruct t1' as [ | y t1' ]; cbn [app] in E1.
           ++ exfalso. injection E1 as E2 E1. symmetry in E1. destruct t0 as [ | y t0 ]; [ discriminate | ]. unfold announced in E1. cbn [flat_map app] in E1.
              destruct y as [y | k1 f1 vs1 | p fs]; try discriminate. destruct (pt k1) eqn:E3; [ discriminate | ]. injection E1 as -> -> -> _. congruence.
           ++ injection E1 as <- E1. destruct (IH0 _ (eq_sym E1)) as (t3 & Et). cbn. rewrite Et.
              exists (CeState (pid k0) (fields pkgs (opsof k0) vs0) :: CeCall k0 f0 vs0 :: t3). reflexivity.
      * destruct (HC _ _ E) as [HA | (t1' & -> & E1)]; [ exfalso; eapply HN, HA | ].
        destruct (IH0 _ (eq_sym E1)) as (t3 & Et). exists (CeCall k0 f0 vs0 :: t3). cbn. rewrite Et. reflexivity.
    + cbn [app] in E. destruct (HC _ _ E) as [HA | (t1' & -> & E1)]; [ exfalso; eapply HN, HA | ].
      destruct (IH0 _ (eq_sym E1)) as (t3 & Et). exists (CeState p fs :: t3). cbn. rewrite Et. reflexivity.
Qed.
Print Assumptions C49_call_announced.

(** And every message is followed by its call. *)
Theorem C49_message_means_call : forall Op (W : world2 Op) pkgs pid pt opsof nop D body u t1 t2 u' r p fs,
  prog_ok W pt opsof body -> may_read_last D ->
  run W D (inject pkgs pid nop body) u (t1 ++ CeState p fs :: t2) u' r ->
  exists k f vs t3, t2 = CeCall k f vs :: t3 /\ pt k = true /\ p = pid k /\ fs = fields pkgs (opsof k) vs.
Proof.
  intros Op W pkgs pid pt opsof nop D body u t1 t2 u' r p fs Hok HD H.
  eapply run_within in H; [ | exact HD | apply prog_sok; eassumption ]. destruct H as (t & H & E).
  apply quiet_run in H; [ | apply (po_written _ _ _ _ Hok) ].
  revert t1 E H. induction t as [ | x t IH ]; intros t1 E H; [ destruct t1; discriminate | ].
  unfold quiet, doings in H, IH. cbn [filter] in H. unfold announced in E. cbn [flat_map] in E. fold (announced pkgs pid pt opsof t) in E.
  destruct x as [x | k f vs | q gs].
  - cbn [app] in E. destruct t1 as [ | y t1 ]; [ discriminate | ]. cbn in E. injection E as _ E. eapply IH; [ exact E | injection H; auto ].
  - injection H as H. destruct (pt k) eqn:Hk; cbn [app] in E.
    + destruct t1 as [ | y t1 ]; cbn in E.
      * injection E as -> -> ->. eauto 8.
      * injection E as _ E. destruct t1 as [ | z t1 ]; [ discriminate | ]. cbn in E. injection E as _ E. eapply IH; [ exact E | exact H ].
    + destruct t1 as [ | y t1 ]; [ discriminate | ]. cbn in E. injection E as _ E. eapply IH; [ exact E | exact H ].
  - exfalso. assert (length (filter (fun e : cevent Op W => match e with CeState _ _ => false | _ => true end) t) <= length t)%nat as HL.
    { clear. induction t as [ | e t IH ]; cbn; [ lia | ]. destruct e; cbn; lia. }
    rewrite H in HL. cbn in HL. lia.
Qed.
Print Assumptions C49_message_means_call.

(** The call that gets the point is the last of the outermost matching calls
    outside of function literals. *)
Theorem C49_which_call : forall t, find_call t = last (map Some (outer t)) None.
Proof. intros t. eapply find_call_outer_n, Nat.lt_succ_diag_r. Qed.
Print Assumptions C49_which_call.

(** So [f(x) + f(y)] has one point, for [f(y)], and [f(f(x))] one for the outer
    call. *)
Theorem C49_every_call_refuted :
  find_call (TNode [TCall 1 true []; TCall 2 true []]) = Some 2%nat /\
  find_call (TCall 1 true [TCall 2 true []]) = Some 1%nat.
Proof. split; reflexivity. Qed.
Print Assumptions C49_every_call_refuted.

(** ** A world for examples *)

(** Operations: nothing; effect [n], with value [n]; counting, with the new
    count as value; false and true; whether less than [n]; a panic; a mutex. *)
Inductive xop := XNop | XEff (n : nat) | XCount | XFalse | XTrue | XLess (n : nat) | XPanic | XMutex | XMany (n : nat).

Definition x_act (o : xop) (u : nat) : list nat * nat * reply nat :=
  match o with
  | XEff n => ([n], u, RVals [n])
  | XCount => ([], S u, RVals [S u])
  | XFalse => ([], u, RBranch 0)
  | XTrue => ([], u, RBranch 1)
  | XLess n => ([], u, RBranch (if (u <? n)%nat then 1 else 0))
  | XPanic => ([], u, RPanic 9%nat)
  | XMutex => ([], u, RVals [0%nat])
  | XMany n => ([], u, RVals [n])
  | XNop => ([], u, RVals [])
  end.
(** The address of a mutex, not its value. *)
Definition x_adr (o : xop) (u : nat) := match o with XMutex => ([], u, RVals [1%nat]) | o => x_act o u end.
(** Lock on the address of the mutex changes it, other functions return their
    last operand. *)
Definition x_call (f : bytes) (vs : list nat) (u : nat) : list nat * nat * reply nat :=
  if beq f (B "Lock") then ([], match vs with [1%nat] => 1%nat | _ => u end, RVals [])
  else ([], u, RVals match rev vs with v :: _ => [v] | [] => [] end).
Definition x_use (o : xop) (vs : list nat) (u : nat) : list nat * nat * reply nat :=
  match o, vs with
  | XLess n, v :: _ => ([], u, RBranch (if (v <? n)%nat then 1 else 0))
  | XNop, _ => ([], u, RVals vs)
  | o, _ => x_act o u
  end.
Definition x_world : world2 xop := World2 xop nat nat nat (fun _ u x => (u + 10)%nat)
  (fun o u t u' r => x_act o u = (t, u', r)) (fun o u t u' r => x_adr o u = (t, u', r))
  (fun f vs u t u' r => x_call f vs u = (t, u', r)) (fun o vs u t u' r => x_use o vs u = (t, u', r))
  (fun f vs c u t u' c' => t = [] /\ u' = u /\ c' = if beq f (B "recover") then None else c)
  (fun ret u => match ret with Some vs => vs | None => [] end).
Notation xrun := (run x_world).
Definition x_pid (k : nat) : N := (100 + N.of_nat k)%N.
Notation xinject := (inject [B "fmt"] x_pid XNop).

(** *** A program that keeps its behaviour *)

(** [for u < 3 { if m.f(count(), x, 2) < 3 { target(x); continue }; fmt.g(); ... }; return f(y, eff(5))]  *)
Definition ex_body : list (stmt xop) :=
  [SLoop (HOp (XLess 3))
     [SCall true 1 KIf (PFirst (XLess 2)) (B "f") [ORecvId (B "m"); OOther XCount; OId (B "x"); OLit (XMany 2)] [[SOp (XEff 4)]; [SContinue]];
      SCall true 2 KPlain (PFirst XNop) (B "g") [ORecvId (B "fmt"); OSel (XMany 7)] []] [SOp (XEff 6)];
   SCall true 3 KReturn (PFirst XNop) (B "h") [OId (B "y"); OOther (XEff 5)] []].
Definition ex_ops (k : nat) : list (operand xop) :=
  match k with
  | 1 => [ORecvId (B "m"); OOther XCount; OId (B "x"); OLit (XMany 2)]
  | 2 => [ORecvId (B "fmt"); OSel (XMany 7)]
  | _ => [OId (B "y"); OOther (XEff 5)]
  end%nat.

Lemma many_pure n : pure x_world (XMany n).
Proof. split; cbn; intros; [ | congruence ]. match goal with H : _ = _ |- _ => injection H as <- <- _ end. split; reflexivity. Qed.

Example C49_example_ok : prog_ok x_world (fun _ => true) ex_ops ex_body.
Proof.
  split.
  - reflexivity.
  - cbn. intros c a x [<- | [<- | [<- | []]]]; cbn; intros Ha Hx;
      repeat match goal with H : _ \/ _ |- _ => destruct H as [<- | H] | H : False |- _ => contradiction end; try discriminate; injection Hx as <-; reflexivity.
  - cbn. intros c [<- | [<- | [<- | []]]]; reflexivity.
  - cbn. intros c [<- | [<- | [<- | []]]] _; reflexivity.
  - cbn. intros c [<- | [<- | [<- | []]]] _; (split; [ reflexivity | reflexivity | | ]); cbn; intros o Ho;
      repeat match goal with H : _ \/ _ |- _ => destruct H as [H | H] | H : False |- _ => contradiction end; try discriminate;
      injection Ho as <-; apply many_pure.
Qed.

Ltac xstep := eexists _, _; split; [ | split; [ | cbn; reflexivity ] ]; cbn; reflexivity.
Lemma trace_eq {Op} {W : world2 Op} D body u t t2 u' r : run W D body u t u' r -> t = t2 -> run W D body u t2 u' r.
Proof. intros H <-. exact H. Qed.
Ltac ops :=
  match goal with
  | |- operands _ _ _ _ _ _ _ _ => eapply OpsVals; [ ops | ops ]
  | |- pass1 _ _ _ _ [] _ _ _ _ => eapply P1Nil
  | |- pass1 _ _ _ _ (ORecvX _ :: _) _ _ _ _ => eapply P1Now with (r := inr _); [ discriminate | ops | ops ]
  | |- pass1 _ _ _ _ (OOther _ :: _) _ _ _ _ => eapply P1Now with (r := inr _); [ discriminate | ops | ops ]
  | |- pass1 _ _ _ _ (_ :: _) _ _ _ _ => eapply P1Late with (r := inr _); [ reflexivity | reflexivity | ops ]
  | |- pass2 _ _ [] _ _ _ _ _ => eapply P2Nil
  | |- pass2 _ _ _ (Some _ :: _) _ _ _ _ => eapply P2Have with (r := inr _); ops
  | |- pass2 _ _ _ (None :: _) _ _ _ _ => eapply P2Late with (r := inr _); [ ops | ops ]
  | |- ev1 _ _ (OId _) _ _ _ _ => eapply V1Id
  | |- ev1 _ _ (ORecvId _) _ _ _ _ => eapply V1RId
  | |- ev1 _ _ (ORecvX _) _ _ _ _ => eapply V1Adr; xstep
  | |- ev1 _ _ _ _ _ _ _ => eapply V1Op; [ reflexivity | xstep ]
  end.
Ltac xcall := eapply PlFirst, UsVals; [ eapply IvCall; [ ops | xstep ] | xstep ].

Notation xC := (@CeCall xop x_world).
Notation xU := (@CeUser xop x_world).
Notation xS := (@CeState xop x_world).

Lemma xdone D body (u : UState2 x_world) t u' o t2 r : execs (W := x_world) D [] body (CState u []) t (CState u' []) o -> t = t2 ->
  match o with CoNormal => r = inr [] | CoRet vs => r = inr vs | _ => False end -> xrun D body u t2 u' r.
Proof.
  intros H <- Hr. rewrite <- (app_nil_r t). destruct o; try contradiction; subst r.
  - apply (RunRet xop x_world D body u t u' [] CoNormal None [] u' None); [ exact H | reflexivity | auto | constructor ].
  - apply (RunRet xop x_world D body u t u' [] (CoRet vs) (Some vs) [] u' None); [ exact H | reflexivity | eauto | constructor ].
Qed.

(** Its run from 2, with the messages of the instrumented function. *)
Example C49_example_original : xrun reads_last ex_body 2%nat
  [xC 1 (B "f") [13; 3; 13; 2]; xU 4; xC 2 (B "g") [13; 7]; xU 6; xU 5; xC 3 (B "h") [13; 5]]%nat 3%nat (inr [5%nat]).
Proof.
  eapply xdone.
  - eapply XsNext; [ eapply XLoop, XlNext with (o := CoNormal) | ].
    + eapply CdOp; xstep.
    + eapply XsNext; [ eapply XCallIf; [ xcall | eapply XsNext; [ eapply XOp; xstep | constructor ] ] | ].
      eapply XsNext; [ eapply XCall; xcall | constructor ].
    + reflexivity.
    + eapply XsNext; [ eapply XOp; xstep | constructor ].
    + eapply XlEnd, CdOp; xstep.
    + eapply XsStop; [ eapply XCallRet; xcall | discriminate ].
  - reflexivity.
  - reflexivity.
Qed.
Example C49_example : xrun reads_last (xinject ex_body) 2%nat
  [xS 101 [(B "m", 13); (B "arg0", 3); (B "arg1", 13); (B "arg2", 2)]; xC 1 (B "f") [13; 3; 13; 2]; xU 4;
   xS 102 [(B "arg0", 7)]; xC 2 (B "g") [13; 7]; xU 6;
   xU 5; xS 103 [(B "arg0", 13); (B "arg1", 5)]; xC 3 (B "h") [13; 5]]%nat 3%nat (inr [5%nat]).
Proof.
  eapply trace_eq; [ eapply C49_realised; [ exact C49_example_ok | intros i a _; reflexivity | exact C49_example_original ] | reflexivity ].
Qed.

(** *** Programs that do not keep it *)

Ltac xsend := eapply XSend; cbn [map snd app]; ops.
Ltac xcomp := match goal with |- context [xinject ?b] => let v := eval cbv in (xinject b) in change (xinject b) with v end.

Ltac inv1 :=
  match goal with
  | H : step _ _ _ _ _ |- _ => destruct H as (? & ? & ? & ? & ?); subst; cbn in *
  | H : Some _ = Some _ |- _ => injection H; clear H; intros; subst; cbn in *
  | H : (_, _) = (_, _) |- _ => injection H; clear H; intros; subst
  | H : RVals _ = RVals _ |- _ => injection H; clear H; intros; subst
  | H : RPanic _ = RPanic _ |- _ => injection H; clear H; intros; subst
  | H : RBranch _ = RBranch _ |- _ => injection H; clear H; intros; subst
  | H : RVals _ = _ |- _ => discriminate H
  | H : RPanic _ = _ |- _ => discriminate H
  | H : RBranch _ = _ |- _ => discriminate H
  | H : vcons _ ?r = inr _ |- _ => is_var r; destruct r; [ discriminate H | ]; cbn in H
  | H : vcons _ ?r = inl _ |- _ => is_var r; destruct r; [ | discriminate H ]; cbn in H
  | H : inr _ = inr _ |- _ => injection H; clear H; intros; subst
  | H : inl _ = inl _ |- _ => injection H; clear H; intros; subst
  | H : inr _ = inl _ |- _ => discriminate H
  | H : inl _ = inr _ |- _ => discriminate H
  | H : opnd_op _ = Some _ |- _ => cbn in H; first [ discriminate H | injection H; clear H; intros; subst ]
  | H : CState _ _ = CState _ _ |- _ => injection H; clear H; intros; subst
  | H : w2_defer _ _ _ _ _ _ _ _ |- _ => cbn in H; destruct H as (? & ? & ?); subst
  | H : ev1 _ _ _ _ _ _ _ |- _ => inversion H; clear H; subst
  | H : pass1 _ _ _ _ _ _ _ _ _ |- _ => inversion H; clear H; subst
  | H : pass2 _ _ _ _ _ _ _ _ |- _ => inversion H; clear H; subst
  | H : operands _ _ _ _ _ _ _ _ |- _ => inversion H; clear H; subst
  | H : invoke _ _ _ _ _ _ _ _ _ |- _ => inversion H; clear H; subst
  | H : used _ _ _ _ _ _ _ _ _ _ |- _ => inversion H; clear H; subst
  | H : placed _ _ _ _ _ _ _ _ _ _ |- _ => inversion H; clear H; subst
  | H : execs _ _ _ _ _ _ _ |- _ => inversion H; clear H; subst
  | H : exec _ _ _ _ _ _ _ |- _ => inversion H; clear H; subst
  | H : unwind _ _ _ _ _ _ _ |- _ => inversion H; clear H; subst
  end.

(** [false && target(eff(7))]: the operand is evaluated and the message sent
    although the call is not made. *)
Theorem C49_short_circuit_refuted :
  let body := [SCall true 0 KPlain (PGuard XFalse XNop) (B "target") [OOther (XEff 7)] []] in
  (forall D u t u' r, xrun D body u t u' r -> t = []) /\
  forall D, may_read_last D -> xrun D (xinject body) 0%nat [xU 7%nat; xS 100 [(B "arg0", 7%nat)]] 0%nat (inr []).
Proof.
  split.
  - intros D u t u' r H. inversion H; subst; repeat inv1; try reflexivity; try congruence.
  - intros D HD. eapply xdone.
    + xcomp. eapply XsTemp; [ xstep | ]. eapply XsNext; [ xsend | ].
      eapply XsNext; [ eapply XCall, PlSkip; xstep | constructor ].
    + reflexivity.
    + reflexivity.
Qed.
Print Assumptions C49_short_circuit_refuted.

(** [eff(1) + target(eff(2))]: the operand is evaluated first. *)
Theorem C49_order_refuted :
  let body := [SCall true 0 KPlain (PAfter (XEff 1) XNop) (B "target") [OOther (XEff 2)] []] in
  (forall D u t u' r, xrun D body u t u' r -> t = [xU 1%nat; xU 2%nat; xC 0 (B "target") [2%nat]]) /\
  xrun reads_last (xinject body) 0%nat [xU 2%nat; xS 100 [(B "arg0", 2%nat)]; xU 1%nat; xC 0 (B "target") [2%nat]] 0%nat (inr []).
Proof.
  split.
  - intros D u t u' r H. inversion H; subst; repeat inv1; try reflexivity; try congruence.
  - eapply xdone.
    + xcomp. eapply XsTemp; [ xstep | ]. eapply XsNext; [ xsend | ].
      eapply XsNext; [ eapply XCall, PlAfter; [ xstep | eapply UsVals; [ eapply IvCall; [ ops | xstep ] | xstep ] ] | constructor ].
    + reflexivity.
    + reflexivity.
Qed.
Print Assumptions C49_order_refuted.

Lemma cond_frozen D x T s t s' r : cond (W := x_world) D T (HCall true 0 (B "target") [OId x] (XLess 2)) s t s' r ->
  tlook T x = Some 1%nat -> r = RBranch 1.
Proof.
  intros HH HT. inversion HH; subst; clear HH.
  repeat match goal with
  | HX : used _ _ _ _ _ _ _ _ _ _ |- _ => inversion HX; clear HX; subst
  | HX : invoke _ _ _ _ _ _ _ _ _ |- _ => inversion HX; clear HX; subst
  | HX : operands _ _ _ _ _ _ _ _ |- _ => inversion HX; clear HX; subst
  | HX : pass1 _ _ _ _ _ _ _ _ _ |- _ => inversion HX; clear HX; subst
  | HX : pass2 _ _ _ _ _ _ _ _ |- _ => inversion HX; clear HX; subst
  | HX : ev1 _ _ _ _ _ _ _ |- _ => inversion HX; clear HX; subst
  end; unfold cread in *; rewrite ?HT in *; repeat inv1; cbn in *; try congruence.
Qed.
Lemma loop_frozen0 D x T h b post s t s' o : loops (W := x_world) D T h b post s t s' o ->
  h = HCall true 0 (B "target") [OId x] (XLess 2) -> b = [] -> post = [] -> tlook T x = Some 1%nat -> False.
Proof.
  intros HH. induction HH; intros -> -> -> HT; auto;
    match goal with HX : cond _ _ _ _ _ _ _ |- _ => pose proof (cond_frozen _ _ _ _ _ _ _ HX HT) as HR end;
    try discriminate HR;
    repeat match goal with HX : execs _ _ [] _ _ _ _ |- _ => inversion HX; clear HX; subst end; cbn in *; congruence.
Qed.
Lemma loop_frozen D x T s t s' o : loops (W := x_world) D T (HCall true 0 (B "target") [OId x] (XLess 2)) [] [] s t s' o ->
  tlook T x = Some 1%nat -> False.
Proof. intros H. exact (loop_frozen0 _ _ _ _ _ _ _ _ _ _ H eq_refl eq_refl eq_refl). Qed.

(** [for target(count()) < 2 {}]: the operand is evaluated once, so that the
    loop, which ends after two rounds, never ends. *)
Theorem C49_loop_condition_refuted :
  let body := [SLoop (HCall true 0 (B "target") [OOther XCount] (XLess 2)) [] []] in
  xrun reads_last body 0%nat [xC 0 (B "target") [1%nat]; xC 0 (B "target") [2%nat]] 2%nat (inr []) /\
  forall D t u' r, ~ xrun D (xinject body) 0%nat t u' r.
Proof.
  split.
  - eapply xdone.
    + eapply XsNext; [ | constructor ]. eapply XLoop, XlNext with (o := CoNormal).
      * eapply CdCall, UsVals; [ eapply IvCall; [ ops | xstep ] | xstep ].
      * constructor.
      * reflexivity.
      * constructor.
      * eapply XlEnd, CdCall, UsVals; [ eapply IvCall; [ ops | xstep ] | xstep ].
    + reflexivity.
    + reflexivity.
  - intros D t u' r H.
    assert (forall (u : UState2 x_world) t s' o, u = 0%nat ->
              ~ execs (W := x_world) D [] (xinject [SLoop (HCall true 0 (B "target") [OOther XCount] (XLess 2)) [] []]) (CState u []) t s' o) as HE.
    { xcomp. intros u t0 s' o Hu HH. inversion HH; clear HH; subst.
      all: try match goal with HX : exec _ _ (STemp _ _) _ _ _ _ |- _ => inversion HX end.
      all: repeat inv1; try discriminate.
      all: try congruence.
      all: eapply loop_frozen; [ eassumption | reflexivity ].
    }
    inversion H; subst; eapply HE; try eassumption; reflexivity.
Qed.
Print Assumptions C49_loop_condition_refuted.

(** [defer target(count()); count()]: the operand is evaluated when the
    function ends, not at the defer statement. *)
Theorem C49_defer_refuted :
  let body := [SDefer true 0 (B "target") [OOther XCount]; SOp XCount] in
  (forall D t u' r, xrun D body 0%nat t u' r -> t = [xC 0 (B "target") [1%nat]]) /\
  xrun reads_last (xinject body) 0%nat [xS 100 [(B "arg0", 2%nat)]; xC 0 (B "target") [2%nat]] 2%nat (inr []).
Proof.
  split.
  - intros D t u' r H. inversion H; subst; repeat inv1; try reflexivity; try congruence.
  - xcomp. eapply trace_eq.
    + eapply (RunRet xop x_world) with (o := CoNormal) (ret := None) (c := None); [ | reflexivity | auto | ].
      * eapply XsNext; [ eapply XDeferBlock | ]. eapply XsNext; [ eapply XOp; xstep | constructor ].
      * eapply UwBlock; [ | constructor ].
        eapply XsTemp; [ xstep | ]. eapply XsNext; [ xsend | ]. eapply XsNext; [ eapply XCall; xcall | constructor ].
    + reflexivity.
Qed.
Print Assumptions C49_defer_refuted.

(** [defer recover2(); panic(9)]: a function that recovers does so only if it
    is deferred itself, hence the panic is no longer stopped. *)
Theorem C49_recover_refuted :
  let body := [SDefer true 0 (B "recover") []; SOp XPanic] in
  (forall D t u' r, xrun D body 0%nat t u' r -> r = inr []) /\
  xrun reads_last (xinject body) 0%nat [xS 100 []; xC 0 (B "recover") []] 0%nat (inl 9%nat).
Proof.
  split.
  - intros D t u' r H. inversion H; subst; repeat inv1;
      try reflexivity; try match goal with HX : _ \/ _ |- _ => destruct HX as [HX | (? & HX)]; discriminate HX end.
  - xcomp. eapply trace_eq.
    + eapply (RunPanic xop x_world) with (c := Some 9%nat) (p := 9%nat).
      * eapply XsNext; [ eapply XDeferBlock | ]. eapply XsStop; [ eapply XOpP; xstep | discriminate ].
      * eapply UwBlock; [ | constructor ].
        eapply XsNext; [ xsend | ]. eapply XsNext; [ eapply XCall; xcall | constructor ].
    + reflexivity.
Qed.
Print Assumptions C49_recover_refuted.

(** [s.mu.Lock()]: a copy of the mutex is locked. *)
Theorem C49_receiver_copied_refuted :
  let body := [SCall true 0 KPlain (PFirst XNop) (B "Lock") [ORecvX XMutex] []] in
  (forall D t u' r, xrun D body 0%nat t u' r -> u' = 1%nat) /\
  xrun reads_last (xinject body) 0%nat [xS 100 [(B "recv", 0%nat)]; xC 0 (B "Lock") [0%nat]] 0%nat (inr []).
Proof.
  split.
  - intros D t u' r H. inversion H; subst; repeat inv1; try reflexivity; try congruence.
  - eapply xdone.
    + xcomp. eapply XsTemp; [ xstep | ]. eapply XsNext; [ xsend | ]. eapply XsNext; [ eapply XCall; xcall | constructor ].
    + reflexivity.
    + reflexivity.
Qed.
Print Assumptions C49_receiver_copied_refuted.

(** [target(next().z)]: a selection is evaluated for the message and again for
    the call, which gets another value than the message shows. *)
Theorem C49_selection_twice_refuted :
  let body := [SCall true 0 KPlain (PFirst XNop) (B "target") [OSel XCount] []] in
  (forall D t u' r, xrun D body 0%nat t u' r -> u' = 1%nat) /\
  xrun reads_last (xinject body) 0%nat [xS 100 [(B "arg0", 1%nat)]; xC 0 (B "target") [2%nat]] 2%nat (inr []).
Proof.
  split.
  - intros D t u' r H. inversion H; subst; repeat inv1; try reflexivity; try congruence.
  - eapply xdone.
    + xcomp. eapply XsNext; [ xsend | ]. eapply XsNext; [ eapply XCall; xcall | constructor ].
    + reflexivity.
    + reflexivity.
Qed.
Print Assumptions C49_selection_twice_refuted.

Lemma pass1_ids {Op} (W : world2 Op) D T k xs i s t s' r : pass1 (W := W) D T k i (map OId xs) s t s' r ->
  t = [] /\ s' = s /\ exists ov, r = inr ov /\ Forall2 (fun x o => o = None \/ o = Some (cread (W := W) T k s x)) xs ov.
Proof.
  revert i t s' r. induction xs as [ | x xs IH ]; intros i t s' r H; inversion H; clear H; subst.
  - repeat split; auto. eexists; split; [ reflexivity | constructor ].
  - match goal with HX : pass1 _ _ _ _ _ _ _ _ _ |- _ => apply IH in HX; destruct HX as (-> & -> & ov & -> & HF) end. repeat split; auto. eexists; split; [ reflexivity | constructor; auto ].
  - match goal with HX : ev1 _ _ _ _ _ _ _ |- _ => inversion HX; subst; [ | discriminate ] end.
    match goal with HX : pass1 _ _ _ _ _ _ _ _ _ |- _ => apply IH in HX; destruct HX as (-> & -> & ov & -> & HF) end. repeat split; auto. eexists; split; [ reflexivity | constructor; auto ].
  - match goal with HX : ev1 _ _ _ _ _ _ _ |- _ => inversion HX; discriminate end.
Qed.
Lemma pass2_ids {Op} (W : world2 Op) T k xs ov s t s' r : pass2 (W := W) T k (map OId xs) ov s t s' r ->
  Forall2 (fun x o => o = None \/ o = Some (cread (W := W) T k s x)) xs ov ->
  t = [] /\ s' = s /\ r = inr (map (cread (W := W) T k s) xs).
Proof.
  revert ov t s' r. induction xs as [ | x xs IH ]; intros ov t s' r H HF; inversion HF; clear HF; subst; inversion H; clear H; subst.
  - auto.
  - match goal with HX : pass2 _ _ _ _ _ _ _ _ |- _ => apply IH in HX; [ destruct HX as (-> & -> & ->) | assumption ] end. repeat split. match goal with HX : _ \/ _ |- _ => destruct HX as [HX | HX]; inversion HX end. reflexivity.
  - match goal with HX : ev1 _ _ _ _ _ _ _ |- _ => inversion HX; subst; [ | discriminate ] end.
    match goal with HX : pass2 _ _ _ _ _ _ _ _ |- _ => apply IH in HX; [ destruct HX as (-> & -> & ->) | assumption ] end. auto.
  - match goal with HX : ev1 _ _ _ _ _ _ _ |- _ => inversion HX; discriminate end.
Qed.
Lemma call_ids D T xs f s t s' o : exec (W := x_world) D T (SCall true 0 KPlain (PFirst XNop) f (map OId xs) []) s t s' o ->
  In (xC 0 f (map (cread (W := x_world) T 0 s) xs)) t.
Proof.
  intros H. inversion H; subst.
  all: match goal with HX : placed _ _ _ _ _ _ _ _ _ _ |- _ => inversion HX; clear HX; subst end.
  all: match goal with HX : used _ _ _ _ _ _ _ _ _ _ |- _ => inversion HX; clear HX; subst end.
  all: match goal with HX : invoke _ _ _ _ _ _ _ _ _ |- _ => inversion HX; clear HX; subst end.
  all: match goal with HX : operands _ _ _ _ _ _ _ _ |- _ => inversion HX; clear HX; subst end.
  all: match goal with HX : pass1 _ _ _ _ _ _ _ _ _ |- _ => apply pass1_ids in HX; destruct HX as (-> & -> & ov & Eo & HF) end; try discriminate.
  all: injection Eo as <-; match goal with HX : pass2 _ _ _ _ _ _ _ _ |- _ => apply pass2_ids in HX; [ destruct HX as (-> & -> & Er) | exact HF ] end; try discriminate.
  all: injection Er as ->; rewrite ?in_app_iff; cbn; auto.
Qed.

Lemma two_ids D T xs f p l s t s' o : execs (W := x_world) D T [SSend 0 p l; SCall true 0 KPlain (PFirst XNop) f (map OId xs) []] s t s' o ->
  map snd l = map OId xs -> In (xC 0 f (map (cread (W := x_world) T 0 s) xs)) t.
Proof.
  intros H E1.
  assert (forall t s' r, pass2 (W := x_world) T 0 (map snd l) (map (fun _ => None) l) s t s' r -> s' = s /\ r = inr (map (cread (W := x_world) T 0 s) xs)) as HP.
  { intros t0 s0 r HH. rewrite E1 in HH. apply pass2_ids in HH.
    - destruct HH as (_ & -> & ->). auto.
    - clear - E1. revert xs E1. induction l; intros [ | x xs ] E; try discriminate; constructor; auto. injection E as _ E. apply IHl. exact E. }
  inversion H; clear H; subst; match goal with HX : exec _ _ (SSend _ _ _) _ _ _ _ |- _ => inversion HX; clear HX; subst end; try congruence;
    match goal with HX : pass2 _ _ _ _ _ _ _ _ |- _ => apply HP in HX; destruct HX as (? & HX); try discriminate; subst end.
  match goal with HX : execs _ _ _ _ _ _ _ |- _ => inversion HX; clear HX; subst end;
    match goal with HX : exec _ _ _ _ _ _ _ |- _ => apply call_ids in HX end; rewrite !in_app_iff; auto.
Qed.

(** [target(x, set(&x))] where x is read first, as the language permits: the
    instrumented function reads it last. *)
Theorem C49_in_place_order_refuted :
  let body := [SCall true 0 KPlain (PFirst XNop) (B "target") [OId (B "x"); OOther XCount] []] in
  xrun reads_any body 0%nat [xC 0 (B "target") [10%nat; 1%nat]] 1%nat (inr []) /\
  forall D t u' r, xrun D (xinject body) 0%nat t u' r -> In (xC 0 (B "target") [11%nat; 1%nat]) t.
Proof.
  split.
  - eapply xdone.
    + eapply XsNext; [ eapply XCall, PlFirst, UsVals; [ eapply IvCall; [ eapply OpsVals; [ eapply P1Now with (r := inr _); [ intros _; exact I | eapply V1Id | ops ] | ops ] | xstep ] | xstep ] | constructor ].
    + reflexivity.
    + reflexivity.
  - assert (forall D (u : UState2 x_world) t s' o, u = 0%nat ->
      execs (W := x_world) D [] (xinject [SCall true 0 KPlain (PFirst XNop) (B "target") [OId (B "x"); OOther XCount] []]) (CState u []) t s' o ->
      In (xC 0 (B "target") [11%nat; 1%nat]) t) as HE.
    { xcomp. intros D u t s' o Hu HH. inversion HH; clear HH; subst.
      all: try match goal with HX : exec _ _ (STemp _ _) _ _ _ _ |- _ => inversion HX end.
      2: repeat inv1.
      match goal with HX : ev1 _ _ _ _ _ _ _ |- _ => inversion HX; clear HX; subst | _ => idtac end.
      repeat match goal with
      | HX : step _ _ _ _ _ |- _ => destruct HX as (? & ? & ? & ? & HX); cbn in HX; injection HX; clear HX; intros; subst
      end.
      apply in_or_app; right.
      match goal with HX : execs _ _ _ _ _ _ _ |- _ => apply two_ids with (xs := [B "x"; B "lenSyntheticArg100_1"]) in HX; [ exact HX | reflexivity ] end. }
    intros D t u' r H. inversion H; subst; apply in_or_app; left; eapply HE; try eassumption; reflexivity.
Qed.
Print Assumptions C49_in_place_order_refuted.

(** Calls inside of a labelled statement are not reported. *)
Theorem C49_labelled_refuted :
  let body := [SLabel (B "L") [SCall true 0 KPlain (PFirst XNop) (B "target") [] []]] in
  xinject body = body /\ xrun reads_last body 0%nat [xC 0 (B "target") []] 0%nat (inr []).
Proof.
  split; [ reflexivity | ]. eapply xdone.
  - eapply XsNext; [ | constructor ]. eapply (XLabel xop x_world) with (o := CoNormal). eapply XsNext; [ eapply XCall; xcall | constructor ].
  - reflexivity.
  - reflexivity.
Qed.
Print Assumptions C49_labelled_refuted.

(** The package names of the file are guessed from the import paths: the
    package yaml of gopkg.in/yaml.v3 and v2 packages are taken for variables,
    whose use as a value does not compile. *)
Theorem C49_package_name_refuted :
  let pkgs := file_packages [Import None (B "fmt"); Import None (B "gopkg.in/yaml.v3"); Import (Some (B "al")) (B "a/b")] in
  pkgs = [B "fmt"; B "yaml.v3"; B "al"] /\
  build_call (Op := xop) pkgs x_pid 0 [ORecvId (B "yaml"); OId (B "b")] =
    ([SSend 0 100 [(B "yaml", ORecvId (B "yaml")); (B "arg0", OId (B "b"))]], [ORecvId (B "yaml"); OId (B "b")]).
Proof. split; reflexivity. Qed.
Print Assumptions C49_package_name_refuted.

(** A local variable with the name of an imported package is taken for the package: a call of its method gets the statements
    and the message of a call without receiver, so nothing tells the receiver. *)
Theorem C49_hidden_package_refuted : forall imports x args, In x (file_packages imports) ->
  (forall r, In r args -> match r with ORecvId _ | ORecvX _ => False | _ => True end) ->
  fst (build_call (Op := xop) (file_packages imports) x_pid 0 (ORecvId x :: args)) = fst (build_call (Op := xop) (file_packages imports) x_pid 0 args) /\
  forall k p snaps, In (SSend k p snaps) (fst (build_call (Op := xop) (file_packages imports) x_pid 0 (ORecvId x :: args))) -> forall n, ~ In (n, ORecvId x) snaps.
Proof.
  intros imports x args Hx Ha. set (pkgs := file_packages imports) in *.
  assert (Em : mem x pkgs = true) by (unfold mem; apply existsb_exists; exists x; split; [exact Hx | apply beq_refl]).
  assert (E : fst (build_call (Op := xop) pkgs x_pid 0 (ORecvId x :: args)) = fst (build_call (Op := xop) pkgs x_pid 0 args)).
  { unfold build_call at 1. cbn [build_recv]. rewrite Em, Bool.andb_false_r.
    assert (E2 : build_call (Op := xop) pkgs x_pid 0 args = let '(s, args', n) := build_args x_pid 0 0 args in (s ++ [SSend 0 (x_pid 0) n], args')).
    { unfold build_call. destruct args as [| a args]; [reflexivity |]. specialize (Ha a (or_introl eq_refl)). destruct a; try destruct Ha; reflexivity. }
    rewrite E2. destruct (build_args x_pid 0 0 args) as [[s' args'] n']. reflexivity. }
  split; [exact E |].
  assert (A : forall l i s l' n, (forall r, In r l -> match r with ORecvId _ | ORecvX _ => False | _ => True end) -> build_args (Op := xop) x_pid 0 i l = (s, l', n) ->
      (forall e, In e s -> forall k p sn, e <> SSend k p sn) /\ forall m, ~ In (m, ORecvId x) n).
  { clear. induction l as [| a l IH]; intros i s l' n Hl X; cbn [build_args] in X; [injection X as <- <- <-; split; [intros e [] | intros m []] |].
    destruct (build_arg x_pid 0 i a) as [[s1 a'] n1] eqn:E1. destruct (build_args x_pid 0 (S i) l) as [[s2 l2] n2] eqn:E2. injection X as <- <- <-.
    destruct (IH _ _ _ _ (fun r Hr => Hl r (or_intror Hr)) E2) as [I1 I2]. specialize (Hl a (or_introl eq_refl)). unfold build_arg in E1. split.
    - intros e He. apply in_app_or in He. destruct He as [He | He]; [| exact (I1 e He)].
      destruct a; try destruct Hl; injection E1 as <- <- <-; try destruct He as [<- | []]; try destruct He; intros; discriminate.
    - intros m Hy. apply in_app_or in Hy. destruct Hy as [Hy | Hy]; [| exact (I2 m Hy)].
      destruct a; try destruct Hl; injection E1 as <- <- <-; destruct Hy as [Hy | []]; discriminate Hy. }
  intros k p snaps Hs. rewrite E in Hs. unfold build_call in Hs.
  destruct (build_args x_pid 0 0 args) as [[s' args'] n'] eqn:Ea. destruct (A _ _ _ _ _ Ha Ea) as [A1 A2].
  destruct args as [| a args].
  - cbn in Ea. injection Ea as <- <- <-. destruct Hs as [Hs | []]. injection Hs as <- <- <-. intros n [].
  - pose proof (Ha a (or_introl eq_refl)) as Hr. destruct a; try destruct Hr; cbn [fst] in Hs; apply in_app_or in Hs;
      (destruct Hs as [Hs | [Hs | []]]; [destruct (A1 _ Hs k p snaps eq_refl) | injection Hs as <- <- <-; exact A2]).
Qed.
Print Assumptions C49_hidden_package_refuted.
Example C49_hidden_package_ex : In (B "url") (file_packages [Import None (B "net/url")]) /\
  fst (build_call (Op := xop) (file_packages [Import None (B "net/url")]) x_pid 0 [ORecvId (B "url"); OId (B "b")]) = [SSend 0 100 [(B "arg0", OId (B "b"))]] /\
  fst (build_call (Op := xop) (file_packages [Import None (B "net/url")]) x_pid 0 [ORecvId (B "uri"); OId (B "b")]) = [SSend 0 100 [(B "uri", ORecvId (B "uri")); (B "arg0", OId (B "b"))]].
Proof. split; [left; reflexivity | split; reflexivity]. Qed.

(** What is guessed is the part of the path behind its last slash, or the
    alias. *)
Theorem C49_guessed_package_name : forall a b, ~ In "/"%char b ->
  file_packages [Import None (a ++ "/"%char :: b)] = [b] /\ file_packages [Import None b] = [b] /\
  forall al, file_packages [Import (Some al) b] = [al].
Proof.
  intros a b Hb.
  assert (existsb (Ascii.eqb "/") b = false) as Eb.
  { apply Bool.not_true_iff_false. intros H. apply existsb_exists in H. destruct H as (c & Hc & E). apply Ascii.eqb_eq in E. subst c. contradiction. }
  assert (forall a, existsb (Ascii.eqb "/") (a ++ "/"%char :: b) = true) as Ea.
  { intros a0. rewrite existsb_app. cbn [existsb]. rewrite Ascii.eqb_refl, Bool.orb_true_r. reflexivity. }
  assert (forall a, after_slash (a ++ "/"%char :: b) = b) as E.
  { induction a0 as [ | c a0 IH ].
    - cbn [app after_slash]. rewrite Eb, Ascii.eqb_refl. reflexivity.
    - cbn [app after_slash]. rewrite Ea. exact IH. }
  unfold file_packages, last_elem. cbn [map im_alias im_path]. rewrite Ea, E, Eb. auto.
Qed.
Print Assumptions C49_guessed_package_name.
Example C49_guessed_package_name_ex : ~ In "/"%char (B "html") /\ file_packages [Import None (B "x.org/net" ++ B "/html")] = [B "html"].
Proof. split; [ cbn; intuition discriminate | reflexivity ]. Qed.
