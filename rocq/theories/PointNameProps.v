(** C93: what the inserted statements of the points of a whole function do depends on the
    names in them meaning Go's recover, panic and nil and the functions of the client. *)
From Verif Require Import Base Maps PanicModel PanicProofs PanicProps PointNameModel PointNameProofs.

(** Nothing between the statement and the client, or Go, declares the name. *)
Definition undeclared {V} (x : bytes) (m : list (bytes * V)) : Prop := ~ In x (map fst m).

Lemma undeclared_get {V} x (m : list (bytes * V)) : undeclared x m -> mget x m = None.
Proof.
  induction m as [| [k v] m IH]; intros H; [reflexivity |]. cbn [mget]. destruct (beq x k) eqn:E.
  - exfalso. apply H. left. symmetry. apply beq_true. exact E.
  - apply IH. intros I0. apply H. right. exact I0.
Qed.

Lemma names_go U W (pl : place U W) x e :
  In x (map B ["recover"; "panic"; "nil"]%string) -> undeclared x (pl_own pl) -> undeclared x (pl_file pl) -> undeclared x (pl_pkg pl) ->
  mget x (@universe U W) = Some e -> resolve pl x = Some e.
Proof.
  intros H H1 H2 H3 E. apply resolve_universe; try (apply undeclared_get; assumption); [| exact E].
  destruct H as [<- | [<- | [<- | []]]]; vm_compute; reflexivity.
Qed.

(** The recovery: when the function, the file and the package declare neither recover, panic
    nor nil, and the function and the file no sendLensPointRecoveryMessage, the statement
    compiles, and the function does what it did: the same results, the same panic, and one
    message more, exactly when it is left by a panic. *)
Theorem C93_panic_point : forall U W (comparable : ty -> ty -> bool) differ (pl : place U W) id,
  comparable TyAny TyNil = true ->
  (forall x, In x (map B ["recover"; "panic"; "nil"]%string) ->
     undeclared x (pl_own pl) /\ undeclared x (pl_file pl) /\ undeclared x (pl_pkg pl)) ->
  undeclared (B "sendLensPointRecoveryMessage") (pl_own pl) -> undeclared (B "sendLensPointRecoveryMessage") (pl_file pl) ->
  compiles comparable pl [] (panic_code id) = true /\
  forall body, (forall ctx u u' m rec s, func body ctx u u' m rec s -> panicking s <> Some PNil) ->
  forall ctx u u' ms rec s,
  func (sem differ pl (panic_code id) :: body) ctx u u' ms rec s <->
  exists ms0, func body ctx u u' ms0 rec s /\
    ms = ms0 ++ match panicking s with Some v => [MPanic id v] | None => [] end.
Proof.
  intros U W cmp differ pl id HC HN H1 H2.
  assert (E1 : resolve pl (B "recover") = Some EnRecover).
  { destruct (HN (B "recover")) as (a & b & c); [left; reflexivity |]. apply names_go; try assumption; [left; reflexivity | vm_compute; reflexivity]. }
  assert (E2 : resolve pl (B "panic") = Some EnPanic).
  { destruct (HN (B "panic")) as (a & b & c); [right; left; reflexivity |].
    apply names_go; try assumption; [right; left; reflexivity | vm_compute; reflexivity]. }
  assert (E3 : resolve pl (B "nil") = Some EnNil).
  { destruct (HN (B "nil")) as (a & b & c); [right; right; left; reflexivity |].
    apply names_go; try assumption; [right; right; left; reflexivity | vm_compute; reflexivity]. }
  assert (E4 : resolve pl (B "sendLensPointRecoveryMessage") = Some EnRecovery).
  { apply resolve_client; try (apply undeclared_get; assumption). vm_compute. reflexivity. }
  split.
  - unfold panic_code. cbn [compiles forallb typed fold_right]. rewrite E1.
    replace (mget (B "recover") (@nil (bytes * ty))) with (@None ty) by reflexivity. cbn [typed].
    replace (mget (B "r") [(B "r", TyAny)]) with (Some TyAny) by (vm_compute; reflexivity).
    replace (mget (B "nil") [(B "r", TyAny)]) with (@None ty) by (vm_compute; reflexivity).
    rewrite E3, HC, E4, E2.
    replace (mget (B "sendLensPointRecoveryMessage") [(B "r", TyAny)]) with (@None ty) by (vm_compute; reflexivity).
    replace (mget (B "panic") [(B "r", TyAny)]) with (@None ty) by (vm_compute; reflexivity).
    reflexivity.
  - intros body NN ctx u u' ms rec s.
    rewrite <- (C66_panic_point U W body id ctx u u' ms rec s NN).
    unfold panic_point, panic_code, sem.
    apply PointNameProofs.func_defer. apply panic_lit; assumption.
Qed.
Print Assumptions C93_panic_point.

(** Entry: sendLensPointMessage only has to be free of declarations of the function and the file. *)
Theorem C93_entry_point : forall U W (comparable : ty -> ty -> bool) differ (pl : place U W) id,
  undeclared (B "sendLensPointMessage") (pl_own pl) -> undeclared (B "sendLensPointMessage") (pl_file pl) ->
  compiles comparable pl [] (entry_code id) = true /\
  forall body ctx u u' ms rec s,
  func (sem differ pl (entry_code id) :: body) ctx u u' ms rec s <->
  exists ms0, func body ctx u u' ms0 rec s /\ ms = MPoint id :: ms0.
Proof.
  intros U W cmp differ pl id H1 H2.
  assert (E : resolve pl (B "sendLensPointMessage") = Some EnPoint).
  { apply resolve_client; try (apply undeclared_get; assumption). vm_compute. reflexivity. }
  split.
  - unfold entry_code. cbn [compiles typed fold_right mget]. rewrite E. reflexivity.
  - intros body ctx u u' ms rec s. rewrite <- (C66_entry_point U W body id ctx u u' ms rec s).
    unfold entry_point, entry_code, sem. apply exec_first.
    intros ctx0 u0 u0' m r ds c. split.
    + intros (r0 & o & C & -> & -> & ->). apply (call_point _ _ _ _ _ _ _ _ _ E) in C. destruct C as (-> & -> & -> & ->).
      exists false, (ST false None). repeat split.
    + intros (r0 & s0 & (-> & -> & R) & -> & -> & ->). cbn [run_simple] in R. injection R as -> ->.
      exists false, (inr None). repeat split. apply (call_point _ _ _ _ _ _ _ _ _ E). repeat split.
Qed.
Print Assumptions C93_entry_point.

(** Finish. *)
Theorem C93_finish_point : forall U W (comparable : ty -> ty -> bool) differ (pl : place U W) id,
  undeclared (B "sendLensPointMessage") (pl_own pl) -> undeclared (B "sendLensPointMessage") (pl_file pl) ->
  compiles comparable pl [] (finish_code id) = true /\
  forall body ctx u u' ms rec s,
  func (sem differ pl (finish_code id) :: body) ctx u u' ms rec s <->
  exists ms0, func body ctx u u' ms0 rec s /\ ms = ms0 ++ [MPoint id].
Proof.
  intros U W cmp differ pl id H1 H2.
  assert (E : resolve pl (B "sendLensPointMessage") = Some EnPoint).
  { apply resolve_client; try (apply undeclared_get; assumption). vm_compute. reflexivity. }
  split.
  - unfold finish_code. cbn [compiles typed fold_right mget]. rewrite E. reflexivity.
  - intros body ctx u u' ms rec s. rewrite <- (C66_finish_point U W body id ctx u u' ms rec s).
    unfold finish_point, finish_code, sem. apply PointNameProofs.func_defer.
    intros ctx0 u0 u0' m r s0. split.
    + intros (r0 & o & C & -> & ->). apply (call_point _ _ _ _ _ _ _ _ _ E) in C. destruct C as (-> & -> & -> & ->). repeat split.
    + intros (-> & -> & R). cbn [run_simple] in R. injection R as -> ->.
      exists false, (inr None). repeat split. apply (call_point _ _ _ _ _ _ _ _ _ E). repeat split.
Qed.
Print Assumptions C93_finish_point.

(** The innermost declaration of a name. *)
Lemma own_resolves U W (pl : place U W) x e : mget x (pl_own pl) = Some e -> resolve pl x = Some e.
Proof. intros H. unfold resolve. rewrite H. reflexivity. Qed.

(** A parameter, result or receiver that is called like one of the functions, and is no function
    that takes what is passed, breaks the build. *)
Theorem C93_hidden_does_not_compile : forall U W (comparable : ty -> ty -> bool) (pl : place U W) x d,
  mget x (pl_own pl) = Some (EnUser d) -> (forall ts, us_fun d ts = None) ->
  (In x (map B ["recover"; "panic"; "sendLensPointRecoveryMessage"]%string) -> forall id, compiles comparable pl [] (panic_code id) = false) /\
  (x = B "sendLensPointMessage" -> forall id, compiles comparable pl [] (entry_code id) = false /\ compiles comparable pl [] (finish_code id) = false).
Proof.
  intros U W cmp pl x d HX HF. pose proof (own_resolves _ _ _ _ _ HX) as HR. split.
  - intros Hin id. unfold panic_code.
    destruct Hin as [<- | [<- | [<- | []]]].
    + cbn [compiles forallb typed fold_right mget]. rewrite HR, HF. reflexivity.
    + cbn [compiles forallb].
      destruct (typed cmp pl [] (XCall (B "recover") [])) as [[t |] |]; try reflexivity.
      destruct (typed cmp pl [(B "r", t)] (XNeq (XName (B "r")) (XName (B "nil")))) as [[[] |] |]; try reflexivity.
      assert (Z : typed cmp pl [(B "r", t)] (XCall (B "panic") [XName (B "r")]) = None).
      { cbn [typed fold_right]. rewrite HR.
        replace (mget (B "r") [(B "r", t)]) with (Some t) by (vm_compute; reflexivity).
        replace (mget (B "panic") [(B "r", t)]) with (@None ty) by (vm_compute; reflexivity). apply HF. }
      rewrite Z. cbn [andb]. rewrite !Bool.andb_false_r. reflexivity.
    + cbn [compiles forallb].
      destruct (typed cmp pl [] (XCall (B "recover") [])) as [[t |] |]; try reflexivity.
      destruct (typed cmp pl [(B "r", t)] (XNeq (XName (B "r")) (XName (B "nil")))) as [[[] |] |]; try reflexivity.
      assert (Z : typed cmp pl [(B "r", t)] (XCall (B "sendLensPointRecoveryMessage") [XInt id; XName (B "r")]) = None).
      { cbn [typed fold_right]. rewrite HR.
        replace (mget (B "r") [(B "r", t)]) with (Some t) by (vm_compute; reflexivity).
        replace (mget (B "sendLensPointRecoveryMessage") [(B "r", t)]) with (@None ty) by (vm_compute; reflexivity). apply HF. }
      rewrite Z. reflexivity.
  - intros -> id. unfold entry_code, finish_code. cbn [compiles typed fold_right mget]. rewrite HR, HF. split; reflexivity.
Qed.
Print Assumptions C93_hidden_does_not_compile.

(** So does something called nil that cannot be compared with an interface value, unless recover is
    hidden as well. *)
Theorem C93_hidden_nil_does_not_compile : forall U W (comparable : ty -> ty -> bool) (pl : place U W) d id,
  mget (B "nil") (pl_own pl) = Some (EnUser d) ->
  (forall t v, us_val d = Some (t, v) -> comparable TyAny t = false) ->
  undeclared (B "recover") (pl_own pl) -> undeclared (B "recover") (pl_file pl) -> undeclared (B "recover") (pl_pkg pl) ->
  compiles comparable pl [] (panic_code id) = false.
Proof.
  intros U W cmp pl d id HX HC H1 H2 H3. pose proof (own_resolves _ _ _ _ _ HX) as HR.
  assert (E1 : resolve pl (B "recover") = Some EnRecover).
  { apply names_go; try assumption; [left; reflexivity | vm_compute; reflexivity]. }
  unfold panic_code. cbn [compiles forallb typed fold_right]. rewrite E1.
  replace (mget (B "recover") (@nil (bytes * ty))) with (@None ty) by reflexivity. cbn [typed].
  replace (mget (B "r") [(B "r", TyAny)]) with (Some TyAny) by (vm_compute; reflexivity).
  replace (mget (B "nil") [(B "r", TyAny)]) with (@None ty) by (vm_compute; reflexivity).
  rewrite HR. destruct (us_val d) as [[t v] |] eqn:EV; [| reflexivity].
  rewrite (HC t v eq_refl). reflexivity.
Qed.
Print Assumptions C93_hidden_nil_does_not_compile.

(** ** Hidden by something that fits *)
(** A parameter [recover func() interface{}] that answers 7. *)
Definition own_recover : user unit nat :=
  User None (fun ts => match ts with [] => Some (Some TyAny) | _ => None end)
    (fun vs u u' m o => vs = [] /\ u' = u /\ m = [] /\ o = inr (Some (VAny (PVal 7%nat)))).
(** A parameter [panic func(interface{})] that does nothing. *)
Definition own_panic : user unit nat :=
  User None (fun ts => match ts with [_] => Some None | _ => None end)
    (fun vs u u' m o => u' = u /\ m = [] /\ o = inr None).
(** Comparing interface values and nil; [TyUser] is taken as nothing comparable. *)
Definition cmp1 (s t : ty) : bool := match s, t with TyAny, TyAny | TyAny, TyNil => true | _, _ => false end.
Definition pl_recover : place unit nat := Place [(B "recover", EnUser own_recover)] [] [].
Definition pl_panic : place unit nat := Place [(B "panic", EnUser own_panic)] [] [].
(** A function that returns, and one that panics with 5. *)
Definition returns : list (stmt unit nat) := [].
Definition panics : list (stmt unit nat) :=
  [fun _ u u' m rec ds c => u' = u /\ m = [] /\ rec = false /\ ds = [] /\ c = CAbrupt (ST false (Some (PVal 5%nat)))].

Lemma returns_run ctx u u' m rec s : func returns ctx u u' m rec s <-> u' = u /\ m = [] /\ rec = false /\ s = ST false None.
Proof.
  split.
  - intros (u1 & m1 & m2 & ds & c & X & Y & ->). inversion X; subst. inversion Y; subst. repeat split.
  - intros (-> & -> & -> & ->). exists u, [], [], [], CNext. repeat split; constructor.
Qed.
Lemma panics_run ctx u u' m rec s : func panics ctx u u' m rec s <-> u' = u /\ m = [] /\ rec = false /\ s = ST false (Some (PVal 5%nat)).
Proof.
  split.
  - intros (u1 & m1 & m2 & ds & c & X & Y & ->). inversion X as [| ? ? ? ? ? ? ? ? ? ? ? ? ? Hs |? ? ? ? ? ? ? ? ? Hs]; subst.
    + destruct Hs as (_ & _ & _ & _ & E). discriminate.
    + destruct Hs as (-> & -> & -> & -> & ->). inversion Y; subst. repeat split.
  - intros (-> & -> & -> & ->). exists u, [], [], [], (CAbrupt (ST false (Some (PVal 5%nat)))). repeat split; [| constructor].
    apply ex_stop; [repeat split | discriminate].
Qed.

Lemma literal_of_recover (pl : place unit nat) differ id ctx u u' m rec s :
  resolve pl (B "recover") = Some (EnUser own_recover) -> resolve pl (B "panic") = Some EnPanic ->
  resolve pl (B "nil") = Some EnNil -> resolve pl (B "sendLensPointRecoveryMessage") = Some EnRecovery ->
  run differ pl [] [XIf (B "r") (XCall (B "recover") []) (XNeq (XName (B "r")) (XName (B "nil")))
          [XDo (XCall (B "sendLensPointRecoveryMessage") [XInt id; XName (B "r")]);
           XDo (XCall (B "panic") [XName (B "r")])]] ctx u u' m rec s <->
  u' = u /\ m = [MPanic id (PVal 7%nat)] /\ rec = false /\ s = ST false (Some (PVal 7%nat)).
Proof.
  intros E1 E2 E3 E4.
  assert (CR : forall loc ctx u u' m r o, call pl loc ctx (B "recover") [] u u' m r o <->
    u' = u /\ m = [] /\ r = false /\ o = inr (Some (VAny (PVal 7%nat)))).
  { intros loc c v v' k r o. unfold call. rewrite E1. cbn [map]. split.
    - intros (l & _ & (_ & -> & -> & ->) & ->). repeat split.
    - intros (-> & -> & -> & ->). exists []. repeat split. }
  split.
  - intros R. inversion R; subst;
      match goal with C : call _ _ _ _ _ _ _ _ _ _ |- _ =>
        apply CR in C; destruct C as (-> & -> & -> & C); try discriminate C; injection C as -> end;
      match goal with T : truth _ _ _ _ = _ |- _ => rewrite (truth_nil differ _ _ _ _ E3 eq_refl eq_refl) in T; try discriminate T end;
      match goal with X : run _ _ _ (XDo _ :: _) _ _ _ _ _ _ |- _ => inversion X; subst; clear X end;
        match goal with C : call _ _ _ _ _ _ _ _ _ _ |- _ =>
          apply (call_recovery _ _ _ _ _ _ _ _ _ _ E4 (get_r _)) in C; destruct C as (-> & -> & -> & C); try discriminate C end;
      match goal with X : run _ _ _ (XDo _ :: _) _ _ _ _ _ _ |- _ => inversion X; subst; clear X end;
        match goal with C : call _ _ _ _ _ _ _ _ _ _ |- _ =>
          apply (call_panic _ _ _ _ _ _ _ _ _ E2 (get_r _)) in C; destruct C as (-> & -> & -> & C2); try discriminate C2 end.
    injection C2 as ->. repeat split.
  - intros (-> & -> & -> & ->).
    eapply rn_if_left with (m := []) (m' := [MPanic id (PVal 7%nat)] ++ []) (r := false) (r' := false || false); [apply CR; repeat split | apply (truth_nil differ _ _ (PVal 7%nat) _ E3 eq_refl eq_refl) | | discriminate].
    eapply rn_do; [apply (call_recovery _ _ _ _ _ _ _ _ (PVal 7%nat) _ E4 (get_r _)); repeat split |].
    eapply rn_do_stop. apply (call_panic _ _ _ _ _ _ _ _ (PVal 7%nat) E2 (get_r _)). repeat split.
Qed.

(** In a function with a parameter recover that may be called without arguments, the code compiles
    and calls the parameter whenever the function is left: one that always returns panics instead
    in every run. *)
Theorem C93_hidden_recover_refuted : exists (pl : place unit nat) (body : list (stmt unit nat)),
  (forall id, compiles cmp1 pl [] (panic_code id) = true) /\
  (forall ctx u u' m rec s, func body ctx u u' m rec s <-> u' = u /\ m = [] /\ rec = false /\ s = ST false None) /\
  forall differ id ctx u u' m rec s, func (sem differ pl (panic_code id) :: body) ctx u u' m rec s <->
    u' = u /\ m = [MPanic id (PVal 7%nat)] /\ rec = false /\ s = ST false (Some (PVal 7%nat)).
Proof.
  exists pl_recover, returns. split; [intros id; vm_compute; reflexivity |]. split; [exact returns_run |].
  assert (E1 : resolve pl_recover (B "recover") = Some (EnUser own_recover)) by (apply own_resolves; vm_compute; reflexivity).
  assert (E2 : resolve pl_recover (B "panic") = Some EnPanic) by (vm_compute; reflexivity).
  assert (E3 : resolve pl_recover (B "nil") = Some EnNil) by (vm_compute; reflexivity).
  assert (E4 : resolve pl_recover (B "sendLensPointRecoveryMessage") = Some EnRecovery) by (vm_compute; reflexivity).
  intros differ id ctx u u' m rec s. unfold panic_code, sem. rewrite PanicProofs.func_defer. split.
  - intros (u1 & m1 & s1 & m2 & r & sd & Hf & Hd & -> & ->).
    apply returns_run in Hf. destruct Hf as (-> & -> & -> & ->).
    apply literal_of_recover in Hd; try assumption. destruct Hd as (-> & -> & -> & ->). repeat split.
  - intros (-> & -> & -> & ->). exists u, [], (ST false None), [MPanic id (PVal 7%nat)], false, (ST false (Some (PVal 7%nat))).
    repeat split; [apply returns_run; repeat split | apply literal_of_recover; try assumption; repeat split].
Qed.
Print Assumptions C93_hidden_recover_refuted.

Lemma literal_of_panic (pl : place unit nat) differ id u u' m rec s :
  resolve pl (B "recover") = Some EnRecover -> resolve pl (B "panic") = Some (EnUser own_panic) ->
  resolve pl (B "nil") = Some EnNil -> resolve pl (B "sendLensPointRecoveryMessage") = Some EnRecovery ->
  run differ pl [] [XIf (B "r") (XCall (B "recover") []) (XNeq (XName (B "r")) (XName (B "nil")))
          [XDo (XCall (B "sendLensPointRecoveryMessage") [XInt id; XName (B "r")]);
           XDo (XCall (B "panic") [XName (B "r")])]] (Some (PVal 5%nat)) u u' m rec s <->
  u' = u /\ m = [MPanic id (PVal 5%nat)] /\ rec = true /\ s = ST false None.
Proof.
  intros E1 E2 E3 E4.
  assert (CP : forall v ctx u u' m r o, call pl [(B "r", v)] ctx (B "panic") [XName (B "r")] u u' m r o <->
    u' = u /\ m = [] /\ r = false /\ o = inr None).
  { intros v c w w' k r o. unfold call. rewrite E2. cbn [map operand]. rewrite get_r. split.
    - intros (l & _ & (-> & -> & ->) & ->). repeat split.
    - intros (-> & -> & -> & ->). exists [v]. repeat split. }
  split.
  - intros Hd. inversion Hd; subst;
      match goal with C : call _ _ _ _ _ _ _ _ _ _ |- _ =>
        apply (call_recover _ _ _ _ _ _ _ _ E1) in C; destruct C as (-> & -> & -> & C); try discriminate C; injection C as -> end;
      match goal with T : truth _ _ _ _ = _ |- _ => rewrite (truth_nil differ _ _ _ _ E3 eq_refl eq_refl) in T; try discriminate T end;
      match goal with X : run _ _ _ (XDo _ :: _) _ _ _ _ _ _ |- _ => inversion X; subst; clear X end;
        match goal with C : call _ _ _ _ _ _ _ _ _ _ |- _ =>
          apply (call_recovery _ _ _ _ _ _ _ _ _ _ E4 (get_r _)) in C; destruct C as (-> & -> & -> & C); try discriminate C end;
      match goal with X : run _ _ _ (XDo _ :: _) _ _ _ _ _ _ |- _ => inversion X; subst; clear X end;
        match goal with C : call _ _ _ _ _ _ _ _ _ _ |- _ =>
          apply CP in C; destruct C as (-> & -> & -> & C2); try discriminate C2 end;
      repeat match goal with X : run _ _ _ [] _ _ _ _ _ _ |- _ => inversion X; subst; clear X end.
    + exfalso. congruence.
    + repeat split.
  - intros (-> & -> & -> & ->).
    eapply rn_if_done with (m := []) (m' := [MPanic id (PVal 5%nat)] ++ [] ++ []) (m'' := []) (r := true) (r' := false || (false || false)) (r'' := false); [apply (call_recover _ _ _ _ _ _ _ _ E1); repeat split | apply (truth_nil differ _ _ (PVal 5%nat) _ E3 eq_refl eq_refl) | | constructor].
    eapply rn_do; [apply (call_recovery _ _ _ _ _ _ _ _ (PVal 5%nat) _ E4 (get_r _)); repeat split |].
    eapply rn_do; [apply CP; repeat split | constructor].
Qed.

(** In a function with a parameter panic that takes any value, the panic is reported and then lost:
    one that always panics returns in every run. *)
Theorem C93_hidden_panic_refuted : exists (pl : place unit nat) (body : list (stmt unit nat)),
  (forall id, compiles cmp1 pl [] (panic_code id) = true) /\
  (forall ctx u u' m rec s, func body ctx u u' m rec s <-> u' = u /\ m = [] /\ rec = false /\ s = ST false (Some (PVal 5%nat))) /\
  forall differ id ctx u u' m rec s, func (sem differ pl (panic_code id) :: body) ctx u u' m rec s <->
    u' = u /\ m = [MPanic id (PVal 5%nat)] /\ rec = false /\ s = ST false None.
Proof.
  exists pl_panic, panics. split; [intros id; vm_compute; reflexivity |]. split; [exact panics_run |].
  assert (E1 : resolve pl_panic (B "recover") = Some EnRecover) by (vm_compute; reflexivity).
  assert (E2 : resolve pl_panic (B "panic") = Some (EnUser own_panic)) by (apply own_resolves; vm_compute; reflexivity).
  assert (E3 : resolve pl_panic (B "nil") = Some EnNil) by (vm_compute; reflexivity).
  assert (E4 : resolve pl_panic (B "sendLensPointRecoveryMessage") = Some EnRecovery) by (vm_compute; reflexivity).
  intros differ id ctx u u' m rec s. unfold panic_code, sem. rewrite PanicProofs.func_defer. split.
  - intros (u1 & m1 & s1 & m2 & r & sd & Hf & Hd & -> & ->).
    apply panics_run in Hf. destruct Hf as (-> & -> & -> & ->). cbn [panicking] in Hd.
    apply literal_of_panic in Hd; try assumption. destruct Hd as (-> & -> & -> & ->). repeat split.
  - intros (-> & -> & -> & ->).
    exists u, [], (ST false (Some (PVal 5%nat))), [MPanic id (PVal 5%nat)], true, (ST false None).
    repeat split; [apply panics_run; repeat split | apply literal_of_panic; try assumption; repeat split].
Qed.
Print Assumptions C93_hidden_panic_refuted.

(** ** Examples *)
(** A parameter called r, a package called errors, and a package level function called send are in
    nobody's way; the code is not empty. *)
Definition user0 : user unit nat := User (Some (TyUser 1, VInt 0)) (fun _ => None) (fun _ _ _ _ _ => False).
Definition pl_plain : place unit nat :=
  Place [(B "r", EnUser user0)] [(B "errors", EnUser user0)] [(B "send", EnUser user0)].
Example C93_example :
  (forall differ id ctx u u' ms rec s,
    func (sem differ pl_plain (panic_code id) :: panics) ctx u u' ms rec s <->
    u' = u /\ ms = [MPanic id (PVal 5%nat)] /\ rec = false /\ s = ST false (Some (PVal 5%nat))) /\
  compiles cmp1 pl_plain [] (panic_code 3) = true.
Proof.
  assert (NN : forall ctx u u' m rec s, func panics ctx u u' m rec s -> panicking s <> Some PNil).
  { intros ctx u u' m rec s H. apply panics_run in H. destruct H as (_ & _ & _ & ->). discriminate. }
  assert (HN : forall x, In x (map B ["recover"; "panic"; "nil"]%string) ->
     undeclared x (pl_own pl_plain) /\ undeclared x (pl_file pl_plain) /\ undeclared x (pl_pkg pl_plain)).
  { intros x [<- | [<- | [<- | []]]]; repeat split; intros [E | []]; discriminate E. }
  split.
  - intros differ id ctx u u' ms rec s.
    destruct (C93_panic_point unit nat cmp1 differ pl_plain id eq_refl HN) as [_ T]; try (intros [E | []]; discriminate E).
    rewrite (T panics NN ctx u u' ms rec s). split.
    + intros (ms0 & H & ->). apply panics_run in H. destruct H as (-> & -> & -> & ->). repeat split.
    + intros (-> & -> & -> & ->). exists []. split; [apply panics_run; repeat split | reflexivity].
  - vm_compute. reflexivity.
Qed.
Example C93_example_hidden :
  compiles cmp1 (Place [(B "recover", EnUser user0)] [] []) [] (panic_code 3) = false /\
  compiles cmp1 (Place [(B "panic", EnUser user0)] [] []) [] (panic_code 3) = false /\
  compiles cmp1 (Place [(B "nil", EnUser user0)] [] []) [] (panic_code 3) = false /\
  compiles cmp1 (Place [] [] [(B "nil", EnUser user0)]) [] (panic_code 3) = false /\
  compiles cmp1 (Place [(B "sendLensPointMessage", EnUser user0)] [] []) [] (entry_code 3) = false /\
  compiles cmp1 pl_plain [] (entry_code 3) = true /\ compiles cmp1 pl_plain [] (finish_code 3) = true.
Proof. vm_compute. repeat split. Qed.
