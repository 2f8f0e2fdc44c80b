(** Lemmas about the inserted statements and the names in them. *)
From Verif Require Import Base Maps PanicModel PointNameModel.

Section Names.
Context {U W : Type}.

(** The same runs (comparing the functions at lens/asttweak.go:470-500). *)
Definition feq (f g : fsem U W) : Prop := forall ctx u u' m rec s, f ctx u u' m rec s <-> g ctx u u' m rec s.

Lemma unwind_last : forall (ds : list (fsem U W)) f g s u u' m s', feq f g ->
  unwind (ds ++ [f]) s u u' m s' -> unwind (ds ++ [g]) s u u' m s'.
Proof.
  induction ds as [| d ds IH]; intros f g s u u' m s' E R.
  - cbn [app] in *. inversion R; subst. econstructor; [apply E; eassumption | assumption].
  - cbn [app] in *. inversion R; subst. econstructor; [eassumption | eapply IH; eassumption].
Qed.

Lemma func_defer : forall f g body, feq f g -> feq (func (defer_stmt f :: body)) (func (defer_stmt g :: body)).
Proof.
  assert (H : forall f g body, feq f g -> forall ctx u u' m rec s,
    func (defer_stmt f :: body) ctx u u' m rec s -> func (defer_stmt g :: body) ctx u u' m rec s).
  { intros f g body E ctx u u' m rec s (u1 & m1 & m2 & ds & c & X & Y & ->).
    inversion X; subst.
    - match goal with D : defer_stmt _ _ _ _ _ _ _ _ |- _ => destruct D as (-> & -> & -> & -> & _) end.
      exists u1, ([] ++ m'), m2, (ds' ++ [g]), c. repeat split.
      + econstructor; [| eassumption]. repeat split.
      + eapply unwind_last; eassumption.
    - match goal with D : defer_stmt _ _ _ _ _ _ _ _ |- _ => destruct D as (_ & _ & _ & _ & ->) end. congruence. }
  intros f g body E ctx u u' m rec s. split; apply H; [exact E |].
  intros ? ? ? ? ? ?. symmetry. apply E.
Qed.

Lemma exec_first : forall (a b : stmt U W) body, (forall ctx u u' m r ds c, a ctx u u' m r ds c <-> b ctx u u' m r ds c) ->
  feq (func (a :: body)) (func (b :: body)).
Proof.
  assert (H : forall (a b : stmt U W) body, (forall ctx u u' m r ds c, a ctx u u' m r ds c <-> b ctx u u' m r ds c) ->
    forall ctx u u' m rec s, func (a :: body) ctx u u' m rec s -> func (b :: body) ctx u u' m rec s).
  { intros a b body E ctx u u' m rec s (u1 & m1 & m2 & ds & c & X & Y & ->).
    exists u1, m1, m2, ds, c. repeat split; [| assumption].
    inversion X; subst; [eapply ex_next | eapply ex_stop]; try eassumption; apply E; assumption. }
  intros a b body E ctx u u' m rec s. split; apply H; [exact E |].
  intros. symmetry. apply E.
Qed.

(** As in [PointNameModel]: the comparison of lens/asttweak.go:479-483 with something called nil. *)
Variable differ : val W -> val W -> bool.

Lemma call_recover (pl : place U W) loc (ctx : option (pval W)) u u' m r o : resolve pl (B "recover") = Some EnRecover ->
  call (U := U) pl loc ctx (B "recover") [] u u' m r o <->
  u' = u /\ m = [] /\ r = (match ctx with Some _ => true | None => false end) /\
  o = inr (Some (VAny (match ctx with Some p => p | None => PNil end))).
Proof. intros E. unfold call. rewrite E. cbn [map]. reflexivity. Qed.

Lemma call_panic (pl : place U W) loc (ctx : option (pval W)) u u' m r o p : resolve pl (B "panic") = Some EnPanic -> mget (B "r") loc = Some (VAny p) ->
  call (U := U) pl loc ctx (B "panic") [XName (B "r")] u u' m r o <->
  u' = u /\ m = [] /\ r = false /\ o = inl (ST false (Some p)).
Proof. intros E F. unfold call. rewrite E. cbn [map operand]. rewrite F. reflexivity. Qed.

Lemma call_recovery (pl : place U W) loc (ctx : option (pval W)) u u' m r o p id : resolve pl (B "sendLensPointRecoveryMessage") = Some EnRecovery ->
  mget (B "r") loc = Some (VAny p) ->
  call (U := U) pl loc ctx (B "sendLensPointRecoveryMessage") [XInt id; XName (B "r")] u u' m r o <->
  u' = u /\ m = (match p with PNil => [] | PVal _ => [MPanic id p] end) /\ r = false /\ o = inr None.
Proof. intros E F. unfold call. rewrite E. cbn [map operand]. rewrite F. reflexivity. Qed.

Lemma call_point (pl : place U W) loc (ctx : option (pval W)) u u' m r o id : resolve pl (B "sendLensPointMessage") = Some EnPoint ->
  call (U := U) pl loc ctx (B "sendLensPointMessage") [XInt id] u u' m r o <->
  u' = u /\ m = [MPoint id] /\ r = false /\ o = inr None.
Proof. intros E. unfold call. rewrite E. cbn [map operand]. reflexivity. Qed.

Lemma truth_nil (pl : place U W) (v : val W) p x : resolve pl (B "nil") = Some EnNil -> x = B "r" -> v = VAny p ->
  truth (U := U) differ pl [(x, v)] (XNeq (XName (B "r")) (XName (B "nil"))) =
  Some (match p with PNil => false | PVal _ => true end).
Proof.
  intros E -> ->. unfold truth, operand.
  assert (A : mget (B "r") [(B "r", VAny p)] = Some (VAny p)) by (vm_compute; reflexivity).
  assert (A' : mget (B "nil") [(B "r", @VAny W p)] = None) by (vm_compute; reflexivity).
  rewrite A, A', E. destruct p; reflexivity.
Qed.

Lemma get_r (v : val W) : mget (B "r") [(B "r", v)] = Some v.
Proof. vm_compute. reflexivity. Qed.

Lemma panic_lit (pl : place U W) id : resolve (U := U) pl (B "recover") = Some EnRecover -> resolve pl (B "panic") = Some EnPanic ->
  resolve pl (B "nil") = Some EnNil -> resolve pl (B "sendLensPointRecoveryMessage") = Some EnRecovery ->
  feq (fun ctx u u' m rec s => run differ pl []
        [XIf (B "r") (XCall (B "recover") []) (XNeq (XName (B "r")) (XName (B "nil")))
          [XDo (XCall (B "sendLensPointRecoveryMessage") [XInt id; XName (B "r")]);
           XDo (XCall (B "panic") [XName (B "r")])]] ctx u u' m rec s)
      (run_code (LIfRecover [SSendRecovery id; SPanic])).
Proof.
  intros E1 E2 E3 E4 ctx u u' m rec s. split.
  - intros R. inversion R; subst;
      match goal with C : call _ _ _ _ _ _ _ _ _ _ |- _ =>
        apply (call_recover _ _ _ _ _ _ _ _ E1) in C; destruct C as (-> & -> & -> & C); try discriminate C;
        injection C as -> end;
      match goal with T : truth _ _ _ _ = _ |- _ => rewrite (truth_nil _ _ _ _ E3 eq_refl eq_refl) in T end.
    + (* no *)
      match goal with X : run _ _ _ [] _ _ _ _ _ _ |- _ => inversion X; subst end.
      unfold run_code. destruct ctx as [[| w] |]; try discriminate; repeat split.
    + (* left *)
      destruct ctx as [[| w] |]; try discriminate.
      match goal with X : run _ _ _ (_ :: _) _ _ _ _ _ _ |- _ => inversion X; subst; clear X end;
        match goal with C : call _ _ _ _ _ _ _ _ _ _ |- _ =>
          apply (call_recovery _ _ _ _ _ _ _ _ _ _ E4 (get_r _)) in C; destruct C as (-> & -> & -> & C); try discriminate C end.
      match goal with X : run _ _ _ (_ :: _) _ _ _ _ _ _ |- _ => inversion X; subst; clear X end;
        match goal with C : call _ _ _ _ _ _ _ _ _ _ |- _ =>
          apply (call_panic _ _ _ _ _ _ _ _ _ E2 (get_r _)) in C; destruct C as (-> & -> & -> & C2); try discriminate C2 end.
      injection C2 as ->. unfold run_code. repeat split.
    + (* done *)
      destruct ctx as [[| w] |]; try discriminate.
      match goal with X : run _ _ _ (XDo _ :: _) _ _ _ _ _ _ |- _ => inversion X; subst; clear X end;
        match goal with C : call _ _ _ _ _ _ _ _ _ _ |- _ =>
          apply (call_recovery _ _ _ _ _ _ _ _ _ _ E4 (get_r _)) in C; destruct C as (-> & -> & -> & C); try discriminate C end.
      match goal with X : run _ _ _ (XDo _ :: _) _ _ _ _ _ _ |- _ => inversion X; subst; clear X end;
        match goal with C : call _ _ _ _ _ _ _ _ _ _ |- _ =>
          apply (call_panic _ _ _ _ _ _ _ _ _ E2 (get_r _)) in C; destruct C as (-> & -> & -> & C2); try discriminate C2 end.
  - intros (-> & R). destruct ctx as [[| w] |]; cbn [run_simple] in R.
    + destruct R as (-> & -> & ->).
      change (@nil (msg W)) with (@nil (msg W) ++ []). change true with (true || false).
      eapply rn_if_no; [apply (call_recover _ _ _ _ _ _ _ _ E1); repeat split | apply (truth_nil _ _ PNil _ E3 eq_refl eq_refl) | constructor].
    + destruct R as (-> & R). injection R as -> ->.
      change [MPanic id (PVal w)] with (@nil (msg W) ++ [MPanic id (PVal w)] ++ []). change true with (true || (false || false)).
      eapply rn_if_left;
        [apply (call_recover _ _ _ _ _ _ _ _ E1); repeat split | apply (truth_nil _ _ (PVal w) _ E3 eq_refl eq_refl) | | discriminate].
      eapply rn_do; [apply (call_recovery _ _ _ _ _ _ _ _ (PVal w) _ E4 (get_r _)); repeat split |].
      eapply rn_do_stop. apply (call_panic _ _ _ _ _ _ _ _ (PVal w) E2 (get_r _)). repeat split.
    + destruct R as (-> & -> & ->).
      change (@nil (msg W)) with (@nil (msg W) ++ []). change false with (false || false).
      eapply rn_if_no; [apply (call_recover _ _ _ _ _ _ _ _ E1); repeat split | apply (truth_nil _ _ PNil _ E3 eq_refl eq_refl) | constructor].
Qed.

(** ** Finding the names *)
Lemma resolve_universe (pl : place U W) x (e : entity U W) : mget x (pl_own pl) = None -> mget x (pl_file pl) = None ->
  mget x (pl_pkg pl) = None -> mget x (@client_scope U W) = None -> mget x universe = Some e -> resolve pl x = Some e.
Proof.
  intros H1 H2 H3 H4 H5. unfold resolve. rewrite H1, H2.
  assert (H : mget x (client_scope ++ pl_pkg pl) = None).
  { revert H4. generalize (@client_scope U W). induction a as [| [k v] a IH]; intros H4; [exact H3 |].
    cbn [app mget] in *. destruct (beq x k); [discriminate | exact (IH H4)]. }
  rewrite H. exact H5.
Qed.
Lemma resolve_client (pl : place U W) x (e : entity U W) : mget x (pl_own pl) = None -> mget x (pl_file pl) = None ->
  mget x (@client_scope U W) = Some e -> resolve pl x = Some e.
Proof.
  intros H1 H2 H4. unfold resolve. rewrite H1, H2.
  assert (H : mget x (client_scope ++ pl_pkg pl) = Some e).
  { revert H4. generalize (@client_scope U W). induction a as [| [k v] a IH]; intros H4; [discriminate |].
    cbn [app mget] in *. destruct (beq x k); [exact H4 | exact (IH H4)]. }
  rewrite H. reflexivity.
Qed.
End Names.
