(** Proofs about the return instrumentation (C48). *)

From Coq Require FinFun.
From Verif Require Import Base InstrModel InstrSpec.

Ltac inv H := inversion H; subst; clear H.
(* invert the run of a given statement or list *)
Ltac xi s := match goal with X : @exec _ _ _ _ _ _ s _ _ _ _ _ |- _ => inv X | X : @execs _ _ _ _ _ s _ _ _ _ |- _ => inv X end.

(** ** Names *)

Lemma has_prefix_split p q x : has_prefix (p ++ q) x = true -> has_prefix p x = true.
Proof.
  intros H; apply has_prefix_spec in H; destruct H as [r ->].
  rewrite <- app_assoc; apply has_prefix_app.
Qed.

Lemma reserved_app q r : reserved (B "lenSynthetic" ++ q ++ r) = true.
Proof. apply has_prefix_app. Qed.

Lemma p_ret_eq : p_ret = B "lenSynthetic" ++ B "Ret". Proof. reflexivity. Qed.
Lemma p_rec_eq : p_rec = B "lenSynthetic" ++ B "Rec". Proof. reflexivity. Qed.
Lemma p_arg_eq : p_arg = B "lenSynthetic" ++ B "Arg". Proof. reflexivity. Qed.
Lemma p_recv_eq : p_recv = B "lenSynthetic" ++ B "Recv". Proof. reflexivity. Qed.
Lemma p_tmp_eq : p_tmp = B "lenSynthetic" ++ B "Tmp". Proof. reflexivity. Qed.

Lemma shown_plain x : reserved x = false -> shown x = x.
Proof.
  intros H. unfold shown.
  assert (K : forall q, has_prefix (B "lenSynthetic" ++ q) x = false).
  { intros q; destruct (has_prefix (B "lenSynthetic" ++ q) x) eqn:E; [|reflexivity].
    apply has_prefix_split in E; unfold reserved in H; congruence. }
  rewrite p_ret_eq, p_rec_eq, p_arg_eq, p_recv_eq, !K; reflexivity.
Qed.

Lemma skipn_app_len {A} (p r : list A) : skipn (length p) (p ++ r) = r.
Proof. induction p; cbn; auto. Qed.

Lemma shown_ret r : shown (p_ret ++ r) = B "ret" ++ r.
Proof. unfold shown. rewrite has_prefix_app, skipn_app_len; reflexivity. Qed.

Lemma shown_rec r : shown (p_rec ++ r) = B "rec" ++ r.
Proof.
  unfold shown. replace (has_prefix p_ret (p_rec ++ r)) with false by reflexivity.
  rewrite has_prefix_app, skipn_app_len; reflexivity.
Qed.

Lemma num_inj i j : num i = num j -> i = j.
Proof. intros H; apply itoa_inj in H; lia. Qed.

Section P.
Variable Op : Type.
Variable W : world Op.
Variable F : func.
Variable I : info Op.
Notation V := (Val W).
Notation U := (UState W).
Notation temps := (list (bytes * V)).
Notation ev := (event Op W).
Notation Dc := (code_order I).

Lemma ret_name_reserved (e : expr Op) i : reserved (ret_name F e i) = true.
Proof. unfold ret_name; destruct (recursive F e); [rewrite p_rec_eq|rewrite p_ret_eq]; rewrite <- app_assoc; apply reserved_app. Qed.
Lemma tmp_name_reserved i : reserved (tmp_name i) = true.
Proof. unfold tmp_name; rewrite p_tmp_eq, <- app_assoc; apply reserved_app. Qed.

Lemma ret_name_inj (e e' : expr Op) i j : ret_name F e i = ret_name F e' j -> i = j.
Proof.
  unfold ret_name; destruct (recursive F e), (recursive F e'); intros H;
    try (apply app_inv_head in H; apply num_inj; exact H); cbn in H; congruence.
Qed.
Lemma ret_tmp (e : expr Op) i j : ret_name F e i <> tmp_name j.
Proof. unfold ret_name, tmp_name; destruct (recursive F e); cbn; congruence. Qed.

Lemma shown_ret_name (e : expr Op) i :
  shown (ret_name F e i) = (if recursive F e then B "rec" else B "ret") ++ num i.
Proof. unfold ret_name; destruct (recursive F e); [apply shown_rec | apply shown_ret]. Qed.

(** ** Reading past the added variables *)

Definition own_names (T : temps) : Prop := forall x v, In (x, v) T -> reserved x = true.

Lemma tlookup_none T x : own_names T -> reserved x = false -> tlookup T x = None.
Proof.
  induction T as [|[y v] T IH]; intros HT Hx; cbn; [reflexivity|].
  destruct (beq_spec x y) as [->|N].
  - specialize (HT y v (or_introl eq_refl)); congruence.
  - apply IH; [intros z w Hz; eapply HT; right; exact Hz | exact Hx].
Qed.

Lemma look_plain T k u x : own_names T -> reserved x = false -> look T k u x = w_rd W k u x.
Proof. intros HT Hx; unfold look; rewrite tlookup_none; auto. Qed.

Lemma captured_plain T o : own_names T -> (forall x, In x (w_ids W o) -> reserved x = false) -> captured T o = false.
Proof.
  intros HT Ho. unfold captured.
  destruct (existsb _ _) eqn:E; [|reflexivity].
  apply existsb_exists in E; destruct E as (x & Hx & E).
  apply existsb_exists in E; destruct E as (y & Hy & E). apply beq_true in E; subst y.
  apply in_map_iff in Hy; destruct Hy as ([z v] & Ez & Hz); cbn in Ez; subst z.
  specialize (Ho _ Hx). specialize (HT _ _ Hz). congruence.
Qed.

Lemma captured_nil o : @captured Op W [] o = false.
Proof. unfold captured. induction (w_ids W o); cbn; auto. Qed.

Lemma doop_plain T o u t u' r : own_names T -> (forall x, In x (w_ids W o) -> reserved x = false) ->
  doop T o u t u' r <-> @doop Op W [] o u t u' r.
Proof. intros HT Ho; unfold doop. rewrite captured_plain, captured_nil by assumption. reflexivity. Qed.

(** ** Straight-line code *)

Inductive runs D : temps -> list (stmt Op) -> U -> list ev -> U -> temps -> Prop :=
| RNil T u : runs D T [] u [] u T
| RCons T s b u t1 u1 T1 t2 u' T' : @exec Op W F D T None s u t1 u1 T1 ONormal -> runs D T1 b u1 t2 u' T' ->
    runs D T (s :: b) u (t1 ++ t2) u' T'.

Lemma runs_execs D T a b u t1 u1 T1 t2 u' o :
  runs D T a u t1 u1 T1 -> @execs Op W F D T1 b u1 t2 u' o -> @execs Op W F D T (a ++ b) u (t1 ++ t2) u' o.
Proof.
  induction 1; intros Hb; cbn; [exact Hb|].
  rewrite <- app_assoc. eapply XsCons; eauto.
Qed.

Lemma execs_split D T a b u t u' o : @execs Op W F D T (a ++ b) u t u' o ->
  (exists t1 u1 T1 t2, runs D T a u t1 u1 T1 /\ @execs Op W F D T1 b u1 t2 u' o /\ t = t1 ++ t2) \/
  (@execs Op W F D T a u t u' o /\ o <> ONormal).
Proof.
  revert T u t. induction a as [|s a IH]; cbn; intros T u t H.
  - left. exists [], u, T, t. repeat split; [constructor | exact H].
  - inversion H; subst.
    + destruct (IH _ _ _ H8) as [(t1' & u1' & T1' & t2' & R & E & ->)|[E Ho]].
      * left. exists (t1 ++ t1'), u1', T1', t2'. rewrite app_assoc. repeat split; auto. econstructor; eauto.
      * right. split; auto. eapply XsCons; eauto.
    + right; split; auto. eapply XsStop; eauto.
Qed.

Lemma execs_stop_app D T a b u t u' o : @execs Op W F D T a u t u' o -> o <> ONormal -> @execs Op W F D T (a ++ b) u t u' o.
Proof.
  revert T u t. induction a as [|s a IH]; cbn; intros T u t H Ho; inversion H; subst; [congruence| |].
  - eapply XsCons; eauto.
  - eapply XsStop; eauto.
Qed.

Lemma runs_app D T a b u t u' T' : runs D T (a ++ b) u t u' T' <->
  exists t1 u1 T1 t2, runs D T a u t1 u1 T1 /\ runs D T1 b u1 t2 u' T' /\ t = t1 ++ t2.
Proof.
  split.
  - revert T u t; induction a as [|s a IH]; cbn; intros T u t H.
    + exists [], u, T, t; repeat split; [constructor|exact H].
    + inversion H; subst. destruct (IH _ _ _ H8) as (t1' & u1' & T1' & t2' & R1 & R2 & ->).
      exists (t1 ++ t1'), u1', T1', t2'; rewrite app_assoc; repeat split; auto. econstructor; eauto.
  - intros (t1 & u1 & T1 & t2 & R1 & R2 & ->). revert R2.
    induction R1; intros R2; cbn; auto. rewrite <- app_assoc. econstructor; eauto.
Qed.

Lemma runs_exec1 D T s u t u' T' : runs D T [s] u t u' T' <-> @exec Op W F D T None s u t u' T' ONormal.
Proof.
  split; intros H.
  - inversion H; subst. inversion H8; subst. rewrite app_nil_r; assumption.
  - rewrite <- (app_nil_r t). econstructor; eauto. constructor.
Qed.

(** ** One result *)

Definition plain_e (e : expr Op) : Prop := forall x, In x (uses W e) -> reserved x = false.

Inductive item (k i : nat) : expr Op -> U -> list ev -> U -> V + option V -> Prop :=
| ItLate x u : i_need I i (EId x) = false -> item k i (EId x) u [] u (inr None)
| ItNow x u : i_need I i (EId x) = true -> item k i (EId x) u [] u (inr (Some (w_rd W k u x)))
| ItOp e o u t u' v : op_of e = Some o -> doop [] o u t u' (RVals [v]) -> item k i e u t u' (inr (Some v))
| ItPanic e o u t u' p : op_of e = Some o -> doop [] o u t u' (RPanic p) -> item k i e u t u' (inl p).

Definition is_nil (e : expr Op) : bool := match e with EId x => beq x (B "nil") | _ => false end.
Definition is_lit (e : expr Op) : bool := match e with ELit _ => true | _ => false end.

Definition bnd (i : nat) (e : expr Op) (v : V) : temps :=
  let r := ret_name F e i in
  if is_nil e || (is_lit e && negb (i_need I i e)) then [(r, w_conv W i v)]
  else if shadow F I i e then [(r, v); (tmp_name i, v)]
  else [(r, w_conv W i (w_conv W i v)); (tmp_name i, w_conv W i v)].

Definition obnd i e (ov : option V) : temps := match ov with Some v => bnd i e v | None => [] end.

Lemma bnd_own i e v : own_names (bnd i e v).
Proof.
  intros x w H. unfold bnd in H.
  destruct (is_nil e || _); [|destruct (shadow F I i e)]; cbn in H;
    repeat destruct H as [H|H]; try contradiction; injection H as <- <-;
    first [apply ret_name_reserved | apply tmp_name_reserved].
Qed.

Lemma own_app a b : own_names a -> own_names b -> own_names (a ++ b).
Proof. intros Ha Hb x v H; apply in_app_iff in H; destruct H; eauto. Qed.

Lemma obnd_own i e ov : own_names (obnd i e ov).
Proof. destruct ov; [apply bnd_own | intros x v []]. Qed.

(* evaluating one expression under added variables *)
Lemma eval1_plain T k i e u t u' r : own_names T -> plain_e e ->
  eval1 T k e u t u' r <->
  match r with
  | inr v => (exists x, e = EId x /\ t = [] /\ u' = u /\ v = w_rd W k u x) \/
             (exists o, op_of e = Some o /\ doop [] o u t u' (RVals [v]))
  | inl p => item k i e u t u' (inl p)
  end.
Proof.
  intros HT He. split.
  - intros H; inversion H; subst.
    + left. exists x; repeat split. apply look_plain; auto. apply He; cbn; auto.
    + right. exists o; split; auto. apply doop_plain in H1; auto.
      intros y Hy; apply He; destruct e; cbn in *; congruence.
    + eapply ItPanic; eauto. apply doop_plain in H1; auto.
      intros y Hy; apply He; destruct e; cbn in *; congruence.
  - destruct r as [p|v].
    + intros H; inversion H; subst. eapply E1Panic; eauto. apply doop_plain; auto.
      intros y Hy; apply He; destruct e; cbn in *; congruence.
    + intros [(x & -> & -> & -> & ->)|(o & Ho & H)].
      * rewrite <- (look_plain T) by (auto; apply He; cbn; auto). constructor.
      * eapply E1Op; eauto. apply doop_plain; auto.
        intros y Hy; apply He; destruct e; cbn in *; congruence.
Qed.

Lemma op_of_id (e : expr Op) o : op_of e = Some o -> exists c, e = ELit o \/ e = ECall c o \/ e = EOther o.
Proof. destruct e; cbn; intros H; inversion H; subst; eexists; eauto. Unshelve. all: exact []. Qed.

(* [need]: the code decided for a temporary, or the expression is an operation *)
Definition temped i (e : expr Op) : bool := match e with EId _ => i_need I i e | _ => true end.

(* executing a temporary declaration followed by its copy *)
Lemma pair_runs D T k i ty e u t u' T' r : 
  runs D T [STemp k (tmp_name i) ty e; STemp k r ty (EId (tmp_name i))] u t u' T' <->
  exists v, eval1 T k e u t u' (inr v) /\ T' = (r, opt_ty ty (opt_ty ty v)) :: (tmp_name i, opt_ty ty v) :: T.
Proof.
  split.
  - intros H. inversion H as [|? ? ? ? t1 u1 T1 t2 ? ? X R]; subst. inversion X as [| | | | | | | | | | | | | | | | | |? ? ? ? ? ? ? ? ? v Ev| | | |]; subst.
    apply runs_exec1 in R. inversion R as [| | | | | | | | | | | | | | | | | |? ? ? ? ? ? ? ? ? v' Ev'| | | |]; subst.
    inversion Ev' as [|? ? ? ? ? ? Eo|]; subst; [|cbn in Eo; discriminate].
    exists v. rewrite app_nil_r. split; auto. unfold look; cbn [tlookup]. rewrite beq_refl. reflexivity.
  - intros (v & Hv & ->). rewrite <- (app_nil_r t). econstructor.
    + apply XTemp; eauto.
    + apply runs_exec1.
      replace (opt_ty ty (opt_ty ty v)) with (opt_ty ty (look ((tmp_name i, opt_ty ty v) :: T) k u' (tmp_name i))).
      * apply XTemp. constructor.
      * unfold look; cbn [tlookup]; rewrite beq_refl; reflexivity.
Qed.

Lemma single_runs D T k r ty e u t u' T' :
  runs D T [STemp k r ty e] u t u' T' <-> exists v, eval1 T k e u t u' (inr v) /\ T' = (r, opt_ty ty v) :: T.
Proof.
  rewrite runs_exec1. split.
  - intros H; inversion H; subst. eexists; split; eauto.
  - intros (v & Hv & ->). apply XTemp; auto.
Qed.

Lemma one_runs D T k i e seen u t u' T' : own_names T -> plain_e e ->
  runs D T (fst (fst (fst (one_result F I k i e seen)))) u t u' T' <->
  exists ov, item k i e u t u' (inr ov) /\ T' = obnd i e ov ++ T.
Proof.
  intros HT He.
  assert (M : forall u t u' T', (exists v, eval1 T k e u t u' (inr v) /\ temped i e = true /\ T' = bnd i e v ++ T) <->
     (exists ov, item k i e u t u' (inr ov) /\ temped i e = true /\ T' = obnd i e ov ++ T)).
  { clear u t u' T'; intros u t u' T'; split.
    - intros (v & Hv & Ht & ->). apply (eval1_plain T k i) in Hv; auto.
      exists (Some v). split; [|auto].
      destruct Hv as [(x & -> & -> & -> & ->)|(o & Ho & H)].
      + apply ItNow. exact Ht.
      + eapply ItOp; eauto.
    - intros (ov & Hi & Ht & ->). inversion Hi; subst.
      + cbn in Ht; congruence.
      + exists (w_rd W k u' x). split; [|auto]. apply (eval1_plain T k i); auto. left. eauto.
      + exists v. split; [|auto]. apply (eval1_plain T k i); auto. right; eauto. }
  assert (MT : (i_need I i e = true \/ is_lit e = false) -> temped i e = true ->
     (runs D T (make_temp F I k i e) u t u' T' <-> exists v, eval1 T k e u t u' (inr v) /\ temped i e = true /\ T' = bnd i e v ++ T)).
  { intros Hn Ht. unfold make_temp. fold (is_nil e). unfold bnd.
    destruct (is_nil e) eqn:En; cbn [orb].
    - rewrite single_runs. split; intros (v & Hv & R); exists v; cbn [app opt_ty] in *; intuition.
    - replace (is_lit e && negb (i_need I i e)) with false
        by (destruct Hn as [->| ->]; [rewrite andb_false_r|]; reflexivity).
      destruct (shadow F I i e); rewrite pair_runs; split; intros (v & Hv & R); exists v; cbn [app opt_ty] in *; intuition. }
  destruct e as [x|o|c o|o]; cbn [one_result fst snd].
  - destruct (i_need I i (EId x)) eqn:En.
    + cbn [fst]. rewrite MT, M; [|auto|exact En].
      split; intros (ov & Hi & R); exists ov; intuition.
    + assert (G : runs D T [] u t u' T' <-> exists ov, item k i (EId x) u t u' (inr ov) /\ T' = obnd i (EId x) ov ++ T).
      { split.
        - intros H; inversion H; subst. exists None; split; [constructor; auto|reflexivity].
        - intros (ov & Hi & ->). inversion Hi; subst; [apply RNil|congruence|match goal with E : op_of _ = _ |- _ => discriminate E end]. }
      destruct (negb (mem x seen) && negb (beq x (B "nil"))); exact G.
  - destruct (i_need I i (ELit o)) eqn:En; cbn [fst].
    + rewrite MT, M; [|auto|reflexivity]. split; intros (ov & Hi & R); exists ov; intuition.
    + rewrite single_runs.
      assert (B1 : forall v, bnd i (ELit o) v = [(ret_name F (ELit o) i, w_conv W i v)]).
      { intros v; unfold bnd; cbn [is_nil is_lit orb]. rewrite En; reflexivity. }
      split.
      * intros (v & Hv & ->). destruct (proj1 (M u t u' (bnd i (ELit o) v ++ T))) as (ov & Hi & _ & E); [eauto 6|].
        exists ov; split; auto. rewrite <- E, B1; reflexivity.
      * intros (ov & Hi & ->). destruct (proj2 (M u t u' (obnd i (ELit o) ov ++ T))) as (v & Hv & _ & E); [eauto 6|].
        exists v; split; auto. rewrite E, B1; reflexivity.
  - rewrite MT, M; [|auto|reflexivity]. split; intros (ov & Hi & R); exists ov; intuition.
  - rewrite MT, M; [|auto|reflexivity]. split; intros (ov & Hi & R); exists ov; intuition.
Qed.


Definition quiet (b : list (stmt Op)) : Prop := b = [] \/ exists k x ty y, b = [STemp k x ty (EId y)].

Lemma quiet_normal D T b u t u' o : quiet b -> @execs Op W F D T b u t u' o -> o = ONormal.
Proof.
  intros [->|(k & x & ty & y & ->)] H; inversion H; subst; auto.
  - match goal with X : @execs _ _ _ _ _ [] _ _ _ _ |- _ => inversion X; reflexivity end.
  - match goal with X : @exec _ _ _ _ _ _ _ _ _ _ _ _ |- _ => inversion X; subst; auto end.
    match goal with X : eval1 _ _ _ _ _ _ _ |- _ => inversion X; subst end.
    match goal with E : op_of _ = _ |- _ => discriminate E end.
Qed.

Lemma temp_stops D T k x ty e b u t u' o : quiet b ->
  (@execs Op W F D T (STemp k x ty e :: b) u t u' o /\ o <> ONormal) <-> exists p, o = OPanic p /\ eval1 T k e u t u' (inl p).
Proof.
  intros Hb; split.
  - intros [H Ho]. inversion H; subst.
    + match goal with X : @execs _ _ _ _ _ b _ _ _ _ |- _ => apply quiet_normal in X; auto; contradiction end.
    + match goal with X : @exec _ _ _ _ _ _ _ _ _ _ _ _ |- _ => inversion X; subst; [contradiction|] end. eauto.
  - intros (p & -> & H). split; [|discriminate]. eapply XsStop; [|discriminate]. eapply XTempPanic; eauto.
Qed.

Lemma one_stops D T k i e seen u t u' o : own_names T -> plain_e e ->
  (@execs Op W F D T (fst (fst (fst (one_result F I k i e seen)))) u t u' o /\ o <> ONormal) <->
  exists p, o = OPanic p /\ item k i e u t u' (inl p).
Proof.
  intros HT He.
  assert (G : forall x ty b, quiet b -> ((@execs Op W F D T (STemp k x ty e :: b) u t u' o /\ o <> ONormal) <->
     exists p, o = OPanic p /\ item k i e u t u' (inl p))).
  { intros x ty b Hb. rewrite temp_stops by assumption.
    split; intros (p & Ho & H); exists p; split; auto; [apply (eval1_plain T k i) in H; auto | apply (eval1_plain T k i); auto]. }
  assert (GM : (@execs Op W F D T (make_temp F I k i e) u t u' o /\ o <> ONormal) <->
     exists p, o = OPanic p /\ item k i e u t u' (inl p)).
  { unfold make_temp. fold (is_nil e). destruct (is_nil e); [|destruct (shadow F I i e)]; apply G; unfold quiet; eauto 8. }
  destruct e as [x|op|c op|op]; cbn [one_result fst snd]; try exact GM.
  - destruct (i_need I i (EId x)); [exact GM|].
    assert (N : (@execs Op W F D T [] u t u' o /\ o <> ONormal) <-> exists p, o = OPanic p /\ item k i (EId x) u t u' (inl p)).
    { split; [intros [H Ho]; inversion H; subst; contradiction|].
      intros (p & _ & H); inversion H; subst. match goal with E : op_of _ = _ |- _ => discriminate E end. }
    destruct (negb (mem x seen) && negb (beq x (B "nil"))); exact N.
  - destruct (i_need I i (ELit op)); [exact GM|]. apply G; unfold quiet; auto.
Qed.

(** ** The list of results *)

Lemma evals_cons k i e es u t u' r : @evals Op W Dc [] k i (e :: es) u t u' r <->
  (exists p, r = inl p /\ item k i e u t u' (inl p)) \/
  (exists ov t1 u1 t2 r', item k i e u t1 u1 (inr ov) /\ evals Dc [] k (S i) es u1 t2 u' r' /\
     t = t1 ++ t2 /\ r = rcons ov r').
Proof.
  split.
  - intros H; inversion H; subst.
    + match goal with X : Dc _ _ _ |- _ => unfold code_order in X; symmetry in X; apply negb_true_iff in X end.
      right. eexists None, [], u, t, _. repeat split; eauto. constructor; auto.
    + match goal with X : Dc _ _ _ |- _ => unfold code_order in X; symmetry in X; apply negb_false_iff in X end.
      right. eexists (Some (look [] k u x)), [], u, t, _. repeat split; eauto. apply ItNow; auto.
    + right. eexists (Some v), t1, u1, t2, _. repeat split; eauto. eapply ItOp; eauto.
    + left. exists p; split; auto. eapply ItPanic; eauto.
  - intros [(p & -> & H)|(ov & t1 & u1 & t2 & r' & H & E & -> & ->)].
    + inversion H; subst. eapply EsPanic; eauto.
    + inversion H; subst; cbn [app].
      * apply EsLate; auto. unfold code_order. match goal with X : i_need _ _ _ = _ |- _ => rewrite X end; reflexivity.
      * change (w_rd W k u1 x) with (look (W:=W) [] k u1 x). apply EsNow; auto. unfold code_order. match goal with X : i_need _ _ _ = _ |- _ => rewrite X end; reflexivity.
      * eapply EsOp; eauto.
Qed.

Fixpoint bnds (i : nat) (es : list (expr Op)) (l : list (option V)) : temps :=
  match es, l with
  | e :: es', ov :: l' => bnds (S i) es' l' ++ obnd i e ov
  | _, _ => []
  end.

Lemma bnds_own i es l : own_names (bnds i es l).
Proof.
  revert i l; induction es as [|e es IH]; intros i [|ov l]; cbn; try (intros x v []).
  apply own_app; [apply IH | apply obnd_own].
Qed.

Lemma results_cons k i e es seen :
  exists seen', results F I k i (e :: es) seen =
   (fst (fst (fst (one_result F I k i e seen))) ++ fst (fst (results F I k (S i) es seen')),
    snd (fst (fst (one_result F I k i e seen))) :: snd (fst (results F I k (S i) es seen')),
    snd (fst (one_result F I k i e seen)) ++ snd (results F I k (S i) es seen')) /\
   seen' = snd (one_result F I k i e seen).
Proof.
  exists (snd (one_result F I k i e seen)). split; [|reflexivity].
  cbn [results]. destruct (one_result F I k i e seen) as [[[pre r] sn] seen']; cbn.
  destruct (results F I k (S i) es seen') as [[pre' rs'] sn']; reflexivity.
Qed.

Lemma results_runs D k es : forall i seen T u t u' T', own_names T -> Forall plain_e es ->
  runs D T (fst (fst (results F I k i es seen))) u t u' T' <->
  exists l, evals Dc [] k i es u t u' (inr l) /\ T' = bnds i es l ++ T.
Proof.
  induction es as [|e es IH]; intros i seen T u t u' T' HT He.
  - cbn [results fst]. split.
    + intros H; inversion H; subst. exists []; split; [constructor|reflexivity].
    + intros (l & H & ->). inversion H; subst. constructor.
  - inversion He as [|? ? He1 He2]; subst.
    destruct (results_cons k i e es seen) as (seen' & -> & _). cbn [fst snd].
    rewrite runs_app. split.
    + intros (t1 & u1 & T1 & t2 & R1 & R2 & ->).
      apply one_runs in R1; auto. destruct R1 as (ov & Hi & ->).
      apply IH in R2; auto; [|apply own_app; auto; apply obnd_own].
      destruct R2 as (l & Hl & ->). exists (ov :: l). split; [|cbn; rewrite app_assoc; reflexivity].
      apply evals_cons. right. exists ov, t1, u1, t2, (inr l). auto.
    + intros (l & H & ->). apply evals_cons in H.
      destruct H as [(p & E & _)|(ov & t1 & u1 & t2 & r' & Hi & Hl & -> & E)]; [discriminate|].
      destruct r' as [p|l']; [discriminate|]. cbn in E; injection E as ->.
      exists t1, u1, (obnd i e ov ++ T), t2. repeat split.
      * apply one_runs; auto. eauto.
      * apply IH; auto; [apply own_app; auto; apply obnd_own|]. exists l'; split; auto. cbn; rewrite app_assoc; reflexivity.
Qed.

Lemma results_stops D k es : forall i seen T u t u' o, own_names T -> Forall plain_e es ->
  (@execs Op W F D T (fst (fst (results F I k i es seen))) u t u' o /\ o <> ONormal) <->
  exists p, o = OPanic p /\ evals Dc [] k i es u t u' (inl p).
Proof.
  induction es as [|e es IH]; intros i seen T u t u' o HT He.
  - cbn [results fst]. split; [intros [H Ho]; inversion H; subst; contradiction|].
    intros (p & _ & H); inversion H.
  - inversion He as [|? ? He1 He2]; subst.
    destruct (results_cons k i e es seen) as (seen' & -> & _). cbn [fst snd].
    split.
    + intros [H Ho]. apply execs_split in H. destruct H as [(t1 & u1 & T1 & t2 & R1 & E & ->)|[E _]].
      * apply one_runs in R1; auto. destruct R1 as (ov & Hi & ->).
        destruct (proj1 (IH (S i) seen' _ u1 t2 u' o (own_app _ _ (obnd_own i e ov) HT) He2)) as (p & -> & Hp); [auto|].
        exists p; split; auto. apply evals_cons. right. exists ov, t1, u1, t2, (inl p). auto.
      * destruct (proj1 (one_stops D T k i e seen u t u' o HT He1) (conj E Ho)) as (p & -> & Hp).
        exists p; split; auto. apply evals_cons. left; eauto.
    + intros (p & -> & H). split; [|discriminate]. apply evals_cons in H.
      destruct H as [(p' & E & Hp)|(ov & t1 & u1 & t2 & r' & Hi & Hl & -> & E)].
      * injection E as <-. apply execs_stop_app; [|discriminate].
        apply (proj2 (one_stops D T k i e seen u t u' (OPanic p) HT He1)). eauto.
      * destruct r' as [p'|l']; cbn in E; [|discriminate]. injection E as <-.
        eapply runs_execs; [apply one_runs; eauto|].
        apply (proj2 (IH (S i) seen' _ u1 t2 u' (OPanic p) (own_app _ _ (obnd_own i e ov) HT) He2)). eauto.
Qed.

(** The results read back from the added variables. *)
Lemma tlookup_app (a b : temps) x : tlookup (a ++ b) x = match tlookup a x with Some v => Some v | None => tlookup b x end.
Proof. induction a as [|[y v] a IH]; cbn; auto. destruct (beq x y); auto. Qed.

Lemma bnd_ret i e v : exists w, tlookup (bnd i e v) (ret_name F e i) = Some w /\
  (w = v \/ w = w_conv W i v \/ w = w_conv W i (w_conv W i v)).
Proof.
  unfold bnd. destruct (is_nil e || _); [|destruct (shadow F I i e)]; cbn [tlookup]; rewrite beq_refl; eauto 6.
Qed.

Lemma bnd_other i e v (e' : expr Op) j : i <> j -> tlookup (bnd i e v) (ret_name F e' j) = None.
Proof.
  intros N. unfold bnd.
  assert (A : beq (ret_name F e' j) (ret_name F e i) = false) by (apply beq_false; intros H; apply ret_name_inj in H; congruence).
  assert (C : beq (ret_name F e' j) (tmp_name i) = false) by (apply beq_false, ret_tmp).
  destruct (is_nil e || _); [|destruct (shadow F I i e)]; cbn [tlookup]; rewrite ?A, ?C; reflexivity.
Qed.

Lemma bnds_other es : forall i l (e' : expr Op) j, (j < i)%nat -> tlookup (bnds i es l) (ret_name F e' j) = None.
Proof.
  induction es as [|e es IH]; intros i [|ov l] e' j Hj; cbn; auto.
  rewrite tlookup_app, IH by lia. destruct ov as [v|]; cbn; auto. apply bnd_other; lia.
Qed.

(* what is known of a value read back *)
Definition back i (w : V) (ov : option V) (e : expr Op) k u : Prop :=
  match ov with
  | Some v => w = v \/ w = w_conv W i v \/ w = w_conv W i (w_conv W i v)
  | None => exists x, e = EId x /\ w = w_rd W k u x
  end.

Definition res_of k i e : expr Op := snd (fst (fst (one_result F I k i e []))).

Lemma res_of_any k i e seen : snd (fst (fst (one_result F I k i e seen))) = res_of k i e.
Proof.
  unfold res_of; destruct e; cbn [one_result]; auto.
  - destruct (i_need I i (EId x)); auto.
    destruct (negb (mem x seen) && negb (beq x (B "nil"))), (negb (mem x []) && negb (beq x (B "nil"))); reflexivity.
  - destruct (i_need I i (ELit o)); auto.
Qed.

Lemma results_results k es : forall i seen, snd (fst (results F I k i es seen)) =
  map (fun ie => res_of k (fst ie) (snd ie)) (combine (seq i (length es)) es).
Proof.
  induction es as [|e es IH]; intros i seen; [reflexivity|].
  destruct (results_cons k i e es seen) as (seen' & -> & _). cbn. rewrite IH, res_of_any. reflexivity.
Qed.

Lemma res_of_id k i e : exists x, res_of k i e = EId x.
Proof.
  unfold res_of; destruct e; cbn [one_result temped]; try destruct (i_need I i _); cbn [fst snd]; eauto;
    destruct (negb (mem x []) && negb (beq x (B "nil"))); cbn [fst snd]; eauto.
Qed.

Lemma res_of_temped k i e : res_of k i e = EId (if temped i e then ret_name F e i else match e with EId x => x | _ => [] end).
Proof.
  unfold res_of; destruct e; cbn [one_result temped]; try destruct (i_need I i _); cbn [fst snd]; eauto;
    destruct (negb (mem x []) && negb (beq x (B "nil"))); cbn [fst snd]; eauto.
Qed.

Lemma item_shape k i e u t u' ov : item k i e u t u' (inr ov) ->
  (temped i e = true <-> ov <> None) /\ (ov = None -> exists x, e = EId x).
Proof. intros H; inversion H; subst; cbn; split; try split; try congruence; eauto; destruct e; cbn in *; try discriminate; congruence. Qed.

(* reading back one result under the final variables *)
Lemma read_back k es : forall i l u t u' T, evals Dc [] k i es u t u' (inr l) -> own_names T -> Forall plain_e es ->
  (forall j (e' : expr Op), (i <= j)%nat -> tlookup T (ret_name F e' j) = None) ->
  length l = length es /\
  forall j e ov, nth_error es j = Some e -> nth_error l j = Some ov ->
    (temped (i + j) e = true <-> ov <> None) /\
    exists x, res_of k (i + j) e = EId x /\ back (i + j) (look (bnds i es l ++ T) k u' x) ov e k u'.
Proof.
  induction es as [|e es IH]; intros i l u t u' T H HT He HN.
  - inversion H; subst. split; auto. intros [|j] ? ? E; discriminate.
  - inversion He as [|? ? He1 He2]; subst.
    apply evals_cons in H. destruct H as [(p & E & _)|(ov & t1 & u1 & t2 & r' & Hi & Hl & -> & E)]; [discriminate|].
    destruct r' as [p|l']; [discriminate|]. cbn in E; injection E as ->.
    destruct (IH (S i) l' u1 t2 u' (obnd i e ov ++ T) Hl (own_app _ _ (obnd_own _ _ _) HT) He2) as [Hlen HJ].
    { intros j e' Hj. rewrite tlookup_app.
      replace (tlookup (obnd i e ov) (ret_name F e' j)) with (@None V).
      - apply HN; lia.
      - destruct ov; cbn; auto. symmetry; apply bnd_other; lia. }
    split; [cbn; congruence|].
    intros [|j] e0 ov0 E1 E2; cbn in E1, E2.
    + injection E1 as <-. injection E2 as <-. rewrite Nat.add_0_r.
      destruct (item_shape _ _ _ _ _ _ _ Hi) as [Sh Sh2]. split; [exact Sh|].
      rewrite res_of_temped. eexists; split; [reflexivity|].
      destruct ov as [v|].
      * replace (temped i e) with true by (symmetry; apply Sh; discriminate).
        cbn [back bnds obnd]. unfold look. rewrite !tlookup_app, bnds_other by lia.
        destruct (bnd_ret i e v) as (w & -> & Hw). exact Hw.
      * replace (temped i e) with false by (destruct (temped i e); auto; exfalso; apply (proj1 Sh); auto).
        destruct (Sh2 eq_refl) as [x ->]. cbn [back]. exists x; split; auto.
        apply look_plain; [|apply He1; cbn; auto]. apply own_app; auto. apply bnds_own.
    + destruct (HJ j e0 ov0 E1 E2) as [S1 S2]. replace (i + S j)%nat with (S i + j)%nat by lia.
      split; auto. destruct S2 as (x & Ex & Bx). exists x; split; auto.
      cbn [bnds]. rewrite <- app_assoc. exact Bx.
Qed.


(** ** Returning variables *)

Lemma ids_evals D T k xs : forall i u t u' r, (forall i e, D i e true \/ D i e false) ->
  evals D T k i (map EId xs) u t u' r -> t = [] /\ u' = u /\ exists l, r = inr l /\ fill T k u (map EId xs) l = map (look (W:=W) T k u) xs.
Proof.
  induction xs as [|x xs IH]; intros i u t u' r HD H; cbn in H; inversion H; subst.
  - repeat split; eauto.
  - match goal with X : evals _ _ _ _ _ _ _ _ _ |- _ => destruct (IH _ _ _ _ _ HD X) as (-> & -> & l & -> & E) end. repeat split; auto. eexists; split; [reflexivity|]. cbn. rewrite E; reflexivity.
  - match goal with X : evals _ _ _ _ _ _ _ _ _ |- _ => destruct (IH _ _ _ _ _ HD X) as (-> & -> & l & -> & E) end. repeat split; auto. eexists; split; [reflexivity|]. cbn. rewrite E; reflexivity.
  - match goal with E : op_of _ = _ |- _ => discriminate E end.
  - match goal with E : op_of _ = _ |- _ => discriminate E end.
Qed.

Lemma ids_evals_ex D T k xs : forall i u, (forall i e, D i e true \/ D i e false) ->
  exists l, @evals Op W D T k i (map EId xs) u [] u (inr l) /\ fill T k u (map EId xs) l = map (look (W:=W) T k u) xs.
Proof.
  induction xs as [|x xs IH]; intros i u HD; cbn.
  - exists []; split; [constructor|reflexivity].
  - destruct (IH (S i) u HD) as (l & H & E). destruct (HD i (EId x)) as [d|d].
    + exists (None :: l). split; [apply (EsLate _ _ _ _ _ i x (map EId xs) u [] u (inr l)); auto|cbn; rewrite E; reflexivity].
    + exists (Some (look T k u x) :: l). split; [apply (EsNow _ _ _ _ _ i x (map EId xs) u [] u (inr l)); auto|cbn; rewrite E; reflexivity].
Qed.

(* the order in which the compiled program reads: any that includes the one
   fixed by the added code *)
Variable Dt : nat -> expr Op -> bool -> Prop.
Hypothesis HDt : forall i e b, Dc i e b -> Dt i e b.

Lemma Dt_any : forall i e, Dt i e true \/ Dt i e false.
Proof.
  intros i e. destruct (i_need I i e) eqn:E; [right|left]; apply HDt; unfold code_order; rewrite E; reflexivity.
Qed.

Lemma evals_mono T k i es u t u' r : @evals Op W Dc T k i es u t u' r -> @evals Op W Dt T k i es u t u' r.
Proof. induction 1; econstructor; eauto. Qed.

Lemma ret_mono T k rs u t u' r : @ret_eval Op W F Dc T k rs u t u' r -> @ret_eval Op W F Dt T k rs u t u' r.
Proof. destruct 1; [econstructor|eapply RtSpread|eapply RtSpreadPanic|eapply RtList|eapply RtPanic]; eauto using evals_mono. Qed.

Lemma ids_ret T k xs u t u' r : xs <> [] ->
  @ret_eval Op W F Dt T k (map EId xs) u t u' r <->
  t = [] /\ u' = u /\ length xs = length (f_names F) /\ r = inr (convs 0 (map (look (W:=W) T k u) xs)).
Proof.
  intros Hx. split.
  - intros H. inversion H; subst.
    + destruct xs; [congruence|discriminate].
    + destruct xs as [|x [|]]; discriminate.
    + destruct xs as [|x [|]]; discriminate.
    + match goal with X : evals _ _ _ _ _ _ _ _ _ |- _ => destruct (ids_evals _ _ _ _ _ _ _ _ _ Dt_any X) as (-> & -> & l0 & E & Ef) end.
      injection E as <-. rewrite Ef. match goal with X : length (map _ _) = _ |- _ => rewrite map_length in X end. auto.
    + match goal with X : evals _ _ _ _ _ _ _ _ _ |- _ => destruct (ids_evals _ _ _ _ _ _ _ _ _ Dt_any X) as (-> & -> & l0 & E & Ef) end. discriminate.
  - intros (-> & -> & Hl & ->).
    destruct (ids_evals_ex Dt T k xs 0 u Dt_any) as (l & H & <-).
    apply RtList; auto; [destruct xs; [congruence|discriminate] | rewrite map_length; exact Hl].
Qed.

(** ** Snapshots *)

Lemma mem_in x l : mem x l = true <-> In x l.
Proof.
  unfold mem; rewrite existsb_exists. split; [intros (y & Hy & E); apply beq_true in E; subst; auto|].
  intros H; exists x; split; auto; apply beq_refl.
Qed.

Lemma snap_decls_spec ds : forall seen s seen', snap_decls ds seen = (s, seen') ->
  (forall n x, In (n, x) s -> n = shown x /\ In x ds) /\
  (forall x, In x ds -> x <> B "nil" -> In (shown x, x) s \/ In x seen) /\
  (forall x, In x seen' -> In x seen \/ In (shown x, x) s).
Proof.
  induction ds as [|d ds IH]; intros seen s seen' H; cbn [snap_decls] in H.
  - injection H as <- <-. repeat split; intros; try contradiction; auto.
  - destruct (beq d (B "nil") || mem d seen) eqn:E.
    + destruct (IH _ _ _ H) as (A & C & K). repeat split.
      * apply A in H0; tauto.
      * apply A in H0; right; tauto.
      * intros x [<-|Hx] Hn; [|apply C; auto]. apply orb_true_iff in E. destruct E as [E|E].
        -- apply beq_true in E; contradiction.
        -- right; apply mem_in; auto.
      * exact K.
    + destruct (snap_decls ds (d :: seen)) as [s0 seen0] eqn:E0. injection H as <- <-.
      destruct (IH _ _ _ E0) as (A & C & K). repeat split.
      * destruct H as [H|H]; [injection H as <- <-; reflexivity | apply A in H; tauto].
      * destruct H as [H|H]; [injection H as <- <-; left; reflexivity | apply A in H; right; tauto].
      * intros x [<-|Hx] Hn; [left; left; reflexivity|]. destruct (C x Hx Hn) as [Hs|[<-|Hs]]; [left; right; auto|left; left; auto|auto].
      * intros x Hx. destruct (K x Hx) as [[<-|Hs]|Hs]; [right; left; auto|auto|right; right; auto].
Qed.

Lemma bare_names_spec ns : forall seen s r b, @bare_names Op ns seen = (s, r, b) ->
  (forall n x, In (n, x) s -> n = shown x /\ In x ns /\ x <> B "_") /\
  (forall x, In x ns -> x <> B "_" -> In (shown x, x) s \/ In x seen) /\
  b = mem (B "_") ns /\ (b = false -> r = map EId ns).
Proof.
  induction ns as [|d ns IH]; intros seen s r b H; cbn [bare_names] in H.
  - injection H as <- <- <-. repeat split; intros; try contradiction; auto.
  - unfold mem; cbn [existsb]. rewrite (beq_sym (B "_") d).
    destruct (beq_spec d (B "_")) as [->|N].
    + destruct (bare_names ns seen) as [[s0 r0] b0] eqn:E0. injection H as <- <- <-.
      destruct (IH _ _ _ _ E0) as (A & C & K & L). repeat split; try (intros; discriminate).
      * apply A in H; tauto.
      * apply A in H; right; tauto.
      * apply A in H; tauto.
      * intros x [<-|Hx] Hn; [congruence|auto].
    + destruct (mem d seen) eqn:E.
      * destruct (bare_names ns seen) as [[s0 r0] b0] eqn:E0. injection H as <- <- <-.
        destruct (IH _ _ _ _ E0) as (A & C & K & L). repeat split.
        -- apply A in H; tauto.
        -- apply A in H; right; tauto.
        -- apply A in H; tauto.
        -- intros x [<-|Hx] Hn; [right; apply mem_in; auto|auto].
        -- exact K.
        -- intros Hb; cbn; rewrite L; auto.
      * destruct (bare_names ns (d :: seen)) as [[s0 r0] b0] eqn:E0. injection H as <- <- <-.
        destruct (IH _ _ _ _ E0) as (A & C & K & L). repeat split.
        -- destruct H as [H|H]; [injection H as <- <-; auto|]. apply A in H; tauto.
        -- destruct H as [H|H]; [injection H as <- <-; left; auto|]. apply A in H; right; tauto.
        -- destruct H as [H|H]; [injection H as <- <-; auto|]. apply A in H; tauto.
        -- intros x [<-|Hx] Hn; [left; left; auto|]. destruct (C x Hx Hn) as [?|[<-|?]]; [left; right; auto|left; left; auto|auto].
        -- exact K.
        -- intros Hb; cbn; rewrite L; auto.
Qed.

(* the results that are shown *)
Definition visible_res i (e : expr Op) : bool := temped i e || negb (is_nil e).

Lemma one_snaps k i e seen pre r sn seen' : one_result F I k i e seen = (pre, r, sn, seen') ->
  (forall n x, In (n, x) sn -> n = shown x /\ r = EId x /\ visible_res i e = true) /\
  (forall x, r = EId x -> visible_res i e = true -> In (shown x, x) sn \/ In x seen) /\
  (forall x, In x seen' -> In x seen \/ In (shown x, x) sn).
Proof.
  unfold visible_res. destruct e as [x|o|c o|o]; cbn [one_result temped is_nil]; intros H.
  - destruct (i_need I i (EId x)) eqn:En.
    + injection H as <- <- <- <-. cbn. repeat split; intros.
      * destruct H as [H|[]]; injection H as <- <-; auto.
      * destruct H as [H|[]]; injection H as <- <-; auto.
      * injection H as <-; auto.
      * destruct H as [<-|H]; auto.
    + destruct (negb (mem x seen) && negb (beq x (B "nil"))) eqn:E.
      * injection H as <- <- <- <-. apply andb_true_iff in E; destruct E as [E1 E2]. repeat split; intros.
        -- destruct H as [H|[]]; injection H as <- <-; auto.
        -- destruct H as [H|[]]; injection H as <- <-; auto.
        -- rewrite E2; reflexivity.
        -- injection H as <-; cbn; auto.
        -- destruct H as [<-|H]; cbn; auto.
      * injection H as <- <- <- <-. split; [intros ? ? []|]. split; [|auto].
        intros y Hy Hv. injection Hy as <-. cbn [orb] in Hv. rewrite Hv, andb_true_r in E. right. apply mem_in. destruct (mem x seen); auto; discriminate.
  - destruct (i_need I i (ELit o)) eqn:En; injection H as <- <- <- <-; cbn; repeat split; intros;
      try (destruct H as [H|[]]; injection H as <- <-; auto; fail);
      try (injection H as <-; auto; fail); destruct H as [<-|H]; auto.
  - injection H as <- <- <- <-; cbn; repeat split; intros;
      try (destruct H as [H|[]]; injection H as <- <-; auto; fail);
      try (injection H as <-; auto; fail); destruct H as [<-|H]; auto.
  - injection H as <- <- <- <-; cbn; repeat split; intros;
      try (destruct H as [H|[]]; injection H as <- <-; auto; fail);
      try (injection H as <-; auto; fail); destruct H as [<-|H]; auto.
Qed.

Lemma results_snaps k es : forall i seen,
  (forall n x, In (n, x) (snd (results F I k i es seen)) -> exists j e, nth_error es j = Some e /\ n = shown x /\
     res_of k (i + j) e = EId x /\ visible_res (i + j) e = true) /\
  (forall j e x, nth_error es j = Some e -> res_of k (i + j) e = EId x -> visible_res (i + j) e = true ->
     In (shown x, x) (snd (results F I k i es seen)) \/ In x seen).
Proof.
  induction es as [|e es IH]; intros i seen.
  - split; [intros ? ? [] | intros [|j] ? ? H; discriminate].
  - destruct (results_cons k i e es seen) as (seen' & -> & Es). cbn [snd].
    destruct (one_result F I k i e seen) as [[[pre r] sn] sn'] eqn:E1. cbn [fst snd] in *. subst seen'.
    assert (Er : r = res_of k i e) by (rewrite <- (res_of_any k i e seen), E1; reflexivity).
    destruct (one_snaps _ _ _ _ _ _ _ _ E1) as (A & C & K).
    destruct (IH (S i) sn') as (A' & C'). split.
    + intros n x H. apply in_app_iff in H. destruct H as [H|H].
      * exists 0%nat, e. rewrite Nat.add_0_r. apply A in H. rewrite <- Er. cbn. intuition.
      * destruct (A' _ _ H) as (j & e0 & H1 & H2 & H3 & H4). exists (S j), e0.
        replace (i + S j)%nat with (S i + j)%nat by lia. auto.
    + intros [|j] e0 x H1 H2 H3; cbn in H1.
      * injection H1 as <-. rewrite Nat.add_0_r in *. rewrite <- Er in H2. destruct (C x H2 H3); [left; apply in_app_iff; auto|auto].
      * replace (i + S j)%nat with (S i + j)%nat in * by lia.
        destruct (C' j e0 x H1 H2 H3) as [H|H]; [left; apply in_app_iff; auto|].
        destruct (K x H) as [?|?]; [auto|left; apply in_app_iff; auto].
Qed.

(** ** A rewritten return *)

Hypothesis Hconv : forall i v, w_conv W i (w_conv W i v) = w_conv W i v.
Hypothesis Hres : forall u i, w_conv W i (w_res W u i) = w_res W u i.
Hypothesis Hresn : forall x, In x (f_names F) -> reserved x = false.

Definition ret_ok (k : nat) (rs : list (expr Op)) : Prop :=
  (rs = [] \/ length rs = length (f_names F) \/ ((2 <= length (f_names F))%nat /\ exists c o, rs = [ECall c o])) /\
  (rs = [] -> forall i x u, nth_error (f_names F) i = Some x -> x <> [] -> x <> B "_" -> w_rd W k u x = w_res W u i) /\
  (forall e x, In e rs -> In x (uses W e) -> reserved x = false) /\
  (forall x, In x (i_decls I k) -> reserved x = false).

Definition flds (T : temps) k u (sn : list (bytes * bytes)) : list (bytes * V) :=
  map (fun nx => (fst nx, look T k u (snd nx))) sn.

Lemma send_return D T k p sn rs u t u' o :
  @execs Op W F D T [SSend k p sn; SReturn k rs] u t u' o <->
  exists t2 r, @ret_eval Op W F D T k rs u t2 u' r /\ t = EvState p (flds T k u sn) :: t2 /\
    o = match r with inr vs => ORet k vs | inl v => OPanic v end.
Proof.
  split.
  - intros H. inv H.
    + xi (@SSend Op k p sn). xi [@SReturn Op k rs].
      * xi (@SReturn Op k rs).
      * xi (@SReturn Op k rs); eexists _, _; (split; [eauto|split; reflexivity]).
    + xi (@SSend Op k p sn); contradiction.
  - intros (t2 & r & H & -> & ->).
    change (EvState p (flds T k u sn) :: t2) with ([@EvState Op W p (flds T k u sn)] ++ t2).
    eapply XsCons; [apply XSend|]. destruct r as [v|vs].
    + eapply XsStop; [apply XReturnPanic; eauto | discriminate].
    + eapply XsStop; [apply XReturn; eauto | discriminate].
Qed.

Lemma convs_ext l : forall i l', length l = length l' ->
  (forall j v v', nth_error l j = Some v -> nth_error l' j = Some v' -> w_conv W (i + j) v = w_conv W (i + j) v') ->
  convs i l = convs i l'.
Proof.
  induction l as [|v l IH]; intros i [|v' l'] HL H; cbn in *; try discriminate; auto.
  f_equal.
  - specialize (H 0%nat v v' eq_refl eq_refl). rewrite Nat.add_0_r in H; exact H.
  - apply IH; [congruence|]. intros j a b Ha Hb. replace (S i + j)%nat with (i + S j)%nat by lia. apply H; auto.
Qed.

Lemma convs_nth l : forall i j v, nth_error (@convs Op W i l) j = Some v <-> exists w, nth_error l j = Some w /\ v = w_conv W (i + j) w.
Proof.
  induction l as [|x l IH]; intros i j v; cbn.
  - destruct j; cbn; split; try discriminate; intros (w & H & _); discriminate.
  - destruct j; cbn.
    + rewrite Nat.add_0_r. split; [intros H; injection H as <-; eauto | intros (w & H & ->); congruence].
    + rewrite IH. replace (S i + j)%nat with (i + S j)%nat by lia. reflexivity.
Qed.

Lemma convs_len l : forall i, length (@convs Op W i l) = length l.
Proof. induction l; intros; cbn; auto. Qed.

Lemma fill_len T k u es : forall l, length l = length es -> length (@fill Op W T k u es l) = length es.
Proof. induction es; intros [|] H; cbn in *; try discriminate; auto. Qed.

Lemma fill_nth T k u es : forall l j e ov, nth_error es j = Some e -> nth_error l j = Some ov ->
  nth_error (@fill Op W T k u es l) j = Some (match ov, e with Some v, _ => v | None, EId x => look T k u x | None, _ => look T k u [] end).
Proof.
  induction es as [|e0 es IH]; intros [|o l] [|j] e ov H1 H2; cbn in *; try discriminate.
  - injection H1 as <-; injection H2 as <-; reflexivity.
  - apply IH; auto.
Qed.

Lemma combine_nth_error {A C} (a : list A) (b : list C) j x y :
  nth_error (combine a b) j = Some (x, y) <-> nth_error a j = Some x /\ nth_error b j = Some y.
Proof.
  revert b j; induction a as [|a0 a IH]; intros [|b0 b] [|j]; cbn; try (split; [discriminate|intros [? ?]; discriminate]).
  - split; [intros H; injection H as -> ->; auto | intros [H1 H2]; congruence].
  - apply IH.
Qed.

Lemma nth_error_seq i n j : (j < n)%nat -> nth_error (seq i n) j = Some (i + j)%nat.
Proof.
  revert i j; induction n; intros i [|j] H; cbn; try lia; [f_equal; lia|]. rewrite IHn by lia; f_equal; lia.
Qed.

(* the value read back for each result converts to the value returned *)
Definition resx k (es : list (expr Op)) : list bytes :=
  map (fun ie => match res_of k (fst ie) (snd ie) with EId x => x | _ => [] end) (combine (seq 0 (length es)) es).

Lemma results_ids k es seen : snd (fst (results F I k 0 es seen)) = map EId (resx k es).
Proof.
  rewrite results_results. unfold resx. rewrite map_map. apply map_ext. intros [i e]; cbn.
  destruct (res_of_id k i e) as [x ->]. reflexivity.
Qed.

Lemma resx_len k es : length (resx k es) = length es.
Proof. unfold resx. rewrite map_length, combine_length, seq_length. lia. Qed.

Lemma resx_nth k es j e x : nth_error es j = Some e -> res_of k j e = EId x -> nth_error (resx k es) j = Some x.
Proof.
  intros H E. unfold resx.
  assert (Hj : (j < length es)%nat) by (apply nth_error_Some; congruence).
  erewrite map_nth_error; [|apply combine_nth_error; split; [apply nth_error_seq; exact Hj|exact H]].
  cbn. rewrite E. reflexivity.
Qed.

Lemma read_value k es u t u' l j e ov : Forall plain_e es -> evals Dc [] k 0 es u t u' (inr l) ->
  nth_error es j = Some e -> nth_error l j = Some ov ->
  (temped j e = true <-> ov <> None) /\
  exists x, res_of k j e = EId x /\ exists v, nth_error (fill [] k u' es l) j = Some v /\
   w_conv W j (look (bnds 0 es l ++ []) k u' x) = w_conv W j v /\
   (ov = None -> e = EId x /\ look (bnds 0 es l ++ []) k u' x = w_rd W k u' x).
Proof.
  intros He H E1 E2.
  destruct (read_back k es 0 l u t u' [] H) as [HL HJ]; auto.
  { intros ? ? []. }
  destruct (HJ j e ov E1 E2) as (Ht & x & Ex & Bx). cbn [Nat.add] in *.
  split; [exact Ht|]. exists x. split; auto.
  eexists; split; [apply fill_nth; eauto|]. destruct ov as [v|]; cbn [back] in Bx.
  - split; [|discriminate]. destruct Bx as [->|[->| ->]]; rewrite ?Hconv; reflexivity.
  - destruct Bx as (y & -> & Ey). rewrite Ey. split; [reflexivity|]. intros _.
    unfold res_of in Ex. clear HJ.
    assert (Hn : temped j (EId y) = false) by (destruct (temped j (EId y)); auto; exfalso; apply (proj1 Ht); auto).
    cbn in Hn. cbn [one_result] in Ex. rewrite Hn in Ex.
    destruct (negb (mem y []) && negb (beq y (B "nil"))); cbn in Ex; injection Ex as <-; auto.
Qed.

Lemma list_fields k rs u t u' l snaps seen s : rs <> [] -> length rs = length (f_names F) -> ret_ok k rs ->
  snap_decls (i_decls I k) [] = (snaps, seen) -> s = snd (results F I k 0 rs seen) ->
  evals Dc [] k 0 rs u t u' (inr l) ->
  convs 0 (map (look (W:=W) (bnds 0 rs l ++ []) k u') (resx k rs)) = convs 0 (fill [] k u' rs l) /\
  fields_ok W F I k rs (convs 0 (fill [] k u' rs l)) u' (flds (bnds 0 rs l ++ []) k u' (snaps ++ s)).
Proof.
  intros Hrs HL (_ & _ & Hp & Hd) HS -> H.
  assert (He : Forall plain_e rs) by (apply Forall_forall; intros e Hin x; apply Hp; auto).
  assert (HT : own_names (bnds 0 rs l ++ [])) by (apply own_app; [apply bnds_own|intros ? ? []]).
  destruct (read_back k rs 0 l u t u' [] H) as [HLl _]; auto. { intros ? ? []. }
  split.
  - apply convs_ext.
    + rewrite map_length, resx_len, fill_len; auto.
    + intros j v v' Hv Hv'. cbn [Nat.add].
      assert (Hj : (j < length rs)%nat).
      { rewrite <- (fill_len [] k u' rs l HLl). apply nth_error_Some. congruence. }
      destruct (nth_error rs j) as [e|] eqn:E1; [|apply nth_error_None in E1; lia].
      destruct (nth_error l j) as [ov|] eqn:E2; [|apply nth_error_None in E2; lia].
      destruct (read_value k rs u t u' l j e ov He H E1 E2) as (_ & x & Ex & v0 & Hv0 & Hc & _).
      erewrite map_nth_error in Hv by (eapply resx_nth; eauto). injection Hv as <-.
      rewrite Hv' in Hv0; injection Hv0 as ->. exact Hc.
  - destruct (snap_decls_spec _ _ _ _ HS) as (SA & SC & SK).
    destruct (results_snaps k rs 0 seen) as (RA & RC).
    assert (Hlook : forall n x, In (n, x) (snaps ++ snd (results F I k 0 rs seen)) ->
              In (n, look (bnds 0 rs l ++ []) k u' x) (flds (bnds 0 rs l ++ []) k u' (snaps ++ snd (results F I k 0 rs seen)))).
    { intros n x Hin. unfold flds. apply in_map_iff. exists (n, x); auto. }
    assert (Hsa : forall i e, nth_error rs i = Some e -> visible_res i e = true ->
              forall x, res_of k i e = EId x -> shown_as F I rs i = Some (shown x)).
    { intros i e E1 Hvis x Ex. unfold shown_as. destruct rs as [|r0 rs0] eqn:Ers; [congruence|]. rewrite <- Ers in *.
      replace (length rs <? length (f_names F))%nat with false by (symmetry; apply Nat.ltb_ge; lia).
      rewrite E1. rewrite res_of_temped in Ex. unfold visible_res in Hvis.
      destruct e as [y|o|c o|o]; cbn [temped is_nil] in *.
      - destruct (i_need I i (EId y)).
        + injection Ex as <-. rewrite shown_ret_name. reflexivity.
        + injection Ex as <-. cbn [orb] in Hvis. apply negb_true_iff in Hvis. rewrite Hvis. f_equal. symmetry; apply shown_plain.
          eapply Hp; [eapply nth_error_In; eauto | cbn; auto].
      - injection Ex as <-. rewrite shown_ret_name. reflexivity.
      - injection Ex as <-. rewrite shown_ret_name. reflexivity.
      - injection Ex as <-. rewrite shown_ret_name. reflexivity. }
    split.
    + intros x Hx Hn. destruct (SC x Hx Hn) as [Hin|[]].
      specialize (Hlook (shown x) x (proj2 (in_app_iff _ _ _) (or_introl Hin))).
      rewrite shown_plain in Hlook by auto. rewrite look_plain in Hlook by auto. exact Hlook.
    + intros i n v Hs Hv. apply convs_nth in Hv. destruct Hv as (w & Hw & ->). cbn [Nat.add] in *.
      assert (Hj : (i < length rs)%nat). { rewrite <- (fill_len [] k u' rs l HLl). apply nth_error_Some. congruence. }
      destruct (nth_error rs i) as [e|] eqn:E1; [|apply nth_error_None in E1; lia].
      destruct (nth_error l i) as [ov|] eqn:E2; [|apply nth_error_None in E2; lia].
      destruct (read_value k rs u t u' l i e ov He H E1 E2) as (Ht & x & Ex & v0 & Hv0 & Hc & _).
      rewrite Hw in Hv0; injection Hv0 as <-.
      assert (Hvis : visible_res i e = true).
      { unfold shown_as in Hs. destruct rs as [|r0 rs0] eqn:Ers; [congruence|]. rewrite <- Ers in *.
        replace (length rs <? length (f_names F))%nat with false in Hs by (symmetry; apply Nat.ltb_ge; lia).
        rewrite E1 in Hs. unfold visible_res. destruct e as [y|o|c o|o]; cbn [temped is_nil]; auto.
        destruct (i_need I i (EId y)); auto. destruct (beq y (B "nil")); [discriminate|reflexivity]. }
      rewrite (Hsa i e E1 Hvis x Ex) in Hs. injection Hs as <-.
      exists (look (bnds 0 rs l ++ []) k u' x). split; [|exact Hc].
      apply Hlook. apply in_app_iff.
      destruct (RC i e x E1 Ex Hvis) as [?|Hseen]; auto.
      destruct (SK x Hseen) as [[]|?]; auto.
    + intros n w Hin. unfold flds in Hin. apply in_map_iff in Hin. destruct Hin as ([n' x] & E & Hin). cbn in E. injection E as <- <-.
      apply in_app_iff in Hin. destruct Hin as [Hin|Hin].
      * left. apply SA in Hin. destruct Hin as [-> Hin]. rewrite shown_plain by auto. split; auto. apply look_plain; auto.
      * right. destruct (RA _ _ Hin) as (j & e & E1 & -> & Ex & Hvis). cbn [Nat.add] in *.
        assert (Hj : (j < length rs)%nat) by (apply nth_error_Some; congruence).
        destruct (nth_error l j) as [ov|] eqn:E2; [|apply nth_error_None in E2; lia].
        destruct (read_value k rs u t u' l j e ov He H E1 E2) as (_ & x' & Ex' & v0 & Hv0 & Hc & _).
        rewrite Ex in Ex'; injection Ex' as <-.
        exists j, (w_conv W j v0). split; [apply (Hsa j e); auto|]. split; [|exact Hc].
        apply convs_nth. exists v0; split; auto.
Qed.


Lemma build_list_eq k rs snaps seen : rs <> [] ->
  (length rs = length (f_names F)) -> snap_decls (i_decls I k) [] = (snaps, seen) ->
  build_return F I k rs = fst (fst (results F I k 0 rs seen)) ++
    [SSend k (i_pid I k) (snaps ++ snd (results F I k 0 rs seen)); SReturn k (map EId (resx k rs))].
Proof.
  intros Hrs HL HS. unfold build_return. rewrite HS. rewrite <- (results_ids k rs seen).
  destruct rs as [|e [|e' rs]]; [congruence| |].
  - cbn in HL. replace (1 <? length (f_names F))%nat with false by (symmetry; apply Nat.ltb_ge; lia).
    destruct (results F I k 0 [e] seen) as [[pre r] s]; cbn [fst snd]. destruct e; reflexivity.
  - destruct (results F I k 0 (e :: e' :: rs) seen) as [[pre r] s]; cbn [fst snd]. destruct e; reflexivity.
Qed.

Lemma tlookup_combine (xs : list bytes) (vs : list V) : NoDup xs -> forall j x v, nth_error xs j = Some x -> nth_error vs j = Some v ->
  tlookup (combine xs vs) x = Some v.
Proof.
  intros Hnd. revert vs. induction Hnd as [|y xs Hy Hnd IH]; intros vs j x v H1 H2; [destruct j; discriminate|].
  destruct vs as [|w vs]; [destruct j; discriminate|]. destruct j; cbn in *.
  - injection H1 as <-; injection H2 as <-. rewrite beq_refl; reflexivity.
  - destruct (beq_spec x y) as [->|N]; [exfalso; apply Hy; eapply nth_error_In; eauto|]. eauto.
Qed.

Lemma spread_nodup : NoDup (spread_names F).
Proof.
  unfold spread_names. apply FinFun.Injective_map_NoDup; [|apply seq_NoDup].
  intros a b H. apply app_inv_head in H. apply num_inj; exact H.
Qed.

Lemma spread_nth i : (i < length (f_names F))%nat -> nth_error (spread_names F) i = Some (p_ret ++ num i).
Proof. intros H. unfold spread_names. erewrite map_nth_error; [reflexivity|]. apply (nth_error_seq 0); auto. Qed.

Lemma spread_len : length (spread_names F) = length (f_names F).
Proof. unfold spread_names; rewrite map_length, seq_length; reflexivity. Qed.

Lemma p_ret_reserved r : reserved (p_ret ++ r) = true.
Proof. rewrite p_ret_eq, <- app_assoc; apply reserved_app. Qed.

Lemma spread_own vs : own_names (combine (spread_names F) vs).
Proof.
  intros x v H. apply in_combine_l in H. unfold spread_names in H. apply in_map_iff in H.
  destruct H as (i & <- & _). apply p_ret_reserved.
Qed.

Lemma spread_look vs k u : length vs = length (f_names F) ->
  map (look (W:=W) (combine (spread_names F) vs ++ []) k u) (spread_names F) = vs.
Proof.
  intros HL. rewrite app_nil_r. apply nth_ext with (d := look [] k u []) (d' := look [] k u []).
  - rewrite map_length, spread_len; auto.
  - intros i Hi. rewrite map_length, spread_len in Hi.
    assert (E := spread_nth i Hi).
    destruct (nth_error vs i) as [v|] eqn:Ev; [|apply nth_error_None in Ev; lia].
    erewrite nth_error_nth by (apply map_nth_error; eauto).
    erewrite (nth_error_nth vs) by eauto.
    unfold look. erewrite tlookup_combine; eauto. apply spread_nodup.
Qed.

Lemma spread_fields k c o vs u snaps seen : (2 <= length (f_names F))%nat -> length vs = length (f_names F) ->
  ret_ok k [ECall c o] -> snap_decls (i_decls I k) [] = (snaps, seen) ->
  fields_ok W F I k [ECall c o] (convs 0 vs) u
    (flds (combine (spread_names F) vs ++ []) k u (snaps ++ map (fun x => (shown x, x)) (spread_names F))).
Proof.
  intros H2 HL (_ & _ & Hp & Hd) HS.
  assert (HT : own_names (combine (spread_names F) vs ++ [])) by (apply own_app; [apply spread_own|intros ? ? []]).
  destruct (snap_decls_spec _ _ _ _ HS) as (SA & SC & SK).
  assert (Hsa : forall i, shown_as F I [ECall c o] i = Some (B "ret" ++ num i)).
  { intros i. unfold shown_as. replace (length [@ECall Op c o] <? length (f_names F))%nat with true by (symmetry; apply Nat.ltb_lt; cbn; lia). reflexivity. }
  assert (Hl : forall i v, nth_error vs i = Some v -> look (combine (spread_names F) vs ++ []) k u (p_ret ++ num i) = v).
  { intros i v Hv. assert (Hi : (i < length (f_names F))%nat) by (rewrite <- HL; apply nth_error_Some; congruence).
    unfold look. rewrite app_nil_r. erewrite tlookup_combine; eauto using spread_nodup, spread_nth. }
  split.
  - intros x Hx Hn. destruct (SC x Hx Hn) as [Hin|[]]. unfold flds. apply in_map_iff. exists (shown x, x).
    rewrite shown_plain by auto; cbn [fst snd]. rewrite look_plain by auto. split; auto. apply in_app_iff; left. rewrite <- (shown_plain x) at 1; auto.
  - intros i n v Hs Hv. rewrite Hsa in Hs; injection Hs as <-. apply convs_nth in Hv. destruct Hv as (w & Hw & ->).
    exists w. split; auto. unfold flds. apply in_map_iff. exists (shown (p_ret ++ num i), p_ret ++ num i). cbn [fst snd].
    rewrite (Hl i w Hw), shown_ret. split; auto. apply in_app_iff; right. apply in_map_iff. exists (p_ret ++ num i). rewrite shown_ret. split; auto.
    eapply nth_error_In. apply spread_nth. rewrite <- HL; apply nth_error_Some; congruence.
  - intros n w Hin. unfold flds in Hin. apply in_map_iff in Hin. destruct Hin as ([n' x] & E & Hin). cbn in E. injection E as <- <-.
    apply in_app_iff in Hin. destruct Hin as [Hin|Hin].
    + left. apply SA in Hin. destruct Hin as [-> Hin]. rewrite shown_plain by auto. split; auto. apply look_plain; auto.
    + right. apply in_map_iff in Hin. destruct Hin as (y & E & Hin). injection E as <- <-.
      unfold spread_names in Hin. apply in_map_iff in Hin. destruct Hin as (i & <- & Hi). apply in_seq in Hi.
      destruct (nth_error vs i) as [v|] eqn:Ev; [|apply nth_error_None in Ev; lia].
      exists i, (w_conv W i v). rewrite Hsa, shown_ret, (Hl i v Ev). split; auto. split; auto. apply convs_nth. exists v; split; auto.
Qed.

Lemma bare_fields k u snaps seen s (r : list (expr Op)) b : ret_ok k [] -> snap_decls (i_decls I k) [] = (snaps, seen) ->
  all_named F = true -> bare_names (f_names F) seen = (s, r, b) ->
  fields_ok W F I k [] (map (w_res W u) (seq 0 (length (f_names F)))) u (flds [] k u (snaps ++ s)).
Proof.
  intros (_ & Hb & _ & Hd) HS HA HN.
  destruct (snap_decls_spec _ _ _ _ HS) as (SA & SC & SK).
  destruct (bare_names_spec _ _ _ _ _ HN) as (NA & NC & _ & _).
  assert (HA' : existsb (beq []) (f_names F) = false).
  { unfold all_named in HA. destruct (f_names F); [discriminate|]. apply negb_true_iff in HA; exact HA. }
  assert (Hnv : forall i v, nth_error (map (w_res W u) (seq 0 (length (f_names F)))) i = Some v ->
     (i < length (f_names F))%nat /\ v = w_res W u i).
  { intros i v Hv. assert (Hi : (i < length (f_names F))%nat).
    { rewrite <- (seq_length (length (f_names F)) 0), <- (map_length (w_res W u)). apply nth_error_Some; congruence. }
    split; auto. erewrite map_nth_error in Hv by (apply nth_error_seq; auto). cbn in Hv; congruence. }
  assert (Hsa : forall i x, nth_error (f_names F) i = Some x -> x <> B "_" -> shown_as F I (@nil (expr Op)) i = Some x).
  { intros i x Hx Hn. unfold shown_as. rewrite Hx, HA'.
    destruct (beq_spec x []) as [->|N1].
    - exfalso. enough (existsb (beq []) (f_names F) = true) by congruence. apply existsb_exists. exists []; split; [eapply nth_error_In; eauto|reflexivity].
    - apply beq_false in Hn. rewrite Hn. reflexivity. }
  assert (Hne : forall x, In x (f_names F) -> x <> []).
  { intros x Hx ->. enough (existsb (beq []) (f_names F) = true) by congruence. apply existsb_exists. exists []; split; auto. }
  split.
  - intros x Hx Hn. destruct (SC x Hx Hn) as [Hin|[]]. unfold flds. apply in_map_iff. exists (shown x, x).
    cbn [fst snd]. split; [|apply in_app_iff; auto]. rewrite shown_plain by auto. reflexivity.
  - intros i n v Hs Hv. apply Hnv in Hv. destruct Hv as [Hi ->].
    unfold shown_as in Hs. destruct (nth_error (f_names F) i) as [x|] eqn:Ex; [|discriminate].
    destruct (beq x [] || beq x (B "_") || _) eqn:E; [discriminate|]. injection Hs as <-.
    apply orb_false_iff in E. destruct E as [E _]. apply orb_false_iff in E. destruct E as [E1 E2]. apply beq_false in E1, E2.
    assert (Hxin := nth_error_In _ _ Ex).
    exists (w_rd W k u x). split; [|rewrite (Hb eq_refl i x u Ex E1 E2); apply Hres].
    assert (G : In (shown x, x) (snaps ++ s)).
    { apply in_app_iff. destruct (NC x Hxin E2) as [?|Hsn]; auto. destruct (SK x Hsn) as [[]|?]; auto. }
    unfold flds. apply in_map_iff. exists (shown x, x). cbn [fst snd]. split; auto. rewrite shown_plain by auto. reflexivity.
  - intros n w Hin. unfold flds in Hin. apply in_map_iff in Hin. destruct Hin as ([n' x] & E & Hin). cbn in E. injection E as <- <-.
    apply in_app_iff in Hin. destruct Hin as [Hin|Hin].
    + left. apply SA in Hin. destruct Hin as [-> Hin]. rewrite shown_plain by auto. split; auto.
    + right. apply NA in Hin. destruct Hin as (-> & Hin & Hn). apply In_nth_error in Hin. destruct Hin as [i Hi].
      assert (Hxin := nth_error_In _ _ Hi).
      exists i, (w_res W u i). rewrite shown_plain by auto. split; [apply Hsa; auto|].
      assert (Hlt : (i < length (f_names F))%nat) by (apply nth_error_Some; congruence).
      split; [erewrite map_nth_error by (apply nth_error_seq; exact Hlt); reflexivity|].
      unfold look; cbn [tlookup]. rewrite (Hb eq_refl i x u Hi (Hne x Hxin) Hn). apply Hres.
Qed.

Lemma plain_fields k u snaps seen vs : ret_ok k [] -> snap_decls (i_decls I k) [] = (snaps, seen) ->
  all_named F = false -> fields_ok W F I k [] vs u (flds [] k u snaps).
Proof.
  intros (_ & Hb & _ & Hd) HS HA. destruct (snap_decls_spec _ _ _ _ HS) as (SA & SC & SK). split.
  - intros x Hx Hn. destruct (SC x Hx Hn) as [Hin|[]]. unfold flds. apply in_map_iff. exists (shown x, x).
    cbn [fst snd]. split; auto. rewrite shown_plain by auto. reflexivity.
  - intros i n v Hs _. exfalso. unfold shown_as in Hs. unfold all_named in HA.
    destruct (f_names F) as [|f0 fs] eqn:EF; [destruct i; discriminate|].
    apply negb_false_iff in HA. unfold mem in HA. destruct (nth_error (f0 :: fs) i); [|discriminate].
    rewrite HA, orb_true_r in Hs; discriminate.
  - intros n w Hin. unfold flds in Hin. apply in_map_iff in Hin. destruct Hin as ([n' x] & E & Hin). cbn in E. injection E as <- <-.
    left. apply SA in Hin. destruct Hin as [-> Hin]. rewrite shown_plain by auto. split; auto.
Qed.

Lemma map_look_names u k : (forall i x, nth_error (f_names F) i = Some x -> w_rd W k u x = w_res W u i) ->
  @convs Op W 0 (map (look (W:=W) [] k u) (f_names F)) = map (w_res W u) (seq 0 (length (f_names F))).
Proof.
  intros H. apply nth_ext with (d := w_res W u 0%nat) (d' := w_res W u 0%nat).
  - rewrite convs_len, !map_length, seq_length; reflexivity.
  - intros i Hi. rewrite convs_len, map_length in Hi.
    destruct (nth_error (f_names F) i) as [x|] eqn:Ex; [|apply nth_error_None in Ex; lia].
    assert (E1 : nth_error (@convs Op W 0 (map (look (W:=W) [] k u) (f_names F))) i = Some (w_conv W i (w_rd W k u x))).
    { apply convs_nth. exists (w_rd W k u x). split; auto. erewrite map_nth_error; eauto. reflexivity. }
    erewrite nth_error_nth by exact E1.
    erewrite nth_error_nth by (erewrite map_nth_error; [reflexivity|apply nth_error_seq; exact Hi]).
    cbn. rewrite (H i x Ex), Hres. reflexivity.
Qed.

Lemma ret_bare D T k u t u' r : @ret_eval Op W F D T k [] u t u' r <->
  t = [] /\ u' = u /\ r = inr (map (w_res W u) (seq 0 (length (f_names F)))).
Proof.
  split; [|intros (-> & -> & ->); constructor].
  intros H; inversion H; subst; auto; contradiction.
Qed.

Lemma all_named_nohole x : all_named F = true -> In x (f_names F) -> x <> [].
Proof.
  unfold all_named; destruct (f_names F) as [|f0 fs]; [discriminate|]. intros H Hx ->. apply negb_true_iff in H.
  enough (mem [] (f0 :: fs) = true) by congruence. apply mem_in; auto.
Qed.

Lemma build_bwd k rs u t' u' o : ret_ok k rs -> @execs Op W F Dt [] (build_return F I k rs) u t' u' o ->
  (exists p, o = OPanic p /\ @ret_eval Op W F Dc [] k rs u t' u' (inl p)) \/
  (exists vs t f, o = ORet k vs /\ @ret_eval Op W F Dc [] k rs u t u' (inr vs) /\ t' = t ++ [EvState (i_pid I k) f] /\
     fields_ok W F I k rs vs u' f).
Proof.
  intros Hok H. destruct Hok as (Har & Hb & Hp & Hd). assert (Hok : ret_ok k rs) by (repeat split; auto).
  destruct (snap_decls (i_decls I k) []) as [snaps seen] eqn:HS.
  destruct rs as [|e rs0].
  - right. unfold build_return in H. rewrite HS in H. destruct (all_named F) eqn:HA.
    + destruct (bare_names (f_names F) seen) as [[s r] b] eqn:HN.
      apply send_return in H. destruct H as (t2 & r2 & Hr & -> & ->).
      destruct (bare_names_spec _ _ _ _ _ HN) as (_ & _ & Eb & Er).
      assert (G : t2 = [] /\ u' = u /\ r2 = inr (map (w_res W u) (seq 0 (length (f_names F))))).
      { destruct b; [apply ret_bare in Hr; exact Hr|]. rewrite Er in Hr by reflexivity.
        apply ids_ret in Hr; [|unfold all_named in HA; destruct (f_names F); discriminate].
        destruct Hr as (-> & -> & _ & ->). repeat split. f_equal. apply map_look_names.
        intros i x Hx. apply (Hb eq_refl); auto.
        - eapply all_named_nohole; eauto. eapply nth_error_In; eauto.
        - intros ->. enough (mem (B "_") (f_names F) = true) by congruence. apply mem_in. eapply nth_error_In; eauto. }
      destruct G as (-> & -> & ->). eexists _, [], _. split; [reflexivity|]. split; [apply ret_bare; auto|]. split; [reflexivity|]. eapply bare_fields; eauto.
    + apply send_return in H. destruct H as (t2 & r2 & Hr & -> & ->). apply ret_bare in Hr. destruct Hr as (-> & -> & ->).
      eexists _, [], _. split; [reflexivity|]. split; [apply ret_bare; auto|]. split; [reflexivity|]. eapply plain_fields; eauto.
  - destruct Har as [?|[HL|(H2 & c & op & E)]]; [discriminate| |].
    + rewrite (build_list_eq k (e :: rs0) snaps seen) in H by (auto; discriminate).
      assert (He : Forall plain_e (e :: rs0)) by (apply Forall_forall; intros e' Hin x; apply Hp; auto).
      assert (HT0 : own_names (@nil (bytes * V))) by (intros ? ? []).
      apply execs_split in H. destruct H as [(t1 & u1 & T1 & t2 & R & E & ->)|[E Ho]].
      * apply results_runs in R; auto. destruct R as (l & Hl & ->).
        apply send_return in E. destruct E as (t3 & r2 & Hr & -> & ->).
        apply ids_ret in Hr; [|intros E; apply (f_equal (@length bytes)) in E; rewrite resx_len in E; discriminate].
        destruct Hr as (-> & -> & _ & ->). right.
        destruct (list_fields k (e :: rs0) u t1 u1 l snaps seen _ ltac:(discriminate) HL Hok HS eq_refl Hl) as [EC EF].
        rewrite EC. eexists _, t1, _. split; [reflexivity|]. split; [|split; [reflexivity|exact EF]].
        apply RtList; auto; discriminate.
      * left. destruct (proj1 (results_stops Dt k (e :: rs0) 0 seen [] u t' u' o HT0 He)) as (p & -> & Hpn); [auto|].
        exists p; split; auto. apply RtPanic; auto; discriminate.
    + injection E as -> ->. unfold build_return in H. rewrite HS in H.
      replace (1 <? length (f_names F))%nat with true in H by (symmetry; apply Nat.ltb_lt; lia).
      change [STemps k (spread_names F) (ECall c op);
         SSend k (i_pid I k) (snaps ++ map (fun x => (shown x, x)) (spread_names F)); SReturn k (map EId (spread_names F))]
      with ([STemps k (spread_names F) (ECall c op)] ++
         [SSend k (i_pid I k) (snaps ++ map (fun x => (shown x, x)) (spread_names F)); SReturn k (map EId (spread_names F))]) in H.
      apply execs_split in H. destruct H as [(t1 & u1 & T1 & t2 & R & E & ->)|[E Ho]].
      * apply runs_exec1 in R. inv R. match goal with X : op_of _ = _ |- _ => injection X as <- end.
        apply send_return in E. destruct E as (t3 & r2 & Hr & -> & ->).
        assert (HLv : length vs = length (f_names F)) by (rewrite <- spread_len; assumption).
        apply ids_ret in Hr; [|intros E; apply (f_equal (@length bytes)) in E; rewrite spread_len in E; cbn in E; lia].
        destruct Hr as (-> & -> & _ & ->). right. rewrite spread_look by auto.
        eexists _, t1, _. split; [reflexivity|]. split; [|split; [reflexivity|eapply spread_fields; eauto]].
        apply RtSpread; auto.
      * left. inv E; [xi (@nil (stmt Op)); contradiction|].
        xi (@STemps Op k (spread_names F) (ECall c op)); [contradiction|]. match goal with X : op_of _ = _ |- _ => injection X as <- end.
        eexists; split; eauto. apply RtSpreadPanic; auto.
Qed.

Lemma build_fwd k rs u t u' r : ret_ok k rs -> @ret_eval Op W F Dc [] k rs u t u' r ->
  match r with
  | inl p => @execs Op W F Dt [] (build_return F I k rs) u t u' (OPanic p)
  | inr vs => exists f, @execs Op W F Dt [] (build_return F I k rs) u (t ++ [EvState (i_pid I k) f]) u' (ORet k vs) /\
      fields_ok W F I k rs vs u' f
  end.
Proof.
  intros Hok H. destruct Hok as (Har & Hb & Hp & Hd). assert (Hok : ret_ok k rs) by (repeat split; auto).
  destruct (snap_decls (i_decls I k) []) as [snaps seen] eqn:HS.
  destruct rs as [|e rs0].
  - apply ret_bare in H. destruct H as (-> & -> & ->). unfold build_return. rewrite HS. destruct (all_named F) eqn:HA.
    + destruct (bare_names (f_names F) seen) as [[s r] b] eqn:HN.
      destruct (bare_names_spec _ _ _ _ _ HN) as (_ & _ & Eb & Er).
      eexists; split; [|eapply bare_fields; eauto]. apply send_return. exists [], (inr (map (w_res W u) (seq 0 (length (f_names F))))).
      split; [|split; reflexivity].
      destruct b; [apply ret_bare; auto|]. rewrite Er by reflexivity.
      apply ids_ret; [unfold all_named in HA; destruct (f_names F); discriminate|].
      repeat split. f_equal. symmetry. apply map_look_names.
      intros i x Hx. apply (Hb eq_refl); auto.
      * eapply all_named_nohole; eauto. eapply nth_error_In; eauto.
      * intros ->. enough (mem (B "_") (f_names F) = true) by congruence. apply mem_in. eapply nth_error_In; eauto.
    + eexists; split; [|eapply plain_fields; eauto]. apply send_return. eexists [], _. split; [apply ret_bare; auto|split; reflexivity].
  - destruct Har as [?|[HL|(H2 & c & op & E)]]; [discriminate| |].
    + rewrite (build_list_eq k (e :: rs0) snaps seen) by (auto; discriminate).
      assert (He : Forall plain_e (e :: rs0)) by (apply Forall_forall; intros e' Hin x; apply Hp; auto).
      assert (HT0 : own_names (@nil (bytes * V))) by (intros ? ? []).
      inversion H; subst.
      * cbn in HL; unfold nres in *; lia.
      * cbn in HL; unfold nres in *; lia.
      * match goal with X : evals _ _ _ _ _ _ _ _ _ |- _ =>
          destruct (list_fields k (e :: rs0) u t u' l snaps seen _ ltac:(discriminate) HL Hok HS eq_refl X) as [EC EF] end.
        eexists; split; [|exact EF].
        eapply runs_execs; [apply results_runs; eauto|]. apply send_return. exists [], (inr (convs 0 (fill [] k u' (e :: rs0) l))).
        split; [|split; reflexivity].
        apply ids_ret; [intros E; apply (f_equal (@length bytes)) in E; rewrite resx_len in E; discriminate|].
        rewrite resx_len, EC. auto.
      * apply execs_stop_app; [|discriminate].
        apply (proj2 (results_stops Dt k (e :: rs0) 0 seen [] u t u' (OPanic p) HT0 He)). eauto.
    + injection E as -> ->. unfold build_return. rewrite HS.
      replace (1 <? length (f_names F))%nat with true by (symmetry; apply Nat.ltb_lt; lia).
      inversion H; subst.
      * eexists; split; [|eapply spread_fields; eauto].
        eapply XsCons; [eapply XTemps; eauto; [reflexivity|rewrite spread_len; auto]|].
        apply send_return. eexists [], _. split; [|split; [reflexivity|]].
        -- apply ids_ret; [intros E; apply (f_equal (@length bytes)) in E; rewrite spread_len in E; cbn in E; lia|].
           rewrite spread_len, spread_look; auto.
        -- reflexivity.
      * eapply XsStop; [eapply XTempsPanic; eauto; reflexivity|discriminate].
      * match goal with X : length [_] = _ |- _ => cbn in X; unfold nres in X; lia end.
      * match goal with X : length [_] = _ |- _ => cbn in X; unfold nres in X; lia end.
Qed.


(** ** Whole statements *)

Variable pt : nat -> bool.
Variable rsof : nat -> list (expr Op).
Notation msg := (message W F I pt rsof).

(* every return with [pt] rewritten *)
Fixpoint rwp (s : stmt Op) : stmt Op :=
  match s with
  | SReturn k rs => if pt k then SBlock (build_return F I k rs) else s
  | SBlock b => SBlock (map rwp b)
  | SIf c b els => SIf c (map rwp b) match els with Some e => Some (rwp e) | None => None end
  | SLoop c b p => SLoop c (map rwp b) p
  | SSwitch c cls => SSwitch c (map (map rwp) cls)
  | SSelect c cls => SSelect c (map (map rwp) cls)
  | SLabeled l s' => SLabeled l (rwp s')
  | _ => s
  end.

Definition rets_ok (l : list (nat * list (expr Op))) : Prop :=
  forall k rs, In (k, rs) l -> pt k = true -> rsof k = rs /\ ret_ok k rs.
Definition ok s := plain s = true /\ rets_ok (returns s).
Definition oks b := forallb plain b = true /\ rets_ok (flat_map returns b).
Definition okc cls := forallb (forallb plain) cls = true /\ rets_ok (flat_map (flat_map returns) cls).

Lemma oks_cons s b : oks (s :: b) -> ok s /\ oks b.
Proof.
  intros [H1 H2]. cbn in H1. apply andb_true_iff in H1. destruct H1 as [H1 H3].
  split; split; auto; intros k rs Hk; apply H2; cbn; apply in_app_iff; auto.
Qed.

Lemma okc_nth cls n b : okc cls -> nth_error cls n = Some b -> oks b.
Proof.
  intros [H1 H2] H. apply nth_error_In in H. split.
  - rewrite forallb_forall in H1; auto.
  - intros k rs Hk. apply H2. apply in_flat_map; eauto.
Qed.

Lemma ok_if c b e : ok (SIf c b e) -> oks b /\ forall s, e = Some s -> ok s.
Proof.
  intros [H1 H2]. cbn in H1. apply andb_true_iff in H1. destruct H1 as [H1 H3]. split; [split|]; auto.
  - intros k rs Hk. apply H2. cbn. apply in_app_iff; auto.
  - intros s ->. split; auto. intros k rs Hk. apply H2. cbn. apply in_app_iff; auto.
Qed.

Lemma msg_normal u m : msg u ONormal m -> m = [].
Proof. auto. Qed.
Lemma msg_switch u o m : msg u o m -> msg u (unswitch o) m.
Proof. destruct o as [|[]| | | |]; cbn; auto. Qed.
Lemma msg_label u l o m : msg u o m -> msg u (unlabel l o) m.
Proof. destruct o as [|[]| | | |]; cbn; auto. destruct (beq l _); auto. Qed.
Lemma msg_loop_go u lb o m : loop_ctl lb o = None -> msg u o m -> m = [].
Proof. destruct o as [|[]|[]| | |]; cbn; auto; discriminate. Qed.
Lemma msg_loop_out u lb o o' m : loop_ctl lb o = Some o' -> msg u o m -> msg u o' m.
Proof.
  destruct o as [|[]|[]| | |]; cbn; intros E; try discriminate; try (injection E as <-; cbn; auto; fail).
  destruct lb as [l'|]; [destruct (beq _ l')|]; try discriminate; injection E as <-; auto.
Qed.

Lemma nth_map_rwp cls n : nth_error (map (map rwp) cls) n = match nth_error cls n with Some b => Some (map rwp b) | None => None end.
Proof. revert n; induction cls; intros [|n]; cbn; auto. Qed.

Scheme exec_m := Minimality for exec Sort Prop
  with execs_m := Minimality for execs Sort Prop
  with loops_m := Minimality for loops Sort Prop
  with clauses_m := Minimality for clauses Sort Prop.
Combined Scheme exec_mut from exec_m, execs_m, loops_m, clauses_m.

Ltac take H := let X := fresh in pose proof (H eq_refl) as X; clear H; rename X into H.

Lemma sim_fwd :
  (forall T lb s u t u' T' o, @exec Op W F Dc T lb s u t u' T' o -> T = [] -> ok s ->
     T' = [] /\ exists m, @exec Op W F Dt [] lb (rwp s) u (t ++ m) u' [] o /\ msg u' o m) /\
  (forall T b u t u' o, @execs Op W F Dc T b u t u' o -> T = [] -> oks b ->
     exists m, @execs Op W F Dt [] (map rwp b) u (t ++ m) u' o /\ msg u' o m) /\
  (forall T lb c b p u t u' o, @loops Op W F Dc T lb c b p u t u' o -> T = [] -> oks b ->
     exists m, @loops Op W F Dt [] lb c (map rwp b) p u (t ++ m) u' o /\ msg u' o m) /\
  (forall T cls n u t u' o, @clauses Op W F Dc T cls n u t u' o -> T = [] -> okc cls ->
     exists m, @clauses Op W F Dt [] (map (map rwp) cls) n u (t ++ m) u' o /\ msg u' o m).
Proof.
  apply exec_mut.
  - intros T lb o u t u' r H Hn -> Hok. split; auto. exists []. rewrite app_nil_r. split; [eapply XOp; eauto|reflexivity].
  - intros T lb o u t u' p H -> Hok. split; auto. exists []. rewrite app_nil_r. split; [eapply XOpPanic; eauto|reflexivity].
  - intros T lb b u t u' o _ IH -> Hok. split; auto. destruct (IH eq_refl Hok) as (m & H & Hm). exists m; split; auto. apply XBlock; auto.
  - intros T lb c b e u t1 u1 n t2 u' o Hc _ IH -> Hok. split; auto. apply ok_if in Hok. destruct Hok as [Hb He].
    destruct (IH eq_refl Hb) as (m & H & Hm). exists m; split; auto. cbn [rwp]. rewrite <- app_assoc. eapply XIfTrue; eauto.
  - intros T lb c b u t u' Hc -> Hok. split; auto. exists []. rewrite app_nil_r. split; [cbn [rwp]; eapply XIfNone; eauto|reflexivity].
  - intros T lb c b e u t1 u1 t2 u' T' o Hc _ IH -> Hok. split; auto. apply ok_if in Hok. destruct Hok as [Hb He].
    destruct (IH eq_refl (He e eq_refl)) as (-> & m & H & Hm). exists m; split; auto. cbn [rwp]. rewrite <- app_assoc. eapply XIfElse; eauto.
  - intros T lb c b e u t u' p Hc -> Hok. split; auto. exists []. rewrite app_nil_r. split; [cbn [rwp]; eapply XIfPanic; eauto|reflexivity].
  - intros T lb c b p u t u' o _ IH -> Hok. split; auto. destruct (IH eq_refl Hok) as (m & H & Hm). exists m; split; auto. cbn [rwp]. apply XLoop; auto.
  - intros T lb c cls u t1 u1 n t2 u' o Hc _ IH -> Hok. split; auto. destruct (IH eq_refl Hok) as (m & H & Hm).
    exists m; split; [|apply msg_switch; auto]. cbn [rwp]. rewrite <- app_assoc. eapply XSwitch; eauto.
  - intros T lb c cls u t u' p Hc -> Hok. split; auto. exists []. rewrite app_nil_r. split; [cbn [rwp]; eapply XSwitchPanic; eauto|reflexivity].
  - intros T lb c cls u t1 u1 n t2 u' o Hc _ IH -> Hok. split; auto. destruct (IH eq_refl Hok) as (m & H & Hm).
    exists m; split; [|apply msg_switch; auto]. cbn [rwp]. rewrite <- app_assoc. eapply XSelect; eauto.
  - intros T lb c cls u t u' p Hc -> Hok. split; auto. exists []. rewrite app_nil_r. split; [cbn [rwp]; eapply XSelectPanic; eauto|reflexivity].
  - intros T lb l s u t u' T' o _ IH -> Hok. split; auto. destruct (IH eq_refl Hok) as (-> & m & H & Hm).
    exists m; split; [|apply msg_label; auto]. cbn [rwp]. eapply XLabeled; eauto.
  - intros T lb k rs u t u' vs H -> Hok. split; auto. cbn [rwp].
    destruct (pt k) eqn:Ek.
    + destruct (proj2 Hok k rs (or_introl eq_refl) Ek) as [Ers Hr].
      destruct (build_fwd k rs u t u' _ Hr H) as (f & Hx & Hf). exists [EvState (i_pid I k) f].
      split; [apply XBlock; auto|]. cbn. rewrite Ek, Ers. eauto.
    + exists []. rewrite app_nil_r. split; [apply XReturn; apply ret_mono; auto|]. cbn. rewrite Ek; reflexivity.
  - intros T lb k rs u t u' p H -> Hok. split; auto. cbn [rwp]. exists []. rewrite app_nil_r. split; [|reflexivity].
    destruct (pt k) eqn:Ek.
    + destruct (proj2 Hok k rs (or_introl eq_refl) Ek) as [Ers Hr]. apply XBlock. apply (build_fwd k rs u t u' _ Hr H).
    + apply XReturnPanic; apply ret_mono; auto.
  - intros T lb l u -> Hok. split; auto. exists []. split; [apply XBreak|reflexivity].
  - intros T lb l u -> Hok. split; auto. exists []. split; [apply XContinue|reflexivity].
  - intros T lb u -> Hok. split; auto. exists []. split; [apply XFall|reflexivity].
  - intros T lb k x ty e u t u' v H -> [Hp _]. discriminate.
  - intros T lb k x ty e u t u' v H -> [Hp _]. discriminate.
  - intros T lb k xs e o u t u' vs H1 H2 H3 -> [Hp _]. discriminate.
  - intros T lb k xs e o u t u' vs H1 H2 -> [Hp _]. discriminate.
  - intros T lb k p sn u -> [Hp _]. discriminate.
  - intros T u -> _. exists []. split; [constructor|reflexivity].
  - intros T s b u t1 u1 T1 t2 u' o _ IH1 _ IH2 -> Hok. apply oks_cons in Hok. destruct Hok as [H1 H2].
    destruct (IH1 eq_refl H1) as (-> & m1 & X1 & M1). apply msg_normal in M1; subst m1. rewrite app_nil_r in X1.
    destruct (IH2 eq_refl H2) as (m & X & M). exists m. split; auto. cbn [map]. rewrite <- app_assoc. eapply XsCons; eauto.
  - intros T s b u t u' T1 o _ IH1 Ho -> Hok. apply oks_cons in Hok. destruct Hok as [H1 H2].
    destruct (IH1 eq_refl H1) as (-> & m & X & M). exists m. split; auto. cbn [map]. eapply XsStop; eauto.
  - intros T lb c b p u t u' H -> _. exists []. rewrite app_nil_r. split; [apply LDone; auto|reflexivity].
  - intros T lb c b p u t u' v H -> _. exists []. rewrite app_nil_r. split; [apply LPanic; auto|reflexivity].
  - intros T lb c b p u t1 u1 n t2 u2 o t3 u3 r t4 u' o' Hc _ IHb Ho Hp Hr _ IHl -> Hok.
    destruct (IHb eq_refl Hok) as (m1 & X1 & M1). apply (msg_loop_go _ _ _ _ Ho) in M1; subst m1. rewrite app_nil_r in X1.
    destruct (IHl eq_refl Hok) as (m & X & M). exists m. split; auto. rewrite <- !app_assoc. eapply LStep; eauto.
  - intros T lb c b p u t1 u1 n t2 u2 o t3 u' v Hc _ IHb Ho Hp -> Hok.
    destruct (IHb eq_refl Hok) as (m1 & X1 & M1). apply (msg_loop_go _ _ _ _ Ho) in M1; subst m1. rewrite app_nil_r in X1.
    exists []. rewrite app_nil_r. split; [|reflexivity]. eapply LPost; eauto.
  - intros T lb c b p u t1 u1 n t2 u' o o' Hc _ IHb Ho -> Hok.
    destruct (IHb eq_refl Hok) as (m & X & M). exists m. split; [|eapply msg_loop_out; eauto].
    rewrite <- app_assoc. eapply LLeave; eauto.
  - intros T cls n u Hn -> _. exists []. split; [|reflexivity]. apply CNone. rewrite nth_map_rwp, Hn; reflexivity.
  - intros T cls n b u t u' o Hn _ IH Ho -> Hok. destruct (IH eq_refl (okc_nth _ _ _ Hok Hn)) as (m & X & M).
    exists m. split; auto. eapply CRun; eauto. rewrite nth_map_rwp, Hn; reflexivity.
  - intros T cls n b u t1 u1 t2 u' o Hn _ IH _ IHc -> Hok. destruct (IH eq_refl (okc_nth _ _ _ Hok Hn)) as (m1 & X1 & M1).
    cbn in M1; subst m1. rewrite app_nil_r in X1. destruct (IHc eq_refl Hok) as (m & X & M).
    exists m. split; auto. rewrite <- app_assoc. eapply CFall; eauto. rewrite nth_map_rwp, Hn; reflexivity.
Qed.

(* inverting [rwp] *)
Lemma rwp_op o s : SOp o = rwp s -> s = SOp o.
Proof. destruct s; cbn; try destruct (pt k); congruence. Qed.
Lemma rwp_block b s : SBlock b = rwp s -> (exists b0, s = SBlock b0 /\ b = map rwp b0) \/
  exists k rs, s = SReturn k rs /\ pt k = true /\ b = build_return F I k rs.
Proof.
  destruct s as [| | | | | | |k rs| | | | | |]; cbn; try discriminate; intros H.
  - injection H as ->; eauto.
  - destruct (pt k) eqn:E; [|discriminate]. injection H as ->. eauto 6.
Qed.
Lemma rwp_if c b e s : SIf c b e = rwp s -> exists b0 e0, s = SIf c b0 e0 /\ b = map rwp b0 /\
  e = match e0 with Some x => Some (rwp x) | None => None end.
Proof. destruct s as [| | | | | | |k rs| | | | | |]; cbn; try destruct (pt k); try discriminate. intros H; injection H as -> -> ->; eauto. Qed.
Lemma rwp_loop c b p s : SLoop c b p = rwp s -> exists b0, s = SLoop c b0 p /\ b = map rwp b0.
Proof. destruct s as [| | | | | | |k rs| | | | | |]; cbn; try destruct (pt k); try discriminate. intros H; injection H as -> -> ->; eauto. Qed.
Lemma rwp_switch c cls s : SSwitch c cls = rwp s -> exists c0, s = SSwitch c c0 /\ cls = map (map rwp) c0.
Proof. destruct s as [| | | | | | |k rs| | | | | |]; cbn; try destruct (pt k); try discriminate. intros H; injection H as -> ->; eauto. Qed.
Lemma rwp_select c cls s : SSelect c cls = rwp s -> exists c0, s = SSelect c c0 /\ cls = map (map rwp) c0.
Proof. destruct s as [| | | | | | |k rs| | | | | |]; cbn; try destruct (pt k); try discriminate. intros H; injection H as -> ->; eauto. Qed.
Lemma rwp_labeled l s' s : SLabeled l s' = rwp s -> exists s0, s = SLabeled l s0 /\ s' = rwp s0.
Proof. destruct s as [| | | | | | |k rs| | | | | |]; cbn; try destruct (pt k); try discriminate. intros H; injection H as -> ->; eauto. Qed.
Lemma rwp_return k rs s : SReturn k rs = rwp s -> s = SReturn k rs /\ pt k = false.
Proof. destruct s as [| | | | | | |k0 rs0| | | | | |]; cbn; try discriminate. destruct (pt k0) eqn:E; [discriminate|]. intros H; injection H as -> ->; auto. Qed.
Lemma rwp_leaf s' s : s' = rwp s -> (forall b, s' <> SBlock b) -> match s' with SBreak _ | SContinue _ | SFallthrough | STemp _ _ _ _ | STemps _ _ _ | SSend _ _ _ => s = s' | _ => True end.
Proof. intros -> Hb. destruct s as [| | | | | | |k rs| | | | | |]; cbn in *; auto. destruct (pt k); auto. Qed.

Lemma sim_bwd :
  (forall T lb s' u t' u' T' o, @exec Op W F Dt T lb s' u t' u' T' o -> T = [] -> forall s, s' = rwp s -> ok s ->
     T' = [] /\ exists t m, @exec Op W F Dt [] lb s u t u' [] o /\ t' = t ++ m /\ msg u' o m) /\
  (forall T b' u t' u' o, @execs Op W F Dt T b' u t' u' o -> T = [] -> forall b, b' = map rwp b -> oks b ->
     exists t m, @execs Op W F Dt [] b u t u' o /\ t' = t ++ m /\ msg u' o m) /\
  (forall T lb c b' p u t' u' o, @loops Op W F Dt T lb c b' p u t' u' o -> T = [] -> forall b, b' = map rwp b -> oks b ->
     exists t m, @loops Op W F Dt [] lb c b p u t u' o /\ t' = t ++ m /\ msg u' o m) /\
  (forall T cls' n u t' u' o, @clauses Op W F Dt T cls' n u t' u' o -> T = [] -> forall cls, cls' = map (map rwp) cls -> okc cls ->
     exists t m, @clauses Op W F Dt [] cls n u t u' o /\ t' = t ++ m /\ msg u' o m).
Proof.
  apply exec_mut.
  - intros T lb o u t u' r H Hn -> s Es Hok. apply rwp_op in Es; subst s. split; auto. exists t, []. rewrite app_nil_r. repeat split. eapply XOp; eauto.
  - intros T lb o u t u' r H -> s Es Hok. apply rwp_op in Es; subst s. split; auto. exists t, []. rewrite app_nil_r. repeat split. eapply XOpPanic; eauto.
  - intros T lb b u t u' o X IH -> s Es Hok. split; auto. apply rwp_block in Es. destruct Es as [(b0 & -> & ->)|(k & rs & -> & Ek & ->)].
    + destruct (IH eq_refl b0 eq_refl Hok) as (t0 & m & H & -> & Hm). exists t0, m. repeat split; auto. apply XBlock; auto.
    + destruct (proj2 Hok k rs (or_introl eq_refl) Ek) as [Ers Hr].
      destruct (build_bwd k rs u t u' o Hr X) as [(p & -> & H)|(vs & t0 & f & -> & H & -> & Hf)].
      * exists t, []. rewrite app_nil_r. repeat split. apply XReturnPanic; apply ret_mono; auto.
      * exists t0, [EvState (i_pid I k) f]. split; [apply XReturn; apply ret_mono; auto|]. split; auto. cbn. rewrite Ek, Ers. eauto.
  - intros T lb c b e u t1 u1 n t2 u' o Hc _ IH -> s Es Hok. split; auto. apply rwp_if in Es. destruct Es as (b0 & e0 & -> & -> & ->).
    apply ok_if in Hok. destruct Hok as [Hb He]. destruct (IH eq_refl b0 eq_refl Hb) as (t0 & m & H & -> & Hm).
    exists (t1 ++ t0), m. rewrite app_assoc. repeat split; auto. eapply XIfTrue; eauto.
  - intros T lb c b u t u' Hc -> s Es Hok. split; auto. apply rwp_if in Es. destruct Es as (b0 & e0 & -> & -> & E).
    destruct e0; [discriminate|]. exists t, []. rewrite app_nil_r. repeat split. eapply XIfNone; eauto.
  - intros T lb c b e u t1 u1 t2 u' T' o Hc _ IH -> s Es Hok. split; auto. apply rwp_if in Es. destruct Es as (b0 & e0 & -> & -> & E).
    destruct e0 as [e0|]; [|discriminate]. injection E as ->. apply ok_if in Hok. destruct Hok as [Hb He].
    destruct (IH eq_refl e0 eq_refl (He e0 eq_refl)) as (-> & t0 & m & H & -> & Hm).
    exists (t1 ++ t0), m. rewrite app_assoc. repeat split; auto. eapply XIfElse; eauto.
  - intros T lb c b e u t u' p Hc -> s Es Hok. split; auto. apply rwp_if in Es. destruct Es as (b0 & e0 & -> & -> & E).
    exists t, []. rewrite app_nil_r. repeat split. eapply XIfPanic; eauto.
  - intros T lb c b p u t u' o _ IH -> s Es Hok. split; auto. apply rwp_loop in Es. destruct Es as (b0 & -> & ->).
    destruct (IH eq_refl b0 eq_refl Hok) as (t0 & m & H & -> & Hm). exists t0, m. repeat split; auto. apply XLoop; auto.
  - intros T lb c cls u t1 u1 n t2 u' o Hc _ IH -> s Es Hok. split; auto. apply rwp_switch in Es. destruct Es as (c0 & -> & ->).
    destruct (IH eq_refl c0 eq_refl Hok) as (t0 & m & H & -> & Hm). exists (t1 ++ t0), m. rewrite app_assoc. repeat split; auto; [|apply msg_switch; auto]. eapply XSwitch; eauto.
  - intros T lb c cls u t u' p Hc -> s Es Hok. split; auto. apply rwp_switch in Es. destruct Es as (c0 & -> & ->).
    exists t, []. rewrite app_nil_r. repeat split. eapply XSwitchPanic; eauto.
  - intros T lb c cls u t1 u1 n t2 u' o Hc _ IH -> s Es Hok. split; auto. apply rwp_select in Es. destruct Es as (c0 & -> & ->).
    destruct (IH eq_refl c0 eq_refl Hok) as (t0 & m & H & -> & Hm). exists (t1 ++ t0), m. rewrite app_assoc. repeat split; auto; [|apply msg_switch; auto]. eapply XSelect; eauto.
  - intros T lb c cls u t u' p Hc -> s Es Hok. split; auto. apply rwp_select in Es. destruct Es as (c0 & -> & ->).
    exists t, []. rewrite app_nil_r. repeat split. eapply XSelectPanic; eauto.
  - intros T lb l s' u t u' T' o _ IH -> s Es Hok. split; auto. apply rwp_labeled in Es. destruct Es as (s0 & -> & ->).
    destruct (IH eq_refl s0 eq_refl Hok) as (-> & t0 & m & H & -> & Hm). exists t0, m. repeat split; auto; [|apply msg_label; auto]. eapply XLabeled; eauto.
  - intros T lb k rs u t u' vs H -> s Es Hok. split; auto. apply rwp_return in Es. destruct Es as [-> Ek].
    exists t, []. rewrite app_nil_r. repeat split; [apply XReturn; auto|]. cbn. rewrite Ek; reflexivity.
  - intros T lb k rs u t u' vs H -> s Es Hok. split; auto. apply rwp_return in Es. destruct Es as [-> Ek].
    exists t, []. rewrite app_nil_r. repeat split; apply XReturnPanic; auto.
  - intros T lb l u -> s Es Hok. split; auto. apply rwp_leaf in Es; [|discriminate]. subst s. exists [], []. repeat split. apply XBreak.
  - intros T lb l u -> s Es Hok. split; auto. apply rwp_leaf in Es; [|discriminate]. subst s. exists [], []. repeat split. apply XContinue.
  - intros T lb u -> s Es Hok. split; auto. apply rwp_leaf in Es; [|discriminate]. subst s. exists [], []. repeat split. apply XFall.
  - intros T lb k x ty e u t u' v H -> s Es [Hp _]. apply rwp_leaf in Es; [|discriminate]. subst s. discriminate.
  - intros T lb k x ty e u t u' v H -> s Es [Hp _]. apply rwp_leaf in Es; [|discriminate]. subst s. discriminate.
  - intros T lb k xs e o u t u' vs H1 H2 H3 -> s Es [Hp _]. apply rwp_leaf in Es; [|discriminate]. subst s. discriminate.
  - intros T lb k xs e o u t u' vs H1 H2 -> s Es [Hp _]. apply rwp_leaf in Es; [|discriminate]. subst s. discriminate.
  - intros T lb k p sn u -> s Es [Hp _]. apply rwp_leaf in Es; [|discriminate]. subst s. discriminate.
  - intros T u -> b Eb _. destruct b; [|discriminate]. exists [], []. repeat split. constructor.
  - intros T s' b' u t1 u1 T1 t2 u' o _ IH1 _ IH2 -> b Eb Hok. destruct b as [|s b]; [discriminate|]. cbn in Eb; injection Eb as -> ->.
    apply oks_cons in Hok. destruct Hok as [H1 H2].
    destruct (IH1 eq_refl s eq_refl H1) as (-> & t0 & m1 & X1 & -> & M1). apply msg_normal in M1; subst m1.
    destruct (IH2 eq_refl b eq_refl H2) as (t3 & m & X & -> & M). exists (t0 ++ t3), m. rewrite app_nil_r, app_assoc. repeat split; auto. eapply XsCons; eauto.
  - intros T s' b' u t u' T1 o _ IH1 Ho -> b Eb Hok. destruct b as [|s b]; [discriminate|]. cbn in Eb; injection Eb as -> ->.
    apply oks_cons in Hok. destruct Hok as [H1 H2].
    destruct (IH1 eq_refl s eq_refl H1) as (-> & t0 & m & X & -> & M). exists t0, m. repeat split; auto. eapply XsStop; eauto.
  - intros T lb c b' p u t u' H -> b Eb _. exists t, []. rewrite app_nil_r. repeat split. apply LDone; auto.
  - intros T lb c b' p u t u' v H -> b Eb _. exists t, []. rewrite app_nil_r. repeat split. apply LPanic; auto.
  - intros T lb c b' p u t1 u1 n t2 u2 o t3 u3 r t4 u' o' Hc _ IHb Ho Hp Hr _ IHl -> b Eb Hok.
    destruct (IHb eq_refl b Eb Hok) as (t0 & m1 & X1 & -> & M1). apply (msg_loop_go _ _ _ _ Ho) in M1; subst m1.
    destruct (IHl eq_refl b Eb Hok) as (t5 & m & X & -> & M). exists (t1 ++ t0 ++ t3 ++ t5), m.
    rewrite app_nil_r, <- !app_assoc. repeat split; auto. eapply LStep; eauto.
  - intros T lb c b' p u t1 u1 n t2 u2 o t3 u' v Hc _ IHb Ho Hp -> b Eb Hok.
    destruct (IHb eq_refl b Eb Hok) as (t0 & m1 & X1 & -> & M1). apply (msg_loop_go _ _ _ _ Ho) in M1; subst m1.
    exists (t1 ++ t0 ++ t3), []. rewrite !app_nil_r. repeat split. eapply LPost; eauto.
  - intros T lb c b' p u t1 u1 n t2 u' o o' Hc _ IHb Ho -> b Eb Hok.
    destruct (IHb eq_refl b Eb Hok) as (t0 & m & X & -> & M). exists (t1 ++ t0), m. rewrite app_assoc. repeat split; [|eapply msg_loop_out; eauto].
    eapply LLeave; eauto.
  - intros T cls' n u Hn -> cls Ec _. subst cls'. rewrite nth_map_rwp in Hn. destruct (nth_error cls n) eqn:En; [discriminate|].
    exists [], []. repeat split. apply CNone; auto.
  - intros T cls' n b u t u' o Hn _ IH Ho -> cls Ec Hok. subst cls'. rewrite nth_map_rwp in Hn. destruct (nth_error cls n) as [b0|] eqn:En; [|discriminate].
    injection Hn as <-. destruct (IH eq_refl b0 eq_refl (okc_nth _ _ _ Hok En)) as (t0 & m & X & -> & M).
    exists t0, m. repeat split; auto. eapply CRun; eauto.
  - intros T cls' n b u t1 u1 t2 u' o Hn _ IH _ IHc -> cls Ec Hok. subst cls'. rewrite nth_map_rwp in Hn. destruct (nth_error cls n) as [b0|] eqn:En; [|discriminate].
    injection Hn as <-. destruct (IH eq_refl b0 eq_refl (okc_nth _ _ _ Hok En)) as (t0 & m1 & X1 & -> & M1). cbn in M1; subst m1.
    destruct (IHc eq_refl cls eq_refl Hok) as (t3 & m & X & -> & M).
    exists (t0 ++ t3), m. rewrite app_nil_r, app_assoc. repeat split; auto. eapply CFall; eauto.
Qed.

End P.

(** ** What the rewriting reaches *)

Section R.
Variable Op : Type.
Variable F : func.
Variable I : info Op.

Fixpoint depth (s : stmt Op) : nat :=
  match s with
  | SBlock b => S (list_max (map depth b))
  | SIf _ b e => S (Nat.max (list_max (map depth b)) match e with Some s => depth s | None => 0 end)
  | SLoop _ b _ => S (list_max (map depth b))
  | SSwitch _ cls | SSelect _ cls => S (list_max (map (fun b => list_max (map depth b)) cls))
  | SLabeled _ s => S (depth s)
  | _ => 0
  end%nat.

Lemma depth_in (b : list (stmt Op)) s : In s b -> (depth s <= list_max (map depth b))%nat.
Proof.
  intros H. pose proof (proj1 (list_max_le (map depth b) _) (le_n _)) as A.
  rewrite Forall_forall in A. apply A. apply in_map; auto.
Qed.

Lemma depth_in2 (cls : list (list (stmt Op))) b s : In b cls -> In s b ->
  (depth s <= list_max (map (fun b => list_max (map depth b)) cls))%nat.
Proof.
  intros H Hs. pose proof (proj1 (list_max_le (map (fun b => list_max (map depth b)) cls) _) (le_n _)) as A.
  rewrite Forall_forall in A. etransitivity; [apply depth_in; eauto|].
  apply A. apply in_map_iff; eauto.
Qed.

Lemma stmt_nest (P : stmt Op -> Prop) :
  (forall s, (forall s', (depth s' < depth s)%nat -> P s') -> P s) -> forall s, P s.
Proof.
  intros H s. remember (depth s) as n eqn:E. revert s E.
  induction n as [n IH] using lt_wf_ind. intros s ->. apply H. intros s' Hs. eapply IH; eauto.
Qed.

Ltac dp := cbn [depth]; repeat first [match goal with H : In ?s ?b, H2 : In ?b ?cls |- _ => pose proof (depth_in2 _ _ _ H2 H); clear H H2 end
  | match goal with H : In ?s ?b |- _ => pose proof (depth_in _ _ H); clear H end]; lia.

Definition tags (s : stmt Op) : list nat := map fst (returns s).
Definition tagss (b : list (stmt Op)) : list nat := map fst (flat_map returns b).

Lemma tagss_in b k : In k (tagss b) <-> exists s, In s b /\ In k (tags s).
Proof.
  unfold tagss, tags. rewrite in_map_iff. split.
  - intros ([k' rs] & E & H). cbn in E; subst k'. apply in_flat_map in H. destruct H as (s & Hs & H).
    exists s; split; auto. apply in_map_iff. exists (k, rs); auto.
  - intros (s & Hs & H). apply in_map_iff in H. destruct H as ([k' rs] & E & H). cbn in E; subst k'.
    exists (k, rs); split; auto. apply in_flat_map; eauto.
Qed.

Lemma reached_tags s : forall k, In k (reached s) -> In k (tags s).
Proof.
  induction s as [s IH] using stmt_nest. intros k Hk.
  assert (L : forall b, (forall s', In s' b -> (depth s' < depth s)%nat) -> In k (flat_map reached b) -> In k (tagss b)).
  { intros b Hb H. apply in_flat_map in H. destruct H as (s' & Hs & H). apply tagss_in. exists s'; split; auto. }
  destruct s as [|b|c b e|c b p|c cls|c cls|l s|k0 rs| | | | | |]; cbn [reached] in Hk; try contradiction.
  - apply L; auto. intros s' Hs. dp.
  - unfold tags; cbn [returns]. rewrite map_app. apply in_app_iff. apply in_app_iff in Hk. destruct Hk as [Hk|Hk].
    + left. apply L; auto. intros s' Hs; dp.
    + right. destruct e as [[|b2|c2 b2 e2| | | | | | | | | | |]|]; try contradiction.
      * cbn [returns]. apply L; auto. intros s' Hs. dp.
      * cbn [returns]. rewrite map_app. apply in_app_iff. left. apply L; auto. intros s' Hs. dp.
  - apply L; auto. intros s' Hs. dp.
  - apply in_flat_map in Hk. destruct Hk as (b & Hb & Hk).
    assert (G : In k (tagss b)). { apply L; auto. intros s' Hs. dp. }
    unfold tags; cbn [returns]. unfold tagss in G. apply in_map_iff in G. destruct G as (x & E & G).
    apply in_map_iff. exists x; split; auto. apply in_flat_map; eauto.
  - destruct Hk as [<-|[]]. cbn. auto.
Qed.

Lemma rwp_ext pt pt' s : (forall k, In k (tags s) -> pt k = pt' k) -> rwp Op F I pt s = rwp Op F I pt' s.
Proof.
  induction s as [s IH] using stmt_nest. intros H.
  assert (L : forall b, (forall s', In s' b -> (depth s' < depth s)%nat) -> (forall k, In k (tagss b) -> pt k = pt' k) ->
    map (rwp Op F I pt) b = map (rwp Op F I pt') b).
  { intros b Hb Hk. apply map_ext_in. intros s' Hs. apply IH; auto. intros k H'. apply Hk. apply tagss_in; eauto. }
  destruct s as [|b|c b e|c b p|c cls|c cls|l s|k0 rs| | | | | |]; cbn [rwp]; try reflexivity.
  - f_equal. apply L; auto. intros s' Hs. dp.
  - f_equal.
    + apply L; [intros s' Hs; dp|]. intros k Hk. apply H. unfold tags; cbn. rewrite map_app. apply in_app_iff; auto.
    + destruct e as [e|]; auto. f_equal. apply IH; [cbn [depth]; lia|]. intros k Hk. apply H. unfold tags; cbn. rewrite map_app. apply in_app_iff; auto.
  - f_equal. apply L; auto. intros s' Hs. dp.
  - f_equal. apply map_ext_in. intros b Hb. apply L; [intros s' Hs; dp|]. intros k Hk. apply H. unfold tags, tagss in *; cbn.
    apply in_map_iff in Hk. destruct Hk as (x & E & Hx). apply in_map_iff. exists x; split; auto. apply in_flat_map; eauto.
  - f_equal. apply map_ext_in. intros b Hb. apply L; [intros s' Hs; dp|]. intros k Hk. apply H. unfold tags, tagss in *; cbn.
    apply in_map_iff in Hk. destruct Hk as (x & E & Hx). apply in_map_iff. exists x; split; auto. apply in_flat_map; eauto.
  - f_equal. apply IH; [cbn [depth]; lia|]. auto.
  - rewrite (H k0); auto. cbn; auto.
Qed.

Lemma map_id_in {A} (f : A -> A) l : (forall x, In x l -> f x = x) -> map f l = l.
Proof. induction l; cbn; intros H; f_equal; auto. Qed.

Lemma rwp_none s : rwp Op F I (fun _ => false) s = s.
Proof.
  induction s as [s IH] using stmt_nest.
  destruct s as [|b|c b e|c b p|c cls|c cls|l s|k0 rs| | | | | |]; cbn [rwp]; try reflexivity; f_equal.
  - apply map_id_in. intros s Hs. apply IH. dp.
  - apply map_id_in. intros s Hs. apply IH. dp.
  - destruct e as [e|]; auto. f_equal. apply IH. cbn [depth]; lia.
  - apply map_id_in. intros s Hs. apply IH. dp.
  - apply map_id_in. intros b Hb. apply map_id_in. intros s Hs. apply IH. dp.
  - apply map_id_in. intros b Hb. apply map_id_in. intros s Hs. apply IH. dp.
  - apply IH. cbn [depth]; lia.
Qed.

(* selecting the reached tags of one part only *)
Definition sel (pt : nat -> bool) (ks : list nat) (tg : list nat) : Prop := forall k, In k tg -> (pt k = true <-> In k ks).

Lemma sel_none pt s : sel pt [] (tags s) -> rwp Op F I pt s = s.
Proof.
  intros H. rewrite <- (rwp_none s) at 2. apply rwp_ext. intros k Hk. specialize (H k Hk).
  destruct (pt k); auto. destruct (proj1 H eq_refl).
Qed.

Lemma nodup_app_dis {A} (a b : list A) x : NoDup (a ++ b) -> In x a -> In x b -> False.
Proof.
  induction a as [|y a IH]; cbn; intros H Ha Hb; [contradiction|]. inversion H; subst.
  destruct Ha as [<-|Ha]; eauto. match goal with X : ~ In _ _ |- _ => apply X end. apply in_app_iff; auto.
Qed.

Lemma nodup_app_l {A} (a b : list A) : NoDup (a ++ b) -> NoDup a.
Proof. induction a; cbn; intros H; constructor; inversion H; subst; auto. intros Hx; match goal with X : ~ In _ _ |- _ => apply X end. apply in_app_iff; auto. Qed.
Lemma nodup_app_r {A} (a b : list A) : NoDup (a ++ b) -> NoDup b.
Proof. induction a; cbn; intros H; auto. inversion H; auto. Qed.

(* lists of parts with their reached and all tags *)
Lemma part {A} (R T : A -> list nat) (l : list A) : (forall a k, In k (R a) -> In k (T a)) -> NoDup (flat_map T l) ->
  forall pt, sel pt (flat_map R l) (flat_map T l) -> forall a, In a l -> NoDup (T a) /\ sel pt (R a) (T a).
Proof.
  intros HRT. induction l as [|a0 l IH]; cbn; intros HN pt HS a Ha; [contradiction|].
  assert (HRl : forall k, In k (flat_map R l) -> In k (flat_map T l)).
  { intros k Hk. apply in_flat_map in Hk. destruct Hk as (b & Hb & Hk). apply in_flat_map; eauto. }
  destruct Ha as [<-|Ha].
  - split; [eapply nodup_app_l; eauto|]. intros k Hk. rewrite (HS k) by (apply in_app_iff; auto). rewrite in_app_iff.
    split; auto. intros [?|H]; auto. exfalso. eapply nodup_app_dis; eauto.
  - apply IH; auto; [eapply nodup_app_r; eauto|]. intros k Hk. rewrite (HS k) by (apply in_app_iff; auto). rewrite in_app_iff.
    split; auto. intros [H|?]; auto. exfalso. eapply nodup_app_dis; eauto.
Qed.

Lemma sel_app pt r1 r2 t1 t2 : (forall k, In k r1 -> In k t1) -> (forall k, In k r2 -> In k t2) -> NoDup (t1 ++ t2) ->
  sel pt (r1 ++ r2) (t1 ++ t2) -> sel pt r1 t1 /\ sel pt r2 t2.
Proof.
  intros H1 H2 HN HS. split; intros k Hk; rewrite (HS k) by (apply in_app_iff; auto); rewrite in_app_iff; split; auto;
    intros [?|?]; auto; exfalso; eapply nodup_app_dis; eauto.
Qed.

Lemma tagss_flat b : tagss b = flat_map tags b.
Proof. unfold tagss, tags. induction b; cbn; auto. rewrite map_app, IHb; auto. Qed.
Lemma tagsss_flat (cls : list (list (stmt Op))) : map fst (flat_map (flat_map returns) cls) = flat_map tagss cls.
Proof. induction cls; cbn; auto. rewrite map_app, IHcls; auto. Qed.

Lemma rw_rwp s : forall pt, NoDup (tags s) -> sel pt (reached s) (tags s) -> rw F I s = rwp Op F I pt s.
Proof.
  induction s as [s IH] using stmt_nest. intros pt HN HS.
  assert (L : forall b, (forall s', In s' b -> (depth s' < depth s)%nat) -> NoDup (tagss b) -> sel pt (flat_map reached b) (tagss b) ->
    map (rw F I) b = map (rwp Op F I pt) b).
  { intros b Hb N S. apply map_ext_in. intros s' Hs. rewrite tagss_flat in *.
    destruct (part _ _ b reached_tags N pt S s' Hs). apply IH; auto. }
  assert (RT : forall b k, In k (flat_map reached b) -> In k (tagss b)).
  { intros b k Hk. apply in_flat_map in Hk. destruct Hk as (s' & Hs & H). apply tagss_in. exists s'; split; auto. apply reached_tags; auto. }
  destruct s as [|b|c b e|c b p|c cls|c cls|l s|k0 rs| | | | | |]; cbn [rw rwp]; try reflexivity.
  - f_equal. apply L; auto. intros s' Hs. dp.
  - unfold tags in HN, HS; cbn [returns reached] in HN, HS. rewrite map_app in HN, HS.
    assert (G : sel pt (flat_map reached b) (tagss b) /\
      sel pt (match e with Some (SBlock b') => flat_map reached b' | Some (SIf c' b' e') => flat_map reached b' | _ => [] end)
             (match e with Some s => tags s | None => [] end)).
    { apply sel_app; auto.
      - intros k Hk. destruct e as [[|b2|c2 b2 e2| | | | | | | | | | |]|]; try contradiction.
        + apply RT; auto.
        + unfold tags; cbn. rewrite map_app. apply in_app_iff. left. apply RT; auto.
      - destruct e; auto.
      - destruct e; auto. }
    destruct G as [G1 G2]. f_equal.
    + apply L; auto; [intros s' Hs; dp|eapply nodup_app_l; eauto].
    + apply nodup_app_r in HN. destruct e as [e|]; auto.
      destruct e as [|b2|c2 b2 e2| | | | | | | | | | |]; try (rewrite sel_none by auto; reflexivity).
      * cbn [rwp]. do 2 f_equal. apply L; auto. intros s' Hs; dp.
      * cbn [rwp]. unfold tags in HN, G2; cbn [returns] in HN, G2. rewrite map_app in HN, G2.
        rewrite <- (app_nil_r (flat_map reached b2)) in G2.
        assert (G : sel pt (flat_map reached b2) (tagss b2) /\ sel pt [] (match e2 with Some s => tags s | None => [] end)).
        { apply sel_app; auto; [intros ? []|destruct e2; auto|destruct e2; auto]. }
        destruct G as [G3 G4]. do 2 f_equal.
        -- apply L; auto; [intros s' Hs; dp|eapply nodup_app_l; eauto].
        -- destruct e2; auto. f_equal. symmetry. apply sel_none; auto.
  - f_equal. apply L; auto. intros s' Hs. dp.
  - f_equal. apply map_ext_in. intros b Hb. unfold tags in HN, HS; cbn [returns reached] in HN, HS. rewrite tagsss_flat in HN, HS.
    destruct (part (flat_map reached) tagss cls RT HN pt HS b Hb) as [A C]. apply L; auto. intros s' Hs; dp.
  - f_equal. symmetry. apply map_id_in. intros b Hb. apply map_id_in. intros s Hs. apply sel_none.
    intros k Hk. apply HS. unfold tags; cbn [returns]. rewrite tagsss_flat. apply in_flat_map. exists b; split; auto. apply tagss_in; eauto.
  - f_equal. symmetry. apply sel_none. auto.
  - destruct (pt k0) eqn:E; auto. exfalso. assert (X : pt k0 = true) by (apply HS; cbn; auto). congruence.
Qed.

Lemma rws_rwp b pt : NoDup (tagss b) -> sel pt (flat_map reached b) (tagss b) -> map (rw F I) b = map (rwp Op F I pt) b.
Proof.
  intros HN HS. apply map_ext_in. intros s Hs. rewrite tagss_flat in *.
  destruct (part _ _ b reached_tags HN pt HS s Hs). apply rw_rwp; auto.
Qed.

Lemma visited_reached (b : list (stmt Op)) k : visited b k -> In k (flat_map reached b).
Proof.
  intros H; induction H as [b k rs H|b k b1 H _ IH|b k c b1 e H _ IH|b k c b1 b2 H _ IH|b k c b1 c2 b2 e H _ IH|b k c b1 p H _ IH|b k c cls cl H Hc _ IH];
    apply in_flat_map; eexists; (split; [eassumption|]); cbn [reached]; auto.
  - cbn; auto.
  - apply in_app_iff; auto.
  - apply in_app_iff; auto.
  - apply in_app_iff; auto.
  - apply in_flat_map; eauto.
Qed.

Lemma reached_visited1 (s : stmt Op) k : In k (reached s) -> visited [s] k.
Proof.
  induction s as [s IH] using stmt_nest. intros H.
  assert (W1 : forall (s' : stmt Op) b, In s' b -> visited [s'] k -> visited b k).
  { intros s' b Hs V. inversion V as [rs V0|b1 V0|c b1 e V0|c b1 b2 V0|c b1 c2 b2 e V0|c b1 p V0|c cls cl V0]; destruct V0 as [->|[]].
    - eapply VReturn; eauto.
    - eapply VBlock; eauto.
    - eapply VIf; eauto.
    - eapply VElse; eauto.
    - eapply VElseIf; eauto.
    - eapply VLoop; eauto.
    - eapply VSwitch; eauto. }
  assert (L : forall b, (forall s', In s' b -> (depth s' < depth s)%nat) -> In k (flat_map reached b) -> visited b k).
  { intros b Hb X. apply in_flat_map in X. destruct X as (s' & Hs & X). eapply W1; eauto. }
  destruct s as [|b|c b e|c b p|c cls|c cls|l s|k0 rs| | | | | |]; cbn [reached] in H; try contradiction.
  - eapply VBlock; [left; reflexivity|]. apply L; auto. intros s' Hs; dp.
  - apply in_app_iff in H. destruct H as [H|H].
    + eapply VIf; [left; reflexivity|]. apply L; auto. intros s' Hs; dp.
    + destruct e as [[|b2|c2 b2 e2| | | | | | | | | | |]|]; try contradiction.
      * eapply VElse; [left; reflexivity|]. apply L; auto. intros s' Hs; dp.
      * eapply VElseIf; [left; reflexivity|]. apply L; auto. intros s' Hs; dp.
  - eapply VLoop; [left; reflexivity|]. apply L; auto. intros s' Hs; dp.
  - apply in_flat_map in H. destruct H as (b & Hb & H). eapply VSwitch; [left; reflexivity|eauto|]. apply L; auto. intros s' Hs; dp.
  - destruct H as [<-|[]]. eapply VReturn; left; reflexivity.
Qed.

Lemma visited_spec (b : list (stmt Op)) k : visited b k <-> In k (flat_map reached b).
Proof.
  split; [apply visited_reached|]. intros H.
  assert (X : visited [SBlock b] k) by (apply reached_visited1; exact H).
  inversion X as [rs V0|b1 V0|c b1 e V0|c b1 b2 V0|c b1 c2 b2 e V0|c b1 p V0|c cls cl V0]; destruct V0 as [E|[]]; try discriminate.
  injection E as <-; auto.
Qed.

End R.

(** ** Calls *)

Section C.
Variable Op : Type.
Variable W : world Op.
Variable F : func.
Variable I : info Op.
Variable body : list (stmt Op).
Hypothesis G : go_ok W F I body.
Variable D : nat -> expr Op -> bool -> Prop.
Hypothesis HD : forall i e b, code_order I i e b -> D i e b.
Notation V := (Val W).
Notation ev := (event Op W).

Definition pt (k : nat) : bool := existsb (Nat.eqb k) (flat_map reached body).
Definition rsof (k : nat) : list (expr Op) :=
  match find (fun p => Nat.eqb k (fst p)) (flat_map returns body) with Some p => snd p | None => [] end.

Lemma pt_spec k : pt k = true <-> visited body k.
Proof.
  rewrite visited_spec. unfold pt. rewrite existsb_exists. split.
  - intros (x & Hx & E). apply Nat.eqb_eq in E; subst; auto.
  - intros H. exists k. split; auto. apply Nat.eqb_refl.
Qed.

Lemma rsof_spec k rs : In (k, rs) (flat_map returns body) -> rsof k = rs.
Proof.
  intros H. pose proof (ok_tags _ _ _ _ G) as N. unfold rsof.
  induction (flat_map returns body) as [|[k0 rs0] l IH]; [destruct H|]. cbn in *. inversion N; subst.
  destruct H as [E|H].
  - injection E as -> ->. rewrite Nat.eqb_refl. reflexivity.
  - destruct (Nat.eqb k k0) eqn:E; [|auto]. apply Nat.eqb_eq in E; subst k0. exfalso.
    match goal with X : ~ In _ _ |- _ => apply X end. apply in_map_iff. exists (k, rs); auto.
Qed.

Lemma body_oks : oks Op W F I pt rsof body.
Proof.
  split; [apply (ok_plain _ _ _ _ G)|]. intros k rs Hk _. split; [apply rsof_spec; auto|].
  split; [|split; [|split]].
  - eapply (ok_arity _ _ _ _ G); eauto.
  - intros ->. apply (ok_bare _ _ _ _ G); auto.
  - intros e x He Hx. eapply (ok_names _ _ _ _ G); eauto.
  - intros x Hx. eapply (ok_decls _ _ _ _ G); eauto.
Qed.

Lemma body_rw : map (rw F I) body = map (rwp Op F I pt) body.
Proof.
  apply rws_rwp; [apply (ok_tags _ _ _ _ G)|]. intros k _. rewrite pt_spec. apply visited_spec.
Qed.

(* plain code sends nothing *)
Lemma own_users (t : list (UEv W)) : own (map (@EvUser Op W) t) = map EvUser t.
Proof. unfold own. induction t; cbn; congruence. Qed.
Lemma own_app2 (a b : list ev) : own (a ++ b) = own a ++ own b.
Proof. apply filter_app. Qed.
Lemma doop_own T o u t u' r : @doop Op W T o u t u' r -> own t = t.
Proof. intros (t0 & -> & _). apply own_users. Qed.
Lemma evals_own D' T k i es u t u' r : @evals Op W D' T k i es u t u' r -> own t = t.
Proof.
  induction 1; auto.
  - rewrite own_app2, IHevals. erewrite doop_own by eauto. reflexivity.
  - eapply doop_own; eauto.
Qed.
Lemma ret_own D' T k rs u t u' r : @ret_eval Op W F D' T k rs u t u' r -> own t = t.
Proof. destruct 1; auto; try (eapply doop_own; eauto; fail); eapply evals_own; eauto. Qed.
Lemma eval1_own T k e u t u' r : @eval1 Op W T k e u t u' r -> own t = t.
Proof. destruct 1; auto; eapply doop_own; eauto. Qed.

Definition all_plain (cls : list (list (stmt Op))) := forallb (forallb plain) cls = true.
Lemma plain_own D' :
  (forall T lb s u t u' T' o, @exec Op W F D' T lb s u t u' T' o -> plain s = true -> own t = t) /\
  (forall T b u t u' o, @execs Op W F D' T b u t u' o -> forallb plain b = true -> own t = t) /\
  (forall T lb c b p u t u' o, @loops Op W F D' T lb c b p u t u' o -> forallb plain b = true -> own t = t) /\
  (forall T cls n u t u' o, @clauses Op W F D' T cls n u t u' o -> all_plain cls -> own t = t).
Proof.
  apply exec_mut; intros; auto;
    repeat match goal with
    | H : doop _ _ _ _ _ _ |- _ => apply doop_own in H
    | H : ret_eval _ _ _ _ _ _ _ _ _ |- _ => apply ret_own in H
    end; try discriminate; auto; rewrite ?own_app2; cbn [plain forallb] in *;
    repeat match goal with H : _ && _ = true |- _ => apply andb_true_iff in H; destruct H end;
    repeat match goal with H : ?b = true, X : ?b = true -> _ |- _ => specialize (X H) end;
    try congruence.
  - f_equal; auto.
  - f_equal; auto.
  - apply nth_error_In in H. unfold all_plain in H3. rewrite forallb_forall in H3. auto.
  - f_equal; auto. apply nth_error_In in H. unfold all_plain in H4. rewrite forallb_forall in H4. auto.
Qed.

Definition temp (s : stmt Op) : bool := match s with STemp _ _ _ _ | STemps _ _ _ => true | _ => false end.

Lemma keep_temps D' T lb s u t u' T' o : @exec Op W F D' T lb s u t u' T' o -> temp s = false -> T' = T.
Proof. destruct 1; auto; discriminate. Qed.

Lemma runs_keep D' T b u t u' T' : runs Op W F D' T b u t u' T' -> forallb (fun s => negb (temp s)) b = true ->
  T' = T /\ @execs Op W F D' T b u t u' ONormal.
Proof.
  induction 1 as [|T s b u t1 u1 T1 t2 u' T' H R IH]; cbn; intros Hb; [split; auto; constructor|].
  apply andb_true_iff in Hb. destruct Hb as [Hs Hb]. apply negb_true_iff in Hs.
  pose proof (keep_temps _ _ _ _ _ _ _ _ _ H Hs) as ->. destruct (IH Hb) as [-> E]. split; auto. eapply XsCons; eauto.
Qed.

Lemma execs_runs D' T b u t u' : @execs Op W F D' T b u t u' ONormal -> forallb (fun s => negb (temp s)) b = true ->
  runs Op W F D' T b u t u' T.
Proof.
  revert T u t. induction b as [|s b IH]; intros T u t H Hb; inversion H; subst; try contradiction.
  - constructor.
  - cbn in Hb. apply andb_true_iff in Hb. destruct Hb as [Hs Hb]. apply negb_true_iff in Hs.
    match goal with X : exec _ _ _ _ _ _ _ _ _ _ |- _ => pose proof (keep_temps _ _ _ _ _ _ _ _ _ X Hs); subst end.
    econstructor; eauto.
Qed.

Lemma rwp_temp s : plain s = true -> temp (rwp Op F I pt s) = false.
Proof. destruct s; cbn; auto; try discriminate. destruct (pt k); auto. Qed.

Lemma body_temps : forallb (fun s => negb (temp s)) (map (rwp Op F I pt) body) = true.
Proof.
  apply forallb_forall. intros s Hs. apply in_map_iff in Hs. destruct Hs as (s0 & <- & Hs).
  rewrite rwp_temp; auto. pose proof (ok_plain _ _ _ _ G) as P. rewrite forallb_forall in P. auto.
Qed.

Lemma snap_not_nil ds : forall seen s seen', snap_decls ds seen = (s, seen') -> forall n x, In (n, x) s -> x <> B "nil".
Proof.
  induction ds as [|d ds IH]; intros seen s seen'; cbn [snap_decls].
  - intros E; injection E as <- <-; intros ? ? [].
  - destruct (beq d (B "nil") || mem d seen) eqn:E; [apply IH|].
    destruct (snap_decls ds (d :: seen)) as [s1 seen1] eqn:E1. intros H; injection H as <- <-.
    intros n x [H|H]; [|eapply IH; eauto]. injection H as <- <-. apply orb_false_iff in E. destruct E as [E _].
    intros ->. rewrite beq_refl in E. discriminate.
Qed.

Definition end_snaps : list (bytes * bytes) := fst (snap_decls (i_end_decls I) []).

Lemma end_fields u x w : In (x, w) (map (fun nx => (fst nx, @look Op W [] (i_end_tag I) u (snd nx))) end_snaps) <->
  In x (i_end_decls I) /\ x <> B "nil" /\ w = w_rd W (i_end_tag I) u x.
Proof.
  unfold end_snaps. destruct (snap_decls (i_end_decls I) []) as [s seen] eqn:E. cbn [fst].
  destruct (snap_decls_spec _ _ _ _ E) as (A & C & _). rewrite in_map_iff. split.
  - intros ([n y] & Ey & Hn). cbn in Ey. injection Ey as <- <-. destruct (A n y Hn) as [-> Hy].
    rewrite shown_plain by (eapply (ok_end_decls _ _ _ _ G); eauto). repeat split; auto.
    eapply snap_not_nil; eauto.
  - intros (H1 & H2 & ->). destruct (C x H1 H2) as [H|[]].
    exists (shown x, x). split; auto. cbn. rewrite shown_plain by (eapply (ok_end_decls _ _ _ _ G); eauto). reflexivity.
Qed.

Lemma msg_expected u o m t u0 : message W F I pt rsof u o m -> o <> ONormal \/ (exists k, visited body k) ->
  @execs Op W F D [] body u0 t u o -> (forall k vs, o = ORet k vs -> exists rs, In (k, rs) (flat_map returns body)) ->
  expected W F I body u o m.
Proof.
  intros Hm Ho _ Hr. destruct o; cbn in *; auto.
  - destruct Ho as [?|?]; [congruence|auto].
  - destruct (pt k) eqn:E.
    + left. split; [apply pt_spec; auto|]. destruct Hm as (f & -> & Hf). destruct (Hr k vs eq_refl) as [rs Hk].
      exists rs, f. rewrite <- (rsof_spec k rs Hk). rewrite (rsof_spec k rs Hk) at 1. auto.
    + right. split; auto. rewrite <- pt_spec. congruence.
Qed.

Lemma expected_msg u o m : expected W F I body u o m -> o <> ONormal -> message W F I pt rsof u o m.
Proof.
  destruct o; cbn; auto; [congruence|]. intros [[H1 (rs & f & Hk & -> & Hf)]|[H1 ->]] _.
  - apply pt_spec in H1. rewrite H1. rewrite (rsof_spec k rs Hk). eauto.
  - rewrite <- pt_spec in H1. destruct (pt k); auto; congruence.
Qed.

(* a return that happens is one of the body *)
Definition retin (l : list (nat * list (expr Op))) (o : outcome Op W) : Prop :=
  match o with ORet k _ => exists rs, In (k, rs) l | _ => True end.

Lemma retin_mono l l' o : incl l l' -> retin l o -> retin l' o.
Proof. destruct o; cbn; auto. intros H [rs Hk]; eauto. Qed.

Lemma rets_in D' :
  (forall T lb s u t u' T' o, @exec Op W F D' T lb s u t u' T' o -> retin (returns s) o) /\
  (forall T b u t u' o, @execs Op W F D' T b u t u' o -> retin (flat_map returns b) o) /\
  (forall T lb c b p u t u' o, @loops Op W F D' T lb c b p u t u' o -> retin (flat_map returns b) o) /\
  (forall T cls n u t u' o, @clauses Op W F D' T cls n u t u' o -> retin (flat_map (flat_map returns) cls) o).
Proof.
  apply exec_mut; intros; cbn [returns flat_map retin] in *; auto.
  - eapply retin_mono; [|eauto]. apply incl_appl, incl_refl.
  - eapply retin_mono; [|eauto]. apply incl_appr, incl_refl.
  - destruct o as [|[]| | | |]; cbn; auto.
  - destruct o as [|[]| | | |]; cbn; auto.
  - destruct o as [|[]| | | |]; cbn; auto. destruct (beq l _); cbn; auto.
  - exists rs; left; reflexivity.
  - eapply retin_mono; [|eauto]. apply incl_appr, incl_refl.
  - eapply retin_mono; [|eauto]. apply incl_appl, incl_refl.
  - destruct o as [|[]|[l|]| | |]; cbn in *; try (injection H2 as <-; cbn; auto); try discriminate.
    destruct lb as [l'|]; [destruct (beq l l')|]; try discriminate; injection H2 as <-; cbn; auto.
  - eapply retin_mono; [|eauto]. intros x Hx. apply in_flat_map. exists b. split; auto. eapply nth_error_In; eauto.
Qed.

Lemma body_rets u t u1 k vs : @execs Op W F D [] body u t u1 (ORet k vs) -> exists rs, In (k, rs) (flat_map returns body).
Proof. intros H. apply (proj1 (proj2 (rets_in D))) in H. exact H. Qed.

Lemma none_visited : flat_map reached body = [] -> forall k, ~ visited body k.
Proof. intros E k H. apply visited_spec in H. rewrite E in H. destruct H. Qed.
Lemma some_visited n l : flat_map reached body = n :: l -> exists k, visited body k.
Proof. intros E. exists n. apply visited_spec. rewrite E; left; reflexivity. Qed.

Lemma instr_bwd u t' u1 o : @execs Op W F D [] (instrument F I body) u t' u1 o ->
  exists t m, @execs Op W F D [] body u t u1 o /\ own t = t /\ t' = t ++ m /\ expected W F I body u1 o m.
Proof.
  intros H.
  assert (B1 : forall t' o, @execs Op W F D [] (map (rwp Op F I pt) body) u t' u1 o ->
     exists t m, @execs Op W F D [] body u t u1 o /\ t' = t ++ m /\ message W F I pt rsof u1 o m).
  { intros t0 o0 H0.
    exact (proj1 (proj2 (sim_bwd Op W F I D HD (ok_conv _ _ _ _ G) (ok_res _ _ _ _ G) (ok_resnames _ _ _ _ G) pt rsof)) _ _ _ _ _ _ H0 eq_refl body eq_refl body_oks). }
  assert (B2 : forall t o, @execs Op W F D [] body u t u1 o -> own t = t).
  { intros t0 o0 H0. eapply (proj1 (proj2 (plain_own D))); eauto. apply (ok_plain _ _ _ _ G). }
  assert (B3 : forall t o, @execs Op W F D [] body u t u1 o -> forall k vs, o = ORet k vs -> exists rs, In (k, rs) (flat_map returns body)).
  { intros t0 o0 H0 k vs ->. eapply body_rets; eauto. }
  unfold instrument in H. rewrite body_rw in H. destruct (flat_map reached body) as [|n l] eqn:E.
  - apply execs_split in H. destruct H as [(t1 & u2 & T1 & t2 & R & X & ->)|[X Ho]].
    + apply runs_keep in R; [|apply body_temps]. destruct R as [-> R].
      assert (Hn : f_names F = []).
      { destruct (f_names F) eqn:En; auto. exfalso.
        destruct (proj1 (proj2 (sim_bwd Op W F I D HD (ok_conv _ _ _ _ G) (ok_res _ _ _ _ G) (ok_resnames _ _ _ _ G) pt rsof)) _ _ _ _ _ _ R eq_refl body eq_refl body_oks) as (t & m & X1 & _ & _).
        eapply (ok_end _ _ _ _ G); eauto. congruence. }
      unfold tail_return in X. rewrite Hn in X. cbn [app] in X.
      inversion X; subst; [|match goal with Y : exec _ _ _ _ (SSend _ _ _) _ _ _ _ _ |- _ => inversion Y; subst; contradiction end].
      match goal with Y : exec _ _ _ _ (SSend _ _ _) _ _ _ _ _ |- _ => inversion Y; subst end.
      match goal with Y : execs _ _ _ [] _ _ _ _ |- _ => inversion Y; subst end.
      destruct (B1 _ _ R) as (t & m & X1 & -> & M). cbn in M. subst m. rewrite !app_nil_r.
      eexists t, _. split; [exact X1|]. split; [eapply B2; eauto|]. split; [reflexivity|].
      left. split; [apply none_visited; auto|]. eexists; split; [reflexivity|]. intros x w. apply end_fields.
    + destruct (B1 _ _ X) as (t & m & X1 & -> & M). exists t, m. split; [auto|]. split; [eapply B2; eauto|]. split; auto.
      eapply msg_expected; eauto.
  - destruct (B1 _ _ H) as (t & m & X1 & -> & M). exists t, m. split; [auto|]. split; [eapply B2; eauto|]. split; auto.
    eapply msg_expected; eauto. right. eapply some_visited; eauto.
Qed.

Lemma msg_own u o m : message W F I pt rsof u o m -> own m = [].
Proof. destruct o; cbn; try (intros ->; reflexivity). destruct (pt k); [intros (f & -> & _)|intros ->]; reflexivity. Qed.

Lemma expected_own u o m : expected W F I body u o m -> own m = [].
Proof.
  destruct o; cbn; try (intros ->; reflexivity).
  - intros [(_ & f & -> & _)|[_ ->]]; reflexivity.
  - intros [(_ & rs & f & _ & -> & _)|[_ ->]]; reflexivity.
Qed.

Lemma instr_fwd u t u1 o : @execs Op W F (code_order I) [] body u t u1 o ->
  exists m, @execs Op W F D [] (instrument F I body) u (t ++ m) u1 o /\ own m = [].
Proof.
  intros H.
  destruct (proj1 (proj2 (sim_fwd Op W F I D HD (ok_conv _ _ _ _ G) (ok_res _ _ _ _ G) (ok_resnames _ _ _ _ G) pt rsof)) _ _ _ _ _ _ H eq_refl body_oks) as (m & X & M).
  pose proof (msg_own _ _ _ M) as Hm.
  unfold instrument. rewrite body_rw. destruct (flat_map reached body) as [|n l] eqn:E; [|eauto].
  destruct o; try (exists m; split; [apply execs_stop_app; [auto|discriminate]|auto]).
  destruct (f_names F) eqn:En.
  - cbn in M; subst m. rewrite app_nil_r in X.
    exists ([EvState (i_end_pid I) (map (fun nx => (fst nx, @look Op W [] (i_end_tag I) u1 (snd nx))) (fst (snap_decls (i_end_decls I) [])))] ++ []).
    split; [|reflexivity].
    eapply runs_execs; [apply execs_runs; [exact X|apply body_temps]|].
    unfold tail_return; rewrite En. eapply XsCons; [apply XSend|constructor].
  - exfalso. eapply (ok_end _ _ _ _ G); eauto. congruence.
Qed.

Lemma call_bwd u t' u' r : @call Op W F D (instrument F I body) u t' u' r ->
  exists t u1 o m t2, @execs Op W F D [] body u t u1 o /\ own t = t /\ t' = t ++ m ++ map EvUser t2 /\
    expected W F I body u1 o m /\ finish W F o u1 t2 u' r.
Proof.
  intros H; inversion H; subst;
    match goal with X : execs _ _ _ _ _ _ _ _ |- _ => destruct (instr_bwd _ _ _ _ X) as (t & m & Y1 & Y2 & -> & Y3) end;
    eexists t, _, _, m, _; (split; [exact Y1|]); (split; [exact Y2|]);
    (split; [rewrite <- app_assoc; reflexivity|]); (split; [exact Y3|]); cbn; auto.
  split; auto. unfold nres in *. destruct (f_names F); auto; discriminate.
Qed.

Lemma finish_call D' b u t u1 o t2 u' r : @execs Op W F D' [] b u t u1 o -> finish W F o u1 t2 u' r ->
  @call Op W F D' b u (t ++ map EvUser t2) u' r.
Proof.
  intros H Hf. destruct o; cbn in Hf; try contradiction.
  - destruct Hf as [E Hf]. eapply CallEnd; eauto. unfold nres. rewrite E; reflexivity.
  - eapply CallRet; eauto.
  - eapply CallPanic; eauto.
Qed.

Lemma call_finish D' b u t u' r : @call Op W F D' b u t u' r ->
  exists t1 u1 o t2, @execs Op W F D' [] b u t1 u1 o /\ t = t1 ++ map EvUser t2 /\ finish W F o u1 t2 u' r.
Proof.
  intros H; inversion H; subst; eexists _, _, _, _; (split; [eauto|]); (split; [reflexivity|]); cbn; auto.
  split; auto. unfold nres in *. destruct (f_names F); auto; discriminate.
Qed.

End C.
