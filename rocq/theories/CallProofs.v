(** Proofs about the instrumentation of calls. *)

From Verif Require Import Base InstrModel InstrSpec InstrProofs CallModel CallSpec.

Section StmtInd.
Variable Op : Type.
Variable P : stmt Op -> Prop.
Hypothesis Pop : forall o, P (SOp o).
Hypothesis Pblock : forall b, Forall P b -> P (SBlock b).
Hypothesis Pif : forall c b1 b2, Forall P b1 -> Forall P b2 -> P (SIf c b1 b2).
Hypothesis Pswitch : forall c cls, Forall (Forall P) cls -> P (SSwitch c cls).
Hypothesis Ploop : forall h b post, Forall P b -> Forall P post -> P (SLoop h b post).
Hypothesis Pret : forall o, P (SReturn o).
Hypothesis Pbreak : forall l, P (SBreak l).
Hypothesis Pcont : P SContinue.
Hypothesis Plabel : forall l b, Forall P b -> P (SLabel l b).
Hypothesis Pcall : forall m k kd p f ops cls, Forall (Forall P) cls -> P (SCall m k kd p f ops cls).
Hypothesis Pdefer : forall m k f ops, P (SDefer m k f ops).
Hypothesis Ptemp : forall x o, P (STemp x o).
Hypothesis Psend : forall k p l, P (SSend k p l).
Hypothesis Pdb : forall b, P (SDeferBlock b).
Fixpoint cstmt_ind (s : stmt Op) : P s :=
  let fl := fix fl (b : list (stmt Op)) : Forall P b := match b with [] => Forall_nil _ | x :: b' => Forall_cons _ (cstmt_ind x) (fl b') end in
  let fll := fix fll (b : list (list (stmt Op))) : Forall (Forall P) b := match b with [] => Forall_nil _ | x :: b' => Forall_cons _ (fl x) (fll b') end in
  match s with
  | SOp o => Pop o | SBlock b => Pblock b (fl b) | SIf c b1 b2 => Pif c b1 b2 (fl b1) (fl b2)
  | SSwitch c cls => Pswitch c cls (fll cls) | SLoop h b post => Ploop h b post (fl b) (fl post)
  | SReturn o => Pret o | SBreak l => Pbreak l | SContinue => Pcont | SLabel l b => Plabel l b (fl b)
  | SCall m k kd p f ops cls => Pcall m k kd p f ops cls (fll cls)
  | SDefer m k f ops => Pdefer m k f ops | STemp x o => Ptemp x o | SSend k p l => Psend k p l | SDeferBlock b => Pdb b
  end.
End StmtInd.

Section P.
Variable Op : Type.
Variable W : world2 Op.
Variable pkgs : list bytes.
Variable pid : nat -> N.
Variable pt : nat -> bool.
Variable opsof : nat -> list (operand Op).
Variable nop : Op.
Notation V := (Val2 W).
Notation temps := (list (bytes * V)).
Notation ann := (announced (W := W) pkgs pid pt opsof).
Notation rw := (rwc pkgs pid nop).

Definition Tok (T : temps) : Prop := forall x v, In (x, v) T -> reserved x = true.

Lemma Tok_nil : Tok []. Proof. intros x v []. Qed.
Lemma Tok_cons x v T : reserved x = true -> Tok T -> Tok ((x, v) :: T).
Proof. intros H HT y w [E | I]; [ injection E as <- <-; exact H | eapply HT, I ]. Qed.
Lemma tlook_none T x : Tok T -> reserved x = false -> tlook T x = None.
Proof.
  induction T as [ | [y v] T IH ]; intros HT Hx; cbn [tlook]; [ reflexivity | ].
  destruct (beq x y) eqn:E.
  - apply beq_true in E. subst y. rewrite (HT x v (or_introl eq_refl)) in Hx. discriminate.
  - apply IH; [ intros z w I; eapply HT; right; exact I | exact Hx ].
Qed.
Lemma cread_plain T k (s : cstate Op W) x : Tok T -> reserved x = false -> cread T k s x = cread [] k s x.
Proof. intros HT Hx. unfold cread. rewrite (tlook_none _ _ HT Hx). reflexivity. Qed.

Lemma ann_app t1 t2 : ann (t1 ++ t2) = ann t1 ++ ann t2.
Proof. unfold announced. apply flat_map_app. Qed.
Lemma ann_users t : ann (map CeUser t) = map CeUser t.
Proof. induction t; cbn; [ reflexivity | f_equal; exact IHt ]. Qed.

Lemma step_users R (s : cstate Op W) t s' r : step R s t s' r -> ann t = t /\ sd s' = sd s.
Proof. intros (t0 & u' & -> & -> & H). split; [ apply ann_users | reflexivity ]. Qed.

(** ** Temporaries do not matter to the user's operands *)

Definition plain_op (a : operand Op) : Prop := forall x, opnd_name a = Some x -> reserved x = false.

Lemma ev1_T T T' k a s t s' r : Tok T -> Tok T' -> plain_op a -> ev1 (W := W) T k a s t s' r -> ev1 T' k a s t s' r.
Proof.
  intros HT HT' Ha H. inversion H; subst.
  - rewrite (cread_plain T), <- (cread_plain T'); [ constructor | .. ]; auto.
  - rewrite (cread_plain T), <- (cread_plain T'); [ constructor | .. ]; auto.
  - apply V1Adr; assumption.
  - apply V1AdrP; assumption.
  - eapply V1Op; eassumption.
  - eapply V1OpP; eassumption.
Qed.

Lemma ev1_users T k a s t s' r : ev1 (W := W) T k a s t s' r -> ann t = t /\ sd s' = sd s.
Proof. intros H. inversion H; subst; try (split; reflexivity); eapply step_users; eassumption. Qed.

Lemma pass1_users D T k i l s t s' r : pass1 (W := W) D T k i l s t s' r -> ann t = t /\ sd s' = sd s.
Proof.
  induction 1; try (split; reflexivity); try assumption.
  - match goal with H : ev1 _ _ _ _ _ _ _ |- _ => apply ev1_users in H; destruct H as [A1 A2] end.
    destruct IHpass1 as [B1 B2]. rewrite ann_app, A1, B1. split; congruence.
  - eapply ev1_users; eassumption.
Qed.
Lemma pass2_users T k l ov s t s' r : pass2 (W := W) T k l ov s t s' r -> ann t = t /\ sd s' = sd s.
Proof.
  induction 1; try (split; reflexivity); try assumption.
  - match goal with H : ev1 _ _ _ _ _ _ _ |- _ => apply ev1_users in H; destruct H as [A1 A2] end.
    destruct IHpass2 as [B1 B2]. rewrite ann_app, A1, B1. split; congruence.
  - eapply ev1_users; eassumption.
Qed.
Lemma operands_users D T k l s t s' r : operands (W := W) D T k l s t s' r -> ann t = t /\ sd s' = sd s.
Proof.
  intros H. inversion H; subst.
  - eapply pass1_users; eassumption.
  - match goal with H : pass1 _ _ _ _ _ _ _ _ _ |- _ => apply pass1_users in H; destruct H as [A1 A2] end.
    match goal with H : pass2 _ _ _ _ _ _ _ _ |- _ => apply pass2_users in H; destruct H as [B1 B2] end.
    rewrite ann_app, A1, B1. split; congruence.
Qed.

Lemma pass1_T D T T' k i l s t s' r : Tok T -> Tok T' -> Forall plain_op l -> pass1 (W := W) D T k i l s t s' r -> pass1 D T' k i l s t s' r.
Proof.
  intros HT HT' Hl H. induction H; try (inversion Hl; subst).
  - constructor.
  - constructor; auto.
  - econstructor; eauto. eapply ev1_T; [ exact HT | exact HT' | .. ]; eassumption.
  - apply P1Panic; auto. eapply ev1_T; [ exact HT | exact HT' | .. ]; eassumption.
Qed.
Lemma pass2_T T T' k l ov s t s' r : Tok T -> Tok T' -> Forall plain_op l -> pass2 (W := W) T k l ov s t s' r -> pass2 T' k l ov s t s' r.
Proof.
  intros HT HT' Hl H. induction H; try (inversion Hl; subst).
  - constructor.
  - constructor; auto.
  - econstructor; eauto. eapply ev1_T; [ exact HT | exact HT' | .. ]; eassumption.
  - apply P2Panic; auto. eapply ev1_T; [ exact HT | exact HT' | .. ]; eassumption.
Qed.
Lemma operands_T D T T' k l s t s' r : Tok T -> Tok T' -> Forall plain_op l -> operands (W := W) D T k l s t s' r -> operands D T' k l s t s' r.
Proof.
  intros HT HT' Hl H. inversion H; subst.
  - apply OpsPanic. eapply pass1_T; [ exact HT | exact HT' | .. ]; eassumption.
  - eapply OpsVals; [ eapply pass1_T; [ exact HT | exact HT' | .. ] | eapply pass2_T; [ exact HT | exact HT' | .. ] ]; eassumption.
Qed.
Lemma invoke_T D T T' k f l s t s' r : Tok T -> Tok T' -> Forall plain_op l -> invoke (W := W) D T k f l s t s' r -> invoke D T' k f l s t s' r.
Proof.
  intros HT HT' Hl H. inversion H; subst.
  - apply IvPanic. eapply operands_T; [ exact HT | exact HT' | .. ]; eassumption.
  - eapply IvCall; [ eapply operands_T; [ exact HT | exact HT' | .. ] | ]; eassumption.
Qed.
Lemma used_T D T T' k f l use s t s' r : Tok T -> Tok T' -> Forall plain_op l -> used (W := W) D T k f l use s t s' r -> used D T' k f l use s t s' r.
Proof.
  intros HT HT' Hl H. inversion H; subst.
  - eapply UsVals; [ eapply invoke_T; [ exact HT | exact HT' | .. ] | ]; eassumption.
  - eapply UsPanic; eapply invoke_T; [ exact HT | exact HT' | .. ]; eassumption.
Qed.
Lemma placed_T D T T' k f l p s t s' r : Tok T -> Tok T' -> Forall plain_op l -> placed (W := W) D T k f l s p t s' r -> placed D T' k f l s p t s' r.
Proof.
  intros HT HT' Hl H.
  inversion H; subst; try (match goal with HU : used _ _ _ _ _ _ _ _ _ _ |- _ => apply (used_T _ T T') in HU; [ | assumption .. ] end);
    solve [ econstructor; eassumption ].
Qed.
Lemma step_eq (R R' : UState2 W -> list (UEv2 W) -> UState2 W -> reply V -> Prop) s t s' r :
  (forall u t u' r, R u t u' r -> R' u t u' r) -> step R s t s' r -> step R' s t s' r.
Proof. intros HR (t0 & u' & -> & -> & H). exists t0, u'. auto. Qed.

Lemma call_ann D T k f l s t s' r : invoke (W := W) D T k f l s t s' r -> pt k = false -> ann t = t /\ sd s' = sd s.
Proof.
  intros H Hk. inversion H; subst.
  - eapply operands_users; eassumption.
  - match goal with H : operands _ _ _ _ _ _ _ _ |- _ => apply operands_users in H; destruct H as [A1 A2] end.
    match goal with H : step _ _ _ _ _ |- _ => apply step_users in H; destruct H as [B1 B2] end.
    rewrite ann_app, A1. unfold announced at 1. cbn [flat_map]. rewrite Hk. cbn [app].
    fold (ann t2). rewrite B1. split; congruence.
Qed.
Lemma used_ann D T k f l use s t s' r : used (W := W) D T k f l use s t s' r -> pt k = false -> ann t = t /\ sd s' = sd s.
Proof.
  intros H Hk. inversion H; subst.
  - match goal with H : invoke _ _ _ _ _ _ _ _ _ |- _ => apply call_ann in H; [ destruct H as [A1 A2] | exact Hk ] end.
    match goal with H : step _ _ _ _ _ |- _ => apply step_users in H; destruct H as [B1 B2] end.
    rewrite ann_app, A1, B1. split; congruence.
  - eapply call_ann; eassumption.
Qed.
Lemma placed_ann D T k f l p s t s' r : placed (W := W) D T k f l s p t s' r -> pt k = false -> ann t = t /\ sd s' = sd s.
Proof.
  intros H Hk.
  inversion H; subst;
    repeat match goal with
    | H : used _ _ _ _ _ _ _ _ _ _ |- _ => apply used_ann in H; [ destruct H as [? ?] | exact Hk ]
    | H : step _ _ _ _ _ |- _ => apply step_users in H; destruct H as [? ?]
    end; rewrite ?ann_app; split; congruence.
Qed.

(** ** Sequences of statements *)

Section Ord.
Variable D : nat -> operand Op -> bool -> Prop.

Inductive runs : temps -> list (stmt Op) -> cstate Op W -> list (cevent Op W) -> cstate Op W -> temps -> Prop :=
| RnNil T s : runs T [] s [] s T
| RnTemp T x o b s t1 s1 v t2 s' T' : step (w2_act W o) s t1 s1 (RVals [v]) -> runs ((x, v) :: T) b s1 t2 s' T' ->
    runs T (STemp x o :: b) s (t1 ++ t2) s' T'
| RnNext T a b s t1 s1 t2 s' T' : exec D T a s t1 s1 CoNormal -> runs T b s1 t2 s' T' -> runs T (a :: b) s (t1 ++ t2) s' T'.

Lemma execs_app_inv b1 : forall b2 T s t s' o, execs D T (b1 ++ b2) s t s' o ->
  (execs D T b1 s t s' o /\ o <> CoNormal) \/
  exists t1 s1 T1 t2, runs T b1 s t1 s1 T1 /\ execs D T1 b2 s1 t2 s' o /\ t = t1 ++ t2.
Proof.
  induction b1 as [ | a b1 IH ]; cbn [app]; intros b2 T s t s' o H.
  - right. exists [], s, T, t. split; [ constructor | split; [ exact H | reflexivity ] ].
  - inversion H; subst.
    + match goal with H : execs _ _ (b1 ++ b2) _ _ _ _ |- _ => apply IH in H end.
      match goal with H : _ \/ _ |- _ => destruct H as [[H9 Hn] | (ta & sa & Ta & tb & HR & HE & ->)] end.
      * left. split; [ eapply XsTemp; eassumption | exact Hn ].
      * right. exists (t1 ++ ta), sa, Ta, tb. split; [ eapply RnTemp; eassumption | split; [ exact HE | apply app_assoc ] ].
    + left. split; [ apply XsTempP; assumption | discriminate ].
    + match goal with H : execs _ _ (b1 ++ b2) _ _ _ _ |- _ => apply IH in H end.
      match goal with H : _ \/ _ |- _ => destruct H as [[H9 Hn] | (ta & sa & Ta & tb & HR & HE & ->)] end.
      * left. split; [ eapply XsNext; eassumption | exact Hn ].
      * right. exists (t1 ++ ta), sa, Ta, tb. split; [ eapply RnNext; eassumption | split; [ exact HE | apply app_assoc ] ].
    + left. split; [ apply XsStop | ]; assumption.
Qed.

Lemma runs_execs b1 T s t1 s1 T1 b2 t2 s' o : runs T b1 s t1 s1 T1 -> execs D T1 b2 s1 t2 s' o -> execs D T (b1 ++ b2) s (t1 ++ t2) s' o.
Proof.
  induction 1; cbn [app]; intros HE; [ exact HE | rewrite <- app_assoc; eapply XsTemp; eauto | rewrite <- app_assoc; eapply XsNext; eauto ].
Qed.
Lemma stop_app b1 : forall b2 T s t s' o, execs (W := W) D T b1 s t s' o -> o <> CoNormal -> execs D T (b1 ++ b2) s t s' o.
Proof.
  induction b1 as [ | a b1 IH ]; intros b2 T s t s' o H Hn; inversion H; subst; cbn [app].
  - congruence.
  - eapply XsTemp; [ eassumption | ]. apply IH; assumption.
  - apply XsTempP; assumption.
  - eapply XsNext; [ eassumption | ]. apply IH; assumption.
  - apply XsStop; assumption.
Qed.
Lemma runs_app b1 T s t1 s1 T1 b2 t2 s' T' : runs T b1 s t1 s1 T1 -> runs T1 b2 s1 t2 s' T' -> runs T (b1 ++ b2) s (t1 ++ t2) s' T'.
Proof.
  induction 1; cbn [app]; intros HE; [ exact HE | rewrite <- app_assoc; eapply RnTemp; eauto | rewrite <- app_assoc; eapply RnNext; eauto ].
Qed.
Lemma runs_app_inv b1 : forall b2 T s t s' T', runs T (b1 ++ b2) s t s' T' ->
  exists t1 s1 T1 t2, runs T b1 s t1 s1 T1 /\ runs T1 b2 s1 t2 s' T' /\ t = t1 ++ t2.
Proof.
  induction b1 as [ | a b1 IH ]; cbn [app]; intros b2 T s t s' T' H.
  - exists [], s, T, t. split; [ constructor | split; [ exact H | reflexivity ] ].
  - inversion H; subst; match goal with H : runs _ (b1 ++ b2) _ _ _ _ |- _ => apply IH in H; destruct H as (ta & sa & Ta & tb & HR & HE & ->) end;
      exists (t1 ++ ta), sa, Ta, tb; (split; [ | split; [ exact HE | apply app_assoc ] ]);
      [ eapply RnTemp; eassumption | eapply RnNext; eassumption ].
Qed.
Lemma execs_normal b : forall T s t s', execs (W := W) D T b s t s' CoNormal -> exists T', runs T b s t s' T'.
Proof.
  induction b as [ | a b IH ]; intros T s t s' H; inversion H; subst.
  - exists T. constructor.
  - match goal with H : execs _ _ b _ _ _ _ |- _ => apply IH in H; destruct H as (T' & HR) end. exists T'. eapply RnTemp; eassumption.
  - match goal with H : execs _ _ b _ _ _ _ |- _ => apply IH in H; destruct H as (T' & HR) end. exists T'. eapply RnNext; eassumption.
  - congruence.
Qed.

(** ** Capturing the operands *)

Lemma recv_name_reserved k : reserved (recv_name pid k) = true.
Proof. unfold recv_name, p_recv. exact (reserved_app (B "Recv") _). Qed.
Lemma arg_name_reserved k i : reserved (arg_name pid k i) = true.
Proof. unfold arg_name, p_arg. exact (reserved_app (B "Arg") _). Qed.
Lemma arg_name_inj k i j : arg_name pid k i = arg_name pid k j -> i = j.
Proof. unfold arg_name. rewrite !app_assoc. intros H. apply app_inv_head in H. apply num_inj, H. Qed.
Lemma arg_recv k i : beq (recv_name pid k) (arg_name pid k i) = false.
Proof. reflexivity. Qed.

Fixpoint binds (k i : nat) (l : list (operand Op)) (ov : list (option V)) : temps :=
  match l, ov with
  | OOther _ :: l', Some v :: ov' => binds k (S i) l' ov' ++ [(arg_name pid k i, v)]
  | _ :: l', _ :: ov' => binds k (S i) l' ov'
  | _, _ => []
  end.

Lemma binds_reserved k l : forall i ov, Tok (binds k i l ov).
Proof.
  induction l as [ | a l IH ]; intros i ov; [ apply Tok_nil | ].
  destruct ov as [ | o ov ]; [ destruct a; apply Tok_nil | ].
  destruct a; cbn [binds]; try apply IH. destruct o as [v | ]; [ | apply IH ].
  intros x w HI. apply in_app_iff in HI. destruct HI as [HI | [HI | []]]; [ eapply IH, HI | ].
  injection HI as <- <-. apply arg_name_reserved.
Qed.
Lemma Tok_app A T : Tok A -> Tok T -> Tok (A ++ T).
Proof. intros HA HT x v HI. apply in_app_iff in HI. destruct HI as [HI | HI]; [ eapply HA | eapply HT ]; exact HI. Qed.
Lemma tlook_app (A T : temps) x : tlook (A ++ T) x = match tlook A x with Some v => Some v | None => tlook T x end.
Proof. induction A as [ | [y v] A IH ]; cbn; [ reflexivity | destruct (beq x y); auto ]. Qed.

Lemma binds_other k l x : (forall j, x <> arg_name pid k j) -> forall i ov, tlook (binds k i l ov) x = None.
Proof.
  intros Hx. induction l as [ | a l IH ]; intros i ov; [ reflexivity | ].
  destruct ov as [ | o ov ]; [ destruct a; reflexivity | ].
  destruct a; cbn [binds]; try apply IH. destruct o as [v | ]; [ | apply IH ].
  rewrite tlook_app, IH. cbn [tlook]. destruct (beq x (arg_name pid k i)) eqn:E; [ apply beq_true in E; exfalso; eapply Hx, E | reflexivity ].
Qed.
Lemma binds_before k l : forall i j ov, (j < i)%nat -> tlook (binds k i l ov) (arg_name pid k j) = None.
Proof.
  induction l as [ | a l IH ]; intros i j ov Hj; [ reflexivity | ].
  destruct ov as [ | o ov ]; [ destruct a; reflexivity | ].
  destruct a; cbn [binds]; try (apply IH; lia). destruct o as [v | ]; [ | apply IH; lia ].
  rewrite tlook_app, IH by lia. cbn [tlook]. destruct (beq (arg_name pid k j) (arg_name pid k i)) eqn:E; [ | reflexivity ].
  apply beq_true, arg_name_inj in E. lia.
Qed.

(** Captured operands have a value, the others none yet. *)
Inductive shape : list (operand Op) -> list (option V) -> Prop :=
| ShNil : shape [] []
| ShLate a l ov : simple a = true -> shape l ov -> shape (a :: l) (None :: ov)
| ShHave a v l ov : simple a = false -> shape l ov -> shape (a :: l) (Some v :: ov).

Definition norecv (l : list (operand Op)) : Prop := forallb (fun a => negb (is_recv a)) l = true.

Lemma norecv_cons a l : norecv (a :: l) -> is_recv a = false /\ norecv l.
Proof. unfold norecv. cbn. intros H. apply andb_true_iff in H. destruct H as [H1 H2]. split; [ destruct (is_recv a); [ discriminate | reflexivity ] | exact H2 ]. Qed.

Hypothesis Dlast : forall i a, simple a = true -> D i a true.

Lemma args_fwd k l : forall i j T, norecv l ->
  let '(ss, l', n) := build_args pid k i l in
  (forall s t s' o, execs D T ss s t s' o -> o <> CoNormal -> exists p, o = CoPanic p /\ pass1 D [] k j l s t s' (inl p)) /\
  (forall s t s' T1, runs T ss s t s' T1 -> exists ov, pass1 D [] k j l s t s' (inr ov) /\ shape l ov /\ T1 = binds k i l ov ++ T).
Proof.
  induction l as [ | a l IH ]; intros i j T Hr; cbn [build_args].
  - split.
    + intros s t s' o H Hn. inversion H; subst. congruence.
    + intros s t s' T1 H. inversion H; subst. exists []. split; [ constructor | split; [ constructor | reflexivity ] ].
  - apply norecv_cons in Hr. destruct Hr as [Ha Hr].
    destruct (simple a) eqn:Hs.
    + assert (build_arg pid k i a = ([], a, [(B "arg" ++ num i, a)])) as -> by (destruct a; try reflexivity; discriminate).
      specialize (IH (S i) (S j) T Hr). destruct (build_args pid k (S i) l) as [[ss l'] n]. cbn [app].
      destruct IH as [IH1 IH2]. split.
      * intros s t s' o H Hn. destruct (IH1 _ _ _ _ H Hn) as (p & -> & HP). exists p. split; [ reflexivity | ].
        change (inl p) with (vcons (W := W) (A := option V) None (inl p)). apply P1Late; auto.
      * intros s t s' T1 H. destruct (IH2 _ _ _ _ H) as (ov & HP & HS & ->). exists (None :: ov). split; [ | split ].
        -- change (inr (None :: ov)) with (vcons (W := W) (A := option V) None (inr ov)). apply P1Late; auto.
        -- apply ShLate; assumption.
        -- destruct a; try reflexivity; discriminate.
    + destruct a; try discriminate. cbn [build_arg].
      specialize (IH (S i) (S j)). destruct (build_args pid k (S i) l) as [[ss l'] n] eqn:EB. cbn [app].
      split.
      * intros s t s' oc H Hn. inversion H; subst.
        -- destruct (IH ((arg_name pid k i, v) :: T) Hr) as [IH1 _].
           match goal with H : execs _ _ ss _ _ _ _ |- _ => destruct (IH1 _ _ _ _ H Hn) as (p & -> & HP) end.
           exists p. split; [ reflexivity | ]. change (inl p) with (vcons (W := W) (A := option V) (Some v) (inl p)).
           eapply P1Now; [ discriminate | eapply V1Op; [ reflexivity | eassumption ] | exact HP ].
        -- exists p. split; [ reflexivity | ]. apply P1Panic; [ discriminate | eapply V1OpP; [ reflexivity | assumption ] ].
        -- match goal with H : exec _ _ (STemp _ _) _ _ _ _ |- _ => inversion H end.
        -- match goal with H : exec _ _ (STemp _ _) _ _ _ _ |- _ => inversion H end.
      * intros s t s' T1 H. inversion H; subst.
        -- destruct (IH ((arg_name pid k i, v) :: T) Hr) as [_ IH2].
           match goal with H : runs _ ss _ _ _ _ |- _ => destruct (IH2 _ _ _ _ H) as (ov & HP & HS & ->) end.
           exists (Some v :: ov). split; [ | split ].
           ++ change (inr (Some v :: ov)) with (vcons (W := W) (A := option V) (Some v) (inr ov)).
              eapply P1Now; [ discriminate | eapply V1Op; [ reflexivity | eassumption ] | exact HP ].
           ++ apply ShHave; assumption.
           ++ cbn [binds]. rewrite <- app_assoc. reflexivity.
        -- match goal with H : exec _ _ (STemp _ _) _ _ _ _ |- _ => inversion H end.
Qed.

Lemma args_bwd k l : forall i j T, norecv l ->
  let '(ss, l', n) := build_args pid k i l in
  (forall s t s' p, pass1 reads_last [] k j l s t s' (inl p) -> execs D T ss s t s' (CoPanic p)) /\
  (forall s t s' ov, pass1 reads_last [] k j l s t s' (inr ov) -> shape l ov /\ runs T ss s t s' (binds k i l ov ++ T)).
Proof.
  induction l as [ | a l IH ]; intros i j T Hr; cbn [build_args].
  - split; intros s t s' o H; inversion H; subst. split; constructor.
  - apply norecv_cons in Hr. destruct Hr as [Ha Hr].
    destruct (simple a) eqn:Hs.
    + assert (build_arg pid k i a = ([], a, [(B "arg" ++ num i, a)])) as -> by (destruct a; try reflexivity; discriminate).
      specialize (IH (S i) (S j) T Hr). destruct (build_args pid k (S i) l) as [[ss l'] n]. cbn [app].
      destruct IH as [IH1 IH2]. split.
      * intros s t s' p H. inversion H; subst.
        -- destruct r; [ | discriminate ]. match goal with HH : vcons _ _ = _ |- _ => injection HH as -> end. eapply IH1; eassumption.
        -- match goal with HH : simple a = true -> _ |- _ => discriminate (HH Hs) end.
        -- match goal with HH : simple a = true -> _ |- _ => discriminate (HH Hs) end.
      * intros s t s' ov H. inversion H; subst.
        -- destruct r; [ discriminate | ]. match goal with HH : vcons _ _ = _ |- _ => injection HH as <- end.
           match goal with HH : pass1 _ _ _ _ _ _ _ _ _ |- _ => apply IH2 in HH; destruct HH as [HS HR] end.
           split; [ apply ShLate; assumption | ].
           assert (binds k i (a :: l) (None :: l0) = binds k (S i) l l0) as -> by (destruct a; reflexivity). exact HR.
        -- match goal with HH : simple a = true -> _ |- _ => discriminate (HH Hs) end.
    + destruct a; try discriminate. cbn [build_arg].
      specialize (IH (S i) (S j)). destruct (build_args pid k (S i) l) as [[ss l'] n] eqn:EB. cbn [app].
      split.
      * intros s t s' p H. inversion H; subst.
        -- discriminate.
        -- destruct r; [ | discriminate ]. match goal with HH : vcons _ _ = _ |- _ => injection HH as -> end.
           match goal with HH : ev1 _ _ _ _ _ _ _ |- _ => inversion HH; subst end.
           match goal with HH : opnd_op _ = _ |- _ => injection HH as <- end.
           eapply XsTemp; [ eassumption | ]. eapply (IH _ Hr); eassumption.
        -- match goal with HH : ev1 _ _ _ _ _ _ _ |- _ => inversion HH; subst end.
           match goal with HH : opnd_op _ = _ |- _ => injection HH as <- end.
           apply XsTempP; assumption.
      * intros s t s' ov H. inversion H; subst.
        -- discriminate.
        -- destruct r; [ discriminate | ]. match goal with HH : vcons _ _ = _ |- _ => injection HH as <- end.
           match goal with HH : ev1 _ _ _ _ _ _ _ |- _ => inversion HH; subst end.
           match goal with HH : opnd_op _ = _ |- _ => injection HH as <- end.
           match goal with HH : pass1 _ _ _ _ _ _ _ _ _ |- _ => apply (IH ((arg_name pid k i, v) :: T) Hr) in HH; destruct HH as [HS HR] end.
           split; [ apply ShHave; [ reflexivity | assumption ] | ].
           cbn [binds]. rewrite <- app_assoc. eapply RnTemp; eassumption.
Qed.

(** The operands of the new call. *)
Definition good (a : operand Op) : Prop :=
  plain_op a /\ (forall o, a = OSel o \/ a = OLit o \/ a = OConst o -> pure W o).

Inductive rel3 (T : temps) : list (operand Op) -> list (option V) -> list (operand Op) -> Prop :=
| R3Nil : rel3 T [] [] []
| R3Late a l ov l' : simple a = true -> good a -> rel3 T l ov l' -> rel3 T (a :: l) (None :: ov) (a :: l')
| R3Have a v a' x l ov l' : simple a = false -> a' = OId x \/ a' = ORecvId x -> tlook T x = Some v -> rel3 T l ov l' -> rel3 T (a :: l) (Some v :: ov) (a' :: l').

Fixpoint numbered (i : nat) (l : list (operand Op)) : list (bytes * operand Op) :=
  match l with [] => [] | a :: l' => (B "arg" ++ num i, a) :: numbered (S i) l' end.

Lemma args_rel3 k l ov : shape l ov -> forall i T1, norecv l -> Forall good l ->
  (forall x v, tlook (binds k i l ov) x = Some v -> tlook T1 x = Some v) ->
  let '(ss, l', n) := build_args pid k i l in rel3 T1 l ov l' /\ n = numbered i l'.
Proof.
  induction 1 as [ | a l ov Hs HS IH | a v l ov Hs HS IH ]; intros i T1 Hr Hg HT; cbn [build_args].
  - split; [ constructor | reflexivity ].
  - apply norecv_cons in Hr. destruct Hr as [Ha Hr]. inversion Hg; subst.
    assert (build_arg pid k i a = ([], a, [(B "arg" ++ num i, a)])) as -> by (destruct a; try reflexivity; discriminate).
    specialize (IH (S i) T1 Hr ltac:(assumption)). destruct (build_args pid k (S i) l) as [[ss l'] n]. cbn [app].
    destruct IH as [IH1 IH2]; [ intros x w; specialize (HT x w); destruct a; exact HT | ].
    split; [ apply R3Late; assumption | cbn [numbered]; rewrite IH2; reflexivity ].
  - apply norecv_cons in Hr. destruct Hr as [Ha Hr]. inversion Hg; subst.
    destruct a; try discriminate. cbn [build_arg]. cbn [binds] in HT.
    specialize (IH (S i) T1 Hr ltac:(assumption)). destruct (build_args pid k (S i) l) as [[ss l'] n]. cbn [app].
    destruct IH as [IH1 IH2]; [ intros x w Hx; apply HT; rewrite tlook_app, Hx; reflexivity | ].
    split; [ | cbn [numbered]; rewrite IH2; reflexivity ].
    eapply R3Have; [ reflexivity | left; reflexivity | | exact IH1 ].
    apply HT. rewrite tlook_app, binds_before by lia. cbn [tlook]. rewrite beq_refl. reflexivity.
Qed.

Lemma good_pure T k a s t s' r : good a -> simple a = true -> ev1 (W := W) T k a s t s' r -> t = [] /\ s' = s.
Proof.
  intros [_ Hp] Hs H. inversion H; subst; try (split; reflexivity); try discriminate.
  - assert (pure W o) as [HP _] by (apply Hp; destruct a; try discriminate; match goal with HH : opnd_op _ = _ |- _ => injection HH as -> end; auto).
    match goal with HH : step _ _ _ _ _ |- _ => destruct HH as (t0 & u' & -> & -> & HA) end.
    apply HP in HA. destruct HA as [-> ->]. split; [ reflexivity | destruct s; reflexivity ].
  - assert (pure W o) as [HP _] by (apply Hp; destruct a; try discriminate; match goal with HH : opnd_op _ = _ |- _ => injection HH as -> end; auto).
    match goal with HH : step _ _ _ _ _ |- _ => destruct HH as (t0 & u' & -> & -> & HA) end.
    apply HP in HA. destruct HA as [-> ->]. split; [ reflexivity | destruct s; reflexivity ].
Qed.
Lemma good_det T k a s t s' r t2 s2 r2 : good a -> simple a = true -> ev1 (W := W) T k a s t s' r -> ev1 T k a s t2 s2 r2 -> r2 = r.
Proof.
  intros [_ Hp] Hs H H2.
  destruct (opnd_op a) as [o | ] eqn:Eo.
  - assert (pure W o) as [_ HP] by (apply Hp; destruct a; try discriminate; injection Eo as ->; auto).
    assert (forall t s' r, ev1 T k a s t s' r -> exists R t0 u', w2_act W o (su s) t0 u' R /\
              match r with inr v => R = RVals [v] | inl p => R = RPanic p end) as HX.
    { intros t3 s3 r3 H3. inversion H3; subst; try discriminate;
        match goal with HH : opnd_op _ = _ |- _ => rewrite Eo in HH; injection HH as -> end;
        match goal with HH : step _ _ _ _ _ |- _ => destruct HH as (t0 & u' & -> & -> & HA) end; eauto. }
    apply HX in H. apply HX in H2. destruct H as (R & ta & ua & HA & HR). destruct H2 as (R2 & tb & ub & HB & HR2).
    assert (R2 = R) as -> by (eapply HP; eassumption).
    destruct r, r2; subst; congruence.
  - destruct a; try discriminate; inversion H; subst; try discriminate; inversion H2; subst; try discriminate; reflexivity.
Qed.

Lemma phase2 T k l ov l' : Tok T -> rel3 T l ov l' -> forall s t s' r,
  pass2 T k l' (map (fun _ => None) l') s t s' r <-> pass2 [] k l ov s t s' r.
Proof.
  intros HT. induction 1 as [ | a l ov l' Hs Hg HR IH | a v a' x l ov l' Hk Ha Hl HR IH ]; intros s t s' r; cbn [map].
  - split; intros H; inversion H; subst; constructor.
  - destruct Hg as [Hn _]. split; intros H; inversion H; subst.
    + eapply P2Late; [ eapply ev1_T; [ exact HT | apply Tok_nil | exact Hn | eassumption ] | apply IH; assumption ].
    + apply P2Panic. eapply ev1_T; [ exact HT | apply Tok_nil | exact Hn | eassumption ].
    + eapply P2Late; [ eapply ev1_T; [ apply Tok_nil | exact HT | exact Hn | eassumption ] | apply IH; assumption ].
    + apply P2Panic. eapply ev1_T; [ apply Tok_nil | exact HT | exact Hn | eassumption ].
  - assert (forall s, ev1 (W := W) T k a' s [] s (inr v)) as HV.
    { intros s1. replace v with (cread T k s1 x) by (unfold cread; rewrite Hl; reflexivity).
      destruct Ha as [-> | ->]; constructor. }
    assert (forall s t s' r, ev1 (W := W) T k a' s t s' r -> t = [] /\ s' = s /\ r = inr v) as HU.
    { intros s1 t1 s2 r1 H1. destruct Ha as [-> | ->]; inversion H1; subst; try discriminate;
        (split; [ reflexivity | split; [ reflexivity | unfold cread; rewrite Hl; reflexivity ] ]). }
    split; intros H; inversion H; subst.
    + match goal with HH : ev1 _ _ _ _ _ _ _ |- _ => apply HU in HH; destruct HH as (-> & -> & E) end. injection E as ->.
      apply P2Have. apply IH. assumption.
    + match goal with HH : ev1 _ _ _ _ _ _ _ |- _ => apply HU in HH; destruct HH as (_ & _ & E) end. discriminate.
    + change t with ([] ++ t). eapply P2Late; [ apply HV | apply IH; assumption ].
Qed.

Lemma phase2_pure T k l ov l' : rel3 T l ov l' -> forall s t s' r, pass2 (W := W) [] k l ov s t s' r -> t = [] /\ s' = s.
Proof.
  induction 1 as [ | a l ov l' Hs Hg HR IH | a v a' x l ov l' Hk Ha Hl HR IH ]; intros s t s' r H; inversion H; subst.
  - split; reflexivity.
  - match goal with HH : ev1 _ _ _ _ _ _ _ |- _ => apply good_pure in HH; [ destruct HH as [-> ->] | assumption .. ] end.
    eapply IH; eassumption.
  - match goal with HH : ev1 _ _ _ _ _ _ _ |- _ => apply good_pure in HH; [ exact HH | assumption .. ] end.
  - eapply IH; eassumption.
Qed.

Definition det (T : temps) (k : nat) (s : cstate Op W) (a : operand Op) (v : V) : Prop :=
  simple a = true /\ ev1 T k a s [] s (inr v) /\ forall t s' r, ev1 T k a s t s' r -> t = [] /\ s' = s /\ r = inr v.

Lemma phase2_det T k l ov l' : Tok T -> rel3 T l ov l' -> forall s t s' vs,
  pass2 [] k l ov s t s' (inr vs) -> Forall2 (det T k s) l' vs.
Proof.
  intros HT. induction 1 as [ | a l ov l' Hs Hg HR IH | a v a' x l ov l' Hk Ha Hl HR IH ]; intros s t s' vs H; inversion H; subst.
  - constructor.
  - destruct r as [p | vs0]; [ discriminate | ]. match goal with HH : vcons _ _ = _ |- _ => injection HH as <- end.
    match goal with HH : ev1 _ _ _ _ _ _ _ |- _ => pose proof (good_pure _ _ _ _ _ _ _ Hg Hs HH) as [-> ->]; rename HH into HE end.
    apply (ev1_T [] T) in HE; [ | apply Tok_nil | exact HT | exact (proj1 Hg) ].
    constructor; [ | eapply IH; eassumption ].
    split; [ exact Hs | split; [ exact HE | ] ]. intros t3 s3 r3 H3.
    pose proof (good_pure _ _ _ _ _ _ _ Hg Hs H3) as [-> ->].
    split; [ reflexivity | split; [ reflexivity | ] ]. eapply good_det; eassumption.
  - destruct r as [p | vs0]; [ discriminate | ]. match goal with HH : vcons _ _ = _ |- _ => injection HH as <- end.
    constructor; [ | eapply IH; eassumption ].
    assert (cread T k s x = v) as Ec by (unfold cread; rewrite Hl; reflexivity). subst v.
    split; [ destruct Ha as [-> | ->]; reflexivity | split ].
    + destruct Ha as [-> | ->]; constructor.
    + intros t3 s3 r3 H3. destruct Ha as [-> | ->]; inversion H3; subst; try discriminate; repeat split.
Qed.

Lemma det_operands T k l s vs : Forall2 (det T k s) l vs -> operands D T k l s [] s (inr vs).
Proof.
  intros H. change (@nil (cevent Op W)) with (@nil (cevent Op W) ++ []).
  eapply OpsVals with (s1 := s) (l := map (fun _ => None) l).
  - generalize 0%nat. induction H as [ | a v l vs Ha HF IH ]; intros i; [ constructor | ].
    cbn [map]. change (inr (None :: map (fun _ => None) l)) with (vcons (W := W) (A := option V) None (inr (map (fun _ => None) l))).
    apply P1Late; [ apply Ha | apply Dlast, Ha | apply IH ].
  - induction H as [ | a v l vs Ha HF IH ]; [ constructor | ].
    cbn [map]. change (inr (v :: vs)) with (vcons (W := W) v (inr vs)). change (@nil (cevent Op W)) with (@nil (cevent Op W) ++ []).
    eapply P2Late; [ apply Ha | exact IH ].
Qed.

Lemma det_unique T k l s vs : Forall2 (det T k s) l vs -> forall t s' r, operands D T k l s t s' r -> t = [] /\ s' = s /\ r = inr vs.
Proof.
  intros HF.
  assert (forall i t s' r, pass1 D T k i l s t s' r -> t = [] /\ s' = s /\ exists ov, r = inr ov /\
            Forall2 (fun o v => o = None \/ o = Some v) ov vs) as H1.
  { induction HF as [ | a v l vs (Hs & He & Hu) HF IH ]; intros i t s' r H; inversion H; subst.
    - split; [ reflexivity | split; [ reflexivity | exists []; split; [ reflexivity | constructor ] ] ].
    - match goal with HH : pass1 _ _ _ _ _ _ _ _ _ |- _ => apply IH in HH; destruct HH as (-> & -> & ov & -> & HO) end.
      split; [ reflexivity | split; [ reflexivity | exists (None :: ov); split; [ reflexivity | constructor; auto ] ] ].
    - match goal with HH : ev1 _ _ _ _ _ _ _ |- _ => apply Hu in HH; destruct HH as (-> & -> & E) end. injection E as ->.
      match goal with HH : pass1 _ _ _ _ _ _ _ _ _ |- _ => apply IH in HH; destruct HH as (-> & -> & ov & -> & HO) end.
      split; [ reflexivity | split; [ reflexivity | exists (Some v :: ov); split; [ reflexivity | constructor; auto ] ] ].
    - match goal with HH : ev1 _ _ _ _ _ _ _ |- _ => apply Hu in HH; destruct HH as (_ & _ & E) end. discriminate. }
  assert (forall ov t s' r, Forall2 (fun o v => o = None \/ o = Some v) ov vs -> pass2 T k l ov s t s' r -> t = [] /\ s' = s /\ r = inr vs) as H2.
  { clear H1. induction HF as [ | a v l vs (Hs & He & Hu) HF IH ]; intros ov t s' r HO H; inversion H; subst; inversion HO; subst.
    - repeat split.
    - match goal with HH : pass2 _ _ _ _ _ _ _ _ |- _ => apply IH in HH; [ destruct HH as (-> & -> & ->) | assumption ] end.
      match goal with HH : _ \/ Some _ = Some _ |- _ => destruct HH as [E | E]; [ discriminate | injection E as -> ] end. repeat split.
    - match goal with HH : ev1 _ _ _ _ _ _ _ |- _ => apply Hu in HH; destruct HH as (-> & -> & E) end. injection E as ->.
      match goal with HH : pass2 _ _ _ _ _ _ _ _ |- _ => apply IH in HH; [ destruct HH as (-> & -> & ->) | assumption ] end.
      repeat split.
    - match goal with HH : ev1 _ _ _ _ _ _ _ |- _ => apply Hu in HH; destruct HH as (_ & _ & E) end. discriminate. }
  intros t s' r H. inversion H; subst.
  - match goal with HH : pass1 _ _ _ _ _ _ _ _ _ |- _ => apply H1 in HH; destruct HH as (_ & _ & ov & E & _) end. discriminate.
  - match goal with HH : pass1 _ _ _ _ _ _ _ _ _ |- _ => apply H1 in HH; destruct HH as (-> & -> & ov & E & HO) end. injection E as ->.
    match goal with HH : pass2 _ _ _ _ _ _ _ _ |- _ => eapply H2 in HH; [ destruct HH as (-> & -> & ->) | exact HO ] end.
    repeat split.
Qed.

(** The snapshots show the operands of the new call, or all but a receiver
    that is not shown. *)
Definition covers (ops ops' : list (operand Op)) (snaps : list (bytes * operand Op)) : Prop :=
  (map snd snaps = ops' /\ forall vs : list V, length vs = length ops' -> combine (map fst snaps) vs = fields pkgs ops vs) \/
  exists x, exists r r', ops' = ORecvId x :: r' /\ ops = ORecvId x :: r /\ map snd snaps = r' /\
    forall (v : V) vs, length vs = length r' -> combine (map fst snaps) vs = fields pkgs ops (v :: vs).

Lemma numbered_snd l : forall i, map snd (numbered i l) = l.
Proof. induction l; intros i; cbn [numbered map snd]; [ reflexivity | f_equal; auto ]. Qed.
Lemma rel3_length T l ov l' : rel3 T l ov l' -> length l' = length l.
Proof. induction 1; cbn [length]; congruence. Qed.

Lemma numbered_fields l : forall i l' (vs : list V), norecv l -> length l' = length l -> length vs = length l' ->
  combine (map fst (numbered i l')) vs = arg_fields pkgs i l vs.
Proof.
  induction l as [ | a l IH ]; intros i l' vs Hr H1 H2.
  - destruct l'; [ reflexivity | discriminate ].
  - destruct l' as [ | a' l' ]; [ discriminate | ]. destruct vs as [ | v vs ]; [ discriminate | ].
    apply norecv_cons in Hr. destruct Hr as [Ha Hr]. cbn [numbered map fst combine arg_fields].
    assert (field pkgs i a v = [(B "arg" ++ num i, v)]) as -> by (destruct a; try reflexivity; discriminate).
    cbn [app]. f_equal. apply IH; [ exact Hr | injection H1; auto | injection H2; auto ].
Qed.

Definition sound_ops (ops : list (operand Op)) : Prop :=
  norecv (tl ops) /\ Forall good ops /\ forall o, In (ORecvX o) ops -> copyable W o.

Lemma args_shape k i l : norecv l -> exists ss l' n, build_args pid k i l = (ss, l', n).
Proof. intros _. destruct (build_args pid k i l) as [[ss l'] n]. eauto. Qed.

Lemma binds_keep k i l ov (T : temps) x v : tlook (binds k i l ov) x = Some v -> tlook (binds k i l ov ++ T) x = Some v.
Proof. intros H. rewrite tlook_app, H. reflexivity. Qed.

Lemma build_split k ops : sound_ops ops -> exists ss snaps ops', build_call pkgs pid k ops = (ss ++ [SSend k (pid k) snaps], ops') /\
  forall T, Tok T ->
  (forall s t s' o, execs D T ss s t s' o -> o <> CoNormal -> exists p, o = CoPanic p /\ pass1 D [] k 0 ops s t s' (inl p)) /\
  (forall s t s' p, pass1 reads_last [] k 0 ops s t s' (inl p) -> execs D T ss s t s' (CoPanic p)) /\
  (forall s t s' T1, runs T ss s t s' T1 -> exists ov, pass1 D [] k 0 ops s t s' (inr ov) /\ Tok T1 /\ rel3 T1 ops ov ops' /\ covers ops ops' snaps) /\
  (forall s t s' ov, pass1 reads_last [] k 0 ops s t s' (inr ov) -> exists T1, runs T ss s t s' T1 /\ Tok T1 /\ rel3 T1 ops ov ops' /\ covers ops ops' snaps).
Proof.
  intros (Hr & Hg & Hc).
  assert (norecv ops -> exists ss snaps ops', build_args pid k 0 ops = (ss, ops', snaps) /\
  forall T, Tok T ->
  (forall s t s' o, execs D T ss s t s' o -> o <> CoNormal -> exists p, o = CoPanic p /\ pass1 D [] k 0 ops s t s' (inl p)) /\
  (forall s t s' p, pass1 reads_last [] k 0 ops s t s' (inl p) -> execs D T ss s t s' (CoPanic p)) /\
  (forall s t s' T1, runs T ss s t s' T1 -> exists ov, pass1 D [] k 0 ops s t s' (inr ov) /\ Tok T1 /\ rel3 T1 ops ov ops' /\ covers ops ops' snaps) /\
  (forall s t s' ov, pass1 reads_last [] k 0 ops s t s' (inr ov) -> exists T1, runs T ss s t s' T1 /\ Tok T1 /\ rel3 T1 ops ov ops' /\ covers ops ops' snaps)) as Hplain.
  { intros Hn. destruct (build_args pid k 0 ops) as [[ss ops'] snaps] eqn:EB. exists ss, snaps, ops'. split; [ reflexivity | ]. intros T HT.
    pose proof (args_fwd k ops 0 0 T Hn) as HF. rewrite EB in HF. destruct HF as [F1 F2].
    pose proof (args_bwd k ops 0 0 T Hn) as HB. rewrite EB in HB. destruct HB as [B1 B2].
    assert (forall ov T1, shape ops ov -> T1 = binds k 0 ops ov ++ T -> Tok T1 /\ rel3 T1 ops ov ops' /\ covers ops ops' snaps) as HX.
    { intros ov T1 HS ->. split; [ apply Tok_app; [ apply binds_reserved | exact HT ] | ].
      pose proof (args_rel3 k ops ov HS 0 (binds k 0 ops ov ++ T) Hn Hg (binds_keep _ _ _ _ _)) as HR. rewrite EB in HR. destruct HR as [HR ->].
      split; [ exact HR | ]. left. split; [ apply numbered_snd | ]. intros vs Hv.
      rewrite (numbered_fields ops) by (try exact Hn; try exact Hv; eapply rel3_length, HR).
      destruct ops as [ | a ops ]; [ reflexivity | ]. destruct vs as [ | v vs ]; [ reflexivity | ].
      unfold fields. apply norecv_cons in Hn. destruct Hn as [-> _]. reflexivity. }
    split; [ exact F1 | split; [ exact B1 | split ] ].
    - intros s t s' T1 H. destruct (F2 _ _ _ _ H) as (ov & HP & HS & HT1). exists ov. split; [ exact HP | ]. apply HX; assumption.
    - intros s t s' ov H. destruct (B2 _ _ _ _ H) as [HS HR]. exists (binds k 0 ops ov ++ T). split; [ exact HR | ]. apply HX; auto. }
  destruct ops as [ | a args ].
  { destruct (Hplain eq_refl) as (ss & snaps & ops' & EB & H). exists ss, snaps, ops'. unfold build_call. rewrite EB. split; [ reflexivity | exact H ]. }
  destruct (is_recv a) eqn:Ea.
  2: { assert (norecv (a :: args)) as Hn by (unfold norecv; cbn [forallb]; rewrite Ea; exact Hr).
       destruct (Hplain Hn) as (ss & snaps & ops' & EB & H). exists ss, snaps, ops'. split; [ | exact H ].
       unfold build_call. rewrite EB. destruct a; try reflexivity; discriminate. }
  clear Hplain. cbn [tl] in Hr. inversion Hg as [ | ? ? Hga Hgl ]; subst.
  destruct (build_args pid k 0 args) as [[ss args'] n] eqn:EB.
  destruct a as [x | o | | | | | ]; try discriminate.
  - set (n0 := if negb (beq x (B "_")) && negb (mem x pkgs) then [(shown x, ORecvId x)] else @nil (bytes * operand Op)).
    exists ss, (n0 ++ n), (ORecvId x :: args').
    split; [ unfold build_call; cbn [build_recv]; rewrite EB; reflexivity | ]. intros T HT.
    pose proof (args_fwd k args 0 1 T Hr) as HF. rewrite EB in HF. destruct HF as [F1 F2].
    pose proof (args_bwd k args 0 1 T Hr) as HB. rewrite EB in HB. destruct HB as [B1 B2].
    assert (forall ov T1, shape args ov -> T1 = binds k 0 args ov ++ T ->
              Tok T1 /\ rel3 T1 (ORecvId x :: args) (None :: ov) (ORecvId x :: args') /\ covers (ORecvId x :: args) (ORecvId x :: args') (n0 ++ n)) as HX.
    { intros ov T1 HS ->. split; [ apply Tok_app; [ apply binds_reserved | exact HT ] | ].
      pose proof (args_rel3 k args ov HS 0 (binds k 0 args ov ++ T) Hr Hgl (binds_keep _ _ _ _ _)) as HR. rewrite EB in HR. destruct HR as [HR ->].
      split; [ apply R3Late; [ reflexivity | exact Hga | exact HR ] | ].
      assert (reserved x = false) as Hx by (apply (proj1 Hga); reflexivity).
      unfold covers. fold (mem x pkgs). unfold n0.
      destruct (beq x (B "_")) eqn:E1; [ | destruct (mem x pkgs) eqn:E2 ]; cbn [negb andb app].
      - right. exists x, args, args'. split; [ reflexivity | split; [ reflexivity | split; [ apply numbered_snd | ] ] ].
        intros v vs Hv. unfold fields. cbn [is_recv field]. rewrite E1. cbn [orb app].
        apply numbered_fields; [ exact Hr | eapply rel3_length, HR | exact Hv ].
      - right. exists x, args, args'. split; [ reflexivity | split; [ reflexivity | split; [ apply numbered_snd | ] ] ].
        intros v vs Hv. unfold fields. cbn [is_recv field]. fold (mem x pkgs). rewrite E1, E2. cbn [orb app].
        apply numbered_fields; [ exact Hr | eapply rel3_length, HR | exact Hv ].
      - left. split; [ cbn [map snd]; rewrite numbered_snd; reflexivity | ].
        intros vs Hv. destruct vs as [ | v vs ]; [ discriminate | ]. unfold fields. cbn [is_recv field]. fold (mem x pkgs). rewrite E1, E2.
        cbn [orb app map fst combine]. rewrite (shown_plain x Hx). f_equal.
        apply numbered_fields; [ exact Hr | eapply rel3_length, HR | injection Hv; auto ]. }
    split; [ | split; [ | split ] ].
    + intros s t s' oc H Hn. destruct (F1 _ _ _ _ H Hn) as (p & -> & HP). exists p. split; [ reflexivity | ].
      change (inl p) with (vcons (W := W) (A := option V) None (inl p)). apply P1Late; auto.
    + intros s t s' p H. inversion H; subst.
      * destruct r; [ | discriminate ]. match goal with HH : vcons _ _ = _ |- _ => injection HH as -> end. eapply B1; eassumption.
      * match goal with HH : simple _ = true -> _ |- _ => discriminate (HH eq_refl) end.
      * match goal with HH : simple _ = true -> _ |- _ => discriminate (HH eq_refl) end.
    + intros s t s' T1 H. destruct (F2 _ _ _ _ H) as (ov & HP & HS & HT1). exists (None :: ov). split; [ | apply HX; assumption ].
      change (inr (None :: ov)) with (vcons (W := W) (A := option V) None (inr ov)). apply P1Late; auto.
    + intros s t s' ov H. inversion H; subst.
      * destruct r as [ | ov0 ]; [ discriminate | ]. match goal with HH : vcons _ _ = _ |- _ => injection HH as <- end.
        match goal with HH : pass1 _ _ _ _ _ _ _ _ _ |- _ => apply B2 in HH; destruct HH as [HS HR] end.
        eexists. split; [ exact HR | ]. apply HX; auto.
      * match goal with HH : simple _ = true -> _ |- _ => discriminate (HH eq_refl) end.
  - exists (STemp (recv_name pid k) o :: ss), ((B "recv", ORecvId (recv_name pid k)) :: n), (ORecvId (recv_name pid k) :: args').
    split; [ unfold build_call; cbn [build_recv]; rewrite EB; reflexivity | ]. intros T HT.
    assert (copyable W o) as Hco by (apply Hc; left; reflexivity).
    pose proof (fun v => args_fwd k args 0 1 ((recv_name pid k, v) :: T) Hr) as HF. rewrite EB in HF.
    pose proof (fun v => args_bwd k args 0 1 ((recv_name pid k, v) :: T) Hr) as HB. rewrite EB in HB.
    assert (forall v ov T1, shape args ov -> T1 = binds k 0 args ov ++ (recv_name pid k, v) :: T ->
              Tok T1 /\ rel3 T1 (ORecvX o :: args) (Some v :: ov) (ORecvId (recv_name pid k) :: args') /\
              covers (ORecvX o :: args) (ORecvId (recv_name pid k) :: args') ((B "recv", ORecvId (recv_name pid k)) :: n)) as HX.
    { intros v ov T1 HS ->. split; [ apply Tok_app; [ apply binds_reserved | apply Tok_cons; [ apply recv_name_reserved | exact HT ] ] | ].
      pose proof (args_rel3 k args ov HS 0 (binds k 0 args ov ++ (recv_name pid k, v) :: T) Hr Hgl (binds_keep _ _ _ _ _)) as HR.
      rewrite EB in HR. destruct HR as [HR ->]. split.
      - eapply R3Have; [ reflexivity | right; reflexivity | | exact HR ].
        rewrite tlook_app, binds_other; [ cbn [tlook]; rewrite beq_refl; reflexivity | ].
        intros j E. pose proof (arg_recv k j) as Hx. rewrite E, beq_refl in Hx. discriminate.
      - left. split; [ cbn [map snd]; rewrite numbered_snd; reflexivity | ].
        intros vs Hv. destruct vs as [ | w vs ]; [ discriminate | ]. unfold fields. cbn [is_recv field app map fst combine]. f_equal.
        apply numbered_fields; [ exact Hr | eapply rel3_length, HR | injection Hv; auto ]. }
    assert (forall s t s' r, step (w2_act W o) s t s' r <-> step (w2_adr W o) s t s' r) as Hst.
    { intros s t s' r. split; apply step_eq; intros u tt u' rr; apply Hco. }
    split; [ | split; [ | split ] ].
    + intros s t s' oc H Hn. inversion H; subst.
      * match goal with HH : execs _ _ ss _ _ _ _ |- _ => destruct (proj1 (HF v) _ _ _ _ HH Hn) as (p & -> & HP) end.
        exists p. split; [ reflexivity | ]. change (inl p) with (vcons (W := W) (A := option V) (Some v) (inl p)).
        eapply P1Now; [ discriminate | apply V1Adr, Hst; eassumption | exact HP ].
      * exists p. split; [ reflexivity | ]. apply P1Panic; [ discriminate | apply V1AdrP, Hst; assumption ].
      * match goal with HH : exec _ _ (STemp _ _) _ _ _ _ |- _ => inversion HH end.
      * match goal with HH : exec _ _ (STemp _ _) _ _ _ _ |- _ => inversion HH end.
    + intros s t s' p H. inversion H; subst.
      * discriminate.
      * destruct r; [ | discriminate ]. match goal with HH : vcons _ _ = _ |- _ => injection HH as -> end.
        match goal with HH : ev1 _ _ _ _ _ _ _ |- _ => inversion HH; subst; [ | discriminate ] end.
        eapply XsTemp; [ apply Hst; eassumption | ]. eapply (proj1 (HB v)); eassumption.
      * match goal with HH : ev1 _ _ _ _ _ _ _ |- _ => inversion HH; subst; [ | discriminate ] end.
        apply XsTempP, Hst; assumption.
    + intros s t s' T1 H. inversion H; subst.
      * match goal with HH : runs _ ss _ _ _ _ |- _ => destruct (proj2 (HF v) _ _ _ _ HH) as (ov & HP & HS & HT1) end.
        exists (Some v :: ov). split; [ | apply HX; assumption ].
        change (inr (Some v :: ov)) with (vcons (W := W) (A := option V) (Some v) (inr ov)).
        eapply P1Now; [ discriminate | apply V1Adr, Hst; eassumption | exact HP ].
      * match goal with HH : exec _ _ (STemp _ _) _ _ _ _ |- _ => inversion HH end.
    + intros s t s' ov H. inversion H; subst.
      * discriminate.
      * destruct r as [ | ov0 ]; [ discriminate | ]. match goal with HH : vcons _ _ = _ |- _ => injection HH as <- end.
        match goal with HH : ev1 _ _ _ _ _ _ _ |- _ => inversion HH; subst; [ | discriminate ] end.
        match goal with HH : pass1 _ _ _ _ _ _ _ _ _ |- _ => apply (proj2 (HB v)) in HH; destruct HH as [HS HR] end.
        eexists. split; [ eapply RnTemp; [ apply Hst; eassumption | exact HR ] | ]. apply HX; auto.
Qed.

Lemma pass2_length T k l ov s t s' vs : pass2 (W := W) T k l ov s t s' (inr vs) -> length vs = length l.
Proof.
  intros H. remember (inr vs) as r eqn:E. revert vs E. induction H; intros vs E; try discriminate.
  - injection E as <-. reflexivity.
  - destruct r; [ discriminate | ]. injection E as <-. cbn [length]. f_equal. apply IHpass2. reflexivity.
  - destruct r; [ discriminate | ]. injection E as <-. cbn [length]. f_equal. apply IHpass2. reflexivity.
Qed.

Lemma map_nones {A B} (l : list A) (f : A -> B) : map (fun _ : A => @None V) l = map (fun _ => None) (map f l).
Proof. rewrite map_map. reflexivity. Qed.

(** The message is sent once all operands have their values. *)
Lemma send_fwd T k ops ov ops' snaps p : Tok T -> rel3 T ops ov ops' -> covers ops ops' snaps -> forall s t s' o,
  exec D T (SSend k p snaps) s t s' o ->
  (exists v, o = CoPanic v /\ pass2 [] k ops ov s t s' (inl v)) \/
  (o = CoNormal /\ exists vs, t = [CeState p (fields pkgs ops vs)] /\ s' = s /\ pass2 [] k ops ov s [] s (inr vs)).
Proof.
  intros HT HR HC s t s' o H. destruct HC as [[HC1 HC2] | (x & r & r' & -> & -> & HC1 & HC2)].
  - inversion H; subst.
    + match goal with HH : pass2 _ _ _ _ _ _ _ _ |- _ => rewrite (map_nones _ snd) in HH; pose proof (pass2_length _ _ _ _ _ _ _ _ HH) as HL; apply (phase2 T k _ _ _ HT HR) in HH; rename HH into HP end.
      pose proof (phase2_pure T k _ _ _ HR _ _ _ _ HP) as [-> ->].
      right. split; [ reflexivity | ]. exists vs. rewrite HC2 by exact HL. repeat split. exact HP.
    + match goal with HH : pass2 _ _ _ _ _ _ _ _ |- _ => rewrite (map_nones _ snd) in HH; apply (phase2 T k _ _ _ HT HR) in HH end. left. eauto.
  - inversion HR; subst; [ | discriminate ]. inversion H; subst.
    + match goal with HH : pass2 _ _ _ _ _ _ _ _ |- _ => rewrite (map_nones _ snd) in HH; pose proof (pass2_length _ _ _ _ _ _ _ _ HH) as HL; eapply phase2 in HH; [ rename HH into HP | exact HT | eassumption ] end.
      match goal with HH : rel3 _ r _ _ |- _ => pose proof (phase2_pure T k _ _ _ HH _ _ _ _ HP) as [-> ->] end.
      right. split; [ reflexivity | ]. exists (cread [] k s x :: vs). rewrite <- HC2 by exact HL. repeat split.
      change (inr (cread [] k s x :: vs)) with (vcons (W := W) (cread [] k s x) (inr vs)).
      change (@nil (cevent Op W)) with (@nil (cevent Op W) ++ []). eapply P2Late; [ constructor | exact HP ].
    + match goal with HH : pass2 _ _ _ _ _ _ _ _ |- _ => rewrite (map_nones _ snd) in HH; eapply phase2 in HH; [ rename HH into HP | exact HT | eassumption ] end.
      left. exists v. split; [ reflexivity | ].
      change (inl v) with (vcons (W := W) (A := V) (cread [] k s x) (inl v)). change t with ([] ++ t). eapply P2Late; [ constructor | exact HP ].
Qed.

Lemma send_bwd T k ops ov ops' snaps p : Tok T -> rel3 T ops ov ops' -> covers ops ops' snaps -> forall s t s' r,
  pass2 [] k ops ov s t s' r ->
  match r with
  | inl v => exec D T (SSend k p snaps) s t s' (CoPanic v)
  | inr vs => t = [] /\ s' = s /\ exec D T (SSend k p snaps) s [CeState p (fields pkgs ops vs)] s CoNormal
  end.
Proof.
  intros HT HR HC s t s' r H. destruct HC as [[HC1 HC2] | (x & q & q' & -> & -> & HC1 & HC2)].
  - pose proof (phase2_pure T k _ _ _ HR _ _ _ _ H) as [-> ->].
    apply (phase2 T k _ _ _ HT HR) in H. destruct r as [v | vs].
    + apply XSendP. rewrite (map_nones _ snd), HC1. exact H.
    + split; [ reflexivity | split; [ reflexivity | ] ]. rewrite <- HC2 by (eapply pass2_length in H; exact H).
      eapply (XSend Op W D T k p snaps _ []). rewrite (map_nones _ snd), HC1. exact H.
  - pose proof (phase2_pure T k _ _ _ HR _ _ _ _ H) as [-> ->]. inversion HR; subst; [ | discriminate ]. inversion H; subst.
    + match goal with HH : _ ++ _ = [] |- _ => apply app_eq_nil in HH; destruct HH as [-> ->] end.
      match goal with HH : ev1 _ _ _ _ _ _ _ |- _ => inversion HH; subst; try discriminate end.
      match goal with HH : pass2 _ _ q _ _ _ _ _ |- _ => eapply phase2 in HH; [ rename HH into HP | exact HT | eassumption ] end.
      destruct r0 as [w | vs].
      * cbn [vcons]. apply XSendP. rewrite (map_nones _ snd). exact HP.
      * cbn [vcons]. split; [ reflexivity | split; [ reflexivity | ] ]. rewrite <- HC2 by (eapply pass2_length in HP; exact HP).
        eapply (XSend Op W D T k p snaps _ []). rewrite (map_nones _ snd). exact HP.
    + match goal with HH : ev1 _ _ _ _ _ _ _ |- _ => inversion HH; subst; try discriminate end.
Qed.

Lemma pre_fwd k ops T : sound_ops ops -> Tok T -> let (pre, ops') := build_call pkgs pid k ops in
  (forall s t s' o, execs D T pre s t s' o -> o <> CoNormal -> exists p, o = CoPanic p /\ operands D [] k ops s t s' (inl p)) /\
  (forall s t s' T1, runs T pre s t s' T1 -> Tok T1 /\ exists t0 vs, t = t0 ++ [CeState (pid k) (fields pkgs ops vs)] /\
     operands D [] k ops s t0 s' (inr vs) /\ Forall2 (det T1 k s') ops' vs).
Proof.
  intros Hs HT. destruct (build_split k ops Hs) as (ss & snaps & ops' & -> & HB). destruct (HB T HT) as (H1 & _ & H3 & _). split.
  - intros s t s' o H Hn. apply execs_app_inv in H. destruct H as [[H _] | (t1 & s1 & T1 & t2 & HR & HE & ->)].
    + destruct (H1 _ _ _ _ H Hn) as (p & -> & HP). exists p. split; [ reflexivity | apply OpsPanic, HP ].
    + destruct (H3 _ _ _ _ HR) as (ov & HP & HT1 & HR3 & HC). inversion HE; subst.
      * match goal with HH : execs _ _ [] _ _ _ _ |- _ => inversion HH; subst end. congruence.
      * match goal with HH : exec _ _ _ _ _ _ _ |- _ => eapply send_fwd in HH; [ | eassumption .. ]; destruct HH as [(v & -> & HP2) | (-> & _)]; [ | congruence ] end.
        exists v. split; [ reflexivity | ]. eapply OpsVals; eassumption.
  - intros s t s' T1 H. apply runs_app_inv in H. destruct H as (t1 & s1 & T2 & t2 & HR & HE & ->).
    destruct (H3 _ _ _ _ HR) as (ov & HP & HT1 & HR3 & HC). inversion HE; subst.
    match goal with HH : runs _ [] _ _ _ _ |- _ => inversion HH; subst end. split; [ exact HT1 | ].
    match goal with HH : exec _ _ _ _ _ _ _ |- _ => eapply send_fwd in HH; [ | eassumption .. ]; destruct HH as [(v & E & _) | (_ & vs & -> & -> & HP2)]; [ discriminate | ] end.
    exists t1, vs. split; [ reflexivity | split ].
    + rewrite <- (app_nil_r t1). eapply OpsVals; eassumption.
    + eapply phase2_det; eassumption.
Qed.

Lemma pre_bwd k ops T : sound_ops ops -> Tok T -> let (pre, ops') := build_call pkgs pid k ops in
  (forall s t s' p, operands reads_last [] k ops s t s' (inl p) -> execs D T pre s t s' (CoPanic p)) /\
  (forall s t s' vs, operands reads_last [] k ops s t s' (inr vs) -> exists T1, Tok T1 /\
     runs T pre s (t ++ [CeState (pid k) (fields pkgs ops vs)]) s' T1 /\ operands D T1 k ops' s' [] s' (inr vs)).
Proof.
  intros Hs HT. destruct (build_split k ops Hs) as (ss & snaps & ops' & -> & HB). destruct (HB T HT) as (_ & H2 & _ & H4). split.
  - intros s t s' p H. inversion H; subst.
    + apply stop_app; [ apply H2; assumption | discriminate ].
    + match goal with HH : pass1 _ _ _ _ _ _ _ _ _ |- _ => apply H4 in HH; destruct HH as (T1 & HR & HT1 & HR3 & HC) end.
      eapply runs_execs; [ exact HR | ].
      match goal with HH : pass2 _ _ _ _ _ _ _ _ |- _ => eapply (send_bwd T1 k _ _ _ _ (pid k) HT1 HR3 HC) in HH end.
      apply XsStop; [ assumption | discriminate ].
  - intros s t s' vs H. inversion H; subst.
    match goal with HH : pass1 _ _ _ _ _ _ _ _ _ |- _ => apply H4 in HH; destruct HH as (T1 & HR & HT1 & HR3 & HC) end.
    match goal with HH : pass2 _ _ _ _ _ _ _ _ |- _ => rename HH into HP end.
    pose proof (send_bwd T1 k _ _ _ _ (pid k) HT1 HR3 HC _ _ _ _ HP) as (-> & -> & HX).
    exists T1. split; [ exact HT1 | split ].
    + rewrite app_nil_r. eapply runs_app; [ exact HR | ]. rewrite <- (app_nil_r [CeState _ _]). eapply RnNext; [ exact HX | constructor ].
    + apply det_operands. eapply phase2_det; eassumption.
Qed.

(** ** Statements *)

Definition siteok (c : site Op) : Prop :=
  c_m c = pt (c_k c) /\ Forall plain_op (c_ops c) /\ (pt (c_k c) = true -> c_ops c = opsof (c_k c) /\ safe W c).
Definition sok (b : list (stmt Op)) : Prop := forallb written b = true /\ forall c, In c (flat_map sites b) -> siteok c.
Definition dok (s : cstate Op W) : Prop := Forall (fun d => exists k f vs, d = DCall k f vs /\ pt k = false) (sd s).

Lemma dok_sd s s' : sd s' = sd s -> dok s -> dok s'.
Proof. unfold dok. intros ->. auto. Qed.

Lemma sok_cons a b : sok (a :: b) -> sok [a] /\ sok b.
Proof.
  unfold sok. cbn [forallb flat_map]. intros [H1 H2]. apply andb_true_iff in H1. destruct H1 as [H1 H3]. rewrite app_nil_r, H1.
  split; (split; [ auto | ]); intros c Hc; apply H2, in_app_iff; auto.
Qed.

Lemma safe_sound c : siteok c -> pt (c_k c) = true -> sound_ops (c_ops c).
Proof.
  intros (_ & H1 & H2) Hp. destruct (H2 Hp) as [_ [_ S2 S3 S4]]. split; [ exact S2 | split; [ | exact S4 ] ].
  apply Forall_forall. intros a Ha. split; [ eapply Forall_forall in H1; eassumption | ].
  intros o Ho. apply S3. destruct Ho as [-> | [-> | ->]]; auto.
Qed.

Inductive goes (D0 : nat -> operand Op -> bool -> Prop) (T : temps) (cls : list (list (stmt Op))) : kind Op -> reply V -> cstate Op W -> list (cevent Op W) -> cstate Op W -> coutcome Op W -> Prop :=
| GPanic kd p s : goes D0 T cls kd (RPanic p) s [] s (CoPanic p)
| GPlain vs s : goes D0 T cls KPlain (RVals vs) s [] s CoNormal
| GRet vs s : goes D0 T cls KReturn (RVals vs) s [] s (CoRet vs)
| GIf n s t s' o : execs D0 T (nth n cls []) s t s' o -> goes D0 T cls KIf (RBranch n) s t s' o
| GSwitch n s t s' o : execs D0 T (nth n cls []) s t s' o -> goes D0 T cls KSwitch (RBranch n) s t s' (leave o)
| GLoop c vs s t s' o : loops D0 T (HOp c) (nth 0 cls []) (nth 1 cls []) s t s' o -> goes D0 T cls (KLoop c) (RVals vs) s t s' o.

Lemma exec_call D0 T m k kd p f ops cls s t s' o : exec D0 T (SCall m k kd p f ops cls) s t s' o <->
  exists t1 s1 r t2, placed D0 T k f ops s p t1 s1 r /\ goes D0 T cls kd r s1 t2 s' o /\ t = t1 ++ t2.
Proof.
  split.
  - intros H. inversion H; subst.
    + exists t, s', (RPanic v), []. split; [ assumption | split; [ constructor | symmetry; apply app_nil_r ] ].
    + exists t, s', (RVals vs), []. split; [ assumption | split; [ constructor | symmetry; apply app_nil_r ] ].
    + exists t, s', (RVals vs), []. split; [ assumption | split; [ constructor | symmetry; apply app_nil_r ] ].
    + exists t1, s1, (RBranch n), t2. split; [ assumption | split; [ constructor; assumption | reflexivity ] ].
    + exists t1, s1, (RBranch n), t2. split; [ assumption | split; [ constructor; assumption | reflexivity ] ].
    + exists t1, s1, (RVals vs), t2. split; [ assumption | split; [ constructor; assumption | reflexivity ] ].
  - intros (t1 & s1 & r & t2 & HP & HG & ->). inversion HG; subst; rewrite ?app_nil_r; solve [ econstructor; eassumption ].
Qed.

(** Execution of the rewritten block stays within the original one. *)
Definition within (b b' : list (stmt Op)) : Prop := forall T s t' s' o, Tok T -> execs D T b' s t' s' o ->
  exists t, execs D [] b s t s' o /\ t' = ann t /\ (dok s -> dok s').

Definition within1 (a : stmt Op) (b' : list (stmt Op)) : Prop := forall T, Tok T ->
  (forall s t' s' o, execs D T b' s t' s' o -> o <> CoNormal -> exists t, exec D [] a s t s' o /\ t' = ann t /\ (dok s -> dok s')) /\
  (forall s t' s' T1, runs T b' s t' s' T1 -> Tok T1 /\ exists t, exec D [] a s t s' CoNormal /\ t' = ann t /\ (dok s -> dok s')).

Lemma within_list b : Forall (fun a => sok [a] -> within1 a (rw a)) b -> sok b -> within b (flat_map rw b).
Proof.
  induction 1 as [ | a b Ha Hb IH ]; intros Hok T s t' s' o HT H; cbn [flat_map] in H.
  - inversion H; subst. exists []. split; [ constructor | split; [ reflexivity | auto ] ].
  - apply sok_cons in Hok. destruct Hok as [Hoka Hokb]. specialize (IH Hokb). destruct (Ha Hoka T HT) as [H1 H2].
    apply execs_app_inv in H. destruct H as [[H Hn] | (t1 & s1 & T1 & t2 & HR & HE & ->)].
    + destruct (H1 _ _ _ _ H Hn) as (t & HX & -> & Hd). exists t. split; [ apply XsStop; assumption | auto ].
    + destruct (H2 _ _ _ _ HR) as (HT1 & ta & HX & -> & Hd). destruct (IH T1 _ _ _ _ HT1 HE) as (tb & HXs & -> & Hd2).
      exists (ta ++ tb). split; [ eapply XsNext; eassumption | split; [ symmetry; apply ann_app | auto ] ].
Qed.

Lemma within_one a x : (forall y o, x <> STemp y o) ->
  (forall T s t' s' o, Tok T -> exec D T x s t' s' o -> exists t, exec D [] a s t s' o /\ t' = ann t /\ (dok s -> dok s')) -> within1 a [x].
Proof.
  intros Hx H T HT. split.
  - intros s t' s' o HE Hn. inversion HE; subst.
    + exfalso; eapply Hx; reflexivity.
    + exfalso; eapply Hx; reflexivity.
    + match goal with HH : execs _ _ [] _ _ _ _ |- _ => inversion HH; subst end. congruence.
    + eapply H; eassumption.
  - intros s t' s' T1 HE. inversion HE; subst.
    + exfalso; eapply Hx; reflexivity.
    + match goal with HH : runs _ [] _ _ _ _ |- _ => inversion HH; subst end. split; [ exact HT | ].
      rewrite app_nil_r. eapply H; eassumption.
Qed.

Definition head_ok (h : head Op) : Prop := match h with HOp _ => True | HCall _ k _ ops _ => pt k = false /\ Forall plain_op ops end.

Lemma cond_T D0 T T' h s t s' r : Tok T -> Tok T' -> head_ok h -> cond (W := W) D0 T h s t s' r -> cond D0 T' h s t s' r /\ ann t = t /\ sd s' = sd s.
Proof.
  intros HT HT' Hh H. inversion H; subst.
  - split; [ constructor; assumption | eapply step_users; eassumption ].
  - destruct Hh as [Hk Hp]. split; [ constructor; eapply used_T; [ exact HT | exact HT' | .. ]; eassumption | eapply used_ann; eassumption ].
Qed.

Lemma within_loop h b b' post post' : head_ok h -> within b b' -> within post post' -> forall T s t' s' o, Tok T ->
  loops D T h b' post' s t' s' o -> exists t, loops D [] h b post s t s' o /\ t' = ann t /\ (dok s -> dok s').
Proof.
  intros Hh Hb Hp T s t' s' o HT H.
  induction H as [ T h b1 p1 s t s' HC | T h b1 p1 s t s' p HC | T h b1 p1 n s t1 s1 t2 s' o HC HE Ho | T h b1 p1 n s t1 s1 t2 s2 o t3 s' o' HC HE Ho HP Hn
                 | T h b1 p1 n s t1 s1 t2 s2 o t3 s3 t4 s' o' HC HE Ho HP HL IH ];
    (apply (cond_T D T [] _ _ _ _ _ HT Tok_nil Hh) in HC; destruct HC as (HC & Ht & Hsd)).
  - exists t. split; [ apply XlEnd; exact HC | split; [ symmetry; exact Ht | apply dok_sd, Hsd ] ].
  - exists t. split; [ apply XlPanic; exact HC | split; [ symmetry; exact Ht | apply dok_sd, Hsd ] ].
  - destruct (Hb _ _ _ _ _ HT HE) as (ta & HE' & -> & Hd). exists (t1 ++ ta). split; [ eapply XlLeave; eassumption | ].
    split; [ rewrite ann_app, Ht; reflexivity | intros Hk; apply Hd; eapply dok_sd; eassumption ].
  - destruct (Hb _ _ _ _ _ HT HE) as (ta & HE' & -> & Hd). destruct (Hp _ _ _ _ _ HT HP) as (tb & HP' & -> & Hd2).
    exists (t1 ++ ta ++ tb). split; [ eapply XlPost; eassumption | ].
    split; [ rewrite !ann_app, Ht; reflexivity | intros Hk; apply Hd2, Hd; eapply dok_sd; eassumption ].
  - destruct (Hb _ _ _ _ _ HT HE) as (ta & HE' & -> & Hd). destruct (Hp _ _ _ _ _ HT HP) as (tb & HP' & -> & Hd2).
    destruct IH as (tc & HL' & -> & Hd3); [ assumption .. | ].
    exists (t1 ++ ta ++ tb ++ tc). split; [ eapply XlNext; eassumption | ].
    split; [ rewrite !ann_app, Ht; reflexivity | intros Hk; apply Hd3, Hd2, Hd; eapply dok_sd; eassumption ].
Qed.

Lemma within_nth cls n : Forall (fun b => within b (flat_map rw b)) cls -> within (nth n cls []) (nth n (map (flat_map rw) cls) []).
Proof.
  intros H. revert n. induction H as [ | b cls Hb HF IH ]; intros [ | n ]; cbn [nth map]; auto;
    intros T s t' s' o HT HE; inversion HE; subst; exists []; (split; [ constructor | split; [ reflexivity | auto ] ]).
Qed.

Lemma within_goes cls kd r : Forall (fun b => within b (flat_map rw b)) cls -> forall T s t' s' o, Tok T ->
  goes D T (map (flat_map rw) cls) kd r s t' s' o -> exists t, goes D [] cls kd r s t s' o /\ t' = ann t /\ (dok s -> dok s').
Proof.
  intros Hc T s t' s' o HT H. inversion H; subst; try (exists []; split; [ constructor | split; [ reflexivity | auto ] ]; fail).
  - match goal with HH : execs _ _ _ _ _ _ _ |- _ => apply (within_nth cls n Hc) in HH; [ destruct HH as (t & HE & -> & Hd) | exact HT ] end.
    exists t. split; [ constructor; exact HE | auto ].
  - match goal with HH : execs _ _ _ _ _ _ _ |- _ => apply (within_nth cls n Hc) in HH; [ destruct HH as (t & HE & -> & Hd) | exact HT ] end.
    exists t. split; [ constructor; exact HE | auto ].
  - match goal with HH : loops _ _ _ _ _ _ _ _ _ |- _ =>
      eapply (within_loop (HOp c) _ _ _ _ I (within_nth cls 0 Hc) (within_nth cls 1 Hc)) in HH; [ destruct HH as (t & HE & -> & Hd) | exact HT ] end.
    exists t. split; [ constructor; exact HE | auto ].
Qed.

Lemma rwc_id a : (forall c, In c (sites a) -> c_m c = false) -> rw a = [a].
Proof.
  assert (forall b, Forall (fun a => (forall c, In c (sites a) -> c_m c = false) -> rw a = [a]) b ->
            (forall c, In c (flat_map sites b) -> c_m c = false) -> flat_map rw b = b) as HL.
  { induction 1 as [ | x b Hx Hb IH ]; intros Hc; [ reflexivity | ]. cbn [flat_map] in *.
    rewrite Hx, IH; [ reflexivity | .. ]; intros c Hi; apply Hc, in_app_iff; auto. }
  assert (forall cls, Forall (Forall (fun a => (forall c, In c (sites a) -> c_m c = false) -> rw a = [a])) cls ->
            (forall c, In c (flat_map (flat_map sites) cls) -> c_m c = false) -> map (flat_map rw) cls = cls) as HLL.
  { induction 1 as [ | x b Hx Hb IH ]; intros Hc; [ reflexivity | ]. cbn [flat_map map] in *.
    rewrite (HL x Hx), IH; [ reflexivity | .. ]; intros c Hi; apply Hc, in_app_iff; auto. }
  induction a using cstmt_ind; intros Hc; cbn [sites rwc] in *; try reflexivity.
  - rewrite HL; auto.
  - rewrite !HL; auto; intros c0 Hi; apply Hc, in_app_iff; auto.
  - rewrite HLL; auto.
  - destruct h as [c | m k f ops use].
    + rewrite !HL; auto; intros c0 Hi; apply Hc, in_app_iff; auto.
    + assert (m = false) as -> by exact (Hc _ (or_introl eq_refl)). cbn [build_if app].
      rewrite !HL; auto; intros c0 Hi; apply Hc; right; apply in_app_iff; auto.
  - assert (m = false) as -> by exact (Hc _ (or_introl eq_refl)). cbn [build_if app]. rewrite HLL; auto. intros c0 Hi. apply Hc. right. exact Hi.
  - assert (m = false) as -> by exact (Hc _ (or_introl eq_refl)). reflexivity.
Qed.

Lemma sok_block1 (b : list (stmt Op)) : sok [SBlock b] -> sok b.
Proof. unfold sok. cbn [forallb written flat_map sites]. rewrite andb_true_r, app_nil_r. auto. Qed.

Lemma sok_cls (cls : list (list (stmt Op))) : forallb (forallb written) cls = true -> (forall c, In c (flat_map (flat_map sites) cls) -> siteok c) -> Forall sok cls.
Proof.
  intros H1 H2. apply Forall_forall. intros b Hb. split; [ eapply forallb_forall in H1; eassumption | ].
  intros c Hc. apply H2, in_flat_map. eauto.
Qed.

Lemma within_cls cls : Forall (Forall (fun a => sok [a] -> within1 a (rw a))) cls -> Forall sok cls -> Forall (fun b => within b (flat_map rw b)) cls.
Proof. induction 1; intros H1; inversion H1; subst; constructor; auto. apply within_list; assumption. Qed.

Lemma used_fwd k f ops ops' use T1 s t0 s1 vs : operands D [] k ops s t0 s1 (inr vs) -> Forall2 (det T1 k s1) ops' vs ->
  forall t2 s2 r, used D T1 k f ops' use s1 t2 s2 r -> used D [] k f ops use s (t0 ++ t2) s2 r /\ sd s2 = sd s /\
    exists t3, t2 = CeCall k f vs :: t3 /\ ann t3 = t3.
Proof.
  intros HO HD t2 s2 r H. pose proof (operands_users _ _ _ _ _ _ _ _ HO) as [_ Hsd].
  assert (forall t s' r, invoke D T1 k f ops' s1 t s' r -> exists t3, t = CeCall k f vs :: t3 /\ step (w2_call W f vs) s1 t3 s' r) as HI.
  { intros t s' r0 HH. inversion HH; subst.
    - match goal with HX : operands _ _ _ _ _ _ _ _ |- _ => eapply det_unique in HX; [ destruct HX as (_ & _ & E) | exact HD ] end. discriminate.
    - match goal with HX : operands _ _ _ _ _ _ _ _ |- _ => eapply det_unique in HX; [ destruct HX as (-> & -> & E) | exact HD ] end. injection E as ->.
      eexists. split; [ reflexivity | assumption ]. }
  inversion H; subst.
  - match goal with HX : invoke _ _ _ _ _ _ _ _ _ |- _ => apply HI in HX; destruct HX as (tz & -> & HS) end.
    match goal with HX : step (w2_use _ _ _) _ _ _ _ |- _ => rename HX into HU end.
    pose proof (step_users _ _ _ _ _ HS) as [A1 A2]. pose proof (step_users _ _ _ _ _ HU) as [B1 B2].
    split; [ | split; [ congruence | ] ].
    + rewrite app_assoc. eapply UsVals; [ eapply IvCall; eassumption | exact HU ].
    + eexists. split; [ reflexivity | ]. rewrite ann_app, A1, B1. reflexivity.
  - match goal with HX : invoke _ _ _ _ _ _ _ _ _ |- _ => apply HI in HX; destruct HX as (tz & -> & HS) end.
    pose proof (step_users _ _ _ _ _ HS) as [A1 A2].
    split; [ | split; [ congruence | eauto ] ]. apply UsPanic. eapply IvCall; eassumption.
Qed.

Lemma ann_call k f vs t : pt k = true -> ann (CeCall k f vs :: t) = CeState (pid k) (fields pkgs (opsof k) vs) :: CeCall k f vs :: ann t.
Proof. intros Hk. unfold announced. cbn [flat_map]. rewrite Hk. reflexivity. Qed.

Ltac use_step := match goal with H : step _ _ _ _ _ |- _ => let A := fresh "Au" in let B := fresh "Bu" in pose proof (step_users _ _ _ _ _ H) as [A B] end.

Lemma within_stmt a : sok [a] -> within1 a (rw a).
Proof.
  induction a using cstmt_ind; intros Hok; cbn [rwc].
  - apply within_one; [ discriminate | ]. intros T s t' s' oc HT HE.
    inversion HE; subst; use_step; exists t'; (split; [ econstructor; eassumption | split; [ symmetry; assumption | apply dok_sd; assumption ] ]).
  - apply within_one; [ discriminate | ]. intros T s t' s' oc HT HE. inversion HE; subst.
    match goal with HH : execs _ _ _ _ _ _ _ |- _ => apply (within_list b H (sok_block1 b Hok)) in HH; [ destruct HH as (t & HE2 & -> & Hd) | exact HT ] end.
    exists t. split; [ constructor; exact HE2 | auto ].
  - destruct Hok as [Hw Hc]. cbn [forallb written flat_map sites] in Hw, Hc. rewrite andb_true_r in Hw. apply andb_true_iff in Hw. destruct Hw as [Hw1 Hw2].
    rewrite app_nil_r in Hc.
    assert (within b1 (flat_map rw b1)) as W1 by (apply within_list; [ assumption | split; [ assumption | intros c0 Hi; apply Hc, in_app_iff; auto ] ]).
    assert (within b2 (flat_map rw b2)) as W2 by (apply within_list; [ assumption | split; [ assumption | intros c0 Hi; apply Hc, in_app_iff; auto ] ]).
    apply within_one; [ discriminate | ]. intros T s t' s' oc HT HE. inversion HE; subst; use_step.
    + match goal with HH : execs _ _ _ _ _ _ _ |- _ => apply W1 in HH; [ destruct HH as (t & HE2 & -> & Hd) | exact HT ] end.
      exists (t1 ++ t). split; [ eapply XThen; eassumption | split; [ rewrite ann_app, Au; reflexivity | intros Hk; apply Hd; eapply dok_sd; eassumption ] ].
    + match goal with HH : execs _ _ _ _ _ _ _ |- _ => apply W2 in HH; [ destruct HH as (t & HE2 & -> & Hd) | exact HT ] end.
      exists (t1 ++ t). split; [ eapply XElse; eassumption | split; [ rewrite ann_app, Au; reflexivity | intros Hk; apply Hd; eapply dok_sd; eassumption ] ].
    + exists t'. split; [ apply XIfP; assumption | split; [ symmetry; assumption | apply dok_sd; assumption ] ].
  - destruct Hok as [Hw Hc]. cbn [forallb written flat_map sites] in Hw, Hc. rewrite andb_true_r in Hw. rewrite app_nil_r in Hc.
    pose proof (within_cls _ H (sok_cls _ Hw Hc)) as HW.
    apply within_one; [ discriminate | ]. intros T s t' s' oc HT HE. inversion HE; subst; use_step.
    + match goal with HH : execs _ _ _ _ _ _ _ |- _ => apply (within_nth cls n HW) in HH; [ destruct HH as (t & HE2 & -> & Hd) | exact HT ] end.
      exists (t1 ++ t). split; [ eapply XSwitch; eassumption | split; [ rewrite ann_app, Au; reflexivity | intros Hk; apply Hd; eapply dok_sd; eassumption ] ].
    + exists t'. split; [ apply XSwitchP; assumption | split; [ symmetry; assumption | apply dok_sd; assumption ] ].
  - destruct Hok as [Hw Hc]. cbn [forallb written flat_map sites] in Hw, Hc. rewrite andb_true_r in Hw. apply andb_true_iff in Hw. destruct Hw as [Hw1 Hw2].
    rewrite app_nil_r in Hc.
    assert (head_ok h /\ forall c, In c (flat_map sites b ++ flat_map sites post) -> siteok c) as [Hh Hc'].
    { destruct h as [c | m k f ops use]; [ split; [ exact I | exact Hc ] | ]. split; [ | intros c Hi; apply Hc; right; exact Hi ].
      destruct (Hc _ (or_introl eq_refl)) as (_ & S2 & S3). cbn [c_k c_ops] in *. split; [ | exact S2 ].
      destruct (pt k); [ | reflexivity ]. destruct (S3 eq_refl) as [_ [S _ _ _]]. discriminate. }
    assert (within b (flat_map rw b)) as W1 by (apply within_list; [ assumption | split; [ assumption | intros c0 Hi; apply Hc', in_app_iff; auto ] ]).
    assert (within post (flat_map rw post)) as W2 by (apply within_list; [ assumption | split; [ assumption | intros c0 Hi; apply Hc', in_app_iff; auto ] ]).
    assert (rw (SLoop h b post) = [SLoop h (flat_map rw b) (flat_map rw post)]) as E.
    { destruct h as [c | m k f ops use]; [ reflexivity | ]. cbn [rwc].
      assert (m = false) as -> by (destruct (Hc _ (or_introl eq_refl)) as (S1 & _); cbn in S1; rewrite S1; apply Hh). reflexivity. }
    change (within1 (SLoop h b post) (rw (SLoop h b post))). rewrite E.
    apply within_one; [ discriminate | ]. intros T s t' s' oc HT HE. inversion HE; subst.
    match goal with HH : loops _ _ _ _ _ _ _ _ _ |- _ => apply (within_loop h _ _ _ _ Hh W1 W2) in HH; [ destruct HH as (t & HE2 & -> & Hd) | exact HT ] end.
    exists t. split; [ constructor; exact HE2 | auto ].
  - apply within_one; [ discriminate | ]. intros T s t' s' oc HT HE.
    inversion HE; subst; use_step; exists t'; (split; [ econstructor; eassumption | split; [ symmetry; assumption | apply dok_sd; assumption ] ]).
  - apply within_one; [ discriminate | ]. intros T s t' s' oc HT HE. inversion HE; subst. exists []. split; [ constructor | split; [ reflexivity | auto ] ].
  - apply within_one; [ discriminate | ]. intros T s t' s' oc HT HE. inversion HE; subst. exists []. split; [ constructor | split; [ reflexivity | auto ] ].
  - destruct Hok as [Hw Hc]. cbn [forallb written flat_map sites] in Hw, Hc. rewrite andb_true_r in Hw. rewrite app_nil_r in Hc.
    assert (forall c, In c (flat_map sites b) -> pt (c_k c) = false) as Hpt.
    { intros c Hi. destruct (Hc _ (in_map (fun c => Site (c_m c) (c_k c) Labelled (c_ops c)) _ _ Hi)) as (_ & _ & S3). cbn [c_k] in S3.
      destruct (pt (c_k c)); [ | reflexivity ]. destruct (S3 eq_refl) as [_ [S _ _ _]]. discriminate. }
    assert (sok b) as Hb.
    { split; [ exact Hw | ]. intros c Hi. destruct (Hc _ (in_map (fun c => Site (c_m c) (c_k c) Labelled (c_ops c)) _ _ Hi)) as (S1 & S2 & _).
      cbn [c_m c_k c_ops] in *. split; [ exact S1 | split; [ exact S2 | ] ]. rewrite (Hpt c Hi). discriminate. }
    pose proof (within_list b H Hb) as W1.
    replace (flat_map rw b) with b in W1.
    2: { symmetry. clear -Hpt Hb. destruct Hb as [_ Hb]. induction b as [ | x b IH ]; [ reflexivity | ]. cbn [flat_map] in *.
         rewrite (rwc_id x), IH; [ reflexivity | .. ].
         - intros c Hi. apply Hpt, in_app_iff. auto.
         - intros c Hi. apply Hb, in_app_iff. auto.
         - intros c Hi. assert (In c (sites x ++ flat_map sites b)) as HI by (apply in_app_iff; auto).
           destruct (Hb c HI) as (S1 & _). rewrite S1. apply Hpt, HI. }
    apply within_one; [ discriminate | ]. intros T s t' s' oc HT HE. inversion HE; subst.
    match goal with HH : execs _ _ _ _ _ _ _ |- _ => apply W1 in HH; [ destruct HH as (t & HE2 & -> & Hd) | exact HT ] end.
    exists t. split; [ constructor; exact HE2 | auto ].
  - destruct Hok as [Hw Hc]. cbn [forallb written flat_map sites] in Hw, Hc. rewrite andb_true_r in Hw. rewrite app_nil_r in Hc.
    pose proof (within_cls _ H (sok_cls _ Hw (fun c Hi => Hc c (or_intror Hi)))) as HW.
    pose proof (Hc _ (or_introl eq_refl)) as HS. pose proof HS as (S1 & S2 & S3). cbn [c_m c_k c_ops c_spot] in *.
    subst m. unfold build_if. destruct (pt k) eqn:Hk.
    + destruct (S3 eq_refl) as [Eo [Hsp _ _ _]]. cbn [c_spot] in Hsp. destruct p as [use | | ]; try discriminate.
      intros T HT. pose proof (pre_fwd k ops T (safe_sound _ HS Hk) HT) as HPF.
      destruct (build_call pkgs pid k ops) as [pre ops']. destruct HPF as [F1 F2].
      assert (forall s t0 vs T1 t2 s1 s' o, Tok T1 -> operands D [] k ops s t0 s1 (inr vs) -> Forall2 (det T1 k s1) ops' vs ->
        exec D T1 (SCall true k kd (PFirst use) f ops' (map (flat_map rw) cls)) s1 t2 s' o ->
        exists t, exec D [] (SCall true k kd (PFirst use) f ops cls) s t s' o /\
          (t0 ++ [CeState (pid k) (fields pkgs ops vs)]) ++ t2 = ann t /\ (dok s -> dok s')) as HX.
      { intros s t0 vs T1 t2 s1 s' o HT1 HO HD HE. apply exec_call in HE. destruct HE as (ta & sa & r & tb & HP & HG & ->).
        inversion HP; subst. match goal with HU : used _ _ _ _ _ _ _ _ _ _ |- _ => eapply used_fwd in HU; [ | exact HO | exact HD ]; destruct HU as (HUU & Hsd & t3 & -> & Ht3) end.
        apply (within_goes cls kd r HW) in HG; [ | exact HT1 ]. destruct HG as (tc & HG & -> & Hd).
        exists ((t0 ++ CeCall k f vs :: t3) ++ tc). split; [ | split ].
        - apply exec_call. eexists _, _, _, _. split; [ apply PlFirst; exact HUU | split; [ exact HG | reflexivity ] ].
        - pose proof (operands_users _ _ _ _ _ _ _ _ HO) as [A _].
          rewrite !ann_app, ann_call, A, Ht3 by exact Hk. rewrite <- !app_assoc. reflexivity.
        - intros Hd0. apply Hd. eapply dok_sd; eassumption. }
      split.
      * intros s t' s' o HE Hn. apply execs_app_inv in HE. destruct HE as [[HE _] | (t1 & s1 & T1 & t2 & HR & HE & ->)].
        -- destruct (F1 _ _ _ _ HE Hn) as (v & -> & HO). pose proof (operands_users _ _ _ _ _ _ _ _ HO) as [A Hsd].
           exists t'. split; [ | split; [ symmetry; exact A | apply dok_sd, Hsd ] ].
           apply XCallP, PlFirst, UsPanic, IvPanic, HO.
        -- destruct (F2 _ _ _ _ HR) as (HT1 & t0 & vs & -> & HO & HD). inversion HE; subst.
           ++ match goal with HH : execs _ _ [] _ _ _ _ |- _ => inversion HH; subst end. congruence.
           ++ eapply HX; eassumption.
      * intros s t' s' T2 HE. apply runs_app_inv in HE. destruct HE as (t1 & s1 & T1 & t2 & HR & HE & ->).
        destruct (F2 _ _ _ _ HR) as (HT1 & t0 & vs & -> & HO & HD). inversion HE; subst.
        match goal with HH : runs _ [] _ _ _ _ |- _ => inversion HH; subst end. split; [ exact HT1 | ]. rewrite app_nil_r. eapply HX; eassumption.
    + cbn [app]. apply within_one; [ discriminate | ]. intros T s t' s' oc HT HE.
      apply exec_call in HE. destruct HE as (ta & sa & r & tb & HP & HG & ->).
      apply (placed_T D T []) in HP; [ | exact HT | apply Tok_nil | exact S2 ]. pose proof (placed_ann _ _ _ _ _ _ _ _ _ _ HP Hk) as [A Hsd].
      apply (within_goes cls kd r HW) in HG; [ | exact HT ]. destruct HG as (tc & HG & -> & Hd).
      exists (ta ++ tc). split; [ apply exec_call; eauto 8 | split; [ rewrite ann_app, A; reflexivity | intros Hd0; apply Hd; eapply dok_sd; eassumption ] ].
  - destruct Hok as [_ Hc]. cbn [flat_map sites app] in Hc. destruct (Hc _ (or_introl eq_refl)) as (S1 & S2 & S3). cbn [c_m c_k c_ops c_spot] in *. subst m.
    destruct (pt k) eqn:Hk; [ destruct (S3 eq_refl) as [_ [S _ _ _]]; discriminate | ].
    apply within_one; [ discriminate | ]. intros T s t' s' oc HT HE.
    inversion HE; subst; (match goal with HH : operands _ _ _ _ _ _ _ _ |- _ => apply (operands_T D T []) in HH; [ | exact HT | apply Tok_nil | exact S2 ];
      pose proof (operands_users _ _ _ _ _ _ _ _ HH) as [A Hsd] end); exists t'.
    + split; [ apply XDefer; assumption | split; [ symmetry; exact A | ] ]. intros Hd. unfold dok in *. cbn [sd] in *. constructor; [ eauto 6 | ]. rewrite Hsd. exact Hd.
    + split; [ apply XDeferP; assumption | split; [ symmetry; exact A | apply dok_sd, Hsd ] ].
  - destruct Hok as [Hw _]. discriminate.
  - destruct Hok as [Hw _]. discriminate.
  - destruct Hok as [Hw _]. discriminate.
Qed.

Lemma within_body b : sok b -> within b (flat_map rw b).
Proof. intros H. apply within_list; [ apply Forall_forall; intros a _; apply within_stmt | exact H ]. Qed.

(** ** The other direction *)

Lemma pass1_last T k i l s t s' r : pass1 (W := W) reads_last T k i l s t s' r -> pass1 D T k i l s t s' r.
Proof.
  induction 1.
  - constructor.
  - apply P1Late; auto.
  - eapply P1Now; eauto. intros Hs. match goal with H : _ -> reads_last _ _ _ |- _ => discriminate (H Hs) end.
  - apply P1Panic; auto. intros Hs. match goal with H : _ -> reads_last _ _ _ |- _ => discriminate (H Hs) end.
Qed.
Lemma operands_last T k l s t s' r : operands (W := W) reads_last T k l s t s' r -> operands D T k l s t s' r.
Proof. intros H. inversion H; subst; [ apply OpsPanic, pass1_last; assumption | eapply OpsVals; [ apply pass1_last; eassumption | assumption ] ]. Qed.
Lemma invoke_last T k f l s t s' r : invoke (W := W) reads_last T k f l s t s' r -> invoke D T k f l s t s' r.
Proof. intros H. inversion H; subst; [ apply IvPanic, operands_last; assumption | eapply IvCall; [ apply operands_last; eassumption | assumption ] ]. Qed.
Lemma used_last T k f l use s t s' r : used (W := W) reads_last T k f l use s t s' r -> used D T k f l use s t s' r.
Proof. intros H. inversion H; subst; [ eapply UsVals; [ apply invoke_last; eassumption | assumption ] | apply UsPanic, invoke_last; assumption ]. Qed.
Lemma placed_last T k f l p s t s' r : placed (W := W) reads_last T k f l s p t s' r -> placed D T k f l s p t s' r.
Proof.
  intros H. inversion H; subst; try (match goal with HU : used _ _ _ _ _ _ _ _ _ _ |- _ => apply used_last in HU end);
    solve [ econstructor; eassumption ].
Qed.
Lemma cond_last T h s t s' r : cond (W := W) reads_last T h s t s' r -> cond D T h s t s' r.
Proof. intros H. inversion H; subst; constructor; [ assumption | apply used_last; assumption ]. Qed.

Definition realises (b b' : list (stmt Op)) : Prop := forall T s t s' o, Tok T -> execs reads_last [] b s t s' o ->
  execs D T b' s (ann t) s' o /\ (dok s -> dok s').

Definition realises1 (a : stmt Op) (b' : list (stmt Op)) : Prop := forall T s t s' o, Tok T -> exec reads_last [] a s t s' o ->
  (o <> CoNormal -> execs D T b' s (ann t) s' o) /\ (o = CoNormal -> exists T1, Tok T1 /\ runs T b' s (ann t) s' T1) /\ (dok s -> dok s').

Lemma realises_list b : Forall (fun a => sok [a] -> realises1 a (rw a)) b -> sok b -> realises b (flat_map rw b).
Proof.
  induction 1 as [ | a b Ha Hb IH ]; intros Hok T s t s' o HT H; cbn [flat_map].
  - inversion H; subst. split; [ constructor | auto ].
  - apply sok_cons in Hok. destruct Hok as [Hoka Hokb]. specialize (IH Hokb). specialize (Ha Hoka).
    inversion H; subst.
    + destruct Hoka as [Hw _]. discriminate.
    + destruct Hoka as [Hw _]. discriminate.
    + match goal with HH : exec _ _ _ _ _ _ _ |- _ => destruct (Ha T _ _ _ _ HT HH) as (_ & Hx2 & Hd) end.
      destruct (Hx2 eq_refl) as (T1 & HT1 & HR).
      match goal with HH : execs _ _ b _ _ _ _ |- _ => destruct (IH T1 _ _ _ _ HT1 HH) as (HE & Hd2) end.
      split; [ rewrite ann_app; eapply runs_execs; eassumption | auto ].
    + match goal with HH : exec _ _ _ _ _ _ _ |- _ => destruct (Ha T _ _ _ _ HT HH) as (Hx2 & _ & Hd) end.
      split; [ apply stop_app; auto | auto ].
Qed.

Lemma realises_one a x : (forall T s t s' o, Tok T -> exec reads_last [] a s t s' o -> exec D T x s (ann t) s' o /\ (dok s -> dok s')) -> realises1 a [x].
Proof.
  intros H T s t s' o HT HE. destruct (H T _ _ _ _ HT HE) as [HX Hd]. split; [ | split; [ | exact Hd ] ].
  - intros Hn. apply XsStop; assumption.
  - intros ->. exists T. split; [ exact HT | ]. rewrite <- (app_nil_r (ann t)). eapply RnNext; [ exact HX | constructor ].
Qed.

Lemma realises_loop h b b' post post' : head_ok h -> realises b b' -> realises post post' -> forall T0 T s t s' o, T0 = [] -> Tok T ->
  loops reads_last T0 h b post s t s' o -> loops D T h b' post' s (ann t) s' o /\ (dok s -> dok s').
Proof.
  intros Hh Hb Hp T0 T s t s' o HT0 HT H.
  induction H as [ T0 h b1 p1 s t s' HC | T0 h b1 p1 s t s' p HC | T0 h b1 p1 n s t1 s1 t2 s' o HC HE Ho | T0 h b1 p1 n s t1 s1 t2 s2 o t3 s' o' HC HE Ho HP Hn
                 | T0 h b1 p1 n s t1 s1 t2 s2 o t3 s3 t4 s' o' HC HE Ho HP HL IH ]; subst T0;
    (apply cond_last, (cond_T D [] T _ _ _ _ _ Tok_nil HT Hh) in HC; destruct HC as (HC & Ht & Hsd)).
  - rewrite Ht. split; [ apply XlEnd; exact HC | apply dok_sd, Hsd ].
  - rewrite Ht. split; [ apply XlPanic; exact HC | apply dok_sd, Hsd ].
  - destruct (Hb _ _ _ _ _ HT HE) as (HE' & Hd). rewrite ann_app, Ht. split; [ eapply XlLeave; eassumption | ].
    intros Hk; apply Hd; eapply dok_sd; eassumption.
  - destruct (Hb _ _ _ _ _ HT HE) as (HE' & Hd). destruct (Hp _ _ _ _ _ HT HP) as (HP' & Hd2).
    rewrite !ann_app, Ht. split; [ eapply XlPost; eassumption | ]. intros Hk; apply Hd2, Hd; eapply dok_sd; eassumption.
  - destruct (Hb _ _ _ _ _ HT HE) as (HE' & Hd). destruct (Hp _ _ _ _ _ HT HP) as (HP' & Hd2).
    destruct IH as (HL' & Hd3); [ assumption || reflexivity .. | ].
    rewrite !ann_app, Ht. split; [ eapply XlNext; eassumption | ]. intros Hk; apply Hd3, Hd2, Hd; eapply dok_sd; eassumption.
Qed.

Lemma realises_nth cls n : Forall (fun b => realises b (flat_map rw b)) cls -> realises (nth n cls []) (nth n (map (flat_map rw) cls) []).
Proof.
  intros H. revert n. induction H as [ | b cls Hb HF IH ]; intros [ | n ]; cbn [nth map]; auto;
    intros T s t s' o HT HE; inversion HE; subst; (split; [ constructor | auto ]).
Qed.

Lemma realises_goes cls kd r : Forall (fun b => realises b (flat_map rw b)) cls -> forall T s t s' o, Tok T ->
  goes reads_last [] cls kd r s t s' o -> goes D T (map (flat_map rw) cls) kd r s (ann t) s' o /\ (dok s -> dok s').
Proof.
  intros Hc T s t s' o HT H. inversion H; subst; try (split; [ constructor | auto ]; fail).
  - match goal with HH : execs _ _ _ _ _ _ _ |- _ => destruct ((realises_nth cls n Hc) T _ _ _ _ HT HH) as (HE & Hd) end.
    split; [ constructor; exact HE | auto ].
  - match goal with HH : execs _ _ _ _ _ _ _ |- _ => destruct ((realises_nth cls n Hc) T _ _ _ _ HT HH) as (HE & Hd) end.
    split; [ constructor; exact HE | auto ].
  - match goal with HH : loops _ _ _ _ _ _ _ _ _ |- _ =>
      destruct (realises_loop (HOp c) _ _ _ _ I (realises_nth cls 0 Hc) (realises_nth cls 1 Hc) [] T _ _ _ _ eq_refl HT HH) as (HE & Hd) end.
    split; [ constructor; exact HE | auto ].
Qed.

Lemma realises_cls cls : Forall (Forall (fun a => sok [a] -> realises1 a (rw a))) cls -> Forall sok cls -> Forall (fun b => realises b (flat_map rw b)) cls.
Proof. induction 1; intros H1; inversion H1; subst; constructor; auto. apply realises_list; assumption. Qed.

Lemma used_bwd k f ops use s t s2 r : used reads_last [] k f ops use s t s2 r ->
  (exists p, r = RPanic p /\ operands reads_last [] k ops s t s2 (inl p)) \/
  exists t0 s1 vs t3, t = t0 ++ CeCall k f vs :: t3 /\ operands reads_last [] k ops s t0 s1 (inr vs) /\ ann t3 = t3 /\ sd s2 = sd s /\
    (forall T1 ops', operands D T1 k ops' s1 [] s1 (inr vs) -> used D T1 k f ops' use s1 (CeCall k f vs :: t3) s2 r).
Proof.
  intros H. inversion H; subst; match goal with HI : invoke _ _ _ _ _ _ _ _ _ |- _ => inversion HI; subst end.
  - right. repeat match goal with HX : step _ _ _ _ _ |- _ => pose proof (step_users _ _ _ _ _ HX) as [? ?]; revert HX end. intros HU HC.
    match goal with HO : operands _ _ _ _ _ _ _ _ |- _ => pose proof (operands_users _ _ _ _ _ _ _ _ HO) as [? ?] end.
    eexists _, _, _, _. split; [ rewrite <- app_assoc, <- app_comm_cons; reflexivity | split; [ eassumption | split; [ rewrite ann_app; congruence | split; [ congruence | ] ] ] ].
    intros T1 ops' HO. rewrite app_comm_cons. eapply UsVals; [ | eassumption ]. rewrite <- (app_nil_l (_ :: _)). eapply IvCall; eassumption.
  - left. eauto.
  - right. repeat match goal with HX : step _ _ _ _ _ |- _ => pose proof (step_users _ _ _ _ _ HX) as [? ?]; revert HX end. intros HC.
    match goal with HO : operands _ _ _ _ _ _ _ _ |- _ => pose proof (operands_users _ _ _ _ _ _ _ _ HO) as [? ?] end.
    eexists _, _, _, _. split; [ reflexivity | split; [ eassumption | split; [ congruence | split; [ congruence | ] ] ] ].
    intros T1 ops' HO. apply UsPanic. rewrite <- (app_nil_l (_ :: _)). eapply IvCall; eassumption.
Qed.

Lemma realises_stmt a : sok [a] -> realises1 a (rw a).
Proof.
  induction a using cstmt_ind; intros Hok; cbn [rwc].
  - apply realises_one. intros T s t s' oc HT HE.
    inversion HE; subst; use_step; rewrite Au; (split; [ econstructor; eassumption | apply dok_sd; assumption ]).
  - apply realises_one. intros T s t s' oc HT HE. inversion HE; subst.
    match goal with HH : execs _ _ _ _ _ _ _ |- _ => destruct ((realises_list b H (sok_block1 b Hok)) T _ _ _ _ HT HH) as (HE2 & Hd) end.
    split; [ constructor; exact HE2 | auto ].
  - destruct Hok as [Hw Hc]. cbn [forallb written flat_map sites] in Hw, Hc. rewrite andb_true_r in Hw. apply andb_true_iff in Hw. destruct Hw as [Hw1 Hw2].
    rewrite app_nil_r in Hc.
    assert (realises b1 (flat_map rw b1)) as W1 by (apply realises_list; [ assumption | split; [ assumption | intros c0 Hi; apply Hc, in_app_iff; auto ] ]).
    assert (realises b2 (flat_map rw b2)) as W2 by (apply realises_list; [ assumption | split; [ assumption | intros c0 Hi; apply Hc, in_app_iff; auto ] ]).
    apply realises_one. intros T s t s' oc HT HE. inversion HE; subst; use_step; rewrite ?ann_app, Au.
    + match goal with HH : execs _ _ _ _ _ _ _ |- _ => destruct (W1 T _ _ _ _ HT HH) as (HE2 & Hd) end.
      split; [ eapply XThen; eassumption | intros Hk; apply Hd; eapply dok_sd; eassumption ].
    + match goal with HH : execs _ _ _ _ _ _ _ |- _ => destruct (W2 T _ _ _ _ HT HH) as (HE2 & Hd) end.
      split; [ eapply XElse; eassumption | intros Hk; apply Hd; eapply dok_sd; eassumption ].
    + split; [ apply XIfP; assumption | apply dok_sd; assumption ].
  - destruct Hok as [Hw Hc]. cbn [forallb written flat_map sites] in Hw, Hc. rewrite andb_true_r in Hw. rewrite app_nil_r in Hc.
    pose proof (realises_cls _ H (sok_cls _ Hw Hc)) as HW.
    apply realises_one. intros T s t s' oc HT HE. inversion HE; subst; use_step; rewrite ?ann_app, Au.
    + match goal with HH : execs _ _ _ _ _ _ _ |- _ => destruct ((realises_nth cls n HW) T _ _ _ _ HT HH) as (HE2 & Hd) end.
      split; [ eapply XSwitch; eassumption | intros Hk; apply Hd; eapply dok_sd; eassumption ].
    + split; [ apply XSwitchP; assumption | apply dok_sd; assumption ].
  - destruct Hok as [Hw Hc]. cbn [forallb written flat_map sites] in Hw, Hc. rewrite andb_true_r in Hw. apply andb_true_iff in Hw. destruct Hw as [Hw1 Hw2].
    rewrite app_nil_r in Hc.
    assert (head_ok h /\ forall c, In c (flat_map sites b ++ flat_map sites post) -> siteok c) as [Hh Hc'].
    { destruct h as [c | m k f ops use]; [ split; [ exact I | exact Hc ] | ]. split; [ | intros c Hi; apply Hc; right; exact Hi ].
      destruct (Hc _ (or_introl eq_refl)) as (_ & S2 & S3). cbn [c_k c_ops] in *. split; [ | exact S2 ].
      destruct (pt k); [ | reflexivity ]. destruct (S3 eq_refl) as [_ [S _ _ _]]. discriminate. }
    assert (realises b (flat_map rw b)) as W1 by (apply realises_list; [ assumption | split; [ assumption | intros c0 Hi; apply Hc', in_app_iff; auto ] ]).
    assert (realises post (flat_map rw post)) as W2 by (apply realises_list; [ assumption | split; [ assumption | intros c0 Hi; apply Hc', in_app_iff; auto ] ]).
    assert (rw (SLoop h b post) = [SLoop h (flat_map rw b) (flat_map rw post)]) as E.
    { destruct h as [c | m k f ops use]; [ reflexivity | ]. cbn [rwc].
      assert (m = false) as -> by (destruct (Hc _ (or_introl eq_refl)) as (S1 & _); cbn in S1; rewrite S1; apply Hh). reflexivity. }
    change (realises1 (SLoop h b post) (rw (SLoop h b post))). rewrite E.
    apply realises_one. intros T s t s' oc HT HE. inversion HE; subst.
    match goal with HH : loops _ _ _ _ _ _ _ _ _ |- _ => apply (realises_loop h _ _ _ _ Hh W1 W2 [] T) in HH; [ destruct HH as (HE2 & Hd) | reflexivity | exact HT ] end.
    split; [ constructor; exact HE2 | auto ].
  - apply realises_one. intros T s t s' oc HT HE.
    inversion HE; subst; use_step; rewrite Au; (split; [ econstructor; eassumption | apply dok_sd; assumption ]).
  - apply realises_one. intros T s t s' oc HT HE. inversion HE; subst. split; [ constructor | auto ].
  - apply realises_one. intros T s t s' oc HT HE. inversion HE; subst. split; [ constructor | auto ].
  - destruct Hok as [Hw Hc]. cbn [forallb written flat_map sites] in Hw, Hc. rewrite andb_true_r in Hw. rewrite app_nil_r in Hc.
    assert (forall c, In c (flat_map sites b) -> pt (c_k c) = false) as Hpt.
    { intros c Hi. destruct (Hc _ (in_map (fun c => Site (c_m c) (c_k c) Labelled (c_ops c)) _ _ Hi)) as (_ & _ & S3). cbn [c_k] in S3.
      destruct (pt (c_k c)); [ | reflexivity ]. destruct (S3 eq_refl) as [_ [S _ _ _]]. discriminate. }
    assert (sok b) as Hb.
    { split; [ exact Hw | ]. intros c Hi. destruct (Hc _ (in_map (fun c => Site (c_m c) (c_k c) Labelled (c_ops c)) _ _ Hi)) as (S1 & S2 & _).
      cbn [c_m c_k c_ops] in *. split; [ exact S1 | split; [ exact S2 | ] ]. rewrite (Hpt c Hi). discriminate. }
    pose proof (realises_list b H Hb) as W1.
    replace (flat_map rw b) with b in W1.
    2: { symmetry. clear -Hpt Hb. destruct Hb as [_ Hb]. induction b as [ | x b IH ]; [ reflexivity | ]. cbn [flat_map] in *.
         rewrite (rwc_id x), IH; [ reflexivity | .. ].
         - intros c Hi. apply Hpt, in_app_iff. auto.
         - intros c Hi. apply Hb, in_app_iff. auto.
         - intros c Hi. assert (In c (sites x ++ flat_map sites b)) as HI by (apply in_app_iff; auto).
           destruct (Hb c HI) as (S1 & _). rewrite S1. apply Hpt, HI. }
    apply realises_one. intros T s t s' oc HT HE. inversion HE; subst.
    match goal with HH : execs _ _ _ _ _ _ _ |- _ => destruct (W1 T _ _ _ _ HT HH) as (HE2 & Hd) end.
    split; [ constructor; exact HE2 | auto ].
  - destruct Hok as [Hw Hc]. cbn [forallb written flat_map sites] in Hw, Hc. rewrite andb_true_r in Hw. rewrite app_nil_r in Hc.
    pose proof (realises_cls _ H (sok_cls _ Hw (fun c Hi => Hc c (or_intror Hi)))) as HW.
    pose proof (Hc _ (or_introl eq_refl)) as HS. pose proof HS as (S1 & S2 & S3). cbn [c_m c_k c_ops c_spot] in *.
    subst m. unfold build_if. destruct (pt k) eqn:Hk.
    + destruct (S3 eq_refl) as [Eo [Hsp _ _ _]]. cbn [c_spot] in Hsp. destruct p as [use | | ]; try discriminate.
      intros T s t s' o HT HE. pose proof (pre_bwd k ops T (safe_sound _ HS Hk) HT) as HPF.
      destruct (build_call pkgs pid k ops) as [pre ops']. destruct HPF as [B1 B2].
      apply exec_call in HE. destruct HE as (ta & sa & r & tb & HP & HG & ->).
      inversion HP; subst.
      match goal with HU : used _ _ _ _ _ _ _ _ _ _ |- _ => apply used_bwd in HU;
        destruct HU as [(p & -> & HO) | (t0 & s1 & vs & t3 & -> & HO & Ht3 & Hsd & HUU)] end.
      * inversion HG; subst. pose proof (operands_users _ _ _ _ _ _ _ _ HO) as [A Hsd]. rewrite app_nil_r, A.
        split; [ | split; [ discriminate | apply dok_sd, Hsd ] ]. intros _. apply stop_app; [ apply B1, HO | discriminate ].
      * destruct (B2 _ _ _ _ HO) as (T1 & HT1 & HR & HO').
        apply (fun HH => (realises_goes cls kd r HW) T1 _ _ _ _ HT1 HH) in HG. destruct HG as (HG & Hd).
        pose proof (operands_users _ _ _ _ _ _ _ _ HO) as [A _].
        assert (exec D T1 (SCall true k kd (PFirst use) f ops' (map (flat_map rw) cls)) s1 ((CeCall k f vs :: t3) ++ ann tb) s' o) as HX.
        { apply exec_call. eexists _, _, _, _. split; [ apply PlFirst, HUU, HO' | split; [ exact HG | reflexivity ] ]. }
        assert (ann ((t0 ++ CeCall k f vs :: t3) ++ tb) = (t0 ++ [CeState (pid k) (fields pkgs (opsof k) vs)]) ++ ((CeCall k f vs :: t3) ++ ann tb)) as ->.
        { rewrite !ann_app, ann_call, A, Ht3 by exact Hk. rewrite <- !app_assoc. reflexivity. }
        split; [ | split ].
        -- intros Hn. eapply runs_execs; [ exact HR | apply XsStop; assumption ].
        -- intros ->. exists T1. split; [ exact HT1 | ]. eapply runs_app; [ exact HR | ]. rewrite <- (app_nil_r (_ ++ ann tb)). eapply RnNext; [ exact HX | constructor ].
        -- intros Hd0. apply Hd. eapply dok_sd; eassumption.
    + cbn [app]. apply realises_one. intros T s t s' oc HT HE.
      apply exec_call in HE. destruct HE as (ta & sa & r & tb & HP & HG & ->).
      apply placed_last, (placed_T D [] T) in HP; [ | apply Tok_nil | exact HT | exact S2 ]. pose proof (placed_ann _ _ _ _ _ _ _ _ _ _ HP Hk) as [A Hsd].
      apply (fun HH => (realises_goes cls kd r HW) T _ _ _ _ HT HH) in HG. destruct HG as (HG & Hd).
      rewrite ann_app, A. split; [ apply exec_call; eauto 8 | intros Hd0; apply Hd; eapply dok_sd; eassumption ].
  - destruct Hok as [_ Hc]. cbn [flat_map sites app] in Hc. destruct (Hc _ (or_introl eq_refl)) as (S1 & S2 & S3). cbn [c_m c_k c_ops c_spot] in *. subst m.
    destruct (pt k) eqn:Hk; [ destruct (S3 eq_refl) as [_ [S _ _ _]]; discriminate | ].
    apply realises_one. intros T s t s' oc HT HE.
    inversion HE; subst; (match goal with HH : operands _ _ _ _ _ _ _ _ |- _ => apply operands_last, (operands_T D [] T) in HH; [ | apply Tok_nil | exact HT | exact S2 ];
      pose proof (operands_users _ _ _ _ _ _ _ _ HH) as [A Hsd] end); rewrite A.
    + split; [ apply XDefer; assumption | ]. intros Hd. unfold dok in *. cbn [sd] in *. constructor; [ eauto 6 | ]. rewrite Hsd. exact Hd.
    + split; [ apply XDeferP; assumption | apply dok_sd, Hsd ].
  - destruct Hok as [Hw _]. discriminate.
  - destruct Hok as [Hw _]. discriminate.
  - destruct Hok as [Hw _]. discriminate.
Qed.

Lemma unwind_T D1 D2 ds c u t u' c' : Forall (fun d => exists k f vs, d = DCall k f vs /\ pt k = false) ds ->
  unwind (W := W) D1 ds c u t u' c' -> unwind D2 ds c u t u' c' /\ ann t = t.
Proof.
  intros Hd H. induction H; try (inversion Hd as [ | ? ? HA HB ]; subst).
  - split; [ constructor | reflexivity ].
  - destruct HA as (k0 & f0 & vs0 & E & Hk). injection E as <- <- <-. destruct (IHunwind HB) as [IH1 IH2].
    split; [ econstructor; eassumption | ]. unfold announced at 1. cbn [flat_map]. rewrite Hk. cbn [app].
    fold (ann (map CeUser t1 ++ t2)). rewrite ann_app, ann_users, IH2. reflexivity.
  - destruct HA as (? & ? & ? & E & _). discriminate.
  - destruct HA as (? & ? & ? & E & _). discriminate.
Qed.

Lemma dok_start u : dok (CState u []). Proof. constructor. Qed.

Lemma run_within body u t' u' r : sok body -> run W D (inject pkgs pid nop body) u t' u' r -> exists t, run W D body u t u' r /\ t' = ann t.
Proof.
  intros Hok H. inversion H; subst;
    match goal with HE : execs _ _ _ _ _ _ _ |- _ => apply (within_body body Hok [] _ _ _ _ Tok_nil) in HE; destruct HE as (t & HE2 & -> & Hd) end;
    match goal with HU : unwind _ _ _ _ _ _ _ |- _ => apply (unwind_T D D) in HU; [ destruct HU as [HU2 Ht] | exact (Hd (dok_start u)) ] end;
    exists (t ++ t2); (split; [ | rewrite ann_app, Ht; reflexivity ]).
  - eapply RunRet; eauto.
  - eapply RunPanic; eauto.
Qed.

Lemma run_realised body u t u' r : sok body -> run W reads_last body u t u' r -> run W D (inject pkgs pid nop body) u (ann t) u' r.
Proof.
  intros Hok H.
  assert (realises body (flat_map rw body)) as HR by (apply realises_list; [ apply Forall_forall; intros a _; apply realises_stmt | exact Hok ]).
  inversion H; subst;
    match goal with HE : execs _ _ _ _ _ _ _ |- _ => destruct (HR [] _ _ _ _ Tok_nil HE) as (HE2 & Hd) end;
    match goal with HU : unwind _ _ _ _ _ _ _ |- _ => apply (unwind_T _ D) in HU; [ destruct HU as [HU2 Ht] | exact (Hd (dok_start u)) ] end;
    rewrite ann_app, Ht.
  - eapply RunRet; eauto.
  - eapply RunPanic; eauto.
Qed.

End Ord.

Lemma prog_sok body : prog_ok W pt opsof body -> sok body.
Proof.
  intros [H1 H2 H3 H4 H5]. split; [ exact H1 | ]. intros c Hc. split; [ apply H3, Hc | split ].
  - apply Forall_forall. intros a Ha x Hx. eapply H2; eassumption.
  - intros Hp. split; [ apply H4 | apply H5 ]; assumption.
Qed.
End P.

(** ** The call that is found *)

Section Outer.
Fixpoint tree_size (t : tree) : nat := match t with TLit ts | TCall _ _ ts | TNode ts => S (list_sum (map tree_size ts)) end.

Lemma last_opt_app {A} (l1 l2 : list A) (d : option A) :
  last (map Some (l1 ++ l2)) d = last (map Some l2) (last (map Some l1) d).
Proof.
  destruct l2 as [ | x l2 ]; [ rewrite app_nil_r; reflexivity | ].
  destruct (exists_last (l := x :: l2)) as (l' & y & E); [ discriminate | ]. rewrite E.
  rewrite app_assoc, !map_app. cbn [map]. rewrite !last_last. reflexivity.
Qed.

Lemma find_call_outer_n n : forall t, (tree_size t < n)%nat -> find_call t = last (map Some (outer t)) None.
Proof.
  induction n as [ | n IH ]; intros t Ht; [ lia | ].
  assert (forall ts a, (list_sum (map tree_size ts) < n)%nat ->
    fold_left (fun a t => match find_call t with Some k => Some k | None => a end) ts a = last (map Some (flat_map outer ts)) a) as HL.
  { induction ts as [ | x ts IHt ]; intros a Hs; [ reflexivity | ]. cbn [map list_sum fold_right fold_left flat_map] in *.
    rewrite last_opt_app, IHt by (unfold list_sum in *; lia). rewrite IH by (unfold list_sum in *; lia). f_equal.
    destruct (outer x) as [ | y l ]; [ reflexivity | ].
    destruct (exists_last (l := y :: l)) as (l' & z & E); [ discriminate | ]. rewrite E, map_app. cbn [map]. rewrite !last_last. reflexivity. }
  destruct t as [ts | k m ts | ts]; cbn [find_call outer tree_size] in *; [ reflexivity | destruct m; [ reflexivity | apply HL; lia ] | apply HL; lia ].
Qed.
End Outer.

(** ** Programs as written send nothing *)

Section Quiet.
Variable Op : Type.
Variable W : world2 Op.
Variable D : nat -> operand Op -> bool -> Prop.

Scheme exec_min := Minimality for exec Sort Prop with execs_min := Minimality for execs Sort Prop with loops_min := Minimality for loops Sort Prop.
Combined Scheme exec_all from exec_min, execs_min, loops_min.

Definition quiet (t : list (cevent Op W)) : Prop := doings t = t.
Definition nolit (s : cstate Op W) : Prop := Forall (fun d => exists k f vs, d = DCall k f vs) (sd s).

Lemma quiet_app t1 t2 : quiet t1 -> quiet t2 -> quiet (t1 ++ t2).
Proof. unfold quiet, doings. intros H1 H2. rewrite filter_app, H1, H2. reflexivity. Qed.
Lemma quiet_users t : quiet (map CeUser t).
Proof. induction t; [ reflexivity | ]. unfold quiet, doings in *. cbn. f_equal. exact IHt. Qed.
Lemma quiet_step R s t s' r : step R s t s' r -> quiet t /\ sd s' = sd s.
Proof. intros (t0 & u' & -> & -> & _). split; [ apply quiet_users | reflexivity ]. Qed.
Lemma quiet_ev1 T k a s t s' r : ev1 (W := W) T k a s t s' r -> quiet t /\ sd s' = sd s.
Proof. intros H. inversion H; subst; try (split; reflexivity); eapply quiet_step; eassumption. Qed.
Lemma quiet_pass1 T k i l s t s' r : pass1 (W := W) D T k i l s t s' r -> quiet t /\ sd s' = sd s.
Proof.
  induction 1; try (split; reflexivity); try assumption; try (eapply quiet_ev1; eassumption).
  match goal with H : ev1 _ _ _ _ _ _ _ |- _ => apply quiet_ev1 in H; destruct H as [A1 A2] end. destruct IHpass1. split; [ apply quiet_app; assumption | congruence ].
Qed.
Lemma quiet_pass2 T k l ov s t s' r : pass2 (W := W) T k l ov s t s' r -> quiet t /\ sd s' = sd s.
Proof.
  induction 1; try (split; reflexivity); try assumption; try (eapply quiet_ev1; eassumption).
  match goal with H : ev1 _ _ _ _ _ _ _ |- _ => apply quiet_ev1 in H; destruct H as [A1 A2] end. destruct IHpass2. split; [ apply quiet_app; assumption | congruence ].
Qed.
Lemma quiet_operands T k l s t s' r : operands (W := W) D T k l s t s' r -> quiet t /\ sd s' = sd s.
Proof.
  intros H. inversion H; subst; [ eapply quiet_pass1; eassumption | ].
  match goal with H : pass1 _ _ _ _ _ _ _ _ _ |- _ => apply quiet_pass1 in H; destruct H as [A1 A2] end.
  match goal with H : pass2 _ _ _ _ _ _ _ _ |- _ => apply quiet_pass2 in H; destruct H as [B1 B2] end. split; [ apply quiet_app; assumption | congruence ].
Qed.
Lemma quiet_invoke T k f l s t s' r : invoke (W := W) D T k f l s t s' r -> quiet t /\ sd s' = sd s.
Proof.
  intros H. inversion H; subst; [ eapply quiet_operands; eassumption | ].
  match goal with H : operands _ _ _ _ _ _ _ _ |- _ => apply quiet_operands in H; destruct H as [A1 A2] end.
  match goal with H : step _ _ _ _ _ |- _ => apply quiet_step in H; destruct H as [B1 B2] end.
  split; [ apply quiet_app; [ assumption | ] | congruence ]. unfold quiet, doings in *. cbn. f_equal. exact B1.
Qed.
Lemma quiet_used T k f l use s t s' r : used (W := W) D T k f l use s t s' r -> quiet t /\ sd s' = sd s.
Proof.
  intros H. inversion H; subst; [ | eapply quiet_invoke; eassumption ].
  match goal with H : invoke _ _ _ _ _ _ _ _ _ |- _ => apply quiet_invoke in H; destruct H as [A1 A2] end.
  match goal with H : step _ _ _ _ _ |- _ => apply quiet_step in H; destruct H as [B1 B2] end. split; [ apply quiet_app; assumption | congruence ].
Qed.
Lemma quiet_placed T k f l p s t s' r : placed (W := W) D T k f l s p t s' r -> quiet t /\ sd s' = sd s.
Proof.
  intros H. inversion H; subst;
    repeat match goal with
    | H : used _ _ _ _ _ _ _ _ _ _ |- _ => apply quiet_used in H; destruct H as [? ?]
    | H : step _ _ _ _ _ |- _ => apply quiet_step in H; destruct H as [? ?]
    end; (split; [ first [ assumption | apply quiet_app; assumption ] | congruence ]).
Qed.
Lemma quiet_cond T h s t s' r : cond (W := W) D T h s t s' r -> quiet t /\ sd s' = sd s.
Proof. intros H. inversion H; subst; [ eapply quiet_step | eapply quiet_used ]; eassumption. Qed.

Lemma nth_written n cls : forallb (forallb written) cls = true -> forallb written (nth n cls (@nil (stmt Op))) = true.
Proof.
  revert n. induction cls as [ | b cls IH ]; intros [ | n ] H; cbn [nth forallb] in *; try reflexivity; apply andb_true_iff in H; destruct H; auto.
Qed.

Lemma quiet_exec : forall T,
  (forall a s t s' o, exec (W := W) D T a s t s' o -> written a = true -> nolit s -> quiet t /\ nolit s') /\
  (forall b s t s' o, execs (W := W) D T b s t s' o -> forallb written b = true -> nolit s -> quiet t /\ nolit s') /\
  (forall h b post s t s' o, loops (W := W) D T h b post s t s' o -> forallb written b = true -> forallb written post = true -> nolit s -> quiet t /\ nolit s').
Proof.
  apply (exec_all Op W D (fun T a s t s' o => written a = true -> nolit s -> quiet t /\ nolit s')
    (fun T b s t s' o => forallb written b = true -> nolit s -> quiet t /\ nolit s')
    (fun T h b post s t s' o => forallb written b = true -> forallb written post = true -> nolit s -> quiet t /\ nolit s'));
    intros; cbn [written forallb] in *;
    repeat match goal with
    | H : _ && _ = true |- _ => apply andb_true_iff in H; destruct H
    | H : false = true |- _ => discriminate
    | H : step _ _ _ _ _ |- _ => apply quiet_step in H; destruct H as [? ?]
    | H : placed _ _ _ _ _ _ _ _ _ _ |- _ => apply quiet_placed in H; destruct H as [? ?]
    | H : cond _ _ _ _ _ _ _ |- _ => apply quiet_cond in H; destruct H as [? ?]
    | H : operands _ _ _ _ _ _ _ _ |- _ => apply quiet_operands in H; destruct H as [? ?]
    end; unfold nolit in *; cbn [sd] in *;
    repeat match goal with
    | H : sd ?s = _ |- _ => rewrite H in *; clear H
    | H : ?x = sd _ |- _ => subst x
    | H : forallb written (nth ?n ?cls []) = true -> _, H2 : forallb (forallb written) ?cls = true |- _ => specialize (H (nth_written n cls H2))
    | H : true = true -> _ |- _ => specialize (H eq_refl)
    | H : ?P -> _, H2 : ?P |- _ => match type of P with Prop => specialize (H H2) end
    | H : _ /\ _ |- _ => destruct H
    end;
    try (split; [ repeat apply quiet_app; first [ assumption | reflexivity ] | assumption ]; fail).
  all: try (split; [ assumption | constructor; [ eauto | assumption ] ]; fail).
Qed.

Lemma quiet_run body u t u' r : forallb written body = true -> run W D body u t u' r -> quiet t.
Proof.
  intros Hw H.
  assert (forall ds c u t u' c', Forall (fun d => exists k f vs, d = DCall k f vs) ds -> unwind (W := W) D ds c u t u' c' -> quiet t) as HU.
  { clear. intros ds c u t u' c' Hd H. induction H; try (inversion Hd as [ | ? ? HA HB ]; subst).
    - reflexivity.
    - change (CeCall k f vs :: map CeUser t1 ++ t2) with ([CeCall k f vs] ++ map CeUser t1 ++ t2).
      apply quiet_app; [ reflexivity | apply quiet_app; [ apply quiet_users | auto ] ].
    - destruct HA as (? & ? & ? & E). discriminate.
    - destruct HA as (? & ? & ? & E). discriminate. }
  inversion H; subst; match goal with HE : execs _ _ _ _ _ _ _ |- _ => apply (proj1 (proj2 (quiet_exec []))) in HE; [ destruct HE as [A B] | exact Hw | constructor ] end;
    (apply quiet_app; [ exact A | eapply HU; [ exact B | eassumption ] ]).
Qed.
End Quiet.
