(** Lemmas for C94. *)
From Verif Require Import Base Maps InstrModel RewriteModel InstrProofs CallTypeProofs GoStmtModel GoStmtSpec.
From Coq Require Import Permutation.

Section Proofs.
Context {St V C X : Type}.
(** As in [GoStmtModel] and [GoStmtSpec] (lens/asttweak.go:843-879, 716-728, 1092-1156). *)
Variable ev : amap V -> nd -> St -> St -> option V -> Prop.
Variable Inv : St -> Prop.
Variable ustep : C -> St -> C -> St -> list X -> list C -> Prop.
Variable go_at : C -> option (N * nd * C * C).
Variable start : V -> list V -> C.
Variable pkgs : list bytes.
Hypothesis Llocal : local_law ev Inv.
Hypothesis Lcopy : copy_law ev Inv.
Hypothesis Linv : forall c s c' s' xs sp, go_at c = None -> ustep c s c' s' xs sp -> Inv s -> Inv s'.
Hypothesis Lgo : forall c p call c1 c2, go_at c = Some (p, call, c1, c2) -> exists f vs, steady_call ev Inv pkgs call f vs.
Notation gives := (gives ev Inv).
Notation steady := (steady ev Inv).
Notation nstep := (nstep ev ustep go_at start pkgs).
Notation ostep := (ostep ev ustep go_at start).

(** The statements of the literal that are left (lens/asttweak.go:852-858). *)
Inductive okrun (f : V) (vs : list V) : amap V -> list nd -> bool -> Prop :=
| ok_def env x e l v : gives env e v -> okrun f vs ((x, v) :: env) l false -> okrun f vs env (Nd (KAssign [x]) [e] :: l) false
| ok_msg env p names vals ws l : Forall2 (gives env) vals ws -> shows (combine names ws) vs -> okrun f vs env l true ->
    okrun f vs env (Nd KExpr [Nd (KMsg p names) vals] :: l) false
| ok_call env m k ops : Forall2 (gives env) ops (f :: vs) -> okrun f vs env [Nd KExpr [Nd (KCall m k) ops]] true.
(** A goroutine in the literal (lens/asttweak.go:856-865); [b]: the message has been sent. *)
Definition phase (f : V) (vs : list V) (t : nthread V C) (b : bool) : Prop :=
  match t with
  | NRun env l => okrun f vs env l b
  | NVals env p names ws todo l =>
      b = false /\ exists ws', Forall2 (gives env) todo ws' /\ shows (combine names (ws ++ ws')) vs /\ okrun f vs env l true
  | NCall env ws todo => b = true /\ exists ws', Forall2 (gives env) todo ws' /\ ws ++ ws' = f :: vs
  | _ => False
  end.

Lemma gives_val env e v s s' o : gives env e v -> Inv s -> ev env e s s' o -> s' = s /\ o = Some v.
Proof. intros G I0 E. apply (G s s' o I0). exact E. Qed.

Lemma phase_step f vs t b s t' s1 es sp : phase f vs t b -> Inv s -> nstep t s t' s1 es sp ->
  s1 = s /\ sp = [] /\
  ((exists b', phase f vs t' b' /\ ((es = [] /\ b' = b) \/ exists p sh, es = [EMsg p sh] /\ shows sh vs /\ b = false /\ b' = true)) \/
   (t' = NUser (start f vs) /\ es = [ECall f vs] /\ b = true)).
Proof.
  intros P I0 St0. destruct St0; cbn [phase] in P; try contradiction.
  - inversion P; subst.
    match goal with G : gives _ _ ?w, H : ev _ _ _ _ _ |- _ => destruct (gives_val _ _ _ _ _ _ G I0 H) as [-> E0]; injection E0 as -> end.
    split; [reflexivity |]. split; [reflexivity |]. left. exists false. split; [assumption | left; split; reflexivity].
  - inversion P; subst.
    match goal with G : gives _ _ ?w, H : ev _ _ _ _ _ |- _ => destruct (gives_val _ _ _ _ _ _ G I0 H) as [_ E0]; discriminate E0 end.
  - inversion P; subst. split; [reflexivity |]. split; [reflexivity |]. left. exists false. split; [| left; split; reflexivity].
    cbn [phase]. split; [reflexivity |]. exists ws. cbn [app]. repeat split; assumption.
  - destruct P as (-> & ws' & F & Sh & K). inversion F as [| ? w ? ws'' G F']; subst.
    match goal with H : ev _ _ _ _ _ |- _ => destruct (gives_val _ _ _ _ _ _ G I0 H) as [-> E0]; injection E0 as -> end.
    split; [reflexivity |]. split; [reflexivity |]. left. exists false. split; [| left; split; reflexivity].
    cbn [phase]. split; [reflexivity |]. exists ws''. rewrite <- app_assoc. cbn [app]. repeat split; assumption.
  - destruct P as (-> & ws' & F & Sh & K). inversion F as [| ? w ? ws'' G F']; subst.
    match goal with H : ev _ _ _ _ _ |- _ => destruct (gives_val _ _ _ _ _ _ G I0 H) as [_ E0]; discriminate E0 end.
  - destruct P as (-> & ws' & F & Sh & K). inversion F; subst. rewrite app_nil_r in Sh.
    split; [reflexivity |]. split; [reflexivity |]. left. exists true. split; [exact K |]. right.
    exists p, (combine names vs0). repeat split; assumption.
  - inversion P; subst. split; [reflexivity |]. split; [reflexivity |]. left. exists true. split; [| left; split; reflexivity].
    cbn [phase]. split; [reflexivity |]. exists (f :: vs). cbn [app]. split; [assumption | reflexivity].
  - destruct P as (-> & ws' & F & E1). inversion F as [| ? w ? ws'' G F']; subst.
    match goal with H : ev _ _ _ _ _ |- _ => destruct (gives_val _ _ _ _ _ _ G I0 H) as [-> E0]; injection E0 as -> end.
    split; [reflexivity |]. split; [reflexivity |]. left. exists true. split; [| left; split; reflexivity].
    cbn [phase]. split; [reflexivity |]. exists ws''. rewrite <- app_assoc. split; [assumption | exact E1].
  - destruct P as (-> & ws' & F & E1). inversion F as [| ? w ? ws'' G F']; subst.
    match goal with H : ev _ _ _ _ _ |- _ => destruct (gives_val _ _ _ _ _ _ G I0 H) as [_ E0]; discriminate E0 end.
  - destruct P as (-> & ws' & F & E1). inversion F; subst. rewrite app_nil_r in E1. injection E1 as -> ->.
    split; [reflexivity |]. split; [reflexivity |]. right. repeat split.
Qed.

(** ** The statements built *)
Lemma added_arg env p i v : added env -> added ((arg_var p i, v) :: env : amap V).
Proof. intros A x [<- | H]; [exists p; right; exists i; reflexivity | exact (A x H)]. Qed.

(** All variables of the one with their values (those of the literal, lens/asttweak.go:1092-1156, grow). *)
Definition extends (env env' : amap V) : Prop := forall x v, mget x env = Some v -> mget x env' = Some v.

Lemma args_ok f vs0 p K : forall args vs, Forall2 steady args vs -> forall i env s args' w,
  added env -> (forall j, (i <= j)%nat -> mget (arg_var p j) env = None) -> build_args p i args = (s, args', w) ->
  map fst w = map (fun i => B "arg" ++ num i) (seq i (length vs)) /\
  ((forall env', added env' -> extends env env' -> Forall2 (gives env') args' vs -> Forall2 (gives env') (map snd w) vs ->
    okrun f vs0 env' K false) -> okrun f vs0 env (s ++ K) false).
Proof.
  intros args vs F. induction F as [| a v args vs Ga F IH]; intros i env s args' w A Fr E.
  - cbn [build_args] in E. injection E as <- <- <-. split; [reflexivity |]. intros H. cbn [app].
    apply H; [exact A | intros x v E; exact E | constructor | constructor].
  - cbn [build_args] in E. destruct (build_args p (S i) args) as [[s1 l1] w1] eqn:E1.
    destruct (stays a).
    + injection E as <- <- <-.
      destruct (IH (S i) env s1 l1 w1 A (fun j Hj => Fr j (Nat.le_trans _ _ _ (Nat.le_succ_diag_r i) Hj)) E1) as [N0 R]. split.
      * cbn [map fst length seq]. rewrite N0. reflexivity.
      * intros H. apply R. intros env' A' X' F1 F2. apply H; try assumption.
        { constructor; [apply Ga; exact A' | exact F1]. }
        { cbn [map snd]. constructor; [apply Ga; exact A' | exact F2]. }
    + injection E as <- <- <-.
      assert (Fr' : forall j, (S i <= j)%nat -> mget (arg_var p j) ((arg_var p i, v) :: env) = None).
      { intros j Hj. cbn [mget]. destruct (beq (arg_var p j) (arg_var p i)) eqn:Eb; [| apply Fr; lia].
        apply beq_true in Eb. apply arg_var_inj in Eb. lia. }
      destruct (IH (S i) _ s1 l1 w1 (added_arg _ p i v A) Fr' E1) as [N0 R]. split.
      * cbn [map fst length seq]. rewrite N0. reflexivity.
      * intros H. cbn [app]. unfold define. apply ok_def with (v := v); [apply Ga; exact A |].
        apply R. intros env' A' X' F1 F2.
        assert (Gx : gives env' (name (arg_var p i)) v).
        { apply Llocal. apply X'. cbn [mget]. rewrite (proj2 (beq_true _ _) eq_refl). reflexivity. }
        apply H; try assumption.
        { intros x u Hx. apply X'. cbn [mget]. destruct (beq x (arg_var p i)) eqn:Eb; [| exact Hx].
          apply beq_true in Eb. subst x. rewrite Fr in Hx by lia. discriminate. }
        { constructor; assumption. }
        { cbn [map snd]. constructor; assumption. }
Qed.

Lemma combine_app {A B0} (a a' : list A) (b b' : list B0) : length a = length b -> combine (a ++ a') (b ++ b') = combine a b ++ combine a' b'.
Proof.
  revert b. induction a as [| x a IH]; intros [| y b] E; try discriminate; [reflexivity |].
  cbn [app combine]. rewrite IH by (cbn in E; lia). reflexivity.
Qed.

Lemma F2_length {A B0} (R : A -> B0 -> Prop) l l' : Forall2 R l l' -> length l = length l'.
Proof. intros F. induction F; cbn; congruence. Qed.

Lemma recv_ok p fn f : steady fn f -> steady_recv ev Inv pkgs fn -> forall s f' v, build_recv pkgs p fn = (s, f', v) ->
  (length v <= 1)%nat /\ exists env, added env /\ (forall j, mget (arg_var p j) env = None) /\
    (forall g vs K, okrun g vs env K false -> okrun g vs [] (s ++ K) false) /\
    forall env', added env' -> extends env env' -> gives env' f' f /\ exists ws, Forall2 (gives env') (map snd v) ws.
Proof.
  intros Sf Sr s f' v E.
  assert (D : (s, f', v) = ([], fn, []) -> (length v <= 1)%nat /\ exists env, added env /\ (forall j, mget (arg_var p j) env = None) /\
    (forall g vs K, okrun g vs env K false -> okrun g vs [] (s ++ K) false) /\
    forall env', added env' -> extends env env' -> gives env' f' f /\ exists ws, Forall2 (gives env') (map snd v) ws).
  { intros E0. injection E0 as -> -> ->. split; [cbn; lia |]. exists []. split; [intros ? [] |]. split; [reflexivity |]. split; [intros g vs K O; exact O |].
    intros env' A' X'. split; [apply Sf; exact A' |]. exists []. constructor. }
  assert (Cx : forall m x, (exists vx, steady x vx) -> fn = Nd (KSel m) [x] ->
    (s, f', v) = ([define (recv_var p) x], Nd (KSel m) [name (recv_var p)], [(B "recv", name (recv_var p))]) ->
    (length v <= 1)%nat /\ exists env, added env /\ (forall j, mget (arg_var p j) env = None) /\
    (forall g vs K, okrun g vs env K false -> okrun g vs [] (s ++ K) false) /\
    forall env', added env' -> extends env env' -> gives env' f' f /\ exists ws, Forall2 (gives env') (map snd v) ws).
  { intros m x (vx & Gx) -> E0. injection E0 as -> -> ->. split; [cbn; lia |]. exists [(recv_var p, vx)].
    split; [intros y [<- | []]; exists p; left; reflexivity |].
    split. { intros j. cbn [mget]. destruct (beq (arg_var p j) (recv_var p)) eqn:Eb; [| reflexivity].
             apply beq_true in Eb. destruct (arg_recv_var _ _ Eb). }
    split. { intros g vs K O. cbn [app]. unfold define. apply ok_def with (v := vx); [apply Gx; intros ? [] | exact O]. }
    intros env' A' X'.
    assert (Gr : gives env' (name (recv_var p)) vx).
    { apply Llocal. apply X'. cbn [mget]. rewrite (proj2 (beq_true _ _) eq_refl). reflexivity. }
    split.
    - intros s s' o I0. rewrite <- (Lcopy env' m x (name (recv_var p)) vx (Gx env' A') Gr s s' o I0). apply Sf; assumption.
    - exists [vx]. cbn [map snd]. constructor; [exact Gr | constructor]. }
  destruct fn as [k cs]. destruct k; try (apply D; cbn [build_recv] in E; symmetry; exact E).
  destruct cs as [| x [| y cs]]; try (apply D; cbn [build_recv] in E; symmetry; exact E).
  2: { apply D. cbn [build_recv] in E. destruct x as [k0 [| z zs]]; [destruct k0 |]; try (symmetry; exact E); destruct k0; symmetry; exact E. }
  destruct x as [k0 cs0].
  destruct cs0 as [| z zs].
  - destruct k0; try (eapply Cx; [exact Sr | reflexivity | cbn [build_recv] in E; symmetry; exact E]).
    cbn [build_recv] in E. cbn [steady_recv] in Sr.
    destruct (negb (beq x (B "_")) && negb (mem x pkgs)) eqn:Eb.
    2: { apply D. symmetry. exact E. }
    injection E as <- <- <-.
    + apply Bool.andb_true_iff in Eb. destruct Eb as [E1 E2].
      split; [cbn; lia |]. exists []. split; [intros ? [] |]. split; [reflexivity |]. split; [intros g vs K O; exact O |].
      intros env' A' X'. split; [apply Sf; exact A' |].
      destruct Sr as [-> | [Hin | [w Hw]]].
      * rewrite (proj2 (beq_true _ _) eq_refl) in E1. discriminate.
      * exfalso. apply InstrProofs.mem_in in Hin. rewrite Hin in E2. discriminate.
      * exists [w]. cbn [map snd]. constructor; [apply Hw; exact A' | constructor].
  - destruct k0; (eapply Cx; [exact Sr | reflexivity | cbn [build_recv] in E; symmetry; exact E]).
Qed.

Lemma build_ok p call f vs pre call' : steady_call ev Inv pkgs call f vs -> build pkgs p call = (pre, call') ->
  okrun f vs [] (pre ++ [Nd KExpr [call']]) false.
Proof.
  intros (m & k & fn & args & -> & Sf & Sr & Sa) E. cbn [build] in E.
  destruct (build_recv pkgs p fn) as [[s f'] v] eqn:E1. destruct (build_args p 0 args) as [[s' args'] v'] eqn:E2.
  injection E as <- <-.
  destruct (recv_ok p fn f Sf Sr s f' v E1) as (L & env & A & Fr & R & Fin).
  rewrite <- app_assoc. apply R. rewrite <- app_assoc.
  destruct (args_ok f vs p ([message p (v ++ v')] ++ [Nd KExpr [Nd (KCall m k) (f' :: args')]]) args vs Sa 0%nat env s' args' v' A (fun j _ => Fr j) E2) as [N0 H].
  apply H. intros env' A' X' F1 F2. destruct (Fin env' A' X') as (Gf & ws & Fw).
  cbn [app]. unfold message. apply ok_msg with (ws := ws ++ vs).
  - rewrite map_app. apply Forall2_app; assumption.
  - exists (combine (map fst v) ws). pose proof (F2_length _ _ _ Fw) as Lw. rewrite map_length in Lw. split.
    + rewrite combine_length, map_length. lia.
    + rewrite map_app, combine_app, N0; [reflexivity | rewrite map_length; exact Lw].
  - apply ok_call. constructor; assumption.
Qed.

(** ** Runs of all threads *)
Lemma prun_app {T St0 E0} dead (ts : T -> St0 -> T -> St0 -> list E0 -> list T -> Prop) l s es l1 s1 :
  prun dead ts l s es l1 s1 -> forall es' l2 s2, prun dead ts l1 s1 es' l2 s2 -> prun dead ts l s (es ++ es') l2 s2.
Proof.
  intros R. induction R; intros es2 l3 s3 R'; [exact R' |]. rewrite <- app_assoc. eapply pr_step; try eassumption. apply IHR. exact R'.
Qed.
Lemma prun_one {T St0 E0} dead (ts : T -> St0 -> T -> St0 -> list E0 -> list T -> Prop) l1 t l2 s t' s1 es sp :
  forallb (fun t => negb (dead t)) (l1 ++ t :: l2) = true -> ts t s t' s1 es sp ->
  prun dead ts (l1 ++ t :: l2) s es (l1 ++ t' :: l2 ++ sp) s1.
Proof. intros D R. rewrite <- (app_nil_r es). eapply pr_step; try eassumption. constructor. Qed.

Notation oruns := (oruns ev ustep go_at start).
Notation nruns := (nruns ev ustep go_at start pkgs).

Lemma o_alive (l : list (othread V C)) : forallb (fun t => negb ((fun _ : othread V C => false) t)) l = true.
Proof. apply forallb_forall. reflexivity. Qed.

Lemma o_one m1 u m2 s u' s1 es sp : ostep u s u' s1 es sp -> oruns (m1 ++ u :: m2) s es (m1 ++ u' :: m2 ++ sp) s1.
Proof. intros H. apply prun_one; [apply o_alive | exact H]. Qed.

Lemma o_evals m1 m2 c1 c2 s : Inv s -> forall todo ws, Forall2 (gives []) todo ws -> forall done,
  oruns (m1 ++ OEval done todo c1 c2 :: m2) s [] (m1 ++ OEval (done ++ ws) [] c1 c2 :: m2) s.
Proof.
  intros I0 todo ws F. induction F as [| e w todo ws G F IH]; intros done.
  - rewrite app_nil_r. constructor.
  - change (@nil (event V X)) with (@nil (event V X) ++ []). eapply prun_app.
    + apply o_one. apply os_ev with (v := w). apply (G s s (Some w) I0). split; reflexivity.
    + rewrite app_nil_r. specialize (IH (done ++ [w])). rewrite <- app_assoc in IH. exact IH.
Qed.

(** Threads of the two programs (lens/asttweak.go:843-879). *)
Inductive trel : nthread V C -> othread V C -> Prop :=
| tr_user c : trel (NUser c) (OUser c)
| tr_eval c p k ops c1 c2 f vs done todo ws :
    go_at c = Some (p, Nd k ops, c1, c2) -> steady_call ev Inv pkgs (Nd k ops) f vs ->
    Forall2 (gives []) todo ws -> done ++ ws = f :: vs -> trel (NUser c) (OEval done todo c1 c2)
| tr_lit t b f vs : phase f vs t b -> trel t (OStart f vs).

Lemma F2_split {A B0} (R : A -> B0 -> Prop) l1 t l2 m : Forall2 R (l1 ++ t :: l2) m ->
  exists m1 u m2, m = m1 ++ u :: m2 /\ Forall2 R l1 m1 /\ R t u /\ Forall2 R l2 m2.
Proof.
  intros F. apply Forall2_app_inv_l in F. destruct F as (m1 & m2 & F1 & F2 & ->).
  inversion F2; subst. exists m1, y, l'. repeat split; assumption.
Qed.
Lemma F2_split_r {A B0} (R : A -> B0 -> Prop) l m1 u m2 : Forall2 R l (m1 ++ u :: m2) ->
  exists l1 t l2, l = l1 ++ t :: l2 /\ Forall2 R l1 m1 /\ R t u /\ Forall2 R l2 m2.
Proof.
  intros F. apply Forall2_app_inv_r in F. destruct F as (l1 & l2 & F1 & F2 & ->).
  inversion F2; subst. exists l1, x, l. repeat split; assumption.
Qed.
Lemma F2_join {A B0} (R : A -> B0 -> Prop) l1 t l2 m1 u m2 sp sq : Forall2 R l1 m1 -> R t u -> Forall2 R l2 m2 -> Forall2 R sp sq ->
  Forall2 R (l1 ++ t :: l2 ++ sp) (m1 ++ u :: m2 ++ sq).
Proof. intros. apply Forall2_app; [assumption |]. constructor; [assumption |]. apply Forall2_app; assumption. Qed.

Lemma steady_here call f vs k ops : call = Nd k ops -> steady_call ev Inv pkgs call f vs -> Forall2 (gives []) ops (f :: vs).
Proof.
  intros -> (m & k0 & fn & args & E & Sf & _ & Sa). injection E as -> ->.
  assert (A : added (@nil (bytes * V))) by (intros ? []).
  constructor; [apply Sf; exact A |]. induction Sa; constructor; auto.
Qed.

Lemma o_go m1 m2 c p k ops c1 c2 s f vs : Inv s -> go_at c = Some (p, Nd k ops, c1, c2) -> steady_call ev Inv pkgs (Nd k ops) f vs ->
  oruns (m1 ++ OUser c :: m2) s [] (m1 ++ OUser c1 :: m2 ++ [OStart f vs]) s.
Proof.
  intros I0 E S0. change (@nil (event V X)) with (@nil (event V X) ++ [] ++ []). eapply prun_app.
  - apply o_one. eapply os_go. exact E.
  - rewrite app_nil_r. eapply prun_app; [apply (o_evals _ _ _ _ _ I0 _ _ (steady_here _ _ _ _ _ eq_refl S0)) |].
    cbn [app]. apply o_one. apply os_spawn.
Qed.

Lemma quiet_user (xs : list X) : quiet (V := V) (map EUser xs) = map EUser xs.
Proof. unfold quiet. induction xs as [| x xs IH]; [reflexivity |]. cbn [map filter]. rewrite IH. reflexivity. Qed.
Lemma user_no_crash (xs : list X) : ~ In (@ECrash V X) (map EUser xs).
Proof. intros H. apply in_map_iff in H. destruct H as (x & E & _). discriminate. Qed.

Lemma new_to_old pool s es pool' s' : nruns pool s es pool' s' -> Inv s -> forall opool, Forall2 trel pool opool ->
  ~ In ECrash es /\ Inv s' /\ exists opool', oruns opool s (quiet es) opool' s' /\ Forall2 trel pool' opool'.
Proof.
  intros R. induction R as [l s | l1 t l2 s t' s1 es sp es' l' s' D T R IH]; intros I0 opool F.
  - split; [intros [] |]. split; [exact I0 |]. exists opool. split; [constructor | exact F].
  - apply F2_split in F. destruct F as (m1 & u & m2 & -> & F1 & Tu & F2).
    assert (Step : forall esq u' sq, ~ In ECrash es -> Inv s1 -> oruns (m1 ++ u :: m2) s esq (m1 ++ u' :: m2 ++ sq) s1 -> quiet es = esq ->
      trel t' u' -> Forall2 trel sp sq ->
      ~ In ECrash (es ++ es') /\ Inv s' /\ exists opool', oruns (m1 ++ u :: m2) s (quiet (es ++ es')) opool' s' /\ Forall2 trel l' opool').
    { intros esq u' sq NC I1 O Q Tr Fs. destruct (IH I1 _ (F2_join _ _ _ _ _ _ _ _ _ F1 Tr F2 Fs)) as (NC' & I2 & op & O' & F').
      split; [intros H; apply in_app_or in H; destruct H; contradiction |]. split; [exact I2 |].
      exists op. split; [| exact F']. unfold quiet. rewrite filter_app. fold (quiet es). rewrite Q. eapply prun_app; eassumption. }
    destruct Tu as [c | c p k ops c1 c2 f vs done todo ws G Sc Fg Ed | t b f vs P].
    + inversion T; subst.
      * eapply Step with (u' := OUser c'); [apply user_no_crash | eapply Linv; eassumption | apply o_one; apply os_user; eassumption | apply quiet_user | constructor |].
        clear. induction sp0; constructor; [constructor | assumption].
      * destruct call as [k ops]. match goal with G : go_at c = Some _ |- _ => destruct (Lgo _ _ _ _ _ G) as (f & vs & Sc); pose proof G as G' end.
        eapply Step with (u' := OUser c1) (sq := [OStart f vs]); [intros [] | exact I0 | eapply o_go; eassumption | reflexivity | constructor |].
        constructor; [| constructor]. eapply tr_lit. cbn [phase]. eapply build_ok; eassumption.
    + inversion T; subst; [congruence |]. match goal with G' : go_at c = Some _ |- _ => rewrite G in G'; injection G' as <- <- <- <- end.
      eapply Step with (esq := []) (u' := OUser c1) (sq := [OStart f vs]); [intros [] | exact I0 | | reflexivity | constructor |].
      * change (@nil (event V X)) with (@nil (event V X) ++ []). eapply prun_app; [eapply o_evals; eassumption |].
        rewrite Ed. apply o_one. apply os_spawn.
      * constructor; [| constructor]. eapply tr_lit. cbn [phase]. eapply build_ok; eassumption.
    + destruct (phase_step f vs t b s t' s1 es sp P I0 T) as (-> & -> & [(b' & P' & E) | (-> & -> & _)]).
      * eapply Step with (esq := []) (u' := OStart f vs) (sq := []).
        { destruct E as [(-> & _) | (p & sh & -> & _)]; [intros [] | intros [H | []]; discriminate]. }
        { exact I0. }
        { rewrite app_nil_r. constructor. }
        { destruct E as [(-> & _) | (p & sh & -> & _)]; reflexivity. }
        { eapply tr_lit. exact P'. }
        { constructor. }
      * eapply Step with (u' := OUser (start f vs)) (sq := []); [intros [H | []]; discriminate | exact I0 | apply o_one; apply os_start | reflexivity | constructor | constructor].
Qed.

(** ** The other direction *)
(** The program has not ended (lens/asttweak.go:860-865). *)
Definition alive (l : list (nthread V C)) : Prop := forallb (fun t => negb (ended t)) l = true.
Lemma alive_mid l1 t t' l2 : ended t' = false -> alive (l1 ++ t :: l2) -> alive (l1 ++ t' :: l2).
Proof.
  unfold alive. intros E H. rewrite forallb_app in *. cbn [forallb] in *. apply Bool.andb_true_iff in H. destruct H as [H1 H2].
  apply Bool.andb_true_iff in H2. destruct H2 as [_ H2]. rewrite H1, H2, E. reflexivity.
Qed.
Lemma n_one m1 t m2 s t' s1 es : alive (m1 ++ t :: m2) -> nstep t s t' s1 es [] -> nruns (m1 ++ t :: m2) s es (m1 ++ t' :: m2) s1.
Proof. intros A H. pose proof (prun_one ended nstep m1 t m2 s t' s1 es [] A H) as R. rewrite app_nil_r in R. exact R. Qed.

Lemma n_vals m1 m2 env p names l s : Inv s -> forall todo ws, Forall2 (gives env) todo ws -> forall done, alive (m1 ++ NRun env l :: m2) ->
  nruns (m1 ++ NVals env p names done todo l :: m2) s [EMsg p (combine names (done ++ ws))] (m1 ++ NRun env l :: m2) s.
Proof.
  intros I0 todo ws F. induction F as [| e w todo ws G F IH]; intros done A.
  - rewrite app_nil_r. apply n_one; [eapply alive_mid; [| exact A]; reflexivity | apply ns_sent].
  - change ([EMsg p (combine names (done ++ w :: ws))]) with ([] ++ [@EMsg V X p (combine names (done ++ w :: ws))]). eapply prun_app.
    + apply n_one; [(eapply alive_mid; [| exact A]; reflexivity) |].
      apply ns_val with (v := w). apply (G s s (Some w) I0). split; reflexivity.
    + specialize (IH (done ++ [w]) A). rewrite <- app_assoc in IH. exact IH.
Qed.
Lemma n_ops m1 m2 env s f vs : Inv s -> forall todo ws, Forall2 (gives env) todo ws -> forall done, done ++ ws = f :: vs ->
  alive (m1 ++ NCrash :: m2) \/ alive (m1 ++ NUser (start f vs) :: m2) ->
  nruns (m1 ++ NCall env done todo :: m2) s [ECall f vs] (m1 ++ NUser (start f vs) :: m2) s.
Proof.
  intros I0 todo ws F. induction F as [| e w todo ws G F IH]; intros done E A.
  - rewrite app_nil_r in E. subst done. apply n_one; [| apply ns_start].
    destruct A as [A | A]; (eapply alive_mid; [| exact A]; reflexivity).
  - change ([@ECall V X f vs]) with ([] ++ [@ECall V X f vs]). eapply prun_app.
    + apply n_one; [destruct A as [A | A]; (eapply alive_mid; [| exact A]; reflexivity) |].
      apply ns_op with (v := w). apply (G s s (Some w) I0). split; reflexivity.
    + apply IH; [rewrite <- app_assoc; exact E | exact A].
Qed.
Lemma n_run m1 m2 s f vs : Inv s -> forall env l b, okrun f vs env l b -> alive (m1 ++ NUser (start f vs) :: m2) ->
  exists es, nruns (m1 ++ NRun env l :: m2) s es (m1 ++ NUser (start f vs) :: m2) s /\ quiet es = [ECall f vs].
Proof.
  intros I0 env l b O A. induction O as [env x e l v G O IH | env p names vals ws l F Sh O IH | env m k ops F].
  - destruct IH as (es & R & Q). exists ([] ++ es). split; [| exact Q]. eapply prun_app; [| exact R].
    apply n_one; [(eapply alive_mid; [| exact A]; reflexivity) |].
    apply ns_define. apply (G s s (Some v) I0). split; reflexivity.
  - destruct IH as (es & R & Q). exists ([] ++ [EMsg p (combine names ([] ++ ws))] ++ es). split; [| exact Q].
    eapply prun_app; [apply n_one; [(eapply alive_mid; [| exact A]; reflexivity) | apply ns_msg] |].
    eapply prun_app; [| exact R]. apply n_vals; try assumption. (eapply alive_mid; [| exact A]; reflexivity).
  - exists ([] ++ [ECall f vs]). split; [| reflexivity]. eapply prun_app.
    + apply n_one; [(eapply alive_mid; [| exact A]; reflexivity) | apply ns_call].
    + eapply n_ops; [exact I0 | exact F | reflexivity | right; exact A].
Qed.
Lemma n_phase m1 m2 s f vs t b : Inv s -> phase f vs t b -> alive (m1 ++ NUser (start f vs) :: m2) ->
  exists es, nruns (m1 ++ t :: m2) s es (m1 ++ NUser (start f vs) :: m2) s /\ quiet es = [ECall f vs].
Proof.
  intros I0 P A. destruct t; cbn [phase] in P; try contradiction.
  - eapply n_run; eassumption.
  - destruct P as (-> & ws' & F & Sh & K). destruct (n_run m1 m2 s f vs I0 _ _ _ K A) as (es & R & Q).
    exists ([EMsg p (combine names (vs0 ++ ws'))] ++ es). split; [| exact Q].
    eapply prun_app; [apply n_vals; try eassumption; (eapply alive_mid; [| exact A]; reflexivity) | exact R].
  - destruct P as (-> & ws' & F & E). exists [ECall f vs]. split; [| reflexivity]. eapply n_ops; try eassumption. right. exact A.
Qed.

Lemma trel_alive l m : Forall2 trel l m -> alive l.
Proof.
  intros F. unfold alive. induction F as [| t u l m T F IH]; [reflexivity |]. cbn [forallb]. rewrite IH, Bool.andb_true_r.
  destruct T as [c | c p k ops c1 c2 f vs done todo ws G Sc Fg Ed | t b f vs P]; try reflexivity.
  destruct t; try reflexivity. destruct P.
Qed.

Lemma old_to_new opool s es opool' s' : oruns opool s es opool' s' -> Inv s -> forall pool, Forall2 trel pool opool ->
  exists es' pool', nruns pool s es' pool' s' /\ quiet es' = es /\ Forall2 trel pool' opool'.
Proof.
  intros R. induction R as [l s | m1 u m2 s u' s1 es sq es' l' s' D T R IH]; intros I0 pool F.
  - exists [], pool. split; [constructor |]. split; [reflexivity | exact F].
  - pose proof (trel_alive _ _ F) as A.
    apply F2_split_r in F. destruct F as (l1 & t & l2 & -> & F1 & Tu & F2).
    assert (Step : forall esn t' sp, Inv s1 -> nruns (l1 ++ t :: l2) s esn (l1 ++ t' :: l2 ++ sp) s1 -> quiet esn = es ->
      trel t' u' -> Forall2 trel sp sq ->
      exists es2 pool', nruns (l1 ++ t :: l2) s es2 pool' s' /\ quiet es2 = es ++ es' /\ Forall2 trel pool' l').
    { intros esn t' sp I1 O Q Tr Fs. destruct (IH I1 _ (F2_join _ _ _ _ _ _ _ _ _ F1 Tr F2 Fs)) as (es2 & op & O' & Q' & F').
      exists (esn ++ es2), op. split; [eapply prun_app; eassumption |]. split; [| exact F'].
      unfold quiet. rewrite filter_app. fold (quiet esn). fold (quiet es2). rewrite Q, Q'. reflexivity. }
    assert (Stay : t = t -> s1 = s -> es = [] -> sq = [] -> trel t u' ->
      exists es2 pool', nruns (l1 ++ t :: l2) s es2 pool' s' /\ quiet es2 = es ++ es' /\ Forall2 trel pool' l').
    { intros _ -> -> -> Tr. eapply Step with (esn := []) (sp := []); [exact I0 | rewrite app_nil_r; constructor | reflexivity | exact Tr | constructor]. }
    destruct Tu as [c | c p k ops c1 c2 f vs done todo ws G Sc Fg Ed | t b f vs P].
    + inversion T; subst.
      * eapply Step with (t' := NUser c'); [eapply Linv; eassumption | apply prun_one; [exact A | apply ns_user; eassumption] | apply quiet_user | constructor |].
        clear. induction sp; constructor; [constructor | assumption].
      * match goal with G : go_at c = Some _ |- _ => destruct (Lgo _ _ _ _ _ G) as (f & vs & Sc); pose proof G as G' end.
        apply Stay; try reflexivity. eapply tr_eval; try eassumption; [eapply steady_here; [reflexivity | exact Sc] | reflexivity].
    + inversion T; subst.
      * inversion Fg as [| ? w ? ws0 Gw Fw]; subst.
        match goal with H : ev _ _ _ _ _ |- _ => destruct (gives_val _ _ _ _ _ _ Gw I0 H) as [-> E0]; injection E0 as -> end.
        apply Stay; try reflexivity. eapply tr_eval; try eassumption. rewrite <- app_assoc. exact Ed.
      * inversion Fg as [| ? w ? ws0 Gw Fw]; subst.
        match goal with H : ev _ _ _ _ _ |- _ => destruct (gives_val _ _ _ _ _ _ Gw I0 H) as [_ E0]; discriminate E0 end.
      * inversion Fg; subst. rewrite app_nil_r in Ed. injection Ed as -> ->.
        destruct (build pkgs p (Nd k ops)) as [pre call'] eqn:Eb.
        eapply Step with (esn := []) (t' := NUser c1) (sp := [NRun [] (pre ++ [Nd KExpr [call']])]).
        { exact I0. }
        { apply prun_one; [exact A | eapply ns_go; eassumption]. }
        { reflexivity. }
        { constructor. }
        { constructor; [| constructor]. eapply tr_lit. cbn [phase]. eapply build_ok; eassumption. }
    + inversion T; subst.
      destruct (n_phase l1 l2 s1 f vs t b I0 P (alive_mid _ _ (NUser (start f vs)) _ eq_refl A)) as (esn & O & Q).
      eapply Step with (esn := esn) (t' := NUser (start f vs)) (sp := []); [exact I0 | rewrite app_nil_r; exact O | exact Q | constructor | constructor].
Qed.

(** ** Messages and calls *)
(** The arguments a thread has told of and not yet used (lens/asttweak.go:1152-1156, 858). *)
Definition told (t : nthread V C) (o : option (list V)) : Prop :=
  (exists c, t = NUser c /\ o = None) \/ exists f vs b, phase f vs t b /\ o = if b then Some vs else None.
(** The values that are there (those told at lens/asttweak.go:1152-1156, call not started yet). *)
Definition opts (os : list (option (list V))) : list (list V) := flat_map (fun o => match o with Some x => [x] | None => [] end) os.

Lemma opts_app a b : opts (a ++ b) = opts a ++ opts b.
Proof. apply flat_map_app. Qed.
Lemma user_no_calls (xs : list X) : calls (V := V) (map EUser xs) = [] /\ messages (V := V) (map EUser xs) = [].
Proof. split; induction xs; cbn; auto. Qed.

Lemma perm_mix {A} (ab m o1 x o2 sp c m0 y : list A) :
  Permutation ab (m ++ o1 ++ x ++ o2 ++ sp) -> Permutation (c ++ x ++ sp) (m0 ++ y) ->
  Permutation (c ++ ab) (m0 ++ m ++ o1 ++ y ++ o2).
Proof.
  intros P1 P2. apply (Permutation_trans (l' := (c ++ x ++ sp) ++ m ++ o1 ++ o2)).
  - rewrite <- !app_assoc. apply Permutation_app_head. eapply Permutation_trans; [exact P1 |].
    apply (Permutation_trans (l' := m ++ x ++ o1 ++ o2 ++ sp)); [apply Permutation_app_head, Permutation_app_swap_app |].
    eapply Permutation_trans; [apply Permutation_app_swap_app |]. apply Permutation_app_head.
    apply (Permutation_trans (l' := m ++ o1 ++ sp ++ o2)); [do 2 apply Permutation_app_head; apply Permutation_app_comm |].
    apply (Permutation_trans (l' := m ++ sp ++ o1 ++ o2)); [apply Permutation_app_head, Permutation_app_swap_app |].
    apply Permutation_app_swap_app.
  - apply (Permutation_trans (l' := (m0 ++ y) ++ m ++ o1 ++ o2)); [apply Permutation_app_tail; exact P2 |].
    rewrite <- app_assoc. apply Permutation_app_head.
    eapply Permutation_trans; [apply Permutation_app_swap_app |]. apply Permutation_app_head.
    apply Permutation_app_swap_app.
Qed.

Lemma each_told pool s es pool' s' : nruns pool s es pool' s' -> Inv s -> forall os, Forall2 told pool os ->
  exists os' ml, Forall2 told pool' os' /\ Forall2 shows (messages es) ml /\ Permutation (calls es ++ opts os') (ml ++ opts os).
Proof.
  intros R. induction R as [l s | l1 t l2 s t' s1 es sp es' l' s' D T R IH]; intros I0 os F.
  - exists os, []. split; [exact F |]. split; [constructor | apply Permutation_refl].
  - apply F2_split in F. destruct F as (o1 & o & o2 & -> & F1 & Tu & F2).
    assert (Step : forall o' osp ml0, Inv s1 -> told t' o' -> Forall2 told sp osp -> Forall2 shows (messages es) ml0 ->
      Permutation (calls es ++ opts [o'] ++ opts osp) (ml0 ++ opts [o]) ->
      exists os' ml, Forall2 told l' os' /\ Forall2 shows (messages (es ++ es')) ml /\
        Permutation (calls (es ++ es') ++ opts os') (ml ++ opts (o1 ++ o :: o2))).
    { intros o' osp ml0 I1 Tr Fs Fm Pm. destruct (IH I1 _ (F2_join _ _ _ _ _ _ _ _ _ F1 Tr F2 Fs)) as (os' & ml & Fl & Fml & Pl).
      exists os', (ml0 ++ ml). split; [exact Fl |]. split.
      { unfold messages. rewrite flat_map_app. apply Forall2_app; assumption. }
      unfold calls. rewrite flat_map_app. fold (calls es). fold (calls es').
      change (o' :: o2 ++ osp) with ([o'] ++ o2 ++ osp) in Pl. change (o :: o2) with ([o] ++ o2).
      rewrite !opts_app in Pl. rewrite !opts_app. rewrite <- !app_assoc.
      eapply perm_mix; [exact Pl | exact Pm]. }
    destruct Tu as [(c & -> & ->) | (f & vs & b & P & ->)].
    + inversion T; subst.
      * destruct (user_no_calls xs) as [Ec Em].
        eapply Step with (o' := None) (osp := map (fun _ => None) sp0) (ml0 := []).
        { eapply Linv; eassumption. }
        { left. exists c'. split; reflexivity. }
        { clear. induction sp0; constructor; [left; eexists; split; reflexivity | assumption]. }
        { rewrite Em. constructor. }
        { rewrite Ec. cbn [app opts flat_map]. clear. induction sp0; cbn; auto. }
      * match goal with G : go_at c = Some _ |- _ => destruct (Lgo _ _ _ _ _ G) as (f & vs & Sc) end.
        eapply Step with (o' := None) (osp := [None]) (ml0 := []).
        { exact I0. }
        { left. eexists. split; reflexivity. }
        { constructor; [| constructor]. right. exists f, vs, false. split; [cbn [phase]; eapply build_ok; eassumption | reflexivity]. }
        { constructor. }
        { apply Permutation_refl. }
    + destruct (phase_step f vs t b s t' s1 es sp P I0 T) as (-> & -> & [(b' & P' & E) | (-> & -> & ->)]).
      * destruct E as [(-> & ->) | (p & sh & -> & Sh & -> & ->)].
        { eapply Step with (o' := if b then Some vs else None) (osp := []) (ml0 := []).
          - exact I0.
          - right. exists f, vs, b. split; [exact P' | reflexivity].
          - constructor.
          - constructor.
          - cbn [calls flat_map app opts]. rewrite app_nil_r. apply Permutation_refl. }
        { eapply Step with (o' := Some vs) (osp := []) (ml0 := [vs]).
          - exact I0.
          - right. exists f, vs, true. split; [exact P' | reflexivity].
          - constructor.
          - cbn [messages flat_map app]. constructor; [exact Sh | constructor].
          - apply Permutation_refl. }
      * eapply Step with (o' := None) (osp := []) (ml0 := []).
        { exact I0. }
        { left. eexists. split; reflexivity. }
        { constructor. }
        { constructor. }
        { apply Permutation_refl. }
Qed.
End Proofs.
