(** C94: go statements whose call is rewritten. *)
From Verif Require Import Base Maps InstrModel RewriteModel RewriteProofs GoStmtModel GoStmtSpec GoStmtProofs.
From Coq Require Import Permutation.

Lemma start_rel {St V C} ev Inv go_at pkgs (cs : list C) : Forall2 (trel (St := St) (V := V) ev Inv go_at pkgs) (map NUser cs) (map OUser cs).
Proof. induction cs; constructor; [constructor | assumption]. Qed.

(** Operands of go statements that depend on nothing that changes: whatever the threads, and however they are
    interleaved, the rewritten program does nothing but what the program does, apart from the messages, and the
    literals never end it. *)
Theorem C94_nothing_new : forall St V C X ev (Inv : St -> Prop) (ustep : C -> St -> C -> St -> list X -> list C -> Prop) go_at (start : V -> list V -> C) pkgs,
  local_law ev Inv -> copy_law ev Inv ->
  (forall c s c' s' xs sp, go_at c = None -> ustep c s c' s' xs sp -> Inv s -> Inv s') ->
  (forall c p call c1 c2, go_at c = Some (p, call, c1, c2) -> exists f vs, steady_call ev Inv pkgs call f vs) ->
  forall cs s es pool s', Inv s -> nruns ev ustep go_at start pkgs (map NUser cs) s es pool s' ->
  ~ In ECrash es /\ exists opool, oruns ev ustep go_at start (map OUser cs) s (quiet es) opool s'.
Proof.
  intros St V C X ev Inv ustep go_at start pkgs L1 L2 L3 L4 cs s es pool s' I0 R.
  destruct (new_to_old ev Inv ustep go_at start pkgs L1 L2 L3 L4 _ _ _ _ _ R I0 _ (start_rel ev Inv go_at pkgs cs)) as (NC & _ & op & O & _).
  split; [exact NC |]. exists op. exact O.
Qed.
Print Assumptions C94_nothing_new.

(** And all it does is still possible. *)
Theorem C94_nothing_lost : forall St V C X ev (Inv : St -> Prop) (ustep : C -> St -> C -> St -> list X -> list C -> Prop) go_at (start : V -> list V -> C) pkgs,
  local_law ev Inv -> copy_law ev Inv ->
  (forall c s c' s' xs sp, go_at c = None -> ustep c s c' s' xs sp -> Inv s -> Inv s') ->
  (forall c p call c1 c2, go_at c = Some (p, call, c1, c2) -> exists f vs, steady_call ev Inv pkgs call f vs) ->
  forall cs s es opool s', Inv s -> oruns ev ustep go_at start (map OUser cs) s es opool s' ->
  exists es' pool, nruns ev ustep go_at start pkgs (map NUser cs) s es' pool s' /\ quiet es' = es.
Proof.
  intros St V C X ev Inv ustep go_at start pkgs L1 L2 L3 L4 cs s es opool s' I0 R.
  destruct (old_to_new ev Inv ustep go_at start pkgs L1 L2 L3 L4 _ _ _ _ _ R I0 _ (start_rel ev Inv go_at pkgs cs)) as (es' & p & N0 & Q & _).
  exists es', p. split; assumption.
Qed.
Print Assumptions C94_nothing_lost.

(** At any time, every call that has been started has a message of its own with the values it got. *)
Theorem C94_own_message : forall St V C X ev (Inv : St -> Prop) (ustep : C -> St -> C -> St -> list X -> list C -> Prop) go_at (start : V -> list V -> C) pkgs,
  local_law ev Inv -> copy_law ev Inv ->
  (forall c s c' s' xs sp, go_at c = None -> ustep c s c' s' xs sp -> Inv s -> Inv s') ->
  (forall c p call c1 c2, go_at c = Some (p, call, c1, c2) -> exists f vs, steady_call ev Inv pkgs call f vs) ->
  forall cs s es pool s', Inv s -> nruns ev ustep go_at start pkgs (map NUser cs) s es pool s' ->
  exists shown waiting, Forall2 shows (messages es) shown /\ Permutation (calls es ++ waiting) shown.
Proof.
  intros St V C X ev Inv ustep go_at start pkgs L1 L2 L3 L4 cs s es pool s' I0 R.
  assert (F : Forall2 (told ev Inv) (map (@NUser V C) cs) (map (fun _ => None) cs)).
  { clear. induction cs; constructor; [left; eexists; split; reflexivity | assumption]. }
  destruct (each_told ev Inv ustep go_at start pkgs L1 L2 L3 L4 _ _ _ _ _ R I0 _ F) as (os' & ml & _ & Fm & Pm).
  assert (E : opts (V := V) (map (fun _ : C => None) cs) = []) by (clear; induction cs; auto).
  rewrite E, app_nil_r in Pm. exists ml, (opts os'). split; assumption.
Qed.
Print Assumptions C94_own_message.

(** ** The rewriting makes the statement that is run here *)
(** No function literal in it. *)
Fixpoint litfree (t : nd) : bool :=
  match t with Nd k cs => match k with KFun _ => false | _ => forallb litfree cs end end.
Lemma litfree_lits rb t : litfree t = true -> forall s, lits rb s t = Some (s, t).
Proof.
  induction t as [k cs IH] using nd_ind'. intros H s.
  assert (G : forallb litfree cs = true) by (destruct k; try discriminate H; exact H).
  assert (E : each (lits rb) s cs = Some (s, cs)).
  { clear H. induction cs as [| c cs IHc]; [reflexivity |]. cbn [forallb] in G. apply Bool.andb_true_iff in G. destruct G as [G1 G2].
    inversion IH as [| ? ? P1 P2]; subst. cbn [each]. fold (each (lits rb)). rewrite (P1 G1 s), (IHc P2 G2). reflexivity. }
  destruct k; try discriminate H; cbn [lits]; rewrite E; reflexivity.
Qed.
Lemma args_litfree p : forall args i s l v, forallb litfree args = true -> build_args p i args = (s, l, v) ->
  forallb litfree s = true /\ forallb litfree (map snd v) = true.
Proof.
  induction args as [| a args IH]; intros i s l v H E; cbn [build_args] in E; [injection E as <- <- <-; split; reflexivity |].
  destruct (build_args p (S i) args) as [[s1 l1] v1] eqn:E1. cbn [forallb] in H. apply Bool.andb_true_iff in H. destruct H as [H1 H2].
  destruct (IH _ _ _ _ H2 E1) as [A1 A2]. destruct (stays a); injection E as <- <- <-; cbn [map snd forallb litfree define name andb].
  - rewrite H1. split; assumption.
  - rewrite H1. split; assumption.
Qed.
Lemma recv_litfree pkgs p f s f' v : litfree f = true -> build_recv pkgs p f = (s, f', v) -> forallb litfree s = true /\ forallb litfree (map snd v) = true.
Proof.
  intros H E.
  assert (D : (s, f', v) = ([], f, []) -> forallb litfree s = true /\ forallb litfree (map snd v) = true) by (intros E0; injection E0 as -> _ ->; split; reflexivity).
  assert (Cx : forall m x, litfree x = true -> (s, f', v) = ([define (recv_var p) x], Nd (KSel m) [name (recv_var p)], [(B "recv", name (recv_var p))]) ->
    forallb litfree s = true /\ forallb litfree (map snd v) = true).
  { intros m x Hx E0. injection E0 as -> _ ->. cbn [map snd forallb litfree define name andb]. rewrite Hx. split; reflexivity. }
  destruct f as [k cs]. destruct k; try (apply D; cbn [build_recv] in E; symmetry; exact E).
  destruct cs as [| x [| y cs]]; try (apply D; cbn [build_recv] in E; symmetry; exact E).
  2: { apply D. cbn [build_recv] in E. destruct x as [k0 [| z zs]]; [destruct k0 |]; try (symmetry; exact E); destruct k0; symmetry; exact E. }
  assert (Hx : litfree x = true) by (cbn [litfree forallb] in H; rewrite Bool.andb_true_r in H; exact H).
  destruct x as [k0 cs0]. destruct cs0 as [| z zs].
  - destruct k0; try (eapply Cx; [exact Hx | cbn [build_recv] in E; symmetry; exact E]).
    cbn [build_recv] in E. injection E as <- <- <-. destruct (_ && _); split; reflexivity.
  - destruct k0; (eapply Cx; [exact Hx | cbn [build_recv] in E; symmetry; exact E]).
Qed.
(** A go statement whose call matches and has no function literals among its operands becomes a go statement of a
    literal with the statements that [GoStmtModel] runs. *)
Theorem C94_statement : forall pkgs rb s acc k ops pre call',
  after_message acc = false -> forallb litfree ops = true ->
  build pkgs (st_next s) (Nd (KCall true k) ops) = (pre, call') ->
  step pkgs rb s acc (Nd KGo [Nd (KCall true k) ops]) =
  Some (draw s (Nd (KCall true k) ops), acc ++ [Nd KGo [Nd (KCall false 0) [Nd (KFun []) (pre ++ [Nd KExpr [call']])]]]).
Proof.
  intros pkgs rb s acc k ops pre call' Ha H E. unfold step. rewrite Ha. cbn [wraps]. rewrite E.
  assert (P : forallb litfree pre = true).
  { destruct ops as [| f args]; cbn [build] in E.
    - injection E as <- _. reflexivity.
    - destruct (build_recv pkgs (st_next s) f) as [[s1 f1] v1] eqn:E1. destruct (build_args (st_next s) 0 args) as [[s2 l2] v2] eqn:E2.
      injection E as <- _. cbn [forallb] in H. apply Bool.andb_true_iff in H. destruct H as [H1 H2].
      destruct (recv_litfree _ _ _ _ _ _ H1 E1) as [A1 A2]. destruct (args_litfree _ _ _ _ _ _ H2 E2) as [B1 B2].
      rewrite !forallb_app, A1, B1. cbn [forallb litfree message andb]. rewrite map_app, forallb_app, A2, B2. reflexivity. }
  assert (L : forall st l, forallb litfree l = true -> each (lits rb) st l = Some (st, l)).
  { intros st l. induction l as [| c l IH]; intros Hl; [reflexivity |]. cbn [forallb] in Hl. apply Bool.andb_true_iff in Hl. destruct Hl as [G1 G2].
    cbn [each]. fold (each (lits rb)). rewrite (litfree_lits rb c G1 st), (IH G2). reflexivity. }
  rewrite (L _ _ P). reflexivity.
Qed.
Print Assumptions C94_statement.

(** ** Operands that change *)
(** go f(x); x = 2: the state is the value of x; place 0 is the go statement, 1 the assignment, 5 the function. *)
Definition ev1 (env : amap nat) (e : nd) (s s' : nat) (o : option nat) : Prop :=
  s' = s /\ o = Some (match e with
                      | Nd (KId y) [] => match mget y env with Some v => v | None => if beq y (B "x") then s else 100%nat end
                      | _ => 0%nat
                      end).
Definition call1 : nd := Nd (KCall true 0) [name (B "f"); name (B "x")].
Definition go1 (c : nat) : option (N * nd * nat * nat) := match c with O => Some (7%N, call1, 1, 9)%nat | _ => None end.
Definition ustep1 (c s c' s' : nat) (xs : list nat) (sp : list nat) : Prop := (c = 1 /\ c' = 2 /\ s' = 2 /\ xs = [] /\ sp = [])%nat.
Definition start1 (f : nat) (vs : list nat) : nat := 5%nat.

Lemma ev1_x env s : mget (B "x") env = None -> ev1 env (name (B "x")) s s (Some s).
Proof. intros E. split; [reflexivity |]. unfold name. rewrite E. reflexivity. Qed.
Lemma ev1_f env s : mget (B "f") env = None -> ev1 env (name (B "f")) s s (Some 100%nat).
Proof. intros E. split; [reflexivity |]. unfold name. rewrite E. reflexivity. Qed.

(** Main thread and the others. *)
Definition ok1 (pool : list (othread nat nat)) (s : nat) : Prop := exists m rest, pool = m :: rest /\
  Forall (fun t => t = OStart 100%nat [1%nat] \/ t = OUser 5%nat) rest /\
  ((m = OUser 0%nat /\ s = 1%nat) \/
   (exists vs todo, m = OEval vs todo 1%nat 9%nat /\ s = 1%nat /\
      (vs = [] /\ todo = [name (B "f"); name (B "x")] \/ vs = [100%nat] /\ todo = [name (B "x")] \/ vs = [100; 1]%nat /\ todo = [])) \/
   m = OUser 1%nat \/ m = OUser 2%nat).

Lemma ok1_run pool s es pool' s' : oruns ev1 ustep1 go1 start1 pool s es pool' s' -> ok1 pool s -> Forall (fun vs => vs = [1%nat]) (calls es).
Proof.
  intros R. induction R as [l s | l1 t l2 s t' s1 es sp es' l' s' D T R IH]; intros (m & rest & E & Fr & M); [constructor |].
  unfold calls. rewrite flat_map_app. fold (calls es). fold (calls es'). destruct l1 as [| a l1]; cbn [app] in E.
  - injection E as -> ->. apply Forall_app.
    destruct M as [(-> & ->) | [(vs & todo & -> & -> & M) | [-> | ->]]]; inversion T; subst; try discriminate.
    + match goal with G : go1 _ = Some _ |- _ => cbn [go1] in G; unfold call1 in G; injection G as <- <- <- <- <- end.
      split; [constructor |]. apply IH. exists (OEval [] [name (B "f"); name (B "x")] 1%nat 9%nat), (rest ++ []).
      split; [reflexivity |]. rewrite app_nil_r. split; [exact Fr |]. right. left. do 2 eexists. split; [reflexivity |]. split; [reflexivity |]. left. split; reflexivity.
    + match goal with H : ev1 _ _ _ _ _ |- _ => destruct H as (-> & E0); injection E0 as -> end.
      split; [constructor |]. apply IH.
      eexists _, (rest ++ []). split; [reflexivity |]. rewrite app_nil_r. split; [exact Fr |]. right. left. do 2 eexists.
      split; [reflexivity |]. split; [reflexivity |].
      destruct M as [(-> & Et) | [(-> & Et) | (-> & Et)]]; [| | discriminate]; injection Et as -> ->.
      * right. left. split; reflexivity.
      * right. right. split; reflexivity.
    + match goal with H : ev1 _ _ _ _ _ |- _ => destruct H as (_ & E0); discriminate E0 end.
    + destruct M as [(E0 & _) | [(E0 & E1) | (E0 & _)]]; [discriminate | discriminate |]. injection E0 as -> ->.
      split; [constructor |]. apply IH. eexists _, (rest ++ [_]). split; [reflexivity |]. split.
      * apply Forall_app. split; [exact Fr |]. constructor; [left; reflexivity | constructor].
      * right. right. left. reflexivity.
    + match goal with U0 : ustep1 _ _ _ _ _ _ |- _ => destruct U0 as (_ & -> & -> & -> & ->) end.
      split; [constructor |]. apply IH. eexists _, (rest ++ []). split; [reflexivity |]. rewrite app_nil_r. split; [exact Fr |]. right. right. right. reflexivity.
    + match goal with U0 : ustep1 _ _ _ _ _ _ |- _ => destruct U0 as (E & _); discriminate E end.
  - injection E as <- <-.
    assert (Ft : t = OStart 100%nat [1%nat] \/ t = OUser 5%nat).
    { rewrite Forall_forall in Fr. apply Fr. apply in_or_app. right. left. reflexivity. }
    destruct Ft as [-> | ->]; inversion T; subst; try discriminate.
    + apply Forall_app. split; [constructor; [reflexivity | constructor] |]. apply IH.
      eexists a, _. split; [reflexivity |]. split; [| exact M]. apply Forall_app in Fr. destruct Fr as [F1 F2]. inversion F2; subst.
      apply Forall_app. split; [exact F1 |]. constructor; [right; reflexivity |]. rewrite app_nil_r. assumption.
    + match goal with U0 : ustep1 _ _ _ _ _ _ |- _ => destruct U0 as (E & _); discriminate E end.
Qed.

(** In the program as written f is always called with the value x has at the go statement.  After the rewriting it
    may be called with the later one, and the message may tell another value than the one f gets. *)
Theorem C94_later_value_refuted : exists ev (ustep : nat -> nat -> nat -> nat -> list nat -> list nat -> Prop) go_at (start : nat -> list nat -> nat),
  local_law ev (fun _ => True) /\
  (forall es pool s', oruns ev ustep go_at start [OUser 0%nat] 1%nat es pool s' -> Forall (fun vs => vs = [1%nat]) (calls es)) /\
  (exists es pool s', nruns ev ustep go_at start [] [NUser 0%nat] 1%nat es pool s' /\
     messages es = [[(B "arg0", 2%nat)]] /\ calls es = [[2%nat]]) /\
  (exists es pool s', nruns ev ustep go_at start [] [NUser 0%nat] 1%nat es pool s' /\
     messages es = [[(B "arg0", 1%nat)]] /\ calls es = [[2%nat]]).
Proof.
  exists ev1, ustep1, go1, start1. split; [| split; [| split]].
  - intros env x v E s s' o _. unfold ev1, name. rewrite E. reflexivity.
  - intros es pool s' R. apply (ok1_run _ _ _ _ _ R). exists (OUser 0%nat), []. split; [reflexivity |]. split; [constructor |]. left. split; reflexivity.
  - do 3 eexists. split.
    + eapply pr_step with (l1 := []) (l2 := []); [reflexivity | apply ns_go with (p := 7%N) (call := call1) (c1 := 1%nat) (c2 := 9%nat); [reflexivity | vm_compute; reflexivity] |].
      eapply pr_step with (l1 := []); [reflexivity | apply ns_user with (xs := []) (sp := []); [reflexivity | repeat split] |].
      cbn [app map].
      eapply pr_step with (l1 := [NUser 2%nat]) (l2 := []); [reflexivity | apply ns_msg |].
      eapply pr_step with (l1 := [NUser 2%nat]) (l2 := []); [reflexivity | apply ns_val; apply (ev1_x [] 2%nat); reflexivity |].
      eapply pr_step with (l1 := [NUser 2%nat]) (l2 := []); [reflexivity | apply ns_sent |].
      eapply pr_step with (l1 := [NUser 2%nat]) (l2 := []); [reflexivity | apply ns_call |].
      eapply pr_step with (l1 := [NUser 2%nat]) (l2 := []); [reflexivity | apply ns_op; apply (ev1_f [] 2%nat); reflexivity |].
      eapply pr_step with (l1 := [NUser 2%nat]) (l2 := []); [reflexivity | apply ns_op; apply (ev1_x [] 2%nat); reflexivity |].
      eapply pr_step with (l1 := [NUser 2%nat]) (l2 := []); [reflexivity | apply ns_start |].
      apply pr_done.
    + split; reflexivity.
  - do 3 eexists. split.
    + eapply pr_step with (l1 := []) (l2 := []); [reflexivity | apply ns_go with (p := 7%N) (call := call1) (c1 := 1%nat) (c2 := 9%nat); [reflexivity | vm_compute; reflexivity] |].
      cbn [app].
      eapply pr_step with (l1 := [NUser 1%nat]) (l2 := []); [reflexivity | apply ns_msg |].
      eapply pr_step with (l1 := [NUser 1%nat]) (l2 := []); [reflexivity | apply ns_val; apply (ev1_x [] 1%nat); reflexivity |].
      eapply pr_step with (l1 := [NUser 1%nat]) (l2 := []); [reflexivity | apply ns_sent |].
      eapply pr_step with (l1 := []); [reflexivity | apply ns_user with (xs := []) (sp := []); [reflexivity | repeat split] |].
      cbn [app map].
      eapply pr_step with (l1 := [NUser 2%nat]) (l2 := []); [reflexivity | apply ns_call |].
      eapply pr_step with (l1 := [NUser 2%nat]) (l2 := []); [reflexivity | apply ns_op; apply (ev1_f [] 2%nat); reflexivity |].
      eapply pr_step with (l1 := [NUser 2%nat]) (l2 := []); [reflexivity | apply ns_op; apply (ev1_x [] 2%nat); reflexivity |].
      eapply pr_step with (l1 := [NUser 2%nat]) (l2 := []); [reflexivity | apply ns_start |].
      apply pr_done.
    + split; reflexivity.
Qed.
Print Assumptions C94_later_value_refuted.

(** go f(x) where evaluating x panics; the calling function recovers (place 9). *)
Definition ev2 (env : amap nat) (e : nd) (s s' : nat) (o : option nat) : Prop :=
  s' = s /\ o = match e with
                | Nd (KId y) [] => match mget y env with Some v => Some v | None => if beq y (B "x") then None else Some 100%nat end
                | _ => Some 0%nat
                end.
Definition ustep2 (c s c' s' : nat) (xs : list nat) (sp : list nat) : Prop := (c = 9 /\ c' = 10 /\ s' = s /\ xs = [1] /\ sp = [])%nat.

Lemma new_places pool s es pool' s' : nruns ev2 ustep2 go1 start1 [] pool s es pool' s' ->
  Forall (fun t => forall c, t = NUser c -> (c < 9)%nat) pool -> ~ In (EUser 1%nat) es.
Proof.
  intros R. induction R as [l s | l1 t l2 s t' s1 es sp es' l' s' D T R IH]; intros F; [intros [] |].
  apply Forall_app in F. destruct F as [F1 F2]. inversion F2 as [| ? ? Ft F3]; subst.
  assert (H : (forall c, t' = NUser c -> (c < 9)%nat) /\ Forall (fun t => forall c, t = NUser c -> (c < 9)%nat) sp /\ ~ In (EUser 1%nat) es).
  { inversion T; subst; try (split; [intros c0 E0; discriminate E0 |]; split; [constructor | intros H0; cbn in H0; intuition discriminate]).
    - match goal with U0 : ustep2 _ _ _ _ _ _ |- _ => destruct U0 as (-> & _) end. specialize (Ft _ eq_refl). lia.
    - split.
      + intros c0 E0. injection E0 as <-. destruct c; cbn [go1] in *; [| discriminate].
        match goal with G : Some _ = Some _ |- _ => injection G as _ _ <- _ end. lia.
      + split; [constructor; [intros c0 E0; discriminate E0 | constructor] | intros []].
    - split; [intros c0 E0; injection E0 as <-; unfold start1; lia |]. split; [constructor | intros [E0 | []]; discriminate E0]. }
  destruct H as (H1 & H2 & H3). intros H. apply in_app_or in H. destruct H as [H | H]; [contradiction |].
  revert H. apply IH. apply Forall_app. split; [exact F1 |]. constructor; [exact H1 |]. apply Forall_app. split; assumption.
Qed.

(** As written, the calling goroutine panics and may recover; after the rewriting the panic is in the new goroutine and
    ends the program. *)
Theorem C94_panic_refuted : exists ev (ustep : nat -> nat -> nat -> nat -> list nat -> list nat -> Prop) go_at (start : nat -> list nat -> nat),
  local_law ev (fun _ => True) /\
  (exists es pool s', oruns ev ustep go_at start [OUser 0%nat] 0%nat es pool s' /\ In (EUser 1%nat) es) /\
  (forall es pool s', oruns ev ustep go_at start [OUser 0%nat] 0%nat es pool s' -> ~ In ECrash es) /\
  (exists es pool s', nruns ev ustep go_at start [] [NUser 0%nat] 0%nat es pool s' /\ In ECrash es) /\
  (forall es pool s', nruns ev ustep go_at start [] [NUser 0%nat] 0%nat es pool s' -> ~ In (EUser 1%nat) es).
Proof.
  exists ev2, ustep2, go1, start1. split; [| split; [| split; [| split]]].
  - intros env x v E s s' o _. unfold ev2, name. rewrite E. reflexivity.
  - do 3 eexists. split.
    + eapply pr_step with (l1 := []) (l2 := []); [reflexivity | eapply os_go; reflexivity |]. cbn [app].
      eapply pr_step with (l1 := []) (l2 := []); [reflexivity | apply os_ev with (s' := 0%nat) (v := 100%nat); split; reflexivity |]. cbn [app].
      eapply pr_step with (l1 := []) (l2 := []); [reflexivity | apply os_panic with (s' := 0%nat); split; reflexivity |]. cbn [app].
      eapply pr_step with (l1 := []) (l2 := []); [reflexivity | apply os_user with (c' := 10%nat) (s' := 0%nat) (xs := [1%nat]) (sp := []); [reflexivity | repeat split] |].
      apply pr_done.
    + left. reflexivity.
  - intros es pool s' R. induction R as [l s | l1 t l2 s t' s1 es sp es' l' s' D T R IH]; [intros [] |].
    intros H. apply in_app_or in H. destruct H as [H | H]; [| contradiction]. inversion T; subst; try (cbn in H; intuition discriminate).
    apply in_map_iff in H. destruct H as (x & E & _). discriminate.
  - do 3 eexists. split.
    + eapply pr_step with (l1 := []) (l2 := []); [reflexivity | apply ns_go with (p := 7%N) (call := call1) (c1 := 1%nat) (c2 := 9%nat); [reflexivity | vm_compute; reflexivity] |].
      cbn [app].
      eapply pr_step with (l1 := [NUser 1%nat]) (l2 := []); [reflexivity | apply ns_msg |].
      eapply pr_step with (l1 := [NUser 1%nat]) (l2 := []); [reflexivity | apply ns_val_panic with (s' := 0%nat); split; reflexivity |].
      apply pr_done.
    + left. reflexivity.
  - intros es pool s' R. apply (new_places _ _ _ _ _ R). constructor; [| constructor]. intros c E. injection E as <-. lia.
Qed.
Print Assumptions C94_panic_refuted.

(** ** An example that meets the hypotheses: x is 1 and stays so *)
Definition ustep3 (c s c' s' : nat) (xs : list nat) (sp : list nat) : Prop := (c = 1 /\ c' = 2 /\ s' = s /\ xs = [3] /\ sp = [0])%nat.
Definition is_one (s : nat) : Prop := s = 1%nat.
Lemma short_name (env : amap nat) x : added env -> (length x = 1)%nat -> mget x env = None.
Proof.
  intros A L. induction env as [| [k v] env IH]; [reflexivity |]. cbn [mget]. destruct (beq x k) eqn:E.
  - apply beq_true in E. subst k. destruct (A x (or_introl eq_refl)) as (p & [-> | (i & ->)]).
    + unfold recv_var in L. rewrite app_length in L. assert (Z : (length p_recv > 1)%nat) by (vm_compute; lia). lia.
    + unfold arg_var in L. rewrite app_length in L. assert (Z : (length p_arg > 1)%nat) by (vm_compute; lia). lia.
  - apply IH. intros y H. apply A. right. exact H.
Qed.
Lemma example_hypotheses : local_law ev1 is_one /\ copy_law ev1 is_one /\
  (forall c s c' s' xs sp, go1 c = None -> ustep3 c s c' s' xs sp -> is_one s -> is_one s') /\
  (forall c p call c1 c2, go1 c = Some (p, call, c1, c2) -> exists f vs, steady_call ev1 is_one [] call f vs).
Proof.
  split; [| split; [| split]].
  - intros env x v E s s' o _. unfold ev1, name. rewrite E. reflexivity.
  - intros env m x y v _ _ s s' o _. unfold ev1. reflexivity.
  - intros c s c' s' xs sp _ (_ & _ & -> & _) H. exact H.
  - intros [| c] p call c1 c2 E; cbn [go1] in E; [| discriminate]. injection E as <- <- <- <-.
    exists 100%nat, [1%nat]. exists true, 0%nat, (name (B "f")), [name (B "x")]. split; [reflexivity |]. split.
    + intros env A s s' o _. unfold ev1. unfold name at 1. rewrite (short_name env (B "f") A eq_refl). reflexivity.
    + split; [exact Logic.I |]. constructor; [| constructor]. intros env A s s' o ->.
      unfold ev1. unfold name at 1. rewrite (short_name env (B "x") A eq_refl). reflexivity.
Qed.
(** The threads start more of themselves; every call gets 1, in whatever order. *)
Example C94_example : forall es pool s', nruns ev1 ustep3 go1 start1 [] [NUser 0%nat; NUser 0%nat] 1%nat es pool s' ->
  ~ In ECrash es /\ exists shown waiting, Forall2 shows (messages es) shown /\ Permutation (calls es ++ waiting) shown.
Proof.
  intros es pool s' R. destruct example_hypotheses as (H1 & H2 & H3 & H4). split.
  - exact (proj1 (C94_nothing_new _ _ _ _ ev1 is_one ustep3 go1 start1 [] H1 H2 H3 H4 [0; 0]%nat 1%nat es pool s' eq_refl R)).
  - exact (C94_own_message _ _ _ _ ev1 is_one ustep3 go1 start1 [] H1 H2 H3 H4 [0; 0]%nat 1%nat es pool s' eq_refl R).
Qed.
Example C94_example_run : exists es pool s', nruns ev1 ustep3 go1 start1 [] [NUser 0%nat; NUser 0%nat] 1%nat es pool s' /\
  messages es = [[(B "arg0", 1%nat)]] /\ calls es = [[1%nat]].
Proof.
  do 3 eexists. split.
  - eapply pr_step with (l1 := [NUser 0%nat]) (l2 := []); [reflexivity | apply ns_go with (p := 7%N) (call := call1) (c1 := 1%nat) (c2 := 9%nat); [reflexivity | vm_compute; reflexivity] |].
    cbn [app].
    eapply pr_step with (l1 := [NUser 0%nat; NUser 1%nat]) (l2 := []); [reflexivity | apply ns_msg |].
    eapply pr_step with (l1 := [NUser 0%nat; NUser 1%nat]) (l2 := []); [reflexivity | apply ns_val; apply (ev1_x [] 1%nat); reflexivity |].
    eapply pr_step with (l1 := [NUser 0%nat; NUser 1%nat]) (l2 := []); [reflexivity | apply ns_sent |].
    eapply pr_step with (l1 := [NUser 0%nat; NUser 1%nat]) (l2 := []); [reflexivity | apply ns_call |].
    eapply pr_step with (l1 := [NUser 0%nat; NUser 1%nat]) (l2 := []); [reflexivity | apply ns_op; apply (ev1_f [] 1%nat); reflexivity |].
    eapply pr_step with (l1 := [NUser 0%nat; NUser 1%nat]) (l2 := []); [reflexivity | apply ns_op; apply (ev1_x [] 1%nat); reflexivity |].
    eapply pr_step with (l1 := [NUser 0%nat; NUser 1%nat]) (l2 := []); [reflexivity | apply ns_start |].
    apply pr_done.
  - split; reflexivity.
Qed.

(** go r.f(x + y, z) *)
Example C94_statement_example :
  step [B "fmt"] (fun _ _ => None) (State 4 [] 0) [] (Nd KGo [Nd (KCall true 0) [Nd (KSel (B "f")) [name (B "r")]; Nd KBin [name (B "x"); name (B "y")]; name (B "z")]]) =
  Some (State 5 [(4%N, 0%nat)] 0,
    [Nd KGo [Nd (KCall false 0) [Nd (KFun [])
      [Nd (KAssign [arg_var 4 0]) [Nd KBin [name (B "x"); name (B "y")]];
       Nd KExpr [Nd (KMsg 4 (map B ["r"; "arg0"; "arg1"]%string)) [name (B "r"); name (arg_var 4 0); name (B "z")]];
       Nd KExpr [Nd (KCall true 0) [Nd (KSel (B "f")) [name (B "r")]; name (arg_var 4 0); name (B "z")]]]]]]).
Proof. vm_compute. reflexivity. Qed.
