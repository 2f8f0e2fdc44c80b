(** Lemmas for CompileProps.v. *)

From Verif Require Import Base InstrModel InstrSpec InstrProofs CompileSpec.

(** The names the instrumentation of returns declares. *)
Definition synth (x : bytes) : Prop :=
  exists i, x = p_tmp ++ num i \/ x = p_ret ++ num i \/ x = p_rec ++ num i.

(** How the value of a result is handed on: as it is, through a variable of
    the written type, or through one of the type of the expression. *)
Inductive way := AsIs | Written | Inferred.

Section P.
Variable Op : Type.
Variable G : gotypes Op.
Variable F : func.
Variable I : info Op.
Hypothesis L : lawful G F (i_ids I).

Notation T := (Ty G).
Notation K := (Cst G).

Definition way_of (i : nat) (e : expr Op) : way :=
  match e with
  | EId x => if i_need I i e then if beq x (B "nil") then Written else if shadow F I i e then Inferred else Written
             else AsIs
  | ELit _ => if i_need I i e && shadow F I i e then Inferred else Written
  | _ => if shadow F I i e then Inferred else Written
  end.

Definition sendable (s : scope T K) (x : bytes) : Prop :=
  exists v t, s x = Some (EVal v) /\ single (G := G) v = Some t.

(** What the i-th result needs. *)
Definition result_ok (s : scope T K) (i : nat) (e : expr Op) : Prop :=
  match way_of i e with
  | AsIs => forall x, e = EId x -> x <> B "nil" -> sendable s x
  | Written => exists v t, ety s e = Some v /\ g_mean G s i = Some t /\ g_asg G v t = true /\
      g_asg G (Typed t) (g_res G i) = true
  | Inferred => exists v t, ety s e = Some v /\ single v = Some t /\ g_asg G (Typed t) (g_res G i) = true
  end.

Definition fresh (i : nat) (e : expr Op) : Prop :=
  forall x, In x (expr_ids I e) \/ In x (nth i (f_tyids F) []) -> ~ synth x.

Lemma ok_block ov b : ok F ov (SBlock b) <-> oks F ov [] b (G := G).
Proof. reflexivity. Qed.

Lemma over_out ov s x : ~ In x (map fst ov) -> over (G := G) ov s x = s x.
Proof.
  induction ov as [|[y t] ov IH]; intros H; auto. cbn.
  rewrite (proj2 (beq_false x y)). { apply IH. intros A. apply H. right. exact A. }
  intros ->. apply H. left. reflexivity.
Qed.

Lemma over_in ov s x : In x (map fst ov) -> exists t, over (G := G) ov s x = Some (EVal (Typed t)).
Proof.
  induction ov as [|[y t] ov IH]; intros H; [destruct H|]. cbn.
  destruct (beq x y) eqn:E; [eauto|]. apply IH. destruct H as [H|H]; auto.
  cbn in H. subst. rewrite (proj2 (beq_true x x) eq_refl) in E. discriminate.
Qed.

Definition synths (ov : list (bytes * T)) : Prop := forall x, In x (map fst ov) -> synth x.

Lemma ety_over ov s i e : synths ov -> fresh i e -> ety (over ov s) e = ety (G := G) s e.
Proof.
  intros H Hf. destruct L as (L1 & _ & _).
  destruct e as [x|o|c o|o]; cbn.
  - rewrite over_out; auto. intros A. apply (Hf x); [left; left; reflexivity|auto].
  - apply L1. intros x Hx. apply over_out. intros A. apply (Hf x); auto.
  - apply L1. intros x Hx. apply over_out. intros A. apply (Hf x); auto.
  - apply L1. intros x Hx. apply over_out. intros A. apply (Hf x); auto.
Qed.

Lemma mean_over ov s i e : synths ov -> fresh i e -> g_mean G (over ov s) i = g_mean G s i.
Proof.
  intros H Hf. destruct L as (_ & L2 & _). apply L2. intros x Hx. apply over_out. intros A. apply (Hf x); auto.
Qed.

Lemma synth_not x : In x client_names -> ~ synth x.
Proof. intros [<-|[<-|[]]] (i & [H|[H|H]]); discriminate H. Qed.

Lemma over_client ov s n : synths ov -> In n client_names -> over (G := G) ov s n = s n.
Proof. intros H Hn. apply over_out. intros A. apply (synth_not n Hn). auto. Qed.

Lemma sendable_over ov s x : sendable s x -> sendable (over ov s) x.
Proof.
  intros (v & t & E & Ht). unfold sendable. destruct (in_dec (list_eq_dec ascii_dec) x (map fst ov)) as [A|A].
  - destruct (over_in ov s x A) as (t' & ->). exists (Typed t'), t'. auto.
  - rewrite over_out by exact A. eauto.
Qed.

Lemma synth_tmp i : synth (tmp_name i).
Proof. exists i. left. reflexivity. Qed.
Lemma synth_ret e i : synth (ret_name (Op := Op) F e i).
Proof. exists i. unfold ret_name. destruct (recursive F e); auto. Qed.

Lemma synths_cons x t ov : synth x -> synths ov -> synths ((x, t) :: ov).
Proof. intros H H2 y [<-|Hy]; auto. Qed.

(** The added variables of results before the i-th. *)
Definition below (i : nat) (x : bytes) : Prop :=
  exists j, (j < i)%nat /\ (x = p_tmp ++ num j \/ x = p_ret ++ num j \/ x = p_rec ++ num j).

Lemma below_synth i x : below i x -> synth x.
Proof. intros (j & _ & H). exists j. exact H. Qed.
Lemma below_mono i x : below i x -> below (S i) x.
Proof. intros (j & Hj & H). exists j. split; [lia|exact H]. Qed.
Lemma below_tmp i : ~ below i (tmp_name i).
Proof.
  intros (j & Hj & [H|[H|H]]); unfold tmp_name in H; try discriminate H.
  apply app_inv_head, num_inj in H. lia.
Qed.
Lemma below_ret e i : ~ below i (ret_name (Op := Op) F e i).
Proof.
  intros (j & Hj & H). unfold ret_name in H.
  destruct (recursive F e), H as [H|[H|H]]; try discriminate H; apply app_inv_head, num_inj in H; lia.
Qed.
Lemma below_S_tmp i : below (S i) (tmp_name i).
Proof. exists i. split; [lia|left; reflexivity]. Qed.
Lemma below_S_ret e i : below (S i) (ret_name (Op := Op) F e i).
Proof. exists i. split; [lia|]. unfold ret_name. destruct (recursive F e); auto. Qed.

(** The results handed on so far. *)
Definition kept (i : nat) (e : expr Op) : Prop := exists x, e = EId x /\ (below i x \/ ~ synth x).

Lemma flat_uses_ret pre k p sn r (x : bytes) :
  In (EId x) r -> In x (flat_map uses (pre ++ [SSend k p sn; SReturn (Op := Op) k r])).
Proof.
  intros H. rewrite flat_map_app. apply in_or_app. right. cbn. rewrite app_nil_r. apply in_or_app. right.
  apply in_flat_map. exists (EId x). split; [exact H|left; reflexivity].
Qed.

Lemma nth_error_snoc {A} (l : list A) a j b :
  nth_error (l ++ [a]) j = Some b -> nth_error l j = Some b \/ (j = length l /\ b = a).
Proof.
  intros H. destruct (Nat.lt_ge_cases j (length l)) as [C|C].
  - rewrite nth_error_app1 in H; auto.
  - rewrite nth_error_app2 in H by exact C. destruct (j - length l)%nat as [|n] eqn:E.
    + right. cbn in H. split; [lia|congruence].
    + destruct n; discriminate H.
Qed.

Definition rets_ok (s : scope T K) (r : list (expr Op)) : Prop :=
  forall j e, nth_error r j = Some e -> exists v, ety s e = Some v /\ g_asg G v (g_res G j) = true.

Definition sends_ok (s : scope T K) (sn : list (bytes * bytes)) : Prop :=
  forall n x, In (n, x) sn -> sendable s x.

(** The statements a result is handed on with. *)
Lemma one_result_shape k i e seen pre r sn seen' :
  one_result F I k i e seen = (pre, r, sn, seen') ->
  match way_of i e with
  | AsIs => exists x, e = EId x /\ pre = [] /\ r = EId x /\
      ((x <> B "nil" /\ mem x seen = false /\ sn = [(shown x, x)] /\ seen' = x :: seen) \/
       ((x = B "nil" \/ mem x seen = true) /\ sn = [] /\ seen' = seen))
  | Written =>
      let y := ret_name F e i in
      r = EId y /\ sn = [(shown y, y)] /\ seen' = y :: seen /\
      (pre = [STemp k y (Some i) e] \/
       pre = [STemp k (tmp_name i) (Some i) e; STemp k y (Some i) (EId (tmp_name i))])
  | Inferred =>
      let y := ret_name F e i in
      r = EId y /\ sn = [(shown y, y)] /\ seen' = y :: seen /\
      pre = [STemp k (tmp_name i) None e; STemp k y None (EId (tmp_name i))]
  end.
Proof.
  intros H. unfold one_result in H. unfold way_of.
  destruct e as [x|o|c o|o].
  - destruct (i_need I i (EId x)) eqn:N.
    + injection H as <- <- <- <-. unfold make_temp.
      destruct (beq x (B "nil")); [repeat split; auto|].
      destruct (shadow F I i (EId x)); repeat split; auto.
    + exists x. destruct (mem x seen) eqn:M, (beq x (B "nil")) eqn:Nl; cbn [negb andb] in H;
        injection H as <- <- <- <-; repeat split; auto.
      * right. repeat split; auto. left. apply beq_true. exact Nl.
      * left. repeat split; auto. intros ->. discriminate Nl.
  - destruct (i_need I i (ELit o)) eqn:N; cbn [andb]; injection H as <- <- <- <-; unfold make_temp.
    + destruct (shadow F I i (ELit o)); repeat split; auto.
    + repeat split; auto.
  - injection H as <- <- <- <-. unfold make_temp. destruct (shadow F I i (ECall c o)); repeat split; auto.
  - injection H as <- <- <- <-. unfold make_temp. destruct (shadow F I i (EOther o)); repeat split; auto.
Qed.

Lemma ety_kept i ov x t s e : kept i e -> ~ below i x -> synth x -> ety (over ((x, t) :: ov) s) e = ety (G := G) (over ov s) e.
Proof.
  intros (y & -> & H) Hx Hs. cbn. rewrite (proj2 (beq_false y x)); auto.
  intros ->. destruct H; auto.
Qed.

Lemma rets_ext i ov x t s r : (forall e, In e r -> kept i e) -> ~ below i x -> synth x ->
  rets_ok (over ov s) r -> rets_ok (over ((x, t) :: ov) s) r.
Proof.
  intros Hk Hx Hs H j e Hj. destruct (H j e Hj) as (v & E & A). exists v. split; auto.
  rewrite (ety_kept i); auto. apply Hk. eapply nth_error_In; eauto.
Qed.

Lemma sends_ext ov x t s sn : sends_ok (over ov s) sn -> sends_ok (over ((x, t) :: ov) s) sn.
Proof. intros H n y Hy. apply (sendable_over [(x, t)]). eapply H; eauto. Qed.

Lemma kept_mono i e : kept i e -> kept (S i) e.
Proof. intros (x & -> & [H|H]); exists x; split; auto. left. apply below_mono. exact H. Qed.

Lemma send_ok_of ov s sn : synths ov -> (forall n, In n client_names -> s n = Some EClient) ->
  sends_ok (over ov s) sn -> send_ok (over ov s) sn.
Proof.
  intros Ho Hc H. split.
  - intros n Hn. rewrite over_client; auto.
  - intros n x Hx. destruct (H n x Hx) as (v & t & E & A). eauto.
Qed.

(** Enough for the statements of the results from the i-th on. *)
Lemma results_ok k p s : (forall n, In n client_names -> s n = Some EClient) -> g_scope G k = s ->
  forall es i seen ov s0 r0 pre rs sn,
  results F I k i es seen = (pre, rs, sn) ->
  (forall x, In x (map fst ov) -> below i x) ->
  length r0 = i -> (i + length es = nresults F)%nat -> (0 < nresults F)%nat ->
  (forall e, In e r0 -> kept i e) ->
  (forall j e, nth_error es j = Some e -> result_ok s (i + j) e /\ fresh (i + j) e /\
     exists v, ety s e = Some v /\ g_asg G v (g_res G (i + j)) = true) ->
  sends_ok (over ov s) s0 -> rets_ok (over ov s) r0 ->
  oks F ov (map fst ov) (pre ++ [SSend k p (s0 ++ sn); SReturn k (r0 ++ rs)]).
Proof.
  intros Hc Hs es. induction es as [|e es IH]; intros i seen ov s0 r0 pre rs sn H Hov Hl Hn Hpos Hk He Hs0 Hr0.
  - cbn in H. injection H as <- <- <-. rewrite !app_nil_r. cbn [app].
    assert (So : synths ov) by (intros x Hx; eapply below_synth; eauto).
    cbn. rewrite Hs. split; [apply send_ok_of; auto|]. split; [|exact Logic.I].
    unfold ret_ok. destruct r0 as [|a r0]; [cbn in Hl, Hn; lia|]. left. split; [cbn in *; lia|exact Hr0].
  - cbn in H. destruct (one_result F I k i e seen) as [[[pre1 r1] sn1] seen1] eqn:E1.
    destruct (results F I k (S i) es seen1) as [[pre2 rs2] sn2] eqn:E2. injection H as <- <- <-.
    assert (So : synths ov) by (intros x Hx; eapply below_synth; eauto).
    destruct (He 0%nat e eq_refl) as (R & Fr & v0 & Ev0 & Av0). rewrite Nat.add_0_r in *.
    assert (He' : forall j e', nth_error es j = Some e' -> result_ok s (S i + j) e' /\ fresh (S i + j) e' /\
        exists v, ety s e' = Some v /\ g_asg G v (g_res G (S i + j)) = true).
    { intros j e' Hj. specialize (He (S j) e' Hj). rewrite Nat.add_succ_r in He. exact He. }
    pose proof (one_result_shape _ _ _ _ _ _ _ _ E1) as Sh. unfold result_ok in R.
    replace (r0 ++ r1 :: rs2) with ((r0 ++ [r1]) ++ rs2) by (rewrite <- app_assoc; reflexivity).
    rewrite (app_assoc s0 sn1 sn2).
    assert (Nl : length (r0 ++ [r1]) = S i) by (rewrite app_length; cbn; lia).
    assert (Nn : (S i + length es = nresults F)%nat) by (cbn in Hn; lia).
    destruct (way_of i e) eqn:W.
    + destruct Sh as (x & -> & -> & -> & Sh). cbn [app].
      assert (Nx : ~ synth x) by (apply Fr; left; left; reflexivity).
      apply (IH (S i) seen1 ov (s0 ++ sn1) (r0 ++ [EId x]) pre2 rs2 sn2); auto.
      * intros y Hy. apply below_mono; auto.
      * intros e [A|[<-|[]]]%in_app_or; [apply kept_mono; auto|]. exists x. auto.
      * intros n y [A|A]%in_app_or; [eapply Hs0; eauto|].
        destruct Sh as [(N & _ & -> & _)|(_ & -> & _)]; [|destruct A].
        destruct A as [A|[]]. injection A as <- <-. apply sendable_over. apply R; auto.
      * intros j e [A|[-> ->]]%nth_error_snoc; [eapply Hr0; eauto|].
        exists v0. rewrite (ety_over _ _ i) by auto. rewrite Hl. auto.
    + cbv zeta in Sh. destruct R as (v & t & Ev & Mt & A1 & A2).
      destruct Sh as (-> & -> & -> & Sh).
      assert (Fin : forall ov', synths ov' -> (forall x, In x (map fst ov') -> below (S i) x) ->
        over ov' s (ret_name F e i) = Some (EVal (Typed t)) ->
        sends_ok (over ov' s) s0 -> rets_ok (over ov' s) r0 ->
        oks F ov' (map fst ov') (pre2 ++ [SSend k p ((s0 ++ [(shown (ret_name F e i), ret_name F e i)]) ++ sn2);
                                SReturn k ((r0 ++ [EId (ret_name F e i)]) ++ rs2)])).
      { intros ov' So' Hb Eo Hs' Hr'.
        apply (IH (S i) (ret_name F e i :: seen) ov' _ (r0 ++ [EId (ret_name F e i)]) pre2 rs2 sn2); auto.
        - intros e' [B|[<-|[]]]%in_app_or; [apply kept_mono; auto|]. eexists. split; [reflexivity|]. left. apply below_S_ret.
        - intros n y [B|[B|[]]]%in_app_or; [eapply Hs'; eauto|]. injection B as <- <-.
          exists (Typed t), t. auto.
        - intros j e' [B|[-> ->]]%nth_error_snoc; [eapply Hr'; eauto|].
          exists (Typed t). cbn. rewrite Eo. rewrite Hl. auto. }
      assert (Bl : forall x, ~ below i x -> In x (map fst ov) -> False) by (intros x Hx Hi; apply Hx; auto).
      assert (Ur : In (ret_name F e i) (flat_map uses (pre2 ++ [SSend k p ((s0 ++ [(shown (ret_name F e i), ret_name F e i)]) ++ sn2);
                                SReturn k ((r0 ++ [EId (ret_name F e i)]) ++ rs2)]))).
      { apply flat_uses_ret. apply in_or_app. left. apply in_or_app. right. left. reflexivity. }
      destruct Sh as [-> | ->]; cbn [app oks].
      * split; [intros B; apply (Bl _ (below_ret e i) B)|]. split; [exact Ur|].
        exists v, t. rewrite Hs. rewrite (ety_over _ _ i), (mean_over _ _ i e) by auto.
        split; [exact Ev|]. split; [auto|].
        apply (Fin ((ret_name F e i, t) :: ov)).
        -- apply synths_cons; auto. apply synth_ret.
        -- intros x [<-|Hx]; [apply below_S_ret|apply below_mono; auto].
        -- cbn. rewrite (proj2 (beq_true _ _) eq_refl). reflexivity.
        -- apply sends_ext; auto.
        -- apply (rets_ext i); auto; [apply below_ret|apply synth_ret].
      * split; [intros B; apply (Bl _ (below_tmp i) B)|].
        split; [left; reflexivity|].
        exists v, t. rewrite Hs. rewrite (ety_over _ _ i), (mean_over _ _ i e) by auto.
        split; [exact Ev|]. split; [auto|].
        split. { intros [B|B]; [symmetry in B; exact (ret_tmp _ _ _ _ _ B)|apply (Bl _ (below_ret e i) B)]. }
        split; [exact Ur|].
        exists (Typed t), t.
        assert (So1 : synths ((tmp_name i, t) :: ov)) by (apply synths_cons; auto; apply synth_tmp).
        rewrite (mean_over _ _ i e) by auto.
        split. { cbn. rewrite (proj2 (beq_true _ _) eq_refl). reflexivity. }
        split. { split; [exact Mt|]. apply L. }
        apply (Fin ((ret_name F e i, t) :: (tmp_name i, t) :: ov)).
        -- apply synths_cons; auto. apply synth_ret.
        -- intros x [<-|[<-|Hx]]; [apply below_S_ret|apply below_S_tmp|apply below_mono; auto].
        -- cbn. rewrite (proj2 (beq_true _ _) eq_refl). reflexivity.
        -- apply sends_ext, sends_ext; auto.
        -- apply (rets_ext i); auto; [apply below_ret|apply synth_ret|].
           apply (rets_ext i); auto; [apply below_tmp|apply synth_tmp].
    + cbv zeta in Sh. destruct R as (v & t & Ev & Mt & A2).
      destruct Sh as (-> & -> & -> & ->). cbn [app oks].
      assert (Bl : forall x, ~ below i x -> In x (map fst ov) -> False) by (intros x Hx Hi; apply Hx; auto).
      split; [intros B; apply (Bl _ (below_tmp i) B)|].
      split; [left; reflexivity|].
      exists v, t. rewrite Hs. rewrite (ety_over _ _ i) by auto.
      split; [exact Ev|]. split; [auto|].
      split. { intros [B|B]; [symmetry in B; exact (ret_tmp _ _ _ _ _ B)|apply (Bl _ (below_ret e i) B)]. }
      split. { apply flat_uses_ret. apply in_or_app. left. apply in_or_app. right. left. reflexivity. }
      exists (Typed t), t.
      split. { cbn. rewrite (proj2 (beq_true _ _) eq_refl). reflexivity. }
      split; [reflexivity|].
      apply (IH (S i) (ret_name F e i :: seen) ((ret_name F e i, t) :: (tmp_name i, t) :: ov) _ (r0 ++ [EId (ret_name F e i)]) pre2 rs2 sn2); auto.
      * intros x [<-|[<-|Hx]]; [apply below_S_ret|apply below_S_tmp|apply below_mono; auto].
      * intros e' [B|[<-|[]]]%in_app_or; [apply kept_mono; auto|]. eexists. split; [reflexivity|]. left. apply below_S_ret.
      * intros n y [B|[B|[]]]%in_app_or.
        -- exact (sends_ext _ _ _ _ s0 (sends_ext _ _ _ _ s0 Hs0) n y B).
        -- injection B as <- <-. exists (Typed t), t. cbn. rewrite (proj2 (beq_true _ _) eq_refl). auto.
      * intros j e' [B|[-> ->]]%nth_error_snoc.
        -- assert (X : rets_ok (over ((ret_name F e i, t) :: (tmp_name i, t) :: ov) s) r0).
           { apply (rets_ext i); auto; [apply below_ret|apply synth_ret|].
             apply (rets_ext i); auto; [apply below_tmp|apply synth_tmp]. }
           eapply X; eauto.
        -- exists (Typed t). cbn. rewrite (proj2 (beq_true _ _) eq_refl). rewrite Hl. auto.
Qed.

Definition rets_fit (s : scope T K) (r : list (expr Op)) : Prop :=
  forall j e v, nth_error r j = Some e -> ety s e = Some v -> g_asg G v (g_res G j) = true.

Lemma rets_back i ov x t s r : (forall e, In e r -> kept i e) -> ~ below i x -> synth x ->
  rets_fit (over ((x, t) :: ov) s) r -> rets_fit (over ov s) r.
Proof.
  intros Hk Hx Hs H j e v Hj Ev. apply (H j e); auto. rewrite (ety_kept i); auto.
  apply Hk. eapply nth_error_In; eauto.
Qed.

Lemma sendable_back ov s x : synths ov -> ~ synth x -> sendable (over ov s) x -> sendable s x.
Proof. intros Ho Hx (v & t & E & A). rewrite over_out in E by (intros B; auto). exists v, t. auto. Qed.

Lemma mem_in x l : mem x l = true -> In x l.
Proof. unfold mem. intros (y & Hy & E)%existsb_exists. apply beq_true in E. subst. exact Hy. Qed.

(** Nothing less is enough. *)
Lemma results_needed k p s : g_scope G k = s ->
  forall es i seen ov blk s0 r0 pre rs sn,
  results F I k i es seen = (pre, rs, sn) ->
  synths ov -> length r0 = i ->
  (forall e, In e r0 -> kept i e) ->
  (forall j e, nth_error es j = Some e -> fresh (i + j) e) ->
  (forall y, mem y seen = true -> ~ synth y -> In y (map snd s0)) ->
  oks F ov blk (pre ++ [SSend k p (s0 ++ sn); SReturn k (r0 ++ rs)]) -> r0 ++ rs <> [] ->
  (forall n x, In (n, x) s0 -> ~ synth x -> sendable s x) /\ rets_fit (over ov s) r0 /\
  (forall j e, nth_error es j = Some e -> result_ok s (i + j) e) /\
  (forall n, In n client_names -> s n = Some EClient).
Proof.
  intros Hs es. induction es as [|e es IH]; intros i seen ov blk s0 r0 pre rs sn H So Hl Hk He Hsn O Ne.
  - cbn in H. injection H as <- <- <-. rewrite !app_nil_r in *. cbn in O. rewrite Hs in O.
    destruct O as ((Oc & Os) & Or & _). repeat split.
    + intros n x Hx Nx. apply (sendable_back ov); auto. destruct (Os n x Hx) as (v & t & A). exists v, t. exact A.
    + intros j e v Hj Ev. unfold ret_ok in Or. destruct r0 as [|a r0]; [destruct j; discriminate Hj|].
      destruct Or as [[_ Or]|(c & o & ts & E & _)].
      * destruct (Or j e Hj) as (v' & Ev' & A). congruence.
      * destruct (Hk a (or_introl eq_refl)) as (x & -> & _). discriminate E.
    + intros [|j] e Hj; discriminate Hj.
    + intros n Hn. rewrite <- (over_client ov) by auto. auto.
  - cbn in H. destruct (one_result F I k i e seen) as [[[pre1 r1] sn1] seen1] eqn:E1.
    destruct (results F I k (S i) es seen1) as [[pre2 rs2] sn2] eqn:E2. injection H as <- <- <-.
    pose proof (He 0%nat e eq_refl) as Fr. rewrite Nat.add_0_r in Fr.
    assert (He' : forall j e', nth_error es j = Some e' -> fresh (S i + j) e').
    { intros j e' Hj. specialize (He (S j) e' Hj). rewrite Nat.add_succ_r in He. exact He. }
    pose proof (one_result_shape _ _ _ _ _ _ _ _ E1) as Sh.
    replace (r0 ++ r1 :: rs2) with ((r0 ++ [r1]) ++ rs2) in O by (rewrite <- app_assoc; reflexivity).
    rewrite (app_assoc s0 sn1 sn2) in O.
    assert (Nl : length (r0 ++ [r1]) = S i) by (rewrite app_length; cbn; lia).
    assert (Ne' : (r0 ++ [r1]) ++ rs2 <> []) by (destruct r0; discriminate).
    assert (Fin : forall ov' blk', synths ov' -> kept (S i) r1 ->
       (forall y, mem y seen1 = true -> ~ synth y -> In y (map snd (s0 ++ sn1))) ->
       oks F ov' blk' (pre2 ++ [SSend k p ((s0 ++ sn1) ++ sn2); SReturn k ((r0 ++ [r1]) ++ rs2)]) ->
       (forall n x, In (n, x) (s0 ++ sn1) -> ~ synth x -> sendable s x) /\ rets_fit (over ov' s) (r0 ++ [r1]) /\
       (forall j e, nth_error es j = Some e -> result_ok s (S i + j) e) /\
       (forall n, In n client_names -> s n = Some EClient)).
    { intros ov' blk' So' Kr Hse O'. apply (IH (S i) seen1 ov' blk' _ _ pre2 rs2 sn2); auto.
      intros e' [B|[<-|[]]]%in_app_or; [apply kept_mono; auto|exact Kr]. }
    assert (Done : forall ov' , (forall n x, In (n, x) (s0 ++ sn1) -> ~ synth x -> sendable s x) /\ rets_fit (over ov' s) (r0 ++ [r1]) /\
       (forall j e, nth_error es j = Some e -> result_ok s (S i + j) e) /\
       (forall n, In n client_names -> s n = Some EClient) ->
       (rets_fit (over ov' s) r0 -> rets_fit (over ov s) r0) -> result_ok s i e ->
       (forall n x, In (n, x) s0 -> ~ synth x -> sendable s x) /\ rets_fit (over ov s) r0 /\
       (forall j e', nth_error (e :: es) j = Some e' -> result_ok s (i + j) e') /\
       (forall n, In n client_names -> s n = Some EClient)).
    { intros ov' (D1 & D2 & D3 & D4) Bk R. repeat split; auto.
      - intros n x Hx. apply (D1 n). apply in_or_app. auto.
      - apply Bk. intros j e' v Hj Ev. apply (D2 j e'); auto. rewrite nth_error_app1; auto. apply nth_error_Some. congruence.
      - intros [|j] e' Hj; [injection Hj as <-; rewrite Nat.add_0_r; exact R|]. rewrite Nat.add_succ_r. apply D3. exact Hj. }
    assert (Last : nth_error (r0 ++ [r1]) i = Some r1) by (rewrite nth_error_app2, Hl, Nat.sub_diag by lia; reflexivity).
    unfold result_ok in Done. destruct (way_of i e) eqn:W.
    + destruct Sh as (x & -> & -> & -> & Sh). cbn [app] in O.
      assert (Nx : ~ synth x) by (apply Fr; left; left; reflexivity).
      assert (D : forall n y, In (n, y) (s0 ++ sn1) -> ~ synth y -> sendable s y) .
      { eapply Fin; eauto; [exists x; auto|]. intros y Hy Ny. rewrite map_app. apply in_or_app.
        destruct Sh as [(_ & _ & -> & ->)|(_ & _ & ->)]; [|left; auto].
        cbn in Hy. destruct (beq y x) eqn:E; [apply beq_true in E; subst; right; left; reflexivity|left; auto]. }
      apply (Done ov); auto.
      * apply (Fin ov blk); auto; [exists x; auto|]. intros y Hy Ny. rewrite map_app. apply in_or_app.
        destruct Sh as [(_ & _ & -> & ->)|(_ & _ & ->)]; [|left; auto].
        cbn in Hy. destruct (beq y x) eqn:E; [apply beq_true in E; subst; right; left; reflexivity|left; auto].
      * intros y Hy Hn. injection Hy as <-.
        destruct Sh as [(_ & _ & -> & _)|([->|M] & _ & _)].
        -- apply (D (shown x)); auto. apply in_or_app. right. left. reflexivity.
        -- contradiction.
        -- pose proof (Hsn x M Nx) as A. apply in_map_iff in A. destruct A as ((n & x') & <- & A).
           apply (D n); auto. apply in_or_app. auto.
    + cbv zeta in Sh. destruct Sh as (-> & -> & -> & Sh).
      assert (Kr : kept (S i) (EId (ret_name F e i))) by (eexists; split; [reflexivity|left; apply below_S_ret]).
      assert (Hse : forall y, mem y (ret_name F e i :: seen) = true -> ~ synth y ->
        In y (map snd (s0 ++ [(shown (ret_name F e i), ret_name F e i)]))).
      { intros y Hy Ny. rewrite map_app. apply in_or_app. cbn in Hy.
        destruct (beq y (ret_name F e i)) eqn:E; [apply beq_true in E; subst; right; left; reflexivity|left; auto]. }
      destruct Sh as [-> | ->]; cbn [app oks] in O.
      * destruct O as (_ & _ & v & t & Ev & (Mt & A) & O). rewrite Hs in Ev, Mt.
        rewrite (ety_over _ _ i) in Ev by auto. rewrite (mean_over _ _ i e) in Mt by auto.
        assert (So1 : synths ((ret_name F e i, t) :: ov)) by (apply synths_cons; auto; apply synth_ret).
        pose proof (Fin _ _ So1 Kr Hse O) as D. apply (Done _ D).
        -- apply (rets_back i); auto; [apply below_ret|apply synth_ret].
        -- exists v, t. repeat split; auto. destruct D as (_ & D & _). apply (D i _ _ Last).
           cbn. rewrite (proj2 (beq_true _ _) eq_refl). reflexivity.
      * destruct O as (_ & _ & v & t & Ev & (Mt & A) & _ & _ & v2 & t2 & Ev2 & (Mt2 & A3) & O). rewrite Hs in Ev, Mt, Mt2.
        assert (So0 : synths ((tmp_name i, t) :: ov)) by (apply synths_cons; auto; apply synth_tmp).
        rewrite (ety_over _ _ i) in Ev by auto. rewrite (mean_over _ _ i e) in Mt by auto.
        rewrite (mean_over _ _ i e) in Mt2 by auto. rewrite Mt in Mt2. injection Mt2 as <-.
        assert (So1 : synths ((ret_name F e i, t) :: (tmp_name i, t) :: ov)) by (apply synths_cons; auto; apply synth_ret).
        pose proof (Fin _ _ So1 Kr Hse O) as D. apply (Done _ D).
        -- intros X. apply (rets_back i _ (tmp_name i) t); auto; [apply below_tmp|apply synth_tmp|].
           apply (rets_back i _ (ret_name F e i) t); auto; [apply below_ret|apply synth_ret].
        -- exists v, t. repeat split; auto. destruct D as (_ & D & _). apply (D i _ _ Last).
           cbn. rewrite (proj2 (beq_true _ _) eq_refl). reflexivity.
    + cbv zeta in Sh. destruct Sh as (-> & -> & -> & ->).
      assert (Kr : kept (S i) (EId (ret_name F e i))) by (eexists; split; [reflexivity|left; apply below_S_ret]).
      assert (Hse : forall y, mem y (ret_name F e i :: seen) = true -> ~ synth y ->
        In y (map snd (s0 ++ [(shown (ret_name F e i), ret_name F e i)]))).
      { intros y Hy Ny. rewrite map_app. apply in_or_app. cbn in Hy.
        destruct (beq y (ret_name F e i)) eqn:E; [apply beq_true in E; subst; right; left; reflexivity|left; auto]. }
      cbn [app oks] in O.
      destruct O as (_ & _ & v & t & Ev & A & _ & _ & v2 & t2 & Ev2 & A3 & O). rewrite Hs in Ev.
      rewrite (ety_over _ _ i) in Ev by auto.
      cbn in Ev2. rewrite (proj2 (beq_true _ _) eq_refl) in Ev2. injection Ev2 as <-. cbn in A3. injection A3 as <-.
      assert (So0 : synths ((tmp_name i, t) :: ov)) by (apply synths_cons; auto; apply synth_tmp).
      assert (So1 : synths ((ret_name F e i, t) :: (tmp_name i, t) :: ov)) by (apply synths_cons; auto; apply synth_ret).
      pose proof (Fin _ _ So1 Kr Hse O) as D. apply (Done _ D).
      * intros X. apply (rets_back i _ (tmp_name i) t); auto; [apply below_tmp|apply synth_tmp|].
        apply (rets_back i _ (ret_name F e i) t); auto; [apply below_ret|apply synth_ret].
      * exists v, t. repeat split; auto. destruct D as (_ & D & _). apply (D i _ _ Last).
        cbn. rewrite (proj2 (beq_true _ _) eq_refl). reflexivity.
Qed.

(** ** One return *)

Lemma snap_decls_in ds : forall seen n x, In (n, x) (fst (snap_decls ds seen)) -> In x ds /\ x <> B "nil".
Proof.
  induction ds as [|d ds IH]; intros seen n x H; [destruct H|]. cbn [snap_decls] in H.
  destruct (beq d (B "nil")) eqn:E; cbn [orb] in H.
  - destruct (IH _ _ _ H). split; [right|]; auto.
  - destruct (mem d seen); [destruct (IH _ _ _ H); split; [right|]; auto|].
    destruct (snap_decls ds (d :: seen)) as [sn' seen'] eqn:E'. cbn in H. destruct H as [H|H].
    + injection H as <- <-. split; [left; reflexivity|]. apply beq_false. exact E.
    + specialize (IH (d :: seen) n x). rewrite E' in IH. destruct (IH H). split; [right|]; auto.
Qed.

Lemma snap_decls_all ds : forall seen x, In x ds -> x <> B "nil" -> mem x seen = true \/
  In x (map snd (fst (snap_decls ds seen))).
Proof.
  induction ds as [|d ds IH]; intros seen x H N; [destruct H|]. cbn [snap_decls].
  destruct (beq d (B "nil")) eqn:E; cbn [orb].
  - destruct H as [->|H]; auto. apply beq_true in E. contradiction.
  - destruct (mem d seen) eqn:M.
    + destruct H as [->|H]; auto.
    + pose proof (IH (d :: seen) x) as A. destruct (snap_decls ds (d :: seen)) as [sn' seen'] eqn:E'. cbn in *.
      destruct H as [->|H]; [right; left; reflexivity|].
      destruct (A H N) as [B|B]; [|right; right; exact B].
      destruct (beq x d) eqn:X; [apply beq_true in X; subst; right; left; reflexivity|left; exact B].
Qed.

Lemma snap_decls_seen ds : forall seen y, mem y (snd (snap_decls ds seen)) = true ->
  mem y seen = true \/ In y (map snd (fst (snap_decls ds seen))).
Proof.
  induction ds as [|d ds IH]; intros seen y H; auto. cbn [snap_decls] in *.
  destruct (beq d (B "nil") || mem d seen); auto.
  pose proof (IH (d :: seen) y) as A. destruct (snap_decls ds (d :: seen)) as [sn' seen'] eqn:E'. cbn in *.
  destruct (A H) as [C|C]; auto. destruct (beq y d) eqn:X; auto. apply beq_true in X. subst. auto.
Qed.

Lemma bare_names_in ns : forall seen s r b, bare_names (Op := Op) ns seen = (s, r, b) ->
  (forall n x, In (n, x) s -> In x ns /\ x <> B "_") /\
  (b = true <-> In (B "_") ns) /\ (b = false -> r = map EId ns).
Proof.
  induction ns as [|n ns IH]; intros seen s r b H; cbn [bare_names] in H.
  - injection H as <- <- <-. repeat split; try intros; try contradiction; auto; discriminate.
  - destruct (beq n (B "_")) eqn:E.
    + destruct (bare_names ns seen) as [[s1 r1] b1] eqn:E1. injection H as <- <- <-.
      destruct (IH _ _ _ _ E1) as (A & _). apply beq_true in E. repeat split; auto; try discriminate.
      * right. eapply A; eauto.
      * eapply A; eauto.
      * intros _. left. exact E.
    + destruct (mem n seen).
      * destruct (bare_names ns seen) as [[s1 r1] b1] eqn:E1. injection H as <- <- <-.
        destruct (IH _ _ _ _ E1) as (A & C & D). apply beq_false in E. repeat split.
        -- right. eapply A; eauto.
        -- eapply A; eauto.
        -- intros X. right. apply C. exact X.
        -- intros [X|X]; [congruence|apply C; exact X].
        -- intros X. cbn. rewrite D; auto.
      * destruct (bare_names ns (n :: seen)) as [[s1 r1] b1] eqn:E1. injection H as <- <- <-.
        destruct (IH _ _ _ _ E1) as (A & C & D). apply beq_false in E. repeat split.
        -- destruct H as [X|X]; [injection X as <- <-; left; reflexivity|]. right. eapply A; eauto.
        -- destruct H as [X|X]; [injection X as <- <-; exact E|]. eapply A; eauto.
        -- intros X. right. apply C. exact X.
        -- intros [X|X]; [congruence|apply C; exact X].
        -- intros X. cbn. rewrite D; auto.
Qed.

Lemma all_named_spec : all_named F = true <-> f_names F <> [] /\ ~ In [] (f_names F).
Proof.
  unfold all_named, mem. destruct (f_names F) as [|a l]; [split; [discriminate|intros [X _]; congruence]|].
  split.
  - intros H. split; [discriminate|]. intros X. apply negb_true_iff in H.
    enough (existsb (beq []) (a :: l) = true) by congruence.
    apply existsb_exists. exists []. split; [exact X|reflexivity].
  - intros [_ H]. apply negb_true_iff. destruct (existsb (beq []) (a :: l)) eqn:E; auto.
    apply existsb_exists in E. destruct E as (y & Hy & E). apply beq_true in E. subst. contradiction.
Qed.

(** What the block of a return needs. *)
Definition block_fits (s : scope T K) (k : nat) (rs : list (expr Op)) : Prop :=
  (forall n, In n client_names -> s n = Some EClient) /\
  (forall d, In d (i_decls I k) -> d <> B "nil" -> sendable s d) /\
  (length rs = nresults F -> forall i e, nth_error rs i = Some e -> result_ok s i e).

Lemma over_combine xs : forall ts ov s i x, NoDup xs -> length ts = length xs -> nth_error xs i = Some x ->
  exists t, nth_error ts i = Some t /\ over (G := G) (combine xs ts ++ ov) s x = Some (EVal (Typed t)).
Proof.
  induction xs as [|y xs IH]; intros [|t ts] ov s [|i] x N Hl H; try discriminate.
  - injection H as <-. exists t. split; auto. cbn. rewrite (proj2 (beq_true _ _) eq_refl). reflexivity.
  - cbn in *. inversion N; subst. destruct (IH ts ov s i x) as (t' & A & C); auto.
    exists t'. split; auto. rewrite (proj2 (beq_false x y)); auto. intros ->.
    apply H2. eapply nth_error_In; eauto.
Qed.

Lemma spread_nodup : NoDup (spread_names F).
Proof.
  unfold spread_names. apply FinFun.Injective_map_NoDup; [|apply seq_NoDup].
  intros i j H. apply app_inv_head, num_inj in H. exact H.
Qed.
Lemma spread_length : length (spread_names F) = nresults F.
Proof. unfold spread_names. rewrite map_length, seq_length. reflexivity. Qed.
Lemma spread_synth x : In x (spread_names F) -> synth x.
Proof. unfold spread_names. intros (i & <- & _)%in_map_iff. exists i. auto. Qed.

Lemma bare_fits s k p sn : g_scope G k = s ->
  (forall n, In n client_names -> s n = Some EClient) ->
  ~ In [] (f_names F) ->
  (forall i n, nth_error (f_names F) i = Some n -> n <> B "_" -> s n = Some (EVal (Typed (g_res G i)))) ->
  (forall n x, In (n, x) sn -> sendable s x) ->
  forall r, r = [] \/ r = map EId (f_names F) /\ ~ In (B "_") (f_names F) ->
  oks F [] [] [SSend k p sn; SReturn k r] (G := G).
Proof.
  intros Hs Hc Hn Hb Hsn r Hr. cbn. rewrite Hs.
  split. { apply (send_ok_of [] s); auto. intros x []. }
  split; [|exact Logic.I].
  assert (B0 : ret_ok F s (@nil (expr Op))) by (split; auto).
  destruct Hr as [->|[-> Nb]]; [exact B0|].
  destruct (f_names F) as [|a l] eqn:Ef; [exact B0|]. cbn [map ret_ok]. left.
  split. { unfold nresults. rewrite Ef. cbn. rewrite map_length. reflexivity. }
  change (EId (Op := Op) a :: map EId l) with (map (@EId Op) (a :: l)).
  intros i e Hi. rewrite nth_error_map in Hi. destruct (nth_error (a :: l) i) as [n|] eqn:En; [|discriminate].
  injection Hi as <-. exists (Typed (g_res G i)).
  assert (n <> B "_") by (intros ->; apply Nb; eapply nth_error_In; eauto).
  cbn [ety]. rewrite (Hb i n En H). split; auto. apply L.
Qed.

Theorem return_fits s k rs : g_scope G k = s -> ret_ok F s rs ->
  (length rs = nresults F -> forall i e, nth_error rs i = Some e -> fresh i e) ->
  (forall d, In d (i_decls I k) -> ~ synth d) ->
  (oks F [] [] (build_return F I k rs) (G := G) <-> block_fits s k rs).
Proof.
  intros Hs R Hf Hd.
  unfold build_return. destruct (snap_decls (i_decls I k) []) as [snaps seen] eqn:Es.
  assert (S1 : forall n x, In (n, x) snaps -> In x (i_decls I k) /\ x <> B "nil").
  { intros n x. pose proof (snap_decls_in (i_decls I k) [] n x) as A. rewrite Es in A. exact A. }
  assert (S2 : forall x, In x (i_decls I k) -> x <> B "nil" -> In x (map snd snaps)).
  { intros x Hx N. pose proof (snap_decls_all (i_decls I k) [] x Hx N) as A. rewrite Es in A. destruct A as [A|A]; [discriminate|exact A]. }
  assert (S3 : forall y, mem y seen = true -> In y (map snd snaps)).
  { intros y Hy. pose proof (snap_decls_seen (i_decls I k) [] y) as A. rewrite Es in A. destruct (A Hy) as [C|C]; [discriminate|exact C]. }
  assert (D1 : (forall d, In d (i_decls I k) -> d <> B "nil" -> sendable s d) -> forall n x, In (n, x) snaps -> sendable s x).
  { intros H n x Hx. destruct (S1 n x Hx). auto. }
  assert (D2 : (forall n x, In (n, x) snaps -> ~ synth x -> sendable s x) -> forall d, In d (i_decls I k) -> d <> B "nil" -> sendable s d).
  { intros H d Hx N. pose proof (S2 d Hx N) as A. apply in_map_iff in A. destruct A as ((n & x) & <- & A). cbn in *. eapply H; eauto. }
  assert (Res : rs <> [] -> length rs = nresults F ->
    (oks F [] [] (let '(pre, r, s) := results F I k 0 rs seen in pre ++ [SSend k (i_pid I k) (snaps ++ s); SReturn k r]) (G := G) <-> block_fits s k rs)).
  { intros Ne Hl. destruct (results F I k 0 rs seen) as [[pre r] sn] eqn:Er.
    assert (R' : forall i e, nth_error rs i = Some e -> exists v, ety s e = Some v /\ g_asg G v (g_res G i) = true).
    { unfold ret_ok in R. destruct rs as [|a rs']; [congruence|].
      destruct R as [[_ R]|(c & o & ts & E & H2 & _)]; auto.
      rewrite E in Hl. cbn in Hl. lia. }
    assert (Len : length r = length rs).
    { clear - Er. revert Er. generalize 0%nat as i. revert seen pre r sn.
      induction rs as [|e rs IH]; intros seen pre r sn i H; cbn in H; [injection H as <- <- <-; reflexivity|].
      destruct (one_result F I k i e seen) as [[[pre1 r1] sn1] seen1].
      destruct (results F I k (S i) rs seen1) as [[pre2 r2] sn2] eqn:E. injection H as <- <- <-. cbn. f_equal. eapply IH; eauto. }
    split.
    - intros O.
      destruct (results_needed k (i_pid I k) s Hs rs 0 seen [] [] snaps [] pre r sn) as (N1 & _ & N3 & N4); auto.
      + intros x [].
      + intros e [].
      + cbn. destruct r; [destruct rs; [congruence|discriminate Len]|discriminate].
      + split; auto.
    - intros (C1 & C2 & C3).
      apply (results_ok k (i_pid I k) s C1 Hs rs 0 seen [] snaps [] pre r sn); auto.
      + intros x [].
      + destruct rs; [congruence|]. rewrite <- Hl. cbn. lia.
      + intros e [].
      + exact (D1 C2).
      + intros [|j] e Hj; discriminate. }
  destruct rs as [|a rs'].
  - unfold ret_ok in R. destruct R as [R1 R2].
    assert (Z : block_fits s k [] <-> (forall n, In n client_names -> s n = Some EClient) /\
       (forall d, In d (i_decls I k) -> d <> B "nil" -> sendable s d)).
    { split; [intros (A & C & _); auto|]. intros [A C]. split; [auto|split; auto]. intros _ [|i] e He; discriminate. }
    rewrite Z. clear Z.
    assert (Back : forall sn r, (forall n x, In (n, x) snaps -> In (n, x) sn) ->
       oks F [] [] [SSend k (i_pid I k) sn; SReturn k r] (G := G) -> (forall n, In n client_names -> s n = Some EClient) /\
       (forall d, In d (i_decls I k) -> d <> B "nil" -> sendable s d)).
    { intros sn r Hin ((O1 & O2) & _). rewrite Hs in O1, O2. split; [exact O1|].
      intros d Hx N. pose proof (S2 d Hx N) as A. apply in_map_iff in A. destruct A as ((n & x) & <- & A).
      destruct (O2 n x (Hin _ _ A)) as (v & t & E). exists v, t. exact E. }
    destruct (all_named F) eqn:An.
    + destruct (bare_names (f_names F) seen) as [[s1 r1] b1] eqn:Eb.
      destruct (bare_names_in _ _ _ _ _ Eb) as (A1 & A2 & A3).
      split.
      * apply Back. intros n x Hx. apply in_or_app. auto.
      * intros [C1 C2]. apply (bare_fits s); auto.
        -- intros n x [Hx|Hx]%in_app_or; [eauto|]. destruct (A1 _ _ Hx) as [A N].
           apply In_nth_error in A. destruct A as (i & A). exists (Typed (g_res G i)), (g_res G i). split; [|reflexivity]. eauto.
        -- destruct b1; [left; reflexivity|right]. split; [apply A3; reflexivity|]. intros X. apply A2 in X. discriminate.
    + split.
      * apply Back. auto.
      * intros [C1 C2]. apply (bare_fits s); auto. eauto.
  - assert (NE : a :: rs' <> []) by discriminate.
    destruct a as [x|o|c o|o]; try (apply Res; auto; unfold ret_ok in R; destruct R as [[R _]|(c' & o' & ts & E & _)]; [exact R|discriminate E]).
    destruct rs' as [|b rs''].
    2: { apply Res; auto. unfold ret_ok in R. destruct R as [[R _]|(c' & o' & ts & E & _)]; [exact R|discriminate E]. }
    fold (nresults F). destruct (Nat.ltb_spec 1 (nresults F)) as [Lt|Ge].
    2: { apply Res; auto. unfold ret_ok in R. destruct R as [[R _]|(c' & o' & ts & E & H2 & _)]; [exact R|lia]. }
    unfold ret_ok in R. destruct R as [[R _]|(c' & o' & ts & E & H2 & Eo & Lts & Ats)]; [cbn in R; lia|].
    injection E as <- <-.
    assert (Use : forall x sn, In x (spread_names F) -> In x (flat_map uses [SSend k (i_pid I k) (sn ++ map (fun x0 => (shown x0, x0)) (spread_names F)); SReturn (Op := Op) k (map EId (spread_names F))])).
    { intros x sn Hx. cbn. rewrite map_app, map_map. apply in_or_app. left. apply in_or_app. right. cbn. rewrite map_id. exact Hx. }
    assert (Sov : synths (combine (spread_names F) ts ++ [])).
    { intros x Hx. rewrite app_nil_r in Hx. apply in_map_iff in Hx. destruct Hx as ((y & t) & <- & Hx). apply in_combine_l in Hx. apply spread_synth. exact Hx. }
    split.
    + intros (_ & _ & _ & ts' & Ets & Lt' & ((O1 & O2) & _)). rewrite Hs in *.
      cbn in Ets. assert (ts' = ts) by congruence. subst ts'.
      split; [|split].
      * intros n Hn. rewrite <- (over_client (combine (spread_names F) ts ++ [])); auto.
      * intros d Hx N. pose proof (S2 d Hx N) as A. apply in_map_iff in A. destruct A as ((n & x) & <- & A).
        apply (sendable_back (combine (spread_names F) ts ++ [])); auto. 
        destruct (O2 n x) as (v & t & E1); [apply in_or_app; auto|]. exists v, t. exact E1.
      * cbn. intros X. lia.
    + intros (C1 & C2 & _). cbn [oks].
      split; [apply spread_nodup|]. split; [intros x _ []|]. split; [intros x Hx; apply Use; exact Hx|].
      exists ts. rewrite Hs. cbn [over ety]. split; [exact Eo|]. split; [rewrite spread_length; exact Lts|].
      cbn [ok oks]. rewrite Hs. split; [|split; [|exact Logic.I]].
      * apply send_ok_of; auto. intros n x [Hx|Hx]%in_app_or.
        -- apply sendable_over. eauto.
        -- apply in_map_iff in Hx. destruct Hx as (y & Ey & Hy). injection Ey as <- <-.
           apply In_nth_error in Hy. destruct Hy as (i & Hi).
           destruct (over_combine (spread_names F) ts [] s i y spread_nodup) as (t & _ & E1); auto.
           { rewrite spread_length. exact Lts. }
           exists (Typed t), t. auto.
      * unfold ret_ok. destruct (map EId (spread_names F)) as [|e0 l0] eqn:Em.
        { apply (f_equal (@length _)) in Em. rewrite map_length, spread_length in Em. cbn in Em. lia. }
        rewrite <- Em. left. split; [rewrite map_length; apply spread_length|].
        intros i e Hi. rewrite nth_error_map in Hi. destruct (nth_error (spread_names F) i) as [y|] eqn:Ey; [|discriminate].
        injection Hi as <-.
        destruct (over_combine (spread_names F) ts [] s i y spread_nodup) as (t & E0 & E1); auto.
        { rewrite spread_length. exact Lts. }
        exists (Typed t). unfold ety. rewrite E1. split; auto.
Qed.

(** ** A whole body *)

Definition is_temp (s : stmt Op) : bool := match s with STemp _ _ _ _ | STemps _ _ _ => true | _ => false end.

Lemma oks_forall ov b : forall blk, forallb (fun s => negb (is_temp s)) b = true ->
  (oks F ov blk b (G := G) <-> Forall (ok F ov) b).
Proof.
  induction b as [|s b IH]; intros blk H; cbn [forallb] in H; [split; [constructor|exact (fun _ => Logic.I)]|].
  apply andb_true_iff in H. destruct H as [H1 H2].
  assert (E : oks F ov blk (s :: b) (G := G) <-> ok F ov s (G := G) /\ oks F ov blk b (G := G)).
  { destruct s; try discriminate H1; reflexivity. }
  rewrite E, (IH blk H2). split; [intros [A C]; constructor; auto|intros A; inversion A; auto].
Qed.

Lemma plain_temp b : forallb plain b = true -> forallb (fun s => negb (is_temp s)) b = true.
Proof.
  rewrite !forallb_forall. intros H s Hs. specialize (H s Hs). destruct s; try reflexivity; discriminate.
Qed.

Lemma rw_temp b : forallb plain b = true -> forallb (fun s => negb (is_temp s)) (map (rw F I) b) = true.
Proof.
  intros H. rewrite forallb_forall. intros s (s0 & <- & Hs)%in_map_iff.
  rewrite forallb_forall in H. specialize (H s0 Hs). destruct s0; try reflexivity; discriminate.
Qed.

Fixpoint visits (s : stmt Op) : list (nat * list (expr Op)) :=
  match s with
  | SReturn k rs => [(k, rs)]
  | SBlock b => flat_map visits b
  | SIf c b els =>
    flat_map visits b ++
      match els with
      | Some (SBlock b') => flat_map visits b'
      | Some (SIf c' b' e') => flat_map visits b'
      | _ => []
      end
  | SLoop c b p => flat_map visits b
  | SSwitch c cls => flat_map (flat_map visits) cls
  | _ => []
  end.

Section Ind.
Variable P : stmt Op -> Prop.
Hypothesis H1 : forall b, Forall P b -> P (SBlock b).
Hypothesis H2 : forall c b, Forall P b -> P (SIf c b None).
Hypothesis H3 : forall c b e, Forall P b -> P e ->
  match e with SBlock b' | SIf _ b' _ => Forall P b' | _ => True end -> P (SIf c b (Some e)).
Hypothesis H4 : forall c b p, Forall P b -> P (SLoop c b p).
Hypothesis H5 : forall c cls, Forall (Forall P) cls -> P (SSwitch c cls).
Hypothesis H6 : forall c cls, Forall (Forall P) cls -> P (SSelect c cls).
Hypothesis H7 : forall l s, P s -> P (SLabeled l s).
Hypothesis H8 : forall s, match s with SBlock _ | SIf _ _ _ | SLoop _ _ _ | SSwitch _ _ | SSelect _ _ | SLabeled _ _ => False | _ => True end -> P s.

Fixpoint stmt_ind2 (s : stmt Op) : P s.
Proof.
  pose (fl := fix fl (b : list (stmt Op)) : Forall P b :=
    match b with [] => Forall_nil _ | s :: b' => Forall_cons s (stmt_ind2 s) (fl b') end).
  pose (fll := fix fll (l : list (list (stmt Op))) : Forall (Forall P) l :=
    match l with [] => Forall_nil _ | b :: l' => Forall_cons b (fl b) (fll l') end).
  destruct s as [o|b|c b els|c b p|c cls|c cls|l s|k rs|l|l| |k x ty e|k xs e|k p sn];
    try (apply H8; exact Logic.I).
  - apply H1, fl.
  - destruct els as [e|]; [apply H3|apply H2]; try apply fl.
    + apply stmt_ind2.
    + destruct e; try exact Logic.I; apply fl.
  - apply H4, fl.
  - apply H5, fll.
  - apply H6, fll.
  - apply H7, stmt_ind2.
Defined.
End Ind.

Lemma all_clauses ov cls : 
  (fix all (l : list (list (stmt Op))) : Prop := match l with [] => True | b :: l' => oks F ov [] b (G := G) /\ all l' end) cls
  <-> Forall (oks F ov [] (G := G)) cls.
Proof.
  induction cls as [|b cls IH]; [split; [constructor|auto]|]. rewrite IH.
  split; [intros [A C]; constructor; auto|intros A; inversion A; auto].
Qed.

Definition block_ok (kr : nat * list (expr Op)) : Prop := oks F [] [] (build_return F I (fst kr) (snd kr)) (G := G).

Definition rw_spec (s : stmt Op) : Prop := plain s = true -> ok F [] s (G := G) ->
  (ok F [] (rw F I s) (G := G) <-> Forall block_ok (visits s)).

Lemma rw_list b : Forall rw_spec b -> forallb plain b = true -> oks F [] [] b (G := G) ->
  (oks F [] [] (map (rw F I) b) (G := G) <-> Forall block_ok (flat_map visits b)).
Proof.
  intros H Hp O. rewrite oks_forall in O by (apply plain_temp; exact Hp).
  rewrite oks_forall by (apply rw_temp; exact Hp).
  clear - H Hp O. induction b as [|s b IH]; [split; constructor|]. cbn [map flat_map].
  rewrite Forall_app. inversion H; subst. inversion O; subst. cbn [forallb] in Hp. apply andb_true_iff in Hp. destruct Hp as [P1 P2].
  rewrite Forall_cons_iff. rewrite (H2 P1 H4). rewrite IH; auto. reflexivity.
Qed.

Lemma rw_ok s : rw_spec s.
Proof.
  induction s using stmt_ind2; intros Hp O.
  - cbn in Hp. apply (rw_list b); auto.
  - cbn in Hp. rewrite andb_true_r in Hp. destruct O as (O1 & O2 & _). cbn [visits]. rewrite app_nil_r.
    rewrite <- (rw_list b) by auto. cbn. split; [intros (_ & A & _); exact A|intros A; repeat split; auto].
  - cbn [plain] in Hp. apply andb_true_iff in Hp. destruct Hp as [P1 P2]. destruct O as (O1 & O2 & O3).
    cbn [visits]. rewrite Forall_app. rewrite <- (rw_list b) by auto.
    destruct s; try solve [cbn [rw];
      split; [intros (_ & A & _); split; [exact A|apply Forall_nil]|intros (A & _); split; [exact O1|split; [exact A|exact O3]]]].
    + cbn [plain] in P2. rewrite <- (rw_list b0) by auto. cbn [rw].
      split; [intros (_ & A & C); split; [exact A|exact C]|intros (A & C); split; [exact O1|split; [exact A|exact C]]].
    + cbn [plain] in P2. apply andb_true_iff in P2. destruct P2 as [P2 P3]. destruct O3 as (O3 & O4 & O5).
      rewrite <- (rw_list b0) by auto. cbn [rw].
      split; [intros (_ & A & _ & C & _); split; [exact A|exact C]|
              intros (A & C); split; [exact O1|split; [exact A|split; [exact O3|split; [exact C|exact O5]]]]].
  - cbn in Hp. destruct O as (O1 & O2 & O3). cbn [visits]. rewrite <- (rw_list b) by auto. cbn [rw].
    split; [intros (_ & A & _); exact A|intros A; split; [exact O1|split; [exact A|exact O3]]].
  - cbn in Hp. destruct O as (O1 & O2). cbn [visits rw].
    assert (E : ok F [] (SSwitch c (map (map (rw F I)) cls)) (G := G) <-> g_user G [] c /\ Forall (oks F [] [] (G := G)) (map (map (rw F I)) cls)).
    { cbn [ok]. rewrite <- all_clauses. reflexivity. }
    rewrite E. apply all_clauses in O2.
    assert (X : Forall (oks F [] [] (G := G)) (map (map (rw F I)) cls) <-> Forall block_ok (flat_map (flat_map visits) cls)).
    { clear E O1. induction cls as [|b cls IH]; [split; constructor|]. cbn [map flat_map forallb] in *.
      apply andb_true_iff in Hp. destruct Hp as [P1 P2]. inversion H; subst. inversion O2; subst.
      rewrite Forall_cons_iff, Forall_app, (rw_list b) by auto. rewrite IH by auto. reflexivity. }
    rewrite X. split; [intros [_ A]; exact A|intros A; split; [exact O1|exact A]].
  - cbn [visits rw]. split; [intros _; constructor|intros _; exact O].
  - cbn [visits rw]. split; [intros _; constructor|intros _; exact O].
  - destruct s; try contradiction; cbn [visits rw]; try (split; [intros _; constructor|intros _; exact O]); try discriminate Hp.
    rewrite Forall_cons_iff. rewrite ok_block. unfold block_ok at 1. cbn [fst snd].
    split; [intros A; split; [exact A|constructor]|intros [A _]; exact A].
Qed.

Lemma visits_touched b k rs : In (k, rs) (flat_map visits b) <-> touched b k rs.
Proof.
  split.
  - revert b. assert (X : forall s b, In s b -> In (k, rs) (visits s) -> touched b k rs).
    { induction s using stmt_ind2; intros bb Hb Hk.
      - cbn in Hk. apply in_flat_map in Hk. destruct Hk as (s & Hs & Hk). rewrite Forall_forall in H.
        eapply TBlock; [exact Hb|]. eapply H; eauto.
      - cbn in Hk. rewrite app_nil_r in Hk. apply in_flat_map in Hk. destruct Hk as (s & Hs & Hk). rewrite Forall_forall in H.
        eapply TIf; [exact Hb|]. eapply H; eauto.
      - cbn [visits] in Hk. apply in_app_or in Hk. destruct Hk as [Hk|Hk].
        + apply in_flat_map in Hk. destruct Hk as (s1 & Hs & Hk). rewrite Forall_forall in H.
          eapply TIf; [exact Hb|]. eapply H; eauto.
        + destruct s; try destruct Hk; apply in_flat_map in Hk; destruct Hk as (s1 & Hs & Hk); rewrite Forall_forall in H0.
          * eapply TElse; [exact Hb|]. eapply H0; eauto.
          * eapply TElseIf; [exact Hb|]. eapply H0; eauto.
      - cbn in Hk. apply in_flat_map in Hk. destruct Hk as (s & Hs & Hk). rewrite Forall_forall in H.
        eapply TLoop; [exact Hb|]. eapply H; eauto.
      - cbn in Hk. apply in_flat_map in Hk. destruct Hk as (cl & Hcl & Hk). apply in_flat_map in Hk. destruct Hk as (s & Hs & Hk).
        rewrite Forall_forall in H. specialize (H cl Hcl). rewrite Forall_forall in H.
        eapply TSwitch; [exact Hb|exact Hcl|]. eapply H; eauto.
      - destruct Hk.
      - destruct Hk.
      - destruct s; try contradiction; try (exfalso; exact Hk).
        destruct Hk as [Hk|[]]. injection Hk as <- <-. apply TReturn. exact Hb. }
    intros b (s & Hs & Hk)%in_flat_map. eapply X; eauto.
  - intros H. induction H.
    + apply in_flat_map. eexists. split; [exact H|]. left. reflexivity.
    + apply in_flat_map. eexists. split; [exact H|]. exact IHtouched.
    + apply in_flat_map. eexists. split; [exact H|]. cbn [visits]. apply in_or_app. left. exact IHtouched.
    + apply in_flat_map. eexists. split; [exact H|]. cbn [visits]. apply in_or_app. right. exact IHtouched.
    + apply in_flat_map. eexists. split; [exact H|]. cbn [visits]. apply in_or_app. right. exact IHtouched.
    + apply in_flat_map. eexists. split; [exact H|]. exact IHtouched.
    + apply in_flat_map. eexists. split; [exact H|]. cbn [visits]. apply in_flat_map. exists cl. split; auto.
Qed.

Lemma visits_reached s : map fst (visits s) = reached s.
Proof.
  assert (M : forall b, Forall (fun s => map fst (visits s) = reached s) b -> map fst (flat_map visits b) = flat_map reached b).
  { intros b H. induction H; auto. cbn. rewrite map_app. congruence. }
  induction s using stmt_ind2; cbn [visits reached]; auto.
  - rewrite map_app, (M b); auto.
  - rewrite map_app, (M b) by auto. f_equal. destruct s; auto.
  - induction H; auto. cbn. rewrite map_app, M by auto. congruence.
  - destruct s; auto; contradiction.
Qed.

(** *** How a body ends *)

Lemma leaves_rw s : plain s = true -> forall inner l, leaves inner l (rw F I s) = leaves inner l s.
Proof.
  assert (M : forall b inner l, Forall (fun s => plain s = true -> forall inner l, leaves inner l (rw F I s) = leaves inner l s) b ->
    forallb plain b = true -> existsb (leaves inner l) (map (rw F I) b) = existsb (leaves inner l) b).
  { intros b inner l H. induction H; intros Hp; auto. cbn [forallb] in Hp. apply andb_true_iff in Hp. destruct Hp. cbn.
    rewrite H, IHForall; auto. }
  induction s using stmt_ind2; intros Hp inner l0; cbn [plain] in Hp.
  - cbn. auto.
  - cbn. rewrite andb_true_r in Hp. rewrite M; auto.
  - apply andb_true_iff in Hp. destruct Hp as [P1 P2].
    destruct s; cbn [rw leaves]; rewrite (M b) by auto; auto.
    + cbn [plain] in P2. rewrite (M b0); auto.
    + cbn [plain] in P2. apply andb_true_iff in P2. rewrite (M b0); auto. apply P2.
  - cbn. auto.
  - cbn. clear c. induction H; auto. cbn in *. apply andb_true_iff in Hp. destruct Hp. rewrite M by auto. f_equal. auto.
  - reflexivity.
  - reflexivity.
  - destruct s; try contradiction; try reflexivity. cbn [rw leaves].
    unfold build_return. destruct (snap_decls (i_decls I k) []) as [sn se].
    assert (R : forall es i seen pre r sn', results F I k i es seen = (pre, r, sn') ->
       existsb (leaves inner l0) pre = false).
    { induction es as [|e es IH]; intros i seen pre r sn' E; cbn in E; [injection E as <- <- <-; reflexivity|].
      destruct (one_result F I k i e seen) as [[[pre1 r1] sn1] seen1] eqn:E1.
      destruct (results F I k (S i) es seen1) as [[pre2 r2] sn2] eqn:E2. injection E as <- <- <-.
      rewrite existsb_app, (IH _ _ _ _ _ E2), orb_false_r. apply one_result_shape in E1.
      destruct (way_of i e); [destruct E1 as (x & _ & -> & _); reflexivity|
        destruct E1 as (_ & _ & _ & [-> | ->]); reflexivity|destruct E1 as (_ & _ & _ & ->); reflexivity]. }
    assert (R' : forall es p s', existsb (leaves inner l0) (let '(pre, r, s0) := results F I k 0 es se in
        pre ++ [SSend k p (s' ++ s0); SReturn k r]) = false).
    { intros es p s'. destruct (results F I k 0 es se) as [[pre r] s0] eqn:E. rewrite existsb_app, (R _ _ _ _ _ _ E). reflexivity. }
    destruct rs as [|a rs].
    + destruct (all_named F); [|reflexivity]. destruct (bare_names (f_names F) se) as [[? ?] ?]. reflexivity.
    + destruct a; try apply R'. destruct rs; try apply R'. destruct (1 <? length (f_names F))%nat; [reflexivity|apply R'].
Qed.

Lemma lasts_snoc b s : lasts (G := G) (b ++ [s]) = term (G := G) None s.
Proof. induction b as [|a b IH]; auto. cbn [app]. destruct (b ++ [s]) eqn:E; [destruct b; discriminate|]. exact IH. Qed.

Lemma term_block l b : term (G := G) l (SBlock b) = lasts (G := G) b.
Proof. reflexivity. Qed.

Lemma build_ends k rs : lasts (G := G) (build_return F I k rs) = true.
Proof.
  unfold build_return. destruct (snap_decls (i_decls I k) []) as [sn se].
  assert (R' : forall es p s', lasts (G := G) (let '(pre, r, s0) := results F I k 0 es se in
        pre ++ [SSend k p (s' ++ s0); SReturn k r]) = true).
  { intros es p s'. destruct (results F I k 0 es se) as [[pre r] s0].
    change [SSend k p (s' ++ s0); SReturn k r] with ([SSend k p (s' ++ s0)] ++ [SReturn k r]). rewrite app_assoc. apply lasts_snoc. }
  destruct rs as [|a rs].
  + destruct (all_named F); [|reflexivity]. destruct (bare_names (f_names F) se) as [[? ?] ?]. reflexivity.
  + destruct a; try apply R'. destruct rs; try apply R'. destruct (1 <? length (f_names F))%nat; [reflexivity|apply R'].
Qed.

Definition term_spec (s : stmt Op) : Prop := plain s = true -> forall l, term (G := G) l (rw F I s) = term (G := G) l s.

Lemma lasts_rw b : Forall term_spec b -> forallb plain b = true -> lasts (G := G) (map (rw F I) b) = lasts (G := G) b.
Proof.
  intros H. induction H; intros Hp; auto. cbn [forallb] in Hp. apply andb_true_iff in Hp. destruct Hp as [P1 P2].
  destruct l as [|a l]; [apply H; exact P1|]. cbn [map lasts] in *. apply IHForall. exact P2.
Qed.

Lemma lastfs_rw b : Forall term_spec b -> forallb plain b = true -> lastfs (G := G) (map (rw F I) b) = lastfs (G := G) b.
Proof.
  intros H. induction H; intros Hp; auto. cbn [forallb] in Hp. apply andb_true_iff in Hp. destruct Hp as [P1 P2].
  destruct l as [|a l].
  - specialize (H P1 None). destruct x; try exact H; reflexivity.
  - specialize (IHForall P2). cbn [map] in *. destruct x; exact IHForall.
Qed.

Lemma term_rw s : term_spec s.
Proof.
  assert (EX : forall b l, forallb plain b = true -> existsb (leaves true l) (map (rw F I) b) = existsb (leaves true l) b).
  { intros b l. induction b as [|s1 b IH]; intros Hp; auto. cbn [forallb] in Hp. apply andb_true_iff in Hp. destruct Hp.
    cbn. rewrite leaves_rw, IH; auto. }
  induction s using stmt_ind2; intros Hp l0; cbn [plain] in Hp.
  - cbn [rw]. rewrite !term_block. apply lasts_rw; auto.
  - reflexivity.
  - apply andb_true_iff in Hp. destruct Hp as [P1 P2].
    assert (E : forall e, term (G := G) l0 (SIf c (map (rw F I) b) (Some e)) = lasts (G := G) b && term (G := G) None e).
    { intros e. rewrite <- (lasts_rw b) by auto. reflexivity. }
    change (term (G := G) l0 (SIf c b (Some s))) with (lasts (G := G) b && term (G := G) None s).
    destruct s; cbn [rw]; rewrite E; auto; f_equal.
    + cbn [plain] in P2. rewrite !term_block. apply lasts_rw; auto.
    + cbn [plain] in P2. apply andb_true_iff in P2. destruct P2 as [P2 _]. destruct els as [e'|]; [|reflexivity].
      change (lasts (G := G) (map (rw F I) b0) && term (G := G) None e' = lasts (G := G) b0 && term (G := G) None e').
      rewrite lasts_rw; auto.
  - cbn [rw term]. rewrite EX; auto.
  - cbn [rw]. 
    change (g_end G c && negb (existsb (existsb (leaves true l0)) (map (map (rw F I)) cls)) && forallb (lastfs (G := G)) (map (map (rw F I)) cls)
      = g_end G c && negb (existsb (existsb (leaves true l0)) cls) && forallb (lastfs (G := G)) cls).
    f_equal; [f_equal; f_equal|].
    + clear H c. induction cls as [|b cls IH]; auto. cbn in *. apply andb_true_iff in Hp. destruct Hp. rewrite EX, IH; auto.
    + clear c. induction H; auto. cbn in *. apply andb_true_iff in Hp. destruct Hp. rewrite lastfs_rw, IHForall; auto.
  - reflexivity.
  - reflexivity.
  - destruct s; try contradiction; try reflexivity. cbn [rw]. rewrite term_block, build_ends. reflexivity.
Qed.

(** *** The end of a function without visited return *)

Definition end_named (n : bytes) : bool := all_named F && negb (beq n []) && negb (beq n (B "_")).

(** What the statements at the end need. *)
Definition end_fits (s : scope T K) : Prop :=
  (forall n, In n client_names -> s n = Some EClient) /\
  (forall d, In d (i_end_decls I) -> d <> B "nil" -> sendable s d) /\
  (forall i n, nth_error (f_names F) i = Some n -> end_named n = false ->
     exists v, ety s (i_zero I i) = Some v /\ g_asg G v (g_res G i) = true).

Lemma nth_combine_seq (l : list bytes) : forall a i n, nth_error l i = Some n ->
  nth_error (combine (seq a (length l)) l) i = Some ((a + i)%nat, n).
Proof.
  induction l as [|x l IH]; intros a [|i] n H; try discriminate.
  - injection H as <-. cbn. rewrite Nat.add_0_r. reflexivity.
  - cbn. rewrite (IH (S a) i n H). rewrite Nat.add_succ_r. reflexivity.
Qed.


Lemma mem_spec x l : mem x l = true <-> In x l.
Proof.
  split; [apply mem_in|]. intros H. unfold mem. apply existsb_exists. exists x. split; [exact H|apply beq_true; reflexivity].
Qed.

Lemma end_ok s blk : g_scope G (i_end_tag I) = s ->
  (forall i n, nth_error (f_names F) i = Some n -> end_named n = true -> s n = Some (EVal (Typed (g_res G i)))) ->
  (oks F [] blk ([SSend (i_end_tag I) (i_end_pid I) (fst (snap_decls (i_end_decls I) []))] ++ tail_return F I) (G := G)
   <-> end_fits s).
Proof.
  intros Hs Hn.
  assert (Snd : send_ok s (fst (snap_decls (i_end_decls I) [])) <->
    (forall n, In n client_names -> s n = Some EClient) /\
    (forall d, In d (i_end_decls I) -> d <> B "nil" -> sendable s d)).
  { split.
    - intros [A C]. split; auto. intros d Hd N.
      destruct (snap_decls_all (i_end_decls I) [] d Hd N) as [X|X]; [discriminate|].
      apply in_map_iff in X. destruct X as ((n & x) & <- & X). destruct (C n x X) as (v & t & E). exists v, t. exact E.
    - intros [A C]. split; auto. intros n x Hx. destruct (snap_decls_in _ _ _ _ Hx). apply C; auto. }
  unfold end_fits. 
  assert (Sp : forall rest, (forall b, oks F [] b rest (G := G) <->
      (forall i n, nth_error (f_names F) i = Some n -> end_named n = false ->
       exists v, ety s (i_zero I i) = Some v /\ g_asg G v (g_res G i) = true)) ->
    (oks F [] blk ([SSend (i_end_tag I) (i_end_pid I) (fst (snap_decls (i_end_decls I) []))] ++ rest) (G := G) <->
     (forall n, In n client_names -> s n = Some EClient) /\
     (forall d, In d (i_end_decls I) -> d <> B "nil" -> sendable s d) /\
     (forall i n, nth_error (f_names F) i = Some n -> end_named n = false ->
       exists v, ety s (i_zero I i) = Some v /\ g_asg G v (g_res G i) = true))).
  { intros rest Hr. cbn [app oks ok over]. rewrite Hs, (Hr blk), Snd. tauto. }
  apply Sp. clear Sp. intros b. unfold tail_return.
  destruct (f_names F) as [|a l] eqn:Ef.
  { split; [intros _ [|i] n H; discriminate|intros _; exact Logic.I]. }
  rewrite <- Ef in *. assert (Ne : f_names F <> []) by (rewrite Ef; discriminate).
  destruct (all_named F && negb (mem (B "_") (f_names F))) eqn:E.
  - apply andb_true_iff in E. destruct E as [E1 E2]. apply negb_true_iff in E2.
    assert (Nm : forall i n, nth_error (f_names F) i = Some n -> end_named n = true).
    { intros i n Hi. unfold end_named. rewrite E1. cbn [andb]. pose proof (proj1 all_named_spec E1) as [_ X].
      apply nth_error_In in Hi. apply andb_true_iff. split; apply negb_true_iff, beq_false; intros ->; auto.
      enough (mem (B "_") (f_names F) = true) by congruence. apply mem_spec. exact Hi. }
    split.
    + intros _ i n Hi X. rewrite (Nm i n Hi) in X. discriminate.
    + intros _. cbn [oks ok over]. rewrite Hs. split; [|exact Logic.I]. split; [apply all_named_spec; exact E1|].
      intros i n Hi _. apply Hn; eauto.
  - set (R := map _ _).
    assert (Rn : forall i n, nth_error (f_names F) i = Some n -> nth_error R i = Some (if end_named n then EId n else i_zero I i)).
    { intros i n Hi. unfold R. rewrite nth_error_map, (nth_combine_seq _ 0 i n Hi). reflexivity. }
    assert (Rl : length R = nresults F).
    { unfold R, nresults. rewrite map_length, combine_length, seq_length. apply Nat.min_id. }
    assert (Rne : exists r0 R', R = r0 :: R').
    { destruct R as [|r0 R']; [|eauto]. unfold nresults in Rl. rewrite Ef in Rl. discriminate Rl. }
    assert (RO : ret_ok F s R <-> forall i n, nth_error (f_names F) i = Some n -> end_named n = false ->
       exists v, ety s (i_zero I i) = Some v /\ g_asg G v (g_res G i) = true).
    { destruct Rne as (r0 & R' & Er). unfold ret_ok. rewrite Er. rewrite <- Er. split.
      - intros [[_ A]|(c & o & ts & E1 & H2 & _)].
        + intros i n Hi X. pose proof (Rn i n Hi) as Y. rewrite X in Y. apply (A i _ Y).
        + rewrite E1 in Rl. cbn in Rl. lia.
      - intros A. left. split; [exact Rl|]. intros i e Hi.
        destruct (nth_error (f_names F) i) as [n|] eqn:En.
        + rewrite (Rn i n En) in Hi. injection Hi as <-. destruct (end_named n) eqn:X; [|eauto].
          exists (Typed (g_res G i)). cbn [ety]. rewrite (Hn i n En X). split; auto. apply L.
        + apply nth_error_None in En. assert (nth_error R i = None) by (apply nth_error_None; unfold nresults in Rl; lia). congruence. }
    rewrite <- RO. cbn [oks ok over]. rewrite Hs. tauto.
Qed.

Lemma touched_ret_ok b k rs : forallb plain b = true -> oks F [] [] b (G := G) -> touched b k rs ->
  ret_ok F (g_scope G k) rs (G := G).
Proof.
  intros Hp O H. induction H;
    rewrite oks_forall in O by (apply plain_temp; exact Hp); rewrite Forall_forall in O; rewrite forallb_forall in Hp;
    pose proof (O _ H) as O1; pose proof (Hp _ H) as P1; cbn [plain] in P1.
  - exact O1.
  - apply IHtouched; auto.
  - apply andb_true_iff in P1. apply IHtouched; [apply P1|apply O1].
  - apply andb_true_iff in P1. apply IHtouched; [apply P1|apply O1].
  - apply andb_true_iff in P1. destruct P1 as [_ P1]. cbn [plain] in P1. apply andb_true_iff in P1.
    apply IHtouched; [apply P1|]. destruct O1 as (_ & _ & _ & O1 & _). exact O1.
  - apply IHtouched; [exact P1|]. apply O1.
  - rewrite forallb_forall in P1. apply IHtouched; auto. destruct O1 as [_ O1]. apply all_clauses in O1.
    rewrite Forall_forall in O1. auto.
Qed.

Theorem body_compiles body :
  forallb plain body = true -> compiles F body (G := G) ->
  (forall k rs, touched body k rs -> length rs = nresults F -> forall i e, nth_error rs i = Some e -> fresh i e) ->
  (forall k rs, touched body k rs -> forall d, In d (i_decls I k) -> ~ synth d) ->
  (forall i n, nth_error (f_names F) i = Some n -> end_named n = true ->
     g_scope G (i_end_tag I) n = Some (EVal (Typed (g_res G i)))) ->
  (compiles F (instrument F I body) (G := G) <->
   (forall k rs, touched body k rs -> block_fits (g_scope G k) k rs) /\
   ((forall k rs, ~ touched body k rs) -> end_fits (g_scope G (i_end_tag I)))).
Proof.
  intros Hp [O Te] Hf Hd Hn.
  pose proof (fun k rs => touched_ret_ok body k rs Hp O) as Rs.
  assert (Bk : Forall block_ok (flat_map visits body) <-> forall k rs, touched body k rs -> block_fits (g_scope G k) k rs).
  { rewrite Forall_forall. split.
    - intros H k rs Ht. apply (return_fits (g_scope G k) k rs eq_refl); eauto. apply (H (k, rs)). apply visits_touched. exact Ht.
    - intros H (k & rs) Hin. apply visits_touched in Hin. apply (return_fits (g_scope G k) k rs eq_refl); eauto. }
  assert (Rw : oks F [] [] (map (rw F I) body) (G := G) <-> Forall block_ok (flat_map visits body)).
  { apply rw_list; auto. apply Forall_forall. intros s _. apply rw_ok. }
  assert (Vr : flat_map reached body = map fst (flat_map visits body)).
  { clear. induction body as [|s b IH]; auto. cbn. rewrite map_app, visits_reached, IH. reflexivity. }
  unfold instrument. destruct (flat_map reached body) as [|k0 ks] eqn:Er.
  - assert (Nv : flat_map visits body = []) by (destruct (flat_map visits body); [reflexivity|discriminate Vr]).
    assert (Nt : forall k rs, ~ touched body k rs).
    { intros k rs H. apply visits_touched in H. rewrite Nv in H. destruct H. }
    assert (Ok0 : oks F [] [] (map (rw F I) body) (G := G)) by (apply Rw; rewrite Nv; constructor).
    assert (Ap : forall b b' blk, forallb (fun s => negb (is_temp s)) b = true ->
      (oks F [] blk (b ++ b') (G := G) <-> oks F [] blk b (G := G) /\ oks F [] blk b' (G := G))).
    { clear. intros b b' blk H. induction b as [|s b IH]; [cbn; tauto|]. cbn [forallb] in H. apply andb_true_iff in H. destruct H as [H1 H2].
      destruct s; try discriminate H1; cbn [app oks]; rewrite (IH H2); tauto. }
    unfold compiles. rewrite Ap by (apply rw_temp; exact Hp). rewrite (end_ok _ [] eq_refl Hn).
    split.
    + intros [[_ H] _]. split; [intros k rs H'; destruct (Nt k rs H')|auto].
    + intros [_ H]. split; [split; auto|]. intros Ne. unfold tail_return. 
      destruct (f_names F) as [|a l] eqn:Ef; [congruence|]. rewrite <- Ef.
      match goal with |- lasts (_ ++ _ ++ (if ?c then [?x] else [?y])) = true => destruct c end; rewrite app_assoc; apply lasts_snoc.
  - assert (Ex : exists k rs, touched body k rs).
    { destruct (flat_map visits body) as [|[k rs] v] eqn:Ev; [discriminate Vr|]. exists k, rs. apply visits_touched. rewrite Ev. left. reflexivity. }
    unfold compiles. rewrite Rw, Bk. split.
    + intros [H _]. split; [exact H|]. intros N. destruct Ex as (k & rs & Ht). destruct (N k rs Ht).
    + intros [H _]. split; [exact H|]. intros Ne. rewrite lasts_rw; auto. apply Forall_forall. intros s _. apply term_rw.
Qed.

End P.
