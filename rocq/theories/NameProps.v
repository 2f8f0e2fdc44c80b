(** C84: the values sent in one message have different names, and are stored under them. *)
From Verif Require Import Base Maps InstrModel InstrSpec InstrProofs CallModel WireModel TypesModel TypesSpec MonitorModel PipeModel PipeSpec PipeProofs ReachProps.
Import InstrModel.

(** A name of the program that is not one of those the messages use for results. *)
Definition result_free (x : bytes) : Prop := reserved x = false /\ forall i, x <> B "ret" ++ num i /\ x <> B "rec" ++ num i.

Section Returns.
Variable Op : Type.
Notation stmt := (InstrModel.stmt Op).
Notation expr := (InstrModel.expr Op).

Section Ind.
Variable P : stmt -> Prop.
Hypothesis HOp : forall o, P (InstrModel.SOp o).
Hypothesis HBlock : forall b, Forall P b -> P (InstrModel.SBlock b).
Hypothesis HIf0 : forall c b, Forall P b -> P (InstrModel.SIf c b None).
Hypothesis HIf1 : forall c b e, Forall P b -> P e -> P (InstrModel.SIf c b (Some e)).
Hypothesis HLoop : forall c b p, Forall P b -> P (InstrModel.SLoop c b p).
Hypothesis HSwitch : forall c cls, Forall (Forall P) cls -> P (InstrModel.SSwitch c cls).
Hypothesis HSelect : forall c cls, Forall (Forall P) cls -> P (SSelect c cls).
Hypothesis HLabeled : forall l s, P s -> P (SLabeled l s).
Hypothesis HReturn : forall k rs, P (InstrModel.SReturn k rs).
Hypothesis HBreak : forall l, P (InstrModel.SBreak l).
Hypothesis HContinue : forall l, P (InstrModel.SContinue l).
Hypothesis HFall : P SFallthrough.
Hypothesis HTemp : forall k x ty e, P (InstrModel.STemp k x ty e).
Hypothesis HTemps : forall k xs e, P (STemps k xs e).
Hypothesis HSend : forall k p sn, P (InstrModel.SSend k p sn).
Fixpoint istmt_ind (s : stmt) : P s :=
  let fl := fix fl (b : list stmt) : Forall P b := match b with [] => Forall_nil _ | x :: b' => Forall_cons _ (istmt_ind x) (fl b') end in
  let fc := fix fc (c : list (list stmt)) : Forall (Forall P) c := match c with [] => Forall_nil _ | x :: c' => Forall_cons _ (fl x) (fc c') end in
  match s with
  | InstrModel.SOp o => HOp o
  | InstrModel.SBlock b => HBlock b (fl b)
  | InstrModel.SIf c b None => HIf0 c b (fl b)
  | InstrModel.SIf c b (Some e) => HIf1 c b e (fl b) (istmt_ind e)
  | InstrModel.SLoop c b p => HLoop c b p (fl b)
  | InstrModel.SSwitch c cls => HSwitch c cls (fc cls)
  | SSelect c cls => HSelect c cls (fc cls)
  | SLabeled l s => HLabeled l s (istmt_ind s)
  | InstrModel.SReturn k rs => HReturn k rs
  | InstrModel.SBreak l => HBreak l
  | InstrModel.SContinue l => HContinue l
  | SFallthrough => HFall
  | InstrModel.STemp k x ty e => HTemp k x ty e
  | STemps k xs e => HTemps k xs e
  | InstrModel.SSend k p sn => HSend k p sn
  end.
End Ind.

(** The messages in a statement, and its returns. *)
Fixpoint sends (s : stmt) : list (list (bytes * bytes)) :=
  match s with
  | InstrModel.SSend _ _ sn => [sn]
  | InstrModel.SBlock b => flat_map sends b
  | InstrModel.SIf _ b els => flat_map sends b ++ match els with Some e => sends e | None => [] end
  | InstrModel.SLoop _ b _ => flat_map sends b
  | InstrModel.SSwitch _ cls | SSelect _ cls => flat_map (flat_map sends) cls
  | SLabeled _ s => sends s
  | _ => []
  end.
Fixpoint returns (s : stmt) : list (nat * list expr) :=
  match s with
  | InstrModel.SReturn k rs => [(k, rs)]
  | InstrModel.SBlock b => flat_map returns b
  | InstrModel.SIf _ b els => flat_map returns b ++ match els with Some e => returns e | None => [] end
  | InstrModel.SLoop _ b _ => flat_map returns b
  | InstrModel.SSwitch _ cls | SSelect _ cls => flat_map (flat_map returns) cls
  | SLabeled _ s => returns s
  | _ => []
  end.

Variable F : func.
Variable I : info Op.

(** What a pair of a message stands for: a variable of the program under its name, or a result by its number. *)
Definition means (seen : list bytes) (i : nat) (n v : bytes) : Prop :=
  (n = v /\ result_free v /\ ~ In v seen) \/
  exists j, (i <= j)%nat /\ (v = p_ret ++ num j /\ n = B "ret" ++ num j \/ v = p_rec ++ num j /\ n = B "rec" ++ num j).
Definition sound (seen : list bytes) (i : nat) (sn : list (bytes * bytes)) : Prop :=
  NoDup (map fst sn) /\ forall n v, In (n, v) sn -> means seen i n v.

Lemma mem_In x l : InstrModel.mem x l = true <-> In x l.
Proof.
  unfold InstrModel.mem. rewrite existsb_exists. split; [intros (y & Hy & E); destruct (beq_spec x y); [subst; exact Hy|discriminate]|].
  intros H. exists x. split; [exact H|apply beq_refl].
Qed.
Lemma mem_nIn x l : InstrModel.mem x l = false <-> ~ In x l.
Proof. rewrite <- mem_In. destruct (InstrModel.mem x l); split; congruence. Qed.

Lemma snap_decls_sound ds : forall seen s seen', Forall result_free ds -> snap_decls ds seen = (s, seen') ->
  NoDup (map fst s) /\ (forall n v, In (n, v) s -> n = v /\ result_free v /\ ~ In v seen /\ In v seen') /\ incl seen seen'.
Proof.
  induction ds as [|d ds IH]; intros seen s seen' Fr E; cbn [snap_decls] in E.
  - injection E as <- <-. split; [constructor|]. split; [intros n v []|intros x H; exact H].
  - inversion Fr as [|? ? Rd Rs]; subst. destruct (beq d (B "nil") || InstrModel.mem d seen) eqn:C; [exact (IH _ _ _ Rs E)|].
    apply orb_false_iff in C as [_ C]. apply mem_nIn in C. destruct (snap_decls ds (d :: seen)) as [s1 seen1] eqn:E1.
    assert (s = (shown d, d) :: s1 /\ seen' = seen1) as [-> ->] by (split; congruence). destruct (IH _ _ _ Rs E1) as (N & M & In1).
    rewrite (shown_plain d (proj1 Rd)). split; [|split].
    + cbn. constructor; [|exact N]. intros H. apply in_map_iff in H as ([n v] & Hn & H). cbn in Hn. subst n. destruct (M _ _ H) as (<- & _ & X & _). apply X. left. reflexivity.
    + intros n v [H|H]; [assert (n = d /\ v = d) as [-> ->] by (split; congruence); split; [reflexivity|]; split; [exact Rd|]; split; [exact C|apply In1; left; reflexivity]|].
      destruct (M _ _ H) as (A1 & A2 & A3 & A4). split; [exact A1|]. split; [exact A2|]. split; [|exact A4]. intros X. apply A3. right. exact X.
    + intros x H. apply In1. right. exact H.
Qed.

Lemma ret_apart i j : (B "ret" ++ num i = B "ret" ++ num j -> i = j) /\ (B "rec" ++ num i = B "rec" ++ num j -> i = j) /\ B "ret" ++ num i <> B "rec" ++ num j.
Proof. split; [intros H; apply app_inv_head in H; apply num_inj, H|]. split; [intros H; apply app_inv_head in H; apply num_inj, H|discriminate]. Qed.

Lemma temp_means (e : expr) seen i : means seen i (shown (ret_name F e i)) (ret_name F e i).
Proof.
  right. exists i. split; [lia|]. unfold ret_name. destruct (recursive F e); [right; rewrite shown_rec; auto|left; rewrite shown_ret; auto].
Qed.
Lemma temp_later (e : expr) seen i n v : means seen (S i) n v -> n <> shown (ret_name F e i).
Proof.
  unfold ret_name. intros [(-> & (_ & R) & _)|(j & L & [[_ ->]|[_ ->]])]; destruct (recursive F e); rewrite ?shown_rec, ?shown_ret; intros X.
  - exact (proj2 (R i) X).
  - exact (proj1 (R i) X).
  - discriminate.
  - apply ret_apart in X. lia.
  - apply ret_apart in X. lia.
  - discriminate.
Qed.
Lemma means_weak seen i n v r : means (r :: seen) (S i) n v -> means seen i n v.
Proof. intros [(A & C & D)|(j & L & H)]; [left; split; [exact A|]; split; [exact C|]; intros X; apply D; right; exact X|right; exists j; split; [lia|exact H]]. Qed.
Lemma means_weak' seen i n v : means seen (S i) n v -> means seen i n v.
Proof. intros [H|(j & L & H)]; [left; exact H|right; exists j; split; [lia|exact H]]. Qed.

Lemma sound_temp (e : expr) seen i r sn : sound (r :: seen) (S i) sn -> sound seen i ((shown (ret_name F e i), ret_name F e i) :: sn).
Proof.
  intros [N M]. split.
  - cbn. constructor; [|exact N]. intros H. apply in_map_iff in H as ([n v] & Hn & H). cbn in Hn. exact (temp_later _ _ _ _ _ (M _ _ H) Hn).
  - intros n v [H|H]; [assert (n = shown (ret_name F e i) /\ v = ret_name F e i) as [-> ->] by (split; congruence); apply temp_means|exact (means_weak _ _ _ _ _ (M _ _ H))].
Qed.

Lemma results_sound k es : forall i seen pre rs sn, (forall x, In (InstrModel.EId x) es -> x <> B "nil" -> result_free x) -> results F I k i es seen = (pre, rs, sn) -> sound seen i sn.
Proof.
  induction es as [|e es IH]; intros i seen pre rs sn Hx E; cbn [results] in E.
  - injection E as <- <- <-. split; [constructor|intros n v []].
  - destruct (one_result F I k i e seen) as [[[p1 r1] s1] seen1] eqn:E1. destruct (results F I k (S i) es seen1) as [[p2 r2] s2] eqn:E2.
    injection E as <- <- <-. assert (sound seen1 (S i) s2) as S2 by (eapply IH; [intros x H; apply Hx; right; exact H|exact E2]).
    assert (forall p r, (p, r, [(shown (ret_name F e i), ret_name F e i)], ret_name F e i :: seen) = (p1, r1, s1, seen1) -> sound seen i (s1 ++ s2)) as T.
    { intros p r X. injection X as _ _ <- <-. apply sound_temp with (r := ret_name F e i). exact S2. }
    destruct e as [x|o|c o|o]; cbn [one_result] in E1.
    + destruct (i_need I i (InstrModel.EId x)); [exact (T _ _ E1)|]. destruct (negb (InstrModel.mem x seen) && negb (beq x (B "nil"))) eqn:C.
      * apply andb_true_iff in C as [C1 C2]. apply negb_true_iff in C1, C2. apply mem_nIn in C1. injection E1 as _ _ <- <-.
        assert (result_free x) as Rx by (apply Hx; [left; reflexivity|intros ->; rewrite beq_refl in C2; discriminate]).
        rewrite (shown_plain x (proj1 Rx)). destruct S2 as [N M]. split.
        -- cbn. constructor; [|exact N]. intros H. apply in_map_iff in H as ([n v] & Hn & H). cbn in Hn. subst n.
           destruct (M _ _ H) as [(<- & _ & X)|(j & _ & [[_ X]|[_ X]])]; [apply X; left; reflexivity|exact (proj1 (proj2 Rx j) X)|exact (proj2 (proj2 Rx j) X)].
        -- intros n v [H|H]; [assert (n = x /\ v = x) as [-> ->] by (split; congruence); left; auto|exact (means_weak _ _ _ _ _ (M _ _ H))].
      * injection E1 as _ _ <- <-. destruct S2 as [N M]. split; [exact N|]. intros n v H. apply means_weak', M, H.
    + destruct (i_need I i (InstrModel.ELit o)); exact (T _ _ E1).
    + exact (T _ _ E1).
    + exact (T _ _ E1).
Qed.

Lemma bare_sound ns : forall seen s r b, Forall result_free ns -> @bare_names Op ns seen = (s, r, b) -> sound seen 0 s.
Proof.
  induction ns as [|n ns IH]; intros seen s r b Fr E; cbn [bare_names] in E.
  - injection E as <- <- <-. split; [constructor|intros x v []].
  - inversion Fr as [|? ? Rn Rs]; subst. destruct (beq n (B "_")).
    + destruct (bare_names ns seen) as [[s1 r1] b1] eqn:E1. injection E as <- <- <-. eapply IH; eassumption.
    + destruct (InstrModel.mem n seen) eqn:C.
      * destruct (bare_names ns seen) as [[s1 r1] b1] eqn:E1. injection E as <- <- <-. eapply IH; eassumption.
      * destruct (bare_names ns (n :: seen)) as [[s1 r1] b1] eqn:E1. injection E as <- <- <-. apply mem_nIn in C. destruct (IH _ _ _ _ Rs E1) as [N M].
        rewrite (shown_plain n (proj1 Rn)). split.
        -- cbn. constructor; [|exact N]. intros H. apply in_map_iff in H as ([n' v] & Hn & H). cbn in Hn. subst n'.
           destruct (M _ _ H) as [(<- & _ & X)|(j & _ & [[_ X]|[_ X]])]; [apply X; left; reflexivity|exact (proj1 (proj2 Rn j) X)|exact (proj2 (proj2 Rn j) X)].
        -- intros n' v [H|H]; [assert (n' = n /\ v = n) as [-> ->] by (split; congruence); left; auto|].
           destruct (M _ _ H) as [(A1 & A2 & A3)|X]; [left; split; [exact A1|]; split; [exact A2|]; intros Y; apply A3; right; exact Y|right; exact X].
Qed.

Lemma spread_sound seen : sound seen 0 (map (fun x => (shown x, x)) (spread_names F)).
Proof.
  unfold spread_names. rewrite map_map. rewrite (map_ext _ (fun i => (B "ret" ++ num i, p_ret ++ num i))) by (intros i; rewrite shown_ret; reflexivity). split.
  - rewrite map_map. cbn. apply FinFun.Injective_map_NoDup; [intros a b H; apply (proj1 (ret_apart a b)); exact H|apply seq_NoDup].
  - intros n v H. apply in_map_iff in H as (j & E & _). right. exists j. split; [lia|left]. split; congruence.
Qed.

Lemma join_sound ds s seen t : Forall result_free ds -> snap_decls ds [] = (s, seen) -> sound seen 0 t -> sound [] 0 (s ++ t).
Proof.
  intros Fr E [N M]. destruct (snap_decls_sound _ _ _ _ Fr E) as (N1 & M1 & _). split.
  - rewrite map_app. apply NoDup_app_iff. split; [exact N1|]. split; [exact N|]. intros x H1 H2.
    apply in_map_iff in H1 as ([n v] & Hn & H1). apply in_map_iff in H2 as ([n' v'] & Hn' & H2). cbn in *. subst n n'.
    destruct (M1 _ _ H1) as (<- & (_ & R) & _ & Is). destruct (M _ _ H2) as [(<- & _ & X)|(j & _ & [[_ X]|[_ X]])]; [exact (X Is)|exact (proj1 (R j) X)|exact (proj2 (R j) X)].
  - intros n v H. apply in_app_or in H as [H|H].
    + destruct (M1 _ _ H) as (A1 & A2 & _). left. split; [exact A1|]. split; [exact A2|intros []].
    + destruct (M _ _ H) as [(A1 & A2 & _)|X]; [left; split; [exact A1|]; split; [exact A2|intros []]|right; exact X].
Qed.

Lemma make_temp_quiet k i (e : expr) : flat_map sends (make_temp F I k i e) = [].
Proof. unfold make_temp. destruct (match e with InstrModel.EId x => beq x (B "nil") | _ => false end); [reflexivity|]. destruct (shadow F I i e); reflexivity. Qed.
Lemma results_quiet k es : forall i seen pre rs sn, results F I k i es seen = (pre, rs, sn) -> flat_map sends pre = [].
Proof.
  induction es as [|e es IH]; intros i seen pre rs sn E; cbn [results] in E; [injection E as <- <- <-; reflexivity|].
  destruct (one_result F I k i e seen) as [[[p1 r1] s1] seen1] eqn:E1. destruct (results F I k (S i) es seen1) as [[p2 r2] s2] eqn:E2.
  injection E as <- <- <-. rewrite flat_map_app, (IH _ _ _ _ _ E2), app_nil_r. clear - E1.
  assert (forall p r a s, (make_temp F I k i e, r, a, s) = (p, r1, s1, seen1) -> p1 = p -> flat_map sends p1 = []) as T by (intros p r a s X ->; injection X as <- _ _ _; apply make_temp_quiet).
  destruct e as [x|o|c o|o]; cbn [one_result] in E1.
  - destruct (i_need I i (InstrModel.EId x)); [eapply T; [exact E1|reflexivity]|]. destruct (negb (InstrModel.mem x seen) && negb (beq x (B "nil"))); injection E1 as <- _ _ _; reflexivity.
  - destruct (i_need I i (InstrModel.ELit o)); [eapply T; [exact E1|reflexivity]|]. injection E1 as <- _ _ _. reflexivity.
  - eapply T; [exact E1|reflexivity].
  - eapply T; [exact E1|reflexivity].
Qed.

(** The names a return uses. *)
Definition free_return (k : nat) (rs : list expr) : Prop := Forall result_free (i_decls I k) /\ forall x, In (InstrModel.EId x) rs -> x <> B "nil" -> result_free x.

Lemma build_sound k rs : free_return k rs -> Forall result_free (f_names F) -> Forall (sound [] 0) (flat_map sends (build_return F I k rs)).
Proof.
  intros [Fd Fx] Fn. unfold build_return. destruct (snap_decls (i_decls I k) []) as [snaps seen] eqn:Es.
  assert (forall sn, sound seen 0 sn -> Forall (sound [] 0) [snaps ++ sn]) as J by (intros sn H; constructor; [exact (join_sound _ _ _ _ Fd Es H)|constructor]).
  assert (Forall (sound [] 0) (flat_map sends (let '(pre, r, s) := results F I k 0 rs seen in pre ++ [InstrModel.SSend k (i_pid I k) (snaps ++ s); InstrModel.SReturn k r]))) as Rg.
  { destruct (results F I k 0 rs seen) as [[pre r] s] eqn:Er. rewrite flat_map_app, (results_quiet _ _ _ _ _ _ _ Er). cbn. apply J. eapply results_sound; eassumption. }
  destruct rs as [|e rs'].
  - destruct (all_named F).
    + destruct (bare_names (f_names F) seen) as [[s r] b] eqn:Eb. cbn. apply J. eapply bare_sound; eassumption.
    + cbn. rewrite <- (app_nil_r snaps). apply J. split; [constructor|intros n v []].
  - destruct e as [x|o|c o|o]; try exact Rg. destruct rs' as [|e' rs']; [|exact Rg].
    destruct (1 <? length (f_names F))%nat; [|exact Rg]. cbn. apply J, spread_sound.
Qed.

Definition calm (s : stmt) : Prop := sends s = [] -> (forall k rs, In (k, rs) (returns s) -> free_return k rs) -> Forall (sound [] 0) (sends (rw F I s)).
Lemma calm_list b : Forall calm b -> flat_map sends b = [] -> (forall k rs, In (k, rs) (flat_map returns b) -> free_return k rs) -> Forall (sound [] 0) (flat_map sends (map (rw F I) b)).
Proof.
  induction 1 as [|s b Hs Hb IH]; intros Q R; [constructor|]. cbn in *. apply app_eq_nil in Q as [Q1 Q2]. apply Forall_app. split.
  - apply Hs; [exact Q1|]. intros k rs H. apply R, in_or_app. left. exact H.
  - apply IH; [exact Q2|]. intros k rs H. apply R, in_or_app. right. exact H.
Qed.
Lemma quiet_sound {A} (f : A -> Prop) l : l = [] -> Forall f l.
Proof. intros ->. constructor. Qed.

Lemma rw_calm (Fn : Forall result_free (f_names F)) s : calm s.
Proof.
  induction s using istmt_ind; unfold calm; intros Q R; cbn [rw sends returns] in *; try (apply quiet_sound; exact Q); try (apply quiet_sound; reflexivity).
  - apply calm_list; assumption.
  - rewrite app_nil_r in *. apply calm_list; assumption.
  - apply app_eq_nil in Q as [Q1 Q2]. apply Forall_app. split; [apply calm_list; [assumption|assumption|intros; apply R, in_or_app; left; assumption]|].
    assert (forall k rs, In (k, rs) (returns s) -> free_return k rs) as Re by (intros; apply R, in_or_app; right; assumption).
    specialize (IHs Q2 Re). destruct s; cbn [rw sends] in *; try (apply quiet_sound; exact Q2); try exact IHs.
    apply Forall_app in IHs as [A1 A2]. apply app_eq_nil in Q2 as [Q3 Q4]. apply Forall_app. split; [exact A1|]. rewrite Q4. constructor.
  - apply calm_list; assumption.
  - revert Q R. induction H as [|b cls Hb Hc IH]; intros Q R; [constructor|]. cbn in *. apply app_eq_nil in Q as [Q1 Q2]. apply Forall_app. split.
    + apply calm_list; [assumption|assumption|intros; apply R, in_or_app; left; assumption].
    + apply IH; [exact Q2|intros; apply R, in_or_app; right; assumption].
  - apply build_sound; [|exact Fn]. apply R. left. reflexivity.
Qed.

(** The pairs of one message: every name once; a variable of the program is sent under its own name, a result under its number. *)
Theorem C84_return_names : forall body, flat_map sends body = [] ->
  (forall k rs, In (k, rs) (flat_map returns body) -> free_return k rs) -> Forall result_free (f_names F) -> Forall result_free (i_end_decls I) ->
  forall sn, In sn (flat_map sends (instrument F I body)) ->
  NoDup (map fst sn) /\ forall n v, In (n, v) sn ->
    n = v \/ exists j, v = p_ret ++ num j /\ n = B "ret" ++ num j \/ v = p_rec ++ num j /\ n = B "rec" ++ num j.
Proof.
  intros body Q R Fn Fe.
  assert (Forall (sound [] 0) (flat_map sends (map (rw F I) body))) as A.
  { apply calm_list; [|exact Q|exact R]. clear Q R. induction body; constructor; [apply rw_calm, Fn|assumption]. }
  assert (Forall (sound [] 0) (flat_map sends (instrument F I body))) as Bd.
  { unfold instrument. destruct (flat_map reached body); [|exact A]. rewrite flat_map_app. apply Forall_app. split; [exact A|]. cbn [app flat_map sends].
    destruct (snap_decls (i_end_decls I) []) as [s seen] eqn:Es. constructor.
    - cbn [fst]. rewrite <- (app_nil_r s). eapply join_sound; [exact Fe|exact Es|]. split; [constructor|intros n v []].
    - apply quiet_sound. unfold tail_return. destruct (f_names F); [reflexivity|]. destruct (_ && _); reflexivity. }
  intros sn H. rewrite Forall_forall in Bd. destruct (Bd _ H) as [N M]. split; [exact N|]. intros n v Hv.
  destruct (M _ _ Hv) as [(-> & _)|(j & _ & X)]; [left; reflexivity|right; exists j; exact X].
Qed.

Lemma num_plain j : ~ In "."%char (num j).
Proof. intros H. apply itoa_chars in H. discriminate H. Qed.

(** So the values captured at a return can be told apart by their names, as C81 asks for. *)
Theorem C84_capture : forall body, flat_map sends body = [] ->
  (forall k rs, In (k, rs) (flat_map returns body) -> free_return k rs) -> Forall result_free (f_names F) -> Forall result_free (i_end_decls I) ->
  forall sn c, In sn (flat_map sends (instrument F I body)) -> map fst (c_snaps c) = map fst sn ->
  (forall x, In (x, x) sn -> plain_name x) ->
  NoDup (map fst (PipeSpec.shown c)) /\ forall nm v, In (nm, v) (PipeSpec.shown c) -> plain_name nm.
Proof.
  intros body Q R Fn Fe sn c H E Pl. destruct (C84_return_names body Q R Fn Fe sn H) as [N Nm]. unfold PipeSpec.shown. rewrite <- E in N. split.
  - clear - N. induction (c_snaps c) as [|[a v] l IH]; [constructor|]. cbn [map fst filter] in *. inversion N as [|? ? Na Nl]; subst. destruct (negb _); [|exact (IH Nl)]. cbn [map fst]. constructor; [|exact (IH Nl)].
    intros X. apply Na. apply in_map_iff in X as ((b & w) & <- & X). apply filter_In in X as [X _]. apply in_map_iff. exists (b, w). auto.
  - intros nm v X. apply filter_In in X as [X _]. assert (In nm (map fst sn)) as Y by (rewrite <- E; apply in_map_iff; exists (nm, v); auto).
    apply in_map_iff in Y as ((n & w) & <- & Y). cbn [fst]. destruct (Nm n w Y) as [<-|(j & [(_ & ->)|(_ & ->)])]; [exact (Pl n Y)| |]; (split; [discriminate|]); intros D; cbn in D; repeat (destruct D as [D|D]; [discriminate|]); exact (num_plain j D).
Qed.
End Returns.
Print Assumptions C84_return_names.
Print Assumptions C84_capture.

(** A name of the program that is not one of those the messages use for arguments. *)
Definition arg_free (x : bytes) : Prop := reserved x = false /\ forall i, x <> B "arg" ++ num i.

Section Calls.
Variable Op : Type.
Notation operand := (CallModel.operand Op).
Variable pkgs : list bytes.
Variable pid : nat -> N.

Definition call_sends (b : list (CallModel.stmt Op)) : list (list (bytes * operand)) :=
  flat_map (fun s => match s with CallModel.SSend _ _ sn => [sn] | _ => [] end) b.
Definition receiver (ops : list operand) : option bytes := match ops with ORecvId x :: _ => Some x | _ => None end.

Lemma args_names k l : forall i s l' n, build_args pid k i l = (s, l', n) ->
  call_sends s = [] /\ map fst n = map (fun j => B "arg" ++ num j) (seq i (length l)) /\
  forall nm o, In (nm, o) n -> exists j, (j < length l)%nat /\ nm = B "arg" ++ num (i + j) /\ (nth_error l j = Some o \/ o = OId (arg_name pid k (i + j))).
Proof.
  induction l as [|a l IH]; intros i s l' n E; cbn [build_args] in E.
  - injection E as <- <- <-. split; [reflexivity|]. split; [reflexivity|intros nm o []].
  - destruct (build_arg pid k i a) as [[s1 a1] n1] eqn:E1. destruct (build_args pid k (S i) l) as [[s2 l2] n2] eqn:E2. injection E as <- <- <-.
    destruct (IH _ _ _ _ E2) as (Q & N & M). unfold call_sends in *. rewrite flat_map_app, Q, app_nil_r.
    assert (exists o, n1 = [(B "arg" ++ num i, o)] /\ (o = a \/ o = OId (arg_name pid k i)) /\ flat_map (fun s => match s with CallModel.SSend _ _ sn => [sn] | _ => [] end) s1 = @nil (list (bytes * operand))) as (o & -> & Ho & ->)
      by (destruct a; cbn in E1; injection E1 as <- <- <-; eexists; (split; [reflexivity|]; split; [auto|reflexivity])).
    split; [reflexivity|]. split; [cbn; rewrite N; reflexivity|]. intros nm o' [H|H].
    + assert (nm = B "arg" ++ num i /\ o' = o) as [-> ->] by (split; congruence). exists 0%nat. rewrite Nat.add_0_r. split; [cbn; lia|]. split; [reflexivity|]. destruct Ho as [-> | ->]; [left; reflexivity|right; reflexivity].
    + destruct (M _ _ H) as (j & L & A & C). exists (S j). cbn [length nth_error]. rewrite Nat.add_succ_r. split; [lia|]. split; [exact A|exact C].
Qed.

Lemma arg_names_nodup i n : NoDup (map (fun j => B "arg" ++ num j) (seq i n)).
Proof. apply FinFun.Injective_map_NoDup; [intros a b H; apply app_inv_head in H; apply num_inj, H|apply seq_NoDup]. Qed.

(** The message of a call: every name once; arguments by number, the receiver under its own name or as "recv". *)
Theorem C84_call_names : forall k ops pre ops' sn, build_call pkgs pid k ops = (pre, ops') -> In sn (call_sends pre) ->
  (forall x, receiver ops = Some x -> arg_free x) ->
  NoDup (map fst sn) /\ forall n o, In (n, o) sn ->
    (exists x, receiver ops = Some x /\ n = x /\ o = ORecvId x) \/ n = B "recv" \/ exists j, n = B "arg" ++ num j.
Proof.
  intros k ops pre ops' sn E Hs Fr.
  assert (forall s l' n, build_args pid k 0 ops = (s, l', n) -> In sn (call_sends (s ++ [CallModel.SSend k (pid k) n])) ->
    NoDup (map fst sn) /\ forall n o, In (n, o) sn -> (exists x, receiver ops = Some x /\ n = x /\ o = ORecvId x) \/ n = B "recv" \/ exists j, n = B "arg" ++ num j) as Plain.
  { intros s l' n E1 H. destruct (args_names _ _ _ _ _ _ E1) as (Q & N & M). unfold call_sends in *. rewrite flat_map_app, Q in H. cbn in H. destruct H as [<-|[]].
    split; [rewrite N; apply arg_names_nodup|]. intros nm o H. destruct (M _ _ H) as (j & _ & -> & _). right. right. exists (0 + j)%nat. reflexivity. }
  assert (forall r args, ops = r :: args -> (let '(s, r', n) := build_recv pkgs pid k r in let '(s', args', n') := build_args pid k 0 args in (s ++ s' ++ [CallModel.SSend k (pid k) (n ++ n')], r' :: args')) = (pre, ops') ->
    (r = ORecvId (match receiver ops with Some x => x | None => [] end) /\ receiver ops <> None \/ exists o, r = ORecvX o) ->
    NoDup (map fst sn) /\ forall n o, In (n, o) sn -> (exists x, receiver ops = Some x /\ n = x /\ o = ORecvId x) \/ n = B "recv" \/ exists j, n = B "arg" ++ num j) as Meth.
  { intros r args -> Eb Hr. destruct (build_recv pkgs pid k r) as [[s r'] n] eqn:Er. destruct (build_args pid k 0 args) as [[s' args'] n'] eqn:Ea. injection Eb as <- <-.
    destruct (args_names _ _ _ _ _ _ Ea) as (Q & N & M). unfold call_sends in *. rewrite !flat_map_app, Q in Hs.
    assert (flat_map (fun s => match s with CallModel.SSend _ _ sn => [sn] | _ => [] end) s = @nil (list (bytes * operand)) /\
      (n = [] \/ exists x o, n = [(x, o)] /\ (forall j, x <> B "arg" ++ num j) /\ ((receiver (r :: args) = Some x /\ o = ORecvId x) \/ x = B "recv"))) as [Q1 Hn].
    { destruct Hr as [[Hr Ne]|[o ->]].
      - destruct (receiver (r :: args)) as [x|] eqn:Ex; [|congruence]. subst r. cbn in Er. specialize (Fr x Ex). destruct (_ && _); injection Er as <- <- <-; (split; [reflexivity|]); [right|left; reflexivity].
        exists (shown x), (ORecvId x). rewrite (shown_plain x (proj1 Fr)). split; [reflexivity|]. split; [exact (proj2 Fr)|]. left. auto.
      - cbn in Er. injection Er as <- <- <-. split; [reflexivity|]. right. eexists _, _. split; [reflexivity|]. split; [discriminate|right; reflexivity]. }
    rewrite Q1 in Hs. cbn in Hs. destruct Hs as [<-|[]]. destruct Hn as [->|(x & o & -> & Hx & Ho)]; cbn.
    - split; [rewrite N; apply arg_names_nodup|]. intros nm o H. destruct (M _ _ H) as (j & _ & -> & _). right. right. exists (0 + j)%nat. reflexivity.
    - split.
      + constructor; [|rewrite N; apply arg_names_nodup]. intros H. rewrite N in H. apply in_map_iff in H as (j & Ej & _). exact (Hx j (eq_sym Ej)).
      + intros nm o' [H|H].
        * assert (nm = x /\ o' = o) as [-> ->] by (split; congruence). destruct Ho as [[H1 H2]| ->]; [left; exists x; auto|right; left; reflexivity].
        * destruct (M _ _ H) as (j & _ & -> & _). right. right. exists (0 + j)%nat. reflexivity. }
  unfold build_call in E. destruct ops as [|r args].
  - destruct (build_args pid k 0 []) as [[s l'] n] eqn:Ea. injection E as <- <-. eapply Plain; [first [exact Ea|reflexivity]|exact Hs].
  - destruct r; try (destruct (build_args pid k 0 _) as [[s l'] n] eqn:Ea; injection E as <- <-; eapply Plain; [first [exact Ea|reflexivity]|exact Hs]).
    + eapply Meth; [reflexivity|exact E|]. left. split; [reflexivity|discriminate].
    + eapply Meth; [reflexivity|exact E|]. right. eauto.
Qed.
End Calls.
Print Assumptions C84_call_names.

(** The name of a value in a message. *)
Definition name_of (f : lfield) : bytes := let 'LF n _ _ _ := f in n.

Section Stored.
Variable sprint : prim -> bytes.
Variable digest : bytes -> bytes.
Notation collected := (fun fs => collect_all sprint digest [] fs []).

Lemma collect_field_key m f : collect_field sprint digest m f [] = m \/ exists x, collect_field sprint digest m f [] = mset (name_of f) x m /\ forall m', collect_field sprint digest m' f [] = mset (name_of f) x m'.
Proof. destruct f as [n ty v ch]. cbn [collect_field name_of]. destruct (should_capture n ty []); [right; eexists; split; [reflexivity|intros m'; reflexivity]|left; reflexivity]. Qed.

Lemma collect_other n l : forall m, (forall f, In f l -> name_of f <> n) -> mget n (collect_all sprint digest m l []) = mget n m.
Proof.
  induction l as [|f l IH]; intros m H; [reflexivity|]. cbn. change (mget n (collect_all sprint digest (collect_field sprint digest m f []) l []) = mget n m).
  rewrite IH by (intros g Hg; apply H; right; exact Hg). destruct (collect_field_key m f) as [->|(x & -> & _)]; [reflexivity|]. apply mget_mset_other. intros E. apply (H f (or_introl eq_refl)). auto.
Qed.

(** Of several values with one name the last is kept; the others are lost. *)
Theorem C84_last_kept : forall fs f gs, (forall g, In g gs -> name_of g <> name_of f) -> collected [f] <> [] ->
  mget (name_of f) (collected (fs ++ f :: gs)) = mget (name_of f) (collected [f]).
Proof.
  intros fs f gs H N. cbn beta. unfold collect_all at 1. rewrite fold_left_app. cbn [fold_left]. change (fold_left _ gs ?m) with (collect_all sprint digest m gs []).
  rewrite collect_other by exact H. unfold collect_all in *. cbn [fold_left] in *.
  destruct (collect_field_key [] f) as [E|(x & E & K)]; [congruence|]. rewrite !K, !mget_mset_same. reflexivity.
Qed.

(** With different names every value is stored, as it would be alone. *)
Theorem C84_stored : forall fs, NoDup (map name_of fs) -> forall f, In f fs -> mget (name_of f) (collected fs) = mget (name_of f) (collected [f]).
Proof.
  intros fs N f H. apply in_split in H as (l & r & ->). rewrite map_app in N. cbn in N. apply NoDup_remove_2 in N.
  assert (forall g, In g r -> name_of g <> name_of f) as Nr by (intros g Hg E; apply N, in_or_app; right; rewrite <- E; apply in_map, Hg).
  assert (forall g, In g l -> name_of g <> name_of f) as Nl by (intros g Hg E; apply N, in_or_app; left; rewrite <- E; apply in_map, Hg).
  assert (collected [f] = [] \/ collected [f] <> []) as [E|E] by (destruct (collected [f]); [left; reflexivity|right; discriminate]).
  - cbn beta in E. rewrite E. unfold collect_all. rewrite fold_left_app. cbn [fold_left]. change (fold_left _ r ?m) with (collect_all sprint digest m r []).
    rewrite collect_other by exact Nr. unfold collect_all in E. cbn [fold_left] in E.
    destruct (collect_field_key (fold_left (fun m f => collect_field sprint digest m f []) l []) f) as [X|(x & X & K)].
    + rewrite X. apply (collect_other (name_of f) l [] Nl).
    + rewrite K in E. exfalso. assert (mget (name_of f) (mset (name_of f) x []) = None) as Y by (rewrite E; reflexivity). rewrite mget_mset_same in Y. discriminate.
  - apply C84_last_kept; [exact Nr|exact E].
Qed.
End Stored.
Print Assumptions C84_last_kept.
Print Assumptions C84_stored.

(** A function with variables and results of both kinds. *)
Definition ex84_func : func := Func (B "f") (map B ["";""]%string) [[]; []].
Definition ex84_info : info nat := Info nat (fun _ => []) (fun _ _ => false) (fun _ => map B ["x";"y"]%string) (fun _ => 7%N) [] 0%N 9 (fun _ => InstrModel.ELit 0).
Example C84_example :
  let body := [InstrModel.SIf 1 [InstrModel.SReturn 0 [InstrModel.EId (B "x"); InstrModel.ECall (B "g") 3]] None; InstrModel.SReturn 1 [InstrModel.ECall (B "g") 4]] in
  flat_map (sends nat) (instrument ex84_func ex84_info body) =
    [[(B "x", B "x"); (B "y", B "y"); (B "ret1", B "lenSyntheticRet1")];
     [(B "x", B "x"); (B "y", B "y"); (B "ret0", B "lenSyntheticRet0"); (B "ret1", B "lenSyntheticRet1")]] /\
  flat_map (sends nat) body = [] /\ (forall k rs, In (k, rs) (flat_map (returns nat) body) -> free_return nat ex84_info k rs).
Proof.
  split; [vm_compute; reflexivity|]. split; [reflexivity|].
  assert (result_free (B "x") /\ result_free (B "y")) as [X Y] by (split; split; [reflexivity|intros i; split; discriminate|reflexivity|intros i; split; discriminate]).
  intros k rs [H|[H|[]]]; injection H as <- <-; split; try (apply Forall_cons; [exact X|apply Forall_cons; [exact Y|apply Forall_nil]]).
  - intros x [H|[H|[]]] _; [injection H as <-; exact X|discriminate].
  - intros x [H|[]] _. discriminate.
Qed.
Example C84_call_example :
  call_sends nat (fst (build_call [B "fmt"] (fun _ => 7%N) 0 [ORecvId (B "s"); OId (B "a"); OOther 3])) =
    [[(B "s", ORecvId (B "s")); (B "arg0", OId (B "a")); (B "arg1", OId (B "lenSyntheticArg7_1"))]] /\ arg_free (B "s").
Proof. split; [reflexivity|]. split; [reflexivity|intros i; discriminate]. Qed.

(** A variable called ret0: it and the first result are sent under one name, and the variable is never compared. *)
Theorem C84_variable_lost_refuted : forall sprint digest,
  let I := Info nat (fun _ => []) (fun _ _ => false) (fun _ => [B "ret0"]) (fun _ => 7%N) [] 0%N 9 (fun _ => InstrModel.ELit 0) in
  flat_map (sends nat) (instrument (Func (B "f") [[]] [[]]) I [InstrModel.SReturn 0 [InstrModel.ECall (B "g") 4]]) =
    [[(B "ret0", B "ret0"); (B "ret0", B "lenSyntheticRet0")]] /\
  forall v v' r, mget (B "ret0") (collect_all sprint digest [] [LF (B "ret0") (B "int") (PInt64 v) []; LF (B "ret0") (B "int") (PInt64 r) []] []) =
    mget (B "ret0") (collect_all sprint digest [] [LF (B "ret0") (B "int") (PInt64 v') []; LF (B "ret0") (B "int") (PInt64 r) []] []).
Proof. intros sprint digest. split; [vm_compute; reflexivity|]. intros v v' r. reflexivity. Qed.
(** A receiver called arg0 likewise. *)
Theorem C84_receiver_lost_refuted :
  call_sends nat (fst (build_call [] (fun _ => 7%N) 0 [ORecvId (B "arg0"); OId (B "a")])) =
    [[(B "arg0", ORecvId (B "arg0")); (B "arg0", OId (B "a"))]].
Proof. reflexivity. Qed.
Print Assumptions C84_variable_lost_refuted.
Print Assumptions C84_receiver_lost_refuted.
