(** Lemmas for RewriteProps.v: which calls get a point. *)
From Verif Require Import Base InstrModel RewriteModel RewriteSpec RewriteProofs RewriteGuard.
Local Open Scope nat_scope.

(** ** Which call *)
Lemma calls_locate j t : calls j t -> locate t <> None.
Proof.
  induction t as [k cs IH] using nd_ind'. intros C. apply locate_some_iff. inversion C as [cs'|k' cs' c N I Cc]; subst; [exact Logic.I|].
  assert (locate_kids cs <> None) as X by (apply locate_kids_iff; exists c; split; [exact I|]; rewrite Forall_forall in IH; exact (IH c I Cc)).
  destruct k; try exact X; [destruct m; [exact Logic.I|exact X]|exfalso; eapply N; reflexivity].
Qed.
Lemma locate_calls t : forall c r, locate t = Some (c, r) -> exists j cs, c = Nd (KCall true j) cs /\ calls j t.
Proof.
  induction t as [k cs IH] using nd_ind'. intros c r H. rewrite locate_eq in H.
  assert ((forall ps, k <> KFun ps) -> match locate_kids cs with Some (x, r0) => Some (x, fun y => Nd k (r0 y)) | None => None end = Some (c, r) -> exists j cs', c = Nd (KCall true j) cs' /\ calls j (Nd k cs)) as G.
  { intros N E. destruct (locate_kids cs) as [[x r']|] eqn:El; [|discriminate E]. injection E as <- <-. destruct (locate_kids_some _ _ _ El) as (i & ri & Hi & Hl & Hr). rewrite Forall_forall in IH.
    destruct (IH _ (nth_In _ _ Hi) _ _ Hl) as (j & cs' & E & C). exists j, cs'. split; [exact E|]. apply calls_in with (c := nth i cs none); [exact N|apply nth_In, Hi|exact C]. }
  destruct k as [| | | | | | | |m j| | | | | | | | | | | | | | | | | | |]; try (apply (G ltac:(discriminate) H)); try discriminate H. destruct m; [|apply (G ltac:(discriminate) H)]. injection H as <- <-. exists j, cs. split; [reflexivity|apply calls_here].
Qed.
Lemma locate_at_calls i t : (i < length (kids t) /\ exists j, calls j (kid i t)) -> locate_at i t <> None.
Proof. intros (L & j & C). unfold locate_at. destruct (Nat.ltb_spec i (length (kids t))) as [_|X]; [|lia]. pose proof (calls_locate _ _ C). destruct (locate (kid i t)) as [[x r]|]; [discriminate|contradiction]. Qed.
Lemma locate_at_due i t c r : locate_at i t = Some (c, r) -> exists j cs, c = Nd (KCall true j) cs /\ calls j (kid i t) /\ i < length (kids t).
Proof. intros H. destruct (locate_at_spec _ _ _ _ H) as (ri & L & Hl & _). destruct (locate_calls _ _ _ Hl) as (j & cs & E & C). exists j, cs. auto. Qed.
Lemma firstn_kid c n t : In c (firstn n (kids t)) -> exists i, i < n /\ i < length (kids t) /\ kid i t = c.
Proof.
  intros H. apply (In_nth _ _ none) in H as (i & L & E). rewrite firstn_length in L. exists i. split; [lia|]. split; [lia|]. unfold kid. fold none. rewrite <- E. clear E. revert n i L. generalize (kids t). intros l. induction l as [|x l IH]; intros n i L; [cbn in L; lia|].
  destruct n; [lia|]. destruct i; [reflexivity|]. cbn [firstn nth]. apply IH. cbn in L. lia.
Qed.
Lemma locate_comm_none cls : locate_comm cls = None -> forall cl, In cl cls -> kind_of cl = KClause -> locate_at 0 cl = None.
Proof.
  induction cls as [|x cls IH]; intros H cl I K; [destruct I|]. cbn [locate_comm] in H. destruct (match kind_of x with KClause => locate_at 0 x | _ => None end) as [[c1 r1]|] eqn:E; [discriminate H|]. destruct (locate_comm cls) as [[c1 r1]|] eqn:E2; [discriminate H|].
  destruct I as [->|I]; [rewrite K in E; exact E|auto].
Qed.
Lemma focus_none t : wraps t = None -> focus t = None -> forall j, ~ due j t.
Proof.
  intros Hw H j D. unfold focus, due in *. destruct (kind_of t) eqn:K; try exact D.
  - apply (calls_locate _ _ D H).
  - apply (calls_locate _ _ D H).
  - apply (calls_locate _ _ D H).
  - apply (calls_locate _ _ D H).
  - destruct D as (cs & E). destruct t as [k l]. cbn in *. subst. discriminate Hw.
  - destruct D as (cs & E). destruct t as [k l]. cbn in *. subst. discriminate Hw.
  - destruct D as (c & v & l & E & C). apply (locate_at_calls 1 t); [|exact H]. rewrite E. split; [cbn; lia|]. exists j. unfold kid. rewrite E. exact C.
  - destruct D as (c & I & C). apply firstn_kid in I as (i & L1 & L2 & <-). unfold locate_or in H. destruct (locate_at 0 t) eqn:E0; [discriminate H|]. destruct i as [|[|i]]; [exact (locate_at_calls 0 t (conj L2 (ex_intro _ j C)) E0)|exact (locate_at_calls 1 t (conj L2 (ex_intro _ j C)) H)|lia].
  - destruct D as (c & I & C). apply firstn_kid in I as (i & L1 & L2 & <-). unfold locate_or in H. destruct (locate_at 0 t) eqn:E0; [discriminate H|]. destruct i as [|[|i]]; [exact (locate_at_calls 0 t (conj L2 (ex_intro _ j C)) E0)|exact (locate_at_calls 1 t (conj L2 (ex_intro _ j C)) H)|lia].
  - destruct D as (c & I & C). apply firstn_kid in I as (i & L1 & L2 & <-). destruct i as [|i]; [exact (locate_at_calls 0 t (conj L2 (ex_intro _ j C)) H)|lia].
  - destruct D as (c & I & C). apply firstn_kid in I as (i & L1 & L2 & <-). unfold locate_or in H. destruct (locate_at 0 t) eqn:E0; [discriminate H|]. destruct i as [|[|i]]; [exact (locate_at_calls 0 t (conj L2 (ex_intro _ j C)) E0)|exact (locate_at_calls 1 t (conj L2 (ex_intro _ j C)) H)|lia].
  - destruct D as (c & I & C). apply firstn_kid in I as (i & L1 & L2 & <-). unfold locate_or in H. destruct (locate_at 0 t) eqn:E0; [discriminate H|]. destruct i as [|[|i]]; [exact (locate_at_calls 0 t (conj L2 (ex_intro _ j C)) E0)|exact (locate_at_calls 1 t (conj L2 (ex_intro _ j C)) H)|lia].
  - destruct D as (cl & c & I1 & Kc & I2 & C). apply firstn_kid in I2 as (i & L1 & L2 & <-). destruct i as [|i]; [|lia]. destruct (locate_comm (kids t)) as [[c1 r1]|] eqn:E; [discriminate H|]. exact (locate_at_calls 0 cl (conj L2 (ex_intro _ j C)) (locate_comm_none _ E cl I1 Kc)).
Qed.
Lemma focus_due t c r : focus t = Some (c, r) -> exists j cs, c = Nd (KCall true j) cs /\ due j t.
Proof.
  intros H. unfold focus, due in *.
  assert (forall i n, i < n -> locate_at i t = Some (c, r) -> exists j cs, c = Nd (KCall true j) cs /\ exists x, In x (firstn n (kids t)) /\ calls j x) as G.
  { intros i n Hi E. destruct (locate_at_due _ _ _ _ E) as (j & cs & E' & C & L). exists j, cs. split; [exact E'|]. exists (kid i t). split; [apply kid_firstn; assumption|exact C]. }
  assert (locate_or 0 1 t = Some (c, r) -> exists j cs, c = Nd (KCall true j) cs /\ exists x, In x (firstn 2 (kids t)) /\ calls j x) as G2.
  { unfold locate_or. destruct (locate_at 0 t) as [[c1 r1]|] eqn:E0; [intros E; injection E as <- <-; apply (G 0 2 ltac:(lia) E0)|]. intros E. apply (G 1 2 ltac:(lia) E). }
  destruct (kind_of t) eqn:K; try discriminate H; try (apply (locate_calls _ _ _ H)); try (apply (G2 H)).
  - destruct (locate_at_due _ _ _ _ H) as (j & cs & E' & C & L). exists j, cs. split; [exact E'|]. unfold kid in C. destruct (kids t) as [|a [|b l]] eqn:Ek; [cbn in L; lia|cbn in L; lia|]. exists a, b, l. split; [reflexivity|exact C].
  - apply (G 0 1 ltac:(lia) H).
  - destruct (locate_comm (kids t)) as [[c1 r1]|] eqn:E; [|discriminate H]. injection H as <- <-. destruct (locate_comm_spec _ _ _ E) as (i & ri & L & Hi & Hr & Hk). destruct (locate_at_due _ _ _ _ Hi) as (j & cs & E' & C & L').
    exists j, cs. split; [exact E'|]. exists (nth i (kids t) none), (kid 0 (nth i (kids t) none)). split; [apply nth_In, L|]. split; [exact Hk|]. split; [apply kid_firstn; [exact L'|lia]|exact C].
Qed.

(** ** The walk *)
Definition covered (P : list (N * nat)) (t : nd) : Prop :=
  ((exists j, due j t) -> exists j, due j t /\ In j (map snd P)) /\
  (forall i c p b, t = Nd KFor [i; c; p; b] -> (exists j, calls j p) -> exists j, calls j p /\ In j (map snd P)).
Lemma covered_mono P P' t : incl P P' -> covered P t -> covered P' t.
Proof.
  intros I [A B]. split.
  - intros H. destruct (A H) as (j & D & Ij). exists j. split; [exact D|]. apply in_map_iff in Ij as (x & <- & Ix). apply in_map, I, Ix.
  - intros i c p b E H. destruct (B i c p b E H) as (j & D & Ij). exists j. split; [exact D|]. apply in_map_iff in Ij as (x & <- & Ix). apply in_map, I, Ix.
Qed.
Lemma locate_at_inner i t c r l : match kind_of t with KIf | KFor | KSwitch | KTypeSwitch => i < 2 | KRange _ => i = 0 | _ => False end -> locate_at i t = Some (c, r) -> inner t l -> forall y, inner (r y) l.
Proof.
  intros K H In y. destruct (locate_at_spec _ _ _ _ H) as (ri & L & _ & ->). clear H.
  inversion In; subst; cbn [kind_of kids] in *; try (destruct K; fail); try (destruct i as [|[|i]]; [constructor|constructor|lia]); try (subst i; constructor).
  destruct H as [-> | ->]; (destruct i as [|[|i]]; [apply (inner_switch _ _ _ _ h); auto|apply (inner_switch _ _ _ _ h); auto|lia]).
Qed.
Lemma focus_inner t c r l : focus t = Some (c, r) -> inner t l -> forall y, inner (r y) l.
Proof.
  intros H In y. unfold focus in H.
  assert (match kind_of t with KIf | KFor | KSwitch | KTypeSwitch => True | _ => False end -> locate_or 0 1 t = Some (c, r) -> inner (r y) l) as G.
  { intros K. unfold locate_or. destruct (locate_at 0 t) as [[c1 r1]|] eqn:E0; intros E; [injection E as <- <-; apply (locate_at_inner 0 t c1 r1 l); [destruct (kind_of t); try destruct K; lia|exact E0|exact In]|].
    apply (locate_at_inner 1 t c r l); [destruct (kind_of t); try destruct K; lia|exact E|exact In]. }
  destruct (kind_of t) eqn:K; try discriminate H; try (apply (G I H)); try (inversion In; subst; discriminate K).
  - inversion In; subst; try discriminate K. destruct H0 as [-> | ->]; discriminate K.
  - inversion In; subst; try discriminate K. destruct H0 as [-> | ->]; discriminate K.
  - inversion In; subst; try discriminate K. destruct H0 as [-> | ->]; discriminate K.
  - inversion In; subst; try discriminate K. destruct H0 as [-> | ->]; discriminate K.
  - inversion In; subst; try discriminate K. destruct H0 as [-> | ->]; discriminate K.
  - apply (locate_at_inner 0 t c r l); [rewrite K; reflexivity|exact H|exact In].
  - destruct (locate_comm (kids t)) as [[c1 r1]|] eqn:E; [|discriminate H]. injection H as <- <-. destruct (locate_comm_spec _ _ _ E) as (i & ri & L & Hi & Hr & Hk). rewrite Hr.
    inversion In as [| | | | | |k a b cls h l0 Kk|cls h l0 Ic]; subst; try discriminate K; [destruct Kk as [-> | ->]; discriminate K|]. cbn [kids] in *. destruct (locate_at_spec _ _ _ _ Hi) as (rj & Lj & _ & Hrj).
    apply (In_nth _ _ none) in Ic as (n & Ln & En). destruct (Nat.eq_dec n i) as [->|Ne].
    + rewrite Hrj, Hk, En. cbn [kids put]. apply (inner_select _ (rj y)). match goal with |- List.In ?x (put i _ _) => destruct (put_split i x cls none L) as [_ ->] end. apply in_or_app. right. left. reflexivity.
    + apply (inner_select _ h). rewrite <- En. rewrite <- (put_length i (ri y)) in Ln. replace (nth n cls none) with (nth n (put i (ri y) cls) none); [apply nth_In, Ln|]. rewrite put_nth by exact L. destruct (Nat.eqb_spec n i); [contradiction|reflexivity].
Qed.
Lemma focus_post t c r i c0 p b : focus t = Some (c, r) -> t = Nd KFor [i; c0; p; b] -> forall y, exists i' c', r y = Nd KFor [i'; c'; p; b].
Proof.
  intros H -> y. cbn [focus kind_of] in H. unfold locate_or in H. destruct (locate_at 0 _) as [[c1 r1]|] eqn:E0.
  - injection H as <- <-. destruct (locate_at_spec _ _ _ _ E0) as (ri & _ & _ & ->). cbn. eauto.
  - destruct (locate_at_spec _ _ _ _ H) as (ri & _ & _ & ->). cbn. eauto.
Qed.
Lemma nomsg_kids k cs : nomsg (Nd k cs) = true -> Forall (fun t => nomsg t = true) cs.
Proof. intros H. apply Forall_forall. intros x I. assert (forallb nomsg cs = true) as F by (destruct k; try discriminate H; exact H). exact (proj1 (forallb_forall _ _) F x I). Qed.
Lemma inner_nomsg t l : nomsg t = true -> inner t l -> Forall (fun t => nomsg t = true) l.
Proof.
  intros H In. assert (forall u, List.In u (kids t) -> nomsg u = true) as G. { destruct t as [k cs]. apply nomsg_kids in H. rewrite Forall_forall in H. exact H. }
  inversion In; subst; cbn [kids] in G.
  - exact (nomsg_kids _ _ H).
  - apply (nomsg_kids KBlock). apply G. cbn. auto.
  - apply (nomsg_kids KBlock). apply G. cbn. auto.
  - assert (nomsg (Nd KIf (i' :: c' :: Nd KBlock l :: e)) = true) as X by (apply G; cbn; auto). apply nomsg_kids in X. rewrite Forall_forall in X. apply (nomsg_kids KBlock). apply X. cbn. auto.
  - apply (nomsg_kids KBlock). apply G. cbn. auto.
  - apply (nomsg_kids KBlock). apply G. cbn. auto.
  - assert (nomsg (Nd KClause (h :: l)) = true) as X by (apply G; cbn; auto). apply nomsg_kids in X. inversion X; assumption.
  - assert (nomsg (Nd KClause (h :: l)) = true) as X by (apply G; cbn; auto). apply nomsg_kids in X. inversion X; assumption.
Qed.
Lemma literal_nomsg l t : literal l t -> nomsg t = true -> Forall (fun t => nomsg t = true) l.
Proof. induction 1 as [ps|k cs c N I L IH]; intros H; [exact (nomsg_kids _ _ H)|]. apply nomsg_kids in H. rewrite Forall_forall in H. auto. Qed.
Lemma nomsg_id t : nomsg t = true -> is_message t = false.
Proof. intros H. destruct t as [k cs]. destruct k; try reflexivity. destruct cs as [|[[] ?] [|? ?]]; try reflexivity. discriminate H. Qed.
Lemma id_message t : is_message t = match msg_id t with Some _ => true | None => false end.
Proof. destruct t as [k cs]. destruct k; try reflexivity. destruct cs as [|[[] ?] [|? ?]]; reflexivity. Qed.
Lemma last_app {A} (l : list A) x d : last (l ++ [x]) d = x.
Proof. induction l as [|y l IH]; [reflexivity|]. cbn [app last]. destruct (l ++ [x]) eqn:E; [destruct l; discriminate E|exact IH]. Qed.

Lemma nested_total_kind pk rb s t s' t' : nested pk rb s t = Some (s', t') -> kind_of t' = kind_of t.
Proof.
  intros H. unfold nested in H. destruct (kind_of t) eqn:K; try (injection H as <- <-; exact K).
  - destruct t as [k cs]. cbn in K. subst k. cbn [into] in H. destruct (rb s cs) as [[s1 l1]|]; [|discriminate H]. injection H as <- <-. reflexivity.
  - destruct (into_at rb 2 s t) as [[s1 t1]|] eqn:E1; [|discriminate H]. pose proof (into_at_kind _ _ _ _ _ _ E1) as K1. unfold into_else in H. destruct (kind_of (kid 3 t1)); try (injection H as <- <-; congruence).
    + rewrite (into_at_kind _ _ _ _ _ _ H). congruence.
    + destruct (into_at rb 2 s1 (kid 3 t1)) as [[s2 e]|]; [|discriminate H]. injection H as <- <-. cbn [kind_of]. congruence.
  - destruct (post pk s t) as [s1 t1] eqn:E1. rewrite (into_at_kind _ _ _ _ _ _ H). exact (proj2 (post_deep _ _ _ _ _ K E1)).
  - rewrite (into_at_kind _ _ _ _ _ _ H). exact K.
  - destruct (kids t) as [|a [|b cs]]; [injection H as <- <-; exact K|injection H as <- <-; exact K|]. destruct (each (into rb) s cs) as [[s1 c1]|]; [|discriminate H]. injection H as <- <-. reflexivity.
  - destruct (kids t) as [|a [|b cs]]; [injection H as <- <-; exact K|injection H as <- <-; exact K|]. destruct (each (into rb) s cs) as [[s1 c1]|]; [|discriminate H]. injection H as <- <-. reflexivity.
  - destruct (each (into rb) s (kids t)) as [[s1 c1]|]; [|discriminate H]. injection H as <- <-. reflexivity.
Qed.

Section Cover.
Variable pk : list bytes.
Variable rb : state -> list nd -> option (state * list nd).
Hypothesis rb_ok : forall s l s' l', rb s l = Some (s', l') -> incl (st_points s) (st_points s') /\ (Ok (st_points s) l -> Ok (st_points s') l').
Hypothesis rb_cov : forall s l s' l', rb s l = Some (s', l') -> Forall (fun t => nomsg t = true) l -> forall t, reached t l -> covered (st_points s') t.
(** [l] is looked through on the way. *)
Definition seen (l : list nd) (s' : state) : Prop := exists sa sb l', rb sa l = Some (sb, l') /\ incl (st_points sb) (st_points s').
Lemma seen_mono l s s' : seen l s -> incl (st_points s) (st_points s') -> seen l s'.
Proof. intros (sa & sb & l' & E & I) I'. exists sa, sb, l'. split; [exact E|exact (incl_tran I I')]. Qed.
Lemma seen_cov l s' : seen l s' -> Forall (fun t => nomsg t = true) l -> forall t, reached t l -> covered (st_points s') t.
Proof. intros (sa & sb & l' & E & I) N t R. exact (covered_mono _ _ _ I (rb_cov _ _ _ _ E N t R)). Qed.
Lemma each_seen (f : state -> nd -> option (state * nd)) (l0 : list nd) l : (forall t, In t l -> forall s s' t', f s t = Some (s', t') -> incl (st_points s) (st_points s')) ->
  forall t, In t l -> (forall s s' t', f s t = Some (s', t') -> seen l0 s') -> forall s s' l', each f s l = Some (s', l') -> seen l0 s'.
Proof.
  induction l as [|u l IH]; intros HI t I Ht s s' l' E; [destruct I|]. cbn [each] in E. fold (each f) in E. destruct (f s u) as [[s1 u1]|] eqn:E1; [|discriminate E]. destruct (each f s1 l) as [[s2 l2]|] eqn:E2; [|discriminate E]. injection E as <- <-.
  destruct I as [->|I].
  - apply (seen_mono _ s1); [exact (Ht _ _ _ E1)|]. clear - HI E2. assert (forall t, In t l -> forall s s' t', f s t = Some (s', t') -> incl (st_points s) (st_points s')) as H by (intros; eapply HI; [right|]; eassumption). clear HI.
    revert s1 s2 l2 E2. induction l as [|x l IHl]; intros s1 s2 l2 E; [injection E as <- <-; apply incl_refl|]. cbn [each] in E. fold (each f) in E. destruct (f s1 x) as [[sa xa]|] eqn:Ea; [|discriminate E]. destruct (each f sa l) as [[sb lb]|] eqn:Eb; [|discriminate E]. injection E as <- <-.
    exact (incl_tran (H x (or_introl eq_refl) _ _ _ Ea) (IHl (fun t It => H t (or_intror It)) _ _ _ Eb)).
  - exact (IH (fun t It => HI t (or_intror It)) t I Ht _ _ _ E2).
Qed.
Lemma into_seen k l s s' t' : into rb s (Nd KBlock l) = Some (s', t') \/ (exists h, into rb s (Nd KClause (h :: l)) = Some (s', t')) -> k = 0 -> seen l s'.
Proof.
  intros H _. destruct H as [H|(h & H)]; cbn [into] in H; (destruct (rb s l) as [[s1 l1]|] eqn:E; [|discriminate H]; injection H as <- <-; exists s, s1, l1; split; [exact E|apply incl_refl]).
Qed.
Lemma nested_seen s t s' t' l : nested pk rb s t = Some (s', t') -> inner t l -> seen l s'.
Proof.
  intros H In. inversion In; subst; cbn [nested kind_of kids] in H.
  - apply (into_seen 0 l s s' t'); auto.
  - destruct (into_at rb 2 s _) as [[s1 t1]|] eqn:E1; [|discriminate H]. assert (kind_of t1 = KIf) as K1 by (rewrite (into_at_kind _ _ _ _ _ _ E1); reflexivity). destruct (into_else_W rb rb_ok _ _ _ _ K1 H) as [I _]. apply (seen_mono _ s1); [|exact I].
    unfold into_at in E1. cbn [kids length Nat.ltb Nat.leb kid nth] in E1. destruct (into rb s (Nd KBlock l)) as [[s2 c2]|] eqn:E2; [|discriminate E1]. apply (into_seen 0 l s s1 c2); [left; congruence|reflexivity].
  - destruct (into_at rb 2 s _) as [[s1 t1]|] eqn:E1; [|discriminate H]. assert (exists b', t1 = Nd KIf [i; c; b'; Nd KBlock l]) as (b' & ->).
    { unfold into_at in E1. cbn [kids length Nat.ltb Nat.leb kid nth kind_of put] in E1. destruct (into rb s b) as [[s2 c2]|]; [|discriminate E1]. injection E1 as <- <-. eauto. }
    unfold into_else in H. cbn [kid kids nth kind_of] in H. unfold into_at in H. cbn [kids length Nat.ltb Nat.leb kid nth kind_of put] in H. destruct (into rb s1 (Nd KBlock l)) as [[s2 c2]|] eqn:E2; [|discriminate H]. apply (into_seen 0 l s1 s' c2); [left; congruence|reflexivity].
  - destruct (into_at rb 2 s _) as [[s1 t1]|] eqn:E1; [|discriminate H]. assert (exists b', t1 = Nd KIf [i; c; b'; Nd KIf (i' :: c' :: Nd KBlock l :: e)]) as (b' & ->).
    { unfold into_at in E1. cbn [kids length Nat.ltb Nat.leb kid nth kind_of put] in E1. destruct (into rb s b) as [[s2 c2]|]; [|discriminate E1]. injection E1 as <- <-. eauto. }
    unfold into_else in H. cbn [kid kids nth kind_of] in H. unfold into_at in H. cbn [kids length Nat.ltb Nat.leb kid nth kind_of put] in H. destruct (into rb s1 (Nd KBlock l)) as [[s2 c2]|] eqn:E2; [|discriminate H]. apply (into_seen 0 l s1 s' c2); [left; congruence|reflexivity].
  - destruct (post pk s _) as [s1 t1] eqn:E1. assert (exists p', t1 = Nd KFor [i; c; p'; Nd KBlock l]) as (p' & ->).
    { unfold post in E1. cbn [kids length Nat.ltb Nat.leb kid nth kind_of put] in E1. destruct (locate p) as [[x r]|]; [destruct (build pk (st_next s) x)|]; injection E1 as <- <-; eauto. }
    unfold into_at in H. cbn [kids length Nat.ltb Nat.leb kid nth kind_of put] in H. destruct (into rb s1 (Nd KBlock l)) as [[s2 c2]|] eqn:E2; [|discriminate H]. apply (into_seen 0 l s1 s' c2); [left; congruence|reflexivity].
  - unfold into_at in H. cbn [kids length Nat.ltb Nat.leb kid nth kind_of put] in H. destruct (into rb s (Nd KBlock l)) as [[s2 c2]|] eqn:E2; [|discriminate H]. apply (into_seen 0 l s s' c2); [left; congruence|reflexivity].
  - assert (match each (into rb) s cls with Some (s', cls') => Some (s', Nd k (a :: b :: cls')) | None => None end = Some (s', t')) as H' by (destruct H0 as [-> | ->]; exact H). clear H.
    destruct (each (into rb) s cls) as [[s1 cls1]|] eqn:E; [|discriminate H']. injection H' as <- <-. apply (each_seen (into rb) l cls (fun u _ sa sb ub Eu => proj1 (into_guard rb rb_ok u _ _ _ Eu)) _ H1) with (2 := E). intros sa sb ub Eu. apply (into_seen 0 l sa sb ub); eauto.
  - destruct (each (into rb) s cls) as [[s1 cls1]|] eqn:E; [|discriminate H]. injection H as <- <-. apply (each_seen (into rb) l cls (fun u _ sa sb ub Eu => proj1 (into_guard rb rb_ok u _ _ _ Eu)) _ H0) with (2 := E). intros sa sb ub Eu. apply (into_seen 0 l sa sb ub); eauto.
Qed.
Lemma lits_seen l t : literal l t -> forall s s' t', lits rb s t = Some (s', t') -> seen l s'.
Proof.
  induction 1 as [ps|k cs c N I L IH]; intros s s' t' H.
  - cbn [lits] in H. destruct (rb s l) as [[s1 l1]|] eqn:E; [|discriminate H]. injection H as <- <-. exists s, s1, l1. split; [exact E|apply incl_refl].
  - assert (match each (lits rb) s cs with Some (s', cs') => Some (s', Nd k cs') | None => None end = Some (s', t')) as H' by (destruct k; try exact H; exfalso; eapply N; reflexivity). destruct (each (lits rb) s cs) as [[s1 cs1]|] eqn:E; [|discriminate H']. injection H' as <- <-.
    apply (each_seen (lits rb) l cs (fun u _ sa sb ub Eu => proj1 (lits_guard rb rb_ok u _ _ _ Eu)) c I IH) with (1 := E).
Qed.
Lemma nested_flat s t : flat t = true -> nested pk rb s t = Some (s, t).
Proof. destruct t as [k cs]. intros H. destruct k; try reflexivity; discriminate H. Qed.
Lemma post_points s t s' t' i c p b : nested pk rb s t = Some (s', t') -> t = Nd KFor [i; c; p; b] -> (exists j, calls j p) -> exists j, calls j p /\ In j (map snd (st_points s')).
Proof.
  intros H -> (j & C). cbn [nested kind_of] in H. destruct (post pk s _) as [s1 t1] eqn:E1. assert (kind_of t1 = KFor) as K1 by exact (proj2 (post_deep pk s (Nd KFor [i; c; p; b]) s1 t1 eq_refl E1)). assert (behind 3 (kind_of t1)) as B3 by (rewrite K1; cbn; lia). destruct (into_at_W rb rb_ok 3 _ _ _ _ B3 H) as [I _].
  unfold post in E1. cbn [kids length Nat.ltb Nat.leb kid nth kind_of] in E1. pose proof (calls_locate _ _ C) as L. destruct (locate p) as [[x r]|] eqn:Ep; [|exfalso; apply L; reflexivity]. destruct (locate_calls _ _ _ Ep) as (j' & cs' & -> & C'). destruct (build pk (st_next s) _) as [pre c'] eqn:Eb. injection E1 as <- _.
  exists j'. split; [exact C'|]. apply (in_map snd _ (st_next s, j')), I, draw_new. reflexivity.
Qed.
Lemma focus_id t c r c' : focus t = Some (c, r) -> kind_of c' = kind_of c -> deep c' <= deep c -> msg_id (r c') = msg_id t.
Proof.
  intros H K D. destruct (focus_spec _ _ _ H) as (_ & _ & HR). destruct (HR c' K D) as [_ Kt]. destruct t as [k cs]. cbn [kind_of] in Kt. destruct (r c') as [kr cr] eqn:Er. cbn in Kt. subst kr. destruct k; try reflexivity.
  cbn [focus kind_of] in H. rewrite locate_eq in H. destruct (locate_kids cs) as [[x r']|] eqn:El; [|discriminate H]. injection H as <- <-. destruct (locate_kids_some _ _ _ El) as (i & ri & Hi & Hl & Hr). injection Er as <-. rewrite Hr. apply msg_cong.
  apply (put_rel (fun x y => kind_of y = kind_of x) i (ri c') cs none (fun _ => eq_refl) Hi). destruct (locate_spec _ _ _ Hl) as (_ & _ & _ & HL). exact (proj2 (proj1 (HL c' K D))).
Qed.
Lemma nested_id s t s' t' : nested pk rb s t = Some (s', t') -> kind_of t = KExpr -> t' = t.
Proof. intros H K. unfold nested in H. rewrite K in H. injection H as _ <-. reflexivity. Qed.
Lemma step_cov s acc t s' acc' : after_message acc = false -> nomsg t = true -> step pk rb s acc t = Some (s', acc') ->
  after_message acc' = false /\ covered (st_points s') t /\ (forall l, inner t l -> seen l s') /\ (flat t = true -> (forall j, ~ due j t) -> forall l, literal l t -> seen l s').
Proof.
  intros Ha Nt H. unfold step in H. rewrite Ha in H. destruct (wraps t) as [c|] eqn:Ew.
  - destruct (build pk (st_next s) c) as [pre c'] eqn:Eb. destruct (each (lits rb) (draw s c) pre) as [[s1 pre']|] eqn:E1; [|discriminate H]. injection H as <- <-. destruct (wraps_spec _ _ Ew) as ((j & cs & ->) & Kt & K & _).
    destruct (each_like _ _ pre (fun u _ => lits_guard rb rb_ok u) _ _ _ E1) as (A1 & _).
    assert (due j t) as D by (unfold due; destruct K as [-> | ->]; exists cs; exact Kt).
    split; [unfold after_message; rewrite last_app; destruct K as [-> | ->]; reflexivity|]. split.
    + split; [|intros i c0 p b ->; cbn in K; destruct K; discriminate]. intros _. exists j. split; [exact D|]. apply (in_map snd _ (st_next s, j)), A1, draw_new. reflexivity.
    + split; [|intros _ X; exfalso; exact (X j D)]. intros l In. exfalso. inversion In; subst; cbn [kind_of] in K; try (destruct K; discriminate); destruct H as [-> | ->]; destruct K; discriminate.
  - destruct (match focus t with Some (c, r) => let (pre, c') := build pk (st_next s) c in (draw s c, pre, r c') | None => (s, [], t) end) as [[s1 pre] t1] eqn:Ef.
    destruct (nested pk rb s1 t1) as [[s2 t2]|] eqn:E2; [|discriminate H]. destruct (lits rb s2 t2) as [[s3 t3]|] eqn:E3; [|discriminate H]. injection H as <- <-.
    destruct (nested_W pk rb rb_ok _ _ _ _ E2) as [I2 _]. destruct (lits_guard rb rb_ok _ _ _ _ E3) as (I3 & L3 & _). pose proof (incl_tran I2 I3) as I23.
    assert (msg_id t1 = msg_id t /\ kind_of t1 = kind_of t /\ (forall l, inner t l -> inner t1 l) /\ (forall i c p b, t = Nd KFor [i; c; p; b] -> exists i' c', t1 = Nd KFor [i'; c'; p; b]) /\
            ((exists j, due j t) -> exists j, due j t /\ In j (map snd (st_points s1))) /\ ((forall j, ~ due j t) -> t1 = t)) as (M1 & K1 & In1 & P1 & C1 & T1).
    { destruct (focus t) as [[c r]|] eqn:Ef'.
      - destruct (build pk (st_next s) c) as [p0 c'] eqn:Eb. injection Ef as <- <- <-. destruct (focus_due _ _ _ Ef') as (j & cs & -> & D). destruct (build_deep _ _ _ _ _ Eb ltac:(eauto)) as (_ & Db & Kb). destruct (focus_spec _ _ _ Ef') as (_ & _ & HR).
        split; [exact (focus_id _ _ _ _ Ef' Kb Db)|]. split; [exact (proj2 (HR c' Kb Db))|]. split; [intros l In; exact (focus_inner _ _ _ _ Ef' In c')|]. split; [intros i c p b Et; exact (focus_post _ _ _ _ _ _ _ Ef' Et c')|].
        split; [|intros X; exfalso; exact (X j D)]. intros _. exists j. split; [exact D|]. apply (in_map snd _ (st_next s, j)), draw_new. reflexivity.
      - injection Ef as <- <- <-. split; [reflexivity|]. split; [reflexivity|]. split; [auto|]. split; [eauto|]. split; [|reflexivity]. intros (j & D). exfalso. exact (focus_none _ Ew Ef' j D). }
    assert (is_message t3 = false) as M3.
    { rewrite id_message. destruct (like_M0 _ _ L3) as (K3 & -> & _). rewrite <- id_message. destruct (is_message t2) eqn:X; [|reflexivity]. exfalso. assert (kind_of t2 = KExpr) as Kx by (destruct t2 as [[] ?]; try discriminate X; reflexivity).
      assert (kind_of t1 = KExpr) as Ky. { pose proof (nested_total_kind pk rb s1 t1 s2 t2 E2) as Z. congruence. }
      rewrite (nested_id _ _ _ _ E2 Ky) in X. rewrite id_message, M1, <- id_message, (nomsg_id _ Nt) in X. discriminate X. }
    split; [unfold after_message; rewrite app_assoc, last_app; exact M3|]. split; [split|].
    + intros D. destruct (C1 D) as (j & Dj & Ij). exists j. split; [exact Dj|]. apply in_map_iff in Ij as (x & <- & Ix). apply in_map, I23, Ix.
    + intros i c p b Et Cp. destruct (P1 i c p b Et) as (i' & c' & Et1). destruct (post_points _ _ _ _ _ _ _ _ E2 Et1 Cp) as (j & Cj & Ij). exists j. split; [exact Cj|]. apply in_map_iff in Ij as (x & <- & Ix). apply in_map, I3, Ix.
    + split.
      * intros l In. apply (seen_mono _ s2); [exact (nested_seen _ _ _ _ _ E2 (In1 l In))|exact I3].
      * intros Fl Nd l Ll. rewrite (T1 Nd) in E2. rewrite (nested_flat _ _ Fl) in E2. injection E2 as <- <-. exact (lits_seen _ _ Ll _ _ _ E3).
Qed.
Lemma steps_cov l : Forall (fun t => nomsg t = true) l -> forall s acc s' l', after_message acc = false -> steps pk rb s acc l = Some (s', l') ->
  forall t, In t l -> covered (st_points s') t /\ (forall l, inner t l -> seen l s') /\ (flat t = true -> (forall j, ~ due j t) -> forall l, literal l t -> seen l s').
Proof.
  induction 1 as [|u l Nu N IH]; intros s acc s' l' Ha H t I; [destruct I|]. cbn [steps] in H. destruct (step pk rb s acc u) as [[s1 acc1]|] eqn:E; [|discriminate H]. destruct (step_cov _ _ _ _ _ Ha Nu E) as (A1 & A2 & A3 & A4). destruct (steps_ok pk rb rb_ok _ _ _ _ _ H) as [I1 _].
  destruct I as [->|I]; [|exact (IH _ _ _ _ A1 H t I)]. split; [exact (covered_mono _ _ _ I1 A2)|]. split; [intros l0 In0; exact (seen_mono _ _ _ (A3 l0 In0) I1)|]. intros Fl Nd l0 L0. exact (seen_mono _ _ _ (A4 Fl Nd l0 L0) I1).
Qed.
Lemma steps_reached l s s' l' : Forall (fun t => nomsg t = true) l -> steps pk rb s [] l = Some (s', l') -> forall t, reached t l -> covered (st_points s') t.
Proof.
  intros N H t R. assert (forall u, In u l -> covered (st_points s') u /\ (forall l, inner u l -> seen l s') /\ (flat u = true -> (forall j, ~ due j u) -> forall l, literal l u -> seen l s')) as G by (intros u I; exact (steps_cov l N _ [] _ _ eq_refl H u I)).
  rewrite Forall_forall in N. inversion R as [? I|? u l0 I In R0|? u l0 I Fl Nd Ll R0]; subst.
  - apply (G t I).
  - destruct (G u I) as (_ & G2 & _). exact (seen_cov _ _ (G2 _ In) (inner_nomsg _ _ (N u I) In) t R0).
  - destruct (G u I) as (_ & _ & G3). exact (seen_cov _ _ (G3 Fl Nd _ Ll) (literal_nomsg _ _ Ll (N u I)) t R0).
Qed.
End Cover.
Lemma rwb_cov pk fuel : forall s l s' l', rwb pk fuel s l = Some (s', l') -> Forall (fun t => nomsg t = true) l -> forall t, reached t l -> covered (st_points s') t.
Proof.
  induction fuel as [|f IH]; intros s l s' l' H N t R; [discriminate H|]. cbn [rwb] in H. exact (steps_reached pk _ (rwb_ok pk f) IH l _ _ _ N H t R).
Qed.
