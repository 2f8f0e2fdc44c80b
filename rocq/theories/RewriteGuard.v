(** Lemmas for RewriteProps.v: where the messages are. *)
From Verif Require Import Base InstrModel RewriteModel RewriteSpec RewriteProofs.
Local Open Scope nat_scope.

Definition msg_id (t : nd) : option N := match t with Nd KExpr [Nd (KMsg p _) _] => Some p | _ => None end.
Definition Q (P : list (N * nat)) (p : N) (y : nd) : Prop := exists j, In (p, j) P /\ shows j y.
Fixpoint pairs (P : list (N * nat)) (l : list nd) : Prop :=
  match l with
  | [] => True
  | x :: r => (match msg_id x with Some p => match r with y :: _ => Q P p y | [] => False end | None => True end) /\ pairs P r
  end.
(** Children that are not entries. *)
Definition others (k : kind) (cs : list nd) : list nd := match k with KFun _ | KBlock => [] | KClause => firstn 1 cs | _ => cs end.
Definition loc (P : list (N * nat)) (k : kind) (cs : list nd) : Prop :=
  forallb flat (fronts k cs) = true /\ pairs P (entries (Nd k cs)) /\ Forall (fun c => msg_id c = None) (others k cs) /\
  (forall c p ns, In c cs -> kind_of c = KMsg p ns -> k = KExpr /\ length cs = 1).
Inductive guard (P : list (N * nat)) : nd -> Prop := guard_nd k cs : loc P k cs -> Forall (guard P) cs -> guard P (Nd k cs).
Lemma guard_inv P k cs : guard P (Nd k cs) -> loc P k cs /\ Forall (guard P) cs.
Proof. intros H. inversion H; subst. auto. Qed.

Lemma Q_mono P P' p y : incl P P' -> Q P p y -> Q P' p y.
Proof. intros I (j & H & S). exists j. auto. Qed.
Lemma pairs_mono P P' l : incl P P' -> pairs P l -> pairs P' l.
Proof.
  intros I. induction l as [|x l IH]; [auto|]. cbn [pairs]. intros [H1 H2]. split; [|auto]. destruct (msg_id x); [|exact H1]. destruct l; [exact H1|]. exact (Q_mono _ _ _ _ I H1).
Qed.
Lemma guard_mono P P' t : incl P P' -> guard P t -> guard P' t.
Proof.
  intros I. induction t as [k cs IH] using nd_ind'. intros H. apply guard_inv in H as [(L1 & L2 & L3 & L4) F]. constructor.
  - split; [exact L1|]. split; [exact (pairs_mono _ _ _ I L2)|]. split; assumption.
  - rewrite Forall_forall in *. auto.
Qed.

(** The same but for what is in function literals. *)
Inductive like : nd -> nd -> Prop :=
| like_fun ps cs cs' : like (Nd (KFun ps) cs) (Nd (KFun ps) cs')
| like_nd k cs cs' : Forall2 like cs cs' -> like (Nd k cs) (Nd k cs').
Lemma like_refl t : like t t.
Proof. induction t as [k cs IH] using nd_ind'. apply like_nd. induction IH; constructor; auto. Qed.
Lemma likes_refl l : Forall2 like l l.
Proof. induction l; constructor; auto using like_refl. Qed.
Lemma like_kind x y : like x y -> kind_of y = kind_of x.
Proof. intros H. inversion H; reflexivity. Qed.
(** Same kind, same as message, flat. *)
Definition M0 (x y : nd) : Prop := kind_of y = kind_of x /\ msg_id y = msg_id x /\ (flat x = true -> flat y = true).
Lemma M0_refl x : M0 x x. Proof. split; [|split]; auto. Qed.
Lemma M0_trans x y z : M0 x y -> M0 y z -> M0 x z.
Proof. intros (A1 & A2 & A3) (B1 & B2 & B3). split; [congruence|]. split; [congruence|auto]. Qed.
Lemma msg_cong k l l' : Forall2 (fun x y => kind_of y = kind_of x) l l' -> msg_id (Nd k l') = msg_id (Nd k l).
Proof.
  intros F. destruct k; try reflexivity. destruct F as [|x y l l' E F]; [reflexivity|]. destruct F; [|destruct x as [[] ?], y as [[] ?]; reflexivity]. destruct x as [kx csx], y as [ky csy]. cbn in E. subst ky. destruct kx; reflexivity.
Qed.
Lemma flat_cong k l l' : Forall2 (fun x y => flat x = true -> flat y = true) l l' -> flat (Nd k l) = true -> flat (Nd k l') = true.
Proof.
  intros F H. assert (forallb flat l = true -> forallb flat l' = true) as G. { clear H. induction F as [|x y l l' E F IH]; [auto|]. cbn. rewrite !andb_true_iff. intros [? ?]. auto. }
  destruct k; try discriminate H; try (exact (G H)). reflexivity.
Qed.
Lemma M0_cong k l l' : Forall2 M0 l l' -> M0 (Nd k l) (Nd k l').
Proof.
  intros F. split; [reflexivity|]. split.
  - apply msg_cong. exact (Forall2_weaken _ _ _ _ (fun x y H => proj1 H) F).
  - apply flat_cong. exact (Forall2_weaken _ _ _ _ (fun x y H => proj2 (proj2 H)) F).
Qed.
Lemma Forall2_same {A} (R S : A -> A -> Prop) l l' : Forall (fun x => forall y, R x y -> S x y) l -> Forall2 R l l' -> Forall2 S l l'.
Proof. intros H F. induction F; inversion H; subst; constructor; auto. Qed.
Lemma like_M0 x : forall y, like x y -> M0 x y.
Proof.
  induction x as [k cs IH] using nd_ind'. intros y H. inversion H; subst.
  - split; [reflexivity|]. split; [reflexivity|]. reflexivity.
  - apply M0_cong. exact (Forall2_same _ _ _ _ IH H3).
Qed.
Lemma Forall2_in_l {A} (R : A -> A -> Prop) l l' x : Forall2 R l l' -> In x l -> exists y, In y l' /\ R x y.
Proof. induction 1 as [|a b l l' H F IH]; intros []; [subst; exists b; split; [left; reflexivity|exact H]|]. destruct (IH H0) as (y & I & Hy). exists y. split; [right; exact I|exact Hy]. Qed.
Lemma Forall2_first {A} (R : A -> A -> Prop) n l l' : Forall2 R l l' -> Forall2 R (firstn n l) (firstn n l').
Proof. intros F. revert n. induction F; intros [|n]; cbn; constructor; auto. Qed.
Lemma like_calls j x : forall y, like x y -> calls j x -> calls j y.
Proof.
  induction x as [k cs IH] using nd_ind'. intros y H C. inversion H; subst.
  - exfalso. inversion C; subst. match goal with K : forall ps, KFun _ <> KFun ps |- _ => eapply K; reflexivity end.
  - inversion C; subst; [apply calls_here|]. destruct (Forall2_in_l _ _ _ _ H3 H4) as (y & I & Hy). rewrite Forall_forall in IH. apply calls_in with (c := y); [assumption|exact I|]. exact (IH _ H4 _ Hy H5).
Qed.
Lemma like_shows j x y : like x y -> shows j x -> shows j y.
Proof.
  intros H. inversion H; subst; [intros []|]. unfold shows. cbn [kind_of kids].
  assert (forall l l', Forall2 like l l' -> (exists c, In c l /\ calls j c) -> exists c, In c l' /\ calls j c) as G.
  { intros l l' F (c & I & C). destruct (Forall2_in_l _ _ _ _ F I) as (c' & I' & L). exists c'. split; [exact I'|exact (like_calls _ _ _ L C)]. }
  destruct k; try (apply like_calls; exact H); try (apply G; auto using Forall2_first); auto.
  intros (cl & c & I1 & K & I2 & C). destruct (Forall2_in_l _ _ _ _ H0 I1) as (cl' & I1' & L). exists cl'.
  inversion L; subst; cbn [kind_of] in K; [discriminate K|]. subst k. cbn [kids] in *. destruct (G (firstn 1 cs0) (firstn 1 cs'0) (Forall2_first _ _ _ _ H1) (ex_intro _ c (conj I2 C))) as (c' & I2' & C'). exists c'. auto.
Qed.
Lemma pairs_like P P' l l' : incl P P' -> Forall2 like l l' -> pairs P l -> pairs P' l'.
Proof.
  intros I F. induction F as [|x y l l' L F IH]; [auto|]. cbn [pairs]. intros [H1 H2]. split; [|auto]. destruct (like_M0 _ _ L) as (_ & -> & _). destruct (msg_id x); [|exact Logic.I].
  destruct F as [|x2 y2 l l' L2 F]; [exact H1|]. destruct H1 as (j & Hj & S). exists j. split; [auto|exact (like_shows _ _ _ L2 S)].
Qed.
Lemma Forall2_in_r {A} (R : A -> A -> Prop) l l' y : Forall2 R l l' -> In y l' -> exists x, In x l /\ R x y.
Proof. induction 1 as [|a b l l' H F IH]; intros []; [subst; exists a; split; [left; reflexivity|exact H]|]. destruct (IH H0) as (x & I & Hx). exists x. split; [right; exact I|exact Hx]. Qed.
Lemma Forall2_len {A} (R : A -> A -> Prop) l l' : Forall2 R l l' -> length l' = length l.
Proof. induction 1; cbn; congruence. Qed.
Lemma fronts_cong k l l' : Forall2 M0 l l' -> forallb flat (fronts k l) = true -> forallb flat (fronts k l') = true.
Proof.
  intros F. assert (Forall2 M0 (fronts k l) (fronts k l')) as G by (destruct k; cbn [fronts]; auto using Forall2_first). induction G as [|x y a b (_ & _ & H) G IH]; [auto|]. cbn. rewrite !andb_true_iff. intros [? ?]. auto.
Qed.
Lemma others_cong k l l' : Forall2 M0 l l' -> Forall (fun c => msg_id c = None) (others k l) -> Forall (fun c => msg_id c = None) (others k l').
Proof.
  intros F. assert (Forall2 M0 (others k l) (others k l')) as G by (destruct k; cbn [others]; auto using Forall2_first). induction G as [|x y a b (_ & H & _) G IH]; [auto|]. intros X. inversion X; subst. constructor; [congruence|auto].
Qed.
Lemma loc_cong P P' k l l' : incl P P' -> Forall2 M0 l l' -> (pairs P (entries (Nd k l)) -> pairs P' (entries (Nd k l'))) -> loc P k l -> loc P' k l'.
Proof.
  intros I F E (L1 & L2 & L3 & L4). split; [exact (fronts_cong _ _ _ F L1)|]. split; [auto|]. split; [exact (others_cong _ _ _ F L3)|].
  intros c p ns Ic K. destruct (Forall2_in_r _ _ _ _ F Ic) as (x & Ix & (Kx & _ & _)). rewrite (Forall2_len _ _ _ F). apply (L4 x p ns Ix). congruence.
Qed.
Lemma entries_like k l l' : Forall2 like l l' -> Forall2 like (entries (Nd k l)) (entries (Nd k l')).
Proof. intros F. destruct k; cbn [entries]; auto using Forall2_nil. destruct F; auto. Qed.
Lemma loc_like P P' k l l' : incl P P' -> Forall2 like l l' -> loc P k l -> loc P' k l'.
Proof. intros I F. apply loc_cong; [exact I|exact (Forall2_weaken _ _ _ _ like_M0 F)|]. exact (pairs_like _ _ _ _ I (entries_like k _ _ F)). Qed.

(** ** Expressions *)
Definition isnt_msg (t : nd) : Prop := forall p ns, kind_of t <> KMsg p ns.
Definition good (P : list (N * nat)) (t : nd) : Prop := guard P t /\ flat t = true /\ msg_id t = None /\ isnt_msg t.
Definition plain (k : kind) : Prop := match k with KFun _ | KBlock | KClause | KIf | KFor | KRange _ | KSwitch | KTypeSwitch | KSelect | KLabel => False | _ => True end.
Lemma good_flat P cs : Forall (good P) cs -> forallb flat cs = true.
Proof. intros H. apply forallb_forall. intros x I. rewrite Forall_forall in H. apply (H x I). Qed.
Lemma good_guards P cs : Forall (good P) cs -> Forall (guard P) cs.
Proof. apply Forall_impl. intros t H. apply H. Qed.
Lemma good_loc P k cs : plain k -> Forall (good P) cs -> loc P k cs.
Proof.
  intros K H. pose proof (good_flat _ _ H) as Fl. split; [destruct k; try destruct K; exact Fl|]. split; [destruct k; try destruct K; exact I|]. split.
  - assert (Forall (fun c => msg_id c = None) cs) as X by (revert H; apply Forall_impl; intros t G; apply G). destruct k; try destruct K; exact X.
  - intros c p ns Ic Kc. exfalso. rewrite Forall_forall in H. destruct (H c Ic) as (_ & _ & _ & N). exact (N p ns Kc).
Qed.
Lemma good_node P k cs : plain k -> (forall p ns, k <> KMsg p ns) -> Forall (good P) cs -> good P (Nd k cs).
Proof.
  intros K N H. split; [constructor; [apply good_loc; assumption|apply good_guards, H]|]. split; [pose proof (good_flat _ _ H); destruct k; try destruct K; assumption|]. split; [|exact N].
  destruct k; try reflexivity. destruct cs as [|[kc ?] [|? ?]]; try reflexivity; [|destruct kc; reflexivity]. destruct kc; try reflexivity. exfalso. inversion H; subst. destruct H2 as (_ & _ & _ & X). eapply X. reflexivity.
Qed.
Lemma good_kids P k cs : plain k -> k <> KExpr -> guard P (Nd k cs) -> Forall (good P) cs.
Proof.
  intros K N H. apply guard_inv in H as [(L1 & L2 & L3 & L4) F]. assert (fronts k cs = cs) as E by (destruct k; try destruct K; reflexivity). assert (others k cs = cs) as E' by (destruct k; try destruct K; reflexivity). rewrite E in L1. rewrite E' in L3.
  rewrite Forall_forall in *. intros x I. split; [auto|]. split; [exact (proj1 (forallb_forall _ _) L1 x I)|]. split; [auto|]. intros p ns Kx. destruct (L4 x p ns I Kx) as [Ek _]. contradiction.
Qed.
Lemma good_name P x : good P (name x).
Proof. apply good_node; [exact I|discriminate|constructor]. Qed.
Lemma good_define P x e : good P e -> good P (define x e).
Proof. intros H. apply good_node; [exact I|discriminate|]. constructor; [exact H|constructor]. Qed.
Lemma build_args_good P q l : Forall (good P) l -> forall i s l' v, build_args q i l = (s, l', v) -> Forall (good P) s /\ Forall (good P) l' /\ Forall (good P) (map snd v).
Proof.
  intros G. induction G as [|a l Ga G IH]; intros i s l' v H; cbn [build_args] in H; [injection H as <- <- <-; repeat split; constructor|].
  destruct (build_args q (S i) l) as [[s1 l1] v1] eqn:E. destruct (IH _ _ _ _ E) as (A1 & A2 & A3). destruct (stays a); injection H as <- <- <-; cbn [map snd].
  - split; [exact A1|]. split; constructor; assumption.
  - split; [constructor; [apply good_define; exact Ga|exact A1]|]. split; constructor; auto using good_name.
Qed.
Lemma build_recv_good P pk q f s f' v : good P f -> build_recv pk q f = (s, f', v) -> Forall (good P) s /\ good P f' /\ Forall (good P) (map snd v).
Proof.
  intros G H. unfold build_recv in H.
  assert ((s, f', v) = ([], f, []) -> Forall (good P) s /\ good P f' /\ Forall (good P) (map snd v)) as G0 by (intros E; injection E as -> -> ->; split; [constructor|]; split; [exact G|constructor]).
  destruct f as [k cs]. destruct k as [| |m| | | | | | | | | | | | | | | | | | | | | | | | |]; try (apply G0; symmetry; exact H).
  destruct cs as [|x [|? ?]]; try (apply G0; symmetry; exact H); [|apply G0; rewrite <- H; destruct x as [kx csx]; destruct kx; try destruct csx; reflexivity].
  pose proof (good_kids P (KSel m) [x] I ltac:(discriminate) (proj1 G)) as Gx. inversion Gx as [|? ? Gx' _]; subst.
  assert ((s, f', v) = ([define (recv_var q) x], Nd (KSel m) [name (recv_var q)], [(B "recv", name (recv_var q))]) -> Forall (good P) s /\ good P f' /\ Forall (good P) (map snd v)) as G1.
  { intros E. injection E as -> -> ->. split; [constructor; [apply good_define; exact Gx'|constructor]|]. split; [apply good_node; [exact I|discriminate|constructor; [apply good_name|constructor]]|]. constructor; [apply good_name|constructor]. }
  destruct x as [kx csx]. destruct kx as [|y| | | | | | | | | | | | | | | | | | | | | | | | | |]; try (apply G1; symmetry; exact H).
  destruct csx; [|apply G1; symmetry; exact H]. injection H as <- <- <-. split; [constructor|]. split; [exact G|].
  match goal with |- context [if ?b then _ else _] => destruct b end; constructor; [apply good_name|constructor].
Qed.
Lemma message_guard P q v : Forall (good P) (map snd v) -> guard P (message q v).
Proof.
  intros G. unfold message. constructor.
  - split; [cbn; rewrite andb_true_r; exact (good_flat _ _ G)|]. split; [exact I|]. split; [constructor; [reflexivity|constructor]|]. intros c p ns _ _. auto.
  - constructor; [|constructor]. constructor; [apply good_loc; [exact I|exact G]|apply good_guards, G].
Qed.
Lemma build_good P pk q c pre c' : (exists k cs, c = Nd (KCall true k) cs) -> good P c -> build pk q c = (pre, c') ->
  good P c' /\ kind_of c' = kind_of c /\ exists defs v, pre = defs ++ [message q v] /\ Forall (good P) defs /\ Forall (good P) (map snd v).
Proof.
  intros (k & cs & ->) G H. destruct cs as [|f args]; cbn [build] in H.
  - injection H as <- <-. split; [exact G|]. split; [reflexivity|]. exists [], []. split; [reflexivity|]. split; constructor.
  - destruct (build_recv pk q f) as [[s f'] v] eqn:E1. destruct (build_args q 0 args) as [[s' args'] v'] eqn:E2. injection H as <- <-.
    pose proof (good_kids P (KCall true k) (f :: args) I ltac:(discriminate) (proj1 G)) as Gk. inversion Gk as [|? ? Gf Ga]; subst.
    destruct (build_recv_good _ _ _ _ _ _ _ Gf E1) as (A1 & A2 & A3), (build_args_good _ _ _ Ga _ _ _ _ E2) as (B1 & B2 & B3).
    split; [apply good_node; [exact I|discriminate|constructor; assumption]|]. split; [reflexivity|]. exists (s ++ s'), (v ++ v'). rewrite map_app, <- app_assoc. split; [reflexivity|]. split; apply Forall_app; auto.
Qed.

(** ** Contexts *)
Lemma entries_plain k l : plain k -> entries (Nd k l) = [].
Proof. destruct k; intros []; reflexivity. Qed.
Lemma flat_plain k cs : flat (Nd k cs) = true -> (exists ps, k = KFun ps) \/ plain k /\ forallb flat cs = true.
Proof. destruct k; cbn; intros H; try discriminate H; try (right; split; [exact I|exact H]). left. eauto. Qed.
Lemma Forall_put {A} (R : A -> Prop) i x l : R x -> Forall R l -> Forall R (put i x l).
Proof. intros Hx H. revert i. induction H; intros [|i]; cbn; constructor; auto. Qed.
Lemma locate_guard t : flat t = true -> forall c r, locate t = Some (c, r) -> forall P, guard P t ->
  (exists j cs, c = Nd (KCall true j) cs) /\ good P c /\
  forall P' c', incl P P' -> good P' c' -> kind_of c' = kind_of c -> guard P' (r c') /\ M0 t (r c') /\ forall j, kind_of c = KCall true j -> calls j (r c').
Proof.
  induction t as [k cs IH] using nd_ind'. intros Fl c r H P G.
  assert (locate (Nd k cs) = Some (c, r)) as H0 by exact H. destruct (locate_spec _ _ _ H0) as (M & _ & _). split; [exact M|].
  rewrite locate_eq in H. destruct (flat_plain _ _ Fl) as [(ps & ->)|[Kp Fc]]; [discriminate H|]. destruct (guard_inv _ _ _ G) as [L F].
  assert (match locate_kids cs with Some (x, r0) => Some (x, fun y => Nd k (r0 y)) | None => None end = Some (c, r) -> good P c /\
    forall P' c', incl P P' -> good P' c' -> kind_of c' = kind_of c -> guard P' (r c') /\ M0 (Nd k cs) (r c') /\ forall j, kind_of c = KCall true j -> calls j (r c')) as X.
  { intros E. destruct (locate_kids cs) as [[x r']|] eqn:El; [|discriminate E]. injection E as <- <-. destruct (locate_kids_some _ _ _ El) as (i & ri & Hi & Hl & Hr). rewrite Forall_forall in IH. pose proof (nth_In cs none Hi) as Ii.
    destruct (IH _ Ii (proj1 (forallb_forall _ _) Fc _ Ii) _ _ Hl P (proj1 (Forall_forall _ _) F _ Ii)) as (_ & B1 & B2). split; [exact B1|].
    intros P' c' I Gc K. destruct (B2 P' c' I Gc K) as (C1 & C2 & C3). rewrite Hr. pose proof (put_rel M0 i (ri c') cs none M0_refl Hi C2) as FM. split.
    - constructor; [apply (loc_cong P P' k cs _ I FM); [rewrite !entries_plain by exact Kp; auto|exact L]|]. apply Forall_put; [exact C1|]. revert F. apply Forall_impl. intros u. apply guard_mono, I.
    - split; [apply M0_cong, FM|]. intros j Kj. apply calls_in with (c := ri c'); [intros ps ->; destruct Kp| |auto]. destruct (put_split i (ri c') cs none Hi) as [_ ->]. apply in_or_app. right. left. reflexivity. }
  destruct k as [| | | | | | | |m j| | | | | | | | | | | | | | | | | | |]; try (exact (X H)); try (destruct Kp; fail). destruct m; [|exact (X H)].
  injection H as <- <-. split; [split; [exact G|]; split; [exact Fl|]; split; [reflexivity|discriminate]|]. intros P' c' I (G1 & G2 & G3 & G4) K. split; [exact G1|]. split; [split; [exact K|]; split; [rewrite G3; reflexivity|auto]|].
  intros j' Kj. rewrite Kj in K. destruct c' as [kc cc]. cbn in K. subst kc. apply calls_here.
Qed.
Lemma guard_kid P i t : guard P t -> guard P (kid i t).
Proof.
  destruct t as [k cs]. intros G. apply guard_inv in G as [_ F]. unfold kid. cbn [kids]. destruct (Nat.lt_ge_cases i (length cs)) as [L|L]; [rewrite Forall_forall in F; apply F, nth_In, L|].
  rewrite nth_overflow by exact L. constructor; [apply good_loc; [exact I|constructor]|constructor].
Qed.
(** A child of a node without entries replaced. *)
Definition nolist (k : kind) : Prop := match k with KFun _ | KBlock | KClause => False | _ => True end.
Lemma nolist_entries k l : nolist k -> entries (Nd k l) = [].
Proof. destruct k; intros []; reflexivity. Qed.
Lemma put_guard P P' i t c : incl P P' -> i < length (kids t) -> (pairs P (entries t) -> pairs P' (entries (Nd (kind_of t) (put i c (kids t))))) -> guard P t -> guard P' c -> M0 (kid i t) c -> guard P' (Nd (kind_of t) (put i c (kids t))) /\ M0 t (Nd (kind_of t) (put i c (kids t))).
Proof.
  destruct t as [k cs]. cbn [kind_of kids]. unfold kid. cbn [kids]. fold none. intros I L E G Gc M. apply guard_inv in G as [Lc F]. pose proof (put_rel M0 i c cs none M0_refl L M) as FM. split; [|apply M0_cong, FM].
  constructor; [exact (loc_cong P P' k cs _ I FM E Lc)|]. apply Forall_put; [exact Gc|]. revert F. apply Forall_impl. intros u. apply guard_mono, I.
Qed.
Definition placed (t c : nd) (r : nd -> nd) : Prop := forall P, guard P t ->
  good P c /\ forall P' c', incl P P' -> good P' c' -> kind_of c' = kind_of c -> guard P' (r c') /\ M0 t (r c') /\ forall j, kind_of c = KCall true j -> shows j (r c').
Lemma in_put {A} i (x : A) l n : i < length l -> i < n -> In x (firstn n (put i x l)).
Proof. revert i n. induction l as [|y l IH]; intros i n H1 H2; [cbn in H1; lia|]. destruct n as [|n]; [lia|]. destruct i as [|i]; cbn; [left; reflexivity|]. right. apply IH; [cbn in H1; lia|lia]. Qed.
Lemma front_flat P t i : guard P t -> i < length (kids t) -> In (kid i t) (fronts (kind_of t) (kids t)) -> flat (kid i t) = true.
Proof. destruct t as [k cs]. intros G L H. apply guard_inv in G as [(L1 & _) _]. exact (proj1 (forallb_forall _ _) L1 _ H). Qed.
Lemma kid_firstn i n t : i < length (kids t) -> i < n -> In (kid i t) (firstn n (kids t)).
Proof. intros L H. pose proof (in_put i (kid i t) (kids t) n L H) as X. unfold kid in X at 2. rewrite put_same in X. exact X. Qed.
Lemma locate_at_placed i t c r : nolist (kind_of t) -> (i < length (kids t) -> In (kid i t) (fronts (kind_of t) (kids t))) ->
  (forall j x, i < length (kids t) -> calls j x -> shows j (Nd (kind_of t) (put i x (kids t)))) -> locate_at i t = Some (c, r) -> placed t c r.
Proof.
  intros N HF HS H P G. destruct (locate_at_spec _ _ _ _ H) as (ri & L & Hl & Hr).
  destruct (locate_guard _ (front_flat _ _ _ G L (HF L)) _ _ Hl P (guard_kid _ _ _ G)) as (_ & B1 & B2). split; [exact B1|]. intros P' c' I Gc K. destruct (B2 P' c' I Gc K) as (C1 & C2 & C3). rewrite Hr.
  destruct (put_guard P P' i t (ri c') I L ltac:(intros _; rewrite nolist_entries by exact N; exact Logic.I) G C1 C2) as [D1 D2]. split; [exact D1|]. split; [exact D2|]. intros j Kj. apply HS; [exact L|auto].
Qed.
Lemma focus_placed t c r : focus t = Some (c, r) -> placed t c r.
Proof.
  unfold focus. intros H.
  assert (plain (kind_of t) -> (match kind_of t with KExpr | KAssign _ | KReturn | KVar _ => True | _ => False end) -> locate t = Some (c, r) -> placed t c r) as G1.
  { intros Kp Ks E P G. assert (flat t = true) as Fl. { destruct t as [k cs]. apply guard_inv in G as [(L1 & _) _]. cbn [kind_of] in Ks. destruct k; try destruct Ks; exact L1. }
    destruct (locate_guard _ Fl _ _ E P G) as (_ & B1 & B2). split; [exact B1|]. intros P' c' I Gc K. destruct (B2 P' c' I Gc K) as (C1 & C2 & C3). split; [exact C1|]. split; [exact C2|].
    intros j Kj. specialize (C3 j Kj). destruct C2 as (Kr & _). unfold shows. rewrite Kr. destruct (kind_of t); try destruct Ks; exact C3. }
  assert (forall i, (match kind_of t with KIf | KFor | KSwitch | KTypeSwitch => True | _ => False end) -> i < 2 -> locate_at i t = Some (c, r) -> placed t c r) as G2.
  { intros i Ks Hi E. apply (locate_at_placed i t c r); [destruct (kind_of t); try destruct Ks; exact I| | |exact E].
    - intros L. pose proof (kid_firstn i 2 t L Hi). pose proof (kid_firstn i 3 t L ltac:(lia)). destruct (kind_of t); try destruct Ks; assumption.
    - intros j x L C. unfold shows. cbn [kind_of kids]. pose proof (in_put i x (kids t) 2 L Hi). destruct (kind_of t); try destruct Ks; exists x; auto. }
  assert ((match kind_of t with KIf | KFor | KSwitch | KTypeSwitch => True | _ => False end) -> locate_or 0 1 t = Some (c, r) -> placed t c r) as G3.
  { intros Ks. unfold locate_or. destruct (locate_at 0 t) as [[c1 r1]|] eqn:E0; [|intros E; apply (G2 1 Ks ltac:(lia) E)]. intros E. injection E as -> ->. apply (G2 0 Ks ltac:(lia) E0). }
  destruct (kind_of t) eqn:K; try discriminate H; try (apply (G1 I I H)); try (apply (G3 I H)).
  - apply (locate_at_placed 1 t c r); [rewrite K; exact I| | |exact H]; rewrite K; [intros L; apply nth_In, L|]. intros j x L C. unfold shows. cbn [kind_of kids]. apply calls_in with (c := x); [discriminate| |exact C]. destruct (put_split 1 x (kids t) none L) as [_ ->]. apply in_or_app. right. left. reflexivity.
  - apply (locate_at_placed 0 t c r); [rewrite K; exact I| | |exact H]; rewrite K; [intros L; exact (kid_firstn 0 1 t L ltac:(lia))|]. intros j x L C. unfold shows. cbn [kind_of kids]. exists x. split; [apply in_put; [exact L|lia]|exact C].
  - destruct (locate_comm (kids t)) as [[c1 r1]|] eqn:E; [|discriminate H]. injection H as <- <-. destruct (locate_comm_spec _ _ _ E) as (i & ri & L & Hi & Hr & Hk). intros P G. set (u := nth i (kids t) none) in *.
    assert (guard P u) as Gu by exact (guard_kid P i t G). destruct (locate_at_spec _ _ _ _ Hi) as (rj & Lj & Hj & Hrj).
    assert (flat (kid 0 u) = true) as Fu by (apply (front_flat P); [exact Gu|exact Lj|rewrite Hk; exact (kid_firstn 0 1 u Lj ltac:(lia))]).
    destruct (locate_guard _ Fu _ _ Hj P (guard_kid _ _ _ Gu)) as (_ & B1 & B2). split; [exact B1|]. intros P' c' I Gc Kc. destruct (B2 P' c' I Gc Kc) as (C1 & C2 & C3). rewrite Hr, Hrj.
    assert (pairs P (entries u) -> pairs P' (entries (Nd (kind_of u) (put 0 (rj c') (kids u))))) as X. { clear - Lj Hk I. destruct u as [ku [|hu lu]]; cbn [kind_of kids] in *; [cbn in Lj; lia|]. subst ku. cbn [entries put]. apply pairs_mono, I. }
    destruct (put_guard P P' 0 u (rj c') I Lj X Gu C1 C2) as [D1 D2].
    destruct (put_guard P P' i t (Nd (kind_of u) (put 0 (rj c') (kids u))) I L ltac:(rewrite K; intros _; exact Logic.I) G D1 D2) as [E1 E2].
    rewrite <- K. split; [exact E1|]. split; [exact E2|]. intros j Kj. unfold shows. cbn [kind_of kids]. rewrite K. exists (Nd (kind_of u) (put 0 (rj c') (kids u))), (rj c').
    split; [match goal with |- In ?x (put i ?x ?l) => destruct (put_split i x l none L) as [_ ->] end; apply in_or_app; right; left; reflexivity|]. split; [exact Hk|]. split; [apply in_put; [exact Lj|lia]|auto].
Qed.

(** ** The walk *)
Definition Ok (P : list (N * nat)) (l : list nd) : Prop := pairs P l /\ Forall (guard P) l /\ Forall isnt_msg l.
Lemma Ok_mono P P' l : incl P P' -> Ok P l -> Ok P' l.
Proof. intros I (A & B & C). split; [exact (pairs_mono _ _ _ I A)|]. split; [revert B; apply Forall_impl; intros u; apply guard_mono, I|exact C]. Qed.
Lemma Ok_nil P : Ok P []. Proof. split; [exact I|]. split; constructor. Qed.
Lemma loc_isnt P k cs : loc P k cs -> k <> KExpr -> Forall isnt_msg cs.
Proof. intros (_ & _ & _ & L4) N. apply Forall_forall. intros c I p ns K. destruct (L4 c p ns I K). contradiction. Qed.
Lemma list_guard P k l : k = KBlock \/ (exists ps, k = KFun ps) -> Ok P l -> guard P (Nd k l).
Proof.
  intros K (A & B & C). constructor; [|exact B]. split; [destruct K as [->|(ps & ->)]; reflexivity|]. split; [destruct K as [->|(ps & ->)]; exact A|]. split; [destruct K as [->|(ps & ->)]; constructor|].
  intros c p ns I Kc. exfalso. rewrite Forall_forall in C. exact (C c I p ns Kc).
Qed.
Lemma list_ok P k l : k = KBlock \/ (exists ps, k = KFun ps) -> guard P (Nd k l) -> Ok P l.
Proof.
  intros K G. apply guard_inv in G as [L F]. split; [destruct L as (_ & L2 & _); destruct K as [->|(ps & ->)]; exact L2|]. split; [exact F|]. apply (loc_isnt P k); [exact L|destruct K as [->|(ps & ->)]; discriminate].
Qed.
Lemma clause_guard P h l l' P' : incl P P' -> guard P (Nd KClause (h :: l)) -> (Ok P l -> Ok P' l') -> guard P' (Nd KClause (h :: l')).
Proof.
  intros I G H. apply guard_inv in G as [L F]. inversion F as [|? ? Fh Fl]; subst. pose proof (loc_isnt _ _ _ L ltac:(discriminate)) as N. inversion N as [|? ? Nh Nl]; subst. destruct L as (L1 & L2 & L3 & L4).
  destruct (H (conj L2 (conj Fl Nl))) as (A & B & C). constructor; [|constructor; [exact (guard_mono _ _ _ I Fh)|exact B]]. split; [exact L1|]. split; [exact A|]. split; [exact L3|].
  intros c p ns Ic Kc. exfalso. destruct Ic as [->|Ic]; [exact (Nh p ns Kc)|]. rewrite Forall_forall in C. exact (C c Ic p ns Kc).
Qed.
Lemma closure_good P l : Ok P l -> good P (closure l).
Proof.
  intros H. apply good_node; [exact I|discriminate|]. constructor; [|constructor]. split; [apply list_guard; [eauto|exact H]|]. split; [reflexivity|]. split; [reflexivity|discriminate].
Qed.
Lemma like_msg l l' : Forall2 like l l' -> Forall isnt_msg l -> Forall isnt_msg l'.
Proof. intros F. induction F as [|x y l l' L F IH]; [auto|]. intros H. inversion H; subst. constructor; [|auto]. intros p ns. rewrite (like_kind _ _ L). apply H2. Qed.
Lemma pairs_app P a b : after_message a = false -> pairs P (a ++ b) <-> pairs P a /\ pairs P b.
Proof.
  induction a as [|x a IH]; intros H; [cbn; tauto|]. cbn [app pairs]. destruct a as [|y a].
  - cbn [app]. assert (msg_id x = None) as ->. { unfold after_message in H. cbn in H. destruct x as [k cs]. destruct k; try reflexivity. destruct cs as [|[[] ?] [|? ?]]; try reflexivity; discriminate H. }
    cbn. tauto.
  - assert (after_message (y :: a) = false) as H' by exact H. rewrite (IH H'). cbn [app]. tauto.
Qed.
Lemma pairs_skip P a b : Forall (fun c => msg_id c = None) a -> pairs P (a ++ b) <-> pairs P b.
Proof. induction 1 as [|x a E _ IH]; [reflexivity|]. cbn [app pairs]. rewrite E, IH. tauto. Qed.
Lemma pairs_head P x y l : msg_id y = msg_id x -> pairs P (x :: l) -> pairs P (y :: l).
Proof. cbn [pairs]. intros ->. auto. Qed.

Section Walk.
Variable pk : list bytes.
Variable rb : state -> list nd -> option (state * list nd).
Hypothesis rb_ok : forall s l s' l', rb s l = Some (s', l') -> incl (st_points s) (st_points s') /\ (Ok (st_points s) l -> Ok (st_points s') l').
Lemma each_like (f : state -> nd -> option (state * nd)) (R : nd -> nd -> Prop) l :
  (forall t, In t l -> forall s s' t', f s t = Some (s', t') -> incl (st_points s) (st_points s') /\ R t t' /\ (guard (st_points s) t -> guard (st_points s') t')) ->
  forall s s' l', each f s l = Some (s', l') -> incl (st_points s) (st_points s') /\ Forall2 R l l' /\ (Forall (guard (st_points s)) l -> Forall (guard (st_points s')) l').
Proof.
  induction l as [|t l IH]; intros H s s' l' E.
  - injection E as <- <-. split; [apply incl_refl|]. split; constructor.
  - cbn [each] in E. fold (each f) in E. destruct (f s t) as [[s1 t1]|] eqn:E1; [|discriminate E]. destruct (each f s1 l) as [[s2 l2]|] eqn:E2; [|discriminate E]. injection E as <- <-.
    destruct (H t (or_introl eq_refl) _ _ _ E1) as (A1 & A2 & A3). destruct (IH (fun u I => H u (or_intror I)) _ _ _ E2) as (B1 & B2 & B3). split; [exact (incl_tran A1 B1)|]. split; [constructor; assumption|].
    intros G. inversion G; subst. constructor; [exact (guard_mono _ _ _ B1 (A3 H2))|]. apply B3. revert H3. apply Forall_impl. intros u. apply guard_mono, A1.
Qed.
Lemma lits_guard t : forall s s' t', lits rb s t = Some (s', t') -> incl (st_points s) (st_points s') /\ like t t' /\ (guard (st_points s) t -> guard (st_points s') t').
Proof.
  induction t as [k cs IH] using nd_ind'. intros s s' t' H.
  assert (match each (lits rb) s cs with Some (s', cs') => Some (s', Nd k cs') | None => None end = Some (s', t') -> incl (st_points s) (st_points s') /\ like (Nd k cs) t' /\ (guard (st_points s) (Nd k cs) -> guard (st_points s') t')) as X.
  { intros E. destruct (each (lits rb) s cs) as [[s1 cs1]|] eqn:E1; [|discriminate E]. injection E as <- <-. rewrite Forall_forall in IH. destruct (each_like _ _ cs IH _ _ _ E1) as (A1 & A2 & A3).
    split; [exact A1|]. split; [apply like_nd, A2|]. intros G. apply guard_inv in G as [L F]. constructor; [exact (loc_like _ _ _ _ _ A1 A2 L)|auto]. }
  destruct k; try exact (X H). cbn [lits] in H. destruct (rb s cs) as [[s1 cs1]|] eqn:E; [|discriminate H]. injection H as <- <-. destruct (rb_ok _ _ _ _ E) as [A1 A2].
  split; [exact A1|]. split; [apply like_fun|]. intros G. apply list_guard; [eauto|]. apply A2. apply (list_ok _ (KFun ps)); [eauto|exact G].
Qed.
(** A block or clause. *)
Definition R2 (t t' : nd) : Prop := M0 t t' /\ (kind_of t = KClause -> firstn 1 (kids t') = firstn 1 (kids t)).
Lemma R2_refl t : R2 t t. Proof. split; [apply M0_refl|reflexivity]. Qed.
Lemma into_guard t : forall s s' t', into rb s t = Some (s', t') -> incl (st_points s) (st_points s') /\ R2 t t' /\ (guard (st_points s) t -> guard (st_points s') t').
Proof.
  intros s s' t' H. assert (Some (s, t) = Some (s', t') -> incl (st_points s) (st_points s') /\ R2 t t' /\ (guard (st_points s) t -> guard (st_points s') t')) as X by (intros E; injection E as <- <-; split; [apply incl_refl|]; split; [apply R2_refl|auto]).
  destruct t as [k cs]. destruct k; try exact (X H); cbn [into] in H.
  - destruct (rb s cs) as [[s1 cs1]|] eqn:E; [|discriminate H]. injection H as <- <-. destruct (rb_ok _ _ _ _ E) as [A1 A2]. split; [exact A1|]. split; [split; [split; [reflexivity|]; split; [reflexivity|discriminate]|discriminate]|].
    intros G. apply list_guard; [auto|]. apply A2. apply (list_ok _ KBlock); auto.
  - destruct cs as [|h l]; [exact (X H)|]. destruct (rb s l) as [[s1 l1]|] eqn:E; [|discriminate H]. injection H as <- <-. destruct (rb_ok _ _ _ _ E) as [A1 A2]. split; [exact A1|]. split; [split; [split; [reflexivity|]; split; [reflexivity|discriminate]|reflexivity]|].
    intros G. exact (clause_guard _ _ _ _ _ A1 G A2).
Qed.
(** A statement: what is in front stays. *)
Definition R3 (t t' : nd) : Prop := M0 t t' /\ forall j, shows j t -> shows j t'.
Lemma R3_refl t : R3 t t. Proof. split; [apply M0_refl|auto]. Qed.
Lemma R3_trans a b c : R3 a b -> R3 b c -> R3 a c.
Proof. intros [A1 A2] [B1 B2]. split; [exact (M0_trans _ _ _ A1 B1)|auto]. Qed.
Definition W (s : state) (t : nd) (s' : state) (t' : nd) : Prop := incl (st_points s) (st_points s') /\ (guard (st_points s) t -> guard (st_points s') t' /\ R3 t t').
Lemma W_refl s t : W s t s t. Proof. split; [apply incl_refl|]. intros G. split; [exact G|apply R3_refl]. Qed.
Lemma W_trans s t s1 t1 s2 t2 : W s t s1 t1 -> W s1 t1 s2 t2 -> W s t s2 t2.
Proof. intros [A1 A2] [B1 B2]. split; [exact (incl_tran A1 B1)|]. intros G. destruct (A2 G) as [C1 C2]. destruct (B2 C1) as [D1 D2]. split; [exact D1|exact (R3_trans _ _ _ C2 D2)]. Qed.
Lemma firstn_put {A} n i (x : A) l : n <= i -> firstn n (put i x l) = firstn n l.
Proof. revert n i. induction l as [|y l IH]; intros [|n] [|i] H; cbn; try reflexivity; [lia|]. f_equal. apply IH. lia. Qed.
Definition behind (i : nat) (k : kind) : Prop := match k with KIf | KFor => 2 <= i | KRange _ => 1 <= i | _ => False end.
Lemma behind_shows i t x j : behind i (kind_of t) -> shows j t -> shows j (Nd (kind_of t) (put i x (kids t))).
Proof. unfold shows. cbn [kind_of kids]. destruct (kind_of t); cbn [behind]; intros Hb; try (destruct Hb; fail); intros H; rewrite firstn_put by lia; exact H. Qed.
Lemma put_W i t s s' c : i < length (kids t) -> behind i (kind_of t) -> incl (st_points s) (st_points s') -> (guard (st_points s) (kid i t) -> guard (st_points s') c /\ M0 (kid i t) c) -> W s t s' (Nd (kind_of t) (put i c (kids t))).
Proof.
  intros L Hb I H. split; [exact I|]. intros G. destruct (H (guard_kid _ i _ G)) as [Gc M]. assert (pairs (st_points s) (entries t) -> pairs (st_points s') (entries (Nd (kind_of t) (put i c (kids t))))) as X.
  { intros _. rewrite nolist_entries; [exact Logic.I|]. destruct (kind_of t); try (destruct Hb; fail); exact Logic.I. }
  destruct (put_guard _ _ i t c I L X G Gc M) as [D1 D2]. split; [exact D1|]. split; [exact D2|]. intros j. apply behind_shows, Hb.
Qed.
Lemma into_at_W i s t s' t' : behind i (kind_of t) -> into_at rb i s t = Some (s', t') -> W s t s' t'.
Proof.
  intros Hb H. unfold into_at in H. destruct (Nat.ltb_spec i (length (kids t))) as [L|L]; [|injection H as <- <-; apply W_refl]. destruct (into rb s (kid i t)) as [[s1 c]|] eqn:E; [|discriminate H]. injection H as <- <-.
  destruct (into_guard _ _ _ _ E) as (A1 & [A2 _] & A3). apply put_W; auto.
Qed.
Lemma into_else_W s t s' t' : kind_of t = KIf -> into_else rb s t = Some (s', t') -> W s t s' t'.
Proof.
  intros K H. unfold into_else in H. destruct (kind_of (kid 3 t)) eqn:K3; try (injection H as <- <-; apply W_refl).
  - apply (into_at_W 3); [rewrite K; cbn; lia|exact H].
  - destruct (into_at rb 2 s (kid 3 t)) as [[s1 e]|] eqn:E; [|discriminate H]. assert ((s1, Nd (kind_of t) (put 3 e (kids t))) = (s', t')) as H' by congruence. apply pair_equal_spec in H' as [<- <-]. destruct (into_at_W 2 _ _ _ _ ltac:(rewrite K3; cbn; lia) E) as [A1 A2].
    apply put_W; [apply kid_kind; congruence|rewrite K; cbn; lia|exact A1|]. intros G. destruct (A2 G) as [B1 [B2 _]]. auto.
Qed.
Lemma draw_incl s c : incl (st_points s) (st_points (draw s c)).
Proof. intros x I. apply in_or_app. left. exact I. Qed.
Lemma draw_new s c j : kind_of c = KCall true j -> In (st_next s, j) (st_points (draw s c)).
Proof. intros K. apply in_or_app. right. rewrite K. left. reflexivity. Qed.
Lemma good_mono P P' t : incl P P' -> good P t -> good P' t.
Proof. intros I (A & B & C). split; [exact (guard_mono _ _ _ I A)|]. split; assumption. Qed.
(** The statements in front and the statement. *)
Lemma built_ok s c pre c' y P : build pk (st_next s) c = (pre, c') -> (exists k cs, c = Nd (KCall true k) cs) -> good P c -> incl (st_points (draw s c)) P -> guard P y -> isnt_msg y -> (forall j, kind_of c = KCall true j -> shows j y) ->
  good P c' /\ kind_of c' = kind_of c /\ Forall (guard P) pre /\ Forall isnt_msg pre /\ forall l, pairs P (y :: l) -> pairs P (pre ++ y :: l).
Proof.
  intros Eb M G I Gy Ny Sy. destruct (build_good P _ _ _ _ _ M G Eb) as (A1 & A2 & defs & v & -> & A3 & A4). split; [exact A1|]. split; [exact A2|]. split; [apply Forall_app; split; [exact (good_guards _ _ A3)|constructor; [apply message_guard, A4|constructor]]|].
  split; [apply Forall_app; split; [revert A3; apply Forall_impl; intros u X; apply X|constructor; [discriminate|constructor]]|].
  intros l Hl. rewrite <- app_assoc. apply pairs_skip; [revert A3; apply Forall_impl; intros u X; apply X|]. cbn [app pairs]. split; [|exact Hl]. destruct M as (j & cs & ->). exists j. split; [apply I, draw_new; reflexivity|]. apply Sy. reflexivity.
Qed.
Lemma post_W s t s' t' : kind_of t = KFor -> post pk s t = (s', t') -> W s t s' t'.
Proof.
  intros K H. unfold post in H. destruct (Nat.ltb_spec 2 (length (kids t))) as [L|L]; [|apply pair_equal_spec in H as [<- <-]; apply W_refl].
  destruct (locate (kid 2 t)) as [[c r]|] eqn:E; [|apply pair_equal_spec in H as [<- <-]; apply W_refl]. destruct (build pk (st_next s) c) as [pre c'] eqn:Eb. apply pair_equal_spec in H as [<- <-].
  split; [apply draw_incl|]. intros G. assert (flat (kid 2 t) = true) as Fl by (apply (front_flat _ _ _ G L); rewrite K; exact (kid_firstn 2 3 t L ltac:(lia))).
  destruct (locate_guard _ Fl _ _ E _ (guard_kid _ 2 _ G)) as (M & B1 & B2).
  assert (guard (st_points (draw s c)) (r c') /\ M0 (kid 2 t) (r c') /\ (forall j, kind_of c = KCall true j -> calls j (r c')) /\ good (st_points (draw s c)) c') as (C1 & C2 & C3 & C4).
  { destruct (build_good _ _ _ _ _ _ M (good_mono _ _ _ (draw_incl s c) B1) Eb) as (X1 & X2 & _). destruct (B2 _ c' (draw_incl s c) X1 X2) as (Y1 & Y2 & Y3). auto. }
  destruct t as [k cs]. cbn [kind_of kids] in *. subst k. destruct (guard_inv _ _ _ G) as [(L1 & L2 & L3 & L4) F].
  assert (In (kid 2 (Nd KFor cs)) cs) as Ik by (apply nth_In, L).
  assert (isnt_msg (r c')) as Ny. { intros p ns Kr. destruct C2 as (Kc & _). destruct (L4 _ p ns Ik ltac:(congruence)) as [X _]. discriminate X. }
  assert (msg_id (r c') = None) as My. { destruct C2 as (_ & -> & _). rewrite Forall_forall in L3. apply L3, Ik. }
  assert (forall j, kind_of c = KCall true j -> shows j (r c')) as Sy. { intros j Kj. specialize (C3 j Kj). destruct C2 as (_ & _ & C2). specialize (C2 Fl). destruct (r c') as [kr cr]. unfold shows. cbn [kind_of]. destruct (flat_plain _ _ C2) as [(ps & ->)|[Kp _]]; [inversion C3; subst; match goal with Z : forall ps, KFun _ <> KFun ps |- _ => exfalso; eapply Z; reflexivity end|].
    destruct kr; try destruct Kp; exact C3. }
  destruct (built_ok s c pre c' (r c') (st_points (draw s c)) Eb M (good_mono _ _ _ (draw_incl s c) B1) (incl_refl _) C1 Ny Sy) as (_ & _ & D3 & D4 & D5).
  assert (good (st_points (draw s c)) (Nd KExpr [closure (pre ++ [r c'])])) as Gk.
  { apply good_node; [exact I|discriminate|]. constructor; [|constructor]. apply closure_good. split; [apply D5; cbn [pairs]; rewrite My; auto|]. split; apply Forall_app; split; auto. }
  set (x := Nd KExpr [closure (pre ++ [r c'])]) in *. split.
  - constructor; [|apply Forall_put; [exact (proj1 Gk)|revert F; apply Forall_impl; intros u; apply guard_mono, draw_incl]]. split; [|split; [exact I|]; split].
    + cbn [fronts] in *. apply forallb_forall. intros z Iz. clear - Iz L1 Gk. destruct cs as [|c0 [|c1 [|c2 cs]]]; cbn in *; rewrite ?andb_true_iff in L1; destruct Gk as (_ & Gk & _); intuition (subst; auto).
    + cbn [others] in *. apply Forall_put; [apply Gk|exact L3].
    + intros u p ns Iu Ku. destruct (put_split 2 x cs none L) as [E1 E2]. rewrite E2 in Iu. apply in_app_or in Iu as [Iu|[<-|Iu]]; [|discriminate Ku|]; (destruct (L4 u p ns) as [X _]; [rewrite E1; apply in_or_app; auto; right; right; exact Iu|exact Ku|discriminate X]).
  - split; [split; [reflexivity|]; split; [reflexivity|discriminate]|]. intros j. apply (behind_shows 2 (Nd KFor cs)). cbn. lia.
Qed.
Lemma each_into_W k a cs s s' cs' : match k with KSwitch | KTypeSwitch => length a = 2 | KSelect => a = [] | _ => False end -> each (into rb) s cs = Some (s', cs') -> W s (Nd k (a ++ cs)) s' (Nd k (a ++ cs')).
Proof.
  intros Ka E. destruct (each_like _ _ cs (fun u _ => into_guard u) _ _ _ E) as (A1 & A2 & A3). split; [exact A1|]. intros G. apply guard_inv in G as [L F]. apply Forall_app in F as [Fa Fc].
  assert (Forall2 M0 (a ++ cs) (a ++ cs')) as FM. { apply Forall2_app; [clear; induction a; constructor; auto using M0_refl|exact (Forall2_weaken _ _ _ _ (fun x y H => proj1 H) A2)]. }
  split.
  - constructor; [apply (loc_cong _ _ _ _ _ A1 FM); [intros _; rewrite nolist_entries; [exact I|destruct k; try destruct Ka; exact I]|exact L]|]. apply Forall_app. split; [revert Fa; apply Forall_impl; intros u; apply guard_mono, A1|auto].
  - split; [apply M0_cong, FM|]. intros j. unfold shows. cbn [kind_of kids]. destruct k; try (destruct Ka; fail).
    + destruct a as [|a0 [|a1 [|? ?]]]; try discriminate Ka. cbn. auto.
    + destruct a as [|a0 [|a1 [|? ?]]]; try discriminate Ka. cbn. auto.
    + subst a. cbn [app]. intros (cl & c & I1 & K & I2 & C). destruct (Forall2_in_l _ _ _ _ A2 I1) as (cl' & I1' & [(Kc & _) Hf]). exists cl', c. rewrite (Hf K). split; [exact I1'|]. split; [congruence|auto].
Qed.
Lemma nested_W s t s' t' : nested pk rb s t = Some (s', t') -> W s t s' t'.
Proof.
  intros H. unfold nested in H. destruct (kind_of t) eqn:K; try (injection H as <- <-; apply W_refl).
  - destruct (into_guard _ _ _ _ H) as (A1 & [A2 _] & A3). split; [exact A1|]. intros G. split; [auto|]. split; [exact A2|]. intros j. unfold shows. rewrite K. intros [].
  - destruct (into_at rb 2 s t) as [[s1 t1]|] eqn:E1; [|discriminate H]. eapply W_trans; [exact (into_at_W 2 _ _ _ _ ltac:(rewrite K; cbn; lia) E1)|]. apply into_else_W; [rewrite (into_at_kind _ _ _ _ _ _ E1); exact K|exact H].
  - destruct (post pk s t) as [s1 t1] eqn:E1. eapply W_trans; [exact (post_W _ _ _ _ K E1)|]. apply (into_at_W 3); [rewrite (proj2 (post_deep _ _ _ _ _ K E1)); cbn; lia|exact H].
  - apply (into_at_W 1); [rewrite K; cbn; lia|exact H].
  - destruct t as [k cs]. cbn [kind_of kids] in *. subst k. destruct cs as [|a [|b cs]]; [injection H as <- <-; apply W_refl|injection H as <- <-; apply W_refl|]. destruct (each (into rb) s cs) as [[s1 cs1]|] eqn:E; [|discriminate H]. injection H as <- <-. apply (each_into_W KSwitch [a; b]); auto.
  - destruct t as [k cs]. cbn [kind_of kids] in *. subst k. destruct cs as [|a [|b cs]]; [injection H as <- <-; apply W_refl|injection H as <- <-; apply W_refl|]. destruct (each (into rb) s cs) as [[s1 cs1]|] eqn:E; [|discriminate H]. injection H as <- <-. apply (each_into_W KTypeSwitch [a; b]); auto.
  - destruct t as [k cs]. cbn [kind_of kids] in *. subst k. destruct (each (into rb) s cs) as [[s1 cs1]|] eqn:E; [|discriminate H]. injection H as <- <-. apply (each_into_W KSelect []); auto.
Qed.
Lemma lits_W s t s' t' : lits rb s t = Some (s', t') -> W s t s' t'.
Proof. intros H. destruct (lits_guard _ _ _ _ H) as (A1 & A2 & A3). split; [exact A1|]. intros G. split; [auto|]. split; [exact (like_M0 _ _ A2)|]. intros j. exact (like_shows _ _ _ A2). Qed.
Lemma ok_replace P P' a t m l : incl P P' -> after_message a = false -> Ok P (a ++ t :: l) -> Forall (guard P') m -> Forall isnt_msg m -> (pairs P' (t :: l) -> pairs P' (m ++ l)) -> Ok P' (a ++ m ++ l).
Proof.
  intros I N H Gm Nm Hm. apply (Ok_mono _ _ _ I) in H. destruct H as (A & B & C). apply (pairs_app _ _ _ N) in A as [A1 A2]. apply Forall_app in B as [B1 B2]. inversion B2; subst. apply Forall_app in C as [C1 C2]. inversion C2; subst.
  split; [apply pairs_app; auto|]. split; apply Forall_app; split; auto; apply Forall_app; split; auto.
Qed.
Lemma step_ok s acc t s' acc' : step pk rb s acc t = Some (s', acc') -> incl (st_points s) (st_points s') /\ forall l, Ok (st_points s) (acc ++ t :: l) -> Ok (st_points s') (acc' ++ l).
Proof.
  intros H. unfold step in H. destruct (after_message acc) eqn:Ea.
  { injection H as <- <-. split; [apply incl_refl|]. intros l X. rewrite <- app_assoc. exact X. }
  destruct (wraps t) as [c|] eqn:Ew.
  - destruct (build pk (st_next s) c) as [pre c'] eqn:Eb. destruct (each (lits rb) (draw s c) pre) as [[s1 pre']|] eqn:E1; [|discriminate H]. injection H as <- <-. destruct (wraps_spec _ _ Ew) as (M & Kt & K & _).
    destruct (each_like _ _ pre (fun u _ => lits_guard u) _ _ _ E1) as (A1 & A2 & A3). split; [exact (incl_tran (draw_incl s c) A1)|]. intros l X. rewrite <- app_assoc.
    assert (guard (st_points s) t) as Gt. { destruct X as (_ & X & _). apply Forall_app in X as [_ X]. inversion X; assumption. }
    assert (good (st_points s) c) as Gc. { destruct t as [k cs]. cbn [kids kind_of] in *. subst cs. pose proof (good_kids _ k [c] ltac:(destruct K as [-> | ->]; exact I) ltac:(destruct K as [-> | ->]; discriminate) Gt) as Y. inversion Y; assumption. }
    set (P0 := st_points (draw s c)). destruct (build_good P0 _ _ _ _ _ M (good_mono _ _ _ (draw_incl s c) Gc) Eb) as (B1 & B2 & _).
    assert (good P0 (Nd KExpr [c'])) as Gy by (apply good_node; [exact I|discriminate|constructor; [exact B1|constructor]]).
    destruct (built_ok s c pre c' (Nd KExpr [c']) P0 Eb M (good_mono _ _ _ (draw_incl s c) Gc) (incl_refl _) (proj1 Gy) ltac:(discriminate)) as (_ & _ & D3 & D4 & D5).
    { intros j Kj. unfold shows. cbn [kind_of]. apply calls_in with (c := c'); [discriminate|left; reflexivity|]. rewrite Kj in B2. destruct c' as [kc cc]. cbn in B2. subst kc. apply calls_here. }
    assert (Ok (st_points s1) (pre' ++ [Nd KExpr [c']])) as Oc.
    { destruct Gy as (Gy1 & Gy2 & Gy3 & Gy4). split; [|split; apply Forall_app; split; auto].
      - apply (pairs_like P0 _ (pre ++ [Nd KExpr [c']])); [exact A1|apply Forall2_app; [exact A2|apply likes_refl]|]. apply D5. cbn [pairs]. rewrite Gy3. auto.
      - constructor; [exact (guard_mono _ _ _ A1 Gy1)|constructor].
      - exact (like_msg _ _ A2 D4). }
    apply (ok_replace _ _ _ _ [Nd (kind_of t) [closure (pre' ++ [Nd KExpr [c']])]] _ (incl_tran (draw_incl s c) A1) Ea X).
    + constructor; [|constructor]. apply (good_node _ (kind_of t)); [destruct K as [-> | ->]; exact I|destruct K as [-> | ->]; discriminate|constructor; [apply closure_good, Oc|constructor]].
    + constructor; [|constructor]. intros p ns. destruct K as [-> | ->]; discriminate.
    + cbn [app]. apply pairs_head. destruct t as [k cs]. cbn [kind_of] in *. destruct K as [-> | ->]; reflexivity.
  - destruct (match focus t with Some (c, r) => let (pre, c') := build pk (st_next s) c in (draw s c, pre, r c') | None => (s, [], t) end) as [[s1 pre] t1] eqn:Ef.
    destruct (nested pk rb s1 t1) as [[s2 t2]|] eqn:E2; [|discriminate H]. destruct (lits rb s2 t2) as [[s3 t3]|] eqn:E3; [|discriminate H]. injection H as <- <-.
    destruct (W_trans _ _ _ _ _ _ (nested_W _ _ _ _ E2) (lits_W _ _ _ _ E3)) as [A1 A2].
    destruct (focus t) as [[c r]|] eqn:Ef'.
    + destruct (build pk (st_next s) c) as [p0 c'] eqn:Eb. injection Ef as <- <- <-. split; [exact (incl_tran (draw_incl s c) A1)|]. intros l X. rewrite <- app_assoc, <- app_assoc.
      assert (guard (st_points s) t /\ isnt_msg t) as [Gt Nt]. { destruct X as (_ & X & Y). apply Forall_app in X as [_ X]. apply Forall_app in Y as [_ Y]. inversion X; inversion Y; auto. }
      destruct (focus_spec _ _ _ Ef') as (M & _ & _). destruct (focus_placed _ _ _ Ef' _ Gt) as [Gc Fc]. destruct (build_good _ _ _ _ _ _ M (good_mono _ _ _ (draw_incl s c) Gc) Eb) as (B1 & B2 & _).
      destruct (Fc _ c' (draw_incl s c) B1 B2) as (C1 & C2 & C3). destruct (A2 C1) as [D1 [D2 D3]]. destruct (M0_trans _ _ _ C2 D2) as (K3 & M3 & _).
      destruct (built_ok s c p0 c' t3 (st_points s3) Eb M (good_mono _ _ _ (incl_tran (draw_incl s c) A1) Gc) A1 D1) as (_ & _ & F3 & F4 & F5); [intros p ns; rewrite K3; apply Nt|intros j Kj; auto|].
      pose proof (ok_replace _ (st_points s3) acc t (p0 ++ [t3]) l (incl_tran (draw_incl s c) A1) Ea X) as Z. rewrite <- app_assoc in Z. apply Z.
      * apply Forall_app. auto.
      * apply Forall_app. split; [exact F4|]. constructor; [intros p ns; rewrite K3; apply Nt|constructor].
      * intros Hp. apply F5. exact (pairs_head _ _ _ _ M3 Hp).
    + injection Ef as <- <- <-. split; [exact A1|]. intros l X. cbn [app]. rewrite <- app_assoc.
      assert (guard (st_points s) t /\ isnt_msg t) as [Gt Nt]. { destruct X as (_ & X & Y). apply Forall_app in X as [_ X]. apply Forall_app in Y as [_ Y]. inversion X; inversion Y; auto. }
      destruct (A2 Gt) as [D1 [(K3 & M3 & _) _]]. apply (ok_replace _ _ _ _ [t3] _ A1 Ea X); [auto| |].
      * constructor; [intros p ns; rewrite K3; apply Nt|constructor].
      * cbn [app]. exact (pairs_head _ _ _ _ M3).
Qed.
Lemma steps_ok l : forall s acc s' l', steps pk rb s acc l = Some (s', l') -> incl (st_points s) (st_points s') /\ (Ok (st_points s) (acc ++ l) -> Ok (st_points s') l').
Proof.
  induction l as [|t l IH]; intros s acc s' l' H; cbn [steps] in H.
  - injection H as <- <-. rewrite app_nil_r. split; [apply incl_refl|auto].
  - destruct (step pk rb s acc t) as [[s1 acc1]|] eqn:E; [|discriminate H]. destruct (step_ok _ _ _ _ _ E) as [A1 A2]. destruct (IH _ _ _ _ H) as [B1 B2]. split; [exact (incl_tran A1 B1)|]. intros X. apply B2, A2, X.
Qed.
End Walk.
Lemma rwb_ok pk fuel : forall s l s' l', rwb pk fuel s l = Some (s', l') -> incl (st_points s) (st_points s') /\ (Ok (st_points s) l -> Ok (st_points s') l').
Proof. induction fuel as [|f IH]; intros s l s' l' H; [discriminate H|]. cbn [rwb] in H. exact (steps_ok pk _ IH l _ [] _ _ H). Qed.
