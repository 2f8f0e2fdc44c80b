(** Lemmas for RewriteProps.v: names. *)
From Verif Require Import Base InstrModel RewriteModel RewriteSpec RewriteProofs RewriteGuard.
Local Open Scope nat_scope.

Fixpoint undl (env : list bytes) (l : list nd) : list bytes := match l with [] => [] | c :: l' => undeclared env c ++ undl (declares c ++ env) l' end.
Definition ordered (k : kind) : bool := match k with KBlock | KClause | KIf | KFor | KSwitch | KTypeSwitch => true | _ => false end.
Lemma und_eq env k cs : undeclared env (Nd k cs) =
  match k with
  | KId x => (if mem x env then [] else [x]) ++ flat_map (undeclared env) cs
  | KFun ps => undl (ps ++ env) cs
  | KRange d => match cs with [] => [] | c :: cs' => undeclared env c ++ undl (d ++ env) cs' end
  | _ => if ordered k then undl env cs else flat_map (undeclared env) cs
  end.
Proof.
  assert (forall l env, (fix go (env : list bytes) (l : list nd) : list bytes := match l with [] => [] | c :: l' => undeclared env c ++ go (declares c ++ env) l' end) env l = undl env l) as G.
  { intros l. induction l as [|c l IH]; intros e; [reflexivity|]. cbn. rewrite IH. reflexivity. }
  destruct k; cbn [undeclared ordered]; try reflexivity; try (apply G); destruct cs; try reflexivity.
Qed.
Definition D (env : list bytes) (t : nd) : Prop := undeclared env t = [].
Fixpoint Dl (env : list bytes) (l : list nd) : Prop := match l with [] => True | c :: l' => D env c /\ Dl (declares c ++ env) l' end.
Lemma undl_nil l : forall env, undl env l = [] <-> Dl env l.
Proof. induction l as [|c l IH]; intros env; [cbn; tauto|]. cbn [undl Dl]. unfold D. rewrite <- IH. split; [intros H; apply app_eq_nil in H; exact H|intros [-> ->]; reflexivity]. Qed.
Lemma flat_nil env l : flat_map (undeclared env) l = [] <-> Forall (D env) l.
Proof. induction l as [|c l IH]; [cbn; split; auto; constructor|]. cbn. split; [intros H; apply app_eq_nil in H as [H1 H2]; constructor; [exact H1|apply IH, H2]|]. intros H. inversion H; subst. unfold D in *. rewrite H2. apply IH, H3. Qed.
Lemma D_eq env k cs : D env (Nd k cs) <->
  match k with
  | KId x => mem x env = true /\ Forall (D env) cs
  | KFun ps => Dl (ps ++ env) cs
  | KRange d => match cs with [] => True | c :: cs' => D env c /\ Dl (d ++ env) cs' end
  | _ => if ordered k then Dl env cs else Forall (D env) cs
  end.
Proof.
  unfold D at 1. rewrite und_eq. destruct k; cbn [ordered]; try apply flat_nil; try apply undl_nil.
  - rewrite <- flat_nil. destruct (mem x env); cbn [app]; [tauto|]. split; [discriminate|intros [X _]; discriminate X].
  - destruct cs as [|c cs]; [tauto|]. rewrite <- undl_nil. unfold D. split; [intros H; apply app_eq_nil in H; exact H|intros [-> ->]; reflexivity].
Qed.
Lemma mem_In x l : mem x l = true <-> In x l.
Proof.
  unfold mem. rewrite existsb_exists. split; [intros (y & I & E); apply beq_true in E; subst; exact I|]. intros I. exists x. split; [exact I|apply beq_refl].
Qed.
Lemma D_mono t : forall env env', incl env env' -> D env t -> D env' t.
Proof.
  induction t as [k cs IH] using nd_ind'. intros env env' I H. rewrite D_eq in *.
  assert (forall env env', incl env env' -> Dl env cs -> Dl env' cs) as GL.
  { clear - IH. induction IH as [|c l Hc F IHl]; intros e e' I; [auto|]. cbn [Dl]. intros [H1 H2]. split; [exact (Hc _ _ I H1)|]. revert H2. apply IHl. apply incl_app; [apply incl_appl, incl_refl|apply incl_appr, I]. }
  assert (Forall (D env) cs -> Forall (D env') cs) as GF. { rewrite !Forall_forall. rewrite Forall_forall in IH. intros X u Iu. exact (IH u Iu _ _ I (X u Iu)). }
  destruct k; cbn [ordered] in *; auto.
  - destruct H as [H1 H2]. split; [apply mem_In; apply I; apply mem_In, H1|auto].
  - apply (GL _ _ (incl_app (incl_appl _ (incl_refl _)) (incl_appr _ I)) H).
  - apply (GL _ _ I H).
  - apply (GL _ _ I H).
  - apply (GL _ _ I H).
  - destruct cs as [|c cs]; [exact Logic.I|]. destruct H as [H1 H2]. inversion IH as [|? ? Hc F]; subst. split; [exact (Hc _ _ I H1)|].
    assert (forall env env', incl env env' -> Dl env cs -> Dl env' cs) as GL'. { clear - F. induction F as [|c l Hc F IHl]; intros e e' I; [auto|]. cbn [Dl]. intros [H1 H2]. split; [exact (Hc _ _ I H1)|]. revert H2. apply IHl. apply incl_app; [apply incl_appl, incl_refl|apply incl_appr, I]. }
    apply (GL' _ _ (incl_app (incl_appl _ (incl_refl _)) (incl_appr _ I)) H2).
  - apply (GL _ _ I H).
  - apply (GL _ _ I H).
  - apply (GL _ _ I H).
Qed.
Lemma Dl_mono l : forall env env', incl env env' -> Dl env l -> Dl env' l.
Proof. intros env env' I H. apply (D_eq env' KBlock l). apply (D_mono (Nd KBlock l) env env' I). apply (D_eq env KBlock l). exact H. Qed.
Definition after (env : list bytes) (l : list nd) : list bytes := fold_left (fun e t => declares t ++ e) l env.
Lemma Dl_app a : forall env b, Dl env (a ++ b) <-> Dl env a /\ Dl (after env a) b.
Proof. induction a as [|c a IH]; intros env b; [cbn; tauto|]. cbn [app Dl after fold_left]. fold (after (declares c ++ env) a). rewrite IH. tauto. Qed.
Lemma after_incl l : forall env, incl env (after env l).
Proof. induction l as [|c l IH]; intros env; [apply incl_refl|]. cbn. exact (incl_tran (incl_appr _ (incl_refl _)) (IH _)). Qed.

(** [y] for [x]: declares the same, uses no other names, as good in other respects. *)
Definition keeps (x y : nd) : Prop := declares y = declares x /\ (forall env, D env x -> D env y) /\ (inits_ok x = true -> inits_ok y = true) /\ has_call y = has_call x /\ (flat x = true -> flat y = true) /\ kind_of y = kind_of x.
Lemma keeps_refl x : keeps x x. Proof. repeat split; auto. Qed.
Lemma keeps_trans x y z : keeps x y -> keeps y z -> keeps x z.
Proof. intros (A1 & A2 & A3 & A4 & A5 & A6) (B1 & B2 & B3 & B4 & B5 & B6). split; [congruence|]. split; [auto|]. split; [auto|]. split; [congruence|]. split; [auto|congruence]. Qed.
Lemma Dl_keeps l l' : Forall2 keeps l l' -> forall env, Dl env l -> Dl env l'.
Proof. induction 1 as [|x y l l' (H1 & H2 & _) F IH]; intros env; [auto|]. cbn [Dl]. rewrite H1. intros [A B]. split; [auto|apply IH, B]. Qed.
(** ... but for the names it uses. *)
Definition alike (x y : nd) : Prop := declares y = declares x /\ (inits_ok x = true -> inits_ok y = true) /\ has_call y = has_call x /\ (flat x = true -> flat y = true) /\ kind_of y = kind_of x.
Lemma alike_refl x : alike x x. Proof. repeat split; auto. Qed.
Lemma keeps_alike x y : keeps x y -> alike x y. Proof. intros (A1 & A2 & A3 & A4 & A5 & A6). repeat split; auto. Qed.
Lemma all_alike (p : nd -> bool) l l' : (forall x y, alike x y -> p x = true -> p y = true) -> Forall2 alike l l' -> forallb p l = true -> forallb p l' = true.
Proof. intros Hp F. induction F as [|x y l l' K F IH]; [auto|]. cbn. rewrite !andb_true_iff. intros [A B]. split; [exact (Hp _ _ K A)|auto]. Qed.
Lemma init_ok_cong k l l' : Forall2 (fun x y => declares y = declares x /\ has_call y = has_call x) (firstn 2 l) (firstn 2 l') -> map declares l' = map declares l -> init_ok k l' = init_ok k l.
Proof.
  intros F E. unfold init_ok. f_equal.
  - destruct l as [|a [|b l]], l' as [|a' [|b' l']]; try discriminate E; try (destruct k; reflexivity). cbn [firstn] in F. inversion F as [|? ? ? ? [H1 H2] F2]; subst. inversion F2 as [|? ? ? ? [H3 H4] _]; subst. rewrite H1, H2, H4. reflexivity.
  - destruct l as [|a [|b [|c l]]], l' as [|a' [|b' [|c' l']]]; try discriminate E; try (destruct k; reflexivity). cbn [map] in E. injection E as _ _ E _. rewrite E. reflexivity.
Qed.
Lemma alike_declares l l' : Forall2 alike l l' -> map declares l' = map declares l.
Proof. induction 1 as [|x y l l' H F IH]; [reflexivity|]. cbn. rewrite IH. f_equal. apply H. Qed.
Lemma inits_cong k l l' : Forall2 alike l l' -> inits_ok (Nd k l) = true -> inits_ok (Nd k l') = true.
Proof.
  intros F. cbn [inits_ok]. rewrite !andb_true_iff. intros [[A1 A2] A3]. split; [split|].
  - assert (Forall2 alike (fronts k l) (fronts k l')) as G by (destruct k; cbn [fronts]; auto using Forall2_first). revert G A1. apply all_alike. intros x y H. apply H.
  - rewrite <- A2. apply init_ok_cong; [|exact (alike_declares _ _ F)]. apply Forall2_first. revert F. apply Forall2_weaken. intros x y H. split; apply H.
  - revert F A3. apply all_alike. intros x y H. apply H.
Qed.
Lemma alike_cong k l l' : Forall2 alike l l' -> alike (Nd k l) (Nd k l').
Proof.
  intros F. split; [|split; [|split; [|split]]].
  - destruct k; try reflexivity. destruct F as [|x y l l' H F]; [reflexivity|]. destruct F; [|destruct x, y; reflexivity]. cbn [declares]. apply H.
  - apply inits_cong, F.
  - assert (existsb has_call l' = existsb has_call l) as E. { induction F as [|x y l l' H F IH]; [reflexivity|]. cbn. rewrite IH. f_equal. apply H. }
    destruct k; cbn [has_call]; try exact E; try reflexivity. destruct m; [reflexivity|exact E].
  - apply flat_cong. revert F. apply Forall2_weaken. intros x y H. apply H.
  - reflexivity.
Qed.
Lemma keeps_cong k l l' : Forall2 keeps l l' -> keeps (Nd k l) (Nd k l').
Proof.
  intros F. destruct (alike_cong k l l' (Forall2_weaken _ _ _ _ keeps_alike F)) as (A1 & A2 & A3 & A4 & A5). split; [exact A1|]. split; [|repeat split; assumption].
  intros env. rewrite !D_eq. assert (Forall (D env) l -> Forall (D env) l') as GF. { clear - F. intros X. induction F as [|x y l l' H F IH]; [auto|]. inversion X; subst. constructor; [apply H; assumption|auto]. }
  destruct k; cbn [ordered]; auto; try (apply (Dl_keeps _ _ F)); [intros [A B]; auto|]. clear - F. destruct F as [|x y l l' H F]; [auto|]. intros [A B]. split; [apply H, A|exact (Dl_keeps _ _ F _ B)].
Qed.
Lemma keeps_refls l : Forall2 keeps l l. Proof. induction l; constructor; auto using keeps_refl. Qed.
Lemma put_keeps i c t : i < length (kids t) -> keeps (kid i t) c -> keeps t (Nd (kind_of t) (put i c (kids t))).
Proof. destruct t as [k cs]. cbn [kind_of kids]. unfold kid. cbn [kids]. fold none. intros L H. apply keeps_cong. exact (put_rel keeps i c cs none keeps_refl L H). Qed.

(** ** Contexts *)
Lemma inits_kid i t : inits_ok t = true -> inits_ok (kid i t) = true.
Proof.
  destruct t as [k cs]. cbn [inits_ok]. intros S. apply andb_true_iff in S as [_ S]. unfold kid. cbn [kids]. revert i. induction cs as [|c cs IH]; intros [|i]; cbn in *; try reflexivity; apply andb_true_iff in S as [Sc S]; auto.
Qed.
(** [c] is in a context where the names are those of [t]; another call there. *)
Definition context (t c : nd) (r : nd -> nd) : Prop :=
  (inits_ok t = true -> inits_ok c = true) /\ (forall env, D env t -> D env c) /\ flat c = true /\
  forall c', kind_of c' = kind_of c -> flat c' = true ->
    declares (r c') = declares t /\ (forall env env', incl env env' -> D env t -> D env' c' -> D env' (r c')) /\ (inits_ok t = true -> inits_ok c' = true -> inits_ok (r c') = true) /\
    has_call (r c') = has_call t /\ (flat t = true -> flat (r c') = true) /\ kind_of (r c') = kind_of t.
Lemma flat_D env k cs : flat (Nd k cs) = true -> (forall ps, k <> KFun ps) -> D env (Nd k cs) <-> match k with KId x => mem x env = true | _ => True end /\ Forall (D env) cs.
Proof. intros F N1. rewrite D_eq. destruct k; try discriminate F; cbn [ordered]; try tauto. exfalso; eapply N1; reflexivity. Qed.
Lemma locate_context t : flat t = true -> forall c r, locate t = Some (c, r) -> context t c r.
Proof.
  induction t as [k cs IH] using nd_ind'. intros Fl c r H. rewrite locate_eq in H. destruct (flat_plain _ _ Fl) as [(ps & ->)|[Kp Fc]]; [discriminate H|]. assert (forall ps, k <> KFun ps) as Nf by (intros ps ->; destruct Kp).
  assert (match locate_kids cs with Some (x, r0) => Some (x, fun y => Nd k (r0 y)) | None => None end = Some (c, r) -> context (Nd k cs) c r) as X.
  { intros E. destruct (locate_kids cs) as [[x r']|] eqn:El; [|discriminate E]. injection E as <- <-. destruct (locate_kids_some _ _ _ El) as (i & ri & Hi & Hl & Hr). rewrite Forall_forall in IH. pose proof (nth_In cs none Hi) as Ii.
    destruct (IH _ Ii (proj1 (forallb_forall _ _) Fc _ Ii) _ _ Hl) as (A1 & A2 & A3 & A4). split; [intros Hx; apply A1; exact (inits_kid i (Nd k cs) Hx)|].
    split; [intros env Hd; apply A2; apply (flat_D _ _ _ Fl Nf) in Hd as [_ Hd]; rewrite Forall_forall in Hd; auto|]. split; [exact A3|]. intros c' Kc Fc'. destruct (A4 c' Kc Fc') as (B1 & B2 & B3 & B4 & B5 & B6). rewrite Hr.
    assert (flat (nth i cs none) = true) as Fi by exact (proj1 (forallb_forall _ _) Fc _ Ii).
    assert (flat (Nd k (put i (ri c') cs)) = true) as Fp. { revert Fl. apply flat_cong. apply (put_rel (fun x y => flat x = true -> flat y = true) i _ cs none); auto. }
    split; [|split; [|split; [|split; [|split]]]].
    - destruct k; try destruct Kp; reflexivity.
    - intros env env' I H1 H2. apply (flat_D _ _ _ Fl Nf) in H1 as [H1 H1']. apply (flat_D _ _ _ Fp Nf). split; [destruct k; auto; apply mem_In, I, mem_In, H1|].
      rewrite Forall_forall in H1'. apply Forall_put; [exact (B2 _ _ I (H1' _ Ii) H2)|]. apply Forall_forall. intros u Iu. exact (D_mono _ _ _ I (H1' u Iu)).
    - intros H1 H2. cbn [inits_ok] in *. rewrite !andb_true_iff in *. destruct H1 as [[H1 H3] H4]. split; [split|].
      + assert (fronts k (put i (ri c') cs) = put i (ri c') cs) as -> by (destruct k; try destruct Kp; reflexivity). apply forallb_forall. apply Forall_forall, Forall_put; [auto|]. apply Forall_forall, forallb_forall. exact Fc.
      + destruct k; try destruct Kp; reflexivity.
      + apply forallb_forall. apply Forall_forall, Forall_put; [|apply Forall_forall, forallb_forall; exact H4]. apply B3; [exact (proj1 (forallb_forall _ _) H4 _ Ii)|exact H2].
    - assert (existsb has_call (put i (ri c') cs) = existsb has_call cs) as E. { destruct (put_split i (ri c') cs none Hi) as [E1 ->]. rewrite E1 at 3. rewrite !existsb_app. cbn [existsb]. rewrite B4. reflexivity. }
      destruct k; try destruct Kp; cbn [has_call]; try exact E. destruct m; [reflexivity|exact E].
    - intros _. exact Fp.
    - reflexivity. }
  destruct k as [| | | | | | | |m j| | | | | | | | | | | | | | | | | | |]; try (exact (X H)); try (destruct Kp; fail). destruct m; [|exact (X H)].
  injection H as <- <-. split; [auto|]. split; [auto|]. split; [exact Fl|]. intros c' K Fc'. destruct c' as [kc cc]. cbn in K. subst kc. split; [reflexivity|]. split; [auto|]. split; [auto|]. split; [reflexivity|]. split; [auto|reflexivity].
Qed.

(** ** Building *)
Definition okx (t : nd) : Prop := inits_ok t = true /\ flat t = true.
Lemma okx_kids k cs : plain k -> okx (Nd k cs) -> Forall okx cs.
Proof.
  intros K [H1 H2]. cbn [inits_ok] in H1. rewrite !andb_true_iff in H1. destruct H1 as [_ H1]. assert (forallb flat cs = true) as H3 by (destruct k; try destruct K; exact H2). rewrite forallb_forall in *. apply Forall_forall. intros u I. split; auto.
Qed.
Lemma okx_node k cs : plain k -> Forall okx cs -> okx (Nd k cs).
Proof.
  intros K H. assert (forallb flat cs = true) as Ff by (apply forallb_forall; rewrite Forall_forall in H; intros u I; apply (H u I)). assert (forallb inits_ok cs = true) as Fi by (apply forallb_forall; rewrite Forall_forall in H; intros u I; apply (H u I)).
  split; [cbn [inits_ok]; rewrite Fi; destruct k; try destruct K; cbn [fronts init_ok]; rewrite Ff; reflexivity|destruct k; try destruct K; exact Ff].
Qed.
Lemma okx_name x : okx (name x). Proof. apply okx_node; [exact I|constructor]. Qed.
Lemma D_name env x : In x env -> D env (name x).
Proof. intros H. apply D_eq. split; [apply mem_In, H|constructor]. Qed.
Lemma D_plain env k cs : match k with KCall _ _ | KSel _ | KMsg _ _ | KExpr | KAssign _ | KDefer | KGo => True | _ => False end -> D env (Nd k cs) <-> Forall (D env) cs.
Proof. rewrite D_eq. destruct k; intros []; reflexivity. Qed.
Lemma after_app a b env : after env (a ++ b) = after (after env a) b.
Proof. apply fold_left_app. Qed.
Lemma build_args_scope q l : Forall okx l -> forall i s l' v env, build_args q i l = (s, l', v) -> Forall (D env) l ->
  Forall okx s /\ Forall okx l' /\ Forall okx (map snd v) /\ Dl env s /\ Forall (D (after env s)) l' /\ Forall (D (after env s)) (map snd v).
Proof.
  intros O. induction O as [|a l Oa O IH]; intros i s l' v env H Hd; cbn [build_args] in H; [injection H as <- <- <-; repeat split; constructor|].
  inversion Hd as [|? ? Da Dr]; subst. destruct (build_args q (S i) l) as [[s1 l1] v1] eqn:E. destruct (stays a); injection H as <- <- <-; cbn [map snd].
  - destruct (IH _ _ _ _ env E Dr) as (A1 & A2 & A3 & A4 & A5 & A6). pose proof (D_mono _ _ _ (after_incl s1 env) Da) as Da'. split; [exact A1|]. split; [constructor; assumption|]. split; [constructor; assumption|]. split; [exact A4|]. split; constructor; assumption.
  - set (x := arg_var q i). destruct (IH _ _ _ _ (x :: env) E) as (A1 & A2 & A3 & A4 & A5 & A6). { revert Dr. apply Forall_impl. intros u. apply D_mono. apply incl_tl, incl_refl. }
    assert (In x (after (x :: env) s1)) as Ix by (apply after_incl; left; reflexivity).
    split; [constructor; [apply (okx_node (KAssign [x])); [exact I|constructor; [exact Oa|constructor]]|exact A1]|]. split; [constructor; [apply okx_name|exact A2]|]. split; [constructor; [apply okx_name|exact A3]|].
    split; [cbn [Dl]; split; [apply (D_plain env (KAssign [x])); [exact I|constructor; [exact Da|constructor]]|exact A4]|]. split; (constructor; [apply D_name, Ix|assumption]).
Qed.
Lemma build_recv_scope pk q f s f' v env : okx f -> build_recv pk q f = (s, f', v) -> D env f ->
  Forall okx s /\ okx f' /\ Forall okx (map snd v) /\ Dl env s /\ D (after env s) f' /\ Forall (D (after env s)) (map snd v).
Proof.
  intros O H Hd. unfold build_recv in H.
  assert ((s, f', v) = ([], f, []) -> Forall okx s /\ okx f' /\ Forall okx (map snd v) /\ Dl env s /\ D (after env s) f' /\ Forall (D (after env s)) (map snd v)) as G0 by (intros E; injection E as -> -> ->; split; [constructor|]; split; [exact O|]; split; [constructor|]; split; [exact I|]; split; [exact Hd|constructor]).
  destruct f as [k cs]. destruct k as [| |m| | | | | | | | | | | | | | | | | | | | | | | | |]; try (apply G0; symmetry; exact H).
  destruct cs as [|x [|? ?]]; try (apply G0; symmetry; exact H); [|apply G0; rewrite <- H; destruct x as [kx csx]; destruct kx; try destruct csx; reflexivity].
  pose proof (okx_kids (KSel m) [x] I O) as Ok. inversion Ok as [|? ? Ox _]; subst. apply (D_plain env (KSel m) _ I) in Hd as Hx. inversion Hx as [|? ? Dx _]; subst.
  assert ((s, f', v) = ([define (recv_var q) x], Nd (KSel m) [name (recv_var q)], [(B "recv", name (recv_var q))]) -> Forall okx s /\ okx f' /\ Forall okx (map snd v) /\ Dl env s /\ D (after env s) f' /\ Forall (D (after env s)) (map snd v)) as G1.
  { intros E. injection E as -> -> ->. assert (D (after env [define (recv_var q) x]) (name (recv_var q))) as Dn by (apply D_name; left; reflexivity).
    split; [constructor; [apply (okx_node (KAssign [recv_var q])); [exact I|constructor; [exact Ox|constructor]]|constructor]|]. split; [apply okx_node; [exact I|constructor; [apply okx_name|constructor]]|]. split; [constructor; [apply okx_name|constructor]|].
    split; [split; [apply (D_plain env (KAssign [recv_var q])); [exact I|constructor; [exact Dx|constructor]]|exact I]|]. split; [apply D_plain; [exact I|constructor; [exact Dn|constructor]]|constructor; [exact Dn|constructor]]. }
  destruct x as [kx csx]. destruct kx as [|y| | | | | | | | | | | | | | | | | | | | | | | | | |]; try (apply G1; symmetry; exact H).
  destruct csx; [|apply G1; symmetry; exact H]. injection H as <- <- <-. split; [constructor|]. split; [exact O|]. split; [|split; [exact I|]; split; [exact Hd|]];
  match goal with |- context [if ?b then _ else _] => destruct b end; constructor; try constructor; [apply okx_name|apply okx_name|exact Dx].
Qed.
Lemma build_scope pk q c pre c' env : (exists k cs, c = Nd (KCall true k) cs) -> okx c -> D env c -> build pk q c = (pre, c') ->
  Forall okx pre /\ okx c' /\ kind_of c' = kind_of c /\ Dl env pre /\ D (after env pre) c'.
Proof.
  intros (k & cs & ->) O Hd H. destruct cs as [|f args]; cbn [build] in H.
  - injection H as <- <-. split; [constructor; [apply okx_node; [exact I|constructor; [apply okx_node; [exact I|constructor]|constructor]]|constructor]|]. split; [exact O|]. split; [reflexivity|]. split; [|exact Hd].
    split; [|exact I]. apply D_plain; [exact I|]. constructor; [apply D_plain; [exact I|constructor]|constructor].
  - destruct (build_recv pk q f) as [[s f'] v] eqn:E1. destruct (build_args q 0 args) as [[s' args'] v'] eqn:E2. injection H as <- <-.
    pose proof (okx_kids (KCall true k) (f :: args) I O) as Ok. inversion Ok as [|? ? Of Oa]; subst. apply (D_plain env (KCall true k) _ I) in Hd. inversion Hd as [|? ? Df Da]; subst.
    destruct (build_recv_scope pk q f s f' v env Of E1 Df) as (A1 & A2 & A3 & A4 & A5 & A6).
    assert (Forall (D (after env s)) args) as Da' by (revert Da; apply Forall_impl; intros u; apply D_mono, after_incl). destruct (build_args_scope q args Oa 0 s' args' v' (after env s) E2 Da') as (B1 & B2 & B3 & B4 & B5 & B6).
    set (msg := message q (v ++ v')). assert (Forall okx (map snd (v ++ v'))) as Ov by (rewrite map_app; apply Forall_app; auto).
    assert (okx msg) as Om by (apply okx_node; [exact I|constructor; [apply okx_node; [exact I|exact Ov]|constructor]]).
    assert (forall e, Forall (D (after env s)) e -> Forall (D (after (after env s) s')) e) as Mo by (intros e; apply Forall_impl; intros u; apply D_mono, after_incl).
    assert (after env (s ++ s' ++ [msg]) = after (after env s) s') as Ea by (rewrite !after_app; reflexivity).
    split; [apply Forall_app; split; [exact A1|apply Forall_app; split; [exact B1|constructor; [exact Om|constructor]]]|]. split; [apply okx_node; [exact I|constructor; assumption]|]. split; [reflexivity|]. split.
    + apply Dl_app. split; [exact A4|]. apply Dl_app. split; [exact B4|]. split; [|exact I]. apply D_plain; [exact I|]. constructor; [|constructor]. apply D_plain; [exact I|]. rewrite map_app. apply Forall_app. auto.
    + rewrite Ea. apply D_plain; [exact I|]. constructor; [exact (D_mono _ _ _ (after_incl _ _) A5)|exact B5].
Qed.

(** ** The call of a statement *)
Lemma Dl_put l : forall i x env env', incl env env' -> i < length l -> declares x = declares (nth i l none) ->
  (forall e e', incl e e' -> incl env' e' -> D e (nth i l none) -> D e' x) -> Dl env l -> Dl env' (put i x l).
Proof.
  induction l as [|c l IH]; intros i x env env' I L Hx Hd H; [cbn in L; lia|]. destruct H as [H1 H2]. destruct i as [|i]; cbn [put nth] in *.
  - split; [exact (Hd _ _ I (incl_refl _) H1)|]. rewrite Hx. revert H2. apply Dl_mono. apply incl_app; [apply incl_appl, incl_refl|apply incl_appr, I].
  - split; [exact (D_mono _ _ _ I H1)|]. apply (IH i x (declares c ++ env)); auto; [apply incl_app; [apply incl_appl, incl_refl|apply incl_appr, I]|cbn in L; lia|].
    intros e e' I1 I2. apply Hd; [exact I1|]. exact (incl_tran (incl_appr _ (incl_refl _)) I2).
Qed.
Lemma context_at k cs i c r : i < length cs -> context (nth i cs none) c r -> flat (nth i cs none) = true -> (inits_ok (Nd k cs) = true -> forall env, D env (Nd k cs) -> D env c) ->
  match k with KChan | KIf | KFor | KSwitch | KTypeSwitch | KClause => True | KRange _ => i = 0 | _ => False end ->
  inits_ok (Nd k cs) = true -> context (Nd k cs) c (fun y => Nd k (put i (r y) cs)).
Proof.
  intros L (A1 & A2 & A3 & A4) Fi Hd K O. split; [intros H; apply A1; exact (inits_kid i (Nd k cs) H)|]. split; [auto|]. split; [exact A3|]. intros c' Kc Fc. destruct (A4 c' Kc Fc) as (B1 & B2 & B3 & B4 & B5 & B6).
  assert (inits_ok c' = true -> alike (nth i cs none) (r c')) as Al by (intros Oc; repeat split; auto). split; [destruct k; try reflexivity; destruct K|]. split; [|split; [|split; [|split; [|reflexivity]]]].
  - intros env env' I H1 H2. apply D_eq. rewrite D_eq in H1.
    assert (Dl env cs -> Dl env' (put i (r c') cs)) as G. { apply Dl_put; auto. intros e e' I1 I2 H3. exact (B2 _ _ I1 H3 (D_mono _ _ _ I2 H2)). }
    destruct k; try (destruct K; fail); cbn [ordered] in *; auto.
    + rewrite Forall_forall in H1. apply Forall_put; [exact (B2 _ _ I (H1 _ (nth_In _ _ L)) H2)|]. apply Forall_forall. intros u Iu. exact (D_mono _ _ _ I (H1 u Iu)).
    + subst i. destruct cs as [|a cs]; [cbn in L; lia|]. cbn [put nth] in *. destruct H1 as [H1 H3]. split; [exact (B2 _ _ I H1 H2)|]. revert H3. apply Dl_mono. apply incl_app; [apply incl_appl, incl_refl|apply incl_appr, I].
  - intros _ Oc. apply (inits_cong k cs); [|exact O]. exact (put_rel alike i _ cs none alike_refl L (Al Oc)).
  - assert (existsb has_call (put i (r c') cs) = existsb has_call cs) as E. { destruct (put_split i (r c') cs none L) as [E1 ->]. rewrite E1 at 3. rewrite !existsb_app. cbn [existsb]. rewrite B4. reflexivity. }
    destruct k; try destruct K; cbn [has_call]; auto.
  - apply flat_cong. apply (put_rel (fun x y => flat x = true -> flat y = true) i _ cs none); auto.
Qed.
Lemma locate_has t c r : flat t = true -> locate t = Some (c, r) -> has_call t = true.
Proof.
  revert c r. induction t as [k cs IH] using nd_ind'. intros c r Fl H. rewrite locate_eq in H. destruct (flat_plain _ _ Fl) as [(ps & ->)|[Kp Fc]]; [discriminate H|].
  assert (match locate_kids cs with Some (x, r0) => Some (x, fun y => Nd k (r0 y)) | None => None end = Some (c, r) -> existsb has_call cs = true) as X.
  { intros E. destruct (locate_kids cs) as [[x r']|] eqn:El; [|discriminate E]. destruct (locate_kids_some _ _ _ El) as (i & ri & Hi & Hl & Hr). apply existsb_exists. exists (nth i cs none). pose proof (nth_In cs none Hi) as Ii. split; [exact Ii|]. rewrite Forall_forall in IH. exact (IH _ Ii _ _ (proj1 (forallb_forall _ _) Fc _ Ii) Hl). }
  destruct k as [| | | | | | | |m j| | | | | | | | | | | | | | | | | | |]; try (exact (X H)); try (destruct Kp; fail). destruct m; [reflexivity|exact (X H)].
Qed.
Lemma has_locate t : flat t = true -> has_call t = true -> locate t <> None.
Proof.
  induction t as [k cs IH] using nd_ind'. intros Fl H. rewrite locate_eq. destruct (flat_plain _ _ Fl) as [(ps & ->)|[Kp Fc]]; [discriminate H|].
  assert (existsb has_call cs = true -> locate_kids cs <> None) as X.
  { clear - IH Fc. induction IH as [|a l Ha F IHl]; [discriminate|]. cbn [existsb locate_kids]. cbn in Fc. apply andb_true_iff in Fc as [Fa Fl]. intros H. destruct (locate_kids l) as [[? ?]|] eqn:E; [discriminate|]. apply orb_true_iff in H as [H|H]; [|exfalso; apply (IHl Fl H); reflexivity]. specialize (Ha Fa H). destruct (locate a) as [[? ?]|]; [discriminate|contradiction]. }
  assert (existsb has_call cs = true -> match locate_kids cs with Some (x, r0) => Some (x, fun y => Nd k (r0 y)) | None => None end <> None) as Y by (intros E; specialize (X E); destruct (locate_kids cs) as [[? ?]|]; [discriminate|contradiction]).
  destruct k as [| | | | | | | |m j| | | | | | | | | | | | | | | | | | |]; try (exact (Y H)); try (destruct Kp; fail). destruct m; [discriminate|exact (Y H)].
Qed.
Lemma flat_front k cs i : inits_ok (Nd k cs) = true -> i < length cs -> i < match k with KClause | KRange _ => 1 | KIf | KSwitch | KTypeSwitch => 2 | KFor => 3 | KChan => S i | _ => 0 end -> flat (nth i cs none) = true.
Proof.
  cbn [inits_ok]. rewrite !andb_true_iff. intros [[H _] _] L Li. rewrite forallb_forall in H. apply H.
  assert (forall n, i < n -> In (nth i cs none) (firstn n cs)) as G. { clear - L. intros n Ln. revert i n L Ln. induction cs as [|a l IH]; intros [|i] [|n] L Ln; cbn in *; try lia; [left; reflexivity|right; apply IH; lia]. }
  destruct k; cbn [fronts]; try lia; try (apply G; assumption). apply nth_In, L.
Qed.
Lemma locate_at_some i t c r : locate_at i t = Some (c, r) -> exists r0, i < length (kids t) /\ locate (kid i t) = Some (c, r0) /\ r = fun y => Nd (kind_of t) (put i (r0 y) (kids t)).
Proof. unfold locate_at. destruct (i <? length (kids t)) eqn:L; [|discriminate]. apply Nat.ltb_lt in L. destruct (locate (kid i t)) as [[x r0]|]; [|discriminate]. intros E. injection E as <- <-. exists r0. auto. Qed.
Lemma D_first env k cs : match k with KIf | KFor | KSwitch | KTypeSwitch | KClause | KRange _ | KChan => True | _ => False end -> 0 < length cs -> D env (Nd k cs) -> D env (nth 0 cs none).
Proof. intros K L H. rewrite D_eq in H. destruct cs as [|a cs]; [cbn in L; lia|]. destruct k; try destruct K; cbn [ordered] in H; try (apply H). inversion H; assumption. Qed.
Lemma context_first k cs c r : match k with KIf | KFor | KSwitch | KTypeSwitch | KClause | KRange _ => True | _ => False end -> inits_ok (Nd k cs) = true -> locate_at 0 (Nd k cs) = Some (c, r) -> context (Nd k cs) c r.
Proof.
  intros K O H. destruct (locate_at_some _ _ _ _ H) as (r0 & L & Hl & ->). cbn [kids kind_of] in *. unfold kid in Hl. cbn [kids] in Hl. fold none in Hl.
  assert (flat (nth 0 cs none) = true) as Fl by (apply (flat_front k cs 0 O L); destruct k; try destruct K; lia). pose proof (locate_context _ Fl _ _ Hl) as C. apply context_at; auto; [|destruct k; try destruct K; reflexivity || exact I].
  intros _ env Hd. apply C. apply (D_first env k cs); auto. destruct k; try destruct K; exact I.
Qed.
Lemma context_second k cs c r : match k with KIf | KFor | KSwitch | KTypeSwitch => True | _ => False end -> inits_ok (Nd k cs) = true -> locate_or 0 1 (Nd k cs) = Some (c, r) -> context (Nd k cs) c r.
Proof.
  intros K O H. unfold locate_or in H. destruct (locate_at 0 (Nd k cs)) as [[c0 r0]|] eqn:E0; [injection H as <- <-; apply context_first; auto; destruct k; try destruct K; exact I|].
  destruct (locate_at_some _ _ _ _ H) as (r0 & L & Hl & ->). cbn [kids kind_of] in *. unfold kid in Hl. cbn [kids] in Hl. fold none in Hl.
  assert (flat (nth 1 cs none) = true) as Fl by (apply (flat_front k cs 1 O L); destruct k; try destruct K; lia). pose proof (locate_context _ Fl _ _ Hl) as C. apply context_at; auto; [|destruct k; try destruct K; exact I].
  intros _ env Hd. apply C. destruct cs as [|a [|b cs]]; [cbn in L; lia|cbn in L; lia|]. cbn [nth] in *. assert (flat a = true) as Fa by (apply (flat_front k (a :: b :: cs) 0 O); [cbn; lia|destruct k; try destruct K; lia]).
  unfold locate_at in E0. cbn [kids length Nat.ltb Nat.leb] in E0. unfold kid in E0. cbn [kids nth] in E0.
  assert (has_call a = false) as Ha. { destruct (has_call a) eqn:Ha; [|reflexivity]. pose proof (has_locate a Fa Ha) as X. destruct (locate a) as [[? ?]|]; [discriminate E0|contradiction]. }
  pose proof (locate_has _ _ _ Fl Hl) as Hb. assert (declares a = []) as Da. { cbn [inits_ok] in O. rewrite !andb_true_iff in O. destruct O as [[_ O] _]. unfold init_ok in O. apply andb_true_iff in O as [O _]. rewrite Ha, Hb in O. destruct k; try destruct K; destruct (declares a); auto; discriminate O. }
  rewrite D_eq in Hd. destruct k; try destruct K; cbn [ordered Dl] in Hd; rewrite Da in Hd; apply Hd.
Qed.
Lemma context_chan cs c r : inits_ok (Nd KChan cs) = true -> locate_at 1 (Nd KChan cs) = Some (c, r) -> context (Nd KChan cs) c r.
Proof.
  intros O H. destruct (locate_at_some _ _ _ _ H) as (r0 & L & Hl & ->). cbn [kids kind_of] in *. unfold kid in Hl. cbn [kids] in Hl. fold none in Hl.
  assert (flat (nth 1 cs none) = true) as Fl by (apply (flat_front KChan cs 1 O L); lia). pose proof (locate_context _ Fl _ _ Hl) as C. apply context_at; auto.
  intros _ env Hd. apply C. rewrite D_eq in Hd. cbn [ordered] in Hd. rewrite Forall_forall in Hd. apply Hd, nth_In, L.
Qed.
Lemma locate_comm_some cls : forall c r, locate_comm cls = Some (c, r) -> exists i h r0, i < length cls /\ nth i cls none = Nd KClause h /\ locate_at 0 (Nd KClause h) = Some (c, r0) /\ forall y, r y = put i (r0 y) cls.
Proof.
  induction cls as [|a cls IH]; intros c r H; [discriminate H|]. cbn [locate_comm] in H.
  assert (match locate_comm cls with Some (x, r0) => Some (x, fun y => a :: r0 y) | None => None end = Some (c, r) -> exists i h r0, i < length (a :: cls) /\ nth i (a :: cls) none = Nd KClause h /\ locate_at 0 (Nd KClause h) = Some (c, r0) /\ forall y, r y = put i (r0 y) (a :: cls)) as G.
  { intros E. destruct (locate_comm cls) as [[x r1]|]; [|discriminate E]. injection E as <- <-. destruct (IH _ _ eq_refl) as (i & h & r0 & A1 & A2 & A3 & A4). exists (S i), h, r0. split; [cbn; lia|]. split; [exact A2|]. split; [exact A3|]. intros y. cbn [put]. rewrite A4. reflexivity. }
  destruct a as [k h]. cbn [kind_of] in H. destruct k; try (exact (G H)). destruct (locate_at 0 (Nd KClause h)) as [[x r1]|] eqn:E; [|exact (G H)]. injection H as <- <-. exists 0, h, r1. split; [cbn; lia|]. auto.
Qed.
Lemma focus_context t c r : inits_ok t = true -> focus t = Some (c, r) -> context t c r.
Proof.
  intros O H. destruct t as [k cs]. unfold focus in H. cbn [kind_of kids] in H.
  assert (plain k -> locate (Nd k cs) = Some (c, r) -> context (Nd k cs) c r) as G.
  { intros K. apply locate_context. cbn [inits_ok] in O. rewrite !andb_true_iff in O. destruct O as [[O _] _]. destruct k; try destruct K; exact O. }
  destruct k; try discriminate H; try (apply (G Logic.I H)); try (apply context_second; auto; fail); try (apply context_first; auto; fail); [apply context_chan; auto|].
  destruct (locate_comm cs) as [[x r1]|] eqn:E; [|discriminate H]. injection H as <- <-. destruct (locate_comm_some _ _ _ E) as (i & h & r0 & L & Hn & Hl & Hr).
  pose proof (inits_kid i (Nd KSelect cs) O) as Oi. unfold kid in Oi. cbn [kids] in Oi. fold none in Oi. rewrite Hn in Oi. pose proof (context_first KClause h x r0 Logic.I Oi Hl) as (A1 & A2 & A3 & A4).
  assert (forall env, D env (Nd KSelect cs) -> Forall (D env) cs) as Ds by (intros env Hd; rewrite D_eq in Hd; exact Hd).
  split; [auto|]. split; [intros env Hd; apply A2; rewrite <- Hn; specialize (Ds env Hd); rewrite Forall_forall in Ds; apply Ds, nth_In, L|]. split; [exact A3|]. intros c' Kc Fc. destruct (A4 c' Kc Fc) as (B1 & B2 & B3 & B4 & B5 & B6). rewrite Hr.
  split; [reflexivity|]. split; [|split; [|split; [reflexivity|split; [discriminate|reflexivity]]]].
  - intros env env' I H1 H2. apply D_eq. cbn [ordered]. specialize (Ds _ H1). rewrite Forall_forall in Ds. apply Forall_put; [apply (B2 _ _ I); [rewrite <- Hn; apply Ds, nth_In, L|exact H2]|]. apply Forall_forall. intros u Iu. exact (D_mono _ _ _ I (Ds u Iu)).
  - intros _ Oc. apply (inits_cong KSelect cs); [|exact O]. apply (put_rel alike i _ cs none alike_refl L). rewrite Hn. repeat split; auto.
Qed.

Lemma D_some t : exists env, D env t.
Proof.
  induction t as [k cs IH] using nd_ind'. assert (exists env, Forall (D env) cs) as (env & H).
  { induction IH as [|c l (e & Hc) F (e' & Hl)]; [exists []; constructor|]. exists (e ++ e'). constructor; [exact (D_mono _ _ _ (incl_appl _ (incl_refl _)) Hc)|]. revert Hl. apply Forall_impl. intros u. apply D_mono. apply incl_appr, incl_refl. }
  assert (forall e, incl env e -> forall l, Forall (D env) l -> Dl e l) as G. { intros e I l Fl. revert e I. induction Fl as [|c l Hc Fl IHl]; intros e I; [exact Logic.I|]. split; [exact (D_mono _ _ _ I Hc)|]. apply IHl. apply incl_appr, I. }
  exists (match k with KId x => x :: env | _ => env end). apply D_eq. destruct k; cbn [ordered]; try exact H; try (apply G; [apply incl_refl|exact H]).
  - split; [apply mem_In; left; reflexivity|]. revert H. apply Forall_impl. intros u. apply D_mono, incl_tl, incl_refl.
  - apply G; [apply incl_appr, incl_refl|exact H].
  - destruct H as [|c cs Hc H]; [exact I|]. split; [exact Hc|]. apply G; [apply incl_appr, incl_refl|exact H].
Qed.
Lemma build_okx pk q c pre c' : (exists k cs, c = Nd (KCall true k) cs) -> okx c -> build pk q c = (pre, c') -> Forall okx pre /\ okx c' /\ kind_of c' = kind_of c.
Proof. intros K O H. destruct (D_some c) as (env & Hd). destruct (build_scope pk q c pre c' env K O Hd H) as (A1 & A2 & A3 & _). auto. Qed.

(** ** The walk *)
Section Names.
Variable pkgs : list bytes.
Variable rb : state -> list nd -> option (state * list nd).
Hypothesis Hrb : forall s l s' l', rb s l = Some (s', l') -> forallb inits_ok l = true -> forallb inits_ok l' = true /\ forall env, Dl env l -> Dl env l'.
Lemma each_keeps (f : state -> nd -> option (state * nd)) l : (forall t, In t l -> forall s s' t', inits_ok t = true -> f s t = Some (s', t') -> keeps t t') ->
  forall s s' l', forallb inits_ok l = true -> each f s l = Some (s', l') -> Forall2 keeps l l'.
Proof.
  induction l as [|t l IH]; intros Hf s s' l' O H; cbn [each] in H; [injection H as <- <-; constructor|]. cbn in O. apply andb_true_iff in O as [Ot Ol].
  destruct (f s t) as [[s1 t1]|] eqn:E1; [|discriminate H]. fold (each f) in H. destruct (each f s1 l) as [[s2 l2]|] eqn:E2; [|discriminate H]. injection H as <- <-.
  constructor; [exact (Hf t (or_introl eq_refl) _ _ _ Ot E1)|]. exact (IH (fun u I => Hf u (or_intror I)) _ _ _ Ol E2).
Qed.
Lemma inits_kids k cs : inits_ok (Nd k cs) = true -> forallb inits_ok cs = true.
Proof. cbn [inits_ok]. rewrite !andb_true_iff. tauto. Qed.
Lemma lits_keeps t : forall s s' t', inits_ok t = true -> lits rb s t = Some (s', t') -> keeps t t'.
Proof.
  induction t as [k cs IH] using nd_ind'. intros s s' t' O H. pose proof (inits_kids _ _ O) as Oc. rewrite Forall_forall in IH.
  assert (match each (lits rb) s cs with Some (s', cs') => Some (s', Nd k cs') | None => None end = Some (s', t') -> keeps (Nd k cs) t') as G.
  { intros E. destruct (each (lits rb) s cs) as [[s1 cs1]|] eqn:E1; [|discriminate E]. injection E as <- <-. apply keeps_cong. exact (each_keeps _ cs (fun u I s s' t' O => IH u I s s' t' O) _ _ _ Oc E1). }
  destruct k as [| | | | | | | | |ps| | | | | | | | | | | | | | | | | |]; try (exact (G H)). clear G. cbn [lits] in H. destruct (rb s cs) as [[s1 cs1]|] eqn:E; [|discriminate H]. injection H as <- <-. destruct (Hrb _ _ _ _ E Oc) as [A B].
  split; [reflexivity|]. split; [intros env; rewrite !D_eq; apply B|]. split; [intros _; cbn [inits_ok fronts forallb init_ok andb]; exact A|]. repeat split; auto.
Qed.
Lemma into_keeps s t s' t' : inits_ok t = true -> into rb s t = Some (s', t') -> keeps t t'.
Proof.
  intros O H. assert (Some (s, t) = Some (s', t') -> keeps t t') as G by (intros E; injection E as _ <-; apply keeps_refl). destruct t as [k cs]. pose proof (inits_kids _ _ O) as Oc. destruct k; try (exact (G H)).
  - cbn [into] in H. destruct (rb s cs) as [[s1 cs1]|] eqn:E; [|discriminate H]. injection H as <- <-. destruct (Hrb _ _ _ _ E Oc) as [A B].
    split; [reflexivity|]. split; [intros env; rewrite !D_eq; apply B|]. split; [intros _; cbn [inits_ok fronts forallb init_ok andb]; exact A|]. repeat split; auto.
  - destruct cs as [|h l]; [exact (G H)|]. cbn [into] in H. cbn [forallb] in Oc. apply andb_true_iff in Oc as [Oh Ol]. destruct (rb s l) as [[s1 l1]|] eqn:E; [|discriminate H]. injection H as <- <-. destruct (Hrb _ _ _ _ E Ol) as [A B].
    split; [reflexivity|]. split; [intros env; rewrite !D_eq; cbn [ordered Dl]; intros [X Y]; split; [exact X|apply B, Y]|]. split; [|repeat split; auto; discriminate].
    intros _. cbn [inits_ok fronts firstn forallb init_ok] in O |- *. rewrite A, Oh. rewrite !andb_true_iff in O. destruct O as [[[O _] _] _]. rewrite O. reflexivity.
Qed.
Lemma into_at_keeps i s t s' t' : inits_ok t = true -> into_at rb i s t = Some (s', t') -> keeps t t'.
Proof.
  intros O H. unfold into_at in H. destruct (i <? length (kids t)) eqn:L; [|injection H as _ <-; apply keeps_refl]. apply Nat.ltb_lt in L. destruct (into rb s (kid i t)) as [[s1 c]|] eqn:E; [|discriminate H]. injection H as <- <-. apply put_keeps; [exact L|]. exact (into_keeps _ _ _ _ (inits_kid i t O) E).
Qed.
Lemma into_else_keeps s t s' t' : inits_ok t = true -> into_else rb s t = Some (s', t') -> keeps t t'.
Proof.
  intros O H. unfold into_else in H. destruct (kind_of (kid 3 t)) eqn:K; try (injection H as _ <-; apply keeps_refl); [exact (into_at_keeps _ _ _ _ _ O H)|].
  destruct (into_at rb 2 s (kid 3 t)) as [[s1 e]|] eqn:E; [|discriminate H]. assert (t' = Nd (kind_of t) (put 3 e (kids t))) as -> by congruence. apply put_keeps; [|exact (into_at_keeps _ _ _ _ _ (inits_kid 3 t O) E)].
  destruct (Nat.lt_ge_cases 3 (length (kids t))) as [L|L]; [exact L|]. exfalso. unfold kid in K. rewrite nth_overflow in K by exact L. discriminate K.
Qed.
(** Enough for what comes behind. *)
Definition holds (x y : nd) : Prop := declares y = declares x /\ (forall env, D env x -> D env y) /\ inits_ok y = true /\ kind_of y = kind_of x.
Lemma holds_refl x : inits_ok x = true -> holds x x. Proof. repeat split; auto. Qed.
Lemma keeps_holds x y z : holds x y -> keeps y z -> holds x z.
Proof. intros (A1 & A2 & A3 & A4) (B1 & B2 & B3 & B4 & B5 & B6). split; [congruence|]. split; [auto|]. split; [auto|congruence]. Qed.
Lemma locate_call t c r : locate t = Some (c, r) -> exists k cs, c = Nd (KCall true k) cs.
Proof.
  revert c r. induction t as [k cs IH] using nd_ind'. intros c r H. rewrite locate_eq in H.
  assert (match locate_kids cs with Some (x, r0) => Some (x, fun y => Nd k (r0 y)) | None => None end = Some (c, r) -> exists k cs, c = Nd (KCall true k) cs) as X.
  { intros E. destruct (locate_kids cs) as [[x r']|] eqn:El; [|discriminate E]. injection E as <- <-. destruct (locate_kids_some _ _ _ El) as (i & ri & Hi & Hl & Hr). rewrite Forall_forall in IH. exact (IH _ (nth_In cs none Hi) _ _ Hl). }
  destruct k as [| | | | | | | |m j| | | | | | | | | | | | | | | | | | |]; try (exact (X H)); [|discriminate H]. destruct m; [|exact (X H)]. injection H as <- _. eauto.
Qed.
Lemma focus_call t c r : focus t = Some (c, r) -> exists k cs, c = Nd (KCall true k) cs.
Proof.
  intros H. unfold focus in H. assert (forall i u x r, locate_at i u = Some (x, r) -> exists k cs, x = Nd (KCall true k) cs) as A. { intros i u x r1 E. destruct (locate_at_some _ _ _ _ E) as (r0 & _ & Hl & _). exact (locate_call _ _ _ Hl). }
  assert (forall i j u x r, locate_or i j u = Some (x, r) -> exists k cs, x = Nd (KCall true k) cs) as A2. { intros i j u x r1 E. unfold locate_or in E. destruct (locate_at i u) as [[? ?]|] eqn:E1; [injection E as <- <-; eauto|eauto]. }
  destruct (kind_of t); try discriminate H; eauto using locate_call. destruct (locate_comm (kids t)) as [[x r1]|] eqn:E; [|discriminate H]. injection H as <- <-. destruct (locate_comm_some _ _ _ E) as (i & h & r0 & _ & _ & Hl & _). eauto.
Qed.
Lemma inits_closure l : forallb inits_ok l = true -> inits_ok (closure l) = true.
Proof. intros H. unfold closure. cbn [inits_ok fronts flat forallb init_ok andb]. rewrite H. reflexivity. Qed.
Lemma D_closure env l : Dl env l -> D env (closure l).
Proof. intros H. apply D_plain; [exact I|]. constructor; [|constructor]. apply D_eq. exact H. Qed.
Lemma okx_inits l : Forall okx l -> forallb inits_ok l = true.
Proof. intros H. apply forallb_forall. rewrite Forall_forall in H. intros u Iu. apply (H u Iu). Qed.
Lemma post_holds s t s' t' : kind_of t = KFor -> inits_ok t = true -> post pkgs s t = (s', t') -> holds t t'.
Proof.
  intros K O H. unfold post in H. destruct (2 <? length (kids t)) eqn:L; [|apply pair_equal_spec in H as [_ <-]; apply holds_refl, O]. apply Nat.ltb_lt in L. destruct t as [k cs]. cbn [kind_of kids] in *. subst k. unfold kid in H. cbn [kids] in H. fold none in H.
  destruct (locate (nth 2 cs none)) as [[c r]|] eqn:El; [|apply pair_equal_spec in H as [_ <-]; apply holds_refl, O]. destruct (build pkgs (st_next s) c) as [pre c'] eqn:Eb. apply pair_equal_spec in H as [_ <-].
  pose proof (flat_front KFor cs 2 O L ltac:(cbn; lia)) as Fl. destruct (locate_context _ Fl _ _ El) as (A1 & A2 & A3 & A4). pose proof (inits_kid 2 (Nd KFor cs) O) as O2. unfold kid in O2. cbn [kids] in O2. fold none in O2.
  assert (okx c) as Oc by (split; auto).
  destruct (build_okx pkgs _ c pre c' (locate_call _ _ _ El) Oc Eb) as (P1 & P2 & P3). destruct (A4 c' P3 (proj2 P2)) as (B1 & B2 & B3 & B4 & B5 & B6).
  assert (forall env, D env c -> Dl env pre /\ D (after env pre) c') as Bs by (intros env Hd; exact (proj2 (proj2 (proj2 (build_scope pkgs _ c pre c' env (locate_call _ _ _ El) Oc Hd Eb))))).
  destruct cs as [|a [|b [|p cs]]]; [cbn in L; lia|cbn in L; lia|cbn in L; lia|]. cbn [nth put] in *.
  assert (declares p = []) as Dp. { cbn [inits_ok] in O. rewrite !andb_true_iff in O. destruct O as [[_ O] _]. unfold init_ok in O. apply andb_true_iff in O as [_ O]. destruct (declares p); [reflexivity|discriminate O]. }
  split; [reflexivity|]. split; [|split; [|reflexivity]].
  - intros env. rewrite !D_eq. cbn [ordered Dl]. rewrite Dp. cbn [declares]. intros (H1 & H2 & H3 & H4). split; [exact H1|]. split; [exact H2|]. split; [|exact H4].
    apply D_plain; [exact I|]. constructor; [|constructor]. apply D_closure. destruct (Bs _ (A2 _ H3)) as [X Y]. apply Dl_app. split; [exact X|]. split; [|exact I]. exact (B2 _ _ (after_incl _ _) H3 Y).
  - assert (inits_ok (Nd KExpr [closure (pre ++ [r c'])]) = true) as Oe.
    { assert (forallb inits_ok (pre ++ [r c']) = true) as X by (rewrite forallb_app, (okx_inits _ P1); cbn; rewrite (B3 O2 (proj1 P2)); reflexivity). apply inits_closure in X. cbn [inits_ok fronts forallb init_ok flat closure andb] in *. rewrite ?andb_true_r in *; exact X. }
    assert (flat (Nd KExpr [closure (pre ++ [r c'])]) = true) as Fe by reflexivity. assert (declares (Nd KExpr [closure (pre ++ [r c'])]) = []) as De by reflexivity. revert Oe Fe De. generalize (Nd KExpr [closure (pre ++ [r c'])]). intros e Oe Fe De.
    assert (init_ok KFor (a :: b :: e :: cs) = init_ok KFor (a :: b :: p :: cs)) as Ei by (unfold init_ok; rewrite Dp, De; reflexivity).
    cbn [inits_ok] in *. rewrite Ei. cbn [fronts firstn forallb] in *. rewrite Oe, Fe. rewrite O2, Fl in O. exact O.
Qed.
Lemma nested_holds s t s' t' : inits_ok t = true -> nested pkgs rb s t = Some (s', t') -> holds t t'.
Proof.
  intros O H. assert (keeps t t' -> holds t t') as G by (intros X; exact (keeps_holds _ _ _ (holds_refl _ O) X)). unfold nested in H.
  assert (match kids t with a :: b :: cls => match each (into rb) s cls with Some (s', cls') => Some (s', Nd (kind_of t) (a :: b :: cls')) | None => None end | _ => Some (s, t) end = Some (s', t') -> holds t t') as Gs.
  { intros E. apply G. destruct t as [k cs]. cbn [kids kind_of] in E. pose proof (inits_kids _ _ O) as Oc. destruct cs as [|a [|b cls]]; try (injection E as _ <-; apply keeps_refl). destruct (each (into rb) s cls) as [[s1 cls1]|] eqn:E1; [|discriminate E]. injection E as _ <-. cbn [forallb] in Oc. rewrite !andb_true_iff in Oc. destruct Oc as (_ & _ & Oc).
    apply keeps_cong. constructor; [apply keeps_refl|]. constructor; [apply keeps_refl|]. exact (each_keeps _ cls (fun u _ s s' t' O => into_keeps s u s' t' O) _ _ _ Oc E1). }
  destruct (kind_of t) eqn:K; try (injection H as _ <-; apply G, keeps_refl); try (apply Gs; exact H).
  - apply G. exact (into_keeps _ _ _ _ O H).
  - apply G. destruct (into_at rb 2 s t) as [[s1 t1]|] eqn:E1; [|discriminate H]. pose proof (into_at_keeps _ _ _ _ _ O E1) as K1. apply (keeps_trans _ _ _ K1). refine (into_else_keeps _ _ _ _ _ H). apply K1, O.
  - destruct (post pkgs s t) as [s1 t1] eqn:E1. pose proof (post_holds _ _ _ _ K O E1) as P. apply (keeps_holds _ _ _ P). refine (into_at_keeps _ _ _ _ _ _ H). apply P.
  - apply G. exact (into_at_keeps _ _ _ _ _ O H).
  - apply G. destruct (each (into rb) s (kids t)) as [[s1 cs1]|] eqn:E1; [|discriminate H]. injection H as _ <-. destruct t as [k cs]. cbn [kids kind_of] in *. subst k. apply keeps_cong. exact (each_keeps _ cs (fun u _ s s' t' O => into_keeps s u s' t' O) _ _ _ (inits_kids _ _ O) E1).
Qed.
Lemma step_names s acc t s' acc' : inits_ok t = true -> step pkgs rb s acc t = Some (s', acc') ->
  exists out, acc' = acc ++ out /\ forallb inits_ok out = true /\ forall env, D env t -> Dl env out /\ incl (declares t ++ env) (after env out).
Proof.
  intros O H. unfold step in H. destruct (after_message acc).
  { injection H as _ <-. exists [t]. split; [reflexivity|]. split; [cbn; rewrite O; reflexivity|]. intros env Hd. split; [split; [exact Hd|exact I]|apply incl_refl]. }
  destruct (wraps t) as [c|] eqn:W.
  - assert (exists k j cs, (k = KDefer \/ k = KGo) /\ c = Nd (KCall true j) cs /\ t = Nd k [c]) as (k & j & cs & K & Ec & Et).
    { destruct t as [k l]. unfold wraps in W. destruct k; try discriminate W; (destruct l as [|[kc csc] [|? ?]]; try discriminate W; destruct kc as [| | | | | | | |m j| | | | | | | | | | | | | | | | | | |]; try discriminate W; destruct m; try discriminate W; injection W as <-; do 3 eexists; split; [|split; reflexivity]; auto). }
    destruct (build pkgs (st_next s) c) as [pre c'] eqn:Eb. destruct (each (lits rb) (draw s c) pre) as [[s1 pre']|] eqn:E1; [|discriminate H]. injection H as _ <-.
    assert (okx c) as Oc. { rewrite Et in O. assert (plain k) as Kp by (destruct K as [-> | ->]; exact I). cbn [inits_ok] in O. rewrite !andb_true_iff in O. destruct O as [[F _] X]. cbn in X. rewrite andb_true_r in X. split; [exact X|]. destruct K as [-> | ->]; cbn in F; rewrite andb_true_r in F; exact F. }
    destruct (build_okx pkgs _ c pre c' ltac:(eauto) Oc Eb) as (P1 & P2 & P3). pose proof (each_keeps _ pre (fun u _ => lits_keeps u) _ _ _ (okx_inits _ P1) E1) as F.
    eexists. split; [reflexivity|].
    assert (okx (Nd KExpr [c'])) as Ox by (apply okx_node; [exact I|constructor; [exact P2|constructor]]). split.
    + cbn [forallb]. rewrite andb_true_r. assert (inits_ok (closure (pre' ++ [Nd KExpr [c']])) = true) as X.
      { apply inits_closure. rewrite forallb_app. cbn [forallb]. rewrite (proj1 Ox). rewrite (all_alike inits_ok pre pre' (fun x y A => proj1 (proj2 A)) (Forall2_weaken _ _ _ _ keeps_alike F) (okx_inits _ P1)). reflexivity. }
      rewrite Et. cbn [kind_of]. destruct K as [-> | ->]; cbn [inits_ok fronts forallb init_ok flat closure andb] in *; rewrite ?andb_true_r in *; exact X.
    + intros env Hd. rewrite Et in *. cbn [kind_of]. assert (D env c) as Dc by (rewrite D_eq in Hd; destruct K as [-> | ->]; inversion Hd; assumption). destruct (build_scope pkgs _ c pre c' env ltac:(eauto) Oc Dc Eb) as (_ & _ & _ & X & Y).
      assert (Dl env (pre ++ [Nd KExpr [c']])) as Z by (apply Dl_app; split; [exact X|]; split; [apply D_plain; [exact I|constructor; [exact Y|constructor]]|exact I]).
      assert (Dl env (pre' ++ [Nd KExpr [c']])) as Z' by (revert Z; apply Dl_keeps; apply Forall2_app; [exact F|apply keeps_refls]).
      split; [split; [|exact I]|destruct K as [-> | ->]; apply incl_refl]. destruct K as [-> | ->]; (apply D_plain; [exact I|constructor; [apply D_closure, Z'|constructor]]).
  - destruct (focus t) as [[c r]|] eqn:Ef.
    + destruct (build pkgs (st_next s) c) as [pre c'] eqn:Eb. destruct (nested pkgs rb (draw s c) (r c')) as [[s2 t2]|] eqn:E1; [|discriminate H]. destruct (lits rb s2 t2) as [[s3 t3]|] eqn:E2; [|discriminate H]. injection H as _ <-.
      pose proof (focus_call _ _ _ Ef) as Kc. destruct (focus_context _ _ _ O Ef) as (A1 & A2 & A3 & A4). assert (okx c) as Oc by (split; auto). destruct (build_okx pkgs _ c pre c' Kc Oc Eb) as (P1 & P2 & P3). destruct (A4 c' P3 (proj2 P2)) as (B1 & B2 & B3 & B4 & B5 & B6).
      pose proof (nested_holds _ _ _ _ (B3 O (proj1 P2)) E1) as N1. assert (inits_ok t2 = true) as O2 by apply N1. pose proof (keeps_holds _ _ _ N1 (lits_keeps _ _ _ _ O2 E2)) as (C1 & C2 & C3 & C4).
      exists (pre ++ [t3]). split; [reflexivity|]. split; [rewrite forallb_app, (okx_inits _ P1); cbn; rewrite C3; reflexivity|]. intros env Hd. destruct (build_scope pkgs _ c pre c' env Kc Oc (A2 _ Hd) Eb) as (_ & _ & _ & X & Y).
      split; [apply Dl_app; split; [exact X|]; split; [|exact I]; apply C2; exact (B2 _ _ (after_incl _ _) Hd Y)|]. rewrite after_app. cbn [after fold_left]. rewrite C1, B1. apply incl_app; [apply incl_appl, incl_refl|apply incl_appr, after_incl].
    + destruct (nested pkgs rb s t) as [[s2 t2]|] eqn:E1; [|discriminate H]. destruct (lits rb s2 t2) as [[s3 t3]|] eqn:E2; [|discriminate H]. injection H as _ <-.
      pose proof (nested_holds _ _ _ _ O E1) as N1. assert (inits_ok t2 = true) as O2 by apply N1. pose proof (keeps_holds _ _ _ N1 (lits_keeps _ _ _ _ O2 E2)) as (C1 & C2 & C3 & C4).
      exists [t3]. split; [reflexivity|]. split; [cbn; rewrite C3; reflexivity|]. intros env Hd. split; [split; [apply C2, Hd|exact I]|]. cbn [after fold_left]. rewrite C1. apply incl_refl.
Qed.
Lemma steps_names l : forall s acc s' acc', forallb inits_ok l = true -> steps pkgs rb s acc l = Some (s', acc') ->
  exists out, acc' = acc ++ out /\ forallb inits_ok out = true /\ forall env env', incl env env' -> Dl env l -> Dl env' out.
Proof.
  induction l as [|t l IH]; intros s acc s' acc' O H; cbn [steps] in H.
  - injection H as _ <-. exists []. split; [rewrite app_nil_r; reflexivity|]. split; [reflexivity|]. intros; exact I.
  - cbn in O. apply andb_true_iff in O as [Ot Ol]. destruct (step pkgs rb s acc t) as [[s1 acc1]|] eqn:E; [|discriminate H]. destruct (step_names _ _ _ _ _ Ot E) as (o1 & -> & A2 & A3). destruct (IH _ _ _ _ Ol H) as (o2 & -> & B2 & B3).
    exists (o1 ++ o2). split; [rewrite app_assoc; reflexivity|]. split; [rewrite forallb_app, A2, B2; reflexivity|]. intros env env' I [H1 H2]. destruct (A3 env' (D_mono _ _ _ I H1)) as [C1 C2]. apply Dl_app. split; [exact C1|]. refine (B3 _ _ _ H2). refine (incl_tran _ C2). apply incl_app; [apply incl_appl, incl_refl|apply incl_appr, I].
Qed.
End Names.
Lemma rwb_names pkgs fuel : forall s l s' l', rwb pkgs fuel s l = Some (s', l') -> forallb inits_ok l = true -> forallb inits_ok l' = true /\ forall env, Dl env l -> Dl env l'.
Proof.
  induction fuel as [|f IH]; intros s l s' l' H O; [discriminate H|]. cbn [rwb] in H. destruct (steps_names pkgs (rwb pkgs f) IH l _ _ _ _ O H) as (out & -> & A & B). split; [exact A|]. intros env. apply (B env env). apply incl_refl.
Qed.
