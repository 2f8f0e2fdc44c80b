(** Lemmas for RewriteProps.v. *)
From Verif Require Import Base InstrModel RewriteModel.
From Coq Require Import Permutation.
Local Open Scope nat_scope.

Fixpoint nd_ind' (P : nd -> Prop) (H : forall k cs, Forall P cs -> P (Nd k cs)) (t : nd) : P t :=
  match t with
  | Nd k cs => H k cs ((fix go l := match l return Forall P l with [] => Forall_nil P | c :: l' => Forall_cons c (nd_ind' P H c) (go l') end) cs)
  end.

(** ** Lists *)
Lemma put_length {A} i (x : A) l : length (put i x l) = length l.
Proof. revert i. induction l as [|y l IH]; intros [|i]; cbn; auto. Qed.
Lemma put_nth {A} i (x : A) l d j : i < length l -> nth j (put i x l) d = if Nat.eqb j i then x else nth j l d.
Proof.
  revert i j. induction l as [|y l IH]; intros i j H; [cbn in H; lia|]. destruct i, j; cbn; try reflexivity. apply IH. cbn in H. lia.
Qed.
Lemma put_split {A} i (x : A) l d : i < length l -> l = firstn i l ++ nth i l d :: skipn (S i) l /\ put i x l = firstn i l ++ x :: skipn (S i) l.
Proof.
  revert i. induction l as [|y l IH]; intros i H; [cbn in H; lia|]. destruct i as [|i]; [split; reflexivity|]. cbn in H. destruct (IH i ltac:(lia)) as [E1 E2].
  cbn [firstn nth put app]. split; f_equal; [exact E1|exact E2].
Qed.
Lemma put_rel {A} (R : A -> A -> Prop) i x l d : (forall y, R y y) -> i < length l -> R (nth i l d) x -> Forall2 R l (put i x l).
Proof.
  intros Rf. revert i. induction l as [|y l IH]; intros i H Hx; [cbn in H; lia|]. destruct i as [|i]; cbn in *.
  - constructor; [exact Hx|]. clear - Rf. induction l; constructor; auto.
  - constructor; [apply Rf|]. apply IH; [lia|exact Hx].
Qed.
Lemma put_same {A} i (l : list A) d : put i (nth i l d) l = l.
Proof. revert i. induction l as [|y l IH]; intros [|i]; cbn; try reflexivity. f_equal. apply IH. Qed.

(** ** locate *)
Definition locate_kids : list nd -> option (nd * (nd -> list nd)) :=
  fix go (l : list nd) := match l with
    | [] => None
    | c :: l' => match go l' with
                 | Some (x, r) => Some (x, fun y => c :: r y)
                 | None => match locate c with Some (x, r) => Some (x, fun y => r y :: l') | None => None end
                 end
    end.
Definition none : nd := Nd KNone [].
Lemma locate_eq k cs : locate (Nd k cs) =
  match k with KFun _ => None | KCall true _ => Some (Nd k cs, fun y => y)
  | _ => match locate_kids cs with Some (x, r) => Some (x, fun y => Nd k (r y)) | None => None end end.
Proof. destruct k; reflexivity. Qed.
Lemma locate_kids_some l c r : locate_kids l = Some (c, r) ->
  exists i ri, i < length l /\ locate (nth i l none) = Some (c, ri) /\ (forall y, r y = put i (ri y) l).
Proof.
  revert c r. induction l as [|x l IH]; intros c r H; [discriminate H|]. cbn in H. destruct (locate_kids l) as [[c1 r1]|] eqn:E.
  - injection H as <- <-. destruct (IH _ _ eq_refl) as (i & ri & Hi & Hl & Hr). exists (S i), ri. cbn. split; [lia|]. split; [exact Hl|]. intros y. rewrite Hr. reflexivity.
  - destruct (locate x) as [[c1 r1]|] eqn:Ex; [|discriminate H]. injection H as <- <-. exists 0, r1. cbn. split; [lia|]. split; [exact Ex|reflexivity].
Qed.
Lemma locate_kids_iff l : locate_kids l <> None <-> exists t, In t l /\ locate t <> None.
Proof.
  induction l as [|x l IH]; [split; [intros H; exfalso; apply H; reflexivity|intros (t & [] & _)]|]. cbn. destruct (locate_kids l) as [[c r]|] eqn:E.
  - split; [|intros _; discriminate]. intros _. destruct (proj1 IH ltac:(discriminate)) as (t & I & H). exists t. split; [right; exact I|exact H].
  - destruct (locate x) as [[c r]|] eqn:Ex; split; try (intros _; discriminate).
    + intros _. exists x. split; [left; reflexivity|]. rewrite Ex. discriminate.
    + intros H. exfalso. apply H. reflexivity.
    + intros (t & [->|I] & H); [congruence|]. exfalso. apply (proj2 IH); [exists t; split; assumption|reflexivity].
Qed.
Lemma locate_some_iff k cs : locate (Nd k cs) <> None <->
  (match k with KFun _ => False | KCall true _ => True | _ => locate_kids cs <> None end).
Proof.
  rewrite locate_eq. assert (forall f : nd -> list nd -> nd, match locate_kids cs with Some (x, r) => Some (x, fun y => f x (r y)) | None => None end <> None <-> locate_kids cs <> None) as G.
  { intros f. destruct (locate_kids cs) as [[x r]|]; split; intros H; try discriminate; exfalso; apply H; reflexivity. }
  destruct k; try apply (G (fun _ => Nd _)).
  - destruct m; [split; [trivial|discriminate]|apply (G (fun _ => Nd _))].
  - split; [intros H; apply H; reflexivity|intros []].
Qed.

(** ** Depth *)
Definition deepl (l : list nd) : nat := list_max (map deep l).
Lemma deep_eq k cs : deep (Nd k cs) =
  match k with
  | KFun _ | KBlock | KClause => S (deepl cs)
  | KDefer | KGo => match wraps (Nd k cs) with Some _ => S (deepl cs) | None => deepl cs end
  | KFor => match locate (kid 2 (Nd k cs)) with Some _ => S (deepl cs) | None => deepl cs end
  | _ => deepl cs
  end.
Proof.
  assert ((fix go (l : list nd) := match l with [] => 0 | c :: l' => Nat.max (deep c) (go l') end) cs = deepl cs) as E.
  { induction cs as [|c cs IH]; [reflexivity|]. unfold deepl in *. cbn [map list_max fold_right]. rewrite IH. reflexivity. }
  destruct k; cbn [deep]; rewrite E; reflexivity.
Qed.
Lemma deepl_cons t l : deepl (t :: l) = Nat.max (deep t) (deepl l).
Proof. reflexivity. Qed.
Lemma deepl_app a b : deepl (a ++ b) = Nat.max (deepl a) (deepl b).
Proof. unfold deepl. rewrite map_app. apply list_max_app. Qed.
Lemma deepl_in t l : In t l -> deep t <= deepl l.
Proof. induction l as [|x l IH]; intros []; rewrite deepl_cons; [subst; lia|]. specialize (IH H). lia. Qed.
Lemma deepl_nth i l : deep (nth i l none) <= deepl l.
Proof. destruct (Nat.lt_ge_cases i (length l)) as [H|H]; [apply deepl_in, nth_In, H|]. rewrite nth_overflow by exact H. cbn. lia. Qed.
Lemma kid_deep i t : deep (kid i t) <= deepl (kids t).
Proof. apply deepl_nth. Qed.

(** [y] is no deeper than [x] and of the same kind. *)
Definition R0 (x y : nd) : Prop := deep y <= deep x /\ kind_of y = kind_of x.
(** ... and has no new call to find. *)
Definition R1 (x y : nd) : Prop := R0 x y /\ (locate y <> None -> locate x <> None).
Lemma R0_refl x : R0 x x. Proof. split; auto. Qed.
Lemma R1_refl x : R1 x x. Proof. split; [apply R0_refl|auto]. Qed.
Lemma deepl_rel l l' : Forall2 R0 l l' -> deepl l' <= deepl l.
Proof. induction 1 as [|x y l l' [H _] _ IH]; [lia|]. rewrite !deepl_cons. lia. Qed.
Lemma Forall2_nth_rel {A} (R : A -> A -> Prop) l l' i d : R d d -> Forall2 R l l' -> R (nth i l d) (nth i l' d).
Proof. intros Rd H. revert i. induction H; intros [|i]; cbn; auto. Qed.
Lemma Forall2_weaken {A} (R S : A -> A -> Prop) l l' : (forall x y, R x y -> S x y) -> Forall2 R l l' -> Forall2 S l l'.
Proof. intros H. induction 1; constructor; auto. Qed.
Lemma wraps_kind k l l' : Forall2 R0 l l' -> wraps (Nd k l') <> None -> wraps (Nd k l) <> None.
Proof.
  intros F H. assert ((k = KDefer \/ k = KGo) /\ exists j cs, l' = [Nd (KCall true j) cs]) as [K (j & cs & E)].
  { destruct k; try (exfalso; apply H; reflexivity); (split; [tauto|]);
      destruct l' as [|[c cs] [|? ?]]; try (exfalso; apply H; reflexivity); destruct c as [| | | | | | | |[] j| | | | | | | | | | | | | | | | | | |]; try (exfalso; apply H; reflexivity); eauto. }
  subst l'. inversion F as [|x y lx ly [_ Hk] Fl]; subst. inversion Fl; subst. destruct x as [kx csx]. cbn in Hk. subst kx. destruct K as [-> | ->]; discriminate.
Qed.
Lemma R0_cong k l l' : Forall2 R0 l l' -> (k = KFor -> locate (nth 2 l' none) <> None -> locate (nth 2 l none) <> None) -> R0 (Nd k l) (Nd k l').
Proof.
  intros F HF. split; [|reflexivity]. pose proof (deepl_rel _ _ F) as D. rewrite !deep_eq. destruct k; try lia.
  - pose proof (wraps_kind KDefer _ _ F) as W. destruct (wraps (Nd KDefer l')), (wraps (Nd KDefer l)); try lia. exfalso. apply W; [discriminate|reflexivity].
  - pose proof (wraps_kind KGo _ _ F) as W. destruct (wraps (Nd KGo l')), (wraps (Nd KGo l)); try lia. exfalso. apply W; [discriminate|reflexivity].
  - specialize (HF eq_refl). unfold kid. cbn [kids]. fold none. destruct (locate (nth 2 l' none)), (locate (nth 2 l none)); try lia. exfalso. apply HF; [discriminate|reflexivity].
Qed.
Lemma R1_cong k l l' : Forall2 R1 l l' -> R1 (Nd k l) (Nd k l').
Proof.
  intros F. split.
  - apply R0_cong; [exact (Forall2_weaken _ _ _ _ (fun x y H => proj1 H) F)|]. intros _. exact (proj2 (Forall2_nth_rel R1 l l' 2 none (R1_refl _) F)).
  - rewrite !locate_some_iff.
    assert (locate_kids l' <> None -> locate_kids l <> None) as H.
    { rewrite !locate_kids_iff. intros (t & I & Ht). induction F as [|x y l l' [_ Hxy] F IH]; [destruct I|]. destruct I as [->|I]; [exists x; split; [left; reflexivity|auto]|].
      destruct (IH I) as (u & Iu & Hu). exists u. split; [right; exact Iu|exact Hu]. }
    destruct k; auto. destruct m; auto.
Qed.

(** What locate finds is a matching call, not deeper, and putting a call of the same kind there keeps the shape. *)
Lemma locate_spec t : forall c r, locate t = Some (c, r) ->
  (exists k cs, c = Nd (KCall true k) cs) /\ r c = t /\ deep c <= deep t /\
  forall c', kind_of c' = kind_of c -> deep c' <= deep c -> R1 t (r c').
Proof.
  induction t as [k cs IH] using nd_ind'. intros c r H. rewrite locate_eq in H.
  assert (forall x r', locate_kids cs = Some (x, r') -> (forall y, r y = Nd k (r' y)) -> c = x -> 
    (exists k cs, c = Nd (KCall true k) cs) /\ r c = Nd k cs /\ deep c <= deep (Nd k cs) /\ forall c', kind_of c' = kind_of c -> deep c' <= deep c -> R1 (Nd k cs) (r c')) as G.
  { intros x r' E Er ->. destruct (locate_kids_some _ _ _ E) as (i & ri & Hi & Hl & Hr). rewrite Forall_forall in IH.
    destruct (IH (nth i cs none) (nth_In _ _ Hi) _ _ Hl) as (A1 & A2 & A3 & A4). split; [exact A1|]. split; [rewrite Er, Hr, A2, put_same; reflexivity|]. split.
    - pose proof (deepl_nth i cs). rewrite deep_eq. destruct k; try lia; match goal with |- context [match ?x with _ => _ end] => destruct x; lia end.
    - intros c' K D. rewrite Er, Hr. apply R1_cong. apply (put_rel R1 i _ cs none R1_refl Hi). apply A4; assumption. }
  assert (match locate_kids cs with Some (x, r0) => Some (x, fun y => Nd k (r0 y)) | None => None end = Some (c, r) -> 
    (exists k cs, c = Nd (KCall true k) cs) /\ r c = Nd k cs /\ deep c <= deep (Nd k cs) /\ forall c', kind_of c' = kind_of c -> deep c' <= deep c -> R1 (Nd k cs) (r c')) as G'.
  { intros E. destruct (locate_kids cs) as [[x r']|] eqn:El; [|discriminate E]. injection E as <- <-. eapply G; reflexivity. }
  destruct k as [| | | | | | | |m j| | | | | | | | | | | | | | | | | | |]; try (exact (G' H)); [|discriminate H]. destruct m; [|exact (G' H)].
  injection H as <- <-. split; [eauto|]. split; [reflexivity|]. split; [lia|]. intros c' K D. split; [split; [exact D|exact K]|]. intros _. discriminate.
Qed.

(** ** Building *)
Lemma stays_or a : stays a = true \/ stays a = false. Proof. destruct (stays a); auto. Qed.
Lemma build_args_deep p l : forall i s l' v, build_args p i l = (s, l', v) -> deepl s <= deepl l /\ deepl l' <= deepl l /\ deepl (map snd v) <= deepl l.
Proof.
  induction l as [|a l IH]; intros i s l' v H; cbn [build_args] in H.
  - injection H as <- <- <-. cbn. lia.
  - destruct (build_args p (S i) l) as [[s1 l1] v1] eqn:E. destruct (IH _ _ _ _ E) as (A & A' & A''). destruct (stays a); injection H as <- <- <-; cbn [map snd]; rewrite !deepl_cons.
    + lia.
    + assert (deep (define (arg_var p i) a) = deep a) as -> by (unfold define; rewrite deep_eq, deepl_cons; cbn; lia).
      assert (deep (name (arg_var p i)) = 0) as -> by reflexivity. lia.
Qed.
Lemma message_deep p v : deep (message p v) = deepl (map snd v).
Proof. unfold message. rewrite deep_eq, deepl_cons, deep_eq. cbn. lia. Qed.
Lemma build_recv_deep pk p f s f' v : build_recv pk p f = (s, f', v) -> deepl s <= deep f /\ deep f' <= deep f /\ deepl (map snd v) <= deep f.
Proof.
  assert (forall x, deep (name x) = 0) as N by reflexivity.
  unfold build_recv. intros H. destruct f as [k cs]. destruct k as [| |m| | | | | | | | | | | | | | | | | | | | | | | | |]; try (injection H as <- <- <-; exact (conj (Nat.le_0_l _) (conj (Nat.le_refl _) (Nat.le_0_l _)))).
  destruct cs as [|x [|? ?]]; try (injection H as <- <- <-; exact (conj (Nat.le_0_l _) (conj (Nat.le_refl _) (Nat.le_0_l _)))).
  2: { destruct x as [kx csx]; destruct kx; try destruct csx; injection H as <- <- <-; exact (conj (Nat.le_0_l _) (conj (Nat.le_refl _) (Nat.le_0_l _))). }
  assert ((s, f', v) = ([define (recv_var p) x], Nd (KSel m) [name (recv_var p)], [(B "recv", name (recv_var p))]) ->
    deepl s <= deep (Nd (KSel m) [x]) /\ deep f' <= deep (Nd (KSel m) [x]) /\ deepl (map snd v) <= deep (Nd (KSel m) [x])) as G.
  { intros E. injection E as -> -> ->. cbn [map snd]. unfold define. rewrite !deep_eq, !deepl_cons, !deep_eq, !deepl_cons, !N. cbn [deepl map list_max fold_right]. unfold deepl. cbn [map list_max fold_right]. lia. }
  destruct x as [kx csx]. destruct kx as [|y| | | | | | | | | | | | | | | | | | | | | | | | | |]; try (apply G; symmetry; exact H).
  destruct csx; [|apply G; symmetry; exact H]. injection H as <- <- <-. split; [cbn; lia|]. split; [lia|].
  match goal with |- context [if ?b then _ else _] => destruct b end; apply Nat.le_0_l.
Qed.
Lemma build_deep pk p c pre c' : build pk p c = (pre, c') -> (exists k cs, c = Nd (KCall true k) cs) -> deepl pre <= deep c /\ deep c' <= deep c /\ kind_of c' = kind_of c.
Proof.
  intros H (k & cs & ->). destruct cs as [|f args]; cbn [build] in H.
  - injection H as <- <-. split; [apply Nat.le_refl|]. split; [apply Nat.le_refl|reflexivity].
  - destruct (build_recv pk p f) as [[s f'] v] eqn:E1. destruct (build_args p 0 args) as [[s' args'] v'] eqn:E2. injection H as <- <-.
    destruct (build_recv_deep _ _ _ _ _ _ E1) as (A1 & A2 & A3), (build_args_deep _ _ _ _ _ _ E2) as (B1 & B2 & B3).
    rewrite !deep_eq, !deepl_app, !deepl_cons, message_deep, map_app, deepl_app. split; [|split; [lia|reflexivity]]. cbn [deepl map list_max fold_right]. unfold deepl in *. cbn [map list_max fold_right]. lia.
Qed.

(** ** Contexts *)
Lemma kid_le i t : i < length (kids t) -> deep (kid i t) <= deep t.
Proof. intros H. destruct t as [k cs]. pose proof (deepl_nth i cs). unfold kid. cbn [kids]. rewrite deep_eq. fold none. destruct k; try lia; match goal with |- context [match ?x with _ => _ end] => destruct x; lia end. Qed.
Lemma put_R0 i t x : R0 (kid i t) x -> (kind_of t = KFor -> i <> 2) -> R0 t (Nd (kind_of t) (put i x (kids t))).
Proof.
  intros H K. destruct t as [k cs]. cbn [kind_of kids] in *. unfold kid in H. cbn [kids] in H. destruct (Nat.lt_ge_cases i (length cs)) as [L|L].
  - apply R0_cong; [apply (put_rel R0 i x cs none R0_refl L H)|]. intros E. rewrite put_nth by exact L. destruct (Nat.eqb_spec 2 i) as [<-|_]; [exfalso; apply (K E eq_refl)|auto].
  - assert (put i x cs = cs) as ->; [|apply R0_refl]. clear - L. revert i L. induction cs as [|c cs IH]; intros [|i] L; cbn in *; try reflexivity; [lia|]. f_equal. apply IH. lia.
Qed.
Lemma kid_kind i t : kind_of (kid i t) <> KNone -> i < length (kids t).
Proof. intros H. destruct (Nat.lt_ge_cases i (length (kids t))) as [L|L]; [exact L|]. exfalso. apply H. unfold kid. rewrite nth_overflow by exact L. reflexivity. Qed.
Lemma post_deep pk s t s' t' : kind_of t = KFor -> post pk s t = (s', t') -> deep t' <= deep t /\ kind_of t' = KFor.
Proof.
  intros K H. unfold post in H. destruct (Nat.ltb_spec 2 (length (kids t))) as [L|L]; [|injection H as <- <-; auto].
  destruct (locate (kid 2 t)) as [[c r]|] eqn:E; [|injection H as <- <-; auto]. destruct (build pk (st_next s) c) as [pre c'] eqn:Eb. apply pair_equal_spec in H as [<- <-].
  destruct (locate_spec _ _ _ E) as (M & _ & D1 & D2). destruct (build_deep _ _ _ _ _ Eb M) as (P1 & P2 & P3). destruct (D2 c' P3 P2) as [[D3 _] _].
  destruct t as [k cs]. cbn [kind_of kids] in *. subst k. split; [|reflexivity]. rewrite !deep_eq. rewrite E. unfold kid in E, D1, D3. cbn [kids] in *. fold none in *.
  match goal with |- context [put 2 ?z cs] => set (x := z) end.
  assert (kid 2 (Nd KFor (put 2 x cs)) = x) as -> by (unfold kid; cbn [kids]; rewrite (put_nth 2 x cs _ 2 L); reflexivity).
  assert (locate x = None) as -> by reflexivity.
  destruct (put_split 2 x cs none L) as [E1 ->]. rewrite E1 at 3. rewrite !deepl_app, !deepl_cons.
  assert (deep x <= S (deep (nth 2 cs none))). { unfold x, closure. rewrite deep_eq, deepl_cons, deep_eq, deepl_cons, deep_eq, deepl_app, deepl_cons. unfold deepl in *. cbn [map list_max fold_right] in *. lia. }
  lia.
Qed.
Lemma locate_at_spec i t c r : locate_at i t = Some (c, r) -> exists ri, i < length (kids t) /\ locate (kid i t) = Some (c, ri) /\ forall y, r y = Nd (kind_of t) (put i (ri y) (kids t)).
Proof.
  unfold locate_at. destruct (Nat.ltb_spec i (length (kids t))) as [L|L]; [|discriminate]. destruct (locate (kid i t)) as [[x ri]|]; [|discriminate]. intros [= <- <-]. exists ri. auto.
Qed.
Lemma locate_comm_spec cls c r : locate_comm cls = Some (c, r) -> exists i ri, i < length cls /\ locate_at 0 (nth i cls none) = Some (c, ri) /\ (forall y, r y = put i (ri y) cls) /\ kind_of (nth i cls none) = KClause.
Proof.
  revert c r. induction cls as [|x cls IH]; intros c r H; [discriminate H|]. cbn [locate_comm] in H. destruct (match kind_of x with KClause => locate_at 0 x | _ => None end) as [[c1 r1]|] eqn:E.
  - injection H as <- <-. exists 0, r1. cbn. split; [lia|]. destruct (kind_of x) eqn:Kx; try discriminate E. split; [exact E|]. split; reflexivity.
  - destruct (locate_comm cls) as [[c1 r1]|] eqn:E2; [|discriminate H]. injection H as <- <-. destruct (IH _ _ eq_refl) as (i & ri & L & Hi & Hr & Hk). exists (S i), ri. cbn. split; [lia|]. split; [exact Hi|]. split; [|exact Hk]. intros y. rewrite Hr. reflexivity.
Qed.
Definition focus_ok (t c : nd) (r : nd -> nd) : Prop := (exists k cs, c = Nd (KCall true k) cs) /\ deep c <= deep t /\ forall c', kind_of c' = kind_of c -> deep c' <= deep c -> R0 t (r c').
Lemma locate_at_ok i t c r : locate_at i t = Some (c, r) -> (kind_of t = KFor -> i <> 2) -> focus_ok t c r.
Proof.
  intros H K. destruct (locate_at_spec _ _ _ _ H) as (ri & L & Hl & Hr). destruct (locate_spec _ _ _ Hl) as (M & _ & D & HR). split; [exact M|]. split; [pose proof (kid_le i t L); lia|].
  intros c' Kc Dc. rewrite Hr. apply put_R0; [exact (proj1 (HR c' Kc Dc))|exact K].
Qed.
Lemma focus_spec t c r : focus t = Some (c, r) -> focus_ok t c r.
Proof.
  unfold focus. intros H.
  assert (locate t = Some (c, r) -> focus_ok t c r) as G1. { intros E. destruct (locate_spec _ _ _ E) as (M & _ & D & HR). split; [exact M|]. split; [exact D|]. intros c' Kc Dc. exact (proj1 (HR c' Kc Dc)). }
  assert (locate_or 0 1 t = Some (c, r) -> focus_ok t c r) as G2.
  { unfold locate_or. destruct (locate_at 0 t) as [[c1 r1]|] eqn:E0; [intros [= <- <-]; apply (locate_at_ok 0 t c1 r1 E0); lia|]. intros E. apply (locate_at_ok 1 t c r E). lia. }
  destruct (kind_of t) eqn:K; try discriminate H; auto.
  - apply (locate_at_ok 1 t c r H). congruence.
  - apply (locate_at_ok 0 t c r H). congruence.
  - destruct (locate_comm (kids t)) as [[c1 r1]|] eqn:E; [|discriminate H]. injection H as <- <-. destruct (locate_comm_spec _ _ _ E) as (i & ri & L & Hi & Hr & Hk).
    destruct (locate_at_ok 0 _ _ _ Hi ltac:(lia)) as (M & D & HR). split; [exact M|]. split; [pose proof (kid_le i t L); unfold kid in *; unfold none in *; lia|]. intros c' Kc Dc. rewrite Hr, <- K. apply put_R0; [exact (HR c' Kc Dc)|congruence].
Qed.
Lemma wraps_spec t c : wraps t = Some c -> (exists k cs, c = Nd (KCall true k) cs) /\ kids t = [c] /\ (kind_of t = KDefer \/ kind_of t = KGo) /\ deep t = S (deep c).
Proof.
  intros H. assert (exists k j cs, (k = KDefer \/ k = KGo) /\ t = Nd k [Nd (KCall true j) cs]) as (k & j & cs & K & ->).
  { destruct t as [k l]. unfold wraps in H. destruct k; try discriminate H; destruct l as [|[kc cs] [|? ?]]; try discriminate H; destruct kc as [| | | | | | | |[] j| | | | | | | | | | | | | | | | | | |]; try discriminate H; eauto 6. }
  assert (c = Nd (KCall true j) cs) as -> by (destruct K as [-> | ->]; injection H as <-; reflexivity). split; [eauto|]. split; [reflexivity|]. split; [exact K|]. rewrite deep_eq, H. destruct K as [-> | ->]; rewrite deepl_cons; unfold deepl; cbn [map list_max fold_right]; lia.
Qed.
(** ** Termination *)
Section Total.
Variable pk : list bytes.
Variable rb : state -> list nd -> option (state * list nd).
Variable F : nat.
Hypothesis rb_total : forall s l, deepl l < F -> exists s' l', rb s l = Some (s', l') /\ deepl l' <= deepl l.
Lemma each_total (f : state -> nd -> option (state * nd)) (R : nd -> nd -> Prop) l : (forall t, In t l -> forall s, exists s' t', f s t = Some (s', t') /\ R t t') ->
  forall s, exists s' l', each f s l = Some (s', l') /\ Forall2 R l l'.
Proof.
  induction l as [|t l IH]; intros H s; [exists s, []; split; [reflexivity|constructor]|].
  destruct (H t (or_introl eq_refl) s) as (s1 & t' & E1 & HR). destruct (IH (fun u Hu => H u (or_intror Hu)) s1) as (s2 & l' & E2 & HF).
  exists s2, (t' :: l'). cbn [each]. rewrite E1. fold (each f). rewrite E2. split; [reflexivity|constructor; assumption].
Qed.
Lemma lits_total t : deep t <= F -> forall s, exists s' t', lits rb s t = Some (s', t') /\ R1 t t'.
Proof.
  induction t as [k cs IH] using nd_ind'. intros D s.
  assert (match k with KFun _ => False | _ => True end -> exists s' t', match each (lits rb) s cs with Some (s', cs') => Some (s', Nd k cs') | None => None end = Some (s', t') /\ R1 (Nd k cs) t') as G.
  { intros K. destruct (each_total (lits rb) R1 cs) with (s := s) as (s' & l' & E & HF).
    - intros t I. rewrite Forall_forall in IH. apply IH; [exact I|]. apply deepl_in in I. rewrite deep_eq in D. destruct k; try lia; match type of D with context [match ?x with _ => _ end] => destruct x; lia end.
    - rewrite E. exists s', (Nd k l'). split; [reflexivity|]. apply R1_cong, HF. }
  destruct k; try (exact (G I)). cbn [lits]. rewrite deep_eq in D. destruct (rb_total s cs ltac:(lia)) as (s' & l' & E & Dl). rewrite E. exists s', (Nd (KFun ps) l'). split; [reflexivity|].
  split; [split; [rewrite !deep_eq; lia|reflexivity]|]. intros H. exfalso. apply H. reflexivity.
Qed.
Lemma into_total t : deep t <= F -> forall s, exists s' t', into rb s t = Some (s', t') /\ R0 t t'.
Proof.
  intros D s. assert (exists s' t', Some (s, t) = Some (s', t') /\ R0 t t') as G by (exists s, t; split; [reflexivity|apply R0_refl]).
  destruct t as [k cs]. rewrite deep_eq in D. destruct k; try exact G; cbn [into].
  - destruct (rb_total s cs ltac:(lia)) as (s' & l' & E & Dl). rewrite E. exists s', (Nd KBlock l'). split; [reflexivity|]. split; [rewrite !deep_eq; lia|reflexivity].
  - destruct cs as [|h l]; [exact G|]. rewrite deepl_cons in D. destruct (rb_total s l ltac:(lia)) as (s' & l' & E & Dl). rewrite E. exists s', (Nd KClause (h :: l')). split; [reflexivity|].
    split; [rewrite !deep_eq, !deepl_cons; lia|reflexivity].
Qed.
Lemma into_at_total i t : deep t <= F -> (kind_of t = KFor -> i <> 2) -> forall s, exists s' t', into_at rb i s t = Some (s', t') /\ R0 t t'.
Proof.
  intros D K s. unfold into_at. destruct (Nat.ltb_spec i (length (kids t))) as [L|L]; [|exists s, t; split; [reflexivity|apply R0_refl]].
  destruct (into_total (kid i t) ltac:(pose proof (kid_le i t L); lia) s) as (s' & c & E & HR). rewrite E. exists s', (Nd (kind_of t) (put i c (kids t))). split; [reflexivity|]. apply put_R0; assumption.
Qed.
Lemma into_else_total t : kind_of t = KIf -> deep t <= F -> forall s, exists s' t', into_else rb s t = Some (s', t') /\ R0 t t'.
Proof.
  intros K D s. unfold into_else. destruct (kind_of (kid 3 t)) eqn:E3; try (exists s, t; split; [reflexivity|apply R0_refl]).
  - apply into_at_total; [exact D|congruence].
  - assert (3 < length (kids t)) as L by (apply kid_kind; congruence). destruct (into_at_total 2 (kid 3 t)) with (s := s) as (s' & e & E & HR); [pose proof (kid_le 3 t L); lia|congruence|].
    rewrite E. eexists _, _. split; [reflexivity|]. apply put_R0; [exact HR|congruence].
Qed.
Lemma nested_total t : deep t <= F -> forall s, exists s' t', nested pk rb s t = Some (s', t') /\ R0 t t'.
Proof.
  intros D s. unfold nested. destruct (kind_of t) eqn:K; try (exists s, t; split; [reflexivity|apply R0_refl]).
  - apply into_total, D.
  - destruct (into_at_total 2 t D ltac:(congruence) s) as (s1 & t1 & E1 & H1). rewrite E1. destruct H1 as [H1 H1']. destruct (into_else_total t1 ltac:(congruence) ltac:(lia) s1) as (s2 & t2 & E2 & H2). destruct H2 as [H2 H2'].
    exists s2, t2. split; [exact E2|]. split; [lia|congruence].
  - destruct (post pk s t) as [s1 t1] eqn:E1. destruct (post_deep _ _ _ _ _ K E1) as [D1 K1]. destruct (into_at_total 3 t1 ltac:(lia) ltac:(lia) s1) as (s2 & t2 & E2 & H2). destruct H2 as [H2 H2'].
    exists s2, t2. split; [exact E2|]. split; [lia|congruence].
  - apply into_at_total; [exact D|congruence].
  - destruct t as [k cs]. cbn [kids kind_of] in *. subst k. destruct cs as [|a [|b cs]]; [eexists _, _; split; [reflexivity|apply R0_refl]|eexists _, _; split; [reflexivity|apply R0_refl]|]. rewrite deep_eq, !deepl_cons in D.
    destruct (each_total (into rb) R0 cs) with (s := s) as (s1 & l1 & E1 & H1). { intros u I. apply into_total. apply deepl_in in I. lia. }
    rewrite E1. eexists _, _. split; [reflexivity|]. apply R0_cong; [constructor; [apply R0_refl|constructor; [apply R0_refl|exact H1]]|congruence].
  - destruct t as [k cs]. cbn [kids kind_of] in *. subst k. destruct cs as [|a [|b cs]]; [eexists _, _; split; [reflexivity|apply R0_refl]|eexists _, _; split; [reflexivity|apply R0_refl]|]. rewrite deep_eq, !deepl_cons in D.
    destruct (each_total (into rb) R0 cs) with (s := s) as (s1 & l1 & E1 & H1). { intros u I. apply into_total. apply deepl_in in I. lia. }
    rewrite E1. eexists _, _. split; [reflexivity|]. apply R0_cong; [constructor; [apply R0_refl|constructor; [apply R0_refl|exact H1]]|congruence].
  - destruct (each_total (into rb) R0 (kids t)) with (s := s) as (s1 & l1 & E1 & H1). { intros u I. apply into_total. destruct t as [k cs]. cbn [kids kind_of] in *. subst k. apply deepl_in in I. rewrite deep_eq in D. lia. }
    rewrite E1. eexists _, _. split; [reflexivity|]. destruct t as [k cs]. cbn [kids kind_of] in *. subst k. apply R0_cong; [exact H1|congruence].
Qed.
Lemma step_total t : deep t <= F -> forall s acc, exists s' acc', step pk rb s acc t = Some (s', acc') /\ deepl acc' <= Nat.max (deepl acc) (deep t).
Proof.
  intros D s acc. unfold step. assert (forall x, deepl [x] = deep x) as D1 by (intros x; unfold deepl; cbn [map list_max fold_right]; lia).
  destruct (after_message acc); [exists s, (acc ++ [t]); split; [reflexivity|rewrite deepl_app, D1; lia]|].
  destruct (wraps t) as [c|] eqn:W.
  - destruct (wraps_spec _ _ W) as (M & _ & K & Dt). destruct (build pk (st_next s) c) as [pre c'] eqn:Eb. destruct (build_deep _ _ _ _ _ Eb M) as (P1 & P2 & P3).
    destruct (each_total (lits rb) R1 pre) with (s := draw s c) as (s1 & pre' & E & HF). { intros u I. apply lits_total. apply deepl_in in I. lia. }
    rewrite E. eexists _, _. split; [reflexivity|]. rewrite deepl_app, D1.
    assert (deep (Nd (kind_of t) [closure (pre' ++ [Nd KExpr [c']])]) <= deep t); [|lia].
    assert (deep (closure (pre' ++ [Nd KExpr [c']])) <= S (deep c)) as Dc.
    { unfold closure. rewrite deep_eq, D1, deep_eq, deepl_app, D1, deep_eq, D1. pose proof (deepl_rel _ _ (Forall2_weaken _ _ _ _ (fun x y H => proj1 H) HF)). lia. }
    rewrite Dt. destruct K as [-> | ->]; rewrite deep_eq; cbn [wraps closure]; rewrite D1; fold (closure (pre' ++ [Nd KExpr [c']])); exact Dc.
  - assert (exists s1 pre t1, match focus t with Some (c, r) => let (pre, c') := build pk (st_next s) c in (draw s c, pre, r c') | None => (s, [], t) end = (s1, pre, t1) /\ deepl pre <= deep t /\ deep t1 <= deep t) as (s1 & pre & t1 & -> & Dp & Dt1).
    { destruct (focus t) as [[c r]|] eqn:Ef; [|exists s, [], t; split; [reflexivity|cbn; lia]]. destruct (focus_spec _ _ _ Ef) as (M & Dc & HR). destruct (build pk (st_next s) c) as [pre c'] eqn:Eb.
      destruct (build_deep _ _ _ _ _ Eb M) as (P1 & P2 & P3). exists (draw s c), pre, (r c'). split; [reflexivity|]. split; [lia|]. exact (proj1 (HR c' P3 P2)). }
    destruct (nested_total t1 ltac:(lia) s1) as (s2 & t2 & E2 & D2 & _). rewrite E2. destruct (lits_total t2 ltac:(lia) s2) as (s3 & t3 & E3 & [D3 _] & _). rewrite E3.
    eexists _, _. split; [reflexivity|]. rewrite !deepl_app, D1. lia.
Qed.
Lemma steps_total l : deepl l <= F -> forall s acc, exists s' l', steps pk rb s acc l = Some (s', l') /\ deepl l' <= Nat.max (deepl acc) (deepl l).
Proof.
  induction l as [|t l IH]; intros D s acc; [exists s, acc; split; [reflexivity|lia]|]. rewrite deepl_cons in D. cbn [steps].
  destruct (step_total t ltac:(lia) s acc) as (s1 & acc1 & E1 & D1). rewrite E1. destruct (IH ltac:(lia) s1 acc1) as (s2 & l2 & E2 & D2). exists s2, l2. split; [exact E2|]. rewrite deepl_cons. lia.
Qed.
End Total.
Lemma rwb_total pk fuel : forall s l, deepl l < fuel -> exists s' l', rwb pk fuel s l = Some (s', l') /\ deepl l' <= deepl l.
Proof.
  induction fuel as [|f IH]; intros s l D; [lia|]. cbn [rwb].
  destruct (steps_total pk (rwb pk f) f (fun s l H => IH s l H) l ltac:(lia) (State (st_next s) (st_points s) (st_visits s + 1)) []) as (s' & l' & E & Dl). exists s', l'. split; [exact E|]. cbn in Dl. exact Dl.
Qed.

(** ** Messages *)
(** The point ids of the messages in a node. *)
Fixpoint msgs (t : nd) : list N := match t with Nd k cs => (match k with KMsg p _ => [p] | _ => [] end) ++ flat_map msgs cs end.
Definition msgsl (l : list nd) : list N := flat_map msgs l.
(** Neither function literal nor message. *)
Fixpoint nofun (t : nd) : bool := match t with Nd k cs => match k with KFun _ | KMsg _ _ => false | _ => forallb nofun cs end end.
(** No selection has a function literal or message in it. *)
Fixpoint sel_ok (t : nd) : bool := match t with Nd k cs => (match k with KSel _ => forallb nofun cs | _ => true end) && forallb sel_ok cs end.
Definition cnt (p : N) (l : list N) : nat := count_occ N.eq_dec l p.
Lemma cnt_app p a b : cnt p (a ++ b) = cnt p a + cnt p b.
Proof. apply count_occ_app. Qed.
Lemma msgsl_app a b : msgsl (a ++ b) = msgsl a ++ msgsl b.
Proof. apply flat_map_app. Qed.
Lemma msgsl_one t : msgsl [t] = msgs t. Proof. apply app_nil_r. Qed.
Lemma nofun_msgs t : nofun t = true -> msgs t = [].
Proof.
  induction t as [k cs IH] using nd_ind'. intros H. cbn [nofun msgs] in *.
  assert (match k with KMsg p _ => [p] | _ => [] end = [] /\ forallb nofun cs = true) as [-> G] by (destruct k; try discriminate H; auto). cbn [app].
  clear H. induction cs as [|c cs IHc]; [reflexivity|]. cbn in *. apply andb_true_iff in G as [G1 G2]. inversion IH; subst. rewrite H1 by exact G1. exact (IHc H2 G2).
Qed.
Lemma nofun_sel t : nofun t = true -> sel_ok t = true.
Proof.
  induction t as [k cs IH] using nd_ind'. intros H. cbn [nofun sel_ok] in *.
  assert (forallb nofun cs = true) as G by (destruct k; try discriminate H; auto). apply andb_true_iff. split; [destruct k; auto|].
  clear H. induction cs as [|c cs IHc]; [reflexivity|]. cbn in *. apply andb_true_iff in G as [G1 G2]. inversion IH; subst. apply andb_true_iff. split; [auto|exact (IHc H2 G2)].
Qed.
Lemma const_nofun t : is_const t = true -> nofun t = true.
Proof.
  induction t as [k cs IH] using nd_ind'. intros H.
  destruct k; try discriminate H.
  - destruct cs; [reflexivity|discriminate H].
  - destruct cs as [|a [|b [|? ?]]]; try discriminate H. cbn [is_const] in H. apply andb_true_iff in H as [Ha Hb]. inversion IH as [|? ? Ia Fb]; subst. inversion Fb as [|? ? Ib _]; subst. cbn. rewrite (Ia Ha), (Ib Hb). reflexivity.
  - destruct cs as [|a [|? ?]]; try discriminate H. inversion IH; subst. cbn. rewrite (H2 H). reflexivity.
  - destruct cs as [|a [|? ?]]; try discriminate H. inversion IH; subst. cbn. rewrite (H2 H). reflexivity.
Qed.
Lemma stays_nofun a : sel_ok a = true -> stays a = true -> nofun a = true.
Proof.
  intros S H. destruct a as [k cs]. destruct k; try (apply const_nofun; exact H); [destruct cs; [reflexivity|discriminate H]|]. cbn [sel_ok] in S. apply andb_true_iff in S as [S _]. exact S.
Qed.

(** Contexts. *)
Definition S1 (x y : nd) : Prop := (nofun x = true -> nofun y = true) /\ (sel_ok x = true -> sel_ok y = true).
Lemma S1_refl x : S1 x x. Proof. split; auto. Qed.
Lemma S1_cong k l l' : Forall2 S1 l l' -> S1 (Nd k l) (Nd k l').
Proof.
  intros F. assert ((forallb nofun l = true -> forallb nofun l' = true) /\ (forallb sel_ok l = true -> forallb sel_ok l' = true)) as [A1 A2].
  { induction F as [|x y l l' [H1 H2] F [I1 I2]]; [split; auto|]. cbn. rewrite !andb_true_iff. split; intros [G1 G2]; split; auto. }
  split; cbn [nofun sel_ok].
  - destruct k; auto.
  - rewrite !andb_true_iff. intros [G1 G2]. split; [destruct k; auto|auto].
Qed.
Lemma cnt_put p i x l d : i < length l -> cnt p (msgsl (put i x l)) + cnt p (msgs (nth i l d)) = cnt p (msgsl l) + cnt p (msgs x).
Proof.
  intros L. destruct (put_split i x l d L) as [E1 ->].
  assert (cnt p (msgsl l) = cnt p (msgsl (firstn i l ++ nth i l d :: skipn (S i) l))) as -> by (rewrite <- E1; reflexivity). unfold msgsl. rewrite !flat_map_app. cbn [flat_map]. rewrite !cnt_app. lia.
Qed.
Lemma cnt_node p k l l' : cnt p (msgs (Nd k l')) + cnt p (msgsl l) = cnt p (msgs (Nd k l)) + cnt p (msgsl l').
Proof. cbn [msgs]. fold (msgsl l) (msgsl l'). rewrite !cnt_app. lia. Qed.
Lemma locate_msgs t : forall c r, locate t = Some (c, r) -> forall c', S1 c c' ->
  S1 t (r c') /\ forall p, cnt p (msgs (r c')) + cnt p (msgs c) = cnt p (msgs t) + cnt p (msgs c').
Proof.
  induction t as [k cs IH] using nd_ind'. intros c r H c' S. rewrite locate_eq in H.
  assert (match locate_kids cs with Some (x, r0) => Some (x, fun y => Nd k (r0 y)) | None => None end = Some (c, r) ->
    S1 (Nd k cs) (r c') /\ forall p, cnt p (msgs (r c')) + cnt p (msgs c) = cnt p (msgs (Nd k cs)) + cnt p (msgs c')) as G.
  { intros E. destruct (locate_kids cs) as [[x r']|] eqn:El; [|discriminate E]. injection E as <- <-. destruct (locate_kids_some _ _ _ El) as (i & ri & Hi & Hl & Hr). rewrite Forall_forall in IH.
    destruct (IH (nth i cs none) (nth_In _ _ Hi) _ _ Hl c' S) as [A1 A2]. rewrite Hr. split; [apply S1_cong; apply (put_rel S1 i _ cs none S1_refl Hi A1)|].
    intros p. specialize (A2 p). pose proof (cnt_put p i (ri c') cs none Hi). pose proof (cnt_node p k cs (put i (ri c') cs)). lia. }
  destruct k as [| | | | | | | |m j| | | | | | | | | | | | | | | | | | |]; try (exact (G H)); [|discriminate H]. destruct m; [|exact (G H)].
  injection H as <- <-. split; [exact S|]. intros p. lia.
Qed.

Lemma build_args_msgs q l : forallb sel_ok l = true -> forall i s l' v, build_args q i l = (s, l', v) ->
  forallb sel_ok s = true /\ forallb sel_ok l' = true /\ forallb sel_ok (map snd v) = true /\ msgsl (map snd v) = [] /\ (forallb nofun l = true -> forallb nofun l' = true) /\
  (forall p, cnt p (msgsl s) + cnt p (msgsl l') = cnt p (msgsl l)).
Proof.
  induction l as [|a l IH]; intros S i s l' v H; cbn [build_args] in H.
  - injection H as <- <- <-. repeat split; auto.
  - cbn in S. apply andb_true_iff in S as [Sa Sl]. destruct (build_args q (Datatypes.S i) l) as [[s1 l1] v1] eqn:E. destruct (IH Sl _ _ _ _ E) as (A1 & A2 & A3 & A4 & A5 & A6).
    destruct (stays a) eqn:St; injection H as <- <- <-; cbn [map snd forallb].
    + pose proof (nofun_msgs a (stays_nofun a Sa St)) as Na. rewrite A1, A2, A3, Sa. unfold msgsl in *. cbn [flat_map]. rewrite Na, A4. repeat split; try reflexivity.
      * rewrite !andb_true_iff. intros [? ?]. auto.
      * intros p. cbn [app]. apply A6.
    + assert (sel_ok (define (arg_var q i) a) = true) as -> by (cbn; rewrite Sa; reflexivity). assert (sel_ok (name (arg_var q i)) = true) as -> by reflexivity. rewrite A1, A2, A3.
      unfold msgsl in *. cbn [flat_map]. rewrite A4. repeat split; try reflexivity.
      * rewrite !andb_true_iff. intros [? ?]. split; [reflexivity|auto].
      * intros p. specialize (A6 p). assert (msgs (name (arg_var q i)) = []) as -> by reflexivity. assert (msgs (define (arg_var q i) a) = msgs a) as -> by (cbn; apply app_nil_r). rewrite !cnt_app. cbn. lia.
Qed.
Lemma build_recv_msgs pk q f s f' v : sel_ok f = true -> build_recv pk q f = (s, f', v) ->
  forallb sel_ok s = true /\ sel_ok f' = true /\ forallb sel_ok (map snd v) = true /\ msgsl (map snd v) = [] /\ (nofun f = true -> nofun f' = true) /\
  (forall p, cnt p (msgsl s) + cnt p (msgs f') = cnt p (msgs f)).
Proof.
  intros S H. unfold build_recv in H.
  assert ((s, f', v) = ([], f, []) -> forallb sel_ok s = true /\ sel_ok f' = true /\ forallb sel_ok (map snd v) = true /\ msgsl (map snd v) = [] /\ (nofun f = true -> nofun f' = true) /\
  (forall p, cnt p (msgsl s) + cnt p (msgs f') = cnt p (msgs f))) as G0 by (intros E; injection E as -> -> ->; repeat split; auto).
  destruct f as [k cs]. destruct k as [| |m| | | | | | | | | | | | | | | | | | | | | | | | |]; try (apply G0; symmetry; exact H).
  destruct cs as [|x [|? ?]]; try (apply G0; symmetry; exact H); [|apply G0; rewrite <- H; destruct x as [kx csx]; destruct kx; try destruct csx; reflexivity].
  cbn [sel_ok] in S. apply andb_true_iff in S as [S1' S2']. cbn in S1', S2'. rewrite andb_true_r in S1', S2'.
  assert ((s, f', v) = ([define (recv_var q) x], Nd (KSel m) [name (recv_var q)], [(B "recv", name (recv_var q))]) ->
    forallb sel_ok s = true /\ sel_ok f' = true /\ forallb sel_ok (map snd v) = true /\ msgsl (map snd v) = [] /\ (nofun (Nd (KSel m) [x]) = true -> nofun f' = true) /\
    (forall p, cnt p (msgsl s) + cnt p (msgs f') = cnt p (msgs (Nd (KSel m) [x])))) as G.
  { intros E. injection E as -> -> ->. cbn [map snd forallb]. assert (sel_ok (define (recv_var q) x) = true) as -> by (cbn; rewrite S2'; reflexivity). repeat split; auto.
    intros p. unfold msgsl. cbn [flat_map define msgs name app]. rewrite !app_nil_r. cbn. lia. }
  destruct x as [kx csx]. destruct kx as [|y| | | | | | | | | | | | | | | | | | | | | | | | | |]; try (apply G; symmetry; exact H).
  destruct csx; [|apply G; symmetry; exact H]. injection H as <- <- <-. split; [reflexivity|]. split; [reflexivity|].
  match goal with |- context [if ?b then _ else _] => destruct b end; repeat split; auto.
Qed.
Lemma build_msgs pk q c pre c' : (exists k cs, c = Nd (KCall true k) cs) -> sel_ok c = true -> build pk q c = (pre, c') ->
  forallb sel_ok pre = true /\ S1 c c' /\ forall p, cnt p (msgsl pre) + cnt p (msgs c') = cnt p (msgs c) + cnt p [q].
Proof.
  intros (k & cs & ->) S H. destruct cs as [|f args]; cbn [build] in H.
  - injection H as <- <-. split; [reflexivity|]. split; [apply S1_refl|]. intros p. cbn. lia.
  - destruct (build_recv pk q f) as [[s f'] v] eqn:E1. destruct (build_args q 0 args) as [[s' args'] v'] eqn:E2. injection H as <- <-.
    cbn in S. apply andb_true_iff in S as [Sf Sa]. destruct (build_recv_msgs _ _ _ _ _ _ Sf E1) as (A1 & A2 & A3 & A4 & A5 & A6), (build_args_msgs _ _ Sa _ _ _ _ E2) as (B1 & B2 & B3 & B4 & B5 & B6).
    split; [rewrite !forallb_app, A1, B1; cbn; rewrite map_app, forallb_app, A3, B3; reflexivity|]. split.
    + split; cbn; rewrite !andb_true_iff; intros [? ?]; auto.
    + intros p. specialize (A6 p). specialize (B6 p). rewrite !msgsl_app, msgsl_one, !cnt_app. unfold message. cbn [msgs flat_map app]. rewrite app_nil_r, map_app. fold (msgsl (map snd v ++ map snd v')). rewrite msgsl_app, A4, B4. cbn [app].
      fold (msgsl args') (msgsl args). rewrite !cnt_app. lia.
Qed.

(** Points drawn. *)
Definition grown (s s' : state) (new : list (N * nat)) : Prop :=
  st_points s' = st_points s ++ new /\ st_next s' = (st_next s + N.of_nat (length new))%N /\ map fst new = map (fun i => (st_next s + N.of_nat i)%N) (seq 0 (length new)).
Lemma grown_refl s : grown s s []. Proof. split; [symmetry; apply app_nil_r|]. split; [cbn; lia|reflexivity]. Qed.
Lemma seq_shift n a (f : nat -> N) : map f (seq a n) = map (fun i => f (a + i)) (seq 0 n).
Proof. revert a f. induction n as [|n IH]; intros a f; [reflexivity|]. cbn [seq map]. f_equal; [f_equal; lia|]. rewrite IH, (IH 1). apply map_ext. intros i. f_equal. lia. Qed.
Lemma grown_trans s s1 s2 a b : grown s s1 a -> grown s1 s2 b -> grown s s2 (a ++ b).
Proof.
  intros (A1 & A2 & A3) (B1 & B2 & B3). split; [rewrite B1, A1, app_assoc; reflexivity|]. rewrite app_length. split; [rewrite B2, A2; lia|].
  rewrite map_app, A3, B3, seq_app, map_app. f_equal. rewrite A2, (seq_shift (length b) (0 + length a)). apply map_ext. intros i. lia.
Qed.
Lemma grown_draw s c : grown s (draw s c) [(st_next s, match kind_of c with KCall _ k => k | _ => 0 end)].
Proof. split; [reflexivity|]. split; [cbn; lia|]. cbn. f_equal. lia. Qed.

Section Once.
Variable pk : list bytes.
Definition Pl (s : state) (l : list nd) (s' : state) (l' : list nd) : Prop := forallb sel_ok l = true ->
  forallb sel_ok l' = true /\ exists new, grown s s' new /\ forall p, cnt p (msgsl l') = cnt p (msgsl l) + cnt p (map fst new).
Definition Pn (s : state) (t : nd) (s' : state) (t' : nd) : Prop := sel_ok t = true ->
  sel_ok t' = true /\ exists new, grown s s' new /\ forall p, cnt p (msgs t') = cnt p (msgs t) + cnt p (map fst new).
Variable rb : state -> list nd -> option (state * list nd).
Hypothesis rb_ok : forall s l s' l', rb s l = Some (s', l') -> Pl s l s' l'.
Lemma each_once (f : state -> nd -> option (state * nd)) l : (forall t, In t l -> forall s s' t', f s t = Some (s', t') -> Pn s t s' t') ->
  forall s s' l', each f s l = Some (s', l') -> Pl s l s' l'.
Proof.
  induction l as [|t l IH]; intros H s s' l' E Sl.
  - injection E as <- <-. split; [reflexivity|]. exists []. split; [apply grown_refl|]. intros p. cbn. lia.
  - cbn [each] in E. fold (each f) in E. destruct (f s t) as [[s1 t1]|] eqn:E1; [|discriminate E]. destruct (each f s1 l) as [[s2 l2]|] eqn:E2; [|discriminate E]. injection E as <- <-.
    cbn in Sl. apply andb_true_iff in Sl as [St Sl]. destruct (H t (or_introl eq_refl) _ _ _ E1 St) as (A1 & n1 & A2 & A3). destruct (IH (fun u I => H u (or_intror I)) _ _ _ E2 Sl) as (B1 & n2 & B2 & B3).
    split; [cbn; rewrite A1, B1; reflexivity|]. exists (n1 ++ n2). split; [exact (grown_trans _ _ _ _ _ A2 B2)|]. intros p. specialize (A3 p). specialize (B3 p). unfold msgsl in *. cbn [flat_map]. rewrite map_app, !cnt_app. lia.
Qed.
Lemma lits_nofun t : nofun t = true -> forall s s' t', lits rb s t = Some (s', t') -> nofun t' = true.
Proof.
  induction t as [k cs IH] using nd_ind'. intros N s s' t' H.
  assert (match each (lits rb) s cs with Some (s', cs') => Some (s', Nd k cs') | None => None end = Some (s', t')) as H' by (destruct k; try discriminate N; exact H).
  destruct (each (lits rb) s cs) as [[s1 cs1]|] eqn:E; [|discriminate H']. injection H' as <- <-.
  assert (forallb nofun cs = true) as Nc by (destruct k; try discriminate N; exact N). assert (forallb nofun cs1 = true) as N1; [|destruct k; try discriminate N; exact N1].
  clear N H. revert s s1 cs1 E. induction cs as [|c cs IHc]; intros s s1 cs1 E; [injection E as <- <-; reflexivity|]. cbn [each] in E. fold (each (lits rb)) in E. cbn in Nc. apply andb_true_iff in Nc as [Na Nb].
  destruct (lits rb s c) as [[sa ca]|] eqn:Ea; [|discriminate E]. destruct (each (lits rb) sa cs) as [[sb cb]|] eqn:Eb; [|discriminate E]. injection E as <- <-. inversion IH; subst. cbn. rewrite (H1 Na _ _ _ Ea). exact (IHc H2 Nb _ _ _ Eb).
Qed.
Lemma lits_once t : forall s s' t', lits rb s t = Some (s', t') -> Pn s t s' t'.
Proof.
  induction t as [k cs IH] using nd_ind'. intros s s' t' H S.
  assert (forallb sel_ok cs = true) as Sc by (cbn [sel_ok] in S; apply andb_true_iff in S as [_ S]; exact S).
  assert (match each (lits rb) s cs with Some (s', cs') => Some (s', Nd k cs') | None => None end = Some (s', t') ->
     sel_ok t' = true /\ exists new, grown s s' new /\ forall p, cnt p (msgs t') = cnt p (msgs (Nd k cs)) + cnt p (map fst new)) as G.
  { intros E. destruct (each (lits rb) s cs) as [[s1 cs1]|] eqn:E1; [|discriminate E]. injection E as <- <-. rewrite Forall_forall in IH. destruct (each_once _ cs IH _ _ _ E1 Sc) as (A1 & n & A2 & A3).
    split.
    - cbn [sel_ok]. rewrite A1. cbn [sel_ok] in S. apply andb_true_iff in S as [S _]. destruct k; try reflexivity. rewrite andb_true_r. clear - E1 S. revert s s1 cs1 E1. induction cs as [|c cs IHc]; intros s s1 cs1 E; [injection E as <- <-; reflexivity|].
      cbn [each] in E. fold (each (lits rb)) in E. cbn in S. apply andb_true_iff in S as [Na Nb]. destruct (lits rb s c) as [[sa ca]|] eqn:Ea; [|discriminate E]. destruct (each (lits rb) sa cs) as [[sb cb]|] eqn:Eb; [|discriminate E]. injection E as <- <-.
      cbn. rewrite (lits_nofun c Na _ _ _ Ea). exact (IHc Nb _ _ _ Eb).
    - exists n. split; [exact A2|]. intros p. specialize (A3 p). pose proof (cnt_node p k cs cs1). lia. }
  destruct k; try (exact (G H)). cbn [lits] in H. destruct (rb s cs) as [[s1 cs1]|] eqn:E; [|discriminate H]. injection H as <- <-. destruct (rb_ok _ _ _ _ E Sc) as (A1 & n & A2 & A3).
  split; [cbn; exact A1|]. exists n. split; [exact A2|]. intros p. specialize (A3 p). exact A3.
Qed.
Lemma into_once s t s' t' : into rb s t = Some (s', t') -> Pn s t s' t'.
Proof.
  intros H S. assert (Some (s, t) = Some (s', t') -> sel_ok t' = true /\ exists new, grown s s' new /\ forall p, cnt p (msgs t') = cnt p (msgs t) + cnt p (map fst new)) as G.
  { intros E. injection E as <- <-. split; [exact S|]. exists []. split; [apply grown_refl|]. intros p. cbn. lia. }
  destruct t as [k cs]. destruct k; try exact (G H); cbn [into] in H.
  - destruct (rb s cs) as [[s1 cs1]|] eqn:E; [|discriminate H]. injection H as <- <-. cbn in S. destruct (rb_ok _ _ _ _ E S) as (A1 & n & A2 & A3). split; [exact A1|]. exists n. split; [exact A2|exact A3].
  - destruct cs as [|h cs]; [exact (G H)|]. destruct (rb s cs) as [[s1 cs1]|] eqn:E; [|discriminate H]. injection H as <- <-. cbn in S. apply andb_true_iff in S as [Sh S]. destruct (rb_ok _ _ _ _ E S) as (A1 & n & A2 & A3).
    split; [cbn; rewrite Sh; exact A1|]. exists n. split; [exact A2|]. intros p. specialize (A3 p). cbn [msgs flat_map app]. fold (msgsl cs1) (msgsl cs). rewrite !cnt_app. lia.
Qed.
Lemma sel_put i t x : (match kind_of t with KSel _ => False | _ => True end) -> sel_ok t = true -> sel_ok x = true -> sel_ok (Nd (kind_of t) (put i x (kids t))) = true.
Proof.
  destruct t as [k cs]. cbn [kind_of kids]. intros K S Sx. cbn [sel_ok] in *. apply andb_true_iff in S as [_ S]. apply andb_true_iff. split; [destruct k; try reflexivity; destruct K|].
  clear K. revert i. induction cs as [|c cs IH]; intros [|i]; cbn in *; try reflexivity; apply andb_true_iff in S as [Sc S]; apply andb_true_iff; split; auto.
Qed.
Lemma sel_kid i t : sel_ok t = true -> sel_ok (kid i t) = true.
Proof.
  destruct t as [k cs]. cbn [sel_ok]. intros S. apply andb_true_iff in S as [_ S]. unfold kid. cbn [kids]. revert i. induction cs as [|c cs IH]; intros [|i]; cbn in *; try reflexivity; apply andb_true_iff in S as [Sc S]; auto.
Qed.
Lemma put_once i t s s' c : (match kind_of t with KSel _ => False | _ => True end) -> i < length (kids t) -> Pn s (kid i t) s' c -> Pn s t s' (Nd (kind_of t) (put i c (kids t))).
Proof.
  intros K L H S. destruct (H (sel_kid i t S)) as (A1 & n & A2 & A3). split; [apply sel_put; assumption|]. exists n. split; [exact A2|]. intros p. specialize (A3 p). destruct t as [k cs]. cbn [kind_of kids] in *. unfold kid in A3. cbn [kids] in A3.
  pose proof (cnt_put p i c cs (Nd KNone []) L). pose proof (cnt_node p k cs (put i c cs)). lia.
Qed.
Lemma Pn_refl s t : Pn s t s t.
Proof. intros S. split; [exact S|]. exists []. split; [apply grown_refl|]. intros p. cbn. lia. Qed.
Lemma Pn_trans s t s1 t1 s2 t2 : Pn s t s1 t1 -> Pn s1 t1 s2 t2 -> Pn s t s2 t2.
Proof.
  intros H1 H2 S. destruct (H1 S) as (A1 & n1 & A2 & A3). destruct (H2 A1) as (B1 & n2 & B2 & B3). split; [exact B1|]. exists (n1 ++ n2). split; [exact (grown_trans _ _ _ _ _ A2 B2)|]. intros p. rewrite map_app, cnt_app, B3, A3. lia.
Qed.
Lemma into_at_once i s t s' t' : (match kind_of t with KSel _ => False | _ => True end) -> into_at rb i s t = Some (s', t') -> Pn s t s' t'.
Proof.
  intros K H. unfold into_at in H. destruct (Nat.ltb_spec i (length (kids t))) as [L|L]; [|injection H as <- <-; apply Pn_refl]. destruct (into rb s (kid i t)) as [[s1 c]|] eqn:E; [|discriminate H]. injection H as <- <-.
  apply put_once; [exact K|exact L|]. exact (into_once _ _ _ _ E).
Qed.
Lemma into_at_kind i s t s' t' : into_at rb i s t = Some (s', t') -> kind_of t' = kind_of t.
Proof.
  intros H. unfold into_at in H. destruct (i <? length (kids t)); [|injection H as <- <-; reflexivity]. destruct (into rb s (kid i t)) as [[s1 c]|]; [|discriminate H]. injection H as <- <-. reflexivity.
Qed.
Lemma into_else_once s t s' t' : kind_of t = KIf -> into_else rb s t = Some (s', t') -> Pn s t s' t'.
Proof.
  intros K H. unfold into_else in H. destruct (kind_of (kid 3 t)) eqn:K3; try (injection H as <- <-; apply Pn_refl).
  - apply (into_at_once 3); [rewrite K; exact I|exact H].
  - destruct (into_at rb 2 s (kid 3 t)) as [[s1 e]|] eqn:E; [|discriminate H]. injection H as <- <-. apply (put_once 3 t s s1 e); [rewrite K; exact I|apply kid_kind; congruence|]. apply (into_at_once 2 _ _ _ _ ltac:(rewrite K3; exact I) E).
Qed.
Lemma locate_sel t : forall c r, locate t = Some (c, r) -> sel_ok t = true -> sel_ok c = true.
Proof.
  induction t as [k cs IH] using nd_ind'. intros c r H S. rewrite locate_eq in H.
  assert (match locate_kids cs with Some (x, r0) => Some (x, fun y => Nd k (r0 y)) | None => None end = Some (c, r) -> sel_ok c = true) as G.
  { intros E. destruct (locate_kids cs) as [[x r']|] eqn:El; [|discriminate E]. injection E as <- <-. destruct (locate_kids_some _ _ _ El) as (i & ri & Hi & Hl & Hr). rewrite Forall_forall in IH.
    apply (IH (nth i cs none) (nth_In _ _ Hi) _ _ Hl). apply (sel_kid i _ S). }
  destruct k as [| | | | | | | |m j| | | | | | | | | | | | | | | | | | |]; try (exact (G H)); [|discriminate H]. destruct m; [|exact (G H)]. injection H as <- <-. exact S.
Qed.
Definition fits (t c : nd) (r : nd -> nd) : Prop := sel_ok t = true -> sel_ok c = true /\ forall c', S1 c c' -> sel_ok (r c') = true /\ forall p, cnt p (msgs (r c')) + cnt p (msgs c) = cnt p (msgs t) + cnt p (msgs c').
Lemma locate_fits t c r : locate t = Some (c, r) -> fits t c r.
Proof. intros H S. split; [exact (locate_sel _ _ _ H S)|]. intros c' S'. destruct (locate_msgs _ _ _ H c' S') as [[_ A] B]. auto. Qed.
Lemma put_fits i t c r : (match kind_of t with KSel _ => False | _ => True end) -> i < length (kids t) -> fits (kid i t) c r -> fits t c (fun y => Nd (kind_of t) (put i (r y) (kids t))).
Proof.
  intros K L H S. destruct (H (sel_kid i t S)) as [A B]. split; [exact A|]. intros c' S'. destruct (B c' S') as [B1 B2]. split; [apply sel_put; assumption|]. intros p. specialize (B2 p). destruct t as [k cs]. cbn [kind_of kids] in *. unfold kid in B2. cbn [kids] in B2.
  pose proof (cnt_put p i (r c') cs (Nd KNone []) L). pose proof (cnt_node p k cs (put i (r c') cs)). lia.
Qed.
Lemma fits_ext t c r r' : (forall y, r y = r' y) -> fits t c r' -> fits t c r.
Proof. intros E H S. destruct (H S) as [A B]. split; [exact A|]. intros c' S'. rewrite E. exact (B c' S'). Qed.
Lemma locate_at_fits i t c r : (match kind_of t with KSel _ => False | _ => True end) -> locate_at i t = Some (c, r) -> fits t c r.
Proof.
  intros K H. destruct (locate_at_spec _ _ _ _ H) as (ri & L & Hl & Hr). apply (fits_ext _ _ _ _ Hr). apply put_fits; [exact K|exact L|]. apply locate_fits, Hl.
Qed.
Lemma focus_fits t c r : focus t = Some (c, r) -> fits t c r.
Proof.
  unfold focus. intros H.
  assert ((match kind_of t with KSel _ => False | _ => True end) -> locate_or 0 1 t = Some (c, r) -> fits t c r) as G2.
  { intros K. unfold locate_or. destruct (locate_at 0 t) as [[c1 r1]|] eqn:E0; [intros [= <- <-]; exact (locate_at_fits 0 t c1 r1 K E0)|]. intros E. exact (locate_at_fits 1 t c r K E). }
  destruct (kind_of t) eqn:K; try discriminate H; try (apply locate_fits; exact H); try (apply G2; [exact I|exact H]).
  - apply (locate_at_fits 1 t c r); [rewrite K; exact I|exact H].
  - apply (locate_at_fits 0 t c r); [rewrite K; exact I|exact H].
  - destruct (locate_comm (kids t)) as [[c1 r1]|] eqn:E; [|discriminate H]. injection H as <- <-. destruct (locate_comm_spec _ _ _ E) as (i & ri & L & Hi & Hr & Hk).
    apply (fits_ext _ _ _ (fun y => Nd (kind_of t) (put i (ri y) (kids t)))); [intros y; rewrite Hr, K; reflexivity|]. apply put_fits; [rewrite K; exact I|exact L|]. apply (locate_at_fits 0 _ _ _) with (2 := Hi). fold none. rewrite Hk. exact I.
Qed.
Lemma sel_app a b : forallb sel_ok (a ++ b) = true <-> forallb sel_ok a = true /\ forallb sel_ok b = true.
Proof. rewrite forallb_app. apply andb_true_iff. Qed.
Lemma post_once s t s' t' : kind_of t = KFor -> post pk s t = (s', t') -> Pn s t s' t'.
Proof.
  intros K H. unfold post in H. destruct (Nat.ltb_spec 2 (length (kids t))) as [L|L]; [|apply pair_equal_spec in H as [<- <-]; apply Pn_refl].
  destruct (locate (kid 2 t)) as [[c r]|] eqn:E; [|apply pair_equal_spec in H as [<- <-]; apply Pn_refl]. destruct (build pk (st_next s) c) as [pre c'] eqn:Eb. apply pair_equal_spec in H as [<- <-].
  refine (put_once 2 t s _ _ ltac:(rewrite K; exact I) L _). intros S. destruct (locate_spec _ _ _ E) as (M & _ & _). destruct (locate_fits _ _ _ E S) as [Sc Fc].
  destruct (build_msgs _ _ _ _ _ M Sc Eb) as (A1 & A2 & A3). destruct (Fc c' A2) as [B1 B2].
  split; [unfold closure; cbn; rewrite !andb_true_r; apply sel_app; split; [exact A1|cbn; rewrite B1; reflexivity]|]. eexists. split; [apply grown_draw|].
  intros p. specialize (A3 p). specialize (B2 p). assert (msgs (Nd KExpr [closure (pre ++ [r c'])]) = msgsl (pre ++ [r c'])) as -> by (cbn; rewrite !app_nil_r; reflexivity). rewrite msgsl_app, msgsl_one, cnt_app. cbn [map fst]. lia.
Qed.
Lemma nested_once s t s' t' : nested pk rb s t = Some (s', t') -> Pn s t s' t'.
Proof.
  intros H. unfold nested in H.
  assert (forall i, (match kind_of t with KSel _ => False | _ => True end) -> into_at rb i s t = Some (s', t') -> Pn s t s' t') as G by (intros i K E; exact (into_at_once i _ _ _ _ K E)).
  assert ((match kind_of t with KSel _ => False | _ => True end) -> match each (into rb) s (kids t) with Some (s', cs) => Some (s', Nd (kind_of t) cs) | None => None end = Some (s', t') -> Pn s t s' t') as Ge.
  { intros K E. destruct (each (into rb) s (kids t)) as [[s1 cs1]|] eqn:E1; [|discriminate E]. injection E as <- <-. intros S. destruct t as [k cs]. cbn [kind_of kids] in *.
    assert (forallb sel_ok cs = true) as Sc by (cbn [sel_ok] in S; apply andb_true_iff in S as [_ S]; exact S).
    destruct (each_once _ cs (fun u _ => fun s s' t' => into_once s u s' t') _ _ _ E1 Sc) as (A1 & n & A2 & A3). split; [cbn [sel_ok]; rewrite A1; destruct k; try reflexivity; destruct K|].
    exists n. split; [exact A2|]. intros p. specialize (A3 p). pose proof (cnt_node p k cs cs1). lia. }
  assert ((match kind_of t with KSel _ => False | _ => True end) -> match kids t with a :: b :: cls => match each (into rb) s cls with Some (s', cls') => Some (s', Nd (kind_of t) (a :: b :: cls')) | None => None end | _ => Some (s, t) end = Some (s', t') -> Pn s t s' t') as Gs.
  { intros K E. destruct t as [k cs]. cbn [kind_of kids] in *. destruct cs as [|a [|b cs]]; [injection E as <- <-; apply Pn_refl|injection E as <- <-; apply Pn_refl|].
    destruct (each (into rb) s cs) as [[s1 cs1]|] eqn:E1; [|discriminate E]. injection E as <- <-. intros S. cbn [sel_ok] in S. apply andb_true_iff in S as [Sk S]. cbn [forallb] in S. rewrite !andb_true_iff in S. destruct S as (Sa & Sb & Sc).
    destruct (each_once _ cs (fun u _ => fun s s' t' => into_once s u s' t') _ _ _ E1 Sc) as (A1 & n & A2 & A3). split; [cbn [sel_ok forallb]; rewrite A1, Sa, Sb; destruct k; try reflexivity; destruct K|].
    exists n. split; [exact A2|]. intros p. specialize (A3 p). pose proof (cnt_node p k (a :: b :: cs) (a :: b :: cs1)) as X. unfold msgsl in *. cbn [flat_map] in X. rewrite !cnt_app in X. lia. }
  destruct (kind_of t) eqn:K; try (injection H as <- <-; apply Pn_refl); try (apply (G _ I H)); try (apply (Ge I H)); try (apply (Gs I H)).
  - exact (into_once _ _ _ _ H).
  - destruct (into_at rb 2 s t) as [[s1 t1]|] eqn:E1; [|discriminate H]. eapply Pn_trans; [exact (into_at_once 2 _ _ _ _ ltac:(rewrite K; exact I) E1)|]. apply into_else_once; [rewrite (into_at_kind _ _ _ _ _ E1); exact K|exact H].
  - destruct (post pk s t) as [s1 t1] eqn:E1. eapply Pn_trans; [exact (post_once _ _ _ _ K E1)|]. apply (into_at_once 3); [rewrite (proj2 (post_deep _ _ _ _ _ K E1)); exact I|exact H].
Qed.
Lemma Pl_trans s l s1 l1 s2 l2 : Pl s l s1 l1 -> Pl s1 l1 s2 l2 -> Pl s l s2 l2.
Proof.
  intros H1 H2 S. destruct (H1 S) as (A1 & n1 & A2 & A3). destruct (H2 A1) as (B1 & n2 & B2 & B3). split; [exact B1|]. exists (n1 ++ n2). split; [exact (grown_trans _ _ _ _ _ A2 B2)|]. intros p. rewrite map_app, cnt_app, B3, A3. lia.
Qed.
Lemma Pl_app s a s' b c : Pl s b s' c -> Pl s (a ++ b) s' (a ++ c).
Proof. intros H S. apply sel_app in S as [Sa Sb]. destruct (H Sb) as (A1 & n & A2 & A3). split; [apply sel_app; auto|]. exists n. split; [exact A2|]. intros p. rewrite !msgsl_app, !cnt_app, A3. lia. Qed.
Lemma Pn_one s t s' t' : Pn s t s' t' -> Pl s [t] s' [t'].
Proof. intros H S. cbn in S. rewrite andb_true_r in S. destruct (H S) as (A1 & n & A2 & A3). split; [cbn; rewrite A1; reflexivity|]. exists n. split; [exact A2|]. intros p. rewrite !msgsl_one. apply A3. Qed.
Lemma step_once s acc t s' acc' : step pk rb s acc t = Some (s', acc') -> Pl s (acc ++ [t]) s' acc'.
Proof.
  intros H. unfold step in H. destruct (after_message acc).
  { injection H as <- <-. intros S. split; [exact S|]. exists []. split; [apply grown_refl|]. intros p. cbn. lia. }
  destruct (wraps t) as [c|] eqn:Ew.
  - destruct (build pk (st_next s) c) as [pre c'] eqn:Eb. destruct (each (lits rb) (draw s c) pre) as [[s1 pre']|] eqn:E1; [|discriminate H]. injection H as <- <-. apply Pl_app, Pn_one.
    destruct (wraps_spec _ _ Ew) as (M & Kt & K & _). intros S. assert (sel_ok c = true) as Sc. { assert (c = kid 0 t) as -> by (unfold kid; rewrite Kt; reflexivity). apply sel_kid, S. }
    destruct (build_msgs _ _ _ _ _ M Sc Eb) as (A1 & [_ A2] & A3). destruct (each_once _ pre (fun u _ => lits_once u) _ _ _ E1 A1) as (B1 & n & B2 & B3).
    split.
    + assert (forallb sel_ok (pre' ++ [Nd KExpr [c']]) = true) as X by (apply sel_app; split; [exact B1|cbn; rewrite (A2 Sc); reflexivity]). destruct K as [-> | ->]; cbn; rewrite X; reflexivity.
    + eexists. split; [exact (grown_trans _ _ _ _ _ (grown_draw s c) B2)|]. intros p. specialize (A3 p). specialize (B3 p).
      assert (msgs (Nd (kind_of t) [closure (pre' ++ [Nd KExpr [c']])]) = msgsl pre' ++ msgs c') as ->.
      { assert (msgs (closure (pre' ++ [Nd KExpr [c']])) = msgsl pre' ++ msgs c') as X by (cbn; rewrite !app_nil_r, flat_map_app; cbn; rewrite !app_nil_r; reflexivity). destruct K as [-> | ->]; cbn [msgs flat_map app]; fold (msgs (closure (pre' ++ [Nd KExpr [c']]))); rewrite X, app_nil_r; reflexivity. }
      assert (msgs t = msgs c) as ->. { destruct t as [k cs]. cbn [kids kind_of] in *. subst cs. destruct K as [-> | ->]; cbn [msgs flat_map app]; apply app_nil_r. }
      rewrite map_app, !cnt_app. cbn [map fst]. lia.
  - destruct (match focus t with Some (c, r) => let (pre, c') := build pk (st_next s) c in (draw s c, pre, r c') | None => (s, [], t) end) as [[s1 pre] t1] eqn:Ef.
    destruct (nested pk rb s1 t1) as [[s2 t2]|] eqn:E2; [|discriminate H]. destruct (lits rb s2 t2) as [[s3 t3]|] eqn:E3; [|discriminate H]. injection H as <- <-. apply Pl_app.
    apply (Pl_trans _ _ s1 (pre ++ [t1])); [|apply Pl_app, Pn_one; exact (Pn_trans _ _ _ _ _ _ (nested_once _ _ _ _ E2) (lits_once _ _ _ _ E3))].
    destruct (focus t) as [[c r]|] eqn:Ef'.
    + destruct (build pk (st_next s) c) as [p0 c'] eqn:Eb. injection Ef as <- <- <-. intros S. cbn in S. rewrite andb_true_r in S. destruct (focus_fits _ _ _ Ef' S) as [Sc Fc]. destruct (focus_spec _ _ _ Ef') as (M & _ & _).
      destruct (build_msgs _ _ _ _ _ M Sc Eb) as (A1 & A2 & A3). destruct (Fc c' A2) as [B1 B2]. split; [apply sel_app; split; [exact A1|cbn; rewrite B1; reflexivity]|]. eexists. split; [apply grown_draw|].
      intros p. specialize (A3 p). specialize (B2 p). rewrite msgsl_app, !msgsl_one, cnt_app. cbn [map fst]. lia.
    + injection Ef as <- <- <-. intros S. split; [exact S|]. exists []. split; [apply grown_refl|]. intros p. cbn. lia.
Qed.
Lemma steps_once l : forall s acc s' l', steps pk rb s acc l = Some (s', l') -> Pl s (acc ++ l) s' l'.
Proof.
  induction l as [|t l IH]; intros s acc s' l' H; cbn [steps] in H.
  - injection H as <- <-. rewrite app_nil_r. intros S. split; [exact S|]. exists []. split; [apply grown_refl|]. intros p. cbn. lia.
  - destruct (step pk rb s acc t) as [[s1 acc1]|] eqn:E; [|discriminate H]. pose proof (step_once _ _ _ _ _ E) as P1. pose proof (IH _ _ _ _ H) as P2.
    apply (Pl_trans _ _ s1 (acc1 ++ l)); [|exact P2]. intros S. assert (forallb sel_ok (acc ++ [t]) = true /\ forallb sel_ok l = true) as [Sa Sl]. { rewrite sel_app in S. cbn in S. rewrite !andb_true_iff in S. rewrite sel_app. cbn. rewrite !andb_true_iff. tauto. }
    destruct (P1 Sa) as (A1 & n & A2 & A3). split; [apply sel_app; auto|]. exists n. split; [exact A2|]. intros p. specialize (A3 p). assert (acc ++ t :: l = (acc ++ [t]) ++ l) as -> by (rewrite <- app_assoc; reflexivity). rewrite !(msgsl_app _ l), !cnt_app. lia.
Qed.
End Once.
Lemma rwb_once pk fuel : forall s l s' l', rwb pk fuel s l = Some (s', l') -> Pl s l s' l'.
Proof.
  induction fuel as [|f IH]; intros s l s' l' H; [discriminate H|]. cbn [rwb] in H. exact (steps_once pk _ IH l _ [] _ _ H).
Qed.
