(** C63: the entries of a large map that are sent do not depend on the order in which Go
    hands out its keys. *)
From Verif Require Import Base Maps KeyOrderModel KeyOrderSpec KeyOrderProofs.
From Coq Require Import Permutation.

Section C63.
Variable tyof : N -> kty.
Variable tname : N -> bytes.
Variable P : N -> Prop.
Notation less := (less tname).
Notation cmp := (cmp tname).

(** Keys of one type are always compared, never with a panic; swapping them swaps the answer, the order is
    transitive, and only keys that are equal in Go compare as equal. *)
Theorem C63_order (t : kty) : (forall d e, P d -> P e -> tname d = tname e -> d = e) ->
  (forall a b, has tyof a t -> has tyof b t -> good P a -> good P b ->
     exists c, cmp a b = Some c /\ cmp b a = Some (CompOpp c) /\ (c = Eq -> keq a b)) /\
  (forall a b c, has tyof a t -> has tyof b t -> has tyof c t -> good P a -> good P b -> good P c ->
     cmp a b <> Some Gt -> cmp b c <> Some Gt -> cmp a c <> Some Gt /\ (cmp a c = Some Eq -> cmp a b = Some Eq /\ cmp b c = Some Eq)).
Proof.
  intros inj. split.
  - intros a b Ha Hb Ga Gb. destruct (cmp_lex tyof tname P inj a b t Ha Hb Ga Gb) as [A1 A2].
    destruct (cmp_lex tyof tname P inj b a t Hb Ha Gb Ga) as [B1 _].
    exists (lexl (flat tname a) (flat tname b)). split; [exact A1|]. split; [rewrite B1, lexl_opp; reflexivity|].
    intros E. apply A2. rewrite A1, E. reflexivity.
  - intros a b c Ha Hb Hc Ga Gb Gc.
    rewrite (proj1 (cmp_lex tyof tname P inj a b t Ha Hb Ga Gb)), (proj1 (cmp_lex tyof tname P inj b c t Hb Hc Gb Gc)),
      (proj1 (cmp_lex tyof tname P inj a c t Ha Hc Ga Gc)).
    generalize (flat tname a) (flat tname b) (flat tname c). intros x y z H1 H2.
    destruct (lexl x y) eqn:E1; [| |congruence].
    + apply lexl_eq in E1 as ->. split; [exact H2|]. intros E. split; [reflexivity|exact E].
    + destruct (lexl y z) eqn:E2; [| |congruence].
      * apply lexl_eq in E2 as ->. rewrite E1. split; discriminate.
      * rewrite (lexl_trans _ _ _ E1 E2). split; discriminate.
Qed.

(** So the less function is what sort.Slice asks for. *)
Theorem C63_less_is_strict_weak t l : (forall d e, P d -> P e -> tname d = tname e -> d = e) ->
  (forall k, In k l -> has tyof k t /\ good P k) -> strict_weak less l.
Proof.
  intros inj K. assert (L : forall a b, In a l -> In b l -> cmp a b = Some (lexl (flat tname a) (flat tname b))).
  { intros a b Ha Hb. destruct (K a Ha), (K b Hb). eapply cmp_lex; eassumption. }
  unfold less. split; [|split].
  - intros x Hx. rewrite L by assumption. rewrite (proj2 (lexl_eq _ _) eq_refl). reflexivity.
  - intros x y z Hx Hy Hz. rewrite !L by assumption. destruct (lexl (flat tname x) (flat tname y)) eqn:A; try discriminate.
    destruct (lexl (flat tname y) (flat tname z)) eqn:B; try discriminate. rewrite (lexl_trans _ _ _ A B). reflexivity.
  - intros x y z Hx Hy Hz. rewrite !L by assumption.
    rewrite (lexl_opp (flat tname x) (flat tname y)), (lexl_opp (flat tname y) (flat tname z)), (lexl_opp (flat tname x) (flat tname z)).
    destruct (lexl (flat tname x) (flat tname y)) eqn:A; try discriminate. destruct (lexl (flat tname y) (flat tname z)) eqn:B; try discriminate.
    apply lexl_eq in A, B. rewrite A, B, (proj2 (lexl_eq _ _) eq_refl). split; reflexivity.
Qed.

(** Whatever sorting function is used, and in whatever order the keys of a map come, the
    same keys are chosen in the same order, and each of them is below each key left out. *)
Theorem C63_chosen_deterministic t l1 l2 maxlen sort1 sort2 : (forall d e, P d -> P e -> tname d = tname e -> d = e) ->
  map_keys tyof P t l1 -> Permutation l1 l2 -> (maxlen < length l1)%nat -> sorts less sort1 -> sorts less sort2 ->
  chosen sort1 maxlen l1 = chosen sort2 maxlen l2 /\ length (chosen sort1 maxlen l1) = maxlen /\
  (forall x y, In x (chosen sort1 maxlen l1) -> In y l1 -> ~ In y (chosen sort1 maxlen l1) -> cmp x y = Some Lt).
Proof.
  intros inj (K1 & ND & K2) HP HL S1 S2.
  assert (K1' : forall k, In k l2 -> has tyof k t /\ good P k) by (intros k Hk; apply K1; eapply Permutation_in; [symmetry; exact HP|exact Hk]).
  destruct (S1 l1 (C63_less_is_strict_weak t l1 inj K1)) as [P1 O1].
  destruct (S2 l2 (C63_less_is_strict_weak t l2 inj K1')) as [P2 O2].
  assert (T : forall x y, In x l1 -> In y l1 -> less x y = false -> less y x = false -> x = y).
  { intros x y Hx Hy A B. destruct (K1 x Hx) as [Hx1 Hx2], (K1 y Hy) as [Hy1 Hy2].
    destruct (proj1 (C63_order t inj) x y Hx1 Hy1 Hx2 Hy2) as (c & C1 & C2 & C3).
    unfold less in A, B. rewrite C1 in A. rewrite C2 in B. destruct c; try discriminate. apply K2; auto. }
  assert (U : forall s1 s2, Permutation s1 s2 -> (forall x, In x s1 -> In x l1) ->
    ForallOrdPairs (fun x y => less y x = false) s1 -> ForallOrdPairs (fun x y => less y x = false) s2 -> s1 = s2).
  { induction s1 as [|x s1 IH]; intros s2 Hp Hi Q1 Q2; [apply Permutation_nil in Hp; congruence|].
    destruct s2 as [|y s2]; [symmetry in Hp; apply Permutation_nil in Hp; discriminate|].
    inversion Q1 as [|? ? A1 A2]; inversion Q2 as [|? ? B1 B2]; subst.
    assert (x = y) as ->.
    { assert (X : In x (y :: s2)) by (eapply Permutation_in; [exact Hp|left; reflexivity]).
      assert (Y : In y (x :: s1)) by (eapply Permutation_in; [symmetry; exact Hp|left; reflexivity]).
      destruct X as [->|X]; [reflexivity|]. destruct Y as [->|Y]; [reflexivity|].
      rewrite Forall_forall in A1, B1. apply T; [apply Hi; left; reflexivity|apply Hi; right; exact Y|exact (B1 _ X)|exact (A1 _ Y)]. }
    f_equal. apply IH; [eapply Permutation_cons_inv; exact Hp|intros z Hz; apply Hi; right; exact Hz|assumption|assumption]. }
  assert (E : sort1 l1 = sort2 l2).
  { apply U; [rewrite <- P1, <- P2; exact HP|intros x Hx; eapply Permutation_in; [symmetry; exact P1|exact Hx]|exact O1|exact O2]. }
  unfold chosen. rewrite <- (Permutation_length HP). replace (length l1 <=? maxlen)%nat with false by (symmetry; apply Nat.leb_gt; exact HL).
  split; [rewrite E; reflexivity|]. split.
  { rewrite firstn_length, <- (Permutation_length P1). lia. }
  intros x y Hx Hy Ny. assert (Hy' : In y (skipn maxlen (sort1 l1))).
  { assert (Z : In y (sort1 l1)) by (eapply Permutation_in; [exact P1|exact Hy]). rewrite <- (firstn_skipn maxlen) in Z.
    apply in_app_or in Z as [Z|Z]; [contradiction|exact Z]. }
  assert (V : forall a b, ForallOrdPairs (fun x y => less y x = false) (a ++ b) -> In x a -> In y b -> less y x = false).
  { induction a as [|z a IH]; intros b Q Ha Hb; [contradiction|]. inversion Q as [|? ? Q1 Q2]; subst. destruct Ha as [->|Ha]; [|eapply IH; eassumption].
    rewrite Forall_forall in Q1. apply Q1. apply in_or_app; right; exact Hb. }
  assert (W : less y x = false) by (eapply V; [rewrite firstn_skipn; exact O1|exact Hx|exact Hy']).
  assert (Hx' : In x l1).
  { eapply Permutation_in; [symmetry; exact P1|]. rewrite <- (firstn_skipn maxlen). apply in_or_app; left; exact Hx. }
  destruct (K1 x Hx') as [Hx1 Hx2], (K1 y Hy) as [Hy1 Hy2].
  destruct (proj1 (C63_order t inj) x y Hx1 Hy1 Hx2 Hy2) as (c & C1 & C2 & C3).
  destruct c; [|exact C1|].
  - exfalso. apply Ny. rewrite <- (K2 x y Hx' Hy (C3 eq_refl)). exact Hx.
  - unfold less in W. rewrite C2 in W. discriminate.
Qed.
End C63.
Print Assumptions C63_order.
Print Assumptions C63_less_is_strict_weak.
Print Assumptions C63_chosen_deterministic.

(** Examples: keys of type struct{a string; _ int; v any}, with the dynamic types 1 (int),
    2 (string) and 3 ([2]float64). *)
Definition ex_tyof (d : N) : kty := match d with 1%N => TInt | 2%N => TStr | _ => TArr 2 TFloat end.
Definition ex_name (d : N) : bytes := match d with 1%N => B "int" | 2%N => B "string" | _ => B "[2]float64" end.
Definition ex_type := TStruct [(false, TStr); (true, TInt); (false, TIface)].
Definition f_one : fl := 4607182418800017408%N.
Definition f_minus_one : fl := 13830554455654793216%N.
Definition f_minus_zero : fl := 9223372036854775808%N.
Definition f_nan1 : fl := 9221120237041090561%N.
Definition f_nan2 : fl := 9221120237041090562%N.
Definition ex_key (s : bytes) (z : Z) (k : key) : key := KStruct [(false, KStr s); (true, KInt z); (false, k)].
Definition ex_keys : list key :=
  [ex_key (B "b") 0%Z KNil; ex_key (B "a") 7%Z (KIface 2%N (KStr (B "x"))); ex_key (B "a") 7%Z (KIface 3%N (KArr [KFloat f_one; KFloat f_minus_zero]));
   ex_key (B "a") 7%Z (KIface 1%N (KInt (-3)%Z)); ex_key (B "a") 7%Z (KIface 3%N (KArr [KFloat f_minus_one; KFloat f_one]))].
(** Insertion sort by the less function. *)
Fixpoint ins (tname : N -> bytes) (x : key) (l : list key) : list key :=
  match l with [] => [x] | y :: l' => if less tname y x then y :: ins tname x l' else x :: l end.
Fixpoint isort (tname : N -> bytes) (l : list key) : list key := match l with [] => [] | x :: l' => ins tname x (isort tname l') end.
Lemma ins_perm tname x l : Permutation (x :: l) (ins tname x l).
Proof. induction l as [|y l IH]; cbn; [reflexivity|]. destruct (less tname y x); [rewrite perm_swap, IH; reflexivity|reflexivity]. Qed.
Lemma isort_perm tname l : Permutation l (isort tname l).
Proof. induction l as [|x l IH]; cbn; [reflexivity|]. rewrite <- ins_perm, <- IH. reflexivity. Qed.
(** A function with the contract of sort.Slice exists. *)
Example C63_example_sorts tname : sorts (less tname) (isort tname).
Proof.
  intros l (I & T & W). split; [apply isort_perm|].
  assert (N : forall x y z, In x l -> In y l -> In z l -> less tname y x = false -> less tname z y = false -> less tname z x = false).
  { intros x y z Hx Hy Hz A B. destruct (less tname z x) eqn:C; [|reflexivity]. exfalso.
    destruct (less tname x y) eqn:D; [rewrite (T z x y Hz Hx Hy C D) in B; discriminate|].
    destruct (less tname y z) eqn:F; [rewrite (T y z x Hy Hz Hx F C) in A; discriminate|].
    destruct (W x y z Hx Hy Hz D A F B) as [_ G]. congruence. }
  assert (H : forall l', (forall x, In x l' -> In x l) -> ForallOrdPairs (fun x y => less tname y x = false) (isort tname l')).
  { induction l' as [|x l' IH]; intros Hl; cbn; [constructor|]. specialize (IH (fun z Hz => Hl z (or_intror Hz))).
    assert (Hs : forall z, In z (isort tname l') -> In z l) by (intros z Hz; apply Hl; right; eapply Permutation_in; [symmetry; apply isort_perm|exact Hz]).
    assert (Hx : In x l) by (apply Hl; left; reflexivity). clear Hl. induction IH as [|y s Hy IHs IHx]; cbn; [repeat constructor|].
    destruct (less tname y x) eqn:E.
    - constructor; [|apply IHx; intros z Hz; apply Hs; right; exact Hz].
      apply Forall_forall. intros z Hz. eapply Permutation_in in Hz; [|symmetry; apply ins_perm]. destruct Hz as [<-|Hz].
      + destruct (less tname x y) eqn:F; [|reflexivity].
        assert (less tname x x = true) by (apply (T x y x); auto; apply Hs; left; reflexivity). rewrite (I x Hx) in H. discriminate.
      + rewrite Forall_forall in Hy. apply Hy, Hz.
    - constructor; [|constructor; assumption]. apply Forall_forall. intros z [<-|Hz]; [exact E|].
      rewrite Forall_forall in Hy. eapply (N x y z); auto; try (apply Hs; left; reflexivity); apply Hs; right; exact Hz. }
  apply H. auto.
Qed.
Example C63_example_keys : map_keys ex_tyof (fun d => (1 <= d <= 3)%N) ex_type ex_keys /\
  (forall d e, (1 <= d <= 3)%N -> (1 <= e <= 3)%N -> ex_name d = ex_name e -> d = e).
Proof.
  split.
  - split; [|split].
    + intros k Hk. cbn in Hk. repeat destruct Hk as [<-|Hk]; try contradiction; cbn; repeat split; try reflexivity; lia.
    + repeat constructor; cbn; intros H; repeat destruct H as [H|H]; try discriminate; contradiction.
    + intros x y Hx Hy. cbn in Hx, Hy. repeat destruct Hx as [<-|Hx]; try contradiction; repeat destruct Hy as [<-|Hy]; try contradiction;
        try reflexivity; intros H; exfalso; inversion H as [| | | | | | | | |? ? Hf| |]; subst;
        inversion Hf as [| |? ? ? ? Q1 Q2]; subst; inversion Q1; subst; inversion Q2 as [|? ? ? ? Q3|]; subst;
        inversion Q3 as [| |? ? ? ? Q4 Q5]; subst; inversion Q4 as [| | | | | | | | | | |? ? ? Q6]; subst;
        inversion Q6 as [| | | | | | | |? ? Q7| | |]; subst; inversion Q7 as [|? ? ? ? Q8 Q9]; subst; inversion Q8; subst; discriminate.
  - intros d e [D1 D2] [E1 E2]. assert (d = 1 \/ d = 2 \/ d = 3)%N as [->|[->| ->]] by lia;
      assert (e = 1 \/ e = 2 \/ e = 3)%N as [->|[->| ->]] by lia; intros H; try reflexivity; vm_compute in H; discriminate H.
Qed.
Example C63_example_chosen :
  chosen (isort ex_name) 3 ex_keys =
    [ex_key (B "a") 7%Z (KIface 3%N (KArr [KFloat f_minus_one; KFloat f_one])); ex_key (B "a") 7%Z (KIface 3%N (KArr [KFloat f_one; KFloat f_minus_zero]));
     ex_key (B "a") 7%Z (KIface 1%N (KInt (-3)%Z))] /\
  chosen (isort ex_name) 3 (rev ex_keys) = chosen (isort ex_name) 3 ex_keys /\
  map f_ord [f_minus_zero; 0%N] = [0; 0]%Z /\ map f_nan [f_nan1; f_one; 9218868437227405312%N] = [true; false; false].
Proof. vm_compute. repeat split. Qed.

(** With NaN keys the choice depends on the order in which the keys come: a NaN compares as
    equal to everything, so no order is left to sort by. *)
Theorem C63_nan_refuted :
  (sorted_of (less ex_name) [KFloat f_nan1; KFloat f_nan2] [KFloat f_nan1; KFloat f_nan2] /\
   sorted_of (less ex_name) [KFloat f_nan1; KFloat f_nan2] [KFloat f_nan2; KFloat f_nan1] /\
   ~ keq (KFloat f_nan1) (KFloat f_nan2)) /\
  (cmp ex_name (KFloat f_one) (KFloat f_nan1) = Some Eq /\ cmp ex_name (KFloat f_nan1) (KFloat f_minus_one) = Some Eq /\
   cmp ex_name (KFloat f_one) (KFloat f_minus_one) = Some Gt) /\
  ~ strict_weak (less ex_name) [KFloat f_one; KFloat f_nan1; KFloat f_minus_one].
Proof.
  split; [split; [|split]|split].
  - split; [reflexivity|]. repeat constructor.
  - split; [apply perm_swap|]. repeat constructor.
  - intros H. inversion H as [| | |? ? N1| | | | | | | |]; subst. vm_compute in N1. discriminate.
  - vm_compute. repeat split.
  - intros (_ & _ & W). destruct (W (KFloat f_one) (KFloat f_nan1) (KFloat f_minus_one)) as [_ H]; cbn; auto.
    vm_compute in H. discriminate.
Qed.
Print Assumptions C63_nan_refuted.

(** Two dynamic types with one printed name (packages of the same name): their keys are not
    told apart. *)
Theorem C63_type_name_refuted :
  let nm (d : N) := B "pkg.ID" in
  let a := KIface 1%N (KInt 1%Z) in let b := KIface 2%N (KInt 2%Z) in
  cmp nm a b = Some Eq /\ ~ keq a b /\ sorted_of (less nm) [a; b] [a; b] /\ sorted_of (less nm) [a; b] [b; a].
Proof.
  cbn zeta. split; [vm_compute; reflexivity|]. split; [intros H; inversion H|].
  split; (split; [|repeat constructor]); [reflexivity|apply perm_swap].
Qed.
Print Assumptions C63_type_name_refuted.

(** Keys that are pointers are ordered by address: with other addresses, as in another run,
    other entries are chosen. *)
Theorem C63_addresses_refuted :
  let move (a : N) := (10 - a)%N in
  chosen (isort ex_name) 1 [KPtr 1%N; KPtr 2%N] = [KPtr 1%N] /\
  chosen (isort ex_name) 1 [KPtr (move 1%N); KPtr (move 2%N)] = [KPtr (move 2%N)].
Proof. vm_compute. split; reflexivity. Qed.
Print Assumptions C63_addresses_refuted.
