(** Property C27, and that version comparison is a total order. *)

From Verif Require Import Base Maps UtilModel UtilProps SemverModel.

(** ** Total preorders given by a comparison *)

(** The two laws of a three-way comparison: swapping the arguments swaps the
    answer, and "at most" is transitive. *)
Definition lawful {A} (c : A -> A -> comparison) : Prop :=
  (forall x y, c y x = CompOpp (c x y)) /\
  (forall x y z, c x y <> Gt -> c y z <> Gt -> c x z <> Gt).

Lemma lawful_refl {A} (c : A -> A -> comparison) : lawful c -> forall x, c x x = Eq.
Proof. intros [S _] x. specialize (S x x). destruct (c x x); cbn in S; congruence. Qed.

Lemma lawful_eq_l {A} (c : A -> A -> comparison) : lawful c -> forall x y z, c x y = Eq -> c x z = c y z.
Proof.
  intros [S T] x y z E. assert (c y x = Eq) as E' by (rewrite S, E; reflexivity).
  pose proof (T x y z) as T1. pose proof (T y x z) as T2. pose proof (T z x y) as T3. pose proof (T z y x) as T4.
  rewrite (S x z), (S y z) in *. rewrite E, E' in *.
  destruct (c x z) eqn:A1, (c y z) eqn:A2; cbn in *; auto; exfalso;
    first [apply T1; solve [discriminate|reflexivity] | apply T2; solve [discriminate|reflexivity]
          | apply T3; solve [discriminate|reflexivity] | apply T4; solve [discriminate|reflexivity]].
Qed.

Lemma lawful_lt_trans {A} (c : A -> A -> comparison) : lawful c ->
  forall x y z, c x y = Lt -> c y z <> Gt -> c x z = Lt.
Proof.
  intros L x y z E H. pose proof L as [S T].
  assert (c x z <> Gt) as H1 by (apply (T x y z); [congruence|exact H]).
  destruct (c x z) eqn:E1; [|reflexivity|congruence]. exfalso.
  rewrite (lawful_eq_l c L x z y E1) in E. rewrite S, E in H. apply H. reflexivity.
Qed.

Lemma lawful_lt_trans2 {A} (c : A -> A -> comparison) : lawful c ->
  forall x y z, c x y <> Gt -> c y z = Lt -> c x z = Lt.
Proof.
  intros L x y z H E. pose proof L as [S T]. destruct (c x y) eqn:E1; [|apply (lawful_lt_trans c L x y z); congruence|congruence].
  rewrite (lawful_eq_l c L x y z E1). exact E.
Qed.

Definition lex {A} (c1 c2 : A -> A -> comparison) (x y : A) : comparison :=
  match c1 x y with Eq => c2 x y | r => r end.

Lemma lawful_lex {A} (c1 c2 : A -> A -> comparison) : lawful c1 -> lawful c2 -> lawful (lex c1 c2).
Proof.
  intros L1 L2. pose proof L1 as [S1 T1]. pose proof L2 as [S2 T2]. split.
  - intros x y. unfold lex. rewrite S1, S2. destruct (c1 x y); reflexivity.
  - intros x y z H1 H2. unfold lex in *.
    destruct (c1 x y) eqn:E1; [| |congruence].
    + rewrite (lawful_eq_l c1 L1 x y z E1). destruct (c1 y z); [eapply T2; eassumption|discriminate|congruence].
    + rewrite (lawful_lt_trans c1 L1 x y z E1); [discriminate|]. destruct (c1 y z); congruence.
Qed.

Lemma lawful_by {A B} (f : A -> B) (c : B -> B -> comparison) : lawful c -> lawful (fun x y => c (f x) (f y)).
Proof. intros [S T]. split; [intros; apply S|intros x y z; apply T]. Qed.

Lemma lawful_ext {A} (c1 c2 : A -> A -> comparison) : (forall x y, c1 x y = c2 x y) -> lawful c1 -> lawful c2.
Proof. intros E [S T]. split; intros *; rewrite <- !E; [apply S|apply T]. Qed.

Lemma lawful_nat : lawful Nat.compare.
Proof.
  split; [intros; rewrite Nat.compare_antisym; reflexivity|].
  intros x y z. rewrite !Nat.compare_gt_iff. lia.
Qed.

Definition bcmp (a b : bytes) : comparison := if beq a b then Eq else if bltb a b then Lt else Gt.
Lemma bcmp_gt a b : bcmp a b <> Gt <-> bleb a b = true.
Proof.
  unfold bcmp, bleb. destruct (beq_spec a b) as [->|N]; [rewrite bltb_irrefl; split; [reflexivity|discriminate]|].
  destruct (bltb_spec a b) as [[E _]|[E|[E _]]]; [|congruence|].
  - rewrite E, (bltb_asym _ _ E). split; [reflexivity|discriminate].
  - rewrite E, (bltb_asym _ _ E). split; [congruence|discriminate].
Qed.
Lemma lawful_bcmp : lawful bcmp.
Proof.
  split.
  - intros x y. unfold bcmp. rewrite (beq_sym y x). destruct (beq_spec x y) as [->|N]; [reflexivity|].
    destruct (bltb_spec x y) as [[E _]|[E|[E _]]]; [|congruence|]; rewrite E, (bltb_asym _ _ E); reflexivity.
  - intros x y z. rewrite !bcmp_gt. apply bleb_trans.
Qed.

(** Lists, shorter first. *)
Fixpoint lcmp {A} (c : A -> A -> comparison) (x y : list A) : comparison :=
  match x, y with
  | [], [] => Eq
  | [], _ => Lt
  | _, [] => Gt
  | a :: x', b :: y' => match c a b with Eq => lcmp c x' y' | r => r end
  end.
Lemma lawful_lcmp {A} (c : A -> A -> comparison) : lawful c -> lawful (lcmp c).
Proof.
  intros L. pose proof L as [S T]. split.
  - induction x as [|a x IH]; intros [|b y]; cbn; auto. rewrite S, IH. destruct (c a b); reflexivity.
  - induction x as [|a x IH]; intros [|b y] [|d z] H1 H2; cbn in *; try congruence.
    destruct (c a b) eqn:E1; [| |congruence].
    + rewrite (lawful_eq_l c L a b d E1). destruct (c b d); [eapply IH; eassumption|discriminate|congruence].
    + rewrite (lawful_lt_trans c L a b d E1); [discriminate|]. destruct (c b d); congruence.
Qed.

(** ** The comparison of versions is such an order *)

Definition lencmp (x y : bytes) := Nat.compare (length x) (length y).
Lemma lawful_lencmp : lawful lencmp.
Proof. exact (lawful_by (@length _) Nat.compare lawful_nat). Qed.

Lemma compare_int_lex x y : lex lencmp bcmp x y = compare_int x y.
Proof.
  unfold lex, compare_int, lencmp, bcmp. destruct (beq_spec x y) as [->|N]; [rewrite Nat.compare_refl; reflexivity|].
  destruct (Nat.compare_spec (length x) (length y)) as [E|E|E].
  - rewrite E. rewrite Nat.ltb_irrefl. reflexivity.
  - destruct (Nat.ltb_spec (length x) (length y)); [reflexivity|lia].
  - destruct (Nat.ltb_spec (length x) (length y)); [lia|]. destruct (Nat.ltb_spec (length y) (length x)); [reflexivity|lia].
Qed.
Lemma lawful_compare_int : lawful compare_int.
Proof. eapply lawful_ext; [apply compare_int_lex|]. apply lawful_lex; [apply lawful_lencmp|apply lawful_bcmp]. Qed.

(** Identifiers: numbers first, by value; then text. *)
Definition idcmp : bytes -> bytes -> comparison :=
  lex (fun x y => Nat.compare (if is_num x then 0 else 1) (if is_num y then 0 else 1))
      (lex (fun x y => Nat.compare (if is_num x then length x else 0) (if is_num y then length y else 0)) bcmp).
Lemma lawful_idcmp : lawful idcmp.
Proof.
  apply lawful_lex; [exact (lawful_by (fun x => if is_num x then 0 else 1)%nat _ lawful_nat)|].
  apply lawful_lex; [exact (lawful_by (fun x => if is_num x then length x else 0)%nat _ lawful_nat)|apply lawful_bcmp].
Qed.
Lemma idcmp_eq x y : idcmp x y = Eq <-> x = y.
Proof.
  split; [|intros ->; apply lawful_refl; apply lawful_idcmp].
  unfold idcmp, lex, bcmp. destruct (beq_spec x y) as [E|N]; [auto|]. intros H. exfalso.
  destruct (Nat.compare _ _) in H; try discriminate. destruct (Nat.compare _ _) in H; try discriminate.
  destruct (bltb x y); discriminate.
Qed.
Lemma compare_ident_cmp x y : x <> y -> compare_ident x y = idcmp x y.
Proof.
  intros N. unfold compare_ident, idcmp, lex, bcmp. destruct (beq_spec x y) as [E|_]; [congruence|].
  destruct (is_num x), (is_num y); cbn [Bool.eqb negb andb Nat.compare]; try reflexivity.
  destruct (Nat.compare_spec (length x) (length y)) as [E|E|E].
  - rewrite E, Nat.ltb_irrefl. reflexivity.
  - destruct (Nat.ltb_spec (length x) (length y)); [reflexivity|lia].
  - destruct (Nat.ltb_spec (length x) (length y)); [lia|]. destruct (Nat.ltb_spec (length y) (length x)); [reflexivity|lia].
Qed.

Lemma lbeq_spec x : forall y, reflect (x = y) (lbeq x y).
Proof.
  induction x as [|a x IH]; intros [|b y]; cbn; try (constructor; congruence).
  destruct (beq_spec a b) as [->|N]; cbn; [|constructor; congruence].
  destruct (IH y) as [->|N]; constructor; congruence.
Qed.
Lemma pre_loop_cmp x : forall y, x <> y -> pre_loop x y = lcmp idcmp x y.
Proof.
  induction x as [|a x IH]; intros [|b y] N; cbn; try congruence.
  destruct (beq_spec a b) as [->|N'].
  - rewrite (proj2 (idcmp_eq b b) eq_refl). apply IH. congruence.
  - rewrite compare_ident_cmp by exact N'. destruct (idcmp a b) eqn:E; try reflexivity.
    apply idcmp_eq in E. congruence.
Qed.
(** A pre-release is below the release itself. *)
Definition precmp : list bytes -> list bytes -> comparison :=
  lex (fun x y => Nat.compare (if lbeq x [] then 1 else 0) (if lbeq y [] then 1 else 0)) (lcmp idcmp).
Lemma compare_pre_cmp x y : precmp x y = compare_pre x y.
Proof.
  unfold compare_pre, precmp, lex. destruct (lbeq_spec x y) as [->|N].
  - rewrite Nat.compare_refl. apply lawful_refl. apply lawful_lcmp, lawful_idcmp.
  - destruct x as [|a x], y as [|b y]; try congruence; try reflexivity.
    cbn [lbeq Nat.compare]. symmetry. apply pre_loop_cmp. exact N.
Qed.
Lemma lawful_compare_pre : lawful compare_pre.
Proof.
  eapply lawful_ext; [apply compare_pre_cmp|]. apply lawful_lex; [|apply lawful_lcmp, lawful_idcmp].
  exact (lawful_by (fun x => if lbeq x [] then 1 else 0)%nat _ lawful_nat).
Qed.

(** Comparing any two version strings, valid or not, is a total preorder. *)
Theorem C27_compare_is_a_total_order : lawful semver_compare.
Proof.
  set (p := fun v : bytes => semver_parse v).
  set (cp := lex (fun v w : semver => compare_int (sv_major v) (sv_major w))
            (lex (fun v w => compare_int (sv_minor v) (sv_minor w))
            (lex (fun v w => compare_int (sv_patch v) (sv_patch w))
                 (fun v w => compare_pre (sv_pre v) (sv_pre w))))).
  assert (lawful cp) as Lc.
  { apply lawful_lex; [exact (lawful_by sv_major _ lawful_compare_int)|].
    apply lawful_lex; [exact (lawful_by sv_minor _ lawful_compare_int)|].
    apply lawful_lex; [exact (lawful_by sv_patch _ lawful_compare_int)|].
    exact (lawful_by sv_pre _ lawful_compare_pre). }
  assert (forall v w, semver_compare v w =
    match semver_parse v, semver_parse w with None, None => Eq | None, Some _ => Lt | Some _, None => Gt | Some a, Some b => cp a b end) as E.
  { intros v w. unfold semver_compare, cp, lex. destruct (semver_parse v), (semver_parse w); try reflexivity. }
  pose proof Lc as [S T]. split.
  - intros x y. rewrite !E. destruct (semver_parse x), (semver_parse y); cbn; auto.
  - intros x y z. rewrite !E. destruct (semver_parse x), (semver_parse y), (semver_parse z); try congruence; apply T.
Qed.
Print Assumptions C27_compare_is_a_total_order.

(** ** Release versions compare by their numbers *)

(** A decimal numeral without leading zeros, and its value. *)
Definition numeral (ds : bytes) : Prop :=
  ds <> [] /\ Forall (fun c => is_digit c = true) ds /\ (forall r, ds = "0"%char :: r -> r = []).
Definition value (ds : bytes) : N := fold_left (fun a c => 10 * a + (N_of_ascii c - 48))%N ds 0%N.

(** A release version: one to three numerals separated by dots; numbers left
    out count as zero. *)
Definition release (v : bytes) (x y z : N) : Prop :=
  exists parts, Forall numeral parts /\ v = join_with (B ".") parts /\
    ((exists a, parts = [a] /\ x = value a /\ y = 0%N /\ z = 0%N) \/
     (exists a b, parts = [a; b] /\ x = value a /\ y = value b /\ z = 0%N) \/
     (exists a b c, parts = [a; b; c] /\ x = value a /\ y = value b /\ z = value c)).

Definition triple_compare (x y z x' y' z' : N) : comparison :=
  match (x ?= x')%N with
  | Eq => match (y ?= y')%N with Eq => (z ?= z')%N | r => r end
  | r => r
  end.

Lemma digit_range c : is_digit c = true -> (48 <= N_of_ascii c <= 57)%N.
Proof. unfold is_digit. intros H. apply andb_true_iff in H as [A1 A2]. apply N.leb_le in A1, A2. lia. Qed.

Lemma value_acc ds : forall a, fold_left (fun a c => 10 * a + (N_of_ascii c - 48))%N ds a =
  (a * 10 ^ N.of_nat (length ds) + value ds)%N.
Proof.
  unfold value. induction ds as [|c ds IH]; intros a.
  - cbn [fold_left length]. change (N.of_nat 0) with 0%N. rewrite N.pow_0_r. lia.
  - cbn [fold_left length]. rewrite IH. rewrite (IH (10 * 0 + _)%N). rewrite Nat2N.inj_succ, N.pow_succ_r'. lia.
Qed.
Lemma value_cons c ds : value (c :: ds) = ((N_of_ascii c - 48) * 10 ^ N.of_nat (length ds) + value ds)%N.
Proof. unfold value at 1. cbn [fold_left]. rewrite value_acc. f_equal. Qed.

Lemma value_bound ds : Forall (fun c => is_digit c = true) ds -> (value ds < 10 ^ N.of_nat (length ds))%N.
Proof.
  induction 1 as [|c ds D F IH]; [cbn; lia|]. rewrite value_cons. apply digit_range in D.
  cbn [length]. rewrite Nat2N.inj_succ, N.pow_succ_r'.
  assert ((N_of_ascii c - 48) * 10 ^ N.of_nat (length ds) <= 9 * 10 ^ N.of_nat (length ds))%N
    by (apply N.mul_le_mono_r; lia). lia.
Qed.

Lemma value_lex x : forall y, length x = length y ->
  Forall (fun c => is_digit c = true) x -> Forall (fun c => is_digit c = true) y ->
  bcmp x y = (value x ?= value y)%N.
Proof.
  induction x as [|c x IH]; intros [|d y] L Fx Fy; try discriminate; [reflexivity|].
  inversion Fx as [|? ? Dc Fx']; inversion Fy as [|? ? Dd Fy']; subst. injection L as L.
  rewrite !value_cons, L. specialize (IH y L Fx' Fy').
  pose proof (value_bound x Fx') as Bx. pose proof (value_bound y Fy') as By. rewrite L in Bx.
  set (P := (10 ^ N.of_nat (length y))%N) in *.
  apply digit_range in Dc, Dd.
  unfold bcmp in *. destruct (beq_spec (c :: x) (d :: y)) as [E|N].
  { injection E as -> ->. rewrite N.compare_refl. reflexivity. }
  cbn [bltb]. destruct (N.ltb_spec (N_of_ascii c) (N_of_ascii d)) as [Hlt|Hge].
  { symmetry. apply N.compare_lt_iff.
    assert ((N_of_ascii c - 48 + 1) * P <= (N_of_ascii d - 48) * P)%N by (apply N.mul_le_mono_r; lia). lia. }
  destruct (N.ltb_spec (N_of_ascii d) (N_of_ascii c)) as [Hlt|Hge'].
  { symmetry. apply N.compare_gt_iff.
    assert ((N_of_ascii d - 48 + 1) * P <= (N_of_ascii c - 48) * P)%N by (apply N.mul_le_mono_r; lia). lia. }
  assert (c = d) as <- by (apply N_of_ascii_inj; lia).
  assert (forall k m n, (k + m ?= k + n)%N = (m ?= n)%N) as Ac.
  { intros k m n. destruct (N.compare_spec m n); [apply N.compare_eq_iff|apply N.compare_lt_iff|apply N.compare_gt_iff]; lia. }
  rewrite Ac, <- IH. destruct (beq_spec x y) as [->|]; [congruence|reflexivity].
Qed.

Lemma numeral_low ds : numeral ds -> ds <> B "0" -> (10 ^ N.of_nat (length ds - 1) <= value ds)%N.
Proof.
  intros (N & F & Z) H. destruct ds as [|c ds]; [congruence|]. rewrite value_cons.
  cbn [length]. rewrite Nat.sub_succ, Nat.sub_0_r. inversion F as [|? ? D F']; subst. apply digit_range in D.
  assert (N_of_ascii c <> 48)%N as Hc.
  { intros E. assert (c = "0"%char) as -> by (apply N_of_ascii_inj; exact E). rewrite (Z ds eq_refl) in H. apply H; reflexivity. }
  assert (1 * 10 ^ N.of_nat (length ds) <= (N_of_ascii c - 48) * 10 ^ N.of_nat (length ds))%N by (apply N.mul_le_mono_r; lia).
  lia.
Qed.

Lemma compare_int_value x y : numeral x -> numeral y -> compare_int x y = (value x ?= value y)%N.
Proof.
  intros Nx Ny. rewrite <- compare_int_lex. unfold lex, lencmp.
  pose proof Nx as (Ex & Fx & _). pose proof Ny as (Ey & Fy & _).
  assert (forall x y, numeral x -> numeral y -> (length x < length y)%nat -> (value x < value y)%N) as Hlt.
  { clear. intros x y Nx Ny L. pose proof Nx as (Ex & Fx & _).
    assert (y <> B "0") as Hy by (intros ->; destruct x; [congruence|cbn in L; lia]).
    pose proof (numeral_low y Ny Hy) as Ly. pose proof (value_bound x Fx) as Lx.
    assert (10 ^ N.of_nat (length x) <= 10 ^ N.of_nat (length y - 1))%N by (apply N.pow_le_mono_r; lia). lia. }
  destruct (Nat.compare_spec (length x) (length y)) as [E|E|E].
  - apply value_lex; assumption.
  - symmetry. apply N.compare_lt_iff. apply Hlt; assumption.
  - symmetry. apply N.compare_gt_iff. apply Hlt; assumption.
Qed.

Lemma parse_int_numeral ds r : numeral ds -> (forall c r', r = c :: r' -> is_digit c = false) ->
  parse_int (ds ++ r) = Some (ds, r).
Proof.
  intros (N & F & Z) H. unfold parse_int.
  assert (take_digits (ds ++ r) = (ds, r)) as ->.
  { clear N Z. induction F as [|c ds D F IH]; cbn.
    - destruct r as [|c r]; [reflexivity|]. cbn. rewrite (H c r eq_refl). reflexivity.
    - rewrite D, IH. reflexivity. }
  destruct ds as [|c [|c2 ds]]; [congruence|reflexivity|].
  destruct (ascii_dec c "0") as [->|]; [|reflexivity]. specialize (Z _ eq_refl). discriminate.
Qed.

Lemma release_parse v x y z : release v x y z ->
  exists a b c, semver_parse ("v"%char :: v) = Some (Semver a b c []) /\
    numeral a /\ numeral b /\ numeral c /\ value a = x /\ value b = y /\ value c = z.
Proof.
  assert (numeral (B "0") /\ value (B "0") = 0%N) as [N0 V0].
  { split; [|reflexivity]. split; [discriminate|]. split; [repeat constructor|]. intros r [= <-]. reflexivity. }
  assert (forall c r', B "." ++ r' = c :: r' -> is_digit c = false) as Hdot by (intros c r' [= <-]; reflexivity).
  assert (forall (r : bytes) c r', B "." ++ r = c :: r' -> is_digit c = false) as Hdot' by (intros r c r' [= <- _]; reflexivity).
  assert (forall c (r' : bytes), [] = c :: r' -> is_digit c = false) as Hnil by discriminate.
  intros (parts & F & -> & [(a & -> & -> & -> & ->)|[(a & b & -> & -> & -> & ->)|(a & b & c & -> & -> & -> & ->)]]).
  - inversion F as [|? ? Na _]; subst. exists a, (B "0"), (B "0"). cbn [join_with semver_parse].
    destruct (ascii_dec "v" "v") as [_|]; [|congruence].
    rewrite <- (app_nil_r a), (parse_int_numeral a [] Na Hnil), app_nil_r. auto 10.
  - inversion F as [|? ? Na F1]; inversion F1 as [|? ? Nb _]; subst. exists a, b, (B "0"). cbn [join_with semver_parse].
    destruct (ascii_dec "v" "v") as [_|]; [|congruence].
    rewrite (parse_int_numeral a _ Na (Hdot' _)). cbn [B list_ascii_of_string app].
    destruct (ascii_dec "." ".") as [_|]; [|congruence].
    rewrite <- (app_nil_r b), (parse_int_numeral b [] Nb Hnil), app_nil_r. auto 10.
  - inversion F as [|? ? Na F1]; inversion F1 as [|? ? Nb F2]; inversion F2 as [|? ? Nc _]; subst.
    exists a, b, c. cbn [join_with semver_parse].
    destruct (ascii_dec "v" "v") as [_|]; [|congruence].
    rewrite (parse_int_numeral a _ Na (Hdot' _)). cbn [B list_ascii_of_string app].
    destruct (ascii_dec "." ".") as [_|]; [|congruence].
    change (parse_int (b ++ "."%char :: c)) with (parse_int (b ++ B "." ++ c)).
    rewrite (parse_int_numeral b _ Nb (Hdot' _)). cbn [B list_ascii_of_string app].
    destruct (ascii_dec "." ".") as [_|]; [|congruence].
    rewrite <- (app_nil_r c), (parse_int_numeral c [] Nc Hnil), app_nil_r. cbn. auto 10.
Qed.

Theorem C27_releases_compare_numerically : forall a b x y z x' y' z',
  release a x y z -> release b x' y' z' -> compare_go a b = triple_compare x y z x' y' z'.
Proof.
  intros a b x y z x' y' z' Ha Hb.
  apply release_parse in Ha as (a1 & a2 & a3 & Pa & Na1 & Na2 & Na3 & <- & <- & <-).
  apply release_parse in Hb as (b1 & b2 & b3 & Pb & Nb1 & Nb2 & Nb3 & <- & <- & <-).
  unfold compare_go, semver_compare. rewrite Pa, Pb. cbn [sv_major sv_minor sv_patch sv_pre].
  rewrite !compare_int_value by assumption. unfold triple_compare. cbn [compare_pre lbeq].
  destruct (_ ?= _)%N; [|reflexivity|reflexivity]. destruct (_ ?= _)%N; [|reflexivity|reflexivity].
  destruct (_ ?= _)%N; reflexivity.
Qed.
Print Assumptions C27_releases_compare_numerically.

(** Choosing the older version: an empty one is no constraint; of two others the
    answer is one of them and at most both. *)
Theorem C27_older_is_a_minimum : forall a b,
  (a = [] -> older_go a b = b) /\ (b = [] -> older_go a b = a) /\
  (a <> [] -> b <> [] ->
   (older_go a b = a \/ older_go a b = b) /\
   compare_go (older_go a b) a <> Gt /\ compare_go (older_go a b) b <> Gt).
Proof.
  intros a b. unfold older_go. split; [intros ->; reflexivity|]. split.
  { intros ->. destruct (beq_spec a []) as [->|]; reflexivity. }
  intros Na Nb. destruct (beq_spec a []); [congruence|]. destruct (beq_spec b []); [congruence|].
  pose proof C27_compare_is_a_total_order as L. pose proof L as [S _].
  pose proof (lawful_refl _ L) as R. unfold compare_go.
  destruct (semver_compare ("v"%char :: a) ("v"%char :: b)) eqn:E.
  - split; [auto|]. split; [rewrite S, E; discriminate|rewrite R; discriminate].
  - split; [auto|]. split; [rewrite R; discriminate|rewrite E; discriminate].
  - split; [auto|]. split; [rewrite S, E; discriminate|rewrite R; discriminate].
Qed.
Print Assumptions C27_older_is_a_minimum.

(** A function is left out exactly when its module names a version below 1.13;
    the others stay in order, and the count is that of the left-out ones. *)
Theorem C27_filter_is_exact : forall (F : Type) (fs : list (F * option bytes)),
  let drop := fun p : F * option bytes => exists v, snd p = Some v /\ v <> [] /\ compare_go v (B "1.13") = Lt in
  exists kept, fst (filter_by_go fs) = map fst kept /\
    picks (fun p => ~ drop p) fs kept /\
    (length kept + snd (filter_by_go fs) = length fs)%nat.
Proof.
  intros F fs drop. unfold filter_by_go.
  assert (forall p, {drop p} + {~ drop p}) as Dec.
  { intros [f [v|]]; unfold drop; cbn [snd].
    - destruct (bytes_eq_dec v []) as [->|Hv]; [right; intros (w & [= <-] & H & _); congruence|].
      destruct (compare_go v (B "1.13")) eqn:E; [right|left; exists v; auto|right]; intros (w & [= <-] & _ & H); congruence.
    - right. intros (w & H & _). discriminate. }
  assert (forall fs acc n, exists kept,
    fold_left (fun '(kept, skipped) '(f, m) =>
      match m with
      | Some v => if below_minimum v then (kept, S skipped) else (kept ++ [f], skipped)
      | None => (kept ++ [f], skipped)
      end) fs (acc, n) = (acc ++ map fst kept, (n + (length fs - length kept))%nat) /\
    picks (fun p => ~ drop p) fs kept /\ (length kept <= length fs)%nat) as H.
  { clear fs. induction fs as [|[f m] fs IH]; intros acc n.
    - exists []. cbn. rewrite app_nil_r, Nat.add_0_r. split; [reflexivity|]. split; [constructor|lia].
    - cbn [fold_left]. destruct (Dec (f, m)) as [D|D].
      + pose proof D as (v & E & Nv & Lt_). cbn in E. subst m.
        assert (below_minimum v = true) as ->
          by (unfold below_minimum, min_go; destruct (beq_spec v []); [congruence|]; rewrite Lt_; reflexivity).
        destruct (IH acc (S n)) as (kept & -> & P & Le). exists kept. cbn [length].
        split; [f_equal; lia|]. split; [apply pk_drop; [intros H; exact (H D)|exact P]|lia].
      + assert (fold_left (fun '(kept, skipped) '(f, m) =>
          match m with
          | Some v => if below_minimum v then (kept, S skipped) else (kept ++ [f], skipped)
          | None => (kept ++ [f], skipped)
          end) fs (match m with
          | Some v => if below_minimum v then (acc, S n) else (acc ++ [f], n)
          | None => (acc ++ [f], n)
          end) = fold_left (fun '(kept, skipped) '(f, m) =>
          match m with
          | Some v => if below_minimum v then (kept, S skipped) else (kept ++ [f], skipped)
          | None => (kept ++ [f], skipped)
          end) fs (acc ++ [f], n)) as ->.
        { destruct m as [v|]; [|reflexivity].
          assert (below_minimum v = false) as ->; [|reflexivity].
          unfold below_minimum, min_go. destruct (beq_spec v []); [reflexivity|].
          destruct (compare_go v (B "1.13")) eqn:E; try reflexivity. exfalso. apply D. exists v. auto. }
        destruct (IH (acc ++ [f]) n) as (kept & -> & P & Le). exists ((f, m) :: kept). cbn [length map fst].
        rewrite <- app_assoc. split; [reflexivity|]. split; [apply pk_keep; assumption|lia]. }
  destruct (H fs [] 0%nat) as (kept & -> & P & Le). exists kept. cbn [fst snd]. split; [reflexivity|].
  split; [exact P|]. lia.
Qed.
Print Assumptions C27_filter_is_exact.

(** Go's own pre-release versions are not semantic versions: they count as below
    everything, so a module that asks for 1.22rc1 is left out. *)
Theorem C27_go_prereleases_sort_lowest_refuted : exists v,
  v = B "1.22rc1" /\ below_minimum v = true /\ compare_go v (B "1.2") = Lt /\ older_go v (B "1.5") = v.
Proof. exists (B "1.22rc1"). repeat split. Qed.
Print Assumptions C27_go_prereleases_sort_lowest_refuted.

Example C27_example :
  release (B "1.9") 1 9 0 /\ release (B "1.21.10") 1 21 10 /\ compare_go (B "1.9") (B "1.21.10") = Lt /\
  compare_go (B "1.21") (B "1.21.0") = Eq /\ below_minimum (B "1.9") = true /\ below_minimum (B "1.13") = false /\
  semver_compare (B "v1.2.3-rc.2") (B "v1.2.3-rc.11") = Lt /\ semver_compare (B "v1.2.3-rc.11") (B "v1.2.3") = Lt /\
  filter_by_go [(1%nat, Some (B "1.12.9")); (2%nat, None); (3%nat, Some (B "1.13"))] = ([2%nat; 3%nat], 1%nat).
Proof.
  assert (forall ds, forallb is_digit ds = true -> ds <> [] -> hd "0"%char ds <> "0"%char -> numeral ds) as Num.
  { intros ds H N Z. split; [exact N|]. split; [apply Forall_forall, forallb_forall; exact H|].
    intros r ->. cbn in Z. congruence. }
  split.
  { exists [B "1"; B "9"]. split; [repeat constructor; apply Num; try reflexivity; discriminate|].
    split; [reflexivity|]. right; left. exists (B "1"), (B "9"). auto. }
  split.
  { exists [B "1"; B "21"; B "10"]. split; [repeat constructor; apply Num; try reflexivity; discriminate|].
    split; [reflexivity|]. right; right. exists (B "1"), (B "21"), (B "10"). auto. }
  repeat split.
Qed.
