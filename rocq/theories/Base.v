(** Shared vocabulary of the model: bytes, Go strings, decimal rendering.

    A Go [string] or [[]byte] is a finite sequence of bytes; it is modelled as
    [list ascii] (Coq's [ascii] has exactly 256 inhabitants).  Nothing in this
    file transcribes code of the repository except [itoa], the model of
    Go's [strconv.Itoa]/[strconv.FormatUint] (base 10) for non-negative
    numbers, used e.g. in lens/astclient.go:115 and lens/storage.go:266. *)

From Coq Require Export Ascii String NArith ZArith Arith Lia Bool List.
From Coq Require Export ZifyBool ZifyNat ZifyN.
Export ListNotations.
Open Scope list_scope.

Ltac Zify.zify_post_hook ::= Z.div_mod_to_equations.

(** A Go byte and a Go string / byte slice. *)
Definition byte := ascii.
Definition bytes := list byte.

(** String literals of the source text as byte lists. *)
Definition B (s : string) : bytes := list_ascii_of_string s.

(** Decidable equality on byte strings (Go's [==] on strings). *)
Definition bytes_eq_dec : forall a b : bytes, {a = b} + {a <> b} :=
  list_eq_dec ascii_dec.
Definition beq (a b : bytes) : bool := if bytes_eq_dec a b then true else false.

Lemma beq_true a b : beq a b = true <-> a = b.
Proof. unfold beq; destruct (bytes_eq_dec a b); split; congruence. Qed.
Lemma beq_false a b : beq a b = false <-> a <> b.
Proof. unfold beq; destruct (bytes_eq_dec a b); split; congruence. Qed.
Lemma beq_refl a : beq a a = true.
Proof. apply beq_true; reflexivity. Qed.
Lemma beq_spec a b : reflect (a = b) (beq a b).
Proof. unfold beq; destruct (bytes_eq_dec a b); constructor; assumption. Qed.
Lemma beq_sym a b : beq a b = beq b a.
Proof. destruct (beq_spec a b), (beq_spec b a); congruence. Qed.

(** Length of a byte string as a Go integer. *)
Definition blen {A} (l : list A) : N := N.of_nat (length l).

(** [strings.HasPrefix]. *)
Fixpoint has_prefix (p s : bytes) : bool :=
  match p, s with
  | [], _ => true
  | x :: p', y :: s' => if ascii_dec x y then has_prefix p' s' else false
  | _ :: _, [] => false
  end.

Lemma has_prefix_spec p s : has_prefix p s = true <-> exists r, s = p ++ r.
Proof.
  revert s; induction p as [|x p IH]; intros s; cbn.
  - split; [intros _; exists s; reflexivity | reflexivity].
  - destruct s as [|y s].
    + split; [discriminate | intros [r Hr]; discriminate].
    + destruct (ascii_dec x y) as [->|Hne].
      * rewrite IH; split; intros [r Hr]; exists r; [subst; reflexivity | congruence].
      * split; [discriminate | intros [r Hr]; cbn in Hr; congruence].
Qed.

Lemma has_prefix_app p r : has_prefix p (p ++ r) = true.
Proof. apply has_prefix_spec; exists r; reflexivity. Qed.

(** ** Decimal numbers *)

Definition digit (n : N) : byte := ascii_of_N (48 + n).

Fixpoint itoa_fuel (fuel : nat) (n : N) (acc : bytes) : bytes :=
  match fuel with
  | O => acc
  | S f => if (n <? 10)%N then digit n :: acc
           else itoa_fuel f (n / 10)%N (digit (n mod 10)%N :: acc)
  end.

(** Go: [strconv.Itoa] on a non-negative int. *)
Definition itoa (n : N) : bytes := itoa_fuel (S (N.to_nat (N.log2 n))) n [].

Definition is_digit (c : byte) : bool :=
  ((48 <=? N_of_ascii c) && (N_of_ascii c <=? 57))%N.

Definition digit_val (c : byte) : N := (N_of_ascii c - 48)%N.

(** Value of a string of decimal digits; [None] when empty or a non-digit occurs. *)
Fixpoint atoi_acc (acc : N) (s : bytes) : option N :=
  match s with
  | [] => Some acc
  | c :: s' => if is_digit c then atoi_acc (acc * 10 + digit_val c)%N s' else None
  end.
Definition atoi (s : bytes) : option N :=
  match s with [] => None | _ => atoi_acc 0 s end.

Lemma N_of_digit n : (n < 10)%N -> N_of_ascii (digit n) = (48 + n)%N.
Proof. intros H; unfold digit; apply N_ascii_embedding; lia. Qed.

Lemma is_digit_digit n : (n < 10)%N -> is_digit (digit n) = true.
Proof. intros H; unfold is_digit; rewrite N_of_digit by assumption; lia. Qed.

Lemma digit_val_digit n : (n < 10)%N -> digit_val (digit n) = n.
Proof. intros H; unfold digit_val; rewrite N_of_digit by assumption; lia. Qed.

Lemma atoi_acc_itoa_fuel fuel : forall n acc k,
  (n < 2 ^ N.of_nat fuel)%N -> (0 < N.of_nat fuel)%N ->
  exists p, atoi_acc k (itoa_fuel fuel n acc) = atoi_acc (k * 10 ^ p + n)%N acc.
Proof.
  induction fuel as [|f IH]; intros n acc k Hn Hf; [lia|].
  cbn [itoa_fuel].
  destruct (N.ltb_spec n 10) as [Hlt|Hge].
  - exists 1%N. cbn [atoi_acc]. rewrite is_digit_digit, digit_val_digit by assumption.
    f_equal.
  - destruct (IH (n / 10)%N (digit (n mod 10) :: acc) k) as [p Hp].
    + rewrite Nat2N.inj_succ, N.pow_succ_r' in Hn. lia.
    + destruct f as [|f']; [|lia]. cbn in Hn. lia.
    + exists (N.succ p). rewrite Hp. cbn [atoi_acc].
      rewrite is_digit_digit, digit_val_digit by lia.
      f_equal. rewrite N.pow_succ_r'. lia.
Qed.

Lemma itoa_fuel_nonempty fuel n acc : fuel <> O -> itoa_fuel fuel n acc <> [].
Proof.
  revert n acc; induction fuel as [|f IH]; intros n acc H; [congruence|].
  cbn [itoa_fuel]. destruct (n <? 10)%N; [discriminate|].
  destruct f; [discriminate|]. apply IH; discriminate.
Qed.

Lemma log2_fuel n : (n < 2 ^ N.of_nat (S (N.to_nat (N.log2 n))))%N.
Proof.
  rewrite Nat2N.inj_succ, N2Nat.id.
  destruct (N.eq_dec n 0) as [->|Hn]; [cbn; lia|].
  destruct (N.log2_spec n ltac:(lia)) as [_ H]. exact H.
Qed.

Lemma atoi_itoa n : atoi (itoa n) = Some n.
Proof.
  unfold atoi, itoa.
  pose proof (itoa_fuel_nonempty (S (N.to_nat (N.log2 n))) n [] ltac:(discriminate)) as Hne.
  destruct (itoa_fuel (S (N.to_nat (N.log2 n))) n []) as [|c s] eqn:E; [congruence|].
  rewrite <- E.
  destruct (atoi_acc_itoa_fuel (S (N.to_nat (N.log2 n))) n [] 0) as [p Hp];
    [apply log2_fuel | lia |].
  rewrite Hp. cbn [atoi_acc]. f_equal; lia.
Qed.

Lemma itoa_inj n m : itoa n = itoa m -> n = m.
Proof.
  intros H. pose proof (atoi_itoa n) as H1. rewrite H, atoi_itoa in H1. congruence.
Qed.

Lemma itoa_nonempty n : itoa n <> [].
Proof. unfold itoa; apply itoa_fuel_nonempty; discriminate. Qed.

Lemma itoa_fuel_digits fuel : forall n acc,
  Forall (fun c => is_digit c = true) acc ->
  Forall (fun c => is_digit c = true) (itoa_fuel fuel n acc).
Proof.
  induction fuel as [|f IH]; intros n acc H; cbn [itoa_fuel]; [assumption|].
  destruct (N.ltb_spec n 10).
  - constructor; [apply is_digit_digit; lia | assumption].
  - apply IH. constructor; [apply is_digit_digit; lia | assumption].
Qed.

Lemma itoa_digits n : Forall (fun c => is_digit c = true) (itoa n).
Proof. apply itoa_fuel_digits; constructor. Qed.

Lemma itoa_fuel_len fuel : forall n acc k, (n < 10 ^ N.of_nat k)%N -> (1 <= k)%nat ->
  (length (itoa_fuel fuel n acc) <= length acc + k)%nat.
Proof.
  induction fuel as [|f IH]; intros n acc k Hn Hk; cbn [itoa_fuel]; [lia|].
  destruct (N.ltb_spec n 10); [cbn; lia|].
  destruct k as [|[|k]]; [lia|cbn in Hn; lia|].
  etransitivity; [apply (IH _ _ (S k)); [|lia]|cbn; lia].
  rewrite Nat2N.inj_succ, N.pow_succ_r' in Hn.
  apply N.div_lt_upper_bound; lia.
Qed.
Lemma itoa_len n k : (n < 10 ^ N.of_nat k)%N -> (1 <= k)%nat -> (length (itoa n) <= k)%nat.
Proof. intros H1 H2. apply (itoa_fuel_len _ n [] k H1 H2). Qed.

(** Splitting two decimal renderings followed by a non-digit is unambiguous. *)
Lemma digits_cut a b c1 c2 r1 r2 :
  Forall (fun c => is_digit c = true) a -> Forall (fun c => is_digit c = true) b ->
  is_digit c1 = false -> is_digit c2 = false ->
  a ++ c1 :: r1 = b ++ c2 :: r2 -> a = b /\ c1 = c2 /\ r1 = r2.
Proof.
  revert b; induction a as [|x a IH]; intros b Ha Hb H1 H2 E.
  - destruct b as [|y b]; cbn in E.
    + injection E; auto.
    + injection E as E1 E2. inversion Hb; subst. congruence.
  - destruct b as [|y b]; cbn in E.
    + injection E as E1 E2. inversion Ha; subst. congruence.
    + injection E as E1 E2. inversion Ha; inversion Hb; subst.
      destruct (IH b) as (-> & -> & ->); auto.
Qed.

(** ** Small list facts used throughout *)

Lemma app_inv_length {A} (a b c d : list A) :
  length a = length c -> a ++ b = c ++ d -> a = c /\ b = d.
Proof.
  revert c; induction a as [|x a IH]; intros [|y c] L E; cbn in *; try discriminate; auto.
  injection E as -> E. destruct (IH c) as [-> ->]; auto.
Qed.

Lemma blen_app {A} (a b : list A) : blen (a ++ b) = (blen a + blen b)%N.
Proof. unfold blen; rewrite app_length; lia. Qed.

Lemma firstn_app_exact {A} (a b : list A) : firstn (length a) (a ++ b) = a.
Proof. rewrite firstn_app, Nat.sub_diag, firstn_all; cbn; apply app_nil_r. Qed.

Lemma skipn_app_exact {A} (a b : list A) : skipn (length a) (a ++ b) = b.
Proof. rewrite skipn_app, Nat.sub_diag, skipn_all; reflexivity. Qed.

Lemma NoDup_app_iff {A} (a b : list A) :
  NoDup (a ++ b) <-> NoDup a /\ NoDup b /\ (forall x, In x a -> ~ In x b).
Proof.
  induction a as [|x a IH]; cbn.
  - split; [intros H; repeat split; auto; constructor|tauto].
  - rewrite !NoDup_cons_iff, IH, in_app_iff. split.
    + intros (H1 & H2 & H3 & H4). repeat split; auto. intros y [->|Hy]; auto.
    + intros ((H1 & H2) & H3 & H4). repeat split; auto.
      intros [Hx|Hx]; [tauto|]. exact (H4 x (or_introl eq_refl) Hx).
Qed.
