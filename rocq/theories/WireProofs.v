From Verif Require Import Base WireModel WireSpec.
Local Open Scope N_scope.

(** * Arithmetic on bytes and words *)

Lemma sweep (m : nat) (P : N -> bool) :
  forallb P (map N.of_nat (seq 0 m)) = true -> forall x, x < N.of_nat m -> P x = true.
Proof.
  intros H x Hx. rewrite forallb_forall in H. apply H.
  apply in_map_iff. exists (N.to_nat x). split; [lia|]. apply in_seq. lia.
Qed.

Lemma lor128 x : x < 256 -> N.lor x 128 = 128 + x mod 128.
Proof.
  intros H. apply N.eqb_eq.
  apply (sweep 256 (fun x => N.lor x 128 =? 128 + x mod 128)); [vm_compute; reflexivity|lia].
Qed.

Lemma land127 x : N.land x 127 = x mod 128.
Proof. change 127 with (N.ones 7). rewrite N.land_ones. reflexivity. Qed.

Lemma shiftr7 x : N.shiftr x 7 = x / 128.
Proof. rewrite N.shiftr_div_pow2. reflexivity. Qed.

Lemma b2n_byte_of v : b2n (byte_of v) = v mod 256.
Proof. unfold b2n, byte_of. apply N_ascii_embedding. lia. Qed.

Lemma b2n_lt b : b2n b < 256.
Proof. unfold b2n. apply N_ascii_bounded. Qed.

Lemma byte_of_b2n b : byte_of (b2n b) = b.
Proof.
  unfold byte_of. rewrite N.mod_small by apply b2n_lt. apply ascii_N_embedding.
Qed.

Lemma lor_shiftl_add v x s : v < 2 ^ s -> N.lor v (N.shiftl x s) = v + x * 2 ^ s.
Proof.
  intros Hv.
  assert (Hd : N.land v (N.shiftl x s) = 0).
  { apply N.bits_inj. intros n. rewrite N.land_spec, N.bits_0.
    destruct (N.ltb_spec n s) as [Hn|Hn].
    - rewrite N.shiftl_spec_low by assumption. apply andb_false_r.
    - assert (N.testbit v n = false) as ->; [|reflexivity].
      destruct (N.eq_dec v 0) as [->|Hv0]; [apply N.bits_0|].
      apply N.bits_above_log2. apply N.log2_lt_pow2; [lia|].
      eapply N.lt_le_trans; [exact Hv|]. apply N.pow_le_mono_r; lia. }
  rewrite <- (N.lxor_lor _ _ Hd), <- N.add_nocarry_lxor by assumption.
  rewrite N.shiftl_mul_pow2. reflexivity.
Qed.

(** * Varints *)

Lemma write_varint_loop_step f v : 128 <= v ->
  write_varint_loop (S f) v = byte_of (128 + v mod 128) :: write_varint_loop f (v / 128).
Proof.
  intros H. cbn [write_varint_loop]. destruct (N.leb_spec 128 v); [|lia].
  rewrite lor128 by lia. rewrite shiftr7. f_equal. f_equal. lia.
Qed.

Lemma varint_loop_rt k : forall v shift w rest,
  w < 2 ^ (7 * N.of_nat k) -> v < 2 ^ shift -> w * 2 ^ shift + v < two64 ->
  (0 < k)%nat ->
  read_varint_loop k v shift (write_varint_loop k w ++ rest) = ROk (v + w * 2 ^ shift) rest.
Proof.
  induction k as [|k IH]; intros v shift w rest Hw Hv Hsum Hk; [lia|].
  cbn [read_varint_loop write_varint_loop].
  destruct (N.leb_spec 128 w) as [Hge|Hlt]; cbn [app].
  - rewrite b2n_byte_of, lor128 by lia.
    replace (w mod 256 mod 128) with (w mod 128) by lia.
    replace ((128 + w mod 128) mod 256) with (128 + w mod 128) by lia.
    destruct (N.ltb_spec (128 + w mod 128) 128); [lia|].
    rewrite land127. replace ((128 + w mod 128) mod 128) with (w mod 128) by lia.
    assert (Hk' : (0 < k)%nat).
    { destruct k; [|lia]. cbn in Hw. lia. }
    replace (7 * N.of_nat (S k)) with (7 * N.of_nat k + 7) in Hw by lia.
    rewrite N.pow_add_r in Hw. change (2 ^ 7) with 128 in Hw.
    rewrite shiftr7.
    assert (Hdm : w = 128 * (w / 128) + w mod 128) by (apply N.div_mod; lia).
    assert (Hr : w mod 128 < 128) by (apply N.mod_lt; lia).
    set (q := w / 128) in *. set (r := w mod 128) in *. clearbody q r. subst w.
    assert (Hs : shift + 7 < 64).
    { destruct (N.le_gt_cases 64 (shift + 7)) as [Hbig|]; [|assumption]. exfalso.
      assert (H0 : 2 ^ 64 <= 2 ^ (shift + 7)) by (apply N.pow_le_mono_r; lia).
      rewrite N.pow_add_r in H0. change (2 ^ 7) with 128 in H0.
      change (2 ^ 64) with two64 in H0.
      assert (Hq : 1 <= q) by lia. clear - H0 Hsum Hq.
      set (p := 2 ^ shift) in *. clearbody p.
      assert (128 * p <= (128 * q + r) * p) by (apply N.mul_le_mono_r; lia). lia. }
    destruct (N.leb_spec 64 (shift + 7)); [lia|].
    assert (Hp7 : 2 ^ (shift + 7) = 2 ^ shift * 128) by (rewrite N.pow_add_r; reflexivity).
    rewrite N.mod_small.
    2:{ rewrite N.shiftl_mul_pow2. clear - Hsum. set (p := 2 ^ shift) in *. clearbody p.
        rewrite N.mul_add_distr_r in Hsum. lia. }
    rewrite lor_shiftl_add by assumption.
    rewrite IH; rewrite ?Hp7; try assumption.
    + f_equal. set (p := 2 ^ shift) in *. clearbody p. lia.
    + lia.
    + set (p := 2 ^ shift) in *. clearbody p.
      assert (r * p <= 127 * p) by (apply N.mul_le_mono_r; lia). lia.
    + set (p := 2 ^ shift) in *. clearbody p. lia.
  - rewrite b2n_byte_of. replace (w mod 256) with w by lia.
    destruct (N.ltb_spec w 128); [|lia].
    rewrite land127. replace (w mod 128) with w by lia.
    rewrite N.mod_small.
    2:{ rewrite N.shiftl_mul_pow2. lia. }
    rewrite lor_shiftl_add by assumption. reflexivity.
Qed.

Lemma varint_rt v rest : in_u64 v -> read_varint (write_varint v ++ rest) = ROk v rest.
Proof.
  unfold in_u64. intros H. unfold read_varint, write_varint.
  rewrite varint_loop_rt; [f_equal; lia| | | |lia].
  - eapply N.lt_trans; [exact H|]. vm_compute. reflexivity.
  - vm_compute; reflexivity.
  - unfold two64. lia.
Qed.

Lemma varint_loop_len k : forall v, (0 < k)%nat ->
  (1 <= length (write_varint_loop k v) <= k)%nat.
Proof.
  induction k as [|k IH]; intros v Hk; [lia|].
  cbn [write_varint_loop]. destruct (128 <=? v); cbn [length]; [|lia].
  destruct k; [cbn; lia|]. specialize (IH (N.shiftr v 7)). lia.
Qed.

Lemma varint_len v : (1 <= length (write_varint v) <= 10)%nat.
Proof. apply varint_loop_len. lia. Qed.

(** * Zig-zag *)

Lemma zigzag_val z : in_i64 z ->
  zigzag z = if (z <? 0)%Z then Z.to_N (-2 * z - 1) else Z.to_N (2 * z).
Proof.
  unfold in_i64, zigzag, u64_of_z, two64. intros Hz.
  rewrite Z.shiftl_mul_pow2, Z.shiftr_div_pow2 by lia.
  change (2 ^ 1)%Z with 2%Z. change (2 ^ 63)%Z with 9223372036854775808%Z.
  destruct (Z.ltb_spec z 0) as [Hneg|Hpos].
  - assert ((z / 9223372036854775808 = -1)%Z) as -> by lia.
    change (Z.to_N (-1 mod Z.of_N 18446744073709551616)) with (N.ones 64).
    assert (Hsmall : Z.to_N ((z * 2) mod Z.of_N 18446744073709551616) < 2 ^ 64).
    { change (2 ^ 64) with 18446744073709551616. lia. }
    change (N.lxor (Z.to_N ((z * 2) mod Z.of_N 18446744073709551616)) (N.ones 64))
      with (N.lnot (Z.to_N ((z * 2) mod Z.of_N 18446744073709551616)) 64).
    rewrite N.lnot_sub_low.
    + change (N.ones 64) with 18446744073709551615. lia.
    + destruct (N.eq_dec (Z.to_N ((z * 2) mod Z.of_N 18446744073709551616)) 0) as [->|H0];
        [vm_compute; reflexivity|].
      apply N.log2_lt_pow2; [lia|exact Hsmall].
  - assert ((z / 9223372036854775808 = 0)%Z) as -> by lia.
    change (Z.to_N (0 mod Z.of_N 18446744073709551616)) with 0.
    rewrite N.lxor_0_r. lia.
Qed.

Lemma zigzag_u64 z : in_i64 z -> in_u64 (zigzag z).
Proof.
  intros H. rewrite zigzag_val by assumption. unfold in_i64, in_u64 in *.
  destruct (Z.ltb_spec z 0); lia.
Qed.

Lemma lxor_m1 a : Z.lxor a (-1) = (- a - 1)%Z.
Proof. rewrite Z.lxor_m1_r. unfold Z.lnot. lia. Qed.

Lemma unzigzag_zigzag z : in_i64 z -> unzigzag (zigzag z) = z.
Proof.
  intros H. rewrite zigzag_val by assumption. unfold unzigzag, in_i64 in *.
  rewrite N.shiftr_div_pow2. change (2 ^ 1) with 2.
  replace (N.land (if (z <? 0)%Z then Z.to_N (-2 * z - 1) else Z.to_N (2 * z)) 1)
    with ((if (z <? 0)%Z then Z.to_N (-2 * z - 1) else Z.to_N (2 * z)) mod 2).
  2:{ change 1 with (N.ones 1). rewrite N.land_ones. reflexivity. }
  unfold i64_of_n, two64.
  destruct (Z.ltb_spec z 0) as [Hneg|Hpos].
  - assert (Z.to_N (-2 * z - 1) mod 2 = 1) as -> by lia.
    change (Z.of_N 1 mod Z.of_N 18446744073709551616)%Z with 1%Z.
    change (1 <? 9223372036854775808)%Z with true. cbv iota.
    change (- (1))%Z with (-1)%Z.
    replace (Z.of_N (Z.to_N (-2 * z - 1) / 2) mod Z.of_N 18446744073709551616)%Z
      with (- z - 1)%Z by lia.
    destruct (Z.ltb_spec (- z - 1) 9223372036854775808); [|lia].
    rewrite lxor_m1. lia.
  - assert (Z.to_N (2 * z) mod 2 = 0) as -> by lia.
    change (Z.of_N 0 mod Z.of_N 18446744073709551616)%Z with 0%Z.
    change (0 <? 9223372036854775808)%Z with true. cbv iota.
    change (- 0)%Z with 0%Z. rewrite Z.lxor_0_r.
    replace (Z.of_N (Z.to_N (2 * z) / 2) mod Z.of_N 18446744073709551616)%Z with z by lia.
    destruct (Z.ltb_spec z 9223372036854775808); [reflexivity|lia].
Qed.

Lemma svarint_rt z rest : in_i64 z -> read_svarint (write_svarint z ++ rest) = ROk z rest.
Proof.
  intros H. unfold read_svarint, write_svarint, bind.
  rewrite varint_rt by (apply zigzag_u64; assumption).
  unfold ret. rewrite unzigzag_zigzag by assumption. reflexivity.
Qed.

(** * Fixed-width little endian *)

Lemma le_enc_len k n : length (le_enc k n) = k.
Proof. revert n; induction k; intros n; cbn; [reflexivity|rewrite IHk; reflexivity]. Qed.

Lemma le_dec_enc k : forall n, le_dec (le_enc k n) = n mod 256 ^ N.of_nat k.
Proof.
  induction k as [|k IH]; intros n.
  - cbn. rewrite N.mod_1_r. reflexivity.
  - cbn [le_enc le_dec]. rewrite IH, b2n_byte_of, Nat2N.inj_succ, N.pow_succ_r'.
    rewrite N.mod_mul_r by (try apply N.pow_nonzero; lia). reflexivity.
Qed.

Lemma take_exact s rest : take (blen s) (s ++ rest) = ROk s rest.
Proof.
  unfold take. rewrite blen_app. destruct (N.leb_spec (blen s) (blen s + blen rest)); [|lia].
  unfold blen. rewrite Nat2N.id, firstn_app_exact, skipn_app_exact. reflexivity.
Qed.

Lemma take_len n s rest : n = blen s -> take n (s ++ rest) = ROk s rest.
Proof. intros ->; apply take_exact. Qed.

Lemma int64_rt z rest : in_i64 z -> read_int64 (write_int64 z ++ rest) = ROk z rest.
Proof.
  intros H. unfold read_int64, write_int64, bind.
  rewrite take_len by (unfold blen; rewrite le_enc_len; reflexivity).
  unfold ret. f_equal. rewrite le_dec_enc. change (256 ^ N.of_nat 8) with two64.
  unfold i64_of_n, u64_of_z, two64, in_i64 in *.
  match goal with |- context [(?a <? 9223372036854775808)%Z] =>
    destruct (Z.ltb_spec a 9223372036854775808) end; lia.
Qed.

Lemma f32_rt b rest : in_u32 b -> read_f32 (write_f32 b ++ rest) = ROk b rest.
Proof.
  intros H. unfold read_f32, write_f32, bind.
  rewrite take_len by (unfold blen; rewrite le_enc_len; reflexivity).
  unfold ret. f_equal. rewrite le_dec_enc. change (256 ^ N.of_nat 4) with 4294967296.
  apply N.mod_small. exact H.
Qed.

Lemma f64_rt b rest : in_u64 b -> read_f64 (write_f64 b ++ rest) = ROk b rest.
Proof.
  intros H. unfold read_f64, write_f64, bind.
  rewrite take_len by (unfold blen; rewrite le_enc_len; reflexivity).
  unfold ret. f_equal. rewrite le_dec_enc. change (256 ^ N.of_nat 8) with 18446744073709551616.
  apply N.mod_small. exact H.
Qed.

Lemma string_rt s rest : str_ok s -> read_string (write_string s ++ rest) = ROk s rest.
Proof.
  unfold str_ok. intros H. unfold read_string, write_string, bind.
  rewrite <- app_assoc, varint_rt by (unfold in_u64; lia).
  destruct (N.eqb_spec (blen s) 0) as [E|E].
  - unfold ret. destruct s; [reflexivity|]. unfold blen in E; cbn in E; lia.
  - destruct (N.ltb_spec 4294967295 (blen s)); [lia|]. apply take_exact.
Qed.

(** * Lists *)

Lemma read_n_rt {A C} (rd : reader A) (wr : C -> bytes) (g : C -> A) (l : list C) (rest : bytes) :
  Forall (fun c => forall r, rd (wr c ++ r) = ROk (g c) r) l ->
  read_n (length l) rd (flat_map wr l ++ rest) = ROk (map g l) rest.
Proof.
  induction l as [|c l IH]; intros H; [reflexivity|].
  inversion H; subst. cbn [length read_n flat_map map].
  unfold bind at 1. rewrite <- app_assoc, H2.
  unfold bind at 1. rewrite IH by assumption. reflexivity.
Qed.

Lemma read_slice_rt {A C} maxlen (rd : reader A) (wr : C -> bytes) (g : C -> A) (l : list C) rest :
  maxlen < two64 -> blen l <= maxlen ->
  Forall (fun c => forall r, rd (wr c ++ r) = ROk (g c) r) l ->
  read_slice maxlen rd ((write_varint (blen l) ++ flat_map wr l) ++ rest) = ROk (map g l) rest.
Proof.
  intros Hm Hl H. unfold read_slice, bind.
  rewrite <- app_assoc, varint_rt by (unfold in_u64, two64 in *; lia).
  destruct (N.ltb_spec maxlen (blen l)); [lia|].
  unfold blen. rewrite Nat2N.id. apply read_n_rt; assumption.
Qed.

(** ** Packed booleans *)

Lemma unpack_pack_gen bs : forall j,
  (j + length bs <= 8)%nat ->
  forall acc, acc < 2 ^ N.of_nat j ->
  unpack_byte (length bs) (N.of_nat j) (N.lor acc (pack_byte (N.of_nat j) bs)) = bs.
Proof.
  induction bs as [|b bs IH]; intros j Hj acc Hacc; [reflexivity|].
  cbn [length unpack_byte pack_byte].
  assert (Hhi : forall l k m, m < k -> N.testbit (pack_byte k l) m = false).
  { clear. induction l as [|b l IH]; intros k m Hm; cbn [pack_byte]; [apply N.bits_0|].
    rewrite N.lor_spec, IH by lia. destruct b; [|rewrite N.bits_0; reflexivity].
    rewrite N.shiftl_spec_low by assumption. reflexivity. }
  assert (Hbit : N.testbit acc (N.of_nat j) = false).
  { destruct (N.eq_dec acc 0) as [->|H0]; [apply N.bits_0|].
    apply N.bits_above_log2, N.log2_lt_pow2; [lia|assumption]. }
  f_equal.
  - rewrite N.shiftl_1_l.
    match goal with |- negb (N.land ?x _ =? 0) = _ => set (w := x) end.
    assert (Hw : N.testbit w (N.of_nat j) = b).
    { unfold w. rewrite !N.lor_spec, Hbit, Hhi by lia. cbn [orb].
      destruct b; [|rewrite N.bits_0; reflexivity].
      rewrite ?N.shiftl_1_l, N.pow2_bits_true. reflexivity. }
    destruct b.
    + destruct (N.eqb_spec (N.land w (2 ^ N.of_nat j)) 0) as [E|E]; [|reflexivity].
      exfalso. assert (X : N.testbit (N.land w (2 ^ N.of_nat j)) (N.of_nat j) = true)
        by (rewrite N.land_spec, Hw, N.pow2_bits_true; reflexivity).
      rewrite E, N.bits_0 in X. discriminate.
    + destruct (N.eqb_spec (N.land w (2 ^ N.of_nat j)) 0) as [E|E]; [reflexivity|].
      exfalso. apply E. apply N.bits_inj. intros m. rewrite N.land_spec, N.bits_0.
      destruct (N.eq_dec m (N.of_nat j)) as [->|Hne]; [rewrite Hw; reflexivity|].
      rewrite N.pow2_bits_false by congruence. apply andb_false_r.
  - replace (N.of_nat j + 1) with (N.of_nat (S j)) by lia.
    rewrite N.lor_assoc. apply IH; [cbn [length] in Hj; lia|].
    replace (N.of_nat (S j)) with (N.of_nat j + 1) by lia.
    assert (acc < 2 ^ (N.of_nat j + 1)).
    { eapply N.lt_le_trans; [exact Hacc|]. apply N.pow_le_mono_r; lia. }
    destruct b; [|rewrite N.lor_0_r; assumption].
    rewrite lor_shiftl_add by assumption. rewrite N.pow_add_r. change (2 ^ 1) with 2. nia.
Qed.

Lemma pack_byte_bound bs : forall j, (j + length bs <= 8)%nat -> pack_byte (N.of_nat j) bs < 256.
Proof.
  induction bs as [|b bs IH]; intros j Hj; cbn [pack_byte]; [lia|].
  cbn [length] in Hj.
  replace (N.of_nat j + 1) with (N.of_nat (S j)) by lia.
  specialize (IH (S j) ltac:(lia)).
  set (x := if b then N.shiftl 1 (N.of_nat j) else 0).
  assert (Hx : x < 256).
  { unfold x. destruct b; [|lia]. rewrite N.shiftl_1_l. change 256 with (2 ^ 8).
    apply N.pow_lt_mono_r; lia. }
  destruct (N.eq_dec (N.lor x (pack_byte (N.of_nat (S j)) bs)) 0) as [->|H0]; [lia|].
  change 256 with (2 ^ 8). apply N.log2_lt_pow2; [lia|].
  rewrite N.log2_lor.
  apply N.max_lub_lt.
  - destruct (N.eq_dec x 0) as [->|]; [cbn; lia|]. apply N.log2_lt_pow2; [lia|exact Hx].
  - destruct (N.eq_dec (pack_byte (N.of_nat (S j)) bs) 0) as [->|]; [cbn; lia|].
    apply N.log2_lt_pow2; [lia|exact IH].
Qed.

Lemma bools_rt f : forall g bs rest, (length bs <= f)%nat -> (length bs <= g)%nat ->
  read_bools g (length bs) (pack_bools f bs ++ rest) = ROk bs rest.
Proof.
  induction f as [|f IH]; intros g bs rest Hf Hg.
  - destruct bs; [|cbn in Hf; lia]. destruct g; reflexivity.
  - destruct bs as [|b bs']; [destruct g; reflexivity|].
    destruct g as [|g]; [cbn in Hg; lia|].
    set (bs := b :: bs') in *.
    change (pack_bools (S f) bs) with
      (byte_of (pack_byte 0 (firstn 8 bs)) :: pack_bools f (skipn 8 bs)).
    assert (Hlen : length bs = S (length bs')) by reflexivity.
    rewrite Hlen at 1. cbn [read_bools]. rewrite <- Hlen.
    unfold bind at 1. cbn [app read_byte].
    unfold bind at 1.
    replace (length bs - 8)%nat with (length (skipn 8 bs)) by (rewrite skipn_length; reflexivity).
    rewrite IH by (rewrite skipn_length; lia).
    unfold ret. f_equal.
    replace (Nat.min 8 (length bs)) with (length (firstn 8 bs)) by (rewrite firstn_length; reflexivity).
    rewrite b2n_byte_of, N.mod_small.
    2:{ apply (pack_byte_bound (firstn 8 bs) 0). rewrite firstn_length. lia. }
    rewrite <- (N.lor_0_l (pack_byte 0 (firstn 8 bs))).
    assert (Hu : unpack_byte (length (firstn 8 bs)) 0 (N.lor 0 (pack_byte 0 (firstn 8 bs))) = firstn 8 bs).
    { apply (unpack_pack_gen (firstn 8 bs) 0); [rewrite firstn_length; lia|cbn; lia]. }
    rewrite Hu. apply firstn_skipn.
Qed.

(** * Value trees *)

Lemma Forall_impl_in {A} (P Q : A -> Prop) l :
  Forall P l -> (forall a, In a l -> P a -> Q a) -> Forall Q l.
Proof. intros H HI. rewrite Forall_forall in *. intros a Ha. apply HI; auto. Qed.

Lemma map_id_on {A} (f : A -> A) l : Forall (fun a => f a = a) l -> map f l = l.
Proof. induction 1; cbn; congruence. Qed.

Lemma i32_id z : in_i32 z -> i32_of_z z = z.
Proof.
  unfold in_i32, i32_of_z. intros H.
  destruct (Z.ltb_spec (z mod 4294967296) 2147483648); lia.
Qed.
Lemma u32_id n : in_u32 n -> u32_of_n n = n.
Proof. unfold in_u32, u32_of_n, two32. intros; apply N.mod_small; assumption. Qed.
Lemma i32_i64 z : in_i32 z -> in_i64 z.
Proof. unfold in_i32, in_i64; lia. Qed.
Lemma u32_u64 z : in_u32 z -> in_u64 z.
Proof. unfold in_u32, in_u64; lia. Qed.

Ltac tagsel := rewrite b2n_byte_of; cbn [tag_of_prim tag_of_kind];
  repeat match goal with
  | |- context [(?a mod 256 =? ?b)] =>
      let r := eval vm_compute in (a mod 256 =? b) in
      change (a mod 256 =? b) with r; cbv iota; cbn [orb]
  end.

Lemma prim_rt maxlen rf p rest : maxlen < two64 -> prim_ok maxlen p ->
  read_value maxlen rf (enc_val (WPrim p) ++ rest) = ROk (p, []) rest.
Proof.
  intros Hm Hok. cbn [enc_val app].
  unfold read_value, bind at 1. cbn [read_byte].
  destruct p; tagsel; cbn [enc_payload prim_ok] in *.
  - reflexivity.
  - unfold bind, ret. cbn [app read_byte]. rewrite b2n_byte_of. destruct b; reflexivity.
  - unfold bind at 1. rewrite svarint_rt by (apply i32_i64; assumption).
    unfold ret. rewrite i32_id by assumption. reflexivity.
  - unfold bind at 1. rewrite svarint_rt by assumption. reflexivity.
  - unfold bind at 1. rewrite varint_rt by (apply u32_u64; assumption).
    unfold ret. rewrite u32_id by assumption. reflexivity.
  - unfold bind at 1. rewrite varint_rt by assumption. reflexivity.
  - unfold bind at 1. rewrite f32_rt by assumption. reflexivity.
  - unfold bind at 1. rewrite f64_rt by assumption. reflexivity.
  - destruct Hok as [H1 H2]. unfold bind at 1. rewrite <- app_assoc, f64_rt by assumption.
    unfold bind at 1. rewrite f64_rt by assumption. reflexivity.
  - unfold bind at 1. rewrite string_rt by assumption. reflexivity.
  - unfold bind at 1. unfold read_bool_slice, bind at 1.
    rewrite <- app_assoc, varint_rt by (unfold in_u64, two64 in *; lia).
    destruct (N.ltb_spec maxlen (blen l)); [lia|].
    unfold blen. rewrite Nat2N.id, bools_rt by lia. reflexivity.
  - unfold bind at 1. unfold read_bytes, bind at 1.
    rewrite <- app_assoc, varint_rt by (unfold in_u64, two64 in *; lia).
    destruct (N.eqb_spec (blen s) 0) as [E|E].
    + destruct s; [reflexivity|]. unfold blen in E; cbn in E; lia.
    + destruct (N.ltb_spec maxlen (blen s)); [lia|]. rewrite take_exact. reflexivity.
  - destruct Hok as [H1 H2]. unfold bind at 1.
    rewrite (read_slice_rt maxlen read_svarint write_svarint (fun z => z)); try assumption.
    + unfold ret. rewrite map_id, map_id_on; [reflexivity|].
      eapply Forall_impl; [|exact H2]. apply i32_id.
    + eapply Forall_impl; [|exact H2]. intros z Hz r. apply svarint_rt, i32_i64, Hz.
  - destruct Hok as [H1 H2]. unfold bind at 1.
    rewrite (read_slice_rt maxlen read_svarint write_svarint (fun z => z)); try assumption.
    + rewrite map_id. reflexivity.
    + eapply Forall_impl; [|exact H2]. intros z Hz r. apply svarint_rt, Hz.
  - destruct Hok as [H1 H2]. unfold bind at 1.
    rewrite (read_slice_rt maxlen read_varint write_varint (fun z => z)); try assumption.
    + unfold ret. rewrite map_id, map_id_on; [reflexivity|].
      eapply Forall_impl; [|exact H2]. apply u32_id.
    + eapply Forall_impl; [|exact H2]. intros z Hz r. apply varint_rt, u32_u64, Hz.
  - destruct Hok as [H1 H2]. unfold bind at 1.
    rewrite (read_slice_rt maxlen read_varint write_varint (fun z => z)); try assumption.
    + rewrite map_id. reflexivity.
    + eapply Forall_impl; [|exact H2]. intros z Hz r. apply varint_rt, Hz.
  - destruct Hok as [H1 H2]. unfold bind at 1.
    rewrite (read_slice_rt maxlen read_f32 write_f32 (fun z => z)); try assumption.
    + rewrite map_id. reflexivity.
    + eapply Forall_impl; [|exact H2]. intros z Hz r. apply f32_rt, Hz.
  - destruct Hok as [H1 H2]. unfold bind at 1.
    rewrite (read_slice_rt maxlen read_f64 write_f64 (fun z => z)); try assumption.
    + rewrite map_id. reflexivity.
    + eapply Forall_impl; [|exact H2]. intros z Hz r. apply f64_rt, Hz.
  - destruct Hok as [H1 H2]. unfold bind at 1.
    rewrite (read_slice_rt maxlen read_string write_string (fun z => z)); try assumption.
    + rewrite map_id. reflexivity.
    + eapply Forall_impl; [|exact H2]. intros z Hz r. apply string_rt, Hz.
Qed.

Section WvalInd.
  Variable P : wval -> Prop.
  Hypothesis Hp : forall p, P (WPrim p).
  Hypothesis Hn : forall k fs, Forall (fun f => P (snd f)) fs -> P (WNode k fs).
  Fixpoint wval_ind' (v : wval) : P v :=
    match v with
    | WPrim p => Hp p
    | WNode k fs => Hn k fs ((fix go (l : list wfield) : Forall (fun f => P (snd f)) l :=
        match l with
        | [] => Forall_nil _
        | f :: l' => Forall_cons f (match f return P (snd f) with (_, v') => wval_ind' v' end) (go l')
        end) fs)
    end.
End WvalInd.

Lemma list_max_in l x : In x l -> (x <= list_max l)%nat.
Proof.
  intros H. pose proof (proj1 (list_max_le l (list_max l)) (le_n _)) as F.
  rewrite Forall_forall in F. apply F; assumption.
Qed.

Lemma enc_val_node k fs : enc_val (WNode k fs) =
  byte_of (tag_of_kind k) :: write_varint (blen fs) ++ flat_map enc_field fs.
Proof. reflexivity. Qed.

Lemma val_rt maxlen v : maxlen < two64 -> val_ok maxlen v -> forall fuel rest,
  (wdepth v <= fuel)%nat ->
  read_value maxlen (read_field fuel maxlen) (enc_val v ++ rest) = ROk (view_val v) rest.
Proof.
  intros Hm. induction v as [p|k fs IH] using wval_ind'; intros Hok fuel rest Hd.
  - inversion Hok; subst. apply prim_rt; assumption.
  - inversion Hok as [|k' fs' Hk Hfs]; subst k' fs'.
    assert (Hbody : forall fuel', (wdepth (WNode k fs) <= fuel')%nat ->
              read_n (length fs) (read_field fuel' maxlen) (flat_map enc_field fs ++ rest)
              = ROk (map view_field fs) rest).
    { intros fuel' Hd'. apply read_n_rt. rewrite Forall_forall in IH, Hfs |- *.
      intros [[nm ty] v'] Hin r.
      specialize (IH _ Hin). specialize (Hfs _ Hin). cbn in IH, Hfs.
      destruct Hfs as (Hnm & Hty & Hv).
      assert (Hdv : (S (wdepth v') <= fuel')%nat).
      { eapply Nat.le_trans; [|exact Hd']. cbn [wdepth]. apply list_max_in. apply in_map_iff.
        exists ((nm, ty), v'). split; [reflexivity|assumption]. }
      destruct fuel' as [|f]; [lia|].
      cbn [read_field enc_field]. rewrite <- !app_assoc.
      unfold bind at 1. rewrite string_rt by assumption.
      unfold bind at 1. rewrite string_rt by assumption.
      unfold bind at 1. rewrite IH by (try assumption; lia). reflexivity. }
    rewrite enc_val_node.
    cbn [app]. unfold read_value, bind at 1. cbn [read_byte].
    specialize (Hbody fuel Hd).
    change (view_val (WNode k fs)) with (PNil, map view_field fs).
    destruct k; tagsel; cbn [kind_ok] in Hk; unfold bind at 1;
      rewrite <- app_assoc, varint_rt by (unfold in_u64, two64 in *; lia).
    + destruct (N.ltb_spec maxlen (blen fs)); [lia|].
      unfold bind at 1. replace (N.to_nat (blen fs)) with (length fs) by (unfold blen; lia). rewrite Hbody. reflexivity.
    + unfold make_panics. destruct (N.ltb_spec 281474976710656 (72 * blen fs)); [lia|].
      unfold bind at 1. replace (N.to_nat (blen fs)) with (length fs) by (unfold blen; lia). rewrite Hbody. reflexivity.
    + destruct (N.ltb_spec maxlen (blen fs)); [lia|].
      unfold bind at 1. replace (N.to_nat (blen fs)) with (length fs) by (unfold blen; lia). rewrite Hbody. reflexivity.
Qed.

Lemma field_rt maxlen f fuel rest : maxlen < two64 -> field_ok maxlen f -> (fdepth f < fuel)%nat ->
  read_field fuel maxlen (enc_field f ++ rest) = ROk (view_field f) rest.
Proof.
  intros Hm (Hnm & Hty & Hv) Hd. destruct f as [[nm ty] v]. unfold fdepth in Hd. cbn [fst snd] in *.
  destruct fuel as [|g]; [lia|]. cbn [read_field enc_field view_field]. rewrite <- !app_assoc.
  unfold bind at 1. rewrite string_rt by assumption.
  unfold bind at 1. rewrite string_rt by assumption.
  unfold bind at 1. rewrite val_rt by (try assumption; lia). reflexivity.
Qed.

Lemma fields_rt maxlen fs fuel rest : maxlen < two64 -> Forall (field_ok maxlen) fs ->
  blen fs < 4294967296 -> (list_max (map fdepth fs) < fuel)%nat ->
  read_fields fuel maxlen ((write_varint (blen fs) ++ flat_map enc_field fs) ++ rest)
  = ROk (map view_field fs) rest.
Proof.
  intros Hm Hok Hl Hd. unfold read_fields, bind.
  rewrite <- app_assoc, varint_rt by (unfold in_u64; lia).
  destruct (N.ltb_spec 4294967295 (blen fs)); [lia|].
  unfold blen. rewrite Nat2N.id. apply read_n_rt.
  rewrite Forall_forall in Hok |- *. intros f Hf r. apply field_rt; auto.
  eapply Nat.le_lt_trans; [|exact Hd]. apply list_max_in, in_map, Hf.
Qed.

(** * Stacks *)

Definition tbl_inv (t : tbl) : Prop :=
  forall s i, alookup (snd t) s = Some i -> nth_error (fst t) (N.to_nat i) = Some s.

Lemma tbl_add_inv t s : blen (fst t) < two32 -> tbl_inv t -> tbl_inv (tbl_add t s).
Proof.
  intros Hlen H. unfold tbl_add. destruct (alookup (snd t) s) eqn:E; [assumption|].
  intros s' i. cbn [fst snd alookup].
  destruct (beq_spec s' s) as [->|Hne].
  - intros [= <-]. unfold u32_of_n. rewrite N.mod_small by assumption. unfold blen.
    rewrite Nat2N.id, nth_error_app2, Nat.sub_diag by lia. reflexivity.
  - intros Hl. specialize (H _ _ Hl). rewrite nth_error_app1; [assumption|].
    apply nth_error_Some. congruence.
Qed.

Lemma tbl_add_len t s : (length (fst (tbl_add t s)) <= S (length (fst t)))%nat.
Proof.
  unfold tbl_add. destruct (alookup (snd t) s); [lia|]. cbn [fst]. rewrite app_length. cbn; lia.
Qed.

Lemma tbl_add_has t s : alookup (snd (tbl_add t s)) s <> None.
Proof.
  unfold tbl_add. destruct (alookup (snd t) s) eqn:E; [congruence|].
  cbn. rewrite beq_refl. discriminate.
Qed.

Lemma tbl_add_keep t s s' : alookup (snd t) s' <> None -> alookup (snd (tbl_add t s)) s' <> None.
Proof.
  intros H. unfold tbl_add. destruct (alookup (snd t) s) eqn:E; [assumption|].
  cbn. destruct (beq s' s); [discriminate|assumption].
Qed.

Lemma tbl_fold_spec fs : forall t,
  tbl_inv t -> (length (fst t) + 2 * length fs <= 4096)%nat ->
  let t' := fold_left tbl_add_frame fs t in
  tbl_inv t' /\ (length (fst t') <= length (fst t) + 2 * length fs)%nat /\
  (forall s, alookup (snd t) s <> None -> alookup (snd t') s <> None) /\
  (forall f, In f fs -> alookup (snd t') (fr_file f) <> None /\ alookup (snd t') (fr_func f) <> None).
Proof.
  induction fs as [|f fs IH]; intros t Hinv Hlen; cbn [fold_left].
  - cbn. repeat split; auto; try lia; intros ? [].
  - cbn [length] in Hlen.
    pose proof (tbl_add_len t (fr_file f)) as L1.
    pose proof (tbl_add_len (tbl_add t (fr_file f)) (fr_func f)) as L2.
    assert (Hinv' : tbl_inv (tbl_add_frame t f)).
    { unfold tbl_add_frame.
      apply tbl_add_inv; [unfold blen, two32; lia|].
      apply tbl_add_inv; [unfold blen, two32; lia|assumption]. }
    unfold tbl_add_frame in *.
    destruct (IH (tbl_add (tbl_add t (fr_file f)) (fr_func f)) Hinv' ltac:(lia)) as (I1 & I2 & I3 & I4).
    repeat split; auto.
    + cbn [length]. lia.
    + intros s Hs. apply I3, tbl_add_keep, tbl_add_keep, Hs.
    + destruct H as [<-|Hin]; [|apply I4, Hin]. apply I3, tbl_add_keep, tbl_add_has.
    + destruct H as [<-|Hin]; [|apply I4, Hin]. apply I3, tbl_add_has.
Qed.

Lemma tbl_add_strs (P : bytes -> Prop) t s :
  Forall P (fst t) -> P s -> Forall P (fst (tbl_add t s)).
Proof.
  intros H Hs. unfold tbl_add. destruct (alookup (snd t) s); [assumption|].
  cbn. apply Forall_app. split; [assumption|constructor; auto].
Qed.

Lemma tbl_fold_strs fs : forall t, Forall str_ok (fst t) -> Forall frame_ok fs ->
  Forall str_ok (fst (fold_left tbl_add_frame fs t)).
Proof.
  induction fs as [|f fs IH]; intros t Ht Hf; [assumption|].
  inversion Hf; subst. destruct H1 as (F1 & F2 & _). cbn [fold_left]. apply IH; [|assumption].
  unfold tbl_add_frame. apply tbl_add_strs; [apply tbl_add_strs|]; assumption.
Qed.

Lemma stack_rt fs rest : stack_ok fs -> read_stack (write_stack fs ++ rest) = ROk fs rest.
Proof.
  intros [Hlen Hok]. unfold read_stack, write_stack, bind at 1.
  rewrite <- app_assoc, varint_rt by (unfold in_u64; lia).
  destruct (N.ltb_spec 2048 (blen fs)); [lia|].
  destruct (N.eqb_spec (blen fs) 0) as [E|E].
  { destruct fs; [reflexivity|]. unfold blen in E; cbn in E; lia. }
  destruct fs as [|f0 fs0] eqn:Efs; [cbn in E; lia|]. rewrite <- Efs in *. clear Efs f0 fs0.
  set (t := build_tbl fs).
  destruct (tbl_fold_spec fs ([], [])) as (I1 & I2 & I3 & I4).
  { intros s i; cbn; discriminate. }
  { unfold blen in Hlen. cbn [fst length]. lia. }
  fold (build_tbl fs) in I1, I2, I3, I4. fold t in I1, I2, I3, I4. cbn [fst length] in I2.
  pose proof (tbl_fold_strs fs ([], []) (Forall_nil _) Hok) as Hstrs.
  fold (build_tbl fs) in Hstrs. fold t in Hstrs.
  unfold bind at 1. rewrite <- !app_assoc, varint_rt by (unfold in_u64, blen in *; lia).
  destruct (N.ltb_spec (blen fs * 2) (blen (fst t))); [unfold blen in *; lia|].
  unfold bind at 1.
  replace (N.to_nat (blen (fst t))) with (length (fst t)) by (unfold blen; lia).
  rewrite (read_n_rt read_string write_string (fun s => s)).
  2:{ eapply Forall_impl; [|exact Hstrs]. intros s Hs r; apply string_rt, Hs. }
  rewrite map_id.
  replace (N.to_nat (blen fs)) with (length fs) by (unfold blen; lia).
  replace (ROk fs rest) with (ROk (map (fun f : frame => f) fs) rest) by (rewrite map_id; reflexivity).
  apply read_n_rt. rewrite Forall_forall in Hok |- *. intros f Hf r.
  destruct (Hok f Hf) as (F1 & F2 & F3). destruct (I4 f Hf) as [A1 A2].
  unfold read_frame, tbl_idx.
  destruct (alookup (snd t) (fr_file f)) as [i1|] eqn:E1; [|congruence].
  destruct (alookup (snd t) (fr_func f)) as [i2|] eqn:E2; [|congruence].
  pose proof (I1 _ _ E1) as N1. pose proof (I1 _ _ E2) as N2.
  assert (L1 : (N.to_nat i1 < length (fst t))%nat) by (apply nth_error_Some; congruence).
  assert (L2 : (N.to_nat i2 < length (fst t))%nat) by (apply nth_error_Some; congruence).
  unfold bind at 1. rewrite <- !app_assoc, varint_rt by (unfold in_u64, blen in *; lia).
  destruct (N.leb_spec (blen (fst t)) i1); [unfold blen in *; lia|].
  unfold bind at 1. rewrite varint_rt by (unfold in_u64, blen in *; lia).
  destruct (N.leb_spec (blen (fst t)) i2); [unfold blen in *; lia|].
  unfold bind at 1. rewrite varint_rt by assumption.
  rewrite N1, N2. destruct f; reflexivity.
Qed.
