From Verif Require Import Base WireModel WireSpec WireGrammar WireProofs.
Local Open Scope N_scope.

(** * Readers that accept exactly a language *)

Definition exact {A} (d : reader A) (R : bytes -> A -> Prop) : Prop :=
  (forall i a r, d i = ROk a r -> exists c, i = c ++ r /\ R c a) /\
  (forall c a r, R c a -> d (c ++ r) = ROk a r).

Lemma exact_weaken {A} (d : reader A) (R R' : bytes -> A -> Prop) :
  exact d R -> (forall c a, R c a <-> R' c a) -> exact d R'.
Proof.
  intros [S C] H. split.
  - intros i a r E. destruct (S _ _ _ E) as (c & -> & Hc). exists c. split; [reflexivity|]. apply H, Hc.
  - intros c a r Hc. apply C, H, Hc.
Qed.

Lemma exact_ret {A} (a : A) : exact (ret a) (fun c b => c = [] /\ b = a).
Proof.
  split.
  - intros i b r [= -> ->]. exists []. auto.
  - intros c b r [-> ->]. reflexivity.
Qed.

Lemma exact_fail {A} : exact (@fail A) (fun _ _ => False).
Proof. split; [discriminate|intros ? ? ? []]. Qed.

Lemma exact_panic {A} : exact (@panic A) (fun _ _ => False).
Proof. split; [discriminate|intros ? ? ? []]. Qed.

Lemma exact_bind {A C} (m : reader A) (k : A -> reader C) R1 R2 :
  exact m R1 -> (forall a, exact (k a) (R2 a)) ->
  exact (bind m k) (fun c b => exists c1 c2 a, c = c1 ++ c2 /\ R1 c1 a /\ R2 a c2 b).
Proof.
  intros [S1 C1] H2. split.
  - intros i b r E. unfold bind in E. destruct (m i) as [a r1| | |] eqn:E1; try discriminate.
    destruct (S1 _ _ _ E1) as (c1 & -> & Hc1).
    destruct (H2 a) as [S2 _]. destruct (S2 _ _ _ E) as (c2 & -> & Hc2).
    exists (c1 ++ c2). split; [apply app_assoc|]. exists c1, c2, a. auto.
  - intros c b r (c1 & c2 & a & -> & Hc1 & Hc2). unfold bind.
    rewrite <- app_assoc, (C1 _ _ _ Hc1). destruct (H2 a) as [_ C2]. apply C2, Hc2.
Qed.

Lemma exact_if {A} (b : bool) (m1 m2 : reader A) R1 R2 :
  exact m1 R1 -> exact m2 R2 ->
  exact (if b then m1 else m2) (fun c a => if b then R1 c a else R2 c a).
Proof. destruct b; auto. Qed.

(** [map]-like continuation. *)
Lemma exact_fmap {A C} (m : reader A) (g : A -> C) R :
  exact m R -> exact (a <- m ;; ret (g a)) (fun c b => exists a, R c a /\ b = g a).
Proof.
  intros H. eapply exact_weaken.
  - apply exact_bind; [exact H|]. intros a. apply exact_ret.
  - intros c b; cbn. split.
    + intros (c1 & c2 & a & -> & H1 & -> & ->). rewrite app_nil_r. exists a; auto.
    + intros (a & H1 & ->). exists c, [], a. rewrite app_nil_r. auto.
Qed.

Lemma exact_take n : exact (take n) (fun c s => c = s /\ blen s = n).
Proof.
  split.
  - intros i a r. unfold take. destruct (N.leb_spec n (blen i)) as [Hl|]; [|discriminate].
    intros [= <- <-]. exists (firstn (N.to_nat n) i). split; [symmetry; apply firstn_skipn|].
    split; [reflexivity|]. unfold blen in *. rewrite firstn_length. lia.
  - intros c a r [-> <-]. apply take_exact.
Qed.

Lemma exact_read_byte : exact read_byte (fun c n => exists b, c = [b] /\ n = N_of_ascii b).
Proof.
  split.
  - intros [|b i] a r; [discriminate|]. intros [= <- <-]. exists [b]. split; [reflexivity|].
    exists b; auto.
  - intros c a r (b & -> & ->). reflexivity.
Qed.

Lemma exact_read_n {A} n (rd : reader A) R : exact rd R ->
  exact (read_n n rd) (fun c l => length l = n /\ seq_bytes R c l).
Proof.
  intros H. induction n as [|n IH]; cbn [read_n].
  - eapply exact_weaken; [apply exact_ret|]. intros c l; cbn. split.
    + intros [-> ->]. split; [reflexivity|constructor].
    + intros [Hl Hs]. inversion Hs; subst; [auto|discriminate].
  - eapply exact_weaken.
    + apply exact_bind; [exact H|]. intros a. apply exact_bind; [exact IH|]. intros l. apply exact_ret.
    + intros c l; cbn. split.
      * intros (c1 & c2 & a & -> & H1 & c3 & c4 & l' & -> & (Hl & Hs) & -> & ->).
        rewrite app_nil_r. split; [cbn; lia|]. constructor; assumption.
      * intros [Hl Hs]. inversion Hs as [|b bs a l' Hb Hbs E1 E2]; subst; [discriminate|].
        exists b, bs, a. split; [reflexivity|]. split; [assumption|].
        exists bs, [], l'. rewrite app_nil_r. cbn in Hl. auto.
Qed.

(** * Varints, exactly *)

Lemma lor_mod_add v a s : s < 64 -> v < 2 ^ s ->
  N.lor v (N.shiftl a s mod two64) = (v + a * 2 ^ s) mod two64.
Proof.
  intros Hs Hv.
  assert (Hp : two64 = 2 ^ s * 2 ^ (64 - s)).
  { rewrite <- N.pow_add_r. replace (s + (64 - s)) with 64 by lia. reflexivity. }
  assert (H0 : 2 ^ s <> 0) by (apply N.pow_nonzero; lia).
  assert (H1 : 2 ^ (64 - s) <> 0) by (apply N.pow_nonzero; lia).
  assert (E : N.shiftl a s mod two64 = N.shiftl (a mod 2 ^ (64 - s)) s).
  { rewrite !N.shiftl_mul_pow2, Hp, (N.mul_comm a), (N.mul_comm (a mod _)).
    apply N.mul_mod_distr_l; assumption. }
  rewrite E, lor_shiftl_add by assumption.
  assert (Ha : a mod 2 ^ (64 - s) < 2 ^ (64 - s)) by (apply N.mod_lt; assumption).
  rewrite N.add_mod by discriminate.
  assert (E2 : (a * 2 ^ s) mod two64 = a mod 2 ^ (64 - s) * 2 ^ s).
  { rewrite <- N.shiftl_mul_pow2, E, N.shiftl_mul_pow2. reflexivity. }
  rewrite E2.
  set (x := a mod 2 ^ (64 - s)) in *. clearbody x. rewrite Hp.
  set (p := 2 ^ s) in *. set (q := 2 ^ (64 - s)) in *. clearbody p q.
  clear - Hv H1 Ha.
  assert (Hxq : (x + 1) * p <= q * p) by (apply N.mul_le_mono_r; lia).
  rewrite N.mul_add_distr_r, N.mul_1_l in Hxq.
  rewrite (N.mul_comm p q).
  set (qp := q * p) in *. set (xp := x * p) in *. clearbody qp xp.
  rewrite (N.mod_small v) by lia.
  rewrite N.mod_small; [reflexivity|]. lia.
Qed.

Lemma leb_nonempty c n : leb c n -> c <> [].
Proof. inversion 1; discriminate. Qed.

Lemma varint_loop_complete c n : leb c n -> forall k v s rest,
  (length c <= k)%nat -> s + 7 * N.of_nat k = 70 -> v < 2 ^ s ->
  read_varint_loop k v s (c ++ rest) = ROk ((v + n * 2 ^ s) mod two64) rest.
Proof.
  induction 1 as [b Hb|b bs n Hb Hl IH]; intros k v s rest Hk Hs Hv.
  - destruct k as [|k]; [cbn in Hk; lia|]. cbn [app read_varint_loop].
    rewrite land127, lor_mod_add by (try assumption; lia).
    rewrite (N.mod_small (b2n b)) by assumption.
    destruct (N.ltb_spec (b2n b) 128); [reflexivity|lia].
  - pose proof (leb_nonempty _ _ Hl) as Hne.
    destruct k as [|[|k]]; [cbn in Hk; lia| |].
    { destruct bs; [congruence|cbn in Hk; lia]. }
    pose proof (b2n_lt b) as Hbl.
    remember (S k) as k'. cbn [app read_varint_loop].
    destruct (N.ltb_spec (b2n b) 128); [lia|].
    destruct (N.leb_spec 64 (s + 7)); [lia|].
    rewrite land127, lor_mod_add by (try assumption; lia).
    assert (Ea : b2n b mod 128 = b2n b - 128) by lia. rewrite Ea.
    assert (Hp : 2 ^ (s + 7) = 128 * 2 ^ s) by (rewrite N.pow_add_r; change (2^7) with 128; lia).
    assert (Hsmall : v + (b2n b - 128) * 2 ^ s < 2 ^ (s + 7)).
    { rewrite Hp. set (p := 2 ^ s) in *. clearbody p.
      assert ((b2n b - 128) * p <= 127 * p) by (apply N.mul_le_mono_r; lia). lia. }
    assert (Hbig : 2 ^ (s + 7) <= two64).
    { change two64 with (2 ^ 64). apply N.pow_le_mono_r; lia. }
    rewrite N.mod_small by lia.
    rewrite IH; [|cbn in Hk; lia|lia|assumption].
    f_equal. f_equal. rewrite Hp. set (p := 2 ^ s) in *. clearbody p.
    set (x := b2n b - 128) in *. clearbody x. lia.
Qed.

Lemma varint_loop_sound k : forall v s i w r,
  s + 7 * N.of_nat k = 70 -> v < 2 ^ s ->
  read_varint_loop k v s i = ROk w r ->
  exists c n, i = c ++ r /\ leb c n /\ (length c <= k)%nat /\ w = (v + n * 2 ^ s) mod two64.
Proof.
  induction k as [|k IH]; intros v s i w r Hs Hv; [discriminate|].
  cbn [read_varint_loop]. destruct i as [|b i]; [discriminate|].
  pose proof (b2n_lt b) as Hbl.
  rewrite land127, lor_mod_add by (try assumption; lia).
  destruct (N.ltb_spec (b2n b) 128) as [Hlt|Hge].
  - intros [= <- <-]. exists [b], (b2n b). rewrite (N.mod_small (b2n b)) by assumption.
    repeat split; [constructor; assumption|cbn; lia].
  - destruct (N.leb_spec 64 (s + 7)) as [|Hs7]; [discriminate|]. intros E.
    assert (Ea : b2n b mod 128 = b2n b - 128) by lia. rewrite Ea in E.
    assert (Hp : 2 ^ (s + 7) = 128 * 2 ^ s) by (rewrite N.pow_add_r; change (2^7) with 128; lia).
    assert (Hsmall : v + (b2n b - 128) * 2 ^ s < 2 ^ (s + 7)).
    { rewrite Hp. set (p := 2 ^ s) in *. clearbody p.
      assert ((b2n b - 128) * p <= 127 * p) by (apply N.mul_le_mono_r; lia). lia. }
    assert (Hbig : 2 ^ (s + 7) <= two64).
    { change two64 with (2 ^ 64). apply N.pow_le_mono_r; lia. }
    rewrite N.mod_small in E by lia.
    apply IH in E; [|lia|assumption].
    destruct E as (c & n & -> & Hc & Hlen & ->).
    exists (b :: c), (b2n b - 128 + 128 * n). split; [reflexivity|].
    split; [constructor; assumption|]. split; [cbn; lia|].
    f_equal. rewrite Hp. set (p := 2 ^ s) in *. clearbody p.
    set (x := b2n b - 128) in *. clearbody x. lia.
Qed.

Lemma exact_varint : exact read_varint varint_bytes.
Proof.
  split.
  - intros i a r E. apply varint_loop_sound in E; [|reflexivity|cbn; lia].
    destruct E as (c & n & -> & Hc & Hl & ->). exists c. split; [reflexivity|].
    exists n. rewrite N.pow_0_r, N.mul_1_r, N.add_0_l. auto.
  - intros c a r (n & Hc & Hl & ->). unfold read_varint.
    rewrite (varint_loop_complete c n Hc); [|assumption|reflexivity|cbn; lia].
    rewrite N.pow_0_r, N.mul_1_r, N.add_0_l. reflexivity.
Qed.

Lemma varint_bytes_u64 c v : varint_bytes c v -> in_u64 v.
Proof. intros (n & _ & _ & ->). unfold in_u64. lia. Qed.

Lemma varint_bytes_nonempty c v : varint_bytes c v -> c <> [].
Proof. intros (n & H & _). eapply leb_nonempty, H. Qed.

Lemma unzigzag_unzig n : in_u64 n -> unzigzag n = unzig n.
Proof.
  unfold in_u64, unzigzag, unzig. intros H.
  rewrite N.shiftr_div_pow2. change (2 ^ 1) with 2.
  assert (E : N.land n 1 = n mod 2).
  { change 1 with (N.ones 1). rewrite N.land_ones. reflexivity. }
  rewrite E. unfold i64_of_n, two64.
  destruct (N.even n) eqn:Ev.
  - apply N.even_spec in Ev. destruct Ev as [m ->].
    replace ((2 * m) mod 2) with 0 by lia.
    change (Z.of_N 0 mod Z.of_N 18446744073709551616)%Z with 0%Z.
    change (0 <? 9223372036854775808)%Z with true. cbv iota.
    change (- 0)%Z with 0%Z. rewrite Z.lxor_0_r.
    match goal with |- context [(?a <? 9223372036854775808)%Z] =>
      destruct (Z.ltb_spec a 9223372036854775808) end; lia.
  - assert (Eo : N.odd n = true) by (rewrite <- N.negb_even, Ev; reflexivity).
    apply N.odd_spec in Eo. destruct Eo as [m ->].
    replace ((2 * m + 1) mod 2) with 1 by lia.
    change (Z.of_N 1 mod Z.of_N 18446744073709551616)%Z with 1%Z.
    change (1 <? 9223372036854775808)%Z with true. cbv iota.
    change (- (1))%Z with (-1)%Z. rewrite lxor_m1.
    match goal with |- context [(?a <? 9223372036854775808)%Z] =>
      destruct (Z.ltb_spec a 9223372036854775808) end; lia.
Qed.

Lemma exact_svarint : exact read_svarint svarint_bytes.
Proof.
  eapply exact_weaken; [apply exact_fmap, exact_varint|].
  intros c z; cbn. split; intros (n & H & ->); exists n; split; auto;
    rewrite unzigzag_unzig by (eapply varint_bytes_u64; exact H); reflexivity.
Qed.

Lemma exact_string : exact read_string string_bytes.
Proof.
  eapply exact_weaken.
  - apply exact_bind; [apply exact_varint|]. intros n.
    apply exact_if; [apply exact_ret|]. apply exact_if; [apply exact_fail|apply exact_take].
  - intros c s; cbn. unfold string_bytes. split.
    + intros (c1 & c2 & n & -> & H1 & H2).
      destruct (N.eqb_spec n 0) as [->|Hn].
      * destruct H2 as [-> ->]. exists c1. repeat split; auto; cbn; lia.
      * destruct (N.ltb_spec 4294967295 n); [contradiction|]. destruct H2 as [-> H2].
        exists c1. rewrite H2. repeat split; auto. lia.
    + intros (hd & H1 & H2 & ->). exists hd, s, (blen s). repeat split; auto.
      destruct (N.eqb_spec (blen s) 0) as [E|E].
      * destruct s; [auto|]. unfold blen in E; cbn in E; lia.
      * destruct (N.ltb_spec 4294967295 (blen s)); [lia|]. auto.
Qed.

Lemma exact_slice {A} maxlen (rd : reader A) R : exact rd R ->
  exact (read_slice maxlen rd) (counted R maxlen).
Proof.
  intros H. eapply exact_weaken.
  - apply exact_bind; [apply exact_varint|]. intros n.
    apply exact_if; [apply exact_fail|apply exact_read_n, H].
  - intros c l; cbn. unfold counted. split.
    + intros (c1 & c2 & n & -> & H1 & H2). destruct (N.ltb_spec maxlen n); [contradiction|].
      destruct H2 as [Hl Hs]. exists c1, c2.
      assert (blen l = n) as -> by (unfold blen; lia). auto.
    + intros (hd & body & -> & H1 & H2 & H3). exists hd, body, (blen l).
      repeat split; auto. destruct (N.ltb_spec maxlen (blen l)); [lia|].
      split; [unfold blen; lia|assumption].
Qed.

Lemma seq_bytes_fmap {A C} (R : bytes -> A -> Prop) (g : A -> C) c l :
  (exists l', seq_bytes R c l' /\ l = map g l') <->
  seq_bytes (fun b x => exists a, R b a /\ x = g a) c l.
Proof.
  split.
  - intros (l' & H & ->). induction H; cbn; constructor; eauto.
  - induction 1 as [|b bs x l (a & Ha & ->) Hl (l' & IH & ->)].
    + exists []. split; [constructor|reflexivity].
    + exists (a :: l'). split; [constructor; assumption|reflexivity].
Qed.

Lemma counted_fmap {A C} (R : bytes -> A -> Prop) (g : A -> C) lim c l :
  (exists l', counted R lim c l' /\ l = map g l') <->
  counted (fun b x => exists a, R b a /\ x = g a) lim c l.
Proof.
  unfold counted. split.
  - intros (l' & (hd & body & -> & H1 & H2 & H3) & ->). exists hd, body.
    replace (blen (map g l')) with (blen l') by (unfold blen; rewrite map_length; reflexivity).
    repeat split; auto. apply seq_bytes_fmap. eauto.
  - intros (hd & body & -> & H1 & H2 & H3). apply seq_bytes_fmap in H3.
    destruct H3 as (l' & H3 & ->). exists l'. split; [|reflexivity]. exists hd, body.
    replace (blen (map g l')) with (blen l') in * by (unfold blen; rewrite map_length; reflexivity).
    auto.
Qed.

Lemma wraps_i32_fun z w : wraps_i32 z w <-> w = i32_of_z z.
Proof.
  unfold wraps_i32, in_i32, i32_of_z. split.
  - intros [Hw [k ->]]. destruct (Z.ltb_spec ((w + k * 4294967296) mod 4294967296) 2147483648); lia.
  - intros ->. destruct (Z.ltb_spec (z mod 4294967296) 2147483648).
    + split; [lia|]. exists (z / 4294967296)%Z. lia.
    + split; [lia|]. exists (z / 4294967296 + 1)%Z. lia.
Qed.

Lemma le_value_dec bs : le_dec bs = le_value bs.
Proof. induction bs; cbn; [reflexivity|]. rewrite IHbs. reflexivity. Qed.

Lemma exact_fixed k : exact (b <- take (N.of_nat k) ;; ret (le_dec b)) (fixed_bytes k).
Proof.
  eapply exact_weaken; [apply exact_fmap, exact_take|].
  intros c v; cbn. unfold fixed_bytes. split.
  - intros (s & (-> & Hl) & ->). rewrite le_value_dec. split; [unfold blen in Hl; lia|reflexivity].
  - intros [Hl ->]. exists c. rewrite <- le_value_dec. repeat split. unfold blen; lia.
Qed.

Lemma exact_f32 : exact read_f32 (fixed_bytes 4).
Proof. exact (exact_fixed 4). Qed.
Lemma exact_f64 : exact read_f64 (fixed_bytes 8).
Proof. exact (exact_fixed 8). Qed.

(** ** Packed booleans, exactly *)

Lemma negb_land_bit b j : negb (N.land b (N.shiftl 1 j) =? 0) = N.testbit b j.
Proof.
  rewrite N.shiftl_1_l. destruct (N.testbit b j) eqn:E.
  - destruct (N.eqb_spec (N.land b (2 ^ j)) 0) as [H|]; [|reflexivity].
    assert (X : N.testbit (N.land b (2 ^ j)) j = true)
      by (rewrite N.land_spec, E, N.pow2_bits_true; reflexivity).
    rewrite H, N.bits_0 in X. discriminate.
  - destruct (N.eqb_spec (N.land b (2 ^ j)) 0) as [|H]; [reflexivity|].
    exfalso. apply H. apply N.bits_inj. intros m. rewrite N.land_spec, N.bits_0.
    destruct (N.eq_dec m j) as [->|Hne]; [rewrite E; reflexivity|].
    rewrite N.pow2_bits_false by congruence. apply andb_false_r.
Qed.

Lemma unpack_byte_spec k : forall j b i, (i < k)%nat ->
  nth_error (unpack_byte k j b) i = Some (N.testbit b (j + N.of_nat i)).
Proof.
  induction k as [|k IH]; intros j b i Hi; [lia|]. cbn [unpack_byte].
  destruct i as [|i]; cbn [nth_error].
  - rewrite negb_land_bit. do 2 f_equal. lia.
  - rewrite IH by lia. do 2 f_equal. lia.
Qed.

Lemma unpack_byte_len k j b : length (unpack_byte k j b) = k.
Proof. revert j; induction k; intros; cbn; auto. Qed.

Lemma nth_error_ext {A} (l l' : list A) : (forall i, nth_error l i = nth_error l' i) -> l = l'.
Proof.
  revert l'; induction l as [|a l IH]; intros [|a' l'] H; auto.
  - specialize (H 0%nat); discriminate.
  - specialize (H 0%nat); discriminate.
  - pose proof (H 0%nat) as H0. cbn in H0. injection H0 as ->. f_equal. apply IH.
    intros i. exact (H (S i)).
Qed.

Lemma bools_bytes_nil c : bools_bytes c [] <-> c = [].
Proof.
  unfold bools_bytes. split.
  - intros [H _]. destruct c; [reflexivity|discriminate].
  - intros ->. split; [reflexivity|]. intros [|i] b H; discriminate.
Qed.

(** Splitting off the first byte: 8 (or all) booleans and the rest. *)
Lemma bools_bytes_cons c l n : length l = S n ->
  bools_bytes c l <->
  exists b c', c = b :: c' /\
    firstn 8 l = unpack_byte (Nat.min 8 (S n)) 0 (N_of_ascii b) /\ bools_bytes c' (skipn 8 l).
Proof.
  intros Hn. unfold bools_bytes. rewrite skipn_length, Hn.
  split.
  - intros [Hl Hb]. destruct c as [|b c'].
    { cbn [length] in Hl. exfalso. lia. }
    exists b, c'. split; [reflexivity|]. split.
    + apply nth_error_ext. intros i.
      destruct (Nat.lt_ge_cases i (Nat.min 8 (S n))) as [Hi|Hi].
      * rewrite unpack_byte_spec by assumption.
        destruct (nth_error l i) as [x|] eqn:E.
        2:{ apply nth_error_None in E. lia. }
        destruct (Hb _ _ E) as (c & Hc & Hx).
        assert (Ei : (i / 8 = 0)%nat) by lia. assert (Em : (i mod 8 = i)%nat) by lia.
        rewrite Ei in Hc. cbn in Hc. injection Hc as <-. rewrite Em in Hx.
        rewrite N.add_0_l, Hx.
        rewrite <- (firstn_skipn 8 l) in E.
        rewrite nth_error_app1 in E; [assumption|]. rewrite firstn_length. lia.
      * rewrite (proj2 (nth_error_None _ _)), (proj2 (nth_error_None _ _)); auto;
          rewrite ?unpack_byte_len, ?firstn_length; lia.
    + split; [cbn [length] in Hl; lia|]. intros i x E.
      assert (E' : nth_error l (8 + i) = Some x).
      { rewrite <- (firstn_skipn 8 l). rewrite nth_error_app2; rewrite firstn_length.
        - rewrite <- E. f_equal.
          assert (i < length (skipn 8 l))%nat by (apply nth_error_Some; congruence).
          rewrite skipn_length in H. lia.
        - lia. }
      destruct (Hb _ _ E') as (c & Hc & Hx).
      replace ((8 + i) / 8)%nat with (S (i / 8)) in Hc by lia.
      replace ((8 + i) mod 8)%nat with (i mod 8)%nat in Hx by lia.
      exists c. auto.
  - intros (b & c' & -> & Hf & Hl & Hb). split; [cbn [length]; lia|].
    intros i x E. destruct (Nat.lt_ge_cases i 8) as [Hi|Hi].
    + assert (Hil : (i < length l)%nat) by (apply nth_error_Some; congruence).
      exists b. replace (i / 8)%nat with 0%nat by lia. split; [reflexivity|].
      replace (i mod 8)%nat with i by lia.
      assert (E2 : nth_error (firstn 8 l) i = Some x).
      { rewrite <- (firstn_skipn 8 l) in E. rewrite nth_error_app1 in E; [assumption|].
        rewrite firstn_length. lia. }
      rewrite Hf, unpack_byte_spec in E2 by lia. rewrite N.add_0_l in E2. congruence.
    + assert (E2 : nth_error (skipn 8 l) (i - 8) = Some x).
      { assert (Hil : (i < length l)%nat) by (apply nth_error_Some; congruence).
        rewrite <- (firstn_skipn 8 l) in E. rewrite nth_error_app2 in E; rewrite firstn_length in *; [|lia].
        rewrite <- E. f_equal. lia. }
      destruct (Hb _ _ E2) as (c & Hc & Hx). exists c.
      replace (i / 8)%nat with (S ((i - 8) / 8)) by lia.
      replace (i mod 8)%nat with ((i - 8) mod 8)%nat by lia. auto.
Qed.

Lemma exact_bools f : forall n, (n <= f)%nat ->
  exact (read_bools f n) (fun c l => length l = n /\ bools_bytes c l).
Proof.
  induction f as [|f IH]; intros n Hn.
  - destruct n; [|lia]. cbn [read_bools]. eapply exact_weaken; [apply exact_ret|].
    intros c l; cbn. split.
    + intros [-> ->]. split; [reflexivity|]. apply bools_bytes_nil; reflexivity.
    + intros [Hl Hb]. destruct l; [|discriminate]. apply bools_bytes_nil in Hb. auto.
  - destruct n as [|n].
    { cbn [read_bools]. eapply exact_weaken; [apply exact_ret|].
      intros c l; cbn. split.
      + intros [-> ->]. split; [reflexivity|]. apply bools_bytes_nil; reflexivity.
      + intros [Hl Hb]. destruct l; [|discriminate]. apply bools_bytes_nil in Hb. auto. }
    cbn [read_bools]. eapply exact_weaken.
    + apply exact_bind; [apply exact_read_byte|]. intros b.
      apply exact_fmap. apply IH. lia.
    + intros c l; cbn beta. split.
      * intros (c1 & c2 & n0 & -> & (b & -> & ->) & l' & (Hl' & Hb') & ->).
        assert (Hlen : length (unpack_byte (Nat.min 8 (S n)) 0 (N_of_ascii b) ++ l') = S n).
        { rewrite app_length, unpack_byte_len. lia. }
        split; [exact Hlen|]. rewrite (bools_bytes_cons _ _ n Hlen).
        exists b, c2. split; [reflexivity|].
        destruct (Nat.le_gt_cases 8 (S n)) as [H8|H8].
        -- rewrite Nat.min_l in * by lia. split.
           ++ rewrite firstn_app, unpack_byte_len, Nat.sub_diag, firstn_O.
              rewrite app_nil_r, firstn_all2 by (rewrite unpack_byte_len; lia). reflexivity.
           ++ rewrite skipn_app, unpack_byte_len, Nat.sub_diag, skipn_all2
                by (rewrite unpack_byte_len; lia). exact Hb'.
        -- rewrite Nat.min_r in * by lia.
           assert (l' = []) as -> by (destruct l'; [reflexivity|cbn in Hl'; lia]).
           rewrite app_nil_r. split.
           ++ rewrite firstn_all2 by (rewrite unpack_byte_len; lia). reflexivity.
           ++ rewrite skipn_all2 by (rewrite unpack_byte_len; lia). exact Hb'.
      * intros [Hl Hb]. rewrite (bools_bytes_cons _ _ n Hl) in Hb.
        destruct Hb as (b & c' & -> & Hf & Hb).
        exists [b], c', (N_of_ascii b). split; [reflexivity|]. split; [eauto|].
        exists (skipn 8 l). rewrite skipn_length, Hl. repeat split; auto.
        -- apply Hb.
        -- apply Hb.
        -- rewrite <- Hf. symmetry. apply firstn_skipn.
Qed.

Lemma exact_bool_slice maxlen : exact (read_bool_slice maxlen)
  (fun c l => exists hd body, c = hd ++ body /\ varint_bytes hd (blen l) /\ blen l <= maxlen /\
                  bools_bytes body l).
Proof.
  eapply exact_weaken.
  - apply exact_bind; [apply exact_varint|]. intros n.
    apply exact_if; [apply exact_fail|apply (exact_bools (N.to_nat n)); lia].
  - intros c l; cbn beta. split.
    + intros (c1 & c2 & n & -> & H1 & H2). destruct (N.ltb_spec maxlen n); [contradiction|].
      destruct H2 as [Hl Hs]. exists c1, c2.
      assert (blen l = n) as -> by (unfold blen; lia). auto.
    + intros (hd & body & -> & H1 & H2 & H3). exists hd, body, (blen l).
      split; [reflexivity|]. split; [assumption|]. destruct (N.ltb_spec maxlen (blen l)); [lia|].
      split; [unfold blen; lia|assumption].
Qed.

Lemma exact_bytes maxlen : exact (read_bytes maxlen)
  (fun c s => exists hd, c = hd ++ s /\ varint_bytes hd (blen s) /\ blen s <= maxlen).
Proof.
  eapply exact_weaken.
  - apply exact_bind; [apply exact_varint|]. intros n.
    apply exact_if; [apply exact_ret|]. apply exact_if; [apply exact_fail|apply exact_take].
  - intros c s; cbn beta. split.
    + intros (c1 & c2 & n & -> & H1 & H2).
      destruct (N.eqb_spec n 0) as [->|Hn].
      * destruct H2 as [-> ->]. exists c1. repeat split; auto; cbn; lia.
      * destruct (N.ltb_spec maxlen n); [contradiction|]. destruct H2 as [-> H2].
        exists c1. rewrite H2. auto.
    + intros (hd & -> & H1 & H2). exists hd, s, (blen s). split; [reflexivity|]. split; [assumption|].
      destruct (N.eqb_spec (blen s) 0) as [E|E].
      * destruct s; [auto|]. unfold blen in E; cbn in E; lia.
      * destruct (N.ltb_spec maxlen (blen s)); [lia|]. auto.
Qed.

(** * Values, exactly *)

(** The language of field readers of nesting fuel [f]. *)
Definition R_val (maxlen : N) (f : nat) (c : bytes) (x : prim * list lfield) : Prop :=
  exists v, view_val v = x /\ (wdepth v <= f)%nat /\ gr_val maxlen v c.
Definition R_field (maxlen : N) (f : nat) (c : bytes) (x : lfield) : Prop :=
  exists w, view_field w = x /\ (fdepth w < f)%nat /\ gr_fields maxlen [w] c.

Lemma gr_fields_app maxlen fs gs c d :
  gr_fields maxlen fs c -> gr_fields maxlen gs d -> gr_fields maxlen (fs ++ gs) (c ++ d).
Proof.
  intros H Hd. induction H; cbn [app]; [assumption|].
  rewrite <- app_assoc. constructor; assumption.
Qed.

Lemma seq_R_field maxlen f c l :
  seq_bytes (R_field maxlen f) c l <->
  exists fs, map view_field fs = l /\ Forall (fun w => (fdepth w < f)%nat) fs /\ gr_fields maxlen fs c.
Proof.
  split.
  - induction 1 as [|b bs a l (w & <- & Hw & Hg) Hl (fs & <- & Hfs & Hgs)].
    + exists []. repeat split; constructor.
    + exists (w :: fs). split; [reflexivity|]. split; [constructor; assumption|].
      apply (gr_fields_app maxlen [w]); assumption.
  - intros (fs & <- & Hfs & Hg). induction Hg as [|nm ty v fs bn bt bv bs H1 H2 H3 H4 IH].
    + constructor.
    + inversion Hfs; subst. cbn [map]. constructor; [|apply IH; assumption].
      exists ((nm, ty), v). repeat split; auto.
      rewrite <- (app_nil_r (bn ++ bt ++ bv)). constructor; auto. constructor.
Qed.

Definition R_prim (maxlen : N) (mk : prim -> Prop) (c : bytes) (x : prim * list lfield) : Prop :=
  exists p, x = (p, []) /\ mk p /\ gr_prim maxlen p c.

Ltac prim_case H :=
  eapply exact_weaken; [apply exact_fmap, H|];
  intros c x; cbn beta; unfold R_prim.

Lemma read_value_exact maxlen f rf :
  exact rf (R_field maxlen f) -> exact (read_value maxlen rf) (R_val maxlen f).
Proof.
  intros Hrf.
  assert (Hnode : forall k (chk : N -> bool) (bad : reader (prim * list lfield)),
    (forall n, chk n = false <-> kind_ok maxlen k n) -> exact bad (fun _ _ => False) ->
    exact (n <- read_varint ;; if chk n then bad else c <- read_n (N.to_nat n) rf ;; ret (PNil, c))
      (fun c x => exists fs, x = view_val (WNode k fs) /\ Forall (fun w => (fdepth w < f)%nat) fs /\
         exists hd body, c = hd ++ body /\ varint_bytes hd (blen fs) /\ kind_ok maxlen k (blen fs) /\
           gr_fields maxlen fs body)).
  { intros k chk bad Hchk Hbad. eapply exact_weaken.
    - apply exact_bind; [apply exact_varint|]. intros n.
      apply exact_if; [exact Hbad|]. apply exact_fmap, exact_read_n, Hrf.
    - intros c x; cbn beta. split.
      + intros (c1 & c2 & n & -> & H1 & H2). destruct (chk n) eqn:En; [contradiction|].
        apply Hchk in En. destruct H2 as (l & (Hl & Hs) & ->). apply seq_R_field in Hs.
        destruct Hs as (fs & <- & Hfs & Hg). exists fs. split; [reflexivity|]. split; [assumption|].
        rewrite map_length in Hl.
        assert (n = blen fs) as -> by (unfold blen; lia).
        exists c1, c2. auto.
      + intros (fs & -> & Hfs & hd & body & -> & H1 & H2 & H3).
        exists hd, body, (blen fs). split; [reflexivity|]. split; [assumption|].
        apply Hchk in H2. rewrite H2. exists (map view_field fs). split; [|reflexivity].
        split; [rewrite map_length; symmetry; apply Nat2N.id|]. apply seq_R_field. eauto. }
  assert (HM := Hnode KMap (fun n => maxlen <? n) fail
     ltac:(intros n; cbn; lia) exact_fail).
  assert (HS := Hnode KSlice (fun n => maxlen <? n) fail
     ltac:(intros n; cbn; lia) exact_fail).
  assert (HT := Hnode KStruct make_panics panic
     ltac:(intros n; unfold make_panics; cbn; lia) exact_panic).
  clear Hnode.
  eapply exact_weaken.
  - unfold read_value. apply exact_bind; [apply exact_read_byte|]. intros tag.
    apply exact_if; [apply exact_ret|].
    apply exact_if; [apply exact_fmap, exact_read_byte|].
    apply exact_if; [apply exact_fmap, exact_svarint|].
    apply exact_if; [apply exact_fmap, exact_svarint|].
    apply exact_if; [apply exact_fmap, exact_varint|].
    apply exact_if; [apply exact_fmap, exact_varint|].
    apply exact_if; [apply exact_fmap, exact_f32|].
    apply exact_if; [apply exact_fmap, exact_f64|].
    apply exact_if; [apply exact_bind; [apply exact_f64|intros re; apply exact_fmap, exact_f64]|].
    apply exact_if; [apply exact_fmap, exact_string|].
    apply exact_if; [apply exact_fmap, exact_bool_slice|].
    apply exact_if; [apply exact_fmap, exact_bytes|].
    apply exact_if; [apply exact_fmap, exact_slice, exact_svarint|].
    apply exact_if; [apply exact_fmap, exact_slice, exact_svarint|].
    apply exact_if; [apply exact_fmap, exact_slice, exact_varint|].
    apply exact_if; [apply exact_fmap, exact_slice, exact_varint|].
    apply exact_if; [apply exact_fmap, exact_slice, exact_f32|].
    apply exact_if; [apply exact_fmap, exact_slice, exact_f64|].
    apply exact_if; [apply exact_fmap, exact_slice, exact_string|].
    apply exact_if.
    + (* map and slice share one branch; the kind is recovered from the tag below *)
      apply HM.
    + apply exact_if; [apply HT|apply exact_fail].
  - intros c x; cbn beta. clear HM HS HT Hrf. split.
    + intros (c1 & c2 & tag & -> & (t & -> & ->) & H). unfold R_val.
      assert (Hp : forall p, x = (p, []) -> N_of_ascii t = tag_of_prim p -> gr_prim maxlen p c2 ->
        exists v, view_val v = x /\ (wdepth v <= f)%nat /\ gr_val maxlen v ([t] ++ c2)).
      { intros p -> Ht Hg. exists (WPrim p). repeat split; [cbn; lia|]. constructor; assumption. }
      destruct (N.eqb_spec (N_of_ascii t) 0) as [Et|_].
      { destruct H as [-> ->]. eapply Hp; [reflexivity|exact Et|reflexivity]. }
      destruct (N.eqb_spec (N_of_ascii t) 1) as [Et|_].
      { destruct H as (a & (b & -> & ->) & ->). eapply Hp; [reflexivity|exact Et|].
        exists b. split; [reflexivity|]. destruct (N.eqb_spec (N_of_ascii b) 0); cbn; intuition congruence. }
      destruct (N.eqb_spec (N_of_ascii t) 2) as [Et|_].
      { destruct H as (a & H & ->). eapply Hp; [reflexivity|exact Et|].
        exists a. split; [assumption|]. apply wraps_i32_fun. reflexivity. }
      destruct (N.eqb_spec (N_of_ascii t) 3) as [Et|_].
      { destruct H as (a & H & ->). eapply Hp; [reflexivity|exact Et|exact H]. }
      destruct (N.eqb_spec (N_of_ascii t) 4) as [Et|_].
      { destruct H as (a & H & ->). eapply Hp; [reflexivity|exact Et|]. exists a. auto. }
      destruct (N.eqb_spec (N_of_ascii t) 5) as [Et|_].
      { destruct H as (a & H & ->). eapply Hp; [reflexivity|exact Et|exact H]. }
      destruct (N.eqb_spec (N_of_ascii t) 6) as [Et|_].
      { destruct H as (a & H & ->). eapply Hp; [reflexivity|exact Et|exact H]. }
      destruct (N.eqb_spec (N_of_ascii t) 7) as [Et|_].
      { destruct H as (a & H & ->). eapply Hp; [reflexivity|exact Et|exact H]. }
      destruct (N.eqb_spec (N_of_ascii t) 8) as [Et|_].
      { destruct H as (b1 & b2 & a & -> & H1 & a2 & H2 & ->). eapply Hp; [reflexivity|exact Et|].
        exists b1, b2. auto. }
      destruct (N.eqb_spec (N_of_ascii t) 9) as [Et|_].
      { destruct H as (a & H & ->). eapply Hp; [reflexivity|exact Et|exact H]. }
      destruct (N.eqb_spec (N_of_ascii t) 32) as [Et|_].
      { destruct H as (a & H & ->). eapply Hp; [reflexivity|exact Et|exact H]. }
      destruct (N.eqb_spec (N_of_ascii t) 33) as [Et|_].
      { destruct H as (a & H & ->). eapply Hp; [reflexivity|exact Et|exact H]. }
      destruct (N.eqb_spec (N_of_ascii t) 34) as [Et|_].
      { destruct H as (a & H & ->). eapply Hp; [reflexivity|exact Et|].
        cbn [gr_prim]. 
        assert (Hc : counted (fun b z => exists w, svarint_bytes b w /\ z = i32_of_z w) maxlen c2 (map i32_of_z a))
          by (apply counted_fmap; eauto).
        destruct Hc as (hd & body & -> & K1 & K2 & K3). exists hd, body. repeat split; auto.
        clear - K3. induction K3 as [|b bs a0 l (w & Hw & ->) _ IH]; constructor; auto.
        exists w. split; [assumption|]. apply wraps_i32_fun. reflexivity. }
      destruct (N.eqb_spec (N_of_ascii t) 35) as [Et|_].
      { destruct H as (a & H & ->). eapply Hp; [reflexivity|exact Et|exact H]. }
      destruct (N.eqb_spec (N_of_ascii t) 36) as [Et|_].
      { destruct H as (a & H & ->). eapply Hp; [reflexivity|exact Et|].
        cbn [gr_prim]. apply counted_fmap. exists a. auto. }
      destruct (N.eqb_spec (N_of_ascii t) 37) as [Et|_].
      { destruct H as (a & H & ->). eapply Hp; [reflexivity|exact Et|exact H]. }
      destruct (N.eqb_spec (N_of_ascii t) 38) as [Et|_].
      { destruct H as (a & H & ->). eapply Hp; [reflexivity|exact Et|exact H]. }
      destruct (N.eqb_spec (N_of_ascii t) 39) as [Et|_].
      { destruct H as (a & H & ->). eapply Hp; [reflexivity|exact Et|exact H]. }
      destruct (N.eqb_spec (N_of_ascii t) 40) as [Et|_].
      { destruct H as (a & H & ->). eapply Hp; [reflexivity|exact Et|exact H]. }
      clear Hp.
      assert (Hd : forall fs k, Forall (fun w => (fdepth w < f)%nat) fs -> (wdepth (WNode k fs) <= f)%nat).
      { clear. intros fs k H. cbn [wdepth]. apply list_max_le.
        rewrite Forall_forall in *. intros x Hx. apply in_map_iff in Hx.
        destruct Hx as ([[nm ty] v] & <- & Hin). specialize (H _ Hin). unfold fdepth in H. cbn in H. lia. }
      destruct ((N_of_ascii t =? 66) || (N_of_ascii t =? 64)) eqn:E2.
      { destruct H as (fs & -> & Hfs & hd & body & -> & H1 & H2 & H3).
        apply orb_true_iff in E2. destruct E2 as [E2|E2]; apply N.eqb_eq in E2.
        - exists (WNode KSlice fs). split; [reflexivity|]. split; [apply Hd; assumption|].
          cbn [app]. constructor; auto.
        - exists (WNode KMap fs). split; [reflexivity|]. split; [apply Hd; assumption|].
          cbn [app]. constructor; auto. }
      destruct (N.eqb_spec (N_of_ascii t) 65) as [Et|_]; [|contradiction].
      destruct H as (fs & -> & Hfs & hd & body & -> & H1 & H2 & H3).
      exists (WNode KStruct fs). split; [reflexivity|]. split; [apply Hd; assumption|].
      cbn [app]. constructor; auto.
    + intros (v & <- & Hd & Hg). inversion Hg as [p t bs Ht Hp|k fs t hd body Ht H1 H2 H3]; subst.
      * exists [t], bs, (N_of_ascii t). split; [reflexivity|]. split; [eauto|].
        rewrite Ht. clear Hg Ht Hd.
        destruct p; cbn [tag_of_prim N.eqb Pos.eqb orb view_val gr_prim] in *.
        -- auto.
        -- destruct Hp as (d & -> & Hb). exists (N_of_ascii d). split; [eauto|].
           do 2 f_equal. destruct (N.eqb_spec (N_of_ascii d) 0); destruct b; cbn; intuition congruence.
        -- destruct Hp as (w & Hw & Hz). exists w. split; [assumption|].
           apply wraps_i32_fun in Hz. subst. reflexivity.
        -- eauto.
        -- destruct Hp as (w & Hw & ->). exists w. auto.
        -- eauto.
        -- eauto.
        -- eauto.
        -- destruct Hp as (b1 & b2 & -> & Ha & Hb). exists b1, b2, re. eauto 6.
        -- eauto.
        -- eauto.
        -- eauto.
        -- assert (Hc : counted (fun b z => exists w, svarint_bytes b w /\ z = i32_of_z w) maxlen bs l).
           { destruct Hp as (hd & body & -> & K1 & K2 & K3). exists hd, body. repeat split; auto.
             clear - K3. induction K3 as [|b bs a0 l (w & Hw & Hz) _ IH]; constructor; auto.
             exists w. split; [assumption|]. apply wraps_i32_fun. exact Hz. }
           apply counted_fmap in Hc. destruct Hc as (l' & Hc & ->). eauto.
        -- eauto.
        -- apply counted_fmap in Hp. destruct Hp as (l' & Hp & ->). eauto.
        -- eauto.
        -- eauto.
        -- eauto.
        -- eauto.
      * exists [t], (hd ++ body), (N_of_ascii t). split; [reflexivity|]. split; [eauto|].
        rewrite Ht.
        assert (Hfs : Forall (fun w => (fdepth w < f)%nat) fs).
        { rewrite Forall_forall. intros w Hw. cbn [wdepth] in Hd.
          pose proof (proj1 (list_max_le _ _) Hd) as HF. rewrite Forall_forall in HF.
          destruct w as [[nm ty] v]. unfold fdepth; cbn [snd].
          specialize (HF (S (wdepth v))). apply HF. apply in_map_iff.
          exists ((nm, ty), v). split; [reflexivity|assumption]. }
        destruct k; cbn [tag_of_kind N.eqb Pos.eqb orb].
        -- exists fs. split; [reflexivity|]. split; [assumption|]. eauto 8.
        -- exists fs. split; [reflexivity|]. split; [assumption|]. eauto 8.
        -- exists fs. split; [reflexivity|]. split; [assumption|]. eauto 8.
Qed.
