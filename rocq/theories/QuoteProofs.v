(** Lemmas about strconv.Quote. *)
From Verif Require Import Base QuoteModel.
Local Open Scope N_scope.
Ltac Zify.zify_post_hook ::= Z.div_mod_to_equations.

Lemma val_of x : x < 256 -> N_of_ascii (ascii_of_N x) = x.
Proof. apply N_ascii_embedding. Qed.
Lemma of_val c : ascii_of_N (N_of_ascii c) = c.
Proof. apply ascii_N_embedding. Qed.
Lemma byte_small (c : ascii) : N_of_ascii c < 256.
Proof. apply N_ascii_bounded. Qed.
Lemma cont_iff c : cont c = true <-> 128 <= N_of_ascii c <= 191.
Proof. unfold cont. rewrite andb_true_iff, !N.leb_le. tauto. Qed.

(** A code point that is there: its bytes are the ones of its encoding. *)
Lemma rune_there s r w : s <> [] -> rune_at s = (r, w) -> ~ (r = 65533 /\ w = 1%nat) ->
  valid_rune r = true /\ length (enc_rune r) = w /\ s = enc_rune r ++ skipn w s.
Proof.
  intros Ne E Nb. destruct s as [| a s1]; [contradiction |]. cbn [rune_at] in E. cbv zeta in E. pose proof (byte_small a) as Ba.
  assert (Bad : (65533, 1%nat) = (r, w) -> False) by (intros X; injection X as <- <-; apply Nb; split; reflexivity).
  assert (V : forall x, x < 55296 \/ 57344 <= x <= 1114111 -> valid_rune x = true).
  { intros x Hx. unfold valid_rune. destruct (N.ltb_spec x 55296); [reflexivity |]. destruct (N.leb_spec 57344 x); [| lia]. destruct (N.leb_spec x 1114111); [reflexivity | lia]. }
  destruct (N.ltb_spec (N_of_ascii a) 128) as [L1 | L1].
  { injection E as <- <-. split; [apply V; lia |]. unfold enc_rune. destruct (N.ltb_spec (N_of_ascii a) 128); [| lia]. cbn [map length app skipn]. rewrite of_val. split; reflexivity. }
  destruct (N.ltb_spec (N_of_ascii a) 194) as [L2 | L2]; [destruct (Bad E) |]. destruct s1 as [| b s2]; [destruct (Bad E) |].
  pose proof (byte_small b) as Bb. destruct (N.ltb_spec (N_of_ascii a) 224) as [L3 | L3].
  { destruct (cont b) eqn:Cb; [| destruct (Bad E)]. apply cont_iff in Cb. apply pair_equal_spec in E as [Er <-]. symmetry in Er.
    assert (R1 : 128 <= r < 2048) by lia. split; [apply V; lia |]. unfold enc_rune. destruct (N.ltb_spec r 128); [lia |]. destruct (N.ltb_spec r 2048); [| lia].
    cbn [map length app skipn]. split; [reflexivity |]. replace (192 + r / 64) with (N_of_ascii a) by lia. replace (128 + r mod 64) with (N_of_ascii b) by lia. rewrite !of_val. reflexivity. }
  destruct s2 as [| c s3]; [destruct (Bad E) |]. pose proof (byte_small c) as Bc. destruct (N.ltb_spec (N_of_ascii a) 240) as [L4 | L4].
  { destruct (cont b && cont c && (if N_of_ascii a =? 224 then 160 <=? N_of_ascii b else true) && (if N_of_ascii a =? 237 then N_of_ascii b <=? 159 else true))%bool eqn:G; [| destruct (Bad E)].
    apply andb_true_iff in G as [G G4]. apply andb_true_iff in G as [G G3]. apply andb_true_iff in G as [Cb Cc]. apply cont_iff in Cb, Cc.
    apply pair_equal_spec in E as [Er <-]. symmetry in Er.
    assert (H3 : N_of_ascii a = 224 -> 160 <= N_of_ascii b) by (intros X; rewrite X in G3; apply N.leb_le, G3).
    assert (H4 : N_of_ascii a = 237 -> N_of_ascii b <= 159) by (intros X; rewrite X in G4; apply N.leb_le, G4).
    clear G3 G4 L1 L2. assert (R1 : 2048 <= r < 65536) by lia.
    split; [apply V; destruct (N.lt_trichotomy (N_of_ascii a) 237) as [X | [X | X]]; [left; lia | left; specialize (H4 X); lia | right; lia] |]. unfold enc_rune. destruct (N.ltb_spec r 128); [lia |]. destruct (N.ltb_spec r 2048); [lia |]. destruct (N.ltb_spec r 65536); [| lia].
    cbn [map length app skipn]. split; [reflexivity |]. replace (224 + r / 4096) with (N_of_ascii a) by lia. replace (128 + (r / 64) mod 64) with (N_of_ascii b) by lia. replace (128 + r mod 64) with (N_of_ascii c) by lia. rewrite !of_val. reflexivity. }
  destruct s3 as [| d s4]; [destruct (Bad E) |]. pose proof (byte_small d) as Bd.
  destruct ((N_of_ascii a <? 245) && cont b && cont c && cont d && (if N_of_ascii a =? 240 then 144 <=? N_of_ascii b else true) && (if N_of_ascii a =? 244 then N_of_ascii b <=? 143 else true))%bool eqn:G; [| destruct (Bad E)].
  apply andb_true_iff in G as [G G6]. apply andb_true_iff in G as [G G5]. apply andb_true_iff in G as [G Cd]. apply andb_true_iff in G as [G Cc]. apply andb_true_iff in G as [G Cb]. apply cont_iff in Cb, Cc, Cd. apply N.ltb_lt in G.
  apply pair_equal_spec in E as [Er <-]. symmetry in Er.
  assert (H5 : N_of_ascii a = 240 -> 144 <= N_of_ascii b) by (intros X; rewrite X in G5; apply N.leb_le, G5).
  assert (H6 : N_of_ascii a = 244 -> N_of_ascii b <= 143) by (intros X; rewrite X in G6; apply N.leb_le, G6).
  clear G5 G6 L1 L2 L3. assert (R1 : 65536 <= r <= 1114111) by lia.
  split; [apply V; lia |]. unfold enc_rune. destruct (N.ltb_spec r 128); [lia |]. destruct (N.ltb_spec r 2048); [lia |]. destruct (N.ltb_spec r 65536); [lia |].
  cbn [map length app skipn]. split; [reflexivity |]. replace (240 + r / 262144) with (N_of_ascii a) by lia. replace (128 + (r / 4096) mod 64) with (N_of_ascii b) by lia. replace (128 + (r / 64) mod 64) with (N_of_ascii c) by lia. replace (128 + r mod 64) with (N_of_ascii d) by lia. rewrite !of_val. reflexivity.
Qed.
(** The encoding of a code point is read as that one, whatever follows. *)
Lemma rune_back r t : valid_rune r = true -> rune_at (enc_rune r ++ t) = (r, length (enc_rune r)).
Proof.
  intros V. unfold valid_rune in V. apply orb_true_iff in V. rewrite andb_true_iff, N.ltb_lt, !N.leb_le in V. unfold enc_rune.
  destruct (N.ltb_spec r 128) as [L1 | L1].
  { cbn [map app length]. unfold rune_at. rewrite val_of by lia. destruct (N.ltb_spec r 128); [reflexivity | lia]. }
  destruct (N.ltb_spec r 2048) as [L2 | L2].
  { cbn [map app length]. unfold rune_at, cont. rewrite !val_of by lia.
    destruct (N.ltb_spec (192 + r / 64) 128); [lia |]. destruct (N.ltb_spec (192 + r / 64) 194); [lia |]. destruct (N.ltb_spec (192 + r / 64) 224); [| lia].
    destruct (N.leb_spec 128 (128 + r mod 64)); [| lia]. destruct (N.leb_spec (128 + r mod 64) 191); [| lia]. cbn [andb]. f_equal. lia. }
  destruct (N.ltb_spec r 65536) as [L3 | L3].
  { cbn [map app length]. unfold rune_at, cont. rewrite !val_of by lia. set (x := 224 + r / 4096). set (y := 128 + (r / 64) mod 64). set (z := 128 + r mod 64).
    assert (Hx : 224 <= x < 240) by lia. assert (Hy : 128 <= y <= 191) by lia. assert (Hz : 128 <= z <= 191) by lia.
    assert (Hr : r = 4096 * (x - 224) + 64 * (y - 128) + (z - 128)) by lia. clearbody x y z.
    destruct (N.ltb_spec x 128); [lia |]. destruct (N.ltb_spec x 194); [lia |]. destruct (N.ltb_spec x 224); [lia |]. destruct (N.ltb_spec x 240); [| lia].
    destruct (N.leb_spec 128 y); [| lia]. destruct (N.leb_spec y 191); [| lia]. destruct (N.leb_spec 128 z); [| lia]. destruct (N.leb_spec z 191); [| lia]. cbn [andb].
    destruct (N.eqb_spec x 224) as [Ex | Ex]; [destruct (N.leb_spec 160 y); [| lia] |]; cbn [andb]; (destruct (N.eqb_spec x 237) as [Ex' | Ex']; [destruct (N.leb_spec y 159); [| lia] |]); rewrite <- Hr; reflexivity. }
  cbn [map app length]. unfold rune_at, cont. rewrite !val_of by lia. set (x := 240 + r / 262144). set (y := 128 + (r / 4096) mod 64). set (z := 128 + (r / 64) mod 64). set (u := 128 + r mod 64).
  assert (Hx : 240 <= x < 245) by lia. assert (Hy : 128 <= y <= 191) by lia. assert (Hz : 128 <= z <= 191) by lia. assert (Hu : 128 <= u <= 191) by lia.
  assert (Hr : r = 262144 * (x - 240) + 4096 * (y - 128) + 64 * (z - 128) + (u - 128)) by lia. clearbody x y z u.
  destruct (N.ltb_spec x 128); [lia |]. destruct (N.ltb_spec x 194); [lia |]. destruct (N.ltb_spec x 224); [lia |]. destruct (N.ltb_spec x 240); [lia |]. destruct (N.ltb_spec x 245); [| lia].
  destruct (N.leb_spec 128 y); [| lia]. destruct (N.leb_spec y 191); [| lia]. destruct (N.leb_spec 128 z); [| lia]. destruct (N.leb_spec z 191); [| lia]. destruct (N.leb_spec 128 u); [| lia]. destruct (N.leb_spec u 191); [| lia]. cbn [andb].
  destruct (N.eqb_spec x 240) as [Ex | Ex]; [destruct (N.leb_spec 144 y); [| lia] |]; cbn [andb]; (destruct (N.eqb_spec x 244) as [Ex' | Ex']; [destruct (N.leb_spec y 143); [| lia] |]); rewrite <- Hr; reflexivity.
Qed.

Lemma digit_back n : n < 16 -> hex_value (hex_digit n) = Some n.
Proof.
  intros H. unfold hex_digit, hex_value. destruct (N.ltb_spec n 10); rewrite val_of by lia.
  - destruct (N.leb_spec 48 (48 + n)); [| lia]. destruct (N.leb_spec (48 + n) 57); [| lia]. cbn [andb]. f_equal. lia.
  - destruct (N.leb_spec (87 + n) 57); [lia |]. rewrite andb_false_r. destruct (N.leb_spec 97 (87 + n)); [| lia]. destruct (N.leb_spec (87 + n) 102); [| lia]. cbn [andb]. f_equal. lia.
Qed.
Lemma hex_back k r : forall acc t, read_hex k acc (hex k r ++ t) = Some (16 ^ N.of_nat k * acc + r mod 16 ^ N.of_nat k, t).
Proof.
  induction k as [| k IH]; intros acc t; [cbn [hex app read_hex]; change (16 ^ N.of_nat 0) with 1; rewrite N.mod_1_r; f_equal; f_equal; lia |].
  cbn [hex app read_hex]. rewrite digit_back by (apply N.mod_lt; lia). rewrite IH. f_equal. f_equal.
  rewrite Nat2N.inj_succ, N.pow_succ_r'. set (p := 16 ^ N.of_nat k). assert (Hp : p <> 0) by (apply N.pow_nonzero; discriminate).
  rewrite (N.mul_comm 16 p), (N.mod_mul_r r p 16 Hp) by discriminate. rewrite N.mul_add_distr_l, N.mul_assoc. rewrite <- N.add_assoc. f_equal. apply N.add_comm.
Qed.
