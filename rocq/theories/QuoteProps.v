(** C98: quoted texts are read back. *)
From Verif Require Import Base QuoteModel QuoteProofs CompareModel.
Local Open Scope N_scope.

Lemma enc_first r : exists c t, enc_rune r = c :: t.
Proof. unfold enc_rune. destruct (r <? 128); [| destruct (r <? 2048); [| destruct (r <? 65536)]]; cbn [map]; eauto. Qed.
Lemma enc_bytes r : valid_rune r = true -> Forall (fun c => (r < 128 /\ N_of_ascii c = r) \/ (128 <= r /\ 128 <= N_of_ascii c)) (enc_rune r).
Proof.
  intros V. unfold valid_rune in V. apply orb_true_iff in V. rewrite andb_true_iff, N.ltb_lt, !N.leb_le in V. unfold enc_rune.
  destruct (N.ltb_spec r 128) as [L1 | L1]; [cbn [map]; constructor; [left; rewrite val_of by lia; lia | constructor] |].
  destruct (N.ltb_spec r 2048); [| destruct (N.ltb_spec r 65536)]; cbn [map]; repeat (apply Forall_cons; [right; split; [exact L1 |]; rewrite val_of by lia; lia |]); apply Forall_nil.
Qed.
Lemma enc_small r : r < 128 -> enc_rune r = [ascii_of_N r].
Proof. intros L. unfold enc_rune. destruct (N.ltb_spec r 128); [reflexivity | lia]. Qed.
Lemma enc_bad_length r : r = 65533 -> length (enc_rune r) = 3%nat.
Proof. intros ->. reflexivity. Qed.

Section Quoted.
Variable is_print : N -> bool.
Hypothesis no_mark : is_print 65279 = false.

Definition written (r : N) (w : nat) (c : byte) : bytes := if (r =? 65533) && Nat.eqb w 1 then bslash :: "x"%char :: hex 2 (N_of_ascii c) else escaped_rune is_print r.
Lemma read_esc f e v t t' : read_escape e = Some (v, t') -> t = bslash :: e -> read_body (S f) t = match read_body f t' with Some (vs, rest) => Some (v ++ vs, rest) | None => None end.
Proof. intros E ->. cbn [read_body]. change (Ascii.eqb bslash dquote) with false. change (Ascii.eqb bslash bslash) with true. cbv iota. rewrite E. reflexivity. Qed.
Lemma read_x x t : x < 256 -> read_escape ("x"%char :: hex 2 x ++ t) = Some ([ascii_of_N x], t).
Proof.
  intros L. unfold read_escape. change (N_of_ascii "x") with 120. cbv iota. rewrite hex_back. change (16 ^ N.of_nat 2) with 256. rewrite N.mod_small by exact L. rewrite N.mul_0_r, N.add_0_l. reflexivity.
Qed.
Lemma read_u x t : x < 65536 -> valid_rune x = true -> read_escape ("u"%char :: hex 4 x ++ t) = Some (enc_rune x, t).
Proof.
  intros L V. unfold read_escape. change (N_of_ascii "u") with 117. cbv iota. rewrite hex_back. change (16 ^ N.of_nat 4) with 65536. rewrite N.mod_small by exact L. rewrite N.mul_0_r, N.add_0_l, V. reflexivity.
Qed.
Lemma read_U x t : x < 4294967296 -> valid_rune x = true -> read_escape ("U"%char :: hex 8 x ++ t) = Some (enc_rune x, t).
Proof.
  intros L V. unfold read_escape. change (N_of_ascii "U") with 85. cbv iota. rewrite hex_back. change (16 ^ N.of_nat 8) with 4294967296. rewrite N.mod_small by exact L. rewrite N.mul_0_r, N.add_0_l, V. reflexivity.
Qed.
Lemma read_rune f r t : valid_rune r = true ->
  read_body (S f) (escaped_rune is_print r ++ t) = match read_body f t with Some (vs, rest) => Some (enc_rune r ++ vs, rest) | None => None end.
Proof.
  intros V. unfold escaped_rune.
  destruct (N.eqb_spec r 34) as [-> | N1]; [apply (read_esc f (dquote :: t) (enc_rune 34)); reflexivity |].
  destruct (N.eqb_spec r 92) as [-> | N2]; [apply (read_esc f (bslash :: t) (enc_rune 92)); reflexivity |]. cbn [orb].
  destruct (printable is_print r) eqn:P.
  { pose proof (enc_bytes r V) as Fb. pose proof (rune_back r t V) as Rb. destruct (enc_first r) as (c & tl & Ec). pose proof (enc_bad_length r) as Eb. rewrite Ec in *. cbn [app] in *.
    assert (Nc : Ascii.eqb c dquote = false /\ Ascii.eqb c bslash = false).
    { inversion Fb as [| ? ? Hc _]; subst. split; apply Ascii.eqb_neq; intros ->; [change (N_of_ascii dquote) with 34 in Hc | change (N_of_ascii bslash) with 92 in Hc]; lia. }
    cbn [read_body]. destruct Nc as [-> ->]. rewrite Rb.
    assert (G : ((r =? 0) || (r =? 10) || (r =? 65279) || ((r =? 65533) && Nat.eqb (length (c :: tl)) 1))%bool = false).
    { unfold printable in P. destruct (N.eqb_spec r 0) as [-> |]; [discriminate P |]. destruct (N.eqb_spec r 10) as [-> |]; [discriminate P |].
      destruct (N.eqb_spec r 65279) as [-> |]; [change (is_print 65279 = true) in P; congruence |]. destruct (N.eqb_spec r 65533) as [E |]; [rewrite (Eb E); reflexivity | reflexivity]. }
    rewrite G. change (c :: tl ++ t) with ((c :: tl) ++ t). rewrite firstn_app_exact, skipn_app_exact. reflexivity. }
  destruct (short r) as [l |] eqn:Sh.
  { unfold short in Sh. repeat match type of Sh with (if ?r =? ?k then _ else _) = _ => destruct (N.eqb_spec r k) as [-> |]; [injection Sh as <-; eapply read_esc; [| reflexivity]; reflexivity |] end. discriminate Sh. }
  destruct ((r <? 32) || (r =? 127))%bool eqn:Q.
  { assert (L : r < 128) by (apply orb_true_iff in Q; rewrite N.ltb_lt, N.eqb_eq in Q; lia). rewrite (enc_small r L).
    apply (read_esc f ("x"%char :: hex 2 r ++ t)); [apply read_x; lia | reflexivity]. }
  destruct (N.ltb_spec r 65536) as [L | L]; [apply (read_esc f ("u"%char :: hex 4 r ++ t)); [apply read_u; assumption | reflexivity] |].
  apply (read_esc f ("U"%char :: hex 8 r ++ t)); [apply read_U; [| exact V] | reflexivity].
  unfold valid_rune in V. apply orb_true_iff in V. rewrite andb_true_iff, N.ltb_lt, !N.leb_le in V. lia.
Qed.
Lemma read_quoted n : forall s f rest, (length s <= n)%nat -> (length (quote_body is_print n s) < f)%nat -> read_body f (quote_body is_print n s ++ dquote :: rest) = Some (s, rest).
Proof.
  induction n as [| n IH]; intros s f rest L Lf; (destruct f as [| f]; [lia |]).
  { destruct s; [reflexivity | cbn in L; lia]. }
  destruct s as [| c s]; [reflexivity |]. cbn [quote_body] in *. destruct (rune_at (c :: s)) as [r w] eqn:E.
  destruct ((r =? 65533) && Nat.eqb w 1)%bool eqn:G.
  - apply andb_true_iff in G as [Gr Gw]. apply Nat.eqb_eq in Gw. subst w. cbn [skipn] in *. rewrite <- app_assoc.
    rewrite (read_esc f ("x"%char :: hex 2 (N_of_ascii c) ++ quote_body is_print n s ++ dquote :: rest) [c] _ (quote_body is_print n s ++ dquote :: rest)).
    + rewrite IH; [reflexivity | cbn in L; lia | rewrite app_length in Lf; cbn in Lf; lia].
    + rewrite read_x by apply byte_small. rewrite of_val. reflexivity.
    + reflexivity.
  - assert (Nb : ~ (r = 65533 /\ w = 1%nat)) by (intros [-> ->]; discriminate G).
    destruct (rune_there (c :: s) r w) as (V & Lw & Es); [discriminate | exact E | exact Nb |]. rewrite <- app_assoc, (read_rune f r _ V).
    destruct (enc_first r) as (c1 & t1 & E1).
    assert (Ls : (length (skipn w (c :: s)) <= n)%nat) by (rewrite skipn_length, <- Lw, E1; cbn [length] in *; lia).
    assert (Lp : (1 <= length (escaped_rune is_print r))%nat).
    { unfold escaped_rune. destruct ((r =? 34) || (r =? 92))%bool; [cbn; lia |]. destruct (printable is_print r); [rewrite E1; cbn; lia |]. destruct (short r); [cbn; lia |]. destruct ((r <? 32) || (r =? 127))%bool; [cbn; lia |]. destruct (r <? 65536); cbn; lia. }
    rewrite IH; [rewrite Es at 2; reflexivity | exact Ls |]. rewrite app_length in Lf. lia.
Qed.

(** What is quoted is read back byte for byte, whatever the text is and whatever follows the literal. *)
Theorem C98_read_back : forall s rest, read_literal (quote is_print s ++ rest) = Some (s, rest).
Proof.
  intros s rest. unfold quote. cbn [app read_literal]. change (Ascii.eqb dquote dquote) with true. cbv iota. rewrite <- app_assoc. cbn [app].
  apply read_quoted; [apply le_n |]. rewrite app_length. cbn [length]. lia.
Qed.
(** So different texts have different literals, and none begins another. *)
Theorem C98_apart : forall s t x y, quote is_print s ++ x = quote is_print t ++ y -> s = t /\ x = y.
Proof. intros s t x y E. pose proof (C98_read_back s x) as H. rewrite E, C98_read_back in H. injection H as <- <-. split; reflexivity. Qed.

Lemma hex_plain k r : Forall (fun c => 48 <= N_of_ascii c <= 102) (hex k r).
Proof.
  induction k as [| k IH]; cbn [hex]; [constructor |]. constructor; [| exact IH]. assert (H : (r / 16 ^ N.of_nat k) mod 16 < 16) by (apply N.mod_lt; discriminate).
  generalize dependent ((r / 16 ^ N.of_nat k) mod 16). intros d H. unfold hex_digit. destruct (N.ltb_spec d 10); rewrite val_of by lia; lia.
Qed.
Lemma written_plain r : valid_rune r = true -> Forall (fun c => 32 <= N_of_ascii c /\ N_of_ascii c <> 127) (escaped_rune is_print r).
Proof.
  intros V. assert (Hx : forall k x, Forall (fun c => 32 <= N_of_ascii c /\ N_of_ascii c <> 127) (hex k x)) by (intros k x; eapply Forall_impl; [| apply hex_plain]; cbv beta; intros; lia).
  assert (Bs : forall c l, (32 <= N_of_ascii c /\ N_of_ascii c <> 127) -> Forall (fun c => 32 <= N_of_ascii c /\ N_of_ascii c <> 127) l -> Forall (fun c => 32 <= N_of_ascii c /\ N_of_ascii c <> 127) (bslash :: c :: l)).
  { intros c l Hc Hl. constructor; [change (N_of_ascii bslash) with 92; lia |]. constructor; assumption. }
  unfold escaped_rune. destruct (N.eqb_spec r 34) as [-> |]; [apply Bs; [change (N_of_ascii (ascii_of_N 34)) with 34; lia | constructor] |].
  destruct (N.eqb_spec r 92) as [-> |]; [apply Bs; [change (N_of_ascii (ascii_of_N 92)) with 92; lia | constructor] |]. cbn [orb].
  destruct (printable is_print r) eqn:P.
  { eapply Forall_impl; [| apply (enc_bytes r V)]. cbv beta. intros c [[L E] | [L H]]; [| lia]. unfold printable in P. destruct (N.ltb_spec r 128); [| lia]. apply andb_true_iff in P. rewrite N.leb_le, N.ltb_lt in P. lia. }
  destruct (short r) as [l |] eqn:Sh.
  { apply Bs; [| constructor]. unfold short in Sh. repeat match type of Sh with (if ?r =? ?k then _ else _) = _ => destruct (N.eqb_spec r k) as [-> |]; [injection Sh as <-; vm_compute; split; discriminate |] end. discriminate Sh. }
  destruct ((r <? 32) || (r =? 127))%bool; [apply Bs; [vm_compute; split; discriminate | apply Hx] |]. destruct (r <? 65536); (apply Bs; [vm_compute; split; discriminate | apply Hx]).
Qed.
(** A literal is one line without control characters. *)
Theorem C98_one_line : forall s, Forall (fun c => 32 <= N_of_ascii c /\ N_of_ascii c <> 127) (quote is_print s).
Proof.
  intros s. assert (Q : 32 <= N_of_ascii dquote /\ N_of_ascii dquote <> 127) by (change (N_of_ascii dquote) with 34; lia).
  unfold quote. constructor; [exact Q |]. apply Forall_app. split; [| constructor; [exact Q | constructor]].
  generalize (length s) as n. intros n. revert s. induction n as [| n IH]; intros s; [constructor |]. destruct s as [| c s]; [constructor |]. cbn [quote_body].
  destruct (rune_at (c :: s)) as [r w] eqn:E. apply Forall_app. split; [| apply IH]. destruct ((r =? 65533) && Nat.eqb w 1)%bool eqn:G.
  - constructor; [change (N_of_ascii bslash) with 92; lia |]. constructor; [vm_compute; split; discriminate |]. eapply Forall_impl; [| apply hex_plain]. cbv beta. intros. lia.
  - apply written_plain. destruct (rune_there (c :: s) r w) as (V & _); [discriminate | exact E | | exact V]. intros [-> ->]. discriminate G.
Qed.

(** The text of a snapshot says which name is shown and which value. *)
Theorem C98_snapshot : forall n n' v v', snapshot_text is_print n v = snapshot_text is_print n' v' -> n = n' /\ v = v'.
Proof.
  intros n n' v v' E. unfold snapshot_text in E. apply app_inv_head in E. apply C98_apart in E as [-> E]. split; [reflexivity |]. apply app_inv_head in E. apply app_inv_tail in E. exact E.
Qed.

(** Where one of two values is too large to be kept, the text of the difference still says what the other is. *)
Theorem C98_difference : forall unified d v w, has_prefix hash_prefix d = true -> has_prefix hash_prefix v = false -> has_prefix hash_prefix w = false ->
  (diff_values (quote is_print) unified d v = diff_values (quote is_print) unified d w -> v = w) /\
  (diff_values (quote is_print) unified v d = diff_values (quote is_print) unified w d -> v = w).
Proof.
  intros unified d v w Hd Hv Hw.
  assert (Nv : forall x, has_prefix hash_prefix x = false -> beq d x = false /\ beq x d = false) by (intros x Hx; split; apply beq_false; intros ->; congruence).
  unfold diff_values. destruct (Nv v Hv) as [-> ->]. destruct (Nv w Hw) as [-> ->]. rewrite Hd, Hv, Hw. split; intros E.
  - apply app_inv_head, app_inv_head in E. apply (C98_apart v w [] []). rewrite !app_nil_r. exact E.
  - apply C98_apart in E. apply E.
Qed.
End Quoted.
Print Assumptions C98_read_back.
Print Assumptions C98_apart.
Print Assumptions C98_one_line.
Print Assumptions C98_snapshot.
Print Assumptions C98_difference.

(** A quote, a backslash, a newline, a letter of two bytes, a byte order mark and a byte that is no UTF-8. *)
Example C98_example :
  let s := map ascii_of_N [97; 34; 92; 10; 195; 188; 239; 187; 191; 255; 240; 159; 152; 128; 237; 160; 128] in
  quote (fun r => r =? 252) s = dquote :: B "a\" ++ dquote :: B "\\\n" ++ map ascii_of_N [195; 188] ++ B "\ufeff\xff\U0001f600\xed\xa0\x80" ++ [dquote] /\
  read_literal (quote (fun r => r =? 252) s ++ B ", Val: x}") = Some (s, B ", Val: x}") /\
  read_literal (dquote :: B "a" ++ ascii_of_N 10 :: [dquote]) = None /\ read_literal (dquote :: B "\ud800" ++ [dquote]) = None /\
  diff_values (quote (fun _ => true)) (fun _ _ => None) (B "vsha1-abcdef") (B "x") = B "<VALUE TOO LARGE ...cdef> != " ++ dquote :: B "x" ++ [dquote].
Proof. vm_compute. repeat split; reflexivity. Qed.
