(** C01, C06: the shortest encoding, and messages of any sender cut off or followed by more. *)
From Verif Require Import Base WireModel WireGrammar WireRobust WireDec WireProofs.
Local Open Scope N_scope.

Lemma leb_below bs n : leb bs n -> n < 128 ^ N.of_nat (length bs).
Proof.
  induction 1 as [b Hb | b bs n Hb H IH]; cbn [length]; rewrite Nat2N.inj_succ, N.pow_succ_r'; [cbn; lia |].
  assert (b2n b < 256) by apply N_ascii_bounded. lia.
Qed.
Lemma loop_length fuel : forall k v, v < 128 ^ N.of_nat (S k) -> (length (write_varint_loop fuel v) <= S k)%nat.
Proof.
  induction fuel as [| f IH]; intros k v H; [cbn; lia |]. cbn [write_varint_loop]. destruct (N.leb_spec 128 v) as [L | L]; [| cbn; lia]. cbn [length].
  destruct k as [| k]; [cbn in H; lia |]. apply le_n_S, IH. rewrite N.shiftr_div_pow2. change (2 ^ 7) with 128.
  rewrite Nat2N.inj_succ, N.pow_succ_r' in H. apply N.div_lt_upper_bound; [lia | exact H].
Qed.
(** No encoding that is read as the same integer is shorter than the one written. *)
Theorem C01_shortest : forall v c, v < 18446744073709551616 -> varint_bytes c v -> (length (write_varint v) <= length c)%nat.
Proof.
  intros v c Hv (n & Hl & _ & Ev). pose proof (leb_below c n Hl) as Hn.
  assert (Hvn : v <= n) by (subst v; apply N.mod_le; lia).
  destruct c as [| b c]; [inversion Hl |]. apply loop_length. exact (N.le_lt_trans _ _ _ Hvn Hn).
Qed.
Print Assumptions C01_shortest.
(** 5 in one byte, and padded to three. *)
Example C01_shortest_example : read_varint (map ascii_of_N [133; 128; 0]) = ROk 5 [] /\ length (write_varint 5) = 1%nat /\ length (write_varint 300) = 2%nat.
Proof. vm_compute. auto. Qed.

(** An accepted message is the first part of what was sent, whoever sent it: whatever follows it makes no difference, and with anything of it cut
    off nothing is accepted. *)
Definition self_delimiting {A} (d : reader A) : Prop := forall i v rest, d i = ROk v rest ->
  exists c, i = c ++ rest /\ (forall x, d (c ++ x) = ROk v x) /\ forall p q, c = p ++ q -> q <> [] -> forall v' rest', d p <> ROk v' rest'.
Lemma exact_self {A} (d : reader A) R : exact d R -> self_delimiting d.
Proof.
  intros [E1 E2] i v rest H. destruct (E1 i v rest H) as (c & -> & Hc). exists c. split; [reflexivity |]. split; [intros x; apply E2, Hc |].
  intros p q Ep Nq v' rest' Hp. destruct (E1 p v' rest' Hp) as (c' & -> & Hc'). pose proof (E2 c v [] Hc) as X. rewrite app_nil_r, Ep, <- app_assoc in X. rewrite (E2 c' v' (rest' ++ q) Hc') in X.
  injection X as _ X. apply app_eq_nil in X. tauto.
Qed.
Lemma handle_self {A} (d : reader A) ev path bd e : self_delimiting d -> handle d ev (mkReq true path bd) = Served 200 (Some e) ->
  exists c rest, bd = c ++ rest /\ (forall x, handle d ev (mkReq true path (c ++ x)) = Served 200 (Some e)) /\
    forall p q, c = p ++ q -> q <> [] -> forall e', handle d ev (mkReq true path p) <> Served 200 (Some e').
Proof.
  intros S H. unfold handle in *. cbn [rq_post rq_body] in *. destruct (d bd) as [m rest | | |] eqn:E; try discriminate H. injection H as <-.
  destruct (S bd m rest E) as (c & -> & X & Y). exists c, rest. split; [reflexivity |]. split; [intros x; rewrite X; reflexivity |].
  intros p q Ep Nq e' Hp. destruct (d p) as [m' r' | | |] eqn:Ep'; try discriminate Hp. exact (Y p q Ep Nq m' r' Ep').
Qed.
Theorem C06_any_message : forall maxlen path bd e, serve maxlen (mkReq true path bd) = Served 200 (Some e) ->
  exists c rest, bd = c ++ rest /\ (forall x, serve maxlen (mkReq true path (c ++ x)) = Served 200 (Some e)) /\
    forall p q, c = p ++ q -> q <> [] -> forall e', serve maxlen (mkReq true path p) <> Served 200 (Some e').
Proof.
  intros maxlen path bd e. unfold serve. cbn [rq_path].
  destruct (beq path path_error); [apply handle_self, (exact_self _ _ dec_error_exact) |].
  destruct (beq path path_point); [apply handle_self, (exact_self _ _ dec_point_exact) |].
  destruct (beq path path_state); [apply handle_self, (exact_self _ _ (dec_state_exact maxlen)) |].
  destruct (beq path path_panic); [apply handle_self, (exact_self _ _ dec_panic_exact) |]. discriminate.
Qed.
Print Assumptions C06_any_message.
(** A point message followed by other bytes, and without its last byte. *)
Example C06_any_example : let b := enc_point 7 3 [] in
  serve 100 (mkReq true (B "/ast.0/point/point") (b ++ B "more")) = Served 200 (Some (EvPoint (mkPoint 7 3 []))) /\
  serve 100 (mkReq true (B "/ast.0/point/point") (removelast b)) = Served 400 None.
Proof. vm_compute. auto. Qed.
