(** Properties C01-C07: the wire protocol. *)
From Verif Require Import Base WireModel WireSpec WireGrammar WireProofs WireRobust WireDec.
Local Open Scope N_scope.

(** ** C01 *)
Theorem C01_varint_roundtrip : forall v rest, v < 18446744073709551616 ->
  read_varint (write_varint v ++ rest) = ROk v rest /\
  (1 <= length (write_varint v) <= 10)%nat.
Proof. exact (fun v rest H => conj (varint_rt v rest H) (varint_len v)). Qed.
Print Assumptions C01_varint_roundtrip.
(** The reader accepts exactly the base-128 groups of the grammar, whoever wrote them. *)
Theorem C01_varint_reader_exact : forall i v rest,
  read_varint i = ROk v rest <-> exists c, i = c ++ rest /\ varint_bytes c v.
Proof.
  exact (fun i v rest => conj (proj1 exact_varint i v rest)
    (fun '(ex_intro _ c (conj e h)) => eq_trans (f_equal read_varint e) (proj2 exact_varint c v rest h))).
Qed.
Print Assumptions C01_varint_reader_exact.
Example C01_ex : 300 < 18446744073709551616 /\
  write_varint 300 = [ascii_of_N 172; ascii_of_N 2] /\
  length (write_varint 18446744073709551615) = 10%nat.
Proof. vm_compute. repeat split. Qed.

(** ** C02 *)
Theorem C02_signed_roundtrip : forall z rest,
  (-9223372036854775808 <= z < 9223372036854775808)%Z ->
  read_svarint (write_svarint z ++ rest) = ROk z rest.
Proof. exact svarint_rt. Qed.
Print Assumptions C02_signed_roundtrip.
(** Zig-zag keeps small magnitudes short: the encoded word is at most twice the magnitude. *)
Theorem C02_zigzag_order : forall z, (-9223372036854775808 <= z < 9223372036854775808)%Z ->
  zigzag z = if (z <? 0)%Z then Z.to_N (- 2 * z - 1) else Z.to_N (2 * z).
Proof. exact zigzag_val. Qed.
Print Assumptions C02_zigzag_order.
Example C02_ex : (-9223372036854775808 <= -9223372036854775808 < 9223372036854775808)%Z /\
  read_svarint (write_svarint (-9223372036854775808) ++ B "rest") = ROk (-9223372036854775808)%Z (B "rest").
Proof. vm_compute. repeat split; discriminate. Qed.

(** ** C03 *)
Theorem C03_field_roundtrip : forall maxlen f fuel rest,
  maxlen < 18446744073709551616 -> field_ok maxlen f -> (fdepth f < fuel)%nat ->
  read_field fuel maxlen (enc_field f ++ rest) = ROk (view_field f) rest.
Proof. exact field_rt. Qed.
Print Assumptions C03_field_roundtrip.
(** The fuel is an artefact: with fuel above the input length it never runs out. *)
Theorem C03_fuel_suffices : forall maxlen fuel i, (length i < fuel)%nat ->
  read_field fuel maxlen i <> RFuel.
Proof. exact nfb_field. Qed.
Print Assumptions C03_fuel_suffices.

Definition ex_tree : wfield :=
  (B "cfg", B "lens.T", WNode KStruct
    [(B "n", B "int", WPrim (PInt64 (-5)));
     (B "m", B "map[string][]bool", WNode KMap
        [(B "a", B "[]bool", WPrim (PBoolS [true; false; true; true; false; false; false; true; true]))]);
     (B "s", B "[]any", WNode KSlice
        [(B "[0]", B "string", WPrim (PStr (B "x"))); (B "[1]", B "invalid", WPrim PNil)])]).
Example C03_ex_ok : field_ok 10 ex_tree /\ (fdepth ex_tree < 4)%nat.
Proof.
  unfold ex_tree, field_ok; cbn.
  repeat (split || constructor || (vm_compute; congruence) || (vm_compute; reflexivity) || lia).
Qed.
Example C03_ex_run : read_field 4 10 (enc_field ex_tree ++ B "zz") = ROk (view_field ex_tree) (B "zz").
Proof. vm_compute. reflexivity. Qed.

(** ** C04 *)
Theorem C04_stack_roundtrip : forall fs rest, stack_ok fs ->
  read_stack (write_stack fs ++ rest) = ROk fs rest.
Proof. exact stack_rt. Qed.
Print Assumptions C04_stack_roundtrip.
Theorem C04_long_stack_rejected : forall fs rest, 2048 < blen fs < 18446744073709551616 ->
  read_stack (write_stack fs ++ rest) = RErr.
Proof. exact stack_too_long. Qed.
Print Assumptions C04_long_stack_rejected.
Theorem C04_bad_file_reference_rejected : forall table b1 i rest,
  varint_bytes b1 i -> blen table <= i -> read_frame table (b1 ++ rest) = RErr.
Proof. exact frame_bad_index. Qed.
Print Assumptions C04_bad_file_reference_rejected.
Theorem C04_bad_function_reference_rejected : forall table b1 b2 i j rest,
  varint_bytes b1 i -> varint_bytes b2 j -> blen table <= j ->
  read_frame table (b1 ++ b2 ++ rest) = RErr.
Proof. exact frame_bad_index2. Qed.
Print Assumptions C04_bad_function_reference_rejected.
(** For arbitrary bytes the stack reader accepts exactly the grammar. *)
Theorem C04_stack_reader_exact : forall i fs rest,
  read_stack i = ROk fs rest <-> exists c, i = c ++ rest /\ stack_bytes c fs.
Proof.
  exact (fun i v rest => conj (proj1 read_stack_exact i v rest)
    (fun '(ex_intro _ c (conj e h)) => eq_trans (f_equal read_stack e) (proj2 read_stack_exact c v rest h))).
Qed.
Print Assumptions C04_stack_reader_exact.

Definition ex_stack : list frame :=
  [mkFrame (B "/a/b.go") (B "pkg.F") 12; mkFrame (B "/a/b.go") (B "pkg.G") 40;
   mkFrame (B "pkg.F") (B "") 18446744073709551615; mkFrame (B "/a/b.go") (B "pkg.F") 12].
Example C04_ex : stack_ok ex_stack /\ blen (fst (build_tbl ex_stack)) = 4 /\
  read_stack (write_stack ex_stack ++ B "t") = ROk ex_stack (B "t").
Proof.
  split; [|vm_compute; split; reflexivity].
  split; [vm_compute; congruence|]. repeat constructor.
Qed.
Example C04_ex_long : 2048 < blen (repeat (mkFrame [] [] 1) 2049) < 18446744073709551616.
Proof. vm_compute. split; reflexivity. Qed.
Example C04_ex_bad : exists b1 i, varint_bytes b1 i /\ blen [B "x"; B "y"] <= i /\
  read_frame [B "x"; B "y"] (b1 ++ B "abc") = RErr.
Proof.
  exists [ascii_of_N 2], 2. split; [|vm_compute; split; congruence].
  exists 2. repeat split; [apply (leb_last (ascii_of_N 2)); reflexivity|cbn; lia].
Qed.

(** ** C05 *)
Theorem C05_messages_delivered : forall maxlen ms, maxlen < 18446744073709551616 ->
  Forall (cmsg_ok maxlen) ms ->
  map (fun m => serve maxlen (post m)) ms = map (fun m => Served 200 (Some (cmsg_view m))) ms.
Proof.
  exact (fun maxlen ms Hm H => map_ext_Forall _ _ (Forall_impl _ (fun m => serve_post maxlen m Hm) H)).
Qed.
Print Assumptions C05_messages_delivered.
(** No two different messages within the limits look the same to the server, up to the
    documented conflation of container kinds in the decoded form. *)
Theorem C05_requests_determine_messages : forall maxlen m1 m2, maxlen < 18446744073709551616 ->
  cmsg_ok maxlen m1 -> cmsg_ok maxlen m2 -> post m1 = post m2 -> cmsg_view m1 = cmsg_view m2.
Proof.
  exact (fun maxlen m1 m2 Hm H1 H2 E =>
    f_equal (fun r => match r with Served _ (Some e) => e | _ => cmsg_view m1 end)
      (eq_trans (eq_sym (serve_post maxlen m1 Hm H1))
         (eq_trans (f_equal (serve maxlen) E) (serve_post maxlen m2 Hm H2)))).
Qed.
Print Assumptions C05_requests_determine_messages.
(** Back to back on one byte stream. *)
Theorem C05_point_stream : forall ms rest,
  Forall (fun m => in_u32 (mp_id m) /\ in_i64 (mp_time m) /\ stack_ok (mp_stack m)) ms ->
  read_n (length ms) dec_point
    (flat_map (fun m => enc_point (mp_id m) (mp_time m) (mp_stack m)) ms ++ rest) = ROk ms rest.
Proof. exact read_points_stream. Qed.
Print Assumptions C05_point_stream.
Theorem C05_state_message : forall maxlen id ts st fs rest, maxlen < 18446744073709551616 ->
  in_u32 id -> in_i64 ts -> stack_ok st -> Forall (field_ok maxlen) fs -> blen fs < 4294967296 ->
  dec_state maxlen (enc_state id ts st fs ++ rest) = ROk (mkState id ts st (map view_field fs)) rest.
Proof. exact state_rt. Qed.
Print Assumptions C05_state_message.

Definition ex_msgs : list cmsg :=
  [CPoint 7 (-3) ex_stack; CState 4294967295 100 ex_stack [ex_tree; ex_tree];
   CPanic 2 9223372036854775807 (B "boom"); CError 1 (B "POST failed") []].
Lemma ex_stack_ok : stack_ok ex_stack.
Proof. exact (proj1 C04_ex). Qed.
Example C05_ex_ok : Forall (cmsg_ok 10) ex_msgs.
Proof.
  pose proof ex_stack_ok as Hs. pose proof (proj1 C03_ex_ok) as Ht.
  assert (He : stack_ok []) by (split; [vm_compute; congruence|apply Forall_nil]).
  apply Forall_cons; [split; [reflexivity|split; [unfold in_i64; lia|exact Hs]]|].
  apply Forall_cons.
  { split; [reflexivity|split; [unfold in_i64; lia|split; [exact Hs|split; [|reflexivity]]]].
    apply Forall_cons; [exact Ht|]. apply Forall_cons; [exact Ht|apply Forall_nil]. }
  apply Forall_cons; [split; [reflexivity|split; [unfold in_i64; lia|reflexivity]]|].
  apply Forall_cons; [split; [reflexivity|split; [reflexivity|exact He]]|]. apply Forall_nil.
Qed.
Example C05_ex_run :
  map (fun m => serve 10 (post m)) ex_msgs = map (fun m => Served 200 (Some (cmsg_view m))) ex_msgs.
Proof. vm_compute. reflexivity. Qed.

(** ** C06 *)
Theorem C06_cut_message_is_rejected : forall maxlen m p, maxlen < 18446744073709551616 ->
  cmsg_ok maxlen m -> strict_prefix p (post_body m) ->
  serve maxlen (mkReq true (post_path m) p) = Served 400 None.
Proof. exact serve_cut. Qed.
Print Assumptions C06_cut_message_is_rejected.
Example C06_ex : cmsg_ok 10 (nth 1 ex_msgs (CPanic 0 0 [])) /\
  strict_prefix (firstn 40 (post_body (nth 1 ex_msgs (CPanic 0 0 [])))) (post_body (nth 1 ex_msgs (CPanic 0 0 []))).
Proof.
  split; [exact (Forall_inv (Forall_inv_tail C05_ex_ok))|].
  exists (skipn 40 (post_body (nth 1 ex_msgs (CPanic 0 0 [])))). split; [vm_compute; discriminate|].
  symmetry. apply firstn_skipn.
Qed.

(** ** C07 *)
(** Whatever arrives, an accepted event is the view of some message within the limits. *)
Theorem C07_accepted_is_within_limits : forall maxlen rq ev,
  serve maxlen rq = Served 200 (Some ev) ->
  exists m, cmsg_ok maxlen m /\ ev = cmsg_view m /\ rq_path rq = post_path m.
Proof. exact accepted_ok. Qed.
Print Assumptions C07_accepted_is_within_limits.
(** The state decoder accepts exactly the grammar and consumes exactly the matched prefix. *)
Theorem C07_state_decoder_exact : forall maxlen i m rest,
  dec_state maxlen i = ROk m rest <-> exists c, i = c ++ rest /\ state_bytes maxlen c m.
Proof.
  exact (fun maxlen i v rest => conj (proj1 (dec_state_exact maxlen) i v rest)
    (fun '(ex_intro _ c (conj e h)) =>
       eq_trans (f_equal (dec_state maxlen) e) (proj2 (dec_state_exact maxlen) c v rest h))).
Qed.
Print Assumptions C07_state_decoder_exact.
Theorem C07_decoder_never_runs_out_of_fuel : forall maxlen i, dec_state maxlen i <> RFuel.
Proof. exact dec_state_nf. Qed.
Print Assumptions C07_decoder_never_runs_out_of_fuel.
Theorem C07_other_decoders_total : forall i,
  (dec_point i <> RPanic /\ dec_point i <> RFuel) /\
  (dec_panic i <> RPanic /\ dec_panic i <> RFuel) /\
  (dec_error i <> RPanic /\ dec_error i <> RFuel).
Proof.
  exact (fun i => conj (conj (dec_point_np i) (dec_point_nf i))
    (conj (conj (dec_panic_np i) (dec_panic_nf i)) (conj (dec_error_np i) (dec_error_nf i)))).
Qed.
Print Assumptions C07_other_decoders_total.

(** Finding: the entry count of a struct container is not checked.  A 26-byte request makes
    the state handler panic in [make] (net/http drops the connection). *)
Definition evil_state : bytes :=
  write_varint 1 ++ write_int64 0 ++ write_varint 0 ++ write_varint 1 ++
  write_string (B "a") ++ write_string (B "T") ++ [byte_of 65] ++ write_varint 9223372036854775807.
Theorem C07_struct_count_unchecked_refuted : exists bd, (length bd <= 26)%nat /\
  forall maxlen, serve maxlen (mkReq true path_state bd) = Aborted.
Proof.
  exists evil_state. split; [vm_compute; lia|]. intros maxlen. vm_compute. reflexivity.
Qed.
Print Assumptions C07_struct_count_unchecked_refuted.
(** and a struct with more than [maxlen] entries is accepted although [maxlen] entries is the
    configured limit for containers. *)
Example C07_struct_over_limit_accepted :
  serve 1 (post (CState 1 0 [] [(B "a", B "T", WNode KStruct
     [(B "x", B "int", WPrim PNil); (B "y", B "int", WPrim PNil)])])) =
  Served 200 (Some (EvState (mkState 1 0 []
     [LF (B "a") (B "T") PNil [LF (B "x") (B "int") PNil []; LF (B "y") (B "int") PNil []]]))).
Proof. vm_compute. reflexivity. Qed.
(** non-canonical input (an overlong varint) is accepted and meets the hypothesis. *)
Example C07_ex : exists rq ev, serve 10 rq = Served 200 (Some ev) /\ rq_body rq <> post_body (CPanic 1 0 []).
Proof.
  exists (mkReq true path_panic ([ascii_of_N 129; ascii_of_N 0] ++ write_int64 0 ++ write_string (B "x"))).
  eexists. split; [vm_compute; reflexivity|]. vm_compute. discriminate.
Qed.
