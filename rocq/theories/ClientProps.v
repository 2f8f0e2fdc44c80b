(** Property C08: what the client emits for a program state. *)
From Verif Require Import Base WireModel WireSpec WireProofs WireDec ClientModel ClientSpec ClientProofs.
Local Open Scope N_scope.

(** Limits: containers and packed slices within [maxlen], texts within [maxlen] plus the
    truncation note, nesting within [maxrec], for every heap, cyclic or not. *)
Theorem C08_emitted_within_limits : forall h utf8 maxlen ufuel K maxrec snaps ws,
  heap_ok K h -> maxlen <= 2147483648 -> 21 <= K ->
  (N.of_nat maxrec + 1) * (K + 1) + 8 < 4294967296 ->
  (forall nm v, In (nm, v) snaps -> blen nm <= K /\ rv_ok K v) ->
  stream_snaps h utf8 maxlen ufuel maxrec snaps = Some ws ->
  Forall (fun f => field_ok maxlen f /\ val_lim maxlen (snd f) /\ (fdepth f <= maxrec)%nat) ws /\
  (length ws <= length snaps)%nat.
Proof. exact (fun h u m f K r s ws H1 H2 H3 H4 => stream_snaps_ok h u m f K r H1 H2 H3 H4 s ws). Qed.
Print Assumptions C08_emitted_within_limits.

(** Hence the server with the same [maxlen] accepts the message and sees the same fields. *)
Theorem C08_server_accepts : forall h utf8 maxlen ufuel K maxrec id ts st snaps m,
  heap_ok K h -> maxlen <= 2147483648 -> 21 <= K ->
  (N.of_nat maxrec + 1) * (K + 1) + 8 < 4294967296 ->
  (forall nm v, In (nm, v) snaps -> blen nm <= K /\ rv_ok K v) ->
  blen snaps < 4294967296 -> in_u32 id -> in_i64 ts -> stack_ok st ->
  send_state h utf8 maxlen ufuel maxrec id ts st snaps = Some m ->
  serve maxlen (post m) = Served 200 (Some (cmsg_view m)).
Proof.
  intros h utf8 maxlen ufuel K maxrec id ts st snaps m Hh Hm HK HL Hs Hn Hid Hts Hst E.
  unfold send_state in E. destruct (stream_snaps h utf8 maxlen ufuel maxrec snaps) as [ws|] eqn:Ew; [|discriminate].
  injection E as <-. destruct (stream_snaps_ok h utf8 maxlen ufuel K maxrec Hh Hm HK HL snaps ws Hs Ew) as [H1 H2].
  apply serve_post; [lia|]. cbn. repeat split; try assumption; try apply Hid; try apply Hts; try apply Hst.
  - eapply Forall_impl; [|exact H1]. intros f [H _]; exact H.
  - unfold blen in *. lia.
Qed.
Print Assumptions C08_server_accepts.

(** Termination, when no pointer chain runs in circles through pointers and interfaces only. *)
Theorem C08_snapshot_terminates : forall h utf8 maxlen ufuel maxrec snaps,
  chains_end h ufuel -> stream_snaps h utf8 maxlen ufuel maxrec snaps <> None.
Proof. exact (fun h u m f r s H => stream_snaps_total h u m f H r s). Qed.
Print Assumptions C08_snapshot_terminates.
(** Finding: [var x any; x = &x] makes the unwrap loop run forever, whatever the limits. *)
Theorem C08_unwrap_loop_diverges_refuted : exists h v,
  (exists K, heap_ok K h /\ rv_ok K v) /\
  forall utf8 maxlen ufuel maxrec, stream_snaps h utf8 maxlen ufuel maxrec [(B "x", v)] = None.
Proof.
  exists loop_heap, (RPtr (B "*interface {}") (Some 1)). split.
  - exists 21. assert (rv_ok 21 (RPtr (B "*interface {}") (Some 1))) by (constructor; reflexivity).
    split; [|assumption]. split; [|split].
    + intros a. constructor; [reflexivity|assumption].
    + intros i. constructor.
    + intros a nm v [[]|[]].
  - intros utf8 maxlen ufuel maxrec. cbn [stream_snaps].
    change (beq (B "x") (B "nil")) with false. cbn iota.
    destruct maxrec; cbn [stream_field vmap vlookup]; unfold stream_rest; rewrite loop_unwrap by reflexivity; reflexivity.
Qed.
Print Assumptions C08_unwrap_loop_diverges_refuted.

(** Fidelity: a value within the limits in which no address occurs twice is emitted exactly. *)
Theorem C08_unshared_values_are_exact : forall h utf8 maxlen ufuel, chains_end h ufuel ->
  forall n nm v ty w A, shows h utf8 maxlen n v ty w A -> NoDup A ->
  exists vis, stream_field h utf8 maxlen ufuel n [] nm v None = Some (ty, w, vis).
Proof. exact shows_top. Qed.
Print Assumptions C08_unshared_values_are_exact.

(** Truncated texts stay distinguishable by length and kept prefix. *)
Theorem C08_truncation_note_keeps_length : forall maxlen s t,
  limit_string maxlen s = limit_string maxlen t ->
  blen s = blen t /\ firstn (N.to_nat maxlen) s = firstn (N.to_nat maxlen) t.
Proof. exact limit_string_info. Qed.
Print Assumptions C08_truncation_note_keeps_length.
(** Finding: cut slices carry no note; slices of different length are emitted alike. *)
Theorem C08_cut_slices_unmarked_refuted : exists h v1 v2, v1 <> v2 /\
  forall utf8 ufuel, stream_field h utf8 2 ufuel 5 [] (B "s") v1 None =
                     stream_field h utf8 2 ufuel 5 [] (B "s") v2 None.
Proof.
  exists (mkHeap (fun _ => RInvalid) (fun _ => EBools []) (fun _ => []) (fun _ => [])),
    (RArr (B "[]int") (EI64s [1; 2; 3]%Z)), (RArr (B "[]int") (EI64s [1; 2; 4; 5]%Z)).
  split; [discriminate|]. intros utf8 [|ufuel]; reflexivity.
Qed.
Print Assumptions C08_cut_slices_unmarked_refuted.

(** ** Concrete states *)
(** type node struct { Val int; Next *node }: a cycle of two nodes, and a list. *)
Definition node (val : Z) (next : option N) : rv :=
  RStruct (B "p.node") [(B "Val", RScalar (B "int") (PInt64 val)); (B "Next", RPtr (B "*p.node") next)].
Definition ex_heap : heap :=
  mkHeap (fun a => if a =? 10 then node 1 (Some 20) else if a =? 20 then node 2 (Some 10)
                   else if a =? 30 then node 3 (Some 40) else node 4 None)
         (fun i => if i =? 1 then EVals [RPtr (B "*p.node") (Some 30); RPtr (B "*p.node") None]
                   else EStrs [B "abcdef"; B "xy"])
         (fun a => [(B "k", RStr (B "string") (B "v")); (B "l", RSlice (B "[]string") (Some (70, 2)))])
         (fun a => [(B "k", RStr (B "string") (B "v")); (B "l", RSlice (B "[]string") (Some (70, 2)))]).
Definition ex_snaps : list (bytes * rv) :=
  [(B "cyc", RPtr (B "*p.node") (Some 10)); (B "nil", RInvalid);
   (B "lst", RSlice (B "[]*p.node") (Some (60, 1))); (B "m", RMap (B "map[string]any") (Some 80))].
Lemma node_ok_ex val nx : in_i64 val -> rv_ok 21 (node val nx).
Proof.
  intros Hv. unfold node. constructor; [reflexivity|vm_compute; discriminate|].
  intros nm v [E|[E|[]]]; apply pair_equal_spec in E; destruct E as [<- <-]; (split; [vm_compute; discriminate|]).
  - constructor; [reflexivity|exact I|exact Hv].
  - constructor; reflexivity.
Qed.
Example C08_ex_heap_ok : heap_ok 21 ex_heap.
Proof.
  split; [|split].
  - intros a. cbn [h_ptr ex_heap]. repeat match goal with |- context [if ?c then _ else _] => destruct c end;
      apply node_ok_ex; unfold in_i64; lia.
  - intros i. cbn [h_slice ex_heap]. destruct (i =? 1); constructor.
    + intros v [<-|[<-|[]]]; constructor; reflexivity.
    + repeat constructor; reflexivity.
  - assert (H : forall nm v, In (nm, v) (h_map ex_heap 0) -> blen nm <= 21 /\ rv_ok 21 v).
    { intros nm v [E|[E|[]]]; apply pair_equal_spec in E; destruct E as [<- <-];
        (split; [vm_compute; discriminate|constructor; reflexivity]). }
    intros a nm v [Hin|Hin]; apply H; exact Hin.
Qed.
Example C08_ex_snaps_ok : forall nm v, In (nm, v) ex_snaps -> blen nm <= 21 /\ rv_ok 21 v.
Proof.
  intros nm v [E|[E|[E|[E|[]]]]]; apply pair_equal_spec in E; destruct E as [<- <-];
    (split; [vm_compute; discriminate|constructor; reflexivity]).
Qed.
Example C08_ex_chains : chains_end ex_heap 2.
Proof.
  assert (Hn : forall n val nx, ends ex_heap n (node val nx)) by (intros; apply en_stop; discriminate).
  assert (Hp : forall a n, ends ex_heap n (h_ptr ex_heap a)).
  { intros a n. cbn [h_ptr ex_heap]. repeat match goal with |- context [if ?c then _ else _] => destruct c end; apply Hn. }
  unfold chains_end. fix IH 1. intros [| ty' [v''|] | ty' [a|] | | | | | | | | |];
    try (apply en_stop; discriminate); try (constructor; fail).
  - apply en_iface, IH.
  - apply en_ptr, Hp.
Qed.
Definition all_text : bytes -> bool := fun _ => true.
Example C08_ex_run :
  stream_snaps ex_heap all_text 4 2 3 ex_snaps =
  Some [(B "cyc", B "p.node", WNode KStruct
          [(B "Val", B "int", WPrim (PInt64 1));
           (B "Next", B "p.node", WNode KStruct
              [(B "Val", B "int", WPrim (PInt64 2));
               (B "Next", B "*p.node", WPrim (PStr (B "<cycle:cyc>")))])]);
        (B "lst", B "[]*p.node", WNode KSlice
          [(B "[0]", B "p.node", WNode KStruct
              [(B "Val", B "int", WPrim (PInt64 3));
               (B "Next", B "p.node", WNode KStruct
                  [(B "Val", B "int", WPrim (PStr (B "<max-depth>")));
                   (B "Next", B "*p.node", WPrim PNil)])]);
           (B "[1]", B "*p.node", WPrim PNil)]);
        (B "m", B "map[string]any", WNode KMap
          [(B "k", B "string", WPrim (PStr (B "v")));
           (B "l", B "[]string", WPrim (PStrS [B "abcd" ++ ellipsis ++ B "(2 more)"; B "xy"]))])].
Proof. vm_compute. reflexivity. Qed.

(** The list starting at node 30 is unshared: its faithful picture. *)
Example C08_ex_shows : exists w A, shows ex_heap all_text 10 4 (RPtr (B "*p.node") (Some 30)) (B "p.node") w A /\ NoDup A.
Proof.
  eexists. eexists. split.
  - apply sh_struct with (fs := [(B "Val", RScalar (B "int") (PInt64 3)); (B "Next", RPtr (B "*p.node") (Some 40))]).
    + apply re_ptr. apply re_stop; discriminate.
    + apply shk_cons; [apply sh_scalar, re_stop; discriminate|]. apply shk_cons; [|apply shk_nil].
      apply sh_struct with (fs := [(B "Val", RScalar (B "int") (PInt64 4)); (B "Next", RPtr (B "*p.node") None)]).
      * apply re_ptr. apply re_stop; discriminate.
      * apply shk_cons; [apply sh_scalar, re_stop; discriminate|]. apply shk_cons; [|apply shk_nil].
        apply sh_nil, rn_ptr.
  - cbn. repeat constructor; cbn; intuition discriminate.
Qed.

(** Finding: two fields that merely share a pointer (no cycle) are not shown alike: the second
    one is reported as a cycle. *)
Theorem C08_shared_pointer_called_cycle_refuted : exists h v,
  chains_end h 2 /\
  stream_field h all_text 10 2 5 [] (B "p") v None =
  Some (B "p.pair", WNode KStruct
    [(B "A", B "int", WPrim (PInt64 7)); (B "B", B "*int", WPrim (PStr (B "<cycle:p.A>")))],
    Some [(5, B "p.A"); (9, B "p")]).
Proof.
  set (h := mkHeap (fun a => if a =? 9
       then RStruct (B "p.pair") [(B "A", RPtr (B "*int") (Some 5)); (B "B", RPtr (B "*int") (Some 5))]
       else RScalar (B "int") (PInt64 7)) (fun _ => EBools []) (fun _ => []) (fun _ => [])).
  exists h, (RPtr (B "*p.pair") (Some 9)). split; [|vm_compute; reflexivity].
  assert (Hp : forall a n, ends h n (h_ptr h a)).
  { intros a n. cbn [h_ptr h]. destruct (a =? 9); apply en_stop; discriminate. }
  unfold chains_end. fix IH 1. intros [| ty' [v''|] | ty' [a|] | | | | | | | | |];
    try (apply en_stop; discriminate); try (constructor; fail).
  - apply en_iface, IH.
  - apply en_ptr, Hp.
Qed.
Print Assumptions C08_shared_pointer_called_cycle_refuted.
