(** C09-C13: the stores. *)

From Verif Require Import Base Maps StorageModel StorageSpec StorageProofs StorageBadger.
From Coq Require Import Permutation.

(** ** C09 In-memory store *)

Theorem C09_mem_store_is_a_map : forall ord h,
  any_order ord ->
  let s := run (mem_storage ord) h mem_new in
  (forall k, sLoad (mem_storage ord) k s = LOk (last_write k h)) /\
  (forall p, lists_exactly p h (sList (mem_storage ord) p s)).
Proof.
  intros ord h Ho s. destruct (mem_map_store ord Ho h) as [H1 H2].
  - apply Forall_forall. intros [| |] _; cbn; auto.
  - split; [intros k; exact (H1 k I)|exact H2].
Qed.
Print Assumptions C09_mem_store_is_a_map.

(** A history with an overwrite, a delete and an empty blob, visited backwards. *)
Definition ex_hist : list op :=
  [Save (B "a/x") (B "1"); Save (B "a/y") (B "2"); Save (B "b") []; Save (B "a/x") (B "3");
   Delete (B "a/y"); Delete (B "zz")].
Example C09_ex :
  any_order (@rev bytes) /\
  sLoad (mem_storage (@rev bytes)) (B "a/x") (run (mem_storage (@rev bytes)) ex_hist mem_new)
    = LOk (Some (B "3")) /\
  sLoad (mem_storage (@rev bytes)) (B "a/y") (run (mem_storage (@rev bytes)) ex_hist mem_new)
    = LOk None /\
  sLoad (mem_storage (@rev bytes)) (B "b") (run (mem_storage (@rev bytes)) ex_hist mem_new)
    = LOk (Some []) /\
  sList (mem_storage (@rev bytes)) [] (run (mem_storage (@rev bytes)) ex_hist mem_new)
    = [B "b"; B "a/x"] /\
  sList (mem_storage (@rev bytes)) (B "a/") (run (mem_storage (@rev bytes)) ex_hist mem_new)
    = [B "a/x"].
Proof.
  split; [intros l; apply Permutation_sym, Permutation_rev|]. vm_compute. repeat split.
Qed.

(** ** C10 Namespaced views *)

(** Over any store that behaves as a map on the keys and blobs concerned, after
    any interleaving of calls through two separate views, each view reads and
    lists exactly what its own calls wrote. *)
Theorem C10_views_do_not_interfere :
  forall S (st : storage S) s0 kok bok p q (h : list (side * op)),
  map_store st s0 kok bok -> separate p q ->
  Forall (fun o : side * op => op_ok (fun k => kok ((if fst o then p else q) ++ B ";" ++ k)) bok (snd o)) h ->
  let A := key_prefix_storage st p in
  let C := key_prefix_storage st q in
  let s := two_run A C h s0 in
  ((forall k, kok (p ++ B ";" ++ k) -> sLoad A k s = LOk (last_write k (only left_ h))) /\
   (forall pre, lists_exactly pre (only left_ h) (sList A pre s))) /\
  ((forall k, kok (q ++ B ";" ++ k) -> sLoad C k s = LOk (last_write k (only right_ h))) /\
   (forall pre, lists_exactly pre (only right_ h) (sList C pre s))).
Proof.
  intros S st s0 kok bok p q h Hst Hsep Hok A C s.
  assert (forall n k, n ++ B ";" ++ k = vkey n k) as V by (intros; unfold vkey; apply app_assoc).
  assert (two_ok kok bok p q h) as Hok'.
  { unfold two_ok. eapply Forall_impl; [|exact Hok]. intros [w o] H. cbn [fst snd] in *.
    unfold ns. destruct o as [k b|k|], w; cbn in *; rewrite ?V in H; exact H. }
  split; [pose proof (view_reads st s0 kok bok Hst p q true h Hsep Hok') as [H1 H2]
         |pose proof (view_reads st s0 kok bok Hst p q false h Hsep Hok') as [H1 H2]];
    split; auto; intros k Hk; apply H1; rewrite V in Hk; exact Hk.
Qed.
Print Assumptions C10_views_do_not_interfere.

(** One view on its own is again a map store: views nest. *)
Theorem C10_view_is_a_map : forall S (st : storage S) s0 kok bok p,
  map_store st s0 kok bok -> p <> [] ->
  map_store (key_prefix_storage st p) s0 (fun k => kok (p ++ B ";" ++ k)) bok.
Proof.
  intros S st s0 kok bok p Hst Hp h Hh.
  destruct (view_map_store st s0 kok bok Hst p Hp h) as [H1 H2].
  - eapply Forall_impl; [|exact Hh]. intros [k b|k|]; cbn; unfold vkey; rewrite <- ?app_assoc; auto.
  - split; [|exact H2]. intros k Hk. apply H1. unfold vkey. rewrite <- app_assoc. exact Hk.
Qed.
Print Assumptions C10_view_is_a_map.

(** The two result views of an update run (lens/astexec.go:100, 170), over the
    in-memory store: no condition on keys or blobs. *)
Theorem C10_before_after_independent_in_memory : forall ord h,
  any_order ord ->
  let pre := key_prefix_storage (mem_storage ord) (B "pre") in
  let post := key_prefix_storage (mem_storage ord) (B "post") in
  let s := two_run pre post h mem_new in
  forall k p,
    sLoad pre k s = LOk (last_write k (only left_ h)) /\
    sLoad post k s = LOk (last_write k (only right_ h)) /\
    lists_exactly p (only left_ h) (sList pre p s) /\
    lists_exactly p (only right_ h) (sList post p s).
Proof.
  intros ord h Ho pre post s k p.
  destruct (C10_views_do_not_interfere mem (mem_storage ord) mem_new (fun _ => True) (fun _ => True)
    (B "pre") (B "post") h (mem_map_store ord Ho)) as [[H1 H2] [H3 H4]].
  - repeat split; try discriminate; intros [r Hr]; cbn in Hr; discriminate Hr.
  - apply Forall_forall. intros [w [k0 b|k0|]] _; cbn; auto.
  - split; [exact (H1 k I)|]. split; [exact (H3 k I)|]. split; [apply H2|apply H4].
Qed.
Print Assumptions C10_before_after_independent_in_memory.

(** The same over the persistent store, for blobs it can hold. *)
Theorem C10_before_after_independent_persistent : forall limit (h : list (side * op)),
  (0 < limit)%N ->
  Forall (fun o => match snd o with Save _ b => ordinary_blob b | _ => True end) h ->
  let pre := key_prefix_storage (bdg_storage limit) (B "pre") in
  let post := key_prefix_storage (bdg_storage limit) (B "post") in
  let s := two_run pre post h [] in
  forall k p,
    sLoad pre k s = LOk (last_write k (only left_ h)) /\
    sLoad post k s = LOk (last_write k (only right_ h)) /\
    lists_exactly p (only left_ h) (sList pre p s) /\
    lists_exactly p (only right_ h) (sList post p s).
Proof.
  intros limit h Hl Hb pre post s k p.
  assert (forall x, ordinary_key (B "pre" ++ B ";" ++ x)) as K1
    by (intros x; split; [discriminate|intros [r Hr]; cbn in Hr; discriminate Hr]).
  assert (forall x, ordinary_key (B "post" ++ B ";" ++ x)) as K2
    by (intros x; split; [discriminate|intros [r Hr]; cbn in Hr; discriminate Hr]).
  destruct (C10_views_do_not_interfere db (bdg_storage limit) [] ordinary_key ordinary_blob
    (B "pre") (B "post") h (bdg_map_store limit Hl)) as [[H1 H2] [H3 H4]].
  - repeat split; try discriminate; intros [r Hr]; cbn in Hr; discriminate Hr.
  - eapply Forall_impl; [|exact Hb]. intros [w [k0 b|k0|]] H; cbn [fst snd op_ok] in *; auto;
      destruct w; auto.
  - split; [apply H1, K1|]. split; [apply H3, K2|]. split; [apply H2|apply H4].
Qed.
Print Assumptions C10_before_after_independent_persistent.

(** Two views with a shared key name, a key containing ";", and a clear of one. *)
Definition ex_two : list (side * op) :=
  [(left_, Save (B "k") (B "old")); (right_, Save (B "k") (B "new"));
   (left_, Save (B "t;k") (B "x")); (right_, Save (B "z") (B "y")); (left_, Clear)].
Example C10_ex :
  let A := key_prefix_storage (mem_storage (fun l => l)) (B "pre") in
  let C := key_prefix_storage (mem_storage (fun l => l)) (B "post") in
  let s := two_run A C ex_two mem_new in
  separate (B "pre") (B "post") /\
  sList A [] s = [] /\ sLoad C (B "k") s = LOk (Some (B "new")) /\ sList C [] s = [B "k"; B "z"].
Proof.
  repeat split; try discriminate; intros [r Hr]; cbn in Hr; discriminate Hr.
Qed.

(** Without the side condition the claim is false: the view "a" reads and clears
    what the view "a;b" wrote. *)
Theorem C10_nested_names_interfere_refuted :
  exists p q h k, p <> [] /\ q <> [] /\ p <> q /\
    let A := key_prefix_storage (mem_storage (fun l => l)) p in
    let C := key_prefix_storage (mem_storage (fun l => l)) q in
    only left_ h = [] /\
    sLoad A k (two_run A C h mem_new) <> LOk (last_write k (only left_ h)) /\
    sLoad C (B "x") (two_run A C h mem_new) = LOk (Some (B "v")) /\
    sLoad C (B "x") (two_run A C (h ++ [(left_, Clear)]) mem_new) = LOk None.
Proof.
  exists (B "a"), (B "a;b"), [(right_, Save (B "x") (B "v"))], (B "b;x").
  repeat split; vm_compute; try discriminate; reflexivity.
Qed.
Print Assumptions C10_nested_names_interfere_refuted.

(** ** C11 Persistent store *)

(** Loads and listings agree with a plain map fed with the committed calls, for
    every split limit. *)
Theorem C11_persistent_store_is_a_map : forall limit h,
  (0 < limit)%N ->
  Forall (op_ok ordinary_key ordinary_blob) (committed h) ->
  let d := bdg_run limit h [] in
  (forall k, ordinary_key k -> bdg_load k d = LOk (last_write k (committed h))) /\
  (forall p, lists_exactly p (committed h) (bdg_list p d) /\ bsorted (bdg_list p d)).
Proof.
  intros limit h Hl Hh d. subst d. rewrite bdg_run_committed.
  destruct (bdg_map_store limit Hl (committed h) Hh) as [H1 H2]. split; [exact H1|].
  intros p. apply (bdg_list_exact limit Hl); [exact Hh|]. apply bdg_inv; assumption.
Qed.
Print Assumptions C11_persistent_store_is_a_map.

(** Nothing is left behind: every database entry is the main entry of a live key
    or one of the parts of a live blob that is over the limit, numbered below
    the number of its parts. *)
Theorem C11_no_residue : forall limit h x,
  (0 < limit)%N ->
  Forall (op_ok ordinary_key ordinary_blob) (committed h) ->
  mget x (bdg_run limit h []) <> None ->
  (exists b, last_write x (committed h) = Some b) \/
  (exists k b i n, last_write k (committed h) = Some b /\ (limit < N.of_nat (length b))%N /\
     least_pieces limit (N.of_nat (length b)) n /\ (i < n)%N /\
     x = B "badger_split:" ++ k ++ B "-" ++ itoa i).
Proof.
  intros limit h x Hl Hh. rewrite bdg_run_committed. intros Hx.
  destruct (bdg_residue limit Hl _ _ Hh Hx) as [H|(k & b & i & H1 & H2 & H3 & H4)]; [auto|].
  right. exists k, b, i, (num_parts limit (blen b)).
  split; [exact H1|]. split; [exact H2|]. split; [apply num_parts_least; exact Hl|].
  split; [exact H3|exact H4].
Qed.
Print Assumptions C11_no_residue.

(** In particular a store all of whose keys were deleted is an empty database. *)
Theorem C11_all_deleted_is_empty : forall limit h,
  (0 < limit)%N ->
  Forall (op_ok ordinary_key ordinary_blob) (committed h) ->
  (forall k, last_write k (committed h) = None) -> bdg_run limit h [] = [].
Proof.
  intros limit h Hl Hh Hd. apply amap_empty. intros x.
  destruct (mget x (bdg_run limit h [])) as [v|] eqn:E; [|reflexivity].
  destruct (C11_no_residue limit h x Hl Hh) as [[b Hb]|(k & b & i & n & H & _)]; [congruence| |].
  - rewrite Hd in Hb; discriminate.
  - rewrite Hd in H; discriminate.
Qed.
Print Assumptions C11_all_deleted_is_empty.

(** Limit 3: a split blob overwritten by a shorter split blob, a key whose name
    looks like a part suffix, a refused transaction, and a deletion. *)
Definition ex_bdg : list (op * bool) :=
  [(Save (B "k") (B "abcdefgh"), true); (Save (B "k-1") (B "xy"), true);
   (Save (B "k") (B "ABCDE"), true); (Save (B "k") (B "lost"), false);
   (Save (B "m") (B "0123456789"), true); (Delete (B "m"), true)].

Lemma literal_key s : has_prefix split_prefix (B s) = false -> B s <> [] -> ordinary_key (B s).
Proof.
  intros H Hn. split; [exact Hn|]. intros [r Hr]. rewrite Hr in H.
  change (B "badger_split:") with split_prefix in H. rewrite has_prefix_app in H. discriminate.
Qed.
Lemma literal_blob s :
  split_match (B s) = None -> B s <> [] -> (N.of_nat (length (B s)) <? 2 ^ 63)%N = true ->
  ordinary_blob (B s).
Proof.
  intros H Hn Hl. split; [exact Hn|]. split; [|apply N.ltb_lt; exact Hl].
  rewrite looks_like_marker_iff, H. congruence.
Qed.

Example C11_ex :
  Forall (op_ok ordinary_key ordinary_blob) (committed ex_bdg) /\
  bdg_load (B "k") (bdg_run 3 ex_bdg []) = LOk (Some (B "ABCDE")) /\
  bdg_load (B "k-1") (bdg_run 3 ex_bdg []) = LOk (Some (B "xy")) /\
  bdg_load (B "m") (bdg_run 3 ex_bdg []) = LOk None /\
  bdg_list [] (bdg_run 3 ex_bdg []) = [B "k"; B "k-1"] /\
  length (bdg_run 3 ex_bdg []) = 4%nat.
Proof.
  split; [|vm_compute; repeat split].
  unfold ex_bdg, committed; cbn [filter map fst snd].
  repeat apply Forall_cons; try apply Forall_nil; cbn [op_ok];
    try split; first [apply literal_key|apply literal_blob]; (reflexivity || discriminate).
Qed.

(** The conditions are needed.  An empty blob is saved without error and then
    reported absent (the in-memory store returns it). *)
Theorem C11_empty_blob_is_lost_refuted :
  forall limit, (0 < limit)%N -> exists k, ordinary_key k /\
    bdg_load k (bdg_run limit [(Save k [], true)] []) = LOk None /\
    bdg_list [] (bdg_run limit [(Save k [], true)] []) = [k] /\
    sLoad (mem_storage (fun l => l)) k (run (mem_storage (fun l => l)) [Save k []] mem_new)
      = LOk (Some []).
Proof.
  intros limit Hl. exists (B "k"). split; [apply literal_key; [reflexivity|discriminate]|].
  assert (forall d, bdg_save limit (B "k") [] d = mset (B "k") [] (wipe_old (B "k") d)) as E.
  { intros d. unfold bdg_save, save_writes.
    destruct (N.leb_spec (blen (@nil byte)) limit) as [_|C]; [reflexivity|].
    exfalso; unfold blen in C; cbn in C; lia. }
  unfold bdg_run, bdg_step. cbn [fold_left fst snd step bdg_storage sSave]. rewrite E.
  vm_compute. repeat split.
Qed.
Print Assumptions C11_empty_blob_is_lost_refuted.

(** A blob that reads like a split marker is saved without error and cannot be
    loaded again. *)
Theorem C11_marker_like_blob_is_lost_refuted :
  exists k b, ordinary_key k /\ b <> [] /\
    forall limit, (blen b <= limit)%N -> bdg_load k (bdg_run limit [(Save k b, true)] []) = LErr.
Proof.
  exists (B "k"), (B "badger_split:1:1:1"). split; [apply literal_key; [reflexivity|discriminate]|].
  split; [discriminate|]. intros limit Hl.
  unfold bdg_run, bdg_step. cbn [fold_left fst snd step bdg_storage sSave].
  unfold bdg_save, save_writes. rewrite (proj2 (N.leb_le _ _) Hl). vm_compute. reflexivity.
Qed.
Print Assumptions C11_marker_like_blob_is_lost_refuted.

(** A key in the reserved namespace overwrites part of another key's blob, and is
    never listed. *)
Theorem C11_reserved_key_corrupts_refuted :
  exists limit h k, ordinary_key k /\
    last_write k h = Some (B "abcdef") /\
    bdg_load k (run (bdg_storage limit) h []) = LOk (Some (B "XYZdef")) /\
    bdg_list [] (run (bdg_storage limit) h []) = [k] /\
    length (filter (fun o => match o with Save _ _ => true | _ => false end) h) = 2%nat.
Proof.
  exists 3%N, [Save (B "k") (B "abcdef"); Save (B "badger_split:k-0") (B "XYZ")], (B "k").
  split; [apply literal_key; [reflexivity|discriminate]|]. vm_compute. repeat split.
Qed.
Print Assumptions C11_reserved_key_corrupts_refuted.

(** ** C12 Split pieces *)

(** [save_writes] is the sequence of database writes a save makes. *)
Theorem C12_split_pieces : forall limit k b,
  (0 < limit)%N -> (limit < N.of_nat (length b))%N ->
  exists ps m,
    save_writes limit k b =
      map (fun jp => (B "badger_split:" ++ k ++ B "-" ++ itoa (N.of_nat (fst jp)), snd jp))
          (combine (seq 0 (length ps)) ps) ++ [(k, m)] /\
    concat ps = b /\
    Forall (fun p => p <> [] /\ (N.of_nat (length p) <= limit)%N) ps /\
    least_pieces limit (N.of_nat (length b)) (N.of_nat (length ps)) /\
    (forall p q, In p ps -> In q ps -> (length p <= length q + 1)%nat).
Proof.
  intros limit k b Hl Hb.
  assert (b <> []) as Hne by (intros ->; cbn in Hb; lia).
  exists (pieces limit k b), (marker (num_parts limit (blen b)) (blen b) (blen b)).
  split; [|split; [|split; [|split]]].
  - unfold save_writes. rewrite (proj2 (N.leb_gt (blen b) limit) Hb). cbn zeta. f_equal.
    unfold pieces; cbn zeta. rewrite map_length, part_writes_length.
    generalize (N.to_nat (num_parts limit (blen b))) as n.
    generalize (blen b / num_parts limit (blen b))%N as q.
    generalize (blen b mod num_parts limit (blen b))%N as r. intros r q n.
    assert (forall i off, part_writes k b q r (N.of_nat i) n off =
      map (fun jp => (B "badger_split:" ++ k ++ B "-" ++ itoa (N.of_nat (fst jp)), snd jp))
        (combine (seq i n) (map snd (part_writes k b q r (N.of_nat i) n off)))) as G;
      [|exact (G 0%nat 0%nat)].
    induction n as [|n IH]; intros i off; [reflexivity|].
    cbn [part_writes map snd seq combine fst].
    replace (N.of_nat i + 1)%N with (N.of_nat (S i)) by lia. rewrite <- IH. reflexivity.
  - apply pieces_join; assumption.
  - apply Forall_forall. intros p Hp. apply pieces_bound in Hp as [H1 H2]; auto.
    split; [intros ->; cbn in H1; lia|exact H2].
  - rewrite pieces_length, N2Nat.id. apply num_parts_least; exact Hl.
  - assert (forall p, In p (pieces limit k b) -> exists z,
      N.of_nat (length p) = part_size (blen b / num_parts limit (blen b))
        (blen b mod num_parts limit (blen b)) z) as Z.
    { intros p Hp. unfold pieces in Hp; cbn zeta in Hp. apply in_map_iff in Hp as (w & <- & Hw).
      apply In_nth_error in Hw as [j Hj].
      apply piece_length in Hj as [Hj _]; [exists (N.of_nat j); exact Hj|].
      apply num_parts_pos; [exact Hl|unfold blen; lia]. }
    intros p q Hp Hq. destruct (Z p Hp) as [x Hx], (Z q Hq) as [y Hy].
    unfold part_size in Hx, Hy.
    set (u := (blen b / num_parts limit (blen b))%N) in *. clearbody u.
    destruct (x <? _)%N, (y <? _)%N; lia.
Qed.
Print Assumptions C12_split_pieces.

Theorem C12_small_blob_whole : forall limit k b,
  (N.of_nat (length b) <= limit)%N -> save_writes limit k b = [(k, b)].
Proof. intros limit k b H. unfold save_writes. rewrite (proj2 (N.leb_le (blen b) limit) H). reflexivity. Qed.
Print Assumptions C12_small_blob_whole.

(** The writes are what the database then holds, on top of what was there minus
    old parts. *)
Theorem C12_writes_are_stored : forall limit k b h x v,
  (0 < limit)%N -> ordinary_key k -> ordinary_blob b ->
  Forall (op_ok ordinary_key ordinary_blob) h ->
  In (x, v) (save_writes limit k b) ->
  mget x (run (bdg_storage limit) (h ++ [Save k b]) []) = Some v.
Proof.
  intros limit k b h x v Hl Hk Hb Hh Hin.
  assert (Forall (op_ok ordinary_key ordinary_blob) (h ++ [Save k b])) as Hh'
    by (apply Forall_app; split; [exact Hh|constructor; [split; assumption|constructor]]).
  destruct (bdg_inv limit Hl _ Hh') as (_ & Hown & _).
  rewrite (Hown k x Hk).
  - rewrite last_write_snoc. destruct (bytes_eq_dec k k); [|congruence].
    apply mget_in_wf; [apply save_writes_nodup; exact Hk|exact Hin].
  - eapply save_writes_owned. apply (in_map fst) in Hin. exact Hin.
Qed.
Print Assumptions C12_writes_are_stored.

Example C12_ex :
  map snd (save_writes 4 (B "k") (B "0123456789")) =
    [B "0123"; B "456"; B "789"; B "badger_split:3:10:10"] /\
  map fst (save_writes 4 (B "k") (B "0123456789")) =
    [B "badger_split:k-0"; B "badger_split:k-1"; B "badger_split:k-2"; B "k"].
Proof. vm_compute. split; reflexivity. Qed.

(** ** C13 Loads concurrent with saves

    A load reads the main entry in one database version and the parts in a
    later one.  [h1] is what was committed before the first read, [h2] what was
    committed in between. *)

Definition history_ok (h : list op) : Prop := Forall (op_ok ordinary_key ordinary_blob) h.

(** [r] is an error or the value current at some moment from the first read to
    the second. *)
Definition atomic_result (k : bytes) (h1 h2 : list op) (r : lres) : Prop :=
  r = LErr \/ exists h h', h2 = h ++ h' /\ r = LOk (last_write k (h1 ++ h)).

(** The claim holds whenever the over-limit blobs saved under the key have one
    length... *)
Theorem C13_load_is_atomic_for_equal_sizes : forall limit h1 h2 k,
  (0 < limit)%N -> history_ok (h1 ++ h2) -> ordinary_key k ->
  (forall b1 b2, In (Save k b1) (h1 ++ h2) -> In (Save k b2) (h1 ++ h2) ->
     (limit < N.of_nat (length b1))%N -> (limit < N.of_nat (length b2))%N ->
     length b1 = length b2) ->
  atomic_result k h1 h2
    (bdg_load2 k (run (bdg_storage limit) h1 []) (run (bdg_storage limit) (h1 ++ h2) [])).
Proof.
  intros limit h1 h2 k Hl Hh Hk Hsz.
  assert (history_ok h1) as Hh1 by (apply Forall_app in Hh; apply Hh).
  rewrite (bdg_load2_exact limit Hl h1 (h1 ++ h2)); auto using bdg_inv.
  destruct (load2_same limit Hl k (last_write k h1) (last_write k (h1 ++ h2))) as [-> | [-> | ->] ].
  - intros b; apply last_write_nonempty; assumption.
  - intros b1 b2 E1 E2 L1 L2. apply last_write_saved in E1, E2.
    apply Hsz; auto. apply in_app_iff; auto.
  - left; reflexivity.
  - right. exists [], h2. rewrite app_nil_r. auto.
  - right. exists h2, []. rewrite app_nil_r. auto.
Qed.
Print Assumptions C13_load_is_atomic_for_equal_sizes.

(** ... and whenever the blob first seen is not over the limit. *)
Theorem C13_small_blob_load_is_atomic : forall limit h1 h2 k,
  (0 < limit)%N -> history_ok (h1 ++ h2) -> ordinary_key k ->
  (forall b, last_write k h1 = Some b -> (N.of_nat (length b) <= limit)%N) ->
  bdg_load2 k (run (bdg_storage limit) h1 []) (run (bdg_storage limit) (h1 ++ h2) [])
    = LOk (last_write k h1).
Proof.
  intros limit h1 h2 k Hl Hh Hk Hsm.
  assert (history_ok h1) as Hh1 by (apply Forall_app in Hh; apply Hh).
  rewrite (bdg_load2_exact limit Hl h1 (h1 ++ h2)); auto using bdg_inv.
  unfold load2_result. destruct (last_write k h1) as [b|]; [|reflexivity].
  rewrite (proj2 (N.leb_le (blen b) limit) (Hsm b eq_refl)). reflexivity.
Qed.
Print Assumptions C13_small_blob_load_is_atomic.

(** In every case a load does not panic, and what it returns comes from one
    version only: the blob first seen, or a prefix of the later blob followed by
    zero bytes, cut to the length announced by the first version. *)
Theorem C13_load_never_panics_never_mixes : forall limit h1 h2 k,
  (0 < limit)%N -> history_ok (h1 ++ h2) -> ordinary_key k ->
  let r := bdg_load2 k (run (bdg_storage limit) h1 []) (run (bdg_storage limit) (h1 ++ h2) []) in
  r = LErr \/ r = LOk (last_write k h1) \/
  exists b1 b2 n m, last_write k h1 = Some b1 /\ last_write k (h1 ++ h2) = Some b2 /\
    r = LOk (Some (firstn n b2 ++ repeat Ascii.zero m)) /\ (n + m)%nat = length b1.
Proof.
  intros limit h1 h2 k Hl Hh Hk r. subst r.
  assert (history_ok h1) as Hh1 by (apply Forall_app in Hh; apply Hh).
  rewrite (bdg_load2_exact limit Hl h1 (h1 ++ h2)); auto using bdg_inv.
  unfold load2_result. destruct (last_write k h1) as [b1|] eqn:E1; [|auto].
  destruct (blen b1 <=? limit)%N; [auto|].
  destruct (last_write k (h1 ++ h2)) as [b2|] eqn:E2; [|auto].
  destruct (blen b2 <=? limit)%N; [auto|].
  destruct (_ <? _)%N; [auto|]. right; right.
  assert (b2 <> []) as Hne by exact (last_write_nonempty _ _ _ Hh E2).
  set (n1 := num_parts limit (blen b1)).
  assert (exists z, head_pieces limit k b2 n1 = firstn z b2) as [z Hz].
  { unfold head_pieces. exists (length (concat (firstn (N.to_nat n1) (pieces limit k b2)))).
    rewrite <- (pieces_join limit k b2 Hl Hne) at 3.
    rewrite <- (firstn_skipn (N.to_nat n1) (pieces limit k b2)) at 3.
    rewrite concat_app, firstn_app_exact. reflexivity. }
  rewrite Hz. exists b1, b2.
  destruct (Nat.le_gt_cases (length b1) (length (firstn z b2))) as [Hle|Hgt].
  - exists (length b1), 0%nat. split; [reflexivity|]. split; [reflexivity|]. split; [|lia].
    rewrite (pad_ge limit Hl) by exact Hle. cbn. rewrite app_nil_r, firstn_firstn.
    rewrite firstn_length in Hle. rewrite Nat.min_l by lia. reflexivity.
  - exists (length (firstn z b2)), (length b1 - length (firstn z b2))%nat.
    split; [reflexivity|]. split; [reflexivity|]. split; [|lia].
    rewrite (pad_le limit Hl) by lia. do 3 f_equal.
    rewrite firstn_length. destruct (Nat.min_spec z (length b2)) as [[? ->]|[? ->]]; [reflexivity|].
    rewrite firstn_all, firstn_all2 by lia. reflexivity.
Qed.
Print Assumptions C13_load_never_panics_never_mixes.

(** With blobs of different over-limit sizes the load returns a value that was
    never saved. *)
Theorem C13_torn_load_refuted :
  exists limit h1 h2 k,
    (0 < limit)%N /\ history_ok (h1 ++ h2) /\ ordinary_key k /\
    ~ atomic_result k h1 h2
        (bdg_load2 k (run (bdg_storage limit) h1 []) (run (bdg_storage limit) (h1 ++ h2) [])).
Proof.
  exists 3%N, [Save (B "k") (B "abcdef")], [Save (B "k") (B "WXYZ")], (B "k").
  split; [lia|]. split.
  { repeat apply Forall_cons; try apply Forall_nil; cbn [op_ok];
    try split; first [apply literal_key|apply literal_blob]; (reflexivity || discriminate). }
  split; [apply literal_key; [reflexivity|discriminate]|].
  intros [H|(h & h' & E & H)]; [vm_compute in H; discriminate|].
  destruct h as [|o [|o' h]].
  - vm_compute in H. discriminate.
  - injection E as <- E. vm_compute in H. discriminate.
  - injection E as _ E. destruct h; discriminate.
Qed.
Print Assumptions C13_torn_load_refuted.

Example C13_ex :
  bdg_load2 (B "k") (run (bdg_storage 3) [Save (B "k") (B "abcdef")] [])
    (run (bdg_storage 3) [Save (B "k") (B "abcdef"); Save (B "k") (B "UVWXYZ")] [])
    = LOk (Some (B "UVWXYZ")) /\
  bdg_load2 (B "k") (run (bdg_storage 3) [Save (B "k") (B "abcdef")] [])
    (run (bdg_storage 3) [Save (B "k") (B "abcdef"); Delete (B "k")] []) = LErr.
Proof. vm_compute. split; reflexivity. Qed.
