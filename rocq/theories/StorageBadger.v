(** The badger store simulates a plain map. *)

From Verif Require Import Base Maps StorageModel StorageSpec StorageProofs.
From Coq Require Import Permutation Sorted.

(** ** Applying a list of writes *)

Definition apply_writes (ws : list (bytes * bytes)) (d : db) : db :=
  fold_left (fun d w => mset (fst w) (snd w) d) ws d.

Lemma apply_writes_get ws : forall d x, NoDup (map fst ws) ->
  mget x (apply_writes ws d) = match mget x ws with Some v => Some v | None => mget x d end.
Proof.
  unfold apply_writes. induction ws as [|[k v] ws IH]; intros d x H; [reflexivity|].
  cbn [map fst] in H. apply NoDup_cons_iff in H as [Hk H].
  cbn [fold_left fst snd mget]. rewrite IH by exact H. rewrite mget_mset.
  destruct (beq_spec x k) as [->|Hx]; [|reflexivity].
  destruct (mget k ws) eqn:E; [|reflexivity].
  exfalso; apply Hk. apply (mget_keys k ws). congruence.
Qed.

Lemma apply_writes_wf ws : forall d, mwf d -> mwf (apply_writes ws d).
Proof.
  unfold apply_writes. induction ws as [|w ws IH]; intros d H; cbn; [exact H|].
  apply IH, mwf_mset, H.
Qed.

Lemma part_writes_keys key blob base rem n : forall i off,
  map fst (part_writes key blob base rem i n off) =
  map (fun j => part_key key (i + N.of_nat j)) (seq 0 n).
Proof.
  induction n as [|n IH]; intros i off; [reflexivity|].
  cbn [part_writes map fst seq]. rewrite IH, <- seq_shift, map_map.
  change (N.of_nat 0) with 0%N. rewrite N.add_0_r. f_equal.
  apply map_ext; intros j. f_equal; lia.
Qed.

Lemma part_writes_nodup key blob base rem n i off :
  NoDup (map fst (part_writes key blob base rem i n off)).
Proof.
  rewrite part_writes_keys.
  apply (FinFun.Injective_map_NoDup (f:=fun j => part_key key (i + N.of_nat j)));
    [|apply seq_NoDup].
  intros a b E. apply part_key_inj in E as [_ E]. lia.
Qed.

(** The keys belonging to [k]: the main key and its part keys. *)
Definition owned (k x : bytes) : Prop := x = k \/ exists i, x = part_key k i.

Lemma save_writes_owned limit k b x : In x (map fst (save_writes limit k b)) -> owned k x.
Proof.
  unfold save_writes. destruct (blen b <=? limit)%N; cbn zeta.
  - intros [<-|[]]; left; reflexivity.
  - rewrite map_app, in_app_iff, part_writes_keys. intros [H|[<-|[]]]; [|left; reflexivity].
    apply in_map_iff in H as (j & <- & _). right; eexists; reflexivity.
Qed.

Lemma save_writes_nodup limit k b : ordinary_key k -> NoDup (map fst (save_writes limit k b)).
Proof.
  intros Hk. unfold save_writes. destruct (blen b <=? limit)%N; cbn zeta.
  - repeat constructor; intros [].
  - rewrite map_app. apply NoDup_app_iff. split; [apply part_writes_nodup|].
    split; [repeat constructor; intros []|].
    intros x H [<-|[]]. rewrite part_writes_keys in H. apply in_map_iff in H as (j & E & _).
    cbn [fst] in E. exact (ordinary_not_part _ _ _ Hk (eq_sym E)).
Qed.

Lemma owned_disjoint k k' x : ordinary_key k -> ordinary_key k' -> owned k x -> owned k' x -> k = k'.
Proof.
  intros H H' [->|[i ->]] [E|[j E]].
  - exact E.
  - exfalso; exact (ordinary_not_part _ _ _ H E).
  - exfalso; exact (ordinary_not_part _ _ _ H' (eq_sym E)).
  - apply part_key_inj in E as [-> _]; reflexivity.
Qed.

(** ** What is stored for a blob *)

Definition pieces (limit : N) (k b : bytes) : list bytes :=
  let len := blen b in let parts := num_parts limit len in
  map snd (part_writes k b (len / parts) (len mod parts) 0 (N.to_nat parts) 0).

Lemma pieces_length limit k b : length (pieces limit k b) = N.to_nat (num_parts limit (blen b)).
Proof. unfold pieces; cbn zeta. rewrite map_length. apply part_writes_length. Qed.

Lemma pieces_join limit k b : (0 < limit)%N -> b <> [] -> concat (pieces limit k b) = b.
Proof.
  intros Hl Hb. unfold pieces; cbn zeta. rewrite part_writes_join.
  assert (0 < blen b)%N as Hn by (destruct b; [congruence|unfold blen; cbn; lia]).
  rewrite sizes_sum_total by (apply num_parts_pos; assumption).
  unfold blen. rewrite Nat2N.id. cbn [skipn]. apply firstn_all.
Qed.

Lemma pieces_bound limit k b p : (0 < limit)%N -> b <> [] ->
  In p (pieces limit k b) -> (1 <= blen p <= limit)%N.
Proof.
  intros Hl Hb H. unfold pieces in H; cbn zeta in H. apply in_map_iff in H as (w & <- & Hw).
  assert (0 < blen b)%N as Hn by (destruct b; [congruence|unfold blen; cbn; lia]).
  apply In_nth_error in Hw as [j Hj].
  apply piece_length in Hj as [Hj _]; [|apply num_parts_pos; assumption].
  unfold blen at 1 2. rewrite Hj. apply part_size_bounds; assumption.
Qed.

Lemma mget_part_writes key blob base rem n : forall i off j,
  mget (part_key key (i + N.of_nat j)) (part_writes key blob base rem i n off) =
  nth_error (map snd (part_writes key blob base rem i n off)) j.
Proof.
  induction n as [|n IH]; intros i off j; [destruct j; reflexivity|].
  cbn [part_writes map snd mget]. destruct j as [|j]; cbn [nth_error].
  - rewrite N.add_0_r, beq_refl. reflexivity.
  - rewrite (proj2 (beq_false _ _)).
    + replace (i + N.of_nat (S j))%N with (i + 1 + N.of_nat j)%N by lia. apply IH.
    + intros E. apply part_key_inj in E as [_ E]. lia.
Qed.

Lemma mget_app {V} k (m1 m2 : amap V) :
  mget k (m1 ++ m2) = match mget k m1 with Some v => Some v | None => mget k m2 end.
Proof.
  induction m1 as [|[q w] m1 IH]; cbn; [reflexivity|]. destruct (beq k q); auto.
Qed.

Lemma mget_save_main limit k b : ordinary_key k ->
  mget k (save_writes limit k b) =
  Some (if (blen b <=? limit)%N then b else marker (num_parts limit (blen b)) (blen b) (blen b)).
Proof.
  intros Hk. unfold save_writes. destruct (blen b <=? limit)%N; cbn zeta.
  - cbn. rewrite beq_refl; reflexivity.
  - rewrite mget_app.
    destruct (mget k (part_writes _ _ _ _ _ _ _)) eqn:E.
    + exfalso. apply mget_in, (in_map fst) in E. rewrite part_writes_keys in E.
      apply in_map_iff in E as (j & E & _). cbn [fst] in E.
      exact (ordinary_not_part _ _ _ Hk (eq_sym E)).
    + cbn. rewrite beq_refl; reflexivity.
Qed.

Lemma mget_save_part limit k b i : ordinary_key k ->
  mget (part_key k i) (save_writes limit k b) =
  if (blen b <=? limit)%N then None else nth_error (pieces limit k b) (N.to_nat i).
Proof.
  intros Hk. unfold save_writes, pieces. destruct (blen b <=? limit)%N; cbn zeta.
  - cbn. rewrite (proj2 (beq_false _ _)); [reflexivity|].
    intros E; exact (ordinary_not_part _ _ _ Hk (eq_sym E)).
  - rewrite mget_app. rewrite <- (N2Nat.id i) at 1. rewrite <- (N.add_0_l (N.of_nat _)).
    rewrite mget_part_writes. destruct (nth_error _ _); [reflexivity|].
    cbn. rewrite (proj2 (beq_false _ _)); [reflexivity|].
    intros E; exact (ordinary_not_part _ _ _ Hk (eq_sym E)).
Qed.

(** ** Deleting parts *)

Lemma delete_parts_get key n : forall i d x,
  mget x (delete_parts key i n d) =
  if existsb (fun j => beq x (part_key key (i + N.of_nat j))) (seq 0 n) then None else mget x d.
Proof.
  induction n as [|n IH]; intros i d x; [reflexivity|].
  cbn [delete_parts seq existsb]. rewrite IH, mget_mdel, <- seq_shift.
  change (N.of_nat 0) with 0%N. rewrite N.add_0_r.
  assert (existsb (fun j => beq x (part_key key (i + N.of_nat j))) (map S (seq 0 n)) =
          existsb (fun j => beq x (part_key key (i + 1 + N.of_nat j))) (seq 0 n)) as ->.
  { generalize (seq 0 n) as l; induction l as [|a l IHl]; [reflexivity|].
    cbn [map existsb]. rewrite IHl. do 3 f_equal. lia. }
  destruct (beq x (part_key key i)); cbn [orb].
  - destruct (existsb _ _); reflexivity.
  - reflexivity.
Qed.

Lemma delete_parts_wf key n : forall i d, mwf d -> mwf (delete_parts key i n d).
Proof. induction n as [|n IH]; intros i d H; cbn; [exact H|]. apply IH, mwf_mdel, H. Qed.

Lemma delete_parts_other key n i d x :
  (forall j, x <> part_key key j) -> mget x (delete_parts key i n d) = mget x d.
Proof.
  intros H. rewrite delete_parts_get.
  destruct (existsb _ _) eqn:E; [|reflexivity].
  apply existsb_exists in E as (j & _ & E). apply beq_true in E. exfalso; exact (H _ E).
Qed.

Lemma delete_parts_part key n d i :
  mget (part_key key i) (delete_parts key 0 n d) =
  if (i <? N.of_nat n)%N then None else mget (part_key key i) d.
Proof.
  rewrite delete_parts_get. destruct (existsb _ _) eqn:E.
  - apply existsb_exists in E as (j & Hj & E). apply beq_true, part_key_inj in E as [_ E].
    apply in_seq in Hj. rewrite (proj2 (N.ltb_lt _ _)); [reflexivity|lia].
  - destruct (N.ltb_spec i (N.of_nat n)) as [Hi|Hi]; [|reflexivity].
    assert (existsb (fun j => beq (part_key key i) (part_key key (0 + N.of_nat j))) (seq 0 n) = true)
      as C; [|congruence].
    apply existsb_exists. exists (N.to_nat i). split; [apply in_seq; lia|].
    apply beq_true. f_equal. lia.
Qed.

(** ** The invariant *)

(** What the database holds for key [k] when a map holds [o] there. *)
Definition image (limit : N) (k : bytes) (o : option bytes) : list (bytes * bytes) :=
  match o with Some b => save_writes limit k b | None => [] end.

Definition binv (limit : N) (h : list op) (d : db) : Prop :=
  mwf d /\
  (forall k x, ordinary_key k -> owned k x -> mget x d = mget x (image limit k (last_write k h))) /\
  (forall x, mget x d <> None -> exists k, ordinary_key k /\ owned k x).

Section Badger.
Variable limit : N.
Hypothesis Hlimit : (0 < limit)%N.

Let good := op_ok ordinary_key ordinary_blob.

Lemma wipe_old_spec h d k :
  Forall good h -> binv limit h d -> ordinary_key k ->
  mwf (wipe_old k d) /\
  mget k (wipe_old k d) = mget k d /\
  (forall i, mget (part_key k i) (wipe_old k d) = None) /\
  (forall x, ~ owned k x -> mget x (wipe_old k d) = mget x d).
Proof.
  intros Hh (Hwf & Hown & _) Hk.
  pose proof (Hown k k Hk (or_introl eq_refl)) as Hmain.
  assert (forall i, mget (part_key k i) d = mget (part_key k i) (image limit k (last_write k h)))
    as Hpart by (intros i; apply Hown; [exact Hk|right; exists i; reflexivity]).
  unfold wipe_old. rewrite Hmain.
  destruct (last_write k h) as [b|] eqn:E; cbn [image] in *.
  - apply (last_write_ok _ _ _ _ _ Hh) in E as [_ (Hne & Hmk & Hlen)].
    rewrite mget_save_main by exact Hk.
    destruct (blen b <=? limit)%N eqn:El.
    + destruct (split_match b) as [[[u v] w]|] eqn:Es.
      * exfalso; apply Hmk, looks_like_marker_iff. congruence.
      * split; [exact Hwf|]. split; [rewrite Hmain, mget_save_main, El by exact Hk; reflexivity|].
        split; [|auto]. intros i. rewrite Hpart, mget_save_part, El by exact Hk. reflexivity.
    + rewrite split_match_of_marker.
      assert (num_parts limit (blen b) < 2 ^ 63)%N as Hp.
      { eapply N.le_lt_trans; [apply num_parts_le; exact Hlimit|exact Hlen]. }
      rewrite atoi_unchecked_itoa by exact Hp.
      split; [apply delete_parts_wf; exact Hwf|].
      split.
      { rewrite delete_parts_other by (intros j; apply ordinary_not_part; exact Hk).
        rewrite Hmain, mget_save_main, El by exact Hk. reflexivity. }
      split.
      * intros i. rewrite delete_parts_part, N2Nat.id.
        destruct (N.ltb_spec i (num_parts limit (blen b))) as [|Hi]; [reflexivity|].
        rewrite Hpart, mget_save_part, El by exact Hk.
        apply nth_error_None. rewrite pieces_length. lia.
      * intros x Hx. apply delete_parts_other. intros j ->. apply Hx; right; exists j; reflexivity.
  - split; [exact Hwf|]. split; [exact Hmain|]. split; [|auto]. intros i; apply Hpart.
Qed.

Lemma save_inv h d k b :
  Forall good h -> binv limit h d -> ordinary_key k -> ordinary_blob b ->
  binv limit (h ++ [Save k b]) (bdg_save limit k b d).
Proof.
  intros Hh Hinv Hk Hb.
  destruct (wipe_old_spec h d k Hh Hinv Hk) as (Wwf & Wmain & Wpart & Woth).
  destruct Hinv as (Hwf & Hown & Hres).
  unfold bdg_save. fold (apply_writes (save_writes limit k b) (wipe_old k d)).
  pose proof (save_writes_nodup limit k b Hk) as Hnd.
  assert (forall x, ~ owned k x -> mget x (apply_writes (save_writes limit k b) (wipe_old k d)) = mget x d)
    as Hoth.
  { intros x Hx. rewrite apply_writes_get by exact Hnd.
    destruct (mget x (save_writes limit k b)) eqn:E; [|apply Woth; exact Hx].
    exfalso; apply Hx. apply mget_in, (in_map fst) in E. eapply save_writes_owned; exact E. }
  split; [apply apply_writes_wf; exact Wwf|]. split.
  - intros k' x Hk' Hx. rewrite last_write_snoc.
    destruct (bytes_eq_dec k k') as [->|Hne]; cbn [image].
    + rewrite apply_writes_get by exact Hnd.
      destruct (mget x (save_writes limit k' b)) eqn:E; [reflexivity|].
      destruct Hx as [->|[i ->]]; [|apply Wpart].
      rewrite mget_save_main in E by exact Hk. discriminate.
    + rewrite Hoth; [apply Hown; assumption|].
      intros Hx'. apply Hne. eapply owned_disjoint; eassumption.
  - intros x Hx. rewrite apply_writes_get in Hx by exact Hnd.
    destruct (mget x (save_writes limit k b)) eqn:E.
    + exists k; split; [exact Hk|]. apply mget_in, (in_map fst) in E.
      eapply save_writes_owned; exact E.
    + destruct (mget x d) eqn:E'; [apply Hres; congruence|].
      exfalso. destruct (in_dec bytes_eq_dec x (mkeys (wipe_old k d))) as [i|n].
      * apply mget_keys in i. assert (~ owned k x \/ owned k x) as [Ho|Ho].
        { destruct (bytes_eq_dec x k) as [->|Hn]; [right; left; reflexivity|].
          left. intros [|[j ->]]; [congruence|]. apply i, Wpart. }
        -- rewrite Woth in i by exact Ho. congruence.
        -- destruct Ho as [->|[j ->]]; [congruence|]. apply i, Wpart.
      * apply n. apply mget_keys. exact Hx.
Qed.

Lemma delete_inv h d k :
  Forall good h -> binv limit h d -> ordinary_key k ->
  binv limit (h ++ [Delete k]) (bdg_delete k d).
Proof.
  intros Hh Hinv Hk.
  destruct (wipe_old_spec h d k Hh Hinv Hk) as (Wwf & Wmain & Wpart & Woth).
  destruct Hinv as (Hwf & Hown & Hres).
  assert (forall x, mget x (bdg_delete k d) = if beq x k then None else mget x (wipe_old k d)) as G.
  { intros x. unfold bdg_delete. destruct (mget k d) as [v|] eqn:E.
    - apply mget_mdel.
    - unfold wipe_old. rewrite E. destruct (beq_spec x k) as [->|]; auto. }
  split.
  { unfold bdg_delete. destruct (mget k d); [apply mwf_mdel; exact Wwf|exact Hwf]. }
  split.
  - intros k' x Hk' Hx. rewrite last_write_snoc, G.
    destruct (bytes_eq_dec k k') as [->|Hne]; cbn [image].
    + destruct (beq_spec x k') as [->|Hn]; [reflexivity|].
      destruct Hx as [->|[i ->]]; [congruence|]. apply Wpart.
    + assert (~ owned k x) as Ho by (intros Hx'; apply Hne; eapply owned_disjoint; eassumption).
      destruct (beq_spec x k) as [->|Hn]; [exfalso; apply Ho; left; reflexivity|].
      rewrite Woth by exact Ho. apply Hown; assumption.
  - intros x. rewrite G. destruct (beq_spec x k) as [->|Hn]; [congruence|]. intros Hx.
    destruct (mget x d) eqn:E; [apply Hres; congruence|].
    exfalso; apply Hx. rewrite Woth; [exact E|].
    intros [->|[j ->]]; [congruence|]. apply Hx, Wpart.
Qed.

Lemma bdg_inv h : Forall good h -> binv limit h (run (bdg_storage limit) h []).
Proof.
  induction h as [|o h IH] using rev_ind; intros Hh.
  - split; [constructor|]. split; [reflexivity|]. intros x H; cbn in H; congruence.
  - apply Forall_app in Hh as [Hh Ho]. inversion Ho as [|? ? Ho' _]; subst.
    rewrite run_snoc. destruct o as [k b|k|].
    + apply save_inv; [exact Hh|apply IH; exact Hh|apply Ho'|apply Ho'].
    + apply delete_inv; [exact Hh|apply IH; exact Hh|exact Ho'].
    + split; [constructor|]. split.
      * intros k x _ _. rewrite last_write_snoc. reflexivity.
      * intros x H; cbn in H; congruence.
Qed.

(** ** Reading back *)

Definition pad (L : nat) (c : bytes) : bytes := firstn L (c ++ repeat Ascii.zero L).

Lemma pad_length L c : length (pad L c) = L.
Proof. unfold pad. rewrite firstn_length, app_length, repeat_length. lia. Qed.

Lemma pad_le L c : (length c <= L)%nat -> pad L c = c ++ repeat Ascii.zero (L - length c).
Proof.
  intros H. unfold pad. rewrite firstn_app, firstn_all2 by lia. f_equal.
  replace (repeat Ascii.zero L) with
    (repeat Ascii.zero (L - length c) ++ repeat Ascii.zero (length c))
    by (rewrite <- repeat_app; f_equal; lia).
  rewrite firstn_app, repeat_length, Nat.sub_diag. cbn.
  rewrite app_nil_r, firstn_all2; [reflexivity|rewrite repeat_length; lia].
Qed.

Lemma pad_ge L c : (L <= length c)%nat -> pad L c = firstn L c.
Proof.
  intros H. unfold pad. rewrite firstn_app. replace (L - length c)%nat with 0%nat by lia.
  cbn. apply app_nil_r.
Qed.

Lemma skipn_repeat' {A} (x : A) n m : skipn n (repeat x m) = repeat x (m - n).
Proof. revert m; induction n as [|n IH]; intros [|m]; cbn; auto. Qed.

Lemma copy_at_pad L c v : (length c <= L)%nat ->
  copy_at (pad L c) (length c) v = Some (pad L (c ++ v)).
Proof.
  intros H. unfold copy_at. rewrite pad_length.
  destruct (Nat.ltb_spec L (length c)) as [|_]; [lia|]. f_equal.
  rewrite (pad_le L c H), firstn_app_exact.
  replace (skipn (length c + length v) (c ++ repeat Ascii.zero (L - length c)))
    with (repeat Ascii.zero (L - length c - length v)).
  2:{ rewrite skipn_app, skipn_all2 by lia. cbn [app].
      replace (length c + length v - length c)%nat with (length v) by lia.
      rewrite skipn_repeat'. reflexivity. }
  destruct (Nat.le_gt_cases (length (c ++ v)) L) as [Hl|Hl].
  - rewrite (pad_le L (c ++ v) Hl). rewrite app_length in Hl |- *.
    rewrite app_assoc, firstn_all2.
    + do 2 f_equal. lia.
    + rewrite !app_length, repeat_length. lia.
  - rewrite pad_ge by lia. rewrite app_assoc, firstn_app.
    replace (L - length (c ++ v))%nat with 0%nat by lia. cbn. apply app_nil_r.
Qed.

Lemma read_parts_ok key L d n : forall (ps : list bytes) (c : bytes) i,
  (n <= length ps)%nat ->
  (forall j, (j < n)%nat -> mget (part_key key (i + N.of_nat j)) d = nth_error ps j) ->
  (forall j, (j < n)%nat -> (length (c ++ concat (firstn j ps)) <= L)%nat) ->
  read_parts key i n (pad L c) (length c) d = LOk (Some (pad L (c ++ concat (firstn n ps)))).
Proof.
  induction n as [|n IH]; intros ps c i Hn Hget Hlen; cbn [read_parts].
  - cbn. rewrite app_nil_r; reflexivity.
  - destruct ps as [|p ps]; [cbn in Hn; lia|].
    pose proof (Hget 0%nat ltac:(lia)) as H0. change (N.of_nat 0) with 0%N in H0.
    rewrite N.add_0_r in H0. rewrite H0. cbn [nth_error].
    pose proof (Hlen 0%nat ltac:(lia)) as L0. cbn in L0. rewrite app_nil_r in L0.
    rewrite copy_at_pad by exact L0. rewrite <- app_length.
    rewrite (IH ps (c ++ p) (i + 1)%N).
    + cbn [firstn concat]. rewrite <- app_assoc. reflexivity.
    + cbn in Hn; lia.
    + intros j Hj. etransitivity; [|exact (Hget (S j) ltac:(lia))]. do 2 f_equal. lia.
    + intros j Hj. pose proof (Hlen (S j) ltac:(lia)) as Lj. cbn [firstn concat] in Lj.
      rewrite <- app_assoc. exact Lj.
Qed.

Lemma read_parts_missing key L d n : forall (ps : list bytes) (c : bytes) i,
  (length ps < n)%nat ->
  (forall j, (j <= length ps)%nat -> mget (part_key key (i + N.of_nat j)) d = nth_error ps j) ->
  (forall j, (j < n)%nat -> (length (c ++ concat (firstn j ps)) <= L)%nat) ->
  read_parts key i n (pad L c) (length c) d = LErr.
Proof.
  induction n as [|n IH]; intros ps c i Hn Hget Hlen; [lia|]. cbn [read_parts].
  pose proof (Hget 0%nat ltac:(lia)) as H0. change (N.of_nat 0) with 0%N in H0.
  rewrite N.add_0_r in H0. rewrite H0.
  destruct ps as [|p ps]; [reflexivity|]. cbn [nth_error].
  pose proof (Hlen 0%nat ltac:(lia)) as L0. cbn in L0. rewrite app_nil_r in L0.
  rewrite copy_at_pad by exact L0. rewrite <- app_length.
  apply (IH ps (c ++ p) (i + 1)%N).
  + cbn in Hn; lia.
  + intros j Hj. cbn [length] in Hget. etransitivity; [|exact (Hget (S j) ltac:(lia))]. do 2 f_equal. lia.
  + intros j Hj. pose proof (Hlen (S j) ltac:(lia)) as Lj. cbn [firstn concat] in Lj.
    rewrite <- app_assoc. exact Lj.
Qed.

Lemma pieces_prefix_len b k j : b <> [] ->
  (blen (concat (firstn j (pieces limit k b))) <= N.of_nat j * limit)%N.
Proof.
  intros Hb. assert (Forall (fun p => blen p <= limit)%N (pieces limit k b)) as F.
  { apply Forall_forall. intros p Hp. apply (pieces_bound limit k b p Hlimit Hb Hp). }
  revert F. generalize (pieces limit k b) as l. induction j as [|j IH]; intros l F; [cbn; lia|].
  destruct F as [|p l Hp F]; [cbn; lia|]. cbn [firstn concat]. rewrite blen_app.
  specialize (IH l F). lia.
Qed.

(** Joined first [n] pieces of a blob. *)
Definition head_pieces (k b : bytes) (n : N) : bytes :=
  concat (firstn (N.to_nat n) (pieces limit k b)).

(** The exact result of a load whose two views see two versions. *)
Definition load2_result (k : bytes) (o1 o2 : option bytes) : lres :=
  match o1 with
  | None => LOk None
  | Some b1 =>
      if (blen b1 <=? limit)%N then LOk (Some b1)
      else
        match o2 with
        | None => LErr
        | Some b2 =>
            if (blen b2 <=? limit)%N then LErr
            else if (num_parts limit (blen b2) <? num_parts limit (blen b1))%N then LErr
            else LOk (Some (pad (length b1) (head_pieces k b2 (num_parts limit (blen b1)))))
        end
  end.

Lemma bdg_load2_exact h1 h2 d1 d2 k :
  Forall good h1 -> Forall good h2 -> binv limit h1 d1 -> binv limit h2 d2 -> ordinary_key k ->
  bdg_load2 k d1 d2 = load2_result k (last_write k h1) (last_write k h2).
Proof.
  intros G1 G2 (_ & Hown1 & _) (_ & Hown2 & _) Hk.
  unfold bdg_load2. rewrite (Hown1 k k Hk (or_introl eq_refl)).
  destruct (last_write k h1) as [b1|] eqn:E1; cbn [image load2_result]; [|reflexivity].
  apply (last_write_ok _ _ _ _ _ G1) in E1 as [_ (Hne1 & Hmk1 & Hlen1)].
  rewrite mget_save_main by exact Hk.
  destruct (N.leb_spec (blen b1) limit) as [Hs|Hb].
  - destruct b1 as [|c b1]; [congruence|].
    destruct (split_match (c :: b1)) as [[[u v] w]|] eqn:Es; [|reflexivity].
    exfalso; apply Hmk1, looks_like_marker_iff; congruence.
  - assert (exists x y, marker (num_parts limit (blen b1)) (blen b1) (blen b1) = x :: y) as (x & y & Em)
      by (eexists; eexists; reflexivity).
    rewrite Em, <- Em. rewrite split_match_of_marker.
    assert (num_parts limit (blen b1) < 2 ^ 63)%N as Hp.
    { eapply N.le_lt_trans; [apply num_parts_le; exact Hlimit|exact Hlen1]. }
    rewrite !atoi_int_itoa by assumption.
    set (n1 := num_parts limit (blen b1)) in *. set (L := N.to_nat (blen b1)).
    assert (repeat Ascii.zero L = pad L []) as -> by (rewrite pad_le by (cbn; lia); cbn; f_equal; lia).
    assert (L = length b1) as HL by (unfold L, blen; lia).
    change 0%nat with (@length ascii []).
    assert (forall i, mget (part_key k i) d2 = mget (part_key k i) (image limit k (last_write k h2)))
      as Hpart by (intros i; apply Hown2; [exact Hk|right; exists i; reflexivity]).
    assert (0 < blen b1)%N as Hpos by lia.
    pose proof (num_parts_pos limit (blen b1) Hlimit Hpos) as Hn1. fold n1 in Hn1.
    pose proof (num_parts_prev limit (blen b1) Hlimit Hpos) as Hprev. fold n1 in Hprev.
    assert (forall b2 j, b2 <> [] -> (j < N.to_nat n1)%nat ->
      (length ([] ++ concat (firstn j (pieces limit k b2))) <= L)%nat) as Hroom.
    { intros b2 j Hb2 Hj. cbn [app].
      pose proof (pieces_prefix_len b2 k j Hb2) as H.
      pose proof (N.mul_le_mono_r (N.of_nat j) (n1 - 1) limit ltac:(lia)) as H'.
      unfold blen in H at 1. unfold L. lia. }
    destruct (last_write k h2) as [b2|] eqn:E2; cbn [image] in Hpart.
    2:{ apply (read_parts_missing k L d2 _ [] []).
        - cbn; lia.
        - intros j Hj. cbn in Hj. rewrite Hpart. destruct j; reflexivity.
        - intros j Hj. rewrite firstn_nil. cbn. lia. }
    apply (last_write_ok _ _ _ _ _ G2) in E2 as [_ (Hne2 & Hmk2 & Hlen2)].
    destruct (N.leb_spec (blen b2) limit) as [Hs2|Hb2].
    + apply (read_parts_missing k L d2 _ [] []).
      * cbn; lia.
      * intros j Hj. cbn in Hj. rewrite Hpart, mget_save_part by exact Hk.
        rewrite (proj2 (N.leb_le _ _) Hs2). destruct j; reflexivity.
      * intros j Hj. rewrite firstn_nil. cbn. lia.
    + assert (forall j : nat, mget (part_key k (0 + N.of_nat j)) d2 = nth_error (pieces limit k b2) j) as Hget.
      { intros j. rewrite Hpart, mget_save_part by exact Hk.
        rewrite (proj2 (N.leb_gt _ _) Hb2). f_equal. lia. }
      destruct (N.ltb_spec (num_parts limit (blen b2)) n1) as [Hlt|Hge].
      * apply (read_parts_missing k L d2 _ (pieces limit k b2) []).
        -- rewrite pieces_length. lia.
        -- intros j _; apply Hget.
        -- intros j Hj. apply Hroom; assumption.
      * rewrite (read_parts_ok k L d2 _ (pieces limit k b2) []).
        -- rewrite <- HL. reflexivity.
        -- rewrite pieces_length. lia.
        -- intros j _; apply Hget.
        -- intros j Hj. apply Hroom; assumption.
Qed.

Lemma head_pieces_all k b : b <> [] -> head_pieces k b (num_parts limit (blen b)) = b.
Proof.
  intros Hb. unfold head_pieces. rewrite firstn_all2 by (rewrite pieces_length; lia).
  apply pieces_join; assumption.
Qed.

Lemma load2_same k o1 o2 :
  (forall b, o2 = Some b -> b <> []) ->
  (forall b1 b2, o1 = Some b1 -> o2 = Some b2 -> (limit < blen b1)%N -> (limit < blen b2)%N ->
     length b1 = length b2) ->
  load2_result k o1 o2 = LErr \/ load2_result k o1 o2 = LOk o1 \/ load2_result k o1 o2 = LOk o2.
Proof.
  intros Hne Hlen. unfold load2_result. destruct o1 as [b1|]; [|auto].
  destruct (N.leb_spec (blen b1) limit) as [|H1]; [auto|].
  destruct o2 as [b2|]; [|auto].
  destruct (N.leb_spec (blen b2) limit) as [|H2]; [auto|].
  specialize (Hlen b1 b2 eq_refl eq_refl H1 H2).
  assert (blen b1 = blen b2) as E by (unfold blen; lia). rewrite E, N.ltb_irrefl.
  right; right. rewrite head_pieces_all by (apply Hne; reflexivity).
  rewrite pad_ge by lia. rewrite Hlen, firstn_all. reflexivity.
Qed.

Lemma load2_const k o :
  (forall b, o = Some b -> b <> []) -> load2_result k o o = LOk o.
Proof.
  intros Hne. unfold load2_result. destruct o as [b|]; [|reflexivity].
  destruct (N.leb_spec (blen b) limit) as [|H1]; [reflexivity|].
  rewrite N.ltb_irrefl, head_pieces_all by (apply Hne; reflexivity).
  rewrite pad_ge, firstn_all by lia. reflexivity.
Qed.

(** ** Listing *)

Lemma prefix_not_less p r : bltb (p ++ r) p = false.
Proof.
  induction p as [|x p IH]; cbn; [destruct r; reflexivity|]. rewrite N.ltb_irrefl. exact IH.
Qed.

(** Keys with prefix [p] are contiguous in byte order from [p] on. *)
Lemma prefix_contiguous p : forall k k',
  bltb k p = false -> has_prefix p k = false -> ble k k' -> has_prefix p k' = false.
Proof.
  unfold ble, bleb. induction p as [|x p IH]; intros k k' H1 H2 H3; [discriminate|].
  destruct k as [|y k]; [discriminate|]. cbn in H1, H2.
  destruct k' as [|z k']; [reflexivity|]. cbn in H3 |- *. rewrite negb_true_iff in H3.
  destruct (ascii_dec x y) as [->|Hxy].
  - rewrite N.ltb_irrefl in H1. destruct (ascii_dec y z) as [<-|]; [|reflexivity].
    rewrite N.ltb_irrefl in H3. apply (IH k k' H1 H2). rewrite H3; reflexivity.
  - destruct (ascii_dec x z) as [<-|]; [|reflexivity]. exfalso.
    destruct (N.ltb_spec (N_of_ascii y) (N_of_ascii x)); [discriminate|].
    destruct (N.ltb_spec (N_of_ascii x) (N_of_ascii y)); [discriminate|].
    apply Hxy, N_of_ascii_inj. lia.
Qed.

Lemma seek_while_filter p l : bsorted l -> while_prefix p (seek p l) = filter (has_prefix p) l.
Proof.
  unfold bsorted. induction l as [|k l IH]; intros H; [reflexivity|].
  pose proof H as H0. apply StronglySorted_inv in H as [Hl Hk]. cbn [seek filter].
  destruct (bltb k p) eqn:E.
  - destruct (has_prefix p k) eqn:Ep; [|apply IH; exact Hl].
    apply has_prefix_spec in Ep as [r ->]. rewrite prefix_not_less in E; discriminate.
  - clear IH. assert (forall l, StronglySorted ble l -> Forall (fun x => bltb x p = false) l ->
      while_prefix p l = filter (has_prefix p) l) as W.
    { clear - Hlimit. induction l as [|k l IH]; intros H F; [reflexivity|].
      apply StronglySorted_inv in H as [Hl Hk]. inversion F; subst. cbn.
      destruct (has_prefix p k) eqn:Ep; [f_equal; apply IH; assumption|].
      rewrite Forall_forall in Hk. symmetry. rewrite <- app_nil_r. 
      assert (forall x, In x l -> has_prefix p x = false) as N.
      { intros x Hx. eapply prefix_contiguous; [|exact Ep|apply Hk; exact Hx]. assumption. }
      clear -N. induction l as [|y l IH]; [reflexivity|]. cbn.
      rewrite N by (left; reflexivity). apply IH. intros x Hx; apply N; right; exact Hx. }
    change (while_prefix p (k :: l) = filter (has_prefix p) (k :: l)).
    apply W; [exact H0|]. constructor; [exact E|].
    rewrite Forall_forall in Hk |- *. intros x Hx. specialize (Hk x Hx).
    unfold ble, bleb in Hk. apply negb_true_iff in Hk.
    destruct (bltb x p) eqn:Ex; [|reflexivity].
    destruct (bltb_spec k x) as [[C _]|[->|[C _]]]; try congruence.
    rewrite (bltb_trans _ _ _ C Ex) in E. discriminate.
Qed.

Lemma bdg_list_exact h d p :
  Forall good h -> binv limit h d ->
  lists_exactly p h (bdg_list p d) /\ bsorted (bdg_list p d).
Proof.
  intros Hh (Hwf & Hown & Hres). unfold bdg_list.
  rewrite seek_while_filter by apply bsort_sorted. split.
  - split.
    + apply filter_NoDup, filter_NoDup, bsort_nodup, Hwf.
    + intros k. rewrite !filter_In, bsort_in, mget_keys, has_prefix_spec, negb_true_iff. split.
      * intros [[H1 H2] H3]. split; [exact H2|].
        destruct (Hres k H1) as (k' & Hk' & [->|[i ->]]).
        -- rewrite (Hown k' k' Hk' (or_introl eq_refl)) in H1.
           destruct (last_write k' h); [discriminate|]. cbn in H1; congruence.
        -- unfold part_key in H3. rewrite has_prefix_app in H3. discriminate.
      * intros [H1 H2]. destruct (last_write k h) as [b|] eqn:E; [|congruence].
        destruct (last_write_ok _ _ _ _ _ Hh E) as [Hk _].
        split; [split; [|exact H1]|apply ordinary_prefix; exact Hk].
        rewrite (Hown k k Hk (or_introl eq_refl)), E. cbn [image].
        rewrite mget_save_main by exact Hk. discriminate.
  - apply bsorted_filter, bsorted_filter, bsort_sorted.
Qed.

Lemma last_write_nonempty h k b : Forall good h -> last_write k h = Some b -> b <> [].
Proof. intros Hh E. apply (last_write_ok _ _ _ _ _ Hh) in E as [_ (H & _)]. exact H. Qed.

Lemma bdg_map_store : map_store (bdg_storage limit) [] ordinary_key ordinary_blob.
Proof.
  intros h Hh. pose proof (bdg_inv h Hh) as Hinv. split.
  - intros k Hk. cbn [bdg_storage sLoad]. unfold bdg_load.
    rewrite (bdg_load2_exact h h _ _ k Hh Hh Hinv Hinv Hk).
    apply load2_const. intros b; apply last_write_nonempty; exact Hh.
  - intros p. apply bdg_list_exact; assumption.
Qed.

Lemma bdg_run_committed h d : bdg_run limit h d = run (bdg_storage limit) (committed h) d.
Proof.
  unfold bdg_run, run, committed. revert d; induction h as [|[o f] h IH]; intros d; [reflexivity|].
  cbn [fold_left]. rewrite IH. unfold bdg_step. cbn. destruct f; reflexivity.
Qed.

Lemma bdg_residue h x :
  Forall good h -> mget x (run (bdg_storage limit) h []) <> None ->
  (exists b, last_write x h = Some b) \/
  (exists k b i, last_write k h = Some b /\ (limit < blen b)%N /\
     (i < num_parts limit (blen b))%N /\ x = part_key k i).
Proof.
  intros Hh Hx. destruct (bdg_inv h Hh) as (_ & Hown & Hres).
  destruct (Hres x Hx) as (k & Hk & Ho). rewrite (Hown k x Hk Ho) in Hx.
  destruct (last_write k h) as [b|] eqn:E; cbn [image] in Hx; [|cbn in Hx; congruence].
  destruct Ho as [->|[i ->]]; [left; exists b; exact E|right].
  rewrite mget_save_part in Hx by exact Hk.
  destruct (N.leb_spec (blen b) limit) as [|Hl]; [congruence|].
  exists k, b, i. split; [exact E|]. split; [exact Hl|]. split; [|reflexivity].
  apply nth_error_Some in Hx. rewrite pieces_length in Hx. lia.
Qed.

End Badger.
