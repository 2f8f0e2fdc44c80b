(** C89: saving under a key again leaves nothing of what was saved under it before. *)
From Verif Require Import Base Maps StorageModel StorageSpec StorageProofs StorageBadger StorageProps StoreLifeModel StoreLifeProps.

Lemma mget_absent (m : list (bytes * bytes)) x : ~ In x (map fst m) -> mget x m = None.
Proof.
  intros H. destruct (mget x m) eqn:E; [|reflexivity]. destruct H. apply mget_in, (in_map fst) in E. exact E.
Qed.

Section Again.
Variable compress : bytes -> bytes.
Variable limit : N.
Variable k : bytes.
Hypothesis Hl : (0 < limit)%N.
Hypothesis Hk : ordinary_key k.
Variable d : db.
Hypothesis D1 : mget k d = None.
Hypothesis D2 : forall i, mget (part_key k i) d = None.

Let save := fun d0 b => man_save compress limit k b d0.
Let wiped d0 := forall x, x <> k -> mget x (wipe_old k d0) = mget x d.

Lemma save_get d0 b x : mget x (save d0 b) = match mget x (man_writes compress limit k b) with Some v => Some v | None => mget x (wipe_old k d0) end.
Proof. unfold save, man_save. fold (apply_writes (man_writes compress limit k b) (wipe_old k d0)). apply apply_writes_get, man_nodup, Hk. Qed.

Lemma save_wiped d0 b : ordinary_blob (compress b) -> wiped d0 -> wiped (save d0 b).
Proof.
  intros (Hne & Hmk & Hlen) W x Hx. unfold wipe_old at 1. rewrite save_get, man_main by exact Hk.
  destruct (blen (compress b) <=? limit)%N eqn:El.
  - destruct (split_match (compress b)) as [[[u v] w]|] eqn:Es; [exfalso; apply Hmk, looks_like_marker_iff; congruence|].
    rewrite save_get. unfold man_writes. rewrite El. cbn [mget]. rewrite (proj2 (beq_false x k) Hx). apply W, Hx.
  - rewrite split_match_of_marker.
    assert (num_parts limit (blen (compress b)) < 2 ^ 63)%N as Hp by (eapply N.le_lt_trans; [apply num_parts_le; exact Hl|exact Hlen]).
    rewrite atoi_unchecked_itoa by exact Hp. rewrite delete_parts_get. destruct (existsb _ _) eqn:E.
    + apply existsb_exists in E as (j & _ & E). apply beq_true in E. rewrite E, D2. reflexivity.
    + rewrite save_get. rewrite (mget_absent (man_writes compress limit k b) x); [apply W, Hx|].
      unfold man_writes. rewrite El. cbv zeta. rewrite map_app, part_writes_keys, in_app_iff. intros [H|[H|[]]]; [|exact (Hx (eq_sym H))].
      apply in_map_iff in H as (j & H & Hj). rewrite <- H in E.
      assert (existsb (fun j0 => beq (part_key k (0 + N.of_nat j)) (part_key k (0 + N.of_nat j0))) (seq 0 (N.to_nat (num_parts limit (blen (compress b))))) = true) as C; [|congruence].
      apply existsb_exists. exists j. split; [exact Hj|apply beq_refl].
Qed.

Lemma saves_wiped bs : forall d0, Forall (fun b => ordinary_blob (compress b)) bs -> wiped d0 -> wiped (fold_left save bs d0).
Proof. induction bs as [|b bs IH]; intros d0 F W; [exact W|]. inversion F; subst. cbn [fold_left]. apply IH; [assumption|]. apply save_wiped; assumption. Qed.

Lemma again_get bs b x : Forall (fun b => ordinary_blob (compress b)) bs -> mget x (save (fold_left save bs d) b) = mget x (save d b).
Proof.
  intros F. assert (wiped d) as W0 by (intros y Hy; unfold wipe_old; rewrite D1; reflexivity).
  rewrite !save_get. destruct (mget x (man_writes compress limit k b)) eqn:E; [reflexivity|].
  destruct (bytes_eq_dec x k) as [->|Hx]; [rewrite man_main in E by exact Hk; discriminate|].
  rewrite (saves_wiped bs d F W0 x Hx), (W0 x Hx). reflexivity.
Qed.
End Again.

(** Whatever was saved under a key before, in one piece or split into any number of parts: when a value is saved under it, every entry of the
    database is as if only this value had been saved. *)
Theorem C89_saved_again : forall compress limit k d bs b, (0 < limit)%N -> ordinary_key k ->
  mget k d = None -> (forall i, mget (part_key k i) d = None) -> Forall (fun b => ordinary_blob (compress b)) bs ->
  forall x, mget x (fold_left (fun d b => man_save compress limit k b d) (bs ++ [b]) d) = mget x (man_save compress limit k b d).
Proof.
  intros compress limit k d bs b Hl Hk D1 D2 F x. rewrite fold_left_app. cbn [fold_left]. exact (again_get compress limit k Hl Hk d D1 D2 bs b x F).
Qed.
Print Assumptions C89_saved_again.
(** Five bytes in parts of two, then nothing but two bytes; the entry of another key stays. *)
Example C89_saved_again_example :
  let d := man_save zip89 2 (B "k") (B "hello") [(B "other", B "v")] in
  Forall (fun b => ordinary_blob (zip89 b)) [B "hello"] /\ length d = 5%nat /\ mget (part_key (B "k") 2) d = Some (B "lo") /\
  man_save zip89 2 (B "k") (B "x") d = [(B "other", B "v"); (B "k", B "Zx")].
Proof. cbv zeta. split; [repeat constructor; apply zip_ordinary; reflexivity|]. vm_compute. repeat split. Qed.
