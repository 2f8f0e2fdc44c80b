(** Finite maps keyed by byte strings, and byte-string order.

    A Go [map[string]V] is a finite partial function whose iteration order is
    unspecified.  It is modelled as an association list without repeated keys;
    wherever the code ranges over a map the model takes the visiting order from
    an oracle that may return any permutation of the keys.  Nothing in this file
    transcribes code of the repository. *)

From Verif Require Import Base.
From Coq Require Import Permutation Sorted.

Definition amap (V : Type) := list (bytes * V).

Section Amap.
Context {V : Type}.

Fixpoint mget (k : bytes) (m : amap V) : option V :=
  match m with
  | [] => None
  | (k', v) :: m' => if beq k k' then Some v else mget k m'
  end.

(** Go: [m[k] = v]. *)
Fixpoint mset (k : bytes) (v : V) (m : amap V) : amap V :=
  match m with
  | [] => [(k, v)]
  | (k', v') :: m' => if beq k k' then (k, v) :: m' else (k', v') :: mset k v m'
  end.

(** Go: [delete(m, k)]. *)
Definition mdel (k : bytes) (m : amap V) : amap V :=
  filter (fun e => negb (beq k (fst e))) m.

Definition mkeys (m : amap V) : list bytes := map fst m.

(** The representation invariant: no key twice. *)
Definition mwf (m : amap V) : Prop := NoDup (mkeys m).

Lemma mget_mset_same k v m : mget k (mset k v m) = Some v.
Proof.
  induction m as [|[k' v'] m IH]; cbn; [rewrite beq_refl; reflexivity|].
  destruct (beq k k') eqn:E; cbn; [rewrite beq_refl; reflexivity|].
  rewrite E; exact IH.
Qed.

Lemma mget_mset_other k k' v m : k <> k' -> mget k (mset k' v m) = mget k m.
Proof.
  intros H; induction m as [|[q w] m IH]; cbn.
  - rewrite (proj2 (beq_false k k')) by assumption; reflexivity.
  - destruct (beq_spec k' q) as [->|Hq]; cbn.
    + rewrite (proj2 (beq_false k q)) by assumption; reflexivity.
    + rewrite IH; reflexivity.
Qed.

Lemma mget_mset k k' v m : mget k (mset k' v m) = if beq k k' then Some v else mget k m.
Proof.
  destruct (beq_spec k k') as [->|H]; [apply mget_mset_same|apply mget_mset_other; assumption].
Qed.

Lemma mget_mdel k k' m : mget k (mdel k' m) = if beq k k' then None else mget k m.
Proof.
  unfold mdel; induction m as [|[q w] m IH]; cbn; [destruct (beq k k'); reflexivity|].
  destruct (beq_spec k' q) as [->|Hq]; cbn.
  - rewrite IH. destruct (beq k q); reflexivity.
  - rewrite IH. destruct (beq_spec k q) as [->|Hk]; [|reflexivity].
    rewrite (proj2 (beq_false q k')) by congruence; reflexivity.
Qed.

Lemma mget_in k v m : mget k m = Some v -> In (k, v) m.
Proof.
  induction m as [|[q w] m IH]; cbn; [discriminate|].
  destruct (beq_spec k q) as [->|H]; [intros [= ->]; auto|auto].
Qed.

Lemma mget_keys k m : In k (mkeys m) <-> mget k m <> None.
Proof.
  unfold mkeys; induction m as [|[q w] m IH]; cbn; [split; [tauto|congruence]|].
  destruct (beq_spec k q) as [->|H].
  - split; [discriminate|auto].
  - rewrite <- IH. split; [intros [E|E]; [congruence|assumption]|auto].
Qed.

Lemma mget_in_wf k v m : mwf m -> In (k, v) m -> mget k m = Some v.
Proof.
  unfold mwf, mkeys; induction m as [|[q w] m IH]; cbn; [tauto|].
  rewrite NoDup_cons_iff. intros [Hn Hm] [E|E].
  - injection E as -> ->. rewrite beq_refl; reflexivity.
  - destruct (beq_spec k q) as [->|H]; [|auto].
    exfalso; apply Hn. apply in_map_iff; exists (q, v); auto.
Qed.

Lemma mkeys_mset k v m x : In x (mkeys (mset k v m)) <-> x = k \/ In x (mkeys m).
Proof.
  rewrite !mget_keys, mget_mset. destruct (beq_spec x k) as [->|H].
  - split; [auto|discriminate].
  - split; [auto|intros [E|E]; congruence].
Qed.

Lemma mkeys_mdel k m x : In x (mkeys (mdel k m)) <-> x <> k /\ In x (mkeys m).
Proof.
  rewrite !mget_keys, mget_mdel. destruct (beq_spec x k) as [->|H].
  - split; [congruence|intros [E _]; congruence].
  - split; [auto|intros [_ E]; exact E].
Qed.

Lemma mwf_nil : mwf [].
Proof. constructor. Qed.

Lemma mwf_mset k v m : mwf m -> mwf (mset k v m).
Proof.
  unfold mwf; induction m as [|[q w] m IH]; cbn; intros H.
  - constructor; [intros []|constructor].
  - apply NoDup_cons_iff in H as [Hn Hm]. destruct (beq_spec k q) as [->|E]; cbn.
    + constructor; assumption.
    + constructor; [|apply IH; assumption].
      change (~ In q (mkeys (mset k v m))). rewrite mkeys_mset.
      intros [->|Hq]; [congruence|apply Hn; exact Hq].
Qed.

Lemma mwf_mdel k m : mwf m -> mwf (mdel k m).
Proof.
  unfold mwf, mkeys, mdel; induction m as [|[q w] m IH]; cbn; intros H; [constructor|].
  apply NoDup_cons_iff in H as [Hn Hm].
  destruct (negb (beq k q)); cbn; [|auto].
  constructor; [|auto]. intros Hin. apply Hn. apply in_map_iff in Hin as (e & <- & He).
  apply filter_In in He as [He _]. apply in_map_iff; exists e; auto.
Qed.

Lemma amap_empty m : (forall k, mget k m = None) -> m = [].
Proof.
  destruct m as [|[k v] m]; [reflexivity|]. intros H. specialize (H k). cbn in H.
  rewrite beq_refl in H. discriminate.
Qed.

End Amap.

(** ** Byte-wise lexicographic order: Go's [<] on strings, [bytes.Compare]. *)

Fixpoint bltb (a b : bytes) : bool :=
  match a, b with
  | _, [] => false
  | [], _ :: _ => true
  | x :: a', y :: b' =>
      if (N_of_ascii x <? N_of_ascii y)%N then true
      else if (N_of_ascii y <? N_of_ascii x)%N then false
      else bltb a' b'
  end.

Definition blt (a b : bytes) : Prop := bltb a b = true.
Definition bleb (a b : bytes) : bool := negb (bltb b a).
Definition ble (a b : bytes) : Prop := bleb a b = true.

Lemma N_of_ascii_inj x y : N_of_ascii x = N_of_ascii y -> x = y.
Proof. intros H. rewrite <- (ascii_N_embedding x), <- (ascii_N_embedding y), H. reflexivity. Qed.

Lemma bltb_irrefl a : bltb a a = false.
Proof. induction a as [|x a IH]; cbn; [reflexivity|]. rewrite N.ltb_irrefl; exact IH. Qed.

Lemma bltb_trans a : forall b c, bltb a b = true -> bltb b c = true -> bltb a c = true.
Proof.
  induction a as [|x a IH]; intros [|y b] [|z c]; cbn; try discriminate; auto.
  intros H1 H2.
  destruct (N.ltb_spec (N_of_ascii x) (N_of_ascii y)),
           (N.ltb_spec (N_of_ascii y) (N_of_ascii z)),
           (N.ltb_spec (N_of_ascii x) (N_of_ascii z)); auto; try lia;
  destruct (N.ltb_spec (N_of_ascii y) (N_of_ascii x)),
           (N.ltb_spec (N_of_ascii z) (N_of_ascii y)),
           (N.ltb_spec (N_of_ascii z) (N_of_ascii x)); auto; try lia; try discriminate.
  eapply IH; eassumption.
Qed.

Lemma bltb_total a : forall b, bltb a b = false -> bltb b a = false -> a = b.
Proof.
  induction a as [|x a IH]; intros [|y b]; cbn; try discriminate; auto.
  destruct (N.ltb_spec (N_of_ascii x) (N_of_ascii y)); [discriminate|].
  destruct (N.ltb_spec (N_of_ascii y) (N_of_ascii x)); [discriminate|].
  intros H1 H2. f_equal; [apply N_of_ascii_inj; lia|apply IH; assumption].
Qed.

Lemma bltb_asym a b : bltb a b = true -> bltb b a = false.
Proof.
  intros H. destruct (bltb b a) eqn:E; [|reflexivity].
  rewrite <- (bltb_irrefl a). symmetry; eapply bltb_trans; eassumption.
Qed.

Lemma bltb_spec a b : (bltb a b = true /\ a <> b) \/ a = b \/ (bltb b a = true /\ a <> b).
Proof.
  destruct (bltb a b) eqn:E1.
  - left; split; auto. intros ->. rewrite bltb_irrefl in E1; discriminate.
  - destruct (bltb b a) eqn:E2.
    + right; right; split; auto. intros ->. rewrite bltb_irrefl in E2; discriminate.
    + right; left; apply bltb_total; assumption.
Qed.

Lemma bleb_refl a : bleb a a = true.
Proof. unfold bleb; rewrite bltb_irrefl; reflexivity. Qed.

Lemma bleb_trans a b c : bleb a b = true -> bleb b c = true -> bleb a c = true.
Proof.
  unfold bleb. rewrite !negb_true_iff. intros H1 H2.
  destruct (bltb c a) eqn:E; [|reflexivity].
  destruct (bltb_spec a b) as [[H _]|[->|[H _]]].
  - rewrite (bltb_trans c a b) in H2 by assumption; discriminate.
  - congruence.
  - congruence.
Qed.

Lemma bleb_antisym a b : bleb a b = true -> bleb b a = true -> a = b.
Proof. unfold bleb. rewrite !negb_true_iff. intros H1 H2. apply bltb_total; assumption. Qed.

Lemma bleb_total a b : bleb a b = true \/ bleb b a = true.
Proof.
  unfold bleb. rewrite !negb_true_iff.
  destruct (bltb b a) eqn:E; [right; apply bltb_asym; assumption|auto].
Qed.

(** Insertion sort, standing for Go's [sort.Strings] / [slices.Sort] (the
    result of sorting byte strings is unique, so the algorithm is immaterial). *)
Fixpoint binsert (x : bytes) (l : list bytes) : list bytes :=
  match l with
  | [] => [x]
  | y :: l' => if bleb x y then x :: y :: l' else y :: binsert x l'
  end.
Fixpoint bsort (l : list bytes) : list bytes :=
  match l with
  | [] => []
  | x :: l' => binsert x (bsort l')
  end.

Lemma binsert_perm x l : Permutation (binsert x l) (x :: l).
Proof.
  induction l as [|y l IH]; cbn; [constructor; constructor|].
  destruct (bleb x y); [reflexivity|].
  rewrite IH. apply perm_swap.
Qed.

Lemma bsort_perm l : Permutation (bsort l) l.
Proof. induction l as [|x l IH]; cbn; [constructor|]. rewrite binsert_perm, IH; reflexivity. Qed.

Definition bsorted (l : list bytes) : Prop := StronglySorted ble l.

Lemma binsert_sorted x l : bsorted l -> bsorted (binsert x l).
Proof.
  unfold bsorted; induction l as [|y l IH]; cbn; intros H.
  - constructor; constructor.
  - apply StronglySorted_inv in H as [Hl Hy]. destruct (bleb x y) eqn:E.
    + constructor; [constructor; assumption|]. constructor; [exact E|].
      eapply Forall_impl; [|exact Hy]. intros z Hz. eapply bleb_trans; eassumption.
    + constructor; [apply IH; assumption|].
      apply Forall_forall. intros z Hz.
      apply (Permutation_in _ (binsert_perm x l)) in Hz as [<-|Hz].
      * destruct (bleb_total x y); [congruence|assumption].
      * rewrite Forall_forall in Hy; auto.
Qed.

Lemma bsort_sorted l : bsorted (bsort l).
Proof. induction l as [|x l IH]; cbn; [constructor|apply binsert_sorted; exact IH]. Qed.

(** Two sorted lists with the same elements are equal. *)
Lemma bsorted_unique l1 : forall l2,
  bsorted l1 -> bsorted l2 -> Permutation l1 l2 -> l1 = l2.
Proof.
  induction l1 as [|x l1 IH]; intros l2 H1 H2 P.
  - apply Permutation_nil in P; congruence.
  - destruct l2 as [|y l2]; [apply Permutation_sym, Permutation_nil in P; discriminate|].
    apply StronglySorted_inv in H1 as [S1 F1]. apply StronglySorted_inv in H2 as [S2 F2].
    rewrite Forall_forall in F1, F2.
    assert (x = y) as ->.
    { assert (In x (y :: l2)) as Ix by (eapply Permutation_in; [exact P|left; reflexivity]).
      assert (In y (x :: l1)) as Iy
        by (eapply Permutation_in; [apply Permutation_sym; exact P|left; reflexivity]).
      destruct Ix as [|Ix]; [congruence|]. destruct Iy as [|Iy]; [congruence|].
      apply bleb_antisym; [apply F1; exact Iy|apply F2; exact Ix]. }
    f_equal. apply IH; auto. eapply Permutation_cons_inv; exact P.
Qed.

Lemma bsort_unique l1 l2 : Permutation l1 l2 -> bsort l1 = bsort l2.
Proof.
  intros H. apply bsorted_unique; try apply bsort_sorted.
  rewrite !bsort_perm; exact H.
Qed.

Lemma bsort_in l x : In x (bsort l) <-> In x l.
Proof. split; apply Permutation_in; [|apply Permutation_sym]; apply bsort_perm. Qed.

Lemma bsort_nodup l : NoDup l -> NoDup (bsort l).
Proof. apply Permutation_NoDup, Permutation_sym, bsort_perm. Qed.

Lemma bsorted_filter (f : bytes -> bool) l : bsorted l -> bsorted (filter f l).
Proof.
  unfold bsorted; induction l as [|x l IH]; cbn; intros H; [constructor|].
  apply StronglySorted_inv in H as [H1 H2]. destruct (f x); [|auto].
  constructor; [auto|]. apply Forall_forall. intros y Hy. apply filter_In in Hy as [Hy _].
  rewrite Forall_forall in H2; auto.
Qed.
