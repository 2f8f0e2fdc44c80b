(** Lemmas for RunsProps.v. *)
From Verif Require Import Base Maps TypesModel TypesSpec TypesProofs StableModel StableProps CompareModel CompareProps PipeProps.

(** ** Filtering fields by name *)
Lemma mget_filter_fst {V} (P : bytes -> bool) (l : list (bytes * V)) k : mget k (filter (fun e => P (fst e)) l) = if P k then mget k l else None.
Proof.
  induction l as [|[j x] l IH]; [destruct (P k); reflexivity|]. cbn [filter fst]. destruct (P j) eqn:Ej.
  - cbn. destruct (beq_spec k j) as [->|N]; [rewrite Ej; reflexivity|exact IH].
  - rewrite IH. cbn. destruct (beq_spec k j) as [->|N]; [rewrite Ej; reflexivity|reflexivity].
Qed.
Lemma leaf_filter (P : bytes -> bool) l p v : leaf_at (Some (filter (fun e => P (fst e)) l)) p v <-> leaf_at (Some l) p v /\ exists k q, p = k :: q /\ P k = true.
Proof.
  destruct p as [|k q]; [split; [intros H; destruct (leaf_at_nil _ _ H)|intros [H _]; destruct (leaf_at_nil _ _ H)]|]. rewrite !leaf_at_cons. cbn [olist]. rewrite mget_filter_fst. split.
  - intros (n & E & L). destruct (P k) eqn:Ek; [|discriminate]. split; [eauto|]. exists k, q. auto.
  - intros ((n & E & L) & k' & q' & [= <- <-] & Ek). rewrite Ek. eauto.
Qed.
Lemma leaf_olist f p v : leaf_at f p v <-> leaf_at (Some (olist f)) p v.
Proof. destruct p as [|k q]; [split; intros H; destruct (leaf_at_nil _ _ H)|]. rewrite !leaf_at_cons. reflexivity. Qed.

(** ** What is stable is plainly named *)
Lemma stable_node_plain n1 : forall n2 z, stable_node n1 n2 = Some z -> names_plain n1 -> names_plain z.
Proof.
  induction n1 as [v1 c1 IH] using fval_ind'. intros [v2 c2] z H P. rewrite stable_node_eq in H.
  destruct (olist c1) as [|e1 l1] eqn:E1; destruct (olist c2) as [|e2 l2] eqn:E2; try discriminate.
  - destruct (beq v1 v2); [|discriminate]. injection H as <-. constructor. intros k x [].
  - destruct (stable_list (e1 :: l1) (e2 :: l2)) as [|s ss] eqn:Es; [discriminate|]. injection H as <-. constructor. cbn [olist]. rewrite <- Es. intros k x I.
    unfold stable_list in I. apply in_flat_map in I as ([j y] & Hi & I). cbn [fst snd] in I. destruct (mget j (e2 :: l2)) as [y2|]; [|destruct I]. destruct (stable_node y y2) as [z|] eqn:Ez; [|destruct I]. destruct I as [[= <- <-]|[]].
    inversion P as [? ? Hp]; subst. rewrite E1 in Hp. destruct (Hp j y Hi) as [A C]. split; [exact A|]. apply (IH j y Hi y2 z Ez C).
Qed.
Lemma stable_plain f1 f2 : fvals_plain f1 -> fvals_plain (stable_fields f1 f2).
Proof.
  intros P k x I. cbn [stable_fields olist] in I. unfold stable_list in I. apply in_flat_map in I as ([j y] & Hi & I). cbn [fst snd] in I.
  destruct (mget j (olist f2)) as [y2|]; [|destruct I]. destruct (stable_node y y2) as [z|] eqn:Ez; [|destruct I]. destruct I as [[= <- <-]|[]]. destruct (P j y Hi). split; [assumption|]. eapply stable_node_plain; eassumption.
Qed.

(** ** Positions of what is stable *)
Section Common.
Variable key : cframe -> bytes.
Variable fs2 : list cframe.

(** The counts after a list. *)
Fixpoint uses (u : amap nat) (l : list cframe) : amap nat := match l with [] => u | f :: l' => uses (mset (key f) (S (used_at u (key f))) u) l' end.
Lemma common_app l1 : forall u l2, common key fs2 u (l1 ++ l2) = common key fs2 u l1 ++ common key fs2 (uses u l1) l2.
Proof.
  induction l1 as [|f l1 IH]; intros u l2; [reflexivity|]. cbn [app common uses]. rewrite IH. destruct (nth_error _ _); reflexivity.
Qed.
Lemma uses_at l : forall u K, used_at (uses u l) K = (used_at u K + length (with_key key K l))%nat.
Proof.
  induction l as [|f l IH]; intros u K; [cbn; lia|]. cbn [uses]. rewrite IH, used_at_set. unfold with_key. cbn [filter]. destruct (beq_spec (key f) K) as [<-|N]; cbn [length]; lia.
Qed.
Lemma before_len l i K : before key l i K = length (with_key key K (firstn i l)).
Proof.
  unfold before. generalize (firstn i l). intros m. induction m as [|x m IH]; [reflexivity|]. unfold with_key in *. cbn [map filter]. destruct (beq_spec (key x) K) as [E|N].
  - rewrite count_occ_cons_eq by exact E. cbn [length]. congruence.
  - rewrite count_occ_cons_neq by exact N. exact IH.
Qed.
Lemma split_at {X} (l : list X) i x : nth_error l i = Some x -> l = firstn i l ++ x :: skipn (S i) l.
Proof. revert i. induction l as [|y l IH]; intros [|i] H; try discriminate; cbn in *; [congruence|]. f_equal. apply IH, H. Qed.

(** Where the [i]-th call of the first run is among those kept. *)
Definition place_of (l : list cframe) (i : nat) : nat := length (common key fs2 [] (firstn i l)).
(** The [i]-th call of the first run has [g] as its match in the second. *)
Definition has_match (l : list cframe) (i : nat) (f g : cframe) : Prop :=
  nth_error l i = Some f /\ nth_error (with_key key (key f) fs2) (before key l i (key f)) = Some g.

Lemma used_nil K : used_at [] K = 0%nat.
Proof. reflexivity. Qed.
Lemma place_kept l i f g : has_match l i f g -> nth_error (common key fs2 [] l) (place_of l i) = Some (stab f g).
Proof.
  intros [E M]. unfold place_of. rewrite (split_at l i f E) at 1. rewrite common_app. rewrite nth_error_app2 by reflexivity. rewrite Nat.sub_diag. cbn [common].
  rewrite uses_at, used_nil. rewrite before_len in M. cbn [Nat.add]. rewrite M. reflexivity.
Qed.
Lemma kept_place l i' h : nth_error (common key fs2 [] l) i' = Some h -> exists i f g, has_match l i f g /\ h = stab f g /\ i' = place_of l i.
Proof.
  revert i' h. induction l as [|x l IH] using rev_ind; intros i' h E; [destruct i'; discriminate|]. rewrite common_app in E.
  assert (forall i f g, has_match l i f g -> has_match (l ++ [x]) i f g /\ place_of (l ++ [x]) i = place_of l i) as Up.
  { intros i f g [Ef M]. assert (i < length l)%nat as L by (apply nth_error_Some; congruence). assert (firstn i (l ++ [x]) = firstn i l) as Ei by (rewrite firstn_app; replace (i - length l)%nat with 0%nat by lia; cbn [firstn]; apply app_nil_r).
    split; [split; [rewrite nth_error_app1 by exact L; exact Ef|]|unfold place_of; rewrite Ei; reflexivity]. rewrite before_len, Ei, <- before_len. exact M. }
  destruct (Nat.lt_ge_cases i' (length (common key fs2 [] l))) as [L|G].
  - rewrite nth_error_app1 in E by exact L. destruct (IH _ _ E) as (i & f & g & M & -> & ->). destruct (Up i f g M) as [M' P]. exists i, f, g. auto.
  - rewrite nth_error_app2 in E by exact G. cbn [common] in E. rewrite uses_at, used_nil in E. cbn [Nat.add] in E.
    destruct (nth_error (with_key key (key x) fs2) (length (with_key key (key x) l))) as [g|] eqn:M; [|destruct (i' - _)%nat; discriminate].
    destruct (i' - length (common key fs2 [] l))%nat as [|d] eqn:D; [|destruct d; discriminate]. injection E as <-. exists (length l), x, g.
    assert (firstn (length l) (l ++ [x]) = l) as Ei by (rewrite firstn_app, Nat.sub_diag, firstn_all; cbn; apply app_nil_r).
    split; [split; [rewrite nth_error_app2, Nat.sub_diag by lia; reflexivity|rewrite before_len, Ei; exact M]|]. split; [reflexivity|]. unfold place_of. rewrite Ei. lia.
Qed.
Lemma place_mono l i j f g : has_match l i f g -> (i < j)%nat -> (j <= length l)%nat -> (place_of l i < place_of l j)%nat.
Proof.
  intros [E M] L Lj. unfold place_of.
  assert (exists m, firstn j l = firstn i l ++ f :: m) as (m & ->).
  { exists (firstn (j - S i) (skipn (S i) l)). rewrite (split_at l i f E) at 1. rewrite firstn_app, firstn_firstn. assert (i < length l)%nat by (apply nth_error_Some; congruence).
    rewrite firstn_length. replace (Nat.min j i) with i by lia. replace (j - Nat.min i (length l))%nat with (S (j - S i)) by lia. reflexivity. }
  rewrite common_app, app_length. cbn [common]. rewrite uses_at, used_nil. rewrite before_len in M. cbn [Nat.add]. rewrite M. cbn [length]. lia.
Qed.
Hypothesis key_stack : forall f g, cf_stack f = cf_stack g -> key f = key g.
Lemma place_before l i f g : has_match l i f g -> before key (common key fs2 [] l) (place_of l i) (key f) = before key l i (key f).
Proof.
  intros [E M]. rewrite !before_len. unfold place_of.
  assert (firstn (length (common key fs2 [] (firstn i l))) (common key fs2 [] l) = common key fs2 [] (firstn i l)) as ->.
  { rewrite (split_at l i f E) at 2. rewrite common_app, firstn_app, firstn_all, Nat.sub_diag. cbn [firstn]. apply app_nil_r. }
  rewrite (common_with_key key key_stack), used_nil, map_length, combine_length. cbn [skipn]. rewrite before_len in M. assert (length (with_key key (key f) (firstn i l)) < length (with_key key (key f) fs2))%nat by (apply nth_error_Some; congruence). lia.
Qed.
End Common.

(** ** What is recorded with a filter *)
Section Record.
Variable key : cframe -> bytes.
Hypothesis key_stack : forall f g, cf_stack f = cf_stack g -> key f = key g.

Lemma forall2_impl {X Y} (R S' : X -> Y -> Prop) l m : (forall x y, R x y -> S' x y) -> Forall2 R l m -> Forall2 S' l m.
Proof. intros H F. induction F; constructor; auto. Qed.
Lemma record_length s l : length (record_all key s l) = length l.
Proof. induction l as [|f l IH] using rev_ind; [reflexivity|]. rewrite record_all_app, !app_length, IH. reflexivity. Qed.
Lemma record_stacks s l : Forall2 (fun a b => cf_stack a = cf_stack b) (record_all key s l) l.
Proof. induction l as [|f l IH] using rev_ind; [constructor|]. rewrite record_all_app. apply Forall2_app; [exact IH|]. constructor; [destruct s; reflexivity|constructor]. Qed.
Lemma stacks_before l m : Forall2 (fun a b => key a = key b) l m -> forall i K, before key l i K = before key m i K.
Proof.
  intros H i K. rewrite !before_len. revert i. induction H as [|a b l m E H IH]; intros [|i]; cbn [firstn]; try reflexivity. unfold with_key in *. cbn [filter]. rewrite E. destruct (beq (key b) K); cbn [length]; rewrite IH; reflexivity.
Qed.
Lemma record_nth s l j g : nth_error l j = Some g ->
  nth_error (record_all key (Some s) l) j = Some (CFrame (Some (match s with None => [] | Some frames =>
    match nth_error (with_key key (key g) frames) (before key l j (key g)) with None => []
    | Some h => filter (fun e => (fun k => match mget k (olist (cf_fields h)) with Some _ => true | None => false end) (fst e)) (olist (cf_fields g)) end end)) (cf_stack g) (cf_time g)).
Proof.
  revert j g. induction l as [|x l IH] using rev_ind; intros j g E; [destruct j; discriminate|]. rewrite record_all_app. destruct (Nat.lt_ge_cases j (length l)) as [L|G].
  - rewrite nth_error_app1 in E by exact L. rewrite nth_error_app1 by (rewrite record_length; exact L). rewrite (IH _ _ E).
    assert (before key (l ++ [x]) j (key g) = before key l j (key g)) as ->; [|reflexivity]. rewrite !before_len, firstn_app. replace (j - length l)%nat with 0%nat by lia. cbn [firstn]. rewrite app_nil_r. reflexivity.
  - rewrite nth_error_app2 in E by exact G. destruct (j - length l)%nat as [|d] eqn:D; [|destruct d; discriminate]. injection E as ->. assert (j = length l) as -> by lia.
    rewrite nth_error_app2, record_length, Nat.sub_diag by (rewrite record_length; lia). cbn [nth_error]. unfold apply_filter.
    assert (length (with_key key (key g) (record_all key (Some s) l)) = before key (l ++ [g]) (length l) (key g)) as ->; [|reflexivity].
    rewrite before_len, firstn_app, Nat.sub_diag, firstn_all. cbn [firstn]. rewrite app_nil_r.
    assert (Forall2 (fun a b => key a = key b) (record_all key (Some s) l) l) as F by (apply (forall2_impl (fun a b => cf_stack a = cf_stack b)); [exact key_stack|apply record_stacks]).
    pose proof (stacks_before _ _ F (length l) (key g)) as Q. rewrite !before_len in Q. rewrite <- (record_length (Some s) l) in Q at 1. rewrite !firstn_all in Q. exact Q.
Qed.
End Record.
