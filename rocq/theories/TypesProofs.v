(** Proofs about flattening and identifiers. *)

From Verif Require Import Base Maps TypesModel TypesSpec.
From Coq Require Import Permutation.

(** ** Induction over field trees *)

Lemma fval_ind' (P : fval -> Prop) :
  (forall v c, (forall k x, In (k, x) (olist c) -> P x) -> P (FVal v c)) -> forall n, P n.
Proof.
  intros H. fix IH 1. intros [v c]. apply H. destruct c as [l|]; cbn [olist]; [|intros k x []].
  induction l as [|[k0 x0] l IHl]; intros k x; [intros []|].
  intros [E|E]; [injection E as _ <-; apply IH|exact (IHl k x E)].
Qed.

Lemma mget_In {V} k (v : V) m : NoDup (mkeys m) -> (In (k, v) m <-> mget k m = Some v).
Proof. intros H; split; [apply mget_in_wf; exact H|apply mget_in]. Qed.

(** ** same_tree is an equivalence *)

Lemma same_tree_refl n : same_tree n n.
Proof.
  induction n as [v c IH] using fval_ind'.
  constructor; intros k a E; exists a; (split; [exact E|]); apply mget_in in E; eapply IH; exact E.
Qed.

Lemma same_tree_sym n : forall m, same_tree n m -> same_tree m n.
Proof.
  induction n as [v c IH] using fval_ind'. intros m H. inversion H as [? ? c2 H1 H2]; subst.
  constructor; intros k a E.
  - destruct (H2 k a E) as (b & Eb & Hb). exists b; split; [exact Eb|].
    apply mget_in in Eb. eapply IH; eassumption.
  - destruct (H1 k a E) as (b & Eb & Hb). exists b; split; [exact Eb|].
    apply mget_in in E. eapply IH; eassumption.
Qed.

Lemma same_tree_trans n : forall m q, same_tree n m -> same_tree m q -> same_tree n q.
Proof.
  induction n as [v c IH] using fval_ind'. intros m q H1 H2.
  inversion H1 as [? ? c2 F1 B1]; subst. inversion H2 as [? ? c3 F2 B2]; subst.
  constructor; intros k a E.
  - destruct (F1 k a E) as (b & Eb & Hb). destruct (F2 k b Eb) as (d & Ed & Hd).
    exists d; split; [exact Ed|]. apply mget_in in E. eapply IH; eassumption.
  - destruct (B2 k a E) as (b & Eb & Hb). destruct (B1 k b Eb) as (d & Ed & Hd).
    exists d; split; [exact Ed|]. apply mget_in in Ed. eapply IH; eassumption.
Qed.

Lemma same_fields_refl f : same_fields f f.
Proof. split; intros k a E; exists a; (split; [exact E|apply same_tree_refl]). Qed.
Lemma same_fields_sym f g : same_fields f g -> same_fields g f.
Proof.
  intros [H1 H2]; split; intros k a E.
  - destruct (H2 k a E) as (b & Eb & Hb); exists b; split; [exact Eb|apply same_tree_sym; exact Hb].
  - destruct (H1 k a E) as (b & Eb & Hb); exists b; split; [exact Eb|apply same_tree_sym; exact Hb].
Qed.
Lemma same_fields_trans f g h : same_fields f g -> same_fields g h -> same_fields f h.
Proof.
  intros [F1 B1] [F2 B2]; split; intros k a E.
  - destruct (F1 k a E) as (b & Eb & Hb). destruct (F2 k b Eb) as (d & Ed & Hd).
    exists d; split; [exact Ed|eapply same_tree_trans; eassumption].
  - destruct (B2 k a E) as (b & Eb & Hb). destruct (B1 k b Eb) as (d & Ed & Hd).
    exists d; split; [exact Ed|eapply same_tree_trans; eassumption].
Qed.
Lemma same_tree_fields v c1 c2 : same_fields c1 c2 -> same_tree (FVal v c1) (FVal v c2).
Proof. intros [H1 H2]; constructor; assumption. Qed.
Lemma same_tree_inv v1 c1 v2 c2 :
  same_tree (FVal v1 c1) (FVal v2 c2) -> v1 = v2 /\ same_fields c1 c2.
Proof. intros H; inversion H; subst; split; [reflexivity|split; assumption]. Qed.

Lemma same_fields_nil f g : same_fields f g -> olist f = [] -> olist g = [].
Proof.
  intros [_ H] E. apply amap_empty. intros k. destruct (mget k (olist g)) as [b|] eqn:Eb; [|reflexivity].
  destruct (H k b Eb) as (a & Ea & _). rewrite E in Ea. discriminate.
Qed.

(** ** Heights *)

Lemma height_eq v c : height (FVal v c) = S (fields_height c).
Proof.
  unfold fields_height. cbn. destruct c as [l|]; [|reflexivity]. cbn [olist]. f_equal.
  induction l as [|[k x] l IH]; cbn; [reflexivity|]. rewrite IH; reflexivity.
Qed.

Lemma fields_height_le f n : (fields_height f <= n)%nat <-> (forall k x, In (k, x) (olist f) -> (height x <= n)%nat).
Proof.
  unfold fields_height. induction (olist f) as [|[k0 x0] l IH]; cbn.
  - split; [intros _ k x []|lia].
  - rewrite Nat.max_lub_iff, IH. split.
    + intros [H1 H2] k x [E|E]; [injection E as _ <-; exact H1|eapply H2; exact E].
    + intros H; split; [apply (H k0 x0); left; reflexivity|]. intros k x E; apply (H k x); right; exact E.
Qed.

Lemma same_tree_height n : fwf n -> forall m, fwf m -> same_tree n m -> (height n <= height m)%nat.
Proof.
  induction n as [v c IH] using fval_ind'. intros Wn m Wm H. inversion H as [? ? c2 F Bk]; subst.
  rewrite !height_eq. apply le_n_S. apply fields_height_le. intros k x Hx.
  inversion Wn as [? ? N1 W1]; subst. inversion Wm as [? ? N2 W2]; subst.
  destruct (F k x) as (b & Eb & Hb); [apply mget_in_wf; assumption|].
  apply mget_in in Eb. etransitivity; [apply (IH k x Hx (W1 _ _ Hx) b (W2 _ _ Eb) Hb)|].
  destruct (fields_height_le c2 (fields_height c2)) as [L _]. exact (L (Nat.le_refl _) k b Eb).
Qed.

Lemma same_fields_height f g :
  fvals_wf f -> fvals_wf g -> same_fields f g -> (fields_height f <= fields_height g)%nat.
Proof.
  intros Wf Wg H. pose proof (same_tree_height (FVal [] f)) as L. rewrite height_eq in L.
  specialize (L ltac:(constructor; apply Wf) (FVal [] g) ltac:(constructor; apply Wg)
    (same_tree_fields [] _ _ H)). rewrite height_eq in L. lia.
Qed.

(** ** Flattening *)

Definition subkey (key name : bytes) : bytes :=
  match key with [] => name | _ => key ++ B "." ++ name end.

Lemma flat_node_eq key v c :
  flat_node key (FVal v c) =
  match olist c with
  | [] => [(key, v)]
  | l => flat_map (fun e => flat_node (subkey key (fst e)) (snd e)) l
  end.
Proof.
  destruct c as [[|e0 l]|]; [reflexivity| |reflexivity]. cbn [olist].
  change (flat_node key (FVal v (Some (e0 :: l)))) with
    ((fix walk (l : list (bytes * fval)) : list (bytes * bytes) :=
         match l with
         | [] => []
         | (name, x) :: l' =>
             flat_node (subkey key name) x ++ walk l'
         end) (e0 :: l)).
  generalize (e0 :: l) as l'. induction l' as [|[k x] l' IH]; [reflexivity|].
  cbn [flat_map fst snd]. rewrite <- IH. reflexivity.
Qed.

Lemma leaf_at_nonempty f p v : leaf_at f p v -> p <> [].
Proof. intros H; inversion H; discriminate. Qed.

Lemma dotted_cons k p : p <> [] -> dotted (k :: p) = k ++ B "." ++ dotted p.
Proof. destruct p; [congruence|reflexivity]. Qed.

Lemma flat_node_spec n : forall key k w,
  fwf n -> names_plain n -> key <> [] ->
  (In (k, w) (flat_node key n) <->
   (olist (f_children n) = [] /\ k = key /\ w = f_value n) \/
   (exists p, leaf_at (f_children n) p w /\ k = key ++ B "." ++ dotted p)).
Proof.
  induction n as [v c IH] using fval_ind'. intros key k w Wn Pn Hkey.
  inversion Wn as [? ? N1 W1]; subst. inversion Pn as [? ? Pc]; subst.
  rewrite flat_node_eq. cbn [f_children f_value].
  destruct (olist c) as [|e0 l0] eqn:Ec.
  - cbn [In]. split.
    + intros [E|[]]. apply pair_equal_spec in E as [<- <-]. left; auto.
    + intros [(_ & -> & ->)|(p & Hp & _)]; [left; reflexivity|].
      exfalso. inversion Hp as [f k0 v0 c0 E _|f k0 w0 c0 p0 v0 E _]; subst;
        rewrite Ec in E; discriminate.
  - rewrite <- Ec in *. rewrite in_flat_map.
    assert (forall name, subkey key name = key ++ B "." ++ name) as Sk
      by (intros; unfold subkey; destruct key; [congruence|reflexivity]).
    split.
    + intros ([name x] & Hin & H). cbn [fst snd] in H. right. rewrite Sk in H.
      destruct (Pc _ _ Hin) as [Pname Px].
      apply (IH name x Hin) in H; [|exact (W1 _ _ Hin)|exact Px|destruct key; [congruence|discriminate]].
      destruct x as [vx cx]. cbn [f_children f_value] in H.
      pose proof (proj1 (mget_In _ _ _ N1) Hin) as G.
      destruct H as [(H1 & -> & ->)|(p & Hp & ->)].
      * exists [name]. split; [apply (leaf_here c name vx cx G H1)|reflexivity].
      * exists (name :: p). split; [apply (leaf_below c name vx cx p w G Hp)|].
        rewrite dotted_cons by (eapply leaf_at_nonempty; exact Hp).
        rewrite <- !app_assoc. reflexivity.
    + intros [(C & _)|(p & Hp & ->)]; [congruence|].
      inversion Hp as [f k0 v0 c0 E Hc|f k0 w0 c0 p0 v0 E Hp0]; subst.
      * apply mget_in in E. exists (k0, FVal w c0). split; [exact E|]. cbn [fst snd]. rewrite Sk.
        destruct (Pc _ _ E) as [Pname Px].
        apply (IH k0 _ E); [exact (W1 _ _ E)|exact Px|destruct key; [congruence|discriminate]|].
        left. auto.
      * apply mget_in in E. exists (k0, FVal w0 c0). split; [exact E|]. cbn [fst snd]. rewrite Sk.
        destruct (Pc _ _ E) as [Pname Px].
        apply (IH k0 _ E); [exact (W1 _ _ E)|exact Px|destruct key; [congruence|discriminate]|].
        right. exists p0. split; [exact Hp0|].
        rewrite dotted_cons by (eapply leaf_at_nonempty; exact Hp0).
        rewrite <- !app_assoc. reflexivity.
Qed.

Lemma flatten_entries f k w :
  fvals_wf f -> fvals_plain f ->
  (In (k, w) (flat_map (fun e => flat_node (fst e) (snd e)) (olist f)) <->
   exists p, leaf_at f p w /\ k = dotted p).
Proof.
  intros [N1 W1] Pf. rewrite in_flat_map. split.
  - intros ([name x] & Hin & H). cbn [fst snd] in H. destruct (Pf _ _ Hin) as [[Pn _] Px].
    apply flat_node_spec in H; [|exact (W1 _ _ Hin)|exact Px|exact Pn].
    destruct x as [vx cx]. cbn [f_children f_value] in H.
    pose proof (proj1 (mget_In _ _ _ N1) Hin) as G.
    destruct H as [(H1 & -> & ->)|(p & Hp & ->)].
    + exists [name]. split; [apply (leaf_here f name vx cx G H1)|reflexivity].
    + exists (name :: p). split; [apply (leaf_below f name vx cx p w G Hp)|].
      rewrite dotted_cons by (eapply leaf_at_nonempty; exact Hp). reflexivity.
  - intros (p & Hp & ->). inversion Hp as [f' k0 v0 c0 E Hc|f' k0 w0 c0 p0 v0 E Hp0]; subst.
    + apply mget_in in E. destruct (Pf _ _ E) as [[Pn _] Px]. exists (k0, FVal w c0).
      split; [exact E|]. apply flat_node_spec; [exact (W1 _ _ E)|exact Px|exact Pn|]. left; auto.
    + apply mget_in in E. destruct (Pf _ _ E) as [[Pn _] Px]. exists (k0, FVal w0 c0).
      split; [exact E|]. apply flat_node_spec; [exact (W1 _ _ E)|exact Px|exact Pn|].
      right. exists p0. split; [exact Hp0|].
      rewrite dotted_cons by (eapply leaf_at_nonempty; exact Hp0). reflexivity.
Qed.

Lemma dot_cut a b r1 r2 :
  ~ In "."%char a -> ~ In "."%char b -> a ++ "."%char :: r1 = b ++ "."%char :: r2 -> a = b /\ r1 = r2.
Proof.
  revert b; induction a as [|x a IH]; intros [|y b] Ha Hb E; cbn in E.
  - injection E as ->; auto.
  - injection E as <- E. exfalso; apply Hb; left; reflexivity.
  - injection E as -> E. exfalso; apply Ha; left; reflexivity.
  - injection E as -> E. destruct (IH b) as [-> ->]; auto; intros H; [apply Ha|apply Hb]; right; exact H.
Qed.

Lemma dotted_inj p : forall q, p <> [] -> q <> [] ->
  Forall plain_name p -> Forall plain_name q -> dotted p = dotted q -> p = q.
Proof.
  induction p as [|a p IH]; intros q Hp Hq Pp Pq E; [congruence|].
  destruct q as [|b q]; [congruence|]. inversion Pp as [|? ? [_ Pa] Pp']; subst.
  inversion Pq as [|? ? [_ Pb] Pq']; subst.
  destruct p as [|a' p], q as [|b' q].
  - cbn in E. congruence.
  - exfalso. rewrite (dotted_cons b) in E by discriminate. change (dotted [a]) with a in E.
    apply Pa. rewrite E.
    apply in_or_app; right; left; reflexivity.
  - exfalso. rewrite (dotted_cons a) in E by discriminate. change (dotted [b]) with b in E. apply Pb. rewrite <- E.
    apply in_or_app; right; left; reflexivity.
  - rewrite !(dotted_cons _ (_ :: _)) in E by discriminate. change (B ".") with ["."%char] in E.
    cbn [app] in E. apply dot_cut in E as [-> E]; auto. f_equal. apply IH; auto; discriminate.
Qed.

Lemma leaf_at_plain f p v : fvals_plain f -> leaf_at f p v -> Forall plain_name p.
Proof.
  intros Pf H. induction H as [f k v c E Hc|f k w c p v E Hp IH].
  - apply mget_in in E. constructor; [apply (Pf _ _ E)|constructor].
  - apply mget_in in E. destruct (Pf _ _ E) as [Pk Px]. inversion Px; subst.
    constructor; [exact Pk|apply IH; assumption].
Qed.

Lemma leaf_at_det f p v : leaf_at f p v -> forall w, leaf_at f p w -> v = w.
Proof.
  induction 1 as [f k v c E Hc|f k w c p v E Hp IH]; intros u Hu.
  - inversion Hu as [? ? ? c' E' Hc'|? ? ? c' p' ? E' Hp']; subst.
    + congruence.
    + inversion Hp'.
  - inversion Hu as [? ? ? c' E' Hc'|? ? ? c' p' ? E' Hp']; subst.
    + inversion Hp.
    + apply IH. congruence.
Qed.

Lemma fold_mset_functional {V} (l : list (bytes * V)) : forall m,
  (forall k v1 v2, In (k, v1) l -> In (k, v2) l -> v1 = v2) ->
  forall k, (forall v, In (k, v) l -> mget k (fold_left (fun m e => mset (fst e) (snd e) m) l m) = Some v) /\
            ((forall v, ~ In (k, v) l) -> mget k (fold_left (fun m e => mset (fst e) (snd e) m) l m) = mget k m).
Proof.
  induction l as [|[k0 v0] l IH]; intros m F k; cbn [fold_left fst snd].
  - split; [intros v []|reflexivity].
  - assert (forall k v1 v2, In (k, v1) l -> In (k, v2) l -> v1 = v2) as F'
      by (intros; eapply F; right; eassumption).
    destruct (IH (mset k0 v0 m) F' k) as [H1 H2]. split.
    + intros v [E|E]; [|apply H1; exact E]. apply pair_equal_spec in E as [<- <-].
      destruct (in_dec bytes_eq_dec k0 (mkeys l)) as [i|n].
      * unfold mkeys in i. apply in_map_iff in i as ([k1 v1] & Ek & Hin). cbn in Ek. subst k1.
        rewrite (H1 v1 Hin). f_equal. apply (F k0); [right; exact Hin|left; reflexivity].
      * rewrite H2; [apply mget_mset_same|]. intros v Hv. apply n. apply in_map_iff.
        exists (k0, v); auto.
    + intros Hn. rewrite H2 by (intros v Hv; apply (Hn v); right; exact Hv).
      apply mget_mset_other. intros ->. apply (Hn v0). left; reflexivity.
Qed.

Lemma fold_mset_wf {V} (l : list (bytes * V)) : forall m, mwf m ->
  mwf (fold_left (fun m e => mset (fst e) (snd e) m) l m).
Proof. induction l as [|e l IH]; intros m H; cbn; [exact H|apply IH, mwf_mset, H]. Qed.

Lemma flatten_spec f : fvals_wf f -> fvals_plain f ->
  forall k v, mget k (flatten f) = Some v <-> exists p, leaf_at f p v /\ k = dotted p.
Proof.
  intros Wf Pf k v. unfold flatten.
  set (l := flat_map (fun e => flat_node (fst e) (snd e)) (olist f)).
  assert (forall k v1 v2, In (k, v1) l -> In (k, v2) l -> v1 = v2) as F.
  { intros k0 v1 v2 H1 H2. apply flatten_entries in H1 as (p1 & L1 & E1); auto.
    apply flatten_entries in H2 as (p2 & L2 & E2); auto.
    assert (p1 = p2) as <-.
    { apply dotted_inj; try (eapply leaf_at_nonempty; eassumption);
        try (eapply leaf_at_plain; eassumption). congruence. }
    eapply leaf_at_det; eassumption. }
  rewrite <- flatten_entries by assumption. fold l.
  destruct (fold_mset_functional l [] F k) as [H1 H2]. split.
  - intros E. destruct (in_dec bytes_eq_dec k (mkeys l)) as [i|n].
    + unfold mkeys in i. apply in_map_iff in i as ([k1 v1] & Ek & Hin). cbn in Ek. subst k1.
      rewrite (H1 v1 Hin) in E. congruence.
    + rewrite H2 in E; [discriminate|]. intros w Hw. apply n. apply in_map_iff.
      exists (k, w); auto.
  - apply H1.
Qed.

(** ** Identifiers *)

Lemma ser_entry_eq key v c :
  ser_entry key (FVal v c) =
  framed key ++ match olist c with [] => ascii_of_N 0 :: framed v | l => ascii_of_N 1 :: ser_map l end.
Proof.
  destruct c as [[|e0 l]|]; [reflexivity| |reflexivity]. cbn [olist]. unfold ser_map.
  change (ser_entry key (FVal v (Some (e0 :: l)))) with
    (framed key ++ ascii_of_N 1 :: ser_sorted
        ((fix go (l : list (bytes * fval)) : list (bytes * bytes) :=
            match l with [] => [] | (k, x) :: l' => (k, ser_entry k x) :: go l' end) (e0 :: l))).
  do 3 f_equal. generalize (e0 :: l) as l'. induction l' as [|[k x] l' IH]; [reflexivity|].
  cbn [map fst snd]. rewrite <- IH. reflexivity.
Qed.

Lemma mkeys_map {V W} (g : bytes * V -> W) (l : list (bytes * V)) :
  mkeys (map (fun e => (fst e, g e)) l) = mkeys l.
Proof. unfold mkeys. rewrite map_map. reflexivity. Qed.

Lemma mget_map {V W} (g : bytes -> V -> W) (l : list (bytes * V)) k :
  mget k (map (fun e => (fst e, g (fst e) (snd e))) l) = option_map (g k) (mget k l).
Proof.
  induction l as [|[q x] l IH]; cbn; [reflexivity|].
  destruct (beq_spec k q) as [->|]; [reflexivity|exact IH].
Qed.

Lemma same_keys l1 l2 :
  same_fields (Some l1) (Some l2) -> NoDup (mkeys l1) -> NoDup (mkeys l2) ->
  Permutation (mkeys l1) (mkeys l2).
Proof.
  intros [F Bk] N1 N2. cbn [olist] in *. apply NoDup_Permutation; auto.
  intros k. rewrite !mget_keys. split; intros H.
  - destruct (mget k l1) as [a|] eqn:E; [|congruence]. destruct (F k a E) as (b & -> & _); discriminate.
  - destruct (mget k l2) as [a|] eqn:E; [|congruence]. destruct (Bk k a E) as (b & -> & _); discriminate.
Qed.

Lemma ser_entry_same n : forall m key, fwf n -> fwf m -> same_tree n m -> ser_entry key n = ser_entry key m.
Proof.
  induction n as [v c IH] using fval_ind'. intros m key Wn Wm H.
  inversion H as [? ? c2 F Bk]; subst. inversion Wn as [? ? N1 W1]; subst. inversion Wm as [? ? N2 W2]; subst.
  rewrite !ser_entry_eq.
  assert (same_fields c c2) as SF by (split; assumption).
  destruct (olist c) as [|e l] eqn:Ec.
  - rewrite (same_fields_nil _ _ SF Ec). reflexivity.
  - destruct (olist c2) as [|e2 l2] eqn:Ec2.
    + apply same_fields_sym in SF. rewrite (same_fields_nil _ _ SF Ec2) in Ec. discriminate.
    + do 2 f_equal. rewrite <- Ec in *. rewrite <- Ec2 in *. clear Ec Ec2. unfold ser_map, ser_sorted.
      rewrite !(mkeys_map (fun e => ser_entry (fst e) (snd e))).
      rewrite (bsort_unique (mkeys (olist c)) (mkeys (olist c2))).
      2:{ apply same_keys; [split; cbn [olist]; assumption|assumption|assumption]. }
      f_equal. apply map_ext. intros k. rewrite !(mget_map ser_entry).
      destruct (mget k (olist c)) as [a|] eqn:Ea.
      * destruct (F k a Ea) as (b & Eb & Hb). rewrite Eb. cbn.
        apply mget_in in Ea, Eb. apply (IH k a Ea); eauto.
      * destruct (mget k (olist c2)) as [b|] eqn:Eb; [|reflexivity].
        destruct (Bk k b Eb) as (a & Ea' & _). congruence.
Qed.

Lemma ser_map_same c1 c2 :
  fvals_wf c1 -> fvals_wf c2 -> same_fields c1 c2 -> ser_map (olist c1) = ser_map (olist c2).
Proof.
  intros W1 W2 H.
  assert (same_tree (FVal [] c1) (FVal [] c2)) as ST by (apply same_tree_fields; exact H).
  pose proof (ser_entry_same _ _ [] (fwf_intro [] c1 (proj1 W1) (proj2 W1))
    (fwf_intro [] c2 (proj1 W2) (proj2 W2)) ST) as E.
  rewrite !ser_entry_eq in E. apply app_inv_head in E.
  destruct (olist c1) as [|e l] eqn:E1.
  - rewrite (same_fields_nil _ _ H E1). reflexivity.
  - destruct (olist c2) as [|e2 l2] eqn:E2.
    + apply same_fields_sym in H. rewrite (same_fields_nil _ _ H E2) in E1. discriminate.
    + injection E as E. exact E.
Qed.

Lemma fvals_id_same sha1 c1 c2 :
  fvals_wf c1 -> fvals_wf c2 -> same_fields c1 c2 -> (c1 = None <-> c2 = None) ->
  fvals_id sha1 c1 = fvals_id sha1 c2.
Proof.
  intros W1 W2 H Hn. pose proof (ser_map_same _ _ W1 W2 H) as E.
  destruct c1 as [l1|], c2 as [l2|]; try reflexivity.
  - cbn [olist] in E. unfold fvals_id. destruct l1 as [|e1 l1].
    + pose proof (same_fields_nil _ _ H eq_refl) as E'. cbn in E'. subst l2. reflexivity.
    + destruct l2 as [|e2 l2]; [|rewrite E; reflexivity].
      apply same_fields_sym in H. pose proof (same_fields_nil _ _ H eq_refl) as E'. discriminate.
  - destruct Hn as [_ Hn]. specialize (Hn eq_refl). discriminate.
  - destruct Hn as [Hn _]. specialize (Hn eq_refl). discriminate.
Qed.
