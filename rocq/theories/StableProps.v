(** Properties C32, C33, C39 and C55: stable results of repeated runs. *)

From Coq Require Import Permutation Sorted.
From Verif Require Import Base Maps UtilModel UtilProps TypesModel TypesSpec TypesProofs StableModel.

(** ** C32: fields *)

Definition node_leaf (n : fval) (p : list bytes) (v : bytes) : Prop :=
  let 'FVal w c := n in (p = [] /\ olist c = [] /\ w = v) \/ leaf_at c p v.

Lemma leaf_at_cons f k p v : leaf_at f (k :: p) v <-> exists n, mget k (olist f) = Some n /\ node_leaf n p v.
Proof.
  split.
  - intros H. inversion H; subst.
    + exists (FVal v c). split; [assumption|]. left. auto.
    + exists (FVal w c). split; [assumption|]. right. assumption.
  - intros ([w c] & Hk & [(-> & Hc & ->)|Hl]); [eapply leaf_here|eapply leaf_below]; eassumption.
Qed.
Lemma leaf_at_nil f v : ~ leaf_at f [] v.
Proof. intros H. inversion H. Qed.

Lemma stable_node_eq v1 c1 v2 c2 : stable_node (FVal v1 c1) (FVal v2 c2) =
  match olist c1, olist c2 with
  | [], [] => if beq v1 v2 then Some (FVal v1 None) else None
  | _ :: _, _ :: _ => match stable_list (olist c1) (olist c2) with [] => None | l => Some (FVal [] (Some l)) end
  | _, _ => None
  end.
Proof.
  destruct c1 as [[|e1 l1]|]; try (cbn [stable_node olist]; destruct (olist c2); reflexivity).
  cbn [olist]. assert (forall l2 l, (fix go (l : list (bytes * fval)) : list (bytes * fval) :=
                   match l with
                   | [] => []
                   | (k, x) :: l' =>
                       match mget k l2 with
                       | Some y => match stable_node x y with Some z => (k, z) :: go l' | None => go l' end
                       | None => go l'
                       end
                   end) l = stable_list l l2) as G.
  { intros l2 l. induction l as [|[k x] l IH]; [reflexivity|].
    unfold stable_list. cbn [flat_map fst snd]. destruct (mget k l2) as [y|]; [|exact IH].
    destruct (stable_node x y); [cbn [app]; f_equal; exact IH|exact IH]. }
  destruct (olist c2) as [|e2 l2] eqn:E; [cbn [stable_node]; rewrite E; reflexivity|].
  rewrite <- G. cbn [stable_node]. rewrite E. destruct e1 as [k x]. cbn [fst snd].
  match goal with |- match ?t with [] => _ | _ => _ end = _ => destruct t; reflexivity end.
Qed.

Lemma stable_list_in k z l1 l2 : In (k, z) (stable_list l1 l2) <->
  exists x y, In (k, x) l1 /\ mget k l2 = Some y /\ stable_node x y = Some z.
Proof.
  unfold stable_list. rewrite in_flat_map. split.
  - intros ([k' x] & Hx & Hi). cbn in Hi. destruct (mget k' l2) as [y|] eqn:E; [|destruct Hi].
    destruct (stable_node x y) eqn:Es; [|destruct Hi]. destruct Hi as [[= <- <-]|[]]. eauto 6.
  - intros (x & y & Hx & Hy & Hs). exists (k, x). split; [exact Hx|]. cbn. rewrite Hy, Hs. left; reflexivity.
Qed.
Lemma stable_list_keys l1 l2 k : In k (mkeys (stable_list l1 l2)) -> In k (mkeys l1).
Proof.
  unfold mkeys. rewrite !in_map_iff. intros ([k' z] & <- & Hi). apply stable_list_in in Hi as (x & _ & Hx & _). exists (k', x). auto.
Qed.
Lemma stable_list_nodup l1 l2 : NoDup (mkeys l1) -> NoDup (mkeys (stable_list l1 l2)).
Proof.
  induction l1 as [|[k x] l1 IH]; intros H; [constructor|]. cbn in H. inversion H as [|? ? Hn Hd]; subst.
  change (stable_list ((k, x) :: l1) l2) with
    (match mget k l2 with Some y => match stable_node x y with Some z => [(k, z)] | None => [] end | None => [] end ++ stable_list l1 l2).
  destruct (mget k l2); [destruct (stable_node x _)|]; cbn [app]; auto. cbn. constructor; [|auto].
  intros Hk. apply Hn. eapply stable_list_keys. exact Hk.
Qed.
Lemma mget_stable l1 l2 k z : NoDup (mkeys l1) -> (mget k (stable_list l1 l2) = Some z <->
  exists x y, mget k l1 = Some x /\ mget k l2 = Some y /\ stable_node x y = Some z).
Proof.
  intros H. rewrite <- mget_In by (apply stable_list_nodup; exact H). rewrite stable_list_in.
  split; intros (x & y & Hx & Hr); exists x, y; (split; [|exact Hr]); apply mget_In; assumption.
Qed.

Lemma stable_node_leaf n1 : fwf n1 -> forall n2 p v,
  (exists z, stable_node n1 n2 = Some z /\ node_leaf z p v) <-> node_leaf n1 p v /\ node_leaf n2 p v.
Proof.
  induction n1 as [v1 c1 IH] using fval_ind'. intros W [v2 c2] p v. inversion W as [? ? Hn Hw]; subst.
  rewrite stable_node_eq. cbn [node_leaf].
  assert (forall c q, olist c = [] -> ~ leaf_at c q v) as No.
  { intros c q E H. inversion H; subst; rewrite E in *; discriminate. }
  destruct (olist c1) as [|e1 l1] eqn:E1; destruct (olist c2) as [|e2 l2] eqn:E2.
  - split.
    + intros (z & Hz & Hl). destruct (beq_spec v1 v2) as [->|]; [|discriminate]. injection Hz as <-.
      destruct Hl as [(-> & _ & ->)|Hl]; [auto|]. exfalso. eapply No; [|exact Hl]. reflexivity.
    + intros ([(-> & _ & ->)|H1] & [(_ & _ & ->)|H2]); try (exfalso; eapply No; [exact E1|eassumption]).
      * rewrite beq_refl. eexists. split; [reflexivity|]. left. auto.
      * exfalso; eapply No; [exact E2|eassumption].
  - split; [intros (z & Hz & _); discriminate|]. intros ([(-> & _ & _)|H1] & [(_ & H & _)|H2]); try discriminate.
    + exfalso. eapply leaf_at_nil. exact H2.
    + exfalso; eapply No; [exact E1|eassumption].
  - split; [intros (z & Hz & _); discriminate|]. intros ([(_ & H & _)|H1] & [(-> & _ & _)|H2]); try discriminate.
    + exfalso. eapply leaf_at_nil. exact H1.
    + exfalso; eapply No; [exact E2|eassumption].
  - assert (forall q, leaf_at (Some (stable_list (olist c1) (olist c2))) q v <-> leaf_at c1 q v /\ leaf_at c2 q v) as G.
    { intros [|k q]; [split; [intros H; destruct (leaf_at_nil _ _ H)|intros [H _]; destruct (leaf_at_nil _ _ H)]|].
      rewrite !leaf_at_cons. cbn [olist]. split.
      - intros (z & Hz & Hl). apply mget_stable in Hz as (x & y & Hx & Hy & Hs); [|rewrite E1; exact Hn].
        assert (In (k, x) (olist c1)) as Hi by (apply mget_in; exact Hx). rewrite E1 in Hi.
        destruct (proj1 (IH k x Hi (Hw k x Hi) y q v)) as [A B_]; [eauto|]. split; eauto.
      - intros ((x & Hx & Ax) & (y & Hy & Ay)).
        assert (In (k, x) (olist c1)) as Hi by (apply mget_in; exact Hx). rewrite E1 in Hi.
        destruct (proj2 (IH k x Hi (Hw k x Hi) y q v)) as (z & Hz & Al); [auto|]. exists z. split; [|exact Al].
        apply mget_stable; [rewrite E1; exact Hn|]. eauto. }
    rewrite E1, E2 in G. specialize (G p). set (S_ := stable_list (e1 :: l1) (e2 :: l2)) in *.
    assert (forall q, leaf_at (Some S_) q v -> S_ <> []) as Ne.
    { intros q H E. eapply No; [|exact H]. exact E. }
    split.
    + intros (z & Hz & Hl). destruct S_ as [|s ss] eqn:Es; [discriminate|]. injection Hz as <-.
      destruct Hl as [(_ & H & _)|Hl]; [discriminate|]. apply G in Hl as [A B_]. auto.
    + intros ([(_ & H & _)|H1] & [(_ & H0 & _)|H2]); try discriminate.
      assert (leaf_at (Some S_) p v) as Hl by (apply G; auto). specialize (Ne _ Hl).
      destruct S_ as [|s ss]; [congruence|]. eexists. split; [reflexivity|]. right. exact Hl.
Qed.

(** The stable fields are exactly the leaves both runs have, at the same path with
    the same value. *)
Theorem C32_stable_fields_exact : forall f1 f2 p v, fvals_wf f1 ->
  leaf_at (stable_fields f1 f2) p v <-> leaf_at f1 p v /\ leaf_at f2 p v.
Proof.
  intros f1 f2 [|k p] v [Hn Hw]; [split; [intros H; destruct (leaf_at_nil _ _ H)|intros [H _]; destruct (leaf_at_nil _ _ H)]|].
  rewrite !leaf_at_cons. cbn [olist stable_fields]. split.
  - intros (z & Hz & Hl). apply mget_stable in Hz as (x & y & Hx & Hy & Hs); [|exact Hn].
    destruct (proj1 (stable_node_leaf x (Hw k x (mget_in _ _ _ Hx)) y p v)) as [A B_]; [eauto|]. split; eauto.
  - intros ((x & Hx & Ax) & (y & Hy & Ay)).
    destruct (proj2 (stable_node_leaf x (Hw k x (mget_in _ _ _ Hx)) y p v)) as (z & Hz & Al); [auto|]. exists z. split; [|exact Al].
    apply mget_stable; [exact Hn|]. eauto.
Qed.
Print Assumptions C32_stable_fields_exact.

(** Trees whose inner nodes carry no value and have children all the way down to
    leaves are determined by their leaves. *)
Inductive clean : fval -> Prop :=
  clean_intro v c : (olist c <> [] -> v = []) -> (forall k x, In (k, x) (olist c) -> clean x) -> clean (FVal v c).
Definition clean_fields (f : fvals) : Prop := forall k x, In (k, x) (olist f) -> clean x.

Lemma stable_node_clean n1 : forall n2 z, stable_node n1 n2 = Some z -> clean z.
Proof.
  induction n1 as [v1 c1 IH] using fval_ind'. intros [v2 c2] z H. rewrite stable_node_eq in H.
  destruct (olist c1) as [|e1 l1] eqn:E1; destruct (olist c2) as [|e2 l2] eqn:E2; try discriminate.
  - destruct (beq v1 v2); [|discriminate]. injection H as <-. constructor; cbn; [congruence|intros k x []].
  - destruct (stable_list (e1 :: l1) (e2 :: l2)) as [|s ss] eqn:Es; [discriminate|]. injection H as <-. constructor; cbn [olist]; [reflexivity|].
    intros k x Hi. rewrite <- Es in Hi. apply stable_list_in in Hi as (a & b & Ha & _ & Hs). eapply IH; eassumption.
Qed.
Lemma stable_clean f1 f2 : clean_fields (stable_fields f1 f2).
Proof. intros k x Hi. cbn in Hi. apply stable_list_in in Hi as (a & b & _ & _ & Hs). eapply stable_node_clean; exact Hs. Qed.
Lemma stable_node_wf n1 : fwf n1 -> forall n2 z, stable_node n1 n2 = Some z -> fwf z.
Proof.
  induction n1 as [v1 c1 IH] using fval_ind'. intros W [v2 c2] z H. inversion W as [? ? Hn Hw]; subst. rewrite stable_node_eq in H.
  destruct (olist c1) as [|e1 l1] eqn:E1; destruct (olist c2) as [|e2 l2] eqn:E2; try discriminate.
  - destruct (beq v1 v2); [|discriminate]. injection H as <-. constructor; cbn; [constructor|intros k x []].
  - pose proof (stable_list_nodup _ (e2 :: l2) Hn) as Hn'.
    destruct (stable_list (e1 :: l1) (e2 :: l2)) as [|s ss] eqn:Es; [discriminate|]. injection H as <-. constructor; cbn [olist]; [exact Hn'|].
    intros k x Hi. rewrite <- Es in Hi. apply stable_list_in in Hi as (a & b & Ha & _ & Hs). eapply IH; eauto.
Qed.
Lemma stable_wf f1 f2 : fvals_wf f1 -> fvals_wf (stable_fields f1 f2).
Proof.
  intros [Hn Hw]. split; cbn; [apply stable_list_nodup; exact Hn|]. intros k x Hi.
  apply stable_list_in in Hi as (a & b & Ha & _ & Hs). eapply stable_node_wf; eauto.
Qed.

Lemma clean_has_leaf n : clean n -> fwf n -> exists p v, node_leaf n p v.
Proof.
  induction n as [v c IH] using fval_ind'. intros H W. inversion H as [? ? Hv Hc]; inversion W as [? ? Hn Hw]; subst.
  destruct (olist c) as [|[k x] l] eqn:E.
  - exists [], v. left. auto.
  - destruct (IH k x) as (p & w & Hl); [left; reflexivity|apply (Hc k x); left; reflexivity|apply (Hw k x); left; reflexivity|].
    exists (k :: p), w. right. apply leaf_at_cons. exists x. split; [|exact Hl]. rewrite E. cbn.
    destruct (beq_spec k k); congruence.
Qed.

Lemma leaves_determine_node n : clean n -> fwf n -> forall m, clean m -> fwf m ->
  (forall p v, node_leaf n p v <-> node_leaf m p v) -> same_tree n m.
Proof.
  induction n as [v c IH] using fval_ind'. intros Hc W [w d] Hd W' L.
  inversion Hc as [? ? Hv Hcc]; inversion W as [? ? Hn Hw]; inversion Hd as [? ? Hw' Hdd]; inversion W' as [? ? Hn' Hw'']; subst.
  assert (forall p u, leaf_at c p u <-> leaf_at d p u) as Ll.
  { intros p u. specialize (L p u). cbn in L. split; intros H.
    - destruct (proj1 L (or_intror H)) as [(-> & _)|]; [destruct (leaf_at_nil _ _ H)|assumption].
    - destruct (proj2 L (or_intror H)) as [(-> & _)|]; [destruct (leaf_at_nil _ _ H)|assumption]. }
  assert (v = w) as ->.
  { destruct (olist c) as [|e l] eqn:E.
    - destruct (proj1 (L [] v)) as [(_ & _ & ->)|H]; [left; auto|reflexivity|destruct (leaf_at_nil _ _ H)].
    - rewrite Hv by discriminate. destruct (olist d) as [|e' l'] eqn:E'; [|symmetry; apply Hw'; discriminate].
      destruct (proj2 (L [] w)) as [(_ & H & _)|H]; [left; auto|congruence|destruct (leaf_at_nil _ _ H)]. }
  assert (forall k x y, mget k (olist c) = Some x -> mget k (olist d) = Some y -> same_tree x y) as Hxy.
  { intros k x y Hx Hy. pose proof (mget_in _ _ _ Hx) as Ix. pose proof (mget_in _ _ _ Hy) as Iy.
    apply (IH k x Ix (Hcc k x Ix) (Hw k x Ix) y (Hdd k y Iy) (Hw'' k y Iy)).
    intros p u. specialize (Ll (k :: p) u). rewrite !leaf_at_cons in Ll. split; intros H.
    - destruct (proj1 Ll) as (y' & Hy' & H'); [eauto|]. congruence.
    - destruct (proj2 Ll) as (y' & Hy' & H'); [eauto|]. congruence. }
  constructor.
  - intros k x Hx. pose proof (mget_in _ _ _ Hx) as Ix.
    destruct (clean_has_leaf x) as (p & u & Hl); [eapply Hcc; exact Ix|eapply Hw; exact Ix|].
    destruct (proj1 (leaf_at_cons d k p u)) as (y & Hy & _); [apply Ll, leaf_at_cons; eauto|]. exists y. split; [exact Hy|eapply Hxy; eassumption].
  - intros k y Hy. pose proof (mget_in _ _ _ Hy) as Iy.
    destruct (clean_has_leaf y) as (p & u & Hl); [eapply Hdd; exact Iy|eapply Hw''; exact Iy|].
    destruct (proj1 (leaf_at_cons c k p u)) as (x & Hx & _); [apply Ll, leaf_at_cons; eauto|]. exists x. split; [exact Hx|eapply Hxy; eassumption].
Qed.
Lemma leaves_determine f g : clean_fields f -> fvals_wf f -> clean_fields g -> fvals_wf g ->
  (forall p v, leaf_at f p v <-> leaf_at g p v) -> same_fields f g.
Proof.
  intros Cf Wf Cg Wg L.
  assert (forall (c : fvals), clean_fields c -> clean (FVal [] c)) as Hc by (intros c H; constructor; [reflexivity|exact H]).
  assert (forall c : fvals, fvals_wf c -> fwf (FVal [] c)) as Hw by (intros c [H1 H2]; constructor; assumption).
  apply (same_tree_inv [] f [] g). apply leaves_determine_node; auto.
  assert (olist f = [] <-> olist g = []) as En.
  { assert (forall a b : fvals, clean_fields b -> fvals_wf b -> (forall p v, leaf_at b p v -> leaf_at a p v) -> olist a = [] -> olist b = []) as G.
    { intros a b Cb [Nb Wb] H E. destruct (olist b) as [|[k x] l] eqn:Eb; [reflexivity|]. exfalso.
      destruct (clean_has_leaf x) as (p & u & Hl); [apply (Cb k x); rewrite Eb; left; reflexivity|apply (Wb k x); left; reflexivity|].
      assert (leaf_at a (k :: p) u) as Ha.
      { apply H, leaf_at_cons. exists x. split; [|exact Hl]. rewrite Eb. cbn. destruct (beq_spec k k); congruence. }
      inversion Ha; subst; rewrite E in *; discriminate. }
    split; apply G; auto; intros p v; apply L. }
  intros p v. cbn. rewrite L, En. reflexivity.
Qed.

(** Which run is taken first does not matter, and filtering once more with a run
    already used changes nothing. *)
Theorem C32_fields_symmetric_and_idempotent : forall f1 f2, fvals_wf f1 -> fvals_wf f2 ->
  same_fields (stable_fields f1 f2) (stable_fields f2 f1) /\
  same_fields (stable_fields (stable_fields f1 f2) f2) (stable_fields f1 f2) /\
  same_fields (stable_fields (stable_fields f1 f2) f1) (stable_fields f1 f2).
Proof.
  intros f1 f2 W1 W2. pose proof (stable_wf f1 f2 W1) as W12.
  assert (forall g h, fvals_wf g -> fvals_wf h -> clean_fields g -> clean_fields h -> (forall p v, leaf_at g p v <-> leaf_at h p v) -> same_fields g h) as L
    by (intros; apply leaves_determine; assumption).
  split; [|split]; apply L; auto using stable_wf, stable_clean; intros p v; rewrite !C32_stable_fields_exact by auto; tauto.
Qed.
Print Assumptions C32_fields_symmetric_and_idempotent.

(** Any number of runs. *)
Theorem C32_many_runs_fields : forall fs f p v, fvals_wf f ->
  leaf_at (fold_left stable_fields fs f) p v <-> leaf_at f p v /\ Forall (fun g => leaf_at g p v) fs.
Proof.
  induction fs as [|g fs IH]; intros f p v W; cbn.
  - split; [intros H; split; [exact H|constructor]|intros [H _]; exact H].
  - rewrite (IH _ _ _ (stable_wf f g W)), (C32_stable_fields_exact f g p v W). split.
    + intros ((A & B_) & C). auto.
    + intros (A & C). inversion C; subst. auto.
Qed.
Print Assumptions C32_many_runs_fields.

(** ** C32: frames *)

(** Same frames in the same order up to field map order. *)
Definition same_frame_ (a b : cframe) : Prop :=
  same_fields (cf_fields a) (cf_fields b) /\ cf_stack a = cf_stack b /\ cf_time a = cf_time b.

Definition time_le (a b : cframe) : Prop := (cf_time a <= cf_time b)%N.
Lemma ins_frame_perm f l : Permutation (ins_frame f l) (f :: l).
Proof.
  induction l as [|x l IH]; [reflexivity|]. cbn [ins_frame]. destruct (cf_time f <=? cf_time x)%N; [reflexivity|].
  rewrite IH. apply perm_swap.
Qed.
Lemma sort_frames_perm l : Permutation (sort_frames l) l.
Proof. induction l as [|x l IH]; [constructor|]. change (sort_frames (x :: l)) with (ins_frame x (sort_frames l)). rewrite ins_frame_perm, IH. reflexivity. Qed.
Lemma ins_frame_sorted f l : StronglySorted time_le l -> StronglySorted time_le (ins_frame f l).
Proof.
  intros H. induction H as [|x l Hs IH Hf]; cbn [ins_frame]; [constructor; constructor|].
  destruct (N.leb_spec (cf_time f) (cf_time x)) as [L|L].
  - constructor; [constructor; assumption|]. constructor; [exact L|].
    eapply Forall_impl; [|exact Hf]. intros y Hy. unfold time_le in *. lia.
  - constructor; [exact IH|]. rewrite (ins_frame_perm f l). constructor; [unfold time_le; lia|exact Hf].
Qed.
Lemma sort_frames_sorted l : StronglySorted time_le (sort_frames l).
Proof. induction l; cbn; [constructor|apply ins_frame_sorted; assumption]. Qed.
Lemma sort_frames_id l : StronglySorted time_le l -> sort_frames l = l.
Proof.
  intros H. induction H as [|x l Hs IH Hf]; [reflexivity|]. change (sort_frames (x :: l)) with (ins_frame x (sort_frames l)). rewrite IH.
  destruct l as [|y l]; [reflexivity|]. cbn [ins_frame]. inversion Hf; subst. unfold time_le in *.
  destruct (N.leb_spec (cf_time x) (cf_time y)); [reflexivity|lia].
Qed.

(** Sorting is stable: frames with equal times keep their order. *)
Lemma sort_frames_stable t l : filter (fun f => (cf_time f =? t)%N) (sort_frames l) = filter (fun f => (cf_time f =? t)%N) l.
Proof.
  assert (forall f m, filter (fun f => (cf_time f =? t)%N) (ins_frame f m) = filter (fun f => (cf_time f =? t)%N) (f :: m)) as H.
  { intros f m. induction m as [|x m IH]; [reflexivity|]. cbn [ins_frame].
    destruct (N.leb_spec (cf_time f) (cf_time x)); [reflexivity|]. cbn [filter] in *. rewrite IH.
    destruct (N.eqb_spec (cf_time x) t); destruct (N.eqb_spec (cf_time f) t); try reflexivity. lia. }
  induction l as [|x l IH]; [reflexivity|]. change (sort_frames (x :: l)) with (ins_frame x (sort_frames l)). rewrite H. cbn [filter]. rewrite IH. reflexivity.
Qed.

Section FrameFacts.
Variable key : cframe -> bytes.
Hypothesis key_stack : forall f g, cf_stack f = cf_stack g -> key f = key g.

Lemma key_stab f g : key (stab f g) = key f.
Proof. apply key_stack. reflexivity. Qed.
Lemma used_at_set (u : amap nat) k n k' : used_at (mset k n u) k' = if beq k k' then n else used_at u k'.
Proof.
  unfold used_at. destruct (beq_spec k k') as [->|N_]; [rewrite mget_mset_same; reflexivity|].
  rewrite mget_mset_other by congruence. reflexivity.
Qed.

Lemma common_with_key K fs2 l : forall u,
  with_key key K (common key fs2 u l) =
  map (fun e => stab (fst e) (snd e)) (combine (with_key key K l) (skipn (used_at u K) (with_key key K fs2))).
Proof.
  induction l as [|f l IH]; intros u; [reflexivity|]. cbn [common].
  set (n := used_at u (key f)).
  assert (forall g, nth_error (with_key key (key f) fs2) n = Some g ->
    skipn n (with_key key (key f) fs2) = g :: skipn (S n) (with_key key (key f) fs2)) as Sk.
  { generalize (with_key key (key f) fs2). clear. induction n as [|n IH]; intros [|x l] g H; try discriminate.
    - injection H as ->. reflexivity.
    - cbn in *. apply IH. exact H. }
  assert (with_key key K (f :: l) = if beq (key f) K then f :: with_key key K l else with_key key K l) as ->.
  { unfold with_key. cbn. reflexivity. }
  destruct (nth_error (with_key key (key f) fs2) n) as [g|] eqn:E.
  - assert (forall m, with_key key K (stab f g :: m) = if beq (key f) K then stab f g :: with_key key K m else with_key key K m) as ->.
    { intros m. unfold with_key. cbn [filter]. rewrite key_stab. reflexivity. }
    rewrite IH, used_at_set. destruct (beq_spec (key f) K) as [<-|N_]; [|reflexivity].
    fold n. rewrite (Sk g eq_refl). reflexivity.
  - rewrite IH, used_at_set. destruct (beq_spec (key f) K) as [<-|N_]; [|reflexivity].
    fold n. apply nth_error_None in E. rewrite (skipn_all2 (n := n)), (skipn_all2 (n := S n)) by lia.
    rewrite !combine_nil. reflexivity.
Qed.

Lemma common_in fs2 l : forall u f, In f (common key fs2 u l) -> exists a b, In a l /\ In b fs2 /\ f = stab a b /\ key a = key b.
Proof.
  induction l as [|x l IH]; intros u f H; [destruct H|]. cbn [common] in H.
  destruct (nth_error (with_key key (key x) fs2) (used_at u (key x))) as [g|] eqn:E.
  - destruct H as [<-|H]; [|apply IH in H as (a & b & Ha & Hr); exists a, b; split; [right; exact Ha|exact Hr]].
    apply nth_error_In in E. unfold with_key in E. apply filter_In in E as [Hi Hk]. exists x, g.
    split; [left; reflexivity|]. split; [exact Hi|]. split; [reflexivity|]. destruct (beq_spec (key g) (key x)); [congruence|discriminate].
  - apply IH in H as (a & b & Ha & Hr). exists a, b; split; [right; exact Ha|exact Hr].
Qed.
Lemma common_sorted fs2 l : StronglySorted time_le l -> forall u, StronglySorted time_le (common key fs2 u l).
Proof.
  intros H. induction H as [|x l Hs IH Hf]; intros u; [constructor|]. cbn [common].
  destruct (nth_error _ _) as [g|]; [|apply IH]. constructor; [apply IH|]. apply Forall_forall. intros y Hy.
  apply common_in in Hy as (a & b & Ha & _ & -> & _). rewrite Forall_forall in Hf. exact (Hf a Ha).
Qed.

Definition frames_wf (l : list cframe) : Prop := Forall (fun f => fvals_wf (cf_fields f)) l.
Lemma frames_wf_sort l : frames_wf l -> frames_wf (sort_frames l).
Proof. intros H. unfold frames_wf in *. rewrite sort_frames_perm. exact H. Qed.
Lemma common_wf fs2 l u : frames_wf l -> frames_wf (common key fs2 u l).
Proof.
  unfold frames_wf. rewrite !Forall_forall. intros H f Hf. apply common_in in Hf as (a & b & Ha & _ & -> & _). cbn. apply stable_wf, H, Ha.
Qed.

Lemma common_again fs2 l : frames_wf l -> frames_wf fs2 -> forall u v,
  (forall K, used_at v K = Nat.min (used_at u K) (length (with_key key K fs2))) ->
  Forall2 same_frame_ (common key fs2 v (common key fs2 u l)) (common key fs2 u l).
Proof.
  intros W W2. induction l as [|f l IH]; intros u v Inv; [constructor|]. inversion W as [|? ? Wf Wl]; subst. cbn [common].
  set (k := key f). destruct (nth_error (with_key key k fs2) (used_at u k)) as [g|] eqn:E.
  - cbn [common]. rewrite key_stab. fold k.
    assert (used_at u k < length (with_key key k fs2))%nat as Lt by (apply nth_error_Some; congruence).
    assert (used_at v k = used_at u k) as Ev by (rewrite Inv; lia).
    assert (In g fs2) as Ig by (apply nth_error_In in E; unfold with_key in E; apply filter_In in E; tauto).
    rewrite Ev, E. constructor.
    + unfold frames_wf in W2. rewrite Forall_forall in W2.
      split; [|split; reflexivity]. cbn. apply C32_fields_symmetric_and_idempotent; auto.
    + apply IH; [exact Wl|]. intros K. rewrite !used_at_set. destruct (beq_spec k K) as [<-|]; [lia|apply Inv].
  - apply IH; [exact Wl|]. intros K. rewrite used_at_set. destruct (beq_spec k K) as [<-|]; [|apply Inv].
    rewrite Inv. apply nth_error_None in E. lia.
Qed.

Lemma nth_combine {X Y} (a : list X) (b : list Y) n x y :
  nth_error (combine a b) n = Some (x, y) <-> nth_error a n = Some x /\ nth_error b n = Some y.
Proof.
  revert b n. induction a as [|x0 a IH]; intros [|y0 b] [|n]; cbn; try (split; [discriminate|intros [? ?]; discriminate]).
  - split; [intros [= -> ->]; auto|intros [[= ->] [= ->]]; reflexivity].
  - apply IH.
Qed.
End FrameFacts.

Lemma project_key_stack sha1 f g : cf_stack f = cf_stack g -> project_key sha1 f = project_key sha1 g.
Proof. unfold project_key. intros ->. reflexivity. Qed.
Lemma full_key_stack sha1 f g : cf_stack f = cf_stack g -> full_key sha1 f = full_key sha1 g.
Proof. unfold full_key. intros ->. reflexivity. Qed.

Lemma mget_stable_frames key m1 m2 i : NoDup (mkeys m1) ->
  mget i (stable_frames key m1 m2) =
  match mget i m1, mget i m2 with
  | Some a, Some b => Some (common key (sort_frames b) [] (sort_frames a))
  | _, _ => None
  end.
Proof.
  induction m1 as [|[k a] m1 IH]; intros H; [reflexivity|]. cbn in H. inversion H as [|? ? Hn Hd]; subst.
  change (stable_frames key ((k, a) :: m1) m2) with
   (match mget k m2 with Some b => [(k, common key (sort_frames b) [] (sort_frames a))] | None => [] end ++ stable_frames key m1 m2).
  assert (forall b : list cframe, mget i ((k, b) :: m1) = if beq i k then Some b else mget i m1) as -> by reflexivity.
  destruct (beq_spec i k) as [->|N_].
  - assert (mget k m1 = None) as En by (destruct (mget k m1) eqn:E; [exfalso; apply Hn, mget_keys; congruence|reflexivity]).
    destruct (mget k m2) as [b|] eqn:E2; cbn [app].
    + cbn. rewrite beq_refl. reflexivity.
    + rewrite (IH Hd), En. reflexivity.
  - destruct (mget k m2); cbn [app]; [|apply IH; exact Hd].
    cbn. destruct (beq_spec i k); [contradiction|]. apply IH; exact Hd.
Qed.

(** [call_leaf key m i K n p v]: the [n]-th call (by time) of caller [i] with key
    [K] has value [v] at field path [p]; [calls] counts such calls. *)
Definition call_leaf (key : cframe -> bytes) (m : list (bytes * list cframe)) i K n p v : Prop :=
  exists fs f, mget i m = Some fs /\ nth_error (with_key key K (sort_frames fs)) n = Some f /\ leaf_at (cf_fields f) p v.
Definition calls (key : cframe -> bytes) (m : list (bytes * list cframe)) i K : nat :=
  match mget i m with Some fs => length (with_key key K fs) | None => 0%nat end.
Definition results_wf (m : list (bytes * list cframe)) : Prop :=
  NoDup (mkeys m) /\ forall i fs, In (i, fs) m -> frames_wf fs.

Lemma results_wf_get m i fs : results_wf m -> mget i m = Some fs -> frames_wf fs.
Proof. intros [_ H] E. apply mget_in in E. eauto. Qed.
Lemma perm_filter_length {X} (P : X -> bool) l l' : Permutation l l' -> length (filter P l) = length (filter P l').
Proof.
  intros H. induction H; cbn; try congruence; [destruct (P x); cbn; congruence|destruct (P x); destruct (P y); reflexivity].
Qed.

Section Exact.
Variable key : cframe -> bytes.
Hypothesis key_stack : forall f g, cf_stack f = cf_stack g -> key f = key g.

Lemma stable_frames_leaf m1 m2 i K n p v : results_wf m1 ->
  call_leaf key (stable_frames key m1 m2) i K n p v <-> call_leaf key m1 i K n p v /\ call_leaf key m2 i K n p v.
Proof.
  intros W. unfold call_leaf. setoid_rewrite (mget_stable_frames key m1 m2 i (proj1 W)). split.
  - intros (fs & f & E & Hn & Hl). destruct (mget i m1) as [a|] eqn:E1; [|discriminate]. destruct (mget i m2) as [b|] eqn:E2; [|discriminate].
    injection E as <-. rewrite (sort_frames_id _ (common_sorted key _ _ (sort_frames_sorted a) _)) in Hn.
    rewrite (common_with_key key key_stack) in Hn. cbn in Hn. rewrite nth_error_map in Hn.
    destruct (nth_error (combine _ _) n) as [[x y]|] eqn:Ec; [|discriminate]. injection Hn as <-. apply nth_combine in Ec as [Ex Ey].
    assert (fvals_wf (cf_fields x)) as Wx.
    { apply nth_error_In in Ex. unfold with_key in Ex. apply filter_In in Ex as [Ex _].
      pose proof (frames_wf_sort a (results_wf_get _ _ _ W E1)) as Wa. unfold frames_wf in Wa. rewrite Forall_forall in Wa. auto. }
    cbn in Hl. apply (C32_stable_fields_exact _ _ _ _ Wx) in Hl as [Lx Ly]. eauto 12.
  - intros ((a & x & E1 & Ex & Lx) & (b & y & E2 & Ey & Ly)). rewrite E1, E2. eexists. exists (stab x y). split; [reflexivity|].
    rewrite (sort_frames_id _ (common_sorted key _ _ (sort_frames_sorted a) _)), (common_with_key key key_stack), nth_error_map. cbn.
    rewrite (proj2 (nth_combine _ _ n x y) (conj Ex Ey)). split; [reflexivity|]. cbn.
    apply C32_stable_fields_exact; [|auto].
    apply nth_error_In in Ex. unfold with_key in Ex. apply filter_In in Ex as [Ex _].
    pose proof (frames_wf_sort a (results_wf_get _ _ _ W E1)) as Wa. unfold frames_wf in Wa. rewrite Forall_forall in Wa. auto.
Qed.
Lemma stable_frames_calls m1 m2 i K : NoDup (mkeys m1) ->
  calls key (stable_frames key m1 m2) i K = Nat.min (calls key m1 i K) (calls key m2 i K).
Proof.
  intros W. unfold calls. rewrite mget_stable_frames by exact W.
  destruct (mget i m1) as [a|]; [|reflexivity]. destruct (mget i m2) as [b|]; [|lia].
  rewrite (common_with_key key key_stack), map_length, combine_length. cbn. unfold with_key.
  rewrite (perm_filter_length _ _ _ (sort_frames_perm a)), (perm_filter_length _ _ _ (sort_frames_perm b)). reflexivity.
Qed.
Lemma stable_frames_keys m1 m2 i : In i (mkeys (stable_frames key m1 m2)) -> In i (mkeys m1).
Proof.
  unfold mkeys, stable_frames. rewrite in_map_iff. intros ([j x] & <- & H). apply in_flat_map in H as ([k a] & Ha & H). cbn in H.
  destruct (mget k m2); [|destruct H]. destruct H as [[= <- <-]|[]]. apply (in_map fst) in Ha. exact Ha.
Qed.
Lemma stable_frames_wf m1 m2 : results_wf m1 -> results_wf (stable_frames key m1 m2).
Proof.
  intros [Hn Hw]. split.
  - clear Hw. induction m1 as [|[k a] m1 IH]; [constructor|]. cbn in Hn. inversion Hn; subst.
    change (stable_frames key ((k, a) :: m1) m2) with
     (match mget k m2 with Some b => [(k, common key (sort_frames b) [] (sort_frames a))] | None => [] end ++ stable_frames key m1 m2).
    destruct (mget k m2); cbn [app]; auto. cbn. constructor; [|auto]. intros Hk. apply H1. eapply stable_frames_keys. exact Hk.
  - intros i fs H. unfold stable_frames in H. apply in_flat_map in H as ([k a] & Ha & H). cbn in H.
    destruct (mget k m2); [|destruct H]. destruct H as [[= <- <-]|[]]. apply common_wf, frames_wf_sort. eauto.
Qed.
End Exact.

Lemma Forall2_map_both {X Y Z} (R : Y -> Z -> Prop) (f : X -> Y) (g : X -> Z) l :
  (forall x, In x l -> R (f x) (g x)) -> Forall2 R (map f l) (map g l).
Proof. induction l; intros H; constructor; [apply H; left; reflexivity|apply IHl; intros; apply H; right; assumption]. Qed.
Lemma combine_swap {X Y} (a : list X) (b : list Y) : combine b a = map (fun e => (snd e, fst e)) (combine a b).
Proof. revert b. induction a; intros [|y b]; cbn; try reflexivity. f_equal. apply IHa. Qed.

(** Both the caller results (matched by project stack) and the extension frames
    (matched by whole stack) keep, for the [n]-th call at each call site, exactly
    the field values the [n]-th call has in both runs; a call site keeps as many
    calls as both runs have; a failure in either run is a failure. *)
Theorem C32_stable_result_exact : forall sha1 r1 r2,
  results_wf (olist (tr_callers r1)) -> results_wf (olist (tr_ext r1)) ->
  let r := stable_result sha1 r1 r2 in
  (forall i K n p v, call_leaf (project_key sha1) (olist (tr_callers r)) i K n p v <->
     call_leaf (project_key sha1) (olist (tr_callers r1)) i K n p v /\ call_leaf (project_key sha1) (olist (tr_callers r2)) i K n p v) /\
  (forall i K, calls (project_key sha1) (olist (tr_callers r)) i K =
     Nat.min (calls (project_key sha1) (olist (tr_callers r1)) i K) (calls (project_key sha1) (olist (tr_callers r2)) i K)) /\
  (forall i K n p v, call_leaf (full_key sha1) (olist (tr_ext r)) i K n p v <->
     call_leaf (full_key sha1) (olist (tr_ext r1)) i K n p v /\ call_leaf (full_key sha1) (olist (tr_ext r2)) i K n p v) /\
  (forall i K, calls (full_key sha1) (olist (tr_ext r)) i K =
     Nat.min (calls (full_key sha1) (olist (tr_ext r1)) i K) (calls (full_key sha1) (olist (tr_ext r2)) i K)) /\
  (tr_fail r = true <-> tr_fail r1 = true \/ tr_fail r2 = true) /\
  tr_ident r = tr_ident r1 /\ tr_name r = tr_name r1 /\ tr_hit r = tr_hit r1.
Proof.
  intros sha1 r1 r2 W1 We r. unfold r. cbn [stable_result tr_callers tr_ext tr_fail tr_ident tr_name tr_hit olist].
  split; [intros; apply stable_frames_leaf; [apply project_key_stack|exact W1]|].
  split; [intros; apply stable_frames_calls; [apply project_key_stack|apply W1]|].
  split; [intros; apply stable_frames_leaf; [apply full_key_stack|exact We]|].
  split; [intros; apply stable_frames_calls; [apply full_key_stack|apply We]|].
  split; [apply orb_true_iff|auto].
Qed.
Print Assumptions C32_stable_result_exact.

(** The frames of the result are a sub-sequence of the first run's in time order,
    with their stacks and times. *)
Inductive subseq {X} : list X -> list X -> Prop :=
| ss_nil l : subseq [] l
| ss_keep x a b : subseq a b -> subseq (x :: a) (x :: b)
| ss_drop x a b : subseq a b -> subseq a (x :: b).
Theorem C32_frames_in_time_order : forall sha1 r1 r2 i fs,
  NoDup (mkeys (olist (tr_callers r1))) ->
  mget i (olist (tr_callers (stable_result sha1 r1 r2))) = Some fs ->
  exists fs1, mget i (olist (tr_callers r1)) = Some fs1 /\ StronglySorted time_le fs /\
    subseq (map (fun f => (cf_stack f, cf_time f)) fs) (map (fun f => (cf_stack f, cf_time f)) (sort_frames fs1)) /\
    Permutation (sort_frames fs1) fs1 /\ StronglySorted time_le (sort_frames fs1).
Proof.
  intros sha1 r1 r2 i fs W E. cbn [stable_result tr_callers olist] in E. rewrite mget_stable_frames in E by exact W.
  destruct (mget i (olist (tr_callers r1))) as [a|]; [|discriminate]. destruct (mget i (olist (tr_callers r2))) as [b|]; [|discriminate].
  injection E as <-. exists a. split; [reflexivity|]. split; [apply common_sorted, sort_frames_sorted|]. split; [|split; [apply sort_frames_perm|apply sort_frames_sorted]].
  generalize (sort_frames a) as l, (sort_frames b) as l2, (@nil (bytes * nat)) as u.
  induction l as [|f l IH]; intros l2 u; [constructor|]. cbn [common]. destruct (nth_error _ _); cbn [map]; [apply ss_keep|apply ss_drop]; apply IH.
Qed.
Print Assumptions C32_frames_in_time_order.

(** Taking the other run first gives the same calls per call site with the same
    fields. *)
Theorem C32_run_order_irrelevant : forall sha1 r1 r2 i,
  results_wf (olist (tr_callers r1)) -> results_wf (olist (tr_callers r2)) ->
  match mget i (olist (tr_callers (stable_result sha1 r1 r2))), mget i (olist (tr_callers (stable_result sha1 r2 r1))) with
  | Some a, Some b => forall K, Forall2 (fun f g => same_fields (cf_fields f) (cf_fields g))
                                  (with_key (project_key sha1) K a) (with_key (project_key sha1) K b)
  | None, None => True
  | _, _ => False
  end.
Proof.
  intros sha1 r1 r2 i W1 W2. cbn [stable_result tr_callers olist].
  rewrite (mget_stable_frames _ _ _ i (proj1 W1)), (mget_stable_frames _ _ _ i (proj1 W2)).
  destruct (mget i (olist (tr_callers r1))) as [a|] eqn:E1; destruct (mget i (olist (tr_callers r2))) as [b|] eqn:E2; auto.
  intros K. rewrite !(common_with_key _ (project_key_stack sha1)). cbn [used_at mget skipn].
  rewrite (combine_swap (with_key _ K (sort_frames a))), map_map. apply Forall2_map_both. intros [x y] Hi. cbn.
  pose proof (frames_wf_sort a (results_wf_get _ _ _ W1 E1)) as Wa. pose proof (frames_wf_sort b (results_wf_get _ _ _ W2 E2)) as Wb.
  unfold frames_wf in *. rewrite Forall_forall in *. pose proof (in_combine_l _ _ _ _ Hi) as Hx. pose proof (in_combine_r _ _ _ _ Hi) as Hy.
  unfold with_key in Hx, Hy. apply filter_In in Hx as [Hx _]. apply filter_In in Hy as [Hy _].
  apply C32_fields_symmetric_and_idempotent; auto.
Qed.
Print Assumptions C32_run_order_irrelevant.

(** Filtering once more with the second run changes nothing. *)
Theorem C32_filtering_again_changes_nothing : forall sha1 r1 r2 i,
  results_wf (olist (tr_callers r1)) -> results_wf (olist (tr_callers r2)) ->
  let r := stable_result sha1 r1 r2 in
  match mget i (olist (tr_callers (stable_result sha1 r r2))), mget i (olist (tr_callers r)) with
  | Some a, Some b => Forall2 same_frame_ a b
  | None, None => True
  | _, _ => False
  end /\ tr_fail (stable_result sha1 r r2) = tr_fail r.
Proof.
  intros sha1 r1 r2 i W1 W2 r. split; [|unfold r; cbn; destruct (tr_fail r1), (tr_fail r2); reflexivity].
  unfold r. cbn [stable_result tr_callers olist].
  rewrite (mget_stable_frames _ (stable_frames _ _ _) _ i) by (apply stable_frames_wf; exact W1).
  rewrite (mget_stable_frames _ _ _ i (proj1 W1)).
  destruct (mget i (olist (tr_callers r1))) as [a|] eqn:E1; [|exact I]. destruct (mget i (olist (tr_callers r2))) as [b|] eqn:E2; [|exact I].
  rewrite (sort_frames_id (common _ _ _ _)) by (apply common_sorted, sort_frames_sorted).
  apply common_again; [apply project_key_stack|apply frames_wf_sort, (results_wf_get _ _ _ W1 E1)
    |apply frames_wf_sort, (results_wf_get _ _ _ W2 E2)|]. intros K. reflexivity.
Qed.
Print Assumptions C32_filtering_again_changes_nothing.

(** ** C32: filtering the run after the update *)

(** The frames recorded with filtering are those received, each with exactly the
    top-level fields that the matching stable frame (same project stack, same
    occurrence) has; without a matching frame no field is kept.  Children of a kept
    field are not filtered. *)
Lemma Forall2_len {X Y} (R : X -> Y -> Prop) a b : Forall2 R a b -> length a = length b.
Proof. intros H; induction H; cbn; congruence. Qed.
Lemma record_all_app key s l f : record_all key s (l ++ [f]) =
  record_all key s l ++ [match s with None => f | Some st => apply_filter key st (record_all key s l) f end].
Proof. unfold record_all. rewrite fold_left_app. reflexivity. Qed.
Lemma apply_filter_stack key st rec f : cf_stack (apply_filter key st rec f) = cf_stack f.
Proof. reflexivity. Qed.

Theorem C32_post_filter_exact : forall key stable fs,
  (forall f g, cf_stack f = cf_stack g -> key f = key g) ->
  let out := record_all key (Some stable) fs in
  length out = length fs /\
  forall n f, nth_error fs n = Some f ->
  exists f', nth_error out n = Some f' /\ cf_stack f' = cf_stack f /\ cf_time f' = cf_time f /\
    forall name x, In (name, x) (olist (cf_fields f')) <->
      In (name, x) (olist (cf_fields f)) /\
      exists frames g, stable = Some frames /\
        nth_error (with_key key (key f) frames) (length (with_key key (key f) (firstn n fs))) = Some g /\
        In name (mkeys (olist (cf_fields g))).
Proof.
  intros key stable fs Hk out.
  assert (forall l, Forall2 (fun f' f => cf_stack f' = cf_stack f) (record_all key (Some stable) l) l) as St.
  { induction l as [|f l IH] using rev_ind; [constructor|]. rewrite record_all_app. apply Forall2_app; [exact IH|]. constructor; [reflexivity|constructor]. }
  assert (forall K l l', Forall2 (fun f' f => cf_stack f' = cf_stack f) l' l -> length (with_key key K l') = length (with_key key K l)) as Ln.
  { intros K l l' H. unfold with_key. induction H as [|a b l' l E H IH]; [reflexivity|]. cbn. rewrite (Hk a b E). destruct (beq (key b) K); cbn; congruence. }
  assert (length out = length fs) as L by (unfold out; apply (Forall2_len _ _ _ (St fs))).
  split; [exact L|]. unfold out in *. clear out L.
  induction fs as [|f0 fs IH] using rev_ind; intros n f Hn; [destruct n; discriminate|].
  rewrite record_all_app. pose proof (Forall2_len _ _ _ (St fs)) as Lf.
  destruct (Nat.lt_trichotomy n (length fs)) as [Lt|[Eq|Gt]].
  - rewrite nth_error_app1 in Hn by exact Lt. destruct (IH n f Hn) as (f' & Hf' & A & B_ & C).
    exists f'. split; [rewrite nth_error_app1 by lia; exact Hf'|]. split; [exact A|]. split; [exact B_|].
    intros name x. rewrite C. rewrite firstn_app. replace (n - length fs)%nat with 0%nat by lia. cbn [firstn]. rewrite app_nil_r. reflexivity.
  - subst n. rewrite nth_error_app2, Nat.sub_diag in Hn by lia. injection Hn as ->.
    eexists. split; [rewrite nth_error_app2 by lia; rewrite Lf, Nat.sub_diag; reflexivity|]. split; [reflexivity|]. split; [reflexivity|].
    intros name x. rewrite firstn_app, Nat.sub_diag, firstn_all. cbn [firstn]. rewrite app_nil_r.
    unfold apply_filter. cbn [cf_fields olist]. rewrite (Ln (key f) _ _ (St fs)).
    destruct stable as [frames|]; [|split; [intros []|intros (_ & fr & g & E & _); discriminate]].
    destruct (nth_error (with_key key (key f) frames) (length (with_key key (key f) fs))) as [g|] eqn:E.
    + rewrite filter_In. cbn [fst]. split.
      * intros [Hi Hg]. split; [exact Hi|]. exists frames, g. split; [reflexivity|]. split; [exact E|]. apply mget_keys.
        destruct (mget name (olist (cf_fields g))); [discriminate|congruence].
      * intros (Hi & fr & g' & [= <-] & E' & Hg). split; [exact Hi|]. apply mget_keys in Hg.
        assert (g' = g) as -> by congruence. destruct (mget name (olist (cf_fields g))); [reflexivity|congruence].
    + split; [intros []|]. intros (_ & fr & g' & [= <-] & E' & _). congruence.
  - exfalso. assert (nth_error (fs ++ [f0]) n <> None) as H by congruence. apply nth_error_Some in H. rewrite app_length in H. cbn in H. lia.
Qed.
Print Assumptions C32_post_filter_exact.

(** Two runs of a test with two calls from the same place and one call the second
    run does not have. *)
Definition ex_sha1 (b : bytes) : bytes := b.
Definition ex_st1 : stack := Some [SFrame (B "./a.go") 7 (B "f")].
Definition ex_st2 : stack := Some [SFrame (B "./b.go") 9 (B "g")].
Definition ex_leaf v := FVal (B v) None.
Definition ex_node l := FVal [] (Some l).
Definition ex_fr st (t : N) l := CFrame (Some l) st t.
Definition ex_r1 := TResult (B "id") (B "T")
    (Some [(B "c", [ex_fr ex_st1 5 [(B "x", ex_leaf "9")]; ex_fr ex_st1 2 [(B "x", ex_leaf "1"); (B "y", ex_node [(B "z", ex_leaf "2"); (B "w", ex_leaf "3")])]; ex_fr ex_st2 3 [(B "q", ex_leaf "1")]])])
    (Some []) (Some []) 1 false (Some []).
Definition ex_r2 := TResult (B "id") (B "T")
    (Some [(B "c", [ex_fr ex_st1 1 [(B "x", ex_leaf "1"); (B "y", ex_node [(B "z", ex_leaf "2"); (B "w", ex_leaf "4")])]; ex_fr ex_st1 4 [(B "x", ex_leaf "8")]])])
    (Some []) (Some []) 1 true (Some []).
Example C32_example : tr_callers (stable_result ex_sha1 ex_r1 ex_r2) =
    Some [(B "c", [ex_fr ex_st1 2 [(B "x", ex_leaf "1"); (B "y", ex_node [(B "z", ex_leaf "2")])]; ex_fr ex_st1 5 []])] /\
    tr_fail (stable_result ex_sha1 ex_r1 ex_r2) = true.
Proof. split; vm_compute; reflexivity. Qed.
Fixpoint nodup_b (l : list bytes) : bool :=
  match l with [] => true | x :: l' => negb (existsb (beq x) l') && nodup_b l' end.
Fixpoint fwf_b (n : fval) : bool :=
  match n with
  | FVal _ None => true
  | FVal _ (Some l) => nodup_b (map fst l) && (fix go (m : list (bytes * fval)) := match m with [] => true | (_, x) :: m' => fwf_b x && go m' end) l
  end.
Lemma nodup_b_ok l : nodup_b l = true -> NoDup l.
Proof.
  induction l as [|x l IH]; intros H; [constructor|]. cbn in H. apply andb_true_iff in H as [H1 H2]. constructor; [|auto].
  intros Hi. apply negb_true_iff in H1. rewrite (proj2 (existsb_exists (beq x) l)) in H1; [discriminate|]. exists x. split; [exact Hi|apply beq_refl].
Qed.
Lemma fwf_b_ok n : fwf_b n = true -> fwf n.
Proof.
  induction n as [v c IH] using fval_ind'. intros H. destruct c as [l|]; [|constructor; cbn; [constructor|intros k x []]].
  cbn [fwf_b] in H. apply andb_true_iff in H as [H1 H2]. constructor; [apply nodup_b_ok, H1|]. cbn [olist] in *.
  intros k x Hi. apply (IH k x Hi). clear IH H1. induction l as [|[k' y] l IHl]; [destruct Hi|]. apply andb_true_iff in H2 as [Hy Hl].
  destruct Hi as [[= -> ->]|Hi]; auto.
Qed.
Lemma results_wf_b m : nodup_b (mkeys m) && forallb (fun e => forallb (fun f => fwf_b (FVal [] (cf_fields f))) (snd e)) m = true -> results_wf m.
Proof.
  intros H. apply andb_true_iff in H as [H1 H2]. split; [apply nodup_b_ok, H1|]. intros i fs Hi. rewrite forallb_forall in H2.
  specialize (H2 _ Hi). cbn [snd] in H2. rewrite forallb_forall in H2. apply Forall_forall. intros f Hf. specialize (H2 f Hf).
  apply fwf_b_ok in H2. inversion H2; subst. split; assumption.
Qed.
Example C32_example_wf : results_wf (olist (tr_callers ex_r1)) /\ results_wf (olist (tr_callers ex_r2)).
Proof. split; apply results_wf_b; vm_compute; reflexivity. Qed.
(** Filtering a later run: the nested [w], dropped above, comes back with [y]. *)
Example C32_example_post : record_all (project_key ex_sha1) (Some (mget (B "c") (olist (tr_callers (stable_result ex_sha1 ex_r1 ex_r2)))))
     [ex_fr ex_st1 1 [(B "x", ex_leaf "7"); (B "y", ex_node [(B "w", ex_leaf "4")]); (B "n", ex_leaf "0")]; ex_fr ex_st1 2 [(B "x", ex_leaf "8")]; ex_fr ex_st2 3 [(B "q", ex_leaf "1")]]
   = [ex_fr ex_st1 1 [(B "x", ex_leaf "7"); (B "y", ex_node [(B "w", ex_leaf "4")])]; ex_fr ex_st1 2 []; ex_fr ex_st2 3 []].
Proof. vm_compute. reflexivity. Qed.
