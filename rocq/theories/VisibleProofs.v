(** Proofs about the scan for visible names. *)
From Verif Require Import Base Maps VisibleModel VisibleSpec.
From Coq Require Import Permutation Sorted.

(** Induction on trees. *)
Fixpoint node_rec' (P : node -> Prop)
  (H : forall k p e ids kids, Forall P kids -> P (Node k p e ids kids)) (n : node) : P n :=
  match n with
  | Node k p e ids kids =>
    H k p e ids kids ((fix go (l : list node) : Forall P l :=
      match l with [] => Forall_nil _ | c :: r => Forall_cons _ (node_rec' P H c) (go r) end) kids)
  end.

(** The declarations the walk looks at. *)
Fixpoint coll (q : N) (n : node) : list (bytes * N) :=
  let (k, _, fin, ids, kids) := n in
  if prunable k && (fin <? q)%N then [] else (if declares k then ids else []) ++ flat_map (coll q) kids.

Lemma inspect_coll q n : forall m, inspect q m n = fold_left (add_ident q) (coll q n) m.
Proof.
  induction n as [k p e ids kids IH] using node_rec'; intros m; cbn [inspect coll].
  destruct (prunable k && (e <? q)%N); [reflexivity|].
  rewrite fold_left_app.
  assert (E : (if declares k then fold_left (add_ident q) ids m else m)
            = fold_left (add_ident q) (if declares k then ids else []) m) by (destruct (declares k); reflexivity).
  rewrite E. generalize (fold_left (add_ident q) (if declares k then ids else []) m). clear E.
  induction IH as [|c r Hc Hr IHr]; intros m'; cbn; [reflexivity|].
  rewrite fold_left_app, Hc. apply IHr.
Qed.

(** Only what stands in front of the position and is not blank counts. *)
Definition seen (q : N) (d : bytes * N) : bool := negb (beq (fst d) (B "_")) && (snd d <=? q)%N.

Lemma add_unseen q m d : seen q d = false -> add_ident q m d = m.
Proof.
  destruct d as [x p]. unfold seen, add_ident; cbn [fst snd]. destruct (beq x (B "_")); cbn [negb andb orb]; [reflexivity|].
  destruct (N.ltb_spec q p), (N.leb_spec p q); try lia; congruence.
Qed.

Lemma fold_seen q l : forall m, fold_left (add_ident q) l m = fold_left (add_ident q) (filter (seen q) l) m.
Proof.
  induction l as [|d l IH]; intros m; cbn [fold_left filter]; [reflexivity|].
  destruct (seen q d) eqn:E; [apply IH|]. rewrite add_unseen by exact E. apply IH.
Qed.

(** Increasing positions. *)
Definition incr (l : list (bytes * N)) : Prop := StronglySorted (fun a b => (snd a < snd b)%N) l.

Lemma incr_app a b : incr (a ++ b) <-> incr a /\ incr b /\ (forall x y, In x a -> In y b -> (snd x < snd y)%N).
Proof.
  unfold incr; induction a as [|h a IH]; cbn.
  - split; [intros H; repeat split; [constructor|assumption|intros ? ? []] | intros (_ & H & _); exact H].
  - split.
    + intros H; inversion H as [|? ? H1 H2]; subst. apply IH in H1 as (Ha & Hb & Hab).
      rewrite Forall_app in H2. destruct H2 as [H2 H3]. repeat split.
      * constructor; assumption.
      * assumption.
      * intros x y [<-|Hx] Hy; [rewrite Forall_forall in H3; apply H3, Hy | apply Hab; assumption].
    + intros (Ha & Hb & Hab). inversion Ha as [|? ? H1 H2]; subst. constructor.
      * apply IH; repeat split; [assumption|assumption|intros; apply Hab; [right|]; assumption].
      * apply Forall_app; split; [assumption|]. apply Forall_forall; intros y Hy. apply Hab; [left; reflexivity|exact Hy].
Qed.

Lemma ids_incr ids : forall lo hi, ids_from lo ids hi -> incr ids /\ (lo <= hi)%N /\ (forall d, In d ids -> (lo <= snd d < hi)%N).
Proof.
  induction ids as [|[x p] ids IH]; cbn; intros lo hi H.
  - subst. repeat split; [constructor|lia| |]; intros; contradiction.
  - destruct H as [H1 H2]. apply IH in H2 as (H2 & H3 & H4). split; [|split].
    + constructor; [exact H2|]. apply Forall_forall; intros d Hd; cbn. specialize (H4 d Hd). lia.
    + lia.
    + intros d [<-|Hd]; cbn; [lia|]. specialize (H4 d Hd). lia.
Qed.

Lemma chain_le wf' l : forall s lo hi, chain wf' s lo l hi -> (forall c, In c l -> wf' c -> (npos c < nfin c)%N) ->
  Forall (fun c => wf' c /\ (lo <= npos c)%N /\ (nfin c <= hi)%N) l /\ (lo <= hi)%N.
Proof.
  induction l as [|c l IH]; cbn; intros s lo hi H Hp; [split; [constructor|assumption]|].
  destruct H as (H1 & _ & H2 & H3). apply IH in H3 as [H3 H4]; [|auto].
  pose proof (Hp c (or_introl eq_refl) H2). split; [constructor|].
  - repeat split; [assumption|assumption|lia].
  - eapply Forall_impl; [|exact H3]. cbn; intros d (Hd & Hd1 & Hd2). repeat split; [assumption|lia|assumption].
  - lia.
Qed.

Lemma wf_lt n : wf n -> (npos n < nfin n)%N.
Proof. destruct n; cbn. intros (H & _); exact H. Qed.

Lemma wf_chain k p e ids kids : wf (Node k p e ids kids) ->
  Forall (fun c => wf c /\ (p <= npos c)%N /\ (nfin c <= e)%N) kids.
Proof.
  intros (_ & _ & lo & H1 & H2). apply ids_incr in H1 as (_ & H1 & _).
  apply chain_le in H2 as [H2 _]; [|intros; apply wf_lt; assumption].
  eapply Forall_impl; [|exact H2]. cbn; intros c (Hc & H3 & H4). repeat split; [assumption| |assumption].
  destruct (is_plain k); lia.
Qed.

(** What is looked at lies inside the node. *)
Lemma coll_in q n : wf n -> forall d, In d (coll q n) -> (npos n <= snd d < nfin n)%N.
Proof.
  induction n as [k p e ids kids IH] using node_rec'; intros W d Hd. cbn [coll npos nfin] in *.
  destruct (prunable k && (e <? q)%N); [contradiction|]. apply in_app_or in Hd as [Hd|Hd].
  - destruct (declares k); [|contradiction]. destruct W as (_ & _ & lo & H1 & H2).
    apply ids_incr in H1 as (_ & _ & H1). apply H1 in Hd.
    apply chain_le in H2 as [_ H2]; [|intros; apply wf_lt; assumption]. destruct (is_plain k); lia.
  - apply in_flat_map in Hd as (c & Hc & Hd). pose proof (wf_chain _ _ _ _ _ W) as HW.
    rewrite Forall_forall in *. destruct (HW c Hc) as (Wc & H1 & H2). specialize (IH c Hc Wc d Hd). lia.
Qed.

Lemma coll_incr q n : wf n -> incr (coll q n).
Proof.
  induction n as [k p e ids kids IH] using node_rec'; intros W. cbn [coll].
  destruct (prunable k && (e <? q)%N); [constructor|].
  destruct W as (_ & _ & lo & H1 & H2). apply ids_incr in H1 as (H1 & _ & H1').
  assert (K : forall l s lo, chain wf s lo l e -> Forall (fun n => wf n -> incr (coll q n)) l ->
    incr (flat_map (coll q) l) /\ forall d, In d (flat_map (coll q) l) -> (lo <= snd d)%N).
  { clear. induction l as [|c l IHl]; cbn; intros s lo H F; [split; [constructor|intros; contradiction]|].
    destruct H as (Ha & _ & Hb & Hc). inversion F as [|? ? F1 F2]; subst. apply IHl in Hc as [Hc Hd]; [|exact F2].
    pose proof (wf_lt c Hb). split.
    - apply incr_app; repeat split; [auto|exact Hc|]. intros x y Hx Hy.
      apply coll_in in Hx; [|exact Hb]. apply Hd in Hy. lia.
    - intros d Hd'. apply in_app_or in Hd' as [Hd'|Hd']; [apply coll_in in Hd'; [lia|exact Hb]|]. apply Hd in Hd'. lia. }
  apply K in H2 as [H2 H3]; [|exact IH].
  apply incr_app; repeat split; [destruct (declares k); [exact H1|constructor]|exact H2|].
  intros x y Hx Hy. destruct (declares k); [|contradiction]. apply H1' in Hx. apply H3 in Hy. lia.
Qed.

(** An ended node adds what it declares around itself. *)
Lemma coll_ended q n : wf n -> (nfin n < q)%N -> nkind n <> KComm -> coll q n = leaks n.
Proof.
  induction n as [k p e ids kids IH] using node_rec'; intros W L K; cbn [nfin nkind] in *.
  pose proof (wf_chain _ _ _ _ _ W) as HW.
  assert (R : k <> KSelBody -> flat_map (coll q) kids = flat_map leaks kids).
  { intros Hk. destruct W as (_ & (_ & _ & _ & _ & Sh) & _). specialize (Sh Hk).
    clear - IH HW L Sh. induction kids as [|c r IHr]; [reflexivity|]; cbn [flat_map].
    inversion IH as [|? ? I1 I2]; inversion HW as [|? ? (J1 & J2 & J3) J4]; inversion Sh as [|? ? S1 S2]; subst.
    rewrite I1, IHr by (assumption || lia). reflexivity. }
  cbn [coll leaks].
  destruct k; cbn [prunable andb opens declares];
    repeat match goal with |- context [(?a <? ?b)%N] => destruct (N.ltb_spec a b); [|lia] end; try reflexivity.
  - congruence.
  - rewrite R by discriminate. destruct W as (_ & (S0 & _) & _). rewrite S0 by (reflexivity || discriminate). reflexivity.
  - destruct W as (_ & (_ & (b & -> & Hb) & _) & _); [reflexivity|]. cbn [flat_map]. rewrite app_nil_r.
    inversion HW as [|? ? (J1 & J2 & J3) _]; subst. inversion IH as [|? ? I1 _]; subst.
    rewrite I1 by (assumption || lia || congruence). destruct b as [kb pb eb ib cb]; cbn in *; subst kb. reflexivity.
  - rewrite R by discriminate. destruct W as (_ & (S0 & _) & _). rewrite S0 by (reflexivity || discriminate). reflexivity.
  - rewrite R by discriminate. reflexivity.
Qed.

(** A node after the position adds nothing. *)
Lemma coll_after q n : wf n -> (q < npos n)%N -> filter (seen q) (coll q n) = [].
Proof.
  intros W L. assert (H : forall d, In d (coll q n) -> seen q d = false).
  { intros d Hd. apply coll_in in Hd; [|exact W]. unfold seen. destruct (N.leb_spec (snd d) q); [lia|]. apply andb_false_r. }
  induction (coll q n) as [|d l IH]; [reflexivity|]. cbn. rewrite H by (left; reflexivity). apply IH. intros; apply H; right; assumption.
Qed.

Lemma coll_after_all q l : forall s lo hi, chain wf s lo l hi -> (q < lo)%N -> filter (seen q) (flat_map (coll q) l) = [].
Proof.
  induction l as [|c l IH]; cbn; intros s lo hi H L; [reflexivity|]. destruct H as (H1 & _ & H2 & H3).
  rewrite filter_app, (coll_after q c H2) by lia. apply IH in H3; [exact H3|]. pose proof (wf_lt c H2). lia.
Qed.

Lemma in_seq_rets q env sel R : forall l e0, In (q, env, sel) (seq_rets R e0 l) ->
  exists a c b, l = a ++ c :: b /\ In (q, env, sel) (R (e0 ++ flat_map leaks a) c).
Proof.
  induction l as [|c l IH]; cbn; intros e0 H; [contradiction|]. apply in_app_or in H as [H|H].
  - exists [], c, l. cbn. rewrite app_nil_r. split; [reflexivity|exact H].
  - apply IH in H as (a & c' & b & -> & H). exists (c :: a), c', b. split; [reflexivity|]. cbn.
    rewrite app_assoc. exact H.
Qed.

Lemma chain_split l a c b : l = a ++ c :: b -> forall s lo hi, chain wf s lo l hi ->
  exists s' lo', chain wf s lo a lo' /\ chain wf s' lo' (c :: b) hi /\ (a <> [] -> s' = true) /\ (a = [] -> lo' = lo /\ s' = s).
Proof.
  intros ->. induction a as [|d a IH]; intros s lo hi H.
  - exists s, lo. split; [cbn; lia|]. split; [exact H|]. split; [congruence|]. intros _; split; reflexivity.
  - cbn in H. destruct H as (H1 & H2 & H3 & H4). apply IH in H4 as (s' & lo' & H4 & H5 & H6 & H7).
    exists s', lo'. split; [cbn; split; [exact H1|split; [exact H2|split; [exact H3|exact H4]]]|]. split; [exact H5|].
    split; [|discriminate]. intros _. destruct a; [apply H7; reflexivity|apply H6; discriminate].
Qed.

(** Where the returns of a node are. *)
Lemma rets_pos n : wf n -> forall sel e0 q env s, In (q, env, s) (rets sel e0 n) ->
  (npos n <= q)%N /\ (q < nfin n)%N /\ (nkind n <> KRet -> (npos n < q)%N).
Proof.
  induction n as [k p e ids kids IH] using node_rec'; intros W sel e0 q env s H; cbn [npos nfin nkind].
  assert (G : forall sel, In (q, env, s) (seq_rets (rets sel) (e0 ++ ids) kids) -> (p <= q)%N /\ (q < e)%N /\ (k <> KRet -> (p < q)%N)).
  { clear H sel. intros sel H. apply in_seq_rets in H as (a & c & b & E & H).
    pose proof (wf_chain _ _ _ _ _ W) as HW. rewrite Forall_forall in *.
    assert (Hc : In c kids) by (rewrite E; apply in_or_app; right; left; reflexivity).
    destruct (HW c Hc) as (Wc & H1 & H2). specialize (IH c Hc Wc _ _ _ _ _ H) as (H3 & H4 & H5).
    repeat split; [lia|lia|intros _].
    destruct W as (_ & _ & lo & Hi & Hch). apply ids_incr in Hi as (_ & Hi & _).
    eapply chain_split in Hch as (s' & lo' & C1 & C2 & C3 & C4); [|exact E].
    cbn in C2. destruct C2 as (C5 & C6 & _ & _).
    apply chain_le in C1 as [_ C1]; [|intros; apply wf_lt; assumption].
    destruct k; cbn [is_plain] in *; try lia.
    destruct (is_ret c) eqn:Er.
    - specialize (C6 eq_refl). destruct a as [|d a].
      + destruct (C4 eq_refl) as [-> ->]. specialize (C6 eq_refl). lia.
      + specialize (C6 (C3 ltac:(discriminate))). lia.
    - assert (nkind c <> KRet) by (unfold is_ret in Er; destruct (nkind c); congruence). specialize (H5 ltac:(assumption)). lia. }
  destruct k; cbn [rets] in H; try (eapply G; exact H); try contradiction.
  destruct H as [H|[]]. injection H as <- <- <-. destruct W as (W & _). repeat split; [lia|lia|congruence].
Qed.

(** In a select statement all returns are marked. *)
Lemma rets_true n : forall e0 q env s, In (q, env, s) (rets true e0 n) -> s = true.
Proof.
  induction n as [k p e ids kids IH] using node_rec'; intros e0 q env s H.
  assert (G : In (q, env, s) (seq_rets (rets true) (e0 ++ ids) kids) -> s = true).
  { intros G. apply in_seq_rets in G as (a & c & b & E & G). rewrite Forall_forall in IH.
    eapply IH; [|exact G]. rewrite E. apply in_or_app; right; left; reflexivity. }
  destruct k; cbn [rets] in H; try (apply G; exact H); try contradiction.
  destruct H as [H|[]]. congruence.
Qed.

Lemma filter_nodup_name q l : (forall d, In d l -> (snd d <= q)%N) ->
  filter (seen q) l = filter (fun d => negb (beq (fst d) (B "_"))) l.
Proof.
  intros H. apply filter_ext_in. intros d Hd. unfold seen. specialize (H d Hd).
  destruct (N.leb_spec (snd d) q); [apply andb_true_r|lia].
Qed.

Definition named (d : bytes * N) : bool := negb (beq (fst d) (B "_")).

Lemma coll_ended_all q l : forall s lo hi, chain wf s lo l hi -> (hi < q)%N -> Forall (fun c => nkind c <> KComm) l ->
  flat_map (coll q) l = flat_map leaks l.
Proof.
  induction l as [|c l IH]; cbn; intros s lo hi H L F; [reflexivity|]. destruct H as (H1 & _ & H2 & H3).
  inversion F as [|? ? F1 F2]; subst. pose proof (chain_le _ _ _ _ _ H3 (fun c _ => wf_lt c)) as [_ H4].
  rewrite (coll_ended q c H2) by (assumption || lia). erewrite IH by eassumption. reflexivity.
Qed.

(** The walk sees the declarations whose scope the return is in. *)
Lemma rets_coll n : wf n -> nkind n <> KSelBody -> forall e0 q env, In (q, env, false) (rets false e0 n) ->
  exists sc, env = e0 ++ sc /\ filter (seen q) (coll q n) = filter named sc /\ (forall d, In d sc -> (npos n <= snd d < q)%N) /\ incr sc.
Proof.
  induction n as [k p e ids kids IH] using node_rec'; intros W K e0 q env H; cbn [npos].
  pose proof (rets_pos _ W _ _ _ _ _ H) as (Q1 & Q2 & Q3). cbn [npos nfin nkind] in Q1, Q2, Q3, K.
  assert (G : k <> KSelect -> k <> KRet -> k <> KFunc -> In (q, env, false) (seq_rets (rets false) (e0 ++ ids) kids) ->
    exists sc, env = e0 ++ sc /\ filter (seen q) (coll q (Node k p e ids kids)) = filter named sc /\
      (forall d, In d sc -> (p <= snd d < q)%N) /\ incr sc).
  { clear H. intros K1 K2 K4 H. apply in_seq_rets in H as (a & c & b & E & H).
    pose proof (wf_chain _ _ _ _ _ W) as HW. rewrite Forall_forall in IH, HW.
    assert (Hc : In c kids) by (rewrite E; apply in_or_app; right; left; reflexivity).
    destruct (HW c Hc) as (Wc & P1 & P2).
    destruct W as (_ & (S1 & S2 & S3 & S4 & S5) & lo & Hi & Hch).
    specialize (S4 K1). specialize (S5 K). rewrite Forall_forall in S4.
    pose proof (rets_pos _ Wc _ _ _ _ _ H) as (R1 & R2 & R3).
    destruct (IH c Hc Wc (S4 c Hc) _ _ _ H) as (sc & -> & I1 & I2 & I3).
    apply ids_incr in Hi as (Hi1 & Hi2 & Hi3).
    eapply chain_split in Hch as (s' & lo' & C1 & C2 & C3 & C4); [|exact E].
    assert (B1 : (lo <= lo')%N) by (eapply chain_le; [exact C1|intros; apply wf_lt; assumption]).
    cbn in C2. destruct C2 as (C5 & C6 & _ & C7).
    assert (B2 : a <> [] -> (lo' < q)%N).
    { intros Ha. destruct (is_ret c) eqn:Er; [specialize (C6 eq_refl (C3 Ha)); lia|].
      assert (nkind c <> KRet) by (unfold is_ret in Er; destruct (nkind c); congruence). specialize (R3 ltac:(assumption)). lia. }
    assert (A : flat_map (coll q) a = flat_map leaks a).
    { destruct a as [|d a]; [reflexivity|]. eapply coll_ended_all; [exact C1|apply B2; discriminate|].
      rewrite E in S5. apply Forall_app in S5 as [S5 _]. exact S5. }
    assert (AI : incr (flat_map leaks a) /\ forall d, In d (flat_map leaks a) -> (lo <= snd d < lo')%N).
    { rewrite <- A. clear - C1. revert C1. generalize (is_plain k). revert lo.
      induction a as [|d a IHa]; cbn; intros lo s C; [split; [constructor|intros; contradiction]|].
      destruct C as (D1 & _ & D2 & D3). apply IHa in D3 as D4. destruct D4 as [D4 D5].
      pose proof (wf_lt d D2). assert (nfin d <= lo')%N by (eapply chain_le; [exact D3|intros; apply wf_lt; assumption]).
      split.
      - apply incr_app; repeat split; [apply coll_incr; exact D2|exact D4|]. intros x y Hx Hy.
        apply coll_in in Hx; [|exact D2]. apply D5 in Hy. lia.
      - intros y Hy. apply in_app_or in Hy as [Hy|Hy]; [apply coll_in in Hy; [lia|exact D2]|apply D5 in Hy; lia]. }
    destruct AI as [AI1 AI2].
    assert (PL : (p <= lo)%N) by (destruct (is_plain k); lia).
    exists (ids ++ flat_map leaks a ++ sc). split; [rewrite !app_assoc; reflexivity|]. split; [|split].
    - cbn [coll]. destruct (N.ltb_spec e q); [lia|]. rewrite andb_false_r.
      assert (D : (if declares k then ids else []) = ids).
      { destruct (declares k) eqn:Dk; [reflexivity|]. symmetry. apply S1; [destruct k; discriminate|destruct k; discriminate|exact K4]. }
      rewrite D, E, flat_map_app. cbn [flat_map]. rewrite !filter_app, A, I1.
      rewrite (coll_after_all q b _ _ _ C7) by lia. rewrite app_nil_r.
      rewrite !filter_nodup_name; [reflexivity| |].
      + intros d Hd. destruct a as [|d0 a]; [contradiction|]. apply AI2 in Hd. specialize (B2 ltac:(discriminate)). lia.
      + intros d Hd. apply Hi3 in Hd. lia.
    - intros d Hd. apply in_app_or in Hd as [Hd|Hd].
      + apply Hi3 in Hd. destruct (is_plain k); lia.
      + apply in_app_or in Hd as [Hd|Hd].
        * pose proof (AI2 d Hd). destruct a as [|d0 a]; [contradiction|]. specialize (B2 ltac:(discriminate)). lia.
        * apply I2 in Hd. lia.
    - apply incr_app; repeat split; [exact Hi1| |].
      + apply incr_app; repeat split; [exact AI1|exact I3|]. intros x y Hx Hy. apply AI2 in Hx. apply I2 in Hy. lia.
      + intros x y Hx Hy. apply Hi3 in Hx. apply in_app_or in Hy as [Hy|Hy]; [apply AI2 in Hy; lia|apply I2 in Hy; lia]. }
  destruct k; cbn [rets] in H; try (apply G; [discriminate|discriminate|discriminate|exact H]); try contradiction.
  - exfalso. apply in_seq_rets in H as (a & c & b & E & H). apply rets_true in H. discriminate.
  - destruct H as [H|[]]. injection H as <- <-. exists []. rewrite app_nil_r.
    split; [reflexivity|]. split; [|split; [intros ? []|constructor]].
    cbn [coll prunable andb declares app]. destruct W as (_ & _ & lo & Hi & Hch). apply ids_incr in Hi as (_ & Hi & _).
    cbn [is_plain] in Hi. eapply coll_after_all; [exact Hch|lia].
Qed.

(** The map of the last declarations. *)
Lemma means_snoc l y p x r : means (l ++ [(y, p)]) x r <-> (x = y /\ r = p) \/ (x <> y /\ means l x r).
Proof.
  unfold means. split.
  - intros (a & b & E & Hb). destruct b as [|z b] using rev_ind.
    + apply app_inj_tail in E as [-> E]. injection E as -> ->. left; split; reflexivity.
    + clear IHb. rewrite app_comm_cons, app_assoc in E. apply app_inj_tail in E as [-> E]. subst z.
      rewrite map_app in Hb. right. split.
      * intros ->. apply Hb. apply in_or_app; right; left; reflexivity.
      * exists a, b. split; [reflexivity|]. intros H; apply Hb. apply in_or_app; left; exact H.
  - intros [[-> ->]|(N1 & a & b & -> & Hb)].
    + exists l, []. split; [reflexivity|intros []].
    + exists a, (b ++ [(y, p)]). split; [rewrite <- app_assoc; reflexivity|].
      rewrite map_app. intros H; apply in_app_or in H as [H|[H|[]]]; [contradiction|cbn in H; congruence].
Qed.

Lemma incr_snoc l d : incr (l ++ [d]) -> incr l /\ forall x, In x l -> (snd x < snd d)%N.
Proof. intros H. apply incr_app in H as (H & _ & H'). split; [exact H|]. intros x Hx. apply H'; [exact Hx|left; reflexivity]. Qed.

Lemma means_in l x p : means l x p -> In (x, p) l.
Proof. intros (a & b & -> & _). apply in_or_app; right; left; reflexivity. Qed.

Lemma fold_latest q l : incr l -> (forall d, In d l -> seen q d = true) ->
  mwf (fold_left (add_ident q) l []) /\
  forall x p, mget x (fold_left (add_ident q) l []) = Some p <-> means l x p.
Proof.
  induction l as [|[y r] l IH] using rev_ind; intros I S.
  - split; [apply mwf_nil|]. intros x p; cbn. split; [discriminate|]. intros (a & b & E & _). destruct a; discriminate.
  - apply incr_snoc in I as [I I']. destruct IH as [W IH]; [exact I|intros d Hd; apply S, in_or_app; left; exact Hd|].
    rewrite fold_left_app. cbn [fold_left]. set (m := fold_left (add_ident q) l []) in *.
    assert (Sy : seen q (y, r) = true) by (apply S, in_or_app; right; left; reflexivity).
    unfold seen in Sy; cbn [fst snd] in Sy. apply andb_true_iff in Sy as [Sy1 Sy2].
    assert (E : add_ident q m (y, r) = mset y r m).
    { unfold add_ident. apply negb_true_iff in Sy1. rewrite Sy1. destruct (N.ltb_spec q r); [lia|]. cbn [orb].
      destruct (mget y m) as [c|] eqn:G; [|reflexivity]. apply IH in G. apply means_in in G.
      apply I' in G. cbn in G. destruct (N.ltb_spec c r); [reflexivity|lia]. }
    rewrite E. split; [apply mwf_mset; exact W|]. intros x p. rewrite mget_mset, means_snoc, <- IH.
    destruct (beq_spec x y) as [->|Ne].
    + split; [intros H; injection H as <-; left; split; reflexivity|intros [[_ ->]|[H _]]; [reflexivity|congruence]].
    + split; [intros H; right; split; assumption|intros [[H _]|[_ H]]; [congruence|exact H]].
Qed.

Lemma means_filter l x p : x <> B "_" -> (means (filter named l) x p <-> means l x p).
Proof.
  intros N. induction l as [|[y r] l IH] using rev_ind; [reflexivity|].
  rewrite filter_app; cbn [filter]. unfold named at 2; cbn [fst].
  destruct (beq_spec y (B "_")) as [->|Ny]; cbn [negb].
  - rewrite app_nil_r, IH, means_snoc. split; [intros H; right; split; assumption|intros [[H _]|[_ H]]; [congruence|exact H]].
  - rewrite !means_snoc, IH. reflexivity.
Qed.

Lemma means_app a b x p : means (a ++ b) x p <-> means b x p \/ (~ In x (map fst b) /\ means a x p).
Proof.
  induction b as [|[y r] b IH] using rev_ind.
  - rewrite app_nil_r. split; [intros H; right; split; [intros []|exact H]|intros [H|[_ H]]; [|exact H]].
    apply means_in in H. contradiction.
  - rewrite app_assoc, !means_snoc, IH, map_app. split.
    + intros [H|[N [H|[H1 H2]]]]; [left; left; exact H|left; right; split; assumption|].
      right. split; [|exact H2]. intros H; apply in_app_or in H as [H|[H|[]]]; [contradiction|cbn in H; congruence].
    + intros [[H|[N H]]|[H1 H2]]; [left; exact H|right; split; [exact N|left; exact H]|].
      right. split; [intros ->; apply H1, in_or_app; right; left; reflexivity|]. right. split; [|exact H2].
      intros H; apply H1, in_or_app; left; exact H.
Qed.

Lemma incr_unique l x y p : incr l -> In (x, p) l -> In (y, p) l -> x = y.
Proof.
  induction l as [|d l IH]; cbn; intros I Hx Hy; [contradiction|]. inversion I as [|? ? I1 I2]; subst. rewrite Forall_forall in I2.
  destruct Hx as [->|Hx]; destruct Hy as [E|Hy].
  - congruence.
  - apply I2 in Hy. cbn in Hy. lia.
  - subst d. apply I2 in Hx. cbn in Hx. lia.
  - eapply IH; eassumption.
Qed.

Lemma in_means l x p : In (x, p) l -> exists q, means l x q.
Proof.
  induction l as [|[y r] l IH] using rev_ind; [intros []|]. intros H.
  destruct (beq_spec x y) as [->|N]; [exists r; apply means_snoc; left; split; reflexivity|].
  apply in_app_or in H as [H|[H|[]]]; [|congruence]. apply IH in H as (q & H). exists q. apply means_snoc. right; split; assumption.
Qed.

(** From the declarations seen to the result. *)
Lemma visible_of f q sc out :
  wf_func f -> visible f q out ->
  filter (seen q) (coll q (fn_body f)) = filter named sc ->
  (forall d, In d sc -> (npos (fn_body f) <= snd d <= q)%N) -> incr sc -> (npos (fn_body f) <= q)%N ->
  StronglySorted (fun a b => (snd a < snd b)%N) out /\
  forall x p, In (x, p) out <-> x <> B "_" /\ means (fn_scope f ++ sc) x p /\ ~ In (x, p) (fn_recv f).
Proof.
  intros (_ & Wb & lo & Hi & Hlo) [Hp Hs] Hc Hpos Hinc Hq.
  apply ids_incr in Hi as (I1 & _ & I3).
  set (l := filter named (fn_params f ++ fn_results f ++ sc)).
  assert (E : latest f q = fold_left (add_ident q) l []).
  { unfold latest. rewrite inspect_coll, <- !fold_left_app, fold_seen. f_equal. unfold l. rewrite !filter_app, Hc.
    rewrite !filter_nodup_name; [change (fun d : bytes * N => negb (beq (fst d) (B "_"))) with named; rewrite ?app_assoc; reflexivity| |];
      intros d Hd; (assert (Hd' : In d (fn_recv f ++ fn_params f ++ fn_results f)) by (rewrite !in_app_iff; auto));
      apply I3 in Hd'; lia. }
  assert (IL0 : incr (fn_recv f ++ fn_params f ++ fn_results f ++ sc)).
  { rewrite !app_assoc, <- (app_assoc (fn_recv f)). apply incr_app; repeat split; [exact I1|exact Hinc|].
    intros x y Hx Hy. apply I3 in Hx. apply Hpos in Hy. lia. }
  assert (IL : incr l).
  { apply incr_app in IL0 as (_ & IL0 & _). unfold l. clear - IL0. revert IL0. generalize (fn_params f ++ fn_results f ++ sc).
    induction l as [|d l IH]; cbn; intros H; [constructor|]. inversion H as [|? ? H1 H2]; subst.
    destruct (named d); [|apply IH, H1]. constructor; [apply IH, H1|]. rewrite Forall_forall in *. intros y Hy.
    apply filter_In in Hy as [Hy _]. apply H2, Hy. }
  assert (SL : forall d, In d l -> seen q d = true).
  { intros d Hd. apply filter_In in Hd as [Hd Hn]. unfold seen. unfold named in Hn. rewrite Hn. cbn [andb].
    apply N.leb_le. rewrite app_assoc in Hd. apply in_app_or in Hd as [Hd|Hd]; [|apply Hpos in Hd; lia].
    assert (Hd' : In d (fn_recv f ++ fn_params f ++ fn_results f)) by (rewrite in_app_iff; auto). apply I3 in Hd'. lia. }
  destruct (fold_latest q l IL SL) as [MW ML]. rewrite <- E in MW, ML.
  assert (IN : forall x p, In (x, p) out <-> means l x p).
  { intros x p. rewrite <- ML. split; intros H.
    - apply mget_in_wf; [exact MW|]. eapply Permutation_in; [exact Hp|exact H].
    - eapply Permutation_in; [apply Permutation_sym; exact Hp|]. apply mget_in, H. }
  split.
  - assert (ND : NoDup (map fst out)) by (eapply Permutation_NoDup; [apply Permutation_map, Permutation_sym, Hp|exact MW]).
    assert (SS : StronglySorted (fun a b => (snd a <= snd b)%N) out) by (apply Sorted_StronglySorted; [intros a b c; lia|exact Hs]).
    assert (OL : forall d, In d out -> In d l) by (intros [x p] Hd; apply means_in, IN, Hd).
    clear - ND SS OL IL. induction SS as [|d o H1 IH H2]; [constructor|]. inversion ND as [|? ? N1 N2]; subst. constructor.
    + apply IH; [exact N2|intros; apply OL; right; assumption].
    + rewrite Forall_forall in *. intros y Hy. specialize (H2 y Hy). destruct (N.eq_dec (snd d) (snd y)) as [E|]; [|lia].
      exfalso. apply N1. destruct d as [x p], y as [x' p']; cbn in *; subst p'.
      rewrite (incr_unique l x x' p IL) by (apply OL; [left; reflexivity|right; exact Hy] || (apply OL; left; reflexivity) || (apply OL; right; exact Hy)).
      apply in_map_iff. exists (x', p). split; [reflexivity|exact Hy].
  - intros x p. rewrite IN. unfold l, fn_scope.
    assert (R : forall N : x <> B "_", means (filter named (fn_params f ++ fn_results f ++ sc)) x p <->
      means (fn_params f ++ fn_results f ++ sc) x p) by (intros N; apply means_filter, N).
    rewrite <- app_assoc, <- app_assoc, means_app. split.
    + intros H. assert (N : x <> B "_").
      { apply means_in, filter_In in H as [_ H]. unfold named in H. cbn [fst] in H. intros ->. rewrite beq_refl in H. discriminate. }
      apply R in H; [|exact N]. split; [exact N|]. split; [left; exact H|]. intros Hr. apply means_in in H.
      apply incr_app in IL0 as (_ & _ & IL0). specialize (IL0 _ _ Hr H). cbn in IL0. lia.
    + intros (N & [H|[H1 H2]] & Hr); [apply R; assumption|]. exfalso. apply Hr, means_in, H2.
Qed.
