(** How far the identifiers of field trees tell trees apart. *)

From Verif Require Import Base Maps TypesModel TypesSpec TypesProofs.
From Coq Require Import Permutation.

Lemma le_bytes_length n : forall x, length (le_bytes n x) = n.
Proof. induction n as [|n IH]; intros x; cbn; [reflexivity|rewrite IH; reflexivity]. Qed.

Lemma le_bytes_inj n : forall x y, (x < 256 ^ N.of_nat n)%N -> (y < 256 ^ N.of_nat n)%N ->
  le_bytes n x = le_bytes n y -> x = y.
Proof.
  induction n as [|n IH]; intros x y Hx Hy E.
  - cbn in Hx, Hy. lia.
  - cbn [le_bytes] in E. injection E as E1 E2.
    apply (f_equal N_of_ascii) in E1. rewrite !N_ascii_embedding in E1 by (apply N.mod_lt; lia).
    rewrite Nat2N.inj_succ, N.pow_succ_r' in Hx, Hy.
    apply IH in E2; try (apply N.div_lt_upper_bound; lia).
    rewrite (N.div_mod x 256), (N.div_mod y 256) by lia. congruence.
Qed.

Lemma le64_inj x y : (x < 2 ^ 64)%N -> (y < 2 ^ 64)%N -> le64 x = le64 y -> x = y.
Proof.
  intros Hx Hy. unfold le64. rewrite !N.mod_small by assumption. apply le_bytes_inj; assumption.
Qed.

Lemma le64_length x : length (le64 x) = 8%nat.
Proof. apply le_bytes_length. Qed.

Lemma app_inj_len {A} (a b r s : list A) : length a = length b -> a ++ r = b ++ s -> a = b /\ r = s.
Proof.
  revert b; induction a as [|x a IH]; intros [|y b] L E; cbn in *; try lia; [auto|].
  injection E as -> E. destruct (IH b) as [-> ->]; [lia|exact E|auto].
Qed.

Lemma blen_length_eq (a b : bytes) : blen a = blen b -> length a = length b.
Proof. unfold blen. lia. Qed.

Lemma framed_inj a b r s : (blen a < 2 ^ 64)%N -> (blen b < 2 ^ 64)%N ->
  framed a ++ r = framed b ++ s -> a = b /\ r = s.
Proof.
  intros Ha Hb E. unfold framed in E. rewrite <- !app_assoc in E.
  apply app_inj_len in E as [E1 E2]; [|rewrite !le64_length; reflexivity].
  apply le64_inj in E1; auto. apply blen_length_eq in E1. apply app_inj_len in E2; auto.
Qed.

(** A flat map: every node is a leaf, and no length exceeds 64 bits. *)
Definition flat_map_of (l : list (bytes * fval)) : Prop :=
  forall k x, In (k, x) l -> olist (f_children x) = [] /\ (blen k < 2 ^ 64)%N /\ (blen (f_value x) < 2 ^ 64)%N.

Definition ser_pair (e : bytes * bytes) : bytes := framed (fst e) ++ ascii_of_N 0 :: framed (snd e).

Lemma ser_pairs_inj ps : forall qs,
  (forall k v, In (k, v) ps -> (blen k < 2 ^ 64)%N /\ (blen v < 2 ^ 64)%N) ->
  (forall k v, In (k, v) qs -> (blen k < 2 ^ 64)%N /\ (blen v < 2 ^ 64)%N) ->
  concat (map ser_pair ps) = concat (map ser_pair qs) -> ps = qs.
Proof.
  assert (forall e r, ser_pair e ++ r <> []) as Hne.
  { intros e r E. apply (f_equal (@length _)) in E. unfold ser_pair, framed in E.
    rewrite !app_length, le64_length in E. cbn in E. lia. }
  induction ps as [|[k v] ps IH]; intros [|[k' v'] qs] Hp Hq E; cbn [map concat] in E.
  - reflexivity.
  - exfalso. symmetry in E. exact (Hne _ _ E).
  - exfalso. exact (Hne _ _ E).
  - destruct (Hp k v (or_introl eq_refl)) as [K1 V1]. destruct (Hq k' v' (or_introl eq_refl)) as [K2 V2].
    unfold ser_pair at 1 3 in E. cbn [fst snd] in E. rewrite <- !app_assoc in E.
    apply framed_inj in E as [<- E]; auto. cbn [app] in E. apply (f_equal (@tl _)) in E; cbn [tl] in E.
    apply framed_inj in E as [<- E]; auto. f_equal.
    apply IH; [intros; apply Hp; right; assumption|intros; apply Hq; right; assumption|exact E].
Qed.

(** The sorted entries of a flat map. *)
Definition sorted_pairs (l : list (bytes * fval)) : list (bytes * bytes) :=
  map (fun k => (k, match mget k l with Some x => f_value x | None => [] end)) (bsort (mkeys l)).

Lemma ser_map_flat l : flat_map_of l -> ser_map l = concat (map ser_pair (sorted_pairs l)).
Proof.
  intros F. unfold ser_map, ser_sorted, sorted_pairs.
  rewrite (mkeys_map (fun e => ser_entry (fst e) (snd e))), map_map. f_equal.
  apply map_ext_in. intros k Hk. rewrite bsort_in in Hk.
  rewrite (mget_map ser_entry). apply mget_keys in Hk.
  destruct (mget k l) as [x|] eqn:E; [|congruence]. cbn [option_map].
  apply mget_in in E. destruct (F k x E) as [Hc _]. destruct x as [v c]. cbn [f_children f_value] in *.
  rewrite ser_entry_eq, Hc. reflexivity.
Qed.

Lemma sorted_pairs_in l k v : In (k, v) (sorted_pairs l) <->
  In k (mkeys l) /\ v = match mget k l with Some x => f_value x | None => [] end.
Proof.
  unfold sorted_pairs. rewrite in_map_iff. split.
  - intros (k' & E & H). injection E as -> <-. rewrite bsort_in in H. auto.
  - intros [H ->]. exists k. rewrite bsort_in. auto.
Qed.

Lemma sorted_pairs_get l k v : flat_map_of l ->
  In (k, v) (sorted_pairs l) <-> exists x, mget k l = Some x /\ f_value x = v.
Proof.
  intros F. rewrite sorted_pairs_in, mget_keys. split.
  - intros [H ->]. destruct (mget k l) as [x|]; [exists x; auto|congruence].
  - intros (x & -> & <-). split; [discriminate|reflexivity].
Qed.

Lemma same_fields_flat f g : flat_map_of (olist f) -> flat_map_of (olist g) ->
  sorted_pairs (olist f) = sorted_pairs (olist g) -> same_fields f g.
Proof.
  intros F G E.
  assert (forall a b k x, flat_map_of a -> flat_map_of b -> sorted_pairs a = sorted_pairs b ->
    mget k a = Some x -> exists y, mget k b = Some y /\ same_tree x y) as H.
  { intros a b k x Fa Fb Eab Hx.
    assert (In (k, f_value x) (sorted_pairs b)) as H
      by (rewrite <- Eab; apply sorted_pairs_get; [exact Fa|exists x; auto]).
    apply sorted_pairs_get in H as (y & Hy & Ev); [|exact Fb]. exists y. split; [exact Hy|].
    apply mget_in in Hx. apply mget_in in Hy. destruct (Fa k x Hx) as [Cx _]. destruct (Fb k y Hy) as [Cy _].
    destruct x as [v c], y as [v' c']. cbn [f_value f_children] in *. subst v'. apply same_tree_fields.
    split; intros q z; rewrite ?Cx, ?Cy; discriminate. }
  split; intros k x Hx.
  - eapply H; [exact F|exact G|exact E|exact Hx].
  - destruct (H _ _ k x G F (eq_sym E) Hx) as (y & Hy & Hs). exists y. split; [exact Hy|apply same_tree_sym; exact Hs].
Qed.

Section Flat.
Variable sha1 : bytes -> bytes.

(** No two different byte strings that get hashed for this result collide, and
    no hash is the text "empty" or empty. *)
Definition no_collisions (mp : stack -> bytes) (tr : tresult) : Prop :=
  (forall a b, occurs_fields tr a -> occurs_fields tr b ->
     sha1 (ser_map (olist a)) = sha1 (ser_map (olist b)) -> ser_map (olist a) = ser_map (olist b)) /\
  (forall a, occurs_fields tr a -> length (sha1 (ser_map (olist a))) = 20%nat) /\
  (forall v c w d, occurs_node tr (FVal v c) -> occurs_node tr (FVal w d) ->
     bytes_key sha1 (le64 (blen v) ++ v ++ fvals_id sha1 c) =
     bytes_key sha1 (le64 (blen w) ++ w ++ fvals_id sha1 d) ->
     le64 (blen v) ++ v ++ fvals_id sha1 c = le64 (blen w) ++ w ++ fvals_id sha1 d) /\
  (forall a b, occurs_stack tr a -> occurs_stack tr b ->
     bytes_key sha1 (mp a) = bytes_key sha1 (mp b) -> same_list a b).

Definition flat_result (tr : tresult) : Prop :=
  forall cf, In cf (all_frames tr) -> flat_map_of (olist (cf_fields cf)).

Lemma flat_occurs_node tr n : flat_result tr -> occurs_node tr n ->
  olist (f_children n) = [] /\ (blen (f_value n) < 2 ^ 64)%N.
Proof.
  intros F [cf x Hcf Hn]. specialize (F cf Hcf). inversion Hn as [f k y H|f k v c y H H']; subst.
  - destruct (F k x H) as (H1 & _ & H2). auto.
  - destruct (F k _ H) as (H1 & _). cbn in H1. inversion H' as [f k' y' H2|f k' ? ? y' H2]; subst;
      rewrite H1 in H2; destruct H2.
Qed.
Lemma flat_occurs_fields tr f : flat_result tr -> occurs_fields tr f -> flat_map_of (olist f).
Proof.
  intros F [cf H|v c H]; [apply F; exact H|].
  destruct (flat_occurs_node _ _ F H) as [E _]. cbn in E. rewrite E. intros k x [].
Qed.

Lemma flat_ids_tell_apart mp tr : flat_result tr -> no_collisions mp tr -> ids_tell_apart sha1 mp tr.
Proof.
  intros F (C1 & C2 & C3 & C4). split; [|split].
  - intros a b Ha Hb E.
    pose proof (flat_occurs_fields _ _ F Ha) as Fa. pose proof (flat_occurs_fields _ _ F Hb) as Fb.
    assert (forall f, occurs_fields tr f -> olist f <> [] -> fvals_id sha1 f = sha1 (ser_map (olist f))) as Id.
    { intros [[|e l]|] _ H; cbn in *; congruence. }
    assert (forall f, occurs_fields tr f -> olist f <> [] -> length (fvals_id sha1 f) = 20%nat) as L.
    { intros f Hf Hn. rewrite Id by assumption. apply C2; exact Hf. }
    assert (forall f, olist f = [] -> length (fvals_id sha1 f) <> 20%nat) as L'.
    { intros [[|e l]|] H; cbn in *; congruence. }
    destruct (olist a) as [|ea la] eqn:Ea.
    + destruct (olist b) as [|eb lb] eqn:Eb.
      * split; intros k x; rewrite ?Ea, ?Eb; discriminate.
      * exfalso. apply (L' a Ea). rewrite E. apply L; [exact Hb|congruence].
    + destruct (olist b) as [|eb lb] eqn:Eb.
      * exfalso. apply (L' b Eb). rewrite <- E. apply L; [exact Ha|congruence].
      * rewrite <- Ea, <- Eb in *. rewrite !Id in E by congruence. apply C1 in E; auto.
        rewrite !ser_map_flat in E by assumption.
        apply same_fields_flat; auto. apply ser_pairs_inj; [| |exact E].
        -- intros k v H. apply sorted_pairs_get in H as (x & Hx & <-); [|exact Fa]. apply mget_in in Hx.
           apply (Fa k x Hx).
        -- intros k v H. apply sorted_pairs_get in H as (x & Hx & <-); [|exact Fb]. apply mget_in in Hx.
           apply (Fb k x Hx).
  - intros [v c] [w d] Ha Hb E. cbn [fval_id] in E.
    destruct (flat_occurs_node _ _ F Ha) as [Ec Lv]. destruct (flat_occurs_node _ _ F Hb) as [Ed Lw].
    cbn [f_children f_value] in *.
    assert (le64 (blen v) ++ v ++ fvals_id sha1 c = le64 (blen w) ++ w ++ fvals_id sha1 d) as E'
      by (apply C3; assumption).
    pose proof (framed_inj v w (fvals_id sha1 c) (fvals_id sha1 d) Lv Lw) as Fr.
    unfold framed in Fr. rewrite <- !app_assoc in Fr. destruct (Fr E') as [<- _].
    apply same_tree_fields. split; intros q z; rewrite ?Ec, ?Ed; discriminate.
  - intros a b Ha Hb E. apply C4; assumption.
Qed.
End Flat.
