(** C16: what the identifiers of field trees tell apart, exactly. *)
From Verif Require Import Base Maps TypesModel TypesSpec TypesProofs TypesIds.
From Coq Require Import Permutation.

(** Names and values whose length fits the eight bytes written in front of them. *)
Inductive bounded : fval -> Prop :=
  bounded_intro v c : (blen v < 2 ^ 64)%N -> (forall (k : bytes) x, In (k, x) (olist c) -> (blen k < 2 ^ 64)%N /\ bounded x) -> bounded (FVal v c).
Definition fvals_bounded (f : fvals) : Prop := forall (k : bytes) x, In (k, x) (olist f) -> (blen k < 2 ^ 64)%N /\ bounded x.

(** Trees of one shape: the same names with the same names below them, and leaves at the same places. *)
Inductive same_shape : fval -> fval -> Prop :=
| shape_leaf v w c d : olist c = [] -> olist d = [] -> same_shape (FVal v c) (FVal w d)
| shape_node v w c d : olist c <> [] -> olist d <> [] -> fields_shape c d -> same_shape (FVal v c) (FVal w d)
with fields_shape : fvals -> fvals -> Prop :=
| shape_fields c d : Permutation (mkeys (olist c)) (mkeys (olist d)) ->
    (forall k a b, mget k (olist c) = Some a -> mget k (olist d) = Some b -> same_shape a b) -> fields_shape c d.

Definition agree (n m : fval) : Prop :=
  (forall p v, leaf_at (f_children n) p v <-> leaf_at (f_children m) p v) /\ (olist (f_children n) = [] -> f_value n = f_value m).

Lemma keyed_ser l : ser_map l = concat (map (fun k => match mget k l with Some x => ser_entry k x | None => [] end) (bsort (mkeys l))).
Proof.
  unfold ser_map, ser_sorted. rewrite (mkeys_map (fun e => ser_entry (fst e) (snd e))). f_equal. apply map_ext. intros k. rewrite (mget_map ser_entry). destruct (mget k l); reflexivity.
Qed.

Definition apart (n : fval) : Prop := forall m key r s, (blen key < 2 ^ 64)%N -> bounded n -> bounded m -> same_shape n m ->
  ser_entry key n ++ r = ser_entry key m ++ s -> agree n m /\ r = s.

Lemma maps_apart c d r s : (forall k x, In (k, x) (olist c) -> apart x) -> fvals_bounded c -> fvals_bounded d -> fields_shape c d ->
  ser_map (olist c) ++ r = ser_map (olist d) ++ s ->
  (forall k a b, mget k (olist c) = Some a -> mget k (olist d) = Some b -> agree a b) /\ r = s.
Proof.
  intros IH Bc Bd Sh E. destruct Sh as [c d P Sh]. rewrite !keyed_ser, <- (bsort_unique _ _ P) in E.
  assert (Hk : forall k, In k (bsort (mkeys (olist c))) -> (exists a, mget k (olist c) = Some a) /\ exists b, mget k (olist d) = Some b).
  { intros k H. rewrite bsort_in in H. split; [apply mget_keys in H; destruct (mget k (olist c)); [eauto | congruence] |].
    apply (Permutation_in _ P), mget_keys in H. destruct (mget k (olist d)); [eauto | congruence]. }
  assert (Hin : forall k a, mget k (olist c) = Some a -> In k (bsort (mkeys (olist c)))) by (intros k a H; rewrite bsort_in; apply mget_keys; congruence).
  revert Hk Hin E. generalize (bsort (mkeys (olist c))) as ks. intros ks Hk Hin E.
  assert (K : (forall k a b, In k ks -> mget k (olist c) = Some a -> mget k (olist d) = Some b -> agree a b) /\ r = s).
  { clear Hin. induction ks as [| k ks IHk]; [split; [intros k a b [] | exact E] |]. cbn [map concat] in E. rewrite <- !app_assoc in E.
    destruct (Hk k (or_introl eq_refl)) as [(a & Ea) (b & Eb)]. rewrite Ea, Eb in E.
    destruct (Bc k a (mget_in _ _ _ Ea)) as [Lk Ba]. destruct (Bd k b (mget_in _ _ _ Eb)) as [_ Bb].
    apply (IH k a (mget_in _ _ _ Ea) b k _ _ Lk Ba Bb (Sh k a b Ea Eb)) in E. destruct E as [Ag E].
    destruct (IHk (fun k' H => Hk k' (or_intror H)) E) as [K1 K2]. split; [| exact K2]. intros k' a' b' [<- | H] Ha Hb; [| exact (K1 k' a' b' H Ha Hb)].
    rewrite Ea in Ha. rewrite Eb in Hb. injection Ha as <-. injection Hb as <-. exact Ag. }
  destruct K as [K1 K2]. split; [| exact K2]. intros k a b Ha Hb. exact (K1 k a b (Hin k a Ha) Ha Hb).
Qed.

Lemma leaves_agree c d : Permutation (mkeys (olist c)) (mkeys (olist d)) ->
  (forall k a b, mget k (olist c) = Some a -> mget k (olist d) = Some b -> same_shape a b /\ agree a b) -> forall p v, leaf_at c p v -> leaf_at d p v.
Proof.
  intros P K p v H.
  assert (G : forall k a, mget k (olist c) = Some a -> exists b, mget k (olist d) = Some b).
  { intros k a Ha. destruct (mget k (olist d)) as [b |] eqn:Eb; [eauto |]. exfalso. assert (X : In k (mkeys (olist d))) by (apply (Permutation_in _ P), mget_keys; congruence). apply mget_keys in X. congruence. }
  destruct H as [f k v c' Hk Hc | f k w c' p v Hk H]; destruct (G k _ Hk) as ([v2 c2] & Hb); destruct (K k _ _ Hk Hb) as [Sh [A1 A2]]; cbn [f_children f_value] in *.
  - rewrite (A2 Hc). eapply leaf_here; [exact Hb |]. inversion Sh; subst; [assumption | contradiction].
  - eapply leaf_below; [exact Hb |]. apply A1, H.
Qed.

Lemma shape_sym n : forall m, same_shape n m -> same_shape m n.
Proof.
  induction n as [v c IH] using fval_ind'. intros m H. inversion H as [? w ? d E1 E2 | ? w ? d E1 E2 F]; subst; [constructor 1; assumption |].
  constructor 2; [assumption | assumption |]. destruct F as [c d P Sh]. constructor; [symmetry; exact P |]. intros k b a Hb Ha. apply (IH k a (mget_in _ _ _ Ha)), (Sh k a b Ha Hb).
Qed.
Lemma fields_agree c d : fields_shape c d -> (forall k a b, mget k (olist c) = Some a -> mget k (olist d) = Some b -> agree a b) -> forall p v, leaf_at c p v <-> leaf_at d p v.
Proof.
  intros [c1 d1 P Sh] K p v. split; apply leaves_agree; [exact P | intros k a b Ha Hb; split; [exact (Sh k a b Ha Hb) | exact (K k a b Ha Hb)] | symmetry; exact P |].
  intros k b a Hb Ha. pose proof (Sh k a b Ha Hb) as S1. destruct (K k a b Ha Hb) as [A1 A2]. split; [apply shape_sym, S1 |]. split; [intros q u; symmetry; apply A1 |].
  intros Eb. symmetry. apply A2. inversion S1; subst; [assumption | contradiction].
Qed.

Lemma all_apart n : apart n.
Proof.
  induction n as [v c IH] using fval_ind'. intros m key r s Lk Bn Bm Sh E. inversion Bn as [? ? Lv Bc]; subst. destruct m as [w d]. inversion Bm as [? ? Lw Bd]; subst.
  rewrite !ser_entry_eq, <- !app_assoc in E. apply app_inv_head in E. inversion Sh as [? ? ? ? Ec Ed | ? ? ? ? Nc Nd F]; subst.
  - rewrite Ec, Ed in E. cbn [app] in E. apply (f_equal (@tl _)) in E; cbn [tl] in E. apply framed_inj in E; [| assumption | assumption]. destruct E as [-> ->]. split; [| reflexivity].
    split; cbn [f_children f_value]; [| reflexivity]. intros p u. split; intros H; exfalso; destruct H as [f k u' c' Hk | f k u' c' q u Hk]; rewrite ?Ec, ?Ed in Hk; discriminate Hk.
  - assert (E' : ser_map (olist c) ++ r = ser_map (olist d) ++ s) by (destruct (olist c); [contradiction | destruct (olist d); [contradiction | apply (f_equal (@tl _)) in E; cbn [tl app] in E; exact E]]).
    destruct (maps_apart c d r s IH Bc Bd F E') as [K Er]. split; [| exact Er]. split; cbn [f_children f_value]; [exact (fields_agree c d F K) | intros X; contradiction].
Qed.

(** Two sets of fields of one shape with one identifier agree on every leaf, unless the hash collides on these two. *)
Theorem C16_same_shape_faithful : forall sha1 f g, fvals_bounded f -> fvals_bounded g -> fields_shape f g ->
  (sha1 (ser_map (olist f)) = sha1 (ser_map (olist g)) -> ser_map (olist f) = ser_map (olist g)) ->
  fvals_id sha1 f = fvals_id sha1 g -> forall p v, leaf_at f p v <-> leaf_at g p v.
Proof.
  intros sha1 f g Bf Bg Sh Nc E.
  assert (Es : ser_map (olist f) = ser_map (olist g)).
  { destruct Sh as [f g P _]. destruct (olist f) as [| e l] eqn:Ef.
    - apply Permutation_nil in P. destruct (olist g); [reflexivity | discriminate P].
    - assert (olist g <> []) by (intros X; rewrite X in P; apply Permutation_sym, Permutation_nil in P; discriminate P).
      destruct f as [[| e1 l1] |]; try discriminate Ef. destruct g as [[| e2 l2] |]; try (cbn in H; congruence). cbn [olist] in *. rewrite <- Ef in *. exact (Nc E). }
  destruct (maps_apart f g [] [] (fun k x _ => all_apart x) Bf Bg Sh (f_equal (fun x => x ++ []) Es)) as [K _]. exact (fields_agree f g Sh K).
Qed.
Print Assumptions C16_same_shape_faithful.

(** ** Exactly *)
(** The names in order of a walk, with the value at a leaf; how deep a name stands is not in it. *)
Definition ol_sorted (ps : list (bytes * list (bytes * option bytes))) : list (bytes * option bytes) :=
  concat (map (fun k => match mget k ps with Some s => s | None => [] end) (bsort (mkeys ps))).
Fixpoint outline_entry (key : bytes) (n : fval) : list (bytes * option bytes) :=
  let '(FVal v c) := n in
  match c with
  | None | Some [] => [(key, Some v)]
  | Some l => (key, None) ::
      ol_sorted ((fix go (l : list (bytes * fval)) : list (bytes * list (bytes * option bytes)) :=
                    match l with [] => [] | (k, x) :: l' => (k, outline_entry k x) :: go l' end) l)
  end.
Definition outline (l : list (bytes * fval)) : list (bytes * option bytes) := ol_sorted (map (fun e => (fst e, outline_entry (fst e) (snd e))) l).
Lemma keyed_outline l : outline l = concat (map (fun k => match mget k l with Some x => outline_entry k x | None => [] end) (bsort (mkeys l))).
Proof.
  unfold outline, ol_sorted. rewrite (mkeys_map (fun e => outline_entry (fst e) (snd e))). f_equal. apply map_ext. intros k. rewrite (mget_map outline_entry). destruct (mget k l); reflexivity.
Qed.
Lemma outline_entry_eq key v c : outline_entry key (FVal v c) = match olist c with [] => [(key, Some v)] | l => (key, None) :: outline l end.
Proof.
  destruct c as [[| e0 l] |]; [reflexivity | | reflexivity]. cbn [olist]. unfold outline.
  change (outline_entry key (FVal v (Some (e0 :: l)))) with
    ((key, @None bytes) :: ol_sorted ((fix go (l : list (bytes * fval)) : list (bytes * list (bytes * option bytes)) :=
                    match l with [] => [] | (k, x) :: l' => (k, outline_entry k x) :: go l' end) (e0 :: l))).
  do 2 f_equal. generalize (e0 :: l) as l'. induction l' as [| [k x] l' IH]; [reflexivity |]. cbn [map fst snd]. rewrite <- IH. reflexivity.
Qed.

Definition item (i : bytes * option bytes) : bytes := framed (fst i) ++ match snd i with Some v => ascii_of_N 0 :: framed v | None => [ascii_of_N 1] end.
Lemma concat_keys l (H : forall k x, In (k, x) l -> ser_entry k x = concat (map item (outline_entry k x))) : ser_map l = concat (map item (outline l)).
Proof.
  rewrite keyed_ser, keyed_outline, concat_map, map_map. induction (bsort (mkeys l)) as [| k ks IH]; [reflexivity |]. cbn [map concat]. rewrite concat_app, <- IH. f_equal.
  destruct (mget k l) as [x |] eqn:E; [apply H, mget_in, E | reflexivity].
Qed.
Lemma entry_items n : forall key, ser_entry key n = concat (map item (outline_entry key n)).
Proof.
  induction n as [v c IH] using fval_ind'. intros key. rewrite ser_entry_eq, outline_entry_eq. destruct (olist c) as [| e l] eqn:E; [cbn; rewrite app_nil_r; reflexivity |].
  rewrite (concat_keys (e :: l)) by (intros k x H; apply (IH k x H)). cbn [map concat]. change (item (key, None)) with (framed key ++ [ascii_of_N 1]). rewrite <- app_assoc. reflexivity.
Qed.

Definition item_ok (i : bytes * option bytes) : Prop := (blen (fst i) < 2 ^ 64)%N /\ match snd i with Some v => (blen v < 2 ^ 64)%N | None => True end.
Lemma items_inj o : forall o', Forall item_ok o -> Forall item_ok o' -> concat (map item o) = concat (map item o') -> o = o'.
Proof.
  assert (Hne : forall i r, item i ++ r <> []).
  { intros i r E. apply (f_equal (@length _)) in E. unfold item, framed in E. rewrite !app_length, le64_length in E. cbn in E. lia. }
  induction o as [| [k v] o IH]; intros [| [k' v'] o'] F F' E; cbn [map concat] in E; [reflexivity | symmetry in E; destruct (Hne _ _ E) | destruct (Hne _ _ E) |].
  inversion F as [| ? ? [F1 F2] F3]; subst. inversion F' as [| ? ? [F1' F2'] F3']; subst. unfold item at 1 3 in E. cbn [fst snd] in *. rewrite <- !app_assoc in E.
  apply framed_inj in E; [| assumption | assumption]. destruct E as [<- E].
  destruct v as [v |], v' as [v' |]; cbn [app] in E; try (exfalso; apply (f_equal (hd zero)) in E; cbn [hd] in E; discriminate E).
  - apply (f_equal (@tl _)) in E; cbn [tl] in E. apply framed_inj in E; [| assumption | assumption]. destruct E as [<- E]. f_equal. apply IH; assumption.
  - apply (f_equal (@tl _)) in E; cbn [tl] in E. f_equal. apply IH; assumption.
Qed.
Lemma outline_map_ok l : (forall k x, In (k, x) l -> Forall item_ok (outline_entry k x)) -> Forall item_ok (outline l).
Proof.
  intros H. rewrite keyed_outline. apply Forall_concat. rewrite Forall_map, Forall_forall. intros k _. destruct (mget k l) as [x |] eqn:E; [apply H, mget_in, E | constructor].
Qed.
Lemma outline_ok n : forall key, (blen key < 2 ^ 64)%N -> bounded n -> Forall item_ok (outline_entry key n).
Proof.
  induction n as [v c IH] using fval_ind'. intros key Lk Bn. inversion Bn as [? ? Lv Bc]; subst. rewrite outline_entry_eq.
  destruct (olist c) as [| e l] eqn:E; [constructor; [split; assumption | constructor] |]. constructor; [split; [assumption | exact I] |].
  apply outline_map_ok. intros k x H. destruct (Bc k x H). apply (IH k x H); assumption.
Qed.

(** What is hashed for two sets of fields is the same exactly when the walks agree, name by name and leaf by leaf: nothing but the depth of the names and
    the values of inner nodes is missing from an identifier. *)
Theorem C16_identifier_exact : forall f g, fvals_bounded f -> fvals_bounded g ->
  (ser_map (olist f) = ser_map (olist g) <-> outline (olist f) = outline (olist g)).
Proof.
  intros f g Bf Bg. rewrite !(concat_keys _ (fun k x _ => entry_items x k)). split; [| intros ->; reflexivity].
  apply items_inj; apply outline_map_ok; intros k x H; [destruct (Bf k x H) | destruct (Bg k x H)]; apply outline_ok; assumption.
Qed.
Print Assumptions C16_identifier_exact.

Ltac in_cases := let H := fresh in intros ? ? H; cbn in H; repeat (destruct H as [H | H]; [injection H as <- <- |]); try (destruct H).
(** Two trees of one shape, in different orders, that differ in a leaf below; and the walk of one. *)
Example C16_shape_example :
  let t x := Some [(B "pos", FVal (B "p") (Some [(B "x", FVal x None); (B "y", FVal (B "2") None)])); (B "id", FVal (B "7") None)] in
  let u := Some [(B "id", FVal (B "7") None); (B "pos", FVal [] (Some [(B "y", FVal (B "2") (Some [])); (B "x", FVal (B "1") None)]))] in
  fvals_bounded (t (B "1")) /\ fvals_bounded u /\ fields_shape (t (B "1")) u /\ fields_shape (t (B "3")) u /\
  fvals_id (fun b => b) (t (B "1")) = fvals_id (fun b => b) u /\ fvals_id (fun b => b) (t (B "3")) <> fvals_id (fun b => b) u /\
  outline (olist u) = [(B "id", Some (B "7")); (B "pos", None); (B "x", Some (B "1")); (B "y", Some (B "2"))].
Proof.
  assert (Bl : forall v (c : fvals), (blen v < 2 ^ 64)%N -> olist c = [] -> bounded (FVal v c)) by (intros v c L E; constructor; [exact L | rewrite E; intros ? ? []]).
  assert (Sh : forall x, fields_shape (Some [(B "pos", FVal (B "p") (Some [(B "x", FVal x None); (B "y", FVal (B "2") None)])); (B "id", FVal (B "7") None)])
    (Some [(B "id", FVal (B "7") None); (B "pos", FVal [] (Some [(B "y", FVal (B "2") (Some [])); (B "x", FVal (B "1") None)]))])).
  { intros x. constructor; [apply perm_swap |]. intros k a b Ha Hb. apply mget_in in Ha. cbn in Ha. destruct Ha as [Ha | [Ha | []]]; injection Ha as <- <-; vm_compute in Hb; injection Hb as <-.
    - constructor 2; [discriminate | discriminate |]. constructor; [apply perm_swap |]. intros k a b Ha Hb. apply mget_in in Ha. cbn in Ha.
      destruct Ha as [Ha | [Ha | []]]; injection Ha as <- <-; vm_compute in Hb; injection Hb as <-; constructor 1; reflexivity.
    - constructor 1; reflexivity. }
  cbv zeta. split; [| split; [| split; [apply Sh | split; [apply Sh | split; [reflexivity | split; [vm_compute; discriminate | reflexivity]]]]]].
  - in_cases; (split; [reflexivity |]); [constructor; [reflexivity |]; in_cases; (split; [reflexivity | apply Bl; reflexivity]) | apply Bl; reflexivity].
  - in_cases; (split; [reflexivity |]); [apply Bl; reflexivity | constructor; [reflexivity |]; in_cases; (split; [reflexivity | apply Bl; reflexivity])].
Qed.
