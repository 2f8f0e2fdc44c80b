(** C40 and C41: rendering a difference, comparing results before and after. *)
From Coq Require Import Permutation.
From Verif Require Import Base Maps TypesModel TypesProofs StableModel StableProps StackProps CompareModel.

Section Cmp.
Variable quote : bytes -> bytes.
Variable unified : bytes -> bytes -> option bytes.
Notation diff := (diff_values quote unified).

(** ** C40 *)
(** The text is empty exactly for equal values. *)
Theorem C40_empty_iff_equal : forall v1 v2, diff v1 v2 = [] <-> v1 = v2.
Proof.
  intros v1 v2. unfold diff_values. destruct (beq_spec v1 v2) as [E|N]; [tauto|]. split; [|contradiction].
  destruct (has_prefix hash_prefix v1); destruct (has_prefix hash_prefix v2); try (unfold too_large; cbn [B list_ascii_of_string app]; discriminate).
  - intros H. apply app_eq_nil in H as [_ H]. discriminate.
  - destruct (unified v1 v2) as [[|c t]|]; discriminate.
Qed.

(** Values given by their digest: at most 54 bytes are shown for two, and the other
    side is quoted in full; the end of each digest is what is shown. *)
Theorem C40_digests_bounded : forall v1 v2, v1 <> v2 ->
  (has_prefix hash_prefix v1 = true -> has_prefix hash_prefix v2 = true ->
     (length (diff v1 v2) <= 54)%nat /\
     exists a b x y, v1 = a ++ x /\ v2 = b ++ y /\ length x = 4%nat /\ length y = 4%nat /\
       diff v1 v2 = B "<VALUE TOO LARGE ..." ++ x ++ B "> != <VALUE TOO LARGE ..." ++ y ++ B ">") /\
  (has_prefix hash_prefix v1 = true -> has_prefix hash_prefix v2 = false -> (length (diff v1 v2) <= 29 + length (quote v2))%nat) /\
  (has_prefix hash_prefix v1 = false -> has_prefix hash_prefix v2 = true -> (length (diff v1 v2) <= 29 + length (quote v1))%nat) /\
  (has_prefix hash_prefix v1 = false -> has_prefix hash_prefix v2 = false -> forall t, unified v1 v2 = Some t -> t <> [] -> diff v1 v2 = t) /\
  (has_prefix hash_prefix v1 = false -> has_prefix hash_prefix v2 = false -> unified v1 v2 = None \/ unified v1 v2 = Some [] ->
     length (diff v1 v2) = (10 + length v1 + length v2)%nat).
Proof.
  intros v1 v2 N. unfold diff_values. destruct (beq_spec v1 v2) as [E|_]; [contradiction|].
  assert (forall s, (length (last4 s) <= 4)%nat) as L4.
  { intros s. unfold last4. destruct (Nat.ltb_spec (length s) 4); [cbn; lia|]. rewrite skipn_length. lia. }
  assert (forall s, length (too_large s) = 21 + length (last4 s))%nat as TL by (intros s; unfold too_large; rewrite !app_length; cbn [B list_ascii_of_string length]; lia).
  assert (forall s, has_prefix hash_prefix s = true -> exists a, s = a ++ last4 s /\ length (last4 s) = 4%nat) as H4.
  { intros s H. apply has_prefix_spec in H as [r ->]. assert (6 <= length (hash_prefix ++ r))%nat as L by (rewrite app_length; cbn; lia).
    exists (firstn (length (hash_prefix ++ r) - 4) (hash_prefix ++ r)). unfold last4. destruct (Nat.ltb_spec (length (hash_prefix ++ r)) 4); [lia|].
    split; [symmetry; apply firstn_skipn|]. rewrite skipn_length. lia. }
  split; [|split; [|split; [|split]]]; intros H1 H2; rewrite H1, H2.
  - split; [rewrite !app_length, !TL; specialize (L4 v1) as A; specialize (L4 v2) as C; cbn [B list_ascii_of_string length]; lia|].
    destruct (H4 v1 H1) as (a & Ea & La). destruct (H4 v2 H2) as (b & Eb & Lb). exists a, b, (last4 v1), (last4 v2).
    repeat (split; [assumption|]). unfold too_large. rewrite <- !app_assoc. reflexivity.
  - rewrite !app_length, TL. specialize (L4 v1). cbn [B list_ascii_of_string length]. lia.
  - rewrite !app_length, TL. specialize (L4 v2). cbn [B list_ascii_of_string length]. lia.
  - intros t -> Ht. destruct t; [contradiction|reflexivity].
  - intros [-> | ->]; cbn [app B list_ascii_of_string length]; rewrite !app_length; cbn [app length]; rewrite !app_length; cbn [length]; lia.
Qed.
End Cmp.
Print Assumptions C40_empty_iff_equal.
Print Assumptions C40_digests_bounded.

(** ** C41 *)
Section Match.
Variable key : cframe -> bytes.

(** How many of the first [i] calls of [l] have the stack key [k]. *)
Definition before (l : list cframe) (i : nat) (k : bytes) : nat := count_occ bytes_eq_dec (map key (firstn i l)) k.
(** Call [i] before and call [j] after are matched: the same project stack, and the same
    number of earlier calls with that stack. *)
Definition matched (pre post : list cframe) (i j : nat) : Prop :=
  exists f g, nth_error pre i = Some f /\ nth_error post j = Some g /\ key f = key g /\ before pre i (key f) = before post j (key g).
(** The call matched to call [i], if any. *)
Definition partner (post pre : list cframe) (i : nat) (f : cframe) : option cframe :=
  nth_error (with_key key (key f) post) (before pre i (key f)).

Lemma nth_with_key k g : forall l n, nth_error (with_key key k l) n = Some g <->
  exists j, nth_error l j = Some g /\ key g = k /\ before l j k = n.
Proof.
  induction l as [|x l IH]; intros n; cbn [with_key filter].
  - split; [destruct n; discriminate|]. intros (j & H & _). destruct j; discriminate.
  - fold (with_key key k l). destruct (beq_spec (key x) k) as [E|N].
    + destruct n as [|n]; cbn [nth_error].
      * split; [intros [= <-]; exists 0%nat; repeat split; exact E|]. intros (j & H & Hk & Hb). destruct j as [|j]; [exact H|].
        unfold before in Hb. cbn in Hb. rewrite E in Hb. destruct (bytes_eq_dec k k); [discriminate|contradiction].
      * rewrite IH. split; intros (j & H & Hk & Hb).
        { exists (S j). split; [exact H|]. split; [exact Hk|]. unfold before in *. cbn. rewrite E. destruct (bytes_eq_dec k k); [|contradiction]. rewrite Hb. reflexivity. }
        { destruct j as [|j]; [discriminate|]. exists j. split; [exact H|]. split; [exact Hk|]. unfold before in *. cbn in Hb. rewrite E in Hb. destruct (bytes_eq_dec k k); [|contradiction]. congruence. }
    + rewrite IH. split; intros (j & H & Hk & Hb).
      * exists (S j). split; [exact H|]. split; [exact Hk|]. unfold before in *. cbn. destruct (bytes_eq_dec (key x) k); [contradiction|exact Hb].
      * destruct j as [|j]; [injection H as <-; contradiction|]. exists j. split; [exact H|]. split; [exact Hk|]. unfold before in *. cbn in Hb. destruct (bytes_eq_dec (key x) k); [contradiction|exact Hb].
Qed.

Lemma partner_matched pre post i f g : nth_error pre i = Some f ->
  (partner post pre i f = Some g <-> exists j, matched pre post i j /\ nth_error post j = Some g).
Proof.
  intros Hi. unfold partner. rewrite nth_with_key. split.
  - intros (j & H & Hk & Hb). exists j. split; [|exact H]. exists f, g. rewrite Hk. auto.
  - intros (j & (f' & g' & Hf & Hg & Hk & Hb) & H). exists j. rewrite Hi in Hf. injection Hf as <-. rewrite H in Hg. injection Hg as <-.
    split; [exact H|]. split; [symmetry; exact Hk|]. rewrite Hb, Hk. reflexivity.
Qed.

Lemma partners_spec post : forall pre u, partners key post u pre =
  map (fun i => let f := nth i pre (CFrame None None 0) in (f, nth_error (with_key key (key f) post) (used_at u (key f) + before pre i (key f)))) (seq 0 (length pre)).
Proof.
  induction pre as [|f pre IH]; intros u; [reflexivity|]. cbn [partners length seq map nth]. f_equal.
  - unfold before. cbn. rewrite Nat.add_0_r. reflexivity.
  - rewrite IH, <- seq_shift, map_map. apply map_ext. intros i. cbn [nth]. set (h := nth i pre _). f_equal. f_equal.
    rewrite used_at_set. unfold before. cbn [firstn map count_occ]. destruct (beq_spec (key f) (key h)) as [E|N]; destruct (bytes_eq_dec (key f) (key h)); try contradiction; try (rewrite E; lia); lia.
Qed.
Lemma partners_nil post pre : partners key post [] pre =
  map (fun i => let f := nth i pre (CFrame None None 0) in (f, partner post pre i f)) (seq 0 (length pre)).
Proof. rewrite partners_spec. apply map_ext. intros i. cbn. reflexivity. Qed.

(** Matching is one to one. *)
Theorem C41_matching_one_to_one : forall pre post i j i' j', matched pre post i j -> matched pre post i' j' -> (i = i' <-> j = j').
Proof.
  assert (forall l k i j f g, nth_error l i = Some f -> nth_error l j = Some g -> key f = k -> key g = k -> before l i k = before l j k -> i = j) as U.
  { induction l as [|x l IH]; intros k i j f g Hi Hj Ef Eg Hb; [destruct i; discriminate|]. unfold before in Hb. destruct i as [|i]; destruct j as [|j]; cbn in *.
    - reflexivity.
    - injection Hi as ->. rewrite Ef in Hb. destruct (bytes_eq_dec k k); [discriminate|contradiction].
    - injection Hj as ->. rewrite Eg in Hb. destruct (bytes_eq_dec k k); [discriminate|contradiction].
    - f_equal. apply (IH k i j f g Hi Hj Ef Eg). unfold before. destruct (bytes_eq_dec (key x) k); lia. }
  intros pre post i j i' j' (f & g & H1 & H2 & H3 & H4) (f' & g' & G1 & G2 & G3 & G4). split; intros <-.
  - rewrite H1 in G1. injection G1 as <-. rewrite H3 in H4. rewrite G3 in G4. apply (U post (key g) j j' g g' H2 G2); congruence.
  - rewrite H2 in G2. injection G2 as <-. apply (U pre (key f) i i' f f' H1 G1); congruence.
Qed.
End Match.

Section Fields.
Variable quote : bytes -> bytes.
Variable unified : bytes -> bytes -> option bytes.
Variable key : cframe -> bytes.
Variable mult : N.
Notation diff := (diff_values quote unified).
Notation cmp_frames' := (cmp_frames quote unified key mult).
Notation cmp_result' := (cmp_result quote unified key mult).

(** A field of a call, as flattened. *)
Definition field_is (f : cframe) (name v : bytes) : Prop := mget name (flatten (cf_fields f)) = Some v.
(** The number of fields of [f] that [g] has with the same value. *)
Definition agreeing (f g : cframe) : nat :=
  length (filter (fun n => match mget n (flatten (cf_fields g)) with Some w => match mget n (flatten (cf_fields f)) with Some v => beq v w | None => false end | None => false end) (mkeys (flatten (cf_fields f)))).
Definition fields_of (f : cframe) : nat := length (flatten (cf_fields f)).

Lemma flatten_nodup f : NoDup (mkeys (flatten f)).
Proof. apply fold_mset_wf. constructor. Qed.

Lemma cmp_field_fold pre post : forall names st, NoDup names ->
  let st' := fold_left (cmp_field quote unified pre post) names st in
  (forall n, mget n (cs_fields st') = match (if in_dec bytes_eq_dec n names then mget n pre else None), mget n post with
     | Some v, Some w => if beq v w then mget n (cs_fields st) else Some (diff v w)
     | _, _ => mget n (cs_fields st) end) /\
  cs_same st' = (cs_same st + N.of_nat (length (filter (fun n => match mget n post with Some w => match mget n pre with Some v => beq v w | None => false end | None => false end) names)))%N /\
  (incl names (mkeys pre) -> cs_same st' + cs_diff st' = cs_same st + cs_diff st + N.of_nat (length names))%N /\
  cs_change st' = cs_change st /\ cs_last_pre st' = cs_last_pre st /\ cs_last_post st' = cs_last_post st.
Proof.
  induction names as [|n names IH]; intros st ND; cbn [fold_left].
  - cbn. split; [intros n; reflexivity|]. split; [lia|]. split; [lia|]. auto.
  - inversion ND as [|? ? Hn ND']; subst. specialize (IH (cmp_field quote unified pre post st n) ND'). cbn zeta in IH. destruct IH as (I1 & I2 & I3 & I4 & I5 & I6).
    set (st' := fold_left (cmp_field quote unified pre post) names (cmp_field quote unified pre post st n)) in *.
    assert (forall m, mget m (cs_fields (cmp_field quote unified pre post st n)) = match (if beq m n then mget n pre else None), mget n post with Some v, Some w => if beq v w then mget m (cs_fields st) else Some (diff v w) | _, _ => mget m (cs_fields st) end) as F.
    { intros m. unfold cmp_field. destruct (mget n pre) as [v|]; [|destruct (beq m n); destruct (mget n post); reflexivity]. destruct (mget n post) as [w|]; [|destruct (beq m n); reflexivity].
      assert (mget m (mset n (diff v w) (cs_fields st)) = if beq m n then Some (diff v w) else mget m (cs_fields st)) as Q by apply mget_mset.
      destruct (beq m n); destruct (beq v w); cbn; auto. }
    split; [|split; [|split; [|split; [|split]]]].
    + intros m. rewrite I1, F. destruct (in_dec bytes_eq_dec m (n :: names)) as [Hin|Hin]; destruct (in_dec bytes_eq_dec m names) as [Hi|Hi].
      * destruct (beq_spec m n) as [->|Nm]; [contradiction|]. destruct (mget m pre), (mget m post); reflexivity.
      * destruct Hin as [<-|Hin]; [|contradiction]. rewrite beq_refl. reflexivity.
      * exfalso. apply Hin. right. exact Hi.
      * destruct (beq_spec m n) as [->|Nm]; [exfalso; apply Hin; left; reflexivity|]. destruct (mget n post); reflexivity.
    + rewrite I2. cbn [filter]. unfold cmp_field. destruct (mget n pre) as [v|]; destruct (mget n post) as [w|]; cbn [cs_same]; try reflexivity. destruct (beq v w); cbn [length cs_same]; lia.
    + intros Hi. assert (incl names (mkeys pre)) as Hi' by (intros z Hz; apply Hi; right; exact Hz). specialize (I3 Hi'). rewrite I3.
      assert (mget n pre <> None) as Hg by (apply mget_keys, Hi; left; reflexivity). unfold cmp_field. destruct (mget n pre) as [v|]; [|contradiction].
      destruct (mget n post) as [w|]; [destruct (beq v w)|]; cbn [cs_same cs_diff length]; lia.
    + rewrite I4. unfold cmp_field. destruct (mget n pre); [|reflexivity]. destruct (mget n post) as [w|]; [destruct (beq _ w)|]; reflexivity.
    + rewrite I5. unfold cmp_field. destruct (mget n pre); [|reflexivity]. destruct (mget n post) as [w|]; [destruct (beq _ w)|]; reflexivity.
    + rewrite I6. unfold cmp_field. destruct (mget n pre); [|reflexivity]. destruct (mget n post) as [w|]; [destruct (beq _ w)|]; reflexivity.
Qed.

(** One pair of calls. *)
Lemma cmp_frame_spec st f og :
  let st' := cmp_frame quote unified mult st (f, og) in
  (forall n, mget n (cs_fields st') = match og with None => mget n (cs_fields st) | Some g =>
     match mget n (flatten (cf_fields f)), mget n (flatten (cf_fields g)) with
     | Some v, Some w => if beq v w then mget n (cs_fields st) else Some (diff v w)
     | _, _ => mget n (cs_fields st) end end) /\
  cs_same st' = (cs_same st + match og with None => 0 | Some g => N.of_nat (agreeing f g) end)%N /\
  (cs_same st' + cs_diff st' = cs_same st + cs_diff st + N.of_nat (fields_of f))%N.
Proof.
  destruct og as [g|]; cbn [cmp_frame snd fst].
  - pose proof (cmp_field_fold (flatten (cf_fields f)) (flatten (cf_fields g)) (bsort (mkeys (flatten (cf_fields f)))) st (bsort_nodup _ (flatten_nodup _))) as H.
    cbn zeta in H. destruct H as (I1 & I2 & I3 & _). cbn [cs_fields cs_same cs_diff]. split; [|split].
    + intros n. rewrite I1. destruct (in_dec _ n _) as [Hi|Hi]; [reflexivity|]. destruct (mget n (flatten (cf_fields f))) eqn:E; [|reflexivity].
      exfalso. apply Hi, bsort_in, mget_keys. congruence.
    + rewrite I2. f_equal. f_equal. apply perm_filter_length, bsort_perm.
    + rewrite I3 by (intros z Hz; apply bsort_in; exact Hz). unfold fields_of. f_equal. f_equal. rewrite (Permutation_length (bsort_perm _)). unfold mkeys. apply map_length.
  - cbn. split; [reflexivity|]. split; [lia|]. unfold fields_of. lia.
Qed.

Definition sumN (l : list nat) : N := fold_right (fun x n => (N.of_nat x + n)%N) 0%N l.

Lemma cmp_frames_fold : forall ps st,
  let st' := fold_left (cmp_frame quote unified mult) ps st in
  cs_same st' = (cs_same st + sumN (map (fun p => match snd p with None => O | Some g => agreeing (fst p) g end) ps))%N /\
  (cs_same st' + cs_diff st' = cs_same st + cs_diff st + sumN (map (fun p => fields_of (fst p)) ps))%N.
Proof.
  induction ps as [|[f og] ps IH]; intros st; cbn [fold_left map sumN fold_right]; [lia|].
  specialize (IH (cmp_frame quote unified mult st (f, og))). cbn zeta in IH. destruct IH as (I2 & I3).
  pose proof (cmp_frame_spec st f og) as H. cbn zeta in H. destruct H as (_ & H2 & H3). unfold sumN in *. cbn [fst snd].
  split; [rewrite I2, H2; destruct og; lia|rewrite I3, H3; lia].
Qed.

(** The text kept for a field: that of the last pair that differs in it. *)
Lemma cmp_frames_fields : forall ps st n t,
  mget n (cs_fields (fold_left (cmp_frame quote unified mult) ps st)) = Some t <->
  (exists a f g b v w, ps = a ++ (f, Some g) :: b /\ field_is f n v /\ field_is g n w /\ v <> w /\ t = diff v w /\
     forall f' g', In (f', Some g') b -> forall v' w', field_is f' n v' -> field_is g' n w' -> v' = w') \/
  (mget n (cs_fields st) = Some t /\ forall f' g', In (f', Some g') ps -> forall v' w', field_is f' n v' -> field_is g' n w' -> v' = w').
Proof.
  induction ps as [|[f og] ps IH]; intros st n t; cbn [fold_left].
  - split; [intros H; right; split; [exact H|intros ? ? []]|]. intros [(a & ? & ? & ? & ? & ? & H & _)|[H _]]; [destruct a; discriminate|exact H].
  - rewrite IH. pose proof (cmp_frame_spec st f og) as (H1 & _). specialize (H1 n). split.
    + intros [(a & f1 & g1 & b & v & w & -> & R)|[Hs Hall]].
      * left. exists ((f, og) :: a), f1, g1, b, v, w. split; [reflexivity|exact R].
      * rewrite H1 in Hs. destruct og as [g|].
        -- destruct (mget n (flatten (cf_fields f))) as [v|] eqn:Ev; [destruct (mget n (flatten (cf_fields g))) as [w|] eqn:Ew; [destruct (beq_spec v w) as [E|N]|]|].
           ++ right. split; [exact Hs|]. intros f' g' [X|X]; [injection X as <- <-; intros v' w' A C; unfold field_is in *; congruence|exact (Hall f' g' X)].
           ++ left. injection Hs as <-. exists [], f, g, ps, v, w. repeat split; auto.
           ++ right. split; [exact Hs|]. intros f' g' [X|X]; [injection X as <- <-; intros v' w' A C; unfold field_is in *; congruence|exact (Hall f' g' X)].
           ++ right. split; [exact Hs|]. intros f' g' [X|X]; [injection X as <- <-; intros v' w' A C; unfold field_is in *; congruence|exact (Hall f' g' X)].
        -- right. split; [exact Hs|]. intros f' g' [X|X]; [discriminate|exact (Hall f' g' X)].
    + intros [(a & f1 & g1 & b & v & w & E & Hv & Hw & Hne & Ht & Hall)|[Hs Hall]].
      * destruct a as [|p a]; [|left; injection E as _ ->; exists a, f1, g1, b, v, w; auto 10].
        injection E as -> -> ->. right. split; [|exact Hall]. rewrite H1. unfold field_is in Hv, Hw. rewrite Hv, Hw. destruct (beq_spec v w); [contradiction|]. rewrite Ht. reflexivity.
      * right. split; [|intros f' g' X; apply Hall; right; exact X]. rewrite H1. destruct og as [g|]; [|exact Hs].
        destruct (mget n (flatten (cf_fields f))) as [v|] eqn:Ev; [|exact Hs]. destruct (mget n (flatten (cf_fields g))) as [w|] eqn:Ew; [|exact Hs].
        rewrite (Hall f g (or_introl eq_refl) v w Ev Ew), beq_refl. exact Hs.
Qed.

(** The frames a result has for a caller. *)
Definition frames_of (r : tresult) (c : bytes) : list cframe := match mget c (olist (tr_callers r)) with Some l => l | None => [] end.

(** Call [i] of caller [c] before is matched to call [j] after, with the values [v] and
    [w] of a field. *)
Definition pair_values (pre post : tresult) (c name : bytes) (i j : nat) (v w : bytes) : Prop :=
  exists f g, nth_error (frames_of pre c) i = Some f /\ nth_error (frames_of post c) j = Some g /\ matched key (frames_of pre c) (frames_of post c) i j /\
    field_is f name v /\ field_is g name w.

Lemma nth_partners pre post i : nth_error (partners key post [] pre) i =
  match nth_error pre i with Some f => Some (f, partner key post pre i f) | None => None end.
Proof.
  rewrite partners_nil. destruct (nth_error pre i) as [f|] eqn:E.
  - assert (i < length pre)%nat as L by (apply nth_error_Some; congruence). erewrite map_nth_error; [|apply nth_error_nth' with (d := 0%nat); rewrite seq_length; exact L].
    cbn zeta. rewrite seq_nth by exact L. cbn [Nat.add]. rewrite (nth_error_nth pre i _ E). reflexivity.
  - apply nth_error_None in E. apply nth_error_None. rewrite map_length, seq_length. exact E.
Qed.

Lemma cmp_frames_text pre post n t : mget n (cs_fields (cmp_frames' pre post)) = Some t <->
  exists i j f g v w, nth_error pre i = Some f /\ nth_error post j = Some g /\ matched key pre post i j /\ field_is f n v /\ field_is g n w /\ v <> w /\ t = diff v w /\
    forall i' j' f' g' v' w', (i < i')%nat -> nth_error pre i' = Some f' -> nth_error post j' = Some g' -> matched key pre post i' j' -> field_is f' n v' -> field_is g' n w' -> v' = w'.
Proof.
  unfold cmp_frames. rewrite cmp_frames_fields. split.
  - intros [(a & f & g & b & v & w & E & Hv & Hw & Hne & Ht & Hall)|[H _]]; [|discriminate].
    assert (nth_error (partners key post [] pre) (length a) = Some (f, Some g)) as Hn by (rewrite E, nth_error_app2, Nat.sub_diag; [reflexivity|lia]).
    rewrite nth_partners in Hn. destruct (nth_error pre (length a)) as [f0|] eqn:Ef; [|discriminate]. assert (f0 = f) as -> by congruence. assert (partner key post pre (length a) f = Some g) as Hp by congruence.
    apply (partner_matched key pre post _ f g Ef) in Hp as (j & Hm & Hj). exists (length a), j, f, g, v, w. repeat (split; [assumption|]).
    intros i' j' f' g' v' w' Hlt Hf' Hg' Hm' Hv' Hw'. apply (Hall f' g'); [|exact Hv'|exact Hw'].
    assert (nth_error (partners key post [] pre) i' = Some (f', Some g')) as Hn'.
    { rewrite nth_partners, Hf'. f_equal. f_equal. apply (partner_matched key pre post i' f' g' Hf'). exists j'. split; assumption. }
    rewrite E in Hn'. rewrite nth_error_app2 in Hn' by lia. destruct (i' - length a)%nat as [|k] eqn:Ek; [lia|]. cbn in Hn'. eapply nth_error_In; exact Hn'.
  - intros (i & j & f & g & v & w & Hf & Hg & Hm & Hv & Hw & Hne & Ht & Hall). left.
    assert (nth_error (partners key post [] pre) i = Some (f, Some g)) as Hn.
    { rewrite nth_partners, Hf. f_equal. f_equal. apply (partner_matched key pre post i f g Hf). exists j. split; assumption. }
    apply nth_error_split in Hn as (a & b & E & La). exists a, f, g, b, v, w. repeat (split; [assumption|]).
    intros f' g' Hin v' w' Hv' Hw'. apply In_nth_error in Hin as (k & Hk).
    assert (nth_error (partners key post [] pre) (i + S k) = Some (f', Some g')) as Hn' by (rewrite E, nth_error_app2 by lia; replace (i + S k - length a)%nat with (S k) by lia; exact Hk).
    rewrite nth_partners in Hn'. destruct (nth_error pre (i + S k)) as [f0|] eqn:Ef; [|discriminate]. assert (f0 = f') as -> by congruence.
    assert (partner key post pre (i + S k) f' = Some g') as Hp by congruence. apply (partner_matched key pre post _ f' g' Ef) in Hp as (j' & Hm' & Hj').
    apply (Hall (i + S k)%nat j' f' g'); auto. lia.
Qed.

Lemma mget_collect {V} (h : bytes -> option V) c : forall cs : list bytes,
  mget c (flat_map (fun x => match h x with Some v => [(x, v)] | None => [] end) cs) = if in_dec bytes_eq_dec c cs then h c else None.
Proof.
  induction cs as [|x cs IH]; [reflexivity|]. cbn [flat_map]. destruct (in_dec bytes_eq_dec c (x :: cs)) as [Hi|Hi]; destruct (in_dec bytes_eq_dec c cs) as [Hj|Hj].
  - destruct (h x) as [v|] eqn:E; cbn [app mget]; [|exact IH]. destruct (beq_spec c x) as [->|N]; [symmetry; exact E|exact IH].
  - destruct Hi as [<-|Hi]; [|contradiction]. destruct (h x) as [v|] eqn:E; cbn [app mget]; [rewrite beq_refl; reflexivity|exact IH].
  - exfalso. apply Hi. right. exact Hj.
  - destruct (h x) as [v|] eqn:E; cbn [app mget]; [|exact IH]. destruct (beq_spec c x) as [->|N]; [exfalso; apply Hi; left; reflexivity|exact IH].
Qed.

Definition state_of (pre post : tresult) (c : bytes) : cstate := cmp_frames' (frames_of pre c) (frames_of post c).
Lemma result_fields pre post c : mget c (olist (rp_fields (cmp_result' pre post))) =
  if in_dec bytes_eq_dec c (mkeys (olist (tr_callers pre))) then match cs_fields (state_of pre post c) with [] => None | l => Some l end else None.
Proof.
  cbn [cmp_result rp_fields olist]. rewrite flat_map_concat_map, map_map, <- flat_map_concat_map.
  pose proof (mget_collect (fun c => match cs_fields (state_of pre post c) with [] => None | l => Some l end) c (bsort (mkeys (olist (tr_callers pre))))) as H.
  assert (forall x, match cs_fields (state_of pre post x) with [] => [] | l => [(x, l)] end = match (match cs_fields (state_of pre post x) with [] => None | l => Some l end) with Some v => [(x, v)] | None => [] end) as E by (intros x; destruct (cs_fields (state_of pre post x)); reflexivity).
  cbn [fst snd]. match type of H with ?L = _ => transitivity L; [apply (f_equal (mget c)); apply flat_map_ext; exact E|] end. rewrite H. destruct (in_dec _ c (bsort _)) as [X|X]; destruct (in_dec _ c (mkeys _)) as [Y|Y]; try reflexivity; exfalso; [apply Y, bsort_in, X|apply X, bsort_in, Y].
Qed.
Lemma result_times pre post c : mget c (olist (rp_times (cmp_result' pre post))) =
  if in_dec bytes_eq_dec c (mkeys (olist (tr_callers pre))) then (if (tc_diff (cs_change (state_of pre post c)) =? 0)%Z then None else Some (cs_change (state_of pre post c))) else None.
Proof.
  cbn [cmp_result rp_times olist]. rewrite flat_map_concat_map, map_map, <- flat_map_concat_map.
  pose proof (mget_collect (fun c => if (tc_diff (cs_change (state_of pre post c)) =? 0)%Z then None else Some (cs_change (state_of pre post c))) c (bsort (mkeys (olist (tr_callers pre))))) as H.
  assert (forall x, (if (tc_diff (cs_change (state_of pre post x)) =? 0)%Z then [] else [(x, cs_change (state_of pre post x))]) = match (if (tc_diff (cs_change (state_of pre post x)) =? 0)%Z then None else Some (cs_change (state_of pre post x))) with Some v => [(x, v)] | None => [] end) as E by (intros x; destruct (_ =? 0)%Z; reflexivity).
  cbn [fst snd]. match type of H with ?L = _ => transitivity L; [apply (f_equal (mget c)); apply flat_map_ext; exact E|] end.
  rewrite H. destruct (in_dec _ c (bsort _)) as [X|X]; destruct (in_dec _ c (mkeys _)) as [Y|Y]; try reflexivity; exfalso; [apply Y, bsort_in, X|apply X, bsort_in, Y].
Qed.

(** A difference is reported for a field of a caller exactly when some matched pair of
    calls has the field on both sides with different values; the text is that of the
    last such pair. *)
Theorem C41_field_changes_exact : forall pre post c name text,
  (exists l, mget c (olist (rp_fields (cmp_result' pre post))) = Some l /\ mget name l = Some text) <->
  exists i j v w, pair_values pre post c name i j v w /\ v <> w /\ text = diff v w /\
    forall i' j' v' w', (i < i')%nat -> pair_values pre post c name i' j' v' w' -> v' = w'.
Proof.
  intros pre post c name text. rewrite result_fields.
  transitivity (mget name (cs_fields (state_of pre post c)) = Some text).
  - destruct (in_dec bytes_eq_dec c (mkeys (olist (tr_callers pre)))) as [Hi|Hi].
    + destruct (cs_fields (state_of pre post c)) as [|e l]; split.
      * intros (x & X & _). discriminate.
      * discriminate.
      * intros (x & X & Y). injection X as <-. exact Y.
      * intros Y. eexists. split; [reflexivity|exact Y].
    + split; [intros (x & X & _); discriminate|]. intros X. exfalso. unfold state_of, frames_of in X. assert (mget c (olist (tr_callers pre)) = None) as E.
      { destruct (mget c (olist (tr_callers pre))) eqn:E; [exfalso; apply Hi, mget_keys; congruence|reflexivity]. }
      rewrite E in X. discriminate.
  - unfold state_of. rewrite cmp_frames_text. unfold pair_values. split.
    + intros (i & j & f & g & v & w & Hf & Hg & Hm & Hv & Hw & Hne & Ht & Hall). exists i, j, v, w. split; [exists f, g; auto|]. split; [exact Hne|]. split; [exact Ht|].
      intros i' j' v' w' Hlt (f' & g' & Hf' & Hg' & Hm' & Hv' & Hw'). exact (Hall i' j' f' g' v' w' Hlt Hf' Hg' Hm' Hv' Hw').
    + intros (i & j & v & w & (f & g & Hf & Hg & Hm & Hv & Hw) & Hne & Ht & Hall). exists i, j, f, g, v, w. repeat (split; [assumption|]).
      intros i' j' f' g' v' w' Hlt Hf' Hg' Hm' Hv' Hw'. apply (Hall i' j' v' w' Hlt). exists f', g'. auto.
Qed.

(** Callers listed are callers of the earlier result and never have an empty list. *)
Theorem C41_callers_listed : forall pre post c l, mget c (olist (rp_fields (cmp_result' pre post))) = Some l -> l <> [] /\ In c (mkeys (olist (tr_callers pre))).
Proof.
  intros pre post c l H. rewrite result_fields in H. destruct (in_dec bytes_eq_dec c (mkeys (olist (tr_callers pre)))) as [Hi|Hi]; [|discriminate].
  split; [|exact Hi]. destruct (cs_fields (state_of pre post c)); [discriminate|injection H as <-; discriminate].
Qed.

(** ** Panics *)
Definition absdiff (a b : nat) : nat := ((a - b) + (b - a))%nat.
Lemma list_sum_in {A} (F G : A -> nat) l : (forall x, In x l -> F x = G x) -> list_sum (map F l) = list_sum (map G l).
Proof. intros H. f_equal. apply map_ext_in, H. Qed.
Lemma len_occ (ms l : list bytes) : NoDup ms -> incl l ms -> length l = list_sum (map (occ l) ms).
Proof.
  intros ND Hi. induction l as [|x l IH]; cbn [length].
  - induction ms as [|m ms IHm]; [reflexivity|]. cbn. inversion ND; subst. apply IHm; [assumption|intros ? []].
  - assert (incl l ms) as Hl by (intros z Hz; apply Hi; right; exact Hz). rewrite (IH Hl). assert (In x ms) as Hx by (apply Hi; left; reflexivity). clear - ND Hx.
    induction ms as [|m ms IHm]; [destruct Hx|]. inversion ND as [|? ? Hn ND']; subst. cbn [map list_sum fold_right]. cbn [count_occ]. destruct (bytes_eq_dec x m) as [->|N].
    + assert (list_sum (map (fun n => if bytes_eq_dec m n then S (occ l n) else occ l n) ms) = list_sum (map (occ l) ms)) as E.
      { apply list_sum_in. intros z Hz. destruct (bytes_eq_dec m z) as [->|]; [contradiction|reflexivity]. }
      unfold list_sum in *. cbn [count_occ] in *. rewrite E. lia.
    + destruct Hx as [<-|Hx]; [contradiction|]. specialize (IHm ND' Hx). unfold list_sum in *. cbn [count_occ] in *. lia.
Qed.
Lemma cmp_messages_spec ms : NoDup ms -> forall a b, incl a ms -> incl b ms -> cmp_messages a b = list_sum (map (fun m => absdiff (occ a m) (occ b m)) ms).
Proof.
  intros ND a. induction a as [|x a IH]; intros b Ha Hb; cbn [cmp_messages].
  - rewrite (len_occ ms b ND Hb). apply list_sum_in. intros m _. unfold absdiff. cbn. lia.
  - assert (incl a ms) as Ha' by (intros z Hz; apply Ha; right; exact Hz). pose proof (remove_one_spec x b) as R. destruct (remove_one x b) as [b'|].
    + destruct R as [Hx R]. rewrite IH; [|exact Ha'|].
      * apply list_sum_in. intros m _. rewrite R. cbn. destruct (bytes_eq_dec x m); unfold absdiff; lia.
      * intros z Hz. apply Hb. apply (count_occ_In bytes_eq_dec) in Hz. apply (count_occ_In bytes_eq_dec). rewrite R. lia.
    + rewrite (IH b Ha' Hb). assert (In x ms) as Hx by (apply Ha; left; reflexivity). apply (proj1 (count_occ_not_In bytes_eq_dec b x)) in R. clear - ND Hx R.
      induction ms as [|m ms IHm]; [destruct Hx|]. inversion ND as [|? ? Hn ND']; subst. cbn [map list_sum fold_right]. cbn [count_occ]. destruct (bytes_eq_dec x m) as [->|N].
      * assert (list_sum (map (fun n => absdiff (if bytes_eq_dec m n then S (occ a n) else occ a n) (occ b n)) ms) = list_sum (map (fun n => absdiff (occ a n) (occ b n)) ms)) as E.
        { apply list_sum_in. intros z Hz. destruct (bytes_eq_dec m z) as [->|]; [contradiction|reflexivity]. }
        unfold list_sum in *. cbn [count_occ] in *. rewrite E, R. unfold absdiff. lia.
      * destruct Hx as [<-|Hx]; [contradiction|]. specialize (IHm ND' Hx). unfold list_sum in *. cbn [count_occ] in *. lia.
Qed.

Definition messages (m : list (bytes * list bytes)) (id : bytes) : list bytes := match mget id m with Some l => l | None => [] end.
Lemma sum_over_keys (V : Type) (F : bytes -> V -> nat) : forall (m : list (bytes * V)) ids, NoDup (mkeys m) -> NoDup ids -> incl (mkeys m) ids ->
  list_sum (map (fun e => F (fst e) (snd e)) m) = list_sum (map (fun id => match mget id m with Some v => F id v | None => 0%nat end) ids).
Proof.
  induction m as [|[k v] m IH]; intros ids N1 N2 Hi.
  - cbn. induction ids; [reflexivity|]. cbn. inversion N2; subst. apply IHids; [assumption|intros ? []].
  - cbn in N1. inversion N1 as [|? ? Hk N1']; subst. change (list_sum (map (fun e : bytes * V => F (fst e) (snd e)) ((k, v) :: m))) with (F k v + list_sum (map (fun e : bytes * V => F (fst e) (snd e)) m))%nat.
    rewrite (IH ids N1' N2) by (intros z Hz; apply Hi; right; exact Hz).
    assert (In k ids) as Hin by (apply Hi; left; reflexivity). assert (mget k m = None) as Em by (destruct (mget k m) eqn:E; [exfalso; apply Hk, mget_keys; congruence|reflexivity]).
    clear - N2 Hin Em. induction ids as [|i ids IHi]; [destruct Hin|]. inversion N2 as [|? ? Hn N2']; subst. cbn [map list_sum fold_right mget]. destruct (beq_spec i k) as [->|N].
    + assert (list_sum (map (fun id => match (if beq id k then Some v else mget id m) with Some v0 => F id v0 | None => 0%nat end) ids) = list_sum (map (fun id => match mget id m with Some v0 => F id v0 | None => 0%nat end) ids)) as E.
      { apply list_sum_in. intros z Hz. destruct (beq_spec z k) as [->|]; [contradiction|reflexivity]. }
      unfold list_sum in *. cbn [mget] in *. rewrite E, Em. lia.
    + destruct Hin as [<-|Hin]; [contradiction|]. specialize (IHi N2' Hin). unfold list_sum in *. cbn [mget] in *. lia.
Qed.

Lemma cmp_panics_spec pre post ids ms : NoDup (mkeys pre) -> NoDup (mkeys post) -> NoDup ids -> NoDup ms ->
  incl (mkeys pre) ids -> incl (mkeys post) ids -> (forall id, incl (messages pre id) ms) -> (forall id, incl (messages post id) ms) ->
  cmp_panics pre post = list_sum (map (fun id => list_sum (map (fun m => absdiff (occ (messages pre id) m) (occ (messages post id) m)) ms)) ids).
Proof.
  intros N1 N2 N3 N4 I1 I2 M1 M2. unfold cmp_panics.
  change (list_sum (map (fun e => cmp_messages (snd e) (match mget (fst e) post with Some l => l | None => [] end)) pre)) with (list_sum (map (fun e => cmp_messages (snd e) (messages post (fst e))) pre)).
  rewrite (sum_over_keys _ (fun id l => cmp_messages l (messages post id)) pre ids N1 N3 I1).
  rewrite (sum_over_keys _ (fun id l => match mget id pre with Some _ => 0%nat | None => length l end) post ids N2 N3 I2).
  assert (forall (F G : bytes -> nat) l, (list_sum (map F l) + list_sum (map G l) = list_sum (map (fun x => F x + G x) l))%nat) as Add.
  { induction l as [|x l IH]; [reflexivity|]. cbn [map list_sum fold_right]. unfold list_sum in *. lia. }
  rewrite Add. apply list_sum_in. intros id _. rewrite <- (cmp_messages_spec ms N4 _ _ (M1 id) (M2 id)). unfold messages. destruct (mget id pre) as [a|] eqn:Ea; destruct (mget id post) as [b|] eqn:Eb; try reflexivity; apply Nat.add_0_r.
Qed.

(** Number of panics that differ: over all functions and messages, by how much the
    numbers of occurrences differ. [ids] and [ms] list the functions and messages. *)
Definition panic_difference (pre post : list (bytes * list bytes)) (n : nat) : Prop :=
  forall ids ms, NoDup ids -> NoDup ms -> incl (mkeys pre) ids -> incl (mkeys post) ids ->
    (forall id, incl (messages pre id) ms) -> (forall id, incl (messages post id) ms) ->
    n = list_sum (map (fun id => list_sum (map (fun m => absdiff (occ (messages pre id) m) (occ (messages post id) m)) ms)) ids).

Definition result_ok (r : tresult) : Prop :=
  NoDup (mkeys (olist (tr_callers r))) /\ NoDup (mkeys (olist (tr_ppanics r))) /\ NoDup (mkeys (olist (tr_mpanics r))).

(** The fields that agree, and all fields, of the calls of one caller. *)
Definition caller_same (pre post : list cframe) : N :=
  sumN (map (fun i => let f := nth i pre (CFrame None None 0) in match partner key post pre i f with None => 0%nat | Some g => agreeing f g end) (seq 0 (length pre))).
Definition caller_total (pre : list cframe) : N := sumN (map fields_of pre).

Lemma map_nth_seq {A B} (F : A -> B) d : forall l, map (fun i => F (nth i l d)) (seq 0 (length l)) = map F l.
Proof. induction l as [|x l IH]; [reflexivity|]. cbn [length seq map nth]. f_equal. rewrite <- seq_shift, map_map. exact IH. Qed.

Lemma caller_counts pre post : cs_same (cmp_frames' pre post) = caller_same pre post /\ (cs_same (cmp_frames' pre post) + cs_diff (cmp_frames' pre post) = caller_total pre)%N.
Proof.
  unfold cmp_frames. pose proof (cmp_frames_fold (partners key post [] pre) cstate0) as H. cbn zeta in H. destruct H as [H1 H2].
  rewrite H2, H1. unfold caller_same, caller_total. rewrite partners_nil, !map_map. cbn [cstate0 cs_same cs_diff fst snd]. split; [apply N.add_0_l|].
  rewrite !N.add_0_l. f_equal. apply (map_nth_seq fields_of).
Qed.

(** The counts of a test: the fields that agree, and everything else: fields that
    differ or are gone, fields of calls without match, and panics. *)
Theorem C41_counts_exact : forall pre post, result_ok pre -> result_ok post ->
  let sum F := fold_right (fun c n => F c + n)%N 0%N (bsort (mkeys (olist (tr_callers pre)))) in
  rp_same (cmp_result' pre post) = sum (fun c => caller_same (frames_of pre c) (frames_of post c)) /\
  exists p m, panic_difference (olist (tr_ppanics pre)) (olist (tr_ppanics post)) p /\ panic_difference (olist (tr_mpanics pre)) (olist (tr_mpanics post)) m /\
  (rp_same (cmp_result' pre post) + rp_diff (cmp_result' pre post) = sum (fun c => caller_total (frames_of pre c)) + N.of_nat p + N.of_nat m)%N.
Proof.
  intros pre post (O1 & O2 & O3) (P1 & P2 & P3). cbn zeta. cbn [cmp_result rp_same rp_diff].
  assert (forall F : cstate -> N, fold_right (fun s n => F (snd s) + n)%N 0%N (map (fun c => (c, cmp_frames' (match mget c (olist (tr_callers pre)) with Some l => l | None => [] end) (match mget c (olist (tr_callers post)) with Some l => l | None => [] end))) (bsort (mkeys (olist (tr_callers pre))))) =
     fold_right (fun c n => F (state_of pre post c) + n)%N 0%N (bsort (mkeys (olist (tr_callers pre))))) as FS.
  { intros F. induction (bsort (mkeys (olist (tr_callers pre)))) as [|c cs IH]; [reflexivity|]. cbn [map fold_right snd]. rewrite IH. reflexivity. }
  rewrite !FS. split.
  - clear FS. induction (bsort (mkeys (olist (tr_callers pre)))) as [|c cs IH]; [reflexivity|]. cbn [fold_right]. rewrite IH. f_equal. apply caller_counts.
  - exists (cmp_panics (olist (tr_ppanics pre)) (olist (tr_ppanics post))), (cmp_panics (olist (tr_mpanics pre)) (olist (tr_mpanics post))).
    split; [intros ids ms A C D E F G; apply cmp_panics_spec; assumption|]. split; [intros ids ms A C D E F G; apply cmp_panics_spec; assumption|].
    assert (forall cs, fold_right (fun c n => cs_same (state_of pre post c) + n) 0 cs + fold_right (fun c n => cs_diff (state_of pre post c) + n) 0 cs = fold_right (fun c n => caller_total (frames_of pre c) + n) 0 cs)%N as Q.
    { induction cs as [|c cs IH]; [reflexivity|]. cbn [fold_right]. rewrite <- IH. rewrite <- (proj2 (caller_counts (frames_of pre c) (frames_of post c))). unfold state_of. lia. }
    rewrite <- Q. lia.
Qed.

(** All that could differ agrees: every call before the update has its match with the
    same values, and every panic occurs as often. *)
Definition no_difference (pre post : tresult) : Prop :=
  (forall c i f, In c (mkeys (olist (tr_callers pre))) -> nth_error (frames_of pre c) i = Some f -> fields_of f <> 0%nat ->
     exists j g, matched key (frames_of pre c) (frames_of post c) i j /\ nth_error (frames_of post c) j = Some g /\ forall n v, field_is f n v -> field_is g n v) /\
  (forall id m, occ (messages (olist (tr_ppanics pre)) id) m = occ (messages (olist (tr_ppanics post)) id) m) /\
  (forall id m, occ (messages (olist (tr_mpanics pre)) id) m = occ (messages (olist (tr_mpanics post)) id) m).

Lemma filter_length_le {A} (P : A -> bool) l : (length (filter P l) <= length l)%nat.
Proof. induction l as [|x l IH]; [reflexivity|]. cbn. destruct (P x); cbn; lia. Qed.
Lemma agreeing_le f g : (agreeing f g <= fields_of f)%nat.
Proof. unfold agreeing, fields_of, mkeys. rewrite <- (map_length fst (flatten (cf_fields f))). apply filter_length_le. Qed.
Lemma agreeing_all f g : agreeing f g = fields_of f <-> forall n v, field_is f n v -> field_is g n v.
Proof.
  unfold agreeing, fields_of, field_is. rewrite <- (map_length fst (flatten (cf_fields f))). fold (mkeys (flatten (cf_fields f))). set (P := fun n : bytes => _). split.
  - intros H n v Hv. assert (In n (mkeys (flatten (cf_fields f)))) as Hi by (apply mget_keys; congruence).
    assert (P n = true) as HP.
    { revert H Hi. generalize (mkeys (flatten (cf_fields f))). induction l as [|x l IH]; intros H Hi; [destruct Hi|]. cbn [filter] in H. destruct (P x) eqn:E.
      - destruct Hi as [<-|Hi]; [exact E|]. apply IH; [cbn in H; congruence|exact Hi].
      - pose proof (filter_length_le P l). cbn in H. lia. }
    unfold P in HP. rewrite Hv in HP. destruct (mget n (flatten (cf_fields g))) as [w|]; [|discriminate]. destruct (beq_spec v w); [congruence|discriminate].
  - intros H. assert (forall n, In n (mkeys (flatten (cf_fields f))) -> P n = true) as HP.
    { intros n Hn. apply mget_keys in Hn. unfold P. destruct (mget n (flatten (cf_fields f))) as [v|] eqn:E; [|contradiction]. rewrite (H n v E), beq_refl. reflexivity. }
    revert HP. generalize (mkeys (flatten (cf_fields f))). induction l as [|x l IH]; intros HP; [reflexivity|]. cbn [filter]. rewrite (HP x (or_introl eq_refl)). cbn [length]. f_equal. apply IH. intros n Hn. apply HP. right. exact Hn.
Qed.

Lemma sum_pointwise {A} (F G : A -> nat) l : (forall x, In x l -> (F x <= G x)%nat) -> (sumN (map F l) = sumN (map G l) <-> forall x, In x l -> F x = G x).
Proof.
  intros H. assert (sumN (map F l) <= sumN (map G l))%N as Le.
  { induction l as [|x l IH]; [reflexivity|]. cbn. assert (F x <= G x)%nat by (apply H; left; reflexivity). assert (forall y, In y l -> (F y <= G y)%nat) as H' by (intros y Hy; apply H; right; exact Hy). specialize (IH H'). unfold sumN in IH. lia. }
  clear Le. split.
  - induction l as [|x l IH]; [intros _ y []|]. intros E. assert (forall y, In y l -> (F y <= G y)%nat) as H' by (intros y Hy; apply H; right; exact Hy).
    assert (sumN (map F l) <= sumN (map G l))%N as Le.
    { clear - H'. induction l as [|x l IH]; [reflexivity|]. cbn. assert (F x <= G x)%nat by (apply H'; left; reflexivity). assert (forall y, In y l -> (F y <= G y)%nat) as H0 by (intros y Hy; apply H'; right; exact Hy). specialize (IH H0). unfold sumN in IH. lia. }
    assert (F x <= G x)%nat by (apply H; left; reflexivity). cbn in E. unfold sumN in Le, IH. intros y [<-|Hy]; [lia|]. apply IH; [exact H'|lia|exact Hy].
  - intros E. f_equal. apply map_ext_in, E.
Qed.

Lemma caller_none pre post : cs_diff (cmp_frames' pre post) = 0%N <->
  forall i f, nth_error pre i = Some f -> fields_of f <> 0%nat -> exists j g, matched key pre post i j /\ nth_error post j = Some g /\ forall n v, field_is f n v -> field_is g n v.
Proof.
  destruct (caller_counts pre post) as [E1 E2].
  set (F := fun i => let f := nth i pre (CFrame None None 0) in match partner key post pre i f with None => 0%nat | Some g => agreeing f g end).
  set (G := fun i => fields_of (nth i pre (CFrame None None 0))).
  assert (caller_total pre = sumN (map G (seq 0 (length pre)))) as Et by (unfold caller_total, G; rewrite (map_nth_seq fields_of); reflexivity).
  assert (cs_diff (cmp_frames' pre post) = 0%N <-> sumN (map F (seq 0 (length pre))) = sumN (map G (seq 0 (length pre)))) as Q.
  { rewrite <- Et. change (sumN (map F (seq 0 (length pre)))) with (caller_same pre post). rewrite <- E1. lia. }
  rewrite Q, sum_pointwise.
  - split.
    + intros H i f Hi Hf. assert (i < length pre)%nat as L by (apply nth_error_Some; congruence). specialize (H i). rewrite in_seq in H. specialize (H ltac:(lia)). unfold F, G in H. cbn zeta in H. rewrite (nth_error_nth pre i _ Hi) in H.
      destruct (partner key post pre i f) as [g|] eqn:Ep; [|congruence]. pose proof (proj1 (agreeing_all f g) H) as H0. apply (partner_matched key pre post i f g Hi) in Ep as (j & Hm & Hj). exists j, g. auto.
    + intros H i Hi. apply in_seq in Hi. destruct (nth_error pre i) as [f|] eqn:Ef; [|apply nth_error_None in Ef; lia]. unfold F, G. cbn zeta. rewrite (nth_error_nth pre i _ Ef).
      destruct (Nat.eq_dec (fields_of f) 0) as [E0|N0].
      * destruct (partner key post pre i f) as [g|]; [pose proof (agreeing_le f g); lia|lia].
      * destruct (H i f Ef N0) as (j & g & Hm & Hj & Hall). assert (partner key post pre i f = Some g) as -> by (apply (partner_matched key pre post i f g Ef); exists j; auto). exact (proj2 (agreeing_all f g) Hall).
  - intros i _. unfold F, G. cbn zeta. destruct (partner key post pre i _) as [g|]; [apply agreeing_le|lia].
Qed.

Lemma list_sum_zero {A} (F : A -> nat) l : list_sum (map F l) = 0%nat <-> forall x, In x l -> F x = 0%nat.
Proof.
  induction l as [|x l IH]; [split; [intros _ y []|reflexivity]|]. cbn. unfold list_sum in IH. split.
  - intros H y [<-|Hy]; [lia|]. apply IH; [lia|exact Hy].
  - intros H. rewrite (H x (or_introl eq_refl)). apply IH. intros y Hy. apply H. right. exact Hy.
Qed.
Lemma messages_in m id x : In x (messages m id) -> In x (concat (map snd m)) /\ In id (mkeys m).
Proof.
  unfold messages. intros H. destruct (mget id m) as [l|] eqn:E; [|destruct H]. split; [|apply mget_keys; congruence]. apply in_concat. exists l. split; [|exact H]. apply in_map_iff. exists (id, l). split; [reflexivity|]. apply mget_in, E.
Qed.
Lemma panics_none pre post : NoDup (mkeys pre) -> NoDup (mkeys post) -> (cmp_panics pre post = 0%nat <-> forall id m, occ (messages pre id) m = occ (messages post id) m).
Proof.
  intros N1 N2. rewrite (cmp_panics_spec pre post (nodup bytes_eq_dec (mkeys pre ++ mkeys post)) (nodup bytes_eq_dec (concat (map snd pre) ++ concat (map snd post)))); try assumption; try apply NoDup_nodup.
  - rewrite list_sum_zero. split.
    + intros H id m. destruct (in_dec bytes_eq_dec id (mkeys pre ++ mkeys post)) as [Hi|Hi].
      * apply (nodup_In bytes_eq_dec) in Hi. specialize (H id Hi). rewrite list_sum_zero in H.
        destruct (in_dec bytes_eq_dec m (concat (map snd pre) ++ concat (map snd post))) as [Hm|Hm].
        { apply (nodup_In bytes_eq_dec) in Hm. specialize (H m Hm). unfold absdiff in H. lia. }
        { rewrite (proj1 (count_occ_not_In bytes_eq_dec _ m)), (proj1 (count_occ_not_In bytes_eq_dec _ m)); [reflexivity| |]; intros X; apply messages_in in X as [X _]; apply Hm, in_or_app; auto. }
      * rewrite (proj1 (count_occ_not_In bytes_eq_dec _ m)), (proj1 (count_occ_not_In bytes_eq_dec _ m)); [reflexivity| |]; intros X; apply messages_in in X as [_ X]; apply Hi, in_or_app; auto.
    + intros H id _. apply list_sum_zero. intros m _. rewrite H. unfold absdiff. lia.
  - intros z Hz. apply nodup_In, in_or_app. left. exact Hz.
  - intros z Hz. apply nodup_In, in_or_app. right. exact Hz.
  - intros id z Hz. apply messages_in in Hz as [Hz _]. apply nodup_In, in_or_app. left. exact Hz.
  - intros id z Hz. apply messages_in in Hz as [Hz _]. apply nodup_In, in_or_app. right. exact Hz.
Qed.

(** No difference is counted exactly when nothing of the earlier run is missing or
    different and no panic appeared or went away. *)
Theorem C41_no_difference_iff : forall pre post, result_ok pre -> result_ok post -> (rp_diff (cmp_result' pre post) = 0%N <-> no_difference pre post).
Proof.
  intros pre post (O1 & O2 & O3) (P1 & P2 & P3). cbn [cmp_result rp_diff]. unfold no_difference. rewrite <- (panics_none _ _ O2 P2), <- (panics_none _ _ O3 P3).
  match goal with |- context [fold_right ?f 0%N ?l] => set (S := fold_right f 0%N l) end.
  assert (S = 0%N <-> forall c, In c (mkeys (olist (tr_callers pre))) -> cs_diff (state_of pre post c) = 0%N) as ES.
  { transitivity (forall c, In c (bsort (mkeys (olist (tr_callers pre)))) -> cs_diff (state_of pre post c) = 0%N).
    - unfold S. generalize (bsort (mkeys (olist (tr_callers pre)))). induction l as [|c l IH]; [split; [intros _ c []|reflexivity]|]. cbn [map fold_right snd].
      match goal with |- ((cs_diff ?a + ?b)%N = _ <-> _) => change a with (state_of pre post c); set (T := b) in * end. split.
      + intros H c' [<-|Hc]; [lia|]. apply IH; [lia|exact Hc].
      + intros H. rewrite (H c (or_introl eq_refl)). apply IH. intros c' Hc. apply H. right. exact Hc.
    - split; intros H c Hc; apply H; apply bsort_in; exact Hc. }
  assert (S = 0%N <-> forall c i f, In c (mkeys (olist (tr_callers pre))) -> nth_error (frames_of pre c) i = Some f -> fields_of f <> 0%nat ->
     exists j g, matched key (frames_of pre c) (frames_of post c) i j /\ nth_error (frames_of post c) j = Some g /\ forall n v, field_is f n v -> field_is g n v) as ES'.
  { rewrite ES. split.
    - intros H c i f Hc Hi Hf. apply (proj1 (caller_none (frames_of pre c) (frames_of post c)) (H c Hc) i f Hi Hf).
    - intros H c Hc. apply caller_none. intros i f Hi Hf. exact (H c i f Hc Hi Hf). }
  rewrite <- ES'. lia.
Qed.

Lemma matched_self l i : (i < length l)%nat -> matched key l l i i.
Proof. intros H. destruct (nth_error l i) as [f|] eqn:E; [|apply nth_error_None in E; lia]. exists f, f. auto. Qed.

Lemma cmp_time_same l m t c : tc_diff c = 0%Z -> l = m -> tc_diff (cmp_time mult l m t t c) = 0%Z.
Proof.
  intros H ->. unfold cmp_time. cbn zeta. rewrite Z.sub_diag. repeat match goal with |- context [if ?b then _ else _] => destruct b end; first [exact H|reflexivity].
Qed.

(** Comparing a result with itself gives nothing at all. *)
Theorem C41_identical_results : forall r, result_ok r ->
  let rep := cmp_result' r r in
  rp_diff rep = 0%N /\ rp_regress rep = 0%N /\
  (forall c, mget c (olist (rp_fields rep)) = None) /\ (forall c, mget c (olist (rp_times rep)) = None).
Proof.
  intros r Hr rep. split; [|split; [|split]].
  - apply C41_no_difference_iff; [exact Hr|exact Hr|]. split; [|auto]. intros c i f _ Hi _. exists i, f. split; [apply matched_self, nth_error_Some; congruence|auto].
  - unfold rep. cbn. destruct (tr_fail r); reflexivity.
  - intros c. destruct (mget c (olist (rp_fields rep))) as [l|] eqn:E; [exfalso|reflexivity]. destruct (C41_callers_listed _ _ _ _ E) as [Hl _].
    destruct l as [|[n t] l]; [contradiction|]. assert (exists l', mget c (olist (rp_fields rep)) = Some l' /\ mget n l' = Some t) as X by (exists ((n, t) :: l); split; [exact E|cbn; rewrite beq_refl; reflexivity]).
    apply C41_field_changes_exact in X as (i & j & v & w & (f & g & Hf & Hg & Hm & Hv & Hw) & Hne & _).
    assert (j = i) as -> by (symmetry; apply (C41_matching_one_to_one key (frames_of r c) (frames_of r c) i i i j); [apply matched_self, nth_error_Some; congruence|exact Hm|reflexivity]).
    rewrite Hf in Hg. injection Hg as <-. unfold field_is in *. congruence.
  - intros c. unfold rep. rewrite result_times. destruct (in_dec bytes_eq_dec c _) as [Hc|Hc]; [|reflexivity].
    assert (tc_diff (cs_change (state_of r r c)) = 0%Z) as ->; [|reflexivity]. unfold state_of, cmp_frames. rewrite partners_nil.
    assert (forall l, (forall i, In i l -> (i < length (frames_of r c))%nat) -> forall st, tc_diff (cs_change st) = 0%Z -> cs_last_pre st = cs_last_post st ->
      tc_diff (cs_change (fold_left (cmp_frame quote unified mult) (map (fun i => let f := nth i (frames_of r c) (CFrame None None 0) in (f, partner key (frames_of r c) (frames_of r c) i f)) l) st)) = 0%Z) as G.
    { induction l as [|i l IH]; intros Hl st H1 H2; [exact H1|]. cbn [map fold_left]. assert (i < length (frames_of r c))%nat as Hi by (apply Hl; left; reflexivity).
      destruct (nth_error (frames_of r c) i) as [f|] eqn:Ef; [|apply nth_error_None in Ef; lia]. cbn zeta. rewrite (nth_error_nth _ i _ Ef).
      assert (partner key (frames_of r c) (frames_of r c) i f = Some f) as -> by (apply (partner_matched key _ _ i f f Ef); exists i; split; [apply matched_self, Hi|exact Ef]).
      apply IH; [intros k Hk; apply Hl; right; exact Hk| |].
      - cbn [cmp_frame snd fst cs_change]. pose proof (cmp_field_fold (flatten (cf_fields f)) (flatten (cf_fields f)) (bsort (mkeys (flatten (cf_fields f)))) st (bsort_nodup _ (flatten_nodup _))) as Q.
        cbn zeta in Q. destruct Q as (_ & _ & _ & Q4 & Q5 & Q6). rewrite Q4, Q5, Q6. apply cmp_time_same; assumption.
      - reflexivity. }
    apply G; [intros i Hi; apply in_seq in Hi; lia|reflexivity|reflexivity].
Qed.

(** A test counts as regressed exactly when it passed before and fails after. *)
Theorem C41_regression_exact : forall pre post, rp_regress (cmp_result' pre post) = (if tr_fail pre then 0 else if tr_fail post then 1 else 0)%N.
Proof. intros pre post. cbn. destruct (tr_fail pre), (tr_fail post); reflexivity. Qed.

(** The report says of both runs which test it was, whether it failed, how many changed functions it
    hit and what the extension put there; the frames and panics are dropped. *)
Theorem C41_outcomes_kept : forall pre post, let r := cmp_result' pre post in
  (forall a b, (a, b) = (rp_orig r, pre) \/ (a, b) = (rp_post r, post) ->
    tr_ident a = tr_ident b /\ tr_name a = tr_name b /\ tr_fail a = tr_fail b /\ tr_hit a = tr_hit b /\ tr_ext a = tr_ext b /\
    tr_callers a = None /\ tr_ppanics a = None /\ tr_mpanics a = None).
Proof. intros pre post r a b [E|E]; injection E as -> ->; repeat split. Qed.

(** ** Times *)
Fixpoint intervals (lp lq : N) (ts : list (N * N)) : list (N * N) :=
  match ts with
  | [] => []
  | (a, b) :: ts' => (if (0 <? a) && (0 <? b) && (lp <=? a) && (lq <=? b) then [(a - lp, b - lq)] else [])%N ++ intervals a b ts'
  end.
(** The times of the matched pairs of a caller, in order of the earlier run. *)
Definition pair_times (pre post : list cframe) : list (N * N) :=
  flat_map (fun p => match snd p with Some g => [(cf_time (fst p), cf_time g)] | None => [] end) (partners key post [] pre).
Definition slower (d : N * N) : Prop := (N.max 1 (fst d) * mult < snd d)%N.
Definition faster (d : N * N) : Prop := (N.max 1 (snd d) * mult < fst d)%N.
Definition change_of (d : N * N) : tchange := TChange (Z.of_N (snd d) - Z.of_N (fst d)) (fst d) (snd d).
Definition next (c : tchange) (d : N * N) : tchange :=
  if (mul32 mult (fst d) <? snd d)%N then (if (tc_diff c <? Z.of_N (snd d) - Z.of_N (fst d))%Z then change_of d else c)
  else if (mul32 mult (snd d) <? fst d)%N then (if ((tc_diff c =? 0)%Z || (Z.of_N (snd d) - Z.of_N (fst d) <? tc_diff c)%Z)%bool then change_of d else c) else c.

Lemma change_fold pre post : cs_change (cmp_frames' pre post) = fold_left next (intervals 0 0 (pair_times pre post)) (TChange 0 0 0).
Proof.
  unfold cmp_frames, pair_times. change (TChange 0 0 0) with (cs_change cstate0). change (intervals 0 0) with (intervals (cs_last_pre cstate0) (cs_last_post cstate0)).
  generalize cstate0. induction (partners key post [] pre) as [|[f og] ps IH]; intros st; [reflexivity|]. cbn [fold_left flat_map]. rewrite IH. destruct og as [g|]; cbn [snd fst app]; [|reflexivity].
  cbn [cmp_frame snd fst cs_change cs_last_pre cs_last_post intervals]. pose proof (cmp_field_fold (flatten (cf_fields f)) (flatten (cf_fields g)) (bsort (mkeys (flatten (cf_fields f)))) st (bsort_nodup _ (flatten_nodup _))) as Q.
  cbn zeta in Q. destruct Q as (_ & _ & _ & Q4 & Q5 & Q6). rewrite Q4, Q5, Q6. rewrite fold_left_app. f_equal. unfold cmp_time.
  destruct (_ && _ && _ && _)%bool; reflexivity.
Qed.

(** Reported time changes are real: the intervals of some matched pair differ by more
    than the multiplier; and some such pair exists only if a change is reported. Times
    are assumed small enough for the 32 bit product. *)
Theorem C41_time_changes_real : forall pre post c, (1 <= mult)%N ->
  let ds := intervals 0 0 (pair_times (frames_of pre c) (frames_of post c)) in
  (forall d, In d ds -> (N.max 1 (fst d) * mult < 2 ^ 32)%N /\ (N.max 1 (snd d) * mult < 2 ^ 32)%N) ->
  In c (mkeys (olist (tr_callers pre))) ->
  match mget c (olist (rp_times (cmp_result' pre post))) with
  | Some t => exists d, In d ds /\ t = change_of d /\ (slower d \/ faster d) /\
      ((forall d', In d' ds -> ~ faster d') -> forall d', In d' ds -> slower d' -> (tc_diff (change_of d') <= tc_diff t)%Z) /\
      ((forall d', In d' ds -> ~ slower d') -> forall d', In d' ds -> faster d' -> (tc_diff t <= tc_diff (change_of d'))%Z)
  | None => forall d, In d ds -> ~ slower d /\ ~ faster d
  end.
Proof.
  intros pre post c Hm ds Hb Hc. rewrite result_times. destruct (in_dec bytes_eq_dec c _) as [_|X]; [|contradiction]. unfold state_of. rewrite change_fold. fold ds.
  assert (forall d, In d ds -> mul32 mult (fst d) = (N.max 1 (fst d) * mult)%N /\ mul32 mult (snd d) = (N.max 1 (snd d) * mult)%N) as Mu.
  { intros d Hd. destruct (Hb d Hd). unfold mul32. split; apply N.mod_small; assumption. }
  clear Hb. assert (forall d, slower d -> (0 < tc_diff (change_of d))%Z) as Sp by (intros d H; unfold slower in H; cbn; nia).
  assert (forall d, faster d -> (tc_diff (change_of d) < 0)%Z) as Fp by (intros d H; unfold faster in H; cbn; nia).
  assert (forall l, (forall d, In d l -> In d ds) -> forall c0 seen,
    (c0 = TChange 0 0 0 /\ (forall d, In d seen -> ~ slower d /\ ~ faster d)) \/
    (exists d, In d seen /\ c0 = change_of d /\ (slower d \/ faster d) /\
       ((forall d', In d' seen -> ~ faster d') -> forall d', In d' seen -> slower d' -> (tc_diff (change_of d') <= tc_diff c0)%Z) /\
       ((forall d', In d' seen -> ~ slower d') -> forall d', In d' seen -> faster d' -> (tc_diff c0 <= tc_diff (change_of d'))%Z)) ->
    let c1 := fold_left next l c0 in let all := seen ++ l in
    (c1 = TChange 0 0 0 /\ (forall d, In d all -> ~ slower d /\ ~ faster d)) \/
    (exists d, In d all /\ c1 = change_of d /\ (slower d \/ faster d) /\
       ((forall d', In d' all -> ~ faster d') -> forall d', In d' all -> slower d' -> (tc_diff (change_of d') <= tc_diff c1)%Z) /\
       ((forall d', In d' all -> ~ slower d') -> forall d', In d' all -> faster d' -> (tc_diff c1 <= tc_diff (change_of d'))%Z))) as G.
  { induction l as [|x l IH]; intros Hl c0 seen H; cbn zeta; [cbn [fold_left]; rewrite app_nil_r; exact H|].
    cbn [fold_left]. replace (seen ++ x :: l) with ((seen ++ [x]) ++ l) by (rewrite <- app_assoc; reflexivity). apply IH; [intros d Hd; apply Hl; right; exact Hd|].
    clear IH. destruct (Mu x (Hl x (or_introl eq_refl))) as [M1 M2]. unfold next. rewrite M1, M2. change (Z.of_N (snd x) - Z.of_N (fst x))%Z with (tc_diff (change_of x)).
    assert (forall d, In d (seen ++ [x]) <-> In d seen \/ d = x) as Inx by (intros d; rewrite in_app_iff; cbn; intuition congruence).
    destruct (N.ltb_spec (N.max 1 (fst x) * mult) (snd x)) as [Sx|Sx]; [|destruct (N.ltb_spec (N.max 1 (snd x) * mult) (fst x)) as [Fx|Fx]].
    - assert (slower x) as Hs by exact Sx. assert (~ faster x) as Nf by (intros F; specialize (Sp x Hs); specialize (Fp x F); lia).
      destruct (Z.ltb_spec (tc_diff c0) (tc_diff (change_of x))) as [Lt|Ge].
      + right. exists x. split; [apply Inx; auto|]. split; [reflexivity|]. split; [auto|]. split.
        * intros Hnf d' Hd' Hsd. apply Inx in Hd' as [Hd'| ->]; [|lia]. destruct H as [[_ Hn]|(d & _ & _ & _ & H1 & _)]; [exfalso; exact (proj1 (Hn d' Hd') Hsd)|].
          assert (tc_diff (change_of d') <= tc_diff c0)%Z by (apply H1; [intros e He; apply Hnf, Inx; auto|exact Hd'|exact Hsd]). lia.
        * intros Hns. exfalso. apply (Hns x); [apply Inx; auto|exact Hs].
      + destruct H as [[-> _]|(d & Hd & E & Hk & H1 & H2)]; [cbn [tc_diff] in Ge; specialize (Sp x Hs); lia|]. right. exists d. split; [apply Inx; auto|]. split; [exact E|]. split; [exact Hk|]. split.
        * intros Hnf d' Hd' Hsd. apply Inx in Hd' as [Hd'| ->]; [|lia]. apply H1; [intros e He; apply Hnf, Inx; auto|exact Hd'|exact Hsd].
        * intros Hns. exfalso. apply (Hns x); [apply Inx; auto|exact Hs].
    - assert (faster x) as Hs by exact Fx. assert (~ slower x) as Nf by (intros F; specialize (Sp x F); specialize (Fp x Hs); lia).
      destruct ((tc_diff c0 =? 0)%Z || (tc_diff (change_of x) <? tc_diff c0)%Z)%bool eqn:Eb.
      + right. exists x. split; [apply Inx; auto|]. split; [reflexivity|]. split; [auto|]. split.
        * intros Hnf. exfalso. apply (Hnf x); [apply Inx; auto|exact Hs].
        * intros Hns d' Hd' Hfd. apply Inx in Hd' as [Hd'| ->]; [|lia]. destruct H as [[_ Hn]|(d & Hd & E & Hk & _ & H2)]; [exfalso; exact (proj2 (Hn d' Hd') Hfd)|].
          assert (tc_diff c0 <= tc_diff (change_of d'))%Z by (apply H2; [intros e He; apply Hns, Inx; auto|exact Hd'|exact Hfd]).
          apply Bool.orb_true_iff in Eb as [Eb|Eb]; [|apply Z.ltb_lt in Eb; lia]. apply Z.eqb_eq in Eb. destruct Hk as [Hk|Hk]; [specialize (Sp d Hk)|specialize (Fp d Hk)]; rewrite <- E in *; lia.
      + apply Bool.orb_false_iff in Eb as [E0 Eb]. apply Z.eqb_neq in E0. apply Z.ltb_ge in Eb.
        destruct H as [[-> _]|(d & Hd & E & Hk & H1 & H2)]; [cbn in E0; lia|]. right. exists d. split; [apply Inx; auto|]. split; [exact E|]. split; [exact Hk|]. split.
        * intros Hnf. exfalso. apply (Hnf x); [apply Inx; auto|exact Hs].
        * intros Hns d' Hd' Hfd. apply Inx in Hd' as [Hd'| ->]; [|lia]. apply H2; [intros e He; apply Hns, Inx; auto|exact Hd'|exact Hfd].
    - assert (~ slower x) as Ns by (unfold slower; lia). assert (~ faster x) as Nf by (unfold faster; lia). destruct H as [[-> Hn]|(d & Hd & E & Hk & H1 & H2)].
      + left. split; [reflexivity|]. intros d Hd. apply Inx in Hd as [Hd| ->]; [apply Hn, Hd|auto].
      + right. exists d. split; [apply Inx; auto|]. split; [exact E|]. split; [exact Hk|]. split.
        * intros Hnf d' Hd' Hsd. apply Inx in Hd' as [Hd'| ->]; [|contradiction]. apply H1; [intros e He; apply Hnf, Inx; auto|exact Hd'|exact Hsd].
        * intros Hns d' Hd' Hfd. apply Inx in Hd' as [Hd'| ->]; [|contradiction]. apply H2; [intros e He; apply Hns, Inx; auto|exact Hd'|exact Hfd]. }
  specialize (G ds (fun d H => H) (TChange 0 0 0) [] ltac:(left; split; [reflexivity|intros d []])). cbn zeta in G. cbn [app] in G.
  destruct G as [[E Hn]|(d & Hd & E & Hk & H1 & H2)].
  - rewrite E. cbn. exact Hn.
  - destruct (Z.eqb_spec (tc_diff (fold_left next ds (TChange 0 0 0))) 0) as [E0|N0].
    + exfalso. rewrite E in E0. destruct Hk as [Hk|Hk]; [specialize (Sp d Hk)|specialize (Fp d Hk)]; lia.
    + exists d. auto.
Qed.

(** ** All tests *)
(** One report per test stored after the update, in the order of their names; tests not
    stored before get an empty report and count nothing; totals are the sums; any test
    that cannot be loaded fails the comparison. *)
Theorem C41_all_tests : forall pre_names names load_pre load_post,
  match compare_results quote unified key mult (Some pre_names) (Some names) load_pre load_post with
  | Some (s, d, reports) =>
      Forall2 (fun n r => match load_pre n, load_post n with
                          | LSome a, LSome b => r = cmp_result' a b
                          | LNone, _ => r = treport0
                          | _, _ => False end) (bsort names) reports /\
      s = fold_right (fun r n => rp_same r + n)%N 0%N reports /\ d = fold_right (fun r n => rp_diff r + n)%N 0%N reports
  | None => exists n, In n names /\ match load_pre n, load_post n with LErr, _ => True | LSome _, LErr => True | LSome _, LNone => True | _, _ => False end
  end.
Proof.
  intros pn names lp lq. unfold compare_results.
  assert (forall l, match cmp_tests quote unified key mult lp lq l with
    | Some (s, d, reports) => Forall2 (fun n r => match lp n, lq n with LSome a, LSome b => r = cmp_result' a b | LNone, _ => r = treport0 | _, _ => False end) l reports /\
        s = fold_right (fun r n => rp_same r + n)%N 0%N reports /\ d = fold_right (fun r n => rp_diff r + n)%N 0%N reports
    | None => exists n, In n l /\ match lp n, lq n with LErr, _ => True | LSome _, LErr => True | LSome _, LNone => True | _, _ => False end end) as G.
  { induction l as [|n l IH]; cbn [cmp_tests]; [repeat split; constructor|]. destruct (lp n) as [| |a] eqn:Ea.
    - exists n. rewrite Ea. split; [left; reflexivity|exact I].
    - destruct (cmp_tests quote unified key mult lp lq l) as [[[s d] rs]|].
      + destruct IH as (I1 & I2 & I3). split; [constructor; [rewrite Ea; reflexivity|exact I1]|]. cbn [fold_right rp_same rp_diff treport0]. rewrite I2, I3. split; reflexivity.
      + destruct IH as (m & Hm & H). exists m. split; [right; exact Hm|exact H].
    - destruct (lq n) as [| |b] eqn:Eb; try (exists n; rewrite Ea, Eb; split; [left; reflexivity|exact I]).
      destruct (cmp_tests quote unified key mult lp lq l) as [[[s d] rs]|].
      + destruct IH as (I1 & I2 & I3). split; [constructor; [rewrite Ea, Eb; reflexivity|exact I1]|]. cbn [fold_right]. rewrite I2, I3. split; reflexivity.
      + destruct IH as (m & Hm & H). exists m. split; [right; exact Hm|exact H]. }
  specialize (G (bsort names)). destruct (cmp_tests quote unified key mult lp lq (bsort names)) as [[[s d] rs]|]; [exact G|]. destruct G as (n & Hn & H). exists n. split; [apply bsort_in, Hn|exact H].
Qed.
End Fields.
Print Assumptions C41_matching_one_to_one.
Print Assumptions C41_field_changes_exact.
Print Assumptions C41_callers_listed.
Print Assumptions C41_counts_exact.
Print Assumptions C41_no_difference_iff.
Print Assumptions C41_identical_results.
Print Assumptions C41_regression_exact.
Print Assumptions C41_outcomes_kept.
Print Assumptions C41_time_changes_real.
Print Assumptions C41_all_tests.

(** ** Concrete cases *)
Definition q41 (s : bytes) : bytes := B """" ++ s ++ B """".
Definition u41 (a b : bytes) : option bytes := None.
Definition key41 (f : cframe) : bytes := match cf_stack f with Some (x :: _) => sf_func x | _ => [] end.
Definition call41 (site : string) (t : N) (fs : list (string * string)) : cframe :=
  CFrame (Some (map (fun e => (B (fst e), FVal (B (snd e)) None)) fs)) (Some [SFrame (B "./a.go") 3 (B site)]) t.
Definition res41 (callers : list (string * list cframe)) (panics : list (string * list string)) (fail : bool) : tresult :=
  TResult (B "p.TestA") (B "TestA") (Some (map (fun e => (B (fst e), snd e)) callers)) (Some (map (fun e => (B (fst e), map B (snd e))) panics)) None 1 fail None.
Definition pre41 : tresult := res41 [("p.F", [call41 "m" 10 [("x", "1"); ("y", "2")]; call41 "n" 20 [("x", "5")]; call41 "m" 30 [("x", "3")]]); ("p.G", [call41 "m" 7 [("a", "1")]])]%string [("p.F", ["boom"; "boom"; "bang"])]%string false.
Definition post41 : tresult := res41 [("p.F", [call41 "m" 10 [("x", "1"); ("z", "2")]; call41 "m" 31 [("x", "4")]; call41 "n" 40 [("x", "5")]])]%string [("p.F", ["boom"; "bust"])]%string true.
(** Fields: F.x of the third call changed; F.y is gone; G is not called any more; one
    "boom" and "bang" gone, "bust" new: six differences; two fields agree. *)
Example C41_example : result_ok pre41 /\ result_ok post41 /\
  cmp_result q41 u41 key41 2 pre41 post41 =
  TReport (strip pre41) (strip post41) (Some [(B "p.F", [(B "x", [ascii_of_N 9] ++ B "'3'" ++ [ascii_of_N 10] ++ B "!=" ++ [ascii_of_N 10; ascii_of_N 9] ++ B "'4'")])]) (Some [(B "p.F", TChange 20 10 30)]) 1 2 6.
Proof.
  split; [|split].
  - repeat split; vm_compute; repeat constructor; cbn; intuition discriminate.
  - repeat split; vm_compute; repeat constructor; cbn; intuition discriminate.
  - vm_compute. reflexivity.
Qed.
Example C41_time_example : let ds := intervals 0 0 (pair_times key41 (frames_of (res41 [("p.F", [call41 "m" 10 []; call41 "m" 15 []])]%string [] false) (B "p.F"))
    (frames_of (res41 [("p.F", [call41 "m" 10 []; call41 "m" 55 []])]%string [] false) (B "p.F"))) in
  ds = [(10, 10); (5, 45)]%N /\ slower 2 (5, 45)%N /\
  rp_times (cmp_result q41 u41 key41 2 (res41 [("p.F", [call41 "m" 10 []; call41 "m" 15 []])]%string [] false) (res41 [("p.F", [call41 "m" 10 []; call41 "m" 55 []])]%string [] false)) = Some [(B "p.F", TChange 40 5 45)].
Proof. vm_compute. auto. Qed.
Example C40_example : diff_values q41 u41 (B "vsha1-abcdef") (B "7") = B "<VALUE TOO LARGE ...cdef> != ""7""".
Proof. vm_compute. reflexivity. Qed.

(** ** What does not hold *)
(** Different digests can read the same. *)
Theorem C40_text_tells_values_apart_refuted : ~ forall quote unified v1 v2 w1 w2, v1 <> v2 -> diff_values quote unified v1 v2 = diff_values quote unified w1 w2 -> v1 = w1 /\ v2 = w2.
Proof. intros H. specialize (H q41 u41 (B "vsha1-aXXXX") (B "vsha1-bXXXX") (B "vsha1-cXXXX") (B "vsha1-dXXXX")). destruct H as [H _]; [vm_compute; discriminate|vm_compute; reflexivity|vm_compute in H; discriminate]. Qed.

(** New calls, new callers and new fields after the update are not reported at all. *)
Theorem C41_additions_reported_refuted :
  ~ forall quote unified key mult pre post, result_ok pre -> result_ok post -> rp_diff (cmp_result quote unified key mult pre post) = 0%N ->
      forall c, (length (frames_of post c) <= length (frames_of pre c))%nat /\ forall i f g, nth_error (frames_of pre c) i = Some f -> nth_error (frames_of post c) i = Some g -> (fields_of g <= fields_of f)%nat.
Proof.
  intros H. specialize (H q41 u41 key41 2%N (res41 [("p.F", [call41 "m" 1 [("x", "1")]])]%string [] false) (res41 [("p.F", [call41 "m" 1 [("x", "1")]; call41 "m" 2 [("x", "9")]])]%string [] false)).
  specialize (H ltac:(repeat split; vm_compute; repeat constructor; cbn; intuition discriminate) ltac:(repeat split; vm_compute; repeat constructor; cbn; intuition discriminate) eq_refl (B "p.F")).
  destruct H as [H _]. vm_compute in H. lia.
Qed.

(** A small speed-up hides a large slow-down of the same caller: the change kept is not
    the most significant one. *)
Theorem C41_most_significant_refuted :
  ~ forall quote unified key mult pre post c t, mget c (olist (rp_times (cmp_result quote unified key mult pre post))) = Some t ->
      forall d, In d (intervals 0 0 (pair_times key (frames_of pre c) (frames_of post c))) -> slower mult d \/ faster mult d -> (Z.abs (tc_diff (change_of d)) <= Z.abs (tc_diff t))%Z.
Proof.
  intros H. specialize (H q41 u41 key41 2%N (res41 [("p.F", [call41 "m" 10 []; call41 "m" 15 []])]%string [] false) (res41 [("p.F", [call41 "m" 60000 []; call41 "m" 60001 []])]%string [] false) (B "p.F") (TChange (-4) 5 1) eq_refl (10, 60000)%N).
  vm_compute in H. specialize (H (or_introl eq_refl) (or_introl eq_refl)). apply H. reflexivity.
Qed.
(** Tests only stored before the update are left out without notice: the comparison does
    not depend on them; tests only stored after it get an empty report. *)
Theorem C41_lost_tests_ignored_refuted :
  ~ forall quote unified key mult pre_names names lp lq s d rs, compare_results quote unified key mult (Some pre_names) (Some names) lp lq = Some (s, d, rs) ->
      (forall n, In n pre_names <-> exists r, lp n = LSome r) -> forall n, In n pre_names -> exists r, In r rs /\ tr_ident (rp_orig r) = n.
Proof.
  intros H. specialize (H q41 u41 key41 2%N [B "p.TestA"] [] (fun n => if beq n (B "p.TestA") then LSome pre41 else LNone) (fun _ => LNone) 0%N 0%N [] eq_refl).
  assert (forall n, In n [B "p.TestA"] <-> exists r, (if beq n (B "p.TestA") then LSome pre41 else LNone) = LSome r) as X.
  { intros n. destruct (beq_spec n (B "p.TestA")) as [->|N]; split.
    - intros _. eexists. reflexivity.
    - intros _. left. reflexivity.
    - intros [E|[]]. congruence.
    - intros [r E]. discriminate. }
  destruct (H X (B "p.TestA") (or_introl eq_refl)) as (r & [] & _).
Qed.
Print Assumptions C40_text_tells_values_apart_refuted.
Print Assumptions C41_additions_reported_refuted.
Print Assumptions C41_most_significant_refuted.
Print Assumptions C41_lost_tests_ignored_refuted.
