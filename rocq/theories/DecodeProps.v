(** More on C15 and C16: what decoding accepts, and the keys used for sharing. *)

From Verif Require Import Base Maps TypesModel TypesProps.

(** ** What a stored result stands for *)

(** The meaning of the stored form, without fuel: a reference stands for what the
    dictionary holds at that place, and there must be such a place.  A derivation is
    finite, so nothing that refers to itself has a meaning. *)
Inductive means_node (fvd : list encfvs) (nd : list encfv) : encfv -> fval -> Prop :=
| mn_ref : forall i v ci cvl e n, nth_error nd i = Some e -> means_node fvd nd e n ->
    means_node fvd nd (EFV (Some i) v ci cvl) n
| mn_children_ref : forall v i cvl fv c, nth_error fvd i = Some fv -> means_fields fvd nd fv c ->
    means_node fvd nd (EFV None v (Some i) cvl) (FVal v c)
| mn_children : forall v l c, means_fields fvd nd (Some l) c -> means_node fvd nd (EFV None v None (Some l)) (FVal v c)
| mn_leaf : forall v, means_node fvd nd (EFV None v None None) (FVal v None)
with means_fields (fvd : list encfvs) (nd : list encfv) : encfvs -> fvals -> Prop :=
| mf_nil : means_fields fvd nd None None
| mf_some : forall l r, means_entries fvd nd l r -> means_fields fvd nd (Some l) (Some r)
with means_entries (fvd : list encfvs) (nd : list encfv) : list (bytes * encfv) -> list (bytes * fval) -> Prop :=
| me_nil : means_entries fvd nd [] []
| me_cons : forall k e n l r, means_node fvd nd e n -> means_entries fvd nd l r ->
    means_entries fvd nd ((k, e) :: l) ((k, n) :: r).

Scheme mn_ind := Induction for means_node Sort Prop
  with mf_ind := Induction for means_fields Sort Prop
  with me_ind := Induction for means_entries Sort Prop.
Combined Scheme means_mutind from mn_ind, mf_ind, me_ind.

(** One stored frame. *)
Inductive means_frame (t : enctr) (f : encframe) : cframe -> Prop :=
| means_frame_intro : forall fv c st,
    match ef_fvi f with Some i => nth_error (et_fvdict t) i = Some fv | None => fv = ef_fv f end ->
    means_fields (et_fvdict t) (et_nodedict t) fv c ->
    match ef_si f with Some i => nth_error (et_stdict t) i = Some st | None => st = ef_st f end ->
    means_frame t f (CFrame c st (ef_t f)).

(** The frames by caller. *)
Definition means_frames (t : enctr) (l : list (bytes * list encframe)) (r : list (bytes * list cframe)) : Prop :=
  Forall2 (fun a b => fst a = fst b /\ Forall2 (means_frame t) (snd a) (snd b)) l r.

(** A stored result: everything but the frames is taken over. *)
Definition means (t : enctr) (tr : tresult) : Prop :=
  tr_ident tr = et_ident t /\ tr_name tr = et_name t /\ tr_ppanics tr = et_ppanics t /\ tr_mpanics tr = et_mpanics t /\
  tr_hit tr = et_hit t /\ tr_fail tr = et_fail t /\
  (exists cs, tr_callers tr = Some cs /\ means_frames t (olist (et_callers t)) cs) /\
  (olist (et_ext t) = [] /\ tr_ext tr = None \/
   olist (et_ext t) <> [] /\ exists xs, tr_ext tr = Some xs /\ means_frames t (olist (et_ext t)) xs).

Section Decode.
Variable fvd : list encfvs.
Variable nd : list encfv.

Lemma dmap_ok {A C} (f : A -> dres C) l r : dmap f l = DOk r <-> Forall2 (fun a c => f a = DOk c) l r.
Proof.
  revert r. induction l as [|a l IH]; intros r; cbn [dmap].
  - split; [intros H; injection H as <-; constructor|intros H; inversion H; reflexivity].
  - split.
    + intros H. destruct (f a) as [c| |] eqn:Ea; cbn [dbind] in H; try discriminate.
      destruct (dmap f l) as [cs| |] eqn:El; cbn [dbind] in H; try discriminate.
      injection H as <-. constructor; [exact Ea|]. apply IH. reflexivity.
    + intros H. inversion H as [|? c ? cs Hc Hs]; subst. rewrite Hc. cbn [dbind].
      apply IH in Hs. rewrite Hs. reflexivity.
Qed.

Lemma dec_sound fuel : (forall e n, dec_node fuel fvd nd e = DOk n -> means_node fvd nd e n) /\
  (forall efv idx c, dec_fv fuel fvd nd efv idx = DOk c ->
     exists fv, match idx with Some i => nth_error fvd i = Some fv | None => fv = efv end /\ means_fields fvd nd fv c).
Proof.
  induction fuel as [|fuel [IHn IHf]]; [split; intros; discriminate|]. split.
  - intros [ni v ci cvl] n H. cbn [dec_node] in H. destruct ni as [i|].
    + destruct (nth_error nd i) as [e|] eqn:E; [|discriminate]. eapply mn_ref; [exact E|apply IHn; exact H].
    + destruct ci as [i|].
      * destruct (dec_fv fuel fvd nd None (Some i)) as [c| |] eqn:E; cbn [dbind] in H; try discriminate.
        injection H as <-. apply IHf in E as (fv & E1 & E2). eapply mn_children_ref; eassumption.
      * destruct cvl as [l|].
        -- destruct (dec_fv fuel fvd nd (Some l) None) as [c| |] eqn:E; cbn [dbind] in H; try discriminate.
           injection H as <-. apply IHf in E as (fv & -> & E2). apply mn_children; exact E2.
        -- injection H as <-. apply mn_leaf.
  - intros efv idx c H. cbn [dec_fv] in H.
    assert (forall fv, match fv with
                       | None => DOk None
                       | Some l => dbind (dmap (fun e => dbind (dec_node fuel fvd nd (snd e)) (fun n => DOk (fst e, n))) l) (fun r => DOk (Some r))
                       end = DOk c -> means_fields fvd nd fv c) as G.
    { intros [l|] G; [|injection G as <-; constructor].
      destruct (dmap _ l) as [r| |] eqn:E; cbn [dbind] in G; try discriminate. injection G as <-.
      constructor. apply dmap_ok in E. clear H. induction E as [|[k e] [k' n] l r He _ IH]; [constructor|].
      cbn [fst snd] in He. destruct (dec_node fuel fvd nd e) as [n'| |] eqn:En; cbn [dbind] in He; try discriminate.
      injection He as <- <-. constructor; [apply IHn; exact En|exact IH]. }
    destruct idx as [i|].
    + destruct (nth_error fvd i) as [fv|] eqn:E; [|discriminate]. exists fv. split; [reflexivity|]. apply G.
      destruct fv; exact H.
    + exists efv. split; [reflexivity|]. apply G. destruct efv; exact H.
Qed.

(** More fuel changes nothing once there is an outcome. *)
Lemma dmap_mono {A C} (f g : A -> dres C) l :
  (forall a, In a l -> f a <> DFuel -> g a = f a) -> dmap f l <> DFuel -> dmap g l = dmap f l.
Proof.
  induction l as [|a l IH]; intros Hfg Hn; [reflexivity|]. cbn [dmap] in *.
  assert (f a <> DFuel) as Ha by (intros E; rewrite E in Hn; apply Hn; reflexivity).
  rewrite (Hfg a (or_introl eq_refl) Ha). destruct (f a) as [c| |]; [|reflexivity|congruence]. cbn [dbind] in *.
  rewrite IH; [reflexivity| |].
  - intros b Hb. apply Hfg. right; exact Hb.
  - intros E. rewrite E in Hn. apply Hn. reflexivity.
Qed.

Lemma dec_mono fuel : (forall e, dec_node fuel fvd nd e <> DFuel -> dec_node (S fuel) fvd nd e = dec_node fuel fvd nd e) /\
  (forall efv idx, dec_fv fuel fvd nd efv idx <> DFuel -> dec_fv (S fuel) fvd nd efv idx = dec_fv fuel fvd nd efv idx).
Proof.
  induction fuel as [|fuel [IHn IHf]]; [split; intros; cbn in *; congruence|]. split.
  - intros [ni v ci cvl] H.
    change (dec_node (S (S fuel)) fvd nd (EFV ni v ci cvl)) with
      (match ni with
       | Some i => match nth_error nd i with Some e' => dec_node (S fuel) fvd nd e' | None => DErr end
       | None => match ci, cvl with
                 | Some i, _ => dbind (dec_fv (S fuel) fvd nd None (Some i)) (fun c => DOk (FVal v c))
                 | None, Some l => dbind (dec_fv (S fuel) fvd nd (Some l) None) (fun c => DOk (FVal v c))
                 | None, None => DOk (FVal v None)
                 end
       end).
    cbn [dec_node] in H |- *.
    destruct ni as [i|]; [destruct (nth_error nd i); [apply IHn; exact H|reflexivity]|].
    destruct ci as [i|]; [|destruct cvl as [l|]; [|reflexivity]];
      (rewrite IHf; [reflexivity|intros E; rewrite E in H; apply H; reflexivity]).
  - intros efv idx H.
    change (dec_fv (S (S fuel)) fvd nd efv idx) with
      (match (match idx with Some i => nth_error fvd i | None => Some efv end) with
       | None => DErr
       | Some None => DOk None
       | Some (Some l) =>
           dbind (dmap (fun e => dbind (dec_node (S fuel) fvd nd (snd e)) (fun n => DOk (fst e, n))) l) (fun r => DOk (Some r))
       end).
    cbn [dec_fv] in H |- *.
    destruct (match idx with Some i => nth_error fvd i | None => Some efv end) as [[l|]|]; try reflexivity.
    rewrite (dmap_mono (fun e => dbind (dec_node fuel fvd nd (snd e)) (fun n => DOk (fst e, n)))); [reflexivity| |].
    + intros a _ Ha. rewrite IHn; [reflexivity|]. intros E. rewrite E in Ha. apply Ha. reflexivity.
    + intros E. rewrite E in H. apply H. reflexivity.
Qed.

Lemma dec_node_le fuel fuel' e : (fuel <= fuel')%nat -> dec_node fuel fvd nd e <> DFuel ->
  dec_node fuel' fvd nd e = dec_node fuel fvd nd e.
Proof.
  induction 1 as [|m Hm IH]; intros H; [reflexivity|]. rewrite <- (IH H). apply dec_mono. rewrite (IH H). exact H.
Qed.
Lemma dec_fv_le fuel fuel' efv idx : (fuel <= fuel')%nat -> dec_fv fuel fvd nd efv idx <> DFuel ->
  dec_fv fuel' fvd nd efv idx = dec_fv fuel fvd nd efv idx.
Proof.
  induction 1 as [|m Hm IH]; intros H; [reflexivity|]. rewrite <- (IH H). apply dec_mono. rewrite (IH H). exact H.
Qed.

Lemma dec_complete :
  (forall e n, means_node fvd nd e n -> exists fuel, dec_node fuel fvd nd e = DOk n) /\
  (forall fv c, means_fields fvd nd fv c -> exists fuel, forall efv idx,
     match idx with Some i => nth_error fvd i = Some fv | None => fv = efv end -> dec_fv fuel fvd nd efv idx = DOk c) /\
  (forall l r, means_entries fvd nd l r -> exists fuel,
     dmap (fun e => dbind (dec_node fuel fvd nd (snd e)) (fun n => DOk (fst e, n))) l = DOk r).
Proof.
  pose (P1 := fun e n (_ : means_node fvd nd e n) => exists fuel, dec_node fuel fvd nd e = DOk n).
  pose (P2 := fun fv c (_ : means_fields fvd nd fv c) => exists fuel, forall efv idx,
     match idx with Some i => nth_error fvd i = Some fv | None => fv = efv end -> dec_fv fuel fvd nd efv idx = DOk c).
  pose (P3 := fun l r (_ : means_entries fvd nd l r) => exists fuel,
     dmap (fun e => dbind (dec_node fuel fvd nd (snd e)) (fun n => DOk (fst e, n))) l = DOk r).
  apply (means_mutind fvd nd P1 P2 P3); unfold P1, P2, P3; clear P1 P2 P3.
  - intros i v ci cvl e n E _ [f IH]. exists (S f). cbn [dec_node]. rewrite E. exact IH.
  - intros v i cvl fv c E _ [f IH]. exists (S f). cbn [dec_node]. rewrite (IH None (Some i)) by exact E. reflexivity.
  - intros v l c _ [f IH]. exists (S f). cbn [dec_node]. rewrite (IH (Some l) None) by reflexivity. reflexivity.
  - intros v. exists 1%nat. reflexivity.
  - exists 1%nat. intros efv idx E. cbn [dec_fv]. destruct idx as [i|]; [rewrite E; reflexivity|subst efv; reflexivity].
  - intros l r _ [f IH]. exists (S f). intros efv idx E. cbn [dec_fv].
    destruct idx as [i|]; [rewrite E|subst efv]; rewrite IH; reflexivity.
  - exists 0%nat. reflexivity.
  - intros k e n l r _ [f1 IH1] _ [f2 IH2]. exists (Nat.max f1 f2). cbn [dmap fst snd].
    rewrite (dec_node_le f1 (Nat.max f1 f2)) by (try lia; rewrite IH1; discriminate). rewrite IH1. cbn [dbind].
    rewrite (dmap_mono (fun e0 => dbind (dec_node f2 fvd nd (snd e0)) (fun n0 => DOk (fst e0, n0)))).
    + rewrite IH2. reflexivity.
    + intros a _ Ha. rewrite (dec_node_le f2 (Nat.max f1 f2)); [reflexivity|lia|]. intros E. rewrite E in Ha. apply Ha. reflexivity.
    + rewrite IH2. discriminate.
Qed.
End Decode.

Section Results.
Variable t : enctr.

Lemma frame_sound fuel f c : dec_frame fuel t f = DOk c -> means_frame t f c.
Proof.
  unfold dec_frame. intros H.
  destruct (dec_fv fuel (et_fvdict t) (et_nodedict t) (ef_fv f) (ef_fvi f)) as [fv| |] eqn:E; cbn [dbind] in H; try discriminate.
  apply dec_sound in E as (g & E1 & E2). destruct (ef_si f) as [i|] eqn:Es.
  - destruct (nth_error (et_stdict t) i) as [st|] eqn:En; [|discriminate]. injection H as <-.
    eapply means_frame_intro; [exact E1|exact E2|]. rewrite Es. exact En.
  - injection H as <-. eapply means_frame_intro; [exact E1|exact E2|]. rewrite Es. reflexivity.
Qed.

Lemma frame_mono fuel fuel' f : (fuel <= fuel')%nat -> dec_frame fuel t f <> DFuel -> dec_frame fuel' t f = dec_frame fuel t f.
Proof.
  unfold dec_frame. intros L H. rewrite (dec_fv_le _ _ fuel fuel' _ _ L); [reflexivity|].
  intros E. rewrite E in H. apply H. reflexivity.
Qed.

Lemma frame_complete f c : means_frame t f c -> exists fuel, dec_frame fuel t f = DOk c.
Proof.
  intros [fv c' st E1 E2 E3]. apply (proj1 (proj2 (dec_complete _ _))) in E2 as [fuel H]. exists fuel. unfold dec_frame.
  rewrite (H (ef_fv f) (ef_fvi f) E1). cbn [dbind]. destruct (ef_si f) as [i|]; [rewrite E3|rewrite E3]; reflexivity.
Qed.

Lemma dmap_complete {A C} (g : nat -> A -> dres C) (R : A -> C -> Prop) :
  (forall a c, R a c -> exists fuel, g fuel a = DOk c) ->
  (forall fuel fuel' a, (fuel <= fuel')%nat -> g fuel a <> DFuel -> g fuel' a = g fuel a) ->
  forall l r, Forall2 R l r -> exists fuel, dmap (g fuel) l = DOk r.
Proof.
  intros Hc Hm l r H. induction H as [|a c l r Ha _ [f2 IH]]; [exists 0%nat; reflexivity|].
  destruct (Hc a c Ha) as [f1 H1]. exists (Nat.max f1 f2). cbn [dmap].
  rewrite (Hm f1 (Nat.max f1 f2)) by (try lia; rewrite H1; discriminate). rewrite H1. cbn [dbind].
  rewrite (dmap_mono (g f2)); [rewrite IH; reflexivity| |rewrite IH; discriminate].
  intros b _ Hb. apply Hm; [lia|exact Hb].
Qed.

Definition dec_caller (fuel : nat) (e : bytes * list encframe) : dres (bytes * list cframe) :=
  dbind (dmap (dec_frame fuel t) (snd e)) (fun fs => DOk (fst e, fs)).

Lemma caller_mono fuel fuel' e : (fuel <= fuel')%nat -> dec_caller fuel e <> DFuel -> dec_caller fuel' e = dec_caller fuel e.
Proof.
  unfold dec_caller. intros L H. rewrite (dmap_mono (dec_frame fuel t)); [reflexivity| |].
  - intros a _ Ha. apply frame_mono; assumption.
  - intros E. rewrite E in H. apply H. reflexivity.
Qed.

Lemma map_mono fuel fuel' l : (fuel <= fuel')%nat -> dec_frame_map fuel t l <> DFuel -> dec_frame_map fuel' t l = dec_frame_map fuel t l.
Proof.
  intros L H. apply (dmap_mono (dec_caller fuel) (dec_caller fuel')); [|exact H].
  intros a _ Ha. apply caller_mono; assumption.
Qed.

Lemma map_sound fuel l r : dec_frame_map fuel t l = DOk r -> means_frames t l r.
Proof.
  unfold dec_frame_map, means_frames. rewrite dmap_ok. induction 1 as [|a c l r Ha _ IH]; constructor; [|exact IH].
  destruct (dmap (dec_frame fuel t) (snd a)) as [fs| |] eqn:E; cbn [dbind] in Ha; try discriminate.
  injection Ha as <-. split; [reflexivity|]. cbn [snd]. apply dmap_ok in E. clear IH.
  induction E as [|x y xs ys Hx _ IH]; constructor; [eapply frame_sound; exact Hx|exact IH].
Qed.

Lemma map_complete l r : means_frames t l r -> exists fuel, dec_frame_map fuel t l = DOk r.
Proof.
  apply (dmap_complete dec_caller (fun a b => fst a = fst b /\ Forall2 (means_frame t) (snd a) (snd b))).
  - intros [k fs] [k' gs] [E H]. cbn [fst snd] in *. subst k'.
    destruct (dmap_complete (fun fuel => dec_frame fuel t) (means_frame t) frame_complete frame_mono fs gs H) as [fuel Hf].
    exists fuel. unfold dec_caller. cbn [fst snd]. rewrite Hf. reflexivity.
  - exact caller_mono.
Qed.
End Results.

(** ** C15 *)

(** Decoding succeeds exactly on what has a meaning, with that meaning: every
    reference reached must be within its dictionary. *)
Theorem C15_decoding_exact : forall t tr, (exists fuel, unmarshal fuel t = DOk tr) <-> means t tr.
Proof.
  intros t tr. unfold unmarshal, means. split.
  - intros [fuel H]. destruct (dec_frame_map fuel t (olist (et_callers t))) as [cs| |] eqn:Ec; cbn [dbind] in H; try discriminate.
    apply map_sound in Ec. destruct (olist (et_ext t)) as [|x xs] eqn:Ex.
    + cbn [dbind] in H. injection H as <-. cbn. intuition eauto.
    + destruct (dec_frame_map fuel t (x :: xs)) as [es| |] eqn:Ee; cbn [dbind] in H; try discriminate.
      apply map_sound in Ee. injection H as <-. cbn.
      repeat (split; [reflexivity|]). split; [eauto|]. right. split; [discriminate|eauto].
  - intros (E1 & E2 & E3 & E4 & E5 & E6 & (cs & Hcs & Mc) & Hx).
    apply map_complete in Mc as [f1 H1]. destruct tr as [a b c d e f g h]. cbn [tr_ident tr_name tr_callers tr_ppanics tr_mpanics tr_hit tr_fail tr_ext] in *. subst.
    destruct Hx as [[Ex Eh]|[Ex (xs & Eh & Mx)]].
    + subst h. exists f1. rewrite H1, Ex. reflexivity.
    + subst h. apply map_complete in Mx as [f2 H2]. exists (Nat.max f1 f2).
      rewrite (map_mono t f1 (Nat.max f1 f2)) by (try lia; rewrite H1; discriminate). rewrite H1. cbn [dbind].
      destruct (olist (et_ext t)) as [|x l] eqn:El; [congruence|].
      rewrite (map_mono t f2 (Nat.max f1 f2)) by (try lia; rewrite H2; discriminate). rewrite H2. reflexivity.
Qed.
Print Assumptions C15_decoding_exact.

Lemma unmarshal_mono t fuel fuel' : (fuel <= fuel')%nat -> unmarshal fuel t <> DFuel -> unmarshal fuel' t = unmarshal fuel t.
Proof.
  unfold unmarshal. intros L H.
  assert (dec_frame_map fuel t (olist (et_callers t)) <> DFuel) as H1 by (intros E; rewrite E in H; apply H; reflexivity).
  rewrite (map_mono t fuel fuel' _ L H1). destruct (dec_frame_map fuel t (olist (et_callers t))) as [cs| |]; [|reflexivity|congruence].
  cbn [dbind] in *. destruct (olist (et_ext t)) as [|x xs]; [reflexivity|].
  rewrite (map_mono t fuel fuel' _ L); [reflexivity|]. intros E. rewrite E in H. apply H. reflexivity.
Qed.

(** The outcome is one: what is rejected stands for nothing, and nothing is decoded in
    two ways. *)
Theorem C15_decoding_one_outcome : forall t fuel,
  (unmarshal fuel t = DErr -> forall tr, ~ means t tr) /\
  (forall tr tr', unmarshal fuel t = DOk tr -> means t tr' -> tr' = tr).
Proof.
  intros t fuel. split.
  - intros H tr M. apply C15_decoding_exact in M as [f M].
    pose proof (unmarshal_mono t fuel (Nat.max fuel f)) as A. pose proof (unmarshal_mono t f (Nat.max fuel f)) as C.
    rewrite H in A. rewrite M in C. rewrite A in C by (try lia; discriminate). specialize (C ltac:(lia) ltac:(discriminate)). discriminate.
  - intros tr tr' H M. apply C15_decoding_exact in M as [f M].
    pose proof (unmarshal_mono t fuel (Nat.max fuel f)) as A. pose proof (unmarshal_mono t f (Nat.max fuel f)) as C.
    rewrite H in A. rewrite M in C. rewrite A in C by (try lia; discriminate). specialize (C ltac:(lia) ltac:(discriminate)). congruence.
Qed.
Print Assumptions C15_decoding_one_outcome.

(** A stored result with a node reference, a reference to children and one to a
    stack; the same with a reference beyond the dictionary. *)
Definition ex_refs (i : nat) : enctr :=
  EncTR (B "T") (B "TestA")
    (Some [(B "m.F", [EFrame None (Some [(B "x", EFV (Some i) [] None None)]) (Some 0%nat) None 3%N])])
    None None 1%Z false None [Some [(B "y", EFV None (B "1") None None)]] [EFV None [] (Some 0%nat) None] [Some [SFrame (B "m.go") 1%N (B "m.F")]].
Example C15_decoding_example :
  means (ex_refs 0) (TResult (B "T") (B "TestA")
    (Some [(B "m.F", [CFrame (Some [(B "x", FVal [] (Some [(B "y", FVal (B "1") None)]))]) (Some [SFrame (B "m.go") 1%N (B "m.F")]) 3%N])])
    None None 1%Z false None) /\ unmarshal 9 (ex_refs 1) = DErr.
Proof. split; [apply C15_decoding_exact; exists 9%nat; reflexivity|reflexivity]. Qed.

(** ** C16 *)

(** Keys are at most 20 bytes long, short texts stand for themselves, and two texts
    share a key only when they are equal, when the hash collides, or when one of them
    is the hash of the other. *)
Theorem C16_keys : forall sha1, (forall b, length (sha1 b) = 20%nat) ->
  (forall b, (length (bytes_key sha1 b) <= 20)%nat) /\
  (forall b, (length b <= 20)%nat -> bytes_key sha1 b = b /\ string_key sha1 b = b) /\
  (forall b, string_key sha1 b = bytes_key sha1 b) /\
  (forall a b, bytes_key sha1 a = bytes_key sha1 b ->
     a = b \/ sha1 a = sha1 b \/ sha1 a = b \/ sha1 b = a).
Proof.
  intros sha1 L.
  assert (forall b : bytes, (blen b <=? 20)%N = true <-> (length b <= 20)%nat) as Lb.
  { intros b. unfold blen. rewrite N.leb_le. lia. }
  repeat split.
  - intros b. unfold bytes_key. destruct (blen b <=? 20)%N eqn:E; [apply Lb; exact E|rewrite L; lia].
  - unfold bytes_key. apply Lb in H. rewrite H. reflexivity.
  - unfold string_key. apply Lb in H. rewrite H. reflexivity.
  - intros b. unfold string_key, bytes_key. destruct (blen b <=? 20)%N; reflexivity.
  - intros a b. unfold bytes_key. destruct (blen a <=? 20)%N, (blen b <=? 20)%N; auto.
Qed.
Print Assumptions C16_keys.
Example C16_keys_ex : bytes_key (fun _ => repeat "h"%char 20) (B "short") = B "short" /\
  bytes_key (fun _ => repeat "h"%char 20) (B "longer than twenty bytes") = repeat "h"%char 20.
Proof. split; reflexivity. Qed.

(** A nil map, an empty one and others are told apart. *)
Theorem C16_nil_empty_others_apart : forall sha1, (forall b, length (sha1 b) = 20%nat) ->
  forall f g, fvals_id sha1 f = fvals_id sha1 g -> (f = None <-> g = None) /\ (f = Some [] <-> g = Some []).
Proof.
  intros sha1 L f g E.
  assert (forall e (l : list (bytes * fval)), sha1 (ser_map (e :: l)) <> [] /\ sha1 (ser_map (e :: l)) <> B "empty") as N.
  { intros e l. split; intros Z; apply (f_equal (@length _)) in Z; rewrite L in Z; discriminate. }
  destruct f as [[|e f]|], g as [[|e' g]|]; unfold fvals_id in E; try discriminate E.
  - split; split; intros Z; first [discriminate Z|reflexivity].
  - exfalso. apply (proj2 (N e' g)). symmetry. exact E.
  - exfalso. apply (proj2 (N e f)). exact E.
  - split; split; intros Z; first [discriminate Z|reflexivity].
  - exfalso. apply (proj1 (N e f)). exact E.
  - exfalso. apply (proj1 (N e' g)). symmetry. exact E.
  - split; split; intros Z; first [discriminate Z|reflexivity].
Qed.
Print Assumptions C16_nil_empty_others_apart.
Example C16_nil_empty_ex : fvals_id (fun _ => repeat "h"%char 20) (Some []) <> fvals_id (fun _ => repeat "h"%char 20) (Some [(B "x", FVal [] None)]).
Proof. discriminate. Qed.

(** The key of a stack frame tells file, line and function apart when files end in
    ".go" and functions do not contain ".go" (and the key does not collide). *)
Lemma atoi_acc_digits s : forall k n, atoi_acc k s = Some n -> Forall (fun c => is_digit c = true) s.
Proof.
  induction s as [|c s IH]; intros k n H; [constructor|]. cbn [atoi_acc] in H.
  destruct (is_digit c) eqn:E; [|discriminate]. constructor; [exact E|eapply IH; exact H].
Qed.
Lemma itoa_digits n : itoa n <> [] /\ Forall (fun c => is_digit c = true) (itoa n).
Proof.
  pose proof (atoi_itoa n) as H. unfold atoi in H. destruct (itoa n) as [|c s]; [discriminate|].
  split; [discriminate|]. eapply atoi_acc_digits; exact H.
Qed.
Lemma digits_prefix d g x y c : Forall (fun c => is_digit c = true) d -> is_digit c = false ->
  d ++ g = x ++ c :: y -> exists z, x = d ++ z.
Proof.
  revert x. induction d as [|a d IH]; intros x Hd Hc E; [exists x; reflexivity|].
  inversion Hd as [|? ? Ha Hd']; subst. destruct x as [|b x]; cbn in E; injection E as -> E; [congruence|].
  destruct (IH x Hd' Hc E) as [z ->]. exists z. reflexivity.
Qed.
Lemma digits_then d1 g1 d2 g2 : Forall (fun c => is_digit c = true) d1 -> Forall (fun c => is_digit c = true) d2 ->
  (forall c r, g1 = c :: r -> is_digit c = false) -> (forall c r, g2 = c :: r -> is_digit c = false) ->
  d1 ++ g1 = d2 ++ g2 -> d1 = d2 /\ g1 = g2.
Proof.
  revert d2. induction d1 as [|a d1 IH]; intros [|b d2] H1 H2 G1 G2 E; cbn in E.
  - auto.
  - subst g1. inversion H2 as [|? ? Hb _]; subst. rewrite (G1 b _ eq_refl) in Hb. discriminate.
  - subst g2. inversion H1 as [|? ? Ha _]; subst. rewrite (G2 a _ eq_refl) in Ha. discriminate.
  - inversion H1; inversion H2; subst. injection E as -> E. destruct (IH d2) as [-> ->]; auto.
Qed.
Lemma ends_go_prefix f1 r1 d1 g1 x (w : bytes) : f1 ++ d1 ++ g1 = (f1 ++ x) ++ w ->
  (exists r, f1 ++ x = r ++ B ".go") -> f1 = r1 ++ B ".go" ->
  d1 <> [] -> Forall (fun c => is_digit c = true) d1 -> (forall a b, g1 <> a ++ B ".go" ++ b) -> x = [].
Proof.
  intros E [r Er] Ef Hn Hd Hg. rewrite <- app_assoc in E. apply app_inv_head in E.
  destruct x as [|c x]; [reflexivity|exfalso].
  destruct d1 as [|a d1]; [congruence|]. inversion Hd as [|? ? Ha Hd']; subst.
  assert (forall y, (r1 ++ B ".go") ++ y = r ++ B ".go" -> y = c :: x -> (exists z, y = z ++ B ".go") \/ y = B "go" \/ y = B "o") as G.
  { intros y Ey Hy. destruct (app_eq_app _ _ _ _ Ey) as [l [[E1 E2]|[E1 E2]]]; [|left; exists l; exact E2].
    right. assert (length l <> 0)%nat as Ll.
    { destruct l; [|discriminate]. exfalso. cbn [app] in E2. rewrite Hy in E2. cbn in E2. injection E2 as <- _.
      cbn in E. injection E as -> _. discriminate. }
    destruct l as [|l1 [|l2 [|l3 l]]]; [cbn in Ll; lia| | |].
    - cbn in E2. injection E2 as _ E2. left. symmetry; exact E2.
    - cbn in E2. injection E2 as _ _ E2. right. symmetry; exact E2.
    - exfalso. cbn in E2. injection E2 as _ _ _ E2. destruct l; [|discriminate]. cbn in E2. subst y. discriminate. }
  destruct (G (c :: x)) as [[z Ez]|[Ez|Ez]]; [exact Er|reflexivity| | |].
  - rewrite Ez in E. rewrite <- app_assoc in E.
    destruct (digits_prefix (a :: d1) g1 z (B "go" ++ w) "."%char Hd eq_refl E) as [q ->].
    rewrite <- app_assoc in E. apply app_inv_head in E. exact (Hg q w E).
  - rewrite Ez in E. cbn in E. injection E as -> _. discriminate.
  - rewrite Ez in E. cbn in E. injection E as -> _. discriminate.
Qed.

Theorem C16_frame_key_is_faithful : forall sha1 f g,
  (exists r, sf_file f = r ++ B ".go") -> (exists r, sf_file g = r ++ B ".go") ->
  (forall a b, sf_func f <> a ++ B ".go" ++ b) -> (forall a b, sf_func g <> a ++ B ".go" ++ b) ->
  (forall c r, sf_func f = c :: r -> is_digit c = false) -> (forall c r, sf_func g = c :: r -> is_digit c = false) ->
  (let text x := sf_file x ++ itoa (sf_line x) ++ sf_func x in
   string_key sha1 (text f) = string_key sha1 (text g) -> text f = text g) ->
  sframe_id sha1 f = sframe_id sha1 g -> f = g.
Proof.
  intros sha1 [f1 l1 g1] [f2 l2 g2]. unfold sframe_id. cbn [sf_file sf_line sf_func].
  intros [r1 F1] [r2 F2] G1 G2 D1 D2 K H. apply K in H. clear K.
  destruct (itoa_digits l1) as [N1 I1], (itoa_digits l2) as [N2 I2].
  assert (f1 = f2) as ->.
  { destruct (Nat.le_ge_cases (length f1) (length f2)) as [L|L].
    - assert (f2 = f1 ++ skipn (length f1) f2) as Q.
      { pose proof (f_equal (firstn (length f1)) H) as Z. rewrite firstn_app, Nat.sub_diag, firstn_O, app_nil_r, firstn_all in Z.
        rewrite firstn_app in Z. replace (length f1 - length f2)%nat with 0%nat in Z by lia. rewrite firstn_O, app_nil_r in Z.
        rewrite Z at 1. symmetry. apply firstn_skipn. }
      pose proof (ends_go_prefix f1 r1 (itoa l1) g1 (skipn (length f1) f2) (itoa l2 ++ g2)) as E.
      rewrite <- Q in E. specialize (E H (ex_intro _ r2 F2) F1 N1 I1 G1). rewrite E, app_nil_r in Q. congruence.
    - assert (f1 = f2 ++ skipn (length f2) f1) as Q.
      { pose proof (f_equal (firstn (length f2)) H) as Z. rewrite (firstn_app _ f2), Nat.sub_diag, firstn_O, app_nil_r, firstn_all in Z.
        rewrite firstn_app in Z. replace (length f2 - length f1)%nat with 0%nat in Z by lia. rewrite firstn_O, app_nil_r in Z.
        rewrite <- Z at 1. symmetry. apply firstn_skipn. }
      pose proof (ends_go_prefix f2 r2 (itoa l2) g2 (skipn (length f2) f1) (itoa l1 ++ g1)) as E.
      rewrite <- Q in E. specialize (E (eq_sym H) (ex_intro _ r1 F1) F2 N2 I2 G2). rewrite E, app_nil_r in Q. congruence. }
  apply app_inv_head in H. apply digits_then in H as [E ->]; auto.
  f_equal. pose proof (f_equal atoi E) as A. rewrite !atoi_itoa in A. congruence.
Qed.
Print Assumptions C16_frame_key_is_faithful.
Example C16_frame_key_ex :
  (exists r, B "./m.go" = r ++ B ".go") /\ (forall a b, B "m.F" <> a ++ B ".go" ++ b) /\
  (forall c r, B "m.F" = c :: r -> is_digit c = false) /\
  sframe_id (fun b => b) (SFrame (B "./m.go") 1 (B "m.F")) <> sframe_id (fun b => b) (SFrame (B "./m.go") 2 (B "m.F")).
Proof.
  split; [exists (B "./m"); reflexivity|]. split; [|split; [intros c r E; injection E as <- _; reflexivity|discriminate]].
  intros a b E. destruct a as [|? [|? [|? a]]]; try discriminate E. apply (f_equal (@length _)) in E. cbn in E. rewrite app_length in E. cbn in E. lia.
Qed.

(** Without the provisos frames are confused by every hash. *)
Theorem C16_frame_key_refuted : exists f g, f <> g /\ forall sha1, sframe_id sha1 f = sframe_id sha1 g.
Proof.
  exists (SFrame (B "gen1") 2 (B "F")), (SFrame (B "gen") 12 (B "F")). split; [discriminate|]. reflexivity.
Qed.
Print Assumptions C16_frame_key_refuted.
