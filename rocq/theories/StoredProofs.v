(** Lemmas for StoredProps.v: what is decoded are maps. *)
From Verif Require Import Base Maps StorageModel StorageSpec TypesModel TypesSpec TypesProofs TypesCodec TypesProps DecodeProps StableModel StableProps TestRunModel TestRunSpec TestRunProofs StoredModel.

(** ** Every map of the stored form has each name once *)
Inductive ewf : encfv -> Prop :=
  ewf_intro ni v ci cvl : NoDup (mkeys (olist cvl)) -> (forall k x, In (k, x) (olist cvl) -> ewf x) -> ewf (EFV ni v ci cvl).
Definition efvs_wf (f : encfvs) : Prop := NoDup (mkeys (olist f)) /\ forall k x, In (k, x) (olist f) -> ewf x.
Definition est_wf (s : est) : Prop := Forall efvs_wf (e_fvd s) /\ Forall ewf (e_nd s).

Lemma ewf_plain ni v ci : ewf (EFV ni v ci None).
Proof. constructor; [constructor|intros k x []]. Qed.
Lemma upd_forall {A} (P : A -> Prop) l : forall p x, Forall P l -> P x -> Forall P (upd l p x).
Proof. induction l as [|y l IH]; intros [|p] x F H; cbn; inversion F; subst; constructor; auto. Qed.
Lemma map_entries_in {V W} (g : V -> W) (l : list (bytes * V)) k y : In (k, y) (map (fun e => (fst e, g (snd e))) l) -> exists x, In (k, x) l /\ y = g x.
Proof. rewrite in_map_iff. intros ([j x] & E & I). cbn [fst snd] in E. injection E as <- <-. eauto. Qed.
Lemma mkeys_map_snd {V W} (g : V -> W) (l : list (bytes * V)) : mkeys (map (fun e => (fst e, g (snd e))) l) = mkeys l.
Proof. unfold mkeys. rewrite map_map. reflexivity. Qed.

Section Enc.
Variable sha1 : bytes -> bytes.
Variable mp : stack -> bytes.
Variables fvc nc stc : bytes -> nat.

Lemma with_wf run key s : est_wf s -> (forall s, est_wf s -> efvs_wf (Some (fst (run s))) /\ est_wf (snd (run s))) ->
  efvs_wf (fst (fst (enc_fv_with fvc run key s))) /\ est_wf (snd (enc_fv_with fvc run key s)).
Proof.
  intros W H. unfold enc_fv_with.
  assert (efvs_wf None) as Wn by (split; [constructor|intros k x []]).
  destruct (match e_fvi s with Some m => if (1 <? fvc key)%nat then Some m else None | None => None end) as [m|].
  - destruct (mget key m) as [pos|]; [split; [exact Wn|exact W]|].
    match goal with |- context [run ?x] => specialize (H x); destruct (run x) as [l s2] end.
    destruct H as [Hl [H1 H2]]; [split; cbn; [apply Forall_app; split; [apply W|repeat constructor; intros k x []]|apply W]|].
    cbn [fst snd] in *. split; [exact Wn|]. split; cbn; [apply upd_forall; assumption|exact H2].
  - specialize (H s W). destruct (run s) as [l s1]. exact H.
Qed.
Lemma entries_wf l : (forall k x, In (k, x) l -> forall s, est_wf s -> ewf (fst (enc_node sha1 fvc nc x s)) /\ est_wf (snd (enc_node sha1 fvc nc x s))) ->
  forall s, est_wf s -> mkeys (fst (enc_entries sha1 fvc nc l s)) = mkeys l /\ (forall k x, In (k, x) (fst (enc_entries sha1 fvc nc l s)) -> ewf x) /\ est_wf (snd (enc_entries sha1 fvc nc l s)).
Proof.
  induction l as [|[k x] l IH]; intros H s W; [cbn; split; [reflexivity|]; split; [intros ? ? []|exact W]|].
  cbn [enc_entries]. destruct (H k x (or_introl eq_refl) s W) as [A C]. destruct (enc_node sha1 fvc nc x s) as [e s1]. cbn [fst snd] in A, C.
  destruct (IH (fun k' x' I => H k' x' (or_intror I)) s1 C) as (D & E & F). destruct (enc_entries sha1 fvc nc l s1) as [es s2]. cbn [fst snd] in *.
  split; [unfold mkeys in *; cbn [map fst]; f_equal; exact D|]. split; [|exact F]. intros k' x' [[= <- <-]|I]; [exact A|eapply E, I].
Qed.
Lemma enc_node_wf n : fwf n -> forall s, est_wf s -> ewf (fst (enc_node sha1 fvc nc n s)) /\ est_wf (snd (enc_node sha1 fvc nc n s)).
Proof.
  induction n as [v c IH] using fval_ind'. intros Wn. inversion Wn as [? ? ND Wc]; subst.
  assert (forall s, est_wf s -> let r := match olist c with
    | [] => (EFV None v None None, s)
    | l => let '(cvl, ci, s') := enc_fv_with fvc (enc_entries sha1 fvc nc l) (fvals_id sha1 c) s in
           match ci with Some i => (EFV None v (Some i) None, s') | None => (EFV None v None cvl, s') end
    end in ewf (fst r) /\ est_wf (snd r)) as Inl.
  { intros s W. destruct (olist c) as [|e l] eqn:El; [split; [apply ewf_plain|exact W]|]. rewrite <- El in *.
    assert (forall s, est_wf s -> efvs_wf (Some (fst (enc_entries sha1 fvc nc (olist c) s))) /\ est_wf (snd (enc_entries sha1 fvc nc (olist c) s))) as Run.
    { intros s' W'. destruct (entries_wf (olist c)) with (s := s') as (A & C & D); [intros k x I; apply (IH k x); [exact I|eapply Wc, I]|exact W'|].
      split; [|exact D]. split; cbn [olist]; [rewrite A; exact ND|exact C]. }
    destruct (with_wf (enc_entries sha1 fvc nc (olist c)) (fvals_id sha1 c) s W Run) as [A C].
    destruct (enc_fv_with fvc (enc_entries sha1 fvc nc (olist c)) (fvals_id sha1 c) s) as [[cvl ci] s']. cbn [fst snd] in *.
    destruct ci; cbn [fst snd]; (split; [|exact C]); [apply ewf_plain|constructor; apply A]. }
  intros s W. rewrite (enc_node_eq sha1 fvc nc). cbv zeta in Inl |- *.
  destruct (match e_ni s with Some m => if (1 <? nc (fval_id sha1 (FVal v c)))%nat then Some m else None | None => None end) as [m|]; [|apply Inl, W].
  destruct (mget _ m) as [pos|]; [split; [apply ewf_plain|exact W]|].
  match goal with |- context [match olist c with [] => (_, ?s0) | _ => _ end] => specialize (Inl s0) end.
  destruct (match olist c with [] => _ | _ => _ end) as [ef s2]. cbn [fst snd] in *.
  destruct Inl as [A [C D]]; [split; cbn; [apply W|apply Forall_app; split; [apply W|repeat constructor; intros k x []]]|].
  split; [apply ewf_plain|]. split; cbn; [exact C|apply upd_forall; assumption].
Qed.
Lemma enc_fv_wf f s : fvals_wf f -> est_wf s -> efvs_wf (fst (fst (enc_fv sha1 fvc nc f s))) /\ est_wf (snd (enc_fv sha1 fvc nc f s)).
Proof.
  intros [ND Wc] W. destruct f as [l|]; cbn [enc_fv]; [|split; [split; [constructor|intros k x []]|exact W]].
  apply with_wf; [exact W|]. intros s' W'. destruct (entries_wf l) with (s := s') as (A & C & D); [intros k x I; apply enc_node_wf; eapply Wc, I|exact W'|].
  split; [|exact D]. split; cbn [olist]; [rewrite A; exact ND|exact C].
Qed.
Lemma enc_frame_wf cf s : fvals_wf (cf_fields cf) -> est_wf (fst s) -> efvs_wf (ef_fv (fst (enc_frame sha1 mp fvc nc stc cf s))) /\ est_wf (fst (snd (enc_frame sha1 mp fvc nc stc cf s))).
Proof.
  intros Wf W. unfold enc_frame. destruct (enc_fv_wf (cf_fields cf) (fst s) Wf W) as [A C]. destruct (enc_fv sha1 fvc nc (cf_fields cf) (fst s)) as [[cvl ci] e'].
  destruct (enc_stack sha1 mp stc (cf_stack cf) (snd s)) as [[si st] s']. cbn [fst snd ef_fv] in *. split; [|exact C]. destruct ci; [split; [constructor|intros k x []]|exact A].
Qed.
Lemma enc_frames_wf l : forall s, frames_wf l -> est_wf (fst s) ->
  Forall (fun f => efvs_wf (ef_fv f)) (fst (enc_frames sha1 mp fvc nc stc l s)) /\ est_wf (fst (snd (enc_frames sha1 mp fvc nc stc l s))).
Proof.
  induction l as [|cf l IH]; intros s F W; [split; [constructor|exact W]|]. inversion F; subst. cbn [enc_frames].
  destruct (enc_frame_wf cf s) as [A C]; [assumption|exact W|]. destruct (enc_frame sha1 mp fvc nc stc cf s) as [e s1]. cbn [fst snd] in A, C.
  destruct (IH s1) as [D E]; [assumption|exact C|]. destruct (enc_frames sha1 mp fvc nc stc l s1) as [es s2]. cbn [fst snd] in *. split; [constructor; assumption|exact E].
Qed.
Lemma enc_map_wf l : forall s, (forall k fs, In (k, fs) l -> frames_wf fs) -> est_wf (fst s) ->
  mkeys (fst (enc_frame_map sha1 mp fvc nc stc l s)) = mkeys l /\
  (forall k fs, In (k, fs) (fst (enc_frame_map sha1 mp fvc nc stc l s)) -> Forall (fun f => efvs_wf (ef_fv f)) fs) /\ est_wf (fst (snd (enc_frame_map sha1 mp fvc nc stc l s))).
Proof.
  induction l as [|[k fs] l IH]; intros s F W; [split; [reflexivity|]; split; [intros ? ? []|exact W]|]. cbn [enc_frame_map].
  destruct (enc_frames_wf fs s) as [A C]; [eapply F; left; reflexivity|exact W|]. destruct (enc_frames sha1 mp fvc nc stc fs s) as [es s1]. cbn [fst snd] in A, C.
  destruct (IH s1) as (D & E & G); [intros k' fs' I; eapply F; right; exact I|exact C|]. destruct (enc_frame_map sha1 mp fvc nc stc l s1) as [r s2]. cbn [fst snd] in *.
  split; [unfold mkeys in *; cbn [map fst]; f_equal; exact D|]. split; [|exact G]. intros k' fs' [[= <- <-]|I]; [exact A|eapply E, I].
Qed.
End Enc.

Lemma wire_node_wf e : ewf e -> ewf (wire_node e).
Proof.
  intros H. induction H as [ni v ci cvl ND _ IH]. rewrite wire_node_eq. destruct cvl as [l|]; [|apply ewf_plain]. cbn [option_map olist] in *.
  destruct l as [|e l]; [apply ewf_plain|]. assert (forall m : list (bytes * encfv), m <> [] -> omit (Some m) = Some m) as O by (intros [|? ?] N; [contradiction|reflexivity]).
  rewrite O by discriminate. constructor; cbn [olist]; [rewrite mkeys_map_snd; exact ND|]. intros k y I. apply map_entries_in in I as (x & I & ->). eapply IH, I.
Qed.
Lemma wire_fvs_wf f : efvs_wf f -> efvs_wf (wire_fvs f).
Proof.
  intros [ND W]. destruct f as [l|]; [|split; [constructor|intros k x []]]. split; cbn [wire_fvs option_map olist] in *; [rewrite mkeys_map_snd; exact ND|].
  intros k y I. apply map_entries_in in I as (x & I & ->). apply wire_node_wf. eapply W, I.
Qed.
Lemma omit_wf f : efvs_wf f -> efvs_wf (omit f).
Proof. destruct f as [[|e l]|]; auto. Qed.

(** The stored form as a whole. *)
Definition frame_maps_wf (o : option (list (bytes * list encframe))) : Prop :=
  NoDup (mkeys (olist o)) /\ forall k fs, In (k, fs) (olist o) -> Forall (fun f => efvs_wf (ef_fv f)) fs.
Definition enctr_wf (t : enctr) : Prop :=
  frame_maps_wf (et_callers t) /\ Forall efvs_wf (et_fvdict t) /\ Forall ewf (et_nodedict t).
Lemma marshal_wf sha1 mp trc tr : result_wf tr -> NoDup (mkeys (olist (tr_callers tr))) -> enctr_wf (marshal sha1 mp trc tr).
Proof.
  intros W ND. unfold marshal.
  match goal with |- context [enc_frame_map _ _ ?a ?b ?c (olist (tr_callers tr)) ?s] => destruct (enc_map_wf sha1 mp a b c (olist (tr_callers tr)) s) as (A & C & D); [| |destruct (enc_frame_map sha1 mp a b c (olist (tr_callers tr)) s) as [cr s1] eqn:E1] end.
  { intros k fs I. unfold frames_wf. rewrite Forall_forall. intros f Hf. apply W. unfold all_frames. apply in_or_app. left. apply in_concat. exists fs. split; [|exact Hf]. apply in_map_iff. exists (k, fs). auto. }
  { split; constructor. }
  match goal with |- context [enc_frame_map _ _ ?a ?b ?c (olist (tr_ext tr)) ?s] => destruct (enc_map_wf sha1 mp a b c (olist (tr_ext tr)) s) as (_ & _ & G); [| |destruct (enc_frame_map sha1 mp a b c (olist (tr_ext tr)) s) as [ex s2] eqn:E2] end.
  { intros k fs I. unfold frames_wf. rewrite Forall_forall. intros f Hf. apply W. unfold all_frames. apply in_or_app. right. apply in_concat. exists fs. split; [|exact Hf]. apply in_map_iff. exists (k, fs). auto. }
  { exact D. }
  cbn [fst snd] in *. split; [|split; cbn [et_fvdict et_nodedict]].
  - split; cbn [et_callers olist]; unfold wire_frame_map; [rewrite mkeys_map_snd, A; exact ND|]. intros k fs I. apply map_entries_in in I as (l & I & ->). apply Forall_map. eapply Forall_impl; [|eapply C, I].
    intros f Hf. cbn. apply wire_fvs_wf, omit_wf, Hf.
  - apply Forall_map. eapply Forall_impl; [|apply G]. exact wire_fvs_wf.
  - apply Forall_map. eapply Forall_impl; [|apply G]. exact wire_node_wf.
Qed.

(** ** What it stands for has each name once *)
Lemma means_wf fvd nd : Forall efvs_wf fvd -> Forall ewf nd ->
  (forall e n, means_node fvd nd e n -> ewf e -> fwf n) /\ (forall f c, means_fields fvd nd f c -> efvs_wf f -> fvals_wf c) /\
  (forall l r, means_entries fvd nd l r -> (forall k x, In (k, x) l -> ewf x) -> mkeys r = mkeys l /\ forall k x, In (k, x) r -> fwf x).
Proof.
  intros Wf Wn. rewrite Forall_forall in Wf, Wn. apply means_mutind; intros.
  - apply H. apply Wn. eapply nth_error_In; eassumption.
  - destruct H as [A C]; [apply Wf; eapply nth_error_In; eassumption|]. constructor; assumption.
  - inversion H0 as [? ? ? ? A C]; subst. destruct H as [D E]; [split; assumption|]. constructor; assumption.
  - constructor; [constructor|intros k x []].
  - split; [constructor|intros k x []].
  - destruct H0 as [ND C]. destruct H as [E F]; [exact C|]. split; cbn [olist] in *; [rewrite E; exact ND|exact F].
  - split; [reflexivity|intros k x []].
  - destruct H0 as [A C]; [intros k' x I; eapply H1; right; exact I|]. split; [unfold mkeys in *; cbn [map fst]; f_equal; exact A|]. intros k' x [[= <- <-]|I]; [apply H; eapply H1; left; reflexivity|eapply C, I].
Qed.
Lemma loaded_wf t r : enctr_wf t -> means t r -> tr_callers r <> None /\ NoDup (mkeys (olist (tr_callers r))) /\ forall k fs, In (k, fs) (olist (tr_callers r)) -> frames_wf fs.
Proof.
  intros ((ND & Wc) & Wf & Wn) (_ & _ & _ & _ & _ & _ & (cs & E & M) & _). rewrite E. split; [discriminate|]. cbn [olist]. unfold means_frames in M.
  destruct (means_wf _ _ Wf Wn) as (_ & Mf & _). revert ND Wc M. generalize (olist (et_callers t)). intros l ND Wc M.
  assert (mkeys cs = mkeys l) as Ek by (clear - M; induction M as [|x y l' cs' [E _] _ IH]; [reflexivity|]; unfold mkeys in *; cbn [map]; congruence).
  split; [rewrite Ek; exact ND|]. intros k fs I. clear ND Ek E. induction M as [|x y l' cs' [Ex F] M IH]; [destruct I|]. destruct I as [->|I]; [|apply IH; [intros k' fs' I'; eapply Wc; right; exact I'|exact I]].
  destruct x as [kx fx]. cbn [fst snd] in *. pose proof (Wc kx fx (or_introl eq_refl)) as Wx. clear - F Wx Mf Wf. unfold frames_wf. revert Wx. induction F as [|f c fx' fs' Hc F IH]; intros Wx; [constructor|]. inversion Wx; subst. constructor; [|apply IH; assumption].
  inversion Hc as [fv c' st Ev Mv Es]; subst. cbn [cf_fields]. apply (Mf _ _ Mv). destruct (ef_fvi f) as [i|]; [rewrite Forall_forall in Wf; apply Wf; eapply nth_error_In; exact Ev|subst fv; assumption].
Qed.

(** ** The loop and the store *)
Section Loop.
Variable sha1 : bytes -> bytes.
Variable mp : stack -> bytes.
Variable pack : enctr -> bytes.
Variable visit : tresult -> tresult.
Variable E : Type.
Variable ident : nat -> bytes.
Variable ntests : nat.
Variable servers : list nat.
Variable force update : bool.
Notation lstep := (loop_step sha1 mp pack visit E ident ntests servers force update).
Notation lexec := (loop_exec sha1 mp pack visit E ident ntests servers force update).
Notation linit := (loop_init E servers).
Notation hist := (history sha1 mp pack visit E ident ntests servers force update).
Notation writ := (writes sha1 mp pack visit E ident).

Ltac dstep H :=
  unfold TestRunModel.step, set_test in H;
  repeat match type of H with
  | context [match ?x with _ => _ end] => let Q := fresh "Q" in destruct x eqn:Q
  end; try discriminate; injection H as <-;
  cbn [t_main t_next t_chan t_tests t_handler t_store t_total t_reached t_err t_rec] in *.

Lemma hist_snoc tr : forall st e st', lexec st tr = Some st' -> lstep st' e <> None -> hist st (tr ++ [e]) = hist st tr ++ writ st' e.
Proof.
  unfold loop_exec, loop_step. induction tr as [|x tr IH]; intros st e st' X N.
  - cbn in X. injection X as <-. cbn [app history]. unfold loop_step. destruct (TestRunModel.step _ _ _ _ _ _ _ _ _ st e); [apply app_nil_r|contradiction].
  - cbn [app history TestRunModel.exec] in *. unfold loop_step in *. destruct (TestRunModel.step _ _ _ _ _ _ _ _ _ st x) as [st1|]; [|discriminate]. rewrite (IH _ _ _ X N). apply app_assoc.
Qed.
Lemma hist_prefix tr tr' st st' : lexec st (tr ++ tr') = Some st' -> exists h, hist st (tr ++ tr') = hist st tr ++ h.
Proof.
  unfold loop_exec. revert st. induction tr as [|x tr IH]; intros st X; [cbn; eauto|]. cbn [app history TestRunModel.exec] in *. unfold loop_step in *.
  destruct (TestRunModel.step _ _ _ _ _ _ _ _ _ st x) as [st1|]; [|discriminate]. destruct (IH _ X) as (h & ->). exists h. apply app_assoc.
Qed.
Lemma last_snoc k h o : last_write k (h ++ [o]) = match o with Save k' b => if bytes_eq_dec k' k then Some b else last_write k h | Delete k' => if bytes_eq_dec k' k then None else last_write k h | Clear => None end.
Proof. unfold last_write. rewrite rev_app_distr. reflexivity. Qed.
Lemma mget_mset_if {V} k k' (v : V) m : mget k (mset k' v m) = if bytes_eq_dec k' k then Some v else mget k m.
Proof. destruct (bytes_eq_dec k' k) as [->|N]; [apply mget_mset_same|apply mget_mset_other; congruence]. Qed.

(** What was written is what the loop's own account of the store has. *)
Lemma hist_store tr st : lexec linit tr = Some st -> forall k, last_write k (hist linit tr) = mget k (t_store _ _ st).
Proof.
  intros X. pattern tr, st. revert tr st X. apply exec_ind; [reflexivity|]. intros tr st e st' X IH S k. rewrite (hist_snoc _ _ _ _ X) by (unfold loop_step; rewrite S; discriminate).
  destruct e; try (assert (t_store _ _ st' = t_store _ _ st) as -> by (dstep S; reflexivity); cbn [writes]; rewrite app_nil_r; apply IH).
  unfold TestRunModel.step, set_test in S. cbn [writes]. destruct (t_tests _ _ st i); try discriminate. destruct (final _ _ _) as [[[r c] l]|]; [|discriminate].
  destruct err as [[x v]|]; injection S as <-; cbn [t_store].
  - destruct v as [b|]; rewrite last_snoc; cbn [save_to]; [rewrite mget_mset_if, IH; reflexivity|rewrite mget_mdel, IH]. destruct (bytes_eq_dec (ident i) k) as [->|N]; [rewrite beq_refl; reflexivity|]. destruct (beq_spec k (ident i)); [congruence|reflexivity].
  - rewrite last_snoc, mget_mset_if, IH. reflexivity.
Qed.
(** Only under identifiers of tests. *)
Lemma store_keys tr st : NoDup servers -> lexec linit tr = Some st -> forall k, mget k (t_store _ _ st) <> None -> exists i, (i < ntests)%nat /\ k = ident i.
Proof.
  intros ND X. pattern tr, st. revert tr st X. apply exec_ind; [intros k []; reflexivity|]. intros tr st e st' X IH S k.
  destruct (all_inv _ _ _ _ _ _ _ _ _ ND X) as ((I1 & I2) & _).
  destruct e; try (assert (t_store _ _ st' = t_store _ _ st) as -> by (dstep S; reflexivity); apply IH).
  unfold TestRunModel.step, set_test in S. destruct (t_tests _ _ st i) eqn:T; try discriminate. destruct (final _ _ _) as [[[r c] l]|]; [|discriminate].
  assert (i < ntests)%nat as L by (destruct (Nat.lt_ge_cases i ntests) as [|G]; [assumption|]; assert (t_next _ _ st <= i)%nat as G' by lia; apply I1 in G'; congruence).
  destruct err as [[x v]|]; injection S as <-; cbn [t_store].
  - destruct v as [b|]; cbn [save_to]; [rewrite mget_mset_if|rewrite mget_mdel]; [destruct (bytes_eq_dec (ident i) k) as [<-|]; [eauto|apply IH]|destruct (beq k (ident i)); [contradiction|apply IH]].
  - rewrite mget_mset_if. destruct (bytes_eq_dec (ident i) k) as [<-|]; [eauto|apply IH].
Qed.
(** Every finished test asked for results from before. *)
Lemma asked_before tr st : lexec linit tr = Some st -> forall i, t_tests _ _ st i = PDone _ _ None -> exists f, In (ELoad _ _ i (inr f)) tr.
Proof.
  intros X. assert (forall i, match t_tests _ _ st i with PIdle _ _ | PWait _ _ | PLoad _ _ _ | PPut _ _ _ (Some _) | PDone _ _ (Some _) => True | _ => exists f, In (ELoad _ _ i (inr f)) tr end) as G.
  { pattern tr, st. revert tr st X. apply exec_ind; [intros i; exact I|]. intros tr st e st' X IH S i.
    assert (match t_tests _ _ st i with PIdle _ _ | PWait _ _ | PLoad _ _ _ | PPut _ _ _ (Some _) | PDone _ _ (Some _) => True | _ => exists f, In (ELoad _ _ i (inr f)) (tr ++ [e]) end) as Ii.
    { specialize (IH i). destruct (t_tests _ _ st i) as [| | | | | | |? [|]|[|]]; auto; destruct IH as (f & IH); exists f; apply in_or_app; auto. }
    destruct e; dstep S; try exact Ii; try (match goal with |- context [i =? ?x] => destruct (Nat.eqb_spec i x) as [->|Ne] end; [|exact Ii]); try exact I;
      try (repeat match goal with Q : t_tests _ _ st _ = _ |- _ => rewrite Q in Ii end; try exact Ii).
    exists b. subst r. apply in_or_app. right. left. reflexivity. }
  intros i T. specialize (G i). rewrite T in G. exact G.
Qed.
End Loop.

(** ** Deciding that identifiers tell apart, for the examples *)
Fixpoint fval_beq (a b : fval) : bool :=
  let '(FVal v c) := a in let '(FVal w d) := b in
  beq v w && match c, d with
             | None, None => true
             | Some l, Some m => (fix go (l m : list (bytes * fval)) : bool := match l, m with [], [] => true | (k, x) :: l', (j, y) :: m' => beq k j && fval_beq x y && go l' m' | _, _ => false end) l m
             | _, _ => false
             end.
Lemma fval_beq_ok a : forall b, fval_beq a b = true -> a = b.
Proof.
  induction a as [v c IH] using fval_ind'. intros [w d] H. cbn [fval_beq] in H. apply andb_true_iff in H as [Hv H]. apply beq_true in Hv as ->. f_equal. destruct c as [l|], d as [m|]; try discriminate; [|reflexivity]. f_equal. cbn [olist] in IH.
  revert m H. induction l as [|[k x] l IHl]; intros [|[j y] m] H; try discriminate; [reflexivity|]. apply andb_true_iff in H as [H Hl]. apply andb_true_iff in H as [Hk Hx]. apply beq_true in Hk as ->.
  f_equal; [f_equal; apply (IH j x (or_introl eq_refl)), Hx|]. apply IHl; [intros k' x' I; apply (IH k' x'); right; exact I|exact Hl].
Qed.
Fixpoint nodes_of (n : fval) : list fval :=
  let '(FVal _ c) := n in match c with None => [] | Some l => (fix go (l : list (bytes * fval)) : list fval := match l with [] => [] | (_, x) :: l' => x :: nodes_of x ++ go l' end) l end.
Definition nodes_below (f : fvals) : list fval := flat_map (fun e => snd e :: nodes_of (snd e)) (olist f).
Lemma nodes_of_eq v c : nodes_of (FVal v c) = nodes_below c.
Proof. destruct c as [l|]; [|reflexivity]. unfold nodes_below. cbn [nodes_of olist]. induction l as [|[k x] l IH]; [reflexivity|]. cbn [flat_map snd]. rewrite <- IH. reflexivity. Qed.
Lemma nodes_below_all f x : node_in_fields f x -> In x (nodes_below f).
Proof.
  intros H. induction H as [f k x I|f k v c x I H IH]; unfold nodes_below; rewrite in_flat_map.
  - exists (k, x). split; [exact I|]. left. reflexivity.
  - exists (k, FVal v c). split; [exact I|]. right. cbn [snd]. rewrite nodes_of_eq. exact IH.
Qed.
Definition result_nodes (r : tresult) : list fval := flat_map (fun cf => nodes_below (cf_fields cf)) (all_frames r).
Definition result_fields (r : tresult) : list fvals := map cf_fields (all_frames r) ++ map f_children (result_nodes r).
Definition stack_beq (a b : stack) : bool := if list_eq_dec (fun x y : sframe => ltac:(decide equality; [apply bytes_eq_dec|apply N.eq_dec|apply bytes_eq_dec])) (olist a) (olist b) then true else false.
Definition ids_checked (sha1 : bytes -> bytes) (mp : stack -> bytes) (r : tresult) : bool :=
  forallb (fun a => forallb (fun b => negb (beq (fval_id sha1 a) (fval_id sha1 b)) || fval_beq a b) (result_nodes r)) (result_nodes r) &&
  forallb (fun a => forallb (fun b => negb (beq (fvals_id sha1 a) (fvals_id sha1 b)) || fval_beq (FVal [] a) (FVal [] b)) (result_fields r)) (result_fields r) &&
  forallb (fun a => forallb (fun b => negb (beq (any_key sha1 mp (cf_stack a)) (any_key sha1 mp (cf_stack b))) || stack_beq (cf_stack a) (cf_stack b)) (all_frames r)) (all_frames r).
Lemma checked_pair {A} (l : list A) (P : A -> A -> bool) a b : forallb (fun a => forallb (P a) l) l = true -> In a l -> In b l -> P a b = true.
Proof. intros H Ia Ib. rewrite forallb_forall in H. specialize (H a Ia). rewrite forallb_forall in H. exact (H b Ib). Qed.
Lemma ids_checked_ok sha1 mp r : ids_checked sha1 mp r = true -> ids_tell_apart sha1 mp r.
Proof.
  intros H. apply andb_true_iff in H as [H Hs]. apply andb_true_iff in H as [Hn Hf].
  assert (forall n, occurs_node r n -> In n (result_nodes r)) as On by (intros n [cf x Ic Ix]; unfold result_nodes; rewrite in_flat_map; exists cf; split; [exact Ic|apply nodes_below_all, Ix]).
  assert (forall f, occurs_fields r f -> In f (result_fields r)) as Of.
  { intros f [cf Ic|v c O]; unfold result_fields; apply in_or_app; [left; apply in_map, Ic|right]. apply in_map_iff. exists (FVal v c). split; [reflexivity|apply On, O]. }
  split; [|split].
  - intros a b Oa Ob E. pose proof (checked_pair _ _ a b Hf (Of a Oa) (Of b Ob)) as C. cbv beta in C. rewrite E, beq_refl in C. cbn [negb orb] in C. apply fval_beq_ok in C. injection C as ->. apply same_fields_refl.
  - intros a b Oa Ob E. pose proof (checked_pair _ _ a b Hn (On a Oa) (On b Ob)) as C. cbv beta in C. rewrite E, beq_refl in C. cbn [negb orb] in C. apply fval_beq_ok in C. subst b. apply same_tree_refl.
  - intros a b [ca Ia] [cb Ib] E. pose proof (checked_pair _ _ ca cb Hs Ia Ib) as C. cbv beta in C. rewrite E, beq_refl in C. cbn [negb orb] in C. unfold stack_beq in C. destruct (list_eq_dec _ _ _) as [Es|]; [exact Es|discriminate].
Qed.
Lemma fwf_children v c : fvals_wf c -> fwf (FVal v c).
Proof. intros [A C]. constructor; assumption. Qed.
(** All ways to cut a list at one of its members. *)
Fixpoint splits {A} (l : list A) : list (list A * A * list A) :=
  match l with [] => [] | x :: l' => ([], x, l') :: map (fun c => (x :: fst (fst c), snd (fst c), snd c)) (splits l') end.
Lemma splits_all {A} (u : list A) e v : In (u, e, v) (splits (u ++ e :: v)).
Proof. induction u as [|x u IH]; cbn; [left; reflexivity|]. right. apply in_map_iff. exists (u, e, v). auto. Qed.

(** Deciding that a result is made of maps. *)
Definition nodup_keys {A} (l : list (bytes * A)) : bool := (fix go (l : list bytes) : bool := match l with [] => true | k :: l' => negb (existsb (beq k) l') && go l' end) (mkeys l).
Lemma nodup_keys_ok {A} (l : list (bytes * A)) : nodup_keys l = true -> NoDup (mkeys l).
Proof.
  unfold nodup_keys. generalize (mkeys l). clear l. intros l. induction l as [|k l IH]; [constructor|]. intros H. apply andb_true_iff in H as [H1 H2]. constructor; [|exact (IH H2)].
  intros I. apply negb_true_iff in H1. assert (existsb (beq k) l = true) as E by (apply existsb_exists; exists k; split; [exact I|apply beq_refl]). congruence.
Qed.
Fixpoint fwf_b (n : fval) : bool :=
  let '(FVal _ c) := n in nodup_keys (olist c) && match c with None => true | Some l => (fix go (l : list (bytes * fval)) : bool := match l with [] => true | (_, x) :: l' => fwf_b x && go l' end) l end.
Lemma fwf_b_ok n : fwf_b n = true -> fwf n.
Proof.
  induction n as [v c IH] using fval_ind'. intros H. cbn [fwf_b] in H. apply andb_true_iff in H as [H1 H2]. apply nodup_keys_ok in H1. constructor; [exact H1|]. intros k x I. apply (IH k x I). destruct c as [l|]; [|destruct I].
  cbn [olist] in I. clear - I H2. induction l as [|[j y] l IHl]; [destruct I|]. apply andb_true_iff in H2 as [A C]. destruct I as [[= -> ->]|I]; [exact A|apply IHl; assumption].
Qed.
Lemma wf_checked r : forallb (fun cf => fwf_b (FVal [] (cf_fields cf))) (all_frames r) = true -> result_wf r.
Proof. intros H cf I. rewrite forallb_forall in H. specialize (H cf I). apply fwf_b_ok in H. inversion H; subst. split; assumption. Qed.
