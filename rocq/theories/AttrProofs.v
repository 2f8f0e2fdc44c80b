(** Which function an id belongs to, in the tables and in the monitor. *)
From Coq Require Import Permutation.
From Verif Require Import Base Maps BatchModel BatchProps ModifierModel TypesModel StableModel StableProps MonitorModel MonitorProps AttrModel AttrSpec.

Lemma NoDup_flat_map {X Y} (g : X -> list Y) l : NoDup l -> (forall x, In x l -> NoDup (g x)) ->
  (forall x y z, In x l -> In y l -> In z (g x) -> In z (g y) -> x = y) -> NoDup (flat_map g l).
Proof.
  induction 1 as [|x l Nx _ IH]; intros G D; [constructor|]. cbn. apply NoDup_app_iff. split; [apply G; left; reflexivity|]. split.
  - apply IH; [intros y Hy; apply G; right; exact Hy|]. intros a b z Ha Hb. apply (D a b z); right; assumption.
  - intros z Hz Hz'. apply in_flat_map in Hz' as (y & Hy & Hzy). assert (x = y) as -> by (apply (D x y z); [left; reflexivity|right; exact Hy|exact Hz|exact Hzy]). exact (Nx Hy).
Qed.

Section Attr.
Variable P M : Type.
Variable peq : forall a b : P, {a = b} + {a <> b}.
Variable meq : forall a b : M, {a = b} + {a <> b}.
Notation drawn := (drawn P M peq meq).
Notation owner := (owner P M).

Lemma drawn_in who l : forall n w id, In id (drawn who n l w) -> In id l.
Proof.
  induction l as [|a l IH]; intros n w id H; [destruct H|]. cbn [AttrModel.drawn] in H. apply in_app_or in H as [H|H]; [|right; eapply IH; exact H].
  destruct (owner_eq _ _ _ _ _ _); [|destruct H]. destruct H as [->|[]]. left. reflexivity.
Qed.
Lemma drawn_one who l : NoDup l -> forall n w w' id, In id (drawn who n l w) -> In id (drawn who n l w') -> w = w'.
Proof.
  induction 1 as [|a l Na _ IH]; intros n w w' id H H'; [destruct H|]. cbn [AttrModel.drawn] in *.
  apply in_app_or in H. apply in_app_or in H'.
  assert (forall v, In id (if owner_eq P M peq meq (who n) v then [a] else []) -> who n = v /\ a = id) as X by (intros v; destruct (owner_eq P M peq meq (who n) v); cbn [In]; [intros [E|[]]; auto|intros []]).
  destruct H as [H|H], H' as [H'|H']; [| | |eapply IH; eassumption].
  - apply X in H as [H _]. apply X in H' as [H' _]. congruence.
  - apply X in H as [_ ->]. exfalso. apply Na. eapply drawn_in. exact H'.
  - apply X in H' as [_ ->]. exfalso. apply Na. eapply drawn_in. exact H.
Qed.
Lemma drawn_nodup who l : NoDup l -> forall n w, NoDup (drawn who n l w).
Proof.
  induction 1 as [|a l Na _ IH]; intros n w; [constructor|]. cbn [AttrModel.drawn]. destruct (owner_eq _ _ _ _ _ _); cbn; [constructor; [|apply IH]|apply IH].
  intros H. apply Na. eapply drawn_in. exact H.
Qed.

Lemma drawn_from who l : forall n w id, In id (drawn who n l w) <-> exists k, nth_error l k = Some id /\ who (n + k)%nat = w.
Proof.
  induction l as [|a l IH]; intros n w id; [cbn; split; [intros []|intros (k & E & _); destruct k; discriminate]|]. cbn [AttrModel.drawn]. rewrite in_app_iff, IH. split.
  - intros [H|(k & E & Hw)]; [|exists (S k); split; [exact E|rewrite <- Hw; f_equal; lia]]. destruct (owner_eq P M peq meq (who n) w) as [Hw|]; [|destruct H]. destruct H as [->|[]]. exists 0%nat. split; [reflexivity|rewrite Nat.add_0_r; exact Hw].
  - intros ([|k] & E & Hw); [left|right; exists k; split; [exact E|rewrite <- Hw; f_equal; lia]]. rewrite Nat.add_0_r in Hw. injection E as ->. destruct (owner_eq P M peq meq (who n) w); [left; reflexivity|contradiction].
Qed.
Lemma drawn_spec who l w id : In id (drawn who 0 l w) <-> drawn_for P M who l id w.
Proof. apply drawn_from. Qed.

Variable pfile : P -> bytes. Variable mfile : M -> bytes. Variable pident : P -> bytes. Variable mident : M -> bytes.
Variable ppanics : P -> bool. Variable mpanics : M -> bool.
Variable inject_returns : P -> inj (list N). Variable inject_panic : P -> inj N. Variable inject_entry : M -> inj N. Variable inject_mpanic : M -> inj N.
Variable dir : bytes -> bytes. Variable client_ok commit_ok : bytes -> bool.
Notation rdrawn := (returns_drawn P M peq meq ppanics mpanics inject_returns inject_panic inject_entry inject_mpanic).
Notation iall := (inject_all P M pfile mfile pident mident ppanics mpanics inject_returns inject_panic inject_entry inject_mpanic dir client_ok commit_ok).
Notation mergem := (merge_modules M mfile mident mpanics inject_entry inject_mpanic commit_ok).

Definition entry_ids (m : M) : list N := match inject_entry m with JOk id => [id] | _ => [] end.
Definition mpanic_ids (m : M) : list N := if mpanics m then [] else match inject_entry m, inject_mpanic m with JOk _, JOk id => [id] | _, _ => [] end.
Lemma module_funcs_spec fs : forall st pn r, module_funcs M mident mpanics inject_mpanic inject_entry fs st pn = Some r ->
  r = (st ++ flat_map (fun f => map (fun id => (id, mident f)) (entry_ids f)) fs, pn ++ flat_map (fun f => map (fun id => (id, mident f)) (mpanic_ids f)) fs).
Proof.
  induction fs as [|f fs IH]; intros st pn r H; cbn [module_funcs flat_map] in *; [injection H as <-; rewrite !app_nil_r; reflexivity|].
  unfold entry_ids at 1, mpanic_ids at 1. destruct (inject_entry f) as [i| |]; try discriminate.
  - destruct (mpanics f); [apply IH in H; rewrite H; cbn [map app]; rewrite <- app_assoc; reflexivity|].
    destruct (inject_mpanic f) as [j| |]; try discriminate; apply IH in H; rewrite H; cbn [map app]; rewrite <- ?app_assoc; reflexivity.
  - apply IH in H. rewrite H. destruct (mpanics f); reflexivity.
Qed.
Lemma mergem_spec order : forall r, mergem order = Some r ->
  r = (flat_map (fun f => map (fun id => (id, mident f)) (entry_ids f)) (concat order), flat_map (fun f => map (fun id => (id, mident f)) (mpanic_ids f)) (concat order)).
Proof.
  induction order as [|b bs IH]; cbn [merge_modules concat]; intros r H; [injection H as <-; reflexivity|].
  destruct (handle_module _ _ _ _ _ _ _ b) as [[s p]|] eqn:Eh; [|discriminate]. destruct (mergem bs) as [[s' p']|] eqn:Em; [|discriminate]. injection H as <-.
  specialize (IH _ eq_refl). injection IH as E1 E2. rewrite !flat_map_app, <- E1, <- E2.
  assert ((s, p) = (flat_map (fun f => map (fun id => (id, mident f)) (entry_ids f)) b, flat_map (fun f => map (fun id => (id, mident f)) (mpanic_ids f)) b)) as E; [|injection E as -> ->; reflexivity].
  unfold handle_module in Eh. destruct b as [|f b]; [injection Eh as <- <-; reflexivity|]. destruct (beq _ _); [|discriminate].
  destruct (module_funcs _ _ _ _ _ _ _ _) as [r|] eqn:Eb; [|discriminate]. destruct (commit_ok _); [|discriminate]. injection Eh as ->.
  apply module_funcs_spec in Eb. exact Eb.
Qed.

(** A table made of functions with different ids. *)
Lemma table_known {F} (ident : F -> bytes) (ids : F -> list N) fs order id x : Permutation order fs -> NoDup (flat_map ids fs) ->
  (lookup_point (flat_map (fun f => map (fun i => (i, ident f)) (ids f)) order) id = Some x <-> exists f, In f fs /\ In id (ids f) /\ x = ident f).
Proof.
  intros Pl Nd. rewrite lookup_unique.
  - rewrite in_flat_map. split.
    + intros (f & Hf & Hi). apply in_map_iff in Hi as (i & E & Hi). injection E as <- <-. exists f. split; [eapply Permutation_in; eassumption|auto].
    + intros (f & Hf & Hi & ->). exists f. split; [eapply Permutation_in; [apply Permutation_sym; exact Pl|exact Hf]|]. apply in_map_iff. exists id. auto.
  - assert (map fst (flat_map (fun f => map (fun i => (i, ident f)) (ids f)) order) = flat_map ids order) as ->.
    { clear. induction order as [|f fs IH]; [reflexivity|]. cbn. rewrite map_app, IH, map_map. f_equal. cbn. apply map_id. }
    eapply Permutation_NoDup; [apply Permutation_flat_map, Permutation_sym; exact Pl|exact Nd].
Qed.
Lemma order_perm {F} (file : F -> bytes) l order : by_file F file l -> Permutation order (fst (batch_run F file dir l)) -> Permutation (concat order) l.
Proof.
  intros B Pm. pose proof (C38_batches_exact F file dir l B) as H. destruct (batch_run F file dir l) as [bs ds]. destruct H as (H & _). cbn in Pm. rewrite <- H.
  clear - Pm. induction Pm; cbn; [constructor|apply Permutation_app_head; assumption|rewrite !app_assoc; apply Permutation_app_tail, Permutation_app_comm|eapply Permutation_trans; eassumption].
Qed.

(** The tables say for every id which function it was drawn for. *)
Lemma tables_known who l ps ms order morder pre post t : NoDup l -> NoDup ps -> NoDup ms -> by_file P pfile ps -> by_file M mfile ms ->
  Permutation order (fst (batch_run P pfile dir ps)) -> Permutation morder (fst (batch_run M mfile dir ms)) ->
  rdrawn who l -> iall ps ms order morder pre post = Some t ->
  forall id x,
    (lookup_point (t_state t) id = Some x <-> exists f, In f ps /\ In id (drawn who 0 l (WReturn f)) /\ x = pident f) /\
    (lookup_point (t_panic t) id = Some x <-> exists f, In f ps /\ In id (drawn who 0 l (WPanic f)) /\ x = pident f) /\
    (lookup_point (t_entry t) id = Some x <-> exists m, In m ms /\ In id (drawn who 0 l (WEntry m)) /\ x = mident m) /\
    (lookup_point (t_mpanic t) id = Some x <-> exists m, In m ms /\ In id (drawn who 0 l (WModPanic m)) /\ x = mident m).
Proof.
  intros Nl Np Nm Bp Bm Op Om (Dr & Dp & De & Dm) E id x. unfold inject_all in E. destruct (_ && _); [|discriminate].
  destruct (merge_batches _ _ _ _ _ _ _ _) as [[s p]|] eqn:Es; [|discriminate]. destruct (mergem morder) as [[e q]|] eqn:Em; [|discriminate]. destruct (hook_points pre post); [|discriminate]. injection E as <-.
  cbn [t_state t_panic t_entry t_mpanic]. apply merge_spec in Es. injection Es as -> ->. apply mergem_spec in Em. injection Em as -> ->.
  pose proof (order_perm pfile ps order Bp Op) as Pp. pose proof (order_perm mfile ms morder Bm Om) as Pm.
  assert (forall f, return_ids P ppanics inject_returns f = drawn who 0 l (WReturn f)) as R1 by (intros f; rewrite Dr; reflexivity).
  assert (forall f, panic_ids P ppanics inject_returns inject_panic f = drawn who 0 l (WPanic f)) as R2.
  { intros f. rewrite Dp. unfold panic_ids, return_ids. destruct (ppanics f); [reflexivity|]. destruct (inject_returns f) as [[|]| |]; reflexivity. }
  assert (forall m, entry_ids m = drawn who 0 l (WEntry m)) as R3 by (intros m; rewrite De; reflexivity).
  assert (forall m, mpanic_ids m = drawn who 0 l (WModPanic m)) as R4 by (intros m; rewrite Dm; reflexivity).
  assert (forall F (g : F -> list N) (mk : F -> owner) fs, NoDup fs -> (forall f, g f = drawn who 0 l (mk f)) -> (forall a b, mk a = mk b -> a = b) -> NoDup (flat_map g fs)) as G.
  { intros F g mk fs Nf Eg Inj. apply NoDup_flat_map; [exact Nf|intros f _; rewrite Eg; apply drawn_nodup, Nl|]. intros a b z _ _ Ha Hb. rewrite Eg in Ha, Hb. apply Inj. eapply drawn_one; eassumption. }
  split; [|split; [|split]].
  - rewrite (table_known _ _ ps _ id x Pp) by (apply (G P _ WReturn); [exact Np|exact R1|congruence]). setoid_rewrite R1. reflexivity.
  - rewrite (table_known _ _ ps _ id x Pp) by (apply (G P _ WPanic); [exact Np|exact R2|congruence]). setoid_rewrite R2. reflexivity.
  - rewrite (table_known _ _ ms _ id x Pm) by (apply (G M _ WEntry); [exact Nm|exact R3|congruence]). setoid_rewrite R3. reflexivity.
  - rewrite (table_known _ _ ms _ id x Pm) by (apply (G M _ WModPanic); [exact Nm|exact R4|congruence]). setoid_rewrite R4. reflexivity.
Qed.
(** The points of hooks. *)
Lemma lookup_app m m' id : lookup_point (m ++ m') id = match lookup_point m' id with Some k => Some k | None => lookup_point m id end.
Proof. unfold lookup_point. rewrite rev_app_distr. induction (rev m') as [|e l IH]; [reflexivity|]. cbn. destruct (N.eqb (fst e) id); [reflexivity|exact IH]. Qed.
Lemma lookup_none m id : lookup_point m id = None <-> ~ In id (map fst m).
Proof.
  unfold lookup_point. destruct (find _ (rev m)) as [e|] eqn:E.
  - split; [discriminate|]. intros H. exfalso. apply find_some in E as [I E]. apply N.eqb_eq in E. apply H. subst. apply in_map, in_rev, I.
  - split; [|reflexivity]. intros _ I. apply in_map_iff in I as (e & <- & I). apply in_rev in I. pose proof (find_none _ _ E e I) as X. cbn in X. rewrite N.eqb_refl in X. discriminate.
Qed.
Lemma hooks_known ps ms order morder pre post t : NoDup (map fst (hook_map pre)) -> NoDup (map fst (hook_map post)) ->
  iall ps ms order morder pre post = Some t -> forall id k, lookup_point (t_hook t) id = Some k <-> hooked_for pre post id k.
Proof.
  intros N1 N2 E id k. unfold inject_all in E. destruct (_ && _); [|discriminate]. destruct (merge_batches _ _ _ _ _ _ _ _) as [[s p]|]; [|discriminate]. destruct (mergem morder) as [[e q]|]; [|discriminate].
  destruct (hook_points pre post) as [h|] eqn:Eh; [|discriminate]. injection E as <-. cbn [t_hook].
  assert (match h with Some t => t | None => [] end = hook_map pre ++ hook_map post) as ->.
  { unfold hook_points in Eh. destruct pre as [| |[a|]], post as [| |[b|]]; try discriminate; injection Eh as <-; cbn; rewrite ?app_nil_r; reflexivity. }
  unfold hooked_for. rewrite lookup_app. destruct (lookup_point (hook_map post) id) as [k'|] eqn:E.
  - pose proof E as E'. rewrite (lookup_unique _ _ _ N2) in E'. split; [intros [= ->]; auto|]. intros [I|[Nn _]]; [rewrite <- (lookup_unique _ _ _ N2) in I; congruence|]. exfalso. apply Nn. apply in_map_iff. exists (id, k'). auto.
  - rewrite (lookup_unique _ _ _ N1). apply lookup_none in E. split; [auto|]. intros [I|[_ I]]; [|exact I]. exfalso. apply E. apply in_map_iff. exists (id, k). auto.
Qed.
End Attr.

(** ** Everything received, in some order *)
Lemma received_split n ls : (forall l, In l ls -> (match l with LRecv c _ | LAcquire c _ _ | LRecord c _ _ | LUnlock c _ _ | LDone c _ _ => c end < n)%nat) ->
  Permutation (received ls) (concat (map (fun c => handled c ls) (seq 0 n))).
Proof.
  induction ls as [|l ls IH]; intros Hc.
  - cbn. induction (seq 0 n); [constructor|assumption].
  - specialize (IH (fun l H => Hc l (or_intror H))). specialize (Hc l (or_introl eq_refl)).
    destruct l as [c m|c id f|c id f|c id f|c id f]; try exact IH.
    change (received (LRecv c m :: ls)) with (m :: received ls). rewrite IH. clear IH.
    assert (forall x, handled x (LRecv c m :: ls) = (if Nat.eqb c x then [m] else []) ++ handled x ls) as Ef by reflexivity.
    assert (In c (seq 0 n)) as Hi by (apply in_seq; lia). pose proof (seq_NoDup n 0) as Nd. revert Hi Nd. generalize (seq 0 n) as s.
    induction s as [|y s IHs]; intros Hi Nd; [destruct Hi|]. inversion Nd as [|? ? Ny Ns]; subst. cbn [map concat]. rewrite (Ef y).
    destruct (Nat.eqb_spec c y) as [->|Ne].
    + cbn [app]. constructor. apply Permutation_app_head. apply Permutation_refl'. f_equal. apply map_ext_in. intros x Hx. rewrite Ef.
      destruct (Nat.eqb_spec y x) as [->|]; [contradiction|reflexivity].
    + destruct Hi as [->|Hi]; [congruence|]. rewrite <- (IHs Hi Ns). cbn [app]. apply Permutation_middle.
Qed.
Lemma received_all ep pp ppp mpp stripe key stable qs ls st : mexec ep pp ppp mpp stripe key stable (m_init qs) ls st -> finished st -> Permutation (received ls) (concat qs).
Proof.
  intros H F. pose proof (C35_everything_accounted _ _ _ _ _ _ _ _ _ _ H F) as (_ & _ & _ & _ & _ & _ & Hd & _).
  pose proof (i_conns _ _ _ _ _ _ _ _ _ _ (inv_exec _ _ _ _ _ _ _ _ _ _ H)) as Ic. rewrite (received_split _ _ Ic). apply Permutation_refl'.
  transitivity (concat (map (fun c => nth c qs []) (seq 0 (length qs)))); [apply (f_equal (@concat _)); apply map_ext; intros c; apply Hd|].
  apply (f_equal (@concat _)). clear. induction qs as [|q qs IH]; [reflexivity|]. cbn [length seq map nth]. f_equal. rewrite <- seq_shift, map_map. exact IH.
Qed.
