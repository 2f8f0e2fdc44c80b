(** C38: instrumentation batches cover every function exactly once. *)
From Coq Require Import Sorted Permutation.
From Verif Require Import Base Maps BatchModel.

Section BatchP.
Variable F : Type.
Variable file : F -> bytes.
Variable dir : bytes -> bytes.

(** Sorted by file name (slices.SortFunc by strings.Compare). *)
Definition by_file (l : list F) : Prop := StronglySorted (fun a b => ble (file a) (file b)) l.

(** All functions of a batch are of one file. *)
Definition one_file (b : list F) : Prop := exists n, Forall (fun f => file f = n) b.

(** No two batches share a file. *)
Definition apart (bs : list (list F)) : Prop :=
  forall i j a b, i <> j -> In a (nth i bs []) -> In b (nth j bs []) -> file a <> file b.

Notation step := (batch_step F file dir).
Notation init := (batch_init F).

Lemma existsb_beq d l : existsb (beq d) l = true <-> In d l.
Proof.
  rewrite existsb_exists. split; [intros (x & Hx & E); destruct (beq_spec d x); [subst; exact Hx|discriminate]|].
  intros H. exists d. split; [exact H|apply beq_refl].
Qed.

Definition dirs_of (l : list F) : list bytes := map (fun f => dir (file f)) l.

(** The loop after the functions [l]. *)
Record binv (l : list F) (s : bstate F) : Prop := {
  bi_concat : concat (b_batches F s) ++ b_funcs F s = l;
  bi_one : Forall one_file (b_batches F s);
  bi_cur : Forall (fun f => file f = b_file F s) (b_funcs F s);
  bi_empty : b_funcs F s = [] -> b_file F s = [] /\ l = [];
  bi_clients : b_clients F s = b_pkgs F s;
  bi_nodup : NoDup (b_pkgs F s);
  bi_dirs : forall d, In d (b_pkgs F s) -> In d (dirs_of l);
  bi_all : Forall (fun f => file f <> []) l -> forall d, In d (dirs_of l) -> In d (b_pkgs F s);
  bi_below : forall a, In a (concat (b_batches F s)) -> by_file l -> ble (file a) (b_file F s) /\ file a <> b_file F s;
  bi_apart : by_file l -> apart (b_batches F s)
}.

Lemma by_file_snoc l x : by_file (l ++ [x]) -> by_file l /\ forall a, In a l -> ble (file a) (file x).
Proof.
  unfold by_file. induction l as [|y l IH]; cbn; intros H; [split; [constructor|intros a []]|].
  inversion H as [|? ? H1 H2]; subst. destruct (IH H1) as [A C]. rewrite Forall_forall in H2. split.
  - constructor; [exact A|]. apply Forall_forall. intros z Hz. apply H2, in_or_app. left. exact Hz.
  - intros a [<-|Ha]; [apply H2, in_or_app; right; left; reflexivity|auto].
Qed.

Lemma apart_snoc bs b : apart bs -> (forall x a c, In x bs -> In a x -> In c b -> file a <> file c) -> apart (bs ++ [b]).
Proof.
  intros A H i j a c N Ha Hc. destruct (Nat.lt_ge_cases i (length bs)) as [Li|Li], (Nat.lt_ge_cases j (length bs)) as [Lj|Lj].
  - rewrite app_nth1 in Ha, Hc by assumption. eapply A; eassumption.
  - rewrite app_nth1 in Ha by assumption. rewrite app_nth2 in Hc by assumption. destruct (j - length bs)%nat as [|k]; [|destruct k; destruct Hc].
    eapply H; [eapply nth_In; exact Li|exact Ha|exact Hc].
  - rewrite app_nth1 in Hc by assumption. rewrite app_nth2 in Ha by assumption. destruct (i - length bs)%nat as [|k]; [|destruct k; destruct Ha].
    intros E. eapply H; [eapply nth_In; exact Lj|exact Hc|exact Ha|]. symmetry. exact E.
  - rewrite app_nth2 in Ha, Hc by assumption. destruct (i - length bs)%nat as [|k] eqn:Ei; [|destruct k; destruct Ha].
    destruct (j - length bs)%nat as [|k] eqn:Ej; [lia|destruct k; destruct Hc].
Qed.

Lemma binv_init : binv [] init.
Proof.
  split; cbn; auto using NoDup_nil; try (intros; contradiction).
  intros _ i j a b _ Ha. destruct i; destruct Ha.
Qed.

Lemma binv_step l s x : binv l s -> binv (l ++ [x]) (step s x).
Proof.
  intros [H1 H2 H3 H4 H5 H6 H7 H8 H9 H10]. unfold batch_step. destruct (beq_spec (b_file F s) (file x)) as [E|N].
  - split; cbn; try assumption.
    + rewrite app_assoc, H1. reflexivity.
    + apply Forall_app. split; [exact H3|repeat constructor; symmetry; exact E].
    + intros X. destruct (b_funcs F s); discriminate.
    + intros d Hd. unfold dirs_of. rewrite map_app. apply in_or_app. left. exact (H7 d Hd).
    + intros Ne d Hd. apply Forall_app in Ne as [Ne1 Ne2]. unfold dirs_of in Hd. rewrite map_app in Hd. apply in_app_or in Hd as [Hd|[<-|[]]]; [apply H8; assumption|].
      destruct (b_funcs F s) as [|y ys] eqn:Ef; [destruct (H4 eq_refl) as [Z _]; inversion Ne2; subst; congruence|].
      apply H8; [exact Ne1|]. unfold dirs_of. apply in_map_iff. exists y. inversion H3; subst. split; [congruence|]. apply in_or_app. right. left. reflexivity.
    + intros a Ha B. apply H9; [exact Ha|]. apply (by_file_snoc _ _ B).
    + intros B. apply H10, (by_file_snoc _ _ B).
  - assert (forall a, In a l -> by_file (l ++ [x]) -> ble (file a) (file x) /\ file a <> file x) as Ab.
    { intros a Ha B. destruct (by_file_snoc _ _ B) as [B1 B2]. split; [apply B2, Ha|]. rewrite <- H1 in Ha. apply in_app_or in Ha as [Ha|Ha].
      - destruct (H9 a Ha B1) as [C1 C2]. intros E. destruct (b_funcs F s) as [|y ys] eqn:Ef.
        + destruct (H4 eq_refl) as [_ Z]. rewrite Z in H1. rewrite app_nil_r in H1. rewrite H1 in Ha. destruct Ha.
        + inversion H3; subst. assert (ble (file y) (file x)) as Y by (apply B2; apply in_or_app; right; left; reflexivity).
          apply C2. apply bleb_antisym; [exact C1|]. match goal with Z : file y = _ |- _ => rewrite <- Z end. unfold ble in Y. rewrite E. exact Y.
      - rewrite Forall_forall in H3. rewrite (H3 a Ha). exact N. }
    assert (forall y, In y (b_pkgs F s) -> In y (if existsb (beq (dir (file x))) (b_pkgs F s) then b_pkgs F s else b_pkgs F s ++ [dir (file x)])) as Keep.
    { intros y Hy. destruct (existsb _ _); [exact Hy|apply in_or_app; left; exact Hy]. }
    split; cbn.
    + rewrite concat_app. cbn. rewrite app_nil_r, H1. reflexivity.
    + apply Forall_app. split; [exact H2|repeat constructor]. exists (b_file F s). exact H3.
    + repeat constructor.
    + discriminate.
    + rewrite H5. reflexivity.
    + destruct (existsb _ _) eqn:X; [exact H6|]. apply NoDup_app_iff. split; [exact H6|]. split; [repeat constructor; intros []|].
      intros y Hy [<-|[]]. apply existsb_beq in Hy. congruence.
    + intros d Hd. unfold dirs_of. rewrite map_app. apply in_or_app. destruct (existsb _ _); [left; exact (H7 d Hd)|].
      apply in_app_or in Hd as [Hd|Hd]; [left; exact (H7 d Hd)|right; exact Hd].
    + intros Ne d Hd. apply Forall_app in Ne as [Ne1 Ne2]. unfold dirs_of in Hd. rewrite map_app in Hd. apply in_app_or in Hd as [Hd|[<-|[]]]; [apply Keep, H8; assumption|].
      destruct (existsb _ _) eqn:X; [apply existsb_beq, X|apply in_or_app; right; left; reflexivity].
    + intros a Ha B. rewrite concat_app in Ha. cbn in Ha. rewrite app_nil_r, H1 in Ha. exact (Ab a Ha B).
    + intros B. destruct (by_file_snoc _ _ B) as [B1 _]. apply apart_snoc; [exact (H10 B1)|]. intros y a c Hy Ha Hc E.
      destruct (H9 a) as [_ Z]; [apply in_concat; exists y; auto|exact B1|]. rewrite Forall_forall in H3. apply Z. rewrite E. exact (H3 c Hc).
Qed.

Lemma binv_run l : binv l (fold_left step l init).
Proof.
  rewrite <- (rev_involutive l). induction (rev l) as [|x r IH]; [exact binv_init|]. cbn [rev]. rewrite fold_left_app. cbn [fold_left]. apply binv_step, IH.
Qed.

(** The batches, one after the other, are the functions: every function is in exactly
    one batch (at one place); a batch holds functions of one file only, and no two
    batches share a file. *)
Theorem C38_batches_exact : forall l, by_file l -> let (bs, _) := batch_run F file dir l in
  concat bs = l /\ Forall one_file bs /\ apart bs.
Proof.
  intros l B. pose proof (binv_run l) as [H1 H2 H3 H4 H5 H6 H7 H8 H9 H10]. unfold batch_run. split; [|split].
  - rewrite concat_app. cbn. rewrite app_nil_r. exact H1.
  - apply Forall_app. split; [exact H2|repeat constructor]. eexists. exact H3.
  - apply apart_snoc; [exact (H10 B)|]. intros y a c Hy Ha Hc E.
    destruct (H9 a) as [_ Z]; [apply in_concat; exists y; auto|exact B|]. rewrite Forall_forall in H3. apply Z. rewrite E. exact (H3 c Hc).
Qed.

(** The client is injected once into every directory that has a function, and nowhere
    else (for functions that have a file). *)
Theorem C38_clients_exact : forall l, Forall (fun f => file f <> []) l -> let (_, ds) := batch_run F file dir l in
  NoDup ds /\ forall d, In d ds <-> exists f, In f l /\ d = dir (file f).
Proof.
  intros l Ne. pose proof (binv_run l) as [H1 H2 H3 H4 H5 H6 H7 H8 H9 H10]. unfold batch_run. rewrite H5. split; [exact H6|].
  intros d. split; intros H.
  - apply H7 in H. apply in_map_iff in H as (f & <- & Hf). exists f. auto.
  - destruct H as (f & Hf & ->). apply H8; [exact Ne|]. apply (in_map (fun f => dir (file f))), Hf.
Qed.

Variable ident : F -> bytes.
Variable return_panic : F -> bool.
Variable inject_returns : F -> inj (list N).
Variable inject_panic : F -> inj N.
Notation handle := (handle_batch F file ident return_panic inject_returns inject_panic).
Notation merge := (merge_batches F file ident return_panic inject_returns inject_panic).

(** The batch consistency check never fires on these batches: a batch fails only when
    injecting into one of its functions or writing its file fails. *)
Theorem C38_consistency_check_passes : forall l commit_ok b, by_file l -> In b (fst (batch_run F file dir l)) -> handle commit_ok b = None ->
  exists f, In f b /\ (inject_returns f = JFail \/ inject_panic f = JFail \/ commit_ok (file f) = false).
Proof.
  intros l ok b B Hb Hn. pose proof (C38_batches_exact l B) as H. destruct (batch_run F file dir l) as [bs ds]. destruct H as (_ & H2 & _). cbn in Hb.
  rewrite Forall_forall in H2. destruct (H2 b Hb) as [n Hf]. rewrite Forall_forall in Hf. destruct b as [|f b]; [discriminate|].
  unfold handle_batch in Hn. rewrite (Hf f (or_introl eq_refl)) in Hn. assert (In (last (f :: b) f) (f :: b)) as La.
  { clear. generalize f at 2. induction b as [|x b IH] in f |- *; intros g; [left; reflexivity|]. right. exact (IH x g). }
  rewrite (Hf _ La), beq_refl in Hn.
  assert (forall fs st pn, batch_funcs F ident return_panic inject_returns inject_panic fs st pn = None -> exists g, In g fs /\ (inject_returns g = JFail \/ inject_panic g = JFail)) as G.
  { induction fs as [|g fs IH]; cbn; intros st pn E; [discriminate|].
    assert (forall st pn, batch_funcs F ident return_panic inject_returns inject_panic fs st pn = None -> exists h, (g = h \/ In h fs) /\ (inject_returns h = JFail \/ inject_panic h = JFail)) as R.
    { intros st' pn' E'. destruct (IH _ _ E') as (h & Hh & X). exists h. auto. }
    destruct (return_panic g); [eauto|]. destruct (inject_returns g) as [[|i ids]| |] eqn:Er; eauto.
    destruct (inject_panic g) eqn:Ep; eauto. }
  destruct (batch_funcs _ _ _ _ _ _ _ _) as [r|] eqn:Eb.
  - destruct (ok n) eqn:Eo; [discriminate|]. exists f. split; [left; reflexivity|]. right. right. rewrite (Hf f (or_introl eq_refl)). exact Eo.
  - destruct (G _ _ _ Eb) as (g & Hg & X). exists g. split; [exact Hg|]. destruct X; auto.
Qed.

(** The points put into a function, by kind. *)
Definition return_ids (f : F) : list N := if return_panic f then [] else match inject_returns f with JOk ids => ids | _ => [] end.
Definition panic_ids (f : F) : list N :=
  match return_ids f with [] => [] | _ => match inject_panic f with JOk id => [id] | _ => [] end end.

Lemma batch_funcs_spec fs : forall st pn r, batch_funcs F ident return_panic inject_returns inject_panic fs st pn = Some r ->
  r = (st ++ flat_map (fun f => map (fun id => (id, ident f)) (return_ids f)) fs, pn ++ flat_map (fun f => map (fun id => (id, ident f)) (panic_ids f)) fs).
Proof.
  induction fs as [|f fs IH]; intros st pn r H; cbn [batch_funcs flat_map] in *; [injection H as <-; rewrite !app_nil_r; reflexivity|].
  unfold panic_ids, return_ids at 1 3. destruct (return_panic f); [apply IH in H; exact H|].
  destruct (inject_returns f) as [[|i ids]| |]; try discriminate; try (apply IH in H; exact H).
  destruct (inject_panic f) as [id| |]; try discriminate; apply IH in H; rewrite H; cbn [map app]; rewrite <- ?app_assoc; reflexivity.
Qed.

Lemma merge_spec ok order r : merge ok order = Some r ->
  r = (flat_map (fun f => map (fun id => (id, ident f)) (return_ids f)) (concat order), flat_map (fun f => map (fun id => (id, ident f)) (panic_ids f)) (concat order)).
Proof.
  revert r. induction order as [|b bs IH]; cbn [merge_batches concat]; intros r H; [injection H as <-; reflexivity|].
  destruct (handle ok b) as [[s p]|] eqn:Eh; [|discriminate]. destruct (merge ok bs) as [[s' p']|] eqn:Em; [|discriminate]. injection H as <-.
  specialize (IH _ eq_refl). injection IH as E1 E2. rewrite !flat_map_app, <- E1, <- E2. f_equal; f_equal.
  - unfold handle_batch in Eh. destruct b as [|f b]; [injection Eh as <- <-; reflexivity|]. destruct (beq _ _); [|discriminate].
    destruct (batch_funcs _ _ _ _ _ _ _ _) as [r|] eqn:Eb; [|discriminate]. destruct (ok _); [|discriminate]. injection Eh as ->.
    apply batch_funcs_spec in Eb. exact (f_equal fst Eb).
  - unfold handle_batch in Eh. destruct b as [|f b]; [injection Eh as <- <-; reflexivity|]. destruct (beq _ _); [|discriminate].
    destruct (batch_funcs _ _ _ _ _ _ _ _) as [r|] eqn:Eb; [|discriminate]. destruct (ok _); [|discriminate]. injection Eh as ->.
    apply batch_funcs_spec in Eb. exact (f_equal snd Eb).
Qed.

Lemma lookup_unique (m : list (N * bytes)) id x : NoDup (map fst m) -> lookup_point m id = Some x <-> In (id, x) m.
Proof.
  intros ND. unfold lookup_point. split.
  - destruct (find _ (rev m)) as [e|] eqn:E; [|discriminate]. intros H. injection H as <-. apply find_some in E as [H1 H2]. apply N.eqb_eq in H2. subst.
    apply in_rev in H1. destruct e; exact H1.
  - intros H. destruct (find _ (rev m)) as [e|] eqn:E.
    + apply find_some in E as [H1 H2]. apply N.eqb_eq in H2. apply in_rev in H1. f_equal. destruct e as [i y]. cbn in *. subst i.
      clear - ND H H1. induction m as [|[j z] m IH]; [destruct H|]. cbn in ND. inversion ND as [|? ? Nj ND']; subst.
      destruct H as [H|H], H1 as [H1|H1]; [congruence| | |apply IH; assumption].
      * injection H as -> ->. exfalso. apply Nj. apply in_map_iff. exists (id, y). auto.
      * injection H1 as -> ->. exfalso. apply Nj. apply in_map_iff. exists (id, x). auto.
    + exfalso. apply in_rev in H. apply (find_none _ _ E) in H. cbn in H. rewrite N.eqb_refl in H. discriminate.
Qed.

(** If every batch succeeds, in whatever order they finish, an id is known exactly
    when it was put into a function of the list, and it is known by that function's
    identifier (ids are unique, C31). *)
Theorem C38_points_known : forall l order ok s p, by_file l -> Permutation order (fst (batch_run F file dir l)) ->
  merge ok order = Some (s, p) -> NoDup (flat_map return_ids l ++ flat_map panic_ids l) ->
  forall id x, (lookup_point s id = Some x <-> exists f, In f l /\ In id (return_ids f) /\ x = ident f) /\
               (lookup_point p id = Some x <-> exists f, In f l /\ In id (panic_ids f) /\ x = ident f).
Proof.
  intros l order ok s p B Pm Hm ND id x. apply merge_spec in Hm. injection Hm as -> ->. apply NoDup_app_iff in ND as (N1 & N2 & _).
  assert (Permutation (concat order) l) as Pl.
  { pose proof (C38_batches_exact l B) as H. destruct (batch_run F file dir l) as [bs ds]. destruct H as (H & _). cbn in Pm. rewrite <- H.
    clear - Pm. induction Pm; cbn; [constructor|apply Permutation_app_head; assumption|rewrite !app_assoc; apply Permutation_app_tail, Permutation_app_comm|eapply Permutation_trans; eassumption]. }
  assert (forall ids : F -> list N, NoDup (flat_map ids l) ->
    (lookup_point (flat_map (fun f => map (fun i => (i, ident f)) (ids f)) (concat order)) id = Some x <-> exists f, In f l /\ In id (ids f) /\ x = ident f)) as G; [|split; apply G; assumption].
  intros ids Nd. rewrite lookup_unique.
  - rewrite in_flat_map. split.
    + intros (f & Hf & Hi). apply in_map_iff in Hi as (i & E & Hi). injection E as <- <-. exists f. split; [eapply Permutation_in; eassumption|auto].
    + intros (f & Hf & Hi & ->). exists f. split; [eapply Permutation_in; [apply Permutation_sym; exact Pl|exact Hf]|]. apply in_map_iff. exists id. auto.
  - assert (map fst (flat_map (fun f => map (fun i => (i, ident f)) (ids f)) (concat order)) = flat_map ids (concat order)) as ->.
    { clear. induction (concat order) as [|f fs IH]; [reflexivity|]. cbn. rewrite map_app, IH, map_map. f_equal. cbn. apply map_id. }
    eapply Permutation_NoDup; [apply Permutation_flat_map, Permutation_sym; exact Pl|exact Nd].
Qed.
End BatchP.
Print Assumptions C38_batches_exact.
Print Assumptions C38_clients_exact.
Print Assumptions C38_consistency_check_passes.
Print Assumptions C38_points_known.

(** Functions of three files in two directories. *)
Definition ex38 : list (bytes * bytes) := [(B "a/x.go", B "F"); (B "a/x.go", B "G"); (B "a/y.go", B "H"); (B "b/z.go", B "K"); (B "b/z.go", B "L")].
Definition ex38_dir (p : bytes) : bytes := firstn 1 p.
Example C38_example :
  by_file _ fst ex38 /\
  batch_run _ fst ex38_dir ex38 = ([[]; [(B "a/x.go", B "F"); (B "a/x.go", B "G")]; [(B "a/y.go", B "H")]; [(B "b/z.go", B "K"); (B "b/z.go", B "L")]], [B "a"; B "b"]) /\
  merge_batches _ fst snd (fun f => beq (snd f) (B "G")) (fun f => if beq (snd f) (B "H") then JNormal else JOk [N.of_nat (length (fst f) + 10 * length (snd f)); blen (snd f)]) (fun f => JNormal) (fun _ => true)
    [[(B "a/y.go", B "H")]; []; [(B "a/x.go", B "F"); (B "a/x.go", B "G")]] = Some ([(16%N, B "F"); (1%N, B "F")], []).
Proof. split; [repeat constructor|split; reflexivity]. Qed.

(** A function without a file would be put into the first batch without a client. *)
Theorem C38_no_file_no_client_refuted : forall F file dir (f : F), file f = [] -> snd (batch_run F file dir [f]) = [].
Proof. intros F file dir f H. unfold batch_run. cbn. unfold batch_step. cbn. rewrite H. reflexivity. Qed.
Print Assumptions C38_no_file_no_client_refuted.

(** When the list is not sorted, one file may be handled by two batches at once. *)
Theorem C38_sorting_needed : exists l : list (bytes * bytes), ~ apart _ fst (fst (batch_run _ fst ex38_dir l)).
Proof.
  exists [(B "a", B "F"); (B "b", B "G"); (B "a", B "H")]. intros A.
  apply (A 1%nat 3%nat (B "a", B "F") (B "a", B "H")); [discriminate|left; reflexivity|left; reflexivity|reflexivity].
Qed.
Print Assumptions C38_sorting_needed.
