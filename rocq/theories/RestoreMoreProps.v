(** C36 and C37, forwards: which commands an update run runs, and what a commit writes. *)
From Verif Require Import Base Maps FsModel GoModModel ModifierModel GoModProps ModifierProps.
Local Open Scope nat_scope.

(** ** C36: the commands *)
Section Commands.
Variable cmd : bytes -> option bytes -> fsys -> fsys -> bool -> Prop.
Variable second_run : fsys -> fsys -> bool -> Prop.
(** Commands run one after the other, all successfully. *)
Inductive all_ran : list (bytes * option bytes) -> fsys -> fsys -> Prop :=
  | ar_nil : forall f, all_ran [] f f
  | ar_cons : forall d m l f f1 f2, cmd d m f f1 true -> all_ran l f1 f2 -> all_ran ((d, m) :: l) f f2.
(** What is to be run: in every directory "go get" for every module, then "go mod tidy". *)
Definition wanted (ds ms : list bytes) : list (bytes * option bytes) :=
  flat_map (fun d => map (fun m => (d, Some m)) ms ++ [(d, None)]) ds.

Lemma all_ran_app a b f f1 f2 : all_ran a f f1 -> all_ran b f1 f2 -> all_ran (a ++ b) f f2.
Proof. induction 1; intros H2; [exact H2|]. cbn. econstructor; [eassumption|auto]. Qed.

Lemma gets_ran d ms f f' ok : gets cmd d ms f f' ok ->
  if ok then all_ran (map (fun m => (d, Some m)) ms) f f'
  else exists before m after f1, ms = before ++ m :: after /\ all_ran (map (fun m => (d, Some m)) before) f f1 /\ cmd d (Some m) f1 f' false.
Proof.
  induction 1 as [f|m ms f f' H|m ms f f1 f2 ok H G IH].
  - constructor.
  - exists [], m, ms, f. split; [reflexivity|]. split; [constructor|exact H].
  - destruct ok.
    + cbn. econstructor; eassumption.
    + destruct IH as (b & x & af & g & -> & Hb & Hx). exists (m :: b), x, af, g. split; [reflexivity|]. split; [cbn; econstructor; eassumption|exact Hx].
Qed.
Lemma updates_ran ms ds f f' ok : updates cmd ms ds f f' ok ->
  if ok then all_ran (wanted ds ms) f f'
  else exists before d m after f1, wanted ds ms = before ++ (d, m) :: after /\ all_ran before f f1 /\ cmd d m f1 f' false.
Proof.
  induction 1 as [f|d ds f f' H|d ds f f1 f2 H T|d ds f f1 f2 f3 ok H T U IH].
  - constructor.
  - apply gets_ran in H as (b & m & af & g & -> & Hb & Hm). exists (map (fun m => (d, Some m)) b), d, (Some m), (map (fun m => (d, Some m)) af ++ [(d, None)] ++ wanted ds (b ++ m :: af)), g.
    split; [|split; [exact Hb|exact Hm]]. unfold wanted at 1. cbn [flat_map]. fold (wanted ds (b ++ m :: af)). rewrite map_app. cbn [map]. rewrite <- !app_assoc. reflexivity.
  - apply gets_ran in H. exists (map (fun m => (d, Some m)) ms), d, None, (wanted ds ms), f1. split; [|split; [exact H|exact T]].
    unfold wanted at 1. cbn [flat_map]. fold (wanted ds ms). rewrite <- app_assoc. reflexivity.
  - apply gets_ran in H. assert (all_ran (map (fun m => (d, Some m)) ms ++ [(d, None)]) f f2) as A.
    { eapply all_ran_app; [exact H|]. econstructor; [exact T|constructor]. }
    destruct ok.
    + unfold wanted. cbn [flat_map]. eapply all_ran_app; [exact A|exact IH].
    + destruct IH as (b & x & m & af & g & E & Hb & Hx). exists ((map (fun m => (d, Some m)) ms ++ [(d, None)]) ++ b), x, m, af, g.
      split; [|split; [eapply all_ran_app; eassumption|exact Hx]]. unfold wanted. cbn [flat_map]. fold (wanted ds ms). rewrite E. apply app_assoc.
Qed.

(** An update run that made its backups either ran all commands and then the tests, whose
    outcome is its own, or stopped at the first command that failed and failed. *)
Theorem C36_commands_exact : forall um ds ms f f' oks ok, update_run cmd second_run um ds ms f f' true oks ok ->
  exists f1, (exists bs, backup_loop um ds f bs f1 true) /\
  ((exists f2 f3, all_ran (wanted ds ms) f1 f2 /\ second_run f2 f3 ok) \/
   (ok = false /\ exists before d m after g g', wanted ds ms = before ++ (d, m) :: after /\ all_ran before f1 g /\ cmd d m g g' false)).
Proof.
  intros um ds ms f f' oks ok H. inversion H; subst.
  - exists f1. split; [eauto|]. right. split; [reflexivity|]. pose proof (updates_ran _ _ _ _ _ H1) as (b & d & m & af & g & E & Hb & Hx). exists b, d, m, af, g, f2. auto.
  - exists f1. split; [eauto|]. left. pose proof (updates_ran _ _ _ _ _ H1) as A. exists f2, f3. auto.
Qed.
(** One whose backups failed runs nothing and fails. *)
Theorem C36_backup_failure_fails : forall um ds ms f f' oks ok, update_run cmd second_run um ds ms f f' false oks ok ->
  ok = false /\ exists bs f1, backup_loop um ds f bs f1 false /\ restore bs f1 f' oks.
Proof. intros um ds ms f f' oks ok H. inversion H; subst. eauto. Qed.


(** The files put back, by name: whatever the commands and tests do, unless they touch the
    backups. *)
Theorem C36_files_named : forall ds, NoDup ds ->
  (forall d m f g ok, cmd d m f g ok -> spares ds f g) -> (forall f g ok, second_run f g ok -> spares ds f g) ->
  forall um ms f f' done oks ok, ready ds f ->
  update_run cmd second_run um ds ms f f' done oks ok -> Forall (eq true) oks -> forall d, In d ds ->
  contents f' (d ++ B "/go.mod") = contents f (d ++ B "/go.mod") /\
  (forall c, contents f (d ++ B "/go.sum") = Some c -> contents f' (d ++ B "/go.sum") = Some c).
Proof.
  intros ds ND S1 S2 um ms f f' done oks ok R H Ho d Hd.
  destruct (C36_contents_put_back cmd second_run ds S1 S2 um ms f f' done oks ok ND R H Ho d Hd) as [M S]. split; [exact M|].
  intros c Hc. unfold holds in S. rewrite <- Hc. apply S. destruct (R d Hd) as (_ & _ & _ & Rs). unfold file_exists. rewrite (regular_resolve _ _ Rs).
  change (contents f (sum_path d) = Some c) in Hc. rewrite (regular_contents _ _ Rs) in Hc. destruct (f (sum_path d)); [reflexivity|discriminate].
Qed.
End Commands.
Print Assumptions C36_commands_exact.
Print Assumptions C36_backup_failure_fails.
Print Assumptions C36_files_named.

(** Two directories, one module: the second "go get" fails, so no "tidy" follows there. *)
Definition ex36_fail (d : bytes) (m : option bytes) (f f' : fsys) (ok : bool) : Prop :=
  f' = f /\ ok = negb (beq d (B "q") && match m with Some _ => true | None => false end).
Example C36_commands_example :
  wanted [B "p"; B "q"] [B "x@v2"] = [(B "p", Some (B "x@v2")); (B "p", None); (B "q", Some (B "x@v2")); (B "q", None)] /\
  exists f f', update_run ex36_fail (fun f f' ok => f' = f) 438 [B "p"; B "q"] [B "x@v2"] f f' true [true; true] false /\
  contents f' (B "p/go.mod") = Some (B "m") /\ f' (B "p/go.mod.bkp") = None.
Proof.
  split; [reflexivity|].
  exists (fun p => if beq p (B "p/go.mod") || beq p (B "q/go.mod") then Some (NFile 420 (B "m")) else None). eexists. split.
  - eapply ur_update_fails.
    + eapply bl_no_sum; [eapply cp_ok; [reflexivity|vm_compute; discriminate]|reflexivity|].
      eapply bl_no_sum; [eapply cp_ok; [reflexivity|vm_compute; discriminate]|reflexivity|apply bl_nil].
    + eapply up_cons; [eapply gt_cons; [split; reflexivity|apply gt_nil]|split; reflexivity|]. eapply up_get_fails. eapply gt_fail. split; reflexivity.
    + eapply (rs_mod_only (Backup (B "p") false)); [reflexivity|eapply rn_ok; [reflexivity|vm_compute; discriminate]|].
      eapply (rs_mod_only (Backup (B "q") false)); [reflexivity|eapply rn_ok; [reflexivity|vm_compute; discriminate]|apply rs_nil].
  - vm_compute. auto.
Qed.

(** ** C37: what a commit writes *)
Section Commit.
Variable um : N.

Lemma backup_touch p f a f' a' o : backup_file um p f a f' a' o -> regular f p -> regular f (bkp p) ->
  (forall q, q <> bkp p -> f' q = f q) /\ regular f' (bkp p).
Proof.
  intros H Rp Rb. destruct H as [f a X|f a f' X C|f a X|f a f' X C]; auto.
  - destruct C as [|t E|m c part E N|m c E N]; auto.
    + unfold regular in Rp. rewrite E in Rp. destruct Rp.
    + split; [intros q Hq; rewrite put_regular by exact Rb; destruct (beq_spec q (bkp p)); [contradiction|reflexivity]|]. unfold regular. rewrite put_regular by exact Rb. rewrite beq_refl. exact I.
    + split; [intros q Hq; rewrite put_regular by exact Rb; destruct (beq_spec q (bkp p)); [contradiction|reflexivity]|]. unfold regular. rewrite put_regular by exact Rb. rewrite beq_refl. exact I.
  - destruct C as [|t E|m c part E N|m c E N]; auto.
    + unfold regular in Rp. rewrite E in Rp. destruct Rp.
    + split; [intros q Hq; rewrite put_regular by exact Rb; destruct (beq_spec q (bkp p)); [contradiction|reflexivity]|]. unfold regular. rewrite put_regular by exact Rb. rewrite beq_refl. exact I.
    + split; [intros q Hq; rewrite put_regular by exact Rb; destruct (beq_spec q (bkp p)); [contradiction|reflexivity]|]. unfold regular. rewrite put_regular by exact Rb. rewrite beq_refl. exact I.
Qed.
Lemma pending_touch p t f a f' a' o : write_pending um p t f a f' a' o -> regular f p -> regular f (bkp p) ->
  (forall q, q <> p -> q <> bkp p -> f' q = f q) /\ (o = WDone -> exists m, f' p = Some (NFile m t)).
Proof.
  intros H Rp Rb. destruct H as [f a|f a f' a' o No C|f a f1 a1 f2 ok C W].
  - split; [reflexivity|discriminate].
  - destruct (backup_touch _ _ _ _ _ _ C Rp Rb) as [T _]. split; [intros q _ Hq; exact (T q Hq)|contradiction].
  - destruct (backup_touch _ _ _ _ _ _ C Rp Rb) as [T _]. assert (f1 p = f p) as Ep by (apply T, self_bkp).
    assert (regular f1 p) as R1 by (unfold regular; rewrite Ep; exact Rp).
    destruct W as [|part|].
    + split; [intros q _ Hq; exact (T q Hq)|discriminate].
    + split; [|discriminate]. intros q Hp Hb. rewrite put_regular by exact R1. destruct (beq_spec q p); [contradiction|exact (T q Hb)].
    + split; [|intros _; rewrite put_regular, beq_refl by exact R1; eauto]. intros q Hp Hb. rewrite put_regular by exact R1. destruct (beq_spec q p); [contradiction|exact (T q Hb)].
Qed.
Lemma all_touch l f a f' a' os : write_all um l f a f' a' os ->
  NoDup (map fst l) -> (forall p, In p (map fst l) -> regular f p /\ regular f (bkp p)) ->
  (forall p q, In p (map fst l) -> In q (map fst l) -> p <> bkp q) ->
  (forall q, (forall p, In p (map fst l) -> q <> p /\ q <> bkp p) -> f' q = f q) /\
  length os = length l /\
  (forall i p t, nth_error l i = Some (p, t) -> nth_error os i = Some WDone -> exists m, f' p = Some (NFile m t)).
Proof.
  induction 1 as [f a|p t l f a f1 a1 o f2 a2 os W A IH]; intros ND R K.
  - split; [reflexivity|]. split; [reflexivity|]. intros [] p t E; discriminate.
  - cbn [map fst] in *. inversion ND as [|x y N1 N2]; subst. destruct (R p (or_introl eq_refl)) as [Rp Rb]. destruct (pending_touch _ _ _ _ _ _ _ W Rp Rb) as [T D].
    assert (forall q, In q (map fst l) -> f1 q = f q /\ f1 (bkp q) = f (bkp q)) as Sm.
    { intros q Hq. split; apply T.
      - intros ->. contradiction.
      - apply K; [right; exact Hq|left; reflexivity].
      - intros E. apply (K p q (or_introl eq_refl) (or_intror Hq)). symmetry. exact E.
      - intros E. apply bkp_inj in E as ->. contradiction. }
    destruct IH as (T2 & L & D2); [exact N2| |intros x y Hx Hy; apply K; right; assumption|].
    { intros q Hq. destruct (Sm q Hq) as [E1 E2]. destruct (R q (or_intror Hq)) as [Q1 Q2]. unfold regular. rewrite E1, E2. split; [exact Q1|exact Q2]. }
    split; [|split; [cbn; congruence|]].
    + intros q Hq. rewrite T2 by (intros x Hx; apply Hq; right; exact Hx). destruct (Hq p (or_introl eq_refl)) as [A1 A2]. apply T; assumption.
    + intros [|i] q u E1 E2; cbn in E1, E2.
      * injection E1 as -> ->. injection E2 as ->. destruct (D eq_refl) as [m Em]. exists m. rewrite T2; [exact Em|]. intros x Hx. split; [intros ->; contradiction|].
        apply K; [left; reflexivity|right; exact Hx].
      * exact (D2 i q u E1 E2).
Qed.

Lemma done_all os : forallb (fun o => match o with WDone => true | _ => false end) os = true <-> Forall (eq WDone) os.
Proof. rewrite forallb_forall, Forall_forall. split; intros H x Hx; specialize (H x Hx); destruct x; try discriminate; reflexivity. Qed.

(** A commit without an error has written every pending text to its file and nothing is
    pending any more; with an error everything stays pending.  Other files than those and their
    backups are not touched. *)
Theorem C37_commit_writes : forall f pd a os e, estep um (Editor f pd a) (EvCommit os) e -> mwf pd ->
  (forall p t, mget p pd = Some t -> regular f p /\ regular f (bkp p)) ->
  (forall p q, mget p pd <> None -> mget q pd <> None -> p <> bkp q) ->
  length os = length pd /\
  (Forall (eq WDone) os -> ed_pending e = [] /\ forall p t, mget p pd = Some t -> contents (ed_fs e) p = Some t) /\
  (~ Forall (eq WDone) os -> ed_pending e = pd) /\
  (forall q, (forall p, mget p pd <> None -> q <> p /\ q <> bkp p) -> ed_fs e q = f q).
Proof.
  intros f pd a os e H W R K. inversion H as [| |f0 pd0 a0 l f' a' os0 Hl ND Wa| |]; subst. cbn [ed_pending ed_fs].
  assert (forall p, In p (map fst l) -> mget p pd <> None) as Kn.
  { intros p Hp. apply in_map_iff in Hp as ([q t] & <- & Hq). apply Hl in Hq. cbn. rewrite (mget_in_wf _ _ _ W Hq). discriminate. }
  assert (length l = length pd) as Ll.
  { apply Nat.le_antisymm; apply NoDup_incl_length; try exact ND; try (intros x; apply Hl). unfold mwf in W. eapply NoDup_map_inv. exact W. }
  assert (NoDup (map fst l)) as NK.
  { assert (forall l0, NoDup l0 -> (forall x, In x l0 -> In x pd) -> NoDup (map fst l0)) as Gen.
    { induction l0 as [|[q t] l0 IH]; intros N1 N2; [constructor|]. inversion N1 as [|? ? X Y]; subst. cbn. constructor; [|apply IH; [exact Y|intros x Hx; apply N2; right; exact Hx]].
      intros Hq. apply in_map_iff in Hq as ([q' t'] & E & Hx). cbn in E. subst q'. apply X.
      pose proof (mget_in_wf _ _ _ W (N2 _ (or_introl eq_refl))) as E1. pose proof (mget_in_wf _ _ _ W (N2 _ (or_intror Hx))) as E2. congruence. }
    apply Gen; [exact ND|intros x; apply Hl]. }
  destruct (all_touch _ _ _ _ _ _ Wa NK) as (T & L & D).
  - intros p Hp. pose proof (Kn p Hp) as Np. destruct (mget p pd) as [t|] eqn:E; [exact (R p t E)|congruence].
  - intros p q Hp Hq. apply K; apply Kn; assumption.
  - split; [congruence|]. split; [|split].
    + intros F. rewrite (proj2 (done_all os) F). split; [reflexivity|]. intros p t E. apply mget_in, Hl, In_nth_error in E as [i Ei].
      assert (nth_error os i = Some WDone) as Eo.
      { destruct (nth_error os i) as [o|] eqn:Eo; [apply nth_error_In in Eo; rewrite Forall_forall in F; rewrite <- (F o Eo); reflexivity|].
        apply nth_error_None in Eo. apply (f_equal (fun x => x)) in Ei. assert (i < length l) by (apply nth_error_Some; rewrite Ei; discriminate). lia. }
      destruct (D i p t Ei Eo) as [m Em]. eapply contents_of. exact Em.
    + intros F. destruct (forallb _ os) eqn:E; [exfalso; apply F, done_all, E|reflexivity].
    + intros q Hq. apply T. intros p Hp. apply Hq, Kn, Hp.
Qed.

(** Committing one file writes its text, if there is no error; it is not pending any more in
    either case, and the other files stay. *)
Theorem C37_commit_file_writes : forall f pd a p o e, estep um (Editor f pd a) (EvCommitFile p o) e -> mwf pd -> regular f p -> regular f (bkp p) ->
  exists t, mget p pd = Some t /\ (o = WDone -> contents (ed_fs e) p = Some t) /\ mget p (ed_pending e) = None /\
  (forall q, q <> p -> mget q (ed_pending e) = mget q pd) /\ forall q, q <> p -> q <> bkp p -> ed_fs e q = f q.
Proof.
  intros f pd a p o e H W Rp Rb. inversion H; subst. exists t. cbn [ed_fs ed_pending].
  match goal with X : write_pending _ _ _ _ _ _ _ _ |- _ => destruct (pending_touch _ _ _ _ _ _ _ X Rp Rb) as [T D] end.
  split; [assumption|]. split; [intros E; destruct (D E) as [m Em]; eapply contents_of; exact Em|].
  split; [rewrite mget_mdel, beq_refl by exact W; reflexivity|]. split; [|exact T].
  intros q Hq. rewrite mget_mdel by exact W. destruct (beq_spec q p); [contradiction|reflexivity].
Qed.
End Commit.
Print Assumptions C37_commit_writes.
Print Assumptions C37_commit_file_writes.

(** An edit and a commit; the text is there. *)
Example C37_commit_example : exists e,
  estep 438 (Editor (ex37_fs ex37_old None) [(B "a.go", B "new")] []) (EvCommit [WDone]) e /\
  contents (ed_fs e) (B "a.go") = Some (B "new") /\ contents (ed_fs e) (B "a.go.bkp") = Some (B "old") /\ ed_pending e = [].
Proof.
  eexists. split.
  - eapply (es_commit _ _ _ _ [(B "a.go", B "new")]); [intros x; reflexivity|repeat constructor; intros []|].
    eapply wa_cons; [|apply wa_nil]. eapply (wp_write _ _ _ _ _ _ _ _ true); [eapply bf_made; [reflexivity|eapply cp_ok; [reflexivity|vm_compute; discriminate]]|apply wf_ok].
  - vm_compute. auto.
Qed.
