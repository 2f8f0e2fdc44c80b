(** C36: the project's go.mod and go.sum are put back. *)
From Verif Require Import Base FsModel GoModModel.

Lemma upd_same f p v : upd f p v p = v.
Proof. unfold upd. rewrite beq_refl. reflexivity. Qed.
Lemma upd_other f p v q : q <> p -> upd f p v q = f q.
Proof. intros N. unfold upd. destruct (beq_spec q p); [contradiction|reflexivity]. Qed.

Ltac tails E := apply (f_equal (fun l => firstn 5 (rev l))) in E; rewrite ?rev_app_distr in E; cbn in E; discriminate E.

Lemma mod_path_inj d e : mod_path d = mod_path e -> d = e.
Proof. apply app_inv_tail. Qed.
Lemma sum_path_inj d e : sum_path d = sum_path e -> d = e.
Proof. apply app_inv_tail. Qed.
Lemma mod_bkp_inj d e : mod_bkp d = mod_bkp e -> d = e.
Proof. intros E. apply mod_path_inj. exact (app_inv_tail _ _ _ E). Qed.
Lemma sum_bkp_inj d e : sum_bkp d = sum_bkp e -> d = e.
Proof. intros E. apply sum_path_inj. exact (app_inv_tail _ _ _ E). Qed.
Lemma mp_sp d e : mod_path d <> sum_path e.
Proof. unfold mod_path, sum_path. intros E. tails E. Qed.
Lemma mp_mb d e : mod_path d <> mod_bkp e.
Proof. unfold mod_bkp, mod_path. intros E. tails E. Qed.
Lemma mp_sb d e : mod_path d <> sum_bkp e.
Proof. unfold sum_bkp, mod_path, sum_path. intros E. tails E. Qed.
Lemma sp_mb d e : sum_path d <> mod_bkp e.
Proof. unfold mod_bkp, mod_path, sum_path. intros E. tails E. Qed.
Lemma sp_sb d e : sum_path d <> sum_bkp e.
Proof. unfold sum_bkp, sum_path. intros E. tails E. Qed.
Lemma mb_sb d e : mod_bkp d <> sum_bkp e.
Proof. unfold sum_bkp, mod_bkp. intros E. apply (app_inv_tail _ _ _) in E. exact (mp_sp _ _ E). Qed.
Global Hint Resolve mp_sp mp_mb mp_sb sp_mb sp_sb mb_sb : paths.
Global Hint Resolve not_eq_sym : paths.

(** A path holds a regular file or nothing. *)
Definition regular (f : fsys) (p : bytes) : Prop := match f p with Some (NLink _) => False | _ => True end.

Lemma regular_resolve f p : regular f p -> resolve f p = p.
Proof. unfold regular, resolve. destruct (f p) as [[m c|t]|]; [reflexivity|intros []|reflexivity]. Qed.

Lemma regular_contents f p : regular f p -> contents f p = match f p with Some (NFile _ c) => Some c | _ => None end.
Proof. intros R. unfold contents. rewrite (regular_resolve _ _ R). reflexivity. Qed.

Lemma copy_fresh um f src dst f' ok : copy_file um f src dst f' ok -> f dst = None -> regular f src ->
  (forall q, q <> dst -> f' q = f q) /\
  (ok = true -> exists m c, f src = Some (NFile m c) /\ f' dst = Some (NFile um c)).
Proof.
  intros H F R. assert (resolve f dst = dst) as Rd by (apply regular_resolve; unfold regular; rewrite F; exact I).
  destruct H as [|t E _|m c part E N|m c E N]; unfold put; rewrite ?Rd, ?F; (split; [intros q Hq; try reflexivity; apply upd_other, Hq|]); intros X; try discriminate X.
  - unfold regular in R. rewrite E in R. destruct R.
  - exists m, c. rewrite upd_same. auto.
Qed.

Lemma regular_ext f g p : f p = g p -> regular f p -> regular g p.
Proof. unfold regular. intros ->. auto. Qed.

(** What the backup loop leaves behind. *)
Definition backed (um : N) (f f1 : fsys) (b : backup) : Prop :=
  (exists m c, f (mod_path (bk_dir b)) = Some (NFile m c) /\ f1 (mod_bkp (bk_dir b)) = Some (NFile um c)) /\
  bk_sum b = file_exists f (sum_path (bk_dir b)) /\
  (if bk_sum b then exists m c, f (sum_path (bk_dir b)) = Some (NFile m c) /\ f1 (sum_bkp (bk_dir b)) = Some (NFile um c)
   else f1 (sum_bkp (bk_dir b)) = None).

Lemma file_exists_ext f g p : f p = g p -> regular f p -> file_exists f p = file_exists g p.
Proof.
  intros E R. unfold file_exists. rewrite (regular_resolve _ _ R), (regular_resolve g p (regular_ext _ _ _ E R)), E. reflexivity.
Qed.

Lemma backup_spec um ds f bs f1 ok : backup_loop um ds f bs f1 ok -> NoDup ds ->
  (forall d, In d ds -> f (mod_bkp d) = None /\ f (sum_bkp d) = None /\ regular f (mod_path d) /\ regular f (sum_path d)) ->
  (forall q, (forall d, In d ds -> q <> mod_bkp d /\ q <> sum_bkp d) -> f1 q = f q) /\
  Forall (backed um f f1) bs /\ (exists rest, ds = map bk_dir bs ++ rest /\ (ok = true -> rest = [])).
Proof.
  induction 1 as [f|d ds f f1 Hm|d ds f f1 bs f2 ok Hm He Hl IH|d ds f f1 f2 Hm He Hs|d ds f f1 f2 bs f3 ok Hm He Hs Hl IH]; intros ND Fr.
  - split; [reflexivity|]. split; [constructor|]. exists []. auto.
  - destruct (Fr d (or_introl eq_refl)) as (F1 & F2 & R1 & R2). destruct (copy_fresh _ _ _ _ _ _ Hm F1 R1) as [K _].
    split; [intros q Hq; apply K, Hq; left; reflexivity|]. split; [constructor|]. exists (d :: ds). split; [reflexivity|discriminate].
  - destruct (Fr d (or_introl eq_refl)) as (F1 & F2 & R1 & R2). destruct (copy_fresh _ _ _ _ _ _ Hm F1 R1) as [K Kok].
    destruct (Kok eq_refl) as (m & c & E1 & E2). inversion ND as [|? ? Nd ND']; subst.
    destruct IH as (I1 & I2 & rest & I3 & I4); [exact ND'| |].
    { intros e He'. destruct (Fr e (or_intror He')) as (G1 & G2 & G3 & G4). assert (e <> d) as Ned by (intros ->; contradiction).
      rewrite !K by (auto with paths; intros X; apply mod_bkp_inj in X; contradiction).
      split; [exact G1|]. split; [exact G2|]. split; eapply regular_ext; try eassumption; symmetry; apply K; auto with paths. }
    assert (forall x, f1 (sum_path x) = f (sum_path x)) as Ks by (intros; apply K; auto with paths).
    assert (forall x, f1 (mod_path x) = f (mod_path x)) as Km by (intros; apply K; auto with paths).
    split; [|split].
    + intros q Hq. rewrite I1 by (intros e He'; apply Hq; right; exact He'). apply K, Hq. left. reflexivity.
    + constructor.
      * split; [exists m, c; split; [exact E1|]; cbn [bk_dir]; rewrite I1; [exact E2|]; intros e He'; split; [intros X; apply mod_bkp_inj in X; subst; contradiction|auto with paths]|].
        cbn [bk_sum bk_dir]. split; [rewrite <- He; symmetry; apply file_exists_ext; [symmetry; apply Ks|exact R2]|].
        rewrite I1; [rewrite K; [exact F2|auto with paths]|]. intros e He'. split; [auto with paths|intros X; apply sum_bkp_inj in X; subst; contradiction].
      * eapply Forall_impl; [|apply Forall_forall; intros b Hb; exact (conj Hb (proj1 (Forall_forall _ _) I2 b Hb))].
        cbn. intros b [Hb (P1 & P2 & P3)]. assert (In (bk_dir b) ds) as Hi by (rewrite I3; apply in_or_app; left; apply in_map, Hb).
        destruct (Fr _ (or_intror Hi)) as (_ & _ & G3 & G4). unfold backed. rewrite <- (Km (bk_dir b)), <- (Ks (bk_dir b)). split; [exact P1|]. split; [|exact P3].
        rewrite P2. symmetry. apply file_exists_ext; [symmetry; apply Ks|exact G4].
    + exists rest. split; [cbn; f_equal; exact I3|exact I4].
  - destruct (Fr d (or_introl eq_refl)) as (F1 & F2 & R1 & R2). destruct (copy_fresh _ _ _ _ _ _ Hm F1 R1) as [K _].
    assert (f1 (sum_path d) = f (sum_path d)) as Ks by (apply K; auto with paths).
    destruct (copy_fresh _ _ _ _ _ _ Hs) as [K2 _]; [rewrite K; auto with paths|eapply regular_ext; [symmetry; exact Ks|exact R2]|].
    split; [intros q Hq; destruct (Hq d (or_introl eq_refl)); rewrite K2, K; auto|]. split; [constructor|]. exists (d :: ds). split; [reflexivity|discriminate].
  - destruct (Fr d (or_introl eq_refl)) as (F1 & F2 & R1 & R2). destruct (copy_fresh _ _ _ _ _ _ Hm F1 R1) as [K Kok].
    destruct (Kok eq_refl) as (m & c & E1 & E2). inversion ND as [|? ? Nd ND']; subst.
    assert (forall x, f1 (sum_path x) = f (sum_path x)) as Ks by (intros; apply K; auto with paths).
    destruct (copy_fresh _ _ _ _ _ _ Hs) as [K2 Kok2]; [rewrite K; auto with paths|eapply regular_ext; [symmetry; apply Ks|exact R2]|].
    destruct (Kok2 eq_refl) as (m2 & c2 & E3 & E4). rewrite Ks in E3.
    assert (forall x, f2 (sum_path x) = f (sum_path x)) as Ks2 by (intros; rewrite K2, K; auto with paths).
    assert (forall x, f2 (mod_path x) = f (mod_path x)) as Km2 by (intros; rewrite K2, K; auto with paths).
    destruct IH as (I1 & I2 & rest & I3 & I4); [exact ND'| |].
    { intros e He'. destruct (Fr e (or_intror He')) as (G1 & G2 & G3 & G4).
      assert (e <> d) as Ned by (intros ->; contradiction).
      rewrite !K2, !K by (auto with paths; intros X; first [apply mod_bkp_inj in X|apply sum_bkp_inj in X]; contradiction).
      split; [exact G1|]. split; [exact G2|]. split; eapply regular_ext; try eassumption; symmetry; [apply Km2|apply Ks2]. }
    split; [|split].
    + intros q Hq. rewrite I1 by (intros e He'; apply Hq; right; exact He'). destruct (Hq d (or_introl eq_refl)). rewrite K2, K; auto.
    + constructor.
      * split; [exists m, c; split; [exact E1|]; cbn [bk_dir]; rewrite I1; [rewrite K2; [exact E2|auto with paths]|]; intros e He'; split; [intros X; apply mod_bkp_inj in X; subst; contradiction|auto with paths]|].
        cbn [bk_sum bk_dir]. split; [rewrite <- He; symmetry; apply file_exists_ext; [symmetry; apply Ks|exact R2]|].
        exists m2, c2. split; [exact E3|]. rewrite I1; [exact E4|]. intros e He'. split; [auto with paths|intros X; apply sum_bkp_inj in X; subst; contradiction].
      * eapply Forall_impl; [|apply Forall_forall; intros b Hb; exact (conj Hb (proj1 (Forall_forall _ _) I2 b Hb))].
        cbn. intros b [Hb (P1 & P2 & P3)]. assert (In (bk_dir b) ds) as Hi by (rewrite I3; apply in_or_app; left; apply in_map, Hb).
        destruct (Fr _ (or_intror Hi)) as (_ & _ & G3 & G4). unfold backed. rewrite <- (Km2 (bk_dir b)), <- (Ks2 (bk_dir b)). split; [exact P1|]. split; [|exact P3].
        rewrite P2. symmetry. apply file_exists_ext; [symmetry; apply Ks2|exact G4].
    + exists rest. split; [cbn; f_equal; exact I3|exact I4].
Qed.

Lemma rename_spec f src dst f' ok : rename f src dst f' ok ->
  (ok = false /\ f' = f) \/ (ok = true /\ exists n, f src = Some n /\ f' dst = Some n /\ f' src = None /\ forall q, q <> src -> q <> dst -> f' q = f q).
Proof.
  intros [|n E N]; [left; auto|]. right. split; [reflexivity|]. exists n. split; [exact E|]. split; [apply upd_same|]. split.
  - rewrite upd_other, upd_same by auto. reflexivity.
  - intros q A C. rewrite !upd_other; auto.
Qed.

(** What the restore loop does to the four paths of one directory. *)
Definition kept (f f' : fsys) (d : bytes) : Prop :=
  f' (mod_path d) = f (mod_path d) /\ f' (mod_bkp d) = f (mod_bkp d) /\ f' (sum_path d) = f (sum_path d) /\ f' (sum_bkp d) = f (sum_bkp d).
Definition mod_back (f f' : fsys) (d : bytes) : Prop := f (mod_bkp d) <> None /\ f' (mod_path d) = f (mod_bkp d) /\ f' (mod_bkp d) = None.
Definition sum_kept (f f' : fsys) (d : bytes) : Prop := f' (sum_path d) = f (sum_path d) /\ f' (sum_bkp d) = f (sum_bkp d).
Definition sum_back (f f' : fsys) (d : bytes) : Prop := f (sum_bkp d) <> None /\ f' (sum_path d) = f (sum_bkp d) /\ f' (sum_bkp d) = None.
Definition restored (f f' : fsys) (b : backup) : Prop :=
  mod_back f f' (bk_dir b) /\ if bk_sum b then sum_back f f' (bk_dir b) else sum_kept f f' (bk_dir b).
Definition unrestored (f f' : fsys) (b : backup) : Prop :=
  kept f f' (bk_dir b) \/ (bk_sum b = true /\ mod_back f f' (bk_dir b) /\ sum_kept f f' (bk_dir b)).

Lemma restore_other bs f f' oks : restore bs f f' oks ->
  forall q, (forall b, In b bs -> q <> mod_path (bk_dir b) /\ q <> sum_path (bk_dir b) /\ q <> mod_bkp (bk_dir b) /\ q <> sum_bkp (bk_dir b)) -> f' q = f q.
Proof.
  induction 1 as [f|b bs f f1 f2 oks Hm Hr IH|b bs f f1 f2 oks Hb Hm Hr IH|b bs f f1 f2 f3 ok oks Hb Hm Hs Hr IH]; intros q Hq; [reflexivity| | |];
    rewrite IH by (intros x Hx; apply Hq; right; exact Hx); destruct (Hq b (or_introl eq_refl)) as (Q1 & Q2 & Q3 & Q4).
  - apply rename_spec in Hm as [[_ ->]|[X _]]; [reflexivity|discriminate].
  - apply rename_spec in Hm as [[X _]|(_ & n & _ & _ & _ & K)]; [discriminate|apply K; assumption].
  - apply rename_spec in Hm as [[X _]|(_ & n & _ & _ & _ & K)]; [discriminate|].
    apply rename_spec in Hs as [[_ ->]|(_ & n2 & _ & _ & _ & K2)]; [apply K; assumption|rewrite K2, K; auto].
Qed.

Lemma restore_dir_other bs f f' oks d : restore bs f f' oks -> ~ In d (map bk_dir bs) -> kept f f' d.
Proof.
  intros H Nd. assert (forall b, In b bs -> bk_dir b <> d) as N by (intros b Hb E; apply Nd; rewrite <- E; apply in_map, Hb).
  repeat split; apply (restore_other _ _ _ _ H); intros b Hb; specialize (N b Hb); repeat split; auto with paths;
    intros X; first [apply mod_path_inj in X|apply sum_path_inj in X|apply mod_bkp_inj in X|apply sum_bkp_inj in X]; congruence.
Qed.

Lemma restore_spec bs f f' oks : restore bs f f' oks -> NoDup (map bk_dir bs) ->
  Forall2 (fun b (ok : bool) => if ok then restored f f' b else unrestored f f' b) bs oks.
Proof.
  assert (forall bs f f1 f2 oks b, restore bs f1 f2 oks -> NoDup (map bk_dir (b :: bs)) ->
    (forall q, (q <> mod_path (bk_dir b) /\ q <> sum_path (bk_dir b) /\ q <> mod_bkp (bk_dir b) /\ q <> sum_bkp (bk_dir b)) -> f1 q = f q) ->
    Forall2 (fun b (ok : bool) => if ok then restored f1 f2 b else unrestored f1 f2 b) bs oks ->
    Forall2 (fun b (ok : bool) => if ok then restored f f2 b else unrestored f f2 b) bs oks) as Sh.
  { intros bs0 g g1 g2 oks0 b Hr ND K F. cbn in ND. inversion ND as [|? ? Nb _]; subst. clear Hr ND.
    induction F as [|x ok l lo Hx F IH]; constructor.
    - assert (bk_dir x <> bk_dir b) as Nx by (intros E; apply Nb; left; exact E).
      assert (g1 (mod_path (bk_dir x)) = g (mod_path (bk_dir x)) /\ g1 (mod_bkp (bk_dir x)) = g (mod_bkp (bk_dir x)) /\
              g1 (sum_path (bk_dir x)) = g (sum_path (bk_dir x)) /\ g1 (sum_bkp (bk_dir x)) = g (sum_bkp (bk_dir x))) as (A1 & A2 & A3 & A4).
      { repeat split; apply K; repeat split; auto with paths; intros X; first [apply mod_path_inj in X|apply sum_path_inj in X|apply mod_bkp_inj in X|apply sum_bkp_inj in X]; congruence. }
      unfold restored, unrestored, kept, mod_back, sum_back, sum_kept in *. rewrite <- ?A1, <- ?A2, <- ?A3, <- ?A4. exact Hx.
    - apply IH. intros X. apply Nb. right. exact X. }
  induction 1 as [f|b bs f f1 f2 oks Hm Hr IH|b bs f f1 f2 oks Hb Hm Hr IH|b bs f f1 f2 f3 ok oks Hb Hm Hs Hr IH]; intros ND; [constructor| | |];
    (cbn in ND; inversion ND as [|? ? Nb ND']; subst; specialize (IH ND')); pose proof (restore_dir_other _ _ _ _ _ Hr Nb) as (O1 & O2 & O3 & O4).
  - apply rename_spec in Hm as [[_ ->]|[X _]]; [|discriminate]. constructor; [left; repeat split; assumption|exact IH].
  - apply rename_spec in Hm as [[X _]|(_ & n & E1 & E2 & E3 & K)]; [discriminate|]. constructor.
    + split; [repeat split; [rewrite E1; discriminate|congruence|congruence]|]. rewrite Hb. split; [rewrite O3|rewrite O4]; apply K; auto with paths.
    + eapply Sh; try eassumption. intros q (Q1 & Q2 & Q3 & Q4). apply K; assumption.
  - apply rename_spec in Hm as [[X _]|(_ & n & E1 & E2 & E3 & K)]; [discriminate|].
    assert (f1 (sum_path (bk_dir b)) = f (sum_path (bk_dir b)) /\ f1 (sum_bkp (bk_dir b)) = f (sum_bkp (bk_dir b))) as [Ks1 Ks2] by (split; apply K; auto with paths).
    apply rename_spec in Hs as [[-> ->]|(-> & n2 & G1 & G2 & G3 & K2)].
    + constructor.
      * right. split; [exact Hb|]. split; [repeat split; [rewrite E1; discriminate|congruence|congruence]|split; congruence].
      * eapply Sh; try eassumption. intros q (Q1 & Q2 & Q3 & Q4). apply K; assumption.
    + assert (f2 (mod_path (bk_dir b)) = f1 (mod_path (bk_dir b)) /\ f2 (mod_bkp (bk_dir b)) = f1 (mod_bkp (bk_dir b))) as [M1 M2] by (split; apply K2; auto with paths).
      constructor.
      * split; [repeat split; [rewrite E1; discriminate|congruence|congruence]|]. rewrite Hb. repeat split; [rewrite <- Ks2, G1; discriminate|congruence|congruence].
      * eapply Sh; try eassumption. intros q (Q1 & Q2 & Q3 & Q4). rewrite K2, K; auto.
Qed.

Section GoMod.
Variable cmd : bytes -> option bytes -> fsys -> fsys -> bool -> Prop.
Variable second_run : fsys -> fsys -> bool -> Prop.
Variable ds : list bytes.

(** The commands and the tests leave the backup files alone; they may change
    anything else. *)
Definition spares (f f' : fsys) : Prop := forall d, In d ds -> f' (mod_bkp d) = f (mod_bkp d) /\ f' (sum_bkp d) = f (sum_bkp d).
Hypothesis cmd_spares : forall d m f f' ok, cmd d m f f' ok -> spares f f'.
Hypothesis second_spares : forall f f' ok, second_run f f' ok -> spares f f'.

Lemma spares_refl f : spares f f.
Proof. intros d _. auto. Qed.
Lemma spares_trans f g h : spares f g -> spares g h -> spares f h.
Proof. intros A C d Hd. destruct (A d Hd), (C d Hd). split; congruence. Qed.

Lemma gets_spares d ms f f' ok : gets cmd d ms f f' ok -> spares f f'.
Proof. induction 1; [apply spares_refl|eauto|eapply spares_trans; eauto]. Qed.

Lemma updates_spares ms l f f' ok : updates cmd ms l f f' ok -> spares f f'.
Proof.
  induction 1 as [f|d l f f' H|d l f f1 f2 H1 H2|d l f f1 f2 f3 ok H1 H2 H3 IH]; [apply spares_refl|eapply gets_spares; eauto| |].
  - eapply spares_trans; [eapply gets_spares|]; eauto.
  - eapply spares_trans; [eapply gets_spares; eauto|]. eapply spares_trans; eauto.
Qed.

(** Beforehand: no backup files, go.mod and go.sum are not links. *)
Definition ready (f : fsys) : Prop := forall d, In d ds -> f (mod_bkp d) = None /\ f (sum_bkp d) = None /\ regular f (mod_path d) /\ regular f (sum_path d).

(** The contents of [p] before are those of [q] after. *)
Definition holds (f f' : fsys) (p q : bytes) : Prop := contents f' q = contents f p.

Lemma run_split um ms f f' done oks ok : NoDup ds -> ready f -> update_run cmd second_run um ds ms f f' done oks ok ->
  exists bs f1 f2 rest, Forall (backed um f f1) bs /\ ds = map bk_dir bs ++ rest /\ (done = true -> rest = []) /\ restore bs f2 f' oks /\ spares f1 f2 /\
    (forall d, f1 (mod_path d) = f (mod_path d) /\ f1 (sum_path d) = f (sum_path d)) /\ (done = false -> f2 = f1).
Proof.
  intros ND R H. assert (forall bs f1 b, backup_loop um ds f bs f1 b -> Forall (backed um f f1) bs /\
    (forall d, f1 (mod_path d) = f (mod_path d) /\ f1 (sum_path d) = f (sum_path d)) /\ exists rest, ds = map bk_dir bs ++ rest /\ (b = true -> rest = [])) as S.
  { intros bs f1 b Hb. destruct (backup_spec _ _ _ _ _ _ Hb ND R) as (A1 & A2 & A3). split; [exact A2|]. split; [|exact A3].
    intros d. split; apply A1; intros e He; auto with paths. }
  destruct H as [bs f1 f2 oks Hb Hr|bs f1 f2 f3 oks Hb Hu Hr|bs f1 f2 f3 f4 oks ok Hb Hu Hs Hr]; destruct (S _ _ _ Hb) as (S1 & S2 & rest & S3 & S4).
  - exists bs, f1, f1, rest. repeat (split; [try assumption; try discriminate; try apply spares_refl|]); auto.
  - exists bs, f1, f2, rest. repeat (split; [try assumption; try (eapply updates_spares; eassumption)|]); auto; discriminate.
  - exists bs, f1, f3, rest. repeat (split; [try assumption; try (eapply spares_trans; [eapply updates_spares; eassumption|eauto])|]); auto; discriminate.
Qed.

Lemma contents_of f p m c : f p = Some (NFile m c) -> contents f p = Some c.
Proof. intros E. rewrite regular_contents; unfold regular; rewrite E; auto. Qed.

(** Whatever fails and whatever the commands do, if the renames of the restore
    succeed then go.mod has its original contents, and go.sum has if it existed. *)
Theorem C36_contents_put_back : forall um ms f f' done oks ok, NoDup ds -> ready f ->
  update_run cmd second_run um ds ms f f' done oks ok -> Forall (eq true) oks -> forall d, In d ds ->
  holds f f' (mod_path d) (mod_path d) /\ (file_exists f (sum_path d) = true -> holds f f' (sum_path d) (sum_path d)).
Proof.
  intros um ms f f' done oks ok ND R H Ho d Hd.
  destruct (run_split _ _ _ _ _ _ _ ND R H) as (bs & f1 & f2 & rest & B1 & B2 & B3 & Hr & Sp & Km & Kf).
  assert (NoDup (map bk_dir bs)) as NB by (rewrite B2 in ND; apply NoDup_app_iff in ND; tauto).
  destruct (in_dec bytes_eq_dec d (map bk_dir bs)) as [Hi|Hn].
  - apply in_map_iff in Hi as (b & <- & Hb). pose proof (restore_spec _ _ _ _ Hr NB) as F2.
    assert (restored f2 f' b) as (M & S). { clear - F2 Hb Ho. induction F2 as [|x o l lo Hx F IH]; [destruct Hb|]. inversion Ho; subst. destruct Hb as [->|Hb]; [exact Hx|auto]. }
    rewrite Forall_forall in B1. destruct (B1 b Hb) as ((m & c & E1 & E2) & E3 & E4). destruct (Sp _ Hd) as [P1 P2]. destruct M as (_ & M1 & M2).
    split; [unfold holds; rewrite (contents_of _ _ _ _ E1); apply contents_of with (m := um); congruence|].
    intros X. rewrite <- E3 in X. rewrite X in E4, S. destruct E4 as (m2 & c2 & G1 & G2). destruct S as (_ & S1 & S2).
    unfold holds. rewrite (contents_of _ _ _ _ G1). apply contents_of with (m := um). congruence.
  - destruct (restore_dir_other _ _ _ _ _ Hr Hn) as (K1 & K2 & K3 & K4). destruct done.
    + exfalso. rewrite (B3 eq_refl), app_nil_r in B2. apply Hn. rewrite <- B2. exact Hd.
    + specialize (Kf eq_refl). subst f2. destruct (Km d) as [Km1 Km2]. destruct (R d Hd) as (_ & _ & R1 & R2).
      assert (forall p, f1 p = f p -> f' p = f1 p -> regular f p -> holds f f' p p) as X.
      { intros p A1 A2 A3. unfold holds. rewrite !regular_contents; [rewrite A2, A1; reflexivity|exact A3|]. eapply regular_ext; [|exact A3]. congruence. }
      split; [|intros _]; apply X; assumption.
Qed.

(** And unless making the backups failed, no backup file remains. *)
Theorem C36_backups_removed : forall um ms f f' oks ok, NoDup ds -> ready f ->
  update_run cmd second_run um ds ms f f' true oks ok -> Forall (eq true) oks -> forall d, In d ds ->
  f' (mod_bkp d) = None /\ f' (sum_bkp d) = None.
Proof.
  intros um ms f f' oks ok ND R H Ho d Hd.
  destruct (run_split _ _ _ _ _ _ _ ND R H) as (bs & f1 & f2 & rest & B1 & B2 & B3 & Hr & Sp & Km & _). rewrite (B3 eq_refl), app_nil_r in B2.
  pose proof Hd as Hi. rewrite B2 in Hi. apply in_map_iff in Hi as (b & <- & Hb).
  assert (NoDup (map bk_dir bs)) as NB by congruence. pose proof (restore_spec _ _ _ _ Hr NB) as F2.
  assert (restored f2 f' b) as (M & S). { clear - F2 Hb Ho. induction F2 as [|x o l lo Hx F IH]; [destruct Hb|]. inversion Ho; subst. destruct Hb as [->|Hb]; [exact Hx|auto]. }
  rewrite Forall_forall in B1. destruct (B1 b Hb) as (_ & E3 & E4). destruct (Sp _ Hd) as [P1 P2].
  split; [apply M|]. destruct (bk_sum b); [apply S|]. destruct S as [_ S2]. congruence.
Qed.

(** Even when restoring fails, the original contents are in the file or its backup. *)
Theorem C36_original_never_lost : forall um ms f f' done oks ok, NoDup ds -> ready f ->
  update_run cmd second_run um ds ms f f' done oks ok -> forall d, In d ds ->
  (holds f f' (mod_path d) (mod_path d) \/ holds f f' (mod_path d) (mod_bkp d)) /\
  (file_exists f (sum_path d) = true -> holds f f' (sum_path d) (sum_path d) \/ holds f f' (sum_path d) (sum_bkp d)).
Proof.
  intros um ms f f' done oks ok ND R H d Hd.
  destruct (run_split _ _ _ _ _ _ _ ND R H) as (bs & f1 & f2 & rest & B1 & B2 & B3 & Hr & Sp & Km & Kf).
  assert (NoDup (map bk_dir bs)) as NB by (rewrite B2 in ND; apply NoDup_app_iff in ND; tauto).
  destruct (in_dec bytes_eq_dec d (map bk_dir bs)) as [Hi|Hn].
  - apply in_map_iff in Hi as (b & <- & Hb). pose proof (restore_spec _ _ _ _ Hr NB) as F2.
    assert (restored f2 f' b \/ unrestored f2 f' b) as S.
    { clear - F2 Hb. induction F2 as [|x o l lo Hx F IH]; [destruct Hb|]. destruct Hb as [->|Hb]; [destruct o; auto|auto]. }
    rewrite Forall_forall in B1. destruct (B1 b Hb) as ((m & c & E1 & E2) & E3 & E4). destruct (Sp _ Hd) as [P1 P2].
    assert (forall p q m c, f p = Some (NFile m c) -> f' q = Some (NFile um c) -> holds f f' p q) as X
      by (intros p q m0 c0 A1 A2; unfold holds; rewrite (contents_of _ _ _ _ A1); eapply contents_of; exact A2).
    assert (bk_sum b = true -> exists m c, f (sum_path (bk_dir b)) = Some (NFile m c) /\ f2 (sum_bkp (bk_dir b)) = Some (NFile um c)) as Es
      by (intros Y; rewrite Y in E4; destruct E4 as (m2 & c2 & G1 & G2); exists m2, c2; split; [exact G1|congruence]).
    assert (f2 (mod_bkp (bk_dir b)) = Some (NFile um c)) as Em by congruence. rewrite <- E3.
    destruct S as [((_ & M1 & M2) & S)|[(K1 & K2 & K3 & K4)|(Y & (_ & M1 & M2) & (K3 & K4))]].
    + split; [left; eapply X; [exact E1|congruence]|]. intros Y. rewrite Y in S. destruct S as (_ & S1 & S2). destruct (Es Y) as (m2 & c2 & G1 & G2).
      left. eapply X; [exact G1|congruence].
    + split; [right; eapply X; [exact E1|congruence]|]. intros Y. destruct (Es Y) as (m2 & c2 & G1 & G2). right. eapply X; [exact G1|congruence].
    + split; [left; eapply X; [exact E1|congruence]|]. intros _. destruct (Es Y) as (m2 & c2 & G1 & G2). right. eapply X; [exact G1|congruence].
  - destruct (restore_dir_other _ _ _ _ _ Hr Hn) as (K1 & K2 & K3 & K4). destruct done.
    + exfalso. rewrite (B3 eq_refl), app_nil_r in B2. apply Hn. rewrite <- B2. exact Hd.
    + specialize (Kf eq_refl). subst f2. destruct (Km d) as [Km1 Km2]. destruct (R d Hd) as (_ & _ & R1 & R2).
      assert (forall p, f1 p = f p -> f' p = f1 p -> regular f p -> holds f f' p p) as X.
      { intros p A1 A2 A3. unfold holds. rewrite !regular_contents; [rewrite A2, A1; reflexivity|exact A3|]. eapply regular_ext; [|exact A3]. congruence. }
      split; [|intros _]; left; apply X; assumption.
Qed.
End GoMod.
Print Assumptions C36_contents_put_back.
Print Assumptions C36_backups_removed.
Print Assumptions C36_original_never_lost.

(** A go command that rewrites both files of its module directory. *)
Definition ex36_cmd (d : bytes) (m : option bytes) (f f' : fsys) (ok : bool) : Prop :=
  ok = true /\ f' = put (put f (mod_path d) 420 (B "new mod")) (sum_path d) 420 (B "new sum").
Definition ex36_second (f f' : fsys) (ok : bool) : Prop := ok = true /\ f' = f.

(** One module directory "p"; what it holds at first. *)
Definition ex36_fs (md sm bk : option fnode) : fsys :=
  upd (upd (upd (upd (fun _ => None) (mod_path (B "p")) md) (sum_path (B "p")) sm) (mod_bkp (B "p")) bk) (B "shared") (Some (NFile 420 (B "old mod"))).

(** The command, kept to files that are no links: then it spares every backup. *)
Definition ex36_safe (d : bytes) (m : option bytes) (f f' : fsys) (ok : bool) : Prop :=
  ex36_cmd d m f f' ok /\ regular f (mod_path d) /\ regular f (sum_path d).
Lemma ex36_safe_spares ds d m f f' ok : ex36_safe d m f f' ok -> spares ds f f'.
Proof.
  intros ([_ ->] & R1 & R2) e He. assert (regular (put f (mod_path d) 420 (B "new mod")) (sum_path d)) as R3.
  { eapply regular_ext; [|exact R2]. unfold put. rewrite (regular_resolve _ _ R1), upd_other; auto with paths. }
  unfold put at 1 3. rewrite (regular_resolve _ _ R3), !upd_other by auto with paths.
  unfold put. rewrite (regular_resolve _ _ R1), !upd_other by auto with paths. auto.
Qed.


(** One module, one updated dependency: go get, go mod tidy and the second run succeed,
    and both files are back. *)
Example C36_example :
  let f := ex36_fs (Some (NFile 420 (B "old mod"))) (Some (NFile 420 (B "old sum"))) None in
  ready [B "p"] f /\ exists f', update_run ex36_safe ex36_second 438 [B "p"] [B "dep@v2"] f f' true [true] true /\
  f' (mod_path (B "p")) = Some (NFile 438 (B "old mod")) /\ f' (sum_path (B "p")) = Some (NFile 438 (B "old sum")) /\
  f' (mod_bkp (B "p")) = None /\ f' (sum_bkp (B "p")) = None.
Proof.
  cbn zeta. split; [intros d [<-|[]]; vm_compute; auto|]. eexists. split.
  - eapply ur_second.
    + eapply bl_both; [eapply cp_ok; [reflexivity|vm_compute; discriminate]|reflexivity|eapply cp_ok; [reflexivity|vm_compute; discriminate]|apply bl_nil].
    + eapply up_cons; [eapply gt_cons; [split; [split; reflexivity|split; vm_compute; exact I]|apply gt_nil]|split; [split; reflexivity|split; vm_compute; exact I]|apply up_nil].
    + split; reflexivity.
    + eapply (rs_both (Backup (B "p") true)); [reflexivity|eapply rn_ok; [reflexivity|vm_compute; discriminate]|eapply rn_ok; [reflexivity|vm_compute; discriminate]|apply rs_nil].
  - vm_compute. auto.
Qed.

(** A go.sum that did not exist before is left behind. *)
Theorem C36_new_sum_stays_refuted : exists f f', ready [B "p"] f /\
  update_run ex36_safe ex36_second 438 [B "p"] [B "dep@v2"] f f' true [true] true /\
  f (sum_path (B "p")) = None /\ f' (sum_path (B "p")) = Some (NFile 420 (B "new sum")).
Proof.
  exists (ex36_fs (Some (NFile 420 (B "old mod"))) None None). eexists. split; [intros d [<-|[]]; vm_compute; auto|]. split.
  - eapply ur_second.
    + eapply bl_no_sum; [eapply cp_ok; [reflexivity|vm_compute; discriminate]|reflexivity|apply bl_nil].
    + eapply up_cons; [eapply gt_cons; [split; [split; reflexivity|split; vm_compute; exact I]|apply gt_nil]|split; [split; reflexivity|split; vm_compute; exact I]|apply up_nil].
    + split; reflexivity.
    + eapply (rs_mod_only (Backup (B "p") false)); [reflexivity|eapply rn_ok; [reflexivity|vm_compute; discriminate]|apply rs_nil].
  - vm_compute. auto.
Qed.

(** When go.sum cannot be copied, the backup of go.mod is left behind. *)
Theorem C36_failed_backup_left_refuted : exists f f', ready [B "p"] f /\
  update_run ex36_safe ex36_second 438 [B "p"] [B "dep@v2"] f f' false [] false /\
  f' (mod_bkp (B "p")) = Some (NFile 438 (B "old mod")).
Proof.
  exists (ex36_fs (Some (NFile 420 (B "old mod"))) (Some (NFile 420 (B "old sum"))) None). eexists. split; [intros d [<-|[]]; vm_compute; auto|]. split.
  - eapply ur_backup_fails; [|apply rs_nil]. eapply bl_sum_fails; [eapply cp_ok; [reflexivity|vm_compute; discriminate]|reflexivity|apply cp_fail].
  - reflexivity.
Qed.

(** A file of the user that has the name of the backup is overwritten and removed. *)
Theorem C36_user_backup_destroyed_refuted : exists f f',
  update_run ex36_safe ex36_second 438 [B "p"] [B "dep@v2"] f f' true [true] true /\
  f (mod_bkp (B "p")) = Some (NFile 420 (B "mine")) /\ f' (mod_bkp (B "p")) = None.
Proof.
  exists (ex36_fs (Some (NFile 420 (B "old mod"))) None (Some (NFile 420 (B "mine")))). eexists. split.
  - eapply ur_second.
    + eapply bl_no_sum; [eapply cp_ok; [reflexivity|vm_compute; discriminate]|reflexivity|apply bl_nil].
    + eapply up_cons; [eapply gt_cons; [split; [split; reflexivity|split; vm_compute; exact I]|apply gt_nil]|split; [split; reflexivity|split; vm_compute; exact I]|apply up_nil].
    + split; reflexivity.
    + eapply (rs_mod_only (Backup (B "p") false)); [reflexivity|eapply rn_ok; [reflexivity|vm_compute; discriminate]|apply rs_nil].
  - vm_compute. auto.
Qed.

(** A go.mod that is a link is not restored: the backup is a second link to the file
    the commands write to. *)
Theorem C36_linked_mod_not_restored_refuted : exists f f',
  f (mod_path (B "p")) = Some (NLink (B "shared")) /\ f (mod_bkp (B "p")) = None /\ f (sum_bkp (B "p")) = None /\
  update_run ex36_cmd ex36_second 438 [B "p"] [B "dep@v2"] f f' true [true] true /\
  contents f (mod_path (B "p")) = Some (B "old mod") /\ contents f' (mod_path (B "p")) = Some (B "new mod").
Proof.
  exists (ex36_fs (Some (NLink (B "shared"))) None None). eexists. split; [reflexivity|]. split; [reflexivity|]. split; [reflexivity|]. split.
  - eapply ur_second.
    + eapply bl_no_sum; [eapply cp_link; reflexivity|reflexivity|apply bl_nil].
    + eapply up_cons; [eapply gt_cons; [split; reflexivity|apply gt_nil]|split; reflexivity|apply up_nil].
    + split; reflexivity.
    + eapply (rs_mod_only (Backup (B "p") false)); [reflexivity|eapply rn_ok; [reflexivity|vm_compute; discriminate]|apply rs_nil].
  - vm_compute. auto.
Qed.

(** The file mode is not restored: it becomes that of a new file. *)
Theorem C36_mode_lost_refuted : exists f f', ready [B "p"] f /\
  update_run ex36_safe ex36_second 438 [B "p"] [] f f' true [true] true /\
  f (mod_path (B "p")) = Some (NFile 384 (B "old mod")) /\ f' (mod_path (B "p")) = Some (NFile 438 (B "old mod")).
Proof.
  exists (ex36_fs (Some (NFile 384 (B "old mod"))) None None). eexists. split; [intros d [<-|[]]; vm_compute; auto|]. split.
  - eapply ur_second.
    + eapply bl_no_sum; [eapply cp_ok; [reflexivity|vm_compute; discriminate]|reflexivity|apply bl_nil].
    + eapply up_cons; [apply gt_nil|split; [split; reflexivity|split; vm_compute; exact I]|apply up_nil].
    + split; reflexivity.
    + eapply (rs_mod_only (Backup (B "p") false)); [reflexivity|eapply rn_ok; [reflexivity|vm_compute; discriminate]|apply rs_nil].
  - vm_compute. auto.
Qed.
Print Assumptions C36_new_sum_stays_refuted.
Print Assumptions C36_failed_backup_left_refuted.
Print Assumptions C36_user_backup_destroyed_refuted.
Print Assumptions C36_linked_mod_not_restored_refuted.
Print Assumptions C36_mode_lost_refuted.
