(** C83: after the whole analysis the project is as it was before. *)
From Verif Require Import Base Maps FsModel ModifierModel GoModModel GoModProps ModifierProps RestoreMoreProps UpdateModel UpdateProofs.

(** Every server that was started is stopped, in the same order, after the last start; if one did not start nothing else happens, if all did the
    first tests are run. *)
Theorem C83_servers : forall um cmd skipped ports ms ds f t, whole um cmd skipped ports ms ds f t ->
  exists started rest, t_srv t = map SrvStart started ++ map SrvStop started /\ ports = started ++ rest /\
    (rest <> [] -> r_err (t_result t) = true /\ t_files t = f /\ t_first t = [] /\ t_second t = []) /\
    (rest = [] -> ports <> [] -> r_pre (t_result t) = true).
Proof.
  intros um cmd skipped ports ms ds f t H. destruct H as [|before after -> Ha|vs1 oks1 f1 c1 n1 H1|vs1 oks1 f1 c1 n1 f2 vs2 oks2 c2 done oks ok H1 H2]; cbn.
  - exists [], ports. repeat split; auto.
  - exists before, after. repeat split; auto.
  - exists ports, []. rewrite app_nil_r. split; [reflexivity|]. split; [reflexivity|]. split; [intros X; contradiction|reflexivity].
  - exists ports, []. rewrite app_nil_r. split; [reflexivity|]. split; [reflexivity|]. split; [intros X; contradiction|]. destruct ok; reflexivity.
Qed.
Print Assumptions C83_servers.

(** The second results are there if and only if there is no error, and then the first are too; without the first there are no counts. *)
Theorem C83_result : forall um cmd skipped ports ms ds f t, whole um cmd skipped ports ms ds f t ->
  let r := t_result t in
  r_err r = negb (r_post r) /\ (r_post r = true -> r_pre r = true) /\
  (r_pre r = false -> r_checks r = 0 /\ r_reached r = 0 /\ r_skipped r = 0 /\ t_files t = f) /\
  (r_pre r = true -> r_skipped r = skipped).
Proof.
  intros um cmd skipped ports ms ds f t H. destruct H as [|before after -> Ha|vs1 oks1 f1 c1 n1 H1|vs1 oks1 f1 c1 n1 f2 vs2 oks2 c2 done oks ok H1 H2]; cbn; auto; try discriminate.
  - repeat split; try discriminate; auto.
  - repeat split; try discriminate; auto.
  - repeat split; try discriminate; auto.
  - destruct ok; cbn; repeat split; try discriminate; auto.
Qed.
Print Assumptions C83_result.

(** The paths of the module files and their backups. *)
Definition modf (ds : list bytes) (q : bytes) : Prop :=
  exists d, In d ds /\ (q = mod_path d \/ q = sum_path d \/ q = mod_bkp d \/ q = sum_bkp d).
(** Tests leave the module files alone. *)
Definition no_modf (ds : list bytes) (v : sevent) : Prop :=
  match v with STest ws => forall q, In q (map fst ws) -> ~ modf ds q | _ => True end.
(** Only Go files are edited. *)
Definition go_files (E : bytes -> Prop) : Prop := forall p, E p -> exists b, p = b ++ B ".go".

Lemma own_modf E D ds q : go_files E -> own E D q -> modf ds q -> False.
Proof.
  intros G O (d & _ & M). destruct O as [O|[(p & O & ->)|(e & _ & O)]].
  - destruct (G _ O) as [b ->]. unfold mod_bkp, sum_bkp, mod_path, sum_path in M. destruct M as [M|[M|[M|M]]]; tails M.
  - destruct (G _ O) as [b ->]. unfold bkp, mod_bkp, sum_bkp, mod_path, sum_path in M. destruct M as [M|[M|[M|M]]]; tails M.
  - unfold client_file, api_file, mod_bkp, sum_bkp, mod_path, sum_path in *. destruct O as [-> | ->]; destruct M as [M|[M|[M|M]]]; tails M.
Qed.

Lemma writes_modf ds vs q : Forall (no_modf ds) vs -> modf ds q -> ~ In q (map fst (writes vs)).
Proof.
  intros F M Hi. unfold writes in Hi. apply in_map_iff in Hi as ([q' n] & <- & Hi). apply in_flat_map in Hi as (v & Hv & Hi).
  destruct v as [v|ws]; [destruct Hi|]. rewrite Forall_forall in F. apply (F _ Hv q'); [apply (in_map fst) in Hi; exact Hi|exact M].
Qed.

Lemma same_node_trans a b c : same_node a b -> same_node b c -> same_node a c.
Proof. destruct a as [[]|], b as [[]|], c as [[]|]; cbn; try contradiction; congruence. Qed.

Lemma tidy_same f g E D : tidy f E D -> (forall q, own E D q -> same_node (g q) (f q)) -> tidy g E D.
Proof.
  intros T S. constructor; try apply T.
  - intros p Ep. destruct (t_file _ _ _ T p Ep) as (m & c & F). specialize (S p (or_introl Ep)). rewrite F in S.
    destruct (g p) as [[m' c'|l]|]; cbn in S; try contradiction. eauto.
  - intros p Ep. pose proof (t_fresh _ _ _ T p Ep) as F. specialize (S (bkp p) (or_intror (or_introl (ex_intro _ p (conj Ep eq_refl))))). rewrite F in S.
    destruct (g (bkp p)) as [[m' c'|l]|]; cbn in S; try contradiction. reflexivity.
Qed.

Lemma gets_keep (cmd : bytes -> option bytes -> fsys -> fsys -> bool -> Prop) d q : (forall m f g ok, cmd d m f g ok -> g q = f q) ->
  forall ms f g ok, gets cmd d ms f g ok -> g q = f q.
Proof. intros C ms f g ok. induction 1; [reflexivity|eapply C; eassumption|]. rewrite IHgets. eapply C. eassumption. Qed.
Lemma updates_keep (cmd : bytes -> option bytes -> fsys -> fsys -> bool -> Prop) ms q : (forall d m f g ok, cmd d m f g ok -> g q = f q) ->
  forall l f g ok, updates cmd ms l f g ok -> g q = f q.
Proof.
  intros C l f g ok. induction 1 as [f|d l f g H|d l f g h H1 H2|d l f g h i ok H1 H2 H3 IH]; [reflexivity|eapply gets_keep; [apply C|exact H]| |].
  - rewrite (C _ _ _ _ _ H2). eapply gets_keep; [apply C|exact H1].
  - rewrite IH, (C _ _ _ _ _ H2). eapply gets_keep; [apply C|exact H1].
Qed.

Section Files.
Variables (um : N) (cmd : bytes -> option bytes -> fsys -> fsys -> bool -> Prop) (skipped : nat) (ports : list nat) (ms : list bytes).
Variables (E D : bytes -> Prop) (ds : list bytes) (f : fsys).
Hypothesis Hgo : go_files E.
Hypothesis Htidy : tidy f E D.
Hypothesis Hready : ready ds f.
Hypothesis Hnd : NoDup ds.
(** The commands change no source file that is edited and no file of the editor, and leave the backups alone. *)
Hypothesis Hcmd : forall d m g h ok, cmd d m g h ok -> spares ds g h /\ forall q, own E D q -> h q = g q.

Definition orderly (t : trace) : Prop :=
  Forall (fine E D) (t_first t ++ t_second t) /\ Forall (no_modf ds) (t_first t ++ t_second t) /\
  Forall (eq true) (t_undo1 t) /\ Forall (eq true) (t_undo2 t) /\ Forall (eq true) (t_mods t).

Lemma backup_keep bs g g1 ok q : ready ds g -> backup_loop um ds g bs g1 ok -> ~ modf ds q -> g1 q = g q.
Proof.
  intros R H N. destruct (backup_spec _ _ _ _ _ _ H Hnd R) as (K & _). apply K. intros d Hd. split; intros ->; apply N; exists d; auto.
Qed.
Lemma restore_keep bs g g1 ok g2 g3 oks q : ready ds g -> backup_loop um ds g bs g1 ok -> restore bs g2 g3 oks -> ~ modf ds q -> g3 q = g2 q.
Proof.
  intros R H Hr N. destruct (backup_spec _ _ _ _ _ _ H Hnd R) as (_ & _ & rest & Ed & _). apply (restore_other _ _ _ _ Hr).
  intros b Hb. assert (In (bk_dir b) ds) as Hd by (rewrite Ed; apply in_or_app; left; apply in_map, Hb).
  repeat split; intros ->; apply N; exists (bk_dir b); auto.
Qed.

(** What holds after the first run. *)
Lemma after_first vs oks f1 : session um vs oks f f1 -> Forall (fine E D) vs -> Forall (no_modf ds) vs -> Forall (eq true) oks ->
  (forall q, own E D q -> same_node (f1 q) (f q)) /\ (forall q, modf ds q -> f1 q = f q) /\ tidy f1 E D /\ ready ds f1.
Proof.
  intros H F M O. destruct (session_restored um E D _ _ _ _ H Htidy F O) as [S1 S2].
  assert (forall q, modf ds q -> f1 q = f q) as S3.
  { intros q Hq. rewrite S2 by (intros X; exact (own_modf _ _ _ _ Hgo X Hq)). apply overlay_other. eapply writes_modf; eassumption. }
  split; [exact S1|]. split; [exact S3|]. split; [eapply tidy_same; eassumption|].
  intros d Hd. destruct (Hready d Hd) as (R1 & R2 & R3 & R4).
  assert (forall q, q = mod_path d \/ q = sum_path d \/ q = mod_bkp d \/ q = sum_bkp d -> f1 q = f q) as K by (intros q Hq; apply S3; exists d; auto).
  rewrite !K by auto. split; [exact R1|]. split; [exact R2|]. split; eapply regular_ext; try eassumption; symmetry; apply K; auto.
Qed.

(** Restoring all went well: every source file, backup and generated file is as before, go.mod and go.sum have their contents. *)
Theorem C83_files : forall t, whole um cmd skipped ports ms ds f t -> orderly t ->
  (forall q, own E D q -> same_node (t_files t q) (f q)) /\
  (forall d, In d ds -> contents (t_files t) (mod_path d) = contents f (mod_path d) /\
     (file_exists f (sum_path d) = true -> contents (t_files t) (sum_path d) = contents f (sum_path d))).
Proof.
  intros t H (F & M & O1 & O2 & O3). apply Forall_app in F as [Fa Fb]. apply Forall_app in M as [Ma Mb].
  destruct H as [|before after -> Ha|vs1 oks1 f1 c1 n1 H1|vs1 oks1 f1 c1 n1 f2 vs2 oks2 c2 done oks ok H1 H2]; cbn in *.
  - split; [intros; apply same_node_refl|auto].
  - split; [intros; apply same_node_refl|auto].
  - destruct (after_first _ _ _ H1 Fa Ma O1) as (S1 & S3 & _). split; [exact S1|].
    intros d Hd. destruct (Hready d Hd) as (R1 & R2 & R3 & R4).
    assert (f1 (mod_path d) = f (mod_path d)) as K1 by (apply S3; exists d; auto). assert (f1 (sum_path d) = f (sum_path d)) as K2 by (apply S3; exists d; auto).
    rewrite !regular_contents, K1, K2; auto; eapply regular_ext; try eassumption; symmetry; assumption.
  - destruct (after_first _ _ _ H1 Fa Ma O1) as (S1 & S3 & T1 & R1).
    assert (forall q, own E D q -> ~ modf ds q) as NM by (intros q A C; exact (own_modf _ _ _ _ Hgo A C)).
    assert ((forall q, own E D q -> same_node (f2 q) (f1 q)) /\ exists R : fsys -> fsys -> bool -> Prop, (forall a b c, R a b c -> spares ds a b) /\ update_run cmd R um ds ms f1 f2 done oks ok) as (K1 & R & K2 & K3).
    { destruct H2 as [bs g1 g2 oks Hb Hr|bs g1 g2 g3 oks Hb Hu Hr|bs g1 g2 g3 g4 oks ok Hb Hu Hs Hr].
      - split; [|exists (fun a b c => spares ds a b); split; [auto|eapply ur_backup_fails; eassumption]].
        intros q Hq. rewrite (restore_keep _ _ _ _ _ _ _ _ R1 Hb Hr (NM q Hq)), (backup_keep _ _ _ _ _ R1 Hb (NM q Hq)). apply same_node_refl.
      - split; [|exists (fun a b c => spares ds a b); split; [auto|eapply ur_update_fails; eassumption]].
        intros q Hq. rewrite (restore_keep _ _ _ _ _ _ _ _ R1 Hb Hr (NM q Hq)).
        rewrite (updates_keep cmd ms q ltac:(intros; eapply Hcmd; eassumption) _ _ _ _ Hu), (backup_keep _ _ _ _ _ R1 Hb (NM q Hq)). apply same_node_refl.
      - assert (forall q, own E D q -> g2 q = f1 q) as G2.
        { intros q Hq. rewrite (updates_keep cmd ms q ltac:(intros; eapply Hcmd; eassumption) _ _ _ _ Hu). apply (backup_keep _ _ _ _ _ R1 Hb (NM q Hq)). }
        assert (tidy g2 E D) as T2 by (eapply tidy_same; [exact T1|]; intros q Hq; rewrite (G2 q Hq); apply same_node_refl).
        destruct (session_restored um E D _ _ _ _ Hs T2 Fb O2) as [S4 S5].
        split; [intros q Hq; rewrite (restore_keep _ _ _ _ _ _ _ _ R1 Hb Hr (NM q Hq)), <- (G2 q Hq); apply S4, Hq|].
        exists (fun a b c => spares ds a b). split; [auto|]. eapply ur_second; try eassumption.
        intros d Hd. split; (rewrite S5; [apply overlay_other; eapply writes_modf; [eassumption|]; exists d; auto|]); intros X; apply (NM _ X); exists d; auto. }
    split; [intros q Hq; eapply same_node_trans; [apply K1, Hq|apply S1, Hq]|].
    intros d Hd. destruct (Hready d Hd) as (Q1 & Q2 & Q3 & Q4).
    assert (f1 (mod_path d) = f (mod_path d)) as J1 by (apply S3; exists d; auto). assert (f1 (sum_path d) = f (sum_path d)) as J2 by (apply S3; exists d; auto).
    destruct (C36_contents_put_back cmd R ds ltac:(intros; eapply Hcmd; eassumption) K2 _ _ _ _ _ _ _ Hnd R1 K3 O3 d Hd) as [P1 P2]. unfold holds in P1, P2.
    assert (contents f1 (mod_path d) = contents f (mod_path d)) as L1 by (rewrite !regular_contents, J1; auto; eapply regular_ext; [symmetry; exact J1|exact Q3]).
    assert (contents f1 (sum_path d) = contents f (sum_path d)) as L2 by (rewrite !regular_contents, J2; auto; eapply regular_ext; [symmetry; exact J2|exact Q4]).
    rewrite P1, L1. split; [reflexivity|]. intros X. rewrite <- L2. apply P2. rewrite <- X. symmetry. apply file_exists_ext; [symmetry; exact J2|exact Q4].
Qed.

(** Nothing else changes: a path that is neither of the editor nor a module file, that no test writes and no command changes, is untouched. *)
Theorem C83_nothing_else : forall t q, whole um cmd skipped ports ms ds f t -> orderly t ->
  ~ own E D q -> ~ modf ds q -> ~ In q (map fst (writes (t_first t ++ t_second t))) ->
  (forall d m g h ok, cmd d m g h ok -> h q = g q) -> t_files t q = f q.
Proof.
  intros t q H (F & M & O1 & O2 & O3) No Nm Nw Cq. apply Forall_app in F as [Fa Fb]. apply Forall_app in M as [Ma Mb].
  unfold writes in Nw. rewrite flat_map_app, map_app in Nw. assert (~ In q (map fst (writes (t_first t)))) as Na by (intros X; apply Nw, in_or_app; left; exact X).
  assert (~ In q (map fst (writes (t_second t)))) as Nb by (intros X; apply Nw, in_or_app; right; exact X). clear Nw.
  destruct H as [|before after -> Ha|vs1 oks1 f1 c1 n1 H1|vs1 oks1 f1 c1 n1 f2 vs2 oks2 c2 done oks ok H1 H2]; cbn in *; try reflexivity.
  - destruct (session_restored um E D _ _ _ _ H1 Htidy Fa O1) as [_ S]. rewrite S by exact No. apply overlay_other, Na.
  - destruct (session_restored um E D _ _ _ _ H1 Htidy Fa O1) as [_ S]. destruct (after_first _ _ _ H1 Fa Ma O1) as (S1 & S3 & T1 & R1).
    assert (f1 q = f q) as K by (rewrite S by exact No; apply overlay_other, Na). rewrite <- K.
    assert (forall q, own E D q -> ~ modf ds q) as NM by (intros x A C; exact (own_modf _ _ _ _ Hgo A C)).
    destruct H2 as [bs g1 g2 oks Hb Hr|bs g1 g2 g3 oks Hb Hu Hr|bs g1 g2 g3 g4 oks ok Hb Hu Hs Hr];
      rewrite (restore_keep _ _ _ _ _ _ _ _ R1 Hb Hr Nm).
    + apply (backup_keep _ _ _ _ _ R1 Hb Nm).
    + rewrite (updates_keep cmd ms q Cq _ _ _ _ Hu). apply (backup_keep _ _ _ _ _ R1 Hb Nm).
    + assert (tidy g2 E D) as T2.
      { eapply tidy_same; [exact T1|]. intros x Hx. rewrite (updates_keep cmd ms x ltac:(intros; eapply Hcmd; eassumption) _ _ _ _ Hu), (backup_keep _ _ _ _ _ R1 Hb (NM x Hx)). apply same_node_refl. }
      destruct (session_restored um E D _ _ _ _ Hs T2 Fb O2) as [_ S5]. rewrite S5 by exact No. rewrite overlay_other by exact Nb.
      rewrite (updates_keep cmd ms q Cq _ _ _ _ Hu). apply (backup_keep _ _ _ _ _ R1 Hb Nm).
Qed.
End Files.
Print Assumptions C83_files.
Print Assumptions C83_nothing_else.

(** A project of one module directory "p" and one source file; its package "pk" gets the client. *)
Definition ex83_fs : fsys := upd (ex36_fs (Some (NFile 420 (B "old mod"))) (Some (NFile 420 (B "old sum"))) None) (B "a.go") ex37_old.
Definition ex83_first : list sevent :=
  [SCall (EvEdit (B "a.go") (B "new")); SCall (EvInject (B "pk") IDone); SCall (EvCommit [WDone]); STest [(B "out.txt", Some (NFile 420 (B "log")))]].
Definition ex83_second : list sevent := [SCall (EvEdit (B "a.go") (B "newer")); SCall (EvCommit [WDone]); STest [(B "out.txt", None)]].

Ltac no83 := intros q (x & _ & ->); unfold ex83_fs, ex36_fs, put, resolve, upd; cbn; repeat (destruct (beq_spec _ _) as [?E|_]; [cbn in *; discriminate|]); reflexivity.
Ltac edit83 := eapply se_cons; [apply ss_call, es_edit; left; vm_compute; discriminate|].
Ltac commit83 t := eapply se_cons; [apply ss_call; eapply (es_commit _ _ _ _ [(B "a.go", t)]); [intros x; reflexivity|repeat constructor; intros []|];
  eapply wa_cons; [|apply wa_nil]; eapply (wp_write _ _ _ _ _ _ _ _ true); [eapply bf_made; [reflexivity|eapply cp_ok; [reflexivity|vm_compute; discriminate]]|apply wf_ok]|].

Lemma ex83_cmd d m f f' ok : ex36_safe d m f f' ok -> spares [B "p"] f f' /\ forall q, own ex37_E ex37_D q -> f' q = f q.
Proof.
  intros H. split; [eapply ex36_safe_spares; exact H|]. destruct H as ((_ & ->) & R1 & R2). intros q Hq.
  assert (q <> mod_path d /\ q <> sum_path d) as [N1 N2].
  { split; intros ->; (eapply (own_modf ex37_E ex37_D [d]); [|exact Hq|exists d; cbn; auto]); intros p ->; exists (B "a"); reflexivity. }
  rewrite put_regular; [destruct (beq_spec q (sum_path d)); [contradiction|]|].
  - rewrite put_regular by exact R1. destruct (beq_spec q (mod_path d)); [contradiction|reflexivity].
  - unfold regular. rewrite put_regular by exact R1. destruct (beq_spec (sum_path d) (mod_path d)); [exact I|exact R2].
Qed.

Example C83_example : exists f',
  whole 438 ex36_safe 3 [700; 701] [B "dep@v2"] [B "p"] ex83_fs
    (Trace [SrvStart 700; SrvStart 701; SrvStop 700; SrvStop 701] f' (Res 5 2 3 true true false) ex83_first [true; true] ex83_second [true] [true]) /\
  go_files ex37_E /\ tidy ex83_fs ex37_E ex37_D /\ ready [B "p"] ex83_fs /\
  orderly ex37_E ex37_D [B "p"] (Trace [] f' (Res 5 2 3 true true false) ex83_first [true; true] ex83_second [true] [true]) /\
  contents f' (B "a.go") = Some (B "old") /\ f' (client_file (B "pk")) = None /\ f' (bkp (B "a.go")) = None /\
  contents f' (mod_path (B "p")) = Some (B "old mod") /\ contents f' (sum_path (B "p")) = Some (B "old sum") /\ f' (B "out.txt") = None.
Proof.
  eexists. split; [|split; [|split; [|split; [|split]]]].
  - eapply (wh_update _ _ 3 [700; 701] _ _ _ _ _ _ 5 2 _ _ _ 4 true [true] true).
    + eexists. split; [|reflexivity]. unfold ex83_first. cbn [app]. edit83.
      eapply se_cons; [apply ss_call; eapply (es_inject _ _ _ _ (B "pk") (B "client") (B "api")); eapply in_done; [no83|apply wf_ok|apply wf_ok]|].
      commit83 (B "new"). eapply se_cons; [apply ss_test|]. eapply se_cons; [apply ss_call, es_restore|apply se_nil]. cbn [app].
      eapply rx_cons; [eapply (ra_gen _ _ _ _ true true); apply rm_ok; vm_compute; discriminate|].
      eapply rx_cons; [|apply rx_nil]. apply ra_restore. eapply rp_done; [reflexivity|apply rm_ok; vm_compute; discriminate|eapply rn_ok; [reflexivity|vm_compute; discriminate]].
    + eapply ur_second.
      * eapply bl_both; [eapply cp_ok; [reflexivity|vm_compute; discriminate]|reflexivity|eapply cp_ok; [reflexivity|vm_compute; discriminate]|apply bl_nil].
      * eapply up_cons; [eapply gt_cons; [split; [split; reflexivity|split; vm_compute; exact I]|apply gt_nil]|split; [split; reflexivity|split; vm_compute; exact I]|apply up_nil].
      * eexists. split; [|reflexivity]. unfold ex83_second. cbn [app]. edit83. commit83 (B "newer").
        eapply se_cons; [apply ss_test|]. eapply se_cons; [apply ss_call, es_restore|apply se_nil]. cbn [app].
        eapply rx_cons; [|apply rx_nil]. apply ra_restore. eapply rp_done; [reflexivity|apply rm_ok; vm_compute; discriminate|eapply rn_ok; [reflexivity|vm_compute; discriminate]].
      * eapply (rs_both (Backup (B "p") true)); [reflexivity|eapply rn_ok; [reflexivity|vm_compute; discriminate]|eapply rn_ok; [reflexivity|vm_compute; discriminate]|apply rs_nil].
  - intros p ->. exists (B "a"). reflexivity.
  - split; [intros p ->; exists 420%N, (B "old"); reflexivity|intros p ->; reflexivity|intros p q -> ->; discriminate|intros p d -> ->; split; discriminate].
  - intros d [<-|[]]. vm_compute. auto.
  - assert (forall q, q = B "out.txt" -> ~ own ex37_E ex37_D q) as N1.
    { intros q -> [X|[(p & X & Y)|(d & X & Y)]]; [discriminate|rewrite X in Y; discriminate|rewrite X in Y; destruct Y; discriminate]. }
    assert (forall q, q = B "out.txt" -> ~ modf [B "p"] q) as N2.
    { intros q -> (d & [<-|[]] & [X|[X|[X|X]]]); discriminate. }
    assert (forall n q, In q (map fst [(B "out.txt", n : option fnode)]) -> q = B "out.txt") as N3 by (intros n q [X|[]]; symmetry; exact X).
    split; [|split; [|repeat split; repeat constructor]].
    + unfold ex83_first, ex83_second. cbn [t_first t_second app].
      repeat (apply Forall_cons; [try (split; [cbn; reflexivity || exact I|split; [cbn; try exact I; try discriminate; intros [X|[]]; discriminate|exact I]]); try (intros q Hq; apply N1, (N3 _ _ Hq))|]). apply Forall_nil.
    + unfold ex83_first, ex83_second. cbn [t_first t_second app]. repeat (apply Forall_cons; [try exact I; try (intros q Hq; apply N2, (N3 _ _ Hq))|]). apply Forall_nil.
  - vm_compute. repeat split; reflexivity.
Qed.

(** A restore of the first run that fails is only logged: the second run finds the old backup and registers nothing to undo,
    the analysis succeeds, and the source file stays edited with the text of the second run. *)
Theorem C83_failed_restore_refuted : exists f',
  whole 438 ex36_safe 3 [700; 701] [B "dep@v2"] [B "p"] ex83_fs
    (Trace [SrvStart 700; SrvStart 701; SrvStop 700; SrvStop 701] f' (Res 5 2 3 true true false)
      [SCall (EvEdit (B "a.go") (B "new")); SCall (EvCommit [WDone])] [false] [SCall (EvEdit (B "a.go") (B "newer")); SCall (EvCommit [WDone])] [] [true]) /\
  contents ex83_fs (B "a.go") = Some (B "old") /\ contents f' (B "a.go") = Some (B "newer") /\ contents f' (bkp (B "a.go")) = Some (B "old").
Proof.
  eexists. split.
  1: eapply (wh_update _ _ 3 [700; 701] _ _ _ _ _ _ 5 2 _ _ _ 4 true [true] true).
  1: { eexists. split; [|reflexivity]. cbn [app]. edit83. commit83 (B "new"). eapply se_cons; [apply ss_call, es_restore|apply se_nil]. cbn [app].
    eapply rx_cons; [|apply rx_nil]. apply ra_restore. apply rp_stuck; [reflexivity|apply rm_fail]. }
  1: { eapply ur_second.
    + eapply bl_both; [eapply cp_ok; [reflexivity|vm_compute; discriminate]|reflexivity|eapply cp_ok; [reflexivity|vm_compute; discriminate]|apply bl_nil].
    + eapply up_cons; [eapply gt_cons; [split; [split; reflexivity|split; vm_compute; exact I]|apply gt_nil]|split; [split; reflexivity|split; vm_compute; exact I]|apply up_nil].
    + eexists. split; [|reflexivity]. cbn [app]. edit83.
      eapply se_cons; [apply ss_call; eapply (es_commit _ _ _ _ [(B "a.go", B "newer")]); [intros x; reflexivity|repeat constructor; intros []|];
        eapply wa_cons; [|apply wa_nil]; eapply (wp_write _ _ _ _ _ _ _ _ true); [eapply bf_have; reflexivity|apply wf_ok]|].
      eapply se_cons; [apply ss_call, es_restore, rx_nil|apply se_nil].
    + eapply (rs_both (Backup (B "p") true)); [reflexivity|eapply rn_ok; [reflexivity|vm_compute; discriminate]|eapply rn_ok; [reflexivity|vm_compute; discriminate]|apply rs_nil]. }
  vm_compute. auto.
Qed.
Print Assumptions C83_failed_restore_refuted.
