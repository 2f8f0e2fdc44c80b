(** C75: a line-limited mutation run marks the sources, then puts them back.  See MutRunModel.v. *)
From Verif Require Import Base Maps FsModel ModifierModel ModifierProps GoModProps MutationModel MutRunModel.
From Coq Require Import Lia Permutation.

Section Run.
Variables (um : N) (abs : bytes -> option bytes) (limit : nat) (mark : mfunc -> bytes -> marking) (f0 : fsys).
Notation mstep := (mstep um abs limit mark).
Notation mreach := (mreach um abs limit mark).

(** Functions with a changed line. *)
Definition changed (c : mfunc) : bool := existsb (fun b => b) (mf_lines c).

(** No function of the list makes the run return early: every bitmap is set, every path of a
    changed function resolves. *)
Definition sound (l : list mfunc) : Prop := forall c, In c l -> mf_lines c <> [] /\ (changed c = true -> abs (mf_file c) <> None).

Lemma targets_none : forall l names files, mutation_targets abs true names files l = None -> ~ sound l.
Proof.
  induction l as [|c l IH]; intros names files E S; [discriminate|]. cbn in E.
  destruct (S c (or_introl eq_refl)) as [S1 S2]. destruct (mf_lines c) as [|b bs] eqn:El; [congruence|]. cbn [andb] in E.
  assert (Sl : sound l) by (intros x Hx; apply S; right; exact Hx). unfold changed in S2. rewrite El in S2.
  destruct (existsb (fun b => b) (b :: bs)) eqn:Eb; cbn [negb] in E; [|exact (IH _ _ E Sl)].
  destruct (abs (mf_file c)) as [a|] eqn:Ea; [exact (IH _ _ E Sl)|]. apply S2; auto.
Qed.
Lemma targets_some : forall l names files x, mutation_targets abs true names files l = Some x -> sound l.
Proof.
  induction l as [|c l IH]; intros names files x E y [].
  - subst y. cbn in E. unfold changed. destruct (mf_lines c) as [|b bs]; [discriminate|]. cbn [andb] in E. split; [discriminate|]. intros Eb.
    rewrite Eb in E. cbn [negb] in E. destruct (abs (mf_file c)); [discriminate|discriminate E].
  - cbn in E. destruct (match mf_lines c with [] => true | _ => false end); [discriminate|]. cbn [andb] in E.
    destruct (negb (existsb _ (mf_lines c))); [eapply IH; eauto|]. destruct (abs (mf_file c)); [eapply IH; eauto|discriminate].
Qed.
(** Such lists are those [mutation_targets] (C50) accepts. *)
Lemma sound_targets : forall l, sound l <-> mutation_targets abs true [] [] l <> None.
Proof.
  intros l. destruct (mutation_targets abs true [] [] l) as [x|] eqn:E; split; intros H; try congruence.
  - eapply targets_some; eauto.
  - exfalso. eapply targets_none; eauto.
Qed.

Lemma estep_app : forall e vs e1 v e2, eexec um e vs e1 -> estep um e1 v e2 -> eexec um e (vs ++ [v]) e2.
Proof. induction 1; intros S; cbn; [eapply ee_cons; [exact S|apply ee_nil]|eapply ee_cons; eauto]. Qed.
Lemma mark_exec : forall c e e' w ok e0 vs, mark_func um mark c e e' w ok -> eexec um e0 vs e -> eexec um e0 (vs ++ w) e'.
Proof.
  intros c e e' w ok e0 vs M X. destruct M; try (rewrite app_nil_r; exact X).
  change [EvEdit (mf_file c) t'; EvCommitFile (mf_file c) o] with ([EvEdit (mf_file c) t'] ++ [EvCommitFile (mf_file c) o]).
  rewrite app_assoc. eapply estep_app; [|eassumption]. eapply estep_app; eassumption.
Qed.

Definition of_changed (l : list mfunc) : list mfunc := filter changed l.

Record rinv (l : list mfunc) (r : mrun) : Prop := {
  v_exec : eexec um (e_init f0) (r_calls r) (r_ed r);
  v_limit : (length (r_tasks r) <= limit)%nat;
  v_within : forall E : bytes -> Prop, (forall c, In c l -> changed c = true -> E (mf_file c)) -> Forall (within E (fun _ => False)) (r_calls r);
  v_tasks : forall c, In c (r_tasks r) \/ In c (r_done r) -> In c l /\ changed c = true;
  v_split : match r_pc r with
            | MSpawn rest => exists pre, l = pre ++ rest /\ Permutation (of_changed pre) (r_tasks r ++ r_done r)
            | _ => sound l -> r_tasks r = [] /\ (exists pre rest, l = pre ++ rest /\ Permutation (of_changed pre) (r_done r) /\ (rest <> [] -> r_failed r = true))
            end;
  v_ok : match r_pc r with MCommit | MTool => r_failed r = false /\ r_tasks r = [] /\ Permutation (of_changed l) (r_done r) | _ => True end;
  v_unbroken : r_failed r = false -> match r_pc r with MSpawn _ | MCommit => Forall unbroken (r_calls r) /\ Forall restores (r_calls r) | _ => True end;
  v_last : match r_pc r with MRet _ => sound l -> exists vs oks, r_calls r = vs ++ [EvRestore oks] | _ => True end }.

Lemma of_changed_app : forall a b, of_changed (a ++ b) = of_changed a ++ of_changed b.
Proof. intros. unfold of_changed. apply filter_app. Qed.
Lemma unchanged_changed : forall c, unchanged c = negb (changed c).
Proof. reflexivity. Qed.

Lemma mark_within : forall c e e' w ok (E : bytes -> Prop), mark_func um mark c e e' w ok -> E (mf_file c) -> Forall (within E (fun _ => False)) w.
Proof. intros c e e' w ok E M H. destruct M; repeat constructor; exact H. Qed.
Lemma mark_unbroken : forall c e e' w, mark_func um mark c e e' w true -> Forall unbroken w /\ Forall restores w.
Proof. intros c e e' w M. inversion M; subst; repeat constructor. destruct o; discriminate. Qed.

Lemma rinv_reach : forall l r, mreach (mrun_init f0 l) r -> rinv l r.
Proof.
  intros l r H. induction H as [|r r' H IH S].
  { constructor; cbn; auto; try lia; try constructor; try tauto. exists []. split; [reflexivity|constructor]. }
  destruct IH as [X Lm W Tk Sp Ok Ub Ls]. destruct S; cbn [r_pc r_tasks r_done r_failed r_ed r_calls] in *.
  - (* unset *) constructor; cbn [r_pc r_tasks r_done r_failed r_ed r_calls]; auto.
    intros So. exfalso. destruct Sp as (pre & -> & _). destruct (So c) as [Q _]; [apply in_or_app; right; left; reflexivity|].
    unfold unset in H0. destruct (mf_lines c); [congruence|discriminate].
  - (* skip *) constructor; cbn [r_pc r_tasks r_done r_failed r_ed r_calls]; auto.
    destruct Sp as (pre & -> & P). exists (pre ++ [c]). split; [rewrite <- app_assoc; reflexivity|]. rewrite of_changed_app. cbn.
    rewrite unchanged_changed in H1. destruct (changed c); [discriminate|]. rewrite app_nil_r. exact P.
  - (* no abs *) constructor; cbn [r_pc r_tasks r_done r_failed r_ed r_calls]; auto.
    intros So. exfalso. destruct Sp as (pre & -> & _). destruct (So c) as [_ Q]; [apply in_or_app; right; left; reflexivity|].
    rewrite unchanged_changed in H1. destruct (changed c); [|discriminate]. apply Q; auto.
  - (* spawn *) destruct Sp as (pre & -> & P). rewrite unchanged_changed in H1. destruct (changed c) eqn:Ec; [|discriminate].
    constructor; cbn [r_pc r_tasks r_done r_failed r_ed r_calls]; auto.
    + rewrite app_length. cbn. lia.
    + intros x Q. rewrite in_app_iff in Q. cbn in Q. destruct Q as [[Q|[<-|[]]]|Q]; auto. split; [apply in_or_app; right; left; reflexivity|exact Ec].
    + exists (pre ++ [c]). split; [rewrite <- app_assoc; reflexivity|]. rewrite of_changed_app. cbn. rewrite Ec.
      rewrite (Permutation_app_comm (of_changed pre) [c]). rewrite <- app_assoc. rewrite P. cbn.
      rewrite Permutation_middle. reflexivity.
  - (* task *) destruct (Tk c (or_introl (in_elt c ts1 ts2))) as [Tc1 Tc2].
    assert (Pm : Permutation (ts1 ++ c :: ts2) (c :: ts1 ++ ts2)) by (symmetry; apply Permutation_middle).
    constructor; cbn [r_pc r_tasks r_done r_failed r_ed r_calls].
    + eapply mark_exec; eassumption.
    + rewrite app_length in *. cbn in Lm. lia.
    + intros E HE. apply Forall_app. split; [apply W, HE|]. eapply mark_within; [eassumption|]. apply HE; assumption.
    + intros x Q. rewrite !in_app_iff in Q. cbn in Q. destruct Q as [[Q|Q]|[Q|[<-|[]]]]; auto; apply Tk; left; rewrite in_app_iff; cbn; auto.
    + destruct p; try (intros So; destruct (Sp So) as [Sp1 _]; destruct ts1; discriminate).
      destruct Sp as (pre & E1 & P). exists pre. split; [exact E1|]. rewrite P. rewrite Pm. cbn. rewrite !app_assoc. apply Permutation_cons_append.
    + destruct p; auto; destruct Ok as (_ & Q & _); destruct ts1; discriminate.
    + intros F. apply Bool.orb_false_iff in F as [F1 F2]. destruct ok; [|discriminate]. destruct (mark_unbroken _ _ _ _ H0) as [M1 M2].
      specialize (Ub F1). destruct p; auto; destruct Ub as [U1 U2]; split; apply Forall_app; auto.
    + destruct p; auto. intros So. destruct (Sp So) as [Sp1 _]. destruct ts1; discriminate.
  - (* wait *) destruct Sp as (pre & E1 & P). rewrite app_nil_r in E1. subst pre. cbn in P.
    constructor; cbn [r_pc r_tasks r_done r_failed r_ed r_calls]; auto.
    + destruct b; intros So; (split; [reflexivity|]); exists l, []; rewrite app_nil_r; split; auto; split; auto; congruence.
    + destruct b; auto.
    + destruct b; [congruence|exact Ub].
    + destruct b; auto.
  - (* commit *) constructor; cbn [r_pc r_tasks r_done r_failed r_ed r_calls]; auto.
    + eapply estep_app; eassumption.
    + intros E HE. apply Forall_app. split; [apply W, HE|repeat constructor].
    + destruct (forallb _ os); intros So; apply (Sp So).
    + destruct (forallb _ os); auto.
    + destruct (forallb _ os); auto.
    + destruct (forallb _ os); auto.
  - (* tool *) constructor; cbn [r_pc r_tasks r_done r_failed r_ed r_calls]; auto.
  - (* restore *) constructor; cbn [r_pc r_tasks r_done r_failed r_ed r_calls]; auto.
    + eapply estep_app; eassumption.
    + intros E HE. apply Forall_app. split; [apply W, HE|repeat constructor].
    + intros _. eauto.
Qed.

(** At most [limit] goroutines at a time. *)
Theorem C75_limit : forall l r, mreach (mrun_init f0 l) r -> (length (r_tasks r) <= limit)%nat.
Proof. intros l r H. apply (v_limit _ _ (rinv_reach _ _ H)). Qed.
Print Assumptions C75_limit.

(** When the run returns, whatever the tool said, no goroutine is left, nothing happens any
    more, and every path holds what it held before the run. *)
Theorem C75_sources_back : forall l r ok, mreach (mrun_init f0 l) r -> mutation_targets abs true [] [] l <> None -> r_pc r = MRet ok ->
  tidy f0 (fun p => exists c, In c l /\ changed c = true /\ p = mf_file c) (fun _ => False) ->
  Forall unbroken (r_calls r) -> Forall restores (r_calls r) ->
  r_tasks r = [] /\ (forall r', ~ mstep r r') /\ forall q, same_node (ed_fs (r_ed r) q) (f0 q).
Proof.
  intros l r ok H So P T U R. apply sound_targets in So. destruct (rinv_reach _ _ H) as [X Lm W Tk Sp Ok Ub Ls]. rewrite P in *.
  destruct (Sp So) as [St _]. destruct (Ls So) as (vs & oks & Ev). split; [exact St|]. split.
  - intros r' S. destruct r. cbn in *. subst. inversion S; subst; destruct ts1; discriminate.
  - rewrite Ev in *. apply Forall_app in U as [U _].
    assert (Wi : Forall (within (fun p => exists c, In c l /\ changed c = true /\ p = mf_file c) (fun _ => False)) (vs ++ [EvRestore oks])).
    { apply W. intros c H1 H2. exists c. auto. }
    apply Forall_app in Wi as [Wi _].
    exact (C37_restored um f0 _ _ T vs oks _ X Wi U R).
Qed.
Print Assumptions C75_sources_back.

(** The text of file [p] after the functions of a list were marked one after the other. *)
Definition mark_in (p : bytes) (t : option bytes) (c : mfunc) : option bytes :=
  match t with
  | None => None
  | Some t => if beq (mf_file c) p then match mark c t with MKeep => Some t | MText t' => Some t' | MBad => None end else Some t
  end.
Definition marked (p : bytes) (order : list mfunc) (t : bytes) : option bytes := fold_left (mark_in p) order (Some t).

Definition text_inv (E : bytes -> Prop) (r : mrun) : Prop :=
  ed_pending (r_ed r) = [] /\ forall p, E p -> exists m0 c0 m t, f0 p = Some (NFile m0 c0) /\ ed_fs (r_ed r) p = Some (NFile m t) /\ marked p (r_done r) c0 = Some t.

Lemma contents_file : forall f p m c, f p = Some (NFile m c) -> contents f p = Some c.
Proof. intros f p m c H. unfold contents, resolve. rewrite H, H. reflexivity. Qed.

Lemma mark_text : forall (E : bytes -> Prop) c e e' w, E (mf_file c) -> (forall p, E p -> exists m t, ed_fs e p = Some (NFile m t)) -> ed_pending e = [] -> mark_func um mark c e e' w true ->
  ed_pending e' = [] /\ forall p m t, E p -> ed_fs e p = Some (NFile m t) -> exists m' t', ed_fs e' p = Some (NFile m' t') /\ mark_in p (Some t) c = Some t'.
Proof.
  intros E c e e' w Ec Ef Pe M. inversion M; subst; clear M.
  - split; [exact Pe|]. intros p m t0 Ep Fp. exists m, t0. split; [exact Fp|]. unfold mark_in. destruct (beq_spec (mf_file c) p) as [Eq|]; [subst p|reflexivity].
    rewrite (contents_file _ _ _ _ Fp) in H. injection H as <-. rewrite H0. reflexivity.
  - destruct o; try discriminate. destruct e as [f pd a]. cbn in *. subst pd.
    match goal with W : estep _ _ (EvEdit _ _) _ |- _ => inversion W; subst; clear W end. match goal with W : estep _ _ (EvCommitFile _ _) _ |- _ => inversion W; subst; clear W end.
    match goal with W : contents _ _ = Some _, W' : mark _ _ = MText _ |- _ => rename W into Hc; rename W' into Hm end. cbn in *.
    rewrite beq_refl in *. match goal with W : Some t' = Some _ |- _ => injection W as <- end. cbn. split; [reflexivity|]. intros p m t0 Ep Fp.
    match goal with W : write_pending _ _ _ _ _ _ _ _ |- _ => inversion W; subst; clear W end; [congruence|].
    destruct ok; [|discriminate]. match goal with W : backup_file _ _ _ _ ?x _ _ |- _ => rename x into fb end.
    assert (F1 : forall q m t, E q -> f q = Some (NFile m t) -> fb q = Some (NFile m t)).
    { intros q mq tq Eq Fq. match goal with W : backup_file _ _ _ _ _ _ _ |- _ => inversion W; subst; clear W end; [exact Fq|].
      match goal with W : copy_file _ _ _ _ _ _ |- _ => inversion W; subst; clear W end.
      - destruct (Ef _ Ec) as (mm & tt & Q). congruence.
      - unfold put, upd. destruct (beq_spec q (resolve f (bkp (mf_file c)))) as [Q|Q]; [|exact Fq].
        unfold file_exists in *. rewrite <- Q, Fq in *. discriminate. }
    match goal with W : write_file _ _ _ _ _ _ |- _ => inversion W; subst; clear W end.
    destruct (Ef _ Ec) as (mm & tt & Q). pose proof (F1 _ _ _ Ec Q) as Q1.
    unfold put, upd, resolve. rewrite Q1, Q1.
    destruct (beq_spec p (mf_file c)) as [->|Ne].
    + exists mm, t'. split; [reflexivity|]. unfold mark_in. rewrite beq_refl. rewrite Q in Fp. injection Fp as <- <-.
      rewrite (contents_file _ _ _ _ Q) in Hc. injection Hc as <-. rewrite Hm. reflexivity.
    + exists m, t0. split; [auto|]. unfold mark_in. destruct (beq_spec (mf_file c) p) as [Q2|]; [congruence|reflexivity].
Qed.

(** While the tool runs, every goroutine has finished without an error, each changed function
    has been marked exactly once, and each source file holds its original text with the marks of
    its functions, one after the other in some order. *)
Theorem C75_tool_sees_marks : forall l r, mreach (mrun_init f0 l) r -> r_pc r = MTool ->
  (forall c, In c l -> changed c = true -> exists m t, f0 (mf_file c) = Some (NFile m t)) ->
  r_tasks r = [] /\ Permutation (r_done r) (filter changed l) /\
  forall c, In c l -> changed c = true -> exists m t t', f0 (mf_file c) = Some (NFile m t) /\ marked (mf_file c) (r_done r) t = Some t' /\ contents (ed_fs (r_ed r)) (mf_file c) = Some t'.
Proof.
  intros l r H P Ex. pose (E := fun p => exists c, In c l /\ changed c = true /\ p = mf_file c).
  assert (Ex' : forall p, E p -> exists m t, f0 p = Some (NFile m t)) by (intros p (c & H1 & H2 & ->); auto).
  assert (J : r_failed r = false -> match r_pc r with MSpawn _ | MCommit | MTool => text_inv E r | _ => True end).
  { clear P. induction H as [|r r' H IH S].
    - intros _. cbn. split; [reflexivity|]. intros p Ep. destruct (Ex' p Ep) as (m & t & F). exists m, t, m, t. cbn. auto.
    - pose proof (rinv_reach _ _ H) as V. destruct S; cbn [r_pc r_failed] in *; auto.
      + (* task *) intros F. apply Bool.orb_false_iff in F as [F1 F2]. destruct ok; [|discriminate]. specialize (IH F1).
        destruct (v_tasks _ _ V c) as [Tc1 Tc2]; [left; apply in_elt|].
        assert (Ec : E (mf_file c)) by (exists c; auto).
        assert (Y : text_inv E (MRun p (ts1 ++ c :: ts2) d b e v) -> text_inv E (MRun p (ts1 ++ ts2) (d ++ [c]) (b || negb true) e' (v ++ w))).
        { intros [Y1 Y2]. cbn in *. destruct (mark_text E c e e' w Ec) as [Z1 Z2]; auto.
          { intros q Eq. destruct (Y2 q Eq) as (_ & _ & m & t & _ & Y3 & _). eauto. }
          split; [exact Z1|]. cbn. intros q Eq. destruct (Y2 q Eq) as (m0 & c0 & m & t & Y3 & Y4 & Y5).
          destruct (Z2 q m t Eq Y4) as (m' & t' & Z3 & Z4). exists m0, c0, m', t'. repeat split; auto.
          unfold marked in *. rewrite fold_left_app, Y5. exact Z4. }
        destruct p; auto.
      + (* wait *) intros F. subst b. apply IH. reflexivity.
      + (* commit *) intros F. destruct (forallb _ os) eqn:Eo; [|exact I]. destruct (IH F) as [Y1 Y2]. cbn in *.
        destruct e as [f pd a]. cbn in *. subst pd. inversion H0; subst.
        match goal with W : forall x, In x ?l0 <-> In x [], W' : write_all _ ?l0 _ _ _ _ _ |- _ =>
          assert (El : l0 = []) by (destruct l0 as [|x l0]; [reflexivity|]; exfalso; apply (proj1 (W x)); left; reflexivity); subst l0; inversion W'; subst end. split; [reflexivity|]. exact Y2. }
  pose proof (rinv_reach _ _ H) as V. pose proof (v_ok _ _ V) as Ok. rewrite P in *. destruct Ok as (O1 & O2 & O3). specialize (J O1). destruct J as [_ J].
  split; [exact O2|]. split; [symmetry; exact O3|]. intros c Hc Cc.
  destruct (J (mf_file c)) as (m0 & c0 & m & t & J1 & J2 & J3); [exists c; auto|].
  exists m0, c0, t. repeat split; auto. eapply contents_file; eauto.
Qed.
Print Assumptions C75_tool_sees_marks.
End Run.

(** ** What does not hold *)
(** A function whose bitmap was not set makes the run return while goroutines are still marking
    files; the deferred Restore comes first, and a mark made after it is never taken back. *)
Definition one_file : fsys := fun q => if beq q (B "/m/a.go") then Some (NFile 420 (B "old")) else None.
Definition add_mark (c : mfunc) (t : bytes) : marking := MText (B "mark " ++ t).
Definition fa : mfunc := MFunc (B "F") (B "/m/a.go") [true; false].
Definition fb_unset : mfunc := MFunc (B "G") (B "/m/b.go") [].
Definition one_copied : fsys := put one_file (bkp (B "/m/a.go")) 420 (B "old").
Definition one_marked : fsys := put one_copied (B "/m/a.go") 420 (B "mark old").
Definition marked_ed : editor := Editor one_marked (mdel (B "/m/a.go") (mset (B "/m/a.go") (B "mark old") [])) [ARestore (B "/m/a.go")].
Definition mark_calls : list eevent := [EvEdit (B "/m/a.go") (B "mark old"); EvCommitFile (B "/m/a.go") WDone].

Lemma mark_fa : mark_func 420 add_mark fa (e_init one_file) marked_ed mark_calls true.
Proof.
  apply (mk_text 420 add_mark fa (e_init one_file) (B "old") (B "mark old") (Editor one_file (mset (B "/m/a.go") (B "mark old") []) []) marked_ed WDone); try reflexivity.
  - apply es_edit. left. discriminate.
  - apply es_commit_file with (t := B "mark old"); [reflexivity|].
    apply (wp_write 420 (B "/m/a.go") (B "mark old") one_file [] one_copied [ARestore (B "/m/a.go")] one_marked true); [|apply wf_ok].
    apply (bf_made 420 (B "/m/a.go") one_file [] one_copied); [reflexivity|]. apply (cp_ok 420 one_file (B "/m/a.go") (bkp (B "/m/a.go")) 420 (B "old")); [reflexivity|discriminate].
Qed.

Theorem C75_early_return_refuted : exists r, mreach 420 Some 4 add_mark (mrun_init one_file [fa; fb_unset]) r /\
  r_pc r = MRet false /\ r_tasks r = [] /\ Forall unbroken (r_calls r) /\ Forall restores (r_calls r) /\
  contents (ed_fs (r_ed r)) (B "/m/a.go") = Some (B "mark old") /\ contents one_file (B "/m/a.go") = Some (B "old").
Proof.
  exists (MRun (MRet false) [] [fa] false marked_ed ([EvRestore []] ++ mark_calls)). split.
  - apply mr_step with (r := MRun (MRet false) [fa] [] false (e_init one_file) [EvRestore []]).
    2: { apply (ms_task 420 Some 4 add_mark (MRet false) [] fa [] [] false (e_init one_file) [EvRestore []] marked_ed mark_calls true). exact mark_fa. }
    apply mr_step with (r := MRun (MBack false) [fa] [] false (e_init one_file) []).
    2: { apply (ms_restore 420 Some 4 add_mark false [fa] [] false (e_init one_file) [] [] (e_init one_file)). apply es_restore. apply rx_nil. }
    apply mr_step with (r := MRun (MSpawn [fb_unset]) [fa] [] false (e_init one_file) []); [|apply ms_unset; reflexivity].
    apply mr_step with (r := mrun_init one_file [fa; fb_unset]); [apply mr_here|].
    apply (ms_spawn 420 Some 4 add_mark fa [fb_unset] [] []); try reflexivity; [discriminate|cbn; lia].
  - repeat split; repeat constructor. discriminate.
Qed.
Print Assumptions C75_early_return_refuted.

(** ** Example: one function marked, the tool run, the file back. *)
Definition one_back : fsys := upd (upd (upd one_marked (B "/m/a.go") None) (bkp (B "/m/a.go")) None) (B "/m/a.go") (Some (NFile 420 (B "old"))).
Definition ex_run : mrun := MRun MTool [] [fa] false (Editor one_marked [] [ARestore (B "/m/a.go")]) (mark_calls ++ [EvCommit []]).
Definition ex_ret : mrun := MRun (MRet true) [] [fa] false (Editor one_back [] []) (mark_calls ++ [EvCommit []] ++ [EvRestore [true]]).
Example C75_example : mreach 420 Some 4 add_mark (mrun_init one_file [fa]) ex_run /\ mreach 420 Some 4 add_mark (mrun_init one_file [fa]) ex_ret /\
  mutation_targets Some true [] [] [fa] <> None /\
  tidy one_file (fun p => exists c, In c [fa] /\ changed c = true /\ p = mf_file c) (fun _ => False) /\
  Forall unbroken (r_calls ex_ret) /\ Forall restores (r_calls ex_ret) /\
  contents (ed_fs (r_ed ex_run)) (B "/m/a.go") = Some (B "mark old") /\ contents (ed_fs (r_ed ex_ret)) (B "/m/a.go") = Some (B "old").
Proof.
  assert (R : mreach 420 Some 4 add_mark (mrun_init one_file [fa]) ex_run).
  { apply mr_step with (r := MRun MCommit [] [fa] false (Editor one_marked [] [ARestore (B "/m/a.go")]) mark_calls).
    2: { apply (ms_commit 420 Some 4 add_mark [] [fa] false _ mark_calls [] (Editor one_marked [] [ARestore (B "/m/a.go")])).
         apply (es_commit 420 one_marked [] [ARestore (B "/m/a.go")] [] one_marked [ARestore (B "/m/a.go")] []); [tauto|constructor|apply wa_nil]. }
    apply mr_step with (r := MRun (MSpawn []) [] [fa] false (Editor one_marked [] [ARestore (B "/m/a.go")]) mark_calls); [|apply ms_wait].
    apply mr_step with (r := MRun (MSpawn []) [fa] [] false (e_init one_file) []).
    2: { apply (ms_task 420 Some 4 add_mark (MSpawn []) [] fa [] [] false (e_init one_file) [] marked_ed mark_calls true). exact mark_fa. }
    apply mr_step with (r := mrun_init one_file [fa]); [apply mr_here|].
    apply (ms_spawn 420 Some 4 add_mark fa [] [] []); try reflexivity; [discriminate|cbn; lia]. }
  split; [exact R|]. split.
  { apply mr_step with (r := MRun (MBack true) [] [fa] false (Editor one_marked [] [ARestore (B "/m/a.go")]) (mark_calls ++ [EvCommit []])).
    - eapply mr_step; [exact R|]. apply ms_tool.
    - unfold ex_ret. rewrite app_assoc. apply ms_restore. apply es_restore. eapply rx_cons; [|apply rx_nil]. apply ra_restore.
      eapply rp_done; [reflexivity|apply rm_ok; discriminate|]. apply rn_ok; [reflexivity|discriminate]. }
  split; [discriminate|]. split.
  { split.
    - intros p (c & [<-|[]] & _ & ->). exists 420%N, (B "old"). reflexivity.
    - intros p (c & [<-|[]] & _ & ->). reflexivity.
    - intros p q (c & [<-|[]] & _ & ->) (c' & [<-|[]] & _ & ->). discriminate.
    - intros p d _ []. }
  split; [cbn; repeat apply Forall_cons; cbn; auto; try discriminate|].
  split; [cbn; repeat apply Forall_cons; cbn; auto|]. split; reflexivity.
Qed.
