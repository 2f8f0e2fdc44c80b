(** C96: goroutines that put clients into packages and write edited files at the same time. *)
From Coq Require Import Permutation.
From Verif Require Import Base Maps FsModel ModifierModel GoModProps ModifierProps InterModel InterSpec InterProofs.

(** However the steps of the goroutines are interleaved, files and cleanup actions are in the end those of the same calls
    with the same outcomes one after the other, in some order: what C37 proves about calls as single steps holds. *)
Theorem C96_serial : forall um f0 js s os, orderly f0 js -> cexec um js (c_start f0 js) s -> c_pcs s = map Ended os ->
  exists order e, Permutation order (combine js os) /\ eexec um (e_init f0) (edits js ++ map event order) e /\
    ed_actions e = c_acts s /\ forall q, ed_fs e q = c_fs s q.
Proof.
  intros um f0 js s os O H E.
  destruct (serial um f0 js s os (orderly_apart _ _ O) (orderly_regular _ _ O) (orderly_files _ _ O) (proj1 (proj2 O)) H E) as (order & pd & f & P & X & Q).
  exists order, (Editor f pd (c_acts s)). auto.
Qed.
Print Assumptions C96_serial.

(** A goroutine that ended without an error has left what it was to leave, and its cleanup action. *)
Theorem C96_left : forall um f0 js s os, orderly f0 js -> cexec um js (c_start f0 js) s -> c_pcs s = map Ended os ->
  (forall d ct at_, In (JClient d ct at_, OClient IDone) (combine js os) -> In (AGen d) (c_acts s) /\
     exists m m', c_fs s (client_file d) = Some (NFile m ct) /\ c_fs s (api_file d) = Some (NFile m' at_)) /\
  (forall p t, In (JFile p t, OFile WDone) (combine js os) -> (exists m, c_fs s p = Some (NFile m t)) /\
     exists m c, f0 p = Some (NFile m c) /\ (f0 (bkp p) = None -> In (ARestore p) (c_acts s) /\ exists m', c_fs s (bkp p) = Some (NFile m' c))).
Proof.
  intros um f0 js s os O H E. pose proof (orderly_regular _ _ O) as R0.
  destruct (inv_exec um f0 js (orderly_apart _ _ O) R0 (orderly_files _ _ O) _ _ H) as (bs & ord & V); [do 2 eexists; apply (inv_start um f0 js R0) |].
  assert (K : forall j o, In (j, o) (combine js os) -> exists i f1, jrun um j f0 [] f1 (bs i) o /\ same_on (foot j) (c_fs s) f1 /\ forall a, In a (bs i) -> In a (c_acts s)).
  { intros j o Hin. apply In_nth_error in Hin. destruct Hin as (i & Hi).
    assert (Hj : nth_error js i = Some j /\ nth (A := job * outcome) i (combine js os) (j, o) = (j, o)).
    { split; [| apply nth_error_nth, Hi]. clear - Hi. revert i os Hi. induction js as [| j0 js IH]; intros i [| o0 os] Hi; try (destruct i; discriminate Hi).
      destruct i as [| i]; cbn in *; [congruence | eapply IH, Hi]. }
    destruct Hj as [Hj Hn]. destruct (pair_spec um f0 js s os bs ord V E (j, o) i j Hj) as (o' & Eo & f1 & J & S1). unfold pair_at in Eo. rewrite Hn in Eo. injection Eo as <-.
    exists i, f1. split; [exact J |]. split; [exact S1 |]. intros a Ha. destruct (order_perm um f0 js s bs ord V) as [_ <-].
    destruct V as (_ & _ & _ & _ & I1 & _). apply in_flat_map. exists i. split; [apply in_app_iff; left; apply I1; intros X; rewrite X in Ha; destruct Ha | exact Ha]. }
  split.
  - intros d ct at_ Hin. destruct (K _ _ Hin) as (i & f1 & J & S1 & A). cbn [jrun] in J. inversion J as [| | | | ? ? g1 ? N W1 W2]; subst. cbn [app] in *.
    split; [apply A; match goal with X : _ = bs i |- _ => rewrite <- X end; left; reflexivity |].
    assert (Hj : In (JClient d ct at_) js) by (apply in_combine_l in Hin; exact Hin).
    pose proof (R0 _ _ Hj (client_matches d : foot (JClient d ct at_) _)) as Rc. pose proof (R0 _ _ Hj (api_matches d : foot (JClient d ct at_) _)) as Ra.
    inversion W1; subst. inversion W2; subst.
    assert (Ra' : regular (put f0 (client_file d) 420 ct) (api_file d)) by (apply put_keeps; assumption).
    rewrite !S1 by (first [apply client_matches | apply api_matches]). rewrite !(put_regular _ _ _ _ Ra').
    destruct (beq_spec (client_file d) (api_file d)) as [X | _]; [destruct (client_api d d X) |]. destruct (beq_spec (api_file d) (api_file d)); [| congruence].
    rewrite (put_regular _ _ _ _ Rc). destruct (beq_spec (client_file d) (client_file d)); [| congruence]. do 2 eexists. split; reflexivity.
  - intros p t Hin. destruct (K _ _ Hin) as (i & f1 & J & S1 & A). cbn [jrun] in J.
    assert (Hj : In (JFile p t) js) by (apply in_combine_l in Hin; exact Hin).
    destruct (orderly_files _ _ O p t Hj) as (m & c & E0).
    assert (Rp : regular f0 p) by (unfold regular; rewrite E0; exact I).
    assert (Rb : regular f0 (bkp p)) by (apply (R0 _ _ Hj); right; reflexivity).
    inversion J as [| ? ? ? ? ? X | ? ? g1 ? g2 ok Bk W]; subst; [congruence |]. destruct ok; [| discriminate]. inversion W; subst.
    assert (Rg : regular g1 p).
    { inversion Bk as [| ? ? ? X C | |]; subst; [exact Rp |]. inversion C as [| l X1 | | m0 c0 X1 X2]; subst; [unfold regular in Rp; rewrite X1 in Rp; destruct Rp | apply put_keeps; assumption]. }
    rewrite !S1 by (first [left; reflexivity | right; reflexivity]). rewrite !(put_regular _ _ _ _ Rg).
    destruct (beq_spec p p); [| congruence]. destruct (beq_spec (bkp p) p) as [X | _]; [destruct (self_bkp p (eq_sym X)) |].
    split; [eexists; reflexivity |]. exists m, c. split; [exact E0 |]. intros Nb.
    inversion Bk as [? ? X | ? ? ? X C | |]; subst.
    + unfold file_exists in X. rewrite (regular_resolve _ _ Rb), Nb in X. discriminate X.
    + split; [apply A; match goal with Y : _ = bs i |- _ => rewrite <- Y end; left; reflexivity |].
      inversion C as [| l X1 | | m0 c0 X1 X2]; subst; [congruence |]. rewrite (put_regular _ _ _ _ Rb). destruct (beq_spec (bkp p) (bkp p)); [| congruence].
      rewrite E0 in X1. injection X1 as <- <-. eexists. reflexivity.
Qed.
Print Assumptions C96_left.

Lemma edit_events js v : In v (edits js) -> exists p t, v = EvEdit p t /\ In p (files js).
Proof.
  intros Hv. unfold edits in Hv. apply in_flat_map in Hv. destruct Hv as ([d ct at_ | p t] & Hj & K); [destruct K |]. destruct K as [<- | []].
  exists p, t. split; [reflexivity | apply files_in; eauto].
Qed.
Lemma order_events um f0 js s os order : orderly f0 js -> cexec um js (c_start f0 js) s -> c_pcs s = map Ended os -> Permutation order (combine js os) -> Forall whole os ->
  forall v, In v (map event order) -> (exists d o, v = EvInject d o /\ In d (dirs js) /\ o <> IBroken) \/ exists p o, v = EvCommitFile p o /\ In p (files js) /\ o <> WBroken.
Proof.
  intros O H E P Wh.
  assert (Hin : forall j o, In (j, o) order -> In j js /\ In o os).
  { intros j o K. apply (Permutation_in _ P) in K. split; [eapply in_combine_l, K | eapply in_combine_r, K]. }
  assert (Match : forall j o, In (j, o) order -> match j, o with JClient _ _ _, OClient _ | JFile _ _, OFile _ => True | _, _ => False end).
  { intros j o K. apply (Permutation_in _ P) in K. pose proof (orderly_regular _ _ O) as R0.
    destruct (inv_exec um f0 js (orderly_apart _ _ O) R0 (orderly_files _ _ O) _ _ H) as (bs & ord & V); [do 2 eexists; apply (inv_start um f0 js R0) |].
    apply In_nth_error in K. destruct K as (i & Hi).
    assert (Hj : nth_error js i = Some j).
    { clear - Hi. revert i os Hi. induction js as [| j0 js IH]; intros i [| o0 os] Hi; try (destruct i; discriminate Hi).
      destruct i as [| i]; cbn in *; [congruence | eapply IH, Hi]. }
    destruct (pair_spec um f0 js s os bs ord V E (j, o) i j Hj) as (o' & Eo & f1 & J & _). unfold pair_at in Eo. rewrite (nth_error_nth _ _ _ Hi) in Eo. injection Eo as <-.
    destruct j, o; cbn [jrun] in J; try contradiction; exact I. }
  intros v Hv. apply in_map_iff in Hv. destruct Hv as ([j o] & <- & Hv). destruct (Hin j o Hv) as [Hj Ho]. specialize (Match j o Hv).
    rewrite Forall_forall in Wh. specialize (Wh o Ho). destruct Wh as [W1 W2]. destruct j as [d ct at_ | p t], o as [o | o]; try contradiction; cbn [event].
    - left. exists d, o. split; [reflexivity |]. split; [apply dirs_in; eauto | congruence].
    - right. exists p, o. split; [reflexivity |]. split; [apply files_in; eauto | congruence].
Qed.

(** So cleaning up afterwards brings back every file. *)
Theorem C96_restored : forall um f0 js s os g oks, orderly f0 js -> (forall p, In p (files js) -> f0 (bkp p) = None) ->
  cexec um js (c_start f0 js) s -> c_pcs s = map Ended os -> Forall whole os ->
  run_actions (c_acts s) (c_fs s) g oks -> Forall (eq true) oks -> forall q, same_node (g q) (f0 q).
Proof.
  intros um f0 js s os g oks O Fb H E Wh Ra Ok q. pose proof O as (_ & _ & F & _).
  destruct (C96_serial um f0 js s os O H E) as (order & [f pd a] & P & X & Ea & Q). cbn [ed_actions ed_fs] in *. subst a.
  destruct (actions_ext _ _ _ _ Ra f (fun q => eq_sym (Q q))) as (g' & Ra' & Eg). rewrite Eg.
  assert (T : tidy f0 (fun p => In p (files js)) (fun d => In d (dirs js))).
  { split; [intros p Hp; apply F, Hp | exact Fb | intros p q0 Hp _; apply F, Hp |]. intros p d Hp _. destruct (F p Hp) as (_ & _ & _ & Ng).
    split; intros ->; [exact (Ng d (client_matches d)) | exact (Ng d (api_matches d))]. }
  pose proof (edit_events js) as Ed. pose proof (order_events um f0 js s os order O H E P Wh) as Ev.
  apply (C37_restored um f0 _ _ T (edits js ++ map event order) oks (Editor g' pd [])).
  - eapply eexec_app; [exact X |]. eapply ee_cons; [apply es_restore, Ra' | apply ee_nil].
  - apply Forall_forall. intros v Hv. apply in_app_iff in Hv. destruct Hv as [Hv | Hv]; [destruct (Ed v Hv) as (p & t & -> & Y); exact Y |].
    destruct (Ev v Hv) as [(d & o & -> & Y & _) | (p & o & -> & Y & _)]; exact Y.
  - apply Forall_forall. intros v Hv. apply in_app_iff in Hv. destruct Hv as [Hv | Hv]; [destruct (Ed v Hv) as (p & t & -> & Y); exact I |].
    destruct (Ev v Hv) as [(d & o & -> & _ & Y) | (p & o & -> & _ & Y)]; exact Y.
  - apply Forall_app. split; [| constructor; [exact Ok | constructor]].
    apply Forall_forall. intros v Hv. apply in_app_iff in Hv. destruct Hv as [Hv | Hv]; [destruct (Ed v Hv) as (p & t & -> & Y); exact I |].
    destruct (Ev v Hv) as [(d & o & -> & _ & Y) | (p & o & -> & _ & Y)]; exact I.
Qed.
Print Assumptions C96_restored.

(** At every moment, so also if the process is stopped, a file that had no backup is as it was or its backup is whole. *)
Theorem C96_never_lost : forall um f0 js s, orderly f0 js -> cexec um js (c_start f0 js) s ->
  forall p m c, In p (files js) -> f0 p = Some (NFile m c) -> f0 (bkp p) = None ->
  c_fs s p = Some (NFile m c) \/ exists m', c_fs s (bkp p) = Some (NFile m' c).
Proof.
  intros um f0 js s O H p m c Hp E0 Nb. pose proof (orderly_regular _ _ O) as R0.
  destruct (inv_exec um f0 js (orderly_apart _ _ O) R0 (orderly_files _ _ O) _ _ H) as (bs & ord & V); [do 2 eexists; apply (inv_start um f0 js R0) |].
  apply files_in in Hp. destruct Hp as (t & Hj). 
  assert (Rp : regular f0 p) by (unfold regular; rewrite E0; exact I).
  assert (Rb : regular f0 (bkp p)) by (unfold regular; rewrite Nb; exact I).
  apply In_nth_error in Hj. destruct Hj as (i & Hi). destruct V as (L & U & _).
  destruct (nth_error (c_pcs s) i) as [x |] eqn:Hx; [| apply nth_error_None in Hx; assert (i < length js)%nat by (apply nth_error_Some; congruence); lia].
  destruct (U i _ x Hi Hx) as [Ui _]. clear U. generalize (bs i) Ui. clear Ui. intros b Ui.
  assert (Ee : file_exists f0 (bkp p) = false) by (unfold file_exists; rewrite (regular_resolve _ _ Rb), Nb; reflexivity).
  assert (Cp : forall f1 ok, copy_file um f0 p (bkp p) f1 ok -> f1 p = f0 p /\ (ok = true -> f1 (bkp p) = Some (NFile um c))).
  { intros f1 ok C. inversion C as [| l X1 | m0 c0 part X1 X2 | m0 c0 X1 X2]; subst; [split; [reflexivity | discriminate] | congruence | |].
    - split; [apply put_off; [exact Rb | apply self_bkp] | discriminate].
    - split; [apply put_off; [exact Rb | apply self_bkp] |]. intros _. rewrite (put_regular _ _ _ _ Rb), Nb. destruct (beq_spec (bkp p) (bkp p)); [congruence | congruence]. }
  assert (Bk : forall f1 o, backup_file um p f0 [] f1 b o -> f1 p = f0 p /\ (o = WDone -> f1 (bkp p) = Some (NFile um c))).
  { intros f1 o Bk. inversion Bk as [? ? X | ? ? ? X C | | ? ? ? X C]; subst; [congruence | | split; [reflexivity | discriminate] |].
    - destruct (Cp _ _ C) as [C1 C2]. auto.
    - destruct (Cp _ _ C) as [C1 C2]. split; [exact C1 | discriminate]. }
  assert (Wr : forall f1 part, backup_file um p f0 [] f1 b WDone -> regular f1 p -> put f1 p 420 part (bkp p) = Some (NFile um c)).
  { intros f1 part K R1. destruct (Bk _ _ K) as [_ K2]. rewrite put_off; [apply K2; reflexivity | exact R1 | intros X; exact (self_bkp p (eq_sym X))]. }
  cbn [upto] in Ui. assert (Fp : foot (JFile p t) p) by (left; reflexivity). assert (Fb : foot (JFile p t) (bkp p)) by (right; reflexivity).
  destruct x as [| | | | | | | | | | | [o | o]]; try contradiction.
  - left. rewrite (proj2 Ui p Fp). exact E0.
  - left. destruct Ui as (_ & _ & S0). rewrite (S0 p Fp). exact E0.
  - left. destruct Ui as (_ & _ & part & S0). rewrite (S0 p Fp), put_off; [exact E0 | exact Rb | apply self_bkp].
  - left. destruct Ui as (_ & _ & f1 & C & S0). rewrite (S0 p Fp). destruct (Cp _ _ C) as [C1 _]. congruence.
  - right. destruct Ui as (f1 & K & _ & S0). exists um. rewrite (S0 _ Fb). apply (Bk _ _ K). reflexivity.
  - right. destruct Ui as (f1 & part & K & R1 & S0). exists um. rewrite (S0 _ Fb). apply Wr; assumption.
  - destruct Ui as (f1 & W & S0). inversion W as [| ? ? ? ? ? No K | ? ? g1 ? g2 ok K Wf]; subst.
    + left. rewrite (S0 p Fp). exact E0.
    + left. rewrite (S0 p Fp). destruct (Bk _ _ K) as [K1 _]. congruence.
    + right. exists um. rewrite (S0 _ Fb). destruct (Bk _ _ K) as [K1 K2]. assert (R1 : regular g1 p) by (unfold regular; rewrite K1, E0; exact I).
      inversion Wf; subst; [apply K2; reflexivity | apply Wr; assumption | apply Wr; assumption].
Qed.
Print Assumptions C96_never_lost.

(** ** The same directory twice *)
(** Directories of the project and of modules are collected apart, so one directory may get two goroutines. One after the
    other the second finds the client of the first; at the same time both write it and note its removal, and of two
    removals one fails. *)
Theorem C96_twice_refuted : forall um d ct at_, exists f0 js s,
  dirs js = [d; d] /\ files js = [] /\ (forall q, f0 q = None) /\ cexec um js (c_start f0 js) s /\
  c_pcs s = map Ended [OClient IDone; OClient IDone] /\
  (forall g oks, run_actions (c_acts s) (c_fs s) g oks -> In false oks) /\
  (forall f1 a1 f2 a2 o, inject d ct at_ f0 [] f1 a1 IDone -> inject d ct at_ f1 a1 f2 a2 o -> o = INothing /\ a2 = [AGen d]).
Proof.
  intros um d ct at_. set (f0 := (fun _ => None) : fsys). set (j := JClient d ct at_).
  assert (N0 : forall q, glob_match d q -> f0 q = None) by reflexivity.
  eexists f0, [j; j], _. split; [reflexivity |]. split; [reflexivity |]. split; [reflexivity |]. split.
  { eapply c_more; [eapply c_more; [eapply c_more; [eapply c_more; [eapply c_more; [eapply c_more; [eapply c_more; [eapply c_more; [apply c_end |] |] |] |] |] |] |] |].
    - apply (c_step um _ 0 j Todo); [reflexivity | reflexivity | apply t_absent, N0].
    - apply (c_step um _ 1 j Todo); [reflexivity | reflexivity | apply t_absent, N0].
    - apply (c_step um _ 0 j Absent); [reflexivity | reflexivity | apply t_client; left; reflexivity].
    - apply (c_step um _ 1 j Absent); [reflexivity | reflexivity | apply t_client; left; reflexivity].
    - apply (c_step um _ 0 j ClientThere); [reflexivity | reflexivity | apply t_api; left; reflexivity].
    - apply (c_step um _ 1 j ClientThere); [reflexivity | reflexivity | apply t_api; left; reflexivity].
    - apply (c_step um _ 0 j ApiThere); [reflexivity | reflexivity | apply t_added].
    - apply (c_step um _ 1 j ApiThere); [reflexivity | reflexivity | apply t_added]. }
  cbn [c_pcs c_acts c_fs set_nth map c_start app]. split; [reflexivity |]. split.
  - intros g oks H. inversion H as [| ? ? ? f1 f2 ok oks1 A1 H1]; subst. inversion H1 as [| ? ? ? f3 f4 ok' oks2 A2 H2]; subst. inversion H2; subst.
    inversion A1 as [| ? ? g1 ? k1 k2 R1 R2]; subst. inversion A2 as [| ? ? g2 ? k3 k4 R3 R4]; subst.
    destruct k1; [| left; reflexivity]. destruct k2; [| left; reflexivity]. destruct k3; [| right; left; reflexivity].
    exfalso. inversion R3 as [| Ne]; subst. apply Ne. inversion R2 as [| _]; subst. inversion R1 as [| _]; subst.
    unfold upd at 1. destruct (beq_spec (client_file d) (api_file d)) as [X | _]; [destruct (client_api d d X) |].
    unfold upd. destruct (beq_spec (client_file d) (client_file d)); [reflexivity | congruence].
  - intros f1 a1 f2 a2 o H1 H2. inversion H1 as [| | | | ? ? g1 ? N W1 W2]; subst. inversion W1; subst. inversion W2; subst. cbn [app] in H2.
    assert (Ex : put (put f0 (client_file d) 420 ct) (api_file d) 420 at_ (client_file d) <> None).
    { assert (R1 : regular f0 (client_file d)) by exact I. assert (R2 : regular f0 (api_file d)) by exact I.
      rewrite (put_regular _ _ _ _ (put_keeps _ _ 420%N ct _ R1 R2)). destruct (beq_spec (client_file d) (api_file d)); [discriminate |].
      rewrite (put_regular _ _ _ _ R1). destruct (beq_spec (client_file d) (client_file d)); [discriminate | congruence]. }
    inversion H2; subst; try (split; reflexivity); exfalso; apply Ex; match goal with X : forall q, glob_match d q -> _ = None |- _ => apply X, client_matches end.
Qed.
Print Assumptions C96_twice_refuted.

(** A client and a file of the same package, one step each in turn, the client and the backup in two writes. *)
Definition ex96_fs : fsys := fun q => if beq q (B "p/a.go") then Some (NFile 420 (B "old")) else None.
Definition ex96_jobs : list job := [JClient (B "p") (B "client") (B "api"); JFile (B "p/a.go") (B "new")].
Lemma ex96_no_glob q : glob_match (B "p") q -> ex96_fs q = None.
Proof. intros (x & _ & ->). unfold ex96_fs. destruct (beq_spec (B "p" ++ B "/xx_lens_" ++ x ++ B "_gen.go") (B "p/a.go")) as [E |]; [discriminate E | reflexivity]. Qed.
Lemma ex96_orderly : orderly ex96_fs ex96_jobs.
Proof.
  split; [repeat constructor; intros [] |]. split; [repeat constructor; intros [] |]. split.
  - intros p [<- | []]. split; [do 2 eexists; reflexivity |]. split; [exact I |]. split.
    + intros q E. apply (f_equal (fun l => firstn 1 (rev l))) in E. unfold bkp in E. rewrite rev_app_distr in E. discriminate E.
    + intros d (x & _ & E). apply (f_equal (fun l => firstn 7 (rev l))) in E. rewrite !app_assoc, (rev_app_distr _ (B "_gen.go")) in E. discriminate E.
  - intros d q [<- | []] H. unfold regular. rewrite (ex96_no_glob q H). exact I.
Qed.
Example C96_example : orderly ex96_fs ex96_jobs /\ ex96_fs (bkp (B "p/a.go")) = None /\ exists s,
  cexec 438 ex96_jobs (c_start ex96_fs ex96_jobs) s /\ c_pcs s = map Ended [OClient IDone; OFile WDone] /\
  c_acts s = [ARestore (B "p/a.go"); AGen (B "p")] /\
  c_fs s (B "p/a.go") = Some (NFile 420 (B "new")) /\ c_fs s (B "p/a.go.bkp") = Some (NFile 438 (B "old")) /\
  c_fs s (B "p/xx_lens_client_gen.go") = Some (NFile 420 (B "client")) /\
  exists g, run_actions (c_acts s) (c_fs s) g [true; true] /\ g (B "p/a.go") = Some (NFile 438 (B "old")) /\ g (B "p/xx_lens_client_gen.go") = None.
Proof.
  split; [apply ex96_orderly |]. split; [reflexivity |]. eexists. split.
  { eapply c_more; [eapply c_more; [eapply c_more; [eapply c_more; [eapply c_more; [eapply c_more; [eapply c_more; [eapply c_more; [eapply c_more; [eapply c_more; [apply c_end |] |] |] |] |] |] |] |] |] |].
    - eapply (c_step 438 _ 0 (JClient (B "p") (B "client") (B "api")) Todo); [reflexivity | reflexivity | apply t_absent, ex96_no_glob].
    - eapply (c_step 438 _ 1 (JFile (B "p/a.go") (B "new")) Todo); [reflexivity | reflexivity | apply t_missing; reflexivity].
    - eapply (c_step 438 _ 0 (JClient (B "p") (B "client") (B "api")) Absent); [reflexivity | reflexivity | apply (t_client_part _ _ _ _ _ _ (B "cl")); left; reflexivity].
    - eapply (c_step 438 _ 1 (JFile (B "p/a.go") (B "new")) NoBackup); [reflexivity | reflexivity | eapply (t_copy_part _ _ _ _ _ _ _ (B "o")); [left; reflexivity | reflexivity]].
    - eapply (c_step 438 _ 0 (JClient (B "p") (B "client") (B "api")) ClientPart); [reflexivity | reflexivity | apply t_client; right; reflexivity].
    - eapply (c_step 438 _ 1 (JFile (B "p/a.go") (B "new")) BackupPart); [reflexivity | reflexivity | eapply t_copied; [right; reflexivity | reflexivity]].
    - eapply (c_step 438 _ 0 (JClient (B "p") (B "client") (B "api")) ClientThere); [reflexivity | reflexivity | apply t_api; left; reflexivity].
    - eapply (c_step 438 _ 1 (JFile (B "p/a.go") (B "new")) BackupThere); [reflexivity | reflexivity | apply t_noted].
    - eapply (c_step 438 _ 1 (JFile (B "p/a.go") (B "new")) Ready); [reflexivity | reflexivity | apply t_text; left; reflexivity].
    - eapply (c_step 438 _ 0 (JClient (B "p") (B "client") (B "api")) ApiThere); [reflexivity | reflexivity | apply t_added]. }
  split; [reflexivity |]. split; [reflexivity |]. split; [vm_compute; reflexivity |]. split; [vm_compute; reflexivity |]. split; [vm_compute; reflexivity |].
  eexists. split.
  { cbn [c_acts c_fs app]. eapply rx_cons; [apply ra_restore; eapply rp_done; [vm_compute; reflexivity | apply rm_ok; vm_compute; discriminate | eapply rn_ok; [vm_compute; reflexivity | discriminate]] |].
    eapply rx_cons; [eapply (ra_gen _ _ _ _ true true); apply rm_ok; vm_compute; discriminate | apply rx_nil]. }
  split; vm_compute; reflexivity.
Qed.
