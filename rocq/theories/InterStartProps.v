(** C96: the goroutines that injectMonitorPoints starts are such as C96 speaks of. *)
From Coq Require Import Sorted Permutation.
From Verif Require Import Base Maps FsModel ModifierModel GoModProps ModifierProps BatchModel BatchProps RestoreMoreProps UpdateModel UpdateProofs InterModel InterSpec InterProofs InterProps.

Section Started.
Variable F : Type.
Variable file : F -> bytes.
Variable dir : bytes -> bytes.
Variables client api : bytes -> bytes.
Variable text : list F -> bytes.

Lemma started_dirs l : dirs (started F file dir client api text l) = snd (batch_run F file dir l).
Proof.
  unfold started. destruct (batch_run F file dir l) as [bs ds]. cbn [snd]. unfold dirs. rewrite flat_map_app.
  assert (E1 : forall ds, flat_map (fun j => match j with JClient d _ _ => [d] | JFile _ _ => [] end) (map (fun d => JClient d (client d) (api d)) ds) = ds).
  { clear. intros ds. induction ds as [| d ds IH]; [reflexivity |]. cbn. f_equal. exact IH. }
  assert (E2 : forall bs : list (list F), flat_map (fun j => match j with JClient d _ _ => [d] | JFile _ _ => [] end)
      (flat_map (fun b => match b with [] => [] | f :: _ => [JFile (file f) (text b)] end) bs) = []).
  { clear. intros bs. induction bs as [| [| f b] bs IH]; [reflexivity | exact IH | exact IH]. }
  rewrite E1, E2. apply app_nil_r.
Qed.
Definition first_files (bs : list (list F)) : list bytes := flat_map (fun b => match b with [] => [] | f :: _ => [file f] end) bs.
Lemma started_files l : files (started F file dir client api text l) = first_files (fst (batch_run F file dir l)).
Proof.
  unfold started. destruct (batch_run F file dir l) as [bs ds]. cbn [fst]. unfold files. rewrite flat_map_app.
  assert (E1 : forall ds, flat_map (fun j => match j with JFile p _ => [p] | JClient _ _ _ => [] end) (map (fun d => JClient d (client d) (api d)) ds) = []).
  { clear. intros ds. induction ds as [| d ds IH]; [reflexivity | exact IH]. }
  assert (E2 : forall bs : list (list F), flat_map (fun j => match j with JFile p _ => [p] | JClient _ _ _ => [] end)
      (flat_map (fun b => match b with [] => [] | f :: _ => [JFile (file f) (text b)] end) bs) = first_files bs).
  { clear. intros bs. induction bs as [| [| f b] bs IH]; [reflexivity | exact IH |]. cbn. f_equal. exact IH. }
  rewrite E1, E2. reflexivity.
Qed.
Lemma apart_cons b bs : apart F file (b :: bs) -> apart F file bs /\ forall x a c, In x bs -> In a b -> In c x -> file a <> file c.
Proof.
  intros A. split.
  - intros i j a c N Ha Hc. exact (A (S i) (S j) a c (fun E => N (eq_add_S _ _ E)) Ha Hc).
  - intros x a c Hx Ha Hc. apply (In_nth _ _ []) in Hx. destruct Hx as (i & _ & <-). exact (A 0%nat (S i) a c (O_S i) Ha Hc).
Qed.
Lemma first_files_in bs p : In p (first_files bs) -> exists b f, In b bs /\ In f b /\ p = file f.
Proof.
  intros H. apply in_flat_map in H. destruct H as ([| f b] & Hb & H); [destruct H |]. destruct H as [<- | []].
  exists (f :: b), f. repeat split; [exact Hb | left; reflexivity].
Qed.
Lemma first_files_nodup bs : apart F file bs -> NoDup (first_files bs).
Proof.
  induction bs as [| b bs IH]; intros A; [constructor |]. apply apart_cons in A. destruct A as [A H]. destruct b as [| f b]; [exact (IH A) |].
  cbn. constructor; [| exact (IH A)]. intros X. apply first_files_in in X. destruct X as (x & c & Hx & Hc & E).
  exact (H x f c Hx (or_introl eq_refl) Hc E).
Qed.
Lemma first_files_all l : by_file F file l -> forall p, In p (first_files (fst (batch_run F file dir l))) <-> exists f, In f l /\ p = file f.
Proof.
  intros By p. pose proof (C38_batches_exact F file dir l By) as H. destruct (batch_run F file dir l) as [bs ds]. destruct H as (Ec & One & _). cbn [fst]. split.
  - intros X. apply first_files_in in X. destruct X as (b & f & Hb & Hf & ->). exists f. split; [| reflexivity]. rewrite <- Ec. apply in_concat. eauto.
  - intros (f & Hf & ->). rewrite <- Ec in Hf. apply in_concat in Hf. destruct Hf as (b & Hb & Hf). apply in_flat_map. exists b. split; [exact Hb |].
    rewrite Forall_forall in One. destruct (One b Hb) as (n & Hn). rewrite Forall_forall in Hn. destruct b as [| g b]; [destruct Hf |].
    left. rewrite (Hn f Hf). apply Hn. left. reflexivity.
Qed.
End Started.

(** The goroutines of a project's and of a module's functions: every file of a function is written by exactly one, every
    directory of a function gets its client from exactly one, and unless a directory has functions of both lists they are
    as C96 asks. *)
Theorem C96_started : forall (P M : Type) (pfile : P -> bytes) (mfile : M -> bytes) dir client api ptext mtext lp lm f0,
  let js := started P pfile dir client api ptext lp ++ started M mfile dir client api mtext lm in
  let named n := (exists f, In f lp /\ n = pfile f) \/ exists f, In f lm /\ n = mfile f in
  by_file P pfile lp -> by_file M mfile lm -> (forall n, named n -> n <> []) ->
  (forall f g, In f lp -> In g lm -> dir (pfile f) <> dir (mfile g)) ->
  (forall n, named n -> (exists m c, f0 n = Some (NFile m c)) /\ regular f0 (bkp n) /\ (forall q, n <> bkp q) /\ (forall d, ~ glob_match d n)) ->
  (forall n q, named n -> glob_match (dir n) q -> regular f0 q) ->
  orderly f0 js /\ (forall n, In n (files js) <-> named n) /\ (forall d, In d (dirs js) <-> exists n, named n /\ d = dir n).
Proof.
  intros P M pfile mfile dir client api ptext mtext lp lm f0 js named Bp Bm Ne Ap Hf Hd.
  assert (Np : Forall (fun f => pfile f <> []) lp) by (apply Forall_forall; intros f Hin; apply Ne; left; eauto).
  assert (Nm : Forall (fun f => mfile f <> []) lm) by (apply Forall_forall; intros f Hin; apply Ne; right; eauto).
  assert (Ed : dirs js = snd (batch_run P pfile dir lp) ++ snd (batch_run M mfile dir lm)).
  { unfold js, dirs. rewrite flat_map_app. f_equal; apply started_dirs. }
  assert (Ef : files js = first_files P pfile (fst (batch_run P pfile dir lp)) ++ first_files M mfile (fst (batch_run M mfile dir lm))).
  { unfold js, files. rewrite flat_map_app. f_equal; apply started_files. }
  pose proof (C38_clients_exact P pfile dir lp Np) as Cp. pose proof (C38_clients_exact M mfile dir lm Nm) as Cm.
  pose proof (first_files_all P pfile dir lp Bp) as Fp. pose proof (first_files_all M mfile dir lm Bm) as Fm.
  pose proof (C38_batches_exact P pfile dir lp Bp) as Xp. pose proof (C38_batches_exact M mfile dir lm Bm) as Xm.
  destruct (batch_run P pfile dir lp) as [bp dp], (batch_run M mfile dir lm) as [bm dm]. cbn [fst snd] in *.
  destruct Cp as [NDp Cp], Cm as [NDm Cm], Xp as (_ & _ & Xp), Xm as (_ & _ & Xm).
  assert (If : forall n, In n (files js) <-> named n).
  { intros n. rewrite Ef, in_app_iff, Fp, Fm. reflexivity. }
  assert (Id : forall d, In d (dirs js) <-> exists n, named n /\ d = dir n).
  { intros d. rewrite Ed, in_app_iff, Cp, Cm. split.
    - intros [(f & Hin & ->) | (f & Hin & ->)]; eexists; (split; [| reflexivity]); [left | right]; eauto.
    - intros (n & [(f & Hin & ->) | (f & Hin & ->)] & ->); [left | right]; eauto. }
  split; [| split; assumption]. repeat split.
  - rewrite Ed. apply NoDup_app_iff. repeat split; [exact NDp | exact NDm |]. intros d H1 H2. apply Cp in H1. apply Cm in H2.
    destruct H1 as (f & H1 & ->), H2 as (g & H2 & E). exact (Ap f g H1 H2 E).
  - rewrite Ef. apply NoDup_app_iff. repeat split; [apply first_files_nodup, Xp | apply first_files_nodup, Xm |]. intros n H1 H2. apply Fp in H1. apply Fm in H2.
    destruct H1 as (f & H1 & ->), H2 as (g & H2 & E). apply (Ap f g H1 H2). rewrite E. reflexivity.
  - apply Hf, If, H.
  - apply Hf, If, H.
  - apply Hf, If, H.
  - apply Hf, If, H.
  - intros d q Hin G. apply Id in Hin. destruct Hin as (n & Hn & ->). exact (Hd n q Hn G).
Qed.
Print Assumptions C96_started.

(** A directory with a project function and a changed module function, in different files, gets two goroutines that put a
    client into it, as in [C96_twice_refuted]. *)
Theorem C96_started_shared_refuted : forall (P M : Type) (pfile : P -> bytes) (mfile : M -> bytes) dir client api ptext mtext lp lm f g,
  Forall (fun f => pfile f <> []) lp -> Forall (fun f => mfile f <> []) lm -> In f lp -> In g lm -> dir (pfile f) = dir (mfile g) ->
  exists a b c, dirs (started P pfile dir client api ptext lp ++ started M mfile dir client api mtext lm) = a ++ dir (pfile f) :: b ++ dir (pfile f) :: c.
Proof.
  intros P M pfile mfile dir client api ptext mtext lp lm f g Np Nm Hf Hg E. unfold dirs. rewrite flat_map_app.
  fold (dirs (started P pfile dir client api ptext lp)). fold (dirs (started M mfile dir client api mtext lm)). rewrite !started_dirs.
  pose proof (C38_clients_exact P pfile dir lp Np) as Cp. pose proof (C38_clients_exact M mfile dir lm Nm) as Cm.
  destruct (batch_run P pfile dir lp) as [bp dp], (batch_run M mfile dir lm) as [bm dm]. cbn [snd]. destruct Cp as [_ Cp], Cm as [_ Cm].
  assert (H1 : In (dir (pfile f)) dp) by (apply Cp; eauto). assert (H2 : In (dir (pfile f)) dm) by (apply Cm; eauto).
  apply in_split in H1. destruct H1 as (a & b & ->). apply in_split in H2. destruct H2 as (b' & c & ->).
  exists a, (b ++ b'), c. rewrite <- !app_assoc. reflexivity.
Qed.
Print Assumptions C96_started_shared_refuted.

(** Two functions of one project file and one of another, and a changed function of a module. *)
Definition ex96_lp : list (bytes * bytes) := [(B "p/a.go", B "F"); (B "p/a.go", B "G"); (B "p/b.go", B "H")].
Definition ex96_lm : list (bytes * bytes) := [(B "m/c.go", B "K")].
Definition ex96_dir (p : bytes) : bytes := firstn 1 p.
Definition ex96_all : fsys := fun q => if existsb (beq q) (map B ["p/a.go"; "p/b.go"; "m/c.go"]%string) then Some (NFile 420 (B "old")) else None.
Definition ex96_text (b : list (bytes * bytes)) : bytes := concat (map snd b).
Lemma ex96_named n : (exists f, In f ex96_lp /\ n = fst f) \/ (exists f, In f ex96_lm /\ n = fst f) -> n = B "p/a.go" \/ n = B "p/b.go" \/ n = B "m/c.go".
Proof.
  intros [(f & Hf & ->) | (f & Hf & ->)]; cbn [In ex96_lp ex96_lm] in Hf;
    repeat match goal with H : _ \/ _ |- _ => destruct H as [<- | H] end; try destruct Hf; cbn [fst]; auto.
Qed.
Example C96_started_example :
  let js := started _ fst ex96_dir (fun d => d ++ B "c") (fun d => d ++ B "a") ex96_text ex96_lp ++ started _ fst ex96_dir (fun d => d ++ B "c") (fun d => d ++ B "a") ex96_text ex96_lm in
  orderly ex96_all js /\
  js = [JClient (B "p") (B "pc") (B "pa"); JFile (B "p/a.go") (B "FG"); JFile (B "p/b.go") (B "H"); JClient (B "m") (B "mc") (B "ma"); JFile (B "m/c.go") (B "K")].
Proof.
  split; [| reflexivity]. apply C96_started.
  - repeat constructor.
  - repeat constructor.
  - intros n H. destruct (ex96_named n H) as [-> | [-> | ->]]; discriminate.
  - intros f g Hf Hg. cbn [In ex96_lp ex96_lm] in Hf, Hg. destruct Hg as [<- | []].
    repeat match goal with H : _ \/ _ |- _ => destruct H as [<- | H] end; try destruct Hf; discriminate.
  - intros n H. split; [destruct (ex96_named n H) as [-> | [-> | ->]]; do 2 eexists; reflexivity |].
    split; [destruct (ex96_named n H) as [-> | [-> | ->]]; exact I |]. split.
    + intros q E. assert (L : firstn 1 (rev n) = B "o") by (destruct (ex96_named n H) as [-> | [-> | ->]]; reflexivity).
      rewrite E in L. unfold bkp in L. rewrite rev_app_distr in L. discriminate L.
    + intros d (x & _ & E). assert (L : existsb (fun c => Ascii.eqb c "_") (firstn 7 (rev n)) = false) by (destruct (ex96_named n H) as [-> | [-> | ->]]; reflexivity).
      rewrite E, !app_assoc, (rev_app_distr _ (B "_gen.go")) in L. discriminate L.
  - intros n q H (x & _ & ->). assert (L : exists c, ex96_dir n = [c]) by (destruct (ex96_named n H) as [-> | [-> | ->]]; eexists; reflexivity).
    destruct L as (c & ->). unfold regular, ex96_all. cbn [app existsb map].
    repeat match goal with |- context [beq ?a ?b] => destruct (beq_spec a b) as [Eq |]; [exfalso; cbn in Eq; discriminate Eq |] end. exact I.
Qed.

(** With the tests and the deferred Restore after them the goroutines are a session as C83 speaks of, all of whose calls are
    as C83 asks if nothing stopped half way. *)
Theorem C96_session : forall um f0 js s os tests g oks, orderly f0 js -> cexec um js (c_start f0 js) s -> c_pcs s = map Ended os ->
  run_actions (c_acts s) (overlay (concat tests) (c_fs s)) g oks ->
  exists vs g', session um (vs ++ map STest tests) oks f0 g' /\ (forall q, g' q = g q) /\
    (forall jo, In jo (combine js os) -> In (SCall (event jo)) vs) /\
    (Forall whole os -> (forall q, In q (map fst (concat tests)) -> ~ own (fun p => In p (files js)) (fun d => In d (dirs js)) q) ->
     Forall (fine (fun p => In p (files js)) (fun d => In d (dirs js))) (vs ++ map STest tests)).
Proof.
  intros um f0 js s os tests g oks O H E Ra.
  destruct (C96_serial um f0 js s os O H E) as (order & [f pd a] & P & X & Ea & Q). cbn [ed_actions ed_fs] in *. subst a.
  destruct (actions_ext _ _ _ _ Ra (overlay (concat tests) f) (fun q => overlay_cong _ _ _ q (eq_sym (Q q)))) as (g' & Ra' & Eg).
  exists (map SCall (edits js ++ map event order)), g'. split; [| split; [intros q; symmetry; apply Eg | split]].
  - assert (S1 : forall vs e e1, eexec um e vs e1 -> forall ws e2, sexec um e1 ws e2 -> sexec um e (map SCall vs ++ ws) e2).
    { clear. induction 1 as [e | e v e1 vs e2 H _ IH]; intros ws e3 K; [exact K |]. cbn [map app]. eapply se_cons; [apply ss_call, H | apply IH, K]. }
    assert (S2 : forall ts f ws e2, sexec um (Editor (overlay (concat ts) f) pd (c_acts s)) ws e2 -> sexec um (Editor f pd (c_acts s)) (map STest ts ++ ws) e2).
    { clear. induction ts as [| t ts IH]; intros f ws e2 K; [exact K |]. cbn [map app concat] in *. eapply se_cons; [apply ss_test |]. apply IH. rewrite <- overlay_app. exact K. }
    exists (Editor g' pd []). split; [| reflexivity]. rewrite <- app_assoc. eapply S1; [exact X |]. apply S2. eapply se_cons; [apply ss_call, es_restore, Ra' | apply se_nil].
  - intros jo K. apply in_map, in_or_app. right. apply in_map. apply (Permutation_in _ (Permutation_sym P)), K.
  - intros Wh Ts. apply Forall_app. split; apply Forall_forall; intros v Hv; apply in_map_iff in Hv.
    + destruct Hv as (w & <- & Hw). apply in_app_or in Hw. destruct Hw as [Hw | Hw].
      * destruct (edit_events js w Hw) as (p & t & -> & Y). repeat split; exact Y.
      * destruct (order_events um f0 js s os order O H E P Wh w Hw) as [(d & o & -> & Y & Z) | (p & o & -> & Y & Z)]; repeat split; assumption.
    + destruct Hv as (ws & <- & Hw). intros q Hq. apply Ts. apply in_map_iff in Hq. destruct Hq as (x & <- & Hx). apply in_map, in_concat. eauto.
Qed.
Print Assumptions C96_session.

(** The goroutines of [C96_example], a test that writes a file of its own, and the restore of both files. *)
Example C96_session_example : exists s g, orderly ex96_fs ex96_jobs /\ cexec 438 ex96_jobs (c_start ex96_fs ex96_jobs) s /\
  c_pcs s = map Ended [OClient IDone; OFile WDone] /\ Forall whole [OClient IDone; OFile WDone] /\
  run_actions (c_acts s) (overlay (concat [[(B "p/out.txt", Some (NFile 420 (B "x")))]]) (c_fs s)) g [true; true] /\
  (forall q, In q (map fst (concat [[(B "p/out.txt", Some (NFile 420 (B "x")))]])) -> ~ own (fun p => In p (files ex96_jobs)) (fun d => In d (dirs ex96_jobs)) q) /\
  g (B "p/a.go") = Some (NFile 438 (B "old")) /\ g (B "p/out.txt") = Some (NFile 420 (B "x")).
Proof.
  destruct C96_example as (O & _ & s & H & E & Ea & E1 & E2 & E3 & _). exists s.
  destruct (proj1 (C96_left 438 ex96_fs ex96_jobs s _ O H E) (B "p") (B "client") (B "api") (or_introl eq_refl)) as (_ & m & m' & _ & E4).
  change (api_file (B "p")) with (B "p/xx_lens_api_gen.go") in E4.
  set (f := overlay (concat [[(B "p/out.txt", Some (NFile 420 (B "x")))]]) (c_fs s)).
  assert (F : forall q, beq q (B "p/out.txt") = false -> f q = c_fs s q) by (intros q Hq; unfold f, overlay; cbn [concat app fold_left fst snd]; unfold upd; rewrite Hq; reflexivity).
  rewrite <- F in E1, E2, E3, E4 by reflexivity.
  assert (F0 : f (B "p/out.txt") = Some (NFile 420 (B "x"))) by reflexivity.
  eexists. split; [exact O |]. split; [exact H |]. split; [exact E |]. split; [repeat constructor; discriminate |]. split.
  { rewrite Ea. clear F0 F. revert E1 E2 E3 E4. generalize f. clear f. intros f E1 E2 E3 E4.
    eapply rx_cons; [apply ra_restore; eapply rp_done;
      [unfold file_exists, resolve; rewrite E1, E1; reflexivity | apply rm_ok; rewrite E1; discriminate |
       eapply rn_ok; [unfold upd; exact E2 | discriminate]] |].
    eapply rx_cons; [eapply (ra_gen _ _ _ _ true true); apply rm_ok; unfold upd;
      [change (f (B "p/xx_lens_client_gen.go") <> None); rewrite E3 | change (f (B "p/xx_lens_api_gen.go") <> None); rewrite E4]; discriminate | apply rx_nil]. }
  split; [| split; [reflexivity | exact F0]].
  intros q [<- | []] [[X | []] | [(p & [<- | []] & X) | (d & [<- | []] & [X | X])]]; discriminate X.
Qed.
