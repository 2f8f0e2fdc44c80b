(** C66: points of a whole function. *)
From Verif Require Import Base PanicModel PanicProofs.

(** A panic point changes no run of the function, whatever its body does and whatever it
    defers: the instrumented function does exactly what the original does, is left the same
    way, and in addition sends one message, after everything else, with the value of the
    panic, exactly when it is left by a panic.  Where nil panics exist, the function must
    not be left by one. *)
Theorem C66_panic_point : forall U W (body : list (stmt U W)) id ctx u u' ms rec s,
  (forall ctx u u' m rec s, func body ctx u u' m rec s -> panicking s <> Some PNil) ->
  (func (panic_point id body) ctx u u' ms rec s <->
   exists ms0, func body ctx u u' ms0 rec s /\
     ms = ms0 ++ match panicking s with Some v => [MPanic id v] | None => [] end).
Proof.
  intros U W body id ctx u u' ms rec s NN. unfold panic_point. rewrite func_defer. split.
  - intros (u1 & m1 & s1 & m2 & r & sd & Hf & (-> & Hd) & -> & ->). pose proof (NN _ _ _ _ _ _ Hf) as N1. exists m1.
    destruct (panicking s1) as [[|w]|] eqn:E; [congruence| |].
    + destruct Hd as (-> & [= -> ->]). rewrite (after_again _ _ _ E), E. auto.
    + destruct Hd as (-> & -> & ->). rewrite after_same, E. auto.
  - intros (m1 & Hf & ->). pose proof (NN _ _ _ _ _ _ Hf) as N1.
    destruct (panicking s) as [[|w]|] eqn:E; [congruence| |].
    + exists u', m1, s, [MPanic id (PVal w)], true, (ST false (Some (PVal w))). split; [exact Hf|]. split; [|split; [|reflexivity]].
      * rewrite E. split; [reflexivity|]. split; reflexivity.
      * symmetry. apply after_again. exact E.
    + exists u', m1, s, [], false, (ST false None). split; [exact Hf|]. split; [|split; [|reflexivity]].
      * rewrite E. repeat split.
      * symmetry. apply after_same.
Qed.
Print Assumptions C66_panic_point.

(** With a nil panic the point stops it, and says nothing: the function returns. *)
Theorem C66_nil_panic_swallowed_refuted : exists (body : list (stmt unit nat)),
  (forall u' ms rec s, func body None tt u' ms rec s -> s = ST false (Some PNil)) /\
  (exists u' ms rec s, func body None tt u' ms rec s) /\
  (forall id u' ms rec s, func (panic_point id body) None tt u' ms rec s <->
     u' = tt /\ ms = [] /\ rec = false /\ s = ST false None).
Proof.
  set (p := (fun _ (u u' : unit) m rec ds c => m = [] /\ rec = false /\ ds = [] /\ c = CAbrupt (ST false (Some PNil))) : stmt unit nat).
  assert (forall u' ms rec s, func [p] None tt u' ms rec s <-> ms = [] /\ rec = false /\ s = ST false (Some PNil)) as Hp.
  { intros [] ms rec s. split.
    - intros (u1 & m1 & m2 & ds & c & He & Hu & ->).
      inversion He as [|? ? ? ? ? ? ? ? ? ? ? ? ? Hs|? ? ? ? ? ? ? ? ? Hs Hc]; subst; destruct Hs as (-> & -> & -> & Ec); [discriminate|].
      subst c. inversion Hu; subst. auto.
    - intros (-> & -> & ->). exists tt, [], [], [], (CAbrupt (ST false (Some PNil))). split; [|split; [constructor|reflexivity]].
      apply ex_stop; [repeat split|discriminate]. }
  exists [p]. split; [intros u' ms rec s H; apply Hp in H; tauto|]. split; [exists tt, [], false, (ST false (Some PNil)); apply Hp; auto|].
  intros id [] ms rec s. unfold panic_point. rewrite func_defer. split.
  - intros (u1 & m1 & s1 & m2 & r & sd & Hf & (Eu & Hd) & -> & ->). destruct u1. apply Hp in Hf as (-> & -> & ->). cbn in Hd.
    destruct Hd as (-> & -> & ->). auto.
  - intros (_ & -> & -> & ->). exists tt, [], (ST false (Some PNil)), [], true, (ST false None). split; [apply Hp; auto|]. repeat split.
Qed.
Print Assumptions C66_nil_panic_swallowed_refuted.

(** An entry point sends one message before anything else and changes nothing. *)
Theorem C66_entry_point : forall U W (body : list (stmt U W)) id ctx u u' ms rec s,
  func (entry_point id body) ctx u u' ms rec s <->
  exists ms0, func body ctx u u' ms0 rec s /\ ms = MPoint id :: ms0.
Proof.
  intros U W body id ctx u u' ms rec s. unfold func, entry_point. split.
  - intros (u1 & m1 & m2 & ds & c & He & Hu & ->). inversion He as [|? ? ? ? v ? n1 n2 r r' d1 d2 ? Hs He'|? ? ? ? ? ? ? ? ? Hs Hc]; subst.
    + destruct Hs as (r1 & s1 & (-> & _ & [= -> ->]) & -> & -> & _). exists (n2 ++ m2). split; [|reflexivity].
      exists u1, n2, m2, d2, c. rewrite app_nil_r in Hu. auto.
    + destruct Hs as (r1 & s1 & (_ & _ & [= _ ->]) & _ & _ & ->). cbn in Hc. congruence.
  - intros (m & (u1 & m1 & m2 & ds & c & He & Hu & ->) & ->). exists u1, (MPoint id :: m1), m2, ds, c. split; [|auto].
    rewrite <- (app_nil_r ds). change (MPoint id :: m1) with ([MPoint id] ++ m1). change rec with (false || rec)%bool.
    apply (ex_next U W _ _ _ _ u); [|exact He]. exists false, (ST false None). repeat split.
Qed.
Print Assumptions C66_entry_point.

(** A finish point sends one message after everything else, however the function is left,
    and changes nothing. *)
Theorem C66_finish_point : forall U W (body : list (stmt U W)) id ctx u u' ms rec s,
  func (finish_point id body) ctx u u' ms rec s <->
  exists ms0, func body ctx u u' ms0 rec s /\ ms = ms0 ++ [MPoint id].
Proof.
  intros U W body id ctx u u' ms rec s. unfold finish_point. rewrite func_defer. split.
  - intros (u1 & m1 & s1 & m2 & r & sd & Hf & (-> & -> & [= -> ->]) & -> & ->). rewrite after_same. eauto.
  - intros (m & Hf & ->). exists u', m, s, [MPoint id], false, (ST false None). split; [exact Hf|]. split; [repeat split|].
    split; [symmetry; apply after_same|reflexivity].
Qed.
Print Assumptions C66_finish_point.

(** What the engine does to a module's function, the entry point first and then the panic
    point (lens/astexec.go:409-429): the entry message is first, the panic message last. *)
Theorem C66_module_points : forall U W (body : list (stmt U W)) entry panic ctx u u' ms rec s,
  (forall ctx u u' m rec s, func body ctx u u' m rec s -> panicking s <> Some PNil) ->
  (func (panic_point panic (entry_point entry body)) ctx u u' ms rec s <->
   exists ms0, func body ctx u u' ms0 rec s /\
     ms = MPoint entry :: ms0 ++ match panicking s with Some v => [MPanic panic v] | None => [] end).
Proof.
  intros U W body entry panic ctx u u' ms rec s NN. rewrite C66_panic_point.
  - split.
    + intros (m & Hf & ->). apply C66_entry_point in Hf as (m0 & Hf & ->). eauto.
    + intros (m & Hf & ->). exists (MPoint entry :: m). split; [apply C66_entry_point; eauto|reflexivity].
  - intros c v v' m r t H. apply C66_entry_point in H as (m0 & H & _). exact (NN _ _ _ _ _ _ H).
Qed.
Print Assumptions C66_module_points.

(** The callers do not notice either: take any body with a place for the function, whose
    statements cannot see messages; with the instrumented function it has exactly the runs
    it has with the original, up to messages.  Calling and deferring it are such
    statements. *)
Theorem C66_callers_unchanged : forall U W (body : list (stmt U W)) entry panic (K : list (fsem U W -> stmt U W)),
  (forall ctx u u' m rec s, func body ctx u u' m rec s -> panicking s <> Some PNil) ->
  (forall k, In k K -> forall f g, fsim f g -> ssim (k f) (k g)) ->
  forall ctx u u' rec s,
  (exists ms, func (map (fun k => k (func (panic_point panic (entry_point entry body)))) K) ctx u u' ms rec s) <->
  (exists ms, func (map (fun k => k (func body)) K) ctx u u' ms rec s).
Proof.
  intros U W body entry panic K NN HK.
  assert (fsim (func (panic_point panic (entry_point entry body))) (func body)) as S1.
  { intros ctx u u' rec s (m & H). apply C66_module_points in H as (m0 & H & _); eauto. }
  assert (fsim (func body) (func (panic_point panic (entry_point entry body)))) as S2.
  { intros ctx u u' rec s (m & H). eexists. apply C66_module_points; eauto. }
  assert (forall f g : fsem U W, fsim f g -> Forall2 ssim (map (fun k => k f) K) (map (fun k => k g) K)) as F.
  { intros f g S. clear S1 S2. induction K as [|k K IH]; constructor; [apply HK; [left; reflexivity|exact S]|].
    apply IH. intros k' Hk. apply HK. right. exact Hk. }
  intros ctx u u' rec s. split; intros H; eapply func_sim; try exact H; apply F; assumption.
Qed.
Print Assumptions C66_callers_unchanged.
(** Calling and deferring the function are such statements, and so is any that ignores it and
    does not look at messages. *)
Theorem C66_contexts : forall U W,
  (forall f g : fsem U W, fsim f g -> ssim (call_stmt f) (call_stmt g)) /\
  (forall f g : fsem U W, fsim f g -> ssim (defer_stmt f) (defer_stmt g)) /\
  (forall (s : stmt U W) (f g : fsem U W), fsim f g -> ssim s s).
Proof.
  intros U W. split; [exact call_sim|]. split; [exact defer_sim|]. intros s f g _ ctx u u' rec ds c (m & H). exists m, ds.
  split; [exact H|]. clear. induction ds; constructor; [intros ? ? ? ? ? X; exact X|assumption].
Qed.
Print Assumptions C66_contexts.

(** Where a point goes: into the last function of that name, nothing else changes, and it
    has the id that was drawn; otherwise the file is as it was.  The errors are exactly: no
    function of that name, no body, no id left. *)
Theorem C66_injected_exactly : forall U W (f : list (fdecl U W)) ident next modify,
  match inject_point f ident next modify with
  | IDone id f' => next = Some id /\ exists k d b,
      nth_error f k = Some d /\ fd_ident d = ident /\ fd_body d = Some b /\
      (forall j x, (k < j)%nat -> nth_error f j = Some x -> fd_ident x <> ident) /\
      length f' = length f /\
      (forall j, nth_error f' j = if Nat.eqb j k then Some (FD ident (Some (modify id b))) else nth_error f j)
  | INotFound => forall d, In d f -> fd_ident d <> ident
  | INoBody => exists k d, nth_error f k = Some d /\ fd_ident d = ident /\ fd_body d = None /\
      (forall j x, (k < j)%nat -> nth_error f j = Some x -> fd_ident x <> ident)
  | INoId => next = None /\ exists d, In d f /\ fd_ident d = ident /\ fd_body d <> None
  end.
Proof.
  intros U W f ident next modify. unfold inject_point. destruct (find_decl f ident) as [k|] eqn:Ef; [|apply find_none; exact Ef].
  apply find_some in Ef as ((d & Ed & Id) & L). rewrite Ed. destruct d as [i [b|]]; cbn [fd_ident] in Id; subst i.
  - destruct next as [id|].
    + split; [reflexivity|]. exists k, (FD ident (Some b)), b. repeat split; auto; [apply set_body_len|].
      intros j. rewrite (set_body_nth f k _ j _ Ed). reflexivity.
    + split; [reflexivity|]. exists (FD ident (Some b)). split; [eapply nth_error_In; exact Ed|]. split; [reflexivity|discriminate].
  - exists k, (FD ident None). repeat split; auto.
Qed.
Print Assumptions C66_injected_exactly.

(** So a function whose name is not the only one in the file gets no point of its own: of
    two init functions the last one gets both. *)
Theorem C66_equal_names_refuted : exists (f : list (fdecl unit nat)) ident a b,
  f = [FD ident (Some a); FD ident (Some b)] /\
  forall id1 id2, exists f1,
    inject_point f ident (Some id1) panic_point = IDone id1 f1 /\
    inject_point f1 ident (Some id2) panic_point =
      IDone id2 [FD ident (Some a); FD ident (Some (panic_point id2 (panic_point id1 b)))].
Proof.
  exists [FD (B "p:init") (Some []); FD (B "p:init") (Some [])], (B "p:init"), [], []. split; [reflexivity|].
  intros id1 id2. eexists. split; reflexivity.
Qed.
Print Assumptions C66_equal_names_refuted.

(** A function that writes 1 and panics with 7, called by another that defers a function
    writing 2: both with panic points, the messages come from the inside out, with the same
    value, after the deferred function; a caller that recovers sends none. *)
Definition ex_write (n : nat) : fsem (list nat) nat := fun _ u u' m rec s =>
  u' = u ++ [n] /\ m = [] /\ rec = false /\ s = ST false None.
Definition ex_panic : stmt (list nat) nat := fun _ u u' m rec ds c =>
  u' = u /\ m = [] /\ rec = false /\ ds = [] /\ c = CAbrupt (ST false (Some (PVal 7%nat))).
Definition ex_recover : fsem (list nat) nat := fun ctx u u' m rec s =>
  u' = u ++ [3%nat] /\ m = [] /\ rec = (match ctx with Some _ => true | None => false end) /\ s = ST false None.
Definition ex_inner := [call_stmt (ex_write 1); ex_panic].
Definition ex_outer (f : fsem (list nat) nat) := [defer_stmt (ex_write 2); call_stmt f].
Definition ex_top (f : fsem (list nat) nat) := [defer_stmt ex_recover; call_stmt f].

Lemma ex_inner_run : func ex_inner None [] [1%nat] [] false (ST false (Some (PVal 7%nat))).
Proof.
  exists [1%nat], [], [], [], (CAbrupt (ST false (Some (PVal 7%nat)))). split; [|split; [constructor|reflexivity]].
  apply (ex_next _ _ (call_stmt (ex_write 1)) [ex_panic] None [] [1%nat] [1%nat] [] [] false false [] []).
  - exists false, (ST false None). repeat split.
  - apply ex_stop; [repeat split|discriminate].
Qed.
Example C66_example :
  exists f, f = func (panic_point 1 ex_inner) /\
  func (panic_point 2 (ex_outer f)) None [] [1; 2]%nat [MPanic 1 (PVal 7%nat); MPanic 2 (PVal 7%nat)] false (ST false (Some (PVal 7%nat))) /\
  func (panic_point 2 (ex_top f)) None [] [1; 3]%nat [MPanic 1 (PVal 7%nat)] false (ST false None).
Proof.
  eexists. split; [reflexivity|]. set (f := func (panic_point 1 ex_inner)).
  assert (f None [] [1%nat] [MPanic 1 (PVal 7%nat)] false (ST false (Some (PVal 7%nat)))) as Hf.
  { unfold f, panic_point. apply func_defer. exists [1%nat], [], (ST false (Some (PVal 7%nat))), [MPanic 1 (PVal 7%nat)], true, (ST false (Some (PVal 7%nat))).
    split; [exact ex_inner_run|]. repeat split. }
  assert (func [call_stmt f] None [] [1%nat] [MPanic 1 (PVal 7%nat)] false (ST false (Some (PVal 7%nat)))) as Hc.
  { exists [1%nat], [MPanic 1 (PVal 7%nat)], [], [], (CAbrupt (ST false (Some (PVal 7%nat)))). split; [|split; [constructor|reflexivity]].
    apply ex_stop; [|discriminate]. exists false, (ST false (Some (PVal 7%nat))). split; [exact Hf|]. repeat split. }
  split.
  - apply func_defer. exists [1; 2]%nat, [MPanic 1 (PVal 7%nat)], (ST false (Some (PVal 7%nat))), [MPanic 2 (PVal 7%nat)], true, (ST false (Some (PVal 7%nat))).
    split; [|repeat split]. apply func_defer. exists [1%nat], [MPanic 1 (PVal 7%nat)], (ST false (Some (PVal 7%nat))), [], false, (ST false None).
    split; [exact Hc|]. repeat split.
  - apply func_defer. exists [1; 3]%nat, [MPanic 1 (PVal 7%nat)], (ST false None), [], false, (ST false None).
    split; [|repeat split]. apply func_defer. exists [1%nat], [MPanic 1 (PVal 7%nat)], (ST false (Some (PVal 7%nat))), [], true, (ST false None).
    split; [exact Hc|]. repeat split.
Qed.
(** The condition on nil panics holds of it. *)
Example C66_example_no_nil : forall ctx u u' m rec s, func ex_inner ctx u u' m rec s -> panicking s <> Some PNil.
Proof.
  intros ctx u u' m rec s (u1 & m1 & m2 & ds & c & He & Hu & _).
  inversion He as [|? ? ? ? ? ? ? ? ? ? ? ? ? H1 H2|? ? ? ? ? ? ? ? ? H1 Hc]; subst.
  - destruct H1 as (? & ? & _ & _ & -> & _). inversion H2 as [|? ? ? ? ? ? ? ? ? ? ? ? ? H3 H4|? ? ? ? ? ? ? ? ? H3 Hc]; subst.
    + destruct H3 as (_ & _ & _ & _ & E). discriminate.
    + destruct H3 as (_ & _ & _ & -> & ->). inversion Hu; subst. discriminate.
  - destruct H1 as (r & s1 & (_ & _ & _ & ->) & _ & _ & ->). cbn in Hc. congruence.
Qed.
Example C66_example_files : forall a b : list (stmt unit nat),
  inject_point [FD (B "p:F") (Some a); FD (B "p:T.F") (Some b); FD (B "p:asm") None] (B "p:F") (Some 5%N) entry_point
    = IDone 5%N [FD (B "p:F") (Some (entry_point 5 a)); FD (B "p:T.F") (Some b); FD (B "p:asm") None] /\
  inject_point [FD (B "p:F") (Some a); FD (B "p:asm") None] (B "p:asm") (Some 5%N) entry_point = INoBody /\
  inject_point [FD (B "p:F") (Some a)] (B "p:G") (Some 5%N) entry_point = INotFound /\
  inject_point [FD (B "p:F") (Some a)] (B "p:F") None entry_point = INoId.
Proof. repeat split. Qed.

(** A deferred function that calls recover twice gets the panic once: the second call answers nil. *)
Definition ex_asks : stmt (list nat) nat := fun ctx u u' m r ds c =>
  u' = u ++ [match ctx with Some _ => 1%nat | None => 0%nat end] /\ m = [] /\ r = (match ctx with Some _ => true | None => false end) /\ ds = [] /\ c = CNext.
Example C66_example_recovers_once : forall v u' m r ds c, exec [ex_asks; ex_asks] (Some v) [] u' m r ds c ->
  u' = [1; 0]%nat /\ r = true.
Proof.
  intros v u' m r ds c H. inversion H as [| ? ? ? ? ? ? ? ? ? ? ? ? ? H1 H2 | ? ? ? ? ? ? ? ? ? H1 Hc]; subst.
  - destruct H1 as (-> & _ & -> & _ & _). inversion H2 as [| ? ? ? ? ? ? ? ? ? ? ? ? ? H3 H4 | ? ? ? ? ? ? ? ? ? H3 Hc]; subst.
    + destruct H3 as (-> & _ & -> & _ & _). inversion H4; subst. split; reflexivity.
    + destruct H3 as (_ & _ & _ & _ & ->). congruence.
  - destruct H1 as (_ & _ & _ & _ & ->). congruence.
Qed.
