(** More of C38: the errors of a batch, and the points of a module's changed functions. *)
From Verif Require Import Base Maps BatchModel BatchProps.

Section BatchM.
Variable F : Type.
Variable file : F -> bytes.
Variable ident : F -> bytes.
Variable return_panic : F -> bool.
Variable inject_returns : F -> inj (list N).
Variable inject_panic : F -> inj N.
Variable inject_entry : F -> inj N.
Notation handle := (handle_batch F file ident return_panic inject_returns inject_panic).
Notation handle_m := (handle_module F file ident return_panic inject_panic inject_entry).

Lemma last_one_file (b : list F) f n : Forall (fun g => file g = n) (f :: b) -> beq (file f) (file (last (f :: b) f)) = true.
Proof.
  intros H. rewrite Forall_forall in H. assert (In (last (f :: b) f) (f :: b)) as La.
  { clear. generalize f at 2. induction b as [|x b IH] in f |- *; intros g; [left; reflexivity|]. right. exact (IH x g). }
  rewrite (H _ La), (H f (or_introl eq_refl)). apply beq_refl.
Qed.

(** A function whose injection is an error of the whole: returns that cannot be
    instrumented, or some instrumented and then no panic point.  A function that may return
    in a panic is not touched, and the panic point is not tried without a return point. *)
Definition caller_error (f : F) : Prop :=
  return_panic f = false /\
  (inject_returns f = JFail \/ exists ids, ids <> [] /\ inject_returns f = JOk ids /\ inject_panic f = JFail).

Lemma funcs_none fs : forall st pn, batch_funcs F ident return_panic inject_returns inject_panic fs st pn = None <-> Exists caller_error fs.
Proof.
  induction fs as [|f fs IH]; intros st pn; cbn [batch_funcs].
  { split; [discriminate|]. intros H. inversion H. }
  rewrite Exists_cons. assert (forall X : Prop, (X <-> Exists caller_error fs) -> ~ caller_error f -> (X <-> caller_error f \/ Exists caller_error fs)) as G by tauto.
  destruct (return_panic f) eqn:Er.
  { apply G; [apply IH|]. intros [E _]. congruence. }
  destruct (inject_returns f) as [[|i ids]| |] eqn:Ei.
  - apply G; [apply IH|]. intros [_ [E|(ids & N & E & _)]]; congruence.
  - destruct (inject_panic f) as [p| |] eqn:Ep.
    + apply G; [apply IH|]. intros [_ [E|(l & N & _ & E)]]; congruence.
    + apply G; [apply IH|]. intros [_ [E|(l & N & _ & E)]]; congruence.
    + split; [intros _|reflexivity]. left. split; [exact Er|]. right. exists (i :: ids). split; [discriminate|auto].
  - apply G; [apply IH|]. intros [_ [E|(ids & N & E & _)]]; congruence.
  - split; [intros _|reflexivity]. left. split; [exact Er|]. left. exact Ei.
Qed.

(** A batch of functions of one file fails exactly when injecting into one of them is an
    error, or the file cannot be written. *)
Theorem C38_errors_exact : forall ok b n, b <> [] -> Forall (fun f => file f = n) b ->
  handle ok b = None <-> (exists f, In f b /\ caller_error f) \/ ok n = false.
Proof.
  intros ok [|f b] n Ne One; [congruence|]. unfold handle_batch. rewrite (last_one_file b f n One).
  assert (file f = n) as -> by (inversion One; assumption). rewrite <- Exists_exists, <- (funcs_none (f :: b) [] []).
  destruct (batch_funcs _ _ _ _ _ _ _ _) as [r|].
  - destruct (ok n); split; try discriminate; auto. intros [E|E]; discriminate.
  - split; auto.
Qed.

(** Functions of several files are refused when the first and the last differ. *)
Theorem C38_mixed_refused : forall ok f b g, file f <> file g -> handle ok (f :: b ++ [g]) = None /\ handle_m ok (f :: b ++ [g]) = None.
Proof.
  intros ok f b g N. unfold handle_batch, handle_module.
  assert (last (f :: b ++ [g]) f = g) as -> by (change (f :: b ++ [g]) with ((f :: b) ++ [g]); apply last_last).
  apply beq_false in N. rewrite N. split; reflexivity.
Qed.

(** The entry point of a module's changed function, if it takes one; and then its panic
    point, unless it may return in a panic. *)
Definition entry_ids (f : F) : list N := match inject_entry f with JOk id => [id] | _ => [] end.
Definition module_panic_ids (f : F) : list N :=
  match inject_entry f with
  | JOk _ => if return_panic f then [] else match inject_panic f with JOk p => [p] | _ => [] end
  | _ => []
  end.
Definition module_error (f : F) : Prop :=
  inject_entry f = JFail \/ (exists id, inject_entry f = JOk id) /\ return_panic f = false /\ inject_panic f = JFail.

Lemma module_funcs_spec fs : forall en pn,
  (module_funcs F ident return_panic inject_panic inject_entry fs en pn = None <-> Exists module_error fs) /\
  forall r, module_funcs F ident return_panic inject_panic inject_entry fs en pn = Some r ->
    r = (en ++ flat_map (fun f => map (fun id => (id, ident f)) (entry_ids f)) fs,
         pn ++ flat_map (fun f => map (fun id => (id, ident f)) (module_panic_ids f)) fs).
Proof.
  induction fs as [|f fs IH]; intros en pn; cbn [module_funcs flat_map].
  { split; [split; [discriminate|intros H; inversion H]|]. intros r E. injection E as <-. rewrite !app_nil_r. reflexivity. }
  rewrite Exists_cons. assert (forall X : Prop, (X <-> Exists module_error fs) -> ~ module_error f -> (X <-> module_error f \/ Exists module_error fs)) as G by tauto.
  unfold entry_ids at 1, module_panic_ids at 1. destruct (inject_entry f) as [id| |] eqn:Ee.
  - destruct (return_panic f) eqn:Er.
    + split.
      * apply G; [apply IH|]. intros [E|(_ & E & _)]; congruence.
      * intros r E. apply IH in E. rewrite E. cbn [map app]. rewrite <- app_assoc. reflexivity.
    + destruct (inject_panic f) as [p| |] eqn:Ep.
      * split.
        -- apply G; [apply IH|]. intros [E|(_ & _ & E)]; congruence.
        -- intros r E. apply IH in E. rewrite E. cbn [map app]. rewrite <- !app_assoc. reflexivity.
      * split.
        -- apply G; [apply IH|]. intros [E|(_ & _ & E)]; congruence.
        -- intros r E. apply IH in E. rewrite E. cbn [map app]. rewrite <- !app_assoc. reflexivity.
      * split; [|discriminate]. split; [intros _|reflexivity]. left. right. split; [exists id; exact Ee|auto].
  - split; [|intros r E; apply IH in E; rewrite E; reflexivity].
    apply G; [apply IH|]. intros [E|((i & E) & _)]; congruence.
  - split; [|discriminate]. split; [intros _|reflexivity]. left. left. exact Ee.
Qed.

(** The changed functions of one file of a module: an error exactly when one of them
    fails or the file cannot be written; otherwise the points are the entry points and
    panic points put into the functions, with the function's identifier. *)
Theorem C38_module_points_exact : forall ok b n, b <> [] -> Forall (fun f => file f = n) b ->
  (handle_m ok b = None <-> (exists f, In f b /\ module_error f) \/ ok n = false) /\
  forall es ps, handle_m ok b = Some (es, ps) -> forall id x,
    (In (id, x) es <-> exists f, In f b /\ inject_entry f = JOk id /\ x = ident f) /\
    (In (id, x) ps <-> exists f e, In f b /\ inject_entry f = JOk e /\ return_panic f = false /\ inject_panic f = JOk id /\ x = ident f).
Proof.
  intros ok [|f b] n Ne One; [congruence|]. unfold handle_module. rewrite (last_one_file b f n One).
  assert (file f = n) as -> by (inversion One; assumption). rewrite <- Exists_exists.
  destruct (module_funcs_spec (f :: b) [] []) as [S1 S2]. rewrite <- S1.
  destruct (module_funcs _ _ _ _ _ _ _ _) as [r|].
  - split; [destruct (ok n); split; try discriminate; auto; intros [E|E]; discriminate|].
    intros es ps E. destruct (ok n); [|discriminate]. injection E as E. specialize (S2 _ eq_refl). rewrite E in S2.
    pose proof (f_equal fst S2) as S3. pose proof (f_equal snd S2) as S4. cbn [fst snd app] in S3, S4. subst es ps.
    intros id x. split; rewrite in_flat_map; split.
    + intros (g & Hg & Hi). apply in_map_iff in Hi as (i & Ei & Hi). injection Ei as <- <-. unfold entry_ids in Hi. exists g.
      destruct (inject_entry g); [destruct Hi as [<-|[]]; auto|destruct Hi|destruct Hi].
    + intros (g & Hg & Ei & ->). exists g. split; [exact Hg|]. unfold entry_ids. rewrite Ei. left. reflexivity.
    + intros (g & Hg & Hi). apply in_map_iff in Hi as (i & Ei & Hi). injection Ei as <- <-. unfold module_panic_ids in Hi. exists g.
      destruct (inject_entry g) as [e| |]; try (destruct Hi; fail). exists e. destruct (return_panic g); [destruct Hi|].
      destruct (inject_panic g); [destruct Hi as [<-|[]]; auto|destruct Hi|destruct Hi].
    + intros (g & e & Hg & Ei & Er & Ep & ->). exists g. split; [exact Hg|]. unfold module_panic_ids. rewrite Ei, Er, Ep. left. reflexivity.
  - split; [split; auto|discriminate].
Qed.
End BatchM.
Print Assumptions C38_errors_exact.
Print Assumptions C38_mixed_refused.
Print Assumptions C38_module_points_exact.

(** Unlike a caller, a changed function of a module that may return in a panic is
    instrumented, without the panic point; a caller without returns gets no panic point. *)
Definition ex38_entry (f : bytes * bytes) : inj N := if beq (snd f) (B "N") then JNormal else if beq (snd f) (B "E") then JFail else JOk (blen (snd f)).
Definition ex38_panic (f : bytes * bytes) : inj N := if beq (snd f) (B "PF") then JFail else JOk (100 + blen (snd f))%N.
Definition ex38_rp (f : bytes * bytes) : bool := has_prefix (B "R") (snd f).
Definition ex38_h := handle_module _ fst snd ex38_rp ex38_panic ex38_entry (fun _ => true).
Example C38_more_example :
  ex38_h [(B "m.go", B "Ab"); (B "m.go", B "N"); (B "m.go", B "Ret")] = Some ([(2%N, B "Ab"); (3%N, B "Ret")], [(102%N, B "Ab")]) /\
  ex38_h [(B "m.go", B "Ab"); (B "m.go", B "E")] = None /\ ex38_h [(B "m.go", B "PF")] = None /\
  handle_batch _ fst snd ex38_rp (fun _ => JOk []) (fun _ => JFail) (fun _ => true) [(B "m.go", B "F")] = Some ([], []) /\
  handle_batch _ fst snd ex38_rp (fun _ => JOk [4%N]) (fun _ => JFail) (fun _ => true) [(B "m.go", B "F")] = None.
Proof. repeat split; reflexivity. Qed.
