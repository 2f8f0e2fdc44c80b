(** C97: the locks of the editor.  Goroutines editing, committing and cleaning up never block each other for good,
    and no edit is lost as long as Commit is not called while files are edited. *)
From Verif Require Import Base Maps EditLockModel EditLockSpec EditLockProofs.

Section C97.
Context {E : Type}.
Variable stripe : bytes -> nat.
Variable cpus : nat.
Notation step := (@step E stripe cpus).
Notation steps := (@steps E stripe cpus).

Lemma not_over (s : @state E) : over s \/ exists t, In t (threads s) /\ ended t = false.
Proof.
  destruct (search (fun t => negb (ended t)) (threads s)) as [(a & t & b & -> & H) | H].
  - right. exists t. split; [apply in_or_app; right; left; reflexivity | destruct (ended t); [discriminate H | reflexivity]].
  - left. intros t Ht. specialize (H t Ht). destruct t as [c cs]. destruct c; try discriminate H. destruct cs; [reflexivity | discriminate H].
Qed.

(** Whatever the goroutines are doing, one of them can go on, unless all have finished: there is no deadlock. *)
Theorem C97_no_deadlock (s : @state E) : 0 < cpus -> over s \/ exists s', step s s'.
Proof. intros Hc. destruct (not_over s) as [O | N]; [left; exact O | right; exact (progress stripe cpus s Hc N)]. Qed.

(** There is no endless run, and every run can be carried on until all calls have returned. *)
Theorem C97_ends (s : @state E) : Acc (fun s' s => step s s') s /\ (0 < cpus -> exists s', steps s s' /\ over s').
Proof.
  pose proof (terminates stripe cpus s) as A. split; [exact A |]. intros Hc. induction A as [s _ IH].
  destruct (C97_no_deadlock s Hc) as [O | (s1 & H)]; [exists s; split; [constructor | exact O] |].
  destruct (IH s1 H) as (s' & H' & O). exists s'. split; [| exact O]. clear - H H'. induction H' as [s1 | s1 s2 s3 _ IH H3]; [exact (st_more _ _ _ _ _ (st_none _ _ _) H) | exact (st_more _ _ _ _ _ (IH H) H3)].
Qed.

(** Two goroutines are never inside the same lock. *)
Theorem C97_exclusive d0 calls s : steps (start d0 calls) s -> forall i j ti tj l, i <> j ->
  nth_error (threads s) i = Some ti -> nth_error (threads s) j = Some tj -> holds stripe (fst ti) l = true -> holds stripe (fst tj) l = false.
Proof.
  intros H. apply (steps_inv stripe cpus (fun s => exclusive stripe (threads s)) (exclusive_step stripe cpus) _ _ H).
  intros i j ti tj l Nij Hi Hj Hl. cbn [start threads] in Hi. apply nth_error_In in Hi. apply in_map_iff in Hi. destruct Hi as (cs & <- & _). destruct l; discriminate Hl.
Qed.

Lemma made_same (s : @state E) p : made_at (shared s) p = made_to s p.
Proof. unfold made_at, made_to. induction (made (shared s)) as [| x l IH]; [reflexivity |]. cbn. destruct (beq p (fst (snd x))); cbn; [f_equal |]; exact IH. Qed.

(** Without Commit: when all calls have returned, every file writing which has not failed is what it was followed by all edits
    made to it, and each goroutine has made its edits, all of them, once, and in its order. *)
Theorem C97_nothing_lost d0 calls s : steps (start d0 calls) s -> over s -> ~ In CCommit (concat calls) ->
  (forall p, failed (shared s) p = false -> text s p = d0 p ++ made_to s p) /\ (forall i cs, nth_error calls i = Some cs -> made_by s i = edits_of cs).
Proof.
  intros H O N. pose proof (steps_inv stripe cpus _ (good_step stripe cpus d0) _ _ H (good_start stripe d0 calls N)) as (_ & _ & L).
  pose proof (steps_inv stripe cpus _ (accounted_step stripe cpus calls) _ _ H (accounted_start d0 calls)) as [Al A]. split.
  - intros p Fl. destruct (L p) as (L1 & _ & L3 & _). unfold text. rewrite <- made_same. destruct (loaded (shared s) p) as [r |] eqn:El; [exact (L1 r eq_refl Fl) |].
    apply L3; [reflexivity | | exact Fl]. intros (j & c & cs & Hj & Hw). specialize (O _ (nth_error_In _ _ Hj)). injection O as -> ->. apply writing_path in Hw. discriminate Hw.
  - intros i cs Hi. destruct (nth_error (threads s) i) as [[c cs1] |] eqn:Et.
    + destruct (A i c cs1 Et) as (cs0 & H0 & H1). specialize (O _ (nth_error_In _ _ Et)). injection O as -> ->. rewrite Hi in H0. injection H0 as <-. rewrite H1. cbn. rewrite app_nil_r. reflexivity.
    + apply nth_error_None in Et. assert (nth_error calls i <> None) by congruence. apply nth_error_Some in H0. rewrite Al in Et. exfalso. apply (Nat.lt_irrefl i). eapply Nat.lt_le_trans; eassumption.
Qed.

(** When moreover every edit is followed by a CommitFile of its file in the same goroutine, all of this is on disk. *)
Theorem C97_on_disk d0 calls s : steps (start d0 calls) s -> over s -> ~ In CCommit (concat calls) -> Forall followed calls ->
  forall p, loaded (shared s) p = None /\ (failed (shared s) p = false -> disk (shared s) p = d0 p ++ made_to s p).
Proof.
  intros H O N Fo p. destruct (C97_nothing_lost d0 calls s H O N) as [T _]. specialize (T p).
  pose proof (steps_inv stripe cpus (fun s => good stripe d0 s /\ promised s) (fun s s' K G => conj (good_step stripe cpus d0 s s' K (proj1 G)) (promised_step stripe cpus d0 s s' K (proj1 G) (proj2 G))) _ _ H
    (conj (good_start stripe d0 calls N) (promised_start d0 calls Fo))) as [_ [_ P]].
  assert (Hn : loaded (shared s) p = None).
  { destruct (loaded (shared s) p) as [r |] eqn:El; [| reflexivity]. destruct (P p ltac:(congruence)) as (j & t & Hj & Ht). rewrite (O t (nth_error_In _ _ Hj)) in Ht. destruct Ht as [[] | [Y | Y]]; discriminate Y. }
  split; [exact Hn |]. unfold text in T. rewrite Hn in T. exact T.
Qed.
End C97.
Print Assumptions C97_no_deadlock.
Print Assumptions C97_ends.
Print Assumptions C97_exclusive.
Print Assumptions C97_nothing_lost.
Print Assumptions C97_on_disk.

(** ** Two goroutines *)
Section Two.
Context {E : Type}.
Variable stripe : bytes -> nat.
Variable cpus : nat.
Lemma first_step (s1 s2 s3 : @state E) : step stripe cpus s1 s2 -> steps stripe cpus s2 s3 -> steps stripe cpus s1 s3.
Proof. intros H H'. induction H' as [s | s s' s'' _ IH H3]; [exact (st_more _ _ _ _ _ (st_none _ _ _) H) | exact (st_more _ _ _ _ _ (IH H) H3)]. Qed.
Lemma two0 c cs t d c' cs' d' (s : @state E) : tstep stripe cpus (free stripe [(c, cs); t]) 0 c cs d c' cs' d' -> steps stripe cpus (State [(c', cs'); t] d') s -> steps stripe cpus (State [(c, cs); t] d) s.
Proof. intros H. apply first_step, (st stripe cpus [] c cs [t] d c' cs' d' H). Qed.
Lemma two1 c cs t d c' cs' d' (s : @state E) : tstep stripe cpus (free stripe [t; (c, cs)]) 1 c cs d c' cs' d' -> steps stripe cpus (State [t; (c', cs')] d') s -> steps stripe cpus (State [t; (c, cs)] d) s.
Proof. intros H. apply first_step, (st stripe cpus [t] c cs [] d c' cs' d' H). Qed.
End Two.
Ltac is_free := let t := fresh in let H := fresh in intros t H; repeat (destruct H as [<- | H]; [reflexivity |]); destruct H.

(** Commit takes no file lock (lens/asttweak.go:181-205).  A goroutine that has got a parsed file and edits it while Commit
    writes and forgets it edits something no one writes: the edit is in no file, and nothing fails. *)
Theorem C97_commit_loses_refuted (stripe : bytes -> nat) (cpus : nat) : 0 < cpus ->
  exists s : @state nat, steps stripe cpus (start (fun _ => []) [[CEdit (B "a.go") 1; CEdit (B "a.go") 2; CCommitFile (B "a.go")]; [CCommit]]) s /\
    over s /\ (forall p, failed (shared s) p = false) /\ made_to s (B "a.go") = [1; 2] /\ text s (B "a.go") = [1] /\ disk (shared s) (B "a.go") = [1].
Proof.
  intros Hc. generalize (B "a.go"). intros p. eexists. split.
  - unfold start. cbn [map].
    eapply two0; [apply t_edit; is_free |]. eapply two0; [apply t_parse; reflexivity |]. eapply two0; [apply t_wait; is_free |]. eapply two0; [apply t_reg |].
    eapply two0; [apply t_made |]. eapply two0; [apply t_end |]. eapply two0; [apply t_edit; is_free |].
    eapply two0; [apply t_have; cbn; unfold at_path; rewrite beq_refl; reflexivity |].
    eapply two1; [apply (t_all _ _ _ _ [(p, 0)]); [is_free | cbn; tauto | reflexivity] |].
    eapply two1; [apply t_go; exact Hc |].
    eapply two1; [apply (t_sub _ _ _ _ [] [] p 0 SWant SText []), ss_there |].
    eapply two1; [apply (t_sub _ _ _ _ [] [] p 0 SText (SEnd true) []), ss_text |].
    eapply two1; [apply t_clear; repeat constructor |]. eapply two1; [apply t_over |].
    eapply two0; [apply t_made |]. eapply two0; [apply t_end |].
    eapply two0; [apply t_file; is_free |]. eapply two0; [apply t_commit; is_free |]. eapply two0; [apply t_none; reflexivity |]. eapply two0; [apply t_out |]. eapply two0; [apply t_last |].
    apply st_none.
  - unfold over, made_to, text. cbn. unfold at_path. repeat (rewrite beq_refl; cbn).
    split; [intros t [<- | [<- | []]]; reflexivity | auto].
Qed.
Print Assumptions C97_commit_loses_refuted.

(** Two goroutines editing one file: a run in which the second waits for the first, and what is on disk at its end. *)
Example C97_example (stripe : bytes -> nat) (cpus : nat) : 
  exists s : @state nat, steps stripe cpus (start (fun _ => [0]) [[CEdit (B "a.go") 1; CEdit (B "a.go") 2; CCommitFile (B "a.go")]; [CEdit (B "a.go") 3; CCommitFile (B "a.go"); CClean]]) s /\
    over s /\ (forall p, failed (shared s) p = false) /\ made_to s (B "a.go") = [1; 3; 2] /\ made_by s 0 = [(B "a.go", 1); (B "a.go", 2)] /\ disk (shared s) (B "a.go") = [0; 1; 3; 2].
Proof.
  generalize (B "a.go"). intros p. eexists. split.
  - unfold start. cbn [map].
    eapply two0; [apply t_edit; is_free |]. eapply two0; [apply t_parse; reflexivity |]. eapply two0; [apply t_wait; is_free |]. eapply two0; [apply t_reg |].
    eapply two0; [apply t_made |]. eapply two0; [apply t_end |].
    eapply two1; [apply t_edit; is_free |]. eapply two1; [apply t_have; cbn; unfold at_path; rewrite beq_refl; reflexivity |]. eapply two1; [apply t_made |]. eapply two1; [apply t_end |].
    eapply two1; [apply t_file; is_free |]. eapply two1; [apply t_commit; is_free |]. eapply two1; [apply t_take; cbn; rewrite beq_refl; reflexivity |].
    eapply two1; [apply t_new |]. eapply two1; [apply t_note; is_free |]. eapply two1; [apply t_noted |]. eapply two1; [apply t_text |]. eapply two1; [apply t_out |]. eapply two1; [apply t_last |].
    eapply two1; [apply t_clean; is_free |].
    eapply two0; [apply t_edit; is_free |]. eapply two0; [apply t_parse; cbn; unfold at_path; rewrite beq_refl; reflexivity |]. eapply two0; [apply t_wait; is_free |]. eapply two0; [apply t_reg |].
    eapply two0; [apply t_made |]. eapply two0; [apply t_end |].
    eapply two0; [apply t_file; is_free |]. eapply two0; [apply t_commit; is_free |]. eapply two0; [apply t_take; cbn; rewrite mget_mset_same; reflexivity |].
    eapply two0; [apply t_there |]. eapply two0; [apply t_text |]. eapply two0; [apply t_out |]. eapply two0; [apply t_last |].
    eapply two1; [apply t_cleaned |].
    apply st_none.
  - unfold over, made_to, made_by, text. cbn. unfold at_path. repeat (rewrite beq_refl; cbn).
    split; [intros t [<- | [<- | []]]; reflexivity | auto].
Qed.
(** It has no deadlock on the way and meets the conditions above. *)
Example C97_example_meets : Forall followed [[CEdit (B "a.go") 1; CEdit (B "a.go") 2; CCommitFile (B "a.go")]; [CEdit (B "a.go") 3; CCommitFile (B "a.go"); CClean]] /\
  ~ In CCommit (concat [[CEdit (B "a.go") 1; CEdit (B "a.go") 2; CCommitFile (B "a.go")]; [CEdit (B "a.go") 3; CCommitFile (B "a.go"); CClean]]).
Proof. split; [repeat (apply Forall_cons || apply Forall_nil); cbn [followed In]; auto 10 |]. intros H. repeat (destruct H as [H | H]; [discriminate H |]). destruct H. Qed.
(** A goroutine in CommitFile has the file lock and commitLock; one that wants to edit the same file waits, and yet someone goes on. *)
Example C97_wait_example : let s := State [(FCommit (B "a.go"), []); (Idle, [CEdit (B "a.go") 1]); (EParsed (B "b.go") 2 0, [])] (Data (fun _ _ => []) 1 (fun _ => None) [] (fun _ => []) [] (fun _ => false)) in
  (forall c cs d', ~ tstep (fun p => length p) 1 (free (fun p => length p) (threads s)) 1 Idle [CEdit (B "a.go") 1] (shared s) c cs d') /\ exists s', step (fun p => length p) 1 s s'.
Proof.
  split.
  - intros c cs d' H. inversion H; subst. match goal with F : free _ _ _ |- _ => specialize (F _ (or_introl eq_refl)); discriminate F end.
  - destruct (C97_no_deadlock (fun p => length p) 1 (State [(FCommit (B "a.go"), []); (Idle, [CEdit (B "a.go") 1]); (EParsed (B "b.go") 2 0, [])] (Data (fun _ _ => []) 1 (fun _ => None) [] (fun _ => []) [] (fun _ => false))) ltac:(repeat constructor)) as [O | H]; [| exact H].
    discriminate (O _ (or_introl eq_refl)).
Qed.
