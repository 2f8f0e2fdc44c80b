(** C74: the concurrent walks. *)
From Verif Require Import Base TmpModel TmpProps WalkModel.
From Coq Require Import Permutation.

Definition gos (l : list act) : list path := flat_map (fun a => match a with AGo p => [p] | _ => [] end) l.
Definition ins (l : list act) : list path := flat_map (fun a => match a with AIn p => [p] | _ => [] end) l.
Definition waiting (w : wpc) : list path := match w with WGo p => [p] | _ => [] end.
Lemma gos_app a b : gos (a ++ b) = gos a ++ gos b.
Proof. apply flat_map_app. Qed.
Lemma ins_app a b : ins (a ++ b) = ins a ++ ins b.
Proof. apply flat_map_app. Qed.
Lemma gos_in p l : In p (gos l) <-> In (AGo p) l.
Proof. unfold gos. rewrite in_flat_map. split; [intros (a & I & H); destruct a; cbn in H; try contradiction; destruct H as [<-|[]]; exact I|intros I; exists (AGo p); split; [exact I|left; reflexivity]]. Qed.
Lemma ins_in p l : In p (ins l) <-> In (AIn p) l.
Proof. unfold ins. rewrite in_flat_map. split; [intros (a & I & H); destruct a; cbn in H; try contradiction; destruct H as [<-|[]]; exact I|intros I; exists (AIn p); split; [exact I|left; reflexivity]]. Qed.

Section Group.
Variables (limit : nat) (waits cancellable : bool) (inline task : path -> tsys -> tsys -> bool -> Prop).
Notation step := (gstep limit waits cancellable inline task).
Notation reach := (greach limit waits cancellable inline task).

Definition ended (w : wpc) : Prop := exists b, w = WEnd b.
(** What holds in every state. *)
Definition inv (acts : list act) (g : grp) : Prop :=
  (exists pre, acts = pre ++ g_todo g /\ ~ In ABad pre /\
     Permutation (gos pre) (g_done g ++ g_failed g ++ g_run g ++ waiting (g_walk g)) /\ Permutation (ins pre) (g_made g)) /\
  (length (g_run g) <= limit)%nat /\
  (g_cancel g = true -> cancellable = true \/ g_failed g <> []) /\ (g_failed g <> [] -> g_cancel g = true) /\
  (g_walk g = WEnd false -> g_todo g = []) /\
  (g_ret g <> None -> ended (g_walk g)) /\
  (g_ret g = Some true -> g_walk g = WEnd false /\ g_failed g = [] /\ g_run g = []) /\
  (g_ret g = Some false -> g_walk g = WEnd true \/ g_failed g <> []) /\
  (g_ret g <> None -> waits = true \/ g_walk g = WEnd false -> g_run g = []).

Lemma inv_holds acts f g : reach (start acts f) g -> inv acts g.
Proof.
  induction 1 as [|g g' R IH S].
  - unfold inv, start. cbn. split; [exists []; repeat split; try apply Permutation_refl; tauto|]. repeat split; try congruence; try lia; tauto.
  - destruct IH as ((pre & E & NB & Pg & Pi) & L & C1 & C2 & W & R0 & R1 & R2 & R3).
    destruct S; unfold inv; cbn [g_todo g_walk g_run g_cancel g_failed g_done g_made g_fs g_ret waiting] in *.
    + split; [exists pre; rewrite app_nil_r in *; tauto|]. repeat (split; [first [assumption|congruence|intros; exists true; reflexivity]|]).
      split; [intros X; destruct (R0 ltac:(congruence)) as [b0 Hb]; discriminate|]. split; [left; reflexivity|]. intros X. destruct (R0 X) as [b0 Hb]. discriminate.
    + split; [exists pre; rewrite app_nil_r in *; tauto|]. repeat (split; [first [assumption|congruence|intros; exists true; reflexivity]|]).
      split; [intros X; destruct (R0 ltac:(congruence)) as [b0 Hb]; discriminate|]. split; [left; reflexivity|]. intros X. destruct (R0 X) as [b0 Hb]. discriminate.
    + split.
      { exists (pre ++ [AIn p]). rewrite <- app_assoc. split; [exact E|]. rewrite in_app_iff. split; [intros [X|[X|[]]]; [contradiction|discriminate]|].
        rewrite gos_app, ins_app. cbn. rewrite !app_nil_r in *. split; [exact Pg|]. rewrite Pi. symmetry. apply Permutation_cons_append. }
      repeat (split; [first [assumption|congruence]|]). assumption.
    + split; [exists pre; rewrite app_nil_r in *; tauto|]. repeat (split; [first [assumption|congruence|intros; exists true; reflexivity]|]).
      split; [intros X; destruct (R0 ltac:(congruence)) as [b0 Hb]; discriminate|]. split; [left; reflexivity|]. intros X. destruct (R0 X) as [b0 Hb]. discriminate.
    + split.
      { exists (pre ++ [AGo p]). rewrite <- app_assoc. split; [exact E|]. rewrite in_app_iff. split; [intros [X|[X|[]]]; [contradiction|discriminate]|].
        rewrite gos_app, ins_app. cbn. rewrite !app_nil_r in *. split; [|exact Pi]. rewrite Pg, <- !app_assoc. apply Permutation_refl. }
      assert (rt = None) as ->. { destruct rt as [rb|]; [|reflexivity]. destruct (R0 ltac:(congruence)) as [b0 Hb]. discriminate. }
      repeat (split; [first [assumption|congruence]|]). congruence.
    + split.
      { exists pre. split; [exact E|]. split; [exact NB|]. split; [|exact Pi]. rewrite Pg, app_nil_r. repeat apply Permutation_app_head. symmetry. apply Permutation_cons_append. }
      assert (rt = None) as ->. { destruct rt as [rb|]; [|reflexivity]. destruct (R0 ltac:(congruence)) as [b0 Hb]. discriminate. }
      split; [cbn; lia|]. repeat (split; [first [assumption|congruence]|]). congruence.
    + split; [exists pre; tauto|]. repeat (split; [first [assumption|congruence|reflexivity|intros; exists false; reflexivity]|]).
      split; [intros X; destruct (R0 ltac:(congruence)) as [b0 Hb]; discriminate|]. split; [intros X; destruct (R0 ltac:(congruence)) as [b0 Hb]; discriminate|]. intros X. destruct (R0 X) as [b0 Hb]. discriminate.
    + split.
      { exists pre. split; [exact E|]. split; [exact NB|]. split; [|exact Pi]. rewrite Pg. cbn [app]. rewrite <- !app_assoc. cbn [app].
        rewrite (app_assoc dn fl), (app_assoc (dn ++ fl) a). rewrite <- Permutation_middle. rewrite <- !app_assoc. apply Permutation_refl. }
      split; [rewrite app_length in *; cbn in *; lia|]. repeat (split; [first [assumption|congruence]|]).
      split; [intros X; destruct (R1 X) as (? & ? & Y); apply app_eq_nil in Y; destruct Y; discriminate|]. split; [exact R2|].
      intros X Y. specialize (R3 X Y). apply app_eq_nil in R3. destruct R3; discriminate.
    + split.
      { exists pre. split; [exact E|]. split; [exact NB|]. split; [|exact Pi]. rewrite Pg. cbn [app]. rewrite <- !app_assoc. cbn [app].
        apply Permutation_app_head. rewrite (app_assoc fl a). rewrite <- Permutation_middle. rewrite <- !app_assoc. apply Permutation_refl. }
      split; [rewrite app_length in *; cbn in *; lia|]. split; [right; discriminate|]. split; [reflexivity|]. repeat (split; [first [assumption|congruence]|]).
      split; [intros X; destruct (R1 X) as (? & ? & Y); apply app_eq_nil in Y; destruct Y; discriminate|]. split; [right; discriminate|].
      intros X Y. specialize (R3 X Y). apply app_eq_nil in R3. destruct R3; discriminate.
    + split; [exists pre; tauto|]. split; [assumption|]. split; [left; assumption|]. split; [reflexivity|]. repeat (split; [assumption|]). assumption.
    + split; [exists pre; tauto|]. repeat (split; [first [assumption|congruence]|]). split; [intros _; exists bad; reflexivity|].
      destruct bad; cbn.
      * split; [discriminate|]. split; [left; reflexivity|reflexivity].
      * destruct fl; cbn; (split; [try discriminate; tauto|]); (split; [try discriminate; right; discriminate|reflexivity]).
    + split; [exists pre; tauto|]. repeat (split; [first [assumption|congruence]|]). split; [intros _; exists true; reflexivity|]. split; [discriminate|]. split; [left; reflexivity|].
      intros _ [X|X]; congruence.
Qed.

(** No error: the walk met none, and every path was handled, once. *)
Theorem C74_nil_all : forall acts f g, reach (start acts f) g -> g_ret g = Some true ->
  ~ In ABad acts /\ Permutation (gos acts) (g_done g) /\ Permutation (ins acts) (g_made g) /\ g_failed g = [] /\ g_run g = [].
Proof.
  intros acts f g R H. destruct (inv_holds acts f g R) as ((pre & E & NB & Pg & Pi) & _ & _ & _ & W & _ & R1 & _). destruct (R1 H) as (Hw & Hf & Hr).
  rewrite (W Hw), app_nil_r in E. subst pre. rewrite Hf, Hr, Hw in Pg. cbn in Pg. rewrite app_nil_r in Pg. tauto.
Qed.
(** An error: some call had one, a task failed, the walk itself failed or the context was cancelled. *)
Theorem C74_error_cause : forall acts f g, reach (start acts f) g -> g_ret g = Some false -> g_failed g <> [] \/ g_walk g = WEnd true.
Proof. intros acts f g R H. destruct (inv_holds acts f g R) as (_ & _ & _ & _ & _ & _ & _ & R2 & _). destruct (R2 H); tauto. Qed.
(** Never more tasks than allowed, and no path twice. *)
Theorem C74_limit : forall acts f g, reach (start acts f) g -> (length (g_run g) <= limit)%nat /\ (NoDup (gos acts) -> NoDup (g_done g ++ g_failed g ++ g_run g)).
Proof.
  intros acts f g R. destruct (inv_holds acts f g R) as ((pre & E & NB & Pg & Pi) & L & _). split; [exact L|]. intros N. subst acts. rewrite gos_app in N.
  assert (NoDup (gos pre)) as Np. { clear - N. induction (gos pre) as [|x l IH]; [constructor|]. cbn in N. inversion N; subst. constructor; [rewrite in_app_iff in H1; tauto|apply IH; assumption]. }
  apply (Permutation_NoDup Pg) in Np. rewrite (app_assoc (g_failed g)), (app_assoc (g_done g)) in Np. revert Np. generalize (g_done g ++ g_failed g ++ g_run g). intros l.
  induction l as [|x l IH]; cbn; intros Np; [constructor|]. inversion Np; subst. constructor; [rewrite in_app_iff in H1; tauto|apply IH; assumption].
Qed.
(** When the tasks are waited for, nothing happens to the files after the return. *)
Theorem C74_quiet_after : forall acts f g g', waits = true -> reach (start acts f) g -> g_ret g <> None -> step g g' -> g_fs g' = g_fs g /\ g_ret g' = g_ret g.
Proof.
  intros acts f g g' Wt R H S. destruct (inv_holds acts f g R) as (_ & _ & _ & _ & _ & R0 & _ & _ & R3). specialize (R3 H (or_introl Wt)). specialize (R0 H).
  destruct S; cbn in *; try (destruct R0 as [b0 Hb]; discriminate); try (apply app_eq_nil in R3; destruct R3; discriminate); try congruence; split; reflexivity.
Qed.

(** Every execution ends, after at most four steps a call and four more ... *)
Definition measure (g : grp) : nat :=
  4 * length (g_todo g) + match g_walk g with WNext => 2 | WGo _ => 4 | WEnd _ => 1 end + length (g_run g) + (if g_cancel g then 0 else 1) + match g_ret g with None => 1 | Some _ => 0 end.
Inductive runs : nat -> grp -> grp -> Prop :=
  | runs_0 : forall g, runs 0 g g
  | runs_S : forall n g g' g'', runs n g g' -> step g' g'' -> runs (S n) g g''.
Theorem C74_ends : forall acts f n g, runs n (start acts f) g -> (n <= 4 * length acts + 4)%nat.
Proof.
  assert (forall g g', step g g' -> (measure g' < measure g)%nat) as D.
  { intros g g' S. destruct S; unfold measure; cbn [g_todo g_walk g_run g_cancel g_ret length]; rewrite ?app_length; cbn [length]; try destruct rt; try destruct c; lia. }
  assert (forall n g g', runs n g g' -> (n + measure g' <= measure g)%nat) as X. { induction 1 as [|n g g' g'' R IH S]; [lia|]. apply D in S. lia. }
  intros acts f n g R. apply X in R. unfold measure at 2 in R. cbn in R. lia.
Qed.
(** ... and it does not stop before it has returned. *)
Theorem C74_progress : forall acts f g, (0 < limit)%nat -> (forall p s, exists s' ok, inline p s s' ok) -> (forall p s, exists s' ok, task p s s' ok) ->
  reach (start acts f) g -> g_ret g = None -> exists g', step g g'.
Proof.
  intros acts f g Lp Ti Tt R H. destruct g as [td w run c fl dn md s rt]. cbn in H. subst rt.
  assert (forall p r, run = p :: r -> exists g', step (Grp td w run c fl dn md s None) g') as Tk.
  { intros p r ->. destruct (Tt p s) as (s' & [|] & X); [exists (Grp td w ([] ++ r) c fl (p :: dn) md s' None); apply (gs_task limit waits cancellable inline task p [] r); exact X|
      exists (Grp td w ([] ++ r) true (p :: fl) dn md s' None); apply (gs_task_bad limit waits cancellable inline task p [] r); exact X]. }
  destruct w as [|p|b].
  - destruct td as [|[|p|p] td].
    + eexists. apply gs_end.
    + eexists. apply gs_bad.
    + destruct c; [eexists; apply gs_stop; discriminate|]. destruct (Ti p s) as (s' & [|] & X); eexists; [apply gs_in; exact X|apply gs_in_bad; exact X].
    + destruct c; [eexists; apply gs_stop; discriminate|]. eexists. apply gs_check.
  - destruct run as [|q r] eqn:Er; [|apply (Tk q r eq_refl)]. eexists. apply gs_go. cbn. exact Lp.
  - destruct run as [|q r] eqn:Er; [|apply (Tk q r eq_refl)]. eexists. apply gs_return.
Qed.
End Group.
Print Assumptions C74_nil_all.
Print Assumptions C74_error_cause.
Print Assumptions C74_limit.
Print Assumptions C74_quiet_after.
Print Assumptions C74_ends.
Print Assumptions C74_progress.

(** ** WriteChmod *)
Lemma upd_same f p n : upd f p n p = Some n.
Proof. unfold upd. destruct (list_eq_dec bytes_eq_dec p p); congruence. Qed.
Lemma upd_other f p n q : q <> p -> upd f p n q = f q.
Proof. unfold upd. destruct (list_eq_dec bytes_eq_dec q p); congruence. Qed.
Lemma opened_twice n : opened (opened n) = opened n.
Proof.
  assert (forall m k, N.lor (N.lor m k) k = N.lor m k) as I by (intros m k; rewrite <- N.lor_assoc, N.lor_diag; reflexivity).
  destruct n; cbn; [|rewrite I; reflexivity|reflexivity]. f_equal. rewrite <- (N.lor_assoc (N.lor (N.lor mode 146) 73) 146 73), (N.lor_comm 146 73), N.lor_assoc, I, <- N.lor_assoc, (N.lor_comm 73 146), N.lor_assoc, I. reflexivity.
Qed.

Section Chmod.
Variables (limit : nat) (cancellable : bool) (io : path -> bool) (root : path).
Notation reach := (greach limit true cancellable no_inline (chmod_task io root)).
(** The walk of a tree: every path of it once, and nothing else. *)
Definition walked (f : tsys) (acts : list act) : Prop :=
  ins acts = [] /\ NoDup (gos acts) /\ forall p, In p (gos acts) <-> (exists r, p = root ++ r) /\ f p <> None.

(** At any time every file and directory is as it was or has got the permissions, by whether its task is done. *)
Theorem C74_chmod_states : forall acts f g, reach (start acts f) g ->
  forall p, (In p (g_done g) -> g_fs g p = option_map opened (f p)) /\ (~ In p (g_done g) -> g_fs g p = f p).
Proof.
  intros acts f g R. induction R as [|g g' R IH S].
  - cbn. intros p. split; [intros []|reflexivity].
  - destruct S; cbn [g_done g_fs] in *; try exact IH.
    + contradiction.
    + contradiction.
    + inversion H as [n Hio Hs Hn Hl|t Hio Hs Hn|]; subst.
      * intros q. destruct (list_eq_dec bytes_eq_dec q p) as [->|Ne].
        -- rewrite upd_same. split; [intros _|intros X; exfalso; apply X; left; reflexivity]. destruct (in_dec (list_eq_dec bytes_eq_dec) p dn) as [I|I].
           ++ rewrite (proj1 (IH p) I) in Hn. destruct (f p) as [n0|]; [|discriminate]. cbn in *. injection Hn as <-. rewrite opened_twice. reflexivity.
           ++ rewrite (proj2 (IH p) I) in Hn. rewrite Hn. reflexivity.
        -- rewrite upd_other by exact Ne. split; [intros [X|X]; [congruence|apply IH, X]|intros X; apply IH; intros Y; apply X; right; exact Y].
      * intros q. destruct (list_eq_dec bytes_eq_dec q p) as [->|Ne].
        -- split; [intros _|intros X; exfalso; apply X; left; reflexivity]. destruct (in_dec (list_eq_dec bytes_eq_dec) p dn) as [I|I]; [apply IH, I|]. rewrite (proj2 (IH p) I) in *. rewrite Hn. reflexivity.
        -- split; [intros [X|X]; [congruence|apply IH, X]|intros X; apply IH; intros Y; apply X; right; exact Y].
    + inversion H; subst. exact IH.
Qed.
(** No error: every path of the tree has its permissions, and nothing else is touched. *)
Theorem C74_chmod_complete : forall acts f g, walked f acts -> reach (start acts f) g -> g_ret g = Some true ->
  forall p, g_fs g p = match below root p with Some _ => option_map opened (f p) | None => f p end.
Proof.
  intros acts f g (_ & N & Wk) R H p. destruct (C74_nil_all _ _ _ _ _ acts f g R H) as (_ & Pd & _). pose proof (C74_chmod_states acts f g R p) as [S1 S2].
  destruct (below root p) as [r|] eqn:Eb.
  - destruct (f p) as [n|] eqn:Ef.
    + apply S1. apply (Permutation_in p Pd). apply Wk. split; [exists r; apply below_spec, Eb|congruence].
    + destruct (in_dec (list_eq_dec bytes_eq_dec) p (g_done g)) as [I|I]; [apply S1, I|apply S2, I].
  - apply S2. intros I. apply (Permutation_in p (Permutation_sym Pd)), Wk in I. destruct I as [[r ->] _]. rewrite below_app in Eb. discriminate.
Qed.

Lemma firstn_below r k : (length root <= k)%nat -> firstn k (root ++ r) = root ++ firstn (k - length root) r.
Proof. intros H. rewrite firstn_app. rewrite firstn_all2 by exact H. reflexivity. Qed.
(** Where every directory can be searched and no call fails, there is no error. *)
Theorem C74_chmod_succeeds : forall acts f g, cancellable = false -> (forall p, io p = false) -> ~ In ABad acts -> walked f acts ->
  (forall r x s, f (root ++ r ++ x :: s) <> None -> exists m, f (root ++ r) = Some (TDir m) /\ N.testbit m 6 = true) ->
  reach (start acts f) g -> g_ret g <> Some false.
Proof.
  intros acts f g Nc Nio NB (Wi & N & Wk) Tree R.
  assert (g_failed g = [] /\ g_cancel g = false /\ g_walk g <> WEnd true) as (A & A2 & A3).
  { induction R as [|g g' R IH S]; [cbn; repeat split; congruence|]. destruct IH as (F & C & W). pose proof (inv_holds _ _ _ _ _ acts f g R) as ((pre & E & _ & Pg & _) & _).
    pose proof (C74_chmod_states acts f g R) as St.
    destruct S; cbn [g_todo g_walk g_run g_cancel g_failed g_done g_made g_fs g_ret] in *; try (repeat split; congruence).
    - exfalso. apply NB. rewrite E. rewrite in_app_iff. right. left. reflexivity.
    - contradiction.
    - exfalso. assert (In p (gos acts)) as I.
      { rewrite E, gos_app, in_app_iff. left. apply (Permutation_in p (Permutation_sym Pg)). rewrite !in_app_iff. cbn. tauto. }
      apply Wk in I. destruct I as [[r ->] Ex]. inversion H as [| |Bad]; subst.
      assert (forall q, f' q <> None <-> f q <> None) as Dom.
      { intros q. destruct (in_dec (list_eq_dec bytes_eq_dec) q dn) as [I|I]; [rewrite (proj1 (St q) I); destruct (f q); cbn; split; congruence|rewrite (proj2 (St q) I); tauto]. }
      destruct Bad as [Bad|[Bad|Bad]]; [rewrite Nio in Bad; discriminate| |apply Dom in Ex; contradiction].
      assert (searchable f' root (root ++ r) = true) as X; [|congruence]. unfold searchable. apply forallb_forall. intros k Hk. apply in_seq in Hk. rewrite app_length in Hk.
      rewrite firstn_below by lia. remember (k - length root)%nat as j. assert (j < length r)%nat as Hj by lia.
      destruct (skipn j r) as [|x s] eqn:Es; [apply (f_equal (@length bytes)) in Es; rewrite skipn_length in Es; cbn in Es; lia|].
      assert (r = firstn j r ++ x :: s) as Er by (rewrite <- Es; symmetry; apply firstn_skipn). 
      destruct (Tree (firstn j r) x s) as (m & Em & Hm); [rewrite <- Er; exact Ex|].
      destruct (in_dec (list_eq_dec bytes_eq_dec) (root ++ firstn j r) dn) as [I|I].
      + rewrite (proj1 (St _) I), Em. cbn. rewrite !N.lor_spec, Hm. reflexivity.
      + rewrite (proj2 (St _) I), Em. exact Hm. }
  intros H. destruct (C74_error_cause _ _ _ _ _ acts f g R H); congruence.
Qed.
(** A task always comes to something (for [C74_progress]). *)
Lemma chmod_total p f : exists f' ok, chmod_task io root p f f' ok.
Proof.
  destruct (io p) eqn:E1; [exists f, false; apply ct_bad; tauto|]. destruct (searchable f root p) eqn:E2; [|exists f, false; apply ct_bad; tauto].
  destruct (f p) as [[m|m c|t]|] eqn:E3; [| | |exists f, false; apply ct_bad; tauto].
  - eexists _, true. apply ct_ok with (n := TDir m); try assumption. discriminate.
  - eexists _, true. apply ct_ok with (n := TFile m c); try assumption. discriminate.
  - exists f, true. apply ct_link with (t := t); assumption.
Qed.
End Chmod.
Print Assumptions C74_chmod_states.
Print Assumptions C74_chmod_complete.
Print Assumptions C74_chmod_succeeds.

(** ** CopyDir *)
Section Copy.
Variables (limit : nat) (cancellable : bool) (io : path -> bool) (dm um : N) (src dst : path).
Notation reach := (greach limit false cancellable (mkdir io dm dst) (copy_task io um src dst)).
(** The walk of the source: directories by the walk itself, the rest by tasks, each path once, the directory before what is in it. *)
Definition visits (f : tsys) (acts : list act) : Prop :=
  NoDup (gos acts) /\ NoDup (ins acts) /\
  (forall r, In r (ins acts) <-> exists m, f (src ++ r) = Some (TDir m)) /\
  (forall r, In r (gos acts) <-> exists n, f (src ++ r) = Some n /\ forall m, n <> TDir m) /\
  (forall pre r post, acts = pre ++ AGo r :: post -> r = [] \/ In (removelast r) (ins pre)).
(** Nothing is at the target, and neither directory is in the other. *)
Definition fresh (f : tsys) : Prop := (forall r, f (dst ++ r) = None) /\ forall r s, src ++ r <> dst ++ s.

Definition cinv (acts : list act) (f : tsys) (g : grp) : Prop :=
  (forall q, (forall r, q <> dst ++ r) -> g_fs g q = f q) /\
  (forall r, In r (g_made g) -> g_fs g (dst ++ r) = Some (TDir dm)) /\
  (forall r, In r (g_done g) -> exists n, f (src ++ r) = Some n /\ (forall m, n <> TDir m) /\ g_fs g (dst ++ r) = Some (copy_node dm um n)) /\
  (forall r, ~ In r (g_made g) -> ~ In r (g_done g) -> ~ In r (g_failed g) -> g_fs g (dst ++ r) = None).

Lemma nodup_split (l m : list path) x : NoDup (l ++ m) -> In x l -> ~ In x m.
Proof. induction l as [|y l IH]; cbn; intros N I; [contradiction|]. inversion N; subst. destruct I as [->|I]; [intros X; apply H1; rewrite in_app_iff; right; exact X|apply IH; assumption]. Qed.
Lemma dst_inj r s : dst ++ r = dst ++ s -> r = s.
Proof. apply app_inv_head. Qed.

Lemma copy_inv acts f g : visits f acts -> fresh f -> reach (start acts f) g -> cinv acts f g.
Proof.
  intros (Ng & Ni & Vi & Vg & _) (Fr & Ap) R. induction R as [|g g' R IH S].
  - unfold cinv, start. cbn. split; [reflexivity|]. split; [intros r []|]. split; [intros r []|]. intros r _ _ _. apply Fr.
  - pose proof (inv_holds _ _ _ _ _ acts f g R) as ((pre & E & _ & Pg & Pi) & _). destruct IH as (C1 & C2 & C3 & C4).
    assert (forall r, In r (g_made g) -> In r (ins acts)) as Mi by (intros r I; rewrite E, ins_app, in_app_iff; left; apply (Permutation_in r (Permutation_sym Pi) I)).
    assert (forall r, In r (g_done g ++ g_failed g ++ g_run g ++ waiting (g_walk g)) -> In r (gos acts)) as Gi by (intros r I; rewrite E, gos_app, in_app_iff; left; apply (Permutation_in r (Permutation_sym Pg) I)).
    assert (forall r, In r (gos acts) -> In r (ins acts) -> False) as Apart. { intros r I J. apply Vg in I. apply Vi in J. destruct I as (n & En & Hn), J as (m & Em). apply (Hn m). congruence. }
    assert (NoDup (g_done g ++ g_failed g ++ g_run g ++ waiting (g_walk g))) as Nd.
    { apply (Permutation_NoDup Pg). rewrite E, gos_app in Ng. clear - Ng. induction (gos pre) as [|x l IH]; [constructor|]. cbn in Ng. inversion Ng; subst. constructor; [rewrite in_app_iff in H1; tauto|apply IH; assumption]. }
    destruct S; cbn [g_todo g_walk g_run g_cancel g_failed g_done g_made g_fs g_ret] in *; try (unfold cinv; cbn; tauto).
    + (* mkdir *)
      assert (In p (ins acts)) as Ip by (rewrite E, ins_app, in_app_iff; right; left; reflexivity).
      assert (~ In p md) as Nm. { rewrite E, ins_app in Ni. cbn in Ni. intros I. apply (Permutation_in p (Permutation_sym Pi)) in I. apply (nodup_split _ _ p Ni I). left. reflexivity. }
      assert (f0 (dst ++ p) = None) as Fp.
      { apply C4; [exact Nm| |]; intros I; apply (Apart p); try exact Ip; apply Gi; rewrite !in_app_iff; tauto. }
      inversion H; subst; try congruence. unfold cinv. cbn. split; [|split; [|split]].
      * intros q Hq. rewrite upd_other by apply Hq. apply C1, Hq.
      * intros r0 [<-|I]; [apply upd_same|]. rewrite upd_other by (intros X; apply dst_inj in X; subst; contradiction). apply C2, I.
      * intros r0 I. destruct (C3 r0 I) as (n & En & Hn & Hf). exists n. split; [exact En|]. split; [exact Hn|]. rewrite upd_other; [exact Hf|]. intros X. apply dst_inj in X. subst. congruence.
      * intros r0 I1 I2 I3. rewrite upd_other by (intros X; apply dst_inj in X; subst; apply I1; left; reflexivity). apply C4; try assumption. intros X. apply I1. right. exact X.
    + (* mkdir fails *)
      inversion H; subst; unfold cinv; cbn; tauto.
    + (* copy *)
      assert (In p (gos acts)) as Ip by (apply Gi; rewrite !in_app_iff; cbn; tauto).
      assert (~ In p md) as Nm by (intros I; apply (Apart p Ip (Mi p I))).
      assert (~ In p dn /\ ~ In p fl) as [Nn Nf].
      { split; intros I.
        - apply (nodup_split _ _ p Nd I). rewrite !in_app_iff. cbn. tauto.
        - rewrite app_assoc in Nd. apply (nodup_split _ _ p Nd); [rewrite in_app_iff; tauto|]. rewrite !in_app_iff. cbn. tauto. }
      pose proof (C4 p Nm Nn Nf) as Fp. inversion H as [n Hio Hs Hn Hp Hd|g1 ok Hd|]; subst; [|contradiction].
      assert (f (src ++ p) = Some n) as Ef by (rewrite <- Hs; symmetry; apply C1; intros r; apply Ap).
      unfold cinv. cbn. split; [|split; [|split]].
      * intros q Hq. rewrite upd_other by apply Hq. apply C1, Hq.
      * intros r0 I. rewrite upd_other by (intros X; apply dst_inj in X; subst; contradiction). apply C2, I.
      * intros r0 [<-|I].
        -- exists n. split; [exact Ef|]. split; [exact Hn|]. rewrite upd_same. destruct n as [m0|m0 c0|t0]; [destruct (Hn m0 eq_refl)|reflexivity|reflexivity].
        -- destruct (C3 r0 I) as (n0 & En & Hn0 & Hf). exists n0. split; [exact En|]. split; [exact Hn0|]. rewrite upd_other; [exact Hf|]. intros X. apply dst_inj in X. subst. contradiction.
      * intros r0 I1 I2 I3. rewrite upd_other by (intros X; apply dst_inj in X; subst; apply I2; left; reflexivity). apply C4; try assumption. intros X. apply I2. right. exact X.
    + (* a copy fails *)
      assert (In p (gos acts)) as Ip by (apply Gi; rewrite !in_app_iff; cbn; tauto).
      assert (~ In p md) as Nm by (intros I; apply (Apart p Ip (Mi p I))).
      assert (~ In p dn) as Nn by (intros I; apply (nodup_split _ _ p Nd I); rewrite !in_app_iff; cbn; tauto).
      assert (forall q, q <> dst ++ p -> f' q = f0 q) as Q by (inversion H; subst; assumption).
      unfold cinv. cbn. split; [|split; [|split]].
      * intros q Hq. rewrite Q by apply Hq. apply C1, Hq.
      * intros r0 I. rewrite Q by (intros X; apply dst_inj in X; subst; contradiction). apply C2, I.
      * intros r0 I. destruct (C3 r0 I) as (n0 & En & Hn0 & Hf). exists n0. split; [exact En|]. split; [exact Hn0|]. rewrite Q; [exact Hf|]. intros X. apply dst_inj in X. subst. contradiction.
      * intros r0 I1 I2 I3. rewrite Q by (intros X; apply dst_inj in X; subst; apply I3; left; reflexivity). apply C4; try assumption. intros X. apply I3. right. exact X.
Qed.

(** No error: whatever the order of the tasks, the files are those of C57's copy. *)
Theorem C74_copy_complete : forall acts f g, visits f acts -> fresh f -> reach (start acts f) g -> g_ret g = Some true ->
  forall p, g_fs g p = copy_dir dm um f src dst p.
Proof.
  intros acts f g V F R H p. destruct (C74_nil_all _ _ _ _ _ acts f g R H) as (_ & Pg & Pi & Ef & _). destruct (copy_inv acts f g V F R) as (C1 & C2 & C3 & C4).
  destruct V as (Ng & Ni & Vi & Vg & _), F as (Fr & Ap). unfold copy_dir. destruct (below dst p) as [r|] eqn:Eb.
  - apply below_spec in Eb. subst p. destruct (f (src ++ r)) as [n|] eqn:En.
    + destruct (in_dec (list_eq_dec bytes_eq_dec) r (ins acts)) as [I|I].
      * pose proof (proj1 (Vi r) I) as [m Em]. rewrite (C2 r (Permutation_in r Pi I)). rewrite Em in En. injection En as <-. reflexivity.
      * assert (In r (gos acts)) as J. { apply Vg. exists n. split; [exact En|]. intros m ->. apply I, Vi. exists m. exact En. }
        destruct (C3 r (Permutation_in r Pg J)) as (n' & En' & _ & Hf). rewrite Hf. congruence.
    + rewrite Fr. apply C4; [intros I; apply (Permutation_in r (Permutation_sym Pi)), Vi in I; destruct I; congruence|intros I; apply (Permutation_in r (Permutation_sym Pg)), Vg in I; destruct I as (n & X & _); congruence|rewrite Ef; intros []].
  - apply C1. intros r ->. rewrite below_app in Eb. discriminate.
Qed.
(** Nothing outside the target is touched, at any time, errors or not. *)
Theorem C74_copy_outside : forall acts f g, visits f acts -> fresh f -> reach (start acts f) g -> forall q, (forall r, q <> dst ++ r) -> g_fs g q = f q.
Proof. intros acts f g V F R. apply (copy_inv acts f g V F R). Qed.
(** Where no call fails there is no error: a directory is there before anything is copied into it. *)
Theorem C74_copy_succeeds : forall acts f g, cancellable = false -> (forall p, io p = false) -> ~ In ABad acts -> visits f acts -> fresh f ->
  reach (start acts f) g -> g_ret g <> Some false.
Proof.
  intros acts f g Nc Nio NB V F R.
  assert (g_failed g = [] /\ g_cancel g = false /\ g_walk g <> WEnd true /\ forall r, In r (g_run g ++ waiting (g_walk g)) -> r = [] \/ In (removelast r) (g_made g)) as (A & A2 & A3 & _).
  { induction R as [|g g' R IH S]; [cbn; repeat split; try congruence; intros r []|]. destruct IH as (Fl & C & W & Par). pose proof (inv_holds _ _ _ _ _ acts f g R) as ((pre & E & _ & Pg & Pi) & _).
    destruct (copy_inv acts f g V F R) as (C1 & C2 & C3 & C4). destruct V as (Ng & Ni & Vi & Vg & Vp). destruct F as (Fr & Ap).
    assert (forall r, In r (g_made g) -> In r (ins acts)) as Mi by (intros r I; rewrite E, ins_app, in_app_iff; left; apply (Permutation_in r (Permutation_sym Pi) I)).
    assert (forall r, In r (g_done g ++ g_failed g ++ g_run g ++ waiting (g_walk g)) -> In r (gos acts)) as Gi by (intros r I; rewrite E, gos_app, in_app_iff; left; apply (Permutation_in r (Permutation_sym Pg) I)).
    assert (forall r, In r (gos acts) -> In r (ins acts) -> False) as Apart. { intros r I J. apply Vg in I. apply Vi in J. destruct I as (n & En & Hn), J as (m & Em). apply (Hn m). congruence. }
    destruct S; cbn [g_todo g_walk g_run g_cancel g_failed g_done g_made g_fs g_ret waiting] in *; try (repeat split; try congruence; assumption).
    - exfalso. apply NB. rewrite E. rewrite in_app_iff. right. left. reflexivity.
    - repeat split; try congruence. intros q I. destruct (Par q I) as [X|X]; [left; exact X|right; right; exact X].
    - (* mkdir *) exfalso. assert (In p (ins acts)) as Ip by (rewrite E, ins_app, in_app_iff; right; left; reflexivity).
      assert (~ In p md) as Nm. { rewrite E, ins_app in Ni. cbn in Ni. intros I. apply (Permutation_in p (Permutation_sym Pi)) in I. apply (nodup_split _ _ p Ni I). left. reflexivity. }
      assert (f0 (dst ++ p) = None) as Fp.
      { apply C4; [exact Nm|intros I; apply (Apart p); [apply Gi; rewrite !in_app_iff; tauto|exact Ip]|rewrite Fl; intros []]. }
      inversion H as [| |Bad]; subst. destruct Bad as [Bad|(n & Bad & _)]; [rewrite Nio in Bad; discriminate|congruence].
    - repeat split; try congruence. intros q I. rewrite in_app_iff in I. destruct I as [I|[<-|[]]]; [apply Par; rewrite in_app_iff; left; exact I|].
      destruct (Vp pre p r E) as [X|X]; [left; exact X|right; apply (Permutation_in _ Pi X)].
    - repeat split; try congruence. intros q I. apply Par. rewrite in_app_iff in *. cbn in *. tauto.
    - repeat split; try congruence. intros q I. apply Par. rewrite !in_app_iff in *. cbn in *. tauto.
    - (* a task fails *) exfalso.
      assert (In p (gos acts)) as Ip by (apply Gi; rewrite !in_app_iff; cbn; tauto).
      assert (~ In p md) as Nm by (intros I; apply (Apart p Ip (Mi p I))).
      assert (NoDup (dn ++ fl ++ (a ++ p :: b) ++ waiting w)) as Nd.
      { apply (Permutation_NoDup Pg). rewrite E, gos_app in Ng. clear - Ng. induction (gos pre) as [|x l IH]; [constructor|]. cbn in Ng. inversion Ng; subst. constructor; [rewrite in_app_iff in H1; tauto|apply IH; assumption]. }
      assert (~ In p dn) as Nn by (intros I; apply (nodup_split _ _ p Nd I); rewrite !in_app_iff; cbn; tauto).
      assert (f0 (dst ++ p) = None) as Fp by (apply C4; [exact Nm|exact Nn|rewrite Fl; intros []]).
      apply Vg in Ip. destruct Ip as (n & En & Hn). assert (f0 (src ++ p) = Some n) as En0 by (rewrite <- En; apply C1; intros r; apply Ap).
      inversion H as [|g1 ok Hd|g1 Bad]; subst; [contradiction|]. destruct Bad as [Bad|[Bad|[(m & Bad)|Bad]]].
      + rewrite Nio in Bad. discriminate.
      + congruence.
      + apply (Hn m). congruence.
      + apply Bad. destruct (Par p) as [X|X]; [rewrite !in_app_iff; cbn; tauto|left; exact X|right; exists dm; apply C2, X]. }
  intros H. destruct (C74_error_cause _ _ _ _ _ acts f g R H); congruence.
Qed.
Lemma copy_total p f : exists f' ok, copy_task io um src dst p f f' ok.
Proof.
  destruct (f (dst ++ p)) as [x|] eqn:E0; [exists f, false; apply cp_any; [congruence|reflexivity]|].
  destruct (io p) eqn:E1; [exists f, false; apply cp_bad; [tauto|reflexivity]|].
  destruct (f (src ++ p)) as [[m|m c|t]|] eqn:E2; [exists f, false; apply cp_bad; [right; right; left; exists m; exact E2|reflexivity]| | |exists f, false; apply cp_bad; [right; left; exact E2|reflexivity]].
  all: assert (has_parent f dst p \/ ~ has_parent f dst p) as [P|P] by (unfold has_parent; destruct p as [|x p']; [tauto|]; destruct (f (dst ++ removelast (x :: p'))) as [[m'|m' c'|t']|] eqn:E3; [left; right; exists m'; reflexivity|right; intros [Y|[? Y]]; congruence..]);
    [|exists f, false; apply cp_bad; [tauto|reflexivity]].
  - eexists _, true. apply cp_ok with (n := TFile m c); try assumption; discriminate.
  - eexists _, true. apply cp_ok with (n := TLink t); try assumption; discriminate.
Qed.
Lemma mkdir_total p f : exists f' ok, mkdir io dm dst p f f' ok.
Proof.
  destruct (io p) eqn:E1; [exists f, false; apply mk_bad; tauto|]. destruct (f (dst ++ p)) as [[m|m c|t]|] eqn:E2.
  - exists f, true. apply mk_there with (m := m); assumption.
  - exists f, false. apply mk_bad. right. eexists. split; [exact E2|discriminate].
  - exists f, false. apply mk_bad. right. eexists. split; [exact E2|discriminate].
  - eexists _, true. apply mk_new; assumption.
Qed.
End Copy.
Print Assumptions C74_copy_complete.
Print Assumptions C74_copy_outside.
Print Assumptions C74_copy_succeeds.

(** ** The progress dots *)
(** Every whole 200 MB but the last one has its dot once all calls are through, in any order. *)
Theorem C74_dots : forall total d, dreach total d ->
  (d_count d + log_size * d_dots d = total)%N /\ (d_calls d = [] -> d_dots d = ((total - 1) / log_size)%N).
Proof.
  assert (forall total d, dreach total d -> (d_count d + log_size * d_dots d = total)%N /\ (forall v, In (DSwap v) (d_calls d) -> (log_size < v)%N) /\
    (d_dots d = 0%N \/ (0 < d_count d)%N) /\ ((d_count d <= log_size)%N \/ exists x, In x (d_calls d) /\ match x with DAdd _ => False | _ => True end)) as G.
  { intros total d R. induction R as [|total s d d' R (I1 & I2 & I3 & I4) S]; [cbn; split; [reflexivity|]; split; [intros v []|]; split; [left; reflexivity|left; discriminate]|].
    destruct S; cbn [d_count d_dots d_calls] in *.
    - split; [lia|]. split; [intros v [X|X]; [discriminate|apply I2, X]|]. split; [exact I3|]. destruct I4 as [I4|(x & I & Hx)]; [left; exact I4|right; exists x; split; [right; exact I|exact Hx]].
    - split; [lia|]. split; [intros v X; apply I2; rewrite in_app_iff in *; cbn in *; intuition discriminate|]. split; [destruct I3; [left; assumption|right; lia]|]. right. exists DLoad. split; [rewrite in_app_iff; cbn; tauto|exact I].
    - split; [lia|]. split; [intros v X; rewrite in_app_iff in X; destruct X as [X|[X|X]]; [apply I2; rewrite in_app_iff; tauto|injection X as <-; assumption|apply I2; rewrite in_app_iff; cbn; tauto]|]. split; [exact I3|]. right. exists (DSwap c). split; [rewrite in_app_iff; cbn; tauto|exact I].
    - split; [lia|]. split; [intros v X; apply I2; rewrite in_app_iff in *; cbn in *; tauto|]. split; [exact I3|left; assumption].
    - assert (log_size < c)%N as Hc by (apply I2; rewrite in_app_iff; cbn; tauto). split; [lia|]. split; [intros v X; apply I2; rewrite in_app_iff in *; cbn in *; intuition discriminate|]. split; [right; lia|]. right. exists DLoad. split; [rewrite in_app_iff; cbn; tauto|exact I].
    - split; [lia|]. split; [intros w X; apply I2; rewrite in_app_iff in *; cbn in *; intuition discriminate|]. split; [exact I3|]. right. exists DLoad. split; [rewrite in_app_iff; cbn; tauto|exact I]. }
  intros total d R. destruct (G total d R) as (I1 & _ & I3 & I4). split; [exact I1|]. intros E. rewrite E in I4. destruct I4 as [I4|(x & [] & _)].
  apply N.div_unique with (r := (d_count d - 1)%N); [unfold log_size in *; lia|]. destruct I3 as [Z|P]; [|lia]. rewrite Z in *. lia.
Qed.
Print Assumptions C74_dots.

(** ** Cases *)
Definition fs_of (l : list (path * tnode)) : tsys := fun p => match find (fun e => if list_eq_dec bytes_eq_dec (fst e) p then true else false) l with Some e => Some (snd e) | None => None end.
Definition no_io (p : path) : bool := false.
(** A project with a file and a link, and an empty place to copy it to. *)
Definition ex_fs : tsys := fs_of [([B "p"], TDir 493); ([B "p"; B "a"], TFile 292 (B "text")); ([B "p"; B "l"], TLink (B "a"))].
Definition ex_acts : list act := [AIn []; AGo [B "a"]; AGo [B "l"]].
Lemma ex_fs_spec r n : ex_fs ([B "p"] ++ r) = Some n <-> (r = [] /\ n = TDir 493) \/ (r = [B "a"] /\ n = TFile 292 (B "text")) \/ (r = [B "l"] /\ n = TLink (B "a")).
Proof.
  unfold ex_fs, fs_of. cbn [find fst snd].
  repeat match goal with |- context [list_eq_dec ?d ?a ?b] => destruct (list_eq_dec d a b) as [?E|?E] end; cbn [snd].
  - injection E as <-. split; [intros [= <-]; tauto|intros [[_ ->]|[[X _]|[X _]]]; [reflexivity|discriminate|discriminate]].
  - injection E0 as <-. split; [intros [= <-]; tauto|intros [[X _]|[[_ ->]|[X _]]]; [discriminate|reflexivity|discriminate]].
  - injection E1 as <-. split; [intros [= <-]; tauto|intros [[X _]|[[X _]|[_ ->]]]; [discriminate|discriminate|reflexivity]].
  - split; [discriminate|]. intros [[-> _]|[[-> _]|[-> _]]]; [destruct (E eq_refl)|destruct (E0 eq_refl)|destruct (E1 eq_refl)].
Qed.
Lemma ex_visits : visits [B "p"] ex_fs ex_acts /\ fresh [B "p"] [B "t"] ex_fs.
Proof.
  split.
  - split; [cbn; repeat constructor; cbn; intuition discriminate|]. split; [cbn; repeat constructor; cbn; intuition discriminate|]. split; [|split].
    + intros r. cbn. split.
      * intros [<-|[]]. exists 493%N. apply ex_fs_spec. tauto.
      * intros [m E]. apply ex_fs_spec in E. destruct E as [[-> _]|[[_ X]|[_ X]]]; [left; reflexivity|discriminate|discriminate].
    + intros r. cbn. split.
      * intros [<-|[<-|[]]]; [exists (TFile 292 (B "text"))|exists (TLink (B "a"))]; (split; [apply ex_fs_spec; tauto|discriminate]).
      * intros (n & E & Hn). apply ex_fs_spec in E. destruct E as [[_ ->]|[[-> _]|[-> _]]]; [destruct (Hn 493%N eq_refl)|tauto|tauto].
    + intros [|x [|y [|z [|w pre]]]] r post E; cbn in E; try discriminate; injection E as <-; try discriminate; subst; right; cbn; repeat (try injection H as <-); cbn; tauto.
  - split; [intros r; reflexivity|]. intros r s X. discriminate.
Qed.
Notation copy_reach := (greach 2 false false (mkdir no_io 493 [B "t"]) (copy_task no_io 420 [B "p"] [B "t"])).
(** A whole copy, the second task first: no error, and the copy is there. *)
Example C74_copy_example : exists g, copy_reach (start ex_acts ex_fs) g /\ g_ret g = Some true /\
  g_fs g [B "t"; B "a"] = Some (TFile 420 (B "text")) /\ g_fs g [B "t"; B "l"] = Some (TLink (B "a")) /\ g_fs g [B "p"; B "a"] = Some (TFile 292 (B "text")).
Proof.
  pose proof (gr_start 2 false false (mkdir no_io 493 [B "t"]) (copy_task no_io 420 [B "p"] [B "t"]) (start ex_acts ex_fs)) as R.
  unfold start at 2, ex_acts at 2 in R.
  set (f1 := upd ex_fs ([B "t"] ++ []) (TDir 493)). set (f2 := upd f1 ([B "t"] ++ [B "l"]) (TLink (B "a"))). set (f3 := upd f2 ([B "t"] ++ [B "a"]) (TFile 420 (B "text"))).
  assert (copy_reach (start ex_acts ex_fs) (Grp [AGo [B "a"]; AGo [B "l"]] WNext [] false [] [] [[]] f1 None)) as R1 by (eapply gr_step; [exact R|]; apply gs_in; apply mk_new; reflexivity).
  pose proof (gr_step _ _ _ _ _ _ _ _ R1 (gs_check _ _ _ _ _ _ _ _ _ _ _ _ _)) as R2.
  assert (copy_reach (start ex_acts ex_fs) (Grp [AGo [B "l"]] WNext [[B "a"]] false [] [] [[]] f1 None)) as R3 by (eapply gr_step; [exact R2|]; apply gs_go; cbn; lia).
  pose proof (gr_step _ _ _ _ _ _ _ _ R3 (gs_check _ _ _ _ _ _ _ _ _ _ _ _ _)) as R4.
  assert (copy_reach (start ex_acts ex_fs) (Grp [] WNext [[B "l"]; [B "a"]] false [] [] [[]] f1 None)) as R5 by (eapply gr_step; [exact R4|]; apply gs_go; cbn; lia).
  assert (copy_reach (start ex_acts ex_fs) (Grp [] WNext [[B "a"]] false [] [[B "l"]] [[]] f2 None)) as R6.
  { eapply gr_step; [exact R5|]. apply (gs_task _ _ _ _ _ [B "l"] [] [[B "a"]]). apply (cp_ok no_io 420 [B "p"] [B "t"] [B "l"] f1 (TLink (B "a"))); try reflexivity; [discriminate|]. right. exists 493%N. reflexivity. }
  assert (copy_reach (start ex_acts ex_fs) (Grp [] WNext [] false [] [[B "a"]; [B "l"]] [[]] f3 None)) as R7.
  { eapply gr_step; [exact R6|]. apply (gs_task _ _ _ _ _ [B "a"] [] []). apply (cp_ok no_io 420 [B "p"] [B "t"] [B "a"] f2 (TFile 292 (B "text"))); try reflexivity; [discriminate|]. right. exists 493%N. reflexivity. }
  pose proof (gr_step _ _ _ _ _ _ _ _ R7 (gs_end _ _ _ _ _ _ _ _ _ _ _ _)) as R8. pose proof (gr_step _ _ _ _ _ _ _ _ R8 (gs_return _ _ _ _ _ _ _ _ _ _ _ _)) as R9.
  eexists. split; [exact R9|]. split; [reflexivity|]. split; [reflexivity|]. split; reflexivity.
Qed.

(** CopyDir does not wait when the walk fails: copying goes on after it has returned the error. *)
Theorem C74_copy_quiet_refuted : ~ forall acts f g g', copy_reach (start acts f) g -> g_ret g <> None ->
  gstep 2 false false (mkdir no_io 493 [B "t"]) (copy_task no_io 420 [B "p"] [B "t"]) g g' -> forall p, g_fs g' p = g_fs g p.
Proof.
  intros H. set (acts := [AIn []; AGo [B "a"]; ABad]).
  pose proof (gr_start 2 false false (mkdir no_io 493 [B "t"]) (copy_task no_io 420 [B "p"] [B "t"]) (start acts ex_fs)) as R. unfold start at 2, acts at 2 in R.
  set (f1 := upd ex_fs ([B "t"] ++ []) (TDir 493)).
  assert (copy_reach (start acts ex_fs) (Grp [AGo [B "a"]; ABad] WNext [] false [] [] [[]] f1 None)) as R1 by (eapply gr_step; [exact R|]; apply gs_in; apply mk_new; reflexivity).
  pose proof (gr_step _ _ _ _ _ _ _ _ R1 (gs_check _ _ _ _ _ _ _ _ _ _ _ _ _)) as R2.
  assert (copy_reach (start acts ex_fs) (Grp [ABad] WNext [[B "a"]] false [] [] [[]] f1 None)) as R3 by (eapply gr_step; [exact R2|]; apply gs_go; cbn; lia).
  pose proof (gr_step _ _ _ _ _ _ _ _ R3 (gs_bad _ _ _ _ _ _ _ _ _ _ _ _ _)) as R4.
  pose proof (gr_step _ _ _ _ _ _ _ _ R4 (gs_return_early _ _ _ _ _ _ _ _ _ _ _ _ eq_refl)) as R5.
  assert (exists n, f1 [B "t"; B "a"] = None /\ copy_task no_io 420 [B "p"] [B "t"] [B "a"] f1 (upd f1 [B "t"; B "a"] n) true) as (n & E & T).
  { exists (TFile 420 (B "text")). split; [reflexivity|]. apply (cp_ok no_io 420 [B "p"] [B "t"] [B "a"] f1 (TFile 292 (B "text"))); try reflexivity; [discriminate|]. right. exists 493%N. reflexivity. }
  specialize (H _ _ _ _ R5 ltac:(discriminate) (gs_task _ _ _ _ _ [B "a"] [] [] _ _ _ _ _ _ _ _ _ T) [B "t"; B "a"]). cbn [g_fs] in H. rewrite upd_same, E in H. discriminate.
Qed.

(** WriteChmod of a directory that may not be searched: whether it works depends on which task is first. *)
Definition odd_fs : tsys := fs_of [([B "d"], TDir 384); ([B "d"; B "a"], TFile 292 (B "text"))].
Notation chmod_reach := (greach 2 true false no_inline (chmod_task no_io [B "d"])).
Theorem C74_chmod_race_refuted : let acts := [AGo [B "d"]; AGo [B "d"; B "a"]] in
  (exists g, chmod_reach (start acts odd_fs) g /\ g_ret g = Some true) /\ (exists g, chmod_reach (start acts odd_fs) g /\ g_ret g = Some false).
Proof.
  cbv zeta. set (acts := [AGo [B "d"]; AGo [B "d"; B "a"]]).
  pose proof (gr_start 2 true false no_inline (chmod_task no_io [B "d"]) (start acts odd_fs)) as R. unfold start at 2, acts at 2 in R.
  pose proof (gr_step _ _ _ _ _ _ _ _ R (gs_check _ _ _ _ _ _ _ _ _ _ _ _ _)) as R2.
  assert (chmod_reach (start acts odd_fs) (Grp [AGo [B "d"; B "a"]] WNext [[B "d"]] false [] [] [] odd_fs None)) as R3 by (eapply gr_step; [exact R2|]; apply gs_go; cbn; lia).
  pose proof (gr_step _ _ _ _ _ _ _ _ R3 (gs_check _ _ _ _ _ _ _ _ _ _ _ _ _)) as R4.
  assert (chmod_reach (start acts odd_fs) (Grp [] WNext [[B "d"; B "a"]; [B "d"]] false [] [] [] odd_fs None)) as R5 by (eapply gr_step; [exact R4|]; apply gs_go; cbn; lia).
  pose proof (gr_step _ _ _ _ _ _ _ _ R5 (gs_end _ _ _ _ _ _ _ _ _ _ _ _)) as R6.
  split.
  - set (f1 := upd odd_fs [B "d"] (opened (TDir 384))).
    assert (chmod_reach (start acts odd_fs) (Grp [] (WEnd false) [[B "d"; B "a"]] false [] [[B "d"]] [] f1 None)) as R7.
    { eapply gr_step; [exact R6|]. apply (gs_task _ _ _ _ _ [B "d"] [[B "d"; B "a"]] []). apply ct_ok; try reflexivity. discriminate. }
    set (f2 := upd f1 [B "d"; B "a"] (opened (TFile 292 (B "text")))).
    assert (chmod_reach (start acts odd_fs) (Grp [] (WEnd false) [] false [] [[B "d"; B "a"]; [B "d"]] [] f2 None)) as R8.
    { eapply gr_step; [exact R7|]. apply (gs_task _ _ _ _ _ [B "d"; B "a"] [] []). apply ct_ok; try reflexivity. discriminate. }
    pose proof (gr_step _ _ _ _ _ _ _ _ R8 (gs_return _ _ _ _ _ _ _ _ _ _ _ _)) as R9. eexists. split; [exact R9|reflexivity].
  - assert (chmod_reach (start acts odd_fs) (Grp [] (WEnd false) [[B "d"]] true [[B "d"; B "a"]] [] [] odd_fs None)) as R7.
    { eapply gr_step; [exact R6|]. apply (gs_task_bad _ _ _ _ _ [B "d"; B "a"] [] [[B "d"]]). apply ct_bad. right. left. reflexivity. }
    set (f1 := upd odd_fs [B "d"] (opened (TDir 384))).
    assert (chmod_reach (start acts odd_fs) (Grp [] (WEnd false) [] true [[B "d"; B "a"]] [[B "d"]] [] f1 None)) as R8.
    { eapply gr_step; [exact R7|]. apply (gs_task _ _ _ _ _ [B "d"] [] []). apply ct_ok; try reflexivity. discriminate. }
    pose proof (gr_step _ _ _ _ _ _ _ _ R8 (gs_return _ _ _ _ _ _ _ _ _ _ _ _)) as R9. eexists. split; [exact R9|reflexivity].
Qed.
(** The permissions of read-only files and directories; links stay. *)
Example C74_opened_example : opened (TFile 292 (B "x")) = TFile 438 (B "x") /\ opened (TDir 365) = TDir 511 /\ opened (TLink (B "y")) = TLink (B "y").
Proof. repeat split. Qed.
(** 450 MB in two calls: two dots. *)
Example C74_dots_example : ((471859200 - 1) / log_size = 2)%N.
Proof. reflexivity. Qed.
Print Assumptions C74_copy_quiet_refuted.
Print Assumptions C74_chmod_race_refuted.
(** A tree that can be searched: what [C74_chmod_complete] and [C74_chmod_succeeds] ask for. *)
Definition good_fs : tsys := fs_of [([B "d"], TDir 365); ([B "d"; B "a"], TFile 292 (B "text"))].
Example C74_chmod_example : let acts := [AGo [B "d"]; AGo [B "d"; B "a"]] in walked [B "d"] good_fs acts /\ ~ In ABad acts /\
  (forall r x s, good_fs ([B "d"] ++ r ++ x :: s) <> None -> exists m, good_fs ([B "d"] ++ r) = Some (TDir m) /\ N.testbit m 6 = true).
Proof.
  assert (forall p, good_fs p <> None -> p = [B "d"] \/ p = [B "d"; B "a"]) as G.
  { intros p. unfold good_fs, fs_of. cbn [find fst snd]. repeat match goal with |- context [list_eq_dec ?d ?a ?b] => destruct (list_eq_dec d a b) as [?E|?E] end; cbn [snd]; intros H; [left; congruence|right; congruence|congruence]. }
  cbv zeta. split; [|split].
  - split; [reflexivity|]. split; [cbn; repeat constructor; cbn; intuition discriminate|]. intros p. cbn [gos flat_map app In]. split.
    + intros [<-|[<-|[]]]; (split; [|discriminate]); [exists []|exists [B "a"]]; reflexivity.
    + intros [_ H]. apply G in H. destruct H as [-> | ->]; tauto.
  - cbn. intuition discriminate.
  - intros r x s H. apply G in H. destruct r as [|y r]; cbn in H.
    + exists 365%N. split; reflexivity.
    + exfalso. destruct H as [H|H]; [discriminate|]. injection H as _ H. destruct r; discriminate.
Qed.
