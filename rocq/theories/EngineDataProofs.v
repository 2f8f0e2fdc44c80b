(** Proofs about a run of the engine with its data. *)
From Verif Require Import Base Maps UtilModel ModuleModel EngineModel EngineDataModel.
From Coq Require Import Permutation.

Section Flow.
Context {W Fn Caller Reach Test Store Rep Mut Err : Type}.
Variable no_mutations : Mut.
Variable P : @providers W Fn Caller Reach Test Store Rep Mut Err.
Variable now : W -> Z.
Notation call := (@call Fn Caller Reach Test Store Rep Mut Err).
Notation st := (@st W Fn Caller Reach Test Store Rep Mut Err).
Notation rargs := (@rargs Caller Test Rep Mut).
Variable c : dconf.

(** The functions of all modules, module by module in order of names. *)
Definition in_order (m : list (bytes * list Fn)) (names : list bytes) (fns : list Fn) : Prop :=
  Permutation names (mkeys m) /\ bsort names = names /\ fns = flat_map (fun k => match mget k m with Some l => l | None => [] end) names.
(** An early report: nothing was compared. *)
Definition early_report (a : rargs) : Prop := ra_same a = 0%Z /\ ra_diff a = 0%Z /\ ra_reports a = [] /\ ra_mutations a = no_mutations /\ ra_reached a = 0%Z /\ ra_skipped a = 0%Z /\ ra_checks a = 0%Z.
(** What a call is given was given by calls before it. *)
Definition fed_by (a : list call) (k : call) : Prop :=
  match k with
  | KSetup _ _ => a = []
  | KInitial c' _ => c' = c
  | KModules c' ex ms ra _ => c' = c /\ ms <> [] /\ In (KInitial c (inr (ms, ex, ra))) a
  | KCallers c' fns _ => c' = c /\ fns <> [] /\ exists ex ms ra m names, In (KModules c ex ms ra (inr m)) a /\ in_order m names fns
  | KTests c' cs _ => c' = c /\ cs <> [] /\ exists fns reach, In (KCallers c fns (inr (cs, reach))) a
  | KOpen _ => exists cs ts, ts <> [] /\ In (KTests c cs (inr ts)) a
  | KExec c' store ms reach cs ts _ => c' = c /\ In (KOpen (inr store)) a /\ (exists ex ra, In (KInitial c (inr (ms, ex, ra))) a) /\
      (exists fns, In (KCallers c fns (inr (cs, reach))) a) /\ In (KTests c cs (inr ts)) a
  | KMutate c' fast line targeted fns ts _ => c' = c /\ c_scope (dc c) <> B "none" /\ (line = true <-> c_scope (dc c) = B "line" \/ c_scope (dc c) = B "area") /\
      (fast = true <-> c_mode (dc c) <> B "full") /\ (targeted = true <-> c_tests (dc c) <> B "full") /\
      exists store ms reach cs x, In (KExec c store ms reach cs ts (inr x)) a /\ In (KCallers c fns (inr (cs, reach))) a
  | KCompare pre post mult _ => mult = c_mult (dc c) /\ exists store ms reach cs ts x, In (KExec c store ms reach cs ts (inr x)) a /\ x_pre x = pre /\ x_post x = post
  | KReport ra _ => ra_json ra = c_json (dc c) /\ ra_charts ra = c_charts (dc c) /\ exists ex rad m fns,
      In (KInitial c (inr (ra_changed ra, ex, rad))) a /\ In (KModules c ex (ra_changed ra) rad (inr m)) a /\ in_order m (ra_checked ra) fns /\
      (fns = [] /\ ra_callers ra = [] /\ ra_tests ra = [] /\ ra_funcs ra = 0%nat /\ early_report ra \/
       exists reach, In (KCallers c fns (inr (ra_callers ra, reach))) a /\
         (ra_callers ra = [] /\ ra_tests ra = [] /\ ra_funcs ra = 0%nat /\ early_report ra \/
          In (KTests c (ra_callers ra) (inr (ra_tests ra))) a /\ ra_funcs ra = length fns /\
            (ra_tests ra = [] /\ early_report ra \/
             exists store x, In (KOpen (inr store)) a /\ In (KExec c store (ra_changed ra) reach (ra_callers ra) (ra_tests ra) (inr x)) a /\
               In (KCompare (x_pre x) (x_post x) (c_mult (dc c)) (inr (ra_same ra, ra_diff ra, ra_reports ra))) a /\
               ra_reached ra = x_reached x /\ ra_skipped ra = x_skipped x /\ ra_checks ra = x_checks x /\
               (c_scope (dc c) = B "none" /\ ra_mutations ra = no_mutations \/ c_scope (dc c) <> B "none" /\ exists f l t, In (KMutate c f l t fns (ra_tests ra) (inr (ra_mutations ra))) a))))
  | KUndo u =>
      match u with
      | UTmp => exists c0, In (KSetup c0 (None, c)) a
      | UModules => exists ex ms ra m, In (KModules c ex ms ra (inr m)) a
      | UCallers => exists fns r, In (KCallers c fns (inr r)) a
      | UTests => exists cs ts, In (KTests c cs (inr ts)) a
      | UStore s => In (KOpen (inr s)) a
      | UExec => exists s ms reach cs ts x, In (KExec c s ms reach cs ts (inr x)) a
      | UMutate => exists f l t fns ts mu, In (KMutate c f l t fns ts (inr mu)) a
      end
  end.
Inductive fed : list call -> Prop :=
  | fed_nil : fed []
  | fed_snoc a k : fed a -> fed_by a k -> fed (a ++ [k]).
Lemma fed_at l : fed l -> forall a k b, l = a ++ k :: b -> fed_by a k.
Proof.
  induction 1 as [|l k F IH K]; intros a k' b E; [destruct a; discriminate|].
  destruct b as [|x b] using rev_ind; [apply app_inj_tail in E as [-> ->]; exact K|]. clear IHb. rewrite app_comm_cons, app_assoc in E. apply app_inj_tail in E as [E _]. exact (IH _ _ _ E).
Qed.
(** What is deferred is justified, also later. *)
Definition owed (s : st) : Prop := Forall (fun u => fed_by (s_log s) (KUndo u)) (s_defer s).
Lemma owed_more a b u : fed_by a (KUndo u) -> fed_by (a ++ b) (KUndo u).
Proof.
  destruct u; cbn; intros H; repeat match goal with H : exists _, _ |- _ => destruct H as [? H] end; repeat eexists; apply in_or_app; left; exact H.
Qed.
Definition good (s : st) : Prop := fed (s_log s) /\ owed s.
Lemma good_ask {A} (f : W -> A * W) (k : A -> call) s r s' : good s -> ask f k s = (r, s') -> fed_by (s_log s) (k r) -> good s' /\ s_log s' = s_log s ++ [k r].
Proof.
  intros [F O] E K. unfold ask in E. destruct (f (s_w s)) as [r0 w]. injection E as -> <-. cbn [s_log s_defer]. split; [|reflexivity]. split; cbn [s_log]; [constructor; assumption|].
  unfold owed in *. cbn [s_log s_defer]. eapply Forall_impl; [|exact O]. intros u. apply owed_more.
Qed.
Lemma good_later u s : good s -> fed_by (s_log s) (KUndo u) -> good (later u s).
Proof. intros [F O] K. split; [exact F|]. constructor; [exact K|exact O]. Qed.
Lemma good_finish s : good s -> fed (s_log (finish P s)).
Proof.
  intros [F O]. unfold finish. unfold owed in O. revert F O. generalize (s_defer s) at 1 2. intros l. revert s. induction l as [|u l IH]; intros s F O; [exact F|]. inversion O as [|? ? K O']; subst. cbn [fold_left]. apply IH; cbn [s_log].
  - constructor; assumption.
  - eapply Forall_impl; [|exact O']. intros v. apply owed_more.
Qed.

Ltac asked E F := let G := fresh "G" in let L := fresh "L" in
  match type of E with ask ?f ?k ?s = (?r, ?s') => destruct (good_ask f k s r s' F E) as [G L] end.
Lemma in_last {A} (a : list A) x : In x (a ++ [x]).
Proof. apply in_or_app. right. left. reflexivity. Qed.
Lemma in_more {A} (a b : list A) x : In x a -> In x (a ++ b).
Proof. intros H. apply in_or_app. left. exact H. Qed.
Lemma flatten_order m names fns : flatten_modules m = (names, fns) -> in_order m names fns.
Proof. unfold flatten_modules. intros [= <- <-]. split; [apply bsort_perm|]. split; [apply bsort_unique, bsort_perm|reflexivity]. Qed.
Lemma report_good a s : good s -> fed_by (s_log s) (KReport a None) -> good (snd (report P a s)).
Proof.
  intros G K. unfold report. destruct (ask _ _ s) as [r s'] eqn:E. destruct (good_ask _ _ _ _ _ G E) as [G' _]; [exact K|]. exact G'.
Qed.
Lemma compare_good t0 t1 t2 t3 ms ex rad m names fns cs reach ts store x mu s : good s ->
  In (KInitial c (inr (ms, ex, rad))) (s_log s) -> In (KModules c ex ms rad (inr m)) (s_log s) -> in_order m names fns -> In (KCallers c fns (inr (cs, reach))) (s_log s) ->
  In (KTests c cs (inr ts)) (s_log s) -> In (KOpen (inr store)) (s_log s) -> In (KExec c store ms reach cs ts (inr x)) (s_log s) ->
  (c_scope (dc c) = B "none" /\ mu = no_mutations \/ c_scope (dc c) <> B "none" /\ exists f l t, In (KMutate c f l t fns ts (inr mu)) (s_log s)) ->
  good (snd (stage_compare P now c t0 t1 t2 t3 ms names fns cs ts x mu s)).
Proof.
  intros G I1 I2 O I3 I4 I5 I6 Hm. unfold stage_compare. destruct (ask _ _ s) as [r s'] eqn:E. destruct (good_ask _ _ _ _ _ G E) as [G' L]; [split; [reflexivity|]; exists store, ms, reach, cs, ts, x; auto|].
  destruct r as [e|[[same diff] reps]]; [exact G'|]. apply report_good; [exact G'|]. rewrite L. cbn [fed_by ra_json ra_charts ra_changed ra_checked ra_callers ra_tests ra_funcs ra_same ra_diff ra_reports ra_mutations ra_reached ra_skipped ra_checks].
  split; [reflexivity|]. split; [reflexivity|]. exists ex, rad, m, fns. split; [apply in_more, I1|]. split; [apply in_more, I2|]. split; [exact O|]. right. exists reach. split; [apply in_more, I3|]. right. split; [apply in_more, I4|]. split; [reflexivity|].
  right. exists store, x. split; [apply in_more, I5|]. split; [apply in_more, I6|]. split; [apply in_last|]. split; [reflexivity|]. split; [reflexivity|]. split; [reflexivity|].
  destruct Hm as [Hm|(N & f & l & t & I)]; [left; exact Hm|right]. split; [exact N|]. exists f, l, t. apply in_more, I.
Qed.
Lemma beq_true_iff a b : beq a b = true <-> a = b.
Proof. split; [apply beq_true|intros ->; apply beq_refl]. Qed.
Lemma negb_beq a b : negb (beq a b) = true <-> a <> b.
Proof. rewrite negb_true_iff. split; [intros H; apply beq_false, H|intros H; apply beq_false, H]. Qed.
Lemma exec_good t0 t1 t2 ms ex rad m names fns cs reach ts s : good s -> ts <> [] ->
  In (KInitial c (inr (ms, ex, rad))) (s_log s) -> In (KModules c ex ms rad (inr m)) (s_log s) -> in_order m names fns -> In (KCallers c fns (inr (cs, reach))) (s_log s) ->
  In (KTests c cs (inr ts)) (s_log s) -> good (snd (stage_exec no_mutations P now c t0 t1 t2 ms names fns cs reach ts s)).
Proof.
  intros G N I1 I2 O I3 I4. unfold stage_exec. destruct (ask _ _ s) as [r s1] eqn:E. destruct (good_ask _ _ _ _ _ G E) as [G1 L1]; [exists cs, ts; auto|].
  destruct r as [e|store]; [exact G1|]. pose proof (good_later (UStore store) s1 G1) as G2. cbn [fed_by] in G2. rewrite L1 in G2. specialize (G2 (in_last _ _)). clear E.
  destruct (ask _ _ (later (UStore store) s1)) as [r s2] eqn:E. destruct (good_ask _ _ _ _ _ G2 E) as [G3 L2]; cbn [later s_log] in *; rewrite L1 in *.
  { split; [reflexivity|]. split; [apply in_last|]. split; [exists ex, rad; apply in_more, I1|]. split; [exists fns; apply in_more, I3|apply in_more, I4]. }
  destruct r as [e|x]; [exact G3|]. pose proof (good_later UExec s2 G3) as G4. cbn [fed_by] in G4. rewrite L2 in G4. specialize (G4 (ex_intro _ store (ex_intro _ ms (ex_intro _ reach (ex_intro _ cs (ex_intro _ ts (ex_intro _ x (in_last _ _)))))))). clear E G1 G2 G3.
  assert (forall k, In k (s_log s) -> In k (s_log (later UExec s2))) as Up by (intros k I; cbn [later s_log]; rewrite L2; apply in_more, in_more, I).
  assert (In (KExec c store ms reach cs ts (inr x)) (s_log (later UExec s2))) as IX by (cbn [later s_log]; rewrite L2; apply in_last).
  assert (In (KOpen (inr store)) (s_log (later UExec s2))) as IO by (cbn [later s_log]; rewrite L2; apply in_more, in_last).
  destruct (beq (c_scope (dc c)) (B "none")) eqn:Es.
  - apply beq_true in Es. apply (compare_good t0 t1 t2 _ ms ex rad m names fns cs reach ts store); auto.
  - apply beq_false in Es. destruct (ask _ _ (later UExec s2)) as [r s3] eqn:E. destruct (good_ask _ _ _ _ _ G4 E) as [G5 L3].
    { split; [reflexivity|]. split; [exact Es|]. split; [rewrite orb_true_iff, !beq_true_iff; reflexivity|]. split; [apply negb_beq|]. split; [apply negb_beq|]. exists store, ms, reach, cs, x. auto. }
    destruct r as [e|mu]; [exact G5|]. 
    apply (compare_good t0 t1 t2 _ ms ex rad m names fns cs reach ts store); cbn [later s_log]; try rewrite L3; try (apply in_more; auto; fail); [|exact O|].
    + apply good_later; [exact G5|]. cbn [fed_by]. rewrite L3. do 6 eexists. apply in_last.
    + right. split; [exact Es|]. do 3 eexists. apply in_last.
Qed.
Lemma static_good t0 ms ex rad m s : good s -> In (KInitial c (inr (ms, ex, rad))) (s_log s) -> In (KModules c ex ms rad (inr m)) (s_log s) ->
  good (snd (stage_static no_mutations P now c t0 ms m s)).
Proof.
  intros G I1 I2. unfold stage_static. destruct (flatten_modules m) as [names fns] eqn:Ef. apply flatten_order in Ef.
  assert (good (later UModules s)) as G1 by (apply good_later; [exact G|]; exists ex, ms, rad, m; exact I2).
  assert (early_report (RArgs (c_json (dc c)) (c_charts (dc c)) t0 0 0 0 0 ms names 0 0 0 0 [] [] 0 0 [] no_mutations)) as Er by (repeat split).
  destruct fns as [|fn fns].
  { apply report_good; [exact G1|]. cbn. split; [reflexivity|]. split; [reflexivity|]. exists ex, rad, m, []. split; [exact I1|]. split; [exact I2|]. split; [exact Ef|]. left. split; [reflexivity|]. split; [reflexivity|]. split; [reflexivity|]. split; [reflexivity|]. repeat split. }
  destruct (ask _ _ (later UModules s)) as [r s1] eqn:E. destruct (good_ask _ _ _ _ _ G1 E) as [G2 L1].
  { split; [reflexivity|]. split; [discriminate|]. exists ex, ms, rad, m, names. split; [exact I2|exact Ef]. }
  cbn [later s_log] in L1. destruct r as [e|[cs reach]]; [exact G2|]. clear E.
  assert (good (later UCallers s1)) as G3 by (apply good_later; [exact G2|]; cbn [fed_by]; rewrite L1; do 2 eexists; apply in_last).
  destruct cs as [|c1 cs].
  { apply report_good; [exact G3|]. cbn [later s_log]. rewrite L1. cbn. split; [reflexivity|]. split; [reflexivity|]. exists ex, rad, m, (fn :: fns). split; [apply in_more, I1|]. split; [apply in_more, I2|]. split; [exact Ef|]. right. exists reach. split; [apply in_last|]. left. repeat split. }
  destruct (ask _ _ (later UCallers s1)) as [r s2] eqn:E. destruct (good_ask _ _ _ _ _ G3 E) as [G4 L2].
  { split; [reflexivity|]. split; [discriminate|]. cbn [later s_log]. rewrite L1. do 2 eexists. apply in_last. }
  cbn [later s_log] in L2. destruct r as [e|ts]; [exact G4|]. clear E.
  assert (good (later UTests s2)) as G5 by (apply good_later; [exact G4|]; cbn [fed_by]; rewrite L2; do 2 eexists; apply in_last).
  assert (forall k, In k (s_log s) -> In k (s_log (later UTests s2))) as Up by (intros k I; cbn [later s_log]; rewrite L2, L1; apply in_more, in_more, I).
  assert (In (KCallers c (fn :: fns) (inr (c1 :: cs, reach))) (s_log (later UTests s2))) as IC by (cbn [later s_log]; rewrite L2, L1; apply in_more, in_last).
  assert (In (KTests c (c1 :: cs) (inr ts)) (s_log (later UTests s2))) as IT by (cbn [later s_log]; rewrite L2; apply in_last).
  destruct ts as [|tt ts].
  - apply report_good; [exact G5|]. cbn. split; [reflexivity|]. split; [reflexivity|]. exists ex, rad, m, (fn :: fns). split; [apply Up, I1|]. split; [apply Up, I2|]. split; [exact Ef|]. right. exists reach. split; [exact IC|]. right. split; [exact IT|]. split; [reflexivity|]. left. repeat split.
  - apply (exec_good t0 _ _ ms ex rad m); auto. discriminate.
Qed.
Lemma modules_good t0 s : good s -> good (snd (stage_modules no_mutations P now c t0 s)).
Proof.
  intros G. unfold stage_modules. destruct (ask _ _ s) as [r s1] eqn:E. destruct (good_ask _ _ _ _ _ G E) as [G1 L1]; [reflexivity|]. clear E.
  destruct r as [e|[[[|m0 ms] ex] rad]]; [exact G1|exact G1|]. destruct (ask _ _ s1) as [r s2] eqn:E. destruct (good_ask _ _ _ _ _ G1 E) as [G2 L2]; [split; [reflexivity|]; split; [discriminate|]; rewrite L1; apply in_last|]. clear E.
  destruct r as [e|m]; [exact G2|]. apply (static_good t0 (m0 :: ms) ex rad m); [exact G2| |]; rewrite L2; [apply in_more; rewrite L1; apply in_last|apply in_last].
Qed.

(** The log only grows. *)
Definition grows (s s' : st) : Prop := exists b, s_log s' = s_log s ++ b.
Lemma grows_refl s : grows s s.
Proof. exists []. symmetry. apply app_nil_r. Qed.
Lemma grows_trans s s1 s2 : grows s s1 -> grows s1 s2 -> grows s s2.
Proof. intros [a Ha] [b Hb]. exists (a ++ b). rewrite Hb, Ha. symmetry. apply app_assoc. Qed.
Lemma grows_later u s : grows s (later u s).
Proof. apply (grows_refl s). Qed.
Lemma grows_ask {A} (f : W -> A * W) (k : A -> call) s r s' : ask f k s = (r, s') -> s_log s' = s_log s ++ [k r] /\ grows s s'.
Proof. unfold ask. destruct (f (s_w s)) as [r0 w]. intros [= -> <-]. cbn. split; [reflexivity|]. exists [k r]. reflexivity. Qed.
Lemma grows_finish s : grows s (finish P s).
Proof.
  unfold finish. generalize (s_defer s) at 1. intros l. revert s. induction l as [|u l IH]; intros s; [apply grows_refl|]. cbn [fold_left]. eapply grows_trans; [|apply IH]. exists [KUndo u]. reflexivity.
Qed.
Lemma report_grows a s : grows s (snd (report P a s)).
Proof. unfold report. destruct (ask _ _ s) as [r s1] eqn:E. destruct (grows_ask _ _ _ _ _ E) as [_ G]. exact G. Qed.
Lemma compare_grows t0 t1 t2 t3 ms names fns cs ts x mu s : grows s (snd (stage_compare P now c t0 t1 t2 t3 ms names fns cs ts x mu s)).
Proof. unfold stage_compare. destruct (ask _ _ s) as [r s1] eqn:E. destruct (grows_ask _ _ _ _ _ E) as [_ G]. destruct r as [e|[[same diff] reps]]; [exact G|]. eapply grows_trans; [exact G|apply report_grows]. Qed.
Lemma exec_grows t0 t1 t2 ms names fns cs reach ts s : grows s (snd (stage_exec no_mutations P now c t0 t1 t2 ms names fns cs reach ts s)).
Proof.
  unfold stage_exec. destruct (ask _ _ s) as [r s1] eqn:E. destruct (grows_ask _ _ _ _ _ E) as [_ G]. clear E. destruct r as [e|store]; [exact G|]. apply (grows_trans _ _ _ G). destruct (ask _ _ (later (UStore store) s1)) as [r s2] eqn:E. destruct (grows_ask _ _ _ _ _ E) as [_ G2]. clear E. change (grows s1 s2) in G2.
  destruct r as [e|x]; [exact G2|]. apply (grows_trans _ _ _ G2). destruct (beq _ _); [exact (compare_grows _ _ _ _ _ _ _ _ _ _ _ (later UExec s2))|]. destruct (ask _ _ (later UExec s2)) as [r s3] eqn:E. destruct (grows_ask _ _ _ _ _ E) as [_ G3]. change (grows s2 s3) in G3.
  destruct r as [e|mu]; [exact G3|]. apply (grows_trans _ _ _ G3). exact (compare_grows _ _ _ _ _ _ _ _ _ _ _ (later UMutate s3)).
Qed.
Lemma static_grows t0 ms m s : grows s (snd (stage_static no_mutations P now c t0 ms m s)).
Proof.
  unfold stage_static. destruct (flatten_modules m) as [names [|fn fns]]; [exact (report_grows _ (later UModules s))|]. destruct (ask _ _ (later UModules s)) as [r s1] eqn:E. destruct (grows_ask _ _ _ _ _ E) as [_ G]. change (grows s s1) in G. clear E.
  destruct r as [e|[[|c1 cs] reach]]; [exact G|apply (grows_trans _ _ _ G); exact (report_grows _ (later UCallers s1))|]. apply (grows_trans _ _ _ G). destruct (ask _ _ (later UCallers s1)) as [r s2] eqn:E. destruct (grows_ask _ _ _ _ _ E) as [_ G2]. change (grows s1 s2) in G2. clear E.
  destruct r as [e|[|tt ts]]; [exact G2|apply (grows_trans _ _ _ G2); exact (report_grows _ (later UTests s2))|]. apply (grows_trans _ _ _ G2). exact (exec_grows _ _ _ _ _ _ _ _ _ (later UTests s2)).
Qed.
Lemma modules_grows t0 s : exists r b, s_log (snd (stage_modules no_mutations P now c t0 s)) = s_log s ++ KInitial c r :: b.
Proof.
  unfold stage_modules. destruct (ask _ _ s) as [r s1] eqn:E. destruct (grows_ask _ _ _ _ _ E) as [L _]. clear E. exists r.
  assert (forall s2, grows s1 s2 -> exists b, s_log s2 = s_log s ++ KInitial c r :: b) as K by (intros s2 [b Hb]; exists b; rewrite Hb, L, <- app_assoc; reflexivity).
  destruct r as [e|[[[|m0 ms] ex] rad]]; [apply K, grows_refl|apply K, grows_refl|]. destruct (ask _ _ s1) as [r s2] eqn:E. destruct (grows_ask _ _ _ _ _ E) as [_ G]. destruct r as [e|m]; apply K; [exact G|]. exact (grows_trans _ _ _ G (static_grows _ _ _ s2)).
Qed.
End Flow.
