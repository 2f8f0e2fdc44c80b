(** Property C88: every stage of a run is given what the stages before it gave. *)
From Verif Require Import Base Maps UtilModel ModuleModel EngineModel EngineProps EngineDataModel EngineDataProofs.
From Coq Require Import Permutation.

Section C88.
Context {W Fn Caller Reach Test Store Rep Mut Err : Type}.
Variable no_mutations : Mut.
Variable P : @providers W Fn Caller Reach Test Store Rep Mut Err.
Variable now : W -> Z.
Variable prepared : config -> config * bool.
Notation call := (@call Fn Caller Reach Test Store Rep Mut Err).
Notation run_data := (run_data no_mutations P now prepared).

(** Every call is given what earlier calls gave, and the configuration is the same for all providers. *)
Theorem C88_fed : forall c w, let '(_, c', s) := run_data c w in
  (forall a k b, s_log s = a ++ k :: b -> fed_by no_mutations c' a k) /\
  (forall c0 r, In (KSetup c0 r) (s_log s) -> dc c0 = fst (prepared (dc c)) /\ dc_gopath c0 = dc_gopath c /\ dc_modcache c0 = dc_modcache c /\ c' = snd r) /\
  ((forall c0 r, ~ In (KSetup c0 r) (s_log s)) -> dc c' = fst (prepared (dc c)) /\ dc_gopath c' = dc_gopath c /\ dc_modcache c' = dc_modcache c).
Proof.
  intros c w. unfold EngineDataModel.run_data. destruct (prepared (dc c)) as [c0 ok]. cbn [fst dc]. set (c1 := DConf c0 (dc_gopath c) (dc_modcache c)).
  assert (forall c', @good W Fn Caller Reach Test Store Rep Mut Err no_mutations c' (St w [] [])) as G0 by (intros c'; split; constructor).
  destruct ok; cbn [negb]; [|cbn; split; [intros [|] k b E; discriminate|split; [intros ? ? []|intros _; repeat split]]].
  destruct (c_tmp c0).
  - destruct (ask _ _ (St w [] [])) as [[r c2] s] eqn:E. assert (s_log s = [KSetup c1 (r, c2)] /\ s_defer s = []) as [L D] by (unfold ask in E; destruct (p_setup P c1 (s_w (St w [] []))) as [? ?]; injection E as -> <-; split; reflexivity).
    assert (fed no_mutations c2 (s_log s)) as F by (rewrite L; apply (fed_snoc no_mutations c2 [] _ (fed_nil _ _)); reflexivity). clear E.
    destruct r as [e|].
    + unfold finish. rewrite D. cbn [fold_left]. split; [apply fed_at, F|]. rewrite L. split; [intros c' r [[= <- <-]|[]]; repeat split|]. intros N. destruct (N c1 (Some e, c2)). left. reflexivity.
    + assert (good no_mutations c2 (later UTmp s)) as G.
      { split; [exact F|]. unfold owed. cbn [later s_log s_defer]. rewrite D. constructor; [|constructor]. exists c1. rewrite L. left. reflexivity. }
      pose proof (modules_good no_mutations P now c2 (now w) (later UTmp s) G) as G'. pose proof (modules_grows no_mutations P now c2 (now w) (later UTmp s)) as (ri & b & Lb).
      destruct (stage_modules _ _ _ _ _ _) as [e s']. cbn [snd] in G', Lb. pose proof (good_finish no_mutations P c2 s' G') as Ff. destruct (grows_finish P s') as [b' Lf]. cbn [later s_log] in Lb. rewrite L in Lb.
      split; [apply fed_at, Ff|]. split.
      * intros c' r I. apply in_split in I as (a & d & Es). pose proof (fed_at _ _ _ Ff a _ d Es) as K. cbn [fed_by] in K. subst a. rewrite Lf, Lb in Es. cbn in Es. injection Es as <- <- _. repeat split.
      * intros N. destruct (N c1 (None, c2)). rewrite Lf, Lb. left. reflexivity.
  - pose proof (modules_good no_mutations P now c1 (now w) _ (G0 c1)) as G'. pose proof (modules_grows no_mutations P now c1 (now w) (St w [] [])) as (ri & b & Lb).
    destruct (stage_modules _ _ _ _ _ _) as [e s']. cbn [snd] in G', Lb. pose proof (good_finish no_mutations P c1 s' G') as Ff. destruct (grows_finish P s') as [b' Lf].
    split; [apply fed_at, Ff|]. split; [|intros _; repeat split].
    intros c' r I. apply in_split in I as (a & d & Es). pose proof (fed_at _ _ _ Ff a _ d Es) as K. cbn [fed_by] in K. subst a. rewrite Lf, Lb in Es. discriminate Es.
Qed.

(** ** The order of the calls is that of C42 *)
Definition ok_of {A} (r : Err + A) : bool := match r with inr _ => true | inl _ => false end.
Definition none_of {A} (r : option A) : bool := match r with None => true | Some _ => false end.
(** The calls without their data; a report counts as made from a comparison when there was one before it. *)
Fixpoint forget (compared : bool) (l : list call) : list event :=
  match l with
  | [] => []
  | k :: l' =>
    match k with
    | KSetup _ r => [VSetup (none_of (fst r))]
    | KInitial _ _ => []
    | KModules _ _ _ _ r => [VModules (ok_of r)]
    | KCallers _ _ r => [VCallers (ok_of r)]
    | KTests _ _ r => [VTests (ok_of r)]
    | KOpen r => [VOpen (ok_of r)]
    | KExec _ _ _ _ _ _ r => [VExec (ok_of r)]
    | KMutate _ f ln t _ _ r => [VMutate f ln t (ok_of r)]
    | KCompare _ _ _ r => [VCompare (ok_of r)]
    | KReport a r => [VReport (RInfo (ra_funcs a) (length (ra_callers a)) (length (ra_tests a)) compared) (none_of r)]
    | KUndo UTmp => [VRemoveTmp]
    | KUndo UModules => [VCleanModules]
    | KUndo UCallers => [VCleanCallers]
    | KUndo UTests => [VCleanTests]
    | KUndo (UStore _) => [VClose]
    | KUndo UExec => [VCleanExec]
    | KUndo UMutate => [VCleanMutate]
    end ++ forget (compared || match k with KCompare _ _ _ (inr _) => true | _ => false end) l'
  end.
(** Which provider's function, or which undoing, a call is. *)
Definition kind (k : call) : nat :=
  match k with
  | KSetup _ _ => 0 | KInitial _ _ => 1 | KModules _ _ _ _ _ => 2 | KCallers _ _ _ => 3 | KTests _ _ _ => 4 | KOpen _ => 5 | KExec _ _ _ _ _ _ _ => 6
  | KMutate _ _ _ _ _ _ _ => 7 | KCompare _ _ _ _ => 8 | KReport _ _ => 9
  | KUndo UTmp => 10 | KUndo UModules => 11 | KUndo UCallers => 12 | KUndo UTests => 13 | KUndo (UStore _) => 14 | KUndo UExec => 15 | KUndo UMutate => 16
  end%nat.
Definition succeeded (e : @ending Err) : bool := match e with Done | NoModules => true | _ => false end.
(** setupTempEnvironment changes directories only. *)
Definition only_dirs : Prop := forall c w, exists a, dc (snd (fst (p_setup P c w))) = set_abs (dc c) a.
(** How the calls turned out. *)
Definition turned_out (d : world) (k : call) : world :=
  let 'World a b i m cs t o x mu cm r := d in
  match k with
  | KSetup _ (q, _) => World a (none_of q) i m cs t o x mu cm r
  | KInitial _ q => World a b (match q with inr (l, _, _) => Some (length l) | inl _ => None end) m cs t o x mu cm r
  | KModules _ _ _ _ q => World a b i (match q with inr l => Some (length (snd (flatten_modules l))) | inl _ => None end) cs t o x mu cm r
  | KCallers _ _ q => World a b i m (match q with inr (l, _) => Some (length l) | inl _ => None end) t o x mu cm r
  | KTests _ _ q => World a b i m cs (match q with inr l => Some (length l) | inl _ => None end) o x mu cm r
  | KOpen q => World a b i m cs t (ok_of q) x mu cm r
  | KExec _ _ _ _ _ _ q => World a b i m cs t o (ok_of q) mu cm r
  | KMutate _ _ _ _ _ _ q => World a b i m cs t o x (ok_of q) cm r
  | KCompare _ _ _ q => World a b i m cs t o x mu (ok_of q) r
  | KReport _ q => World a b i m cs t o x mu cm (none_of q)
  | KUndo _ => d
  end.
Definition world_of (ok : bool) (l : list call) : world := fold_left turned_out l (World ok true None None None None true true true true true).
Fixpoint distinct_b (l : list nat) : bool := match l with [] => true | x :: l' => negb (existsb (Nat.eqb x) l') && distinct_b l' end.
Lemma distinct_ok l : distinct_b l = true -> NoDup l.
Proof.
  induction l as [|x l IH]; [constructor|]. cbn. intros H. apply andb_true_iff in H as [H1 H2]. constructor; [|exact (IH H2)]. intros I. apply negb_true_iff in H1.
  assert (existsb (Nat.eqb x) l = true) as E by (apply existsb_exists; exists x; split; [exact I|apply Nat.eqb_refl]). congruence.
Qed.
Ltac leaf := cbn -[flatten_modules beq B]; repeat match goal with E : flatten_modules ?m = _ |- _ => rewrite E end; repeat match goal with E : beq _ _ = _ |- _ => rewrite E end; cbn -[flatten_modules beq B]; repeat split; reflexivity.
Definition agree (c' : dconf) (e : @ending Err) (l : list call) : Prop :=
  forget false l = fst (run (dc c') (world_of true l)) /\ succeeded e = snd (run (dc c') (world_of true l)) /\ distinct_b (map kind l) = true.
Lemma stages c t0 w l d : (c_tmp (dc c) = false /\ l = [] /\ d = [] \/ c_tmp (dc c) = true /\ (exists c1, l = [KSetup c1 (None, c)]) /\ d = [UTmp]) ->
  let '(e, s) := stage_modules no_mutations P now c t0 (St w l d) in agree c e (s_log (finish P s)).
Proof.
  intros H. unfold agree, stage_modules, stage_static, stage_exec, stage_compare, report, ask, later, finish, run.
  assert (exists tmp, c_tmp (dc c) = tmp) as [tmp Et] by eauto. rewrite Et in *.
  cbn [s_w s_log s_defer]. destruct (p_initial P c w) as [[e|[[[|m0 ms] ex] rad]] w1].
  1,2: destruct H as [(-> & -> & ->)|(-> & (c1 & ->) & ->)]; leaf.
  cbn [s_w s_log s_defer]. destruct (p_modules P c ex (m0 :: ms) rad w1) as [[e|m] w2].
  1: destruct H as [(-> & -> & ->)|(-> & (c1 & ->) & ->)]; leaf.
  destruct (flatten_modules m) as [names [|fn fns]] eqn:Ef; cbn [s_w s_log s_defer].
  1: destruct (p_report P _ w2) as [[e|] w3]; destruct H as [(-> & -> & ->)|(-> & (c1 & ->) & ->)]; leaf.
  destruct (p_callers P c (fn :: fns) w2) as [[e|[[|cl cs] reach]] w3]; cbn [s_w s_log s_defer].
  1: destruct H as [(-> & -> & ->)|(-> & (c1 & ->) & ->)]; leaf.
  1: destruct (p_report P _ w3) as [[e|] w4]; destruct H as [(-> & -> & ->)|(-> & (c1 & ->) & ->)]; leaf.
  destruct (p_tests P c (cl :: cs) w3) as [[e|[|tt ts]] w4]; cbn [s_w s_log s_defer].
  1: destruct H as [(-> & -> & ->)|(-> & (c1 & ->) & ->)]; leaf.
  1: destruct (p_report P _ w4) as [[e|] w5]; destruct H as [(-> & -> & ->)|(-> & (c1 & ->) & ->)]; leaf.
  destruct (p_open P w4) as [[e|store] w5]; cbn [s_w s_log s_defer].
  1: destruct H as [(-> & -> & ->)|(-> & (c1 & ->) & ->)]; leaf.
  destruct (p_exec P c store (m0 :: ms) reach (cl :: cs) (tt :: ts) w5) as [[e|x] w6]; cbn [s_w s_log s_defer].
  1: destruct H as [(-> & -> & ->)|(-> & (c1 & ->) & ->)]; leaf.
  destruct (beq (c_scope (dc c)) (B "none")) eqn:Es.
  - cbn [s_w s_log s_defer]. destruct (p_compare P _ _ _ w6) as [[e|[[same diff] reps]] w7]; cbn [s_w s_log s_defer].
    1: destruct H as [(-> & -> & ->)|(-> & (c1 & ->) & ->)]; leaf.
    destruct (p_report P _ w7) as [[e|] w8]; destruct H as [(-> & -> & ->)|(-> & (c1 & ->) & ->)]; leaf.
  - destruct (p_mutate P c _ _ _ (fn :: fns) (tt :: ts) w6) as [[e|mu] w7]; cbn [s_w s_log s_defer].
    1: destruct H as [(-> & -> & ->)|(-> & (c1 & ->) & ->)]; leaf.
    destruct (p_compare P _ _ _ w7) as [[e|[[same diff] reps]] w8]; cbn [s_w s_log s_defer].
    1: destruct H as [(-> & -> & ->)|(-> & (c1 & ->) & ->)]; leaf.
    destruct (p_report P _ w8) as [[e|] w9]; destruct H as [(-> & -> & ->)|(-> & (c1 & ->) & ->)]; leaf.
Qed.
Lemma prepare_kept l : forall d, w_prepare (fold_left turned_out l d) = w_prepare d.
Proof. induction l as [|k l IH]; intros d; [reflexivity|]. cbn [fold_left]. rewrite IH. destruct d, k as [? []| | | | | | | | | |]; reflexivity. Qed.
(** The calls of a run with data are those of a run of C42, with the outcomes the calls had; none is made twice. *)
Theorem C88_same_calls : forall c w, only_dirs -> let '(e, c', s) := run_data c w in
  exists wd, forget false (s_log s) = fst (run (dc c') wd) /\ succeeded e = snd (run (dc c') wd) /\ w_prepare wd = snd (prepared (dc c)) /\ NoDup (map kind (s_log s)).
Proof.
  intros c w OD. unfold EngineDataModel.run_data. destruct (prepared (dc c)) as [c0 ok]. cbn [fst snd dc]. destruct ok; cbn [negb].
  2:{ exists (World false true None None None None true true true true true). repeat split. constructor. }
  destruct (c_tmp c0) eqn:Et.
  - unfold ask. cbn [s_w s_log s_defer]. set (c1 := DConf c0 (dc_gopath c) (dc_modcache c)). specialize (OD c1 w). destruct (p_setup P c1 w) as [[r c2] w1]. destruct OD as [a OD]. cbn [fst snd] in OD.
    assert (c_tmp (dc c2) = true) as Et2 by (rewrite OD; exact Et).
    destruct r as [e|].
    + exists (World true false None None None None true true true true true). cbn. unfold run. cbn. rewrite Et2. cbn. repeat split. constructor; [intros []|constructor].
    + pose proof (stages c2 (now w) w1 ([] ++ [KSetup c1 (None, c2)]) [UTmp]) as K. unfold later. cbn [s_w s_log s_defer]. destruct (stage_modules _ _ _ _ _ _) as [e s]. destruct K as (A & C & D); [right; split; [exact Et2|]; split; [exists c1; reflexivity|reflexivity]|].
      exists (world_of true (s_log (finish P s))). split; [exact A|]. split; [exact C|]. split; [apply prepare_kept|apply distinct_ok, D].
  - pose proof (stages (DConf c0 (dc_gopath c) (dc_modcache c)) (now w) w [] []) as K. destruct (stage_modules _ _ _ _ _ _) as [e s]. destruct K as (A & C & D); [left; split; [exact Et|]; split; reflexivity|].
    exists (world_of true (s_log (finish P s))). split; [exact A|]. split; [exact C|]. split; [apply prepare_kept|apply distinct_ok, D].
Qed.
End C88.
Print Assumptions C88_fed.
Print Assumptions C88_same_calls.
