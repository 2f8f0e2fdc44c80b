(** Property C88, further: times, the order of the modules, error messages, running twice, and the default providers. *)
From Verif Require Import Base Maps UtilModel ModuleModel EngineModel EngineProps EngineDataModel EngineDataProofs EngineDataProps.
From Coq Require Import Permutation.

(** ** Times *)
Section Times.
Context {W Fn Caller Reach Test Store Rep Mut Err : Type}.
Variable no_mutations : Mut.
Variable P : @providers W Fn Caller Reach Test Store Rep Mut Err.
Variable now : W -> Z.
Variable prepared : config -> config * bool.
Notation call := (@call Fn Caller Reach Test Store Rep Mut Err).
Notation st := (@st W Fn Caller Reach Test Store Rep Mut Err).
Definition forward {A} (f : W -> A * W) : Prop := forall w, (now w <= now (snd (f w)))%Z.
(** No provider turns the clock back. *)
Definition all_forward : Prop :=
  (forall c, forward (p_setup P c)) /\ (forall c, forward (p_initial P c)) /\ (forall c e ms r, forward (p_modules P c e ms r)) /\ (forall c f, forward (p_callers P c f)) /\
  (forall c cs, forward (p_tests P c cs)) /\ forward (p_open P) /\ (forall c s ms r cs ts, forward (p_exec P c s ms r cs ts)) /\ (forall c f l t fs ts, forward (p_mutate P c f l t fs ts)) /\
  (forall a b m, forward (p_compare P a b m)) /\ (forall a, forward (p_report P a)) /\ (forall u w, (now w <= now (p_undo P u w))%Z).
(** Durations that are none of them negative, and together no longer than until [t]. *)
Definition sound_times (t0 t : Z) (a : @rargs Caller Test Rep Mut) : Prop :=
  ra_start a = t0 /\ (0 <= ra_analysis a /\ 0 <= ra_discovery a /\ 0 <= ra_exec a /\ 0 <= ra_mutation a /\ ra_start a + ra_analysis a + ra_discovery a + ra_exec a + ra_mutation a <= t)%Z.
Hypothesis FW : all_forward.
Variable t0 : Z.
Definition timed (s : st) : Prop := forall a r, In (KReport a r) (s_log s) -> sound_times t0 (now (s_w s)) a.
Definition silent (s : st) : Prop := forall a r, ~ In (KReport a r) (s_log s).
Lemma sound_later t t' a : (t <= t')%Z -> sound_times t0 t a -> sound_times t0 t' a.
Proof. unfold sound_times. intuition lia. Qed.
Lemma silent_timed s : silent s -> timed s.
Proof. intros H a r I. destruct (H a r I). Qed.
Lemma silent_ask {A} (f : W -> A * W) (k : A -> call) s r s' : forward f -> (forall x, match k x with KReport _ _ => False | _ => True end) -> ask f k s = (r, s') -> silent s -> silent s' /\ (now (s_w s) <= now (s_w s'))%Z.
Proof.
  intros F N E S. unfold ask in E. specialize (F (s_w s)). destruct (f (s_w s)) as [r0 w]. injection E as -> <-. cbn in *. split; [|exact F]. intros a q I. apply in_app_or in I as [I|[I|[]]]; [exact (S a q I)|]. specialize (N r). rewrite I in N. exact N.
Qed.
Lemma timed_report a s : silent s -> sound_times t0 (now (s_w s)) a -> timed (snd (report P a s)).
Proof.
  intros S T. unfold report, ask. destruct FW as (_ & _ & _ & _ & _ & _ & _ & _ & _ & F & _). specialize (F a (s_w s)). destruct (p_report P a (s_w s)) as [r w]. cbn in *. intros a' r' I. cbn in I. apply in_app_or in I as [I|[I|[]]]; [destruct (S a' r' I)|]. injection I as -> _. exact (sound_later _ _ _ F T).
Qed.
Ltac next E S := match type of E with ask ?f ?k ?s = (?r, ?s') => let F := fresh "F" in let S' := fresh "S" in let T := fresh "T" in destruct (silent_ask f k s r s' ltac:(apply FW) (fun _ => Logic.I) E S) as [S' T] end.
Lemma timed_compare c t1 t2 t3 ms names fns cs ts x mu s : (t0 <= t1 <= t2)%Z -> (t2 <= t3 <= now (s_w s))%Z -> silent s -> timed (snd (stage_compare P now c t0 t1 t2 t3 ms names fns cs ts x mu s)).
Proof.
  intros H1 H2 S. unfold stage_compare. destruct (ask _ _ s) as [r s1] eqn:E. next E S. destruct r as [e|[[same diff] reps]]; [apply silent_timed; assumption|]. apply timed_report; [assumption|]. unfold sound_times. cbn. lia.
Qed.
Lemma timed_exec c t1 t2 ms names fns cs reach ts s : (t0 <= t1 <= t2)%Z -> (t2 <= now (s_w s))%Z -> silent s -> timed (snd (stage_exec no_mutations P now c t0 t1 t2 ms names fns cs reach ts s)).
Proof.
  intros H1 H2 S. unfold stage_exec. destruct (ask _ _ s) as [r s1] eqn:E. next E S. clear E. destruct r as [e|store]; [apply silent_timed; assumption|].
  destruct (ask _ _ (later (UStore store) s1)) as [r s2] eqn:E. next E S0. clear E. cbn [later s_w] in *. destruct r as [e|x]; [apply silent_timed; assumption|].
  destruct (beq _ _); [apply timed_compare; [lia|cbn [later s_w]; lia|assumption]|]. destruct (ask _ _ (later UExec s2)) as [r s3] eqn:E. next E S1. clear E. cbn [later s_w] in *. destruct r as [e|mu]; [apply silent_timed; assumption|]. apply timed_compare; [lia|cbn [later s_w]; lia|assumption].
Qed.
Lemma timed_static c ms m s : (t0 <= now (s_w s))%Z -> silent s -> timed (snd (stage_static no_mutations P now c t0 ms m s)).
Proof.
  intros H S. unfold stage_static. destruct (flatten_modules m) as [names [|fn fns]]; [apply timed_report; [exact S|]; unfold sound_times; cbn; lia|].
  destruct (ask _ _ (later UModules s)) as [r s1] eqn:E. next E S. clear E. cbn [later s_w] in *. destruct r as [e|[[|cl cs] reach]]; [apply silent_timed; assumption|apply timed_report; [assumption|]; unfold sound_times; cbn; lia|].
  destruct (ask _ _ (later UCallers s1)) as [r s2] eqn:E. next E S0. clear E. cbn [later s_w] in *. destruct r as [e|[|tt ts]]; [apply silent_timed; assumption|apply timed_report; [assumption|]; unfold sound_times; cbn; lia|].
  apply timed_exec; [lia|cbn [later s_w]; lia|assumption].
Qed.
Lemma timed_modules c s : (t0 <= now (s_w s))%Z -> silent s -> timed (snd (stage_modules no_mutations P now c t0 s)).
Proof.
  intros H S. unfold stage_modules. destruct (ask _ _ s) as [r s1] eqn:E. next E S. clear E. destruct r as [e|[[[|m0 ms] ex] rad]]; [apply silent_timed; assumption|apply silent_timed; assumption|].
  destruct (ask _ _ s1) as [r s2] eqn:E. next E S0. clear E. destruct r as [e|m]; [apply silent_timed; assumption|]. apply timed_static; [lia|assumption].
Qed.
Lemma timed_finish s : timed s -> timed (finish P s).
Proof.
  unfold finish. generalize (s_defer s) at 1. intros l. revert s. induction l as [|u l IH]; intros s T; [exact T|]. cbn [fold_left]. apply IH. intros a r I. cbn in *. apply in_app_or in I as [I|[I|[]]]; [|discriminate]. eapply sound_later; [apply FW|exact (T a r I)].
Qed.
End Times.
Theorem C88_times : forall {W Fn Caller Reach Test Store Rep Mut Err : Type} (no_mutations : Mut) (P : @providers W Fn Caller Reach Test Store Rep Mut Err) now prepared c w,
  all_forward P now -> let '(_, _, s) := run_data no_mutations P now prepared c w in forall a r, In (KReport a r) (s_log s) -> sound_times (now w) (now (s_w s)) a.
Proof.
  intros W Fn Caller Reach Test Store Rep Mut Err nm P now prepared c w FW. unfold run_data. destruct (prepared (dc c)) as [c0 ok]. cbn [dc]. destruct ok; cbn [negb]; [|intros a r []]. destruct (c_tmp c0).
  - destruct (ask _ _ (St w [] [])) as [[r c2] s] eqn:E. match type of E with ask ?f ?k ?s0 = _ => destruct (silent_ask now f k s0 _ _ (proj1 FW _) (fun _ => Logic.I) E) as [S T]; [intros a q []|] end. destruct r as [e|].
    + apply timed_finish; [exact FW|]. apply silent_timed, S.
    + pose proof (timed_modules nm P now FW (now w) c2 (later UTmp s) T S) as G. destruct (stage_modules _ _ _ _ _ _) as [e s1]. apply timed_finish; [exact FW|exact G].
  - pose proof (timed_modules nm P now FW (now w) (DConf c0 (dc_gopath c) (dc_modcache c)) (St w [] []) (Z.le_refl _) (fun a r H => H)) as G. destruct (stage_modules _ _ _ _ _ _) as [e s1]. apply timed_finish; [exact FW|exact G].
Qed.
Print Assumptions C88_times.

(** ** The order of the modules *)
(** However the map was gone through, the functions handed on are the same, and are all functions. *)
Theorem C88_order : forall {Fn : Type} (m m' : list (bytes * list Fn)), NoDup (mkeys m) -> Permutation m m' ->
  flatten_modules m = flatten_modules m' /\ Permutation (snd (flatten_modules m)) (concat (map snd m)) /\ Permutation (fst (flatten_modules m)) (mkeys m).
Proof.
  intros Fn m m' N Pm. assert (NoDup (mkeys m')) as N' by (apply (Permutation_NoDup (Permutation_map fst Pm)); exact N).
  assert (forall k, mget k m = mget k m') as G.
  { intros k. destruct (mget k m) as [v|] eqn:E.
    - symmetry. apply mget_in_wf; [exact N'|]. apply (Permutation_in _ Pm), mget_in, E.
    - destruct (mget k m') as [v|] eqn:E'; [|reflexivity]. apply mget_in in E'. apply (Permutation_in _ (Permutation_sym Pm)) in E'. apply mget_in_wf in E'; [congruence|exact N]. }
  unfold flatten_modules. cbn [fst snd]. rewrite (bsort_unique (mkeys m) (mkeys m') (Permutation_map fst Pm)). split; [f_equal; apply flat_map_ext; intros k; rewrite G; reflexivity|].
  rewrite <- (bsort_unique (mkeys m) (mkeys m') (Permutation_map fst Pm)). split; [|apply bsort_perm].
  rewrite (Permutation_flat_map _ (bsort_perm (mkeys m))). clear - N. 
  assert (forall l, (forall k v, In (k, v) l -> mget k m = Some v) -> flat_map (fun k => match mget k m with Some l => l | None => [] end) (mkeys l) = concat (map snd l)) as K.
  { induction l as [|[k v] l IH]; intros H; [reflexivity|]. cbn. rewrite (H k v (or_introl eq_refl)). f_equal. apply IH. intros k' v' I. apply H. right. exact I. }
  rewrite K; [reflexivity|]. intros k v I. apply mget_in_wf; [exact N|exact I].
Qed.
Print Assumptions C88_order.
Example C88_order_example : let m := [(B "example.com/b", [4]); (B "example.com/a", [1; 2]); (B "example.com/c", [])]%nat in
  NoDup (mkeys m) /\ flatten_modules m = (map B ["example.com/a"; "example.com/b"; "example.com/c"]%string, [1; 2; 4]%nat) /\ flatten_modules (rev m) = flatten_modules m.
Proof. cbv zeta. split; [repeat constructor; cbn; intuition discriminate|]. split; vm_compute; reflexivity. Qed.

(** ** The error of the module analysis *)
Lemma occurs_spec sub : forall s, occurs sub s = true <-> exists a b, s = a ++ sub ++ b.
Proof.
  induction s as [|x s IH]; cbn [occurs]; rewrite orb_true_iff, has_prefix_spec.
  - split; [intros [[r E]|E]; [exists [], r; exact E|discriminate]|intros (a & b & E); left; destruct a; [exists b; exact E|discriminate]].
  - rewrite IH. split.
    + intros [[r E]|(a & b & E)]; [exists [], r; exact E|exists (x :: a), b; rewrite E; reflexivity].
    + intros ([|y a] & b & E); [left; exists b; exact E|right; injection E as -> ->; exists a, b; reflexivity].
Qed.
(** A text speaks of a version of a module when both are somewhere in it. *)
Definition speaks_of (text name version : bytes) : Prop := (exists a b, text = a ++ name ++ b) /\ (exists a b, text = a ++ version ++ b).
(** The module named is the first of those looked at that the text of the error speaks of, the version before the update first; the error itself is given
    only when it speaks of none. *)
Theorem C88_explained : forall text l, match explain text l with
  | NotOnDisk n v => exists l1 m l2, l = l1 ++ m :: l2 /\ n = mc_name m /\ speaks_of text n v /\ (v = mc_prior m \/ v = mc_new m /\ ~ speaks_of text n (mc_prior m)) /\
      forall m', In m' l1 -> ~ speaks_of text (mc_name m') (mc_prior m') /\ ~ speaks_of text (mc_name m') (mc_new m')
  | Wrapped t => t = text /\ forall m', In m' l -> ~ speaks_of text (mc_name m') (mc_prior m') /\ ~ speaks_of text (mc_name m') (mc_new m')
  end.
Proof.
  intros text. assert (forall s, occurs s text = false -> ~ exists a b, text = a ++ s ++ b) as N by (intros s E H; apply occurs_spec in H; congruence).
  induction l as [|m l IH]; cbn [explain]; [split; [reflexivity|intros m' []]|].
  assert (forall (no : ~ speaks_of text (mc_name m) (mc_prior m) /\ ~ speaks_of text (mc_name m) (mc_new m)), match explain text l with
    | NotOnDisk n v => exists l1 m0 l2, m :: l = l1 ++ m0 :: l2 /\ n = mc_name m0 /\ speaks_of text n v /\ (v = mc_prior m0 \/ v = mc_new m0 /\ ~ speaks_of text n (mc_prior m0)) /\
        forall m', In m' l1 -> ~ speaks_of text (mc_name m') (mc_prior m') /\ ~ speaks_of text (mc_name m') (mc_new m')
    | Wrapped t => t = text /\ forall m', In m' (m :: l) -> ~ speaks_of text (mc_name m') (mc_prior m') /\ ~ speaks_of text (mc_name m') (mc_new m')
    end) as K.
  { intros no. destruct (explain text l) as [n v|t].
    - destruct IH as (l1 & m0 & l2 & -> & E & H1 & H2 & H3). exists (m :: l1), m0, l2. split; [reflexivity|]. split; [exact E|]. split; [exact H1|]. split; [exact H2|]. intros m' [<-|I]; [exact no|exact (H3 m' I)].
    - destruct IH as [E H]. split; [exact E|]. intros m' [<-|I]; [exact no|exact (H m' I)]. }
  destruct (occurs (mc_name m) text) eqn:En; cbn [negb].
  2:{ apply K. split; intros [H _]; exact (N _ En H). }
  apply occurs_spec in En. destruct (occurs (mc_prior m) text) eqn:Ep.
  - apply occurs_spec in Ep. exists [], m, l. repeat split; try assumption; [left; reflexivity|destruct H|destruct H].
  - destruct (occurs (mc_new m) text) eqn:Ew.
    + apply occurs_spec in Ew. exists [], m, l. split; [reflexivity|]. split; [reflexivity|]. split; [split; assumption|]. split; [right; split; [reflexivity|intros [_ H]; exact (N _ Ep H)]|intros m' []].
    + apply K. split; intros [_ H]; [exact (N _ Ep H)|exact (N _ Ew H)].
Qed.
Print Assumptions C88_explained.
Definition mods88 : list change := [Change (B "example.com/a") (B "v1.0.0") (B "v1.1.0") false []; Change (B "example.com/ab") (B "v1.0.0") (B "v1.2.0") false []].
Example C88_explained_example :
  explain (B "open /mod/example.com/a@v1.1.0: no such file or directory") mods88 = NotOnDisk (B "example.com/a") (B "v1.1.0") /\
  explain (B "open /mod/example.com/ab@v1.2.0: no such file or directory") mods88 = NotOnDisk (B "example.com/ab") (B "v1.2.0") /\
  explain (B "go: command failed") mods88 = Wrapped (B "go: command failed").
Proof. vm_compute. repeat split. Qed.
(** The module named need not be the one that is missing: here example.com/ab@v1.0.0 is, the message tells to install example.com/a@v1.0.0. *)
Theorem C88_module_is_missing_refuted : exists text l m, In m l /\ text = B "open /mod/" ++ mc_name m ++ B "@" ++ mc_prior m ++ B ": no such file or directory" /\
  exists n v, explain text l = NotOnDisk n v /\ n <> mc_name m.
Proof. exists (B "open /mod/example.com/ab@v1.0.0: no such file or directory"), mods88, (Change (B "example.com/ab") (B "v1.0.0") (B "v1.2.0") false []). split; [right; left; reflexivity|]. split; [reflexivity|]. exists (B "example.com/a"), (B "v1.0.0"). split; [vm_compute; reflexivity|discriminate]. Qed.
Print Assumptions C88_module_is_missing_refuted.
(** Any error about a file of a module ends as "not found on disk", even when the file is there and cannot be parsed; the error itself is lost. *)
Theorem C88_error_kept_refuted : exists l e1 e2, e1 <> e2 /\ explain e1 l = explain e2 l /\ e1 = B "/mod/example.com/a@v1.1.0/x.go:3:1: expected declaration, found foo".
Proof. exists mods88, (B "/mod/example.com/a@v1.1.0/x.go:3:1: expected declaration, found foo"), (B "open /mod/example.com/a@v1.1.0: permission denied"). split; [discriminate|]. split; [vm_compute; reflexivity|reflexivity]. Qed.
Print Assumptions C88_error_kept_refuted.

(** ** Running the same engine twice *)
Section Twice.
Context {W Fn Caller Reach Test Store Rep Mut Err : Type}.
Variable no_mutations : Mut.
Variable P : @providers W Fn Caller Reach Test Store Rep Mut Err.
Variable now : W -> Z.
Variable abs : bytes -> option bytes.
Variable trim : bytes -> bytes.
Variable file_ok out_ok : bytes -> bool.
Let prep := prepare abs trim file_ok out_ok.
(** After a run that got past Prepare, another run of the same engine is refused at once: no provider is called. *)
Theorem C88_run_twice : forall c w e c' s, only_dirs P -> run_data no_mutations P now prep c w = (e, c', s) -> e <> Refused ->
  forall w', run_data no_mutations P now prep c' w' = (Refused, c', St w' [] []).
Proof.
  intros c w e c' s OD E NR w'. assert (c_prepared (dc c') = true) as PR.
  { unfold run_data in E. pose proof (C43_accepted_iff_valid abs trim file_ok out_ok (dc c)) as V. fold prep in V. destruct (prep (dc c)) as [c0 ok]. destruct V as (_ & _ & V). cbn [dc] in E. destruct ok; cbn [negb] in E; [|injection E as <- _ _; contradiction]. destruct (V eq_refl) as [V1 _]. destruct (c_tmp c0).
    - unfold ask in E. cbn [s_w s_log s_defer] in E. specialize (OD (DConf c0 (dc_gopath c) (dc_modcache c)) w). destruct (p_setup P _ w) as [[r c2] w1]. destruct OD as [a OD]. cbn in OD. assert (c' = c2) as -> by (destruct r; [congruence|destruct (stage_modules _ _ _ _ _ _); congruence]). rewrite OD. exact V1.
    - destruct (stage_modules _ _ _ _ _ _). injection E as _ <- _. exact V1. }
  unfold run_data. unfold prep at 1. unfold prepare at 1. rewrite PR. cbn [negb]. destruct c'. reflexivity.
Qed.
End Twice.
Print Assumptions C88_run_twice.

(** ** Default providers *)
(** With a hook: it gets the graph of the analysis and its edges, once, after the analysis; its error ends the stage, and it cannot change the result. *)
Theorem C88_hook : forall {W Fn Caller Reach Err Graph Edges : Type} static (edges : Graph -> Edges) hook (fns : list Fn) (w : W),
  match @callers_default W Fn Caller Reach Err Graph Edges static edges hook fns w with
  | (inr (cs, reach), w') => exists g w1, static fns w = (inr (cs, reach, g), w1) /\ (hook = None /\ w' = w1 \/ exists h, hook = Some h /\ h g (edges g) cs reach w1 = (None, w'))
  | (inl e, w') => static fns w = (inl e, w') \/ exists cs reach g w1 h, static fns w = (inr (cs, reach, g), w1) /\ hook = Some h /\ h g (edges g) cs reach w1 = (Some e, w')
  end.
Proof.
  intros W Fn Caller Reach Err Graph Edges static edges hook fns w. unfold callers_default. destruct (static fns w) as [[e|[[cs reach] g]] w1]; [left; reflexivity|]. destruct hook as [h|].
  - destruct (h g (edges g) cs reach w1) as [[e|] w2] eqn:E; [right; exists cs, reach, g, w1, h; auto|exists g, w1; split; [reflexivity|right; exists h; auto]].
  - exists g, w1. auto.
Qed.
Print Assumptions C88_hook.
Example C88_hook_example :
  let static := fun (fns : list nat) (w : nat) => (inr ([7%nat], length fns, 5%nat), S w) : (bool + (list nat * nat * nat)) * nat in
  callers_default static (fun g => [g; g]) (Some (fun g e cs r w => (if Nat.eqb (length e) 2 then None else Some true, w + g)%nat)) [1; 2; 3]%nat 0%nat = (inr ([7], 3), 6)%nat /\
  callers_default static (fun g => [g; g]) (Some (fun g e cs r w => (Some false, w))) [1; 2; 3]%nat 0%nat = (inl false, 1%nat) /\
  callers_default static (fun g => [g; g]) None [1; 2; 3]%nat 0%nat = (inr ([7], 3), 1)%nat.
Proof. vm_compute. repeat split. Qed.
(** The default storage: the same store is given every time after the first, at a path that is never empty, and a path that was given is kept. *)
Theorem C88_one_store : forall {W Store Err : Type} open fresh (d : @sprov Store) (w : W), sp_store d = None -> (forall w, fresh w <> []) ->
  match @new_storage W Store Err open fresh d w with
  | (inr s, d', w') => (exists p, p <> [] /\ (sp_path d <> [] -> p = sp_path d) /\ open p w = (inr s, w') /\ d' = SProv p (Some s)) /\ forall w2, @new_storage W Store Err open fresh d' w2 = (inr s, d', w2)
  | (inl e, d', w') => sp_store d' = None /\ sp_path d' <> [] /\ (sp_path d <> [] -> sp_path d' = sp_path d) /\ open (sp_path d') w = (inl e, w')
  end.
Proof.
  intros W Store Err open fresh d w N F. unfold new_storage at 1. rewrite N. cbv zeta.
  assert (forall p, p <> [] -> (sp_path d <> [] -> p = sp_path d) -> match (match open p w with (inl e, w') => (inl e, SProv p None, w') | (inr s, w') => (inr s, SProv p (Some s), w') end) with
    | (inr s, d', w') => (exists p, p <> [] /\ (sp_path d <> [] -> p = sp_path d) /\ open p w = (inr s, w') /\ d' = SProv p (Some s)) /\ forall w2, @new_storage W Store Err open fresh d' w2 = (inr s, d', w2)
    | (inl e, d', w') => sp_store d' = None /\ sp_path d' <> [] /\ (sp_path d <> [] -> sp_path d' = sp_path d) /\ open (sp_path d') w = (inl e, w')
    end) as K.
  { intros p H1 H2. destruct (open p w) as [[e|s] w'] eqn:E; [cbn; auto|]. split; [exists p; auto|]. intros w2. reflexivity. }
  destruct (empty (sp_path d)) eqn:E; apply K; [apply F|apply empty_spec in E; rewrite E; intros H; destruct H; reflexivity|apply empty_false; exact E|reflexivity].
Qed.
Print Assumptions C88_one_store.

(** ** A concrete engine *)
(** The world: a clock, the provider of the store, how many stores were opened, and which were closed. *)
Record world88 := W88 { clock : Z; prov : @sprov nat; opens : nat; closed : list nat }.
Definition tick {A} (a : A) (w : world88) : A * world88 := (a, W88 (clock w + 3) (prov w) (opens w) (closed w)).
Definition open88 (path : bytes) (w : world88) : (bool + nat) * world88 := (inr (S (opens w)), W88 (clock w) (prov w) (S (opens w)) (closed w)).
Definition p_open88 (w : world88) : (bool + nat) * world88 :=
  let '(r, d, w') := new_storage open88 (fun w => B "/tmp/lens_state-1") (prov w) w in (r, W88 (clock w' + 1) d (opens w') (closed w')).
Definition P88 : @providers world88 bytes bytes nat bytes nat nat nat bool :=
  Providers (fun c => tick (None, DConf (set_abs (dc c) (B "/tmp/copy")) (B "/tmp/go") (B "/tmp/mod"))) (fun c => tick (inr (mods88, false, 0%nat)))
    (fun c e ms r => tick (inr [(B "example.com/b", [B "b.G"]); (B "example.com/a", [B "a.F"; B "a.G"])])) (fun c fns => tick (inr ([B "p.Caller"], length fns)))
    (fun c cs => tick (inr [B "p.TestCaller"])) p_open88 (fun c s ms r cs ts => tick (inr (XRes 11 2 0 (10 * s) (10 * s + 1)%nat)))
    (fun c f l t fns ts => tick (inr (length fns))) (fun a b m => tick (inr (1, 2, [a; b])%Z)) (fun a => tick None)
    (fun u w => W88 (clock w + 1) (prov w) (opens w) (match u with UStore s => s :: closed w | _ => closed w end)).
Definition prep88 := prepare (fun p => Some (B "/w")) trim0 (fun _ => true) (fun _ => true).
Definition conf88 : @dconf := DConf (sample 8448 (B "r.json") []) (B "/go") (B "/go/pkg/mod").
Definition run88 := run_data 0%nat P88 clock prep88 conf88 (W88 100 (SProv [] None) 0 []).
Lemma forward88 : all_forward P88 clock.
Proof. unfold all_forward, forward. cbn. repeat split; intros; try (unfold p_open88, new_storage; destruct (sp_store (prov w)); cbn); lia. Qed.
(** The hypotheses of [C88_times], [C88_same_calls] and [C88_run_twice] hold here, all functions of both modules are handed on in the order of the modules' names, and the figures reach the report. *)
Example C88_example : exists e c s, run88 = (e, c, s) /\ e = Done /\ all_forward P88 clock /\ only_dirs P88 /\ e <> Refused /\
  In (KCallers c [B "a.F"; B "a.G"; B "b.G"] (inr ([B "p.Caller"], 3%nat))) (s_log s) /\
  In (KReport (RArgs (B "r.json") [] 100 9 3 4 3 mods88 [B "example.com/a"; B "example.com/b"] 3 2 0 11 [B "p.Caller"] [B "p.TestCaller"] 1 2 [10; 11]%nat 3%nat) None) (s_log s) /\
  closed (s_w s) = [1%nat] /\ run_data 0%nat P88 clock prep88 c (s_w s) = (Refused, c, St (s_w s) [] []).
Proof.
  exists (fst (fst run88)), (snd (fst run88)), (snd run88).
  assert (only_dirs P88) as OD by (intros c0 w0; exists (B "/tmp/copy"); reflexivity).
  split; [destruct run88 as [[e c] s]; reflexivity|]. split; [vm_compute; reflexivity|]. split; [exact forward88|]. split; [exact OD|]. split; [vm_compute; discriminate|]. split; [vm_compute; tauto|]. split; [vm_compute; tauto|]. split; [vm_compute; reflexivity|]. vm_compute. reflexivity.
Qed.
(** Two engines that share the default provider of the store: the second is given the store that the first one closed. *)
Theorem C88_store_is_open_refuted : exists s1 s2 e1 e2 c1 c2 store, run88 = (e1, c1, s1) /\ run_data 0%nat P88 clock prep88 conf88 (s_w s1) = (e2, c2, s2) /\
  In (KUndo (UStore store)) (s_log s1) /\ In store (closed (s_w s1)) /\ In (KOpen (inr store)) (s_log s2) /\ opens (s_w s2) = 1%nat.
Proof.
  exists (snd run88), (snd (run_data 0%nat P88 clock prep88 conf88 (s_w (snd run88)))). do 4 eexists. exists 1%nat. split; [vm_compute; reflexivity|]. split; [vm_compute; reflexivity|]. vm_compute. tauto.
Qed.
Print Assumptions C88_store_is_open_refuted.
