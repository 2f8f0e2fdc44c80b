(** C64: which modules a project consists of, and which packages are loaded and tested. *)
From Verif Require Import Base Maps UtilModel UtilProps WorkModel WorkSpec WorkProofs.

(** ** The go.mod files *)

(** For an absolute project directory, and no absolute entry with dots: the result is
    sorted and without repetitions, and contains exactly the existing go.mod files of the
    project directory and of the directories designated by the work file, each by the
    one text without superfluous elements. *)
Theorem C64_mod_files : forall file_exists stat_ok is_dir glob walk uses root l,
  is_abs root = true -> absolute_answers glob -> absolute_answers walk ->
  (forall w raws, uses w = Some raws -> trees_relative raws) ->
  go_mod_files file_exists stat_ok is_dir glob walk uses root = Some l ->
  bsorted l /\ NoDup l /\
  forall p, In p l <->
    exists es, p = text_of (es ++ [B "go.mod"]) /\ file_exists p = true /\
      (leads root es \/
       exists at_ raws raw, leads root at_ /\ file_exists (text_of (at_ ++ [B "go.work"])) = true /\
         uses (text_of (at_ ++ [B "go.work"])) = Some raws /\ In raw raws /\
         designates stat_ok is_dir glob walk root raw es).
Proof.
  intros fe so idr gl wk us root l RA GA WA TR. unfold go_mod_files.
  rewrite !join2_abs by exact RA. rewrite go_mod_elem.
  change (go (clean_elems root) (split_on slash (B "go.work"))) with (clean_elems root ++ [B "go.work"]).
  set (rm := abs_of (clean_elems root ++ [B "go.mod"])). set (wf := abs_of (clean_elems root ++ [B "go.work"])).
  destruct (negb (fe rm) && negb (fe wf)); [discriminate|].
  assert (forall p, In p (if fe rm then [rm] else []) <->
    exists es, p = text_of (es ++ [B "go.mod"]) /\ fe p = true /\ leads root es) as Own.
  { intros p. split.
    - intros H. destruct (fe rm) eqn:E; [|destruct H]. destruct H as [<-|[]]. exists (clean_elems root).
      split; [reflexivity|]. split; [exact E|]. apply leads_clean. reflexivity.
    - intros (es & Ep & F & L). apply leads_clean in L. subst es. change (p = rm) in Ep. subst p. rewrite F. left. reflexivity. }
  destruct (fe wf) eqn:Ew.
  - unfold parse_go_work. replace (dir_of wf) with (abs_of (clean_elems root))
      by (symmetry; apply dir_of_file; [apply place_real|apply place_ns|intros H; cbn in H; intuition discriminate]).
    destruct (us wf) as [raws|] eqn:Eu; [|discriminate].
    pose proof (entries_spec so idr gl wk GA WA root RA raws (TR _ _ Eu)) as S.
    destruct (entries so idr gl wk (abs_of (clean_elems root)) raws) as [ps|]; [|discriminate].
    destruct S as [S _]. intros [= <-]. split; [apply as_set_sorted|]. split; [apply as_set_sorted|].
    intros p. rewrite as_set_in, in_app_iff, Own, filter_In, in_map_iff. split.
    + intros [(es & Ep & F & L)|[(d & Ed & Hd) F]].
      * exists es. auto.
      * rewrite as_set_in in Hd. apply in_map_iff in Hd as (q & <- & Hq).
        rewrite resolve_target in Ed by exact RA. rewrite target_clean in Ed.
        exists (target root q). split; [symmetry; exact Ed|]. split; [exact F|]. right.
        destruct (proj1 (S (target root q)) (ex_intro _ q (conj Hq eq_refl))) as (raw & Hr & D).
        exists (clean_elems root), raws, raw. split; [apply leads_clean; reflexivity|]. auto.
    + intros (es & Ep & F & [L|(at_ & raws' & raw & La & _ & Hu & Hr & D)]); [left; exists es; auto|right].
      apply leads_clean in La. subst at_. change (us wf = Some raws') in Hu. assert (raws' = raws) as -> by congruence.
      destruct (proj2 (S es) (ex_intro _ raw (conj Hr D))) as (q & Hq & Eq). split; [|exact F].
      exists (clean q). split; [|apply as_set_in, in_map; exact Hq].
      rewrite resolve_target by exact RA. rewrite target_clean, Eq. symmetry. exact Ep.
  - intros [= <-]. split; [apply as_set_sorted|]. split; [apply as_set_sorted|].
    intros p. rewrite as_set_in, Own. split.
    + intros (es & Ep & F & L). exists es. auto.
    + intros (es & Ep & F & [L|(at_ & raws' & raw & La & Fw & _)]); [exists es; auto|].
      apply leads_clean in La. subst at_. change (fe wf = true) in Fw. congruence.
Qed.
Print Assumptions C64_mod_files.

(** It fails exactly when neither file exists, or the work file or one of its entries
    cannot be read. *)
Theorem C64_errors : forall file_exists stat_ok is_dir glob walk uses root at_,
  is_abs root = true -> absolute_answers glob -> absolute_answers walk ->
  (forall w raws, uses w = Some raws -> trees_relative raws) -> leads root at_ ->
  (go_mod_files file_exists stat_ok is_dir glob walk uses root = None <->
   (file_exists (text_of (at_ ++ [B "go.mod"])) = false /\ file_exists (text_of (at_ ++ [B "go.work"])) = false) \/
   file_exists (text_of (at_ ++ [B "go.work"])) = true /\
   (uses (text_of (at_ ++ [B "go.work"])) = None \/
    exists raws raw, uses (text_of (at_ ++ [B "go.work"])) = Some raws /\ In raw raws /\ unreadable glob walk root raw)).
Proof.
  intros fe so idr gl wk us root at_ RA GA WA TR La. apply leads_clean in La. subst at_. unfold go_mod_files.
  rewrite !join2_abs by exact RA. rewrite go_mod_elem.
  change (go (clean_elems root) (split_on slash (B "go.work"))) with (clean_elems root ++ [B "go.work"]).
  change (text_of (clean_elems root ++ ?x)) with (abs_of (clean_elems root ++ x)).
  change text_of with abs_of.
  set (rm := abs_of (clean_elems root ++ [B "go.mod"])). set (wf := abs_of (clean_elems root ++ [B "go.work"])).
  destruct (fe wf) eqn:Ew.
  - rewrite andb_false_r. unfold parse_go_work. replace (dir_of wf) with (abs_of (clean_elems root))
      by (symmetry; apply dir_of_file; [apply place_real|apply place_ns|intros H; cbn in H; intuition discriminate]).
    destruct (us wf) as [raws|] eqn:Eu; [|split; [intros _; right; auto|reflexivity]].
    pose proof (entries_spec so idr gl wk GA WA root RA raws (TR _ _ Eu)) as S.
    destruct (entries so idr gl wk (abs_of (clean_elems root)) raws) as [ps|].
    + destruct S as [_ U]. split; [discriminate|]. intros [[_ H]|[_ [H|(raws' & raw & Hu & Hr & X)]]]; try discriminate.
      assert (raws' = raws) as -> by congruence. exfalso; exact (U raw Hr X).
    + destruct S as (raw & Hr & X). split; [intros _|reflexivity]. right. split; [reflexivity|]. right. exists raws, raw. auto.
  - rewrite andb_true_r. destruct (fe rm) eqn:Er; cbn [negb].
    + split; [discriminate|]. intros [[H _]|[H _]]; discriminate.
    + split; [intros _; left; auto|reflexivity].
Qed.
Print Assumptions C64_errors.

(** ** The packages tested and the packages loaded *)

(** The patterns for the tests name, one for one, the trees of the go.mod files. *)
Theorem C64_patterns : forall file_exists stat_ok is_dir glob walk uses root,
  is_abs root = true -> absolute_answers glob -> absolute_answers walk ->
  (forall w raws, uses w = Some raws -> trees_relative raws) ->
  match go_mod_files file_exists stat_ok is_dir glob walk uses root,
        package_patterns file_exists stat_ok is_dir glob walk uses root with
  | Some l, Some pats => Forall2 (fun gm pat => exists es,
      Forall real_name es /\ gm = text_of (es ++ [B "go.mod"]) /\ names_tree root pat es) l pats
  | None, None => True
  | _, _ => False
  end.
Proof.
  intros fe so idr gl wk us root RA GA WA TR. unfold package_patterns.
  pose proof (C64_mod_files fe so idr gl wk us root) as M.
  destruct (go_mod_files fe so idr gl wk us root) as [l|]; [|exact I].
  destruct (M l RA GA WA TR eq_refl) as (_ & _ & C). clear M.
  assert (forall p, In p l -> exists es, Forall real_name es /\ ns es /\ p = text_of (es ++ [B "go.mod"])) as C'.
  { intros p Hp. apply C in Hp as (es & Ep & _ & H).
    assert (Forall real_name es /\ ns es) as [R N].
    { assert (forall q, leads q es -> Forall real_name es /\ ns es) as Q
        by (intros q L; apply leads_clean in L; subst es; split; [apply place_real|apply place_ns]).
      destruct H as [L|(at_ & raws & raw & _ & _ & _ & _ & D)]; [exact (Q _ L)|].
      destruct D as [? ? L|? ? ? ? ? ? ? ? ? L|? ? ? ? ? ? ? ? L ?]; exact (Q _ L). }
    exists es. auto. }
  clear C. induction l as [|p l IH]; cbn [map]; constructor; [|apply IH; intros q Hq; apply C'; right; exact Hq].
  destruct (C' p (or_introl eq_refl)) as (es & R & N & ->). exists es. split; [exact R|]. split; [reflexivity|].
  apply pattern_tree; assumption.
Qed.
Print Assumptions C64_patterns.

(** The patterns given to the loader of the call graph name exactly the project's own tree
    (if it has a go.mod) and the trees of all designated directories. *)
Theorem C64_graph_patterns : forall file_exists stat_ok is_dir glob walk uses root at_ pats,
  is_abs root = true -> absolute_answers glob -> absolute_answers walk ->
  (forall w raws, uses w = Some raws -> trees_relative raws) -> leads root at_ ->
  graph_patterns file_exists stat_ok is_dir glob walk uses root = Some pats ->
  pats <> [] /\ (forall pat, In pat pats -> exists es, names_tree root pat es) /\
  forall es, (exists pat, In pat pats /\ names_tree root pat es) <->
    (es = at_ /\ file_exists (text_of (at_ ++ [B "go.mod"])) = true \/
     exists raws raw, file_exists (text_of (at_ ++ [B "go.work"])) = true /\
       uses (text_of (at_ ++ [B "go.work"])) = Some raws /\ In raw raws /\
       designates stat_ok is_dir glob walk root raw es).
Proof.
  intros fe so idr gl wk us root at_ pats RA GA WA TR La. apply leads_clean in La. subst at_. unfold graph_patterns.
  rewrite !join2_abs by exact RA. rewrite go_mod_elem.
  change (go (clean_elems root) (split_on slash (B "go.work"))) with (clean_elems root ++ [B "go.work"]).
  change text_of with abs_of.
  set (rm := abs_of (clean_elems root ++ [B "go.mod"])). set (wf := abs_of (clean_elems root ++ [B "go.work"])).
  assert (names_tree root (B "./...") (clean_elems root)) as Tr.
  { change (B "./...") with (B "./" ++ join2 (B ".") (B "...")).
    replace (clean_elems root) with (target root (B ".")) by (rewrite target_rel by reflexivity; reflexivity).
    apply tree_rel. reflexivity. }
  assert (forall o, match o with Some [] => None | r => r end = Some pats -> o = Some pats /\ pats <> []) as NN.
  { intros [[|x o]|] H; [discriminate| |discriminate]. split; [exact H|]. injection H as <-. discriminate. }
  intros H. apply NN in H as [H Ne]. split; [exact Ne|]. clear Ne NN.
  assert (forall es, (exists pat, In pat (if fe rm then [B "./..."] else []) /\ names_tree root pat es) <->
    es = clean_elems root /\ fe rm = true) as Own.
  { intros es. split.
    - intros (pat & Hp & T). destruct (fe rm); [|destruct Hp]. destruct Hp as [<-|[]].
      split; [exact (names_tree_unique _ _ _ _ T Tr)|reflexivity].
    - intros [-> ->]. exists (B "./..."). split; [left; reflexivity|exact Tr]. }
  assert (forall pat, In pat (if fe rm then [B "./..."] else []) -> exists es, names_tree root pat es) as OwnE.
  { intros pat Hp. destruct (fe rm); [|destruct Hp]. destruct Hp as [<-|[]]. exists (clean_elems root). exact Tr. }
  destruct (fe wf) eqn:Ew.
  - unfold parse_go_work in H. replace (dir_of wf) with (abs_of (clean_elems root)) in H
      by (symmetry; apply dir_of_file; [apply place_real|apply place_ns|intros X; cbn in X; intuition discriminate]).
    destruct (us wf) as [raws|] eqn:Eu; [|discriminate].
    pose proof (entries_spec so idr gl wk GA WA root RA raws (TR _ _ Eu)) as S.
    destruct (entries so idr gl wk (abs_of (clean_elems root)) raws) as [ps|]; [|discriminate].
    destruct S as [S _]. injection H as <-.
    set (f := fun d => if is_abs d then join2 d (B "...") else B "./" ++ join2 d (B "...")).
    assert (forall d, names_tree root (f d) (target root d)) as Tf.
    { intros d. unfold f. destruct (is_abs d) eqn:A; [rewrite target_abs by exact A; apply tree_abs; exact A|apply tree_rel; exact A]. }
    split.
    + intros pat Hp. apply in_app_iff in Hp as [Hp|Hp]; [exact (OwnE pat Hp)|].
      apply in_map_iff in Hp as (d & <- & _). exists (target root d). apply Tf.
    + intros es. rewrite <- Own. split.
      * intros (pat & Hp & T). apply in_app_iff in Hp as [Hp|Hp]; [left; exists pat; auto|right].
        apply in_map_iff in Hp as (d & <- & Hd). rewrite (names_tree_unique _ _ _ _ T (Tf d)).
        apply as_set_in, in_map_iff in Hd as (q & <- & Hq). rewrite target_clean.
        destruct (proj1 (S (target root q)) (ex_intro _ q (conj Hq eq_refl))) as (raw & Hr & D).
        exists raws, raw. auto.
      * intros [(pat & Hp & T)|(raws' & raw & _ & Hu & Hr & D)].
        -- exists pat. split; [apply in_app_iff; left; exact Hp|exact T].
        -- assert (raws' = raws) as -> by congruence. destruct (proj2 (S es) (ex_intro _ raw (conj Hr D))) as (q & Hq & Eq).
           exists (f (clean q)). split; [apply in_app_iff; right; apply in_map, as_set_in, in_map; exact Hq|].
           rewrite <- Eq, <- target_clean. apply Tf.
  - injection H as <-. split; [exact OwnE|]. intros es. rewrite <- Own. split; [auto|].
    intros [X|(? & ? & X & _)]; [exact X|discriminate].
Qed.
Print Assumptions C64_graph_patterns.

(** Whatever is tested is in the call graph: each tree named for the tests is named for
    the loader too. *)
Theorem C64_tested_trees_loaded : forall file_exists stat_ok is_dir glob walk uses root tests loads,
  is_abs root = true -> absolute_answers glob -> absolute_answers walk ->
  (forall w raws, uses w = Some raws -> trees_relative raws) ->
  package_patterns file_exists stat_ok is_dir glob walk uses root = Some tests ->
  graph_patterns file_exists stat_ok is_dir glob walk uses root = Some loads ->
  forall pat, In pat tests -> exists es pat', names_tree root pat es /\ In pat' loads /\ names_tree root pat' es.
Proof.
  intros fe so idr gl wk us root tests loads RA GA WA TR Ht Hl pat Hp.
  destruct (C64_graph_patterns fe so idr gl wk us root _ loads RA GA WA TR (proj2 (leads_clean root _) eq_refl) Hl) as (_ & _ & G).
  unfold package_patterns in Ht. destruct (go_mod_files fe so idr gl wk us root) as [l|] eqn:El; [|discriminate].
  destruct (C64_mod_files fe so idr gl wk us root l RA GA WA TR El) as (_ & _ & C).
  injection Ht as <-. apply in_map_iff in Hp as (gm & <- & Hg). apply C in Hg as (es & -> & F & H).
  assert (Forall real_name es /\ ns es) as [R N].
  { assert (forall q, leads q es -> Forall real_name es /\ ns es) as Q
      by (intros q L; apply leads_clean in L; subst es; split; [apply place_real|apply place_ns]).
    destruct H as [L|(at_ & raws & raw & _ & _ & _ & _ & D)]; [exact (Q _ L)|].
    destruct D as [? ? L|? ? ? ? ? ? ? ? ? L|? ? ? ? ? ? ? ? L ?]; exact (Q _ L). }
  assert (exists pat', In pat' loads /\ names_tree root pat' es) as (pat' & H1 & H2).
  { apply G. destruct H as [L|(at_ & raws & raw & La & Fw & Hu & Hr & D)].
    - left. apply leads_clean in L. subst es. auto.
    - right. apply leads_clean in La. subst at_. exists raws, raw. auto. }
  exists es, pat'. split; [apply pattern_tree; assumption|auto].
Qed.
Print Assumptions C64_tested_trees_loaded.

(** ** What goes wrong *)

(** A file system for the examples: the work file in /p, and the go.mod files of /p/a,
    /p/a/in, /q/lib and /p; the directory /p/old has none. *)
Definition ex_mods : list bytes := map B ["/p/go.mod"; "/p/a/go.mod"; "/p/a/in/go.mod"; "/q/lib/go.mod"; "/p/go.work"]%string.
Definition ex_exists (p : bytes) : bool := existsb (beq p) ex_mods.
Definition ex_dir (p : bytes) : bool := existsb (beq p) (map B ["/p"; "/p/a"; "/p/a/in"; "/q/lib"; "/p/old"]%string).
Definition ex_glob (p : bytes) : option (list bytes) :=
  if beq p (B "/p/a/*") then Some (map B ["/p/a/go.mod"; "/p/a/in"]%string) else if beq p (B "/q/[") then None else Some [].
Definition ex_walk (p : bytes) : option (list bytes) :=
  if beq p (B "/p/a") then Some (map B ["/p/a"; "/p/a/in"]%string)
  else if beq p (B "/q") then Some (map B ["/q"; "/q/lib"]%string)
  else if beq p (B "/p/q") then None else Some [].
Definition ex_uses (l : list string) (w : bytes) : option (list bytes) := if beq w (B "/p/go.work") then Some (map B l) else None.
Definition ex_files (l : list string) : option (list bytes) :=
  go_mod_files ex_exists ex_exists ex_dir ex_glob ex_walk (ex_uses l) (B "/p/./x/..").

(** An absolute entry with dots is looked for below the project directory. *)
Theorem C64_absolute_tree_refuted : exists file_exists stat_ok is_dir glob walk uses root raw,
  is_abs root = true /\ absolute_answers glob /\ absolute_answers walk /\ uses (B "/p/go.work") = Some [raw] /\
  designates stat_ok is_dir glob walk root raw [B "q"; B "lib"] /\
  file_exists (B "/q/lib/go.mod") = true /\
  go_mod_files file_exists stat_ok is_dir glob walk uses root = None.
Proof.
  exists ex_exists, ex_exists, ex_dir, ex_glob, ex_walk, (ex_uses ["/q/..."]%string), (B "/p"), (B "/q/...").
  split; [reflexivity|]. split; [|split].
  - intros p l q _ H Hq. unfold ex_glob in H. destruct (beq p (B "/p/a/*")); [|destruct (beq p (B "/q/["))].
    + injection H as <-. cbn [map In] in Hq. destruct Hq as [<-|[<-|[]]]; reflexivity.
    + discriminate.
    + injection H as <-. destruct Hq.
  - intros p l q _ H Hq. unfold ex_walk in H.
    destruct (beq p (B "/p/a")); [injection H as <-; cbn [map In] in Hq; destruct Hq as [<-|[<-|[]]]; reflexivity|].
    destruct (beq p (B "/q")); [injection H as <-; cbn [map In] in Hq; destruct Hq as [<-|[<-|[]]]; reflexivity|].
    destruct (beq p (B "/p/q")); [discriminate|injection H as <-; destruct Hq].
  - split; [reflexivity|]. split; [|split; reflexivity].
    apply (des_tree _ _ _ _ _ _ _ (B "/q/") [B "q"] (map B ["/q"; "/q/lib"]%string) (B "/q/lib"));
      try reflexivity; try (apply leads_clean; reflexivity). cbn. auto.
Qed.
Print Assumptions C64_absolute_tree_refuted.

(** A directory found through dots enters the comparison of two workspaces by its absolute
    path: its go.mod is compared with itself, wherever the new workspace lies, so that no
    change of it is ever found. *)
Theorem C64_tree_compared_with_itself_refuted : forall stat_ok is_dir glob walk root pre l new_work d,
  is_abs root = true -> absolute_answers walk -> is_abs pre = false ->
  entry stat_ok is_dir glob walk root (pre ++ B "...") = Some l -> In d l ->
  resolve root (clean d) = resolve (dir_of new_work) (clean d).
Proof.
  intros so idr gl wk root pre l nw d RA WA Ap E Hd.
  assert (is_abs d = true) as Ad.
  { unfold entry in E. assert (dots_prefix (pre ++ B "...") = Some pre) as Dp by (apply dots_spec; reflexivity).
    rewrite Dp in E. assert (walk_dots so wk root pre = Some l) as W by (destruct (is_abs (pre ++ B "...")); exact E).
    unfold walk_dots in W. destruct (wk (join2 root pre)) as [ds|] eqn:Ew; [|discriminate]. injection W as <-.
    apply filter_In in Hd as [Hd _]. refine (WA _ _ _ _ Ew Hd). rewrite join2_abs by exact RA. reflexivity. }
  unfold resolve. rewrite clean_abs by exact Ad. reflexivity.
Qed.
Print Assumptions C64_tree_compared_with_itself_refuted.

(** Beside it: a directory given by a plain relative entry is compared across the two
    workspaces, each from its own root. *)
Theorem C64_relative_compared_across : forall stat_ok root new_work dirs d,
  is_abs root = true -> is_abs new_work = true -> is_abs d = false -> In d dirs ->
  exists o n, leads (absolute root d) o /\ leads (absolute (dir_of new_work) d) n /\
    (stat_ok (text_of (o ++ [B "go.mod"])) = true -> stat_ok (text_of (n ++ [B "go.mod"])) = true ->
     In (text_of (o ++ [B "go.mod"]), text_of (n ++ [B "go.mod"])) (compared stat_ok root new_work dirs)) /\
    forall a b, In (a, b) (compared stat_ok root new_work dirs) -> stat_ok a = true /\ stat_ok b = true.
Proof.
  intros so root nw dirs d RA NA Ad Hd.
  assert (is_abs (dir_of nw) = true) as DA.
  { unfold dir_of. destruct nw as [|c nw]; [discriminate|]. cbn in NA. destruct (ascii_dec c slash) as [->|]; [|discriminate].
    change (split_on slash (slash :: nw)) with ([] :: split_on slash nw).
    pose proof (split_on_nonempty slash nw) as Ne. destruct (split_on slash nw) as [|x y]; [congruence|].
    change (removelast ([] :: x :: y)) with ([] :: removelast (x :: y)).
    rewrite <- app_comm_cons, join_cons by (destruct (removelast (x :: y)); discriminate). reflexivity. }
  exists (target root d), (target (dir_of nw) d).
  split; [apply target_leads; reflexivity|]. split; [apply target_leads; reflexivity|]. split.
  - intros S1 S2. unfold compared. apply filter_In. split.
    + apply in_map_iff. exists d. split; [|exact Hd]. rewrite !resolve_target by assumption. reflexivity.
    + cbn [fst snd]. change text_of with abs_of in *. rewrite S1, S2. reflexivity.
  - intros a b H. unfold compared in H. apply filter_In in H as [_ H]. cbn [fst snd] in H. apply andb_true_iff. exact H.
Qed.
Print Assumptions C64_relative_compared_across.

(** A directory of the work file without go.mod is not tested, but is given to the loader
    of the call graph. *)
Theorem C64_missing_module_loaded_refuted : exists file_exists stat_ok is_dir glob walk uses root tests loads,
  is_abs root = true /\
  package_patterns file_exists stat_ok is_dir glob walk uses root = Some tests /\
  graph_patterns file_exists stat_ok is_dir glob walk uses root = Some loads /\
  tests = [B "./..."] /\ loads = [B "./..."; B "./old/..."].
Proof.
  exists ex_exists, ex_exists, ex_dir, ex_glob, ex_walk, (ex_uses ["./old"]%string), (B "/p"). eexists. eexists.
  split; [reflexivity|]. split; [vm_compute; reflexivity|]. split; [vm_compute; reflexivity|]. split; vm_compute; reflexivity.
Qed.
Print Assumptions C64_missing_module_loaded_refuted.

(** ** Examples *)
Example C64_example_files :
  ex_files ["./a"; "a/../a/"; "/q/lib"; "old"]%string = Some (map B ["/p/a/go.mod"; "/p/go.mod"; "/q/lib/go.mod"]%string) /\
  ex_files ["a/..."]%string = Some (map B ["/p/a/go.mod"; "/p/a/in/go.mod"; "/p/go.mod"]%string) /\
  ex_files ["a/*"]%string = Some (map B ["/p/a/in/go.mod"; "/p/go.mod"]%string) /\
  ex_files ["../q/lib"]%string = Some (map B ["/p/go.mod"; "/q/lib/go.mod"]%string) /\
  ex_files ["a"; "../q/["]%string = None.
Proof. repeat split; vm_compute; reflexivity. Qed.

Example C64_example_patterns :
  package_patterns ex_exists ex_exists ex_dir ex_glob ex_walk (ex_uses ["./a"; "../q/lib"; "a/..."]%string) (B "/p") =
    Some (map B ["./a/..."; "./a/in/..."; "./..."; "/q/lib/..."]%string) /\
  graph_patterns ex_exists ex_exists ex_dir ex_glob ex_walk (ex_uses ["./a"; "../q/lib"; "a/..."]%string) (B "/p") =
    Some (map B ["./..."; "./../q/lib/..."; "/p/a/..."; "/p/a/in/..."; "./a/..."]%string) /\
  names_tree (B "/p") (B "./../q/lib/...") [B "q"; B "lib"].
Proof.
  split; [vm_compute; reflexivity|]. split; [vm_compute; reflexivity|].
  exists (B "./../q/lib"). split; [reflexivity|]. split; [apply leads_clean; vm_compute; reflexivity|].
  left. eexists. reflexivity.
Qed.

(** What the two theorems about the comparison speak of: the tree's go.mod with itself, the
    plain entry across. *)
Example C64_example_compared :
  entry ex_exists ex_dir ex_glob ex_walk (B "/p") (B "a/...") = Some (map B ["/p/a"; "/p/a/in"]%string) /\
  compared (fun _ => true) (B "/p") (B "/n/ew/go.work") (map B ["/p/a"; "a"; "../lib"]%string) =
    [(B "/p/a/go.mod", B "/p/a/go.mod"); (B "/p/a/go.mod", B "/n/ew/a/go.mod"); (B "/lib/go.mod", B "/n/lib/go.mod")].
Proof. split; vm_compute; reflexivity. Qed.
