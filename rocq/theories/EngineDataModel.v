(** A run of the engine with its data (lens/engine.go:626-656, 691-930): what each provider is called with and what the report is given, on top of the
    order of the calls (EngineModel.v).  Definitions only. *)
From Verif Require Import Base Maps UtilModel ModuleModel EngineModel.

(** ** The error of the module analysis *)
(** strings.Contains, lens/engine.go:790-797. *)
Fixpoint occurs (sub s : bytes) : bool :=
  has_prefix sub s || match s with [] => false | _ :: s' => occurs sub s' end.
(** What Run returns for an error of AnalyzeModuleChanges, lens/engine.go:787-802: a module that is said not to be there, or the error itself. *)
Inductive modules_error := NotOnDisk (name version : bytes) | Wrapped (text : bytes).
(** lens/engine.go:787-802. *)
Fixpoint explain (text : bytes) (l : list change) : modules_error :=
  match l with
  | [] => Wrapped text
  | m :: l' =>
      if negb (occurs (mc_name m) text) then explain text l'
      else if occurs (mc_prior m) text then NotOnDisk (mc_name m) (mc_prior m)
      else if occurs (mc_new m) text then NotOnDisk (mc_name m) (mc_new m)
      else explain text l'
  end.

Section Data.
(** Everything outside the engine: disk, processes, the providers' own state (lens/engine.go:756-930). *)
Context {W : Type}.
(** ModuleFunction, lens/types.go:72-84. *)
Context {Fn : Type}.
(** CallerFunction, lens/types.go:90-95. *)
Context {Caller : Type}.
(** ReachableModuleChange, lens/types.go:87. *)
Context {Reach : Type}.
(** TestFunction, lens/types.go:110-115. *)
Context {Test : Type}.
(** Storage, lens/storage.go:22-32. *)
Context {Store : Type}.
(** TestReport, lens/report.go:95-110. *)
Context {Rep : Type}.
(** MutationResult, lens/types.go:654-660. *)
Context {Mut : Type}.
(** MutationResult{}, lens/engine.go:819. *)
Variable no_mutations : Mut.
(** Values of type error, lens/engine.go:756. *)
Context {Err : Type}.

(** lens/engine.go:29-52: the options of EngineModel.v and the two directories of the go tool. *)
Record dconf := DConf { dc : config; dc_gopath : bytes; dc_modcache : bytes }.
(** The arguments of WriteReportFiles, lens/engine.go:237-244; times in nanoseconds. *)
Record rargs := RArgs {
  ra_json : bytes; ra_charts : bytes; ra_start : Z;
  ra_analysis : Z; ra_discovery : Z; ra_exec : Z; ra_mutation : Z;
  ra_changed : list change; ra_checked : list bytes; ra_funcs : nat; ra_reached : Z; ra_skipped : Z; ra_checks : Z;
  ra_callers : list Caller; ra_tests : list Test; ra_same : Z; ra_diff : Z; ra_reports : list Rep; ra_mutations : Mut }.
(** What is undone at the end, lens/engine.go:768, 811, 835, 857, 879, 886, 902. *)
Inductive undo := UTmp | UModules | UCallers | UTests | UStore (s : Store) | UExec | UMutate.
(** What RunModuleUpdateAnalysis gives, lens/engine.go:881-883. *)
Record xres := XRes { x_checks : Z; x_reached : Z; x_skipped : Z; x_pre : Store; x_post : Store }.
(** The providers, lens/engine.go:53-246: what they give in a state of the world, and the world after it. *)
Record providers := Providers {
  p_setup : dconf -> W -> (option Err * dconf) * W;
  p_initial : dconf -> W -> (Err + (list change * bool * nat)) * W;
  p_modules : dconf -> bool -> list change -> nat -> W -> (Err + list (bytes * list Fn)) * W;
  p_callers : dconf -> list Fn -> W -> (Err + (list Caller * Reach)) * W;
  p_tests : dconf -> list Caller -> W -> (Err + list Test) * W;
  p_open : W -> (Err + Store) * W;
  p_exec : dconf -> Store -> list change -> Reach -> list Caller -> list Test -> W -> (Err + xres) * W;
  p_mutate : dconf -> bool -> bool -> bool -> list Fn -> list Test -> W -> (Err + Mut) * W;
  p_compare : Store -> Store -> Z -> W -> (Err + (Z * Z * list Rep)) * W;
  p_report : rargs -> W -> option Err * W;
  p_undo : undo -> W -> W }.
(** The providers of this engine, lens/engine.go:691-753. *)
Variable P : providers.
(** time.Now, lens/engine.go:757, 814, 834, 853, 887, 904. *)
Variable now : W -> Z.

(** The calls made, with what they were given and gave, lens/engine.go:756-930. *)
Inductive call :=
  | KSetup (c : dconf) (r : option Err * dconf)
  | KInitial (c : dconf) (r : Err + (list change * bool * nat))
  | KModules (c : dconf) (expand : bool) (ms : list change) (radius : nat) (r : Err + list (bytes * list Fn))
  | KCallers (c : dconf) (fns : list Fn) (r : Err + (list Caller * Reach))
  | KTests (c : dconf) (cs : list Caller) (r : Err + list Test)
  | KOpen (r : Err + Store)
  | KExec (c : dconf) (s : Store) (ms : list change) (reach : Reach) (cs : list Caller) (ts : list Test) (r : Err + xres)
  | KMutate (c : dconf) (fast line targeted : bool) (fns : list Fn) (ts : list Test) (r : Err + Mut)
  | KCompare (pre post : Store) (mult : Z) (r : Err + (Z * Z * list Rep))
  | KReport (a : rargs) (r : option Err)
  | KUndo (u : undo).

(** The world, the calls made so far, and what is deferred, newest first (lens/engine.go:756-930). *)
Record st := St { s_w : W; s_log : list call; s_defer : list undo }.
(** How a run ends, lens/engine.go:756-930; [FailedModules]: the error of lens/engine.go:787-802. *)
Inductive ending := Done | Refused | NoModules | Failed (e : Err) | FailedModules (e : Err).
(** A call of a provider: the world and the log afterwards (lens/engine.go:756-930). *)
Definition ask {A} (f : W -> A * W) (k : A -> call) (s : st) : A * st :=
  let '(r, w) := f (s_w s) in (r, St w (s_log s ++ [k r]) (s_defer s)).
(** defer, lens/engine.go:768, 811, 835, 857, 879, 886, 902. *)
Definition later (u : undo) (s : st) : st := St (s_w s) (s_log s) (u :: s_defer s).
(** The deferred calls at the return of Run, last in, first out (lens/engine.go:756-930). *)
Definition finish (s : st) : st :=
  fold_left (fun s u => St (p_undo P u (s_w s)) (s_log s ++ [KUndo u]) (s_defer s)) (s_defer s) s.

(** A call of WriteReportFiles and the end of the run, lens/engine.go:815-820, 838-843, 861-866, 916-926. *)
Definition report (a : rargs) (s : st) : ending * st :=
  let '(r, s) := ask (p_report P a) (KReport a) s in (match r with None => Done | Some e => Failed e end, s).
(** The names of the modules and their functions, lens/engine.go:804-808: bulk.MapKeysSlice, slices.Sort, and the functions in that order. *)
Definition flatten_modules (m : list (bytes * list Fn)) : list bytes * list Fn :=
  let names := bsort (mkeys m) in
  (names, flat_map (fun k => match mget k m with Some l => l | None => [] end) names).

(** lens/engine.go:904-926: from the comparison on. *)
Definition stage_compare (c : dconf) (t0 t1 t2 t3 : Z) (ms : list change) (names : list bytes) (fns : list Fn) (cs : list Caller) (ts : list Test)
    (x : xres) (mu : Mut) (s : st) : ending * st :=
  let t4 := now (s_w s) in
  let '(r, s) := ask (p_compare P (x_pre x) (x_post x) (c_mult (dc c))) (KCompare (x_pre x) (x_post x) (c_mult (dc c))) s in
  match r with
  | inl e => (Failed e, s)
  | inr (same, diff, reps) =>
      report (RArgs (c_json (dc c)) (c_charts (dc c)) t0 (t1 - t0) (t2 - t1) (t3 - t2) (t4 - t3) ms names (length fns)
                (x_reached x) (x_skipped x) (x_checks x) cs ts same diff reps mu) s
  end.
(** lens/engine.go:875-903: storage, execution and mutation testing. *)
Definition stage_exec (c : dconf) (t0 t1 t2 : Z) (ms : list change) (names : list bytes) (fns : list Fn) (cs : list Caller) (reach : Reach) (ts : list Test)
    (s : st) : ending * st :=
  let '(r, s) := ask (p_open P) KOpen s in
  match r with
  | inl e => (Failed e, s)
  | inr store =>
      let s := later (UStore store) s in
      let '(r, s) := ask (p_exec P c store ms reach cs ts) (KExec c store ms reach cs ts) s in
      match r with
      | inl e => (Failed e, s)
      | inr x =>
          let s := later UExec s in
          let t3 := now (s_w s) in
          if beq (c_scope (dc c)) (B "none") then stage_compare c t0 t1 t2 t3 ms names fns cs ts x no_mutations s
          else
            let line := beq (c_scope (dc c)) (B "line") || beq (c_scope (dc c)) (B "area") in
            let fast := negb (beq (c_mode (dc c)) (B "full")) in
            let targeted := negb (beq (c_tests (dc c)) (B "full")) in
            let '(r, s) := ask (p_mutate P c fast line targeted fns ts) (KMutate c fast line targeted fns ts) s in
            match r with
            | inl e => (Failed e, s)
            | inr mu => stage_compare c t0 t1 t2 t3 ms names fns cs ts x mu (later UMutate s)
            end
      end
  end.
(** lens/engine.go:812-873: callers and tests, with the early reports. *)
Definition stage_static (c : dconf) (t0 : Z) (ms : list change) (m : list (bytes * list Fn)) (s : st) : ending * st :=
  let '(names, fns) := flatten_modules m in
  let s := later UModules s in
  let early t1 t2 n cs ts := RArgs (c_json (dc c)) (c_charts (dc c)) t0 (t1 - t0) (t2 - t1) 0 0 ms names n 0 0 0 cs ts 0 0 [] no_mutations in
  match fns with
  | [] => let t1 := now (s_w s) in report (early t1 t1 0%nat [] []) s
  | _ =>
      let '(r, s) := ask (p_callers P c fns) (KCallers c fns) s in
      match r with
      | inl e => (Failed e, s)
      | inr (cs, reach) =>
          let t1 := now (s_w s) in
          let s := later UCallers s in
          match cs with
          | [] => report (early t1 t1 0%nat cs []) s
          | _ =>
              let '(r, s) := ask (p_tests P c cs) (KTests c cs) s in
              let t2 := now (s_w s) in
              match r with
              | inl e => (Failed e, s)
              | inr ts =>
                  let s := later UTests s in
                  match ts with
                  | [] => report (early t1 t2 (length fns) cs ts) s
                  | _ => stage_exec c t0 t1 t2 ms names fns cs reach ts s
                  end
              end
          end
      end
  end.
(** lens/engine.go:771-811: the modules. *)
Definition stage_modules (c : dconf) (t0 : Z) (s : st) : ending * st :=
  let '(r, s) := ask (p_initial P c) (KInitial c) s in
  match r with
  | inl e => (Failed e, s)
  | inr ([], _, _) => (NoModules, s)
  | inr (ms, expand, radius) =>
      let '(r, s) := ask (p_modules P c expand ms radius) (KModules c expand ms radius) s in
      match r with
      | inl e => (FailedModules e, s)
      | inr m => stage_static c t0 ms m s
      end
  end.
(** Prepare, lens/engine.go:1051-1147 (EngineModel.v): the configuration afterwards, and whether it was accepted. *)
Variable prepared : config -> config * bool.
(** Run, lens/engine.go:756-930: how it ends, the configuration of the engine afterwards, and the calls. Panics are not modelled. *)
Definition run_data (c : dconf) (w : W) : ending * dconf * st :=
  let t0 := now w in
  let s := St w [] [] in
  let '(c1, ok) := prepared (dc c) in
  let c1 := DConf c1 (dc_gopath c) (dc_modcache c) in
  if negb ok then (Refused, c1, s)
  else if c_tmp (dc c1) then
    let '((r, c2), s) := ask (p_setup P c1) (KSetup c1) s in
    match r with
    | Some e => (Failed e, c2, finish s)
    | None => let '(e, s) := stage_modules c2 t0 (later UTmp s) in (e, c2, finish s)
    end
  else let '(e, s) := stage_modules c1 t0 s in (e, c1, finish s).

(** ** Default providers *)
(** DefaultCallerAnalysisProvider.PerformCallerStaticAnalysis, lens/engine.go:283-301, with the static analysis, the extraction of the edges and the
    hook as functions. *)
Section Hook.
(** The call graph and the packages, lens/engine.go:284. *)
Context {Graph : Type}.
(** identEdges, lens/engine.go:291. *)
Context {Edges : Type}.
(** CallerStaticAnalysis, lens/engine.go:284. *)
Variable static : list Fn -> W -> (Err + (list Caller * Reach * Graph)) * W.
(** extractCallGraphEdges, lens/engine.go:291. *)
Variable edges : Graph -> Edges.
(** PostCallerAnalysis, lens/engine.go:259-280. *)
Variable hook : option (Graph -> Edges -> list Caller -> Reach -> W -> option Err * W).
(** lens/engine.go:283-301. *)
Definition callers_default (fns : list Fn) (w : W) : (Err + (list Caller * Reach)) * W :=
  let '(r, w) := static fns w in
  match r with
  | inl e => (inl e, w)
  | inr (cs, reach, g) =>
      match hook with
      | None => (inr (cs, reach), w)
      | Some h =>
          let '(r, w) := h g (edges g) cs reach w in
          match r with Some e => (inl e, w) | None => (inr (cs, reach), w) end
      end
  end.
End Hook.
(** NewAnalysisEngineWithProviders, lens/engine.go:720-753: a provider that is given replaces the default one. *)
Definition given_or {A} (o : option A) (d : A) : A := match o with Some a => a | None => d end.
(** DefaultStorageProvider, lens/engine.go:627-647: its path and the store it keeps. *)
Record sprov := SProv { sp_path : bytes; sp_store : option Store }.
(** NewBadgerStorage, lens/storage.go:178-238, as an oracle. *)
Variable open_badger : bytes -> W -> (Err + Store) * W.
(** The name of a new directory, lens/engine.go:635-639. *)
Variable fresh : W -> bytes.
(** NewStorage, lens/engine.go:633-647. *)
Definition new_storage (d : sprov) (w : W) : (Err + Store) * sprov * W :=
  match sp_store d with
  | Some s => (inr s, d, w)
  | None =>
      let path := if empty (sp_path d) then fresh w else sp_path d in
      match open_badger path w with
      | (inl e, w') => (inl e, SProv path None, w')
      | (inr s, w') => (inr s, SProv path (Some s), w')
      end
  end.
End Data.
