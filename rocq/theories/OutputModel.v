(** What an analysis leaves: the two report files, and the parts an engine is put together from
    (lens/engine.go:283-299, 625-753; lens/report.go:111-178, 259-295, 362-391).  Definitions only. *)
From Verif Require Import Base Maps UtilModel TypesModel ModuleModel CompareModel ReportModel JsonModel ChartModel FsModel.
From Coq Require Import Permutation Sorted.

(** ** The report files *)
(** What WriteReportFiles is given (lens/engine.go:661-666). *)
Record rinput := RInput {
  in_time : bytes; in_run : Z; in_analysis : Z; in_discovery : Z; in_fields : Z; in_mutation : Z;
  in_changed : list change; in_checked : option (list bytes); in_funcs : Z; in_hits : Z; in_untracked : Z; in_checks : Z;
  in_callers : list rcaller; in_tests : list (bytes * bytes); in_same : Z; in_diff : Z; in_results : list treport;
  in_mutations : Z; in_squashed : Z }.

(** slices.SortFunc by identifier, not stable (lens/report.go:139-141): some rearrangement in
    order. *)
Definition in_order (rs out : list treport) : Prop :=
  Permutation rs out /\ StronglySorted (fun a b => ble (tr_ident (rp_orig a)) (tr_ident (rp_orig b))) out.
(** A slice that is only appended to, nil when nothing was (lens/report.go:162-174). *)
Definition appended {A} (l : list A) : option (list A) := match l with [] => None | _ => Some l end.

Section Report.
(** A whole number after it was read as float64 (lens/report.go:248, 264). *)
Variable num : Z -> Z.
(** encoding/json replaces bytes that are not UTF-8 (lens/report.go:264). *)
Variable u8 : bytes -> bytes.
(** strings.TrimSpace, lens/report.go:149. *)
Variable trim : bytes -> bytes.
(** json.MarshalIndent, lens/report.go:264; [None] is an error. *)
Variable text_of : jv -> option bytes.
(** renderChartsToPainter and Bytes, lens/report.go:393-416, of these figures and tests at a height
    (ChartModel.render). *)
Variable draw : pkind -> figures -> list treport -> Z -> option (Z * option bytes).

(** The report of PrepareReportData and BuildReportMap (lens/engine.go:667-678,
    lens/report.go:111-178, 200-240); [out] are the results in order, [ps] the time changes in the
    order the maps gave. *)
Definition report_of (i : rinput) (out : list treport) (ps : list perf) : metrics :=
  let root := root_module (in_changed i) in
  build_metrics (in_time i) (in_run i) (in_analysis i) (in_discovery i) (in_fields i) (in_mutation i)
    (mc_name root) (mc_prior root) (mc_new root) (in_checked i)
    (Some (module_idents (in_callers i))) (Some (project_idents (in_callers i))) (Some (test_idents (in_tests i)))
    (Counts (in_funcs i) (in_hits i) (in_untracked i) (in_checks i) (in_same i) (in_diff i)
       (Z.of_nat (synthetic_count (in_tests i))) (in_mutations i) (in_squashed i))
    (appended ps) (Some (map (detail_of trim) out)).
(** The figures of the charts (lens/engine.go:683-685). *)
Definition figures_in (i : rinput) (out : list treport) : figures :=
  let root := root_module (in_changed i) in
  figures_of (mc_name root) (mc_prior root) (mc_new root) (in_funcs i) (Z.of_nat (length (module_idents (in_callers i))))
    (in_hits i) (in_untracked i) (in_same i) (in_diff i) (in_mutations i) (in_squashed i) out.
(** lens/report.go:146-151: the texts of field changes are trimmed in place, so the charts get
    them trimmed. *)
Definition trimmed (r : treport) : treport :=
  TReport (rp_orig r) (rp_post r) (trim_fields trim (rp_fields r)) (rp_times r) (rp_regress r) (rp_same r) (rp_diff r).

(** WriteToFile (lens/report.go:259-272): nothing for an empty path. *)
Inductive write_json (path : bytes) (m : metrics) (f : fsys) : fsys -> bool -> Prop :=
  | wj_none : path = [] -> write_json path m f f true
  | wj_text : path <> [] -> text_of (written num u8 [] m) = None -> write_json path m f f false
  | wj_write : forall t f' ok, path <> [] -> text_of (written num u8 [] m) = Some t -> write_file f path 420 t f' ok -> write_json path m f f' ok.
(** The whole picture (lens/report.go:377-384, 393-412). *)
Definition picture (k : pkind) (g : figures) (out : list treport) : option bytes := snd (render (draw k g out) 1024).
(** writeReportCharts (lens/report.go:362-391). *)
Inductive write_chart (path : bytes) (g : figures) (out : list treport) (f : fsys) : fsys -> bool -> Prop :=
  | wc_kind : kind_of path = None -> write_chart path g out f f false
  | wc_draw : forall k, kind_of path = Some k -> picture k g out = None -> write_chart path g out f f false
  | wc_write : forall k b f' ok, kind_of path = Some k -> picture k g out = Some b -> write_file f path 420 b f' ok -> write_chart path g out f f' ok.
(** WriteReportFiles (lens/engine.go:661-689). *)
Inductive write_report (json chart : bytes) (i : rinput) (f : fsys) : fsys -> bool -> Prop :=
  | wr_json : forall out ps f', in_order (in_results i) out -> Permutation ps (flat_map perfs_of out) ->
      write_json json (report_of i out ps) f f' false -> write_report json chart i f f' false
  | wr_chart : forall out ps f1 f2 ok, in_order (in_results i) out -> Permutation ps (flat_map perfs_of out) ->
      write_json json (report_of i out ps) f f1 true -> write_chart chart (figures_in i out) (map trimmed out) f1 f2 ok ->
      write_report json chart i f f2 ok.
End Report.

(** ** The storage of an engine *)
(** DefaultStorageProvider (lens/engine.go:626-630); a store is named by a number, in the order
    they were opened. *)
Record sprovider := SProvider { sp_path : bytes; sp_store : option nat; sp_opened : list (nat * bytes) }.
(** NewStorage (lens/engine.go:632-647); [fresh]: the path made from pid and time (635-638),
    [opens]: whether NewBadgerStorage succeeds. *)
Definition new_storage (p : sprovider) (fresh : bytes) (opens : bool) : sprovider * option nat :=
  match sp_store p with
  | Some s => (p, Some s)
  | None => let path := match sp_path p with [] => fresh | q => q end in
            if opens then let s := length (sp_opened p) in (SProvider path (Some s) (sp_opened p ++ [(s, path)]), Some s)
            else (SProvider path None (sp_opened p), None)
  end.
(** Calls one after the other (lens/engine.go:632-647) and what they gave. *)
Fixpoint storage_calls (p : sprovider) (l : list (bytes * bool)) : sprovider * list (option nat) :=
  match l with
  | [] => (p, [])
  | (fresh, opens) :: l' => let '(p1, r) := new_storage p fresh opens in let '(p2, rs) := storage_calls p1 l' in (p2, r :: rs)
  end.

(** ** The parts of an engine *)
(** Who does a step: the standard implementation or the one given (lens/engine.go:692-702). *)
Inductive part (A : Type) := Standard | Given (a : A).
Arguments Standard {A}.
Arguments Given {A} _.
(** AnalysisEngine, lens/engine.go:692-702: module changes, callers, tests, update analysis,
    mutation, results, storage (with its cache size, 713-715), report. *)
Record engine (A : Type) := Engine {
  en_changes : part A; en_callers : part A; en_tests : part A; en_update : part A;
  en_mutation : part A; en_results : part A; en_storage : part A * Z; en_report : part A }.
Arguments Engine {A} _ _ _ _ _ _ _ _.
Arguments en_changes {A} _. Arguments en_callers {A} _. Arguments en_tests {A} _. Arguments en_update {A} _.
Arguments en_mutation {A} _. Arguments en_results {A} _. Arguments en_storage {A} _. Arguments en_report {A} _.
(** NewAnalysisEngine (lens/engine.go:705-719). *)
Definition new_engine {A} (cache : Z) : engine A := Engine Standard Standard Standard Standard Standard Standard (Standard, cache) Standard.
(** lens/engine.go:729-751: replaced when not nil. *)
Definition replace {A} (o : option A) (p : part A) : part A := match o with Some a => Given a | None => p end.
(** NewAnalysisEngineWithProviders (lens/engine.go:722-753). *)
Definition new_engine_with {A} (cache : Z) (changes callers tests update mutation results storage report : option A) : engine A :=
  let e := new_engine cache in
  Engine (replace changes (en_changes e)) (replace callers (en_callers e)) (replace tests (en_tests e)) (replace update (en_update e))
    (replace mutation (en_mutation e)) (replace results (en_results e))
    (match storage with Some s => (Given s, 0%Z) | None => en_storage e end) (replace report (en_report e)).

(** ** The hook after the search for callers *)
(** PerformCallerStaticAnalysis (lens/engine.go:283-299): what the search gave ([None]: an error);
    the hook, if set, is given it and says whether it failed. The result, and what the hook was
    called with. *)
Definition perform_callers {R} (found : option R) (hook : option (R -> bool)) : option R * list R :=
  match found with
  | None => (None, [])
  | Some r => match hook with
              | None => (Some r, [])
              | Some h => (if h r then None else Some r, [r])
              end
  end.
