(** The report as JSON: how it is built, written and read back (lens/report.go:25-92, 200-295,
    cmd/report/main.go:13-28).  Definitions only. *)
From Verif Require Import Base Maps ReportModel.

(** ** JSON values *)
(** What encoding/json writes and reads (lens/report.go:243, 248, 264, cmd/report/main.go:25).
    The text is not modelled; an object has its keys in the order of the text. *)
Inductive jv :=
  | JNull
  | JBool (b : bool)
  | JNum (z : Z)
  | JStr (s : bytes)
  | JArr (l : list jv)
  | JObj (l : list (bytes * jv)).

(** A Go map filled in the order of the text, a later key replacing an earlier one
    (lens/report.go:248). *)
Definition as_map {V} (l : list (bytes * V)) : amap V := fold_left (fun m e => mset (fst e) (snd e) m) l [].
(** The entries of a map as encoding/json writes them: by key (lens/report.go:243, 264). *)
Definition sort_keys {V} (m : amap V) : list (bytes * V) :=
  flat_map (fun k => match mget k m with Some v => [(k, v)] | None => [] end) (bsort (mkeys m)).

(** ** The report *)
(** ModuleMetrics (lens/report.go:37-47); a nil slice is [None]. *)
Record mod_metrics := ModMetrics {
  mm_name : bytes; mm_start : bytes; mm_update : bytes;
  mm_changed : option (list bytes); mm_changed_count : Z; mm_funcs : Z;
  mm_reachable : option (list bytes); mm_reachable_count : Z; mm_untracked : Z }.
(** ValidationMetrics (lens/report.go:50-64). *)
Record val_metrics := ValMetrics {
  vm_project : option (list bytes); vm_project_count : Z; vm_tests : option (list bytes); vm_tests_count : Z;
  vm_checks : Z; vm_hits : Z; vm_same : Z; vm_diff : Z; vm_generated : Z; vm_mutations : Z; vm_squashed : Z;
  vm_perf : option (list perf); vm_details : option (list detail) }.
(** ReportMetrics (lens/report.go:25-34).  The time is its text (RFC 3339), the durations are
    milliseconds. *)
Record metrics := Metrics {
  me_time : bytes; me_run : Z; me_analysis : Z; me_discovery : Z; me_fields : Z; me_mutation : Z;
  me_module : mod_metrics; me_validation : val_metrics }.

(** len of a slice. *)
(** lens/report.go:225-239. *)
Definition olen {A} (o : option (list A)) : Z := match o with Some l => Z.of_nat (length l) | None => 0%Z end.
(** The counts a report is built from besides its lists (lens/report.go:200-208). *)
Record counts := Counts {
  ct_funcs : Z; ct_hits : Z; ct_untracked : Z; ct_checks : Z; ct_same : Z; ct_diff : Z; ct_generated : Z;
  ct_mutations : Z; ct_squashed : Z }.
(** The struct of BuildReportMap (lens/report.go:209-240); [run] to [mutation] are the
    milliseconds of the durations. *)
Definition build_metrics (time : bytes) (run analysis discovery fields mutation : Z) (name start update : bytes)
    (modules reachable project tests : option (list bytes)) (c : counts)
    (perfs : option (list perf)) (details : option (list detail)) : metrics :=
  Metrics time run analysis discovery fields mutation
    (ModMetrics name start update modules (olen modules) (ct_funcs c) reachable (olen reachable) (ct_untracked c))
    (ValMetrics project (olen project) tests (olen tests) (ct_checks c) (ct_hits c) (ct_same c) (ct_diff c)
       (ct_generated c) (ct_mutations c) (ct_squashed c) perfs details).

Section Json.
(** What a whole number written as text is after it was read as float64 and written again
    (lens/report.go:248, 264). *)
Variable num : Z -> Z.
(** encoding/json replaces bytes that are not UTF-8 (lens/report.go:243, 264). *)
Variable u8 : bytes -> bytes.

(** ** Writing *)
(** A nil slice is null (lens/report.go:243). *)
Definition enc_list {A} (e : A -> jv) (o : option (list A)) : jv := match o with Some l => JArr (map e l) | None => JNull end.
(** lens/report.go:243. *)
Definition enc_str (s : bytes) : jv := JStr (u8 s).
(** A map with string keys (lens/report.go:243). *)
Definition enc_map {V} (e : V -> jv) (m : amap V) : jv := JObj (map (fun x => (u8 (fst x), e (snd x))) (sort_keys m)).
(** PerformanceChange, lens/report.go:67-74. *)
Definition enc_perf (p : perf) : jv := JObj
  [(B "test_function_ident", enc_str (pf_ident p)); (B "test_function_name", enc_str (pf_name p)); (B "caller_ident", enc_str (pf_caller p));
   (B "time_diff_ms", JNum (pf_diff p)); (B "pre_time_ms", JNum (Z.of_N (pf_pre p))); (B "post_time_ms", JNum (Z.of_N (pf_post p)))].
(** TestDetail, lens/report.go:84-92. *)
Definition enc_detail (d : detail) : jv := JObj
  [(B "test_function_ident", enc_str (td_ident d)); (B "test_function_name", enc_str (td_name d)); (B "baseline_failure", JBool (td_baseline d));
   (B "pass_regression", JBool (td_regression d)); (B "diff_field_count", JNum (Z.of_N (td_diff d))); (B "module_change_hit_count", JNum (td_hits d));
   (B "field_changes", match td_fields d with Some m => enc_map (enc_map enc_str) m | None => JNull end)].
(** ModuleMetrics, lens/report.go:37-47. *)
Definition enc_module (m : mod_metrics) : jv := JObj
  [(B "root_module_name", enc_str (mm_name m)); (B "root_module_start_version", enc_str (mm_start m)); (B "root_module_update_version", enc_str (mm_update m));
   (B "changed_modules", enc_list enc_str (mm_changed m)); (B "changed_module_count", JNum (mm_changed_count m)); (B "changed_function_count", JNum (mm_funcs m));
   (B "reachable_changed_functions", enc_list enc_str (mm_reachable m)); (B "reachable_changed_function_count", JNum (mm_reachable_count m));
   (B "untracked_module_function_count", JNum (mm_untracked m))].
(** ValidationMetrics, lens/report.go:50-64. *)
Definition enc_validation (v : val_metrics) : jv := JObj
  [(B "relevant_project_functions", enc_list enc_str (vm_project v)); (B "relevant_project_function_count", JNum (vm_project_count v));
   (B "relevant_test_functions", enc_list enc_str (vm_tests v)); (B "relevant_test_function_count", JNum (vm_tests_count v));
   (B "project_field_check_point_count", JNum (vm_checks v)); (B "module_change_hit_in_test_count", JNum (vm_hits v));
   (B "test_field_match_count", JNum (vm_same v)); (B "test_field_diff_count", JNum (vm_diff v));
   (B "generated_test_function_count", JNum (vm_generated v)); (B "mutation_count", JNum (vm_mutations v)); (B "mutations_squashed", JNum (vm_squashed v));
   (B "performance_changes", enc_list enc_perf (vm_perf v)); (B "test_details", enc_list enc_detail (vm_details v))].
(** ReportMetrics, lens/report.go:25-34. *)
Definition enc_metrics (m : metrics) : list (bytes * jv) :=
  [(B "generated_at", enc_str (me_time m)); (B "run_ms", JNum (me_run m)); (B "analysis_ms", JNum (me_analysis m));
   (B "test_discovery_ms", JNum (me_discovery m)); (B "field_check_ms", JNum (me_fields m)); (B "mutation_ms", JNum (me_mutation m));
   (B "module", enc_module (me_module m)); (B "validation", enc_validation (me_validation m))].

(** A value read into an interface and written again (lens/report.go:248, 264): objects are
    maps, numbers are float64. *)
Fixpoint remap (v : jv) : jv :=
  match v with
  | JNum z => JNum (num z)
  | JArr l => JArr (map remap l)
  | JObj l => JObj (sort_keys (as_map (map (fun e => (fst e, remap (snd e))) l)))
  | _ => v
  end.
(** BuildReportMap (lens/report.go:242-254). *)
Definition report_map (m : metrics) : amap jv := as_map (map (fun e => (fst e, remap (snd e))) (enc_metrics m)).
(** WriteToFile (lens/report.go:259-272) of the map with what an extension put into it (105-107). *)
Definition written (extra : list (bytes * jv)) (m : metrics) : jv :=
  JObj (sort_keys (fold_left (fun r e => mset (fst e) (snd e) r) extra (report_map m))).
End Json.

(** ** Reading (cmd/report/main.go:24-27) *)
(** Names of struct fields are compared without case; ASCII only (cmd/report/main.go:25). *)
Definition lower (s : bytes) : bytes :=
  map (fun c => let n := N_of_ascii c in if ((65 <=? n) && (n <=? 90))%N then ascii_of_N (n + 32) else c) s.
(** json.Unmarshal into a struct (cmd/report/main.go:25): the last value of a key for the
    field with this (lower case) tag; null leaves the field alone. *)
Definition field (tag : bytes) (o : list (bytes * jv)) : option jv :=
  fold_left (fun acc e => if beq (lower (fst e)) tag then match snd e with JNull => acc | v => Some v end else acc) o None.
(** cmd/report/main.go:25: the zero value if the field is not there; [None] is an error. *)
Definition get {A} (zero : A) (dec : jv -> option A) (tag : bytes) (o : list (bytes * jv)) : option A :=
  match field tag o with Some v => dec v | None => Some zero end.
(** cmd/report/main.go:25. *)
Definition obind {A C} (x : option A) (f : A -> option C) : option C := match x with Some a => f a | None => None end.
(** cmd/report/main.go:25. *)
Notation "x <~ e ;; k" := (obind e (fun x => k)) (at level 61, e at next level, right associativity).
(** cmd/report/main.go:25: string, bool, int and uint32. *)
Definition dec_str (v : jv) : option bytes := match v with JStr s => Some s | _ => None end.
(** cmd/report/main.go:25. *)
Definition dec_bool (v : jv) : option bool := match v with JBool b => Some b | _ => None end.
(** cmd/report/main.go:25. *)
Definition dec_int (v : jv) : option Z := match v with JNum z => if ((- 2 ^ 63 <=? z) && (z <? 2 ^ 63))%Z then Some z else None | _ => None end.
(** cmd/report/main.go:25. *)
Definition dec_u32 (v : jv) : option N := match v with JNum z => if ((0 <=? z) && (z <? 2 ^ 32))%Z then Some (Z.to_N z) else None | _ => None end.
(** An int the model has as a natural number: DiffFieldCount, cmd/report/main.go:25,
    lens/report.go:90; negative numbers do not occur. *)
Definition dec_nat (v : jv) : option N := option_map Z.to_N (dec_int v).
(** cmd/report/main.go:25. *)
Fixpoint all_some {A} (l : list (option A)) : option (list A) :=
  match l with
  | [] => Some []
  | x :: l' => a <~ x ;; r <~ all_some l' ;; Some (a :: r)
  end.
(** A slice; null for an element gives the zero value (cmd/report/main.go:25). *)
Definition dec_list {A} (zero : A) (dec : jv -> option A) (v : jv) : option (option (list A)) :=
  match v with
  | JArr l => option_map Some (all_some (map (fun x => match x with JNull => Some zero | _ => dec x end) l))
  | _ => None
  end.
(** A map (cmd/report/main.go:25). *)
Definition dec_map {A} (zero : A) (dec : jv -> option A) (v : jv) : option (amap A) :=
  match v with
  | JObj l => option_map as_map (all_some (map (fun e => option_map (pair (fst e)) (match snd e with JNull => Some zero | x => dec x end)) l))
  | _ => None
  end.
(** cmd/report/main.go:25. *)
Definition dec_obj {A} (dec : list (bytes * jv) -> option A) (v : jv) : option A := match v with JObj o => dec o | _ => None end.

(** lens/report.go:67-74, cmd/report/main.go:25. *)
Definition dec_perf (o : list (bytes * jv)) : option perf :=
  a <~ get [] dec_str (B "test_function_ident") o ;; b <~ get [] dec_str (B "test_function_name") o ;; c <~ get [] dec_str (B "caller_ident") o ;;
  d <~ get 0%Z dec_int (B "time_diff_ms") o ;; e <~ get 0%N dec_u32 (B "pre_time_ms") o ;; f <~ get 0%N dec_u32 (B "post_time_ms") o ;;
  Some (Perf a b c d e f).
(** lens/report.go:84-92, cmd/report/main.go:25. *)
Definition dec_detail (o : list (bytes * jv)) : option detail :=
  a <~ get [] dec_str (B "test_function_ident") o ;; b <~ get [] dec_str (B "test_function_name") o ;;
  c <~ get false dec_bool (B "baseline_failure") o ;; d <~ get false dec_bool (B "pass_regression") o ;;
  e <~ get 0%N dec_nat (B "diff_field_count") o ;; f <~ get 0%Z dec_int (B "module_change_hit_count") o ;;
  g <~ get None (fun v => option_map Some (dec_map [] (dec_map [] dec_str) v)) (B "field_changes") o ;;
  Some (Detail a b c d e f g).
(** lens/report.go:37-47, cmd/report/main.go:25. *)
Definition dec_module (o : list (bytes * jv)) : option mod_metrics :=
  a <~ get [] dec_str (B "root_module_name") o ;; b <~ get [] dec_str (B "root_module_start_version") o ;; c <~ get [] dec_str (B "root_module_update_version") o ;;
  d <~ get None (dec_list [] dec_str) (B "changed_modules") o ;; e <~ get 0%Z dec_int (B "changed_module_count") o ;; f <~ get 0%Z dec_int (B "changed_function_count") o ;;
  g <~ get None (dec_list [] dec_str) (B "reachable_changed_functions") o ;; h <~ get 0%Z dec_int (B "reachable_changed_function_count") o ;;
  i <~ get 0%Z dec_int (B "untracked_module_function_count") o ;;
  Some (ModMetrics a b c d e f g h i).
(** lens/report.go:50-64, cmd/report/main.go:25. *)
Definition dec_validation (o : list (bytes * jv)) : option val_metrics :=
  a <~ get None (dec_list [] dec_str) (B "relevant_project_functions") o ;; b <~ get 0%Z dec_int (B "relevant_project_function_count") o ;;
  c <~ get None (dec_list [] dec_str) (B "relevant_test_functions") o ;; d <~ get 0%Z dec_int (B "relevant_test_function_count") o ;;
  e <~ get 0%Z dec_int (B "project_field_check_point_count") o ;; f <~ get 0%Z dec_int (B "module_change_hit_in_test_count") o ;;
  g <~ get 0%Z dec_int (B "test_field_match_count") o ;; h <~ get 0%Z dec_int (B "test_field_diff_count") o ;;
  i <~ get 0%Z dec_int (B "generated_test_function_count") o ;; j <~ get 0%Z dec_int (B "mutation_count") o ;; k <~ get 0%Z dec_int (B "mutations_squashed") o ;;
  l <~ get None (dec_list (Perf [] [] [] 0 0 0) (dec_obj dec_perf)) (B "performance_changes") o ;;
  m <~ get None (dec_list (Detail [] [] false false 0 0 None) (dec_obj dec_detail)) (B "test_details") o ;;
  Some (ValMetrics a b c d e f g h i j k l m).
(** The zero values (cmd/report/main.go:24). *)
Definition zero_module : mod_metrics := ModMetrics [] [] [] None 0 0 None 0 0.
(** cmd/report/main.go:24. *)
Definition zero_validation : val_metrics := ValMetrics None 0 None 0 0 0 0 0 0 0 0 None None.
(** lens/report.go:25-34, cmd/report/main.go:24-27. *)
Definition read_report (v : jv) : option metrics :=
  dec_obj (fun o =>
    a <~ get [] dec_str (B "generated_at") o ;; b <~ get 0%Z dec_int (B "run_ms") o ;; c <~ get 0%Z dec_int (B "analysis_ms") o ;;
    d <~ get 0%Z dec_int (B "test_discovery_ms") o ;; e <~ get 0%Z dec_int (B "field_check_ms") o ;; f <~ get 0%Z dec_int (B "mutation_ms") o ;;
    g <~ get zero_module (dec_obj dec_module) (B "module") o ;; h <~ get zero_validation (dec_obj dec_validation) (B "validation") o ;;
    Some (Metrics a b c d e f g h)) v.
