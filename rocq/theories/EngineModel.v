(** The engine: options, target modules, and the order of the stages of a run
    (lens/engine.go:29-52, 756-1212). *)
From Verif Require Import Base UtilModel ModuleModel.

(** ** Target modules *)
(** strings.SplitN(s, "@", 2), lens/engine.go:1151: [None] without the separator. *)
Fixpoint cut_first (c : ascii) (s : bytes) : option (bytes * bytes) :=
  match s with
  | [] => None
  | x :: s' => if ascii_dec x c then Some ([], s')
               else match cut_first c s' with Some (a, b) => Some (x :: a, b) | None => None end
  end.
(** strings.Contains for one byte, lens/engine.go:1161. *)
Definition contains (c : ascii) (s : bytes) : bool := existsb (fun x => if ascii_dec x c then true else false) s.

(** lens/engine.go:1150-1169 parseTargetModule; [None] for an error. *)
Definition parse_target (s : bytes) : option (bytes * bytes) :=
  match cut_first "@"%char s with
  | None => None
  | Some (name, version) =>
      match name, version with
      | [], _ => None
      | _, [] => None
      | _, _ => if negb (contains "/"%char name) && negb (contains "."%char name) then None else Some (name, version)
      end
  end.

(** ** Options *)
(** lens/engine.go:29-46 Config, the fields used here. *)
Record config := Config {
  c_project : bytes; c_module : bytes; c_modules : bytes; c_gomod : bytes; c_gowork : bytes;
  c_port : Z; c_recurse : Z; c_len : Z; c_cache : Z;
  c_json : bytes; c_charts : bytes;
  c_scope : bytes; c_mode : bytes; c_tests : bytes;
  c_tmp : bool; c_mult : Z;
  c_absdir : bytes; c_targets : list (bytes * bytes); c_prepared : bool }.

Section Prepare.
(** filepath.Abs, strings.TrimSpace, validateFilePath and validateOutputPath
    (lens/engine.go:1066, 1084, 1171-1211), the latter two by whether they give an error. *)
Variable abs : bytes -> option bytes.
(** strings.TrimSpace, lens/engine.go:1084. *)
Variable trim : bytes -> bytes.
(** validateFilePath, lens/engine.go:1171-1190. *)
Variable file_ok : bytes -> bool.
(** validateOutputPath, lens/engine.go:1192-1211. *)
Variable out_ok : bytes -> bool.

(** lens/engine.go:1057-1061: comparisons with the empty string. *)
Definition empty (s : bytes) : bool := match s with [] => true | _ => false end.
(** lens/engine.go:1066-1070: Assignments to the fields Prepare writes. *)
Definition set_abs (c : config) (a : bytes) : config :=
  Config (c_project c) (c_module c) (c_modules c) (c_gomod c) (c_gowork c) (c_port c) (c_recurse c) (c_len c) (c_cache c)
    (c_json c) (c_charts c) (c_scope c) (c_mode c) (c_tests c) (c_tmp c) (c_mult c) a (c_targets c) (c_prepared c).
(** lens/engine.go:1078, 1092. *)
Definition add_target (c : config) (t : bytes * bytes) : config :=
  Config (c_project c) (c_module c) (c_modules c) (c_gomod c) (c_gowork c) (c_port c) (c_recurse c) (c_len c) (c_cache c)
    (c_json c) (c_charts c) (c_scope c) (c_mode c) (c_tests c) (c_tmp c) (c_mult c) (c_absdir c) (c_targets c ++ [t]) (c_prepared c).
(** lens/engine.go:1145. *)
Definition set_prepared (c : config) : config :=
  Config (c_project c) (c_module c) (c_modules c) (c_gomod c) (c_gowork c) (c_port c) (c_recurse c) (c_len c) (c_cache c)
    (c_json c) (c_charts c) (c_scope c) (c_mode c) (c_tests c) (c_tmp c) (c_mult c) (c_absdir c) (c_targets c) true.

(** lens/engine.go:1081-1093: the list of modules; false for an error. *)
Fixpoint add_list (c : config) (l : list bytes) : config * bool :=
  match l with
  | [] => (c, true)
  | m :: l' =>
      if empty (trim m) then (c, false)
      else match parse_target (trim m) with
           | None => (c, false)
           | Some t => add_list (add_target c t) l'
           end
  end.

(** lens/engine.go:1107-1118 *)
Definition ranges_ok (c : config) : bool :=
  ((1024 <=? c_port c) && (c_port c <=? 65535) && (1 <=? c_recurse c) && (c_recurse c <=? 100) &&
   (1 <=? c_len c) && (c_len c <=? 1048576) && (1 <=? c_cache c) && (c_cache c <=? 10240) &&
   (1 <=? c_mult c) && (c_mult c <=? 100))%Z.
(** lens/engine.go:1120-1132 *)
Definition one_of (s : bytes) (l : list string) : bool := existsb (fun x => beq s (B x)) l.
(** lens/engine.go:1120-1132. *)
Definition words_ok (c : config) : bool :=
  one_of (c_scope c) ["function"; "line"; "area"; "none"]%string && one_of (c_mode c) ["full"; "fast"]%string && one_of (c_tests c) ["full"; "targeted"]%string.

(** lens/engine.go:1051-1147 Prepare: the configuration afterwards, and whether it
    was accepted. *)
Definition prepare (c : config) : config * bool :=
  if c_prepared c then (c, false)
  else if empty (c_project c) then (c, false)
  else if empty (c_module c) && empty (c_modules c) && empty (c_gomod c) && empty (c_gowork c) then (c, false)
  else if negb (empty (c_gomod c)) && negb (empty (c_gowork c)) then (c, false)
  else match abs (c_project c) with
  | None => (c, false)
  | Some a =>
      let c1 := set_abs c a in
      let '(c2, ok2) := if empty (c_module c1) then (c1, true)
                        else match parse_target (c_module c1) with None => (c1, false) | Some t => (add_target c1 t, true) end in
      if negb ok2 then (c2, false) else
      let '(c3, ok3) := if empty (c_modules c2) then (c2, true) else add_list c2 (split_on ","%char (c_modules c2)) in
      if negb ok3 then (c3, false) else
      if negb (if negb (empty (c_gomod c3)) then file_ok (c_gomod c3) else if negb (empty (c_gowork c3)) then file_ok (c_gowork c3) else true) then (c3, false) else
      if negb (ranges_ok c3) then (c3, false) else
      if negb (words_ok c3) then (c3, false) else
      if negb (if negb (empty (c_json c3)) then out_ok (c_json c3) else if negb (empty (c_charts c3)) then out_ok (c_charts c3) else true) then (c3, false) else
      (set_prepared c3, true)
  end.
End Prepare.

(** ** The modules to look at *)
(** lens/engine.go:952-958: FindModuleVersion (lens/module.go): an error, not required,
    or version and whether the requirement is indirect. *)
Inductive found := FErr | FNone | FVer (v : bytes) (indirect : bool).
(** lens/engine.go:947-965: the targets found in the project. *)
Fixpoint initial_targets (find : bytes -> found) (l : list (bytes * bytes)) : option (list change) :=
  match l with
  | [] => Some []
  | (name, version) :: l' =>
      match find name with
      | FErr => None
      | FNone => initial_targets find l'
      | FVer v i => match v with
                    | [] => initial_targets find l'
                    | _ => match initial_targets find l' with Some r => Some (Change name v version i [] :: r) | None => None end
                    end
      end
  end.
(** lens/engine.go:938-991 parseInitialModules: [mods] is the number of go.mod files of
    the project ([None]: unreadable); the two diffs are those of C23. The second result
    says whether modules reached from these are to be included, the third is the radius. *)
Definition parse_initial (c : config) (mods : option nat) (find : bytes -> found) (diff_mod diff_work : option (list change)) : option (list change * bool * nat) :=
  match mods with
  | None => None
  | Some n =>
      let radius := if beq (c_scope c) (B "area") then 1%nat else 0%nat in
      match c_targets c with
      | _ :: _ => match initial_targets find (c_targets c) with Some l => Some (l, true, radius) | None => None end
      | [] =>
          if negb (empty (c_gomod c)) then
            if Nat.eqb n 1 then match diff_mod with Some l => Some (l, false, radius) | None => None end else None
          else if negb (empty (c_gowork c)) then match diff_work with Some l => Some (l, false, radius) | None => None end
          else Some ([], false, radius)
      end
  end.

(** ** A run *)
(** lens/engine.go:815-820, 838-843, 861-866, 916-922: What one call of WriteReportFiles
    is given: changed functions, calling functions, tests, and whether results of an
    execution were compared. *)
Record rinfo := RInfo { ri_changed : nat; ri_callers : nat; ri_tests : nat; ri_compared : bool }.
(** lens/engine.go:756-930: The calls a run makes; each constructor is the call at the
    line of lens/engine.go next to it. *)
Inductive event :=
  | VSetup (ok : bool)              (* 764 setupTempEnvironment *)
  | VRemoveTmp                      (* 768 cleanup *)
  | VModules (ok : bool)            (* 785 AnalyzeModuleChanges *)
  | VCleanModules                   (* 811 *)
  | VCallers (ok : bool)            (* 830 PerformCallerStaticAnalysis *)
  | VCleanCallers                   (* 835 *)
  | VTests (ok : bool)              (* 852 ProvideTests *)
  | VCleanTests                     (* 857 *)
  | VOpen (ok : bool)               (* 875 NewStorage *)
  | VClose                          (* 879 storage.Close *)
  | VExec (ok : bool)               (* 881 RunModuleUpdateAnalysis *)
  | VCleanExec                      (* 886 *)
  | VMutate (fast line targeted : bool) (ok : bool)  (* 897 RunMutationTesting *)
  | VCleanMutate                    (* 902 *)
  | VCompare (ok : bool)            (* 908 CompareTestResults *)
  | VReport (r : rinfo) (ok : bool). (* 815, 838, 861, 916 WriteReportFiles *)

(** lens/engine.go:756-930: How each call of a run turns out; numbers are lengths of the
    results. *)
Record world := World {
  w_prepare : bool; w_setup : bool; w_initial : option nat; w_modules : option nat;
  w_callers : option nat; w_tests : option nat; w_open : bool; w_exec : bool;
  w_mutate : bool; w_compare : bool; w_report : bool }.

(** lens/engine.go:756-930 Run: the calls made and whether an error is returned (false).
    Deferred calls run last in, first out. Panics of providers are not modelled. *)
Definition run (c : config) (w : world) : list event * bool :=
  if negb (w_prepare w) then ([], false) else
  let tmp := c_tmp c in
  let d0 := if tmp then [VRemoveTmp] else [] in
  let s0 := if tmp then [VSetup (w_setup w)] else [] in
  if tmp && negb (w_setup w) then (s0, false) else
  match w_initial w with
  | None => (s0 ++ d0, false)
  | Some O => (s0 ++ d0, true)
  | Some _ =>
  match w_modules w with
  | None => (s0 ++ [VModules false] ++ d0, false)
  | Some nmod =>
  let s1 := s0 ++ [VModules true] in
  let d1 := VCleanModules :: d0 in
  if Nat.eqb nmod 0 then (s1 ++ [VReport (RInfo 0 0 0 false) (w_report w)] ++ d1, w_report w) else
  match w_callers w with
  | None => (s1 ++ [VCallers false] ++ d1, false)
  | Some ncall =>
  let s2 := s1 ++ [VCallers true] in
  let d2 := VCleanCallers :: d1 in
  if Nat.eqb ncall 0 then (s2 ++ [VReport (RInfo 0 ncall 0 false) (w_report w)] ++ d2, w_report w) else
  match w_tests w with
  | None => (s2 ++ [VTests false] ++ d2, false)
  | Some ntest =>
  let s3 := s2 ++ [VTests true] in
  let d3 := VCleanTests :: d2 in
  if Nat.eqb ntest 0 then (s3 ++ [VReport (RInfo nmod ncall ntest false) (w_report w)] ++ d3, w_report w) else
  if negb (w_open w) then (s3 ++ [VOpen false] ++ d3, false) else
  let s4 := s3 ++ [VOpen true] in
  let d4 := VClose :: d3 in
  if negb (w_exec w) then (s4 ++ [VExec false] ++ d4, false) else
  let s5 := s4 ++ [VExec true] in
  let d5 := VCleanExec :: d4 in
  let mutate := negb (beq (c_scope c) (B "none")) in
  let mev := VMutate (negb (beq (c_mode c) (B "full"))) (beq (c_scope c) (B "line") || beq (c_scope c) (B "area"))
               (negb (beq (c_tests c) (B "full"))) (w_mutate w) in
  if mutate && negb (w_mutate w) then (s5 ++ [mev] ++ d5, false) else
  let s6 := s5 ++ (if mutate then [mev] else []) in
  let d6 := (if mutate then [VCleanMutate] else []) ++ d5 in
  if negb (w_compare w) then (s6 ++ [VCompare false] ++ d6, false) else
  (s6 ++ [VCompare true; VReport (RInfo nmod ncall ntest true) (w_report w)] ++ d6, w_report w)
  end end end end.
