(** Model of module analysis (lens/module.go): differences between module
    files, dependency versions, changed functions and their line bitmaps, and
    the transitive analysis.  Definitions only.

    Module files come from golang.org/x/mod/modfile, which is not modelled: a
    module file is its list of requirements and its go version. *)

From Verif Require Import Base Maps UtilModel SemverModel.

(** modfile.Require, used in lens/module.go:28-87. *)
Record require := Req { rq_path : bytes; rq_version : bytes; rq_indirect : bool }.
(** modfile.File, used in lens/module.go:28-87, 306-323. *)
Record gomod := GoMod { gm_require : list require; gm_go : bytes }.

(** [ModuleChange] (types.go:20-31). *)
Record change := Change {
  mc_name : bytes; mc_prior : bytes; mc_new : bytes; mc_indirect : bool; mc_go : bytes
}.

(** [parseGoMod] (module.go:306-323): a later requirement of the same path
    replaces the earlier one. *)
Definition req_map (rs : list require) : amap bytes :=
  fold_left (fun m r => mset (rq_path r) (rq_version r) m) rs [].

(** [FindModuleVersionInGoMod] (module.go:28-43): version and whether indirect. *)
Fixpoint find_version (rs : list require) (name : bytes) : bytes * bool :=
  match rs with
  | [] => ([], false)
  | r :: rs' => if beq (rq_path r) name then (rq_version r, rq_indirect r) else find_version rs' name
  end.

(** [FindModuleVersion] (module.go:567-582) over the requirement lists of the
    project's module files. *)
Fixpoint find_version_project (mods : list (list require)) (name : bytes) : bytes * bool :=
  match mods with
  | [] => ([], false)
  | m :: mods' => let '(v, i) := find_version m name in
                  if beq v [] then find_version_project mods' name else (v, i)
  end.

(** [DiffModulesFromGoModFiles] (module.go:47-87) on the requirements of the old
    and the new file. *)
Definition diff_modules (old new : list require) : list change :=
  let old_req := req_map old in
  flat_map (fun r =>
    match mget (rq_path r) old_req with
    | Some ov => if beq ov (rq_version r) then []
                 else [Change (rq_path r) ov (rq_version r) (rq_indirect r) []]
    | None => []
    end) new.

(** [DiffModulesFromGoWorkFiles] (module.go:585-623).  [dirs] is the set of
    directories of both workspaces in the order Go's map iteration yields them;
    [old_at] and [new_at] give the requirements of the module file found for a
    directory on each side, if there is one. *)
Definition diff_work (dirs : list bytes) (old_at new_at : bytes -> option (list require)) : list change :=
  flat_map (fun d =>
    match old_at d, new_at d with
    | Some o, Some n => diff_modules o n
    | _, _ => []
    end) dirs.

(** [parseProjectDeps] (module.go:420-484) on the module files found for the
    project: the root one and those of the workspace.  [None] is the error when
    there is none.  Within one file each path occurs once, so the order in which
    Go visits that file's map does not matter. *)
Definition add_version (m : amap (list bytes)) (pv : bytes * bytes) : amap (list bytes) :=
  mset (fst pv) (match mget (fst pv) m with Some l => l | None => [] end ++ [snd pv]) m.
(** lens/module.go:420-484. *)
Definition versions_map (mods : list gomod) : amap (list bytes) :=
  fold_left (fun m f => fold_left add_version (req_map (gm_require f)) m) mods [].
(** lens/module.go:420-484. *)
Definition choose (newest : bool) (vers : list bytes) : bytes :=
  match vers with
  | [] => []
  | v0 :: vs =>
      fold_left (fun chosen v =>
        match semver_compare v chosen with
        | Gt => if newest then v else chosen
        | Lt => if newest then chosen else v
        | Eq => chosen
        end) vs v0
  end.
(** parseProjectDeps, lens/module.go:420-484. *)
Definition parse_project_deps (mods : list gomod) (newest : bool) : option (amap bytes * bytes) :=
  match mods with
  | [] => None
  | _ => Some (map (fun '(p, vs) => (p, choose newest vs)) (versions_map mods),
               fold_left (fun o f => older_go o (gm_go f)) mods [])
  end.

(** ** Line bitmaps (module.go:689-748) *)

(** lens/module.go:716-745: One entry of difflib's [GetOpCodes]. *)
Inductive tag := TEqual | TReplace | TDelete | TInsert.
(** lens/module.go:715-745. *)
Record opcode := Op { op_tag : tag; op_i1 : nat; op_i2 : nat; op_j1 : nat; op_j2 : nat }.

(** [markChanged] (module.go:702-706). *)
Definition mark (bm : list bool) (idx : Z) : list bool :=
  if ((0 <=? idx) && (idx <? Z.of_nat (length bm)))%Z
  then firstn (Z.to_nat idx) bm ++ true :: skipn (S (Z.to_nat idx)) bm else bm.
(** lens/module.go:709-713, 728-745: [for r := 1; r <= radius; r++] counted from [r0].
    *)
Definition upto (from : Z) (n : nat) : list Z := map (fun k => from + Z.of_nat k)%Z (seq 0 n).
(** [markWithRadius] (module.go:707-713); a negative radius marks like zero. *)
Definition mark_radius (radius : Z) (bm : list bool) (idx : Z) : list bool :=
  fold_left (fun b r => mark (mark b (idx - r)) (idx + r))%Z (upto 1 (Z.to_nat radius)) (mark bm idx).

(** lens/module.go:716. *)
Definition is_equal (t : tag) : bool := match t with TEqual => true | _ => false end.
(** lens/module.go:716-745. *)
Definition is_insert (t : tag) : bool := match t with TInsert => true | _ => false end.

(** The loop over the opcodes (module.go:716-745). *)
Definition mark_op (new_func : bool) (radius : Z) (bm : list bool) (c : opcode) : list bool :=
  if is_equal (op_tag c) then bm
  else if new_func then
    fold_left (fun b j => if is_insert (op_tag c) then mark_radius radius b j else mark b j)
      (upto (Z.of_nat (op_j1 c)) (op_j2 c - op_j1 c)) bm
  else
    let bm1 := if negb (is_insert (op_tag c))
               then fold_left mark (upto (Z.of_nat (op_i1 c)) (op_i2 c - op_i1 c)) bm else bm in
    if is_insert (op_tag c)
    then fold_left (fun b r => mark (mark b (Z.of_nat (op_i1 c) - 1 - r)) (Z.of_nat (op_i1 c) + r))%Z
           (upto 0 (Z.to_nat radius)) bm1
    else bm1.

Section Diff.
(** lens/module.go:689-716: difflib's matcher on two lists of lines. *)
Variable opcodes : list bytes -> list bytes -> list opcode.

(** computeChangeLineBitmap, lens/module.go:689-748. *)
Definition line_bitmap (old_def new_def : bytes) (new_func : bool) (radius : Z) : list bool :=
  let old_lines := split_on nl old_def in
  let new_lines := split_on nl new_def in
  fold_left (mark_op new_func radius) (opcodes old_lines new_lines)
    (repeat false (length (if new_func then new_lines else old_lines))).

(** ** Changed functions of a module *)

(** A package: its import path and, per file, the printed functions under their
    identifiers, in source order (module.go:628-684). *)
Record package := Pkg { pk_path : bytes; pk_files : list (list (bytes * bytes)) }.

(** lens/types.go:72-87: A changed function: its identifier, old definition, bitmap and
    module. The other fields (file, entry line, return points) are those of the old
    function and left out. *)
Record mfunc := MFunc { fn_key : bytes; fn_def : bytes; fn_bitmap : list bool; fn_mod : change }.

(** [extractFunctions] and [aggregateFunctions] (module.go:628-684): later
    functions of the same identifier replace earlier ones. *)
Definition aggregate (p : package) : amap bytes :=
  fold_left (fun m file => fold_left (fun m kv => mset (fst kv) (snd kv) m)
    (fold_left (fun m kv => mset (fst kv) (snd kv) m) file []) m) (pk_files p) [].

(** lens/module.go:265-304: What is on disk for one version of a module: its packages,
    and the module files that [parseProjectDeps] finds in its directory. *)
Record loaded := Loaded { ld_pkgs : list package; ld_mods : list gomod }.

(** [loadModulePackageFromCache] (module.go:265-304), an error as [None]. *)
Variable load : bytes -> bytes -> option loaded.
(** The module files of the project itself (module.go:240). *)
Variable project : list gomod.
(** lens/module.go:199-223: The orders in which Go iterates over the function map of the
    [i]-th package of a module, and over its dependency map. *)
Variable func_order : bytes -> nat -> amap bytes -> amap bytes.
(** lens/module.go:240-262. *)
Variable dep_order : bytes -> amap bytes -> amap bytes.

(** The package of that path loaded last (module.go:191-194). *)
Definition pkg_at (pkgs : list package) (path : bytes) : option package :=
  find (fun p => beq (pk_path p) path) (rev pkgs).

(** The comparison of one new package (module.go:199-223). *)
Definition changed_in (mc : change) (radius : Z) (old_pkgs : list package) (i : nat) (p : package) : list mfunc :=
  match pkg_at old_pkgs (pk_path p) with
  | None => []
  | Some op =>
      let old_map := aggregate op in
      flat_map (fun '(k, d) =>
        match mget k old_map with
        | Some od => if beq od d then [] else [MFunc k od (line_bitmap od d false radius) mc]
        | None => []
        end) (func_order (mc_name mc) i (aggregate p))
  end.
(** lens/module.go:197-225. *)
Fixpoint changed_from (mc : change) (radius : Z) (old_pkgs : list package) (i : nat) (ps : list package) : list mfunc :=
  match ps with
  | [] => []
  | p :: ps' => changed_in mc radius old_pkgs i p ++ changed_from mc radius old_pkgs (S i) ps'
  end.

(** The part of [analyzeModuleChangesInternal] after the visited check
    (module.go:156-263): the changed functions, the new packages and the
    transitive changes to look at, or an error.  The go version is stored in
    the change that all the functions point to. *)
Definition analyze_module (transitive : bool) (radius : Z) (mc : change)
  : option (list mfunc * list package * list change) :=
  match load (mc_name mc) (mc_new mc), load (mc_name mc) (mc_prior mc) with
  | Some new, Some old =>
      match parse_project_deps (ld_mods old) false, parse_project_deps (ld_mods new) true with
      | Some (old_deps, old_go), Some (new_deps, new_go) =>
          let mc' := Change (mc_name mc) (mc_prior mc) (mc_new mc) (mc_indirect mc)
                       (older_go (older_go (mc_go mc) old_go) new_go) in
          let changes := changed_from mc' radius (ld_pkgs old) 0 (ld_pkgs new) in
          if transitive then
            match parse_project_deps project false with
            | None => None
            | Some (proj_deps, _) =>
                Some (changes, ld_pkgs new,
                  flat_map (fun '(dep, nv) =>
                    if match mget dep old_deps with Some ov => negb (beq ov nv) | None => true end
                    then match mget dep proj_deps with
                         | Some pv => if beq pv nv then [] else [Change dep pv nv true []]
                         | None => []
                         end
                    else []) (dep_order (mc_name mc) new_deps))
            end
          else Some (changes, ld_pkgs new, [])
      | _, _ => None
      end
  | _, _ => None
  end.

(** ** The analysis of all changes (module.go:103-150) *)

(** lens/module.go:103-111: What has been found so far: names analysed, functions and
    packages by module, the changes analysed (in order, with the number of the level as
    a marker of our own: 0 for the given changes), and the calls collected for the next
    level. *)
Record state := State {
  st_visited : list bytes;
  st_data : amap (list mfunc);
  st_pkgs : amap (list package);
  st_log : list (nat * change);
  st_next : list change
}.

(** The loop over the given changes (module.go:111-123). *)
Definition start_one (transitive : bool) (radius : Z) (st : state) (mc : change) : option state :=
  if existsb (beq (mc_name mc)) (st_visited st)
  then Some (State (st_visited st) (mset (mc_name mc) [] (st_data st)) (st_pkgs st) (st_log st) (st_next st))
  else match analyze_module transitive radius mc with
       | None => None
       | Some (cf, pkgs, calls) =>
           Some (State (mc_name mc :: st_visited st) (mset (mc_name mc) cf (st_data st))
                   (match pkgs with [] => st_pkgs st | _ => mset (mc_name mc) pkgs (st_pkgs st) end)
                   (st_log st ++ [(0%nat, mc)]) (st_next st ++ calls))
       end.

(** One deferred call (module.go:136-143). *)
Definition add_func (pkgs : list package) (st_dp : amap (list mfunc) * amap (list package)) (fn : mfunc) :=
  let n := mc_name (fn_mod fn) in
  let '(d, p) := st_dp in
  (mset n (match mget n d with Some l => l | None => [] end ++ [fn]) d,
   match pkgs, mget n p with _ :: _, None => mset n pkgs p | _, _ => p end).
(** lens/module.go:128-147. *)
Definition level_one (lvl : nat) (radius : Z) (st : state) (mc : change) : option state :=
  if existsb (beq (mc_name mc)) (st_visited st) then Some st
  else match analyze_module true radius mc with
       | None => None
       | Some (cf, pkgs, calls) =>
           let '(d, p) := fold_left (add_func pkgs) cf (st_data st, st_pkgs st) in
           Some (State (mc_name mc :: st_visited st) d p (st_log st ++ [(lvl, mc)]) (st_next st ++ calls))
       end.

(** The loops with early error return of lens/module.go:111-147. *)
Definition fold_opt {A S} (f : S -> A -> option S) (l : list A) (s : S) : option S :=
  fold_left (fun o a => match o with Some s => f s a | None => None end) l (Some s).

(** lens/module.go:103-150. *)
Inductive outcome := Failed | OutOfFuel | Finished (st : state).

(** The loop over the levels (module.go:128-147). *)
Fixpoint levels (fuel lvl : nat) (radius : Z) (st : state) : outcome :=
  match st_next st with
  | [] => Finished st
  | calls =>
      match fuel with
      | O => OutOfFuel
      | S fuel' =>
          match fold_opt (level_one lvl radius) calls (State (st_visited st) (st_data st) (st_pkgs st) (st_log st) []) with
          | None => Failed
          | Some st' => levels fuel' (S lvl) radius st'
          end
      end
  end.

(** AnalyzeModuleChanges, lens/module.go:103-150. *)
Definition analyze_changes (fuel : nat) (transitive : bool) (radius : Z) (starts : list change) : outcome :=
  match fold_opt (start_one transitive radius) starts (State [] [] [] [] []) with
  | None => Failed
  | Some st => levels fuel 1 radius st
  end.
End Diff.
