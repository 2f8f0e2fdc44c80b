(** Model of the modules of a workspace: parseGoWork, resolveGoModPath, ProjectGoModFiles
    and ProjectPackagePatterns (lens/module.go:325-416, 506-565), the patterns of
    LoadProjectCallGraph (lens/static.go:305-326), and the directories compared by
    DiffModulesFromGoWorkFiles (lens/module.go:585-610).  Definitions only.

    Unix paths; the work file lies in an absolute directory (the engine makes the project
    directory absolute, lens/engine.go:1066-1070). *)
From Verif Require Import Base Maps UtilModel.

(** filepath.Clean of a relative path, element by element: ".." stays where nothing is
    left to remove (used at lens/module.go:340, 603). *)
Definition rel_step (acc : list bytes) (e : bytes) : list bytes :=
  if beq e [] || beq e (B ".") then acc
  else if beq e (B "..") then
    match acc with [] => [e] | _ => if beq (last acc []) (B "..") then acc ++ [e] else removelast acc end
  else acc ++ [e].
(** The text of an absolute place, as filepath.Clean gives it (lens/module.go:340). *)
Definition abs_of (es : list bytes) : bytes := slash :: join_with [slash] es.
(** filepath.Clean, lens/module.go:340. *)
Definition clean (p : bytes) : bytes :=
  if is_abs p then abs_of (clean_elems p)
  else match fold_left rel_step (split_on slash p) [] with [] => B "." | es => join_with [slash] es end.
(** filepath.Join: empty parts are left out (lens/module.go:345, 412-415). *)
Definition join_parts (l : list bytes) : bytes :=
  match filter (fun x => negb (beq x [])) l with [] => [] | es => clean (join_with [slash] es) end.
(** filepath.Join of two parts, lens/module.go:345. *)
Definition join2 (a b : bytes) : bytes := join_parts [a; b].
(** filepath.Dir: what stands before the last slash (lens/module.go:336, 550). *)
Definition dir_of (p : bytes) : bytes := clean (join_with [slash] (removelast (split_on slash p) ++ [[]])).
(** filepath.Rel of absolute paths, lens/module.go:395, 400, 556. *)
Definition rel_of (base targ : bytes) : bytes := rel (clean_elems base) (clean_elems targ).

(** strings.HasSuffix(raw, "...") and TrimSuffix, lens/module.go:362-363, 384-385: the text
    before the dots. *)
Definition dots_prefix (raw : bytes) : option bytes :=
  let n := (length raw - 3)%nat in
  if beq (skipn n raw) (B "...") then Some (firstn n raw) else None.
(** strings.ContainsAny(raw, "*?[]"), lens/module.go:366, 388. *)
Definition has_meta (raw : bytes) : bool := existsb (fun c => existsb (fun d => if ascii_dec c d then true else false) (B "*?[]")) raw.

Section Files.
(** FileExists, lens/file.go:17-22. *)
Variable file_exists : bytes -> bool.
(** os.Stat without error, and of a directory, lens/module.go:349, 372, 394. *)
Variable stat_ok : bytes -> bool.
(** The answer is a directory, lens/module.go:372, 394. *)
Variable is_dir : bytes -> bool.
(** filepath.Glob, lens/module.go:367, 389. *)
Variable glob : bytes -> option (list bytes).
(** filepath.WalkDir: the directories met, or an error, lens/module.go:346. *)
Variable walk : bytes -> option (list bytes).
(** Reading and parsing a work file: the paths of its use directives, lens/module.go:328-335. *)
Variable uses : bytes -> option (list bytes).

(** walkEllipsis, lens/module.go:344-354. *)
Definition walk_dots (wd pre : bytes) : option (list bytes) :=
  match walk (join2 wd pre) with
  | Some ds => Some (filter (fun d => stat_ok (join2 d (B "go.mod"))) ds)
  | None => None
  end.
(** One use directive, lens/module.go:356-402: the paths given to add. *)
Definition entry (wd raw : bytes) : option (list bytes) :=
  if is_abs raw then
    match dots_prefix raw with
    | Some pre => walk_dots wd pre
    | None => if has_meta raw then match glob raw with Some ms => Some (filter is_dir ms) | None => None end
              else Some [raw]
    end
  else
    match dots_prefix raw with
    | Some pre => walk_dots wd pre
    | None =>
      if has_meta raw then match glob (join2 wd raw) with Some ms => Some (map (rel_of wd) (filter is_dir ms)) | None => None end
      else Some [rel_of wd (join2 wd raw)]
    end.
(** The loop over the directives, lens/module.go:356-403. *)
Fixpoint entries (wd : bytes) (raws : list bytes) : option (list bytes) :=
  match raws with
  | [] => Some []
  | r :: raws' =>
    match entry wd r, entries wd raws' with
    | Some a, Some b => Some (a ++ b)
    | _, _ => None
    end
  end.
(** The keys of a set, sorted, lens/module.go:405-406. *)
Definition as_set (l : list bytes) : list bytes := bsort (nodup bytes_eq_dec l).
(** parseGoWork, lens/module.go:327-408. *)
Definition parse_go_work (work_path : bytes) : option (list bytes) :=
  match uses work_path with
  | None => None
  | Some raws =>
    match entries (dir_of work_path) raws with
    | Some ps => Some (as_set (map clean ps))
    | None => None
    end
  end.

(** resolveGoModPath, lens/module.go:411-416. *)
Definition resolve (project_dir dir : bytes) : bytes :=
  if is_abs dir then join2 dir (B "go.mod") else join_parts [project_dir; dir; B "go.mod"].

(** ProjectGoModFiles, lens/module.go:507-539. *)
Definition go_mod_files (project_dir : bytes) : option (list bytes) :=
  let root := join2 project_dir (B "go.mod") in
  let work := join2 project_dir (B "go.work") in
  if negb (file_exists root) && negb (file_exists work) then None
  else
    let own := if file_exists root then [root] else [] in
    if file_exists work then
      match parse_go_work work with
      | Some dirs => Some (as_set (own ++ filter file_exists (map (resolve project_dir) dirs)))
      | None => None
      end
    else Some (as_set own).

(** One pattern of ProjectPackagePatterns, lens/module.go:550-563. *)
Definition pattern (project_dir gm : bytes) : bytes :=
  let d := dir_of gm in
  if beq (clean d) (clean project_dir) then B "./..."
  else
    let r := rel_of project_dir d in
    if negb (has_prefix (B "..") r) then B "./" ++ join2 r (B "...")
    else join2 d (B "...").
(** ProjectPackagePatterns, lens/module.go:543-565. *)
Definition package_patterns (project_dir : bytes) : option (list bytes) :=
  match go_mod_files project_dir with Some l => Some (map (pattern project_dir) l) | None => None end.

(** The patterns given to packages.Load by LoadProjectCallGraph, lens/static.go:305-326. *)
Definition graph_patterns (project_dir : bytes) : option (list bytes) :=
  let work := join2 project_dir (B "go.work") in
  let own := if file_exists (join2 project_dir (B "go.mod")) then [B "./..."] else [] in
  let pats :=
    if file_exists work then
      match parse_go_work work with
      | Some dirs => Some (own ++ map (fun d => if is_abs d then join2 d (B "...") else B "./" ++ join2 d (B "...")) dirs)
      | None => None
      end
    else Some own in
  match pats with Some [] => None | r => r end.

(** The pairs of go.mod files compared by DiffModulesFromGoWorkFiles for a list of
    directories, lens/module.go:595-620. *)
Definition compared (project_dir new_work : bytes) (dirs : list bytes) : list (bytes * bytes) :=
  filter (fun p => stat_ok (fst p) && stat_ok (snd p))
    (map (fun d => (resolve project_dir d, resolve (dir_of new_work) d)) dirs).
End Files.
