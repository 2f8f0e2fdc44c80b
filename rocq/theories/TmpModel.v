(** The temporary copy of the project and the module cache
    (lens/engine.go:993-1049, lens/file.go:62-135). *)
From Verif Require Import Base.

(** lens/engine.go:993-1048: Paths are absolute and clean: lists of elements below the
    root. *)
Definition path := list bytes.
(** lens/file.go:98-135: What os.Lstat tells of a path: a directory, a file, or a link
    (os.Readlink). *)
Inductive tnode := TDir (mode : N) | TFile (mode : N) (content : bytes) | TLink (target : bytes).
(** lens/file.go:98-135: All paths that can be reached without following a link. *)
Definition tsys := path -> option tnode.

(** The rest of a path below a directory: filepath.Rel of lens/file.go:111 and, by
    whether there is one, fileWithinDir (lens/file.go:25-49, see C22; elements starting
    with two dots are not modelled here). *)
Fixpoint below (dir p : path) : option path :=
  match dir, p with
  | [], _ => Some p
  | d :: dir', x :: p' => if beq d x then below dir' p' else None
  | _ :: _, [] => None
  end.

(** lens/file.go:116-128 and 64-95: directories are made anew, files are made with
    os.Create (mode 0666 less the umask, [um]), links are made with the same target. *)
Definition copy_node (dm um : N) (n : tnode) : tnode :=
  match n with
  | TDir _ => TDir dm
  | TFile _ c => TFile um c
  | TLink t => TLink t
  end.

(** lens/file.go:98-135 CopyDir when every step works and [dst] is not below [src]:
    filepath.Walk calls Lstat on [src] itself and visits everything below it without
    following links; the copies write to different paths, so their order plays no part. *)
Definition copy_dir (dm um : N) (f : tsys) (src dst : path) : tsys :=
  fun p => match below dst p with
           | None => f p
           | Some r => match f (src ++ r) with Some n => Some (copy_node dm um n) | None => f p end
           end.

(** The paths of the configuration that change (lens/engine.go:1030, 1041-1046). *)
Record places := Places { p_proj : path; p_gopath : path; p_cache : path }.

(** lens/engine.go:993-1049 setupTempEnvironment with the temporary directory [root]
    (just made by os.MkdirTemp): [oks] says which copies succeed (a failing one may leave
    anything behind, then the run ends); [None] for an error. *)
Definition setup_temp (dm um : N) (oks : bool * bool * bool) (root : path) (f : tsys) (e : places) : option (tsys * places) :=
  let '(ok1, ok2, ok3) := oks in
  let np := root ++ [B "project"] in
  let ng := root ++ [B "gopath"] in
  if negb ok1 then None else
  let f1 := copy_dir dm um f (p_proj e) np in
  if negb ok2 then None else
  let f2 := copy_dir dm um f1 (p_gopath e) ng in
  match below (p_gopath e) (p_cache e) with
  | Some _ => Some (f2, Places np ng (ng ++ [B "pkg"; B "mod"]))
  | None =>
      if negb ok3 then None else
      let nc := root ++ [B "gomodcache"] in
      Some (copy_dir dm um f2 (p_cache e) nc, Places np ng nc)
  end.
