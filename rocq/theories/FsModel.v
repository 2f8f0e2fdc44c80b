(** File system operations used by the update run and the source editor
    (lens/file.go) and the operating system calls below them.

    A file system maps paths to nodes. Directories, permissions that make an
    operation fail, and hard links are not modelled: instead every operation may
    fail. Links point directly to a path that is not itself a link. *)
From Verif Require Import Base.

(** os.FileInfo, file mode and contents (lens/file.go:65-73, 75-94); a symlink is
    the path it points to. *)
Inductive fnode :=
  | NFile (mode : N) (content : bytes)
  | NLink (target : bytes).

(** os.Lstat, os.ReadFile and the like as used in lens/file.go:17-95: The files visible
    to the process. *)
Definition fsys := bytes -> option fnode.

(** The effect of one system call of lens/file.go:51-95: Replace the node at one path.
    *)
Definition upd (f : fsys) (p : bytes) (v : option fnode) : fsys := fun q => if beq q p then v else f q.

(** The path an open, create or stat of [p] works on (links are followed, as os.Open,
    os.Create, os.WriteFile and os.Stat do, lens/file.go:17-22, 75-84). *)
Definition resolve (f : fsys) (p : bytes) : bytes := match f p with Some (NLink t) => t | _ => p end.

(** lens/file.go:75, 91: os.ReadFile / os.Open followed by reading. *)
Definition contents (f : fsys) (p : bytes) : option bytes :=
  match f (resolve f p) with Some (NFile _ c) => Some c | _ => None end.

(** lens/file.go:17-22 FileExists: false only when stat says the file is not there
    (any other stat error counts as existing; stat errors are not modelled). *)
Definition file_exists (f : fsys) (p : bytes) : bool := match f (resolve f p) with Some _ => true | None => false end.

(** lens/file.go:81, lens/asttweak.go:151, 237, 244: os.Create / os.WriteFile truncating
    [p] (through a link) and leaving [c] in it: an existing file keeps its mode, a new
    one gets [mode]. *)
Definition put (f : fsys) (p : bytes) (mode : N) (c : bytes) : fsys :=
  upd f (resolve f p) (Some (NFile (match f (resolve f p) with Some (NFile m _) => m | _ => mode end) c)).

(** lens/file.go:64-95 CopyFile, with every way to fail: the result says whether nil
    was returned. [um] is the mode of files made by os.Create (0666 less the umask).
    A link is recreated with the same target (refused when the destination exists).
    Not modelled: copying a file onto a link to itself. *)
Inductive copy_file (um : N) (f : fsys) (src dst : bytes) : fsys -> bool -> Prop :=
  | cp_fail : copy_file um f src dst f false
  | cp_link : forall t, f src = Some (NLink t) -> f dst = None -> copy_file um f src dst (upd f dst (Some (NLink t))) true
  | cp_part : forall m c part, f src = Some (NFile m c) -> resolve f dst <> src -> copy_file um f src dst (put f dst um part) false
  | cp_ok : forall m c, f src = Some (NFile m c) -> resolve f dst <> src -> copy_file um f src dst (put f dst um c) true.

(** lens/file.go:51-60: os.Rename(src, dst): moves the node itself, replacing the
    destination. *)
Inductive rename (f : fsys) (src dst : bytes) : fsys -> bool -> Prop :=
  | rn_fail : rename f src dst f false
  | rn_ok : forall n, f src = Some n -> src <> dst -> rename f src dst (upd (upd f src None) dst (Some n)) true.

(** lens/file.go:51-60, lens/asttweak.go:248: os.Remove(p): removes the node itself. *)
Inductive remove (f : fsys) (p : bytes) : fsys -> bool -> Prop :=
  | rm_fail : remove f p f false
  | rm_ok : f p <> None -> remove f p (upd f p None) true.

(** lens/file.go:51-60 replaceFile: remove the destination when it exists, then
    rename; nil only when both worked. *)
Inductive replace_file (f : fsys) (src dst : bytes) : fsys -> bool -> Prop :=
  | rp_absent : forall f' ok, file_exists f dst = false -> rename f src dst f' ok -> replace_file f src dst f' ok
  | rp_stuck : file_exists f dst = true -> remove f dst f false -> replace_file f src dst f false
  | rp_done : forall f1 f2 ok, file_exists f dst = true -> remove f dst f1 true -> rename f1 src dst f2 ok -> replace_file f src dst f2 ok.

(** lens/asttweak.go:151, 237, 244: os.WriteFile(p, c, mode): failing before or after
    truncation, or done. *)
Inductive write_file (f : fsys) (p : bytes) (mode : N) (c : bytes) : fsys -> bool -> Prop :=
  | wf_fail : write_file f p mode c f false
  | wf_part : forall part, write_file f p mode c (put f p mode part) false
  | wf_ok : write_file f p mode c (put f p mode c) true.
