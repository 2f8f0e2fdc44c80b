(** Backup, update and restore of the project's go.mod and go.sum files
    (lens/astexec.go:110-165, in RunModuleUpdateAnalysis). *)
From Verif Require Import Base FsModel.

(** lens/astexec.go:135-136, 142-143: the four paths of a module directory. Module
    paths come from filepath.Join(dir, "go.mod") (lens/module.go:411-416, 508), so a
    module is given by its directory (not the root directory itself). *)
Definition mod_path (d : bytes) : bytes := d ++ B "/go.mod".
(** lens/astexec.go:135. *)
Definition sum_path (d : bytes) : bytes := d ++ B "/go.sum".
(** lens/astexec.go:136. *)
Definition mod_bkp (d : bytes) : bytes := mod_path d ++ B ".bkp".
(** lens/astexec.go:143. *)
Definition sum_bkp (d : bytes) : bytes := sum_path d ++ B ".bkp".

(** lens/astexec.go:115-120 modBackupInfo: sumPath is empty when there was no go.sum. *)
Record backup := Backup { bk_dir : bytes; bk_sum : bool }.

(** lens/astexec.go:134-150: the backups made, in order, and whether the loop finished. *)
Inductive backup_loop (um : N) : list bytes -> fsys -> list backup -> fsys -> bool -> Prop :=
  | bl_nil : forall f, backup_loop um [] f [] f true
  | bl_mod_fails : forall d ds f f1, copy_file um f (mod_path d) (mod_bkp d) f1 false -> backup_loop um (d :: ds) f [] f1 false
  | bl_no_sum : forall d ds f f1 bs f2 ok, copy_file um f (mod_path d) (mod_bkp d) f1 true ->
      file_exists f1 (sum_path d) = false -> backup_loop um ds f1 bs f2 ok -> backup_loop um (d :: ds) f (Backup d false :: bs) f2 ok
  | bl_sum_fails : forall d ds f f1 f2, copy_file um f (mod_path d) (mod_bkp d) f1 true ->
      file_exists f1 (sum_path d) = true -> copy_file um f1 (sum_path d) (sum_bkp d) f2 false -> backup_loop um (d :: ds) f [] f2 false
  | bl_both : forall d ds f f1 f2 bs f3 ok, copy_file um f (mod_path d) (mod_bkp d) f1 true ->
      file_exists f1 (sum_path d) = true -> copy_file um f1 (sum_path d) (sum_bkp d) f2 true ->
      backup_loop um ds f2 bs f3 ok -> backup_loop um (d :: ds) f (Backup d true :: bs) f3 ok.

Section Update.
(** What one command run in a module directory may do to the files and whether it
    succeeds; [None] is "go mod tidy", [Some m] is "go get m". The second test run
    (lens/astexec.go:172-179) is given as one more such command, run in the project
    directory. *)
Variable cmd : bytes -> option bytes -> fsys -> fsys -> bool -> Prop.
(** lens/astexec.go:172-179. *)
Variable second_run : fsys -> fsys -> bool -> Prop.

(** lens/astexec.go:154-161: the go get commands of one module directory, up to the
    first that fails. *)
Inductive gets (d : bytes) : list bytes -> fsys -> fsys -> bool -> Prop :=
  | gt_nil : forall f, gets d [] f f true
  | gt_fail : forall m ms f f', cmd d (Some m) f f' false -> gets d (m :: ms) f f' false
  | gt_cons : forall m ms f f1 f2 ok, cmd d (Some m) f f1 true -> gets d ms f1 f2 ok -> gets d (m :: ms) f f2 ok.

(** lens/astexec.go:152-167: every module directory, then tidy. *)
Inductive updates (ms : list bytes) : list bytes -> fsys -> fsys -> bool -> Prop :=
  | up_nil : forall f, updates ms [] f f true
  | up_get_fails : forall d ds f f', gets d ms f f' false -> updates ms (d :: ds) f f' false
  | up_tidy_fails : forall d ds f f1 f2, gets d ms f f1 true -> cmd d None f1 f2 false -> updates ms (d :: ds) f f2 false
  | up_cons : forall d ds f f1 f2 f3 ok, gets d ms f f1 true -> cmd d None f1 f2 true -> updates ms ds f2 f3 ok -> updates ms (d :: ds) f f3 ok.

(** lens/astexec.go:122-133: the deferred restore; the list says for each backup
    whether both renames it tried succeeded. go.sum is put back only after go.mod was. *)
Inductive restore : list backup -> fsys -> fsys -> list bool -> Prop :=
  | rs_nil : forall f, restore [] f f []
  | rs_mod_fails : forall b bs f f1 f2 oks, rename f (mod_bkp (bk_dir b)) (mod_path (bk_dir b)) f1 false ->
      restore bs f1 f2 oks -> restore (b :: bs) f f2 (false :: oks)
  | rs_mod_only : forall b bs f f1 f2 oks, bk_sum b = false -> rename f (mod_bkp (bk_dir b)) (mod_path (bk_dir b)) f1 true ->
      restore bs f1 f2 oks -> restore (b :: bs) f f2 (true :: oks)
  | rs_both : forall b bs f f1 f2 f3 ok oks, bk_sum b = true -> rename f (mod_bkp (bk_dir b)) (mod_path (bk_dir b)) f1 true ->
      rename f1 (sum_bkp (bk_dir b)) (sum_path (bk_dir b)) f2 ok -> restore bs f2 f3 oks -> restore (b :: bs) f f3 (ok :: oks).

(** lens/astexec.go:110-182 from the backups to the return: outcome, whether the
    backup loop finished, and the restore outcomes. *)
Inductive update_run (um : N) (ds ms : list bytes) (f : fsys) : fsys -> bool -> list bool -> bool -> Prop :=
  | ur_backup_fails : forall bs f1 f2 oks, backup_loop um ds f bs f1 false -> restore bs f1 f2 oks -> update_run um ds ms f f2 false oks false
  | ur_update_fails : forall bs f1 f2 f3 oks, backup_loop um ds f bs f1 true -> updates ms ds f1 f2 false ->
      restore bs f2 f3 oks -> update_run um ds ms f f3 true oks false
  | ur_second : forall bs f1 f2 f3 f4 oks ok, backup_loop um ds f bs f1 true -> updates ms ds f1 f2 true -> second_run f2 f3 ok ->
      restore bs f3 f4 oks -> update_run um ds ms f f4 true oks ok.
End Update.
