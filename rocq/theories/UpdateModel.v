(** The whole of RunModuleUpdateAnalysis (lens/astexec.go:63-182): servers, the tests before the update, backup and update
    of the module files, the tests after it, and what is undone at the end.  The parts are in GoModModel.v (backups,
    commands, restore), ModifierModel.v (the source editor), TestRunModel.v (the tests) and ServerModel.v (the servers).
    Definitions only. *)
From Verif Require Import Base Maps FsModel ModifierModel GoModModel.

(** What a test process may do to the files (lens/astexec.go:531, 557): writing and removing some. *)
Definition overlay (ws : list (bytes * option fnode)) (f : fsys) : fsys := fold_left (fun f w => upd f (fst w) (snd w)) ws f.

(** One run of the tests (lens/astexec.go:184-299): calls of the editor and test processes. *)
Inductive sevent := SCall (v : eevent) | STest (ws : list (bytes * option fnode)).
(** lens/astexec.go:197-297. *)
Inductive sstep (um : N) : editor -> sevent -> editor -> Prop :=
  | ss_call : forall e v e', estep um e v e' -> sstep um e (SCall v) e'
  | ss_test : forall f pd a ws, sstep um (Editor f pd a) (STest ws) (Editor (overlay ws f) pd a).
(** lens/astexec.go:197-297. *)
Inductive sexec (um : N) : editor -> list sevent -> editor -> Prop :=
  | se_nil : forall e, sexec um e [] e
  | se_cons : forall e v e1 vs e2, sstep um e v e1 -> sexec um e1 vs e2 -> sexec um e (v :: vs) e2.
(** A new editor, the calls and tests, and the deferred Restore, whose failures are only logged
    (lens/astexec.go:189-195). *)
Definition session (um : N) (vs : list sevent) (oks : list bool) (f f' : fsys) : Prop :=
  exists e, sexec um (e_init f) (vs ++ [SCall (EvRestore oks)]) e /\ ed_fs e = f'.

(** Servers started and stopped, by port (lens/astexec.go:79-95). *)
Inductive srv := SrvStart (port : nat) | SrvStop (port : nat).

(** What is returned (lens/astexec.go:69): field checks, changes reached, functions skipped, whether the
    two stores and the error are not nil. *)
Record result := Res { r_checks : nat; r_reached : nat; r_skipped : nat; r_pre : bool; r_post : bool; r_err : bool }.

Section Whole.
(** The mode of new files (lens/file.go:81). *)
Variable um : N.
(** What a command does (lens/astexec.go:156-167), as in GoModModel.v. *)
Variable cmd : bytes -> option bytes -> fsys -> fsys -> bool -> Prop.
(** Go-version filter: the number of functions left out (lens/astexec.go:98). *)
Variable skipped : nat.
(** Ports of the servers (lens/astexec.go:76, 87-88). *)
Variable ports : list nat.
(** The updates (lens/astexec.go:155). *)
Variable ms : list bytes.

(** lens/astexec.go:63-182, what happens: the servers started and stopped in order, the files at the end, what is returned, the calls of the two
    runs and the outcomes of their restores, the outcomes of restoring module files. *)
Record trace := Trace {
  t_srv : list srv; t_files : fsys; t_result : result;
  t_first : list sevent; t_undo1 : list bool; t_second : list sevent; t_undo2 : list bool; t_mods : list bool
}.

(** lens/astexec.go:63-182.  [c1], [n1]: checks and reached changes of the first run, also when it fails; [c2]: checks of
    the second.  The first error ends the run: cleaning the cache (72); a server (89-91); the first run (105-107) or finding the module
    files (110-113); from the backups on it is [GoModModel.update_run], whose last part is the second run (172-179). *)
Inductive whole (ds : list bytes) (f : fsys) : trace -> Prop :=
  | wh_clean : whole ds f (Trace [] f (Res 0 0 0 false false true) [] [] [] [] [])
  | wh_start : forall before after, ports = before ++ after -> after <> [] ->
      whole ds f (Trace (map SrvStart before ++ map SrvStop before) f (Res 0 0 0 false false true) [] [] [] [] [])
  | wh_first : forall vs1 oks1 f1 c1 n1, session um vs1 oks1 f f1 ->
      whole ds f (Trace (map SrvStart ports ++ map SrvStop ports) f1 (Res c1 n1 skipped true false true) vs1 oks1 [] [] [])
  | wh_update : forall vs1 oks1 f1 c1 n1 f2 vs2 oks2 c2 done oks ok, session um vs1 oks1 f f1 ->
      update_run cmd (fun g g' _ => session um vs2 oks2 g g') um ds ms f1 f2 done oks ok ->
      whole ds f (Trace (map SrvStart ports ++ map SrvStop ports) f2
        (if ok then Res (Nat.max c1 c2) n1 skipped true true false else Res c1 n1 skipped true false true) vs1 oks1 vs2 oks2 oks).
End Whole.
