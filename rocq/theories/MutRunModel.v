(** A mutation run that is limited to changed lines: the sources are marked by goroutines, the
    tool runs, the sources are put back (lens/mutation.go:71-198, lens/asttweak.go:1870-1977).
    Definitions only. *)
From Verif Require Import Base Maps FsModel ModifierModel MutationModel.

(** What InsertFuncLines makes of the text of a file for one changed function
    (lens/asttweak.go:1878-1972): nothing to write (no body, 1890-1891, which counts as no
    error, lens/mutation.go:109-111; or an empty one, 1899-1901), an error (1880, 1885, 1889), or
    the new text. *)
Inductive marking := MKeep | MBad | MText (t : bytes).

(** Where RunMutationTesting is (lens/mutation.go:85-198): going over the changed functions
    (86-114), all goroutines done (115), after the commit (117-118) with the tool still to run or
    running (133-190), returning with the deferred Restore still to run (75-80), back at the
    caller. [ok]: nil is returned. *)
Inductive mpc := MSpawn (rest : list mfunc) | MCommit | MTool | MBack (ok : bool) | MRet (ok : bool).

(** The run: where it is, goroutines not finished, functions marked in the order of finishing,
    whether a goroutine returned an error, the editor (lens/mutation.go:74) and the calls on it so
    far. *)
Record mrun := MRun { r_pc : mpc; r_tasks : list mfunc; r_done : list mfunc; r_failed : bool; r_ed : editor; r_calls : list eevent }.
(** lens/mutation.go:71-85. *)
Definition mrun_init (f : fsys) (l : list mfunc) : mrun := MRun (MSpawn l) [] [] false (e_init f) [].

Section MutRun.
(** The mode of new files (lens/file.go:81). *)
Variable um : N.
(** filepath.Abs, lens/mutation.go:95. *)
Variable abs : bytes -> option bytes.
(** The number of goroutines, lens/util.go:18-22. *)
Variable limit : nat.
(** What marking a function does to a text, lens/asttweak.go:1878-1972. *)
Variable mark : mfunc -> bytes -> marking.

(** lens/mutation.go:87-88: the bitmap is not set. *)
Definition unset (c : mfunc) : bool := match mf_lines c with [] => true | _ => false end.
(** lens/mutation.go:89-91: nothing of the function is changed. *)
Definition unchanged (c : mfunc) : bool := negb (existsb (fun b => b) (mf_lines c)).

(** One goroutine, lens/mutation.go:102-113 and lens/asttweak.go:1870-1977, holding the lock of
    its file: the calls on the editor it amounts to, and whether it returned nil. Reading the file
    (1878) may fail; the file is written as a pending edit is. *)
Inductive mark_func (c : mfunc) (e : editor) : editor -> list eevent -> bool -> Prop :=
  | mk_read : mark_func c e e [] false
  | mk_keep : forall t, contents (ed_fs e) (mf_file c) = Some t -> mark c t = MKeep -> mark_func c e e [] true
  | mk_bad : forall t, contents (ed_fs e) (mf_file c) = Some t -> mark c t = MBad -> mark_func c e e [] false
  | mk_text : forall t t' e1 e2 o, contents (ed_fs e) (mf_file c) = Some t -> mark c t = MText t' ->
      estep um e (EvEdit (mf_file c) t') e1 -> estep um e1 (EvCommitFile (mf_file c) o) e2 ->
      mark_func c e e2 [EvEdit (mf_file c) t'; EvCommitFile (mf_file c) o] (match o with WDone => true | _ => false end).

(** lens/mutation.go:85-198. The tool is taken to leave the files as it found them (its script
    does, C60). *)
Inductive mstep : mrun -> mrun -> Prop :=
  (* 87-88: returns at once, whatever the goroutines do *)
  | ms_unset : forall c l ts d b e v, unset c = true -> mstep (MRun (MSpawn (c :: l)) ts d b e v) (MRun (MBack false) ts d b e v)
  (* 89-91 *)
  | ms_skip : forall c l ts d b e v, unset c = false -> unchanged c = true -> mstep (MRun (MSpawn (c :: l)) ts d b e v) (MRun (MSpawn l) ts d b e v)
  (* 95-98: likewise *)
  | ms_noabs : forall c l ts d b e v, unset c = false -> unchanged c = false -> abs (mf_file c) = None ->
      mstep (MRun (MSpawn (c :: l)) ts d b e v) (MRun (MBack false) ts d b e v)
  (* 102: waits for a free place *)
  | ms_spawn : forall c l ts d b e v, unset c = false -> unchanged c = false -> abs (mf_file c) <> None -> (length ts < limit)%nat ->
      mstep (MRun (MSpawn (c :: l)) ts d b e v) (MRun (MSpawn l) (ts ++ [c]) d b e v)
  (* a goroutine, at any time *)
  | ms_task : forall p ts1 c ts2 d b e v e' w ok, mark_func c e e' w ok ->
      mstep (MRun p (ts1 ++ c :: ts2) d b e v) (MRun p (ts1 ++ ts2) (d ++ [c]) (b || negb ok) e' (v ++ w))
  (* 115-116 *)
  | ms_wait : forall d b e v, mstep (MRun (MSpawn []) [] d b e v) (MRun (if b then MBack false else MCommit) [] d b e v)
  (* 117-118 *)
  | ms_commit : forall ts d b e v os e', estep um e (EvCommit os) e' ->
      mstep (MRun MCommit ts d b e v)
            (MRun (if forallb (fun o => match o with WDone => true | _ => false end) os then MTool else MBack false) ts d b e' (v ++ [EvCommit os]))
  (* 133-197: any way to return *)
  | ms_tool : forall ts d b e v ok, mstep (MRun MTool ts d b e v) (MRun (MBack ok) ts d b e v)
  (* 75-80 *)
  | ms_restore : forall ok ts d b e v oks e', estep um e (EvRestore oks) e' ->
      mstep (MRun (MBack ok) ts d b e v) (MRun (MRet ok) ts d b e' (v ++ [EvRestore oks])).

(** Executions, any interleaving of lens/mutation.go:85-198. *)
Inductive mreach (r0 : mrun) : mrun -> Prop :=
  | mr_here : mreach r0 r0
  | mr_step : forall r r', mreach r0 r -> mstep r r' -> mreach r0 r'.
End MutRun.
