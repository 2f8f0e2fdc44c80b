(** The source editor's bookkeeping: pending edits, backups, injected client files
    and restoring (lens/asttweak.go, ASTModifier), and its point id counter. *)
From Verif Require Import Base Maps FsModel.

(** lens/asttweak.go:387 *)
Definition bkp (p : bytes) : bytes := p ++ B ".bkp".

(** lens/asttweak.go:33, 229, 240: the two generated files of a package directory
    (filepath.Join of a clean directory other than the root). *)
Definition client_file (d : bytes) : bytes := d ++ B "/xx_lens_client_gen.go".
(** lens/asttweak.go:33, 240. *)
Definition api_file (d : bytes) : bytes := d ++ B "/xx_lens_api_gen.go".

(** lens/asttweak.go:209: a path the glob of the directory matches (the star matches
    no slash). *)
Definition glob_match (d q : bytes) : Prop := exists x, ~ In "/"%char x /\ q = d ++ B "/xx_lens_" ++ x ++ B "_gen.go".

(** lens/asttweak.go:73-77 cleanupActions: the closures of lines 392-394 and 247-249. *)
Inductive action := ARestore (p : bytes) | AGen (d : bytes).

(** lens/asttweak.go:70-77 ASTModifier together with the files. commitActions and
    fileNodeMap always have the same keys, the pending text is what formatting the
    edited tree gives. *)
Record editor := Editor { ed_fs : fsys; ed_pending : amap bytes; ed_actions : list action }.

(** lens/asttweak.go:145-155: The outcome of writing one pending file: done, failed
    before or after the backup was complete, or failed while copying the backup. *)
Inductive wout := WDone | WFailed | WBroken.

(** lens/asttweak.go:386-397 backupOrigFile. *)
Inductive backup_file (um : N) (p : bytes) : fsys -> list action -> fsys -> list action -> wout -> Prop :=
  | bf_have : forall f a, file_exists f (bkp p) = true -> backup_file um p f a f a WDone
  | bf_made : forall f a f', file_exists f (bkp p) = false -> copy_file um f p (bkp p) f' true ->
      backup_file um p f a f' (a ++ [ARestore p]) WDone
  | bf_fail : forall f a, file_exists f (bkp p) = false -> backup_file um p f a f a WFailed
  | bf_part : forall f a f', file_exists f (bkp p) = false -> copy_file um f p (bkp p) f' false ->
      backup_file um p f a f' a WBroken.

(** lens/asttweak.go:145-155: format, back up, write. *)
Inductive write_pending (um : N) (p t : bytes) : fsys -> list action -> fsys -> list action -> wout -> Prop :=
  | wp_format : forall f a, write_pending um p t f a f a WFailed
  | wp_backup : forall f a f' a' o, o <> WDone -> backup_file um p f a f' a' o -> write_pending um p t f a f' a' o
  | wp_write : forall f a f1 a1 f2 ok, backup_file um p f a f1 a1 WDone -> write_file f1 p 420 t f2 ok ->
      write_pending um p t f a f2 a1 (if ok then WDone else WFailed).

(** lens/asttweak.go:189-198: the actions of a Commit; all are run, in any order.
    Each works on its own file and backup only, so running them one after the other
    stands for running them concurrently (C96_serial). *)
Inductive write_all (um : N) : list (bytes * bytes) -> fsys -> list action -> fsys -> list action -> list wout -> Prop :=
  | wa_nil : forall f a, write_all um [] f a f a []
  | wa_cons : forall p t l f a f1 a1 o f2 a2 os, write_pending um p t f a f1 a1 o -> write_all um l f1 a1 f2 a2 os ->
      write_all um ((p, t) :: l) f a f2 a2 (o :: os).

(** lens/asttweak.go:208-251: The outcome of injecting the client: written, nothing
    done, or stopped after the first byte of a file was written. *)
Inductive iout := IDone | INothing | IBroken.

(** lens/asttweak.go:208-251 InjectASTClient; the texts depend on the directory. *)
Inductive inject (d ctext atext : bytes) : fsys -> list action -> fsys -> list action -> iout -> Prop :=
  | in_have : forall f a q, glob_match d q -> f q <> None -> inject d ctext atext f a f a INothing
  | in_fail : forall f a, inject d ctext atext f a f a INothing
  | in_client : forall f a f1, (forall q, glob_match d q -> f q = None) -> write_file f (client_file d) 420 ctext f1 false ->
      inject d ctext atext f a f1 a IBroken
  | in_api : forall f a f1 f2, (forall q, glob_match d q -> f q = None) -> write_file f (client_file d) 420 ctext f1 true ->
      write_file f1 (api_file d) 420 atext f2 false -> inject d ctext atext f a f2 a IBroken
  | in_done : forall f a f1 f2, (forall q, glob_match d q -> f q = None) -> write_file f (client_file d) 420 ctext f1 true ->
      write_file f1 (api_file d) 420 atext f2 true -> inject d ctext atext f a f2 (a ++ [AGen d]) IDone.

(** One cleanup action: lens/asttweak.go:392-394 and 247-249 (both removals are tried). *)
Inductive run_action : action -> fsys -> fsys -> bool -> Prop :=
  | ra_restore : forall p f f' ok, replace_file f (bkp p) p f' ok -> run_action (ARestore p) f f' ok
  | ra_gen : forall d f f1 f2 ok1 ok2, remove f (client_file d) f1 ok1 -> remove f1 (api_file d) f2 ok2 ->
      run_action (AGen d) f f2 (ok1 && ok2).

(** lens/asttweak.go:98-102 *)
Inductive run_actions : list action -> fsys -> fsys -> list bool -> Prop :=
  | rx_nil : forall f, run_actions [] f f []
  | rx_cons : forall x l f f1 f2 ok oks, run_action x f f1 ok -> run_actions l f1 f2 oks -> run_actions (x :: l) f f2 (ok :: oks).

(** lens/asttweak.go:92-108, 166-177, 180-205, 208-251: One call on the editor. *)
Inductive eevent :=
  | EvEdit (p t : bytes)
  | EvCommitFile (p : bytes) (o : wout)
  | EvCommit (os : list wout)
  | EvInject (d : bytes) (o : iout)
  | EvRestore (oks : list bool).

(** lens/asttweak.go:92-108 (Restore), 125-157 (an edit: the file is parsed when it is
    not pending yet), 160-178 (CommitFile), 181-205 (Commit), 208 (InjectASTClient).
    Every call is one step: calls on one file hold its lock, calls on several exclude
    each other by commitLock and cleanupLock; InjectASTClient has no lock, see C96_serial. Restore forgets its actions whether or
    not they worked; a failed Commit keeps all pending edits. *)
Inductive estep (um : N) : editor -> eevent -> editor -> Prop :=
  | es_edit : forall f pd a p t, contents f p <> None \/ mget p pd <> None -> estep um (Editor f pd a) (EvEdit p t) (Editor f (mset p t pd) a)
  | es_commit_file : forall f pd a p t f' a' o, mget p pd = Some t -> write_pending um p t f a f' a' o ->
      estep um (Editor f pd a) (EvCommitFile p o) (Editor f' (mdel p pd) a')
  | es_commit : forall f pd a l f' a' os, (forall x, In x l <-> In x pd) -> NoDup l -> write_all um l f a f' a' os ->
      estep um (Editor f pd a) (EvCommit os) (Editor f' (if forallb (fun o => match o with WDone => true | _ => false end) os then [] else pd) a')
  | es_inject : forall f pd a d ct at_ f' a' o, inject d ct at_ f a f' a' o -> estep um (Editor f pd a) (EvInject d o) (Editor f' pd a')
  | es_restore : forall f pd a f' oks, run_actions a f f' oks -> estep um (Editor f pd a) (EvRestore oks) (Editor f' pd []).

(** A sequence of calls on one editor, lens/asttweak.go:92-108, 166-251. *)
Inductive eexec (um : N) : editor -> list eevent -> editor -> Prop :=
  | ee_nil : forall e, eexec um e [] e
  | ee_cons : forall e v e1 vs e2, estep um e v e1 -> eexec um e1 vs e2 -> eexec um e (v :: vs) e2.

(** A new editor (lens/astexec.go:189). *)
Definition e_init (f : fsys) : editor := Editor f [] [].

(** lens/asttweak.go:399-415 nextPointId as atomic steps. A thread is outside, or has
    read the counter; the counter is a uint32. *)
Inductive pthread := POut | PRead (v : N).
(** currPointId and the goroutines in nextPointId, lens/asttweak.go:399-415. *)
Record pstate := PSt { p_counter : N; p_threads : list pthread }.
(** lens/asttweak.go:399-415. *)
Inductive pevent := PLoad (i : nat) | PGot (i : nat) (id : N) | PRetry (i : nat) | PRefused (i : nat).

(** lens/asttweak.go:399-415: Replace the state of one thread. *)
Fixpoint set_nth {A} (n : nat) (x : A) (l : list A) : list A :=
  match n, l with O, _ :: l' => x :: l' | S n', y :: l' => y :: set_nth n' x l' | _, [] => [] end.

(** uint32 addition (lens/asttweak.go:408). *)
Definition wrap32 (n : N) : N := (n mod 4294967296)%N.

(** lens/asttweak.go:402 (load), 403-405 (from zero, compare-and-swap to 2 returns 1),
    408-409 (overflow), 410-414 (compare-and-swap to the next value). *)
Inductive pstep : pstate -> pevent -> pstate -> Prop :=
  | ps_load : forall c ts i, nth_error ts i = Some POut -> pstep (PSt c ts) (PLoad i) (PSt c (set_nth i (PRead c) ts))
  | ps_first : forall ts i, nth_error ts i = Some (PRead 0) -> pstep (PSt 0 ts) (PGot i 1) (PSt 2 (set_nth i POut ts))
  | ps_over : forall c ts i v, nth_error ts i = Some (PRead v) -> v <> 0%N -> wrap32 (v + 1) = 0%N ->
      pstep (PSt c ts) (PRefused i) (PSt c (set_nth i POut ts))
  | ps_got : forall ts i v, nth_error ts i = Some (PRead v) -> v <> 0%N -> wrap32 (v + 1) <> 0%N ->
      pstep (PSt v ts) (PGot i v) (PSt (wrap32 (v + 1)) (set_nth i POut ts))
  | ps_retry : forall c ts i v, nth_error ts i = Some (PRead v) -> (v = 0%N \/ wrap32 (v + 1) <> 0%N) -> c <> v ->
      pstep (PSt c ts) (PRetry i) (PSt c (set_nth i POut ts)).

(** Any interleaving of calls of nextPointId, lens/asttweak.go:399-415. *)
Inductive pexec : pstate -> list pevent -> pstate -> Prop :=
  | px_nil : forall s, pexec s [] s
  | px_cons : forall s v s1 vs s2, pstep s v s1 -> pexec s1 vs s2 -> pexec s (v :: vs) s2.

(** lens/asttweak.go:71: A new editor used by [n] goroutines. *)
Definition p_init (n : nat) : pstate := PSt 0 (repeat POut n).
