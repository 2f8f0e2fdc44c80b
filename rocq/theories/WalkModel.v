(** The concurrent walks over directories: CopyDir, WriteChmod and concurrentWalk
    (lens/file.go:97-178), with the errgroup they use, and the progress dots of the copy
    (lens/engine.go:1008-1023).  Definitions only. *)
From Verif Require Import Base TmpModel.

(** ** A walk that starts tasks *)
(** A call of the walk's callback: with an error, for a path handled by the walk itself, for a path
    handed to a task (lens/file.go:101-130, 155-175).  The calls and their order are fixed when the walk
    starts: directories and files neither come nor go meanwhile. *)
Inductive act := ABad | AIn (p : path) | AGo (p : path).
(** The walk: before its next call; in eg.Go, waiting for a free place; ended, with an error or not
    (lens/file.go:105-130, 159-175). *)
Inductive wpc := WNext | WGo (p : path) | WEnd (bad : bool).
(** The state of the group and the walk: the calls to come, the walk, the tasks that run, whether the context
    is done, the tasks that failed and those that did not, the paths the walk handled, the files, and
    whether and how the function has returned ([Some true] is a nil error) (lens/file.go:98-135, 152-178). *)
Record grp := Grp { g_todo : list act; g_walk : wpc; g_run : list path; g_cancel : bool;
  g_failed : list path; g_done : list path; g_made : list path; g_fs : tsys; g_ret : option bool }.
(** lens/file.go:99-100, 153-154. *)
Definition start (acts : list act) (f : tsys) : grp := Grp acts WNext [] false [] [] [] f None.

Section Group.
(** runtime.NumCPU() * 4 (lens/file.go:100, 154). *)
Variable limit : nat.
(** Whether the tasks are waited for when the walk fails (lens/file.go:131-134 and 176). *)
Variable waits : bool.
(** Whether the caller's context may be cancelled (lens/file.go:98, 138; context.Background() in
    lens/engine.go:999, 1025). *)
Variable cancellable : bool.
(** What the walk does itself and what a task does, with the files before and after and whether it worked
    (lens/file.go:116-120, 122-127, 165-173). *)
Variable inline task : path -> tsys -> tsys -> bool -> Prop.

(** One step of the walk, a task, or the caller (lens/file.go:98-135, 152-178); a task's work is one
    step, tasks work on different paths. *)
Inductive gstep : grp -> grp -> Prop :=
  (** lens/file.go:102-104, 156-158: the error of a call ends the walk. *)
  | gs_bad : forall r run c fl dn md f rt, gstep (Grp (ABad :: r) WNext run c fl dn md f rt) (Grp (ABad :: r) (WEnd true) run c fl dn md f rt)
  (** lens/file.go:105-109, 159-163: so does the context. *)
  | gs_stop : forall a r run fl dn md f rt, a <> ABad ->
      gstep (Grp (a :: r) WNext run true fl dn md f rt) (Grp (a :: r) (WEnd true) run true fl dn md f rt)
  (** lens/file.go:116-120. *)
  | gs_in : forall p r run fl dn md f f' rt, inline p f f' true ->
      gstep (Grp (AIn p :: r) WNext run false fl dn md f rt) (Grp r WNext run false fl dn (p :: md) f' rt)
  (** lens/file.go:120: an error of MkdirAll ends the walk. *)
  | gs_in_bad : forall p r run fl dn md f f' rt, inline p f f' false ->
      gstep (Grp (AIn p :: r) WNext run false fl dn md f rt) (Grp (AIn p :: r) (WEnd true) run false fl dn md f' rt)
  (** lens/file.go:105-109, 159-163: the context is not done. *)
  | gs_check : forall p r run fl dn md f rt,
      gstep (Grp (AGo p :: r) WNext run false fl dn md f rt) (Grp r (WGo p) run false fl dn md f rt)
  (** lens/file.go:122, 165: eg.Go starts the task when there is a free place. *)
  | gs_go : forall p r run c fl dn md f rt, (length run < limit)%nat ->
      gstep (Grp r (WGo p) run c fl dn md f rt) (Grp r WNext (p :: run) c fl dn md f rt)
  (** The walk is through (lens/file.go:130, 175). *)
  | gs_end : forall run c fl dn md f rt, gstep (Grp [] WNext run c fl dn md f rt) (Grp [] (WEnd false) run c fl dn md f rt)
  (** lens/file.go:122-127, 165-173: a task works. *)
  | gs_task : forall p a b td w c fl dn md f f' rt, task p f f' true ->
      gstep (Grp td w (a ++ p :: b) c fl dn md f rt) (Grp td w (a ++ b) c fl (p :: dn) md f' rt)
  (** A task fails: the group cancels the context (errgroup; lens/file.go:99, 153). *)
  | gs_task_bad : forall p a b td w c fl dn md f f' rt, task p f f' false ->
      gstep (Grp td w (a ++ p :: b) c fl dn md f rt) (Grp td w (a ++ b) true (p :: fl) dn md f' rt)
  (** The caller's context is cancelled (lens/file.go:98, 138). *)
  | gs_cancel : forall td w run fl dn md f rt, cancellable = true -> gstep (Grp td w run false fl dn md f rt) (Grp td w run true fl dn md f rt)
  (** lens/file.go:134, 176-177: the tasks are waited for. *)
  | gs_return : forall td bad c fl dn md f, gstep (Grp td (WEnd bad) [] c fl dn md f None)
      (Grp td (WEnd bad) [] c fl dn md f (Some (negb bad && match fl with [] => true | _ => false end)))
  (** lens/file.go:131-133: CopyDir returns the walk's error at once. *)
  | gs_return_early : forall td run c fl dn md f, waits = false -> gstep (Grp td (WEnd true) run c fl dn md f None) (Grp td (WEnd true) run c fl dn md f (Some false)).
(** All states of all executions (lens/file.go:98-135, 152-178). *)
Inductive greach (g0 : grp) : grp -> Prop :=
  | gr_start : greach g0 g0
  | gr_step : forall g g', greach g0 g -> gstep g g' -> greach g0 g'.
End Group.

(** ** Files *)
(** lens/file.go:72, 81, 120, 146. *)
Definition upd (f : tsys) (p : path) (n : tnode) : tsys := fun q => if list_eq_dec bytes_eq_dec q p then Some n else f q.

(** Whether every directory from [root] to above [p] may be searched, as its owner
    (d.Info and os.Chmod; lens/file.go:146, 166). *)
Definition searchable (f : tsys) (root p : path) : bool :=
  forallb (fun k => match f (firstn k p) with Some (TDir m) => N.testbit m 6 | _ => false end) (seq (length root) (length p - length root)).
(** lens/file.go:140-147: 0o222 for everything, 0o111 more for directories; 0o222 is 146, 0o111 is 73. *)
Definition opened (n : tnode) : tnode :=
  match n with TDir m => TDir (N.lor (N.lor m 146) 73) | TFile m c => TFile (N.lor m 146) c | TLink t => TLink t end.
(** The task of WriteChmod (lens/file.go:139-149, 165-173); [io p] says that a system call on [p] fails. *)
Inductive chmod_task (io : path -> bool) (root p : path) (f : tsys) : tsys -> bool -> Prop :=
  | ct_ok : forall n, io p = false -> searchable f root p = true -> f p = Some n -> (forall t, n <> TLink t) -> chmod_task io root p f (upd f p (opened n)) true
  | ct_link : forall t, io p = false -> searchable f root p = true -> f p = Some (TLink t) -> chmod_task io root p f f true
  | ct_bad : io p = true \/ searchable f root p = false \/ f p = None -> chmod_task io root p f f false.
(** WriteChmod has nothing the walk does itself (lens/file.go:155-175). *)
Definition no_inline (p : path) (f f' : tsys) (ok : bool) : Prop := False.

(** MkdirAll of the target (lens/file.go:115-120), whose parents are there; [io]: it fails, or something else is there. *)
Inductive mkdir (io : path -> bool) (dm : N) (dst r : path) (f : tsys) : tsys -> bool -> Prop :=
  | mk_new : io r = false -> f (dst ++ r) = None -> mkdir io dm dst r f (upd f (dst ++ r) (TDir dm)) true
  | mk_there : forall m, io r = false -> f (dst ++ r) = Some (TDir m) -> mkdir io dm dst r f f true
  | mk_bad : io r = true \/ (exists n, f (dst ++ r) = Some n /\ forall m, n <> TDir m) -> mkdir io dm dst r f f false.
(** The directory the target is in (lens/file.go:72, 81). *)
Definition has_parent (f : tsys) (dst r : path) : Prop := r = [] \/ exists m, f (dst ++ removelast r) = Some (TDir m).
(** CopyFile (lens/file.go:64-95): the target is new; where there is something already, or a call fails, anything may
    become of the target. *)
Inductive copy_task (io : path -> bool) (um : N) (src dst r : path) (f : tsys) : tsys -> bool -> Prop :=
  | cp_ok : forall n, io r = false -> f (src ++ r) = Some n -> (forall m, n <> TDir m) -> has_parent f dst r -> f (dst ++ r) = None ->
      copy_task io um src dst r f (upd f (dst ++ r) (copy_node 0 um n)) true
  | cp_any : forall f' ok, f (dst ++ r) <> None -> (forall q, q <> dst ++ r -> f' q = f q) -> copy_task io um src dst r f f' ok
  | cp_bad : forall f', io r = true \/ f (src ++ r) = None \/ (exists m, f (src ++ r) = Some (TDir m)) \/ ~ has_parent f dst r ->
      (forall q, q <> dst ++ r -> f' q = f q) -> copy_task io um src dst r f f' false.

(** ** The progress dots *)
(** logSize (lens/engine.go:1009). *)
Definition log_size : N := 209715200.
(** A call of the progress handler: before the Add, before the Load, before the CompareAndSwap with the value loaded
    (lens/engine.go:1011-1022). *)
Inductive dpc := DAdd (size : N) | DLoad | DSwap (seen : N).
(** The counter, the dots printed, the calls (lens/engine.go:1010-1023). *)
Record dots := Dots { d_count : N; d_dots : N; d_calls : list dpc }.
(** lens/engine.go:1011-1023, with the size a step adds; the counter does not overflow. *)
Inductive dstep : N -> dots -> dots -> Prop :=
  | ds_call : forall c n l s, dstep 0 (Dots c n l) (Dots c n (DAdd s :: l))
  | ds_add : forall c n a b s, dstep s (Dots c n (a ++ DAdd s :: b)) (Dots (c + s) n (a ++ DLoad :: b))
  | ds_more : forall c n a b, (log_size < c)%N -> dstep 0 (Dots c n (a ++ DLoad :: b)) (Dots c n (a ++ DSwap c :: b))
  | ds_enough : forall c n a b, (c <= log_size)%N -> dstep 0 (Dots c n (a ++ DLoad :: b)) (Dots c n (a ++ b))
  | ds_swap : forall c n a b, dstep 0 (Dots c n (a ++ DSwap c :: b)) (Dots (c - log_size) (n + 1) (a ++ DLoad :: b))
  | ds_lost : forall c n a b v, v <> c -> dstep 0 (Dots c n (a ++ DSwap v :: b)) (Dots c n (a ++ DLoad :: b)).
(** The states with the sizes added so far (lens/engine.go:1010-1023). *)
Inductive dreach : N -> dots -> Prop :=
  | dr_start : dreach 0 (Dots 0 0 [])
  | dr_step : forall total s d d', dreach total d -> dstep s d d' -> dreach (total + s) d'.
