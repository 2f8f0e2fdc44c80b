(** Model of several goroutines editing files at the same time, step by step: InjectASTClient for several directories
    (lens/astexec.go:381-386, 460-465) and the writing of edited files (lens/asttweak.go:166-205), which ModifierModel
    takes as single steps.  Definitions only. *)
From Verif Require Import Base Maps FsModel ModifierModel BatchModel.

(** A goroutine: InjectASTClient for a directory, with the two texts it writes (lens/astexec.go:382, 461), or a commit
    action for a file with the text it writes (lens/asttweak.go:145-155). *)
Inductive job := JClient (d ct at_ : bytes) | JFile (p t : bytes).
(** How a goroutine has ended, lens/asttweak.go:208-251 and 145-155. *)
Inductive outcome := OClient (o : iout) | OFile (o : wout).
(** Where a goroutine is.  InjectASTClient (lens/asttweak.go:208-251): nothing was found, the client is partly written,
    written, the other file is partly written, written.  Commit action (lens/asttweak.go:145-155, 386-397): there is no
    backup, it is partly written, written, the backup is noted or was there, the text is partly written. *)
Inductive pc :=
| Todo | Absent | ClientPart | ClientThere | ApiPart | ApiThere
| NoBackup | BackupPart | BackupThere | Ready | TextPart
| Ended (o : outcome).

(** One step of a goroutine, with the cleanup action it adds: lens/asttweak.go:208-251 for a client and 145-155, 386-397
    for a file.  os.WriteFile and CopyFile write any number of times before they end; each write is a step. *)
Inductive tstep (um : N) : job -> pc -> fsys -> pc -> fsys -> list action -> Prop :=
(* lens/asttweak.go:209-211 *)
| t_have : forall d ct at_ f q, glob_match d q -> f q <> None -> tstep um (JClient d ct at_) Todo f (Ended (OClient INothing)) f []
| t_absent : forall d ct at_ f, (forall q, glob_match d q -> f q = None) -> tstep um (JClient d ct at_) Todo f Absent f []
(* lens/asttweak.go:213-236: templates, package name *)
| t_stop : forall d ct at_ f, tstep um (JClient d ct at_) Absent f (Ended (OClient INothing)) f []
(* lens/asttweak.go:237 *)
| t_client_part : forall d ct at_ x f part, x = Absent \/ x = ClientPart ->
    tstep um (JClient d ct at_) x f ClientPart (put f (client_file d) 420 part) []
| t_client_fail : forall d ct at_ x f, x = Absent \/ x = ClientPart -> tstep um (JClient d ct at_) x f (Ended (OClient IBroken)) f []
| t_client : forall d ct at_ x f, x = Absent \/ x = ClientPart ->
    tstep um (JClient d ct at_) x f ClientThere (put f (client_file d) 420 ct) []
(* lens/asttweak.go:240-246 *)
| t_api_part : forall d ct at_ x f part, x = ClientThere \/ x = ApiPart ->
    tstep um (JClient d ct at_) x f ApiPart (put f (api_file d) 420 part) []
| t_api_fail : forall d ct at_ x f, x = ClientThere \/ x = ApiPart -> tstep um (JClient d ct at_) x f (Ended (OClient IBroken)) f []
| t_api : forall d ct at_ x f, x = ClientThere \/ x = ApiPart ->
    tstep um (JClient d ct at_) x f ApiThere (put f (api_file d) 420 at_) []
(* lens/asttweak.go:247-250 *)
| t_added : forall d ct at_ f, tstep um (JClient d ct at_) ApiThere f (Ended (OClient IDone)) f [AGen d]
(* lens/asttweak.go:146-148 *)
| t_format : forall p t f, tstep um (JFile p t) Todo f (Ended (OFile WFailed)) f []
(* lens/asttweak.go:388 *)
| t_kept : forall p t f, file_exists f (bkp p) = true -> tstep um (JFile p t) Todo f Ready f []
| t_missing : forall p t f, file_exists f (bkp p) = false -> tstep um (JFile p t) Todo f NoBackup f []
(* lens/asttweak.go:389-391, lens/file.go:64-95 *)
| t_copy_fail : forall p t f, tstep um (JFile p t) NoBackup f (Ended (OFile WFailed)) f []
| t_copy_link : forall p t f l, f p = Some (NLink l) -> f (bkp p) = None ->
    tstep um (JFile p t) NoBackup f BackupThere (upd f (bkp p) (Some (NLink l))) []
| t_copy_part : forall p t x f m c part, x = NoBackup \/ x = BackupPart -> f p = Some (NFile m c) ->
    tstep um (JFile p t) x f BackupPart (put f (bkp p) um part) []
| t_copy_broken : forall p t f, tstep um (JFile p t) BackupPart f (Ended (OFile WBroken)) f []
| t_copied : forall p t x f m c, x = NoBackup \/ x = BackupPart -> f p = Some (NFile m c) ->
    tstep um (JFile p t) x f BackupThere (put f (bkp p) um c) []
(* lens/asttweak.go:392-394 *)
| t_noted : forall p t f, tstep um (JFile p t) BackupThere f Ready f [ARestore p]
(* lens/asttweak.go:151-154 *)
| t_text_part : forall p t x f part, x = Ready \/ x = TextPart -> tstep um (JFile p t) x f TextPart (put f p 420 part) []
| t_text_fail : forall p t x f, x = Ready \/ x = TextPart -> tstep um (JFile p t) x f (Ended (OFile WFailed)) f []
| t_text : forall p t x f, x = Ready \/ x = TextPart -> tstep um (JFile p t) x f (Ended (OFile WDone)) (put f p 420 t) [].

(** Files, cleanup actions and goroutines, lens/asttweak.go:70-77. *)
Record cstate := CState { c_fs : fsys; c_acts : list action; c_pcs : list pc }.
(** A step of one of the goroutines (lens/astexec.go:381-386, 460-465, lens/asttweak.go:189-198); appending an action is
    under cleanupLock (lens/asttweak.go:110-114). *)
Inductive cstep (um : N) (js : list job) : cstate -> cstate -> Prop :=
| c_step : forall i j x f a xs x' f' new, nth_error js i = Some j -> nth_error xs i = Some x -> tstep um j x f x' f' new ->
    cstep um js (CState f a xs) (CState f' (a ++ new) (set_nth i x' xs)).
(** Any interleaving, until Wait: lens/astexec.go:381-480, lens/asttweak.go:189-199. *)
Inductive cexec (um : N) (js : list job) : cstate -> cstate -> Prop :=
| c_end : forall s, cexec um js s s
| c_more : forall s s1 s2, cexec um js s s1 -> cstep um js s1 s2 -> cexec um js s s2.
(** All goroutines before their first step (lens/astexec.go:310, lens/asttweak.go:186). *)
Definition c_start (f : fsys) (js : list job) : cstate := CState f [] (map (fun _ => Todo) js).

(** The goroutines that lens/astexec.go:370-395 (project, the functions sorted by file) and 445-478 (module) start, clients
    first: the order does not matter, they run at the same time.  Each is taken at its writes; the texts it writes are
    given.  A batch without functions writes nothing (lens/astexec.go:312-313, 401-402). *)
Definition started (F : Type) (file : F -> bytes) (dir : bytes -> bytes) (client api : bytes -> bytes) (text : list F -> bytes) (sorted : list F) : list job :=
  let (bs, ds) := batch_run F file dir sorted in
  map (fun d => JClient d (client d) (api d)) ds ++ flat_map (fun b => match b with [] => [] | f :: _ => [JFile (file f) (text b)] end) bs.
