(** Model of the locks of the source editor and of what goroutines do under them (lens/asttweak.go:65-251, 386-397, 419-441,
    510-524, 702-714, 1870-1890): striped file locks, commitLock and cleanupLock, parsed files, commit actions, the files.
    A lock is free when no goroutine is at a point at which it holds it (sync.Mutex; C18 is about the stripes).  Files
    parse and functions are found; an edit of a parsed file is one step.  Definitions only. *)
From Verif Require Import Base Maps.

(** The locks: a stripe of astFileLock (lens/asttweak.go:65), commitLock and cleanupLock (lens/asttweak.go:73-75). *)
Inductive lock := LFile (k : nat) | LCommit | LCleanup.

Section EditLock.
(** An edit of a file, lens/asttweak.go:438, 572, 641; a text is given by the edits made. *)
Context {E : Type}.
(** The stripe of a path, lens/util.go:102-115. *)
Variable stripe : bytes -> nat.
(** runtime.NumCPU, lens/asttweak.go:182. *)
Variable cpus : nat.

(** A call: an InjectFuncPoint or InsertFuncLines (lens/asttweak.go:419, 511, 702, 1871), CommitFile (160), Commit (181), and
    those that only take cleanupLock: Restore (92) and the end of InjectASTClient (247). *)
Inductive call := CEdit (p : bytes) (e : E) | CCommitFile (p : bytes) | CCommit | CClean.
(** Where a goroutine of Commit is (lens/asttweak.go:191-197, 145-155): before the backup, before
    addCleanupAction, in it, before writing, ended. *)
Inductive spc := SWant | SNeed | SNote | SText | SEnd (ok : bool).
(** Where a goroutine is.  Edit (lens/asttweak.go:420-440, 123-157): has the file lock, has parsed, has commitLock, has the
    parsed file, is done.  CommitFile (160-177, 145-155, 386-397): has the file lock, has commitLock, has taken the action, is before
    addCleanupAction, in it, before writing, is done, has only the file lock.  Commit (181-205): with actions to start and
    goroutines, is done.  In cleanupLock (93-107, 111-113).  Parsed files are named by the path and a number. *)
Inductive pc :=
| Idle
| EGot (p : bytes) (e : E) | EParsed (p : bytes) (e : E) (r : nat) | EReg (p : bytes) (e : E) (r : nat) | EHave (p : bytes) (e : E) (r : nat) | EEnd (p : bytes)
| FGot (p : bytes) | FCommit (p : bytes) | FWrite (p : bytes) (r : nat) | FWant (p : bytes) (r : nat) | FNote (p : bytes) (r : nat) | FText (p : bytes) (r : nat) | FOut (p : bytes) | FLast (p : bytes)
| CRun (todo : list (bytes * nat)) (subs : list (bytes * nat * spc)) | COut
| NGot.

(** Which locks are held there: between Lock and Unlock in lens/asttweak.go:93-94, 111-112, 140-141, 161-162, 167-168, 187-188,
    420-421, 512-513. *)
Definition holds (c : pc) (l : lock) : bool :=
  match l with
  | LFile k => match c with
               | EGot p _ | EParsed p _ _ | EReg p _ _ | EHave p _ _ | EEnd p | FGot p | FCommit p | FWrite p _ | FWant p _ | FNote p _ | FText p _ | FOut p | FLast p => Nat.eqb (stripe p) k
               | _ => false
               end
  | LCommit => match c with EReg _ _ _ | FCommit _ | FWrite _ _ | FWant _ _ | FNote _ _ | FText _ _ | FOut _ | CRun _ _ | COut => true | _ => false end
  | LCleanup => match c with
                | FNote _ _ | NGot => true
                | CRun _ subs => existsb (fun x => match snd x with SNote => true | _ => false end) subs
                | _ => false
                end
  end.

(** The contents of parsed files and how many there were, fileNodeMap and commitActions (lens/asttweak.go:72-77), the files, the
    edits made with the goroutine that made them, and the files writing which has failed. *)
Record data := Data {
  heap : bytes -> nat -> list E; fresh : nat; loaded : bytes -> option nat; pending : amap nat;
  disk : bytes -> list E; made : list (nat * (bytes * E)); failed : bytes -> bool
}.
(** Replacing what a path stands for (lens/asttweak.go:136, 151, 172). *)
Definition at_path {A} (f : bytes -> A) (p : bytes) (x : A) : bytes -> A := fun q => if beq q p then x else f q.
(** lens/asttweak.go:130-139: a newly parsed file. *)
Definition parsed (d : data) (p : bytes) : data :=
  Data (at_path (heap d) p (fun n => if Nat.eqb n (fresh d) then disk d p else heap d p n)) (S (fresh d)) (at_path (loaded d) p (Some (fresh d))) (pending d) (disk d) (made d) (failed d).
(** lens/asttweak.go:142-145: its commit action. *)
Definition registered (d : data) (p : bytes) (r : nat) : data :=
  Data (heap d) (fresh d) (loaded d) (mset p r (pending d)) (disk d) (made d) (failed d).
(** lens/asttweak.go:438, 572, 641: an edit. *)
Definition edited (d : data) (i : nat) (p : bytes) (e : E) (r : nat) : data :=
  Data (at_path (heap d) p (fun n => if Nat.eqb n r then heap d p n ++ [e] else heap d p n)) (fresh d) (loaded d) (pending d) (disk d) (made d ++ [(i, (p, e))]) (failed d).
(** lens/asttweak.go:171-172: the action is taken. *)
Definition taken (d : data) (p : bytes) : data :=
  Data (heap d) (fresh d) (at_path (loaded d) p None) (mdel p (pending d)) (disk d) (made d) (failed d).
(** lens/asttweak.go:147, 151: the file is written. *)
Definition written (d : data) (p : bytes) (r : nat) : data :=
  Data (heap d) (fresh d) (loaded d) (pending d) (at_path (disk d) p (heap d p r)) (made d) (failed d).
(** lens/asttweak.go:148-152: an error, some text in the file. *)
Definition broken (d : data) (p : bytes) (t : list E) : data :=
  Data (heap d) (fresh d) (loaded d) (pending d) (at_path (disk d) p t) (made d) (at_path (failed d) p true).
(** lens/asttweak.go:202-203. *)
Definition cleared (d : data) : data := Data (heap d) (fresh d) (fun _ => None) [] (disk d) (made d) (failed d).

(** A step of a goroutine of Commit, lens/asttweak.go:191-197, 145-155; [nl]: cleanupLock is free. *)
Inductive sstep (nl : Prop) : bytes * nat * spc -> data -> spc -> data -> Prop :=
| ss_new : forall p r d, sstep nl (p, r, SWant) d SNeed d
| ss_note : forall p r d, nl -> sstep nl (p, r, SNeed) d SNote d
| ss_there : forall p r d, sstep nl (p, r, SWant) d SText d
| ss_fail : forall p r d, sstep nl (p, r, SWant) d (SEnd false) (broken d p (disk d p))
| ss_noted : forall p r d, sstep nl (p, r, SNote) d SText d
| ss_text : forall p r d, sstep nl (p, r, SText) d (SEnd true) (written d p r)
| ss_part : forall p r d t, sstep nl (p, r, SText) d (SEnd false) (broken d p t).

(** A step of goroutine [i] (lens/asttweak.go:92-251, 386-441, 510-524); [free]: which locks no goroutine holds. *)
Inductive tstep (free : lock -> Prop) (i : nat) : pc -> list call -> data -> pc -> list call -> data -> Prop :=
(* lens/asttweak.go:420, 512, 703, 1872 *)
| t_edit : forall p e cs d, free (LFile (stripe p)) -> tstep free i Idle (CEdit p e :: cs) d (EGot p e) cs d
(* lens/asttweak.go:124-128 *)
| t_have : forall p e cs d r, loaded d p = Some r -> tstep free i (EGot p e) cs d (EHave p e r) cs d
(* lens/asttweak.go:130-138 *)
| t_parse : forall p e cs d, loaded d p = None -> tstep free i (EGot p e) cs d (EParsed p e (fresh d)) cs (parsed d p)
(* lens/asttweak.go:140 *)
| t_wait : forall p e r cs d, free LCommit -> tstep free i (EParsed p e r) cs d (EReg p e r) cs d
(* lens/asttweak.go:142-156 *)
| t_reg : forall p e r cs d, tstep free i (EReg p e r) cs d (EHave p e r) cs (registered d p r)
| t_made : forall p e r cs d, tstep free i (EHave p e r) cs d (EEnd p) cs (edited d i p e r)
| t_end : forall p cs d, tstep free i (EEnd p) cs d Idle cs d
(* lens/asttweak.go:161, 167 *)
| t_file : forall p cs d, free (LFile (stripe p)) -> tstep free i Idle (CCommitFile p :: cs) d (FGot p) cs d
| t_commit : forall p cs d, free LCommit -> tstep free i (FGot p) cs d (FCommit p) cs d
(* lens/asttweak.go:170-176 *)
| t_take : forall p r cs d, mget p (pending d) = Some r -> tstep free i (FCommit p) cs d (FWrite p r) cs (taken d p)
| t_none : forall p cs d, mget p (pending d) = None -> tstep free i (FCommit p) cs d (FOut p) cs d
(* lens/asttweak.go:147-154, 386-397, 111 *)
| t_new : forall p r cs d, tstep free i (FWrite p r) cs d (FWant p r) cs d
| t_note : forall p r cs d, free LCleanup -> tstep free i (FWant p r) cs d (FNote p r) cs d
| t_there : forall p r cs d, tstep free i (FWrite p r) cs d (FText p r) cs d
| t_fail : forall p r cs d, tstep free i (FWrite p r) cs d (FOut p) cs (broken d p (disk d p))
| t_noted : forall p r cs d, tstep free i (FNote p r) cs d (FText p r) cs d
| t_text : forall p r cs d, tstep free i (FText p r) cs d (FOut p) cs (written d p r)
| t_part : forall p r cs d t, tstep free i (FText p r) cs d (FOut p) cs (broken d p t)
| t_out : forall p cs d, tstep free i (FOut p) cs d (FLast p) cs d
| t_last : forall p cs d, tstep free i (FLast p) cs d Idle cs d
(* lens/asttweak.go:187-200: the actions in any order, at most [cpus] goroutines *)
| t_all : forall todo cs d, free LCommit -> (forall x, In x todo <-> In x (pending d)) -> length todo = length (pending d) -> tstep free i Idle (CCommit :: cs) d (CRun todo []) cs d
| t_go : forall p r todo subs cs d, length (filter (fun x => match snd x with SEnd _ => false | _ => true end) subs) < cpus ->
    tstep free i (CRun ((p, r) :: todo) subs) cs d (CRun todo (subs ++ [(p, r, SWant)])) cs d
| t_sub : forall todo a p r c c' b cs d d', sstep (free LCleanup) (p, r, c) d c' d' ->
    tstep free i (CRun todo (a ++ (p, r, c) :: b)) cs d (CRun todo (a ++ (p, r, c') :: b)) cs d'
(* lens/asttweak.go:199-204: Wait, then an error or the end *)
| t_failed : forall subs cs d, Forall (fun x => exists ok, snd x = SEnd ok) subs -> Exists (fun x => snd x = SEnd false) subs ->
    tstep free i (CRun [] subs) cs d COut cs d
| t_clear : forall subs cs d, Forall (fun x => snd x = SEnd true) subs -> tstep free i (CRun [] subs) cs d COut cs (cleared d)
| t_over : forall cs d, tstep free i COut cs d Idle cs d
(* lens/asttweak.go:93-107, 111-113 *)
| t_clean : forall cs d, free LCleanup -> tstep free i Idle (CClean :: cs) d NGot cs d
| t_cleaned : forall cs d, tstep free i NGot cs d Idle cs d.

(** The goroutines with the calls they still have to make (lens/astexec.go:315-395, 404-478), and what they share. *)
Record state := State { threads : list (pc * list call); shared : data }.
(** A lock no goroutine holds: Lock returns (lens/asttweak.go:93, 111, 140, 161, 167, 187, 420, 512). *)
Definition free (ts : list (pc * list call)) (l : lock) : Prop := forall t, In t ts -> holds (fst t) l = false.
(** One step of one of them (lens/asttweak.go:92-251, 386-441, 510-524). *)
Inductive step : state -> state -> Prop :=
  st : forall a c cs b d c' cs' d', tstep (free (a ++ (c, cs) :: b)) (length a) c cs d c' cs' d' ->
    step (State (a ++ (c, cs) :: b) d) (State (a ++ (c', cs') :: b) d').
(** Any number of steps (lens/asttweak.go:92-251, 386-441, 510-524). *)
Inductive steps : state -> state -> Prop :=
| st_none : forall s, steps s s
| st_more : forall s1 s2 s3, steps s1 s2 -> step s2 s3 -> steps s1 s3.
(** A new editor, lens/astexec.go:189. *)
Definition start (d0 : bytes -> list E) (calls : list (list call)) : state :=
  State (map (fun cs => (Idle, cs)) calls) (Data (fun _ _ => []) 0 (fun _ => None) [] d0 [] (fun _ => false)).
End EditLock.
