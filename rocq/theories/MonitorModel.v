(** Model of the test monitor (lens/astexec.go:578-894): turning captured values
    into stored fields, and the accounting of messages handled concurrently.
    Definitions only. *)

From Verif Require Import Base Maps WireModel StaticModel TypesModel StableModel.

(** ** Stored fields *)

Section Fields.
(** [fmt.Sprint] of a received value, and base91 of SHA-1 (astexec.go:865-868):
    any functions. *)
Variable sprint : prim -> bytes.
(** sha1 in hex, lens/astexec.go:865-868. *)
Variable digest : bytes -> bytes.

(** [shouldCaptureField] (astexec.go:839-854). *)
Definition should_capture (name ty parent : bytes) : bool :=
  negb (beq parent (B "reflect.Value") && (beq name (B "typ_") || beq name (B "flag") || beq name (B "ptr"))) &&
  negb (beq ty (B "reflect.rtype") || beq ty (B "reflect.flag")).

(** The text stored for a value without children (astexec.go:864-870); the limit and
    prefix are at astexec.go:29-30. *)
Definition stored_text (ty str : bytes) : bytes :=
  if negb (has_suffix (B "string") ty) && (128 <? length str)%nat then B "vsha1-" ++ digest str else str.

(** [collectFields] (astexec.go:857-878). *)
Fixpoint collect_field (dst : amap fval) (f : lfield) (parent : bytes) {struct f} : amap fval :=
  let 'LF name ty val children := f in
  if should_capture name ty parent then
    mset name
      (match children with
       | [] => FVal (stored_text ty (sprint val)) None
       | _ => FVal [] (Some ((fix go (m : amap fval) (l : list lfield) : amap fval :=
                                match l with [] => m | c :: l' => go (collect_field m c ty) l' end) [] children))
       end) dst
  else dst.
(** The loop over the fields of a message (astexec.go:750-754), and over children
    (873-875). *)
Definition collect_all (m : amap fval) (l : list lfield) (parent : bytes) : amap fval :=
  fold_left (fun m f => collect_field m f parent) l m.
End Fields.

(** ** Accounting *)

(** The frame made of a message (astexec.go:735-754, 808-815).  A negative time is
    not expected; [TimeNS + 500000] is taken modulo 2^64 by Go and the quotient
    modulo 2^32. *)
Definition state_frame (trim : bytes -> option bytes) (collect : list lfield -> amap fval) (m : msg_state) : option cframe :=
  let fix frames (l : list frame) : option (list sframe) :=
    match l with
    | [] => Some []
    | f :: l' => match trim (fr_file f), frames l' with
                 | Some t, Some r => Some (SFrame t (u32 (fr_line f)) (fr_func f) :: r)
                 | _, _ => None
                 end
    end in
  match frames (ms_stack m) with
  | Some st => Some (CFrame (Some (collect (ms_fields m))) (Some st)
                      (Z.to_N (Z.quot (ms_time m + 500000) 1000000 mod 4294967296)))
  | None => None
  end.

(** lens/astexec.go:690-730: A message as the monitor sees it; a state message carries
    the frame made of it. *)
Inductive mmsg :=
| MPoint (id : N)
| MState (id : N) (f : cframe)
| MPanic (id : N) (text : bytes).

(** A client connection: the requests still to be handled on it and, if one is being
    handled and waits for its lock, that one (astexec.go:700-730).  Requests of one
    connection are handled one after the other (net/http). *)
Record mconn := MConn { mc_queue : list mmsg; mc_at : option (N * cframe) }.
(** The routine of a state message (astexec.go:735-835): before recording, after
    recording, after the deferred [lock.Unlock] (deferred calls run last in, first
    out), and then gone after [wait.Done]. *)
Inductive wphase := WRun | WRecorded | WUnlocked.
(** lens/astexec.go:731-835. *)
Record mworker := MWorker { mw_conn : nat; mw_id : N; mw_frame : cframe; mw_phase : wphase }.

(** lens/astexec.go:578-632. *)
Record mstate := MSt {
  m_conns : list mconn; m_workers : list mworker; m_held : list nat;
  m_wait : Z; m_checks : nat;
  m_callers : amap (list cframe); m_exts : amap (list cframe);
  m_ppanics : amap (list bytes); m_mpanics : amap (list bytes);
  m_reached : list N }.

(** lens/astexec.go:690-835: What an execution does, in order. *)
Inductive mlabel :=
| LRecv (c : nat) (m : mmsg) | LAcquire (c : nat) (id : N) (f : cframe)
| LRecord (c : nat) (id : N) (f : cframe) | LUnlock (c : nat) (id : N) (f : cframe) | LDone (c : nat) (id : N) (f : cframe).

Section Steps.
(** The tables of lens/astexec.go:578-604. *)
Variable ext_points project_points ppanic_points mpanic_points : N -> option bytes.  (* the id tables *)
(** lens/util.go:109-115. *)
Variable stripe : bytes -> nat.                   (* util.go:109-115, see SyncModel.v *)
(** StackFramesKey of ProjectFrames, lens/astexec.go:633-645, 683-688. *)
Variable key : cframe -> bytes.                   (* the key of the project stack *)
(** stableResults, lens/astexec.go:578, 757. *)
Variable stable : option (bytes -> option (list cframe)).   (* the stable caller frames, if any *)

(** Where a state message belongs (astexec.go:719-728). *)
Definition storage_key (id : N) : option (bool * bytes) :=
  match ext_points id with
  | Some k => Some (true, k)
  | None => match project_points id with Some k => Some (false, k) | None => None end
  end.

(** lens/astexec.go:808-833. *)
Definition appendm {V} (k : bytes) (v : V) (m : amap (list V)) : amap (list V) :=
  mset k (match mget k m with Some l => l | None => [] end ++ [v]) m.

(** Recording (astexec.go:757-834), atomic under its mutex. *)
Definition record_frame (st : mstate) (e : bool) (k : bytes) (f : cframe) : mstate :=
  let '(MSt cs ws h w n cal ex pp mp r) := st in
  if e then MSt cs ws h w (S n) cal (appendm k f ex) pp mp r
  else let old := match mget k cal with Some l => l | None => [] end in
       MSt cs ws h w (S n) (appendm k (match stable with None => f | Some s => apply_filter key (s k) old f end) cal) ex pp mp r.

(** A request handled without a routine: [HandleFuncPoint] (astexec.go:690-698),
    [HandleFuncPointPanic] (880-894), and a state message of an unknown point
    (723-726), after which the counter has grown for good. *)
Definition recv_simple (st : mstate) (m : mmsg) : option mstate :=
  let '(MSt cs ws h w n cal ex pp mp r) := st in
  match m with
  | MPoint id => Some (MSt cs ws h w n cal ex pp mp (if existsb (N.eqb id) r then r else r ++ [id]))
  | MPanic id t =>
      Some (match ppanic_points id with
            | Some k => MSt cs ws h w n cal ex (appendm k t pp) mp r
            | None => match mpanic_points id with
                      | Some k => MSt cs ws h w n cal ex pp (appendm k t mp) r
                      | None => st
                      end
            end)
  | MState id _ => match storage_key id with
                   | None => Some (MSt cs ws h (w + 1) n cal ex pp mp r)
                   | Some _ => None
                   end
  end.

(** One connection moves on, lens/astsrv.go:156-234. *)
Definition set_conn (c : nat) (x : mconn) (l : list mconn) : list mconn := firstn c l ++ x :: skipn (S c) l.
(** One connection moves on, lens/astsrv.go:156-234. *)
Definition with_conns (st : mstate) cs : mstate :=
  let '(MSt _ ws h w n cal ex pp mp r) := st in MSt cs ws h w n cal ex pp mp r.
(** One goroutine of lens/astexec.go:735-835 moves on. *)
Definition with_workers (st : mstate) ws h w : mstate :=
  let '(MSt cs _ _ _ n cal ex pp mp r) := st in MSt cs ws h w n cal ex pp mp r.

(** lens/astexec.go:690-835. *)
Inductive mstep : mstate -> mlabel -> mstate -> Prop :=
| ms_simple st c q m st' : nth_error (m_conns st) c = Some (MConn (m :: q) None) ->
    recv_simple st m = Some st' ->
    mstep st (LRecv c m) (with_conns st' (set_conn c (MConn q None) (m_conns st)))
| ms_state st c q id f k : nth_error (m_conns st) c = Some (MConn (MState id f :: q) None) ->
    storage_key id = Some k ->
    mstep st (LRecv c (MState id f))
      (with_workers (with_conns st (set_conn c (MConn q (Some (id, f))) (m_conns st))) (m_workers st) (m_held st) (m_wait st + 1))
| ms_acquire st c q id f e k : nth_error (m_conns st) c = Some (MConn q (Some (id, f))) ->
    storage_key id = Some (e, k) -> ~ In (stripe k) (m_held st) ->
    mstep st (LAcquire c id f)
      (with_workers (with_conns st (set_conn c (MConn q None) (m_conns st)))
        (m_workers st ++ [MWorker c id f WRun]) (stripe k :: m_held st) (m_wait st))
| ms_record st w1 c id f w2 e k : m_workers st = w1 ++ MWorker c id f WRun :: w2 -> storage_key id = Some (e, k) ->
    mstep st (LRecord c id f)
      (with_workers (record_frame st e k f) (w1 ++ MWorker c id f WRecorded :: w2) (m_held st) (m_wait st))
| ms_unlock st w1 c id f w2 e k : m_workers st = w1 ++ MWorker c id f WRecorded :: w2 -> storage_key id = Some (e, k) ->
    mstep st (LUnlock c id f)
      (with_workers st (w1 ++ MWorker c id f WUnlocked :: w2) (remove Nat.eq_dec (stripe k) (m_held st)) (m_wait st))
| ms_done st w1 c id f w2 : m_workers st = w1 ++ MWorker c id f WUnlocked :: w2 ->
    mstep st (LDone c id f) (with_workers st (w1 ++ w2) (m_held st) (m_wait st - 1)).

(** Any interleaving, lens/astexec.go:690-835. *)
Inductive mexec : mstate -> list mlabel -> mstate -> Prop :=
| me_nil st : mexec st [] st
| me_cons st l st1 ls st2 : mstep st l st1 -> mexec st1 ls st2 -> mexec st (l :: ls) st2.

(** A new monitor (astexec.go:578-595) with connections about to deliver messages. *)
Definition m_init (queues : list (list mmsg)) : mstate :=
  MSt (map (fun q => MConn q None) queues) [] [] 0%Z 0%nat [] [] [] [] [].

(** [makeTestResult]'s [Wait] returns when the counter is zero (astexec.go:896-897). *)
Definition wait_returns (st : mstate) : Prop := m_wait st = 0%Z.
End Steps.

(** [getModuleChangesReachCount] and [getModuleChangesReached] (astexec.go:911-933):
    the latter sorted. *)
Definition reach_count (st : mstate) : nat := length (m_reached st).
(** lens/astexec.go:896-933. *)
Definition changes_reached (entry_points : N -> option bytes) (st : mstate) : list bytes :=
  bsort (flat_map (fun id => match entry_points id with Some k => [k] | None => [] end) (m_reached st)).
