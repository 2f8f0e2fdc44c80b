(** Model of the concurrency helpers of lens/util.go: the limiting wait group
    and the striped mutex.  Definitions only. *)

From Verif Require Import Base.

(** ** The limiting wait group (util.go:24-63)

    The channel [c] only ever carries [true], so its buffer is the number of
    values in it; a receive is enabled when that number is positive, a send when
    it is below the capacity (Go channel semantics). *)

(** A goroutine using the group: about to call [Take], between [Take] and
    [Release] (its work), or after [Release] (the protocol documented at
    util.go:44-51). *)
Inductive wpc := Waiting | Running | Finished.

(** [Join]: not called, in the loop of util.go:38-40 having taken [i] values, or
    returned. *)
Inductive jpc := NotJoining | Joining (i : nat) | Joined.

(** limitingWaitGroup, lens/util.go:24-27. *)
Record lwg := Lwg { g_limit : nat; g_cap : nat; g_chan : nat; g_ws : list wpc; g_join : jpc }.

(** [NewLimitingWaitGroup] (util.go:54-63): the loop sends [limit] values into a
    channel of that capacity; [g_cap] is the channel's capacity. *)
Fixpoint fill (k cap chan : nat) : nat :=
  match k with O => chan | S k' => if (chan <? cap)%nat then fill k' cap (S chan) else fill k' cap chan end.
(** NewLimitingWaitGroup, lens/util.go:54-63. *)
Definition new_lwg (limit : nat) : lwg := Lwg limit limit (fill limit limit 0) [] NotJoining.

(** lens/util.go:29-41: A thread's program counter changes. *)
Fixpoint set_nth {A} (l : list A) (i : nat) (x : A) : list A :=
  match l, i with
  | [], _ => []
  | _ :: l', O => x :: l'
  | y :: l', S i' => y :: set_nth l' i' x
  end.

(** Take, Release and Join, lens/util.go:29-41. *)
Inductive lstep : lwg -> lwg -> Prop :=
(** another goroutine comes along that is going to call [Take]; by the
    documentation (util.go:49) not once [Join] has been called *)
| ls_spawn limit cap c ws : lstep (Lwg limit cap c ws NotJoining) (Lwg limit cap c (ws ++ [Waiting]) NotJoining)
(** [Take] (util.go:29-31) *)
| ls_take limit cap c ws j i : nth_error ws i = Some Waiting ->
    lstep (Lwg limit cap (S c) ws j) (Lwg limit cap c (set_nth ws i Running) j)
(** [Release] (util.go:33-35) *)
| ls_release limit cap c ws j i : nth_error ws i = Some Running -> (c < cap)%nat ->
    lstep (Lwg limit cap c ws j) (Lwg limit cap (S c) (set_nth ws i Finished) j)
(** [Join] is called; by the documentation no [Take] is still to come *)
| ls_join limit cap c ws : ~ In Waiting ws ->
    lstep (Lwg limit cap c ws NotJoining) (Lwg limit cap c ws (Joining 0))
(** one round of its loop: [i < limit], receive (util.go:38-39) *)
| ls_join_take limit cap c ws i : (i < limit)%nat ->
    lstep (Lwg limit cap (S c) ws (Joining i)) (Lwg limit cap c ws (Joining (S i)))
(** the loop ends and [Join] returns *)
| ls_join_done limit cap c ws i : ~ (i < limit)%nat ->
    lstep (Lwg limit cap c ws (Joining i)) (Lwg limit cap c ws Joined).

(** lens/util.go:29-41: The group as used without the restriction on [Join] (for showing
    that it matters): [Join] may be called while goroutines still wait in [Take]. *)
Inductive lstep_free : lwg -> lwg -> Prop :=
| lf_step g g' : lstep g g' -> lstep_free g g'
| lf_join limit cap c ws : lstep_free (Lwg limit cap c ws NotJoining) (Lwg limit cap c ws (Joining 0)).

(** ** The striped mutex (util.go:79-115) *)

Section Striped.
(** The hash object: its state, the state [Reset] gives, the effect of writing
    one byte, and [Sum64] (hash.Hash64 as used at lens/util.go:87, 109-115). *)
Context {hst : Type}.
Variables (hreset : hst) (hbyte : hst -> byte -> hst) (hsum : hst -> N).

(** [h.Reset] (util.go:112): whatever was in the pooled object. *)
Definition h_reset (h : hst) : hst := hreset.
(** [h.Write] (util.go:113). *)
Definition h_write (h : hst) (b : bytes) : hst := fold_left hbyte b h.

(** [getLock] (util.go:109-115) with the object [h] taken from the pool: the
    stripe's index and the object put back.  [None]: the modulo panics (no
    stripes). *)
Definition get_lock (stripes : nat) (h : hst) (key : bytes) : option nat * hst :=
  let h1 := h_reset h in
  let h2 := h_write h1 key in
  (match stripes with O => None | _ => Some (N.to_nat (hsum h2 mod N.of_nat stripes)) end, h2).

(** lens/util.go:96-99: Who holds what: the mutexes (with the goroutine holding each),
    the pool, the lock operations in flight (stripe chosen, mutex not yet acquired), and
    the critical sections currently entered. *)
Record smx := Smx {
  m_locks : list (option nat); m_pool : list hst;
  m_pending : list (nat * bytes * nat); m_held : list (nat * bytes * nat) }.

(** [newStripedMutex] (util.go:84-94). *)
Definition new_smx (stripes : nat) : smx := Smx (repeat None stripes) [] [] [].

(** lens/util.go:102-115. *)
Inductive sstep : smx -> smx -> Prop :=
(** a goroutine calls [Lock]: [getLock] with an object from the pool *)
| ss_get_pooled locks p1 h p2 pend held t key i h' :
    get_lock (length locks) h key = (Some i, h') ->
    sstep (Smx locks (p1 ++ h :: p2) pend held)
          (Smx locks (h' :: p1 ++ p2) ((t, key, i) :: pend) held)
(** or with a new one ([sync.Pool] may drop objects at any time) *)
| ss_get_new locks pool pend held t key i h' :
    get_lock (length locks) hreset key = (Some i, h') ->
    sstep (Smx locks pool pend held) (Smx locks (h' :: pool) ((t, key, i) :: pend) held)
| ss_drop locks p1 h p2 pend held : sstep (Smx locks (p1 ++ h :: p2) pend held) (Smx locks (p1 ++ p2) pend held)
(** [l.Lock()] (util.go:104) succeeds when the mutex is free *)
| ss_acquire locks pool q1 q2 held t key i : nth_error locks i = Some None ->
    sstep (Smx locks pool (q1 ++ (t, key, i) :: q2) held)
          (Smx (set_nth locks i (Some t)) pool (q1 ++ q2) ((t, key, i) :: held))
(** [Unlock] on the returned mutex ends the section *)
| ss_unlock locks pool pend q1 q2 t key i :
    sstep (Smx locks pool pend (q1 ++ (t, key, i) :: q2))
          (Smx (set_nth locks i None) pool pend (q1 ++ q2)).
End Striped.
Arguments smx : clear implicits.
Arguments new_smx {hst}.

(** [fnv.New64] as used (util.go:87): FNV-1, 64 bit (multiply, then xor). *)
Definition fnv_reset : N := 14695981039346656037%N.
(** hash/fnv, lens/util.go:87. *)
Definition fnv_byte (h : N) (c : byte) : N := N.lxor ((h * 1099511628211) mod 2 ^ 64) (N_of_ascii c).
(** hash/fnv, lens/util.go:87. *)
Definition fnv_sum (h : N) : N := h.

(** [newDefaultStripedMutex] (util.go:79-81). *)
Definition default_stripes : nat := 8081.
