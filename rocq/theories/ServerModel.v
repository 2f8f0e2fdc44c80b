(** The life of the monitor servers: started once for an analysis, shared by its tests and
    stopped on every way out (lens/astsrv.go:64-155, lens/astexec.go:75-95, 177-181).
    Definitions only.

    The server goroutines, the analysis and the requests interleave freely; the 100 ms a
    start waits (lens/astsrv.go:101) are a moment of any length here. *)
From Verif Require Import Base.

(** ** One server *)
(** ListenAndServe in its goroutine (lens/astsrv.go:93-99): not yet listening, accepting
    connections, ended with an error kept in [err] (96), ended with ErrServerClosed (not
    kept, 95). *)
Inductive phase := Pending | Listening | Failed | Closed.
(** A server of lens/astsrv.go:65-70: its goroutine, whether Shutdown was called (153) and
    the requests its handlers work on (88-91). *)
Record server := Server { s_phase : phase; s_shut : bool; s_active : nat }.
(** lens/astsrv.go:85-92: a server as constructed. *)
Definition new_server : server := Server Pending false 0.
(** errCheck (lens/astsrv.go:106-111): whether an error is returned; also the result of
    SetPointHandler (114-117). *)
Definition err_check (s : server) : bool := match s_phase s with Failed => true | _ => false end.
(** Shutdown (lens/astsrv.go:153): the listener is closed, running requests go on. *)
Definition shut (s : server) : server :=
  Server (match s_phase s with Listening => Closed | p => p end) true (s_active s).

(** What the goroutine and the requests of a server may do.  net/http: after Shutdown
    ListenAndServe returns ErrServerClosed (lens/astsrv.go:95); [bindable]: the address can
    be listened on. *)
Inductive own_step (bindable : bool) : server -> server -> Prop :=
  | os_listen : forall a, bindable = true -> own_step bindable (Server Pending false a) (Server Listening false a)
  | os_refused : forall a, own_step bindable (Server Pending false a) (Server Failed false a)
  | os_late : forall a, own_step bindable (Server Pending true a) (Server Closed true a)
  | os_broken : forall b a, own_step bindable (Server Listening b a) (Server Failed b a)
  | os_request : forall b a, own_step bindable (Server Listening b a) (Server Listening b (S a))
  | os_answered : forall p b a, own_step bindable (Server p b (S a)) (Server p b a).

(** ** The servers of an analysis *)
(** Where the analysis is (lens/astexec.go:85-95): about to start the next server, in its
    start (86), running tests (97-181), in the deferred stop of server [i] (79-83), or
    back at the caller. *)
Inductive apc := PNext | PStarting | PRun | PStop (i : nat) | PDone.
(** The servers constructed, in order (lens/astexec.go:86); how many of them are in srvs and
    in the channel (91-92); whether tests were reached; the servers whose Stop gave up after
    20 s (80-81). *)
Record state := State { a_pc : apc; a_servers : list server; a_kept : nat; a_ran : bool; a_late : list nat }.
(** lens/astexec.go:76-78. *)
Definition initial : state := State PNext [] 0 false [].

(** The entry of the list at an index replaced (lens/astexec.go:78, 91). *)
Fixpoint set_nth (i : nat) (s : server) (l : list server) : list server :=
  match l, i with
  | [], _ => []
  | _ :: l', O => s :: l'
  | x :: l', S i' => x :: set_nth i' s l'
  end.

Section Servers.
(** serverCount, lens/astexec.go:76. *)
Variable count : nat.
(** Which of the ports portStart+i can be bound, lens/astexec.go:86. *)
Variable bindable : nat -> bool.

(** lens/astexec.go:79-95 and the goroutines of lens/astsrv.go:93-99. *)
Inductive step : state -> state -> Prop :=
  (* 85-86: construct the next server *)
  | st_start : forall l k r t, (k < count)%nat -> step (State PNext l k r t) (State PStarting (l ++ [new_server]) k r t)
  (* 88-90: its start failed: the deferred stop, without this server *)
  | st_refused : forall l k r t s, nth_error l k = Some s -> err_check s = true -> step (State PStarting l k r t) (State (PStop 0) l k r t)
  (* 91-92 *)
  | st_started : forall l k r t s, nth_error l k = Some s -> err_check s = false -> step (State PStarting l k r t) (State PNext l (S k) r t)
  (* 85, 97: all are started *)
  | st_run : forall l r t, step (State PNext l count r t) (State PRun l count true t)
  (* any return of 97-181 *)
  | st_return : forall l k r t, step (State PRun l k r t) (State (PStop 0) l k r t)
  (* 80-82: Stop of the next server *)
  | st_shut : forall l k r t i s, (i < k)%nat -> nth_error l i = Some s -> s_shut s = false ->
      step (State (PStop i) l k r t) (State (PStop i) (set_nth i (shut s) l) k r t)
  (* Shutdown returns when no request is left *)
  | st_quiet : forall l k r t i s, (i < k)%nat -> nth_error l i = Some s -> s_shut s = true -> s_active s = 0%nat ->
      step (State (PStop i) l k r t) (State (PStop (S i)) l k r t)
  (* or after 20 s *)
  | st_gave_up : forall l k r t i s, (i < k)%nat -> nth_error l i = Some s -> s_shut s = true ->
      step (State (PStop i) l k r t) (State (PStop (S i)) l k r (t ++ [i]))
  (* all are stopped *)
  | st_done : forall l k r t, step (State (PStop k) l k r t) (State PDone l k r t)
  (* the goroutine and the requests of a server *)
  | st_own : forall p l k r t i s s', nth_error l i = Some s -> own_step (bindable i) s s' ->
      step (State p l k r t) (State p (set_nth i s' l) k r t).

(** Executions of lens/astexec.go:75-181 as far as servers are concerned. *)
Inductive reach : state -> Prop :=
  | re_start : reach initial
  | re_step : forall s s', reach s -> step s s' -> reach s'.
(** What can follow a state (lens/astexec.go:75-181). *)
Inductive follows (s : state) : state -> Prop :=
  | fo_same : follows s s
  | fo_step : forall s1 s2, follows s s1 -> step s1 s2 -> follows s s2.
End Servers.

(** lens/astexec.go:86: a TCP port is below 2^16 (net.Listen refuses others); [free]: no
    other process listens there. *)
Definition port_bindable (port_start : Z) (free : Z -> bool) (i : nat) : bool :=
  let p := (port_start + Z.of_nat i)%Z in (0 <=? p)%Z && (p <=? 65535)%Z && free p.

(** ** Waiting for a process *)
(** What kill(pid, 0) says (lens/astsrv.go:133-140): nil, ESRCH, another error. *)
Inductive kill_result := Alive | Gone | Odd.
(** pollErr (lens/astsrv.go:125): nil, the timeout (128), the error of kill (138). *)
Inductive poll_err := NoErr | TimedOut | KillErr.

Section Poll.
(** The timeout and the moment the deadline was computed (lens/astsrv.go:124); for the k-th
    turn of the loop the time read (127) and the answer of kill (133). Times in ms. *)
Variables (timeout begun : Z) (now : nat -> Z) (kill : nat -> kill_result).

(** lens/astsrv.go:127: the deadline has passed. *)
Definition overdue (k : nat) : bool := (0 <? timeout)%Z && (begun + timeout <? now k)%Z.
(** The loop, lens/astsrv.go:126-143, from turn [k]: the turn it ended in and pollErr;
    [None]: not within [fuel] turns. *)
Fixpoint poll (fuel k : nat) : option (nat * poll_err) :=
  match fuel with
  | O => None
  | S f => if overdue k then Some (k, TimedOut)
           else match kill k with Gone => Some (k, NoErr) | Odd => Some (k, KillErr) | Alive => poll f (S k) end
  end.
(** StopOnProcessOrTimeout, lens/astsrv.go:121-149: whether an error is returned and the turn
    after which Shutdown was called; [shut_err]: Shutdown's own error (147, 153), [serve_err]:
    the error of the server (148, 154). *)
Definition stop_on_process (fuel : nat) (shut_err serve_err : bool) : option (nat * bool) :=
  match poll fuel 0 with
  | Some (k, e) => Some (k, (match e with NoErr => false | _ => true end) || (shut_err || serve_err) || serve_err)
  | None => None
  end.
End Poll.
