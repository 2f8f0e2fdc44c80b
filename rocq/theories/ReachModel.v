(** How the messages of a test process find the monitor server of that test
    (lens/astclient.go:44-59, 137-190; lens/astsrv.go:72-107; lens/astexec.go:75-95, 243;
    lens/exec.go:16-51, 78-85).  Definitions only. *)
From Verif Require Import Base Maps UtilModel WireModel TemplateModel.

(** ** Servers *)
(** lensMonitorServerHost, lens/astclient.go:23. *)
Definition monitor_host : bytes := B "127.0.0.1".
(** The address of a server (lens/astsrv.go:82, 90). *)
Definition server_addr (host : bytes) (port : Z) : bytes := host ++ B ":" ++ zitoa port.
(** strings.Cut(s, ":") (lens/astsrv.go:73): the text after the first colon, empty if there
    is none. *)
Fixpoint after_colon (s : bytes) : bytes :=
  match s with [] => [] | c :: s' => if Ascii.eqb c ":"%char then s' else after_colon s' end.
(** strconv.Atoi (lens/astsrv.go:74, lens/astclient.go:47); [None] is an error. *)
Definition atoi_signed (s : bytes) : option Z :=
  let num (neg : bool) (t : bytes) :=
    match atoi t with
    | Some n => let z := if neg then (- Z.of_N n)%Z else Z.of_N n in
                if ((- 2 ^ 63 <=? z) && (z <? 2 ^ 63))%Z then Some z else None
    | None => None
    end in
  match s with
  | "-"%char :: t => num true t
  | "+"%char :: t => num false t
  | _ => num false s
  end.
(** Port (lens/astsrv.go:72-76): zero when the text is not a number; out of range is left
    out. *)
Definition server_port (addr : bytes) : Z := match atoi_signed (after_colon addr) with Some p => p | None => 0%Z end.

(** The number of servers (lens/astexec.go:76). *)
Definition server_count (cpus tests : nat) : nat := Nat.min (Nat.min (Nat.max 1 (Nat.div cpus 2)) tests) 64.
(** The addresses of the servers (lens/astexec.go:86-87). *)
Definition server_addrs (port_start : Z) (cpus tests : nat) : list bytes :=
  map (fun i => server_addr monitor_host (port_start + Z.of_nat i)) (seq 0 (server_count cpus tests)).

(** ** The environment of the test process *)
(** GoEnv (lens/exec.go:16-25). *)
Definition go_env (gopath gomodcache : bytes) : list bytes :=
  (if beq gopath [] then [] else [B "GOPATH=" ++ gopath]) ++
  (if beq gomodcache [] then [] else [B "GOMODCACHE=" ++ gomodcache]).
(** The environment of a monitored test (lens/astexec.go:243, lens/exec.go:31). *)
Definition test_env (environ : list bytes) (gopath gomodcache addr : bytes) : list bytes :=
  merge_safe_env environ ((B "LENS_MONITOR_PORT=" ++ zitoa (server_port addr)) :: go_env gopath gomodcache).
(** os.Getenv in the process started with these entries (lens/astclient.go:46): os/exec keeps
    the last entry of a name; empty if there is none. *)
Definition getenv (k : bytes) (env : list bytes) : bytes :=
  fold_left (fun v e => if has_prefix (k ++ B "=") e then skipn (S (length k)) e else v) env [].

(** ** The client *)
(** init (lens/astclient.go:44-54): the base of the endpoints, or a panic. *)
Definition client_base (const_port : Z) (env : list bytes) : option bytes :=
  let o := getenv (B "LENS_MONITOR_PORT") env in
  match (match o with [] => Some const_port | _ => atoi_signed o end) with
  | Some port => Some (B "http://" ++ monitor_host ++ B ":" ++ zitoa port)
  | None => None
  end.
(** lens/astclient.go:55-58. *)
Definition endpoint (base path : bytes) : bytes := base ++ path.

(** captureLensMonitorStack (lens/astclient.go:138-155): of the frames of the goroutine,
    innermost first, those after the first [skip], at most 2048; an empty frame if there
    are none.  Inlined calls have frames of their own. *)
Definition capture_stack (skip : nat) (frames : list frame) : list frame :=
  match firstn 2048 (skipn skip frames) with
  | [] => [mkFrame [] [] 0]
  | l => l
  end.

(** What net/http gives for a request (lens/astclient.go:159, 184): a status, or an error. *)
Inductive reply := RStatus (code : N) | RFailed.
(** postLensMonitorMessage (lens/astclient.go:158-169) with sendLensError (172-195): the
    requests made, in order, as endpoint and body, and what is printed.  [net] answers the
    requests by their number; [err] is the body of the error message. *)
Definition failed (r : reply) : bool := match r with RStatus c => (300 <=? c)%N | RFailed => true end.
(** lens/astclient.go:158-195. *)
Definition post_message (net : nat -> reply) (url : bytes) (body : bytes) (error_url : bytes) (err : reply -> bytes) :
    list (bytes * bytes) * bool :=
  let r := net 0%nat in
  if failed r then ([(url, body); (error_url, err r)], failed (net 1%nat))
  else ([(url, body)], false).
