(** A captured point from the program under test to the frame kept of it: the client takes the values (ClientModel.v), the message is
    written, sent and read (WireModel.v), and the monitor makes a frame of it (MonitorModel.v).  The comparison of frames is in
    CompareModel.v, the accounting of messages in MonitorModel.v.  Definitions only. *)
From Verif Require Import Base Maps WireModel ClientModel TypesModel StableModel MonitorModel.
Local Open Scope N_scope.

Section Pipe.
(** utf8.Valid (lens/astclient.go:462-470), fmt.Sprint of a received value and base91 of SHA-1 (lens/astexec.go:865-868), the trimming of file
    names (lens/astexec.go:744, optional as in MonitorModel.v). *)
Variable utf8 : bytes -> bool.
(** lens/astexec.go:865. *)
Variable sprint : prim -> bytes.
(** lens/astexec.go:866-868. *)
Variable digest : bytes -> bytes.
(** lens/astexec.go:744. *)
Variable trim : bytes -> option bytes.
(** lensMonitorFieldMaxLen and lensMonitorFieldMaxRecurse (lens/astclient.go:22-27), and the bound on dereferences of ClientModel.v. *)
Variable maxlen : N.
(** lens/astclient.go:22-27. *)
Variable maxrec ufuel : nat.

(** A call of a state point (lens/astclient.go:86-100): the memory, the id, the time, the stack, the named values. *)
Record capture := Capture { c_heap : heap; c_id : N; c_time : Z; c_stack : list frame; c_snaps : list (bytes * rv) }.

(** lens/astclient.go:86-111, lens/astsrv.go:177-195, lens/astexec.go:735-754, 808-815.  [None]: nothing is kept. *)
Definition recorded (c : capture) : option cframe :=
  match send_state (c_heap c) utf8 maxlen ufuel maxrec (c_id c) (c_time c) (c_stack c) (c_snaps c) with
  | None => None
  | Some m =>
    match serve maxlen (post m) with
    | Served 200 (Some (EvState st)) => state_frame trim (fun fs => collect_all sprint digest [] fs []) st
    | _ => None
    end
  end.
End Pipe.
