(** Model of the loop that runs the selected tests against the monitor servers
    (runMonitoredTestAnalysis, lens/astexec.go:184-299, and runMonitoredTest,
    lens/astexec.go:520-566).  Definitions only.

    Goroutines take atomic steps in any order.  Injection and restoring of the
    points (lines 190-213) are modelled elsewhere; logging is left out.  What the
    go command and the tests do is arbitrary: an outcome is part of the step. *)
From Verif Require Import Base Maps.

Section TestRun.
(** TestResult, lens/types.go:146-163. *)
Variable R : Type.
(** testResultStableFields, lens/astexec.go:563, 937-1028. *)
Variable combine : R -> R -> R.
(** Errors, lens/astexec.go:222-260. *)
Variable E : Type.
(** testResult.marshalMsgpack, lens/astexec.go:256. *)
Variable enc : R -> bytes.
(** len(testFunctions), lens/astexec.go:220. *)
Variable ntests : nat.
(** tFunc.FunctionIdent, lens/astexec.go:227, 258. *)
Variable ident : nat -> bytes.
(** The servers put in the channel, lens/astexec.go:75-95; its capacity is their number. *)
Variable servers : list nat.
(** postUpdateExtensionConfig != nil, lens/astexec.go:245. *)
Variable force : bool.
(** stableResultsStorage != nil, lens/astexec.go:226. *)
Variable update : bool.

(** What one run of a test gives: result, number of field checks, module functions
    reached (lens/astexec.go:536-538). *)
Definition outcome : Type := R * N * list bytes.

(** The result of the runs of a test, lens/astexec.go:541-544, 563-565. *)
Definition final (os : list outcome) : option outcome :=
  match os with
  | [o] => Some o
  | [(r1, c1, l1); (r2, c2, _)] => Some (combine r1 r2, N.min c1 c2, l1)
  | _ => None
  end.

(** Where a call of testFunc is (lens/astexec.go:222-288): not started; waiting for
    a server (223); reading the results before the update (225-241); in front of
    SetPointHandler (526, 549); running the test process (531, 557); storing (254-262);
    in front of the totals (264); returning the server (224); returned.  [st] says
    whether results before the update were found, [os] the runs made so far. *)
Inductive phase :=
  | PIdle
  | PWait
  | PLoad (s : nat)
  | PSet (s : nat) (st : bool) (os : list outcome)
  | PExec (s : nat) (st : bool) (os : list outcome)
  | PSave (s : nat) (os : list outcome)
  | PCommit (s : nat) (os : list outcome)
  | PPut (s : nat) (e : option E)
  | PDone (e : option E).

(** The loop: about to start the next test, waiting for the first one
    (lens/astexec.go:289-292), returned (298). *)
Inductive mphase := MLoop | MFirst | MRet (e : option E).

(** The loop, the next test, the channel, the tests, the handler of each server (the
    test and the number of its run, lens/astsrv.go:113-116), the stored results, the
    totals (lens/astexec.go:215-216), the error of the group (218), and the messages
    recorded: by which handler, sent by which run. *)
Record state := {
  t_main : mphase;
  t_next : nat;
  t_chan : list nat;
  t_tests : nat -> phase;
  t_handler : nat -> option (nat * nat);
  t_store : amap bytes;
  t_total : N;
  t_reached : list bytes;
  t_err : option E;
  t_rec : list ((nat * nat) * (nat * nat)) }.

(** Steps, numbered by the lines of lens/astexec.go they stand for: 220-296 start a
    test; 290-292 the first test has returned; 223; 227-241 (an error, or whether results were
    found); 526, 549; 531-538, 557-561; 256-262 (an error may leave anything under the key);
    264-287; 224; 297; and the arrival of a message of a run at a server (lens/astsrv.go:156-234). *)
Inductive event :=
  | EStart
  | EFirst
  | ETake (i : nat)
  | ELoad (i : nat) (r : E + bool)
  | ESet (i : nat) (err : option E)
  | EExec (i : nat) (o : outcome)
  | ESave (i : nat) (err : option (E * option bytes))
  | ECommit (i : nat)
  | EPut (i : nat)
  | EWait
  | EMsg (s : nat) (sender : nat * nat).

(** The state before the loop, lens/astexec.go:215-219. *)
Definition init : state :=
  {| t_main := MLoop; t_next := 0; t_chan := servers; t_tests := fun _ => PIdle; t_handler := fun _ => None;
     t_store := []; t_total := 0; t_reached := []; t_err := None; t_rec := [] |}.

(** One goroutine of lens/astexec.go:222-288 moves on. *)
Definition set_test (st : state) (i : nat) (p : phase) : state :=
  {| t_main := t_main st; t_next := t_next st; t_chan := t_chan st;
     t_tests := fun j => if j =? i then p else t_tests st j;
     t_handler := t_handler st; t_store := t_store st; t_total := t_total st; t_reached := t_reached st;
     t_err := t_err st; t_rec := t_rec st |}.

(** Whether a goroutine of the group runs (errgroup, lens/astexec.go:294). *)
Definition active (p : phase) : bool := match p with PIdle | PDone _ => false | _ => true end.
(** How many goroutines of the group run; the first test is none of them
    (lens/astexec.go:219, 289-295). *)
Definition running (st : state) : nat := length (filter (fun i => active (t_tests st i)) (seq 1 (t_next st - 1))).

(** lens/storage.go:22-32 as used at lens/astexec.go:258: what a failed save leaves. *)
Definition save_to (m : amap bytes) (k : bytes) (v : option bytes) : amap bytes :=
  match v with Some b => mset k b m | None => mdel k m end.

(** One step, lens/astexec.go:220-298, 524-565. *)
Definition step (st : state) (e : event) : option state :=
  match e with
  | EStart =>
    match t_main st with
    | MLoop =>
      if t_next st <? ntests then
        if (t_next st =? 0) || (running st <? length servers) then
          Some {| t_main := if t_next st =? 0 then MFirst else MLoop; t_next := S (t_next st); t_chan := t_chan st;
                  t_tests := fun j => if j =? t_next st then PWait else t_tests st j;
                  t_handler := t_handler st; t_store := t_store st; t_total := t_total st; t_reached := t_reached st;
                  t_err := t_err st; t_rec := t_rec st |}
        else None
      else None
    | _ => None
    end
  | EFirst =>
    match t_main st, t_tests st 0 with
    | MFirst, PDone r =>
      Some {| t_main := match r with Some x => MRet (Some x) | None => MLoop end; t_next := t_next st; t_chan := t_chan st;
              t_tests := t_tests st; t_handler := t_handler st; t_store := t_store st; t_total := t_total st;
              t_reached := t_reached st; t_err := t_err st; t_rec := t_rec st |}
    | _, _ => None
    end
  | ETake i =>
    match t_tests st i, t_chan st with
    | PWait, s :: rest =>
      Some {| t_main := t_main st; t_next := t_next st; t_chan := rest;
              t_tests := fun j => if j =? i then PLoad s else t_tests st j;
              t_handler := t_handler st; t_store := t_store st; t_total := t_total st; t_reached := t_reached st;
              t_err := t_err st; t_rec := t_rec st |}
    | _, _ => None
    end
  | ELoad i r =>
    match t_tests st i with
    | PLoad s =>
      match r with
      | inl x => if update then Some (set_test st i (PPut s (Some x))) else None
      | inr found => Some (set_test st i (PSet s (update && found) []))
      end
    | _ => None
    end
  | ESet i err =>
    match t_tests st i with
    | PSet s b os =>
      match err with
      | Some x => Some {| t_main := t_main st; t_next := t_next st; t_chan := t_chan st;
              t_tests := fun j => if j =? i then PPut s (Some x) else t_tests st j;
              t_handler := fun s' => if s' =? s then Some (i, length os) else t_handler st s';
              t_store := t_store st; t_total := t_total st; t_reached := t_reached st; t_err := t_err st; t_rec := t_rec st |}
      | None => Some {| t_main := t_main st; t_next := t_next st; t_chan := t_chan st;
              t_tests := fun j => if j =? i then PExec s b os else t_tests st j;
              t_handler := fun s' => if s' =? s then Some (i, length os) else t_handler st s';
              t_store := t_store st; t_total := t_total st; t_reached := t_reached st; t_err := t_err st; t_rec := t_rec st |}
      end
    | _ => None
    end
  | EExec i o =>
    match t_tests st i with
    | PExec s b os =>
      match os with
      | [] => if b && negb force then Some (set_test st i (PSave s [o])) else Some (set_test st i (PSet s b [o]))
      | _ => Some (set_test st i (PSave s (os ++ [o])))
      end
    | _ => None
    end
  | ESave i err =>
    match t_tests st i with
    | PSave s os =>
      match final os, err with
      | Some (r, _, _), None =>
        let st' := set_test st i (PCommit s os) in
        Some {| t_main := t_main st'; t_next := t_next st'; t_chan := t_chan st'; t_tests := t_tests st'; t_handler := t_handler st';
                t_store := mset (ident i) (enc r) (t_store st'); t_total := t_total st'; t_reached := t_reached st';
                t_err := t_err st'; t_rec := t_rec st' |}
      | Some _, Some (x, v) =>
        let st' := set_test st i (PPut s (Some x)) in
        Some {| t_main := t_main st'; t_next := t_next st'; t_chan := t_chan st'; t_tests := t_tests st'; t_handler := t_handler st';
                t_store := save_to (t_store st') (ident i) v; t_total := t_total st'; t_reached := t_reached st';
                t_err := t_err st'; t_rec := t_rec st' |}
      | None, _ => None
      end
    | _ => None
    end
  | ECommit i =>
    match t_tests st i with
    | PCommit s os =>
      match final os with
      | Some (_, c, l) =>
        let st' := set_test st i (PPut s None) in
        Some {| t_main := t_main st'; t_next := t_next st'; t_chan := t_chan st'; t_tests := t_tests st'; t_handler := t_handler st';
                t_store := t_store st'; t_total := t_total st' + c; t_reached := t_reached st' ++ l;
                t_err := t_err st'; t_rec := t_rec st' |}
      | None => None
      end
    | _ => None
    end
  | EPut i =>
    match t_tests st i with
    | PPut s r =>
      Some {| t_main := t_main st; t_next := t_next st; t_chan := t_chan st ++ [s];
              t_tests := fun j => if j =? i then PDone r else t_tests st j;
              t_handler := t_handler st; t_store := t_store st; t_total := t_total st; t_reached := t_reached st;
              t_err := if i =? 0 then t_err st else match t_err st with Some x => Some x | None => r end; t_rec := t_rec st |}
    | _ => None
    end
  | EWait =>
    match t_main st with
    | MLoop =>
      if (t_next st =? ntests) && (running st =? 0) then
        Some {| t_main := MRet (t_err st); t_next := t_next st; t_chan := t_chan st; t_tests := t_tests st; t_handler := t_handler st;
                t_store := t_store st; t_total := t_total st; t_reached := t_reached st; t_err := t_err st; t_rec := t_rec st |}
      else None
    | _ => None
    end
  | EMsg s sender =>
    match t_handler st s with
    | Some h =>
      Some {| t_main := t_main st; t_next := t_next st; t_chan := t_chan st; t_tests := t_tests st; t_handler := t_handler st;
              t_store := t_store st; t_total := t_total st; t_reached := t_reached st; t_err := t_err st;
              t_rec := t_rec st ++ [(h, sender)] |}
    | None => None
    end
  end.

(** Executions, any interleaving of lens/astexec.go:220-298. *)
Fixpoint exec (st : state) (tr : list event) : option state :=
  match tr with
  | [] => Some st
  | e :: tr' => match step st e with Some st' => exec st' tr' | None => None end
  end.
End TestRun.

(** serverCount, lens/astexec.go:75; [ncpu] is runtime.NumCPU(). *)
Definition server_count (ncpu ntests : nat) : nat := Nat.min (Nat.min (Nat.max 1 (ncpu / 2)) ntests) 64.
(** The servers started, named by their ports, lens/astexec.go:85-95; a server that does
    not start ends the analysis before the loop. *)
Definition started (port_start ncpu ntests : nat) : list nat :=
  map (fun i => (port_start + i)%nat) (seq 0 (server_count ncpu ntests)).
