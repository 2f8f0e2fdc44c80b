(** The runs of one test before and after the update (runMonitoredTest, lens/astexec.go:520-566, makeTestResult, 896-909), with the results
    stored before the update as a filter after it (225-241, 757-833).  The monitor is in MonitorModel.v, the comparison of two runs in
    StableModel.v, the loop over the tests in TestRunModel.v.  Definitions only. *)
From Verif Require Import Base Maps TypesModel StableModel MonitorModel.

(** makeTestResult, lens/astexec.go:896-909; Minimum, lens/types.go:130-135. *)
Definition make_result (ident name : bytes) (st : mstate) (failed : bool) : tresult :=
  TResult ident name (Some (m_callers st)) (Some (m_ppanics st)) (Some (m_mpanics st)) (Z.of_nat (reach_count st)) failed (Some (m_exts st)).

(** The filter given to the monitor, lens/astexec.go:225-241: the result loaded, if there is one; a nil map filters nothing (759-761). *)
Definition filter_of (loaded : option tresult) : option (bytes -> option (list cframe)) :=
  match loaded with
  | None => None
  | Some r => match tr_callers r with None => None | Some m => Some (fun k => mget k m) end
  end.

(** The result of runMonitoredTest, lens/astexec.go:520-566, from the monitors and the failures of its runs; the second run is made
    without a filter (547). *)
Definition test_result (sha1 : bytes -> bytes) (loaded : option tresult) (force : bool) (ident name : bytes) (run1 run2 : mstate * bool) : tresult :=
  let r1 := make_result ident name (fst run1) (snd run1) in
  match loaded, force with
  | Some _, false => r1
  | _, _ => stable_result sha1 r1 (make_result ident name (fst run2) (snd run2))
  end.
