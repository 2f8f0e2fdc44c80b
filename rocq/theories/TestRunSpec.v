(** What is claimed about the loop over the tests: read off a trace, not off the state. *)
From Verif Require Import Base Maps TestRunModel.

Section Spec.
(** As in the model: TestResult (lens/types.go:146-163), errors, testResultStableFields
    (lens/astexec.go:563, 937-1028), the number of tests and their identifiers
    (lens/astexec.go:220-258). *)
Context {R E : Type} (combine : R -> R -> R) (ntests : nat) (ident : nat -> bytes).

(** The runs of a test in a trace. *)
Definition outs (tr : list (event R E)) (i : nat) : list (outcome R) :=
  flat_map (fun e => match e with EExec _ _ j o => if j =? i then [o] else [] | _ => [] end) tr.
(** Results from before the update were found for the test. *)
Definition found (tr : list (event R E)) (i : nat) : Prop := In (ELoad _ _ i (inr true)) tr.
(** The test that has server [s]. *)
Definition holds (p : phase R E) (s : nat) : Prop :=
  match p with
  | PLoad _ _ s' | PSet _ _ s' _ _ | PExec _ _ s' _ _ | PSave _ _ s' _ | PCommit _ _ s' _ | PPut _ _ s' _ => s' = s
  | _ => False
  end.
(** What the runs of a test amount to. *)
Inductive amounts : list (outcome R) -> R -> N -> list bytes -> Prop :=
  | am_one r c l : amounts [(r, c, l)] r c l
  | am_two r1 c1 l1 r2 c2 l2 : amounts [(r1, c1, l1); (r2, c2, l2)] (combine r1 r2) (N.min c1 c2) l1.
(** Its field checks and the module functions it reached. *)
Definition chk (os : list (outcome R)) : N :=
  match os with [(_, c, _)] => c | [(_, c1, _); (_, c2, _)] => N.min c1 c2 | _ => 0 end.
Definition rch (os : list (outcome R)) : list bytes :=
  match os with [(_, _, l)] => l | [(_, _, l); _] => l | _ => [] end.
Definition sumN (f : nat -> N) (l : list nat) : N := fold_right (fun i a => (f i + a)%N) 0%N l.
(** No two tests have the same identifier. *)
Definition distinct : Prop := forall i j, (i < ntests)%nat -> (j < ntests)%nat -> ident i = ident j -> i = j.
(** Messages are no steps of the loop. *)
Definition is_msg (e : event R E) : bool := match e with EMsg _ _ _ _ => true | _ => false end.
(** A message arrives while the process of the run that sent it has the server. *)
Definition well_sent (st : state R E) (e : event R E) : Prop :=
  match e with EMsg _ _ s (i, k) => exists b os, t_tests _ _ st i = PExec _ _ s b os /\ length os = k | _ => True end.
End Spec.
