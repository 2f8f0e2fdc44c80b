(** All points of one editor: which function an id was drawn for, the tables of ids that injectMonitorPoints returns
    (lens/astexec.go:301-518), and the messages of the instrumented program.  Batches are in BatchModel.v, the counter in ModifierModel.v, the
    monitor in MonitorModel.v.  Definitions only. *)
From Verif Require Import Base Maps BatchModel ModifierModel TypesModel MonitorModel.

Section Attr.
(** CallerFunction and ModuleFunction (lens/types.go:72-95), by pointer. *)
Variable P M : Type.
(** Pointers can be compared (lens/types.go:72-95). *)
Variable peq : forall a b : P, {a = b} + {a <> b}.
(** Pointers can be compared (lens/types.go:72-95). *)
Variable meq : forall a b : M, {a = b} + {a <> b}.

(** What an id is drawn for: a return of a project function (lens/asttweak.go:561, 629), its recovery (lens/astexec.go:344), the entry and the
    recovery of a changed function (lens/astexec.go:409, 422), a point of a hook (lens/astexec.go:489, 500). *)
Inductive owner := WReturn (f : P) | WPanic (f : P) | WEntry (m : M) | WModPanic (m : M) | WHook.
(** As pointers, lens/types.go:72-95. *)
Definition owner_eq (a b : owner) : {a = b} + {a <> b}.
Proof. decide equality. Defined.

(** The ids drawn for [w], [l] being all ids of the editor from the [n]-th on, [who] whom each was drawn for
    (lens/asttweak.go:399-415, 434, 561-565, 629-633). *)
Fixpoint drawn (who : nat -> owner) (n : nat) (l : list N) (w : owner) : list N :=
  match l with [] => [] | id :: l' => (if owner_eq (who n) w then [id] else []) ++ drawn who (S n) l' w end.

(** FilePath of functions (lens/astexec.go:373, 452). *)
Variable pfile : P -> bytes.
(** FilePath of functions (lens/astexec.go:373, 452). *)
Variable mfile : M -> bytes.
(** FunctionIdent (lens/astexec.go:336, 416). *)
Variable pident : P -> bytes.
(** FunctionIdent (lens/astexec.go:336, 416). *)
Variable mident : M -> bytes.
(** ReturnPanic (lens/astexec.go:320, 421). *)
Variable ppanics : P -> bool.
(** ReturnPanic (lens/astexec.go:320, 421). *)
Variable mpanics : M -> bool.
(** InjectFuncPointReturnStates (lens/astexec.go:325). *)
Variable inject_returns : P -> inj (list N).
(** InjectFuncPointPanic (lens/astexec.go:344). *)
Variable inject_panic : P -> inj N.
(** InjectFuncPointEntry (lens/astexec.go:409). *)
Variable inject_entry : M -> inj N.
(** InjectFuncPointPanic (lens/astexec.go:422). *)
Variable inject_mpanic : M -> inj N.
(** filepath.Dir, lens/astexec.go:378, 457. *)
Variable dir : bytes -> bytes.
(** InjectASTClient works (lens/astexec.go:382, 461). *)
Variable client_ok : bytes -> bool.
(** CommitFile works (lens/astexec.go:357, 436). *)
Variable commit_ok : bytes -> bool.

(** The editor draws ids for the functions it is called for and returns them: for all of a function's returns (lens/asttweak.go:565, 633, 690),
    for its recovery if it got return points (lens/astexec.go:320-344), for the entry of a changed function and then its recovery (lens/astexec.go:409-422),
    one per point (lens/asttweak.go:434-440).  ErrNoFunctionBody comes before drawing (lens/asttweak.go:431, 523). *)
Definition returns_drawn (who : nat -> owner) (l : list N) : Prop :=
  (forall f, drawn who 0 l (WReturn f) = if ppanics f then [] else match inject_returns f with JOk ids => ids | _ => [] end) /\
  (forall f, drawn who 0 l (WPanic f) = if ppanics f then [] else match inject_returns f, inject_panic f with JOk (_ :: _), JOk id => [id] | _, _ => [] end) /\
  (forall m, drawn who 0 l (WEntry m) = match inject_entry m with JOk id => [id] | _ => [] end) /\
  (forall m, drawn who 0 l (WModPanic m) = if mpanics m then [] else match inject_entry m, inject_mpanic m with JOk _, JOk id => [id] | _, _ => [] end).

(** The maps of the module's batches, in the order they finish (lens/astexec.go:440-444). *)
Fixpoint merge_modules (order : list (list M)) : option (list (N * bytes) * list (N * bytes)) :=
  match order with
  | [] => Some ([], [])
  | b :: rest =>
      match handle_module M mfile mident mpanics inject_mpanic inject_entry commit_ok b, merge_modules rest with
      | Some (s, p), Some (s', p') => Some (s ++ s', p ++ p')
      | _, _ => None
      end
  end.

(** A hook (lens/astexec.go:487-512): not set, failing, or giving a map, nil if none. *)
Inductive hook := HNone | HFail | HMap (t : option (list (N * bytes))).
(** lens/astexec.go:484-513: the points of both hooks; an error if one fails. *)
Definition hook_points (pre post : hook) : option (option (list (N * bytes))) :=
  match pre with
  | HFail => None
  | _ =>
      let t := match pre with HMap t => t | _ => None end in
      match post with
      | HNone => Some t
      | HFail => None
      | HMap t' => match t with None => Some t' | Some l => Some (Some (l ++ match t' with Some l' => l' | None => [] end)) end
      end
  end.

(** What injectMonitorPoints returns, lens/astexec.go:516-517. *)
Record tables := Tables { t_state : list (N * bytes); t_panic : list (N * bytes); t_entry : list (N * bytes); t_mpanic : list (N * bytes); t_hook : list (N * bytes) }.
(** lens/astexec.go:301-518, on the sorted functions (367-369, 445-447); [order] and [morder] are the batches in the order they finish
    (395, 473-475); the first error is returned after all have ended (480-482). *)
Definition inject_all (ps : list P) (ms : list M) (order : list (list P)) (morder : list (list M)) (pre post : hook) : option tables :=
  if forallb client_ok (snd (batch_run P pfile dir ps)) && forallb client_ok (snd (batch_run M mfile dir ms)) then
    match merge_batches P pfile pident ppanics inject_returns inject_panic commit_ok order, merge_modules morder, hook_points pre post with
    | Some (s, p), Some (e, q), Some h => Some (Tables s p e q (match h with Some t => t | None => [] end))
    | _, _, _ => None
    end
  else None.

(** The monitor of one test (lens/astexec.go:578-604, 690-835, 880-894) with these tables. *)
Definition monitors (t : tables) (stripe : bytes -> nat) (key : cframe -> bytes) (stable : option (bytes -> option (list cframe))) : mstate -> list mlabel -> mstate -> Prop :=
  mexec (lookup_point (t_hook t)) (lookup_point (t_state t)) (lookup_point (t_panic t)) (lookup_point (t_mpanic t)) stripe key stable.
End Attr.
Arguments WReturn {P M}. Arguments WPanic {P M}. Arguments WEntry {P M}. Arguments WModPanic {P M}. Arguments WHook {P M}.
