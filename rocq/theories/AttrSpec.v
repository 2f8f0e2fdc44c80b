(** What an instrumented program does and sends, by the functions it does it in. *)
From Verif Require Import Base Maps BatchModel TypesModel MonitorModel AttrModel.

Section Spec.
(** The functions of the project and of the module, and their identifiers
    (lens/astexec.go:316-420). *)
Variable P M : Type.
(** FunctionIdent, lens/astexec.go:336, 416; lens/types.go:39-40. *)
Variable pident : P -> bytes.
(** FunctionIdent, lens/astexec.go:336, 416; lens/types.go:39-40. *)
Variable mident : M -> bytes.

(** [id] is one of the ids [l] and was drawn for [w]. *)
Definition drawn_for (who : nat -> owner P M) (l : list N) (id : N) (w : owner P M) : Prop := exists n, nth_error l n = Some id /\ who n = w.
(** The map a hook gives, and the key a point of a hook has: that of the second hook if it has one for it. *)
Definition hook_map (h : hook) : list (N * bytes) := match h with HMap (Some l) => l | _ => [] end.
Definition hooked_for (pre post : hook) (id : N) (k : bytes) : Prop :=
  In (id, k) (hook_map post) \/ ~ In id (map fst (hook_map post)) /\ In (id, k) (hook_map pre).

(** A program event: a project function returns with values, or panics; a changed function is entered, or panics; a point of a hook is passed. *)
Inductive pev := VReturn (f : P) (fr : cframe) | VPanic (f : P) (text : bytes) | VEntry (m : M) | VModPanic (m : M) (text : bytes) | VHook (k : bytes) (fr : cframe).

(** The message sent at an event: with an id drawn for the function; at a hook's point, with an id the hook gave for the key. *)
Inductive sends (who : nat -> owner P M) (l : list N) (ps : list P) (ms : list M) (pre post : hook) : pev -> mmsg -> Prop :=
| sn_return f fr id : In f ps -> drawn_for who l id (WReturn f) -> sends who l ps ms pre post (VReturn f fr) (MState id fr)
| sn_panic f t id : In f ps -> drawn_for who l id (WPanic f) -> sends who l ps ms pre post (VPanic f t) (MPanic id t)
| sn_entry m id : In m ms -> drawn_for who l id (WEntry m) -> sends who l ps ms pre post (VEntry m) (MPoint id)
| sn_mpanic m t id : In m ms -> drawn_for who l id (WModPanic m) -> sends who l ps ms pre post (VModPanic m t) (MPanic id t)
| sn_hook k fr id : hooked_for pre post id k -> sends who l ps ms pre post (VHook k fr) (MState id fr).

(** The values with which functions of an identifier returned, in order; what was seen at the points of a key; panics. *)
Definition returned (k : bytes) (es : list pev) : list cframe := flat_map (fun e => match e with VReturn f fr => if beq (pident f) k then [fr] else [] | _ => [] end) es.
Definition seen_at (k : bytes) (es : list pev) : list cframe := flat_map (fun e => match e with VHook k' fr => if beq k' k then [fr] else [] | _ => [] end) es.
Definition panicked (k : bytes) (es : list pev) : list bytes := flat_map (fun e => match e with VPanic f t => if beq (pident f) k then [t] else [] | _ => [] end) es.
Definition mod_panicked (k : bytes) (es : list pev) : list bytes := flat_map (fun e => match e with VModPanic m t => if beq (mident m) k then [t] else [] | _ => [] end) es.
(** The changed functions entered. *)
Definition entered (es : list pev) : list M := flat_map (fun e => match e with VEntry m => [m] | _ => [] end) es.
(** Events with values. *)
Definition captures (es : list pev) : nat := length (filter (fun e => match e with VReturn _ _ | VHook _ _ => true | _ => false end) es).
End Spec.
Arguments VReturn {P M}. Arguments VPanic {P M}. Arguments VEntry {P M}. Arguments VModPanic {P M}. Arguments VHook {P M}.
