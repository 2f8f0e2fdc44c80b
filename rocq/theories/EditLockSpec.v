(** What C97 says about the locks of the editor. *)
From Verif Require Import Base Maps EditLockModel.

Section Spec.
Context {E : Type}.
(** The edits among the calls of a goroutine. *)
Definition edits_of (cs : list (@call E)) : list (bytes * E) := flat_map (fun c => match c with CEdit p e => [(p, e)] | _ => [] end) cs.
(** Every edit is followed by a CommitFile of its file. *)
Fixpoint followed (cs : list (@call E)) : Prop :=
  match cs with
  | [] => True
  | CEdit p _ :: cs' => In (CCommitFile p) cs' /\ followed cs'
  | _ :: cs' => followed cs'
  end.
(** All calls have returned. *)
Definition over (s : @state E) : Prop := forall t, In t (threads s) -> t = (Idle, []).
(** The edits made to a file, in order, and those of a goroutine. *)
Definition made_to (s : @state E) (p : bytes) : list E := flat_map (fun x => if beq p (fst (snd x)) then [snd (snd x)] else []) (made (shared s)).
Definition made_by (s : @state E) (i : nat) : list (bytes * E) := flat_map (fun x => if Nat.eqb i (fst x) then [snd x] else []) (made (shared s)).
(** What the file has become: the parsed file when there is one, else what is on disk. *)
Definition text (s : @state E) (p : bytes) : list E := match loaded (shared s) p with Some r => heap (shared s) p r | None => disk (shared s) p end.
End Spec.
