(** Model of loading the packages of a project for the call graph: LoadProjectCallGraph
    after the patterns (lens/static.go:327-379).  Definitions only.  The patterns are in
    [WorkModel.graph_patterns]. *)
From Verif Require Import Base.

Section Load.
(** packages.Package by number.  Its types, if it has both types and type information
    (lens/static.go:350): a pointer, which [created] is keyed by (338, 352, 363). *)
Variable types_of : nat -> option nat.
(** The packages it imports, in the order in which Go happens to iterate the map
    (lens/static.go:366). *)
Variable imports : nat -> list nat.
(** projectPkgSet: the packages that packages.Load answered (lens/static.go:341-345). *)
Variable project : list nat.

(** The types packages were created for, oldest first, and modulePkgs (lens/static.go:338-339). *)
Record lstate := LS { created : list nat; modules : list nat }.

(** The loop over a list of packages (lens/static.go:366-368, 374-376); [None] when out of fuel. *)
Fixpoint each (f : nat -> lstate -> option lstate) (l : list nat) (st : lstate) : option lstate :=
  match l with
  | [] => Some st
  | q :: l' => match f q st with Some st1 => each f l' st1 | None => None end
  end.

(** createAll (lens/static.go:348-371). *)
Fixpoint create_all (fuel : nat) (p : nat) (st : lstate) : option lstate :=
  match fuel with
  | O => None
  | S fuel' =>
    match types_of p with
    | None => Some st
    | Some t =>
      if existsb (Nat.eqb t) (created st) then Some st
      else each (create_all fuel') (imports p)
             (LS (created st ++ [t]) (if existsb (Nat.eqb p) project then modules st else modules st ++ [p]))
    end
  end.

(** What LoadProjectCallGraph answers: an error, nothing at all, or the packages created for
    the program, whose call graph is that of the whole program, and the module packages.
    [loaded] is false when packages.Load fails, [errors] is what packages.PrintErrors counts
    (lens/static.go:327-379). *)
Inductive load_result := LFuel | LError | LNothing | LGraph (st : lstate).
(** lens/static.go:327-379. *)
Definition load_graph (fuel : nat) (loaded : bool) (errors : nat) : load_result :=
  if negb loaded then LError
  else if (0 <? errors)%nat then LError
  else match project with
       | [] => LNothing
       | _ => match each (create_all fuel) project (LS [] []) with Some st => LGraph st | None => LFuel end
       end.
End Load.
