(** What C94 says about go statements, independent of the rewriting. *)
From Verif Require Import Base Maps InstrModel RewriteModel GoStmtModel.

Section Spec.
Context {St V C X : Type}.
(** As in [GoStmtModel]: evaluating an operand (lens/asttweak.go:1092-1096, 1142-1146, 1152-1156). *)
Variable ev : amap V -> nd -> St -> St -> option V -> Prop.
(** States the program keeps to (a property of the code under test, which lens/asttweak.go:843-879 does not look
    into). *)
Variable Inv : St -> Prop.

(** Evaluating does nothing but give a value, the same one in all states the program keeps to. *)
Definition gives (env : amap V) (e : nd) (v : V) : Prop :=
  forall s s' o, Inv s -> (ev env e s s' o <-> s' = s /\ o = Some v).
(** Only variables with generated names are added (syntheticFieldNamePrefixReceiver and -Arg,
    lens/asttweak.go:1089, 1140). *)
Definition added (env : amap V) : Prop :=
  forall x, In x (map fst env) -> exists p, x = recv_var p \/ exists i, x = arg_var p i.
(** The operand does not depend on anything that changes, nor on the generated names. *)
Definition steady (e : nd) (v : V) : Prop := forall env, added env -> gives env e v.
(** Nor does a captured receiver. *)
Definition steady_recv (pkgs : list bytes) (fn : nd) : Prop :=
  match fn with
  | Nd (KSel _) [Nd (KId x) []] => x = B "_" \/ In x pkgs \/ exists v, steady (name x) v
  | Nd (KSel _) [x] => exists v, steady x v
  | _ => True
  end.
(** All operands of a call. *)
Definition steady_call (pkgs : list bytes) (call : nd) (f : V) (vs : list V) : Prop :=
  exists m k fn args, call = Nd (KCall m k) (fn :: args) /\ steady fn f /\ steady_recv pkgs fn /\ Forall2 steady args vs.

(** Law of Go: an added variable has the value it was given. *)
Definition local_law : Prop := forall env x v, mget x env = Some v -> gives env (name x) v.
(** The receivers may be copied: selecting from an equal value is the same. *)
Definition copy_law : Prop := forall env m x y v, gives env x v -> gives env y v ->
  forall s s' o, Inv s -> (ev env (Nd (KSel m) [x]) s s' o <-> ev env (Nd (KSel m) [y]) s s' o).

(** A message that shows arg0, arg1, ... with these values, perhaps behind a receiver. *)
Definition shows (sh : list (bytes * V)) (vs : list V) : Prop :=
  exists rv, (length rv <= 1)%nat /\ sh = rv ++ combine (map (fun i => B "arg" ++ num i) (seq 0 (length vs))) vs.
(** The messages of a run, the arguments of the calls it starts, and what is seen without messages. *)
Definition messages (es : list (event V X)) : list (list (bytes * V)) :=
  flat_map (fun e => match e with EMsg _ sh => [sh] | _ => [] end) es.
Definition calls (es : list (event V X)) : list (list V) :=
  flat_map (fun e => match e with ECall _ vs => [vs] | _ => [] end) es.
Definition quiet (es : list (event V X)) : list (event V X) :=
  filter (fun e => match e with EMsg _ _ => false | _ => true end) es.
End Spec.
