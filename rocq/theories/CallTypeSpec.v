(** When a call and the statements put in front of it compile, after the Go
    language specification.  Nothing here transcribes code of the repository;
    the syntax is that of RewriteModel.v.

    What the rewriting never looks into stays arbitrary: the types, the
    untyped constants, the typing of expressions, and what can be called with
    which parameters.  Calls of generic functions whose type arguments are
    found from the arguments are left out: parameters have types here. *)

From Verif Require Import Base InstrModel CompileSpec RewriteModel.

(** What can be called: the types of its parameters, and of a variadic one the
    element and the slice type. *)
Record sig (T : Type) := Sig { fixed : list T; more : option (T * T) }.
Arguments Sig {T}. Arguments fixed {T}. Arguments more {T}.

(** The types of a program: of an expression, of what can be called, whether a
    value may be assigned to a type, the default type of an untyped constant
    (none if the constant does not fit in it). *)
Record calltypes := CallTypes {
  CT : Type; CK : Type;
  c_ty : scope CT CK -> nd -> option (sty CT CK);
  c_fun : scope CT CK -> nd -> option (sig CT);
  c_asg : sty CT CK -> CT -> bool;
  c_def : CK -> option CT }.

(** The names occurring in a piece of syntax. *)
Fixpoint names (t : nd) : list bytes :=
  match t with Nd k cs => (match k with KId x => [x] | _ => [] end) ++ flat_map names cs end.

(** An argument written as an identifier, a selection, or with literals only. *)
Inductive as_is : nd -> Prop :=
| AId x : as_is (Nd (KId x) [])
| ASel m cs : as_is (Nd (KSel m) cs)
| ALit t : literal t -> as_is t
with literal : nd -> Prop :=
| LBasic : literal (Nd KBasic [])
| LBin a b : literal a -> literal b -> literal (Nd KBin [a; b])
| LUn a : literal a -> literal (Nd KUn [a])
| LPar a : literal a -> literal (Nd KPar [a]).

Section Typing.
(** The types of the program given to lens/asttweak.go:1072-1157. *)
Variable C : calltypes.
Notation T := (CT C).
Notation K := (CK C).

(** The type of a variable defined by [x := e] for a value, and whether a value
    can be put into an interface. *)
Definition alone (v : sty T K) : option T :=
  match v with Typed t => Some t | Untyped c => c_def C c | SNil | Tuple _ => None end.
Definition shows (v : sty T K) : Prop :=
  match v with Typed _ | SNil => True | Untyped c => c_def C c <> None | Tuple _ => False end.

(** The type of the parameter for the i-th argument; with [dots] the last
    argument is passed as the slice. *)
Definition param (sg : sig T) (dots : bool) (i : nat) : option T :=
  match nth_error (fixed sg) i with
  | Some t => Some t
  | None => match more sg with Some (e, sl) => Some (if dots then sl else e) | None => None end
  end.
(** How many arguments there may be. *)
Definition count_ok (sg : sig T) (dots : bool) (n : nat) : Prop :=
  match more sg with
  | Some _ => if dots then n = S (length (fixed sg)) else (length (fixed sg) <= n)%nat
  | None => dots = false /\ n = length (fixed sg)
  end.
(** A call: one value for each parameter, or one call with several results. *)
Definition call_ok (s : scope T K) (dots : bool) (f : nd) (args : list nd) (sg : sig T) : Prop :=
  c_fun C s f = Some sg /\
  ((count_ok sg dots (length args) /\
    forall i a, nth_error args i = Some a -> exists v t, c_ty C s a = Some v /\ param sg dots i = Some t /\ c_asg C v t = true) \/
   (exists a ts, args = [a] /\ c_ty C s a = Some (Tuple ts) /\ dots = false /\ count_ok sg false (length ts) /\
    forall i u, nth_error ts i = Some u -> exists t, param sg false i = Some t /\ c_asg C (Typed u) t = true)).

(** The scope with a variable more. *)
Definition with_var (x : bytes) (t : T) (s : scope T K) : scope T K :=
  fun y => if beq y x then Some (EVal (Typed t)) else s y.

(** Definitions and messages in a block in which [blk] is declared already:
    every variable is new and used afterwards, every value in a message can be
    put into an interface.  [k]: what comes behind. *)
Fixpoint front (s : scope T K) (blk : list bytes) (l : list nd) (k : scope T K -> Prop) : Prop :=
  match l with
  | [] => k s
  | Nd (KAssign [x]) [e] :: l' =>
    ~ In x blk /\ In x (flat_map names l') /\
    exists v t, c_ty C s e = Some v /\ alone v = Some t /\ front (with_var x t s) (x :: blk) l' k
  | Nd KExpr [Nd (KMsg _ _) vs] :: l' =>
    (forall n, In n client_names -> s n = Some EClient) /\
    (forall e, In e vs -> exists v, c_ty C s e = Some v /\ shows v) /\ front s blk l' k
  | _ => False
  end.

(** Statements in front of a call, and the call with the signature [sg]. *)
Definition compiles_call (s : scope T K) (blk : list bytes) (dots : bool) (sg : sig T) (r : list nd * nd) : Prop :=
  front s blk (fst r) (fun s' => match snd r with Nd (KCall _ _) (f :: args) => call_ok s' dots f args sg | _ => False end).

(** The laws of Go used: expressions depend on the names in them; a name has
    the type of the value it stands for; what is selected from a value is
    selected from a value of a type, and a variable of that type has it too;
    several results are not one value. *)
Definition lawful_calls : Prop :=
  (forall s s' e, (forall x, In x (names e) -> s x = s' x) -> c_ty C s e = c_ty C s' e /\ c_fun C s e = c_fun C s' e) /\
  (forall s x, c_ty C s (Nd (KId x) []) = match s x with Some (EVal v) => Some v | _ => None end) /\
  (forall s m x g v, c_fun C s (Nd (KSel m) [x]) = Some g -> c_ty C s x = Some v ->
     exists t, v = Typed t /\ forall s' y, s' y = Some (EVal (Typed t)) -> c_fun C s' (Nd (KSel m) [Nd (KId y) []]) = Some g) /\
  (forall ts t, c_asg C (Tuple ts) t = false).

(** What the receiver and an argument must be, beyond being correct. *)
Definition receiver_fits (s : scope T K) (pkgs : list bytes) (f : nd) : Prop :=
  (forall m x, f = Nd (KSel m) [Nd (KId x) []] -> x <> B "_" -> ~ In x pkgs -> exists v, s x = Some (EVal v) /\ shows v) /\
  (forall m y, f = Nd (KSel m) [y] -> (forall x, y <> Nd (KId x) []) -> exists v, c_ty C s y = Some v).
Definition argument_fits (s : scope T K) (sg : sig T) (dots : bool) (i : nat) (a : nd) : Prop :=
  exists v, c_ty C s a = Some v /\
    ((as_is a /\ shows v) \/
     (~ as_is a /\ exists t pt, alone v = Some t /\ param sg dots i = Some pt /\ c_asg C (Typed t) pt = true)).
End Typing.
