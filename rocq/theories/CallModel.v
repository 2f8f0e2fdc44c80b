(** Model of InjectFuncPointBeforeCall and buildCallInstrumentationWithArgs of
    lens/asttweak.go.

    What the statements mean is defined in CallSpec.v.  As in InstrModel.v all
    user code that the rewriting does not look into is an opaque operation.

    Simplifications: the statement forms are reduced to what distinguishes the
    place of a matching call (see [stmt]); else-if, select, fallthrough,
    labelled continue, goto and go statements are left out, so are function
    literals; names with the reserved
    prefixes are not used by the program (see C48 for what happens otherwise);
    the program has no call of sendLensPointStateMessage yet, so that the test
    of lens/asttweak.go:785-788 never holds. *)

From Verif Require Import Base InstrModel.

(** ** Which identifiers are packages *)

(** An import: its alias, if any, and its path (lens/asttweak.go:717-728). *)
Record import := Import { im_alias : option bytes; im_path : bytes }.

(** strings.LastIndex(path, "/") and the rest after it (lens/asttweak.go:722-726). *)
Fixpoint after_slash (p : bytes) : bytes :=
  match p with
  | [] => []
  | c :: p' => if existsb (Ascii.eqb "/") p' then after_slash p'
               else if Ascii.eqb c "/" then p' else c :: p'
  end.
(** lens/asttweak.go:721-726: the whole path without a slash. *)
Definition last_elem (p : bytes) : bytes :=
  if existsb (Ascii.eqb "/") p then after_slash p else p.

(** lens/asttweak.go:716-728 *)
Definition file_packages (ims : list import) : list bytes :=
  map (fun i => match im_alias i with Some a => a | None => last_elem (im_path i) end) ims.

(** ** Finding a call *)

(** lens/asttweak.go:736-755: The syntax as ast.Inspect walks it: a function literal, a
    call (with its tag, and whether shouldInject accepts it), or another node. *)
Inductive tree := TLit (ts : list tree) | TCall (k : nat) (m : bool) (ts : list tree) | TNode (ts : list tree).

(** findMatchingCall, lens/asttweak.go:736-755: a match is not descended
    into, but the walk goes on behind it and a later match replaces it. *)
Fixpoint find_call (t : tree) : option nat :=
  match t with
  | TLit _ => None
  | TCall k m ts => if m then Some k else fold_left (fun a t => match find_call t with Some k => Some k | None => a end) ts None
  | TNode ts => fold_left (fun a t => match find_call t with Some k => Some k | None => a end) ts None
  end.

Section Lang.
(** Simple statements and expressions, not looked into by lens/asttweak.go:782-1050. *)
Variable Op : Type.

(** The operands of a call in order of evaluation, the receiver first, in the
    kinds buildCallInstrumentationWithArgs tells apart
    (lens/asttweak.go:1078-1148): an identifier or a complex expression as
    receiver; identifiers, selections, literals, constant expressions and
    other expressions as arguments. *)
Inductive operand :=
| ORecvId (x : bytes)
| ORecvX (o : Op)
| OId (x : bytes)
| OSel (o : Op)
| OLit (o : Op)
| OConst (o : Op)
| OOther (o : Op).

(** lens/asttweak.go:933-950 puts the added statements in front of the whole statement:
    Where a call stands in its statement: first, so that the rest of the statement
    ([use]) follows it; behind another operation of the statement ([pre() + call()]); or
    behind a short-circuit operator ([g() && call()]). *)
Inductive place := PFirst (use : Op) | PAfter (pre use : Op) | PGuard (g use : Op).

(** lens/asttweak.go:793-932, 953-1038: What the statement with the call goes on to do:
    nothing, return, choose a branch (if), choose a branch that [break] leaves (switch,
    type switch), or a loop with the operation [c] as condition (the call stands in the
    init statement or is ranged over). *)
Inductive kind := KPlain | KReturn | KIf | KSwitch | KLoop (c : Op).

(** lens/asttweak.go:878-932, 953-1038: The condition of a loop: an operation, or an
    operation on the results of a call. *)
Inductive head := HOp (c : Op) | HCall (m : bool) (k : nat) (f : bytes) (ops : list operand) (use : Op).

(** lens/asttweak.go:782-1050: Statements. [SCall m k kd p f ops cls] contains the call
    [f(ops)]; [m] says whether it is the call found for the statement, [k] is its tag,
    [cls] the blocks of the statement (of a loop the body and the post statement). The
    last three are added by the rewriting: a definition of a temporary, a state message
    with (name, operand) pairs, and [defer func() { ... }()]. *)
Inductive stmt :=
| SOp (o : Op)
| SBlock (b : list stmt)
| SIf (c : Op) (b1 b2 : list stmt)
| SSwitch (c : Op) (cls : list (list stmt))
| SLoop (h : head) (b post : list stmt)
| SReturn (o : Op)
| SBreak (l : option bytes)
| SContinue
| SLabel (l : bytes) (b : list stmt)
| SCall (m : bool) (k : nat) (kd : kind) (p : place) (f : bytes) (ops : list operand) (cls : list (list stmt))
| SDefer (m : bool) (k : nat) (f : bytes) (ops : list operand)
| STemp (x : bytes) (o : Op)
| SSend (k : nat) (p : N) (snaps : list (bytes * operand))
| SDeferBlock (b : list stmt).

(** lens/asttweak.go:716-728. *)
Variable pkgs : list bytes.       (* file_packages of the file *)
(** lens/asttweak.go:1073. *)
Variable pid : nat -> N.          (* the point id drawn for a call, nextPointId *)

(** strconv.Itoa and fmt's %d, lens/asttweak.go:1089, 1140 *)
Definition recv_name (k : nat) : bytes := p_recv ++ itoa (pid k).
(** lens/asttweak.go:1140. *)
Definition arg_name (k i : nat) : bytes := p_arg ++ itoa (pid k) ++ B "_" ++ num i.

(** The receiver, lens/asttweak.go:1077-1105: statements, new operand,
    snapshots. *)
Definition build_recv (k : nat) (r : operand) : list stmt * operand * list (bytes * operand) :=
  match r with
  | ORecvId x => ([], r, if negb (beq x (B "_")) && negb (mem x pkgs) then [(shown x, r)] else [])
  | ORecvX o => ([STemp (recv_name k) o], ORecvId (recv_name k), [(B "recv", ORecvId (recv_name k))])
  | _ => ([], r, [])
  end.

(** The i-th argument, lens/asttweak.go:1108-1149. *)
Definition build_arg (k i : nat) (a : operand) : list stmt * operand * list (bytes * operand) :=
  match a with
  | OOther o => ([STemp (arg_name k i) o], OId (arg_name k i), [(B "arg" ++ num i, OId (arg_name k i))])
  | _ => ([], a, [(B "arg" ++ num i, a)])
  end.

(** The arguments in order, lens/asttweak.go:1107-1149. *)
Fixpoint build_args (k i : nat) (l : list operand) : list stmt * list operand * list (bytes * operand) :=
  match l with
  | [] => ([], [], [])
  | a :: l' =>
    let '(s, a', n) := build_arg k i a in
    let '(s', l'', n') := build_args k (S i) l' in
    (s ++ s', a' :: l'', n ++ n')
  end.

(** buildCallInstrumentationWithArgs, lens/asttweak.go:1072-1157: the added
    statements and the operands of the rewritten call. *)
Definition build_call (k : nat) (ops : list operand) : list stmt * list operand :=
  match ops with
  | (ORecvId _ | ORecvX _) as r :: args =>
    let '(s, r', n) := build_recv k r in
    let '(s', args', n') := build_args k 0 args in
    (s ++ s' ++ [SSend k (pid k) (n ++ n')], r' :: args')
  | _ =>
    let '(s, args', n) := build_args k 0 ops in
    (s ++ [SSend k (pid k) n], args')
  end.

(** The added statements and the new call of a statement that may match,
    lens/asttweak.go:933-948. *)
Definition build_if (m : bool) (k : nat) (ops : list operand) : list stmt * list operand :=
  if m then build_call k ops else ([], ops).

(** rewriteBlock, lens/asttweak.go:782-1050: a statement with
    a matching call is preceded by the added statements in the same block (lines
    933-948), a deferred call is wrapped in a function literal (lines 800-842), nested
    blocks are rewritten (lines 953-1038), a post statement is wrapped together with
    what precedes it (lines 975-1001); labelled statements have no case in either switch.
    [nop] is the rest of an expression statement: nothing. *)
Variable nop : Op.
(** rewriteBlock, lens/asttweak.go:782-1050, see above. *)
Fixpoint rwc (s : stmt) : list stmt :=
  match s with
  | SBlock b => [SBlock (flat_map rwc b)]
  | SIf c b1 b2 => [SIf c (flat_map rwc b1) (flat_map rwc b2)]
  | SSwitch c cls => [SSwitch c (map (flat_map rwc) cls)]
  | SLoop (HOp c) b post => [SLoop (HOp c) (flat_map rwc b) (flat_map rwc post)]
  | SLoop (HCall m k f ops use) b post =>
    let (pre, ops') := build_if m k ops in
    pre ++ [SLoop (HCall m k f ops' use) (flat_map rwc b) (flat_map rwc post)]
  | SCall m k kd p f ops cls =>
    let (pre, ops') := build_if m k ops in pre ++ [SCall m k kd p f ops' (map (flat_map rwc) cls)]
  | SDefer m k f ops =>
    if m then let (pre, ops') := build_call k ops in [SDeferBlock (pre ++ [SCall m k KPlain (PFirst nop) f ops' []])]
    else [s]
  | s => [s]
  end.

(** InjectFuncPointBeforeCall, lens/asttweak.go:702-1057: the new body. *)
Definition inject (body : list stmt) : list stmt := flat_map rwc body.

End Lang.

Arguments ORecvId {Op}. Arguments ORecvX {Op}. Arguments OId {Op}. Arguments OSel {Op}. Arguments OLit {Op}.
Arguments OConst {Op}. Arguments OOther {Op}. Arguments PFirst {Op}. Arguments PAfter {Op}. Arguments PGuard {Op}.
Arguments KPlain {Op}. Arguments KReturn {Op}. Arguments KIf {Op}. Arguments KSwitch {Op}. Arguments KLoop {Op}.
Arguments HOp {Op}. Arguments HCall {Op}.
Arguments SOp {Op}. Arguments SBlock {Op}. Arguments SIf {Op}. Arguments SSwitch {Op}. Arguments SLoop {Op}.
Arguments SReturn {Op}. Arguments SBreak {Op}. Arguments SContinue {Op}. Arguments SLabel {Op}. Arguments SCall {Op}.
Arguments SDefer {Op}. Arguments STemp {Op}. Arguments SSend {Op}. Arguments SDeferBlock {Op}.
Arguments build_recv {Op}. Arguments build_arg {Op}. Arguments build_args {Op}. Arguments build_call {Op}.
Arguments build_if {Op}. Arguments rwc {Op}. Arguments inject {Op}.
