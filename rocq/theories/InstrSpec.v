(** The meaning of the Go statements of InstrModel.v (after the Go language
    specification), and what a rewritten return is expected to report.  Nothing
    here transcribes code of the repository. *)

From Verif Require Import Base InstrModel.

(** The reply of an opaque operation: a panic, values, or a chosen branch. *)
Inductive reply (V : Type) := RPanic (v : V) | RVals (vs : list V) | RBranch (n : nat).
Arguments RPanic {V}. Arguments RVals {V}. Arguments RBranch {V}.

(** Everything the user's code does, arbitrary:
    [w_rd k] reads the variable a name stands for at the return tagged [k], [w_act] runs an operation, [w_actc] runs
    an operation whose identifiers meet variables of the instrumentation
    (captured by them), [w_conv i] is the conversion to the i-th result type
    made by a typed declaration or by a return, [w_res] the value of a result
    variable, [w_fin] and [w_finp] run the deferred calls after a return or a
    panic and give the final results or the panic going on. *)
Record world (Op : Type) := World {
  Val : Type; UState : Type; UEv : Type;
  w_ids : Op -> list bytes;
  w_rd : nat -> UState -> bytes -> Val;
  w_act : Op -> UState -> list UEv -> UState -> reply Val -> Prop;
  w_actc : Op -> list (bytes * Val) -> UState -> list UEv -> UState -> reply Val -> Prop;
  w_conv : nat -> Val -> Val;
  w_res : UState -> nat -> Val;
  w_fin : list Val -> UState -> list UEv -> UState -> Val + list Val -> Prop;
  w_finp : Val -> UState -> list UEv -> UState -> Val + list Val -> Prop }.
Arguments Val {Op}. Arguments UState {Op}. Arguments UEv {Op}. Arguments w_ids {Op}.
Arguments w_rd {Op}. Arguments w_act {Op}. Arguments w_actc {Op}. Arguments w_conv {Op}.
Arguments w_res {Op}. Arguments w_fin {Op}. Arguments w_finp {Op}.

Section Sem.
(** The expressions of the program (lens/asttweak.go:510-700, 1306-1520). *)
Variable Op : Type.
(** What they do; the code at lens/asttweak.go:510-700, 1306-1520 does not look into it. *)
Variable W : world Op.
(** The function instrumented (lens/asttweak.go:510-700, 1306-1520). *)
Variable F : func.

Notation V := (Val W).
Notation U := (UState W).
Notation temps := (list (bytes * V)).

(** The observable events: the user's own and the state messages. *)
Inductive event := EvUser (e : UEv W) | EvState (p : N) (fields : list (bytes * V)).

Inductive outcome := ONormal | OBreak (l : option bytes) | OContinue (l : option bytes) | OFall
| ORet (k : nat) (vs : list V) | OPanic (v : V).

Fixpoint tlookup (T : temps) (x : bytes) : option V :=
  match T with [] => None | (y, v) :: T' => if beq x y then Some v else tlookup T' x end.

(** The variable a name stands for: the innermost declaration, hence one of
    the instrumentation if it has one of that name. *)
Definition look (T : temps) (k : nat) (u : U) (x : bytes) : V :=
  match tlookup T x with Some v => v | None => w_rd W k u x end.

Definition captured (T : temps) (o : Op) : bool :=
  existsb (fun x => existsb (beq x) (map fst T)) (w_ids W o).

Definition doop (T : temps) (o : Op) (u : U) (t : list event) (u' : U) (r : reply V) : Prop :=
  exists t0, t = map EvUser t0 /\
    if captured T o then w_actc W o T u t0 u' r else w_act W o u t0 u' r.

Definition op_of (e : expr Op) : option Op :=
  match e with EId _ => None | ELit o | ECall _ o | EOther o => Some o end.

(** One expression; [inl] is a panic. *)
Inductive eval1 (T : temps) (k : nat) : expr Op -> U -> list event -> U -> V + V -> Prop :=
| E1Id x u : eval1 T k (EId x) u [] u (inr (look T k u x))
| E1Op e o u t u' v : op_of e = Some o -> doop T o u t u' (RVals [v]) -> eval1 T k e u t u' (inr v)
| E1Panic e o u t u' p : op_of e = Some o -> doop T o u t u' (RPanic p) -> eval1 T k e u t u' (inl p).

(** The moments at which variables of an expression list may be read: calls
    happen from left to right, but the order of reading a variable relative
    to them is not specified by Go.  [D i e late] says whether the i-th
    expression, a variable, may be read after all calls ([late]) or in its
    place (for the results at lens/asttweak.go:510-700, 1306-1520). *)
Variable D : nat -> expr Op -> bool -> Prop.

Definition rcons (x : option V) (r : V + list (option V)) : V + list (option V) :=
  match r with inl p => inl p | inr l => inr (x :: l) end.

Inductive evals (T : temps) (k : nat) : nat -> list (expr Op) -> U -> list event -> U -> V + list (option V) -> Prop :=
| EsNil i u : evals T k i [] u [] u (inr [])
| EsLate i x es u t u' r : D i (EId x) true -> evals T k (S i) es u t u' r ->
    evals T k i (EId x :: es) u t u' (rcons None r)
| EsNow i x es u t u' r : D i (EId x) false -> evals T k (S i) es u t u' r ->
    evals T k i (EId x :: es) u t u' (rcons (Some (look T k u x)) r)
| EsOp i e o es u t1 u1 v t2 u' r : op_of e = Some o -> doop T o u t1 u1 (RVals [v]) ->
    evals T k (S i) es u1 t2 u' r -> evals T k i (e :: es) u (t1 ++ t2) u' (rcons (Some v) r)
| EsPanic i e o es u t u' p : op_of e = Some o -> doop T o u t u' (RPanic p) ->
    evals T k i (e :: es) u t u' (inl p).

(** The late variables are read in the last state. *)
Fixpoint fill (T : temps) (k : nat) (u : U) (es : list (expr Op)) (l : list (option V)) : list V :=
  match es, l with
  | e :: es', o :: l' =>
    (match o, e with Some v, _ => v | None, EId x => look T k u x | None, _ => look T k u [] end)
      :: fill T k u es' l'
  | _, _ => []
  end.

Fixpoint convs (i : nat) (l : list V) : list V :=
  match l with [] => [] | v :: l' => w_conv W i v :: convs (S i) l' end.

Definition nres : nat := length (f_names F).

(** A return statement.  A bare return gives the values of the result
    variables. *)
Inductive ret_eval (T : temps) (k : nat) : list (expr Op) -> U -> list event -> U -> V + list V -> Prop :=
| RtBare u :
    ret_eval T k [] u [] u (inr (map (w_res W u) (seq 0 nres)))
| RtSpread c o u t u' vs : (2 <= nres)%nat -> doop T o u t u' (RVals vs) -> length vs = nres ->
    ret_eval T k [ECall c o] u t u' (inr (convs 0 vs))
| RtSpreadPanic c o u t u' p : (2 <= nres)%nat -> doop T o u t u' (RPanic p) ->
    ret_eval T k [ECall c o] u t u' (inl p)
| RtList rs u t u' l : rs <> [] -> length rs = nres -> evals T k 0 rs u t u' (inr l) ->
    ret_eval T k rs u t u' (inr (convs 0 (fill T k u' rs l)))
| RtPanic rs u t u' p : rs <> [] -> length rs = nres -> evals T k 0 rs u t u' (inl p) ->
    ret_eval T k rs u t u' (inl p).

Definition is_branch (n : nat) (r : reply V) : Prop := r = RBranch n.
Definition no_panic (r : reply V) : Prop := match r with RPanic _ => False | _ => True end.

(** Leaving a labelled statement by a break to its label. *)
Definition unlabel (l : bytes) (o : outcome) : outcome :=
  match o with OBreak (Some l') => if beq l l' then ONormal else o | _ => o end.

(** What the end of a loop body means for the loop with label [lb]:
    [None] to go on, [Some o] to leave with [o]. *)
Definition loop_ctl (lb : option bytes) (o : outcome) : option outcome :=
  match o with
  | ONormal | OContinue None => None
  | OContinue (Some l) => match lb with Some l' => if beq l l' then None else Some o | None => Some o end
  | OBreak None => Some ONormal
  | _ => Some o
  end.

(** Leaving a switch or select by a break. *)
Definition unswitch (o : outcome) : outcome :=
  match o with OBreak None => ONormal | _ => o end.

Definition opt_ty (ty : option nat) (v : V) : V := match ty with Some i => w_conv W i v | None => v end.

(** [exec T lb s u t u' T' o]: with the added variables [T] the statement [s],
    labelled [lb], takes [u] to [u'] with events [t], added variables [T'] and
    outcome [o]. *)
Inductive exec : temps -> option bytes -> stmt Op -> U -> list event -> U -> temps -> outcome -> Prop :=
| XOp T lb o u t u' r : doop T o u t u' r -> no_panic r -> exec T lb (SOp o) u t u' T ONormal
| XOpPanic T lb o u t u' p : doop T o u t u' (RPanic p) -> exec T lb (SOp o) u t u' T (OPanic p)
| XBlock T lb b u t u' o : execs T b u t u' o -> exec T lb (SBlock b) u t u' T o
| XIfTrue T lb c b e u t1 u1 n t2 u' o : doop T c u t1 u1 (RBranch (S n)) -> execs T b u1 t2 u' o ->
    exec T lb (SIf c b e) u (t1 ++ t2) u' T o
| XIfNone T lb c b u t u' : doop T c u t u' (RBranch 0) -> exec T lb (SIf c b None) u t u' T ONormal
| XIfElse T lb c b e u t1 u1 t2 u' T' o : doop T c u t1 u1 (RBranch 0) -> exec T None e u1 t2 u' T' o ->
    exec T lb (SIf c b (Some e)) u (t1 ++ t2) u' T o
| XIfPanic T lb c b e u t u' p : doop T c u t u' (RPanic p) -> exec T lb (SIf c b e) u t u' T (OPanic p)
| XLoop T lb c b p u t u' o : loops T lb c b p u t u' o -> exec T lb (SLoop c b p) u t u' T o
| XSwitch T lb c cls u t1 u1 n t2 u' o : doop T c u t1 u1 (RBranch n) -> clauses T cls n u1 t2 u' o ->
    exec T lb (SSwitch c cls) u (t1 ++ t2) u' T (unswitch o)
| XSwitchPanic T lb c cls u t u' p : doop T c u t u' (RPanic p) -> exec T lb (SSwitch c cls) u t u' T (OPanic p)
| XSelect T lb c cls u t1 u1 n t2 u' o : doop T c u t1 u1 (RBranch n) -> clauses T cls n u1 t2 u' o ->
    exec T lb (SSelect c cls) u (t1 ++ t2) u' T (unswitch o)
| XSelectPanic T lb c cls u t u' p : doop T c u t u' (RPanic p) -> exec T lb (SSelect c cls) u t u' T (OPanic p)
| XLabeled T lb l s u t u' T' o : exec T (Some l) s u t u' T' o -> exec T lb (SLabeled l s) u t u' T (unlabel l o)
| XReturn T lb k rs u t u' vs : ret_eval T k rs u t u' (inr vs) -> exec T lb (SReturn k rs) u t u' T (ORet k vs)
| XReturnPanic T lb k rs u t u' p : ret_eval T k rs u t u' (inl p) -> exec T lb (SReturn k rs) u t u' T (OPanic p)
| XBreak T lb l u : exec T lb (SBreak l) u [] u T (OBreak l)
| XContinue T lb l u : exec T lb (SContinue l) u [] u T (OContinue l)
| XFall T lb u : exec T lb SFallthrough u [] u T OFall
| XTemp T lb k x ty e u t u' v : eval1 T k e u t u' (inr v) ->
    exec T lb (STemp k x ty e) u t u' ((x, opt_ty ty v) :: T) ONormal
| XTempPanic T lb k x ty e u t u' p : eval1 T k e u t u' (inl p) -> exec T lb (STemp k x ty e) u t u' T (OPanic p)
| XTemps T lb k xs e o u t u' vs : op_of e = Some o -> doop T o u t u' (RVals vs) -> length vs = length xs ->
    exec T lb (STemps k xs e) u t u' (combine xs vs ++ T) ONormal
| XTempsPanic T lb k xs e o u t u' p : op_of e = Some o -> doop T o u t u' (RPanic p) ->
    exec T lb (STemps k xs e) u t u' T (OPanic p)
| XSend T lb k p sn u : exec T lb (SSend k p sn) u [EvState p (map (fun nx => (fst nx, look T k u (snd nx))) sn)] u T ONormal

with execs : temps -> list (stmt Op) -> U -> list event -> U -> outcome -> Prop :=
| XsNil T u : execs T [] u [] u ONormal
| XsCons T s b u t1 u1 T1 t2 u' o : exec T None s u t1 u1 T1 ONormal -> execs T1 b u1 t2 u' o ->
    execs T (s :: b) u (t1 ++ t2) u' o
| XsStop T s b u t u' T1 o : exec T None s u t u' T1 o -> o <> ONormal -> execs T (s :: b) u t u' o

with loops : temps -> option bytes -> Op -> list (stmt Op) -> Op -> U -> list event -> U -> outcome -> Prop :=
| LDone T lb c b p u t u' : doop T c u t u' (RBranch 0) -> loops T lb c b p u t u' ONormal
| LPanic T lb c b p u t u' v : doop T c u t u' (RPanic v) -> loops T lb c b p u t u' (OPanic v)
| LStep T lb c b p u t1 u1 n t2 u2 o t3 u3 r t4 u' o' :
    doop T c u t1 u1 (RBranch (S n)) -> execs T b u1 t2 u2 o -> loop_ctl lb o = None ->
    doop T p u2 t3 u3 r -> no_panic r -> loops T lb c b p u3 t4 u' o' ->
    loops T lb c b p u (t1 ++ t2 ++ t3 ++ t4) u' o'
| LPost T lb c b p u t1 u1 n t2 u2 o t3 u' v :
    doop T c u t1 u1 (RBranch (S n)) -> execs T b u1 t2 u2 o -> loop_ctl lb o = None ->
    doop T p u2 t3 u' (RPanic v) -> loops T lb c b p u (t1 ++ t2 ++ t3) u' (OPanic v)
| LLeave T lb c b p u t1 u1 n t2 u' o o' :
    doop T c u t1 u1 (RBranch (S n)) -> execs T b u1 t2 u' o -> loop_ctl lb o = Some o' ->
    loops T lb c b p u (t1 ++ t2) u' o'

with clauses : temps -> list (list (stmt Op)) -> nat -> U -> list event -> U -> outcome -> Prop :=
| CNone T cls n u : nth_error cls n = None -> clauses T cls n u [] u ONormal
| CRun T cls n b u t u' o : nth_error cls n = Some b -> execs T b u t u' o -> o <> OFall ->
    clauses T cls n u t u' o
| CFall T cls n b u t1 u1 t2 u' o : nth_error cls n = Some b -> execs T b u t1 u1 OFall ->
    clauses T cls (S n) u1 t2 u' o -> clauses T cls n u (t1 ++ t2) u' o.

(** A call of a function with this body: run it, then the deferred calls.
    Falling off the end is the return of a function without results. *)
Inductive call (body : list (stmt Op)) : U -> list event -> U -> V + list V -> Prop :=
| CallRet u t1 u1 k vs t2 u' r : execs [] body u t1 u1 (ORet k vs) -> w_fin W vs u1 t2 u' r ->
    call body u (t1 ++ map EvUser t2) u' r
| CallEnd u t1 u1 t2 u' r : execs [] body u t1 u1 ONormal -> nres = 0%nat -> w_fin W [] u1 t2 u' r ->
    call body u (t1 ++ map EvUser t2) u' r
| CallPanic u t1 u1 p t2 u' r : execs [] body u t1 u1 (OPanic p) -> w_finp W p u1 t2 u' r ->
    call body u (t1 ++ map EvUser t2) u' r.

End Sem.

Arguments EvUser {Op W}. Arguments EvState {Op W}.
Arguments ONormal {Op W}. Arguments OBreak {Op W}. Arguments OContinue {Op W}. Arguments OFall {Op W}.
Arguments ORet {Op W}. Arguments OPanic {Op W}.

Arguments doop {Op W}. Arguments op_of {Op}. Arguments eval1 {Op W}. Arguments evals {Op W}.
Arguments look {Op W}. Arguments tlookup {Op W}. Arguments captured {Op W}.
Arguments fill {Op W}. Arguments convs {Op W}. Arguments rcons {Op W}. Arguments ret_eval {Op W}.
Arguments exec {Op W}. Arguments execs {Op W}. Arguments loops {Op W}. Arguments clauses {Op W}.
Arguments call {Op W}. Arguments no_panic {Op W}. Arguments unlabel {Op W}. Arguments unswitch {Op W}.
Arguments loop_ctl {Op W}. Arguments opt_ty {Op W}.

(** All returns of a statement, reached by the rewriting or not. *)
Fixpoint returns {Op} (s : stmt Op) : list (nat * list (expr Op)) :=
  match s with
  | SReturn k rs => [(k, rs)]
  | SBlock b => flat_map returns b
  | SIf _ b els => flat_map returns b ++ match els with Some e => returns e | None => [] end
  | SLoop _ b _ => flat_map returns b
  | SSwitch _ cls => flat_map (flat_map returns) cls
  | SSelect _ cls => flat_map (flat_map returns) cls
  | SLabeled _ s' => returns s'
  | _ => []
  end.

(** Code as a user writes it, without added statements. *)
Fixpoint plain {Op} (s : stmt Op) : bool :=
  match s with
  | SBlock b => forallb plain b
  | SIf _ b els => forallb plain b && match els with Some e => plain e | None => true end
  | SLoop _ b _ => forallb plain b
  | SSwitch _ cls => forallb (forallb plain) cls
  | SSelect _ cls => forallb (forallb plain) cls
  | SLabeled _ s' => plain s'
  | STemp _ _ _ _ | STemps _ _ _ | SSend _ _ _ => false
  | _ => true
  end.

(** The names the instrumentation keeps for itself. *)
Definition reserved (x : bytes) : bool := has_prefix (B "lenSynthetic") x.

(** Orders of reading variables: the one the added code fixes (a variable
    without temporary is read last), reading everything in place, and all that
    Go allows among these. *)
Definition code_order {Op} (I : info Op) : nat -> expr Op -> bool -> Prop :=
  fun i e late => late = negb (i_need I i e).
Definition in_place {Op} : nat -> expr Op -> bool -> Prop := fun _ _ late => late = false.
Definition any_order {Op} : nat -> expr Op -> bool -> Prop := fun _ _ _ => True.

(** The user identifiers of an expression. *)
Definition uses {Op} (W : world Op) (e : expr Op) : list bytes :=
  match e with EId x => [x] | ELit o | ECall _ o | EOther o => w_ids W o end.

(** What Go's rules guarantee of a program that compiles, and that it keeps
    clear of the reserved names. *)
Record go_ok {Op} (W : world Op) (F : func) (I : info Op) (body : list (stmt Op)) : Prop := GoOk {
  ok_conv : forall i v, w_conv W i (w_conv W i v) = w_conv W i v;
  ok_res : forall u i, w_conv W i (w_res W u i) = w_res W u i;
  ok_plain : forallb plain body = true;
  ok_tags : NoDup (map fst (flat_map returns body));
  ok_arity : forall k rs, In (k, rs) (flat_map returns body) ->
    rs = [] \/ length rs = length (f_names F) \/
    ((2 <= length (f_names F))%nat /\ exists c o, rs = [ECall c o]);
  ok_bare : forall k, In (k, []) (flat_map returns body) ->
    forall i x u, nth_error (f_names F) i = Some x -> x <> [] -> x <> B "_" -> w_rd W k u x = w_res W u i;
  ok_names : forall k rs e x, In (k, rs) (flat_map returns body) -> In e rs -> In x (uses W e) -> reserved x = false;
  ok_decls : forall k rs x, In (k, rs) (flat_map returns body) -> In x (i_decls I k) -> reserved x = false;
  ok_resnames : forall x, In x (f_names F) -> reserved x = false;
  ok_end_decls : forall x, In x (i_end_decls I) -> reserved x = false;
  ok_end : f_names F <> [] -> forall D u t u1, ~ @execs Op W F D [] body u t u1 ONormal }.

(** The returns that are instrumented: those outside of labelled statements,
    select statements and the else of an else-if. *)
Inductive visited {Op} (b : list (stmt Op)) (k : nat) : Prop :=
| VReturn rs : In (SReturn k rs) b -> visited b k
| VBlock b1 : In (SBlock b1) b -> visited b1 k -> visited b k
| VIf c b1 e : In (SIf c b1 e) b -> visited b1 k -> visited b k
| VElse c b1 b2 : In (SIf c b1 (Some (SBlock b2))) b -> visited b2 k -> visited b k
| VElseIf c b1 c2 b2 e : In (SIf c b1 (Some (SIf c2 b2 e))) b -> visited b2 k -> visited b k
| VLoop c b1 p : In (SLoop c b1 p) b -> visited b1 k -> visited b k
| VSwitch c cls cl : In (SSwitch c cls) b -> In cl cls -> visited cl k -> visited b k.

(** The name under which the i-th result of a return is shown. *)
Definition shown_as {Op} (F : func) (I : info Op) (rs : list (expr Op)) (i : nat) : option bytes :=
  match rs with
  | [] =>
    match nth_error (f_names F) i with
    | Some x => if beq x [] || beq x (B "_") || existsb (beq []) (f_names F) then None else Some x
    | None => None
    end
  | _ =>
    if (length rs <? length (f_names F))%nat then Some (B "ret" ++ num i)
    else match nth_error rs i with
         | Some (EId x) => if i_need I i (EId x) then Some (B "ret" ++ num i)
                           else if beq x (B "nil") then None else Some x
         | Some (ECall c o) => Some ((if beq c (f_name F) then B "rec" else B "ret") ++ num i)
         | Some _ => Some (B "ret" ++ num i)
         | None => None
         end
  end.

(** The fields of the message of a return: every visible variable with its
    value, every result under its name with the value returned (before or
    after the conversion to the result type), and nothing else. *)
Record fields_ok {Op} (W : world Op) (F : func) (I : info Op) (k : nat) (rs : list (expr Op))
    (vs : list (Val W)) (u : UState W) (f : list (bytes * Val W)) : Prop := FieldsOk {
  fo_vars : forall x, In x (i_decls I k) -> x <> B "nil" -> In (x, w_rd W k u x) f;
  fo_results : forall i n v, shown_as F I rs i = Some n -> nth_error vs i = Some v ->
    exists w, In (n, w) f /\ w_conv W i w = v;
  fo_only : forall n w, In (n, w) f -> (In n (i_decls I k) /\ w = w_rd W k u n) \/
    exists i v, shown_as F I rs i = Some n /\ nth_error vs i = Some v /\ w_conv W i w = v }.

(** The message expected after an outcome. *)
Definition message {Op} (W : world Op) (F : func) (I : info Op) (pt : nat -> bool) (rsof : nat -> list (expr Op))
    (u : UState W) (o : outcome Op W) (m : list (event Op W)) : Prop :=
  match o with
  | ORet k vs => if pt k then exists f, m = [EvState (i_pid I k) f] /\ fields_ok W F I k (rsof k) vs u f else m = []
  | _ => m = []
  end.

(** The user's own events. *)
Definition own {Op} {W : world Op} (t : list (event Op W)) : list (event Op W) :=
  filter (fun e => match e with EvUser _ => true | EvState _ _ => false end) t.
(** The state messages. *)
Definition states {Op} {W : world Op} (t : list (event Op W)) : list (event Op W) :=
  filter (fun e => match e with EvUser _ => false | EvState _ _ => true end) t.

(** The messages a call must send when its body ends in state [u] with
    outcome [o]. *)
Definition expected {Op} (W : world Op) (F : func) (I : info Op) (body : list (stmt Op))
    (u : UState W) (o : outcome Op W) (m : list (event Op W)) : Prop :=
  match o with
  | ORet k vs =>
    (visited body k /\ exists rs f, In (k, rs) (flat_map returns body) /\
       m = [EvState (i_pid I k) f] /\ fields_ok W F I k rs vs u f) \/
    (~ visited body k /\ m = [])
  | ONormal =>
    ((forall k, ~ visited body k) /\ exists f, m = [EvState (i_end_pid I) f] /\
       forall x w, In (x, w) f <-> In x (i_end_decls I) /\ x <> B "nil" /\ w = w_rd W (i_end_tag I) u x) \/
    ((exists k, visited body k) /\ m = [])
  | _ => m = []
  end.

(** Running the deferred calls after the body. *)
Definition finish {Op} (W : world Op) (F : func) (o : outcome Op W) (u : UState W) (t : list (UEv W)) (u' : UState W)
    (r : Val W + list (Val W)) : Prop :=
  match o with
  | ORet _ vs => w_fin W vs u t u' r
  | ONormal => f_names F = [] /\ w_fin W [] u t u' r
  | OPanic p => w_finp W p u t u' r
  | _ => False
  end.
