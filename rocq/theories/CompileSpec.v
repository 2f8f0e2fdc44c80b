(** When the statements of InstrModel.v compile, after the Go language
    specification: what names mean, which values may be assigned to which
    types, which variables may be declared, must be used, and when a function
    body ends as Go demands.  Nothing here transcribes code of the repository.

    What the rewriting never looks into stays arbitrary: the types, the
    untyped constants, the check of user statements, the typing of opaque
    expressions and the meaning of a type expression in a scope. *)

From Verif Require Import Base InstrModel.

(** The static type of an expression: a type, an untyped constant (or untyped
    boolean), [nil], the results of a call. *)
Inductive sty (T K : Type) := Typed (t : T) | Untyped (c : K) | SNil | Tuple (ts : list T).
Arguments Typed {T K}. Arguments Untyped {T K}. Arguments SNil {T K}. Arguments Tuple {T K}.

(** What a name may stand for: a value, a type, a declaration of the client
    file, something else (a package, a builtin, a generic function). *)
Inductive ent (T K : Type) := EVal (s : sty T K) | EType (t : T) | EClient | EElse.
Arguments EVal {T K}. Arguments EType {T K}. Arguments EClient {T K}. Arguments EElse {T K}.

Definition scope (T K : Type) := bytes -> option (ent T K).

(** The types of a program.  [g_op] types an opaque expression in a scope,
    [g_mean s i] is the type the text of the i-th result type means in scope
    [s], [g_asg] is assignability, [g_def] the default type of an untyped
    constant (none if the constant does not fit), [g_res i] the i-th result
    type, [g_scope k] the scope at the return tagged [k], [g_user] says that a
    user statement compiles, [g_end] that it ends a function (panic). *)
Record gotypes (Op : Type) := GoTypes {
  Ty : Type; Cst : Type;
  g_op : scope Ty Cst -> Op -> option (sty Ty Cst);
  g_mean : scope Ty Cst -> nat -> option Ty;
  g_asg : sty Ty Cst -> Ty -> bool;
  g_def : Cst -> option Ty;
  g_res : nat -> Ty;
  g_scope : nat -> scope Ty Cst;
  g_user : list (bytes * Ty) -> Op -> Prop;
  g_end : Op -> bool }.
Arguments Ty {Op}. Arguments Cst {Op}. Arguments g_op {Op}. Arguments g_mean {Op}. Arguments g_asg {Op}.
Arguments g_def {Op}. Arguments g_res {Op}. Arguments g_scope {Op}. Arguments g_user {Op}. Arguments g_end {Op}.

Section Compile.
(** The expressions of the program (lens/asttweak.go:510-700, 1306-1520). *)
Variable Op : Type.
(** Its types; the code at lens/asttweak.go:510-700, 1306-1520 does not look at them. *)
Variable G : gotypes Op.
(** The function instrumented (lens/asttweak.go:510-700, 1306-1520). *)
Variable F : func.

Notation T := (Ty G).
Notation K := (Cst G).
Notation st := (sty T K).
Notation added := (list (bytes * T)).

(** The scope with the added variables, innermost first. *)
Fixpoint over (ov : added) (s : scope T K) : scope T K :=
  match ov with
  | [] => s
  | (x, t) :: ov' => fun y => if beq y x then Some (EVal (Typed t)) else over ov' s y
  end.

Definition ety (s : scope T K) (e : expr Op) : option st :=
  match e with
  | EId x => match s x with Some (EVal v) => Some v | _ => None end
  | ELit o | ECall _ o | EOther o => g_op G s o
  end.

(** The type of a variable defined from a value without a type written, also
    the type of a value put into an interface. *)
Definition single (v : st) : option T :=
  match v with Typed t => Some t | Untyped c => g_def G c | SNil | Tuple _ => None end.

Definition nresults : nat := length (f_names F).

(** A return statement.  A bare return needs all result variables in scope. *)
Definition ret_ok (s : scope T K) (rs : list (expr Op)) : Prop :=
  match rs with
  | [] => ~ In [] (f_names F) /\
      forall i n, nth_error (f_names F) i = Some n -> n <> B "_" -> s n = Some (EVal (Typed (g_res G i)))
  | _ =>
    (length rs = nresults /\
     forall i e, nth_error rs i = Some e -> exists v, ety s e = Some v /\ g_asg G v (g_res G i) = true) \/
    (exists c o ts, rs = [ECall c o] /\ (2 <= nresults)%nat /\ g_op G s o = Some (Tuple ts) /\
       length ts = nresults /\
       forall i t, nth_error ts i = Some t -> g_asg G (Typed t) (g_res G i) = true)
  end.

(** A call of the client function: its two names mean what the client file
    declares, and every variable can be put into an interface. *)
Definition client_names : list bytes := map B ["sendLensPointStateMessage"; "lensMonitorFieldSnapshot"]%string.
Definition send_ok (s : scope T K) (sn : list (bytes * bytes)) : Prop :=
  (forall n, In n client_names -> s n = Some EClient) /\
  forall n x, In (n, x) sn -> exists v t, s x = Some (EVal v) /\ single v = Some t.

(** The names a statement uses, as far as added statements go. *)
Definition names_of (e : expr Op) : list bytes := match e with EId x => [x] | _ => [] end.
Definition uses (s : stmt Op) : list bytes :=
  match s with
  | STemp _ _ _ e | STemps _ _ e => names_of e
  | SSend _ _ sn => map snd sn
  | SReturn _ rs => flat_map names_of rs
  | _ => []
  end.

(** A statement compiles under the added variables; in a list of statements
    every added variable is declared once and used afterwards. *)
Fixpoint ok (ov : added) (s : stmt Op) {struct s} : Prop :=
  let oks := fix oks (ov : added) (blk : list bytes) (b : list (stmt Op)) {struct b} : Prop :=
    match b with
    | [] => True
    | STemp k x ty e :: r =>
      ~ In x blk /\ In x (flat_map uses r) /\
      exists v t, ety (over ov (g_scope G k)) e = Some v /\
        match ty with
        | Some i => g_mean G (over ov (g_scope G k)) i = Some t /\ g_asg G v t = true
        | None => single v = Some t
        end /\ oks ((x, t) :: ov) (x :: blk) r
    | STemps k xs e :: r =>
      NoDup xs /\ (forall x, In x xs -> ~ In x blk) /\ (forall x, In x xs -> In x (flat_map uses r)) /\
      exists ts, ety (over ov (g_scope G k)) e = Some (Tuple ts) /\ length ts = length xs /\
        oks (combine xs ts ++ ov) (xs ++ blk) r
    | s :: r => ok ov s /\ oks ov blk r
    end in
  match s with
  | SOp o => g_user G ov o
  | SBlock b => oks ov [] b
  | SIf c b els => g_user G ov c /\ oks ov [] b /\ match els with Some e => ok ov e | None => True end
  | SLoop c b p => g_user G ov c /\ oks ov [] b /\ g_user G ov p
  | SSwitch c cls | SSelect c cls =>
    g_user G ov c /\
    (fix all (l : list (list (stmt Op))) : Prop := match l with [] => True | b :: l' => oks ov [] b /\ all l' end) cls
  | SLabeled _ s => ok ov s
  | SReturn k rs => ret_ok (over ov (g_scope G k)) rs
  | SSend k _ sn => send_ok (over ov (g_scope G k)) sn
  | SBreak _ | SContinue _ | SFallthrough => True
  | STemp _ _ _ _ | STemps _ _ _ => False
  end.

(** The list form, and a function body. *)
Fixpoint oks (ov : added) (blk : list bytes) (b : list (stmt Op)) {struct b} : Prop :=
  match b with
  | [] => True
  | STemp k x ty e :: r =>
    ~ In x blk /\ In x (flat_map uses r) /\
    exists v t, ety (over ov (g_scope G k)) e = Some v /\
      match ty with
      | Some i => g_mean G (over ov (g_scope G k)) i = Some t /\ g_asg G v t = true
      | None => single v = Some t
      end /\ oks ((x, t) :: ov) (x :: blk) r
  | STemps k xs e :: r =>
    NoDup xs /\ (forall x, In x xs -> ~ In x blk) /\ (forall x, In x xs -> In x (flat_map uses r)) /\
    exists ts, ety (over ov (g_scope G k)) e = Some (Tuple ts) /\ length ts = length xs /\
      oks (combine xs ts ++ ov) (xs ++ blk) r
  | s :: r => ok ov s /\ oks ov blk r
  end.

(** Go's terminating statements.  [leaves l s]: a break in [s] that ends the
    statement around it, which has the label [l]. *)
Fixpoint leaves (inner : bool) (l : option bytes) (s : stmt Op) {struct s} : bool :=
  match s with
  | SBreak None => inner
  | SBreak (Some m) => match l with Some n => beq m n | None => false end
  | SBlock b => existsb (leaves inner l) b
  | SIf _ b els => existsb (leaves inner l) b || match els with Some e => leaves inner l e | None => false end
  | SLoop _ b _ => existsb (leaves false l) b
  | SSwitch _ cls | SSelect _ cls => existsb (existsb (leaves false l)) cls
  | SLabeled _ s => leaves inner l s
  | _ => false
  end.

(** The loop has no condition ([g_end] of it) and the switch a default clause
    ([g_end] of its head); a clause may also end in a fallthrough. *)
Fixpoint term (l : option bytes) (s : stmt Op) {struct s} : bool :=
  let last := fix last (b : list (stmt Op)) : bool :=
    match b with [] => false | [s] => term None s | _ :: b' => last b' end in
  let lastf := fix lastf (b : list (stmt Op)) : bool :=
    match b with [] => false | [SFallthrough] => true | [s] => term None s | _ :: b' => lastf b' end in
  match s with
  | SReturn _ _ => true
  | SOp o => g_end G o
  | SBlock b => last b
  | SIf _ b (Some e) => last b && term None e
  | SLoop c b _ => g_end G c && negb (existsb (leaves true l) b)
  | SSwitch c cls => g_end G c && negb (existsb (existsb (leaves true l)) cls) && forallb lastf cls
  | SSelect _ cls => negb (existsb (existsb (leaves true l)) cls) && forallb last cls
  | SLabeled m s => term (Some m) s
  | _ => false
  end.
Fixpoint lasts (b : list (stmt Op)) : bool :=
  match b with [] => false | [s] => term None s | _ :: b' => lasts b' end.
Fixpoint lastfs (b : list (stmt Op)) : bool :=
  match b with [] => false | [SFallthrough] => true | [s] => term None s | _ :: b' => lastfs b' end.

(** A function body compiles. *)
Definition compiles (body : list (stmt Op)) : Prop :=
  oks [] [] body /\ (f_names F <> [] -> lasts body = true).

(** The laws every Go program obeys: an expression and a type depend on the
    names occurring in them only, and a value of a type may be assigned to
    that type. *)
Definition lawful (ids : Op -> list bytes) : Prop :=
  (forall s s' o, (forall x, In x (ids o) -> s x = s' x) -> g_op G s o = g_op G s' o) /\
  (forall s s' i, (forall x, In x (nth i (f_tyids F) []) -> s x = s' x) -> g_mean G s i = g_mean G s' i) /\
  (forall t, g_asg G (Typed t) t = true).

End Compile.

Arguments over {Op G}. Arguments ety {Op G}. Arguments single {Op G}. Arguments ret_ok {Op G}.
Arguments send_ok {Op G}. Arguments uses {Op}. Arguments names_of {Op}. Arguments ok {Op G}.
Arguments oks {Op G}. Arguments leaves {Op}. Arguments term {Op G}. Arguments lasts {Op G}.
Arguments lastfs {Op G}. Arguments compiles {Op G}. Arguments lawful {Op}.

(** The returns outside of labelled statements, select statements and the
    else of an else-if. *)
Inductive touched {Op} (b : list (stmt Op)) (k : nat) (rs : list (expr Op)) : Prop :=
| TReturn : In (SReturn k rs) b -> touched b k rs
| TBlock b1 : In (SBlock b1) b -> touched b1 k rs -> touched b k rs
| TIf c b1 e : In (SIf c b1 e) b -> touched b1 k rs -> touched b k rs
| TElse c b1 b2 : In (SIf c b1 (Some (SBlock b2))) b -> touched b2 k rs -> touched b k rs
| TElseIf c b1 c2 b2 e : In (SIf c b1 (Some (SIf c2 b2 e))) b -> touched b2 k rs -> touched b k rs
| TLoop c b1 p : In (SLoop c b1 p) b -> touched b1 k rs -> touched b k rs
| TSwitch c cls cl : In (SSwitch c cls) b -> In cl cls -> touched cl k rs -> touched b k rs.
