(** Model of the statements put at the start of a function as they are written, with
    the names in them (InjectFuncPointPanic, InjectFuncPointEntry and
    InjectFuncPointFinish, lens/asttweak.go:458-506, 1830-1851), of what Go takes the
    names to mean at that place, of whether the statements compile, and of what they do
    then.  [PanicModel] has what they do when every name means what it is meant to.
    Definitions only.  Go's rules for scopes, types and calls are part of the trusted
    base. *)
From Verif Require Import Base Maps PanicModel.

(** ** What is written *)
(** Expressions: names, point ids, calls of a name, comparisons
    (lens/asttweak.go:474-482, 485-496, 1833-1836). *)
Inductive ex := XName (x : bytes) | XInt (n : N) | XCall (f : bytes) (args : list ex) | XNeq (a b : ex).
(** Statements: a call, an if with a definition, the deferring of a function literal or of
    a call (lens/asttweak.go:467-503, 1833, 1845). *)
Inductive st :=
| XDo (e : ex)
| XIf (x : bytes) (init cond : ex) (body : list st)
| XDeferLit (body : list st)
| XDeferCall (f : bytes) (args : list ex).

(** InjectFuncPointPanic (lens/asttweak.go:467-503). *)
Definition panic_code (id : N) : st :=
  XDeferLit [XIf (B "r") (XCall (B "recover") []) (XNeq (XName (B "r")) (XName (B "nil")))
    [XDo (XCall (B "sendLensPointRecoveryMessage") [XInt id; XName (B "r")]);
     XDo (XCall (B "panic") [XName (B "r")])]].
(** InjectFuncPointEntry (lens/asttweak.go:1833-1836). *)
Definition entry_code (id : N) : st := XDo (XCall (B "sendLensPointMessage") [XInt id]).
(** InjectFuncPointFinish (lens/asttweak.go:1845-1848). *)
Definition finish_code (id : N) : st := XDeferCall (B "sendLensPointMessage") [XInt id].

Section Names.
(** As in [PanicModel]: the state of the code under test, and the values it panics with other than
    nil (the code at lens/asttweak.go:417-506 looks into neither). *)
Variables U W : Type.

(** ** What the names mean *)
(** Static types, as far as the statements at lens/asttweak.go:467-503 meet them: an untyped
    constant, interface{}, nil, bool, any other. *)
Inductive ty := TyInt | TyAny | TyNil | TyBool | TyUser (k : nat).
(** Values (lens/asttweak.go:474-496). *)
Inductive val := VInt (n : N) | VAny (p : pval W) | VBool (b : bool).
(** Something the program declares (parameters, results, receivers, package level, imports; found by
    the names at lens/asttweak.go:474-496): its type and value as an operand, if it is one; whether
    it may be called with arguments of given types, and the result then; what the call does. *)
Record user := User {
  us_val : option (ty * val);
  us_fun : list ty -> option (option ty);
  us_run : list val -> U -> U -> list (msg W) -> (status W + option val) -> Prop }.
(** What a name may stand for: recover, panic and nil of Go, the two functions of the client
    (lens/astclient.go:62, 121), or something of the program. *)
Inductive entity := EnRecover | EnPanic | EnNil | EnPoint | EnRecovery | EnUser (d : user).

(** Where the statements are put: what the function declares itself (receiver, type parameters,
    parameters, results: body.List starts in their scope, lens/asttweak.go:504), what the file
    imports, and what the package declares besides the client. *)
Record place := Place { pl_own : amap entity; pl_file : amap entity; pl_pkg : amap entity }.
(** The functions of the client file, which is part of the package (lens/asttweak.go:229-246,
    lens/astclient.go:62, 121). *)
Definition client_scope : amap entity :=
  [(B "sendLensPointMessage", EnPoint); (B "sendLensPointRecoveryMessage", EnRecovery)].
(** What Go declares itself, as far as lens/asttweak.go:474-496 uses it. *)
Definition universe : amap entity := [(B "recover", EnRecover); (B "panic", EnPanic); (B "nil", EnNil)].
(** The innermost declaration counts (rule of Go for the names at lens/asttweak.go:474-496,
    1833, 1845). *)
Definition resolve (pl : place) (x : bytes) : option entity :=
  match mget x (pl_own pl) with
  | Some e => Some e
  | None => match mget x (pl_file pl) with
            | Some e => Some e
            | None => match mget x (client_scope ++ pl_pkg pl) with
                      | Some e => Some e
                      | None => mget x universe
                      end
            end
  end.

(** ** Whether it compiles *)
(** Which types may be compared (rule of Go for lens/asttweak.go:479-483). *)
Variable comparable : ty -> ty -> bool.
(** The type of an expression; [None]: it does not compile, [Some None]: it has no value (rules of
    Go for lens/asttweak.go:474-496). *)
Fixpoint typed (pl : place) (loc : list (bytes * ty)) (e : ex) : option (option ty) :=
  match e with
  | XInt _ => Some (Some TyInt)
  | XName x =>
      match mget x loc with
      | Some t => Some (Some t)
      | None => match resolve pl x with
                | Some EnNil => Some (Some TyNil)
                | Some (EnUser d) => match us_val d with Some (t, _) => Some (Some t) | None => None end
                | _ => None
                end
      end
  | XNeq a b =>
      match typed pl loc a, typed pl loc b with
      | Some (Some s), Some (Some t) => if comparable s t then Some (Some TyBool) else None
      | _, _ => None
      end
  | XCall f args =>
      let ts := fold_right (fun a r => match typed pl loc a, r with Some (Some t), Some l => Some (t :: l) | _, _ => None end) (Some []) args in
      match mget f loc, resolve pl f, ts with
      | None, Some EnRecover, Some [] => Some (Some TyAny)
      | None, Some EnPanic, Some [_] => Some None
      | None, Some EnPoint, Some [TyInt] => Some None
      | None, Some EnRecovery, Some [TyInt; _] => Some None
      | None, Some (EnUser d), Some l => us_fun d l
      | _, _, _ => None
      end
  end.
(** A statement compiles; the variable of an if has to be used, which it is (rules of Go for
    lens/asttweak.go:467-503, 1833, 1845). *)
Fixpoint compiles (pl : place) (loc : list (bytes * ty)) (s : st) : bool :=
  match s with
  | XDo (XCall f args) | XDeferCall f args => match typed pl loc (XCall f args) with Some _ => true | None => false end
  | XDo _ => false
  | XIf x init cond body =>
      match typed pl loc init with
      | Some (Some t) =>
          match typed pl ((x, t) :: loc) cond with
          | Some (Some TyBool) => forallb (compiles pl ((x, t) :: loc)) body
          | _ => false
          end
      | _ => false
      end
  | XDeferLit body => forallb (compiles pl loc) body
  end.

(** ** What it does *)
(** Comparing with something of the program that is called nil (lens/asttweak.go:479-483). *)
Variable differ : val -> val -> bool.
(** The value of a name or a number (lens/asttweak.go:478-496). *)
Definition operand (pl : place) (loc : list (bytes * val)) (e : ex) : option val :=
  match e with
  | XInt n => Some (VInt n)
  | XName x => match mget x loc with
               | Some v => Some v
               | None => match resolve pl x with
                         | Some EnNil => Some (VAny PNil)
                         | Some (EnUser d) => option_map snd (us_val d)
                         | _ => None
                         end
               end
  | _ => None
  end.
(** The condition (lens/asttweak.go:479-483); comparing with nil asks whether there is a value. *)
Definition truth (pl : place) (loc : list (bytes * val)) (e : ex) : option bool :=
  match e with
  | XNeq a b =>
      match operand pl loc a, operand pl loc b with
      | Some v, Some w =>
          Some (match b with
                | XName x => match mget x loc, resolve pl x, v with
                             | None, Some EnNil, VAny PNil => false
                             | None, Some EnNil, VAny (PVal _) => true
                             | _, _, _ => differ v w
                             end
                | _ => differ v w
                end)
      | _, _ => None
      end
  | _ => None
  end.
(** Calling a name: what recover answers when called here, the state, the messages, whether it
    recovered, and the panic or the result (rules of Go for lens/asttweak.go:477, 493;
    lens/astclient.go:62-68, 121-129). *)
Definition call (pl : place) (loc : list (bytes * val)) (ctx : option (pval W)) (f : bytes) (args : list ex)
    (u u' : U) (m : list (msg W)) (rec : bool) (o : status W + option val) : Prop :=
  match resolve pl f, map (operand pl loc) args with
  | Some EnRecover, [] =>
      u' = u /\ m = [] /\ rec = (match ctx with Some _ => true | None => false end) /\
      o = inr (Some (VAny (match ctx with Some p => p | None => PNil end)))
  | Some EnPanic, [Some (VAny p)] => u' = u /\ m = [] /\ rec = false /\ o = inl (ST false (Some p))
  | Some EnPoint, [Some (VInt n)] => u' = u /\ m = [MPoint n] /\ rec = false /\ o = inr None
  | Some EnRecovery, [Some (VInt n); Some (VAny p)] =>
      u' = u /\ m = (match p with PNil => [] | PVal _ => [MPanic n p] end) /\ rec = false /\ o = inr None
  | Some (EnUser d), vs => exists l, vs = map Some l /\ us_run d l u u' m o /\ rec = false
  | _, _ => False
  end.
(** The statements of the function literal (lens/asttweak.go:470-500); it is left normally or with
    a panic. *)
Inductive run (pl : place) : list (bytes * val) -> list st -> option (pval W) -> U -> U -> list (msg W) -> bool -> status W -> Prop :=
| rn_nil loc ctx u : run pl loc [] ctx u u [] false (ST false None)
| rn_do loc f args l ctx u u1 u2 m m' r r' o s :
    call pl loc ctx f args u u1 m r (inr o) -> run pl loc l (next_ctx r ctx) u1 u2 m' r' s ->
    run pl loc (XDo (XCall f args) :: l) ctx u u2 (m ++ m') (r || r') s
| rn_do_stop loc f args l ctx u u1 m r s :
    call pl loc ctx f args u u1 m r (inl s) -> run pl loc (XDo (XCall f args) :: l) ctx u u1 m r s
| rn_if_stop loc x f args c b l ctx u u1 m r s :
    call pl loc ctx f args u u1 m r (inl s) -> run pl loc (XIf x (XCall f args) c b :: l) ctx u u1 m r s
| rn_if_no loc x f args c b l ctx u u1 u2 m m' r r' v s :
    call pl loc ctx f args u u1 m r (inr (Some v)) -> truth pl ((x, v) :: loc) c = Some false ->
    run pl loc l (next_ctx r ctx) u1 u2 m' r' s ->
    run pl loc (XIf x (XCall f args) c b :: l) ctx u u2 (m ++ m') (r || r') s
| rn_if_left loc x f args c b l ctx u u1 u2 m m' r r' v s :
    call pl loc ctx f args u u1 m r (inr (Some v)) -> truth pl ((x, v) :: loc) c = Some true ->
    run pl ((x, v) :: loc) b (next_ctx r ctx) u1 u2 m' r' s -> s <> ST false None ->
    run pl loc (XIf x (XCall f args) c b :: l) ctx u u2 (m ++ m') (r || r') s
| rn_if_done loc x f args c b l ctx u u1 u2 u3 m m' m'' r r' r'' v s :
    call pl loc ctx f args u u1 m r (inr (Some v)) -> truth pl ((x, v) :: loc) c = Some true ->
    run pl ((x, v) :: loc) b (next_ctx r ctx) u1 u2 m' r' (ST false None) ->
    run pl loc l (next_ctx r' (next_ctx r ctx)) u2 u3 m'' r'' s ->
    run pl loc (XIf x (XCall f args) c b :: l) ctx u u3 (m ++ m' ++ m'') (r || r' || r'') s.
(** One of the statements in the body of the function (lens/asttweak.go:504, 1837, 1849). *)
Definition sem (pl : place) (s : st) : stmt U W :=
  match s with
  | XDeferLit b => defer_stmt (fun ctx u u' m rec s => run pl [] b ctx u u' m rec s)
  | XDeferCall f args =>
      defer_stmt (fun _ u u' m rec s =>
        exists r o, call pl [] None f args u u' m r o /\ rec = false /\ s = match o with inl s => s | inr _ => ST false None end)
  | XDo (XCall f args) => fun _ u u' m rec ds c =>
      exists r o, call pl [] None f args u u' m r o /\ rec = false /\ ds = [] /\ c = match o with inl s => CAbrupt s | inr _ => CNext end
  | _ => fun _ _ _ _ _ _ _ => False
  end.
End Names.
Arguments VInt {W}. Arguments VAny {W}. Arguments VBool {W}.
Arguments User {U W}. Arguments us_val {U W}. Arguments us_fun {U W}. Arguments us_run {U W}.
Arguments EnRecover {U W}. Arguments EnPanic {U W}. Arguments EnNil {U W}. Arguments EnPoint {U W}. Arguments EnRecovery {U W}. Arguments EnUser {U W}.
Arguments Place {U W}. Arguments pl_own {U W}. Arguments pl_file {U W}. Arguments pl_pkg {U W}.
Arguments client_scope {U W}. Arguments universe {U W}. Arguments resolve {U W}. Arguments typed {U W}. Arguments compiles {U W}.
Arguments operand {U W}. Arguments truth {U W}. Arguments call {U W}. Arguments run {U W}. Arguments sem {U W}.
