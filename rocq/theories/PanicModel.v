(** Model of the points of a whole function: injectPoint, findFuncDecl,
    InjectFuncPointPanic, InjectFuncPointEntry and InjectFuncPointFinish
    (lens/asttweak.go:417-441, 455-506, 1829-1863), together with what the inserted
    statements do when the function runs.  Definitions only.

    Functions are given by their runs, so that loops, calls and assignments of the code
    under test need no syntax here.  Go's rules for defer, panic, recover and Goexit are
    part of the trusted base. *)
From Verif Require Import Base.

Section Panics.
(** The state of the code under test, and the values it panics with other than nil
    (the code at lens/asttweak.go:417-506 looks into neither). *)
Variables U W : Type.

(** The value of a panic.  A nil one occurs only in modules that ask for Go before 1.21
    (or with GODEBUG=panicnil=1): later versions turn it into a runtime error.  It is
    what [r] is compared with (lens/asttweak.go:479-483). *)
Inductive pval := PNil | PVal (w : W).

(** How a function is being left: by Goexit, and with which panic, if any.  A panic raised
    by a deferred function while exiting has both (rules of Go, not of /repo;
    lens/asttweak.go:455-457 relies on them). *)
Record status := ST { exiting : bool; panicking : option pval }.

(** What the client sends: sendLensPointMessage and sendLensPointRecoveryMessage
    (lens/astclient.go:62-68, 121-136). *)
Inductive msg := MPoint (id : N) | MPanic (id : N) (v : pval).

(** The runs of a function: what recover, called directly by it, would answer; the state
    before and after; the messages sent; whether it recovered that panic; how it was left (any function given to
    lens/asttweak.go:458, 1830, 1842). *)
Definition fsem := option pval -> U -> U -> list msg -> bool -> status -> Prop.

(** How a statement of the list lens/asttweak.go:504 is left: go on, return, or leave the
    function otherwise. *)
Inductive ctl := CNext | CReturn | CAbrupt (s : status).

(** The runs of a statement: as a function's, and in addition the functions it deferred,
    newest first (elements of body.List, lens/asttweak.go:504). *)
Definition stmt := option pval -> U -> U -> list msg -> bool -> list fsem -> ctl -> Prop.

(** After recover has answered the panic, it answers nil (rule of Go for
    lens/asttweak.go:477). *)
Definition next_ctx (rec : bool) (ctx : option pval) : option pval := if rec then None else ctx.

(** A list of statements, which is a function's body (body.List, lens/asttweak.go:504). *)
Inductive exec : list stmt -> option pval -> U -> U -> list msg -> bool -> list fsem -> ctl -> Prop :=
| ex_nil ctx u : exec [] ctx u u [] false [] CNext
| ex_next (s : stmt) l ctx u u1 u2 m m' r r' ds ds' c :
    s ctx u u1 m r ds CNext -> exec l (next_ctx r ctx) u1 u2 m' r' ds' c ->
    exec (s :: l) ctx u u2 (m ++ m') (r || r') (ds' ++ ds) c
| ex_stop (s : stmt) l ctx u u1 m r ds c :
    s ctx u u1 m r ds c -> c <> CNext -> exec (s :: l) ctx u u1 m r ds c.

(** How a function is being left when its body ends (rule of Go for lens/asttweak.go:455-457). *)
Definition ctl_status (c : ctl) : status := match c with CAbrupt s => s | _ => ST false None end.

(** How it is being left after one deferred function: a new panic replaces the old one,
    Goexit ends it, so does returning after having recovered it (rule of Go for
    lens/asttweak.go:455-457). *)
Definition after_defer (s : status) (rec : bool) (d : status) : status :=
  ST (exiting s || exiting d)
     (match panicking d with
      | Some v => Some v
      | None => if exiting d then None else if rec then None else panicking s
      end).

(** Running the deferred functions, the newest first (rule of Go for lens/asttweak.go:455-457:
    the first one deferred runs last). *)
Inductive unwind : list fsem -> status -> U -> U -> list msg -> status -> Prop :=
| un_nil s u : unwind [] s u u [] s
| un_one (d : fsem) ds s u u1 u2 m m' rec sd s' :
    d (panicking s) u u1 m rec sd -> unwind ds (after_defer s rec sd) u1 u2 m' s' ->
    unwind (d :: ds) s u u2 (m ++ m') s'.

(** A function with the body [l] (target.Body, lens/asttweak.go:438). *)
Definition func (l : list stmt) : fsem := fun ctx u u' m rec s' =>
  exists u1 m1 m2 ds c, exec l ctx u u1 m1 rec ds c /\ unwind ds (ctl_status c) u1 u' m2 s' /\ m = m1 ++ m2.

(** Calling a function in a statement (ast.ExprStmt of a call, lens/asttweak.go:1833-1836):
    its own recover answers nothing. *)
Definition call_stmt (f : fsem) : stmt := fun _ u u' m rec ds c =>
  exists r s, f None u u' m r s /\ rec = false /\ ds = [] /\
    c = (if exiting s then CAbrupt s else match panicking s with Some _ => CAbrupt s | None => CNext end).
(** Deferring a function (ast.DeferStmt, lens/asttweak.go:467-503, 1845-1848). *)
Definition defer_stmt (f : fsem) : stmt := fun _ u u' m rec ds c =>
  u' = u /\ m = [] /\ rec = false /\ ds = [f] /\ c = CNext.

(** The code that is inserted (lens/asttweak.go:460-502, 1832-1836, 1844-1848). *)
Inductive simple :=
| SSendPoint (id : N)      (* sendLensPointMessage(id) *)
| SSendRecovery (id : N)   (* sendLensPointRecoveryMessage(id, r) *)
| SPanic.                  (* panic(r) *)
(** if r := recover(); r != nil { … }, or a statement of its own (lens/asttweak.go:472-496). *)
Inductive code := LIfRecover (l : list simple) | LSimple (s : simple).

(** Running it with the value of [r]: the messages, and how it is left.  The client drops a
    nil recovery (lens/astclient.go:122-124). *)
Fixpoint run_simple (r : pval) (l : list simple) : list msg * status :=
  match l with
  | [] => ([], ST false None)
  | SSendPoint id :: l' => let '(m, s) := run_simple r l' in (MPoint id :: m, s)
  | SSendRecovery id :: l' =>
      let '(m, s) := run_simple r l' in (match r with PNil => m | PVal _ => MPanic id r :: m end, s)
  | SPanic :: _ => ([], ST false (Some r))
  end.

(** One piece of inserted code as the body of a function literal (lens/asttweak.go:470-500):
    recover stops the panic even if its value is nil. *)
Definition run_code (c : code) : fsem := fun ctx u u' m rec s =>
  u' = u /\
  match c with
  | LSimple x => rec = false /\ (m, s) = run_simple PNil [x]
  | LIfRecover l =>
      match ctx with
      | None => m = [] /\ rec = false /\ s = ST false None
      | Some PNil => m = [] /\ rec = true /\ s = ST false None
      | Some (PVal w) => rec = true /\ (m, s) = run_simple (PVal w) l
      end
  end.

(** InjectFuncPointPanic (lens/asttweak.go:458-506): the deferred literal is put first. *)
Definition panic_point (id : N) (body : list stmt) : list stmt :=
  defer_stmt (run_code (LIfRecover [SSendRecovery id; SPanic])) :: body.
(** InjectFuncPointEntry (lens/asttweak.go:1830-1839). *)
Definition entry_point (id : N) (body : list stmt) : list stmt :=
  call_stmt (run_code (LSimple (SSendPoint id))) :: body.
(** InjectFuncPointFinish (lens/asttweak.go:1842-1851). *)
Definition finish_point (id : N) (body : list stmt) : list stmt :=
  defer_stmt (run_code (LSimple (SSendPoint id))) :: body.

(** A function declaration of a file: its identifier (MakeFunctionIdent, in
    [StaticModel]) and its body, if it has one (lens/asttweak.go:1856, 430). *)
Record fdecl := FD { fd_ident : bytes; fd_body : option (list stmt) }.

(** findFuncDecl (lens/asttweak.go:1853-1863): where the declaration is.  Answering false
    for a match keeps ast.Inspect from its children only, so the last one wins. *)
Fixpoint find_decl (f : list fdecl) (ident : bytes) : option nat :=
  match f with
  | [] => None
  | d :: f' =>
    match find_decl f' ident with
    | Some k => Some (S k)
    | None => if beq (fd_ident d) ident then Some O else None
    end
  end.

(** The body of one declaration replaced (lens/asttweak.go:438). *)
Fixpoint set_body (f : list fdecl) (k : nat) (b : list stmt) : list fdecl :=
  match f, k with
  | [], _ => []
  | d :: f', O => FD (fd_ident d) (Some b) :: f'
  | d :: f', S k' => d :: set_body f' k' b
  end.

(** injectPoint on a file that is loaded (lens/asttweak.go:419-441); [next] is nextPointId
    ([ModifierModel] has it), and is only asked for when the body is there. *)
Inductive inject_result := INotFound | INoBody | INoId | IDone (id : N) (f : list fdecl).
(** lens/asttweak.go:427-440. *)
Definition inject_point (f : list fdecl) (ident : bytes) (next : option N)
    (modify : N -> list stmt -> list stmt) : inject_result :=
  match find_decl f ident with
  | None => INotFound
  | Some k =>
    match nth_error f k with
    | Some (FD _ (Some b)) => match next with Some id => IDone id (set_body f k (modify id b)) | None => INoId end
    | _ => INoBody
    end
  end.
End Panics.
Arguments PNil {W}. Arguments PVal {W}. Arguments ST {W}. Arguments exiting {W}. Arguments panicking {W}.
Arguments MPoint {W}. Arguments MPanic {W}. Arguments CNext {W}. Arguments CReturn {W}. Arguments CAbrupt {W}.
Arguments INotFound {U W}. Arguments INoBody {U W}. Arguments INoId {U W}. Arguments IDone {U W}.
Arguments FD {U W}. Arguments fd_ident {U W}. Arguments fd_body {U W}.
Arguments exec {U W}. Arguments unwind {U W}. Arguments func {U W}. Arguments call_stmt {U W}. Arguments defer_stmt {U W}.
Arguments run_code {U W}. Arguments panic_point {U W}. Arguments entry_point {U W}. Arguments finish_point {U W}.
Arguments find_decl {U W}. Arguments set_body {U W}. Arguments inject_point {U W}.
Arguments next_ctx {W}. Arguments ctl_status {W}. Arguments after_defer {W}. Arguments run_simple {W}.
