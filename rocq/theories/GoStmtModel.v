(** Model of go statements whose call is rewritten (lens/asttweak.go:843-879): threads that interleave, the
    statement as written, and the statement after the rewriting, where the operands are evaluated by the new
    goroutine.  The statements of the literal are those of [RewriteModel.build].  Definitions only.
    Go's rules for go statements and for panics are part of the trusted base. *)
From Verif Require Import Base Maps InstrModel RewriteModel.

(** What is seen of a run: what the program does itself, messages of the client with the values shown, the start of
    the function of a go statement, and the end of the program by a panic nobody recovers (lens/asttweak.go:843-879,
    1152-1156). *)
Inductive event (V X : Type) :=
| EUser (x : X) | EMsg (p : N) (shown : list (bytes * V)) | ECall (f : V) (args : list V) | ECrash.
Arguments EUser {V X}. Arguments EMsg {V X}. Arguments ECall {V X}. Arguments ECrash {V X}.

(** Threads in any order, one step of one of them at a time; a thread may start others.  Nothing happens after the
    program has ended (rules of Go for lens/asttweak.go:843). *)
Inductive prun {T St E : Type} (dead : T -> bool) (tstep : T -> St -> T -> St -> list E -> list T -> Prop) :
  list T -> St -> list E -> list T -> St -> Prop :=
| pr_done l s : prun dead tstep l s [] l s
| pr_step l1 t l2 s t' s1 es sp es' l' s' :
    forallb (fun t => negb (dead t)) (l1 ++ t :: l2) = true -> tstep t s t' s1 es sp ->
    prun dead tstep (l1 ++ t' :: l2 ++ sp) s1 es' l' s' ->
    prun dead tstep (l1 ++ t :: l2) s (es ++ es') l' s'.

Section GoStmt.
(** The state all threads share, values, places in the program, what the program does that can be seen
    (the code at lens/asttweak.go:843-879 looks into none of them). *)
Variables St V C X : Type.
(** Evaluating an operand of the call, with the variables added so far; [None]: it panics (rules of Go for
    lens/asttweak.go:1092-1096, 1142-1146, 1152-1156).  One operand is taken as one step. *)
Variable ev : amap V -> nd -> St -> St -> option V -> Prop.
(** A step of the program at any other place than a go statement with a matching call, and the threads it starts
    (statements that lens/asttweak.go:843-879 leaves alone). *)
Variable ustep : C -> St -> C -> St -> list X -> list C -> Prop.
(** A go statement whose call matches (lens/asttweak.go:844): its point (846-850), the call, where the program goes on, and where
    it goes on if an operand panics. *)
Variable go_at : C -> option (N * nd * C * C).
(** A function, called with values, as the start of a goroutine (the statement at lens/asttweak.go:843). *)
Variable start : V -> list V -> C.
(** filePackageNames (lens/asttweak.go:716-728). *)
Variable pkgs : list bytes.

(** ** As written *)
(** A thread: at a place of the program, evaluating the operands of a go statement, or a goroutine that is about
    to begin (rules of Go for the statement at lens/asttweak.go:843). *)
Inductive othread := OUser (c : C) | OEval (vs : list V) (todo : list nd) (c1 c2 : C) | OStart (f : V) (vs : list V).
(** The function value and the arguments are evaluated by the calling goroutine (rules of Go for the statement
    at lens/asttweak.go:843). *)
Inductive ostep : othread -> St -> othread -> St -> list (event V X) -> list othread -> Prop :=
| os_user c s c' s' xs sp :
    go_at c = None -> ustep c s c' s' xs sp -> ostep (OUser c) s (OUser c') s' (map EUser xs) (map OUser sp)
| os_go c s p k ops c1 c2 : go_at c = Some (p, Nd k ops, c1, c2) -> ostep (OUser c) s (OEval [] ops c1 c2) s [] []
| os_ev vs e l c1 c2 s s' v : ev [] e s s' (Some v) -> ostep (OEval vs (e :: l) c1 c2) s (OEval (vs ++ [v]) l c1 c2) s' [] []
| os_panic vs e l c1 c2 s s' : ev [] e s s' None -> ostep (OEval vs (e :: l) c1 c2) s (OUser c2) s' [] []
| os_spawn f vs c1 c2 s : ostep (OEval (f :: vs) [] c1 c2) s (OUser c1) s [] [OStart f vs]
| os_start f vs s : ostep (OStart f vs) s (OUser (start f vs)) s [ECall f vs] [].
(** No panic of an operand ends the program by itself: the calling goroutine goes on with it (rules of Go for the
    statement at lens/asttweak.go:843). *)
Definition oruns := prun (fun _ : othread => false) ostep.

(** ** After the rewriting *)
(** A thread: at a place of the program, in the literal with its variables and the statements left, evaluating the
    values of the message or the operands of the call, or the end of the program (lens/asttweak.go:856-865). *)
Inductive nthread :=
| NUser (c : C)
| NRun (env : amap V) (l : list nd)
| NVals (env : amap V) (p : N) (names : list bytes) (vs : list V) (todo : list nd) (l : list nd)
| NCall (env : amap V) (vs : list V) (todo : list nd)
| NCrash.
(** The go statement starts the literal (lens/asttweak.go:852-865, 1072-1157); its function literals among the operands are
    left as they are (lens/asttweak.go:868-872 may put messages into them). *)
Inductive nstep : nthread -> St -> nthread -> St -> list (event V X) -> list nthread -> Prop :=
| ns_user c s c' s' xs sp :
    go_at c = None -> ustep c s c' s' xs sp -> nstep (NUser c) s (NUser c') s' (map EUser xs) (map NUser sp)
| ns_go c s p call c1 c2 pre call' : go_at c = Some (p, call, c1, c2) -> build pkgs p call = (pre, call') ->
    nstep (NUser c) s (NUser c1) s [] [NRun [] (pre ++ [Nd KExpr [call']])]
| ns_define env x e l s s' v : ev env e s s' (Some v) ->
    nstep (NRun env (Nd (KAssign [x]) [e] :: l)) s (NRun ((x, v) :: env) l) s' [] []
| ns_define_panic env x e l s s' : ev env e s s' None -> nstep (NRun env (Nd (KAssign [x]) [e] :: l)) s NCrash s' [ECrash] []
| ns_msg env p names vals l s : nstep (NRun env (Nd KExpr [Nd (KMsg p names) vals] :: l)) s (NVals env p names [] vals l) s [] []
| ns_val env p names vs e todo l s s' v : ev env e s s' (Some v) ->
    nstep (NVals env p names vs (e :: todo) l) s (NVals env p names (vs ++ [v]) todo l) s' [] []
| ns_val_panic env p names vs e todo l s s' : ev env e s s' None -> nstep (NVals env p names vs (e :: todo) l) s NCrash s' [ECrash] []
| ns_sent env p names vs l s : nstep (NVals env p names vs [] l) s (NRun env l) s [EMsg p (combine names vs)] []
| ns_call env m k ops s : nstep (NRun env [Nd KExpr [Nd (KCall m k) ops]]) s (NCall env [] ops) s [] []
| ns_op env vs e todo s s' v : ev env e s s' (Some v) -> nstep (NCall env vs (e :: todo)) s (NCall env (vs ++ [v]) todo) s' [] []
| ns_op_panic env vs e todo s s' : ev env e s s' None -> nstep (NCall env vs (e :: todo)) s NCrash s' [ECrash] []
| ns_start env f vs s : nstep (NCall env (f :: vs) []) s (NUser (start f vs)) s [ECall f vs] [].
(** The literal recovers nothing, so a panic in it ends the program (rules of Go for lens/asttweak.go:860-865). *)
Definition ended (t : nthread) : bool := match t with NCrash => true | _ => false end.
(** lens/asttweak.go:843-879. *)
Definition nruns := prun ended nstep.
End GoStmt.
Arguments OUser {V C}. Arguments OEval {V C}. Arguments OStart {V C}.
Arguments NUser {V C}. Arguments NRun {V C}. Arguments NVals {V C}. Arguments NCall {V C}. Arguments NCrash {V C}.
Arguments ostep {St V C X}. Arguments nstep {St V C X}. Arguments oruns {St V C X}. Arguments nruns {St V C X}. Arguments ended {V C}.
