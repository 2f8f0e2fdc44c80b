(** The meaning of the statements of CallModel.v (after the Go language
    specification), and what the instrumentation of calls is expected to
    report.  Nothing here transcribes code of the repository. *)

From Verif Require Import Base InstrModel InstrSpec CallModel.

(** Everything the user's code does, arbitrary: [w2_rd k] reads the variable a
    name stands for at the call tagged [k], [w2_act] runs an operation,
    [w2_adr] one that stands as the receiver of a method call (its address is
    taken if the method needs it), [w2_call] runs a called function on its
    operands, [w2_use] the rest of a statement on the results of its call,
    [w2_defer] a deferred call while a panic may be going on, leaving a panic
    or not, and [w2_res] gives the final results from the returned values. *)
Record world2 (Op : Type) := World2 {
  Val2 : Type; UState2 : Type; UEv2 : Type;
  w2_rd : nat -> UState2 -> bytes -> Val2;
  w2_act : Op -> UState2 -> list UEv2 -> UState2 -> reply Val2 -> Prop;
  w2_adr : Op -> UState2 -> list UEv2 -> UState2 -> reply Val2 -> Prop;
  w2_call : bytes -> list Val2 -> UState2 -> list UEv2 -> UState2 -> reply Val2 -> Prop;
  w2_use : Op -> list Val2 -> UState2 -> list UEv2 -> UState2 -> reply Val2 -> Prop;
  w2_defer : bytes -> list Val2 -> option Val2 -> UState2 -> list UEv2 -> UState2 -> option Val2 -> Prop;
  w2_res : option (list Val2) -> UState2 -> list Val2 }.
Arguments Val2 {Op}. Arguments UState2 {Op}. Arguments UEv2 {Op}. Arguments w2_rd {Op}. Arguments w2_act {Op}.
Arguments w2_adr {Op}. Arguments w2_call {Op}. Arguments w2_use {Op}. Arguments w2_defer {Op}. Arguments w2_res {Op}.

Section Sem.
(** The expressions of the program (lens/asttweak.go:1072-1157). *)
Variable Op : Type.
(** What they do; the code at lens/asttweak.go:1072-1157 does not look into it. *)
Variable W : world2 Op.
Notation V := (Val2 W).
Notation temps := (list (bytes * V)).

(** Events: the user's own, the start of a call with the values of its
    operands, a state message. *)
Inductive cevent := CeUser (e : UEv2 W) | CeCall (k : nat) (f : bytes) (vs : list V) | CeState (p : N) (fields : list (bytes * V)).

(** A deferred call, its operands are evaluated at the defer statement; or a
    deferred function literal with the variables it sees. *)
Inductive deferred := DCall (k : nat) (f : bytes) (vs : list V) | DBlock (T : temps) (b : list (stmt Op)).

Record cstate := CState { su : UState2 W; sd : list deferred }.

Inductive coutcome := CoNormal | CoBreak (l : option bytes) | CoContinue | CoRet (vs : list V) | CoPanic (v : V).

Fixpoint tlook (T : temps) (x : bytes) : option V :=
  match T with [] => None | (y, v) :: T' => if beq x y then Some v else tlook T' x end.
Definition cread (T : temps) (k : nat) (s : cstate) (x : bytes) : V :=
  match tlook T x with Some v => v | None => w2_rd W k (su s) x end.

Definition step (R : UState2 W -> list (UEv2 W) -> UState2 W -> reply V -> Prop)
    (s : cstate) (t : list cevent) (s' : cstate) (r : reply V) : Prop :=
  exists t0 u', t = map CeUser t0 /\ s' = CState u' (sd s) /\ R (su s) t0 u' r.

(** The operation of an operand that is not a name. *)
Definition opnd_op (a : operand Op) : option Op :=
  match a with OSel o | OLit o | OConst o | OOther o => Some o | _ => None end.

(** One operand; [inl] is a panic. *)
Inductive ev1 (T : temps) (k : nat) : operand Op -> cstate -> list cevent -> cstate -> V + V -> Prop :=
| V1Id x s : ev1 T k (OId x) s [] s (inr (cread T k s x))
| V1RId x s : ev1 T k (ORecvId x) s [] s (inr (cread T k s x))
| V1Adr o s t s' v : step (w2_adr W o) s t s' (RVals [v]) -> ev1 T k (ORecvX o) s t s' (inr v)
| V1AdrP o s t s' p : step (w2_adr W o) s t s' (RPanic p) -> ev1 T k (ORecvX o) s t s' (inl p)
| V1Op a o s t s' v : opnd_op a = Some o -> step (w2_act W o) s t s' (RVals [v]) -> ev1 T k a s t s' (inr v)
| V1OpP a o s t s' p : opnd_op a = Some o -> step (w2_act W o) s t s' (RPanic p) -> ev1 T k a s t s' (inl p).

(** Calls among the operands happen from left to right; when names,
    selections and constants are read relative to them is not specified by
    Go.  [D i a late] says whether such an i-th operand [a] may be read after
    the other operands ([late]) or in its place. *)
Definition simple (a : operand Op) : bool := match a with ORecvX _ | OOther _ => false | _ => true end.
(** For the operands at lens/asttweak.go:1086-1123. *)
Variable D : nat -> operand Op -> bool -> Prop.

Definition vcons {A} (x : A) (r : V + list A) : V + list A := match r with inl p => inl p | inr l => inr (x :: l) end.

(** The operands read in their place ... *)
Inductive pass1 (T : temps) (k : nat) : nat -> list (operand Op) -> cstate -> list cevent -> cstate -> V + list (option V) -> Prop :=
| P1Nil i s : pass1 T k i [] s [] s (inr [])
| P1Late i a l s t s' r : simple a = true -> D i a true -> pass1 T k (S i) l s t s' r -> pass1 T k i (a :: l) s t s' (vcons None r)
| P1Now i a l s t1 s1 v t2 s' r : (simple a = true -> D i a false) -> ev1 T k a s t1 s1 (inr v) ->
    pass1 T k (S i) l s1 t2 s' r -> pass1 T k i (a :: l) s (t1 ++ t2) s' (vcons (Some v) r)
| P1Panic i a l s t s' p : (simple a = true -> D i a false) -> ev1 T k a s t s' (inl p) -> pass1 T k i (a :: l) s t s' (inl p).

(** ... and the others after them. *)
Inductive pass2 (T : temps) (k : nat) : list (operand Op) -> list (option V) -> cstate -> list cevent -> cstate -> V + list V -> Prop :=
| P2Nil s : pass2 T k [] [] s [] s (inr [])
| P2Have a l v ov s t s' r : pass2 T k l ov s t s' r -> pass2 T k (a :: l) (Some v :: ov) s t s' (vcons v r)
| P2Late a l ov s t1 s1 v t2 s' r : ev1 T k a s t1 s1 (inr v) -> pass2 T k l ov s1 t2 s' r ->
    pass2 T k (a :: l) (None :: ov) s (t1 ++ t2) s' (vcons v r)
| P2Panic a l ov s t s' p : ev1 T k a s t s' (inl p) -> pass2 T k (a :: l) (None :: ov) s t s' (inl p).

Inductive operands (T : temps) (k : nat) (ops : list (operand Op)) (s : cstate) : list cevent -> cstate -> V + list V -> Prop :=
| OpsPanic t s' p : pass1 T k 0 ops s t s' (inl p) -> operands T k ops s t s' (inl p)
| OpsVals t1 s1 l t2 s' r : pass1 T k 0 ops s t1 s1 (inr l) -> pass2 T k ops l s1 t2 s' r -> operands T k ops s (t1 ++ t2) s' r.

(** A call: its operands, then the function. *)
Inductive invoke (T : temps) (k : nat) (f : bytes) (ops : list (operand Op)) (s : cstate) : list cevent -> cstate -> reply V -> Prop :=
| IvPanic t s' p : operands T k ops s t s' (inl p) -> invoke T k f ops s t s' (RPanic p)
| IvCall t1 s1 vs t2 s' r : operands T k ops s t1 s1 (inr vs) -> step (w2_call W f vs) s1 t2 s' r ->
    invoke T k f ops s (t1 ++ CeCall k f vs :: t2) s' r.

(** The expression around a call. *)
Inductive used (T : temps) (k : nat) (f : bytes) (ops : list (operand Op)) (use : Op) (s : cstate) : list cevent -> cstate -> reply V -> Prop :=
| UsVals t1 s1 vs t2 s' r : invoke T k f ops s t1 s1 (RVals vs) -> step (w2_use W use vs) s1 t2 s' r ->
    used T k f ops use s (t1 ++ t2) s' r
| UsPanic t s' p : invoke T k f ops s t s' (RPanic p) -> used T k f ops use s t s' (RPanic p).

Inductive placed (T : temps) (k : nat) (f : bytes) (ops : list (operand Op)) (s : cstate) : place Op -> list cevent -> cstate -> reply V -> Prop :=
| PlFirst use t s' r : used T k f ops use s t s' r -> placed T k f ops s (PFirst use) t s' r
| PlAfter pre use t1 s1 vs t2 s' r : step (w2_act W pre) s t1 s1 (RVals vs) -> used T k f ops use s1 t2 s' r ->
    placed T k f ops s (PAfter pre use) (t1 ++ t2) s' r
| PlAfterP pre use t s' p : step (w2_act W pre) s t s' (RPanic p) -> placed T k f ops s (PAfter pre use) t s' (RPanic p)
| PlSkip g use t1 s1 t2 s' r : step (w2_act W g) s t1 s1 (RBranch 0) -> step (w2_use W use []) s1 t2 s' r ->
    placed T k f ops s (PGuard g use) (t1 ++ t2) s' r
| PlGo g use n t1 s1 t2 s' r : step (w2_act W g) s t1 s1 (RBranch (S n)) -> used T k f ops use s1 t2 s' r ->
    placed T k f ops s (PGuard g use) (t1 ++ t2) s' r
| PlGuardP g use t s' p : step (w2_act W g) s t s' (RPanic p) -> placed T k f ops s (PGuard g use) t s' (RPanic p).

(** The condition of a loop. *)
Inductive cond (T : temps) : head Op -> cstate -> list cevent -> cstate -> reply V -> Prop :=
| CdOp c s t s' r : step (w2_act W c) s t s' r -> cond T (HOp c) s t s' r
| CdCall m k f ops use s t s' r : used T k f ops use s t s' r -> cond T (HCall m k f ops use) s t s' r.

(** What a switch, a labelled statement and a loop make of an outcome of their
    blocks. *)
Definition leave (o : coutcome) : coutcome := match o with CoBreak None => CoNormal | o => o end.
Definition unlabel (l : bytes) (o : coutcome) : coutcome :=
  match o with CoBreak (Some l') => if beq l l' then CoNormal else o | o => o end.
Definition again (o : coutcome) : bool := match o with CoNormal | CoContinue => true | _ => false end.

(** Statements; [T] are the temporaries in scope. *)
Inductive exec (T : temps) : stmt Op -> cstate -> list cevent -> cstate -> coutcome -> Prop :=
| XOp o s t s' vs : step (w2_act W o) s t s' (RVals vs) -> exec T (SOp o) s t s' CoNormal
| XOpP o s t s' p : step (w2_act W o) s t s' (RPanic p) -> exec T (SOp o) s t s' (CoPanic p)
| XBlock b s t s' o : execs T b s t s' o -> exec T (SBlock b) s t s' o
| XThen c b1 b2 n s t1 s1 t2 s' o : step (w2_act W c) s t1 s1 (RBranch (S n)) -> execs T b1 s1 t2 s' o ->
    exec T (SIf c b1 b2) s (t1 ++ t2) s' o
| XElse c b1 b2 s t1 s1 t2 s' o : step (w2_act W c) s t1 s1 (RBranch 0) -> execs T b2 s1 t2 s' o ->
    exec T (SIf c b1 b2) s (t1 ++ t2) s' o
| XIfP c b1 b2 s t s' p : step (w2_act W c) s t s' (RPanic p) -> exec T (SIf c b1 b2) s t s' (CoPanic p)
| XSwitch c cls n s t1 s1 t2 s' o : step (w2_act W c) s t1 s1 (RBranch n) -> execs T (nth n cls []) s1 t2 s' o ->
    exec T (SSwitch c cls) s (t1 ++ t2) s' (leave o)
| XSwitchP c cls s t s' p : step (w2_act W c) s t s' (RPanic p) -> exec T (SSwitch c cls) s t s' (CoPanic p)
| XLoop h b post s t s' o : loops T h b post s t s' o -> exec T (SLoop h b post) s t s' o
| XReturn o s t s' vs : step (w2_act W o) s t s' (RVals vs) -> exec T (SReturn o) s t s' (CoRet vs)
| XReturnP o s t s' p : step (w2_act W o) s t s' (RPanic p) -> exec T (SReturn o) s t s' (CoPanic p)
| XBreak l s : exec T (SBreak l) s [] s (CoBreak l)
| XContinue s : exec T SContinue s [] s CoContinue
| XLabel l b s t s' o : execs T b s t s' o -> exec T (SLabel l b) s t s' (unlabel l o)
| XCallP m k kd p f ops cls s t s' v : placed T k f ops s p t s' (RPanic v) -> exec T (SCall m k kd p f ops cls) s t s' (CoPanic v)
| XCall m k p f ops cls s t s' vs : placed T k f ops s p t s' (RVals vs) -> exec T (SCall m k KPlain p f ops cls) s t s' CoNormal
| XCallRet m k p f ops cls s t s' vs : placed T k f ops s p t s' (RVals vs) -> exec T (SCall m k KReturn p f ops cls) s t s' (CoRet vs)
| XCallIf m k p f ops cls n s t1 s1 t2 s' o : placed T k f ops s p t1 s1 (RBranch n) -> execs T (nth n cls []) s1 t2 s' o ->
    exec T (SCall m k KIf p f ops cls) s (t1 ++ t2) s' o
| XCallSwitch m k p f ops cls n s t1 s1 t2 s' o : placed T k f ops s p t1 s1 (RBranch n) -> execs T (nth n cls []) s1 t2 s' o ->
    exec T (SCall m k KSwitch p f ops cls) s (t1 ++ t2) s' (leave o)
| XCallLoop m k c p f ops cls vs s t1 s1 t2 s' o : placed T k f ops s p t1 s1 (RVals vs) ->
    loops T (HOp c) (nth 0 cls []) (nth 1 cls []) s1 t2 s' o -> exec T (SCall m k (KLoop c) p f ops cls) s (t1 ++ t2) s' o
| XDefer m k f ops s t u ds vs : operands T k ops s t (CState u ds) (inr vs) ->
    exec T (SDefer m k f ops) s t (CState u (DCall k f vs :: ds)) CoNormal
| XDeferP m k f ops s t s' p : operands T k ops s t s' (inl p) -> exec T (SDefer m k f ops) s t s' (CoPanic p)
| XDeferBlock b u ds : exec T (SDeferBlock b) (CState u ds) [] (CState u (DBlock T b :: ds)) CoNormal
| XSend k p l s t s' vs : pass2 T k (map snd l) (map (fun _ => None) l) s t s' (inr vs) ->
    exec T (SSend k p l) s (t ++ [CeState p (combine (map fst l) vs)]) s' CoNormal
| XSendP k p l s t s' v : pass2 T k (map snd l) (map (fun _ => None) l) s t s' (inl v) ->
    exec T (SSend k p l) s t s' (CoPanic v)

with execs (T : temps) : list (stmt Op) -> cstate -> list cevent -> cstate -> coutcome -> Prop :=
| XsNil s : execs T [] s [] s CoNormal
| XsTemp x o b s t1 s1 v t2 s' oc : step (w2_act W o) s t1 s1 (RVals [v]) -> execs ((x, v) :: T) b s1 t2 s' oc ->
    execs T (STemp x o :: b) s (t1 ++ t2) s' oc
| XsTempP x o b s t s' p : step (w2_act W o) s t s' (RPanic p) -> execs T (STemp x o :: b) s t s' (CoPanic p)
| XsNext a b s t1 s1 t2 s' o : exec T a s t1 s1 CoNormal -> execs T b s1 t2 s' o -> execs T (a :: b) s (t1 ++ t2) s' o
| XsStop a b s t s' o : exec T a s t s' o -> o <> CoNormal -> execs T (a :: b) s t s' o

with loops (T : temps) : head Op -> list (stmt Op) -> list (stmt Op) -> cstate -> list cevent -> cstate -> coutcome -> Prop :=
| XlEnd h b post s t s' : cond T h s t s' (RBranch 0) -> loops T h b post s t s' CoNormal
| XlPanic h b post s t s' p : cond T h s t s' (RPanic p) -> loops T h b post s t s' (CoPanic p)
| XlLeave h b post n s t1 s1 t2 s' o : cond T h s t1 s1 (RBranch (S n)) -> execs T b s1 t2 s' o -> again o = false ->
    loops T h b post s (t1 ++ t2) s' (leave o)
| XlPost h b post n s t1 s1 t2 s2 o t3 s' o' : cond T h s t1 s1 (RBranch (S n)) -> execs T b s1 t2 s2 o -> again o = true ->
    execs T post s2 t3 s' o' -> o' <> CoNormal -> loops T h b post s (t1 ++ t2 ++ t3) s' o'
| XlNext h b post n s t1 s1 t2 s2 o t3 s3 t4 s' o' : cond T h s t1 s1 (RBranch (S n)) -> execs T b s1 t2 s2 o -> again o = true ->
    execs T post s2 t3 s3 CoNormal -> loops T h b post s3 t4 s' o' -> loops T h b post s (t1 ++ t2 ++ t3 ++ t4) s' o'.

(** The deferred calls, with the panic going on. *)
Inductive unwind : list deferred -> option V -> UState2 W -> list cevent -> UState2 W -> option V -> Prop :=
| UwNil c u : unwind [] c u [] u c
| UwCall k f vs ds c u t1 u1 c1 t2 u' c' : w2_defer W f vs c u t1 u1 c1 -> unwind ds c1 u1 t2 u' c' ->
    unwind (DCall k f vs :: ds) c u (CeCall k f vs :: map CeUser t1 ++ t2) u' c'
| UwBlock T b ds c u t1 u1 t2 u' c' : execs T b (CState u []) t1 (CState u1 []) CoNormal -> unwind ds c u1 t2 u' c' ->
    unwind (DBlock T b :: ds) c u (t1 ++ t2) u' c'
| UwBlockP T b ds c u t1 u1 p t2 u' c' : execs T b (CState u []) t1 (CState u1 []) (CoPanic p) -> unwind ds (Some p) u1 t2 u' c' ->
    unwind (DBlock T b :: ds) c u (t1 ++ t2) u' c'.

(** A call of a function with the given body: a panic or results. *)
Inductive run (body : list (stmt Op)) (u : UState2 W) : list cevent -> UState2 W -> V + list V -> Prop :=
| RunRet t1 u1 ds o ret t2 u' c : execs [] body (CState u []) t1 (CState u1 ds) o ->
    ret = match o with CoRet vs => Some vs | _ => None end -> o = CoNormal \/ (exists vs, o = CoRet vs) ->
    unwind ds None u1 t2 u' c -> run body u (t1 ++ t2) u' match c with Some p => inl p | None => inr (w2_res W ret u') end
| RunPanic t1 u1 ds p t2 u' c : execs [] body (CState u []) t1 (CState u1 ds) (CoPanic p) ->
    unwind ds (Some p) u1 t2 u' c -> run body u (t1 ++ t2) u' match c with Some p => inl p | None => inr (w2_res W None u') end.

End Sem.

Arguments CeUser {Op W}. Arguments CeCall {Op W}. Arguments CeState {Op W}. Arguments DCall {Op W}. Arguments DBlock {Op W}.
Arguments CState {Op W}. Arguments su {Op W}. Arguments sd {Op W}. Arguments CoNormal {Op W}. Arguments CoBreak {Op W}.
Arguments CoContinue {Op W}. Arguments CoRet {Op W}. Arguments CoPanic {Op W}. Arguments tlook {Op W}. Arguments cread {Op W}.
Arguments step {Op W}. Arguments ev1 {Op W}. Arguments pass1 {Op W}. Arguments pass2 {Op W}. Arguments operands {Op W}.
Arguments invoke {Op W}. Arguments used {Op W}. Arguments placed {Op W}. Arguments cond {Op W}. Arguments exec {Op W}.
Arguments execs {Op W}. Arguments loops {Op W}. Arguments unwind {Op W}. Arguments run {Op}. Arguments simple {Op}. Arguments vcons {Op W A}.
Arguments leave {Op W}. Arguments unlabel {Op W}. Arguments again {Op W}. Arguments opnd_op {Op}.

(** ** The order of reading *)

(** Names, selections and constants are read after the calls among the
    operands: the order the instrumented program shows, and the one of the gc
    compiler for names. *)
Definition reads_last {Op} (i : nat) (a : operand Op) (late : bool) : Prop := late = true.
(** The orders that permit this. *)
Definition may_read_last {Op} (D : nat -> operand Op -> bool -> Prop) : Prop := forall i a, simple a = true -> D i a true.
(** Any moment. *)
Definition reads_any {Op} (i : nat) (a : operand Op) (late : bool) : Prop := True.
(** In their place. *)
Definition reads_in_place {Op} (i : nat) (a : operand Op) (late : bool) : Prop := late = false.

(** ** Programs that keep their behaviour *)

(** Where a call stands. *)
Inductive spot := Straight | Behind | Guarded | Condition | Deferred | Labelled.

Record site Op := Site { c_m : bool; c_k : nat; c_spot : spot; c_ops : list (operand Op) }.
Arguments Site {Op}. Arguments c_m {Op}. Arguments c_k {Op}. Arguments c_spot {Op}. Arguments c_ops {Op}.

Definition spot_of {Op} (p : place Op) : spot := match p with PFirst _ => Straight | PAfter _ _ => Behind | PGuard _ _ => Guarded end.

(** The calls of a program. *)
Fixpoint sites {Op} (s : stmt Op) : list (site Op) :=
  match s with
  | SBlock b => flat_map sites b
  | SIf _ b1 b2 => flat_map sites b1 ++ flat_map sites b2
  | SSwitch _ cls => flat_map (flat_map sites) cls
  | SLoop (HOp _) b post => flat_map sites b ++ flat_map sites post
  | SLoop (HCall m k _ ops _) b post => Site m k Condition ops :: flat_map sites b ++ flat_map sites post
  | SLabel _ b => map (fun c => Site (c_m c) (c_k c) Labelled (c_ops c)) (flat_map sites b)
  | SCall m k _ p _ ops cls => Site m k (spot_of p) ops :: flat_map (flat_map sites) cls
  | SDefer m k _ ops => [Site m k Deferred ops]
  | _ => []
  end.

(** A program as the user wrote it: none of the added statements. *)
Fixpoint written {Op} (s : stmt Op) : bool :=
  match s with
  | SBlock b | SLabel _ b => forallb written b
  | SIf _ b1 b2 | SLoop _ b1 b2 => forallb written b1 && forallb written b2
  | SSwitch _ cls | SCall _ _ _ _ _ _ cls => forallb (forallb written) cls
  | STemp _ _ | SSend _ _ _ | SDeferBlock _ => false
  | _ => true
  end.

(** An operation without effects, and with one reply. *)
Definition pure {Op} (W : world2 Op) (o : Op) : Prop :=
  (forall u t u' r, w2_act W o u t u' r -> t = [] /\ u' = u) /\
  (forall u t1 u1 r1 t2 u2 r2, w2_act W o u t1 u1 r1 -> w2_act W o u t2 u2 r2 -> r1 = r2).

(** A receiver that may be copied: it makes no difference whether the method
    is called on it or on a variable holding its value. *)
Definition copyable {Op} (W : world2 Op) (o : Op) : Prop :=
  forall u t u' r, w2_adr W o u t u' r <-> w2_act W o u t u' r.

Definition is_recv {Op} (a : operand Op) : bool := match a with ORecvId _ | ORecvX _ => true | _ => false end.
Definition opnd_name {Op} (a : operand Op) : option bytes := match a with ORecvId x | OId x => Some x | _ => None end.
(** A call that keeps its meaning when its operands are captured. *)
Record safe {Op} (W : world2 Op) (c : site Op) : Prop := Safe {
  safe_spot : c_spot c = Straight;
  safe_recv : forallb (fun a => negb (is_recv a)) (tl (c_ops c)) = true;
  safe_pure : forall o, In (OSel o) (c_ops c) \/ In (OLit o) (c_ops c) \/ In (OConst o) (c_ops c) -> pure W o;
  safe_copy : forall o, In (ORecvX o) (c_ops c) -> copyable W o }.

(** Programs that keep their behaviour: [pt] and [opsof] give the calls that
    are to be reported and their operands. *)
Record prog_ok {Op} (W : world2 Op) (pt : nat -> bool) (opsof : nat -> list (operand Op)) (body : list (stmt Op)) : Prop := ProgOk {
  po_written : forallb written body = true;
  po_names : forall c a x, In c (flat_map sites body) -> In a (c_ops c) -> opnd_name a = Some x -> reserved x = false;
  po_points : forall c, In c (flat_map sites body) -> c_m c = pt (c_k c);
  po_ops : forall c, In c (flat_map sites body) -> pt (c_k c) = true -> c_ops c = opsof (c_k c);
  po_safe : forall c, In c (flat_map sites body) -> pt (c_k c) = true -> safe W c }.

(** ** What is reported *)

(** The field of an operand: an identifier in receiver position that is not
    the name of a package under its own name, another receiver as "recv", the
    i-th argument as "arg<i>". *)
Definition field {Op} {V} (pkgs : list bytes) (i : nat) (a : operand Op) (v : V) : list (bytes * V) :=
  match a with
  | ORecvId x => if beq x (B "_") || existsb (beq x) pkgs then [] else [(x, v)]
  | ORecvX _ => [(B "recv", v)]
  | _ => [(B "arg" ++ num i, v)]
  end.
Fixpoint arg_fields {Op} {V} (pkgs : list bytes) (i : nat) (l : list (operand Op)) (vs : list V) : list (bytes * V) :=
  match l, vs with a :: l', v :: vs' => field pkgs i a v ++ arg_fields pkgs (S i) l' vs' | _, _ => [] end.
(** The receiver is not counted. *)
Definition fields {Op} {V} (pkgs : list bytes) (ops : list (operand Op)) (vs : list V) : list (bytes * V) :=
  match ops, vs with
  | a :: ops', v :: vs' => if is_recv a then field pkgs 0 a v ++ arg_fields pkgs 0 ops' vs' else arg_fields pkgs 0 ops vs
  | _, _ => []
  end.

(** A trace with the message of every call to be reported directly before
    the call, with the values the call gets. *)
Definition announced {Op} {W : world2 Op} (pkgs : list bytes) (pid : nat -> N) (pt : nat -> bool) (opsof : nat -> list (operand Op))
    (t : list (cevent Op W)) : list (cevent Op W) :=
  flat_map (fun e => match e with
    | CeCall k f vs => if pt k then [CeState (pid k) (fields pkgs (opsof k) vs); e] else [e]
    | _ => [e]
    end) t.

(** All but the messages. *)
Definition doings {Op} {W : world2 Op} (t : list (cevent Op W)) : list (cevent Op W) :=
  filter (fun e => match e with CeState _ _ => false | _ => true end) t.

(** ** The call that is found *)

(** The outermost calls that are to be reported, outside of function
    literals, in the order of the program. *)
Fixpoint outer (t : tree) : list nat :=
  match t with
  | TLit _ => []
  | TCall k m ts => if m then [k] else flat_map outer ts
  | TNode ts => flat_map outer ts
  end.
