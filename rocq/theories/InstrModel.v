(** Model of the return-point instrumentation of lens/asttweak.go and of the
    part of Go it is applied to.

    What the statements mean is defined in InstrSpec.v.
    The rewriting replaces return statements inside a function body, so the
    model has a small statement language with a big-step semantics.  What the
    rewriting never looks into (simple statements, conditions, calls, function
    literals, deferred calls) stays opaque: an operation [Op] acts on the
    program state through a relation that is arbitrary in every theorem.

    Simplifications: [goto] is left out; the blank identifier is never read;
    the state [UState] contains the user's variables with their scopes, the
    variables added by the instrumentation are kept beside it in a list of
    bindings because no user code can hold a reference to them. *)

From Verif Require Import Base.

Section Lang.
(** Operations of the instrumented program, not looked into by lens/asttweak.go:556-624.
    *)
Variable Op : Type.

(** The kinds of expression buildReturnInstrumentation tells apart
    (lens/asttweak.go:1397-1518): identifiers, basic literals, calls (with the
    last name of the called expression, isRecursiveCall
    lens/asttweak.go:1813-1827) and all others.
    cloneExprNoPos (lens/asttweak.go:1622-1629) copies an expression by
    printing and parsing it and is taken to be the identity. *)
Inductive expr :=
| EId (x : bytes)
| ELit (o : Op)
| ECall (callee : bytes) (o : Op)
| EOther (o : Op).

(** Statements: opaque ones, those rewriteBlock descends into
    (lens/asttweak.go:556-624), those it does not (labelled statements,
    select), and the three kinds the instrumentation adds:
    [STemp k x (Some i) e] is [var x T = e] with [T] the i-th result type,
    [STemp k x None e] is [x := e] (lens/asttweak.go:1714-1766, 1484-1493),
    [STemps] the multiple definition of lens/asttweak.go:1370-1374 and
    [SSend] the call of sendLensPointStateMessage with the (shown name,
    variable) pairs of the snapshots (lens/asttweak.go:1631-1648).
    A return carries a tag standing for its position, and an added statement
    the tag of the return it was made for: names are looked up from there. *)
Inductive stmt :=
| SOp (o : Op)
| SBlock (b : list stmt)
| SIf (c : Op) (b : list stmt) (els : option stmt)
| SLoop (c : Op) (b : list stmt) (post : Op)
| SSwitch (c : Op) (cls : list (list stmt))
| SSelect (c : Op) (cls : list (list stmt))
| SLabeled (l : bytes) (s : stmt)
| SReturn (k : nat) (rs : list expr)
| SBreak (l : option bytes)
| SContinue (l : option bytes)
| SFallthrough
| STemp (k : nat) (x : bytes) (ty : option nat) (e : expr)
| STemps (k : nat) (xs : list bytes) (e : expr)
| SSend (k : nat) (p : N) (snaps : list (bytes * bytes)).

(** What the rewriting knows about the function: its name, the result names
    (empty when unnamed, lens/asttweak.go:527-545), the identifiers of each
    result type (exprContainsTypeShadow, lens/asttweak.go:1771-1779). *)
Record func := Func { f_name : bytes; f_names : list bytes; f_tyids : list (list bytes) }.

(** Oracles of the rewriting: the identifiers occurring in an expression
    (ast.Inspect, lens/asttweak.go:1783-1791), the need of a temporary decided
    from the type information (lens/asttweak.go:1399-1429, 1450-1459), the
    names visible at a return (visibleDeclsBefore, modelled on its own), the
    point id drawn for a return (nextPointId), and for a function without
    visited return the names visible at its end, its point id, the tag of the
    added return and the zero values (zeroValueForType,
    lens/asttweak.go:1534-1607). *)
Record info := Info {
  i_ids : Op -> list bytes;
  i_need : nat -> expr -> bool;
  i_decls : nat -> list bytes;
  i_pid : nat -> N;
  i_end_decls : list bytes;
  i_end_pid : N;
  i_end_tag : nat;
  i_zero : nat -> expr }.

(** The function being instrumented, lens/asttweak.go:527-545. *)
Variable F : func.
(** What type information tells of the file, lens/asttweak.go:1306-1530. *)
Variable I : info.

(** lens/asttweak.go:34-38 *)
Definition p_tmp : bytes := B "lenSyntheticTmp".
(** lens/asttweak.go:34-38. *)
Definition p_ret : bytes := B "lenSyntheticRet".
(** lens/asttweak.go:34-38. *)
Definition p_rec : bytes := B "lenSyntheticRec".
(** lens/asttweak.go:34-38. *)
Definition p_arg : bytes := B "lenSyntheticArg".
(** lens/asttweak.go:34-38. *)
Definition p_recv : bytes := B "lenSyntheticRecv".

(** lens/asttweak.go:1670-1680: the name shown for a snapshot.  The fourth
    case of the code can never be taken ([p_rec] is a prefix of [p_recv]). *)
Definition shown (x : bytes) : bytes :=
  if has_prefix p_ret x then B "ret" ++ skipn (length p_ret) x
  else if has_prefix p_rec x then B "rec" ++ skipn (length p_rec) x
  else if has_prefix p_arg x then B "arg" ++ skipn (length p_arg) x
  else if has_prefix p_recv x then B "recv" ++ skipn (length p_recv) x
  else x.

(** Membership in the maps and slices of names (lens/asttweak.go:1313, 1325, 1775). *)
Definition mem (x : bytes) (l : list bytes) : bool := existsb (beq x) l.

(** lens/asttweak.go:1312-1320 and 1654-1662: one snapshot per visible name;
    returns the snapshots and the names seen. *)
Fixpoint snap_decls (ds seen : list bytes) : list (bytes * bytes) * list bytes :=
  match ds with
  | [] => ([], seen)
  | d :: ds' =>
    if beq d (B "nil") || mem d seen then snap_decls ds' seen
    else let (s, seen') := snap_decls ds' (d :: seen) in ((shown d, d) :: s, seen')
  end.

(** lens/asttweak.go:1325 *)
Definition all_named : bool :=
  match f_names F with [] => false | _ => negb (mem [] (f_names F)) end.

(** lens/asttweak.go:1328-1339: the loop over the result names of a bare
    return; returns the snapshots, the results and whether one is blank. *)
Fixpoint bare_names (ns seen : list bytes) : list (bytes * bytes) * list expr * bool :=
  match ns with
  | [] => ([], [], false)
  | n :: ns' =>
    if beq n (B "_") then let '(s, r, _) := bare_names ns' seen in (s, r, true)
    else if mem n seen then let '(s, r, b) := bare_names ns' seen in (s, EId n :: r, b)
    else let '(s, r, b) := bare_names ns' (n :: seen) in ((shown n, n) :: s, EId n :: r, b)
  end.

(** lens/asttweak.go:1771-1794 *)
Definition expr_ids (e : expr) : list bytes :=
  match e with EId x => [x] | ELit o | ECall _ o | EOther o => i_ids I o end.
(** exprContainsTypeShadow, lens/asttweak.go:1771-1794. *)
Definition shadow (i : nat) (e : expr) : bool :=
  existsb (fun x => mem x (nth i (f_tyids F) [])) (expr_ids e).

(** lens/asttweak.go:1813-1827 *)
Definition recursive (e : expr) : bool :=
  match e with ECall c _ => beq c (f_name F) | _ => false end.

(** strconv.Itoa, lens/asttweak.go:1716 *)
Definition num (i : nat) : bytes := itoa (N.of_nat i).
(** lens/asttweak.go:1392-1395, 1717, 1733 *)
Definition ret_name (e : expr) (i : nat) : bytes := (if recursive e then p_rec else p_ret) ++ num i.
(** lens/asttweak.go:1733. *)
Definition tmp_name (i : nat) : bytes := p_tmp ++ num i.

(** makeReturnTemp, lens/asttweak.go:1715-1766; [e] is the returned
    expression, it also decides the prefix. *)
Definition make_temp (k i : nat) (e : expr) : list stmt :=
  let r := ret_name e i in
  let typed := match e with EId x => beq x (B "nil") | _ => false end in
  if typed then [STemp k r (Some i) e]
  else if shadow i e then [STemp k (tmp_name i) None e; STemp k r None (EId (tmp_name i))]
  else [STemp k (tmp_name i) (Some i) e; STemp k r (Some i) (EId (tmp_name i))].

(** One result expression, lens/asttweak.go:1391-1519: the statements added,
    the result, its snapshots and the names seen. *)
Definition one_result (k i : nat) (e : expr) (seen : list bytes)
  : list stmt * expr * list (bytes * bytes) * list bytes :=
  let r := ret_name e i in
  match e with
  | EId x =>
    if i_need I i e then (make_temp k i e, EId r, [(shown r, r)], r :: seen)
    else if negb (mem x seen) && negb (beq x (B "nil")) then ([], EId x, [(shown x, x)], x :: seen)
    else ([], EId x, [], seen)
  | ELit _ =>
    if i_need I i e then (make_temp k i e, EId r, [(shown r, r)], r :: seen)
    else ([STemp k r (Some i) e], EId r, [(shown r, r)], r :: seen)
  | _ => (make_temp k i e, EId r, [(shown r, r)], r :: seen)
  end.

(** The loop of lens/asttweak.go:1391-1519. *)
Fixpoint results (k i : nat) (es : list expr) (seen : list bytes)
  : list stmt * list expr * list (bytes * bytes) :=
  match es with
  | [] => ([], [], [])
  | e :: es' =>
    let '(pre, r, sn, seen') := one_result k i e seen in
    let '(pre', rs', sn') := results k (S i) es' seen' in
    (pre ++ pre', r :: rs', sn ++ sn')
  end.

(** lens/asttweak.go:1358-1364 *)
Definition spread_names : list bytes := map (fun i => p_ret ++ num i) (seq 0 (length (f_names F))).

(** buildReturnInstrumentation, lens/asttweak.go:1306-1530: the statements of
    the block that replaces the return. *)
Definition build_return (k : nat) (rs : list expr) : list stmt :=
  let p := i_pid I k in
  let (snaps, seen) := snap_decls (i_decls I k) [] in
  match rs with
  | [] =>
    if all_named then
      let '(s, r, blank) := bare_names (f_names F) seen in
      [SSend k p (snaps ++ s); SReturn k (if blank then [] else r)]
    else [SSend k p snaps; SReturn k []]
  | _ =>
    match rs with
    | [ECall c o] =>
      if (1 <? length (f_names F))%nat then
        [STemps k spread_names (ECall c o);
         SSend k p (snaps ++ map (fun x => (shown x, x)) spread_names);
         SReturn k (map EId spread_names)]
      else let '(pre, r, s) := results k 0 rs seen in pre ++ [SSend k p (snaps ++ s); SReturn k r]
    | _ => let '(pre, r, s) := results k 0 rs seen in pre ++ [SSend k p (snaps ++ s); SReturn k r]
    end
  end.

(** rewriteBlock, lens/asttweak.go:556-624.  Of an [else if] only the body is
    rewritten, not its own else branch (lines 587-590). *)
Fixpoint rw (s : stmt) : stmt :=
  match s with
  | SReturn k rs => SBlock (build_return k rs)
  | SBlock b => SBlock (map rw b)
  | SIf c b els =>
    SIf c (map rw b)
      match els with
      | Some (SBlock b') => Some (SBlock (map rw b'))
      | Some (SIf c' b' e') => Some (SIf c' (map rw b') e')
      | e => e
      end
  | SLoop c b p => SLoop c (map rw b) p
  | SSwitch c cls => SSwitch c (map (map rw) cls)
  | s => s
  end.

(** The tags of the returns rewriteBlock reaches, in the order in which their
    point ids are drawn and appended to pointIDs (lens/asttweak.go:559-565). *)
Fixpoint reached (s : stmt) : list nat :=
  match s with
  | SReturn k _ => [k]
  | SBlock b => flat_map reached b
  | SIf c b els =>
    flat_map reached b ++
      match els with
      | Some (SBlock b') => flat_map reached b'
      | Some (SIf c' b' e') => flat_map reached b'
      | _ => []
      end
  | SLoop c b p => flat_map reached b
  | SSwitch c cls => flat_map (flat_map reached) cls
  | _ => []
  end.

(** lens/asttweak.go:643-680: the return added after the last message. *)
Definition tail_return : list stmt :=
  match f_names F with
  | [] => []
  | _ =>
    if all_named && negb (mem (B "_") (f_names F)) then [SReturn (i_end_tag I) []]
    else [SReturn (i_end_tag I)
            (map (fun ix => if all_named && negb (beq (snd ix) []) && negb (beq (snd ix) (B "_"))
                            then EId (snd ix) else i_zero I (fst ix))
                 (combine (seq 0 (length (f_names F))) (f_names F)))]
  end.

(** InjectFuncPointReturnStates, lens/asttweak.go:626-681 (the marker comment
    and the look-up of the declaration are left out): the new body. *)
Definition instrument (body : list stmt) : list stmt :=
  match flat_map reached body with
  | [] => map rw body ++ [SSend (i_end_tag I) (i_end_pid I) (fst (snap_decls (i_end_decls I) []))] ++ tail_return
  | _ => map rw body
  end.

End Lang.

Arguments EId {Op}. Arguments ELit {Op}. Arguments ECall {Op}. Arguments EOther {Op}.
Arguments SOp {Op}. Arguments SBlock {Op}. Arguments SIf {Op}. Arguments SLoop {Op}.
Arguments SSwitch {Op}. Arguments SSelect {Op}. Arguments SLabeled {Op}. Arguments SReturn {Op}.
Arguments SBreak {Op}. Arguments SContinue {Op}. Arguments SFallthrough {Op}.
Arguments STemp {Op}. Arguments STemps {Op}. Arguments SSend {Op}.
Arguments i_ids {Op}. Arguments i_need {Op}. Arguments i_decls {Op}. Arguments i_pid {Op}.
Arguments i_end_decls {Op}. Arguments i_end_pid {Op}. Arguments i_end_tag {Op}. Arguments i_zero {Op}.
Arguments rw {Op}. Arguments reached {Op}. Arguments instrument {Op}. Arguments build_return {Op}.
Arguments results {Op}. Arguments one_result {Op}. Arguments make_temp {Op}. Arguments shadow {Op}.
Arguments ret_name {Op}. Arguments recursive {Op}. Arguments expr_ids {Op}. Arguments tail_return {Op}.
Arguments bare_names {Op}.

