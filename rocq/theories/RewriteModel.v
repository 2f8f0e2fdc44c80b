(** InjectFuncPointBeforeCall (lens/asttweak.go:702-1057) on the whole statement syntax, with function
    literals, the statements it has added before and the repeated visits. CallModel.v says what a rewritten
    statement does; this file says which statements are rewritten.  Definitions only. *)
From Verif Require Import Base InstrModel.
Local Open Scope nat_scope.

(** ** Syntax *)
(** Syntax nodes as ast.Inspect walks them (lens/asttweak.go:739-753, 766-778); the children of a node in the
    order of the walk.  The children are: a call: the function, the arguments; [KFun]: the statements of a
    function literal; [KIf]: init, condition, body, else; [KFor]: init, condition, post, body; [KRange]: operand, body;
    [KSwitch] and [KTypeSwitch]: init, tag or assignment, clauses; [KSelect]: clauses; [KClause]: what is in front of the
    colon, statements; [KDefer] and [KGo]: the call; [KLabel]: the statement; [KChan]: channel, value; [KMsg]: the values.
    [KNone] is an absent child, [KNode] any other expression, [KOther] any other statement.  [m] of a call is what
    shouldInject says of it, [k] a tag. Types are left out. *)
Inductive kind :=
| KNone | KId (x : bytes) | KSel (f : bytes) | KBasic | KBin | KUn | KPar | KNode
| KCall (m : bool) (k : nat) | KFun (ps : list bytes) | KMsg (p : N) (names : list bytes)
| KExpr | KAssign (def : list bytes) | KVar (def : list bytes) | KReturn | KDefer | KGo | KChan | KBlock | KIf | KFor | KRange (def : list bytes)
| KSwitch | KTypeSwitch | KSelect | KClause | KLabel | KOther.
(** lens/asttweak.go:739-753. *)
Inductive nd := Nd (k : kind) (cs : list nd).
(** lens/asttweak.go:739-753. *)
Definition kind_of (t : nd) : kind := let (k, _) := t in k.
(** lens/asttweak.go:739-753. *)
Definition kids (t : nd) : list nd := let (_, cs) := t in cs.

(** The entry of a list replaced (assignments through the pointer, lens/asttweak.go:993, 1013). *)
Fixpoint put {A} (i : nat) (x : A) (l : list A) : list A :=
  match l, i with [], _ => [] | _ :: l', O => x :: l' | y :: l', S i' => y :: put i' x l' end.
(** The child at a place (lens/asttweak.go:874-925). *)
Definition kid (i : nat) (t : nd) : nd := nth i (kids t) (Nd KNone []).

(** ** Finding a call *)
(** findMatchingCall (lens/asttweak.go:736-755): the last of the outermost matching calls outside function
    literals, and the node with another call in its place. *)
Fixpoint locate (t : nd) : option (nd * (nd -> nd)) :=
  match t with
  | Nd k cs =>
    match k with
    | KFun _ => None
    | KCall true _ => Some (t, fun y => y)
    | _ =>
      match (fix go (l : list nd) : option (nd * (nd -> list nd)) :=
               match l with
               | [] => None
               | c :: l' =>
                 match go l' with
                 | Some (x, r) => Some (x, fun y => c :: r y)
                 | None => match locate c with Some (x, r) => Some (x, fun y => r y :: l') | None => None end
                 end
               end) cs with
      | Some (x, r) => Some (x, fun y => Nd k (r y))
      | None => None
      end
    end
  end.
(** In a child (lens/asttweak.go:795-925). *)
Definition locate_at (i : nat) (t : nd) : option (nd * (nd -> nd)) :=
  if i <? length (kids t)
  then match locate (kid i t) with Some (x, r) => Some (x, fun y => Nd (kind_of t) (put i (r y) (kids t))) | None => None end
  else None.
(** In a child, else in another (lens/asttweak.go:880-885, 889-894, 902-907, 911-916). *)
Definition locate_or (i j : nat) (t : nd) : option (nd * (nd -> nd)) :=
  match locate_at i t with Some x => Some x | None => locate_at j t end.
(** The first clause of a select statement whose communication has one (lens/asttweak.go:918-930). *)
Fixpoint locate_comm (cls : list nd) : option (nd * (nd -> list nd)) :=
  match cls with
  | [] => None
  | c :: cls' =>
    match (match kind_of c with KClause => locate_at 0 c | _ => None end) with
    | Some (x, r) => Some (x, fun y => r y :: cls')
    | None => match locate_comm cls' with Some (x, r) => Some (x, fun y => c :: r y) | None => None end
    end
  end.
(** The call of a statement (lens/asttweak.go:790-931); defer and go statements are apart. *)
Definition focus (t : nd) : option (nd * (nd -> nd)) :=
  match kind_of t with
  | KExpr | KAssign _ | KReturn | KVar _ => locate t
  | KChan => locate_at 1 t
  | KIf | KFor | KSwitch | KTypeSwitch => locate_or 0 1 t
  | KRange _ => locate_at 0 t
  | KSelect => match locate_comm (kids t) with Some (x, r) => Some (x, fun y => Nd KSelect (r y)) | None => None end
  | _ => None
  end.

(** ** Building the statements in front *)
(** isConstantExpr (lens/asttweak.go:1797-1810). *)
Fixpoint is_const (t : nd) : bool :=
  match t with
  | Nd KBasic [] => true
  | Nd KBin [a; b] => is_const a && is_const b
  | Nd KUn [a] | Nd KPar [a] => is_const a
  | _ => false
  end.
(** An argument that is not taken out of the call (lens/asttweak.go:1112-1137). *)
Definition stays (t : nd) : bool :=
  match t with Nd (KId _) [] => true | Nd (KSel _) _ => true | _ => is_const t end.
(** x := e (lens/asttweak.go:1092-1096, 1142-1146). *)
Definition define (x : bytes) (e : nd) : nd := Nd (KAssign [x]) [e].
(** lens/asttweak.go:1091, 1141. *)
Definition name (x : bytes) : nd := Nd (KId x) [].
(** lens/asttweak.go:1140. *)
Definition arg_var (p : N) (i : nat) : bytes := p_arg ++ itoa p ++ B "_" ++ num i.
(** lens/asttweak.go:1089. *)
Definition recv_var (p : N) : bytes := p_recv ++ itoa p.
(** The arguments (lens/asttweak.go:1108-1149): statements, new arguments, values shown. *)
Fixpoint build_args (p : N) (i : nat) (l : list nd) : list nd * list nd * list (bytes * nd) :=
  match l with
  | [] => ([], [], [])
  | a :: l' =>
    let '(s, l'', v) := build_args p (S i) l' in
    if stays a then (s, a :: l'', (B "arg" ++ num i, a) :: v)
    else (define (arg_var p i) a :: s, name (arg_var p i) :: l'', (B "arg" ++ num i, name (arg_var p i)) :: v)
  end.
Section Pkgs.
(** filePackageNames (lens/asttweak.go:716-728). *)
Variable pkgs : list bytes.
(** The receiver (lens/asttweak.go:1078-1105). *)
Definition build_recv (p : N) (f : nd) : list nd * nd * list (bytes * nd) :=
  match f with
  | Nd (KSel m) [Nd (KId x) []] => ([], f, if negb (beq x (B "_")) && negb (mem x pkgs) then [(shown x, name x)] else [])
  | Nd (KSel m) [x] => ([define (recv_var p) x], Nd (KSel m) [name (recv_var p)], [(B "recv", name (recv_var p))])
  | _ => ([], f, [])
  end.
(** sendLensPointStateMessage(p, ...) (lens/asttweak.go:1152-1156); the values in it are copies made by printing and
    parsing (1631-1648). *)
Definition message (p : N) (v : list (bytes * nd)) : nd := Nd KExpr [Nd (KMsg p (map fst v)) (map snd v)].
(** buildCallInstrumentationWithArgs (lens/asttweak.go:1072-1157): the statements in front and the new call. *)
Definition build (p : N) (c : nd) : list nd * nd :=
  match c with
  | Nd k (f :: args) =>
    let '(s, f', v) := build_recv p f in
    let '(s', args', v') := build_args p 0 args in
    (s ++ s' ++ [message p (v ++ v')], Nd k (f' :: args'))
  | _ => ([message p []], c)
  end.
(** func() { ... }() (lens/asttweak.go:820-826, 993-1000). *)
Definition closure (l : list nd) : nd := Nd (KCall false 0) [Nd (KFun []) l].

(** ** Rewriting *)
(** The next point id, the map from points to calls (pointMap, lens/asttweak.go:730) in the order of its
    making, and how often rewriteBlock was called.  That ids may run out (C31) and that printing may fail are left out. *)
Record state := State { st_next : N; st_points : list (N * nat); st_visits : N }.
(** m.nextPointId and pointMap (lens/asttweak.go:803-807, 934-938, 978-982). *)
Definition draw (s : state) (c : nd) : state :=
  State (st_next s + 1) (st_points s ++ [(st_next s, match kind_of c with KCall _ k => k | _ => 0 end)]) (st_visits s).
(** isPrevStmtSendLensPoint (lens/asttweak.go:1209-1224): the last statement is a message. *)
Definition is_message (t : nd) : bool := match t with Nd KExpr [Nd (KMsg _ _) _] => true | _ => false end.
(** lens/asttweak.go:785. *)
Definition after_message (l : list nd) : bool := is_message (last l (Nd KNone [])).
(** A defer or go statement whose call matches (lens/asttweak.go:801, 844). *)
Definition wraps (t : nd) : option nd :=
  match t with Nd (KDefer | KGo) [Nd (KCall true k) cs] => Some (Nd (KCall true k) cs) | _ => None end.

Section Visit.
(** rewriteBlock on the statements of a block (lens/asttweak.go:782). *)
Variable rb : state -> list nd -> option (state * list nd).
(** A function on each entry in turn (lens/asttweak.go:766-778, 1006-1036). *)
Definition each (f : state -> nd -> option (state * nd)) : state -> list nd -> option (state * list nd) :=
  fix go s l := match l with
                | [] => Some (s, [])
                | t :: l' => match f s t with
                             | Some (s1, t') => match go s1 l' with Some (s2, l'') => Some (s2, t' :: l'') | None => None end
                             | None => None
                             end
                end.
(** rewriteFuncLitsIn (lens/asttweak.go:763-780). *)
Fixpoint lits (s : state) (t : nd) {struct t} : option (state * nd) :=
  match t with
  | Nd (KFun ps) cs => match rb s cs with Some (s', cs') => Some (s', Nd (KFun ps) cs') | None => None end
  | Nd k cs => match each lits s cs with Some (s', cs') => Some (s', Nd k cs') | None => None end
  end.
(** rewriteBlock on a block or on the statements of a clause (lens/asttweak.go:954-957, 1009-1013); nothing for others. *)
Definition into (s : state) (t : nd) : option (state * nd) :=
  match t with
  | Nd KBlock l => match rb s l with Some (s', l') => Some (s', Nd KBlock l') | None => None end
  | Nd KClause (h :: l) => match rb s l with Some (s', l') => Some (s', Nd KClause (h :: l')) | None => None end
  | _ => Some (s, t)
  end.
(** The child at a place (lens/asttweak.go:959, 1002). *)
Definition into_at (i : nat) (s : state) (t : nd) : option (state * nd) :=
  if i <? length (kids t)
  then match into s (kid i t) with Some (s', c) => Some (s', Nd (kind_of t) (put i c (kids t))) | None => None end
  else Some (s, t).
(** The else branch (lens/asttweak.go:962-972): of an else-if only the body. *)
Definition into_else (s : state) (t : nd) : option (state * nd) :=
  match kind_of (kid 3 t) with
  | KBlock => into_at 3 s t
  | KIf => match into_at 2 s (kid 3 t) with Some (s', e) => Some (s', Nd (kind_of t) (put 3 e (kids t))) | None => None end
  | _ => Some (s, t)
  end.
(** The post statement of a loop (lens/asttweak.go:975-1001). *)
Definition post (s : state) (t : nd) : state * nd :=
  if 2 <? length (kids t)
  then match locate (kid 2 t) with
       | Some (c, r) => let (pre, c') := build (st_next s) c in
                        (draw s c, Nd (kind_of t) (put 2 (Nd KExpr [closure (pre ++ [r c'])]) (kids t)))
       | None => (s, t)
       end
  else (s, t).
(** Nested blocks (lens/asttweak.go:953-1038). *)
Definition nested (s : state) (t : nd) : option (state * nd) :=
  match kind_of t with
  | KBlock => into s t
  | KIf => match into_at 2 s t with Some (s', t') => into_else s' t' | None => None end
  | KFor => let (s', t') := post s t in into_at 3 s' t'
  | KRange _ => into_at 1 s t
  | KSwitch | KTypeSwitch =>
    match kids t with
    | a :: b :: cls => match each into s cls with Some (s', cls') => Some (s', Nd (kind_of t) (a :: b :: cls')) | None => None end
    | _ => Some (s, t)
    end
  | KSelect => match each into s (kids t) with Some (s', cs) => Some (s', Nd (kind_of t) cs) | None => None end
  | _ => Some (s, t)
  end.
(** One statement (lens/asttweak.go:784-1046): [acc] are the new statements so far. *)
Definition step (s : state) (acc : list nd) (t : nd) : option (state * list nd) :=
  if after_message acc then Some (s, acc ++ [t])
  else
    match wraps t with
    | Some c =>
      let (pre, c') := build (st_next s) c in
      match each lits (draw s c) pre with
      | Some (s', pre') => Some (s', acc ++ [Nd (kind_of t) [closure (pre' ++ [Nd KExpr [c']])]])
      | None => None
      end
    | None =>
      let '(s1, pre, t1) := match focus t with
                            | Some (c, r) => let (pre, c') := build (st_next s) c in (draw s c, pre, r c')
                            | None => (s, [], t)
                            end in
      match nested s1 t1 with
      | Some (s2, t2) => match lits s2 t2 with Some (s3, t3) => Some (s3, acc ++ pre ++ [t3]) | None => None end
      | None => None
      end
    end.
(** The statements of a block (lens/asttweak.go:784-1047). *)
Fixpoint steps (s : state) (acc l : list nd) : option (state * list nd) :=
  match l with [] => Some (s, acc) | t :: l' => match step s acc t with Some (s', acc') => steps s' acc' l' | None => None end end.
End Visit.

(** rewriteBlock (lens/asttweak.go:782-1050), at most [fuel] calls deep. *)
Fixpoint rwb (fuel : nat) (s : state) (l : list nd) : option (state * list nd) :=
  match fuel with
  | O => None
  | S f => steps (rwb f) (State (st_next s) (st_points s) (st_visits s + 1)) [] l
  end.
End Pkgs.

(** How deep function literals, blocks and clauses are nested (they are what lens/asttweak.go:782 is called for), with
    the function literals that 820-826 and 993-1000 would add. *)
Fixpoint deep (t : nd) : nat :=
  match t with
  | Nd k cs =>
    let m := (fix go (l : list nd) := match l with [] => 0 | c :: l' => Nat.max (deep c) (go l') end) cs in
    match k with
    | KFun _ | KBlock | KClause => S m
    | KDefer | KGo => match wraps t with Some _ => S m | None => m end
    | KFor => match locate (kid 2 t) with Some _ => S m | None => m end
    | _ => m
    end
  end.
(** lens/asttweak.go:702-1057: the points and the new body. *)
Definition rewrite_calls (pkgs : list bytes) (next : N) (body : list nd) : option (state * list nd) :=
  rwb pkgs (S (list_max (map deep body))) (State next [] 0) body.
