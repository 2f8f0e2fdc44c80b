(** What C78 says, without the functions of the model. *)
From Verif Require Import Base InstrModel RewriteModel.
Local Open Scope nat_scope.

(** A node in another. *)
Inductive sub : nd -> nd -> Prop :=
| sub_here t : sub t t
| sub_in t k cs c : In c cs -> sub t c -> sub t (Nd k cs).
(** The matching call [j] is in a node, outside function literals. *)
Inductive calls (j : nat) : nd -> Prop :=
| calls_here cs : calls j (Nd (KCall true j) cs)
| calls_in k cs c : (forall ps, k <> KFun ps) -> In c cs -> calls j c -> calls j (Nd k cs).
(** ... in the part of a statement that is in front of its blocks. *)
Definition shows (j : nat) (t : nd) : Prop :=
  match kind_of t with
  | KIf | KFor | KSwitch | KTypeSwitch => exists c, In c (firstn 2 (kids t)) /\ calls j c
  | KRange _ => exists c, In c (firstn 1 (kids t)) /\ calls j c
  | KSelect => exists cl c, In cl (kids t) /\ kind_of cl = KClause /\ In c (firstn 1 (kids cl)) /\ calls j c
  | KFun _ | KBlock | KClause | KLabel => False
  | _ => calls j t
  end.
(** The statements of a function literal, block or clause. *)
Definition entries (t : nd) : list nd := match t with Nd (KFun _ | KBlock) cs => cs | Nd KClause (_ :: l) => l | _ => [] end.
(** An expression or a simple statement: no blocks outside function literals. *)
Fixpoint flat (t : nd) : bool :=
  match t with Nd k cs => match k with KFun _ => true | KBlock | KClause | KIf | KFor | KRange _ | KSwitch | KTypeSwitch | KSelect | KLabel => false | _ => forallb flat cs end end.
(** Where the grammar has expressions and simple statements. *)
Definition fronts (k : kind) (cs : list nd) : list nd :=
  match k with
  | KFun _ | KBlock | KLabel | KSelect => []
  | KClause | KRange _ => firstn 1 cs
  | KIf | KSwitch | KTypeSwitch => firstn 2 cs
  | KFor => firstn 3 cs
  | _ => cs
  end.
(** Trees as the parser makes them. *)
Fixpoint wf (t : nd) : bool := match t with Nd k cs => forallb flat (fronts k cs) && forallb wf cs end.
(** No message. *)
Fixpoint nomsg (t : nd) : bool := match t with Nd k cs => match k with KMsg _ _ => false | _ => forallb nomsg cs end end.

(** The matching call [j] is where the function looks for one in this statement. *)
Definition due (j : nat) (t : nd) : Prop :=
  match kind_of t with
  | KExpr | KAssign _ | KVar _ | KReturn => calls j t
  | KChan => exists c v l, kids t = c :: v :: l /\ calls j v
  | KDefer | KGo => exists cs, kids t = [Nd (KCall true j) cs]
  | KIf | KFor | KSwitch | KTypeSwitch => exists c, In c (firstn 2 (kids t)) /\ calls j c
  | KRange _ => exists c, In c (firstn 1 (kids t)) /\ calls j c
  | KSelect => exists cl c, In cl (kids t) /\ kind_of cl = KClause /\ In c (firstn 1 (kids cl)) /\ calls j c
  | _ => False
  end.
(** The statement lists of a statement that are looked through. *)
Inductive inner : nd -> list nd -> Prop :=
| inner_block l : inner (Nd KBlock l) l
| inner_then i c l e : inner (Nd KIf (i :: c :: Nd KBlock l :: e)) l
| inner_else i c b l : inner (Nd KIf [i; c; b; Nd KBlock l]) l
| inner_elif i c b i' c' l e : inner (Nd KIf [i; c; b; Nd KIf (i' :: c' :: Nd KBlock l :: e)]) l
| inner_for i c p l : inner (Nd KFor [i; c; p; Nd KBlock l]) l
| inner_range d x l : inner (Nd (KRange d) [x; Nd KBlock l]) l
| inner_switch k a b cls h l : k = KSwitch \/ k = KTypeSwitch -> In (Nd KClause (h :: l)) cls -> inner (Nd k (a :: b :: cls)) l
| inner_select cls h l : In (Nd KClause (h :: l)) cls -> inner (Nd KSelect cls) l.
(** A function literal in a node that is in no other. *)
Inductive literal (l : list nd) : nd -> Prop :=
| literal_here ps : literal l (Nd (KFun ps) l)
| literal_in k cs c : (forall ps, k <> KFun ps) -> In c cs -> literal l c -> literal l (Nd k cs).
(** Statements reached from a statement list: also in the function literals of simple statements without a call. *)
Inductive reached (t : nd) : list nd -> Prop :=
| reached_here l : In t l -> reached t l
| reached_inner l u l' : In u l -> inner u l' -> reached t l' -> reached t l
| reached_literal l u l' : In u l -> flat u = true -> (forall j, ~ due j u) -> literal l' u -> reached t l' -> reached t l.

(** Names a statement declares for what comes behind it. *)
Fixpoint declares (t : nd) : list bytes := match t with Nd (KAssign d | KVar d) _ => d | Nd KLabel [u] => declares u | _ => [] end.
(** Names used but not declared. *)
Fixpoint undeclared (env : list bytes) (t : nd) {struct t} : list bytes :=
  match t with
  | Nd k cs =>
    let go := fix go (env : list bytes) (l : list nd) : list bytes := match l with [] => [] | c :: l' => undeclared env c ++ go (declares c ++ env) l' end in
    match k with
    | KId x => (if mem x env then [] else [x]) ++ flat_map (undeclared env) cs
    | KFun ps => go (ps ++ env) cs
    | KRange d => match cs with [] => [] | c :: cs' => undeclared env c ++ go (d ++ env) cs' end
    | KBlock | KClause | KIf | KFor | KSwitch | KTypeSwitch => go env cs
    | _ => flat_map (undeclared env) cs
    end
  end.
(** A matching call outside function literals and blocks. *)
Fixpoint has_call (t : nd) : bool :=
  match t with
  | Nd k cs =>
    match k with
    | KCall true _ => true
    | KFun _ | KBlock | KClause | KIf | KFor | KRange _ | KSwitch | KTypeSwitch | KSelect | KLabel => false
    | _ => existsb has_call cs
    end
  end.
(** A condition with a matching call only behind an init statement that declares nothing or has a matching call itself;
    a post statement declares nothing. *)
Definition init_ok (k : kind) (cs : list nd) : bool :=
  match k, cs with
  | (KIf | KFor | KSwitch | KTypeSwitch), i :: c :: _ => match declares i with [] => true | _ => has_call i || negb (has_call c) end
  | _, _ => true
  end &&
  match k, cs with KFor, _ :: _ :: p :: _ => match declares p with [] => true | _ => false end | _, _ => true end.
(** ... everywhere, in a tree as the parser makes it. *)
Fixpoint inits_ok (t : nd) : bool := match t with Nd k cs => forallb flat (fronts k cs) && init_ok k cs && forallb inits_ok cs end.
