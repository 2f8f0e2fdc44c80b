(** Go's scopes on positioned syntax trees: which names are in scope at a return
    statement, and which declaration each of them means.  Nothing here refers to
    the scan of lens/asttweak.go:1226-1302. *)
From Verif Require Import Base Maps VisibleModel.

(** The blocks of the Go specification: blocks, if, for, switch and select
    clauses, function literals. *)
Definition opens (k : kind) : bool :=
  match k with KPlain | KRet | KSelect => false | _ => true end.

(** What a statement declares in the block around it. *)
Fixpoint leaks (n : node) : list (bytes * N) :=
  let (k, _, _, ids, kids) := n in if opens k then [] else ids ++ flat_map leaks kids.

(** A node is read with the declarations in front of it. *)
Definition seq_rets (rets : list (bytes * N) -> node -> list (N * list (bytes * N) * bool)) :=
  fix go (env : list (bytes * N)) (l : list node) : list (N * list (bytes * N) * bool) :=
  match l with
  | [] => []
  | c :: r => rets env c ++ go (env ++ leaks c) r
  end.

(** The return statements of a function, each with its position, the declarations
    whose scope it is in, outermost first, and whether it stands in a select
    statement.  The returns of a function literal are not the function's. *)
Fixpoint rets (sel : bool) (env : list (bytes * N)) (n : node) : list (N * list (bytes * N) * bool) :=
  match n with
  | Node KFunc _ _ _ _ => []
  | Node KRet p _ _ _ => [(p, env, sel)]
  | Node KSelect _ _ ids kids => seq_rets (rets true) (env ++ ids) kids
  | Node _ _ _ ids kids => seq_rets (rets sel) (env ++ ids) kids
  end.

(** The declaration a name means: the innermost one. *)
Definition means (env : list (bytes * N)) (x : bytes) (p : N) : Prop :=
  exists a b, env = a ++ (x, p) :: b /\ ~ In x (map fst b).

(** What the positions of a parsed file look like.  Every node but a plain one
    begins with a keyword or a brace; declared identifiers come in order and in
    front of the children; children come in order and do not overlap; something
    (a semicolon, a line end) stands between a statement and a return after it. *)
Fixpoint ids_from (lo : N) (ids : list (bytes * N)) : N -> Prop :=
  match ids with
  | [] => fun hi => lo = hi
  | (_, p) :: r => fun hi => (lo <= p)%N /\ ids_from (p + 1) r hi
  end.
Definition is_ret (n : node) : bool := match nkind n with KRet => true | _ => false end.
Definition chain (wf : node -> Prop) :=
  fix go (strict : bool) (lo : N) (l : list node) (hi : N) : Prop :=
  match l with
  | [] => (lo <= hi)%N
  | c :: r => (lo <= npos c)%N /\ (is_ret c = true -> strict = true -> (lo < npos c)%N) /\ wf c /\ go true (nfin c) r hi
  end.
Definition is_plain (k : kind) : bool := match k with KPlain => true | _ => false end.
(** Where declarations, select clauses and the body of a select statement and of a
    function literal stand. *)
Definition shape (k : kind) (ids : list (bytes * N)) (kids : list node) : Prop :=
  (k <> KPlain -> k <> KRange -> k <> KFunc -> ids = []) /\
  (k = KFunc -> exists b, kids = [b] /\ nkind b = KBlock) /\
  (k = KSelect -> exists b, kids = [b] /\ nkind b = KSelBody) /\
  (k <> KSelect -> Forall (fun c => nkind c <> KSelBody) kids) /\
  (k <> KSelBody -> Forall (fun c => nkind c <> KComm) kids).
Fixpoint wf (n : node) : Prop :=
  let (k, p, e, ids, kids) := n in
  (p < e)%N /\ shape k ids kids /\
  exists lo, ids_from (if is_plain k then p else p + 1) ids lo /\ chain wf (is_plain k) lo kids e.

(** A function: receiver, parameters and results in order and in front of the body. *)
Definition wf_func (f : func) : Prop :=
  nkind (fn_body f) = KBlock /\ wf (fn_body f) /\
  exists lo, ids_from 1 (fn_recv f ++ fn_params f ++ fn_results f) lo /\ (lo <= npos (fn_body f))%N.
(** The outermost scope of a function. *)
Definition fn_scope (f : func) : list (bytes * N) := fn_recv f ++ fn_params f ++ fn_results f.
