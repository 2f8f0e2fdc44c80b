(** Model of the scan for visible names in front of a return statement
    (visibleDeclsBefore, lens/asttweak.go:1226-1302).  Definitions only.

    The syntax tree is what [ast.Inspect] walks through, in its order, down to the
    nodes that declare names or contain such nodes; every node has the positions
    its [Pos] and [End] methods give.  Nodes put in by the rewriting itself have no
    position: they end in front of every position of the file, are skipped, and
    are left out. *)
From Verif Require Import Base Maps.
From Coq Require Import Permutation Sorted.

(** The node types told apart by lens/asttweak.go:1263-1292, and those that matter for
    Go's scopes: [KSelBody] is the *ast.BlockStmt of a select statement, [KComm] a
    *ast.CommClause, [KFunc] a *ast.FuncLit, [KRet] a return statement, [KPlain]
    anything else (with *ast.AssignStmt and *ast.ValueSpec among them). *)
Inductive kind :=
  | KBlock | KIf | KFor | KRange | KSwitch | KTypeSwitch | KCase
  | KSelBody | KComm | KSelect | KFunc | KRet | KPlain.

(** go/ast.Node as used at lens/asttweak.go:1257-1295: [ids] are the identifiers a
    node declares with their positions, for [KPlain] the names of a value
    specification or of the left side of [:=], for [KRange] the key and value of a
    range statement with [:=], for [KFunc] the parameters. *)
Inductive node := Node (k : kind) (pos fin : N) (ids : list (bytes * N)) (kids : list node).

(** Node.Pos, Node.End and the type of a node, lens/asttweak.go:1263-1292. *)
Definition nkind (n : node) : kind := let (k, _, _, _, _) := n in k.
(** Node.Pos, lens/asttweak.go:567. *)
Definition npos (n : node) : N := let (_, p, _, _, _) := n in p.
(** Node.End, lens/asttweak.go:1266. *)
Definition nfin (n : node) : N := let (_, _, e, _, _) := n in e.
(** The children of a node, lens/asttweak.go:1257. *)
Definition nkids (n : node) : list node := let (_, _, _, _, c) := n in c.

(** lens/asttweak.go:1264-1265: the types of which an ended node is skipped. *)
Definition prunable (k : kind) : bool :=
  match k with
  | KBlock | KSelBody | KIf | KFor | KRange | KSwitch | KTypeSwitch | KCase => true
  | _ => false
  end.

(** lens/asttweak.go:1271-1292: the types whose identifiers are added. *)
Definition declares (k : kind) : bool := match k with KPlain | KRange => true | _ => false end.

(** addIdent, lens/asttweak.go:1232-1238; [m] is the map [latest]. *)
Definition add_ident (ret : N) (m : amap N) (d : bytes * N) : amap N :=
  let (x, p) := d in
  if beq x (B "_") || (ret <? p)%N then m
  else match mget x m with
       | Some q => if (q <? p)%N then mset x p m else m
       | None => mset x p m
       end.

(** lens/asttweak.go:1257-1295. *)
Fixpoint inspect (ret : N) (m : amap N) (n : node) : amap N :=
  let (k, _, fin, ids, kids) := n in
  if prunable k && (fin <? ret)%N then m
  else fold_left (inspect ret) kids (if declares k then fold_left (add_ident ret) ids m else m).

(** *ast.FuncDecl: the names of receiver, parameters and results, and the body
    (lens/asttweak.go:1240-1254). *)
Record func := { fn_recv : list (bytes * N); fn_params : list (bytes * N); fn_results : list (bytes * N); fn_body : node }.

(** The map [latest] after the walk, lens/asttweak.go:1231-1295. *)
Definition latest (f : func) (ret : N) : amap N :=
  inspect ret (fold_left (add_ident ret) (fn_results f) (fold_left (add_ident ret) (fn_params f) [])) (fn_body f).

(** lens/asttweak.go:1297-1301: the values of the map in any order, sorted by
    position. *)
Definition visible (f : func) (ret : N) (out : list (bytes * N)) : Prop :=
  Permutation out (latest f ret) /\ Sorted (fun a b => (snd a <= snd b)%N) out.

(** lens/asttweak.go:635: the position used where the body has no return statement. *)
Definition end_pos (f : func) : N := (nfin (fn_body f) - 1)%N.
