(** Model of the static analysis (lens/static.go): function identifiers, return
    points, recognition of entry points, the backward search over the call graph
    and the caller and test analyses built on it.  Definitions only.

    Loading packages, SSA construction and the call graph itself
    (golang.org/x/tools) are not modelled: a call graph is a set of nodes with
    what the analyses ask about each, and its incoming edges. *)

From Verif Require Import Base Maps UtilModel.

(** lens/static.go:176-184: strings.HasSuffix. *)
Definition has_suffix (p s : bytes) : bool := has_prefix (rev p) (rev s).

(** [IsGeneratedFile] (static.go:176-184, types.go:17). *)
Definition generated_suffixes : list bytes :=
  [B ".pb.go"; B ".pb.gw.go"; B "_grpc.pb.go"; B "_mock.go"; B "_gen.go"; B ".gen.go"; B "_modlensgen_test.go"].
(** IsGeneratedFile, lens/static.go:176-184. *)
Definition is_generated_file (f : bytes) : bool := existsb (fun s => has_suffix s f) generated_suffixes.

(** [makeFunctionIdentStr] (static.go:421-427). *)
Definition ident_str (pkg recv name : bytes) : bytes :=
  if beq recv [] then pkg ++ B ":" ++ name else pkg ++ B ":" ++ recv ++ B "." ++ name.

(** ** Return points *)

(** lens/static.go:431-522: line numbers as uint32. *)
Definition u32 (n : N) : N := (n mod 4294967296)%N.

(** lens/types.go:52-58: [FunctionReturn] (types.go). *)
Record retpoint := Ret { rt_line : N; rt_calls : N }.

(** lens/static.go:525-536. *)
Definition nth_ret (i : nat) (l : list retpoint) : retpoint := nth i l (Ret 0 0).
(** lens/static.go:525-536. *)
Fixpoint set_ret (i : nat) (r : retpoint) (l : list retpoint) : list retpoint :=
  match l, i with
  | [], _ => []
  | _ :: l', 0 => r :: l'
  | x :: l', S i' => x :: set_ret i' r l'
  end.

(** The loop of [mergeReturnInfos] (static.go:527-534).  [unique] shares the array
    of [infos]: [arr] is that array, [u] the length of [unique]. *)
Definition merge_step (st : list retpoint * nat) (i : nat) : list retpoint * nat :=
  let '(arr, u) := st in
  let info := nth_ret i arr in
  if (i =? 0)%nat || negb (rt_line info =? rt_line (nth_ret (i - 1) arr))%N
  then (set_ret u info arr, S u)
  else (set_ret (u - 1) (Ret (rt_line (nth_ret (u - 1) arr)) (u32 (rt_calls (nth_ret (u - 1) arr) + rt_calls info))) arr, u).

(** [mergeReturnInfos] (static.go:525-536); [sort] is sort.Slice, which gives some
    list sorted by line (it is not stable). *)
Definition merge_returns (sort : list retpoint -> list retpoint) (infos : list retpoint) : list retpoint :=
  let '(arr, u) := fold_left merge_step (seq 0 (length infos)) (sort infos, 0%nat) in firstn u arr.

(** lens/static.go:431-477: SSA instructions as far as [analyzeSSAFunctionReturnPoints]
    tells them apart; [None] is a missing position. *)
Inductive instr :=
  | IReturn (pos : option N) (results_are_calls : list bool)
  | IPanic (pos : option N)
  | ICall (pos : option N)
  | IOther (pos : option N).
(** lens/static.go:437-466. *)
Definition instr_pos (i : instr) : option N :=
  match i with IReturn p _ | IPanic p | ICall p | IOther p => p end.
(** lens/static.go:431-477. *)
Record block := Blk { bk_instrs : list instr; bk_succs : nat }.

(** The return points of one instruction (static.go:437-453). *)
Definition instr_rets (i : instr) : list retpoint :=
  match i with
  | IReturn (Some l) cs => [Ret (u32 l) (u32 (N.of_nat (length (filter (fun b => b) cs))))]
  | _ => []
  end.
(** The last instruction of a block without successors (static.go:456-466). *)
Definition exit_rets (b : block) : list retpoint :=
  match bk_succs b, rev (bk_instrs b) with
  | 0%nat, i :: _ => match instr_pos i with
                | Some l => [Ret (u32 l) (match i with ICall _ => 1 | _ => 0 end)]
                | None => []
                end
  | _, _ => []
  end.
(** lens/static.go:467-477. *)
Definition is_real_return (i : instr) : bool := match i with IReturn (Some _) _ => true | _ => false end.
(** lens/static.go:467-477. *)
Definition is_panic (i : instr) : bool := match i with IPanic _ => true | _ => false end.

(** [analyzeSSAFunctionReturnPoints] (static.go:431-477): return points, and
    whether the function only ever panics. *)
Definition ssa_returns sort (has_results : bool) (blocks : list block) : list retpoint * bool :=
  (merge_returns sort (flat_map (fun b => flat_map instr_rets (bk_instrs b) ++ exit_rets b) blocks),
   has_results && negb (existsb (fun b => existsb is_real_return (bk_instrs b)) blocks)
   && existsb (fun b => existsb is_panic (bk_instrs b)) blocks).

(** lens/static.go:480-522: Syntax trees as far as [AnalyzeASTFunctionReturnPoints]
    tells the nodes apart: [KPanic] is a call of the identifier [panic]; the children of
    a return are its results. *)
Inductive nkind := KFuncLit | KReturn | KPanic | KCall | KOther.
(** lens/static.go:480-522. *)
Inductive node := Node (k : nkind) (pos : option N) (kids : list node).

(** Calls below a node, function literals included (static.go:498-505). *)
Fixpoint count_calls (n : node) : N :=
  match n with
  | Node k _ kids => (match k with KCall | KPanic => 1 | _ => 0 end + fold_right N.add 0 (map count_calls kids))%N
  end.
(** The walk (static.go:484-514): the return points and the number of panics. *)
Fixpoint walk_rets (n : node) : list retpoint :=
  match n with
  | Node KFuncLit _ _ => []
  | Node KReturn (Some l) kids => [Ret (u32 l) (u32 (fold_right N.add 0%N (map count_calls kids)))]
  | Node _ _ kids => flat_map walk_rets kids
  end.
(** lens/static.go:484-522. *)
Fixpoint walk_panics (n : node) : nat :=
  match n with
  | Node KFuncLit _ _ => 0
  | Node KReturn (Some _) _ => 0
  | Node k _ kids => (match k with KPanic => 1 | _ => 0 end + fold_right Nat.add 0 (map walk_panics kids))%nat
  end.
(** [AnalyzeASTFunctionReturnPoints] (static.go:480-522). *)
Definition ast_returns sort (has_results : bool) (body : option node) : list retpoint * bool :=
  let rets := match body with Some b => walk_rets b | None => [] end in
  let panics := match body with Some b => walk_panics b | None => 0%nat end in
  (merge_returns sort rets, has_results && (length rets =? 0)%nat && negb (panics =? 0)%nat).

(** ** Entry points *)

(** lens/static.go:638-661: Parameter types as far as [isGoTestFunction] tells them
    apart. [TAlias] is a named alias, which go/types keeps as a type of its own. *)
Inductive gtype := TPtr (t : gtype) | TNamed (pkg : option bytes) (name : bytes) | TAlias (t : gtype) | TOther.

(** lens/static.go:621-661: A function as the recognisers see it: [g_decl] is what the
    declaration syntax says (name, whether it has a receiver, number of parameters),
    [None] when the function has no declaration (closures, wrappers). *)
Record gofunc := GoFunc {
  g_pkg : option bytes;          (* name of the package, if any *)
  g_name : bytes; g_file : bytes;
  g_recv : bool; g_params : list gtype; g_results : nat;
  g_decl : option (bytes * bool * nat)
}.

(** [isMainFunction] (static.go:621-625). *)
Definition is_main (f : gofunc) : bool :=
  match g_pkg f with
  | Some p => beq p (B "main") && beq (g_name f) (B "main") && negb (g_recv f) && (length (g_params f) =? 0)%nat
  | None => false
  end.
(** [isInitFunction] (static.go:628-635). *)
Definition is_init (f : gofunc) : bool :=
  match g_decl f with
  | Some (n, recv, params) => beq n (B "init") && negb recv && (params =? 0)%nat
  | None => false
  end.
(** [isGoTestFunction] (static.go:638-661). *)
Definition is_go_test (f : gofunc) : bool :=
  match g_pkg f, g_decl f with
  | Some _, Some _ =>
      has_prefix (B "Test") (g_name f) && has_suffix (B "_test.go") (g_file f)
      && match g_params f with
         | [TPtr (TNamed (Some p) n)] => beq p (B "testing") && beq n (B "T")
         | _ => false
         end
  | _, _ => false
  end.

(** ** The backward search *)

(** lens/static.go:540-592. *)
Inductive dfs_result := DfsDone (trace : list nat) | DfsError (trace : list nat) | DfsFuel.

Section Dfs.
(** node.In, lens/static.go:569. *)
Variable ins : nat -> list (option nat).   (* callers of a node, one per edge *)
(** rootNodes, lens/static.go:540-592. *)
Variable root : nat -> bool.
(** The visitor and whether it gives an error, lens/static.go:540-592. *)
Variable visit_ok : nat -> bool.           (* whether the callback succeeds *)

(** The loop over the incoming edges (static.go:569-589); the head of [stack] is
    the end of the Go slice. *)
Fixpoint push (es : list (option nat)) (visited stack : list nat) : list nat * list nat :=
  match es with
  | [] => (visited, stack)
  | None :: es' => push es' visited stack
  | Some c :: es' => if existsb (Nat.eqb c) visited then push es' visited stack
                     else push es' (c :: visited) (c :: stack)
  end.

(** The main loop (static.go:555-590); [trace] are the nodes the callback has been
    called on. *)
Fixpoint dfs_loop (fuel : nat) (visited stack trace : list nat) : dfs_result :=
  match stack with
  | [] => DfsDone trace
  | n :: stack' =>
      match fuel with
      | O => DfsFuel
      | S fuel' =>
          let trace' := trace ++ [n] in
          if negb (visit_ok n) then DfsError trace'
          else if root n then dfs_loop fuel' visited stack' trace'
          else let '(visited', stack'') := push (ins n) visited stack' in
               dfs_loop fuel' visited' stack'' trace'
      end
  end.

(** [reverseDFS] (static.go:540-592). *)
Definition reverse_dfs (fuel : nat) (start : nat) : dfs_result := dfs_loop fuel [start] [start] [].
End Dfs.

(** ** The analyses *)

(** lens/static.go:60-80: What the analyses ask about the function of a node: [f_within]
    is [fileWithinDir] of its file and the project ([None] an error), [f_compiled] is
    [compilesForBuildContext]. *)
Record fninfo := FnInfo {
  f_nil : bool; f_pkg : bool; f_ident : bytes; f_supported : bool; f_file : bytes;
  f_within : option bool; f_compiled : option bool; f_main_or_init : bool; f_test : bool
}.

(** Adding an item to the list kept under a key unless it is there already
    (static.go:82-104 and 250-274).  Items are identifiers. *)
Definition group_add (m : amap (list bytes)) (e : bytes * bytes) : amap (list bytes) :=
  match mget (fst e) m with
  | Some l => if existsb (beq (snd e)) l then m else mset (fst e) (l ++ [snd e]) m
  | None => mset (fst e) [snd e] m
  end.
(** lens/static.go:82-104. *)
Definition group (es : list (bytes * bytes)) : amap (list bytes) := fold_left group_add es [].

(** lens/static.go:29-124. *)
Inductive analysis := AFuel | AError | AOk (m : amap (list bytes)).

Section Analyses.
(** node.In, lens/static.go:569. *)
Variable ins : nat -> list (option nat).
(** lens/static.go:60-80. *)
Variable info : nat -> fninfo.
(** cg.Nodes, lens/static.go:40. *)
Variable nodes : list nat.   (* all nodes, in the order map iteration yields them *)
(** lens/static.go:54-109: The order in which the goroutines get to record what they
    find. *)
Variable shuffle : list (bytes * bytes) -> list (bytes * bytes).

(** [cgNodeFunctions] (static.go:37-48): the last node with an identifier counts. *)
Definition node_of (ident : bytes) : option nat :=
  match find (fun n => beq (f_ident (info n)) ident) (rev nodes) with
  | Some n => if f_nil (info n) then None else Some n
  | None => None
  end.

(** Root nodes (static.go:40-46). *)
Definition caller_root (n : nat) : bool := f_main_or_init (info n).

(** The checks up to the build-context one (static.go:60-80). *)
Definition candidate (start n : nat) : bool :=
  negb (f_nil (info n)) && negb (n =? start)%nat && f_pkg (info n) && negb (caller_root n)
  && match f_within (info n) with Some true => true | _ => false end
  && negb (is_generated_file (f_file (info n))).
(** lens/static.go:60-76. *)
Definition caller_ok (start n : nat) : bool :=
  negb (candidate start n) || match f_compiled (info n) with None => false | _ => true end.
(** lens/static.go:60-81. *)
Definition records_caller (start n : nat) : bool :=
  candidate start n && match f_compiled (info n) with Some true => true | _ => false end && f_supported (info n).

(** [changedSSAFunctions] (static.go:49-54): one entry per function. *)
Definition changed_nodes (changes : list bytes) : list (nat * bytes) :=
  nodup (fun a b => match Nat.eq_dec (fst a) (fst b), bytes_eq_dec (snd a) (snd b) with
                    | left p, left q => left (eq_trans (surjective_pairing a)
                         (eq_trans (f_equal2 pair p q) (eq_sym (surjective_pairing b))))
                    | right p, _ => right (fun e => p (f_equal fst e))
                    | _, right q => right (fun e => q (f_equal snd e))
                    end)
    (flat_map (fun ch => match node_of ch with Some n => [(n, ch)] | None => [] end) changes).

(** lens/static.go:54-113: The events of a list of searches, or the reason there are
    none. *)
Fixpoint searches (fuel : nat) (root : nat -> bool) (ok records : nat -> nat -> bool)
  (starts : list (nat * bytes)) : sum analysis (list (bytes * bytes)) :=
  match starts with
  | [] => inr []
  | (s, id) :: starts' =>
      match reverse_dfs ins root (ok s) fuel s, searches fuel root ok records starts' with
      | DfsFuel, _ => inl AFuel
      | _, inl e => inl e
      | DfsError _, _ => inl AError
      | DfsDone trace, inr es =>
          inr (flat_map (fun n => if records s n then [(f_ident (info n), id)] else []) trace ++ es)
      end
  end.

(** [CallerStaticAnalysis] (static.go:29-124): for each caller the changed
    functions it may reach. *)
Definition caller_analysis (fuel : nat) (changes : list bytes) : analysis :=
  match searches fuel caller_root caller_ok records_caller (changed_nodes changes) with
  | inl e => e
  | inr es => AOk (group (shuffle es))
  end.
(** The changed functions that are reachable at all (static.go:114-121). *)
Definition reachable_changes (m : amap (list bytes)) : list bytes := flat_map snd m.

(** [TestStaticAnalysis] (static.go:189-283): the roots, and for each test the
    callers it may reach. *)
Definition test_root (n : nat) : bool :=
  f_test (info n) && match f_within (info n) with Some true => true | _ => false end.
(** lens/static.go:189-283. *)
Definition any_root (n : nat) : bool :=
  test_root n || (negb (f_test (info n)) && f_main_or_init (info n)).
(** lens/static.go:189-283. *)
Definition records_test (_ n : nat) : bool := test_root n && f_supported (info n).
(** lens/static.go:189-283. *)
Definition caller_nodes (callers : list bytes) : list (nat * bytes) :=
  flat_map (fun n => if existsb (beq (f_ident (info n))) callers then [(n, f_ident (info n))] else []) nodes.
(** TestStaticAnalysis, lens/static.go:189-283. *)
Definition test_analysis (fuel : nat) (callers : list bytes) : analysis :=
  if existsb (fun n => f_test (info n) && match f_within (info n) with None => true | _ => false end) nodes then AError
  else if negb (existsb test_root nodes) then AOk []
  else match searches fuel any_root (fun _ _ => true) records_test (caller_nodes callers) with
       | inl e => e
       | inr es => AOk (group (shuffle es))
       end.

(** [extractCallGraphEdges] (static.go:128-173): the callee identifiers of each
    supported function ([outs] are the callees of a node, [None] for a missing
    one; the order of a Go set is left open, here that of first occurrence). *)
Definition callee_idents (outs : nat -> list (option nat)) (n : nat) : list bytes :=
  nodup bytes_eq_dec (filter (fun i => negb (beq i []))
    (flat_map (fun o => match o with
                        | Some c => if f_nil (info c) then [] else [f_ident (info c)]
                        | None => []
                        end) (outs n))).
(** extractCallGraphEdges, lens/static.go:128-173. *)
Definition edge_map (outs : nat -> list (option nat)) : amap (list bytes) :=
  fold_left (fun m n => if negb (f_nil (info n)) && f_supported (info n) then mset (f_ident (info n)) (callee_idents outs n) m else m)
    nodes [].
End Analyses.
