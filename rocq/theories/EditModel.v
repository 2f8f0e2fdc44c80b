(** The editor on one file: return points and function points put into its functions, commits, and what is left of the mark of an
    edited function when the file is read again (lens/asttweak.go:123-172, 386-453, 510-691).  All calls hold the lock of the
    file (lens/asttweak.go:161, 420, 512), so they come one after the other; the file parses and can be written.  Definitions only; what
    a point looks like is in InstrModel.v and PanicModel.v, backups and failures of writing in ModifierModel.v. *)
From Verif Require Import Base ChartModel.
Local Open Scope nat_scope.

(** ** Files *)
(** A point in a function: before its [k]-th return that is visited, or its end if there is none (lens/asttweak.go:559-572, 628-641), or one of the
    others (lens/asttweak.go:438). *)
Inductive pt := PState (k : nat) (id : N) | PFun (id : N).
(** A function declaration: identifier (lens/asttweak.go:1856), text of the doc comments (funcDecl.Doc, nil if empty), whether these are
    among the comments of the file (the doc of a parsed function is; a new one made at lens/asttweak.go:683-685 is not), whether there is a
    body, how many returns are visited (lens/asttweak.go:556-624), the points in the body. *)
Record decl := Decl { d_id : bytes; d_doc : list bytes; d_linked : bool; d_body : bool; d_rets : nat; d_points : list pt }.
(** parsedFile (lens/asttweak.go:116-119): whether ast.File.Comments is not nil, other comments than docs, the functions. *)
Record node := Node { n_comments : bool; n_other : bool; n_decls : list decl }.
(** The file as written (lens/asttweak.go:160-172): comments that are no function's doc, and functions ([d_linked] is of no account). *)
Record disk := Disk { k_other : bool; k_decls : list decl }.

(** parser.ParseFile with comments (lens/asttweak.go:131): doc comments are comments of the file. *)
Definition parse (k : disk) : node :=
  Node (k_other k || existsb (fun d => match d_doc d with [] => false | _ => true end) (k_decls k)) (k_other k)
       (map (fun d => Decl (d_id d) (d_doc d) (match d_doc d with [] => false | _ => true end) (d_body d) (d_rets d) (d_points d)) (k_decls k)).
(** format.Node (lens/asttweak.go:147): go/printer writes the comments of the file, and only if there are none those of the declarations. *)
Definition print (n : node) : disk :=
  Disk (n_other n) (map (fun d => Decl (d_id d) (if n_comments n && negb (d_linked d) then [] else d_doc d) false (d_body d) (d_rets d) (d_points d)) (n_decls n)).

(** ** Ids *)
(** nextPointId (lens/asttweak.go:399-415), atomic. *)
Definition next (c : N) : option (N * N) :=
  if (c =? 0)%N then Some (1, 2)%N else if ((c + 1) mod 4294967296 =? 0)%N then None else Some (c, c + 1)%N.
(** One id for each of [n] returns, up to the first error (lens/asttweak.go:559-565, 628-633). *)
Fixpoint draw (n : nat) (c : N) : list N * N * bool :=
  match n with
  | 0 => ([], c, true)
  | S m => match next c with
           | None => ([], c, false)
           | Some (i, c') => let '(l, c'', ok) := draw m c' in (i :: l, c'', ok)
           end
  end.

(** ** The editor *)
(** The file on disk, the parsed file if it is loaded (fileNodeMap and commitActions, lens/asttweak.go:123-157), currPointId. *)
Record ed := Ed { e_disk : disk; e_node : option node; e_next : N }.
(** What calls give (lens/asttweak.go:419-441, 510-549): an error, ErrNoFunctionBody, or ids. *)
Inductive out := OErr | ONoBody | OIds (ids : list N) | ODone.
(** findFuncDecl (lens/asttweak.go:1853-1863): the last of that identifier. *)
Fixpoint find_last (ds : list decl) (id : bytes) : option nat :=
  match ds with
  | [] => None
  | d :: ds' => match find_last ds' id with Some i => Some (S i) | None => if beq (d_id d) id then Some 0 else None end
  end.
(** Changing a declaration in place (lens/asttweak.go:572, 641, 683-690). *)
Fixpoint upd (ds : list decl) (i : nat) (f : decl -> decl) : list decl :=
  match ds, i with [], _ => [] | d :: ds', 0 => f d :: ds' | d :: ds', S j => d :: upd ds' j f end.
(** loadParsedFileNode (lens/asttweak.go:123-157). *)
Definition load (e : ed) : node := match e_node e with Some n => n | None => parse (e_disk e) end.
(** The mark (lens/asttweak.go:511, 688). *)
Definition mark : bytes := B "patchlens:return-states".
(** hasPatchlensMarker (lens/asttweak.go:443-453). *)
Definition marked (d : decl) : bool := existsb (is_infix mark) (d_doc d).
(** The points of the returns (lens/asttweak.go:559-572, 628-641). *)
Definition state_points (ids : list N) : list pt := map (fun ki => PState (fst ki) (snd ki)) (combine (seq 0 (length ids)) ids).
(** More points in a function (lens/asttweak.go:438, 572, 641). *)
Definition add_points (ps : list pt) (d : decl) : decl := Decl (d_id d) (d_doc d) (d_linked d) (d_body d) (d_rets d) (d_points d ++ ps).
(** lens/asttweak.go:682-689. *)
Definition add_mark (d : decl) : decl := Decl (d_id d) (d_doc d ++ [B "// " ++ mark]) (d_linked d) (d_body d) (d_rets d) (d_points d).

(** What is done with the file: return points (lens/asttweak.go:510-691), one other point (lens/asttweak.go:419-441), CommitFile
    (lens/asttweak.go:160-177); and an id drawn for another file. *)
Inductive op := DoStates (id : bytes) | DoPoint (id : bytes) | DoCommit | DoElse.
(** lens/asttweak.go:160-177, 399-441, 510-691.  A function without a visited return has one id, for its end (628). *)
Definition step (e : ed) (o : op) : ed * out :=
  match o with
  | DoStates id =>
    let n := load e in
    let keep := Ed (e_disk e) (Some n) (e_next e) in
    match find_last (n_decls n) id with
    | None => (keep, OErr)
    | Some i =>
      match nth_error (n_decls n) i with
      | None => (keep, OErr)
      | Some d =>
        if negb (d_body d) then (keep, ONoBody)
        else if marked d then (keep, OIds [])
        else let '(ids, c, ok) := draw (Nat.max 1 (d_rets d)) (e_next e) in
          let f d := let d' := add_points (state_points ids) d in if ok then add_mark d' else d' in
          (Ed (e_disk e) (Some (Node (n_comments n) (n_other n) (upd (n_decls n) i f))) c, if ok then OIds ids else OErr)
      end
    end
  | DoPoint id =>
    let n := load e in
    let keep := Ed (e_disk e) (Some n) (e_next e) in
    match find_last (n_decls n) id with
    | None => (keep, OErr)
    | Some i =>
      match nth_error (n_decls n) i with
      | None => (keep, OErr)
      | Some d =>
        if negb (d_body d) then (keep, ONoBody)
        else match next (e_next e) with
             | None => (keep, OErr)
             | Some (p, c) => (Ed (e_disk e) (Some (Node (n_comments n) (n_other n) (upd (n_decls n) i (add_points [PFun p])))) c, OIds [p])
             end
      end
    end
  | DoCommit => match e_node e with Some n => (Ed (print n) None (e_next e), ODone) | None => (e, ODone) end
  | DoElse => match next (e_next e) with Some (p, c) => (Ed (e_disk e) (e_node e) c, OIds [p]) | None => (e, OErr) end
  end.
(** A sequence of calls (lens/astexec.go:319-357). *)
Definition run (e : ed) (os : list op) : ed := fold_left (fun e o => fst (step e o)) os e.
