(** Model of the identifiers of functions (lens/static.go:381-427, lens/types.go:59-127) and
    of the listing of a module's functions (lens/module.go:750-817).  Definitions only.
    The text of an identifier from its parts is [StaticModel.ident_str]. *)
From Verif Require Import Base StaticModel.

(** ** Declarations *)

(** The type of a receiver as it is written (lens/static.go:413-416): a name with the type
    parameters it is given, behind stars and in parentheses.  Other types do not compile as
    receivers. *)
Inductive rtype := RBase (name : bytes) (params : list bytes) | RStar (t : rtype) | RParen (t : rtype).

(** What stands between the items of a list (types.ExprString of lens/static.go:415; lens/types.go:100-102). *)
Fixpoint commas (l : list bytes) : bytes :=
  match l with
  | [] => []
  | [x] => x
  | x :: l' => x ++ B ", " ++ commas l'
  end.

(** types.ExprString of such a type (lens/static.go:415). *)
Fixpoint recv_text (t : rtype) : bytes :=
  match t with
  | RBase n [] => n
  | RBase n ps => n ++ "["%char :: commas ps ++ B "]"
  | RStar t => "*"%char :: recv_text t
  | RParen t => "("%char :: recv_text t ++ B ")"
  end.

(** The base name of a receiver: what the language tells methods apart by.  Used in the
    statements only (lens/static.go:413-416). *)
Fixpoint recv_base (t : rtype) : bytes :=
  match t with RBase n _ => n | RStar t => recv_base t | RParen t => recv_base t end.

(** A function declaration (lens/static.go:411, lens/module.go:766-807): its receivers, empty when
    there is none; its name; the text of its documentation; what the printer makes of the rest,
    nothing if it fails; entry line, return points and the panic mark of
    AnalyzeASTFunctionReturnPoints, which are [StaticModel.ast_returns]. *)
Record fdecl := FDecl {
  fd_recv : list rtype; fd_name : bytes; fd_doc : bytes; fd_text : option bytes;
  fd_entry : N; fd_rets : list retpoint; fd_panic : bool
}.

(** MakeFunctionIdent (lens/static.go:411-419). *)
Definition decl_ident (pkg : bytes) (d : fdecl) : bytes :=
  ident_str pkg (match fd_recv d with [] => [] | t :: _ => recv_text t end) (fd_name d).

(** ** Functions of the program *)

(** fn.Syntax (lens/static.go:404): a declaration, a function literal, or nothing for a function
    that the builder made up. *)
Inductive syntax := SDecl (d : fdecl) | SLit | SNone.

(** ssa.Function (lens/static.go:383-408): the path of its package ([None] when Package() or its
    Pkg is nil), its name, its syntax, and the file of its position ([None] when Pos() is 0). *)
Record ssafn := Fn { sf_pkg : option bytes; sf_name : bytes; sf_syntax : syntax; sf_file : option bytes }.

(** MakeSSAFunctionIdent (lens/static.go:395-408); the nil function is [None]. *)
Definition ssa_ident (fn : option ssafn) : bytes * bool :=
  match fn with
  | None => ([], false)
  | Some f =>
      let pkg := match sf_pkg f with Some p => p | None => [] end in
      match sf_syntax f with
      | SDecl d => (decl_ident pkg d, true)
      | _ => (ident_str pkg [] (sf_name f), false)
      end
  end.

(** filePathForSSAFunc (lens/static.go:383-391). *)
Definition ssa_file (fn : option ssafn) : bytes :=
  match fn with Some (Fn _ _ _ (Some file)) => file | _ => [] end.

(** ** The listing *)

(** A file of a package: its name and its declarations, [None] for one that is no function
    (lens/module.go:770-778). *)
Record gofile := File { fl_name : bytes; fl_decls : list (option fdecl) }.
(** packages.Package (lens/module.go:760-770): path, number of errors, files. *)
Record pkg := Package { p_path : bytes; p_errors : nat; p_syntax : list gofile }.
(** ModuleFunction (lens/types.go:31-49, 72-87) as it is built at lens/module.go:799-811; [mf_module] is the module's name. *)
Record mfun := MFun {
  mf_file : bytes; mf_pkg : bytes; mf_ident : bytes; mf_name : bytes; mf_entry : N;
  mf_rets : list retpoint; mf_panic : bool; mf_def : bytes; mf_module : bytes
}.

(** One declaration (lens/module.go:773-811): printed with its documentation, since that is
    part of the node that is printed; left out when the printer fails. *)
Definition list_decl (module : bytes) (p : pkg) (f : gofile) (d : option fdecl) : list mfun :=
  match d with
  | None => []
  | Some d =>
      match fd_text d with
      | None => []
      | Some text =>
          [MFun (fl_name f) (p_path p) (decl_ident (p_path p) d) (fd_name d) (fd_entry d) (fd_rets d)
             (fd_panic d) (fd_doc d ++ text) module]
      end
  end.

(** ExtractModuleFunctionsFromPackages (lens/module.go:752-817); its error is always nil. *)
Definition list_functions (module : bytes) (pkgs : list pkg) : list mfun :=
  flat_map (fun p =>
    if (0 <? p_errors p)%nat && match p_syntax p with [] => true | _ => false end then []
    else flat_map (fun f => flat_map (list_decl module p f) (fl_decls f)) (p_syntax p)) pkgs.

(** What extractFunctions keeps of a file (lens/module.go:643-684): printed without the
    documentation.  A failing printer sets [err] (660), and so does one that succeeds; the
    walk goes on with the next declaration either way.  The second part says whether an
    error is returned. *)
Definition file_step (path : bytes) (st : list (bytes * bytes) * bool) (d : option fdecl) : list (bytes * bytes) * bool :=
  match d with
  | None => st
  | Some d =>
      match fd_text d with
      | Some text => (fst st ++ [(decl_ident path d, text)], false)
      | None => (fst st, true)
      end
  end.
(** extractFunctions (lens/module.go:643-684), the entries in the order they are written to the map. *)
Definition file_functions (path : bytes) (ds : list (option fdecl)) : option (list (bytes * bytes)) :=
  let '(l, err) := fold_left (file_step path) ds ([], false) in if err then None else Some l.

(** ** Names for people *)

(** The position after the last slash, if there is one (strings.LastIndex, lens/types.go:61). *)
Fixpoint last_slash (s : bytes) : option nat :=
  match s with
  | [] => None
  | c :: s' => match last_slash s' with Some i => Some (S i) | None => if ascii_dec c "/"%char then Some O else None end
  end.
(** ShortIdent (lens/types.go:60-66). *)
Definition short_ident (ident : bytes) : bytes :=
  match last_slash ident with
  | Some (S i) => skipn (S (S i)) ident
  | _ => ident
  end.
(** ChangeFunctionIdents and TargetFunctionIdents (lens/types.go:98-107, 118-127). *)
Definition joined_idents (idents : list bytes) : bytes := commas (map short_ident idents).
