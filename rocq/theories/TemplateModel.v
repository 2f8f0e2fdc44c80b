(** The package a directory holds, and rewriting the client's template for it
    (lens/asttweak.go:208-383).  Definitions only; writing the two files is in
    [ModifierModel.inject]. *)
From Verif Require Import Base Maps StaticModel.

(** ** The package of a directory *)

(** What parseDir sees of one entry of a directory (lens/asttweak.go:274-300): its name;
    whether it is a directory; whether Info works; whether go/build takes the file
    (MatchFile without an error, 262-263); the name in its package clause, if it parses. *)
Record dentry := DEntry { de_name : bytes; de_dir : bool; de_info : bool; de_match : bool; de_pkg : option bytes }.

(** makeFileFilter (lens/asttweak.go:253-265). *)
Definition file_filter (e : dentry) : bool :=
  if has_suffix (B "_test.go") (de_name e) then false else de_match e.

(** parseDir (lens/asttweak.go:275-309) with the filter: the file names by package name, or
    an error.  The result is a Go map; the list has the keys in order of first use. *)
Fixpoint parse_dir (es : list dentry) (pkgs : amap (list bytes)) : option (amap (list bytes)) :=
  match es with
  | [] => Some pkgs
  | e :: es' =>
      if de_dir e || negb (has_suffix (B ".go") (de_name e)) then parse_dir es' pkgs
      else if negb (de_info e) then None
      else if negb (file_filter e) then parse_dir es' pkgs
      else match de_pkg e with
           | None => None
           | Some n => parse_dir es' (mset n (match mget n pkgs with Some l => l | None => [] end ++ [de_name e]) pkgs)
           end
  end.

(** detectPackageName (lens/asttweak.go:313-326); [read] is what os.ReadDir gives. *)
Definition detect_package (read : option (list dentry)) : option bytes :=
  match read with
  | None => None
  | Some es =>
      match parse_dir es [] with
      | Some [(n, _)] => Some n
      | _ => None
      end
  end.

(** ** The template's declarations *)

Section Decl.
(** Expressions and types of the template (lens/astclient.go:22-42). *)
Variable expr type : Type.
(** An integer literal, lens/asttweak.go:367-370. *)
Variable lit : bytes -> expr.

(** ast.ValueSpec (lens/asttweak.go:364): names, the type if there is one, values; a value
    may be nil. *)
Record vspec := VSpec { vs_names : list bytes; vs_type : option type; vs_values : list (option expr) }.
(** ast.GenDecl by token, and any other declaration (lens/asttweak.go:358-362). *)
Inductive decl := DConst (ss : list vspec) | DVar (ss : list vspec) | DOther (n : N).

(** Putting a value at position [i], filling up with nil (lens/asttweak.go:371-379). *)
Definition put_at (i : nat) (x : expr) (vs : list (option expr)) : list (option expr) :=
  if (length vs <=? i)%nat then vs ++ repeat None (i - length vs) ++ [Some x]
  else firstn i vs ++ Some x :: skipn (S i) vs.

(** The loop over the names of one spec (lens/asttweak.go:365-381). *)
Fixpoint update_names (values : amap bytes) (i : nat) (names : list bytes) (vs : list (option expr)) : list (option expr) :=
  match names with
  | [] => vs
  | n :: names' =>
      update_names values (S i) names' (match mget n values with Some v => put_at i (lit v) vs | None => vs end)
  end.
(** lens/asttweak.go:363-381. *)
Definition update_spec (values : amap bytes) (s : vspec) : vspec :=
  VSpec (vs_names s) (vs_type s) (update_names values 0 (vs_names s) (vs_values s)).
(** updateConstLiterals (lens/asttweak.go:354-383). *)
Definition update_literals (values : amap bytes) (ds : list decl) : list decl :=
  match values with
  | [] => ds
  | _ => map (fun d => match d with
                       | DConst ss => DConst (map (update_spec values) ss)
                       | DVar ss => DVar (map (update_spec values) ss)
                       | DOther n => DOther n
                       end) ds
  end.

(** The parsed file: package clause and declarations (lens/asttweak.go:331-342); comments
    and formatting are left out. *)
Record gofile := GoFile { gf_package : bytes; gf_decls : list decl }.
(** rewriteAstClientTemplate (lens/asttweak.go:329-349). *)
Definition rewrite_template (f : gofile) (pkg : bytes) (values : amap bytes) : gofile :=
  GoFile pkg (update_literals values (gf_decls f)).
End Decl.
Arguments VSpec {expr type}. Arguments DConst {expr type}. Arguments DVar {expr type}. Arguments DOther {expr type}.

(** strconv.Itoa (lens/asttweak.go:231-233). *)
Definition zitoa (z : Z) : bytes := if (z <? 0)%Z then "-"%char :: itoa (Z.to_N (- z)) else itoa (Z.to_N z).
(** The values for the client (lens/asttweak.go:230-234). *)
Definition client_values (port recurse len : Z) : amap bytes :=
  [(B "lensMonitorServerPort", zitoa port); (B "lensMonitorFieldMaxRecurse", zitoa recurse); (B "lensMonitorFieldMaxLen", zitoa len)].

(** The constants and variables of the client's template (lens/astclient.go:22-42), with
    the texts of the expressions; those of several lines are shortened. *)
Definition client_template : list (decl bytes bytes) :=
  [DConst [VSpec [B "lensMonitorServerHost"] None [Some (B """127.0.0.1""")];
           VSpec [B "lensMonitorServerPort"] None [Some (B "8448")];
           VSpec [B "lensMonitorFieldMaxRecurse"] None [Some (B "100")];
           VSpec [B "lensMonitorFieldMaxLen"] None [Some (B "1024")]];
   DVar [VSpec [B "lensClientStartTime"] None [Some (B "time.Now()")];
         VSpec [B "lensHttpClient"] None [Some (B "&http.Client{}")];
         VSpec [B "lensMonitorEndpointError"] (Some (B "string")) [];
         VSpec [B "lensMonitorEndpointPoint"] (Some (B "string")) [];
         VSpec [B "lensMonitorEndpointState"] (Some (B "string")) [];
         VSpec [B "lensMonitorEndpointPanic"] (Some (B "string")) []];
   DOther 0].
