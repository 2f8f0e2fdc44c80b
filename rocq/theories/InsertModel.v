(** Inserting lines into a function's source (lens/asttweak.go:1865-1977,
    InsertFuncLines). Parsing and scanning are given: the line of the declaration and
    of its braces, and the tokens of the file. Lines are numbered from 1. Line
    directives, which shift the reported line numbers, are not modelled. *)
From Verif Require Import Base UtilModel.

(** lens/asttweak.go:1921-1938: what the classification tells apart. The scanner also
    reports the semicolons it inserts at line ends, as any other token. *)
Inductive tkind := KComment | KBracket | KLiteral | KOther.
(** lens/asttweak.go:1904-1938: A token: the line it starts on, its kind, the newlines
    in its text. *)
Record tok := Tok { tk_line : nat; tk_kind : tkind; tk_newlines : nat }.

(** lens/asttweak.go:1921-1938: whether a token marks its line as code. *)
Definition marks (t : tok) : bool :=
  match tk_kind t with
  | KComment | KBracket => false
  | KLiteral => match tk_newlines t with O => true | _ => false end
  | KOther => true
  end.

(** lens/asttweak.go:1904-1939: codeLine for a line of the body. *)
Definition code_line (toks : list tok) (line : nat) : bool :=
  existsb (fun t => Nat.eqb (tk_line t) line && marks t) toks.

(** lens/asttweak.go:1943-1949 indentOf: leading blanks, none when the line is blank. *)
Fixpoint leading (s : bytes) : bytes :=
  match s with
  | c :: s' => if ascii_dec c " "%char then c :: leading s' else if ascii_dec c (ascii_of_N 9) then c :: leading s' else []
  | [] => []
  end.
(** lens/asttweak.go:1943-1949. *)
Definition indent_of (s : bytes) : bytes := if Nat.eqb (length (leading s)) (length s) then [] else leading s.

Section Insert.
(** lens/asttweak.go:1865-1877: The callback and its captured state: given the line
    index relative to the function and the line, the text to insert (none when empty)
    and whether to go on. *)
Variable S : Type.
(** The callback, lens/asttweak.go:1865-1877. *)
Variable cb : S -> nat -> bytes -> S * (bytes * bool).
(** funcStartLine, lens/asttweak.go:1893. *)
Variable func_line : nat.
(** The tokens of the body, lens/asttweak.go:1904-1938. *)
Variable toks : list tok.

(** lens/asttweak.go:1957-1959 *)
Definition inserted (src txt : bytes) : list bytes := match txt with [] => [] | _ => [indent_of src ++ txt] end.

(** lens/asttweak.go:1951-1969: the body lines from line number [n]. *)
Fixpoint insert_body (st : S) (n : nat) (body : list bytes) : list bytes :=
  match body with
  | [] => []
  | src :: rest =>
      if code_line toks n then
        let '(st', (txt, cont)) := cb st (n - func_line) src in
        inserted src txt ++ src :: (if cont then insert_body st' (Datatypes.S n) rest else rest)
      else src :: insert_body st (Datatypes.S n) rest
  end.

(** lens/asttweak.go:1893-1976 with braces on lines [lbrace] and [rbrace]: the new
    lines; bodies without a line of their own are left alone. *)
Definition insert_lines (st : S) (lbrace rbrace : nat) (lines : list bytes) : list bytes :=
  let bopen := (lbrace + 1)%nat in
  let bclose := (rbrace - 1)%nat in
  if (bclose <? bopen)%nat then lines
  else firstn (bopen - 1) lines ++ insert_body st bopen (firstn (bclose - (bopen - 1)) (skipn (bopen - 1) lines)) ++ skipn bclose lines.

(** lens/asttweak.go:1878, 1896, 1976: on the contents of the file. *)
Definition insert_file (st : S) (lbrace rbrace : nat) (data : bytes) : bytes :=
  join_with [nl] (insert_lines st lbrace rbrace (split_on nl data)).
End Insert.
