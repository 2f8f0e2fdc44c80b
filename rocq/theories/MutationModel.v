(** Mutation testing: which functions, files and tests are handed to the tool, the
    script it runs for a mutant, and the summary read back (lens/mutation.go). *)
From Verif Require Import Base Maps UtilModel InsertModel FsModel.

(** ** Tests for each file *)
Section Mutation.
(** lens/mutation.go:62, 95, 125: filepath.Abs *)
Variable abs : bytes -> option bytes.

(** lens/mutation.go:62-69: the files of the changed functions a test reaches are
    entered one by one; [None] for an error. *)
Definition add_test (m : amap (list bytes)) (test file : bytes) : amap (list bytes) :=
  let old := match mget file m with Some l => l | None => [] end in
  if existsb (beq test) old then m else mset file (old ++ [test]) m.
(** lens/mutation.go:61-70. *)
Fixpoint add_files (m : amap (list bytes)) (test : bytes) (files : list bytes) : option (amap (list bytes)) :=
  match files with
  | [] => Some m
  | f :: files' => match abs f with None => None | Some a => add_files (add_test m test a) test files' end
  end.
(** A test: its name, and the files of the changed functions of its targets, in order
    (lens/mutation.go:58-61). *)
Fixpoint file_to_tests (m : amap (list bytes)) (tests : list (bytes * list bytes)) : option (amap (list bytes)) :=
  match tests with
  | [] => Some m
  | (t, files) :: tests' => match add_files m t files with None => None | Some m' => file_to_tests m' tests' end
  end.

(** ** Functions and files to mutate *)
(** A changed function (lens/types.go:41-81): name, file, marked lines. *)
Record mfunc := MFunc { mf_name : bytes; mf_file : bytes; mf_lines : list bool }.
(** lens/mutation.go:99-101, 125-127 *)
Definition add_file (l : list bytes) (f : bytes) : list bytes := if existsb (beq f) l then l else l ++ [f].
(** lens/mutation.go:86-101 (line scope) and 122-130: names and files in order; [None]
    for an error. *)
Fixpoint mutation_targets (lined : bool) (names files : list bytes) (l : list mfunc) : option (list bytes * list bytes) :=
  match l with
  | [] => Some (names, files)
  | c :: l' =>
      if lined && match mf_lines c with [] => true | _ => false end then None
      else if lined && negb (existsb (fun b => b) (mf_lines c)) then mutation_targets lined names files l'
      else match abs (mf_file c) with
           | None => None
           | Some a => mutation_targets lined (names ++ [mf_name c]) (add_file files a) l'
           end
  end.
End Mutation.

(** lens/mutation.go:103-108: the callback given to InsertFuncLines. *)
Definition skip_mark : bytes := B "// mutator-disable-next-line *".
(** lens/mutation.go:103-108. *)
Definition mark_line (bitmap : list bool) (st : unit) (i : nat) (line : bytes) : unit * (bytes * bool) :=
  (st, (if (i <? length bitmap)%nat && negb (nth i bitmap false) then skip_mark else [], true)).

(** ** The command line *)
(** lens/mutation.go:19-45 disabledMutations *)
Definition disabled_mutations : list bytes :=
  map B ["arithmetic/assignment"; "numbers/decrementer"; "numbers/incrementer"; "loop/break"; "loop/condition"; "loop/range_break";
         "branch/case"; "expression/remove"; "statement/remove"]%string.
(** lens/mutation.go:155-161; [None]: nothing to mutate (133-136). *)
Definition match_pattern (names : list bytes) : bytes := B "(" ++ join_with (B "|") names ++ B ")".
(** lens/mutation.go:155-161. *)
Definition mutation_args (script : bytes) (fast : bool) (names files : list bytes) : option (list bytes) :=
  match files with
  | [] => None
  | _ => Some ([B "--exec"; script; B "--match"; match_pattern names] ++ files ++
               (if fast then flat_map (fun t => [B "--disable"; t]) disabled_mutations else []))
  end.

(** lens/mutation.go:248-257 and 263-269 (script): the entry written for a file and the pattern
    the script makes of it, tr ' ' '|'. *)
Definition test_entry (tests : list bytes) : bytes := join_with (B " ") (bsort tests).
(** lens/mutation.go:248-282. *)
Definition run_pattern (entry : bytes) : bytes :=
  B "^(" ++ map (fun c => if ascii_dec c " "%char then "|"%char else c) entry ++ B ")$".

(** ** The script run for one mutant *)
(** lens/mutation.go:204-223 scriptFinishCheck: the exit code for a result of go test. *)
Definition script_exit (result : N) : N := match result with 0 => 1 | 1 => 0 | n => n end%N.

(** lens/mutation.go:263-282 (selected tests; [entry] is the entry of the file) and
    307-317 (all tests; no entry; for paths that bash takes as one word, see C67): without tests end at once; move the file away, have
    it moved back when the script ends (trap), copy the mutant over it, run the tests.
    The number is the exit code, the flag says whether moving the file back worked. Not modelled: the script being killed, a mutant that
    is a link, and tests that change the files of the package. *)
Inductive run_script (f : fsys) (entry : option bytes) (orig mutant : bytes) : fsys -> N -> bool -> Prop :=
  | rs_none : entry = Some [] -> run_script f entry orig mutant f 2 true
  | rs_busy : forall f1, entry <> Some [] -> rename f orig (orig ++ B ".mbkp") f1 false -> run_script f entry orig mutant f1 2 true
  | rs_uncopied : forall f1 f2 f3 ok,
      entry <> Some [] -> rename f orig (orig ++ B ".mbkp") f1 true -> copy_file 420 f1 mutant orig f2 false ->
      rename f2 (orig ++ B ".mbkp") orig f3 ok -> run_script f entry orig mutant f3 2 ok
  | rs_tested : forall f1 f2 f3 ok result,
      entry <> Some [] -> rename f orig (orig ++ B ".mbkp") f1 true -> copy_file 420 f1 mutant orig f2 true ->
      rename f2 (orig ++ B ".mbkp") orig f3 ok -> run_script f entry orig mutant f3 (script_exit result) ok.

(** ** The summary *)
(** lens/mutation.go:52-53: \d+ of the regular expression: the digits a text starts
    with, at least one, and what follows. Digits are followed by other text, so taking
    all of them is right. *)
Fixpoint digits (s : bytes) : bytes * bytes :=
  match s with
  | c :: s' => if is_digit c then let '(d, r) := digits s' in (c :: d, r) else ([], s)
  | [] => ([], [])
  end.
(** lens/mutation.go:52-53: A literal part of the regular expression. *)
Fixpoint lit (p s : bytes) : option bytes :=
  match p, s with
  | [], _ => Some s
  | c :: p', x :: s' => if ascii_dec c x then lit p' s' else None
  | _ :: _, [] => None
  end.
(** One group of the regular expression, lens/mutation.go:52-53. *)
Definition number (s : bytes) : option (N * bytes) :=
  match digits s with ([], _) => None | (d, r) => match atoi d with Some n => Some (n, r) | None => None end end.
(** lens/mutation.go:52-53: the expression after .* : the five numbers. Numbers beyond
    64 bits, where strconv.Atoi gives its limit, are not modelled. *)
Definition counts (s : bytes) : option (N * N * N * N * N) :=
  match lit (B " (") s with None => None | Some s =>
  match number s with None => None | Some (a, s) =>
  match lit (B " passed, ") s with None => None | Some s =>
  match number s with None => None | Some (b, s) =>
  match lit (B " failed, ") s with None => None | Some s =>
  match number s with None => None | Some (c, s) =>
  match lit (B " duplicated, ") s with None => None | Some s =>
  match number s with None => None | Some (d, s) =>
  match lit (B " skipped, total is ") s with None => None | Some s =>
  match number s with None => None | Some (e, s) =>
  match lit (B ")") s with None => None | Some _ => Some (a, b, c, d, e) end end end end end end end end end end end.
(** lens/mutation.go:52-53: .* takes as much of the line as leaves a match. *)
Fixpoint after_any (s : bytes) : option (N * N * N * N * N) :=
  match s with
  | [] => counts []
  | c :: s' =>
      match (if ascii_dec c nl then None else after_any s') with
      | Some r => Some r
      | None => counts s
      end
  end.
(** FindStringSubmatch (lens/mutation.go:176): the leftmost match. *)
Fixpoint find_summary (s : bytes) : option (N * N * N * N * N) :=
  match (match lit (B "The mutation score is ") s with Some r => after_any r | None => None end) with
  | Some r => Some r
  | None => match s with [] => None | _ :: s' => find_summary s' end
  end.
(** lens/mutation.go:176-197: total (m[5]) and squashed (m[2]); [None] for an error. *)
Definition read_summary (out : bytes) : option (N * N) :=
  match find_summary out with Some (a, b, c, d, e) => Some (e, b) | None => None end.

(** lens/module.go:653-667: the definition kept for a function is what go/printer makes
    of it without its comments; the entries of its bitmap (lens/module.go:689-748) count
    lines of that text. Of the printer only this is modelled: a run of lines without
    code (lines marked [false]) comes out as one empty line. *)
Fixpoint printed (lines : list (bool * bytes)) : list bytes :=
  match lines with
  | [] => []
  | (true, l) :: rest => l :: printed rest
  | (false, _) :: rest => match rest with (false, _) :: _ => printed rest | _ => [] :: printed rest end
  end.
