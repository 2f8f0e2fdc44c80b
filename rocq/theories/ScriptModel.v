(** Model of the texts of the mutation scripts, buildExecSelectTestsScript and
    buildExecAllTestsScript (lens/mutation.go:200-331), and of how bash reads the data in
    them: double quotes, unquoted variables.  Definitions only.  What the script does with
    the files is in [MutationModel.run_script]. *)
From Verif Require Import Base Maps UtilModel MutationModel.

(** ** The texts *)
(** scriptFinishCheck (lens/mutation.go:200-223). *)
Definition finish_text : bytes := B "if [ ""$MUTATE_DEBUG"" = true ] || [ ""$MUTATE_VERBOSE"" = true ] ; then
	echo ""$GOMUTESTING_TEST""
fi

case $GOMUTESTING_RESULT in
0) # tests passed -> FAIL
	echo ""$GOMUTESTING_DIFF""
	exit 1
	;;
1) # tests failed -> PASS
	exit 0
	;;
2) # did not compile -> SKIP
	if [ ""$MUTATE_VERBOSE"" = true ] ; then
		echo ""Mutation did not compile""
	fi
	exit 2
	;;
*" ++ B ") # Unknown exit code -> SKIP
	echo ""Unknown exit code""
	echo ""$GOMUTESTING_DIFF""
	exit $GOMUTESTING_RESULT
	;;
esac".
(** The constant end of the script for selected tests (lens/mutation.go:261-283). *)
Definition select_tail : bytes := B "orig=""$MUTATE_ORIGINAL""
# Look up the tests for that file
tests=""${FILE_TEST_MAP[$orig]}""
# If no tests cover this file, skip (unexpected)
if [ -z ""$tests"" ]; then
  exit 2
fi
# Build a single -run regex from the space-separated test names
pattern=""^($(echo ""$tests"" | tr ' ' '|'))$"" # -> ^(TestA|TestB)$

# Back up the original file and overwrite it with the mutant
mv ""$MUTATE_ORIGINAL"" ""$MUTATE_ORIGINAL.mbkp"" || {
  echo ""skip: cannot rename $MUTATE_ORIGINAL (tmpcopy enabled?)"" 1>&2
  exit 2
}
trap 'mv ""$MUTATE_ORIGINAL.mbkp"" ""$MUTATE_ORIGINAL""' EXIT
cp ""$MUTATE_CHANGED"" ""$MUTATE_ORIGINAL"" || { exit 2; }

# Run only the affected tests
export MUTATE_TIMEOUT=${MUTATE_TIMEOUT:-30}
GOMUTESTING_TEST=$(go test -count=1 -failfast -timeout=$(printf '%ds' $MUTATE_TIMEOUT) -run ""$pattern"" $PKGS 2>&1)
export GOMUTESTING_RESULT=$?

"%string.
(** scriptTmpl without the check appended to it (lens/mutation.go:299-319). *)
Definition all_tmpl : bytes := B "#!/usr/bin/env bash
PKGS=""%s""
if [ -z ${MUTATE_CHANGED+x} ]; then echo ""MUTATE_CHANGED is not set""; exit 1; fi
if [ -z ${MUTATE_ORIGINAL+x} ]; then echo ""MUTATE_ORIGINAL is not set""; exit 1; fi
if [ -z ${MUTATE_PACKAGE+x} ]; then echo ""MUTATE_PACKAGE is not set""; exit 1; fi

export GOMUTESTING_DIFF=$(diff -u $MUTATE_ORIGINAL $MUTATE_CHANGED)

mv $MUTATE_ORIGINAL $MUTATE_ORIGINAL.mbkp || {
 echo ""skip: cannot rename $MUTATE_ORIGINAL (need to run with tmpcopy enabled?)"" 1>&2
 exit 2
}
trap 'mv ""$MUTATE_ORIGINAL.mbkp"" ""$MUTATE_ORIGINAL""' EXIT
cp $MUTATE_CHANGED $MUTATE_ORIGINAL || { exit 2; }

export MUTATE_TIMEOUT=${MUTATE_TIMEOUT:-30}

GOMUTESTING_TEST=$(go test -count=1 -failfast -timeout=$(printf '%%ds' $MUTATE_TIMEOUT) $PKGS 2>&1)
export GOMUTESTING_RESULT=$?

"%string.

(** A double quote, lens/mutation.go:236. *)
Definition dq : ascii := "034"%char.

(** The line with the packages (lens/mutation.go:236, 300). *)
Definition pkgs_line (packages : list bytes) : bytes :=
  B "PKGS=" ++ [dq] ++ join_with (B " ") packages ++ [dq; nl].
(** The line for one file and its tests (lens/mutation.go:247-256). *)
Definition entry_line (e : bytes * list bytes) : bytes :=
  B "FILE_TEST_MAP[" ++ [dq] ++ fst e ++ [dq] ++ B "]=" ++ [dq] ++ test_entry (snd e) ++ [dq; nl].
(** The files in order with their tests (lens/mutation.go:245-248). *)
Definition entries (m : amap (list bytes)) : list (bytes * list bytes) :=
  map (fun k => (k, match mget k m with Some l => l | None => [] end)) (bsort (mkeys m)).
(** buildExecSelectTestsScript (lens/mutation.go:231-288): what is written if nothing fails. *)
Definition select_script (m : amap (list bytes)) (packages : list bytes) : bytes :=
  B "#!/usr/bin/env bash" ++ [nl; nl] ++ pkgs_line packages ++ B "declare -A FILE_TEST_MAP" ++ [nl] ++
  flat_map entry_line (entries m) ++ select_tail ++ finish_text.

(** fmt.Fprintf with one text, for the verbs %s and %% (lens/mutation.go:324); [None] for
    anything else, where fmt writes an error into the text. *)
Fixpoint format (tmpl : bytes) (args : list bytes) : option bytes :=
  match tmpl with
  | [] => match args with [] => Some [] | _ => None end
  | "%"%char :: "%"%char :: t => option_map (cons "%"%char) (format t args)
  | "%"%char :: "s"%char :: t =>
      match args with a :: args' => option_map (app a) (format t args') | [] => None end
  | "%"%char :: _ => None
  | c :: t => option_map (cons c) (format t args)
  end.
(** buildExecAllTestsScript (lens/mutation.go:298-330). *)
Definition all_script (packages : list bytes) : option bytes :=
  format (all_tmpl ++ finish_text) [join_with (B " ") packages].

(** ** How bash reads a double-quoted text *)
(** After the opening quote: the text and what follows the closing quote; something is
    expanded or run; there is no closing quote.  (Bash manual 3.1.2.3, for the texts of
    lens/mutation.go:236, 253.) *)
Inductive quoted := QText (text rest : bytes) | QRuns | QOpen.
(** Characters that may start an expansion after a dollar sign: letters, digits, _ and
    special parameters, braces and parentheses (Bash manual 3.5; lens/mutation.go:253). *)
Definition expands (c : ascii) : bool :=
  let n := N_of_ascii c in
  ((65 <=? n) && (n <=? 90) || (97 <=? n) && (n <=? 122) || (48 <=? n) && (n <=? 57))%N ||
  existsb (Ascii.eqb c) ["_"; "{"; "("; "["; "?"; "*"; "@"; "#"; "$"; "!"; "-"]%char.
(** Bash manual 3.1.2.3; lens/mutation.go:236, 253. *)
Definition q_cons (c : ascii) (q : quoted) : quoted :=
  match q with QText t r => QText (c :: t) r | _ => q end.
(** Bash manual 3.1.2.3; lens/mutation.go:236, 253. *)
Fixpoint read_dq (s : bytes) : quoted :=
  match s with
  | [] => QOpen
  | c :: s' =>
    if Ascii.eqb c dq then QText [] s'
    else if Ascii.eqb c "`"%char then QRuns
    else if Ascii.eqb c "$"%char then
      match s' with
      | d :: _ => if expands d then QRuns else q_cons c (read_dq s')
      | [] => QOpen
      end
    else if Ascii.eqb c "\"%char then
      match s' with
      | d :: s'' =>
          if Ascii.eqb d nl then read_dq s''
          else if existsb (Ascii.eqb d) ["$"; "`"; "034"; "\"]%char then q_cons d (read_dq s'')
          else q_cons c (read_dq s')
      | [] => QOpen
      end
    else q_cons c (read_dq s')
  end.

(** The data of a script as bash has it when it comes to the constant part: PKGS, the
    assignments to FILE_TEST_MAP, and the text after them (lens/mutation.go:236-261). *)
Record script_data := SD { sd_pkgs : bytes; sd_map : list (bytes * bytes); sd_rest : bytes }.

(** The assignments to the map (lens/mutation.go:253); [None] when one of them is not a
    constant assignment. *)
Fixpoint read_entries (fuel : nat) (s : bytes) : option (list (bytes * bytes) * bytes) :=
  match fuel with
  | O => None
  | S fuel' =>
    match lit (B "FILE_TEST_MAP[" ++ [dq]) s with
    | None => Some ([], s)
    | Some s1 =>
      match read_dq s1 with
      | QText k s2 =>
        match lit (B "]=" ++ [dq]) s2 with
        | None => None
        | Some s3 =>
          match read_dq s3 with
          | QText v (c :: s4) =>
              if Ascii.eqb c nl then option_map (fun '(l, r) => ((k, v) :: l, r)) (read_entries fuel' s4) else None
          | _ => None
          end
        end
      | _ => None
      end
    end
  end.
(** The head of the script for selected tests (lens/mutation.go:231-259). *)
Definition read_script (fuel : nat) (s : bytes) : option script_data :=
  match lit (B "#!/usr/bin/env bash" ++ [nl; nl] ++ B "PKGS=" ++ [dq]) s with
  | None => None
  | Some s1 =>
    match read_dq s1 with
    | QText p s2 =>
      match lit ([nl] ++ B "declare -A FILE_TEST_MAP" ++ [nl]) s2 with
      | None => None
      | Some s3 => option_map (fun '(l, r) => SD p l r) (read_entries fuel s3)
      end
    | _ => None
    end
  end.
(** ${FILE_TEST_MAP[$orig]} (lens/mutation.go:261-263): the last assignment counts, no
    assignment gives the empty text. *)
Definition lookup (l : list (bytes * bytes)) (orig : bytes) : bytes :=
  match find (fun e => beq (fst e) orig) (rev l) with Some e => snd e | None => [] end.

(** ** How bash makes words of variables *)
(** A part of a word: text or a quoted variable, or an unquoted variable, by value
    (lens/mutation.go:272, 277, 281, 305-316). *)
Inductive part := Exact (s : bytes) | Unquoted (s : bytes).
(** The default of IFS (lens/mutation.go:281, 316). *)
Definition blank (c : ascii) : bool := existsb (Ascii.eqb c) [" "; "009"; nl]%char.
(** Characters of a file pattern (lens/mutation.go:281, 316). *)
Definition magic (c : ascii) : bool := existsb (Ascii.eqb c) ["*"; "?"; "["]%char.

Section Words.
(** The names that match a pattern, none if there are none (file name expansion;
    lens/mutation.go:281, 305-316). *)
Variable glob : bytes -> list bytes.
(** A field under construction, and whether an unquoted variable put a pattern
    character into it; finished by file name expansion (Bash manual 3.5.8;
    lens/mutation.go:281, 305-316). *)
Definition finish (cur : option (bytes * bool)) : list bytes :=
  match cur with
  | None => []
  | Some (w, false) => [w]
  | Some (w, true) => match glob w with [] => [w] | l => l end
  end.
(** Bash manual 3.5.7; lens/mutation.go:281, 305-316. *)
Definition add_text (cur : option (bytes * bool)) (s : bytes) (m : bool) : option (bytes * bool) :=
  match cur with None => Some (s, m) | Some (w, m') => Some (w ++ s, m' || m) end.
(** Field splitting of an unquoted variable (Bash manual 3.5.7; lens/mutation.go:281, 305-316). *)
Fixpoint split_var (cur : option (bytes * bool)) (s : bytes) : list bytes * option (bytes * bool) :=
  match s with
  | [] => ([], cur)
  | c :: s' =>
    if blank c then let '(l, cur') := split_var None s' in (finish cur ++ l, cur')
    else split_var (add_text cur [c] (magic c)) s'
  end.
(** The fields of a word (Bash manual 3.5; lens/mutation.go:272, 277, 281, 305-316). *)
Fixpoint fields (cur : option (bytes * bool)) (w : list part) : list bytes :=
  match w with
  | [] => finish cur
  | Exact s :: w' => fields (add_text cur s false) w'
  | Unquoted s :: w' => let '(l, cur') := split_var cur s in l ++ fields cur' w'
  end.
(** A command: the fields of its words (lens/mutation.go:272-281, 305-316). *)
Definition command (ws : list (list part)) : list bytes := flat_map (fields None) ws.

(** The commands of the scripts.  Selected tests (lens/mutation.go:272, 277, 281): *)
Definition select_mv (orig : bytes) : list bytes :=
  command [[Exact (B "mv")]; [Exact orig]; [Exact orig; Exact (B ".mbkp")]].
(** lens/mutation.go:277. *)
Definition select_cp (changed orig : bytes) : list bytes :=
  command [[Exact (B "cp")]; [Exact changed]; [Exact orig]].
(** lens/mutation.go:281. *)
Definition select_test (timeout pattern pkgs : bytes) : list bytes :=
  command [[Exact (B "go")]; [Exact (B "test")]; [Exact (B "-count=1")]; [Exact (B "-failfast")];
    [Exact (B "-timeout="); Unquoted (timeout ++ B "s")]; [Exact (B "-run")]; [Exact pattern]; [Unquoted pkgs]].
(** All tests (lens/mutation.go:307, 312, 316). *)
Definition all_mv (orig : bytes) : list bytes :=
  command [[Exact (B "mv")]; [Unquoted orig]; [Unquoted orig; Exact (B ".mbkp")]].
(** lens/mutation.go:312. *)
Definition all_cp (changed orig : bytes) : list bytes :=
  command [[Exact (B "cp")]; [Unquoted changed]; [Unquoted orig]].
(** lens/mutation.go:316. *)
Definition all_test (timeout pkgs : bytes) : list bytes :=
  command [[Exact (B "go")]; [Exact (B "test")]; [Exact (B "-count=1")]; [Exact (B "-failfast")];
    [Exact (B "-timeout="); Unquoted (timeout ++ B "s")]; [Unquoted pkgs]].
End Words.

(** ** How bash reads a simple command *)
(** A maximal run of characters, for the lines at lens/mutation.go:272-281, 305-316. *)
Fixpoint span (p : ascii -> bool) (s : bytes) : bytes * bytes :=
  match s with
  | [] => ([], [])
  | c :: s' => if p c then let '(a, b) := span p s' in (c :: a, b) else ([], s)
  end.
(** Characters of names (Bash manual 2; lens/mutation.go:272). *)
Definition name_char (c : ascii) : bool :=
  let n := N_of_ascii c in ((65 <=? n) && (n <=? 90) || (97 <=? n) && (n <=? 122) || (48 <=? n) && (n <=? 57) || (n =? 95))%N.
(** Characters that stand for themselves, unquoted or in double quotes, as far as the lines at
    lens/mutation.go:272-281, 305-316 use them. *)
Definition own_char (inq : bool) (c : ascii) : bool :=
  negb (existsb (Ascii.eqb c) [dq; "$"; "`"; "\"]%char) && (inq || negb (existsb (Ascii.eqb c) [" "; "'"; nl]%char)).
(** A word under construction (lens/mutation.go:272). *)
Definition push (cur : option (list part)) (p : part) : option (list part) :=
  match cur with None => Some [p] | Some l => Some (l ++ [p]) end.
(** The words of a simple command: double quotes, variables and command substitutions, the values by
    [env] and [sub] (Bash manual 3.1-3.5; lens/mutation.go:272-281, 305-316); [None] for anything else
    or an open quote. *)
Fixpoint read_words (fuel : nat) (env sub : bytes -> bytes) (s : bytes) (cur : option (list part)) (inq : bool) : option (list (list part)) :=
  let flush := match cur with None => [] | Some l => [l] end in
  match fuel with
  | O => None
  | S f =>
    match s with
    | [] => if inq then None else Some flush
    | c :: s' =>
      if Ascii.eqb c dq then read_words f env sub s' (if inq then cur else push cur (Exact [])) (negb inq)
      else if negb inq && Ascii.eqb c " "%char then option_map (app flush) (read_words f env sub s' None false)
      else if Ascii.eqb c "$"%char then
        match s' with
        | "("%char :: t =>
            let '(inside, r) := span (fun x => negb (Ascii.eqb x ")"%char)) t in
            match r with
            | _ :: r' => read_words f env sub r' (push cur (if inq then Exact (sub inside) else Unquoted (sub inside))) inq
            | [] => None
            end
        | _ =>
            let '(n, r) := span name_char s' in
            match n with
            | [] => None
            | _ => read_words f env sub r (push cur (if inq then Exact (env n) else Unquoted (env n))) inq
            end
        end
      else
        let '(t, r) := span (own_char inq) s in
        match t with
        | [] => None
        | _ => read_words f env sub r (push cur (Exact t)) inq
        end
    end
  end.
(** The words up to an operator or a redirection (lens/mutation.go:272, 277, 281). *)
Fixpoint until_operator (ws : list (list part)) : list (list part) :=
  match ws with
  | [] => []
  | w :: ws' => match w with
                | [Exact t] => if beq t (B "||") || beq t (B "2>&1") then [] else w :: until_operator ws'
                | _ => w :: until_operator ws'
                end
  end.
(** The command of a line between two texts, "" and "" for all of it; ["trap '" and "' EXIT"] for a trap
    and ["X=$(" and ")"] for a substitution (lens/mutation.go:276, 281, 311, 316). *)
Definition line_command (glob : bytes -> list bytes) (env sub : bytes -> bytes) (before after line : bytes) : option (list bytes) :=
  let inner := firstn (length line - length before - length after) (skipn (length before) line) in
  if beq line (before ++ inner ++ after)
  then option_map (fun ws => command glob (until_operator ws)) (read_words (S (length inner)) env sub inner None false)
  else None.
