(** Model of small helpers: the rolling log buffer and the tee writer
    (lens/util_io.go), line limiting (lens/util.go), the environment of child
    processes (lens/exec.go) and the containment test for paths (lens/file.go).
    Definitions only. *)

From Verif Require Import Base.

(** ** Rolling buffer (util_io.go:62-86) *)

(** [limitedRollingBuffer.Write] (util_io.go:74-86) on the contents of the
    underlying buffer: the new contents and the result [(n, err == nil)].
    [bytes.Buffer.Write] always takes everything. *)
Definition roll_write (max : nat) (buf p : bytes) : bytes * (nat * bool) :=
  let cur := buf ++ p in
  (if (max <? length cur)%nat
   then let half := Nat.div max 2 in B "..." ++ skipn (length cur - half) cur
   else cur,
   (length p, true)).

(** ** Line limiting (util.go:65-77) *)

(** lens/util.go:66: [strings.Split(s, "\n")]. *)
Definition nl : byte := ascii_of_N 10.
(** lens/util.go:66. *)
Fixpoint split_on (c : byte) (s : bytes) : list bytes :=
  match s with
  | [] => [[]]
  | x :: s' => if ascii_dec x c then [] :: split_on c s'
               else match split_on c s' with [] => [[x]] | l :: ls => (x :: l) :: ls end
  end.
(** lens/util.go:73: [strings.Join]. *)
Fixpoint join_with (sep : bytes) (l : list bytes) : bytes :=
  match l with [] => [] | [x] => x | x :: l' => x ++ sep ++ join_with sep l' end.

(** limitStringLines, lens/util.go:65-77. *)
Definition limit_string_lines (s : bytes) (count : nat) (head : bool) : bytes :=
  let lines := split_on nl s in
  if (count <? length lines)%nat
  then join_with [nl] (if head then firstn count lines else skipn (length lines - count) lines)
  else s.

(** ** Tee writer (util_io.go:11-60) *)

(** lens/util_io.go:11-60: An [io.Writer] as the tee sees it: a sink (with an identity,
    and whether it also has a [Close]), [io.Discard], a nil interface, or a tee of two.
    *)
Inductive writer :=
| WNil
| WDiscard
| WSink (id : nat) (closer : bool)
| WTee (one two : writer).

(** lens/util_io.go:11-60: What happened at the sinks: one event per [Write] or [Close]
    call on a sink, with what it was given and what it answered. *)
Inductive sink_event :=
| EvWrite (id : nat) (p : bytes) (n : Z) (err : bool)
| EvClose (id : nat) (err : bool).
(** lens/util_io.go:11-60. *)
Definition trace := list sink_event.

(** lens/util_io.go:17-40, 51-60: [w.(io.WriteCloser)] succeeds. *)
Definition is_closer (w : writer) : bool :=
  match w with WTee _ _ => true | WSink _ c => c | WDiscard => false | WNil => false end.

(** [TeeWriter] (util_io.go:17-40); [WNil] in the list is a nil writer. *)
Definition tee_last (ws : list writer) : writer :=
  fold_left (fun last w => match w with
                           | WNil => last
                           | _ => match last with WNil => w | _ => WTee last w end
                           end) ws WNil.
(** TeeWriter, lens/util_io.go:17-40. *)
Definition tee_writer (ws : list writer) : writer :=
  let last := tee_last ws in if is_closer last then last else WTee last WDiscard.

Section Tee.
(** lens/util_io.go:42-49: How sinks answer: any function of everything that happened so
    far. *)
Variable on_write : trace -> nat -> bytes -> Z * bool.   (* (n, err != nil) *)
(** lens/util_io.go:51-60. *)
Variable on_close : trace -> nat -> bool.                (* err != nil *)

(** [Write] (util_io.go:42-49); [None] is the panic on a nil interface.  The
    result is [(n, err != nil)]; [io.Discard] takes everything. *)
Fixpoint tee_write (w : writer) (p : bytes) (tr : trace) : option (trace * (Z * bool)) :=
  match w with
  | WNil => None
  | WDiscard => Some (tr, (Z.of_nat (length p), false))
  | WSink id _ => let '(n, e) := on_write tr id p in Some (tr ++ [EvWrite id p n e], (n, e))
  | WTee one two =>
      match tee_write one p tr with
      | None => None
      | Some (tr1, (n1, e1)) =>
          match tee_write two p tr1 with
          | None => None
          | Some (tr2, (n2, e2)) =>
              if negb e1 && negb e2 && negb (n1 =? n2)%Z then Some (tr2, (0%Z, true))
              else Some (tr2, (n1, e1 || e2))
          end
      end
  end.

(** [Close] (util_io.go:51-60). *)
Fixpoint tee_close (w : writer) (tr : trace) : trace * bool :=
  match w with
  | WNil | WDiscard => (tr, false)
  | WSink id c => if c then let e := on_close tr id in (tr ++ [EvClose id e], e) else (tr, false)
  | WTee one two =>
      let '(tr1, e1) := if is_closer one then tee_close one tr else (tr, false) in
      let '(tr2, e2) := if is_closer two then tee_close two tr1 else (tr1, false) in
      (tr2, e1 || e2)
  end.
End Tee.

(** ** Environment of child processes (exec.go:36-51) *)

(** lens/exec.go:39, 45: [strings.SplitN(kv, "=", 2)[0]]: the text before the first [=],
    or all. *)
Fixpoint before_eq (kv : bytes) : bytes :=
  match kv with [] => [] | c :: kv' => if ascii_dec c "=" then [] else c :: before_eq kv' end.

(** mergeSafeEnv, lens/exec.go:36-51. *)
Definition merge_safe_env (environ env : list bytes) : list bytes :=
  let env_keys := map before_eq env in
  filter (fun e =>
    if beq e [] || beq e (B "=") || has_prefix (B "LD_") e then false
    else if existsb (beq (before_eq e)) env_keys then false
    else true) environ
  ++ env.

(** ** Containment of paths (file.go:25-49)

    [filepath.Abs], [Clean] and [Rel] are the standard library's, on Unix: their
    documented behaviour on the elements of a path. *)

Definition slash : byte := "/"%char.

(** lens/file.go:27, 31: [Clean] of an absolute path, as its elements below the root:
    empty and "." elements vanish, ".." removes the element before it (if any). *)
Definition clean_step (acc : list bytes) (e : bytes) : list bytes :=
  if beq e [] || beq e (B ".") then acc
  else if beq e (B "..") then removelast acc
  else acc ++ [e].
(** lens/file.go:27, 31. *)
Definition clean_elems (p : bytes) : list bytes := fold_left clean_step (split_on slash p) [].

(** [Abs] (file.go:27, 31): relative paths are taken below the working
    directory. *)
Definition is_abs (p : bytes) : bool := match p with c :: _ => if ascii_dec c slash then true else false | [] => false end.
(** lens/file.go:27, 31. *)
Definition abs_elems (cwd p : bytes) : list bytes :=
  clean_elems (if is_abs p then p else cwd ++ slash :: p).

(** [Rel] of two clean absolute paths (file.go:39): "." when equal; otherwise
    one ".." for each element of the base beyond the common elements, then the
    rest of the target. *)
Fixpoint rel_elems (base targ : list bytes) : list bytes :=
  match base, targ with
  | b :: base', t :: targ' => if beq b t then rel_elems base' targ'
                              else repeat (B "..") (length base) ++ targ
  | _, _ => repeat (B "..") (length base) ++ targ
  end.
(** lens/file.go:39. *)
Definition rel (base targ : list bytes) : bytes :=
  match rel_elems base targ with [] => B "." | es => join_with [slash] es end.

(** lens/file.go:25-49: [fileWithinDir]; errors do not arise for absolute paths.
    [ToSlash] is the identity on Unix. *)
Definition file_within_dir (cwd file dir : bytes) : bool :=
  let r := rel (abs_elems cwd dir) (abs_elems cwd file) in
  negb (has_prefix (B "..") r || has_prefix (B "../") r).
