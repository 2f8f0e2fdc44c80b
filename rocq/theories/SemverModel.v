(** Model of version comparison: golang.org/x/mod/semver as the code uses it,
    and the go-version helpers of lens/module.go, lens/asttweak.go and
    lens/astexec.go.  Definitions only.

    The semver package is a dependency, not part of the repository; it is
    modelled after its published source (parse, parseInt, parsePrerelease,
    parseBuild, Compare), with a pre-release kept as the list of its
    dot-separated identifiers. *)

From Verif Require Import Base Maps UtilModel.

(** golang.org/x/mod/semver as called at lens/module.go:164-165, 469-473, 489:
    [parseInt]: a non-empty run of digits without a leading zero. *)
Fixpoint take_digits (v : bytes) : bytes * bytes :=
  match v with
  | c :: v' => if is_digit c then let '(t, r) := take_digits v' in (c :: t, r) else ([], v)
  | [] => ([], [])
  end.
(** golang.org/x/mod/semver as called at lens/module.go:164-165, 469-473, 489. *)
Definition parse_int (v : bytes) : option (bytes * bytes) :=
  let '(t, r) := take_digits v in
  match t with
  | [] => None
  | [_] => Some (t, r)
  | c :: _ => if ascii_dec c "0" then None else Some (t, r)
  end.

(** golang.org/x/mod/semver as called at lens/module.go:164-165, 469-473, 489:
    [isIdentChar]. *)
Definition in_range (lo hi c : byte) : bool :=
  (N_of_ascii lo <=? N_of_ascii c)%N && (N_of_ascii c <=? N_of_ascii hi)%N.
(** golang.org/x/mod/semver as called at lens/module.go:164-165, 469-473, 489. *)
Definition is_ident_char (c : byte) : bool :=
  in_range "A"%char "Z"%char c || in_range "a"%char "z"%char c || in_range "0"%char "9"%char c || (if ascii_dec c "-" then true else false).
(** golang.org/x/mod/semver as called at lens/module.go:164-165, 469-473, 489: [isNum]
    and [isBadNum]. *)
Definition is_num (v : bytes) : bool := forallb is_digit v.
(** golang.org/x/mod/semver as called at lens/module.go:164-165, 469-473, 489. *)
Definition is_bad_num (v : bytes) : bool :=
  is_num v && (1 <? length v)%nat && match v with c :: _ => if ascii_dec c "0" then true else false | [] => false end.

(** golang.org/x/mod/semver as called at lens/module.go:164-165, 469-473, 489. *)
Fixpoint until_plus (v : bytes) : bytes * bytes :=
  match v with
  | [] => ([], [])
  | c :: v' => if ascii_dec c "+" then ([], v) else let '(t, r) := until_plus v' in (c :: t, r)
  end.

(** golang.org/x/mod/semver as called at lens/module.go:164-165, 469-473, 489:
    [parsePrerelease], after the hyphen. *)
Definition parse_pre (v : bytes) : option (list bytes * bytes) :=
  let '(t, r) := until_plus v in
  let ids := split_on "."%char t in
  if forallb (fun i => forallb is_ident_char i && negb (beq i []) && negb (is_bad_num i)) ids
  then Some (ids, r) else None.
(** golang.org/x/mod/semver as called at lens/module.go:164-165, 469-473, 489:
    [parseBuild], after the plus: takes everything. *)
Definition parse_build (v : bytes) : bool :=
  forallb (fun i => forallb is_ident_char i && negb (beq i [])) (split_on "."%char v).

(** golang.org/x/mod/semver as called at lens/module.go:164-165, 469-473, 489. *)
Record semver := Semver { sv_major : bytes; sv_minor : bytes; sv_patch : bytes; sv_pre : list bytes }.

(** golang.org/x/mod/semver as called at lens/module.go:164-165, 469-473, 489: [parse].
    *)
Definition parse_tail (maj min pat v : bytes) : option semver :=
  match
    match v with
    | c :: v' => if ascii_dec c "-" then parse_pre v' else Some ([], v)
    | [] => Some ([], [])
    end
  with
  | None => None
  | Some (pre, v1) =>
      match v1 with
      | [] => Some (Semver maj min pat pre)
      | c :: v2 => if ascii_dec c "+" then (if parse_build v2 then Some (Semver maj min pat pre) else None) else None
      end
  end.
(** golang.org/x/mod/semver as called at lens/module.go:164-165, 469-473, 489. *)
Definition semver_parse (v : bytes) : option semver :=
  match v with
  | [] => None
  | c :: v0 =>
      if ascii_dec c "v" then
        match parse_int v0 with
        | None => None
        | Some (maj, []) => Some (Semver maj (B "0") (B "0") [])
        | Some (maj, c1 :: v1) =>
            if ascii_dec c1 "." then
              match parse_int v1 with
              | None => None
              | Some (min, []) => Some (Semver maj min (B "0") [])
              | Some (min, c2 :: v2) =>
                  if ascii_dec c2 "." then
                    match parse_int v2 with
                    | None => None
                    | Some (pat, v3) => parse_tail maj min pat v3
                    end
                  else None
              end
            else None
        end
      else None
  end.
(** golang.org/x/mod/semver as called at lens/module.go:164-165, 469-473, 489:
    [IsValid]. *)
Definition semver_valid (v : bytes) : bool := match semver_parse v with Some _ => true | None => false end.

(** golang.org/x/mod/semver as called at lens/module.go:164-165, 469-473, 489:
    [compareInt]. *)
Definition compare_int (x y : bytes) : comparison :=
  if beq x y then Eq
  else if (length x <? length y)%nat then Lt
  else if (length y <? length x)%nat then Gt
  else if bltb x y then Lt else Gt.

(** golang.org/x/mod/semver as called at lens/module.go:164-165, 469-473, 489:
    [comparePrerelease]; two different identifiers. *)
Definition compare_ident (dx dy : bytes) : comparison :=
  let ix := is_num dx in let iy := is_num dy in
  if negb (Bool.eqb ix iy) then (if ix then Lt else Gt)
  else if ix && (length dx <? length dy)%nat then Lt
  else if ix && (length dy <? length dx)%nat then Gt
  else if bltb dx dy then Lt else Gt.
(** golang.org/x/mod/semver as called at lens/module.go:164-165, 469-473, 489. *)
Fixpoint pre_loop (x y : list bytes) : comparison :=
  match x, y with
  | [], _ => Lt
  | _, [] => Gt
  | dx :: x', dy :: y' => if beq dx dy then pre_loop x' y' else compare_ident dx dy
  end.
(** golang.org/x/mod/semver as called at lens/module.go:164-165, 469-473, 489. *)
Fixpoint lbeq (x y : list bytes) : bool :=
  match x, y with [], [] => true | a :: x', b :: y' => beq a b && lbeq x' y' | _, _ => false end.
(** golang.org/x/mod/semver as called at lens/module.go:164-165, 469-473, 489. *)
Definition compare_pre (x y : list bytes) : comparison :=
  if lbeq x y then Eq
  else match x, y with
       | [], _ => Gt
       | _, [] => Lt
       | _, _ => pre_loop x y
       end.

(** golang.org/x/mod/semver as called at lens/module.go:164-165, 469-473, 489:
    [Compare]: an invalid version is below every valid one. *)
Definition semver_compare (v w : bytes) : comparison :=
  match semver_parse v, semver_parse w with
  | None, None => Eq
  | None, Some _ => Lt
  | Some _, None => Gt
  | Some pv, Some pw =>
      match compare_int (sv_major pv) (sv_major pw) with
      | Eq => match compare_int (sv_minor pv) (sv_minor pw) with
              | Eq => match compare_int (sv_patch pv) (sv_patch pw) with
                      | Eq => compare_pre (sv_pre pv) (sv_pre pw)
                      | c => c
                      end
              | c => c
              end
      | c => c
      end
  end.

(** [compareGoVersions] (module.go:488-490). *)
Definition compare_go (a b : bytes) : comparison := semver_compare ("v"%char :: a) ("v"%char :: b).

(** [olderGoVersion] (module.go:493-504). *)
Definition older_go (a b : bytes) : bytes :=
  if beq a [] then b
  else if beq b [] then a
  else match compare_go a b with Lt => a | _ => b end.

(** [MinGoVersion] (asttweak.go:43). *)
Definition min_go : bytes := B "1.13".

(** [IsGoVersionBelowMinimum] (asttweak.go:46-51). *)
Definition below_minimum (v : bytes) : bool :=
  if beq v [] then false else match compare_go v min_go with Lt => true | _ => false end.

(** [FilterModulesByGoVersion] (astexec.go:37-52): a function here is any value
    with its module's go version ([None] for a nil module).  The map iteration
    order of the input is the list's order; the log lines are left out. *)
Definition filter_by_go {F} (fs : list (F * option bytes)) : list F * nat :=
  fold_left (fun '(kept, skipped) '(f, m) =>
    match m with
    | Some v => if below_minimum v then (kept, S skipped) else (kept ++ [f], skipped)
    | None => (kept ++ [f], skipped)
    end) fs ([], 0%nat).
