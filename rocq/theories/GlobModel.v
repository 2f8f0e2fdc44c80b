(** Model of the file name patterns the tool gives to filepath.Glob: the one for a client that has been put into a
    package already (lens/asttweak.go:209) and those of use directives (lens/module.go:367, 389).  filepath.Match and
    filepath.Glob are the standard library's, on Unix, written down from their published source.  Definitions only. *)
From Verif Require Import Base Maps UtilModel WorkModel.

(** The characters Glob takes for a pattern, in filepath.hasMeta (called for lens/asttweak.go:209, lens/module.go:367, 389). *)
Definition magic (c : byte) : bool := existsb (Ascii.eqb c) (B "*?[\").
(** filepath.hasMeta (for lens/asttweak.go:209). *)
Definition magical (p : bytes) : bool := existsb magic p.
(** Nothing there (for lens/asttweak.go:209). *)
Definition none (p : bytes) : bool := match p with [] => true | _ => false end.

(** ** filepath.Match *)
(** scanChunk, the stars in front (for lens/asttweak.go:209). *)
Fixpoint skip_stars (p : bytes) : bool * bytes :=
  match p with
  | c :: p' => if Ascii.eqb c "*" then (true, snd (skip_stars p')) else (false, p)
  | [] => (false, p)
  end.
(** scanChunk, up to the next star outside of brackets (for lens/asttweak.go:209). *)
Fixpoint scan (inrange : bool) (p : bytes) : bytes * bytes :=
  match p with
  | [] => ([], [])
  | c :: p' =>
    if Ascii.eqb c "\" then
      match p' with [] => ([c], []) | d :: p'' => let (a, b) := scan inrange p'' in (c :: d :: a, b) end
    else if Ascii.eqb c "*" && negb inrange then ([], p)
    else let (a, b) := scan (if Ascii.eqb c "[" then true else if Ascii.eqb c "]" then false else inrange) p' in (c :: a, b)
  end.

Section Match.
(** utf8.DecodeRuneInString: a code point and how many bytes it takes (for lens/asttweak.go:209). *)
Variable decode : bytes -> N * nat.

(** getEsc (for lens/asttweak.go:209); [None]: ErrBadPattern. *)
Definition get_esc (chunk : bytes) : option (N * bytes) :=
  match chunk with
  | [] => None
  | c :: ch =>
    if Ascii.eqb c "-" || Ascii.eqb c "]" then None
    else
      match (if Ascii.eqb c "\" then ch else chunk) with
      | [] => None
      | ch1 =>
        let (r, n) := decode ch1 in
        if (N.eqb r 65533 && Nat.eqb n 1)%bool then None
        else match skipn n ch1 with [] => None | rest => Some (r, rest) end
      end
  end.
(** The ranges of a class in matchChunk (for lens/asttweak.go:209): whether one has the code point, and what follows. *)
Fixpoint ranges (fuel : nat) (r : N) (chunk : bytes) (some hit : bool) : option (bool * bytes) :=
  match fuel with
  | O => None
  | S f =>
    match (if some then match chunk with c :: ch => if Ascii.eqb c "]" then Some ch else None | [] => None end else None) with
    | Some ch => Some (hit, ch)
    | None =>
      match get_esc chunk with
      | None => None
      | Some (lo, ch) =>
        match (match ch with c :: ch2 => if Ascii.eqb c "-" then get_esc ch2 else Some (lo, ch) | [] => None end) with
        | None => None
        | Some (hi, ch3) => ranges f r ch3 true (hit || (N.leb lo r && N.leb r hi))
        end
      end
    end
  end.
(** One byte that has to be there, in matchChunk (for lens/asttweak.go:209). *)
Definition eat (c : byte) (s : option bytes) : option bytes :=
  match s with Some (x :: t) => if Ascii.eqb x c then Some t else None | _ => None end.
(** matchChunk (for lens/asttweak.go:209); [None] as text: the match has failed, the rest of the chunk is only
    checked. *)
Fixpoint chunk_match (fuel : nat) (chunk : bytes) (s : option bytes) : option (option bytes) :=
  match fuel with
  | O => None
  | S f =>
    match chunk with
    | [] => Some s
    | c :: ch =>
      if Ascii.eqb c "[" then
        let '(r, s1) := match s with
                        | Some (x :: t) => let (r, n) := decode (x :: t) in (r, Some (skipn n (x :: t)))
                        | _ => (0%N, None)
                        end in
        let '(neg, ch1) := match ch with d :: ch' => if Ascii.eqb d "^" then (true, ch') else (false, ch) | [] => (false, ch) end in
        match ranges (S (length ch1)) r ch1 false false with
        | None => None
        | Some (hit, ch2) => chunk_match f ch2 (if Bool.eqb hit neg then None else s1)
        end
      else if Ascii.eqb c "?" then
        chunk_match f ch (match s with
                          | Some (x :: t) => if Ascii.eqb x slash then None else Some (skipn (snd (decode (x :: t))) (x :: t))
                          | _ => None
                          end)
      else if Ascii.eqb c "\" then
        match ch with [] => None | d :: ch' => chunk_match f ch' (eat d s) end
      else chunk_match f ch (eat c s)
    end
  end.
(** matchChunk on a whole chunk (for lens/asttweak.go:209). *)
Definition chunk_at (chunk s : bytes) : option (option bytes) := chunk_match (S (length chunk)) chunk (Some s).
(** Match, trying the chunk further on, not beyond a separator (for lens/asttweak.go:209). *)
Fixpoint seek (chunk : bytes) (is_last : bool) (n : bytes) : option (option bytes) :=
  match n with
  | [] => Some None
  | c :: n' =>
    if Ascii.eqb c slash then Some None
    else match chunk_at chunk n' with
         | None => None
         | Some (Some t) => if is_last && negb (none t) then seek chunk is_last n' else Some (Some t)
         | Some None => seek chunk is_last n'
         end
  end.
(** Match, the check of the rest of a pattern before it answers false (for lens/asttweak.go:209). *)
Fixpoint well (fuel : nat) (p : bytes) : bool :=
  match fuel with
  | O => false
  | S f =>
    match p with
    | [] => true
    | _ => let (chunk, rest) := scan false (snd (skip_stars p)) in
           match chunk_at chunk [] with Some _ => well f rest | None => false end
    end
  end.
(** The answer false, unless the rest is no pattern (for lens/asttweak.go:209). *)
Definition refuse (rest : bytes) : option bool := if well (S (length rest)) rest then Some false else None.
(** Match (for lens/asttweak.go:209); [None]: ErrBadPattern. *)
Fixpoint match_ (fuel : nat) (p n : bytes) : option bool :=
  match fuel with
  | O => None
  | S f =>
    match p with
    | [] => Some (none n)
    | _ =>
      let (star, p1) := skip_stars p in
      let (chunk, rest) := scan false p1 in
      if star && none chunk then Some (negb (existsb (Ascii.eqb slash) n))
      else
        match chunk_at chunk n with
        | None => None
        | Some o =>
          match (match o with Some t => if none t || negb (none rest) then Some t else None | None => None end) with
          | Some t => match_ f rest t
          | None =>
            if star then
              match seek chunk (none rest) n with
              | None => None
              | Some (Some t) => match_ f rest t
              | Some None => refuse rest
              end
            else refuse rest
          end
        end
    end
  end.
(** Match on a whole pattern (for lens/asttweak.go:209). *)
Definition matches (p n : bytes) : option bool := match_ (S (length p)) p n.

(** ** filepath.Glob *)
(** os.Lstat without error (for lens/asttweak.go:209). *)
Variable there : bytes -> bool.
(** The sorted names in a directory that can be opened; [None] for anything else (for lens/asttweak.go:209).  That
    reading it may stop half way is left out. *)
Variable names : bytes -> option (list bytes).
(** filepath.Split and cleanGlobPath: directory and last element (for lens/asttweak.go:209). *)
Definition split_dir (p : bytes) : bytes * bytes :=
  let l := split_on slash p in
  (match removelast l with [] => B "." | [[]] => [slash] | l' => join_with [slash] l' end, last l []).
(** filepath.glob: the names of one directory (for lens/asttweak.go:209).  Names found before an error are dropped. *)
Fixpoint select (p : bytes) (d : bytes) (l : list bytes) : option (list bytes) :=
  match l with
  | [] => Some []
  | n :: l' =>
    match matches p n, select p d l' with
    | Some b, Some r => Some (if b then join2 d n :: r else r)
    | _, _ => None
    end
  end.
(** filepath.glob (for lens/asttweak.go:209). *)
Definition glob_dir (p d : bytes) : option (list bytes) :=
  match names d with Some l => select p d l | None => Some [] end.
(** The loop over directories in globWithLimit (for lens/asttweak.go:209). *)
Fixpoint glob_dirs (p : bytes) (ds : list bytes) : option (list bytes) :=
  match ds with
  | [] => Some []
  | d :: ds' => match glob_dir p d, glob_dirs p ds' with Some a, Some b => Some (a ++ b) | _, _ => None end
  end.
(** globWithLimit (for lens/asttweak.go:209): [limit] calls deep, pathSeparatorsLimit is 10000. *)
Fixpoint glob (limit : nat) (p : bytes) : option (list bytes) :=
  match limit with
  | O => None
  | S k =>
    match matches p [] with
    | None => None
    | Some _ =>
      if magical p then
        let (d, f) := split_dir p in
        if magical d then
          if beq d p then None
          else match glob k d with Some ds => glob_dirs f ds | None => None end
        else glob_dir f d
      else Some (if there p then [p] else [])
    end
  end.

(** InjectASTClient's question whether the package has a client (lens/asttweak.go:209): the error of Glob is dropped. *)
Definition has_client (limit : nat) (dir : bytes) : bool :=
  match glob limit (join2 dir (B "xx_lens_*_gen.go")) with Some (_ :: _) => true | _ => false end.
End Match.

(** utf8.DecodeRuneInString where all bytes are ASCII (for lens/asttweak.go:209). *)
Definition decode_ascii (s : bytes) : N * nat := match s with [] => (65533%N, 0%nat) | c :: _ => (N_of_ascii c, 1%nat) end.
