(** strconv.Quote, as the names in inserted calls (lens/asttweak.go:1686, 1704) and the values of a comparison (lens/engine.go:369, 375)
    are written with it, and how a string literal is read.  Definitions only, after the published source of the standard library. *)
From Verif Require Import Base.
Local Open Scope N_scope.

(** A byte that continues a code point (unicode/utf8, for lens/asttweak.go:1686). *)
Definition cont (c : byte) : bool := (128 <=? N_of_ascii c) && (N_of_ascii c <=? 191).
(** utf8.DecodeRuneInString: the code point and the bytes it takes; (65533, 1) where there is none (for lens/asttweak.go:1686). *)
Definition rune_at (s : bytes) : N * nat :=
  let bad := (65533, 1%nat) in
  match s with
  | [] => (65533, 0%nat)
  | a :: s1 =>
    let x := N_of_ascii a in
    if x <? 128 then (x, 1%nat)
    else if x <? 194 then bad
    else match s1 with
    | [] => bad
    | b :: s2 =>
      let y := N_of_ascii b in
      if x <? 224 then (if cont b then (64 * (x - 192) + (y - 128), 2%nat) else bad)
      else match s2 with
      | [] => bad
      | c :: s3 =>
        let z := N_of_ascii c in
        if x <? 240 then
          (if cont b && cont c && (if x =? 224 then 160 <=? y else true) && (if x =? 237 then y <=? 159 else true)
           then (4096 * (x - 224) + 64 * (y - 128) + (z - 128), 3%nat) else bad)
        else match s3 with
        | [] => bad
        | d :: _ =>
          if (x <? 245) && cont b && cont c && cont d && (if x =? 240 then 144 <=? y else true) && (if x =? 244 then y <=? 143 else true)
          then (262144 * (x - 240) + 4096 * (y - 128) + 64 * (z - 128) + (N_of_ascii d - 128), 4%nat) else bad
        end
      end
    end
  end.
(** utf8.AppendRune for a valid code point (for lens/asttweak.go:1686). *)
Definition enc_rune (r : N) : bytes :=
  map ascii_of_N
    (if r <? 128 then [r]
     else if r <? 2048 then [192 + r / 64; 128 + r mod 64]
     else if r <? 65536 then [224 + r / 4096; 128 + (r / 64) mod 64; 128 + r mod 64]
     else [240 + r / 262144; 128 + (r / 4096) mod 64; 128 + (r / 64) mod 64; 128 + r mod 64]).
(** utf8.ValidRune (for lens/asttweak.go:1686). *)
Definition valid_rune (r : N) : bool := (r <? 55296) || ((57344 <=? r) && (r <=? 1114111)).

(** A double quote and a backslash (for lens/asttweak.go:1686). *)
Definition dquote : byte := "034"%char.
(** The escape character (for lens/asttweak.go:1686). *)
Definition bslash : byte := "\"%char.
(** Digits of base 16, as written (for lens/asttweak.go:1686). *)
Definition hex_digit (n : N) : byte := if n <? 10 then ascii_of_N (48 + n) else ascii_of_N (87 + n).
(** A number in that many digits (for lens/asttweak.go:1686). *)
Fixpoint hex (k : nat) (r : N) : bytes :=
  match k with O => [] | S k' => hex_digit ((r / 16 ^ N.of_nat k') mod 16) :: hex k' r end.

Section Quote.
(** strconv.IsPrint on code points beyond ASCII, a table in the standard library (for lens/asttweak.go:1686). *)
Variable is_print : N -> bool.
(** strconv.IsPrint (for lens/asttweak.go:1686). *)
Definition printable (r : N) : bool := if r <? 128 then (32 <=? r) && (r <? 127) else is_print r.
(** The letters of the short escapes (for lens/asttweak.go:1686). *)
Definition short (r : N) : option byte :=
  if r =? 7 then Some "a"%char else if r =? 8 then Some "b"%char else if r =? 12 then Some "f"%char else if r =? 10 then Some "n"%char
  else if r =? 13 then Some "r"%char else if r =? 9 then Some "t"%char else if r =? 11 then Some "v"%char else None.
(** appendEscapedRune for a string (for lens/asttweak.go:1686). *)
Definition escaped_rune (r : N) : bytes :=
  if (r =? 34) || (r =? 92) then [bslash; ascii_of_N r]
  else if printable r then enc_rune r
  else match short r with
       | Some l => [bslash; l]
       | None =>
         if (r <? 32) || (r =? 127) then bslash :: "x"%char :: hex 2 r
         else if r <? 65536 then bslash :: "u"%char :: hex 4 r
         else bslash :: "U"%char :: hex 8 r
       end.
(** appendQuotedWith without the quotes; a byte that belongs to no code point is written by its value (for lens/asttweak.go:1686). *)
Fixpoint quote_body (fuel : nat) (s : bytes) : bytes :=
  match fuel, s with
  | S f, c :: _ =>
    let (r, w) := rune_at s in
    (if (r =? 65533) && Nat.eqb w 1 then bslash :: "x"%char :: hex 2 (N_of_ascii c) else escaped_rune r) ++ quote_body f (skipn w s)
  | _, _ => []
  end.
(** strconv.Quote (lens/asttweak.go:1686, 1704; %q in lens/engine.go:369, 375). *)
Definition quote (s : bytes) : bytes := dquote :: quote_body (length s) s ++ [dquote].
End Quote.

(** The value of a digit of base 16 (language specification, for lens/asttweak.go:1643). *)
Definition hex_value (c : byte) : option N :=
  let x := N_of_ascii c in
  if (48 <=? x) && (x <=? 57) then Some (x - 48)
  else if (97 <=? x) && (x <=? 102) then Some (x - 87)
  else if (65 <=? x) && (x <=? 70) then Some (x - 55) else None.
(** That many digits, after what they come behind (language specification, for lens/asttweak.go:1643). *)
Fixpoint read_hex (k : nat) (acc : N) (s : bytes) : option (N * bytes) :=
  match k, s with
  | O, _ => Some (acc, s)
  | S k', c :: s' => match hex_value c with Some d => read_hex k' (16 * acc + d) s' | None => None end
  | S _, [] => None
  end.
(** What an escape stands for, and what follows it (language specification, for lens/asttweak.go:1643).  Octal escapes, which Quote
    never writes, are left out. *)
Definition read_escape (s : bytes) : option (bytes * bytes) :=
  match s with
  | [] => None
  | c :: t =>
    match N_of_ascii c with
    | 97 => Some ([ascii_of_N 7], t) | 98 => Some ([ascii_of_N 8], t) | 102 => Some ([ascii_of_N 12], t) | 110 => Some ([ascii_of_N 10], t)
    | 114 => Some ([ascii_of_N 13], t) | 116 => Some ([ascii_of_N 9], t) | 118 => Some ([ascii_of_N 11], t)
    | 34 => Some ([dquote], t) | 92 => Some ([bslash], t)
    | 120 => match read_hex 2 0 t with Some (v, t') => Some ([ascii_of_N v], t') | None => None end
    | 117 => match read_hex 4 0 t with Some (v, t') => if valid_rune v then Some (enc_rune v, t') else None | None => None end
    | 85 => match read_hex 8 0 t with Some (v, t') => if valid_rune v then Some (enc_rune v, t') else None | None => None end
    | _ => None
    end
  end.
(** The rest of a string literal after its opening quote: its value and what follows it; no newline, no NUL, no byte order mark and only
    UTF-8 may be in it (language specification and go/scanner, for lens/asttweak.go:1643). *)
Fixpoint read_body (fuel : nat) (s : bytes) : option (bytes * bytes) :=
  match fuel, s with
  | S f, c :: t =>
    if Ascii.eqb c dquote then Some ([], t)
    else
      match (if Ascii.eqb c bslash then read_escape t
             else let (r, w) := rune_at s in
                  if (r =? 0) || (r =? 10) || (r =? 65279) || ((r =? 65533) && Nat.eqb w 1) then None else Some (firstn w s, skipn w s)) with
      | Some (v, t') => match read_body f t' with Some (vs, rest) => Some (v ++ vs, rest) | None => None end
      | None => None
      end
  | _, _ => None
  end.
(** A string literal: its value and what follows it (language specification, for lens/asttweak.go:1643). *)
Definition read_literal (s : bytes) : option (bytes * bytes) :=
  match s with c :: t => if Ascii.eqb c dquote then read_body (length t) t else None | [] => None end.
(** makeSnapshotLitWithCustomName and makeSnapshotLit, as format.Node prints them (lens/asttweak.go:1670-1694, 1698-1712, 1637): the name
    shown and the text of the value. *)
Definition snapshot_text (is_print : N -> bool) (shown value : bytes) : bytes :=
  B "lensMonitorFieldSnapshot{Name: " ++ quote is_print shown ++ B ", Val: " ++ value ++ B "}".
