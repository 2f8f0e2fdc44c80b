(** Model of the return added at the end of a function without visited return
    (lens/asttweak.go:527-545, 640-680) and of the zero values written in it
    (zeroValueForType and newZeroValueExpr, lens/asttweak.go:1532-1619).

    Errors of cloneExprNoPos (lens/asttweak.go:1622-1629) are left out: it
    prints and parses a type that came from the parser. *)

From Verif Require Import Base.

(** Type expressions as the parser gives them, the cases of
    lens/asttweak.go:1535-1606.  What the code does not look at is kept as the
    parts whose names matter: the key and element of a map, the parameter and
    result types of a function, the methods and embedded types of an interface,
    the types of the fields of a struct.  [TArray l t] has the names of its
    length, [TSel p n] is [p.n], [TIndex] has one type argument, [TIndexList]
    several, [TParen] stands for the default case. *)
Inductive texpr :=
| TId (n : bytes)
| TStar (t : texpr)
| TMap (k v : texpr)
| TChan (t : texpr)
| TFunc (ts : list texpr)
| TIface (ts : list texpr)
| TSlice (t : texpr)
| TArray (len : list bytes) (t : texpr)
| TStruct (ts : list texpr)
| TSel (p n : bytes)
| TIndex (t a : texpr)
| TIndexList (t : texpr) (l : list texpr)
| TParen (t : texpr).

(** The expressions made: [0], [false], an empty string, [nil], [T{}] and
    [*new(T)] (lens/asttweak.go:1542-1605, 1609-1619). *)
Inductive zexpr := ZNum | ZFalse | ZEmpty | ZNil | ZLit (t : texpr) | ZNew (t : texpr).

(** lens/asttweak.go:1539-1541 *)
Definition numeric_names : list bytes := map B
  ["int"; "int8"; "int16"; "int32"; "int64";
   "uint"; "uint8"; "uint16"; "uint32"; "uint64"; "uintptr";
   "float32"; "float64"; "complex64"; "complex128"; "byte"; "rune"]%string.

(** zeroValueForType, lens/asttweak.go:1534-1607 *)
Definition zero_value (t : texpr) : zexpr :=
  match t with
  | TId n =>
    if existsb (beq n) numeric_names then ZNum
    else if beq n (B "bool") then ZFalse
    else if beq n (B "string") then ZEmpty
    else if beq n (B "error") then ZNil
    else if beq n (B "_") then ZNil
    else ZNew t
  | TStar _ | TMap _ _ | TChan _ | TFunc _ | TIface _ | TSlice _ => ZNil
  | TArray _ _ | TStruct _ => ZLit t
  | TSel _ _ | TIndex _ _ | TIndexList _ _ | TParen _ => ZNew t
  end.

(** The result fields of a function type, each with its names
    (lens/asttweak.go:529-545): the flat lists of names and types. *)
Definition flat_names (fs : list (list bytes * texpr)) : list bytes :=
  flat_map (fun f => match fst f with [] => [[]] | ns => ns end) fs.
(** lens/asttweak.go:541-543 *)
Definition flat_types (fs : list (list bytes * texpr)) : list texpr :=
  flat_map (fun f => repeat (snd f) (match fst f with [] => 1 | ns => length ns end)%nat) fs.

(** What a return statement gives for one result: a name or a zero value
    (lens/asttweak.go:664-674). *)
Inductive given := GName (n : bytes) | GZero (z : zexpr).

(** lens/asttweak.go:645 *)
Definition all_named (names : list bytes) : bool :=
  match names with [] => false | _ => negb (existsb (beq []) names) end.

(** lens/asttweak.go:643-680: no return, or a return with these values (none
    when it is bare). *)
Definition added_return (fs : list (list bytes * texpr)) : option (list given) :=
  let names := flat_names fs in
  match flat_types fs with
  | [] => None
  | types =>
    let named := all_named names in
    if named && negb (existsb (beq (B "_")) names) then Some []
    else Some (map (fun nt =>
           if named && negb (beq (fst nt) []) && negb (beq (fst nt) (B "_"))
           then GName (fst nt) else GZero (zero_value (snd nt)))
         (combine names types))
  end.
