(** Model of the order of map keys used to choose the entries of large maps
    (lensCompareReflectValue, lens/astclient.go:519-642, and its use at 365-378).
    Definitions only. *)
From Verif Require Import Base Maps.

(** A float as its 64 bits; reflect gives a float32 widened to a float64, which keeps order and
    equality (lens/astclient.go:547-554, 563-580). *)
Definition fl := N.
(** IEEE 754 magnitude, sign, NaN, and the order of the others as integers (both zeros are 0);
    what `<` on float64 means at lens/astclient.go:549-552. *)
Definition f_mag (b : fl) : N := (b mod 9223372036854775808)%N.
(** Sign bit (as `<` at lens/astclient.go:549-552 sees it). *)
Definition f_neg (b : fl) : bool := (9223372036854775808 <=? b)%N.
(** Not a number (lens/astclient.go:549-552). *)
Definition f_nan (b : fl) : bool := (9218868437227405312 <? f_mag b)%N.
(** Position among the numbers (lens/astclient.go:549-552). *)
Definition f_ord (b : fl) : Z := if f_neg b then (- Z.of_N (f_mag b))%Z else Z.of_N (f_mag b).
(** `<` on floats, lens/astclient.go:549. *)
Definition f_ltb (a b : fl) : bool := negb (f_nan a) && negb (f_nan b) && (f_ord a <? f_ord b)%Z.

(** A map key by kind, lens/astclient.go:522-630.  A struct field carries whether its name is
    blank; an interface its dynamic type and value.  Slices, maps and functions are not
    comparable, so the fallback 631-640 is not reached by keys. *)
Inductive key :=
  | KStr (s : bytes)
  | KInt (z : Z)
  | KUint (n : N)
  | KFloat (f : fl)
  | KBool (b : bool)
  | KComplex (re im : fl)
  | KPtr (a : N)
  | KChan (a : N)
  | KArr (l : list key)
  | KStruct (l : list (bool * key))
  | KNil
  | KIface (d : N) (k : key).

Section Cmp.
(** Type.String() of a dynamic type, lens/astclient.go:614. *)
Variable tname : N -> bytes.

(** if x < y { -1 } else if x > y { 1 } else { 0 }, e.g. lens/astclient.go:525-530. *)
Definition three {A} (lt : A -> A -> bool) (x y : A) : comparison := if lt x y then Lt else if lt y x then Gt else Eq.



(** lensCompareReflectValue, lens/astclient.go:521-642.  [None] where the kinds differ:
    reflect panics or compares placeholders there. *)
Fixpoint cmp (a b : key) : option comparison :=
  match a, b with
  | KStr x, KStr y => Some (three bltb x y)
  | KInt x, KInt y => Some (three Z.ltb x y)
  | KUint x, KUint y => Some (three N.ltb x y)
  | KFloat x, KFloat y => Some (three f_ltb x y)
  | KBool x, KBool y => Some (if Bool.eqb x y then Eq else if y then Lt else Gt)
  | KComplex r1 i1, KComplex r2 i2 =>
      Some (match three f_ltb r1 r2 with Eq => three f_ltb i1 i2 | c => c end)
  | KPtr x, KPtr y => Some (three N.ltb x y)
  | KChan x, KChan y => Some (three N.ltb x y)
  | KArr la, KArr lb =>
      (fix go la lb := match la, lb with
       | [], _ => Some Eq
       | _ :: _, [] => None
       | a :: la', b :: lb' => match cmp a b with Some Eq => go la' lb' | r => r end
       end) la lb
  | KStruct la, KStruct lb =>
      (fix go la lb := match la, lb with
       | [], _ => Some Eq
       | _ :: _, [] => None
       | (_, a) :: la', (_, b) :: lb' => match cmp a b with Some Eq => go la' lb' | r => r end
       end) la lb
  | KNil, KNil => Some Eq
  | KNil, KIface _ _ => Some Lt
  | KIface _ _, KNil => Some Gt
  | KIface d x, KIface e y => if (d =? e)%N then cmp x y else Some (three bltb (tname d) (tname e))
  | _, _ => None
  end.

(** The less function given to sort.Slice, lens/astclient.go:372. *)
Definition less (a b : key) : bool := match cmp a b with Some Lt => true | _ => false end.

(** The keys streamed, lens/astclient.go:365-378; [sort] is sort.Slice. *)
Definition chosen (sort : list key -> list key) (maxlen : nat) (keys : list key) : list key :=
  if (length keys <=? maxlen)%nat then keys else firstn maxlen (sort keys).
End Cmp.
