(** What is claimed about the order of map keys. *)
From Verif Require Import Base Maps KeyOrderModel.
From Coq Require Import Permutation.

(** Types of keys; a dynamic type [d] has the structure [tyof d]. *)
Inductive kty :=
  | TStr | TInt | TUint | TFloat | TBool | TComplex | TPtr | TChan
  | TArr (n : nat) (t : kty) | TStruct (ts : list (bool * kty)) | TIface.

Section Spec.
(** reflect.Type of a dynamic type (lens/astclient.go:602-642). *)
Variable tyof : N -> kty.
(** Type.String (lens/astclient.go:615). *)
Variable tname : N -> bytes.
(** Dynamic types in use (lens/astclient.go:602-642). *)
Variable P : N -> Prop.

(** A key of a type. *)
Fixpoint has (k : key) (t : kty) : Prop :=
  match k, t with
  | KStr _, TStr | KInt _, TInt | KUint _, TUint | KFloat _, TFloat | KBool _, TBool | KComplex _ _, TComplex
  | KPtr _, TPtr | KChan _, TChan | KNil, TIface => True
  | KArr l, TArr n t' => length l = n /\ (fix all l := match l with [] => True | k :: l' => has k t' /\ all l' end) l
  | KStruct l, TStruct ts =>
      (fix all l ts := match l, ts with
       | [], [] => True
       | (b, k) :: l', (b', t) :: ts' => b = b' /\ has k t /\ all l' ts'
       | _, _ => False
       end) l ts
  | KIface d k', TIface => has k' (tyof d)
  | _, _ => False
  end.

(** No float of it is a NaN, all its dynamic types are in use. *)
Fixpoint good (k : key) : Prop :=
  match k with
  | KFloat f => f_nan f = false
  | KComplex a b => f_nan a = false /\ f_nan b = false
  | KArr l => (fix all l := match l with [] => True | k :: l' => good k /\ all l' end) l
  | KStruct l => (fix all l := match l with [] => True | (_, k) :: l' => good k /\ all l' end) l
  | KIface d k' => P d /\ good k'
  | _ => True
  end.

(** Go's == on keys of one type: zeros are equal, NaNs are not, blank fields do not count. *)
Inductive keq : key -> key -> Prop :=
  | q_str s : keq (KStr s) (KStr s)
  | q_int z : keq (KInt z) (KInt z)
  | q_uint n : keq (KUint n) (KUint n)
  | q_float f g : f_nan f = false -> f_nan g = false -> f_ord f = f_ord g -> keq (KFloat f) (KFloat g)
  | q_bool b : keq (KBool b) (KBool b)
  | q_complex a b c d : keq (KFloat a) (KFloat c) -> keq (KFloat b) (KFloat d) -> keq (KComplex a b) (KComplex c d)
  | q_ptr a : keq (KPtr a) (KPtr a)
  | q_chan a : keq (KChan a) (KChan a)
  | q_arr l m : keqs l m -> keq (KArr l) (KArr m)
  | q_struct l m : keqf l m -> keq (KStruct l) (KStruct m)
  | q_nil : keq KNil KNil
  | q_iface d k k' : keq k k' -> keq (KIface d k) (KIface d k')
with keqs : list key -> list key -> Prop :=
  | qs_nil : keqs [] []
  | qs_cons k k' l l' : keq k k' -> keqs l l' -> keqs (k :: l) (k' :: l')
with keqf : list (bool * key) -> list (bool * key) -> Prop :=
  | qf_nil : keqf [] []
  | qf_blank k k' l l' : keqf l l' -> keqf ((true, k) :: l) ((true, k') :: l')
  | qf_cons k k' l l' : keq k k' -> keqf l l' -> keqf ((false, k) :: l) ((false, k') :: l').

(** What sort.Slice asks of the less function on a list, and what it then gives. *)
Definition strict_weak (lt : key -> key -> bool) (l : list key) : Prop :=
  (forall x, In x l -> lt x x = false) /\
  (forall x y z, In x l -> In y l -> In z l -> lt x y = true -> lt y z = true -> lt x z = true) /\
  (forall x y z, In x l -> In y l -> In z l -> lt x y = false -> lt y x = false -> lt y z = false -> lt z y = false ->
     lt x z = false /\ lt z x = false).
Definition sorted_of (lt : key -> key -> bool) (l s : list key) : Prop :=
  Permutation l s /\ ForallOrdPairs (fun x y => lt y x = false) s.
Definition sorts (lt : key -> key -> bool) (sort : list key -> list key) : Prop :=
  forall l, strict_weak lt l -> sorted_of lt l (sort l).

(** The keys of one map: of one type, no two equal. *)
Definition map_keys (t : kty) (l : list key) : Prop :=
  (forall k, In k l -> has k t /\ good k) /\ NoDup l /\ (forall x y, In x l -> In y l -> keq x y -> x = y).
End Spec.
