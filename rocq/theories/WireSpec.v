(** Specification vocabulary for the wire protocol: what a message within the limits is,
    and what the receiver is supposed to see.  Independent of encoder and decoder. *)

From Verif Require Import Base WireModel.
Local Open Scope N_scope.

(** Ranges of the Go types behind each wire value; [maxlen] is the configured limit. *)
Definition in_i32 (z : Z) : Prop := (-2147483648 <= z < 2147483648)%Z.
Definition in_i64 (z : Z) : Prop := (-9223372036854775808 <= z < 9223372036854775808)%Z.
Definition in_u32 (n : N) : Prop := n < 4294967296.
Definition in_u64 (n : N) : Prop := n < 18446744073709551616.
(** Strings are limited to 32-bit lengths. *)
Definition str_ok (s : bytes) : Prop := blen s < 4294967296.

Definition prim_ok (maxlen : N) (p : prim) : Prop :=
  match p with
  | PNil | PBool _ => True
  | PInt32 z => in_i32 z
  | PInt64 z => in_i64 z
  | PUint32 n => in_u32 n
  | PUint64 n => in_u64 n
  | PF32 b => in_u32 b
  | PF64 b => in_u64 b
  | PC128 a b => in_u64 a /\ in_u64 b
  | PStr s => str_ok s
  | PBoolS l => blen l <= maxlen
  | PBytes s => blen s <= maxlen
  | PI32S l => blen l <= maxlen /\ Forall in_i32 l
  | PI64S l => blen l <= maxlen /\ Forall in_i64 l
  | PU32S l => blen l <= maxlen /\ Forall in_u32 l
  | PU64S l => blen l <= maxlen /\ Forall in_u64 l
  | PF32S l => blen l <= maxlen /\ Forall in_u32 l
  | PF64S l => blen l <= maxlen /\ Forall in_u64 l
  | PStrS l => blen l <= maxlen /\ Forall str_ok l
  end.

(** Containers: maps and slices are limited by [maxlen]; structs only by addressability. *)
Definition kind_ok (maxlen : N) (k : ckind) (count : N) : Prop :=
  match k with
  | KMap | KSlice => count <= maxlen
  | KStruct => 72 * count <= 281474976710656
  end.

Inductive val_ok (maxlen : N) : wval -> Prop :=
| ok_prim p : prim_ok maxlen p -> val_ok maxlen (WPrim p)
| ok_node k fs : kind_ok maxlen k (blen fs) ->
    Forall (fun f => str_ok (fst (fst f)) /\ str_ok (snd (fst f)) /\ val_ok maxlen (snd f)) fs ->
    val_ok maxlen (WNode k fs).
Definition field_ok (maxlen : N) (f : wfield) : Prop :=
  str_ok (fst (fst f)) /\ str_ok (snd (fst f)) /\ val_ok maxlen (snd f).

(** What the receiver must see: primitives as values, containers as child fields. *)
Fixpoint view_val (v : wval) : prim * list lfield :=
  match v with
  | WPrim p => (p, [])
  | WNode _ fs =>
      (PNil, map (fun f => match f with (nm, ty, v') =>
                    LF nm ty (fst (view_val v')) (snd (view_val v')) end) fs)
  end.
Definition view_field (f : wfield) : lfield :=
  match f with (nm, ty, v) => LF nm ty (fst (view_val v)) (snd (view_val v)) end.

(** A stack within the limits. *)
Definition frame_ok (f : frame) : Prop :=
  str_ok (fr_file f) /\ str_ok (fr_func f) /\ in_u64 (fr_line f).
Definition stack_ok (fs : list frame) : Prop := blen fs <= 2048 /\ Forall frame_ok fs.

(** [p] is a strict prefix of [e]. *)
Definition strict_prefix (p e : bytes) : Prop := exists q, q <> [] /\ e = p ++ q.

(** A message the client wants to deliver, within the limits, and what the server is
    supposed to hand to its handlers for it. *)
Definition cmsg_ok (maxlen : N) (m : cmsg) : Prop :=
  match m with
  | CPoint id ts st => in_u32 id /\ in_i64 ts /\ stack_ok st
  | CState id ts st fs => in_u32 id /\ in_i64 ts /\ stack_ok st /\
      Forall (field_ok maxlen) fs /\ blen fs < 4294967296
  | CPanic id ts text => in_u32 id /\ in_i64 ts /\ str_ok text
  | CError id text st => in_u32 id /\ str_ok text /\ stack_ok st
  end.
Definition cmsg_view (m : cmsg) : event :=
  match m with
  | CPoint id ts st => EvPoint (mkPoint id ts st)
  | CState id ts st fs => EvState (mkState id ts st (map view_field fs))
  | CPanic id ts text => EvPanic (mkPanic id ts text)
  | CError id text st => EvError (mkError id text st)
  end.

(** Nesting depth of a value. *)
Fixpoint wdepth (v : wval) : nat :=
  match v with
  | WPrim _ => 0
  | WNode _ fs => list_max (map (fun f => match f with (_, _, v') => S (wdepth v') end) fs)
  end.
Definition fdepth (f : wfield) : nat := wdepth (snd f).
