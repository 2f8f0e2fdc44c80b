(** A declarative grammar of the wire format, used as specification of the server's
    decoder: which byte strings denote which values.  It is independent of the reader
    functions (no monad, no fuel); it also covers non-canonical encodings that the
    client never produces but an arbitrary peer may send. *)

From Verif Require Import Base WireModel WireSpec.
Local Open Scope N_scope.

(** Base-128 little-endian groups, high bit = continuation. *)
Inductive leb : bytes -> N -> Prop :=
| leb_last b : b2n b < 128 -> leb [b] (b2n b)
| leb_more b bs n : 128 <= b2n b -> leb bs n -> leb (b :: bs) (b2n b - 128 + 128 * n).

(** A varint is at most ten groups; its value is taken modulo 2^64. *)
Definition varint_bytes (bs : bytes) (v : N) : Prop :=
  exists n, leb bs n /\ (length bs <= 10)%nat /\ v = n mod 18446744073709551616.

(** Zig-zag reading of an unsigned word. *)
Definition unzig (n : N) : Z :=
  if N.even n then Z.of_N (n / 2) else (- Z.of_N (n / 2) - 1)%Z.
Definition svarint_bytes (bs : bytes) (z : Z) : Prop :=
  exists n, varint_bytes bs n /\ z = unzig n.

Definition string_bytes (bs : bytes) (s : bytes) : Prop :=
  exists hd, varint_bytes hd (blen s) /\ blen s < 4294967296 /\ bs = hd ++ s.

(** Concatenation of encodings. *)
Inductive seq_bytes {A} (R : bytes -> A -> Prop) : bytes -> list A -> Prop :=
| seq_nil : seq_bytes R [] []
| seq_cons b bs a l : R b a -> seq_bytes R bs l -> seq_bytes R (b ++ bs) (a :: l).

Definition counted {A} (R : bytes -> A -> Prop) (lim : N) (bs : bytes) (l : list A) : Prop :=
  exists hd body, bs = hd ++ body /\ varint_bytes hd (blen l) /\ blen l <= lim /\ seq_bytes R body l.

(** 32-bit two's complement wrap-around, relationally. *)
Definition wraps_i32 (z w : Z) : Prop := in_i32 w /\ exists k, (z = w + k * 4294967296)%Z.

(** Little-endian value. *)
Fixpoint le_value (bs : bytes) : N :=
  match bs with [] => 0 | b :: r => N_of_ascii b + 256 * le_value r end.
Definition fixed_bytes (k : nat) (bs : bytes) (v : N) : Prop := length bs = k /\ v = le_value bs.

(** Eight booleans per byte, element i is bit (i mod 8) of byte (i / 8). *)
Definition bools_bytes (bs : bytes) (l : list bool) : Prop :=
  length bs = ((length l + 7) / 8)%nat /\
  forall i b, nth_error l i = Some b ->
    exists c, nth_error bs (i / 8) = Some c /\ N.testbit (N_of_ascii c) (N.of_nat (i mod 8)) = b.

Definition gr_prim (maxlen : N) (p : prim) (bs : bytes) : Prop :=
  match p with
  | PNil => bs = []
  | PBool b => exists c, bs = [c] /\ (b = true <-> N_of_ascii c <> 0)
  | PInt32 z => exists w, svarint_bytes bs w /\ wraps_i32 w z
  | PInt64 z => svarint_bytes bs z
  | PUint32 n => exists w, varint_bytes bs w /\ n = w mod 4294967296
  | PUint64 n => varint_bytes bs n
  | PF32 v => fixed_bytes 4 bs v
  | PF64 v => fixed_bytes 8 bs v
  | PC128 a b => exists b1 b2, bs = b1 ++ b2 /\ fixed_bytes 8 b1 a /\ fixed_bytes 8 b2 b
  | PStr s => string_bytes bs s
  | PBoolS l => exists hd body, bs = hd ++ body /\ varint_bytes hd (blen l) /\ blen l <= maxlen /\
                  bools_bytes body l
  | PBytes s => exists hd, bs = hd ++ s /\ varint_bytes hd (blen s) /\ blen s <= maxlen
  | PI32S l => counted (fun b z => exists w, svarint_bytes b w /\ wraps_i32 w z) maxlen bs l
  | PI64S l => counted svarint_bytes maxlen bs l
  | PU32S l => counted (fun b n => exists w, varint_bytes b w /\ n = w mod 4294967296) maxlen bs l
  | PU64S l => counted varint_bytes maxlen bs l
  | PF32S l => counted (fixed_bytes 4) maxlen bs l
  | PF64S l => counted (fixed_bytes 8) maxlen bs l
  | PStrS l => counted string_bytes maxlen bs l
  end.

(** Values and fields.  Map and slice containers are limited by [maxlen]; a struct
    container only by what the run time can address. *)
Inductive gr_val (maxlen : N) : wval -> bytes -> Prop :=
| gr_WPrim p t bs : N_of_ascii t = tag_of_prim p -> gr_prim maxlen p bs ->
    gr_val maxlen (WPrim p) (t :: bs)
| gr_WNode k fs t hd body : N_of_ascii t = tag_of_kind k ->
    varint_bytes hd (blen fs) -> kind_ok maxlen k (blen fs) ->
    gr_fields maxlen fs body ->
    gr_val maxlen (WNode k fs) (t :: hd ++ body)
with gr_fields (maxlen : N) : list wfield -> bytes -> Prop :=
| gr_fnil : gr_fields maxlen [] []
| gr_fcons nm ty v fs bn bt bv bs :
    string_bytes bn nm -> string_bytes bt ty -> gr_val maxlen v bv -> gr_fields maxlen fs bs ->
    gr_fields maxlen ((nm, ty, v) :: fs) ((bn ++ bt ++ bv) ++ bs).

Scheme gr_val_mut := Induction for gr_val Sort Prop
  with gr_fields_mut := Induction for gr_fields Sort Prop.

(** Signed 64-bit little endian. *)
Definition int64_bytes (bs : bytes) (z : Z) : Prop :=
  length bs = 8%nat /\ in_i64 z /\ exists k, (Z.of_N (le_value bs) = z + k * 18446744073709551616)%Z.

(** Stacks: count, string table, then frames as table indices and a line. *)
Definition frame_bytes (table : list bytes) (bs : bytes) (f : frame) : Prop :=
  exists b1 b2 b3 i j, bs = b1 ++ b2 ++ b3 /\ varint_bytes b1 i /\ varint_bytes b2 j /\
    varint_bytes b3 (fr_line f) /\
    nth_error table (N.to_nat i) = Some (fr_file f) /\
    nth_error table (N.to_nat j) = Some (fr_func f).
Definition stack_bytes (bs : bytes) (fs : list frame) : Prop :=
  blen fs <= 2048 /\
  ((fs = [] /\ varint_bytes bs 0) \/
   (fs <> [] /\ exists hd ht bt body table, bs = hd ++ ht ++ bt ++ body /\
      varint_bytes hd (blen fs) /\ varint_bytes ht (blen table) /\ blen table <= 2 * blen fs /\
      seq_bytes string_bytes bt table /\ seq_bytes (frame_bytes table) body fs)).

(** Messages. *)
Definition id_bytes (bs : bytes) (id : N) : Prop :=
  exists w, varint_bytes bs w /\ id = w mod 4294967296.
Definition point_bytes (bs : bytes) (m : msg_point) : Prop :=
  exists b1 b2 b3, bs = b1 ++ b2 ++ b3 /\ id_bytes b1 (mp_id m) /\ int64_bytes b2 (mp_time m) /\
    stack_bytes b3 (mp_stack m).
Definition state_bytes (maxlen : N) (bs : bytes) (m : msg_state) : Prop :=
  exists b1 b2 b3 b4 b5 fs, bs = b1 ++ b2 ++ b3 ++ b4 ++ b5 /\ id_bytes b1 (ms_id m) /\
    int64_bytes b2 (ms_time m) /\ stack_bytes b3 (ms_stack m) /\
    varint_bytes b4 (blen fs) /\ blen fs < 4294967296 /\ gr_fields maxlen fs b5 /\
    ms_fields m = map view_field fs.
Definition panic_bytes (bs : bytes) (m : msg_panic) : Prop :=
  exists b1 b2 b3, bs = b1 ++ b2 ++ b3 /\ id_bytes b1 (mk_id m) /\ int64_bytes b2 (mk_time m) /\
    string_bytes b3 (mk_text m).
Definition error_bytes (bs : bytes) (m : msg_error) : Prop :=
  exists b1 b2 b3, bs = b1 ++ b2 ++ b3 /\ id_bytes b1 (me_id m) /\ string_bytes b2 (me_text m) /\
    stack_bytes b3 (me_stack m).
