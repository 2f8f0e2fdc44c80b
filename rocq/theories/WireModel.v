(** Model of the binary protocol between the injected client
    (lens/astclient.go) and the collecting server (lens/astsrv.go). *)

From Verif Require Import Base.
Local Open Scope N_scope.

(** ** Machine integers *)

(** lens/astclient.go:649-671: 2^64 and 2^32, the ranges of Go's uint64 / uint32. *)
Definition two64 : N := 18446744073709551616.
(** lens/astclient.go:673-677, lens/astsrv.go:252. *)
Definition two32 : N := 4294967296.

(** Go conversion [byte(v)]: keep the low eight bits (lens/astclient.go:659,663). *)
Definition byte_of (v : N) : byte := ascii_of_N (v mod 256).
(** lens/astsrv.go:493-498: A byte as an integer. *)
Definition b2n (b : byte) : N := N_of_ascii b.

(** Go conversion [uint64(v)] of an int64 (lens/astclient.go:651,670): two's complement. *)
Definition u64_of_z (z : Z) : N := Z.to_N (z mod Z.of_N two64)%Z.
(** Go conversion [int64(v)] of a uint64 (lens/astsrv.go:505,536). *)
Definition i64_of_n (n : N) : Z :=
  let m := (Z.of_N n mod Z.of_N two64)%Z in
  if (m <? 9223372036854775808)%Z then m else (m - Z.of_N two64)%Z.
(** Go conversion [int32(v)] of an int64 (lens/astsrv.go:405,625). *)
Definition i32_of_z (z : Z) : Z :=
  let m := (z mod 4294967296)%Z in
  if (m <? 2147483648)%Z then m else (m - 4294967296)%Z.
(** Go conversion [uint32(v)] of a uint64 (lens/astsrv.go:252,411,663). *)
Definition u32_of_n (n : N) : N := n mod two32.

(** ** Client side: writers (they append to the connection's byte stream) *)

(** lens/astclient.go:656-665 [writeVarint].  The loop runs at most nine times for
    a uint64, the scratch buffer has ten bytes; the fuel is that buffer size. *)
Fixpoint write_varint_loop (fuel : nat) (v : N) : bytes :=
  match fuel with
  | O => []
  | S f => if 128 <=? v
           then byte_of (N.lor (v mod 256) 128) :: write_varint_loop f (N.shiftr v 7)
           else [byte_of v]
  end.
(** writeVarint, lens/astclient.go:656-665. *)
Definition write_varint (v : N) : bytes := write_varint_loop 10 v.

(** lens/astclient.go:670: [uint64(v<<1) ^ uint64(v>>63)], arithmetic shifts on int64. *)
Definition zigzag (v : Z) : N :=
  N.lxor (u64_of_z (Z.shiftl v 1)) (u64_of_z (Z.shiftr v 63)).
(** lens/astclient.go:668-671 [writeSignedVarint]. *)
Definition write_svarint (v : Z) : bytes := write_varint (zigzag v).

(** [binary.LittleEndian.PutUint64/PutUint32] with [k] bytes
    (lens/astclient.go:649-653, 673-683). *)
Fixpoint le_enc (k : nat) (n : N) : bytes :=
  match k with
  | O => []
  | S k' => byte_of n :: le_enc k' (n / 256)
  end.
(** lens/astclient.go:649-653 [writeInt64]. *)
Definition write_int64 (z : Z) : bytes := le_enc 8 (u64_of_z z).
(** lens/astclient.go:673-677 [writeFloat32]: a float is represented by its IEEE bits. *)
Definition write_f32 (bits : N) : bytes := le_enc 4 bits.
(** lens/astclient.go:679-683 [writeFloat64]. *)
Definition write_f64 (bits : N) : bytes := le_enc 8 bits.
(** lens/astclient.go:685-688 [writeString]. *)
Definition write_string (s : bytes) : bytes := write_varint (blen s) ++ s.

(** lens/astclient.go:430-438: one byte of up to eight booleans, bit j = element j. *)
Fixpoint pack_byte (j : N) (bs : list bool) : N :=
  match bs with
  | [] => 0
  | b :: bs' => N.lor (if b then N.shiftl 1 j else 0) (pack_byte (j + 1) bs')
  end.
(** lens/astclient.go:430-438. *)
Fixpoint pack_bools (fuel : nat) (bs : list bool) : bytes :=
  match fuel with
  | O => []
  | S f => match bs with
           | [] => []
           | _ => byte_of (pack_byte 0 (firstn 8 bs)) :: pack_bools f (skipn 8 bs)
           end
  end.

(** Values without children, as they can appear on the wire and in
    [LensMonitorField.Value]; the tags of lens/astapi.go:23-46.  Floats are their
    IEEE bit patterns. *)
Inductive prim :=
| PNil
| PBool (b : bool)
| PInt32 (z : Z) | PInt64 (z : Z) | PUint32 (n : N) | PUint64 (n : N)
| PF32 (bits : N) | PF64 (bits : N) | PC128 (re im : N)
| PStr (s : bytes)
| PBoolS (l : list bool) | PBytes (s : bytes)
| PI32S (l : list Z) | PI64S (l : list Z) | PU32S (l : list N) | PU64S (l : list N)
| PF32S (l : list N) | PF64S (l : list N) | PStrS (l : list bytes).

(** Containers of lens/astapi.go:47-50. *)
Inductive ckind := KMap | KStruct | KSlice.

(** lens/astclient.go:314-411: What the client streams for one value: a primitive or a
    container of named fields (name, Go type text, value); the shape written by
    streamField/streamValueSlice. *)
Inductive wval :=
| WPrim (p : prim)
| WNode (k : ckind) (fs : list (bytes * bytes * wval)).

(** lens/astclient.go:238-248. *)
Definition wfield := (bytes * bytes * wval)%type.

(** Tag bytes, lens/astapi.go:25-50. *)
Definition tag_of_prim (p : prim) : N :=
  match p with
  | PNil => 0 | PBool _ => 1 | PInt32 _ => 2 | PInt64 _ => 3 | PUint32 _ => 4 | PUint64 _ => 5
  | PF32 _ => 6 | PF64 _ => 7 | PC128 _ _ => 8 | PStr _ => 9
  | PBoolS _ => 32 | PBytes _ => 33 | PI32S _ => 34 | PI64S _ => 35 | PU32S _ => 36
  | PU64S _ => 37 | PF32S _ => 38 | PF64S _ => 39 | PStrS _ => 40
  end.
(** lens/astapi.go:47-50. *)
Definition tag_of_kind (k : ckind) : N :=
  match k with KMap => 64 | KStruct => 65 | KSlice => 66 end.

(** Payload written after the tag: lens/astclient.go:316-357 (scalars), 422-509 (slices). *)
Definition enc_payload (p : prim) : bytes :=
  match p with
  | PNil => []
  | PBool b => [byte_of (if b then 1 else 0)]
  | PInt32 z | PInt64 z => write_svarint z
  | PUint32 n | PUint64 n => write_varint n
  | PF32 b => write_f32 b
  | PF64 b => write_f64 b
  | PC128 re im => write_f64 re ++ write_f64 im
  | PStr s => write_string s
  | PBoolS l => write_varint (blen l) ++ pack_bools (length l) l
  | PBytes s => write_varint (blen s) ++ s
  | PI32S l | PI64S l => write_varint (blen l) ++ flat_map write_svarint l
  | PU32S l | PU64S l => write_varint (blen l) ++ flat_map write_varint l
  | PF32S l => write_varint (blen l) ++ flat_map write_f32 l
  | PF64S l => write_varint (blen l) ++ flat_map write_f64 l
  | PStrS l => write_varint (blen l) ++ flat_map write_string l
  end.

(** Bytes of one value (tag, payload, children), lens/astclient.go:314-411 and 414-518;
    every field is name, type text, value (lens/astclient.go:247,314). *)
Fixpoint enc_val (v : wval) : bytes :=
  match v with
  | WPrim p => byte_of (tag_of_prim p) :: enc_payload p
  | WNode k fs =>
      byte_of (tag_of_kind k) :: write_varint (blen fs) ++
      flat_map (fun f => match f with (nm, ty, v') =>
                  write_string nm ++ write_string ty ++ enc_val v' end) fs
  end.
(** lens/astclient.go:247, 314-411. *)
Definition enc_field (f : wfield) : bytes :=
  match f with (nm, ty, v) => write_string nm ++ write_string ty ++ enc_val v end.

(** lens/astapi.go:15-19 *)
Record frame := mkFrame { fr_file : bytes; fr_func : bytes; fr_line : N }.

(** lens/astclient.go:210-222: the string table and its index map.  The Go map
    [stringIndex] is an association list (new keys are only ever added when absent). *)
Fixpoint alookup {V} (m : list (bytes * V)) (k : bytes) : option V :=
  match m with
  | [] => None
  | (k', v) :: m' => if beq k k' then Some v else alookup m' k
  end.
(** lens/astclient.go:210-222. *)
Definition tbl := (list bytes * list (bytes * N))%type.
(** lens/astclient.go:210-222. *)
Definition tbl_add (t : tbl) (s : bytes) : tbl :=
  match alookup (snd t) s with
  | Some _ => t
  | None => (fst t ++ [s], (s, u32_of_n (blen (fst t))) :: snd t)
  end.
(** lens/astclient.go:210-222. *)
Definition tbl_add_frame (t : tbl) (f : frame) : tbl :=
  tbl_add (tbl_add t (fr_file f)) (fr_func f).
(** lens/astclient.go:210-222. *)
Definition build_tbl (fs : list frame) : tbl := fold_left tbl_add_frame fs ([], []).
(** Go map read of a key (zero value when absent), lens/astclient.go:232-233. *)
Definition tbl_idx (t : tbl) (s : bytes) : N :=
  match alookup (snd t) s with Some i => i | None => 0 end.
(** lens/astclient.go:204-236 [writeStackFrames]. *)
Definition write_stack (fs : list frame) : bytes :=
  write_varint (blen fs) ++
  match fs with
  | [] => []
  | _ =>
      let t := build_tbl fs in
      write_varint (blen (fst t)) ++ flat_map write_string (fst t) ++
      flat_map (fun f => write_varint (tbl_idx t (fr_file f)) ++
                         write_varint (tbl_idx t (fr_func f)) ++
                         write_varint (fr_line f)) fs
  end.

(** lens/astclient.go:70-75 [lensEncodeMessagePoint]. *)
Definition enc_point (id : N) (ts : Z) (stack : list frame) : bytes :=
  write_varint id ++ write_int64 ts ++ write_stack stack.
(** lens/astclient.go:102-111 [lensEncodeMessagePointState]; the snapshots are given by the
    field trees they stream (see ClientModel for how values become trees). *)
Definition enc_state (id : N) (ts : Z) (stack : list frame) (fs : list wfield) : bytes :=
  write_varint id ++ write_int64 ts ++ write_stack stack ++
  write_varint (blen fs) ++ flat_map enc_field fs.
(** lens/astclient.go:131-136 [lensEncodeMessagePointPanic]; [msg] is [fmt.Sprintf("%v", r)]. *)
Definition enc_panic (id : N) (ts : Z) (msg : bytes) : bytes :=
  write_varint id ++ write_int64 ts ++ write_string msg.
(** lens/astclient.go:192-197 [lensEncodeMessageError]. *)
Definition enc_error (id : N) (msg : bytes) (stack : list frame) : bytes :=
  write_varint id ++ write_string msg ++ write_stack stack.

(** ** Server side: readers *)

(** lens/astsrv.go:246-568: Outcome of a reader: value and unread input, an error
    return, a run-time panic (only [make] with an absurd length can cause one), or out
    of fuel (model only). *)
Inductive res (A : Type) :=
| ROk (a : A) (rest : bytes)
| RErr
| RPanic
| RFuel.
Arguments ROk {A}. Arguments RErr {A}. Arguments RPanic {A}. Arguments RFuel {A}.

(** lens/astsrv.go:246-568. *)
Definition reader (A : Type) := bytes -> res A.
(** lens/astsrv.go:246-568. *)
Definition ret {A} (a : A) : reader A := fun i => ROk a i.
(** lens/astsrv.go:246-568. *)
Definition fail {A} : reader A := fun _ => RErr.
(** lens/astsrv.go:246-568. *)
Definition panic {A} : reader A := fun _ => RPanic.
(** lens/astsrv.go:246-568: Sequencing with early return on error, the shape of every Go
    reader here. *)
Definition bind {A C} (m : reader A) (k : A -> reader C) : reader C := fun i =>
  match m i with
  | ROk a r => k a r
  | RErr => RErr | RPanic => RPanic | RFuel => RFuel
  end.
Notation "x <- m ;; k" := (bind m (fun x => k)) (at level 100, m at next level, right associativity).

(** [io.ReadFull] of [n] bytes (lens/astsrv.go:494,502,563): all or an error. *)
Definition take (n : N) : reader bytes := fun i =>
  if n <=? blen i then ROk (firstn (N.to_nat n) i) (skipn (N.to_nat n) i) else RErr.
(** lens/astsrv.go:493-498 [readByte]. *)
Definition read_byte : reader N := fun i =>
  match i with [] => RErr | b :: r => ROk (b2n b) r end.
(** lens/astsrv.go:505, 539-553: [binary.LittleEndian.Uint64/Uint32]. *)
Fixpoint le_dec (bs : bytes) : N :=
  match bs with [] => 0 | b :: r => b2n b + 256 * le_dec r end.
(** lens/astsrv.go:500-506 [readInt64]. *)
Definition read_int64 : reader Z := b <- take 8 ;; ret (i64_of_n (le_dec b)).
(** lens/astsrv.go:539-545 [readFloat32] (bits). *)
Definition read_f32 : reader N := b <- take 4 ;; ret (le_dec b).
(** lens/astsrv.go:547-553 [readFloat64] (bits). *)
Definition read_f64 : reader N := b <- take 8 ;; ret (le_dec b).

(** lens/astsrv.go:509-527 [readVarint].  [shift] grows by 7 and the loop leaves with an
    error once it reaches 64, so ten rounds suffice; [v |= uint64(b&0x7F) << shift]
    drops bits beyond 64. *)
Fixpoint read_varint_loop (fuel : nat) (v shift : N) : reader N := fun i =>
  match fuel with
  | O => RFuel
  | S f =>
      match i with
      | [] => RErr
      | b :: r =>
          let v' := N.lor v (N.shiftl (N.land (b2n b) 127) shift mod two64) in
          if b2n b <? 128 then ROk v' r
          else if 64 <=? shift + 7 then RErr
               else read_varint_loop f v' (shift + 7) r
      end
  end.
(** readVarint, lens/astsrv.go:509-527. *)
Definition read_varint : reader N := read_varint_loop 10 0 0.

(** lens/astsrv.go:536: [int64(v>>1) ^ -int64(v&1)]. *)
Definition unzigzag (v : N) : Z :=
  Z.lxor (i64_of_n (N.shiftr v 1)) (- i64_of_n (N.land v 1)).
(** lens/astsrv.go:530-537 [readSignedVarint]. *)
Definition read_svarint : reader Z := v <- read_varint ;; ret (unzigzag v).

(** lens/astsrv.go:555-568 [readString]; [math.MaxUint32] = 4294967295. *)
Definition read_string : reader bytes :=
  n <- read_varint ;;
  if n =? 0 then ret [] else if 4294967295 <? n then fail else take n.

(** lens/astsrv.go:334-372, 610-738: A counted loop [for i := 0; i < n; i++ { ...read...
    }] with early return on error. *)
Fixpoint read_n {A} (n : nat) (rd : reader A) : reader (list A) :=
  match n with
  | O => ret []
  | S n' => a <- rd ;; l <- read_n n' rd ;; ret (a :: l)
  end.

(** The common shape of the slice readers lens/astsrv.go:610-738: count, limit check,
    elements.  (Some of them test count==0 before the limit; since the limit is not
    negative the order does not matter.) *)
Definition read_slice {A} (maxlen : N) (rd : reader A) : reader (list A) :=
  n <- read_varint ;; if maxlen <? n then fail else read_n (N.to_nat n) rd.

(** lens/astsrv.go:570-584 [readBytes]. *)
Definition read_bytes (maxlen : N) : reader bytes :=
  n <- read_varint ;;
  if n =? 0 then ret [] else if maxlen <? n then fail else take n.

(** lens/astsrv.go:603-605: the bits of one byte, [k] of them. *)
Fixpoint unpack_byte (k : nat) (j : N) (b : N) : list bool :=
  match k with
  | O => []
  | S k' => negb (N.land b (N.shiftl 1 j) =? 0) :: unpack_byte k' (j + 1) b
  end.
(** lens/astsrv.go:598-606: [left] booleans still to be produced. *)
Fixpoint read_bools (fuel : nat) (left : nat) : reader (list bool) :=
  match left with
  | O => ret []
  | _ =>
    match fuel with
    | O => fun _ => RFuel
    | S f => b <- read_byte ;;
             l <- read_bools f (left - 8) ;;
             ret (unpack_byte (Nat.min 8 left) 0 b ++ l)
    end
  end.
(** lens/astsrv.go:586-608 [readBoolSlice]. *)
Definition read_bool_slice (maxlen : N) : reader (list bool) :=
  n <- read_varint ;;
  if maxlen <? n then fail
  else read_bools (N.to_nat n) (N.to_nat n).

(** lens/astsrv.go:57-62 [LensMonitorField]. *)
Inductive lfield := LF (name ty : bytes) (value : prim) (children : list lfield).

(** lens/astsrv.go:358-372: [make([]LensMonitorField, count)]: the element is 72 bytes;
    the Go run time panics ("makeslice: len out of range") when the size exceeds its
    2^48 address space. Running out of memory below that bound is not modelled. *)
Definition make_panics (count : N) : bool := 281474976710656 <? 72 * count.

(** lens/astsrv.go:388-490 [readValue], with [rf] the recursive [readField]. *)
Definition read_value (maxlen : N) (rf : reader lfield) : reader (prim * list lfield) :=
  tag <- read_byte ;;
  if tag =? 0 then ret (PNil, [])
  else if tag =? 1 then b <- read_byte ;; ret (PBool (negb (b =? 0)), [])
  else if tag =? 2 then v <- read_svarint ;; ret (PInt32 (i32_of_z v), [])
  else if tag =? 3 then v <- read_svarint ;; ret (PInt64 v, [])
  else if tag =? 4 then v <- read_varint ;; ret (PUint32 (u32_of_n v), [])
  else if tag =? 5 then v <- read_varint ;; ret (PUint64 v, [])
  else if tag =? 6 then v <- read_f32 ;; ret (PF32 v, [])
  else if tag =? 7 then v <- read_f64 ;; ret (PF64 v, [])
  else if tag =? 8 then re <- read_f64 ;; im <- read_f64 ;; ret (PC128 re im, [])
  else if tag =? 9 then v <- read_string ;; ret (PStr v, [])
  else if tag =? 32 then v <- read_bool_slice maxlen ;; ret (PBoolS v, [])
  else if tag =? 33 then v <- read_bytes maxlen ;; ret (PBytes v, [])
  else if tag =? 34 then v <- read_slice maxlen read_svarint ;; ret (PI32S (map i32_of_z v), [])
  else if tag =? 35 then v <- read_slice maxlen read_svarint ;; ret (PI64S v, [])
  else if tag =? 36 then v <- read_slice maxlen read_varint ;; ret (PU32S (map u32_of_n v), [])
  else if tag =? 37 then v <- read_slice maxlen read_varint ;; ret (PU64S v, [])
  else if tag =? 38 then v <- read_slice maxlen read_f32 ;; ret (PF32S v, [])
  else if tag =? 39 then v <- read_slice maxlen read_f64 ;; ret (PF64S v, [])
  else if tag =? 40 then v <- read_slice maxlen read_string ;; ret (PStrS v, [])
  else if (tag =? 66) || (tag =? 64) then
    n <- read_varint ;;
    if maxlen <? n then fail
    else c <- read_n (N.to_nat n) rf ;; ret (PNil, c)
  else if tag =? 65 then
    n <- read_varint ;;
    if make_panics n then panic
    else c <- read_n (N.to_nat n) rf ;; ret (PNil, c)
  else fail.

(** lens/astsrv.go:374-384 [readField]; the fuel bounds the nesting depth. *)
Fixpoint read_field (fuel : nat) (maxlen : N) : reader lfield :=
  match fuel with
  | O => fun _ => RFuel
  | S f =>
      nm <- read_string ;;
      ty <- read_string ;;
      vc <- read_value maxlen (read_field f maxlen) ;;
      ret (LF nm ty (fst vc) (snd vc))
  end.

(** lens/astsrv.go:358-372 [readFields]. *)
Definition read_fields (fuel : nat) (maxlen : N) : reader (list lfield) :=
  n <- read_varint ;;
  if 4294967295 <? n then fail else read_n (N.to_nat n) (read_field fuel maxlen).

(** lens/astsrv.go:334-354: one frame, with the bounds checks on the table indices. *)
Definition read_frame (table : list bytes) : reader frame :=
  fi <- read_varint ;;
  if blen table <=? fi then fail else
  gi <- read_varint ;;
  if blen table <=? gi then fail else
  ln <- read_varint ;;
  match nth_error table (N.to_nat fi), nth_error table (N.to_nat gi) with
  | Some f, Some g => ret (mkFrame f g ln)
  | _, _ => panic
  end.
(** lens/astsrv.go:308-356 [readStackFrames]; limit from lens/astapi.go:12. *)
Definition read_stack : reader (list frame) :=
  n <- read_varint ;;
  if 2048 <? n then fail else
  if n =? 0 then ret [] else
  ts <- read_varint ;;
  if n * 2 <? ts then fail else
  table <- read_n (N.to_nat ts) read_string ;;
  read_n (N.to_nat n) (read_frame table).

(** lens/astsrv.go:42-54, 35-39, 28-32: the decoded messages. *)
Record msg_point := mkPoint { mp_id : N; mp_time : Z; mp_stack : list frame }.
(** lens/astsrv.go:49-54. *)
Record msg_state := mkState { ms_id : N; ms_time : Z; ms_stack : list frame; ms_fields : list lfield }.
(** lens/astsrv.go:35-39. *)
Record msg_panic := mkPanic { mk_id : N; mk_time : Z; mk_text : bytes }.
(** lens/astsrv.go:28-32. *)
Record msg_error := mkError { me_id : N; me_text : bytes; me_stack : list frame }.

(** lens/astsrv.go:246-259 *)
Definition dec_point : reader msg_point :=
  id <- read_varint ;; t <- read_int64 ;; st <- read_stack ;; ret (mkPoint (u32_of_n id) t st).
(** lens/astsrv.go:261-276; the nesting fuel is taken from the input length. *)
Definition dec_state (maxlen : N) : reader msg_state := fun i =>
  (id <- read_varint ;; t <- read_int64 ;; st <- read_stack ;;
   fs <- read_fields (S (length i)) maxlen ;;
   ret (mkState (u32_of_n id) t st fs)) i.
(** lens/astsrv.go:278-291 *)
Definition dec_panic : reader msg_panic :=
  id <- read_varint ;; t <- read_int64 ;; s <- read_string ;; ret (mkPanic (u32_of_n id) t s).
(** lens/astsrv.go:293-306 *)
Definition dec_error : reader msg_error :=
  id <- read_varint ;; s <- read_string ;; st <- read_stack ;; ret (mkError (u32_of_n id) s st).

(** ** HTTP layer *)

(** lens/astapi.go:4-7 *)
Definition path_error : bytes := B "/ast.0/event/error".
(** lens/astapi.go:4-7. *)
Definition path_point : bytes := B "/ast.0/point/point".
(** lens/astapi.go:4-7. *)
Definition path_state : bytes := B "/ast.0/point/state".
(** lens/astapi.go:4-7. *)
Definition path_panic : bytes := B "/ast.0/point/panic".

(** lens/astsrv.go:156-234: An HTTP request as the handlers see it: whether the method
    is POST, path, body. *)
Record request := mkReq { rq_post : bool; rq_path : bytes; rq_body : bytes }.
(** What a handler passes on: lens/astsrv.go:172,192,212 (calls of the point handler) and
    lens/astsrv.go:231 (the error message is only logged). *)
Inductive event :=
| EvPoint (m : msg_point) | EvState (m : msg_state) | EvPanic (m : msg_panic) | EvError (m : msg_error).
(** lens/astsrv.go:156-234: HTTP status and event; [Aborted]: the handler panicked
    (net/http recovers and drops the connection). *)
Inductive response := Served (status : N) (ev : option event) | Aborted.

(** The common body of the four handlers lens/astsrv.go:156-234; unread input is ignored. *)
Definition handle {A} (d : reader A) (ev : A -> event) (rq : request) : response :=
  if rq_post rq then
    match d (rq_body rq) with
    | ROk m _ => Served 200 (Some (ev m))
    | RErr => Served 400 None
    | RPanic | RFuel => Aborted
    end
  else Served 405 None.
(** lens/astsrv.go:86-89: the mux (exact paths); 404 otherwise. *)
Definition serve (maxlen : N) (rq : request) : response :=
  if beq (rq_path rq) path_error then handle dec_error EvError rq
  else if beq (rq_path rq) path_point then handle dec_point EvPoint rq
  else if beq (rq_path rq) path_state then handle (dec_state maxlen) EvState rq
  else if beq (rq_path rq) path_panic then handle dec_panic EvPanic rq
  else Served 404 None.

(** Messages the client sends: lens/astclient.go:62-68, 86-100, 120-129, 174-190. *)
Inductive cmsg :=
| CPoint (id : N) (ts : Z) (stack : list frame)
| CState (id : N) (ts : Z) (stack : list frame) (fs : list wfield)
| CPanic (id : N) (ts : Z) (text : bytes)
| CError (id : N) (text : bytes) (stack : list frame).
(** lens/astclient.go:62-136. *)
Definition post_body (m : cmsg) : bytes :=
  match m with
  | CPoint id ts st => enc_point id ts st
  | CState id ts st fs => enc_state id ts st fs
  | CPanic id ts text => enc_panic id ts text
  | CError id text st => enc_error id text st
  end.
(** lens/astclient.go:67, 99, 128, 182: the endpoint of each kind. *)
Definition post_path (m : cmsg) : bytes :=
  match m with
  | CPoint _ _ _ => path_point
  | CState _ _ _ _ => path_state
  | CPanic _ _ _ => path_panic
  | CError _ _ _ => path_error
  end.
(** lens/astclient.go:62-136. *)
Definition post (m : cmsg) : request := mkReq true (post_path m) (post_body m).
