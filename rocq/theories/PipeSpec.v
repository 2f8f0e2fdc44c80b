(** What a program's values are at which path, independently of the client, the wire and the monitor. *)
From Verif Require Import Base Maps WireModel WireSpec ClientModel ClientSpec TypesModel TypesSpec StableModel MonitorModel PipeModel.
Local Open Scope N_scope.

(** ** Values and paths *)
(** Where following pointers and interfaces ends: at a nil of some type or at a value. *)
Inductive place := AtNil (ty : bytes) | At (u : rv).
Definition ends_at (h : heap) (v : rv) (t : place) : Prop :=
  match t with AtNil ty => reaches_nil h v ty | At u => reaches h v u end.
Definition type_at (t : place) : bytes := match t with AtNil ty => ty | At u => rv_type u end.

(** Names of elements: "[0]", "[1]", ... *)
Definition elem_name (i : nat) : bytes := B "[" ++ itoa (N.of_nat i) ++ B "]".
Definition parts_of (es : elems) : list (bytes * rv) :=
  match es with EVals l => combine (map elem_name (seq 0 (length l))) l | _ => [] end.
(** The named parts of a value: fields, entries, elements that are not stored as one. *)
Definition parts (h : heap) (t : place) : list (bytes * rv) :=
  match t with
  | At (RStruct _ fs) => fs
  | At (RMap _ (Some a)) => h_map h a
  | At (RSlice _ (Some (_, i))) => parts_of (h_slice h i)
  | At (RArr _ es) => parts_of es
  | _ => []
  end.

(** [found h v path t]: going from [v] down the parts named by [path] one comes to [t]. *)
Inductive found (h : heap) : rv -> list bytes -> place -> Prop :=
| fo_here v t : ends_at h v t -> found h v [] t
| fo_down v t nm c path t' : ends_at h v t -> In (nm, c) (parts h t) -> found h c path t' -> found h v (nm :: path) t'.

(** What a place without parts is. *)
Definition whole_elems (utf8 : bytes -> bool) (es : elems) : prim :=
  match es with
  | EBools l => PBoolS l | EI32s l => PI32S l | EI64s l => PI64S l
  | EBytes s => if utf8 s then PStr s else PBytes s
  | EU32s l => PU32S l | EU64s l => PU64S l | EF32s l => PF32S l | EF64s l => PF64S l
  | EStrs l => PStrS l | EVals _ => PNil
  end.
Definition whole (h : heap) (utf8 : bytes -> bool) (t : place) : prim :=
  match t with
  | AtNil _ => PNil
  | At u =>
    match u with
    | RScalar _ p => p
    | RStr _ s | ROther _ s => PStr s
    | RArr _ es => whole_elems utf8 es
    | RSlice _ (Some (_, i)) => whole_elems utf8 (h_slice h i)
    | RFunc _ (Some _) => PStr (B "<func>")
    | RChan _ (Some _) => PStr (B "<chan>")
    | _ => PNil
    end
  end.

(** [v] has at [path] the undivided value [p] of type [ty]. *)
Definition has_value (h : heap) (utf8 : bytes -> bool) (v : rv) (path : list bytes) (ty : bytes) (p : prim) : Prop :=
  exists t, found h v path t /\ parts h t = [] /\ ty = type_at t /\ p = whole h utf8 t.

(** ** Values that can be told apart by their paths *)
(** Wherever one gets to, the parts have different names, without dots and not empty, and nothing is of the types of package reflect
    that the monitor leaves out. *)
Definition reflective (ty : bytes) : Prop := ty = B "reflect.Value" \/ ty = B "reflect.rtype" \/ ty = B "reflect.flag".
Definition tidy (h : heap) (v : rv) : Prop := forall path t, found h v path t ->
  NoDup (map fst (parts h t)) /\ (forall nm c, In (nm, c) (parts h t) -> plain_name nm) /\ ~ reflective (type_at t).

(** ** Captures *)
Section Captures.
(** utf8.ValidString, lens/astclient.go:462-470. *)
Variable utf8 : bytes -> bool.
(** fmt.Sprint, lens/astexec.go:865. *)
Variable sprint : prim -> bytes.
(** lens/astexec.go:866-868. *)
Variable digest : bytes -> bytes.
(** trimStackFile, lens/astexec.go:647-679. *)
Variable trim : bytes -> option bytes.
(** The limit on the length of texts, lens/astclient.go:114. *)
Variable maxlen : N.
(** The limit on the nesting (lens/astclient.go:238-262), and the bound of the loop at
    lens/astclient.go:265-273. *)
Variable maxrec ufuel : nat.

(** The values that are sent. *)
Definition shown (c : capture) : list (bytes * rv) := filter (fun s => negb (beq (fst s) (B "nil"))) (c_snaps c).

(** Within the limits: a value is small, not deep, and no address is met twice in it; its parts can be told apart. *)
Definition exact_value (h : heap) (v : rv) : Prop :=
  (exists ty w A, shows h utf8 maxlen maxrec v ty w A /\ NoDup A) /\ tidy h v.
(** Ranges of machine integers and lengths. *)
Definition sane (K : N) (c : capture) : Prop :=
  heap_ok K (c_heap c) /\ maxlen <= 2147483648 /\ 21 <= K /\ (N.of_nat maxrec + 1) * (K + 1) + 8 < 4294967296 /\
  (forall nm v, In (nm, v) (c_snaps c) -> blen nm <= K /\ rv_ok K v) /\ blen (c_snaps c) < 4294967296 /\
  in_u32 (c_id c) /\ in_i64 (c_time c) /\ stack_ok (c_stack c) /\ (forall f, In f (c_stack c) -> trim (fr_file f) <> None).
Definition good_capture (c : capture) : Prop :=
  (exists K, sane K c) /\ chains_end (c_heap c) ufuel /\
  NoDup (map fst (shown c)) /\ (forall nm v, In (nm, v) (shown c) -> plain_name nm /\ exact_value (c_heap c) v).

(** The capture has at the dotted name the undivided value [p] of type [ty]. *)
Definition captured (c : capture) (name ty : bytes) (p : prim) : Prop :=
  exists nm v path, In (nm, v) (shown c) /\ has_value (c_heap c) utf8 v path ty p /\ name = dotted (nm :: path).
End Captures.
