(** Specification vocabulary for the client's snapshots (C08), without [visited], fuel or
    streaming. *)

From Verif Require Import Base WireModel WireSpec ClientModel.
Local Open Scope N_scope.

(** ** Sane program states: machine ranges, and texts of at most [K] bytes for names *)
Definition scalar_prim (p : prim) : Prop :=
  match p with
  | PBool _ | PInt32 _ | PInt64 _ | PUint32 _ | PUint64 _ | PF32 _ | PF64 _ | PC128 _ _ => True
  | _ => False
  end.
(** any Go string or slice is shorter than 2^63 *)
Definition go_len {A} (l : list A) : Prop := blen l < 9223372036854775808.

Inductive rv_ok (K : N) : rv -> Prop :=
| ok_invalid : rv_ok K RInvalid
| ok_inil ty : str_ok ty -> rv_ok K (RIface ty None)
| ok_iface ty v : str_ok ty -> rv_ok K v -> rv_ok K (RIface ty (Some v))
| ok_ptr ty a : str_ok ty -> rv_ok K (RPtr ty a)
| ok_scalar ty p : str_ok ty -> scalar_prim p -> prim_ok 0 p -> rv_ok K (RScalar ty p)
| ok_str ty s : str_ok ty -> go_len s -> rv_ok K (RStr ty s)
| ok_arr ty es : str_ok ty -> elems_ok K es -> rv_ok K (RArr ty es)
| ok_slice ty r : str_ok ty -> rv_ok K (RSlice ty r)
| ok_map ty r : str_ok ty -> rv_ok K (RMap ty r)
| ok_struct ty fs : str_ok ty -> 72 * blen fs <= 281474976710656 ->
    (forall nm v, In (nm, v) fs -> blen nm <= K /\ rv_ok K v) -> rv_ok K (RStruct ty fs)
| ok_func ty a : str_ok ty -> rv_ok K (RFunc ty a)
| ok_chan ty a : str_ok ty -> rv_ok K (RChan ty a)
| ok_other ty s : str_ok ty -> go_len s -> rv_ok K (ROther ty s)
with elems_ok (K : N) : elems -> Prop :=
| ok_bools l : elems_ok K (EBools l)
| ok_i32s l : Forall in_i32 l -> elems_ok K (EI32s l)
| ok_i64s l : Forall in_i64 l -> elems_ok K (EI64s l)
| ok_bytes l : elems_ok K (EBytes l)
| ok_u32s l : Forall in_u32 l -> elems_ok K (EU32s l)
| ok_u64s l : Forall in_u64 l -> elems_ok K (EU64s l)
| ok_f32s l : Forall in_u32 l -> elems_ok K (EF32s l)
| ok_f64s l : Forall in_u64 l -> elems_ok K (EF64s l)
| ok_strs l : Forall go_len l -> elems_ok K (EStrs l)
| ok_vals l : (forall v, In v l -> rv_ok K v) -> elems_ok K (EVals l).

Definition heap_ok (K : N) (h : heap) : Prop :=
  (forall a, rv_ok K (h_ptr h a)) /\ (forall i, elems_ok K (h_slice h i)) /\
  (forall a nm v, In (nm, v) (h_map h a) \/ In (nm, v) (h_sorted h a) -> blen nm <= K /\ rv_ok K v).

(** ** What may be emitted *)
(** A text is at most the limit plus the truncation note, or names the earlier path of a
    repeated address. *)
Definition text_lim (maxlen : N) (s : bytes) : Prop :=
  blen s <= maxlen + 30 \/ exists p, s = B "<cycle:" ++ p ++ B ">".
Definition prim_lim (maxlen : N) (p : prim) : Prop :=
  match p with
  | PStr s => text_lim maxlen s
  | PStrS l => blen l <= maxlen /\ Forall (fun s => blen s <= maxlen + 30) l
  | p => prim_ok maxlen p
  end.
Inductive val_lim (maxlen : N) : wval -> Prop :=
| lim_prim p : prim_lim maxlen p -> val_lim maxlen (WPrim p)
| lim_node k fs : kind_ok maxlen k (blen fs) ->
    Forall (fun f => val_lim maxlen (snd f)) fs -> val_lim maxlen (WNode k fs).

(** ** Following pointers and interfaces *)
Inductive reaches (h : heap) : rv -> rv -> Prop :=
| re_stop v : (forall ty i, v <> RIface ty i) -> (forall ty a, v <> RPtr ty a) -> reaches h v v
| re_iface ty v u : reaches h v u -> reaches h (RIface ty (Some v)) u
| re_ptr ty a u : reaches h (h_ptr h a) u -> reaches h (RPtr ty (Some a)) u.
Inductive reaches_nil (h : heap) : rv -> bytes -> Prop :=
| rn_iface ty : reaches_nil h (RIface ty None) ty
| rn_ptr ty : reaches_nil h (RPtr ty None) ty
| rn_in ty ty' v : reaches_nil h v ty' -> reaches_nil h (RIface ty (Some v)) ty'
| rn_deref ty ty' a : reaches_nil h (h_ptr h a) ty' -> reaches_nil h (RPtr ty (Some a)) ty'.

(** ** The faithful picture of a value: its type text, its value and the addresses it
    consists of, for values within the limits.  [n] bounds the nesting. *)
Definition own (v : rv) : list N := match v with RPtr _ (Some a) => [a] | _ => [] end.

Section Shows.
(** The memory of the program, read at lens/astclient.go:238-517. *)
Variable h : heap.
(** utf8.ValidString, lens/astclient.go:462-470. *)
Variable utf8 : bytes -> bool.
(** The limit on the length of texts, lens/astclient.go:114. *)
Variable maxlen : N.

Inductive flat_elems : elems -> prim -> Prop :=
| fl_bools l : blen l <= maxlen -> flat_elems (EBools l) (PBoolS l)
| fl_i32s l : blen l <= maxlen -> flat_elems (EI32s l) (PI32S l)
| fl_i64s l : blen l <= maxlen -> flat_elems (EI64s l) (PI64S l)
| fl_text s : blen s <= maxlen -> utf8 s = true -> flat_elems (EBytes s) (PStr s)
| fl_bytes s : blen s <= maxlen -> utf8 s = false -> flat_elems (EBytes s) (PBytes s)
| fl_u32s l : blen l <= maxlen -> flat_elems (EU32s l) (PU32S l)
| fl_u64s l : blen l <= maxlen -> flat_elems (EU64s l) (PU64S l)
| fl_f32s l : blen l <= maxlen -> flat_elems (EF32s l) (PF32S l)
| fl_f64s l : blen l <= maxlen -> flat_elems (EF64s l) (PF64S l)
| fl_strs l : blen l <= maxlen -> Forall (fun s => blen s <= maxlen) l -> flat_elems (EStrs l) (PStrS l).

(** element i of a slice is named "[i]" *)
Definition numbered (l : list rv) (nl : list (bytes * rv)) : Prop :=
  length nl = length l /\
  forall i v, nth_error l i = Some v ->
    nth_error nl i = Some (B "[" ++ itoa (N.of_nat i) ++ B "]", v).

Inductive shows : nat -> rv -> bytes -> wval -> list N -> Prop :=
| sh_nil n v ty : reaches_nil h v ty -> shows n v ty (WPrim PNil) (own v)
| sh_invalid n v : reaches h v RInvalid -> shows n v (B "invalid") (WPrim PNil) (own v)
| sh_scalar n v ty p : reaches h v (RScalar ty p) -> shows (S n) v ty (WPrim p) (own v)
| sh_str n v ty s : reaches h v (RStr ty s) -> blen s <= maxlen ->
    shows (S n) v ty (WPrim (PStr s)) (own v)
| sh_arr n v ty es w A : reaches h v (RArr ty es) -> shows_elems n es w A ->
    shows (S n) v ty w (own v ++ A)
| sh_slice_nil n v ty : reaches h v (RSlice ty None) -> shows (S n) v ty (WPrim PNil) (own v)
| sh_slice n v ty a i w A : reaches h v (RSlice ty (Some (a, i))) ->
    shows_elems n (h_slice h i) w A -> shows (S n) v ty w (own v ++ a :: A)
| sh_map_nil n v ty : reaches h v (RMap ty None) -> shows (S n) v ty (WPrim PNil) (own v)
| sh_map n v ty a ws A : reaches h v (RMap ty (Some a)) -> blen (h_map h a) <= maxlen ->
    shows_kids n (h_map h a) ws A -> shows (S n) v ty (WNode KMap ws) (own v ++ a :: A)
| sh_struct n v ty fs ws A : reaches h v (RStruct ty fs) -> shows_kids n fs ws A ->
    shows (S n) v ty (WNode KStruct ws) (own v ++ A)
| sh_func n v ty a : reaches h v (RFunc ty (Some a)) ->
    shows (S n) v ty (WPrim (PStr (B "<func>"))) (own v ++ [a])
| sh_func_nil n v ty : reaches h v (RFunc ty None) -> shows (S n) v ty (WPrim PNil) (own v)
| sh_chan n v ty a : reaches h v (RChan ty (Some a)) ->
    shows (S n) v ty (WPrim (PStr (B "<chan>"))) (own v ++ [a])
| sh_chan_nil n v ty : reaches h v (RChan ty None) -> shows (S n) v ty (WPrim PNil) (own v)
| sh_other n v ty s : reaches h v (ROther ty s) -> blen s <= maxlen ->
    shows (S n) v ty (WPrim (PStr s)) (own v)
with shows_elems : nat -> elems -> wval -> list N -> Prop :=
| she_flat n es p : flat_elems es p -> shows_elems n es (WPrim p) []
| she_vals n l nl ws A : blen l <= maxlen -> numbered l nl -> shows_kids n nl ws A ->
    shows_elems n (EVals l) (WNode KSlice ws) A
with shows_kids : nat -> list (bytes * rv) -> list wfield -> list N -> Prop :=
| shk_nil n : shows_kids n [] [] []
| shk_cons n nm v l ty w ws A A' : shows n v ty w A -> shows_kids n l ws A' ->
    shows_kids n ((nm, v) :: l) ((nm, ty, w) :: ws) (A ++ A').

Scheme shows_mut := Induction for shows Sort Prop
  with shows_elems_mut := Induction for shows_elems Sort Prop
  with shows_kids_mut := Induction for shows_kids Sort Prop.

End Shows.

(** The chain of pointers and interfaces from a value ends within [n] dereferences. *)
Inductive ends (h : heap) : nat -> rv -> Prop :=
| en_stop n v : (forall ty i, v <> RIface ty i) -> (forall ty a, v <> RPtr ty a) -> ends h n v
| en_inil n ty : ends h n (RIface ty None)
| en_pnil n ty : ends h n (RPtr ty None)
| en_iface n ty v : ends h n v -> ends h n (RIface ty (Some v))
| en_ptr n ty a : ends h n (h_ptr h a) -> ends h (S n) (RPtr ty (Some a)).
(** Every such chain in the heap ends within [n] steps (false only for cycles made of
    nothing but pointers and interfaces). *)
Definition chains_end (h : heap) (n : nat) : Prop := forall v, ends h n v.
