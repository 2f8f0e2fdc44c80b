(** Model of the snapshotter in the injected client: lens/astclient.go:86-118, 238-518. *)

From Verif Require Import Base WireModel.
Local Open Scope N_scope.

(** Values as package reflect presents them.  Finite parts are inline; whatever is behind a
    pointer, a slice header or a map header is a reference into the heap.  [ty] is
    [Type().String()].  Scalars carry the wire primitive of their kind
    (lens/astclient.go:316-352; a float32 is its bit pattern, i.e. NaN payload changes of
    the float32/float64 conversions are not modelled). *)
Inductive rv :=
| RInvalid                                            (* reflect.ValueOf(nil) *)
| RIface (ty : bytes) (inner : option rv)             (* interface, nil or holding a value *)
| RPtr (ty : bytes) (addr : option N)                 (* pointer, nil or an address *)
| RScalar (ty : bytes) (p : prim)                     (* bool, numbers *)
| RStr (ty : bytes) (s : bytes)
| RArr (ty : bytes) (es : elems)                      (* array, contents inline *)
| RSlice (ty : bytes) (ref : option (N * N))          (* slice: data address, contents id *)
| RMap (ty : bytes) (ref : option N)                  (* map: address = contents id *)
| RStruct (ty : bytes) (fs : list (bytes * rv))
| RFunc (ty : bytes) (addr : option N)
| RChan (ty : bytes) (addr : option N)
| ROther (ty : bytes) (text : bytes)                  (* text = fmt.Sprint(v.Interface()) *)
(** Elements of slices and arrays by element kind (the cases of lens/astclient.go:422-517). *)
with elems :=
| EBools (l : list bool) | EI32s (l : list Z) | EI64s (l : list Z) | EBytes (s : bytes)
| EU32s (l : list N) | EU64s (l : list N) | EF32s (l : list N) | EF64s (l : list N)
| EStrs (l : list bytes) | EVals (l : list rv).

(** Heap: pointees, slice contents, map contents.  A map is given by the entries in the order
    MapKeys yields them (key already rendered by fmt.Sprint) and in sorted order
    (lens/astclient.go:372, 519-642). *)
Record heap := mkHeap {
  h_ptr : N -> rv;
  h_slice : N -> elems;
  h_map : N -> list (bytes * rv);
  h_sorted : N -> list (bytes * rv) }.

(** lens/astclient.go:113-118 [limitLensMonitorStringSize]; "…" is three bytes of UTF-8. *)
Definition ellipsis : bytes := [ascii_of_N 226; ascii_of_N 128; ascii_of_N 166].
(** lens/astclient.go:113-118. *)
Definition limit_string (maxlen : N) (s : bytes) : bytes :=
  if maxlen <? blen s
  then firstn (N.to_nat maxlen) s ++ ellipsis ++ B "(" ++ itoa (blen s - maxlen) ++ B " more)"
  else s.

(** lens/astclient.go:265-273, the unwrap loop; the fuel counts pointer dereferences. *)
Inductive uw := UNil (ty : bytes) | UVal (v : rv) | UFuel.
Section Client.
(** The memory of the program during one message (lens/astclient.go:86-100); it does not
    change meanwhile. *)
Variable h : heap.
(** lens/astclient.go:462-470. *)
Variable utf8_valid : bytes -> bool.   (* unicode/utf8.Valid *)
(** lens/astclient.go:114. *)
Variable maxlen : N.                   (* lensMonitorFieldMaxLen *)
(** Bound on the iterations of the loop at lens/astclient.go:265-273; running out is an
    outcome of its own. *)
Variable ufuel : nat.

(** lens/astclient.go:265-273. *)
Fixpoint unwrap (fuel : nat) : rv -> uw :=
  fix go (v : rv) : uw :=
    match v with
    | RIface ty None => UNil ty
    | RIface _ (Some v') => go v'
    | RPtr ty None => UNil ty
    | RPtr _ (Some a) => match fuel with O => UFuel | S f => unwrap f (h_ptr h a) end
    | _ => UVal v
    end.

(** lens/astclient.go:276-283: [v.Type().String()]. *)
Definition rv_type (v : rv) : bytes :=
  match v with
  | RInvalid => B "invalid"
  | RIface ty _ | RPtr ty _ | RScalar ty _ | RStr ty _ | RArr ty _ | RSlice ty _ | RMap ty _
  | RStruct ty _ | RFunc ty _ | RChan ty _ | ROther ty _ => ty
  end.

(** The map [visited] (lens/astclient.go:238, 252-262, 300-312): [None] is the nil map.  A nil
    map passed to a callee stays nil for the caller; an existing map is shared. *)
Definition visited := option (list (N * bytes)).
(** lens/astclient.go:257, 304. *)
Fixpoint vlookup (m : list (N * bytes)) (a : N) : option bytes :=
  match m with
  | [] => None
  | (a', p) :: m' => if a =? a' then Some p else vlookup m' a
  end.
(** lens/astclient.go:253-255, 301-303: a nil map is made when needed. *)
Definition vmap (vis : visited) : list (N * bytes) := match vis with Some m => m | None => [] end.
(** lens/astclient.go:238: What the caller sees after a callee received [vis] and ended
    with [vis']. *)
Definition vback (vis vis' : visited) : visited := match vis with None => None | Some _ => vis' end.
(** lens/astclient.go:258-261, 305-308. *)
Definition cycle_mark (p : bytes) : wval := WPrim (PStr (B "<cycle:" ++ p ++ B ">")).

(** lens/astclient.go:239-244 *)
Definition join_path (parent name : bytes) : bytes :=
  match parent with [] => name | _ => parent ++ B "." ++ name end.

(** lens/astclient.go:238-411: Result of streaming one field: type text, value,
    [visited] afterwards; [None] when the unwrap loop did not stop within the fuel. *)
Definition sres := option (bytes * wval * visited).

(** lens/astclient.go:365-402, 512-517: Streaming a list of named children one after the
    other, threading [visited]. *)
Fixpoint stream_kids (sf : bytes -> rv -> visited -> sres) (l : list (bytes * rv)) (vis : visited)
  : option (list wfield * visited) :=
  match l with
  | [] => Some ([], vis)
  | (nm, v) :: l' =>
      match sf nm v vis with
      | None => None
      | Some (ty, w, vis') =>
          match stream_kids sf l' (vback vis vis') with
          | None => None
          | Some (ws, vis'') => Some ((nm, ty, w) :: ws, vis'')
          end
      end
  end.

(** lens/astclient.go:515: names "[i]". *)
Fixpoint index_names (i : N) (l : list rv) : list (bytes * rv) :=
  match l with
  | [] => []
  | v :: l' => (B "[" ++ itoa i ++ B "]", v) :: index_names (i + 1) l'
  end.

(** lens/astclient.go:414-420: at most lensMonitorFieldMaxLen elements. *)
Definition cut {A} (l : list A) : list A := firstn (N.to_nat maxlen) l.

(** lens/astclient.go:414-518 [streamValueSlice]. *)
Definition stream_elems (sf : bytes -> rv -> visited -> sres) (es : elems) (vis : visited)
  : option (wval * visited) :=
  match es with
  | EBools l => Some (WPrim (PBoolS (cut l)), vis)
  | EI32s l => Some (WPrim (PI32S (cut l)), vis)
  | EI64s l => Some (WPrim (PI64S (cut l)), vis)
  | EBytes s => let d := cut s in
      Some (WPrim (if utf8_valid d then PStr (limit_string maxlen d) else PBytes d), vis)
  | EU32s l => Some (WPrim (PU32S (cut l)), vis)
  | EU64s l => Some (WPrim (PU64S (cut l)), vis)
  | EF32s l => Some (WPrim (PF32S (cut l)), vis)
  | EF64s l => Some (WPrim (PF64S (cut l)), vis)
  | EStrs l => Some (WPrim (PStrS (map (limit_string maxlen) (cut l))), vis)
  | EVals l =>
      match stream_kids sf (index_names 0 (cut l)) vis with
      | None => None
      | Some (ws, vis') => Some (WNode KSlice ws, vis')
      end
  end.

(** lens/astclient.go:365-378: entries to stream for a map. *)
Definition map_entries (a : N) : list (bytes * rv) :=
  if blen (h_map h a) <=? maxlen then h_map h a
  else firstn (N.to_nat maxlen) (h_sorted h a).

(** The switch of lens/astclient.go:316-411 on an unwrapped, non-nil value. *)
Definition stream_body (sf : bytes -> rv -> visited -> sres) (v : rv) (vis : visited)
  : option (wval * visited) :=
  match v with
  | RScalar _ p => Some (WPrim p, vis)
  | RStr _ s => Some (WPrim (PStr (limit_string maxlen s)), vis)
  | RArr _ es => stream_elems sf es vis
  | RSlice _ (Some (_, i)) => stream_elems sf (h_slice h i) vis
  | RMap _ (Some a) =>
      match stream_kids sf (map_entries a) vis with
      | None => None
      | Some (ws, vis') => Some (WNode KMap ws, vis')
      end
  | RStruct _ fs =>
      match stream_kids sf fs vis with
      | None => None
      | Some (ws, vis') => Some (WNode KStruct ws, vis')
      end
  | RFunc _ _ => Some (WPrim (PStr (B "<func>")), vis)
  | RChan _ _ => Some (WPrim (PStr (B "<chan>")), vis)
  | ROther _ t => Some (WPrim (PStr (limit_string maxlen t)), vis)
  | _ => Some (WPrim PNil, vis)                 (* unreachable after unwrapping and nil test *)
  end.

(** lens/astclient.go:288-295 and 298-312: address used for the second cycle test, or nil. *)
Inductive addr_class := ANil | AAddr (a : N) | ANone.
(** lens/astclient.go:288-295, 298-312. *)
Definition class_of (v : rv) : addr_class :=
  match v with
  | RSlice _ None | RMap _ None | RFunc _ None | RChan _ None => ANil
  | RSlice _ (Some (a, _)) | RMap _ (Some a) | RFunc _ (Some a) | RChan _ (Some a) => AAddr a
  | _ => ANone
  end.

(** lens/astclient.go:265-411: everything after the first cycle test. *)
Definition stream_rest (deep : bool) (sf : bytes -> rv -> visited -> sres) (path : bytes)
    (v : rv) (vis : visited) : sres :=
  match unwrap ufuel v with
  | UFuel => None
  | UNil ty => Some (ty, WPrim PNil, vis)
  | UVal RInvalid => Some (B "invalid", WPrim PNil, vis)
  | UVal u =>
      if deep then Some (rv_type u, WPrim (PStr (B "<max-depth>")), vis)
      else match class_of u with
           | ANil => Some (rv_type u, WPrim PNil, vis)
           | ANone =>
               match stream_body sf u vis with
               | None => None | Some (w, vis') => Some (rv_type u, w, vis')
               end
           | AAddr a =>
               match vlookup (vmap vis) a with
               | Some p => Some (rv_type u, cycle_mark p, Some (vmap vis))
               | None =>
                   match stream_body sf u (Some ((a, path) :: vmap vis)) with
                   | None => None | Some (w, vis') => Some (rv_type u, w, vis')
                   end
               end
           end
  end.

(** lens/astclient.go:238-411 [streamField]; [rem] = lensMonitorFieldMaxRecurse - depth.  The
    bytes written are [enc_field (name, type, value)] of the result: the Go code writes name,
    type, tag, count and children in exactly that order. *)
Fixpoint stream_field (rem : nat) (parent name : bytes) (v : rv) (vis : visited) : sres :=
  let path := join_path parent name in
  let sf := match rem with
            | O => fun _ _ _ => None
            | S r => stream_field r path
            end in
  let deep := match rem with O => true | S _ => false end in
  match v with
  | RPtr ty (Some a) =>
      match vlookup (vmap vis) a with
      | Some p => Some (ty, cycle_mark p, Some (vmap vis))
      | None => stream_rest deep sf path v (Some ((a, path) :: vmap vis))
      end
  | _ => stream_rest deep sf path v vis
  end.

(** lens/astclient.go:86-111: snapshots named "nil" are dropped, every snapshot starts with a
    nil [visited]. *)
Fixpoint stream_snaps (maxrec : nat) (snaps : list (bytes * rv)) : option (list wfield) :=
  match snaps with
  | [] => Some []
  | (nm, v) :: l =>
      if beq nm (B "nil") then stream_snaps maxrec l
      else match stream_field maxrec [] nm v None with
           | None => None
           | Some (ty, w, _) =>
               match stream_snaps maxrec l with
               | None => None
               | Some ws => Some ((nm, ty, w) :: ws)
               end
           end
  end.
(** The request body of a state message, lens/astclient.go:98-110. *)
Definition send_state (maxrec : nat) (id : N) (ts : Z) (stack : list frame)
    (snaps : list (bytes * rv)) : option cmsg :=
  match stream_snaps maxrec snaps with
  | None => None
  | Some ws => Some (CState id ts stack ws)
  end.

End Client.
