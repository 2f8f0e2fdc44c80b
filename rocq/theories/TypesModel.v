(** Model of the result types in lens/types.go: field trees, their identifiers,
    flattening, and the de-duplicating encoding of test results.  Definitions
    only. *)

From Verif Require Import Base Maps.

(** [FieldValue] and [FieldValues] (types.go:544-552).  [None] is a nil map; the
    list of a map carries its entries in the order one [range] over it yields
    them.  Simplified: no nil [*FieldValue] inside a map (all producers, types.go:448
    and astexec.go:857-878, store non-nil pointers). *)
Inductive fval := FVal (value : bytes) (children : option (list (bytes * fval))).
(** FieldValues, lens/types.go:544. *)
Definition fvals := option (list (bytes * fval)).

(** lens/types.go:544, 597-652: The entries of a possibly nil Go map; [len] and [range]
    treat nil as empty. *)
Definition olist {A} (o : option (list A)) : list A := match o with Some l => l | None => [] end.

(** lens/types.go:547-552. *)
Definition f_value (n : fval) : bytes := let 'FVal v _ := n in v.
(** lens/types.go:547-552. *)
Definition f_children (n : fval) : fvals := let 'FVal _ c := n in c.

(** [StackFrame] (types.go:570-577) and a possibly nil slice of them. *)
Record sframe := SFrame { sf_file : bytes; sf_line : N; sf_func : bytes }.
(** lens/types.go:534-541. *)
Definition stack := option (list sframe).

(** [CallFrame] (types.go:534-541). *)
Record cframe := CFrame { cf_fields : fvals; cf_stack : stack; cf_time : N }.

(** [TestResult] (types.go:146-163) with [MinimumTestFunction] (138-143). *)
Record tresult := TResult {
  tr_ident : bytes; tr_name : bytes;
  tr_callers : option (list (bytes * list cframe));
  tr_ppanics : option (list (bytes * list bytes));
  tr_mpanics : option (list (bytes * list bytes));
  tr_hit : Z; tr_fail : bool;
  tr_ext : option (list (bytes * list cframe))
}.

(** ** Flattening *)

(** The assignments [flat[key] = value] made by [FlattenFieldValues]'s walk, in
    order (types.go:600-614). *)
Fixpoint flat_node (key : bytes) (n : fval) : list (bytes * bytes) :=
  let '(FVal v c) := n in
  match c with
  | None | Some [] => [(key, v)]
  | Some l =>
      (fix walk (l : list (bytes * fval)) : list (bytes * bytes) :=
         match l with
         | [] => []
         | (name, x) :: l' =>
             flat_node (match key with [] => name | _ => key ++ B "." ++ name end) x ++ walk l'
         end) l
  end.

(** [FieldValues.FlattenFieldValues] (types.go:597-618): later assignments to the
    same key overwrite earlier ones. *)
Definition flatten (fv : fvals) : amap bytes :=
  fold_left (fun m e => mset (fst e) (snd e) m)
            (flat_map (fun e => flat_node (fst e) (snd e)) (olist fv)) [].

(** ** Identifiers *)

(** [binary.LittleEndian.PutUint64] (types.go:561, 630). *)
Fixpoint le_bytes (n : nat) (x : N) : bytes :=
  match n with O => [] | S n' => ascii_of_N (x mod 256) :: le_bytes n' (x / 256) end.
(** lens/types.go:561, 630. *)
Definition le64 (x : N) : bytes := le_bytes 8 (x mod 2 ^ 64).

(** [writeFramed] (types.go:629-633). *)
Definition framed (b : bytes) : bytes := le64 (blen b) ++ b.

Section IDs.
(** lens/util.go:128-134: [crypto/sha1]: any function; what is needed of it is said in
    the theorems. *)
Variable sha1 : bytes -> bytes.

(** [bytesKey] (util.go:128-134). *)
Definition bytes_key (b : bytes) : bytes := if (blen b <=? 20)%N then b else sha1 b.

(** [stringKey] (util.go:119-124). *)
Definition string_key (s : bytes) : bytes := if (blen s <=? 20)%N then s else bytes_key s.

(** The bytes fed to the hash for one entry and, through [ser_map], for a map
    (types.go:635-649): the keys sorted, each looked up and written. *)
Definition ser_sorted (ps : list (bytes * bytes)) : bytes :=
  concat (map (fun k => match mget k ps with Some s => s | None => [] end) (bsort (mkeys ps))).
(** lens/types.go:635-649. *)
Fixpoint ser_entry (key : bytes) (n : fval) : bytes :=
  let '(FVal v c) := n in
  framed key ++
  match c with
  | None | Some [] => ascii_of_N 0 :: framed v
  | Some l => ascii_of_N 1 ::
      ser_sorted
        ((fix go (l : list (bytes * fval)) : list (bytes * bytes) :=
            match l with [] => [] | (k, x) :: l' => (k, ser_entry k x) :: go l' end) l)
  end.
(** lens/types.go:635-649. *)
Definition ser_map (l : list (bytes * fval)) : bytes :=
  ser_sorted (map (fun e => (fst e, ser_entry (fst e) (snd e))) l).

(** [FieldValues.ID] (types.go:621-652). *)
Definition fvals_id (fv : fvals) : bytes :=
  match fv with
  | None => []
  | Some [] => B "empty"
  | Some l => sha1 (ser_map l)
  end.

(** [FieldValue.ID] (types.go:555-567). *)
Definition fval_id (n : fval) : bytes :=
  let '(FVal v c) := n in bytes_key (le64 (blen v) ++ v ++ fvals_id c).

(** [StackFrame.ID] (types.go:580-585). *)
Definition sframe_id (f : sframe) : bytes :=
  string_key (sf_file f ++ itoa (sf_line f) ++ sf_func f).

(** ** Encoding with dictionaries *)

(** [encFieldValue] / [encFieldValues] (types.go:167-173); dictionary indices as
    naturals (the code only produces [len(dict)]). *)
Inductive encfv :=
  EFV (ni : option nat) (v : bytes) (ci : option nat) (cvl : option (list (bytes * encfv))).
(** encFieldValues, lens/types.go:173. *)
Definition encfvs := option (list (bytes * encfv)).

(** [encCallFrame] (types.go:175-181). *)
Record encframe := EFrame {
  ef_fvi : option nat; ef_fv : encfvs; ef_si : option nat; ef_st : stack; ef_t : N }.

(** [encTestResult] (types.go:183-196). *)
Record enctr := EncTR {
  et_ident : bytes; et_name : bytes;
  et_callers : option (list (bytes * list encframe));
  et_ppanics : option (list (bytes * list bytes));
  et_mpanics : option (list (bytes * list bytes));
  et_hit : Z; et_fail : bool;
  et_ext : option (list (bytes * list encframe));
  et_fvdict : list encfvs; et_nodedict : list encfv; et_stdict : list stack }.

(** [msgpack.Marshal] of a stack, the content of [anyKey] (types.go:207-213):
    any function. *)
Variable mp_stack : stack -> bytes.
(** anyKey, lens/types.go:207-213. *)
Definition any_key (s : stack) : bytes := bytes_key (mp_stack s).

(** *** Counting (types.go:222-256): the identifiers counted, as a list with
    repetitions; a count is the number of occurrences. *)
Fixpoint node_ids (n : fval) : list bytes * list bytes := (* (map ids, node ids) *)
  let '(FVal v c) := n in
  match c with
  | None | Some [] => if (blen v <=? 4)%N then ([], []) else ([], [fval_id n])
  | Some l =>
      let r :=
        (fix go (l : list (bytes * fval)) : list bytes * list bytes :=
           match l with
           | [] => ([], [])
           | (_, x) :: l' => let a := node_ids x in let b := go l' in
                             (fst a ++ fst b, snd a ++ snd b)
           end) l in
      (fvals_id c :: fst r, fval_id n :: snd r)
  end.
(** lens/types.go:222-256. *)
Definition fv_ids (fv : fvals) : list bytes * list bytes :=
  let rs := map (fun e => node_ids (snd e)) (olist fv) in
  (fvals_id fv :: concat (map fst rs), concat (map snd rs)).

(** All call frames in the order they are visited (types.go:245-256). *)
Definition all_frames (tr : tresult) : list cframe :=
  concat (map snd (olist (tr_callers tr))) ++ concat (map snd (olist (tr_ext tr))).
(** lens/types.go:222-256. *)
Definition fv_counted (tr : tresult) : list bytes :=
  concat (map (fun f => fst (fv_ids (cf_fields f))) (all_frames tr)).
(** lens/types.go:222-256. *)
Definition node_counted (tr : tresult) : list bytes :=
  concat (map (fun f => snd (fv_ids (cf_fields f))) (all_frames tr)).
(** lens/types.go:222-256. *)
Definition st_counted (tr : tresult) : list bytes :=
  map (fun f => any_key (cf_stack f)) (all_frames tr).

(** [freq[key]] and [hasDup] (types.go:198-205). *)
Definition freq (ids : list bytes) (key : bytes) : nat := count_occ bytes_eq_dec ids key.
(** hasDup, lens/types.go:198-205. *)
Definition has_dup (ids : list bytes) : bool := existsb (fun k => (1 <? freq ids k)%nat) ids.

(** *** Encoding state: the dictionaries and their index maps, nil when nothing
    repeats (types.go:259-274). *)
Record est := Est {
  e_fvi : option (amap nat); e_fvd : list encfvs;
  e_ni : option (amap nat); e_nd : list encfv }.

(** [dict[pos] = x] (types.go:300, 339). *)
Fixpoint upd {A} (l : list A) (pos : nat) (x : A) : list A :=
  match l, pos with
  | [], _ => []
  | _ :: l', O => x :: l'
  | y :: l', S p => y :: upd l' p x
  end.

Section Encode.
(** lens/types.go:222-256, used at lens/types.go:283-330. *)
Variables fvc nc : bytes -> nat.   (* fvCount, fvnCount *)

(** [encodeFV] on a non-nil map (types.go:283-310), given how to encode its
    entries. *)
Definition enc_fv_with (run : est -> list (bytes * encfv) * est) (key : bytes) (s : est)
  : encfvs * option nat * est :=
  match (match e_fvi s with Some m => if (1 <? fvc key)%nat then Some m else None | None => None end) with
  | Some m =>
      match mget key m with
      | Some pos => (None, Some pos, s)
      | None =>
          let pos := length (e_fvd s) in
          let s1 := Est (Some (mset key pos m)) (e_fvd s ++ [None]) (e_ni s) (e_nd s) in
          let '(l, s2) := run s1 in
          (None, Some pos, Est (e_fvi s2) (upd (e_fvd s2) pos (Some l)) (e_ni s2) (e_nd s2))
      end
  | None => let '(l, s1) := run s in (Some l, None, s1)
  end.

(** [encodeNode] (types.go:312-354). *)
Fixpoint enc_node (n : fval) (s : est) {struct n} : encfv * est :=
  let '(FVal v c) := n in
  let inline (s : est) : encfv * est :=   (* types.go:329-337, 344-352 *)
    match c with
    | None | Some [] => (EFV None v None None, s)
    | Some l =>
        let run := (fix go (l : list (bytes * fval)) (s : est) : list (bytes * encfv) * est :=
          match l with
          | [] => ([], s)
          | (k, x) :: l' =>
              let '(e, s1) := enc_node x s in
              let '(es, s2) := go l' s1 in ((k, e) :: es, s2)
          end) l in
        let '(cvl, ci, s') := enc_fv_with run (fvals_id c) s in
        match ci with
        | Some i => (EFV None v (Some i) None, s')
        | None => (EFV None v None cvl, s')
        end
    end in
  let key := fval_id n in
  match (match e_ni s with Some m => if (1 <? nc key)%nat then Some m else None | None => None end) with
  | Some m =>
      match mget key m with
      | Some pos => (EFV (Some pos) [] None None, s)
      | None =>
          let pos := length (e_nd s) in
          let s1 := Est (e_fvi s) (e_fvd s) (Some (mset key pos m)) (e_nd s ++ [EFV None [] None None]) in
          let '(ef, s2) := inline s1 in
          (EFV (Some pos) [] None None, Est (e_fvi s2) (e_fvd s2) (e_ni s2) (upd (e_nd s2) pos ef))
      end
  | None => inline s
  end.

(** The entries loop of [encodeFV] (types.go:295-298, 306-309). *)
Fixpoint enc_entries (l : list (bytes * fval)) (s : est) : list (bytes * encfv) * est :=
  match l with
  | [] => ([], s)
  | (k, x) :: l' =>
      let '(e, s1) := enc_node x s in
      let '(es, s2) := enc_entries l' s1 in ((k, e) :: es, s2)
  end.

(** [encodeFV] (types.go:279-311). *)
Definition enc_fv (src : fvals) (s : est) : encfvs * option nat * est :=
  match src with
  | None => (None, None, s)
  | Some l => enc_fv_with (enc_entries l) (fvals_id src) s
  end.

(** Stack dictionary state (types.go:271-274). *)
Record sst := Sst { s_idx : option (amap nat); s_dict : list stack }.
(** stCount, lens/types.go:271. *)
Variable stc : bytes -> nat.   (* stCount *)

(** Stack part of a frame (types.go:374-387). *)
Definition enc_stack (st : stack) (s : sst) : option nat * stack * sst :=
  let key := any_key st in
  match (match s_idx s with Some m => if (1 <? stc key)%nat then Some m else None | None => None end) with
  | Some m =>
      match mget key m with
      | Some pos => (Some pos, None, s)
      | None => let pos := length (s_dict s) in
                (Some pos, None, Sst (Some (mset key pos m)) (s_dict s ++ [st]))
      end
  | None => (None, st, s)
  end.

(** One frame (types.go:361-390). *)
Definition enc_frame (cf : cframe) (s : est * sst) : encframe * (est * sst) :=
  let '(cvl, ci, e') := enc_fv (cf_fields cf) (fst s) in
  let '(si, st, s') := enc_stack (cf_stack cf) (snd s) in
  (EFrame ci (match ci with Some _ => None | None => cvl end) si st (cf_time cf), (e', s')).

(** lens/types.go:361-390. *)
Fixpoint enc_frames (l : list cframe) (s : est * sst) : list encframe * (est * sst) :=
  match l with
  | [] => ([], s)
  | cf :: l' => let '(e, s1) := enc_frame cf s in
                let '(es, s2) := enc_frames l' s1 in (e :: es, s2)
  end.

(** [encodeCallFrames] (types.go:357-394). *)
Fixpoint enc_frame_map (l : list (bytes * list cframe)) (s : est * sst)
  : list (bytes * list encframe) * (est * sst) :=
  match l with
  | [] => ([], s)
  | (k, fs) :: l' => let '(es, s1) := enc_frames fs s in
                     let '(r, s2) := enc_frame_map l' s1 in ((k, es) :: r, s2)
  end.
End Encode.

(** *** What msgpack does to the structure: [omitempty] drops empty maps and
    slices, which then decode as nil (tags at types.go:168-195).  The byte format
    itself is the msgpack library's and is trusted. *)
Definition omit {A} (o : option (list A)) : option (list A) :=
  match o with Some [] => None | _ => o end.
(** omitempty, lens/types.go:168-195. *)
Fixpoint wire_node (e : encfv) : encfv :=
  let '(EFV ni v ci cvl) := e in
  EFV ni v ci
    (match cvl with
     | None | Some [] => None
     | Some l => Some ((fix go (l : list (bytes * encfv)) : list (bytes * encfv) :=
                          match l with [] => [] | (k, x) :: l' => (k, wire_node x) :: go l' end) l)
     end).
(** omitempty, lens/types.go:168-195. *)
Definition wire_fvs (o : encfvs) : encfvs :=   (* a dictionary slot: no omitempty *)
  option_map (map (fun e => (fst e, wire_node (snd e)))) o.
(** omitempty, lens/types.go:175-181. *)
Definition wire_frame (f : encframe) : encframe :=
  EFrame (ef_fvi f) (wire_fvs (omit (ef_fv f))) (ef_si f) (omit (ef_st f)) (ef_t f).
(** omitempty, lens/types.go:183-196. *)
Definition wire_frame_map (l : list (bytes * list encframe)) :=
  map (fun e => (fst e, map wire_frame (snd e))) l.

(** [marshalMsgpack] (types.go:221-418) up to the msgpack bytes.  [trc] is the
    result as the counting pass visits it: the same Go value, possibly in
    another map order.  The composite literal at 398-409 reads [fvDict],
    [fvnDict], [stDict] and calls [encodeCallFrames] in one expression; Go leaves
    the order of variable reads relative to calls open, the model takes the
    order the gc compiler uses (calls first). *)
Definition marshal (trc tr : tresult) : enctr :=
  let fids := fv_counted trc in let nids := node_counted trc in let sids := st_counted trc in
  let s0 := (Est (if has_dup fids then Some [] else None) []
                 (if has_dup nids then Some [] else None) [],
             Sst (if has_dup sids then Some [] else None) []) in
  let '(cr, s1) := enc_frame_map (freq fids) (freq nids) (freq sids) (olist (tr_callers tr)) s0 in
  let '(ex, s2) := enc_frame_map (freq fids) (freq nids) (freq sids) (olist (tr_ext tr)) s1 in
  EncTR (tr_ident tr) (tr_name tr)
    (Some (wire_frame_map cr)) (omit (tr_ppanics tr)) (omit (tr_mpanics tr))
    (tr_hit tr) (tr_fail tr) (omit (Some (wire_frame_map ex)))
    (map wire_fvs (e_fvd (fst s2))) (map wire_node (e_nd (fst s2))) (s_dict (snd s2)).

(** ** Decoding *)

(** lens/types.go:420-531. *)
Inductive dres (A : Type) := DOk (a : A) | DErr | DFuel.
Arguments DOk {A}. Arguments DErr {A}. Arguments DFuel {A}.
(** Early return on error, lens/types.go:420-531. *)
Definition dbind {A C} (r : dres A) (f : A -> dres C) : dres C :=
  match r with DOk a => f a | DErr => DErr | DFuel => DFuel end.
(** A loop with early return on error, lens/types.go:420-531. *)
Fixpoint dmap {A C} (f : A -> dres C) (l : list A) : dres (list C) :=
  match l with
  | [] => DOk []
  | a :: l' => dbind (f a) (fun c => dbind (dmap f l') (fun cs => DOk (c :: cs)))
  end.

(** [decodeNode] and [decodeFV] (types.go:438-480).  The recursion follows
    dictionary references, hence the fuel; [DFuel] is "not finished yet". *)
Fixpoint dec_node (fuel : nat) (fvd : list encfvs) (nd : list encfv) (e : encfv) : dres fval :=
  match fuel with
  | O => DFuel
  | S f =>
      let '(EFV ni v ci cvl) := e in
      match ni with
      | Some i => match nth_error nd i with Some e' => dec_node f fvd nd e' | None => DErr end
      | None =>
          match ci, cvl with
          | Some i, _ => dbind (dec_fv f fvd nd None (Some i)) (fun c => DOk (FVal v c))
          | None, Some l => dbind (dec_fv f fvd nd (Some l) None) (fun c => DOk (FVal v c))
          | None, None => DOk (FVal v None)
          end
      end
  end
with dec_fv (fuel : nat) (fvd : list encfvs) (nd : list encfv) (efv : encfvs) (idx : option nat)
  : dres fvals :=
  match fuel with
  | O => DFuel
  | S f =>
      match (match idx with Some i => nth_error fvd i | None => Some efv end) with
      | None => DErr
      | Some None => DOk None
      | Some (Some l) =>
          dbind (dmap (fun e => dbind (dec_node f fvd nd (snd e)) (fun n => DOk (fst e, n))) l)
                (fun r => DOk (Some r))
      end
  end.

(** One frame (types.go:487-508). *)
Definition dec_frame (fuel : nat) (t : enctr) (f : encframe) : dres cframe :=
  dbind (dec_fv fuel (et_fvdict t) (et_nodedict t) (ef_fv f) (ef_fvi f)) (fun fv =>
  match ef_si f with
  | Some i => match nth_error (et_stdict t) i with
              | Some st => DOk (CFrame fv st (ef_t f))
              | None => DErr
              end
  | None => DOk (CFrame fv (ef_st f) (ef_t f))
  end).

(** [decodeCallFrames] (types.go:483-513). *)
Definition dec_frame_map (fuel : nat) (t : enctr) (l : list (bytes * list encframe))
  : dres (list (bytes * list cframe)) :=
  dmap (fun e => dbind (dmap (dec_frame fuel t) (snd e)) (fun fs => DOk (fst e, fs))) l.

(** [UnmarshalMsgpack] (types.go:420-531) after the msgpack library's part. *)
Definition unmarshal (fuel : nat) (t : enctr) : dres tresult :=
  dbind (dec_frame_map fuel t (olist (et_callers t))) (fun cr =>
  dbind (match olist (et_ext t) with
         | [] => DOk None
         | l => dbind (dec_frame_map fuel t l) (fun m => DOk (Some m))
         end) (fun ex =>
  DOk (TResult (et_ident t) (et_name t) (Some cr) (et_ppanics t) (et_mpanics t)
         (et_hit t) (et_fail t) ex))).

End IDs.

Arguments DOk {A}. Arguments DErr {A}. Arguments DFuel {A}.
