(** What a key/value store must do, said without reference to any
    implementation. *)

From Verif Require Import Base Maps StorageModel.
From Coq Require Import Permutation.

(** [last_write k h]: the blob a reader of [k] must see after history [h]
    (oldest call first): look back from the end for the latest call that
    concerns [k]. *)
Fixpoint seen_from_end (k : bytes) (rh : list op) : option bytes :=
  match rh with
  | [] => None
  | Save k' b :: rh => if bytes_eq_dec k' k then Some b else seen_from_end k rh
  | Delete k' :: rh => if bytes_eq_dec k' k then None else seen_from_end k rh
  | Clear :: _ => None
  end.
Definition last_write (k : bytes) (h : list op) : option bytes := seen_from_end k (rev h).

(** [l] lists exactly the live keys starting with [p], each once. *)
Definition lists_exactly (p : bytes) (h : list op) (l : list bytes) : Prop :=
  NoDup l /\ forall k, In k l <-> (exists r, k = p ++ r) /\ last_write k h <> None.

(** Whatever order Go visits a map in, it visits each key once. *)
Definition any_order (ord : list bytes -> list bytes) : Prop :=
  forall l, Permutation (ord l) l.

(** ** Stores that behave as a map on a class of keys and blobs *)

Definition op_ok (kok bok : bytes -> Prop) (o : op) : Prop :=
  match o with
  | Save k b => kok k /\ bok b
  | Delete k => kok k
  | Clear => True
  end.

(** Started empty, the store answers every load and every listing as
    [last_write] demands, after every history of admissible calls. *)
Definition map_store {S} (st : storage S) (s0 : S) (kok bok : bytes -> Prop) : Prop :=
  forall h, Forall (op_ok kok bok) h ->
    (forall k, kok k -> sLoad st k (run st h s0) = LOk (last_write k h)) /\
    (forall p, lists_exactly p h (sList st p (run st h s0))).

(** ** Two namespaced views of one store *)

(** Neither namespace extends the other followed by a semicolon. *)
Definition separate (p q : bytes) : Prop :=
  p <> [] /\ q <> [] /\ p <> q /\
  ~ (exists r, q = p ++ B ";" ++ r) /\ ~ (exists r, p = q ++ B ";" ++ r).

(** An interleaved history: each call goes through the left or the right view. *)
Definition side := bool.
Definition left_ : side := true.
Definition right_ : side := false.
Definition two_step {S} (a b : storage S) (s : S) (o : side * op) : S :=
  if fst o then step a s (snd o) else step b s (snd o).
Definition two_run {S} (a b : storage S) (h : list (side * op)) (s : S) : S :=
  fold_left (two_step a b) h s.
(** The calls of one side, in order. *)
Definition only (w : side) (h : list (side * op)) : list op :=
  map snd (filter (fun o => Bool.eqb (fst o) w) h).

(** ** The badger store *)

(** A value the store would take for its own split marker. *)
Definition looks_like_marker (v : bytes) : Prop :=
  exists a b c : bytes,
    (a <> [] /\ b <> [] /\ c <> []) /\
    (forall x, In x (a ++ b ++ c) -> (48 <= N_of_ascii x <= 57)%N) /\
    v = B "badger_split:" ++ a ++ B ":" ++ b ++ B ":" ++ c.

(** Keys outside the reserved namespace. *)
Definition ordinary_key (k : bytes) : Prop :=
  k <> [] /\ ~ (exists r, k = B "badger_split:" ++ r).

(** Blobs the store can hold: not empty, not marker-like, and of a length a Go
    slice can have. *)
Definition ordinary_blob (b : bytes) : Prop :=
  b <> [] /\ ~ looks_like_marker b /\ (N.of_nat (length b) < 2 ^ 63)%N.

(** The calls that badger committed. *)
Definition committed (h : list (op * bool)) : list op :=
  map fst (filter snd h).

(** Least number of pieces of at most [limit] bytes. *)
Definition least_pieces (limit len parts : N) : Prop :=
  (len <= parts * limit)%N /\ (forall n, (len <= n * limit)%N -> (parts <= n)%N).
