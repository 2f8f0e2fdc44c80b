(** Model of lens/storage.go: the in-memory store, namespaced views, and the
    badger-backed store with its split of oversized values.  Definitions only.

    Blobs are byte strings by value: the copies the code makes
    ([append([]byte(nil), b...)], storage.go:110, 122) are what makes this sound.
    Each in-memory operation runs under the store's mutex (storage.go:107, 115,
    126, 134, 151), so a store is a sequential state machine. *)

From Verif Require Import Base Maps.

(** Result of [LoadState] (storage.go:24): [(blob, ok, err)]; [LPanic] is a Go
    run-time panic inside the call. *)
Inductive lres :=
| LOk (r : option bytes)
| LErr
| LPanic.

(** The [Storage] interface (storage.go:22-32) over a state type.  Simplified:
    only the successful behaviour of the mutating operations and of listing;
    transactions refused by the database are treated in [bdg_step] below.
    [ListKeys] is [ListKeysPrefix("")] in all three implementations
    (storage.go:75, 146, 409) and [Close] is left out. *)
Record storage (S : Type) := Storage {
  sSave : bytes -> bytes -> S -> S;
  sLoad : bytes -> S -> lres;
  sDelete : bytes -> S -> S;
  sList : bytes -> S -> list bytes;
  sClear : S -> S
}.
Arguments Storage {S}. Arguments sSave {S}. Arguments sLoad {S}.
Arguments sDelete {S}. Arguments sList {S}. Arguments sClear {S}.

(** [memStorage] (storage.go:96-99): a Go map from keys to blobs. *)
Definition mem := amap bytes.

(** [NewMemStorage] (storage.go:102-104). *)
Definition mem_new : mem := [].

(** [memStorage.SaveState] (storage.go:106-112). *)
Definition mem_save (key blob : bytes) (m : mem) : mem := mset key blob m.

(** [memStorage.LoadState] (storage.go:114-123). *)
Definition mem_load (key : bytes) (m : mem) : lres := LOk (mget key m).

(** [memStorage.DeleteState] (storage.go:125-131). *)
Definition mem_delete (key : bytes) (m : mem) : mem := mdel key m.

(** [memStorage.ListKeysPrefix] (storage.go:133-144).  [ord] is the order in
    which Go's [range] happens to visit the map (line 138). *)
Definition mem_list (ord : list bytes -> list bytes) (prefix : bytes) (m : mem) : list bytes :=
  filter (has_prefix prefix) (ord (mkeys m)).

(** [memStorage.Clear] (storage.go:150-156). *)
Definition mem_clear (_ : mem) : mem := [].

(** The in-memory store as a [Storage] (storage.go:96-160). *)
Definition mem_storage (ord : list bytes -> list bytes) : storage mem :=
  Storage mem_save mem_load mem_delete (mem_list ord) mem_clear.

(** [strings.TrimPrefix], used at storage.go:70. *)
Definition trim_prefix (p s : bytes) : bytes :=
  if has_prefix p s then skipn (length p) s else s.

(** [prefixStorage] (storage.go:46-90): every key gets [p] in front; [Clear]
    lists the view's keys and deletes them one after the other (79-90). *)
Definition prefix_storage {S} (p : bytes) (st : storage S) : storage S :=
  let list prefix s := map (trim_prefix p) (sList st (p ++ prefix) s) in
  let delete key s := sDelete st (p ++ key) s in
  Storage
    (fun key blob s => sSave st (p ++ key) blob s)
    (fun key s => sLoad st (p ++ key) s)
    delete
    list
    (fun s => fold_left (fun s key => delete key s) (list [] s) s).

(** [KeyPrefixStorage] (storage.go:36-44). *)
Definition key_prefix_storage {S} (st : storage S) (prefix : bytes) : storage S :=
  if beq prefix [] then st else prefix_storage (prefix ++ B ";") st.

(** ** The badger-backed store

    The database is the map of committed key/value pairs.  [db.Update] runs the
    closure on it as one atomic transaction, [db.View] reads one consistent
    version: badger's serialisable snapshots, trusted, not modelled.
    [badgerCompression] is the constant ZSTD (storage.go:165), so the manual
    compression branches (242-244, 352-355) are dead and left out. *)
Definition db := amap bytes.

(** [splitPrefixString] (storage.go:164). *)
Definition split_prefix : bytes := B "badger_split:".

(** The key of part [i]: [Sprintf("%s%s-%d", splitPrefixString, key, i)]
    (storage.go:255, 282, 335, 381). *)
Definition part_key (key : bytes) (i : N) : bytes :=
  split_prefix ++ key ++ B "-" ++ itoa i.

(** lens/storage.go:170: The longest run of decimal digits at the front of [s]; helper
    of [split_match]. *)
Fixpoint take_digits (s : bytes) : bytes * bytes :=
  match s with
  | [] => ([], [])
  | c :: s' => if is_digit c then let '(d, r) := take_digits s' in (c :: d, r) else ([], s)
  end.

(** [splitRe.FindSubmatch] (storage.go:170): the three digit groups of
    [^badger_split:(\d+):(\d+):(\d+)$]. *)
Definition split_match (v : bytes) : option (bytes * bytes * bytes) :=
  if has_prefix split_prefix v then
    let s := skipn (length split_prefix) v in
    let '(a, s) := take_digits s in
    match s with
    | c :: s => if ascii_dec c ":" then
        let '(b, s) := take_digits s in
        match s with
        | c :: s => if ascii_dec c ":" then
            let '(d, s) := take_digits s in
            match a, b, d, s with
            | _ :: _, _ :: _, _ :: _, [] => Some (a, b, d)
            | _, _, _, _ => None
            end
          else None
        | [] => None
        end
      else None
    | [] => None
    end
  else None.

(** lens/storage.go:319-330: [strconv.Atoi] on a run of digits: [None] is the range
    error (64-bit int). *)
Definition atoi_int (s : bytes) : option N :=
  match atoi s with
  | Some n => if (n <? 2 ^ 63)%N then Some n else None
  | None => None
  end.

(** [n, _ := strconv.Atoi(s)] (storage.go:253, 379): on a range error Go returns
    the largest int. *)
Definition atoi_unchecked (s : bytes) : N :=
  match atoi_int s with Some n => n | None => 2 ^ 63 - 1 end.

(** The loops deleting parts [i .. i+n-1] (storage.go:254-256, 380-384). *)
Fixpoint delete_parts (key : bytes) (i : N) (n : nat) (d : db) : db :=
  match n with
  | O => d
  | S n' => delete_parts key (i + 1) n' (mdel (part_key key i) d)
  end.

(** Removal of the parts of an old split value found under [key]
    (storage.go:250-259). *)
Definition wipe_old (key : bytes) (d : db) : db :=
  match mget key d with
  | Some val =>
      match split_match val with
      | Some (a, _, _) => delete_parts key 0 (N.to_nat (atoi_unchecked a)) d
      | None => d
      end
  | None => d
  end.

(** Number of parts (storage.go:270-273). *)
Definition num_parts (limit len : N) : N :=
  (if len mod limit =? 0 then len / limit else len / limit + 1)%N.

(** The part sizes loop (storage.go:277-281): size of part [i]. *)
Definition part_size (base rem i : N) : N := (if i <? rem then base + 1 else base)%N.

(** The loop writing parts [i .. i+n-1] from offset [off] (storage.go:277-287),
    as the list of [txn.Set] calls it makes.  The slice expression of line 283
    is taken as "drop [off], then at most [sz] bytes"; C12 shows the offsets
    never leave the blob. *)
Fixpoint part_writes (key blob : bytes) (base rem i : N) (n : nat) (off : nat)
  : list (bytes * bytes) :=
  match n with
  | O => []
  | S n' =>
      let sz := N.to_nat (part_size base rem i) in
      (part_key key i, firstn sz (skipn off blob))
        :: part_writes key blob base rem (i + 1) n' (off + sz)
  end.

(** The marker stored under the main key of a split value (storage.go:289). *)
Definition marker (parts stored orig : N) : bytes :=
  split_prefix ++ itoa parts ++ B ":" ++ itoa stored ++ B ":" ++ itoa orig.

(** All [txn.Set] calls made by a save, in order (storage.go:264-289).  [limit] is
    the variable [badgerSplitLimit] (storage.go:168). *)
Definition save_writes (limit : N) (key blob : bytes) : list (bytes * bytes) :=
  let len := blen blob in
  if (len <=? limit)%N then [(key, blob)]
  else
    let parts := num_parts limit len in
    part_writes key blob (len / parts) (len mod parts) 0 (N.to_nat parts) 0
      ++ [(key, marker parts len len)].

(** [badgerStorage.SaveState] (storage.go:240-291), the committed effect. *)
Definition bdg_save (limit : N) (key blob : bytes) (d : db) : db :=
  fold_left (fun d w => mset (fst w) (snd w) d) (save_writes limit key blob) (wipe_old key d).

(** [copy(stored[off:], v)] (storage.go:339) on the part of [stored] from [off]
    on; [None] is the slice-bounds panic when [off > len(stored)]. *)
Definition copy_at (stored : bytes) (off : nat) (v : bytes) : option bytes :=
  if (length stored <? off)%nat then None
  else Some (firstn (length stored)
               (firstn off stored ++ v ++ skipn (off + length v) stored)).

(** The loop reading parts [i .. i+n-1] (storage.go:334-345). *)
Fixpoint read_parts (key : bytes) (i : N) (n : nat) (stored : bytes) (off : nat) (d : db) : lres :=
  match n with
  | O => LOk (Some stored)
  | S n' =>
      match mget (part_key key i) d with
      | None => LErr
      | Some v =>
          match copy_at stored off v with
          | None => LPanic
          | Some stored' => read_parts key (i + 1) n' stored' (off + length v) d
          end
      end
  end.

(** [badgerStorage.LoadState] (storage.go:293-359).  The two [db.View] calls
    (295, 333) may see two different versions [d1], [d2] of the database.
    Line 304 leaves [raw] nil for an empty value, which line 310 reports as
    absent. *)
Definition bdg_load2 (key : bytes) (d1 d2 : db) : lres :=
  match mget key d1 with
  | None | Some [] => LOk None
  | Some raw =>
      match split_match raw with
      | None => LOk (Some raw)
      | Some (a, b, c) =>
          match atoi_int a, atoi_int b, atoi_int c with
          | Some count, Some size, Some _ =>
              read_parts key 0 (N.to_nat count) (repeat Ascii.zero (N.to_nat size)) 0 d2
          | _, _, _ => LErr
          end
      end
  end.

(** lens/storage.go:293-361: A load during which the database does not change. *)
Definition bdg_load (key : bytes) (d : db) : lres := bdg_load2 key d d.

(** [badgerStorage.DeleteState] (storage.go:361-389). *)
Definition bdg_delete (key : bytes) (d : db) : db :=
  match mget key d with
  | None => d
  | Some _ => mdel key (wipe_old key d)
  end.

(** [it.Seek(prefix)] then [it.ValidForPrefix] (storage.go:396) over keys in
    badger's byte order. *)
Fixpoint seek (p : bytes) (l : list bytes) : list bytes :=
  match l with
  | [] => []
  | k :: l' => if bltb k p then seek p l' else l
  end.
(** lens/storage.go:396-403. *)
Fixpoint while_prefix (p : bytes) (l : list bytes) : list bytes :=
  match l with
  | [] => []
  | k :: l' => if has_prefix p k then k :: while_prefix p l' else []
  end.

(** [badgerStorage.ListKeysPrefix] (storage.go:391-407). *)
Definition bdg_list (prefix : bytes) (d : db) : list bytes :=
  filter (fun k => negb (has_prefix split_prefix k))
         (while_prefix prefix (seek prefix (bsort (mkeys d)))).

(** [badgerStorage.Clear] (storage.go:413-416). *)
Definition bdg_clear (_ : db) : db := [].

(** The badger store as a [Storage] (storage.go:172-421). *)
Definition bdg_storage (limit : N) : storage db :=
  Storage (bdg_save limit) bdg_load bdg_delete bdg_list bdg_clear.

(** ** Histories *)

(** The mutating calls of the interface (storage.go:22-32). *)
Inductive op :=
| Save (key blob : bytes)
| Delete (key : bytes)
| Clear.

(** One successful mutating call (storage.go:22-32). *)
Definition step {S} (st : storage S) (s : S) (o : op) : S :=
  match o with
  | Save k b => sSave st k b s
  | Delete k => sDelete st k s
  | Clear => sClear st s
  end.

(** lens/storage.go:22-32: A history of successful calls, oldest first. *)
Definition run {S} (st : storage S) (h : list op) (s : S) : S :=
  fold_left (step st) h s.

(** A call on the badger store together with whether badger committed its
    transaction.  A refused transaction (empty key, key too long, transaction
    too big, disk full) is reported as an error and changes nothing
    (storage.go:246, 362: [db.Update] returns the error). *)
Definition bdg_step (limit : N) (d : db) (o : op * bool) : db :=
  if snd o then step (bdg_storage limit) d (fst o) else d.

(** lens/storage.go:240-416: A history of calls on the badger store, oldest first. *)
Definition bdg_run (limit : N) (h : list (op * bool)) (d : db) : db :=
  fold_left (bdg_step limit) h d.
