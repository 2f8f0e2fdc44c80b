(** The store on disk from opening to closing (lens/storage.go:92-94, 158-160, 172-238, 418-421), its default place (lens/engine.go:627-647), and the
    branches for compression by hand (lens/storage.go:241-244, 289, 352-355 with lens/compress.go:11-37).  Definitions only. *)
From Verif Require Import Base Maps StorageModel.

(** ** Files *)
(** A path as its components, cleaned and absolute (lens/storage.go:180, 420). *)
Definition path := list bytes.
(** lens/storage.go:180, 420: what may be at a path. *)
Inductive node := NDir | NFile (content : bytes).
(** The files and directories, lens/storage.go:180, 420. *)
Definition files := path -> option node.
(** Paths are compared by components (lens/storage.go:180, 420). *)
Fixpoint path_eqb (a b : path) : bool :=
  match a, b with
  | [], [] => true
  | x :: a', y :: b' => beq x y && path_eqb a' b'
  | _, _ => false
  end.
(** Whether [q] is [p] or below it, lens/storage.go:420. *)
Fixpoint below (p q : path) : bool :=
  match p, q with
  | [], _ => true
  | x :: p', y :: q' => beq x y && below p' q'
  | _ :: _, [] => false
  end.
(** One path changed, lens/storage.go:180. *)
Definition put (p : path) (n : option node) (f : files) : files := fun q => if path_eqb p q then n else f q.
(** os.MkdirAll(path, 0755), lens/storage.go:180: the directories on the way, in order; nothing for a file on the way. [done]: the components so far. *)
Fixpoint mkdir_all (done rest : path) (f : files) : files * bool :=
  match f done with
  | Some (NFile _) => (f, false)
  | at_ =>
      let f := match at_ with None => put done (Some NDir) f | _ => f end in
      match rest with
      | [] => (f, true)
      | x :: rest' => mkdir_all (done ++ [x]) rest' f
      end
  end.
(** os.RemoveAll(path), lens/storage.go:420, when everything below it can be removed. *)
Definition remove_all (p : path) (f : files) : files := fun q => if below p q then None else f q.

(** ** Open stores *)
(** A badgerStorage, lens/storage.go:172-175: its path, and whether its database is open. *)
Record handle := Handle { h_path : path; h_open : bool }.
(** The files and the stores opened so far, in order (lens/storage.go:178-238). *)
Record disk := Disk { d_files : files; d_handles : list handle }.
(** What happens on the disk, lens/storage.go:172-421. *)
Inductive act :=
  (** NewBadgerStorage, lens/storage.go:178-238; [ok]: what badger.Open says when the directory is not locked *)
  | AOpen (p : path) (ok : bool)
  (** the database of store [h] writes or removes one of its files, lens/storage.go:246, 295, 362, 415 *)
  | ADb (h : nat) (q : path) (n : option node)
  (** anybody else, at any time (lens/storage.go:172-421) *)
  | AOther (q : path) (n : option node)
  (** Close of store [h], lens/storage.go:418-421; also of a view of it, lens/storage.go:92-94 *)
  | AClose (h : nat).
(** Whether a store with this directory is open: badger locks its directory (lens/storage.go:214). *)
Definition locked (p : path) (l : list handle) : bool := existsb (fun h => h_open h && path_eqb p (h_path h)) l.
(** Close marks the database as closed, lens/storage.go:419. *)
Fixpoint shut (n : nat) (l : list handle) : list handle :=
  match l, n with
  | [], _ => []
  | h :: l', O => Handle (h_path h) false :: l'
  | h :: l', S n' => h :: shut n' l'
  end.
(** One act, lens/storage.go:172-421; [None]: not possible. A failed opening leaves the directories it made (180-182, 214-217). *)
Definition act_step (d : disk) (a : act) : option disk :=
  match a with
  | AOpen p ok =>
      let '(f, made) := mkdir_all [] p (d_files d) in
      if made && ok && negb (locked p (d_handles d)) then Some (Disk f (d_handles d ++ [Handle p true])) else Some (Disk f (d_handles d))
  | ADb h q n =>
      match nth_error (d_handles d) h with
      | Some (Handle p true) => if below p q && negb (path_eqb p q) then Some (Disk (put q n (d_files d)) (d_handles d)) else None
      | _ => None
      end
  | AOther q n => Some (Disk (put q n (d_files d)) (d_handles d))
  | AClose h =>
      match nth_error (d_handles d) h with
      | Some (Handle p _) => Some (Disk (remove_all p (d_files d)) (shut h (d_handles d)))
      | None => None
      end
  end.
(** lens/storage.go:172-421: acts in order. *)
Fixpoint acts (d : disk) (l : list act) : option disk :=
  match l with
  | [] => Some d
  | a :: l' => match act_step d a with Some d' => acts d' l' | None => None end
  end.

(** ** The default place *)
(** fmt.Sprintf("lens_state-%d-%s", pid, hex of the time), lens/engine.go:635-639; [hex]: strconv.FormatInt(t, 16). *)
Definition default_dir (hex : N -> bytes) (tmp : path) (pid t : N) : path := tmp ++ [B "lens_state-" ++ itoa pid ++ B "-" ++ hex t].

(** ** Compression by hand *)
Section Manual.
(** ZstdCompress(nil, _), lens/compress.go:11-26. *)
Variable compress : bytes -> bytes.
(** The frame decoder of ZstdDecompress, lens/compress.go:29-37; DecodeAll appends to its destination. *)
Variable decompress : bytes -> option bytes.
(** The writes of SaveState, lens/storage.go:240-291, with options.None: the bytes are compressed, the marker has both lengths. *)
Definition man_writes (limit : N) (key blob : bytes) : list (bytes * bytes) :=
  let stored := compress blob in
  let len := blen stored in
  if (len <=? limit)%N then [(key, stored)]
  else
    let parts := num_parts limit len in
    part_writes key stored (len / parts) (len mod parts) 0 (N.to_nat parts) 0 ++ [(key, marker parts len (blen blob))].
(** lens/storage.go:240-291 with options.None. *)
Definition man_save (limit : N) (key blob : bytes) (d : db) : db :=
  fold_left (fun d w => mset (fst w) (snd w) d) (man_writes limit key blob) (wipe_old key d).
(** ZstdDecompress(make([]byte, size), stored), lens/storage.go:352-355, lens/compress.go:29-37. *)
Definition man_decode (size : N) (stored : bytes) : lres :=
  match decompress stored with
  | Some x => LOk (Some (repeat Ascii.zero (N.to_nat size) ++ x))
  | None => LErr
  end.
(** LoadState, lens/storage.go:293-359, with options.None. *)
Definition man_load (key : bytes) (d : db) : lres :=
  match mget key d with
  | None | Some [] => LOk None
  | Some raw =>
      match split_match raw with
      | None => man_decode 0 raw
      | Some (a, b, c) =>
          match atoi_int a, atoi_int b, atoi_int c with
          | Some count, Some size, Some orig =>
              match read_parts key 0 (N.to_nat count) (repeat Ascii.zero (N.to_nat size)) 0 d with
              | LOk (Some stored) => man_decode orig stored
              | r => r
              end
          | _, _, _ => LErr
          end
      end
  end.
End Manual.
