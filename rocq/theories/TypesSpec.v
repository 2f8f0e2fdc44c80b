(** What field trees and test results mean, independently of how they are
    encoded, hashed or flattened. *)

From Verif Require Import Base Maps TypesModel.
From Coq Require Import Permutation.

(** ** Field trees as nested finite maps *)

(** Every map in the tree has each name once (Go maps). *)
Inductive fwf : fval -> Prop :=
  fwf_intro v c : NoDup (mkeys (olist c)) ->
    (forall k x, In (k, x) (olist c) -> fwf x) -> fwf (FVal v c).
Definition fvals_wf (f : fvals) : Prop :=
  NoDup (mkeys (olist f)) /\ forall k x, In (k, x) (olist f) -> fwf x.

(** Two trees are the same when they have the same value and, name by name, the
    same children: map order and nil-versus-empty maps do not matter. *)
Inductive same_tree : fval -> fval -> Prop :=
  same_tree_intro v c1 c2 :
    (forall k a, mget k (olist c1) = Some a -> exists b, mget k (olist c2) = Some b /\ same_tree a b) ->
    (forall k b, mget k (olist c2) = Some b -> exists a, mget k (olist c1) = Some a /\ same_tree a b) ->
    same_tree (FVal v c1) (FVal v c2).
Definition same_fields (f1 f2 : fvals) : Prop :=
  (forall k a, mget k (olist f1) = Some a -> exists b, mget k (olist f2) = Some b /\ same_tree a b) /\
  (forall k b, mget k (olist f2) = Some b -> exists a, mget k (olist f1) = Some a /\ same_tree a b).

(** ** Leaves and paths *)

(** [leaf_at f path v]: following the names of [path] from [f] ends in a
    childless node with value [v]. *)
Inductive leaf_at : fvals -> list bytes -> bytes -> Prop :=
| leaf_here f k v c : mget k (olist f) = Some (FVal v c) -> olist c = [] -> leaf_at f [k] v
| leaf_below f k w c p v : mget k (olist f) = Some (FVal w c) -> leaf_at c p v ->
    leaf_at f (k :: p) v.

(** The dot-joined path. *)
Fixpoint dotted (p : list bytes) : bytes :=
  match p with
  | [] => []
  | [k] => k
  | k :: p' => k ++ B "." ++ dotted p'
  end.

(** A name that is not empty and has no dot. *)
Definition plain_name (k : bytes) : Prop := k <> [] /\ ~ In "."%char k.
Inductive names_plain : fval -> Prop :=
  names_plain_intro v c :
    (forall k x, In (k, x) (olist c) -> plain_name k /\ names_plain x) -> names_plain (FVal v c).
Definition fvals_plain (f : fvals) : Prop :=
  forall k x, In (k, x) (olist f) -> plain_name k /\ names_plain x.

(** ** Occurrence of trees in a result *)

Inductive node_in_fields : fvals -> fval -> Prop :=
| nif_here f k x : In (k, x) (olist f) -> node_in_fields f x
| nif_below f k v c x : In (k, FVal v c) (olist f) -> node_in_fields c x -> node_in_fields f x.

Inductive occurs_node (tr : tresult) : fval -> Prop :=
  on_intro cf x : In cf (all_frames tr) -> node_in_fields (cf_fields cf) x -> occurs_node tr x.
Inductive occurs_fields (tr : tresult) : fvals -> Prop :=
| of_top cf : In cf (all_frames tr) -> occurs_fields tr (cf_fields cf)
| of_node v c : occurs_node tr (FVal v c) -> occurs_fields tr c.
Inductive occurs_stack (tr : tresult) : stack -> Prop :=
  os_intro cf : In cf (all_frames tr) -> occurs_stack tr (cf_stack cf).

(** ** Equality of results *)

Definition same_list {A} (a b : option (list A)) : Prop := olist a = olist b.

Definition same_frame (a b : cframe) : Prop :=
  same_fields (cf_fields a) (cf_fields b) /\ same_list (cf_stack a) (cf_stack b) /\
  cf_time a = cf_time b.

(** Maps of call frames, key by key. *)
Definition same_frames (a b : option (list (bytes * list cframe))) : Prop :=
  forall k, match mget k (olist a), mget k (olist b) with
            | Some x, Some y => Forall2 same_frame x y
            | None, None => True
            | _, _ => False
            end.

Definition same_result (a b : tresult) : Prop :=
  tr_ident a = tr_ident b /\ tr_name a = tr_name b /\
  same_frames (tr_callers a) (tr_callers b) /\
  same_list (tr_ppanics a) (tr_ppanics b) /\ same_list (tr_mpanics a) (tr_mpanics b) /\
  tr_hit a = tr_hit b /\ tr_fail a = tr_fail b /\
  same_frames (tr_ext a) (tr_ext b).

(** The identifiers tell apart everything that differs within [tr]. *)
Definition ids_tell_apart (sha1 : bytes -> bytes) (mp : stack -> bytes) (tr : tresult) : Prop :=
  (forall a b, occurs_fields tr a -> occurs_fields tr b ->
     fvals_id sha1 a = fvals_id sha1 b -> same_fields a b) /\
  (forall a b, occurs_node tr a -> occurs_node tr b ->
     fval_id sha1 a = fval_id sha1 b -> same_tree a b) /\
  (forall a b, occurs_stack tr a -> occurs_stack tr b ->
     any_key sha1 mp a = any_key sha1 mp b -> same_list a b).

(** Nesting depth. *)
Fixpoint height (n : fval) : nat :=
  let '(FVal _ c) := n in
  S (match c with
     | None => O
     | Some l => (fix go (l : list (bytes * fval)) : nat :=
                    match l with [] => O | (_, x) :: l' => Nat.max (height x) (go l') end) l
     end).
Definition fields_height (f : fvals) : nat :=
  fold_right (fun e m => Nat.max (height (snd e)) m) O (olist f).
Definition result_height (tr : tresult) : nat :=
  fold_right (fun cf m => Nat.max (fields_height (cf_fields cf)) m) O (all_frames tr).
