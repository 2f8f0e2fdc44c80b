(** What C95 says about file name patterns, independent of the matcher. *)
From Verif Require Import Base Maps UtilModel UtilProps WorkModel WorkSpec.

(** A pattern of characters and stars: a star stands for any characters but slashes, any other character for itself. *)
Inductive like : bytes -> bytes -> Prop :=
| lk_nil : like [] []
| lk_char c p n : c <> "*"%char -> like p n -> like (c :: p) (c :: n)
| lk_star p a n : ~ In slash a -> like p n -> like ("*"%char :: p) (a ++ n).
(** No other special characters. *)
Definition simple (p : bytes) : Prop := ~ In "?"%char p /\ ~ In "["%char p /\ ~ In "\"%char p.
(** No special characters at all. *)
Definition plain (p : bytes) : Prop := simple p /\ ~ In "*"%char p.
(** A name as it stands in a directory. *)
Definition entry_name (n : bytes) : Prop := real_name n /\ ~ In slash n.

(** Lstat finds what directories list, directories list names, and only what is there can be listed. *)
Definition consistent (there : bytes -> bool) (names : bytes -> option (list bytes)) : Prop :=
  (forall es n, Forall entry_name es -> entry_name n ->
    (there (text_of (es ++ [n])) = true <-> exists l, names (text_of es) = Some l /\ In n l)) /\
  (forall es l, Forall entry_name es -> names (text_of es) = Some l -> there (text_of es) = true /\ Forall entry_name l).
