(** What a workspace designates, stated from the places paths lead to ([leads], walking
    the elements from the root) and not from the functions of the model. *)
From Verif Require Import Base Maps UtilModel UtilProps.

(** The only text of a place without superfluous elements. *)
Definition text_of (es : list bytes) : bytes := B "/" ++ join_with (B "/") es.

(** A text that filepath.Glob takes as a pattern. *)
Definition with_meta (raw : bytes) : Prop := exists c, In c raw /\ In c (B "*?[]").
(** Entries that stand for a tree. *)
Definition tree_entry (raw pre : bytes) : Prop := raw = pre ++ B "...".

(** [designates … root raw es]: the use directive [raw] of the work file in [root] stands
    for the directory at place [es].  [walk], [glob], [is_dir] and [stat_ok] are what the
    file system answers. *)
Inductive designates (stat_ok is_dir : bytes -> bool) (glob walk : bytes -> option (list bytes))
  (root : bytes) (raw : bytes) (es : list bytes) : Prop :=
| des_plain :
    (forall pre, ~ tree_entry raw pre) -> ~ with_meta raw -> leads (absolute root raw) es ->
    designates stat_ok is_dir glob walk root raw es
| des_glob at_ ms m :
    (forall pre, ~ tree_entry raw pre) -> with_meta raw ->
    (raw = at_ /\ is_abs raw = true \/ is_abs raw = false /\ exists s, leads (absolute root raw) s /\ at_ = text_of s) ->
    glob at_ = Some ms -> In m ms -> is_dir m = true -> leads m es ->
    designates stat_ok is_dir glob walk root raw es
| des_tree pre s ds d :
    tree_entry raw pre -> leads (absolute root pre) s -> walk (text_of s) = Some ds -> In d ds ->
    leads d es -> stat_ok (text_of (es ++ [B "go.mod"])) = true ->
    designates stat_ok is_dir glob walk root raw es.

(** [pat] names all packages at place [es] and below, seen from [root]: it is a directory
    followed by three dots, and cannot be taken for an import path. *)
Definition names_tree (root pat : bytes) (es : list bytes) : Prop :=
  exists base, pat = base ++ B "/..." /\ leads (absolute root (base ++ B "/")) es /\
    ((exists r, pat = B "./" ++ r) \/ (exists r, pat = B "/" ++ r)).

(** A use directive that cannot be expanded. *)
Inductive unreadable (glob walk : bytes -> option (list bytes)) (root raw : bytes) : Prop :=
| unr_glob at_ :
    (forall pre, ~ tree_entry raw pre) -> with_meta raw ->
    (raw = at_ /\ is_abs raw = true \/ is_abs raw = false /\ exists s, leads (absolute root raw) s /\ at_ = text_of s) ->
    glob at_ = None -> unreadable glob walk root raw
| unr_tree pre s :
    tree_entry raw pre -> leads (absolute root pre) s -> walk (text_of s) = None -> unreadable glob walk root raw.

(** Asked about an absolute path, the file system answers with absolute paths. *)
Definition absolute_answers (f : bytes -> option (list bytes)) : Prop :=
  forall p l q, is_abs p = true -> f p = Some l -> In q l -> is_abs q = true.
(** No tree entry is absolute. *)
Definition trees_relative (raws : list bytes) : Prop :=
  forall raw pre, In raw raws -> tree_entry raw pre -> is_abs raw = false.
