(** Model of how the results of monitored test runs are keyed, filtered and
    compared for stability (lens/astexec.go:633-688, 757-806, 937-1054).
    Definitions only. *)

From Verif Require Import Base Maps UtilModel TypesModel.

(** ** Stack frames *)

(** [trimStackFile] (astexec.go:647-679) on Unix, for absolute paths; [None] is the
    panic of slicing beyond the end of [file].  An empty [project] only logs. *)
Fixpoint index_of (p s : bytes) : option nat :=
  if has_prefix p s then Some 0%nat
  else match s with [] => None | _ :: s' => option_map S (index_of p s') end.
(** trimStackFile, lens/astexec.go:647-679. *)
Definition trim_stack_file (cwd project goroot file : bytes) : option bytes :=
  if negb (beq project []) && file_within_dir cwd file project
  then Some (B "./" ++ rel (abs_elems cwd project) (abs_elems cwd file))
  else
    let trimmed :=
      if negb (beq goroot []) && file_within_dir cwd file goroot
      then let n := length goroot in
           let i := if ascii_dec (last goroot " "%char) slash then (n - 1)%nat else n in
           if (length file <? i)%nat then None else Some (skipn i file)
      else Some file in
    match trimmed with
    | None => None
    | Some f =>
        let f := match index_of (B "/pkg/mod/") f with Some i => skipn (i + 9) f | None => f end in
        Some (if has_prefix (B "./") f then skipn 1 f else f)
    end.

(** [ProjectFrames] (astexec.go:683-688). *)
Definition is_project_frame (f : sframe) : bool :=
  has_prefix (B "./") (sf_file f) && negb (has_prefix (B "./vendor/") (sf_file f)).
(** ProjectFrames, lens/astexec.go:683-688. *)
Definition project_frames (st : stack) : list sframe := filter is_project_frame (olist st).

(** [StackFramesKey] (astexec.go:633-645): the text, and its key. *)
Definition stack_text (fs : list sframe) : bytes :=
  fold_left (fun acc f => (match acc with [] => acc | _ => acc ++ B "|" end) ++ sf_file f ++ B ":" ++ sf_func f) fs [].
(** StackFramesKey, lens/astexec.go:633-645. *)
Definition stack_key (sha1 : bytes -> bytes) (fs : list sframe) : bytes := bytes_key sha1 (stack_text fs).

(** ** Fields stable between two runs *)

(** One field of [stableFieldValues] (astexec.go:1040-1050), [None] when it is
    left out. *)
Fixpoint stable_node (n1 n2 : fval) {struct n1} : option fval :=
  match n1, n2 with
  | FVal v1 c1, FVal v2 c2 =>
      match c1 with
      | None | Some [] =>
          match olist c2 with
          | [] => if beq v1 v2 then Some (FVal v1 None) else None
          | _ => None
          end
      | Some l1 =>
          match olist c2 with
          | [] => None
          | l2 =>
              let nested :=
                (fix go (l : list (bytes * fval)) : list (bytes * fval) :=
                   match l with
                   | [] => []
                   | (k, x) :: l' =>
                       match mget k l2 with
                       | Some y => match stable_node x y with Some z => (k, z) :: go l' | None => go l' end
                       | None => go l'
                       end
                   end) l1 in
              match nested with [] => None | _ => Some (FVal [] (Some nested)) end
          end
      end
  end.
(** [stableFieldValues] (astexec.go:1032-1054). *)
Definition stable_list (l1 l2 : list (bytes * fval)) : list (bytes * fval) :=
  flat_map (fun e => match mget (fst e) l2 with
                     | Some y => match stable_node (snd e) y with Some z => [(fst e, z)] | None => [] end
                     | None => []
                     end) l1.
(** stableFieldValues, lens/astexec.go:1032-1054. *)
Definition stable_fields (f1 f2 : fvals) : fvals := Some (stable_list (olist f1) (olist f2)).

(** ** Frames stable between two runs *)

(** [slices.SortStableFunc] by time (astexec.go:949-958). *)
Fixpoint ins_frame (f : cframe) (l : list cframe) : list cframe :=
  match l with [] => [f] | x :: l' => if (cf_time f <=? cf_time x)%N then f :: l else x :: ins_frame f l' end.
(** lens/astexec.go:949-958. *)
Definition sort_frames (l : list cframe) : list cframe := fold_right ins_frame [] l.

Section Frames.
(** lens/astexec.go:941-994. *)
Variable key : cframe -> bytes.   (* the key of a frame's (project) stack *)

(** lens/astexec.go:961. *)
Definition with_key (k : bytes) (l : list cframe) : list cframe := filter (fun f => beq (key f) k) l.
(** lens/astexec.go:971-994. *)
Definition stab (f g : cframe) : cframe := CFrame (stable_fields (cf_fields f) (cf_fields g)) (cf_stack f) (cf_time f).
(** lens/astexec.go:971-994. *)
Definition used_at (used : amap nat) (k : bytes) : nat := match mget k used with Some n => n | None => 0%nat end.

(** The loop over the frames of the first run (astexec.go:971-994). *)
Fixpoint common (frames2 : list cframe) (used : amap nat) (frames1 : list cframe) : list cframe :=
  match frames1 with
  | [] => []
  | f :: fs =>
      let k := key f in
      let used' := mset k (S (used_at used k)) used in
      match nth_error (with_key k frames2) (used_at used k) with
      | Some g => stab f g :: common frames2 used' fs
      | None => common frames2 used' fs
      end
  end.

(** [computeStableFrames] (astexec.go:941-999). *)
Definition stable_frames (m1 m2 : list (bytes * list cframe)) : list (bytes * list cframe) :=
  flat_map (fun e => match mget (fst e) m2 with
                     | Some fs2 => [(fst e, common (sort_frames fs2) [] (sort_frames (snd e)))]
                     | None => []
                     end) m1.
End Frames.

(** [intersectPanics] (astexec.go:1001-1017): [counts] are the messages of the
    second run not yet matched. *)
Fixpoint remove_one (x : bytes) (l : list bytes) : option (list bytes) :=
  match l with
  | [] => None
  | y :: l' => if beq x y then Some l' else option_map (cons y) (remove_one x l')
  end.
(** lens/astexec.go:1001-1017. *)
Fixpoint intersect (l1 counts : list bytes) : list bytes :=
  match l1 with
  | [] => []
  | x :: l' => match remove_one x counts with Some c => x :: intersect l' c | None => intersect l' counts end
  end.
(** lens/astexec.go:1001-1017. *)
Definition intersect_panics (m1 m2 : list (bytes * list bytes)) : list (bytes * list bytes) :=
  flat_map (fun e => match mget (fst e) m2 with
                     | Some l2 => match intersect (snd e) l2 with [] => [] | l => [(fst e, l)] end
                     | None => []
                     end) m1.

(** [testResultStableFields] (astexec.go:937-1028). *)
Definition project_key sha1 (f : cframe) : bytes := stack_key sha1 (project_frames (cf_stack f)).
(** lens/astexec.go:941-999. *)
Definition full_key sha1 (f : cframe) : bytes := stack_key sha1 (olist (cf_stack f)).
(** testResultStableFields, lens/astexec.go:937-1028. *)
Definition stable_result (sha1 : bytes -> bytes) (r1 r2 : tresult) : tresult :=
  TResult (tr_ident r1) (tr_name r1)
    (Some (stable_frames (project_key sha1) (olist (tr_callers r1)) (olist (tr_callers r2))))
    (Some (intersect_panics (olist (tr_ppanics r1)) (olist (tr_ppanics r2))))
    (Some (intersect_panics (olist (tr_mpanics r1)) (olist (tr_mpanics r2))))
    (tr_hit r1) (tr_fail r1 || tr_fail r2)
    (Some (stable_frames (full_key sha1) (olist (tr_ext r1)) (olist (tr_ext r2)))).

(** [applyStableFilter] (astexec.go:758-806) for one caller: [stable] are the
    frames of the earlier run for it ([None] when there are none), [recorded] those
    already recorded in this run. *)
Definition apply_filter (key : cframe -> bytes) (stable : option (list cframe)) (recorded : list cframe) (f : cframe) : cframe :=
  let fields :=
    match stable with
    | None => []
    | Some frames =>
        match nth_error (with_key key (key f) frames) (length (with_key key (key f) recorded)) with
        | None => []
        | Some g => filter (fun e => match mget (fst e) (olist (cf_fields g)) with Some _ => true | None => false end) (olist (cf_fields f))
        end
    end in
  CFrame (Some fields) (cf_stack f) (cf_time f).
(** Recording a sequence of frames for one caller (astexec.go:808-833); [None]
    outside the [option]: no filtering. *)
Definition record_all (key : cframe -> bytes) (stable : option (option (list cframe))) (fs : list cframe) : list cframe :=
  fold_left (fun rec f => rec ++ [match stable with None => f | Some s => apply_filter key s rec f end]) fs [].
