(** Comparing the results of the tests before and after an update (lens/engine.go:349-610). *)
From Verif Require Import Base Maps TypesModel StableModel.

(** lens/astexec.go:30 *)
Definition hash_prefix : bytes := B "vsha1-".
(** lens/engine.go:357-362: the last four bytes, nothing for shorter texts. *)
Definition last4 (s : bytes) : bytes := if (length s <? 4)%nat then [] else skipn (length s - 4) s.

Section Diff.
(** lens/engine.go:369, 375, 378-383: Go's %q, and the unified diff library ([None]: it
    gave an error). *)
Variable quote : bytes -> bytes.
(** difflib.GetUnifiedDiffString, lens/engine.go:378-383. *)
Variable unified : bytes -> bytes -> option bytes.

(** lens/engine.go:349-388 DiffValues. *)
Definition too_large (s : bytes) : bytes := B "<VALUE TOO LARGE ..." ++ last4 s ++ B ">".
(** DiffValues, lens/engine.go:349-388. *)
Definition diff_values (v1 v2 : bytes) : bytes :=
  if beq v1 v2 then []
  else match has_prefix hash_prefix v1, has_prefix hash_prefix v2 with
  | true, true => too_large v1 ++ B " != " ++ too_large v2
  | true, false => too_large v1 ++ B " != " ++ quote v2
  | false, true => quote v1 ++ B " != " ++ too_large v2
  | false, false =>
      match unified v1 v2 with
      | Some (c :: t) => c :: t
      | _ => [ascii_of_N 9] ++ B "'" ++ v1 ++ B "'" ++ [ascii_of_N 10] ++ B "!=" ++ [ascii_of_N 10; ascii_of_N 9] ++ B "'" ++ v2 ++ B "'"
      end
  end.

Section Frames.
(** StackFramesKey(ProjectFrames(f.Stack)), lens/engine.go:434, 443. *)
Variable key : cframe -> bytes.   (* StackFramesKey of the project frames *)
(** timeMultiplier, lens/engine.go:390. *)
Variable mult : N.                (* timeMultiplier *)

(** lens/engine.go:432-450: each frame with the frame it is matched to. In the code
    this is done within the loop of [cmp_frames]; the two do not depend on each other. *)
Fixpoint partners (post : list cframe) (used : amap nat) (pre : list cframe) : list (cframe * option cframe) :=
  match pre with
  | [] => []
  | f :: fs =>
      let k := key f in
      (f, nth_error (with_key key k post) (used_at used k)) :: partners post (mset k (S (used_at used k)) used) fs
  end.

(** lens/report.go:77-81 PerformanceTimeChange, the difference in milliseconds. *)
Record tchange := TChange { tc_diff : Z; tc_pre : N; tc_post : N }.
(** lens/engine.go:404, 421-423, 439-440: What the loop over the frames of a caller
    carries. *)
Record cstate := CState {
  cs_same : N; cs_diff : N; cs_fields : amap bytes;
  cs_change : tchange; cs_last_pre : N; cs_last_post : N }.
(** lens/engine.go:421-423, 439-440: the zero values. *)
Definition cstate0 : cstate := CState 0 0 [] (TChange 0 0 0) 0 0.

(** lens/engine.go:467-491: the fields of two matched frames, by name. *)
Definition cmp_field (pre post : amap bytes) (st : cstate) (name : bytes) : cstate :=
  match mget name pre with
  | None => st
  | Some v =>
      match mget name post with
      | None => CState (cs_same st) (cs_diff st + 1) (cs_fields st) (cs_change st) (cs_last_pre st) (cs_last_post st)
      | Some w =>
          if beq v w then CState (cs_same st + 1) (cs_diff st) (cs_fields st) (cs_change st) (cs_last_pre st) (cs_last_post st)
          else CState (cs_same st) (cs_diff st + 1) (mset name (diff_values v w) (cs_fields st)) (cs_change st) (cs_last_pre st) (cs_last_post st)
      end
  end.

(** lens/engine.go:500, 516: the product is taken in 32 bits. *)
Definition mul32 (a : N) : N := ((N.max 1 a * mult) mod 2 ^ 32)%N.
(** lens/engine.go:493-533: the change kept after a pair of calls. *)
Definition cmp_time (last_pre last_post : N) (t1 t2 : N) (c : tchange) : tchange :=
  if ((0 <? t1) && (0 <? t2) && (last_pre <=? t1) && (last_post <=? t2))%N then
    let i1 := (t1 - last_pre)%N in
    let i2 := (t2 - last_post)%N in
    let d := (Z.of_N i2 - Z.of_N i1)%Z in
    if (mul32 i1 <? i2)%N then (if (tc_diff c <? d)%Z then TChange d i1 i2 else c)
    else if (mul32 i2 <? i1)%N then (if ((tc_diff c =? 0)%Z || (d <? tc_diff c)%Z)%bool then TChange d i1 i2 else c)
    else c
  else c.

(** lens/engine.go:452-537: one frame of a caller. *)
Definition cmp_frame (st : cstate) (p : cframe * option cframe) : cstate :=
  let pre := flatten (cf_fields (fst p)) in
  match snd p with
  | None => CState (cs_same st) (cs_diff st + N.of_nat (length pre)) (cs_fields st) (cs_change st) (cs_last_pre st) (cs_last_post st)
  | Some g =>
      let st1 := fold_left (cmp_field pre (flatten (cf_fields g))) (bsort (mkeys pre)) st in
      CState (cs_same st1) (cs_diff st1) (cs_fields st1)
        (cmp_time (cs_last_pre st1) (cs_last_post st1) (cf_time (fst p)) (cf_time g) (cs_change st1))
        (cf_time (fst p)) (cf_time g)
  end.
(** lens/engine.go:428-538: all frames of a caller. *)
Definition cmp_frames (pre post : list cframe) : cstate := fold_left cmp_frame (partners post [] pre) cstate0.
End Frames.

(** lens/engine.go:554-572 comparePanics, for the functions with panics before: [rest]
    are the messages after the update not matched yet; how many differ. *)
Fixpoint cmp_messages (pre rest : list bytes) : nat :=
  match pre with
  | [] => length rest
  | m :: pre' => match remove_one m rest with Some r => cmp_messages pre' r | None => S (cmp_messages pre' rest) end
  end.
(** lens/engine.go:546-573 comparePanics. *)
Definition cmp_panics (pre post : list (bytes * list bytes)) : nat :=
  (list_sum (map (fun e => cmp_messages (snd e) (match mget (fst e) post with Some l => l | None => [] end)) pre) +
   list_sum (map (fun e => match mget (fst e) pre with Some _ => 0%nat | None => length (snd e) end) post))%nat.

(** lens/report.go:94-103 TestReport. *)
Record treport := TReport {
  rp_orig : tresult; rp_post : tresult;
  rp_fields : option (amap (amap bytes)); rp_times : option (amap tchange);
  rp_regress : N; rp_same : N; rp_diff : N }.
(** lens/types.go, the zero value of TestResult (lens/engine.go:405). *)
Definition tresult0 : tresult := TResult [] [] None None None 0 false None.
(** lens/engine.go:405: The zero value, left in the slice for skipped tests. *)
Definition treport0 : treport := TReport tresult0 tresult0 None None 0 0 0.

(** lens/engine.go:588-593: what is kept of a result. *)
Definition strip (r : tresult) : tresult := TResult (tr_ident r) (tr_name r) None None None (tr_hit r) (tr_fail r) (tr_ext r).

(** lens/engine.go:421-602: the report for one test. The caller names are distinct, so
    each caller's entry is written once. *)
Definition cmp_result (key : cframe -> bytes) (mult : N) (pre post : tresult) : treport :=
  let callers := olist (tr_callers pre) in
  let states := map (fun c => (c, cmp_frames key mult (match mget c callers with Some l => l | None => [] end)
                                                     (match mget c (olist (tr_callers post)) with Some l => l | None => [] end)))
                    (bsort (mkeys callers)) in
  let sum (f : cstate -> N) := fold_right (fun s n => f (snd s) + n)%N 0%N states in
  TReport (strip pre) (strip post)
    (Some (flat_map (fun s => match cs_fields (snd s) with [] => [] | l => [(fst s, l)] end) states))
    (Some (flat_map (fun s => if (tc_diff (cs_change (snd s)) =? 0)%Z then [] else [(fst s, cs_change (snd s))]) states))
    (if negb (tr_fail pre) && tr_fail post then 1 else 0)
    (sum cs_same)
    (sum cs_diff + N.of_nat (cmp_panics (olist (tr_ppanics pre)) (olist (tr_ppanics post)))
                 + N.of_nat (cmp_panics (olist (tr_mpanics pre)) (olist (tr_mpanics post)))).

(** lens/engine.go:612-624 loadTestResult: an error, not found, or a result. *)
Inductive loaded := LErr | LNone | LSome (r : tresult).

(** lens/engine.go:404-420, 584-603: the tests stored after the update, in order. *)
Fixpoint cmp_tests (key : cframe -> bytes) (mult : N) (load_pre load_post : bytes -> loaded) (names : list bytes) : option (N * N * list treport) :=
  match names with
  | [] => Some (0, 0, [])%N
  | n :: ns =>
      match load_pre n with
      | LErr => None
      | LNone => match cmp_tests key mult load_pre load_post ns with
                 | None => None
                 | Some (s, d, rs) => Some (s, d, treport0 :: rs)
                 end
      | LSome pre =>
          match load_post n with
          | LErr | LNone => None
          | LSome post =>
              let r := cmp_result key mult pre post in
              match cmp_tests key mult load_pre load_post ns with
              | None => None
              | Some (s, d, rs) => Some (rp_same r + s, rp_diff r + d, r :: rs)%N
              end
          end
      end
  end.
(** lens/engine.go:390-616 CompareTestResults; [None] for a failed listing of keys. The
    sums are taken from the end, the error of the first failing test is the outcome. *)
Definition compare_results (key : cframe -> bytes) (mult : N) (pre_names post_names : option (list bytes))
  (load_pre load_post : bytes -> loaded) : option (N * N * list treport) :=
  match pre_names, post_names with
  | Some _, Some names => cmp_tests key mult load_pre load_post (bsort names)
  | _, _ => None
  end.
End Diff.
