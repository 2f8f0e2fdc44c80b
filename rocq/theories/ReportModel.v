(** The report: root module, identifier lists, details of the tests, and the table of
    risky tests (lens/report.go). *)
From Verif Require Import Base Maps UtilModel TypesModel ModuleModel CompareModel.
From Coq Require Import Permutation.

(** ** Root module *)
(** lens/report.go:185: The zero value of ModuleChange. *)
Definition no_module : change := Change [] [] [] false [].
(** lens/report.go:185-194, the loop; [d] is directModule. *)
Fixpoint root_loop (d : change) (l : list change) : change :=
  match l with
  | [] => d
  | m :: l' =>
      if mc_indirect m then root_loop d l'
      else match mc_name d with
           | [] => root_loop m l'
           | _ => no_module
           end
  end.
(** lens/report.go:181-196 rootModule *)
Definition root_module (l : list change) : change :=
  match l with
  | [m] => m
  | _ => root_loop no_module l
  end.

(** ** Lists of identifiers *)
(** A caller as the report uses it: its identifier and those of the changed functions
    it reaches (lens/report.go:119-124). *)
Record rcaller := RCaller { rc_ident : bytes; rc_changes : list bytes }.
(** The keys of a Go map used as a set, in any order, then slices.Sort
    (lens/report.go:117-129). *)
Definition add_key (l : list bytes) (k : bytes) : list bytes := if existsb (beq k) l then l else k :: l.
(** lens/report.go:117-129. *)
Definition key_set (l : list bytes) : list bytes := bsort (fold_left add_key l []).
(** lens/report.go:119-127. *)
Definition project_idents (cs : list rcaller) : list bytes := key_set (map rc_ident cs).
(** lens/report.go:119-129. *)
Definition module_idents (cs : list rcaller) : list bytes := key_set (flat_map rc_changes cs).
(** lens/report.go:131-138: identifiers of the tests (identifier, name), sorted, and how
    many are generated. *)
Definition generated_prefix : bytes := B "TestGen_".
(** lens/report.go:131-138. *)
Definition test_idents (ts : list (bytes * bytes)) : list bytes := bsort (map fst ts).
(** lens/report.go:134-136. *)
Definition synthetic_count (ts : list (bytes * bytes)) : nat := length (filter (fun t => has_prefix generated_prefix (snd t)) ts).

(** ** Details of the tests *)
(** lens/report.go:84-92 TestDetail *)
Record detail := Detail {
  td_ident : bytes; td_name : bytes; td_baseline : bool; td_regression : bool; td_diff : N; td_hits : Z;
  td_fields : option (amap (amap bytes)) }.
(** lens/report.go:67-74 PerformanceChange *)
Record perf := Perf { pf_ident : bytes; pf_name : bytes; pf_caller : bytes; pf_diff : Z; pf_pre : N; pf_post : N }.

Section Details.
(** lens/report.go:149: strings.TrimSpace *)
Variable trim : bytes -> bytes.
(** lens/report.go:146-160: the texts of the field changes are trimmed in place. *)
Definition trim_fields (f : option (amap (amap bytes))) : option (amap (amap bytes)) :=
  match f with None => None | Some l => Some (map (fun e => (fst e, map (fun x => (fst x, trim (snd x))) (snd e))) l) end.
(** lens/report.go:146-160. *)
Definition detail_of (r : treport) : detail :=
  Detail (tr_ident (rp_orig r)) (tr_name (rp_orig r)) (tr_fail (rp_orig r)) (negb (tr_fail (rp_orig r)) && tr_fail (rp_post r))
    (rp_diff r) (tr_hit (rp_orig r)) (trim_fields (rp_fields r)).
(** lens/report.go:162-175: the time changes of a test, in the order the map gives.
    The difference is a whole number of milliseconds (C41). *)
Definition perfs_of (r : treport) : list perf :=
  map (fun e => Perf (tr_ident (rp_orig r)) (tr_name (rp_orig r)) (fst e) (tc_diff (snd e)) (tc_pre (snd e)) (tc_post (snd e))) (olist (rp_times r)).

(** lens/report.go:318-328: the time changes of the test with this identifier. *)
Definition times_of (ps : list perf) (ident : bytes) : amap tchange :=
  fold_left (fun m p => if beq (pf_ident p) ident then mset (pf_caller p) (TChange (pf_diff p) (pf_pre p) (pf_post p)) m else m) ps [].
(** lens/report.go:298-345 RenderReportChartsFromJson: the reports rebuilt from the
    details and time changes read from a JSON report. *)
Definition rebuild (ps : list perf) (d : detail) : treport :=
  TReport (TResult (td_ident d) (td_name d) None None None (td_hits d) (td_baseline d) None)
          (TResult (td_ident d) (td_name d) None None None 0 (td_regression d) None)
          (td_fields d) (Some (times_of ps (td_ident d))) 0 0 (td_diff d).
End Details.

(** ** The chart of time changes *)
(** lens/report.go:418-425. *)
Definition list_sum_N (l : list N) : N := fold_right N.add 0%N l.
(** lens/report.go:418-425: milliseconds before and after, summed over all tests
    (floating point sums, exact below 2^53). *)
Definition total_times (rs : list treport) : N * N :=
  (list_sum_N (flat_map (fun r => map (fun e => tc_pre (snd e)) (olist (rp_times r))) rs),
   list_sum_N (flat_map (fun r => map (fun e => tc_post (snd e)) (olist (rp_times r))) rs)).

(** ** The table of risky tests *)
(** Columns of a row (lens/report.go:666-671). *)
Record row := Row { rw_name : bytes; rw_state : bytes; rw_count : bytes; rw_text : bytes }.
(** lens/report.go:659-663: the text for one caller, cut at 64 bytes. *)
Definition caller_text (e : bytes * amap bytes) : bytes :=
  let s := fst e ++ B "[" ++ join_with (B "|") (bsort (mkeys (snd e))) ++ B "]" in
  if (66 <? length s)%nat then firstn 64 s ++ B ".." else s.
(** lens/report.go:646-664: at most two callers in the order the map gives, then how
    many callers are left. *)
Fixpoint field_text_from (total lines : nat) (l : list (bytes * amap bytes)) : bytes :=
  match l with
  | [] => []
  | e :: l' =>
      if (1 <? lines)%nat then [nl] ++ B "(" ++ itoa (N.of_nat (total - lines)) ++ B " more field differences)"
      else (if (0 <? lines)%nat then [nl] else []) ++ caller_text e ++ field_text_from total (S lines) l'
  end.
(** lens/report.go:646-664. *)
Definition field_text (l : list (bytes * amap bytes)) : bytes := field_text_from (length l) 0 l.

(** lens/report.go:635-673: the row of a test, when it is risky. *)
Definition regressed (r : treport) : bool := negb (tr_fail (rp_orig r)) && tr_fail (rp_post r).
(** lens/report.go:635-673. *)
Definition state_text (r : treport) : bytes :=
  if regressed r then B "FAIL" else if tr_fail (rp_orig r) then B "Baseline FAIL" else B "Pass".
(** lens/report.go:635-673. *)
Definition row_of (r : treport) : list row :=
  if regressed r || (0 <? rp_diff r)%N
  then [Row (tr_name (rp_orig r)) (state_text r) (itoa (rp_diff r)) (field_text (olist (rp_fields r)))]
  else [].
(** lens/report.go:635-673. *)
Definition risky (rs : list treport) : list row := flat_map row_of rs.

(** strconv.Atoi with errors ignored (lens/report.go:701-709): zero for what is not a
    number. Signs and numbers beyond 64 bits do not occur in these columns. *)
Definition atoi0 (s : bytes) : Z := match atoi s with Some n => Z.of_N n | None => 0%Z end.
(** lens/report.go:680-714: the order of the rows. *)
Definition cmp_rows (a b : row) : Z :=
  let ag := has_prefix generated_prefix (rw_name a) in
  let bg := has_prefix generated_prefix (rw_name b) in
  if negb (Bool.eqb ag bg) then (if ag then 1 else -1)%Z
  else
    let ar := if beq (rw_state a) (B "FAIL") then 1%Z else 0%Z in
    let br := if beq (rw_state b) (B "FAIL") then 1%Z else 0%Z in
    if negb (ar =? br)%Z then (br - ar)%Z
    else if negb (atoi0 (rw_count a) =? atoi0 (rw_count b))%Z then (atoi0 (rw_count b) - atoi0 (rw_count a))%Z
    else if negb (atoi0 (rw_text a) =? atoi0 (rw_text b))%Z then (atoi0 (rw_text b) - atoi0 (rw_text a))%Z
    else 0%Z.
(** lens/report.go:680-714: slices.SortFunc (unstable): some rearrangement in which no
    row is followed by one that compares as smaller. *)
Definition sorted_rows (rs out : list row) : Prop :=
  Permutation rs out /\ forall i j a b, (i < j)%nat -> nth_error out i = Some a -> nth_error out j = Some b -> (cmp_rows a b <= 0)%Z.
(** lens/report.go:715-717: at most bottomTableMaxRecords rows. *)
Definition max_rows : nat := 10%nat.
(** lens/report.go:635-717. *)
Definition table (rs : list treport) (out : list row) : Prop :=
  exists all, sorted_rows (risky rs) all /\ out = firstn max_rows all.
