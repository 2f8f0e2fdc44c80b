(** The figures of the charts (lens/report.go:362-632, 748-769, 798-829): which numbers, texts
    and colours are handed to the charts library.  Floating point numbers are rationals here: the
    whole numbers are exact below 2^53, the rounding of divisions is left out.  Drawing is left
    to the library.  Definitions only. *)
From Coq Require Import QArith.
From Verif Require Import Base Maps UtilModel StaticModel TypesModel CompareModel ReportModel JsonModel.
Local Open Scope Z_scope.

(** lens/report.go:506, 540, 568, 594: a hundred times [a] by [b]; by zero there is no number (NaN or
    an infinity). *)
Definition percent (a b : Z) : option Q := if b =? 0 then None else Some (inject_Z (100 * a) / inject_Z b)%Q.
(** 99.9, lens/report.go:569-570, 595-596. *)
Definition almost : Q := (999 # 10)%Q.
(** lens/report.go:569-571, 595-597. *)
Definition capped (rest : Z) (p : option Q) : option Q :=
  match p with
  | Some q => Some (if (0 <? rest) && negb (Qle_bool q almost) then almost else q)
  | None => None
  end.

(** A bar: its stacked values and the number of its label. *)
(** lens/report.go:492-632. *)
Record bar := Bar { ba_values : list Z; ba_label : option Q }.

(** Module Change Impact (lens/report.go:492-507); the label's function gets the second value. *)
Definition impact (changed reachable : Z) : bar :=
  let f := changed - reachable in Bar [reachable; f] (percent (changed - f) changed).
(** Changed Module Function Coverage (lens/report.go:518-541); the label's function gets the third
    value. *)
Definition coverage (reachable hits untracked : Z) : bar :=
  let f := reachable - hits - untracked in Bar [hits; untracked; f] (percent (reachable - f) reachable).
(** Field Stability (lens/report.go:548-573). *)
Definition stability (same diff : Z) : bar := Bar [same; diff] (capped diff (percent same (same + diff))).
(** Mutations Squashed (lens/report.go:578-599). *)
Definition squashed (count killed : Z) : bar :=
  let f := count - killed in Bar [killed; f] (capped f (percent (count - f) count)).

(** ** Performance *)
(** The texts of the units (lens/report.go:426-431). *)
Inductive tunit := Millis | Seconds | Minutes.
(** lens/report.go:426-436. *)
Definition qmax (a b : Q) : Q := if Qle_bool a b then b else a.
(** lens/report.go:426-436: unit and totals in this unit. *)
Definition scaled (t : N * N) : tunit * Q * Q :=
  let pre := inject_Z (Z.of_N (fst t)) in
  let post := inject_Z (Z.of_N (snd t)) in
  if Qle_bool (qmax pre post) 2000 then (Millis, pre, post)
  else
    let pre := (pre / 1000)%Q in
    let post := (post / 1000)%Q in
    if Qle_bool (qmax pre post) 120 then (Seconds, pre, post)
    else (Minutes, (pre / 60)%Q, (post / 60)%Q).
(** The label (lens/report.go:616-627). *)
Inductive plabel := NoTime | Faster (p : Q) | Slower (p : Q).
(** lens/report.go:616-627. *)
Definition speed_label (pre post : Q) : plabel :=
  if Qeq_bool pre 0 then NoTime
  else
    let ratio := (post / pre)%Q in
    if Qle_bool post pre then Faster (100 - ratio * 100) else Slower ((1 - ratio) * 100).
(** The values of the bar (lens/report.go:604-619). *)
Definition speed_values (pre post : Q) : list Q := if Qle_bool post pre then [post; (pre - post)%Q] else [pre; (post - pre)%Q].

(** ** Axis and colours *)
(** axisUnitForMax, lens/report.go:811-829. *)
Definition axis_unit (val : Z) : Z :=
  if 8000 <=? val then 2000 else if 2000 <? val then 1000 else if 800 <=? val then 200 else if 200 <? val then 100
  else if 80 <=? val then 20 else if 20 <? val then 10 else if 10 <=? val then 2 else 1.
(** The colours of texts (lens/report.go:20-22, 807). *)
Inductive colour := Red | Orange | Green | Plain.
(** lens/report.go:798-809 firstValueSeriesRankColor; the library sums the values of the series. *)
Definition rank_colour (values : list Z) : colour :=
  let sum := fold_right Z.add 0 values in
  let first := hd 0 values in
  if 2 * first <? sum then Red else if 10 * first <? 8 * sum then Orange else Plain.
(** strings.Contains (lens/report.go:758). *)
Fixpoint is_infix (p s : bytes) : bool :=
  has_prefix p s || match s with [] => false | _ :: s' => is_infix p s' end.
(** The colour of the second column of the table (lens/report.go:755-762). *)
Definition state_colour (s : bytes) : colour :=
  if beq s (B "FAIL") then Red else if is_infix (B "FAIL") s then Orange else Green.
(** The colour of the third column (lens/report.go:763-772). *)
Definition count_colour (s : bytes) : colour :=
  if negb (beq s (B "0")) then (if (length s <? 2)%nat then Orange else Red) else Green.

(** ** The title and the file *)
(** lens/report.go:452-453: no title without a module. *)
Definition title (name start update : bytes) : bytes :=
  match name with [] => [] | _ => name ++ B "@" ++ start ++ B "->" ++ update end.
(** The kind of picture by the file name (lens/report.go:366-375). *)
Inductive pkind := PNG | JPG | SVG.
(** lens/report.go:366-375. *)
Definition kind_of (path : bytes) : option pkind :=
  if has_suffix (B ".png") path then Some PNG
  else if has_suffix (B ".jpg") path || has_suffix (B ".jpeg") path then Some JPG
  else if has_suffix (B ".svg") path then Some SVG
  else None.

Section Render.
(** renderChartsToPainter and Bytes (lens/report.go:398-412): the height of the content of a drawing
    at a height of the painter, and its bytes; [None] is an error. *)
Variable draw : Z -> option (Z * option bytes).
(** renderReportCharts (lens/report.go:393-412): the heights drawn at, and the bytes. *)
Definition render (height : Z) : list Z * option bytes :=
  match draw height with
  | None => ([height], None)
  | Some (box, b) =>
      if (box <? height - 128) || (height <? box)
      then ([height; box], match draw box with None => None | Some (_, b') => b' end)
      else ([height], b)
  end.
End Render.
(** writeReportCharts (lens/report.go:362-391): what is written to the file and whether there is
    an error; [writes] says whether os.WriteFile succeeds. *)
Definition write_charts (draw : pkind -> Z -> option (Z * option bytes)) (writes : bool) (path : bytes) : option (pkind * bytes) * bool :=
  match kind_of path with
  | None => (None, false)
  | Some k => match snd (render (draw k) 1024) with
              | None => (None, false)
              | Some b => (Some (k, b), writes)
              end
  end.

(** ** All figures *)
(** What the charts are drawn from besides the tests (lens/report.go:414-417). *)
Record figures := Figures {
  fg_title : bytes; fg_impact : bar; fg_coverage : bar; fg_stability : bar; fg_squashed : bar;
  fg_unit : tunit; fg_speed : plabel; fg_bar : list Q }.
(** lens/report.go:414-632. *)
Definition figures_of (name start update : bytes) (changed reachable hits untracked same diff : Z) (count killed : Z) (rs : list treport) : figures :=
  let '(u, pre, post) := scaled (total_times rs) in
  Figures (title name start update) (impact changed reachable) (coverage reachable hits untracked) (stability same diff) (squashed count killed)
    u (speed_label pre post) (speed_values pre post).
(** RenderReportChartsFromJson (lens/report.go:298-360): the figures of a report read from a file; the
    order of the tests does not matter for them (C71_order). *)
Definition figures_from (m : metrics) : figures :=
  let mo := me_module m in
  let v := me_validation m in
  figures_of (mm_name mo) (mm_start mo) (mm_update mo) (mm_funcs mo) (mm_reachable_count mo) (vm_hits v) (mm_untracked mo)
    (vm_same v) (vm_diff v) (vm_mutations v) (vm_squashed v)
    (map (rebuild (olist (vm_perf v))) (olist (vm_details v))).
