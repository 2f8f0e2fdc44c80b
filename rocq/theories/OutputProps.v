(** The report files, the storage and the parts of an engine. *)
From Verif Require Import Base Maps UtilModel StaticModel StaticProps TypesModel ModuleModel CompareModel ReportModel ReportProps JsonModel JsonProps ChartModel ChartProps FsModel OutputModel.
From Coq Require Import Permutation Sorted.

(** ** Files *)
(** Links are followed once (FsModel): they do not point to links. *)
Definition plain (f : fsys) : Prop := forall p t, f p = Some (NLink t) -> forall u, f t <> Some (NLink u).
Lemma not_link f p : plain f -> forall u, f (resolve f p) <> Some (NLink u).
Proof. intros P u E. unfold resolve in E. destruct (f p) as [[m c|t]|] eqn:Ep; [congruence| |congruence]. exact (P p t Ep u E). Qed.
Lemma resolve_put f p m c q : plain f -> resolve (put f p m c) q = resolve f q.
Proof.
  intros P. unfold resolve at 1, put, upd. destruct (beq_spec q (resolve f p)) as [->|E]; [|reflexivity].
  pose proof (not_link f p P) as N. remember (resolve f p) as r. unfold resolve. destruct (f r) as [[? ?|t]|]; [reflexivity|destruct (N t eq_refl)|reflexivity].
Qed.
Lemma put_at f p m c : plain f -> contents (put f p m c) p = Some c.
Proof. intros P. unfold contents. rewrite resolve_put by exact P. unfold put, upd. rewrite beq_refl. reflexivity. Qed.
Lemma put_away f p m c q : plain f -> resolve f p <> resolve f q -> contents (put f p m c) q = contents f q.
Proof. intros P N. unfold contents. rewrite resolve_put by exact P. unfold put, upd. destruct (beq_spec (resolve f q) (resolve f p)); [congruence|reflexivity]. Qed.
Lemma put_other f p m c q : q <> resolve f p -> put f p m c q = f q.
Proof. intros N. unfold put, upd. destruct (beq_spec q (resolve f p)); [contradiction|reflexivity]. Qed.
Lemma put_plain f p m c : plain f -> plain (put f p m c).
Proof.
  intros P q t E u E'. unfold put, upd in E, E'. destruct (beq_spec q (resolve f p)); [discriminate|]. destruct (beq_spec t (resolve f p)); [discriminate|]. exact (P q t E u E').
Qed.

Section Proofs.
Variable num : Z -> Z.
Variable u8 trim : bytes -> bytes.
Variable text_of : jv -> option bytes.
Variable draw : pkind -> figures -> list treport -> Z -> option (Z * option bytes).
Notation write_json := (write_json num u8 text_of).
Notation write_chart := (write_chart draw).
Notation write_report := (write_report num u8 trim text_of draw).
Notation report_of := (report_of trim).
Notation picture := (picture draw).

Lemma json_frame path m f f' ok : plain f -> write_json path m f f' ok ->
  plain f' /\ (forall q, resolve f' q = resolve f q) /\ (forall q, q <> resolve f path -> f' q = f q) /\
  (ok = true -> path <> [] -> exists t, text_of (written num u8 [] m) = Some t /\ contents f' path = Some t).
Proof.
  intros P W. inversion W; subst; clear W.
  - repeat split; auto; try congruence.
  - repeat split; auto; try congruence.
  - match goal with W : write_file _ _ _ _ _ _ |- _ => inversion W; subst; clear W end.
    + repeat split; auto; try congruence.
    + split; [apply put_plain, P|]. split; [intros q; apply resolve_put, P|]. split; [intros q N; apply put_other, N|discriminate].
    + split; [apply put_plain, P|]. split; [intros q; apply resolve_put, P|]. split; [intros q N; apply put_other, N|].
      intros _ _. exists t. split; [assumption|apply put_at, P].
Qed.
Lemma chart_frame path g out f f' ok : plain f -> write_chart path g out f f' ok ->
  plain f' /\ (forall q, resolve f' q = resolve f q) /\ (forall q, q <> resolve f path -> f' q = f q) /\
  (ok = true -> exists k b, kind_of path = Some k /\ picture k g out = Some b /\ contents f' path = Some b).
Proof.
  intros P W. inversion W; subst; clear W.
  - repeat split; auto; try congruence.
  - repeat split; auto; try congruence.
  - match goal with W : write_file _ _ _ _ _ _ |- _ => inversion W; subst; clear W end.
    + repeat split; auto; try congruence.
    + split; [apply put_plain, P|]. split; [intros q; apply resolve_put, P|]. split; [intros q N; apply put_other, N|discriminate].
    + split; [apply put_plain, P|]. split; [intros q; apply resolve_put, P|]. split; [intros q N; apply put_other, N|].
      intros _. exists k, b. split; [assumption|]. split; [assumption|apply put_at, P].
Qed.
Lemma contents_same f f' q : (forall p, resolve f' p = resolve f p) -> f' (resolve f q) = f (resolve f q) -> contents f' q = contents f q.
Proof. intros R E. unfold contents. rewrite R, E. reflexivity. Qed.

(** Whatever happens, no other file is touched. *)
Theorem C76_nothing_else : forall json chart i f f' ok, plain f -> write_report json chart i f f' ok ->
  forall q, q <> resolve f json -> q <> resolve f chart -> f' q = f q.
Proof.
  intros json chart i f f' ok P W q Nj Nc. inversion W; subst; clear W.
  - match goal with W : write_json _ _ _ _ _ |- _ => apply (json_frame _ _ _ _ _ P) in W as (_ & _ & K & _) end. apply K, Nj.
  - match goal with W : write_json _ _ _ _ _ |- _ => apply (json_frame _ _ _ _ _ P) in W as (P1 & R1 & K1 & _) end.
    match goal with W : write_chart _ _ _ _ _ _ |- _ => apply (chart_frame _ _ _ _ _ _ P1) in W as (_ & _ & K2 & _) end.
    rewrite K2, K1; auto. rewrite R1. exact Nc.
Qed.

(** The charts are only touched when the JSON report is complete. *)
Theorem C76_json_first : forall json chart i f f' ok, plain f -> json <> [] -> resolve f json <> resolve f chart -> write_report json chart i f f' ok ->
  contents f' chart <> contents f chart \/ ok = true ->
  exists out ps t, in_order (in_results i) out /\ Permutation ps (flat_map perfs_of out) /\
    text_of (written num u8 [] (report_of i out ps)) = Some t /\ contents f' json = Some t.
Proof.
  intros json chart i f f' ok P Nj Nd W C. inversion W; subst; clear W.
  - exfalso. match goal with W : write_json _ _ _ _ _ |- _ => apply (json_frame _ _ _ _ _ P) in W as (_ & R & K & _) end.
    destruct C as [C|]; [|discriminate]. apply C. apply contents_same; [exact R|]. apply K. congruence.
  - match goal with W : write_json _ _ _ _ _ |- _ => apply (json_frame _ _ _ _ _ P) in W as (P1 & R1 & K1 & T) end.
    destruct (T eq_refl Nj) as (t & Et & Ct). exists out, ps, t. split; [assumption|]. split; [assumption|]. split; [assumption|].
    match goal with W : write_chart _ _ _ _ _ _ |- _ => apply (chart_frame _ _ _ _ _ _ P1) in W as (_ & R2 & K2 & _) end.
    rewrite <- Ct. apply contents_same; [exact R2|]. apply K2. rewrite !R1. exact Nd.
Qed.

(** The tests are in the order of their identifiers; with different identifiers there is one
    such order. *)
Lemma one_order l1 : forall l2, Permutation l1 l2 ->
  StronglySorted (fun a b => ble (tr_ident (rp_orig a)) (tr_ident (rp_orig b))) l1 -> StronglySorted (fun a b => ble (tr_ident (rp_orig a)) (tr_ident (rp_orig b))) l2 ->
  NoDup (map (fun r => tr_ident (rp_orig r)) l1) -> l1 = l2.
Proof.
  induction l1 as [|a l1 IH]; intros l2 P S1 S2 N; [symmetry; apply Permutation_nil, P|].
  destruct l2 as [|b l2]; [exfalso; exact (Permutation_nil_cons (Permutation_sym P))|].
  inversion S1 as [|? ? S1' F1]; subst. inversion S2 as [|? ? S2' F2]; subst. inversion N as [|? ? N1 N2]; subst.
  rewrite Forall_forall in F1, F2.
  assert (a = b) as <-.
  { destruct (Permutation_in a P (or_introl eq_refl)) as [E|Ha]; [congruence|].
    destruct (Permutation_in b (Permutation_sym P) (or_introl eq_refl)) as [E|Hb]; [congruence|].
    exfalso. apply N1. apply in_map_iff. exists b. split; [|exact Hb]. apply bleb_antisym; [apply F2, Ha|apply F1, Hb]. }
  f_equal. apply IH; auto. exact (Permutation_cons_inv P).
Qed.
Theorem C76_one_order : forall rs out out', in_order rs out -> in_order rs out' -> NoDup (map (fun r => tr_ident (rp_orig r)) rs) -> out = out'.
Proof.
  intros rs out out' [P S] [P' S'] N. apply one_order; auto.
  - etransitivity; [symmetry; exact P|exact P'].
  - eapply Permutation_NoDup; [apply Permutation_map, P|exact N].
Qed.

Lemma text_trim (m : list (bytes * amap bytes)) : forall total lines,
  field_text_from total lines (map (fun e => (fst e, map (fun x => (fst x, trim (snd x))) (snd e))) m) = field_text_from total lines m.
Proof.
  induction m as [|[k x] m IH]; intros total lines; [reflexivity|].
  cbn [map field_text_from fst snd]. destruct (1 <? lines)%nat; [reflexivity|]. rewrite IH. do 2 f_equal.
  unfold caller_text. cbn [fst snd]. assert (mkeys (map (fun y => (fst y, trim (snd y))) x) = mkeys x) as ->; [|reflexivity].
  unfold mkeys. rewrite map_map. reflexivity.
Qed.
(** Trimming the texts of field changes changes neither the figures nor the table. *)
Theorem C76_trimmed : forall i out, figures_in i (map (trimmed trim) out) = figures_in i out /\ risky (map (trimmed trim) out) = risky out.
Proof.
  intros i out. split.
  - unfold figures_in, figures_of. assert (total_times (map (trimmed trim) out) = total_times out) as ->; [|reflexivity].
    unfold total_times. rewrite !flat_map_concat_map, !map_map. reflexivity.
  - unfold risky. rewrite !flat_map_concat_map, map_map. f_equal. apply map_ext. intros r. unfold row_of, regressed, state_text, regressed, trimmed.
    cbn [rp_orig rp_post rp_fields rp_diff]. destruct (_ || _); [|reflexivity]. do 2 f_equal.
    destruct (rp_fields r) as [m|]; [|reflexivity]. cbn [trim_fields olist]. unfold field_text. rewrite map_length.
    apply text_trim.
Qed.

(** The two files agree: the charts are those of the report that the JSON file holds. *)
Theorem C76_files_agree : forall parse, (forall v t, text_of v = Some t -> parse t = Some v) -> (forall z, exact z -> num z = z) ->
  forall json chart i f f', plain f -> json <> [] -> resolve f json <> resolve f chart -> write_report json chart i f f' true ->
  (forall out ps, in_order (in_results i) out -> Permutation ps (flat_map perfs_of out) -> metrics_ok u8 (report_of i out ps)) ->
  (forall r, In r (in_results i) -> mwf (olist (rp_times r))) -> (forall out, Permutation (in_results i) out -> times_named_once out) ->
  exists t v m' k b tests, contents f' json = Some t /\ parse t = Some v /\ read_report v = Some m' /\
    contents f' chart = Some b /\ kind_of chart = Some k /\ picture k (figures_from m') tests = Some b /\
    (** the tests of the charts, against those of the file *)
    Permutation (map (trimmed trim) (in_results i)) tests /\
    map (fun r => (tr_ident (rp_orig r), tr_hit (rp_orig r), rp_diff r)) tests = map (fun d => (td_ident d, td_hits d, td_diff d)) (olist (vm_details (me_validation m'))) /\
    map (fun r => (rw_name r, rw_state r, rw_count r)) (risky tests) =
      map (fun r => (rw_name r, rw_state r, rw_count r)) (risky (map (rebuild (olist (vm_perf (me_validation m')))) (olist (vm_details (me_validation m'))))) /\
    (** and what the file says, against what was given *)
    vm_same (me_validation m') = in_same i /\ vm_diff (me_validation m') = in_diff i /\ vm_hits (me_validation m') = in_hits i /\
    mm_funcs (me_module m') = in_funcs i /\ mm_untracked (me_module m') = in_untracked i /\ vm_checks (me_validation m') = in_checks i /\
    vm_mutations (me_validation m') = in_mutations i /\ vm_squashed (me_validation m') = in_squashed i /\
    mm_changed (me_module m') = in_checked i /\
    (forall x, In x (olist (mm_reachable (me_module m'))) <-> exists c, In c (in_callers i) /\ In x (rc_changes c)) /\
    mm_reachable_count (me_module m') = Z.of_nat (length (olist (mm_reachable (me_module m')))) /\
    (forall x, In x (olist (vm_project (me_validation m'))) <-> exists c, In c (in_callers i) /\ x = rc_ident c) /\
    Permutation (map fst (in_tests i)) (olist (vm_tests (me_validation m'))) /\
    vm_generated (me_validation m') = Z.of_nat (length (filter (fun t => has_prefix (B "TestGen_") (snd t)) (in_tests i))) /\
    Permutation (flat_map perfs_of (in_results i)) (olist (vm_perf (me_validation m'))) /\
    me_time m' = in_time i /\ me_run m' = in_run i /\ me_analysis m' = in_analysis i /\ me_discovery m' = in_discovery i /\
    me_fields m' = in_fields i /\ me_mutation m' = in_mutation i /\
    (forall c, in_changed i = [c] -> mm_name (me_module m') = mc_name c /\ mm_start (me_module m') = mc_prior c /\ mm_update (me_module m') = mc_new c).
Proof.
  intros parse Hp Hn json chart i f f' P Nj Nd W Ok Wf Uniq. inversion W; subst; clear W.
  match goal with W : write_json _ _ _ _ _ |- _ => apply (json_frame _ _ _ _ _ P) in W as (P1 & R1 & K1 & T) end.
  destruct (T eq_refl Nj) as (t & Et & Ct).
  match goal with W : write_chart _ _ _ _ _ _ |- _ => apply (chart_frame _ _ _ _ _ _ P1) in W as (_ & R2 & K2 & Kc) end.
  destruct (Kc eq_refl) as (k & b & Ek & Eb & Cb).
  match goal with I : in_order _ _, Q : Permutation ps _ |- _ => pose proof (Ok _ _ I Q) as Mok; pose proof (proj1 I) as Po; rename Q into Pp end.
  set (m := report_of i out ps) in *.
  exists t, (written num u8 [] m), (norm_metrics m), k, b, (map (trimmed trim) out).
  assert (contents f' json = Some t) as Cj. { rewrite <- Ct. apply contents_same; [exact R2|]. apply K2. rewrite !R1. exact Nd. }
  assert (read_report (written num u8 [] m) = Some (norm_metrics m)) as Rd. { apply C70_read_back; [exact Hn|intros x []|exact Mok]. }
  assert (forall A (l : list A), olist (appended l) = l) as Ap by (intros A [|? ?]; reflexivity).
  split; [exact Cj|]. split; [apply Hp, Et|]. split; [exact Rd|]. split; [exact Cb|]. split; [exact Ek|].
  assert (figures_from (norm_metrics m) = figures_in i out) as Ef.
  { unfold figures_from, norm_metrics, m, OutputModel.report_of, build_metrics. cbn [me_module me_validation mm_name mm_start mm_update mm_funcs mm_reachable_count mm_untracked vm_hits vm_same vm_diff vm_mutations vm_squashed vm_perf vm_details ct_funcs ct_hits ct_untracked ct_same ct_diff ct_mutations ct_squashed option_map olist olen].
    rewrite Ap. unfold figures_in, figures_of.
    assert (total_times (map (rebuild ps) (map norm_detail (map (detail_of trim) out))) = total_times out) as ->; [|reflexivity].
    assert (forall r, In r out -> mwf (olist (rp_times r))) as Wf' by (intros r Hr; apply Wf; exact (Permutation_in r (Permutation_sym Po) Hr)).
    rewrite <- (C58_times_kept trim out ps _ Pp Wf' (Uniq out Po) (Permutation_refl _)). unfold total_times. rewrite !flat_map_concat_map, !map_map. reflexivity. }
  rewrite Ef. split; [exact Eb|]. split; [apply Permutation_map, Po|].
  split. { unfold norm_metrics, m, OutputModel.report_of, build_metrics. cbn [me_validation vm_details option_map olist]. rewrite !map_map. reflexivity. }
  split.
  { rewrite (proj2 (C76_trimmed i out)). unfold norm_metrics, m, OutputModel.report_of, build_metrics. cbn [me_validation vm_details vm_perf option_map olist].
    unfold risky. rewrite !flat_map_concat_map, !concat_map, !map_map. f_equal. apply map_ext. intros r.
    unfold row_of, rebuild, norm_detail, detail_of, regressed, state_text, regressed. cbn [rp_orig rp_post rp_fields rp_diff tr_name tr_fail td_ident td_name td_baseline td_regression td_diff td_hits td_fields].
    destruct (tr_fail (rp_orig r)), (tr_fail (rp_post r)); cbn; destruct (0 <? rp_diff r)%N; reflexivity. }
  do 9 (split; [reflexivity|]).
  split. { intros x. cbn. unfold module_idents. rewrite (proj2 (proj2 (key_set_spec _))), in_flat_map. reflexivity. }
  split; [reflexivity|].
  split. { intros x. cbn. unfold project_idents. rewrite (proj2 (proj2 (key_set_spec _))), in_map_iff. split; intros (c & A & C); exists c; auto. }
  split; [cbn; symmetry; apply bsort_perm|]. split; [reflexivity|].
  split. { cbn. rewrite Ap. etransitivity; [apply Permutation_flat_map, Po|symmetry; exact Pp]. }
  do 6 (split; [reflexivity|]). intros c Ec. unfold m, OutputModel.report_of. rewrite Ec. repeat split.
Qed.
End Proofs.
Print Assumptions C76_nothing_else.
Print Assumptions C76_json_first.
Print Assumptions C76_one_order.
Print Assumptions C76_trimmed.
Print Assumptions C76_files_agree.

(** Without a path there is no JSON report and no error; without a path for the charts (or with
    another ending) there always is one, at the very end, with the JSON report written. *)
Theorem C76_no_paths : forall num u8 trim text_of draw i f f' ok,
  (forall chart, write_report num u8 trim text_of draw [] chart i f f' ok -> plain f -> forall q, q <> resolve f chart -> f' q = f q) /\
  (forall json chart, write_report num u8 trim text_of draw json chart i f f' ok ->
    (forall stem e, In e [B ".png"; B ".jpg"; B ".jpeg"; B ".svg"] -> chart <> stem ++ e) -> ok = false).
Proof.
  intros num u8 trim text_of draw i f f' ok. split.
  - intros chart W P q N. inversion W; subst; clear W.
    + match goal with W : write_json _ _ _ _ _ _ _ _ |- _ => inversion W; subst; clear W; congruence end.
    + match goal with W : write_json _ _ _ _ _ _ _ _ |- _ => inversion W; subst; clear W; [|congruence] end.
      match goal with W : write_chart _ _ _ _ _ _ _ |- _ => apply (chart_frame _ _ _ _ _ _ _ P) in W as (_ & _ & K & _) end. apply K, N.
  - intros json chart W H. inversion W; subst; clear W; [reflexivity|].
    match goal with W : write_chart _ _ _ _ _ _ _ |- _ => inversion W; subst; clear W; try reflexivity end.
    match goal with K : kind_of _ = Some _ |- _ => unfold kind_of in K end.
    assert (forall e, In e [B ".png"; B ".jpg"; B ".jpeg"; B ".svg"] -> has_suffix e chart = false) as S.
    { intros e He. destruct (has_suffix e chart) eqn:E; [|reflexivity]. apply has_suffix_spec in E as [stem E]. destruct (H stem e He E). }
    rewrite !S in * by (cbn; tauto). discriminate.
Qed.
Print Assumptions C76_no_paths.

(** A case: two tests, one with times and changed fields. *)
Definition test76 (name : string) (fields : option (amap (amap bytes))) (ts : option (amap tchange)) (diff : N) : treport :=
  TReport (TResult (B "p." ++ B name) (B name) None None None 2 false None) (TResult (B "p." ++ B name) (B name) None None None 2 false None) fields ts 0 5 diff.
Definition rs76 : list treport :=
  [test76 "TestB" None (Some [(B "p.F", TChange 5 1 6); (B "p.G", TChange (-3) 4 1)]) 0; test76 "TestA" (Some [(B "p.F", [(B "x", B " 1 -> 2 ")])]) None 1].
Definition in76 : rinput := RInput (B "2026") 9 5 2 1 1 [Change (B "m") (B "v1") (B "v2") false []] (Some [B "m"]) 12 1 1 7
  [RCaller (B "p.F") [B "m.X"]; RCaller (B "p.G") [B "m.X"; B "m.Y"]] [(B "p.TestB", B "TestB"); (B "p.TestA", B "TestA")] 99 1 rs76 10 9.
Definition draw76 (k : pkind) (g : figures) (ts : list treport) (h : Z) : option (Z * option bytes) := Some (1000%Z, Some (fg_title g)).
(** A text of a report: the caller of its first time change. *)
Definition text76 (v : jv) : option bytes :=
  match v with
  | JObj l => match mget (B "validation") l with
              | Some (JObj w) => match mget (B "performance_changes") w with
                                 | Some (JArr (JObj p :: _)) => match mget (B "caller_ident") p with Some (JStr s) => Some s | _ => Some [] end
                                 | _ => Some [] end
              | _ => Some [] end
  | _ => Some []
  end.
Definition none76 : fsys := fun _ => None.
Lemma order76 : in_order rs76 (rev rs76).
Proof. split; [apply Permutation_rev|]. repeat constructor. Qed.
Lemma write76 text_of json chart ps t : json <> [] -> kind_of chart <> None -> Permutation ps (flat_map perfs_of (rev rs76)) ->
  text_of (written (fun z => z) (fun s => s) [] (report_of (fun s => s) in76 (rev rs76) ps)) = Some t ->
  write_report (fun z => z) (fun s => s) (fun s => s) text_of draw76 json chart in76 none76 (put (put none76 json 420 t) chart 420 (B "m@v1->v2")) true.
Proof.
  intros Nj K P E. eapply wr_chart; [exact order76|exact P|eapply wj_write; [exact Nj|exact E|apply wf_ok]|].
  destruct (kind_of chart) as [k|] eqn:Ek; [|congruence]. eapply wc_write; [exact Ek|reflexivity|apply wf_ok].
Qed.
(** The hypotheses of C76_files_agree hold of it. *)
Example C76_example :
  plain none76 /\ resolve none76 (B "r.json") <> resolve none76 (B "r.svg") /\
  (exists f', write_report (fun z => z) (fun s => s) (fun s => s) text76 draw76 (B "r.json") (B "r.svg") in76 none76 f' true /\
     contents f' (B "r.svg") = Some (B "m@v1->v2")) /\
  (forall out ps, in_order (in_results in76) out -> Permutation ps (flat_map perfs_of out) -> metrics_ok (fun s => s) (report_of (fun s => s) in76 out ps)) /\
  (forall r, In r rs76 -> mwf (olist (rp_times r))) /\ (forall out, Permutation rs76 out -> times_named_once out).
Proof.
  split; [intros p t E; discriminate|]. split; [discriminate|]. split.
  { eexists. split; [apply (write76 text76 (B "r.json") (B "r.svg") _ _ ltac:(discriminate) ltac:(discriminate) (Permutation_refl _) eq_refl)|reflexivity]. }
  assert (forall out, in_order rs76 out -> out = rev rs76) as One.
  { intros out I. apply (C76_one_order rs76 out (rev rs76) I order76). repeat constructor; cbn; intuition discriminate. }
  split; [|split].
  - intros out ps I P. rewrite (One out I) in *. cbn in P.
    assert (Forall (perf_ok (fun s => s)) ps) as Fp. { eapply Permutation_Forall; [symmetry; exact P|]. repeat constructor; cbn; try reflexivity; unfold exact; lia. }
    assert (forall l, strs_ok (fun s => s) l) as So by (intros l x _; apply Forall_forall; reflexivity).
    assert (forall z, (0 <= z <= 1000)%Z -> exact z) as Ex by (unfold exact; intros; lia).
    split; [reflexivity|]. split; [repeat constructor; apply Ex; cbn; lia|]. split.
    + repeat split; try apply So; apply Ex; vm_compute; intuition discriminate.
    + split; [apply So|]. split; [apply Ex; vm_compute; intuition discriminate|]. split; [apply So|]. split; [apply Ex; vm_compute; intuition discriminate|].
      split; [repeat constructor; apply Ex; vm_compute; intuition discriminate|]. split.
      * cbn. intros l. destruct ps as [|p0 ps0]; [discriminate|]. intros [= <-]. exact Fp.
      * intros l [= <-].
        assert (forall n, (n < 1000)%N -> (n <= 2 ^ 53)%N) as En by (intros; lia).
        repeat apply Forall_cons; [| |apply Forall_nil]; (split; [reflexivity|]); (split; [reflexivity|]); (split; [apply En; vm_compute; reflexivity|]); (split; [apply Ex; cbn; lia|]).
        -- cbn. intros m [= <-]. split; [repeat constructor; cbn; tauto|]. split; [reflexivity|]. intros k x G. cbn [mget fst snd] in G. match type of G with context [beq k ?z] => destruct (beq k z) end; [|discriminate G].
           injection G as <-. split; [repeat constructor; cbn; tauto|]. split; reflexivity.
        -- discriminate.
  - intros r [<-|[<-|[]]]; cbn; repeat constructor; cbn; intuition discriminate.
  - intros out P a r b E N x Hx. subst out. intros Ei.
    assert (NoDup (map (fun r => tr_ident (rp_orig r)) (a ++ r :: b))) as Nd.
    { eapply Permutation_NoDup; [apply Permutation_map, P|]. repeat constructor; cbn; intuition discriminate. }
    rewrite map_app in Nd. cbn [map] in Nd. apply NoDup_remove_2 in Nd. apply Nd. rewrite <- map_app, <- Ei. apply in_map_iff. exists x. split; [reflexivity|exact Hx].
Qed.
(** One path for both: nil is returned and the JSON report is gone. *)
Theorem C76_same_path_refuted : ~ forall num u8 trim text_of draw json chart i f f', plain f -> json <> [] -> write_report num u8 trim text_of draw json chart i f f' true ->
  exists out ps t, in_order (in_results i) out /\ Permutation ps (flat_map perfs_of out) /\ text_of (written num u8 [] (report_of trim i out ps)) = Some t /\ contents f' json = Some t.
Proof.
  intros H. pose proof (write76 (fun _ => Some (B "{}")) (B "r.svg") (B "r.svg") _ _ ltac:(discriminate) ltac:(discriminate) (Permutation_refl _) eq_refl) as W.
  destruct (H (fun z => z) (fun s => s) (fun s => s) _ draw76 (B "r.svg") (B "r.svg") in76 none76 _ ltac:(intros p u X; discriminate) ltac:(discriminate) W) as (out & ps & t' & _ & _ & [= <-] & C). discriminate C.
Qed.
Print Assumptions C76_same_path_refuted.
(** The time changes of a test are written in the order the map gives: two runs with the same
    results, all identifiers different, may write different reports. *)
Theorem C76_same_report_refuted : ~ forall num u8 trim text_of draw json chart i f f1 f2, plain f -> json <> [] -> resolve f json <> resolve f chart ->
  NoDup (map (fun r => tr_ident (rp_orig r)) (in_results i)) ->
  write_report num u8 trim text_of draw json chart i f f1 true -> write_report num u8 trim text_of draw json chart i f f2 true -> contents f1 json = contents f2 json.
Proof.
  intros H. pose proof (fun ps t P => write76 text76 (B "r.json") (B "r.svg") ps t ltac:(discriminate) ltac:(discriminate) P) as W.
  specialize (H (fun z => z) (fun s => s) (fun s => s) text76 draw76 (B "r.json") (B "r.svg") in76 none76 _ _ ltac:(intros p u X; discriminate) ltac:(discriminate) ltac:(discriminate)
    ltac:(repeat constructor; cbn; intuition discriminate) (W (flat_map perfs_of (rev rs76)) (B "p.F") (Permutation_refl _) eq_refl)
    (W (rev (flat_map perfs_of (rev rs76))) (B "p.G") (Permutation_sym (Permutation_rev _)) eq_refl)).
  discriminate H.
Qed.
Print Assumptions C76_same_report_refuted.

(** ** The storage *)
(** However often it is asked for and whichever attempts fail: one store is opened, all who get one
    get this one, and once it is there every call gets it. It is at the path that was set, or at the
    first path that was made up. *)
Lemma calls_kept l : forall p s, sp_store p = Some s -> storage_calls p l = (p, map (fun _ => Some s) l).
Proof.
  induction l as [|[fresh o] l IH]; intros p s E; [reflexivity|]. cbn [storage_calls map]. unfold new_storage. rewrite E. rewrite (IH p s E). reflexivity.
Qed.
Theorem C76_one_store : forall path l, (forall fresh o, In (fresh, o) l -> fresh <> []) ->
  let '(p, got) := storage_calls (SProvider path None []) l in
  (exists a b s, l = a ++ b /\ got = map (fun _ => None) a ++ map (fun _ => Some s) b /\ (forall x, In x a -> snd x = false) /\ (forall x b', b = x :: b' -> snd x = true)) /\
  (length (sp_opened p) <= 1)%nat /\
  ((exists x, In x l /\ snd x = true) -> exists s q, sp_opened p = [(s, q)] /\ (path <> [] -> q = path) /\ (path = [] -> exists o l', l = (q, o) :: l')) /\
  ((forall x, In x l -> snd x = false) -> sp_opened p = []).
Proof.
  intros path l. revert path. induction l as [|[fresh o] l IH]; intros path Hf.
  - cbn. split; [exists [], [], 0%nat; repeat split; [intros x []|intros x b' E; discriminate]|]. split; [lia|]. split; [intros (x & [] & _)|reflexivity].
  - cbn [storage_calls]. unfold new_storage. cbn [sp_store sp_path sp_opened app length]. destruct o.
    + erewrite (calls_kept l) by reflexivity. cbn [sp_opened]. split.
      { exists [], ((fresh, true) :: l), 0%nat. repeat split; [intros x []|intros x b' [= <- _]; reflexivity]. }
      split; [cbn; lia|]. split; [|intros H; specialize (H _ (or_introl eq_refl)); discriminate].
      intros _. do 2 eexists. split; [reflexivity|]. destruct path; [split; [congruence|intros _; exists true, l; reflexivity]|split; [reflexivity|discriminate]].
    + match goal with |- context [SProvider ?x None []] => set (path' := x) end.
      assert (path' <> []) as Np. { unfold path'. destruct path; [eapply Hf; left; reflexivity|discriminate]. }
      specialize (IH path' (fun a b H => Hf a b (or_intror H))).
      destruct (storage_calls (SProvider path' None []) l) as [p got]. destruct IH as ((a & b & s & -> & -> & Ha & Hb) & L & O & Z).
      split. { exists ((fresh, false) :: a), b, s. repeat split; [intros x [<-|Hx]; [reflexivity|apply Ha, Hx]|exact Hb]. }
      split; [exact L|]. split.
      * intros (x & [<-|Hx] & Ex); [discriminate|]. destruct (O (ex_intro _ x (conj Hx Ex))) as (s' & q & E & Q1 & _). exists s', q. split; [exact E|].
        rewrite (Q1 Np). unfold path'. destruct path; [split; [congruence|intros _; eexists; eexists; reflexivity]|split; [reflexivity|discriminate]].
      * intros H. apply Z. intros x Hx. apply H. right. exact Hx.
Qed.
Print Assumptions C76_one_store.
Example C76_store_example : storage_calls (SProvider [] None []) [(B "/tmp/a", false); (B "/tmp/b", true); (B "/tmp/c", true)] =
  (SProvider (B "/tmp/a") (Some 0%nat) [(0%nat, B "/tmp/a")], [None; Some 0%nat; Some 0%nat]).
Proof. reflexivity. Qed.

(** ** The parts *)
(** Each part is the one given for it, else the standard one; the cache size only belongs to the
    standard storage. *)
Definition slots {A} (e : engine A) : list (part A) :=
  [en_changes e; en_callers e; en_tests e; en_update e; en_mutation e; en_results e; fst (en_storage e); en_report e].
Theorem C76_parts : forall A cache (g : list (option A)) a b c d e f s r, g = [a; b; c; d; e; f; s; r] ->
  let n := new_engine_with cache a b c d e f s r in
  (forall k x, nth_error g k = Some (Some x) -> nth_error (slots n) k = Some (Given x)) /\
  (forall k, nth_error g k = Some None -> nth_error (slots n) k = Some Standard) /\
  (s = None -> snd (en_storage n) = cache).
Proof.
  intros A cache g a b c d e f s r -> n. unfold n. split; [|split].
  - intros k x. do 8 (destruct k as [|k]; [cbn; intros [= ->]; reflexivity|]). destruct k; discriminate.
  - intros k. do 8 (destruct k as [|k]; [cbn; intros [= ->]; reflexivity|]). destruct k; discriminate.
  - intros ->. reflexivity.
Qed.
Print Assumptions C76_parts.
Example C76_parts_example : slots (new_engine_with 64 None (Some 1%nat) None None (Some 2%nat) None None None) =
  [Standard; Given 1%nat; Standard; Standard; Given 2%nat; Standard; Standard; Standard].
Proof. reflexivity. Qed.

(** ** The hook *)
(** It is called at most once, with what the search found and is returned; without a result it is not
    called, and when it fails there is no result. *)
Theorem C76_hook : forall R (found : option R) hook, let '(res, calls) := perform_callers found hook in
  (length calls <= 1)%nat /\ (forall r, In r calls -> found = Some r) /\
  (forall r, res = Some r <-> found = Some r /\ (forall h, hook = Some h -> h r = false)) /\
  (forall h r, hook = Some h -> found = Some r -> calls = [r]).
Proof.
  intros R found hook. unfold perform_callers. destruct found as [r|]; [|cbn; repeat split; try lia; intros; try contradiction; try discriminate; destruct H; discriminate].
  destruct hook as [h|]; cbn.
  - split; [lia|]. split; [intros x [<-|[]]; reflexivity|]. split; [|congruence]. intros x. destruct (h r) eqn:E; split.
    + discriminate.
    + intros [[= <-] H]. specialize (H h eq_refl). congruence.
    + intros [= <-]. split; [reflexivity|]. intros h' [= <-]. exact E.
    + intros [[= <-] _]. reflexivity.
  - split; [lia|]. split; [intros x []|]. split; [|discriminate]. intros x. split; [intros [= <-]; split; [reflexivity|discriminate]|intros [H _]; exact H].
Qed.
Print Assumptions C76_hook.
Example C76_hook_example : perform_callers (Some 5%nat) (Some (Nat.eqb 5)) = (None, [5%nat]) /\ perform_callers (Some 5%nat) (Some (Nat.eqb 6)) = (Some 5%nat, [5%nat]).
Proof. split; reflexivity. Qed.
