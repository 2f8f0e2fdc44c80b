(** C45, C46, C58, C59: the risk table, the root module, reports read back, identifier lists. *)
From Verif Require Import Base Maps UtilModel TypesModel ModuleModel CompareModel ReportModel.
From Coq Require Import Permutation Sorted.

(** ** C46 *)
Lemma root_loop_direct d l : mc_name d <> [] -> (forall m, In m l -> mc_indirect m = true) -> root_loop d l = d.
Proof. induction l as [|m l IH]; intros Hd H; [reflexivity|]. cbn [root_loop]. rewrite (H m (or_introl eq_refl)). apply IH; [exact Hd|]. intros x Hx. apply H. right. exact Hx. Qed.
(** The root is the only module, or else the only direct one, and otherwise none. *)
Theorem C46_root_exact : forall l, (forall m, In m l -> mc_name m <> []) ->
  match l with
  | [m] => root_module l = m
  | _ =>
      (forall a m b, l = a ++ m :: b -> mc_indirect m = false -> (forall x, In x (a ++ b) -> mc_indirect x = true) -> root_module l = m) /\
      ((forall m, In m l -> mc_indirect m = true) -> root_module l = no_module) /\
      (forall a m b n c, l = a ++ m :: b ++ n :: c -> mc_indirect m = false -> mc_indirect n = false -> root_module l = no_module)
  end.
Proof.
  intros l Hn.
  assert ((forall a m b, l = a ++ m :: b -> mc_indirect m = false -> (forall x, In x (a ++ b) -> mc_indirect x = true) -> root_loop no_module l = m) /\
      ((forall m, In m l -> mc_indirect m = true) -> root_loop no_module l = no_module) /\
      (forall a m b n c, l = a ++ m :: b ++ n :: c -> mc_indirect m = false -> mc_indirect n = false -> root_loop no_module l = no_module)) as L.
  { assert (forall d l', mc_name d <> [] -> (exists b n c, l' = b ++ n :: c /\ mc_indirect n = false) -> root_loop d l' = no_module) as L2.
    { intros d l' Hd (b & n & c & -> & Hi). induction b as [|x b IH]; cbn [app root_loop].
      - rewrite Hi. destruct (mc_name d); [contradiction|reflexivity].
      - destruct (mc_indirect x); [exact IH|]. destruct (mc_name d); [contradiction|reflexivity]. }
    split; [|split].
    - intros a m b -> Hm Hx. induction a as [|y a IH]; cbn [app root_loop].
      + rewrite Hm. cbn [no_module mc_name]. apply root_loop_direct; [apply Hn; left; reflexivity|exact Hx].
      + rewrite (Hx y (or_introl eq_refl)). apply IH; [intros x Hx'; apply Hn; right; exact Hx'|intros x Hx'; apply Hx; right; exact Hx'].
    - intros H. clear Hn. induction l as [|m l IH]; [reflexivity|]. cbn [root_loop]. rewrite (H m (or_introl eq_refl)). apply IH. intros x Hx. apply H. right. exact Hx.
    - intros a m b n c -> Hm Hi. induction a as [|y a IH]; cbn [app root_loop].
      + rewrite Hm. cbn [no_module mc_name]. apply L2; [apply Hn; left; reflexivity|exists b, n, c; auto].
      + destruct (mc_indirect y); [apply IH; intros x Hx; apply Hn; right; exact Hx|]. cbn [no_module mc_name]. apply L2; [apply Hn; left; reflexivity|]. exists a, m, (b ++ n :: c). auto. }
  destruct l as [|m [|m2 l]]; [exact L|reflexivity|exact L].
Qed.
Print Assumptions C46_root_exact.
Example C46_example :
  let d := Change (B "a.b/c") (B "v1") (B "v2") false [] in let i := Change (B "x.y") (B "v1") (B "v3") true [] in
  root_module [i; d; i] = d /\ root_module [i; i] = no_module /\ root_module [i] = i /\ root_module [d; d] = no_module.
Proof. vm_compute. auto. Qed.
(** A module given twice is not named. *)
Theorem C46_single_direct_name_refuted : ~ forall l m, mc_name m <> [] -> In m l -> (forall x, In x l -> mc_indirect x = false -> x = m) -> root_module l = m.
Proof.
  intros H. specialize (H [Change (B "a.b") [] [] false []; Change (B "a.b") [] [] false []] (Change (B "a.b") [] [] false [])).
  specialize (H ltac:(vm_compute; discriminate) (or_introl eq_refl)). assert (no_module = Change (B "a.b") [] [] false []) as X.
  { apply H. intros x [<-|[<-|[]]] _; reflexivity. }
  vm_compute in X. discriminate.
Qed.
Print Assumptions C46_single_direct_name_refuted.

(** ** C59 *)
Lemma add_key_in l k x : In x (add_key l k) <-> In x l \/ x = k.
Proof.
  unfold add_key. destruct (existsb (beq k) l) eqn:E; [|cbn; intuition congruence].
  apply existsb_exists in E. destruct E as (y & Hy & E). destruct (beq_spec k y) as [->|]; [|discriminate]. split; [auto|intros [H| ->]; assumption].
Qed.
Lemma add_key_nodup l k : NoDup l -> NoDup (add_key l k).
Proof.
  intros H. unfold add_key. destruct (existsb (beq k) l) eqn:E; [exact H|]. constructor; [|exact H]. intros Hk.
  assert (existsb (beq k) l = true) by (apply existsb_exists; exists k; split; [exact Hk|apply beq_refl]). congruence.
Qed.
Lemma key_set_fold l : forall acc, NoDup acc -> NoDup (fold_left add_key l acc) /\ forall x, In x (fold_left add_key l acc) <-> In x acc \/ In x l.
Proof.
  induction l as [|k l IH]; intros acc H; cbn [fold_left]; [split; [exact H|intros x; cbn; tauto]|].
  destruct (IH (add_key acc k) (add_key_nodup acc k H)) as [I1 I2]. split; [exact I1|]. intros x. rewrite I2, add_key_in. cbn [In]. intuition congruence.
Qed.
Lemma key_set_spec l : NoDup (key_set l) /\ bsorted (key_set l) /\ forall x, In x (key_set l) <-> In x l.
Proof.
  unfold key_set. destruct (key_set_fold l [] (NoDup_nil _)) as [H1 H2]. split; [apply bsort_nodup, H1|]. split; [apply bsort_sorted|]. intros x. rewrite bsort_in, H2. cbn. tauto.
Qed.

(** The functions listed are sorted, without repetition, and exactly the callers of the
    project, the changed functions they reach, and the tests (each as often as given). *)
Theorem C59_lists_exact : forall cs ts,
  (NoDup (project_idents cs) /\ bsorted (project_idents cs) /\ forall x, In x (project_idents cs) <-> exists c, In c cs /\ rc_ident c = x) /\
  (NoDup (module_idents cs) /\ bsorted (module_idents cs) /\ forall x, In x (module_idents cs) <-> exists c, In c cs /\ In x (rc_changes c)) /\
  (bsorted (test_idents ts) /\ Permutation (test_idents ts) (map fst ts)) /\
  (synthetic_count ts <= length ts)%nat.
Proof.
  intros cs ts. split; [|split; [|split]].
  - destruct (key_set_spec (map rc_ident cs)) as (H1 & H2 & H3). split; [exact H1|]. split; [exact H2|]. intros x. unfold project_idents. rewrite H3, in_map_iff. split; intros (c & A & C); exists c; auto.
  - destruct (key_set_spec (flat_map rc_changes cs)) as (H1 & H2 & H3). split; [exact H1|]. split; [exact H2|]. intros x. unfold module_idents. rewrite H3, in_flat_map. reflexivity.
  - split; [apply bsort_sorted|apply bsort_perm].
  - unfold synthetic_count. induction ts as [|t ts IH]; [cbn; lia|]. cbn [filter]. destruct (has_prefix generated_prefix (snd t)); cbn [length]; lia.
Qed.
Print Assumptions C59_lists_exact.
(** So the lists do not depend on the order callers come in. *)
Theorem C59_order_irrelevant : forall cs cs', Permutation cs cs' -> project_idents cs = project_idents cs' /\ module_idents cs = module_idents cs'.
Proof.
  intros cs cs' P.
  assert (forall l l', (forall x, In x l <-> In x l') -> key_set l = key_set l') as K.
  { intros l l' H. destruct (key_set_spec l) as (A1 & A2 & A3), (key_set_spec l') as (B1 & B2 & B3). apply bsorted_unique; [exact A2|exact B2|].
    apply NoDup_Permutation; [exact A1|exact B1|]. intros x. rewrite A3, B3. apply H. }
  split; apply K; intros x.
  - split; apply Permutation_in; [|symmetry]; apply Permutation_map, P.
  - rewrite !in_flat_map. split; intros (c & Hc & Hx); exists c; (split; [|exact Hx]); [exact (Permutation_in _ P Hc)|exact (Permutation_in _ (Permutation_sym P) Hc)].
Qed.
Print Assumptions C59_order_irrelevant.
Example C59_example :
  let a := RCaller (B "p.F") [B "m.X"; B "m.A"] in let b := RCaller (B "p.A") [B "m.X"] in
  project_idents [a; b; a] = [B "p.A"; B "p.F"] /\ module_idents [a; b] = [B "m.A"; B "m.X"] /\ synthetic_count [(B "p.TestGen_1", B "TestGen_1"); (B "p.TestA", B "TestA")] = 1%nat.
Proof. vm_compute. auto. Qed.

(** ** C45 *)
Lemma atoi_acc_bad c s : In c s -> is_digit c = false -> forall k, atoi_acc k s = None.
Proof. induction s as [|x s IH]; intros Hi Hd k; [destruct Hi|]. cbn [atoi_acc]. destruct Hi as [->|Hi]; [rewrite Hd; reflexivity|]. destruct (is_digit x); [apply IH; assumption|reflexivity]. Qed.
Lemma atoi0_bad c s : In c s -> is_digit c = false -> atoi0 s = 0%Z.
Proof. intros Hi Hd. unfold atoi0, atoi. destruct s; [destruct Hi|]. rewrite (atoi_acc_bad c _ Hi Hd). reflexivity. Qed.
(** The last criterion of the comparison plays no part: the text is never a number. *)
Theorem C45_text_never_ranks : forall l, atoi0 (field_text l) = 0%Z.
Proof.
  intros [|e l]; [reflexivity|]. unfold field_text. cbn [field_text_from length Nat.ltb Nat.leb app].
  unfold caller_text. match goal with |- context [if (66 <? length ?s)%nat then _ else _] => set (t := s); destruct (66 <? length t)%nat end.
  - apply (atoi0_bad "."%char); [|reflexivity]. apply in_or_app. left. apply in_or_app. right. left. reflexivity.
  - apply (atoi0_bad "["%char); [|reflexivity]. apply in_or_app. left. unfold t. apply in_or_app. right. left. reflexivity.
Qed.
Print Assumptions C45_text_never_ranks.

(** The text of a caller with its fields is shown whole, or its first 64 bytes and two dots when more than
    two bytes are left out by that; it never has more than 66 bytes. *)
Theorem C45_text_cut : forall e, (length (caller_text e) <= 66)%nat /\
  exists shown rest, fst e ++ B "[" ++ join_with (B "|") (bsort (map fst (snd e))) ++ B "]" = shown ++ rest /\
    ((rest = [] /\ caller_text e = shown) \/ ((2 < length rest)%nat /\ length shown = 64%nat /\ caller_text e = shown ++ B "..")).
Proof.
  intros e. unfold caller_text, mkeys. match goal with |- context [if (66 <? length ?s)%nat then _ else _] => generalize s end. intros t. destruct (Nat.ltb_spec 66 (length t)) as [L|L].
  - assert (length (firstn 64 t) = 64%nat) as E by (rewrite firstn_length; lia). split; [rewrite app_length, E; cbn; lia|].
    exists (firstn 64 t), (skipn 64 t). split; [symmetry; apply firstn_skipn|]. right. split; [rewrite skipn_length; lia|]. split; [exact E|reflexivity].
  - split; [lia|]. exists t, []. split; [symmetry; apply app_nil_r|]. left. split; reflexivity.
Qed.
Print Assumptions C45_text_cut.
(** The text has a line for each of the first two callers, and one more that says how many were left out. *)
Theorem C45_text_lines : forall l, field_text l = join_with [nl]
  (map caller_text (firstn 2 l) ++ (if (2 <? length l)%nat then [B "(" ++ itoa (N.of_nat (length l - 2)) ++ B " more field differences)"] else [])).
Proof.
  intros [|a [|b [|c l]]]; unfold field_text; cbn [field_text_from firstn map length Nat.ltb Nat.leb app join_with]; [reflexivity|rewrite app_nil_r; reflexivity|rewrite app_nil_r; reflexivity|reflexivity].
Qed.
Print Assumptions C45_text_lines.
Example C45_text_example : let e := (B "p.F", [(B "b", B "1 -> 2"); (B "a", B "3 -> 4")]) in
  field_text [e; e; e; e] = B "p.F[a|b]" ++ [nl] ++ B "p.F[a|b]" ++ [nl] ++ B "(2 more field differences)" /\
  length (caller_text (B "example.com/module/internal/package.Function", [(B "b", []); (B "anotherField.with.a.long.name", [])])) = 66%nat.
Proof. vm_compute. auto. Qed.

(** The comparison is an order on rows, so sorting with it is meaningful. *)
Theorem C45_comparison_is_order : forall a b c,
  cmp_rows a a = 0%Z /\ (cmp_rows a b < 0 <-> 0 < cmp_rows b a)%Z /\
  (cmp_rows a b <= 0 -> cmp_rows b c <= 0 -> cmp_rows a c <= 0)%Z /\ (cmp_rows a b < 0 -> cmp_rows b c <= 0 -> cmp_rows a c < 0)%Z.
Proof.
  intros a b c. unfold cmp_rows.
  generalize (has_prefix generated_prefix (rw_name a)) (has_prefix generated_prefix (rw_name b)) (has_prefix generated_prefix (rw_name c)).
  generalize (beq (rw_state a) (B "FAIL")) (beq (rw_state b) (B "FAIL")) (beq (rw_state c) (B "FAIL")).
  generalize (atoi0 (rw_count a)) (atoi0 (rw_count b)) (atoi0 (rw_count c)) (atoi0 (rw_text a)) (atoi0 (rw_text b)) (atoi0 (rw_text c)).
  clear a b c. intros x y z p q r u v w g h k.
  assert (forall x y p q : Z, let e := (if negb (x =? y) then y - x else if negb (p =? q) then q - p else 0)%Z in
    (e < 0 <-> y < x \/ (x = y /\ q < p))%Z /\ (0 < e <-> x < y \/ (x = y /\ p < q))%Z) as L.
  { clear. intros x y p q. cbv zeta. destruct (Z.eqb_spec x y); destruct (Z.eqb_spec p q); cbn [negb]; lia. }
  destruct u, v, w, g, h, k; cbn [Bool.eqb negb Z.eqb Pos.eqb]; rewrite ?Z.eqb_refl; cbn [negb]; 
  pose proof (L x y p q) as [L1 L2]; pose proof (L y z q r) as [L3 L4]; pose proof (L x z p r) as [L5 L6]; pose proof (L y x q p) as [L7 L8]; cbv zeta in *;
  (split; [try reflexivity|split; [|split]]); lia.
Qed.
Print Assumptions C45_comparison_is_order.

(** Which of two tests comes first: not generated, then failing only after the update,
    then more changed fields. *)
Definition generated (r : treport) : Prop := exists s, tr_name (rp_orig r) = B "TestGen_" ++ s.
Definition now_failing (r : treport) : Prop := tr_fail (rp_orig r) = false /\ tr_fail (rp_post r) = true.
Definition ranks_before (a b : treport) : Prop :=
  (~ generated a /\ generated b) \/
  ((generated a <-> generated b) /\
   ((now_failing a /\ ~ now_failing b) \/
    ((now_failing a <-> now_failing b) /\ (rp_diff b < rp_diff a)%N))).
Definition at_risk (r : treport) : Prop := now_failing r \/ (0 < rp_diff r)%N.
Definition mkrow (r : treport) : row := Row (tr_name (rp_orig r)) (state_text r) (itoa (rp_diff r)) (field_text (olist (rp_fields r))).

Lemma regressed_spec r : regressed r = true <-> now_failing r.
Proof. unfold regressed, now_failing. destruct (tr_fail (rp_orig r)), (tr_fail (rp_post r)); cbn; intuition congruence. Qed.
Lemma state_fail r : beq (state_text r) (B "FAIL") = regressed r.
Proof. unfold state_text. destruct (regressed r); [apply beq_refl|]. destruct (tr_fail (rp_orig r)); vm_compute; reflexivity. Qed.
Lemma generated_spec r : has_prefix generated_prefix (tr_name (rp_orig r)) = true <-> generated r.
Proof. unfold generated, generated_prefix. apply has_prefix_spec. Qed.
Lemma cmp_rows_rank a b : (cmp_rows (mkrow a) (mkrow b) < 0)%Z <-> ranks_before a b.
Proof.
  unfold cmp_rows, ranks_before. cbn [mkrow rw_name rw_state rw_count rw_text]. rewrite !C45_text_never_ranks, !state_fail. unfold atoi0. rewrite !atoi_itoa.
  pose proof (generated_spec a) as Ga. pose proof (generated_spec b) as Gb. pose proof (regressed_spec a) as Ra. pose proof (regressed_spec b) as Rb.
  destruct (has_prefix generated_prefix (tr_name (rp_orig a))), (has_prefix generated_prefix (tr_name (rp_orig b))), (regressed a), (regressed b); cbn [Bool.eqb negb Z.eqb Pos.eqb];
    (assert (H1 : generated a \/ ~ generated a) by (first [left; apply Ga; reflexivity|right; intros X; apply Ga in X; discriminate]));
    (assert (H2 : generated b \/ ~ generated b) by (first [left; apply Gb; reflexivity|right; intros X; apply Gb in X; discriminate]));
    destruct (Z.eqb_spec (Z.of_N (rp_diff a)) (Z.of_N (rp_diff b))) as [E|E]; cbn [negb];
    assert (true = true) as T by reflexivity; assert (false <> true) as F by discriminate; 
    assert ((rp_diff b < rp_diff a)%N <-> (Z.of_N (rp_diff b) < Z.of_N (rp_diff a))%Z) as D by lia; rewrite D; clear D;
    generalize dependent (Z.of_N (rp_diff a)); generalize dependent (Z.of_N (rp_diff b)); intros y x E;
    generalize dependent (generated a); generalize dependent (generated b); generalize dependent (now_failing a); generalize dependent (now_failing b); intros N1 Rb N2 Ra G1 Gb H2 G2 Ga H1;
    clear - Ra Rb Ga Gb E T F; intuition lia.
Qed.

Lemma risky_rows rs : risky rs = map mkrow (filter (fun r => regressed r || (0 <? rp_diff r)%N) rs).
Proof. unfold risky, row_of. induction rs as [|r rs IH]; [reflexivity|]. cbn [flat_map filter]. destruct (regressed r || (0 <? rp_diff r)%N); cbn [map app]; rewrite IH; reflexivity. Qed.
Lemma at_risk_spec r : regressed r || (0 <? rp_diff r)%N = true <-> at_risk r.
Proof. unfold at_risk. rewrite Bool.orb_true_iff, regressed_spec, N.ltb_lt. reflexivity. Qed.

(** The table shows, with one row each, the first ten of the tests at risk: no test left
    out comes before one shown, and the rows are in order. *)
Theorem C45_table_exact : forall rs out, table rs out ->
  exists shown rest, out = map mkrow shown /\
    (exists risky, Permutation risky (shown ++ rest) /\ (forall r, In r risky -> at_risk r) /\ exists safe, Permutation rs (risky ++ safe) /\ forall r, In r safe -> ~ at_risk r) /\
    (length shown <= 10)%nat /\ (rest <> [] -> length shown = 10%nat) /\
    (forall i j a b, (i < j)%nat -> nth_error shown i = Some a -> nth_error shown j = Some b -> ~ ranks_before b a) /\
    (forall a b, In a shown -> In b rest -> ~ ranks_before b a).
Proof.
  intros rs out (all & (Hp & Hs) & ->). rewrite risky_rows in Hp. apply Permutation_sym, Permutation_map_inv in Hp. destruct Hp as (l & -> & Hp).
  exists (firstn max_rows l), (skipn max_rows l). split; [rewrite firstn_map; reflexivity|]. split.
  { exists (filter (fun r => regressed r || (0 <? rp_diff r)%N) rs). rewrite firstn_skipn. split; [exact Hp|]. split; [intros r Hr; apply filter_In in Hr; apply at_risk_spec, Hr|].
    exists (filter (fun r => negb (regressed r || (0 <? rp_diff r)%N)) rs). split.
    - clear. induction rs as [|r rs IH]; [constructor|]. cbn [filter]. destruct (regressed r || (0 <? rp_diff r)%N); cbn [negb app]; [constructor; exact IH|]. apply Permutation_cons_app, IH.
    - intros r Hr A. apply filter_In in Hr. destruct Hr as [_ Hr]. apply at_risk_spec in A. rewrite A in Hr. discriminate. }
  assert (forall i j a b, (i < j)%nat -> nth_error l i = Some a -> nth_error l j = Some b -> ~ ranks_before b a) as O.
  { intros i j a b Hij Ha Hb R. apply cmp_rows_rank in R. specialize (Hs i j (mkrow a) (mkrow b) Hij). rewrite !nth_error_map, Ha, Hb in Hs. specialize (Hs eq_refl eq_refl).
    destruct (C45_comparison_is_order (mkrow b) (mkrow a) (mkrow a)) as (_ & C & _). apply C in R. lia. }
  split; [rewrite firstn_length; unfold max_rows; lia|]. split.
  { intros Hr. rewrite firstn_length. destruct (le_lt_dec max_rows (length l)) as [L|L]; [unfold max_rows in *; lia|]. exfalso. apply Hr. apply skipn_all2. lia. }
  assert (forall k i (a : treport), nth_error (firstn k l) i = Some a -> (i < k)%nat /\ nth_error l i = Some a) as N1.
  { intros k. clear. revert k. induction l as [|x l IH]; intros k i a H; [rewrite firstn_nil in H; destruct i; discriminate|]. destruct k as [|k]; [destruct i; discriminate|]. destruct i as [|i]; cbn in *; [split; [lia|exact H]|]. destruct (IH k i a H). split; [lia|assumption]. }
  split.
  - intros i j a b Hij Ha Hb. apply N1 in Ha, Hb. exact (O i j a b Hij (proj2 Ha) (proj2 Hb)).
  - intros a b Ha Hb. apply In_nth_error in Ha, Hb. destruct Ha as [i Ha], Hb as [j Hb]. apply N1 in Ha. destruct Ha as [Hi Ha].
    assert (nth_error l (max_rows + j) = Some b) as Hb'.
    { rewrite <- Hb. clear. revert l. generalize max_rows. induction n as [|n IH]; intros l; [reflexivity|]. destruct l as [|x l]; [destruct j; reflexivity|]. apply IH. }
    apply (O i (max_rows + j)%nat a b); [lia|exact Ha|exact Hb'].
Qed.
Print Assumptions C45_table_exact.

(** There always is such a table. *)
Fixpoint ins_row (r : row) (l : list row) : list row := match l with [] => [r] | x :: l' => if (cmp_rows r x <=? 0)%Z then r :: l else x :: ins_row r l' end.
Theorem C45_table_exists : forall rs, exists out, table rs out.
Proof.
  intros rs. unfold table. assert (forall l, exists all, sorted_rows l all) as L; [|destruct (L (risky rs)) as [all H]; exists (firstn max_rows all), all; auto].
  assert (forall l, exists all, Permutation l all /\ StronglySorted (fun a b => cmp_rows a b <= 0)%Z all) as L.
  { induction l as [|r l IH]; [exists []; split; constructor|]. destruct IH as (all & P & S). exists (ins_row r all). split.
    - transitivity (r :: all); [constructor; exact P|]. clear. induction all as [|x all IH]; [reflexivity|]. cbn [ins_row]. destruct (cmp_rows r x <=? 0)%Z; [reflexivity|]. etransitivity; [apply perm_swap|]. constructor. exact IH.
    - clear P. induction S as [|x all S IH F]; cbn [ins_row]; [repeat constructor|]. destruct (Z.leb_spec (cmp_rows r x) 0) as [E|E].
      + constructor; [constructor; assumption|]. constructor; [exact E|]. rewrite Forall_forall in *. intros y Hy. destruct (C45_comparison_is_order r x y) as (_ & _ & T & _). exact (T E (F y Hy)).
      + constructor; [exact IH|]. assert (cmp_rows x r <= 0)%Z as Exr by (destruct (C45_comparison_is_order x r r) as (_ & C & _); lia). clear - F Exr. induction F as [|y l Hy F IH]; cbn [ins_row]; [repeat constructor; exact Exr|].
        destruct (cmp_rows r y <=? 0)%Z; constructor; try assumption. constructor; assumption. }
  intros l. destruct (L l) as (all & P & S). exists all. split; [exact P|]. clear P. induction S as [|x all S IH F]; intros i j a b Hij Ha Hb; [destruct i; discriminate|].
  destruct i as [|i], j as [|j]; [lia| |lia|].
  - cbn in Ha, Hb. injection Ha as <-. rewrite Forall_forall in F. apply F. exact (nth_error_In _ _ Hb).
  - apply (IH i j a b); [lia|exact Ha|exact Hb].
Qed.
Print Assumptions C45_table_exists.

(** Reports for the examples. *)
Definition rep45 (name : string) (before after : bool) (diff : N) (fields : amap (amap bytes)) : treport :=
  TReport (TResult (B "p." ++ B name) (B name) None None None 0 before None) (TResult (B "p." ++ B name) (B name) None None None 0 after None) (Some fields) (Some []) 0 0 diff.
Example C45_example :
  let g := rep45 "TestGen_A" false true 9 [] in let a := rep45 "TestA" false false 3 [(B "p.F", [(B "x", B "1"); (B "a", B "2")])] in
  let b := rep45 "TestB" false true 0 [] in let s := rep45 "TestS" true true 0 [] in
  table [g; a; s; b] [Row (B "TestB") (B "FAIL") (B "0") []; Row (B "TestA") (B "Pass") (B "3") (B "p.F[a|x]"); Row (B "TestGen_A") (B "FAIL") (B "9") []].
Proof.
  cbv zeta. match goal with |- table _ ?o => exists o end. split; [|reflexivity]. split.
  - vm_compute. apply Permutation_sym. etransitivity; [apply perm_skip, perm_swap|]. etransitivity; [apply perm_swap|]. apply perm_skip, perm_swap.
  - intros i j a b Hij Ha Hb. destruct i as [|[|[|i]]]; destruct j as [|[|[|j]]]; try lia; cbn in Ha, Hb; try discriminate; try (destruct i; discriminate); try (destruct j; discriminate);
      injection Ha as <-; injection Hb as <-; vm_compute; discriminate.
Qed.

(** Tests of the same rank may come in any order: the same results can give different
    tables, and show different tests when there are more than ten. *)
Theorem C45_table_determined_refuted : exists rs out1 out2, table rs out1 /\ table rs out2 /\ out1 <> out2.
Proof.
  exists [rep45 "TestA" false true 1 []; rep45 "TestB" false true 1 []].
  set (ra := Row (B "TestA") (B "FAIL") (B "1") []). set (rb := Row (B "TestB") (B "FAIL") (B "1") []).
  assert (risky [rep45 "TestA" false true 1 []; rep45 "TestB" false true 1 []] = [ra; rb]) as E by (vm_compute; reflexivity).
  assert (forall x y, In x [ra; rb] -> In y [ra; rb] -> (cmp_rows x y <= 0)%Z) as O by (intros x y [<-|[<-|[]]] [<-|[<-|[]]]; vm_compute; discriminate).
  exists [ra; rb], [rb; ra]. split; [|split; [|unfold ra, rb; vm_compute; discriminate]].
  - exists [ra; rb]. split; [|reflexivity]. split; [rewrite E; reflexivity|]. intros i j a b _ Ha Hb. apply O; eapply nth_error_In; eassumption.
  - exists [rb; ra]. split; [|reflexivity]. split; [rewrite E; apply perm_swap|]. intros i j a b _ Ha Hb. apply O; apply nth_error_In in Ha, Hb; cbn in *; tauto.
Qed.
Print Assumptions C45_table_determined_refuted.
(** The text shown depends on the order the map of callers is walked in. *)
Theorem C45_text_determined_refuted : exists l l', Permutation l l' /\ NoDup (map fst l) /\ field_text l <> field_text l'.
Proof.
  exists [(B "p.F", [(B "x", [])]); (B "p.G", [(B "y", [])])], [(B "p.G", [(B "y", [])]); (B "p.F", [(B "x", [])])]. split; [apply perm_swap|]. split; [repeat constructor; vm_compute; intuition discriminate|]. vm_compute. discriminate.
Qed.
Print Assumptions C45_text_determined_refuted.
(** "more field differences" counts callers: seven fields of a third caller are one. *)
Theorem C45_more_fields_counted_refuted : exists a b c t, length (snd c) = 7%nat /\ field_text [a; b; c] = t ++ B "(1 more field differences)".
Proof.
  exists (B "p.F", [(B "x", [])]), (B "p.G", [(B "y", [])]), (B "p.H", map (fun s => (B s, [])) ["a"; "b"; "c"; "d"; "e"; "f"; "g"]%string), (B "p.F[x]" ++ [nl] ++ B "p.G[y]" ++ [nl]). split; [reflexivity|]. vm_compute. reflexivity.
Qed.
Print Assumptions C45_more_fields_counted_refuted.

(** ** C58 *)
Lemma mset_fresh {V} k (v : V) m : ~ In k (mkeys m) -> mset k v m = m ++ [(k, v)].
Proof.
  induction m as [|[k' v'] m IH]; intros H; [reflexivity|]. cbn [mset]. destruct (beq_spec k k') as [->|N]; [exfalso; apply H; left; reflexivity|]. cbn [app]. f_equal. apply IH. intros X. apply H. right. exact X.
Qed.
Definition entry_of (p : perf) : bytes * tchange := (pf_caller p, TChange (pf_diff p) (pf_pre p) (pf_post p)).
Lemma times_of_spec ps ident : NoDup (map pf_caller (filter (fun p => beq (pf_ident p) ident) ps)) ->
  times_of ps ident = map entry_of (filter (fun p => beq (pf_ident p) ident) ps).
Proof.
  unfold times_of. assert (forall acc, NoDup (mkeys acc ++ map pf_caller (filter (fun p => beq (pf_ident p) ident) ps)) ->
    fold_left (fun m p => if beq (pf_ident p) ident then mset (pf_caller p) (TChange (pf_diff p) (pf_pre p) (pf_post p)) m else m) ps acc = acc ++ map entry_of (filter (fun p => beq (pf_ident p) ident) ps)) as L.
  { induction ps as [|p ps IH]; intros acc H; cbn [fold_left filter map]; [rewrite app_nil_r; reflexivity|]. cbn [filter] in H. destruct (beq (pf_ident p) ident); [|apply IH; exact H].
    cbn [map] in H. rewrite mset_fresh.
    - rewrite IH; [rewrite <- app_assoc; reflexivity|]. unfold mkeys in *. rewrite map_app, <- app_assoc. exact H.
    - intros X. apply NoDup_remove_2 in H. apply H. apply in_or_app. left. exact X. }
  intros H. apply (L [] H).
Qed.
Lemma filter_perm {A} (f : A -> bool) l l' : Permutation l l' -> Permutation (filter f l) (filter f l').
Proof. induction 1; cbn; repeat match goal with |- context [if ?b then _ else _] => destruct b end; try constructor; try assumption; try apply Permutation_refl; etransitivity; eassumption. Qed.
Lemma list_sum_N_perm l l' : Permutation l l' -> list_sum_N l = list_sum_N l'.
Proof. unfold list_sum_N. induction 1; cbn in *; lia. Qed.
Lemma list_sum_N_app l l' : list_sum_N (l ++ l') = (list_sum_N l + list_sum_N l')%N.
Proof. unfold list_sum_N. induction l; cbn in *; [reflexivity|]. rewrite IHl. lia. Qed.

Section RoundTrip.
Variable trim : bytes -> bytes.
Lemma field_text_trim t l : forall n, field_text_from t n (map (fun e : bytes * amap bytes => (fst e, map (fun x => (fst x, trim (snd x))) (snd e))) l) = field_text_from t n l.
Proof.
  induction l as [|e l IH]; intros n; [reflexivity|]. cbn [map field_text_from]. rewrite IH. unfold caller_text. cbn [fst snd]. unfold mkeys. rewrite map_map. cbn [fst]. reflexivity.
Qed.
(** The charts drawn from a JSON report show what the charts of the run showed: the
    same rows in the table, up to the order of equals, for reports in any order. *)
Theorem C58_rows_kept : forall rs ps rebuilt, Permutation rebuilt (map (rebuild ps) (map (detail_of trim) rs)) -> Permutation (risky rebuilt) (risky rs).
Proof.
  intros rs ps rebuilt P. transitivity (risky (map (rebuild ps) (map (detail_of trim) rs))).
  - unfold risky. clear - P. induction P; cbn [flat_map]; [constructor|apply Permutation_app_head; assumption| |etransitivity; eassumption].
    rewrite !app_assoc. apply Permutation_app_tail, Permutation_app_comm.
  - clear P. unfold risky. rewrite !flat_map_concat_map, !map_map. match goal with |- Permutation (concat ?a) (concat ?b) => assert (a = b) as -> end; [|reflexivity]. apply map_ext. intros r.
    unfold row_of, rebuild, detail_of, regressed, state_text, regressed. cbn [rp_orig rp_post rp_fields rp_diff tr_name tr_fail td_ident td_name td_baseline td_regression td_diff td_hits td_fields].
    assert (field_text (olist (trim_fields trim (rp_fields r))) = field_text (olist (rp_fields r))) as E.
    { destruct (rp_fields r) as [l|]; [|reflexivity]. cbn [trim_fields olist]. unfold field_text. rewrite map_length. apply field_text_trim. }
    rewrite E. destruct (tr_fail (rp_orig r)), (tr_fail (rp_post r)); reflexivity.
Qed.

(** ... and the same total times, provided no two tests of the same name have time
    changes. *)
Definition times_named_once (rs : list treport) : Prop :=
  forall a r b, rs = a ++ r :: b -> olist (rp_times r) <> [] -> forall x, In x (a ++ b) -> tr_ident (rp_orig x) <> tr_ident (rp_orig r).
Lemma own_perfs rs ps : Permutation ps (flat_map perfs_of rs) -> times_named_once rs -> (forall r, In r rs -> mwf (olist (rp_times r))) ->
  forall r, In r rs -> olist (rp_times r) <> [] -> Permutation (times_of ps (tr_ident (rp_orig r))) (olist (rp_times r)).
Proof.
  intros P U W r Hr Hne. apply in_split in Hr as (a & b & E). pose proof (U a r b E Hne) as U'.
  assert (Permutation (filter (fun p => beq (pf_ident p) (tr_ident (rp_orig r))) ps) (perfs_of r)) as Pf.
  { etransitivity; [apply filter_perm, P|]. rewrite E, flat_map_app. cbn [flat_map]. rewrite !filter_app.
    assert (forall l, incl l (a ++ b) -> filter (fun p => beq (pf_ident p) (tr_ident (rp_orig r))) (flat_map perfs_of l) = []) as Z.
    { induction l as [|x l IH]; intros I; [reflexivity|]. cbn [flat_map]. rewrite filter_app, IH by (intros y Hy; apply I; right; exact Hy). rewrite app_nil_r.
      unfold perfs_of. induction (olist (rp_times x)) as [|e m IHm]; [reflexivity|]. cbn [map filter pf_ident]. destruct (beq_spec (tr_ident (rp_orig x)) (tr_ident (rp_orig r))) as [X|X]; [exfalso; exact (U' x (I x (or_introl eq_refl)) X)|exact IHm]. }
    rewrite (Z a) by (intros y Hy; apply in_or_app; left; exact Hy). rewrite (Z b) by (intros y Hy; apply in_or_app; right; exact Hy). rewrite app_nil_r. cbn [app].
    assert (forall l, (forall p, In p l -> pf_ident p = tr_ident (rp_orig r)) -> filter (fun p => beq (pf_ident p) (tr_ident (rp_orig r))) l = l) as Al.
    { induction l as [|p l IH]; intros I; [reflexivity|]. cbn [filter]. rewrite (I p (or_introl eq_refl)), beq_refl. f_equal. apply IH. intros q Hq. apply I. right. exact Hq. }
    rewrite Al; [reflexivity|]. intros p Hp. unfold perfs_of in Hp. apply in_map_iff in Hp. destruct Hp as (e & <- & _). reflexivity. }
  assert (map entry_of (perfs_of r) = olist (rp_times r)) as Em.
  { unfold perfs_of. rewrite map_map. unfold entry_of. cbn [pf_caller pf_diff pf_pre pf_post]. rewrite <- (map_id (olist (rp_times r))) at 2. apply map_ext. intros [k [d x y]]. reflexivity. }
  rewrite times_of_spec.
  - etransitivity; [apply Permutation_map, Pf|]. rewrite Em. reflexivity.
  - apply (Permutation_NoDup (l := map pf_caller (perfs_of r))); [apply Permutation_map; symmetry; exact Pf|]. unfold perfs_of. rewrite map_map. cbn [pf_caller].
    exact (W r (eq_ind_r (fun l => In r l) (in_or_app a (r :: b) r (or_intror (or_introl eq_refl))) E)).
Qed.
Lemma no_perfs rs ps : Permutation ps (flat_map perfs_of rs) -> forall ident, (forall r, In r rs -> tr_ident (rp_orig r) = ident -> olist (rp_times r) = []) -> times_of ps ident = [].
Proof.
  intros P ident H. assert (filter (fun p => beq (pf_ident p) ident) ps = []) as E.
  { apply Permutation_nil. symmetry. etransitivity; [apply filter_perm, P|]. clear P. induction rs as [|r rs IH]; [constructor|]. cbn [flat_map]. rewrite filter_app.
    assert (filter (fun p => beq (pf_ident p) ident) (perfs_of r) = []) as ->; [|apply IH; intros x Hx; apply H; right; exact Hx].
    unfold perfs_of. destruct (bytes_eq_dec (tr_ident (rp_orig r)) ident) as [Ei|Ei]; [rewrite (H r (or_introl eq_refl) Ei); reflexivity|].
    induction (olist (rp_times r)) as [|e m IHm]; [reflexivity|]. cbn [map filter pf_ident]. destruct (beq_spec (tr_ident (rp_orig r)) ident) as [X|X]; [contradiction|exact IHm]. }
  rewrite times_of_spec; rewrite E; [reflexivity|constructor].
Qed.
Theorem C58_times_kept : forall rs ps rebuilt, Permutation ps (flat_map perfs_of rs) -> (forall r, In r rs -> mwf (olist (rp_times r))) -> times_named_once rs ->
  Permutation rebuilt (map (rebuild ps) (map (detail_of trim) rs)) -> total_times rebuilt = total_times rs.
Proof.
  intros rs ps rebuilt P W U Pr.
  assert (forall r, In r rs -> Permutation (times_of ps (tr_ident (rp_orig r))) (olist (rp_times r))) as T.
  { intros r Hr. destruct (olist (rp_times r)) as [|e m] eqn:Et.
    - rewrite (no_perfs rs ps P); [constructor|]. intros x Hx Ex. destruct (olist (rp_times x)) as [|e m] eqn:Etx; [reflexivity|]. exfalso.
      apply in_split in Hx as (a & b & E). assert (olist (rp_times x) <> []) as Nx by (rewrite Etx; discriminate). pose proof (U a x b E Nx r) as U'.
      rewrite E in Hr. apply in_app_or in Hr. destruct Hr as [Hr|[->|Hr]]; [apply U'; [apply in_or_app; left; exact Hr|congruence]|congruence|apply U'; [apply in_or_app; right; exact Hr|congruence]].
    - rewrite <- Et. apply (own_perfs rs ps P U W r Hr). rewrite Et. discriminate. }
  assert (forall f : tchange -> N, list_sum_N (flat_map (fun r => map (fun e => f (snd e)) (olist (rp_times r))) rebuilt) = list_sum_N (flat_map (fun r => map (fun e => f (snd e)) (olist (rp_times r))) rs)) as S.
  { intros f. transitivity (list_sum_N (flat_map (fun r => map (fun e => f (snd e)) (olist (rp_times r))) (map (rebuild ps) (map (detail_of trim) rs)))).
    - apply list_sum_N_perm. apply Permutation_flat_map, Pr.
    - clear Pr P W U. induction rs as [|r rs IH]; [reflexivity|]. cbn [map flat_map]. rewrite !list_sum_N_app. f_equal; [|apply IH; intros x Hx; apply T; right; exact Hx].
      cbn [rebuild rp_times olist detail_of td_ident]. apply list_sum_N_perm, Permutation_map, T. left. reflexivity. }
  unfold total_times. rewrite !S. reflexivity.
Qed.
End RoundTrip.
Print Assumptions C58_rows_kept.
Print Assumptions C58_times_kept.
Definition timed58 (name : string) (ts : amap tchange) : treport :=
  TReport (TResult (B "p." ++ B name) (B name) None None None 2 false None) (TResult (B "p." ++ B name) (B name) None None None 2 true None) None (Some ts) 0 0 4.
Example C58_example :
  let rs := [timed58 "TestA" [(B "p.F", TChange 5 1 6); (B "p.G", TChange (-3) 4 1)]; timed58 "TestB" [(B "p.F", TChange 1 1 2)]] in
  let ps := rev (flat_map perfs_of rs) in
  times_named_once rs /\ total_times (map (rebuild ps) (map (detail_of (fun x => x)) rs)) = (6, 9)%N /\ total_times rs = (6, 9)%N /\ length (risky rs) = 2%nat.
Proof.
  cbv zeta. split; [|vm_compute; auto]. intros a r b E _ x Hx. destruct a as [|y [|z a]]; cbn in E.
  - injection E as <- E. rewrite <- E in Hx. destruct Hx as [<-|[]]. vm_compute. discriminate.
  - injection E as <- <- <-. destruct Hx as [<-|[]]. vm_compute. discriminate.
  - injection E as _ _ E. destruct a; discriminate.
Qed.
(** A detail says of a test what the table says: a regression is a failure of a test that passed before. *)
Theorem C58_flags : forall trim r, let d := detail_of trim r in
  (td_baseline d = true <-> state_text r = B "Baseline FAIL") /\ (td_regression d = true <-> state_text r = B "FAIL") /\
  (td_regression d = true -> td_baseline d = false) /\
  (td_regression d = true <-> tr_fail (rp_orig r) = false /\ tr_fail (rp_post r) = true).
Proof.
  intros trim r d. unfold d, detail_of, state_text, regressed. cbn [td_baseline td_regression]. destruct (tr_fail (rp_orig r)), (tr_fail (rp_post r)); cbn [negb andb]; repeat split; intros; try discriminate; try reflexivity; intuition congruence.
Qed.
Print Assumptions C58_flags.
(** The totals are those of the list of time changes in the JSON report. *)
Theorem C58_totals : forall rs, total_times rs = (list_sum_N (map pf_pre (flat_map perfs_of rs)), list_sum_N (map pf_post (flat_map perfs_of rs))).
Proof.
  intros rs. unfold total_times. rewrite !flat_map_concat_map, !concat_map, !map_map. f_equal; do 2 f_equal; apply map_ext; intros r; unfold perfs_of; rewrite map_map; reflexivity.
Qed.
Print Assumptions C58_totals.
(** Two tests of the same identifier with time changes are counted twice. *)
Theorem C58_times_always_kept_refuted : exists rs, (forall r, In r rs -> mwf (olist (rp_times r))) /\
  total_times (map (rebuild (flat_map perfs_of rs)) (map (detail_of (fun x => x)) rs)) <> total_times rs.
Proof.
  exists [timed58 "TestA" [(B "p.F", TChange 5 1 6)]; timed58 "TestA" [(B "p.G", TChange 1 1 2)]]. split.
  - intros r [<-|[<-|[]]]; repeat constructor; intros [].
  - vm_compute. discriminate.
Qed.
Print Assumptions C58_times_always_kept_refuted.
