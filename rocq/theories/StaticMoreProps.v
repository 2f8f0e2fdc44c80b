(** C28, C29, C30: the counts of calls at return points, the recognition of main and init,
    and when the searches fail. *)
From Verif Require Import Base Maps StaticModel StaticProps.

(** ** C29: the calls counted at a return point *)

(** The node at the end of a path of child numbers. *)
Inductive at_path : node -> list nat -> node -> Prop :=
| ap_here n : at_path n [] n
| ap_kid k p ks i c path m : nth_error ks i = Some c -> at_path c path m -> at_path (Node k p ks) (i :: path) m.
(** The same without passing a function literal or a return statement. *)
Inductive outer_path : node -> list nat -> node -> Prop :=
| op_here n : (forall p ks, n <> Node KFuncLit p ks) -> outer_path n [] n
| op_kid k p ks i c path m : k <> KFuncLit -> ~ (k = KReturn /\ p <> None) ->
    nth_error ks i = Some c -> outer_path c path m -> outer_path (Node k p ks) (i :: path) m.
Definition a_call (n : node) : Prop := exists p ks, n = Node KCall p ks \/ n = Node KPanic p ks.

(** [path] leads to a call in the results of a return statement of the body that stands
    on the given line; calls in function literals among the results count. *)
Definition call_in_return (body : node) (line : N) (path : list nat) : Prop :=
  exists p1 p2 l ks m, path = p1 ++ p2 /\ outer_path body p1 (Node KReturn (Some l) ks) /\ u32 l = line /\
    at_path (Node KReturn (Some l) ks) p2 m /\ p2 <> [] /\ a_call m.

Section Idx.
  Context {A : Type}.
  Variable f : A -> list (list nat).
  Fixpoint idx (i : nat) (l : list A) : list (list nat) :=
    match l with [] => [] | c :: l' => map (cons i) (f c) ++ idx (S i) l' end.
  Lemma idx_in l : forall i path, In path (idx i l) <->
    exists j c q, nth_error l j = Some c /\ In q (f c) /\ path = (i + j)%nat :: q.
  Proof.
    induction l as [|c l IH]; intros i path; cbn [idx].
    - split; [intros []|]. intros ([|j] & c & q & E & _); discriminate.
    - rewrite in_app_iff, in_map_iff, IH. split.
      + intros [(q & <- & Hq)|(j & d & q & E & Hq & ->)].
        * exists 0%nat, c, q. rewrite Nat.add_0_r. auto.
        * exists (S j), d, q. split; [exact E|]. split; [exact Hq|]. f_equal. lia.
      + intros ([|j] & d & q & E & Hq & ->).
        * injection E as <-. left. exists q. rewrite Nat.add_0_r. auto.
        * right. exists j, d, q. split; [exact E|]. split; [exact Hq|]. f_equal. lia.
  Qed.
  Lemma idx_nodup l : (forall c, In c l -> NoDup (f c)) -> forall i, NoDup (idx i l).
  Proof.
    induction l as [|c l IH]; intros H i; cbn [idx]; [constructor|]. apply NoDup_app_iff.
    split; [|split].
    - apply FinFun.Injective_map_NoDup; [intros x y [= E]; exact E|]. apply H. left; reflexivity.
    - apply IH. intros d Hd. apply H. right; exact Hd.
    - intros p Hp Hq. apply in_map_iff in Hp as (q & <- & _). apply idx_in in Hq as (j & d & q' & _ & _ & E).
      injection E as E _. lia.
  Qed.
  Lemma idx_length l : forall i, length (idx i l) = fold_right Nat.add 0%nat (map (fun c => length (f c)) l).
  Proof. induction l as [|c l IH]; intros i; cbn; [reflexivity|]. rewrite app_length, map_length, IH. reflexivity. Qed.
End Idx.

Fixpoint call_paths (n : node) : list (list nat) :=
  match n with
  | Node k _ ks => match k with KCall | KPanic => [[]] | _ => [] end ++ idx call_paths 0 ks
  end.
Fixpoint ret_paths (line : N) (n : node) : list (list nat) :=
  match n with
  | Node KFuncLit _ _ => []
  | Node KReturn (Some l) ks => if (u32 l =? line)%N then idx call_paths 0 ks else []
  | Node _ _ ks => idx (ret_paths line) 0 ks
  end.

Lemma fold_add_N {A} (f : A -> N) (g : A -> nat) l : (forall c, In c l -> f c = N.of_nat (g c)) ->
  fold_right N.add 0%N (map f l) = N.of_nat (fold_right Nat.add 0%nat (map g l)).
Proof.
  induction l as [|c l IH]; intros H; [reflexivity|]. cbn [map fold_right]. rewrite IH by (intros d Hd; apply H; right; exact Hd).
  rewrite (H c (or_introl eq_refl)). lia.
Qed.

Lemma call_paths_count n : count_calls n = N.of_nat (length (call_paths n)).
Proof.
  induction n as [k p ks IH] using node_ind'. rewrite Forall_forall in IH. cbn [count_calls call_paths].
  rewrite app_length, idx_length, Nat2N.inj_add, (fold_add_N count_calls (fun c => length (call_paths c)) ks IH).
  destruct k; reflexivity.
Qed.

Lemma call_paths_spec n : NoDup (call_paths n) /\ forall path, In path (call_paths n) <-> exists m, at_path n path m /\ a_call m.
Proof.
  induction n as [k p ks IH] using node_ind'. rewrite Forall_forall in IH. cbn [call_paths]. split.
  - apply NoDup_app_iff. split; [destruct k; repeat constructor; intros []|]. split; [apply idx_nodup; intros c Hc; apply IH; exact Hc|].
    intros q Hq Hi. apply idx_in in Hi as (j & c & r & _ & _ & ->). destruct k; try destruct Hq as [E|[]]; try destruct Hq; discriminate.
  - intros path. rewrite in_app_iff, idx_in. split.
    + intros [H|(j & c & q & E & Hq & ->)].
      * exists (Node k p ks). assert (path = [] /\ (k = KCall \/ k = KPanic)) as [-> K]
          by (destruct k; try destruct H as [<-|[]]; try destruct H; auto).
        split; [constructor|]. exists p, ks. destruct K as [-> | ->]; auto.
      * apply (IH c (nth_error_In _ _ E)) in Hq as (m & Hm & Hc). exists m. split; [|exact Hc]. eapply ap_kid; eassumption.
    + intros (m & Hm & Hc). inversion Hm as [|k' p' ks' i c q m' E Hq]; subst.
      * left. destruct Hc as (p0 & ks0 & [E|E]); injection E as -> _ _; left; reflexivity.
      * right. exists i, c, q. split; [exact E|]. split; [|reflexivity]. apply (IH c (nth_error_In _ _ E)). exists m. auto.
Qed.

Lemma ret_paths_spec line n : NoDup (ret_paths line n) /\ forall path, In path (ret_paths line n) <-> call_in_return n line path.
Proof.
  induction n as [k p ks IH] using node_ind'. rewrite Forall_forall in IH.
  assert (k <> KFuncLit -> ~ (k = KReturn /\ p <> None) ->
    NoDup (idx (ret_paths line) 0 ks) /\
    forall path, In path (idx (ret_paths line) 0 ks) <-> call_in_return (Node k p ks) line path) as G.
  { intros N1 N2. split; [apply idx_nodup; intros c Hc; apply IH; exact Hc|]. intros path. rewrite idx_in. split.
    - intros (j & c & q & E & Hq & ->). apply (IH c (nth_error_In _ _ E)) in Hq as (p1 & p2 & l & ks0 & m & -> & Ho & R).
      exists (j :: p1), p2, l, ks0, m. split; [reflexivity|]. split; [|exact R]. eapply op_kid; eassumption.
    - intros (p1 & p2 & l & ks0 & m & -> & Ho & R). inversion Ho as [? ? E1|k' p' ks' i c q m' _ _ E Hq]; subst.
      + exfalso. apply N2. split; [reflexivity|discriminate].
      + exists i, c, (q ++ p2). split; [exact E|]. split; [|reflexivity]. apply (IH c (nth_error_In _ _ E)).
        exists q, p2, l, ks0, m. auto. }
  destruct k; cbn [ret_paths].
  - split; [constructor|]. intros path. split; [intros []|]. intros (p1 & p2 & l & ks0 & m & _ & Ho & _). inversion Ho; congruence.
  - destruct p as [l|]; [|destruct G as [G1 G2]; [congruence|intros [_ H]; congruence|]; split; assumption]. clear G.
    destruct (N.eqb_spec (u32 l) line) as [E|E].
    + split; [apply idx_nodup; intros c _; apply call_paths_spec|]. intros path. rewrite idx_in. split.
      * intros (j & c & q & Ec & Hq & ->). apply call_paths_spec in Hq as (m & Hm & Hc).
        exists [], (j :: q), l, ks, m. split; [reflexivity|]. split; [apply op_here; congruence|]. split; [exact E|].
        split; [eapply ap_kid; eassumption|]. split; [discriminate|exact Hc].
      * intros (p1 & p2 & l0 & ks0 & m & -> & Ho & El & Hm & Np & Hc).
        inversion Ho as [? ? E1|k' p' ks' i c q m' _ N2 _ _]; subst; [|exfalso; apply N2; split; [reflexivity|discriminate]].
        inversion Hm as [|k' p' ks' i c q m' Ec Hq]; subst; [congruence|]. exists i, c, q. split; [exact Ec|]. split; [|reflexivity].
        apply call_paths_spec. exists m. auto.
    + split; [constructor|]. intros path. split; [intros []|]. intros (p1 & p2 & l0 & ks0 & m & _ & Ho & El & _).
      inversion Ho as [? ? E1|k' p' ks' i c q m' _ N2 _ _]; subst; [congruence|apply N2; split; [reflexivity|discriminate]].
  - destruct p; apply G; intuition congruence.
  - destruct p; apply G; intuition congruence.
  - destruct p; apply G; intuition congruence.
Qed.

Lemma u32_add a b : u32 (u32 a + b) = u32 (a + b).
Proof. unfold u32. apply N.add_mod_idemp_l. discriminate. Qed.

Lemma u32_add2 a b c d : u32 a = u32 b -> u32 c = u32 d -> u32 (a + c) = u32 (b + d).
Proof. unfold u32. intros E F. rewrite (N.add_mod a c), (N.add_mod b d) by discriminate. rewrite E, F. reflexivity. Qed.
Lemma u32_u32 a : u32 (u32 a) = u32 a.
Proof. unfold u32. apply N.mod_mod. discriminate. Qed.

Lemma idx_sum {A} (f : A -> list (list nat)) (g : A -> list retpoint) line l :
  (forall c, In c l -> u32 (calls_at line (g c)) = u32 (N.of_nat (length (f c)))) ->
  forall i, u32 (calls_at line (flat_map g l)) = u32 (N.of_nat (length (idx f i l))).
Proof.
  induction l as [|c l IH]; intros H i; [reflexivity|]. cbn [flat_map idx]. rewrite calls_at_app, app_length, map_length, Nat2N.inj_add.
  apply u32_add2; [apply H; left; reflexivity|apply IH]. intros d Hd. apply H. right; exact Hd.
Qed.

Lemma calls_at_one line l c : calls_at line [Ret l c] = if (l =? line)%N then c else 0%N.
Proof. unfold calls_at. cbn. destruct (l =? line)%N; cbn; lia. Qed.

Lemma walk_rets_sum line n : u32 (calls_at line (walk_rets n)) = u32 (N.of_nat (length (ret_paths line n))).
Proof.
  induction n as [k p ks IH] using node_ind'. rewrite Forall_forall in IH.
  pose proof (idx_sum (ret_paths line) walk_rets line ks IH 0) as G.
  destruct k; cbn [walk_rets ret_paths]; try reflexivity; try (destruct p; exact G).
  destruct p as [l|]; [|exact G]. rewrite calls_at_one. destruct (u32 l =? line)%N; [|reflexivity].
  rewrite u32_u32. f_equal. rewrite idx_length. apply fold_add_N. intros c _. apply call_paths_count.
Qed.

(** The count at a return point found in the syntax is the number, in 32 bits, of the
    places of calls in the results of the return statements on its line. *)
Theorem C29_ast_call_counts : forall sort has_results body r,
  sorts sort -> In r (fst (ast_returns sort has_results (Some body))) ->
  exists paths, NoDup paths /\ (forall path, In path paths <-> call_in_return body (rt_line r) path) /\
    rt_calls r = u32 (N.of_nat (length paths)).
Proof.
  intros sort hr body r Hs Hr. cbn [ast_returns fst] in Hr.
  destruct (C29_merge_is_exact sort (walk_rets body) Hs) as (_ & _ & H3).
  { intros x Hx. apply walk_rets_spec in Hx as (l & ks & _ & ->). cbn. unfold u32. apply N.mod_lt. lia. }
  exists (ret_paths (rt_line r) body). destruct (ret_paths_spec (rt_line r) body) as [N S]. split; [exact N|]. split; [exact S|].
  rewrite H3 by exact Hr. apply walk_rets_sum.
Qed.
Print Assumptions C29_ast_call_counts.

Definition ex_ret : node :=
  Node KOther None
    [Node KReturn (Some 4%N) [Node KCall None [Node KPanic None []]; Node KFuncLit None [Node KCall None []]];
     Node KFuncLit None [Node KReturn (Some 4%N) [Node KCall None []]];
     Node KReturn (Some 7%N) [Node KOther None []]].
Example C29_example_counts :
  fst (ast_returns isort true (Some ex_ret)) = [Ret 4 3; Ret 7 0] /\
  call_in_return ex_ret 4 [0; 0; 0]%nat /\ ret_paths 4 ex_ret = [[0; 0]; [0; 0; 0]; [0; 1; 0]]%nat.
Proof.
  split; [reflexivity|]. split; [|reflexivity]. apply ret_paths_spec. right. left. reflexivity.
Qed.

(** In SSA form a call is counted for each result of a return that is a call, named by its
    block, instruction and place; and for each exit block that ends in a call. *)
Definition ssa_call (blocks : list block) (line : N) (path : list nat) : Prop :=
  (exists b i j blk p cs, path = [b; i; j] /\ nth_error blocks b = Some blk /\
     nth_error (bk_instrs blk) i = Some (IReturn (Some p) cs) /\ u32 p = line /\ nth_error cs j = Some true) \/
  (exists b blk is p, path = [b] /\ nth_error blocks b = Some blk /\ bk_succs blk = 0%nat /\
     bk_instrs blk = is ++ [ICall (Some p)] /\ u32 p = line).

Definition instr_paths (line : N) (i : instr) : list (list nat) :=
  match i with
  | IReturn (Some p) cs => if (u32 p =? line)%N then idx (fun b : bool => if b then [[]] else []) 0 cs else []
  | _ => []
  end.
Definition exit_paths (line : N) (b : block) : list (list nat) :=
  match bk_succs b, rev (bk_instrs b) with
  | 0%nat, ICall (Some p) :: _ => if (u32 p =? line)%N then [[]] else []
  | _, _ => []
  end.
Definition block_paths (line : N) (b : block) : list (list nat) :=
  idx (instr_paths line) 0 (bk_instrs b) ++ exit_paths line b.

Lemma instr_paths_spec line i : NoDup (instr_paths line i) /\
  forall q, In q (instr_paths line i) <-> exists j p cs, q = [j] /\ i = IReturn (Some p) cs /\ u32 p = line /\ nth_error cs j = Some true.
Proof.
  unfold instr_paths. destruct i as [[p|] cs| | |];
    try (split; [constructor|]; intros q; split; [intros []|]; intros (j & p' & cs' & _ & E & _); discriminate).
  destruct (N.eqb_spec (u32 p) line) as [E|E].
  - split; [apply idx_nodup; intros [] _; repeat constructor; intros []|]. intros q. rewrite idx_in. split.
    + intros (j & [] & r & Ej & Hr & ->); [|destruct Hr]. destruct Hr as [<-|[]]. exists j, p, cs. auto.
    + intros (j & p' & cs' & -> & [= <- <-] & _ & Ej). exists j, true, []. split; [exact Ej|]. split; [left|]; reflexivity.
  - split; [constructor|]. intros q. split; [intros []|]. intros (j & p' & cs' & _ & [= <- <-] & E' & _). congruence.
Qed.
Lemma exit_paths_spec line b : forall q, In q (exit_paths line b) <->
  q = [] /\ bk_succs b = 0%nat /\ exists is p, bk_instrs b = is ++ [ICall (Some p)] /\ u32 p = line.
Proof.
  intros q. unfold exit_paths. destruct (bk_succs b); [|split; [intros []|intros (_ & H & _); discriminate]].
  assert (forall is i, bk_instrs b = is ++ [i] -> rev (bk_instrs b) = i :: rev is) as R
    by (intros is i E; rewrite E, rev_app_distr; reflexivity).
  destruct (rev (bk_instrs b)) as [|i r] eqn:Er.
  { split; [intros []|]. intros (_ & _ & is & p & E & _). apply R in E. discriminate. }
  assert (bk_instrs b = rev r ++ [i]) as Eb by (rewrite <- (rev_involutive (bk_instrs b)), Er; reflexivity).
  split.
  - intros H. destruct i as [| |[p|]|]; try destruct H. destruct (N.eqb_spec (u32 p) line); [|destruct H].
    destruct H as [<-|[]]. split; [reflexivity|]. split; [reflexivity|]. exists (rev r), p. auto.
  - intros (-> & _ & is & p & E & <-). apply R in E. injection E as -> _. rewrite N.eqb_refl. left. reflexivity.
Qed.

Lemma block_paths_spec line b : NoDup (block_paths line b) /\ forall q, In q (block_paths line b) <->
  (exists i j p cs, q = [i; j] /\ nth_error (bk_instrs b) i = Some (IReturn (Some p) cs) /\ u32 p = line /\ nth_error cs j = Some true) \/
  (q = [] /\ bk_succs b = 0%nat /\ exists is p, bk_instrs b = is ++ [ICall (Some p)] /\ u32 p = line).
Proof.
  unfold block_paths. split.
  - apply NoDup_app_iff. split; [apply idx_nodup; intros c _; apply instr_paths_spec|]. split.
    + unfold exit_paths. destruct (bk_succs b); [|constructor]. destruct (rev (bk_instrs b)) as [|[| |[p|]|] r]; try constructor.
      destruct (u32 p =? line)%N; repeat constructor; intros [].
    + intros q Hq He. apply idx_in in Hq as (j & c & r & _ & _ & ->). apply exit_paths_spec in He as [He _]. discriminate.
  - intros q. rewrite in_app_iff, idx_in, exit_paths_spec. split; (intros [H|H]; [left|right; exact H]).
    + destruct H as (i & c & r & Ei & Hr & ->). apply instr_paths_spec in Hr as (j & p & cs & -> & -> & E & Ej). exists i, j, p, cs. auto.
    + destruct H as (i & j & p & cs & -> & Ei & E & Ej). exists i, (IReturn (Some p) cs), [j]. split; [exact Ei|]. split; [|reflexivity].
      apply instr_paths_spec. exists j, p, cs. auto.
Qed.

Lemma block_sum line b : u32 (calls_at line (flat_map instr_rets (bk_instrs b) ++ exit_rets b)) = u32 (N.of_nat (length (block_paths line b))).
Proof.
  unfold block_paths. rewrite calls_at_app, app_length, Nat2N.inj_add. apply u32_add2.
  - apply idx_sum. intros i _. destruct i as [[p|] cs| | |]; try reflexivity. cbn [instr_rets instr_paths]. rewrite calls_at_one.
    destruct (u32 p =? line)%N; [|reflexivity]. rewrite u32_u32. f_equal. f_equal. rewrite idx_length.
    clear. induction cs as [|[] cs IH]; cbn; [reflexivity|rewrite IH; reflexivity|exact IH].
  - unfold exit_rets, exit_paths. destruct (bk_succs b); [|reflexivity]. destruct (rev (bk_instrs b)) as [|i r]; [reflexivity|].
    destruct i as [[p|] cs|[p|]|[p|]|[p|]]; cbn [instr_pos]; try reflexivity; rewrite calls_at_one; destruct (u32 p =? line)%N; reflexivity.
Qed.

(** The count at a return point found in SSA form. *)
Theorem C29_ssa_call_counts : forall sort has_results blocks r,
  sorts sort -> In r (fst (ssa_returns sort has_results blocks)) ->
  exists paths, NoDup paths /\ (forall path, In path paths <-> ssa_call blocks (rt_line r) path) /\
    rt_calls r = u32 (N.of_nat (length paths)).
Proof.
  intros sort hr blocks r Hs Hr. unfold ssa_returns in Hr. cbn [fst] in Hr.
  set (infos := flat_map (fun b => flat_map instr_rets (bk_instrs b) ++ exit_rets b) blocks) in *.
  assert (forall r, In r infos -> (rt_calls r < 4294967296)%N) as Hc.
  { clear. intros r Hr. apply in_flat_map in Hr as (b & _ & Hr). apply in_app_iff in Hr as [Hr|Hr].
    - apply in_flat_map in Hr as (i & _ & Hr). destruct i as [[l|] cs| | |]; cbn in Hr; try destruct Hr as [<-|[]]; try destruct Hr.
      cbn. unfold u32. apply N.mod_lt. lia.
    - unfold exit_rets in Hr. destruct (bk_succs b); [|destruct Hr]. destruct (rev (bk_instrs b)) as [|i is]; [destruct Hr|].
      destruct (instr_pos i); [|destruct Hr]. destruct Hr as [<-|[]]. cbn. destruct i; lia. }
  destruct (C29_merge_is_exact sort infos Hs Hc) as (_ & _ & H3).
  exists (idx (block_paths (rt_line r)) 0 blocks). split; [apply idx_nodup; intros b _; apply block_paths_spec|]. split.
  - intros path. rewrite idx_in. unfold ssa_call. split.
    + intros (b & blk & q & Eb & Hq & ->). apply block_paths_spec in Hq as [(i & j & p & cs & -> & Ei & E & Ej)|(-> & E0 & is & p & Ei & E)].
      * left. exists b, i, j, blk, p, cs. auto.
      * right. exists b, blk, is, p. auto.
    + intros [(b & i & j & blk & p & cs & -> & Eb & Ei & E & Ej)|(b & blk & is & p & -> & Eb & E0 & Ei & E)].
      * exists b, blk, [i; j]. split; [exact Eb|]. split; [|reflexivity]. apply block_paths_spec. left. exists i, j, p, cs. auto.
      * exists b, blk, []. split; [exact Eb|]. split; [|reflexivity]. apply block_paths_spec. right. split; [reflexivity|]. split; [exact E0|]. exists is, p. auto.
  - rewrite H3 by exact Hr. apply idx_sum. intros b _. apply block_sum.
Qed.
Print Assumptions C29_ssa_call_counts.

Example C29_example_ssa_counts :
  fst (ssa_returns isort true [Blk [IReturn (Some 5%N) [true; false; true]] 0; Blk [ICall (Some 5%N)] 0; Blk [ICall (Some 5%N)] 1]) = [Ret 5 3].
Proof. reflexivity. Qed.

(** ** C30: main and init *)

(** A function is taken for the entry of a program exactly when it is the function main,
    no method and without parameters, of a package main. *)
Theorem C30_main_iff : forall f, is_main f = true <->
  g_pkg f = Some (B "main") /\ g_name f = B "main" /\ g_recv f = false /\ g_params f = [].
Proof.
  intros f. unfold is_main. destruct (g_pkg f) as [p|]; [|split; [discriminate|intros (H & _); discriminate]].
  rewrite !Bool.andb_true_iff, !beq_true, Bool.negb_true_iff, Nat.eqb_eq. split.
  - intros (((-> & H2) & H3) & H4). destruct (g_params f); [auto|discriminate].
  - intros ([= ->] & H2 & H3 & ->). auto.
Qed.
Print Assumptions C30_main_iff.

(** And for an initialiser exactly when its declaration is one of a function init, no
    method and without parameters; whatever SSA calls it. *)
Theorem C30_init_iff : forall f, is_init f = true <-> g_decl f = Some (B "init", false, 0%nat).
Proof.
  intros f. unfold is_init. destruct (g_decl f) as [[[n rc] ps]|]; [|split; discriminate].
  rewrite !Bool.andb_true_iff, beq_true, Bool.negb_true_iff, Nat.eqb_eq. split.
  - intros ((-> & ->) & ->). reflexivity.
  - intros [= -> -> ->]. auto.
Qed.
Print Assumptions C30_init_iff.

Example C30_example_entries :
  is_main (GoFunc (Some (B "main")) (B "main") (B "m.go") false [] 0 None) = true /\
  is_main (GoFunc (Some (B "main")) (B "main") (B "m.go") true [] 0 None) = false /\
  is_init (GoFunc None (B "init#2") (B "m.go") false [] 0 (Some (B "init", false, 0%nat))) = true /\
  is_init (GoFunc (Some (B "p")) (B "init") (B "m.go") false [] 0 None) = false.
Proof. repeat split. Qed.

(** ** C28: when the analyses fail *)

(** What the search looks at the build constraints of. *)
Definition examined (info : nat -> fninfo) (s n : nat) : Prop :=
  f_nil (info n) = false /\ n <> s /\ f_pkg (info n) = true /\ f_main_or_init (info n) = false /\
  f_within (info n) = Some true /\ is_generated_file (f_file (info n)) = false.

Lemma caller_ok_spec info s n : caller_ok info s n = false <-> examined info s n /\ f_compiled (info n) = None.
Proof.
  unfold caller_ok, candidate, caller_root, examined.
  destruct (f_nil (info n)), (Nat.eqb_spec n s), (f_pkg (info n)), (f_main_or_init (info n)), (f_within (info n)) as [[]|],
    (is_generated_file (f_file (info n))), (f_compiled (info n)) as [[]|]; cbn [negb andb orb]; intuition congruence.
Qed.

Lemma searches_error ins info fuel root ok records nodes starts :
  (forall x y, In x nodes -> In (Some y) (ins x) -> In y nodes) -> (length nodes < fuel)%nat ->
  (forall s c, In (s, c) starts -> In s nodes) ->
  ((exists s c n, In (s, c) starts /\ reaches ins root s n /\ ok s n = false) /\
    searches ins info fuel root ok records starts = inl AError) \/
  ((forall s c n, In (s, c) starts -> reaches ins root s n -> ok s n = true) /\
    exists es, searches ins info fuel root ok records starts = inr es).
Proof.
  intros Hc Hf. induction starts as [|[s c] starts IH]; intros Hs; [right; split; [intros s c n []|exists []; reflexivity]|].
  cbn [searches]. destruct IH as [((s' & c' & n & Hin & R & O) & E)|(A & es & E)]; [intros x y H; apply (Hs x y); right; exact H| |].
  - left. split; [exists s', c', n; split; [right; exact Hin|auto]|]. rewrite E.
    destruct (C28_search_terminates ins root (ok s) nodes s Hc (Hs _ _ (or_introl eq_refl)) fuel Hf) as [[_ (t & ->)]|[_ (t & ->)]]; reflexivity.
  - destruct (C28_search_terminates ins root (ok s) nodes s Hc (Hs _ _ (or_introl eq_refl)) fuel Hf) as [[B_ (t & ->)]|[(n & R & O) (t & ->)]]; rewrite E.
    + right. split; [|eexists; reflexivity]. intros s' c' n [[= <- <-]|Hin] R; [apply B_; exact R|exact (A _ _ _ Hin R)].
    + left. split; [|reflexivity]. exists s, c, n. split; [left; reflexivity|auto].
Qed.

(** The caller analysis fails exactly when the build constraints of a file cannot be read
    that holds an examined function leading to a change. *)
Theorem C28_caller_errors : forall ins info nodes shuffle fuel changes,
  (forall x y, In x nodes -> In (Some y) (ins x) -> In y nodes) -> (length nodes < fuel)%nat ->
  (caller_analysis ins info nodes shuffle fuel changes = AError <->
   exists ch s n, In ch changes /\ node_of info nodes ch = Some s /\
     reaches ins (fun x => f_main_or_init (info x)) s n /\ examined info s n /\ f_compiled (info n) = None).
Proof.
  intros ins info nodes shuffle fuel changes Hc Hf. unfold caller_analysis.
  assert (forall s ch, In (s, ch) (changed_nodes info nodes changes) <-> In ch changes /\ node_of info nodes ch = Some s) as Hn.
  { intros s ch. unfold changed_nodes. rewrite nodup_In, in_flat_map. split.
    - intros (c & Hc' & Hi). destruct (node_of info nodes c) as [n|] eqn:En; [|destruct Hi]. destruct Hi as [[= <- <-]|[]]. auto.
    - intros (H1 & H2). exists ch. split; [exact H1|]. rewrite H2. left; reflexivity. }
  destruct (searches_error ins info fuel (caller_root info) (caller_ok info) (records_caller info) nodes (changed_nodes info nodes changes) Hc Hf)
    as [((s & c & n & Hin & R & O) & ->)|(A & es & ->)].
  { intros s c H. apply Hn in H as [_ H]. unfold node_of in H. destruct (find _ _) as [x|] eqn:Ef; [|discriminate].
    apply find_some in Ef as [Ef _]. apply in_rev in Ef. destruct (f_nil (info x)); [discriminate|]. injection H as <-. exact Ef. }
  - split; [intros _|reflexivity]. apply Hn in Hin as [H1 H2]. apply caller_ok_spec in O as [O1 O2]. exists c, s, n. auto.
  - split; [discriminate|]. intros (ch & s & n & H1 & H2 & R & X & C). exfalso.
    assert (caller_ok info s n = true) as O by (apply (A s ch n); [apply Hn; auto|exact R]).
    assert (caller_ok info s n = false) as O' by (apply caller_ok_spec; auto). congruence.
Qed.
Print Assumptions C28_caller_errors.

(** The test analysis fails exactly when the place of a test's file cannot be compared with
    the project directory. *)
Theorem C28_test_errors : forall ins info nodes shuffle fuel callers,
  (forall x y, In x nodes -> In (Some y) (ins x) -> In y nodes) -> (length nodes < fuel)%nat ->
  (test_analysis ins info nodes shuffle fuel callers = AError <->
   exists n, In n nodes /\ f_test (info n) = true /\ f_within (info n) = None).
Proof.
  intros ins info nodes shuffle fuel callers Hc Hf. unfold test_analysis.
  destruct (existsb _ nodes) eqn:E.
  - split; [intros _|reflexivity]. apply existsb_exists in E as (n & Hn & E). exists n. apply Bool.andb_true_iff in E as [E1 E2].
    destruct (f_within (info n)); [discriminate|auto].
  - assert (~ exists n, In n nodes /\ f_test (info n) = true /\ f_within (info n) = None) as No.
    { intros (n & H1 & H2 & H3). apply Bool.not_true_iff_false in E. apply E. apply existsb_exists. exists n. rewrite H2, H3. auto. }
    destruct (negb _); [split; [discriminate|contradiction]|].
    destruct (searches_error ins info fuel (any_root info) (fun _ _ => true) (records_test info) nodes (caller_nodes info nodes callers) Hc Hf)
      as [((s & c & n & Hin & R & O) & _)|(A & es & ->)]; [| discriminate |split; [discriminate|contradiction]].
    intros s c H. unfold caller_nodes in H. apply in_flat_map in H as (n & Hn & Hi). destruct (existsb _ callers); [|destruct Hi].
    destruct Hi as [[= <- _]|[]]. exact Hn.
Qed.
Print Assumptions C28_test_errors.

Example C28_example_errors :
  let bad n := match n with 2%nat => FnInfo false true (B "p:b") true (B "x.go") (Some true) None false false | _ => ex_info n end in
  let lost n := match n with 3%nat => FnInfo false true (B "p:TestB") true (B "x.go") None (Some true) false true | _ => ex_info n end in
  caller_analysis ex_ins bad [0; 1; 2; 3; 4; 5]%nat (fun l => l) 7 [B "m:f"] = AError /\
  caller_analysis ex_ins bad [0; 1; 2; 3; 4; 5]%nat (fun l => l) 7 [B "p:c"] = AOk [] /\
  test_analysis ex_ins lost [0; 1; 2; 3; 4; 5]%nat (fun l => l) 7 [B "p:a"] = AError.
Proof. repeat split. Qed.
