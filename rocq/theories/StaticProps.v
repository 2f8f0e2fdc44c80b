(** Properties C28, C29, C30 and C54: the static analysis. *)

From Coq Require Import Permutation Sorted.
From Verif Require Import Base Maps UtilModel UtilProps StaticModel.

(** ** C29: return points *)

Definition lines (l : list retpoint) : list N := map rt_line l.
Definition calls_at (line : N) (l : list retpoint) : N :=
  fold_right N.add 0%N (map rt_calls (filter (fun r => rt_line r =? line)%N l)).
(** What sort.Slice guarantees: a reordering in order of lines. *)
Definition sorts (sort : list retpoint -> list retpoint) : Prop :=
  forall l, Permutation (sort l) l /\ StronglySorted N.le (lines (sort l)).

Lemma calls_at_app line a b : calls_at line (a ++ b) = (calls_at line a + calls_at line b)%N.
Proof. unfold calls_at. rewrite filter_app, map_app, fold_right_app. induction (map rt_calls (filter _ a)); cbn; lia. Qed.
Lemma calls_at_perm line a b : Permutation a b -> calls_at line a = calls_at line b.
Proof.
  unfold calls_at. induction 1; cbn; auto; try congruence.
  - destruct (rt_line x =? line)%N; cbn; congruence.
  - destruct (rt_line x =? line)%N, (rt_line y =? line)%N; cbn; try reflexivity. lia.
Qed.
Lemma calls_at_none line l : ~ In line (lines l) -> calls_at line l = 0%N.
Proof.
  unfold calls_at. induction l as [|x l IH]; cbn; intros H; [reflexivity|].
  destruct (N.eqb_spec (rt_line x) line); [exfalso; apply H; left; assumption|]. apply IH. tauto.
Qed.

Lemma set_ret_length i r l : length (set_ret i r l) = length l.
Proof. revert i; induction l as [|x l IH]; intros [|i]; cbn; auto. Qed.
Lemma set_ret_nth j i r l : nth_ret j (set_ret i r l) = if ((j =? i) && (i <? length l))%nat then r else nth_ret j l.
Proof.
  unfold nth_ret. revert i j; induction l as [|x l IH]; intros i j.
  - destruct i; cbn; rewrite Bool.andb_false_r; reflexivity.
  - destruct i as [|i]; destruct j as [|j]; cbn; auto. rewrite IH. reflexivity.
Qed.

(** What the loop has built after [pre], written without the shared array. *)
Definition snoc_ret (m : list retpoint) (x : retpoint) : list retpoint :=
  match rev m with
  | l :: rm => if (rt_line x =? rt_line l)%N then rev rm ++ [Ret (rt_line l) (u32 (rt_calls l + rt_calls x))] else m ++ [x]
  | [] => [x]
  end.

Lemma merge_loop s : forall i, (i <= length s)%nat ->
  exists arr u, fold_left merge_step (seq 0 i) (s, 0%nat) = (arr, u) /\
    let m := fold_left snoc_ret (firstn i s) [] in
    length arr = length s /\ length m = u /\ (u <= i)%nat /\ (i <> 0%nat -> u <> 0%nat) /\
    (forall j, nth_ret j arr = if (j <? u)%nat then nth_ret j m else nth_ret j s) /\
    (i <> 0%nat -> rt_line (nth_ret (u - 1) m) = rt_line (nth_ret (i - 1) s)).
Proof.
  induction i as [|i IH]; intros Hi.
  - exists s, 0%nat. cbn. repeat split; auto; lia.
  - destruct IH as (arr & u & E & La & Lm & Hu & Hu0 & Hn & Hl); [lia|].
    rewrite seq_S, fold_left_app, E. cbn [fold_left plus].
    assert (firstn (S i) s = firstn i s ++ [nth_ret i s]) as Ef.
    { unfold nth_ret. clear - Hi. revert i Hi. induction s as [|x s IH]; intros i Hi; [cbn in Hi; lia|].
      destruct i; cbn; [reflexivity|]. f_equal. apply IH. cbn in Hi. lia. }
    rewrite Ef, fold_left_app. cbn [fold_left].
    set (m := fold_left snoc_ret (firstn i s) []) in *.
    assert (nth_ret i arr = nth_ret i s) as Ei by (rewrite Hn; destruct (Nat.ltb_spec i u); [lia|reflexivity]).
    assert (i <> 0%nat -> rt_line (nth_ret (i - 1) arr) = rt_line (nth_ret (i - 1) s)) as Ep.
    { intros N0. rewrite Hn. destruct (Nat.ltb_spec (i - 1) u); [|reflexivity]. assert (u = i) as -> by lia. apply Hl. exact N0. }
    unfold merge_step. rewrite Ei. set (x := nth_ret i s) in *.
    assert (i <> 0%nat -> exists m0 l, m = m0 ++ [l] /\ rt_line l = rt_line (nth_ret (i - 1) s) /\ nth_ret (u - 1) m = l) as Hm.
    { intros N0. destruct (exists_last (l := m)) as (m0 & l & Em); [intros Em; apply Hu0; [exact N0|]; rewrite <- Lm, Em; reflexivity|].
      exists m0, l. split; [exact Em|]. assert (nth_ret (u - 1) m = l) as E1.
      { unfold nth_ret. rewrite <- Lm, Em, app_length. cbn. rewrite app_nth2 by lia.
        replace (length m0 + 1 - 1 - length m0)%nat with 0%nat by lia. reflexivity. }
      split; [|exact E1]. rewrite <- E1. apply Hl. exact N0. }
    destruct (Nat.eqb_spec i 0) as [->|N0].
    + cbn [orb]. exists (set_ret u x arr), (S u). split; [reflexivity|]. cbn [firstn fold_left] in m.
      unfold snoc_ret. cbn. assert (u = 0%nat) as -> by (cbn in Lm; lia). rewrite set_ret_length.
      repeat split; auto; try lia. intros j. rewrite set_ret_nth, La, Hn.
      destruct j; cbn; [destruct s; [cbn in Hi; lia|reflexivity]|reflexivity].
    + destruct (Hm N0) as (m0 & l & Em & El & E1).
      assert (rev m = l :: rev m0) as Er by (rewrite Em, rev_app_distr; reflexivity).
      rewrite (Ep N0), <- El. unfold snoc_ret. rewrite Er. cbn [orb].
      assert (length m0 = (u - 1)%nat) as L0 by (rewrite <- Lm, Em, app_length; cbn; lia).
      assert (u <> 0%nat) as Nu by auto.
      destruct (N.eqb_spec (rt_line x) (rt_line l)) as [Ex|Ex]; cbn [negb].
      * exists (set_ret (u - 1) (Ret (rt_line (nth_ret (u - 1) arr)) (u32 (rt_calls (nth_ret (u - 1) arr) + rt_calls x))) arr), u.
        split; [reflexivity|]. cbn zeta. rewrite rev_involutive, set_ret_length.
        assert (nth_ret (u - 1) arr = l) as E2 by (rewrite Hn; destruct (Nat.ltb_spec (u - 1) u); [exact E1|lia]).
        rewrite E2. split; [exact La|]. split; [rewrite app_length; cbn; lia|]. split; [lia|]. split; [auto|]. split.
        -- intros j. rewrite set_ret_nth, La. destruct (Nat.ltb_spec (u - 1) (length s)); [|lia].
           rewrite Bool.andb_true_r. destruct (Nat.eqb_spec j (u - 1)) as [->|Nj].
           ++ destruct (Nat.ltb_spec (u - 1) u); [|lia]. unfold nth_ret. rewrite <- L0, nth_middle. reflexivity.
           ++ rewrite Hn. destruct (Nat.ltb_spec j u); [|reflexivity]. unfold nth_ret. rewrite Em, !app_nth1 by lia. reflexivity.
        -- intros _. unfold nth_ret at 1. rewrite <- L0, nth_middle. cbn [rt_line]. replace (S i - 1)%nat with i by lia.
           symmetry. exact Ex.
      * exists (set_ret u x arr), (S u). split; [reflexivity|]. cbn zeta. rewrite set_ret_length, app_length, Lm.
        split; [exact La|]. split; [cbn; lia|]. split; [lia|]. split; [lia|]. split.
        -- intros j. rewrite set_ret_nth, La. destruct (Nat.ltb_spec u (length s)); [|lia].
           rewrite Bool.andb_true_r. destruct (Nat.eqb_spec j u) as [->|Nj].
           ++ destruct (Nat.ltb_spec u (S u)); [|lia]. unfold nth_ret. rewrite <- Lm, nth_middle. reflexivity.
           ++ rewrite Hn. destruct (Nat.ltb_spec j u); destruct (Nat.ltb_spec j (S u)); try lia; [|reflexivity].
              unfold nth_ret. rewrite app_nth1 by lia. reflexivity.
        -- intros _. cbn. replace (u - 0)%nat with u by lia. replace (i - 0)%nat with i by lia.
           unfold nth_ret at 1. rewrite <- Lm, nth_middle. reflexivity.
Qed.

Lemma merge_is_snoc sort infos : (forall l, Permutation (sort l) l) ->
  merge_returns sort infos = fold_left snoc_ret (sort infos) [].
Proof.
  intros Hp. unfold merge_returns. rewrite <- (Permutation_length (Hp infos)).
  destruct (merge_loop (sort infos) (length (sort infos)) (le_n _)) as (arr & u & E & La & Lm & Hu & _ & Hn & _).
  rewrite E. rewrite firstn_all in *. set (m := fold_left snoc_ret (sort infos) []) in *.
  apply (nth_ext _ _ (Ret 0 0) (Ret 0 0)).
  - rewrite firstn_length. lia.
  - intros j Hj. rewrite firstn_length in Hj.
    assert (nth j (firstn u arr) (Ret 0 0) = nth_ret j arr) as ->.
    { unfold nth_ret. rewrite <- (firstn_skipn u arr) at 2. rewrite app_nth1; [reflexivity|rewrite firstn_length; lia]. }
    rewrite Hn. destruct (Nat.ltb_spec j u); [reflexivity|lia].
Qed.

Lemma u32_add a b : u32 (u32 a + b) = u32 (a + b).
Proof. unfold u32. apply N.add_mod_idemp_l. lia. Qed.

Lemma SS_app_N a b : StronglySorted N.le (a ++ b) -> StronglySorted N.le a /\ (forall x y, In x a -> In y b -> (x <= y)%N).
Proof.
  induction a as [|x a IH]; cbn; intros H; [split; [constructor|intros ? ? []]|].
  inversion H as [|? ? Ha Hf]; subst. destruct (IH Ha) as [H1 H2]. apply Forall_app in Hf as [Hf1 Hf2]. split; [constructor; assumption|].
  intros u v [<-|Hu] Hv; [rewrite Forall_forall in Hf2; apply Hf2; exact Hv|apply H2; assumption].
Qed.
Lemma SS_snoc_N a x : StronglySorted N.lt a -> (forall y, In y a -> (y < x)%N) -> StronglySorted N.lt (a ++ [x]).
Proof.
  induction 1 as [|y a Ha IH Hf]; cbn; intros H; [repeat constructor|]. constructor; [apply IH; auto|].
  apply Forall_app. split; [exact Hf|]. constructor; [apply H; auto|constructor].
Qed.

Lemma snoc_spec s : StronglySorted N.le (lines s) -> (forall r, In r s -> (rt_calls r < 4294967296)%N) ->
  let m := fold_left snoc_ret s [] in
  StronglySorted N.lt (lines m) /\ (forall l, In l (lines m) <-> In l (lines s)) /\
  (forall r, In r m -> rt_calls r = u32 (calls_at (rt_line r) s)) /\
  (forall pre x, s = pre ++ [x] -> exists m0 y, m = m0 ++ [y] /\ rt_line y = rt_line x).
Proof.
  induction s as [|x s IH] using rev_ind; intros Hs Hc; cbn zeta.
  - cbn. split; [constructor|]. split; [tauto|]. split; [intros r []|]. intros pre x E. destruct pre; discriminate.
  - rewrite fold_left_app. cbn [fold_left]. unfold lines in Hs. rewrite map_app in Hs.
    destruct (SS_app_N _ _ Hs) as [Hs1 Hs2].
    destruct (IH Hs1) as (I1 & I2 & I3 & I4); [intros r Hr; apply Hc, in_app_iff; left; exact Hr|].
    set (m := fold_left snoc_ret s []) in *. clear IH.
    assert (rt_calls x < 4294967296)%N as Hx by (apply Hc, in_app_iff; right; left; reflexivity).
    assert (forall r, In r m -> (rt_line r <= rt_line x)%N) as Hle.
    { intros r Hr. apply Hs2; [apply I2; apply in_map; exact Hr|left; reflexivity]. }
    assert (rev m = [] \/ exists m0 l, m = m0 ++ [l] /\ rev m = l :: rev m0) as D.
    { destruct (rev m) as [|l rm] eqn:E; [left; reflexivity|right]. exists (rev rm), l.
      split; [rewrite <- (rev_involutive m), E; reflexivity|rewrite rev_involutive; reflexivity]. }
    assert (lines (s ++ [x]) = lines s ++ [rt_line x]) as El by (unfold lines; rewrite map_app; reflexivity).
    assert (forall m', lines (m' ++ [x]) = lines m' ++ [rt_line x]) as Elm by (intros; unfold lines; rewrite map_app; reflexivity).
    (* a line not seen before: appended *)
    assert (~ In (rt_line x) (lines m) ->
      StronglySorted N.lt (lines (m ++ [x])) /\ (forall l, In l (lines (m ++ [x])) <-> In l (lines (s ++ [x]))) /\
      (forall r, In r (m ++ [x]) -> rt_calls r = u32 (calls_at (rt_line r) (s ++ [x])))) as Fresh.
    { intros Nin. rewrite Elm, El. split; [|split].
      - apply SS_snoc_N; [exact I1|]. intros y Hy. apply in_map_iff in Hy as (r & <- & Hr). specialize (Hle r Hr).
        assert (rt_line r <> rt_line x) by (intros E; apply Nin; rewrite <- E; apply in_map; exact Hr). lia.
      - intros l. rewrite !in_app_iff, I2. tauto.
      - intros r Hr. rewrite calls_at_app. unfold calls_at at 2. cbn [filter]. apply in_app_iff in Hr as [Hr|[<-|[]]].
        + rewrite (I3 r Hr). destruct (N.eqb_spec (rt_line x) (rt_line r)) as [E|_].
          * exfalso. apply Nin. rewrite E. apply in_map. exact Hr.
          * cbn. f_equal. lia.
        + rewrite N.eqb_refl. cbn. rewrite calls_at_none by (rewrite <- I2; exact Nin).
          unfold u32. rewrite N.mod_small; lia. }
    unfold snoc_ret. destruct D as [D|(m0 & l & Em & D)]; rewrite D.
    + assert (m = []) as Em by (rewrite <- (rev_involutive m), D; reflexivity). rewrite Em in *.
      destruct Fresh as (F1 & F2 & F3); [intros []|]. cbn [app] in *. repeat (split; [assumption|]).
      intros pre y E. apply app_inj_tail in E as [_ ->]. exists [], y. auto.
    + destruct (N.eqb_spec (rt_line x) (rt_line l)) as [Ex|Ex].
      * rewrite rev_involutive. set (l' := Ret (rt_line l) (u32 (rt_calls l + rt_calls x))).
        assert (lines (m0 ++ [l']) = lines m) as E1 by (rewrite Em; unfold lines; rewrite !map_app; reflexivity).
        rewrite E1, El. split; [exact I1|]. split; [|split].
        -- intros k. rewrite in_app_iff, I2. cbn. split; [tauto|]. intros [H|[<-|[]]]; [exact H|]. apply I2. rewrite Ex, Em.
           unfold lines. rewrite map_app, in_app_iff. right. left. reflexivity.
        -- intros r Hr. rewrite calls_at_app. unfold calls_at at 2. cbn [filter]. apply in_app_iff in Hr as [Hr|[<-|[]]].
           ++ rewrite (I3 r) by (rewrite Em, in_app_iff; left; exact Hr).
              destruct (N.eqb_spec (rt_line x) (rt_line r)) as [E|_]; [|cbn; f_equal; lia]. exfalso.
              rewrite Em in I1. unfold lines in I1. rewrite map_app in I1. clear - I1 Hr E Ex.
              induction m0 as [|z m0 IHm]; [destruct Hr|]. cbn in I1. inversion I1 as [|? ? Ha Hf]; subst.
              destruct Hr as [->|Hr]; [|auto]. apply Forall_app in Hf as [_ Hf]. inversion Hf; subst. lia.
           ++ cbn [rt_line]. rewrite Ex, N.eqb_refl. cbn.
              rewrite (I3 l) by (rewrite Em, in_app_iff; right; left; reflexivity). rewrite u32_add. f_equal. lia.
        -- intros pre y E. apply app_inj_tail in E as [_ <-]. exists m0, l'. split; [reflexivity|]. cbn. congruence.
      * assert (~ In (rt_line x) (lines m)) as Nin.
        { intros Hin. apply in_map_iff in Hin as (r & Er & Hr). rewrite Em in Hr, I1. apply in_app_iff in Hr as [Hr|[->|[]]]; [|congruence].
          assert (rt_line r < rt_line l)%N.
          { clear - I1 Hr. unfold lines in I1. rewrite map_app in I1. induction m0 as [|z m0 IHm]; [destruct Hr|].
            cbn in I1. inversion I1 as [|? ? Ha Hf]; subst. destruct Hr as [->|Hr]; [|auto].
            apply Forall_app in Hf as [_ Hf]. inversion Hf; subst. assumption. }
          specialize (Hle l). rewrite Em, in_app_iff in Hle. specialize (Hle (or_intror (or_introl eq_refl))). lia. }
        destruct (Fresh Nin) as (F1 & F2 & F3). repeat (split; [assumption|]).
        intros pre y E. apply app_inj_tail in E as [_ <-]. exists m, x. auto.
Qed.

(** Merging, with its shared array and unstable sort, gives for every input the
    list strictly increasing in lines with exactly the lines of the input, each
    with the 32-bit sum of the counts at that line. *)
Theorem C29_merge_is_exact : forall sort infos,
  sorts sort -> (forall r, In r infos -> (rt_calls r < 4294967296)%N) ->
  let m := merge_returns sort infos in
  StronglySorted N.lt (map rt_line m) /\
  (forall line, In line (map rt_line m) <-> In line (map rt_line infos)) /\
  (forall r, In r m -> rt_calls r = u32 (calls_at (rt_line r) infos)).
Proof.
  intros sort infos Hs Hc. cbn zeta. destruct (Hs infos) as [Hp Hso]. rewrite merge_is_snoc by (intros l; apply Hs).
  destruct (snoc_spec (sort infos) Hso) as (H1 & H2 & H3 & _).
  { intros r Hr. apply Hc. eapply Permutation_in; eassumption. }
  split; [exact H1|]. split.
  - intros line. fold (lines (fold_left snoc_ret (sort infos) [])). rewrite H2. unfold lines.
    split; intros H; eapply Permutation_in; try exact H; apply Permutation_map; [exact Hp|symmetry; exact Hp].
  - intros r Hr. rewrite H3 by exact Hr. f_equal. apply calls_at_perm. exact Hp.
Qed.
Print Assumptions C29_merge_is_exact.

(** So the result does not depend on what the sort does with equal lines. *)
Theorem C29_independent_of_the_sort : forall sort sort' infos,
  sorts sort -> sorts sort' -> (forall r, In r infos -> (rt_calls r < 4294967296)%N) ->
  merge_returns sort infos = merge_returns sort' infos.
Proof.
  intros sort sort' infos Hs Hs' Hc.
  destruct (C29_merge_is_exact sort infos Hs Hc) as (A1 & A2 & A3).
  destruct (C29_merge_is_exact sort' infos Hs' Hc) as (B1 & B2 & B3).
  assert (lines (merge_returns sort infos) = lines (merge_returns sort' infos)) as E.
  { unfold lines. assert (forall l, In l (map rt_line (merge_returns sort infos)) <-> In l (map rt_line (merge_returns sort' infos))) as C
      by (intros l; rewrite A2, B2; reflexivity).
    clear A2 A3 B2 B3. revert A1 B1 C. generalize (map rt_line (merge_returns sort infos)), (map rt_line (merge_returns sort' infos)).
    induction l as [|x l IH]; intros [|y l'] A1 B1 C; auto.
    - exfalso. apply (C y). left; reflexivity.
    - exfalso. apply (C x). left; reflexivity.
    - inversion A1 as [|? ? A Fa]; inversion B1 as [|? ? B_ Fb]; subst. rewrite Forall_forall in Fa, Fb.
      assert (x = y) as ->.
      { destruct (proj1 (C x) (or_introl eq_refl)) as [|Hx]; [congruence|]. destruct (proj2 (C y) (or_introl eq_refl)) as [|Hy]; [congruence|].
        specialize (Fa _ Hy). specialize (Fb _ Hx). lia. }
      f_equal. apply IH; auto. intros z. split; intros Hz.
      + destruct (proj1 (C z) (or_intror Hz)) as [<-|]; [specialize (Fa _ Hz); lia|assumption].
      + destruct (proj2 (C z) (or_intror Hz)) as [<-|]; [specialize (Fb _ Hz); lia|assumption]. }
  clear A1 A2 B1 B2. revert E A3 B3. generalize (merge_returns sort infos), (merge_returns sort' infos).
  induction l as [|[lx cx] l IH]; intros [|[ly cy] l'] E A3 B3; try discriminate; auto.
  cbn in E. injection E as -> E. f_equal; [f_equal|apply IH; [exact E|intros; apply A3; right; assumption|intros; apply B3; right; assumption]].
  pose proof (A3 (Ret ly cx) (or_introl eq_refl)) as Ea. pose proof (B3 (Ret ly cy) (or_introl eq_refl)) as Eb. cbn in Ea, Eb. congruence.
Qed.
Print Assumptions C29_independent_of_the_sort.

(** A function's return points from its SSA form: exactly the lines of its
    returns and of the last instructions of its exit blocks; and it counts as
    ending in a panic exactly when it declares results, has a panic and no
    return written in the source. *)
Theorem C29_ssa_return_points : forall sort has_results blocks,
  sorts sort ->
  let '(rets, panics) := ssa_returns sort has_results blocks in
  StronglySorted N.lt (map rt_line rets) /\
  (forall line, In line (map rt_line rets) <->
     exists b l, In b blocks /\ line = u32 l /\
       ((exists cs, In (IReturn (Some l) cs) (bk_instrs b)) \/
        (bk_succs b = 0%nat /\ exists is i, bk_instrs b = is ++ [i] /\ instr_pos i = Some l))) /\
  (panics = true <-> has_results = true /\
     (exists b p, In b blocks /\ In (IPanic p) (bk_instrs b)) /\
     ~ exists b l cs, In b blocks /\ In (IReturn (Some l) cs) (bk_instrs b)).
Proof.
  intros sort hr blocks Hs. unfold ssa_returns.
  set (infos := flat_map _ blocks).
  assert (forall r, In r infos -> (rt_calls r < 4294967296)%N) as Hc.
  { intros r Hr. apply in_flat_map in Hr as (b & _ & Hr). apply in_app_iff in Hr as [Hr|Hr].
    - apply in_flat_map in Hr as (i & _ & Hr). destruct i as [[l|] cs| | |]; cbn in Hr; try destruct Hr as [<-|[]]; try destruct Hr.
      cbn. unfold u32. apply N.mod_lt. lia.
    - unfold exit_rets in Hr. destruct (bk_succs b); [|destruct Hr]. destruct (rev (bk_instrs b)) as [|i is]; [destruct Hr|].
      destruct (instr_pos i); [|destruct Hr]. destruct Hr as [<-|[]]. cbn. destruct i; lia. }
  destruct (C29_merge_is_exact sort infos Hs Hc) as (H1 & H2 & _).
  split; [exact H1|]. split.
  - intros line. rewrite H2. unfold infos. rewrite in_map_iff. split.
    + intros (r & <- & Hr). apply in_flat_map in Hr as (b & Hb & Hr). apply in_app_iff in Hr as [Hr|Hr].
      * apply in_flat_map in Hr as (i & Hi & Hr). destruct i as [[l|] cs| | |]; cbn in Hr; try destruct Hr as [<-|[]]; try destruct Hr.
        exists b, l. split; [exact Hb|]. split; [reflexivity|]. left. exists cs. exact Hi.
      * unfold exit_rets in Hr. destruct (bk_succs b) eqn:Es; [|destruct Hr]. destruct (rev (bk_instrs b)) as [|i is] eqn:Er; [destruct Hr|].
        destruct (instr_pos i) as [l|] eqn:Ei; [|destruct Hr]. destruct Hr as [<-|[]].
        exists b, l. split; [exact Hb|]. split; [reflexivity|]. right. split; [exact Es|]. exists (rev is), i.
        split; [rewrite <- (rev_involutive (bk_instrs b)), Er; reflexivity|exact Ei].
    + intros (b & l & Hb & -> & [(cs & Hi)|(Es & is & i & Ei & Ep)]).
      * eexists. split; [|apply in_flat_map; exists b; split; [exact Hb|]; apply in_app_iff; left; apply in_flat_map; exists (IReturn (Some l) cs); split; [exact Hi|left; reflexivity]]. reflexivity.
      * exists (Ret (u32 l) (match i with ICall _ => 1 | _ => 0 end)%N). split; [reflexivity|]. apply in_flat_map. exists b. split; [exact Hb|].
        apply in_app_iff. right. unfold exit_rets. rewrite Es, Ei, rev_app_distr. cbn. rewrite Ep. left. reflexivity.
  - rewrite !Bool.andb_true_iff, Bool.negb_true_iff. split.
    + intros [[Hr Hn] Hp]. split; [exact Hr|]. split.
      * apply existsb_exists in Hp as (b & Hb & Hp). apply existsb_exists in Hp as (i & Hi & Hp). destruct i; try discriminate. exists b, pos. auto.
      * intros (b & l & cs & Hb & Hi). apply Bool.not_true_iff_false in Hn. apply Hn. apply existsb_exists. exists b. split; [exact Hb|].
        apply existsb_exists. eexists. split; [exact Hi|reflexivity].
    + intros (Hr & (b & p & Hb & Hi) & Hn). split; [split; [exact Hr|]|].
      * apply Bool.not_true_iff_false. intros H. apply Hn. apply existsb_exists in H as (b' & Hb' & H). apply existsb_exists in H as (i & Hi' & H).
        destruct i as [[l|] cs| | |]; try discriminate. exists b', l, cs. auto.
      * apply existsb_exists. exists b. split; [exact Hb|]. apply existsb_exists. exists (IPanic p). split; [exact Hi|reflexivity].
Qed.
Print Assumptions C29_ssa_return_points.

(** [outer n m]: [m] lies in [n] without a function literal, or a return with a
    position, strictly above it or a literal being it. *)
Inductive outer : node -> node -> Prop :=
  | outer_here n : (forall p ks, n <> Node KFuncLit p ks) -> outer n n
  | outer_kid k p ks c m : k <> KFuncLit -> ~ (k = KReturn /\ p <> None) -> In c ks -> outer c m -> outer (Node k p ks) m.

Section NodeInd.
  Variable P : node -> Prop.
  Hypothesis HN : forall k p ks, Forall P ks -> P (Node k p ks).
  Fixpoint node_ind' (n : node) : P n :=
    match n with
    | Node k p ks => HN k p ks ((fix go (l : list node) : Forall P l :=
                                   match l with [] => Forall_nil P | x :: l' => Forall_cons x (node_ind' x) (go l') end) ks)
    end.
End NodeInd.

Lemma walk_rets_spec n : forall r, In r (walk_rets n) <->
  exists l ks, outer n (Node KReturn (Some l) ks) /\ r = Ret (u32 l) (u32 (fold_right N.add 0%N (map count_calls ks))).
Proof.
  induction n as [k p ks IH] using node_ind'. intros r. rewrite Forall_forall in IH.
  assert (k <> KFuncLit -> ~ (k = KReturn /\ p <> None) ->
    (In r (flat_map walk_rets ks) <-> exists l ks0, outer (Node k p ks) (Node KReturn (Some l) ks0) /\ r = Ret (u32 l) (u32 (fold_right N.add 0%N (map count_calls ks0))))) as G.
  { intros N1 N2. rewrite in_flat_map. split.
    - intros (c & Hc & Hr). apply (IH c Hc) in Hr as (l & ks0 & Ho & ->). exists l, ks0. split; [|reflexivity]. eapply outer_kid; eauto.
    - intros (l & ks0 & Ho & ->). inversion Ho; subst.
      + exfalso. apply N2. split; congruence.
      + exists c. split; [assumption|]. apply IH; [assumption|]. eauto. }
  destruct k; cbn [walk_rets].
  - split; [intros []|]. intros (l & ks0 & Ho & _). inversion Ho; congruence.
  - destruct p as [l|].
    + split.
      * intros [<-|[]]. exists l, ks. split; [apply outer_here; congruence|reflexivity].
      * intros (l0 & ks0 & Ho & ->). inversion Ho; subst; [left; reflexivity|]. exfalso. match goal with H : ~ (_ /\ _) |- _ => apply H; split; congruence end.
    + apply G; [congruence|]. intros [_ H]. congruence.
  - destruct p; apply G; intuition congruence.
  - destruct p; apply G; intuition congruence.
  - destruct p; apply G; intuition congruence.
Qed.

Lemma walk_panics_spec n : walk_panics n <> 0%nat <-> exists p ks, outer n (Node KPanic p ks).
Proof.
  induction n as [k p ks IH] using node_ind'. rewrite Forall_forall in IH.
  assert (fold_right Nat.add 0%nat (map walk_panics ks) <> 0%nat <-> exists c, In c ks /\ walk_panics c <> 0%nat) as Hf.
  { clear. induction ks as [|c ks IH]; cbn; [split; [congruence|intros (c & [] & _)]|]. split.
    - intros H. destruct (Nat.eq_dec (walk_panics c) 0) as [E|E]; [|exists c; auto]. destruct (proj1 IH) as (d & Hd & H'); [lia|]. exists d. auto.
    - intros (d & [<-|Hd] & H); [lia|]. assert (fold_right Nat.add 0%nat (map walk_panics ks) <> 0%nat) by (apply IH; exists d; auto). lia. }
  assert (k <> KFuncLit -> k <> KPanic -> ~ (k = KReturn /\ p <> None) ->
    (fold_right Nat.add 0%nat (map walk_panics ks) <> 0%nat <-> exists p0 ks0, outer (Node k p ks) (Node KPanic p0 ks0))) as G.
  { intros N1 N2 N3. rewrite Hf. split.
    - intros (c & Hc & Hr). apply (IH c Hc) in Hr as (p0 & ks0 & Ho). exists p0, ks0. eapply outer_kid; eauto.
    - intros (p0 & ks0 & Ho). inversion Ho; subst; [congruence|]. exists c. split; [assumption|]. apply IH; [assumption|]. eauto. }
  destruct k; cbn [walk_panics].
  - split; [congruence|]. intros (l & ks0 & Ho). inversion Ho; congruence.
  - destruct p as [l|].
    + split; [congruence|]. intros (l0 & ks0 & Ho). inversion Ho; subst. exfalso. match goal with H : ~ (_ /\ _) |- _ => apply H; split; congruence end.
    + cbn [plus]. apply G; intuition congruence.
  - destruct p; cbn [plus]; (split; [intros _; eexists _, ks; apply outer_here; congruence|lia]).
  - destruct p; cbn [plus]; apply G; intuition congruence.
  - destruct p; cbn [plus]; apply G; intuition congruence.
Qed.

(** A function's return points from its syntax: the lines of exactly the return
    statements outside function literals; ending in a panic means results, no
    such return, and some call of [panic] outside function literals. *)
Theorem C29_ast_return_points : forall sort has_results body,
  sorts sort ->
  let '(rets, panics) := ast_returns sort has_results (Some body) in
  StronglySorted N.lt (map rt_line rets) /\
  (forall line, In line (map rt_line rets) <-> exists l ks, outer body (Node KReturn (Some l) ks) /\ line = u32 l) /\
  (panics = true <-> has_results = true /\ (exists p ks, outer body (Node KPanic p ks)) /\
     ~ exists l ks, outer body (Node KReturn (Some l) ks)).
Proof.
  intros sort hr body Hs. unfold ast_returns.
  destruct (C29_merge_is_exact sort (walk_rets body) Hs) as (H1 & H2 & _).
  { intros r Hr. apply walk_rets_spec in Hr as (l & ks & _ & ->). cbn. unfold u32. apply N.mod_lt. lia. }
  split; [exact H1|]. split.
  - intros line. rewrite H2, in_map_iff. split.
    + intros (r & <- & Hr). apply walk_rets_spec in Hr as (l & ks & Ho & ->). exists l, ks. auto.
    + intros (l & ks & Ho & ->). eexists. split; [|apply walk_rets_spec; exists l, ks; split; [exact Ho|reflexivity]]. reflexivity.
  - rewrite !Bool.andb_true_iff, Nat.eqb_eq, Bool.negb_true_iff, Nat.eqb_neq, walk_panics_spec. split.
    + intros [[H3 H4] H5]. split; [exact H3|]. split; [exact H5|]. intros (l & ks & Ho).
      assert (In (Ret (u32 l) (u32 (fold_right N.add 0%N (map count_calls ks)))) (walk_rets body)) as Hin by (apply walk_rets_spec; eauto).
      destruct (walk_rets body); [destruct Hin|discriminate].
    + intros (H3 & H4 & H5). split; [split; [exact H3|]|exact H4].
      destruct (walk_rets body) as [|r rs] eqn:E; [reflexivity|]. exfalso. apply H5.
      destruct (proj1 (walk_rets_spec body r)) as (l & ks & Ho & _); [rewrite E; left; reflexivity|]. eauto.
Qed.
Print Assumptions C29_ast_return_points.

(** An insertion sort, as an instance of [sorts]. *)
Fixpoint ins_ret (r : retpoint) (l : list retpoint) : list retpoint :=
  match l with [] => [r] | x :: l' => if (rt_line r <=? rt_line x)%N then r :: l else x :: ins_ret r l' end.
Definition isort (l : list retpoint) : list retpoint := fold_right ins_ret [] l.
Lemma isort_sorts : sorts isort.
Proof.
  assert (forall r l, Permutation (ins_ret r l) (r :: l)) as Hp.
  { induction l as [|x l IH]; cbn; [reflexivity|]. destruct (rt_line r <=? rt_line x)%N; [reflexivity|].
    rewrite IH. apply perm_swap. }
  intros l. induction l as [|r l [IH1 IH2]]; cbn; [split; constructor|]. split.
  - etransitivity; [apply Hp|]. apply perm_skip. exact IH1.
  - fold (isort l). revert IH2. generalize (isort l). clear IH1 l. induction l as [|x l IH]; cbn; intros H; [repeat constructor|].
    inversion H as [|? ? H1 H2]; subst. destruct (N.leb_spec (rt_line r) (rt_line x)).
    + cbn. constructor; [exact H|]. constructor; [assumption|]. eapply Forall_impl; [|exact H2]. cbn; intros; lia.
    + cbn. constructor; [apply IH; exact H1|]. apply Forall_forall. intros y Hy. apply in_map_iff in Hy as (z & <- & Hz).
      apply (Permutation_in _ (Hp r l)) in Hz. destruct Hz as [<-|Hz]; [lia|]. rewrite Forall_forall in H2. apply H2. apply in_map. exact Hz.
Qed.
Example C29_example :
  merge_returns isort [Ret 9 1; Ret 4 0; Ret 9 2; Ret 4 5; Ret 7 0] = [Ret 4 5; Ret 7 0; Ret 9 3] /\
  merge_returns isort [Ret 4 4294967295; Ret 4 2] = [Ret 4 1] /\
  ssa_returns isort true [Blk [IOther (Some 3%N); IReturn (Some 5%N) [true; false]] 0; Blk [ICall (Some 8%N)] 0] = ([Ret 5 1; Ret 8 1], false) /\
  ast_returns isort true (Some (Node KOther None [Node KFuncLit None [Node KReturn (Some 2%N) []]; Node KPanic (Some 3%N) []])) = ([], true).
Proof. repeat split. Qed.

(** ** C28: the backward search *)

Section Reach.
Variable ins : nat -> list (option nat).
Variable root : nat -> bool.

(** [reaches s n]: by calls, [n] reaches [s] through functions none of which,
    other than [n] itself, is a root. *)
Inductive reaches (s : nat) : nat -> Prop :=
  | reach_start : reaches s s
  | reach_caller x y : reaches s x -> root x = false -> In (Some y) (ins x) -> reaches s y.

Lemma push_spec es : forall v st v' st', push es v st = (v', st') ->
  exists new, v' = new ++ v /\ st' = new ++ st /\ NoDup new /\ (forall y, In y new -> In (Some y) es /\ ~ In y v) /\
    (forall y, In (Some y) es -> In y v').
Proof.
  induction es as [|[c|] es IH]; intros v st v' st' H; cbn in H.
  - injection H as <- <-. exists []. split; [reflexivity|]. split; [reflexivity|]. split; [constructor|]. split; [intros y []|intros y []].
  - destruct (existsb (Nat.eqb c) v) eqn:E.
    + destruct (IH _ _ _ _ H) as (new & H1 & H2 & H3 & H4 & H5). exists new.
      split; [exact H1|]. split; [exact H2|]. split; [exact H3|]. split; [intros y Hy; destruct (H4 y Hy); split; [right|]; assumption|].
      intros y [[= ->]|Hy]; [|auto]. apply existsb_exists in E as (z & Hz & Ez). apply Nat.eqb_eq in Ez as <-.
      rewrite H1. apply in_app_iff. right. exact Hz.
    + destruct (IH _ _ _ _ H) as (new & H1 & H2 & H3 & H4 & H5). exists (new ++ [c]). rewrite <- !app_assoc. cbn.
      split; [exact H1|]. split; [exact H2|]. split; [|split].
      * apply NoDup_app_iff. split; [exact H3|]. split; [repeat constructor; intros []|].
        intros x Hx [<-|[]]. apply (proj2 (H4 _ Hx)). left; reflexivity.
      * intros y Hy. apply in_app_iff in Hy as [Hy|[<-|[]]].
        -- destruct (H4 y Hy) as [Ha Hb]. split; [right; exact Ha|]. intros Hv. apply Hb. right. exact Hv.
        -- split; [left; reflexivity|]. intros Hv. assert (existsb (Nat.eqb c) v = true); [|congruence].
           apply existsb_exists. exists c. split; [exact Hv|apply Nat.eqb_refl].
      * intros y [[= ->]|Hy]; [|auto]. rewrite H1. apply in_app_iff. right. left. reflexivity.
  - destruct (IH _ _ _ _ H) as (new & H1 & H2 & H3 & H4 & H5). exists new.
    split; [exact H1|]. split; [exact H2|]. split; [exact H3|]. split; [intros y Hy; destruct (H4 y Hy); split; [right|]; assumption|].
    intros y [E|Hy]; [discriminate|auto].
Qed.

Variable ok : nat -> bool.

Record dinv (s : nat) (visited stack trace : list nat) : Prop := {
  d_nodup : NoDup (stack ++ trace);
  d_vis : forall x, In x visited <-> In x stack \/ In x trace;
  d_reach : forall x, In x visited -> reaches s x;
  d_closed : forall x, In x trace -> root x = false -> forall y, In (Some y) (ins x) -> In y visited;
  d_start : In s visited;
  d_ok : forall x, In x trace -> ok x = true
}.

Lemma dinv_init s : dinv s [s] [s] [].
Proof.
  split; cbn; try tauto.
  - repeat constructor. intros [].
  - intros x [<-|[]]. apply reach_start.
Qed.

Lemma dfs_step s v n st t : dinv s v (n :: st) t -> ok n = true ->
  if root n then dinv s v st (t ++ [n])
  else forall v' st', push (ins n) v st = (v', st') -> dinv s v' st' (t ++ [n]).
Proof.
  intros [I1 I2 I3 I4 I5 I6] Hok.
  assert (forall x, In x v <-> In x st \/ In x (t ++ [n])) as Hv.
  { intros x. rewrite I2, in_app_iff. cbn. tauto. }
  assert (NoDup (st ++ t ++ [n])) as Hn.
  { rewrite app_assoc. apply (Permutation_NoDup (l := n :: st ++ t)); [apply Permutation_cons_append|exact I1]. }
  assert (forall x, In x (t ++ [n]) -> ok x = true) as Ho by (intros x Hx; apply in_app_iff in Hx as [Hx|[<-|[]]]; auto).
  destruct (root n) eqn:Er.
  - split; auto. intros x Hx Hr y Hy. apply in_app_iff in Hx as [Hx|[<-|[]]]; [eapply I4; eassumption|congruence].
  - intros v' st' Hp. destruct (push_spec _ _ _ _ _ Hp) as (new & -> & -> & H3 & H4 & H5). split; auto.
    + rewrite <- app_assoc. apply NoDup_app_iff. split; [exact H3|]. split; [exact Hn|].
      intros x Hx Hy. destruct (H4 x Hx) as [_ Hnv]. apply Hnv. apply Hv. apply in_app_iff in Hy. exact Hy.
    + intros x. rewrite !in_app_iff, Hv, in_app_iff. tauto.
    + intros x Hx. apply in_app_iff in Hx as [Hx|Hx]; [|auto]. apply (reach_caller s n); [|exact Er|apply H4; exact Hx].
      apply I3, I2. left. left. reflexivity.
    + intros x Hx Hr y Hy. apply in_app_iff in Hx as [Hx|[<-|[]]]; [apply in_app_iff; right; eapply I4; eassumption|].
      apply H5. exact Hy.
    + apply in_app_iff. right. exact I5.
Qed.

Lemma dfs_done s : forall fuel v st t tr, dinv s v st t -> dfs_loop ins root ok fuel v st t = DfsDone tr ->
  NoDup tr /\ (forall n, In n tr <-> reaches s n) /\ (forall n, In n tr -> ok n = true).
Proof.
  induction fuel as [|fuel IH]; intros v st t tr I H; cbn in H.
  - destruct st; [|discriminate]. injection H as <-. destruct I as [I1 I2 I3 I4 I5 I6]. split; [exact I1|]. split; [|exact I6].
    intros n. split; [intros Hn; apply I3, I2; right; exact Hn|].
    induction 1 as [|x y Hx IHx Hr Hy]; [destruct (proj1 (I2 _) I5) as [[]|]; assumption|].
    destruct (proj1 (I2 y) (I4 x IHx Hr y Hy)) as [[]|]; assumption.
  - destruct st as [|n st].
    + injection H as <-. destruct I as [I1 I2 I3 I4 I5 I6]. split; [exact I1|]. split; [|exact I6].
      intros n. split; [intros Hn; apply I3, I2; right; exact Hn|].
      induction 1 as [|x y Hx IHx Hr Hy]; [destruct (proj1 (I2 _) I5) as [[]|]; assumption|].
      destruct (proj1 (I2 y) (I4 x IHx Hr y Hy)) as [[]|]; assumption.
    + destruct (ok n) eqn:Eo; cbn [negb] in H; [|discriminate].
      pose proof (dfs_step _ _ _ _ _ I Eo) as Hs. destruct (root n).
      * eapply IH; eassumption.
      * destruct (push (ins n) v st) as [v' st'] eqn:Ep. eapply IH; [apply Hs; reflexivity|exact H].
Qed.

Lemma dfs_error s : forall fuel v st t tr, dinv s v st t -> dfs_loop ins root ok fuel v st t = DfsError tr ->
  exists n, reaches s n /\ ok n = false.
Proof.
  induction fuel as [|fuel IH]; intros v st t tr I H; cbn in H; destruct st as [|n st]; try discriminate.
  destruct (ok n) eqn:Eo; cbn [negb] in H.
  - pose proof (dfs_step _ _ _ _ _ I Eo) as Hs. destruct (root n).
    + eapply IH; eassumption.
    + destruct (push (ins n) v st) as [v' st'] eqn:Ep. eapply IH; [apply Hs; reflexivity|exact H].
  - exists n. split; [|exact Eo]. apply (d_reach _ _ _ _ I), (d_vis _ _ _ _ I). left. left. reflexivity.
Qed.

Variable nodes : list nat.
Hypothesis closed : forall x y, In x nodes -> In (Some y) (ins x) -> In y nodes.

Lemma reaches_in s n : In s nodes -> reaches s n -> In n nodes.
Proof using closed. induction 2; eauto. Qed.

Lemma dfs_fuel s : In s nodes -> forall fuel v st t, dinv s v st t ->
  (length nodes < fuel + length t)%nat -> dfs_loop ins root ok fuel v st t <> DfsFuel.
Proof using closed.
  intros Hs. induction fuel as [|fuel IH]; intros v st t I Hf H.
  - assert (length t <= length nodes)%nat; [|cbn in Hf; lia]. apply NoDup_incl_length.
    + pose proof (d_nodup _ _ _ _ I) as Hn. apply NoDup_app_iff in Hn. apply Hn.
    + intros x Hx. apply (reaches_in s); [exact Hs|]. apply (d_reach _ _ _ _ I), (d_vis _ _ _ _ I). right. exact Hx.
  - cbn in H. destruct st as [|n st]; [discriminate|]. destruct (ok n) eqn:Eo; cbn [negb] in H; [|discriminate].
    pose proof (dfs_step _ _ _ _ _ I Eo) as Hst. destruct (root n).
    + apply (IH v st (t ++ [n])); [assumption| |exact H]. rewrite app_length. cbn. lia.
    + destruct (push (ins n) v st) as [v' st'] eqn:Ep. apply (IH v' st' (t ++ [n])); [apply Hst; reflexivity| |exact H].
      rewrite app_length. cbn. lia.
Qed.
End Reach.

(** The search calls its callback on exactly the functions that lead to the start
    without passing another root, each once. *)
Theorem C28_search_visits_exactly_the_callers : forall ins root ok fuel start trace,
  reverse_dfs ins root ok fuel start = DfsDone trace ->
  NoDup trace /\ (forall n, In n trace <-> reaches ins root start n).
Proof.
  intros ins root ok fuel start trace H. destruct (dfs_done ins root ok start fuel _ _ _ _ (dinv_init ins root ok start) H) as (H1 & H2 & _). auto.
Qed.
Print Assumptions C28_search_visits_exactly_the_callers.

(** On every finite graph, cycles included, it ends, and it fails exactly when the
    callback fails on one of those functions. *)
Theorem C28_search_terminates : forall ins root ok nodes start,
  (forall x y, In x nodes -> In (Some y) (ins x) -> In y nodes) -> In start nodes ->
  forall fuel, (length nodes < fuel)%nat ->
  ((forall n, reaches ins root start n -> ok n = true) /\ exists t, reverse_dfs ins root ok fuel start = DfsDone t) \/
  ((exists n, reaches ins root start n /\ ok n = false) /\ exists t, reverse_dfs ins root ok fuel start = DfsError t).
Proof.
  intros ins root ok nodes start Hc Hs fuel Hf. destruct (reverse_dfs ins root ok fuel start) as [t|t|] eqn:E.
  - left. split; [|eauto]. destruct (dfs_done ins root ok start fuel _ _ _ _ (dinv_init ins root ok start) E) as (_ & H2 & H3).
    intros n Hn. apply H3, H2, Hn.
  - right. split; [|eauto]. exact (dfs_error ins root ok start fuel _ _ _ _ (dinv_init ins root ok start) E).
  - exfalso. revert E. apply (dfs_fuel ins root ok nodes Hc start Hs); [apply dinv_init|cbn; lia].
Qed.
Print Assumptions C28_search_terminates.

(** Grouping. *)
Lemma group_spec es : forall k,
  match mget k (group es) with
  | None => forall i, ~ In (k, i) es
  | Some l => l <> [] /\ NoDup l /\ forall i, In i l <-> In (k, i) es
  end.
Proof.
  unfold group. induction es as [|e es IH] using rev_ind; intros k; [cbn; tauto|].
  rewrite fold_left_app. cbn [fold_left]. destruct e as [k' i']. set (m := fold_left group_add es []) in *.
  unfold group_add. cbn [fst snd]. pose proof (IH k') as IHk'. specialize (IH k).
  destruct (mget k' m) as [l'|] eqn:E'.
  - destruct IHk' as (N' & D' & I'). destruct (existsb (beq i') l') eqn:Ee.
    + apply existsb_exists in Ee as (z & Hz & Ez). apply beq_true in Ez as <-.
      assert (forall i, In (k, i) (es ++ [(k', i')]) <-> In (k, i) es) as Hi.
      { intros i. rewrite in_app_iff. cbn. split; [|tauto]. intros [H|[[= <- <-]|[]]]; [exact H|apply I', Hz]. }
      destruct (mget k m); [|intros i; rewrite Hi; apply IH]. destruct IH as (A & B_ & C). split; [exact A|]. split; [exact B_|].
      intros i. rewrite Hi. apply C.
    + rewrite mget_mset. destruct (beq_spec k k') as [->|Nk].
      * split; [destruct l'; discriminate|]. split.
        -- apply NoDup_app_iff. split; [exact D'|]. split; [repeat constructor; intros []|]. intros x Hx [<-|[]].
           assert (existsb (beq i') l' = true); [|congruence]. apply existsb_exists. exists i'. split; [exact Hx|apply beq_refl].
        -- intros i. rewrite !in_app_iff, I'. cbn. split; [intros [H|[->|[]]]; auto|intros [H|[[= ->]|[]]]; auto].
      * assert (forall i, In (k, i) (es ++ [(k', i')]) <-> In (k, i) es) as Hi.
        { intros i. rewrite in_app_iff. cbn. split; [|tauto]. intros [H|[[= <- <-]|[]]]; [exact H|congruence]. }
        destruct (mget k m); [|intros i; rewrite Hi; apply IH]. destruct IH as (A & B_ & C). split; [exact A|]. split; [exact B_|].
        intros i. rewrite Hi. apply C.
  - rewrite mget_mset. destruct (beq_spec k k') as [->|Nk].
    + split; [discriminate|]. split; [repeat constructor; intros []|]. intros i. rewrite in_app_iff. cbn. split.
      * intros [->|[]]. auto.
      * intros [H|[[= ->]|[]]]; [exfalso; eapply IHk'; exact H|auto].
    + assert (forall i, In (k, i) (es ++ [(k', i')]) <-> In (k, i) es) as Hi.
      { intros i. rewrite in_app_iff. cbn. split; [|tauto]. intros [H|[[= <- <-]|[]]]; [exact H|congruence]. }
      destruct (mget k m); [|intros i; rewrite Hi; apply IH]. destruct IH as (A & B_ & C). split; [exact A|]. split; [exact B_|].
      intros i. rewrite Hi. apply C.
Qed.

Lemma searches_spec ins info fuel root ok records starts : forall es,
  searches ins info fuel root ok records starts = inr es ->
  forall k id, In (k, id) es <-> exists s n, In (s, id) starts /\ reaches ins root s n /\ records s n = true /\ f_ident (info n) = k.
Proof.
  induction starts as [|[s0 id0] starts IH]; intros es H k id; cbn [searches] in H.
  - injection H as <-. cbn. split; [tauto|]. intros (s & n & [] & _).
  - destruct (reverse_dfs ins root (ok s0) fuel s0) as [t|t|] eqn:E; [|destruct (searches _ _ _ _ _ _ _); discriminate|discriminate].
    destruct (searches ins info fuel root ok records starts) as [e|es0]; [discriminate|]. injection H as <-.
    destruct (C28_search_visits_exactly_the_callers _ _ _ _ _ _ E) as [_ Ht].
    rewrite in_app_iff, (IH es0 eq_refl), in_flat_map. split.
    + intros [(n & Hn & Hr)|(s & n & H)].
      * destruct (records s0 n) eqn:Er; [|destruct Hr]. destruct Hr as [[= <- <-]|[]]. exists s0, n.
        split; [left; reflexivity|]. split; [apply Ht; exact Hn|]. auto.
      * exists s, n. destruct H as (H1 & H2). split; [right; exact H1|exact H2].
    + intros (s & n & [[= <- <-]|Hs] & Hr & Hrec & Hk); [left; exists n; split; [apply Ht; exact Hr|]; rewrite Hrec, Hk; left; reflexivity|].
      right. exists s, n. auto.
Qed.

(** What makes a function a caller: it belongs to a package and to the project, is
    not the changed function itself nor a root, is hand written, is compiled
    here, and can be instrumented. *)
Definition eligible (info : nat -> fninfo) (s n : nat) : Prop :=
  f_nil (info n) = false /\ n <> s /\ f_pkg (info n) = true /\ f_main_or_init (info n) = false /\
  f_within (info n) = Some true /\ is_generated_file (f_file (info n)) = false /\
  f_compiled (info n) = Some true /\ f_supported (info n) = true.

Lemma records_caller_spec info s n : records_caller info s n = true <-> eligible info s n.
Proof.
  unfold records_caller, candidate, caller_root, eligible. rewrite !Bool.andb_true_iff, !Bool.negb_true_iff, Nat.eqb_neq.
  destruct (f_within (info n)) as [[]|]; destruct (f_compiled (info n)) as [[]|]; intuition congruence.
Qed.

(** The callers found, and the changed functions found for each, are exactly those
    connected by a backward search from the function that stands for the change,
    whatever the interleaving of the searches. *)
Theorem C28_callers_exact : forall ins info nodes shuffle fuel changes m,
  (forall l, Permutation (shuffle l) l) ->
  caller_analysis ins info nodes shuffle fuel changes = AOk m ->
  (forall caller ch, (exists l, mget caller m = Some l /\ In ch l) <->
    In ch changes /\ exists s n, node_of info nodes ch = Some s /\
      reaches ins (fun x => f_main_or_init (info x)) s n /\ eligible info s n /\ f_ident (info n) = caller) /\
  (forall caller l, mget caller m = Some l -> l <> [] /\ NoDup l) /\
  (forall ch, In ch (reachable_changes m) <-> exists caller l, mget caller m = Some l /\ In ch l).
Proof.
  intros ins info nodes shuffle fuel changes m Hp H. unfold caller_analysis in H.
  destruct (searches _ _ _ _ _ _ _) as [e|es] eqn:E.
  { exfalso. clear - E H. revert e E H. induction (changed_nodes info nodes changes) as [|[s id] l IH]; intros e E H; cbn in E; [discriminate|].
    destruct (reverse_dfs _ _ _ _ _); destruct (searches _ _ _ _ _ _ _) as [e'|]; try (injection E as <-); try discriminate; eapply IH; eauto. }
  injection H as <-. pose proof (searches_spec _ _ _ _ _ _ _ _ E) as Hs.
  assert (forall k i, In (k, i) (shuffle es) <-> In (k, i) es) as Hsh.
  { intros k i. split; apply Permutation_in; [apply Hp|symmetry; apply Hp]. }
  assert (forall s ch, In (s, ch) (changed_nodes info nodes changes) <-> In ch changes /\ node_of info nodes ch = Some s) as Hc.
  { intros s ch. unfold changed_nodes. rewrite nodup_In, in_flat_map. split.
    - intros (c & Hc & Hi). destruct (node_of info nodes c) as [n|] eqn:En; [|destruct Hi]. destruct Hi as [[= <- <-]|[]]. auto.
    - intros (H1 & H2). exists ch. split; [exact H1|]. rewrite H2. left; reflexivity. }
  split; [|split].
  - intros caller ch. pose proof (group_spec (shuffle es) caller) as G. split.
    + intros (l & El & Hi). rewrite El in G. apply G in Hi. apply Hsh, Hs in Hi as (s & n & H1 & H2 & H3 & H4).
      apply Hc in H1 as [H1 H5]. split; [exact H1|]. exists s, n. rewrite <- records_caller_spec. auto.
    + intros (H1 & s & n & H2 & H3 & H4 & H5).
      assert (In (caller, ch) (shuffle es)) as Hin.
      { apply Hsh, Hs. exists s, n. rewrite Hc, records_caller_spec. auto. }
      destruct (mget caller (group (shuffle es))) as [l|]; [|exfalso; eapply G; exact Hin].
      exists l. split; [reflexivity|]. apply G. exact Hin.
  - intros caller l El. pose proof (group_spec (shuffle es) caller) as G. rewrite El in G. tauto.
  - intros ch. unfold reachable_changes. rewrite in_flat_map.
    assert (mwf (group (shuffle es))) as W.
    { unfold group. generalize (shuffle es) as l. intros l. assert (forall m : amap (list bytes), mwf m -> mwf (fold_left group_add l m)) as Hw.
      { clear. induction l as [|e l IH]; intros m W; cbn; [exact W|]. apply IH. unfold group_add.
        destruct (mget (fst e) m); [destruct (existsb _ _); [exact W|]|]; apply mwf_mset; exact W. }
      apply Hw. constructor. }
    split.
    + intros ([k l] & Hk & Hi). exists k, l. split; [apply mget_in_wf; assumption|exact Hi].
    + intros (k & l & Hk & Hi). exists (k, l). split; [apply mget_in; exact Hk|exact Hi].
Qed.
Print Assumptions C28_callers_exact.

Definition test_of (info : nat -> fninfo) (n : nat) : Prop := f_test (info n) = true /\ f_within (info n) = Some true.

(** The tests selected, and the callers recorded for each, are exactly those
    connected through functions that are no entry points themselves. *)
Theorem C28_tests_exact : forall ins info nodes shuffle fuel callers m entry,
  (forall l, Permutation (shuffle l) l) ->
  (forall x, entry x = true <-> test_of info x \/ f_test (info x) = false /\ f_main_or_init (info x) = true) ->
  (forall x y, In x nodes -> In (Some y) (ins x) -> In y nodes) ->
  test_analysis ins info nodes shuffle fuel callers = AOk m ->
  (forall test c, (exists l, mget test m = Some l /\ In c l) <->
    In c callers /\ exists s n, In s nodes /\ f_ident (info s) = c /\
      reaches ins entry s n /\ test_of info n /\ f_supported (info n) = true /\ f_ident (info n) = test) /\
  (forall test l, mget test m = Some l -> l <> [] /\ NoDup l).
Proof.
  intros ins info nodes shuffle fuel callers m entry Hp Hent Hcl H.
  assert (forall s n, reaches ins entry s n <-> reaches ins (any_root info) s n) as He.
  { assert (forall x, entry x = any_root info x) as E.
    { intros x. apply Bool.eq_true_iff_eq. rewrite Hent. unfold any_root, test_root, test_of.
      rewrite Bool.orb_true_iff, !Bool.andb_true_iff, Bool.negb_true_iff. destruct (f_within (info x)) as [[]|]; intuition congruence. }
    intros s n. split; (induction 1 as [|x y R IH Rx Hy]; [apply reach_start|]);
      (apply (reach_caller _ _ _ x); [exact IH| |exact Hy]); [rewrite <- E|rewrite E]; exact Rx. }
  setoid_rewrite He. clear He Hent entry. unfold test_analysis in H.
  destruct (existsb _ nodes); [discriminate|].
  assert (forall n, test_root info n = true <-> test_of info n) as Ht.
  { intros n. unfold test_root, test_of. rewrite Bool.andb_true_iff. destruct (f_within (info n)) as [[]|]; intuition congruence. }
  assert (forall s c, In (s, c) (caller_nodes info nodes callers) <-> In s nodes /\ In c callers /\ f_ident (info s) = c) as Hc.
  { intros s c. unfold caller_nodes. rewrite in_flat_map. split.
    - intros (n & Hn & Hi). destruct (existsb _ callers) eqn:Ee; [|destruct Hi]. destruct Hi as [[= <- <-]|[]].
      split; [exact Hn|]. split; [|reflexivity]. apply existsb_exists in Ee as (z & Hz & Ez). apply beq_true in Ez. congruence.
    - intros (H1 & H2 & H3). exists s. split; [exact H1|].
      assert (existsb (beq (f_ident (info s))) callers = true) as ->; [|rewrite H3; left; reflexivity].
      apply existsb_exists. exists c. split; [exact H2|]. apply beq_true. exact H3. }
  destruct (existsb (test_root info) nodes) eqn:Et; cbn [negb] in H.
  - destruct (searches _ _ _ _ _ _ _) as [e|es] eqn:E.
    { exfalso. clear - E H. revert e E H. induction (caller_nodes info nodes callers) as [|[s id] l IH]; intros e E H; cbn in E; [discriminate|].
      destruct (reverse_dfs _ _ _ _ _); destruct (searches _ _ _ _ _ _ _) as [e'|]; try (injection E as <-); try discriminate; eapply IH; eauto. }
    injection H as <-. pose proof (searches_spec _ _ _ _ _ _ _ _ E) as Hs.
    assert (forall k i, In (k, i) (shuffle es) <-> In (k, i) es) as Hsh.
    { intros k i. split; apply Permutation_in; [apply Hp|symmetry; apply Hp]. }
    split.
    + intros test c. pose proof (group_spec (shuffle es) test) as G. split.
      * intros (l & El & Hi). rewrite El in G. apply G in Hi. apply Hsh, Hs in Hi as (s & n & H1 & H2 & H3 & H4).
        apply Hc in H1 as (H1 & H5 & H6). split; [exact H5|]. exists s, n. unfold records_test in H3. apply Bool.andb_true_iff in H3 as [H3 H7].
        apply Ht in H3. auto 10.
      * intros (H1 & s & n & H2 & H3 & H4 & H5 & H6 & H7).
        assert (In (test, c) (shuffle es)) as Hin.
        { apply Hsh, Hs. exists s, n. rewrite Hc. unfold records_test. rewrite (proj2 (Ht n) H5), H6. auto. }
        destruct (mget test (group (shuffle es))) as [l|]; [|exfalso; eapply G; exact Hin].
        exists l. split; [reflexivity|]. apply G. exact Hin.
    + intros test l El. pose proof (group_spec (shuffle es) test) as G. rewrite El in G. tauto.
  - injection H as <-. split; [|discriminate]. intros test c. split; [intros (l & E & _); discriminate|].
    intros (_ & s & n & H2 & _ & H4 & H5 & _). exfalso.
    assert (existsb (test_root info) nodes = true); [|congruence]. apply existsb_exists. exists n. split; [|apply Ht; exact H5].
    eapply reaches_in; eassumption.
Qed.
Print Assumptions C28_tests_exact.

(** Both analyses end on every finite call graph. *)
Theorem C28_analyses_terminate : forall ins info nodes shuffle fuel,
  (forall x y, In x nodes -> In (Some y) (ins x) -> In y nodes) -> (length nodes < fuel)%nat ->
  (forall changes, caller_analysis ins info nodes shuffle fuel changes <> AFuel) /\
  (forall callers, test_analysis ins info nodes shuffle fuel callers <> AFuel).
Proof.
  intros ins info nodes shuffle fuel Hcl Hf.
  assert (forall root ok records starts, (forall s c, In (s, c) starts -> In s nodes) ->
    searches ins info fuel root ok records starts <> inl AFuel) as Hs.
  { intros root ok records. induction starts as [|[s id] starts IH]; intros Hin; cbn; [discriminate|].
    specialize (IH (fun s c H => Hin s c (or_intror H))).
    destruct (C28_search_terminates ins root (ok s) nodes s Hcl (Hin _ _ (or_introl eq_refl)) fuel Hf) as [[_ (t & ->)]|[_ (t & ->)]];
      destruct (searches _ _ _ _ _ _ _); congruence. }
  split.
  - intros changes H. unfold caller_analysis in H.
    specialize (Hs (caller_root info) (caller_ok info) (records_caller info) (changed_nodes info nodes changes)).
    destruct (searches _ _ _ _ _ _ _); [|discriminate]. apply Hs; [|congruence].
    intros s c Hin. unfold changed_nodes in Hin. rewrite nodup_In, in_flat_map in Hin. destruct Hin as (c' & _ & Hi).
    destruct (node_of info nodes c') as [n|] eqn:En; [|destruct Hi]. destruct Hi as [[= <- <-]|[]].
    unfold node_of in En. destruct (find _ _) as [x|] eqn:Ef; [|discriminate]. apply find_some in Ef as [Ef _]. apply in_rev in Ef.
    destruct (f_nil (info x)); [discriminate|]. injection En as <-. exact Ef.
  - intros callers H. unfold test_analysis in H. destruct (existsb _ nodes); [discriminate|]. destruct (negb _); [discriminate|].
    specialize (Hs (any_root info) (fun _ _ => true) (records_test info) (caller_nodes info nodes callers)).
    destruct (searches _ _ _ _ _ _ _); [|discriminate]. apply Hs; [|congruence].
    intros s c Hin. unfold caller_nodes in Hin. apply in_flat_map in Hin as (n & Hn & Hi).
    destruct (existsb _ callers); [|destruct Hi]. destruct Hi as [[= <- _]|[]]. exact Hn.
Qed.
Print Assumptions C28_analyses_terminate.

(** A graph with a cycle: 0 is changed; 1 and 2 call each other and 1 calls 0; 3 is
    a test calling 2; 4 is main, calling 1; 5 calls 4 and so is not seen. *)
Definition ex_ins (n : nat) : list (option nat) :=
  match n with 0 => [Some 1; Some 1; None] | 1 => [Some 2; Some 4] | 2 => [Some 1; Some 3] | 4 => [Some 5] | _ => [] end%nat.
Definition ex_fn (id : string) (root test : bool) : fninfo :=
  FnInfo false true (B id) true (B "x.go") (Some true) (Some true) root test.
Definition ex_info (n : nat) : fninfo :=
  match n with 0 => ex_fn "m:f" false false | 1 => ex_fn "p:a" false false | 2 => ex_fn "p:b" false false
  | 3 => ex_fn "p:TestB" false true | 4 => ex_fn "p:main" true false | _ => ex_fn "p:c" false false end%nat.
Example C28_example :
  reverse_dfs ex_ins (caller_root ex_info) (fun _ => true) 7 0 = DfsDone [0; 1; 4; 2; 3]%nat /\
  caller_analysis ex_ins ex_info [0; 1; 2; 3; 4; 5]%nat (fun l => l) 7 [B "m:f"; B "m:gone"] =
    AOk [(B "p:a", [B "m:f"]); (B "p:b", [B "m:f"]); (B "p:TestB", [B "m:f"])] /\
  test_analysis ex_ins ex_info [0; 1; 2; 3; 4; 5]%nat (fun l => l) 7 [B "p:a"; B "p:b"] =
    AOk [(B "p:TestB", [B "p:a"; B "p:b"])].
Proof. repeat split. Qed.

(** Two functions under one identifier: only the one iterated last is searched
    from, so a caller of the other is not found. *)
Theorem C28_shared_identifier_misses_callers_refuted : exists ins info nodes changes m,
  caller_analysis ins info nodes (fun l => l) 10 changes = AOk m /\
  (exists s n ch, In s nodes /\ In ch changes /\ f_ident (info s) = ch /\
     reaches ins (fun x => f_main_or_init (info x)) s n /\ eligible info s n /\ mget (f_ident (info n)) m = None).
Proof.
  exists (fun n => match n with 0 => [Some 2] | _ => [] end%nat).
  exists (fun n => match n with 0 | 1 => ex_fn "m:init" false false | _ => ex_fn "p:a" false false end%nat).
  exists [0; 1; 2]%nat, [B "m:init"], []. split; [reflexivity|]. exists 0%nat, 2%nat, (B "m:init").
  split; [left; reflexivity|]. split; [left; reflexivity|]. split; [reflexivity|]. split; [|split; [|reflexivity]].
  - apply (reach_caller _ _ _ 0%nat); [apply reach_start|reflexivity|left; reflexivity].
  - unfold eligible. repeat split; discriminate.
Qed.
Print Assumptions C28_shared_identifier_misses_callers_refuted.

(** A test that reaches a caller only through another test is not selected. *)
Theorem C28_test_through_test_not_selected_refuted : exists ins info nodes callers m t,
  test_analysis ins info nodes (fun l => l) 10 callers = AOk m /\
  In t nodes /\ test_of info t /\ reaches ins (fun _ => false) 0 t /\ In (f_ident (info 0%nat)) callers /\
  mget (f_ident (info t)) m = None.
Proof.
  exists (fun n => match n with 0 => [Some 1] | 1 => [Some 2] | _ => [] end%nat).
  exists (fun n => match n with 0 => ex_fn "p:a" false false | 1 => ex_fn "p:TestA" false true | _ => ex_fn "p:TestAll" false true end%nat).
  exists [0; 1; 2]%nat, [B "p:a"], [(B "p:TestA", [B "p:a"])], 2%nat. split; [reflexivity|].
  split; [right; right; left; reflexivity|]. split; [split; reflexivity|]. split; [|split; [left|]; reflexivity].
  apply (reach_caller _ _ _ 1%nat); [apply (reach_caller _ _ _ 0%nat); [apply reach_start|reflexivity|left; reflexivity]|reflexivity|left; reflexivity].
Qed.
Print Assumptions C28_test_through_test_not_selected_refuted.

(** ** C30: test entry points *)

Lemma has_suffix_spec p s : has_suffix p s = true <-> exists r, s = r ++ p.
Proof.
  unfold has_suffix. rewrite has_prefix_spec. split.
  - intros (r & E). exists (rev r). rewrite <- (rev_involutive s), E, rev_app_distr, rev_involutive. reflexivity.
  - intros (r & ->). exists (rev r). apply rev_app_distr.
Qed.

Fixpoint strip (t : gtype) : gtype :=
  match t with TAlias t' => strip t' | TPtr t' => TPtr (strip t') | _ => t end.
Definition testing_T : gtype := TPtr (TNamed (Some (B "testing")) (B "T")).

(** The go tool runs a declared function of a test file as a test when it is no
    method, has no results, its one parameter is a [*testing.T], and its name is
    Test or Test followed by something that does not start with a lower-case
    letter ([lower] decides that for the rest of the name). *)
Definition go_tool_runs (lower : bytes -> bool) (f : gofunc) : Prop :=
  g_pkg f <> None /\ g_decl f <> None /\ g_recv f = false /\ g_results f = 0%nat /\
  (exists base, g_file f = base ++ B "_test.go") /\
  (exists t, g_params f = [t] /\ strip t = testing_T) /\
  exists rest, g_name f = B "Test" ++ rest /\ (rest = [] \/ lower rest = false).

(** Every such test is recognised when its parameter is written without aliases. *)
Theorem C30_tests_are_recognised : forall lower f,
  go_tool_runs lower f -> g_params f = [testing_T] -> is_go_test f = true.
Proof.
  intros lower f (H1 & H2 & _ & _ & (b & H3) & _ & (r & H4 & _)) Hp. unfold is_go_test.
  destruct (g_pkg f); [|congruence]. destruct (g_decl f); [|congruence].
  rewrite H4, has_prefix_app, Hp. rewrite (proj2 (has_suffix_spec (B "_test.go") (g_file f))) by eauto. reflexivity.
Qed.
Print Assumptions C30_tests_are_recognised.

(** What is recognised is a declared function of a test file with a name starting
    in Test and the one parameter [*testing.T]. *)
Theorem C30_recognised_iff : forall f, is_go_test f = true <->
  g_pkg f <> None /\ g_decl f <> None /\ g_params f = [testing_T] /\
  (exists rest, g_name f = B "Test" ++ rest) /\ (exists base, g_file f = base ++ B "_test.go").
Proof.
  intros f. unfold is_go_test, testing_T. rewrite <- has_prefix_spec, <- has_suffix_spec.
  destruct (g_pkg f); [|intuition congruence]. destruct (g_decl f); [|intuition congruence].
  rewrite !Bool.andb_true_iff. destruct (g_params f) as [|[[| [pk|] nm | |] | | |] [|]]; try (intuition discriminate).
  rewrite Bool.andb_true_iff, !beq_true. split.
  - intros ((H1 & H2) & -> & ->). repeat split; auto; discriminate.
  - intros (_ & _ & [= -> ->] & H1 & H2). auto.
Qed.
Print Assumptions C30_recognised_iff.

(** That is more than the go tool runs: a name going on in lower case, and a
    method. *)
Theorem C30_more_than_tests_recognised_refuted :
  (exists f, is_go_test f = true /\ g_recv f = false /\ g_results f = 0%nat /\
     forall lower, lower (B "ify") = true -> ~ go_tool_runs lower f) /\
  (exists f, is_go_test f = true /\ g_name f = B "TestOne" /\ forall lower, ~ go_tool_runs lower f).
Proof.
  split.
  - exists (GoFunc (Some (B "p")) (B "Testify") (B "a_test.go") false [testing_T] 0 (Some (B "Testify", false, 1%nat))).
    split; [reflexivity|]. split; [reflexivity|]. split; [reflexivity|].
    intros lower Hl (_ & _ & _ & _ & _ & _ & (r & E & H)). cbn [g_name] in E. change (B "Testify") with (B "Test" ++ B "ify") in E.
    apply app_inv_head in E as <-. destruct H; [discriminate|congruence].
  - exists (GoFunc (Some (B "p")) (B "TestOne") (B "a_test.go") true [testing_T] 0 (Some (B "TestOne", true, 1%nat))).
    split; [reflexivity|]. split; [reflexivity|]. intros lower (_ & _ & H & _). discriminate.
Qed.
Print Assumptions C30_more_than_tests_recognised_refuted.

(** And a test whose parameter type is written with an alias is missed. *)
Theorem C30_aliased_parameter_missed_refuted : exists f,
  (forall lower, lower (B "One") = false -> go_tool_runs lower f) /\ is_go_test f = false.
Proof.
  exists (GoFunc (Some (B "p")) (B "TestOne") (B "a_test.go") false [TPtr (TAlias (TNamed (Some (B "testing")) (B "T")))] 0 (Some (B "TestOne", false, 1%nat))).
  split; [|reflexivity]. intros lower Hl. unfold go_tool_runs. cbn [g_pkg g_decl g_recv g_results g_file g_params g_name].
  repeat (split; [discriminate || reflexivity|]). split; [exists (B "a"); reflexivity|].
  split; [eexists; split; reflexivity|]. exists (B "One"). split; [reflexivity|right; exact Hl].
Qed.
Print Assumptions C30_aliased_parameter_missed_refuted.

Example C30_example :
  go_tool_runs (fun r => match r with c :: _ => ((97 <=? N_of_ascii c) && (N_of_ascii c <=? 122))%N | [] => false end)
    (GoFunc (Some (B "p")) (B "TestOne") (B "a_test.go") false [testing_T] 0 (Some (B "TestOne", false, 1%nat))) /\
  is_main (GoFunc (Some (B "main")) (B "main") (B "m.go") false [] 0 None) = true /\
  is_init (GoFunc (Some (B "p")) (B "init#1") (B "m.go") false [] 0 (Some (B "init", false, 0%nat))) = true /\
  is_init (GoFunc (Some (B "p")) (B "init") (B "m.go") true [] 0 (Some (B "init", true, 0%nat))) = false.
Proof.
  split; [|repeat split]. unfold go_tool_runs. cbn [g_pkg g_decl g_recv g_results g_file g_params g_name].
  repeat (split; [discriminate || reflexivity|]). split; [exists (B "a"); reflexivity|].
  split; [eexists; split; reflexivity|]. exists (B "One"). split; [reflexivity|right; reflexivity].
Qed.

(** ** C54: identifiers and the exported call graph *)

Lemma cut_first (c : ascii) a : forall b x y, ~ In c a -> ~ In c b -> a ++ c :: x = b ++ c :: y -> a = b /\ x = y.
Proof.
  induction a as [|p a IH]; intros [|q b] x y Ha Hb E; cbn in E.
  - injection E as ->. auto.
  - injection E as -> _. exfalso. apply Hb. left; reflexivity.
  - injection E as <- _. exfalso. apply Ha. left; reflexivity.
  - injection E as -> E. destruct (IH b x y) as [-> ->]; auto; intros H; [apply Ha|apply Hb]; right; exact H.
Qed.

(** Different functions have different identifiers: package paths hold no colon
    and function names no dot. *)
Theorem C54_identifiers_are_injective : forall p r n p' r' n',
  ~ In ":"%char p -> ~ In ":"%char p' -> ~ In "."%char n -> ~ In "."%char n' ->
  ident_str p r n = ident_str p' r' n' -> p = p' /\ r = r' /\ n = n'.
Proof.
  intros p r n p' r' n' Hp Hp' Hn Hn' E.
  assert (forall q s m, ident_str q s m = q ++ ":"%char :: (if beq s [] then m else s ++ "."%char :: m)) as Hi.
  { intros q s m. unfold ident_str. destruct (beq s []); reflexivity. }
  rewrite !Hi in E. apply (cut_first ":"%char) in E as [-> E]; auto. split; [reflexivity|].
  destruct (beq_spec r []) as [->|N1]; destruct (beq_spec r' []) as [->|N2].
  - auto.
  - exfalso. apply Hn. rewrite E. apply in_app_iff. right. left. reflexivity.
  - exfalso. apply Hn'. rewrite <- E. apply in_app_iff. right. left. reflexivity.
  - apply (f_equal (@rev ascii)) in E. rewrite !rev_app_distr in E. cbn in E. rewrite <- !app_assoc in E. cbn in E.
    apply (cut_first "."%char) in E as [E1 E2].
    + apply (f_equal (@rev ascii)) in E1, E2. rewrite !rev_involutive in *. auto.
    + rewrite <- in_rev. exact Hn.
    + rewrite <- in_rev. exact Hn'.
Qed.
Print Assumptions C54_identifiers_are_injective.

(** The exported call graph has an entry for exactly the supported functions, and
    when no two of them share an identifier the entry of each lists exactly the
    non-empty identifiers of the functions it calls, each once. *)
Theorem C54_edges_exact : forall info nodes outs,
  let exported n := In n nodes /\ f_nil (info n) = false /\ f_supported (info n) = true in
  (forall id, mget id (edge_map info nodes outs) <> None <-> exists n, exported n /\ f_ident (info n) = id) /\
  ((forall a b, exported a -> exported b -> f_ident (info a) = f_ident (info b) -> a = b) ->
   forall n, exported n -> exists l, mget (f_ident (info n)) (edge_map info nodes outs) = Some l /\ NoDup l /\
     forall c, In c l <-> c <> [] /\ exists x, In (Some x) (outs n) /\ f_nil (info x) = false /\ f_ident (info x) = c).
Proof.
  intros info nodes outs exported. unfold edge_map.
  set (step := fun m n => _). 
  assert (forall n c, In c (callee_idents info outs n) <-> c <> [] /\ exists x, In (Some x) (outs n) /\ f_nil (info x) = false /\ f_ident (info x) = c) as Hc.
  { intros n c. unfold callee_idents. rewrite nodup_In, filter_In, in_flat_map, Bool.negb_true_iff, beq_false. split.
    - intros (([x|] & Hx & Hi) & Hne); [|destruct Hi]. split; [exact Hne|]. exists x. destruct (f_nil (info x)) eqn:E; [destruct Hi|].
      destruct Hi as [<-|[]]. auto.
    - intros (Hne & x & Hx & Hf & <-). split; [|exact Hne]. exists (Some x). split; [exact Hx|]. rewrite Hf. left; reflexivity. }
  assert (forall l, (forall x, In x l -> In x nodes) -> 
     (forall id, mget id (fold_left step l []) <> None <-> exists n, In n l /\ exported n /\ f_ident (info n) = id) /\
     (forall id v, mget id (fold_left step l []) = Some v -> exists n, In n l /\ exported n /\ f_ident (info n) = id /\ v = callee_idents info outs n)) as G.
  { induction l as [|x l IH] using rev_ind; intros Hin.
    - cbn. split; [intros id; split; [congruence|intros (n & [] & _)]|discriminate].
    - rewrite fold_left_app. cbn [fold_left]. destruct IH as [I1 I2]; [intros; apply Hin, in_app_iff; auto|].
      set (m := fold_left step l []) in *. unfold step.
      destruct (negb (f_nil (info x)) && f_supported (info x)) eqn:E.
      + apply Bool.andb_true_iff in E as [E1 E2]. apply Bool.negb_true_iff in E1.
        assert (exported x) as Hx by (split; [apply Hin, in_app_iff; right; left; reflexivity|auto]).
        split.
        * intros id. rewrite mget_mset. destruct (beq_spec id (f_ident (info x))) as [->|Ne].
          -- split; [|discriminate]. intros _. exists x. rewrite in_app_iff. cbn. auto.
          -- rewrite I1. split; intros (n & Hn & He & Hi); exists n.
             ++ rewrite in_app_iff. auto.
             ++ apply in_app_iff in Hn as [Hn|[<-|[]]]; [auto|congruence].
        * intros id v. rewrite mget_mset. destruct (beq_spec id (f_ident (info x))) as [->|Ne].
          -- intros [= <-]. exists x. rewrite in_app_iff. cbn. auto.
          -- intros Hv. destruct (I2 _ _ Hv) as (n & Hn & H). exists n. rewrite in_app_iff. auto.
      + assert (~ exported x) as Hx.
        { intros (_ & A & B_). rewrite A, B_ in E. discriminate. }
        split.
        * intros id. rewrite I1. split; intros (n & Hn & He & Hi); exists n; [rewrite in_app_iff; auto|].
          apply in_app_iff in Hn as [Hn|[<-|[]]]; [auto|contradiction].
        * intros id v Hv. destruct (I2 _ _ Hv) as (n & Hn & H). exists n. rewrite in_app_iff. auto. }
  destruct (G nodes (fun _ H => H)) as [G1 G2]. split.
  - intros id. rewrite G1. split; intros (n & H); [exists n; tauto|]. exists n. destruct H as [H1 H2]. split; [apply H1|auto].
  - intros Inj n Hn. destruct (mget (f_ident (info n)) (fold_left step nodes [])) as [v|] eqn:E.
    + exists v. split; [reflexivity|]. destruct (G2 _ _ E) as (n' & _ & He & Hi & ->). assert (n' = n) as -> by (apply Inj; auto).
      split; [apply NoDup_nodup|]. apply Hc.
    + exfalso. apply (proj2 (G1 (f_ident (info n)))); [|exact E]. exists n. split; [apply Hn|auto].
Qed.
Print Assumptions C54_edges_exact.

(** Under a shared identifier (two init functions of a package) the calls of all
    but one function are lost. *)
Theorem C54_shared_identifier_loses_calls_refuted : exists info nodes outs a c,
  In a nodes /\ f_nil (info a) = false /\ f_supported (info a) = true /\ In (Some c) (outs a) /\
  f_nil (info c) = false /\ mget (f_ident (info a)) (edge_map info nodes outs) = Some [].
Proof.
  exists (fun n => match n with 0 | 1 => ex_fn "p:init" false false | _ => ex_fn "p:a" false false end%nat), [0; 1; 2]%nat.
  exists (fun n => match n with 0 => [Some 2] | _ => [] end%nat), 0%nat, 2%nat.
  repeat split; cbn; auto.
Qed.
Print Assumptions C54_shared_identifier_loses_calls_refuted.

(** A file counts as generated exactly when its name ends in one of seven ways. *)
Theorem C54_generated_files : forall f, is_generated_file f = true <->
  exists base, f = base ++ B ".pb.go" \/ f = base ++ B ".pb.gw.go" \/ f = base ++ B "_grpc.pb.go" \/ f = base ++ B "_mock.go" \/
    f = base ++ B "_gen.go" \/ f = base ++ B ".gen.go" \/ f = base ++ B "_modlensgen_test.go".
Proof.
  intros f. unfold is_generated_file, generated_suffixes. cbn [existsb]. rewrite !Bool.orb_true_iff, !has_suffix_spec. split.
  - intros [(b & ->)|[(b & ->)|[(b & ->)|[(b & ->)|[(b & ->)|[(b & ->)|[(b & ->)|H]]]]]]]; try discriminate; exists b; auto 10.
  - intros (b & [E|[E|[E|[E|[E|[E|E]]]]]]); eauto 12.
Qed.
Print Assumptions C54_generated_files.

Example C54_example :
  ident_str (B "a/b") (B "*T") (B "M") = B "a/b:*T.M" /\ ident_str (B "a/b") [] (B "F") = B "a/b:F" /\
  edge_map ex_info [1; 2]%nat (fun n => match n with 1 => [Some 0; Some 0; None] | _ => [Some 1] end%nat)
    = [(B "p:a", [B "m:f"]); (B "p:b", [B "p:a"])] /\
  is_generated_file (B "x/y.pb.go") = true /\ is_generated_file (B "x/pb.go") = false.
Proof. repeat split. Qed.
