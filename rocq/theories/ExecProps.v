(** Commands and their output. *)
From Verif Require Import Base UtilModel UtilProps MutationModel ExecModel.
Local Open Scope nat_scope.

(** ** The locked buffer *)
Lemma set_at_length {A} i (x : A) l : length (set_at i x l) = length l.
Proof. revert i. induction l as [|y l IH]; intros [|i]; cbn; try reflexivity; f_equal; apply IH. Qed.
Lemma set_at_nth {A} i (x : A) l d j : (i < length l) -> nth j (set_at i x l) d = if Nat.eqb j i then x else nth j l d.
Proof.
  revert i j. induction l as [|y l IH]; intros i j H; [cbn in H; lia|]. destruct i, j; cbn; try reflexivity. apply IH. cbn in H. lia.
Qed.
Lemma over_length a k p : (k + length p <= length a) -> length (over a k p) = length a.
Proof. intros H. unfold over. rewrite !app_length, firstn_length, skipn_length. lia. Qed.
Lemma over_before a k p n : (k + length p <= length a) -> (n <= k) -> firstn n (over a k p) = firstn n a.
Proof.
  intros H L. unfold over. rewrite firstn_app, firstn_length. replace (n - Nat.min k (length a)) with 0 by lia. cbn [firstn]. rewrite app_nil_r, firstn_firstn. f_equal. lia.
Qed.
Lemma over_upto a k p : (k + length p <= length a) -> firstn (k + length p) (over a k p) = firstn k a ++ p.
Proof.
  intros H. unfold over. rewrite app_assoc, firstn_app, app_length, firstn_length. replace (k + length p - (Nat.min k (length a) + length p)) with 0 by lia. cbn [firstn].
  rewrite app_nil_r. apply firstn_all2. rewrite app_length, firstn_length. lia.
Qed.

(** [v] lies within the buffer, not beyond what is filled. *)
Definition lb_ok (b : lbuf) : Prop := lb_cur b < length (lb_arrays b) /\ lb_len b <= length (array b (lb_cur b)).
Definition in_buf (b : lbuf) (v : view) : Prop := fst v < length (lb_arrays b) /\ (fst v = lb_cur b -> snd v <= lb_len b).
Lemma lb_step_ok b o b' : lb_ok b -> lb_step b o b' -> lb_ok b' /\
  seen b' (lb_view b') = (match o with OWrite p => seen b (lb_view b) ++ p | OReset => [] | OLook => seen b (lb_view b) end) /\
  (o <> OReset -> forall v, in_buf b v -> in_buf b' v /\ seen b' v = seen b v).
Proof.
  intros [C L] S. inversion S; subst; clear S.
  - set (a := array b (lb_cur b)) in *. unfold lb_ok, lb_view, seen, in_buf, array. cbn [lb_cur lb_len lb_arrays fst snd].
    rewrite set_at_length, set_at_nth, Nat.eqb_refl by exact C. rewrite over_length by assumption. split; [split; [exact C|assumption]|].
    split. { rewrite over_upto by assumption. reflexivity. }
    intros _ v [V1 V2]. split; [split; [exact V1|intros E; specialize (V2 E); lia]|]. rewrite set_at_nth by exact C.
    destruct (Nat.eqb_spec (fst v) (lb_cur b)) as [E|E]; [|reflexivity]. rewrite E. fold (array b (lb_cur b)). fold a. apply over_before; [assumption|exact (V2 E)].
  - assert (length (seen b (lb_view b)) = lb_len b) as Ls. { unfold seen, lb_view. cbn [fst snd]. rewrite firstn_length. lia. }
    unfold lb_ok. cbn [lb_cur lb_len lb_arrays]. unfold array. cbn [lb_arrays]. rewrite app_length, app_nth2, Nat.sub_diag by lia. cbn [nth length].
    split; [split; [lia|rewrite !app_length; lia]|]. split.
    + generalize dependent (seen b (lb_view b)). intros w Ls. unfold seen, lb_view, array. cbn [lb_cur lb_len lb_arrays fst snd].
      rewrite (app_nth2 (lb_arrays b)), Nat.sub_diag by (apply Nat.le_refl). cbn [nth].
      rewrite app_assoc, firstn_app, app_length, Ls, Nat.sub_diag. cbn [firstn]. rewrite app_nil_r. apply firstn_all2. rewrite app_length, Ls. lia.
    + intros _ v [V1 V2]. unfold in_buf, seen, array. cbn [lb_arrays lb_cur lb_len]. rewrite app_length, app_nth1 by exact V1.
      split; [|reflexivity]. split; [lia|]. lia.
  - unfold lb_ok, in_buf. cbn. split; [split; [exact C|lia]|]. split; [reflexivity|congruence].
  - split; [split; assumption|]. split; [reflexivity|]. auto.
Qed.
Lemma lb_run_ok b l b' : lb_run b l b' -> lb_ok b -> lb_ok b'.
Proof. induction 1; auto. intros O. apply IHlb_run. exact (proj1 (lb_step_ok _ _ _ O H)). Qed.
(** What the buffer holds: everything written since the last Reset, in the order of the lock. *)
Definition since_reset (l : list lbop) (start : bytes) : bytes :=
  fold_left (fun acc o => match o with OWrite p => acc ++ p | OReset => [] | OLook => acc end) l start.
Theorem C77_buffer : forall l b, lb_run new_lbuf l b -> seen b (lb_view b) = since_reset l [].
Proof.
  assert (forall b l b', lb_run b l b' -> lb_ok b -> seen b' (lb_view b') = since_reset l (seen b (lb_view b))) as G.
  { induction 1 as [|b o b1 l b2 S R IH]; intros O; [reflexivity|]. destruct (lb_step_ok _ _ _ O S) as (O1 & E & _). rewrite (IH O1). cbn [since_reset fold_left]. rewrite E. reflexivity. }
  intros l b R. rewrite (G _ _ _ R); [reflexivity|]. split; cbn; lia.
Qed.
Print Assumptions C77_buffer.
(** Bytes stay what they were while others write. *)
Theorem C77_view_kept : forall l b l' b', lb_run new_lbuf l b -> lb_run b l' b' -> ~ In OReset l' -> seen b' (lb_view b) = seen b (lb_view b).
Proof.
  intros l b l' b' R R' N. assert (lb_ok b) as O by (apply (lb_run_ok _ _ _ R); split; cbn; lia).
  assert (in_buf b (lb_view b)) as V by (split; [exact (proj1 O)|reflexivity]). generalize dependent (lb_view b). intros v V. clear R.
  induction R' as [|b o b1 l1 b2 S R IH]; [reflexivity|]. destruct (lb_step_ok _ _ _ O S) as (O1 & _ & K).
  destruct (K (fun E => N (or_introl E)) v V) as [V1 E1]. rewrite IH; [exact E1|intros H; apply N; right; exact H|exact O1|exact V1].
Qed.
Print Assumptions C77_view_kept.
(** Not after a Reset: the array is used again. *)
Theorem C77_view_lost_refuted : ~ forall l b l' b', lb_run new_lbuf l b -> lb_run b l' b' -> seen b' (lb_view b) = seen b (lb_view b).
Proof.
  intros H. set (b := LBuf [[]; B "abcdef"] 1 3).
  assert (lb_run new_lbuf [OWrite (B "abc")] b) as R. { eapply lr_cons; [|apply lr_nil]. apply (lb_grows new_lbuf (B "abc") (B "def")). cbn. lia. }
  assert (lb_run b [OReset; OWrite (B "xy")] (LBuf [[]; B "xycdef"] 1 2)) as R'.
  { eapply lr_cons; [apply lb_reset|]. eapply lr_cons; [|apply lr_nil]. apply (lb_fits (LBuf [[]; B "abcdef"] 1 0) (B "xy")). cbn. lia. }
  specialize (H _ _ _ _ R R'). discriminate H.
Qed.
Print Assumptions C77_view_lost_refuted.
Example C77_buffer_example : exists b b', lb_run new_lbuf [OWrite (B "ab")] b /\ lb_run b [OLook; OWrite (B "c"); OWrite (B "de")] b' /\
  seen b (lb_view b) = B "ab" /\ seen b' (lb_view b') = B "abcde" /\ seen b' (lb_view b) = B "ab" /\ length (lb_arrays b') = 3.
Proof.
  exists (LBuf [[]; B "ab_"] 1 2), (LBuf [[]; B "abc"; B "abcde__"] 2 5). repeat split.
  - eapply lr_cons; [apply (lb_grows new_lbuf (B "ab") (B "_")); cbn; lia|apply lr_nil].
  - eapply lr_cons; [apply lb_look|]. eapply lr_cons; [apply (lb_fits (LBuf [[]; B "ab_"] 1 2) (B "c")); cbn; lia|].
    eapply lr_cons; [apply (lb_grows (LBuf [[]; B "abc"] 1 3) (B "de") (B "__")); cbn; lia|apply lr_nil].
Qed.

(** ** Captured output *)
(** [cs] has the pieces of both, each in its order. *)
Inductive merged : list bytes -> list bytes -> list bytes -> Prop :=
  | mg_nil : merged [] [] []
  | mg_out : forall p a b c, merged a b c -> merged (p :: a) b (p :: c)
  | mg_err : forall p a b c, merged a b c -> merged a (p :: b) (p :: c).
Lemma merged_out a b c p : merged a b c -> merged (a ++ [p]) b (c ++ [p]).
Proof. induction 1; cbn; [repeat constructor|constructor; assumption|constructor; assumption]. Qed.
Lemma merged_err a b c p : merged a b c -> merged a (b ++ [p]) (c ++ [p]).
Proof. induction 1; cbn; [repeat constructor|constructor; assumption|constructor; assumption]. Qed.

(** Also with an error what was captured is of both streams from their beginning, nothing missing in
    between; with nil it is all of both. *)
Theorem C77_captured : forall outs errs exit_ok b ok, captured outs errs exit_ok b ok ->
  exists a r a' r' cs, outs = a ++ r /\ errs = a' ++ r' /\ merged a a' cs /\ b = concat cs /\ (ok = true -> exit_ok = true /\ r = [] /\ r' = []).
Proof.
  intros outs errs exit_ok b ok H. destruct H as [o e b bad R Eo Ee].
  assert (exists a r a' r' cs, outs = a ++ r /\ errs = a' ++ r' /\ merged a a' cs /\ b = concat cs /\
    (o = Some r \/ (o = None /\ bad = true)) /\ (e = Some r' \/ (e = None /\ bad = true))) as (a & r & a' & r' & cs & E1 & E2 & M & Eb & Do & De).
  { remember (Capture o e b bad) as c eqn:Ec. clear Eo Ee. revert o e b bad Ec. induction R as [|c1 c2 R IH S]; intros o e b bad Ec.
    - injection Ec as <- <- <- <-. exists [], outs, [], errs, []. repeat split; [constructor|left; reflexivity|left; reflexivity].
    - subst c2. inversion S; subst; clear S; destruct (IH _ _ _ _ eq_refl) as (a & r & a' & r' & cs & -> & -> & M & -> & Do & De).
      + destruct Do as [[= <-]|[? _]]; [|discriminate]. exists (a ++ [p]), l, a', r', (cs ++ [p]). rewrite <- app_assoc. split; [reflexivity|]. split; [reflexivity|].
        split; [apply merged_out, M|]. split; [rewrite concat_app; cbn; rewrite app_nil_r; reflexivity|].
        split; [destruct ok; [left; reflexivity|right; split; [reflexivity|apply orb_true_r]]|]. destruct De as [->|[-> ->]]; [left; reflexivity|right; split; reflexivity].
      + destruct De as [[= <-]|[? _]]; [|discriminate]. exists a, r, (a' ++ [p]), l, (cs ++ [p]). rewrite <- app_assoc. split; [reflexivity|]. split; [reflexivity|].
        split; [apply merged_err, M|]. split; [rewrite concat_app; cbn; rewrite app_nil_r; reflexivity|].
        split; [destruct Do as [->|[-> ->]]; [left; reflexivity|right; split; reflexivity]|]. destruct ok; [left; reflexivity|right; split; [reflexivity|apply orb_true_r]]. }
  exists a, r, a', r', cs. repeat split; auto.
  - destruct exit_ok; [reflexivity|discriminate H].
  - apply andb_true_iff in H as [_ H]. apply negb_true_iff in H as ->. destruct Do as [->|[_ D]]; [|discriminate]. destruct r; [reflexivity|discriminate Eo].
  - apply andb_true_iff in H as [_ H]. apply negb_true_iff in H as ->. destruct De as [->|[_ D]]; [|discriminate]. destruct r'; [reflexivity|discriminate Ee].
Qed.
Print Assumptions C77_captured.
(** Every order can happen. *)
Lemma capture_all a b c : merged a b c -> forall buf bad, cap_run (Capture (Some a) (Some b) buf bad) (Capture (Some []) (Some []) (buf ++ concat c) bad).
Proof.
  assert (forall c1 c2 c3, cap_step c1 c2 -> cap_run c2 c3 -> cap_run c1 c3) as T.
  { intros c1 c2 c3 S R. induction R as [|c3 c4 R IH S']; [eapply cr_step; [apply cr_here|exact S]|eapply cr_step; [exact IH|exact S']]. }
  induction 1 as [|p a b c M IH|p a b c M IH]; intros buf bad.
  - cbn. rewrite app_nil_r. apply cr_here.
  - eapply T; [apply (cp_out p a (Some b) buf bad true)|]. cbn [negb concat]. rewrite orb_false_r, app_assoc. apply IH.
  - eapply T; [apply (cp_err p b (Some a) buf bad true)|]. cbn [negb concat]. rewrite orb_false_r, app_assoc. apply IH.
Qed.
Theorem C77_any_order : forall outs errs cs, merged outs errs cs -> captured outs errs true (concat cs) true.
Proof. intros outs errs cs M. apply (cd_run outs errs true (Some []) (Some []) (concat cs) false); [apply (capture_all _ _ _ M)|reflexivity|reflexivity]. Qed.
Print Assumptions C77_any_order.
(** So a summary the tool printed may not be found in the captured text. *)
Theorem C77_summary_found_refuted : ~ forall outs errs b r, captured outs errs true b true -> read_summary (concat outs) = Some r -> read_summary b = Some r.
Proof.
  intros H. pose (o1 := B "The mutation score is 0.5 (1 passed, 1 fai"). pose (o2 := B "led, 0 duplicated, 0 skipped, total is 2)"). pose (e := B "debug: done" ++ [nl]).
  assert (captured [o1; o2] [e] true (concat [o1; e; o2]) true) as C by (apply C77_any_order; repeat constructor).
  specialize (H _ _ _ (2, 1)%N C ltac:(vm_compute; reflexivity)). vm_compute in H. discriminate H.
Qed.
Print Assumptions C77_summary_found_refuted.
(** With nothing on the second stream it is. *)
Theorem C77_quiet : forall outs exit_ok b, captured outs [] exit_ok b true -> b = concat outs.
Proof.
  intros outs exit_ok b C. destruct (C77_captured _ _ _ _ _ C) as (a & r & a' & r' & cs & -> & E & M & -> & K). destruct (K eq_refl) as (_ & -> & ->). rewrite app_nil_r in *. subst a'.
  clear - M. remember [] as n eqn:En. induction M; [reflexivity|cbn; f_equal; auto|discriminate].
Qed.
Print Assumptions C77_quiet.

(** ** A test run *)
(** Standard output and error of a test go through one goroutine to the buffer that keeps the end: it holds
    the true end of all the test wrote, in the order it was written, however it is cut into pieces. *)
Theorem C77_test_output : forall w (written : list (nat * bytes)), (forall x, In x written -> fst x = 1 \/ fst x = 2) ->
  exists streams, copiers w w = [(w, streams)] /\ read_by streams written = concat (map snd written) /\
  forall pieces, concat pieces = read_by streams written ->
    true_tail test_keep (concat (map snd written)) (roll_all test_keep [] pieces) /\ length (roll_all test_keep [] pieces) <= test_keep.
Proof.
  intros w written H. exists [1; 2]. unfold copiers. rewrite Nat.eqb_refl. split; [reflexivity|].
  assert (read_by [1; 2] written = concat (map snd written)) as E.
  { unfold read_by. do 2 f_equal. induction written as [|x l IH]; [reflexivity|]. cbn [filter]. rewrite IH by (intros y Hy; apply H; right; exact Hy).
    destruct (H x (or_introl eq_refl)) as [->| ->]; reflexivity. }
  split; [exact E|]. intros pieces P. rewrite E in P. rewrite <- P. split; [apply C19_contents_are_a_true_tail|]. apply C19_size_is_bounded. unfold test_keep. lia.
Qed.
Print Assumptions C77_test_output.
(** With two writers there are two goroutines, and neither sees all. *)
Theorem C77_two_writers : forall a b, a <> b -> length (copiers a b) = 2 /\ forall x, In x (copiers a b) -> exists written, (forall y, In y written -> fst y = 1 \/ fst y = 2) /\ read_by (snd x) written <> concat (map snd written).
Proof.
  intros a b N. unfold copiers. destruct (Nat.eqb_spec a b); [contradiction|]. split; [reflexivity|].
  intros x [<-|[<-|[]]]; exists [(1, B "x"); (2, B "y")]; (split; [intros y [<-|[<-|[]]]; cbn; tauto|discriminate]).
Qed.
Print Assumptions C77_two_writers.

(** ** The text of a failed test *)
Lemma trim_left_some s c : In c s -> is_space c = false -> exists d r, trim_left s = d :: r /\ is_space d = false /\ exists q, s = q ++ d :: r /\ forall x, In x q -> is_space x = true.
Proof.
  induction s as [|x s IH]; intros I C; [destruct I|]. cbn [trim_left]. destruct (is_space x) eqn:E.
  - destruct I as [->|I]; [congruence|]. destruct (IH I C) as (d & r & E1 & E2 & q & -> & Q). exists d, r. split; [exact E1|]. split; [exact E2|].
    exists (x :: q). split; [reflexivity|]. intros y [<-|Hy]; [exact E|apply Q, Hy].
  - exists x, s. split; [reflexivity|]. split; [exact E|]. exists []. split; [reflexivity|]. intros y [].
Qed.
Lemma trim_left_none s : (forall c, In c s -> is_space c = true) -> trim_left s = [].
Proof. induction s as [|x s IH]; intros H; [reflexivity|]. cbn. rewrite (H x (or_introl eq_refl)). apply IH. intros c I. apply H. right. exact I. Qed.
Definition blank (s : bytes) : Prop := forall c, In c s -> is_space c = true.
Lemma blank_dec s : {blank s} + {exists c, In c s /\ is_space c = false}.
Proof.
  induction s as [|x s IH]; [left; intros c []|]. destruct (is_space x) eqn:E; [|right; exists x; split; [left; reflexivity|exact E]].
  destruct IH as [H|H]; [left|right]. { intros c [<-|I]; [exact E|apply H, I]. } destruct H as (c & I & C). exists c. split; [right; exact I|exact C].
Qed.
(** TrimSpace: what is between the spaces. *)
Lemma trim_spec s : (blank s /\ trim_space s = []) \/
  exists q z, s = q ++ trim_space s ++ z /\ blank q /\ blank z /\ exists d r, trim_space s = d :: r /\ is_space d = false /\ is_space (last (trim_space s) d) = false.
Proof.
  destruct (blank_dec s) as [H|(c & I & C)]; [left; split; [exact H|]; unfold trim_space; rewrite (trim_left_none s H); reflexivity|]. right.
  destruct (trim_left_some s c I C) as (d & r & E1 & E2 & q & Es & Q).
  destruct (trim_left_some (rev (d :: r)) d ltac:(rewrite <- in_rev; left; reflexivity) E2) as (d' & r' & E1' & E2' & q' & Es' & Q').
  assert (trim_space s = rev (d' :: r')) as T by (unfold trim_space; rewrite E1, E1'; reflexivity).
  assert (d :: r = rev (d' :: r') ++ rev q') as A. { rewrite <- rev_app_distr, <- Es', rev_involutive. reflexivity. }
  exists q, (rev q'). rewrite T. split; [rewrite <- A; exact Es|]. split; [exact Q|]. split. { intros x Hx. apply Q'. rewrite in_rev. exact Hx. }
  cbn [rev] in A |- *. destruct (rev r') as [|y t] eqn:Er; cbn [app] in A |- *.
  - injection A as -> _. exists d', []. split; [reflexivity|]. split; exact E2'.
  - injection A as -> _. exists y, (t ++ [d']). split; [reflexivity|]. split; [exact E2|]. change (y :: t ++ [d']) with ((y :: t) ++ [d']). rewrite last_last. exact E2'.
Qed.

Lemma delete_last m u x k : (exists m', m = m' ++ [nl]) -> x <> nl -> k <= length u -> In x (delete_all m k (u ++ [x])).
Proof.
  intros [m' ->] N. revert k. induction u as [|c u IH]; intros k K.
  - cbn in K. replace k with 0 by lia. cbn [app delete_all]. destruct (has_prefix (m' ++ [nl]) [x]) eqn:P; [|left; reflexivity]. exfalso.
    apply has_prefix_spec in P as [r P]. destruct m' as [|a m']; cbn [app] in P; [injection P as P _; exact (N P)|]. injection P as _ P. destruct m'; discriminate P.
  - cbn [app delete_all]. destruct k as [|k]; [|apply IH; cbn in K; lia]. destruct (has_prefix (m' ++ [nl]) (c :: u ++ [x])) eqn:P; [|right; apply IH; lia].
    apply IH. apply has_prefix_spec in P as [r P]. destruct (Nat.le_gt_cases (length (m' ++ [nl])) (S (length u))) as [L|L]; [lia|exfalso].
    assert (r = []) as ->. { pose proof (f_equal (@length _) P) as E. rewrite app_length in E. cbn [length] in E. rewrite app_length in E. cbn [length] in E. destruct r; [reflexivity|cbn [length] in E; lia]. }
    rewrite app_nil_r in P. change (c :: u ++ [x]) with ((c :: u) ++ [x]) in P. apply app_inj_tail in P as [_ P]. congruence.
Qed.
Lemma is_space_iff c : is_space c = true <-> In c (map ascii_of_nat [9; 10; 11; 12; 13; 32]%nat).
Proof.
  split; [|intros H; cbn [map In] in H; repeat (destruct H as [<-|H]; [reflexivity|]); destruct H].
  destruct c as [[] [] [] [] [] [] [] []]; vm_compute; intros H; try discriminate H; tauto.
Qed.
Lemma clean_blank : forall s, clean_output s = [] <-> blank s.
Proof.
  intros s. unfold clean_output. destruct (trim_spec s) as [[H ->]|(q & z & Es & Q & Z & d & r & E & D & L)]; [split; [intros _; exact H|reflexivity]|]. split.
  - intros C. exfalso. rewrite E in C, L. set (x := last (d :: r) d) in *.
    assert (In x (delete_all fail_mark 0 (d :: r))) as I.
    { rewrite (app_removelast_last d (l := d :: r)) by discriminate. fold x. apply delete_last; [exists (B "FAIL" ++ [nl] ++ B "exit status 1"); reflexivity| |lia]. intros X. rewrite X in L. discriminate L. }
    destruct (trim_spec (delete_all fail_mark 0 (d :: r))) as [[H _]|(q' & z' & _ & _ & _ & d' & r' & E' & _)]; [|rewrite C in E'; discriminate E'].
    rewrite (H x I) in L. discriminate L.
  - intros H. exfalso. assert (In d s) as I by (rewrite Es, E; apply in_or_app; right; left; reflexivity). rewrite (H d I) in D. discriminate D.
Qed.
(** An output with any text in it does not become empty, one without any does. *)
Theorem C77_clean_empty : forall s, clean_output s = [] <-> forall c, In c s -> In c (map ascii_of_nat [9; 10; 11; 12; 13; 32]%nat).
Proof. intros s. rewrite clean_blank. unfold blank. split; intros H c Hc; apply is_space_iff, H, Hc. Qed.
Print Assumptions C77_clean_empty.
(** [m] is somewhere in [s]. *)
Definition within (m s : bytes) : Prop := exists a b, s = a ++ m ++ b.
Lemma delete_skip m k s : k <= length s -> delete_all m k s = delete_all m 0 (skipn k s).
Proof. revert k. induction s as [|c s IH]; intros [|k] H; cbn [delete_all skipn]; try reflexivity. apply IH. cbn in H. lia. Qed.
Lemma app_split {A} (a b c d : list A) : a ++ b = c ++ d -> length a <= length c -> exists r, c = a ++ r /\ b = r ++ d.
Proof.
  revert c. induction a as [|x a IH]; intros c E L; [exists c; split; [reflexivity|exact E]|]. destruct c as [|y c]; [cbn in L; lia|]. injection E as -> E.
  destruct (IH c E ltac:(cbn in L; lia)) as (r & -> & ->). exists r. split; reflexivity.
Qed.
Lemma mark_once : forall a r, fail_mark = a ++ "F"%char :: r -> a = [].
Proof. intros a r. unfold fail_mark. cbn. intros E. do 19 (destruct a as [|? a]; [first [reflexivity|exfalso; cbn in E; congruence]|cbn in E; injection E as _ E]). destruct a; discriminate E. Qed.
Lemma delete_mark p t : ~ within fail_mark p -> delete_all fail_mark 0 (p ++ fail_mark ++ t) = p ++ delete_all fail_mark 0 t.
Proof.
  intros N. induction p as [|c p IH].
  - assert (exists c m, fail_mark = c :: m) as (c & m & E) by (unfold fail_mark; cbn; eexists; eexists; reflexivity). rewrite E at 2. cbn [app delete_all].
    assert (has_prefix fail_mark (c :: m ++ t) = true) as P by (apply has_prefix_spec; exists t; rewrite E; reflexivity). rewrite P.
    rewrite E at 2. cbn [length pred]. rewrite delete_skip by (rewrite app_length; lia). rewrite skipn_app, Nat.sub_diag, skipn_all. reflexivity.
  - cbn [app delete_all]. destruct (has_prefix fail_mark (c :: p ++ fail_mark ++ t)) eqn:P.
    + exfalso. apply has_prefix_spec in P as [r P]. change (c :: p ++ fail_mark ++ t) with ((c :: p) ++ fail_mark ++ t) in P.
      destruct (Nat.le_gt_cases (length fail_mark) (length (c :: p))) as [L|L].
      * symmetry in P. destruct (app_split _ _ _ _ P L) as (w & E & _). apply N. exists [], w. exact E.
      * destruct (app_split _ _ _ _ P ltac:(lia)) as (w & E & E2). destruct w as [|y w]; [rewrite app_nil_r in E; rewrite E in L; lia|].
        assert (y = "F"%char) as -> by (unfold fail_mark in E2; cbn in E2; injection E2; congruence). discriminate (mark_once _ _ E).
    + f_equal. apply IH. intros (a & b & E). apply N. exists (c :: a), b. rewrite E. reflexivity.
Qed.
Lemma delete_none p : ~ within fail_mark p -> delete_all fail_mark 0 p = p.
Proof.
  induction p as [|c p IH]; intros N; [reflexivity|]. cbn [delete_all]. destruct (has_prefix fail_mark (c :: p)) eqn:P.
  - exfalso. apply has_prefix_spec in P as [r P]. apply N. exists [], r. exact P.
  - f_equal. apply IH. intros (a & b & E). apply N. exists (c :: a), b. rewrite E. reflexivity.
Qed.
(** Everything between the marks is kept, in its order; the spaces at both ends are dropped. *)
Theorem C77_clean_between : forall s ps, ps <> [] -> (forall p, In p ps -> ~ within fail_mark p) -> trim_space s = join_with fail_mark ps ->
  clean_output s = trim_space (concat ps).
Proof.
  intros s ps Z N E. unfold clean_output. rewrite E. f_equal. clear E Z. induction ps as [|p ps IH]; [reflexivity|]. destruct ps as [|p2 ps].
  - cbn. rewrite app_nil_r. apply delete_none, N. left. reflexivity.
  - change (join_with fail_mark (p :: p2 :: ps)) with (p ++ fail_mark ++ join_with fail_mark (p2 :: ps)). rewrite delete_mark by (apply N; left; reflexivity).
    rewrite IH; [reflexivity|]. intros q Hq. apply N. right. exact Hq.
Qed.
Print Assumptions C77_clean_between.
(** A mark at the very end stays: the newline it ends with is trimmed first. *)
Theorem C77_clean_end_refuted : ~ forall a, ~ within fail_mark a -> clean_output (a ++ fail_mark) = trim_space a.
Proof.
  intros H. assert (~ within fail_mark (B "x")) as N. { intros (a & b & E). apply (f_equal (@length _)) in E. rewrite !app_length in E. cbn in E. lia. }
  specialize (H (B "x") N). discriminate H.
Qed.
Print Assumptions C77_clean_end_refuted.
Example C77_clean_example : clean_output (B " boom" ++ [nl] ++ fail_mark ++ B "FAIL	a/b	0.1s" ++ [nl]) = B "boom" ++ [nl] ++ B "FAIL	a/b	0.1s" /\ clean_output (B " " ++ [nl]) = [].
Proof. split; vm_compute; reflexivity. Qed.
Example C77_captured_example : captured [B "a"; B "b"] [B "x"] false (B "ax") false /\ captured [B "a"; B "b"] [B "x"] true (B "axb") true.
Proof.
  split; [|apply (C77_any_order [B "a"; B "b"] [B "x"] [B "a"; B "x"; B "b"]); repeat constructor].
  apply (cd_run _ _ false None (Some []) (B "ax") true); [|reflexivity|reflexivity].
  eapply cr_step; [eapply cr_step; [apply cr_here|apply (cp_out _ _ _ _ _ false)]|exact (cp_err (B "x") [] None (B "a") true true)].
Qed.
Example C77_test_example : forall w, copiers w w = [(w, [1; 2])] /\ read_by [1; 2] [(1, B "a"); (2, B "b"); (1, B "c")] = B "abc" /\
  roll_all test_keep [] [B "ab"; B "c"] = B "abc".
Proof. intros w. unfold copiers. rewrite Nat.eqb_refl. repeat split. Qed.
(** Two different tests get two different commands, each of which starts a run of its own (no cached result), one test at a time. *)
Theorem C77_one_test : forall n n', (test_args n = test_args n' -> n = n') /\
  (forall a, In a (map B ["-count=1"; "-parallel=1"; "-timeout=30s"]%string) -> In a (test_args n)) /\
  exists l, test_args n = l ++ [B "-run"; B "^" ++ n ++ B "$"] /\ ~ In (B "-run") l.
Proof.
  intros n n'. split; [|split].
  - unfold test_args. intros E. apply app_inv_head in E. injection E as E. apply app_inv_tail in E. exact E.
  - intros a [<-|[<-|[<-|[]]]]; apply in_or_app; left; cbn; tauto.
  - exists (map B ["test"; "-timeout=30s"; "-count=1"; "-parallel=1"]%string). split; [reflexivity|]. intros [H|[H|[H|[H|[]]]]]; discriminate H.
Qed.
Print Assumptions C77_one_test.
Example C77_one_test_example : last (test_args (B "TestA")) [] = B "^TestA$" /\ length (test_args (B "TestA")) = 6.
Proof. vm_compute. auto. Qed.
