(** C71: the figures of the charts are those of the run. *)
From Coq Require Import QArith Qabs Qround Qminmax Lqa Permutation.
From Verif Require Import Base Maps UtilModel StaticModel StaticProps TypesModel CompareModel ReportModel ReportProps JsonModel JsonProps ChartModel.
Local Open Scope Z_scope.

(** ** Numbers *)
(** [q] is the share [a] has of [b], in percent. *)
Definition share (q : Q) (a b : Z) : Prop := (q * inject_Z b == inject_Z (100 * a))%Q.
Lemma inj_nonzero b : b <> 0 -> ~ (inject_Z b == 0)%Q.
Proof. intros H E. apply H. unfold Qeq in E. cbn in E. lia. Qed.
Lemma percent_share a b : b <> 0 -> exists q, percent a b = Some q /\ share q a b.
Proof.
  intros H. unfold percent. destruct (Z.eqb_spec b 0) as [E|E]; [contradiction|]. eexists. split; [reflexivity|].
  unfold share. field. apply inj_nonzero, H.
Qed.
Lemma share_le q a b n : share q a b -> 0 < b -> (100 * a <= n * b <-> (q <= inject_Z n)%Q).
Proof.
  unfold share. intros E H. assert (0 < inject_Z b)%Q as P by (unfold Qlt; cbn; lia). split.
  - intros L. apply (Qmult_le_r _ _ (inject_Z b) P). rewrite E. rewrite <- inject_Z_mult. rewrite <- Zle_Qle. exact L.
  - intros L. apply (Qmult_le_r _ _ (inject_Z b) P) in L. rewrite E in L. rewrite <- inject_Z_mult in L. rewrite <- Zle_Qle in L. exact L.
Qed.
Lemma share_ge q a b n : share q a b -> 0 < b -> (n * b <= 100 * a <-> (inject_Z n <= q)%Q).
Proof.
  unfold share. intros E H. assert (0 < inject_Z b)%Q as P by (unfold Qlt; cbn; lia). split.
  - intros L. apply (Qmult_le_r _ _ (inject_Z b) P). rewrite E. rewrite <- inject_Z_mult. rewrite <- Zle_Qle. exact L.
  - intros L. apply (Qmult_le_r _ _ (inject_Z b) P) in L. rewrite E in L. rewrite <- inject_Z_mult in L. rewrite <- Zle_Qle in L. exact L.
Qed.
Lemma share_unique q q' a b : share q a b -> share q' a b -> b <> 0 -> (q == q')%Q.
Proof.
  unfold share. intros E E' H. apply inj_nonzero in H. rewrite <- E' in E. exact (proj1 (Qmult_inj_r q q' _ H) E).
Qed.

(** The text of a number with one decimal: the library rounds to a nearest tenth
    (charts.FormatValueHumanize). *)
Definition nearest (shown : Q -> Z) : Prop := forall q, (Qabs.Qabs (inject_Z (shown q) - 10 * q) <= 1 # 2)%Q.
Lemma nearest_bounds shown q : nearest shown -> (10 * q - (1 # 2) <= inject_Z (shown q) <= 10 * q + (1 # 2))%Q.
Proof. intros H. specialize (H q). apply Qabs.Qabs_Qle_condition in H. destruct H. split; lra. Qed.
Lemma shown_le shown q n : nearest shown -> (10 * q <= inject_Z n)%Q -> shown q <= n.
Proof.
  intros H L. pose proof (nearest_bounds shown q H) as [_ U]. apply Z.lt_succ_r. rewrite Zlt_Qlt. unfold Z.succ. rewrite inject_Z_plus. change (inject_Z 1) with 1%Q. lra.
Qed.
Lemma shown_ge shown q n : nearest shown -> (inject_Z n <= 10 * q)%Q -> n <= shown q.
Proof.
  intros H L. pose proof (nearest_bounds shown q H) as [U _]. apply Z.lt_succ_r. rewrite Zlt_Qlt. unfold Z.succ. rewrite inject_Z_plus. change (inject_Z 1) with 1%Q. lra.
Qed.

(** ** The percentages *)
(** A number is shown unless there is nothing to take a share of. *)
Theorem C71_numbers_shown : forall changed reachable hits untracked same diff count killed,
  (ba_label (impact changed reachable) <> None <-> changed <> 0) /\
  (ba_label (coverage reachable hits untracked) <> None <-> reachable <> 0) /\
  (ba_label (stability same diff) <> None <-> same + diff <> 0) /\
  (ba_label (squashed count killed) <> None <-> count <> 0).
Proof.
  intros. assert (forall a b, percent a b <> None <-> b <> 0) as P.
  { intros a b. unfold percent. destruct (Z.eqb_spec b 0); split; intros; congruence. }
  assert (forall r p, capped r p <> None <-> p <> None) as C by (intros r [q|]; cbn; split; congruence).
  unfold impact, coverage, stability, squashed. cbn [ba_label]. rewrite !C, !P. tauto.
Qed.
Print Assumptions C71_numbers_shown.
(** The shares shown; they lie between 0 and 100 for counts as a run has them. *)
Theorem C71_impact : forall changed reachable, 0 < changed ->
  exists q, ba_label (impact changed reachable) = Some q /\ share q reachable changed /\
  (0 <= reachable <= changed -> (0 <= q <= 100)%Q) /\ fold_right Z.add 0 (ba_values (impact changed reachable)) = changed.
Proof.
  intros c r H. destruct (percent_share (c - (c - r)) c ltac:(lia)) as (q & E & S). exists q. replace (c - (c - r)) with r in S by lia.
  split; [exact E|]. split; [exact S|]. split; [|cbn; lia]. intros B. split; [apply (share_ge q r c 0 S H)|apply (share_le q r c 100 S H)]; lia.
Qed.
Print Assumptions C71_impact.
Theorem C71_coverage : forall reachable hits untracked, 0 < reachable ->
  exists q, ba_label (coverage reachable hits untracked) = Some q /\ share q (hits + untracked) reachable /\
  ((q == 100)%Q <-> hits + untracked = reachable) /\
  fold_right Z.add 0 (ba_values (coverage reachable hits untracked)) = reachable.
Proof.
  intros r h u H. destruct (percent_share (r - (r - h - u)) r ltac:(lia)) as (q & E & S). exists q. replace (r - (r - h - u)) with (h + u) in S by lia.
  split; [exact E|]. split; [exact S|]. split; [|cbn; lia]. pose proof (share_ge q (h + u) r 100 S H) as G. pose proof (share_le q (h + u) r 100 S H) as L. change (inject_Z 100) with 100%Q in *. split.
  - intros Q. assert (100 * r <= 100 * (h + u)) by (apply G; rewrite Q; apply Qle_refl). assert (100 * (h + u) <= 100 * r) by (apply L; rewrite Q; apply Qle_refl). lia.
  - intros Q. apply Qle_antisym; [apply L|apply G]; lia.
Qed.
Print Assumptions C71_coverage.
(** Field stability and mutations: the share of what is as before, or is noticed; with something left
    at most 99.9.  So 100.0 is shown only if nothing is left, and then it is. *)
Lemma capped_spec a b rest : b <> 0 -> exists q p, capped rest (percent a b) = Some q /\ share p a b /\ (rest <= 0 -> q = p) /\ (0 < rest -> (q == Qmin p almost)%Q).
Proof.
  intros H. destruct (percent_share a b H) as (p & -> & S). eexists. exists p. split; [reflexivity|]. split; [exact S|].
  destruct (Z.ltb_spec 0 rest) as [L|L]; cbn [andb]; (split; [|]); try lia; try reflexivity. intros _. destruct (Qle_bool p almost) eqn:E; cbn [negb].
  - apply Qle_bool_iff in E. symmetry. apply Q.min_l, E.
  - symmetry. apply Q.min_r. apply Qlt_le_weak, Qnot_le_lt. intros X. apply Qle_bool_iff in X. congruence.
Qed.
Lemma full_shown shown a rest q p : nearest shown -> 0 <= a -> 0 <= rest -> 0 < a + rest -> share p a (a + rest) -> (rest <= 0 -> q = p) -> (0 < rest -> (q == Qmin p almost)%Q) ->
  (0 <= q <= 100)%Q /\ (shown q = 1000 <-> rest = 0) /\ (shown q <= 999 <-> 0 < rest).
Proof.
  intros N Ha Hr Hs S E0 E1. assert (0 <= p)%Q as P0 by (apply (share_ge p a (a + rest) 0 S Hs); lia). assert (p <= 100)%Q as P1 by (apply (share_le p a (a + rest) 100 S Hs); lia).
  assert (0 < rest -> shown q <= 999 /\ (0 <= q <= 100)%Q) as Cap.
  { intros L. specialize (E1 L). pose proof (Q.le_min_r p almost) as M. pose proof (Q.min_glb_iff p almost 0) as G. unfold almost in *.
    assert (0 <= Qmin p (999 # 10))%Q as Z0 by (apply G; split; [exact P0|discriminate]). rewrite <- E1 in M, Z0. split; [|lra]. apply (shown_le shown q 999 N). change (inject_Z 999) with 999%Q. lra. }
  destruct (Z.eq_dec rest 0) as [R|R].
  - subst rest. rewrite (E0 ltac:(lia)). assert (100 <= p)%Q as P2 by (apply (share_ge p a (a + 0) 100 S Hs); lia).
    assert (shown p = 1000) as Sh. { apply Z.le_antisymm; [apply (shown_le shown p 1000 N)|apply (shown_ge shown p 1000 N)]; change (inject_Z 1000) with 1000%Q; lra. }
    rewrite Sh. split; [lra|]. split; [tauto|lia].
  - destruct (Cap ltac:(lia)) as [C1 C2]. split; [exact C2|]. lia.
Qed.
Theorem C71_stability : forall shown same diff, nearest shown -> 0 <= same -> 0 <= diff -> 0 < same + diff ->
  exists q p, ba_label (stability same diff) = Some q /\ share p same (same + diff) /\ (diff = 0 -> q = p) /\ (0 < diff -> (q == Qmin p almost)%Q) /\
  (0 <= q <= 100)%Q /\ (shown q = 1000 <-> diff = 0) /\ (shown q <= 999 <-> 0 < diff).
Proof.
  intros shown a r N Ha Hr Hs. destruct (capped_spec a (a + r) r ltac:(lia)) as (q & p & E & S & E0 & E1). exists q, p.
  split; [exact E|]. split; [exact S|]. split; [intros; apply E0; lia|]. split; [exact E1|]. exact (full_shown shown a r q p N Ha Hr Hs S E0 E1).
Qed.
Print Assumptions C71_stability.
Theorem C71_squashed : forall shown count killed, nearest shown -> 0 <= killed <= count -> 0 < count ->
  exists q p, ba_label (squashed count killed) = Some q /\ share p killed count /\ (killed = count -> q = p) /\ (killed < count -> (q == Qmin p almost)%Q) /\
  (0 <= q <= 100)%Q /\ (shown q = 1000 <-> killed = count) /\ (shown q <= 999 <-> killed < count).
Proof.
  intros shown c k N Hk Hs. destruct (capped_spec (c - (c - k)) c (c - k) ltac:(lia)) as (q & p & E & S & E0 & E1). exists q, p. replace (c - (c - k)) with k in S by lia.
  split; [exact E|]. split; [exact S|]. split; [intros; apply E0; lia|]. split; [intros; apply E1; lia|].
  replace c with (k + (c - k)) in S at 1 by lia. destruct (full_shown shown k (c - k) q p N ltac:(lia) ltac:(lia) ltac:(lia) S E0 E1) as (F1 & F2 & F3).
  split; [exact F1|]. split; [rewrite F2; lia|rewrite F3; lia].
Qed.
Print Assumptions C71_squashed.
Definition round10 (q : Q) : Z := Qround.Qfloor (10 * q + (1 # 2)).
Lemma round10_nearest : nearest round10.
Proof.
  intros q. unfold round10. pose proof (Qround.Qfloor_le (10 * q + (1 # 2))) as L. pose proof (Qround.Qlt_floor (10 * q + (1 # 2))) as U. rewrite inject_Z_plus in U. change (inject_Z 1) with 1%Q in U.
  apply Qabs_Qle_condition. split; lra.
Qed.
Example C71_percent_example : nearest round10 /\
  option_map round10 (ba_label (stability 9999 1)) = Some 999 /\ option_map round10 (ba_label (stability 7 0)) = Some 1000 /\
  option_map round10 (ba_label (stability 2 1)) = Some 667 /\ option_map round10 (ba_label (squashed 3000 2999)) = Some 999 /\
  option_map round10 (ba_label (impact 12 3)) = Some 250 /\ option_map round10 (ba_label (coverage 8 2 1)) = Some 375.
Proof. split; [exact round10_nearest|]. vm_compute. repeat split; reflexivity. Qed.

(** The other two shares may be shown as 100.0 although a function is left out. *)
Theorem C71_impact_full_refuted : ~ forall shown changed reachable q, nearest shown -> 0 <= reachable <= changed -> 0 < changed ->
  ba_label (impact changed reachable) = Some q -> shown q = 1000 -> reachable = changed.
Proof.
  intros H. specialize (H round10 10000 9999 (inject_Z 999900 / inject_Z 10000)%Q round10_nearest ltac:(lia) ltac:(lia) eq_refl eq_refl). lia.
Qed.
Print Assumptions C71_impact_full_refuted.
(** Functions that cannot be watched count as covered: all "covered", none reached. *)
Theorem C71_untracked_covered_refuted : ~ forall reachable hits untracked q, 0 < reachable -> 0 <= hits -> 0 <= untracked -> hits + untracked <= reachable ->
  ba_label (coverage reachable hits untracked) = Some q -> (q == 100)%Q -> hits = reachable.
Proof.
  intros H. specialize (H 3 0 3 (inject_Z 300 / inject_Z 3)%Q ltac:(lia) ltac:(lia) ltac:(lia) ltac:(lia) eq_refl ltac:(reflexivity)). lia.
Qed.
Print Assumptions C71_untracked_covered_refuted.

(** ** Performance *)
Lemma qmax_le a b c : (qmax a b <= c <-> a <= c /\ b <= c)%Q.
Proof.
  unfold qmax. destruct (Qle_bool a b) eqn:E.
  - apply Qle_bool_iff in E. split; [intros H; split; lra|intros [_ H]; exact H].
  - assert (~ a <= b)%Q as N by (intros X; apply Qle_bool_iff in X; congruence). apply Qnot_le_lt in N. split; [intros H; split; lra|intros [H _]; exact H].
Qed.
Definition per_unit (u : tunit) : Z := match u with Millis => 1 | Seconds => 1000 | Minutes => 60000 end.
(** The unit by the larger total in milliseconds; the totals in this unit are those of the run. *)
Theorem C71_units : forall pre post, exists u a b, scaled (pre, post) = (u, a, b) /\
  (a * inject_Z (per_unit u) == inject_Z (Z.of_N pre))%Q /\ (b * inject_Z (per_unit u) == inject_Z (Z.of_N post))%Q /\
  (u = Millis <-> (N.max pre post <= 2000)%N) /\ (u = Seconds <-> (2000 < N.max pre post <= 120000)%N) /\ (u = Minutes <-> (120000 < N.max pre post)%N).
Proof.
  intros pre post. unfold scaled. cbn [fst snd]. set (x := inject_Z (Z.of_N pre)). set (y := inject_Z (Z.of_N post)).
  assert (forall n, (x <= inject_Z (Z.of_N n))%Q <-> (pre <= n)%N) as Lx by (intros n; unfold x; rewrite <- Zle_Qle; lia).
  assert (forall n, (y <= inject_Z (Z.of_N n))%Q <-> (post <= n)%N) as Ly by (intros n; unfold y; rewrite <- Zle_Qle; lia).
  destruct (Qle_bool (qmax x y) 2000) eqn:E1.
  - apply Qle_bool_iff, qmax_le in E1. destruct E1 as [A B]. apply (Lx 2000%N) in A. apply (Ly 2000%N) in B. exists Millis, x, y. split; [reflexivity|]. cbn [per_unit].
    split; [apply Qmult_1_r|]. split; [apply Qmult_1_r|]. split; [split; [lia|reflexivity]|]. split; (split; [discriminate|lia]).
  - assert (2000 < N.max pre post)%N as M1.
    { apply N.lt_nge. intros X. assert (Qle_bool (qmax x y) 2000 = true) as T; [|congruence]. apply Qle_bool_iff, qmax_le. split; [apply (Lx 2000%N)|apply (Ly 2000%N)]; lia. }
    destruct (Qle_bool (qmax (x / 1000) (y / 1000)) 120) eqn:E2.
    + apply Qle_bool_iff, qmax_le in E2. destruct E2 as [A B].
      assert (x <= inject_Z (Z.of_N 120000))%Q as A'. { change (inject_Z (Z.of_N 120000)) with 120000%Q. assert (x == x / 1000 * 1000)%Q as -> by field. lra. }
      assert (y <= inject_Z (Z.of_N 120000))%Q as B'. { change (inject_Z (Z.of_N 120000)) with 120000%Q. assert (y == y / 1000 * 1000)%Q as -> by field. lra. }
      apply Lx in A'. apply Ly in B'. exists Seconds, (x / 1000)%Q, (y / 1000)%Q. split; [reflexivity|]. cbn [per_unit]. change (inject_Z 1000) with 1000%Q.
      split; [field|]. split; [field|]. split; [split; [discriminate|lia]|]. split; [split; [lia|reflexivity]|split; [discriminate|lia]].
    + assert (120000 < N.max pre post)%N as M2.
      { apply N.lt_nge. intros X. assert (Qle_bool (qmax (x / 1000) (y / 1000)) 120 = true) as T; [|congruence]. apply Qle_bool_iff, qmax_le.
        assert (x <= inject_Z (Z.of_N 120000))%Q as A by (apply Lx; lia). assert (y <= inject_Z (Z.of_N 120000))%Q as B by (apply Ly; lia). change (inject_Z (Z.of_N 120000)) with 120000%Q in A, B.
        split; (apply Qle_shift_div_r; [reflexivity|lra]). }
      exists Minutes, (x / 1000 / 60)%Q, (y / 1000 / 60)%Q. split; [reflexivity|]. cbn [per_unit]. change (inject_Z 60000) with 60000%Q.
      split; [field|]. split; [field|]. split; [split; [discriminate|lia]|]. split; [split; [discriminate|lia]|split; [lia|reflexivity]].
Qed.
Print Assumptions C71_units.
(** The label is about the totals in milliseconds, whatever the unit. *)
Theorem C71_speed : forall pre post u a b, scaled (pre, post) = (u, a, b) ->
  match speed_label a b with
  | NoTime => pre = 0%N
  | Faster p => (0 < pre)%N /\ (post <= pre)%N /\ share p (Z.of_N pre - Z.of_N post) (Z.of_N pre)
  | Slower p => (0 < pre)%N /\ (pre < post)%N /\ share (- p) (Z.of_N post - Z.of_N pre) (Z.of_N pre)
  end.
Proof.
  intros pre post u a b E. destruct (C71_units pre post) as (u' & a' & b' & E' & Ha & Hb & _). rewrite E in E'. injection E' as <- <- <-.
  assert (0 < inject_Z (per_unit u))%Q as Pu by (destruct u; reflexivity).
  assert ((a == 0)%Q <-> pre = 0%N) as Z0.
  { split; intros H; [rewrite H in Ha|rewrite H in Ha; cbn [Z.of_N] in Ha].
    - rewrite Qmult_0_l in Ha. unfold Qeq in Ha. cbn in Ha. lia.
    - change (inject_Z 0) with 0%Q in Ha. apply Qmult_integral in Ha. destruct Ha as [Ha|Ha]; [exact Ha|rewrite Ha in Pu; discriminate Pu]. }
  assert ((b <= a)%Q <-> (post <= pre)%N) as Le.
  { rewrite <- (Qmult_le_r b a _ Pu), Ha, Hb, <- Zle_Qle. lia. }
  unfold speed_label. destruct (Qeq_bool a 0) eqn:E0; [apply Qeq_bool_iff in E0; tauto|].
  assert (~ (a == 0)%Q) as Na by (intros X; apply Qeq_bool_iff in X; congruence).
  assert (0 < pre)%N as Pp by (destruct pre; [exfalso; apply Na, Z0; reflexivity|lia]).
  assert (share (100 - b / a * 100) (Z.of_N pre - Z.of_N post) (Z.of_N pre)) as S.
  { unfold share. rewrite inject_Z_mult. unfold Z.sub. rewrite inject_Z_plus, inject_Z_opp, <- Ha, <- Hb. change (inject_Z 100) with 100%Q. field. exact Na. }
  destruct (Qle_bool b a) eqn:El.
  - apply Qle_bool_iff in El. split; [exact Pp|]. split; [apply Le, El|exact S].
  - assert (~ (b <= a)%Q) as Nl by (intros X; apply Qle_bool_iff in X; congruence). rewrite Le in Nl. split; [exact Pp|]. split; [lia|].
    unfold share in *. assert (- ((1 - b / a) * 100) * inject_Z (Z.of_N pre) == - ((100 - b / a * 100) * inject_Z (Z.of_N pre)))%Q as -> by ring.
    rewrite S, <- inject_Z_opp. replace (- (100 * (Z.of_N pre - Z.of_N post))) with (100 * (Z.of_N post - Z.of_N pre)) by lia. reflexivity.
Qed.
Print Assumptions C71_speed.
(** The two parts of the bar are not negative and make up the larger total. *)
Theorem C71_speed_bar : forall pre post u a b, scaled (pre, post) = (u, a, b) ->
  exists x y, speed_values a b = [x; y] /\ (0 <= x)%Q /\ (0 <= y)%Q /\ ((x + y) * inject_Z (per_unit u) == inject_Z (Z.of_N (N.max pre post)))%Q /\
  (x * inject_Z (per_unit u) == inject_Z (Z.of_N (N.min pre post)))%Q.
Proof.
  intros pre post u a b E. destruct (C71_units pre post) as (u' & a' & b' & E' & Ha & Hb & _). rewrite E in E'. injection E' as <- <- <-.
  assert (0 < inject_Z (per_unit u))%Q as Pu by (destruct u; reflexivity).
  assert ((b <= a)%Q <-> (post <= pre)%N) as Le by (rewrite <- (Qmult_le_r b a _ Pu), Ha, Hb, <- Zle_Qle; lia).
  assert (0 <= a)%Q as A0. { rewrite <- (Qmult_le_r 0 a _ Pu), Ha, Qmult_0_l. change 0%Q with (inject_Z 0). rewrite <- Zle_Qle. lia. }
  assert (0 <= b)%Q as B0. { rewrite <- (Qmult_le_r 0 b _ Pu), Hb, Qmult_0_l. change 0%Q with (inject_Z 0). rewrite <- Zle_Qle. lia. }
  unfold speed_values. destruct (Qle_bool b a) eqn:El; eexists; eexists; (split; [reflexivity|]).
  - apply Qle_bool_iff in El. pose proof (proj1 Le El) as L. rewrite N.max_l, N.min_r by exact L. split; [exact B0|]. split; [lra|]. split; [rewrite <- Ha; ring|exact Hb].
  - assert (~ (b <= a)%Q) as Nl by (intros X; apply Qle_bool_iff in X; congruence). pose proof Nl as Nl'. rewrite Le in Nl'. rewrite N.max_r, N.min_l by lia.
    apply Qnot_le_lt in Nl. split; [exact A0|]. split; [lra|]. split; [rewrite <- Hb; ring|exact Ha].
Qed.
Print Assumptions C71_speed_bar.
Example C71_speed_example :
  scaled (1500, 900)%N = (Millis, 1500%Q, 900%Q) /\
  (let '(u, a, b) := scaled (60000, 90000)%N in (u, match speed_label a b with Slower p => Some (Qred p) | _ => None end)) = (Seconds, Some (-50)%Q) /\
  (let '(u, a, b) := scaled (600000, 150000)%N in (u, match speed_label a b with Faster p => Some (Qred p) | _ => None end, map Qred (speed_values a b))) = (Minutes, Some 75%Q, [(5 # 2)%Q; (15 # 2)%Q]).
Proof. vm_compute. repeat split; reflexivity. Qed.
(** "% slower" comes with a negative number. *)
Theorem C71_slower_sign_refuted : ~ forall pre post u a b p, scaled (pre, post) = (u, a, b) -> speed_label a b = Slower p -> share p (Z.of_N post - Z.of_N pre) (Z.of_N pre).
Proof.
  intros H. assert (exists u a b p, scaled (60, 90)%N = (u, a, b) /\ speed_label a b = Slower p /\ Qred p = (-50)%Q) as (u & a & b & p & E & L & P) by (do 4 eexists; split; [reflexivity|split; [reflexivity|reflexivity]]).
  specialize (H _ _ _ _ _ _ E L). unfold share in H. rewrite <- (Qred_correct p), P in H. discriminate H.
Qed.
Print Assumptions C71_slower_sign_refuted.
(** "No time recorded" though there is time after the update. *)
Theorem C71_no_time_refuted : ~ forall pre post u a b, scaled (pre, post) = (u, a, b) -> speed_label a b = NoTime -> pre = 0%N /\ post = 0%N.
Proof.
  intros H. destruct (H 0%N 5000%N _ _ _ eq_refl eq_refl). discriminate.
Qed.
Print Assumptions C71_no_time_refuted.

(** ** Axis and colours *)
(** The distance of marks never falls when the maximum grows, and leaves at most ten marks up to 20000. *)
Theorem C71_axis : forall v w, (v <= w -> axis_unit v <= axis_unit w) /\ 1 <= axis_unit v /\ (v <= 20000 -> v <= 10 * axis_unit v) /\ (10 <= v -> 2 * axis_unit v < v).
Proof.
  intros v w. unfold axis_unit. repeat match goal with |- context [Z.leb ?a ?b] => destruct (Z.leb_spec a b) | |- context [Z.ltb ?a ?b] => destruct (Z.ltb_spec a b) end; lia.
Qed.
Print Assumptions C71_axis.
Theorem C71_axis_many_refuted : ~ forall v, v <= 10 * axis_unit v.
Proof. intros H. specialize (H 100000). vm_compute in H. apply H. reflexivity. Qed.
Print Assumptions C71_axis_many_refuted.
(** Colours of the label: less than half, less than four fifths of the whole. *)
Theorem C71_colours : forall first rest, let whole := first + fold_right Z.add 0 rest in
  (rank_colour (first :: rest) = Red <-> 2 * first < whole) /\
  (rank_colour (first :: rest) = Orange <-> whole <= 2 * first /\ 5 * first < 4 * whole) /\
  (rank_colour (first :: rest) = Plain <-> whole <= 2 * first /\ 4 * whole <= 5 * first).
Proof.
  intros first rest whole. unfold rank_colour. cbn [fold_right hd]. fold whole. destruct (Z.ltb_spec (2 * first) whole); [|destruct (Z.ltb_spec (10 * first) (8 * whole))];
    (split; [|split]); split; intros; try discriminate; try reflexivity; try lia.
Qed.
Print Assumptions C71_colours.
Lemma itoa_length n : (length (itoa n) < 2)%nat <-> (n < 10)%N.
Proof.
  split.
  - intros L. pose proof (atoi_itoa n) as A. destruct (itoa n) as [|c [|d s]]; [discriminate| |cbn in L; lia]. cbn in A. destruct (is_digit c) eqn:D; [|discriminate].
    injection A as <-. unfold is_digit in D. apply andb_true_iff in D. destruct D as [D1 D2]. apply N.leb_le in D1, D2. unfold digit_val. lia.
  - intros L. pose proof (itoa_len n 1 ltac:(cbn; lia) ltac:(lia)). lia.
Qed.
(** Colours of the table: a regression red, a test that failed before orange; no changed field
    green, less than ten orange. *)
Theorem C71_table_colours : forall r row, In row (row_of r) ->
  (state_colour (rw_state row) = Red <-> tr_fail (rp_orig r) = false /\ tr_fail (rp_post r) = true) /\
  (state_colour (rw_state row) = Orange <-> tr_fail (rp_orig r) = true) /\
  (state_colour (rw_state row) = Green <-> tr_fail (rp_orig r) = false /\ tr_fail (rp_post r) = false) /\
  (count_colour (rw_count row) = Green <-> rp_diff r = 0%N) /\
  (count_colour (rw_count row) = Orange <-> (0 < rp_diff r < 10)%N) /\
  (count_colour (rw_count row) = Red <-> (10 <= rp_diff r)%N).
Proof.
  intros r row Hr. unfold row_of in Hr. destruct (regressed r || (0 <? rp_diff r)%N) eqn:E; [|destruct Hr]. destruct Hr as [<-|[]]. cbn [rw_state rw_count]. clear E.
  assert (beq (itoa (rp_diff r)) (B "0") = (rp_diff r =? 0)%N) as Z.
  { destruct (N.eqb_spec (rp_diff r) 0) as [->|N]; [reflexivity|]. apply beq_false. intros X. apply N, itoa_inj. exact X. }
  assert (forall a b : Prop, a -> b -> a /\ b) as AND by (intros; split; assumption).
  assert (let s := state_colour (state_text r) in s = (if tr_fail (rp_orig r) then Orange else if tr_fail (rp_post r) then Red else Green)) as S.
  { cbv zeta. unfold state_text, regressed. destruct (tr_fail (rp_orig r)), (tr_fail (rp_post r)); vm_compute; reflexivity. }
  cbv zeta in S. rewrite S. unfold count_colour. rewrite Z. pose proof (itoa_length (rp_diff r)) as L.
  split; [|split; [|split]]; [destruct (tr_fail (rp_orig r)), (tr_fail (rp_post r)); split; intuition discriminate ..|].
  destruct (N.eqb_spec (rp_diff r) 0) as [E|E]; cbn [negb]; [split; [tauto|split; (split; [discriminate|lia])]|].
  destruct (Nat.ltb_spec (length (itoa (rp_diff r))) 2) as [Q|Q].
  - apply L in Q. split; [split; [discriminate|lia]|]. split; [split; [lia|reflexivity]|split; [discriminate|lia]].
  - assert (~ (rp_diff r < 10)%N) as Q' by (rewrite <- L; lia). split; [split; [discriminate|lia]|]. split; [split; [discriminate|lia]|split; [lia|reflexivity]].
Qed.
Print Assumptions C71_table_colours.
Example C71_colours_example : rank_colour [3; 4] = Red /\ rank_colour [3; 1] = Orange /\ rank_colour [8; 2] = Plain /\
  state_colour (B "FAIL") = Red /\ state_colour (B "Baseline FAIL") = Orange /\ count_colour (B "10") = Red /\ axis_unit 800 = 200.
Proof. vm_compute. repeat split; reflexivity. Qed.

(** ** The file *)
Theorem C71_render : forall draw height, let '(hs, out) := render draw height in
  (length hs <= 2)%nat /\ hd_error hs = Some height /\
  forall b, out = Some b -> exists h box, last hs height = h /\ draw h = Some (box, Some b) /\
    (h <> height -> exists b0, draw height = Some (h, b0) /\ (h < height - 128 \/ height < h)) /\
    (hs = [height] -> height - 128 <= box <= height).
Proof.
  intros draw height. unfold render. destruct (draw height) as [[box b0]|] eqn:E; [|cbn; repeat split; try lia; discriminate].
  destruct ((box <? height - 128) || (height <? box)) eqn:C.
  - cbn [length hd_error]. split; [lia|]. split; [reflexivity|]. intros b Hb. destruct (draw box) as [[box' b']|] eqn:E'; [|discriminate]. subst b'.
    exists box, box'. split; [reflexivity|]. split; [exact E'|]. apply orb_true_iff in C. rewrite !Z.ltb_lt in C. split; [|discriminate]. intros _. exists b0. split; [reflexivity|exact C].
  - cbn [length hd_error]. split; [lia|]. split; [reflexivity|]. intros b ->. apply orb_false_iff in C. rewrite !Z.ltb_ge in C. exists height, box.
    split; [reflexivity|]. split; [exact E|]. split; [contradiction|]. intros _. lia.
Qed.
Print Assumptions C71_render.
(** The picture has the kind its name says; for other names, and if drawing fails, nothing is
    written and there is an error. *)
Theorem C71_file : forall draw writes path,
  (forall k b ok, write_charts draw writes path = (Some (k, b), ok) -> ok = writes /\ snd (render (draw k) 1024) = Some b /\
    exists stem, path = stem ++ match k with PNG => B ".png" | SVG => B ".svg" | JPG => B ".jpg" end \/ k = JPG /\ path = stem ++ B ".jpeg") /\
  (forall ok, write_charts draw writes path = (None, ok) -> ok = false) /\
  ((forall stem, path <> stem ++ B ".png" /\ path <> stem ++ B ".jpg" /\ path <> stem ++ B ".jpeg" /\ path <> stem ++ B ".svg") -> write_charts draw writes path = (None, false)).
Proof.
  intros draw writes path. unfold write_charts. split; [|split].
  - intros k b ok. destruct (kind_of path) as [k'|] eqn:K; [|discriminate]. destruct (snd (render (draw k') 1024)) as [b'|] eqn:R; [|discriminate].
    intros [= -> -> <-]. split; [reflexivity|]. split; [exact R|]. unfold kind_of in K.
    destruct (has_suffix (B ".png") path) eqn:E1; [injection K as <-; apply has_suffix_spec in E1; destruct E1 as [x ->]; exists x; left; reflexivity|].
    destruct (has_suffix (B ".jpg") path) eqn:E2; [injection K as <-; apply has_suffix_spec in E2; destruct E2 as [x ->]; exists x; left; reflexivity|].
    destruct (has_suffix (B ".jpeg") path) eqn:E3; [injection K as <-; apply has_suffix_spec in E3; destruct E3 as [x ->]; exists x; right; split; reflexivity|].
    cbn [orb] in K. destruct (has_suffix (B ".svg") path) eqn:E4; [|discriminate]. injection K as <-. apply has_suffix_spec in E4. destruct E4 as [x ->]. exists x. left. reflexivity.
  - intros ok. destruct (kind_of path) as [k'|]; [destruct (snd (render (draw k') 1024))|]; intros H; try discriminate; injection H as <-; reflexivity.
  - intros H. assert (forall sfx, (forall stem, path <> stem ++ sfx) -> has_suffix sfx path = false) as F.
    { intros sfx N. destruct (has_suffix sfx path) eqn:E; [|reflexivity]. apply has_suffix_spec in E. destruct E as [x E]. destruct (N x E). }
    unfold kind_of. rewrite !F; [reflexivity|intros x; apply (H x)..].
Qed.
Print Assumptions C71_file.
Example C71_file_example :
  let draw := fun (k : pkind) h => if h =? 1024 then Some (600, Some (B "tall")) else Some (600, Some (B "fits")) in
  write_charts draw true (B "r/out.jpeg") = (Some (JPG, B "fits"), true) /\ write_charts draw true (B "r/out.PNG") = (None, false) /\
  render (draw PNG) 1024 = ([1024; 600], Some (B "fits")).
Proof. vm_compute. repeat split; reflexivity. Qed.

(** ** The figures from the file *)
(** The charts drawn from the report file have the figures of the charts drawn at the end of the run. *)
Theorem C71_figures_from_file : forall num u8 trim, (forall z, exact z -> num z = z) ->
  forall extra time run analysis discovery fields mutation name start update modules reachable project tests c ps rs,
  let m := build_metrics time run analysis discovery fields mutation name start update modules reachable project tests c (Some ps) (Some (map (detail_of trim) rs)) in
  apart u8 extra -> metrics_ok u8 m ->
  Permutation ps (flat_map perfs_of rs) -> (forall r, In r rs -> mwf (olist (rp_times r))) -> times_named_once rs ->
  exists m', read_report (written num u8 extra m) = Some m' /\
  figures_from m' = figures_of name start update (ct_funcs c) (olen reachable) (ct_hits c) (ct_untracked c) (ct_same c) (ct_diff c) (ct_mutations c) (ct_squashed c) rs.
Proof.
  intros num u8 trim Hn extra time run analysis discovery fields mutation name start update modules reachable project tests c ps rs m Ap Ok P W U.
  destruct (C70_charts_from_file num u8 trim Hn extra m rs ps Ap Ok eq_refl eq_refl P W U) as (m' & ds & R & Ed & Ep & T & _).
  exists m'. split; [exact R|]. rewrite (C70_read_back num u8 Hn extra m Ap Ok) in R. injection R as <-.
  unfold figures_from. rewrite Ed, Ep. cbn [olist]. unfold figures_of. rewrite T. reflexivity.
Qed.
Print Assumptions C71_figures_from_file.
(** The order of the tests does not matter. *)
Theorem C71_order : forall name start update changed reachable hits untracked same diff count killed rs rs', Permutation rs rs' ->
  figures_of name start update changed reachable hits untracked same diff count killed rs = figures_of name start update changed reachable hits untracked same diff count killed rs'.
Proof.
  intros. unfold figures_of. assert (total_times rs = total_times rs') as ->; [|reflexivity].
  unfold total_times. f_equal; apply list_sum_N_perm, Permutation_flat_map; assumption.
Qed.
Print Assumptions C71_order.
Example C71_figures_example :
  let f := figures_of (B "m") (B "v1") (B "v2") 12 3 1 1 99 1 10 9 [timed58 "TestA" [(B "p.F", TChange 5 1 6); (B "p.G", TChange (-3) 4 1)]] in
  fg_title f = B "m@v1->v2" /\ ba_values (fg_impact f) = [3; 9] /\ ba_values (fg_coverage f) = [1; 1; 1] /\
  option_map round10 (ba_label (fg_stability f)) = Some 990 /\ option_map round10 (ba_label (fg_squashed f)) = Some 900 /\ fg_unit f = Millis.
Proof. vm_compute. repeat split; reflexivity. Qed.
