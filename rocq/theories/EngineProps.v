(** C42-C44, C56: the run protocol, options, target modules. *)
From Verif Require Import Base UtilModel UtilProps ModuleModel EngineModel.

(** ** C44 *)
(** A usable target: a name, the first at sign, a version; the name has a slash or dot. *)
Definition target_spelling (s name version : bytes) : Prop :=
  s = name ++ "@"%char :: version /\ ~ In "@"%char name /\ name <> [] /\ version <> [] /\ (In "/"%char name \/ In "."%char name).

Lemma cut_first_spec c s : match cut_first c s with
  | Some (a, b) => s = a ++ c :: b /\ ~ In c a
  | None => ~ In c s end.
Proof.
  induction s as [|x s IH]; [intros []|]. cbn [cut_first]. destruct (ascii_dec x c) as [->|N]; [split; [reflexivity|intros []]|].
  destruct (cut_first c s) as [[a b]|].
  - destruct IH as [-> Hn]. split; [reflexivity|]. intros [E|E]; [congruence|contradiction].
  - intros [E|E]; [congruence|contradiction].
Qed.
Lemma contains_spec c s : contains c s = true <-> In c s.
Proof.
  unfold contains. rewrite existsb_exists. split.
  - intros (x & Hx & E). destruct (ascii_dec x c) as [->|]; [exact Hx|discriminate].
  - intros H. exists c. split; [exact H|]. destruct (ascii_dec c c); [reflexivity|contradiction].
Qed.

(** A target is accepted exactly when it is spelled like that, and the two parts are
    the ones given: printing them with an at sign gives the target again. *)
Theorem C44_target_exact : forall s name version, parse_target s = Some (name, version) <-> target_spelling s name version.
Proof.
  intros s name version. unfold parse_target, target_spelling. pose proof (cut_first_spec "@"%char s) as H. destruct (cut_first "@"%char s) as [[a b]|].
  - destruct H as [-> Hn]. split.
    + destruct a as [|x a]; [discriminate|]. destruct b as [|y b]; [discriminate|].
      destruct (contains "/" (x :: a)) eqn:E1; destruct (contains "." (x :: a)) eqn:E2; cbn [negb andb]; intros [= <- <-]; (split; [reflexivity|]; split; [exact Hn|]; split; [discriminate|]; split; [discriminate|]);
        first [left; apply contains_spec; exact E1|right; apply contains_spec; exact E2].
    + intros (E & Hn' & N1 & N2 & Hs). assert (a = name /\ b = version) as [-> ->].
      { clear - Hn Hn' E. revert name Hn' E. induction a as [|x a IH]; intros [|y name] Hn' E; cbn in *.
        - injection E as ->. auto.
        - injection E as Ey E. exfalso. apply Hn'. left. symmetry. exact Ey.
        - injection E as Ey E. exfalso. apply Hn. left. exact Ey.
        - injection E as -> E. destruct (IH (fun X => Hn (or_intror X)) name (fun X => Hn' (or_intror X)) E) as [-> ->]. auto. }
      destruct name as [|x name]; [contradiction|]. destruct version as [|y version]; [contradiction|].
      destruct Hs as [Hs|Hs]; apply contains_spec in Hs; rewrite Hs; cbn [negb andb]; [reflexivity|]. rewrite Bool.andb_false_r. reflexivity.
  - split; [discriminate|]. intros (-> & _). exfalso. apply H. apply in_or_app. right. left. reflexivity.
Qed.
Print Assumptions C44_target_exact.
Example C44_example : parse_target (B "example.com/m@v1@2") = Some (B "example.com/m", B "v1@2") /\ parse_target (B "m@v1") = None /\ parse_target (B "a.b@") = None /\ parse_target (B "@v1") = None.
Proof. vm_compute. auto. Qed.

(** ** C43 *)
Section Prep.
Variable abs : bytes -> option bytes.
Variable trim : bytes -> bytes.
Variable file_ok : bytes -> bool.
Variable out_ok : bytes -> bool.
Notation prep := (prepare abs trim file_ok out_ok).

Definition is_target (s : bytes) : Prop := exists n v, target_spelling s n v.
(** The options a run accepts. *)
Definition valid (c : config) : Prop :=
  c_project c <> [] /\ (c_module c <> [] \/ c_modules c <> [] \/ c_gomod c <> [] \/ c_gowork c <> []) /\
  ~ (c_gomod c <> [] /\ c_gowork c <> []) /\ abs (c_project c) <> None /\
  (c_module c <> [] -> is_target (c_module c)) /\
  (c_modules c <> [] -> forall m, In m (split_on ","%char (c_modules c)) -> is_target (trim m)) /\
  (c_gomod c <> [] -> file_ok (c_gomod c) = true) /\ (c_gowork c <> [] -> file_ok (c_gowork c) = true) /\
  (1024 <= c_port c <= 65535)%Z /\ (1 <= c_recurse c <= 100)%Z /\ (1 <= c_len c <= 1048576)%Z /\ (1 <= c_cache c <= 10240)%Z /\ (1 <= c_mult c <= 100)%Z /\
  In (c_scope c) (map B ["function"; "line"; "area"; "none"]%string) /\ In (c_mode c) (map B ["full"; "fast"]%string) /\ In (c_tests c) (map B ["full"; "targeted"]%string) /\
  (c_json c <> [] -> out_ok (c_json c) = true) /\ (c_json c = [] -> c_charts c <> [] -> out_ok (c_charts c) = true).

(** What is left as given. *)
Definition same_options (c d : config) : Prop :=
  c_project c = c_project d /\ c_module c = c_module d /\ c_modules c = c_modules d /\ c_gomod c = c_gomod d /\ c_gowork c = c_gowork d /\
  c_port c = c_port d /\ c_recurse c = c_recurse d /\ c_len c = c_len d /\ c_cache c = c_cache d /\ c_json c = c_json d /\ c_charts c = c_charts d /\
  c_scope c = c_scope d /\ c_mode c = c_mode d /\ c_tests c = c_tests d /\ c_tmp c = c_tmp d /\ c_mult c = c_mult d.

(** The targets given by the two options, in order. *)
Definition given (c : config) (ts : list (bytes * bytes)) : Prop :=
  Forall2 (fun s t => target_spelling s (fst t) (snd t))
    ((match c_module c with [] => [] | m => [m] end) ++ (match c_modules c with [] => [] | m => map trim (split_on ","%char m) end)) ts.

Lemma same_trans a b c : same_options a b -> same_options b c -> same_options a c.
Proof.
  intros (a1 & a2 & a3 & a4 & a5 & a6 & a7 & a8 & a9 & a10 & a11 & a12 & a13 & a14 & a15 & a16) (b1 & b2 & b3 & b4 & b5 & b6 & b7 & b8 & b9 & b10 & b11 & b12 & b13 & b14 & b15 & b16).
  repeat split; etransitivity; eassumption.
Qed.
Lemma empty_spec s : empty s = true <-> s = [].
Proof. destruct s; cbn; split; congruence. Qed.
Lemma empty_false s : empty s = false <-> s <> [].
Proof. destruct s; cbn; split; congruence. Qed.
Lemma one_of_spec s l : one_of s l = true <-> In s (map B l).
Proof.
  unfold one_of. rewrite existsb_exists, in_map_iff. split; intros (x & H1 & H2).
  - exists x. destruct (beq_spec s (B x)); [split; auto|discriminate].
  - exists x. split; [exact H2|]. rewrite H1. apply beq_refl.
Qed.
Lemma parse_none s : parse_target s = None <-> ~ is_target s.
Proof.
  split.
  - intros E (n & v & H). apply C44_target_exact in H. congruence.
  - intros H. destruct (parse_target s) as [[n v]|] eqn:E; [|reflexivity]. exfalso. apply H. exists n, v. apply C44_target_exact, E.
Qed.
Lemma target_not_empty s : is_target s -> s <> [].
Proof. intros (n & v & -> & _) X. destruct n; discriminate. Qed.

Lemma add_list_spec l : forall c, let '(c', ok) := add_list trim c l in
  same_options c c' /\ c_absdir c' = c_absdir c /\ c_prepared c' = c_prepared c /\
  (ok = true <-> forall m, In m l -> is_target (trim m)) /\
  (exists ts, c_targets c' = c_targets c ++ ts /\ (ok = true -> Forall2 (fun s t => target_spelling s (fst t) (snd t)) (map trim l) ts)).
Proof.
  induction l as [|m l IH]; intros c; cbn [add_list].
  - split; [repeat split|]. split; [reflexivity|]. split; [reflexivity|]. split; [split; [intros _ m []|reflexivity]|]. exists []. rewrite app_nil_r. split; [reflexivity|intros _; constructor].
  - destruct (empty (trim m)) eqn:E; [|destruct (parse_target (trim m)) as [[n v]|] eqn:Ep].
    + apply empty_spec in E. split; [repeat split|]. split; [reflexivity|]. split; [reflexivity|]. split; [split; [discriminate|]|exists []; rewrite app_nil_r; split; [reflexivity|discriminate]].
      intros H. exfalso. apply (target_not_empty (trim m)); [apply H; left; reflexivity|exact E].
    + specialize (IH (add_target c (n, v))). destruct (add_list trim (add_target c (n, v)) l) as [c' ok]. destruct IH as (I1 & I2 & I3 & I4 & ts & I5 & I6).
      apply C44_target_exact in Ep. split; [exact I1|]. split; [exact I2|]. split; [exact I3|]. split.
      * rewrite I4. split; [intros H x [<-|Hx]; [exists n, v; exact Ep|exact (H x Hx)]|intros H x Hx; apply H; right; exact Hx].
      * exists ((n, v) :: ts). split; [rewrite I5; cbn [add_target c_targets]; rewrite <- app_assoc; reflexivity|]. intros Hok. cbn [map]. constructor; [exact Ep|exact (I6 Hok)].
    + split; [repeat split|]. split; [reflexivity|]. split; [reflexivity|]. split; [split; [discriminate|]|exists []; rewrite app_nil_r; split; [reflexivity|discriminate]].
      intros H. exfalso. apply (proj1 (parse_none _) Ep), H. left. reflexivity.
Qed.

(** Options are accepted exactly when they are valid and were not prepared before; then
    the targets are those given, and everything else is as given. *)
Theorem C43_accepted_iff_valid : forall c,
  let '(c', ok) := prep c in
  (ok = true <-> c_prepared c = false /\ valid c) /\ same_options c c' /\
  (ok = true -> c_prepared c' = true /\ abs (c_project c) = Some (c_absdir c') /\ exists ts, c_targets c' = c_targets c ++ ts /\ given c ts).
Proof.
  intros c. unfold prepare.
  assert (forall d, same_options d d) as SO by (intros d; repeat split).
  destruct (c_prepared c) eqn:Epr; [split; [split; [discriminate|intros [X _]; discriminate]|split; [apply SO|discriminate]]|].
  destruct (empty (c_project c)) eqn:E1; [apply empty_spec in E1; split; [split; [discriminate|intros [_ X]; unfold valid in X; tauto]|split; [apply SO|discriminate]]|]. apply empty_false in E1.
  destruct (empty (c_module c) && empty (c_modules c) && empty (c_gomod c) && empty (c_gowork c)) eqn:E2.
  { rewrite !Bool.andb_true_iff, !empty_spec in E2. split; [split; [discriminate|intros [_ X]; unfold valid in X; tauto]|split; [apply SO|discriminate]]. }
  assert (c_module c <> [] \/ c_modules c <> [] \/ c_gomod c <> [] \/ c_gowork c <> []) as V2.
  { destruct (c_module c), (c_modules c), (c_gomod c), (c_gowork c); try discriminate E2; first [left; discriminate|right; left; discriminate|right; right; left; discriminate|right; right; right; discriminate]. }
  clear E2. destruct (negb (empty (c_gomod c)) && negb (empty (c_gowork c))) eqn:E3.
  { rewrite Bool.andb_true_iff, !Bool.negb_true_iff, !empty_false in E3. split; [split; [discriminate|intros [_ X]; unfold valid in X; tauto]|split; [apply SO|discriminate]]. }
  assert (~ (c_gomod c <> [] /\ c_gowork c <> [])) as V3 by (destruct (c_gomod c), (c_gowork c); try discriminate E3; intuition congruence).
  clear E3. destruct (abs (c_project c)) as [a|] eqn:Ea; [|split; [split; [discriminate|intros [_ X]; unfold valid in X; rewrite Ea in X; tauto]|split; [apply SO|discriminate]]].
  cbn zeta. set (c1 := set_abs c a). assert (c_module c1 = c_module c) as Em1 by reflexivity. assert (c_modules c1 = c_modules c) as Em2 by reflexivity.
  assert (exists c2 ok2, (if empty (c_module c1) then (c1, true) else match parse_target (c_module c1) with Some t => (add_target c1 t, true) | None => (c1, false) end) = (c2, ok2) /\
    same_options c c2 /\ c_absdir c2 = a /\ c_prepared c2 = false /\ (ok2 = true <-> (c_module c <> [] -> is_target (c_module c))) /\
    exists ts, c_targets c2 = c_targets c ++ ts /\ (ok2 = true -> Forall2 (fun s t => target_spelling s (fst t) (snd t)) (match c_module c with [] => [] | m => [m] end) ts)) as (c2 & ok2 & E4 & S2 & A2 & P2 & O2 & ts2 & T2 & F2).
  { rewrite Em1. destruct (empty (c_module c)) eqn:Ee.
    - apply empty_spec in Ee. exists c1, true. rewrite Ee. split; [reflexivity|]. split; [repeat split|]. split; [reflexivity|]. split; [exact Epr|]. split; [split; [intros _ X; contradiction|reflexivity]|]. exists []. split; [cbn; rewrite app_nil_r; reflexivity|constructor].
    - apply empty_false in Ee. destruct (parse_target (c_module c)) as [[n v]|] eqn:Ep.
      + apply C44_target_exact in Ep. exists (add_target c1 (n, v)), true. split; [reflexivity|]. split; [repeat split|]. split; [reflexivity|]. split; [exact Epr|]. split; [split; [intros _ _; exists n, v; exact Ep|reflexivity]|].
        exists [(n, v)]. split; [reflexivity|]. intros _. destruct (c_module c); [contradiction|]. constructor; [exact Ep|constructor].
      + exists c1, false. split; [reflexivity|]. split; [repeat split|]. split; [reflexivity|]. split; [exact Epr|]. split; [split; [discriminate|intros X; exfalso; exact (proj1 (parse_none _) Ep (X Ee))]|]. exists []. split; [cbn; rewrite app_nil_r; reflexivity|discriminate]. }
  rewrite E4. clear E4. destruct ok2; cbn [negb].
  2:{ split; [split; [discriminate|intros [_ X]; exfalso; destruct X as (x1 & x2 & x3 & x4 & x5 & x6 & x7 & x8 & x9 & x10 & x11 & x12 & x13 & x14 & x15 & x16 & x17 & x18); assert (false = true) by (apply O2; exact x5); discriminate]|split; [exact S2|discriminate]]. }
  assert (c_modules c2 = c_modules c) as Emm by (unfold same_options in S2; symmetry; tauto).
  assert (exists c3 ok3, (if empty (c_modules c2) then (c2, true) else add_list trim c2 (split_on ","%char (c_modules c2))) = (c3, ok3) /\
    same_options c c3 /\ c_absdir c3 = a /\ c_prepared c3 = false /\ (ok3 = true <-> (c_modules c <> [] -> forall m, In m (split_on ","%char (c_modules c)) -> is_target (trim m))) /\
    exists ts, c_targets c3 = c_targets c2 ++ ts /\ (ok3 = true -> Forall2 (fun s t => target_spelling s (fst t) (snd t)) (match c_modules c with [] => [] | m => map trim (split_on ","%char m) end) ts)) as (c3 & ok3 & E5 & S3 & A3 & P3 & O3 & ts3 & T3 & F3).
  { rewrite Emm. destruct (empty (c_modules c)) eqn:Ee.
    - apply empty_spec in Ee. exists c2, true. rewrite Ee. split; [reflexivity|]. split; [exact S2|]. split; [exact A2|]. split; [exact P2|]. split; [split; [intros _ X; contradiction|reflexivity]|]. exists []. split; [rewrite app_nil_r; reflexivity|constructor].
    - apply empty_false in Ee. pose proof (add_list_spec (split_on ","%char (c_modules c)) c2) as L. destruct (add_list trim c2 (split_on ","%char (c_modules c))) as [c3 ok3]. destruct L as (L1 & L2 & L3 & L4 & ts & L5 & L6).
      exists c3, ok3. split; [reflexivity|]. split; [exact (same_trans _ _ _ S2 L1)|]. split; [congruence|]. split; [congruence|]. split; [rewrite L4; tauto|]. exists ts. split; [exact L5|].
      intros Hok. destruct (c_modules c); [contradiction|]. exact (L6 Hok). }
  rewrite E5. clear E5. destruct ok3; cbn [negb].
  2:{ split; [split; [discriminate|intros [_ X]; exfalso; destruct X as (x1 & x2 & x3 & x4 & x5 & x6 & x7 & x8 & x9 & x10 & x11 & x12 & x13 & x14 & x15 & x16 & x17 & x18); assert (false = true) by (apply O3; exact x6); discriminate]|split; [exact S3|discriminate]]. }
  assert (given c (ts2 ++ ts3)) as G by (unfold given; apply Forall2_app; [apply F2; reflexivity|apply F3; reflexivity]).
  pose proof (proj1 O2 eq_refl) as V4. pose proof (proj1 O3 eq_refl) as V5.
  assert (c_gomod c3 = c_gomod c /\ c_gowork c3 = c_gowork c /\ c_json c3 = c_json c /\ c_charts c3 = c_charts c /\ ranges_ok c3 = ranges_ok c /\ words_ok c3 = words_ok c) as (Q1 & Q2 & Q3 & Q4 & Q5 & Q6).
  { unfold same_options in S3. destruct S3 as (s1 & s2 & s3 & s4 & s5 & s6 & s7 & s8 & s9 & s10 & s11 & s12 & s13 & s14 & s15 & s16). unfold ranges_ok, words_ok. rewrite <- s4, <- s5, <- s6, <- s7, <- s8, <- s9, <- s10, <- s11, <- s12, <- s13, <- s14, <- s16. auto 10. }
  rewrite Q1, Q2, Q3, Q4, Q5, Q6.
  assert ((if negb (empty (c_gomod c)) then file_ok (c_gomod c) else if negb (empty (c_gowork c)) then file_ok (c_gowork c) else true) = true <-> (c_gomod c <> [] -> file_ok (c_gomod c) = true) /\ (c_gowork c <> [] -> file_ok (c_gowork c) = true)) as W1.
  { clear - V3. destruct (c_gomod c) as [|p g]; destruct (c_gowork c) as [|q h]; cbn [empty negb]; try (exfalso; apply V3; split; discriminate).
    - split; [intros _; split; intros X; contradiction|reflexivity].
    - split; [intros H; split; [intros X; contradiction|intros _; exact H]|intros [_ H]; apply H; discriminate].
    - split; [intros H; split; [intros _; exact H|intros X; contradiction]|intros [H _]; apply H; discriminate]. }
  destruct (if negb (empty (c_gomod c)) then file_ok (c_gomod c) else if negb (empty (c_gowork c)) then file_ok (c_gowork c) else true); cbn [negb].
  2:{ split; [split; [discriminate|intros [_ X]; exfalso; destruct X as (x1 & x2 & x3 & x4 & x5 & x6 & x7 & x8 & x9 & x10 & x11 & x12 & x13 & x14 & x15 & x16 & x17 & x18); assert (false = true) by (apply W1; split; [exact x7|exact x8]); discriminate]|split; [exact S3|discriminate]]. }
  pose proof (proj1 W1 eq_refl) as [V6 V7].
  assert (ranges_ok c = true <-> (1024 <= c_port c <= 65535)%Z /\ (1 <= c_recurse c <= 100)%Z /\ (1 <= c_len c <= 1048576)%Z /\ (1 <= c_cache c <= 10240)%Z /\ (1 <= c_mult c <= 100)%Z) as W2 by (unfold ranges_ok; rewrite !Bool.andb_true_iff, !Z.leb_le; intuition lia).
  destruct (ranges_ok c); cbn [negb].
  2:{ split; [split; [discriminate|intros [_ X]; exfalso; destruct X as (x1 & x2 & x3 & x4 & x5 & x6 & x7 & x8 & x9 & x10 & x11 & x12 & x13 & x14 & x15 & x16 & x17 & x18); assert (false = true) by (apply W2; repeat (split; [assumption|]); assumption); discriminate]|split; [exact S3|discriminate]]. }
  pose proof (proj1 W2 eq_refl) as V8.
  assert (words_ok c = true <-> In (c_scope c) (map B ["function"; "line"; "area"; "none"]%string) /\ In (c_mode c) (map B ["full"; "fast"]%string) /\ In (c_tests c) (map B ["full"; "targeted"]%string)) as W3 by (unfold words_ok; rewrite !Bool.andb_true_iff, !one_of_spec; tauto).
  destruct (words_ok c); cbn [negb].
  2:{ split; [split; [discriminate|intros [_ X]; exfalso; destruct X as (x1 & x2 & x3 & x4 & x5 & x6 & x7 & x8 & x9 & x10 & x11 & x12 & x13 & x14 & x15 & x16 & x17 & x18); assert (false = true) by (apply W3; split; [exact x14|split; [exact x15|exact x16]]); discriminate]|split; [exact S3|discriminate]]. }
  pose proof (proj1 W3 eq_refl) as V9.
  assert ((if negb (empty (c_json c)) then out_ok (c_json c) else if negb (empty (c_charts c)) then out_ok (c_charts c) else true) = true <-> (c_json c <> [] -> out_ok (c_json c) = true) /\ (c_json c = [] -> c_charts c <> [] -> out_ok (c_charts c) = true)) as W4.
  { clear. destruct (c_json c) as [|p g]; destruct (c_charts c) as [|q h]; cbn [empty negb].
    - split; [intros _; split; [intros X; contradiction|intros _ X; contradiction]|reflexivity].
    - split; [intros H; split; [intros X; contradiction|intros _ _; exact H]|intros [_ H]; apply H; [reflexivity|discriminate]].
    - split; [intros H; split; [intros _; exact H|discriminate]|intros [H _]; apply H; discriminate].
    - split; [intros H; split; [intros _; exact H|discriminate]|intros [H _]; apply H; discriminate]. }
  destruct (if negb (empty (c_json c)) then out_ok (c_json c) else if negb (empty (c_charts c)) then out_ok (c_charts c) else true); cbn [negb].
  2:{ split; [split; [discriminate|intros [_ X]; exfalso; destruct X as (x1 & x2 & x3 & x4 & x5 & x6 & x7 & x8 & x9 & x10 & x11 & x12 & x13 & x14 & x15 & x16 & x17 & x18); assert (false = true) by (apply W4; split; [exact x17|exact x18]); discriminate]|split; [exact S3|discriminate]]. }
  pose proof (proj1 W4 eq_refl) as V10. split; [split; [|reflexivity]|].
  - intros _. split; [reflexivity|]. unfold valid. rewrite Ea. destruct V8 as (? & ? & ? & ? & ?), V9 as (? & ? & ?), V10 as [? ?].
    repeat (split; [first [assumption|discriminate]|]); assumption.
  - split; [exact S3|]. intros _. split; [reflexivity|]. split; [cbn [set_prepared c_absdir]; rewrite A3; reflexivity|]. exists (ts2 ++ ts3). split; [cbn [set_prepared c_targets]; rewrite T3, T2, app_assoc; reflexivity|exact G].
Qed.

(** A prepared configuration is never accepted again. *)
Theorem C43_prepared_once : forall c, snd (prep c) = true -> prep (fst (prep c)) = (fst (prep c), false).
Proof.
  intros c H. pose proof (C43_accepted_iff_valid c) as V. destruct (prep c) as [c' ok]. cbn in H. subst ok. destruct V as (_ & _ & V). destruct (V eq_refl) as [V1 _]. cbn [fst]. unfold prepare at 1. rewrite V1. reflexivity.
Qed.
End Prep.
Print Assumptions C43_accepted_iff_valid.
Print Assumptions C43_prepared_once.

(** A configuration as a user would give it. *)
Definition sample (port : Z) (json charts : bytes) : config :=
  Config (B ".") (B "example.com/m@v1.1.0") (B "a.b/c@v1, d.e/f@v2") [] [] port 20 1024 64 json charts (B "area") (B "fast") (B "targeted") false 10 [] [] false.
Definition trim0 (s : bytes) : bytes := match s with c :: r => if ascii_dec c " "%char then r else s | [] => [] end.
Example C43_example :
  let r := prepare (fun p => Some (B "/w")) trim0 (fun _ => true) (fun _ => true) (sample 8448 [] (B "out.png")) in
  snd r = true /\ c_targets (fst r) = [(B "example.com/m", B "v1.1.0"); (B "a.b/c", B "v1"); (B "d.e/f", B "v2")] /\
  valid (fun p => Some (B "/w")) trim0 (fun _ => true) (fun _ => true) (sample 8448 [] (B "out.png")) /\
  snd (prepare (fun p => Some (B "/w")) trim0 (fun _ => true) (fun _ => true) (sample 80 [] (B "out.png"))) = false.
Proof.
  cbv zeta. pose proof (C43_accepted_iff_valid (fun p => Some (B "/w")) trim0 (fun _ => true) (fun _ => true) (sample 8448 [] (B "out.png"))) as V.
  assert (snd (prepare (fun p => Some (B "/w")) trim0 (fun _ => true) (fun _ => true) (sample 8448 [] (B "out.png"))) = true) as E by (vm_compute; reflexivity).
  split; [exact E|]. split; [vm_compute; reflexivity|]. split; [|vm_compute; reflexivity].
  destruct (prepare _ _ _ _ _) as [c' ok]. cbn in E. subst ok. destruct V as (V & _). apply V. reflexivity.
Qed.

(** The path for charts is not looked at when a path for JSON is given too. *)
Theorem C43_chart_path_checked_refuted :
  exists out_ok c, c_charts c <> [] /\ out_ok (c_charts c) = false /\ snd (prepare (fun p => Some p) trim0 (fun _ => true) out_ok c) = true.
Proof. exists (fun p => negb (beq p (B "/no/x.png"))), (sample 8448 (B "r.json") (B "/no/x.png")). vm_compute. repeat split. discriminate. Qed.
Print Assumptions C43_chart_path_checked_refuted.

(** A configuration that was refused because of its port, corrected and prepared again
    has its targets twice. *)
Lemma f2_len (A B : Type) (R : A -> B -> Prop) l l2 : Forall2 R l l2 -> length l = length l2.
Proof. induction 1; cbn; congruence. Qed.
Definition with_port (c : config) (p : Z) : config :=
  Config (c_project c) (c_module c) (c_modules c) (c_gomod c) (c_gowork c) p (c_recurse c) (c_len c) (c_cache c)
    (c_json c) (c_charts c) (c_scope c) (c_mode c) (c_tests c) (c_tmp c) (c_mult c) (c_absdir c) (c_targets c) (c_prepared c).
Theorem C43_targets_are_those_given_refuted :
  exists c port, let P := prepare (fun p => Some p) trim0 (fun _ => true) (fun _ => true) in
  c_targets c = [] /\ snd (P c) = false /\ snd (P (with_port (fst (P c)) port)) = true /\
  ~ given trim0 c (c_targets (fst (P (with_port (fst (P c)) port)))).
Proof.
  exists (sample 80 [] []), 8448%Z. cbv zeta. split; [reflexivity|]. split; [vm_compute; reflexivity|]. split; [vm_compute; reflexivity|].
  unfold given. intros H. apply f2_len in H. vm_compute in H. discriminate.
Qed.
Print Assumptions C43_targets_are_those_given_refuted.

(** ** C56 *)
(** The targets a project requires, in the order given, with the versions it has. *)
Fixpoint required (find : bytes -> found) (l : list (bytes * bytes)) : list change :=
  match l with
  | [] => []
  | (n, v) :: l' => match find n with FVer (x :: o) i => Change n (x :: o) v i [] :: required find l' | _ => required find l' end
  end.

(** With targets given, the modules looked at are exactly the targets the project
    requires, in order, from its version to the version given; go.mod and go.work options
    play no part, modules reached from them are included; the radius is 1 for scope area. *)
Theorem C56_targets_selected : forall c n find dm dw,
  c_targets c <> [] ->
  match parse_initial c (Some n) find dm dw with
  | Some (l, expand, radius) =>
      (forall m v, In (m, v) (c_targets c) -> find m <> FErr) /\ l = required find (c_targets c) /\ expand = true /\
      (radius = if beq (c_scope c) (B "area") then 1 else 0)%nat
  | None => exists m v, In (m, v) (c_targets c) /\ find m = FErr
  end.
Proof.
  intros c n find dm dw H. unfold parse_initial. destruct (c_targets c) as [|t0 l0] eqn:Et; [contradiction|]. clear H Et. generalize (t0 :: l0) as l. clear t0 l0. intros l.
  assert (match initial_targets find l with
    | Some r => (forall m v, In (m, v) l -> find m <> FErr) /\ r = required find l
    | None => exists m v, In (m, v) l /\ find m = FErr end) as H.
  { induction l as [|[m v] l IH]; cbn [initial_targets required]; [split; [intros m v []|reflexivity]|].
    destruct (find m) as [| |o i] eqn:Ef.
    - exists m, v. split; [left; reflexivity|exact Ef].
    - destruct (initial_targets find l) as [r|]; [|destruct IH as (m' & v' & I & E); exists m', v'; split; [right; exact I|exact E]].
      destruct IH as [I1 I2]. split; [intros m' v' [E|I]; [injection E as <- <-; congruence|exact (I1 _ _ I)]|exact I2].
    - destruct o as [|x o]; (destruct (initial_targets find l) as [r|]; [|destruct IH as (m' & v' & I & E); exists m', v'; split; [right; exact I|exact E]]);
        (destruct IH as [I1 I2]; split; [intros m' v' [E|I]; [injection E as <- <-; congruence|exact (I1 _ _ I)]|congruence]). }
  destruct (initial_targets find l) as [r|]; [|exact H]. destruct H as [H1 H2]. auto.
Qed.
Print Assumptions C56_targets_selected.
(** Without targets: a new go.mod is compared only for projects with a single go.mod. *)
Theorem C56_files_selected : forall c n find dm dw,
  c_targets c = [] -> c_gomod c <> [] \/ c_gowork c <> [] -> ~ (c_gomod c <> [] /\ c_gowork c <> []) ->
  match parse_initial c (Some n) find dm dw with
  | Some (l, expand, _) => expand = false /\ ((c_gomod c <> [] /\ n = 1%nat /\ dm = Some l) \/ (c_gowork c <> [] /\ dw = Some l))
  | None => (c_gomod c <> [] /\ (n <> 1%nat \/ dm = None)) \/ (c_gowork c <> [] /\ dw = None)
  end.
Proof.
  intros c n find dm dw Ht H1 H2. unfold parse_initial. rewrite Ht. destruct (c_gomod c) as [|p g]; cbn [empty negb].
  - destruct H1 as [H1|H1]; [contradiction|]. destruct (c_gowork c) as [|q h]; [contradiction|]. cbn [empty negb]. destruct dw as [l|]; [split; [reflexivity|right; split; [exact H1|reflexivity]]|right; split; [exact H1|reflexivity]].
  - destruct (Nat.eqb_spec n 1) as [E|E].
    + destruct dm as [l|]; [split; [reflexivity|left; split; [discriminate|split; [exact E|reflexivity]]]|left; split; [discriminate|right; reflexivity]].
    + left. split; [discriminate|left; exact E].
Qed.
Print Assumptions C56_files_selected.
Example C56_example :
  let find := fun m => if beq m (B "a.b/c") then FVer (B "v0.9") true else FNone in
  let c := fst (prepare (fun p => Some (B "/w")) trim0 (fun _ => true) (fun _ => true) (sample 8448 [] [])) in
  c_targets c <> [] /\ parse_initial c (Some 1%nat) find None None = Some ([Change (B "a.b/c") (B "v0.9") (B "v1") true []], true, 1%nat).
Proof. vm_compute. split; [discriminate|reflexivity]. Qed.
(** A target the project does not require is skipped, not refused. *)
Theorem C56_missing_target_is_error_refuted :
  exists c find, (exists t, In t (c_targets c) /\ find (fst t) = FNone) /\ parse_initial c (Some 1%nat) find None None = Some ([], true, 1%nat).
Proof.
  exists (fst (prepare (fun p => Some (B "/w")) trim0 (fun _ => true) (fun _ => true) (sample 8448 [] []))), (fun _ => FNone).
  split; [|vm_compute; reflexivity]. exists (B "a.b/c", B "v1"). split; [vm_compute; auto|reflexivity].
Qed.
Print Assumptions C56_missing_target_is_error_refuted.

(** ** C42 *)
Definition is_report (e : event) := match e with VReport _ _ => true | _ => false end.
Definition is_close (e : event) := match e with VClose => true | _ => false end.
Definition opened (e : event) := match e with VOpen true => true | _ => false end.
(** Calls that do the work of a run. *)
Definition is_work (e : event) := match e with VModules _ | VCallers _ | VTests _ | VOpen _ | VExec _ | VMutate _ _ _ _ | VCompare _ | VReport _ _ => true | _ => false end.
(** Calls that failed. *)
Definition failed (e : event) := match e with VSetup false | VModules false | VCallers false | VTests false | VOpen false | VExec false | VMutate _ _ _ false | VCompare false | VReport _ false => true | _ => false end.
(** What undoes a successful call. *)
Definition undo_of (e : event) : list event :=
  match e with
  | VSetup true => [VRemoveTmp] | VModules true => [VCleanModules] | VCallers true => [VCleanCallers] | VTests true => [VCleanTests]
  | VOpen true => [VClose] | VExec true => [VCleanExec] | VMutate _ _ _ true => [VCleanMutate] | _ => []
  end.
Definition is_undo (e : event) := match e with VRemoveTmp | VCleanModules | VCleanCallers | VCleanTests | VClose | VCleanExec | VCleanMutate => true | _ => false end.

Ltac runs := intros c w; unfold run;
  destruct w as [wp ws wi wm wc wt wo we wmu wcmp wr]; cbn [w_prepare w_setup w_initial w_modules w_callers w_tests w_open w_exec w_mutate w_compare w_report];
  generalize (beq (c_mode c) (B "full")) (beq (c_scope c) (B "line")) (beq (c_scope c) (B "area")) (beq (c_tests c) (B "full"));
  generalize (beq (c_scope c) (B "none")); generalize (c_tmp c); intros tmp none full line area tfull;
  destruct wp; [|cbn]; [destruct tmp, ws; cbn [andb negb]; [| | |];
   try (destruct wi as [[|wi]|]; [|destruct wm as [[|wm]|]; cbn [Nat.eqb]; [|destruct wc as [[|wc]|]; cbn [Nat.eqb]; [|destruct wt as [[|wt]|]; cbn [Nat.eqb]; [|destruct wo; cbn [negb]; [destruct we; cbn [negb]; [destruct none, wmu; cbn [negb andb]; destruct wcmp; cbn [negb]|]|]|]|]|]|])|].

(** A run is some work calls followed by undo calls; the undo calls are exactly those
    of the successful calls, newest first. So everything that was set up is undone once,
    after all work, and nothing else is. *)
Theorem C42_undone_in_reverse : forall c w,
  exists work, fst (run c w) = work ++ flat_map undo_of (rev work) /\ forall e, In e work -> is_undo e = false.
Proof.
  assert (forall l : list event, (exists work undo, l = work ++ undo /\ undo = flat_map undo_of (rev work) /\ forallb (fun e => negb (is_undo e)) work = true) ->
    exists work, l = work ++ flat_map undo_of (rev work) /\ forall e, In e work -> is_undo e = false) as L.
  { intros l (a & u & -> & -> & E). exists a. split; [reflexivity|]. rewrite forallb_forall in E. intros e He. apply Bool.negb_true_iff, E, He. }
  intros c w. apply L. clear L. revert c w.
  assert (forall l : list event, (let n := length (filter (fun e => negb (is_undo e)) l) in l = firstn n l ++ flat_map undo_of (rev (firstn n l)) /\ forallb (fun e => negb (is_undo e)) (firstn n l) = true) ->
     exists work undo, l = work ++ undo /\ undo = flat_map undo_of (rev work) /\ forallb (fun e => negb (is_undo e)) work = true) as L.
  { intros l [E1 E2]. eexists _, _. split; [exact E1|]. split; [reflexivity|exact E2]. }
  runs; apply L; cbn; (split; reflexivity).
Qed.
Print Assumptions C42_undone_in_reverse.

(** The positions of two kinds of calls: before every [q] there is a [p]. *)
Definition preceded (p q : event -> bool) (l : list event) : Prop := forall a e b, l = a ++ e :: b -> q e = true -> exists x, In x a /\ p x = true.
Fixpoint preceded_b (p q : event -> bool) (seen : bool) (l : list event) : bool :=
  match l with [] => true | e :: l' => (negb (q e) || seen) && preceded_b p q (seen || p e) l' end.
Lemma preceded_b_ok p q l : preceded_b p q false l = true -> preceded p q l.
Proof.
  assert (forall l pre, preceded_b p q (existsb p pre) l = true -> forall a e b, l = a ++ e :: b -> q e = true -> exists x, In x (pre ++ a) /\ p x = true) as L.
  { clear l. induction l as [|y l IH]; intros pre H a e b E Q; [destruct a; discriminate|]. cbn [preceded_b] in H. apply andb_prop in H. destruct H as [H1 H2].
    destruct a as [|z a]; injection E as -> ->.
    - rewrite Q in H1. cbn in H1. apply existsb_exists in H1. destruct H1 as (x & Hx & Px). exists x. rewrite app_nil_r. auto.
    - specialize (IH (pre ++ [z])). rewrite existsb_app in IH. cbn [existsb] in IH. rewrite Bool.orb_false_r in IH. destruct (IH H2 a e b eq_refl Q) as (x & Hx & Px). exists x. rewrite <- app_assoc in Hx. auto. }
  intros H a e b E Q. destruct (L l [] H a e b E Q) as (x & Hx & Px). exists x. auto.
Qed.

Definition ok_modules e := match e with VModules true => true | _ => false end.
Definition ok_callers e := match e with VCallers true => true | _ => false end.
Definition ok_tests e := match e with VTests true => true | _ => false end.
Definition ok_exec e := match e with VExec true => true | _ => false end.
Definition ok_compare e := match e with VCompare true => true | _ => false end.
Definition is_callers e := match e with VCallers _ => true | _ => false end.
Definition is_tests e := match e with VTests _ => true | _ => false end.
Definition is_open e := match e with VOpen _ => true | _ => false end.
Definition is_exec e := match e with VExec _ => true | _ => false end.
Definition is_mutate e := match e with VMutate _ _ _ _ => true | _ => false end.
Definition is_compare e := match e with VCompare _ => true | _ => false end.
Definition is_full_report e := match e with VReport r _ => ri_compared r | _ => false end.
Definition is_ok_mutate e := match e with VMutate _ _ _ true => true | _ => false end.

(** Stages happen in order, each only after success of the one before. *)
Theorem C42_stages_in_order : forall c w, let t := fst (run c w) in
  preceded ok_modules is_callers t /\ preceded ok_callers is_tests t /\ preceded ok_tests is_open t /\ preceded opened is_exec t /\
  preceded ok_exec is_mutate t /\ preceded ok_exec is_compare t /\ preceded ok_compare is_full_report t /\
  (c_scope c <> B "none" -> preceded is_ok_mutate is_compare t).
Proof.
  cbv zeta. assert (forall c w, forallb (fun pq => preceded_b (fst pq) (snd pq) false (fst (run c w)))
     [(ok_modules, is_callers); (ok_callers, is_tests); (ok_tests, is_open); (opened, is_exec); (ok_exec, is_mutate); (ok_exec, is_compare); (ok_compare, is_full_report)] = true) as L.
  { runs; reflexivity. }
  assert (forall c w, beq (c_scope c) (B "none") = false -> preceded_b is_ok_mutate is_compare false (fst (run c w)) = true) as L2.
  { runs; intros E; try discriminate E; reflexivity. }
  intros c w. specialize (L c w). cbn [forallb fst snd] in L. rewrite !Bool.andb_true_iff in L. destruct L as (l1 & l2 & l3 & l4 & l5 & l6 & l7 & _).
  repeat (split; [apply preceded_b_ok; assumption|]). intros N. apply preceded_b_ok, L2. destruct (beq_spec (c_scope c) (B "none")) as [E|E]; [contradiction|reflexivity].
Qed.
Print Assumptions C42_stages_in_order.

Fixpoint after_failure (l : list event) : list event := match l with [] => [] | e :: l' => if failed e then l' else after_failure l' end.
Lemma after_failure_spec l a e b : l = a ++ e :: b -> failed e = true -> forall x, In x b -> In x (after_failure l).
Proof.
  revert a. induction l as [|y l IH]; intros a E F x Hx; [destruct a; discriminate|]. cbn [after_failure]. destruct a as [|z a]; injection E as -> ->.
  - rewrite F. exact Hx.
  - destruct (failed z); [apply in_or_app; right; right; exact Hx|]. exact (IH a eq_refl F x Hx).
Qed.

(** The first failing call ends the work, and success is returned exactly when nothing
    failed: options, module selection or one of the calls. *)
Theorem C42_failure_ends_run : forall c w, let '(t, ok) := run c w in
  (forall a e b, t = a ++ e :: b -> failed e = true -> forall x, In x b -> is_work x = false) /\
  (ok = true <-> w_prepare w = true /\ w_initial w <> None /\ forall e, In e t -> failed e = false).
Proof.
  assert (forall c w, forallb (fun e => negb (is_work e)) (after_failure (fst (run c w))) = true) as L1 by (runs; destruct wr; reflexivity).
  assert (forall c w, snd (run c w) = w_prepare w && match w_initial w with None => false | _ => true end && forallb (fun e => negb (failed e)) (fst (run c w))) as L2.
  { runs; destruct wr; try reflexivity; try (destruct wi as [[|?]|]; reflexivity). }
  intros c w. specialize (L1 c w). specialize (L2 c w). destruct (run c w) as [t ok]. cbn [fst snd] in *. split.
  - intros a e b E F x Hx. rewrite forallb_forall in L1. apply Bool.negb_true_iff, L1. exact (after_failure_spec t a e b E F x Hx).
  - rewrite L2, !Bool.andb_true_iff, forallb_forall. split.
    + intros [[H1 H2] H3]. split; [exact H1|]. split; [destruct (w_initial w); [discriminate|discriminate H2]|]. intros e He. apply Bool.negb_true_iff, H3, He.
    + intros (H1 & H2 & H3). split; [split; [exact H1|]|intros e He; rewrite (H3 e He); reflexivity]. destruct (w_initial w); [reflexivity|contradiction].
Qed.
Print Assumptions C42_failure_ends_run.

(** At most one report, and the run succeeds with it; without a report success is only
    returned when no module was selected. *)
Theorem C42_one_report : forall c w, let '(t, ok) := run c w in
  (length (filter is_report t) <= 1)%nat /\ (forall r b, In (VReport r b) t -> ok = b) /\
  (ok = true -> w_initial w = Some 0%nat \/ exists r, In (VReport r true) t).
Proof.
  runs; cbn; (split; [lia|]); (split; [intros r b H; repeat (destruct H as [H|H]; [try discriminate H; injection H as _ H; exact H|]); destruct H|]);
    try (intros X; discriminate X); try (intros _; left; reflexivity); intros ->; right; eexists; repeat (first [left; reflexivity|right]).
Qed.
Print Assumptions C42_one_report.

(** Tests are executed exactly when modules, changes, callers and tests were all found
    and the storage opened. *)
Theorem C42_execution_iff : forall c w,
  (exists b, In (VExec b) (fst (run c w))) <->
  w_prepare w = true /\ (c_tmp c = true -> w_setup w = true) /\ (exists n, w_initial w = Some (S n)) /\ (exists n, w_modules w = Some (S n)) /\
  (exists n, w_callers w = Some (S n)) /\ (exists n, w_tests w = Some (S n)) /\ w_open w = true.
Proof.
  assert (forall c w, existsb is_exec (fst (run c w)) = w_prepare w && (negb (c_tmp c) || w_setup w) && match w_initial w with Some (S _) => true | _ => false end &&
     match w_modules w with Some (S _) => true | _ => false end && match w_callers w with Some (S _) => true | _ => false end && match w_tests w with Some (S _) => true | _ => false end && w_open w) as L by (runs; reflexivity).
  assert (forall o : option nat, match o with Some (S _) => true | _ => false end = true <-> exists n, o = Some (S n)) as S1.
  { intros [[|n]|]; split; try discriminate; try (intros [n' X]; discriminate); eauto. }
  intros c w. specialize (L c w). transitivity (existsb is_exec (fst (run c w)) = true).
  - rewrite existsb_exists. split; [intros (b & H); exists (VExec b); auto|intros (e & H & E); destruct e; try discriminate; eauto].
  - rewrite L, !Bool.andb_true_iff, !S1, Bool.orb_true_iff, Bool.negb_true_iff. destruct (c_tmp c); intuition discriminate.
Qed.
Print Assumptions C42_execution_iff.

(** Mutation testing happens exactly when the tests were executed successfully and it
    was asked for, with the modes asked for. *)
Theorem C42_mutation_iff : forall c w fast line targeted b,
  In (VMutate fast line targeted b) (fst (run c w)) <->
  In (VExec true) (fst (run c w)) /\ c_scope c <> B "none" /\ b = w_mutate w /\
  (fast = true <-> c_mode c <> B "full") /\ (line = true <-> c_scope c = B "line" \/ c_scope c = B "area") /\ (targeted = true <-> c_tests c <> B "full").
Proof.
  assert (forall c w, In (VExec true) (fst (run c w)) \/ ~ In (VExec true) (fst (run c w))) as D.
  { runs; cbn; first [left; repeat (first [left; reflexivity|right]); fail|right; intros H; repeat (destruct H as [H|H]; [discriminate H|]); destruct H]. }
  assert (forall c w fast line targeted b, In (VMutate fast line targeted b) (fst (run c w)) <->
    In (VExec true) (fst (run c w)) /\ beq (c_scope c) (B "none") = false /\ b = w_mutate w /\ fast = negb (beq (c_mode c) (B "full")) /\
    line = beq (c_scope c) (B "line") || beq (c_scope c) (B "area") /\ targeted = negb (beq (c_tests c) (B "full"))) as L.
  { intros c w fa li ta b. revert c w fa li ta b. runs; intros fa li ta b; cbn; (split;
     [intros H; repeat (destruct H as [H|H]; [first [discriminate H|injection H as <- <- <- <-; split; [repeat (first [left; reflexivity|right])|repeat split]]|]); destruct H
     |intros (H & E1 & -> & -> & -> & ->); try discriminate E1; repeat (destruct H as [H|H]; [try discriminate H; repeat (first [left; reflexivity|right]); fail|]); destruct H]). }
  intros c w fa li ta b. rewrite L. clear L.
  assert (forall (x p : bool) (P : Prop), (p = true <-> P) -> (x = p <-> (x = true <-> P))) as S1 by (intros x p P HP; destruct x, p; intuition congruence).
  assert (forall x y, beq x y = true <-> x = y) as S2 by (intros x y; destruct (beq_spec x y); intuition congruence).
  assert (forall x y, beq x y = false <-> x <> y) as S3 by (intros x y; destruct (beq_spec x y); intuition congruence).
  rewrite S3. rewrite (S1 fa _ (c_mode c <> B "full")) by (rewrite Bool.negb_true_iff; apply S3).
  rewrite (S1 li _ (c_scope c = B "line" \/ c_scope c = B "area")) by (rewrite Bool.orb_true_iff, !S2; reflexivity).
  rewrite (S1 ta _ (c_tests c <> B "full")) by (rewrite Bool.negb_true_iff; apply S3). reflexivity.
Qed.
Print Assumptions C42_mutation_iff.

(** The report after an execution carries the numbers the providers gave. *)
Theorem C42_full_report_numbers : forall c w r b, In (VReport r b) (fst (run c w)) -> ri_compared r = true ->
  w_modules w = Some (ri_changed r) /\ w_callers w = Some (ri_callers r) /\ w_tests w = Some (ri_tests r) /\ In (VCompare true) (fst (run c w)).
Proof.
  intros c w r b. revert c w. runs; cbn; intros H C; repeat (destruct H as [H|H]; [try discriminate H; injection H as <- _; try discriminate C; cbn; repeat split; repeat (first [left; reflexivity|right])|]); destruct H.
Qed.
Print Assumptions C42_full_report_numbers.

(** A whole run with a temporary copy. *)
Definition good_world := World true true (Some 1%nat) (Some 3%nat) (Some 2%nat) (Some 4%nat) true true true true true.
Definition tmp_config := Config (B ".") (B "a.b@v1") [] [] [] 8448 20 1024 64 [] [] (B "area") (B "fast") (B "targeted") true 10 [] [] false.
Example C42_example : run tmp_config good_world =
  ([VSetup true; VModules true; VCallers true; VTests true; VOpen true; VExec true; VMutate true true true true; VCompare true; VReport (RInfo 3 2 4 true) true;
    VCleanMutate; VCleanExec; VClose; VCleanTests; VCleanCallers; VCleanModules; VRemoveTmp], true).
Proof. vm_compute. reflexivity. Qed.

(** A provider whose call failed is never asked to clean up, although its call may have
    changed files. *)
Theorem C42_failed_execution_cleaned_refuted :
  exists c w, In (VExec false) (fst (run c w)) /\ ~ In VCleanExec (fst (run c w)).
Proof.
  exists tmp_config, (World true true (Some 1%nat) (Some 3%nat) (Some 2%nat) (Some 4%nat) true false true true true). vm_compute. split; [auto 10|].
  intros H. repeat (destruct H as [H|H]; [discriminate H|]). destruct H.
Qed.
Print Assumptions C42_failed_execution_cleaned_refuted.
(** The report for changes that are not reachable says that nothing was changed. *)
Theorem C42_early_report_numbers_refuted :
  exists c w r, In (VReport r true) (fst (run c w)) /\ w_modules w = Some 3%nat /\ ri_changed r = 0%nat.
Proof.
  exists tmp_config, (World true true (Some 1%nat) (Some 3%nat) (Some 0%nat) (Some 4%nat) true true true true true), (RInfo 0 0 0 false). vm_compute. auto 10.
Qed.
Print Assumptions C42_early_report_numbers_refuted.
(** Success does not mean that a report was written. *)
Theorem C42_success_has_report_refuted :
  exists c w, run c w = ([VSetup true; VRemoveTmp], true) /\ w_prepare w = true.
Proof. exists tmp_config, (World true true (Some 0%nat) None None None true true true true true). vm_compute. auto. Qed.
Print Assumptions C42_success_has_report_refuted.
