(** Property C24: the transitive analysis. *)

From Coq Require Import Permutation.
From Verif Require Import Base Maps UtilModel UtilProps SemverModel SemverProps ModuleModel ModuleProps.

Section C24.
Variable opcodes : list bytes -> list bytes -> list opcode.
Variable load : bytes -> bytes -> option loaded.
Variable project : list gomod.
Variable func_order : bytes -> nat -> amap bytes -> amap bytes.
Variable dep_order : bytes -> amap bytes -> amap bytes.
Hypothesis dep_order_ok : forall n l, Permutation (dep_order n l) l.
Variable transitive : bool.
Variable radius : Z.

Let analyze := analyze_module opcodes load project func_order dep_order.

(** What the analysis of one module finds. *)
Definition found (m : change) (fs : list mfunc) : Prop :=
  exists pkgs calls, analyze transitive radius m = Some (fs, pkgs, calls).

(** [edge m m']: the new version of [m] requires [m'] at another version than the
    old version of [m] did (or the old one did not require it), and the project
    requires it at yet another version, which is the one compared against. *)
Definition edge (m m' : change) : Prop :=
  transitive = true /\
  exists new old ndeps odeps pdeps g1 g2 g3 v,
    load (mc_name m) (mc_new m) = Some new /\ load (mc_name m) (mc_prior m) = Some old /\
    parse_project_deps (ld_mods new) true = Some (ndeps, g1) /\
    parse_project_deps (ld_mods old) false = Some (odeps, g2) /\
    parse_project_deps project false = Some (pdeps, g3) /\
    mget (mc_name m') ndeps = Some v /\ mget (mc_name m') odeps <> Some v /\
    mget (mc_name m') pdeps = Some (mc_prior m') /\ mc_prior m' <> v /\
    m' = Change (mc_name m') (mc_prior m') v true [].

Lemma deps_wf mods newest deps g : parse_project_deps mods newest = Some (deps, g) -> mwf deps.
Proof.
  unfold parse_project_deps. destruct mods as [|f mods]; [discriminate|]. intros [= <- _].
  assert (mwf (versions_map (f :: mods))) as W.
  { unfold versions_map. generalize (f :: mods) as ms. intros ms.
    assert (forall m : amap (list bytes), mwf m -> mwf (fold_left (fun m f => fold_left add_version (req_map (gm_require f)) m) ms m)) as H.
    { induction ms as [|x ms IH]; intros m W; cbn; [exact W|]. apply IH.
      revert m W. induction (req_map (gm_require x)) as [|e l IHl]; intros m W; cbn; [exact W|].
      apply IHl. apply mwf_mset. exact W. }
    apply H. constructor. }
  unfold mwf, mkeys in *. rewrite map_map.
  rewrite (map_ext _ fst); [exact W|]. intros [p vs]. reflexivity.
Qed.

Lemma calls_spec m fs pkgs calls : analyze transitive radius m = Some (fs, pkgs, calls) ->
  forall m', In m' calls <-> edge m m'.
Proof.
  unfold analyze, analyze_module. intros H m'.
  destruct (load (mc_name m) (mc_new m)) as [new|] eqn:Ln; [|discriminate].
  destruct (load (mc_name m) (mc_prior m)) as [old|] eqn:Lo; [|discriminate].
  destruct (parse_project_deps (ld_mods old) false) as [[odeps g2]|] eqn:Po; [|discriminate].
  destruct (parse_project_deps (ld_mods new) true) as [[ndeps g1]|] eqn:Pn; [|discriminate].
  unfold edge. destruct transitive eqn:Tr.
  2:{ injection H as _ _ <-. split; [intros []|intros (E & _); discriminate]. }
  destruct (parse_project_deps project false) as [[pdeps g3]|] eqn:Pp; [|discriminate].
  injection H as _ _ <-. pose proof (deps_wf _ _ _ _ Pn) as Wn. rewrite in_flat_map. split.
  - intros ([dep v] & Hd & Hm). apply (Permutation_in _ (dep_order_ok _ _)) in Hd. apply (mget_in_wf _ _ _ Wn) in Hd.
    split; [reflexivity|]. exists new, old, ndeps, odeps, pdeps, g1, g2, g3, v.
    destruct (mget dep odeps) as [ov|] eqn:Eo.
    + destruct (beq_spec ov v) as [|No]; [destruct Hm|]. cbn [negb] in Hm.
      destruct (mget dep pdeps) as [pv|] eqn:Ep; [|destruct Hm]. destruct (beq_spec pv v); [destruct Hm|].
      destruct Hm as [<-|[]]. cbn. rewrite Eo. repeat (split; [assumption || reflexivity || congruence|]). auto.
    + destruct (mget dep pdeps) as [pv|] eqn:Ep; [|destruct Hm]. destruct (beq_spec pv v); [destruct Hm|].
      destruct Hm as [<-|[]]. cbn. rewrite Eo. repeat (split; [assumption || reflexivity || congruence|]). auto.
  - intros (_ & new' & old' & nd & od & pd & h1 & h2 & h3 & v & E1 & E2 & E3 & E4 & E5 & Hn & Ho & Hp & Nv & Em).
    rewrite Ln in E1. injection E1 as <-. rewrite Lo in E2. injection E2 as <-. rewrite E3 in Pn. injection Pn as <- <-. rewrite E4 in Po. injection Po as <- <-.
    injection E5 as <- <-.
    exists (mc_name m', v). split; [apply (Permutation_in _ (Permutation_sym (dep_order_ok _ _))); apply mget_in; exact Hn|].
    rewrite Hp. destruct (beq_spec (mc_prior m') v) as [|_]; [congruence|].
    destruct (mget (mc_name m') od) as [ov|]; [destruct (beq_spec ov v); [congruence|]|]; cbn [negb]; left; symmetry; exact Em.
Qed.

Lemma found_module m fs pkgs calls : analyze transitive radius m = Some (fs, pkgs, calls) ->
  Forall (fun f => mc_name (fn_mod f) = mc_name m) fs.
Proof.
  unfold analyze, analyze_module. intros H.
  destruct (load (mc_name m) (mc_new m)) as [new|]; [|discriminate].
  destruct (load (mc_name m) (mc_prior m)) as [old|]; [|discriminate].
  destruct (parse_project_deps (ld_mods old) false) as [[odeps g2]|]; [|discriminate].
  destruct (parse_project_deps (ld_mods new) true) as [[ndeps g1]|]; [|discriminate].
  set (mc' := Change _ _ _ _ _) in H.
  assert (fs = changed_from opcodes func_order mc' radius (ld_pkgs old) 0 (ld_pkgs new)) as ->.
  { destruct transitive; [destruct (parse_project_deps project false) as [[? ?]|]; [|discriminate]|]; injection H; auto. }
  clear H. generalize 0%nat. induction (ld_pkgs new) as [|p ps IH]; intros i; cbn [changed_from]; [constructor|].
  apply Forall_app. split; [|apply IH]. unfold changed_in. destruct (pkg_at _ _); [|constructor].
  apply Forall_forall. intros f Hf. apply in_flat_map in Hf as ([k d] & _ & Hf).
  destruct (mget _ _); [|destruct Hf]. destruct (beq _ _); [destruct Hf|]. destruct Hf as [<-|[]]. reflexivity.
Qed.

Lemma fold_opt_cons {A S} (f : S -> A -> option S) a l s :
  fold_opt f (a :: l) s = match f s a with Some s' => fold_opt f l s' | None => None end.
Proof.
  unfold fold_opt. cbn [fold_left]. destruct (f s a); [reflexivity|].
  induction l; cbn; auto.
Qed.

Definition names (log : list (nat * change)) : list bytes := map (fun e => mc_name (snd e)) log.
Definition resolved (log : list (nat * change)) (l : nat) (m' : change) : Prop :=
  exists l' m'', In (l', m'') log /\ mc_name m'' = mc_name m' /\ (l' <= S l)%nat.

(** The invariant while level [lvl] is being worked on, with [todo] left of it. *)
Record inv (starts : list change) (lvl : nat) (todo : list change) (st : state) : Prop := {
  iv_visited : forall n, In n (st_visited st) <-> In n (names (st_log st));
  iv_nodup : NoDup (names (st_log st));
  iv_origin : forall l m, In (l, m) (st_log st) ->
    (l = 0%nat /\ In m starts) \/ exists l0 m0, l = S l0 /\ In (l0, m0) (st_log st) /\ edge m0 m;
  iv_level : forall l m, In (l, m) (st_log st) -> (l <= lvl)%nat;
  iv_edges : forall l m m', In (l, m) (st_log st) -> edge m m' ->
    resolved (st_log st) l m' \/ (S l = lvl /\ In m' todo) \/ (l = lvl /\ In m' (st_next st));
  iv_todo : forall m', In m' todo -> match lvl with 0 => In m' starts | S l => exists m, In (l, m) (st_log st) /\ edge m m' end;
  iv_next : forall m', In m' (st_next st) -> exists m, In (lvl, m) (st_log st) /\ edge m m';
  iv_ok : forall l m, In (l, m) (st_log st) -> exists fs, found m fs
}.

Lemma resolved_mono log x l m : resolved log l m -> resolved (log ++ [x]) l m.
Proof. intros (l' & m'' & Hin & H). exists l', m''. split; [apply in_app_iff; left; exact Hin|exact H]. Qed.

(** One element of the level, already analysed before. *)
Lemma inv_skip starts lvl mc todo st st' : inv starts lvl (mc :: todo) st ->
  In (mc_name mc) (st_visited st) ->
  st_visited st' = st_visited st -> st_log st' = st_log st -> st_next st' = st_next st ->
  inv starts lvl todo st'.
Proof.
  intros I V E1 E2 E3. destruct I as [I1 I2 I3 I4 I5 I6 I7 I8].
  split; rewrite ?E1, ?E2, ?E3; auto.
  - intros l m m' Hin He. destruct (I5 l m m' Hin He) as [H|[[Hl [<-|H]]|H]]; auto.
    left. apply I1 in V. apply in_map_iff in V as ([l' m''] & En & Hin'). cbn in En. exists l', m''.
    split; [exact Hin'|]. split; [exact En|]. specialize (I4 _ _ Hin'). lia.
  - intros m' Hm. apply I6. right. exact Hm.
Qed.

Lemma inv_analyse starts lvl mc todo st fs pkgs calls st' : inv starts lvl (mc :: todo) st ->
  ~ In (mc_name mc) (st_visited st) ->
  analyze transitive radius mc = Some (fs, pkgs, calls) ->
  st_visited st' = mc_name mc :: st_visited st -> st_log st' = st_log st ++ [(lvl, mc)] -> st_next st' = st_next st ++ calls ->
  inv starts lvl todo st'.
Proof.
  intros I V A E1 E2 E3. destruct I as [I1 I2 I3 I4 I5 I6 I7 I8].
  pose proof (calls_spec _ _ _ _ A) as Hc.
  assert (names (st_log st ++ [(lvl, mc)]) = names (st_log st) ++ [mc_name mc]) as En
    by (unfold names; rewrite map_app; reflexivity).
  split; rewrite ?E1, ?E2, ?E3, ?En.
  - intros n. rewrite in_app_iff, <- I1. cbn. tauto.
  - apply NoDup_app_iff. split; [exact I2|]. split; [constructor; [intros []|constructor]|].
    intros x Hx [<-|[]]. apply V. apply I1. exact Hx.
  - intros l m Hin. apply in_app_iff in Hin as [Hin|[[= <- <-]|[]]].
    + destruct (I3 l m Hin) as [H|(l0 & m0 & El & Hin0 & He)]; [left; exact H|]. right. exists l0, m0.
      split; [exact El|]. split; [apply in_app_iff; left; exact Hin0|exact He].
    + specialize (I6 mc (or_introl eq_refl)). destruct lvl as [|l]; [left; auto|].
      right. destruct I6 as (m0 & Hin0 & He). exists l, m0. split; [reflexivity|]. split; [apply in_app_iff; left; exact Hin0|exact He].
  - intros l m Hin. apply in_app_iff in Hin as [Hin|[[= <- <-]|[]]]; [eapply I4; eassumption|lia].
  - intros l m m' Hin He. apply in_app_iff in Hin as [Hin|[[= <- <-]|[]]].
    + destruct (I5 l m m' Hin He) as [H|[[Hl [<-|H]]|[Hl H]]].
      * left. apply resolved_mono. exact H.
      * left. exists lvl, mc. split; [apply in_app_iff; right; left; reflexivity|]. split; [reflexivity|]. lia.
      * right. left. auto.
      * right. right. split; [exact Hl|]. apply in_app_iff. left. exact H.
    + right. right. split; [reflexivity|]. apply in_app_iff. right. apply Hc. exact He.
  - intros m' Hm. specialize (I6 m' (or_intror Hm)). destruct lvl as [|l]; [exact I6|].
    destruct I6 as (m0 & Hin0 & He). exists m0. split; [apply in_app_iff; left; exact Hin0|exact He].
  - intros m' Hm. apply in_app_iff in Hm as [Hm|Hm].
    + destruct (I7 m' Hm) as (m0 & Hin0 & He). exists m0. split; [apply in_app_iff; left; exact Hin0|exact He].
    + exists mc. split; [apply in_app_iff; right; left; reflexivity|]. apply Hc. exact Hm.
  - intros l m Hin. apply in_app_iff in Hin as [Hin|[[= <- <-]|[]]]; [eapply I8; eassumption|].
    exists fs, pkgs, calls. exact A.
Qed.

(** What has been recorded for each module. *)
Definition recorded (log : list (nat * change)) (data : amap (list mfunc)) : Prop :=
  (forall n, ~ In n (names log) -> mget n data = None) /\
  (forall m, In (0%nat, m) log -> forall fs, found m fs -> mget (mc_name m) data = Some fs) /\
  (forall l m, In (S l, m) log -> forall fs, found m fs ->
     mget (mc_name m) data = match fs with [] => None | _ => Some fs end).

Lemma found_fun m fs fs' : found m fs -> found m fs' -> fs = fs'.
Proof. intros (p & c & E) (p' & c' & E'). rewrite E in E'. injection E'; auto. Qed.

Lemma existsb_in n l : existsb (beq n) l = true <-> In n l.
Proof.
  rewrite existsb_exists. split; [intros (x & Hx & E); apply beq_true in E; congruence|intros H; exists n; split; [exact H|apply beq_refl]].
Qed.

Lemma recorded_app log data m l fs data' : recorded log data -> ~ In (mc_name m) (names log) -> found m fs ->
  (forall n, n <> mc_name m -> mget n data' = mget n data) ->
  (mget (mc_name m) data' = match l with 0 => Some fs | S _ => match fs with [] => None | _ => Some fs end end) ->
  recorded (log ++ [(l, m)]) data'.
Proof.
  intros (R1 & R2 & R3) N F Ho Hm. unfold recorded, names. rewrite map_app. cbn [map snd].
  assert (forall k m0, In (k, m0) log -> mc_name m0 <> mc_name m) as Hne.
  { intros k m0 Hin E. apply N. rewrite <- E. apply in_map_iff. exists (k, m0). auto. }
  split; [|split].
  - intros n Hn. rewrite in_app_iff in Hn. rewrite Ho by (intros ->; apply Hn; right; left; reflexivity).
    apply R1. intros H; apply Hn; left; exact H.
  - intros m0 Hin fs0 F0. apply in_app_iff in Hin as [Hin|[[= -> ->]|[]]].
    + rewrite Ho by (eapply Hne; eassumption). apply R2; assumption.
    + rewrite Hm. f_equal. eapply found_fun; eassumption.
  - intros k m0 Hin fs0 F0. apply in_app_iff in Hin as [Hin|[[= -> ->]|[]]].
    + rewrite Ho by (eapply Hne; eassumption). eapply R3; eassumption.
    + rewrite Hm, (found_fun _ _ _ F F0). reflexivity.
Qed.

(** The given changes. *)
Lemma starts_run starts : forall todo st st',
  inv starts 0 todo st ->
  fold_opt (start_one opcodes load project func_order dep_order transitive radius) todo st = Some st' ->
  inv starts 0 [] st' /\ (forall m, In m todo -> In (mc_name m) (st_visited st')) /\ incl (st_visited st) (st_visited st') /\
  (NoDup (map mc_name todo) -> (forall m, In m todo -> ~ In (mc_name m) (st_visited st)) ->
   recorded (st_log st) (st_data st) -> recorded (st_log st') (st_data st')).
Proof.
  induction todo as [|mc todo IH]; intros st st' I H.
  - injection H as <-. split; [exact I|]. split; [intros m []|]. split; [apply incl_refl|]. auto.
  - rewrite fold_opt_cons in H. unfold start_one at 1 in H.
    destruct (existsb (beq (mc_name mc)) (st_visited st)) eqn:Ev.
    + apply existsb_in in Ev. set (st1 := State _ _ _ _ _) in H.
      destruct (IH st1 st') as (I' & H1 & H2 & H3); [eapply inv_skip; [exact I|exact Ev|reflexivity..]|exact H|].
      split; [exact I'|]. split; [intros m [<-|Hm]; [apply H2; exact Ev|apply H1; exact Hm]|]. split; [exact H2|].
      intros _ Hnv _. exfalso. apply (Hnv mc (or_introl eq_refl)). exact Ev.
    + fold analyze in H. destruct (analyze transitive radius mc) as [[[fs pkgs] calls]|] eqn:A; [|discriminate].
      set (st1 := State _ _ _ _ _) in H.
      assert (~ In (mc_name mc) (st_visited st)) as Nv by (rewrite <- existsb_in, Ev; discriminate).
      destruct (IH st1 st') as (I' & H1 & H2 & H3); [eapply inv_analyse; [exact I|exact Nv|exact A|reflexivity..]|exact H|].
      split; [exact I'|]. split; [intros m [<-|Hm]; [apply H2; left; reflexivity|apply H1; exact Hm]|].
      split; [intros n Hn; apply H2; right; exact Hn|].
      intros ND Hnv R. inversion ND as [|? ? ND1 ND2]; subst. apply H3; [exact ND2| |].
      * intros m Hm [E|Hv]; [|apply (Hnv m (or_intror Hm)); exact Hv]. apply ND1. rewrite E. apply in_map. exact Hm.
      * cbn. apply (recorded_app (st_log st) (st_data st) mc 0 fs); auto.
        { rewrite <- (iv_visited _ _ _ _ I). exact Nv. }
        { exists pkgs, calls. exact A. }
        { intros n Hn. apply mget_mset_other. exact Hn. }
        { apply mget_mset_same. }
Qed.

Lemma add_funcs_get pkgs n fs : Forall (fun f => mc_name (fn_mod f) = n) fs -> forall d p,
  let d' := fst (fold_left (add_func pkgs) fs (d, p)) in
  (forall k, k <> n -> mget k d' = mget k d) /\
  mget n d' = match fs with [] => mget n d | _ => Some (match mget n d with Some l => l | None => [] end ++ fs) end.
Proof.
  induction 1 as [|f fs E F IH]; intros d p; cbn [fold_left].
  - cbn. auto.
  - replace (add_func pkgs (d, p) f) with
      (mset n (match mget n d with Some l => l | None => [] end ++ [f]) d,
       match pkgs, mget n p with _ :: _, None => mset n pkgs p | _, _ => p end)
      by (unfold add_func; rewrite E; reflexivity).
    match goal with |- context [fold_left _ fs (?d1, ?p1)] => destruct (IH d1 p1) as [H1 H2] end.
    cbn zeta in *. split.
    + intros k Hk. rewrite H1 by exact Hk. apply mget_mset_other. exact Hk.
    + rewrite H2, mget_mset_same. destruct fs; [reflexivity|]. rewrite <- app_assoc. reflexivity.
Qed.

Lemma level_run starts lvl : forall todo st st',
  inv starts (S lvl) todo st ->
  fold_opt (level_one opcodes load project func_order dep_order (S lvl) radius) todo st = Some st' ->
  inv starts (S lvl) [] st' /\ incl (st_visited st) (st_visited st') /\
  (recorded (st_log st) (st_data st) -> recorded (st_log st') (st_data st')) /\
  ((st_visited st' = st_visited st /\ st_next st' = st_next st) \/
   exists m, In m todo /\ ~ In (mc_name m) (st_visited st) /\ In (mc_name m) (st_visited st')).
Proof.
  induction todo as [|mc todo IH]; intros st st' I H.
  - injection H as <-. split; [exact I|]. split; [apply incl_refl|]. split; [auto|left; auto].
  - assert (transitive = true) as Tr.
    { destruct (iv_todo _ _ _ _ I mc (or_introl eq_refl)) as (m & _ & (E & _)). exact E. }
    rewrite fold_opt_cons in H. unfold level_one at 1 in H.
    destruct (existsb (beq (mc_name mc)) (st_visited st)) eqn:Ev.
    + apply existsb_in in Ev.
      destruct (IH st st') as (I' & H1 & H2 & H3); [eapply inv_skip; [exact I|exact Ev|reflexivity..]|exact H|].
      split; [exact I'|]. split; [exact H1|]. split; [exact H2|].
      destruct H3 as [H3|(m & Hm & H3)]; [left; exact H3|right; exists m; split; [right; exact Hm|exact H3]].
    + replace true with transitive in H. fold analyze in H.
      destruct (analyze transitive radius mc) as [[[fs pkgs] calls]|] eqn:A; [|discriminate].
      assert (~ In (mc_name mc) (st_visited st)) as Nv by (rewrite <- existsb_in, Ev; discriminate).
      pose proof (add_funcs_get pkgs (mc_name mc) fs (found_module _ _ _ _ A) (st_data st) (st_pkgs st)) as Ha.
      destruct (fold_left (add_func pkgs) fs (st_data st, st_pkgs st)) as [d p] eqn:Ed. cbn zeta in Ha. cbn [fst] in Ha.
      set (st1 := State _ _ _ _ _) in H.
      destruct (IH st1 st') as (I' & H1 & H2 & H3); [eapply inv_analyse; [exact I|exact Nv|exact A|reflexivity..]|exact H|].
      split; [exact I'|]. split; [intros n Hn; apply H1; right; exact Hn|]. split.
      * intros R. apply H2. cbn. destruct Ha as [Ha1 Ha2].
        assert (~ In (mc_name mc) (names (st_log st))) as Nl by (rewrite <- (iv_visited _ _ _ _ I); exact Nv).
        apply (recorded_app (st_log st) (st_data st) mc (S lvl) fs); auto.
        { exists pkgs, calls. exact A. }
        { rewrite Ha2, (proj1 R _ Nl). destruct fs; reflexivity. }
      * right. exists mc. split; [left; reflexivity|]. split; [exact Nv|]. apply H1. left; reflexivity.
Qed.

(** Moving on to the next level. *)
Lemma inv_next starts lvl st : inv starts lvl [] st ->
  inv starts (S lvl) (st_next st) (State (st_visited st) (st_data st) (st_pkgs st) (st_log st) []).
Proof.
  intros [I1 I2 I3 I4 I5 I6 I7 I8]. split; cbn; auto.
  - intros l m Hin. specialize (I4 l m Hin). lia.
  - intros l m m' Hin He. destruct (I5 l m m' Hin He) as [H|[[_ []]|[Hl H]]]; [left; exact H|]. right. left. split; [congruence|exact H].
  - intros m' [].
Qed.

Lemma levels_run starts fuel : forall lvl st st',
  inv starts lvl [] st ->
  levels opcodes load project func_order dep_order fuel (S lvl) radius st = Finished st' ->
  (exists lvl', inv starts lvl' [] st' /\ st_next st' = []) /\ incl (st_visited st) (st_visited st') /\
  (recorded (st_log st) (st_data st) -> recorded (st_log st') (st_data st')).
Proof.
  induction fuel as [|fuel IH]; intros lvl st st' I H; cbn [levels] in H.
  - destruct (st_next st) eqn:E; [|discriminate]. injection H as <-. split; [exists lvl; auto|]. split; [apply incl_refl|auto].
  - pose proof (inv_next _ _ _ I) as In_. destruct (st_next st) as [|c cs] eqn:E.
    { injection H as <-. split; [exists lvl; auto|]. split; [apply incl_refl|auto]. }
    destruct (fold_opt _ _ _) as [st1|] eqn:Ef; [|discriminate].
    destruct (level_run starts lvl _ _ _ In_ Ef) as (I1 & V1 & R1 & _).
    destruct (IH _ _ _ I1 H) as (H1 & H2 & H3). split; [exact H1|].
    split; [eapply incl_tran; [exact V1|exact H2]|]. intros R. apply H3, R1. exact R.
Qed.

Lemma inv_init starts : inv starts 0 starts (State [] [] [] [] []).
Proof.
  split; cbn; try tauto; try (intros; contradiction). constructor.
Qed.

(** What a finished analysis has done: every module name at most once; every
    given module; every module that an analysed one leads to, and none that no
    analysed one leads to; and each one no further from the given ones than any
    module that leads to it suggests (so that the version compared is that of a
    most direct dependent). *)
Theorem C24_covers_exactly_the_reachable : forall fuel starts st,
  analyze_changes opcodes load project func_order dep_order fuel transitive radius starts = Finished st ->
  NoDup (map (fun e => mc_name (snd e)) (st_log st)) /\
  (forall m, In m starts -> exists m', In (0%nat, m') (st_log st) /\ mc_name m' = mc_name m) /\
  (forall l m m', In (l, m) (st_log st) -> edge m m' ->
     exists l' m'', In (l', m'') (st_log st) /\ mc_name m'' = mc_name m' /\ (l' <= S l)%nat) /\
  (forall l m, In (l, m) (st_log st) ->
     (l = 0%nat /\ In m starts) \/ exists l0 m0, l = S l0 /\ In (l0, m0) (st_log st) /\ edge m0 m).
Proof.
  intros fuel starts st H. unfold analyze_changes in H.
  destruct (fold_opt _ starts _) as [st0|] eqn:Ef; [|discriminate].
  destruct (starts_run starts starts _ _ (inv_init starts) Ef) as (I0 & V0 & _ & _).
  destruct (levels_run starts fuel 0 st0 st I0 H) as ((lvl & I & En) & V & _).
  split; [exact (iv_nodup _ _ _ _ I)|]. split; [|split].
  - (* names of level 0 are settled before any level *)
    intros m Hm. specialize (V0 m Hm).
    assert (forall fuel lvl st0 st, levels opcodes load project func_order dep_order fuel lvl radius st0 = Finished st ->
      incl (st_log st0) (st_log st)) as Mono.
    { clear. induction fuel as [|fuel IH]; intros lvl st0 st H; cbn [levels] in H.
      - destruct (st_next st0); [injection H as <-; apply incl_refl|discriminate].
      - destruct (st_next st0) as [|c cs]; [injection H as <-; apply incl_refl|].
        destruct (fold_opt _ (c :: cs) _) as [st1|] eqn:E; [|discriminate]. apply IH in H.
        eapply incl_tran; [|exact H]. clear - E.
        change (st_log st0) with (st_log (State (st_visited st0) (st_data st0) (st_pkgs st0) (st_log st0) [])).
        revert E. generalize (State (st_visited st0) (st_data st0) (st_pkgs st0) (st_log st0) []) as s.
        induction (c :: cs) as [|x l IHl]; intros s E; [injection E as <-; apply incl_refl|].
        rewrite fold_opt_cons in E. unfold level_one at 1 in E. destruct (existsb _ _); [apply IHl; exact E|].
        destruct (analyze_module _ _ _ _ _ _ _ _) as [[[fs pk] cl]|]; [|discriminate].
        destruct (fold_left (add_func pk) fs _) as [d p]. apply IHl in E. cbn in E.
        eapply incl_tran; [|exact E]. apply incl_appl, incl_refl. }
    apply (iv_visited _ _ _ _ I0) in V0. apply in_map_iff in V0 as ([l m'] & E & Hin). cbn in E.
    pose proof (iv_level _ _ _ _ I0 _ _ Hin) as Hl. assert (l = 0%nat) as -> by lia.
    exists m'. split; [|exact E]. eapply Mono; eassumption.
  - intros l m m' Hin He. destruct (iv_edges _ _ _ _ I l m m' Hin He) as [Hr|[[_ []]|[_ Hn]]]; [exact Hr|].
    rewrite En in Hn. destruct Hn.
  - exact (iv_origin _ _ _ _ I).
Qed.

(** When the given list names each module once, the result holds exactly what was
    found for each analysed module (a transitive module without changes has no
    entry), and nothing else. *)
Theorem C24_results_are_complete : forall fuel starts st,
  NoDup (map mc_name starts) ->
  analyze_changes opcodes load project func_order dep_order fuel transitive radius starts = Finished st ->
  (forall l m, In (l, m) (st_log st) -> exists fs, found m fs /\
     mget (mc_name m) (st_data st) = match l, fs with S _, [] => None | _, _ => Some fs end) /\
  (forall n fs, mget n (st_data st) = Some fs -> exists l m, In (l, m) (st_log st) /\ mc_name m = n /\ found m fs).
Proof.
  intros fuel starts st ND H. unfold analyze_changes in H.
  destruct (fold_opt _ starts _) as [st0|] eqn:Ef; [|discriminate].
  destruct (starts_run starts starts _ _ (inv_init starts) Ef) as (I0 & V0 & _ & R0).
  destruct (levels_run starts fuel 0 st0 st I0 H) as ((lvl & I & En) & V & R).
  assert (recorded (st_log st) (st_data st)) as (R1 & R2 & R3).
  { apply R, R0; [exact ND|intros m _ []|]. split; [reflexivity|]. split; [intros m []|intros l m []]. }
  assert (forall l m, In (l, m) (st_log st) -> exists fs, found m fs /\
     mget (mc_name m) (st_data st) = match l, fs with S _, [] => None | _, _ => Some fs end) as P.
  { intros l m Hin. destruct (iv_ok _ _ _ _ I l m Hin) as (fs & F). exists fs. split; [exact F|].
    destruct l as [|l]; [apply R2; assumption|]. rewrite (R3 l m Hin fs F). destruct fs; reflexivity. }
  split; [exact P|]. intros n fs E.
  assert (In n (names (st_log st))) as Hn.
  { destruct (in_dec bytes_eq_dec n (names (st_log st))) as [Hn|Hn]; [exact Hn|]. rewrite R1 in E by exact Hn. discriminate. }
  apply in_map_iff in Hn as ([l m] & En' & Hin). cbn in En'. exists l, m. split; [exact Hin|]. split; [exact En'|].
  destruct (P l m Hin) as (fs' & F & E'). rewrite En', E in E'. destruct l; destruct fs'; congruence.
Qed.

(** Whatever the dependency graph, cyclic or not, the analysis ends: after at most
    one level per module the project requires, and two more. *)
Theorem C24_terminates : exists n, forall fuel starts, (n <= fuel)%nat ->
  analyze_changes opcodes load project func_order dep_order fuel transitive radius starts <> OutOfFuel.
Proof.
  set (P := match parse_project_deps project false with Some (pd, _) => mkeys pd | None => [] end).
  exists (S (length P)). intros fuel starts Hf H. unfold analyze_changes in H.
  destruct (fold_opt _ starts _) as [st0|] eqn:Ef; [|discriminate].
  destruct (starts_run starts starts _ _ (inv_init starts) Ef) as (I0 & _ & _ & _). clear Ef.
  assert (forall m m', edge m m' -> In (mc_name m') P) as Hp.
  { intros m m' (_ & new & old & nd & od & pd & g1 & g2 & g3 & v & _ & _ & _ & _ & E & _ & _ & Em & _).
    unfold P. rewrite E. apply mget_keys. congruence. }
  set (left_ := fun vis : list bytes => filter (fun n => negb (existsb (beq n) vis)) P).
  assert (length (left_ (st_visited st0)) <= length P)%nat as Hl.
  { unfold left_. clear. induction P as [|x l IH]; cbn; [lia|]. destruct (negb _); cbn; lia. }
  assert (length (left_ (st_visited st0)) < fuel)%nat as Hm by lia. clear Hf Hl.
  remember 0%nat as lvl eqn:El. clear El. revert lvl st0 I0 H Hm.
  induction fuel as [|fuel IH]; intros lvl st0 I0 H Hm; [lia|].
  cbn [levels] in H. pose proof (inv_next _ _ _ I0) as In_.
  destruct (st_next st0) as [|c cs] eqn:En; [discriminate|].
  destruct (fold_opt _ (c :: cs) _) as [st1|] eqn:Ef; [|discriminate].
  destruct (level_run starts lvl _ _ _ In_ Ef) as (I1 & V1 & _ & D). cbn in V1, D.
  destruct D as [[D1 D2]|(m & Hmt & Nv & Hv)].
  - destruct fuel as [|fuel]; cbn [levels] in H; rewrite D2 in H; discriminate.
  - refine (IH _ _ I1 H _).
    assert (length (left_ (st_visited st1)) < length (left_ (st_visited st0)))%nat; [|lia].
    assert (In (mc_name m) P) as HP by (destruct (iv_todo _ _ _ _ In_ m Hmt) as (m0 & _ & He); eapply Hp; exact He).
    clear - V1 Nv Hv HP. unfold left_. 
    assert (forall l, length (filter (fun n => negb (existsb (beq n) (st_visited st1))) l) <=
                      length (filter (fun n => negb (existsb (beq n) (st_visited st0))) l))%nat as Le.
    { induction l as [|x l IH]; cbn; [lia|]. destruct (existsb (beq x) (st_visited st0)) eqn:E0; cbn.
      - assert (existsb (beq x) (st_visited st1) = true) as -> by (apply existsb_in, V1, existsb_in; exact E0). cbn. exact IH.
      - destruct (existsb (beq x) (st_visited st1)); cbn; lia. }
    clear V1. induction P as [|x l IH]; [destruct HP|]. cbn. destruct HP as [->|HP].
    + assert (existsb (beq (mc_name m)) (st_visited st1) = true) as -> by (apply existsb_in; exact Hv).
      destruct (existsb (beq (mc_name m)) (st_visited st0)) eqn:E0; [apply existsb_in in E0; contradiction|].
      cbn. specialize (Le l). lia.
    + specialize (IH HP). destruct (existsb (beq x) (st_visited st0)) eqn:E0.
      * destruct (existsb (beq x) (st_visited st1)) eqn:E1; cbn; [exact IH|].
        specialize (Le [x]). cbn in Le. rewrite E0, E1 in Le. cbn in Le. lia.
      * destruct (existsb (beq x) (st_visited st1)); cbn; lia.
Qed.
End C24.
Print Assumptions C24_covers_exactly_the_reachable.
Print Assumptions C24_results_are_complete.
Print Assumptions C24_terminates.

(** ** Examples: a cyclic graph, and a workspace *)

(** Modules a, b, c in a cycle a -> b -> c -> a; version v2 of each requires v2 of
    the next, and every module has one changed function. *)
Definition ex_pkg (n v : bytes) : package := Pkg n [[(n ++ B ":f", v)]].
Definition ex_next (n : bytes) : bytes := if beq n (B "a") then B "b" else if beq n (B "b") then B "c" else B "a".
Definition ex_load (n v : bytes) : option loaded :=
  Some (Loaded [ex_pkg n v] [GoMod [Req (ex_next n) v false] []]).
Definition ex_project : list gomod := [GoMod [Req (B "a") (B "v1") false; Req (B "b") (B "v1") false; Req (B "c") (B "v1") true] []].

Example C24_example :
  match analyze_changes (fun _ _ => []) ex_load ex_project (fun _ _ l => l) (fun _ l => l) 4 true 0
          [Change (B "a") (B "v1") (B "v2") false []] with
  | Finished st => map (fun e => (fst e, mc_name (snd e))) (st_log st) = [(0%nat, B "a"); (1%nat, B "b"); (2%nat, B "c")] /\
                   map fst (st_data st) = [B "a"; B "b"; B "c"]
  | _ => False
  end.
Proof. vm_compute. split; reflexivity. Qed.

(** Two modules of a workspace that both raise the same dependency give two
    entries for it, and then everything found for it is lost. *)
Theorem C24_workspace_duplicates_lose_changes_refuted : exists dirs old_at new_at load project,
  let starts := diff_work dirs old_at new_at in
  NoDup dirs /\
  map (fun c => (mc_name c, mc_prior c, mc_new c)) starts = [(B "a", B "v1", B "v2"); (B "a", B "v1", B "v2")] /\
  (exists fs, found (fun _ _ => []) load project (fun _ _ l => l) (fun _ l => l) false 0 (Change (B "a") (B "v1") (B "v2") false []) fs /\ fs <> []) /\
  exists st, analyze_changes (fun _ _ => []) load project (fun _ _ l => l) (fun _ l => l) 4 false 0 starts = Finished st /\
    st_data st = [(B "a", [])].
Proof.
  exists [B "x"; B "y"], (fun _ => Some [Req (B "a") (B "v1") false]), (fun _ => Some [Req (B "a") (B "v2") false]), ex_load, ex_project.
  cbn zeta. split; [repeat constructor; cbn; intuition discriminate|]. split; [reflexivity|]. split.
  - unfold found. eexists. split; [eexists _, _; vm_compute; reflexivity|discriminate].
  - eexists. split; [vm_compute; reflexivity|reflexivity].
Qed.
Print Assumptions C24_workspace_duplicates_lose_changes_refuted.

(** The workspace differences are those of each directory present on both sides
    and no others (the same module may come from several directories, see above). *)
Theorem C53_workspace_differences_exact : forall dirs old_at new_at c,
  In c (diff_work dirs old_at new_at) <->
  exists d o n, In d dirs /\ old_at d = Some o /\ new_at d = Some n /\ In c (diff_modules o n).
Proof.
  intros dirs old_at new_at c. unfold diff_work. rewrite in_flat_map. split.
  - intros (d & Hd & Hc). destruct (old_at d) as [o|] eqn:Eo; [|destruct Hc]. destruct (new_at d) as [n|] eqn:En; [|destruct Hc].
    exists d, o, n. auto.
  - intros (d & o & n & Hd & Eo & En & Hc). exists d. split; [exact Hd|]. rewrite Eo, En. exact Hc.
Qed.
Print Assumptions C53_workspace_differences_exact.

(** Looking a module up: the first file (in order) that requires it with a
    version, and the first requirement there. *)
Theorem C53_first_requirement_found : forall mods name v i,
  find_version_project mods name = (v, i) -> v <> [] ->
  exists ms m ms' a r b, mods = ms ++ m :: ms' /\ m = a ++ r :: b /\
    rq_path r = name /\ rq_version r = v /\ rq_indirect r = i /\
    Forall (fun r' => rq_path r' <> name) a /\
    Forall (fun m' => fst (find_version m' name) = []) ms.
Proof.
  intros mods name v i. induction mods as [|m mods IH]; intros H N.
  - cbn in H. injection H as <- _. congruence.
  - cbn in H. destruct (find_version m name) as [v0 i0] eqn:E. destruct (beq_spec v0 []) as [->|N0].
    + destruct (IH H N) as (ms & m1 & ms' & a & r & b & -> & Hr). exists (m :: ms), m1, ms', a, r, b.
      split; [reflexivity|]. destruct Hr as (H1 & H2 & H3 & H4 & H5 & H6). repeat (split; [assumption|]).
      constructor; [rewrite E; reflexivity|exact H6].
    + injection H as -> ->.
      assert (exists a r b, m = a ++ r :: b /\ rq_path r = name /\ rq_version r = v /\ rq_indirect r = i /\
        Forall (fun r' => rq_path r' <> name) a) as (a & r & b & H1 & H2 & H3 & H4 & H5).
      { clear - E N. induction m as [|r m IH]; cbn in E; [injection E as <- _; congruence|].
        destruct (beq_spec (rq_path r) name) as [En|En].
        - injection E as <- <-. exists [], r, m. auto.
        - destruct (IH E) as (a & r' & b & -> & H). exists (r :: a), r', b. split; [reflexivity|].
          destruct H as (H1 & H2 & H3 & H4). auto. }
      exists [], m, mods, a, r, b. auto 10.
Qed.
Print Assumptions C53_first_requirement_found.
Example C53_example :
  find_version_project [[Req (B "z") (B "v0") false]; [Req (B "a") (B "v3") true; Req (B "a") (B "v4") false]] (B "a") = (B "v3", true).
Proof. reflexivity. Qed.
