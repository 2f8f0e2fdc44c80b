(** C79: instrumenting the files of a directory at the same time. *)
From Verif Require Import Base Maps StaticModel StaticProps InstrModel TemplateModel TemplateProps DirModel.
Local Open Scope nat_scope.

(** ** What the statements use *)
(** A file that is looked into. *)
Definition taken (matches : bytes -> text -> bool) (f : bytes) (t : text) : Prop :=
  (exists r, f = r ++ B ".go") /\ (~ exists r, f = r ++ B "_test.go") /\ matches f t = true.
(** Commits: they write to whole files of the directory and keep the package and whether the file is built. *)
Definition commits (matches : bytes -> text -> bool) (d : files) (ws : list write) : Prop :=
  (forall f t, mget f d = Some t -> exists s, t = Whole s) /\
  forall w, In w ws -> exists f s, mget f d = Some (Whole s) /\
    (w = WCut f \/ exists s', w = WFill f s' /\ s_pkg s' = s_pkg s /\ matches f (Whole s') = matches f (Whole s)).

Lemma dir_at_step d ws t : t < length ws -> exists w, In w ws /\ dir_at d ws (S t) = apply (dir_at d ws t) w.
Proof.
  intros L. unfold dir_at. assert (exists w, In w ws /\ firstn (S t) ws = firstn t ws ++ [w]) as (w & I & ->).
  { revert t L. induction ws as [|a ws IH]; intros t L; [cbn in L; lia|]. destruct t as [|t]; [exists a; split; [left; reflexivity|reflexivity]|]. destruct (IH t) as (w & I & E); [cbn in L; lia|]. exists w. split; [right; exact I|]. cbn [firstn app] in *. rewrite E. reflexivity. }
  exists w. split; [exact I|]. rewrite fold_left_app. reflexivity.
Qed.
Lemma dir_at_late d ws t : length ws <= t -> dir_at d ws t = fold_left apply ws d.
Proof. intros L. unfold dir_at. rewrite firstn_all2 by exact L. reflexivity. Qed.
Lemma dir_at_ind d ws (P : files -> Prop) : P d -> (forall x w, In w ws -> P x -> P (apply x w)) -> forall t, P (dir_at d ws t).
Proof.
  intros H0 Hs t. unfold dir_at. assert (forall l, (forall w, In w l -> In w ws) -> forall x, P x -> P (fold_left apply l x)) as G.
  { intros l. induction l as [|a l IH]; intros I x Hx; [exact Hx|]. cbn. apply IH; [intros w Iw; apply I; right; exact Iw|]. apply Hs; [apply I; left; reflexivity|exact Hx]. }
  apply G; [|exact H0]. intros w Iw. rewrite <- (firstn_skipn t ws). apply in_or_app. left. exact Iw.
Qed.
(** What commits leave of a file. *)
Lemma commits_at matches d ws t f : commits matches d ws ->
  match mget f d, mget f (dir_at d ws t) with
  | None, x => x = None
  | Some t0, x => exists s, t0 = Whole s /\ (x = Some Cut \/ exists s', x = Some (Whole s') /\ s_pkg s' = s_pkg s /\ matches f (Whole s') = matches f (Whole s))
  end.
Proof.
  intros [C1 C2]. apply (dir_at_ind d ws (fun x => match mget f d, mget f x with
    | None, y => y = None
    | Some t0, y => exists s, t0 = Whole s /\ (y = Some Cut \/ exists s', y = Some (Whole s') /\ s_pkg s' = s_pkg s /\ matches f (Whole s') = matches f (Whole s)) end)).
  - destruct (mget f d) as [t0|] eqn:E; [|reflexivity]. destruct (C1 f t0 E) as (s & ->). exists s. split; [reflexivity|]. right. exists s. auto.
  - intros x w Iw Hx. destruct (C2 w Iw) as (g & s & Eg & Hw). assert (exists y, apply x w = mset g y x /\ (y = Cut \/ exists s', y = Whole s' /\ s_pkg s' = s_pkg s /\ matches g (Whole s') = matches g (Whole s))) as (y & -> & Hy).
    { destruct Hw as [-> |(s' & -> & H1 & H2)]; [exists Cut; auto|]. exists (Whole s'). split; [reflexivity|]. right. eauto. }
    rewrite mget_mset. destruct (beq_spec f g) as [->|N]; [|exact Hx]. rewrite Eg. exists s. split; [reflexivity|]. destruct Hy as [-> |(s' & -> & H)]; [left; reflexivity|]. right. eauto.
Qed.
Lemma look_in d ws t0 ts f t : In (f, t) (look d ws t0 ts) -> exists u, In u ts /\ mget f (dir_at d ws u) = Some t /\ In f (mkeys (dir_at d ws t0)).
Proof.
  unfold look. rewrite in_flat_map. intros ([g u] & I & H). cbn [fst snd] in H. destruct (mget g (dir_at d ws u)) as [t'|] eqn:E; [|destruct H]. destruct H as [H|[]]. injection H as <- <-. exists u. split; [exact (in_combine_r _ _ _ _ I)|]. split; [exact E|]. exact (in_combine_l _ _ _ _ I).
Qed.
Lemma built_entry matches f t : built (entry matches f t) <-> taken matches f t.
Proof. unfold built, go_entry, taken, entry. cbn. tauto. Qed.

(** ** The package of the client *)
(** However commits and looking through the directory interleave, a package name that is found is that of the files. *)
Theorem C79_package_right matches d ws t0 ts p n : commits matches d ws ->
  (forall f s, mget f d = Some (Whole s) -> taken matches f (Whole s) -> s_pkg s = p) ->
  detect matches (look d ws t0 ts) = Some n -> n = p.
Proof.
  intros C Hp H. apply C68_package_exactly in H as (_ & (e & Ie & Be) & Hn). pose proof (Hn e Ie Be) as En. unfold entries in Ie. apply in_map_iff in Ie as ([f t] & <- & If). cbn [fst snd] in *.
  apply look_in in If as (u & _ & Eu & _). pose proof (commits_at matches d ws u f C) as X. rewrite Eu in X. destruct (mget f d) as [t1|] eqn:E; [|discriminate X]. destruct X as (s & -> & X). apply built_entry in Be.
  destruct X as [X|(s' & X & E1 & E2)]; injection X as ->; [discriminate En|]. cbn in En. injection En as <-. rewrite E1. apply (Hp f s E). destruct Be as (B1 & B2 & B3). split; [exact B1|]. split; [exact B2|]. rewrite <- E2. exact B3.
Qed.
(** If no file is read while it is empty, the outcome is that of the directory at rest. *)
Theorem C79_detect_undisturbed matches d ws t0 ts : commits matches d ws -> mwf d -> length (mkeys (dir_at d ws t0)) <= length ts ->
  (forall f t, In (f, t) (look d ws t0 ts) -> t <> Cut) -> detect matches (look d ws t0 ts) = detect matches d.
Proof.
  intros C W L NC. assert (forall l l' : list (bytes * text), (forall f t, In (f, t) l -> exists t', In (f, t') l' /\ matches f t' = matches f t /\ de_pkg (entry matches f t') = de_pkg (entry matches f t)) ->
    forall n, (forall e, In e (entries matches l') -> built e -> de_pkg e = Some n) -> forall e, In e (entries matches l) -> built e -> exists e', In e' (entries matches l') /\ built e' /\ de_pkg e' = de_pkg e) as G.
  { intros l l' H n Hn e Ie Be. unfold entries in Ie. apply in_map_iff in Ie as ([f t] & <- & If). cbn [fst snd] in *. destruct (H f t If) as (t' & I' & M & P). exists (entry matches f t'). split; [apply in_map_iff; exists (f, t'); auto|]. split; [|exact P].
    apply built_entry in Be as (B1 & B2 & B3). apply built_entry. split; [exact B1|]. split; [exact B2|]. congruence. }
  assert (forall f t, In (f, t) (look d ws t0 ts) -> exists t', In (f, t') d /\ matches f t' = matches f t /\ de_pkg (entry matches f t') = de_pkg (entry matches f t)) as G1.
  { intros f t I. pose proof (NC f t I) as Nt. apply look_in in I as (u & _ & Eu & _). pose proof (commits_at matches d ws u f C) as X. rewrite Eu in X. destruct (mget f d) as [t1|] eqn:E; [|discriminate X]. destruct X as (s & -> & [X|(s' & X & E1 & E2)]); injection X as ->; [contradiction|].
    exists (Whole s). split; [exact (mget_in _ _ _ E)|]. split; [symmetry; exact E2|]. cbn. rewrite E1. reflexivity. }
  assert (forall f t, In (f, t) d -> exists t', In (f, t') (look d ws t0 ts) /\ matches f t' = matches f t /\ de_pkg (entry matches f t') = de_pkg (entry matches f t)) as G2.
  { intros f t I. apply mget_in_wf in I; [|exact W]. assert (forall u, mget f (dir_at d ws u) <> None) as K. { intros u E. pose proof (commits_at matches d ws u f C) as X. rewrite I, E in X. destruct X as (s & _ & [X|(s' & X & _)]); discriminate X. }
    pose proof (K t0) as K0. apply mget_keys in K0. assert (exists u, In (f, u) (combine (mkeys (dir_at d ws t0)) ts)) as (u & Iu).
    { clear - K0 L. revert K0 L. generalize (mkeys (dir_at d ws t0)) as ks. intros ks. revert ts. induction ks as [|k ks IH]; intros ts K0 L; [destruct K0|]. destruct ts as [|u ts]; [cbn in L; lia|]. destruct K0 as [->|K0]; [exists u; left; reflexivity|]. destruct (IH ts K0) as (v & Iv); [cbn in L; lia|]. exists v. right. exact Iv. }
    destruct (mget f (dir_at d ws u)) as [t'|] eqn:E; [|contradiction (K u E)]. assert (In (f, t') (look d ws t0 ts)) as Il by (unfold look; apply in_flat_map; exists (f, u); split; [exact Iu|]; cbn [fst snd]; rewrite E; left; reflexivity).
    exists t'. split; [exact Il|]. pose proof (NC f t' Il) as Nt. pose proof (commits_at matches d ws u f C) as X. rewrite I, E in X. destruct X as (s & -> & [X|(s' & X & E1 & E2)]); injection X as ->; [contradiction|]. split; [exact E2|]. cbn. rewrite E1. reflexivity. }
  assert (forall l l', (forall f t, In (f, t) l -> exists t', In (f, t') l' /\ matches f t' = matches f t /\ de_pkg (entry matches f t') = de_pkg (entry matches f t)) ->
    (forall f t, In (f, t) l' -> exists t', In (f, t') l /\ matches f t' = matches f t /\ de_pkg (entry matches f t') = de_pkg (entry matches f t)) -> forall n, detect matches l = Some n -> detect matches l' = Some n) as T.
  { intros l l' A B n H. apply C68_package_exactly in H as (H1 & (e & Ie & Be) & H3). apply C68_package_exactly. split; [|split].
    - intros e' I' _. unfold entries in I'. apply in_map_iff in I' as ([f t] & <- & _). reflexivity.
    - unfold entries in Ie. apply in_map_iff in Ie as ([f t] & <- & If). cbn [fst snd] in *. destruct (A f t If) as (t' & It & M & P). exists (entry matches f t'). split; [apply in_map_iff; exists (f, t'); auto|]. apply built_entry in Be as (B1 & B2 & B3). apply built_entry. split; [exact B1|]. split; [exact B2|]. congruence.
    - intros e' I' Be'. destruct (G l' l B n H3 e' I' Be') as (e'' & Ie' & Be'' & P). rewrite <- P. apply H3; assumption. }
  destruct (detect matches (look d ws t0 ts)) as [n|] eqn:E1; [symmetry; exact (T _ _ G1 G2 n E1)|]. destruct (detect matches d) as [n|] eqn:E2; [|reflexivity]. rewrite (T _ _ G2 G1 n E2) in E1. discriminate E1.
Qed.
Print Assumptions C79_package_right.
Print Assumptions C79_detect_undisturbed.

Definition all_built (f : bytes) (t : text) : bool := true.
Definition ex79_a : src := Src (B "p") (map B ["A"; "B"]%string) (map B ["C"]%string).
Definition ex79_b : src := Src (B "p") (map B ["C"]%string) [].
Definition ex79_dir : files := [(B "a.go", Whole ex79_a); (B "b.go", Whole ex79_b); (B "a_test.go", Whole (Src (B "p_test") [] []))].
Definition ex79_commit : list write := [WCut (B "a.go"); WFill (B "a.go") (pointed ex79_a)].
Example C79_commits_example : commits all_built ex79_dir ex79_commit /\ mwf ex79_dir /\
  (forall f s, mget f ex79_dir = Some (Whole s) -> taken all_built f (Whole s) -> s_pkg s = B "p") /\
  look ex79_dir ex79_commit 1 [2; 1; 0] = [(B "a.go", Whole (pointed ex79_a)); (B "b.go", Whole ex79_b); (B "a_test.go", Whole (Src (B "p_test") [] []))] /\
  detect all_built (look ex79_dir ex79_commit 1 [2; 1; 0]) = Some (B "p").
Proof.
  split; [split|split; [|split; [|split; reflexivity]]].
  - intros f t H. apply mget_in in H. cbn in H. destruct H as [H|[H|[H|[]]]]; injection H as _ <-; eauto.
  - intros w [<-|[<-|[]]]; exists (B "a.go"), ex79_a; (split; [reflexivity|]); [left; reflexivity|right; eauto].
  - repeat constructor; cbn; intuition discriminate.
  - intros f s H (_ & N & _). apply mget_in in H. cbn in H. destruct H as [H|[H|[H|[]]]]; injection H as <- <-; [reflexivity|reflexivity|]. contradiction N. exists (B "a"). reflexivity.
Qed.
(** Refuted: the client is put in whatever the goroutines of the files do.  The package is found before the commit of a
    file and after it, but not in the middle of it; InjectASTClient then fails, and with it the run. *)
Theorem C79_detect_race_refuted : exists matches d ws t0 ts, commits matches d ws /\
  detect matches (look d ws 0 (map (fun _ => 0) ts)) = Some (B "p") /\
  detect matches (look d ws (length ws) (map (fun _ => length ws) ts)) = Some (B "p") /\
  detect matches (look d ws t0 ts) = None /\ inject_writes matches (look d ws t0 ts) = None.
Proof. exists all_built, ex79_dir, ex79_commit, 0, [1; 1; 1]. split; [exact (proj1 C79_commits_example)|]. repeat split; reflexivity. Qed.
Print Assumptions C79_detect_race_refuted.

(** ** Type information *)
Lemma entries_in matches l e : In e (entries matches l) <-> exists f t, In (f, t) l /\ e = entry matches f t.
Proof. unfold entries. rewrite in_map_iff. split; [intros ([f t] & <- & I); eauto|intros (f & t & I & ->); exists (f, t); auto]. Qed.
Lemma parse_look matches l :
  match parse_dir (entries matches l) [] with
  | None => exists f, In (f, Cut) l /\ taken matches f Cut
  | Some r => (forall f, In (f, Cut) l -> ~ taken matches f Cut) /\
      (forall n, (mget n r = None <-> forall f s, In (f, Whole s) l -> taken matches f (Whole s) -> s_pkg s <> n) /\
        forall ns, mget n r = Some ns -> forall f, In f ns <-> exists s, In (f, Whole s) l /\ taken matches f (Whole s) /\ s_pkg s = n) /\
      (r = [] <-> forall f t, In (f, t) l -> ~ taken matches f t)
  end.
Proof.
  destruct (parse_dir (entries matches l) []) as [r|] eqn:E.
  - assert (forall f, In (f, Cut) l -> ~ taken matches f Cut) as NC.
    { intros f I T. assert (parse_dir (entries matches l) [] = None) as X; [|congruence]. apply (proj1 (parse_spec _ _)). exists (entry matches f Cut). split; [apply entries_in; eauto|]. apply built_entry in T. split; [exact (proj1 T)|]. right. split; [exact T|reflexivity]. }
    split; [exact NC|]. split.
    + intros n. destruct (C68_files_exactly _ _ E n) as [F1 F2]. split.
      * rewrite F1. split.
        -- intros H f s I T Ep. apply (H (entry matches f (Whole s))); [apply entries_in; eauto|apply built_entry; exact T|cbn; congruence].
        -- intros H e Ie Be Ep. apply entries_in in Ie as (f & t & I & ->). apply built_entry in Be. destruct t as [|s]; [discriminate Ep|]. cbn in Ep. injection Ep as Ep. exact (H f s I Be Ep).
      * intros ns En f. rewrite (F2 ns En f). split.
        -- intros (e & Ie & Be & Ep & Ef). apply entries_in in Ie as (f' & t & I & ->). apply built_entry in Be. destruct t as [|s]; [discriminate Ep|]. cbn in Ep, Ef. injection Ep as Ep. subst f'. eauto.
        -- intros (s & I & T & Ep). exists (entry matches f (Whole s)). split; [apply entries_in; eauto|]. split; [apply built_entry; exact T|]. cbn. split; [congruence|reflexivity].
    + destruct (proj2 (parse_spec _ _) r E) as (_ & _ & K). split.
      * intros -> f t I T. destruct t as [|s]; [exact (NC f I T)|]. assert (In (s_pkg s) (mkeys (V:=list bytes) [])) as X; [|destruct X]. apply K. right. exists (entry matches f (Whole s)). split; [apply entries_in; eauto|]. split; [apply built_entry; exact T|reflexivity].
      * intros H. destruct r as [|[k v] r]; [reflexivity|]. destruct (proj1 (K k) (or_introl eq_refl)) as [[]|(e & Ie & Be & _)]. apply entries_in in Ie as (f & t & I & ->). apply built_entry in Be. destruct (H f t I Be).
  - apply (proj1 (parse_spec _ _)) in E as (e & Ie & Ge & H). apply entries_in in Ie as (f & t & I & ->). destruct H as [H|[Be H]]; [discriminate H|]. destruct t as [|s]; [|discriminate H]. apply built_entry in Be. eauto.
Qed.

(** A nil pointer is dereferenced exactly when every file looked into could be read, there is one, and none is of the
    package of the file that is instrumented. *)
Theorem C79_types_panic matches check file same target l : types_info matches check file same target l = TPanic <->
  (forall f, In (f, Cut) l -> ~ taken matches f Cut) /\ (exists f t, In (f, t) l /\ taken matches f t) /\
  (forall f s, In (f, Whole s) l -> taken matches f (Whole s) -> s_pkg s <> s_pkg target).
Proof.
  unfold types_info. pose proof (parse_look matches l) as P. destruct (parse_dir (entries matches l) []) as [r|].
  - destruct P as (NC & P & N). destruct (P (s_pkg target)) as [P1 _]. destruct r as [|kv r].
    + split; [discriminate|]. intros (_ & (f & t & I & T) & _). destruct (proj1 N eq_refl f t I T).
    + destruct (mget (s_pkg target) (kv :: r)) as [ns|] eqn:E.
      * split; [destruct (check _); discriminate|]. intros (_ & _ & H). apply P1 in H. discriminate.
      * split; [intros _|reflexivity]. split; [exact NC|]. split; [|apply P1; reflexivity].
        destruct kv as [k v]. destruct (P k) as [Pk _]. cbn [mget] in Pk. rewrite beq_refl in Pk.
        assert (~ forall f t, In (f, t) l -> ~ taken matches f t) as Nn by (intros H; apply N in H; discriminate).
        clear - Nn. induction l as [|[f t] l IH]; [contradiction Nn; intros ? ? []|].
        destruct (file_filter (entry matches f t)) eqn:Fl; [destruct (de_dir (entry matches f t) || negb (has_suffix (B ".go") (de_name (entry matches f t)))) eqn:Sk|].
        2: { exists f, t. split; [left; reflexivity|]. apply built_entry. split; [apply skip_spec; exact Sk|apply filter_spec_; exact Fl]. }
        all: destruct IH as (f' & t' & I & T); [|exists f', t'; split; [right; exact I|exact T]]; intros H; apply Nn; intros f' t' [X|I] T; [injection X as <- <-|exact (H f' t' I T)].
        -- apply built_entry in T. destruct T as [T _]. apply skip_spec in T. congruence.
        -- apply built_entry in T. destruct T as [_ T]. apply filter_spec_ in T. congruence.
  - destruct P as (f & I & T). split; [discriminate|]. intros (H & _). destruct (H f I T).
Qed.
Print Assumptions C79_types_panic.
(** A file that is looked into itself, whatever is written at the same time, does not lead there. *)
Theorem C79_no_panic matches check file same target d ws t0 ts : mget file d <> None -> length (mkeys (dir_at d ws t0)) <= length ts ->
  (forall t, t = Cut \/ mget file d = Some t \/ (exists s, t = Whole s /\ In (WFill file s) ws) ->
     taken matches file t /\ forall s, t = Whole s -> s_pkg s = s_pkg target) ->
  types_info matches check file same target (look d ws t0 ts) <> TPanic.
Proof.
  intros Hd L Hf X. apply C79_types_panic in X as (X1 & _ & X3).
  assert (forall u, exists t, mget file (dir_at d ws u) = Some t /\ (t = Cut \/ mget file d = Some t \/ exists s, t = Whole s /\ In (WFill file s) ws)) as K.
  { apply (dir_at_ind d ws (fun x => exists t, mget file x = Some t /\ (t = Cut \/ mget file d = Some t \/ exists s, t = Whole s /\ In (WFill file s) ws))).
    - destruct (mget file d) as [t|]; [|contradiction]. eauto.
    - intros x w Iw (t & Ht & H). destruct w as [f|f s]; cbn [apply]; rewrite mget_mset; (destruct (beq_spec file f) as [->|N]; [|eauto]); [eauto|]. exists (Whole s). split; [reflexivity|]. right. right. eauto. }
  assert (exists u, In (file, u) (combine (mkeys (dir_at d ws t0)) ts)) as (u & Iu).
  { destruct (K t0) as (t & Ht & _). assert (In file (mkeys (dir_at d ws t0))) as K0 by (apply mget_keys; congruence). clear - K0 L. revert K0 L. generalize (mkeys (dir_at d ws t0)) as ks. intros ks. revert ts. induction ks as [|k ks IH]; intros ts K0 L; [destruct K0|]. destruct ts as [|u ts]; [cbn in L; lia|]. destruct K0 as [->|K0]; [exists u; left; reflexivity|]. destruct (IH ts K0) as (v & Iv); [cbn in L; lia|]. exists v. right. exact Iv. }
  destruct (K u) as (t & Ht & Hk). destruct (Hf t Hk) as [T P]. assert (In (file, t) (look d ws t0 ts)) as I by (unfold look; apply in_flat_map; exists (file, u); split; [exact Iu|]; cbn [fst snd]; rewrite Ht; left; reflexivity).
  destruct t as [|s]; [exact (X1 file I T)|]. exact (X3 file s I T (P s eq_refl)).
Qed.
Print Assumptions C79_no_panic.
(** Type information is made from exactly the files of the package, the one that is instrumented as it is in memory. *)
Theorem C79_types_files matches check file same target l fs : mwf l -> types_info matches check file same target l = TInfo fs ->
  check fs = true /\ (forall f, In (f, Cut) l -> ~ taken matches f Cut) /\
  forall s, In s fs <-> exists f s0, In (f, Whole s0) l /\ taken matches f (Whole s0) /\ s_pkg s0 = s_pkg target /\
    (s = target /\ same = true /\ f = file \/ s = s0 /\ ~ (same = true /\ f = file)).
Proof.
  intros W. unfold types_info. pose proof (parse_look matches l) as P. destruct (parse_dir (entries matches l) []) as [[|kv r]|]; [discriminate| |discriminate]. destruct P as (NC & P & _). destruct (P (s_pkg target)) as [_ P2].
  destruct (mget (s_pkg target) (kv :: r)) as [ns|]; [|discriminate]. specialize (P2 ns eq_refl). remember (map (fun f => if same && beq f file then target else text_of f l) ns) as m eqn:Em. destruct (check m) eqn:Ec; [|discriminate]. intros H. injection H as <-.
  split; [exact Ec|]. split; [exact NC|]. intros s. subst m. rewrite in_map_iff. split.
  - intros (f & Es & If). apply P2 in If as (s0 & I & T & Ep). exists f, s0. split; [exact I|]. split; [exact T|]. split; [exact Ep|].
    assert (text_of f l = s0) as Et by (unfold text_of; rewrite (mget_in_wf _ _ _ W I); reflexivity). destruct same; cbn [andb] in Es; [|right; split; [congruence|intros [? ?]; discriminate]]. destruct (beq_spec f file) as [E0|N]; [left; auto|]. right. split; [congruence|]. intros [_ ?]. contradiction.
  - intros (f & s0 & I & T & Ep & H). exists f. split; [|apply P2; eauto]. assert (text_of f l = s0) as Et by (unfold text_of; rewrite (mget_in_wf _ _ _ W I); reflexivity).
    destruct H as [(-> & -> & ->)|(-> & N)]; [rewrite beq_refl; reflexivity|]. destruct same; cbn [andb]; [|exact Et]. destruct (beq_spec f file) as [->|]; [destruct N; auto|exact Et].
Qed.
Print Assumptions C79_types_files.
Example C79_types_example : exists fs, types_info all_built (fun _ => true) (B "a.go") true (pointed ex79_a) ex79_dir = TInfo fs /\ fs = [pointed ex79_a; ex79_b] /\
  types_info all_built (fun _ => true) (B "a_test.go") true (Src (B "p_test") [] []) ex79_dir = TPanic.
Proof. eexists. repeat split; reflexivity. Qed.

(** A type checker that rejects what uses a name declared nowhere. *)
Definition rejects (check : list src -> bool) : Prop :=
  forall fs s x, check fs = true -> In s fs -> In x (s_uses s) -> exists s', In s' fs /\ In x (s_decls s').
(** Until the client is read there is no type information for any function of a file but the first. *)
Theorem C79_second_function matches check file target l s0 : rejects check -> mwf l ->
  In (file, Whole s0) l -> taken matches file (Whole s0) -> s_pkg s0 = s_pkg target ->
  ~ In (B "sendLensPointStateMessage") (s_decls target) ->
  (forall f s, In (f, Whole s) l -> taken matches f (Whole s) -> ~ In (B "sendLensPointStateMessage") (s_decls s)) ->
  types_info matches check file true (pointed target) l = TNil.
Proof.
  intros R W I T Ep Nt Nd. destruct (types_info matches check file true (pointed target) l) as [| |fs] eqn:E; [|reflexivity|].
  - apply C79_types_panic in E as (_ & _ & H). destruct (H file s0 I T Ep).
  - exfalso. apply (C79_types_files _ _ _ _ _ _ _ W) in E as (Ec & _ & Hs). destruct (R fs (pointed target) (B "sendLensPointStateMessage") Ec) as (s' & Is & Id).
    + apply Hs. exists file, s0. split; [exact I|]. split; [exact T|]. split; [exact Ep|]. left. auto.
    + cbn. apply in_or_app. right. left. reflexivity.
    + apply Hs in Is as (f & s1 & I1 & T1 & _ & [(-> & _)|(-> & _)]); [exact (Nt Id)|exact (Nd f s1 I1 T1 Id)].
Qed.
Print Assumptions C79_second_function.

(** ** What is reported *)
(** The names in the message sent before a return. *)
Definition fields {Op} (F : func) (I : info Op) (k : nat) (rs : list (expr Op)) : list bytes :=
  flat_map (fun s => match s with SSend _ _ sn => map fst sn | _ => [] end) (build_return F I k rs).
Definition with_need {Op} (I : info Op) (b : bool) : info Op :=
  Info Op (i_ids I) (fun _ _ => b) (i_decls I) (i_pid I) (i_end_decls I) (i_end_pid I) (i_end_tag I) (i_zero I).
(** A returned variable is shown once more, as ret0, when a temporary is found to be needed. *)
Lemma snap_seen ds : forall seen x, In x ds -> x <> B "nil" -> mem x (snd (snap_decls ds seen)) = true.
Proof.
  assert (forall ds seen x, mem x seen = true -> mem x (snd (snap_decls ds seen)) = true) as M.
  { intros ds0. induction ds0 as [|d ds0 IH]; intros seen x H; [exact H|]. cbn [snap_decls]. destruct (_ || _); [apply IH; exact H|]. destruct (snap_decls ds0 (d :: seen)) as [s q] eqn:E. cbn [snd]. replace q with (snd (snap_decls ds0 (d :: seen))) by (rewrite E; reflexivity). apply IH. change (beq x d || mem x seen = true). rewrite H. apply orb_true_r. }
  induction ds as [|d ds IH]; intros seen x I N; [destruct I|]. cbn [snap_decls]. destruct I as [->|I].
  - destruct (beq_spec x (B "nil")) as [->|_]; [contradiction|]. cbn [orb]. destruct (mem x seen) eqn:Em; [apply M; exact Em|]. destruct (snap_decls ds (x :: seen)) as [s q] eqn:E. cbn [snd]. replace q with (snd (snap_decls ds (x :: seen))) by (rewrite E; reflexivity). apply M. change (beq x x || mem x seen = true). rewrite beq_refl. reflexivity.
  - destruct (_ || _); [apply IH; assumption|]. destruct (snap_decls ds (d :: seen)) as [s q] eqn:E. cbn [snd]. replace q with (snd (snap_decls ds (d :: seen))) by (rewrite E; reflexivity). apply IH; assumption.
Qed.
Lemma no_send_temp {Op} F (I : info Op) k i e : flat_map (fun s => match s with SSend _ _ sn => map fst sn | _ => [] end) (make_temp F I k i e) = [].
Proof. unfold make_temp. destruct e; cbn; repeat (destruct (_ : bool); try reflexivity); destruct (beq _ _); cbn; try reflexivity; destruct (shadow _ _ _ _); reflexivity. Qed.
Theorem C79_shown {Op} F (I : info Op) k x : In x (i_decls I k) -> x <> B "nil" ->
  fields F (with_need I true) k [EId x] = fields F (with_need I false) k [EId x] ++ [B "ret0"] /\
  fields F (with_need I false) k [EId x] = map fst (fst (snap_decls (i_decls I k) [])).
Proof.
  intros Hx N. unfold fields, build_return. cbn [i_decls i_pid with_need]. destruct (snap_decls (i_decls I k) []) as [s seen] eqn:E. assert (mem x seen = true) as M by (replace seen with (snd (snap_decls (i_decls I k) [])) by (rewrite E; reflexivity); apply snap_seen; assumption).
  cbn [results one_result i_need with_need negb andb fst]. rewrite M. cbn [negb andb results app]. rewrite !flat_map_app. cbn [flat_map]. rewrite ?app_nil_r, ?flat_map_app, no_send_temp, map_app. split; reflexivity.
Qed.
Print Assumptions C79_shown.
(** Refuted: what is reported does not depend on the order in which the goroutines run.  One file with two functions; the second
    function is looked at before the client is written or after.  Its result is of type error. *)
Definition knows (t : tinfo) : option (option ety * option bool) := match t with TInfo _ => Some (Some EElse, Some true) | _ => None end.
Definition closed (fs : list src) : bool := forallb (fun s => forallb (fun x => existsb (fun s' => mem x (s_decls s')) fs) (s_uses s)) fs.
Lemma closed_rejects : rejects closed.
Proof.
  intros fs s x H Is Ix. unfold closed in H. rewrite forallb_forall in H. specialize (H s Is). rewrite forallb_forall in H. specialize (H x Ix). apply existsb_exists in H as (s' & I' & M). exists s'. split; [exact I'|]. unfold mem in M. apply existsb_exists in M as (y & Iy & Ey). destruct (beq_spec x y) as [->|]; [exact Iy|discriminate].
Qed.
Theorem C79_schedule_refuted : exists matches check d file s ws early late, rejects check /\
  inject_writes matches (look d [] 0 [0; 0; 0]) = Some ws /\ mget file d = Some (Whole s) /\
  (let look_at t := look d ws t [t; t; t; t; t] in
   let run t := infos matches check file true s [look_at 0; look_at t] in
   (exists fs, run early = [TInfo fs; TNil]) /\ (exists fs fs', run late = [TInfo fs; TInfo fs']) /\
   forall (F : func) (I : info unit) k, i_decls I k = [B "err"] ->
     let shown_at t := map (fun ti => fields F (with_need I (need_ident (knows ti) (RIdent (B "error") None))) k [EId (B "err")]) (run t) in
     shown_at early = [[B "err"; B "ret0"]; [B "err"]] /\ shown_at late = [[B "err"; B "ret0"]; [B "err"; B "ret0"]]).
Proof.
  exists all_built, closed, ex79_dir, (B "a.go"), ex79_a. eexists. exists 0, 4. split; [exact closed_rejects|]. split; [reflexivity|]. split; [reflexivity|]. cbn zeta. split; [eexists; reflexivity|]. split; [do 2 eexists; reflexivity|].
  intros F I k Hd. destruct (C79_shown F I k (B "err")) as [S1 S2]; [rewrite Hd; left; reflexivity|discriminate|]. rewrite S2 in S1. rewrite Hd in S1, S2.
  assert (forall b, fields F (with_need I b) k [EId (B "err")] = B "err" :: if b then [B "ret0"] else []) as S by (intros []; [exact S1|exact S2]).
  split.
  - match goal with |- map ?f ?r = _ => let r' := eval vm_compute in r in change r with r' end. cbn [map]. rewrite !S. reflexivity.
  - match goal with |- map ?f ?r = _ => let r' := eval vm_compute in r in change r with r' end. cbn [map]. rewrite !S. reflexivity.
Qed.
Print Assumptions C79_schedule_refuted.
Example C79_second_function_example : types_info all_built closed (B "a.go") true (pointed ex79_a) ex79_dir = TNil /\
  types_info all_built closed (B "a.go") true ex79_a ex79_dir = TInfo [ex79_a; ex79_b].
Proof.
  split; [|reflexivity]. apply (C79_second_function all_built closed (B "a.go") ex79_a ex79_dir ex79_a closed_rejects (proj1 (proj2 C79_commits_example))).
  - left. reflexivity.
  - split; [exists (B "a"); reflexivity|]. split; [|reflexivity]. intros H. apply has_suffix_spec in H. discriminate H.
  - reflexivity.
  - cbn. intuition discriminate.
  - intros f s H _. cbn in H. destruct H as [H|[H|[H|[]]]]; injection H as <- <-; cbn; intuition discriminate.
Qed.
(** While the other file is being written there is none for the first function either, and no panic. *)
Example C79_no_panic_example : let ws := [WCut (B "b.go"); WFill (B "b.go") (pointed ex79_b)] in
  types_info all_built closed (B "a.go") true ex79_a (look ex79_dir ws 0 [0; 1; 2]) = TNil /\
  types_info all_built closed (B "a.go") true ex79_a (look ex79_dir ws 0 [0; 1; 2]) <> TPanic.
Proof.
  split; [reflexivity|]. apply C79_no_panic; [discriminate|cbn; lia|]. intros t H. split.
  - split; [exists (B "a"); reflexivity|]. split; [|reflexivity]. intros X. apply StaticProps.has_suffix_spec in X. discriminate X.
  - intros s ->. destruct H as [H|[H|(s' & _ & [H|[H|[]]])]]; try discriminate. cbn in H. injection H as <-. reflexivity.
Qed.

(** Refuted: only commits of files disturb.  Whatever the directory, while the client is put in there are two moments, one for each of its files, at
    which no file of the directory gets type information. *)
Theorem C79_client_race_refuted matches check d l ws file same target t f : inject_writes matches l = Some ws -> (t = 1 /\ f = client_file \/ t = 3 /\ f = api_file) -> taken matches f Cut ->
  types_info matches check file same target (look d ws t (map (fun _ => t) (mkeys (dir_at d ws t)))) = TNil.
Proof.
  intros W Ht T. assert (mget f (dir_at d ws t) = Some Cut) as C.
  { unfold inject_writes in W. destruct (detect matches l) as [n|]; [|discriminate]. injection W as <-. destruct Ht as [[-> ->]|[-> ->]]; cbn [dir_at firstn fold_left apply]; rewrite mget_mset, beq_refl; reflexivity. }
  assert (In (f, Cut) (look d ws t (map (fun _ => t) (mkeys (dir_at d ws t))))) as I.
  { unfold look. apply in_flat_map. exists (f, t). cbn [fst snd]. rewrite C. split; [|left; reflexivity].
    assert (In f (mkeys (dir_at d ws t))) as K by (apply mget_keys; congruence). clear - K. induction (mkeys (dir_at d ws t)) as [|k ks IH]; [destruct K|]. cbn. destruct K as [->|K]; [left; reflexivity|right; exact (IH K)]. }
  unfold types_info. pose proof (parse_look matches (look d ws t (map (fun _ => t) (mkeys (dir_at d ws t))))) as P. destruct (parse_dir _ _) as [r|]; [|reflexivity]. destruct P as (NC & _). destruct (NC f I T).
Qed.
Print Assumptions C79_client_race_refuted.
Example C79_client_race_example : exists ws, inject_writes all_built ex79_dir = Some ws /\ taken all_built client_file Cut /\ taken all_built api_file Cut /\
  (exists fs, types_info all_built (fun _ => true) (B "a.go") true ex79_a (look ex79_dir ws 2 [2; 2; 2; 2]) = TInfo fs).
Proof.
  eexists. split; [reflexivity|]. split; [|split; [|eexists; reflexivity]].
  - split; [exists (B "xx_lens_client_gen"); reflexivity|]. split; [|reflexivity]. intros H. apply has_suffix_spec in H. discriminate H.
  - split; [exists (B "xx_lens_api_gen"); reflexivity|]. split; [|reflexivity]. intros H. apply has_suffix_spec in H. discriminate H.
Qed.

(** Where the outcome does not depend on whether there is type information: results written as interface types, and, for identifiers, type parameters. *)
Theorem C79_same_without : forall et x b,
  (need_ident (Some (et, Some true)) RIface = true /\ need_ident None RIface = true) /\ (need_lit (Some (Some true)) RIface = true /\ need_lit None RIface = true) /\
  (need_ident (Some (Some EParam, b)) (RIdent x (Some true)) = true /\ need_ident None (RIdent x (Some true)) = true) /\
  (need_ident (Some (Some ETyped, Some false)) RElse = false /\ need_ident None RElse = false) /\ (need_lit (Some (Some false)) RElse = false /\ need_lit None RElse = false).
Proof. intros et x b. repeat split; try reflexivity. destruct b as [[]|]; reflexivity. Qed.
Print Assumptions C79_same_without.
(** Refuted: that holds of all results.  A literal returned as a named interface type gets its temporary only with information; a value whose type is a
    type parameter named in capitals elsewhere only without. *)
Theorem C79_same_without_refuted : forall x obj,
  need_lit (Some (Some true)) (RIdent x obj) = true /\ need_lit None (RIdent x obj) = false /\
  (no_lower x = true -> need_ident (Some (Some ETyped, Some false)) (RIdent x None) = false /\ need_ident None (RIdent x None) = true) /\
  (no_lower x = false -> need_ident (Some (Some EParam, Some true)) (RIdent x None) = true /\ need_ident None (RIdent x None) = false).
Proof. intros x obj. split; [reflexivity|]. split; [reflexivity|]. split; intros H; (split; [reflexivity|]); cbn; exact H. Qed.
Print Assumptions C79_same_without_refuted.
Example C79_same_without_example : no_lower (B "T") = true /\ no_lower (B "error") = false.
Proof. split; reflexivity. Qed.
