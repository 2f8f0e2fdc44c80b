(** C68: the client is injected for the package of the directory, with the values given. *)
From Verif Require Import Base Maps StaticModel StaticProps TemplateModel.

(** ** The package *)

(** A file go would build: a .go file, not a test file, taken by go/build. *)
Definition go_entry (e : dentry) : Prop := de_dir e = false /\ exists r, de_name e = r ++ B ".go".
Definition built (e : dentry) : Prop := go_entry e /\ (~ exists r, de_name e = r ++ B "_test.go") /\ de_match e = true.

Lemma skip_spec e : de_dir e || negb (has_suffix (B ".go") (de_name e)) = false <-> go_entry e.
Proof.
  unfold go_entry. rewrite <- has_suffix_spec. destruct (de_dir e), (has_suffix (B ".go") (de_name e)); cbn;
  split; try discriminate; auto; intros [? ?]; discriminate.
Qed.
Lemma filter_spec_ e : file_filter e = true <-> (~ exists r, de_name e = r ++ B "_test.go") /\ de_match e = true.
Proof.
  unfold file_filter. rewrite <- has_suffix_spec. destruct (has_suffix (B "_test.go") (de_name e)).
  - split; [discriminate|]. intros [H _]. congruence.
  - split; [intros H; split; [discriminate|exact H]|intros [_ H]; exact H].
Qed.

(** The names of the built files of package [n], in order. *)
Definition files_of (n : bytes) (es : list dentry) : list bytes :=
  flat_map (fun e => if de_dir e || negb (has_suffix (B ".go") (de_name e)) then [] else if file_filter e then
     match de_pkg e with Some m => if beq n m then [de_name e] else [] | None => [] end else []) es.
Definition old (n : bytes) (m : amap (list bytes)) : list bytes := match mget n m with Some l => l | None => [] end.

Lemma parse_spec es : forall m,
  (parse_dir es m = None <-> exists e, In e es /\ go_entry e /\ (de_info e = false \/ built e /\ de_pkg e = None)) /\
  forall r, parse_dir es m = Some r ->
    (mwf m -> mwf r) /\ (forall n, old n r = old n m ++ files_of n es) /\
    (forall n, In n (mkeys r) <-> In n (mkeys m) \/ exists e, In e es /\ built e /\ de_pkg e = Some n).
Proof.
  induction es as [|e es IH]; intros m; cbn [parse_dir].
  { split; [split; [discriminate|intros (e & [] & _)]|]. intros r E. injection E as <-. split; [auto|]. split; [intros n; rewrite app_nil_r; reflexivity|].
    intros n. split; [auto|]. intros [H|(e & [] & _)]. exact H. }
  assert (forall X : Prop, (X <-> exists e, In e es /\ go_entry e /\ (de_info e = false \/ built e /\ de_pkg e = None)) ->
    ~ (go_entry e /\ (de_info e = false \/ built e /\ de_pkg e = None)) ->
    (X <-> exists e0, In e0 (e :: es) /\ go_entry e0 /\ (de_info e0 = false \/ built e0 /\ de_pkg e0 = None))) as G.
  { intros X HX N. rewrite HX. split; intros (x & Hx & H); [exists x; split; [right; exact Hx|exact H]|].
    destruct Hx as [<-|Hx]; [contradiction|]. exists x. auto. }
  assert (~ built e -> forall r, parse_dir es m = Some r ->
    (mwf m -> mwf r) /\ (forall n, old n r = old n m ++ files_of n es) /\
    (forall n, In n (mkeys r) <-> In n (mkeys m) \/ exists e0, In e0 (e :: es) /\ built e0 /\ de_pkg e0 = Some n)) as G2.
  { intros Nb r Er. apply (proj2 (IH m)) in Er as (W & F & K). split; [exact W|]. split; [exact F|].
    intros n. rewrite K. split; (intros [H|(x & Hx & H)]; [left; exact H|]); [right; exists x; split; [right; exact Hx|exact H]|].
    destruct Hx as [<-|Hx]; [destruct H; contradiction|]. right. exists x. auto. }
  cbn [files_of flat_map]. pose proof (skip_spec e) as Sk. pose proof (filter_spec_ e) as Fl.
  change (fun n => flat_map _ es) with (fun n => files_of n es).
  destruct (de_dir e || negb (has_suffix (B ".go") (de_name e))).
  { assert (~ go_entry e) as Ng by (intros H; apply Sk in H; discriminate).
    split; [apply G; [apply IH|tauto]|]. cbn [app]. apply G2. intros [H _]. contradiction. }
  assert (go_entry e) as Ge by (apply Sk; reflexivity).
  destruct (de_info e) eqn:Ei; cbn [negb].
  2: { split; [|discriminate]. split; [intros _|reflexivity]. exists e. split; [left; reflexivity|auto]. }
  destruct (file_filter e); cbn [negb].
  2: { assert (~ built e) as Nb by (intros (_ & H); apply Fl in H; discriminate).
    split; [apply G; [apply IH|]|cbn [app]; apply G2; exact Nb]. intros (_ & [H|[H _]]); [congruence|contradiction]. }
  assert (built e) as Be by (split; [exact Ge|apply Fl; reflexivity]).
  destruct (de_pkg e) as [p|] eqn:Ep.
  - split; [apply G; [apply IH|]|].
    { intros (_ & [H|[_ H]]); congruence. }
    intros r Er. apply (proj2 (IH _)) in Er as (W & F & K). split; [intros H; apply W, mwf_mset, H|]. split.
    + intros n. rewrite F. unfold old at 1. rewrite mget_mset. destruct (beq_spec n p) as [->|N].
      * unfold old. rewrite <- app_assoc. reflexivity.
      * reflexivity.
    + intros n. rewrite K, mkeys_mset. split.
      * intros [[->|H]|(x & Hx & H)]; [right; exists e; split; [left; reflexivity|auto]|left; exact H|right; exists x; split; [right; exact Hx|exact H]].
      * intros [H|(x & [<-|Hx] & H1 & H2)]; [left; right; exact H|left; left; congruence|right; exists x; auto].
  - split; [|discriminate]. split; [intros _|reflexivity]. exists e. split; [left; reflexivity|]. split; [exact Ge|]. right. auto.
Qed.

(** The package of a directory is found exactly when its .go entries can be looked at and
    the files go would build, at least one, parse and are all of that package.  Test files
    are not looked into. *)
Theorem C68_package_exactly : forall es n, detect_package (Some es) = Some n <->
  (forall e, In e es -> go_entry e -> de_info e = true) /\
  (exists e, In e es /\ built e) /\ (forall e, In e es -> built e -> de_pkg e = Some n).
Proof.
  intros es n. unfold detect_package. destruct (parse_spec es []) as [P1 P2]. destruct (parse_dir es []) as [r|].
  - destruct (P2 r eq_refl) as (W & _ & K). specialize (W mwf_nil). clear P2.
    assert (forall e, In e es -> go_entry e -> de_info e = true) as Hi.
    { intros e He Ge. destruct (de_info e) eqn:Ei; [reflexivity|]. assert (Some r = None) as X by (apply P1; exists e; auto). discriminate. }
    assert (forall e, In e es -> built e -> exists m, de_pkg e = Some m) as Hp.
    { intros e He Be. destruct (de_pkg e) as [m|] eqn:Em; [eauto|]. assert (Some r = None) as X by (apply P1; exists e; split; [exact He|]; split; [apply Be|]; right; auto). discriminate. }
    split.
    + intros E. destruct r as [|[k fs] [|]]; try discriminate. injection E as ->. split; [exact Hi|]. split.
      * destruct (proj1 (K n) (or_introl eq_refl)) as [[]|(e & He & Be & _)]. eauto.
      * intros e He Be. destruct (Hp e He Be) as [m Em]. rewrite Em. f_equal.
        assert (In m (mkeys [(n, fs)])) as Hm by (apply K; right; eauto). cbn in Hm. destruct Hm as [Hm|[]]. symmetry. exact Hm.
    + intros (_ & (e & He & Be) & Hn). assert (forall k, In k (mkeys r) <-> k = n) as Kn.
      { intros k. rewrite K. split; [intros [[]|(x & Hx & Bx & Ex)]; rewrite (Hn x Hx Bx) in Ex; congruence|]. intros ->. right. exists e. auto. }
      destruct r as [|[k fs] [|[k' fs'] r]].
      * destruct (proj2 (Kn n) eq_refl).
      * f_equal. apply Kn. left. reflexivity.
      * exfalso. inversion W as [|? ? Nk _]; subst. apply Nk. left. rewrite (proj1 (Kn k) (or_introl eq_refl)).
        rewrite (proj1 (Kn k') (or_intror (or_introl eq_refl))). reflexivity.
  - split; [discriminate|]. intros (Hi & _ & Hn). exfalso. destruct (proj1 P1 eq_refl) as (e & He & Ge & [H|[Be H]]).
    + rewrite (Hi e He Ge) in H. discriminate.
    + rewrite (Hn e He Be) in H. discriminate.
Qed.
Print Assumptions C68_package_exactly.

(** The files found for a package are its built files, in the order of the directory. *)
Theorem C68_files_exactly : forall es r, parse_dir es [] = Some r -> forall n,
  (mget n r = None <-> forall e, In e es -> built e -> de_pkg e <> Some n) /\
  forall l, mget n r = Some l -> forall x, In x l <-> exists e, In e es /\ built e /\ de_pkg e = Some n /\ de_name e = x.
Proof.
  intros es r Er n. destruct (parse_spec es []) as [_ P2]. destruct (P2 r Er) as (_ & F & K). split.
  - split.
    + intros E e He Be Ep. assert (In n (mkeys r)) as X by (apply K; right; eauto). apply mget_keys in X. congruence.
    + intros H. destruct (mget n r) eqn:E; [|reflexivity]. assert (In n (mkeys r)) as X by (apply mget_keys; congruence).
      apply K in X as [[]|(e & He & Be & Ep)]. exfalso. exact (H e He Be Ep).
  - intros l El x. specialize (F n). unfold old in F. rewrite El in F. cbn [mget app] in F. subst l. unfold files_of. rewrite in_flat_map. split.
    + intros (e & He & Hx). destruct (de_dir e || negb (has_suffix (B ".go") (de_name e))) eqn:Sk; [destruct Hx|]. apply skip_spec in Sk.
      destruct (file_filter e) eqn:Fl; [|destruct Hx]. apply filter_spec_ in Fl. destruct (de_pkg e) as [m|] eqn:Em; [|destruct Hx].
      destruct (beq_spec n m) as [->|]; [|destruct Hx]. destruct Hx as [<-|[]]. exists e. split; [exact He|]. split; [split; assumption|auto].
    + intros (e & He & [Ge Fl] & Ep & <-). exists e. split; [exact He|]. rewrite (proj2 (skip_spec e) Ge), (proj2 (filter_spec_ e) Fl), Ep, beq_refl. left. reflexivity.
Qed.
Print Assumptions C68_files_exactly.

(** A directory of tests only gets no client. *)
Theorem C68_only_tests_refuted : forall es, (forall e, In e es -> exists r, de_name e = r ++ B "_test.go") -> detect_package (Some es) = None.
Proof.
  intros es H. destruct (detect_package (Some es)) as [n|] eqn:E; [|reflexivity]. apply C68_package_exactly in E as (_ & (e & He & _ & N & _) & _).
  exfalso. exact (N (H e He)).
Qed.
Print Assumptions C68_only_tests_refuted.

Definition ex68_dir : list dentry :=
  [DEntry (B "a.go") false true true (Some (B "p")); DEntry (B "a_test.go") false true true None; DEntry (B "b.go") false true true (Some (B "p"));
   DEntry (B "gen.go") false true false (Some (B "main")); DEntry (B "sub.go") true false false None; DEntry (B "x.s") false false true None].
Example C68_package_example : detect_package (Some ex68_dir) = Some (B "p") /\
  parse_dir ex68_dir [] = Some [(B "p", [B "a.go"; B "b.go"])] /\
  detect_package (Some (DEntry (B "m.go") false true true (Some (B "main")) :: ex68_dir)) = None.
Proof. repeat split; reflexivity. Qed.

(** ** The values *)
Section Decl.
Variable expr type : Type.
Variable lit : bytes -> expr.
Notation vspec := (vspec expr type).
Notation upd := (update_spec expr type lit).

(** What the names of a group of constants mean (Go specification, constant declarations):
    a spec without type and values repeats those of the spec before it; iota counts the
    specs.  [None]: there is no expression for the name, the program is wrong. *)
Definition name_values {X} (names : list bytes) (f : nat -> X) : list (bytes * X) :=
  combine names (map f (seq 0 (length names))).
Definition expr_at (vs : list (option expr)) (i : nat) : option expr := match nth_error vs i with Some x => x | None => None end.
Fixpoint const_group (prev : option type * list (option expr)) (iota : N) (ss : list vspec) : list (bytes * option (option type * expr * N)) :=
  match ss with
  | [] => []
  | s :: ss' =>
      let eff := match vs_type _ _ s, vs_values _ _ s with None, [] => prev | t, vs => (t, vs) end in
      name_values (vs_names _ _ s) (fun i => option_map (fun x => (fst eff, x, iota)) (expr_at (snd eff) i)) ++
      const_group eff (iota + 1) ss'
  end.
(** What the names of a variable declaration start with: the zero value of the type, one
    expression each, or the results of one expression; otherwise the program is wrong. *)
Inductive start := Zero (t : option type) | Own (t : option type) (x : expr) | Result (t : option type) (x : expr) (i : nat) | Wrong.
Definition var_spec (s : vspec) : list (bytes * start) :=
  name_values (vs_names _ _ s) (fun i =>
    match vs_values _ _ s with
    | [] => Zero (vs_type _ _ s)
    | vs => if Nat.eqb (length vs) (length (vs_names _ _ s)) then match expr_at vs i with Some x => Own (vs_type _ _ s) x | None => Wrong end
            else match vs with [Some x] => Result (vs_type _ _ s) x i | _ => Wrong end
    end).

(** One expression per name. *)
Definition explicit (s : vspec) : Prop := length (vs_values _ _ s) = length (vs_names _ _ s) /\ vs_names _ _ s <> [].
Definition touched (values : amap bytes) (s : vspec) : Prop := exists n, In n (vs_names _ _ s) /\ mget n values <> None.

Lemma put_at_spec i (x : expr) vs : (i < length vs)%nat ->
  length (put_at expr i x vs) = length vs /\ forall j, nth_error (put_at expr i x vs) j = if Nat.eqb i j then Some (Some x) else nth_error vs j.
Proof.
  intros L. unfold put_at. destruct (Nat.leb_spec (length vs) i); [lia|]. split.
  - rewrite app_length, firstn_length_le by lia. cbn [length]. rewrite skipn_length. lia.
  - intros j. destruct (Nat.lt_ge_cases j i) as [Lj|Lj].
    + rewrite nth_error_app1 by (rewrite firstn_length_le; lia). destruct (Nat.eqb_spec i j); [lia|].
      rewrite <- (firstn_skipn i vs) at 2. rewrite nth_error_app1 by (rewrite firstn_length_le; lia). reflexivity.
    + rewrite nth_error_app2 by (rewrite firstn_length_le; lia). rewrite firstn_length_le by lia. destruct (Nat.eqb_spec i j) as [->|N].
      * rewrite Nat.sub_diag. reflexivity.
      * destruct (j - i)%nat as [|k] eqn:Ek; [lia|]. cbn [nth_error]. rewrite <- (firstn_skipn (S i) vs) at 2.
        rewrite nth_error_app2 by (rewrite firstn_length_le; lia). rewrite firstn_length_le by lia. f_equal. lia.
Qed.

Definition over (values : amap bytes) (n : bytes) (x : option expr) : option expr :=
  match mget n values with Some v => Some (lit v) | None => x end.

Lemma update_names_spec values names : forall i vs, (i + length names <= length vs)%nat ->
  length (update_names expr lit values i names vs) = length vs /\
  (forall j n, nth_error names j = Some n -> expr_at (update_names expr lit values i names vs) (i + j) = over values n (expr_at vs (i + j))) /\
  (forall k, (k < i)%nat -> nth_error (update_names expr lit values i names vs) k = nth_error vs k).
Proof.
  induction names as [|n names IH]; intros i vs L; cbn [update_names].
  { split; [reflexivity|]. split; [intros [|j] n E; discriminate|reflexivity]. }
  cbn [length] in L. set (vs' := match mget n values with Some v => put_at expr i (lit v) vs | None => vs end).
  assert (length vs' = length vs /\ forall j, nth_error vs' j = if Nat.eqb i j then Some (over values n (expr_at vs i)) else nth_error vs j) as [L' N'].
  { unfold vs', over. destruct (mget n values) as [v|].
    - apply (put_at_spec i (lit v) vs). lia.
    - split; [reflexivity|]. intros j. destruct (Nat.eqb_spec i j) as [<-|]; [|reflexivity]. unfold expr_at.
      destruct (nth_error vs i) eqn:E; [reflexivity|]. apply nth_error_None in E. lia. }
  destruct (IH (S i) vs') as (A1 & A2 & A3); [lia|]. split; [lia|]. split.
  - intros [|j] m E; cbn [nth_error] in E.
    + injection E as ->. rewrite Nat.add_0_r. unfold expr_at at 1. rewrite A3 by lia. rewrite N', Nat.eqb_refl. reflexivity.
    + replace (i + S j)%nat with (S i + j)%nat by lia. rewrite (A2 j m E). f_equal. unfold expr_at. rewrite N'. destruct (Nat.eqb_spec i (S i + j)); [lia|reflexivity].
  - intros k Lk. rewrite A3 by lia. rewrite N'. destruct (Nat.eqb_spec i k); [lia|reflexivity].
Qed.

Lemma untouched_same values s : ~ touched values s -> upd values s = s.
Proof.
  intros N. destruct s as [names t vs]. unfold update_spec. cbn [vs_names vs_type vs_values] in *. f_equal.
  assert (forall n, In n names -> mget n values = None) as H.
  { intros n Hn. destruct (mget n values) eqn:E; [|reflexivity]. exfalso. apply N. exists n. split; [exact Hn|congruence]. }
  clear N. generalize 0%nat. induction names as [|n names IH]; intros i; [reflexivity|]. cbn [update_names]. rewrite (H n (or_introl eq_refl)).
  apply IH. intros m Hm. apply H. right. exact Hm.
Qed.

Lemma upd_values values s : explicit s ->
  length (vs_values _ _ (upd values s)) = length (vs_values _ _ s) /\
  forall j n, nth_error (vs_names _ _ s) j = Some n -> expr_at (vs_values _ _ (upd values s)) j = over values n (expr_at (vs_values _ _ s) j).
Proof.
  intros [L _]. destruct (update_names_spec values (vs_names _ _ s) 0 (vs_values _ _ s)) as (A1 & A2 & _); [lia|]. split; [exact A1|exact A2].
Qed.

Lemma name_values_ext {X Y} names (f : nat -> X) (g : nat -> Y) (h : bytes -> X -> Y) :
  (forall j n, nth_error names j = Some n -> g j = h n (f j)) ->
  name_values names g = map (fun e => (fst e, h (fst e) (snd e))) (name_values names f).
Proof.
  unfold name_values. intros H.
  assert (forall k, (forall j n, nth_error names j = Some n -> g (k + j)%nat = h n (f (k + j)%nat)) ->
    combine names (map g (seq k (length names))) = map (fun e => (fst e, h (fst e) (snd e))) (combine names (map f (seq k (length names))))) as G; [|exact (G 0%nat H)].
  clear H. induction names as [|n names IH]; intros k H; [reflexivity|]. cbn [length seq map combine fst snd]. f_equal.
  - f_equal. specialize (H 0%nat n eq_refl). rewrite Nat.add_0_r in H. exact H.
  - apply IH. intros j m E. specialize (H (S j) m E). replace (k + S j)%nat with (S k + j)%nat in H by lia. exact H.
Qed.
Lemma name_values_same {X} names (f g : nat -> X) : (forall j n, nth_error names j = Some n -> g j = f j) -> name_values names g = name_values names f.
Proof.
  intros H. rewrite (name_values_ext names f g (fun _ x => x) H). clear. induction (name_values names f) as [|[a b] l IH]; [reflexivity|]. cbn. rewrite IH. reflexivity.
Qed.

(** Groups in which a spec has its own expressions whenever it, or the spec it would
    repeat, has a name to replace. *)
Fixpoint separate (values : amap bytes) (before : Prop) (ss : list vspec) : Prop :=
  match ss with
  | [] => True
  | s :: ss' =>
      (explicit s /\ separate values (touched values s) ss') \/
      (vs_type _ _ s = None /\ vs_values _ _ s = [] /\ ~ touched values s /\ ~ before /\ separate values False ss')
  end.

Definition over_const (values : amap bytes) (n : bytes) (m : option (option type * expr * N)) : option (option type * expr * N) :=
  option_map (fun m => match mget n values with Some v => (fst (fst m), lit v, snd m) | None => m end) m.

(** In such a group of constants the names given get the given literal, with the type they
    had, and every other name keeps its meaning. *)
Theorem C68_constants_replaced : forall values ss prev iota, separate values False ss ->
  (forall s, In s ss -> explicit s -> Forall (fun x => x <> None) (vs_values _ _ s)) ->
  const_group prev iota (map (upd values) ss) =
  map (fun e => (fst e, over_const values (fst e) (snd e))) (const_group prev iota ss).
Proof.
  intros values ss prev iota Sep Full.
  assert (forall before prev', separate values before ss ->
    (forall s ss', ss = s :: ss' -> vs_type _ _ s = None -> vs_values _ _ s = [] -> ~ explicit s -> prev' = prev) ->
    const_group prev' iota (map (upd values) ss) = map (fun e => (fst e, over_const values (fst e) (snd e))) (const_group prev iota ss)) as G.
  2: { apply (G False prev Sep). reflexivity. }
  clear Sep. revert prev iota Full. induction ss as [|s ss IH]; intros prev iota Full before prev' Sep Hp; [reflexivity|].
  cbn [separate map const_group] in *. rewrite map_app. destruct Sep as [[Ex Sep]|(Et & Ev & Nt & Nb & Sep)].
  - pose proof (upd_values values s Ex) as [Ul Ue]. pose proof Ex as [El En].
    assert (vs_values _ _ s <> []) as Nv by (destruct (vs_values _ _ s), (vs_names _ _ s); cbn in *; congruence).
    assert (vs_values _ _ (upd values s) <> []) as Nv' by (destruct (vs_values _ _ (upd values s)), (vs_values _ _ s); cbn in *; congruence).
    assert (forall p, match vs_type _ _ s, vs_values _ _ s with None, [] => p | t, vs => (t, vs) end = (vs_type _ _ s, vs_values _ _ s)) as -> by (intros p; destruct (vs_type _ _ s), (vs_values _ _ s); congruence).
    assert (forall p, match vs_type _ _ (upd values s), vs_values _ _ (upd values s) with None, [] => p | t, vs => (t, vs) end = (vs_type _ _ s, vs_values _ _ (upd values s))) as ->.
    { intros p. change (vs_type _ _ (upd values s)) with (vs_type _ _ s). destruct (vs_type _ _ s), (vs_values _ _ (upd values s)); congruence. }
    cbn [fst snd]. change (vs_names _ _ (upd values s)) with (vs_names _ _ s). f_equal.
    + apply name_values_ext. intros j n E. rewrite (Ue j n E). unfold over, over_const.
      assert (exists x, expr_at (vs_values _ _ s) j = Some x) as [x ->].
      { specialize (Full s (or_introl eq_refl) Ex). unfold expr_at. assert (j < length (vs_names _ _ s))%nat as Lj by (apply nth_error_Some; congruence).
        destruct (nth_error (vs_values _ _ s) j) as [o|] eqn:Eo; [|apply nth_error_None in Eo; lia]. rewrite Forall_forall in Full.
        specialize (Full o (nth_error_In _ _ Eo)). destruct o; [eauto|congruence]. }
      destruct (mget n values); reflexivity.
    + destruct ss as [|s2 ss2]; [reflexivity|]. apply (IH _ _ (fun x H => Full x (or_intror H)) (touched values s)); [exact Sep|].
      intros s' ss' E Et' Ev' Nx. injection E as <- <-. cbn [separate] in Sep. destruct Sep as [[Ex2 _]|(_ & _ & _ & Nb & _)]; [contradiction|].
      rewrite (untouched_same values s Nb). reflexivity.
  - rewrite (untouched_same values s Nt). rewrite Et, Ev.
    assert (prev' = prev) as ->.
    { apply (Hp s ss eq_refl Et Ev). intros [L N]. rewrite Ev in L. destruct (vs_names _ _ s); [congruence|discriminate]. }
    f_equal.
    + apply name_values_ext. intros j n E. unfold over_const.
      assert (mget n values = None) as Hn.
      { destruct (mget n values) eqn:Eg; [|reflexivity]. exfalso. apply Nt. exists n. split; [eapply nth_error_In; exact E|congruence]. }
      rewrite Hn. destruct (expr_at (snd prev) j); reflexivity.
    + apply (IH _ _ (fun x H => Full x (or_intror H)) False); [exact Sep|reflexivity].
Qed.

(** Variables with one expression each likewise; a spec without a name to replace stays. *)
Theorem C68_variables_replaced : forall values s, explicit s -> Forall (fun x => x <> None) (vs_values _ _ s) ->
  var_spec (upd values s) = map (fun e => (fst e, match mget (fst e) values with Some v => Own (vs_type _ _ s) (lit v) | None => snd e end)) (var_spec s).
Proof.
  intros values s Ex Full. pose proof (upd_values values s Ex) as [Ul Ue]. pose proof Ex as [El En]. unfold var_spec.
  change (vs_names _ _ (upd values s)) with (vs_names _ _ s). change (vs_type _ _ (upd values s)) with (vs_type _ _ s).
  apply (name_values_ext _ _ _ (fun n x => match mget n values with Some v => Own (vs_type _ _ s) (lit v) | None => x end)).
  intros j n E. specialize (Ue j n E). unfold over in Ue.
  assert (exists x, expr_at (vs_values _ _ s) j = Some x) as [x Ex'].
  { unfold expr_at. assert (j < length (vs_names _ _ s))%nat as Lj by (apply nth_error_Some; congruence).
    destruct (nth_error (vs_values _ _ s) j) as [o|] eqn:Eo; [|apply nth_error_None in Eo; lia]. rewrite Forall_forall in Full.
    specialize (Full o (nth_error_In _ _ Eo)). destruct o; [eauto|congruence]. }
  rewrite Ex' in *. set (V' := vs_values _ _ (upd values s)) in *. clearbody V'. rewrite El in Ul. set (V := vs_values _ _ s) in *. clearbody V.
  assert (V' <> [] /\ V <> []) as [N1 N2] by (destruct V', V, (vs_names _ _ s); cbn in *; split; congruence).
  transitivity (match expr_at V' j with Some x => Own (vs_type _ _ s) x | None => Wrong end).
  { destruct V' as [|a V']; [congruence|]. rewrite Ul, Nat.eqb_refl. reflexivity. }
  rewrite Ue. destruct (mget n values); [reflexivity|]. destruct V as [|a V]; [congruence|]. rewrite El, Nat.eqb_refl, Ex'. reflexivity.
Qed.
Theorem C68_others_untouched : forall values s, (forall n, In n (vs_names _ _ s) -> mget n values = None) -> upd values s = s.
Proof. intros values s H. apply untouched_same. intros (n & Hn & N). rewrite (H n Hn) in N. congruence. Qed.
(** Of the whole file: declarations stay in place, constants and variables are replaced as above, everything else is the same. *)
Definition replaced (values : amap bytes) (d d' : decl expr type) : Prop :=
  match d, d' with
  | DConst ss, DConst ss' => separate values False ss -> (forall s, In s ss -> explicit s -> Forall (fun x => x <> None) (vs_values _ _ s)) ->
      const_group (None, []) 0 ss' = map (fun e => (fst e, over_const values (fst e) (snd e))) (const_group (None, []) 0 ss)
  | DVar ss, DVar ss' => Forall2 (fun s s' => explicit s -> Forall (fun x => x <> None) (vs_values _ _ s) ->
      var_spec s' = map (fun e => (fst e, match mget (fst e) values with Some v => Own (vs_type _ _ s) (lit v) | None => snd e end)) (var_spec s)) ss ss'
  | DOther n, DOther n' => n = n'
  | _, _ => False
  end.
Theorem C68_file_replaced : forall values f pkg,
  let f' := rewrite_template expr type lit f pkg values in
  gf_package _ _ f' = pkg /\ Forall2 (replaced values) (gf_decls _ _ f) (gf_decls _ _ f').
Proof.
  intros values f pkg. split; [reflexivity|]. unfold rewrite_template. cbn [gf_decls].
  assert (update_literals expr type lit values (gf_decls _ _ f) = map (fun d => match d with
                       | DConst ss => DConst (map (upd values) ss)
                       | DVar ss => DVar (map (upd values) ss)
                       | DOther n => DOther n
                       end) (gf_decls _ _ f)) as ->.
  { unfold update_literals. destruct values as [|v values]; [|reflexivity]. symmetry. rewrite <- (map_id (gf_decls _ _ f)) at 2. apply map_ext. intros d.
    assert (forall ss, map (upd []) ss = ss) as Id by (intros ss; rewrite <- (map_id ss) at 2; apply map_ext; intros s; apply C68_others_untouched; reflexivity).
    destruct d; rewrite ?Id; reflexivity. }
  induction (gf_decls _ _ f) as [|d ds IH]; [constructor|]. cbn [map]. constructor; [|exact IH]. destruct d as [ss|ss|n]; cbn.
  - intros A C. apply C68_constants_replaced; assumption.
  - clear. induction ss as [|s ss IH]; [constructor|]. cbn. constructor; [|exact IH]. apply C68_variables_replaced.
  - reflexivity.
Qed.
End Decl.
Print Assumptions C68_file_replaced.
Print Assumptions C68_constants_replaced.
Print Assumptions C68_variables_replaced.
Print Assumptions C68_others_untouched.

(** Replacing a name whose expression the next spec repeats changes that one, too. *)
Theorem C68_repeated_refuted : exists ss : list (vspec bytes bytes), exists values,
  mget (B "C") values = None /\
  In (B "C", Some (None, B "iota", 2%N)) (const_group _ _ (None, []) 0 ss) /\
  In (B "C", Some (None, B "7", 2%N)) (const_group _ _ (None, []) 0 (map (update_spec _ _ (fun v => v) values) ss)).
Proof.
  exists [VSpec [B "A"] None [Some (B "iota")]; VSpec [B "B"] None []; VSpec [B "C"] None []], [(B "B", B "7")].
  split; [reflexivity|]. split; vm_compute; auto.
Qed.
Print Assumptions C68_repeated_refuted.
(** A variable declared beside another, without expressions, leaves an empty place. *)
Theorem C68_hole_refuted : exists (s : vspec bytes bytes) values,
  var_spec _ _ s = [(B "a", Zero _ _ (Some (B "int"))); (B "b", Zero _ _ (Some (B "int")))] /\
  vs_values _ _ (update_spec _ _ (fun v => v) values s) = [None; Some (B "7")].
Proof. exists (VSpec [B "a"; B "b"] (Some (B "int")) []), [(B "b", B "7")]. split; reflexivity. Qed.
Print Assumptions C68_hole_refuted.

(** The client: in the package given, its port and limits are the numbers given; the host,
    the variables and everything else stay.  The second file only changes its package. *)
Theorem C68_client_configured : forall pkg port recurse len,
  exists cs vs, rewrite_template _ _ (fun v => v) (GoFile _ _ (B "lens") client_template) pkg (client_values port recurse len) = GoFile _ _ pkg [DConst cs; DVar vs; DOther 0] /\
  (forall n, In n [B "lensMonitorServerPort"; B "lensMonitorFieldMaxRecurse"; B "lensMonitorFieldMaxLen"; B "lensMonitorServerHost"] ->
     In n (map fst (const_group _ _ (None, []) 0 cs))) /\
  (forall n t x i, In (n, Some (t, x, i)) (const_group _ _ (None, []) 0 cs) ->
     (n = B "lensMonitorServerPort" -> x = zitoa port) /\ (n = B "lensMonitorFieldMaxRecurse" -> x = zitoa recurse) /\
     (n = B "lensMonitorFieldMaxLen" -> x = zitoa len) /\ (n = B "lensMonitorServerHost" -> x = B """127.0.0.1""")) /\
  nth_error client_template 1 = Some (DVar vs).
Proof.
  intros pkg port recurse len. unfold client_values. generalize (zitoa port) as p, (zitoa recurse) as r, (zitoa len) as l. intros p r l.
  eexists. eexists. split; [vm_compute; reflexivity|]. split; [|split; [|vm_compute; reflexivity]].
  - intros n H. vm_compute in H. vm_compute. tauto.
  - intros n t x i H. vm_compute in H.
    repeat (destruct H as [H|H]; [injection H as <- <- <- <-; repeat split; intros E; first [reflexivity|vm_compute in E; discriminate]|]). destruct H.
Qed.
Print Assumptions C68_client_configured.
Theorem C68_api_package_only : forall (expr type : Type) lit f pkg,
  rewrite_template expr type lit f pkg [] = GoFile _ _ pkg (gf_decls _ _ f).
Proof. reflexivity. Qed.
Print Assumptions C68_api_package_only.

(** Negative limits are written as Go reads them back. *)
Example C68_example : client_values (-1) 20 0 = [(B "lensMonitorServerPort", B "-1"); (B "lensMonitorFieldMaxRecurse", B "20"); (B "lensMonitorFieldMaxLen", B "0")] /\
  separate bytes bytes (client_values 0 1 2) False
    [VSpec [B "A"] None [Some (B "iota")]; VSpec [B "C"] None []; VSpec [B "lensMonitorServerPort"; B "D"] None [Some (B "1"); Some (B "2")]; VSpec [B "E"] None [Some (B "iota")]] /\
  const_group bytes bytes (None, []) 0 (map (update_spec _ _ (fun v => v) (client_values 9 1 2))
    [VSpec [B "A"] None [Some (B "iota")]; VSpec [B "C"] None []; VSpec [B "lensMonitorServerPort"; B "D"] None [Some (B "1"); Some (B "2")]])
  = [(B "A", Some (None, B "iota", 0%N)); (B "C", Some (None, B "iota", 1%N)); (B "lensMonitorServerPort", Some (None, B "9", 2%N)); (B "D", Some (None, B "2", 2%N))].
Proof.
  split; [reflexivity|]. split; [|reflexivity]. cbn [separate].
  left. split; [split; [reflexivity|discriminate]|]. right. split; [reflexivity|]. split; [reflexivity|].
  split; [intros (n & [<-|[]] & H); apply H; reflexivity|]. split; [intros (n & [<-|[]] & H); apply H; reflexivity|].
  left. split; [split; [reflexivity|discriminate]|]. left. split; [split; [reflexivity|discriminate]|]. exact I.
Qed.
(** A file with a variable to replace. *)
Example C68_file_example : rewrite_template bytes bytes (fun v => v)
    (GoFile _ _ (B "lens") [DVar [VSpec [B "x"; B "lensMonitorFieldMaxLen"] None [Some (B "a"); Some (B "b")]]; DOther 3]) (B "p") (client_values 0 1 2) =
  GoFile _ _ (B "p") [DVar [VSpec [B "x"; B "lensMonitorFieldMaxLen"] None [Some (B "a"); Some (B "2")]]; DOther 3].
Proof. reflexivity. Qed.
