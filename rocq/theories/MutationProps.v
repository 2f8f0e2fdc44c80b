(** C50 and C60: mutation testing. *)
From Coq Require Import Permutation.
From Verif Require ModuleModel.
From Verif Require Import Base Maps UtilModel UtilProps InsertModel InsertProps FsModel GoModProps MutationModel.

Lemma existsb_beq x l : existsb (beq x) l = true <-> In x l.
Proof.
  rewrite existsb_exists. split.
  - intros (y & H & E). destruct (beq_spec x y) as [->|N]; [exact H|discriminate].
  - intros H. exists x. split; [exact H|apply beq_refl].
Qed.

Section Files.
Variable abs : bytes -> option bytes.

(** The tests entered for a file. *)
Definition tests_of (m : amap (list bytes)) (file : bytes) : list bytes := match mget file m with Some l => l | None => [] end.

Lemma add_test_spec m t f : forall g, tests_of (add_test m t f) g = if beq g f then (if existsb (beq t) (tests_of m f) then tests_of m f else tests_of m f ++ [t]) else tests_of m g.
Proof.
  intros g. unfold add_test. fold (tests_of m f). destruct (existsb (beq t) (tests_of m f)) eqn:E.
  - destruct (beq_spec g f) as [->|N]; reflexivity.
  - unfold tests_of at 1. destruct (beq_spec g f) as [->|N]; [rewrite mget_mset_same; reflexivity|rewrite mget_mset_other by (exact N); reflexivity].
Qed.

Definition good (m : amap (list bytes)) : Prop := forall f l, mget f m = Some l -> l <> [] /\ NoDup l.

Lemma good_tests m f : good m -> NoDup (tests_of m f).
Proof. intros G. unfold tests_of. destruct (mget f m) eqn:E; [apply (G _ _ E)|constructor]. Qed.

Lemma add_test_good m t f : good m -> good (add_test m t f).
Proof.
  intros G g l E. pose proof (good_tests m f G) as ND. unfold add_test in E. fold (tests_of m f) in E. destruct (existsb (beq t) (tests_of m f)) eqn:Ex; [exact (G _ _ E)|].
  destruct (bytes_eq_dec g f) as [->|N].
  - rewrite mget_mset_same in E. injection E as <-. split; [destruct (tests_of m f); discriminate|]. apply NoDup_app_iff. split; [exact ND|]. split; [constructor; [intros []|constructor]|].
    intros x Hx [<-|[]]. apply existsb_beq in Hx. congruence.
  - rewrite mget_mset_other in E by congruence. exact (G _ _ E).
Qed.

Lemma add_test_in m t f : forall g x, In x (tests_of (add_test m t f) g) <-> In x (tests_of m g) \/ (x = t /\ g = f).
Proof.
  intros g x. rewrite add_test_spec. destruct (beq_spec g f) as [->|N]; [|tauto]. destruct (existsb (beq t) (tests_of m f)) eqn:E.
  - apply existsb_beq in E. split; [tauto|]. intros [H|[-> _]]; assumption.
  - rewrite in_app_iff. cbn. intuition auto.
Qed.

Lemma add_files_spec t fs : forall m m', add_files abs m t fs = Some m' -> good m ->
  good m' /\ (forall g x, In x (tests_of m' g) <-> In x (tests_of m g) \/ (x = t /\ exists f, In f fs /\ abs f = Some g)).
Proof.
  induction fs as [|f fs IH]; intros m m' E G; cbn in E.
  - injection E as <-. split; [exact G|]. intros g x. split; [tauto|]. intros [H|(_ & f & [] & _)]. exact H.
  - destruct (abs f) as [a|] eqn:Ea; [|discriminate]. destruct (IH _ _ E (add_test_good m t a G)) as [G' S]. split; [exact G'|].
    intros g x. rewrite S, add_test_in. split.
    + intros [[H|[-> ->]]|(-> & f' & Hf & Hg)]; [tauto| |]; right; (split; [reflexivity|]); [exists f|exists f']; cbn; tauto.
    + intros [H|(-> & f' & [<-|Hf] & Hg)]; [tauto| |right; split; [reflexivity|]; exists f'; tauto]. left. right. split; congruence.
Qed.

Lemma add_files_none t fs : forall m, add_files abs m t fs = None <-> exists f, In f fs /\ abs f = None.
Proof.
  induction fs as [|f fs IH]; intros m; cbn; [split; [discriminate|intros (? & [] & _)]|].
  destruct (abs f) as [a|] eqn:E.
  - rewrite IH. split; intros (g & H & Hg); exists g; (split; [|exact Hg]); [tauto|]. destruct H as [<-|H]; [congruence|exact H].
  - split; [|reflexivity]. intros _. exists f. tauto.
Qed.

Lemma file_to_tests_spec tests : forall m m', file_to_tests abs m tests = Some m' -> good m ->
  good m' /\ (forall g x, In x (tests_of m' g) <-> In x (tests_of m g) \/ exists fs f, In (x, fs) tests /\ In f fs /\ abs f = Some g).
Proof.
  induction tests as [|[t fs] tests IH]; intros m m' E G; cbn in E.
  - injection E as <-. split; [exact G|]. intros g x. split; [tauto|]. intros [H|(fs & f & [] & _)]. exact H.
  - destruct (add_files abs m t fs) as [m1|] eqn:E1; [|discriminate]. destruct (add_files_spec _ _ _ _ E1 G) as [G1 S1]. destruct (IH _ _ E G1) as [G' S]. split; [exact G'|].
    intros g x. rewrite S, S1. split.
    + intros [[H|(-> & f & Hf & Hg)]|(fs' & f & Hi & Hf & Hg)]; [tauto| |]; right; [exists fs, f|exists fs', f]; cbn; tauto.
    + intros [H|(fs' & f & [X|Hi] & Hf & Hg)]; [tauto| |right; exists fs', f; tauto]. injection X as <- <-. left. right. split; [reflexivity|]. exists f. tauto.
Qed.

(** Each file is entered with exactly the tests that reach a changed function in it,
    each once; and only such files are entered. *)
Theorem C50_tests_of_file : forall tests m, file_to_tests abs [] tests = Some m -> forall file,
  match mget file m with
  | Some l => l <> [] /\ NoDup l /\ forall t, In t l <-> exists fs f, In (t, fs) tests /\ In f fs /\ abs f = Some file
  | None => forall t fs f, In (t, fs) tests -> In f fs -> abs f <> Some file
  end.
Proof.
  intros tests m E file. assert (good []) as G0 by (intros f l X; discriminate). destruct (file_to_tests_spec _ _ _ E G0) as [G S]. specialize (S file). unfold tests_of in S.
  cbn in S. destruct (mget file m) as [l|] eqn:El.
  - destruct (G _ _ El) as [Hn ND]. repeat (split; [assumption|]). intros t. rewrite S. split; [intros [[]|H]; exact H|tauto].
  - intros t fs f H1 H2 H3. apply (S t). right. exists fs, f. tauto.
Qed.

(** It fails only when an absolute path cannot be made. *)
Theorem C50_tests_of_file_error : forall tests m, file_to_tests abs m tests = None <-> exists t fs f, In (t, fs) tests /\ In f fs /\ abs f = None.
Proof.
  induction tests as [|[t fs] tests IH]; intros m; cbn; [split; [discriminate|intros (? & ? & ? & [] & _)]|].
  destruct (add_files abs m t fs) as [m'|] eqn:E.
  - rewrite IH. split; intros (t' & fs' & f & H & H'); exists t', fs', f; (split; [|exact H']); [tauto|]. destruct H as [X|H]; [|exact H].
    injection X as <- <-. assert (add_files abs m t fs = None) as Y by (apply add_files_none; exists f; exact H'). congruence.
  - split; [|reflexivity]. intros _. apply add_files_none in E as (f & Hf). exists t, fs, f. tauto.
Qed.

(** ** What is mutated *)
(** Whether a changed function takes part. *)
Definition takes_part (lined : bool) (c : mfunc) : Prop := lined = false \/ In true (mf_lines c).
Definition takes_part_b (lined : bool) (c : mfunc) : bool := negb lined || existsb (fun b => b) (mf_lines c).

Lemma existsb_id l : existsb (fun b : bool => b) l = true <-> In true l.
Proof. rewrite existsb_exists. split; [intros (x & H & ->); exact H|intros H; exists true; tauto]. Qed.

Lemma takes_part_spec lined c : takes_part_b lined c = true <-> takes_part lined c.
Proof. unfold takes_part_b, takes_part. destruct lined; cbn; [rewrite existsb_id|]; intuition discriminate. Qed.

Lemma add_file_in l f x : In x (add_file l f) <-> In x l \/ x = f.
Proof.
  unfold add_file. destruct (existsb (beq f) l) eqn:E; [apply existsb_beq in E; split; [tauto|intros [H| ->]; assumption]|]. rewrite in_app_iff. cbn. intuition auto.
Qed.
Lemma add_file_nodup l f : NoDup l -> NoDup (add_file l f).
Proof.
  intros ND. unfold add_file. destruct (existsb (beq f) l) eqn:E; [exact ND|]. apply NoDup_app_iff. split; [exact ND|]. split; [constructor; [intros []|constructor]|].
  intros x Hx [<-|[]]. apply existsb_beq in Hx. congruence.
Qed.

Lemma targets_step lined names files c l : mutation_targets abs lined names files (c :: l) =
  if lined && match mf_lines c with [] => true | _ => false end then None
  else if takes_part_b lined c then match abs (mf_file c) with None => None | Some a => mutation_targets abs lined (names ++ [mf_name c]) (add_file files a) l end
  else mutation_targets abs lined names files l.
Proof. cbn [mutation_targets]. unfold takes_part_b. destruct lined; cbn; [destruct (existsb _ _)|]; reflexivity. Qed.

(** The names are those of the functions taking part, in order; the files are theirs,
    each once; with line scope every function came with its lines. *)
Theorem C50_targets : forall lined l names files, mutation_targets abs lined [] [] l = Some (names, files) ->
  (forall n, In n names <-> exists c, In c l /\ takes_part lined c /\ mf_name c = n) /\
  NoDup files /\ (forall a, In a files <-> exists c, In c l /\ takes_part lined c /\ abs (mf_file c) = Some a) /\
  (lined = true -> forall c, In c l -> mf_lines c <> []).
Proof.
  intros lined l names files E.
  assert (forall l n0 f0 names files, mutation_targets abs lined n0 f0 l = Some (names, files) -> NoDup f0 ->
    (forall n, In n names <-> In n n0 \/ exists c, In c l /\ takes_part lined c /\ mf_name c = n) /\
    NoDup files /\ (forall a, In a files <-> In a f0 \/ exists c, In c l /\ takes_part lined c /\ abs (mf_file c) = Some a) /\
    (lined = true -> forall c, In c l -> mf_lines c <> [])) as G.
  { clear. induction l as [|c l IH]; intros n0 f0 names files E ND.
    - cbn in E. injection E as <- <-. split; [|split; [exact ND|split]].
      + intros n. split; [tauto|intros [H|(c & [] & _)]; exact H].
      + intros n. split; [tauto|intros [H|(c & [] & _)]; exact H].
      + intros _ c [].
    - rewrite targets_step in E. destruct (lined && match mf_lines c with [] => true | _ => false end) eqn:El; [discriminate|].
      assert (lined = true -> mf_lines c <> []) as Hl by (intros -> X; rewrite X in El; discriminate). destruct (takes_part_b lined c) eqn:Et.
      + apply takes_part_spec in Et. destruct (abs (mf_file c)) as [a|] eqn:Ea; [|discriminate]. destruct (IH _ _ _ _ E (add_file_nodup f0 a ND)) as (H1 & H2 & H3 & H4).
        split; [|split; [exact H2|split]].
        * intros n. rewrite H1, in_app_iff. cbn [In]. split.
          -- intros [[H|[<-|[]]]|(d & Hd & H)]; [tauto|right; exists c; tauto|right; exists d; tauto].
          -- intros [H|(d & [<-|Hd] & H & Hn)]; [tauto| |right; exists d; tauto]. left. right. left. exact Hn.
        * intros b. rewrite H3, add_file_in. cbn [In]. split.
          -- intros [[H| ->]|(d & Hd & H)]; [tauto|right; exists c; tauto|right; exists d; tauto].
          -- intros [H|(d & [<-|Hd] & H & Hn)]; [tauto| |right; exists d; tauto]. left. right. congruence.
        * intros L d [<-|Hd]; [exact (Hl L)|exact (H4 L d Hd)].
      + assert (~ takes_part lined c) as Nt by (intros X; apply takes_part_spec in X; congruence). destruct (IH _ _ _ _ E ND) as (H1 & H2 & H3 & H4).
        split; [|split; [exact H2|split]].
        * intros n. rewrite H1. cbn [In]. split; (intros [H|(d & Hd & H)]; [tauto|right]); [exists d; tauto|]. destruct Hd as [<-|Hd]; [tauto|exists d; tauto].
        * intros n. rewrite H3. cbn [In]. split; (intros [H|(d & Hd & H)]; [tauto|right]); [exists d; tauto|]. destruct Hd as [<-|Hd]; [tauto|exists d; tauto].
        * intros L d [<-|Hd]; [exact (Hl L)|exact (H4 L d Hd)]. }
  destruct (G l [] [] names files E (NoDup_nil _)) as (H1 & H2 & H3 & H4). split; [|split; [exact H2|split; [|exact H4]]].
  - intros n. rewrite H1. split; [intros [[]|H]; exact H|tauto].
  - intros n. rewrite H3. split; [intros [[]|H]; exact H|tauto].
Qed.
End Files.
Print Assumptions C50_tests_of_file.
Print Assumptions C50_tests_of_file_error.
Print Assumptions C50_targets.

(** ** The command line *)
(** The tool is run only when there is a file, hence only when some function takes
    part; it gets these files and, in fast mode, the switches turning mutators off. *)
Theorem C50_nothing_to_mutate : forall abs lined l names files script fast, mutation_targets abs lined [] [] l = Some (names, files) ->
  (mutation_args script fast names files = None <-> forall c, In c l -> ~ takes_part lined c).
Proof.
  intros abs lined l names files script fast E. destruct (C50_targets _ _ _ _ _ E) as (H1 & _ & H3 & _). unfold mutation_args. destruct files as [|f files].
  - split; [|reflexivity]. intros _ c Hc Ht. assert (In (mf_name c) names) as Hn by (apply H1; exists c; tauto). assert (forall a, abs (mf_file c) <> Some a) as Ha.
    { intros a Ea. apply (H3 a). exists c. tauto. }
    destruct (abs (mf_file c)) as [a|] eqn:Ea; [exact (Ha a eq_refl)|]. clear - E Hc Ht Ea. revert E. generalize (@nil bytes) at 1 as n0. generalize (@nil bytes) at 1 as f0.
    induction l as [|d l IH]; [destruct Hc|]. intros f0 n0. rewrite targets_step. destruct (lined && _); [discriminate|]. destruct Hc as [<-|Hc].
    + rewrite (proj2 (takes_part_spec lined d) Ht), Ea. discriminate.
    + destruct (takes_part_b lined d); [destruct (abs (mf_file d)); [|discriminate]|]; apply IH; exact Hc.
  - split; [discriminate|]. intros H. exfalso. destruct (proj1 (H3 f) (or_introl eq_refl)) as (c & Hc & Ht & _). exact (H c Hc Ht).
Qed.
Print Assumptions C50_nothing_to_mutate.

(** go-mutesting mutates the functions of the files whose name the expression given with
    --match matches anywhere. For names joined by bars that is: one of them is found in
    the name. *)
Definition contains (a s : bytes) : Prop := exists x y, s = x ++ a ++ y.
Definition selected (names : list bytes) (f : bytes) : Prop := exists n, In n names /\ contains n f.

(** Every function taking part is selected. *)
Theorem C50_changed_selected : forall abs lined l names files, mutation_targets abs lined [] [] l = Some (names, files) ->
  forall c, In c l -> takes_part lined c -> selected names (mf_name c) /\ exists a, abs (mf_file c) = Some a /\ In a files.
Proof.
  intros abs lined l names files E c Hc Ht. destruct (C50_targets _ _ _ _ _ E) as (H1 & _ & H3 & _). split.
  - exists (mf_name c). split; [apply H1; exists c; tauto|]. exists [], []. rewrite app_nil_r. reflexivity.
  - destruct (abs (mf_file c)) as [a|] eqn:Ea; [exists a; split; [reflexivity|apply H3; exists c; tauto]|]. exfalso.
    clear - E Hc Ht Ea. revert E. generalize (@nil bytes) at 1 as n0. generalize (@nil bytes) at 1 as f0.
    induction l as [|d l IH]; [destruct Hc|]. intros f0 n0. rewrite targets_step. destruct (lined && _); [discriminate|]. destruct Hc as [<-|Hc].
    + rewrite (proj2 (takes_part_spec lined d) Ht), Ea. discriminate.
    + destruct (takes_part_b lined d); [destruct (abs (mf_file d)); [|discriminate]|]; apply IH; exact Hc.
Qed.
Print Assumptions C50_changed_selected.

(** But not only they: the name of an unchanged function of the same file may contain
    the name of a changed one. *)
Theorem C50_only_changed_refuted :
  ~ (forall abs lined l names files f, mutation_targets abs lined [] [] l = Some (names, files) -> selected names f ->
       exists c, In c l /\ takes_part lined c /\ mf_name c = f).
Proof.
  intros H. destruct (H (fun p => Some p) true [MFunc (B "Get") (B "/a.go") [true]] [B "Get"] [B "/a.go"] (B "GetAll") eq_refl) as (c & [<-|[]] & _ & X).
  - exists (B "Get"). split; [left; reflexivity|]. exists [], (B "All"). reflexivity.
  - discriminate X.
Qed.
Print Assumptions C50_only_changed_refuted.

(** ** Lines left out *)
Lemma asked_all bitmap fl lines : forall st qs, asked unit (mark_line bitmap) fl lines st qs -> Forall (fun q => snd (snd q) = true) qs /\
  forall n r, In (n, r) qs -> fst r = if (n - fl <? length bitmap)%nat && negb (nth (n - fl) bitmap false) then skip_mark else [].
Proof.
  induction 1 as [st|st st' n r qs E Q [IH1 IH2]]; [split; [constructor|intros ? ? []]|]. unfold mark_line in E. injection E as _ E. subst r. split; [constructor; [reflexivity|exact IH1]|].
  intros n' r' [X|X]; [injection X as <- <-; reflexivity|exact (IH2 _ _ X)].
Qed.

Lemma stopped_all : forall (qs : list (nat * (bytes * bool))) total, Forall (fun q => snd (snd q) = true) qs -> stopped_right qs total -> length qs = total.
Proof.
  induction qs as [|[n [t c]] qs IH]; intros total F S; [cbn in *; auto|]. inversion F as [|? ? Hc F']; subst. cbn in Hc. subst c. destruct qs as [|q qs].
  - cbn in *. symmetry. exact (S eq_refl).
  - cbn [stopped_right] in S. destruct S as [_ S]. destruct total as [|t']; [destruct S|]. cbn [length]. f_equal. apply (IH t' F' S).
Qed.

(** With line scope the directive that stops mutation stands above exactly those code
    lines of the body whose entry says unchanged; everything else stays. *)
Theorem C50_unchanged_lines_disabled : forall bitmap fl toks lbrace rbrace (lines : list bytes), (rbrace <= length lines)%nat -> (1 <= lbrace)%nat ->
  insert_lines unit (mark_line bitmap) fl toks tt lbrace rbrace lines =
  flat_map (fun n => (if (lbrace <? n)%nat && (n <? rbrace)%nat && code_line toks n && (n - fl <? length bitmap)%nat && negb (nth (n - fl) bitmap false)
                      then [indent_of (nth (n - 1) lines []) ++ skip_mark] else []) ++ [nth (n - 1) lines []]) (seq 1 (length lines)).
Proof.
  intros bm fl toks lb rb lines Hr Hl. destruct (C47_insertions_exact unit (mark_line bm) fl toks tt lb rb lines Hr Hl) as (qs & Q1 & Q2 & Q3 & ->).
  destruct (asked_all bm fl lines _ _ Q1) as [F R]. pose proof (stopped_all _ _ F Q3) as Ln. rewrite Ln, firstn_all in Q2.
  rewrite !flat_map_concat_map. f_equal. apply map_ext_in. intros n Hn. f_equal.
  assert (In n (map fst qs) <-> (lb < n /\ n < rb)%nat /\ code_line toks n = true) as In_iff.
  { rewrite Q2. unfold codes. rewrite filter_In, in_seq. split; intros [? ?]; (split; [lia|assumption]). }
  assert (above lines qs n = if (in_dec Nat.eq_dec n (map fst qs)) then (if (n - fl <? length bm)%nat && negb (nth (n - fl) bm false) then [indent_of (nth (n - 1) lines []) ++ skip_mark] else []) else []) as ->.
  { clear - R. induction qs as [|[m [t c]] qs IH]; [reflexivity|]. pose proof (R m (t, c) (or_introl eq_refl)) as Rt. cbn [fst] in Rt. cbn [above map fst].
    assert (forall n0 r, In (n0, r) qs -> fst r = if (n0 - fl <? length bm)%nat && negb (nth (n0 - fl) bm false) then skip_mark else []) as R' by (intros; apply R; right; assumption).
    specialize (IH R'). destruct (Nat.eqb_spec m n) as [->|N].
    - destruct (in_dec Nat.eq_dec n (n :: map fst qs)) as [_|X]; [|exfalso; apply X; left; reflexivity]. rewrite Rt. destruct (_ && _); reflexivity.
    - rewrite IH. destruct (in_dec Nat.eq_dec n (map fst qs)) as [X|X], (in_dec Nat.eq_dec n (m :: map fst qs)) as [Y|Y]; try reflexivity; exfalso; [apply Y; right; exact X|destruct Y as [Y|Y]; [exact (N Y)|exact (X Y)]]. }
  destruct (in_dec Nat.eq_dec n (map fst qs)) as [X|X].
  - apply In_iff in X as [X1 X2]. rewrite X2. destruct (Nat.ltb_spec lb n), (Nat.ltb_spec n rb); try lia. reflexivity.
  - destruct ((lb <? n)%nat && (n <? rb)%nat && code_line toks n) eqn:E; [|reflexivity]. exfalso. apply X, In_iff.
    apply andb_prop in E as [E E3]. apply andb_prop in E as [E1 E2]. apply Nat.ltb_lt in E1, E2. tauto.
Qed.
Print Assumptions C50_unchanged_lines_disabled.

(** The entries count lines of the printed definition, the callback is asked about lines
    of the source: where comments take several lines a changed line is kept from being
    mutated (and an unchanged one is not). *)
Theorem C50_changed_lines_mutated_refuted :
  ~ (forall opcodes (src : list (bool * bytes)) new_def i line bitmap,
       bitmap = ModuleModel.line_bitmap opcodes (join_with [nl] (printed src)) new_def false 0 ->
       nth_error src i = Some (true, line) ->
       nth (length (printed (firstn i src))) bitmap false = true ->
       fst (snd (mark_line bitmap tt i line)) = []).
Proof.
  intros H.
  pose (src := [(true, B "func f() int {"); (false, B " // a"); (false, B " // b"); (true, B " x := 1"); (true, B " y := 2"); (true, B " return x"); (true, B "}")]).
  specialize (H (fun _ _ => [ModuleModel.Op ModuleModel.TEqual 0 3 0 3; ModuleModel.Op ModuleModel.TReplace 3 4 3 4; ModuleModel.Op ModuleModel.TEqual 4 6 4 6]) src
     (join_with [nl] [B "func f() int {"; []; B " x := 1"; B " y := 3"; B " return x"; B "}"]) 4%nat (B " y := 2") _ eq_refl eq_refl). revert H.
  vm_compute. intros H. specialize (H eq_refl). discriminate H.
Qed.
Print Assumptions C50_changed_lines_mutated_refuted.

(** ** The tests run for a file *)
(** tr ' ' '|' on joined names. *)
Definition tr (s : bytes) : bytes := map (fun c => if ascii_dec c " " then "|"%char else c) s.
Lemma tr_app a b : tr (a ++ b) = tr a ++ tr b.
Proof. apply map_app. Qed.
Lemma tr_same t : ~ In " "%char t -> tr t = t.
Proof.
  induction t as [|c t IH]; intros N; [reflexivity|]. cbn. destruct (ascii_dec c " ") as [->|_]; [exfalso; apply N; left; reflexivity|]. f_equal. apply IH. intros X. apply N. right. exact X.
Qed.
Lemma tr_join (l : list bytes) : (forall t, In t l -> ~ In " "%char t) -> tr (join_with (B " ") l) = join_with (B "|") l.
Proof.
  induction l as [|t l IH]; intros H; [reflexivity|]. destruct l as [|u l]; [cbn [join_with]; apply tr_same, H; left; reflexivity|].
  rewrite (join_cons (B " ") t (u :: l)), (join_cons (B "|") t (u :: l)) by discriminate. rewrite !tr_app, (tr_same t) by (apply H; left; reflexivity).
  rewrite IH by (intros x Hx; apply H; right; exact Hx). reflexivity.
Qed.

(** The script's expression lists the tests of the file, each once, and nothing else:
    between the anchors it falls apart at the bars into exactly these names. *)
Theorem C50_run_pattern : forall tests, tests <> [] -> (forall t, In t tests -> ~ In " "%char t /\ ~ In "|"%char t) ->
  exists body, run_pattern (test_entry tests) = B "^(" ++ body ++ B ")$" /\ Permutation (split_on "|"%char body) tests.
Proof.
  intros tests Hn Hc. unfold run_pattern, test_entry. eexists. split; [reflexivity|].
  pose proof tr_join as M. unfold tr in M.
  rewrite M by (intros t Ht; apply (proj1 (bsort_in tests t)) in Ht; apply Hc, Ht). change (B "|") with ["|"%char]. rewrite split_unique; [apply bsort_perm| |].
  - intros E. apply Hn. apply Permutation_nil. pose proof (bsort_perm tests) as P. rewrite E in P. exact P.
  - apply Forall_forall. intros t Ht. apply (proj1 (bsort_in tests t)) in Ht. apply Hc, Ht.
Qed.
Print Assumptions C50_run_pattern.

(** ** The summary *)
Lemma lit_spec p : forall s r, lit p s = Some r <-> s = p ++ r.
Proof.
  induction p as [|c p IH]; intros s r; cbn; [split; [intros E; injection E as ->; reflexivity|intros ->; reflexivity]|].
  destruct s as [|x s]; [split; discriminate|]. destruct (ascii_dec c x) as [->|N].
  - rewrite IH. split; [intros ->; reflexivity|]. intros E. injection E as ->. reflexivity.
  - split; [discriminate|]. intros E. injection E as E _. congruence.
Qed.

Lemma digits_spec s : forall d r, digits s = (d, r) -> s = d ++ r /\ Forall (fun c => is_digit c = true) d /\ match r with c :: _ => is_digit c = false | [] => True end.
Proof.
  induction s as [|c s IH]; intros d r E; cbn in E; [injection E as <- <-; repeat split; constructor|].
  destruct (is_digit c) eqn:Ec; [|injection E as <- <-; repeat split; [constructor|exact Ec]].
  destruct (digits s) as [d' r'] eqn:Ed. injection E as <- <-. destruct (IH _ _ eq_refl) as (-> & F & H). repeat split; [constructor; assumption|exact H].
Qed.

Lemma digits_app d : forall r, Forall (fun c => is_digit c = true) d -> match r with c :: _ => is_digit c = false | [] => True end -> digits (d ++ r) = (d, r).
Proof.
  induction d as [|c d IH]; intros r F H; [destruct r; [reflexivity|cbn; rewrite H; reflexivity]|]. inversion F as [|? ? Hc F']; subst. cbn. rewrite Hc, (IH r F' H). reflexivity.
Qed.

Lemma number_itoa n r : match r with c :: _ => is_digit c = false | [] => True end -> number (itoa n ++ r) = Some (n, r).
Proof.
  intros H. unfold number. rewrite (digits_app _ _ (itoa_digits n) H), atoi_itoa. pose proof (itoa_nonempty n). destruct (itoa n); [contradiction|reflexivity].
Qed.

(** A number as the expression reads it. *)
Definition decimal (d : bytes) (n : N) : Prop := d <> [] /\ Forall (fun c => is_digit c = true) d /\ atoi d = Some n.
Lemma number_sound s n r : number s = Some (n, r) -> exists d, s = d ++ r /\ decimal d n.
Proof.
  unfold number. destruct (digits s) as [d r'] eqn:E. apply digits_spec in E as (-> & F & _). destruct d as [|c d]; [discriminate|].
  destruct (atoi (c :: d)) eqn:Ea; [|discriminate]. intros X. injection X as <- <-. exists (c :: d). split; [reflexivity|]. split; [discriminate|]. split; assumption.
Qed.

(** The part of the line with the numbers. *)
Definition counts_text (a b c d e : bytes) : bytes :=
  B " (" ++ a ++ B " passed, " ++ b ++ B " failed, " ++ c ++ B " duplicated, " ++ d ++ B " skipped, total is " ++ e ++ B ")".

Lemma counts_sound s a b c d e : counts s = Some (a, b, c, d, e) ->
  exists ta tb tc td te r, s = counts_text ta tb tc td te ++ r /\ decimal ta a /\ decimal tb b /\ decimal tc c /\ decimal td d /\ decimal te e.
Proof.
  unfold counts. intros H.
  destruct (lit (B " (") s) as [s1|] eqn:E1; [|discriminate]. destruct (number s1) as [[a' s2]|] eqn:E2; [|discriminate].
  destruct (lit (B " passed, ") s2) as [s3|] eqn:E3; [|discriminate]. destruct (number s3) as [[b' s4]|] eqn:E4; [|discriminate].
  destruct (lit (B " failed, ") s4) as [s5|] eqn:E5; [|discriminate]. destruct (number s5) as [[c' s6]|] eqn:E6; [|discriminate].
  destruct (lit (B " duplicated, ") s6) as [s7|] eqn:E7; [|discriminate]. destruct (number s7) as [[d' s8]|] eqn:E8; [|discriminate].
  destruct (lit (B " skipped, total is ") s8) as [s9|] eqn:E9; [|discriminate]. destruct (number s9) as [[e' s10]|] eqn:E10; [|discriminate].
  destruct (lit (B ")") s10) as [s11|] eqn:E11; [|discriminate]. injection H as <- <- <- <- <-.
  apply lit_spec in E1, E3, E5, E7, E9, E11. apply number_sound in E2 as (ta & -> & Ha), E4 as (tb & -> & Hb), E6 as (tc & -> & Hc), E8 as (td & -> & Hd), E10 as (te & -> & He).
  subst. exists ta, tb, tc, td, te, s11. split; [unfold counts_text; rewrite <- !app_assoc; reflexivity|]. tauto.
Qed.

Lemma counts_complete a b c d e r : counts (counts_text (itoa a) (itoa b) (itoa c) (itoa d) (itoa e) ++ r) = Some (a, b, c, d, e).
Proof.
  unfold counts, counts_text. rewrite <- !app_assoc.
  assert (forall p s, lit p (p ++ s) = Some s) as L by (intros p s; apply lit_spec; reflexivity).
  rewrite L. rewrite number_itoa by reflexivity. rewrite L. rewrite number_itoa by reflexivity. rewrite L. rewrite number_itoa by reflexivity. rewrite L.
  rewrite number_itoa by reflexivity. rewrite L. rewrite number_itoa by reflexivity. rewrite L. reflexivity.
Qed.

Lemma after_any_sound s : forall r, after_any s = Some r -> exists mid t, s = mid ++ t /\ ~ In nl mid /\ counts t = Some r.
Proof.
  induction s as [|c s IH]; intros r H; [exists [], []; repeat split; [intros []|exact H]|]. cbn [after_any] in H.
  destruct (ascii_dec c nl) as [->|N]; [exists [], (nl :: s); repeat split; [intros []|exact H]|].
  destruct (after_any s) as [r'|] eqn:E.
  - injection H as ->. destruct (IH _ eq_refl) as (mid & t & -> & Hn & Hc). exists (c :: mid), t. repeat split; [intros [X|X]; [exact (N X)|exact (Hn X)]|exact Hc].
  - exists [], (c :: s). repeat split; [intros []|exact H].
Qed.

(** What is read stands in the output: a summary line with the squashed number as its
    second and the total as its fifth number. *)
Theorem C50_summary_sound : forall out total squashed, read_summary out = Some (total, squashed) ->
  exists pre mid post ta tb tc td te a c d, out = pre ++ B "The mutation score is " ++ mid ++ counts_text ta tb tc td te ++ post /\ ~ In nl mid /\
    decimal ta a /\ decimal tb squashed /\ decimal tc c /\ decimal td d /\ decimal te total /\ find_summary out = Some (a, squashed, c, d, total).
Proof.
  intros out total squashed H. unfold read_summary in H. destruct (find_summary out) as [[[[[a b] c] d] e]|] eqn:E; [|discriminate]. injection H as -> ->.
  assert (exists pre r, out = pre ++ B "The mutation score is " ++ r /\ after_any r = Some (a, squashed, c, d, total)) as (pre & r & -> & Ha).
  { clear - E. induction out as [|x out IH].
    - cbn in E. discriminate.
    - cbn [find_summary] in E. destruct (lit (B "The mutation score is ") (x :: out)) as [r|] eqn:El.
      + apply lit_spec in El. destruct (after_any r) as [v|] eqn:Ea.
        * injection E as ->. exists [], r. split; [exact El|exact Ea].
        * destruct (IH E) as (pre & r' & -> & Hr). exists (x :: pre), r'. split; [reflexivity|exact Hr].
      + destruct (IH E) as (pre & r' & -> & Hr). exists (x :: pre), r'. split; [reflexivity|exact Hr]. }
  apply after_any_sound in Ha as (mid & t & -> & Hn & Hc). apply counts_sound in Hc as (ta & tb & tc & td & te & r' & -> & H).
  exists pre, mid, r', ta, tb, tc, td, te, a, c, d. repeat (split; [tauto|]). reflexivity.
Qed.
Print Assumptions C50_summary_sound.

(** A line that can hold no numbers of its own after the summary. *)
Lemma counts_nl s : match s with [] => True | c :: _ => c = nl end -> counts s = None.
Proof. destruct s as [|c s]; [reflexivity|]. intros ->. reflexivity. Qed.

Lemma counts_start s : match s with " "%char :: "("%char :: _ => False | _ => True end -> counts s = None.
Proof.
  unfold counts. destruct (lit (B " (") s) as [r|] eqn:E; [|reflexivity]. apply lit_spec in E. subst s. intros [].
Qed.

Lemma after_any_end mid t r : ~ In nl mid -> counts t = Some r -> (forall x y, t = x ++ y -> x <> [] -> ~ In nl x -> counts y = None) -> after_any (mid ++ t) = Some r.
Proof.
  intros Hn Hc Hl. induction mid as [|c mid IH].
  - cbn [app]. destruct t as [|c t]; [exact Hc|]. cbn [after_any]. destruct (ascii_dec c nl) as [E|N]; [exact Hc|].
    assert (after_any t = None) as ->; [|exact Hc]. destruct (after_any t) as [v|] eqn:E; [|reflexivity]. apply after_any_sound in E as (m & y & -> & Hm & Hy).
    rewrite (Hl (c :: m) y eq_refl) in Hy; [discriminate|discriminate|]. intros [X|X]; [exact (N X)|exact (Hm X)].
  - cbn [app after_any]. destruct (ascii_dec c nl) as [E|N]; [exfalso; apply Hn; left; exact E|]. rewrite IH; [reflexivity|]. intros X. apply Hn. right. exact X.
Qed.

Lemma no_paren u : forall v x y, u ++ v = x ++ y -> ~ In "("%char u -> match v with [] => True | c :: _ => c = nl end -> ~ In nl x -> counts y = None.
Proof.
  induction u as [|c u IH]; intros v x y E Hu Hv Hx.
  - cbn in E. subst v. destruct x as [|c x]; [apply counts_nl, Hv|]. cbn in Hv. exfalso. apply Hx. left. exact Hv.
  - destruct x as [|c' x].
    + cbn in E. subst y. apply counts_start. destruct (ascii_dec c " ") as [->|N]; [|destruct c as [[] [] [] [] [] [] [] []]; try exact I; exfalso; apply N; reflexivity].
      destruct u as [|d u]; cbn.
      * destruct v as [|d v]; [exact I|]. subst d. exact I.
      * assert (d <> "("%char) as Nd by (intros ->; apply Hu; right; left; reflexivity). destruct d as [[] [] [] [] [] [] [] []]; try exact I; exfalso; apply Nd; reflexivity.
    + injection E as _ E. apply (IH v x y E); [intros X; apply Hu; right; exact X|exact Hv|intros X; apply Hx; right; exact X].
Qed.

Lemma phrase_first (pre r : bytes) v : ~ contains (B "The mutation score is ") pre -> after_any r = Some v -> find_summary (pre ++ B "The mutation score is " ++ r) = Some v.
Proof.
  set (ph := B "The mutation score is "). intros Hp Ha. induction pre as [|c pre IH].
  - cbn [app]. assert (find_summary (ph ++ r) = match (match lit ph (ph ++ r) with Some r => after_any r | None => None end) with
      | Some v => Some v | None => match ph ++ r with [] => None | _ :: s' => find_summary s' end end) as -> by reflexivity.
    rewrite (proj2 (lit_spec ph (ph ++ r) r) eq_refl), Ha. reflexivity.
  - cbn [app find_summary]. assert (lit ph (c :: pre ++ ph ++ r) = None) as L.
    { destruct (lit ph (c :: pre ++ ph ++ r)) as [z|] eqn:E; [|reflexivity]. exfalso. apply lit_spec in E. change (c :: pre ++ ph ++ r) with ((c :: pre) ++ ph ++ r) in E.
      apply app_eq_app in E as (q & [[E1 E2]|[E1 E2]]).
      - apply Hp. exists [], q. exact E1.
      - destruct q as [|k q]; [apply Hp; exists [], []; rewrite app_nil_r in E1 |- *; symmetry; exact E1|].
        assert (k = "T"%char) as -> by (unfold ph in E2; cbn in E2; injection E2 as E2 _; symmetry; exact E2).
        assert (In "T"%char (tl ph)) as X by (rewrite E1; cbn; apply in_or_app; right; left; reflexivity). revert X. unfold ph. cbn. intuition discriminate. }
    fold ph. rewrite L. apply IH. intros (x & y & E). apply Hp. exists (c :: x), y. rewrite E. reflexivity.
Qed.

(** A summary line of the tool is read as it stands, whatever comes before and on later
    lines, unless a line before it begins like it. *)
Theorem C50_summary_read : forall pre score post a b c d e, ~ contains (B "The mutation score is ") pre -> ~ In nl score ->
  match post with [] => True | x :: _ => x = nl end ->
  read_summary (pre ++ B "The mutation score is " ++ score ++ counts_text (itoa a) (itoa b) (itoa c) (itoa d) (itoa e) ++ post) = Some (e, b).
Proof.
  intros pre score post a b c d e Hp Hs Hq. unfold read_summary. rewrite (phrase_first _ _ (a, b, c, d, e)); [reflexivity|exact Hp|]. apply after_any_end; [exact Hs|apply counts_complete|].
  assert (forall n, ~ In "("%char (itoa n)) as Hi.
  { intros n X. pose proof (itoa_digits n) as F. rewrite Forall_forall in F. specialize (F _ X). discriminate F. }
  intros x y E Hx Hn.
  set (U := itoa a ++ B " passed, " ++ itoa b ++ B " failed, " ++ itoa c ++ B " duplicated, " ++ itoa d ++ B " skipped, total is " ++ itoa e ++ B ")").
  assert (~ In "("%char U) as HU.
  { unfold U. rewrite !in_app_iff. intros X. repeat (destruct X as [X|X]; [first [exact (Hi _ X)|revert X; vm_compute; intuition discriminate]|]). revert X; vm_compute; intuition discriminate. }
  change (counts_text (itoa a) (itoa b) (itoa c) (itoa d) (itoa e) ++ post) with (" "%char :: "("%char :: (U ++ post)) in E. clearbody U.
  destruct x as [|x0 x]; [contradiction|]. injection E as _ E. destruct x as [|x1 x].
  - cbn in E. subst y. reflexivity.
  - injection E as _ E. eapply no_paren; [exact E|exact HU|exact Hq|intros X; apply Hn; right; right; exact X].
Qed.
Print Assumptions C50_summary_read.

(** ** What the reported number counts *)
(** go-mutesting counts a mutant as passed when the script ends with 0, as failed when
    it ends with 1, as skipped otherwise, and gives the part that passed as score (the
    comments of the script and of the expression agree, lens/mutation.go:51, 205-222). *)
Definition ended (code : N) (results : list N) : N := N.of_nat (length (filter (fun r => (script_exit r =? code)%N) results)).
Definition tool_line (score : bytes) (results : list N) : bytes :=
  B "The mutation score is " ++ score ++
  counts_text (itoa (ended 0 results)) (itoa (ended 1 results)) (itoa 0) (itoa (N.of_nat (length results) - ended 0 results - ended 1 results)) (itoa (N.of_nat (length results))).
(** Mutants whose tests succeeded, that is, mutants nobody noticed. *)
Definition survivors (results : list N) : N := N.of_nat (count_occ N.eq_dec results 0%N).
Definition noticed (results : list N) : N := N.of_nat (count_occ N.eq_dec results 1%N).

Lemma ended_count code r : (forall x, (script_exit x =? code)%N = (x =? r)%N) -> forall results, ended code results = N.of_nat (count_occ N.eq_dec results r).
Proof.
  intros H results. unfold ended. f_equal. induction results as [|x l IH]; [reflexivity|]. cbn [filter count_occ]. rewrite H. destruct (N.eqb_spec x r) as [->|N].
  - destruct (N.eq_dec r r); [cbn; f_equal; exact IH|contradiction].
  - destruct (N.eq_dec x r); [contradiction|exact IH].
Qed.

(** The number reported as squashed is that of the survivors. *)
Theorem C50_squashed_counts_survivors : forall pre score post results, ~ contains (B "The mutation score is ") pre -> ~ In nl score ->
  match post with [] => True | x :: _ => x = nl end ->
  read_summary (pre ++ tool_line score results ++ post) = Some (N.of_nat (length results), survivors results).
Proof.
  intros pre score post results Hp Hs Hq. unfold tool_line. rewrite <- !app_assoc. rewrite C50_summary_read by assumption. f_equal. f_equal. apply ended_count.
  intros x. destruct x as [|[x|x|]]; reflexivity.
Qed.
Print Assumptions C50_squashed_counts_survivors.

(** It is at most the total. *)
Theorem C50_score_bounded : forall pre score post results total squashed, ~ contains (B "The mutation score is ") pre -> ~ In nl score ->
  match post with [] => True | x :: _ => x = nl end ->
  read_summary (pre ++ tool_line score results ++ post) = Some (total, squashed) -> (squashed <= total)%N.
Proof.
  intros pre score post results total squashed Hp Hs Hq E. rewrite C50_squashed_counts_survivors in E by assumption. injection E as <- <-.
  unfold survivors. pose proof (count_occ_bound N.eq_dec 0%N results). lia.
Qed.
Print Assumptions C50_score_bounded.

(** Hence not that of the mutants the tests noticed. *)
Theorem C50_killed_reported_refuted :
  ~ (forall score results total squashed, ~ In nl score -> read_summary (tool_line score results) = Some (total, squashed) -> squashed = noticed results).
Proof.
  intros H. specialize (H (B "0.75") [1; 1; 0; 1]%N 4%N 1%N). assert (1%N = noticed [1; 1; 0; 1]%N) as X; [|discriminate X]. apply H; [vm_compute; intuition discriminate|].
  pose proof (C50_squashed_counts_survivors [] (B "0.75") [] [1; 1; 0; 1]%N) as R. rewrite app_nil_r in R. apply R; [|vm_compute; intuition discriminate|exact I].
  intros (x & y & E). destruct x; discriminate E.
Qed.
Print Assumptions C50_killed_reported_refuted.

(** ** A concrete case *)
Definition funcs50 : list mfunc :=
  [MFunc (B "Parse") (B "m/p.go") [false; true; false]; MFunc (B "Skip") (B "m/q.go") [false; false]; MFunc (B "Close") (B "m/p.go") [true]].
Definition abs50 (p : bytes) : option bytes := Some (B "/" ++ p).
Example C50_example_targets :
  mutation_targets abs50 true [] [] funcs50 = Some ([B "Parse"; B "Close"], [B "/m/p.go"]) /\
  mutation_targets abs50 false [] [] funcs50 = Some ([B "Parse"; B "Skip"; B "Close"], [B "/m/p.go"; B "/m/q.go"]) /\
  mutation_args (B "/tmp/x.sh") false [B "Parse"; B "Close"] [B "/m/p.go"] = Some (map B ["--exec"; "/tmp/x.sh"; "--match"; "(Parse|Close)"; "/m/p.go"]%string) /\
  mutation_args (B "/tmp/x.sh") false [] [] = None /\
  mutation_args (B "/tmp/x.sh") true [B "Parse"] [B "/m/p.go"] = Some (map B ["--exec"; "/tmp/x.sh"; "--match"; "(Parse)"; "/m/p.go";
    "--disable"; "arithmetic/assignment"; "--disable"; "numbers/decrementer"; "--disable"; "numbers/incrementer"; "--disable"; "loop/break"; "--disable"; "loop/condition";
    "--disable"; "loop/range_break"; "--disable"; "branch/case"; "--disable"; "expression/remove"; "--disable"; "statement/remove"]%string).
Proof. vm_compute. repeat split. Qed.
Example C50_example_tests :
  file_to_tests abs50 [] [(B "TestB", [B "m/p.go"; B "m/q.go"; B "m/p.go"]); (B "TestA", [B "m/p.go"])] =
    Some [(B "/m/p.go", [B "TestB"; B "TestA"]); (B "/m/q.go", [B "TestB"])] /\
  run_pattern (test_entry [B "TestB"; B "TestA"]) = B "^(TestA|TestB)$".
Proof. vm_compute. split; reflexivity. Qed.
Example C50_example_lines :
  insert_lines _ (mark_line [false; false; true; false; true]) 2 toks47 tt 2 9 src47 =
  map B ["package p"; "func f(a int) int {"; "  // mutator-disable-next-line *"; "  x := a"; "  // note"; "  // mutator-disable-next-line *"; "  if x > 1 {"; "    return 2"; "  }"; "  return x"; "}"; "// end"]%string.
Proof. vm_compute. reflexivity. Qed.
Example C50_example_summary :
  read_summary (B "noise (1 passed" ++ nl :: B "The mutation score is 0.750000 (6 passed, 2 failed, 0 duplicated, 0 skipped, total is 8)" ++ [nl]) = Some (8, 2)%N /\
  read_summary (B "The mutation score is unknown") = None.
Proof. vm_compute. split; reflexivity. Qed.

(** ** C60: the script leaves the sources as they were *)
(** When the script ends, whatever happened in it, and moving back worked, every file is
    as it was, provided no file of the name used for the backup was there. *)
Theorem C60_sources_back : forall f entry orig mutant f' code, f (orig ++ B ".mbkp") = None ->
  run_script f entry orig mutant f' code true -> forall p, f' p = f p.
Proof.
  intros f entry orig mutant f' code Hb R p.
  assert (orig <> orig ++ B ".mbkp") as Ne by (intros X; apply (f_equal (@length _)) in X; rewrite app_length in X; cbn in X; lia).
  set (bk := orig ++ B ".mbkp") in *.
  assert (forall f1 f2 ok, rename f orig bk f1 true -> copy_file 420 f1 mutant orig f2 ok -> rename f2 bk orig f' true -> f' p = f p) as G.
  { clear R. intros f1 f2 ok R1 C R2. inversion R1 as [|n Hn Hd]; subst. assert (forall q, q <> orig -> f2 q = upd (upd f orig None) bk (Some n) q) as H2.
    { assert (resolve (upd (upd f orig None) bk (Some n)) orig = orig) as Hr by (unfold resolve; rewrite upd_other, upd_same by congruence; reflexivity).
      intros q Hq. inversion C; subst; try reflexivity; unfold put; rewrite ?Hr; apply upd_other; exact Hq. }
    inversion R2 as [|n2 Hn2 Hd2]; subst. rewrite H2 in Hn2 by congruence. rewrite upd_same in Hn2. injection Hn2 as <-.
    destruct (bytes_eq_dec p orig) as [->|No]; [rewrite upd_same; congruence|]. rewrite upd_other by exact No. destruct (bytes_eq_dec p bk) as [->|Nb].
    - rewrite upd_same. congruence.
    - rewrite upd_other by exact Nb. rewrite H2 by exact No. rewrite !upd_other by assumption. reflexivity. }
  inversion R as [|f1 He R1|f1 f2 f3 ok He R1 C R2|f1 f2 f3 ok result He R1 C R2]; subst; try reflexivity.
  - inversion R1; subst. reflexivity.
  - exact (G _ _ _ R1 C R2).
  - exact (G _ _ _ R1 C R2).
Qed.
Print Assumptions C60_sources_back.

(** Even when moving back fails the original is kept under the backup name. *)
Theorem C60_original_kept : forall f entry orig mutant f' code ok n, f orig = Some n -> run_script f entry orig mutant f' code ok ->
  f' orig = Some n \/ f' (orig ++ B ".mbkp") = Some n.
Proof.
  intros f entry orig mutant f' code ok n Ho R.
  assert (orig <> orig ++ B ".mbkp") as Ne by (intros X; apply (f_equal (@length _)) in X; rewrite app_length in X; cbn in X; lia).
  set (bk := orig ++ B ".mbkp") in *.
  assert (forall f1 f2 ok', rename f orig bk f1 true -> copy_file 420 f1 mutant orig f2 ok' -> rename f2 bk orig f' ok -> f' orig = Some n \/ f' bk = Some n) as G.
  { clear R. intros f1 f2 ok' R1 C R2. inversion R1 as [|n1 Hn1 Hd]; subst. rewrite Ho in Hn1. injection Hn1 as <-.
    assert (f2 bk = Some n) as Hb.
    { inversion C; subst; try apply upd_same; unfold put, resolve; rewrite ?(upd_other (upd f orig None) bk (Some n) orig), ?upd_same by congruence;
        rewrite upd_other by congruence; apply upd_same. }
    inversion R2 as [|n2 Hn2 Hd2]; subst; [right; exact Hb|]. left. rewrite upd_same. congruence. }
  inversion R as [|f1 He R1|f1 f2 f3 ok' He R1 C R2|f1 f2 f3 ok' result He R1 C R2]; subst.
  - left. exact Ho.
  - inversion R1; subst. left. exact Ho.
  - exact (G _ _ _ R1 C R2).
  - exact (G _ _ _ R1 C R2).
Qed.
Print Assumptions C60_original_kept.

(** A file of the backup's name is lost. *)
Theorem C60_other_files_kept_refuted :
  ~ (forall f entry orig mutant f' code, run_script f entry orig mutant f' code true -> forall p, f' p = f p).
Proof.
  intros H.
  pose (f := upd (upd (upd (fun _ => None) (B "a.go") (Some (NFile 420 (B "a")))) (B "a.go.mbkp") (Some (NFile 420 (B "mine")))) (B "m") (Some (NFile 420 (B "b")))).
  pose (f1 := upd (upd f (B "a.go") None) (B "a.go.mbkp") (Some (NFile 420 (B "a")))).
  pose (f2 := put f1 (B "a.go") 420 (B "b")).
  assert (run_script f None (B "a.go") (B "m") (upd (upd f2 (B "a.go.mbkp") None) (B "a.go") (Some (NFile 420 (B "a")))) (script_exit 0) true) as R.
  { apply (rs_tested f None (B "a.go") (B "m") f1 f2 _ true 0); [discriminate| | |].
    - apply (rn_ok f (B "a.go") (B "a.go.mbkp")); [reflexivity|discriminate].
    - apply (cp_ok 420 f1 (B "m") (B "a.go") 420 (B "b")); [reflexivity|discriminate].
    - apply (rn_ok f2 (B "a.go.mbkp") (B "a.go")); [reflexivity|discriminate]. }
  specialize (H _ _ _ _ _ _ R (B "a.go.mbkp")). vm_compute in H. discriminate H.
Qed.
Print Assumptions C60_other_files_kept_refuted.

(** A mutant is noticed (exit 0) exactly when its tests were run and failed. *)
Theorem C60_exit_means : forall result, (script_exit result = 0 <-> result = 1)%N /\ (script_exit result = 1 <-> result = 0)%N.
Proof. intros [|[p|p|]]; cbn; split; split; intros; try discriminate; reflexivity. Qed.
Print Assumptions C60_exit_means.

Example C60_example : exists f f', f (B "a.go") = Some (NFile 420 (B "a")) /\ f (B "a.go.mbkp") = None /\ f (B "m") = Some (NFile 420 (B "b")) /\
  run_script f (Some (B "TestA")) (B "a.go") (B "m") f' 0 true /\ f' (B "a.go") = Some (NFile 420 (B "a")).
Proof.
  pose (f := upd (upd (fun _ => None) (B "a.go") (Some (NFile 420 (B "a")))) (B "m") (Some (NFile 420 (B "b")))).
  pose (f1 := upd (upd f (B "a.go") None) (B "a.go.mbkp") (Some (NFile 420 (B "a")))).
  pose (f2 := put f1 (B "a.go") 420 (B "b")).
  exists f, (upd (upd f2 (B "a.go.mbkp") None) (B "a.go") (Some (NFile 420 (B "a")))). split; [reflexivity|]. split; [reflexivity|]. split; [reflexivity|]. split; [|reflexivity].
  apply (rs_tested f (Some (B "TestA")) (B "a.go") (B "m") f1 f2 _ true 1); [discriminate| | |].
  - apply (rn_ok f (B "a.go") (B "a.go.mbkp")); [reflexivity|discriminate].
  - apply (cp_ok 420 f1 (B "m") (B "a.go") 420 (B "b")); [reflexivity|discriminate].
  - apply (rn_ok f2 (B "a.go.mbkp") (B "a.go")); [reflexivity|discriminate].
Qed.
