(** Properties C33, C39 and C55: panics kept, stack keys and stack file names. *)

From Coq Require Import Permutation.
From Verif Require Import Base Maps UtilModel UtilProps TypesModel StableModel StableProps.

(** ** C33: panics *)

Notation occ := (count_occ bytes_eq_dec).

Lemma remove_one_spec x l : match remove_one x l with
  | Some l' => In x l /\ forall y, occ l y = (occ l' y + if bytes_eq_dec x y then 1 else 0)%nat
  | None => ~ In x l
  end.
Proof.
  induction l as [|y l IH]; cbn [remove_one]; [intros []|]. destruct (beq_spec x y) as [->|N].
  - split; [left; reflexivity|]. intros z. cbn. destruct (bytes_eq_dec y z); lia.
  - destruct (remove_one x l) as [l'|]; cbn.
    + destruct IH as [I H]. split; [right; exact I|]. intros z. cbn. rewrite H. destruct (bytes_eq_dec y z); lia.
    + intros [E|E]; [congruence|contradiction].
Qed.
Lemma intersect_count l1 : forall l2 x, occ (intersect l1 l2) x = Nat.min (occ l1 x) (occ l2 x).
Proof.
  induction l1 as [|a l1 IH]; intros l2 x; [reflexivity|]. cbn [intersect].
  pose proof (remove_one_spec a l2) as R. destruct (remove_one a l2) as [l'|].
  - destruct R as [_ R]. cbn. rewrite IH, R. destruct (bytes_eq_dec a x); lia.
  - rewrite IH. cbn. destruct (bytes_eq_dec a x) as [->|]; [|reflexivity].
    rewrite (proj1 (count_occ_not_In bytes_eq_dec l2 x) R). lia.
Qed.
Lemma intersect_subseq l1 : forall l2, subseq (intersect l1 l2) l1.
Proof.
  induction l1 as [|a l1 IH]; intros l2; [constructor|]. cbn [intersect].
  destruct (remove_one a l2); constructor; apply IH.
Qed.

Lemma mget_intersect m1 m2 i : NoDup (mkeys m1) ->
  mget i (intersect_panics m1 m2) = match mget i m1, mget i m2 with
    | Some a, Some b => match intersect a b with [] => None | l => Some l end
    | _, _ => None end.
Proof.
  induction m1 as [|[k a] m1 IH]; intros H; [reflexivity|]. cbn in H. inversion H as [|? ? Hn Hd]; subst.
  change (intersect_panics ((k, a) :: m1) m2) with
   (match mget k m2 with Some b => match intersect a b with [] => [] | l => [(k, l)] end | None => [] end ++ intersect_panics m1 m2).
  assert (forall b : list bytes, mget i ((k, b) :: m1) = if beq i k then Some b else mget i m1) as -> by reflexivity.
  destruct (beq_spec i k) as [->|N_].
  - assert (mget k m1 = None) as En by (destruct (mget k m1) eqn:E; [exfalso; apply Hn, mget_keys; congruence|reflexivity]).
    destruct (mget k m2) as [b|] eqn:E2; cbn [app]; [|rewrite (IH Hd), En; reflexivity].
    destruct (intersect a b); cbn [app]; [rewrite (IH Hd), En; reflexivity|]. cbn. rewrite beq_refl. reflexivity.
  - destruct (mget k m2) as [b|]; cbn [app]; [|apply IH; exact Hd].
    destruct (intersect a b); cbn [app]; [apply IH; exact Hd|].
    cbn. destruct (beq_spec i k); [contradiction|]. apply IH; exact Hd.
Qed.

(** For each function, each message is kept as often as both runs have it, in the
    first run's order; functions without a common message have no entry. *)
Theorem C33_panics_multiset_intersection : forall sha1 r1 r2 i,
  NoDup (mkeys (olist (tr_ppanics r1))) -> NoDup (mkeys (olist (tr_mpanics r1))) ->
  let get (m : option (list (bytes * list bytes))) := match mget i (olist m) with Some l => l | None => [] end in
  let r := stable_result sha1 r1 r2 in
  (forall msg, occ (get (tr_ppanics r)) msg = Nat.min (occ (get (tr_ppanics r1)) msg) (occ (get (tr_ppanics r2)) msg)) /\
  (forall msg, occ (get (tr_mpanics r)) msg = Nat.min (occ (get (tr_mpanics r1)) msg) (occ (get (tr_mpanics r2)) msg)) /\
  subseq (get (tr_ppanics r)) (get (tr_ppanics r1)) /\ subseq (get (tr_mpanics r)) (get (tr_mpanics r1)) /\
  mget i (olist (tr_ppanics r)) <> Some [] /\ mget i (olist (tr_mpanics r)) <> Some [].
Proof.
  intros sha1 r1 r2 i W1 W2 get r.
  assert (forall m1 m2 : option (list (bytes * list bytes)), NoDup (mkeys (olist m1)) ->
    get (Some (intersect_panics (olist m1) (olist m2))) = intersect (get m1) (get m2) /\
    mget i (intersect_panics (olist m1) (olist m2)) <> Some []) as G.
  { intros m1 m2 W. unfold get. cbn [olist]. rewrite (mget_intersect _ _ _ W).
    destruct (mget i (olist m1)) as [a|]; [|split; [reflexivity|discriminate]]. destruct (mget i (olist m2)) as [b|].
    - destruct (intersect a b); (split; [reflexivity|discriminate]).
    - split; [|discriminate]. clear. induction a as [|x a IH]; [reflexivity|]. exact IH. }
  unfold r. cbn [stable_result tr_ppanics tr_mpanics].
  destruct (G (tr_ppanics r1) (tr_ppanics r2) W1) as [-> N1]. destruct (G (tr_mpanics r1) (tr_mpanics r2) W2) as [-> N2].
  split; [intros; apply intersect_count|]. split; [intros; apply intersect_count|].
  split; [apply intersect_subseq|]. split; [apply intersect_subseq|]. split; [exact N1|exact N2].
Qed.
Print Assumptions C33_panics_multiset_intersection.

Example C33_example :
  intersect_panics [(B "f", [B "x"; B "y"; B "x"; B "z"; B "x"]); (B "g", [B "a"]); (B "h", [B "a"])]
                   [(B "g", [B "b"]); (B "f", [B "z"; B "x"; B "w"; B "x"])] =
  [(B "f", [B "x"; B "x"; B "z"])].
Proof. vm_compute. reflexivity. Qed.

(** ** C39: stack keys *)

Definition site (f : sframe) : bytes := sf_file f ++ ":"%char :: sf_func f.
Lemma stack_text_join fs : stack_text fs = join_with (B "|") (map site fs).
Proof.
  destruct fs as [|f fs]; [reflexivity|]. unfold stack_text. cbn [fold_left map].
  assert (forall l acc, acc <> [] ->
    fold_left (fun acc f => (match acc with [] => acc | _ => acc ++ B "|" end) ++ sf_file f ++ B ":" ++ sf_func f) l acc =
    join_with (B "|") (acc :: map site l)) as G.
  { induction l as [|g l IH]; intros acc Ha; [reflexivity|]. cbn [fold_left map]. rewrite IH.
    - destruct acc as [|c acc]; [congruence|]. change (sf_file g ++ B ":" ++ sf_func g) with (site g).
      generalize (map site l) as ms. intros [|m ms]; cbn [join_with]; rewrite <- ?app_assoc; reflexivity.
    - destruct acc as [|c acc]; [congruence|]. discriminate. }
  rewrite G; [reflexivity|]. cbn. destruct (sf_file f); discriminate.
Qed.

(** Names free of the separators: no '|' at all, no ':' in the file. *)
Definition sep_free (f : sframe) : Prop :=
  ~ In "|"%char (sf_file f) /\ ~ In "|"%char (sf_func f) /\ ~ In ":"%char (sf_file f).

Lemma cut_at (c : ascii) a : forall b x y, ~ In c a -> ~ In c b -> a ++ c :: x = b ++ c :: y -> a = b /\ x = y.
Proof.
  induction a as [|p a IH]; intros [|q b] x y Ha Hb E; cbn in E.
  - injection E as ->. auto.
  - injection E as -> _. exfalso. apply Hb. left; reflexivity.
  - injection E as <- _. exfalso. apply Ha. left; reflexivity.
  - injection E as -> E. destruct (IH b x y) as [-> ->]; auto; intros H; [apply Ha|apply Hb]; right; exact H.
Qed.

(** Two project stacks have the same key exactly when they agree frame by frame in
    file and function; line numbers and frames outside the project do not count.
    (Texts over 20 bytes are compared by SHA-1: the hypothesis is that it tells
    these two apart, if they differ.) *)
Theorem C39_key_is_project_call_path : forall sha1 f g,
  Forall sep_free (project_frames (cf_stack f)) -> Forall sep_free (project_frames (cf_stack g)) ->
  (let a := stack_text (project_frames (cf_stack f)) in let b := stack_text (project_frames (cf_stack g)) in
   bytes_key sha1 a = bytes_key sha1 b -> a = b) ->
  (project_key sha1 f = project_key sha1 g <->
   map (fun s => (sf_file s, sf_func s)) (project_frames (cf_stack f)) =
   map (fun s => (sf_file s, sf_func s)) (project_frames (cf_stack g))).
Proof.
  intros sha1 f g F1 F2 Inj. cbv zeta in Inj. unfold project_key, stack_key.
  generalize dependent (project_frames (cf_stack g)). generalize dependent (project_frames (cf_stack f)). intros a Fa b Fb Inj. split.
  - intros E. apply Inj in E. rewrite !stack_text_join in E. clear Inj.
    assert (forall l, Forall sep_free l -> Forall (fun e => ~ In "|"%char e) (map site l)) as NS.
    { intros l H. apply Forall_map. eapply Forall_impl; [|exact H]. intros s (H1 & H2 & _) Hi. unfold site in Hi.
      apply in_app_iff in Hi as [Hi|[Hi|Hi]]; [auto|discriminate|auto]. }
    assert (map site a = map site b) as Em.
    { destruct a as [|s a]; destruct b as [|t b]; [reflexivity| | |].
      - exfalso. assert (join_with (B "|") (map site (t :: b)) <> []) as N; [|apply N; symmetry; exact E].
        cbn [map]. unfold site at 1. destruct (map site b); cbn [join_with]; destruct (sf_file t); discriminate.
      - exfalso. assert (join_with (B "|") (map site (s :: a)) <> []) as N; [|apply N; exact E].
        cbn [map]. unfold site at 1. destruct (map site a); cbn [join_with]; destruct (sf_file s); discriminate.
      - rewrite <- (split_unique "|"%char (map site (s :: a))), <- (split_unique "|"%char (map site (t :: b))) by (try discriminate; auto).
        f_equal. exact E. }
    clear E NS. revert b Fb Em. induction Fa as [|s a Hs Fa IH]; intros [|t b] Fb Em; try discriminate; [reflexivity|].
    inversion Fb as [|? ? Ht Fb']; subst. cbn [map] in *. injection Em as E1 E2. f_equal; [|auto].
    unfold site in E1. apply cut_at in E1 as [-> ->]; [reflexivity|apply Hs|apply Ht].
  - intros E. f_equal. rewrite !stack_text_join. f_equal.
    assert (forall l, map site l = map (fun e : bytes * bytes => fst e ++ ":"%char :: snd e) (map (fun s => (sf_file s, sf_func s)) l)) as R
      by (intros l; rewrite map_map; reflexivity).
    rewrite !R, E. reflexivity.
Qed.
Print Assumptions C39_key_is_project_call_path.

(** Whole stacks (extension frames) the same way. *)
Theorem C39_lines_never_matter : forall sha1 f g,
  Forall2 (fun s t => sf_file s = sf_file t /\ sf_func s = sf_func t) (olist (cf_stack f)) (olist (cf_stack g)) ->
  full_key sha1 f = full_key sha1 g /\ project_key sha1 f = project_key sha1 g.
Proof.
  intros sha1 f g H.
  assert (forall a b, Forall2 (fun s t => sf_file s = sf_file t /\ sf_func s = sf_func t) a b -> stack_text a = stack_text b) as T.
  { intros a b Hab. rewrite !stack_text_join. f_equal. induction Hab as [|s t a b [E1 E2] Hab IH]; [reflexivity|]. cbn. rewrite IH.
    unfold site. rewrite E1, E2. reflexivity. }
  split; [unfold full_key, stack_key; rewrite (T _ _ H); reflexivity|].
  unfold project_key, stack_key. erewrite T; [reflexivity|]. unfold project_frames.
  induction H as [|s t a b [E1 E2] H IH]; [constructor|]. cbn [filter]. unfold is_project_frame in *. rewrite E1.
  destruct (_ && _); [constructor; auto|exact IH].
Qed.
Print Assumptions C39_lines_never_matter.

(** The separators are needed: with them in the names, different paths share a
    key. *)
Theorem C39_separators_confuse_refuted : exists f g : cframe, forall sha1,
  project_key sha1 f = project_key sha1 g /\
  map (fun s => (sf_file s, sf_func s)) (project_frames (cf_stack f)) <>
  map (fun s => (sf_file s, sf_func s)) (project_frames (cf_stack g)).
Proof.
  exists (CFrame None (Some [SFrame (B "./a.go") 1 (B "f|./b.go:g")]) 0),
         (CFrame None (Some [SFrame (B "./a.go") 1 (B "f"); SFrame (B "./b.go") 1 (B "g")]) 0).
  intros sha1. split; [reflexivity|]. vm_compute. discriminate.
Qed.
Print Assumptions C39_separators_confuse_refuted.

Definition ex39 : cframe := CFrame None
  (Some [SFrame (B "github.com/x/y@v1/z.go") 3 (B "y.Z"); SFrame (B "./a.go") 10 (B "p.A"); SFrame (B "./vendor/v/v.go") 4 (B "v.V"); SFrame (B "./b.go") 11 (B "p.(*T).B")]) 0.
Definition ex39' : cframe := CFrame None
  (Some [SFrame (B "./a.go") 15 (B "p.A"); SFrame (B "/usr/go/src/fmt/print.go") 4 (B "fmt.Println"); SFrame (B "./b.go") 9 (B "p.(*T).B")]) 5.
Example C39_example :
  Forall sep_free (project_frames (cf_stack ex39)) /\ Forall sep_free (project_frames (cf_stack ex39')) /\
  project_frames (cf_stack ex39) = [SFrame (B "./a.go") 10 (B "p.A"); SFrame (B "./b.go") 11 (B "p.(*T).B")] /\
  (forall sha1, project_key sha1 ex39 = project_key sha1 ex39') /\
  stack_text (project_frames (cf_stack ex39)) = B "./a.go:p.A|./b.go:p.(*T).B".
Proof.
  assert (forall s, (forallb (fun c => if ascii_dec c "|" then false else true) (sf_file s ++ sf_func s) &&
                     forallb (fun c => if ascii_dec c ":" then false else true) (sf_file s))%bool = true -> sep_free s) as H.
  { intros s E. apply andb_true_iff in E as [E1 E2]. rewrite forallb_forall in *. unfold sep_free.
    split; [|split]; intros Hi.
    - specialize (E1 _ (in_or_app _ _ _ (or_introl Hi))). discriminate.
    - specialize (E1 _ (in_or_app _ _ _ (or_intror Hi))). discriminate.
    - specialize (E2 _ Hi). discriminate. }
  split; [match goal with |- Forall _ ?l => let v := eval vm_compute in l in change l with v end;
    constructor; [apply H; vm_compute; reflexivity|]; constructor; [apply H; vm_compute; reflexivity|constructor]|].
  split; [match goal with |- Forall _ ?l => let v := eval vm_compute in l in change l with v end;
    constructor; [apply H; vm_compute; reflexivity|]; constructor; [apply H; vm_compute; reflexivity|constructor]|].
  split; [vm_compute; reflexivity|]. split; [reflexivity|vm_compute; reflexivity].
Qed.

(** ** C55: stack file names *)

Lemma rel_inside d rest : rel_elems d (d ++ rest) = rest.
Proof. induction d as [|x d IH]; cbn [rel_elems app length repeat]; [destruct rest; reflexivity|]. rewrite beq_refl. exact IH. Qed.

(** A file inside the project becomes "./" followed by its path below the project;
    any other file gets a name not starting with "./". *)
Theorem C55_project_files_marked : forall cwd project goroot file r f d,
  leads (absolute cwd file) f -> leads (absolute cwd project) d ->
  trim_stack_file cwd project goroot file = Some r ->
  (forall rest, project <> [] -> f = d ++ rest -> (forall e es, rest = e :: es -> ~ exists s, e = B ".." ++ s) ->
     r = B "./" ++ match rest with [] => B "." | _ => join_with [slash] rest end) /\
  (has_prefix (B "./") r = true <->
     project <> [] /\ exists rest, f = d ++ rest /\ (forall e es, rest = e :: es -> ~ exists s, e = B ".." ++ s)).
Proof.
  intros cwd project goroot file r f d Hf Hd E. pose proof (C22_within_dir_exact _ _ _ _ _ Hf Hd) as W.
  pose proof (leads_clean (absolute cwd file) f) as Lf. pose proof (leads_clean (absolute cwd project) d) as Ld.
  apply Lf in Hf. apply Ld in Hd. unfold trim_stack_file in E.
  assert (project <> [] -> file_within_dir cwd file project = true -> forall rest, f = d ++ rest ->
     Some r = Some (B "./" ++ match rest with [] => B "." | _ => join_with [slash] rest end)) as In_.
  { intros Np Hw rest Er. rewrite Hw in E. destruct (beq_spec project []); [contradiction|]. cbn [negb andb] in E. rewrite <- E.
    unfold abs_elems. fold (absolute cwd file) (absolute cwd project). rewrite <- Hf, <- Hd, Er. unfold rel. rewrite rel_inside. destruct rest; reflexivity. }
  assert (~ (project <> [] /\ file_within_dir cwd file project = true) -> has_prefix (B "./") r = false) as Out.
  { intros Nw. destruct (negb (beq project []) && file_within_dir cwd file project) eqn:Eb.
    { exfalso. apply Nw. apply andb_true_iff in Eb as [E1 E2]. destruct (beq_spec project []); [discriminate|auto]. }
    clear W In_ Nw Eb. destruct (if negb (beq goroot []) && _ then _ else _) as [t|]; [|discriminate].
    apply (f_equal (fun o => match o with Some x => has_prefix (B "./") x | None => false end)) in E. cbv beta iota zeta in E. rewrite <- E.
    generalize (match index_of (B "/pkg/mod/") t with Some i => skipn (i + 9) t | None => t end) as t'. intros t'.
    destruct (has_prefix (B "./") t') eqn:Ep; [|exact Ep]. apply has_prefix_spec in Ep as [s ->]. reflexivity. }
  split.
  - intros rest Np Er Hr. assert (file_within_dir cwd file project = true) as Hw by (apply W; eauto).
    specialize (In_ Np Hw rest Er). congruence.
  - split.
    + intros Hp. destruct (beq_spec project []) as [Ep|Np].
      * rewrite Out in Hp; [discriminate|]. intros [H _]; contradiction.
      * split; [exact Np|]. apply W. destruct (file_within_dir cwd file project) eqn:Hw; [reflexivity|].
        rewrite Out in Hp; [discriminate|]. intros [_ H]; discriminate.
    + intros (Np & rest & Er & Hr). assert (file_within_dir cwd file project = true) as Hw by (apply W; eauto).
      specialize (In_ Np Hw rest Er). assert (r = B "./" ++ match rest with [] => B "." | _ => join_with [slash] rest end) as -> by congruence. apply has_prefix_app.
Qed.
Print Assumptions C55_project_files_marked.

(** So a frame counts as a project frame exactly when its file is inside the
    project and not below its vendor directory. *)
Theorem C55_project_frames_exact : forall cwd project goroot file r f d line fn,
  leads (absolute cwd file) f -> leads (absolute cwd project) d ->
  trim_stack_file cwd project goroot file = Some r ->
  (is_project_frame (SFrame r line fn) = true <->
   project <> [] /\ exists rest, f = d ++ rest /\ (forall e es, rest = e :: es -> ~ exists s, e = B ".." ++ s) /\
     ~ exists e es, rest = B "vendor" :: e :: es).
Proof.
  intros cwd project goroot file r f d line fn Hf Hd E.
  destruct (C55_project_files_marked _ _ _ _ _ _ _ Hf Hd E) as [Exact Mark].
  unfold is_project_frame. cbn [sf_file]. rewrite andb_true_iff, Mark, negb_true_iff.
  assert (Forall (fun e => ~ In slash e) f) as Ns by (apply leads_clean in Hf; rewrite Hf; apply no_slash_split).
  assert (Forall real_name f) as Rn by (apply leads_clean in Hf; rewrite Hf; apply clean_real; constructor).
  assert (forall rest, f = d ++ rest -> project <> [] -> (forall e es, rest = e :: es -> ~ exists s, e = B ".." ++ s) ->
     (has_prefix (B "./vendor/") r = false <-> ~ exists e es, rest = B "vendor" :: e :: es)) as V.
  { intros rest Er Np Hr. rewrite (Exact rest Np Er Hr). clear Exact Mark E. destruct rest as [|e es].
    { split; [intros _ (e & es & H); discriminate|reflexivity]. }
    assert (forall t, has_prefix (B "./vendor/") (B "./" ++ t) = has_prefix (B "vendor/") t) as -> by reflexivity.
    rewrite Er in Ns. apply Forall_app in Ns as [_ Ns]. inversion Ns as [|? ? Ne Nes]; subst.
    destruct (has_prefix (B "vendor/") (join_with [slash] (e :: es))) eqn:Ep.
    - split; [discriminate|]. intros H. exfalso. apply H. apply has_prefix_spec in Ep as [s Es].
      assert (B "vendor/" ++ s = B "vendor" ++ slash :: s) as Ev by reflexivity. rewrite Ev in Es.
      destruct es as [|e' es].
      + cbn [join_with] in Es. exfalso. apply Ne. rewrite Es. apply in_app_iff. right. left. reflexivity.
      + rewrite join_cons in Es by discriminate. apply (cut_at slash) in Es as [-> _]; [eauto|exact Ne|].
        intros H0. repeat (destruct H0 as [H0|H0]; [discriminate H0|]). destruct H0.
    - split; [|reflexivity]. intros _ (e' & es' & H). injection H as -> ->. rewrite join_cons in Ep by discriminate.
      vm_compute in Ep. discriminate. }
  split.
  - intros [[Np (rest & Er & Hr)] Hv]. split; [exact Np|]. exists rest. split; [exact Er|]. split; [exact Hr|]. apply (V rest Er Np Hr). exact Hv.
  - intros (Np & rest & Er & Hr & Nv). split; [eauto|]. apply (V rest Er Np Hr). exact Nv.
Qed.
Print Assumptions C55_project_frames_exact.

(** Cutting off the Go path never fails when that path is given in clean form, with
    or without a final separator... *)
Definition size (es : list bytes) : nat := list_sum (map (fun e => S (length e)) es).
Lemma size_app a b : size (a ++ b) = (size a + size b)%nat.
Proof. unfold size. rewrite map_app, list_sum_app. reflexivity. Qed.
Lemma clean_size es : forall at_, (size (fold_left clean_step es at_) <= size at_ + size es)%nat.
Proof.
  induction es as [|e es IH]; intros at_; cbn [fold_left]; [change (size []) with 0%nat; lia|].
  rewrite IH. change (size (e :: es)) with (S (length e) + size es)%nat.
  assert (size (clean_step at_ e) <= size at_ + S (length e))%nat; [|lia]. unfold clean_step.
  destruct (_ || _); [lia|]. destruct (beq e (B "..")).
  - destruct at_ as [|a l] eqn:E using rev_ind; [cbn; lia|]. rewrite removelast_last, size_app. lia.
  - rewrite size_app. change (size [e]) with (S (length e) + 0)%nat. lia.
Qed.
Lemma join_size es : es <> [] -> S (length (join_with [slash] es)) = size es.
Proof.
  induction es as [|e es IH]; intros H; [congruence|]. destruct es as [|e' es]; [cbn; lia|].
  rewrite join_cons by discriminate. rewrite !app_length. change (size (e :: e' :: es)) with (S (length e) + size (e' :: es))%nat.
  rewrite <- IH by discriminate. cbn. lia.
Qed.
Lemma split_size c s : size (split_on c s) = S (length s).
Proof.
  rewrite <- (proj2 (split_on_spec c s)) at 2. assert (forall es, es <> [] -> S (length (join_with [c] es)) = size es) as H.
  { induction es as [|e es IH]; intros H; [congruence|]. destruct es as [|e' es]; [cbn; lia|].
    rewrite join_cons by discriminate. rewrite !app_length. change (size (e :: e' :: es)) with (S (length e) + size (e' :: es))%nat.
    rewrite <- IH by discriminate. cbn. lia. }
  symmetry. apply H. apply split_on_nonempty.
Qed.

Theorem C55_no_panic_for_clean_go_path : forall cwd project goroot file es,
  is_abs file = true -> Forall (fun e => real_name e /\ ~ In slash e) es ->
  goroot = slash :: join_with [slash] es \/ goroot = (slash :: join_with [slash] es) ++ [slash] ->
  trim_stack_file cwd project goroot file <> None.
Proof.
  intros cwd project goroot file es Ha Fe Hg E. unfold trim_stack_file in E.
  destruct (_ && file_within_dir cwd file project); [discriminate|].
  destruct (negb (beq goroot []) && file_within_dir cwd file goroot) eqn:Eb; [|discriminate].
  apply andb_true_iff in Eb as [_ Hw].
  assert (leads (absolute cwd goroot) es) as Lg.
  { apply leads_clean.
    assert (forall l at_, Forall (fun e => real_name e /\ ~ In slash e) l -> fold_left clean_step l at_ = at_ ++ l) as G.
    { induction l as [|e l IH]; intros at_ Fl; cbn [fold_left]; [symmetry; apply app_nil_r|]. inversion Fl as [|? ? [(R1 & R2 & R3) _] Fl']; subst.
      rewrite IH by exact Fl'. unfold clean_step. destruct (beq_spec e []); [congruence|]. destruct (beq_spec e (B ".")); [congruence|].
      destruct (beq_spec e (B "..")); [congruence|]. cbn [orb]. rewrite <- app_assoc. reflexivity. }
    assert (forall e, In e es -> ~ In slash e) as Ns by (intros e He; rewrite Forall_forall in Fe; apply Fe; exact He).
    assert (absolute cwd goroot = goroot) as -> by (destruct Hg as [-> | ->]; reflexivity).
    unfold clean_elems. destruct es as [|e es].
    - destruct Hg as [-> | ->]; reflexivity.
    - assert (Forall (fun e => ~ In slash e) (e :: es)) as Fs by (apply Forall_forall; exact Ns).
      destruct Hg as [-> | ->].
      + change (slash :: join_with [slash] (e :: es)) with (join_with [slash] ([] :: e :: es)).
        rewrite split_unique; [|discriminate|constructor; [intros []|exact Fs]]. symmetry. apply (G (e :: es) []). exact Fe.
      + replace ((slash :: join_with [slash] (e :: es)) ++ [slash]) with (join_with [slash] ([] :: (e :: es) ++ [[]])).
        * rewrite split_unique; [|discriminate|constructor; [intros []|apply Forall_app; split; [exact Fs|constructor; [intros []|constructor]]]].
          change ([] :: (e :: es) ++ [[]]) with (([] :: e :: es) ++ [[]]). rewrite fold_left_app. symmetry. apply (G (e :: es) []). exact Fe.
        * rewrite join_cons by (destruct es; discriminate). cbn [app]. f_equal. clear. revert e.
          induction es as [|e' es IH]; intros e; [reflexivity|]. cbn [app]. rewrite !(join_cons _ e) by (destruct es; discriminate).
          specialize (IH e'). cbn [app] in IH. rewrite IH, <- !app_assoc. reflexivity. }
  pose proof (proj2 (leads_clean (absolute cwd file) _) eq_refl) as Lf.
  apply (C22_within_dir_exact _ _ _ _ _ Lf Lg) in Hw as (rest & Er & _).
  assert (size (clean_elems file) <= length file)%nat as Sz.
  { destruct file as [|c file]; [discriminate|]. cbn in Ha. destruct (ascii_dec c slash) as [->|]; [|discriminate].
    unfold clean_elems. cbn [split_on]. destruct (ascii_dec slash slash) as [_|]; [|congruence]. cbn [fold_left].
    change (clean_step [] []) with (@nil bytes). rewrite clean_size, split_size. cbn. lia. }
  unfold absolute in Er. rewrite Ha in Er. rewrite Er, size_app in Sz.
  assert (length goroot - (if ascii_dec (last goroot " "%char) slash then 1 else 0) <= length file)%nat as Le.
  { assert (1 <= length file)%nat by (destruct file; [discriminate|cbn; lia]). destruct Hg as [Hg|Hg].
    - destruct es as [|e es]; [subst goroot; cbn; lia|]. pose proof (join_size (e :: es) ltac:(discriminate)) as Js.
      assert (length goroot = S (length (join_with [slash] (e :: es)))) by (subst goroot; reflexivity).
      destruct (ascii_dec _ _); lia.
    - assert (last goroot " "%char = slash) as El by (rewrite Hg; apply last_last). rewrite El. destruct (ascii_dec slash slash) as [_|]; [|congruence].
      assert (length goroot = S (S (length (join_with [slash] es)))) as Lg' by (rewrite Hg, app_length; cbn; lia).
      destruct es as [|e es]; [cbn in Lg'; lia|]. pose proof (join_size (e :: es) ltac:(discriminate)) as Js. lia. }
  assert ((length file <? (if ascii_dec (last goroot " "%char) slash then length goroot - 1 else length goroot))%nat = false) as Lt.
  { apply Nat.ltb_ge. destruct (ascii_dec (last goroot " "%char) slash); lia. }
  cbv zeta in E. rewrite Lt in E. discriminate.
Qed.
Print Assumptions C55_no_panic_for_clean_go_path.

(** ... but a Go path with repeated separators makes it slice past the end. *)
Theorem C55_unclean_go_path_panics_refuted : exists cwd project goroot file,
  project <> [] /\ is_abs file = true /\ trim_stack_file cwd project goroot file = None.
Proof. exists (B "/p"), (B "/p"), (B "/a////////"), (B "/a/b.go"). split; [discriminate|]. split; vm_compute; reflexivity. Qed.
Print Assumptions C55_unclean_go_path_panics_refuted.

Lemma index_of_first p : forall pre rest s, s = pre ++ p ++ rest -> (forall a b, s = a ++ p ++ b -> (length pre <= length a)%nat) ->
  index_of p s = Some (length pre).
Proof.
  induction pre as [| c pre IH]; intros rest s E M.
  - subst s. cbn [app]. destruct (p ++ rest) as [| x l] eqn:El; cbn [index_of].
    + destruct p; [reflexivity | discriminate El].
    + rewrite <- El, has_prefix_app. reflexivity.
  - subst s. cbn [app index_of]. destruct (has_prefix p (c :: pre ++ p ++ rest)) eqn:Hp.
    + apply has_prefix_spec in Hp. destruct Hp as (r & Er). specialize (M [] r Er). cbn in M. lia.
    + rewrite (IH rest (pre ++ p ++ rest) eq_refl); [reflexivity |]. intros a b Eab. specialize (M (c :: a) b). cbn [app length] in M.
      rewrite Eab in M. specialize (M eq_refl). lia.
Qed.
Lemma index_of_none p s : (forall a b, s <> a ++ p ++ b) -> index_of p s = None.
Proof.
  induction s as [| c s IH]; intros H; cbn [index_of].
  - destruct (has_prefix p []) eqn:Hp; [apply has_prefix_spec in Hp; destruct Hp as (r & Er); destruct (H [] r Er) | reflexivity].
  - destruct (has_prefix p (c :: s)) eqn:Hp; [apply has_prefix_spec in Hp; destruct Hp as (r & Er); destruct (H [] r Er) |].
    rewrite IH; [reflexivity |]. intros a b E. apply (H (c :: a) b). rewrite E. reflexivity.
Qed.
(** A file outside of the project is named by what follows the first /pkg/mod/ in it, else by its path, in each case
    without the Go path in front if it lies below that. *)
Theorem C55_module_files : forall cwd project goroot file f d g base tail,
  leads (absolute cwd file) f -> leads (absolute cwd project) d -> leads (absolute cwd goroot) g ->
  (project = [] \/ forall r, f <> d ++ r) ->
  (base = [] /\ (goroot = [] \/ forall r, f <> g ++ r)) \/
  (goroot <> [] /\ (exists r, f = g ++ r /\ forall e es, r = e :: es -> ~ exists s, e = B ".." ++ s) /\
   (goroot = base ++ [slash] \/ goroot = base /\ ~ exists b, base = b ++ [slash])) ->
  file = base ++ tail -> 
  (forall pre rest, tail = pre ++ B "/pkg/mod/" ++ rest -> (forall a b, tail = a ++ B "/pkg/mod/" ++ b -> (length pre <= length a)%nat) ->
     (forall t, rest <> B "./" ++ t) -> trim_stack_file cwd project goroot file = Some rest) /\
  ((forall a b, tail <> a ++ B "/pkg/mod/" ++ b) -> (forall t, tail <> B "./" ++ t) -> trim_stack_file cwd project goroot file = Some tail).
Proof.
  intros cwd project goroot file f d g base tail Lf Ld Lg Hp Hg Ef.
  assert (Ep : (negb (beq project []) && file_within_dir cwd file project)%bool = false).
  { destruct Hp as [-> | Hp]; [reflexivity |]. destruct (file_within_dir cwd file project) eqn:W; [| apply Bool.andb_false_r].
    apply (C22_within_dir_exact _ _ _ _ _ Lf Ld) in W. destruct W as (r & Er & _). destruct (Hp r Er). }
  assert (Et : (if negb (beq goroot []) && file_within_dir cwd file goroot
      then let n := length goroot in
           let i := if ascii_dec (last goroot " "%char) slash then (n - 1)%nat else n in
           if (length file <? i)%nat then None else Some (skipn i file)
      else Some file) = Some tail).
  { destruct Hg as [[-> Hg] | (Ng & (r & Er & Hr) & Hb)].
    - assert (Eg : (negb (beq goroot []) && file_within_dir cwd file goroot)%bool = false).
      { destruct Hg as [-> | Hg]; [reflexivity |]. destruct (file_within_dir cwd file goroot) eqn:W; [| apply Bool.andb_false_r].
        apply (C22_within_dir_exact _ _ _ _ _ Lf Lg) in W. destruct W as (r & Er & _). destruct (Hg r Er). }
      rewrite Eg, Ef. reflexivity.
    - assert (W : file_within_dir cwd file goroot = true) by (apply (C22_within_dir_exact _ _ _ _ _ Lf Lg); eauto).
      rewrite W. destruct (beq_spec goroot []) as [E0 | _]; [congruence |]. cbn [negb andb]. cbv zeta.
      assert (Ei : (if ascii_dec (last goroot " "%char) slash then (length goroot - 1)%nat else length goroot) = length base).
      { destruct Hb as [-> | [-> Nb]].
        - rewrite last_last. destruct (ascii_dec slash slash); [| congruence]. rewrite app_length. cbn [length]. lia.
        - destruct (ascii_dec (last base " "%char) slash) as [El |]; [| reflexivity]. destruct Nb. exists (removelast base).
          rewrite <- El. apply app_removelast_last. exact Ng. }
      rewrite Ei, Ef, app_length. destruct (Nat.ltb_spec (length base + length tail) (length base)); [lia |].
      rewrite skipn_app, Nat.sub_diag, skipn_all. reflexivity. }
  assert (Nd : forall r : bytes, (forall t, r <> B "./" ++ t) -> has_prefix (B "./") r = false).
  { intros r Hr. destruct (has_prefix (B "./") r) eqn:E; [| reflexivity]. apply has_prefix_spec in E. destruct E as (t & E). destruct (Hr t E). }
  unfold trim_stack_file. rewrite Ep. cbv zeta in *. rewrite Et. split.
  - intros pre rest Etl M Hr. rewrite (index_of_first _ _ _ _ Etl M). 
    assert (Es : skipn (length pre + 9) tail = rest).
    { rewrite Etl, app_assoc. replace (length pre + 9)%nat with (length (pre ++ B "/pkg/mod/")) by (rewrite app_length; reflexivity).
      rewrite skipn_app, Nat.sub_diag, skipn_all. reflexivity. }
    rewrite Es, (Nd rest Hr). reflexivity.
  - intros No Hr. rewrite (index_of_none _ _ No), (Nd tail Hr). reflexivity.
Qed.
Print Assumptions C55_module_files.

Example C55_example :
  trim_stack_file (B "/") (B "/home/p") (B "/home/go") (B "/home/p/x/../y/a.go") = Some (B "./y/a.go") /\
  trim_stack_file (B "/") (B "/home/p") (B "/home/go") (B "/home/go/pkg/mod/m@v1/a.go") = Some (B "m@v1/a.go") /\
  trim_stack_file (B "/") (B "/home/p") (B "/home/go/") (B "/home/go/src/a.go") = Some (B "/src/a.go") /\
  trim_stack_file (B "/") (B "/home/p") (B "/home/go") (B "/x/y/pkg/mod/m@v1/pkg/mod/a.go") = Some (B "m@v1/pkg/mod/a.go") /\
  is_project_frame (SFrame (B "./vendor/m/a.go") 1 []) = false /\
  is_project_frame (SFrame (B "./vendored/m/a.go") 1 []) = true.
Proof. vm_compute. auto 8. Qed.
