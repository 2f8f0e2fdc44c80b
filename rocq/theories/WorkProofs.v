From Verif Require Import Base Maps UtilModel UtilProps WorkModel WorkSpec.

Definition ns (es : list bytes) : Prop := Forall (fun e => ~ In slash e) es.
Definition go (at_ es : list bytes) : list bytes := fold_left clean_step es at_.

Lemma text_abs es : text_of es = abs_of es.
Proof. reflexivity. Qed.

Lemma split_ns p : ns (split_on slash p).
Proof. apply split_on_spec. Qed.

Lemma split_app a b : split_on slash (a ++ [slash] ++ b) = split_on slash a ++ split_on slash b.
Proof.
  rewrite <- (split_unique slash (split_on slash a ++ split_on slash b)).
  - f_equal. destruct (split_on_spec slash a) as [_ Ja], (split_on_spec slash b) as [_ Jb].
    rewrite <- Ja at 1. rewrite <- Jb at 1. pose proof (split_on_nonempty slash a) as Na. pose proof (split_on_nonempty slash b) as Nb.
    clear Ja Jb. revert Na. generalize (split_on slash a) as l. induction l as [|x l IH]; intros Na; [congruence|].
    destruct l as [|y l].
    + cbn [app]. rewrite (join_cons [slash] x (split_on slash b)) by exact Nb. reflexivity.
    + rewrite join_cons by discriminate. cbn [app] in *. rewrite (join_cons [slash] x (y :: (l ++ split_on slash b))) by discriminate.
      rewrite <- IH by discriminate. rewrite <- !app_assoc. reflexivity.
  - intros E. apply app_eq_nil in E as [E _]. exact (split_on_nonempty _ _ E).
  - apply Forall_app. split; apply split_ns.
Qed.

Lemma place_app a b : clean_elems (a ++ [slash] ++ b) = go (clean_elems a) (split_on slash b).
Proof. unfold clean_elems, go. rewrite split_app. apply fold_left_app. Qed.

Lemma go_real at_ es : Forall real_name es -> go at_ es = at_ ++ es.
Proof.
  unfold go. revert at_. induction es as [|e es IH]; intros at_ R; cbn [fold_left]; [rewrite app_nil_r; reflexivity|].
  inversion R as [|? ? (R1 & R2 & R3) R']; subst. unfold clean_step at 2.
  destruct (beq_spec e []); [congruence|]. destruct (beq_spec e (B ".")); [congruence|].
  destruct (beq_spec e (B "..")); [congruence|]. cbn [orb]. rewrite IH by exact R'. rewrite <- app_assoc. reflexivity.
Qed.

Lemma place_real p : Forall real_name (clean_elems p).
Proof. apply clean_real. constructor. Qed.
Lemma place_ns p : ns (clean_elems p).
Proof. apply no_slash_split. Qed.

Lemma place_text es : Forall real_name es -> ns es -> clean_elems (abs_of es) = es.
Proof.
  intros R N. unfold clean_elems, abs_of.
  change (slash :: join_with [slash] es) with ([] ++ [slash] ++ join_with [slash] es). rewrite split_app, fold_left_app.
  change (fold_left clean_step (split_on slash []) []) with (@nil bytes).
  destruct es as [|e es]; [reflexivity|]. rewrite split_unique by (auto; discriminate).
  change (go [] (e :: es) = e :: es). rewrite go_real by exact R. reflexivity.
Qed.

Lemma clean_abs p : is_abs p = true -> clean p = abs_of (clean_elems p).
Proof. unfold clean. intros ->. reflexivity. Qed.

Lemma abs_app p q : is_abs p = true -> is_abs (p ++ q) = true.
Proof. destruct p; [discriminate|]. cbn. auto. Qed.
Lemma abs_text es : is_abs (abs_of es) = true.
Proof. reflexivity. Qed.

Lemma abs_nonempty p : is_abs p = true -> beq p [] = false.
Proof. destruct p; [discriminate|reflexivity]. Qed.

Lemma join2_abs a b : is_abs a = true -> join2 a b = abs_of (go (clean_elems a) (split_on slash b)).
Proof.
  intros A. unfold join2, join_parts. cbn [filter]. rewrite (abs_nonempty a A). cbn [negb].
  destruct (beq_spec b []) as [->|Nb]; cbn [negb].
  - cbn [join_with]. rewrite clean_abs by exact A. reflexivity.
  - cbn [join_with]. rewrite clean_abs by (apply abs_app; exact A). rewrite place_app. reflexivity.
Qed.

Lemma join3_abs a b c : is_abs a = true ->
  join_parts [a; b; c] = abs_of (go (go (clean_elems a) (split_on slash b)) (split_on slash c)).
Proof.
  intros A. unfold join_parts. cbn [filter]. rewrite (abs_nonempty a A). cbn [negb].
  destruct (beq_spec b []) as [->|Nb]; destruct (beq_spec c []) as [->|Nc]; cbn [negb join_with];
    rewrite clean_abs by (try apply abs_app; exact A); rewrite ?place_app; try reflexivity.
  unfold go. rewrite split_app, fold_left_app. reflexivity.
Qed.

Lemma go_mod_elem at_ : go at_ (split_on slash (B "go.mod")) = at_ ++ [B "go.mod"].
Proof. reflexivity. Qed.

(** Relative cleaning. *)
Definition plain_elem (e : bytes) : Prop := e <> [] /\ e <> B ".".
Lemma removelast_in {A} (l : list A) x : In x (removelast l) -> In x l.
Proof. destruct l as [|a l] using rev_ind; [exact (fun H => H)|]. rewrite removelast_last, in_app_iff. auto. Qed.
Lemma rel_step_ok at_ acc e : Forall plain_elem acc ->
  Forall plain_elem (rel_step acc e) /\ go at_ (rel_step acc e) = clean_step (go at_ acc) e.
Proof.
  intros F. unfold rel_step, clean_step at 1.
  destruct (beq_spec e []) as [->|N1]; [split; [exact F|reflexivity]|].
  destruct (beq_spec e (B ".")) as [->|N2]; [split; [exact F|reflexivity]|]. cbn [orb].
  destruct (beq_spec e (B "..")) as [->|N3].
  - destruct acc as [|a acc _] using rev_ind.
    + split; [constructor; [split; discriminate|constructor]|reflexivity].
    + rewrite last_last, removelast_last. apply Forall_app in F as [F Fa]. inversion Fa as [|? ? [A1 A2] _]; subst.
      assert (forall X (x y : X), match acc ++ [a] with [] => x | _ :: _ => y end = y) as M by (intros; destruct acc; reflexivity).
      rewrite M. clear M.
      destruct (beq_spec a (B "..")) as [->|Na].
      * split; [apply Forall_app; split; [apply Forall_app; split; auto|constructor; [split; discriminate|constructor]]|].
        unfold go. rewrite !fold_left_app. reflexivity.
      * split; [exact F|]. unfold go. rewrite fold_left_app. cbn [fold_left].
        assert (clean_step (fold_left clean_step acc at_) a = fold_left clean_step acc at_ ++ [a]) as ->.
        { unfold clean_step at 1. destruct (beq_spec a []); [congruence|]. destruct (beq_spec a (B ".")); [congruence|].
          destruct (beq_spec a (B "..")); [congruence|]. reflexivity. }
        rewrite removelast_last. reflexivity.
  - split; [apply Forall_app; split; [exact F|constructor; [split; auto|constructor]]|].
    unfold go. rewrite fold_left_app. cbn [fold_left]. unfold clean_step at 1.
    destruct (beq_spec e []); [congruence|]. destruct (beq_spec e (B ".")); [congruence|].
    destruct (beq_spec e (B "..")); [congruence|]. reflexivity.
Qed.

Lemma rel_fold_ok at_ es : forall acc, Forall plain_elem acc ->
  Forall plain_elem (fold_left rel_step es acc) /\ go at_ (fold_left rel_step es acc) = go (go at_ acc) es.
Proof.
  induction es as [|e es IH]; intros acc F; [split; [exact F|reflexivity]|]. cbn [fold_left].
  destruct (rel_step_ok at_ acc e F) as [F' E]. destruct (IH _ F') as [F2 E2]. split; [exact F2|].
  rewrite E2, E. reflexivity.
Qed.

Lemma rel_fold_ns es : forall acc, ns es -> ns acc -> ns (fold_left rel_step es acc).
Proof.
  induction es as [|e es IH]; intros acc N F; [exact F|]. inversion N; subst. cbn [fold_left]. apply IH; [assumption|].
  unfold rel_step. destruct (beq e [] || beq e (B ".")); [exact F|].
  assert (ns (acc ++ [e])) as A by (apply Forall_app; split; auto).
  destruct (beq e (B "..")); [|exact A]. destruct acc as [|x acc']; [auto|].
  destruct (beq (last (x :: acc') []) (B "..")); [exact A|].
  apply Forall_forall. intros y Hy. apply removelast_in in Hy. unfold ns in F. rewrite Forall_forall in F. auto.
Qed.

Lemma join_not_abs e es : e <> [] -> ~ In slash e -> is_abs (join_with [slash] (e :: es)) = false.
Proof.
  intros N S. destruct e as [|c e]; [congruence|].
  assert (exists r, join_with [slash] ((c :: e) :: es) = c :: r) as [r ->] by (destruct es; eexists; reflexivity).
  cbn. destruct (ascii_dec c slash) as [->|]; [|reflexivity]. exfalso; apply S; left; reflexivity.
Qed.

(** Cleaning a relative path: it stays relative and leads to the same place. *)
Lemma clean_rel p at_ : is_abs p = false ->
  is_abs (clean p) = false /\ go at_ (split_on slash (clean p)) = go at_ (split_on slash p).
Proof.
  intros A. unfold clean. rewrite A.
  destruct (rel_fold_ok at_ (split_on slash p) [] (Forall_nil _)) as [F E].
  assert (ns (fold_left rel_step (split_on slash p) [])) as N by (apply rel_fold_ns; [apply split_ns|constructor]).
  revert F E N. generalize (fold_left rel_step (split_on slash p) []) as l. intros l F E N.
  destruct l as [|e l].
  - split; [reflexivity|]. change (split_on slash (B ".")) with [B "."]. exact E.
  - inversion F as [|? ? [E1 _] _]; subst. inversion N; subst. split; [apply join_not_abs; assumption|].
    rewrite split_unique by (auto; discriminate). exact E.
Qed.

(** Where a directory text leads from a root. *)
Definition target (root d : bytes) : list bytes := clean_elems (absolute root d).
Lemma target_rel root d : is_abs d = false -> target root d = go (clean_elems root) (split_on slash d).
Proof.
  intros A. unfold target, absolute. rewrite A. change (root ++ slash :: d) with (root ++ [slash] ++ d). apply place_app.
Qed.
Lemma target_abs root d : is_abs d = true -> target root d = clean_elems d.
Proof. intros A. unfold target, absolute. rewrite A. reflexivity. Qed.
Lemma target_clean root d : target root (clean d) = target root d.
Proof.
  destruct (is_abs d) eqn:A.
  - rewrite clean_abs by exact A. rewrite !target_abs by (auto using abs_text). apply place_text; [apply place_real|apply place_ns].
  - destruct (clean_rel d (clean_elems root) A) as [A' E]. rewrite !target_rel by assumption. exact E.
Qed.
Lemma target_leads root d es : leads (absolute root d) es <-> es = target root d.
Proof. apply leads_clean. Qed.

Lemma resolve_target root d : is_abs root = true -> resolve root d = abs_of (target root d ++ [B "go.mod"]).
Proof.
  intros A. unfold resolve. destruct (is_abs d) eqn:Ad.
  - rewrite join2_abs by exact Ad. rewrite target_abs by exact Ad. reflexivity.
  - rewrite join3_abs by exact A. rewrite target_rel by exact Ad. reflexivity.
Qed.

Lemma go_base_rel base targ : Forall real_name targ -> go base (rel_elems base targ) = targ.
Proof.
  intros R. destruct (rel_elems_spec base targ) as (com & b & t & -> & -> & -> & _).
  apply Forall_app in R as [_ R]. unfold go. rewrite fold_left_app.
  assert (fold_left clean_step (repeat (B "..") (length b)) (com ++ b) = com) as ->.
  { clear. induction b as [|x b IH] using rev_ind; [cbn; apply app_nil_r|].
    rewrite app_length, Nat.add_comm. cbn [length Nat.add repeat fold_left].
    change (clean_step (com ++ b ++ [x]) (B "..")) with (removelast (com ++ b ++ [x])).
    rewrite app_assoc, removelast_last. exact IH. }
  apply go_real. exact R.
Qed.

Lemma rel_elems_plain base targ : Forall real_name targ -> ns targ -> Forall plain_elem (rel_elems base targ) /\ ns (rel_elems base targ).
Proof.
  intros R N. destruct (rel_elems_spec base targ) as (com & b & t & _ & Et & -> & _).
  rewrite Et in R, N. apply Forall_app in R as [_ R]. apply Forall_app in N as [_ N].
  split; apply Forall_app; split.
  - apply Forall_forall. intros x Hx. apply repeat_spec in Hx as ->. split; discriminate.
  - apply Forall_forall. intros x Hx. rewrite Forall_forall in R. destruct (R x Hx) as (R1 & R2 & _). split; assumption.
  - apply Forall_forall. intros x Hx. apply repeat_spec in Hx as ->. intros H. cbn in H. intuition discriminate.
  - exact N.
Qed.

(** A path made relative is relative, and leads back. *)
Lemma rel_of_ok root base m : clean_elems base = clean_elems root ->
  is_abs (rel_of base m) = false /\ target root (rel_of base m) = clean_elems m.
Proof.
  intros Eb. assert (is_abs (rel_of base m) = false /\
    go (clean_elems base) (split_on slash (rel_of base m)) = clean_elems m) as [A E].
  { unfold rel_of, rel. pose proof (go_base_rel (clean_elems base) (clean_elems m) (place_real m)) as G.
    destruct (rel_elems_plain (clean_elems base) (clean_elems m) (place_real m) (place_ns m)) as [P N].
    destruct (rel_elems (clean_elems base) (clean_elems m)) as [|e l].
    - split; [reflexivity|]. exact G.
    - inversion P as [|? ? [P1 _] _]; subst. inversion N; subst. split; [apply join_not_abs; assumption|].
      rewrite split_unique by (auto; discriminate). exact G. }
  split; [exact A|]. rewrite target_rel by exact A. rewrite <- Eb. exact E.
Qed.

(** The directory of a file. *)
Lemma dir_of_file es n : Forall real_name es -> ns es -> ~ In slash n -> dir_of (abs_of (es ++ [n])) = abs_of es.
Proof.
  intros R N Nn. unfold dir_of, abs_of.
  change (slash :: join_with [slash] (es ++ [n])) with ([] ++ [slash] ++ join_with [slash] (es ++ [n])).
  rewrite split_app, split_unique; [|destruct es; discriminate|apply Forall_app; split; auto].
  change (split_on slash []) with [@nil ascii]. rewrite app_assoc, removelast_last.
  destruct es as [|e es]; [reflexivity|].
  change (([[]] ++ e :: es) ++ [[]]) with ([] :: (e :: es) ++ [[]]).
  assert (join_with [slash] ([] :: (e :: es) ++ [[]]) = abs_of (e :: es) ++ [slash] ++ []) as ->.
  { rewrite join_cons by discriminate. unfold abs_of. cbn [app]. f_equal. clear R N. revert e.
    induction es as [|x es IH]; intros e; [cbn; reflexivity|].
    cbn [app]. rewrite (join_cons _ e (x :: es ++ [[]])) by discriminate. rewrite (join_cons _ e (x :: es)) by discriminate.
    change (x :: es ++ [[]]) with ((x :: es) ++ [[]]). cbn [app] in IH. cbn [app]. rewrite IH. rewrite <- app_assoc. reflexivity. }
  rewrite clean_abs by reflexivity. rewrite place_app, place_text by assumption. reflexivity.
Qed.

Lemma work_dir root : is_abs root = true -> dir_of (join2 root (B "go.work")) = abs_of (clean_elems root).
Proof.
  intros A. rewrite join2_abs by exact A.
  change (go (clean_elems root) (split_on slash (B "go.work"))) with (clean_elems root ++ [B "go.work"]).
  apply dir_of_file; [apply place_real|apply place_ns|]. intros H. cbn in H. intuition discriminate.
Qed.

Lemma dots_spec raw pre : dots_prefix raw = Some pre <-> tree_entry raw pre.
Proof.
  unfold dots_prefix, tree_entry. split.
  - destruct (beq_spec (skipn (length raw - 3) raw) (B "...")) as [E|]; [|discriminate].
    intros [= <-]. rewrite <- E. symmetry. apply firstn_skipn.
  - intros ->. rewrite app_length. change (length (B "...")) with 3%nat. replace (length pre + 3 - 3)%nat with (length pre) by lia.
    rewrite skipn_app, skipn_all, Nat.sub_diag. cbn [app skipn]. change (skipn 0 (B "...")) with (B "...").
    destruct (beq_spec (B "...") (B "...")); [|congruence]. rewrite firstn_app, firstn_all, Nat.sub_diag. cbn [firstn]. rewrite app_nil_r. reflexivity.
Qed.
Lemma dots_none raw : dots_prefix raw = None <-> forall pre, ~ tree_entry raw pre.
Proof.
  split.
  - intros E pre H. apply dots_spec in H. congruence.
  - intros H. destruct (dots_prefix raw) as [pre|] eqn:E; [|reflexivity]. apply dots_spec in E. exfalso; exact (H pre E).
Qed.
Lemma meta_spec raw : has_meta raw = true <-> with_meta raw.
Proof.
  unfold has_meta, with_meta. rewrite existsb_exists. split; intros (c & H & K); exists c; (split; [exact H|]).
  - apply existsb_exists in K as (d & Hd & E). destruct (ascii_dec c d) as [->|]; [exact Hd|discriminate].
  - apply existsb_exists. exists c. split; [exact K|]. destruct (ascii_dec c c); congruence.
Qed.
Lemma meta_false raw : has_meta raw = false <-> ~ with_meta raw.
Proof. rewrite <- meta_spec. destruct (has_meta raw); split; congruence. Qed.

Lemma rel_prefix pre r : is_abs (pre ++ r) = false -> is_abs pre = false.
Proof. destruct pre; [reflexivity|]. exact (fun H => H). Qed.

Lemma join2_target root b : is_abs root = true -> is_abs b = false -> join2 (abs_of (clean_elems root)) b = text_of (target root b).
Proof.
  intros A Ab. rewrite join2_abs by reflexivity. rewrite place_text by (apply place_real || apply place_ns).
  rewrite target_rel by exact Ab. reflexivity.
Qed.

Section Entries.
Variables (stat_ok is_dir : bytes -> bool) (glob walk : bytes -> option (list bytes)).
Hypothesis GA : absolute_answers glob.
Hypothesis WA : absolute_answers walk.
Variable root : bytes.
Hypothesis RA : is_abs root = true.
Let wd := abs_of (clean_elems root).

Lemma wd_place : clean_elems wd = clean_elems root.
Proof. apply place_text; [apply place_real|apply place_ns]. Qed.

Lemma wd_join b : is_abs b = false -> join2 wd b = text_of (target root b).
Proof. apply join2_target. exact RA. Qed.

Lemma entry_spec raw : (forall pre, tree_entry raw pre -> is_abs raw = false) ->
  match entry stat_ok is_dir glob walk wd raw with
  | Some l => forall es, (exists p, In p l /\ target root p = es) <-> designates stat_ok is_dir glob walk root raw es
  | None => unreadable glob walk root raw
  end.
Proof.
  intros NT. unfold entry. destruct (dots_prefix raw) as [pre|] eqn:Ed.
  - apply dots_spec in Ed. pose proof (NT pre Ed) as Ar. rewrite Ar.
    assert (is_abs pre = false) as Ap by (apply (rel_prefix pre (B "...")); rewrite <- Ed; exact Ar).
    unfold walk_dots. rewrite wd_join by assumption.
    destruct (walk (text_of (target root pre))) as [ds|] eqn:Ew.
    + intros es. split.
      * intros (d & Hd & <-). apply filter_In in Hd as [Hd Hs].
        assert (is_abs d = true) as Ad by (apply (WA _ _ _ (eq_refl : is_abs (text_of (target root pre)) = true) Ew Hd)).
        rewrite join2_abs in Hs by exact Ad. rewrite go_mod_elem in Hs. rewrite target_abs by exact Ad.
        apply (des_tree _ _ _ _ _ _ _ pre (target root pre) ds d Ed); auto; apply leads_clean; reflexivity.
      * intros D. destruct D as [H _ _|? ? ? H _ _ _ _ _ _|pre' s ds' d Hp Hl Hw Hd Hes Hs].
        -- exfalso; exact (H pre Ed).
        -- exfalso; exact (H pre Ed).
        -- assert (pre' = pre) as -> by (unfold tree_entry in *; rewrite Ed in Hp; apply app_inv_tail in Hp; auto).
           apply target_leads in Hl. subst s. assert (ds' = ds) as -> by congruence.
           assert (is_abs d = true) as Ad by (apply (WA _ _ _ (eq_refl : is_abs (text_of (target root pre)) = true) Ew Hd)).
           exists d. apply leads_clean in Hes. subst es. split; [|apply target_abs; exact Ad].
           apply filter_In. split; [exact Hd|]. rewrite join2_abs by exact Ad. exact Hs.
    + apply (unr_tree _ _ _ _ pre (target root pre)); auto. apply leads_clean; reflexivity.
  - rewrite dots_none in Ed. destruct (has_meta raw) eqn:Em.
    + apply meta_spec in Em. destruct (is_abs raw) eqn:Ar.
      * destruct (glob raw) as [ms|] eqn:Eg.
        -- intros es. split.
           ++ intros (m & Hm & <-). apply filter_In in Hm as [Hm Hd]. pose proof (GA _ _ _ Ar Eg Hm) as Am.
              rewrite target_abs by exact Am. apply (des_glob _ _ _ _ _ _ _ raw ms m); auto; apply leads_clean; reflexivity.
           ++ intros D. destruct D as [_ H _|at_ ms' m _ _ [[<- _]|[H _]] Hg Hm Hd Hl|pre s ds d Hp _ _ _ _ _];
                [exfalso; exact (H Em)| |congruence|exfalso; exact (Ed _ Hp)].
              assert (ms' = ms) as -> by congruence. pose proof (GA _ _ _ Ar Eg Hm) as Am.
              exists m. split; [apply filter_In; auto|]. rewrite target_abs by exact Am. symmetry. apply leads_clean. exact Hl.
        -- apply (unr_glob _ _ _ _ raw); auto.
      * rewrite wd_join by assumption.
        destruct (glob (text_of (target root raw))) as [ms|] eqn:Eg.
        -- intros es. split.
           ++ intros (q & Hq & <-). apply in_map_iff in Hq as (m & <- & Hm). apply filter_In in Hm as [Hm Hd].
              destruct (rel_of_ok root wd m wd_place) as [_ ->].
              apply (des_glob _ _ _ _ _ _ _ (text_of (target root raw)) ms m); auto.
              ** right. split; [exact Ar|]. exists (target root raw). split; [apply leads_clean|]; reflexivity.
              ** apply leads_clean; reflexivity.
           ++ intros D. destruct D as [_ H _|at_ ms' m _ _ [[_ H]|[_ (s & Hs & ->)]] Hg Hm Hd Hl|pre s ds d Hp _ _ _ _ _];
                [exfalso; exact (H Em)|congruence| |exfalso; exact (Ed _ Hp)].
              apply target_leads in Hs. subst s. assert (ms' = ms) as -> by congruence.
              exists (rel_of wd m). destruct (rel_of_ok root wd m wd_place) as [_ E].
              split; [apply in_map, filter_In; auto|]. rewrite E. symmetry. apply leads_clean. exact Hl.
        -- apply (unr_glob _ _ _ _ (text_of (target root raw))); auto. right. split; [exact Ar|].
           exists (target root raw). split; [apply leads_clean|]; reflexivity.
    + apply meta_false in Em. assert (forall es, designates stat_ok is_dir glob walk root raw es <-> es = target root raw) as D.
      { intros es. split.
        - intros D. destruct D as [_ _ H|? ? ? _ H _ _ _ _ _|pre ? ? ? Hp _ _ _ _ _];
            [apply target_leads; exact H|exfalso; exact (Em H)|exfalso; exact (Ed _ Hp)].
        - intros ->. apply des_plain; auto. apply target_leads. reflexivity. }
      destruct (is_abs raw) eqn:Ar; intros es; rewrite D; split.
      * intros (p & [<-|[]] & <-). reflexivity.
      * intros ->. exists raw. split; [left|]; reflexivity.
      * intros (p & [<-|[]] & <-). destruct (rel_of_ok root wd (join2 wd raw) wd_place) as [_ ->].
        rewrite wd_join by assumption. apply place_text; [apply place_real|apply place_ns].
      * intros ->. exists (rel_of wd (join2 wd raw)). split; [left; reflexivity|].
        destruct (rel_of_ok root wd (join2 wd raw) wd_place) as [_ ->].
        rewrite wd_join by assumption. apply place_text; [apply place_real|apply place_ns].
Qed.

Lemma entries_spec raws : trees_relative raws ->
  match entries stat_ok is_dir glob walk wd raws with
  | Some l => (forall es, (exists p, In p l /\ target root p = es) <-> exists raw, In raw raws /\ designates stat_ok is_dir glob walk root raw es) /\
      (forall raw, In raw raws -> ~ unreadable glob walk root raw)
  | None => exists raw, In raw raws /\ unreadable glob walk root raw
  end.
Proof.
  induction raws as [|r raws IH]; intros T; cbn [entries].
  - split; [|intros ? []]. intros es. split; [intros (p & [] & _)|intros (p & [] & _)].
  - assert (trees_relative raws) as T' by (intros x pre Hx; apply T; right; exact Hx). specialize (IH T').
    pose proof (entry_spec r (fun pre => T r pre (or_introl eq_refl))) as E.
    assert (entry stat_ok is_dir glob walk wd r <> None -> ~ unreadable glob walk root r) as NU.
    { clear IH. intros N U. apply N. unfold entry. destruct U as [at_ H1 H2 H3 H4|pre s H1 H2 H3].
      - apply dots_none in H1. apply meta_spec in H2. rewrite H1, H2. destruct H3 as [[-> ->]|[Ar (s & Hs & ->)]].
        + rewrite H4. reflexivity.
        + rewrite Ar. rewrite wd_join by assumption. apply target_leads in Hs. subst s. rewrite H4. reflexivity.
      - pose proof (T r pre (or_introl eq_refl) H1) as Ar. rewrite Ar. pose proof H1 as H1'. apply dots_spec in H1. rewrite H1.
        unfold walk_dots. rewrite wd_join; [|apply (rel_prefix pre (B "...")); rewrite <- H1'; exact Ar].
        apply target_leads in H2. subst s. rewrite H3. reflexivity. }
    destruct (entry stat_ok is_dir glob walk wd r) as [a|]; [|exists r; split; [left; reflexivity|exact E]].
    destruct (entries stat_ok is_dir glob walk wd raws) as [b|].
    + destruct IH as [IH U]. split.
      * intros es. split.
        -- intros (p & Hp & Ep). apply in_app_iff in Hp as [Hp|Hp].
           ++ exists r. split; [left; reflexivity|]. apply E. exists p; auto.
           ++ destruct (proj1 (IH es) (ex_intro _ p (conj Hp Ep))) as (raw & Hr & D). exists raw. split; [right; exact Hr|exact D].
        -- intros (raw & [<-|Hr] & D).
           ++ apply E in D as (p & Hp & Ep). exists p. split; [apply in_app_iff; auto|exact Ep].
           ++ destruct (proj2 (IH es) (ex_intro _ raw (conj Hr D))) as (p & Hp & Ep). exists p. split; [apply in_app_iff; auto|exact Ep].
      * intros raw [<-|Hr]; [apply NU; discriminate|apply U; exact Hr].
    + destruct IH as (raw & Hr & U). exists raw. split; [right; exact Hr|exact U].
Qed.
End Entries.

Lemma as_set_in l x : In x (as_set l) <-> In x l.
Proof. unfold as_set. rewrite bsort_in. apply nodup_In. Qed.
Lemma as_set_sorted l : bsorted (as_set l) /\ NoDup (as_set l).
Proof. split; [apply bsort_sorted|apply bsort_nodup, NoDup_nodup]. Qed.

(** Patterns. *)
Lemma rel_fold_dots es : fold_left rel_step (es ++ [B "..."]) [] = fold_left rel_step es [] ++ [B "..."].
Proof. rewrite fold_left_app. reflexivity. Qed.

Lemma join_app_last es x : es <> [] -> join_with [slash] (es ++ [x]) = join_with [slash] es ++ [slash] ++ x.
Proof.
  induction es as [|e es IH]; intros N; [congruence|]. destruct es as [|e' es]; [reflexivity|].
  cbn [app] in *. rewrite (join_cons _ e (e' :: es ++ [x])) by discriminate. rewrite (join_cons _ e (e' :: es)) by discriminate.
  rewrite IH by discriminate. rewrite <- !app_assoc. reflexivity.
Qed.

Lemma tree_rel root r : is_abs r = false -> names_tree root (B "./" ++ join2 r (B "...")) (target root r).
Proof.
  intros A. set (L := fold_left rel_step (split_on slash r) []).
  assert (join2 r (B "...") = join_with [slash] (L ++ [B "..."])) as ->.
  { unfold join2, join_parts. cbn [filter]. change (beq (B "...") []) with false. cbn [negb].
    destruct (beq_spec r []) as [E|Nr]; cbn [negb].
    - subst r. reflexivity.
    - cbn [join_with]. unfold clean.
      assert (is_abs (r ++ [slash] ++ B "...") = false) as -> by (destruct r; [congruence|exact A]).
      rewrite split_app. change (split_on slash (B "...")) with [B "..."]. rewrite rel_fold_dots. fold L.
      destruct L; reflexivity. }
  destruct (rel_fold_ok (clean_elems root) (split_on slash r) [] (Forall_nil _)) as [_ G]. fold L in G.
  assert (ns L) as N by (apply rel_fold_ns; [apply split_ns|constructor]).
  change (go (go (clean_elems root) []) (split_on slash r)) with (go (clean_elems root) (split_on slash r)) in G.
  rewrite <- target_rel in G by exact A.
  destruct L as [|e l] eqn:EL.
  - exists (B "."). split; [reflexivity|]. split; [|left; eexists; reflexivity].
    apply target_leads. rewrite <- G. rewrite target_rel by reflexivity. reflexivity.
  - rewrite join_app_last by discriminate. exists (B "./" ++ join_with [slash] (e :: l)).
    split; [rewrite <- !app_assoc; reflexivity|]. split; [|left; eexists; reflexivity].
    apply target_leads. rewrite <- G. rewrite target_rel by reflexivity.
    change ((B "./" ++ join_with [slash] (e :: l)) ++ B "/") with ((B "." ++ [slash] ++ join_with [slash] (e :: l)) ++ [slash] ++ []).
    rewrite !split_app. rewrite split_unique by (auto; discriminate). unfold go. rewrite !fold_left_app. reflexivity.
Qed.

Lemma tree_abs root d : is_abs d = true -> names_tree root (join2 d (B "...")) (clean_elems d).
Proof.
  intros A. rewrite join2_abs by exact A. change (split_on slash (B "...")) with [B "..."].
  change (go (clean_elems d) [B "..."]) with (clean_elems d ++ [B "..."]).
  pose proof (place_real d) as R. pose proof (place_ns d) as N. set (es := clean_elems d) in *. clearbody es.
  destruct es as [|e es].
  - exists []. split; [reflexivity|]. split; [|right; eexists; reflexivity]. apply target_leads. reflexivity.
  - exists (abs_of (e :: es)). split; [unfold abs_of; rewrite join_app_last by discriminate; reflexivity|].
    split; [|right; eexists; reflexivity]. apply target_leads. rewrite target_abs by reflexivity.
    change (abs_of (e :: es) ++ B "/") with (abs_of (e :: es) ++ [slash] ++ []). rewrite place_app, place_text by assumption. reflexivity.
Qed.

Lemma names_tree_unique root pat es es' : names_tree root pat es -> names_tree root pat es' -> es = es'.
Proof.
  intros (b & E & L & _) (b' & E' & L' & _). rewrite E in E'. apply app_inv_tail in E'. subst b'.
  apply leads_clean in L, L'. congruence.
Qed.

Lemma pattern_tree root es : Forall real_name es -> ns es ->
  names_tree root (pattern root (abs_of (es ++ [B "go.mod"]))) es.
Proof.
  intros R N. unfold pattern. rewrite dir_of_file; [|exact R|exact N|intros H; cbn in H; intuition discriminate].
  destruct (rel_of_ok root root (abs_of es) eq_refl) as [Ar Er]. rewrite place_text in Er by assumption.
  destruct (beq_spec (clean (abs_of es)) (clean root)) as [E|_].
  - rewrite clean_abs in E by reflexivity. rewrite place_text in E by assumption.
    assert (is_abs root = true) as A.
    { destruct (is_abs root) eqn:A; [reflexivity|]. destruct (clean_rel root [] A) as [A' _]. rewrite <- E in A'. discriminate. }
    rewrite clean_abs in E by exact A. assert (clean_elems (abs_of es) = clean_elems (abs_of (clean_elems root))) as E2 by congruence.
    rewrite !place_text in E2 by (assumption || apply place_real || apply place_ns). rewrite E2.
    change (B "./...") with (B "./" ++ join2 (B ".") (B "...")).
    replace (clean_elems root) with (target root (B ".")) by (rewrite target_rel by reflexivity; reflexivity).
    apply tree_rel. reflexivity.
  - destruct (negb (has_prefix (B "..") (rel_of root (abs_of es)))).
    + rewrite <- Er at 2. apply tree_rel. exact Ar.
    + rewrite <- (place_text es) at 2 by assumption. apply tree_abs. reflexivity.
Qed.
