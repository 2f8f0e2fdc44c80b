(** Property C87: what the comparison reads from the store is what the runs of the tests gave. *)
From Verif Require Import Base Maps StorageModel StorageSpec StorageProofs StorageBadger StorageProps TypesModel TypesSpec TypesProofs TypesCodec TypesProps DecodeProps StableModel StableProps MonitorModel
  CompareModel CompareProps PipeProps TestRunModel TestRunSpec TestRunProofs TestRunProps WireModel ClientModel PipeModel PipeSpec ModifierModel BatchModel AttrModel AttrSpec AttrProps RunsModel RunsProofs RunsProps StoredModel StoredProofs.
From Coq Require Import Permutation.

(** ** Two views, one history each *)
Lemma only_one w (h : list op) : only w (map (pair w) h) = h.
Proof. unfold only. induction h as [|o h IH]; [reflexivity|]. cbn [map filter fst]. rewrite Bool.eqb_reflx. cbn [map snd]. congruence. Qed.
Lemma only_other w (h : list op) : only w (map (pair (negb w)) h) = [].
Proof. unfold only. induction h as [|o h IH]; [reflexivity|]. cbn [map filter fst]. replace (Bool.eqb (negb w) w) with false by (destruct w; reflexivity). exact IH. Qed.
Lemma only_app w a b : only w (a ++ b) = only w a ++ only w b.
Proof. unfold only. rewrite filter_app, map_app. reflexivity. Qed.
Lemma two_then {S} (a b : storage S) h1 h2 s : two_run a b (map (pair left_) h1 ++ map (pair right_) h2) s = run b h2 (run a h1 s).
Proof.
  unfold two_run, run. rewrite fold_left_app.
  assert (forall h s, fold_left (two_step a b) (map (pair left_) h) s = fold_left (StorageModel.step a) h s) as -> by (induction h as [|o h IH]; intros s'; [reflexivity|apply IH]).
  generalize (fold_left (StorageModel.step a) h1 s). induction h2 as [|o h IH]; intros s'; [reflexivity|apply IH].
Qed.
Lemma separate_views : separate (B "pre") (B "post").
Proof. repeat split; try discriminate; intros [r Hr]; cbn in Hr; discriminate Hr. Qed.
Lemma last_write_in k h b : last_write k h = Some b -> In (Save k b) h.
Proof.
  unfold last_write. rewrite (in_rev h). generalize (rev h). intros l. induction l as [|o l IH]; [discriminate|]. destruct o as [k' b'|k'|]; cbn.
  - destruct (bytes_eq_dec k' k) as [->|]; [intros [= ->]; auto|auto].
  - destruct (bytes_eq_dec k' k); [discriminate|auto].
  - discriminate.
Qed.

Section C87.
Variable quote : bytes -> bytes.
Variable unified : bytes -> bytes -> option bytes.
Variable mult : N.
Variable sha1 : bytes -> bytes.
Variable mp : stack -> bytes.
Variable pack : enctr -> bytes.
Variable unpack : bytes -> option enctr.
Variable visit : tresult -> tresult.
Variable fuel : nat.
Notation key := (project_key sha1).
Notation blob := (blob_of sha1 mp pack visit).
Notation load := (load_from unpack fuel).
Notation report pre post := (cmp_result quote unified key mult pre post).

(** A result made of maps, whose hashes do not collide, no deeper than decoding may go, and which msgpack gives back as it was given. *)
Definition storable (r : tresult) : Prop :=
  result_wf r /\ NoDup (mkeys (olist (tr_callers r))) /\ ids_tell_apart sha1 mp r /\ (3 * result_height r + 1 <= fuel)%nat /\
  unpack (blob r) = Some (marshal sha1 mp (visit r) r).

(** What is stored and read back: the same result, made of maps. *)
Theorem C87_read_back : forall r, storable r -> exists r', read_blob unpack fuel (blob r) = Some r' /\ same_result r' r /\ reloaded r r' /\ NoDup (mkeys (olist (tr_callers r'))).
Proof.
  intros r (W & ND & T & F & packed). destruct (C15_saved_results_load_back sha1 mp r (visit r) fuel W T F) as (r' & U & Sm). exists r'.
  unfold read_blob. rewrite packed, U. split; [reflexivity|]. split; [exact Sm|].
  assert (means (marshal sha1 mp (visit r) r) r') as M by (apply C15_decoding_exact; eauto).
  destruct (loaded_wf _ _ (marshal_wf sha1 mp (visit r) r W ND) M) as (A & C & D). split; [|exact C]. split; [apply Sm|]. split; [exact A|].
  intros c. unfold frames_of. destruct (mget c (olist (tr_callers r'))) as [l|] eqn:E; [|constructor]. apply (D c). apply mget_in, E.
Qed.

(** Bytes that are not a stored result. *)
Definition damaged (x : bytes) : Prop := forall t r, unpack x = Some t -> unmarshal fuel t <> DOk r.
(** Whatever is in the store: a test listed after the update whose stored bytes are not a result fails the whole comparison, and so does a store that
    cannot be read; a test that is only there after the update gets an empty report and fails nothing. *)
Theorem C87_damaged : forall {S : Type} (st : storage S) s k, In k (sList (post_view st) [] s) ->
  match compare_views sha1 unpack fuel quote unified mult st s with
  | None => exists n x, In n (sList (post_view st) [] s) /\ (sLoad (pre_view st) n s = x \/ sLoad (post_view st) n s = x) /\
      (x = StorageModel.LErr \/ x = LPanic \/ (exists b, x = LOk (Some b) /\ damaged b) \/ x = LOk None /\ exists b, sLoad (pre_view st) n s = LOk (Some b))
  | Some (_, _, reports) =>
      (forall b, sLoad (pre_view st) k s = LOk (Some b) -> ~ damaged b /\ exists b', sLoad (post_view st) k s = LOk (Some b') /\ ~ damaged b') /\
      sLoad (pre_view st) k s <> StorageModel.LErr /\
      (sLoad (pre_view st) k s = LOk None -> exists i, nth_error (bsort (sList (post_view st) [] s)) i = Some k /\ nth_error reports i = Some treport0)
  end.
Proof.
  intros S st s k I.
  assert (forall x, read_blob unpack fuel x = None <-> damaged x) as D.
  { intros x. unfold read_blob, damaged. destruct (unpack x) as [t|]; [|split; [intros _ t r; discriminate|reflexivity]]. destruct (unmarshal fuel t) as [r| |] eqn:Eu; (split; [intros N t' r' [= <-]; congruence|]); intros N; try reflexivity. destruct (N t r eq_refl Eu). }
  pose proof (C41_all_tests quote unified key mult (sList (pre_view st) [] s) (sList (post_view st) [] s) (load (pre_view st) s) (load (post_view st) s)) as G.
  unfold compare_views. destruct (compare_results _ _ _ _ _ _ _ _) as [[[same diff] reports]|].
  - destruct G as (F & _). assert (In k (bsort (sList (post_view st) [] s))) as I' by (apply bsort_in, I). apply In_nth_error in I' as [i Ei].
    assert (exists rep, nth_error reports i = Some rep /\ match load (pre_view st) s k, load (post_view st) s k with LSome a, LSome b => rep = report a b | LNone, _ => rep = treport0 | _, _ => False end) as (rep & Er & H).
    { clear - F Ei. revert i Ei. induction F as [|n r l l' H F IH]; intros [|i] Ei; cbn in *; try discriminate; [injection Ei as ->; eauto|eauto]. }
    unfold load_from in H. split; [|split].
    + intros b Eb. rewrite Eb in H. destruct (read_blob unpack fuel b) as [r|] eqn:Er1; [|contradiction]. split; [intros N; apply D in N; congruence|]. destruct (sLoad (post_view st) k s) as [[b'|]| |]; try contradiction. destruct (read_blob unpack fuel b') as [r'|] eqn:Er2; [|contradiction]. exists b'. split; [reflexivity|]. intros N. apply D in N. congruence.
    + intros Eb. rewrite Eb in H. exact H.
    + intros Eb. rewrite Eb in H. exists i. split; [exact Ei|congruence].
  - destruct G as (n & In' & H). unfold load_from in H. destruct (sLoad (pre_view st) n s) as [[b|]| |] eqn:Ep.
    + destruct (read_blob unpack fuel b) as [r|] eqn:Er; [|exists n, (LOk (Some b)); split; [exact In'|]; split; [left; exact Ep|]; right; right; left; exists b; split; [reflexivity|apply D, Er]].
      destruct (sLoad (post_view st) n s) as [[b'|]| |] eqn:Eq.
      * destruct (read_blob unpack fuel b') as [r'|] eqn:Er'; [contradiction|]. exists n, (LOk (Some b')). split; [exact In'|]. split; [right; exact Eq|]. right; right; left. exists b'. split; [reflexivity|apply D, Er'].
      * exists n, (LOk None). split; [exact In'|]. split; [right; exact Eq|]. right; right; right. split; [reflexivity|]. exists b. exact Ep.
      * exists n, StorageModel.LErr. split; [exact In'|]. split; [right; exact Eq|]. left. reflexivity.
      * exists n, LPanic. split; [exact In'|]. split; [right; exact Eq|]. right; left. reflexivity.
    + contradiction.
    + exists n, StorageModel.LErr. split; [exact In'|]. split; [left; exact Ep|]. left. reflexivity.
    + exists n, LPanic. split; [exact In'|]. split; [left; exact Ep|]. right; left. reflexivity.
Qed.

Section Store.
Context {S : Type} (st : storage S) (s0 : S) (kok bok : bytes -> Prop).
Hypothesis is_map : map_store st s0 kok bok.
Variable E : Type.
Variable ident : nat -> bytes.
Variable ntests : nat.
Variable servers servers' : list nat.
Hypothesis ND : NoDup servers.
Hypothesis ND' : NoDup servers'.
Hypothesis idents : distinct ntests ident.
Variable tr1 tr2 : list (TestRunModel.event tresult E).
Variable t1 t2 : TestRunModel.state tresult E.
(** The loop before the update, and the one after it, both without an error. *)
Hypothesis X1 : loop_exec sha1 mp pack visit E ident ntests servers false false (loop_init E servers) tr1 = Some t1.
Hypothesis R1 : t_main _ _ t1 = MRet _ None.
Hypothesis X2 : loop_exec sha1 mp pack visit E ident ntests servers' false true (loop_init E servers') tr2 = Some t2.
Hypothesis R2 : t_main _ _ t2 = MRet _ None.
Notation h1 := (history sha1 mp pack visit E ident ntests servers false false (loop_init E servers) tr1).
Notation h2 u := (history sha1 mp pack visit E ident ntests servers' false true (loop_init E servers') u).
(** What is written is for this store. *)
Hypothesis O1 : Forall (op_ok (fun k => kok (B "pre;" ++ k)) bok) h1.
Hypothesis O2 : Forall (op_ok (fun k => kok (B "post;" ++ k)) bok) (h2 tr2).
Notation pre_v := (pre_view st).
Notation post_v := (post_view st).
Notation after u := (run post_v (h2 u) (run pre_v h1 s0)).
(** The second loop reads from the store. *)
Hypothesis reads : forall u i r v, tr2 = u ++ ELoad _ _ i r :: v -> answers E (load pre_v (after u) (ident i)) r.
(** What the two runs before agree on, and the run after. *)
Hypothesis store1 : forall i r1 c1 l1 r2 c2 l2, (i < ntests)%nat -> outs tr1 i = [(r1, c1, l1); (r2, c2, l2)] -> storable (stable_result sha1 r1 r2).
Hypothesis store2 : forall i r c l, (i < ntests)%nat -> outs tr2 i = [(r, c, l)] -> storable r.

Lemma views u v t : tr2 = u ++ v -> loop_exec sha1 mp pack visit E ident ntests servers' false true (loop_init E servers') u = Some t ->
  (forall k, kok (B "pre;" ++ k) -> sLoad pre_v k (after u) = LOk (last_write k h1)) /\ (forall k, kok (B "post;" ++ k) -> sLoad post_v k (after u) = LOk (last_write k (h2 u))) /\
  lists_exactly [] h1 (sList pre_v [] (after u)) /\ lists_exactly [] (h2 u) (sList post_v [] (after u)).
Proof.
  intros Eu Xu. pose proof (C10_views_do_not_interfere S st s0 kok bok (B "pre") (B "post") (map (pair left_) h1 ++ map (pair right_) (h2 u)) is_map separate_views) as V.
  destruct V as [[A C] [D F]].
  - apply Forall_app. split; apply Forall_map.
    + exact O1.
    + assert (Forall (op_ok (fun k => kok (B "post;" ++ k)) bok) (h2 u)) as G; [|exact G]. rewrite Eu in X2. destruct (hist_prefix _ _ _ _ _ _ _ _ _ _ u v _ _ X2) as (h & Eh). rewrite Eu, Eh in O2. apply Forall_app in O2. apply O2.
  - rewrite two_then in *. rewrite !only_app in *. rewrite (only_one left_), (only_one right_), (only_other left_), (only_other right_) in *. cbn [app] in *. rewrite ?app_nil_r in *.
    split; [exact A|]. split; [exact D|]. split; [apply C|apply F].
Qed.
Lemma in_pre i : (i < ntests)%nat -> exists r1 c1 l1 r2 c2 l2, outs tr1 i = [(r1, c1, l1); (r2, c2, l2)] /\ last_write (ident i) h1 = Some (blob (stable_result sha1 r1 r2)).
Proof.
  intros L. destruct (C62_return _ _ _ _ _ _ _ _ _ _ ND X1 R1) as (_ & [A _] & _). destruct (C62_stored _ _ _ _ _ _ _ _ _ i ND idents X1 (A eq_refl i L)) as (r & c & l & Am & G).
  destruct (proj1 (C62_totals _ _ _ _ _ _ _ _ _ ND X1 R1) i L) as [(_ & U & _)|[N _]]; [discriminate|]. inversion Am as [r' c' l' Eo|r1 c1 l1 r2 c2 l2 Eo]; subst; rewrite <- Eo in N; [discriminate|].
  exists r1, c1, l, r2, c2, l2. split; [reflexivity|]. rewrite (hist_store _ _ _ _ _ _ _ _ _ _ _ _ X1). exact G.
Qed.
Lemma key_pre i : (i < ntests)%nat -> kok (B "pre;" ++ ident i).
Proof. intros L. destruct (in_pre i L) as (r1 & c1 & l1 & r2 & c2 & l2 & _ & W). apply last_write_in in W. rewrite Forall_forall in O1. apply (O1 _ W). Qed.
Lemma loads_pre i u v t : tr2 = u ++ v -> loop_exec sha1 mp pack visit E ident ntests servers' false true (loop_init E servers') u = Some t -> (i < ntests)%nat ->
  exists r1 c1 l1 r2 c2 l2 pre, outs tr1 i = [(r1, c1, l1); (r2, c2, l2)] /\ load pre_v (after u) (ident i) = LSome pre /\ read_blob unpack fuel (blob (stable_result sha1 r1 r2)) = Some pre /\
    same_result pre (stable_result sha1 r1 r2) /\ reloaded (stable_result sha1 r1 r2) pre /\ NoDup (mkeys (olist (tr_callers pre))).
Proof.
  intros Eu Xu L. destruct (in_pre i L) as (r1 & c1 & l1 & r2 & c2 & l2 & Eo & W). destruct (views u v t Eu Xu) as (A & _). destruct (C87_read_back _ (store1 _ _ _ _ _ _ _ L Eo)) as (pre & Er & Sm & Re & N).
  exists r1, c1, l1, r2, c2, l2, pre. unfold load_from. rewrite A by (apply key_pre, L). rewrite W, Er. auto 10.
Qed.
Lemma in_post i : (i < ntests)%nat -> exists r c l, outs tr2 i = [(r, c, l)] /\ last_write (ident i) (h2 tr2) = Some (blob r).
Proof.
  intros L. destruct (C62_return _ _ _ _ _ _ _ _ _ _ ND' X2 R2) as (_ & [A _] & _). pose proof (A eq_refl i L) as T. destruct (C62_stored _ _ _ _ _ _ _ _ _ i ND' idents X2 T) as (r & c & l & Am & G).
  destruct (asked_before _ _ _ _ _ _ _ _ _ _ _ _ X2 i T) as (f & I). assert (f = true) as ->.
  { apply in_split in I as (u & v & Eu). pose proof (reads u i (inr f) v Eu) as An.
    assert (exists t, loop_exec sha1 mp pack visit E ident ntests servers' false true (loop_init E servers') u = Some t) as (t & Xu).
    { pose proof X2 as X. rewrite Eu in X. clear - X. unfold loop_exec in *. revert X. generalize (loop_init E servers'). induction u as [|e u IH]; intros x X; [cbn; eauto|]. cbn [app TestRunModel.exec] in *. destruct (TestRunModel.step _ _ _ _ _ _ _ _ _ x e); [apply IH, X|discriminate]. }
    destruct (loads_pre i u _ t Eu Xu L) as (? & ? & ? & ? & ? & ? & pre & _ & El & _). rewrite El in An. cbn in An. congruence. }
  destruct (proj1 (C62_totals _ _ _ _ _ _ _ _ _ ND' X2 R2) i L) as [[N _]|[_ N]]; [|exfalso; apply N; repeat split; exact I]. inversion Am as [r' c' l' Eo|q1 d1 m1 q2 d2 m2 Eo]; subst; rewrite <- Eo in N; [|discriminate].
  exists r, c, l. split; [reflexivity|]. rewrite (hist_store _ _ _ _ _ _ _ _ _ _ _ _ X2). exact G.
Qed.

(** The report of test [i] is the comparison of what was stored of its two runs before with what was stored of its run after. *)
Definition compared (i : nat) (rep : treport) : Prop :=
  exists r1 c1 l1 r2 c2 l2 r3 c3 l3 pre post,
    outs tr1 i = [(r1, c1, l1); (r2, c2, l2)] /\ outs tr2 i = [(r3, c3, l3)] /\
    (forall u r v, tr2 = u ++ ELoad _ _ i r :: v -> load pre_v (after u) (ident i) = LSome pre) /\
    same_result pre (stable_result sha1 r1 r2) /\ reloaded (stable_result sha1 r1 r2) pre /\ same_result post r3 /\ reloaded r3 post /\
    rep = report pre post.

Theorem C87_results_compared : exists same diff reports names,
  compare_views sha1 unpack fuel quote unified mult st (after tr2) = Some (same, diff, reports) /\
  Permutation names (seq 0 ntests) /\ Forall2 compared names reports /\ bsort (map ident names) = map ident names.
Proof.
  destruct (views tr2 [] t2 (eq_sym (app_nil_r _)) X2) as (A & C & _ & D).
  assert (forall k, In k (sList post_v [] (after tr2)) <-> exists i, (i < ntests)%nat /\ k = ident i) as Ks.
  { intros k. destruct D as [_ D]. rewrite D. split.
    - intros [_ N]. rewrite (hist_store _ _ _ _ _ _ _ _ _ _ _ _ X2) in N. exact (store_keys _ _ _ _ _ _ _ _ _ _ _ _ ND' X2 k N).
    - intros (i & L & ->). split; [exists (ident i); reflexivity|]. destruct (in_post i L) as (r & c & l & _ & ->). discriminate. }
  assert (forall i, (i < ntests)%nat -> exists pre post, load pre_v (after tr2) (ident i) = LSome pre /\ load post_v (after tr2) (ident i) = LSome post /\ compared i (report pre post)) as All.
  { intros i L. destruct (loads_pre i tr2 [] t2 (eq_sym (app_nil_r _)) X2 L) as (r1 & c1 & l1 & r2 & c2 & l2 & pre & E1 & El & Er & Sm & Re & _).
    destruct (in_post i L) as (r3 & c3 & l3 & E3 & W). destruct (C87_read_back _ (store2 _ _ _ _ L E3)) as (post & Er' & Sm' & Re' & _). exists pre, post. split; [exact El|].
    split; [unfold load_from; rewrite C; [rewrite W, Er'; reflexivity|]; apply last_write_in in W; rewrite Forall_forall in O2; apply (O2 _ W)|].
    exists r1, c1, l1, r2, c2, l2, r3, c3, l3, pre, post. split; [exact E1|]. split; [exact E3|]. split; [|auto 10].
    intros u r v Eu. assert (exists t, loop_exec sha1 mp pack visit E ident ntests servers' false true (loop_init E servers') u = Some t) as (t & Xu).
    { pose proof X2 as X. rewrite Eu in X. clear - X. unfold loop_exec in *. revert X. generalize (loop_init E servers'). induction u as [|e u IH]; intros x X; [cbn; eauto|]. cbn [app TestRunModel.exec] in *. destruct (TestRunModel.step _ _ _ _ _ _ _ _ _ x e); [apply IH, X|discriminate]. }
    destruct (loads_pre i u _ t Eu Xu L) as (q1 & d1 & m1 & q2 & d2 & m2 & pre' & E1' & El' & Er'' & _). congruence. }
  pose proof (C41_all_tests quote unified key mult (sList pre_v [] (after tr2)) (sList post_v [] (after tr2)) (load pre_v (after tr2)) (load post_v (after tr2))) as G.
  unfold compare_views. destruct (compare_results _ _ _ _ _ _ _ _) as [[[same diff] reports]|].
  - destruct G as (F & _ & _). exists same, diff, reports.
    assert (exists names, map ident names = bsort (sList post_v [] (after tr2)) /\ (forall i, In i names -> (i < ntests)%nat) /\ Forall2 compared names reports) as (names & En & Ln & Fn).
    { assert (forall k, In k (bsort (sList post_v [] (after tr2))) -> exists i, (i < ntests)%nat /\ k = ident i) as Kl by (intros k I; apply Ks, bsort_in, I). revert F Kl. generalize (bsort (sList post_v [] (after tr2))). intros l F Kl.
      induction F as [|k rep l reps H F IH]; [exists []; repeat split; [intros i []|constructor]|]. destruct (Kl k (or_introl eq_refl)) as (i & L & ->). destruct IH as (names & En & Ln & Fn); [intros k' I; apply Kl; right; exact I|].
      destruct (All i L) as (pre & post & E1 & E2 & Cm). rewrite E1, E2 in H. subst rep. exists (i :: names). split; [cbn [map]; congruence|]. split; [intros j [<-|I]; [exact L|apply Ln, I]|constructor; assumption]. }
    exists names. split; [reflexivity|]. split; [|split; [exact Fn|]].
    + apply NoDup_Permutation.
      * apply (NoDup_map_inv ident). rewrite En. apply (Permutation_NoDup (l := sList post_v [] (after tr2))); [symmetry; apply bsort_perm|apply D].
      * apply seq_NoDup.
      * intros i. rewrite in_seq. split; [intros I; specialize (Ln i I); lia|]. intros L. assert (In (ident i) (map ident names)) as I by (rewrite En; apply bsort_in, Ks; exists i; split; [lia|reflexivity]).
        apply in_map_iff in I as (j & Ej & Ij). replace i with j; [exact Ij|]. apply idents; [apply Ln, Ij|lia|exact Ej].
    + rewrite En. apply bsort_unique, bsort_perm.
  - destruct G as (k & I & H). apply Ks in I as (i & L & ->). destruct (All i L) as (pre & post & E1 & E2 & _). rewrite E1, E2 in H. contradiction.
Qed.

(** *** Together with the programs *)
Section Programs.
Variable stripe : bytes -> nat.
Variable a b : program.
Variable nm : nat -> bytes.
Variable progs1 progs2 : nat -> list (list (pev (g_P a) (g_M a))).
Variable progs3 : nat -> list (list (pev (g_P b) (g_M b))).
(** The results come from runs of the program before and of the program after; after, with what was read from the store as the filter. *)
Hypothesis ran1 : forall i r1 c1 l1 r2 c2 l2, (i < ntests)%nat -> outs tr1 i = [(r1, c1, l1); (r2, c2, l2)] ->
  exists run1 run2, r1 = make_result (ident i) (nm i) (fst run1) (snd run1) /\ r2 = make_result (ident i) (nm i) (fst run2) (snd run2) /\
    runs sha1 stripe a None (progs1 i) (fst run1) /\ runs sha1 stripe a None (progs2 i) (fst run2).
Hypothesis ran2 : forall i r c l u x v pre, (i < ntests)%nat -> outs tr2 i = [(r, c, l)] -> tr2 = u ++ ELoad _ _ i x :: v -> load pre_v (after u) (ident i) = LSome pre ->
  exists run3, r = make_result (ident i) (nm i) (fst run3) (snd run3) /\ runs sha1 stripe b (filter_of (Some pre)) (progs3 i) (fst run3).

Theorem C87_tested : exists same diff reports names,
  compare_views sha1 unpack fuel quote unified mult st (after tr2) = Some (same, diff, reports) /\ Permutation names (seq 0 ntests) /\
  Forall2 (fun i rep => exists pre post, tested sha1 stripe a b (progs1 i) (progs2 i) (progs3 i) pre post /\ rep = report pre post /\ tr_ident (rp_orig rep) = ident i /\ tr_ident (rp_post rep) = ident i) names reports.
Proof.
  destruct C87_results_compared as (same & diff & reports & names & Ec & Pm & F & _). exists same, diff, reports, names. split; [exact Ec|]. split; [exact Pm|].
  assert (forall i, In i names -> (i < ntests)%nat) as Ln by (intros i I; apply (Permutation_in _ Pm) in I; apply in_seq in I; lia). clear Ec Pm.
  induction F as [|i rep names reports H F IH]; [constructor|]. constructor; [|apply IH; intros j J; apply Ln; right; exact J]. specialize (Ln i (or_introl eq_refl)). clear IH F.
  destruct H as (r1 & c1 & l1 & r2 & c2 & l2 & r3 & c3 & l3 & pre & post & E1 & E3 & Ld & Sm & Re & Sm' & Re' & ->).
  destruct (ran1 i _ _ _ _ _ _ Ln E1) as (run1 & run2 & -> & -> & G1 & G2).
  destruct (C62_return _ _ _ _ _ _ _ _ _ _ ND' X2 R2) as (_ & [A _] & _). destruct (asked_before _ _ _ _ _ _ _ _ _ _ _ _ X2 i (A eq_refl i Ln)) as (f & I). apply in_split in I as (u & v & Eu).
  pose proof (Ld u _ v Eu) as El. destruct (ran2 i _ _ _ u _ v pre Ln E3 Eu El) as (run3 & -> & G3).
  exists pre, post. split; [|split; [reflexivity|]].
  - exists (ident i), (nm i), run1, run2, run3, run3, false. auto 10.
  - cbn [rp_orig rp_post cmp_result strip tr_ident]. destruct Sm as (-> & _), Sm' as (-> & _). split; reflexivity.
Qed.

(** With values within the limits of recording: everything listed is a change of a value seen in both runs before at calls of the same stack, and after. *)
Variable utf8 : bytes -> bool.
Variable sprint : prim -> bytes.
Variable digest : bytes -> bytes.
Variable trim : bytes -> option bytes.
Variable maxlen : N.
Variable maxrec ufuel : nat.
Hypothesis Ia : instrumented a.
Hypothesis Ib : instrumented b.
Notation limits g := (within_limits utf8 sprint digest trim maxlen maxrec ufuel g).
Notation seen g := (seen utf8 sprint digest trim maxlen maxrec ufuel g).
Notation captured := (captured utf8).
Hypothesis limited : forall i k, (i < ntests)%nat -> limits a k (concat (progs1 i)) /\ limits a k (concat (progs2 i)) /\ limits b k (concat (progs3 i)).
Theorem C87_only_changes : exists same diff reports,
  compare_views sha1 unpack fuel quote unified mult st (after tr2) = Some (same, diff, reports) /\ length reports = ntests /\
  forall rep k l name text, In rep reports -> mget k (olist (rp_fields rep)) = Some l -> mget name l = Some text ->
  exists i x1 x2 x3 fr1 fr2 fr3 ty1 p1 ty2 p2 ty3 p3 t t', (i < ntests)%nat /\ tr_ident (rp_post rep) = ident i /\
    seen a k (concat (progs1 i)) x1 fr1 /\ seen a k (concat (progs2 i)) x2 fr2 /\ seen b k (concat (progs3 i)) x3 fr3 /\ key fr1 = key fr2 /\ key fr1 = key fr3 /\
    captured x1 name ty1 p1 /\ captured x2 name ty2 p2 /\ captured x3 name ty3 p3 /\
    FieldsProps.stored_as digest ty1 (sprint p1) t /\ FieldsProps.stored_as digest ty2 (sprint p2) t /\ FieldsProps.stored_as digest ty3 (sprint p3) t' /\ t <> t' /\ text = diff_values quote unified t t'.
Proof.
  destruct C87_tested as (same & diff & reports & names & Ec & Pm & F). exists same, diff, reports. split; [exact Ec|]. split; [rewrite <- (Forall2_len _ _ _ F), (Permutation_length Pm); apply seq_length|].
  intros rep k l name text I El Et. apply In_nth_error in I as (n & En). destruct (forall2_nth2 _ _ _ _ _ F En) as (i & Ei & pre & post & T & -> & _ & Id).
  assert (i < ntests)%nat as L by (apply nth_error_In in Ei; apply (Permutation_in _ Pm) in Ei; apply in_seq in Ei; lia). destruct (limited i k L) as (W1 & W2 & W3).
  destruct (C86_only_changes utf8 sprint digest trim maxlen maxrec ufuel quote unified mult sha1 stripe a b Ia Ib _ _ _ _ _ T k W1 W2 W3 l name text El Et) as (x1 & x2 & x3 & fr1 & fr2 & fr3 & ty1 & p1 & ty2 & p2 & ty3 & p3 & t & t' & H).
  exists i, x1, x2, x3, fr1, fr2, fr3, ty1, p1, ty2, p2, ty3, p3, t, t'. split; [exact L|]. split; [exact Id|]. exact H.
Qed.
(** Conversely, with one connection per run, every change of a value on which the runs before agreed is listed in the report of its test. *)
Theorem C87_every_change : exists same diff reports,
  compare_views sha1 unpack fuel quote unified mult st (after tr2) = Some (same, diff, reports) /\
  forall n es1 es2 es3 k, (n < ntests)%nat -> progs1 n = [es1] -> progs2 n = [es2] -> progs3 n = [es3] ->
  let ret1 := sort_frames (returned (g_P a) (g_M a) (g_pident a) k es1) in
  let ret2 := sort_frames (returned (g_P a) (g_M a) (g_pident a) k es2) in
  let ret3 := returned (g_P b) (g_M b) (g_pident b) k es3 in
  forall i j m fr1 fr2 fr3 x1 x2 x3 name ty1 p1 ty2 p2 ty3 p3 t t',
    matched key ret1 ret2 i j -> matched key ret1 ret3 i m -> nth_error ret1 i = Some fr1 -> nth_error ret2 j = Some fr2 -> nth_error ret3 m = Some fr3 ->
    seen a k es1 x1 fr1 -> seen a k es2 x2 fr2 -> seen b k es3 x3 fr3 -> captured x1 name ty1 p1 -> captured x2 name ty2 p2 -> captured x3 name ty3 p3 ->
    FieldsProps.stored_as digest ty1 (sprint p1) t -> FieldsProps.stored_as digest ty2 (sprint p2) t -> FieldsProps.stored_as digest ty3 (sprint p3) t' -> t <> t' ->
  exists rep l text, In rep reports /\ tr_ident (rp_post rep) = ident n /\ mget k (olist (rp_fields rep)) = Some l /\ mget name l = Some text /\ text <> [].
Proof.
  destruct C87_tested as (same & diff & reports & names & Ec & Pm & F). exists same, diff, reports. split; [exact Ec|].
  intros n es1 es2 es3 k L Y1 Y2 Y3 ret1 ret2 ret3 i j m fr1 fr2 fr3 x1 x2 x3 name ty1 p1 ty2 p2 ty3 p3 t t' M M' F1 F2 F3 S1 S2 S3 C1 C2 C3 G1 G2 G3 Ne.
  assert (In n names) as I by (apply (Permutation_in _ (Permutation_sym Pm)); apply in_seq; lia). apply In_nth_error in I as (q & Eq). destruct (forall2_nth1 _ _ _ _ _ F Eq) as (rep & Er & pre & post & T & Ep & _ & Id). destruct (limited n k L) as (W1 & W2 & W3).
  destruct (C86_every_change utf8 sprint digest trim maxlen maxrec ufuel quote unified mult sha1 stripe a b Ia Ib _ _ _ _ _ T k W1 W2 W3 es1 es2 es3 Y1 Y2 Y3 i j m fr1 fr2 fr3 x1 x2 x3 name ty1 p1 ty2 p2 ty3 p3 t t' M M' F1 F2 F3 S1 S2 S3 C1 C2 C3 G1 G2 G3 Ne) as (l & text & El & Et & Nt).
  exists rep, l, text. split; [eapply nth_error_In; exact Er|]. split; [exact Id|]. rewrite Ep. auto.
Qed.
End Programs.
End Store.
End C87.
Print Assumptions C87_read_back.
Print Assumptions C87_results_compared.
Print Assumptions C87_damaged.
(** Bytes that cannot be read before the update, and a test that is there only after it. *)
Example C87_damaged_example :
  let st := mem_storage (fun l => l) in
  let view p := key_prefix_storage st p in
  let s1 := sSave (view (B "post")) (B "p.TestA") (B "x") (sSave (view (B "pre")) (B "p.TestA") (B "x") mem_new) in
  let s2 := sSave (view (B "post")) (B "p.TestB") (B "x") mem_new in
  damaged (fun _ => None) 0 (B "x") /\ In (B "p.TestA") (sList (post_view st) [] s1) /\ compare_views (fun b => b) (fun _ => None) 0 (fun b => b) (fun _ _ => None) 2 st s1 = None /\
  In (B "p.TestB") (sList (post_view st) [] s2) /\ compare_views (fun b => b) (fun _ => None) 0 (fun b => b) (fun _ _ => None) 2 st s2 = Some (0%N, 0%N, [treport0]).
Proof. cbv zeta. split; [intros t r; discriminate|]. repeat split; vm_compute; auto. Qed.
Print Assumptions C87_tested.
Print Assumptions C87_only_changes.
Print Assumptions C87_every_change.

(** ** The two stores *)
(** In memory everything is for the store. *)
Theorem C87_in_memory : forall ord (h1 h2 : list op), any_order ord ->
  map_store (mem_storage ord) mem_new (fun _ => True) (fun _ => True) /\ Forall (op_ok (fun _ => True) (fun _ => True)) h1 /\ Forall (op_ok (fun _ => True) (fun _ => True)) h2.
Proof. intros ord h1 h2 H. split; [apply mem_map_store, H|]. split; apply Forall_forall; intros [k b|k|] _; cbn; auto. Qed.
Print Assumptions C87_in_memory.
(** On disk the results must not look like the marker of a split value; every identifier will do. *)
Theorem C87_on_disk : forall limit (h1 h2 : list op), (0 < limit)%N -> (forall k b, In (Save k b) (h1 ++ h2) -> ordinary_blob b) ->
  map_store (bdg_storage limit) [] ordinary_key ordinary_blob /\
  Forall (op_ok (fun k => ordinary_key (B "pre;" ++ k)) ordinary_blob) h1 /\ Forall (op_ok (fun k => ordinary_key (B "post;" ++ k)) ordinary_blob) h2.
Proof.
  intros limit h1 h2 L Hb. split; [apply bdg_map_store, L|].
  assert (forall x, ordinary_key (B "pre;" ++ x) /\ ordinary_key (B "post;" ++ x)) as K by (intros x; split; (split; [discriminate|intros [r Hr]; cbn in Hr; discriminate Hr])).
  split; apply Forall_forall; intros [k b|k|] I; cbn [op_ok]; try exact Logic.I; try (split; [apply K|apply (Hb k b), in_or_app; auto]); apply K.
Qed.
Print Assumptions C87_on_disk.

(** ** Two tests, stored in memory *)
Definition id87 (i : nat) : bytes := match i with 0%nat => B "p.TestA" | _ => B "p.TestB" end.
Definition made87 (i : nat) (stable : option (bytes -> option (list cframe))) (fr : cframe) : tresult := make_result (id87 i) (B "T") (st_after stable fr) false.
Definition one87 (i : nat) : cframe := match i with 0%nat => frame86 5 false 1 | _ => frame86 7 false 2000000 end.
Definition two87 (i : nat) : cframe := match i with 0%nat => frame86 5 true 900000000 | _ => frame86 7 true 3000000 end.
Definition three87 (i : nat) : cframe := match i with 0%nat => frame86 6 true 77000000 | _ => frame86 7 false 4000000 end.
Definition agreed87 (i : nat) : tresult := stable_result ex_sha1 (made87 i None (one87 i)) (made87 i None (two87 i)).
Definition mp87 (s : stack) : bytes := concat (map (fun f => sf_file f ++ B "|" ++ itoa (sf_line f) ++ B "|" ++ sf_func f ++ B "|") (olist s)).
Definition form87 (r : tresult) : enctr := marshal ex_sha1 mp87 r r.
Definition load87 (r : tresult) : tresult := match unmarshal 100 (form87 r) with DOk r' => r' | _ => tresult0 end.
Definition after87 (i : nat) : tresult := made87 i (filter_of (Some (load87 (agreed87 i)))) (three87 i).
Definition pack87 (t : enctr) : bytes := et_ident t ++ concat (map (fun f => B "," ++ itoa (ef_t f)) (concat (map snd (olist (et_callers t))))).
Definition forms87 : list enctr := [form87 (agreed87 0); form87 (agreed87 1); form87 (after87 0); form87 (after87 1)].
Definition unpack87 (b : bytes) : option enctr := find (fun t => beq (pack87 t) b) forms87.
Definition visit87 (r : tresult) : tresult := r.
Definition storable87_b (r : tresult) : bool :=
  forallb (fun cf => fwf_b (FVal [] (cf_fields cf))) (all_frames r) && nodup_keys (olist (tr_callers r)) && ids_checked ex_sha1 mp87 r && (3 * result_height r + 1 <=? 100)%nat.
Lemma all87 : forallb storable87_b [agreed87 0; agreed87 1; after87 0; after87 1] && forallb (fun t => match unpack87 (pack87 t) with Some t' => beq (pack87 t) (pack87 t') | None => false end) forms87 = true.
Proof. vm_compute. reflexivity. Qed.
Lemma unpack_all : map (fun t => unpack87 (pack87 t)) forms87 = map Some forms87.
Proof. vm_compute. reflexivity. Qed.
Notation storable87 := (storable ex_sha1 mp87 pack87 unpack87 visit87 100).
Lemma storable87_ok r : storable87_b r = true -> unpack87 (pack87 (form87 r)) = Some (form87 r) -> storable87 r.
Proof.
  intros H U. unfold storable87_b in H. apply andb_true_iff in H as [H F]. apply andb_true_iff in H as [H I]. apply andb_true_iff in H as [W N].
  split; [apply wf_checked, W|]. split; [apply nodup_keys_ok, N|]. split; [apply ids_checked_ok, I|]. split; [apply Nat.leb_le, F|exact U].
Qed.
Lemma map_some {A} (f : A -> option A) l : map f l = map Some l -> forall x, In x l -> f x = Some x.
Proof. intros H. apply ext_in_map. exact H. Qed.
Lemma storable87_in r : In r [agreed87 0; agreed87 1; after87 0; after87 1] -> In (form87 r) forms87 -> storable87 r.
Proof.
  intros I J. pose proof all87 as H. apply andb_true_iff in H as [H _]. rewrite forallb_forall in H. apply storable87_ok; [exact (H r I)|]. exact (map_some (fun t => unpack87 (pack87 t)) forms87 unpack_all _ J).
Qed.
Lemma stored87 i : (i < 2)%nat -> storable87 (agreed87 i) /\ storable87 (after87 i).
Proof.
  intros L. destruct i as [|[|i]]; [| |lia]; split.
  - exact (storable87_in _ (or_introl eq_refl) (or_introl eq_refl)).
  - exact (storable87_in _ (or_intror (or_intror (or_introl eq_refl))) (or_intror (or_intror (or_introl eq_refl)))).
  - exact (storable87_in _ (or_intror (or_introl eq_refl)) (or_intror (or_introl eq_refl))).
  - exact (storable87_in _ (or_intror (or_intror (or_intror (or_introl eq_refl)))) (or_intror (or_intror (or_intror (or_introl eq_refl))))).
Qed.
(** The tests on servers 7 and 9. *)
Definition ev87 := TestRunModel.event tresult bytes.
Definition before87 (i : nat) : list ev87 :=
  [ETake _ _ i; ELoad _ _ i (inr false); ESet _ _ i None; EExec _ _ i (made87 i None (one87 i), 1%N, []); ESet _ _ i None; EExec _ _ i (made87 i None (two87 i), 1%N, []); ESave _ _ i None; ECommit _ _ i; EPut _ _ i].
Definition then87 (i : nat) : list ev87 := [ETake _ _ i; ELoad _ _ i (inr true); ESet _ _ i None; EExec _ _ i (after87 i, 1%N, []); ESave _ _ i None; ECommit _ _ i; EPut _ _ i].
Definition tr87 (f : nat -> list ev87) : list ev87 := [EStart _ _] ++ f 0%nat ++ [EFirst _ _; EStart _ _] ++ f 1%nat ++ [EWait _ _].
Notation run87 update u := (loop_exec ex_sha1 mp87 pack87 visit87 bytes id87 2 [7; 9]%nat false update (loop_init bytes [7; 9]%nat) u).
Notation hist87 update u := (history ex_sha1 mp87 pack87 visit87 bytes id87 2 [7; 9]%nat false update (loop_init bytes [7; 9]%nat) u).
Notation mem87 := (mem_storage (@rev bytes)).
Notation after_u87 u := ( run (post_view mem87) (hist87 true u) (run (pre_view mem87) (hist87 false (tr87 before87)) mem_new)).
Definition end87 (o : option (TestRunModel.state tresult bytes)) : TestRunModel.state tresult bytes := match o with Some t => t | None => loop_init bytes [7; 9]%nat end.
Lemma ends87 update f : match run87 update (tr87 f) with Some t => match t_main _ _ t with MRet _ None => true | _ => false end | None => false end = true ->
  run87 update (tr87 f) = Some (end87 (run87 update (tr87 f))) /\ t_main _ _ (end87 (run87 update (tr87 f))) = MRet _ None.
Proof. destruct (run87 update (tr87 f)) as [t|]; [|discriminate]. cbn [end87]. destruct (t_main _ _ t) as [| |[e|]]; try discriminate. auto. Qed.
Lemma two_outs (a b r1 r2 : tresult) (c1 c2 : N) (l1 l2 : list bytes) : [(a, 1%N, []); (b, 1%N, [])] = [(r1, c1, l1); (r2, c2, l2)] -> a = r1 /\ b = r2.
Proof. intros [= -> _ _ -> _ _]. auto. Qed.
Lemma one_out (a r : tresult) (c : N) (l : list bytes) : [(a, 1%N, [])] = [(r, c, l)] -> a = r.
Proof. intros [= -> _ _]. auto. Qed.
Lemma outs_before i : (i < 2)%nat -> outs (tr87 before87) i = [(made87 i None (one87 i), 1%N, []); (made87 i None (two87 i), 1%N, [])].
Proof. intros L. destruct i as [|[|i]]; [reflexivity|reflexivity|lia]. Qed.
Lemma outs_then i : (i < 2)%nat -> outs (tr87 then87) i = [(after87 i, 1%N, [])].
Proof. intros L. destruct i as [|[|i]]; [reflexivity|reflexivity|lia]. Qed.
Lemma reads87 : map (fun c => match snd (fst c) with ELoad _ _ i r => Some (load_from unpack87 100 (pre_view mem87) (after_u87 (fst (fst c))) (id87 i)) | _ => None end) (splits (tr87 then87)) =
  map (fun c => match snd (fst c) with ELoad _ _ i r => Some (LSome (load87 (agreed87 i))) | _ => None end) (splits (tr87 then87)).
Proof. vm_compute. reflexivity. Qed.
Lemma said87 : forallb (fun c => match snd (fst c) with ELoad _ _ i (inr true) => (i <? 2)%nat | ELoad _ _ _ _ => false | _ => true end) (splits (tr87 then87)) = true.
Proof. reflexivity. Qed.
Lemma loads87 (l : list ev87) (after : list ev87 -> mem) (ag : nat -> tresult) :
  map (fun c => match snd (fst c) with ELoad _ _ i r => Some (load_from unpack87 100 (pre_view mem87) (after (fst (fst c))) (id87 i)) | _ => None end) (splits l) =
  map (fun c => match snd (fst c) with ELoad _ _ i r => Some (LSome (ag i)) | _ => None end) (splits l) ->
  forall u i r v, l = u ++ ELoad _ _ i r :: v -> load_from unpack87 100 (pre_view mem87) (after u) (id87 i) = LSome (ag i).
Proof. intros H u i r v ->. pose proof (ext_in_map H (u, ELoad _ _ i r, v) (splits_all u _ v)) as E. cbn [fst snd] in E. congruence. Qed.
Lemma loaded87 u i r v : tr87 then87 = u ++ ELoad _ _ i r :: v -> load_from unpack87 100 (pre_view mem87) (after_u87 u) (id87 i) = LSome (load87 (agreed87 i)) /\ r = inr true.
Proof.
  intros H. split; [exact (loads87 (tr87 then87) (fun u => after_u87 u) (fun i => load87 (agreed87 i)) reads87 u i r v H)|].
  pose proof said87 as F. rewrite forallb_forall in F. rewrite H in F. specialize (F _ (splits_all u _ v)). cbn [fst snd] in F. destruct r as [e|[|]]; [discriminate|reflexivity|discriminate].
Qed.
Lemma any_rev : any_order (@rev bytes).
Proof. intros l. apply Permutation_sym, Permutation_rev. Qed.
Lemma ids87 : distinct 2 id87.
Proof. intros [|[|i]] [|[|j]] Li Lj H; try reflexivity; try lia; discriminate H. Qed.
Lemma nodup87 : NoDup [7; 9]%nat.
Proof. repeat constructor; cbn; intuition lia. Qed.
Lemma ends_before : run87 false (tr87 before87) = Some (end87 (run87 false (tr87 before87))) /\ t_main _ _ (end87 (run87 false (tr87 before87))) = MRet _ None.
Proof. apply ends87. vm_compute. reflexivity. Qed.
Lemma ends_then : run87 true (tr87 then87) = Some (end87 (run87 true (tr87 then87))) /\ t_main _ _ (end87 (run87 true (tr87 then87))) = MRet _ None.
Proof. apply ends87. vm_compute. reflexivity. Qed.
Notation view87 := (compare_views ex_sha1 unpack87 100 (fun s => s) (fun _ _ => None) 2 mem87 (after_u87 (tr87 then87))).
Lemma use87 (tr1 tr2 : list ev87) t1 t2 (one two three : nat -> cframe) (pre : nat -> tresult) :
  let after u := run (post_view mem87) (hist87 true u) (run (pre_view mem87) (hist87 false tr1) mem_new) in
  run87 false tr1 = Some t1 -> t_main _ _ t1 = MRet _ None -> run87 true tr2 = Some t2 -> t_main _ _ t2 = MRet _ None ->
  (forall i, (i < 2)%nat -> outs tr1 i = [(made87 i None (one i), 1%N, []); (made87 i None (two i), 1%N, [])]) ->
  (forall i, (i < 2)%nat -> outs tr2 i = [(made87 i (filter_of (Some (pre i))) (three i), 1%N, [])]) ->
  (forall i, (i < 2)%nat -> storable87 (stable_result ex_sha1 (made87 i None (one i)) (made87 i None (two i))) /\ storable87 (made87 i (filter_of (Some (pre i))) (three i))) ->
  (forall u i r v, tr2 = u ++ ELoad _ _ i r :: v -> load_from unpack87 100 (pre_view mem87) (after u) (id87 i) = LSome (pre i) /\ r = inr true) ->
  exists same diff reports names, compare_views ex_sha1 unpack87 100 (fun s => s) (fun _ _ => None) 2 mem87 (after tr2) = Some (same, diff, reports) /\ Permutation names (seq 0 2) /\
    Forall2 (fun i rep => exists pre post, tested ex_sha1 (fun _ => 0%nat) prog86 prog86 (ret86 (one i)) (ret86 (two i)) (ret86 (three i)) pre post /\ rep = cmp_result (fun s => s) (fun _ _ => None) (project_key ex_sha1) 2 pre post /\ tr_ident (rp_orig rep) = id87 i /\ tr_ident (rp_post rep) = id87 i) names reports.
Proof.
  intros after X1 R1 X2 R2 U1 U2 St Ld.
  destruct (C87_in_memory (@rev bytes) (hist87 false tr1) (hist87 true tr2) any_rev) as (Ms & O1 & O2).
  refine (C87_tested (fun s => s) (fun _ _ => None) 2 ex_sha1 mp87 pack87 unpack87 visit87 100 mem87 mem_new (fun _ => True) (fun _ => True) Ms bytes id87 2 [7; 9]%nat [7; 9]%nat nodup87 nodup87 ids87 tr1 tr2 t1 t2 X1 R1 X2 R2 O1 O2 _ _ _
    (fun _ => 0%nat) prog86 prog86 (fun _ => B "T") (fun i => ret86 (one i)) (fun i => ret86 (two i)) (fun i => ret86 (three i)) _ _).
  - intros u i r v Eu. destruct (Ld u i r v Eu) as [El ->]. unfold after in El. rewrite El. reflexivity.
  - intros i r1 c1 l1 r2 c2 l2 L Eo. rewrite (U1 i L) in Eo. destruct (two_outs _ _ _ _ _ _ _ _ Eo) as [<- <-]. exact (proj1 (St i L)).
  - intros i r c l L Eo. rewrite (U2 i L) in Eo. rewrite <- (one_out _ _ _ _ Eo). exact (proj2 (St i L)).
  - intros i r1 c1 l1 r2 c2 l2 L Eo. rewrite (U1 i L) in Eo. destruct (two_outs _ _ _ _ _ _ _ _ Eo) as [<- <-]. exists (st_after None (one i), false), (st_after None (two i), false). split; [reflexivity|]. split; [reflexivity|]. split; apply runs86.
  - intros i r c l u x v pr L Eo Eu El. rewrite (U2 i L) in Eo. rewrite <- (one_out _ _ _ _ Eo). destruct (Ld u i x v Eu) as [El' _]. unfold after in El'. rewrite El' in El. assert (pre i = pr) as <- by congruence.
    exists (st_after (filter_of (Some (pre i))) (three i), false). split; [reflexivity|apply runs86].
Qed.
(** Only the first test's value changed; nothing is said of the time, which differs in all runs. *)
Example C87_example :
  (exists same diff reports names, view87 = Some (same, diff, reports) /\ Permutation names (seq 0 2) /\
    Forall2 (fun i rep => exists pre post, tested ex_sha1 (fun _ => 0%nat) prog86 prog86 (ret86 (one87 i)) (ret86 (two87 i)) (ret86 (three87 i)) pre post /\ rep = cmp_result (fun s => s) (fun _ _ => None) (project_key ex_sha1) 2 pre post /\ tr_ident (rp_orig rep) = id87 i /\ tr_ident (rp_post rep) = id87 i) names reports) /\
  option_map (fun v => map (fun rep => (tr_ident (rp_post rep), map (fun e => (fst e, mkeys (snd e))) (olist (rp_fields rep)))) (snd v)) view87 = Some [(B "p.TestA", [(B "p:f", [B "t.N"])]); (B "p.TestB", [])] /\
  (forall i k, (i < 2)%nat -> limits86 k (concat (ret86 (one87 i))) /\ limits86 k (concat (ret86 (two87 i))) /\ limits86 k (concat (ret86 (three87 i)))).
Proof.
  split; [exact (use87 (tr87 before87) (tr87 then87) _ _ one87 two87 three87 (fun i => load87 (agreed87 i)) (proj1 ends_before) (proj2 ends_before) (proj1 ends_then) (proj2 ends_then) outs_before outs_then stored87 loaded87)|]. split; [vm_compute; reflexivity|].
  intros i k L. destruct i as [|[|i]]; [| |lia]; (split; [|split]); apply limits86_met; (split; [vm_compute; discriminate|vm_compute; reflexivity]).
Qed.

(** A store that was used before, as [SingletonStorageProvider] or a path given twice make possible: nothing clears it, and what an earlier analysis stored is
    reported again, for tests not run now. *)
Definition run_one (update : bool) (u : list ev87) := loop_exec ex_sha1 mp87 pack87 visit87 bytes id87 1 [7]%nat false update (loop_init bytes [7]%nat) u.
Definition hist_one (update : bool) (u : list ev87) := history ex_sha1 mp87 pack87 visit87 bytes id87 1 [7]%nat false update (loop_init bytes [7]%nat) u.
Definition tr_one (f : nat -> list ev87) : list ev87 := [EStart _ _] ++ f 0%nat ++ [EFirst _ _; EWait _ _].
Theorem C87_old_results_refuted : let s0 := after_u87 (tr87 then87) in
  let s := run (post_view mem87) (hist_one true (tr_one then87)) (run (pre_view mem87) (hist_one false (tr_one before87)) s0) in
  option_map (fun t => t_main _ _ t) (run_one false (tr_one before87)) = Some (MRet _ None) /\ option_map (fun t => t_main _ _ t) (run_one true (tr_one then87)) = Some (MRet _ None) /\
  exists same diff reports rep, compare_views ex_sha1 unpack87 100 (fun s => s) (fun _ _ => None) 2 mem87 s = Some (same, diff, reports) /\
    In rep reports /\ forall i, (i < 1)%nat -> tr_ident (rp_post rep) <> id87 i.
Proof.
  cbv zeta. split; [vm_compute; reflexivity|]. split; [vm_compute; reflexivity|].
  assert (match compare_views ex_sha1 unpack87 100 (fun s => s) (fun _ _ => None) 2 mem87 (run (post_view mem87) (hist_one true (tr_one then87)) (run (pre_view mem87) (hist_one false (tr_one before87)) (after_u87 (tr87 then87)))) with Some (_, _, l) => existsb (fun rep => negb (beq (tr_ident (rp_post rep)) (id87 0))) l | None => false end = true) as H by (vm_compute; reflexivity).
  revert H. generalize (compare_views ex_sha1 unpack87 100 (fun s => s) (fun _ _ => None) 2 mem87 (run (post_view mem87) (hist_one true (tr_one then87)) (run (pre_view mem87) (hist_one false (tr_one before87)) (after_u87 (tr87 then87))))).
  intros [[[same diff] reports]|] H; [|discriminate]. apply existsb_exists in H as (rep & I & N). exists same, diff, reports, rep. split; [reflexivity|]. split; [exact I|].
  intros i L. assert (i = 0)%nat as -> by lia. apply negb_true_iff in N. apply beq_false, N.
Qed.
Print Assumptions C87_old_results_refuted.
