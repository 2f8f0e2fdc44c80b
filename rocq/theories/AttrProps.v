(** Property C85: what a program does in a function is recorded for that function. *)
From Coq Require Import Permutation.
From Verif Require Import Base Maps BatchModel BatchProps ModifierModel PointIdProps TypesModel StableModel StableProps MonitorModel MonitorProps AttrModel AttrSpec AttrProofs.

Section C85.
Variable P M : Type.
Variable peq : forall a b : P, {a = b} + {a <> b}.
Variable meq : forall a b : M, {a = b} + {a <> b}.
Variable pfile : P -> bytes. Variable mfile : M -> bytes. Variable pident : P -> bytes. Variable mident : M -> bytes.
Variable ppanics : P -> bool. Variable mpanics : M -> bool.
Variable inject_returns : P -> inj (list N). Variable inject_panic : P -> inj N. Variable inject_entry : M -> inj N. Variable inject_mpanic : M -> inj N.
Variable dir : bytes -> bytes. Variable client_ok commit_ok : bytes -> bool.
Notation rdrawn := (returns_drawn P M peq meq ppanics mpanics inject_returns inject_panic inject_entry inject_mpanic).
Notation iall := (inject_all P M pfile mfile pident mident ppanics mpanics inject_returns inject_panic inject_entry inject_mpanic dir client_ok commit_ok).
Notation drawn := (drawn P M peq meq).
Notation drawn_for := (drawn_for P M).
Notation sends who evs ps ms pre post := (sends P M who (ids evs) ps ms pre post).

(** The functions of both lists are different and sorted by file; the ids come from one counter used by [n] goroutines, and the hooks give maps of
    ids they drew; the injection succeeded. *)
Definition injected (ps : list P) (ms : list M) (who : nat -> owner P M) (evs : list pevent) (pre post : hook) (t : tables) : Prop :=
  NoDup ps /\ NoDup ms /\ by_file P pfile ps /\ by_file M mfile ms /\
  (exists n s, pexec (p_init n) evs s) /\ rdrawn who (ids evs) /\
  NoDup (map fst (hook_map pre)) /\ NoDup (map fst (hook_map post)) /\ (forall id k, In (id, k) (hook_map pre ++ hook_map post) -> drawn_for who (ids evs) id WHook) /\
  exists order morder, Permutation order (fst (batch_run P pfile dir ps)) /\ Permutation morder (fst (batch_run M mfile dir ms)) /\
    iall ps ms order morder pre post = Some t.

Lemma injected_tables ps ms who evs pre post t : injected ps ms who evs pre post t -> NoDup (ids evs) /\ forall id x,
    (lookup_point (t_state t) id = Some x <-> exists f, In f ps /\ In id (drawn who 0 (ids evs) (WReturn f)) /\ x = pident f) /\
    (lookup_point (t_panic t) id = Some x <-> exists f, In f ps /\ In id (drawn who 0 (ids evs) (WPanic f)) /\ x = pident f) /\
    (lookup_point (t_entry t) id = Some x <-> exists m, In m ms /\ In id (drawn who 0 (ids evs) (WEntry m)) /\ x = mident m) /\
    (lookup_point (t_mpanic t) id = Some x <-> exists m, In m ms /\ In id (drawn who 0 (ids evs) (WModPanic m)) /\ x = mident m).
Proof.
  intros (Np & Nm & Bp & Bm & (n & s & Ex) & D & _ & _ & _ & order & morder & Op & Om & E).
  pose proof (C31_ids_consecutive n evs s Ex) as (_ & Nl & _). split; [exact Nl|]. apply (tables_known P M peq meq pfile mfile pident mident ppanics mpanics inject_returns inject_panic inject_entry inject_mpanic dir client_ok commit_ok who (ids evs) ps ms order morder pre post t); assumption.
Qed.

Lemma injected_hooks ps ms who evs pre post t : injected ps ms who evs pre post t -> forall id k,
  (lookup_point (t_hook t) id = Some k <-> hooked_for pre post id k) /\ (lookup_point (t_hook t) id = Some k -> In id (drawn who 0 (ids evs) WHook)).
Proof.
  intros (_ & _ & _ & _ & _ & _ & N1 & N2 & Hd & order & morder & _ & _ & E) id k.
  pose proof (hooks_known P M pfile mfile pident mident ppanics mpanics inject_returns inject_panic inject_entry inject_mpanic dir client_ok commit_ok ps ms order morder pre post t N1 N2 E id k) as H.
  split; [exact H|]. intros L. apply drawn_spec. apply (Hd id k). apply in_or_app. apply H in L as [L|[_ L]]; auto.
Qed.

(** An id is in at most one of the tables, and there with the identifier of the function it was drawn for. *)
Theorem C85_one_table : forall ps ms who evs pre post t, injected ps ms who evs pre post t -> forall id,
  (length (filter (fun o => match o with Some _ => true | None => false end)
    [lookup_point (t_state t) id; lookup_point (t_panic t) id; lookup_point (t_entry t) id; lookup_point (t_mpanic t) id; lookup_point (t_hook t) id]) <= 1)%nat.
Proof.
  intros ps ms who evs pre post t I id. destruct (injected_tables _ _ _ _ _ _ _ I) as [Nl T].
  assert (forall k, lookup_point (t_hook t) id = Some k -> In id (drawn who 0 (ids evs) WHook)) as Hh.
  { intros k. apply (injected_hooks _ _ _ _ _ _ _ I id k). }
  assert (forall o (w : owner P M -> Prop), (forall x : bytes, o = Some x -> exists v, w v /\ In id (drawn who 0 (ids evs) v)) -> o = None \/ exists v, w v /\ In id (drawn who 0 (ids evs) v)) as C by (intros [x|] w H; [right; exact (H x eq_refl)|left; reflexivity]).
  destruct (C (lookup_point (t_state t) id) (fun v => exists f, v = WReturn f)) as [A1|(v1 & (f1 & ->) & A1)]; [intros x E; apply (T id x) in E as (f & _ & Hi & _); exists (WReturn f); eauto| |];
  (destruct (C (lookup_point (t_panic t) id) (fun v => exists f, v = WPanic f)) as [A2|(v2 & (f2 & ->) & A2)]; [intros x E; apply (T id x) in E as (f & _ & Hi & _); exists (WPanic f); eauto| |]);
  (destruct (C (lookup_point (t_entry t) id) (fun v => exists f, v = WEntry f)) as [A3|(v3 & (f3 & ->) & A3)]; [intros x E; apply (T id x) in E as (f & _ & Hi & _); exists (WEntry f); eauto| |]);
  (destruct (C (lookup_point (t_mpanic t) id) (fun v => exists f, v = WModPanic f)) as [A4|(v4 & (f4 & ->) & A4)]; [intros x E; apply (T id x) in E as (f & _ & Hi & _); exists (WModPanic f); eauto| |]);
  (destruct (C (lookup_point (t_hook t) id) (fun v => v = WHook)) as [A5|(v5 & -> & A5)]; [intros x E; exists WHook; eauto| |]);
  try (exfalso;
    repeat match goal with
    | A : In id (drawn _ _ _ ?v), A' : In id (drawn _ _ _ ?w) |- _ => first [constr_eq v w; fail 1|pose proof (drawn_one P M peq meq who _ Nl 0 v w id A A'); discriminate]
    end; fail);
  repeat match goal with A : lookup_point _ _ = None |- _ => rewrite A; clear A end; cbn;
  repeat match goal with |- context [match ?o with Some _ => _ | None => _ end] => destruct o; cbn end; lia.
Qed.

Section Run.
Variable ps : list P. Variable ms : list M. Variable who : nat -> owner P M. Variable evs : list pevent. Variable pre post : hook. Variable t : tables.
Hypothesis I : injected ps ms who evs pre post t.
Notation send := (sends who evs ps ms pre post).
Notation skey := (storage_key (lookup_point (t_hook t)) (lookup_point (t_state t))).

Lemma hook_owner id k : lookup_point (t_hook t) id = Some k -> In id (drawn who 0 (ids evs) WHook).
Proof. apply (injected_hooks _ _ _ _ _ _ _ I id k). Qed.
Lemma key_return f id : In f ps -> drawn_for who (ids evs) id (WReturn f) -> skey id = Some (false, pident f).
Proof.
  intros Hf Hi. apply (drawn_spec P M peq meq) in Hi. destruct (injected_tables _ _ _ _ _ _ _ I) as [Nl T]. unfold storage_key. destruct (lookup_point (t_hook t) id) as [k|] eqn:E.
  - apply hook_owner in E. pose proof (drawn_one P M peq meq who _ Nl 0 _ _ id Hi E). discriminate.
  - rewrite (proj2 (proj1 (T id (pident f)))); [reflexivity|]. exists f. auto.
Qed.
Lemma key_hook k id : hooked_for pre post id k -> skey id = Some (true, k).
Proof. intros E. apply (injected_hooks _ _ _ _ _ _ _ I id k) in E. unfold storage_key. rewrite E. reflexivity. Qed.
Lemma panic_known f id : In f ps -> drawn_for who (ids evs) id (WPanic f) -> lookup_point (t_panic t) id = Some (pident f).
Proof. intros Hf Hi. apply (drawn_spec P M peq meq) in Hi. destruct (injected_tables _ _ _ _ _ _ _ I) as [Nl T]. apply (T id (pident f)). exists f. auto. Qed.
Lemma mpanic_known m id : In m ms -> drawn_for who (ids evs) id (WModPanic m) -> lookup_point (t_panic t) id = None /\ lookup_point (t_mpanic t) id = Some (mident m).
Proof.
  intros Hf Hi. apply (drawn_spec P M peq meq) in Hi. destruct (injected_tables _ _ _ _ _ _ _ I) as [Nl T]. split; [|apply (T id (mident m)); exists m; auto].
  destruct (lookup_point (t_panic t) id) as [x|] eqn:E; [|reflexivity]. apply (T id x) in E as (f & _ & Hi' & _). pose proof (drawn_one P M peq meq who _ Nl 0 _ _ id Hi Hi'). discriminate.
Qed.

(** Reading messages as what they were sent for. *)
Lemma pick_same b k id fr k' b' : skey id = Some (b', k') -> pick (lookup_point (t_hook t)) (lookup_point (t_state t)) (b, k) id fr = if Bool.eqb b' b && beq k' k then [fr] else [].
Proof. intros E. unfold pick, eqk. rewrite E. reflexivity. Qed.
Lemma sent_returned k es q : Forall2 send es q -> sent (lookup_point (t_hook t)) (lookup_point (t_state t)) (false, k) q = returned P M pident k es.
Proof.
  induction 1 as [|e m es q S _ IH]; [reflexivity|]. unfold sent, returned in *. cbn [flat_map]. rewrite IH. f_equal. destruct S as [f fr id Hf Hi|f x id Hf Hi|m id Hm Hi|m x id Hm Hi|k' fr id Hk]; try reflexivity.
  - rewrite (pick_same _ _ _ _ _ _ (key_return f id Hf Hi)). reflexivity.
  - rewrite (pick_same _ _ _ _ _ _ (key_hook _ _ Hk)). reflexivity.
Qed.
Lemma sent_seen k es q : Forall2 send es q -> sent (lookup_point (t_hook t)) (lookup_point (t_state t)) (true, k) q = seen_at P M k es.
Proof.
  induction 1 as [|e m es q S _ IH]; [reflexivity|]. unfold sent, seen_at in *. cbn [flat_map]. rewrite IH. f_equal. destruct S as [f fr id Hf Hi|f x id Hf Hi|m id Hm Hi|m x id Hm Hi|k' fr id Hk]; try reflexivity.
  - rewrite (pick_same _ _ _ _ _ _ (key_return f id Hf Hi)). reflexivity.
  - rewrite (pick_same _ _ _ _ _ _ (key_hook _ _ Hk)). reflexivity.
Qed.
Lemma sent_counts es q : Forall2 send es q -> lost (lookup_point (t_hook t)) (lookup_point (t_state t)) q = 0%nat /\ known_states (lookup_point (t_hook t)) (lookup_point (t_state t)) q = captures P M es.
Proof.
  induction 1 as [|e m es q S _ [IH1 IH2]]; [split; reflexivity|]. unfold lost, known_states, captures in *. cbn [filter]. destruct S as [f fr id Hf Hi|f x id Hf Hi|m id Hm Hi|m x id Hm Hi|k' fr id Hk]; auto.
  - rewrite (key_return f id Hf Hi). cbn [length]. split; [exact IH1|f_equal; exact IH2].
  - rewrite (key_hook _ _ Hk). cbn [length]. split; [exact IH1|f_equal; exact IH2].
Qed.
Lemma sent_panics k es q : Forall2 send es q -> panics_of (lookup_point (t_panic t)) (fun _ => false) k q = panicked P M pident k es.
Proof.
  induction 1 as [|e m es q S _ IH]; [reflexivity|]. unfold panics_of, panicked in *. cbn [flat_map]. rewrite IH. f_equal. destruct S as [f fr id Hf Hi|f x id Hf Hi|m id Hm Hi|m x id Hm Hi|k' fr id Hk]; try reflexivity.
  - rewrite (panic_known f id Hf Hi). destruct (beq_spec k (pident f)), (beq_spec (pident f) k); congruence.
  - destruct (mpanic_known m id Hm Hi) as [-> _]. reflexivity.
Qed.
Lemma sent_mpanics k es q : Forall2 send es q -> panics_of (lookup_point (t_mpanic t)) (fun id => match lookup_point (t_panic t) id with Some _ => true | None => false end) k q = mod_panicked P M mident k es.
Proof.
  induction 1 as [|e m es q S _ IH]; [reflexivity|]. unfold panics_of, mod_panicked in *. cbn [flat_map]. rewrite IH. f_equal. destruct S as [f fr id Hf Hi|f x id Hf Hi|m id Hm Hi|m x id Hm Hi|k' fr id Hk]; try reflexivity.
  - rewrite (panic_known f id Hf Hi). reflexivity.
  - destruct (mpanic_known m id Hm Hi) as [-> ->]. destruct (beq_spec k (mident m)), (beq_spec (mident m) k); congruence.
Qed.
Lemma forall2_concat progs qs : Forall2 (Forall2 send) progs qs -> Forall2 send (concat progs) (concat qs).
Proof. induction 1; cbn; [constructor|apply Forall2_app; assumption]. Qed.
Lemma forall2_nth_list progs qs c : Forall2 (Forall2 send) progs qs -> Forall2 send (nth c progs []) (nth c qs []).
Proof. intros H. revert c. induction H as [|x y l m H F IH]; intros [|c]; cbn; auto. Qed.
Lemma panics_perm points other k q q' : Permutation q q' -> Permutation (panics_of points other k q) (panics_of points other k q').
Proof. intros H. apply Permutation_flat_map. exact H. Qed.

Variable stripe : bytes -> nat. Variable key : cframe -> bytes. Variable stable : option (bytes -> option (list cframe)).
Notation exec := (monitors t stripe key stable).

(** When all messages of the program are handled, in whatever order: collecting the result does not wait forever; the values a function's returns sent are those
    recorded for its identifier, those of one connection in the order sent, and likewise for hooks and panics; the changed functions reached are
    those that were entered, each counted once. *)
Theorem C85_attributed : forall progs qs ls st, Forall2 (Forall2 send) progs qs -> exec (m_init qs) ls st -> finished st ->
  wait_returns st /\ m_checks st = captures P M (concat progs) /\
  (forall k, let rs := recs (lookup_point (t_hook t)) (lookup_point (t_state t)) (false, k) ls in
     getl k (m_callers st) = record_all key (option_map (fun s => s k) stable) rs /\ Permutation rs (returned P M pident k (concat progs))) /\
  (forall k, Permutation (getl k (m_exts st)) (seen_at P M k (concat progs))) /\
  (forall c k, recs_from (lookup_point (t_hook t)) (lookup_point (t_state t)) c (false, k) ls = returned P M pident k (nth c progs [])) /\
  (forall k, Permutation (getl k (m_ppanics st)) (panicked P M pident k (concat progs))) /\
  (forall k, Permutation (getl k (m_mpanics st)) (mod_panicked P M mident k (concat progs))) /\
  (forall x, In x (changes_reached (lookup_point (t_entry t)) st) <-> exists m, In m (entered P M (concat progs)) /\ mident m = x) /\
  reach_count st = length (nodup meq (entered P M (concat progs))).
Proof.
  intros progs qs ls st S H F. pose proof (forall2_concat _ _ S) as Sc. unfold monitors in H.
  pose proof (C35_everything_accounted _ _ _ _ _ _ _ _ _ _ H F) as (W & Ck & Of & Pr & Ex & Ca & _ & Pp & Mp & Re & Nd).
  pose proof (received_all _ _ _ _ _ _ _ _ _ _ H F) as Rc. destruct (sent_counts _ _ Sc) as [L K]. destruct (injected_tables _ _ _ _ _ _ _ I) as [Nl T].
  assert (forall id, In id (m_reached st) <-> exists m, In m (entered P M (concat progs)) /\ In m ms /\ In id (drawn who 0 (ids evs) (WEntry m))) as Rm.
  { intros id. rewrite Re. assert ((exists q, In q qs /\ In (MPoint id) q) <-> In (MPoint id) (concat qs)) as -> by (rewrite in_concat; firstorder).
    clear - Sc Nl I. induction Sc as [|e m es q S _ IH]; [cbn; split; [intros []|intros (m & [] & _)]|]. cbn [In]. change (entered P M (e :: es)) with ((match e with VEntry m => [m] | _ => [] end) ++ entered P M es).
    setoid_rewrite in_app_iff. rewrite IH. clear IH. split.
    - intros [E|(m' & A & B_)]; [|exists m'; auto]. destruct S as [| |m id' Hm Hi| |]; try discriminate. injection E as ->. exists m. split; [left; left; reflexivity|split; [exact Hm|apply drawn_spec, Hi]].
    - intros (m' & [A|A] & B_ & D); [|right; exists m'; auto]. destruct S as [| |m id' Hm Hi| |]; cbn in A; try (destruct A; fail). destruct A as [->|[]]. left. f_equal. apply (drawn_spec P M peq meq) in Hi.
      destruct I as (_ & _ & _ & _ & _ & (_ & _ & De & _) & _). rewrite De in Hi, D. destruct (inject_entry m'); [|destruct D..]. cbn in Hi, D. destruct Hi as [->|[]], D as [->|[]]. reflexivity. }
  assert (forall m, In m (entered P M (concat progs)) -> In m ms /\ exists id, drawn who 0 (ids evs) (WEntry m) = [id]) as En.
  { intros m A. clear - Sc A I. induction Sc as [|e m' es q S _ IH]; [destruct A|]. change (entered P M (e :: es)) with ((match e with VEntry m => [m] | _ => [] end) ++ entered P M es) in A.
    apply in_app_or in A as [A|A]; [|exact (IH A)]. destruct S as [| |m0 id' Hm Hi| |]; cbn in A; try (destruct A; fail). destruct A as [->|[]]. split; [exact Hm|]. apply (drawn_spec P M peq meq) in Hi.
    destruct I as (_ & _ & _ & _ & _ & (_ & _ & De & _) & _). rewrite De in *. destruct (inject_entry m) as [i| |]; [exists i; reflexivity|destruct Hi..]. }
  split; [unfold wait_returns; rewrite W, L; reflexivity|]. split; [rewrite Ck; exact K|]. split; [|split; [|split; [|split; [|split; [|split]]]]].
  - intros k. cbn zeta. split; [apply Ca|]. rewrite Pr. rewrite (sent_returned k _ _ Sc). reflexivity.
  - intros k. rewrite Ex, Pr, (sent_seen k _ _ Sc). reflexivity.
  - intros c k. rewrite Of. apply sent_returned, forall2_nth_list, S.
  - intros k. rewrite Pp, (panics_perm _ _ _ _ _ Rc), (sent_panics k _ _ Sc). reflexivity.
  - intros k. rewrite Mp, (panics_perm _ _ _ _ _ Rc), (sent_mpanics k _ _ Sc). reflexivity.
  - intros x. unfold changes_reached. rewrite bsort_in, in_flat_map. split.
    + intros (id & Hi & Hx). apply Rm in Hi as (m & A & B_ & D). rewrite (proj2 (proj1 (proj2 (proj2 (T id (mident m)))))) in Hx by (exists m; auto). destruct Hx as [<-|[]]. eauto.
    + intros (m & A & <-). destruct (En m A) as (Hm & id & Ed). exists id. split; [apply Rm; exists m; rewrite Ed; cbn; auto|]. rewrite (proj2 (proj1 (proj2 (proj2 (T id (mident m)))))); [left; reflexivity|]. exists m. rewrite Ed. cbn. auto.
  - unfold reach_count. set (es := nodup meq (entered P M (concat progs))).
    assert (Permutation (m_reached st) (flat_map (fun m => drawn who 0 (ids evs) (WEntry m)) es)) as Pm.
    { apply NoDup_Permutation; [exact Nd| |].
      - apply NoDup_flat_map; [apply NoDup_nodup|intros m _; apply drawn_nodup, Nl|]. intros a b z _ _ Ha Hb. pose proof (drawn_one P M peq meq who _ Nl 0 _ _ z Ha Hb). congruence.
      - intros id. rewrite Rm, in_flat_map. unfold es. split.
        + intros (m & A & _ & D). exists m. rewrite nodup_In. auto.
        + intros (m & A & D). rewrite nodup_In in A. exists m. destruct (En m A). auto. }
    rewrite (Permutation_length Pm). assert (forall m, In m es -> exists id, drawn who 0 (ids evs) (WEntry m) = [id]) as One by (intros m Hm; unfold es in Hm; rewrite nodup_In in Hm; apply (En m Hm)).
    clear - One. induction es as [|m es IH]; [reflexivity|]. cbn [flat_map length]. rewrite app_length, IH by (intros x Hx; apply One; right; exact Hx). destruct (One m (or_introl eq_refl)) as (id & ->). reflexivity.
Qed.
End Run.
End C85.
Print Assumptions C85_one_table.
Print Assumptions C85_attributed.

(** Three project functions in two files, one of which returns in a panic, one without a body; two changed functions; one point of a hook. *)
Definition ex85_pfile (n : nat) : bytes := match n with 0 | 1 => B "a/x.go" | _ => B "b/y.go" end.
Definition ex85_pid (n : nat) : bytes := match n with 0 => B "p:f" | 1 => B "p:g" | _ => B "p:h" end.
Definition ex85_mid (n : nat) : bytes := match n with 0 => B "m:a" | _ => B "m:b" end.
Definition ex85_returns (n : nat) : inj (list N) := match n with 0 => JOk [1; 3]%N | 1 => JOk [4]%N | _ => JNormal end.
Definition ex85_panic (n : nat) : inj N := match n with 0 => JOk 5%N | 1 => JOk 6%N | _ => JNormal end.
Definition ex85_entry (n : nat) : inj N := match n with 0 => JOk 2%N | 1 => JOk 7%N | _ => JNormal end.
Definition ex85_mpanic (n : nat) : inj N := match n with 0 => JOk 8%N | _ => JNormal end.
Definition ex85_who (n : nat) : owner nat nat :=
  match n with 0 | 2 => WReturn 0 | 1 => WEntry 0 | 3 => WReturn 1 | 4 => WPanic 0 | 5 => WPanic 1 | 6 => WEntry 1 | 7 => WModPanic 0 | _ => WHook end.
Definition ex85_evs : list pevent := [PLoad 0; PLoad 1; PGot 0 1; PRetry 1; PLoad 1; PGot 1 2; PLoad 0; PGot 0 3; PLoad 0; PGot 0 4; PLoad 0; PGot 0 5; PLoad 0; PGot 0 6; PLoad 1; PGot 1 7; PLoad 1; PGot 1 8; PLoad 0; PGot 0 9]%N.
Definition ex85_t : tables := Tables [(1, B "p:f"); (3, B "p:f"); (4, B "p:g")]%N [(5, B "p:f"); (6, B "p:g")]%N [(2, B "m:a"); (7, B "m:b")]%N [(8, B "m:a")]%N [(9, B "ext")]%N.
Notation injected85 := (injected nat nat Nat.eq_dec Nat.eq_dec ex85_pfile (fun _ => B "m/z.go") ex85_pid ex85_mid (fun n => Nat.eqb n 2) (fun n => Nat.eqb n 1) ex85_returns ex85_panic ex85_entry ex85_mpanic (fun p => firstn 1 p) (fun _ => true) (fun _ => true)).
Lemma ex85_counter : exists s, pexec (p_init 2) ex85_evs s.
Proof.
  eexists. unfold ex85_evs, p_init. cbn [repeat].
  repeat (eapply px_cons; [first [eapply ps_load; reflexivity|eapply ps_first; reflexivity|eapply ps_got; [reflexivity|discriminate|discriminate]|eapply ps_retry; [reflexivity|left; reflexivity|discriminate]]|cbn [set_nth]; change (wrap32 (2 + 1)) with 3%N; change (wrap32 (3 + 1)) with 4%N; change (wrap32 (4 + 1)) with 5%N; change (wrap32 (5 + 1)) with 6%N; change (wrap32 (6 + 1)) with 7%N; change (wrap32 (7 + 1)) with 8%N; change (wrap32 (8 + 1)) with 9%N; change (wrap32 (9 + 1)) with 10%N]). apply px_nil.
Qed.
Example C85_injected : injected85 [0; 1; 2] [0; 1] ex85_who ex85_evs HNone (HMap (Some [(9%N, B "ext")])) ex85_t.
Proof.
  split; [repeat constructor; cbn; lia|]. split; [repeat constructor; cbn; lia|]. split; [repeat constructor|]. split; [repeat constructor|].
  split; [destruct ex85_counter as (s & E); exists 2, s; exact E|]. split; [|split; [constructor|split; [repeat constructor; intros []|split]]].
  - split; [|split; [|split]]; intros [|[|[|n]]]; reflexivity.
  - intros id k [E|[]]. injection E as <- <-. exists 8. split; reflexivity.
  - exists [[2]; []; [0; 1]], [[0; 1]; []]. split; [|split; [|reflexivity]].
    + cbn. apply Permutation_sym, (perm_trans (l' := [[]; [2]; [0; 1]])); [apply perm_skip, perm_swap|apply perm_swap].
    + cbn. apply perm_swap.
Qed.
Definition ex85_f (n : N) : cframe := CFrame None None n.
(** A program on two connections; what is found recorded. *)
Example C85_example : let progs := [[VReturn 0 (ex85_f 1); VEntry 1; VPanic 1 (B "boom"); VReturn 1 (ex85_f 2)]; [VHook (B "ext") (ex85_f 3); VReturn 0 (ex85_f 4); VEntry 1]] in
  exists qs, Forall2 (Forall2 (sends nat nat ex85_who (ids ex85_evs) [0; 1; 2] [0; 1] HNone (HMap (Some [(9%N, B "ext")])))) progs qs /\
  returned nat nat ex85_pid (B "p:f") (concat progs) = [ex85_f 1; ex85_f 4] /\ panicked nat nat ex85_pid (B "p:g") (concat progs) = [B "boom"] /\
  captures nat nat (concat progs) = 4 /\ length (nodup Nat.eq_dec (entered nat nat (concat progs))) = 1.
Proof.
  cbn zeta. exists [[MState 3 (ex85_f 1); MPoint 7; MPanic 6 (B "boom"); MState 4 (ex85_f 2)]; [MState 9 (ex85_f 3); MState 1 (ex85_f 4); MPoint 7]]%N.
  split; [|repeat split].
  repeat match goal with |- Forall2 _ _ _ => apply Forall2_cons || apply Forall2_nil end; constructor; cbn; auto; try (left; left; reflexivity).
  all: first [exists 0; split; reflexivity|exists 2; split; reflexivity|exists 3; split; reflexivity|exists 5; split; reflexivity|exists 6; split; reflexivity].
Qed.

(** A hook that gives an id of a project function takes that function's values. *)
Theorem C85_hook_takes_values_refuted : forall P M pfile mfile pident mident ppanics mpanics returns panic entry mpanic dir client commit (ps : list P) (ms : list M) order morder pre post t id k,
  NoDup (map fst (hook_map pre)) -> NoDup (map fst (hook_map post)) ->
  inject_all P M pfile mfile pident mident ppanics mpanics returns panic entry mpanic dir client commit ps ms order morder pre post = Some t -> hooked_for pre post id k ->
  storage_key (lookup_point (t_hook t)) (lookup_point (t_state t)) id = Some (true, k).
Proof.
  intros P M pfile mfile pident mident ppanics mpanics returns panic entry mpanic dir client commit ps ms order morder pre post t id k N1 N2 E H.
  apply (hooks_known _ _ _ _ _ _ _ _ _ _ _ _ _ _ _ _ _ _ _ _ _ _ N1 N2 E) in H. unfold storage_key. rewrite H. reflexivity.
Qed.
Print Assumptions C85_hook_takes_values_refuted.
(** The id 3 of a return of f, given by a hook. *)
Example C85_taken_example : exists t,
  inject_all nat nat ex85_pfile (fun _ => B "m/z.go") ex85_pid ex85_mid (fun n => Nat.eqb n 2) (fun n => Nat.eqb n 1) ex85_returns ex85_panic ex85_entry ex85_mpanic (fun p => firstn 1 p) (fun _ => true) (fun _ => true)
    [0; 1; 2] [0; 1] [[0; 1]; [2]] [[0; 1]] (HMap (Some [(3%N, B "mine")])) HNone = Some t /\
  lookup_point (t_state t) 3 = Some (B "p:f") /\ storage_key (lookup_point (t_hook t)) (lookup_point (t_state t)) 3 = Some (true, B "mine").
Proof. eexists. split; [reflexivity|]. split; reflexivity. Qed.
