(** Property C35: accounting of the monitor's messages. *)

From Coq Require Import Permutation.
From Verif Require Import Base Maps WireModel TypesModel StableModel StableProps MonitorModel.

Lemma set_conn_split l c (x : mconn) : nth_error l c = Some x ->
  exists l1 l2, l = l1 ++ x :: l2 /\ length l1 = c /\ forall y, set_conn c y l = l1 ++ y :: l2.
Proof.
  intros H. apply nth_error_split in H as (l1 & l2 & -> & L). exists l1, l2. split; [reflexivity|]. split; [exact L|].
  intros y. unfold set_conn. rewrite <- L, firstn_app, Nat.sub_diag, firstn_all. cbn [firstn]. rewrite app_nil_r. f_equal. f_equal.
  replace (S (length l1)) with (length l1 + 1)%nat by lia. rewrite skipn_app, skipn_all2 by lia.
  replace (length l1 + 1 - length l1)%nat with 1%nat by lia. reflexivity.
Qed.
Lemma nth_mid {X} (l1 : list X) y l2 c : nth_error (l1 ++ y :: l2) c =
  if Nat.eqb c (length l1) then Some y else nth_error (l1 ++ y :: l2) c.
Proof. destruct (Nat.eqb_spec c (length l1)) as [->|]; [|reflexivity]. rewrite nth_error_app2, Nat.sub_diag by lia. reflexivity. Qed.
Lemma nth_other {X} (l1 : list X) x y l2 c : c <> length l1 -> nth_error (l1 ++ x :: l2) c = nth_error (l1 ++ y :: l2) c.
Proof.
  intros N. destruct (Nat.lt_ge_cases c (length l1)).
  - rewrite !nth_error_app1 by assumption. reflexivity.
  - rewrite !nth_error_app2 by assumption. destruct (c - length l1)%nat eqn:E; [lia|]. reflexivity.
Qed.

Section Mon.
Variable ext_points project_points ppanic_points mpanic_points : N -> option bytes.
Variable stripe : bytes -> nat.
Variable key : cframe -> bytes.
Variable stable : option (bytes -> option (list cframe)).
Notation skey := (storage_key ext_points project_points).
Notation step := (mstep ext_points project_points ppanic_points mpanic_points stripe key stable).
Notation exec := (mexec ext_points project_points ppanic_points mpanic_points stripe key stable).

Lemma exec_snoc_ind st0 (P : list mlabel -> mstate -> Prop) : P [] st0 ->
  (forall ls st l st', exec st0 ls st -> P ls st -> step st l st' -> P (ls ++ [l]) st') ->
  forall ls st, exec st0 ls st -> P ls st.
Proof.
  intros P0 PS. assert (forall ls st l st', exec st ls st' -> forall s2, step st' l s2 -> exec st (ls ++ [l]) s2) as Sn.
  { intros ls st l st' H. induction H as [st|st a st1 ls st2 Hs H IH]; intros s2 H2; cbn.
    - eapply me_cons; [exact H2|constructor].
    - eapply me_cons; [exact Hs|]. apply IH. exact H2. }
  assert (forall ls st1, exec st0 ls st1 -> P ls st1 -> forall ls2 st2, exec st1 ls2 st2 -> P (ls ++ ls2) st2) as G.
  { intros ls st1 H1 Hp ls2 st2 H2. revert ls H1 Hp. induction H2 as [st|st a st1 ls2 st2 Hs H IH]; intros ls H1 Hp; [rewrite app_nil_r; exact Hp|].
    replace (ls ++ a :: ls2) with ((ls ++ [a]) ++ ls2) by (rewrite <- app_assoc; reflexivity).
    apply IH; [eapply Sn; eassumption|eapply PS; eassumption]. }
  intros ls st H. apply (G [] st0 (me_nil _ _ _ _ _ _ _ st0) P0 ls st H).
Qed.

(** ** Readings of a trace *)

Definition eqk (a : option (bool * bytes)) (b : bool * bytes) : bool :=
  match a with Some (e, k) => Bool.eqb e (fst b) && beq k (snd b) | None => false end.
Lemma eqk_spec a b : eqk a b = true <-> a = Some b.
Proof.
  destruct a as [[e k]|]; destruct b as [e' k']; cbn; [|split; discriminate]. rewrite andb_true_iff, Bool.eqb_true_iff.
  destruct (beq_spec k k'); split.
  - intros [-> _]; subst; reflexivity.
  - intros [= -> ->]; auto.
  - intros [_ H]; discriminate.
  - intros [= -> ->]; contradiction.
Qed.

(** Messages recorded from connection [c] / from all, for a storage key, in order. *)
Definition pick (ek : bool * bytes) (id : N) (f : cframe) : list cframe := if eqk (skey id) ek then [f] else [].
Definition recs_from (c : nat) ek (ls : list mlabel) : list cframe :=
  flat_map (fun l => match l with LRecord c' id f => if Nat.eqb c' c then pick ek id f else [] | _ => [] end) ls.
Definition recs ek (ls : list mlabel) : list cframe :=
  flat_map (fun l => match l with LRecord _ id f => pick ek id f | _ => [] end) ls.
Definition sent ek (q : list mmsg) : list cframe :=
  flat_map (fun m => match m with MState id f => pick ek id f | _ => [] end) q.
Definition running (c : nat) ek (ws : list mworker) : list cframe :=
  flat_map (fun w => match mw_phase w with WRun => if Nat.eqb (mw_conn w) c then pick ek (mw_id w) (mw_frame w) else [] | _ => [] end) ws.
Definition at_conn ek (a : option (N * cframe)) : list cframe := match a with Some (id, f) => pick ek id f | None => [] end.
Definition conn_rest ek (o : option mconn) : list cframe :=
  match o with Some (MConn q a) => at_conn ek a ++ sent ek q | None => [] end.
Definition handled (c : nat) (ls : list mlabel) : list mmsg :=
  flat_map (fun l => match l with LRecv c' m => if Nat.eqb c' c then [m] else [] | _ => [] end) ls.
Definition received (ls : list mlabel) : list mmsg := flat_map (fun l => match l with LRecv _ m => [m] | _ => [] end) ls.
Definition records (ls : list mlabel) : nat := length (filter (fun l => match l with LRecord _ _ _ => true | _ => false end) ls).
(** State messages of a point no table knows. *)
Definition lost (ms : list mmsg) : nat :=
  length (filter (fun m => match m with MState id _ => match skey id with None => true | Some _ => false end | _ => false end) ms).
Definition known_states (ms : list mmsg) : nat :=
  length (filter (fun m => match m with MState id _ => match skey id with None => false | Some _ => true end | _ => false end) ms).
Definition panics_of (points : N -> option bytes) (other : N -> bool) (k : bytes) (ms : list mmsg) : list bytes :=
  flat_map (fun m => match m with MPanic id t => if other id then [] else match points id with Some k' => if beq k k' then [t] else [] | None => [] end | _ => [] end) ms.
Definition waiting (cs : list mconn) : nat := length (filter (fun c => match mc_at c with Some _ => true | None => false end) cs).
Definition wstripe (id : N) : nat := match skey id with Some (_, k) => stripe k | None => 0%nat end.
Definition active (ws : list mworker) : list nat :=
  flat_map (fun w => match mw_phase w with WUnlocked => [] | _ => [wstripe (mw_id w)] end) ws.
Definition getl {V} (k : bytes) (m : amap (list V)) : list V := match mget k m with Some l => l | None => [] end.

Lemma getl_append {V} k (v : V) m k' : getl k' (appendm k v m) = if beq k k' then getl k' m ++ [v] else getl k' m.
Proof.
  unfold getl, appendm. destruct (beq_spec k k') as [->|N_]; [rewrite mget_mset_same; reflexivity|].
  rewrite mget_mset_other by congruence. reflexivity.
Qed.

Record inv (qs : list (list mmsg)) (ls : list mlabel) (st : mstate) : Prop := {
  i_nodup : NoDup (m_held st);
  i_held : Permutation (active (m_workers st)) (m_held st);
  i_wait : m_wait st = Z.of_nat (waiting (m_conns st) + length (m_workers st) + lost (received ls));
  i_wknown : Forall (fun w => skey (mw_id w) <> None) (m_workers st);
  i_cknown : Forall (fun c => match mc_at c with Some (id, _) => skey id <> None | None => True end) (m_conns st);
  i_len : length (m_conns st) = length qs;
  i_order : forall c ek, recs_from c ek ls ++ running c ek (m_workers st) ++ conn_rest ek (nth_error (m_conns st) c) =
                         sent ek (nth c qs []);
  i_handled : forall c, handled c ls ++ match nth_error (m_conns st) c with Some x => mc_queue x | None => [] end = nth c qs [];
  i_checks : m_checks st = records ls;
  i_callers : forall k, getl k (m_callers st) = record_all key (option_map (fun s => s k) stable) (recs (false, k) ls);
  i_exts : forall k, getl k (m_exts st) = recs (true, k) ls;
  i_pp : forall k, getl k (m_ppanics st) = panics_of ppanic_points (fun _ => false) k (received ls);
  i_mp : forall k, getl k (m_mpanics st) = panics_of mpanic_points (fun id => match ppanic_points id with Some _ => true | None => false end) k (received ls);
  i_reach : forall id, In id (m_reached st) <-> In (MPoint id) (received ls);
  i_rnodup : NoDup (m_reached st);
  i_conns : forall l, In l ls -> (match l with LRecv c _ | LAcquire c _ _ | LRecord c _ _ | LUnlock c _ _ | LDone c _ _ => c end < length qs)%nat;
  i_wconns : Forall (fun w => (mw_conn w < length qs)%nat) (m_workers st)
}.

Lemma inv_init qs : inv qs [] (m_init qs).
Proof.
  assert (forall c, nth_error (map (fun q => MConn q None) qs) c = option_map (fun q => MConn q None) (nth_error qs c)) as Hn
    by (intros c; apply nth_error_map).
  constructor; cbn [m_init m_held m_workers m_conns m_wait m_checks m_callers m_exts m_ppanics m_mpanics m_reached].
  - constructor.
  - constructor.
  - cbn. assert (waiting (map (fun q => MConn q None) qs) = 0%nat) as -> by (clear; induction qs; [reflexivity|exact IHqs]). reflexivity.
  - constructor.
  - apply Forall_map. apply Forall_forall. intros q _. exact I.
  - apply map_length.
  - intros c ek. rewrite Hn. cbn. destruct (nth_error qs c) as [q|] eqn:E; cbn.
    + rewrite (nth_error_nth _ _ _ E). reflexivity.
    + rewrite nth_overflow; [reflexivity|]. apply nth_error_None. exact E.
  - intros c. rewrite Hn. cbn. destruct (nth_error qs c) as [q|] eqn:E; cbn.
    + rewrite (nth_error_nth _ _ _ E). reflexivity.
    + rewrite nth_overflow; [reflexivity|]. apply nth_error_None. exact E.
  - reflexivity.
  - intros k. destruct stable; reflexivity.
  - reflexivity.
  - reflexivity.
  - reflexivity.
  - intros id. cbn. tauto.
  - constructor.
  - intros l [].
  - constructor.
Qed.

Lemma flat_map_snoc {X Y} (f : X -> list Y) l x : flat_map f (l ++ [x]) = flat_map f l ++ f x.
Proof. rewrite flat_map_app. cbn. rewrite app_nil_r. reflexivity. Qed.
Lemma waiting_mid l1 x l2 : waiting (l1 ++ x :: l2) = (waiting l1 + (match mc_at x with Some _ => 1 | None => 0 end) + waiting l2)%nat.
Proof. unfold waiting. rewrite filter_app, app_length. cbn. destruct (mc_at x); cbn; lia. Qed.
Lemma running_app c ek a b : running c ek (a ++ b) = running c ek a ++ running c ek b.
Proof. apply flat_map_app. Qed.
Lemma active_app a b : active (a ++ b) = active a ++ active b.
Proof. apply flat_map_app. Qed.
Lemma running_cons c ek w ws : running c ek (w :: ws) =
  match mw_phase w with WRun => if Nat.eqb (mw_conn w) c then pick ek (mw_id w) (mw_frame w) else [] | _ => [] end ++ running c ek ws.
Proof. reflexivity. Qed.
Lemma active_cons w ws : active (w :: ws) = match mw_phase w with WUnlocked => [] | _ => [wstripe (mw_id w)] end ++ active ws.
Proof. reflexivity. Qed.
Lemma running_active c ek ws : ~ In (stripe (snd ek)) (active ws) -> running c ek ws = [].
Proof.
  induction ws as [|w ws IH]; intros H; [reflexivity|]. rewrite running_cons. rewrite active_cons in H.
  rewrite IH by (intros X; apply H; apply in_app_iff; right; exact X). rewrite app_nil_r.
  destruct w as [c' id f ph]. cbn [mw_phase mw_conn mw_id mw_frame] in *. destruct ph; try reflexivity. destruct (Nat.eqb c' c); [|reflexivity].
  unfold pick. destruct (eqk (skey id) ek) eqn:E; [|reflexivity]. apply eqk_spec in E. exfalso. apply H. left.
  unfold wstripe. rewrite E. destruct ek; reflexivity.
Qed.
Lemma lost_app a b : lost (a ++ b) = (lost a + lost b)%nat.
Proof. unfold lost. rewrite filter_app, app_length. reflexivity. Qed.
Lemma received_app a b : received (a ++ b) = received a ++ received b.
Proof. apply flat_map_app. Qed.
Lemma panics_app p o k a b : panics_of p o k (a ++ b) = panics_of p o k a ++ panics_of p o k b.
Proof. apply flat_map_app. Qed.
Lemma records_snoc ls l : records (ls ++ [l]) = (records ls + match l with LRecord _ _ _ => 1 | _ => 0 end)%nat.
Proof. unfold records. rewrite filter_app, app_length. destruct l; reflexivity. Qed.
Lemma perm_remove (a : list nat) s b h : Permutation (a ++ s :: b) h -> NoDup h -> Permutation (a ++ b) (remove Nat.eq_dec s h).
Proof.
  intros P N. assert (NoDup (a ++ s :: b)) as N' by (eapply Permutation_NoDup; [apply Permutation_sym; exact P|exact N]).
  apply NoDup_remove in N' as [N1 N2]. apply NoDup_Permutation; [exact N1| |].
  - clear - N. induction N as [|x l Hx N IH]; [constructor|]. cbn. destruct (Nat.eq_dec s x); [exact IH|]. constructor; [|exact IH].
    intros H. apply in_remove in H as [H _]. contradiction.
  - intros x. split.
    + intros H. apply in_in_remove; [intros ->; contradiction|]. eapply Permutation_in; [exact P|].
      apply in_app_iff. apply in_app_iff in H as [H|H]; [left|right; right]; exact H.
    + intros H. apply in_remove in H as [H Hne]. eapply Permutation_in in H; [|apply Permutation_sym; exact P].
      apply in_app_iff. apply in_app_iff in H as [H|[H|H]]; [left; exact H|congruence|right; exact H].
Qed.

Lemma inv_step qs ls st l st' : inv qs ls st -> step st l st' -> inv qs (ls ++ [l]) st'.
Proof.
  intros I H. destruct H as [st c q m st' Hc Hr|st c q id f k Hc Hk|st c q id f e k Hc Hk Hh|st w1 c id f w2 e k Hw Hk|st w1 c id f w2 e k Hw Hk|st w1 c id f w2 Hw].
  - (* simple *)
    destruct (set_conn_split _ _ _ Hc) as (l1 & l2 & El & Ll & Es). destruct I as [I1 I2 I3 I4 I5 I6 I7 I8 I9 I10 I11 I12 I13 I14 I15 I16 I17].
    destruct st as [cs ws h w n cal ex pp mp r]. cbn [m_conns m_workers m_held m_wait m_checks m_callers m_exts m_ppanics m_mpanics m_reached] in *.
    assert (c < length qs)%nat as Lc by (rewrite <- I6, El, app_length; cbn; lia).
    assert (forall ek, (match m with MState id f => skey id = None | _ => True end) -> sent ek (m :: q) = sent ek q) as Sq.
    { intros ek Hm. cbn. destruct m; try reflexivity. unfold pick. rewrite Hm. reflexivity. }
    assert (forall c' ek, (match m with MState id f => skey id = None | _ => True end) ->
      recs_from c' ek (ls ++ [LRecv c m]) ++ running c' ek ws ++ conn_rest ek (nth_error (l1 ++ MConn q None :: l2) c') = sent ek (nth c' qs [])) as O7.
    { intros c' ek Hm. unfold recs_from. rewrite flat_map_snoc, app_nil_r. rewrite <- (I7 c' ek). f_equal. f_equal.
      rewrite El, (nth_mid _ (MConn q None)), (nth_mid _ (MConn (m :: q) None)). destruct (Nat.eqb_spec c' (length l1)).
      - cbn [conn_rest at_conn app]. symmetry. apply Sq. exact Hm.
      - f_equal. apply nth_other. assumption. }
    assert (forall c', handled c' (ls ++ [LRecv c m]) ++ match nth_error (l1 ++ MConn q None :: l2) c' with Some x => mc_queue x | None => [] end = nth c' qs []) as O8.
    { intros c'. unfold handled. rewrite flat_map_snoc. rewrite <- (I8 c'), El, <- app_assoc. f_equal. rewrite (nth_mid _ (MConn q None)), (nth_mid _ (MConn (m :: q) None)).
      destruct (Nat.eqb_spec c' (length l1)) as [->|N_].
      - rewrite Ll, Nat.eqb_refl. reflexivity.
      - destruct (Nat.eqb_spec c c'); [congruence|]. cbn [app]. rewrite (nth_other l1 (MConn q None) (MConn (m :: q) None)) by assumption. reflexivity. }
    assert (received (ls ++ [LRecv c m]) = received ls ++ [m]) as Er by (rewrite received_app; reflexivity).
    assert (forall l, In l (ls ++ [LRecv c m]) -> (match l with LRecv c _ | LAcquire c _ _ | LRecord c _ _ | LUnlock c _ _ | LDone c _ _ => c end < length qs)%nat) as O16.
    { intros l Hl. apply in_app_iff in Hl as [Hl|[<-|[]]]; [exact (I16 l Hl)|exact Lc]. }
    assert (length (l1 ++ MConn q None :: l2) = length qs) as O6 by (rewrite <- I6, El, !app_length; reflexivity).
    assert (Forall (fun c => match mc_at c with Some (id, _) => skey id <> None | None => True end) (l1 ++ MConn q None :: l2)) as O5.
    { rewrite El in I5. apply Forall_app in I5 as [A B_]. inversion B_; subst. apply Forall_app. split; [exact A|]. constructor; [exact I|assumption]. }
    assert (waiting (l1 ++ MConn q None :: l2) = waiting cs) as Ew by (rewrite El, !waiting_mid; reflexivity).
    assert (forall k, recs k (ls ++ [LRecv c m]) = recs k ls) as Ek by (intros k; unfold recs; rewrite flat_map_snoc, app_nil_r; reflexivity).
    assert (records (ls ++ [LRecv c m]) = records ls) as Ec by (rewrite records_snoc; lia).
    destruct m as [id|id f|id t]; cbn [recv_simple] in Hr.
    + injection Hr as <-. constructor; cbn [with_conns m_conns m_workers m_held m_wait m_checks m_callers m_exts m_ppanics m_mpanics m_reached]; rewrite ?Es, ?Er, ?Ec; auto.
      * rewrite lost_app, Ew, I3. cbn. lia.
      * intros k. rewrite Ek. apply I10.
      * intros k. rewrite Ek. apply I11.
      * intros k. rewrite panics_app, app_nil_r. apply I12.
      * intros k. rewrite panics_app, app_nil_r. apply I13.
      * intros i. rewrite in_app_iff. cbn [In]. rewrite <- I14. destruct (existsb (N.eqb id) r) eqn:Ex.
        -- split; [auto|]. intros [Hi|[[= ->]|[]]]; [exact Hi|]. apply existsb_exists in Ex as (x & Hx & Ex). apply N.eqb_eq in Ex as ->. exact Hx.
        -- rewrite in_app_iff. cbn [In]. split; [intros [Hi|[->|[]]]; auto|intros [Hi|[[= ->]|[]]]; auto].
      * destruct (existsb (N.eqb id) r) eqn:Ex; [exact I15|]. apply NoDup_app_iff. split; [exact I15|]. split; [constructor; [intros []|constructor]|].
        intros x Hx [<-|[]]. assert (existsb (N.eqb id) r = true) as T by (apply existsb_exists; exists id; split; [exact Hx|apply N.eqb_refl]). congruence.
    + destruct (skey id) eqn:Ei; [discriminate|]. injection Hr as <-.
      constructor; cbn [with_conns m_conns m_workers m_held m_wait m_checks m_callers m_exts m_ppanics m_mpanics m_reached]; rewrite ?Es, ?Er, ?Ec; auto.
      * rewrite lost_app, Ew, I3. cbn. rewrite Ei. cbn. lia.
      * intros k. rewrite Ek. apply I10.
      * intros k. rewrite Ek. apply I11.
      * intros k. rewrite panics_app, app_nil_r. apply I12.
      * intros k. rewrite panics_app, app_nil_r. apply I13.
      * intros i. rewrite in_app_iff. cbn [In]. rewrite <- I14. split; [auto|intros [Hi|[Hi|[]]]; [exact Hi|discriminate]].
    + assert (st' = MSt cs ws h w n cal ex
         (match ppanic_points id with Some k => appendm k t pp | None => pp end)
         (match ppanic_points id with Some _ => mp | None => match mpanic_points id with Some k => appendm k t mp | None => mp end end) r) as ->.
      { injection Hr as <-. destruct (ppanic_points id); [reflexivity|]. destruct (mpanic_points id); reflexivity. }
      constructor; cbn [with_conns m_conns m_workers m_held m_wait m_checks m_callers m_exts m_ppanics m_mpanics m_reached]; rewrite ?Es, ?Er, ?Ec; auto.
      * rewrite lost_app, Ew, I3. cbn. lia.
      * intros k. rewrite Ek. apply I10.
      * intros k. rewrite Ek. apply I11.
      * intros k. rewrite panics_app. cbn [panics_of flat_map]. rewrite app_nil_r. destruct (ppanic_points id) as [k'|].
        -- rewrite getl_append, I12. destruct (beq_spec k' k) as [->|N1]; [rewrite beq_refl; reflexivity|].
           destruct (beq_spec k k'); [congruence|]. rewrite app_nil_r. reflexivity.
        -- rewrite app_nil_r. apply I12.
      * intros k. rewrite panics_app. cbn [panics_of flat_map]. rewrite app_nil_r. destruct (ppanic_points id) as [k0|]; [rewrite app_nil_r; apply I13|].
        destruct (mpanic_points id) as [k'|].
        -- rewrite getl_append, I13. destruct (beq_spec k' k) as [->|N1]; [rewrite beq_refl; reflexivity|].
           destruct (beq_spec k k'); [congruence|]. rewrite app_nil_r. reflexivity.
        -- rewrite app_nil_r. apply I13.
      * intros i. rewrite in_app_iff. cbn [In]. rewrite <- I14. split; [auto|intros [Hi|[Hi|[]]]; [exact Hi|discriminate]].
  - (* state *)
    destruct (set_conn_split _ _ _ Hc) as (l1 & l2 & El & Ll & Es). destruct I as [I1 I2 I3 I4 I5 I6 I7 I8 I9 I10 I11 I12 I13 I14 I15 I16 I17].
    destruct st as [cs ws h w n cal ex pp mp r]. cbn [m_conns m_workers m_held m_wait m_checks m_callers m_exts m_ppanics m_mpanics m_reached] in *.
    assert (c < length qs)%nat as Lc by (rewrite <- I6, El, app_length; cbn; lia).
    assert (received (ls ++ [LRecv c (MState id f)]) = received ls ++ [MState id f]) as Er by (rewrite received_app; reflexivity).
    constructor; cbn [with_workers with_conns m_conns m_workers m_held m_wait m_checks m_callers m_exts m_ppanics m_mpanics m_reached]; rewrite ?Es, ?Er; auto.
    + rewrite I3, lost_app, El, !waiting_mid. cbn. rewrite Hk. cbn. lia.
    + rewrite El in I5. apply Forall_app in I5 as [A B_]. inversion B_; subst. apply Forall_app. split; [exact A|]. constructor; [cbn; congruence|assumption].
    + rewrite <- I6, El, !app_length. reflexivity.
    + intros c' ek. unfold recs_from. rewrite flat_map_snoc, app_nil_r. rewrite <- (I7 c' ek). f_equal. f_equal.
      rewrite El, (nth_mid _ (MConn q (Some (id, f)))), (nth_mid _ (MConn (MState id f :: q) None)). destruct (Nat.eqb_spec c' (length l1)); [reflexivity|].
      f_equal. apply nth_other. assumption.
    + intros c'. unfold handled. rewrite flat_map_snoc. rewrite <- (I8 c'), El, <- app_assoc. f_equal. rewrite (nth_mid _ (MConn q (Some (id, f)))), (nth_mid _ (MConn (MState id f :: q) None)).
      destruct (Nat.eqb_spec c' (length l1)) as [->|N_].
      * rewrite Ll, Nat.eqb_refl. reflexivity.
      * destruct (Nat.eqb_spec c c'); [congruence|]. cbn [app]. rewrite (nth_other l1 (MConn q (Some (id, f))) (MConn (MState id f :: q) None)) by assumption. reflexivity.
    + rewrite records_snoc, I9. lia.
    + intros k'. unfold recs. rewrite flat_map_snoc, app_nil_r. apply I10.
    + intros k'. unfold recs. rewrite flat_map_snoc, app_nil_r. apply I11.
    + intros k'. rewrite panics_app, app_nil_r. apply I12.
    + intros k'. rewrite panics_app, app_nil_r. apply I13.
    + intros i. rewrite in_app_iff. cbn [In]. rewrite <- I14. split; [auto|intros [Hi|[Hi|[]]]; [exact Hi|discriminate]].
    + intros l Hl. apply in_app_iff in Hl as [Hl|[<-|[]]]; [exact (I16 l Hl)|exact Lc].
  - (* acquire *)
    destruct (set_conn_split _ _ _ Hc) as (l1 & l2 & El & Ll & Es). destruct I as [I1 I2 I3 I4 I5 I6 I7 I8 I9 I10 I11 I12 I13 I14 I15 I16 I17].
    destruct st as [cs ws h w n cal ex pp mp r]. cbn [m_conns m_workers m_held m_wait m_checks m_callers m_exts m_ppanics m_mpanics m_reached] in *.
    assert (c < length qs)%nat as Lc by (rewrite <- I6, El, app_length; cbn; lia).
    assert (received (ls ++ [LAcquire c id f]) = received ls) as Er by (rewrite received_app; apply app_nil_r).
    constructor; cbn [with_workers with_conns m_conns m_workers m_held m_wait m_checks m_callers m_exts m_ppanics m_mpanics m_reached]; rewrite ?Es, ?Er; auto.
    + constructor; assumption.
    + rewrite active_app, active_cons. cbn [mw_phase mw_id app]. unfold wstripe at 1. rewrite Hk.
      rewrite <- Permutation_cons_append. constructor. exact I2.
    + rewrite I3, El, !waiting_mid, app_length. cbn. lia.
    + apply Forall_app. split; [exact I4|]. constructor; [cbn; congruence|constructor].
    + rewrite El in I5. apply Forall_app in I5 as [A B_]. inversion B_; subst. apply Forall_app. split; [exact A|]. constructor; [exact I|assumption].
    + rewrite <- I6, El, !app_length. reflexivity.
    + intros c' ek. unfold recs_from. rewrite flat_map_snoc, app_nil_r. rewrite <- (I7 c' ek). f_equal. rewrite running_app, <- app_assoc. f_equal.
      rewrite El, (nth_mid _ (MConn q None)), (nth_mid _ (MConn q (Some (id, f)))).
      rewrite running_cons; cbn [mw_phase mw_conn mw_id mw_frame]. rewrite app_nil_r. destruct (Nat.eqb_spec c' (length l1)) as [->|N_].
      * rewrite Ll, Nat.eqb_refl. reflexivity.
      * destruct (Nat.eqb_spec c c'); [congruence|]. cbn [app]. f_equal. apply nth_other. assumption.
    + intros c'. unfold handled. rewrite flat_map_snoc, app_nil_r. rewrite <- (I8 c'), El. f_equal. rewrite (nth_mid _ (MConn q None)), (nth_mid _ (MConn q (Some (id, f)))).
      destruct (Nat.eqb_spec c' (length l1)); [reflexivity|]. rewrite (nth_other l1 (MConn q None) (MConn q (Some (id, f)))) by assumption. reflexivity.
    + rewrite records_snoc, I9. lia.
    + intros k'. unfold recs. rewrite flat_map_snoc, app_nil_r. apply I10.
    + intros k'. unfold recs. rewrite flat_map_snoc, app_nil_r. apply I11.
    + intros l Hl. apply in_app_iff in Hl as [Hl|[<-|[]]]; [exact (I16 l Hl)|exact Lc].
    + apply Forall_app. split; [exact I17|]. constructor; [exact Lc|constructor].
  - (* record *)
    destruct I as [I1 I2 I3 I4 I5 I6 I7 I8 I9 I10 I11 I12 I13 I14 I15 I16 I17].
    destruct st as [cs ws h w n cal ex pp mp r]. cbn [m_conns m_workers m_held m_wait m_checks m_callers m_exts m_ppanics m_mpanics m_reached] in *. subst ws.
    assert (received (ls ++ [LRecord c id f]) = received ls) as Er by (rewrite received_app; apply app_nil_r).
    assert (with_workers (record_frame key stable (MSt cs (w1 ++ MWorker c id f WRun :: w2) h w n cal ex pp mp r) e k f) (w1 ++ MWorker c id f WRecorded :: w2) h w =
            MSt cs (w1 ++ MWorker c id f WRecorded :: w2) h w (S n)
              (if e then cal else appendm k (match stable with None => f | Some s => apply_filter key (s k) (getl k cal) f end) cal)
              (if e then appendm k f ex else ex) pp mp r) as -> by (destruct e; reflexivity).
    constructor; cbn [m_conns m_workers m_held m_wait m_checks m_callers m_exts m_ppanics m_mpanics m_reached]; rewrite ?Er; auto.
    + rewrite active_app in *. exact I2.
    + rewrite I3, !app_length. reflexivity.
    + apply Forall_app in I4 as [A B_]. inversion B_; subst. apply Forall_app. split; [exact A|]. constructor; assumption.
    + intros c' ek. unfold recs_from. rewrite flat_map_snoc. rewrite <- (I7 c' ek). rewrite !running_app, <- !app_assoc. f_equal.
      rewrite !running_cons; cbn [mw_phase mw_conn mw_id mw_frame app].
      rewrite active_app, active_cons in I2; cbn [mw_phase mw_id app] in I2.
      assert (NoDup (active w1 ++ wstripe id :: active w2)) as Nd by (eapply Permutation_NoDup; [apply Permutation_sym; exact I2|exact I1]).
      apply NoDup_remove_2 in Nd.
      destruct (Nat.eqb c c'); [|reflexivity]. unfold pick. destruct (eqk (skey id) ek) eqn:Ee; [|reflexivity].
      apply eqk_spec in Ee. rewrite (running_active c' ek w1); [reflexivity|]. intros Hi. apply Nd. apply in_app_iff. left.
      unfold wstripe. rewrite Ee. destruct ek. exact Hi.
    + intros c'. unfold handled. rewrite flat_map_snoc, app_nil_r. apply I8.
    + rewrite records_snoc, I9. lia.
    + intros k'. unfold recs. rewrite flat_map_snoc. fold (recs (false, k') ls). unfold pick. destruct e.
      * destruct (eqk (skey id) (false, k')) eqn:Ee; [apply eqk_spec in Ee; congruence|]. rewrite app_nil_r. apply I10.
      * rewrite getl_append. destruct (beq_spec k k') as [->|N_].
        -- destruct (eqk (skey id) (false, k')) eqn:Ee; [|exfalso; apply (proj2 (eqk_spec (skey id) (false, k'))) in Hk; congruence].
           rewrite record_all_app, I10. f_equal. f_equal. destruct stable; reflexivity.
        -- destruct (eqk (skey id) (false, k')) eqn:Ee; [apply eqk_spec in Ee; congruence|]. rewrite app_nil_r. apply I10.
    + intros k'. unfold recs. rewrite flat_map_snoc. fold (recs (true, k') ls). unfold pick. destruct e.
      * rewrite getl_append. destruct (beq_spec k k') as [->|N_].
        -- destruct (eqk (skey id) (true, k')) eqn:Ee; [|exfalso; apply (proj2 (eqk_spec (skey id) (true, k'))) in Hk; congruence].
           rewrite I11. reflexivity.
        -- destruct (eqk (skey id) (true, k')) eqn:Ee; [apply eqk_spec in Ee; congruence|]. rewrite app_nil_r. apply I11.
      * destruct (eqk (skey id) (true, k')) eqn:Ee; [apply eqk_spec in Ee; congruence|]. rewrite app_nil_r. apply I11.
    + intros l Hl. apply in_app_iff in Hl as [Hl|[<-|[]]]; [exact (I16 l Hl)|]. rewrite Forall_forall in I17. apply (I17 (MWorker c id f WRun)). apply in_app_iff; right; left; reflexivity.
    + apply Forall_app in I17 as [A B_]. inversion B_; subst. apply Forall_app. split; [exact A|]. constructor; assumption.
  - (* unlock *)
    destruct I as [I1 I2 I3 I4 I5 I6 I7 I8 I9 I10 I11 I12 I13 I14 I15 I16 I17].
    destruct st as [cs ws h w n cal ex pp mp r]. cbn [m_conns m_workers m_held m_wait m_checks m_callers m_exts m_ppanics m_mpanics m_reached] in *. subst ws.
    assert (received (ls ++ [LUnlock c id f]) = received ls) as Er by (rewrite received_app; apply app_nil_r).
    rewrite active_app in I2. rewrite active_cons in I2; cbn [mw_phase mw_id app] in I2. assert (wstripe id = stripe k) as Ew by (unfold wstripe; rewrite Hk; reflexivity). rewrite Ew in I2.
    constructor; cbn [with_workers m_conns m_workers m_held m_wait m_checks m_callers m_exts m_ppanics m_mpanics m_reached]; rewrite ?Er; auto.
    + eapply Permutation_NoDup; [apply (perm_remove _ _ _ _ I2 I1)|]. assert (NoDup (active w1 ++ stripe k :: active w2)) as Nd by (eapply Permutation_NoDup; [apply Permutation_sym; exact I2|exact I1]).
      apply NoDup_remove_1 in Nd. exact Nd.
    + rewrite active_app. apply perm_remove; assumption.
    + rewrite I3, !app_length. reflexivity.
    + apply Forall_app in I4 as [A B_]. inversion B_; subst. apply Forall_app. split; [exact A|]. constructor; assumption.
    + intros c' ek. unfold recs_from. rewrite flat_map_snoc, app_nil_r. rewrite <- (I7 c' ek). rewrite !running_app. reflexivity.
    + intros c'. unfold handled. rewrite flat_map_snoc, app_nil_r. apply I8.
    + rewrite records_snoc, I9. lia.
    + intros k'. unfold recs. rewrite flat_map_snoc, app_nil_r. apply I10.
    + intros k'. unfold recs. rewrite flat_map_snoc, app_nil_r. apply I11.
    + intros l Hl. apply in_app_iff in Hl as [Hl|[<-|[]]]; [exact (I16 l Hl)|]. rewrite Forall_forall in I17. apply (I17 (MWorker c id f WRecorded)). apply in_app_iff; right; left; reflexivity.
    + apply Forall_app in I17 as [A B_]. inversion B_; subst. apply Forall_app. split; [exact A|]. constructor; assumption.
  - (* done *)
    destruct I as [I1 I2 I3 I4 I5 I6 I7 I8 I9 I10 I11 I12 I13 I14 I15 I16 I17].
    destruct st as [cs ws h w n cal ex pp mp r]. cbn [m_conns m_workers m_held m_wait m_checks m_callers m_exts m_ppanics m_mpanics m_reached] in *. subst ws.
    assert (received (ls ++ [LDone c id f]) = received ls) as Er by (rewrite received_app; apply app_nil_r).
    constructor; cbn [with_workers m_conns m_workers m_held m_wait m_checks m_callers m_exts m_ppanics m_mpanics m_reached]; rewrite ?Er; auto.
    + rewrite active_app in *. exact I2.
    + rewrite I3, !app_length. cbn [length]. lia.
    + apply Forall_app in I4 as [A B_]. inversion B_; subst. apply Forall_app. split; assumption.
    + intros c' ek. unfold recs_from. rewrite flat_map_snoc, app_nil_r. rewrite <- (I7 c' ek). rewrite !running_app. reflexivity.
    + intros c'. unfold handled. rewrite flat_map_snoc, app_nil_r. apply I8.
    + rewrite records_snoc, I9. lia.
    + intros k'. unfold recs. rewrite flat_map_snoc, app_nil_r. apply I10.
    + intros k'. unfold recs. rewrite flat_map_snoc, app_nil_r. apply I11.
    + intros l Hl. apply in_app_iff in Hl as [Hl|[<-|[]]]; [exact (I16 l Hl)|]. rewrite Forall_forall in I17. apply (I17 (MWorker c id f WUnlocked)). apply in_app_iff; right; left; reflexivity.
    + apply Forall_app in I17 as [A B_]. inversion B_; subst. apply Forall_app. split; assumption.
Qed.

Lemma inv_exec qs ls st : exec (m_init qs) ls st -> inv qs ls st.
Proof. revert ls st. apply exec_snoc_ind; [apply inv_init|]. intros ls st l st' _ I H. eapply inv_step; eassumption. Qed.

(** ** Every execution ends *)

Definition conn_work (c : mconn) : nat := (5 * length (mc_queue c) + match mc_at c with Some _ => 4 | None => 0 end)%nat.
Definition worker_work (w : mworker) : nat := match mw_phase w with WRun => 3 | WRecorded => 2 | WUnlocked => 1 end%nat.
Definition work (st : mstate) : nat := (list_sum (map conn_work (m_conns st)) + list_sum (map worker_work (m_workers st)))%nat.
Lemma sum_mid {X} (f : X -> nat) l1 x l2 : list_sum (map f (l1 ++ x :: l2)) = (list_sum (map f l1) + f x + list_sum (map f l2))%nat.
Proof. rewrite map_app, list_sum_app. cbn [map]. change (list_sum (f x :: map f l2)) with (f x + list_sum (map f l2))%nat. lia. Qed.
Lemma simple_same st m st' : recv_simple ext_points project_points ppanic_points mpanic_points st m = Some st' ->
  m_conns st' = m_conns st /\ m_workers st' = m_workers st.
Proof.
  destruct st as [cs ws h w n cal ex pp mp r]. intros H. destruct m; cbn in H.
  - injection H as <-. auto.
  - destruct (skey id); [discriminate|]. injection H as <-. auto.
  - injection H as <-. destruct (ppanic_points id); [auto|]. destruct (mpanic_points id); auto.
Qed.
Lemma step_work st l st' : step st l st' -> S (work st') = work st \/ (exists c m, l = LRecv c m /\ (S (work st') <= work st)%nat).
Proof.
  intros H. destruct H as [st c q m st' Hc Hr|st c q id f k Hc Hk|st c q id f e k Hc Hk Hh|st w1 c id f w2 e k Hw Hk|st w1 c id f w2 e k Hw Hk|st w1 c id f w2 Hw].
  - right. exists c, m. split; [reflexivity|]. destruct (set_conn_split _ _ _ Hc) as (l1 & l2 & El & _ & Es). apply simple_same in Hr as [E1 E2].
    rewrite Es. unfold work. destruct st' as [cs' ws' h' w' n' cal' ex' pp' mp' r']. cbn [with_conns m_conns m_workers] in *. rewrite El, E2, !sum_mid. unfold conn_work, worker_work; cbn [mc_queue mc_at length mw_phase list_sum map fold_right]; lia.
  - left. destruct (set_conn_split _ _ _ Hc) as (l1 & l2 & El & _ & Es). rewrite Es. unfold work. destruct st as [cs ws h w n cal ex pp mp r]. cbn [with_workers with_conns m_conns m_workers] in *.
    rewrite El, !sum_mid. unfold conn_work, worker_work; cbn [mc_queue mc_at length mw_phase list_sum map fold_right]; lia.
  - left. destruct (set_conn_split _ _ _ Hc) as (l1 & l2 & El & _ & Es). rewrite Es. unfold work. destruct st as [cs ws h w n cal ex pp mp r]. cbn [with_workers with_conns m_conns m_workers] in *.
    rewrite El, !sum_mid. unfold conn_work, worker_work; cbn [mc_queue mc_at length mw_phase list_sum map fold_right]; lia.
  - left. unfold work. destruct st as [cs ws h w n cal ex pp mp r]. cbn in Hw. subst. destruct e; cbn [with_workers record_frame m_conns m_workers]; rewrite !sum_mid; unfold worker_work; cbn [mw_phase]; lia.
  - left. unfold work. destruct st as [cs ws h w n cal ex pp mp r]. cbn in Hw. subst. cbn [with_workers m_conns m_workers]. rewrite !sum_mid. unfold worker_work; cbn [mw_phase]; lia.
  - left. unfold work. destruct st as [cs ws h w n cal ex pp mp r]. cbn in Hw. subst. cbn [with_workers m_conns m_workers]. rewrite !sum_mid, map_app, list_sum_app. unfold worker_work; cbn [mw_phase]; lia.
Qed.
Lemma exec_work st ls st' : exec st ls st' -> (length ls + work st' <= work st)%nat.
Proof.
  intros H. induction H as [st|st l st1 ls st2 Hs H IH]; cbn; [lia|]. apply step_work in Hs as [E|(c & m & _ & E)]; lia.
Qed.
Lemma work_init qs : work (m_init qs) = (5 * length (concat qs))%nat.
Proof.
  unfold work. cbn [m_init m_conns m_workers]. cbn [map list_sum fold_right]. rewrite map_map. rewrite Nat.add_0_r.
  induction qs as [|q qs IH]; [reflexivity|]. cbn [map concat]. rewrite app_length. cbn [list_sum fold_right]. unfold list_sum in IH. rewrite IH. unfold conn_work. cbn. lia.
Qed.

(** Nothing is left to do. *)
Definition finished (st : mstate) : Prop := Forall (fun c => c = MConn [] None) (m_conns st) /\ m_workers st = [].

Lemma idle_dec (c : mconn) : {c = MConn [] None} + {c <> MConn [] None}.
Proof. destruct c as [[|m q] [a|]]; [right; discriminate|left; reflexivity|right; discriminate|right; discriminate]. Defined.
Lemma progress qs ls st : inv qs ls st -> finished st \/ exists l st', step st l st'.
Proof.
  intros [I1 I2 I3 I4 I5 I6 I7 I8 I9 I10 I11 I12 I13 I14 I15 I16 I17].
  destruct (m_workers st) as [|[c id f ph] ws] eqn:Ew.
  - destruct (Forall_Exists_dec (fun c => c = MConn [] None) idle_dec (m_conns st)) as [F|E].
    + left. split; assumption.
    + right. apply Exists_exists in E as ([q a] & Hin & Hne). apply In_nth_error in Hin as [c Hc].
      destruct a as [[id f]|].
      * rewrite Forall_forall in I5. pose proof (I5 _ (nth_error_In _ _ Hc)) as Hk. cbn in Hk. destruct (skey id) as [[e k]|] eqn:Ek; [|congruence].
        eexists. eexists. eapply ms_acquire; [exact Hc|exact Ek|]. cbn in I2. apply Permutation_nil in I2. rewrite I2. intros [].
      * destruct q as [|m q]; [congruence|]. destruct m as [id|id f|id t].
        -- destruct st as [cs ws h w n cal ex pp mp r]. eexists. eexists. eapply ms_simple; [exact Hc|reflexivity].
        -- destruct (skey id) eqn:Ek.
           ++ eexists. eexists. eapply ms_state; [exact Hc|exact Ek].
           ++ destruct st as [cs ws h w n cal ex pp mp r]. eexists. eexists. eapply ms_simple; [exact Hc|]. cbn. rewrite Ek. reflexivity.
        -- destruct st as [cs ws h w n cal ex pp mp r]. eexists. eexists. eapply ms_simple; [exact Hc|reflexivity].
  - right. inversion I4 as [|? ? Hk _]; subst. cbn in Hk. destruct (skey id) as [[e k]|] eqn:Ek; [|congruence]. destruct ph.
    + eexists. eexists. eapply (ms_record _ _ _ _ _ _ _ st []); [exact Ew|exact Ek].
    + eexists. eexists. eapply (ms_unlock _ _ _ _ _ _ _ st []); [exact Ew|exact Ek].
    + eexists. eexists. eapply (ms_done _ _ _ _ _ _ _ st []). exact Ew.
Qed.

(** ** Counting *)

Lemma known_app a b : known_states (a ++ b) = (known_states a + known_states b)%nat.
Proof. unfold known_states. rewrite filter_app, app_length. reflexivity. Qed.
Definition queued (cs : list mconn) : list mmsg := concat (map mc_queue cs).
Lemma queued_mid l1 x l2 : queued (l1 ++ x :: l2) = queued l1 ++ mc_queue x ++ queued l2.
Proof. unfold queued. rewrite map_app, concat_app. reflexivity. Qed.
Definition unrecorded (ws : list mworker) : nat := length (filter (fun w => match mw_phase w with WRun => true | _ => false end) ws).
Lemma unrecorded_app a b : unrecorded (a ++ b) = (unrecorded a + unrecorded b)%nat.
Proof. unfold unrecorded. rewrite filter_app, app_length. reflexivity. Qed.
Lemma counts qs ls st : exec (m_init qs) ls st ->
  (records ls + unrecorded (m_workers st) + waiting (m_conns st) + known_states (queued (m_conns st)) = known_states (concat qs))%nat /\
  (lost (received ls) + lost (queued (m_conns st)) = lost (concat qs))%nat.
Proof.
  revert ls st. apply exec_snoc_ind.
  - cbn [m_init m_conns m_workers records received].
    assert (queued (map (fun q => MConn q None) qs) = concat qs) as -> by (unfold queued; rewrite map_map; cbn; rewrite map_id; reflexivity).
    assert (waiting (map (fun q => MConn q None) qs) = 0%nat) as -> by (clear; induction qs; [reflexivity|exact IHqs]). cbn. lia.
  - intros ls st l st' _ [A B_] H. rewrite records_snoc, received_app, lost_app.
    destruct H as [st c q m st' Hc Hr|st c q id f k Hc Hk|st c q id f e k Hc Hk Hh|st w1 c id f w2 e k Hw Hk|st w1 c id f w2 e k Hw Hk|st w1 c id f w2 Hw].
    + destruct (set_conn_split _ _ _ Hc) as (l1 & l2 & El & _ & Es). pose proof (simple_same _ _ _ Hr) as [E1 E2].
      rewrite Es. destruct st' as [cs' ws' h' w' n' cal' ex' pp' mp' r']. cbn [with_conns m_conns m_workers] in *. rewrite E2, El in *. rewrite !waiting_mid, !queued_mid in *. cbn [mc_at mc_queue] in *.
      change ((m :: q) ++ queued l2) with ([m] ++ q ++ queued l2) in *. rewrite !known_app, !lost_app in *. cbn [received flat_map app] in *.
      assert (known_states [m] = 0%nat) as Km.
      { destruct m; try reflexivity. destruct st as [cs ws h w n cal ex pp mp r]. cbn in Hr. cbn. destruct (skey id); [discriminate|reflexivity]. }
      lia.
    + destruct (set_conn_split _ _ _ Hc) as (l1 & l2 & El & _ & Es). rewrite Es. destruct st as [cs ws h w n cal ex pp mp r]. cbn [with_workers with_conns m_conns m_workers] in *. subst cs.
      rewrite !waiting_mid, !queued_mid in *. cbn [mc_at mc_queue] in *.
      change ((MState id f :: q) ++ queued l2) with ([MState id f] ++ q ++ queued l2) in *. rewrite !known_app, !lost_app in *. cbn [received flat_map app] in *.
      assert (known_states [MState id f] = 1%nat) as Km by (cbn; rewrite Hk; reflexivity).
      assert (lost [MState id f] = 0%nat) as Lm by (cbn; rewrite Hk; reflexivity). lia.
    + destruct (set_conn_split _ _ _ Hc) as (l1 & l2 & El & _ & Es). rewrite Es. destruct st as [cs ws h w n cal ex pp mp r]. cbn [with_workers with_conns m_conns m_workers] in *. subst cs.
      rewrite !waiting_mid, !queued_mid in *. cbn [mc_at mc_queue] in *. rewrite unrecorded_app. cbn. lia.
    + destruct st as [cs ws h w n cal ex pp mp r]. cbn in Hw. subst. destruct e; cbn [with_workers record_frame m_conns m_workers] in *; rewrite unrecorded_app in *; cbn in *; lia.
    + destruct st as [cs ws h w n cal ex pp mp r]. cbn in Hw. subst. cbn [with_workers m_conns m_workers] in *. rewrite unrecorded_app in *; cbn in *; lia.
    + destruct st as [cs ws h w n cal ex pp mp r]. cbn in Hw. subst. cbn [with_workers m_conns m_workers] in *. rewrite !unrecorded_app in *. change (unrecorded (MWorker c id f WUnlocked :: w2)) with (unrecorded w2) in A. cbn in *; lia.
Qed.

Lemma sent_app ek a b : sent ek (a ++ b) = sent ek a ++ sent ek b.
Proof. apply flat_map_app. Qed.

Lemma sent_concat ek qs : sent ek (concat qs) = concat (map (sent ek) qs).
Proof. induction qs as [|q qs IH]; [reflexivity|]. change (concat (q :: qs)) with (q ++ concat qs). rewrite sent_app, IH. reflexivity. Qed.

(** Records of all connections together are those of each. *)
Lemma recs_split ek n ls : (forall l, In l ls -> (match l with LRecv c _ | LAcquire c _ _ | LRecord c _ _ | LUnlock c _ _ | LDone c _ _ => c end < n)%nat) ->
  Permutation (recs ek ls) (concat (map (fun c => recs_from c ek ls) (seq 0 n))).
Proof.
  induction ls as [|l ls IH]; intros Hc.
  - cbn. induction (seq 0 n); [constructor|assumption].
  - specialize (IH (fun l H => Hc l (or_intror H))). specialize (Hc l (or_introl eq_refl)).
    assert (forall x, recs_from x ek (l :: ls) = (match l with LRecord c' id f => if Nat.eqb c' x then pick ek id f else [] | _ => [] end) ++ recs_from x ek ls) as Ef by reflexivity.
    assert (recs ek (l :: ls) = (match l with LRecord _ id f => pick ek id f | _ => [] end) ++ recs ek ls) as -> by reflexivity.
    destruct l as [c m|c id f|c id f|c id f|c id f]; cbn [app] in *; try exact IH.
    rewrite IH. clear IH.
    assert (In c (seq 0 n)) as Hi by (apply in_seq; lia). pose proof (seq_NoDup n 0) as Nd. revert Hi Nd. generalize (seq 0 n) as s.
    induction s as [|y s IHs]; intros Hi Nd; [destruct Hi|]. inversion Nd as [|? ? Ny Ns]; subst. cbn [map concat]. rewrite (Ef y).
    destruct (Nat.eqb_spec c y) as [->|Ne].
    + rewrite <- !app_assoc. apply Permutation_app_head. apply Permutation_app_head. apply Permutation_refl'. f_equal. apply map_ext_in. intros x Hx. rewrite Ef.
      destruct (Nat.eqb_spec y x) as [->|]; [contradiction|reflexivity].
    + destruct Hi as [->|Hi]; [congruence|]. rewrite <- (IHs Hi Ns). cbn [app]. rewrite !app_assoc. apply Permutation_app_tail. apply Permutation_app_comm.
Qed.

(** Every execution ends, after at most five steps per message, and does not stop
    before everything is done. *)
Theorem C35_every_execution_completes : forall qs ls st, exec (m_init qs) ls st ->
  (length ls <= 5 * length (concat qs))%nat /\ (finished st \/ exists l st', step st l st').
Proof.
  intros qs ls st H. split; [|apply (progress qs ls), inv_exec, H].
  pose proof (exec_work _ _ _ H) as W. rewrite work_init in W. lia.
Qed.

(** At any moment the counter is the number of state messages being handled plus
    the number of state messages of unknown points received so far. *)
Theorem C35_counter_exact : forall qs ls st, exec (m_init qs) ls st ->
  m_wait st = Z.of_nat (waiting (m_conns st) + length (m_workers st) + lost (received ls)).
Proof. intros qs ls st H. apply (i_wait qs), inv_exec, H. Qed.

(** When everything is done: the counter is the number of messages of unknown
    points; every other state message was counted and recorded exactly once, those
    of one connection for one function in the order sent; panics and reached points
    are those sent. *)
Theorem C35_everything_accounted : forall qs ls st, exec (m_init qs) ls st -> finished st ->
  m_wait st = Z.of_nat (lost (concat qs)) /\
  m_checks st = known_states (concat qs) /\
  (forall c ek, recs_from c ek ls = sent ek (nth c qs [])) /\
  (forall ek, Permutation (recs ek ls) (sent ek (concat qs))) /\
  (forall k, getl k (m_exts st) = recs (true, k) ls) /\
  (forall k, getl k (m_callers st) = record_all key (option_map (fun s => s k) stable) (recs (false, k) ls)) /\
  (forall c, handled c ls = nth c qs []) /\
  (forall k, getl k (m_ppanics st) = panics_of ppanic_points (fun _ => false) k (received ls)) /\
  (forall k, getl k (m_mpanics st) = panics_of mpanic_points (fun id => match ppanic_points id with Some _ => true | None => false end) k (received ls)) /\
  (forall id, In id (m_reached st) <-> exists q, In q qs /\ In (MPoint id) q) /\ NoDup (m_reached st).
Proof.
  intros qs ls st H [F W]. pose proof (inv_exec _ _ _ H) as [I1 I2 I3 I4 I5 I6 I7 I8 I9 I10 I11 I12 I13 I14 I15 I16 I17].
  destruct (counts _ _ _ H) as [C1 C2].
  assert (queued (m_conns st) = []) as Q by (clear - F; unfold queued; induction F as [|x l -> F IH]; [reflexivity|exact IH]).
  assert (waiting (m_conns st) = 0%nat) as Wt by (clear - F; unfold waiting; induction F as [|x l -> F IH]; [reflexivity|exact IH]).
  assert (forall c, match nth_error (m_conns st) c with Some x => x = MConn [] None | None => True end) as Nc.
  { intros c. destruct (nth_error (m_conns st) c) eqn:E; [|exact I]. rewrite Forall_forall in F. apply F. eapply nth_error_In. exact E. }
  rewrite Q, W, Wt in *. cbn in C1, C2.
  assert (forall c ek, recs_from c ek ls = sent ek (nth c qs [])) as Ord.
  { intros c ek. rewrite <- (I7 c ek). cbn [running flat_map app]. specialize (Nc c). destruct (nth_error (m_conns st) c); [subst|]; cbn; rewrite app_nil_r; reflexivity. }
  assert (forall c, handled c ls = nth c qs []) as Hd.
  { intros c. rewrite <- (I8 c). specialize (Nc c). destruct (nth_error (m_conns st) c); [subst|]; cbn; rewrite app_nil_r; reflexivity. }
  split; [rewrite I3; f_equal; cbn; lia|]. split; [rewrite I9; lia|]. split; [exact Ord|]. split.
  { intros ek. rewrite (recs_split ek (length qs) ls I16). apply Permutation_refl'.
    transitivity (concat (map (fun c => sent ek (nth c qs [])) (seq 0 (length qs)))); [apply (f_equal (@concat _)); apply map_ext; intros c; apply Ord|].
    transitivity (concat (map (sent ek) qs)).
    - rewrite <- (map_map (fun c => nth c qs []) (sent ek)). apply (f_equal (fun z => concat (map (sent ek) z))). clear. induction qs as [|q qs IH]; [reflexivity|].
      cbn [length seq map nth]. f_equal. rewrite <- seq_shift, map_map. exact IH.
    - symmetry. apply sent_concat. }
  split; [exact I11|]. split; [exact I10|]. split; [exact Hd|]. split; [exact I12|]. split; [exact I13|]. split; [|exact I15].
  intros id. rewrite I14. clear - Hd I16. unfold received. rewrite in_flat_map. split.
  - intros (l & Hl & Hi). destruct l; try (destruct Hi; fail). destruct Hi as [->|[]]. exists (nth c qs []). split.
    + apply nth_In. exact (I16 _ Hl).
    + rewrite <- Hd. unfold handled. apply in_flat_map. exists (LRecv c (MPoint id)). split; [exact Hl|]. rewrite Nat.eqb_refl. left. reflexivity.
  - intros (q & Hq & Hi). apply In_nth with (d := []) in Hq as (c & Hc & <-). rewrite <- Hd in Hi. unfold handled in Hi.
    apply in_flat_map in Hi as (l & Hl & Hi). destruct l; try (destruct Hi; fail). destruct (Nat.eqb c0 c); [|destruct Hi]. destruct Hi as [->|[]].
    exists (LRecv c0 (MPoint id)). split; [exact Hl|]. left. reflexivity.
Qed.

(** The result is collected only when nothing is being handled; so once every
    request was answered, collecting waits for all of them to be recorded. *)
Theorem C35_collected_result_complete : forall qs ls st, exec (m_init qs) ls st ->
  wait_returns st -> Forall (fun c => mc_queue c = []) (m_conns st) -> finished st /\ lost (concat qs) = 0%nat.
Proof.
  intros qs ls st H Wt Fq. pose proof (C35_counter_exact _ _ _ H) as C. unfold wait_returns in Wt. rewrite Wt in C.
  destruct (counts _ _ _ H) as [_ C2].
  assert (queued (m_conns st) = []) as Q by (clear - Fq; unfold queued; induction Fq as [|x l E F IH]; [reflexivity|cbn; rewrite E; exact IH]).
  rewrite Q in C2. cbn in C2. split; [|lia]. split.
  - assert (waiting (m_conns st) = 0%nat) as W0 by lia. clear - Fq W0. unfold waiting in W0. induction Fq as [|[q a] l E F IH]; [constructor|]. cbn in E. subst q.
    destruct a; cbn in W0; [lia|]. constructor; [reflexivity|]. apply IH. exact W0.
  - destruct (m_workers st); [reflexivity|cbn in C; lia].
Qed.

(** A state message of an unknown point makes collecting wait forever. *)
Theorem C35_unknown_point_hangs_refuted : forall qs ls st id f c,
  exec (m_init qs) ls st -> In (LRecv c (MState id f)) ls -> skey id = None -> ~ wait_returns st.
Proof.
  intros qs ls st id f c H Hi Hk Wt. pose proof (C35_counter_exact _ _ _ H) as C. unfold wait_returns in Wt. rewrite Wt in C.
  assert (0 < lost (received ls))%nat; [|lia]. unfold lost. assert (In (MState id f) (received ls)) as Hr.
  { unfold received. apply in_flat_map. exists (LRecv c (MState id f)). split; [exact Hi|left; reflexivity]. }
  match goal with |- (0 < length (filter ?p ?l))%nat => assert (In (MState id f) (filter p l)) as X end.
  { apply filter_In. split; [exact Hr|]. rewrite Hk. reflexivity. }
  destruct (filter _ _); [destruct X|cbn; lia].
Qed.
End Mon.
Print Assumptions C35_every_execution_completes.
Print Assumptions C35_counter_exact.
Print Assumptions C35_everything_accounted.
Print Assumptions C35_collected_result_complete.
Print Assumptions C35_unknown_point_hangs_refuted.

(** Requests not yet handled are not waited for: the result can be collected without
    them. *)
Theorem C35_pending_requests_missed_refuted : forall ep pp ppp mpp stripe key stable m,
  exists st, mexec ep pp ppp mpp stripe key stable (m_init [[m]]) [] st /\ wait_returns st /\ ~ finished st.
Proof.
  intros. exists (m_init [[m]]). split; [constructor|]. split; [reflexivity|]. intros [F _]. inversion F as [|? ? E _]; subst. discriminate.
Qed.
Print Assumptions C35_pending_requests_missed_refuted.

(** Two connections, two functions sharing a lock, a panic and a point: one complete
    execution. *)
Definition ex35_f (n : N) : cframe := CFrame None None n.
Definition ex35_pp (id : N) : option bytes := if N.eqb id 1 then Some (B "f") else if N.eqb id 2 then Some (B "g") else None.
Definition ex35_step := mstep (fun _ => None) ex35_pp (fun id => if N.eqb id 5 then Some (B "p") else None) (fun _ => None) (fun _ => 0%nat) (fun _ => []) None.
Definition ex35_queues : list (list mmsg) := [[MState 1 (ex35_f 10); MState 2 (ex35_f 11)]; [MState 1 (ex35_f 20); MPanic 5 (B "boom"); MPoint 9]].
Ltac norm35 := match goal with |- mexec _ _ _ _ _ _ _ ?s _ _ => let v := eval vm_compute in s in change s with v end.
Example C35_example : exists ls st,
  mexec (fun _ => None) ex35_pp (fun id => if N.eqb id 5 then Some (B "p") else None) (fun _ => None) (fun _ => 0%nat) (fun _ => []) None
    (m_init ex35_queues) ls st /\ finished st /\ wait_returns st /\
  m_callers st = [(B "f", [ex35_f 20; ex35_f 10]); (B "g", [ex35_f 11])] /\ m_ppanics st = [(B "p", [B "boom"])] /\ m_reached st = [9%N] /\ m_checks st = 3%nat.
Proof.
  eexists. eexists. split.
  - eapply me_cons; [eapply (ms_state _ _ _ _ _ _ _ _ 0%nat); reflexivity|]; norm35.
    eapply me_cons; [eapply (ms_state _ _ _ _ _ _ _ _ 1%nat); reflexivity|]; norm35.
    eapply me_cons; [eapply (ms_acquire _ _ _ _ _ _ _ _ 1%nat); [reflexivity|reflexivity|intros []]|]; norm35.
    eapply me_cons; [eapply (ms_record _ _ _ _ _ _ _ _ []); reflexivity|]; norm35.
    eapply me_cons; [eapply (ms_simple _ _ _ _ _ _ _ _ 1%nat); reflexivity|]; norm35.
    eapply me_cons; [eapply (ms_unlock _ _ _ _ _ _ _ _ []); reflexivity|]; norm35.
    eapply me_cons; [eapply (ms_acquire _ _ _ _ _ _ _ _ 0%nat); [reflexivity|reflexivity|intros []]|]; norm35.
    eapply me_cons; [eapply (ms_done _ _ _ _ _ _ _ _ []); reflexivity|]; norm35.
    eapply me_cons; [eapply (ms_state _ _ _ _ _ _ _ _ 0%nat); reflexivity|]; norm35.
    eapply me_cons; [eapply (ms_record _ _ _ _ _ _ _ _ []); reflexivity|]; norm35.
    eapply me_cons; [eapply (ms_unlock _ _ _ _ _ _ _ _ []); reflexivity|]; norm35.
    eapply me_cons; [eapply (ms_acquire _ _ _ _ _ _ _ _ 0%nat); [reflexivity|reflexivity|intros []]|]; norm35.
    eapply me_cons; [eapply (ms_done _ _ _ _ _ _ _ _ []); reflexivity|]; norm35.
    eapply me_cons; [eapply (ms_simple _ _ _ _ _ _ _ _ 1%nat); reflexivity|]; norm35.
    eapply me_cons; [eapply (ms_record _ _ _ _ _ _ _ _ []); reflexivity|]; norm35.
    eapply me_cons; [eapply (ms_unlock _ _ _ _ _ _ _ _ []); reflexivity|]; norm35.
    eapply me_cons; [eapply (ms_done _ _ _ _ _ _ _ _ []); reflexivity|]; norm35.
    constructor.
  - split; [split; [vm_compute; repeat constructor|reflexivity]|]. split; [reflexivity|]. vm_compute. auto.
Qed.
