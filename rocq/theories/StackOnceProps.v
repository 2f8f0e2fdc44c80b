(** C15: stacks that repeat are written once, the others where they belong. *)
From Verif Require Import Base Maps TypesModel.
From Coq Require Import Permutation.

Section Once.
Variable sha1 : bytes -> bytes.
Variable mp : stack -> bytes.
Let key := any_key sha1 mp.

Section State.
Variable stc : bytes -> nat.
Variable on : bool.
(** The table of stacks and its index: on from the beginning or never. *)
Definition sinv (s : sst) : Prop :=
  match s_idx s with
  | None => on = false /\ s_dict s = []
  | Some m => on = true /\ NoDup (map key (s_dict s)) /\ (forall x, mget x m <> None <-> In x (map key (s_dict s))) /\ Forall (fun st => 1 < stc (key st)) (s_dict s)
  end.
Definition stored (s : sst) (st : stack) (si : option nat) (inl : stack) : Prop :=
  if on && (1 <? stc (key st)) then si <> None /\ inl = None /\ In (key st) (map key (s_dict s)) else si = None /\ inl = st.

Lemma enc_stack_once st s si inl s' : sinv s -> enc_stack sha1 mp stc st s = (si, inl, s') ->
  sinv s' /\ incl (s_dict s) (s_dict s') /\ stored s' st si inl.
Proof.
  unfold enc_stack, stored. fold key. intros I E. unfold sinv in I. destruct (s_idx s) as [m|] eqn:Ei.
  - destruct I as (On & Nd & Hm & F). rewrite On. cbn [andb]. destruct (1 <? stc (key st)) eqn:Ec.
    + destruct (mget (key st) m) as [pos|] eqn:Em.
      * injection E as <- <- <-. split; [unfold sinv; rewrite Ei; auto|]. split; [apply incl_refl|]. split; [discriminate|]. split; [reflexivity|]. apply Hm. congruence.
      * injection E as <- <- <-. assert (~ In (key st) (map key (s_dict s))) as Ni by (intros H; apply Hm in H; congruence). cbn [s_dict s_idx].
        split; [|split; [apply incl_appl, incl_refl|split; [discriminate|split; [reflexivity|rewrite map_app; apply in_or_app; right; left; reflexivity]]]].
        unfold sinv. cbn [s_dict s_idx]. split; [exact On|]. split; [|split].
        -- rewrite map_app. cbn [map]. apply (Permutation_NoDup (l := key st :: map key (s_dict s))); [apply Permutation_cons_append|]. constructor; assumption.
        -- intros x. rewrite mget_mset, map_app, in_app_iff. cbn [map In]. destruct (beq_spec x (key st)) as [->|Nx]; [split; [intros _; right; left; reflexivity|discriminate]|].
           rewrite Hm. split; [auto|]. intros [H|[H|[]]]; [exact H|congruence].
        -- apply Forall_app. split; [exact F|]. constructor; [apply Nat.ltb_lt, Ec|constructor].
    + injection E as <- <- <-. split; [unfold sinv; rewrite Ei; auto|]. split; [apply incl_refl|split; reflexivity].
  - destruct I as (On & Ed). rewrite On. cbn [andb]. injection E as <- <- <-. split; [unfold sinv; rewrite Ei; auto|]. split; [apply incl_refl|split; reflexivity].
Qed.

Variables fvc nc : bytes -> nat.
Definition fstored (s : sst) (e : encframe) (cf : cframe) : Prop := stored s (cf_stack cf) (ef_si e) (ef_st e).
Lemma stored_mono s s' st si inl : incl (s_dict s) (s_dict s') -> stored s st si inl -> stored s' st si inl.
Proof. unfold stored. intros H. destruct (on && _); [|auto]. intros (A & B0 & C). split; [exact A|]. split; [exact B0|]. apply (incl_map key H), C. Qed.
Lemma fstored_mono s s' es l : incl (s_dict s) (s_dict s') -> Forall2 (fstored s) es l -> Forall2 (fstored s') es l.
Proof. intros H F. induction F; constructor; [eapply stored_mono; eassumption|assumption]. Qed.

Lemma enc_frames_once l : forall s es s', sinv (snd s) -> enc_frames sha1 mp fvc nc stc l s = (es, s') ->
  sinv (snd s') /\ incl (s_dict (snd s)) (s_dict (snd s')) /\ Forall2 (fstored (snd s')) es l.
Proof.
  induction l as [|cf l IH]; intros s es s' I E; cbn [enc_frames] in E.
  - injection E as <- <-. split; [exact I|]. split; [apply incl_refl|constructor].
  - unfold enc_frame in E. destruct (enc_fv sha1 fvc nc (cf_fields cf) (fst s)) as [[cvl ci] e'].
    destruct (enc_stack sha1 mp stc (cf_stack cf) (snd s)) as [[si st] s1] eqn:E1.
    destruct (enc_frames sha1 mp fvc nc stc l (e', s1)) as [es1 s2] eqn:E2. injection E as <- <-.
    destruct (enc_stack_once _ _ _ _ _ I E1) as (I1 & L1 & S1). destruct (IH (e', s1) _ _ I1 E2) as (I2 & L2 & F2).
    split; [exact I2|]. split; [eapply incl_tran; eassumption|]. constructor; [|exact F2]. unfold fstored. cbn [ef_si ef_st]. eapply stored_mono; eassumption.
Qed.
Lemma enc_frame_map_once l : forall s es s', sinv (snd s) -> enc_frame_map sha1 mp fvc nc stc l s = (es, s') ->
  sinv (snd s') /\ incl (s_dict (snd s)) (s_dict (snd s')) /\ Forall2 (fstored (snd s')) (concat (map snd es)) (concat (map snd l)).
Proof.
  induction l as [|[k fs] l IH]; intros s es s' I E; cbn [enc_frame_map] in E.
  - injection E as <- <-. split; [exact I|]. split; [apply incl_refl|constructor].
  - destruct (enc_frames sha1 mp fvc nc stc fs s) as [es1 s1] eqn:E1. destruct (enc_frame_map sha1 mp fvc nc stc l s1) as [r s2] eqn:E2. injection E as <- <-.
    destruct (enc_frames_once _ _ _ _ I E1) as (I1 & L1 & F1). destruct (IH _ _ _ I1 E2) as (I2 & L2 & F2).
    split; [exact I2|]. split; [eapply incl_tran; eassumption|]. cbn [map snd concat]. apply Forall2_app; [eapply fstored_mono; eassumption|exact F2].
Qed.
End State.

(** How many of the frames have a stack with that key. *)
Definition times (l : list cframe) (x : bytes) : nat := length (filter (fun f => beq (key (cf_stack f)) x) l).
Lemma times_freq l x : times l x = freq (map (fun f => key (cf_stack f)) l) x.
Proof.
  unfold times, freq. induction l as [|f l IH]; [reflexivity|]. cbn [filter map count_occ].
  destruct (beq_spec (key (cf_stack f)) x) as [E|E]; destruct (bytes_eq_dec (key (cf_stack f)) x) as [E'|E']; try congruence; cbn [length]; rewrite IH; reflexivity.
Qed.
Lemma times_perm l l' x : Permutation l l' -> times l x = times l' x.
Proof.
  intros P. unfold times. induction P as [|a l l' P IH|a b l|l1 l2 l3 P1 IH1 P2 IH2]; cbn [filter].
  - reflexivity.
  - destruct (beq _ x); cbn [length]; congruence.
  - destruct (beq (key (cf_stack a)) x), (beq (key (cf_stack b)) x); reflexivity.
  - congruence.
Qed.
Lemma wired (l : list (bytes * list encframe)) : concat (map snd (wire_frame_map l)) = map wire_frame (concat (map snd l)).
Proof. unfold wire_frame_map. rewrite map_map. cbn [snd]. rewrite concat_map, map_map. reflexivity. Qed.
Lemma olist_omit {A} (l : list A) : olist (omit (Some l)) = l.
Proof. destruct l; reflexivity. Qed.
End Once.

(** For every result, whatever order the counting pass visits the frames in: the table has no stack twice and only stacks of two frames or more; a
    frame refers to the table if its stack is that of another frame too, and then has no stack itself; otherwise its stack is written with it. *)
Theorem C15_stacks_once : forall sha1 mp trc tr, Permutation (all_frames trc) (all_frames tr) ->
  let m := marshal sha1 mp trc tr in
  let key st := any_key sha1 mp st in
  NoDup (map key (et_stdict m)) /\
  (forall st, In st (et_stdict m) -> 2 <= times sha1 mp (all_frames tr) (key st)) /\
  Forall2 (fun e cf => if 2 <=? times sha1 mp (all_frames tr) (key (cf_stack cf)) then ef_si e <> None /\ ef_st e = None /\ In (key (cf_stack cf)) (map key (et_stdict m))
                       else ef_si e = None /\ olist (ef_st e) = olist (cf_stack cf))
    (concat (map snd (olist (et_callers m))) ++ concat (map snd (olist (et_ext m)))) (all_frames tr).
Proof.
  intros sha1 mp trc tr P m key. pose proof (eq_refl m) as Em. unfold m at 2, marshal in Em. cbv zeta in Em. clearbody m.
  set (ids := st_counted sha1 mp trc) in Em. set (on := has_dup ids).
  assert (forall x, freq ids x = times sha1 mp (all_frames tr) x) as Fq.
  { intros x. rewrite <- (times_perm sha1 mp _ _ x P). symmetry. apply times_freq. }
  assert (forall cf, In cf (all_frames tr) -> on = false -> (1 <? freq ids (key (cf_stack cf))) = false) as Off.
  { intros cf Hin Hon. unfold on, has_dup in Hon. destruct (1 <? freq ids (key (cf_stack cf))) eqn:E; [|reflexivity].
    rewrite <- Hon. symmetry. apply existsb_exists. exists (key (cf_stack cf)). split; [|exact E].
    apply (Permutation_in _ (Permutation_sym P)) in Hin. unfold ids, st_counted. apply in_map_iff. exists cf. auto. }
  fold on in Em.
  set (s0 := (Est (if has_dup (fv_counted sha1 trc) then Some [] else None) [] (if has_dup (node_counted sha1 trc) then Some [] else None) [], Sst (if on then Some [] else None) [])) in Em.
  assert (sinv sha1 mp (freq ids) on (snd s0)) as I0.
  { unfold sinv, s0. cbn [snd s_idx s_dict]. destruct on; [|split; reflexivity]. split; [reflexivity|]. split; [constructor|]. split; [|constructor]. intros x. cbn. split; [congruence|tauto]. }
  match type of Em with context [enc_frame_map ?a ?b ?c ?d ?e (olist (tr_callers tr)) ?x] => destruct (enc_frame_map a b c d e (olist (tr_callers tr)) x) as [cr s1] eqn:E1 end.
  match type of Em with context [enc_frame_map ?a ?b ?c ?d ?e (olist (tr_ext tr)) ?x] => destruct (enc_frame_map a b c d e (olist (tr_ext tr)) x) as [ex s2] eqn:E2 end.
  destruct (enc_frame_map_once _ _ _ _ _ _ _ _ _ _ I0 E1) as (I1 & L1 & F1). destruct (enc_frame_map_once _ _ _ _ _ _ _ _ _ _ I1 E2) as (I2 & L2 & F2).
  subst m. cbn [et_stdict et_callers et_ext olist].
  split; [|split].
  - unfold sinv in I2. destruct (s_idx (snd s2)); [apply I2|]. destruct I2 as (_ & ->). constructor.
  - intros st Hin. unfold sinv in I2. destruct (s_idx (snd s2)); [|destruct I2 as (_ & Ed); rewrite Ed in Hin; destruct Hin].
    destruct I2 as (_ & _ & _ & F). rewrite Forall_forall in F. apply F in Hin. rewrite Fq in Hin. exact Hin.
  - rewrite olist_omit, !wired, <- map_app.
    assert (Forall2 (fstored sha1 mp (freq ids) on (snd s2)) (concat (map snd cr) ++ concat (map snd ex)) (all_frames tr)) as F.
    { unfold all_frames. apply Forall2_app; [|exact F2]. eapply fstored_mono; eassumption. }
    clear - F Fq Off. assert (incl (all_frames tr) (all_frames tr)) as Hin by apply incl_refl. revert F Hin. generalize (all_frames tr) at 1 2 5 as l. generalize (concat (map snd cr) ++ concat (map snd ex)) as es.
    intros es l F. induction F as [|e cf es l H F IH]; intros Hin; [constructor|]. cbn [map]. constructor; [|apply IH; intros y Hy; apply Hin; right; exact Hy].
    unfold fstored, stored in H. change (any_key sha1 mp (cf_stack cf)) with (key (cf_stack cf)) in H. unfold wire_frame. cbn [ef_si ef_st].
    specialize (Off cf (Hin cf (or_introl eq_refl))). rewrite Fq in H, Off. destruct on; cbn [andb] in H.
    + change (2 <=? times sha1 mp (all_frames tr) (key (cf_stack cf))) with (1 <? times sha1 mp (all_frames tr) (key (cf_stack cf))). destruct (1 <? _).
      * destruct H as (A & -> & C). split; [exact A|]. split; [reflexivity|exact C].
      * destruct H as (A & ->). split; [exact A|]. destruct (cf_stack cf) as [[|]|]; reflexivity.
    + change (2 <=? times sha1 mp (all_frames tr) (key (cf_stack cf))) with (1 <? times sha1 mp (all_frames tr) (key (cf_stack cf))). rewrite (Off eq_refl).
      destruct H as (A & ->). split; [exact A|]. destruct (cf_stack cf) as [[|]|]; reflexivity.
Qed.
Print Assumptions C15_stacks_once.
(** Four frames, three with one stack. *)
Example C15_stacks_once_example :
  let fr n := CFrame None (Some [SFrame (B "m.go") n (B "main.main")]) 5 in
  let tr := TResult (B "T") (B "TestA") (Some [(B "m.F", [fr 1%N; fr 2%N; fr 1%N])]) None None 3%Z true (Some [(B "m.H", [fr 1%N])]) in
  let m := marshal (fun b => b) (fun s => concat (map (fun f => sf_file f ++ itoa (sf_line f)) (olist s))) tr tr in
  et_stdict m = [cf_stack (fr 1%N)] /\
  map (fun e => (ef_si e, ef_st e)) (concat (map snd (olist (et_callers m))) ++ concat (map snd (olist (et_ext m)))) =
    [(Some 0%nat, None); (None, cf_stack (fr 2%N)); (Some 0%nat, None); (Some 0%nat, None)].
Proof. vm_compute. split; reflexivity. Qed.
