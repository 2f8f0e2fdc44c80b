(** C15: how large the tables of values are. *)
From Verif Require Import Base Maps TypesModel TypesSpec TypesProofs TypesCodec.

Section Size.
Variable sha1 : bytes -> bytes.
Variables fvc nc : bytes -> nat.

Definition tab (cnt : bytes -> nat) (idx : option (amap nat)) (n : nat) : Prop :=
  match idx with None => n = 0 | Some m => NoDup (mkeys m) /\ length m = n /\ Forall (fun x => 2 <= cnt x) (mkeys m) end.
Definition tabs (s : est) : Prop := tab fvc (e_fvi s) (length (e_fvd s)) /\ tab nc (e_ni s) (length (e_nd s)).

Lemma mset_fresh_length (m : amap nat) k v : mget k m = None -> length (mset k v m) = S (length m).
Proof. induction m as [|[q w] m IH]; [reflexivity|]. cbn [mget mset]. destruct (beq k q); [discriminate|]. intros H. cbn [length]. rewrite IH by exact H. reflexivity. Qed.
Lemma tab_add cnt m n k v : tab cnt (Some m) n -> (1 <? cnt k) = true -> mget k m = None -> tab cnt (Some (mset k v m)) (n + 1).
Proof.
  intros (A & L & F) C G. split; [exact (mwf_mset _ _ _ A)|]. split; [rewrite mset_fresh_length by exact G; lia|].
  apply Forall_forall. intros x Hx. apply mkeys_mset in Hx as [->|Hx]; [apply Nat.ltb_lt in C; exact C|]. rewrite Forall_forall in F. apply F, Hx.
Qed.

Lemma enc_fv_with_tabs run key s : (forall s, tabs s -> tabs (snd (run s))) -> tabs s -> tabs (snd (enc_fv_with fvc run key s)).
Proof.
  intros R H. unfold enc_fv_with. destruct (e_fvi s) as [m|] eqn:Ei.
  - destruct (1 <? fvc key) eqn:C.
    + destruct (mget key m) as [pos|] eqn:G; [exact H|].
      match goal with |- context [run ?x] => specialize (R x); destruct (run x) as [l s2] end. cbn [snd] in *.
      destruct H as (H1 & H2). rewrite Ei in H1. destruct R as (R1 & R2).
      { split; cbn [e_fvi e_fvd e_ni e_nd]; [rewrite app_length; apply tab_add; assumption|exact H2]. }
      split; cbn [e_fvi e_fvd e_ni e_nd]; [rewrite upd_length; exact R1|exact R2].
    + specialize (R s H). destruct (run s). exact R.
  - specialize (R s H). destruct (run s). exact R.
Qed.
Lemma enc_entries_tabs l : (forall k x, In (k, x) l -> forall s, tabs s -> tabs (snd (enc_node sha1 fvc nc x s))) ->
  forall s, tabs s -> tabs (snd (enc_entries sha1 fvc nc l s)).
Proof.
  induction l as [|[k x] l IH]; intros K s H; [exact H|]. cbn [enc_entries]. pose proof (K k x (or_introl eq_refl) s H) as H1.
  destruct (enc_node sha1 fvc nc x s) as [e s1]. cbn [snd] in H1. specialize (IH (fun k x Hx => K k x (or_intror Hx)) s1 H1). destruct (enc_entries sha1 fvc nc l s1). exact IH.
Qed.
Lemma enc_node_tabs n : forall s, tabs s -> tabs (snd (enc_node sha1 fvc nc n s)).
Proof.
  induction n as [v c IH] using fval_ind'. intros s H. rewrite enc_node_eq.
  set (inline := fun s : est => match olist c with
    | [] => (EFV None v None None, s)
    | l => let '(cvl, ci, s') := enc_fv_with fvc (enc_entries sha1 fvc nc l) (fvals_id sha1 c) s in
           match ci with Some i => (EFV None v (Some i) None, s') | None => (EFV None v None cvl, s') end
    end).
  assert (forall s, tabs s -> tabs (snd (inline s))) as I.
  { intros s0 H0. unfold inline. pose proof (enc_fv_with_tabs _ (fvals_id sha1 c) s0 (enc_entries_tabs _ IH) H0) as P. destruct (olist c) as [|e l]; [exact H0|].
    destruct (enc_fv_with fvc (enc_entries sha1 fvc nc (e :: l)) (fvals_id sha1 c) s0) as [[cvl ci] s']. destruct ci; exact P. }
  clearbody inline. cbv zeta. set (key := fval_id sha1 (FVal v c)). destruct (e_ni s) as [m|] eqn:Ei; [|apply I, H].
  destruct (1 <? nc key) eqn:C; [|apply I, H]. destruct (mget key m) as [pos|] eqn:G; [exact H|].
  match goal with |- context [inline ?x] => specialize (I x); destruct (inline x) as [ef s2] end. cbn [snd] in *.
  destruct H as (H1 & H2). rewrite Ei in H2. destruct I as (I1 & I2).
  { split; cbn [e_fvi e_fvd e_ni e_nd]; [exact H1|rewrite app_length; apply tab_add; assumption]. }
  split; cbn [e_fvi e_fvd e_ni e_nd]; [exact I1|rewrite upd_length; exact I2].
Qed.
Variable mp : stack -> bytes.
Variable stc : bytes -> nat.
Lemma enc_frames_tabs l : forall s, tabs (fst s) -> tabs (fst (snd (enc_frames sha1 mp fvc nc stc l s))).
Proof.
  induction l as [|cf l IH]; intros s H; [exact H|]. cbn [enc_frames]. unfold enc_frame.
  assert (tabs (snd (enc_fv sha1 fvc nc (cf_fields cf) (fst s)))) as H1.
  { unfold enc_fv. destruct (cf_fields cf) as [f|]; [|exact H]. apply enc_fv_with_tabs; [|exact H]. apply enc_entries_tabs. intros k x _. apply enc_node_tabs. }
  destruct (enc_fv sha1 fvc nc (cf_fields cf) (fst s)) as [[cvl ci] e']. destruct (enc_stack sha1 mp stc (cf_stack cf) (snd s)) as [[si st] s']. cbn [snd] in H1.
  specialize (IH (e', s') H1). destruct (enc_frames sha1 mp fvc nc stc l (e', s')). exact IH.
Qed.
Lemma enc_frame_map_tabs l : forall s, tabs (fst s) -> tabs (fst (snd (enc_frame_map sha1 mp fvc nc stc l s))).
Proof.
  induction l as [|[k fs] l IH]; intros s H; [exact H|]. cbn [enc_frame_map]. pose proof (enc_frames_tabs fs s H) as H1.
  destruct (enc_frames sha1 mp fvc nc stc fs s) as [es s1]. cbn [snd] in H1. specialize (IH s1 H1). destruct (enc_frame_map sha1 mp fvc nc stc l s1). exact IH.
Qed.
End Size.

(** For every result: the tables of maps and of values have no more entries than there are identifiers counted at least twice. *)
Theorem C15_tables_small : forall sha1 mp trc tr, let m := marshal sha1 mp trc tr in
  (exists ks, NoDup ks /\ length ks = length (et_fvdict m) /\ forall x, In x ks -> 2 <= count_occ bytes_eq_dec (fv_counted sha1 trc) x) /\
  (exists ks, NoDup ks /\ length ks = length (et_nodedict m) /\ forall x, In x ks -> 2 <= count_occ bytes_eq_dec (node_counted sha1 trc) x).
Proof.
  intros sha1 mp trc tr m. pose proof (eq_refl m) as Em. unfold m at 2, marshal in Em. cbv zeta in Em. clearbody m.
  match type of Em with context [enc_frame_map ?a ?b ?c ?d ?e (olist (tr_callers tr)) ?x] => pose proof (enc_frame_map_tabs a c d b e (olist (tr_callers tr)) x) as H1; destruct (enc_frame_map a b c d e (olist (tr_callers tr)) x) as [cr s1] end.
  match type of Em with context [enc_frame_map ?a ?b ?c ?d ?e (olist (tr_ext tr)) ?x] => pose proof (enc_frame_map_tabs a c d b e (olist (tr_ext tr)) x) as H2; destruct (enc_frame_map a b c d e (olist (tr_ext tr)) x) as [ex s2] end.
  cbn [fst snd] in H1, H2. destruct H2 as (T1 & T2).
  { apply H1. unfold tabs, tab. cbn [e_fvi e_fvd e_ni e_nd]. destruct (has_dup (fv_counted sha1 trc)), (has_dup (node_counted sha1 trc)); repeat split; constructor. }
  subst m. cbn [et_fvdict et_nodedict]. rewrite !map_length.
  assert (forall cnt idx n, tab cnt idx n -> exists ks, NoDup ks /\ length ks = n /\ forall x : bytes, In x ks -> 2 <= cnt x) as K.
  { intros cnt [m|] n H; [|exists []; cbn in H; subst n; repeat split; [constructor|intros x []]]. destruct H as (N & L & F). exists (mkeys m). split; [exact N|]. split; [unfold mkeys; rewrite map_length; exact L|apply Forall_forall, F]. }
  split; [exact (K _ _ _ T1)|exact (K _ _ _ T2)].
Qed.
Print Assumptions C15_tables_small.
(** One map and one value twice, another value once. *)
Example C15_tables_small_example :
  let f := Some [(B "p", FVal (B "once more") None)] in
  let tr := TResult (B "T") (B "TestA") (Some [(B "m.F", [CFrame f None 5%N; CFrame f None 6%N; CFrame (Some [(B "q", FVal (B "single") None)]) None 7%N])]) None None 3%Z true None in
  let m := marshal (fun b => b) (fun s => []) tr tr in
  length (et_fvdict m) = 1%nat /\ et_nodedict m = [EFV None (B "once more") None None].
Proof. vm_compute. split; reflexivity. Qed.
