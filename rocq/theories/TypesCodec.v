(** Round trip of the dictionary encoding of test results. *)

From Verif Require Import Base Maps TypesModel TypesSpec TypesProofs.
From Coq Require Import Permutation.

(** ** Shapes: what an encoding may look like, given the source tree of every
    dictionary slot *)

Section Shapes.
Variables (Gn : list fval) (Gf : list fvals).

Inductive nshape : encfv -> fval -> Prop :=
| ns_ref i t t' : nth_error Gn i = Some t' -> same_tree t' t -> nshape (EFV (Some i) [] None None) t
| ns_inl e t : ishape e t -> nshape e t
with ishape : encfv -> fval -> Prop :=
| is_leaf v c : olist c = [] -> ishape (EFV None v None None) (FVal v c)
| is_ref v c i f : nth_error Gf i = Some f -> same_fields f c -> ishape (EFV None v (Some i) None) (FVal v c)
| is_inl v c l : lshape l (olist c) -> ishape (EFV None v None (Some l)) (FVal v c)
with lshape : list (bytes * encfv) -> list (bytes * fval) -> Prop :=
| ls_nil : lshape [] []
| ls_cons k e x l l' : nshape e x -> lshape l l' -> lshape ((k, e) :: l) ((k, x) :: l').

Scheme nshape_mind := Induction for nshape Sort Prop
with ishape_mind := Induction for ishape Sort Prop
with lshape_mind := Induction for lshape Sort Prop.
Combined Scheme shape_mind from nshape_mind, ishape_mind, lshape_mind.
End Shapes.

Definition ext {A} (l l' : list A) : Prop := exists r, l' = l ++ r.
Lemma ext_refl {A} (l : list A) : ext l l.
Proof. exists []; symmetry; apply app_nil_r. Qed.
Lemma ext_trans {A} (a b c : list A) : ext a b -> ext b c -> ext a c.
Proof. intros [r ->] [r' ->]. exists (r ++ r'). apply app_assoc_reverse. Qed.
Lemma ext_snoc {A} (l : list A) x : ext l (l ++ [x]).
Proof. exists [x]; reflexivity. Qed.
Lemma ext_length {A} (l l' : list A) : ext l l' -> (length l <= length l')%nat.
Proof. intros [r ->]. rewrite app_length. lia. Qed.
Lemma ext_nth {A} (l l' : list A) i x : ext l l' -> nth_error l i = Some x -> nth_error l' i = Some x.
Proof.
  intros [r ->] H. rewrite nth_error_app1; [exact H|]. apply nth_error_Some. congruence.
Qed.
Lemma nth_snoc {A} (l : list A) x : nth_error (l ++ [x]) (length l) = Some x.
Proof. rewrite nth_error_app2 by lia. rewrite Nat.sub_diag. reflexivity. Qed.

Lemma shape_mono Gn Gf Gn' Gf' : ext Gn Gn' -> ext Gf Gf' ->
  (forall e t, nshape Gn Gf e t -> nshape Gn' Gf' e t) /\
  (forall e t, ishape Gn Gf e t -> ishape Gn' Gf' e t) /\
  (forall l l', lshape Gn Gf l l' -> lshape Gn' Gf' l l').
Proof.
  intros En Ef. apply shape_mind; intros.
  - eapply ns_ref; [eapply ext_nth; eassumption|assumption].
  - apply ns_inl; assumption.
  - apply is_leaf; assumption.
  - eapply is_ref; [eapply ext_nth; eassumption|assumption].
  - apply is_inl; assumption.
  - constructor.
  - constructor; assumption.
Qed.

Lemma wire_node_eq ni v ci cvl :
  wire_node (EFV ni v ci cvl) =
  EFV ni v ci (omit (option_map (map (fun e => (fst e, wire_node (snd e)))) cvl)).
Proof.
  destruct cvl as [[|[k x] l]|]; [reflexivity| |reflexivity].
  cbn [wire_node option_map map omit fst snd]. do 2 f_equal. f_equal.
  induction l as [|[k' x'] l IH]; [reflexivity|]. cbn [map fst snd]. f_equal. exact IH.
Qed.

Lemma shape_wire Gn Gf :
  (forall e t, nshape Gn Gf e t -> nshape Gn Gf (wire_node e) t) /\
  (forall e t, ishape Gn Gf e t -> ishape Gn Gf (wire_node e) t) /\
  (forall l l', lshape Gn Gf l l' -> lshape Gn Gf (map (fun e => (fst e, wire_node (snd e))) l) l').
Proof.
  apply shape_mind; intros.
  - eapply ns_ref; eassumption.
  - apply ns_inl; assumption.
  - apply is_leaf; assumption.
  - eapply is_ref; eassumption.
  - rewrite wire_node_eq. cbn [option_map].
    match goal with L : lshape _ _ ?q _, H : lshape _ _ (map _ ?q) _ |- _ =>
      destruct q as [|e0 q']; [cbn; inversion L; apply is_leaf; congruence|cbn [map omit]; apply is_inl; exact H] end.
  - constructor.
  - cbn [map fst snd]. constructor; assumption.
Qed.

Lemma upd_length {A} (l : list A) : forall p x, length (upd l p x) = length l.
Proof. induction l as [|y l IH]; intros [|p] x; cbn; auto. Qed.
Lemma upd_same {A} (l : list A) : forall p x, (p < length l)%nat -> nth_error (upd l p x) p = Some x.
Proof. induction l as [|y l IH]; intros [|p] x H; cbn in *; try lia; auto. apply IH; lia. Qed.
Lemma upd_other {A} (l : list A) : forall p i x, i <> p -> nth_error (upd l p x) i = nth_error l i.
Proof. induction l as [|y l IH]; intros [|p] [|i] x H; cbn; auto; try lia. Qed.

Section Codec.
Variable sha1 : bytes -> bytes.
Variable mp : stack -> bytes.
Variables fvc nc stc : bytes -> nat.
Variables (Pn : fval -> Prop) (Pf : fvals -> Prop) (Ps : stack -> Prop).
Hypothesis Pn_f : forall v c, Pn (FVal v c) -> Pf c.
Hypothesis Pf_n : forall f k x, Pf f -> In (k, x) (olist f) -> Pn x.
Hypothesis Pn_wf : forall n, Pn n -> fwf n.
Hypothesis Pf_wf : forall f, Pf f -> fvals_wf f.
Hypothesis Cf : forall a b, Pf a -> Pf b -> fvals_id sha1 a = fvals_id sha1 b -> same_fields a b.
Hypothesis Cn : forall a b, Pn a -> Pn b -> fval_id sha1 a = fval_id sha1 b -> same_tree a b.
Hypothesis Cs : forall a b, Ps a -> Ps b -> any_key sha1 mp a = any_key sha1 mp b -> same_list a b.

Let encn := enc_node sha1 fvc nc.
Let encl := enc_entries sha1 fvc nc.

Lemma enc_node_eq v c s :
  encn (FVal v c) s =
  let inline (s : est) :=
    match olist c with
    | [] => (EFV None v None None, s)
    | l => let '(cvl, ci, s') := enc_fv_with fvc (encl l) (fvals_id sha1 c) s in
           match ci with Some i => (EFV None v (Some i) None, s') | None => (EFV None v None cvl, s') end
    end in
  let key := fval_id sha1 (FVal v c) in
  match (match e_ni s with Some m => if (1 <? nc key)%nat then Some m else None | None => None end) with
  | Some m =>
      match mget key m with
      | Some pos => (EFV (Some pos) [] None None, s)
      | None =>
          let pos := length (e_nd s) in
          let s1 := Est (e_fvi s) (e_fvd s) (Some (mset key pos m)) (e_nd s ++ [EFV None [] None None]) in
          let '(ef, s2) := inline s1 in
          (EFV (Some pos) [] None None, Est (e_fvi s2) (e_fvd s2) (e_ni s2) (upd (e_nd s2) pos ef))
      end
  | None => inline s
  end.
Proof. destruct c as [[|e l]|]; reflexivity. Qed.

Definition good (s : est) (Gn : list fval) (Gf : list fvals) : Prop :=
  length (e_nd s) = length Gn /\ length (e_fvd s) = length Gf /\
  (forall t, In t Gn -> Pn t) /\ (forall f, In f Gf -> Pf f) /\
  (forall m key pos, e_ni s = Some m -> mget key m = Some pos ->
     exists t, nth_error Gn pos = Some t /\ fval_id sha1 t = key) /\
  (forall m key pos, e_fvi s = Some m -> mget key m = Some pos ->
     exists f, nth_error Gf pos = Some f /\ fvals_id sha1 f = key).

Definition seg s (Gn : list fval) (Gf : list fvals) s' (Gn' : list fval) (Gf' : list fvals) : Prop :=
  ext Gn Gn' /\ ext Gf Gf' /\ good s' Gn' Gf' /\
  (forall i, (i < length Gn)%nat -> nth_error (e_nd s') i = nth_error (e_nd s) i) /\
  (forall i, (i < length Gf)%nat -> nth_error (e_fvd s') i = nth_error (e_fvd s) i) /\
  (forall i t, (length Gn <= i)%nat -> nth_error Gn' i = Some t ->
     exists e, nth_error (e_nd s') i = Some e /\ ishape Gn' Gf' e t) /\
  (forall i f, (length Gf <= i)%nat -> nth_error Gf' i = Some f ->
     exists l, nth_error (e_fvd s') i = Some (Some l) /\ lshape Gn' Gf' l (olist f)).

Lemma seg_refl s Gn Gf : good s Gn Gf -> seg s Gn Gf s Gn Gf.
Proof using.
  clear. intros H. split; [apply ext_refl|]. split; [apply ext_refl|]. split; [exact H|].
  split; [reflexivity|]. split; [reflexivity|]. split; intros i t Hi E;
    exfalso; apply nth_error_None in Hi; congruence.
Qed.

Lemma seg_trans s Gn Gf s1 Gn1 Gf1 s2 Gn2 Gf2 :
  seg s Gn Gf s1 Gn1 Gf1 -> seg s1 Gn1 Gf1 s2 Gn2 Gf2 -> seg s Gn Gf s2 Gn2 Gf2.
Proof using.
  clear. intros (E1 & F1 & G1 & On1 & Of1 & Nn1 & Nf1) (E2 & F2 & G2 & On2 & Of2 & Nn2 & Nf2).
  pose proof (ext_length _ _ E1). pose proof (ext_length _ _ F1).
  destruct (shape_mono _ _ _ _ E2 F2) as (Mn & Mi & Ml).
  split; [eapply ext_trans; eassumption|]. split; [eapply ext_trans; eassumption|].
  split; [exact G2|].
  split; [intros i Hi; rewrite On2 by lia; apply On1; exact Hi|].
  split; [intros i Hi; rewrite Of2 by lia; apply Of1; exact Hi|].
  split.
  - intros i t Hi E. destruct (Nat.lt_ge_cases i (length Gn1)) as [Hlt|Hge]; [|apply Nn2; assumption].
    destruct E2 as [r Er]. rewrite Er, nth_error_app1 in E by exact Hlt.
    destruct (Nn1 i t Hi E) as (e & He & Hs). exists e. rewrite On2 by exact Hlt. auto.
  - intros i f Hi E. destruct (Nat.lt_ge_cases i (length Gf1)) as [Hlt|Hge]; [|apply Nf2; assumption].
    destruct F2 as [r Er]. rewrite Er, nth_error_app1 in E by exact Hlt.
    destruct (Nf1 i f Hi E) as (l & He & Hs). exists l. rewrite Of2 by exact Hlt. auto.
Qed.

(** [run] encodes the entries [l]. *)
Definition runs (run : est -> list (bytes * encfv) * est) (l : list (bytes * fval)) : Prop :=
  forall s Gn Gf, good s Gn Gf ->
    exists es s' Gn' Gf', run s = (es, s') /\ seg s Gn Gf s' Gn' Gf' /\ lshape Gn' Gf' es l.

Lemma enc_fv_with_ok run src s Gn Gf :
  runs run (olist src) -> Pf src -> good s Gn Gf ->
  exists cvl ci s' Gn' Gf', enc_fv_with fvc run (fvals_id sha1 src) s = (cvl, ci, s') /\
    seg s Gn Gf s' Gn' Gf' /\
    ((exists es, ci = None /\ cvl = Some es /\ lshape Gn' Gf' es (olist src)) \/
     (exists i f, ci = Some i /\ cvl = None /\ nth_error Gf' i = Some f /\ same_fields f src)).
Proof.
  intros Hrun HP HG. unfold enc_fv_with. set (key := fvals_id sha1 src).
  destruct (match e_fvi s with Some m => if (1 <? fvc key)%nat then Some m else None | None => None end)
    as [m|] eqn:Em.
  2:{ destruct (Hrun s Gn Gf HG) as (es & s' & Gn' & Gf' & -> & Hseg & Hl).
      exists (Some es), None, s', Gn', Gf'. split; [reflexivity|]. split; [exact Hseg|].
      left; exists es; auto. }
  assert (e_fvi s = Some m) as Em' by (destruct (e_fvi s); [destruct (1 <? fvc key)%nat|]; congruence).
  pose proof HG as (Ln & Lf & An & Af & In_ & If_).
  destruct (mget key m) as [pos|] eqn:Ek.
  - destruct (If_ m key pos Em' Ek) as (f & Hf & Hid).
    exists None, (Some pos), s, Gn, Gf. split; [reflexivity|]. split; [apply seg_refl; exact HG|].
    right; exists pos, f. split; [reflexivity|]. split; [reflexivity|]. split; [exact Hf|].
    apply Cf; [apply Af; eapply nth_error_In; exact Hf|exact HP|exact Hid].
  - set (pos := length (e_fvd s)).
    set (s1 := Est (Some (mset key pos m)) (e_fvd s ++ [None]) (e_ni s) (e_nd s)).
    assert (good s1 Gn (Gf ++ [src])) as HG1.
    { unfold s1. split; [exact Ln|]. cbn [e_fvd e_fvi e_ni e_nd].
      split; [rewrite !app_length, Lf; reflexivity|]. split; [exact An|].
      split; [intros f Hf; apply in_app_iff in Hf as [Hf|[<-|[]]]; [apply Af; exact Hf|exact HP]|].
      split; [exact In_|]. intros m' key' pos' [= <-] E. rewrite mget_mset in E.
      destruct (beq_spec key' key) as [->|Hne].
      - injection E as <-. exists src. split; [|reflexivity]. unfold pos. rewrite Lf. apply nth_snoc.
      - destruct (If_ m key' pos' Em' E) as (f & Hf & Hid). exists f. split; [|exact Hid].
        eapply ext_nth; [apply ext_snoc|exact Hf]. }
    destruct (Hrun s1 Gn _ HG1) as (es & s2 & Gn2 & Gf2 & -> & Hseg & Hl).
    destruct Hseg as (E2 & F2 & G2 & On2 & Of2 & Nn2 & Nf2).
    destruct G2 as (Ln2 & Lf2 & An2 & Af2 & In2 & If2).
    pose proof (ext_length _ _ F2) as Hlen. rewrite app_length in Hlen. cbn [length] in Hlen.
    assert (nth_error Gf2 pos = Some src) as Hsrc.
    { eapply ext_nth; [exact F2|]. unfold pos. rewrite Lf. apply nth_snoc. }
    exists None, (Some pos), (Est (e_fvi s2) (upd (e_fvd s2) pos (Some es)) (e_ni s2) (e_nd s2)), Gn2, Gf2.
    split; [reflexivity|]. split.
    + split; [exact E2|]. split; [eapply ext_trans; [apply ext_snoc|exact F2]|].
      split.
      { split; [exact Ln2|]. cbn [e_fvd e_fvi e_ni e_nd]. split; [rewrite upd_length; exact Lf2|].
        split; [exact An2|]. split; [exact Af2|]. split; [exact In2|exact If2]. }
      cbn [e_fvd e_fvi e_ni e_nd].
      split; [exact On2|].
      split.
      { intros i Hi. rewrite upd_other by (unfold pos; rewrite Lf; lia).
        rewrite Of2 by (rewrite app_length; cbn; lia). unfold s1; cbn [e_fvd].
        apply nth_error_app1. rewrite Lf. exact Hi. }
      split; [exact Nn2|].
      intros i f Hi E. destruct (Nat.eq_dec i pos) as [->|Hne].
      * rewrite Hsrc in E. injection E as <-. exists es. split; [apply upd_same; unfold pos; lia|exact Hl].
      * rewrite upd_other by exact Hne. apply Nf2; [|exact E].
        rewrite app_length; cbn; unfold pos in Hne; rewrite Lf in Hne; lia.
    + right. exists pos, src. split; [reflexivity|]. split; [reflexivity|].
      split; [exact Hsrc|apply same_fields_refl].
Qed.

Definition encodes_node (n : fval) : Prop :=
  forall s Gn Gf, Pn n -> good s Gn Gf ->
    exists e s' Gn' Gf', encn n s = (e, s') /\ seg s Gn Gf s' Gn' Gf' /\ nshape Gn' Gf' e n.

Lemma entries_run l :
  (forall k x, In (k, x) l -> encodes_node x /\ Pn x) -> runs (encl l) l.
Proof.
  induction l as [|[k x] l IH]; intros H s Gn Gf HG.
  - exists [], s, Gn, Gf. split; [reflexivity|]. split; [apply seg_refl; exact HG|constructor].
  - destruct (H k x (or_introl eq_refl)) as [Hx Px].
    destruct (Hx s Gn Gf Px HG) as (e & s1 & Gn1 & Gf1 & E1 & S1 & N1).
    destruct (IH (fun k x Hin => H k x (or_intror Hin)) s1 Gn1 Gf1) as (es & s2 & Gn2 & Gf2 & E2 & S2 & N2);
      [apply S1|].
    exists ((k, e) :: es), s2, Gn2, Gf2. unfold encl, encn in *. cbn [enc_entries]. rewrite E1, E2.
    split; [reflexivity|]. split; [eapply seg_trans; eassumption|].
    constructor; [|exact N2]. destruct S2 as (E & F & _).
    apply (proj1 (shape_mono _ _ _ _ E F)). exact N1.
Qed.

Lemma enc_node_ok n : encodes_node n.
Proof.
  induction n as [v c IH] using fval_ind'. intros s Gn Gf HP HG.
  assert (Pf c) as HPc by (eapply Pn_f; exact HP).
  assert (runs (encl (olist c)) (olist c)) as Hruns.
  { apply entries_run. intros k x Hin. split; [eapply IH; exact Hin|eapply Pf_n; eassumption]. }
  rewrite enc_node_eq.
  set (inline := fun s : est => match olist c with
    | [] => (EFV None v None None, s)
    | l => let '(cvl, ci, s') := enc_fv_with fvc (encl l) (fvals_id sha1 c) s in
           match ci with Some i => (EFV None v (Some i) None, s') | None => (EFV None v None cvl, s') end
    end).
  assert (forall s Gn Gf, good s Gn Gf -> exists e s' Gn' Gf', inline s = (e, s') /\
    seg s Gn Gf s' Gn' Gf' /\ ishape Gn' Gf' e (FVal v c)) as Hin.
  { clear s Gn Gf HG. intros s Gn Gf HG. unfold inline.
    destruct (enc_fv_with_ok (encl (olist c)) c s Gn Gf Hruns HPc HG)
      as (cvl & ci & s' & Gn' & Gf' & E & Hseg & Hcase).
    destruct (olist c) as [|e0 l0] eqn:Ec.
    - exists (EFV None v None None), s, Gn, Gf. split; [reflexivity|]. split; [apply seg_refl; exact HG|].
      apply is_leaf; exact Ec.
    - rewrite E. destruct Hcase as [(es & -> & -> & Hl)|(i & f & -> & -> & Hf & Hsf)].
      + exists (EFV None v None (Some es)), s', Gn', Gf'. split; [reflexivity|]. split; [exact Hseg|].
        apply is_inl. rewrite Ec. exact Hl.
      + exists (EFV None v (Some i) None), s', Gn', Gf'. split; [reflexivity|]. split; [exact Hseg|].
        eapply is_ref; eassumption. }
  clearbody inline. cbn zeta.
  set (key := fval_id sha1 (FVal v c)).
  destruct (match e_ni s with Some m => if (1 <? nc key)%nat then Some m else None | None => None end)
    as [m|] eqn:Em.
  2:{ destruct (Hin s Gn Gf HG) as (e & s' & Gn' & Gf' & E & Hseg & Hs).
      exists e, s', Gn', Gf'. split; [exact E|]. split; [exact Hseg|]. apply ns_inl; exact Hs. }
  assert (e_ni s = Some m) as Em' by (destruct (e_ni s); [destruct (1 <? nc key)%nat|]; congruence).
  pose proof HG as (Ln & Lf & An & Af & In_ & If_).
  destruct (mget key m) as [pos|] eqn:Ek.
  - destruct (In_ m key pos Em' Ek) as (t & Ht & Hid).
    exists (EFV (Some pos) [] None None), s, Gn, Gf. split; [reflexivity|].
    split; [apply seg_refl; exact HG|]. eapply ns_ref; [exact Ht|].
    apply Cn; [apply An; eapply nth_error_In; exact Ht|exact HP|exact Hid].
  - set (pos := length (e_nd s)).
    set (s1 := Est (e_fvi s) (e_fvd s) (Some (mset key pos m)) (e_nd s ++ [EFV None [] None None])).
    assert (good s1 (Gn ++ [FVal v c]) Gf) as HG1.
    { unfold s1. cbn [good e_fvd e_fvi e_ni e_nd]. unfold good. cbn [e_fvd e_fvi e_ni e_nd].
      split; [rewrite !app_length, Ln; reflexivity|]. split; [exact Lf|].
      split; [intros f Hf; apply in_app_iff in Hf as [Hf|[<-|[]]]; [apply An; exact Hf|exact HP]|].
      split; [exact Af|]. split; [|exact If_]. intros m' key' pos' [= <-] E. rewrite mget_mset in E.
      destruct (beq_spec key' key) as [->|Hne].
      - injection E as <-. exists (FVal v c). split; [|reflexivity]. unfold pos. rewrite Ln. apply nth_snoc.
      - destruct (In_ m key' pos' Em' E) as (f & Hf & Hid). exists f. split; [|exact Hid].
        eapply ext_nth; [apply ext_snoc|exact Hf]. }
    destruct (Hin s1 _ Gf HG1) as (ef & s2 & Gn2 & Gf2 & -> & Hseg & Hs).
    destruct Hseg as (E2 & F2 & G2 & On2 & Of2 & Nn2 & Nf2).
    destruct G2 as (Ln2 & Lf2 & An2 & Af2 & In2 & If2).
    pose proof (ext_length _ _ E2) as Hlen. rewrite app_length in Hlen. cbn [length] in Hlen.
    assert (nth_error Gn2 pos = Some (FVal v c)) as Hsrc.
    { eapply ext_nth; [exact E2|]. unfold pos. rewrite Ln. apply nth_snoc. }
    exists (EFV (Some pos) [] None None), (Est (e_fvi s2) (e_fvd s2) (e_ni s2) (upd (e_nd s2) pos ef)), Gn2, Gf2.
    split; [reflexivity|]. split.
    + split; [eapply ext_trans; [apply ext_snoc|exact E2]|]. split; [exact F2|].
      split.
      { unfold good. cbn [e_fvd e_fvi e_ni e_nd]. split; [rewrite upd_length; exact Ln2|]. split; [exact Lf2|].
        split; [exact An2|]. split; [exact Af2|]. split; [exact In2|exact If2]. }
      cbn [e_fvd e_fvi e_ni e_nd].
      split.
      { intros i Hi. rewrite upd_other by (unfold pos; rewrite Ln; lia).
        rewrite On2 by (rewrite app_length; cbn; lia). unfold s1; cbn [e_nd].
        apply nth_error_app1. rewrite Ln. exact Hi. }
      split; [exact Of2|].
      split; [|exact Nf2].
      intros i t Hi E. destruct (Nat.eq_dec i pos) as [->|Hne].
      * rewrite Hsrc in E. injection E as <-. exists ef. split; [apply upd_same; unfold pos; lia|exact Hs].
      * rewrite upd_other by exact Hne. apply Nn2; [|exact E].
        rewrite app_length; cbn; unfold pos in Hne; rewrite Ln in Hne; lia.
    + eapply ns_ref; [exact Hsrc|apply same_tree_refl].
Qed.

(** Shape of an encoded top-level field map. *)
Definition fshape Gn Gf (cvl : encfvs) (ci : option nat) (src : fvals) : Prop :=
  (ci = None /\ (cvl = None /\ olist src = [] \/ exists es, cvl = Some es /\ lshape Gn Gf es (olist src))) \/
  (exists i f, ci = Some i /\ nth_error Gf i = Some f /\ same_fields f src).

Lemma enc_fv_ok src s Gn Gf : Pf src -> good s Gn Gf ->
  exists cvl ci s' Gn' Gf', enc_fv sha1 fvc nc src s = (cvl, ci, s') /\
    seg s Gn Gf s' Gn' Gf' /\ fshape Gn' Gf' cvl ci src.
Proof.
  intros HP HG. unfold enc_fv. destruct src as [l|].
  - destruct (enc_fv_with_ok (encl l) (Some l) s Gn Gf) as (cvl & ci & s' & Gn' & Gf' & E & Hseg & Hc); auto.
    { apply entries_run. intros k x Hin. split; [apply enc_node_ok|]. eapply (Pf_n (Some l)); eassumption. }
    exists cvl, ci, s', Gn', Gf'. split; [exact E|]. split; [exact Hseg|].
    destruct Hc as [(es & -> & -> & Hl)|(i & f & -> & _ & Hf)].
    + left. split; [reflexivity|]. right. exists es; auto.
    + right. exists i, f. auto.
  - exists None, None, s, Gn, Gf. split; [reflexivity|]. split; [apply seg_refl; exact HG|].
    left. auto.
Qed.

Lemma fshape_mono Gn Gf Gn' Gf' cvl ci src :
  ext Gn Gn' -> ext Gf Gf' -> fshape Gn Gf cvl ci src -> fshape Gn' Gf' cvl ci src.
Proof.
  intros E F [(-> & [H|(es & -> & H)])|(i & f & -> & H & H')].
  - left; auto.
  - left. split; [reflexivity|]. right; exists es. split; [reflexivity|].
    apply (proj2 (proj2 (shape_mono _ _ _ _ E F))). exact H.
  - right. exists i, f. split; [reflexivity|]. split; [eapply ext_nth; eassumption|exact H'].
Qed.

(** ** Stacks *)

Definition sgood (s : sst) : Prop :=
  (forall st, In st (s_dict s) -> Ps st) /\
  (forall m key pos, s_idx s = Some m -> mget key m = Some pos ->
     exists st, nth_error (s_dict s) pos = Some st /\ any_key sha1 mp st = key).

Definition sshape (D : list stack) (si : option nat) (st' st : stack) : Prop :=
  match si with
  | Some i => exists st0, nth_error D i = Some st0 /\ same_list st0 st
  | None => same_list st' st
  end.

Lemma enc_stack_ok st s : Ps st -> sgood s ->
  exists si st' s', enc_stack sha1 mp stc st s = (si, st', s') /\ sgood s' /\
    ext (s_dict s) (s_dict s') /\ sshape (s_dict s') si st' st.
Proof.
  intros HP [A Ix]. unfold enc_stack. set (key := any_key sha1 mp st).
  destruct (match s_idx s with Some m => if (1 <? stc key)%nat then Some m else None | None => None end)
    as [m|] eqn:Em.
  2:{ exists None, st, s. split; [reflexivity|]. split; [split; assumption|].
      split; [apply ext_refl|reflexivity]. }
  assert (s_idx s = Some m) as Em' by (destruct (s_idx s); [destruct (1 <? stc key)%nat|]; congruence).
  destruct (mget key m) as [pos|] eqn:Ek.
  - destruct (Ix m key pos Em' Ek) as (st0 & H0 & Hid).
    exists (Some pos), None, s. split; [reflexivity|]. split; [split; assumption|].
    split; [apply ext_refl|]. exists st0. split; [exact H0|].
    apply Cs; [apply A; eapply nth_error_In; exact H0|exact HP|exact Hid].
  - eexists (Some _), None, _. split; [reflexivity|]. cbn [s_dict s_idx]. split.
    + split; cbn [s_dict s_idx].
      * intros x Hx. apply in_app_iff in Hx as [Hx|[<-|[]]]; [apply A; exact Hx|exact HP].
      * intros m' key' pos' [= <-] E. rewrite mget_mset in E. destruct (beq_spec key' key) as [->|Hne].
        -- injection E as <-. exists st. split; [apply nth_snoc|reflexivity].
        -- destruct (Ix m key' pos' Em' E) as (x & Hx & Hid). exists x. split; [|exact Hid].
           eapply ext_nth; [apply ext_snoc|exact Hx].
    + split; [apply ext_snoc|]. exists st. split; [apply nth_snoc|reflexivity].
Qed.

(** ** Frames *)

Definition frshape Gn Gf D (e : encframe) (cf : cframe) : Prop :=
  fshape Gn Gf (ef_fv e) (ef_fvi e) (cf_fields cf) /\
  sshape D (ef_si e) (ef_st e) (cf_stack cf) /\ ef_t e = cf_time cf.

Lemma frshape_mono Gn Gf D Gn' Gf' D' e cf :
  ext Gn Gn' -> ext Gf Gf' -> ext D D' -> frshape Gn Gf D e cf -> frshape Gn' Gf' D' e cf.
Proof.
  intros E F X (H1 & H2 & H3). split; [eapply fshape_mono; eassumption|]. split; [|exact H3].
  unfold sshape in *. destruct (ef_si e); [|exact H2]. destruct H2 as (st0 & H & H').
  exists st0. split; [eapply ext_nth; eassumption|exact H'].
Qed.

Definition frame_ok (cf : cframe) : Prop := Pf (cf_fields cf) /\ Ps (cf_stack cf).

Lemma enc_frame_ok cf s Gn Gf : frame_ok cf -> good (fst s) Gn Gf -> sgood (snd s) ->
  exists e s' Gn' Gf', enc_frame sha1 mp fvc nc stc cf s = (e, s') /\
    seg (fst s) Gn Gf (fst s') Gn' Gf' /\ sgood (snd s') /\ ext (s_dict (snd s)) (s_dict (snd s')) /\
    frshape Gn' Gf' (s_dict (snd s')) e cf.
Proof.
  intros [Hf Hs] HG SG. unfold enc_frame.
  destruct (enc_fv_ok (cf_fields cf) (fst s) Gn Gf Hf HG) as (cvl & ci & s1 & Gn1 & Gf1 & -> & Hseg & Hsh).
  destruct (enc_stack_ok (cf_stack cf) (snd s) Hs SG) as (si & st' & s2 & -> & SG2 & SE & SS).
  eexists _, (s1, s2), Gn1, Gf1. split; [reflexivity|]. cbn [fst snd].
  split; [exact Hseg|]. split; [exact SG2|]. split; [exact SE|].
  split; [|split; [exact SS|reflexivity]]. cbn [ef_fv ef_fvi].
  destruct Hsh as [(-> & H)|(i & f & -> & H & H')]; [left; auto|right; exists i, f; auto].
Qed.

Lemma enc_frames_ok l : forall s Gn Gf, Forall frame_ok l -> good (fst s) Gn Gf -> sgood (snd s) ->
  exists es s' Gn' Gf', enc_frames sha1 mp fvc nc stc l s = (es, s') /\
    seg (fst s) Gn Gf (fst s') Gn' Gf' /\ sgood (snd s') /\ ext (s_dict (snd s)) (s_dict (snd s')) /\
    Forall2 (frshape Gn' Gf' (s_dict (snd s'))) es l.
Proof.
  induction l as [|cf l IH]; intros s Gn Gf F HG SG.
  - exists [], s, Gn, Gf. split; [reflexivity|]. split; [apply seg_refl; exact HG|].
    split; [exact SG|]. split; [apply ext_refl|constructor].
  - inversion F as [|? ? F1 F2]; subst.
    destruct (enc_frame_ok cf s Gn Gf F1 HG SG) as (e & s1 & Gn1 & Gf1 & E1 & S1 & SG1 & X1 & H1).
    destruct (IH s1 Gn1 Gf1 F2) as (es & s2 & Gn2 & Gf2 & E2 & S2 & SG2 & X2 & H2); [apply S1|exact SG1|].
    exists (e :: es), s2, Gn2, Gf2. cbn [enc_frames]. rewrite E1, E2. split; [reflexivity|].
    split; [eapply seg_trans; eassumption|]. split; [exact SG2|]. split; [eapply ext_trans; eassumption|].
    constructor; [|exact H2]. destruct S2 as (En & Ef & _). eapply frshape_mono; eassumption.
Qed.

Definition mshape Gn Gf D (es : list (bytes * list encframe)) (l : list (bytes * list cframe)) : Prop :=
  Forall2 (fun a b => fst a = fst b /\ Forall2 (frshape Gn Gf D) (snd a) (snd b)) es l.

Lemma mshape_mono Gn Gf D Gn' Gf' D' es l :
  ext Gn Gn' -> ext Gf Gf' -> ext D D' -> mshape Gn Gf D es l -> mshape Gn' Gf' D' es l.
Proof.
  intros E F X H. unfold mshape in *. induction H as [|a b es l [H1 H2] H IH]; constructor; auto.
  split; [exact H1|]. clear -E F X H2. induction H2; constructor; auto.
  eapply frshape_mono; eassumption.
Qed.

Lemma enc_frame_map_ok l : forall s Gn Gf,
  (forall k fs, In (k, fs) l -> Forall frame_ok fs) -> good (fst s) Gn Gf -> sgood (snd s) ->
  exists es s' Gn' Gf', enc_frame_map sha1 mp fvc nc stc l s = (es, s') /\
    seg (fst s) Gn Gf (fst s') Gn' Gf' /\ sgood (snd s') /\ ext (s_dict (snd s)) (s_dict (snd s')) /\
    mshape Gn' Gf' (s_dict (snd s')) es l.
Proof.
  induction l as [|[k fs] l IH]; intros s Gn Gf F HG SG.
  - exists [], s, Gn, Gf. split; [reflexivity|]. split; [apply seg_refl; exact HG|].
    split; [exact SG|]. split; [apply ext_refl|constructor].
  - destruct (enc_frames_ok fs s Gn Gf (F k fs (or_introl eq_refl)) HG SG)
      as (e & s1 & Gn1 & Gf1 & E1 & S1 & SG1 & X1 & H1).
    destruct (IH s1 Gn1 Gf1 (fun k fs H => F k fs (or_intror H))) as (es & s2 & Gn2 & Gf2 & E2 & S2 & SG2 & X2 & H2);
      [apply S1|exact SG1|].
    exists ((k, e) :: es), s2, Gn2, Gf2. cbn [enc_frame_map]. rewrite E1, E2. split; [reflexivity|].
    split; [eapply seg_trans; eassumption|]. split; [exact SG2|]. split; [eapply ext_trans; eassumption|].
    destruct S2 as (En & Ef & _). constructor; [|exact H2]. split; [reflexivity|]. cbn [snd].
    clear -H1 En Ef X2. induction H1; constructor; auto. eapply frshape_mono; eassumption.
Qed.

End Codec.

(** ** Decoding *)

Section Decode.
Variables (Pn : fval -> Prop) (Pf : fvals -> Prop).
Hypothesis Pn_wf : forall n, Pn n -> fwf n.
Hypothesis Pf_wf : forall f, Pf f -> fvals_wf f.
Variables (Gn : list fval) (Gf : list fvals) (nd : list encfv) (fvd : list encfvs).
Hypothesis Gn_ok : forall t, In t Gn -> Pn t.
Hypothesis Gf_ok : forall f, In f Gf -> Pf f.
Hypothesis nd_ok : forall i t, nth_error Gn i = Some t -> exists e, nth_error nd i = Some e /\ ishape Gn Gf e t.
Hypothesis fvd_ok : forall i f, nth_error Gf i = Some f ->
  exists l, nth_error fvd i = Some (Some l) /\ lshape Gn Gf l (olist f).

Lemma lshape_decode h fuel l l' :
  (forall k x, In (k, x) l' -> fwf x /\ (height x <= h)%nat) ->
  (forall e x, fwf x -> (height x <= h)%nat -> nshape Gn Gf e x ->
     exists x', dec_node fuel fvd nd e = DOk x' /\ same_tree x' x) ->
  lshape Gn Gf l l' ->
  exists r, dmap (fun e => dbind (dec_node fuel fvd nd (snd e)) (fun n => DOk (fst e, n))) l = DOk r /\
    Forall2 (fun a b => fst a = fst b /\ same_tree (snd a) (snd b)) r l'.
Proof.
  intros Hh Hd. revert l. induction l' as [|[k x] l' IH]; intros l0 H; inversion H as [|? e ? l ? Hn Hl]; subst.
  - exists []. split; [reflexivity|constructor].
  - destruct (Hh k x (or_introl eq_refl)) as [W L].
    destruct (Hd e x W L Hn) as (x' & E & S).
    destruct (IH (fun k' y Hy => Hh k' y (or_intror Hy)) l Hl) as (r & Er & Hr).
    exists ((k, x') :: r). cbn [dmap fst snd]. rewrite E. cbn [dbind]. rewrite Er. cbn [dbind].
    split; [reflexivity|]. constructor; [split; [reflexivity|exact S]|exact Hr].
Qed.

Lemma forall2_same_fields r f :
  Forall2 (fun a b : bytes * fval => fst a = fst b /\ same_tree (snd a) (snd b)) r (olist f) ->
  same_fields (Some r) f.
Proof.
  unfold same_fields. cbn [olist]. generalize (olist f) as l. intros l H.
  induction H as [|[k a] [k' b] r l [E S] H [IH1 IH2]]; cbn [fst snd] in *.
  - split; intros k a E; discriminate.
  - subst k'. split; intros q y; cbn [mget]; destruct (beq q k).
    + intros [= <-]. exists b; auto.
    + apply IH1.
    + intros [= <-]. exists a; auto.
    + apply IH2.
Qed.

Lemma decode_ok h :
  (forall e t fuel, fwf t -> (height t <= h)%nat -> (3 * h <= fuel)%nat -> nshape Gn Gf e t ->
     exists t', dec_node fuel fvd nd e = DOk t' /\ same_tree t' t) /\
  (forall cvl ci f fuel, fvals_wf f -> (fields_height f <= h)%nat -> (3 * h + 1 <= fuel)%nat ->
     fshape Gn Gf cvl ci f ->
     exists f', dec_fv fuel fvd nd cvl ci = DOk f' /\ same_fields f' f).
Proof.
  induction h as [|h [IHn IHf]].
  - assert (forall t, ~ (height t <= 0)%nat) as Z by (intros [v c]; rewrite height_eq; lia).
    split; [intros e t fuel _ H; exfalso; exact (Z t H)|].
    assert (forall f, (fields_height f <= 0)%nat -> olist f = []) as E0.
    { intros f H. rewrite fields_height_le in H. destruct (olist f) as [|[k x] l]; [reflexivity|].
      exfalso. apply (Z x), (H k x). left; reflexivity. }
    assert (forall f l, olist f = [] -> lshape Gn Gf l (olist f) -> l = []) as L0
      by (intros f l E H; rewrite E in H; inversion H; reflexivity).
    intros cvl ci f fuel Wf Hh Hfu Hsh. destruct fuel as [|fuel]; [lia|]. cbn [dec_fv].
    destruct Hsh as [(-> & [[-> E]|(es & -> & Hl)])|(i & g & -> & Hg & Hs)].
    + exists None. split; [reflexivity|]. split; intros k a; cbn; rewrite ?E; discriminate.
    + rewrite (L0 f es (E0 f Hh) Hl). cbn. exists (Some []). split; [reflexivity|].
      split; intros k a; cbn; rewrite ?(E0 f Hh); discriminate.
    + destruct (fvd_ok i g Hg) as (l & -> & Hl).
      assert (fields_height g <= 0)%nat as Hg0.
      { etransitivity; [apply (same_fields_height g f); auto|exact Hh].
        apply Pf_wf, Gf_ok. eapply nth_error_In; exact Hg. }
      rewrite (L0 g l (E0 g Hg0) Hl). cbn. exists (Some []). split; [reflexivity|].
      split; intros k a; cbn; rewrite ?(E0 f Hh); discriminate.
  - assert (forall e t fuel, fwf t -> (height t <= S h)%nat -> (3 * h + 2 <= fuel)%nat ->
      ishape Gn Gf e t -> exists t', dec_node fuel fvd nd e = DOk t' /\ same_tree t' t) as Hi.
    { intros e t fuel Wt Hh Hfu Hs. destruct fuel as [|fuel]; [lia|]. cbn [dec_node].
      destruct Hs as [v c E|v c i f Hf Hsf|v c l Hl].
      - exists (FVal v None). split; [reflexivity|]. apply same_tree_fields.
        split; intros k a; cbn; rewrite ?E; discriminate.
      - rewrite height_eq in Hh. inversion Wt as [? ? N1 W1]; subst.
        destruct (IHf None (Some i) c fuel) as (f' & Ef & Sf);
          [split; assumption|lia|lia|right; exists i, f; auto|].
        rewrite Ef. cbn [dbind]. exists (FVal v f'). split; [reflexivity|apply same_tree_fields; exact Sf].
      - rewrite height_eq in Hh. inversion Wt as [? ? N1 W1]; subst.
        destruct (IHf (Some l) None c fuel) as (f' & Ef & Sf);
          [split; assumption|lia|lia|left; split; [reflexivity|right; exists l; auto]|].
        rewrite Ef. cbn [dbind]. exists (FVal v f'). split; [reflexivity|apply same_tree_fields; exact Sf]. }
    assert (forall e t fuel, fwf t -> (height t <= S h)%nat -> (3 * S h <= fuel)%nat ->
      nshape Gn Gf e t -> exists t', dec_node fuel fvd nd e = DOk t' /\ same_tree t' t) as Hn.
    { intros e t fuel Wt Hh Hfu Hs. destruct Hs as [i t t' Ht Hst|e t Hs].
      - destruct fuel as [|fuel]; [lia|]. cbn [dec_node].
        destruct (nd_ok i t' Ht) as (e' & -> & Hs').
        assert (Pn t') as Pt' by (apply Gn_ok; eapply nth_error_In; exact Ht).
        destruct (Hi e' t' fuel) as (r & Er & Sr); auto; [|lia|].
        { etransitivity; [apply (same_tree_height t' (Pn_wf _ Pt') t Wt Hst)|exact Hh]. }
        exists r. split; [exact Er|eapply same_tree_trans; eassumption].
      - apply Hi; auto. lia. }
    split; [exact Hn|].
    intros cvl ci f fuel Wf Hh Hfu Hsh. destruct fuel as [|fuel]; [lia|]. cbn [dec_fv].
    assert (forall g l, fvals_wf g -> (fields_height g <= S h)%nat -> lshape Gn Gf l (olist g) ->
      exists r, dmap (fun e => dbind (dec_node fuel fvd nd (snd e)) (fun n => DOk (fst e, n))) l = DOk r /\
        same_fields (Some r) g) as HL.
    { intros g l [N1 W1] Hg Hl.
      destruct (lshape_decode (S h) fuel l (olist g)) as (r & Er & Fr); auto.
      - intros k x Hx. split; [exact (W1 _ _ Hx)|]. rewrite fields_height_le in Hg. exact (Hg k x Hx).
      - intros e x Wx Hx Hs. apply Hn; auto. lia.
      - exists r. split; [exact Er|apply forall2_same_fields; exact Fr]. }
    destruct Hsh as [(-> & [[-> E]|(es & -> & Hl)])|(i & g & -> & Hg & Hs)].
    + exists None. split; [reflexivity|]. split; intros k a; cbn; rewrite ?E; discriminate.
    + destruct (HL f es Wf Hh Hl) as (r & -> & Sr). exists (Some r). split; [reflexivity|exact Sr].
    + destruct (fvd_ok i g Hg) as (l & -> & Hl).
      assert (Pf g) as Pg by (apply Gf_ok; eapply nth_error_In; exact Hg).
      destruct (HL g l (Pf_wf _ Pg)) as (r & -> & Sr); [|exact Hl|].
      { etransitivity; [apply (same_fields_height g f); auto|exact Hh]. }
      exists (Some r). split; [reflexivity|eapply same_fields_trans; eassumption].
Qed.

End Decode.

(** ** Putting it together *)

Section RoundTrip.
Variable sha1 : bytes -> bytes.
Variable mp : stack -> bytes.

Definition result_wf (tr : tresult) : Prop := forall cf, In cf (all_frames tr) -> fvals_wf (cf_fields cf).

Lemma node_in_fields_step f v c k x :
  node_in_fields f (FVal v c) -> In (k, x) (olist c) -> node_in_fields f x.
Proof.
  intros H. remember (FVal v c) as n eqn:En. induction H as [f k0 x0 Hin|f k0 v0 c0 x0 Hin H IH]; intros Hx.
  - subst. eapply nif_below; [exact Hin|]. econstructor; exact Hx.
  - eapply nif_below; [exact Hin|]. apply IH; assumption.
Qed.

Lemma occurs_closed_n tr v c : occurs_node tr (FVal v c) -> occurs_fields tr c.
Proof. apply of_node. Qed.
Lemma occurs_closed_f tr f k x : occurs_fields tr f -> In (k, x) (olist f) -> occurs_node tr x.
Proof.
  intros [cf H|v c H] Hx.
  - econstructor; [exact H|]. econstructor; exact Hx.
  - inversion H as [cf n Hcf Hn]; subst. econstructor; [exact Hcf|]. eapply node_in_fields_step; eassumption.
Qed.

Lemma node_in_fields_wf f n : fvals_wf f -> node_in_fields f n -> fwf n.
Proof.
  intros W H. induction H as [f k x Hin|f k v c x Hin H IH].
  - apply W in Hin. exact Hin.
  - apply W in Hin. inversion Hin; subst. apply IH. split; assumption.
Qed.
Lemma occurs_node_wf tr n : result_wf tr -> occurs_node tr n -> fwf n.
Proof. intros W [cf x H H']. eapply node_in_fields_wf; [apply W; exact H|exact H']. Qed.
Lemma occurs_fields_wf tr f : result_wf tr -> occurs_fields tr f -> fvals_wf f.
Proof.
  intros W [cf H|v c H]; [apply W; exact H|].
  apply (occurs_node_wf tr _ W) in H. inversion H; subst; split; assumption.
Qed.

Lemma frame_map_frames (m : option (list (bytes * list cframe))) k fs cf :
  In (k, fs) (olist m) -> In cf fs -> In cf (concat (map snd (olist m))).
Proof.
  intros H Hcf. apply in_concat. exists fs. split; [|exact Hcf]. apply in_map_iff. exists (k, fs); auto.
Qed.

Lemma max_le_result tr cf : In cf (all_frames tr) ->
  (fields_height (cf_fields cf) <= result_height tr)%nat.
Proof.
  unfold result_height. induction (all_frames tr) as [|c l IH]; intros []; cbn; subst; [lia|].
  specialize (IH H). lia.
Qed.

Section Dec.
Variables (tr : tresult) (Gn : list fval) (Gf : list fvals) (t : enctr) (fuel : nat).
Hypothesis DF : forall cvl ci f, fvals_wf f -> (fields_height f <= result_height tr)%nat ->
  fshape Gn Gf cvl ci f ->
  exists f', dec_fv fuel (et_fvdict t) (et_nodedict t) cvl ci = DOk f' /\ same_fields f' f.
Hypothesis W : result_wf tr.

Lemma same_list_omit {A} (o : option (list A)) : same_list (omit o) o.
Proof. destruct o as [[|]|]; reflexivity. Qed.

Lemma fshape_wire cvl ci f : fshape Gn Gf cvl ci f -> fshape Gn Gf (wire_fvs (omit cvl)) ci f.
Proof.
  intros [(-> & [[-> H]|(es & -> & H)])|H].
  - left; auto.
  - left. split; [reflexivity|]. destruct es as [|e es].
    + left. split; [reflexivity|]. inversion H; reflexivity.
    + right. exists (map (fun e => (fst e, wire_node (snd e))) (e :: es)). split; [reflexivity|].
      apply (proj2 (proj2 (shape_wire Gn Gf))). exact H.
  - right; exact H.
Qed.

Lemma dec_frame_ok e cf : In cf (all_frames tr) ->
  frshape Gn Gf (et_stdict t) e cf ->
  exists cf', dec_frame fuel t (wire_frame e) = DOk cf' /\ same_frame cf' cf.
Proof.
  intros Hin (H1 & H2 & H3). unfold dec_frame, wire_frame. cbn [ef_fv ef_fvi ef_si ef_st ef_t].
  destruct (DF (wire_fvs (omit (ef_fv e))) (ef_fvi e) (cf_fields cf)) as (f' & -> & Sf);
    [apply W; exact Hin|apply max_le_result; exact Hin|apply fshape_wire; exact H1|].
  cbn [dbind]. unfold sshape in H2. destruct (ef_si e) as [i|].
  - destruct H2 as (st0 & -> & Hs). eexists. split; [reflexivity|]. split; [exact Sf|]. split; [exact Hs|exact H3].
  - eexists. split; [reflexivity|]. split; [exact Sf|]. split; [|exact H3].
    unfold same_list in *. cbn [cf_stack]. rewrite same_list_omit. exact H2.
Qed.

Lemma dec_frames_ok es l : (forall cf, In cf l -> In cf (all_frames tr)) ->
  Forall2 (frshape Gn Gf (et_stdict t)) es l ->
  exists r, dmap (dec_frame fuel t) (map wire_frame es) = DOk r /\ Forall2 same_frame r l.
Proof.
  intros Hin H. induction H as [|e cf es l H1 H IH].
  - exists []. split; [reflexivity|constructor].
  - destruct (dec_frame_ok e cf (Hin cf (or_introl eq_refl)) H1) as (cf' & E & S).
    destruct IH as (r & Er & Fr); [intros x Hx; apply Hin; right; exact Hx|].
    exists (cf' :: r). cbn [map dmap]. rewrite E. cbn [dbind]. rewrite Er. cbn [dbind].
    split; [reflexivity|constructor; assumption].
Qed.

Lemma dec_frame_map_ok es l :
  (forall k fs cf, In (k, fs) l -> In cf fs -> In cf (all_frames tr)) ->
  mshape Gn Gf (et_stdict t) es l ->
  exists r, dec_frame_map fuel t (wire_frame_map es) = DOk r /\
    Forall2 (fun a b => fst a = fst b /\ Forall2 same_frame (snd a) (snd b)) r l.
Proof.
  unfold mshape, dec_frame_map, wire_frame_map. intros Hin H.
  induction H as [|[k e] [k' fs] es l [E H1] H IH].
  - exists []. split; [reflexivity|constructor].
  - cbn [fst snd] in *. subst k'.
    destruct (dec_frames_ok e fs) as (r1 & E1 & F1);
      [intros cf Hcf; eapply Hin; [left; reflexivity|exact Hcf]|exact H1|].
    destruct IH as (r & Er & Fr); [intros k' fs' cf Hk Hcf; eapply Hin; [right; exact Hk|exact Hcf]|].
    exists ((k, r1) :: r). cbn [map dmap fst snd]. rewrite E1. cbn [dbind]. rewrite Er. cbn [dbind].
    split; [reflexivity|]. constructor; [split; [reflexivity|exact F1]|exact Fr].
Qed.

Lemma forall2_same_frames r l :
  Forall2 (fun a b : bytes * list cframe => fst a = fst b /\ Forall2 same_frame (snd a) (snd b)) r l ->
  forall k, match mget k r, mget k l with
            | Some x, Some y => Forall2 same_frame x y
            | None, None => True
            | _, _ => False
            end.
Proof.
  intros H. induction H as [|[k a] [k' b] r l [E S] H IH]; cbn [fst snd] in *; intros q; [exact I|].
  subst k'. cbn [mget]. destruct (beq q k); [exact S|apply IH].
Qed.
End Dec.

Theorem round_trip tr trc fuel :
  result_wf tr -> ids_tell_apart sha1 mp tr -> (3 * result_height tr + 1 <= fuel)%nat ->
  exists tr', unmarshal fuel (marshal sha1 mp trc tr) = DOk tr' /\ same_result tr' tr.
Proof.
  intros W (Cf & Cn & Cs) Hfuel. unfold marshal.
  set (fc := freq (fv_counted sha1 trc)). set (nc := freq (node_counted sha1 trc)).
  set (sc := freq (st_counted sha1 mp trc)).
  set (e0 := Est (if has_dup (fv_counted sha1 trc) then Some [] else None) []
                 (if has_dup (node_counted sha1 trc) then Some [] else None) []).
  set (s0 := Sst (if has_dup (st_counted sha1 mp trc) then Some [] else None) []).
  assert (good sha1 (occurs_node tr) (occurs_fields tr) e0 [] []) as G0.
  { unfold good, e0. cbn [e_nd e_fvd e_ni e_fvi]. split; [reflexivity|]. split; [reflexivity|].
    split; [intros t []|]. split; [intros f []|].
    split; intros m key pos E; match type of E with (if ?b then _ else _) = _ => destruct b end;
      try discriminate; injection E as <-; discriminate. }
  assert (sgood sha1 mp (occurs_stack tr) s0) as SG0.
  { unfold sgood, s0. cbn [s_dict s_idx]. split; [intros st []|].
    intros m key pos E; match type of E with (if ?b then _ else _) = _ => destruct b end;
      try discriminate; injection E as <-; discriminate. }
  assert (forall (m : option (list (bytes * list cframe))) k fs, (forall cf, In cf (concat (map snd (olist m))) -> In cf (all_frames tr)) ->
     In (k, fs) (olist m) -> Forall (frame_ok (occurs_fields tr) (occurs_stack tr)) fs) as FO.
  { intros m k fs Hm Hin. apply Forall_forall. intros cf Hcf.
    assert (In cf (all_frames tr)) as HA by (apply Hm; eapply frame_map_frames; eassumption).
    split; [apply of_top; exact HA|constructor; exact HA]. }
  assert (forall cf, In cf (concat (map snd (olist (tr_callers tr)))) -> In cf (all_frames tr)) as A1
    by (intros cf H; apply in_app_iff; left; exact H).
  assert (forall cf, In cf (concat (map snd (olist (tr_ext tr)))) -> In cf (all_frames tr)) as A2
    by (intros cf H; apply in_app_iff; right; exact H).
  pose proof (enc_frame_map_ok sha1 mp fc nc sc (occurs_node tr) (occurs_fields tr) (occurs_stack tr)
    (occurs_closed_n tr) (occurs_closed_f tr) (fun n => occurs_node_wf tr n W) (fun f => occurs_fields_wf tr f W) Cf Cn Cs) as EM.
  destruct (EM (olist (tr_callers tr)) (e0, s0) [] [] (fun k fs => FO _ k fs A1) G0 SG0)
    as (cr & s1 & Gn1 & Gf1 & E1 & S1 & SG1 & X1 & M1).
  destruct (EM (olist (tr_ext tr)) s1 Gn1 Gf1 (fun k fs => FO _ k fs A2)) 
    as (ex & s2 & Gn2 & Gf2 & E2 & S2 & SG2 & X2 & M2); [apply S1|exact SG1|].
  rewrite E1, E2.
  assert (seg sha1 (occurs_node tr) (occurs_fields tr) e0 [] [] (fst s2) Gn2 Gf2) as S
    by (eapply seg_trans; [exact S1|exact S2]).
  destruct S2 as (En2 & Ef2 & _).
  assert (mshape Gn2 Gf2 (s_dict (snd s2)) cr (olist (tr_callers tr))) as M1'
    by (eapply mshape_mono; eassumption).
  destruct S as (_ & _ & (_ & _ & An & Af & _) & _ & _ & Nn & Nf).
  set (t := EncTR _ _ _ _ _ _ _ _ _ _ _).
  assert (forall cvl ci f, fvals_wf f -> (fields_height f <= result_height tr)%nat ->
    fshape Gn2 Gf2 cvl ci f ->
    exists f', dec_fv fuel (et_fvdict t) (et_nodedict t) cvl ci = DOk f' /\ same_fields f' f) as DF.
  { intros cvl ci f Wf Hh Hs.
    eapply (decode_ok (occurs_node tr) (occurs_fields tr)
      (fun n => occurs_node_wf tr n W) (fun f => occurs_fields_wf tr f W) Gn2 Gf2 _ _ An Af);
      [| |exact Wf|exact Hh|exact Hfuel|exact Hs].
    - intros i x Hx. destruct (Nn i x ltac:(cbn; lia) Hx) as (e & He & Hi).
      exists (wire_node e). split; [|apply (proj1 (proj2 (shape_wire Gn2 Gf2))); exact Hi].
      unfold t; cbn [et_nodedict]. rewrite nth_error_map, He. reflexivity.
    - intros i x Hx. destruct (Nf i x ltac:(cbn; lia) Hx) as (l & He & Hi).
      exists (map (fun e => (fst e, wire_node (snd e))) l).
      split; [|apply (proj2 (proj2 (shape_wire Gn2 Gf2))); exact Hi].
      unfold t; cbn [et_fvdict]. rewrite nth_error_map, He. reflexivity. }
  unfold unmarshal.
  destruct (dec_frame_map_ok tr Gn2 Gf2 t fuel DF W cr (olist (tr_callers tr))) as (r1 & D1 & F1);
    [intros k fs cf H1 H2; apply A1; eapply frame_map_frames; eassumption|exact M1'|].
  destruct (dec_frame_map_ok tr Gn2 Gf2 t fuel DF W ex (olist (tr_ext tr))) as (r2 & D2 & F2);
    [intros k fs cf H1 H2; apply A2; eapply frame_map_frames; eassumption|exact M2|].
  change (olist (et_callers t)) with (wire_frame_map cr). rewrite D1. cbn [dbind].
  assert (olist (et_ext t) = wire_frame_map ex) as Ext
    by (unfold t; cbn [et_ext]; destruct (wire_frame_map ex); reflexivity).
  rewrite Ext.
  assert (exists r, match wire_frame_map ex with
           | [] => DOk None
           | l => dbind (dec_frame_map fuel t l) (fun m => DOk (Some m)) end = DOk r /\ olist r = r2) as (r & Er & Hr).
  { destruct (wire_frame_map ex) as [|x y] eqn:Ex.
    - exists None. split; [reflexivity|]. rewrite ?Ex in D2. cbn in D2. injection D2 as <-. reflexivity.
    - rewrite D2. exists (Some r2). split; reflexivity. }
  rewrite Er. cbn [dbind]. eexists. split; [reflexivity|].
  unfold same_result. cbn [tr_ident tr_name tr_callers tr_ppanics tr_mpanics tr_hit tr_fail tr_ext].
  split; [reflexivity|]. split; [reflexivity|].
  split; [intros k; exact (forall2_same_frames _ _ F1 k)|].
  split; [apply same_list_omit|]. split; [apply same_list_omit|].
  split; [reflexivity|]. split; [reflexivity|].
  unfold same_frames. rewrite Hr. exact (forall2_same_frames _ _ F2).
Qed.

End RoundTrip.
