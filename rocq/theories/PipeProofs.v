(** Proofs for PipeProps.v. *)
From Verif Require Import Base Maps StaticModel StaticProps TypesModel TypesSpec TypesProofs StableModel StableProps MonitorModel FieldsProps WireModel WireSpec ClientModel ClientSpec ClientProps PipeModel PipeSpec.
Local Open Scope N_scope.

(** ** Following pointers ends at one place *)
Lemma reaches_det h v u : reaches h v u -> forall u', reaches h v u' -> u = u'.
Proof.
  induction 1 as [v N1 N2|ty v u H IH|ty a u H IH]; intros u' H'; inversion H'; subst; auto;
    try (exfalso; eapply N1; reflexivity); try (exfalso; eapply N2; reflexivity); try (exfalso; match goal with X : forall _ _, ?a <> _ |- _ => eapply X; reflexivity end).
Qed.
Lemma reaches_nil_det h v ty : reaches_nil h v ty -> forall ty', reaches_nil h v ty' -> ty = ty'.
Proof. induction 1; intros ty1 H'; inversion H'; subst; auto. Qed.
Lemma reaches_not_nil h v u : reaches h v u -> forall ty, ~ reaches_nil h v ty.
Proof.
  induction 1 as [v N1 N2|ty v u H IH|ty a u H IH]; intros ty' H'; inversion H'; subst; try (eapply IH; eassumption);
    try (eapply N1; reflexivity); try (eapply N2; reflexivity).
Qed.
Lemma ends_det h v t t' : ends_at h v t -> ends_at h v t' -> t = t'.
Proof.
  destruct t as [a|a], t' as [b|b]; cbn; intros H H'.
  - f_equal. eapply reaches_nil_det; eassumption.
  - exfalso. eapply reaches_not_nil; eassumption.
  - exfalso. eapply reaches_not_nil; eassumption.
  - f_equal. eapply reaches_det; eassumption.
Qed.

(** ** What is shown of a value *)
Section S.
Variable h : heap.
Variable utf8 : bytes -> bool.
Variable maxlen : N.
Notation shows := (shows h utf8 maxlen).
Notation shows_kids := (shows_kids h utf8 maxlen).

Lemma numbered_parts l nl : numbered l nl -> nl = parts_of (EVals l).
Proof.
  intros [L H]. cbn [parts_of].
  assert (forall s (l : list rv) nl, length nl = length l ->
    (forall i v, nth_error l i = Some v -> nth_error nl i = Some (elem_name (s + i), v)) -> nl = combine (map elem_name (seq s (length l))) l) as G.
  { clear. intros s l. revert s. induction l as [|v l IH]; intros s [|x nl] L H; cbn in L; try discriminate; [reflexivity|].
    cbn [length seq map combine]. pose proof (H 0%nat v eq_refl) as X. cbn in X. rewrite Nat.add_0_r in X. injection X as ->. f_equal. apply IH; [lia|].
    intros i w E. specialize (H (S i) w E). cbn [nth_error] in H. rewrite H, Nat.add_succ_comm. reflexivity. }
  apply (G 0%nat l nl L). intros i v E. exact (H i v E).
Qed.

Lemma view_leaf p : view_val (WPrim p) = (p, []). Proof. reflexivity. Qed.
Lemma view_node k fs : view_val (WNode k fs) = (PNil, map view_field fs).
Proof. reflexivity. Qed.

Lemma elems_inv n es w A : shows_elems h utf8 maxlen n es w A ->
  (parts_of es = [] /\ view_val w = (whole_elems utf8 es, [])) \/
  (exists k ws, w = WNode k ws /\ parts_of es <> [] /\ shows_kids n (parts_of es) ws A).
Proof.
  intros H. destruct H as [n es p F|n l nl ws A L Nu K].
  - left. destruct F; cbn [parts_of whole_elems]; auto; rewrite ?H0; auto.
  - apply numbered_parts in Nu. subst nl. destruct (parts_of (EVals l)) as [|x q] eqn:E.
    + left. inversion K; subst. auto.
    + right. exists KSlice, ws. split; [reflexivity|]. split; [discriminate|]. exact K.
Qed.

Lemma shows_inv n v ty w A : shows n v ty w A ->
  exists t, ends_at h v t /\ ty = type_at t /\
   ((parts h t = [] /\ view_val w = (whole h utf8 t, [])) \/
    (exists m k ws A', w = WNode k ws /\ parts h t <> [] /\ shows_kids m (parts h t) ws A')).
Proof.
  intros H. destruct H.
  - exists (AtNil ty). auto.
  - exists (At RInvalid). auto.
  - exists (At (RScalar ty p)). auto.
  - exists (At (RStr ty s)). auto.
  - exists (At (RArr ty es)). split; [assumption|]. split; [reflexivity|]. destruct (elems_inv _ _ _ _ H0) as [E|(k & ws & E)]; [left; exact E|right; exists n, k, ws, A; exact E].
  - exists (At (RSlice ty None)). auto.
  - exists (At (RSlice ty (Some (a, i)))). split; [assumption|]. split; [reflexivity|]. destruct (elems_inv _ _ _ _ H0) as [E|(k & ws & E)]; [left; exact E|right; exists n, k, ws, A; exact E].
  - exists (At (RMap ty None)). auto.
  - exists (At (RMap ty (Some a))). split; [assumption|]. split; [reflexivity|]. cbn [parts]. destruct (h_map h a) as [|x q] eqn:E.
    + left. inversion H1; subst. auto.
    + right. exists n, KMap, ws, A. split; [reflexivity|]. split; [discriminate|]. exact H1.
  - exists (At (RStruct ty fs)). split; [assumption|]. split; [reflexivity|]. cbn [parts]. destruct fs as [|x q].
    + left. inversion H0; subst. auto.
    + right. exists n, KStruct, ws, A. split; [reflexivity|]. split; [discriminate|]. exact H0.
  - exists (At (RFunc ty (Some a))). auto.
  - exists (At (RFunc ty None)). auto.
  - exists (At (RChan ty (Some a))). auto.
  - exists (At (RChan ty None)). auto.
  - exists (At (ROther ty s)). auto.
Qed.

Lemma kids_nth n l ws A : shows_kids n l ws A -> length l = length ws /\
  forall i, match nth_error l i, nth_error ws i with
            | Some (nm, v), Some (nm', ty, w) => nm' = nm /\ exists A', shows n v ty w A'
            | None, None => True | _, _ => False end.
Proof.
  induction 1 as [n|n nm v l ty w ws A A' S K [IL IH]].
  - split; [reflexivity|]. intros [|i]; exact I.
  - split; [cbn; congruence|]. intros [|i]; cbn [nth_error]; [eauto|apply IH].
Qed.
Lemma kids_in n l ws A nm v : shows_kids n l ws A -> In (nm, v) l -> exists ws1 ty w ws2 A', ws = ws1 ++ (nm, ty, w) :: ws2 /\ shows n v ty w A' /\
  exists l1 l2, l = l1 ++ (nm, v) :: l2 /\ map (fun f => fst (fst f)) ws2 = map fst l2.
Proof.
  intros K I. induction K as [n|n nm0 v0 l ty w ws A A' S K IH]; [destruct I|]. destruct I as [E|I].
  - injection E as -> ->. exists [], ty, w, ws, A. split; [reflexivity|]. split; [exact S|]. exists [], l. split; [reflexivity|].
    clear -K. induction K as [|n nm v l ty w ws A A' S K IH]; [reflexivity|]. cbn. f_equal. exact IH.
  - destruct (IH I) as (ws1 & ty' & w' & ws2 & A'' & -> & S' & l1 & l2 & -> & E). exists ((nm0, ty, w) :: ws1), ty', w', ws2, A''. split; [reflexivity|]. split; [exact S'|]. exists ((nm0, v0) :: l1), l2. auto.
Qed.
Lemma kids_out n l ws A nm ty w : shows_kids n l ws A -> In (nm, ty, w) ws -> exists v A', In (nm, v) l /\ shows n v ty w A'.
Proof.
  intros K I. induction K as [n|n nm0 v0 l ty0 w0 ws A A' S K IH]; [destruct I|]. destruct I as [E|I].
  - injection E as -> -> ->. exists v0, A. split; [left; reflexivity|exact S].
  - destruct (IH I) as (v & A1 & J & S1). exists v, A1. split; [right; exact J|exact S1].
Qed.

Lemma tidy_part v t nm c : tidy h v -> ends_at h v t -> In (nm, c) (parts h t) -> tidy h c.
Proof. intros T E I path t' F. apply (T (nm :: path) t'). eapply fo_down; eassumption. Qed.
Lemma tidy_here v t : tidy h v -> ends_at h v t ->
  NoDup (map fst (parts h t)) /\ (forall nm c, In (nm, c) (parts h t) -> plain_name nm) /\ ~ reflective (type_at t).
Proof. intros T E. apply (T [] t). constructor. exact E. Qed.
Lemma quiet parent name ty val cs : parent <> B "reflect.Value" -> ~ reflective ty -> ~ noisy parent (LF name ty val cs).
Proof. intros P N [[E _]|[E|E]]; [contradiction|apply N; right; left; exact E|apply N; right; right; exact E]. Qed.

Lemma shows_type n v ty w A : shows n v ty w A -> tidy h v -> ~ reflective ty.
Proof. intros S T. destruct (shows_inv _ _ _ _ _ S) as (t & E & -> & _). apply (tidy_here v t T E). Qed.

Lemma not_reflective_parent ty : ~ reflective ty -> ty <> B "reflect.Value".
Proof. intros N E. apply N. left. exact E. Qed.

(** ** The tree kept has each name once per node, and its names have no dots *)
Inductive lplain : lfield -> Prop := lplain_intro name ty val cs : plain_name name -> (forall c, In c cs -> lplain c) -> lplain (LF name ty val cs).

Lemma wdepth_in kd ws nm ty w : In (nm, ty, w) ws -> (wdepth w < wdepth (WNode kd ws))%nat.
Proof.
  intros I. cbn [wdepth]. induction ws as [|[[a b] c] ws IH]; [destruct I|]. cbn [map list_max fold_right]. destruct I as [E|I]; [injection E as -> -> ->; lia|]. specialize (IH I). unfold list_max in IH. lia.
Qed.
Lemma shows_plain d : forall n nm v ty w A, (wdepth w < d)%nat -> shows n v ty w A -> tidy h v -> plain_name nm -> lplain (view_field (nm, ty, w)).
Proof.
  induction d as [|d IH]; intros n nm v ty w A L S T P; [lia|]. cbn [view_field]. destruct (shows_inv _ _ _ _ _ S) as (t & Et & -> & [(Ep & Ew)|(m & kd & ws & A1 & -> & Ep & K)]).
  - rewrite Ew. constructor; [exact P|intros c []].
  - rewrite view_node. cbn [fst snd]. constructor; [exact P|]. intros c I. apply in_map_iff in I as ([[nm' ty'] w'] & <- & I). destruct (kids_out _ _ _ _ _ _ _ K I) as (c & A2 & J & S2).
    apply (IH m nm' c ty' w' A2); [|exact S2|apply (tidy_part v t nm' c T Et J)|apply (tidy_here v t T Et) in J; exact J].
    pose proof (wdepth_in kd ws nm' ty' w' I) as W. lia.
Qed.
Variable sprint : prim -> bytes.
Variable digest : bytes -> bytes.

(** The leaves the monitor keeps are the undivided values. *)
Lemma kept_iff path : forall n l ws A parent text, shows_kids n l ws A -> NoDup (map fst l) -> (forall nm v, In (nm, v) l -> tidy h v) -> parent <> B "reflect.Value" ->
  (captured_leaf sprint digest (map view_field ws) parent path text <->
   exists nm v p ty q, In (nm, v) l /\ path = nm :: p /\ has_value h utf8 v p ty q /\ stored_as digest ty (sprint q) text).
Proof.
  induction path as [|k path IH]; intros n l ws A parent text K D T P.
  { split; [intros H; inversion H|intros (nm & v & p & ty & q & _ & E & _); discriminate]. }
  assert (forall l1 name ty val cs l2, map view_field ws = l1 ++ LF name ty val cs :: l2 -> exists v w A', In (name, v) l /\ shows n v ty w A' /\ view_val w = (val, cs)) as Sp.
  { intros l1 name ty val cs l2 E. assert (In (LF name ty val cs) (map view_field ws)) as I by (rewrite E; apply in_app_iff; right; left; reflexivity).
    apply in_map_iff in I as ([[nm ty'] w] & Ev & I). cbn in Ev. injection Ev as -> -> E1 E2. destruct (kids_out _ _ _ _ _ _ _ K I) as (v & A' & J & S'). exists v, w, A'. split; [exact J|]. split; [exact S'|]. rewrite <- E1, <- E2. destruct (view_val w); reflexivity. }
  split.
  - intros H. inversion H as [l1 name ty val l2 p' tx Hn Hl Hs E1 E2 E3|l1 name ty val cs l2 p' Hn Hl Hc Hf E1 E2 E3|l1 name ty val cs l2 p' pt tx Hn Hl Hb E1 E2 E3]; subst.
    + destruct (Sp _ _ _ _ _ _ (eq_sym E1)) as (v & w & A' & I & S' & Ev). destruct (shows_inv _ _ _ _ _ S') as (t & Et & -> & [(Ep & Ew)|(m & kd & ws' & A1 & -> & Ep & K')]).
      * exists k, v, [], (type_at t), val. split; [exact I|]. split; [reflexivity|]. split; [|exact Hs]. exists t. split; [constructor; exact Et|]. split; [exact Ep|]. split; [reflexivity|]. rewrite Ew in Ev. congruence.
      * exfalso. rewrite view_node in Ev. injection Ev as _ Ev. apply map_eq_nil in Ev. subst ws'. inversion K'. congruence.
    + exfalso. destruct (Sp _ _ _ _ _ _ (eq_sym E1)) as (v & w & A' & I & S' & Ev). destruct (shows_inv _ _ _ _ _ S') as (t & Et & -> & [(Ep & Ew)|(m & kd & ws' & A1 & -> & Ep & K')]).
      * rewrite Ew in Ev. congruence.
      * rewrite view_node in Ev. injection Ev as <- <-. destruct ws' as [|[[nm ty'] w'] ws']; [contradiction|]. inversion Hf; subst. revert H2. cbn [view_field]. apply quiet.
        { apply not_reflective_parent. apply (tidy_here v t (T _ _ I) Et). }
        { destruct (kids_out _ _ _ _ nm ty' w' K' (or_introl eq_refl)) as (c & A2 & J & S2). apply (shows_type _ _ _ _ _ S2). apply (tidy_part v t nm c (T _ _ I) Et J). }
    + destruct (Sp _ _ _ _ _ _ (eq_sym E1)) as (v & w & A' & I & S' & Ev). destruct (shows_inv _ _ _ _ _ S') as (t & Et & -> & [(Ep & Ew)|(m & kd & ws' & A1 & -> & Ep & K')]).
      * rewrite Ew in Ev. injection Ev as _ <-. inversion Hb; destruct l0; discriminate.
      * rewrite view_node in Ev. injection Ev as <- <-. apply (IH m (parts h t) ws' A1 (type_at t) text K') in Hb.
        { destruct Hb as (nm & c & p & ty & q & J & -> & (t' & Ft & Hv) & Hs). exists k, v, (nm :: p), ty, q. split; [exact I|]. split; [reflexivity|]. split; [|exact Hs]. exists t'. split; [eapply fo_down; eassumption|exact Hv]. }
        { apply (tidy_here v t (T _ _ I) Et). } { intros nm c J. apply (tidy_part v t nm c (T _ _ I) Et J). } { apply not_reflective_parent. apply (tidy_here v t (T _ _ I) Et). }
  - intros (nm & v & p & ty & q & I & E & (t' & F & Ep & Ety & Eq) & Hs). injection E as <- <-.
    destruct (kids_in _ _ _ _ _ _ K I) as (ws1 & ty0 & w & ws2 & A' & -> & S' & l1 & l2 & -> & El).
    assert (forall g, In g (map view_field ws2) -> fname g = k -> noisy parent g) as Last.
    { intros g Hg Ek. exfalso. apply in_map_iff in Hg as ([[nm ty1] w1] & <- & Hg). cbn in Ek. subst nm. rewrite map_app in D. cbn [map fst] in D. apply NoDup_remove_2 in D. apply D. apply in_app_iff. right. rewrite <- El. apply in_map_iff. exists (k, ty1, w1). auto. }
    rewrite map_app. cbn [map view_field].
    assert (~ noisy parent (LF k ty0 (fst (view_val w)) (snd (view_val w)))) as Q by (apply quiet; [exact P|apply (shows_type _ _ _ _ _ S' (T _ _ I))]).
    destruct (shows_inv _ _ _ _ _ S') as (t & Et & Ey & [(Ep0 & Ew)|(m & kd & ws' & A1 & Ew & Ep0 & K')]).
    + inversion F as [v0 t0 E0|v0 t0 nm c pa t1 E0 J F']; subst.
      * rewrite (ends_det h v t t' Et E0) in *. rewrite Ew in *. cbn [fst snd] in *. apply cl_here; [exact Q|exact Last|exact Hs].
      * rewrite (ends_det h v t t0 Et E0) in *. rewrite Ep0 in J. destruct J.
    + inversion F as [v0 t0 E0|v0 t0 nm c pa t1 E0 J F']; subst.
      * rewrite (ends_det h v t t' Et E0) in *. contradiction.
      * apply (ends_det h v t t0 Et) in E0. subst t0. rewrite view_node in *. cbn [fst snd] in *. apply cl_below; [exact Q|exact Last|].
        apply (IH m (parts h t) ws' A1 (type_at t) text K').
        { apply (tidy_here v t (T _ _ I) Et). } { intros nm' c' J'. apply (tidy_part v t nm' c' (T _ _ I) Et J'). } { apply not_reflective_parent. apply (tidy_here v t (T _ _ I) Et). }
        exists nm, c, pa, (type_at t'), (whole h utf8 t'). split; [exact J|]. split; [reflexivity|]. split; [|exact Hs]. exists t'. auto.
Qed.

End S.

Section Tree.
Variable sprint : prim -> bytes.
Variable digest : bytes -> bytes.
Notation collect_all := (collect_all sprint digest).
Fixpoint lsize (f : lfield) : nat := let 'LF _ _ _ cs := f in S (list_sum (map lsize cs)).
Lemma lsize_in c cs : In c cs -> (lsize c <= list_sum (map lsize cs))%nat.
Proof. intros I. induction cs as [|x cs IH]; [destruct I|]. destruct I as [->|I]; cbn [map list_sum fold_right]; [cbn; lia|]. specialize (IH I). unfold list_sum in IH. cbn. lia. Qed.

Lemma mset_in {V} k (v : V) m k' x : In (k', x) (mset k v m) -> (k' = k /\ x = v) \/ In (k', x) m.
Proof.
  induction m as [|[a b] m IH]; cbn [mset].
  - intros [E|[]]. injection E as <- <-. auto.
  - destruct (beq k a); intros [E|I]; [injection E as <- <-; auto|right; right; exact I|right; left; exact E|]. destruct (IH I) as [J|J]; [auto|right; right; exact J].
Qed.
(** Every entry of a collected map is the node of one of the fields. *)
Lemma collect_in l : forall m parent k x, In (k, x) (collect_all m l parent) -> In (k, x) m \/ exists f, In f l /\ fname f = k /\ x = node_of sprint digest f.
Proof.
  induction l as [|[name ty val cs] l IH]; intros m parent k x I; [left; exact I|]. unfold MonitorModel.collect_all in I. cbn [fold_left] in I. rewrite collect_field_eq in I. apply IH in I as [I|(f & J & E)]; [|right; exists f; split; [right; exact J|exact E]].
  destruct (should_capture name ty parent); [|left; exact I]. apply mset_in in I as [[-> ->]|I]; [|left; exact I]. right. exists (LF name ty val cs). split; [left; reflexivity|]. auto.
Qed.
Lemma collect_wf l : forall m parent, mwf m -> mwf (collect_all m l parent).
Proof.
  induction l as [|[name ty val cs] l IH]; intros m parent W; [exact W|]. unfold MonitorModel.collect_all. cbn [fold_left]. rewrite collect_field_eq. apply IH. destruct (should_capture name ty parent); [apply mwf_mset; exact W|exact W].
Qed.
Lemma node_fwf d : forall f, (lsize f < d)%nat -> fwf (node_of sprint digest f).
Proof.
  induction d as [|d IH]; intros [name ty val cs] L; [lia|]. cbn [node_of]. destruct cs as [|c cs]; [constructor; [constructor|intros k x []]|].
  constructor; cbn [olist]; [apply collect_wf; constructor|]. intros k x I. apply collect_in in I as [[]|(f & J & _ & ->)]. apply IH. apply lsize_in in J. cbn [lsize] in L. lia.
Qed.
Lemma collected_wf l parent : fvals_wf (Some (collect_all [] l parent)).
Proof.
  split; cbn [olist]; [apply collect_wf; constructor|]. intros k x I. apply collect_in in I as [[]|(f & J & _ & ->)]. apply (node_fwf (S (lsize f))). lia.
Qed.
Lemma node_plain d : forall f, (lsize f < d)%nat -> lplain f -> names_plain (node_of sprint digest f).
Proof.
  induction d as [|d IH]; intros [name ty val cs] L P; [lia|]. inversion P; subst. cbn [node_of]. destruct cs as [|c cs]; [constructor; intros k x []|].
  constructor; cbn [olist]. intros k x I. apply collect_in in I as [[]|(f & J & <- & ->)]. pose proof (H4 f J) as Pf. split; [inversion Pf; subst; assumption|]. apply IH; [|exact Pf]. apply lsize_in in J. cbn [lsize] in L. lia.
Qed.
Lemma collected_plain l parent : (forall f, In f l -> lplain f) -> fvals_plain (Some (collect_all [] l parent)).
Proof.
  intros P k x I. cbn [olist] in I. apply collect_in in I as [[]|(f & J & <- & ->)]. pose proof (P f J) as Pf. split; [inversion Pf; subst; assumption|]. apply (node_plain (S (lsize f))); [lia|exact Pf].
Qed.
End Tree.
