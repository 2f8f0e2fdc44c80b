(** Property C34: the stored form of captured values. *)

From Verif Require Import Base Maps WireModel StaticModel StaticProps TypesModel TypesSpec TypesProofs StableModel StableProps MonitorModel.

(** Fields left out: the internals of [reflect.Value]. *)
Definition noisy (parent : bytes) (f : lfield) : Prop :=
  let 'LF name ty _ _ := f in
  (parent = B "reflect.Value" /\ (name = B "typ_" \/ name = B "flag" \/ name = B "ptr")) \/
  ty = B "reflect.rtype" \/ ty = B "reflect.flag".
Definition fname (f : lfield) : bytes := let 'LF name _ _ _ := f in name.

Section Spec.
Variable sprint : prim -> bytes.
Variable digest : bytes -> bytes.

(** How a value's text is stored. *)
Inductive stored_as (ty : bytes) (text : bytes) : bytes -> Prop :=
| sa_string : (exists pre, ty = pre ++ B "string") -> stored_as ty text text
| sa_short : (length text <= 128)%nat -> stored_as ty text text
| sa_long : (~ exists pre, ty = pre ++ B "string") -> (128 < length text)%nat -> stored_as ty text (B "vsha1-" ++ digest text).

(** [captured_leaf fields parent path v]: going down the kept fields along [path]
    (the last of each name) ends at a field stored as [v]. *)
Inductive captured_leaf : list lfield -> bytes -> list bytes -> bytes -> Prop :=
| cl_here l1 name ty val l2 parent v :
    ~ noisy parent (LF name ty val []) -> (forall g, In g l2 -> fname g = name -> noisy parent g) ->
    stored_as ty (sprint val) v ->
    captured_leaf (l1 ++ LF name ty val [] :: l2) parent [name] v
| cl_empty l1 name ty val cs l2 parent :
    ~ noisy parent (LF name ty val cs) -> (forall g, In g l2 -> fname g = name -> noisy parent g) ->
    cs <> [] -> Forall (noisy ty) cs ->
    captured_leaf (l1 ++ LF name ty val cs :: l2) parent [name] []
| cl_below l1 name ty val cs l2 parent path v :
    ~ noisy parent (LF name ty val cs) -> (forall g, In g l2 -> fname g = name -> noisy parent g) ->
    captured_leaf cs ty path v ->
    captured_leaf (l1 ++ LF name ty val cs :: l2) parent (name :: path) v.

Lemma should_capture_spec name ty parent val cs :
  should_capture name ty parent = true <-> ~ noisy parent (LF name ty val cs).
Proof.
  unfold should_capture, noisy. rewrite andb_true_iff, !negb_true_iff.
  destruct (beq_spec parent (B "reflect.Value")) as [E1|N1]; destruct (beq_spec name (B "typ_")) as [E2|N2];
  destruct (beq_spec name (B "flag")) as [E3|N3]; destruct (beq_spec name (B "ptr")) as [E4|N4];
  destruct (beq_spec ty (B "reflect.rtype")) as [E5|N5]; destruct (beq_spec ty (B "reflect.flag")) as [E6|N6]; cbn [andb orb];
  (split; [intros [H1 H2]; try discriminate; tauto | intros H; split; try reflexivity; exfalso; apply H; tauto]).
Qed.

Lemma stored_text_spec ty text v : stored_text digest ty text = v <-> stored_as ty text v.
Proof.
  unfold stored_text. destruct (has_suffix (B "string") ty) eqn:Es.
  - cbn [negb andb]. apply has_suffix_spec in Es. split; [intros <-; apply sa_string; exact Es|].
    intros H; inversion H; subst; [reflexivity|reflexivity|contradiction].
  - assert (~ exists pre, ty = pre ++ B "string") as Ns by (intros H; apply has_suffix_spec in H; congruence).
    cbn [negb andb]. destruct (Nat.ltb_spec 128 (length text)) as [L|L].
    + split; [intros <-; apply sa_long; assumption|]. intros H; inversion H; subst; [contradiction|lia|reflexivity].
    + split; [intros <-; apply sa_short; lia|]. intros H; inversion H; subst; [reflexivity|reflexivity|lia].
Qed.

Definition node_of (f : lfield) : fval :=
  let 'LF _ ty val cs := f in
  match cs with [] => FVal (stored_text digest ty (sprint val)) None
              | _ => FVal [] (Some (collect_all sprint digest [] cs ty)) end.
Lemma collect_field_eq dst name ty val cs parent :
  collect_field sprint digest dst (LF name ty val cs) parent =
  if should_capture name ty parent then mset name (node_of (LF name ty val cs)) dst else dst.
Proof.
  cbn [collect_field node_of]. destruct (should_capture name ty parent); [|reflexivity]. f_equal.
  destruct cs as [|c cs]; [reflexivity|]. f_equal. f_equal. unfold collect_all. cbn [fold_left].
  generalize (collect_field sprint digest [] c ty). induction cs as [|d cs IH]; intros m; [reflexivity|]. cbn [fold_left]. apply IH.
Qed.

(** The last kept field of a name. *)
Lemma collect_get k l : forall m parent,
  (exists l1 f l2, l = l1 ++ f :: l2 /\ fname f = k /\ ~ noisy parent f /\ (forall g, In g l2 -> fname g = k -> noisy parent g) /\
     mget k (collect_all sprint digest m l parent) = Some (node_of f)) \/
  ((forall g, In g l -> fname g = k -> noisy parent g) /\ mget k (collect_all sprint digest m l parent) = mget k m).
Proof.
  induction l as [|[name ty val cs] l IH]; intros m parent; [right; split; [intros g []|reflexivity]|].
  unfold collect_all. cbn [fold_left]. rewrite collect_field_eq.
  destruct (IH (if should_capture name ty parent then mset name (node_of (LF name ty val cs)) m else m) parent)
    as [(l1 & f & l2 & -> & Hk & Hn & Hl & E)|[Hn E]].
  - left. exists (LF name ty val cs :: l1), f, l2. split; [reflexivity|]. split; [exact Hk|]. split; [exact Hn|]. split; [exact Hl|exact E].
  - unfold collect_all in E. destruct (should_capture name ty parent) eqn:Es.
    + destruct (bytes_eq_dec name k) as [->|Nk].
      * left. exists [], (LF k ty val cs), l. split; [reflexivity|]. split; [reflexivity|].
        split; [apply should_capture_spec; exact Es|]. split; [exact Hn|]. rewrite E, mget_mset_same. reflexivity.
      * right. split; [|rewrite E, mget_mset_other by congruence; reflexivity]. intros g [<-|Hg]; [intros H; contradiction|auto].
    + right. split; [|exact E]. intros g [<-|Hg] Hk; [|auto].
      destruct (should_capture_spec name ty parent val cs) as [_ H]. rewrite Es in H.
      destruct (beq_spec ty (B "reflect.rtype")) as [->|N1]; [cbn; tauto|]. destruct (beq_spec ty (B "reflect.flag")) as [->|N2]; [cbn; tauto|].
      left. unfold should_capture in Es. destruct (beq_spec ty (B "reflect.rtype")); [contradiction|]. destruct (beq_spec ty (B "reflect.flag")); [contradiction|].
      cbn [orb negb] in Es. rewrite andb_true_r in Es. apply negb_false_iff, andb_true_iff in Es as [E1 E2].
      destruct (beq_spec parent (B "reflect.Value")); [|discriminate]. split; [assumption|].
      apply orb_true_iff in E2 as [E2|E2]; [apply orb_true_iff in E2 as [E2|E2]|].
      * destruct (beq_spec name (B "typ_")); [auto|discriminate].
      * destruct (beq_spec name (B "flag")); [auto|discriminate].
      * destruct (beq_spec name (B "ptr")); [auto|discriminate].
Qed.

Lemma split_last_unique {X} (P : X -> Prop) (l1 : list X) x l2 l1' y l2' :
  l1 ++ x :: l2 = l1' ++ y :: l2' -> P x -> P y -> (forall g, In g l2 -> ~ P g) -> (forall g, In g l2' -> ~ P g) ->
  l1 = l1' /\ x = y /\ l2 = l2'.
Proof.
  revert l1'. induction l1 as [|a l1 IH]; intros [|b l1'] E Px Py Nx Ny; cbn in E.
  - injection E as -> ->. auto.
  - injection E as -> ->. exfalso. apply (Nx y); [apply in_app_iff; right; left; reflexivity|exact Py].
  - injection E as -> <-. exfalso. apply (Ny x); [apply in_app_iff; right; left; reflexivity|exact Px].
  - injection E as -> E. destruct (IH l1' E Px Py Nx Ny) as (-> & -> & ->). auto.
Qed.

Lemma collect_empty_iff l parent : collect_all sprint digest [] l parent = [] <-> Forall (noisy parent) l.
Proof.
  split.
  - intros E. apply Forall_forall. intros g Hg. destruct (collect_get (fname g) l [] parent) as [(l1 & f & l2 & _ & _ & _ & _ & H)|[H _]].
    + rewrite E in H. discriminate.
    + apply H; auto.
  - intros F. apply amap_empty. intros k. destruct (collect_get k l [] parent) as [(l1 & f & l2 & -> & Hk & Hn & _)|[_ H]]; [|exact H].
    exfalso. apply Hn. rewrite Forall_forall in F. apply F. apply in_app_iff; right; left; reflexivity.
Qed.

Lemma collect_leaves path : forall l parent v,
  leaf_at (Some (collect_all sprint digest [] l parent)) path v <-> captured_leaf l parent path v.
Proof.
  induction path as [|k path IH]; intros l parent v.
  { split; intros H; inversion H. }
  rewrite leaf_at_cons. cbn [olist].
  assert (forall l1 f l2, l = l1 ++ f :: l2 -> fname f = k -> ~ noisy parent f -> (forall g, In g l2 -> fname g = k -> noisy parent g) ->
     captured_leaf l parent (k :: path) v -> node_leaf (node_of f) path v) as Fwd.
  { intros l1 f l2 -> Hk Hn Hl H. inversion H; subst.
    - assert (l1 = l0 /\ f = LF (fname f) ty val [] /\ l2 = l3) as (_ & Ef & _).
      { eapply (split_last_unique (fun g => fname g = fname f /\ ~ noisy parent g)); [symmetry; eassumption| | | |]; auto; intros g Hg [A A']; apply A'; auto. }
      rewrite Ef. cbn. left. split; [reflexivity|]. split; [reflexivity|]. apply stored_text_spec. assumption.
    - assert (l1 = l0 /\ f = LF (fname f) ty val cs /\ l2 = l3) as (_ & Ef & _).
      { eapply (split_last_unique (fun g => fname g = fname f /\ ~ noisy parent g)); [symmetry; eassumption| | | |]; auto; intros g Hg [A A']; apply A'; auto. }
      rewrite Ef. cbn. destruct cs as [|c cs]; [congruence|]. left. split; [reflexivity|]. split; [|reflexivity].
      cbn [olist]. apply collect_empty_iff. assumption.
    - assert (l1 = l0 /\ f = LF (fname f) ty val cs /\ l2 = l3) as (_ & Ef & _).
      { eapply (split_last_unique (fun g => fname g = fname f /\ ~ noisy parent g)); [symmetry; eassumption| | | |]; auto; intros g Hg [A A']; apply A'; auto. }
      rewrite Ef. cbn. destruct cs as [|c cs]; [exfalso; match goal with X : captured_leaf [] _ _ _ |- _ => inversion X; destruct l4; discriminate end|].
      right. apply IH. assumption. }
  split.
  - intros (n & Hg & Hl). destruct (collect_get k l [] parent) as [(l1 & f & l2 & -> & Hk & Hn & Hlast & E)|[_ E]]; [|cbn in E; congruence].
    rewrite E in Hg. injection Hg as <-. destruct f as [name ty val cs]. cbn in Hk. subst name. cbn [node_of] in Hl.
    destruct cs as [|c cs].
    + destruct Hl as [(-> & _ & <-)|Hl]; [|inversion Hl; discriminate]. apply cl_here; auto. apply stored_text_spec. reflexivity.
    + destruct Hl as [(-> & He & <-)|Hl].
      * apply cl_empty; auto; [discriminate|]. apply collect_empty_iff. exact He.
      * apply cl_below; auto. apply IH. exact Hl.
  - intros H. destruct (collect_get k l [] parent) as [(l1 & f & l2 & Es & Hk & Hn & Hlast & E)|[Hn E]].
    + exists (node_of f). split; [exact E|]. eapply Fwd; eauto.
    + exfalso. inversion H; subst; (match goal with X : ~ noisy _ ?f |- _ => apply X; apply Hn; [apply in_app_iff; right; left; reflexivity|reflexivity] end).
Qed.
End Spec.

(** The stored leaves are exactly the captured ones, each in its stored form. *)
Theorem C34_stored_fields_exact : forall sprint digest fields path v,
  leaf_at (Some (collect_all sprint digest [] fields [])) path v <-> captured_leaf sprint digest fields [] path v.
Proof. intros. apply collect_leaves. Qed.
Print Assumptions C34_stored_fields_exact.

(** Size bound, verbatim storage, and what equal stored texts mean. *)
Theorem C34_bounded_verbatim_comparable : forall digest ty a b,
  (forall x, length (digest x) <= 122)%nat ->
  let s := stored_text digest ty in
  ((~ exists pre, ty = pre ++ B "string") -> length (s a) <= 128)%nat /\
  ((length a <= 128)%nat \/ (exists pre, ty = pre ++ B "string") -> s a = a) /\
  (s a = s b -> a = b \/
     (128 < length a /\ 128 < length b /\ digest a = digest b)%nat \/
     (128 < length a /\ length b <= 128 /\ b = B "vsha1-" ++ digest a)%nat \/
     (length a <= 128 /\ 128 < length b /\ a = B "vsha1-" ++ digest b)%nat).
Proof.
  intros digest ty a b Hd s.
  pose proof (proj1 (stored_text_spec digest ty a (s a)) eq_refl) as Sa. pose proof (proj1 (stored_text_spec digest ty b (s b)) eq_refl) as Sb.
  revert Sa Sb. generalize (s a) as sa, (s b) as sb. clear s. intros sa sb Sa Sb.
  split; [|split].
  - intros Ns. destruct Sa as [H1|H1|N1 H1]; [contradiction|lia|]. rewrite app_length. specialize (Hd a).
    change (length (B "vsha1-")) with 6%nat. lia.
  - intros H. destruct Sa as [H1|H1|N1 H1]; [reflexivity|reflexivity|]. destruct H as [H|H]; [lia|contradiction].
  - intros E. destruct Sa as [H1|H1|N1 H1]; destruct Sb as [H3|H3|N2 H3]; try (left; congruence); try contradiction.
    + right; right; right. auto.
    + right; right; left. auto.
    + right; left. apply app_inv_head in E. auto.
Qed.
Print Assumptions C34_bounded_verbatim_comparable.

(** Values of string types are stored whole whatever their length... *)
Theorem C34_strings_unbounded_refuted : forall digest n, exists text,
  (n < length (stored_text digest (B "string") text))%nat.
Proof.
  intros digest n. exists (repeat "x"%char (S n)).
  assert (stored_text digest (B "string") (repeat "x"%char (S n)) = repeat "x"%char (S n)) as -> by reflexivity.
  rewrite repeat_length. lia.
Qed.
Print Assumptions C34_strings_unbounded_refuted.

(** ... and a short value spelling a digest is taken for the long one. *)
Theorem C34_spelled_digest_confused_refuted : forall digest : bytes -> bytes, (forall x, length (digest x) <= 122)%nat ->
  exists a b, a <> b /\ stored_text digest (B "[]int") a = stored_text digest (B "[]int") b.
Proof.
  intros digest Hd. set (a := repeat "1"%char 129). exists a, (B "vsha1-" ++ digest a).
  assert (length (B "vsha1-" ++ digest a) <= 128)%nat as L.
  { rewrite app_length. specialize (Hd a). change (length (B "vsha1-")) with 6%nat. lia. }
  split.
  - intros E. rewrite <- E in L. unfold a in L. rewrite repeat_length in L. lia.
  - assert (stored_text digest (B "[]int") a = B "vsha1-" ++ digest a) as -> by reflexivity. symmetry.
    apply stored_text_spec. apply sa_short. exact L.
Qed.
Print Assumptions C34_spelled_digest_confused_refuted.

Definition ex34 : list lfield :=
  [LF (B "x") (B "int") (PInt64 1) []; LF (B "v") (B "reflect.Value") PNil [LF (B "flag") (B "uintptr") (PUint64 3) []; LF (B "n") (B "int") (PInt64 2) []];
   LF (B "big") (B "[]uint8") (PBytes (repeat "a"%char 200)) []; LF (B "x") (B "int") (PInt64 5) [];
   LF (B "t") (B "reflect.flag") (PUint64 3) []; LF (B "flag") (B "bool") (PBool true) []].
Definition ex_sprint (p : prim) : bytes := match p with PInt64 z => itoa (Z.to_N z) | PBytes b => b | PBool true => B "true" | _ => B "?" end.
Example C34_example : collect_all ex_sprint (fun b => firstn 3 b) [] ex34 [] =
  [(B "x", FVal (B "5") None); (B "v", FVal [] (Some [(B "n", FVal (B "2") None)]));
   (B "big", FVal (B "vsha1-aaa") None); (B "flag", FVal (B "true") None)].
Proof. vm_compute. reflexivity. Qed.
