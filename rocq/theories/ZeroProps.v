(** C91: the return added at the end of a function compiles and gives zero
    values. *)

From Verif Require Import Base ZeroModel.

(** ** Go's side: names, types and values *)

(** The kinds of types as far as zero values go: numbers, booleans, strings,
    types with [nil] (pointers, maps, channels, functions, interfaces,
    slices), arrays and structs, type parameters. *)
Inductive kind := KNum | KBool | KString | KNil | KAgg | KParam.

(** What a name may stand for: a type, the predeclared [false], [nil] and
    [new], a variable of a type, something else. *)
Inductive ent (T : Type) := EType (t : T) | EFalse | ENil | ENew | EVar (t : T) | EElse.
Arguments EType {T}. Arguments EFalse {T}. Arguments ENil {T}. Arguments ENew {T}. Arguments EVar {T}. Arguments EElse {T}.

(** The names in a type expression. *)
Fixpoint names (t : texpr) : list bytes :=
  match t with
  | TId n => [n]
  | TStar t | TChan t | TSlice t | TParen t => names t
  | TMap k v => names k ++ names v
  | TFunc ts | TIface ts | TStruct ts => flat_map names ts
  | TArray l t => l ++ names t
  | TSel p n => [p]
  | TIndex t a => names t ++ names a
  | TIndexList t l => names t ++ flat_map names l
  end.

(** The types of a program: what a type expression means in a scope, the kind
    of a type, the values and the zero value of each type. *)
Record gotypes := GoTypes {
  Ty : Type; Val : Type;
  mean : (bytes -> option (ent Ty)) -> texpr -> option Ty;
  kind_of : Ty -> kind;
  zero : Ty -> Val;
  v_num : Val; v_false : Val; v_empty : Val; v_nil : Val }.

(** The laws of Go: a name means the type it stands for, the kinds of the
    composite types, a type depends on its names only, the zero values of the
    kinds. *)
Record lawful (G : gotypes) : Prop := Lawful {
  l_id : forall s n, mean G s (TId n) = match s n with Some (EType t) => Some t | _ => None end;
  l_nil : forall s t ty, mean G s t = Some ty ->
    match t with TStar _ | TMap _ _ | TChan _ | TFunc _ | TIface _ | TSlice _ => kind_of G ty = KNil | _ => True end;
  l_agg : forall s t ty, mean G s t = Some ty ->
    match t with TArray _ _ | TStruct _ => kind_of G ty = KAgg | _ => True end;
  l_names : forall s s' t, (forall n, In n (names t) -> s n = s' n) -> mean G s t = mean G s' t;
  l_num : forall ty, kind_of G ty = KNum -> zero G ty = v_num G;
  l_false : forall ty, kind_of G ty = KBool -> zero G ty = v_false G;
  l_empty : forall ty, kind_of G ty = KString -> zero G ty = v_empty G;
  l_nilv : forall ty, kind_of G ty = KNil -> zero G ty = v_nil G }.

Section Go.
Variable G : gotypes.
Notation T := (Ty G).
Notation scope := (bytes -> option (ent T)).

(** [gives s z ty v]: in scope [s] the expression may be returned as a value
    of type [ty], and then is [v]. *)
Inductive gives (s : scope) : zexpr -> T -> Val G -> Prop :=
| GvNum ty : kind_of G ty = KNum -> gives s ZNum ty (v_num G)
| GvFalse ty : s (B "false") = Some EFalse -> kind_of G ty = KBool -> gives s ZFalse ty (v_false G)
| GvEmpty ty : kind_of G ty = KString -> gives s ZEmpty ty (v_empty G)
| GvNil ty : s (B "nil") = Some ENil -> kind_of G ty = KNil -> gives s ZNil ty (v_nil G)
| GvLit t ty : mean G s t = Some ty -> kind_of G ty = KAgg -> gives s (ZLit t) ty (zero G ty)
| GvNew t ty : s (B "new") = Some ENew -> mean G s t = Some ty -> gives s (ZNew t) ty (zero G ty).

(** A predeclared type name that the package has not declared anew. *)
Definition predeclared (s : scope) (n : bytes) : Prop :=
  exists ty, s n = Some (EType ty) /\
    kind_of G ty = (if beq n (B "bool") then KBool else if beq n (B "string") then KString
                    else if beq n (B "error") then KNil else KNum).
Definition predeclared_names : list bytes := map B ["bool"; "string"; "error"]%string ++ numeric_names.

(** The predeclared values a zero value uses. *)
Definition values_ok (s : scope) : Prop :=
  s (B "false") = Some EFalse /\ s (B "nil") = Some ENil /\ s (B "new") = Some ENew.

End Go.

Lemma in_numeric n : existsb (beq n) numeric_names = true <-> In n numeric_names.
Proof.
  rewrite existsb_exists. split; [intros (x & H & E); apply beq_true in E; subst; exact H|].
  intros H. exists n. split; [exact H|apply beq_true; reflexivity].
Qed.

Lemma numeric_not n : In n numeric_names -> beq n (B "bool") = false /\ beq n (B "string") = false /\ beq n (B "error") = false.
Proof. intros H. repeat (destruct H as [<-|H]; [repeat split; reflexivity|]). destruct H. Qed.

(** Where the names of the result type mean the same at the end of the body as
    in the signature, the predeclared type names are not declared anew and
    [false], [nil] and [new] mean what they are predeclared as, the expression
    written for a result type is a value of that type, its zero value. *)
Theorem C91_zero : forall G, lawful G -> forall (sig s : bytes -> option (ent (Ty G))) t ty,
  mean G sig t = Some ty -> t <> TId (B "_") ->
  (forall n, In n (names t) -> s n = sig n) ->
  (forall n, t = TId n -> In n predeclared_names -> predeclared G sig n) ->
  values_ok G s ->
  gives G s (zero_value t) ty (zero G ty).
Proof.
  intros G L sig s t ty M Nb Hn Hp (V1 & V2 & V3).
  assert (M' : mean G s t = Some ty) by (rewrite <- M; apply l_names; auto).
  assert (Nil : kind_of G ty = KNil -> gives G s ZNil ty (zero G ty)).
  { intros K. rewrite (l_nilv G L ty K). constructor; auto. }
  pose proof (l_nil G L s t ty M') as LN. pose proof (l_agg G L s t ty M') as LA.
  destruct t as [n| | | | | | | | | | | |]; cbn [zero_value]; try (apply Nil; exact LN); try (constructor; auto; fail).
  pose proof M as M0. rewrite (l_id G L) in M0. destruct (sig n) as [[t0| | | | |]|] eqn:E; try discriminate.
  injection M0 as ->.
  assert (Kd : In n predeclared_names -> kind_of G ty = (if beq n (B "bool") then KBool else if beq n (B "string") then KString
                    else if beq n (B "error") then KNil else KNum)).
  { intros Hi. destruct (Hp n eq_refl Hi) as (ty' & E' & K). rewrite E in E'. injection E' as <-. exact K. }
  destruct (existsb (beq n) numeric_names) eqn:En.
  - apply in_numeric in En. pose proof (Kd (in_or_app _ _ _ (or_intror En))) as K.
    destruct (numeric_not n En) as (A1 & A2 & A3). rewrite A1, A2, A3 in K. rewrite (l_num G L ty K). constructor. exact K.
  - destruct (beq n (B "bool")) eqn:E1.
    { apply beq_true in E1. subst n. pose proof (Kd (or_introl eq_refl)) as K. rewrite (l_false G L ty K). constructor; auto. }
    destruct (beq n (B "string")) eqn:E2.
    { apply beq_true in E2. subst n. pose proof (Kd (or_intror (or_introl eq_refl))) as K. rewrite (l_empty G L ty K). constructor; auto. }
    destruct (beq n (B "error")) eqn:E3.
    { apply beq_true in E3. subst n. apply Nil. exact (Kd (or_intror (or_intror (or_introl eq_refl)))). }
    destruct (beq n (B "_")) eqn:E4.
    { apply beq_true in E4. subst n. congruence. }
    constructor; auto.
Qed.
Print Assumptions C91_zero.

(** Nothing less is enough: a value that may be returned is the zero value,
    and needs each name it is written with. *)
Theorem C91_needed : forall G, lawful G -> forall (s : bytes -> option (ent (Ty G))) t ty v,
  gives G s (zero_value t) ty v ->
  v = zero G ty /\
  match zero_value t with
  | ZNum => kind_of G ty = KNum
  | ZFalse => s (B "false") = Some EFalse
  | ZEmpty => kind_of G ty = KString
  | ZNil => s (B "nil") = Some ENil /\ kind_of G ty = KNil
  | ZLit _ => mean G s t = Some ty
  | ZNew _ => s (B "new") = Some ENew /\ mean G s t = Some ty
  end.
Proof.
  intros G L s t ty v H.
  assert (W : forall u, zero_value t = ZLit u \/ zero_value t = ZNew u -> u = t).
  { intros u. destruct t; cbn [zero_value]; try (intros [X|X]; congruence).
    repeat match goal with |- context[if ?c then _ else _] => destruct c end; intros [X|X]; congruence. }
  inversion H as [? K E|? S K E|? K E|? S K E|u ? M K E|u ? S M E]; subst.
  - split; [symmetry; apply l_num; auto|exact K].
  - split; [symmetry; apply l_false; auto|exact S].
  - split; [symmetry; apply l_empty; auto|exact K].
  - split; [symmetry; apply l_nilv; auto|auto].
  - rewrite (W u) in M by (left; congruence). auto.
  - rewrite (W u) in M by (right; congruence). auto.
Qed.
Print Assumptions C91_needed.

(** ** The whole return *)

(** A signature Go accepts: all results named, or none. *)
Definition signature_ok (fs : list (list bytes * texpr)) : Prop :=
  (forall f, In f fs -> fst f = []) \/ (forall f, In f fs -> fst f <> [] /\ ~ In [] (fst f)).

Lemma flat_lengths fs : length (flat_names fs) = length (flat_types fs).
Proof.
  induction fs as [|[[|n ns] t] fs IH]; [reflexivity| |].
  - change (S (length (flat_names fs)) = S (length (flat_types fs))). congruence.
  - change (length ((n :: ns) ++ flat_names fs) = length (repeat t (length (n :: ns)) ++ flat_types fs)).
    rewrite !app_length, IH, repeat_length. reflexivity.
Qed.

(** The i-th value given and the i-th result: naked only if every result is a
    variable with a name; otherwise one value per result, a variable's own
    name or the zero value of its type. *)
Theorem C91_return : forall fs, signature_ok fs ->
  match added_return fs with
  | None => fs = []
  | Some gs =>
    fs <> [] /\
    (gs = [] <-> forall n, In n (flat_names fs) -> n <> [] /\ n <> B "_") /\
    (gs <> [] -> length gs = length (flat_types fs) /\
       forall i g n t, nth_error gs i = Some g -> nth_error (flat_names fs) i = Some n -> nth_error (flat_types fs) i = Some t ->
       g = if beq n [] || beq n (B "_") then GZero (zero_value t) else GName n)
  end.
Proof.
  intros fs Hs. unfold added_return.
  assert (Ne : flat_types fs = [] <-> fs = []).
  { split; [|intros ->; reflexivity]. intros H. destruct fs as [|[[|n ns] t] fs]; auto; discriminate H. }
  destruct (flat_types fs) as [|t0 ts] eqn:Et; [apply Ne; reflexivity|].
  rewrite <- Et in *. assert (Nf : fs <> []) by (intros X; apply Ne in X; rewrite Et in X; discriminate).
  assert (Nn : flat_names fs <> []).
  { intros X. pose proof (flat_lengths fs) as Q. rewrite X, Et in Q. discriminate. }
  assert (An : all_named (flat_names fs) = true <-> ~ In [] (flat_names fs)).
  { unfold all_named. destruct (flat_names fs) as [|a l] eqn:Ef; [congruence|]. rewrite <- Ef.
    rewrite negb_true_iff. split.
    - intros H X. enough (existsb (beq []) (flat_names fs) = true) by congruence. apply existsb_exists. exists []. split; [exact X|reflexivity].
    - intros H. destruct (existsb (beq []) (flat_names fs)) eqn:E; auto. apply existsb_exists in E. destruct E as (x & Hx & E).
      apply beq_true in E. subst. contradiction. }
  assert (Bl : existsb (beq (B "_")) (flat_names fs) = true <-> In (B "_") (flat_names fs)).
  { rewrite existsb_exists. split; [intros (x & Hx & E); apply beq_true in E; subst; exact Hx|].
    intros H. exists (B "_"). split; [exact H|reflexivity]. }
  destruct (all_named (flat_names fs) && negb (existsb (beq (B "_")) (flat_names fs))) eqn:E.
  - apply andb_true_iff in E. destruct E as [E1 E2]. apply negb_true_iff in E2.
    split; [exact Nf|]. split; [|congruence]. split; auto. intros _ n Hn. split; intros ->.
    + apply An in E1. contradiction.
    + apply Bl in Hn. congruence.
  - set (R := map _ _).
    assert (Rl : length R = length (flat_types fs)).
    { unfold R. rewrite map_length, combine_length, flat_lengths. apply Nat.min_id. }
    split; [exact Nf|]. split.
    + split.
      * intros X. rewrite X, Et in Rl. discriminate.
      * intros H. exfalso. apply andb_false_iff in E. destruct E as [E|E].
        -- enough (all_named (flat_names fs) = true) by congruence. apply An. intros X. destruct (H [] X). congruence.
        -- apply negb_false_iff, Bl in E. destruct (H _ E). congruence.
    + intros _. split; [exact Rl|]. intros i g n t Hg Hn Ht. unfold R in Hg. rewrite nth_error_map in Hg.
      assert (Cm : nth_error (combine (flat_names fs) (flat_types fs)) i = Some (n, t)).
      { clear - Hn Ht. revert i Hn Ht. generalize (flat_names fs) (flat_types fs). induction l as [|a l IH]; intros [|b l'] [|i] H1 H2; try discriminate.
        - injection H1 as ->. injection H2 as ->. reflexivity.
        - cbn in *. auto. }
      rewrite Cm in Hg. cbn [option_map fst snd] in Hg. injection Hg as <-.
      destruct Hs as [Hs|Hs].
      * assert (n = []).
        { clear - Hs Hn. apply nth_error_In in Hn. unfold flat_names in Hn. apply in_flat_map in Hn. destruct Hn as (f & Hf & Hn).
          specialize (Hs f Hf). destruct f as [ns u]. cbn in Hs. subst ns. destruct Hn as [<-|[]]. reflexivity. }
        subst n. cbn [beq orb]. rewrite andb_false_r. reflexivity.
      * assert (An' : all_named (flat_names fs) = true).
        { apply An. intros X. unfold flat_names in X. apply in_flat_map in X. destruct X as (f & Hf & X). destruct (Hs f Hf) as [A C].
          destruct f as [[|n0 ns] u]; [exfalso; apply A; reflexivity|contradiction]. }
        rewrite An', andb_true_l. change (B "_") with ["_"%char]. destruct (beq n []), (beq n ["_"%char]); reflexivity.
Qed.
Print Assumptions C91_return.

(** What a return gives in a scope. *)
Inductive gives_result (G : gotypes) (s : bytes -> option (ent (Ty G))) : given -> Ty G -> Prop :=
| GrName n ty : s n = Some (EVar ty) -> gives_result G s (GName n) ty
| GrZero z ty : gives G s z ty (zero G ty) -> gives_result G s (GZero z) ty.

(** Hence the added return compiles, and gives the results their values or
    zero values, for every signature Go accepts. *)
Theorem C91_return_compiles : forall G, lawful G -> forall (sig s : bytes -> option (ent (Ty G))) fs (tys : nat -> Ty G) gs,
  signature_ok fs -> added_return fs = Some gs ->
  (forall i t, nth_error (flat_types fs) i = Some t ->
     mean G sig t = Some (tys i) /\ t <> TId (B "_") /\
     (forall n, In n (names t) -> s n = sig n) /\
     (forall n, t = TId n -> In n predeclared_names -> predeclared G sig n)) ->
  values_ok G s ->
  (forall i n, nth_error (flat_names fs) i = Some n -> n <> [] -> n <> B "_" -> s n = Some (EVar (tys i))) ->
  (gs = [] /\ forall i n, nth_error (flat_names fs) i = Some n -> s n = Some (EVar (tys i))) \/
  (length gs = length (flat_types fs) /\ forall i g, nth_error gs i = Some g -> gives_result G s g (tys i)).
Proof.
  intros G L sig s fs tys gs Hs Ha Ht Hv Hn. pose proof (C91_return fs Hs) as R. rewrite Ha in R.
  destruct R as (Nf & R1 & R2). destruct gs as [|g0 gs].
  - left. split; auto. intros i n Hi. pose proof (proj1 R1 eq_refl n (nth_error_In _ _ Hi)) as [A C]. eauto.
  - right. destruct R2 as [Rl R2]; [discriminate|]. split; [exact Rl|]. intros i g Hg.
    assert (Li : (i < length (flat_types fs))%nat) by (rewrite <- Rl; apply nth_error_Some; congruence).
    destruct (nth_error (flat_types fs) i) as [t|] eqn:Et; [|apply nth_error_None in Et; lia].
    destruct (nth_error (flat_names fs) i) as [n|] eqn:En; [|apply nth_error_None in En; rewrite flat_lengths in En; lia].
    rewrite (R2 i g n t Hg En Et). destruct (Ht i t Et) as (M & Nb & Hm & Hp).
    destruct (beq n []) eqn:E1; [|destruct (beq n (B "_")) eqn:E2]; cbn [orb].
    + constructor. eapply C91_zero; eauto.
    + constructor. eapply C91_zero; eauto.
    + constructor. apply Hn; auto; apply beq_false; auto.
Qed.
Print Assumptions C91_return_compiles.

(** ** Concrete programs *)

(** Types: [int], [bool], [string], [error], a struct [point], an array of
    points, pointers, and a type the package calls [byte]. *)
Inductive cty := CInt | CBool | CString | CError | CPoint | CArray (t : cty) | CPtr (t : cty) | CByte.

Fixpoint c_mean (s : bytes -> option (ent cty)) (t : texpr) : option cty :=
  match t with
  | TId n => match s n with Some (EType t) => Some t | _ => None end
  | TStar t => match c_mean s t with Some t => Some (CPtr t) | None => None end
  | TArray l t => match c_mean s t with Some t => Some (CArray t) | None => None end
  | TParen t => c_mean s t
  | _ => None
  end.
Definition c_kind (t : cty) : kind :=
  match t with CInt => KNum | CBool => KBool | CString => KString | CError | CPtr _ => KNil | CPoint | CArray _ | CByte => KAgg end.
(** The values: the zero value of each kind, of aggregates one per type. *)
Inductive cval := VKind (k : kind) | VAgg (t : cty).
Definition c_zero (t : cty) : cval := match c_kind t with KAgg => VAgg t | k => VKind k end.
Definition c_types : gotypes :=
  GoTypes cty cval c_mean c_kind c_zero (VKind KNum) (VKind KBool) (VKind KString) (VKind KNil).

Lemma c_lawful : lawful c_types.
Proof.
  constructor; try reflexivity; try (intros ty; destruct ty; cbn; congruence).
  - intros s t ty H. destruct t; cbn in *; try exact Logic.I; try discriminate.
    destruct (c_mean s t); [injection H as <-; reflexivity|discriminate].
  - intros s t ty H. destruct t; cbn in *; try exact Logic.I; try discriminate.
    destruct (c_mean s t); [injection H as <-; reflexivity|discriminate].
  - intros s s' t. change (mean c_types) with c_mean.
    induction t; intros H; cbn [names c_mean] in *; auto.
    + rewrite (H n); auto. left. reflexivity.
    + rewrite IHt; auto.
    + rewrite IHt; auto. intros n Hn. apply H. apply in_or_app. auto.
Qed.

Definition universe : bytes -> option (ent cty) := fun n =>
  if beq n (B "int") then Some (EType CInt) else if beq n (B "bool") then Some (EType CBool)
  else if beq n (B "string") then Some (EType CString) else if beq n (B "error") then Some (EType CError)
  else if beq n (B "point") then Some (EType CPoint)
  else if beq n (B "false") then Some EFalse else if beq n (B "nil") then Some ENil
  else if beq n (B "new") then Some ENew else None.
Definition also (n : bytes) (e : ent cty) (s : bytes -> option (ent cty)) : bytes -> option (ent cty) :=
  fun x => if beq x n then Some e else s x.

(** The return added to a function with results [(int, *point, (point), [2]point, error)]. *)
Definition c_fields : list (list bytes * texpr) :=
  [([], TId (B "int")); ([], TStar (TId (B "point"))); ([], TParen (TId (B "point")));
   ([], TArray [] (TId (B "point"))); ([], TId (B "error"))].

Example C91_example :
  added_return c_fields = Some [GZero ZNum; GZero ZNil; GZero (ZNew (TParen (TId (B "point"))));
     GZero (ZLit (TArray [] (TId (B "point")))); GZero ZNil] /\
  forall i g, nth_error [GZero ZNum; GZero ZNil; GZero (ZNew (TParen (TId (B "point"))));
     GZero (ZLit (TArray [] (TId (B "point")))); GZero ZNil] i = Some g ->
  gives_result c_types universe g (nth i [CInt; CPtr CPoint; CPoint; CArray CPoint; CError] CInt).
Proof.
  split; [reflexivity|].
  destruct (C91_return_compiles c_types c_lawful universe universe c_fields
     (fun i => nth i [CInt; CPtr CPoint; CPoint; CArray CPoint; CError] CInt)
     [GZero ZNum; GZero ZNil; GZero (ZNew (TParen (TId (B "point")))); GZero (ZLit (TArray [] (TId (B "point")))); GZero ZNil])
    as [[H _]|[_ H]]; auto.
  - left. intros f [<-|[<-|[<-|[<-|[<-|[]]]]]]; reflexivity.
  - intros [|[|[|[|[|[|i]]]]]] t Ht; try discriminate; injection Ht as <-; repeat split; try reflexivity; try discriminate.
    + intros n E _. injection E as <-. exists CInt. split; reflexivity.
    + intros n E _. injection E as <-. exists CError. split; reflexivity.
  - repeat split.
  - intros [|[|[|[|[|[|i]]]]]] n Hn; try discriminate; injection Hn as <-; congruence.
  - discriminate H.
Qed.

(** [func f() (_ int, err error)] gets [return 0, err]. *)
Example C91_example_named :
  added_return [([B "_"], TId (B "int")); ([B "err"], TId (B "error"))] = Some [GZero ZNum; GName (B "err")] /\
  added_return [([B "n"; B "m"], TId (B "int")); ([B "err"], TId (B "error"))] = Some [] /\
  added_return [] = None.
Proof. repeat split. Qed.

(** Without the conditions the added return does not compile: a parameter
    called [new] with a named result type, one called [nil] with a pointer, one
    that hides the result type itself, and a package with its own type
    [byte]. *)
Theorem C91_always_refuted :
  (forall v, ~ gives c_types (also (B "new") (EVar CBool) universe) (zero_value (TId (B "point"))) CPoint v) /\
  (forall v, ~ gives c_types (also (B "nil") (EVar CInt) universe) (zero_value (TStar (TId (B "point")))) (CPtr CPoint) v) /\
  (forall v, ~ gives c_types (also (B "point") (EVar CPoint) universe) (zero_value (TId (B "point"))) CPoint v) /\
  (mean c_types (also (B "byte") (EType CByte) universe) (TId (B "byte")) = Some CByte /\
   forall v, ~ gives c_types (also (B "byte") (EType CByte) universe) (zero_value (TId (B "byte"))) CByte v).
Proof.
  assert (N : forall s t ty v, gives c_types s (zero_value t) ty v -> _) by (exact (C91_needed c_types c_lawful)).
  split; [|split; [|split; [|split; [reflexivity|]]]]; intros v H; apply N in H; destruct H as [_ H]; cbn [zero_value] in H.
  - destruct H as [H _]. discriminate H.
  - destruct H as [H _]. discriminate H.
  - destruct H as [_ H]. discriminate H.
  - discriminate H.
Qed.
Print Assumptions C91_always_refuted.
