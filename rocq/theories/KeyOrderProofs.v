(** Proofs about the order of map keys. *)
From Verif Require Import Base Maps KeyOrderModel KeyOrderSpec.
From Coq Require Import Permutation.

Section Ind.
Variable Q : key -> Prop.
Hypotheses (h1 : forall s, Q (KStr s)) (h2 : forall z, Q (KInt z)) (h3 : forall n, Q (KUint n)) (h4 : forall f, Q (KFloat f))
  (h5 : forall b, Q (KBool b)) (h6 : forall a b, Q (KComplex a b)) (h7 : forall a, Q (KPtr a)) (h8 : forall a, Q (KChan a))
  (h9 : forall l, Forall Q l -> Q (KArr l)) (h10 : forall l, Forall (fun x => Q (snd x)) l -> Q (KStruct l))
  (h11 : Q KNil) (h12 : forall d k, Q k -> Q (KIface d k)).
Fixpoint key_nest (k : key) : Q k :=
  match k with
  | KStr s => h1 s | KInt z => h2 z | KUint n => h3 n | KFloat f => h4 f | KBool b => h5 b | KComplex a b => h6 a b
  | KPtr a => h7 a | KChan a => h8 a
  | KArr l => h9 l ((fix go l : Forall Q l := match l with [] => Forall_nil _ | k :: l' => Forall_cons k (key_nest k) (go l') end) l)
  | KStruct l => h10 l ((fix go l : Forall (fun x => Q (snd x)) l :=
      match l with [] => Forall_nil _ | x :: l' => Forall_cons x (key_nest (snd x)) (go l') end) l)
  | KNil => h11 | KIface d k' => h12 d k' (key_nest k')
  end.
End Ind.

(** Keys as lists of numbers and texts. *)
Inductive tok := TZ (z : Z) | TS (s : bytes).
Definition tcmp (a b : tok) : comparison :=
  match a, b with
  | TZ x, TZ y => Z.compare x y
  | TZ _, TS _ => Lt
  | TS _, TZ _ => Gt
  | TS x, TS y => three bltb x y
  end.
Lemma three_bytes x y : (three bltb x y = Eq <-> x = y) /\ three bltb y x = CompOpp (three bltb x y).
Proof.
  unfold three. destruct (bltb x y) eqn:A.
  - rewrite (bltb_asym _ _ A). split; [split; [discriminate|intros ->; rewrite bltb_irrefl in A; discriminate]|reflexivity].
  - destruct (bltb y x) eqn:B; [split; [split; [discriminate|intros ->; rewrite bltb_irrefl in B; discriminate]|reflexivity]|].
    split; [split; [intros _; apply bltb_total; assumption|reflexivity]|reflexivity].
Qed.
Lemma tcmp_eq a b : tcmp a b = Eq <-> a = b.
Proof.
  destruct a, b; cbn; try (split; congruence).
  - rewrite Z.compare_eq_iff. split; congruence.
  - rewrite (proj1 (three_bytes _ _)). split; congruence.
Qed.
Lemma tcmp_opp a b : tcmp b a = CompOpp (tcmp a b).
Proof. destruct a, b; cbn; try reflexivity; [apply Z.compare_antisym|apply three_bytes]. Qed.
Lemma tcmp_trans a b c : tcmp a b = Lt -> tcmp b c = Lt -> tcmp a c = Lt.
Proof.
  destruct a, b, c; cbn; try congruence.
  - rewrite !Z.compare_lt_iff. lia.
  - unfold three. destruct (bltb s s0) eqn:A; [|destruct (bltb s0 s); discriminate].
    destruct (bltb s0 s1) eqn:B; [|destruct (bltb s1 s0); discriminate]. rewrite (bltb_trans _ _ _ A B). reflexivity.
Qed.
Fixpoint lexl (a b : list tok) : comparison :=
  match a, b with
  | [], [] => Eq | [], _ => Lt | _, [] => Gt
  | x :: a', y :: b' => match tcmp x y with Eq => lexl a' b' | c => c end
  end.
Lemma lexl_eq a : forall b, lexl a b = Eq <-> a = b.
Proof.
  induction a as [|x a IH]; intros [|y b]; cbn; try (split; congruence).
  destruct (tcmp x y) eqn:T; [apply tcmp_eq in T as ->; rewrite IH; split; congruence| |]; split; try discriminate;
    intros E; injection E as -> _; rewrite (proj2 (tcmp_eq y y) eq_refl) in T; discriminate.
Qed.
Lemma lexl_opp a : forall b, lexl b a = CompOpp (lexl a b).
Proof. induction a as [|x a IH]; intros [|y b]; cbn; try reflexivity. rewrite tcmp_opp. destruct (tcmp x y); cbn; auto. Qed.
Lemma lexl_trans a : forall b c, lexl a b = Lt -> lexl b c = Lt -> lexl a c = Lt.
Proof.
  induction a as [|x a IH]; intros [|y b] [|z c]; cbn; try congruence.
  destruct (tcmp x y) eqn:A, (tcmp y z) eqn:B; intros H1 H2; try discriminate.
  - apply tcmp_eq in A as ->. apply tcmp_eq in B as ->. rewrite (proj2 (tcmp_eq z z) eq_refl). eapply IH; eassumption.
  - apply tcmp_eq in A as ->. rewrite B. reflexivity.
  - apply tcmp_eq in B as ->. rewrite A. reflexivity.
  - rewrite (tcmp_trans _ _ _ A B). reflexivity.
Qed.

Section Proofs.
Variable tyof : N -> kty.
Variable tname : N -> bytes.
Variable P : N -> Prop.
Hypothesis inj : forall d e, P d -> P e -> tname d = tname e -> d = e.
Notation has := (has tyof).
Notation good := (good P).
Notation cmp := (cmp tname).

Fixpoint flat (k : key) : list tok :=
  match k with
  | KStr s => [TS s]
  | KInt z => [TZ z]
  | KUint n | KPtr n | KChan n => [TZ (Z.of_N n)]
  | KFloat f => [TZ (f_ord f)]
  | KBool b => [TZ (if b then 1 else 0)]
  | KComplex a b => [TZ (f_ord a); TZ (f_ord b)]
  | KArr l => (fix go l := match l with [] => [] | k :: l' => flat k ++ go l' end) l
  | KStruct l => (fix go (l : list (bool * key)) := match l with [] => [] | (_, k) :: l' => flat k ++ go l' end) l
  | KNil => [TZ 0]
  | KIface d k' => TS (tname d) :: flat k'
  end.

Lemma three_z (lt : Z -> Z -> bool) x y : (forall a b, lt a b = (a <? b)%Z) -> three lt x y = Z.compare x y.
Proof.
  intros H. unfold three. rewrite !H. destruct (Z.ltb_spec x y); [symmetry; apply Z.compare_lt_iff; assumption|].
  destruct (Z.ltb_spec y x); symmetry; [apply Z.compare_gt_iff; assumption|apply Z.compare_eq_iff; lia].
Qed.
Lemma three_n x y : three N.ltb x y = Z.compare (Z.of_N x) (Z.of_N y).
Proof.
  unfold three. destruct (N.ltb_spec x y); [symmetry; apply Z.compare_lt_iff; lia|].
  destruct (N.ltb_spec y x); symmetry; [apply Z.compare_gt_iff; lia|apply Z.compare_eq_iff; lia].
Qed.
Lemma three_f x y : f_nan x = false -> f_nan y = false -> three f_ltb x y = Z.compare (f_ord x) (f_ord y).
Proof.
  intros A B. unfold three, f_ltb. rewrite A, B. cbn. fold (three Z.ltb (f_ord x) (f_ord y)). apply three_z. reflexivity.
Qed.

(** The comparison agrees with the order of the lists, whatever follows. *)
Definition agrees (a b : key) : Prop :=
  exists c, cmp a b = Some c /\ (c = Eq -> keq a b) /\
    forall ra rb, lexl (flat a ++ ra) (flat b ++ rb) = match c with Eq => lexl ra rb | _ => c end.

Lemma one a b x y : flat a = [x] -> flat b = [y] -> cmp a b = Some (tcmp x y) -> (tcmp x y = Eq -> keq a b) -> agrees a b.
Proof.
  intros A B C D. exists (tcmp x y). split; [exact C|]. split; [exact D|]. intros ra rb. rewrite A, B. cbn. destruct (tcmp x y); reflexivity.
Qed.

Lemma cmp_agrees a : forall b t, has a t -> has b t -> good a -> good b -> agrees a b.
Proof.
  induction a as [s|z|n|f|b0|re im|p|p|l IH|l IH| |d k IH] using key_nest; intros b t Ha Hb Ga Gb.
  - destruct t; try contradiction; destruct b; try contradiction. eapply one; [reflexivity|reflexivity|reflexivity|].
    cbn. intros H. apply three_bytes in H as ->. constructor.
  - destruct t; try contradiction; destruct b; try contradiction. eapply one; [reflexivity|reflexivity|cbn; rewrite three_z; reflexivity|].
    cbn. intros H. apply Z.compare_eq_iff in H as ->. constructor.
  - destruct t; try contradiction; destruct b; try contradiction. eapply one; [reflexivity|reflexivity|cbn; rewrite three_n; reflexivity|].
    cbn. intros H. apply Z.compare_eq_iff in H. apply N2Z.inj in H as ->. constructor.
  - destruct t; try contradiction; destruct b; try contradiction. cbn in Ga, Gb.
    eapply one; [reflexivity|reflexivity|cbn; rewrite three_f by assumption; reflexivity|].
    cbn. intros H. apply Z.compare_eq_iff in H. constructor; assumption.
  - destruct t; try contradiction; destruct b; try contradiction. eapply one; [reflexivity|reflexivity|destruct b0, b; reflexivity|].
    destruct b0, b; cbn; intros H; try discriminate; constructor.
  - destruct t; try contradiction; destruct b as [| | | | |re' im'| | | | | |]; try contradiction. destruct Ga as [G1 G2], Gb as [G3 G4].
    cbn. eexists. split; [cbn; rewrite !three_f by assumption; reflexivity|]. split.
    + destruct (f_ord re ?= f_ord re')%Z eqn:A; try discriminate. intros B. apply Z.compare_eq_iff in A, B.
      constructor; constructor; assumption.
    + intros ra rb. cbn. destruct (f_ord re ?= f_ord re')%Z; [|reflexivity|reflexivity]. destruct (f_ord im ?= f_ord im')%Z; reflexivity.
  - destruct t; try contradiction; destruct b; try contradiction. eapply one; [reflexivity|reflexivity|cbn; rewrite three_n; reflexivity|].
    cbn. intros H. apply Z.compare_eq_iff in H. apply N2Z.inj in H as ->. constructor.
  - destruct t; try contradiction; destruct b; try contradiction. eapply one; [reflexivity|reflexivity|cbn; rewrite three_n; reflexivity|].
    cbn. intros H. apply Z.compare_eq_iff in H. apply N2Z.inj in H as ->. constructor.
  - destruct t as [| | | | | | | |n t'| |]; try contradiction; destruct b as [| | | | | | | |m| | |]; try contradiction.
    destruct Ha as [La Ha], Hb as [Lb Hb]. cbn in Ga, Gb.
    assert (X : exists c, cmp (KArr l) (KArr m) = Some c /\ (c = Eq -> keqs l m) /\
      forall ra rb, lexl (flat (KArr l) ++ ra) (flat (KArr m) ++ rb) = match c with Eq => lexl ra rb | _ => c end).
    { assert (Lm : length l = length m) by congruence. clear La Lb. revert m Hb Gb Lm.
      induction IH as [|k l Hk IHl IHx]; intros [|k' m] Hb Gb Lm; try discriminate.
      - exists Eq. split; [reflexivity|]. split; [constructor|]. reflexivity.
      - destruct Ha as [Ha1 Ha2], Hb as [Hb1 Hb2], Ga as [Ga1 Ga2], Gb as [Gb1 Gb2].
        destruct (Hk k' t' Ha1 Hb1 Ga1 Gb1) as (c & C1 & C2 & C3).
        destruct (IHx Ha2 Ga2 m Hb2 Gb2 ltac:(cbn in Lm; lia)) as (c' & D1 & D2 & D3).
        cbn in D1, D3 |- *. rewrite C1. destruct c.
        + exists c'. split; [exact D1|]. split; [intros E; constructor; [apply C2; reflexivity|apply D2, E]|].
          intros ra rb. rewrite <- !app_assoc. rewrite C3. apply D3.
        + exists Lt. split; [reflexivity|]. split; [discriminate|]. intros ra rb. rewrite <- !app_assoc. apply C3.
        + exists Gt. split; [reflexivity|]. split; [discriminate|]. intros ra rb. rewrite <- !app_assoc. apply C3. }
    destruct X as (c & C1 & C2 & C3). exists c. split; [exact C1|]. split; [intros E; constructor; apply C2, E|exact C3].
  - destruct t as [| | | | | | | | |ts|]; try contradiction; destruct b as [| | | | | | | | |m| |]; try contradiction.
    cbn in Ga, Gb.
    assert (X : exists c, cmp (KStruct l) (KStruct m) = Some c /\ (c = Eq -> keqf l m) /\
      forall ra rb, lexl (flat (KStruct l) ++ ra) (flat (KStruct m) ++ rb) = match c with Eq => lexl ra rb | _ => c end).
    { revert ts m Ha Hb Gb.
      induction IH as [|[bl k] l Hk IHl IHx]; intros [|[bt t] ts] [|[bl' k'] m] Ha Hb Gb; try contradiction.
      - exists Eq. split; [reflexivity|]. split; [constructor|]. reflexivity.
      - destruct Ha as (-> & Ha1 & Ha2), Hb as (-> & Hb1 & Hb2), Ga as [Ga1 Ga2], Gb as [Gb1 Gb2].
        destruct (Hk k' t Ha1 Hb1 Ga1 Gb1) as (c & C1 & C2 & C3).
        destruct (IHx Ga2 ts m Ha2 Hb2 Gb2) as (c' & D1 & D2 & D3).
        cbn in C1, D1, D3 |- *. rewrite C1. destruct c.
        + exists c'. split; [exact D1|]. split; [intros E; destruct bt; constructor; try (apply C2; reflexivity); apply D2, E|].
          intros ra rb. rewrite <- !app_assoc. rewrite C3. apply D3.
        + exists Lt. split; [reflexivity|]. split; [discriminate|]. intros ra rb. rewrite <- !app_assoc. apply C3.
        + exists Gt. split; [reflexivity|]. split; [discriminate|]. intros ra rb. rewrite <- !app_assoc. apply C3. }
    destruct X as (c & C1 & C2 & C3). exists c. split; [exact C1|]. split; [intros E; constructor; apply C2, E|exact C3].
  - destruct t; try contradiction; destruct b; try contradiction.
    + exists Eq. split; [reflexivity|]. split; [constructor|reflexivity].
    + exists Lt. split; [reflexivity|]. split; [discriminate|reflexivity].
  - destruct t; try contradiction; destruct b as [| | | | | | | | | | |e k']; try contradiction.
    + exists Gt. split; [reflexivity|]. split; [discriminate|reflexivity].
    + cbn in Ha, Hb. destruct Ga as [Pd Ga], Gb as [Pe Gb]. unfold agrees. cbn. destruct (N.eqb_spec d e) as [->|Ne].
      * destruct (IH k' (tyof e) Ha Hb Ga Gb) as (c & C1 & C2 & C3). exists c. split; [exact C1|].
        split; [intros E; constructor; apply C2, E|]. intros ra rb. rewrite (proj2 (proj1 (three_bytes _ _)) eq_refl). apply C3.
      * eexists. split; [reflexivity|]. split; [intros E; apply three_bytes in E; exfalso; apply Ne, inj; assumption|].
        intros ra rb. destruct (three bltb (tname d) (tname e)) eqn:T; try reflexivity. apply three_bytes in T. exfalso. apply Ne, inj; assumption.
Qed.

Lemma cmp_lex a b t : has a t -> has b t -> good a -> good b -> cmp a b = Some (lexl (flat a) (flat b)) /\ (cmp a b = Some Eq -> keq a b).
Proof.
  intros Ha Hb Ga Gb. destruct (cmp_agrees a b t Ha Hb Ga Gb) as (c & C1 & C2 & C3).
  specialize (C3 [] []). rewrite !app_nil_r in C3. rewrite C3. split; [rewrite C1; destruct c; reflexivity|].
  rewrite C1. intros E. injection E as ->. apply C2; reflexivity.
Qed.
End Proofs.
