From Verif Require Import Base LoadModel.

(** Packages that a loaded one leads to: by imports of packages with type information. *)
Inductive imported (types_of : nat -> option nat) (imports : nat -> list nat) (p : nat) : nat -> Prop :=
| im_self : imported types_of imports p p
| im_next q r : imported types_of imports p q -> types_of q <> None -> In r (imports q) -> imported types_of imports p r.

Section P.
Variables (types_of : nat -> option nat) (imports : nat -> list nat) (project : list nat).
Variable nodes : list nat.
Hypothesis closed : forall p q, In p nodes -> In q (imports p) -> In q nodes.
Hypothesis inj : forall p q t, types_of p = Some t -> types_of q = Some t -> p = q.
Notation imp := (imported types_of imports).

Lemma imp_left p r q : types_of p <> None -> In r (imports p) -> imp r q -> imp p q.
Proof.
  intros T I. induction 1 as [|q s _ IH Tq Iq].
  - eapply im_next; [apply im_self|exact T|exact I].
  - eapply im_next; eassumption.
Qed.

(** What a call adds: the packages [ps]. *)
Record step_ok (starts : list nat) (st st' : lstate) (ps : list nat) : Prop := {
  so_created : exists new, created st' = created st ++ new /\ Forall2 (fun q t => types_of q = Some t) ps new;
  so_modules : modules st' = modules st ++ filter (fun q => negb (existsb (Nat.eqb q) project)) ps;
  so_nodup : NoDup (created st');
  so_nodes : incl ps nodes;
  so_reach : forall q, In q ps -> exists s, In s starts /\ imp s q;
  so_start : forall s t, In s starts -> types_of s = Some t -> In t (created st');
  so_closed : forall q r t, In q ps -> In r (imports q) -> types_of r = Some t -> In t (created st')
}.

Definition good (st : lstate) : Prop := NoDup (created st) /\ forall t, In t (created st) -> exists q, In q nodes /\ types_of q = Some t.

Lemma good_len st : good st -> (length (created st) <= length nodes)%nat.
Proof.
  intros [N I]. set (f := fun q => match types_of q with Some t => t | None => 0%nat end).
  rewrite <- (map_length f nodes). apply NoDup_incl_length; [exact N|]. intros t Ht. destruct (I t Ht) as (q & Hq & E).
  apply in_map_iff. exists q. unfold f. rewrite E. auto.
Qed.

Lemma forall2_in {A B} (R : A -> B -> Prop) l m : Forall2 R l m -> forall b, In b m -> exists a, In a l /\ R a b.
Proof. induction 1 as [|x y l m Rxy F IH]; intros b []; [subst; exists x; split; [left|]; auto|]. destruct (IH b H) as (a & Ha & Rab). exists a. split; [right|]; auto. Qed.
Lemma forall2_in_l {A B} (R : A -> B -> Prop) l m : Forall2 R l m -> forall a, In a l -> exists b, In b m /\ R a b.
Proof. induction 1 as [|x y l m Rxy F IH]; intros b []; [subst; exists y; split; [left|]; auto|]. destruct (IH b H) as (a & Ha & Rab). exists a. split; [right|]; auto. Qed.

Lemma good_step starts st st' ps : good st -> step_ok starts st st' ps -> good st'.
Proof.
  intros [_ I] S. split; [apply (so_nodup _ _ _ _ S)|]. intros t Ht. destruct (so_created _ _ _ _ S) as (new & E & F).
  rewrite E in Ht. apply in_app_iff in Ht as [Ht|Ht]; [auto|]. destruct (forall2_in _ _ _ F t Ht) as (q & Hq & Eq).
  exists q. split; [apply (so_nodes _ _ _ _ S); exact Hq|exact Eq].
Qed.

Lemma step_mono starts st st' ps t : step_ok starts st st' ps -> In t (created st) -> In t (created st').
Proof. intros S H. destruct (so_created _ _ _ _ S) as (new & -> & _). apply in_app_iff. auto. Qed.

Lemma each_spec f : forall l st,
  (forall q st0, In q l -> good st0 -> (length (created st) <= length (created st0))%nat ->
    exists st1 ps, f q st0 = Some st1 /\ step_ok [q] st0 st1 ps) ->
  good st -> exists st' ps, each f l st = Some st' /\ step_ok l st st' ps.
Proof.
  induction l as [|q l IH]; intros st H G.
  - exists st, []. split; [reflexivity|]. constructor; try (intros; contradiction).
    + exists []. rewrite app_nil_r. split; [reflexivity|constructor].
    + cbn. rewrite app_nil_r. reflexivity.
    + apply G.
    + intros x [].
  - cbn [each]. destruct (H q st (or_introl eq_refl) G (Nat.le_refl _)) as (st1 & ps1 & E1 & S1). rewrite E1.
    pose proof (good_step _ _ _ _ G S1) as G1.
    destruct (so_created _ _ _ _ S1) as (n1 & C1 & F1).
    destruct (IH st1) as (st2 & ps2 & E2 & S2); [|exact G1|].
    { intros q' st0 Hq' G0 L. apply H; [right; exact Hq'|exact G0|]. rewrite C1, app_length in L. lia. }
    exists st2, (ps1 ++ ps2). split; [exact E2|]. destruct (so_created _ _ _ _ S2) as (n2 & C2 & F2). constructor.
    + exists (n1 ++ n2). rewrite C2, C1, app_assoc. split; [reflexivity|]. apply Forall2_app; assumption.
    + rewrite (so_modules _ _ _ _ S2), (so_modules _ _ _ _ S1), filter_app, app_assoc. reflexivity.
    + apply (so_nodup _ _ _ _ S2).
    + intros x Hx. apply in_app_iff in Hx as [Hx|Hx]; [apply (so_nodes _ _ _ _ S1)|apply (so_nodes _ _ _ _ S2)]; exact Hx.
    + intros x Hx. apply in_app_iff in Hx as [Hx|Hx].
      * destruct (so_reach _ _ _ _ S1 x Hx) as (s & [<-|[]] & R). exists q. split; [left; reflexivity|exact R].
      * destruct (so_reach _ _ _ _ S2 x Hx) as (s & Hs & R). exists s. split; [right; exact Hs|exact R].
    + intros s t [<-|Hs] Et; [|apply (so_start _ _ _ _ S2 s t Hs Et)].
      apply (step_mono _ _ _ _ _ S2). apply (so_start _ _ _ _ S1 q t); [left; reflexivity|exact Et].
    + intros x r t Hx Hr Et. apply in_app_iff in Hx as [Hx|Hx].
      * apply (step_mono _ _ _ _ _ S2). exact (so_closed _ _ _ _ S1 x r t Hx Hr Et).
      * exact (so_closed _ _ _ _ S2 x r t Hx Hr Et).
Qed.

Lemma create_spec : forall fuel p st, In p nodes -> good st -> (length nodes < fuel + length (created st))%nat ->
  exists st' ps, create_all types_of imports project fuel p st = Some st' /\ step_ok [p] st st' ps.
Proof.
  induction fuel as [|fuel IH]; intros p st Hp G L.
  - pose proof (good_len st G). cbn in L. lia.
  - cbn [create_all]. destruct (types_of p) as [t|] eqn:Et.
    2:{ exists st, []. split; [reflexivity|]. constructor; try (intros; contradiction).
        - exists []. rewrite app_nil_r. split; [reflexivity|constructor].
        - cbn. rewrite app_nil_r. reflexivity.
        - apply G.
        - intros x [].
        - intros s t [<-|[]] E. congruence. }
    destruct (existsb (Nat.eqb t) (created st)) eqn:Ex.
    + apply existsb_exists in Ex as (t' & Ht & E). apply Nat.eqb_eq in E as <-.
      exists st, []. split; [reflexivity|]. constructor; try (intros; contradiction).
      * exists []. rewrite app_nil_r. split; [reflexivity|constructor].
      * cbn. rewrite app_nil_r. reflexivity.
      * apply G.
      * intros x [].
      * intros s t' [<-|[]] E. congruence.
    + assert (~ In t (created st)) as Nt.
      { intros H. assert (existsb (Nat.eqb t) (created st) = true); [|congruence]. apply existsb_exists. exists t. split; [exact H|apply Nat.eqb_refl]. }
      set (st0 := LS (created st ++ [t]) (if existsb (Nat.eqb p) project then modules st else modules st ++ [p])).
      assert (good st0) as G0.
      { destruct G as [N I]. split.
        - cbn [created st0]. apply NoDup_app_iff. split; [exact N|]. split; [repeat constructor; intros []|]. intros x Hx [<-|[]]. exact (Nt Hx).
        - intros x Hx. cbn [created st0] in Hx. apply in_app_iff in Hx as [Hx|[<-|[]]]; [auto|]. exists p. auto. }
      destruct (each_spec (create_all types_of imports project fuel) (imports p) st0) as (st' & ps & E & S); [|exact G0|].
      { intros q sq Hq Gq Lq. apply IH; [eapply closed; eassumption|exact Gq|]. cbn [created st0] in Lq. rewrite app_length in Lq. cbn in Lq. lia. }
      exists st', (p :: ps). split; [exact E|]. destruct (so_created _ _ _ _ S) as (new & C & F). constructor.
      * exists (t :: new). rewrite C. cbn [created st0]. rewrite <- app_assoc. split; [reflexivity|]. constructor; assumption.
      * rewrite (so_modules _ _ _ _ S). cbn [modules st0 filter]. destruct (existsb (Nat.eqb p) project); cbn [negb]; [reflexivity|].
        rewrite <- app_assoc. reflexivity.
      * apply (so_nodup _ _ _ _ S).
      * intros x [<-|Hx]; [exact Hp|apply (so_nodes _ _ _ _ S); exact Hx].
      * intros x Hx. exists p. split; [left; reflexivity|]. destruct Hx as [<-|Hx]; [apply im_self|].
        destruct (so_reach _ _ _ _ S x Hx) as (s & Hs & R). apply (imp_left p s x); [congruence|exact Hs|exact R].
      * intros s t' [<-|[]] Es. assert (t' = t) as -> by congruence. rewrite C. apply in_app_iff. left. apply in_app_iff. right. left. reflexivity.
      * intros x r t' [<-|Hx] Hr Er; [exact (so_start _ _ _ _ S r t' Hr Er)|exact (so_closed _ _ _ _ S x r t' Hx Hr Er)].
Qed.

Lemma load_spec fuel : incl project nodes -> (length nodes < fuel)%nat ->
  exists st ps, each (create_all types_of imports project fuel) project (LS [] []) = Some st /\
    step_ok project (LS [] []) st ps.
Proof.
  intros P L. apply each_spec.
  - intros q st0 Hq G0 _. apply create_spec; [apply P; exact Hq|exact G0|lia].
  - split; [constructor|intros t []].
Qed.

(** All that is imported is created: what was added is closed. *)
Lemma load_complete st ps s q : step_ok project (LS [] []) st ps -> In s project -> imp s q -> forall t, types_of q = Some t -> In q ps.
Proof.
  intros S Hs. destruct (so_created _ _ _ _ S) as (new & C & F). cbn [created app] in C.
  assert (forall q t, types_of q = Some t -> In t (created st) -> In q ps) as Back.
  { intros x t Ex Ht. rewrite C in Ht. destruct (forall2_in _ _ _ F t Ht) as (y & Hy & Ey). rewrite (inj x y t Ex Ey). exact Hy. }
  induction 1 as [|x r R IH Tx Hr]; intros t Et.
  - apply (Back s t Et). exact (so_start _ _ _ _ S s t Hs Et).
  - destruct (types_of x) as [tx|] eqn:Ex; [|congruence]. specialize (IH tx eq_refl). apply (Back r t Et).
    exact (so_closed _ _ _ _ S x r t IH Hr Et).
Qed.
End P.
