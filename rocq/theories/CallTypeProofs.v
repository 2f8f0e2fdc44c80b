(** Lemmas for CallTypeProps.v. *)
From Verif Require Import Base InstrModel InstrProofs CompileSpec RewriteModel CallTypeSpec.
From Coq Require Import Lia.

Lemma lit_const t : is_const t = true <-> literal t.
Proof.
  split.
  - revert t. fix IH 1. intros [k cs] H. destruct k; try discriminate H.
    + destruct cs; [constructor|discriminate H].
    + destruct cs as [|a [|b [|c cs]]]; try discriminate H. cbn in H. apply andb_prop in H. constructor; apply IH; apply H.
    + destruct cs as [|a [|b cs]]; try discriminate H. constructor; apply IH; exact H.
    + destruct cs as [|a [|b cs]]; try discriminate H. constructor; apply IH; exact H.
  - induction 1; cbn; try rewrite IHliteral1, IHliteral2; try rewrite IHliteral; reflexivity.
Qed.
Lemma stays_as_is t : stays t = true <-> as_is t.
Proof.
  split.
  - destruct t as [k cs]. destruct k; intros H; try (apply ALit, lit_const; exact H); try (exfalso; discriminate H).
    + destruct cs; [constructor|discriminate H].
    + constructor.
  - intros [x|m cs|u Hu]; [reflexivity|reflexivity|]. apply lit_const in Hu. destruct u as [k cs]. destruct k; try exact Hu; try discriminate Hu.
Qed.
Lemma stays_not t : stays t = false <-> ~ as_is t.
Proof. rewrite <- stays_as_is. destruct (stays t); split; intros H; try discriminate; try reflexivity; try (intros E; discriminate E). exfalso. apply H. reflexivity. Qed.

Lemma arg_var_inj p i j : arg_var p i = arg_var p j -> i = j.
Proof. unfold arg_var. rewrite !app_assoc. intros H. apply app_inv_head in H. apply num_inj, H. Qed.
Lemma arg_recv_var p i : arg_var p i <> recv_var p.
Proof. unfold arg_var, recv_var. intros H. vm_compute in H. discriminate H. Qed.
Lemma client_not_arg p i n : In n client_names -> n <> arg_var p i.
Proof. intros [<-|[<-|[]]] H; vm_compute in H; discriminate H. Qed.
Lemma client_not_recv p n : In n client_names -> n <> recv_var p.
Proof. intros [<-|[<-|[]]] H; vm_compute in H; discriminate H. Qed.

Section Go.
Variable C : calltypes.
Hypothesis HL : lawful_calls C.
Variable p : N.
Notation T := (CT C).
Notation K := (CK C).

(** Variables more, the first innermost. *)
Fixpoint overs (ov : list (bytes * T)) (s : scope T K) : scope T K :=
  match ov with [] => s | (x, t) :: ov' => with_var C x t (overs ov' s) end.

Lemma overs_out ov s x : ~ In x (map fst ov) -> overs ov s x = s x.
Proof.
  induction ov as [|[y t] ov IH]; [reflexivity|]. cbn [map fst overs]. intros H. unfold with_var.
  destruct (beq x y) eqn:E; [apply beq_true in E; exfalso; apply H; left; congruence|]. apply IH. intros HI. apply H. right; exact HI.
Qed.
Lemma overs_app o1 o2 s : overs (o1 ++ o2) s = overs o1 (overs o2 s).
Proof. induction o1 as [|[x t] o1 IH]; [reflexivity|]. cbn. rewrite IH. reflexivity. Qed.

Definition added_var (x : bytes) : Prop := x = recv_var p \/ exists i, x = arg_var p i.
Definition fresh_in (t : nd) : Prop := forall x, In x (names t) -> ~ added_var x.

Lemma ty_same s s' e : fresh_in e -> (forall x, ~ added_var x -> s' x = s x) -> c_ty C s' e = c_ty C s e.
Proof. intros Hf Hs. destruct HL as (L1 & _). apply L1. intros x Hx. apply Hs, Hf, Hx. Qed.
Lemma fun_same s s' e : fresh_in e -> (forall x, ~ added_var x -> s' x = s x) -> c_fun C s' e = c_fun C s e.
Proof. intros Hf Hs. destruct HL as (L1 & _). apply L1. intros x Hx. apply Hs, Hf, Hx. Qed.

(** The variables defined for the arguments. *)
Fixpoint binds (s : scope T K) (i : nat) (l : list nd) (ov : list (bytes * T)) : Prop :=
  match l with
  | [] => ov = []
  | a :: l' =>
    if stays a then binds s (S i) l' ov
    else exists v t ov', c_ty C s a = Some v /\ alone C v = Some t /\ binds s (S i) l' ov' /\ ov = ov' ++ [(arg_var p i, t)]
  end.

Lemma binds_names s l : forall i ov x, binds s i l ov -> In x (map fst ov) -> exists j, (i <= j)%nat /\ x = arg_var p j.
Proof.
  induction l as [|a l IH]; intros i ov x H HI; cbn in H.
  - subst ov. destruct HI.
  - destruct (stays a).
    + destruct (IH _ _ _ H HI) as (j & Hj & E). exists j. split; [lia|exact E].
    + destruct H as (v & t & ov' & _ & _ & H & ->). rewrite map_app in HI. apply in_app_or in HI. destruct HI as [HI|[<-|[]]].
      * destruct (IH _ _ _ H HI) as (j & Hj & E). exists j. split; [lia|exact E].
      * exists i. split; [lia|reflexivity].
Qed.

Definition agree (s s' : scope T K) : Prop := forall x, ~ added_var x -> s' x = s x.
Lemma agree_with s s' x t : agree s s' -> added_var x -> agree s (with_var C x t s').
Proof.
  intros H Hx y Hy. unfold with_var. destruct (beq y x) eqn:E; [apply beq_true in E; subst; contradiction|]. apply H, Hy.
Qed.
Lemma agree_overs s s' i l ov s0 : agree s s' -> binds s0 i l ov -> agree s (overs ov s').
Proof.
  intros H Hb y Hy. rewrite overs_out; [apply H, Hy|]. intros HI. destruct (binds_names _ _ _ _ _ Hb HI) as (j & _ & E). apply Hy. right. exists j. exact E.
Qed.

Lemma build_args_vals l : forall i st l' v, build_args p i l = (st, l', v) -> l' = map snd v.
Proof.
  induction l as [|a l IH]; intros i st l' v H; cbn in H.
  - injection H as <- <- <-. reflexivity.
  - destruct (build_args p (S i) l) as [[s0 l0] v0] eqn:E. destruct (stays a); injection H as <- <- <-; cbn; rewrite (IH _ _ _ _ E); reflexivity.
Qed.
Lemma build_args_length l : forall i st l' v, build_args p i l = (st, l', v) -> length l' = length l.
Proof.
  induction l as [|a l IH]; intros i st l' v H; cbn in H.
  - injection H as <- <- <-. reflexivity.
  - destruct (build_args p (S i) l) as [[s0 l0] v0] eqn:E. destruct (stays a); injection H as <- <- <-; cbn; rewrite (IH _ _ _ _ E); reflexivity.
Qed.

(** The definitions in front, then the rest. *)
Lemma front_args s k R l : forall i st l' v s' blk, build_args p i l = (st, l', v) -> agree s s' -> (forall a, In a l -> fresh_in a) ->
  (forall j, (i <= j)%nat -> ~ In (arg_var p j) blk) -> (forall x, In x (flat_map names l') -> In x (flat_map names R)) ->
  (front C s' blk (st ++ R) k <-> exists ov, binds s i l ov /\ front C (overs ov s') (map fst ov ++ blk) R k).
Proof.
  induction l as [|a l IH]; intros i st l' v s' blk HB Ha Hf Hblk HR; cbn in HB.
  - injection HB as <- <- <-. cbn. split; [intros H; exists []; split; [reflexivity|exact H]|intros (ov & -> & H); exact H].
  - destruct (build_args p (S i) l) as [[s0 l0] v0] eqn:E. cbn [binds]. destruct (stays a) eqn:Es; injection HB as <- <- <-.
    + apply (IH _ _ _ _ _ _ E Ha); [intros b Hb; apply Hf; right; exact Hb|intros j Hj; apply Hblk; lia|].
      intros x Hx. apply HR. cbn. apply in_or_app. right; exact Hx.
    + cbn [app front define]. assert (Hty : c_ty C s' a = c_ty C s a) by (apply ty_same; [apply Hf; left; reflexivity|exact Ha]).
      assert (Hrest : forall t, front C (with_var C (arg_var p i) t s') (arg_var p i :: blk) (s0 ++ R) k <->
         exists ov, binds s (S i) l ov /\ front C (overs ov (with_var C (arg_var p i) t s')) (map fst ov ++ arg_var p i :: blk) R k).
      { intros t. apply (IH _ _ _ _ _ _ E).
        - apply agree_with; [exact Ha|right; exists i; reflexivity].
        - intros b Hb; apply Hf; right; exact Hb.
        - intros j Hj [HI|HI]; [apply arg_var_inj in HI; lia|]. apply (Hblk j); [lia|exact HI].
        - intros x Hx. apply HR. cbn. right. exact Hx. }
      rewrite Hty. split.
      * intros (_ & _ & vv & t & Hv & Hal & H). apply Hrest in H. destruct H as (ov & Hb & H). exists (ov ++ [(arg_var p i, t)]). split.
        -- exists vv, t, ov. repeat split; assumption.
        -- rewrite overs_app, map_app, <- app_assoc. exact H.
      * intros (ov & (vv & t & ov' & Hv & Hal & Hb & ->) & H). split; [apply Hblk; lia|]. split.
        -- rewrite flat_map_app. apply in_or_app. right. apply HR. cbn. left. reflexivity.
        -- exists vv, t. split; [exact Hv|]. split; [exact Hal|]. apply Hrest. exists ov'. split; [exact Hb|].
           rewrite overs_app, map_app, <- app_assoc in H. exact H.
Qed.

(** The type of an argument after the rewriting. *)
Definition new_ty (s : scope T K) (a : nd) : option (sty T K) :=
  if stays a then c_ty C s a
  else match c_ty C s a with Some v => match alone C v with Some t => Some (Typed t) | None => None end | None => None end.

Lemma new_args s l : forall i st l' v s' ov, build_args p i l = (st, l', v) -> agree s s' -> (forall a, In a l -> fresh_in a) -> binds s i l ov ->
  forall j a, nth_error l j = Some a -> exists a', nth_error l' j = Some a' /\ c_ty C (overs ov s') a' = new_ty s a.
Proof.
  induction l as [|b l IH]; intros i st l' v s' ov HB Ha Hf Hb j a Hj; [destruct j; discriminate Hj|].
  cbn in HB. destruct (build_args p (S i) l) as [[s0 l0] v0] eqn:E. cbn [binds] in Hb. destruct (stays b) eqn:Es; injection HB as <- <- <-.
  - destruct j as [|j]; cbn in Hj.
    + injection Hj as <-. exists b. split; [reflexivity|]. unfold new_ty. rewrite Es. apply ty_same; [apply Hf; left; reflexivity|]. eapply agree_overs; eassumption.
    + destruct (IH _ _ _ _ _ _ E Ha (fun c Hc => Hf c (or_intror Hc)) Hb _ _ Hj) as (a' & H1 & H2). exists a'. split; assumption.
  - destruct Hb as (vv & t & ov' & Hv & Hal & Hb & ->). destruct j as [|j]; cbn in Hj.
    + injection Hj as <-. exists (name (arg_var p i)). split; [reflexivity|]. unfold new_ty. rewrite Es, Hv, Hal.
      destruct HL as (_ & L2 & _). unfold name. rewrite L2, overs_app, overs_out.
      * cbn [overs]. unfold with_var. rewrite (proj2 (beq_true (arg_var p i) (arg_var p i)) eq_refl). reflexivity.
      * intros HI. destruct (binds_names _ _ _ _ _ Hb HI) as (j & Hj' & Ej). apply arg_var_inj in Ej. lia.
    + rewrite overs_app. assert (Ha' : agree s (overs [(arg_var p i, t)] s')) by (cbn; apply agree_with; [exact Ha|right; exists i; reflexivity]).
      destruct (IH _ _ _ _ _ _ E Ha' (fun c Hc => Hf c (or_intror Hc)) Hb _ _ Hj) as (a' & H1 & H2). exists a'. split; assumption.
Qed.

Lemma binds_alone s l : forall i ov, binds s i l ov -> forall a, In a l -> stays a = false -> exists v t, c_ty C s a = Some v /\ alone C v = Some t.
Proof.
  induction l as [|b l IH]; intros i ov Hb a Ha Es; [destruct Ha|]. cbn in Hb. destruct Ha as [<-|Ha].
  - rewrite Es in Hb. destruct Hb as (v & t & ov' & Hv & Hal & _). exists v, t. split; assumption.
  - destruct (stays b); [eapply IH; eassumption|]. destruct Hb as (v & t & ov' & _ & _ & Hb & _). eapply IH; eassumption.
Qed.
Lemma binds_make s l : forall i, (forall a, In a l -> stays a = false -> exists v t, c_ty C s a = Some v /\ alone C v = Some t) -> exists ov, binds s i l ov.
Proof.
  induction l as [|b l IH]; intros i H; [exists []; reflexivity|]. destruct (IH (S i)) as (ov & Hov); [intros a Ha; apply H; right; exact Ha|].
  cbn. destruct (stays b) eqn:Es; [exists ov; exact Hov|]. destruct (H b (or_introl eq_refl) Es) as (v & t & Hv & Hal).
  exists (ov ++ [(arg_var p i, t)]), v, t, ov. repeat split; assumption.
Qed.

Lemma alone_shows v t : alone C v = Some t -> shows C v.
Proof. destruct v; cbn; try exact (fun _ => I); try discriminate. intros ->. discriminate. Qed.

Lemma nth_in {A} (l : list A) a : In a l -> exists i, nth_error l i = Some a.
Proof. intros H. apply In_nth_error, H. Qed.

(** The arguments: message and call behind the definitions. *)
Lemma args_fit s s' f f' sg dots args st l' v vr blk :
  build_args p 0 args = (st, l', v) -> agree s s' -> (forall a, In a args -> fresh_in a) -> (forall j, ~ In (arg_var p j) blk) ->
  call_ok C s dots f args sg -> (forall ov, binds s 0 args ov -> c_fun C (overs ov s') f' = Some sg) ->
  (forall n, In n client_names -> s n = Some EClient) ->
  (front C s' blk (st ++ [message p (vr ++ v)]) (fun s2 => call_ok C s2 dots f' l' sg) <->
   (forall e, In e (map snd vr) -> forall ov, binds s 0 args ov -> exists u, c_ty C (overs ov s') e = Some u /\ shows C u) /\
   forall i a, nth_error args i = Some a -> argument_fits C s sg dots i a).
Proof.
  intros HB Ha Hf Hblk (Hfun & Hcall) Hfun' Hcl.
  assert (Hl' : l' = map snd v) by (eapply build_args_vals; exact HB).
  rewrite (front_args s _ _ _ _ _ _ _ _ _ HB Ha Hf); [|intros j _; apply Hblk|].
  2:{ intros x Hx. unfold message. cbn. rewrite app_nil_r, app_nil_r. rewrite map_app, flat_map_app. apply in_or_app. right. rewrite <- Hl'. exact Hx. }
  split.
  - intros (ov & Hb & H). cbn in H. destruct H as (_ & Hmsg & _ & Hok).
    assert (Huniq : forall ov', binds s 0 args ov' -> ov' = ov).
    { clear - Hb. revert ov Hb. generalize 0%nat. induction args as [|a l IH]; intros i ov Hb ov' Hb'; cbn in *; [congruence|].
      destruct (stays a); [eapply IH; eassumption|]. destruct Hb as (v & t & o & Hv & Hal & Hb & ->), Hb' as (v' & t' & o' & Hv' & Hal' & Hb' & ->).
      rewrite Hv in Hv'. injection Hv' as <-. rewrite Hal in Hal'. injection Hal' as <-. f_equal. eapply IH; eassumption. }
    split.
    + intros e He ov' Hb'. rewrite (Huniq _ Hb'). apply Hmsg. rewrite map_app. apply in_or_app. left; exact He.
    + intros i a Hi. destruct (new_args s args _ _ _ _ s' ov HB Ha Hf Hb i a Hi) as (a' & Hi' & Hty).
      assert (Hin : In a' (map snd (vr ++ v))) by (rewrite map_app; apply in_or_app; right; rewrite <- Hl'; eapply nth_error_In; exact Hi').
      destruct (Hmsg a' Hin) as (u & Hu & Hsh). rewrite Hty in Hu. unfold new_ty in Hu. unfold argument_fits. destruct (stays a) eqn:Es.
      * exists u. split; [exact Hu|]. left. split; [apply stays_as_is, Es|exact Hsh].
      * destruct (c_ty C s a) as [w|] eqn:Hw; [|discriminate Hu]. exists w. split; [reflexivity|]. right. split; [apply stays_not, Es|].
        destruct (alone C w) as [t|] eqn:Hal; [|discriminate Hu]. injection Hu as <-. exists t.
        destruct Hok as [(_ & Hvals)|(b & ts & El & Ht & _)].
        -- destruct (Hvals i a' Hi') as (v1 & pt & Hv1 & Hpt & Hasg). rewrite Hty in Hv1. unfold new_ty in Hv1. rewrite Es, Hw, Hal in Hv1.
           injection Hv1 as <-. exists pt. repeat split; assumption.
        -- exfalso. rewrite El in Hi'. destruct i as [|[|i]]; try discriminate Hi'. injection Hi' as <-. rewrite Hty in Ht. unfold new_ty in Ht.
           rewrite Es, Hw, Hal in Ht. discriminate Ht.
  - intros [Hvr Hargs]. destruct (binds_make s args 0) as (ov & Hb).
    { intros a Hin Es. apply nth_in in Hin. destruct Hin as (i & Hi). destruct (Hargs i a Hi) as (w & Hw & [[Has _]|(_ & t & pt & Hal & _)]).
      - apply stays_as_is in Has. congruence.
      - exists w, t. split; assumption. }
    exists ov. split; [exact Hb|]. cbn.
    assert (Hag : agree s (overs ov s')) by (eapply agree_overs; eassumption).
    split; [|split; [|split]].
    + intros m Hm. rewrite Hag; [apply Hcl, Hm|]. intros [->|(i & ->)]; [eapply client_not_recv|eapply client_not_arg]; try exact Hm; reflexivity.
    + intros e He. rewrite map_app in He. apply in_app_or in He. destruct He as [He|He]; [apply Hvr; assumption|].
      rewrite <- Hl' in He. apply nth_in in He. destruct He as (i & Hi').
      assert (Hlt : (i < length args)%nat) by (rewrite <- (build_args_length _ _ _ _ _ HB); apply nth_error_Some; congruence).
      destruct (nth_error args i) as [a|] eqn:Hi; [|apply nth_error_None in Hi; lia].
      destruct (new_args s args _ _ _ _ s' ov HB Ha Hf Hb i a Hi) as (a' & Hi2 & Hty). rewrite Hi' in Hi2. injection Hi2 as <-.
      rewrite Hty. unfold new_ty. destruct (Hargs i a Hi) as (w & Hw & [[Has Hsh]|(Has & t & pt & Hal & _)]).
      * apply stays_as_is in Has. rewrite Has. exists w. split; assumption.
      * apply stays_not in Has. rewrite Has, Hw, Hal. exists (Typed t). split; [reflexivity|exact I].
    + apply Hfun', Hb.
    + destruct Hcall as [(Hcnt & Hvals)|(b & ts & -> & Hb2 & _)].
      * left. split; [rewrite (build_args_length _ _ _ _ _ HB); exact Hcnt|]. intros i a' Hi'.
        assert (Hlt : (i < length args)%nat) by (rewrite <- (build_args_length _ _ _ _ _ HB); apply nth_error_Some; congruence).
        destruct (nth_error args i) as [a|] eqn:Hi; [|apply nth_error_None in Hi; lia].
        destruct (new_args s args _ _ _ _ s' ov HB Ha Hf Hb i a Hi) as (a2 & Hi2 & Hty). rewrite Hi' in Hi2. injection Hi2 as <-.
        rewrite Hty. unfold new_ty. destruct (Hargs i a Hi) as (w & Hw & [[Has Hsh]|(Has & t & pt & Hal & Hpt & Hasg)]).
        -- apply stays_as_is in Has. rewrite Has. apply Hvals, Hi.
        -- apply stays_not in Has. rewrite Has, Hw, Hal. exists (Typed t), pt. repeat split; assumption.
      * exfalso. destruct (Hargs 0%nat b eq_refl) as (w & Hw & [[_ Hsh]|(_ & t & pt & Hal & _)]); rewrite Hb2 in Hw; injection Hw as <-; [exact Hsh|discriminate Hal].
Qed.
End Go.
