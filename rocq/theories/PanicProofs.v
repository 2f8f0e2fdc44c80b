From Verif Require Import Base PanicModel.

Section P.
Context {U W : Type}.
Notation fsem := (fsem U W). Notation stmt := (stmt U W). Notation fdecl := (fdecl U W).

Lemma unwind_snoc : forall (ds : list fsem) d s u u' m s',
  unwind (ds ++ [d]) s u u' m s' <->
  exists u1 m1 s1 m2 rec sd, unwind ds s u u1 m1 s1 /\ d (panicking s1) u1 u' m2 rec sd /\ s' = after_defer s1 rec sd /\ m = m1 ++ m2.
Proof.
  induction ds as [|d0 ds IH]; intros d s u u' m s'; cbn [app]; split.
  - intros H. inversion H as [|? ? ? ? u1 ? m1 m2 rec sd ? Hd Hu]; subst. inversion Hu; subst.
    exists u, [], s, m1, rec, sd. rewrite app_nil_r. split; [constructor|]. auto.
  - intros (u1 & m1 & s1 & m2 & rec & sd & Hu & Hd & -> & ->). inversion Hu; subst. cbn [app].
    rewrite <- (app_nil_r m2). econstructor; [exact Hd|constructor].
  - intros H. inversion H as [|? ? ? ? u1 ? m1 m2 rec sd ? Hd Hu]; subst.
    apply IH in Hu as (u2 & m3 & s2 & m4 & rec2 & sd2 & Hu & Hd2 & -> & ->).
    exists u2, (m1 ++ m3), s2, m4, rec2, sd2. split; [econstructor; eassumption|]. rewrite app_assoc. auto.
  - intros (u1 & m1 & s1 & m2 & rec & sd & Hu & Hd & -> & ->).
    inversion Hu as [|? ? ? ? u2 ? m3 m4 rec2 sd2 ? Hd2 Hu2]; subst. rewrite <- app_assoc.
    econstructor; [exact Hd2|]. apply IH. exists u1, m4, s1, m2, rec, sd. auto.
Qed.

Lemma exec_defer (d : fsem) l ctx u u' m rec ds c :
  exec (defer_stmt d :: l) ctx u u' m rec ds c <-> exists ds', ds = ds' ++ [d] /\ exec l ctx u u' m rec ds' c.
Proof.
  split.
  - intros H. inversion H as [|? ? ? ? u1 ? m1 m2 r r' d1 d2 ? Hs He|? ? ? ? ? ? ? ? ? Hs Hc]; subst.
    + destruct Hs as (-> & -> & -> & -> & _). exists d2. auto.
    + destruct Hs as (_ & _ & _ & _ & E). congruence.
  - intros (ds' & -> & H). change m with ([] ++ m). change rec with (false || rec)%bool.
    apply (ex_next U W _ _ _ _ u); [repeat split|exact H].
Qed.

Lemma func_defer (d : fsem) l ctx u u' m rec s' :
  func (defer_stmt d :: l) ctx u u' m rec s' <->
  exists u1 m1 s1 m2 r sd, func l ctx u u1 m1 rec s1 /\ d (panicking s1) u1 u' m2 r sd /\ s' = after_defer s1 r sd /\ m = m1 ++ m2.
Proof.
  unfold func. split.
  - intros (u1 & m1 & m2 & ds & c & He & Hu & ->). apply exec_defer in He as (ds' & -> & He).
    apply unwind_snoc in Hu as (u2 & m3 & s1 & m4 & r & sd & Hu & Hd & -> & ->).
    exists u2, (m1 ++ m3), s1, m4, r, sd. rewrite app_assoc. split; [|auto]. exists u1, m1, m3, ds', c. auto.
  - intros (u2 & mm & s1 & m4 & r & sd & (u1 & m1 & m3 & ds' & c & He & Hu & ->) & Hd & -> & ->).
    exists u1, m1, (m3 ++ m4), (ds' ++ [d]), c. split; [apply exec_defer; eauto|]. rewrite app_assoc. split; [|reflexivity].
    apply unwind_snoc. exists u2, m3, s1, m4, r, sd. auto.
Qed.

Lemma after_same (s : status W) : after_defer s false (ST false None) = s.
Proof. destruct s as [e p]. unfold after_defer. cbn. rewrite Bool.orb_false_r. reflexivity. Qed.

Lemma after_again (s : status W) r v : panicking s = Some v -> after_defer s r (ST false (Some v)) = s.
Proof. destruct s as [e p]. unfold after_defer. intros [= ->]. cbn [exiting panicking]. rewrite Bool.orb_false_r. reflexivity. Qed.

(** Equal up to the messages of the monitor. *)
Definition fsim (f g : fsem) : Prop := forall ctx u u' rec s, (exists m, f ctx u u' m rec s) -> exists m, g ctx u u' m rec s.
Definition ssim (s t : stmt) : Prop := forall ctx u u' rec ds c,
  (exists m, s ctx u u' m rec ds c) -> exists m ds', t ctx u u' m rec ds' c /\ Forall2 fsim ds ds'.

Lemma exec_sim : forall l l', Forall2 ssim l l' -> forall ctx u u' m rec ds c, exec l ctx u u' m rec ds c ->
  exists m' ds', exec l' ctx u u' m' rec ds' c /\ Forall2 fsim ds ds'.
Proof.
  induction 1 as [|s t l l' Hs _ IH]; intros ctx u u' m rec ds c He; inversion He as [|? ? ? ? u1 ? m1 m2 r r' d1 d2 ? H1 H2|? ? ? ? ? ? ? ? ? H1 Hc]; subst.
  - exists [], []. split; constructor.
  - destruct (Hs _ _ _ _ _ _ (ex_intro _ m1 H1)) as (m1' & d1' & H1' & F1).
    destruct (IH _ _ _ _ _ _ _ H2) as (m2' & d2' & H2' & F2). exists (m1' ++ m2'), (d2' ++ d1').
    split; [econstructor; eassumption|apply Forall2_app; assumption].
  - destruct (Hs _ _ _ _ _ _ (ex_intro _ m H1)) as (m1' & d1' & H1' & F1). exists m1', d1'. split; [apply ex_stop; assumption|exact F1].
Qed.

Lemma unwind_sim : forall ds ds', Forall2 fsim ds ds' -> forall s u u' m s', unwind ds s u u' m s' -> exists m', unwind ds' s u u' m' s'.
Proof.
  induction 1 as [|d d' ds ds' Hd _ IH]; intros s u u' m s' Hu; inversion Hu as [|? ? ? ? u1 ? m1 m2 rec sd ? H1 H2]; subst.
  - exists []. constructor.
  - destruct (Hd _ _ _ _ _ (ex_intro _ m1 H1)) as (m1' & H1'). destruct (IH _ _ _ _ _ H2) as (m2' & H2').
    exists (m1' ++ m2'). econstructor; eassumption.
Qed.

Lemma func_sim l l' : Forall2 ssim l l' -> fsim (func l) (func l').
Proof.
  intros F ctx u u' rec s (m & u1 & m1 & m2 & ds & c & He & Hu & ->).
  destruct (exec_sim _ _ F _ _ _ _ _ _ _ He) as (m1' & ds' & He' & Fd).
  destruct (unwind_sim _ _ Fd _ _ _ _ _ Hu) as (m2' & Hu'). exists (m1' ++ m2'), u1, m1', m2', ds', c. auto.
Qed.

Lemma call_sim f g : fsim f g -> ssim (call_stmt f) (call_stmt g).
Proof.
  intros F ctx u u' rec ds c (m & r & s & H & -> & -> & ->). destruct (F _ _ _ _ _ (ex_intro _ m H)) as (m' & H').
  exists m', []. split; [|constructor]. exists r, s. auto.
Qed.
Lemma defer_sim f g : fsim f g -> ssim (defer_stmt f) (defer_stmt g).
Proof.
  intros F ctx u u' rec ds c (m & -> & -> & -> & -> & ->). exists [], [g]. split; [repeat split|]. constructor; [exact F|constructor].
Qed.

(** ** Files. *)
Lemma find_some : forall (f : list fdecl) ident k, find_decl f ident = Some k <->
  (exists d, nth_error f k = Some d /\ fd_ident d = ident) /\ (forall j d, (k < j)%nat -> nth_error f j = Some d -> fd_ident d <> ident).
Proof.
  induction f as [|d f IH]; intros ident k; cbn [find_decl].
  - split; [discriminate|]. intros ((d & E & _) & _). destruct k; discriminate.
  - destruct (find_decl f ident) as [j|] eqn:Ef.
    + apply IH in Ef as ((dj & Ej & Ij) & L). split.
      * intros [= <-]. split; [exists dj; auto|]. intros i x Hi Ex. destruct i as [|i]; [lia|]. apply (L i x); [lia|exact Ex].
      * intros ((x & Ex & Ix) & L'). f_equal. destruct k as [|k].
        { exfalso. apply (L' (S j) dj); [lia|exact Ej|exact Ij]. }
        f_equal. destruct (Nat.lt_trichotomy j k) as [H|[H|H]]; [|exact H|].
        { exfalso. exact (L k x H Ex Ix). }
        { exfalso. apply (L' (S j) dj); [lia|exact Ej|exact Ij]. }
    + assert (forall j x, nth_error f j = Some x -> fd_ident x <> ident) as No.
      { clear - Ef. revert Ef. induction f as [|y f IHf]; intros Ef j x E; [destruct j; discriminate|]. cbn [find_decl] in Ef.
        destruct (find_decl f ident); [discriminate|]. destruct (beq (fd_ident y) ident) eqn:B; [discriminate|].
        destruct j as [|j]; [injection E as <-|exact (IHf eq_refl j x E)]. apply beq_false in B. exact B. }
      destruct (beq (fd_ident d) ident) eqn:B.
      * apply beq_true in B. split.
        -- intros [= <-]. split; [exists d; auto|]. intros [|j] x Hj Ex; [lia|exact (No j x Ex)].
        -- intros ((x & Ex & Ix) & _). destruct k as [|k]; [reflexivity|]. exfalso. exact (No k x Ex Ix).
      * apply beq_false in B. split; [discriminate|]. intros ((x & Ex & Ix) & _). destruct k as [|k].
        -- injection Ex as <-. exfalso. exact (B Ix).
        -- exfalso. exact (No k x Ex Ix).
Qed.

Lemma find_none (f : list fdecl) ident : find_decl f ident = None <-> forall d, In d f -> fd_ident d <> ident.
Proof.
  induction f as [|d f IH]; cbn [find_decl]; [split; [intros _ x []|reflexivity]|].
  destruct (find_decl f ident) as [j|] eqn:Ef.
  - apply find_some in Ef as ((x & Ex & Ix) & _). split; [discriminate|]. intros H. exfalso.
    apply (H x); [right; eapply nth_error_In; exact Ex|exact Ix].
  - destruct (beq (fd_ident d) ident) eqn:B.
    + apply beq_true in B. split; [discriminate|]. intros H. exfalso. apply (H d); [left; reflexivity|exact B].
    + split; [|reflexivity]. intros _ x [<-|Hx]; [|apply IH; auto]. apply beq_false in B. exact B.
Qed.

Lemma set_body_nth : forall (f : list fdecl) k b j d, nth_error f k = Some d ->
  nth_error (set_body f k b) j = if Nat.eqb j k then Some (FD (fd_ident d) (Some b)) else nth_error f j.
Proof.
  induction f as [|x f IH]; intros k b j d E; [destruct k; discriminate|]. destruct k as [|k]; cbn [set_body].
  - injection E as <-. destruct j; reflexivity.
  - destruct j as [|j]; [reflexivity|]. cbn [nth_error Nat.eqb]. apply IH. exact E.
Qed.
Lemma set_body_len : forall (f : list fdecl) k b, length (set_body f k b) = length f.
Proof. induction f as [|x f IH]; intros [|k] b; cbn; auto. Qed.
End P.
