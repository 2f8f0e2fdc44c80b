(** C97: a Commit after the edits. *)
From Verif Require Import Base Maps EditLockModel EditLockSpec EditLockProofs EditLockProps.

Section Commit.
Context {E : Type}.
Variable stripe : bytes -> nat.
Variable cpus : nat.
Notation step := (@step E stripe cpus).
Notation steps := (@steps E stripe cpus).

Lemma wf_step s s' : step s s' -> mwf (pending (shared s)) -> mwf (pending (shared s')).
Proof.
  intros H. destruct H as [a c cs b d c' cs' d' H]. cbn [shared]. intros W. destruct H; try exact W.
  - apply mwf_mset, W.
  - apply mwf_mdel, W.
  - destruct H; exact W.
  - constructor.
Qed.

Section From.
Variable d : @data E.
Hypothesis W : mwf (pending d).
Definition kept (x : @data E) : Prop := loaded x = loaded d /\ pending x = pending d /\ heap x = heap d /\ made x = made d.
Definition untouched (x : @data E) : Prop := forall p, mget p (pending d) = None -> disk x p = disk d p.
Definition running todo subs (x : @data E) : Prop :=
  kept x /\ untouched x /\
  (forall p r, In (p, r) (pending d) -> In (p, r) todo \/ exists c, In (p, r, c) subs) /\
  (forall p r, In (p, r) todo -> In (p, r) (pending d)) /\
  (forall p r c, In (p, r, c) subs -> In (p, r) (pending d)) /\
  (forall p r, In (p, r, SEnd true) subs -> failed x p = false -> disk x p = heap d p r) /\
  (forall p r, In (p, r, SEnd false) subs -> failed x p = true).
Definition finished (x : @data E) : Prop :=
  made x = made d /\ ((forall p, failed x p = false) -> forall p, loaded x p = None) /\ untouched x /\ (forall p r, In (p, r) (pending d) -> failed x p = false -> disk x p = heap d p r).
Definition phase (s : @state E) : Prop := exists c cs, threads s = [(c, cs)] /\
  match c, cs with
  | Idle, [CCommit] => shared s = d
  | CRun todo subs, [] => running todo subs (shared s)
  | COut, [] | Idle, [] => finished (shared s)
  | _, _ => False
  end.

Lemma one_value p r : In (p, r) (pending d) -> mget p (pending d) = Some r.
Proof. apply mget_in_wf, W. Qed.

Lemma running_sub todo a p r c c' b x x' nl : sstep nl (p, r, c) x c' x' -> running todo (a ++ (p, r, c) :: b) x -> running todo (a ++ (p, r, c') :: b) x'.
Proof.
  intros H (K & U & A & T & S & D & F).
  assert (Hp : In (p, r) (pending d)) by (apply (S p r c), in_or_app; right; left; reflexivity).
  assert (Oth : forall q r' k, In (q, r', k) (a ++ (p, r, c') :: b) -> (q = p /\ r' = r /\ k = c') \/ In (q, r', k) (a ++ (p, r, c) :: b)).
  { intros q r' k Hq. apply in_app_or in Hq. destruct Hq as [Hq | [Hq | Hq]]; [right; apply in_or_app; auto | injection Hq as <- <- <-; auto | right; apply in_or_app; right; right; exact Hq]. }
  assert (A' : forall q r', In (q, r') (pending d) -> In (q, r') todo \/ exists k, In (q, r', k) (a ++ (p, r, c') :: b)).
  { intros q r' Hq. destruct (A q r' Hq) as [Y | (k & Y)]; [auto | right]. apply in_app_or in Y. destruct Y as [Y | [Y | Y]];
      [exists k; apply in_or_app; auto | injection Y as <- <- <-; exists c'; apply in_or_app; right; left; reflexivity | exists k; apply in_or_app; right; right; exact Y]. }
  assert (S' : forall q r' k, In (q, r', k) (a ++ (p, r, c') :: b) -> In (q, r') (pending d)).
  { intros q r' k Hq. destruct (Oth _ _ _ Hq) as [(-> & -> & _) | Y]; [exact Hp | exact (S _ _ _ Y)]. }
  assert (Same : x' = x -> (forall ok, c' <> SEnd ok) -> running todo (a ++ (p, r, c') :: b) x').
  { intros -> Ne. split; [exact K |]. split; [exact U |]. split; [exact A' |]. split; [exact T |]. split; [exact S' |].
    split; intros q r' Hq; (destruct (Oth _ _ _ Hq) as [(_ & _ & Y) | Y]; [destruct (Ne _ (eq_sym Y)) | eauto]). }
  destruct K as (K1 & K2 & K3 & K4).
  assert (Nt : forall t (y : @data E), disk y = at_path (disk x) p t -> untouched y).
  { intros t y Ey q Nq. rewrite Ey, at_path_other; [exact (U q Nq) |]. intros ->. rewrite (one_value p r Hp) in Nq. discriminate Nq. }
  inversion H; subst; try (apply Same; [reflexivity | discriminate]).
  - split; [repeat split; assumption |]. split; [eapply Nt; reflexivity |]. split; [exact A' |]. split; [exact T |]. split; [exact S' |].
    split; cbn [broken disk failed]; intros q r' Hq; unfold at_path; destruct (beq_spec q p) as [-> | Nq]; try discriminate; try reflexivity;
      (destruct (Oth _ _ _ Hq) as [(Y & _) | Y]; [contradiction | eauto]).
  - split; [repeat split; assumption |]. split; [eapply Nt; reflexivity |]. split; [exact A' |]. split; [exact T |]. split; [exact S' |]. split; cbn [written disk failed].
    + intros q r' Hq Fl. unfold at_path. destruct (beq_spec q p) as [-> | Nq].
      * rewrite K3. f_equal. pose proof (one_value p r Hp) as Y1. pose proof (one_value p r' (S' _ _ _ Hq)) as Y2. congruence.
      * destruct (Oth _ _ _ Hq) as [(Y & _) | Y]; [contradiction | exact (D _ _ Y Fl)].
    + intros q r' Hq. destruct (Oth _ _ _ Hq) as [(_ & _ & Y) | Y]; [discriminate Y | exact (F _ _ Y)].
  - split; [repeat split; assumption |]. split; [eapply Nt; reflexivity |]. split; [exact A' |]. split; [exact T |]. split; [exact S' |].
    split; cbn [broken disk failed]; intros q r' Hq; unfold at_path; destruct (beq_spec q p) as [-> | Nq]; try discriminate; try reflexivity;
      (destruct (Oth _ _ _ Hq) as [(Y & _) | Y]; [contradiction | eauto]).
Qed.

Lemma phase_step s s' : step s s' -> phase s -> phase s'.
Proof.
  intros H. destruct H as [a c cs b x c' cs' x' H]. intros (c1 & cs1 & Et & P). cbn [threads shared] in *.
  assert (Ya : a = [] /\ b = [] /\ c1 = c /\ cs1 = cs) by (destruct a as [| y [| z a]]; [injection Et as <- <- ->; auto | discriminate Et | discriminate Et]).
  destruct Ya as (-> & -> & -> & ->). exists c', cs'. split; [reflexivity |]. cbn [shared].
  inversion H; subst; try contradiction; try (destruct cs'; contradiction).
  - destruct cs'; [| contradiction]. subst x'. split; [repeat split |]. split; [intros p _; reflexivity |]. split; [intros p r Hp; left; apply H1, Hp |]. split; [intros p r; apply H1 |].
    repeat split; intros; contradiction.
  - destruct cs'; [| contradiction]. destruct P as (K & U & A & T & S & D & F). split; [exact K |]. split; [exact U |]. split; [| split; [| split; [| split]]].
    + intros q r' Hq. destruct (A q r' Hq) as [[Y | Y] | (k & Y)]; [injection Y as <- <-; right; exists SWant; apply in_or_app; right; left; reflexivity | left; exact Y | right; exists k; apply in_or_app; left; exact Y].
    + intros q r' Hq. apply T. right. exact Hq.
    + intros q r' k Hq. apply in_app_or in Hq. destruct Hq as [Hq | [Hq | []]]; [exact (S _ _ _ Hq) | injection Hq as <- <- <-; apply T; left; reflexivity].
    + intros q r' Hq. apply in_app_or in Hq. destruct Hq as [Hq | [Hq | []]]; [exact (D _ _ Hq) | discriminate Hq].
    + intros q r' Hq. apply in_app_or in Hq. destruct Hq as [Hq | [Hq | []]]; [exact (F _ _ Hq) | discriminate Hq].
  - destruct cs'; [| contradiction]. eapply running_sub; eassumption.
  - destruct cs'; [| contradiction]. destruct P as (K & U & A & T & S & D & F). split; [apply K |]. split; [| split; [exact U |]].
    + intros Fl. apply Exists_exists in H1. destruct H1 as ([[p r] k] & Hi & Hk). cbn in Hk. subst k. pose proof (F _ _ Hi). pose proof (Fl p). congruence.
    + intros p r Hp Fl. destruct (A p r Hp) as [[] | (k & Hk)]. rewrite Forall_forall in H0. destruct (H0 _ Hk) as ([|] & Y); cbn in Y; subst k; [exact (D _ _ Hk Fl) |].
      pose proof (F _ _ Hk). congruence.
  - destruct cs'; [| contradiction]. destruct P as (K & U & A & T & S & D & F). split; [apply K |]. split; [reflexivity |]. split; [exact U |].
    intros p r Hp Fl. destruct (A p r Hp) as [[] | (k & Hk)]. rewrite Forall_forall in H0. pose proof (H0 _ Hk) as Y. cbn in Y. subst k. exact (D _ _ Hk Fl).
  - destruct cs'; [exact P | contradiction].
Qed.
End From.

(** The goroutines have edited, and all have returned; then Commit is called and returns: every file writing which has not failed is on disk what
    it was followed by all edits made to it, and when nothing has failed nothing is left parsed (mutation.go:103-118, astexec.go:198-212). *)
Theorem C97_commit d0 calls s s' : steps (start d0 calls) s -> over s -> ~ In CCommit (concat calls) ->
  steps (State [(Idle, [CCommit])] (shared s)) s' -> over s' ->
  (forall p, failed (shared s) p = false -> failed (shared s') p = false -> disk (shared s') p = d0 p ++ made_to s p) /\
  (forall p, made_to s' p = made_to s p) /\
  ((forall p, failed (shared s') p = false) -> forall p, loaded (shared s') p = None).
Proof.
  intros H O N H' O'. destruct (C97_nothing_lost stripe cpus d0 calls s H O N) as [Te _].
  pose proof (steps_inv stripe cpus _ (good_step stripe cpus d0) _ _ H (good_start stripe d0 calls N)) as (_ & _ & L).
  pose proof (steps_inv stripe cpus (fun s => mwf (pending (shared s))) wf_step _ _ H ltac:(constructor)) as W.
  assert (P : phase (shared s) s'). { apply (steps_inv stripe cpus _ (phase_step (shared s) W) _ _ H'). exists Idle, [CCommit]. split; reflexivity. }
  destruct P as (c & cs & Et & P). specialize (O' (c, cs)). rewrite Et in O'. specialize (O' (or_introl eq_refl)). injection O' as -> ->.
  destruct P as (Em & El & U & D). split; [| split; [intros p; unfold made_to; rewrite Em; reflexivity | exact El]].
  intros p Fl Fl'. rewrite <- (Te p Fl). destruct (L p) as (_ & L2 & _ & L4). unfold text. destruct (loaded (shared s) p) as [r |] eqn:Er.
  - destruct (L4 r eq_refl) as [Y | (j & c & cs & Hj & Hr)]; [apply D; [apply mget_in, Y | exact Fl'] |]. specialize (O _ (nth_error_In _ _ Hj)). injection O as -> ->. apply registering_path in Hr. discriminate Hr.
  - apply U. destruct (mget p (pending (shared s))) as [r |] eqn:Ep; [specialize (L2 r eq_refl); congruence | reflexivity].
Qed.
End Commit.
Print Assumptions C97_commit.

Lemma one_step {E} stripe cpus c cs d c' cs' d' (s : @state E) : tstep stripe cpus (free stripe [(c, cs)]) 0 c cs d c' cs' d' -> steps stripe cpus (State [(c', cs')] d') s -> steps stripe cpus (State [(c, cs)] d) s.
Proof. intros H. apply first_step, (st stripe cpus [] c cs [] d c' cs' d' H). Qed.
(** Two goroutines that edit, one after the other and sharing all stripes, and the Commit of what they have edited, two goroutines at once. *)
Example C97_commit_example : exists s s' : @state nat,
  steps (fun _ => 0) 2 (start (fun _ => [0]) [[CEdit (B "a.go") 1]; [CEdit (B "b.go") 2; CEdit (B "a.go") 3]]) s /\ over s /\ (forall p, failed (shared s) p = false) /\
  steps (fun _ => 0) 2 (State [(Idle, [CCommit])] (shared s)) s' /\ over s' /\ (forall p, failed (shared s') p = false) /\
  disk (shared s) (B "a.go") = [0] /\ disk (shared s') (B "a.go") = [0; 1; 3] /\ disk (shared s') (B "b.go") = [0; 2].
Proof.
  do 2 eexists. split; [| split; [| split; [| split; [| split; [| split]]]]].
  - unfold start. cbn [map].
    eapply two0; [apply t_edit; is_free |]. eapply two0; [apply t_parse; reflexivity |]. eapply two0; [apply t_wait; is_free |]. eapply two0; [apply t_reg |].
    eapply two0; [apply t_made |]. eapply two0; [apply t_end |].
    eapply two1; [apply t_edit; is_free |]. eapply two1; [apply t_parse; reflexivity |]. eapply two1; [apply t_wait; is_free |]. eapply two1; [apply t_reg |].
    eapply two1; [apply t_made |]. eapply two1; [apply t_end |].
    eapply two1; [apply t_edit; is_free |]. eapply two1; [apply t_have; reflexivity |]. eapply two1; [apply t_made |]. eapply two1; [apply t_end |]. apply st_none.
  - intros t [<- | [<- | []]]; reflexivity.
  - reflexivity.
  - cbn [shared]. eapply one_step; [apply (t_all _ _ _ _ [(B "b.go", 1); (B "a.go", 0)]); [is_free | intros x; cbn; tauto | reflexivity] |].
    eapply one_step; [apply t_go; cbn; lia |]. eapply one_step; [apply t_go; cbn; lia |]. cbn [app].
    eapply one_step; [apply (t_sub _ _ _ _ [] [] (B "b.go") 1 SWant SText [(B "a.go", 0, SWant)]), ss_there |].
    eapply one_step; [apply (t_sub _ _ _ _ [] [(B "b.go", 1, SText)] (B "a.go") 0 SWant SNeed []), ss_new |].
    eapply one_step; [apply (t_sub _ _ _ _ [] [] (B "b.go") 1 SText (SEnd true) [(B "a.go", 0, SNeed)]), ss_text |].
    eapply one_step; [apply (t_sub _ _ _ _ [] [(B "b.go", 1, SEnd true)] (B "a.go") 0 SNeed SNote []), ss_note; is_free |].
    eapply one_step; [apply (t_sub _ _ _ _ [] [(B "b.go", 1, SEnd true)] (B "a.go") 0 SNote SText []), ss_noted |].
    eapply one_step; [apply (t_sub _ _ _ _ [] [(B "b.go", 1, SEnd true)] (B "a.go") 0 SText (SEnd true) []), ss_text |]. cbn [app].
    eapply one_step; [apply t_clear; repeat constructor |]. eapply one_step; [apply t_over |]. apply st_none.
  - intros t [<- | []]; reflexivity.
  - reflexivity.
  - repeat split.
Qed.
(** The same with a write of a.go that fails after some of the text: b.go is complete, and both stay parsed. *)
Example C97_commit_failure_example : exists s s' : @state nat,
  steps (fun _ => 0) 2 (start (fun _ => [0]) [[CEdit (B "a.go") 1]; [CEdit (B "b.go") 2]]) s /\ over s /\
  steps (fun _ => 0) 2 (State [(Idle, [CCommit])] (shared s)) s' /\ over s' /\
  failed (shared s') (B "a.go") = true /\ failed (shared s') (B "b.go") = false /\
  disk (shared s') (B "a.go") = [] /\ disk (shared s') (B "b.go") = [0; 2] /\ loaded (shared s') (B "b.go") <> None.
Proof.
  do 2 eexists. split; [| split; [| split; [| split]]].
  - unfold start. cbn [map].
    eapply two0; [apply t_edit; is_free |]. eapply two0; [apply t_parse; reflexivity |]. eapply two0; [apply t_wait; is_free |]. eapply two0; [apply t_reg |].
    eapply two0; [apply t_made |]. eapply two0; [apply t_end |].
    eapply two1; [apply t_edit; is_free |]. eapply two1; [apply t_parse; reflexivity |]. eapply two1; [apply t_wait; is_free |]. eapply two1; [apply t_reg |].
    eapply two1; [apply t_made |]. eapply two1; [apply t_end |]. apply st_none.
  - intros t [<- | [<- | []]]; reflexivity.
  - cbn [shared]. eapply one_step; [apply (t_all _ _ _ _ [(B "b.go", 1); (B "a.go", 0)]); [is_free | intros x; cbn; tauto | reflexivity] |].
    eapply one_step; [apply t_go; cbn; lia |]. eapply one_step; [apply t_go; cbn; lia |]. cbn [app].
    eapply one_step; [apply (t_sub _ _ _ _ [] [] (B "b.go") 1 SWant SText [(B "a.go", 0, SWant)]), ss_there |].
    eapply one_step; [apply (t_sub _ _ _ _ [] [(B "b.go", 1, SText)] (B "a.go") 0 SWant SText []), ss_there |].
    eapply one_step; [apply (t_sub _ _ _ _ [] [(B "b.go", 1, SText)] (B "a.go") 0 SText (SEnd false) []), (ss_part _ _ _ _ []) |].
    eapply one_step; [apply (t_sub _ _ _ _ [] [] (B "b.go") 1 SText (SEnd true) [(B "a.go", 0, SEnd false)]), ss_text |]. cbn [app].
    eapply one_step; [apply t_failed; [repeat (apply Forall_cons; [eexists; reflexivity |]); apply Forall_nil | right; left; reflexivity] |]. eapply one_step; [apply t_over |]. apply st_none.
  - intros t [<- | []]; reflexivity.
  - repeat split. cbn. discriminate.
Qed.
