(** Lemmas for C83: sessions of the editor among the processes of tests. *)
From Verif Require Import Base Maps FsModel ModifierModel GoModModel GoModProps ModifierProps RestoreMoreProps UpdateModel.

(** The paths that belong to the editor: edited files, their backups, generated files. *)
Definition own (E D : bytes -> Prop) (q : bytes) : Prop :=
  E q \/ (exists p, E p /\ q = bkp p) \/ exists d, D d /\ (q = client_file d \/ q = api_file d).
(** What the tests of a run wrote. *)
Definition writes (vs : list sevent) : list (bytes * option fnode) :=
  flat_map (fun v => match v with STest ws => ws | _ => [] end) vs.

Lemma overlay_app a b f : overlay (a ++ b) f = overlay b (overlay a f).
Proof. apply fold_left_app. Qed.
Lemma overlay_other ws : forall f q, ~ In q (map fst ws) -> overlay ws f q = f q.
Proof.
  induction ws as [|[p n] ws IH]; intros f q H; [reflexivity|]. cbn in *. change (overlay ws (FsModel.upd f p n) q = f q).
  rewrite IH by tauto. apply upd_other. intros ->. tauto.
Qed.
Lemma overlay_in ws : forall f g q, In q (map fst ws) -> overlay ws f q = overlay ws g q.
Proof.
  induction ws as [|[p n] ws IH]; intros f g q H; [destruct H|]. cbn in *.
  change (overlay ws (FsModel.upd f p n) q = overlay ws (FsModel.upd g p n) q).
  destruct (in_dec bytes_eq_dec q (map fst ws)) as [Hi|Hn]; [apply IH, Hi|].
  rewrite !overlay_other by exact Hn. destruct H as [<-|H]; [rewrite !upd_same; reflexivity|contradiction].
Qed.
Lemma overlay_cong ws f g q : f q = g q -> overlay ws f q = overlay ws g q.
Proof.
  intros H. destruct (in_dec bytes_eq_dec q (map fst ws)) as [Hi|Hn]; [apply overlay_in, Hi|]. rewrite !overlay_other by exact Hn. exact H.
Qed.

Section Session.
Variables (um : N) (E D : bytes -> Prop).

(** The calls of a run stay within the files given, nothing stops half way, restores work, and the tests leave the editor's files alone. *)
Definition fine (v : sevent) : Prop :=
  match v with
  | SCall v => within E D v /\ unbroken v /\ restores v
  | STest ws => forall q, In q (map fst ws) -> ~ own E D q
  end.

Lemma own_touch a q : (forall p, a = ARestore p -> E p) -> (forall d, a = AGen d -> D d) -> touches a q -> own E D q.
Proof.
  destruct a as [p|d]; intros A B [-> | ->].
  - left. auto.
  - right. left. exists p. auto.
  - right. right. exists d. auto.
  - right. right. exists d. auto.
Qed.

Lemma overlay_clean f0 f acts ws : tidy f0 E D -> clean_of um f0 E D f acts -> (forall q, In q (map fst ws) -> ~ own E D q) ->
  tidy (overlay ws f0) E D /\ clean_of um (overlay ws f0) E D (overlay ws f) acts.
Proof.
  intros T (N & A & G & O) W.
  assert (forall q g, own E D q -> overlay ws g q = g q) as K by (intros q g Hq; apply overlay_other; intros Hi; exact (W q Hi Hq)).
  assert (forall p, E p -> own E D p) as K1 by (intros p; left; assumption).
  assert (forall p, E p -> own E D (bkp p)) as K2 by (intros p Hp; right; left; exists p; auto).
  assert (forall d, D d -> own E D (client_file d)) as K3 by (intros d Hd; right; right; exists d; auto).
  assert (forall d, D d -> own E D (api_file d)) as K4 by (intros d Hd; right; right; exists d; auto).
  split.
  - constructor.
    + intros p Hp. rewrite K by auto. apply (t_file _ _ _ T), Hp.
    + intros p Hp. rewrite K by auto. apply (t_fresh _ _ _ T), Hp.
    + apply (t_bkp _ _ _ T).
    + apply (t_gen _ _ _ T).
  - split; [exact N|]. split; [|split].
    + intros p Hp. destruct (A p Hp) as (Ep & R & m & c & F1 & F2). split; [exact Ep|]. unfold regular. rewrite !K by auto. split; [exact R|]. exists m, c. auto.
    + intros d Hd. destruct (G d Hd) as (Dd & G1 & G2 & G3 & G4 & G5 & G6). unfold regular in *. rewrite !K by auto. auto 10.
    + intros q Hq. destruct (in_dec bytes_eq_dec q (map fst ws)) as [Hi|Hn].
      * rewrite (overlay_in ws f f0 q Hi). apply same_node_refl.
      * rewrite !overlay_other by exact Hn. apply O, Hq.
Qed.

Lemma clean_regular f0 f acts p : tidy f0 E D -> clean_of um f0 E D f acts -> E p -> regular f p /\ regular f (bkp p).
Proof.
  intros T C Ep. destruct (acts_dec (ARestore p) acts) as [Y|Y].
  - destruct C as (_ & A & _). destruct (A p Y) as (_ & R & m & c & _ & Fb). split; [exact R|]. unfold regular. rewrite Fb. exact I.
  - destruct (not_acted um f0 E D T _ _ _ C Ep Y) as (X & m & c & _ & m' & Fp). unfold regular. rewrite X, Fp. auto.
Qed.

Lemma write_all_frame f0 l f acts f' acts' os : tidy f0 E D -> write_all um l f acts f' acts' os -> clean_of um f0 E D f acts ->
  (forall x, In x l -> E (fst x)) -> ~ In WBroken os -> forall q, ~ own E D q -> f' q = f q.
Proof.
  intros T. induction 1 as [f a|p t l f a f1 a1 o f2 a2 os H _ IH]; intros C He Ho q Hq; [reflexivity|].
  assert (E p) as Ep by exact (He _ (or_introl eq_refl)).
  assert (o <> WBroken) as No by (intros ->; apply Ho; left; reflexivity).
  rewrite IH; [| |intros x Hx; apply He; right; exact Hx|intros X; apply Ho; right; exact X|exact Hq].
  - destruct (clean_regular _ _ _ _ T C Ep) as [R1 R2]. apply (pending_touch um _ _ _ _ _ _ _ H R1 R2).
    + intros ->. apply Hq. left. exact Ep.
    + intros ->. apply Hq. right. left. exists p. auto.
  - eapply write_clean; eassumption.
Qed.

Lemma actions_frame f0 acts f f' oks : tidy f0 E D -> run_actions acts f f' oks -> Forall (eq true) oks -> clean_of um f0 E D f acts ->
  forall q, ~ own E D q -> f' q = f q.
Proof.
  intros T. induction 1 as [f|a l f f1 f2 ok oks H _ IH]; intros Ho C q Hq; [reflexivity|]. inversion Ho; subst.
  rewrite IH; [|assumption| |exact Hq].
  2: { eapply action_clean; eassumption. }
  destruct (clean_own um f0 E D _ _ a C (or_introl eq_refl)) as [A1 A2].
  assert (~ touches a q) as Nt by (intros X; apply Hq; eapply own_touch; eassumption).
  inversion H as [p g g' ok Hr|d g g1 g2 o1 o2 H1 H2 E1 E2 E3]; subst.
  - assert (q <> p /\ q <> bkp p) as [Q1 Q2] by (cbn in Nt; tauto). inversion Hr as [g' ok' He Hn| |g1 g2 ok' He Hm Hn]; subst.
    + apply rename_spec in Hn as [[X _]|(_ & n & _ & _ & _ & K)]; [discriminate|apply K; assumption].
    + apply rename_spec in Hn as [[X _]|(_ & n & _ & _ & _ & K)]; [discriminate|]. rewrite K by assumption. inversion Hm; subst. apply upd_other. exact Q1.
  - assert (q <> client_file d /\ q <> api_file d) as [Q1 Q2] by (cbn in Nt; tauto). inversion H1; inversion H2; subst; cbn; rewrite ?upd_other; auto.
Qed.

Lemma step_frame f0 e v e' : tidy f0 E D -> estep um e v e' -> within E D v -> unbroken v -> restores v ->
  clean_of um f0 E D (ed_fs e) (ed_actions e) -> pend_ok E (ed_pending e) -> forall q, ~ own E D q -> ed_fs e' q = ed_fs e q.
Proof.
  intros T H W U R C P q Hq.
  destruct H as [f pd a p t Hl|f pd a p t f' a' o Hg Hw|f pd a l f' a' os Hl Hn Hw|f pd a d ct at_ f' a' o Hi|f pd a f' oks Hr]; cbn in *.
  - reflexivity.
  - destruct (clean_regular _ _ _ _ T C W) as [R1 R2]. apply (pending_touch um _ _ _ _ _ _ _ Hw R1 R2).
    + intros ->. apply Hq. left. exact W.
    + intros ->. apply Hq. right. left. exists p. auto.
  - eapply write_all_frame; try eassumption. intros x Hx. eapply pend_in; [exact P|apply Hl, Hx].
  - assert (q <> client_file d /\ q <> api_file d) as [Q1 Q2] by (split; intros ->; apply Hq; right; right; exists d; auto).
    destruct Hi as [f a x Hx Hf|f a|f a f1 Hg Hw|f a f1 f2 Hg Hw Hw2|f a f1 f2 Hg Hw Hw2]; try reflexivity; try contradiction.
    inversion Hw; subst. inversion Hw2; subst.
    assert (f (client_file d) = None) as Fc by apply Hg, client_matches. assert (f (api_file d) = None) as Fa by apply Hg, api_matches.
    assert (regular f (client_file d)) as Rc by (unfold regular; rewrite Fc; exact I).
    rewrite put_regular; [destruct (beq_spec q (api_file d)); [contradiction|]|].
    + rewrite put_regular by exact Rc. destruct (beq_spec q (client_file d)); [contradiction|reflexivity].
    + unfold regular. rewrite put_regular by exact Rc. destruct (beq_spec (api_file d) (client_file d)); [exact I|rewrite Fa; exact I].
  - eapply actions_frame; eassumption.
Qed.

Lemma sexec_clean vs : forall f0 e e', sexec um e vs e' -> Forall fine vs -> tidy f0 E D ->
  clean_of um f0 E D (ed_fs e) (ed_actions e) -> pend_ok E (ed_pending e) ->
  clean_of um (overlay (writes vs) f0) E D (ed_fs e') (ed_actions e') /\
  (forall q, ~ own E D q -> ed_fs e' q = overlay (writes vs) (ed_fs e) q).
Proof.
  induction vs as [|v vs IH]; intros f0 e e' H F T C P.
  - inversion H; subst. cbn. auto.
  - inversion H as [|? ? e1 ? ? H1 H2]; subst. inversion F as [|? ? Fv Fs]; subst. inversion H1 as [? w ? Hs|f pd a ws]; subst.
    + destruct Fv as (W & U & R). destruct (step_clean um f0 E D T _ _ _ Hs W U R C P) as [C1 P1].
      destruct (IH _ _ _ H2 Fs T C1 P1) as [C2 K2]. cbn. split; [exact C2|]. intros q Hq. rewrite K2 by exact Hq. apply overlay_cong.
      eapply step_frame; eassumption.
    + cbn [ed_fs ed_actions ed_pending] in *. destruct (overlay_clean _ _ _ ws T C Fv) as [T1 C1].
      destruct (IH _ _ _ H2 Fs T1 C1 P) as [C2 K2]. unfold writes in *. cbn [flat_map]. rewrite !overlay_app. cbn [ed_fs] in K2. split; [exact C2|].
      intros q Hq. rewrite K2 by exact Hq. reflexivity.
Qed.

Lemma restored_none vs oks : forall e e', sexec um e (vs ++ [SCall (EvRestore oks)]) e' -> ed_actions e' = [].
Proof.
  induction vs as [|v vs IH]; intros e e' H.
  - inversion H as [|? ? e1 ? ? H1 H2]; subst. inversion H2; subst. inversion H1 as [? ? ? Hs|]; subst. inversion Hs; subst. reflexivity.
  - inversion H as [|? ? e1 ? ? H1 H2]; subst. eapply IH. exact H2.
Qed.

(** After a run the files are as before, but for what the tests wrote. *)
Lemma session_restored vs oks f f' : session um vs oks f f' -> tidy f E D -> Forall fine vs -> Forall (eq true) oks ->
  (forall q, own E D q -> same_node (f' q) (f q)) /\ (forall q, ~ own E D q -> f' q = overlay (writes vs) f q).
Proof.
  intros (e & H & <-) T F O.
  assert (writes (vs ++ [SCall (EvRestore oks)]) = writes vs) as Ew.
  { unfold writes. rewrite flat_map_app. cbn. apply app_nil_r. }
  destruct (sexec_clean _ f _ _ H) as [C K].
  - apply Forall_app. split; [exact F|]. repeat constructor. exact O.
  - exact T.
  - apply clean_init.
  - intros k [].
  - rewrite Ew in *. rewrite (restored_none _ _ _ _ H) in C. split; [|exact K].
    intros q Hq. destruct C as (_ & _ & _ & C). specialize (C q ltac:(intros a [])). rewrite overlay_other in C; [exact C|].
    intros Hi. unfold writes in Hi. apply in_map_iff in Hi as ([q' n] & <- & Hi). apply in_flat_map in Hi as (v & Hv & Hi). destruct v as [v|ws]; [destruct Hi|].
    rewrite Forall_forall in F. apply (F _ Hv q'); [apply (in_map fst) in Hi; exact Hi|exact Hq].
Qed.
End Session.
