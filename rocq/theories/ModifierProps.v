(** C37: source edits are undone. *)
From Verif Require Import Base Maps FsModel ModifierModel GoModProps.

(** Same file contents or same link; file modes are not compared. *)
Definition same_node (a b : option fnode) : Prop :=
  match a, b with
  | None, None => True
  | Some (NFile _ c), Some (NFile _ c') => c = c'
  | Some (NLink t), Some (NLink t') => t = t'
  | _, _ => False
  end.

Lemma same_node_refl a : same_node a a.
Proof. destruct a as [[]|]; cbn; auto. Qed.
Lemma same_node_none a : same_node a None -> a = None.
Proof. destruct a as [[]|]; cbn; tauto. Qed.
Lemma same_node_file a m c : same_node a (Some (NFile m c)) -> exists m', a = Some (NFile m' c).
Proof. destruct a as [[m' c'|t]|]; cbn; [intros ->; eauto|tauto|tauto]. Qed.

Lemma bkp_inj p q : bkp p = bkp q -> p = q.
Proof. apply app_inv_tail. Qed.
Lemma client_inj p q : client_file p = client_file q -> p = q.
Proof. apply app_inv_tail. Qed.
Lemma api_inj p q : api_file p = api_file q -> p = q.
Proof. apply app_inv_tail. Qed.
Lemma client_bkp d p : client_file d <> bkp p.
Proof. unfold client_file, bkp. intros E. tails E. Qed.
Lemma api_bkp d p : api_file d <> bkp p.
Proof. unfold api_file, bkp. intros E. tails E. Qed.
Lemma client_api d e : client_file d <> api_file e.
Proof.
  unfold client_file, api_file. intros E. apply (f_equal (fun l => firstn 12 (rev l))) in E. rewrite !rev_app_distr in E. cbn in E. discriminate E.
Qed.
Lemma self_bkp p : p <> bkp p.
Proof. unfold bkp. intros E. apply (f_equal (@length _)) in E. rewrite app_length in E. cbn in E. lia. Qed.

Lemma client_matches d : glob_match d (client_file d).
Proof. exists (B "client"). split; [intros X; cbn in X; repeat (destruct X as [X|X]; [discriminate|]); destruct X|reflexivity]. Qed.
Lemma api_matches d : glob_match d (api_file d).
Proof. exists (B "api"). split; [intros X; cbn in X; repeat (destruct X as [X|X]; [discriminate|]); destruct X|reflexivity]. Qed.

Definition touches (a : action) (q : bytes) : Prop :=
  match a with ARestore p => q = p \/ q = bkp p | AGen d => q = client_file d \/ q = api_file d end.

Lemma put_regular f p m c : regular f p -> forall q, put f p m c q = if beq q p then Some (NFile (match f p with Some (NFile m' _) => m' | _ => m end) c) else f q.
Proof. intros R q. unfold put. rewrite (regular_resolve _ _ R). reflexivity. Qed.

Section Mod.
Variable um : N.
Variable f0 : fsys.
(** The files edited and the package directories given to InjectASTClient. *)
Variables (E D : bytes -> Prop).

(** Edited files are regular files, not backups of each other and not generated
    files, and have no backup file beforehand. *)
Record tidy : Prop := {
  t_file : forall p, E p -> exists m c, f0 p = Some (NFile m c);
  t_fresh : forall p, E p -> f0 (bkp p) = None;
  t_bkp : forall p q, E p -> E q -> p <> bkp q;
  t_gen : forall p d, E p -> D d -> p <> client_file d /\ p <> api_file d
}.
Hypothesis T : tidy.

(** The calls of a run stay within [E] and [D]. *)
Definition within (v : eevent) : Prop :=
  match v with EvEdit p _ | EvCommitFile p _ => E p | EvInject d _ => D d | _ => True end.
(** No backup copy and no client file stopped half way. *)
Definition unbroken (v : eevent) : Prop :=
  match v with
  | EvCommitFile _ o => o <> WBroken
  | EvCommit os => ~ In WBroken os
  | EvInject _ o => o <> IBroken
  | _ => True
  end.
(** Every cleanup action of a restore worked. *)
Definition restores (v : eevent) : Prop := match v with EvRestore oks => Forall (eq true) oks | _ => True end.

Definition clean_of (f : fsys) (acts : list action) : Prop :=
  NoDup acts /\
  (forall p, In (ARestore p) acts -> E p /\ regular f p /\ exists m c, f0 p = Some (NFile m c) /\ f (bkp p) = Some (NFile um c)) /\
  (forall d, In (AGen d) acts -> D d /\ f0 (client_file d) = None /\ f0 (api_file d) = None /\ regular f (client_file d) /\ regular f (api_file d) /\
     f (client_file d) <> None /\ f (api_file d) <> None) /\
  (forall q, (forall a, In a acts -> ~ touches a q) -> same_node (f q) (f0 q)).

Lemma act_disjoint a b q : (forall p, a = ARestore p -> E p) -> (forall p, b = ARestore p -> E p) -> (forall d, a = AGen d -> D d) -> (forall d, b = AGen d -> D d) ->
  touches a q -> touches b q -> a = b.
Proof using T.
  intros Ea Eb Da Db Ta Tb. destruct a as [p|d], b as [p'|d']; cbn in Ta, Tb.
  - f_equal. specialize (Ea _ eq_refl). specialize (Eb _ eq_refl). destruct Ta as [-> | ->], Tb as [X | X]; auto.
    + exfalso. exact (t_bkp T _ _ Ea Eb X).
    + exfalso. exact (t_bkp T _ _ Eb Ea (eq_sym X)).
    + apply bkp_inj, X.
  - exfalso. specialize (Ea _ eq_refl). specialize (Db _ eq_refl). destruct (t_gen T _ _ Ea Db). destruct Ta as [-> | ->], Tb as [X | X]; try contradiction.
    + exact (client_bkp _ _ (eq_sym X)).
    + exact (api_bkp _ _ (eq_sym X)).
  - exfalso. specialize (Eb _ eq_refl). specialize (Da _ eq_refl). destruct (t_gen T _ _ Eb Da). destruct Tb as [-> | ->], Ta as [X | X]; try contradiction.
    + exact (client_bkp _ _ (eq_sym X)).
    + exact (api_bkp _ _ (eq_sym X)).
  - f_equal. destruct Ta as [-> | ->], Tb as [X | X]; [apply client_inj, X|exfalso; exact (client_api _ _ X)|exfalso; exact (client_api _ _ (eq_sym X))|apply api_inj, X].
Qed.

Lemma clean_own f acts a : clean_of f acts -> In a acts -> (forall p, a = ARestore p -> E p) /\ (forall d, a = AGen d -> D d).
Proof. intros (_ & A & C & _) H. split; intros x ->; [apply A, H|apply C, H]. Qed.

(** Not yet backed up: the backup is missing and the file is the original. *)
Lemma not_acted f acts p : clean_of f acts -> E p -> ~ In (ARestore p) acts -> f (bkp p) = None /\ exists m c, f0 p = Some (NFile m c) /\ exists m', f p = Some (NFile m' c).
Proof using T.
  intros C Ep Np. pose proof C as (_ & _ & _ & O). assert (forall q, touches (ARestore p) q -> same_node (f q) (f0 q)) as S.
  { intros q Tq. apply O. intros a Ha Ta. apply Np. destruct (clean_own _ _ _ C Ha) as [A1 A2].
    rewrite (act_disjoint (ARestore p) a q); auto; try (intros x X; injection X as <-; exact Ep); intros x X; discriminate X. }
  split; [apply same_node_none; rewrite <- (t_fresh T p Ep); apply S; right; reflexivity|].
  destruct (t_file T p Ep) as (m & c & F). exists m, c. split; [exact F|]. apply same_node_file with (m := m). rewrite <- F. apply S. left. reflexivity.
Qed.

Lemma acts_dec (a : action) l : {In a l} + {~ In a l}.
Proof. apply in_dec. intros [p|d] [q|e]; try (right; discriminate); destruct (bytes_eq_dec p q) as [->|N] || destruct (bytes_eq_dec d e) as [->|N]; try (left; reflexivity); right; congruence. Qed.

(** Writing an edited file that has a backup action. *)
Lemma put_clean f acts p m t : clean_of f acts -> In (ARestore p) acts -> clean_of (put f p m t) acts.
Proof using T.
  intros C Hp. pose proof C as (N & A & G & O). destruct (A p Hp) as (Ep & R & m0 & c0 & F0 & Fb).
  pose proof (put_regular f p m t R) as P. split; [exact N|]. split; [|split].
  - intros q Hq. destruct (A q Hq) as (Eq & Rq & m1 & c1 & F1 & F2). split; [exact Eq|]. split.
    + unfold regular. rewrite P. destruct (beq_spec q p); [exact I|exact Rq].
    + exists m1, c1. split; [exact F1|]. rewrite P. destruct (beq_spec (bkp q) p) as [X|_]; [exfalso; eapply (t_bkp T p q); eauto|exact F2].
  - intros d Hd. destruct (G d Hd) as (Dd & G1 & G2 & G3 & G4 & G5 & G6). destruct (t_gen T p d Ep Dd) as [N1 N2].
    unfold regular in *. rewrite !P. destruct (beq_spec (client_file d) p) as [X|_]; [congruence|]. destruct (beq_spec (api_file d) p) as [X|_]; [congruence|].
    repeat (split; [assumption|]). assumption.
  - intros q Hq. rewrite P. destruct (beq_spec q p) as [->|_]; [|apply O, Hq]. exfalso. apply (Hq _ Hp). left. reflexivity.
Qed.

Lemma backup_clean f acts p f' acts' o : backup_file um p f acts f' acts' o -> clean_of f acts -> E p -> o <> WBroken ->
  clean_of f' acts' /\ (o = WDone -> In (ARestore p) acts').
Proof using T.
  intros H C Ep No. destruct H as [f a Hx|f a f' Hx Hc|f a Hx|f a f' Hx Hc].
  - split; [exact C|]. intros _. destruct (acts_dec (ARestore p) a) as [Y|Y]; [exact Y|]. exfalso.
    destruct (not_acted _ _ _ C Ep Y) as [X _]. unfold file_exists, resolve in Hx. rewrite X in Hx. rewrite X in Hx. discriminate.
  - destruct (acts_dec (ARestore p) a) as [Y|Y].
    { exfalso. destruct C as (_ & A & _). destruct (A _ Y) as (_ & _ & m & c & _ & X). unfold file_exists, resolve in Hx. rewrite X in Hx. rewrite X in Hx. discriminate. }
    destruct (not_acted _ _ _ C Ep Y) as (X & m & c & F & m' & Fp).
    destruct (copy_fresh _ _ _ _ _ _ Hc X) as [K Kok]; [unfold regular; rewrite Fp; exact I|]. destruct (Kok eq_refl) as (m1 & c1 & F1 & F2).
    assert (c1 = c) by congruence. subst c1. split; [|intros _; apply in_or_app; right; left; reflexivity].
    pose proof C as (N & A & G & O). split; [|split; [|split]].
    + apply NoDup_app_iff. split; [exact N|]. split; [constructor; [intros []|constructor]|]. intros x Hx1 [<-|[]]. contradiction.
    + intros q Hq. apply in_app_or in Hq as [Hq|[Hq|[]]].
      * destruct (A q Hq) as (Eq & Rq & m2 & c2 & G1 & G2). split; [exact Eq|]. split; [unfold regular; rewrite K; [exact Rq|eapply (t_bkp T); eauto]|].
        exists m2, c2. split; [exact G1|]. rewrite K; [exact G2|]. intros Z. apply bkp_inj in Z. subst. contradiction.
      * injection Hq as <-. split; [exact Ep|]. split; [unfold regular; rewrite K by apply self_bkp; rewrite Fp; exact I|]. exists m, c. auto.
    + intros d Hd. apply in_app_or in Hd as [Hd|[Hd|[]]]; [|discriminate]. destruct (G d Hd) as (Dd & G1 & G2 & G3 & G4 & G5 & G6).
      unfold regular in *. rewrite !K by (apply client_bkp || apply api_bkp). repeat (split; [assumption|]). assumption.
    + intros q Hq. rewrite K; [apply O; intros a0 Ha; apply Hq, in_or_app; left; exact Ha|]. intros ->. apply (Hq (ARestore p)); [apply in_or_app; right; left; reflexivity|right; reflexivity].
  - split; [exact C|discriminate].
  - contradiction.
Qed.

Lemma write_clean f acts p t f' acts' o : write_pending um p t f acts f' acts' o -> clean_of f acts -> E p -> o <> WBroken -> clean_of f' acts'.
Proof using T.
  intros H C Ep No. destruct H as [f a|f a f' a' o Ho Hb|f a f1 a1 f2 ok Hb Hw].
  - exact C.
  - exact (proj1 (backup_clean _ _ _ _ _ _ Hb C Ep No)).
  - destruct (backup_clean _ _ _ _ _ _ Hb C Ep) as [C1 Hi]; [discriminate|]. specialize (Hi eq_refl).
    destruct Hw; [exact C1|apply put_clean; assumption|apply put_clean; assumption].
Qed.

Lemma write_all_clean l f acts f' acts' os : write_all um l f acts f' acts' os -> clean_of f acts -> (forall x, In x l -> E (fst x)) -> ~ In WBroken os -> clean_of f' acts'.
Proof using T.
  induction 1 as [f a|p t l f a f1 a1 o f2 a2 os H _ IH]; intros C He Ho; [exact C|].
  apply IH; [|intros x Hx; apply He; right; exact Hx|intros X; apply Ho; right; exact X].
  eapply write_clean; [exact H|exact C|exact (He _ (or_introl eq_refl))|]. intros ->. apply Ho. left. reflexivity.
Qed.

Lemma inject_clean d ct at_ f acts f' acts' o : inject d ct at_ f acts f' acts' o -> clean_of f acts -> D d -> o <> IBroken -> clean_of f' acts'.
Proof using T.
  intros H C Dd No. destruct H as [f a q Hq Hf|f a|f a f1 Hg Hw|f a f1 f2 Hg Hw Hw2|f a f1 f2 Hg Hw Hw2]; try exact C; try contradiction.
  inversion Hw; subst. inversion Hw2; subst. clear Hw Hw2 No.
  assert (f (client_file d) = None) as Fc by apply Hg, client_matches. assert (f (api_file d) = None) as Fa by apply Hg, api_matches.
  assert (regular f (client_file d)) as Rc by (unfold regular; rewrite Fc; exact I).
  pose proof (put_regular f (client_file d) 420 ct Rc) as P1. rewrite Fc in P1.
  set (f1 := put f (client_file d) 420 ct) in *.
  assert (regular f1 (api_file d)) as Ra.
  { unfold regular. rewrite P1. destruct (beq_spec (api_file d) (client_file d)) as [X|_]; [exact I|rewrite Fa; exact I]. }
  pose proof (put_regular f1 (api_file d) 420 at_ Ra) as P2. set (f2 := put f1 (api_file d) 420 at_) in *.
  assert (~ In (AGen d) a) as Na. { intros X. destruct C as (_ & _ & G & _). destruct (G d X) as (_ & _ & _ & _ & _ & Y & _). contradiction. }
  assert (forall q, q <> client_file d -> q <> api_file d -> f2 q = f q) as K.
  { intros q N1 N2. rewrite P2, (P1 q). destruct (beq_spec q (api_file d)); [contradiction|]. destruct (beq_spec q (client_file d)); [contradiction|reflexivity]. }
  assert (exists m, f2 (client_file d) = Some (NFile m ct)) as [mc Fc2].
  { rewrite P2, (P1 (client_file d)). destruct (beq_spec (client_file d) (api_file d)) as [X|_]; [exfalso; exact (client_api _ _ X)|]. rewrite beq_refl. eauto. }
  assert (exists m, f2 (api_file d) = Some (NFile m at_)) as [ma Fa2] by (rewrite P2, beq_refl; eauto).
  pose proof C as (N & A & G & O).
  assert (forall q, touches (AGen d) q -> same_node (f q) (f0 q)) as S.
  { intros q Tq. apply O. intros b Hb Tb. apply Na. destruct (clean_own _ _ _ C Hb) as [B1 B2].
    rewrite (act_disjoint (AGen d) b q); auto; try (intros x X; injection X as <-; exact Dd); intros x X; discriminate X. }
  split; [|split; [|split]].
  - apply NoDup_app_iff. split; [exact N|]. split; [constructor; [intros []|constructor]|]. intros x Hx1 [<-|[]]. contradiction.
  - intros p Hp. apply in_app_or in Hp as [Hp|[Hp|[]]]; [|discriminate]. destruct (A p Hp) as (Ep & Rp & m & c & G1 & G2). destruct (t_gen T p d Ep Dd) as [N1 N2].
    split; [exact Ep|]. split; [unfold regular; rewrite K by assumption; exact Rp|]. exists m, c. split; [exact G1|]. rewrite K; [exact G2| |]; intros X; symmetry in X; [exact (client_bkp _ _ X)|exact (api_bkp _ _ X)].
  - intros e He. apply in_app_or in He as [He|[He|[]]].
    + destruct (G e He) as (De & G1 & G2 & G3 & G4 & G5 & G6). assert (e <> d) as Ned by (intros ->; contradiction). unfold regular in *.
      rewrite !K; [repeat (split; [assumption|]); assumption|intros X; exact (client_api _ _ (eq_sym X))|intros X; apply api_inj in X; contradiction|intros X; apply client_inj in X; contradiction|apply client_api].
    + injection He as <-. split; [exact Dd|]. split; [specialize (S _ (or_introl eq_refl)); rewrite Fc in S; destruct (f0 (client_file d)) as [[]|]; [destruct S|destruct S|reflexivity]|].
      split; [specialize (S _ (or_intror eq_refl)); rewrite Fa in S; destruct (f0 (api_file d)) as [[]|]; [destruct S|destruct S|reflexivity]|].
      unfold regular. rewrite Fc2, Fa2. repeat split; discriminate.
  - intros q Hq. rewrite K; [apply O; intros b Hb; apply Hq, in_or_app; left; exact Hb| |]; intros ->; apply (Hq (AGen d)); try (apply in_or_app; right; left; reflexivity); [left|right]; reflexivity.
Qed.

(** A successful cleanup action takes itself off the list of what is different. *)
Lemma action_clean a acts f f' : run_action a f f' true -> clean_of f (a :: acts) -> clean_of f' acts.
Proof using T.
  intros H C. pose proof C as (N & A & G & O). inversion N as [|? ? Na N']; subst.
  assert (forall q, ~ touches a q -> f' q = f q) as K.
  { inversion H as [p g g' ok Hr|d g g1 g2 o1 o2 H1 H2 E1 E2 E3]; subst.
    - intros q Hq. assert (q <> p /\ q <> bkp p) as [Q1 Q2] by (cbn in Hq; tauto). inversion Hr as [g' ok' He Hn| |g1 g2 ok' He Hm Hn]; subst.
      + apply rename_spec in Hn as [[X _]|(_ & n & _ & _ & _ & K)]; [discriminate|apply K; assumption].
      + apply rename_spec in Hn as [[X _]|(_ & n & _ & _ & _ & K)]; [discriminate|]. rewrite K by assumption. inversion Hm; subst. apply upd_other. exact Q1.
    - intros q Hq. assert (q <> client_file d /\ q <> api_file d) as [Q1 Q2] by (cbn in Hq; tauto). inversion H1; inversion H2; subst; cbn; rewrite ?upd_other; auto. }
  assert (forall q, touches a q -> same_node (f' q) (f0 q)) as S.
  { inversion H as [p g g' ok Hr|d g g1 g2 o1 o2 H1 H2 E1 E2 E3]; subst.
    - destruct (A p (or_introl eq_refl)) as (Ep & R & m & c & F0 & Fb).
      assert (f' p = Some (NFile um c) /\ f' (bkp p) = None) as [F1 F2].
      { inversion Hr as [g' ok' He Hn| |g1 g2 ok' He Hm Hn]; subst.
        - apply rename_spec in Hn as [[X _]|(_ & n & N1 & N2 & N3 & _)]; [discriminate|]. split; congruence.
        - apply rename_spec in Hn as [[X _]|(_ & n & N1 & N2 & N3 & _)]; [discriminate|]. inversion Hm; subst. rewrite upd_other in N1 by (apply not_eq_sym, self_bkp). split; congruence. }
      intros q [-> | ->]; [rewrite F1, F0; reflexivity|rewrite F2, (t_fresh T p Ep); exact I].
    - destruct (G d (or_introl eq_refl)) as (Dd & G1 & G2 & _). match goal with X : _ && _ = true |- _ => apply andb_true_iff in X as [-> ->] | X : true = _ && _ |- _ => symmetry in X; apply andb_true_iff in X as [-> ->] end. inversion H1; subst. inversion H2; subst.
      intros q [-> | ->]; rewrite ?upd_same, ?G1, ?G2; [|exact I]. rewrite upd_other by apply client_api. rewrite upd_same. exact I. }
  assert (forall b q, In b acts -> touches b q -> ~ touches a q) as Dj.
  { intros b q Hb Tb Ta. apply Na. destruct (clean_own _ _ a C (or_introl eq_refl)) as [A1 A2]. destruct (clean_own _ _ b C (or_intror Hb)) as [B1 B2].
    rewrite (act_disjoint a b q); auto. }
  split; [exact N'|]. split; [|split].
  - intros p Hp. destruct (A p (or_intror Hp)) as (Ep & R & m & c & F0 & Fb). split; [exact Ep|]. unfold regular.
    rewrite !K; [|eapply Dj; [exact Hp|right; reflexivity]|eapply Dj; [exact Hp|left; reflexivity]]. split; [exact R|]. exists m, c. auto.
  - intros d Hd. destruct (G d (or_intror Hd)) as (Dd & G1 & G2 & G3 & G4 & G5 & G6). unfold regular in *.
    assert (f' (client_file d) = f (client_file d)) as -> by (apply K; eapply Dj; [exact Hd|left; reflexivity]).
    assert (f' (api_file d) = f (api_file d)) as -> by (apply K; eapply Dj; [exact Hd|right; reflexivity]). repeat (split; [assumption|]); assumption.
  - intros q Hq. destruct a as [p|d].
    + destruct (bytes_eq_dec q p) as [X|X1]; [apply S; left; exact X|]. destruct (bytes_eq_dec q (bkp p)) as [X|X2]; [apply S; right; exact X|].
      assert (~ touches (ARestore p) q) as Nt by (intros [X|X]; contradiction). rewrite K by exact Nt. apply O. intros b [<-|Hb]; [exact Nt|apply Hq, Hb].
    + destruct (bytes_eq_dec q (client_file d)) as [X|X1]; [apply S; left; exact X|]. destruct (bytes_eq_dec q (api_file d)) as [X|X2]; [apply S; right; exact X|].
      assert (~ touches (AGen d) q) as Nt by (intros [X|X]; contradiction). rewrite K by exact Nt. apply O. intros b [<-|Hb]; [exact Nt|apply Hq, Hb].
Qed.

Lemma actions_clean acts f f' oks : run_actions acts f f' oks -> Forall (eq true) oks -> clean_of f acts -> clean_of f' [].
Proof using T.
  induction 1 as [f|x l f f1 f2 ok oks H _ IH]; intros Ho C; [exact C|]. inversion Ho; subst. apply IH; [assumption|]. eapply action_clean; eassumption.
Qed.

(** Pending edits are edits of [E]. *)
Definition pend_ok (pd : amap bytes) : Prop := forall k, In k (mkeys pd) -> E k.

Lemma pend_in pd x : pend_ok pd -> In x pd -> E (fst x).
Proof. intros P H. apply P. apply in_map, H. Qed.

Lemma step_clean e v e' : estep um e v e' -> within v -> unbroken v -> restores v -> clean_of (ed_fs e) (ed_actions e) -> pend_ok (ed_pending e) ->
  clean_of (ed_fs e') (ed_actions e') /\ pend_ok (ed_pending e').
Proof using T.
  intros H W U R C P. destruct H as [f pd a p t Hl|f pd a p t f' a' o Hg Hw|f pd a l f' a' os Hl Hn Hw|f pd a d ct at_ f' a' o Hi|f pd a f' oks Hr]; cbn in *.
  - split; [exact C|]. intros k Hk. apply mget_keys in Hk. destruct (bytes_eq_dec k p) as [->|Ne]; [exact W|]. rewrite mget_mset_other in Hk by exact Ne. apply P, mget_keys, Hk.
  - split; [eapply write_clean; eassumption|]. intros k Hk. apply P. unfold mdel, mkeys in *. apply in_map_iff in Hk as (x & <- & Hx). apply filter_In in Hx as [Hx _]. apply in_map, Hx.
  - split; [eapply write_all_clean; try eassumption; intros x Hx; eapply pend_in; [exact P|apply Hl, Hx]|]. destruct (forallb _ os); [intros k []|exact P].
  - split; [eapply inject_clean; eassumption|exact P].
  - split; [eapply actions_clean; eassumption|exact P].
Qed.

Lemma exec_clean e vs e' : eexec um e vs e' -> Forall within vs -> Forall unbroken vs -> Forall restores vs -> clean_of (ed_fs e) (ed_actions e) -> pend_ok (ed_pending e) ->
  clean_of (ed_fs e') (ed_actions e') /\ pend_ok (ed_pending e').
Proof using T.
  induction 1 as [e|e v e1 vs e2 H _ IH]; intros W U R C P; [auto|]. inversion W; inversion U; inversion R; subst.
  destruct (step_clean _ _ _ H) as [C1 P1]; auto.
Qed.

Lemma clean_init : clean_of f0 [].
Proof.
  split; [constructor|]. split; [intros p []|]. split; [intros d []|]. intros q _. apply same_node_refl.
Qed.

(** Any calls, then a restore: every path of the file system has what it had before. *)
Theorem C37_restored : forall vs oks e, eexec um (e_init f0) (vs ++ [EvRestore oks]) e ->
  Forall within vs -> Forall unbroken vs -> Forall restores (vs ++ [EvRestore oks]) ->
  forall q, same_node (ed_fs e q) (f0 q).
Proof using T.
  intros vs oks e H W U R. destruct (exec_clean _ _ _ H) as [(_ & _ & _ & O) _]; auto using clean_init.
  - apply Forall_app. split; [exact W|repeat constructor].
  - apply Forall_app. split; [exact U|repeat constructor].
  - intros k [].
  - assert (ed_actions e = []) as Ea.
    { clear - H. remember (e_init f0) as e0. clear Heqe0. remember (vs ++ [EvRestore oks]) as l. revert vs Heql.
      induction H as [e|e v e1 l e2 H1 H2 IH]; intros vs E2; [destruct vs; discriminate|]. destruct vs as [|w vs]; injection E2 as -> E3.
      - subst. inversion H2; subst. inversion H1; subst. reflexivity.
      - exact (IH _ E3). }
    rewrite Ea in O. intros q. apply O. intros a [].
Qed.

(** Before the restore, only edited files, their backups and generated files differ. *)
Theorem C37_only_these_differ : forall vs e, eexec um (e_init f0) vs e ->
  Forall within vs -> Forall unbroken vs -> Forall restores vs ->
  forall q, same_node (ed_fs e q) (f0 q) \/ (exists p, E p /\ (q = p \/ q = bkp p)) \/ (exists d, D d /\ (q = client_file d \/ q = api_file d)).
Proof using T.
  intros vs e H W U R q. destruct (exec_clean _ _ _ H) as [(N & A & G & O) _]; auto using clean_init; [intros k []|].
  assert ((exists a, In a (ed_actions e) /\ touches a q) \/ forall a, In a (ed_actions e) -> ~ touches a q) as [(a & Ha & Ta)|Nt]; [|right|left; apply O, Nt].
  { clear. induction (ed_actions e) as [|a l IH]; [right; intros a []|]. destruct IH as [(b & Hb & Tb)|IH]; [left; exists b; split; [right; exact Hb|exact Tb]|].
    assert (touches a q \/ ~ touches a q) as [Ta|Na].
    { destruct a as [p|d]; cbn; [destruct (bytes_eq_dec q p), (bytes_eq_dec q (bkp p))|destruct (bytes_eq_dec q (client_file d)), (bytes_eq_dec q (api_file d))]; tauto. }
    - left. exists a. split; [left; reflexivity|exact Ta].
    - right. intros b [<-|Hb]; [exact Na|apply IH, Hb]. }
  destruct a as [p|d]; [left; exists p; split; [apply A, Ha|exact Ta]|right; exists d; split; [apply G, Ha|exact Ta]].
Qed.

(** The original is in the file or in its backup, even when restoring fails. *)
Definition files_of (acts : list action) : list bytes := flat_map (fun a => match a with ARestore p => [p] | AGen _ => [] end) acts.
Lemma files_of_in p acts : In (ARestore p) acts <-> In p (files_of acts).
Proof.
  unfold files_of. rewrite in_flat_map. split; [intros H; exists (ARestore p); split; [exact H|left; reflexivity]|].
  intros ([q|d] & H & X); [destruct X as [X|[]]; subst; exact H|destruct X].
Qed.
Definition safe_of (f : fsys) (acts : list action) : Prop :=
  NoDup (files_of acts) /\ (forall p, In (ARestore p) acts -> E p /\ f (bkp p) <> None) /\ (forall d, In (AGen d) acts -> D d) /\
  (forall p, E p -> exists m c, f0 p = Some (NFile m c) /\
     ((f (bkp p) = None /\ exists m', f p = Some (NFile m' c)) \/ (f (bkp p) = Some (NFile um c) /\ regular f p))).

Lemma safe_ext f g acts : safe_of f acts -> (forall p, E p -> g p = f p /\ g (bkp p) = f (bkp p)) -> safe_of g acts.
Proof.
  intros (N & A & G & O) K. split; [exact N|]. split; [intros p Hp; destruct (A p Hp) as [Ep X]; split; [exact Ep|]; rewrite (proj2 (K p Ep)); exact X|].
  split; [exact G|]. intros p Ep. destruct (K p Ep) as [K1 K2]. destruct (O p Ep) as (m & c & F & X). exists m, c. split; [exact F|]. unfold regular in *. rewrite K1, K2. exact X.
Qed.

Lemma put_safe f acts p m t : safe_of f acts -> E p -> f (bkp p) <> None -> safe_of (put f p m t) acts.
Proof using T.
  intros (N & A & G & O) Ep Hb. assert (regular f p) as R.
  { destruct (O p Ep) as (m0 & c0 & _ & [[X _]|[_ X]]); [contradiction|exact X]. }
  pose proof (put_regular f p m t R) as P. assert (forall q, E q -> put f p m t (bkp q) = f (bkp q)) as Kb.
  { intros q Eq. rewrite P. destruct (beq_spec (bkp q) p) as [X|_]; [exfalso; eapply (t_bkp T p q); eauto|reflexivity]. }
  split; [exact N|]. split; [intros q Hq; destruct (A q Hq) as [Eq X]; split; [exact Eq|]; rewrite Kb by exact Eq; exact X|]. split; [exact G|].
  intros q Eq. destruct (O q Eq) as (m1 & c1 & F & X). exists m1, c1. split; [exact F|]. rewrite Kb by exact Eq. unfold regular in *. rewrite P.
  destruct (beq_spec q p) as [->|_]; [|exact X]. destruct X as [[X _]|[X _]]; [contradiction|right; auto].
Qed.

Lemma backup_safe f acts p f' acts' o : backup_file um p f acts f' acts' o -> safe_of f acts -> E p -> o <> WBroken ->
  safe_of f' acts' /\ (o = WDone -> f' (bkp p) <> None).
Proof using T.
  intros H C Ep No. pose proof C as (N & A & G & O). destruct (O p Ep) as (m & c & F & X). destruct H as [f a Hx|f a f' Hx Hc|f a Hx|f a f' Hx Hc].
  - split; [exact C|]. intros _ Y. unfold file_exists, resolve in Hx. rewrite Y in Hx. rewrite Y in Hx. discriminate.
  - destruct X as [[Xb [m' Fp]]|[Xb _]]; [|exfalso; unfold file_exists, resolve in Hx; rewrite Xb in Hx; rewrite Xb in Hx; discriminate].
    destruct (copy_fresh _ _ _ _ _ _ Hc Xb) as [K Kok]; [unfold regular; rewrite Fp; exact I|]. destruct (Kok eq_refl) as (m1 & c1 & F1 & F2).
    assert (c1 = c) by congruence. subst c1. split; [|intros _; rewrite F2; discriminate].
    assert (~ In (ARestore p) a) as Na by (intros Y; apply A in Y as [_ Y]; contradiction).
    split; [|split; [|split]].
    + unfold files_of in *. rewrite flat_map_app. apply NoDup_app_iff. split; [exact N|]. split; [constructor; [intros []|constructor]|].
      intros x Hx1 [<-|[]]. apply Na, files_of_in, Hx1.
    + intros q Hq. apply in_app_or in Hq as [Hq|[Hq|[]]].
      * destruct (A q Hq) as [Eq Y]. split; [exact Eq|]. rewrite K; [exact Y|]. intros Z. apply bkp_inj in Z. subst. contradiction.
      * injection Hq as <-. split; [exact Ep|]. rewrite F2. discriminate.
    + intros d Hd. apply in_app_or in Hd as [Hd|[Hd|[]]]; [|discriminate]. apply G, Hd.
    + intros q Eq. destruct (O q Eq) as (m2 & c2 & G1 & Y). exists m2, c2. split; [exact G1|]. unfold regular in *. rewrite (K q) by (eapply (t_bkp T); eauto).
      destruct (bytes_eq_dec q p) as [->|Nq]; [|rewrite K by (intros Z; apply bkp_inj in Z; contradiction); exact Y].
      right. rewrite Fp. split; [congruence|exact I].
  - split; [exact C|discriminate].
  - contradiction.
Qed.

Lemma write_safe f acts p t f' acts' o : write_pending um p t f acts f' acts' o -> safe_of f acts -> E p -> o <> WBroken -> safe_of f' acts'.
Proof using T.
  intros H C Ep No. destruct H as [f a|f a f' a' o Ho Hb|f a f1 a1 f2 ok Hb Hw].
  - exact C.
  - exact (proj1 (backup_safe _ _ _ _ _ _ Hb C Ep No)).
  - destruct (backup_safe _ _ _ _ _ _ Hb C Ep) as [C1 Hi]; [discriminate|]. specialize (Hi eq_refl).
    destruct Hw; [exact C1|apply put_safe; assumption|apply put_safe; assumption].
Qed.

Lemma write_all_safe l f acts f' acts' os : write_all um l f acts f' acts' os -> safe_of f acts -> (forall x, In x l -> E (fst x)) -> ~ In WBroken os -> safe_of f' acts'.
Proof using T.
  induction 1 as [f a|p t l f a f1 a1 o f2 a2 os H _ IH]; intros C He Ho; [exact C|].
  apply IH; [|intros x Hx; apply He; right; exact Hx|intros X; apply Ho; right; exact X].
  eapply write_safe; [exact H|exact C|exact (He _ (or_introl eq_refl))|]. intros ->. apply Ho. left. reflexivity.
Qed.

Lemma action_safe a acts f f' ok : run_action a f f' ok -> safe_of f (a :: acts) -> safe_of f' acts.
Proof using T.
  intros H (N & A & G & O).
  inversion H as [p g g' ok' Hr|d g g1 g2 o1 o2 H1 H2]; subst.
  - change (files_of (ARestore p :: acts)) with (p :: files_of acts) in N. inversion N as [|? ? Na N']; subst.
    destruct (A p (or_introl eq_refl)) as [Ep Hb]. destruct (O p Ep) as (m & c & F & [[X _]|[Xb R]]); [contradiction|].
    assert ((f' (bkp p) = None /\ exists m', f' p = Some (NFile m' c)) \/ (f' (bkp p) = Some (NFile um c) /\ regular f' p)) as P.
    { inversion Hr as [g' o He Hn|He Hm|g1 g2 o He Hm Hn]; subst.
      - apply rename_spec in Hn as [[_ ->]|(_ & n & N1 & N2 & N3 & _)]; [right; auto|left; split; [exact N3|exists um; congruence]].
      - right. auto.
      - inversion Hm; subst. apply rename_spec in Hn as [[_ ->]|(_ & n & N1 & N2 & N3 & _)].
        + right. unfold regular. rewrite upd_same, upd_other by (apply not_eq_sym, self_bkp). auto.
        + rewrite upd_other in N1 by (apply not_eq_sym, self_bkp). left. split; [exact N3|exists um; congruence]. }
    assert (forall q, q <> p -> q <> bkp p -> f' q = f q) as K.
    { intros q Q1 Q2. inversion Hr as [g' o He Hn|He Hm|g1 g2 o He Hm Hn]; subst; [|reflexivity|].
      - apply rename_spec in Hn as [[_ ->]|(_ & n & _ & _ & _ & K)]; [reflexivity|apply K; assumption].
      - inversion Hm; subst. apply rename_spec in Hn as [[_ ->]|(_ & n & _ & _ & _ & K)]; [|rewrite K by assumption]; apply upd_other; assumption. }
    assert (forall q, E q -> q <> p -> f' q = f q /\ f' (bkp q) = f (bkp q)) as Kq.
    { intros q Eq Nq. split; apply K; [exact Nq|eapply (t_bkp T); eauto|intros X; eapply (t_bkp T p q); eauto|intros X; apply bkp_inj in X; contradiction]. }
    split; [exact N'|]. split; [|split].
    + intros q Hq. destruct (A q (or_intror Hq)) as [Eq Y]. split; [exact Eq|]. rewrite (proj2 (Kq q Eq ltac:(intros ->; apply Na, files_of_in, Hq))). exact Y.
    + intros d Hd. apply G. right. exact Hd.
    + intros q Eq. destruct (bytes_eq_dec q p) as [->|Nq]; [exists m, c; auto|]. destruct (Kq q Eq Nq) as [K1 K2]. unfold regular. rewrite K1, K2. exact (O q Eq).
  - apply (safe_ext f); [split; [exact N|]; split; [intros q Hq; apply A; right; exact Hq|]; split; [intros e He; apply G; right; exact He|exact O]|].
    intros p Ep. destruct (t_gen T p d Ep (G d (or_introl eq_refl))) as [N1 N2].
    pose proof (client_bkp d p) as N3. pose proof (api_bkp d p) as N4.
    inversion H1; inversion H2; subst; rewrite ?upd_other by auto; auto.
Qed.

Lemma actions_safe acts f f' oks : run_actions acts f f' oks -> safe_of f acts -> safe_of f' [].
Proof using T. induction 1 as [f|x l f f1 f2 ok oks H _ IH]; intros C; [exact C|]. apply IH. eapply action_safe; eassumption. Qed.

Lemma inject_safe d ct at_ f acts f' acts' o : inject d ct at_ f acts f' acts' o -> safe_of f acts -> D d -> safe_of f' acts'.
Proof using T.
  intros H C Dd. assert (forall f g p m c ok, write_file f p m c g ok -> regular f p -> (forall q, q <> p -> g q = f q) /\ regular g p) as W.
  { intros h g p m c ok Hw R. destruct Hw; [auto| |]; (split; [intros q Hq; rewrite put_regular by exact R; destruct (beq_spec q p); [contradiction|reflexivity]|
      unfold regular; rewrite put_regular by exact R; rewrite beq_refl; exact I]). }
  assert (forall f1, (forall q, q <> client_file d -> q <> api_file d -> f1 q = f q) -> forall p, E p -> f1 p = f p /\ f1 (bkp p) = f (bkp p)) as K.
  { intros f1 K p Ep. destruct (t_gen T p d Ep Dd) as [N1 N2]. split; apply K; auto; intros X; symmetry in X; [exact (client_bkp _ _ X)|exact (api_bkp _ _ X)]. }
  destruct H as [f a q Hq Hf|f a|f a f1 Hg Hw|f a f1 f2 Hg Hw Hw2|f a f1 f2 Hg Hw Hw2]; try exact C;
    (assert (regular f (client_file d)) as Rc by (unfold regular; rewrite (Hg _ (client_matches d)); exact I)); destruct (W _ _ _ _ _ _ Hw Rc) as [K1 R1].
  - apply (safe_ext f); [exact C|]. apply K. intros q N1 N2. apply K1, N1.
  - assert (regular f1 (api_file d)) as Ra by (unfold regular; rewrite K1 by (apply not_eq_sym, client_api); rewrite (Hg _ (api_matches d)); exact I).
    destruct (W _ _ _ _ _ _ Hw2 Ra) as [K2 R2]. apply (safe_ext f); [exact C|]. apply K. intros q N1 N2. rewrite K2, K1; auto.
  - assert (regular f1 (api_file d)) as Ra by (unfold regular; rewrite K1 by (apply not_eq_sym, client_api); rewrite (Hg _ (api_matches d)); exact I).
    destruct (W _ _ _ _ _ _ Hw2 Ra) as [K2 R2]. apply (safe_ext f).
    + destruct C as (N & A & G & O). split; [unfold files_of in *; rewrite flat_map_app; cbn; rewrite app_nil_r; exact N|].
      split; [intros p Hp; apply in_app_or in Hp as [Hp|[Hp|[]]]; [apply A, Hp|discriminate]|]. split; [|exact O].
      intros e He. apply in_app_or in He as [He|[He|[]]]; [apply G, He|]. injection He as <-. exact Dd.
    + apply K. intros q N1 N2. rewrite K2, K1; auto.
Qed.

Lemma step_safe e v e' : estep um e v e' -> within v -> unbroken v -> safe_of (ed_fs e) (ed_actions e) -> pend_ok (ed_pending e) ->
  safe_of (ed_fs e') (ed_actions e') /\ pend_ok (ed_pending e').
Proof using T.
  intros H W U C P. destruct H as [f pd a p t Hl|f pd a p t f' a' o Hg Hw|f pd a l f' a' os Hl Hn Hw|f pd a d ct at_ f' a' o Hi|f pd a f' oks Hr]; cbn in *.
  - split; [exact C|]. intros k Hk. apply mget_keys in Hk. destruct (bytes_eq_dec k p) as [->|Ne]; [exact W|]. rewrite mget_mset_other in Hk by exact Ne. apply P, mget_keys, Hk.
  - split; [eapply write_safe; eassumption|]. intros k Hk. apply P. unfold mdel, mkeys in *. apply in_map_iff in Hk as (x & <- & Hx). apply filter_In in Hx as [Hx _]. apply in_map, Hx.
  - split; [eapply write_all_safe; try eassumption; intros x Hx; eapply pend_in; [exact P|apply Hl, Hx]|]. destruct (forallb _ os); [intros k []|exact P].
  - split; [eapply inject_safe; eassumption|exact P].
  - split; [eapply actions_safe; eassumption|exact P].
Qed.

Lemma exec_safe e vs e' : eexec um e vs e' -> Forall within vs -> Forall unbroken vs -> safe_of (ed_fs e) (ed_actions e) -> pend_ok (ed_pending e) ->
  safe_of (ed_fs e') (ed_actions e').
Proof using T.
  induction 1 as [e|e v e1 vs e2 H _ IH]; intros W U C P; [auto|]. inversion W; inversion U; subst.
  destruct (step_safe _ _ _ H) as [C1 P1]; auto.
Qed.

(** Whatever fails in writing and restoring (but not while copying a backup), the
    original of every edited file is in the file or in its backup. *)
Theorem C37_original_never_lost : forall vs e, eexec um (e_init f0) vs e -> Forall within vs -> Forall unbroken vs ->
  forall p, E p -> contents (ed_fs e) p = contents f0 p \/ contents (ed_fs e) (bkp p) = contents f0 p.
Proof using T.
  intros vs e H W U p Ep. destruct (exec_safe _ _ _ H) as (_ & _ & _ & O); auto.
  - split; [constructor|]. split; [intros q []|]. split; [intros d []|]. intros q Eq. destruct (t_file T q Eq) as (m & c & F). exists m, c. split; [exact F|].
    left. split; [apply (t_fresh T q Eq)|exists m; exact F].
  - intros k [].
  - destruct (O p Ep) as (m & c & F & [[_ [m' Fp]]|[Fb _]]); rewrite (contents_of f0 _ _ _ F); [left|right]; eapply contents_of; eassumption.
Qed.
End Mod.
Print Assumptions C37_restored.
Print Assumptions C37_only_these_differ.
Print Assumptions C37_original_never_lost.

(** One source file "a.go" and possibly its backup; a file others link to. *)
Definition ex37_fs (a b : option fnode) : fsys :=
  upd (upd (upd (fun _ => None) (B "a.go") a) (bkp (B "a.go")) b) (B "shared.go") (Some (NFile 420 (B "old"))).
Definition ex37_old : option fnode := Some (NFile 420 (B "old")).

Ltac nomatch := intros q (x & _ & ->); unfold ex37_fs, put, resolve, upd; cbn; repeat (destruct (beq_spec _ _) as [?E|_]; [cbn in *; discriminate|]); reflexivity.

Definition ex37_E (p : bytes) : Prop := p = B "a.go".
Definition ex37_D (d : bytes) : Prop := d = B "pk".
Lemma ex37_tidy : tidy (ex37_fs ex37_old None) ex37_E ex37_D.
Proof.
  split.
  - intros p ->. exists 420%N, (B "old"). reflexivity.
  - intros p ->. reflexivity.
  - intros p q -> ->. discriminate.
  - intros p d -> ->. split; discriminate.
Qed.

(** Edit, inject the client, commit, edit and commit again with a failing write, and
    restore. *)
Definition ex37_events : list eevent :=
  [EvEdit (B "a.go") (B "new"); EvInject (B "pk") IDone; EvCommit [WDone]; EvEdit (B "a.go") (B "newer"); EvCommitFile (B "a.go") WFailed].
Example C37_example : exists e,
  eexec 438 (e_init (ex37_fs ex37_old None)) (ex37_events ++ [EvRestore [true; true]]) e /\
  Forall (within ex37_E ex37_D) ex37_events /\ Forall unbroken ex37_events /\ Forall restores (ex37_events ++ [EvRestore [true; true]]) /\
  ed_fs e (B "a.go") = Some (NFile 438 (B "old")) /\ ed_fs e (client_file (B "pk")) = None.
Proof.
  eexists. split; [|split; [repeat constructor|split; [repeat constructor; try discriminate; intros [X|[]]; discriminate|split; [repeat constructor|]]]].
  - eapply ee_cons; [eapply es_edit; left; vm_compute; discriminate|].
    eapply ee_cons; [eapply (es_inject _ _ _ _ (B "pk") (B "client") (B "api")); eapply in_done; [nomatch|apply wf_ok|apply wf_ok]|].
    eapply ee_cons; [eapply (es_commit _ _ _ _ [(B "a.go", B "new")]); [intros x; reflexivity|repeat constructor; intros []|]|].
    { eapply wa_cons; [|apply wa_nil]. eapply (wp_write _ _ _ _ _ _ _ _ true); [eapply bf_made; [reflexivity|eapply cp_ok; [reflexivity|vm_compute; discriminate]]|apply wf_ok]. }
    eapply ee_cons; [eapply es_edit; left; vm_compute; discriminate|].
    eapply ee_cons; [eapply es_commit_file; [reflexivity|eapply (wp_write _ _ _ _ _ _ _ _ false); [eapply bf_have; reflexivity|apply (wf_part _ _ _ _ (B "ne"))]]|].
    eapply ee_cons; [eapply es_restore|apply ee_nil]. cbn [app].
    eapply rx_cons; [eapply (ra_gen _ _ _ _ true true); apply rm_ok; vm_compute; discriminate|].
    eapply rx_cons; [|apply rx_nil]. apply ra_restore. eapply rp_done; [reflexivity|apply rm_ok; vm_compute; discriminate|eapply rn_ok; [reflexivity|vm_compute; discriminate]].
  - split; vm_compute; reflexivity.
Qed.

(** A backup file left by an earlier run: the edited file is not restored. *)
Theorem C37_stale_backup_refuted : exists e,
  eexec 438 (e_init (ex37_fs ex37_old (Some (NFile 420 (B "stale"))))) [EvEdit (B "a.go") (B "new"); EvCommit [WDone]; EvRestore []] e /\
  contents (ed_fs e) (B "a.go") = Some (B "new").
Proof.
  eexists. split.
  - eapply ee_cons; [eapply es_edit; left; vm_compute; discriminate|].
    eapply ee_cons; [eapply (es_commit _ _ _ _ [(B "a.go", B "new")]); [intros x; reflexivity|repeat constructor; intros []|]|].
    { eapply wa_cons; [|apply wa_nil]. eapply (wp_write _ _ _ _ _ _ _ _ true); [eapply bf_have; reflexivity|apply wf_ok]. }
    eapply ee_cons; [eapply es_restore; apply rx_nil|apply ee_nil].
  - vm_compute. reflexivity.
Qed.

(** A backup copy that stops half way and a second commit: the original is lost. *)
Theorem C37_broken_backup_loses_original_refuted : exists e,
  eexec 438 (e_init (ex37_fs ex37_old None)) [EvEdit (B "a.go") (B "new"); EvCommit [WBroken]; EvCommit [WDone]; EvRestore []] e /\
  contents (ed_fs e) (B "a.go") = Some (B "new") /\ contents (ed_fs e) (bkp (B "a.go")) = Some (B "o").
Proof.
  eexists. split.
  - eapply ee_cons; [eapply es_edit; left; vm_compute; discriminate|].
    eapply ee_cons; [eapply (es_commit _ _ _ _ [(B "a.go", B "new")]); [intros x; reflexivity|repeat constructor; intros []|]|].
    { eapply wa_cons; [|apply wa_nil]. eapply wp_backup; [discriminate|]. eapply bf_part; [reflexivity|]. eapply (cp_part _ _ _ _ _ _ (B "o")); [reflexivity|vm_compute; discriminate]. }
    eapply ee_cons; [eapply (es_commit _ _ _ _ [(B "a.go", B "new")]); [intros x; reflexivity|repeat constructor; intros []|]|].
    { eapply wa_cons; [|apply wa_nil]. eapply (wp_write _ _ _ _ _ _ _ _ true); [eapply bf_have; reflexivity|apply wf_ok]. }
    eapply ee_cons; [eapply es_restore; apply rx_nil|apply ee_nil].
  - vm_compute. auto.
Qed.

(** A source file that is a link: the file it points to stays edited. *)
Theorem C37_linked_source_refuted : exists e,
  eexec 438 (e_init (ex37_fs (Some (NLink (B "shared.go"))) None)) [EvEdit (B "a.go") (B "new"); EvCommit [WDone]; EvRestore [true]] e /\
  contents (ex37_fs (Some (NLink (B "shared.go"))) None) (B "a.go") = Some (B "old") /\
  contents (ed_fs e) (B "a.go") = Some (B "new") /\ contents (ed_fs e) (B "shared.go") = Some (B "new").
Proof.
  eexists. split.
  - eapply ee_cons; [eapply es_edit; left; vm_compute; discriminate|].
    eapply ee_cons; [eapply (es_commit _ _ _ _ [(B "a.go", B "new")]); [intros x; reflexivity|repeat constructor; intros []|]|].
    { eapply wa_cons; [|apply wa_nil]. eapply (wp_write _ _ _ _ _ _ _ _ true); [eapply bf_made; [reflexivity|eapply cp_link; reflexivity]|apply wf_ok]. }
    eapply ee_cons; [eapply es_restore|apply ee_nil]. cbn [app]. eapply rx_cons; [|apply rx_nil].
    apply ra_restore. eapply rp_done; [reflexivity|apply rm_ok; vm_compute; discriminate|eapply rn_ok; [reflexivity|vm_compute; discriminate]].
  - vm_compute. auto.
Qed.

(** Injecting the client stops after the first file: it is never removed, and the
    package counts as injected although the second file is missing. *)
Theorem C37_failed_injection_left_refuted : exists e,
  eexec 438 (e_init (ex37_fs ex37_old None)) [EvInject (B "pk") IBroken; EvInject (B "pk") INothing; EvRestore []] e /\
  contents (ed_fs e) (client_file (B "pk")) = Some (B "client") /\ ed_fs e (api_file (B "pk")) = None /\ ed_actions e = [].
Proof.
  eexists. split.
  - eapply ee_cons; [eapply (es_inject _ _ _ _ (B "pk") (B "client") (B "api")); eapply in_api; [nomatch|apply wf_ok|apply wf_fail]|].
    eapply ee_cons; [eapply (es_inject _ _ _ _ (B "pk") (B "client") (B "api")); eapply in_have; [apply client_matches|vm_compute; discriminate]|].
    eapply ee_cons; [eapply es_restore; apply rx_nil|apply ee_nil].
  - vm_compute. auto.
Qed.

(** A failed restore is not tried again by the next. *)
Theorem C37_failed_restore_forgotten_refuted : exists e,
  eexec 438 (e_init (ex37_fs ex37_old None)) [EvEdit (B "a.go") (B "new"); EvCommit [WDone]; EvRestore [false]; EvRestore []] e /\
  contents (ed_fs e) (B "a.go") = Some (B "new").
Proof.
  eexists. split.
  - eapply ee_cons; [eapply es_edit; left; vm_compute; discriminate|].
    eapply ee_cons; [eapply (es_commit _ _ _ _ [(B "a.go", B "new")]); [intros x; reflexivity|repeat constructor; intros []|]|].
    { eapply wa_cons; [|apply wa_nil]. eapply (wp_write _ _ _ _ _ _ _ _ true); [eapply bf_made; [reflexivity|eapply cp_ok; [reflexivity|vm_compute; discriminate]]|apply wf_ok]. }
    eapply ee_cons; [eapply es_restore; eapply rx_cons; [apply ra_restore, rp_stuck; [reflexivity|apply rm_fail]|apply rx_nil]|].
    eapply ee_cons; [eapply es_restore; apply rx_nil|apply ee_nil].
  - vm_compute. reflexivity.
Qed.
Print Assumptions C37_stale_backup_refuted.
Print Assumptions C37_broken_backup_loses_original_refuted.
Print Assumptions C37_linked_source_refuted.
Print Assumptions C37_failed_injection_left_refuted.
Print Assumptions C37_failed_restore_forgotten_refuted.
