(** Lemmas for C97. *)
From Coq Require Import Wellfounded Relation_Operators Permutation.
From Verif Require Import Base Maps EditLockModel EditLockSpec.

Section Locks.
Context {E : Type}.
Variable stripe : bytes -> nat.
Variable cpus : nat.
Notation pc := (@pc E).
Notation call := (@call E).
Notation data := (@data E).
Notation holds := (@holds E stripe).
Notation free := (@free E stripe).
Notation tstep := (@tstep E stripe cpus).
Notation step := (@step E stripe cpus).
Notation steps := (@steps E stripe cpus).

(** ** Progress *)
Lemma search (P : pc * list call -> bool) ts : (exists a t b, ts = a ++ t :: b /\ P t = true) \/ forall t, In t ts -> P t = false.
Proof.
  induction ts as [| t ts IH]; [right; intros t [] |]. destruct (P t) eqn:Et; [left; exists [], t, ts; auto |].
  destruct IH as [(a & t' & b & -> & Ht) | IH]; [left; exists (t :: a), t', b; auto |]. right. intros t' [<- | H]; auto.
Qed.
Definition ended (t : pc * list call) : bool := match t with (Idle, []) => true | _ => false end.
Definition idle (t : pc * list call) : bool := match fst t with Idle => true | _ => false end.

Lemma run_progress fr i todo subs cs d : 0 < cpus -> (holds (CRun todo subs) LCleanup = true \/ fr LCleanup) -> exists c' d', tstep fr i (CRun todo subs) cs d c' cs d'.
Proof.
  intros Hc Hl.
  assert (S : (exists a p r c b, subs = a ++ (p, r, c) :: b /\ c = SNote) \/ forall x, In x subs -> snd x <> SNote).
  { clear. induction subs as [| [[p r] c] subs IH]; [right; intros x [] |]. destruct IH as [(a & p' & r' & c' & b & -> & ->) | IH]; [left; exists ((p, r, c) :: a), p', r', SNote, b; auto |].
    destruct c; try (right; intros x [<- | H]; [discriminate | auto]). left. exists [], p, r, SNote, subs. auto. }
  destruct S as [(a & p & r & c & b & -> & ->) | NoNote]; [do 2 eexists; apply t_sub, ss_noted |].
  assert (F : fr LCleanup).
  { destruct Hl as [Hl | Hl]; [| exact Hl]. cbn in Hl. apply existsb_exists in Hl. destruct Hl as (x & Hx & Ex). exfalso. apply (NoNote x Hx). destruct (snd x); try discriminate Ex. reflexivity. }
  assert (T : (exists a p r c b, subs = a ++ (p, r, c) :: b /\ forall ok, c <> SEnd ok) \/ forall x, In x subs -> exists ok, snd x = SEnd ok).
  { clear. induction subs as [| [[p r] c] subs IH]; [right; intros x [] |]. destruct IH as [(a & p' & r' & c' & b & -> & X) | IH]; [left; exists ((p, r, c) :: a), p', r', c', b; auto |].
    destruct c; try (left; eexists [], p, r, _, subs; split; [reflexivity | discriminate]). right. intros x [<- | H]; [eexists; reflexivity | auto]. }
  destruct T as [(a & p & r & c & b & -> & Ne) | Done].
  - destruct c; [do 2 eexists; apply t_sub, ss_there | do 2 eexists; apply t_sub, ss_note, F | do 2 eexists; apply t_sub, ss_noted | do 2 eexists; apply t_sub, ss_text | destruct (Ne ok eq_refl)].
  - destruct todo as [| [p r] todo].
    + assert (X : Forall (fun x => snd x = SEnd true) subs \/ Exists (fun x => snd x = SEnd false) subs).
      { clear - Done. induction subs as [| x subs IH]; [left; constructor |]. destruct (Done x (or_introl eq_refl)) as [[|] Ex].
        - destruct IH as [IH | IH]; [intros y Hy; apply Done; right; exact Hy | left; constructor; assumption | right; right; exact IH].
        - right. left. exact Ex. }
      destruct X as [X | X]; [do 2 eexists; apply t_clear, X | do 2 eexists; apply t_failed; [apply Forall_forall, Done | exact X]].
    + do 2 eexists. apply t_go. replace (filter _ subs) with (@nil (bytes * nat * spc)); [exact Hc |].
      symmetry. clear - Done. induction subs as [| x subs IH]; [reflexivity |]. cbn. destruct (Done x (or_introl eq_refl)) as [ok ->]. apply IH. intros y Hy. apply Done. right. exact Hy.
Qed.

Lemma progress s : 0 < cpus -> (exists t, In t (threads s) /\ ended t = false) -> exists s', step s s'.
Proof.
  intros Hc (t0 & Hin & Ht0). destruct s as [ts d]. cbn [threads] in *.
  assert (Go : forall a c cs b, ts = a ++ (c, cs) :: b -> (exists c' cs' d', tstep (free ts) (length a) c cs d c' cs' d') -> exists s', step (State ts d) s').
  { intros a c cs b -> (c' & cs' & d' & H). eexists. apply st, H. }
  destruct (search (fun t => holds (fst t) LCleanup) ts) as [(a & [c cs] & b & Et & H) | Fl].
  { apply (Go a c cs b Et). cbn [fst] in H. destruct c; try discriminate H.
    - do 3 eexists. apply t_noted.
    - destruct (run_progress (free ts) (length a) todo subs cs d Hc (or_introl H)) as (c' & d' & X). eauto.
    - do 3 eexists. apply t_cleaned. }
  destruct (search (fun t => holds (fst t) LCommit) ts) as [(a & [c cs] & b & Et & H) | Fc].
  { apply (Go a c cs b Et). cbn [fst] in H. destruct c; try discriminate H.
    - do 3 eexists. apply t_reg.
    - destruct (mget p (pending d)) as [r |] eqn:Ep; do 3 eexists; [apply t_take, Ep | apply t_none, Ep].
    - do 3 eexists. apply t_there.
    - do 3 eexists. apply t_note. exact Fl.
    - do 3 eexists. apply t_noted.
    - do 3 eexists. apply t_text.
    - do 3 eexists. apply t_out.
    - destruct (run_progress (free ts) (length a) todo subs cs d Hc (or_intror Fl)) as (c' & d' & X). eauto.
    - do 3 eexists. apply t_over. }
  destruct (search (fun t => negb (idle t)) ts) as [(a & [c cs] & b & Et & H) | Fi].
  { assert (Ic : In (c, cs) ts) by (rewrite Et; apply in_or_app; right; left; reflexivity).
    pose proof (Fl _ Ic) as Nl. pose proof (Fc _ Ic) as Nc. cbn [fst] in Nl, Nc.
    apply (Go a c cs b Et). destruct c; try discriminate H; try discriminate Nl; try discriminate Nc.
    - destruct (loaded d p) as [r |] eqn:Ep; do 3 eexists; [apply t_have, Ep | apply t_parse, Ep].
    - do 3 eexists. apply t_wait. exact Fc.
    - do 3 eexists. apply t_made.
    - do 3 eexists. apply t_end.
    - do 3 eexists. apply t_commit. exact Fc.
    - do 3 eexists. apply t_last. }
  assert (Fr : forall l, free ts l).
  { intros l t Ht. specialize (Fi t Ht). unfold idle in Fi. destruct (fst t); try discriminate Fi. destruct l; reflexivity. }
  apply in_split in Hin. destruct Hin as (a & b & Et). destruct t0 as [c cs]. apply (Go a c cs b Et).
  assert (Ii : idle (c, cs) = true). { specialize (Fi (c, cs)). rewrite Et in Fi. specialize (Fi ltac:(apply in_or_app; right; left; reflexivity)). destruct (idle (c, cs)); [reflexivity | discriminate]. }
  unfold idle in Ii. cbn [fst] in Ii. destruct c; try discriminate Ii. destruct cs as [| [p e | p | |] cs]; [discriminate Ht0 | | | |]; do 3 eexists.
  - apply t_edit, Fr.
  - apply t_file, Fr.
  - apply t_all; [apply Fr | reflexivity | reflexivity].
  - apply t_clean, Fr.
Qed.

(** ** Termination *)
Definition srank (c : spc) : nat := match c with SWant => 4 | SNeed => 3 | SNote => 2 | SText => 1 | SEnd _ => 0 end.
Definition rank (c : pc) : nat :=
  match c with
  | Idle => 0 | EGot _ _ => 5 | EParsed _ _ _ => 4 | EReg _ _ _ => 3 | EHave _ _ _ => 2 | EEnd _ => 1
  | FGot _ => 8 | FCommit _ => 7 | FWrite _ _ => 6 | FWant _ _ => 5 | FNote _ _ => 4 | FText _ _ => 3 | FOut _ => 2 | FLast _ => 1
  | CRun todo subs => 2 + 6 * length todo + list_sum (map (fun x => srank (snd x)) subs)
  | COut => 1 | NGot => 1
  end.
Definition ncalls (s : @state E) : nat := list_sum (map (fun t => length (snd t)) (threads s)).
Definition nrank (s : @state E) : nat := list_sum (map (fun t => rank (fst t)) (threads s)).
Lemma sum_app l l' : list_sum (l ++ l') = list_sum l + list_sum l'.
Proof. apply list_sum_app. Qed.
Lemma tstep_less fr i c cs d c' cs' d' : tstep fr i c cs d c' cs' d' -> length cs' < length cs \/ (length cs' = length cs /\ rank c' < rank c).
Proof.
  destruct 1; cbn [rank length]; try (left; lia); try (right; split; [reflexivity | lia]); right; split; try reflexivity.
  - rewrite map_app, sum_app. cbn. lia.
  - rewrite !map_app, !sum_app. cbn [map list_sum fold_right]. inversion H; subst; cbn [srank snd]; lia.
Qed.
Lemma step_less s s' : step s s' -> ncalls s' < ncalls s \/ (ncalls s' = ncalls s /\ nrank s' < nrank s).
Proof.
  destruct 1 as [a c cs b d c' cs' d' H]. unfold ncalls, nrank. cbn [threads]. rewrite !map_app, !sum_app. cbn [map fst snd].
  assert (C : forall x l, list_sum (x :: l) = x + list_sum l) by reflexivity. rewrite !C. apply tstep_less in H. lia.
Qed.
Lemma terminates s : Acc (fun s' s => step s s') s.
Proof.
  remember (ncalls s) as n eqn:En. remember (nrank s) as m eqn:Em. revert m s En Em.
  induction n as [n IHn] using lt_wf_ind. intros m. induction m as [m IHm] using lt_wf_ind. intros s -> ->. constructor. intros s' H.
  apply step_less in H. destruct H as [H | [H1 H2]]; [eapply IHn; [exact H | reflexivity | reflexivity] |].
  eapply IHm; [exact H2 | symmetry; exact H1 | reflexivity].
Qed.

(** ** Mutual exclusion *)
Definition exclusive (ts : list (pc * list call)) : Prop := forall i j ti tj l, i <> j -> nth_error ts i = Some ti -> nth_error ts j = Some tj ->
  holds (fst ti) l = true -> holds (fst tj) l = false.
Lemma nth_upd {A} (a : list A) x x' b j : nth_error (a ++ x' :: b) j = if Nat.eqb j (length a) then Some x' else nth_error (a ++ x :: b) j.
Proof.
  destruct (Nat.eqb_spec j (length a)) as [-> | Ne]; [rewrite nth_error_app2, Nat.sub_diag by lia; reflexivity |].
  destruct (Nat.lt_ge_cases j (length a)) as [L | L]; [rewrite !nth_error_app1 by exact L; reflexivity |].
  rewrite !nth_error_app2 by exact L. destruct (j - length a) as [| k] eqn:Ek; [lia | reflexivity].
Qed.
Lemma nth_here {A} (a : list A) x b : nth_error (a ++ x :: b) (length a) = Some x.
Proof. rewrite nth_error_app2, Nat.sub_diag by lia. reflexivity. Qed.
Lemma holds_new fr i c cs d c' cs' d' l : tstep fr i c cs d c' cs' d' -> holds c' l = true -> holds c l = true \/ fr l.
Proof.
  destruct 1; destruct l as [k | |]; cbn; intros X; try discriminate X; try (left; exact X); try (right; assumption); try (left; reflexivity).
  - apply Nat.eqb_eq in X. subst k. right. assumption.
  - apply Nat.eqb_eq in X. subst k. right. assumption.
  - rewrite existsb_app in X. cbn in X. rewrite !Bool.orb_false_r in X. left. exact X.
  - rewrite existsb_app in *. cbn [existsb snd] in *. inversion H; subst; cbn in *; try (left; exact X); try (right; assumption); left;
      try rewrite Bool.orb_true_r; try reflexivity; exact X.
Qed.
Lemma exclusive_step s s' : step s s' -> exclusive (threads s) -> exclusive (threads s').
Proof.
  destruct 1 as [a c cs b d c' cs' d' H]. cbn [threads]. intros X i j ti tj l N Hi Hj Hl.
  rewrite (nth_upd a (c, cs)) in Hi, Hj. destruct (Nat.eqb_spec i (length a)) as [-> | Ni], (Nat.eqb_spec j (length a)) as [-> | Nj]; [contradiction | | |].
  - injection Hi as <-. cbn [fst] in Hl. destruct (holds_new _ _ _ _ _ _ _ _ _ H Hl) as [Hc | Hf].
    + eapply (X (length a) j (c, cs)); [exact N | apply nth_here | exact Hj | exact Hc].
    + apply Hf. eapply nth_error_In, Hj.
  - injection Hj as <-. cbn [fst]. destruct (holds c' l) eqn:Hc'; [| reflexivity]. destruct (holds_new _ _ _ _ _ _ _ _ _ H Hc') as [Hc | Hf].
    + pose proof (X i (length a) ti (c, cs) l N Hi (nth_here _ _ _) Hl) as Y. cbn [fst] in Y. congruence.
    + rewrite (Hf ti (nth_error_In _ _ Hi)) in Hl. discriminate Hl.
  - exact (X i j ti tj l N Hi Hj Hl).
Qed.

(** ** No edit is lost *)
Section Kept.
Variable d0 : bytes -> list E.
Variable calls : list (list call).
Definition made_at (d : data) (p : bytes) : list E := map (fun x => snd (snd x)) (filter (fun x => beq p (fst (snd x))) (made d)).
Definition want (d : data) (p : bytes) : list E := d0 p ++ made_at d p.
Definition path_of (c : pc) : option bytes :=
  match c with
  | EGot p _ | EParsed p _ _ | EReg p _ _ | EHave p _ _ | EEnd p | FGot p | FCommit p | FWrite p _ | FWant p _ | FNote p _ | FText p _ | FOut p | FLast p => Some p
  | _ => None
  end.
Definition writing (c : pc) (p : bytes) : Prop := exists r, c = FWrite p r \/ c = FWant p r \/ c = FNote p r \/ c = FText p r.
Definition registering (c : pc) (p : bytes) : Prop := exists e r, c = EParsed p e r \/ c = EReg p e r.
Definition okpc (d : data) (c : pc) : Prop :=
  match c with
  | EParsed p _ r | EReg p _ r => loaded d p = Some r
  | EHave p _ r => loaded d p = Some r /\ mget p (pending d) = Some r
  | FWrite p r | FWant p r | FNote p r | FText p r => loaded d p = None /\ mget p (pending d) = None /\ (failed d p = false -> heap d p r = want d p)
  | CRun _ _ | COut => False
  | _ => True
  end.
(** What holds at a path, [W]: somebody is writing it, [R]: somebody is registering it. *)
Definition local (d : data) (p : bytes) (W R : Prop) : Prop :=
  (forall r, loaded d p = Some r -> failed d p = false -> heap d p r = want d p) /\
  (forall r, mget p (pending d) = Some r -> loaded d p = Some r) /\
  (loaded d p = None -> ~ W -> failed d p = false -> disk d p = want d p) /\
  (forall r, loaded d p = Some r -> mget p (pending d) = Some r \/ R).
Definition some (Q : pc -> bytes -> Prop) (ts : list (pc * list call)) (p : bytes) : Prop := exists j c cs, nth_error ts j = Some (c, cs) /\ Q c p.
Definition good (s : @state E) : Prop :=
  exclusive (threads s) /\ (forall c cs, In (c, cs) (threads s) -> okpc (shared s) c /\ ~ In CCommit cs) /\
  (forall p, local (shared s) p (some writing (threads s) p) (some registering (threads s) p)).

Lemma local_imp d p (W W' R R' : Prop) : local d p W R -> (W -> W') -> (R -> R') -> local d p W' R'.
Proof. intros (L1 & L2 & L3 & L4) HW HR. split; [exact L1 |]. split; [exact L2 |]. split; [intros; apply L3; tauto |]. intros r Hr. destruct (L4 r Hr); auto. Qed.
Lemma path_stripe c p : path_of c = Some p -> holds c (LFile (stripe p)) = true.
Proof. destruct c; cbn; intros X; try discriminate X; injection X as ->; apply Nat.eqb_refl. Qed.
Lemma writing_path c p : writing c p -> path_of c = Some p.
Proof. intros (r & [-> | [-> | [-> | ->]]]); reflexivity. Qed.
Lemma registering_path c p : registering c p -> path_of c = Some p.
Proof. intros (e & r & [-> | ->]); reflexivity. Qed.

(** Only the goroutine at a path touches what belongs to it. *)
Definition elsewhere (d d' : data) (p : bytes) : Prop := forall q, q <> p ->
  (forall n, heap d' q n = heap d q n) /\ loaded d' q = loaded d q /\ mget q (pending d') = mget q (pending d) /\ disk d' q = disk d q /\ want d' q = want d q /\ failed d' q = failed d q.
Lemma step_at a c cs b d c' cs' d' p : good (State (a ++ (c, cs) :: b) d) ->
  tstep (free (a ++ (c, cs) :: b)) (length a) c cs d c' cs' d' ->
  path_of c = Some p -> (path_of c' = Some p \/ path_of c' = None) ->
  elsewhere d d' p -> ~ In CCommit cs' ->
  (local d p (writing c p) (registering c p) -> okpc d c -> okpc d' c' /\ local d' p (writing c' p) (registering c' p)) ->
  good (State (a ++ (c', cs') :: b) d').
Proof.
  intros (X & O & L) H Pc Pc' El Nc K. cbn [threads shared] in *.
  assert (X' : exclusive (a ++ (c', cs') :: b)) by (apply (exclusive_step (State (a ++ (c, cs) :: b) d) (State (a ++ (c', cs') :: b) d')); [apply st, H | exact X]).
  assert (Oth : forall j t q, j <> length a -> nth_error (a ++ (c, cs) :: b) j = Some t -> path_of (fst t) = Some q -> q <> p).
  { intros j t q Nj Hj Hq ->. pose proof (X (length a) j (c, cs) t (LFile (stripe p)) (fun e => Nj (eq_sym e)) (nth_here _ _ _) Hj (path_stripe c p Pc)) as Y.
    rewrite (path_stripe _ _ Hq) in Y. discriminate Y. }
  assert (Here : forall (Q : pc -> bytes -> Prop), (forall c q, Q c q -> path_of c = Some q) -> some Q (a ++ (c, cs) :: b) p -> Q c p).
  { intros Q HQ (j & cj & csj & Hj & Hq). destruct (Nat.eq_dec j (length a)) as [-> | Nj]; [rewrite nth_here in Hj; injection Hj as -> ->; exact Hq |].
    destruct (Oth j (cj, csj) p Nj Hj (HQ _ _ Hq) eq_refl). }
  destruct (K (local_imp _ _ _ _ _ _ (L p) (Here writing writing_path) (Here registering registering_path)) (proj1 (O c cs ltac:(apply in_or_app; right; left; reflexivity)))) as [Ok' Lp].
  split; [exact X' |]. cbn [threads shared]. split.
  - intros c1 cs1 H1. apply In_nth_error in H1. destruct H1 as (j & Hj). rewrite (nth_upd a (c, cs)) in Hj.
    destruct (Nat.eqb_spec j (length a)) as [_ | Nj]; [injection Hj; intros <- <-; split; assumption |].
    destruct (O c1 cs1 (nth_error_In _ _ Hj)) as [O1 O2]. split; [| exact O2].
    pose proof (fun q => Oth j (c1, cs1) q Nj Hj) as Np. cbn [fst] in Np.
    destruct c1; cbn [okpc path_of] in *; auto; specialize (Np p0 eq_refl); destruct (El _ Np) as (E1 & E2 & E3 & E4 & E5 & E6);
      rewrite ?E1, ?E2, ?E3, ?E5, ?E6; exact O1.
  - intros q. destruct (bytes_eq_dec q p) as [-> | Nq].
    + eapply local_imp; [exact Lp | |]; intros Y; exists (length a), c', cs'; (split; [apply nth_here | exact Y]).
    + destruct (El q Nq) as (E1 & E2 & E3 & E4 & E5 & E6). destruct (L q) as (L1 & L2 & L3 & L4).
      assert (Keep : forall (Q : pc -> bytes -> Prop), (forall c q, Q c q -> path_of c = Some q) -> some Q (a ++ (c, cs) :: b) q -> some Q (a ++ (c', cs') :: b) q).
      { intros Q HQ (j & cj & csj & Hj & Hq). exists j, cj, csj. split; [| exact Hq]. rewrite (nth_upd a (c, cs)). destruct (Nat.eqb_spec j (length a)) as [-> | _]; [| exact Hj].
        rewrite nth_here in Hj. injection Hj as -> ->. apply HQ in Hq. congruence. }
      split; [intros r; rewrite E2, E1, E5, E6; apply L1 |]. split; [intros r; rewrite E2, E3; apply L2 |].
      split; [rewrite E2, E4, E5, E6; intros Y1 Y2 Y3; apply L3; [exact Y1 | intros Y4; apply Y2, (Keep writing writing_path), Y4 | exact Y3] |].
      intros r. rewrite E2, E3. intros Y. destruct (L4 r Y) as [Z | Z]; [left; exact Z | right; apply (Keep registering registering_path), Z].
Qed.
Lemma step_idle a c cs b d c' cs' : good (State (a ++ (c, cs) :: b) d) ->
  tstep (free (a ++ (c, cs) :: b)) (length a) c cs d c' cs' d ->
  (forall q, ~ writing c q) -> (forall q, ~ registering c q) -> okpc d c' -> ~ In CCommit cs' -> good (State (a ++ (c', cs') :: b) d).
Proof.
  intros (X & O & L) H Nw Nr Ok Nc. cbn [threads shared] in *. split; [| split]; cbn [threads shared].
  - apply (exclusive_step (State (a ++ (c, cs) :: b) d) (State (a ++ (c', cs') :: b) d)); [apply st, H | exact X].
  - intros c1 cs1 H1. apply in_app_or in H1. destruct H1 as [H1 | [H1 | H1]]; [apply O, in_or_app; left; exact H1 | injection H1 as <- <-; split; assumption | apply O, in_or_app; right; right; exact H1].
  - intros q. eapply local_imp; [apply L | |]; intros (j & cj & csj & Hj & Hq); exists j, cj, csj; (split; [| exact Hq]); rewrite (nth_upd a (c, cs));
      (destruct (Nat.eqb_spec j (length a)) as [-> | _]; [| exact Hj]); rewrite nth_here in Hj; injection Hj as -> ->; [destruct (Nw q Hq) | destruct (Nr q Hq)].
Qed.

Lemma elsewhere_refl d p : elsewhere d d p.
Proof. intros q _. repeat split. Qed.
Lemma want_edited d i p e r q : want (edited d i p e r) q = if beq q p then want d q ++ [e] else want d q.
Proof.
  unfold want, made_at, edited. cbn [made]. rewrite filter_app, map_app, app_assoc. cbn [filter fst snd].
  destruct (beq q p); cbn [map snd]; [reflexivity | apply app_nil_r].
Qed.
Lemma at_path_other {A} (f : bytes -> A) p x q : q <> p -> at_path f p x q = f q.
Proof. intros N. unfold at_path. destruct (beq_spec q p) as [-> |]; [contradiction | reflexivity]. Qed.
Lemma at_path_same {A} (f : bytes -> A) p x : at_path f p x p = x.
Proof. unfold at_path. rewrite beq_refl. reflexivity. Qed.

Lemma good_step s s' : step s s' -> good s -> good s'.
Proof.
  intros H. destruct H as [a c cs b d c' cs' d' H]. intros G.
  assert (Nc : ~ In CCommit cs /\ okpc d c) by (destruct G as (_ & O & _); destruct (O c cs ltac:(apply in_or_app; right; left; reflexivity)); auto). destruct Nc as [Nc Okc].
  assert (Nw : forall c : pc, path_of c = None -> (forall q, ~ writing c q) /\ forall q, ~ registering c q).
  { intros c1 N. split; intros q Y; [apply writing_path in Y | apply registering_path in Y]; congruence. }
  inversion H; subst; try contradiction.
  - apply (step_idle _ _ _ _ _ _ _ G H); [apply (Nw Idle eq_refl) | apply (Nw Idle eq_refl) | exact I | intros Y; apply Nc; right; exact Y].
  - apply (step_at _ _ _ _ _ _ _ _ p G H); [reflexivity | left; reflexivity | apply elsewhere_refl | exact Nc |].
    intros L _. destruct L as (L1 & L2 & L3 & L4). assert (Hp : mget p (pending d') = Some r) by (destruct (L4 r H0) as [Y | (e' & r' & [Y | Y])]; [exact Y | discriminate | discriminate]).
    split; [split; assumption |]. split; [exact L1 |]. split; [exact L2 |]. split; [intros Y; congruence |]. intros r' Hr'. left. congruence.
  - apply (step_at _ _ _ _ _ _ _ _ p G H); [reflexivity | left; reflexivity | | exact Nc |].
    { intros q Nq. unfold parsed, want, made_at. cbn. rewrite !at_path_other by exact Nq. repeat split. }
    intros (L1 & L2 & L3 & L4) _. assert (Np : mget p (pending d) = None) by (destruct (mget p (pending d)) as [r |]; [specialize (L2 r eq_refl); congruence | reflexivity]).
    split; [cbn; apply at_path_same |]. unfold local, parsed, want, made_at. cbn. rewrite !at_path_same. rewrite Np. split; [| split; [discriminate | split; [discriminate |]]].
    + intros r Y Yf. injection Y as <-. rewrite Nat.eqb_refl. apply L3; [assumption | intros (r & [Y | [Y | [Y | Y]]]); discriminate Y | exact Yf].
    + intros r Y. right. injection Y as <-. do 2 eexists. left. reflexivity.
  - apply (step_at _ _ _ _ _ _ _ _ p G H); [reflexivity | left; reflexivity | apply elsewhere_refl | exact Nc |].
    intros (L1 & L2 & L3 & L4) Ok. split; [exact Ok |]. split; [exact L1 |]. split; [exact L2 |]. split; [intros Y; cbn in Ok; congruence |].
    intros r' Hr'. right. do 2 eexists. right. reflexivity.
  - apply (step_at _ _ _ _ _ _ _ _ p G H); [reflexivity | left; reflexivity | | exact Nc |].
    { intros q Nq. unfold registered, want, made_at. cbn. rewrite mget_mset_other by exact Nq. repeat split. }
    intros (L1 & L2 & L3 & L4) Ok. cbn [okpc] in Ok. split; [cbn; rewrite mget_mset_same; split; [exact Ok | reflexivity] |].
    unfold local, registered. cbn. rewrite mget_mset_same. split; [exact L1 |]. split; [intros r' Y; injection Y as <-; exact Ok |]. split; [intros Y; congruence |].
    intros r' Y. left. congruence.
  - apply (step_at _ _ _ _ _ _ _ _ p G H); [reflexivity | left; reflexivity | | exact Nc |].
    { intros q Nq. rewrite want_edited. unfold edited. cbn. rewrite !at_path_other by exact Nq. destruct (beq_spec q p); [contradiction |]. repeat split. }
    intros (L1 & L2 & L3 & L4) Ok. cbn [okpc] in Ok. destruct Ok as [O1 O2]. split; [exact I |]. unfold local. rewrite want_edited, beq_refl. unfold edited. cbn. rewrite at_path_same, O1, O2.
    split; [intros r' Y Yf; injection Y as <-; rewrite Nat.eqb_refl, (L1 r O1 Yf); reflexivity |]. split; [auto |]. split; [discriminate | auto].
  - apply (step_idle _ _ _ _ _ _ _ G H); [intros q (r & [Y | [Y | [Y | Y]]]); discriminate Y | intros q (e & r & [Y | Y]); discriminate Y | exact I | exact Nc].
  - apply (step_idle _ _ _ _ _ _ _ G H); [apply (Nw Idle eq_refl) | apply (Nw Idle eq_refl) | exact I | intros Y; apply Nc; right; exact Y].
  - apply (step_idle _ _ _ _ _ _ _ G H); [intros q (r & [Y | [Y | [Y | Y]]]); discriminate Y | intros q (e & r & [Y | Y]); discriminate Y | exact I | exact Nc].
  - apply (step_at _ _ _ _ _ _ _ _ p G H); [reflexivity | left; reflexivity | | exact Nc |].
    { intros q Nq. unfold taken, want, made_at. cbn. rewrite mget_mdel, !at_path_other by exact Nq. destruct (beq_spec q p); [contradiction |]. repeat split. }
    intros (L1 & L2 & L3 & L4) _. unfold local. cbn. rewrite mget_mdel, beq_refl, !at_path_same. split; [split; [reflexivity |]; split; [reflexivity |]; intros Y; apply (L1 r (L2 r H0) Y) |].
    split; [discriminate |]. split; [discriminate |]. split; [| discriminate]. intros _ Y. destruct Y. exists r. left. reflexivity.
  - apply (step_idle _ _ _ _ _ _ _ G H); [intros q (r & [Y | [Y | [Y | Y]]]); discriminate Y | intros q (e & r & [Y | Y]); discriminate Y | exact I | exact Nc].
  - apply (step_at _ _ _ _ _ _ _ _ p G H); [reflexivity | left; reflexivity | apply elsewhere_refl | exact Nc |].
    intros (L1 & L2 & L3 & L4) Ok. split; [exact Ok |]. cbn [okpc] in Ok. destruct Ok as (O1 & O2 & O3). split; [exact L1 |]. split; [exact L2 |]. split; [intros _ Y; destruct Y; exists r; auto |]. intros r' Y. congruence.
  - apply (step_at _ _ _ _ _ _ _ _ p G H); [reflexivity | left; reflexivity | apply elsewhere_refl | exact Nc |].
    intros (L1 & L2 & L3 & L4) Ok. split; [exact Ok |]. cbn [okpc] in Ok. destruct Ok as (O1 & O2 & O3). split; [exact L1 |]. split; [exact L2 |]. split; [intros _ Y; destruct Y; exists r; auto |]. intros r' Y. congruence.
  - apply (step_at _ _ _ _ _ _ _ _ p G H); [reflexivity | left; reflexivity | apply elsewhere_refl | exact Nc |].
    intros (L1 & L2 & L3 & L4) Ok. split; [exact Ok |]. cbn [okpc] in Ok. destruct Ok as (O1 & O2 & O3). split; [exact L1 |]. split; [exact L2 |]. split; [intros _ Y; destruct Y; exists r; auto |]. intros r' Y. congruence.
  - apply (step_at _ _ _ _ _ _ _ _ p G H); [reflexivity | left; reflexivity | | exact Nc |].
    { intros q Nq. unfold broken, want, made_at. cbn. rewrite !at_path_other by exact Nq. repeat split. }
    intros (L1 & L2 & L3 & L4) Ok. cbn [okpc] in Ok. destruct Ok as (O1 & O2 & O3). split; [exact I |]. unfold local, broken. cbn. rewrite O1, !at_path_same. split; [discriminate |]. split; [intros r' Y; congruence |]. split; [discriminate | discriminate].
  - apply (step_at _ _ _ _ _ _ _ _ p G H); [reflexivity | left; reflexivity | apply elsewhere_refl | exact Nc |].
    intros (L1 & L2 & L3 & L4) Ok. split; [exact Ok |]. cbn [okpc] in Ok. destruct Ok as (O1 & O2 & O3). split; [exact L1 |]. split; [exact L2 |]. split; [intros _ Y; destruct Y; exists r; auto |]. intros r' Y. congruence.
  - apply (step_at _ _ _ _ _ _ _ _ p G H); [reflexivity | left; reflexivity | | exact Nc |].
    { intros q Nq. unfold written, want, made_at. cbn. rewrite !at_path_other by exact Nq. repeat split. }
    intros (L1 & L2 & L3 & L4) Ok. cbn [okpc] in Ok. destruct Ok as (O1 & O2 & O3). split; [exact I |]. unfold local, written. cbn. rewrite O1, at_path_same. split; [discriminate |]. split; [intros r' Y; congruence |].
    split; [intros _ _ Y; exact (O3 Y) | discriminate].
  - apply (step_at _ _ _ _ _ _ _ _ p G H); [reflexivity | left; reflexivity | | exact Nc |].
    { intros q Nq. unfold broken, want, made_at. cbn. rewrite !at_path_other by exact Nq. repeat split. }
    intros (L1 & L2 & L3 & L4) Ok. cbn [okpc] in Ok. destruct Ok as (O1 & O2 & O3). split; [exact I |]. unfold local, broken. cbn. rewrite O1, !at_path_same. split; [discriminate |]. split; [intros r' Y; congruence |]. split; [discriminate | discriminate].
  - apply (step_idle _ _ _ _ _ _ _ G H); [intros q (r & [Y | [Y | [Y | Y]]]); discriminate Y | intros q (e & r & [Y | Y]); discriminate Y | exact I | exact Nc].
  - apply (step_idle _ _ _ _ _ _ _ G H); [intros q (r & [Y | [Y | [Y | Y]]]); discriminate Y | intros q (e & r & [Y | Y]); discriminate Y | exact I | exact Nc].
  - destruct Nc. left. reflexivity.
  - apply (step_idle _ _ _ _ _ _ _ G H); [apply (Nw Idle eq_refl) | apply (Nw Idle eq_refl) | exact I | intros Y; apply Nc; right; exact Y].
  - apply (step_idle _ _ _ _ _ _ _ G H); [apply (Nw NGot eq_refl) | apply (Nw NGot eq_refl) | exact I | exact Nc].
Qed.

Lemma good_start : ~ In CCommit (concat calls) -> good (start d0 calls).
Proof.
  intros N. unfold start, good. cbn [threads shared]. split; [| split].
  - intros i j ti tj l Nij Hi Hj Hl. apply nth_error_In in Hi. apply in_map_iff in Hi. destruct Hi as (cs & <- & _). destruct l; discriminate Hl.
  - intros c cs H. apply in_map_iff in H. destruct H as (cs1 & Y & Hin). injection Y as <- <-. split; [exact I |]. intros K. apply N, in_concat. eauto.
  - intros p. unfold local, want, made_at. cbn. rewrite app_nil_r. split; [discriminate |]. split; [discriminate |]. split; [reflexivity | discriminate].
Qed.

(** ** Every edit is followed by a CommitFile *)
Definition to_come (t : pc * list call) (p : bytes) : Prop := In (CCommitFile p) (snd t) \/ fst t = FGot p \/ fst t = FCommit p.
Definition promised (s : @state E) : Prop :=
  (forall c cs, In (c, cs) (threads s) -> followed cs /\ forall p e, c = EGot p e -> In (CCommitFile p) cs) /\
  (forall p, loaded (shared s) p <> None -> exists j t, nth_error (threads s) j = Some t /\ to_come t p).
Lemma promised_step s s' : step s s' -> good s -> promised s -> promised s'.
Proof.
  intros H. destruct H as [a c cs b d c' cs' d' H]. intros (X & O & L) [F P]. cbn [threads shared] in *.
  set (fr := free (a ++ (c, cs) :: b)) in H. clearbody fr.
  destruct (F c cs ltac:(apply in_or_app; right; left; reflexivity)) as [Fc Fe]. destruct (O c cs ltac:(apply in_or_app; right; left; reflexivity)) as [Oc Nc].
  assert (K1 : followed cs' /\ forall p e, c' = EGot p e -> In (CCommitFile p) cs').
  { destruct H; cbn [followed] in Fc; try (split; [first [exact Fc | exact (proj2 Fc)] | intros; discriminate]).
    destruct Fc as [Fc1 Fc2]. split; [exact Fc2 |]. intros q e0 Y. injection Y as <- <-. exact Fc1. }
  assert (K2 : forall p, loaded d' p <> None -> loaded d p <> None \/ to_come (c', cs') p).
  { intros q. destruct H; cbn [parsed registered edited taken written broken cleared loaded]; try (intros Y; left; exact Y); try contradiction.
    - unfold at_path. destruct (beq_spec q p) as [-> |]; [| auto]. intros _. right. left. exact (Fe p e eq_refl).
    - unfold at_path. destruct (beq_spec q p) as [-> |]; [congruence | auto]. }
  assert (K3 : forall p, loaded d' p <> None -> to_come (c, cs) p -> to_come (c', cs') p).
  { intros q Hq T. unfold to_come in *. cbn [fst snd] in *. destruct H; cbn [In] in T;
      try (destruct T as [T | [T | T]]; [left; exact T | discriminate T | discriminate T]);
      try (destruct T as [[T | T] | [T | T]]; [discriminate T | left; exact T | discriminate T | discriminate T]).
    - destruct T as [[T | T] | [T | T]]; try discriminate T; [injection T as ->; auto | auto].
    - destruct T as [T | [T | T]]; try discriminate T; [auto | injection T as ->; auto].
    - destruct T as [T | [T | T]]; try discriminate T; [auto |]. injection T as ->. exfalso. apply Hq. cbn. apply at_path_same.
    - destruct T as [T | [T | T]]; try discriminate T; [auto |]. injection T as ->. exfalso. destruct (loaded d q) as [r |] eqn:Er; [| congruence].
      destruct (L q) as (_ & _ & _ & L4). destruct (L4 r Er) as [Y | (j & cj & csj & Hj & Hr)]; [congruence |].
      destruct (Nat.eq_dec j (length a)) as [Ej | Nj]; [subst j; rewrite nth_here in Hj; injection Hj as <- <-; destruct Hr as (e & r' & [Y | Y]); discriminate Y |].
      pose proof (X (length a) j _ _ (LFile (stripe q)) (fun e => Nj (eq_sym e)) (nth_here _ _ _) Hj (Nat.eqb_refl _)) as Y. cbn [fst] in Y.
      rewrite (path_stripe _ _ (registering_path _ _ Hr)) in Y. discriminate Y. }
  split; cbn [threads shared].
  - intros c1 cs1 H1. apply in_app_or in H1. destruct H1 as [H1 | [H1 | H1]]; [apply F, in_or_app; left; exact H1 | injection H1 as <- <-; exact K1 | apply F, in_or_app; right; right; exact H1].
  - intros p Hp. destruct (K2 p Hp) as [Hl | Hl]; [| exists (length a), (c', cs'); split; [apply nth_here | exact Hl]].
    destruct (P p Hl) as (j & t & Hj & Ht). destruct (Nat.eq_dec j (length a)) as [Ej | Nj].
    + subst j. rewrite nth_here in Hj. injection Hj as <-. exists (length a), (c', cs'). split; [apply nth_here | exact (K3 p Hp Ht)].
    + exists j, t. split; [| exact Ht]. rewrite (nth_upd a (c, cs)). destruct (Nat.eqb_spec j (length a)); [contradiction | exact Hj].
Qed.
Lemma promised_start : Forall followed calls -> promised (start d0 calls).
Proof.
  intros F. split; cbn [threads shared start].
  - intros c cs H. apply in_map_iff in H. destruct H as (cs1 & Y & Hin). injection Y as <- <-. rewrite Forall_forall in F. split; [exact (F _ Hin) | discriminate].
  - intros p Hp. destruct Hp. reflexivity.
Qed.

(** ** Who made which edits *)
Definition doing (c : pc) : list (bytes * E) := match c with EGot p e | EParsed p e _ | EReg p e _ | EHave p e _ => [(p, e)] | _ => [] end.
Lemma tstep_made fr i c cs d c' cs' d' : tstep fr i c cs d c' cs' d' ->
  exists n, made d' = made d ++ map (pair i) n /\ doing c ++ edits_of cs = n ++ doing c' ++ edits_of cs'.
Proof.
  destruct 1; try (exists []; cbn; rewrite app_nil_r; split; reflexivity).
  - exists [(p, e)]. split; reflexivity.
  - exists []. cbn. rewrite app_nil_r. split; [| reflexivity]. destruct H; reflexivity.
Qed.
Definition accounted (s : @state E) : Prop := length (threads s) = length calls /\ forall i c cs, nth_error (threads s) i = Some (c, cs) ->
  exists cs0, nth_error calls i = Some cs0 /\ edits_of cs0 = made_by s i ++ doing c ++ edits_of cs.
Lemma accounted_step s s' : step s s' -> accounted s -> accounted s'.
Proof.
  intros H. destruct H as [a c cs b d c' cs' d' H]. intros [Al A]. destruct (tstep_made _ _ _ _ _ _ _ _ H) as (n & Em & Ed). split; [cbn [threads] in *; rewrite app_length in *; exact Al |].
  cbn [threads] in *. intros i c1 cs1 Hi. rewrite (nth_upd a (c, cs)) in Hi. unfold made_by. cbn [shared]. rewrite Em, flat_map_app.
  destruct (Nat.eqb_spec i (length a)) as [Ei | Ni].
  - injection Hi as <- <-. subst i. destruct (A (length a) c cs (nth_here _ _ _)) as (cs0 & H0 & H1). exists cs0. split; [exact H0 |]. rewrite H1, Ed, <- app_assoc. f_equal. f_equal.
    clear. induction n as [| x n IH]; [reflexivity |]. cbn. rewrite Nat.eqb_refl. cbn. f_equal. exact IH.
  - destruct (A i c1 cs1 Hi) as (cs0 & H0 & H1). exists cs0. split; [exact H0 |]. rewrite H1. unfold made_by. cbn [shared]. rewrite <- app_assoc. f_equal.
    replace (flat_map _ (map (pair (length a)) n)) with (@nil (bytes * E)); [reflexivity |]. clear - Ni. induction n as [| x n IH]; [reflexivity |]. cbn. destruct (Nat.eqb_spec i (length a)); [contradiction | exact IH].
Qed.
Lemma accounted_start : accounted (start d0 calls).
Proof.
  split; [cbn; apply map_length |]. cbn [start threads]. intros i c cs Hi. rewrite nth_error_map in Hi. destruct (nth_error calls i) as [cs0 |] eqn:E0; [| discriminate Hi].
  injection Hi as <- <-. exists cs0. split; reflexivity.
Qed.
End Kept.
Lemma steps_inv (I : @state E -> Prop) : (forall s s', step s s' -> I s -> I s') -> forall s s', steps s s' -> I s -> I s'.
Proof. intros K s s' H. induction H as [s | s1 s2 s3 _ IH H]; intros H0; [exact H0 | exact (K _ _ H (IH H0))]. Qed.
End Locks.
