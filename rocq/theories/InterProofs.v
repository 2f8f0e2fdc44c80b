(** Proofs for C96: a goroutine works on its own files only, so every interleaving ends as some sequence of whole calls. *)
From Coq Require Import Permutation.
From Verif Require Import Base Maps FsModel ModifierModel GoModProps ModifierProps PointIdProps InterModel InterSpec.

(** The paths a goroutine looks at or writes. *)
Definition foot (j : job) (q : bytes) : Prop := match j with JClient d _ _ => glob_match d q | JFile p _ => q = p \/ q = bkp p end.
(** The paths it may write. *)
Definition writes (j : job) (q : bytes) : Prop :=
  match j with JClient d _ _ => q = client_file d \/ q = api_file d | JFile p _ => q = p \/ q = bkp p end.
Lemma writes_foot j q : writes j q -> foot j q.
Proof. destruct j; cbn [writes foot]; [intros [-> | ->]; [apply client_matches | apply api_matches] | auto]. Qed.
Definition same_on (P : bytes -> Prop) (f g : fsys) : Prop := forall q, P q -> f q = g q.

Lemma same_refl P f : same_on P f f. Proof. intros q _. reflexivity. Qed.
Lemma same_sym P f g : same_on P f g -> same_on P g f. Proof. intros H q Hq. symmetry. apply H, Hq. Qed.
Lemma same_trans P f g h : same_on P f g -> same_on P g h -> same_on P f h. Proof. intros A B0 q Hq. rewrite (A q Hq). apply B0, Hq. Qed.
Lemma put_same P f g p m c : same_on P f g -> P p -> regular f p -> same_on P (put f p m c) (put g p m c).
Proof.
  intros S0 Pp R q Hq. assert (R' : regular g p) by (apply (regular_ext f); [apply S0, Pp | exact R]).
  rewrite (put_regular f p m c R), (put_regular g p m c R'), (S0 p Pp). destruct (beq q p); [reflexivity | apply S0, Hq].
Qed.
Lemma put_put P f p m c c' : regular f p -> same_on P (put (put f p m c) p m c') (put f p m c').
Proof.
  intros R q _. assert (Ep : put f p m c p = Some (NFile (match f p with Some (NFile m' _) => m' | _ => m end) c)).
  { rewrite (put_regular f p m c R). destruct (beq_spec p p); [reflexivity | congruence]. }
  assert (R' : regular (put f p m c) p) by (unfold regular; rewrite Ep; exact I).
  rewrite (put_regular _ p m c' R'), Ep, !(put_regular f p m _ R). destruct (beq q p); reflexivity.
Qed.
Lemma put_off f p m c q : regular f p -> q <> p -> put f p m c q = f q.
Proof. intros R N. rewrite (put_regular f p m c R). destruct (beq_spec q p); [contradiction | reflexivity]. Qed.
Lemma put_keeps f p m c q : regular f p -> regular f q -> regular (put f p m c) q.
Proof. intros R Q. unfold regular at 1. rewrite (put_regular f p m c R). destruct (beq q p); [exact I | exact Q]. Qed.

(** What is known of a goroutine that is at [x], has added [b], and whose paths are as in [f]. *)
Definition upto (um : N) (f0 : fsys) (j : job) (x : pc) (b : list action) (f : fsys) : Prop :=
  let F := foot j in
  match j with
  | JClient d ct at_ =>
    let nothing := forall q, glob_match d q -> f0 q = None in
    let g := put f0 (client_file d) 420 ct in
    match x with
    | Todo => b = [] /\ same_on F f f0
    | Absent => b = [] /\ nothing /\ same_on F f f0
    | ClientPart => b = [] /\ nothing /\ exists part, same_on F f (put f0 (client_file d) 420 part)
    | ClientThere => b = [] /\ nothing /\ same_on F f g
    | ApiPart => b = [] /\ nothing /\ exists part, same_on F f (put g (api_file d) 420 part)
    | ApiThere => b = [] /\ nothing /\ same_on F f (put g (api_file d) 420 at_)
    | Ended (OClient o) => exists f1, inject d ct at_ f0 [] f1 b o /\ same_on F f f1
    | _ => False
    end
  | JFile p t =>
    let missing := file_exists f0 (bkp p) = false in
    match x with
    | Todo => b = [] /\ same_on F f f0
    | NoBackup => b = [] /\ missing /\ same_on F f f0
    | BackupPart => b = [] /\ missing /\ exists part, same_on F f (put f0 (bkp p) um part)
    | BackupThere => b = [] /\ missing /\ exists f1, copy_file um f0 p (bkp p) f1 true /\ same_on F f f1
    | Ready => exists f1, backup_file um p f0 [] f1 b WDone /\ regular f1 p /\ same_on F f f1
    | TextPart => exists f1 part, backup_file um p f0 [] f1 b WDone /\ regular f1 p /\ same_on F f (put f1 p 420 part)
    | Ended (OFile o) => exists f1, write_pending um p t f0 [] f1 b o /\ same_on F f f1
    | _ => False
    end
  end.

Lemma exists_same P f g p : same_on P f g -> P p -> regular f p -> file_exists f p = file_exists g p.
Proof.
  intros S0 Pp R. assert (R' : regular g p) by (apply (regular_ext f); [apply S0, Pp | exact R]).
  unfold file_exists. rewrite (regular_resolve _ _ R), (regular_resolve _ _ R'), (S0 p Pp). reflexivity.
Qed.

Section One.
Variables (um : N) (f0 : fsys) (j : job).
Hypothesis R0 : forall q, foot j q -> regular f0 q.
Hypothesis File0 : forall p t, j = JFile p t -> exists m c, f0 p = Some (NFile m c).

Lemma tstep_foot x f x' f' new : tstep um j x f x' f' new -> (forall q, foot j q -> regular f q) ->
  (forall q, ~ writes j q -> f' q = f q) /\ (forall q, foot j q -> regular f' q).
Proof.
  clear. intros H R.
  assert (K : forall p m c, writes j p -> (forall q, ~ writes j q -> put f p m c q = f q) /\ forall q, foot j q -> regular (put f p m c) q).
  { intros p m c Hp. pose proof (writes_foot _ _ Hp) as Fp. split; [intros q Hq; apply put_off; [apply R, Fp | intros ->; exact (Hq Hp)] | intros q Hq; apply put_keeps; apply R; assumption]. }
  destruct H; try (split; [reflexivity | exact R]);
    try (apply K; first [left; reflexivity | right; reflexivity]).
  exfalso. specialize (R p (or_introl eq_refl)). unfold regular in R. rewrite H in R. exact R.
Qed.

Lemma tstep_upto x f x' f' new b : tstep um j x f x' f' new -> (forall q, foot j q -> regular f q) -> upto um f0 j x b f -> upto um f0 j x' (b ++ new) f'.
Proof using R0 File0.
  intros H R U. destruct H; cbn [upto] in *; cbn [foot] in *.
  - (* have *) destruct U as [-> S0]. exists f0. split; [| exact S0]. apply (in_have _ _ _ _ _ q); [assumption |]. rewrite <- (S0 q); assumption.
  - destruct U as [-> S0]. split; [reflexivity |]. split; [| exact S0]. intros q Hq. rewrite <- (S0 q Hq). auto.
  - destruct U as (-> & N0 & S0). exists f0. split; [apply in_fail | exact S0].
  - (* client part *) assert (Q : b = [] /\ (forall q, glob_match d q -> f0 q = None)) by (destruct H; subst x; tauto). destruct Q as [-> N0].
    split; [reflexivity |]. split; [exact N0 |]. exists part. destruct H; subst x.
    + apply put_same; [apply U | apply client_matches | apply R, client_matches].
    + destruct U as (_ & _ & p0 & S0). eapply same_trans; [apply put_same; [exact S0 | apply client_matches | apply R, client_matches] |].
      apply put_put, R0, client_matches.
  - destruct H; subst x.
    + destruct U as (-> & N0 & S0). exists f0. split; [apply in_client; [exact N0 | apply wf_fail] | exact S0].
    + destruct U as (-> & N0 & p0 & S0). eexists. split; [apply in_client; [exact N0 | apply (wf_part _ _ _ _ p0)] | exact S0].
  - assert (Q : b = [] /\ (forall q, glob_match d q -> f0 q = None)) by (destruct H; subst x; tauto). destruct Q as [-> N0].
    split; [reflexivity |]. split; [exact N0 |]. destruct H; subst x.
    + apply put_same; [apply U | apply client_matches | apply R, client_matches].
    + destruct U as (_ & _ & p0 & S0). eapply same_trans; [apply put_same; [exact S0 | apply client_matches | apply R, client_matches] |].
      apply put_put, R0, client_matches.
  - assert (Q : b = [] /\ (forall q, glob_match d q -> f0 q = None)) by (destruct H; subst x; tauto). destruct Q as [-> N0].
    split; [reflexivity |]. split; [exact N0 |]. exists part. destruct H; subst x.
    + apply put_same; [apply U | apply api_matches | apply R, api_matches].
    + destruct U as (_ & _ & p0 & S0). eapply same_trans; [apply put_same; [exact S0 | apply api_matches | apply R, api_matches] |].
      apply put_put, put_keeps; apply R0; [apply client_matches | apply api_matches].
  - destruct H; subst x.
    + destruct U as (-> & N0 & S0). eexists. split; [eapply in_api; [exact N0 | apply wf_ok | apply wf_fail] | exact S0].
    + destruct U as (-> & N0 & p0 & S0). eexists. split; [eapply in_api; [exact N0 | apply wf_ok | apply (wf_part _ _ _ _ p0)] | exact S0].
  - assert (Q : b = [] /\ (forall q, glob_match d q -> f0 q = None)) by (destruct H; subst x; tauto). destruct Q as [-> N0].
    split; [reflexivity |]. split; [exact N0 |]. destruct H; subst x.
    + apply put_same; [apply U | apply api_matches | apply R, api_matches].
    + destruct U as (_ & _ & p0 & S0). eapply same_trans; [apply put_same; [exact S0 | apply api_matches | apply R, api_matches] |].
      apply put_put, put_keeps; apply R0; [apply client_matches | apply api_matches].
  - destruct U as (-> & N0 & S0). eexists. split; [eapply in_done; [exact N0 | apply wf_ok | apply wf_ok] | exact S0].
  - destruct U as [-> S0]. exists f0. split; [apply wp_format | exact S0].
  - destruct U as [-> S0]. exists f0. split; [apply bf_have; rewrite <- (exists_same _ _ _ (bkp p) S0); [assumption | right; reflexivity | apply R; right; reflexivity] |].
    split; [apply R0; left; reflexivity | exact S0].
  - destruct U as [-> S0]. split; [reflexivity |]. split; [| exact S0]. rewrite <- (exists_same _ _ _ (bkp p) S0); [assumption | right; reflexivity | apply R; right; reflexivity].
  - destruct U as (-> & M & S0). exists f0. split; [| exact S0]. apply wp_backup; [discriminate | apply bf_fail; exact M].
  - exfalso. specialize (R p (or_introl eq_refl)). unfold regular in R. rewrite H in R. exact R.
  - assert (Q : b = [] /\ file_exists f0 (bkp p) = false) by (destruct H; subst x; tauto). destruct Q as [-> M].
    split; [reflexivity |]. split; [exact M |]. exists part. destruct H; subst x.
    + apply put_same; [apply U | right; reflexivity | apply R; right; reflexivity].
    + destruct U as (_ & _ & p0 & S0). eapply same_trans; [apply put_same; [exact S0 | right; reflexivity | apply R; right; reflexivity] |].
      apply put_put, R0; right; reflexivity.
  - destruct U as (-> & M & p0 & S0). eexists. split; [| exact S0]. destruct (File0 p t eq_refl) as (m & c & E0).
    apply wp_backup; [discriminate |]. apply bf_part; [exact M |]. eapply cp_part; [exact E0 |].
    rewrite regular_resolve by (apply R0; right; reflexivity). intros E. exact (self_bkp p (eq_sym E)).
  - assert (Q : b = [] /\ file_exists f0 (bkp p) = false) by (destruct H; subst x; tauto). destruct Q as [-> M].
    split; [reflexivity |]. split; [exact M |].
    assert (Ep : f0 p = Some (NFile m c)).
    { destruct H; subst x.
      - destruct U as (_ & _ & S0). rewrite <- (S0 p (or_introl eq_refl)). assumption.
      - destruct U as (_ & _ & p0 & S0). rewrite <- (put_off f0 (bkp p) um p0 p); [| apply R0; right; reflexivity | apply self_bkp].
        rewrite <- (S0 p (or_introl eq_refl)). assumption. }
    exists (put f0 (bkp p) um c). split.
    + eapply cp_ok; [exact Ep |]. rewrite regular_resolve by (apply R0; right; reflexivity). intros E. exact (self_bkp p (eq_sym E)).
    + destruct H; subst x.
      * apply put_same; [apply U | right; reflexivity | apply R; right; reflexivity].
      * destruct U as (_ & _ & p0 & S0). eapply same_trans; [apply put_same; [exact S0 | right; reflexivity | apply R; right; reflexivity] |].
        apply put_put, R0; right; reflexivity.
  - destruct U as (-> & M & f1 & C & S0). exists f1. split; [eapply bf_made; eassumption |]. split; [| exact S0].
    apply (regular_ext f); [apply S0; left; reflexivity | apply R; left; reflexivity].
  - rewrite app_nil_r. destruct H; subst x.
    + destruct U as (f1 & K & R1 & S0). exists f1, part. split; [exact K |]. split; [exact R1 |]. apply put_same; [exact S0 | left; reflexivity | apply R; left; reflexivity].
    + destruct U as (f1 & p0 & K & R1 & S0). exists f1, part. split; [exact K |]. split; [exact R1 |].
      eapply same_trans; [apply put_same; [exact S0 | left; reflexivity | apply R; left; reflexivity] | apply put_put, R1].
  - rewrite app_nil_r. destruct H; subst x.
    + destruct U as (f1 & K & R1 & S0). exists f1. split; [apply (wp_write _ _ _ _ _ _ _ _ false K (wf_fail _ _ _ _)) | exact S0].
    + destruct U as (f1 & p0 & K & R1 & S0). eexists. split; [apply (wp_write _ _ _ _ _ _ _ _ false K (wf_part _ _ _ _ p0)) | exact S0].
  - rewrite app_nil_r. destruct H; subst x.
    + destruct U as (f1 & K & R1 & S0). eexists. split; [apply (wp_write _ _ _ _ _ _ _ _ true K (wf_ok _ _ _ _)) |]. apply put_same; [exact S0 | left; reflexivity | apply R; left; reflexivity].
    + destruct U as (f1 & p0 & K & R1 & S0). eexists. split; [apply (wp_write _ _ _ _ _ _ _ _ true K (wf_ok _ _ _ _)) |].
      eapply same_trans; [apply put_same; [exact S0 | left; reflexivity | apply R; left; reflexivity] | apply put_put, R1].
Qed.

(** A step that adds an action is the first to do so. *)
Lemma tstep_new x f x' f' new b : tstep um j x f x' f' new -> upto um f0 j x b f -> new = [] \/ b = [].
Proof. clear. intros H U. destruct H; try (left; reflexivity); right; cbn [upto] in U; apply U. Qed.

(** What another goroutine writes elsewhere does not matter. *)
Lemma upto_other x b f f' : upto um f0 j x b f -> (forall q, foot j q -> f' q = f q) -> upto um f0 j x b f'.
Proof.
  clear. intros U S0. assert (K : forall g, same_on (foot j) f g -> same_on (foot j) f' g) by (intros g H q Hq; rewrite (S0 q Hq); apply H, Hq).
  destruct j as [d ct at_ | p t], x as [| | | | | | | | | | | [o | o]]; cbn [upto] in *; try exact U; try (destruct U as [U1 U2]; split; [exact U1 |]); try (destruct U2 as [U2 U3]; split; [exact U2 |]).
  all: try (apply K; assumption).
  all: try (destruct U3 as [y U3]; exists y; first [apply K; exact U3 | destruct U3 as [V1 V2]; split; [exact V1 | apply K; exact V2]]).
  all: try (destruct U as (f1 & V1 & V2 & V3); exists f1; repeat split; [exact V1 | exact V2 | apply K; exact V3]).
  all: try (destruct U as (f1 & part & V1 & V2 & V3); exists f1, part; repeat split; [exact V1 | exact V2 | apply K; exact V3]).
  all: try (destruct U as (f1 & V1 & V2); exists f1; split; [exact V1 | apply K; exact V2]).
Qed.
End One.

(** ** A whole call depends on its own paths only *)
Definition jrun (um : N) (j : job) (f : fsys) (a : list action) (f' : fsys) (a' : list action) (o : outcome) : Prop :=
  match j, o with
  | JClient d ct at_, OClient o => inject d ct at_ f a f' a' o
  | JFile p t, OFile o => write_pending um p t f a f' a' o
  | _, _ => False
  end.
Lemma write_local P f g p m c f1 ok : write_file f p m c f1 ok -> same_on P g f -> P p -> (forall q, P q -> regular f q) ->
  exists g1, write_file g p m c g1 ok /\ same_on P g1 f1 /\ (forall q, q <> p -> g1 q = g q) /\ (forall q, P q -> regular f1 q).
Proof.
  intros H S0 Pp R. assert (Rg : regular g p) by (apply (regular_ext f); [symmetry; apply S0, Pp | apply R, Pp]).
  destruct H.
  - exists g. split; [apply wf_fail |]. auto.
  - exists (put g p m part). split; [apply wf_part |]. split; [apply put_same; assumption |].
    split; [intros q Hq; apply put_off; [exact Rg | exact Hq] | intros q Hq; apply put_keeps; apply R; assumption].
  - exists (put g p m c). split; [apply wf_ok |]. split; [apply put_same; assumption |].
    split; [intros q Hq; apply put_off; [exact Rg | exact Hq] | intros q Hq; apply put_keeps; apply R; assumption].
Qed.
Lemma copy_local P um f g p d f1 ok : copy_file um f p d f1 ok -> same_on P g f -> P p -> P d -> (forall q, P q -> regular f q) ->
  exists g1, copy_file um g p d g1 ok /\ same_on P g1 f1 /\ (forall q, q <> d -> g1 q = g q) /\ (forall q, P q -> regular f1 q).
Proof.
  intros H S0 Pp Pd R. assert (Rg : regular g d) by (apply (regular_ext f); [symmetry; apply S0, Pd | apply R, Pd]).
  assert (Er : resolve g d = resolve f d) by (rewrite !regular_resolve; auto).
  destruct H as [| t E1 E2 | m c part E1 E2 | m c E1 E2].
  - exists g. split; [apply cp_fail |]. auto.
  - exfalso. specialize (R p Pp). unfold regular in R. rewrite E1 in R. exact R.
  - exists (put g d um part). split; [eapply cp_part; [rewrite (S0 p Pp); exact E1 | rewrite Er; exact E2] |]. split; [apply put_same; assumption |].
    split; [intros q Hq; apply put_off; [exact Rg | exact Hq] | intros q Hq; apply put_keeps; apply R; assumption].
  - exists (put g d um c). split; [eapply cp_ok; [rewrite (S0 p Pp); exact E1 | rewrite Er; exact E2] |]. split; [apply put_same; assumption |].
    split; [intros q Hq; apply put_off; [exact Rg | exact Hq] | intros q Hq; apply put_keeps; apply R; assumption].
Qed.
Lemma backup_local um p f g f1 b o a : backup_file um p f [] f1 b o -> (forall q, q = p \/ q = bkp p -> regular f q) -> same_on (fun q => q = p \/ q = bkp p) g f ->
  exists g1, backup_file um p g a g1 (a ++ b) o /\ same_on (fun q => q = p \/ q = bkp p) g1 f1 /\ (forall q, q <> bkp p -> g1 q = g q) /\
  (forall q, q = p \/ q = bkp p -> regular f1 q).
Proof.
  intros H R S0. assert (Ee : file_exists g (bkp p) = file_exists f (bkp p)).
  { symmetry. apply (exists_same _ _ _ _ (same_sym _ _ _ S0)); [right; reflexivity | apply R; right; reflexivity]. }
  inversion H; subst; rewrite ?app_nil_r.
  - exists g. split; [apply bf_have; congruence |]. auto.
  - match goal with C : copy_file _ _ _ _ _ _ |- _ => destruct (copy_local _ _ _ _ _ _ _ _ C S0 (or_introl eq_refl) (or_intror eq_refl) R) as (g1 & C1 & C2 & C3 & C4) end.
    exists g1. split; [cbn [app]; eapply bf_made; [congruence | exact C1] | auto].
  - exists g. split; [apply bf_fail; congruence |]. auto.
  - match goal with C : copy_file _ _ _ _ _ _ |- _ => destruct (copy_local _ _ _ _ _ _ _ _ C S0 (or_introl eq_refl) (or_intror eq_refl) R) as (g1 & C1 & C2 & C3 & C4) end.
    exists g1. split; [eapply bf_part; [congruence | exact C1] | auto].
Qed.
Lemma jrun_local um j f g f1 b o a : jrun um j f [] f1 b o -> (forall q, foot j q -> regular f q) -> same_on (foot j) g f ->
  exists g1, jrun um j g a g1 (a ++ b) o /\ same_on (foot j) g1 f1 /\ (forall q, ~ writes j q -> g1 q = g q).
Proof.
  intros H R S0. destruct j as [d ct at_ | p t], o as [o | o]; cbn [jrun foot writes] in *; try contradiction.
  - assert (N0 : (forall q, glob_match d q -> f q = None) -> forall q, glob_match d q -> g q = None) by (intros N q Hq; rewrite (S0 q Hq); auto).
    inversion H; subst; rewrite ?app_nil_r.
    + exists g. split; [eapply in_have; [eassumption |]; rewrite (S0 q); assumption | auto].
    + exists g. split; [apply in_fail | auto].
    + match goal with W : write_file _ _ _ _ _ _ |- _ => destruct (write_local _ _ _ _ _ _ _ _ W S0 (client_matches d) R) as (g1 & C1 & C2 & C3 & C4) end.
      exists g1. split; [apply in_client; auto |]. split; [exact C2 |]. intros q Hq. apply C3. tauto.
    + match goal with W : write_file f _ _ _ _ _ |- _ => destruct (write_local _ _ _ _ _ _ _ _ W S0 (client_matches d) R) as (g1 & C1 & C2 & C3 & C4) end.
      match goal with W : write_file f2 _ _ _ _ _ |- _ => destruct (write_local _ _ _ _ _ _ _ _ W C2 (api_matches d) C4) as (g2 & D1 & D2 & D3 & D4) end.
      exists g2. split; [eapply in_api; eauto |]. split; [exact D2 |]. intros q Hq. rewrite D3, C3; tauto.
    + match goal with W : write_file f _ _ _ _ _ |- _ => destruct (write_local _ _ _ _ _ _ _ _ W S0 (client_matches d) R) as (g1 & C1 & C2 & C3 & C4) end.
      match goal with W : write_file f2 _ _ _ _ _ |- _ => destruct (write_local _ _ _ _ _ _ _ _ W C2 (api_matches d) C4) as (g2 & D1 & D2 & D3 & D4) end.
      exists g2. split; [eapply in_done; eauto |]. split; [exact D2 |]. intros q Hq. rewrite D3, C3; tauto.
  - inversion H; subst; rewrite ?app_nil_r.
    + exists g. split; [apply wp_format | auto].
    + match goal with W : backup_file _ _ _ _ _ _ _ |- _ => destruct (backup_local _ _ _ _ _ _ _ a W R S0) as (g1 & C1 & C2 & C3 & C4) end.
      exists g1. split; [apply wp_backup; assumption |]. split; [exact C2 |]. intros q Hq. apply C3. tauto.
    + match goal with W : backup_file _ _ _ _ _ _ _ |- _ => destruct (backup_local _ _ _ _ _ _ _ a W R S0) as (g1 & C1 & C2 & C3 & C4) end.
      match goal with W : write_file _ _ _ _ _ _ |- _ => destruct (write_local _ _ _ _ _ _ _ _ W C2 (or_introl eq_refl) C4) as (g2 & D1 & D2 & D3 & D4) end.
      exists g2. split; [eapply wp_write; eassumption |]. split; [exact D2 |]. intros q Hq. rewrite D3, C3; tauto.
Qed.

Lemma nodup_join {A} (l r : list A) : NoDup l -> NoDup r -> (forall i, In i l -> ~ In i r) -> NoDup (l ++ r).
Proof.
  intros N Nr D. induction l as [| k l IH]; [exact Nr |]. inversion N as [| ? ? Nk N']; subst. cbn [app]. constructor.
  - rewrite in_app_iff. intros [K | K]; [exact (Nk K) | exact (D k (or_introl eq_refl) K)].
  - apply IH; [exact N' |]. intros i H. apply D. right. exact H.
Qed.

(** ** All goroutines *)
Section All.
Variables (um : N) (f0 : fsys) (js : list job).
Hypothesis Apart : forall i k ji jk q, i <> k -> nth_error js i = Some ji -> nth_error js k = Some jk -> foot ji q -> ~ foot jk q.
Hypothesis R0 : forall j q, In j js -> foot j q -> regular f0 q.
Hypothesis File0 : forall p t, In (JFile p t) js -> exists m c, f0 p = Some (NFile m c).

Definition inv (s : cstate) (bs : nat -> list action) (ord : list nat) : Prop :=
  length (c_pcs s) = length js /\
  (forall i j x, nth_error js i = Some j -> nth_error (c_pcs s) i = Some x ->
    upto um f0 j x (bs i) (c_fs s) /\ forall q, foot j q -> regular (c_fs s) q) /\
  (forall q, (forall j, In j js -> ~ writes j q) -> c_fs s q = f0 q) /\
  NoDup ord /\ (forall i, In i ord <-> bs i <> []) /\ (forall i, In i ord -> (i < length js)%nat) /\ c_acts s = flat_map bs ord.

Lemma set_nth_len {A} (l : list A) : forall n x, length (set_nth n x l) = length l.
Proof. clear. induction l as [| y l IH]; intros [| n] x; cbn; auto. Qed.
Lemma inv_start : inv (c_start f0 js) (fun _ => []) [].
Proof using R0.
  unfold inv, c_start. cbn [c_fs c_pcs c_acts]. split; [apply map_length |].
  split; [| split; [reflexivity | split; [constructor | split; [intros i; split; [intros [] | congruence] | split; [intros i [] | reflexivity]]]]].
  intros i j x Hj Hx. rewrite nth_error_map, Hj in Hx. injection Hx as <-. split; [| intros q; apply R0; eapply nth_error_In; exact Hj].
  destruct j; cbn [upto]; (split; [reflexivity | apply same_refl]).
Qed.
Lemma inv_step s s' bs ord : cstep um js s s' -> inv s bs ord -> exists bs' ord', inv s' bs' ord'.
Proof using Apart R0 File0.
  intros H (L & U & O & N & I1 & I2 & A). destruct H as [i j x f a xs x' f' new Hj Hx H]. cbn [c_fs c_pcs c_acts] in *.
  destruct (U i j x Hj Hx) as [Ui Ri].
  destruct (tstep_foot um j x f x' f' new H Ri) as [Off Ri'].
  assert (Rj : forall q, foot j q -> regular f0 q) by (intros q; apply R0; eapply nth_error_In; exact Hj).
  assert (Fj : forall p t, j = JFile p t -> exists m c, f0 p = Some (NFile m c)) by (intros p t ->; apply (File0 p t); eapply nth_error_In; exact Hj).
  pose proof (tstep_upto um f0 j Rj Fj x f x' f' new (bs i) H Ri Ui) as Ui'.
  pose proof (tstep_new um f0 j x f x' f' new (bs i) H Ui) as New.
  set (bs' := fun k => if Nat.eqb k i then bs i ++ new else bs k).
  assert (Ei : bs' i = bs i ++ new) by (unfold bs'; rewrite Nat.eqb_refl; reflexivity).
  assert (Ek : forall k, k <> i -> bs' k = bs k) by (intros k Nk; unfold bs'; destruct (Nat.eqb_spec k i); [contradiction | reflexivity]).
  assert (Body : length (set_nth i x' xs) = length js /\
    (forall k jk y, nth_error js k = Some jk -> nth_error (set_nth i x' xs) k = Some y -> upto um f0 jk y (bs' k) f' /\ forall q, foot jk q -> regular f' q) /\
    (forall q, (forall j0, In j0 js -> ~ writes j0 q) -> f' q = f0 q)).
  { split; [rewrite set_nth_len; exact L |]. split.
    - intros k jk y Hjk Hy. destruct (Nat.eq_dec k i) as [-> | Nk].
      + rewrite (set_nth_same xs i x' x Hx) in Hy. injection Hy as <-. assert (jk = j) by congruence. subst jk. rewrite Ei. split; assumption.
      + rewrite (set_nth_other xs i x' k Nk) in Hy. destruct (U k jk y Hjk Hy) as [Uk Rk]. rewrite (Ek k Nk).
        assert (Same : forall q, foot jk q -> f' q = f q) by (intros q Hq; apply Off; intros Hw; exact (Apart k i jk j q Nk Hjk Hj Hq (writes_foot _ _ Hw))).
        split; [eapply upto_other; eassumption |]. intros q Hq. apply (regular_ext f); [symmetry; apply Same, Hq | apply Rk, Hq].
    - intros q Hq. rewrite (Off q (Hq j (nth_error_In _ _ Hj))). apply O, Hq. }
  assert (Hlt : (i < length js)%nat) by (apply nth_error_Some; congruence).
  destruct Body as (B1 & B2 & B3). exists bs'. destruct New as [-> | Eb].
  - exists ord. assert (Eq : forall k, bs' k = bs k) by (intros k; destruct (Nat.eq_dec k i) as [-> | Nk]; [rewrite Ei; apply app_nil_r | apply Ek, Nk]).
    unfold inv. cbn [c_fs c_pcs c_acts]. repeat (split; [assumption |]). split; [intros k; rewrite Eq; apply I1 |]. split; [exact I2 |].
    rewrite app_nil_r, A. apply flat_map_ext. intros k. symmetry. apply Eq.
  - destruct new as [| w new].
    { exists ord. assert (Eq : forall k, bs' k = bs k) by (intros k; destruct (Nat.eq_dec k i) as [-> | Nk]; [rewrite Ei; apply app_nil_r | apply Ek, Nk]).
      unfold inv. cbn [c_fs c_pcs c_acts]. repeat (split; [assumption |]). split; [intros k; rewrite Eq; apply I1 |]. split; [exact I2 |].
      rewrite app_nil_r, A. apply flat_map_ext. intros k. symmetry. apply Eq. }
    exists (ord ++ [i]). assert (Ni : ~ In i ord) by (intros K; apply I1 in K; congruence).
    unfold inv. cbn [c_fs c_pcs c_acts]. repeat (split; [assumption |]).
    split; [apply (Permutation_NoDup (Permutation_cons_append ord i)); constructor; assumption |].
    split; [intros k; rewrite in_app_iff; cbn [In]; destruct (Nat.eq_dec k i) as [-> | Nk]; [rewrite Ei, Eb; split; [discriminate | auto] |
      rewrite (Ek k Nk); rewrite <- (I1 k); split; [intros [K | [K | []]]; [exact K | congruence] | auto]] |].
    split; [intros k Hk; apply in_app_iff in Hk; destruct Hk as [Hk | [<- | []]]; auto |].
    rewrite flat_map_app, A. cbn [flat_map]. rewrite Ei, Eb, app_nil_r. cbn [app]. f_equal.
    assert (K : forall l, ~ In i l -> flat_map bs' l = flat_map bs l).
    { induction l as [| k l IH]; intros Nl; [reflexivity |]. cbn [flat_map]. rewrite (Ek k), IH; [reflexivity | |]; intros X; apply Nl; [right; exact X | left; exact X]. }
    symmetry. apply K, Ni.
Qed.
Lemma inv_exec s s' : cexec um js s s' -> (exists bs ord, inv s bs ord) -> exists bs ord, inv s' bs ord.
Proof using Apart R0 File0.
  induction 1 as [| s s1 s2 H IH K]; [auto |]. intros Hs. destruct (IH Hs) as (bs & ord & Hi). eapply inv_step; eassumption.
Qed.

Lemma run_event j o f pd a f' a' : jrun um j f a f' a' o -> (forall p t, j = JFile p t -> mget p pd = Some t) ->
  exists pd', estep um (Editor f pd a) (event (j, o)) (Editor f' pd' a') /\ forall p t k, mget k pd = Some t -> (forall t', j <> JFile p t') -> k = p -> mget k pd' = Some t.
Proof.
  clear. intros H P. destruct j as [d ct at_ | p t], o as [o | o]; cbn [jrun event] in *; try contradiction.
  - exists pd. split; [eapply es_inject; exact H |]. auto.
  - exists (mdel p pd). split; [eapply es_commit_file; [apply (P p t eq_refl) | exact H] |].
    intros k0 t0 k Hk Nk ->. rewrite mget_mdel. destruct (beq_spec k0 p) as [-> |]; [destruct (Nk t eq_refl) | exact Hk].
Qed.

Variables (s : cstate) (os : list outcome) (bs : nat -> list action) (ord : list nat).
Hypothesis Inv : inv s bs ord.
Hypothesis Over : c_pcs s = map Ended os.
Variable dflt : job * outcome.
Definition pair_at (i : nat) : job * outcome := nth i (combine js os) dflt.

Lemma os_length : length os = length js.
Proof using Inv Over. clear - Inv Over. destruct Inv as [L _]. rewrite Over, map_length in L. exact L. Qed.
Lemma pair_spec i j : nth_error js i = Some j -> exists o, pair_at i = (j, o) /\ exists f1, jrun um j f0 [] f1 (bs i) o /\ same_on (foot j) (c_fs s) f1.
Proof using Inv Over.
  clear Apart R0 File0. intros Hj. assert (Hl : (i < length js)%nat) by (apply nth_error_Some; congruence). pose proof os_length as Lo.
  destruct (nth_error os i) as [o |] eqn:Ho; [| apply nth_error_None in Ho; lia]. exists o. split.
  { unfold pair_at. destruct dflt as [dj do_]. rewrite combine_nth by (symmetry; exact Lo).
    rewrite (nth_error_nth _ _ _ Hj), (nth_error_nth _ _ _ Ho). reflexivity. }
  destruct Inv as (_ & U & _). destruct (U i j (Ended o) Hj) as [Ui _]; [rewrite Over, nth_error_map, Ho; reflexivity |].
  destruct j as [d ct at_ | p t], o as [o | o]; cbn [upto jrun] in *; try contradiction; exact Ui.
Qed.

Lemma run_seq : forall ix g pd a, NoDup ix -> (forall i, In i ix -> (i < length js)%nat) ->
  (forall i j, In i ix -> nth_error js i = Some j -> same_on (foot j) g f0) ->
  (forall i p t, In i ix -> nth_error js i = Some (JFile p t) -> mget p pd = Some t) ->
  exists g' pd', eexec um (Editor g pd a) (map event (map pair_at ix)) (Editor g' pd' (a ++ flat_map bs ix)) /\
    (forall i j, In i ix -> nth_error js i = Some j -> same_on (foot j) g' (c_fs s)) /\
    (forall q, (forall i j, In i ix -> nth_error js i = Some j -> ~ writes j q) -> g' q = g q).
Proof using Apart R0 Inv Over.
  induction ix as [| i ix IH]; intros g pd a N Lt S0 P.
  { exists g, pd. cbn [map flat_map]. rewrite app_nil_r. split; [apply ee_nil |]. split; [intros i j [] | reflexivity]. }
  inversion N as [| ? ? Ni N']; subst. destruct (nth_error js i) as [j |] eqn:Hj; [| apply nth_error_None in Hj; specialize (Lt i (or_introl eq_refl)); lia].
  destruct (pair_spec i j Hj) as (o & Eo & f1 & J & Sf).
  destruct (jrun_local um j f0 g f1 (bs i) o a J) as (g1 & J1 & S1 & Off); [intros q; apply R0; eapply nth_error_In; exact Hj | apply (S0 i j); [left; reflexivity | exact Hj] |].
  destruct (run_event j o g pd a g1 (a ++ bs i) J1) as (pd1 & E1 & P1); [intros p t ->; apply (P i p t); [left; reflexivity | exact Hj] |].
  destruct (IH g1 pd1 (a ++ bs i) N') as (g' & pd' & E2 & S2 & Off2).
  - intros k Hk. apply Lt. right. exact Hk.
  - intros k jk Hk Hjk q Hq. rewrite Off; [apply (S0 k jk (or_intror Hk) Hjk), Hq |]. intros Hw. apply (Apart k i jk j q); [intros ->; exact (Ni Hk) | exact Hjk | exact Hj | exact Hq | apply writes_foot, Hw].
  - intros k p t Hk Hjk. apply (P1 p t p); [apply (P k p t (or_intror Hk) Hjk) | | reflexivity].
    intros t' ->. apply (Apart k i (JFile p t) (JFile p t') p); [intros ->; exact (Ni Hk) | exact Hjk | exact Hj | left; reflexivity | left; reflexivity].
  - exists g', pd'. cbn [map flat_map]. rewrite Eo, app_assoc. split; [eapply ee_cons; eassumption |]. split.
    + intros k jk [<- | Hk] Hjk; [| apply (S2 k jk Hk Hjk)]. assert (jk = j) by congruence. subst jk. intros q Hq.
      rewrite Off2; [rewrite (S1 q Hq); symmetry; apply Sf, Hq |]. intros k jk Hk Hjk' Hf. apply (Apart i k j jk q); [intros ->; exact (Ni Hk) | exact Hj | exact Hjk' | exact Hq | apply writes_foot, Hf].
    + intros q Hq. rewrite Off2; [apply Off; apply (Hq i j); [left; reflexivity | exact Hj] |]. intros k jk Hk Hjk. apply (Hq k jk); [right; exact Hk | exact Hjk].
Qed.
Definition rest : list nat := filter (fun i => negb (existsb (Nat.eqb i) ord)) (seq 0 (length js)).
Lemma order_perm : Permutation (ord ++ rest) (seq 0 (length js)) /\ flat_map bs (ord ++ rest) = c_acts s.
Proof using Inv.
  clear Apart R0 File0 Over dflt. destruct Inv as (_ & _ & _ & N & I1 & I2 & A).
  assert (Hr : forall i, In i rest <-> (i < length js)%nat /\ ~ In i ord).
  { intros i. unfold rest. rewrite filter_In, in_seq. rewrite Bool.negb_true_iff, <- Bool.not_true_iff_false, existsb_exists.
    split; intros [H1 H2]; (split; [lia |]).
    - intros K. apply H2. exists i. split; [exact K | apply Nat.eqb_refl].
    - intros (k & Hk & E). apply Nat.eqb_eq in E. subst k. exact (H2 Hk). }
  assert (Nd : NoDup (ord ++ rest)).
  { apply nodup_join; [exact N | apply NoDup_filter, seq_NoDup |]. intros i H K. apply Hr in K. tauto. }
  split.
  - apply NoDup_Permutation; [exact Nd | apply seq_NoDup |]. intros i. rewrite in_app_iff, Hr, in_seq. split; [intros [H | [H _]]; [specialize (I2 i H) |]; lia |].
    intros H. destruct (in_dec Nat.eq_dec i ord); [left; assumption | right; split; [lia | assumption]].
  - rewrite flat_map_app, A. assert (E : flat_map bs rest = []).
    { assert (Z : forall i, In i rest -> bs i = []) by (intros i Hi; apply Hr in Hi; destruct (bs i) eqn:E; [reflexivity |]; destruct Hi as [_ Hi]; destruct Hi; apply I1; congruence).
      clear - Z. induction rest as [| i l IH]; [reflexivity |]. cbn [flat_map]. rewrite (Z i (or_introl eq_refl)). apply IH. intros k Hk. apply Z. right. exact Hk. }
    rewrite E. apply app_nil_r.
Qed.
End All.

(** ** The edits before *)
Lemma files_in p js : In p (files js) <-> exists t, In (JFile p t) js.
Proof.
  unfold files. rewrite in_flat_map. split.
  - intros ([d ct at_ | p' t] & H & K); [destruct K |]. destruct K as [-> | []]. eauto.
  - intros (t & H). exists (JFile p t). split; [exact H | left; reflexivity].
Qed.
Lemma edits_run um f0 a : forall js pd, (forall p t, In (JFile p t) js -> exists m c, f0 p = Some (NFile m c)) -> NoDup (files js) ->
  exists pd', eexec um (Editor f0 pd a) (edits js) (Editor f0 pd' a) /\ (forall p t, In (JFile p t) js -> mget p pd' = Some t) /\
  (forall p, ~ In p (files js) -> mget p pd' = mget p pd).
Proof.
  induction js as [| j js IH]; intros pd Hf N; [exists pd; split; [apply ee_nil | split; [intros p t [] | reflexivity]] |].
  destruct j as [d ct at_ | p t].
  - destruct (IH pd) as (pd' & E & P & Q); [intros p t H; apply (Hf p t); right; exact H | exact N |]. exists pd'. split; [exact E |].
    split; [intros p t [X | X]; [discriminate X | apply P, X] | exact Q].
  - cbn [files flat_map app] in N. inversion N as [| ? ? Np N']; subst.
    destruct (IH (mset p t pd)) as (pd' & E & P & Q); [intros p' t' H; apply (Hf p' t'); right; exact H | exact N' |]. exists pd'. split.
    + change (edits (JFile p t :: js)) with (EvEdit p t :: edits js). eapply ee_cons; [| exact E]. apply es_edit. left.
      destruct (Hf p t (or_introl eq_refl)) as (m & c & E0). unfold contents, resolve. rewrite E0, E0. discriminate.
    + split.
      * intros p' t' [X | X]; [| apply P, X]. injection X as <- <-. rewrite Q; [apply mget_mset_same | exact Np].
      * intros p' Hp. cbn [files flat_map app In] in Hp. rewrite Q; [apply mget_mset_other; intros ->; apply Hp; left; reflexivity | intros K; apply Hp; right; exact K].
Qed.
Lemma eexec_app um e v1 e1 v2 e2 : eexec um e v1 e1 -> eexec um e1 v2 e2 -> eexec um e (v1 ++ v2) e2.
Proof. induction 1 as [| e v e' vs e'' H _ IH]; intros K; [exact K |]. cbn [app]. eapply ee_cons; [exact H | apply IH, K]. Qed.
Lemma nth_seq_self {A} (d : A) l : map (fun i => nth i l d) (seq 0 (length l)) = l.
Proof. induction l as [| x l IH]; [reflexivity |]. cbn [length seq map nth]. f_equal. rewrite <- seq_shift, map_map. exact IH. Qed.

Lemma writes_dec j q : writes j q \/ ~ writes j q.
Proof.
  destruct j as [d ct at_ | p t]; cbn [writes]; [destruct (bytes_eq_dec q (client_file d)), (bytes_eq_dec q (api_file d)) | destruct (bytes_eq_dec q p), (bytes_eq_dec q (bkp p))]; tauto.
Qed.
Lemma some_writes js q : (exists j, In j js /\ writes j q) \/ (forall j, In j js -> ~ writes j q).
Proof.
  induction js as [| j js IH]; [right; intros j [] |]. destruct (writes_dec j q) as [W | W]; [left; exists j; split; [left; reflexivity | exact W] |].
  destruct IH as [(k & Hk & Wk) | N]; [left; exists k; split; [right; exact Hk | exact Wk] | right; intros k [<- | Hk]; auto].
Qed.

Lemma serial um f0 js s os : 
  (forall i k ji jk q, i <> k -> nth_error js i = Some ji -> nth_error js k = Some jk -> foot ji q -> ~ foot jk q) ->
  (forall j q, In j js -> foot j q -> regular f0 q) -> (forall p t, In (JFile p t) js -> exists m c, f0 p = Some (NFile m c)) -> NoDup (files js) ->
  cexec um js (c_start f0 js) s -> c_pcs s = map Ended os ->
  exists order pd f, Permutation order (combine js os) /\
    eexec um (e_init f0) (edits js ++ map event order) (Editor f pd (c_acts s)) /\ forall q, f q = c_fs s q.
Proof.
  intros Ap R0 F0 N H E. destruct (inv_exec um f0 js Ap R0 F0 _ _ H) as (bs & ord & V); [do 2 eexists; apply (inv_start um f0 js R0) |].
  set (dflt := (JFile [] [], OFile WDone)).
  destruct (order_perm um f0 js s bs ord V) as [Pm Fm]. pose proof (os_length um f0 js s os bs ord V E) as Lo.
  destruct (edits_run um f0 [] js [] F0 N) as (pd & E1 & P1 & _).
  assert (Hin : forall i, In i (ord ++ rest js ord) <-> (i < length js)%nat).
  { intros i. split; intros Hi; [apply (Permutation_in _ Pm), in_seq in Hi; lia | apply (Permutation_in _ (Permutation_sym Pm)), in_seq; lia]. }
  destruct (run_seq um f0 js Ap R0 s os bs ord V E dflt (ord ++ rest js ord) f0 pd []) as (g & pd' & E2 & S2 & Off).
  - apply (Permutation_NoDup (Permutation_sym Pm)), seq_NoDup.
  - intros i Hi. apply Hin, Hi.
  - intros i j _ _. apply same_refl.
  - intros i p t _ Hj. apply P1. eapply nth_error_In, Hj.
  - exists (map (pair_at js os dflt) (ord ++ rest js ord)), pd', g. split; [| split].
    + rewrite (Permutation_map (pair_at js os dflt) Pm). unfold pair_at. replace (length js) with (length (combine js os)) by (rewrite combine_length; lia).
      rewrite nth_seq_self. reflexivity.
    + rewrite Fm in E2. eapply eexec_app; [exact E1 | exact E2].
    + intros q. destruct (some_writes js q) as [(j & Hj & W) | W].
      * apply In_nth_error in Hj. destruct Hj as (i & Hi). apply (S2 i j); [apply Hin, nth_error_Some; congruence | exact Hi | apply writes_foot, W].
      * rewrite Off; [symmetry; destruct V as (_ & _ & O & _); apply O, W |]. intros i j _ Hi. apply W. eapply nth_error_In, Hi.
Qed.

(** ** Separate paths *)
Lemma dirs_in d js : In d (dirs js) <-> exists ct at_, In (JClient d ct at_) js.
Proof.
  unfold dirs. rewrite in_flat_map. split.
  - intros ([d' ct at_ | p t] & H & K); [| destruct K]. destruct K as [-> | []]. eauto.
  - intros (ct & at_ & H). exists (JClient d ct at_). split; [exact H | left; reflexivity].
Qed.
Lemma last_cut (c : byte) (a b x y : bytes) : ~ In c x -> ~ In c y -> a ++ c :: x = b ++ c :: y -> a = b.
Proof.
  intros Hx Hy. revert b. induction a as [| e a IH]; intros [| e' b] E; cbn [app] in E; [reflexivity | | |].
  - injection E as <- E. exfalso. apply Hx. rewrite E. apply in_app_iff. right. left. reflexivity.
  - injection E as -> E. exfalso. apply Hy. rewrite <- E. apply in_app_iff. right. left. reflexivity.
  - injection E as -> E. rewrite (IH b E). reflexivity.
Qed.
Lemma glob_dir_of d d' q : glob_match d q -> glob_match d' q -> d = d'.
Proof.
  assert (K : forall x, ~ In "/"%char x -> ~ In "/"%char (B "xx_lens_" ++ x ++ B "_gen.go")).
  { intros x Hx. rewrite !in_app_iff. intros [H | [H | H]]; [| exact (Hx H) |]; repeat (destruct H as [H | H]; [discriminate H |]); exact H. }
  intros (x & Hx & E) (y & Hy & E'). apply (last_cut "/"%char d d' (B "xx_lens_" ++ x ++ B "_gen.go") (B "xx_lens_" ++ y ++ B "_gen.go")); [apply K, Hx | apply K, Hy |].
  rewrite E in E'. exact E'.
Qed.
Lemma glob_not_bkp d p : ~ glob_match d (bkp p).
Proof.
  intros (x & _ & E). unfold bkp in E. apply (f_equal (fun l => firstn 1 (rev l))) in E. rewrite !app_assoc in E.
  rewrite rev_app_distr in E. rewrite (rev_app_distr _ (B "_gen.go")) in E. cbn in E. discriminate E.
Qed.
Lemma dirs_apart js : NoDup (dirs js) -> forall i k d c a c' a', i <> k -> nth_error js i = Some (JClient d c a) -> nth_error js k = Some (JClient d c' a') -> False.
Proof.
  induction js as [| j js IH]; intros N i k d c a c' a' Ne Hi Hk; [destruct i; discriminate |].
  assert (N' : NoDup (dirs js)) by (destruct j; cbn [dirs flat_map app] in N; [inversion N; assumption | exact N]).
  destruct i as [| i], k as [| k]; cbn [nth_error] in Hi, Hk; [congruence | | | apply (IH N' i k d c a c' a'); auto].
  - injection Hi as ->. cbn [dirs flat_map app] in N. inversion N as [| ? ? Nd _]; subst. apply Nd. apply dirs_in. do 2 eexists. eapply nth_error_In, Hk.
  - injection Hk as ->. cbn [dirs flat_map app] in N. inversion N as [| ? ? Nd _]; subst. apply Nd. apply dirs_in. do 2 eexists. eapply nth_error_In, Hi.
Qed.
Lemma files_apart js : NoDup (files js) -> forall i k p t t', i <> k -> nth_error js i = Some (JFile p t) -> nth_error js k = Some (JFile p t') -> False.
Proof.
  induction js as [| j js IH]; intros N i k p t t' Ne Hi Hk; [destruct i; discriminate |].
  assert (N' : NoDup (files js)) by (destruct j; cbn [files flat_map app] in N; [exact N | inversion N; assumption]).
  destruct i as [| i], k as [| k]; cbn [nth_error] in Hi, Hk; [congruence | | | apply (IH N' i k p t t'); auto].
  - injection Hi as ->. cbn [files flat_map app] in N. inversion N as [| ? ? Nd _]; subst. apply Nd. apply files_in. eexists. eapply nth_error_In, Hk.
  - injection Hk as ->. cbn [files flat_map app] in N. inversion N as [| ? ? Nd _]; subst. apply Nd. apply files_in. eexists. eapply nth_error_In, Hi.
Qed.
Lemma orderly_apart f0 js : orderly f0 js -> forall i k ji jk q, i <> k -> nth_error js i = Some ji -> nth_error js k = Some jk -> foot ji q -> ~ foot jk q.
Proof.
  intros (Nd & Nf & F & _) i k ji jk q Ne Hi Hk A C.
  assert (Fi : forall n p t, nth_error js n = Some (JFile p t) -> (forall q, p <> bkp q) /\ (forall d, ~ glob_match d p)).
  { intros n p t H. destruct (F p) as (_ & _ & X & Y); [apply files_in; eexists; eapply nth_error_In, H | auto]. }
  destruct ji as [d ct at_ | p t], jk as [d' ct' at' | p' t']; cbn [foot] in A, C.
  - pose proof (glob_dir_of _ _ _ A C). subst d'. eapply (dirs_apart js Nd i k); eassumption.
  - destruct (Fi k p' t' Hk) as [X Y]. destruct C as [-> | ->]; [exact (Y d A) | exact (glob_not_bkp d p' A)].
  - destruct (Fi i p t Hi) as [X Y]. destruct A as [-> | ->]; [exact (Y d' C) | exact (glob_not_bkp d' p C)].
  - destruct (Fi i p t Hi) as [X _], (Fi k p' t' Hk) as [X' _].
    assert (Ep : p = p').
    { destruct A as [-> | ->], C as [E | E]; [exact E | destruct (X p' E) | destruct (X' p (eq_sym E)) | apply bkp_inj, E]. }
    subst p'. eapply (files_apart js Nf i k); eassumption.
Qed.
Lemma orderly_regular f0 js : orderly f0 js -> forall j q, In j js -> foot j q -> regular f0 q.
Proof.
  intros (_ & _ & F & G) [d ct at_ | p t] q Hj Hq; cbn [foot] in Hq.
  - apply (G d q); [apply dirs_in; eauto | exact Hq].
  - destruct (F p) as ((m & c & E) & R & _); [apply files_in; eauto |]. destruct Hq as [-> | ->]; [unfold regular; rewrite E; exact I | exact R].
Qed.
Lemma orderly_files f0 js : orderly f0 js -> forall p t, In (JFile p t) js -> exists m c, f0 p = Some (NFile m c).
Proof. intros (_ & _ & F & _) p t H. apply F, files_in. eauto. Qed.

(** ** Cleaning up the same files *)
Lemma exists_ext f g p : (forall q, f q = g q) -> file_exists f p = file_exists g p.
Proof. intros E. unfold file_exists, resolve. rewrite (E p). destruct (g p) as [[] |]; rewrite E; reflexivity. Qed.
Lemma upd_ext f g p v : (forall q, f q = g q) -> forall q, upd f p v q = upd g p v q.
Proof. intros E q. unfold upd. destruct (beq q p); auto. Qed.
Lemma remove_ext f g p f' ok : remove f p f' ok -> (forall q, f q = g q) -> exists g', remove g p g' ok /\ forall q, f' q = g' q.
Proof.
  intros H E. destruct H; [exists g; split; [apply rm_fail | exact E] | exists (upd g p None); split; [apply rm_ok; rewrite <- E; assumption | apply upd_ext, E]].
Qed.
Lemma rename_ext f g p d f' ok : rename f p d f' ok -> (forall q, f q = g q) -> exists g', rename g p d g' ok /\ forall q, f' q = g' q.
Proof.
  intros H E. destruct H as [| n H1 H2]; [exists g; split; [apply rn_fail | exact E] |].
  exists (upd (upd g p None) d (Some n)). split; [apply rn_ok; [rewrite <- E; exact H1 | exact H2] | apply upd_ext, upd_ext, E].
Qed.
Lemma action_ext a f g f' ok : run_action a f f' ok -> (forall q, f q = g q) -> exists g', run_action a g g' ok /\ forall q, f' q = g' q.
Proof.
  intros H E. destruct H as [p f f' ok H | d f f1 f2 ok1 ok2 H1 H2].
  - destruct H as [f' ok H1 H2 | H1 H2 | f1 f2 ok H1 H2 H3].
    + destruct (rename_ext _ _ _ _ _ _ H2 E) as (g' & K & E'). exists g'. split; [apply ra_restore, rp_absent; [rewrite <- (exists_ext _ _ _ E); exact H1 | exact K] | exact E'].
    + exists g. split; [| exact E]. apply ra_restore, rp_stuck; [rewrite <- (exists_ext _ _ _ E); exact H1 | apply rm_fail].
    + destruct (remove_ext _ _ _ _ _ H2 E) as (g1 & K1 & E1). destruct (rename_ext _ _ _ _ _ _ H3 E1) as (g2 & K2 & E2).
      exists g2. split; [| exact E2]. apply ra_restore. eapply rp_done; [rewrite <- (exists_ext _ _ _ E); exact H1 | exact K1 | exact K2].
  - destruct (remove_ext _ _ _ _ _ H1 E) as (g1 & K1 & E1). destruct (remove_ext _ _ _ _ _ H2 E1) as (g2 & K2 & E2). exists g2. split; [eapply ra_gen; eassumption | exact E2].
Qed.
Lemma actions_ext l f f' oks : run_actions l f f' oks -> forall g, (forall q, f q = g q) -> exists g', run_actions l g g' oks /\ forall q, f' q = g' q.
Proof.
  induction 1 as [f | x l f f1 f2 ok oks H _ IH]; intros g E; [exists g; split; [apply rx_nil | exact E] |].
  destruct (action_ext _ _ _ _ _ H E) as (g1 & K1 & E1). destruct (IH g1 E1) as (g2 & K2 & E2). exists g2. split; [eapply rx_cons; eassumption | exact E2].
Qed.
