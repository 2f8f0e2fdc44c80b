(** Properties C23, C25, C26, C52 and C53: module files, dependency versions,
    line bitmaps and changed functions. *)

From Coq Require Import Permutation.
From Verif Require Import Base Maps UtilModel UtilProps SemverModel SemverProps ModuleModel.

(** ** C23: differences between module files *)

(** The version that counts when a path is required more than once: the last. *)
Definition last_version (rs : list require) (p v : bytes) : Prop :=
  exists a r b, rs = a ++ r :: b /\ rq_path r = p /\ rq_version r = v /\
    Forall (fun r' => rq_path r' <> p) b.

Lemma req_map_get rs p v : mget p (req_map rs) = Some v <-> last_version rs p v.
Proof.
  unfold req_map. revert v. induction rs as [|r rs IH] using rev_ind; intros v.
  - cbn. split; [discriminate|]. intros (a & r & b & E & _). destruct a; discriminate.
  - rewrite fold_left_app. cbn [fold_left]. rewrite mget_mset. destruct (beq_spec p (rq_path r)) as [->|N].
    + split.
      * intros [= <-]. exists rs, r, []. auto.
      * intros (a & r' & b & E & Hp & <- & F). destruct b as [|x b] using rev_ind.
        { apply app_inj_tail in E as [_ ->]. reflexivity. }
        rewrite app_comm_cons, app_assoc in E. apply app_inj_tail in E as [_ <-].
        apply Forall_app in F as [_ F]. inversion F; subst. congruence.
    + rewrite IH. split.
      * intros (a & r' & b & -> & Hp & Hv & F). exists a, r', (b ++ [r]). rewrite <- app_assoc.
        split; [reflexivity|]. split; [exact Hp|]. split; [exact Hv|]. apply Forall_app. split; [exact F|constructor; [congruence|constructor]].
      * intros (a & r' & b & E & Hp & Hv & F). destruct b as [|x b] using rev_ind.
        { apply app_inj_tail in E as [_ ->]. congruence. }
        rewrite app_comm_cons, app_assoc in E. apply app_inj_tail in E as [-> <-].
        apply Forall_app in F as [F _]. exists a, r', b. auto.
Qed.

Lemma req_map_none rs p : mget p (req_map rs) = None <-> forall r, In r rs -> rq_path r <> p.
Proof.
  split.
  - intros H r Hr Hp. unfold req_map in H. revert H Hr. induction rs as [|r' rs IH] using rev_ind; [intros _ []|].
    rewrite fold_left_app. cbn [fold_left]. rewrite mget_mset. intros H Hr. destruct (beq_spec p (rq_path r')); [discriminate|].
    apply in_app_iff in Hr as [Hr|[<-|[]]]; [auto|congruence].
  - intros H. destruct (mget p (req_map rs)) as [v|] eqn:E; [|reflexivity]. exfalso.
    apply req_map_get in E as (a & r & b & -> & Hp & _). apply (H r); [apply in_app_iff; right; left; reflexivity|exact Hp].
Qed.

(** Reported are exactly the requirements of the new file whose path the old file
    also requires, at another version; each with both versions, in the order of
    the new file. *)
Theorem C23_diff_is_exact : forall old new,
  exists rs,
    picks (fun r => exists v, last_version old (rq_path r) v /\ v <> rq_version r) new rs /\
    Forall2 (fun r c => mc_name c = rq_path r /\ last_version old (rq_path r) (mc_prior c) /\
                        mc_new c = rq_version r /\ mc_indirect c = rq_indirect r)
            rs (diff_modules old new).
Proof.
  intros old new. unfold diff_modules. induction new as [|r new (rs & P & F)]; cbn [flat_map].
  - exists []. split; constructor.
  - destruct (mget (rq_path r) (req_map old)) as [v|] eqn:E.
    + pose proof E as L. apply req_map_get in L. destruct (beq_spec v (rq_version r)) as [->|N]; cbn [app].
      * exists rs. split; [apply pk_drop; [|exact P]|exact F]. intros (v & Hv & Hn).
        apply req_map_get in Hv. congruence.
      * exists (r :: rs). split; [apply pk_keep; [exists v; auto|exact P]|]. constructor; [|exact F]. cbn. auto.
    + exists rs. split; [apply pk_drop; [|exact P]|exact F]. intros (v & Hv & Hn). apply req_map_get in Hv. congruence.
Qed.
Print Assumptions C23_diff_is_exact.

(** So a module that is only added or only removed is never reported, and
    neither is one whose version stays. *)
Theorem C23_added_and_removed_are_not_reported : forall old new c,
  In c (diff_modules old new) ->
  (exists r, In r old /\ rq_path r = mc_name c) /\ (exists r, In r new /\ rq_path r = mc_name c) /\
  mc_prior c <> mc_new c.
Proof.
  intros old new c Hc. destruct (C23_diff_is_exact old new) as (rs & P & F).
  assert (exists r, In r rs /\ mc_name c = rq_path r /\ last_version old (rq_path r) (mc_prior c) /\ mc_new c = rq_version r)
    as (r & Hr & En & L & Ev).
  { clear P. induction F as [|r c' rs cs (H1 & H2 & H3 & _) F IH]; [destruct Hc|]. destruct Hc as [<-|Hc].
    - exists r. split; [left; reflexivity|auto].
    - destruct (IH Hc) as (r' & Hr' & H). exists r'. split; [right; exact Hr'|exact H]. }
  assert (In r new /\ exists v, last_version old (rq_path r) v /\ v <> rq_version r) as (Hn & v & Lv & Nv).
  { clear - P Hr. induction P as [|x l r' Hx P IH|x l r' Hx P IH]; [destruct Hr| |destruct (IH Hr); split; [right|]; assumption].
    destruct Hr as [<-|Hr]; [split; [left; reflexivity|exact Hx]|destruct (IH Hr); split; [right|]; assumption]. }
  split; [|split].
  - pose proof L as (a & r' & b & -> & Hp & _). exists r'. split; [apply in_app_iff; right; left; reflexivity|congruence].
  - exists r. auto.
  - apply req_map_get in L, Lv. rewrite L in Lv. injection Lv as ->. congruence.
Qed.
Print Assumptions C23_added_and_removed_are_not_reported.

Example C23_example :
  diff_modules [Req (B "a") (B "v1") false; Req (B "b") (B "v1") false; Req (B "c") (B "v1") true; Req (B "b") (B "v2") false]
               [Req (B "d") (B "v9") false; Req (B "c") (B "v3") true; Req (B "b") (B "v2") false; Req (B "a") (B "v2") false] =
  [Change (B "c") (B "v1") (B "v3") true []; Change (B "a") (B "v1") (B "v2") false []].
Proof. reflexivity. Qed.

(** ** C26: the lowest and the highest version *)

Definition version_in (p : bytes) (f : gomod) : list bytes :=
  match mget p (req_map (gm_require f)) with Some v => [v] | None => [] end.

Lemma add_versions_get (m : amap bytes) p : forall acc, mwf m ->
  mget p (fold_left add_version m acc) =
  match mget p m with
  | Some v => Some (match mget p acc with Some l => l | None => [] end ++ [v])
  | None => mget p acc
  end.
Proof.
  induction m as [|[k v] m IH]; intros acc W; cbn [fold_left mget]; [reflexivity|].
  inversion W as [|? ? Hn W']; subst. rewrite IH by exact W'. unfold add_version. cbn [fst snd]. rewrite mget_mset.
  rewrite (beq_sym p k). destruct (beq_spec k p) as [->|N].
  - assert (mget p m = None) as -> ; [|reflexivity].
    destruct (mget p m) eqn:E; [|reflexivity]. exfalso. apply Hn. apply mget_keys. congruence.
  - reflexivity.
Qed.

Lemma req_map_wf rs : mwf (req_map rs).
Proof.
  unfold req_map. assert (forall m, mwf m -> mwf (fold_left (fun m r => mset (rq_path r) (rq_version r) m) rs m)) as H.
  { induction rs as [|r rs IH]; intros m W; cbn; [exact W|]. apply IH. apply mwf_mset. exact W. }
  apply H. constructor.
Qed.

Lemma versions_map_get mods p :
  mget p (versions_map mods) = match flat_map (version_in p) mods with [] => None | l => Some l end.
Proof.
  unfold versions_map. induction mods as [|f mods IH] using rev_ind; [reflexivity|].
  rewrite fold_left_app, flat_map_app. cbn [fold_left flat_map]. rewrite app_nil_r.
  rewrite add_versions_get by apply req_map_wf. rewrite IH.
  assert (version_in p f = match mget p (req_map (gm_require f)) with Some v => [v] | None => [] end) as -> by reflexivity.
  destruct (mget p (req_map (gm_require f))) as [v|].
  - destruct (flat_map (version_in p) mods); reflexivity.
  - rewrite app_nil_r. reflexivity.
Qed.

Lemma choose_spec newest v0 vs :
  In (choose newest (v0 :: vs)) (v0 :: vs) /\
  (forall w, In w (v0 :: vs) -> semver_compare w (choose newest (v0 :: vs)) <> if newest then Gt else Lt).
Proof.
  pose proof C27_compare_is_a_total_order as L. pose proof L as [S T]. pose proof (lawful_refl _ L) as R.
  cbn [choose].
  assert (forall vs c, let r := fold_left (fun chosen v =>
        match semver_compare v chosen with
        | Gt => if newest then v else chosen
        | Lt => if newest then chosen else v
        | Eq => chosen
        end) vs c in
    (r = c \/ In r vs) /\ semver_compare c r <> (if newest then Gt else Lt) /\
    (forall w, In w vs -> semver_compare w r <> if newest then Gt else Lt)) as H.
  { clear v0 vs. induction vs as [|v vs IH]; intros c; cbn [fold_left].
    - split; [left; reflexivity|]. split; [rewrite R; destruct newest; discriminate|intros w []].
    - set (c' := match semver_compare v c with Gt => if newest then v else c | Lt => if newest then c else v | Eq => c end).
      assert ((c' = c \/ c' = v) /\ semver_compare c c' <> (if newest then Gt else Lt) /\
              semver_compare v c' <> if newest then Gt else Lt) as (C1 & C2 & C3).
      { unfold c'. destruct (semver_compare v c) eqn:E, newest; (split; [auto|]); rewrite ?R, ?(S v c), ?E;
          cbn; split; discriminate. }
      destruct (IH c') as (H1 & H2 & H3).
      assert (forall w, semver_compare w c' <> (if newest then Gt else Lt) ->
        semver_compare w (fold_left (fun chosen v =>
        match semver_compare v chosen with
        | Gt => if newest then v else chosen
        | Lt => if newest then chosen else v
        | Eq => chosen
        end) vs c') <> if newest then Gt else Lt) as Tr.
      { intros w Hw. destruct newest; [eapply T; eassumption|].
        intros Hlt. assert (semver_compare c' w <> Gt) as Hcw by (rewrite S; destruct (semver_compare w c'); cbn; congruence).
        assert (semver_compare c' (fold_left (fun chosen v =>
        match semver_compare v chosen with
        | Gt => chosen
        | Lt => v
        | Eq => chosen
        end) vs c') = Lt) by (eapply (lawful_lt_trans2 _ L); eassumption). congruence. }
      split; [|split].
      + destruct H1 as [H1|H1]; [|right; right; exact H1]. rewrite H1. destruct C1 as [-> | ->]; [left; reflexivity|right; left; reflexivity].
      + apply Tr. exact C2.
      + intros w [<-|Hw]; [apply Tr; exact C3|apply H3; exact Hw]. }
  destruct (H vs v0) as (H1 & H2 & H3). split.
  - destruct H1 as [->|H1]; [left; reflexivity|right; exact H1].
  - intros w [<-|Hw]; [exact H2|apply H3; exact Hw].
Qed.

(** What is recorded for a project: a version for exactly the paths some module
    file requires; it is one that some file requires, and none that a file
    requires lies beyond it. *)
Theorem C26_versions_are_extreme : forall mods newest deps go,
  parse_project_deps mods newest = Some (deps, go) ->
  forall p,
    (mget p deps = None <-> forall f, In f mods -> forall v, ~ last_version (gm_require f) p v) /\
    (forall v, mget p deps = Some v ->
      (exists f, In f mods /\ last_version (gm_require f) p v) /\
      (forall f w, In f mods -> last_version (gm_require f) p w ->
         semver_compare w v <> if newest then Gt else Lt)).
Proof.
  intros mods newest deps go H p. unfold parse_project_deps in H. destruct mods as [|f0 mods0] eqn:Em; [discriminate|].
  rewrite <- Em in *. injection H as <- _.
  assert (mget p (map (fun '(p, vs) => (p, choose newest vs)) (versions_map mods)) =
          option_map (choose newest) (mget p (versions_map mods))) as ->.
  { induction (versions_map mods) as [|[k l] m IH]; cbn; [reflexivity|]. destruct (beq _ _); [reflexivity|exact IH]. }
  rewrite versions_map_get.
  assert (forall v, In v (flat_map (version_in p) mods) <-> exists f, In f mods /\ last_version (gm_require f) p v) as Hin.
  { intros v. rewrite in_flat_map. unfold version_in. split.
    - intros (f & Hf & Hv). exists f. split; [exact Hf|]. apply req_map_get.
      destruct (mget p _) eqn:E; [|destruct Hv]. destruct Hv as [<-|[]]. reflexivity.
    - intros (f & Hf & Hv). exists f. split; [exact Hf|]. apply req_map_get in Hv. rewrite Hv. left; reflexivity. }
  destruct (flat_map (version_in p) mods) as [|v0 vs] eqn:Ef.
  - cbn. split; [|discriminate]. split; [|reflexivity]. intros _ f Hf v Hv. apply (Hin v). exists f; auto.
  - cbn [option_map]. destruct (choose_spec newest v0 vs) as [C1 C2]. split.
    + split; [discriminate|]. intros Hno. exfalso. destruct (proj1 (Hin v0) (or_introl eq_refl)) as (f & Hf & Hv).
      exact (Hno f Hf v0 Hv).
    + intros v [= <-]. split; [apply Hin; exact C1|]. intros f w Hf Hw. apply C2. apply Hin. exists f; auto.
Qed.
Print Assumptions C26_versions_are_extreme.

(** The go version recorded: empty when no file names one, otherwise one of them
    and at most each of them. *)
Theorem C26_oldest_go_version : forall mods newest deps go,
  parse_project_deps mods newest = Some (deps, go) ->
  (go = [] <-> forall f, In f mods -> gm_go f = []) /\
  (go <> [] -> (exists f, In f mods /\ gm_go f = go) /\
     forall f, In f mods -> gm_go f <> [] -> compare_go go (gm_go f) <> Gt).
Proof.
  intros mods newest deps go H. unfold parse_project_deps in H. destruct mods as [|f0 mods0] eqn:Em; [discriminate|].
  rewrite <- Em in *. injection H as _ <-. clear Em f0 mods0.
  pose proof C27_compare_is_a_total_order as L. pose proof (lawful_refl _ L) as R. pose proof L as [_ T].
  induction mods as [|f mods [IH1 IH2]] using rev_ind.
  - cbn. split; [split; [intros _ f []|reflexivity]|congruence].
  - rewrite fold_left_app. cbn [fold_left]. set (o := fold_left (fun o f => older_go o (gm_go f)) mods []) in *.
    destruct (C27_older_is_a_minimum o (gm_go f)) as (O1 & O2 & O3).
    destruct (bytes_eq_dec o []) as [Eo|No].
    + rewrite (O1 Eo). split.
      * split; [intros E g Hg; apply in_app_iff in Hg as [Hg|[<-|[]]]; [apply (proj1 IH1 Eo); exact Hg|exact E]|].
        intros Hall. apply Hall. apply in_app_iff; right; left; reflexivity.
      * intros Nf. split; [exists f; split; [apply in_app_iff; right; left; reflexivity|reflexivity]|].
        intros g Hg Ng. apply in_app_iff in Hg as [Hg|[<-|[]]]; [exfalso; apply Ng; apply (proj1 IH1 Eo); exact Hg|].
        unfold compare_go. rewrite R. discriminate.
    + destruct (IH2 No) as ((g0 & Hg0 & Eg0) & Hmin).
      destruct (bytes_eq_dec (gm_go f) []) as [Ef|Nf].
      * rewrite (O2 Ef). split.
        { split; [congruence|]. intros Hall. exfalso. apply No. apply IH1. intros g Hg. apply Hall. apply in_app_iff; auto. }
        intros _. split; [exists g0; split; [apply in_app_iff; auto|exact Eg0]|].
        intros g Hg Ng. apply in_app_iff in Hg as [Hg|[<-|[]]]; [auto|congruence].
      * destruct (O3 No Nf) as (Oe & Ol & Or). split.
        { split.
          - intros E. exfalso. destruct Oe as [Oe|Oe]; rewrite Oe in E; congruence.
          - intros Hall. exfalso. apply Nf. apply Hall. apply in_app_iff; right; left; reflexivity. }
        intros _. split.
        { destruct Oe as [Oe|Oe]; rewrite Oe; [exists g0; split; [apply in_app_iff; auto|exact Eg0]|].
          exists f. split; [apply in_app_iff; right; left; reflexivity|reflexivity]. }
        intros g Hg Ng. apply in_app_iff in Hg as [Hg|[<-|[]]]; [|exact Or].
        unfold compare_go in *. eapply T; [exact Ol|]. apply Hmin; assumption.
Qed.
Print Assumptions C26_oldest_go_version.

Example C26_example :
  let mods := [GoMod [Req (B "x") (B "v1.9.0") false] (B "1.21"); GoMod [Req (B "x") (B "v1.10.0") true; Req (B "y") (B "v0.1.0") false] [];
               GoMod [Req (B "x") (B "v1.10.0-rc.1") false] (B "1.9")] in
  parse_project_deps mods false = Some ([(B "x", B "v1.9.0"); (B "y", B "v0.1.0")], B "1.9") /\
  parse_project_deps mods true = Some ([(B "x", B "v1.10.0"); (B "y", B "v0.1.0")], B "1.9").
Proof. split; reflexivity. Qed.

(** ** C25: line bitmaps *)

(** A correct edit script from position [(i, j)] on: blocks kept, replaced,
    deleted or inserted, one after the other, covering both texts. *)
Inductive script : nat -> nat -> list bytes -> list bytes -> list opcode -> Prop :=
| sc_end i j : script i j [] [] []
| sc_equal i j b o n ops : script (i + length b) (j + length b) o n ops ->
    script i j (b ++ o) (b ++ n) (Op TEqual i (i + length b) j (j + length b) :: ops)
| sc_replace i j b c o n ops : script (i + length b) (j + length c) o n ops ->
    script i j (b ++ o) (c ++ n) (Op TReplace i (i + length b) j (j + length c) :: ops)
| sc_delete i j b o n ops : script (i + length b) j o n ops ->
    script i j (b ++ o) n (Op TDelete i (i + length b) j j :: ops)
| sc_insert i j c o n ops : script i (j + length c) o n ops ->
    script i j o (c ++ n) (Op TInsert i i j (j + length c) :: ops).

Definition bit (bm : list bool) (k : nat) : bool := nth k bm false.

Lemma mark_length bm i : length (mark bm i) = length bm.
Proof.
  unfold mark. destruct ((0 <=? i) && (i <? Z.of_nat (length bm)))%Z eqn:E; [|reflexivity].
  apply andb_true_iff in E as [E1 E2]. apply Z.leb_le in E1. apply Z.ltb_lt in E2.
  rewrite app_length. cbn [length]. rewrite firstn_length, skipn_length. lia.
Qed.
Lemma mark_bit bm i k : (k < length bm)%nat -> bit (mark bm i) k = (Z.of_nat k =? i)%Z || bit bm k.
Proof.
  intros Hk. unfold mark, bit. destruct ((0 <=? i) && (i <? Z.of_nat (length bm)))%Z eqn:E.
  - apply andb_true_iff in E as [E1 E2]. apply Z.leb_le in E1. apply Z.ltb_lt in E2.
    assert (length (firstn (Z.to_nat i) bm) = Z.to_nat i) as Lf by (rewrite firstn_length; lia).
    destruct (Z.eqb_spec (Z.of_nat k) i) as [<-|N].
    + rewrite app_nth2; rewrite Lf, Nat2Z.id; [|lia]. rewrite Nat.sub_diag. reflexivity.
    + cbn [orb]. destruct (Nat.lt_ge_cases k (Z.to_nat i)) as [Hl|Hl].
      * rewrite app_nth1 by lia. rewrite <- (firstn_skipn (Z.to_nat i) bm) at 2. rewrite app_nth1 by lia. reflexivity.
      * rewrite app_nth2 by lia. rewrite Lf. destruct (k - Z.to_nat i)%nat as [|m] eqn:Em; [lia|]. cbn [nth].
        rewrite <- (firstn_skipn (S (Z.to_nat i)) bm) at 2. rewrite app_nth2; rewrite firstn_length; [|lia]. f_equal. lia.
  - destruct (Z.eqb_spec (Z.of_nat k) i) as [<-|N]; [|reflexivity]. exfalso.
    apply andb_false_iff in E as [E|E]; [apply Z.leb_gt in E|apply Z.ltb_ge in E]; lia.
Qed.

Lemma fold_marks {A} (f : list bool -> A -> list bool) (P : A -> nat -> bool) :
  (forall bm a, length (f bm a) = length bm) ->
  (forall bm a k, (k < length bm)%nat -> bit (f bm a) k = P a k || bit bm k) ->
  forall l bm, length (fold_left f l bm) = length bm /\
    forall k, (k < length bm)%nat -> bit (fold_left f l bm) k = existsb (fun a => P a k) l || bit bm k.
Proof.
  intros HL HB. induction l as [|a l IH]; intros bm; cbn [fold_left existsb]; [auto|].
  destruct (IH (f bm a)) as [H1 H2]. rewrite HL in *. split; [exact H1|]. intros k Hk.
  rewrite H2, HB by assumption. destruct (P a k), (existsb _ l); reflexivity.
Qed.

Definition within (radius : Z) (idx : Z) (k : nat) : bool := (Z.abs (Z.of_nat k - idx) <=? Z.max 0 radius)%Z.

Lemma upto_in from n x : In x (upto from n) <-> (from <= x < from + Z.of_nat n)%Z.
Proof.
  unfold upto. rewrite in_map_iff. split.
  - intros (k & <- & Hk). apply in_seq in Hk. lia.
  - intros H. exists (Z.to_nat (x - from)). split; [lia|]. apply in_seq. lia.
Qed.

Lemma existsb_iff {A} (f : A -> bool) l b : (b = true <-> exists x, In x l /\ f x = true) -> existsb f l = b.
Proof.
  intros H. apply eq_true_iff_eq. rewrite existsb_exists, H. reflexivity.
Qed.

Lemma mark_radius_spec radius : forall bm idx, length (mark_radius radius bm idx) = length bm /\
  forall k, (k < length bm)%nat -> bit (mark_radius radius bm idx) k = within radius idx k || bit bm k.
Proof.
  intros bm idx. unfold mark_radius.
  destruct (fold_marks (fun b r => mark (mark b (idx - r)) (idx + r))%Z
     (fun r k => (Z.of_nat k =? idx + r) || (Z.of_nat k =? idx - r))%Z) with (l := upto 1 (Z.to_nat radius)) (bm := mark bm idx) as [H1 H2].
  - intros; rewrite !mark_length; reflexivity.
  - intros b a k Hk. rewrite !mark_bit by (rewrite ?mark_length; exact Hk). apply orb_assoc.
  - rewrite mark_length in *. split; [exact H1|]. intros k Hk. rewrite H2, mark_bit by exact Hk.
    rewrite orb_assoc. f_equal. apply eq_true_iff_eq. unfold within. rewrite orb_true_iff, existsb_exists, Z.leb_le, Z.eqb_eq.
    split.
    + intros [(r & Hr & E)|E]; [|lia]. apply upto_in in Hr. apply orb_true_iff in E. rewrite !Z.eqb_eq in E. lia.
    + intros H. destruct (Z.eq_dec (Z.of_nat k) idx) as [E|N]; [right; exact E|]. left.
      exists (Z.abs (Z.of_nat k - idx)). split; [apply upto_in; lia|]. apply orb_true_iff. rewrite !Z.eqb_eq. lia.
Qed.

(** Line [k] of the old text is touched by an opcode. *)
Definition touches_old (radius : Z) (c : opcode) (k : nat) : Prop :=
  match op_tag c with
  | TEqual => False
  | TReplace | TDelete => (op_i1 c <= k < op_i2 c)%nat
  | TInsert => (Z.of_nat (op_i1 c) - radius <= Z.of_nat k < Z.of_nat (op_i1 c) + radius)%Z
  end.
Definition touches_new (radius : Z) (c : opcode) (k : nat) : Prop :=
  match op_tag c with
  | TEqual => False
  | TReplace | TDelete => (op_j1 c <= k < op_j2 c)%nat
  | TInsert => exists j, (op_j1 c <= j < op_j2 c)%nat /\ (Z.abs (Z.of_nat k - Z.of_nat j) <= Z.max 0 radius)%Z
  end.

Lemma mark_op_old radius : forall bm c, length (mark_op false radius bm c) = length bm /\
  forall k, (k < length bm)%nat -> (bit (mark_op false radius bm c) k = true <-> touches_old radius c k \/ bit bm k = true).
Proof.
  intros bm [t i1 i2 j1 j2]. unfold mark_op, touches_old. cbn [op_tag op_i1 op_i2 op_j1 op_j2].
  assert (forall bm, length (fold_left mark (upto (Z.of_nat i1) (i2 - i1)) bm) = length bm /\
    forall k, (k < length bm)%nat -> (bit (fold_left mark (upto (Z.of_nat i1) (i2 - i1)) bm) k = true <->
      (i1 <= k < i2)%nat \/ bit bm k = true)) as Hd.
  { intros bm0. destruct (fold_marks mark (fun i k => Z.of_nat k =? i)%Z mark_length
      (fun b a k H => mark_bit b a k H) (upto (Z.of_nat i1) (i2 - i1)) bm0) as [H1 H2].
    split; [exact H1|]. intros k Hk. rewrite H2, orb_true_iff, existsb_exists by exact Hk.
    split; (intros [H|H]; [left|right; exact H]).
    - destruct H as (x & Hx & E). apply upto_in in Hx. apply Z.eqb_eq in E. lia.
    - exists (Z.of_nat k). split; [apply upto_in; lia|apply Z.eqb_refl]. }
  destruct t; cbn [is_equal is_insert negb].
  - split; [reflexivity|]. intros; tauto.
  - apply Hd.
  - apply Hd.
  - destruct (fold_marks (fun b r => mark (mark b (Z.of_nat i1 - 1 - r)) (Z.of_nat i1 + r))%Z
      (fun r k => (Z.of_nat k =? Z.of_nat i1 + r) || (Z.of_nat k =? Z.of_nat i1 - 1 - r))%Z)
      with (l := upto 0 (Z.to_nat radius)) (bm := bm) as [H1 H2].
    + intros; rewrite !mark_length; reflexivity.
    + intros b a k Hk. rewrite !mark_bit by (rewrite ?mark_length; exact Hk). apply orb_assoc.
    + split; [exact H1|]. intros k Hk. rewrite H2, orb_true_iff, existsb_exists by exact Hk.
      split; (intros [H|H]; [left|right; exact H]).
      * destruct H as (r & Hr & E). apply upto_in in Hr. apply orb_true_iff in E. rewrite !Z.eqb_eq in E. lia.
      * exists (if Z.leb (Z.of_nat i1) (Z.of_nat k) then Z.of_nat k - Z.of_nat i1 else Z.of_nat i1 - 1 - Z.of_nat k)%Z.
        destruct (Z.leb_spec (Z.of_nat i1) (Z.of_nat k)); (split; [apply upto_in; lia|]);
          apply orb_true_iff; rewrite !Z.eqb_eq; lia.
Qed.

Lemma mark_op_new radius : forall bm c, length (mark_op true radius bm c) = length bm /\
  forall k, (k < length bm)%nat -> (bit (mark_op true radius bm c) k = true <-> touches_new radius c k \/ bit bm k = true).
Proof.
  intros bm [t i1 i2 j1 j2]. unfold mark_op, touches_new. cbn [op_tag op_i1 op_i2 op_j1 op_j2].
  assert (forall bm, length (fold_left mark (upto (Z.of_nat j1) (j2 - j1)) bm) = length bm /\
    forall k, (k < length bm)%nat -> (bit (fold_left mark (upto (Z.of_nat j1) (j2 - j1)) bm) k = true <->
      (j1 <= k < j2)%nat \/ bit bm k = true)) as Hd.
  { intros bm0. destruct (fold_marks mark (fun i k => Z.of_nat k =? i)%Z mark_length
      (fun b a k H => mark_bit b a k H) (upto (Z.of_nat j1) (j2 - j1)) bm0) as [H1 H2].
    split; [exact H1|]. intros k Hk. rewrite H2, orb_true_iff, existsb_exists by exact Hk.
    split; (intros [H|H]; [left|right; exact H]).
    - destruct H as (x & Hx & E). apply upto_in in Hx. apply Z.eqb_eq in E. lia.
    - exists (Z.of_nat k). split; [apply upto_in; lia|apply Z.eqb_refl]. }
  destruct t; cbn [is_equal is_insert].
  - split; [reflexivity|]. intros; tauto.
  - apply Hd.
  - apply Hd.
  - destruct (fold_marks (fun b j => mark_radius radius b j) (fun j k => within radius j k))
      with (l := upto (Z.of_nat j1) (j2 - j1)) (bm := bm) as [H1 H2].
    + intros; apply mark_radius_spec.
    + intros b a k Hk. apply mark_radius_spec. exact Hk.
    + split; [exact H1|]. intros k Hk. rewrite H2, orb_true_iff, existsb_exists by exact Hk. unfold within.
      split; (intros [H|H]; [left|right; exact H]).
      * destruct H as (j & Hj & E). apply upto_in in Hj. apply Z.leb_le in E. exists (Z.to_nat j). lia.
      * destruct H as (j & Hj & E). exists (Z.of_nat j). split; [apply upto_in; lia|]. apply Z.leb_le. exact E.
Qed.

Lemma mark_ops_bits (f : list bool -> opcode -> list bool) (T : opcode -> nat -> Prop) :
  (forall bm c, length (f bm c) = length bm /\
    forall k, (k < length bm)%nat -> (bit (f bm c) k = true <-> T c k \/ bit bm k = true)) ->
  forall ops bm, length (fold_left f ops bm) = length bm /\
    forall k, (k < length bm)%nat -> (bit (fold_left f ops bm) k = true <-> (exists c, In c ops /\ T c k) \/ bit bm k = true).
Proof.
  intros H. induction ops as [|c ops IH]; intros bm; cbn [fold_left].
  - split; [reflexivity|]. intros k _. split; [auto|]. intros [(c & [] & _)|E]; exact E.
  - destruct (H bm c) as [L B1]. destruct (IH (f bm c)) as [L' B2]. rewrite L in *. split; [exact L'|].
    intros k Hk. rewrite B2, B1 by exact Hk. split.
    + intros [(c' & Hc & Ht)|[Ht|Hb]]; [left; exists c'; split; [right|]; assumption|left; exists c; split; [left; reflexivity|exact Ht]|right; exact Hb].
    + intros [(c' & [<-|Hc] & Ht)|Hb]; [right; left; exact Ht|left; exists c'; auto|right; right; exact Hb].
Qed.

Lemma repeat_bit n k : bit (repeat false n) k = false.
Proof. unfold bit. revert k; induction n as [|n IH]; intros [|k]; cbn; auto. Qed.

(** One bit per line of the old definition; a bit is set exactly when the line is
    replaced or deleted, or lies within the radius of an insertion point. *)
Theorem C25_old_bits_exact : forall opcodes old new radius,
  let bm := line_bitmap opcodes old new false radius in
  let old_lines := split_on nl old in
  length bm = length old_lines /\
  forall k, (k < length old_lines)%nat ->
    (nth k bm false = true <->
     exists c, In c (opcodes old_lines (split_on nl new)) /\ touches_old radius c k).
Proof.
  intros opcodes old new radius bm old_lines. unfold bm, line_bitmap. fold old_lines.
  destruct (mark_ops_bits _ _ (mark_op_old radius) (opcodes old_lines (split_on nl new)) (repeat false (length old_lines))) as [H1 H2].
  rewrite repeat_length in *. split; [exact H1|]. intros k Hk. fold (bit (fold_left (mark_op false radius) (opcodes old_lines (split_on nl new)) (repeat false (length old_lines))) k).
  rewrite H2, repeat_bit by exact Hk. split; [intros [H|H]; [exact H|discriminate]|auto].
Qed.
Print Assumptions C25_old_bits_exact.

Theorem C25_new_bits_exact : forall opcodes old new radius,
  let bm := line_bitmap opcodes old new true radius in
  let new_lines := split_on nl new in
  length bm = length new_lines /\
  forall k, (k < length new_lines)%nat ->
    (nth k bm false = true <->
     exists c, In c (opcodes (split_on nl old) new_lines) /\ touches_new radius c k).
Proof.
  intros opcodes old new radius bm new_lines. unfold bm, line_bitmap. fold new_lines.
  destruct (mark_ops_bits _ _ (mark_op_new radius) (opcodes (split_on nl old) new_lines) (repeat false (length new_lines))) as [H1 H2].
  rewrite repeat_length in *. split; [exact H1|]. intros k Hk.
  fold (bit (fold_left (mark_op true radius) (opcodes (split_on nl old) new_lines) (repeat false (length new_lines))) k).
  rewrite H2, repeat_bit by exact Hk. split; [intros [H|H]; [exact H|discriminate]|auto].
Qed.
Print Assumptions C25_new_bits_exact.

(** [sub a b]: [a] occurs in [b] in order. *)
Inductive sub {A} : list A -> list A -> Prop :=
| sub_nil b : sub [] b
| sub_keep x a b : sub a b -> sub (x :: a) (x :: b)
| sub_skip x a b : sub a b -> sub a (x :: b).
(** The lines whose bit is clear. *)
Fixpoint unmarked (bm : list bool) (ls : list bytes) : list bytes :=
  match bm, ls with
  | b :: bm', l :: ls' => if b then unmarked bm' ls' else l :: unmarked bm' ls'
  | _, _ => []
  end.

Lemma sub_skips {A} (c a b : list A) : sub a b -> sub a (c ++ b).
Proof. intros H. induction c as [|x c IH]; cbn; [exact H|constructor; exact IH]. Qed.

Lemma script_unmarked i j o n ops : script i j o n ops -> forall bm,
  length bm = length o ->
  (forall k c, In c ops -> op_tag c <> TEqual -> op_tag c <> TInsert -> (op_i1 c <= i + k < op_i2 c)%nat -> bit bm k = true) ->
  sub (unmarked bm o) n.
Proof.
  induction 1 as [i j|i j b o n ops H IH|i j b c o n ops H IH|i j b o n ops H IH|i j c o n ops H IH]; intros bm L Hb.
  - destruct bm; [constructor|discriminate].
  - (* kept block *)
    assert (exists b1 b2, bm = b1 ++ b2 /\ length b1 = length b) as (b1 & b2 & -> & L1).
    { exists (firstn (length b) bm), (skipn (length b) bm). split; [symmetry; apply firstn_skipn|].
      rewrite firstn_length. rewrite app_length in L. lia. }
    assert (sub (unmarked b2 o) n) as Hs.
    { apply IH; [rewrite !app_length in L; lia|]. intros k c Hc T1 T2 Hk.
      specialize (Hb (length b + k)%nat c (or_intror Hc) T1 T2 ltac:(lia)).
      unfold bit in *. rewrite app_nth2 in Hb by lia. rewrite <- Hb. f_equal. lia. }
    clear - L1 Hs. revert b1 L1. induction b as [|x b IHb]; intros [|y b1] L1; try discriminate; [exact Hs|].
    cbn. destruct y; [apply sub_skip|apply sub_keep]; apply IHb; injection L1; auto.
  - assert (exists b1 b2, bm = b1 ++ b2 /\ length b1 = length b) as (b1 & b2 & -> & L1).
    { exists (firstn (length b) bm), (skipn (length b) bm). split; [symmetry; apply firstn_skipn|].
      rewrite firstn_length. rewrite app_length in L. lia. }
    assert (sub (unmarked b2 o) n) as Hs.
    { apply IH; [rewrite !app_length in L; lia|]. intros k c0 Hc T1 T2 Hk.
      specialize (Hb (length b + k)%nat c0 (or_intror Hc) T1 T2 ltac:(lia)).
      unfold bit in *. rewrite app_nth2 in Hb by lia. rewrite <- Hb. f_equal. lia. }
    assert (forall k, (k < length b1)%nat -> nth k b1 false = true) as Hall.
    { intros k Hk. specialize (Hb k _ (or_introl eq_refl) ltac:(discriminate) ltac:(discriminate)).
      cbn [op_i1 op_i2] in Hb. specialize (Hb ltac:(lia)). unfold bit in Hb. rewrite app_nth1 in Hb by exact Hk. exact Hb. }
    apply sub_skips. clear - L1 Hs Hall. revert b1 L1 Hall. induction b as [|x b IHb]; intros [|y b1] L1 Hall; try discriminate; [exact Hs|].
    assert (y = true) as -> by (apply (Hall 0%nat); cbn; lia). cbn. apply IHb; [injection L1; auto|]. intros k Hk. apply (Hall (S k)). cbn; lia.
  - assert (exists b1 b2, bm = b1 ++ b2 /\ length b1 = length b) as (b1 & b2 & -> & L1).
    { exists (firstn (length b) bm), (skipn (length b) bm). split; [symmetry; apply firstn_skipn|].
      rewrite firstn_length. rewrite app_length in L. lia. }
    assert (sub (unmarked b2 o) n) as Hs.
    { apply IH; [rewrite !app_length in L; lia|]. intros k c0 Hc T1 T2 Hk.
      specialize (Hb (length b + k)%nat c0 (or_intror Hc) T1 T2 ltac:(lia)).
      unfold bit in *. rewrite app_nth2 in Hb by lia. rewrite <- Hb. f_equal. lia. }
    assert (forall k, (k < length b1)%nat -> nth k b1 false = true) as Hall.
    { intros k Hk. specialize (Hb k _ (or_introl eq_refl) ltac:(discriminate) ltac:(discriminate)).
      cbn [op_i1 op_i2] in Hb. specialize (Hb ltac:(lia)). unfold bit in Hb. rewrite app_nth1 in Hb by exact Hk. exact Hb. }
    clear - L1 Hs Hall. revert b1 L1 Hall. induction b as [|x b IHb]; intros [|y b1] L1 Hall; try discriminate; [exact Hs|].
    assert (y = true) as -> by (apply (Hall 0%nat); cbn; lia). cbn. apply IHb; [injection L1; auto|]. intros k Hk. apply (Hall (S k)). cbn; lia.
  - apply sub_skips. apply IH; [exact L|]. intros k c0 Hc T1 T2 Hk. apply (Hb k c0 (or_intror Hc) T1 T2 Hk).
Qed.

(** With a correct edit script, every line whose bit is clear is in the new
    definition, unchanged and in order. *)
Theorem C25_unmarked_lines_survive : forall opcodes old new radius,
  script 0 0 (split_on nl old) (split_on nl new) (opcodes (split_on nl old) (split_on nl new)) ->
  sub (unmarked (line_bitmap opcodes old new false radius) (split_on nl old)) (split_on nl new).
Proof.
  intros opcodes old new radius H. destruct (C25_old_bits_exact opcodes old new radius) as [L Hb].
  eapply script_unmarked; [exact H|exact L|]. intros k c Hc T1 T2 Hk. cbn in Hk.
  destruct (Nat.lt_ge_cases k (length (split_on nl old))) as [Hl|Hl].
  - apply Hb; [exact Hl|]. exists c. split; [exact Hc|]. unfold touches_old. destruct (op_tag c); try congruence; exact Hk.
  - exfalso.
    assert (forall i j o n ops, script i j o n ops -> forall c, In c ops -> (op_i2 c <= i + length o)%nat) as Bd.
    { clear. induction 1 as [i j|i j b o n ops H IH|i j b c o n ops H IH|i j b o n ops H IH|i j c o n ops H IH];
        intros c0 Hc; [destruct Hc| | | |]; (destruct Hc as [<-|Hc]; [|specialize (IH _ Hc)]); cbn [op_i2];
        rewrite ?app_length in *; lia. }
    specialize (Bd _ _ _ _ _ H c Hc). lia.
Qed.
Print Assumptions C25_unmarked_lines_survive.

(** With radius zero (every mutation scope but "area") a change that only adds
    lines marks nothing at all. *)
Theorem C25_pure_insertions_unmarked_refuted : forall opcodes old new,
  (forall c, In c (opcodes (split_on nl old) (split_on nl new)) -> op_tag c = TEqual \/ op_tag c = TInsert) ->
  line_bitmap opcodes old new false 0 = repeat false (length (split_on nl old)).
Proof.
  intros opcodes old new H. destruct (C25_old_bits_exact opcodes old new 0) as [L Hb].
  apply (nth_ext _ _ false false); [rewrite repeat_length; exact L|]. intros k Hk. rewrite L in Hk.
  rewrite (repeat_bit (length (split_on nl old)) k : nth k (repeat false _) false = false).
  apply not_true_is_false. intros E. apply Hb in E as (c & Hc & T); [|exact Hk].
  unfold touches_old in T. destruct (H c Hc) as [E|E]; rewrite E in T; [exact T|lia].
Qed.
Print Assumptions C25_pure_insertions_unmarked_refuted.

Example C25_example :
  let old := B "a" ++ [nl] ++ B "b" ++ [nl] ++ B "c" ++ [nl] ++ B "d" in
  let new := B "a" ++ [nl] ++ B "x" ++ [nl] ++ B "c" ++ [nl] ++ B "y" ++ [nl] ++ B "d" in
  let ops := [Op TEqual 0 1 0 1; Op TReplace 1 2 1 2; Op TEqual 2 3 2 3; Op TInsert 3 3 3 4; Op TEqual 3 4 4 5] in
  script 0 0 (split_on nl old) (split_on nl new) ops /\
  line_bitmap (fun _ _ => ops) old new false 0 = [false; true; false; false] /\
  line_bitmap (fun _ _ => ops) old new false 1 = [false; true; true; true] /\
  line_bitmap (fun _ _ => ops) old new true 1 = [false; true; true; true; true].
Proof.
  cbn zeta. split.
  - apply (sc_equal 0 0 [B "a"]). apply (sc_replace 1 1 [B "b"] [B "x"]). apply (sc_equal 2 2 [B "c"]).
    apply (sc_insert 3 3 [B "y"]). apply (sc_equal 3 4 [B "d"] []). constructor.
  - split; [reflexivity|]. split; reflexivity.
Qed.

(** ** C52: the changed functions of a module *)

(** The definition that counts when several functions of a package have the same
    identifier: the last of the last file that has one. *)
Definition last_def (fs : list (bytes * bytes)) (k d : bytes) : Prop :=
  exists a b, fs = a ++ (k, d) :: b /\ Forall (fun e => fst e <> k) b.
Definition defines (p : package) (k d : bytes) : Prop := last_def (concat (pk_files p)) k d.
(** The package that counts when several have the same path: the last. *)
Definition last_pkg (ps : list package) (path : bytes) (p : package) : Prop :=
  exists a b, ps = a ++ p :: b /\ pk_path p = path /\ Forall (fun q => pk_path q <> path) b.

Lemma fold_set_get (l : list (bytes * bytes)) k : forall m,
  mget k (fold_left (fun m kv => mset (fst kv) (snd kv) m) l m) =
  match find (fun e => beq (fst e) k) (rev l) with Some e => Some (snd e) | None => mget k m end.
Proof.
  induction l as [|[k' d] l IH] using rev_ind; intros m; [reflexivity|].
  rewrite fold_left_app, rev_app_distr. cbn [fold_left rev app find fst snd]. rewrite mget_mset, (beq_sym k k').
  destruct (beq k' k); [reflexivity|apply IH].
Qed.
Lemma find_last_def l k d : option_map snd (find (fun e => beq (fst e) k) (rev l)) = Some d <-> last_def l k d.
Proof.
  induction l as [|[k' d'] l IH] using rev_ind.
  - cbn. split; [discriminate|]. intros (a & b & E & _). destruct a; discriminate.
  - rewrite rev_app_distr. cbn [rev app find fst]. destruct (beq_spec k' k) as [->|N].
    + split.
      * intros [= <-]. exists l, []. auto.
      * intros (a & b & E & F). destruct b as [|x b] using rev_ind.
        { apply app_inj_tail in E as [_ E]. injection E as ->. reflexivity. }
        rewrite app_comm_cons, app_assoc in E. apply app_inj_tail in E as [_ <-].
        apply Forall_app in F as [_ F]. inversion F; subst. cbn in *. congruence.
    + rewrite IH. split.
      * intros (a & b & -> & F). exists a, (b ++ [(k', d')]). rewrite <- app_assoc. split; [reflexivity|].
        apply Forall_app. split; [exact F|constructor; [exact N|constructor]].
      * intros (a & b & E & F). destruct b as [|x b] using rev_ind.
        { apply app_inj_tail in E as [_ E]. injection E as -> ->. congruence. }
        rewrite app_comm_cons, app_assoc in E. apply app_inj_tail in E as [-> <-].
        apply Forall_app in F as [F _]. exists a, b. auto.
Qed.

Lemma aggregate_get p k d : mget k (aggregate p) = Some d <-> defines p k d.
Proof.
  unfold defines. rewrite <- find_last_def.
  assert (mget k (aggregate p) = option_map snd (find (fun e => beq (fst e) k) (rev (concat (pk_files p))))) as ->; [|reflexivity].
  unfold aggregate. induction (pk_files p) as [|f fs IH] using rev_ind; [reflexivity|].
  rewrite fold_left_app. cbn [fold_left]. rewrite concat_app. cbn [concat]. rewrite app_nil_r.
  set (inner := fold_left (fun m kv => mset (fst kv) (snd kv) m) f []).
  rewrite fold_set_get, IH, rev_app_distr.
  assert (forall k, option_map snd (find (fun e => beq (fst e) k) (rev inner)) =
                    option_map snd (find (fun e => beq (fst e) k) (rev f))) as Hin.
  { intros k0. assert (mwf inner) as W.
    { unfold inner. assert (forall m : amap bytes, mwf m -> mwf (fold_left (fun m kv => mset (fst kv) (snd kv) m) f m)) as H.
      { clear. induction f as [|e f IH]; intros m W; cbn; [exact W|]. apply IH, mwf_mset, W. }
      apply H. constructor. }
    transitivity (mget k0 inner).
    - clearbody inner. clear IH. destruct (find (fun e => beq (fst e) k0) (rev inner)) as [[k1 d1]|] eqn:E.
      + apply find_some in E as [E1 E2]. cbn in *. apply beq_true in E2. subst k1. symmetry. apply mget_in_wf; [exact W|].
        apply in_rev. exact E1.
      + destruct (mget k0 inner) as [d1|] eqn:E2; [|reflexivity]. exfalso. apply mget_in in E2.
        apply in_rev in E2. pose proof (find_none _ _ E _ E2) as E3. cbn in E3. rewrite beq_refl in E3. discriminate.
    - unfold inner. rewrite fold_set_get. destruct (find _ (rev f)); reflexivity. }
  specialize (Hin k).
  assert (forall (l1 l2 : list (bytes * bytes)), find (fun e => beq (fst e) k) (l1 ++ l2) =
    match find (fun e => beq (fst e) k) l1 with Some e => Some e | None => find (fun e => beq (fst e) k) l2 end) as Fa.
  { induction l1 as [|x l1 IH1]; intros l2; cbn; [reflexivity|]. destruct (beq (fst x) k); [reflexivity|apply IH1]. }
  rewrite Fa. destruct (find _ (rev inner)), (find _ (rev f)); cbn in Hin |- *; congruence.
Qed.

Lemma pkg_at_spec ps path p : pkg_at ps path = Some p <-> last_pkg ps path p.
Proof.
  unfold pkg_at. induction ps as [|q ps IH] using rev_ind.
  - cbn. split; [discriminate|]. intros (a & b & E & _). destruct a; discriminate.
  - rewrite rev_app_distr. cbn [rev app find]. destruct (beq_spec (pk_path q) path) as [E|N].
    + split.
      * intros [= <-]. exists ps, []. auto.
      * intros (a & b & Eq & Hp & F). destruct b as [|x b] using rev_ind.
        { apply app_inj_tail in Eq as [_ ->]. reflexivity. }
        rewrite app_comm_cons, app_assoc in Eq. apply app_inj_tail in Eq as [_ <-].
        apply Forall_app in F as [_ F]. inversion F; subst. congruence.
    + rewrite IH. split.
      * intros (a & b & -> & Hp & F). exists a, (b ++ [q]). rewrite <- app_assoc. split; [reflexivity|]. split; [exact Hp|].
        apply Forall_app. split; [exact F|constructor; [exact N|constructor]].
      * intros (a & b & Eq & Hp & F). destruct b as [|x b] using rev_ind.
        { apply app_inj_tail in Eq as [_ ->]. congruence. }
        rewrite app_comm_cons, app_assoc in Eq. apply app_inj_tail in Eq as [-> <-].
        apply Forall_app in F as [F _]. exists a, b. auto.
Qed.

(** The functions reported for a module are exactly those that exist under the
    same identifier in a package of both versions with different definitions,
    with the old definition and its bitmap. *)
Theorem C52_changed_functions_exact : forall opcodes load project func_order dep_order transitive radius mc fs pkgs calls new old,
  (forall n i l, Permutation (func_order n i l) l) ->
  load (mc_name mc) (mc_new mc) = Some new -> load (mc_name mc) (mc_prior mc) = Some old ->
  analyze_module opcodes load project func_order dep_order transitive radius mc = Some (fs, pkgs, calls) ->
  forall f, In f fs <->
    exists p q d od,
      In p (ld_pkgs new) /\ last_pkg (ld_pkgs old) (pk_path p) q /\
      defines p (fn_key f) d /\ defines q (fn_key f) od /\ od <> d /\
      fn_def f = od /\ fn_bitmap f = line_bitmap opcodes od d false radius /\
      mc_name (fn_mod f) = mc_name mc /\ mc_prior (fn_mod f) = mc_prior mc /\ mc_new (fn_mod f) = mc_new mc /\
      mc_indirect (fn_mod f) = mc_indirect mc /\
      exists od' ng od'' ng', parse_project_deps (ld_mods old) false = Some (od', od'') /\
        parse_project_deps (ld_mods new) true = Some (ng, ng') /\
        mc_go (fn_mod f) = older_go (older_go (mc_go mc) od'') ng'.
Proof.
  intros opcodes load project fo dord tr radius mc fs pkgs calls new old Hfo Ln Lo H f.
  unfold analyze_module in H. rewrite Ln, Lo in H.
  destruct (parse_project_deps (ld_mods old) false) as [[odeps ogo]|] eqn:Eo; [|discriminate].
  destruct (parse_project_deps (ld_mods new) true) as [[ndeps ngo]|] eqn:En; [|discriminate].
  set (mc' := Change (mc_name mc) (mc_prior mc) (mc_new mc) (mc_indirect mc) (older_go (older_go (mc_go mc) ogo) ngo)) in *.
  assert (fs = changed_from opcodes fo mc' radius (ld_pkgs old) 0 (ld_pkgs new)) as ->.
  { destruct tr; [destruct (parse_project_deps project false) as [[? ?]|]; [|discriminate]|]; injection H; auto. }
  clear H Ln Lo.
  assert (forall ps i, In f (changed_from opcodes fo mc' radius (ld_pkgs old) i ps) <->
    exists p q d od, In p ps /\ last_pkg (ld_pkgs old) (pk_path p) q /\ defines p (fn_key f) d /\ defines q (fn_key f) od /\ od <> d /\
      f = MFunc (fn_key f) od (line_bitmap opcodes od d false radius) mc') as Hc.
  { induction ps as [|p ps IH]; intros i; cbn [changed_from].
    - split; [intros []|]. intros (p & q & d & od & [] & _).
    - rewrite in_app_iff, IH. unfold changed_in. split.
      + intros [Hf|(p' & q & d & od & Hp & Hr)]; [|exists p', q, d, od; split; [right; exact Hp|exact Hr]].
        destruct (pkg_at (ld_pkgs old) (pk_path p)) as [q|] eqn:Eq; [|destruct Hf].
        apply in_flat_map in Hf as ([k d] & Hk & Hf).
        apply (Permutation_in _ (Hfo _ _ _)) in Hk.
        destruct (mget k (aggregate q)) as [od|] eqn:Eod; [|destruct Hf].
        destruct (beq_spec od d) as [|Nd]; [destruct Hf|]. destruct Hf as [<-|[]].
        exists p, q, d, od. cbn [fn_key]. split; [left; reflexivity|]. split; [apply pkg_at_spec; exact Eq|].
        split; [|split; [apply aggregate_get; exact Eod|split; [exact Nd|reflexivity]]].
        apply aggregate_get. apply mget_in_wf; [|exact Hk].
        unfold aggregate. clear. assert (forall fl (m : amap bytes), mwf m -> mwf (fold_left (fun m file => fold_left (fun m kv => mset (fst kv) (snd kv) m)
          (fold_left (fun m kv => mset (fst kv) (snd kv) m) file []) m) fl m)) as H.
        { induction fl as [|x fl IH]; intros m W; cbn; [exact W|]. apply IH.
          revert m W. induction (fold_left (fun m kv => mset (fst kv) (snd kv) m) x []) as [|e l IHl]; intros m W; cbn; [exact W|].
          apply IHl, mwf_mset, W. }
        apply H. constructor.
      + intros (p' & q & d & od & [<-|Hp] & Hq & Hd & Hod & Nd & Hf); [left|right; exists p', q, d, od; auto 12].
        apply pkg_at_spec in Hq. rewrite Hq. apply aggregate_get in Hd, Hod.
        apply in_flat_map. exists (fn_key f, d). split.
        { apply (Permutation_in _ (Permutation_sym (Hfo _ _ _))). apply mget_in. exact Hd. }
        rewrite Hod. destruct (beq_spec od d); [congruence|]. left. symmetry. exact Hf. }
  rewrite (Hc (ld_pkgs new) 0%nat). clear Hc.
  split.
  - intros (p & q & d & od & Hp & Hq & Hd & Hod & Nd & Hf). exists p, q, d, od.
    split; [exact Hp|]. split; [exact Hq|]. split; [exact Hd|]. split; [exact Hod|]. split; [exact Nd|].
    rewrite Hf. cbn. repeat (split; [reflexivity|]). exists odeps, ndeps, ogo, ngo. auto.
  - intros (p & q & d & od & Hp & Hq & Hd & Hod & Nd & H1 & H2 & H3 & H4 & H5 & H6 & x1 & x2 & x3 & x4 & E1 & E2 & H7).
    exists p, q, d, od. split; [exact Hp|]. split; [exact Hq|]. split; [exact Hd|]. split; [exact Hod|]. split; [exact Nd|].
    injection E1 as <- <-. injection E2 as <- <-.
    destruct f as [k fd fb [n1 n2 n3 n4 n5]]. cbn in *. unfold mc'. congruence.
Qed.
Print Assumptions C52_changed_functions_exact.

(** Several functions of one package share an identifier (every [init] does): a
    change to any but the last goes unreported. *)
Theorem C52_earlier_init_changes_missed_refuted : exists old new,
  let p := Pkg (B "m") [[(B "m:init", B "func init() { a() }"); (B "m:init", B "func init() { b() }")]] in
  let q := Pkg (B "m") [[(B "m:init", B "func init() { EVIL() }"); (B "m:init", B "func init() { b() }")]] in
  old = Loaded [p] [GoMod [] []] /\ new = Loaded [q] [GoMod [] []] /\
  analyze_module (fun _ _ => []) (fun _ v => if beq v (B "v1") then Some old else Some new)
    [] (fun _ _ l => l) (fun _ l => l) false 0 (Change (B "m") (B "v1") (B "v2") false []) = Some ([], [q], []).
Proof. eexists _, _. cbn zeta. split; [reflexivity|]. split; reflexivity. Qed.
Print Assumptions C52_earlier_init_changes_missed_refuted.

Example C52_example :
  let p := Pkg (B "m") [[(B "m:f", B "1"); (B "m:g", B "2")]; [(B "m:h", B "3")]] in
  let q := Pkg (B "m") [[(B "m:f", B "1"); (B "m:new", B "9")]; [(B "m:h", B "33")]] in
  analyze_module (fun _ _ => [Op TReplace 0 1 0 1]) (fun _ v => if beq v (B "v1") then Some (Loaded [p] [GoMod [] (B "1.20")]) else Some (Loaded [q] [GoMod [] (B "1.19")]))
    [] (fun _ _ l => l) (fun _ l => l) false 0 (Change (B "m") (B "v1") (B "v2") false []) =
  Some ([MFunc (B "m:h") (B "3") [true] (Change (B "m") (B "v1") (B "v2") false (B "1.19"))], [q], []).
Proof. reflexivity. Qed.
