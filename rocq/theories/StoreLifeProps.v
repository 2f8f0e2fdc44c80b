(** Property C89: the store on disk from opening to closing. *)
From Verif Require Import Base Maps StorageModel StorageSpec StorageProofs StorageBadger StorageProps StoreLifeModel.

(** ** Paths *)
Lemma path_eqb_spec a : forall b, path_eqb a b = true <-> a = b.
Proof. induction a as [|x a IH]; intros [|y b]; cbn; try (split; [discriminate|discriminate]); [split; reflexivity|]. rewrite andb_true_iff, beq_true, IH. split; [intros [-> ->]; reflexivity|intros [= -> ->]; auto]. Qed.
Lemma path_eqb_refl a : path_eqb a a = true.
Proof. apply path_eqb_spec. reflexivity. Qed.
Lemma below_spec p : forall q, below p q = true <-> exists r, q = p ++ r.
Proof.
  induction p as [|x p IH]; intros q; cbn; [split; [intros _; exists q; reflexivity|reflexivity]|]. destruct q as [|y q]; [split; [discriminate|intros [r E]; discriminate]|].
  rewrite andb_true_iff, beq_true, IH. split; [intros [-> [r ->]]; exists r; reflexivity|intros [r [= -> ->]]; split; [reflexivity|exists r; reflexivity]].
Qed.
Lemma put_other p n f q : p <> q -> put p n f q = f q.
Proof. intros H. unfold put. destruct (path_eqb p q) eqn:E; [apply path_eqb_spec in E; contradiction|reflexivity]. Qed.
Lemma put_here p n f : put p n f p = n.
Proof. unfold put. rewrite path_eqb_refl. reflexivity. Qed.
(** os.MkdirAll makes directories on the way, and nothing else. *)
Lemma mkdir_spec : forall rest done f f' ok, mkdir_all done rest f = (f', ok) ->
  (forall q, f' q = f q \/ f q = None /\ f' q = Some NDir /\ exists r s, q = done ++ r /\ rest = r ++ s) /\
  (ok = true -> forall r s, rest = r ++ s -> f' (done ++ r) = Some NDir).
Proof.
  induction rest as [|x rest IH]; intros done f f' ok E; cbn [mkdir_all] in E.
  - destruct (f done) as [[|c]|] eqn:Ed.
    + injection E as <- <-. split; [auto|]. intros _ [|y r] s Er; [rewrite app_nil_r; exact Ed|discriminate].
    + injection E as <- <-. split; [auto|discriminate].
    + injection E as <- <-. split.
      * intros q. unfold put. destruct (path_eqb done q) eqn:Eq; [|auto]. apply path_eqb_spec in Eq as <-. right. split; [exact Ed|]. split; [reflexivity|]. exists [], []. rewrite app_nil_r. auto.
      * intros _ [|y r] s Er; [rewrite app_nil_r; apply put_here|discriminate].
  - assert (exists g, mkdir_all (done ++ [x]) rest g = (f', ok) /\ (forall q, g q = f q \/ f q = None /\ g q = Some NDir /\ q = done) /\ g done = Some NDir \/ f' = f /\ ok = false) as (g & [(E' & G & Gd)|(-> & ->)]).
    { destruct (f done) as [[|c]|] eqn:Ed.
      - exists f. left. split; [exact E|]. auto.
      - exists f. right. injection E as <- <-. auto.
      - exists (put done (Some NDir) f). left. split; [exact E|]. split; [|apply put_here]. intros q. unfold put. destruct (path_eqb done q) eqn:Eq; [|auto]. apply path_eqb_spec in Eq as <-. auto. }
    2:{ split; [auto|discriminate]. }
    destruct (IH _ _ _ _ E') as [I1 I2]. split.
    + intros q. destruct (I1 q) as [H|(H1 & H2 & r & s & H3 & H4)].
      * destruct (G q) as [H'|(A & C & ->)]; [left; congruence|]. right. split; [exact A|]. split; [congruence|]. exists [], (x :: rest). rewrite app_nil_r. auto.
      * right. split; [destruct (G q) as [H'|(A & _ & _)]; [congruence|exact A]|]. split; [exact H2|]. exists (x :: r), s. rewrite H3, H4, <- app_assoc. auto.
    + intros -> [|y r] s Er.
      * rewrite app_nil_r. destruct (I1 done) as [H|(H1 & H2 & _)]; [congruence|exact H2].
      * injection Er as <- Er. replace (done ++ x :: r) with ((done ++ [x]) ++ r) by (rewrite <- app_assoc; reflexivity). exact (I2 eq_refl r s Er).
Qed.
Lemma shut_paths n : forall l, map h_path (shut n l) = map h_path l.
Proof. induction n as [|n IH]; intros [|h l]; cbn; try reflexivity. rewrite IH. reflexivity. Qed.

(** ** What the stores leave alone *)
Definition dirs_of (d : disk) : list path := map h_path (d_handles d).
Lemma step_paths d a d' : act_step d a = Some d' -> exists m, dirs_of d' = dirs_of d ++ m.
Proof.
  unfold dirs_of. destruct a as [p ok|h q n|q n|h]; cbn [act_step]; intros E.
  - destruct (mkdir_all [] p (d_files d)) as [f made]. destruct (made && ok && negb (locked p (d_handles d))); injection E as <-; cbn [d_handles].
    + rewrite map_app. eauto.
    + exists []. rewrite app_nil_r. reflexivity.
  - destruct (nth_error (d_handles d) h) as [[p [|]]|]; try discriminate. destruct (below p q && negb (path_eqb p q)); [|discriminate]. injection E as <-. exists []. rewrite app_nil_r. reflexivity.
  - injection E as <-. exists []. rewrite app_nil_r. reflexivity.
  - destruct (nth_error (d_handles d) h) as [[p o]|]; [|discriminate]. injection E as <-. cbn [d_handles]. rewrite shut_paths. exists []. rewrite app_nil_r. reflexivity.
Qed.
Lemma nth_dir d h p o : nth_error (d_handles d) h = Some (Handle p o) -> In p (dirs_of d).
Proof. intros E. apply nth_error_In in E. apply (in_map h_path) in E. exact E. Qed.
(** Whatever stores are opened, used and closed: a path that is not in the directory of any of them, and that nobody else changes, keeps what is there;
    only directories leading to a store may be new. *)
Theorem C89_elsewhere : forall l d d' q, acts d l = Some d' -> (forall n, ~ In (AOther q n) l) -> (forall p, In p (dirs_of d') -> below p q = false) ->
  d_files d' q = d_files d q \/ d_files d q = None /\ d_files d' q = Some NDir /\ exists p ok r, In (AOpen p ok) l /\ p = q ++ r.
Proof.
  induction l as [|a l IH]; intros d d' q E N O; cbn [acts] in E; [injection E as <-; auto|].
  destruct (act_step d a) as [d1|] eqn:Ea; [|discriminate].
  assert (incl (dirs_of d1) (dirs_of d')) as I.
  { clear - E. revert d1 E. induction l as [|a l IH]; intros d1 E; cbn [acts] in E; [injection E as <-; intros x; auto|]. destruct (act_step d1 a) as [d2|] eqn:Ea; [|discriminate]. destruct (step_paths _ _ _ Ea) as [m Em]. intros x Hx. apply (IH _ E). rewrite Em. apply in_or_app. auto. }
  assert (d_files d1 q = d_files d q \/ d_files d q = None /\ d_files d1 q = Some NDir /\ exists p ok r, a = AOpen p ok /\ p = q ++ r) as S1.
  { destruct a as [p ok|h q' n|q' n|h]; cbn [act_step] in Ea.
    - destruct (mkdir_all [] p (d_files d)) as [f made] eqn:Em. assert (d_files d1 = f) as -> by (destruct (made && ok && negb (locked p (d_handles d))); injection Ea as <-; reflexivity).
      destruct (mkdir_spec _ _ _ _ _ Em) as [H _]. destruct (H q) as [H'|(A & C & r & s & D & F)]; [auto|]. right. split; [exact A|]. split; [exact C|]. exists p, ok, s. cbn in D. subst. auto.
    - left. destruct (nth_error (d_handles d) h) as [[p [|]]|] eqn:Eh; try discriminate. destruct (below p q' && negb (path_eqb p q')) eqn:Eb; [|discriminate]. injection Ea as <-. cbn [d_files]. apply put_other. intros ->. apply andb_true_iff in Eb as [Eb _].
      rewrite (O p (I _ (nth_dir _ _ _ _ Eh))) in Eb. discriminate.
    - left. injection Ea as <-. cbn [d_files]. apply put_other. intros ->. exact (N n (or_introl eq_refl)).
    - left. destruct (nth_error (d_handles d) h) as [[p o]|] eqn:Eh; [|discriminate]. injection Ea as <-. cbn [d_files]. unfold remove_all. rewrite (O p); [reflexivity|]. apply I. unfold dirs_of. cbn [d_handles]. rewrite shut_paths. exact (nth_dir _ _ _ _ Eh). }
  destruct (IH d1 d' q E (fun n H => N n (or_intror H)) O) as [H|(H1 & H2 & p & ok & r & H3 & H4)].
  - destruct S1 as [S1|(A & C & p & ok & r & D & F)]; [left; congruence|]. right. split; [exact A|]. split; [congruence|]. exists p, ok, r. subst. split; [left; reflexivity|reflexivity].
  - right. split; [destruct S1 as [S1|(A & _)]; congruence|]. split; [exact H2|]. exists p, ok, r. split; [right; exact H3|exact H4].
Qed.
Print Assumptions C89_elsewhere.

(** ** A new directory, used and closed *)
(** What others did. *)
Definition others (l : list act) (f : files) : files := fold_left (fun f a => match a with AOther q n => put q n f | _ => f end) l f.
(** A path that has nothing to do with a directory: neither in it nor on the way to it. *)
Definition apart (p q : path) : Prop := below p q = false /\ below q p = false.
(** A store opened in a directory that is not there yet, used and closed: at the end everything is as if only the others had acted. *)
Theorem C89_leaves_nothing : forall d p l d' h, h = length (d_handles d) -> p <> [] ->
  (forall q, below p q = true -> d_files d q = None) -> (forall q, below q p = true -> q <> p -> d_files d q = Some NDir) -> locked p (d_handles d) = false ->
  (forall a, In a l -> match a with ADb i _ _ => i = h | AOther q _ => apart p q | _ => False end) ->
  acts d (AOpen p true :: l ++ [AClose h]) = Some d' -> forall q, d_files d' q = others l (d_files d) q.
Proof.
  intros d p l d' h -> NP New Up NL Only E q. cbn [acts act_step] in E. destruct (mkdir_all [] p (d_files d)) as [f made] eqn:Em. destruct (mkdir_spec _ _ _ _ _ Em) as [M1 M2]. rewrite NL in E. cbn [negb] in E. rewrite !andb_true_r in E.
  assert (forall q, below p q = false -> f q = d_files d q) as F0.
  { intros q' Hq. destruct (M1 q') as [H|(A & C & r & s & D & G)]; [exact H|]. cbn in D. subst r. destruct s as [|y s].
    - rewrite app_nil_r in G. subst. rewrite (proj2 (below_spec q' q')) in Hq; [discriminate|]. exists []. rewrite app_nil_r. reflexivity.
    - rewrite Up in A; [discriminate| |].
      + apply below_spec. exists (y :: s). exact G.
      + intros ->. apply (f_equal (@length _)) in G. rewrite app_length in G. cbn in G. lia. }
  assert (forall l dd hs, (forall a, In a l -> match a with ADb i _ _ => i = length (d_handles d) | AOther q _ => apart p q | _ => False end) -> d_handles dd = hs -> nth_error hs (length (d_handles d)) = Some (Handle p true) ->
    acts dd (l ++ [AClose (length (d_handles d))]) = Some d' -> forall q, d_files d' q = if below p q then None else others l (d_files dd) q) as K.
  { clear. induction l as [|a l IH]; intros dd hs Only Eh Eo E q; cbn [app acts] in E.
    - cbn [act_step] in E. rewrite Eh, Eo in E. injection E as <-. reflexivity.
    - pose proof (Only a (or_introl eq_refl)) as Oa. destruct a as [p' ok|i q' n|q' n|i]; try contradiction.
      + subst i. cbn [act_step] in E. rewrite Eh, Eo in E. destruct (below p q' && negb (path_eqb p q')) eqn:Eb; [|discriminate]. apply andb_true_iff in Eb as [Eb _].
        rewrite (IH (Disk (put q' n (d_files dd)) hs) hs (fun a H => Only a (or_intror H)) eq_refl Eo E). destruct (below p q) eqn:Eq; [reflexivity|]. cbn [d_files]. unfold others. cbn [fold_left].
        assert (forall l f g q, below p q = false -> (forall q, below p q = false -> f q = g q) -> fold_left (fun f a => match a with AOther q n => put q n f | _ => f end) l f q = fold_left (fun f a => match a with AOther q n => put q n f | _ => f end) l g q) as Ext.
        { clear. induction l as [|a l IH]; intros f g q Hq H; [apply H, Hq|]. cbn [fold_left]. apply IH; [exact Hq|]. destruct a; try exact H. intros q1 H1. unfold put. destruct (path_eqb q0 q1); [reflexivity|apply H, H1]. }
        apply Ext; [exact Eq|]. intros q1 H1. apply put_other. intros ->. congruence.
      + cbn [act_step] in E. rewrite (IH (Disk (put q' n (d_files dd)) (d_handles dd)) hs (fun a H => Only a (or_intror H)) Eh Eo E). reflexivity. }
  destruct made; cbn [andb] in E.
  - assert (nth_error (d_handles d ++ [Handle p true]) (length (d_handles d)) = Some (Handle p true)) as Hn by (rewrite nth_error_app2 by lia; rewrite Nat.sub_diag; reflexivity). rewrite (K l (Disk f (d_handles d ++ [Handle p true])) _ Only eq_refl Hn E). cbn [d_files].
    assert (forall l f g, (forall a, In a l -> match a with ADb _ _ _ => True | AOther q _ => apart p q | _ => False end) -> (forall q, below p q = false -> f q = g q) -> (forall q, below p q = true -> g q = None) ->
      forall q, (if below p q then None else others l f q) = others l g q) as Fin.
    { clear. induction l as [|a l IH]; intros f g Only H1 H2 q; [cbn; destruct (below p q) eqn:Eq; [symmetry; apply H2, Eq|apply H1, Eq]|]. pose proof (Only a (or_introl eq_refl)) as Oa. unfold others. cbn [fold_left]. destruct a as [p' ok|i q' n|q' n|i]; try contradiction.
      - apply IH; [intros a H; apply Only; right; exact H|exact H1|exact H2].
      - apply IH; [intros a H; apply Only; right; exact H| |].
        + intros q1 Hq. unfold put. destruct (path_eqb q' q1); [reflexivity|apply H1, Hq].
        + intros q1 Hq. rewrite put_other; [apply H2, Hq|]. intros ->. destruct Oa as [Oa _]. congruence. }
    apply Fin; [|exact F0|exact New]. intros a H. specialize (Only a H). destruct a; try contradiction; auto.
  - exfalso. assert (nth_error (d_handles d) (length (d_handles d)) = None) as Nn by (apply nth_error_None; lia).
    assert (forall l dd, d_handles dd = d_handles d -> (forall a, In a l -> match a with ADb i _ _ => i = length (d_handles d) | AOther q _ => apart p q | _ => False end) -> acts dd (l ++ [AClose (length (d_handles d))]) = None) as Kn.
    { clear - Nn. induction l as [|a l IH]; intros dd Eh Only; cbn [app acts].
      - cbn [act_step]. rewrite Eh, Nn. reflexivity.
      - pose proof (Only a (or_introl eq_refl)) as Oa. destruct a as [p' ok|i q' n|q' n|i]; try contradiction; cbn [act_step].
        + subst i. rewrite Eh, Nn. reflexivity.
        + apply IH; [exact Eh|intros a H; apply Only; right; exact H]. }
    rewrite Kn in E; [discriminate|reflexivity|exact Only].
Qed.
Print Assumptions C89_leaves_nothing.

(** Concrete files: / and /tmp are directories, somebody's file is in /data/s. *)
Definition files89 : files := fun q => if path_eqb q [] || path_eqb q [B "tmp"] || path_eqb q [B "data"] || path_eqb q (map B ["data"; "s"]%string) then Some NDir
  else if path_eqb q (map B ["data"; "s"; "notes.txt"]%string) then Some (NFile (B "mine")) else None.
Definition after89 (o : option disk) : disk := match o with Some d => d | None => Disk files89 [] end.
Lemma after_some o : match o with Some _ => true | None => false end = true -> o = Some (after89 o).
Proof. destruct o; [reflexivity|discriminate]. Qed.
Example C89_leaves_nothing_example :
  let d := Disk files89 [] in let p := [B "tmp"; B "lens_state-7-1"] in
  let l := [ADb 0 (p ++ [B "MANIFEST"]) (Some (NFile (B "x"))); AOther [B "out.json"] (Some (NFile (B "{}"))); ADb 0 (p ++ [B "000001.vlog"]) (Some (NFile (B "y")))] in
  p <> [] /\ locked p (d_handles d) = false /\ apart p [B "out.json"] /\
  exists d', acts d (AOpen p true :: l ++ [AClose 0]) = Some d' /\ d_files d' (p ++ [B "MANIFEST"]) = None /\ d_files d' p = None /\ d_files d' [B "out.json"] = Some (NFile (B "{}")) /\ d_files d' [B "tmp"] = Some NDir.
Proof. cbv zeta. split; [discriminate|]. split; [reflexivity|]. split; [split; reflexivity|]. eexists. split; [apply after_some; vm_compute; reflexivity|]. split; [|split; [|split]]; vm_compute; reflexivity. Qed.
(** The directory given for the store is removed with everything that was in it before. *)
Theorem C89_directory_kept_refuted : exists d p d' q, d_files d q = Some (NFile (B "mine")) /\ below p q = true /\ acts d [AOpen p true; AClose 0] = Some d' /\ d_files d' q = None /\ d_files d' p = None.
Proof.
  exists (Disk files89 []), (map B ["data"; "s"]%string), (after89 (acts (Disk files89 []) [AOpen (map B ["data"; "s"]%string) true; AClose 0])), (map B ["data"; "s"; "notes.txt"]%string).
  split; [vm_compute; reflexivity|]. split; [vm_compute; reflexivity|]. split; [apply after_some; vm_compute; reflexivity|]. split; vm_compute; reflexivity.
Qed.
Print Assumptions C89_directory_kept_refuted.
(** Directories made on the way to the store stay. *)
Theorem C89_as_before_refuted : exists d p d', d_files d [B "a"] = None /\ acts d [AOpen p true; AClose 0] = Some d' /\ d_files d' [B "a"] = Some NDir.
Proof. exists (Disk files89 []), [B "a"; B "b"]. eexists. split; [reflexivity|]. split; [apply after_some; vm_compute; reflexivity|vm_compute; reflexivity]. Qed.
Print Assumptions C89_as_before_refuted.
(** A store closed a second time, as by two engines with the same default provider, takes the files of the store that is open at that path by then. *)
Theorem C89_closed_twice_refuted : exists d p d1 d2 q, acts d [AOpen p true; AClose 0; AOpen p true; ADb 1 q (Some (NFile (B "x")))] = Some d1 /\ nth_error (d_handles d1) 1 = Some (Handle p true) /\
  d_files d1 q = Some (NFile (B "x")) /\ act_step d1 (AClose 0) = Some d2 /\ nth_error (d_handles d2) 1 = Some (Handle p true) /\ d_files d2 q = None.
Proof. exists (Disk files89 []), [B "tmp"; B "st"]. do 2 eexists. exists [B "tmp"; B "st"; B "MANIFEST"]. split; [apply after_some; vm_compute; reflexivity|]. split; [vm_compute; reflexivity|]. split; [vm_compute; reflexivity|]. split; [apply after_some; vm_compute; reflexivity|]. split; vm_compute; reflexivity. Qed.
Print Assumptions C89_closed_twice_refuted.
(** While a store is open, no other is opened in its directory. *)
Theorem C89_one_at_a_time : forall d p ok d', locked p (d_handles d) = true -> acts d [AOpen p ok] = Some d' -> d_handles d' = d_handles d.
Proof. intros d p ok d' L E. cbn [acts act_step] in E. destruct (mkdir_all [] p (d_files d)) as [f made]. rewrite L in E. cbn [negb] in E. rewrite andb_false_r in E. injection E as <-. reflexivity. Qed.
(** Any sequence of acts: two different stores that are both open have different directories. *)
Theorem C89_open_apart : forall f l d, acts (Disk f []) l = Some d -> forall i j p, nth_error (d_handles d) i = Some (Handle p true) -> nth_error (d_handles d) j = Some (Handle p true) -> i = j.
Proof.
  intros f0 l d E. assert (forall i j p, nth_error (d_handles (Disk f0 [])) i = Some (Handle p true) -> nth_error (d_handles (Disk f0 [])) j = Some (Handle p true) -> i = j) as H0 by (intros [|i] j p H; discriminate H).
  revert H0 E. generalize (Disk f0 []). induction l as [|a l IH]; intros d0 H0 E; cbn [acts] in E; [injection E as <-; exact H0|]. destruct (act_step d0 a) as [d1|] eqn:Ea; [|discriminate]. apply (IH d1); [|exact E]. clear IH E.
  destruct a as [p ok|h q n|q n|h]; cbn [act_step] in Ea.
  - destruct (mkdir_all [] p (d_files d0)) as [f made]. destruct (locked p (d_handles d0)) eqn:L; cbn [negb] in Ea; [rewrite andb_false_r in Ea; injection Ea as <-; exact H0|]. rewrite andb_true_r in Ea. destruct (made && ok); injection Ea as <-; [|exact H0]. cbn [d_handles].
    assert (forall k, (k < length (d_handles d0))%nat -> nth_error (d_handles d0) k <> Some (Handle p true)) as Nl.
    { intros k _ Ek. apply nth_error_In in Ek. assert (locked p (d_handles d0) = true); [|congruence]. apply existsb_exists. exists (Handle p true). split; [exact Ek|]. cbn. apply path_eqb_refl. }
    intros i j p' Hi Hj. destruct (Nat.lt_ge_cases i (length (d_handles d0))) as [Li|Li]; destruct (Nat.lt_ge_cases j (length (d_handles d0))) as [Lj|Lj].
    + rewrite nth_error_app1 in Hi, Hj by assumption. exact (H0 i j p' Hi Hj).
    + rewrite nth_error_app1 in Hi by assumption. rewrite nth_error_app2 in Hj by assumption. destruct (j - length (d_handles d0))%nat as [|k]; cbn in Hj; [injection Hj as <-; destruct (Nl i Li Hi)|destruct k; discriminate].
    + rewrite nth_error_app1 in Hj by assumption. rewrite nth_error_app2 in Hi by assumption. destruct (i - length (d_handles d0))%nat as [|k]; cbn in Hi; [injection Hi as <-; destruct (Nl j Lj Hj)|destruct k; discriminate].
    + rewrite nth_error_app2 in Hi, Hj by assumption. destruct (i - length (d_handles d0))%nat as [|k] eqn:Ei; [|destruct k; discriminate]. destruct (j - length (d_handles d0))%nat as [|k] eqn:Ej; [lia|destruct k; discriminate].
  - destruct (nth_error (d_handles d0) h) as [[p [|]]|]; try discriminate. destruct (below p q && negb (path_eqb p q)); [|discriminate]. injection Ea as <-. exact H0.
  - injection Ea as <-. exact H0.
  - destruct (nth_error (d_handles d0) h) as [[p o]|]; [|discriminate]. injection Ea as <-. cbn [d_handles].
    assert (forall h l i p, nth_error (shut h l) i = Some (Handle p true) -> nth_error l i = Some (Handle p true)) as Sh.
    { clear. induction h as [|h IH]; intros [|x l] [|i] p H; cbn in *; try discriminate; try exact H. apply IH, H. }
    intros i j p' Hi Hj. exact (H0 i j p' (Sh _ _ _ _ Hi) (Sh _ _ _ _ Hj)).
Qed.
Print Assumptions C89_open_apart.

(** Closing a store leaves the others as they are: open ones stay open, and their databases can go on writing. *)
Theorem C89_others_go_on : forall d h d' i, acts d [AClose h] = Some d' -> i <> h -> nth_error (d_handles d') i = nth_error (d_handles d) i.
Proof.
  intros d h d' i E N. cbn [acts act_step] in E. destruct (nth_error (d_handles d) h) as [[p o]|]; [|discriminate]. injection E as <-. cbn [d_handles].
  revert i N. generalize (d_handles d). clear. induction h as [|h IH]; intros [|x l] [|i] N; try reflexivity; try congruence. cbn. apply IH. congruence.
Qed.
Print Assumptions C89_others_go_on.
Example C89_others_go_on_example : exists d', acts (Disk (fun _ => None) []) [AOpen [B "a"] true; AOpen [B "b"] true; AClose 1; ADb 0 [B "a"; B "x"] (Some (NFile (B "y")))] = Some d' /\
  nth_error (d_handles d') 0 = Some (Handle [B "a"] true) /\ nth_error (d_handles d') 1 = Some (Handle [B "b"] false).
Proof. eexists. split; [reflexivity|]. split; reflexivity. Qed.

(** ** The default place *)
Lemma itoa_dash a b x y : itoa a ++ B "-" ++ x = itoa b ++ B "-" ++ y -> itoa a = itoa b /\ x = y.
Proof.
  pose proof (itoa_digits a) as Da. pose proof (itoa_digits b) as Db. revert Da Db. generalize (itoa a) (itoa b). intros l. induction l as [|c l IH]; intros [|c' l'] Da Db E; cbn in E.
  - injection E as ->. auto.
  - injection E as <- E. inversion Db as [|? ? D _]. discriminate D.
  - injection E as -> E. inversion Da as [|? ? D _]. discriminate D.
  - injection E as <- E. inversion Da. inversion Db. destruct (IH l' ltac:(assumption) ltac:(assumption) E) as [-> ->]. auto.
Qed.
(** Different processes, or one process at different times, have different places, none in another. *)
Theorem C89_default_places : forall hex tmp pid t pid' t', (forall t t', hex t = hex t' -> t = t') -> (pid, t) <> (pid', t') -> apart (default_dir hex tmp pid t) (default_dir hex tmp pid' t').
Proof.
  intros hex tmp pid t pid' t' H N. assert (forall pid t pid' t', below (default_dir hex tmp pid t) (default_dir hex tmp pid' t') = true -> (pid, t) = (pid', t')) as K.
  { intros a b c e Hb. apply below_spec in Hb as [r Hr]. unfold default_dir in Hr. rewrite <- app_assoc in Hr. apply app_inv_head in Hr. cbn [app] in Hr. injection Hr as Hr _. apply itoa_dash in Hr as [E1 E2]. apply H in E2. f_equal; [|auto]. assert (atoi (itoa a) = atoi (itoa c)) as A by congruence. rewrite !atoi_itoa in A. congruence. }
  split; [destruct (below _ _) eqn:E in |- *; [apply K in E; congruence|reflexivity]|]. destruct (below (default_dir hex tmp pid' t') _) eqn:E; [apply K in E; congruence|reflexivity].
Qed.
Print Assumptions C89_default_places.

(** ** Compression by hand *)
Section Manual.
Variable compress : bytes -> bytes.
Variable decompress : bytes -> option bytes.
Lemma read_parts_ext k d d' n : forall i stored off, (forall j, (N.to_nat i <= N.to_nat j < N.to_nat i + n)%nat -> mget (part_key k j) d = mget (part_key k j) d') -> read_parts k i n stored off d = read_parts k i n stored off d'.
Proof.
  induction n as [|n IH]; intros i stored off H; [reflexivity|]. cbn [read_parts]. rewrite (H i) by lia. destruct (mget (part_key k i) d') as [v|]; [|reflexivity]. destruct (copy_at stored off v) as [stored'|]; [|reflexivity]. apply IH. intros j Hj. apply H. lia.
Qed.
Lemma man_nodup limit k b : ordinary_key k -> NoDup (map fst (man_writes compress limit k b)).
Proof.
  intros Hk. pose proof (save_writes_nodup limit k (compress b) Hk) as N. unfold man_writes, save_writes in *. destruct (blen (compress b) <=? limit)%N; [exact N|]. cbv zeta in *. rewrite map_app in *. exact N.
Qed.
Lemma man_part limit k b i : ordinary_key k -> mget (part_key k i) (man_writes compress limit k b) = mget (part_key k i) (save_writes limit k (compress b)).
Proof.
  intros Hk. unfold man_writes, save_writes. destruct (blen (compress b) <=? limit)%N; [reflexivity|]. cbv zeta. rewrite !mget_app. destruct (mget _ (part_writes _ _ _ _ _ _ _)); [reflexivity|]. cbn [mget]. rewrite (proj2 (beq_false (part_key k i) k)); [reflexivity|]. intros E. exact (ordinary_not_part _ _ _ Hk (eq_sym E)).
Qed.
Lemma man_main limit k b : ordinary_key k -> mget k (man_writes compress limit k b) = Some (if (blen (compress b) <=? limit)%N then compress b else marker (num_parts limit (blen (compress b))) (blen (compress b)) (blen b)).
Proof.
  intros Hk. unfold man_writes. destruct (blen (compress b) <=? limit)%N; cbv zeta; [cbn; rewrite beq_refl; reflexivity|]. rewrite mget_app. destruct (mget k (part_writes _ _ _ _ _ _ _)) eqn:E.
  - exfalso. apply mget_in, (in_map fst) in E. rewrite part_writes_keys in E. apply in_map_iff in E as (j & E & _). cbn [fst] in E. exact (ordinary_not_part _ _ _ Hk (eq_sym E)).
  - cbn [mget]. rewrite beq_refl. reflexivity.
Qed.
Lemma by_hand_any limit k b d : (0 < limit)%N -> ordinary_key k -> ordinary_blob (compress b) -> (blen b < 2 ^ 63)%N ->
  man_load decompress k (man_save compress limit k b d) =
  match decompress (compress b) with Some x => LOk (Some (if (blen (compress b) <=? limit)%N then x else repeat Ascii.zero (length b) ++ x)) | None => LErr end.
Proof.
  intros Hl Hk Ho Hb. pose proof (C11_persistent_store_is_a_map limit [(Save k (compress b), true)] Hl) as C. cbn [committed filter map snd fst] in C. 
  assert (bdg_load k (bdg_save limit k (compress b) []) = LOk (Some (compress b))) as L.
  { destruct C as [C _]; [constructor; [split; assumption|constructor]|]. specialize (C k Hk). cbn in C. rewrite C. unfold last_write. cbn. destruct (bytes_eq_dec k k); [reflexivity|congruence]. }
  clear C. unfold bdg_load, bdg_load2 in L. unfold man_load, man_save, bdg_save in *. fold (apply_writes (save_writes limit k (compress b)) (wipe_old k [])) in L. fold (apply_writes (man_writes compress limit k b) (wipe_old k d)). rewrite apply_writes_get in L by (apply save_writes_nodup, Hk). rewrite (apply_writes_get (man_writes compress limit k b)) by (apply man_nodup, Hk). rewrite (mget_save_main limit k (compress b) Hk) in L. rewrite man_main by exact Hk.
  destruct (N.leb_spec (blen (compress b)) limit) as [Hs|Hs].
  - destruct (compress b) as [|c x] eqn:Ec; [discriminate|]. destruct (split_match (c :: x)) as [[[u v] w]|] eqn:Es; [destruct Ho as (_ & Hm & _); destruct Hm; apply looks_like_marker_iff; congruence|]. unfold man_decode. cbn [N.to_nat repeat app]. reflexivity.
  - set (n := num_parts limit (blen (compress b))) in *. assert (forall p s o, exists x y, marker p s o = x :: y) as Mk by (intros; eexists; eexists; reflexivity).
    destruct (Mk n (blen (compress b)) (blen (compress b))) as (x & y & E1). rewrite E1, <- E1 in L. clear x y E1. destruct (Mk n (blen (compress b)) (blen b)) as (x & y & E1). rewrite E1, <- E1. clear x y E1. rewrite split_match_of_marker in *.
    destruct Ho as (Hne & _ & Hlen). assert (n < 2 ^ 63)%N as Hp by (eapply N.le_lt_trans; [apply num_parts_le; exact Hl|exact Hlen]). rewrite !atoi_int_itoa in * by assumption.
    assert (forall w d0, read_parts k 0 (N.to_nat n) (repeat Ascii.zero (N.to_nat (blen (compress b)))) 0 (apply_writes (man_writes compress limit k b) d0) =
      read_parts k 0 (N.to_nat n) (repeat Ascii.zero (N.to_nat (blen (compress b)))) 0 (apply_writes (save_writes limit k (compress b)) w)) as R.
    { intros w d0. apply read_parts_ext. intros j Hj. rewrite (apply_writes_get (man_writes compress limit k b)) by (apply man_nodup, Hk). rewrite (apply_writes_get (save_writes limit k (compress b))) by (apply save_writes_nodup, Hk). rewrite man_part by exact Hk. rewrite mget_save_part by exact Hk.
      rewrite (proj2 (N.leb_gt _ _) Hs). destruct (nth_error (pieces limit k (compress b)) (N.to_nat j)) eqn:En; [reflexivity|]. apply nth_error_None in En. rewrite pieces_length in En. fold n in En. lia. }
    rewrite (R (wipe_old k [])), L. unfold man_decode. unfold blen. rewrite Nat2N.id. reflexivity.
Qed.
(** A value saved by hand-made compression and loaded: itself when it fits in one piece; when it is split, as many zero bytes as it has come before it. *)
Theorem C89_by_hand : forall limit k b d, (0 < limit)%N -> ordinary_key k -> ordinary_blob (compress b) -> decompress (compress b) = Some b -> (blen b < 2 ^ 63)%N ->
  man_load decompress k (man_save compress limit k b d) = LOk (Some (if (blen (compress b) <=? limit)%N then b else repeat Ascii.zero (length b) ++ b)).
Proof. intros limit k b d Hl Hk Ho Hd Hb. rewrite by_hand_any by assumption. rewrite Hd. reflexivity. Qed.
(** Bytes that do not decompress are an error, in one piece or split: never a missing value, never another value. *)
Theorem C89_by_hand_damaged :
  (forall k d raw, mget k d = Some raw -> ordinary_blob raw -> decompress raw = None -> man_load decompress k d = LErr) /\
  (forall limit k b d, (0 < limit)%N -> ordinary_key k -> ordinary_blob (compress b) -> decompress (compress b) = None -> (blen b < 2 ^ 63)%N ->
     man_load decompress k (man_save compress limit k b d) = LErr).
Proof.
  split.
  - intros k d raw G (Ne & Nm & _) Hd. unfold man_load. rewrite G. destruct raw as [|c x]; [congruence|]. destruct (split_match (c :: x)) as [[[u v] w]|] eqn:Es; [destruct Nm; apply looks_like_marker_iff; congruence|]. unfold man_decode. rewrite Hd. reflexivity.
  - intros limit k b d Hl Hk Ho Hd Hb. rewrite by_hand_any by assumption. rewrite Hd. reflexivity.
Qed.
End Manual.
Print Assumptions C89_by_hand.
Print Assumptions C89_by_hand_damaged.
(** A compression that puts one byte before the value. *)
Definition zip89 (b : bytes) : bytes := "Z"%char :: b.
Definition unzip89 (b : bytes) : option bytes := match b with "Z"%char :: x => Some x | _ => None end.
Lemma zip_ordinary b : (blen b < 2 ^ 62)%N -> ordinary_blob (zip89 b).
Proof.
  intros H. split; [discriminate|]. split; [|unfold zip89, blen in *; cbn [length]; lia]. intros (x & y & z & _ & _ & E). discriminate E.
Qed.
Example C89_by_hand_example : ordinary_key (B "k") /\ ordinary_blob (zip89 (B "hello")) /\ unzip89 (zip89 (B "hello")) = Some (B "hello") /\
  man_load unzip89 (B "k") (man_save zip89 6 (B "k") (B "hello") []) = LOk (Some (B "hello")).
Proof. split; [apply literal_key; [reflexivity|discriminate]|]. split; [apply zip_ordinary; reflexivity|]. split; vm_compute; reflexivity. Qed.
Example C89_by_hand_damaged_example : ordinary_blob (B "Yhello") /\ unzip89 (B "Yhello") = None /\ man_load unzip89 (B "k") [(B "k", B "Yhello")] = LErr.
Proof. split; [split; [discriminate|split; [|reflexivity]; intros (x & y & z & _ & _ & E); discriminate E]|]. split; vm_compute; reflexivity. Qed.
(** A value that has to be split does not come back as it was, with any compression that is undone by decompression. *)
Theorem C89_by_hand_refuted : forall compress decompress limit k b d, (0 < limit)%N -> ordinary_key k -> ordinary_blob (compress b) -> decompress (compress b) = Some b -> (blen b < 2 ^ 63)%N ->
  b <> [] -> (limit < blen (compress b))%N -> man_load decompress k (man_save compress limit k b d) <> LOk (Some b).
Proof.
  intros compress decompress limit k b d Hl Hk Ho Hd Hb Ne Hs E. rewrite C89_by_hand in E by assumption. rewrite (proj2 (N.leb_gt _ _) Hs) in E. injection E as E. apply (f_equal (@length _)) in E. rewrite app_length, repeat_length in E. destruct b; [congruence|cbn in E; lia].
Qed.
Print Assumptions C89_by_hand_refuted.
Example C89_by_hand_refuted_example : (3 < blen (zip89 (B "hello")))%N /\ man_load unzip89 (B "k") (man_save zip89 3 (B "k") (B "hello") []) = LOk (Some (repeat Ascii.zero 5 ++ B "hello")).
Proof. vm_compute. auto. Qed.
