(** C57: the temporary copy is complete and the original is left alone. *)
From Verif Require Import Base TmpModel.

Lemma below_spec dir p r : below dir p = Some r <-> p = dir ++ r.
Proof.
  revert p. induction dir as [|d dir IH]; intros p; cbn [below app]; [split; congruence|]. destruct p as [|x p]; [split; discriminate|].
  destruct (beq_spec d x) as [->|N]; [rewrite IH; split; [intros ->; reflexivity|intros [= ->]; reflexivity]|split; [discriminate|intros [= E _]; congruence]].
Qed.
Lemma below_none dir p : below dir p = None <-> forall r, p <> dir ++ r.
Proof.
  destruct (below dir p) as [r|] eqn:E; split; try congruence.
  - apply below_spec in E. intros H. exfalso. exact (H r E).
  - intros _ r H. apply below_spec in H. congruence.
Qed.
Lemma below_app dir r : below dir (dir ++ r) = Some r.
Proof. apply below_spec. reflexivity. Qed.

(** The same node but for its mode. *)
Definition same_node (a b : tnode) : Prop :=
  match a, b with
  | TDir _, TDir _ => True
  | TFile _ c, TFile _ d => c = d
  | TLink t, TLink u => t = u
  | _, _ => False
  end.
(** Everything below [a] in [f] is found below [b] in [g], and nothing else. *)
Definition same_below (f : tsys) (a : path) (g : tsys) (b : path) : Prop :=
  forall r, match f (a ++ r), g (b ++ r) with
            | Some x, Some y => same_node x y
            | None, None => True
            | _, _ => False
            end.
Definition outside (root p : path) : Prop := forall r, root <> p ++ r.

Section Tmp.
Variables dm um : N.
Lemma copy_dir_at f src dst r : copy_dir dm um f src dst (dst ++ r) = match f (src ++ r) with Some n => Some (copy_node dm um n) | None => f (dst ++ r) end.
Proof. unfold copy_dir. rewrite below_app. reflexivity. Qed.
Lemma copy_dir_other f src dst p : (forall r, p <> dst ++ r) -> copy_dir dm um f src dst p = f p.
Proof. intros H. unfold copy_dir. apply below_none in H. rewrite H. reflexivity. Qed.
Lemma app_apart (root : path) x y r r' : x <> y -> (root ++ [x]) ++ r <> (root ++ [y]) ++ r'.
Proof. rewrite <- !app_assoc. intros N E. apply app_inv_head in E. injection E as E _. contradiction. Qed.
(** A path below [src] is not one below [root/x] when [root] is not below [src]... *)
Lemma src_apart (root src : path) x r r' : outside root src -> outside src root -> src ++ r <> (root ++ [x]) ++ r'.
Proof.
  intros O1 O2 E. rewrite <- app_assoc in E. apply app_eq_app in E. destruct E as (l & [[E1 E2]|[E1 E2]]).
  - exact (O2 l E1).
  - exact (O1 l E1).
Qed.

(** When the copy succeeds with a fresh temporary directory apart from what is copied:
    everything outside it is as before; the new places lie below it; the project and the
    module path have the contents of the old ones; the module cache too when it is
    outside the module path or at its usual place. *)
Theorem C57_copy_complete : forall oks root f e f' e',
  setup_temp dm um oks root f e = Some (f', e') ->
  (forall r, r <> [] -> f (root ++ r) = None) ->
  (forall q, In q [p_proj e; p_gopath e; p_cache e] -> outside root q /\ outside q root) ->
  (forall p, (forall r, p <> root ++ r) -> f' p = f p) /\
  (forall q, In q [p_proj e'; p_gopath e'; p_cache e'] -> exists r, r <> [] /\ q = root ++ r) /\
  same_below f (p_proj e) f' (p_proj e') /\ same_below f (p_gopath e) f' (p_gopath e') /\
  ((forall r, p_cache e <> p_gopath e ++ r) \/ p_cache e = p_gopath e ++ [B "pkg"; B "mod"] -> same_below f (p_cache e) f' (p_cache e')).
Proof.
  intros [[ok1 ok2] ok3] root f [pr gp ca] f' e' H Hf Ho. unfold setup_temp in H. cbn [p_proj p_gopath p_cache] in *.
  destruct ok1; [|discriminate]. destruct ok2; [|discriminate]. cbn [negb] in H.
  destruct (Ho pr (or_introl eq_refl)) as [O1 O1']. destruct (Ho gp (or_intror (or_introl eq_refl))) as [O2 O2']. destruct (Ho ca (or_intror (or_intror (or_introl eq_refl)))) as [O3 O3'].
  set (f1 := copy_dir dm um f pr (root ++ [B "project"])) in *. set (f2 := copy_dir dm um f1 gp (root ++ [B "gopath"])) in *.
  assert (forall p, (forall r, p <> root ++ r) -> f1 p = f p) as F1.
  { intros p Hp. unfold f1. apply copy_dir_other. intros r E. apply (Hp ([B "project"] ++ r)). rewrite E, app_assoc. reflexivity. }
  assert (forall p, (forall r, p <> root ++ r) -> f2 p = f p) as F2.
  { intros p Hp. unfold f2. rewrite copy_dir_other; [exact (F1 p Hp)|]. intros r E. apply (Hp ([B "gopath"] ++ r)). rewrite E, app_assoc. reflexivity. }
  assert (B "project" <> B "gopath") as N1 by (vm_compute; discriminate). assert (B "project" <> B "gomodcache") as N2 by (vm_compute; discriminate). assert (B "gopath" <> B "gomodcache") as N3 by (vm_compute; discriminate).
  assert (forall x, f (root ++ x :: []) = None) as Fr by (intros x; apply Hf; discriminate).
  assert (forall x r, f ((root ++ [x]) ++ r) = None) as Fx by (intros x r; rewrite <- app_assoc; apply Hf; discriminate).
  assert (forall s r x, outside root s -> outside s root -> forall r', s ++ r <> (root ++ [x]) ++ r') as SA by (intros s r x A1 A2 r'; apply src_apart; assumption).
  assert (forall n, same_node n (copy_node dm um n)) as SN by (intros [m|m c|t]; cbn; auto).
  assert (same_below f pr f2 (root ++ [B "project"])) as S1.
  { intros r. unfold f2. rewrite copy_dir_other by (intros r'; apply app_apart; exact N1). unfold f1. rewrite copy_dir_at, Fx. destruct (f (pr ++ r)) as [n|]; [apply SN|exact I]. }
  assert (same_below f gp f2 (root ++ [B "gopath"])) as S2.
  { intros r. unfold f2. rewrite copy_dir_at. unfold f1. rewrite !copy_dir_other by (intros r'; first [apply app_apart; intros E; symmetry in E; exact (N1 E)|apply SA; assumption]). rewrite Fx. destruct (f (gp ++ r)) as [n|]; [apply SN|exact I]. }
  assert (forall x, exists r, r <> [] /\ root ++ [x] = root ++ r) as R1 by (intros x; exists [x]; split; [discriminate|reflexivity]).
  destruct (below gp ca) as [rest|] eqn:Eb.
  - injection H as <- <-. cbn [p_proj p_gopath p_cache]. apply below_spec in Eb. split; [exact F2|]. split.
    { intros q [<-|[<-|[<-|[]]]]; [apply R1|apply R1|]. exists [B "gopath"; B "pkg"; B "mod"]. split; [discriminate|rewrite <- app_assoc; reflexivity]. }
    split; [exact S1|]. split; [exact S2|]. intros [X|X]; [exfalso; exact (X rest Eb)|]. intros r. rewrite X, <- !(app_assoc _ _ r). exact (S2 ([B "pkg"; B "mod"] ++ r)).
  - destruct ok3; [|discriminate]. cbn [negb] in H. injection H as <- <-. cbn [p_proj p_gopath p_cache]. set (f3 := copy_dir dm um f2 ca (root ++ [B "gomodcache"])).
    assert (forall x r, x <> B "gomodcache" -> f3 ((root ++ [x]) ++ r) = f2 ((root ++ [x]) ++ r)) as F3 by (intros x r Nx; apply copy_dir_other; intros r'; apply app_apart; exact Nx).
    split; [|split; [|split; [|split]]].
    + intros p Hp. unfold f3. rewrite copy_dir_other; [exact (F2 p Hp)|]. intros r E. apply (Hp ([B "gomodcache"] ++ r)). rewrite E, app_assoc. reflexivity.
    + intros q [<-|[<-|[<-|[]]]]; apply R1.
    + intros r. rewrite F3 by exact N2. apply S1.
    + intros r. rewrite F3 by exact N3. apply S2.
    + intros _ r. unfold f3. rewrite copy_dir_at. rewrite F2 by (intros r' E; destruct (app_eq_app _ _ _ _ E) as (l & [[E1 _]|[E1 _]]); [exact (O3' l E1)|exact (O3 l E1)]).
      unfold f2, f1. rewrite !copy_dir_other by (intros r'; apply app_apart; intros E; symmetry in E; first [exact (N2 E)|exact (N3 E)]). rewrite Fx. destruct (f (ca ++ r)) as [n|]; [apply SN|exact I].
Qed.
End Tmp.
Print Assumptions C57_copy_complete.

(** A project with one file, a link and a module cache at its usual place. *)
Definition fs57 (link : bool) (cache : path) : tsys := fun p =>
  if list_eq_dec bytes_eq_dec p [B "src"] then (if link then Some (TLink (B "/real")) else Some (TDir 493))
  else if list_eq_dec bytes_eq_dec p [B "src"; B "run.sh"] then (if link then None else Some (TFile 493 (B "echo")))
  else if list_eq_dec bytes_eq_dec p [B "go"] then Some (TDir 493)
  else if list_eq_dec bytes_eq_dec p (cache ++ [B "m@v1"]) then Some (TFile 292 (B "x"))
  else if list_eq_dec bytes_eq_dec p [B "tmp"; B "t1"] then Some (TDir 448)
  else None.
Definition here57 (cache : path) := Places [B "src"] [B "go"] cache.
Definition done57 link cache := setup_temp 493 420 (true, true, true) [B "tmp"; B "t1"] (fs57 link cache) (here57 cache).
Lemma apart57 cache : cache = [B "go"; B "pkg"; B "mod"] \/ cache = [B "go"; B "cache"] ->
  (forall r, r <> [] -> fs57 false cache ([B "tmp"; B "t1"] ++ r) = None) /\ (forall r, r <> [] -> fs57 true cache ([B "tmp"; B "t1"] ++ r) = None) /\
  (forall q, In q [[B "src"]; [B "go"]; cache] -> outside [B "tmp"; B "t1"] q /\ outside q [B "tmp"; B "t1"]).
Proof.
  intros Hc. split; [|split].
  1,2: intros r Hr; unfold fs57; repeat (destruct (list_eq_dec bytes_eq_dec _ _) as [E|_]; [exfalso; destruct Hc as [-> | ->]; cbn in E; first [discriminate E|injection E as E; contradiction]|]); reflexivity.
  intros q Hq. split; intros r E; destruct Hc as [-> | ->]; repeat (destruct Hq as [<-|Hq]; [cbn in E; discriminate E|]); destruct Hq.
Qed.
Example C57_example : exists f' e', done57 false [B "go"; B "pkg"; B "mod"] = Some (f', e') /\
  f' [B "tmp"; B "t1"; B "project"; B "run.sh"] = Some (TFile 420 (B "echo")) /\ f' (p_cache e' ++ [B "m@v1"]) = Some (TFile 420 (B "x")) /\
  same_below (fs57 false [B "go"; B "pkg"; B "mod"]) [B "go"; B "pkg"; B "mod"] f' (p_cache e').
Proof.
  eexists _, _. split; [reflexivity|]. split; [vm_compute; reflexivity|]. split; [vm_compute; reflexivity|].
  destruct (apart57 [B "go"; B "pkg"; B "mod"] (or_introl eq_refl)) as (A1 & _ & A2).
  destruct (C57_copy_complete 493 420 (true, true, true) [B "tmp"; B "t1"] (fs57 false [B "go"; B "pkg"; B "mod"]) (here57 [B "go"; B "pkg"; B "mod"]) _ _ eq_refl A1 A2) as (_ & _ & _ & _ & H).
  apply H. right. reflexivity.
Qed.

(** A module cache elsewhere inside the module path is lost: the run looks in pkg/mod. *)
Theorem C57_cache_copied_refuted : exists f e f' e', setup_temp 493 420 (true, true, true) [B "tmp"; B "t1"] f e = Some (f', e') /\
  (forall r, r <> [] -> f ([B "tmp"; B "t1"] ++ r) = None) /\ (forall q, In q [p_proj e; p_gopath e; p_cache e] -> outside [B "tmp"; B "t1"] q /\ outside q [B "tmp"; B "t1"]) /\
  ~ same_below f (p_cache e) f' (p_cache e').
Proof.
  destruct (apart57 [B "go"; B "cache"] (or_intror eq_refl)) as (A1 & _ & A2).
  exists (fs57 false [B "go"; B "cache"]), (here57 [B "go"; B "cache"]). eexists _, _. split; [reflexivity|]. split; [exact A1|]. split; [exact A2|].
  intros H. specialize (H [B "m@v1"]). vm_compute in H. exact H.
Qed.
Print Assumptions C57_cache_copied_refuted.
(** A project given by a link is not copied: the new project directory is a link to the
    same directory, and the run edits the original. *)
Theorem C57_project_separate_refuted : exists f e f' e', setup_temp 493 420 (true, true, true) [B "tmp"; B "t1"] f e = Some (f', e') /\
  (forall r, r <> [] -> f ([B "tmp"; B "t1"] ++ r) = None) /\ (forall q, In q [p_proj e; p_gopath e; p_cache e] -> outside [B "tmp"; B "t1"] q /\ outside q [B "tmp"; B "t1"]) /\
  f' (p_proj e') = Some (TLink (B "/real")).
Proof.
  destruct (apart57 [B "go"; B "pkg"; B "mod"] (or_introl eq_refl)) as (_ & A1 & A2).
  exists (fs57 true [B "go"; B "pkg"; B "mod"]), (here57 [B "go"; B "pkg"; B "mod"]). eexists _, _. split; [reflexivity|]. split; [exact A1|]. split; [exact A2|]. vm_compute. reflexivity.
Qed.
Print Assumptions C57_project_separate_refuted.
(** Modes are not kept: a script of the project is no longer executable. *)
Theorem C57_modes_kept_refuted : exists f e f' e' r m m' c, setup_temp 493 420 (true, true, true) [B "tmp"; B "t1"] f e = Some (f', e') /\
  f (p_proj e ++ r) = Some (TFile m c) /\ f' (p_proj e' ++ r) = Some (TFile m' c) /\ m <> m'.
Proof.
  exists (fs57 false [B "go"; B "pkg"; B "mod"]), (here57 [B "go"; B "pkg"; B "mod"]). eexists _, _. exists [B "run.sh"], 493%N, 420%N, (B "echo"). split; [reflexivity|]. vm_compute. repeat split. discriminate.
Qed.
Print Assumptions C57_modes_kept_refuted.
