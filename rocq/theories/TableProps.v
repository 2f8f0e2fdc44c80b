(** C15: which values may go to the table of values. *)
From Verif Require Import Base Maps TypesModel TypesSpec TypesProofs.

Section Table.
Variable sha1 : bytes -> bytes.
(** A value is small: at most four bytes and nothing below. *)
Definition small (n : fval) : Prop := let '(FVal v c) := n in olist c = [] /\ length v <= 4.

Lemma node_ids_eq v k x l : snd (node_ids sha1 (FVal v (Some ((k, x) :: l)))) =
  fval_id sha1 (FVal v (Some ((k, x) :: l))) :: concat (map (fun e => snd (node_ids sha1 (snd e))) ((k, x) :: l)).
Proof.
  cbn [node_ids snd]. f_equal. cbn [map concat snd]. f_equal. induction l as [|[k0 x0] m IH]; [reflexivity|]. cbn [map concat snd]. rewrite <- IH. reflexivity.
Qed.
(** A node itself or one below it. *)
Definition under (n m : fval) : Prop := m = n \/ (let '(FVal _ c) := n in node_in_fields c m).
Lemma under_kid v c k x m : In (k, x) (olist c) -> under x m -> under (FVal v c) m.
Proof. intros H [->|U]; right; [econstructor; exact H|]. destruct x as [v' c']. eapply nif_below; eassumption. Qed.

Lemma node_ids_iff n : forall y, In y (snd (node_ids sha1 n)) <-> exists m, under n m /\ ~ small m /\ y = fval_id sha1 m.
Proof.
  induction n as [v c IH] using fval_ind'. intros y.
  assert (forall c', olist c' = [] -> forall m, ~ node_in_fields c' m) as No.
  { intros c' E m H. destruct H as [f k x H|f k v0 c0 x H _]; rewrite E in H; destruct H. }
  destruct c as [[|[k x] l]|].
  1, 3: (cbn [node_ids]; destruct (blen v <=? 4)%N eqn:E; cbn [snd In]; split;
    [intros []|intros (m & [->|U] & S & _); [apply S; split; [reflexivity|unfold blen in E; apply N.leb_le in E; lia]|eapply (No _); [|exact U]; reflexivity]
    |intros [<-|[]]; eexists; split; [left; reflexivity|split; [intros (_ & L); unfold blen in E; apply N.leb_gt in E; lia|reflexivity]]
    |intros (m & [->|U] & S & ->); [left; reflexivity|exfalso; eapply (No _); [|exact U]; reflexivity]]).
  rewrite node_ids_eq. cbn [In]. rewrite in_concat. split.
  - intros [<-|(z & Hz & Hy)].
    + eexists. split; [left; reflexivity|]. split; [intros (H & _); discriminate|reflexivity].
    + apply in_map_iff in Hz as ([k0 x0] & <- & Hin). cbn [snd] in Hy. apply (IH k0 x0 Hin) in Hy as (m & U & S & ->). exists m. split; [eapply under_kid; eassumption|auto].
  - intros (m & [->|U] & S & ->); [left; reflexivity|]. right.
    inversion U as [f k0 x0 Hin|f k0 v0 c0 x0 Hin U']; subst.
    + exists (snd (node_ids sha1 m)). split; [apply in_map_iff; exists (k0, m); auto|]. apply (IH k0 m Hin). exists m. split; [left; reflexivity|auto].
    + exists (snd (node_ids sha1 (FVal v0 c0))). split; [apply in_map_iff; exists (k0, FVal v0 c0); auto|]. apply (IH k0 _ Hin). exists m. split; [right; exact U'|auto].
Qed.
Lemma node_counted_iff tr y : In y (node_counted sha1 tr) <-> exists m, occurs_node tr m /\ ~ small m /\ y = fval_id sha1 m.
Proof.
  unfold node_counted. rewrite in_concat. split.
  - intros (z & Hz & Hy). apply in_map_iff in Hz as (cf & <- & Hcf). unfold fv_ids in Hy. cbn [snd] in Hy. rewrite in_concat in Hy. destruct Hy as (z & Hz & Hy).
    rewrite map_map in Hz. apply in_map_iff in Hz as ([k x] & <- & Hin). cbn [snd] in Hy. apply node_ids_iff in Hy as (m & U & S & ->). exists m. split; [|auto].
    econstructor; [exact Hcf|]. destruct U as [->|U]; [econstructor; exact Hin|]. destruct x as [v c]. eapply nif_below; eassumption.
  - intros (m & [cf m' Hcf H] & S & ->). eexists. split; [apply in_map_iff; exists cf; split; [reflexivity|exact Hcf]|]. unfold fv_ids. cbn [snd]. rewrite map_map, in_concat.
    destruct H as [f k x Hin|f k v c x Hin U].
    + eexists. split; [apply in_map_iff; exists (k, x); split; [reflexivity|exact Hin]|]. apply node_ids_iff. exists x. split; [left; reflexivity|auto].
    + eexists. split; [apply in_map_iff; exists (k, FVal v c); split; [reflexivity|exact Hin]|]. apply node_ids_iff. exists x. split; [right; exact U|auto].
Qed.
End Table.

(** Whatever was encoded before: a small value is written where it stands and leaves the tables as they are, unless it has the identifier of a
    value of the result that is not small. *)
Theorem C15_small_in_place : forall sha1 tr fvc v c s, olist c = [] -> length v <= 4 ->
  (forall m, occurs_node tr m -> fval_id sha1 m = fval_id sha1 (FVal v c) -> small m) ->
  enc_node sha1 fvc (freq (node_counted sha1 tr)) (FVal v c) s = (EFV None v None None, s).
Proof.
  intros sha1 tr fvc v c s Hc Hv Hs.
  assert (freq (node_counted sha1 tr) (fval_id sha1 (FVal v c)) = 0) as F.
  { unfold freq. apply count_occ_not_In. intros H. apply node_counted_iff in H as (m & O & S & E). apply S, Hs; [exact O|congruence]. }
  cbn [enc_node]. rewrite F. cbn [Nat.ltb Nat.leb]. destruct (e_ni s); destruct c as [[|]|]; try discriminate; reflexivity.
Qed.
Print Assumptions C15_small_in_place.
(** The value 7 in place although it occurs twice; the long one in the table. *)
Example C15_small_in_place_example :
  let f := Some [(B "p", FVal (B "7") None); (B "q", FVal (B "longer") None)] in
  let tr := TResult (B "T") (B "TestA") (Some [(B "m.F", [CFrame f None 5%N; CFrame (Some (rev (olist f))) None 6%N])]) None None 3%Z true None in
  let m := marshal (fun b => b) (fun s => []) tr tr in
  small (FVal (B "7") None) /\ (forall x, occurs_node tr x -> fval_id (fun b => b) x = fval_id (fun b => b) (FVal (B "7") None) -> small x) /\
  et_nodedict m = [EFV None (B "longer") None None] /\
  In (B "p", EFV None (B "7") None None) (olist (nth 0 (et_fvdict m) None)).
Proof.
  cbv zeta. split; [split; [reflexivity|cbn; lia]|]. split; [|vm_compute; auto].
  intros x [cf y Hcf H] E. assert (forall f y, node_in_fields f y -> olist f = [(B "p", FVal (B "7") None); (B "q", FVal (B "longer") None)] \/
    olist f = rev [(B "p", FVal (B "7") None); (B "q", FVal (B "longer") None)] -> y = FVal (B "7") None \/ y = FVal (B "longer") None) as G.
  { intros f z Hz Hf. destruct Hz as [f k z Hin|f k v c z Hin U].
    - destruct Hf as [Hf|Hf]; rewrite Hf in Hin; destruct Hin as [Hin|[Hin|[]]]; injection Hin as _ <-; auto.
    - destruct Hf as [Hf|Hf]; rewrite Hf in Hin; destruct Hin as [Hin|[Hin|[]]]; injection Hin as _ _ <-; inversion U as [? ? ? H0|? ? ? ? ? H0 _]; destruct H0. }
  destruct (G _ _ H) as [->| ->].
  - destruct Hcf as [<-|[<-|[]]]; [left|right]; reflexivity.
  - split; [reflexivity|cbn; lia].
  - vm_compute in E. discriminate.
Qed.
