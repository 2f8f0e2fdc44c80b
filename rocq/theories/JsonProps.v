(** C70: the report file read back gives the figures of the run. *)
From Verif Require Import Base Maps TypesModel CompareModel ReportModel ReportProps JsonModel.
From Coq Require Import Permutation.
Local Open Scope nat_scope.

(** ** Maps and structs *)
Lemma mset_new {V} k (v : V) m : ~ In k (mkeys m) -> mset k v m = m ++ [(k, v)].
Proof.
  induction m as [|[q w] m IH]; intros N; [reflexivity|]. cbn. destruct (beq_spec k q) as [->|]; [exfalso; apply N; left; reflexivity|].
  f_equal. apply IH. intros H. apply N. right. exact H.
Qed.
Lemma as_map_from {V} (l m : list (bytes * V)) : NoDup (mkeys (m ++ l)) -> fold_left (fun m e => mset (fst e) (snd e) m) l m = m ++ l.
Proof.
  revert m. induction l as [|[k v] l IH]; intros m N; [rewrite app_nil_r; reflexivity|]. cbn [fold_left fst snd].
  assert (~ In k (mkeys m)) as Nk.
  { unfold mkeys in *. rewrite map_app in N. cbn in N. apply NoDup_remove_2 in N. intros H. apply N, in_or_app. left. exact H. }
  rewrite (mset_new _ _ _ Nk). rewrite IH by (rewrite <- app_assoc; exact N). rewrite <- app_assoc. reflexivity.
Qed.
Lemma as_map_id {V} (l : list (bytes * V)) : NoDup (mkeys l) -> as_map l = l.
Proof. intros N. apply (as_map_from l []). exact N. Qed.

Lemma pick_keys {V} (m : amap V) l : (forall k, In k l -> In k (mkeys m)) ->
  mkeys (flat_map (fun k => match mget k m with Some v => [(k, v)] | None => [] end) l) = l.
Proof.
  induction l as [|k l IH]; intros H; [reflexivity|]. cbn [flat_map]. pose proof (H k (or_introl eq_refl)) as Hk. apply mget_keys in Hk.
  destruct (mget k m) as [v|]; [|congruence]. cbn. f_equal. apply IH. intros x Hx. apply H. right. exact Hx.
Qed.
Lemma sort_keys_keys {V} (m : amap V) : mkeys (sort_keys m) = bsort (mkeys m).
Proof. apply pick_keys. intros k H. apply (proj1 (bsort_in _ _)) in H. exact H. Qed.
Lemma sort_keys_wf {V} (m : amap V) : mwf m -> mwf (sort_keys m).
Proof. intros W. unfold mwf. rewrite sort_keys_keys. apply bsort_nodup, W. Qed.
Lemma sort_keys_get {V} (m : amap V) k : mwf m -> mget k (sort_keys m) = mget k m.
Proof.
  intros W. destruct (mget k m) as [v|] eqn:E.
  - apply mget_in_wf; [apply sort_keys_wf, W|]. unfold sort_keys. apply in_flat_map. exists k. split; [apply bsort_in, mget_keys; rewrite E; discriminate|].
    rewrite E. left. reflexivity.
  - destruct (mget k (sort_keys m)) as [w|] eqn:F; [|reflexivity]. exfalso. assert (In k (mkeys (sort_keys m))) as H by (apply mget_keys; rewrite F; discriminate).
    rewrite sort_keys_keys in H. apply (proj1 (bsort_in _ _)), mget_keys in H. congruence.
Qed.
Lemma pick_same {V} (m : amap V) : mwf m -> flat_map (fun k => match mget k m with Some v => [(k, v)] | None => [] end) (mkeys m) = m.
Proof.
  intros W. assert (forall l, (forall e, In e l -> In e m) -> flat_map (fun k => match mget k m with Some v => [(k, v)] | None => [] end) (mkeys l) = l) as G.
  { induction l as [|[k v] l IH]; intros H; [reflexivity|]. cbn [mkeys map flat_map fst]. rewrite (mget_in_wf k v m W) by (apply H; left; reflexivity).
    cbn. f_equal. apply IH. intros e He. apply H. right. exact He. }
  apply G. auto.
Qed.
Lemma sort_keys_twice {V} (m : amap V) : mwf m -> sort_keys (sort_keys m) = sort_keys m.
Proof.
  intros W. unfold sort_keys at 1. rewrite sort_keys_keys. rewrite (bsort_unique (bsort (mkeys m)) (mkeys m)) by apply bsort_perm.
  rewrite <- sort_keys_keys. apply pick_same, sort_keys_wf, W.
Qed.

Definition nonnull {A} (zero : A) (dec : jv -> option A) (v : option jv) : option A :=
  match v with Some JNull | None => Some zero | Some w => dec w end.
Lemma field_none tag l : (forall k, In k (mkeys l) -> lower k <> tag) -> forall acc,
  fold_left (fun acc e => if beq (lower (fst e)) tag then match snd e with JNull => acc | v => Some v end else acc) l acc = acc.
Proof.
  induction l as [|[k v] l IH]; intros H acc; [reflexivity|]. cbn [fold_left fst]. destruct (beq_spec (lower k) tag) as [E|]; [exfalso; exact (H k (or_introl eq_refl) E)|].
  apply IH. intros x Hx. apply H. right. exact Hx.
Qed.
Lemma get_at {A} (zero : A) dec tag l : NoDup (mkeys l) -> lower tag = tag -> (forall k, In k (mkeys l) -> lower k = tag -> k = tag) ->
  get zero dec tag l = nonnull zero dec (mget tag l).
Proof.
  intros N Lt U. unfold get, field. assert (fold_left (fun acc e => if beq (lower (fst e)) tag then match snd e with JNull => acc | v => Some v end else acc) l None
    = match mget tag l with Some JNull | None => None | Some v => Some v end) as ->.
  { induction l as [|[k v] l IH]; [reflexivity|]. cbn [mkeys map fst] in N. inversion N as [|? ? Nk Nl]; subst. cbn [fold_left fst snd mget].
    destruct (beq_spec (lower k) tag) as [E|E].
    - assert (k = tag) as -> by (apply U; [left; reflexivity|exact E]). rewrite beq_refl.
      rewrite field_none; [destruct v; reflexivity|]. intros x Hx F. apply Nk. assert (x = tag) as -> by (apply U; [right; exact Hx|exact F]). exact Hx.
    - destruct (beq_spec tag k) as [->|]; [congruence|]. apply IH; [exact Nl|]. intros x Hx. apply U. right. exact Hx. }
  destruct (mget tag l) as [[]|]; reflexivity.
Qed.

(** Keys all in lower case and different. *)
Definition plain_keys {V} (l : list (bytes * V)) : Prop := NoDup (mkeys l) /\ forall k, In k (mkeys l) -> lower k = k.
Fixpoint plainb (l : list bytes) : bool :=
  match l with [] => true | k :: l' => negb (existsb (beq k) l') && beq (lower k) k && plainb l' end.
Lemma plainb_ok {V} (l : list (bytes * V)) : plainb (mkeys l) = true -> plain_keys l.
Proof.
  unfold plain_keys. induction (mkeys l) as [|k ks IH]; cbn; [split; [constructor|intros k []]|]. intros H. apply andb_prop in H as [H1 H2]. apply andb_prop in H1 as [H0 H1].
  destruct (IH H2) as [N L]. split.
  - constructor; [|exact N]. intros Hk. apply Bool.negb_true_iff in H0. assert (existsb (beq k) ks = true) as X by (apply existsb_exists; exists k; split; [exact Hk|apply beq_refl]). congruence.
  - intros x [<-|Hx]; [apply beq_true, H1|apply L, Hx].
Qed.

Section Back.
Variable num : Z -> Z.
Variable u8 : bytes -> bytes.
Notation remap := (remap num).

Lemma keys_mapped {V W} (f : V -> W) l : mkeys (map (fun e => (fst e, f (snd e))) l) = mkeys l.
Proof. unfold mkeys. rewrite map_map. reflexivity. Qed.
Lemma get_mapped {V W} (f : V -> W) l k : mget k (map (fun e => (fst e, f (snd e))) l) = option_map f (mget k l).
Proof. induction l as [|[q v] l IH]; [reflexivity|]. cbn. destruct (beq k q); [reflexivity|exact IH]. Qed.

Definition struct (l : list (bytes * jv)) : list (bytes * jv) := sort_keys (as_map (map (fun e => (fst e, remap (snd e))) l)).
Lemma remap_obj l : remap (JObj l) = JObj (struct l).
Proof. reflexivity. Qed.
Lemma struct_get {A} (zero : A) dec tag l : plain_keys l -> lower tag = tag -> get zero dec tag (struct l) = nonnull zero dec (option_map remap (mget tag l)).
Proof.
  intros [N L] Lt. unfold struct. rewrite as_map_id by (rewrite keys_mapped; exact N).
  assert (mwf (map (fun e => (fst e, remap (snd e))) l)) as W by (unfold mwf; rewrite keys_mapped; exact N).
  rewrite get_at; [|apply sort_keys_wf, W|exact Lt|].
  - rewrite sort_keys_get by exact W. rewrite get_mapped. reflexivity.
  - intros k Hk E. rewrite sort_keys_keys in Hk. apply (proj1 (bsort_in _ _)) in Hk. rewrite keys_mapped in Hk. rewrite (L k Hk) in E. exact E.
Qed.

(** ** Values that survive *)
(** Whole numbers a float64 holds exactly, and text that is UTF-8. *)
Definition exact (z : Z) : Prop := (- 2 ^ 53 <= z <= 2 ^ 53)%Z.
Hypothesis num_exact : forall z, exact z -> num z = z.
Definition utf8 (s : bytes) : Prop := u8 s = s.

(** [dec] reads what [enc] wrote, as [norm] of it. *)
Definition back {A} (enc : A -> jv) (dec : jv -> option A) (a a' : A) : Prop := remap (enc a) <> JNull /\ dec (remap (enc a)) = Some a'.

Lemma back_str s : utf8 s -> back (enc_str u8) dec_str s s.
Proof. intros U. split; [discriminate|]. cbn. f_equal. exact U. Qed.
Lemma back_int z : exact z -> back JNum dec_int z z.
Proof.
  intros E. split; [discriminate|]. cbn [JsonModel.remap]. unfold dec_int. rewrite (num_exact z E). unfold exact in E.
  destruct (Z.leb_spec (- 2 ^ 63) z); [|lia]. destruct (Z.ltb_spec z (2 ^ 63)); [reflexivity|lia].
Qed.
Lemma back_u32 n : (n < 2 ^ 32)%N -> back (fun n => JNum (Z.of_N n)) dec_u32 n n.
Proof.
  intros L. split; [discriminate|]. cbn [JsonModel.remap]. unfold dec_u32. rewrite num_exact by (unfold exact; lia).
  destruct (Z.leb_spec 0 (Z.of_N n)); [|lia]. destruct (Z.ltb_spec (Z.of_N n) (2 ^ 32)); [|lia]. cbn [andb]. f_equal. lia.
Qed.
Lemma back_nat n : (n <= 2 ^ 53)%N -> back (fun n => JNum (Z.of_N n)) dec_nat n n.
Proof. intros L. destruct (back_int (Z.of_N n)) as [A1 A2]; [unfold exact; lia|]. split; [exact A1|]. unfold dec_nat. rewrite A2. cbn. f_equal. lia. Qed.

Lemma all_some_back {A C} (f : A -> option C) (g : A -> C) l : Forall (fun a => f a = Some (g a)) l -> all_some (map f l) = Some (map g l).
Proof. induction 1 as [|a l E F IH]; [reflexivity|]. cbn. rewrite E. cbn. rewrite IH. reflexivity. Qed.
Lemma back_list {A} (zero : A) enc dec (norm : A -> A) o : (forall l, o = Some l -> Forall (fun a => back enc dec a (norm a)) l) ->
  nonnull None (dec_list zero dec) (Some (remap (enc_list enc o))) = Some (option_map (map norm) o).
Proof.
  intros H. destruct o as [l|]; [|reflexivity]. specialize (H l eq_refl). cbn. rewrite !map_map.
  rewrite (all_some_back (fun x => match remap (enc x) with JNull => Some zero | _ => dec (remap (enc x)) end) norm); [reflexivity|].
  eapply Forall_impl; [|exact H]. intros a [N E]. destruct (remap (enc a)); [congruence|exact E..].
Qed.
Lemma back_map {V} (zero : V) enc dec (norm : V -> V) (m : amap V) : mwf m -> (forall k, In k (mkeys m) -> utf8 k) ->
  (forall k v, mget k m = Some v -> back enc dec v (norm v)) ->
  back (enc_map u8 enc) (dec_map zero dec) m (map (fun e => (fst e, norm (snd e))) (sort_keys m)).
Proof.
  intros W U H. split; [discriminate|]. pose proof (sort_keys_wf m W) as Ws. unfold enc_map. rewrite remap_obj.
  assert (map (fun x => (u8 (fst x), enc (snd x))) (sort_keys m) = map (fun e => (fst e, enc (snd e))) (sort_keys m)) as ->.
  { apply map_ext_in. intros [k v] Hk. cbn. f_equal. apply U. apply (in_map fst) in Hk. cbn in Hk. change (In k (mkeys (sort_keys m))) in Hk. rewrite sort_keys_keys in Hk. apply (proj1 (bsort_in _ _)) in Hk. exact Hk. }
  unfold struct. rewrite map_map. cbn [fst snd]. rewrite (as_map_id (map (fun x => (fst x, remap (enc (snd x)))) (sort_keys m))) by (rewrite (keys_mapped (fun v => remap (enc v))); exact Ws).
  assert (sort_keys (map (fun x => (fst x, remap (enc (snd x)))) (sort_keys m)) = map (fun x => (fst x, remap (enc (snd x)))) (sort_keys m)) as ->.
  { unfold sort_keys at 1. rewrite (keys_mapped (fun v => remap (enc v))), sort_keys_keys. rewrite (bsort_unique (bsort (mkeys m)) (mkeys m)) by apply bsort_perm.
    rewrite <- sort_keys_keys. rewrite <- (keys_mapped (fun v => remap (enc v))). apply pick_same. unfold mwf. rewrite (keys_mapped (fun v => remap (enc v))). exact Ws. }
  unfold dec_map. rewrite map_map. cbn [fst snd].
  rewrite (all_some_back (fun x : bytes * V => option_map (pair (fst x)) match remap (enc (snd x)) with JNull => Some zero | x0 => dec x0 end) (fun e => (fst e, norm (snd e)))).
  - cbn [option_map]. f_equal. apply as_map_id. rewrite (keys_mapped norm). exact Ws.
  - apply Forall_forall. intros [k v] Hk. cbn [fst snd]. destruct (H k v) as [N E].
    + rewrite <- (sort_keys_get m k W). apply mget_in_wf; assumption.
    + destruct (remap (enc v)); [congruence|rewrite E; reflexivity..].
Qed.

(** ** The parts of a report *)
(** A map of field changes, by key. *)
Definition norm_fields (f : option (amap (amap bytes))) : option (amap (amap bytes)) :=
  option_map (fun m => map (fun e => (fst e, map (fun x => (fst x, snd x)) (sort_keys (snd e)))) (sort_keys m)) f.
Definition norm_detail (d : detail) : detail :=
  Detail (td_ident d) (td_name d) (td_baseline d) (td_regression d) (td_diff d) (td_hits d) (norm_fields (td_fields d)).
Definition strs_ok (o : option (list bytes)) : Prop := forall l, o = Some l -> Forall utf8 l.
Definition perf_ok (p : perf) : Prop :=
  utf8 (pf_ident p) /\ utf8 (pf_name p) /\ utf8 (pf_caller p) /\ exact (pf_diff p) /\ (pf_pre p < 2 ^ 32)%N /\ (pf_post p < 2 ^ 32)%N.
Definition fields_ok (m : amap (amap bytes)) : Prop :=
  mwf m /\ (forall k, In k (mkeys m) -> utf8 k) /\
  forall k x, mget k m = Some x -> mwf x /\ (forall j, In j (mkeys x) -> utf8 j) /\ forall j s, mget j x = Some s -> utf8 s.
Definition detail_ok (d : detail) : Prop :=
  utf8 (td_ident d) /\ utf8 (td_name d) /\ (td_diff d <= 2 ^ 53)%N /\ exact (td_hits d) /\ forall m, td_fields d = Some m -> fields_ok m.
Definition module_ok (m : mod_metrics) : Prop :=
  utf8 (mm_name m) /\ utf8 (mm_start m) /\ utf8 (mm_update m) /\ strs_ok (mm_changed m) /\ exact (mm_changed_count m) /\ exact (mm_funcs m) /\
  strs_ok (mm_reachable m) /\ exact (mm_reachable_count m) /\ exact (mm_untracked m).
Definition validation_ok (v : val_metrics) : Prop :=
  strs_ok (vm_project v) /\ exact (vm_project_count v) /\ strs_ok (vm_tests v) /\ exact (vm_tests_count v) /\
  Forall exact [vm_checks v; vm_hits v; vm_same v; vm_diff v; vm_generated v; vm_mutations v; vm_squashed v] /\
  (forall l, vm_perf v = Some l -> Forall perf_ok l) /\ (forall l, vm_details v = Some l -> Forall detail_ok l).
Definition metrics_ok (m : metrics) : Prop :=
  utf8 (me_time m) /\ Forall exact [me_run m; me_analysis m; me_discovery m; me_fields m; me_mutation m] /\
  module_ok (me_module m) /\ validation_ok (me_validation m).
(** The same report with the maps in order of their keys. *)
Definition norm_metrics (m : metrics) : metrics :=
  let v := me_validation m in
  Metrics (me_time m) (me_run m) (me_analysis m) (me_discovery m) (me_fields m) (me_mutation m) (me_module m)
    (ValMetrics (vm_project v) (vm_project_count v) (vm_tests v) (vm_tests_count v) (vm_checks v) (vm_hits v) (vm_same v) (vm_diff v)
       (vm_generated v) (vm_mutations v) (vm_squashed v) (vm_perf v) (option_map (map norm_detail) (vm_details v))).

Lemma nonnull_back {A} (zero : A) enc dec a a' : back enc dec a a' -> nonnull zero dec (Some (remap (enc a))) = Some a'.
Proof. intros [N E]. cbn. destruct (remap (enc a)); [congruence|exact E..]. Qed.
Lemma get_back {A} (zero : A) (enc : A -> jv) dec tag l a a' : plain_keys l -> lower tag = tag -> mget tag l = Some (enc a) -> back enc dec a a' ->
  get zero dec tag (struct l) = Some a'.
Proof. intros P L G Hb. rewrite struct_get by assumption. rewrite G. cbn [option_map]. apply (nonnull_back zero enc dec a a' Hb). Qed.
Lemma get_strs tag l o : plain_keys l -> lower tag = tag -> mget tag l = Some (enc_list (enc_str u8) o) -> strs_ok o ->
  get None (dec_list [] dec_str) tag (struct l) = Some o.
Proof.
  intros P L G S. rewrite struct_get by assumption. rewrite G. cbn [option_map]. rewrite (back_list [] (enc_str u8) dec_str (fun x => x)).
  - destruct o as [x|]; [cbn; rewrite map_id; reflexivity|reflexivity].
  - intros x Hx. eapply Forall_impl; [|exact (S x Hx)]. apply back_str.
Qed.

(** The same for an object known by an equation. *)
Lemma get_back_at {A} (zero : A) (enc : A -> jv) dec tag o l a a' : o = struct l -> plain_keys l -> lower tag = tag -> mget tag l = Some (enc a) -> back enc dec a a' ->
  get zero dec tag o = Some a'.
Proof. intros ->. apply get_back. Qed.
Lemma get_strs_at tag o l x : o = struct l -> plain_keys l -> lower tag = tag -> mget tag l = Some (enc_list (enc_str u8) x) -> strs_ok x ->
  get None (dec_list [] dec_str) tag o = Some x.
Proof. intros ->. apply get_strs. Qed.
Lemma get_list_at {A} (zero : A) enc dec (norm : A -> A) tag o l x : o = struct l -> plain_keys l -> lower tag = tag -> mget tag l = Some (enc_list enc x) ->
  (forall y, x = Some y -> Forall (fun a => back enc dec a (norm a)) y) -> get None (dec_list zero dec) tag o = Some (option_map (map norm) x).
Proof. intros -> P L G H. rewrite struct_get by assumption. rewrite G. cbn [option_map]. apply back_list, H. Qed.

Ltac plain := apply plainb_ok; vm_compute; exact eq_refl.

Lemma back_perf p : perf_ok p -> back (enc_perf u8) (dec_obj dec_perf) p p.
Proof using num_exact.
  intros (A1 & A2 & A3 & A4 & A5 & A6). split; [discriminate|]. unfold enc_perf. rewrite remap_obj. match goal with |- context[struct ?l] => remember (struct l) as o eqn:Eo end. cbn [dec_obj]. unfold dec_perf.
  erewrite (get_back_at [] (enc_str u8) dec_str _ _ _ (pf_ident p) (pf_ident p)); [|exact Eo|plain|reflexivity|reflexivity|apply back_str, A1]. cbn [obind].
  erewrite (get_back_at [] (enc_str u8) dec_str _ _ _ (pf_name p) (pf_name p)); [|exact Eo|plain|reflexivity|reflexivity|apply back_str, A2]. cbn [obind].
  erewrite (get_back_at [] (enc_str u8) dec_str _ _ _ (pf_caller p) (pf_caller p)); [|exact Eo|plain|reflexivity|reflexivity|apply back_str, A3]. cbn [obind].
  erewrite (get_back_at 0%Z JNum dec_int _ _ _ (pf_diff p) (pf_diff p)); [|exact Eo|plain|reflexivity|reflexivity|apply back_int, A4]. cbn [obind].
  erewrite (get_back_at 0%N (fun n => JNum (Z.of_N n)) dec_u32 _ _ _ (pf_pre p) (pf_pre p)); [|exact Eo|plain|reflexivity|reflexivity|apply back_u32, A5]. cbn [obind].
  erewrite (get_back_at 0%N (fun n => JNum (Z.of_N n)) dec_u32 _ _ _ (pf_post p) (pf_post p)); [|exact Eo|plain|reflexivity|reflexivity|apply back_u32, A6]. cbn [obind].
  destruct p; reflexivity.
Qed.

Lemma back_fields m : fields_ok m -> back (enc_map u8 (enc_map u8 (enc_str u8))) (dec_map [] (dec_map [] dec_str)) m
  (map (fun e => (fst e, map (fun x => (fst x, snd x)) (sort_keys (snd e)))) (sort_keys m)).
Proof.
  intros (W & K & V). apply (back_map [] (enc_map u8 (enc_str u8)) (dec_map [] dec_str) (fun x => map (fun y => (fst y, snd y)) (sort_keys x)) m W K).
  intros k x Hx. destruct (V k x Hx) as (W2 & K2 & V2). apply (back_map [] (enc_str u8) dec_str (fun s => s) x W2 K2). intros j s Hs. apply back_str, (V2 j s Hs).
Qed.
Lemma back_detail d : detail_ok d -> back (enc_detail u8) (dec_obj dec_detail) d (norm_detail d).
Proof using num_exact.
  intros (A1 & A2 & A3 & A4 & A5). split; [discriminate|]. unfold enc_detail. rewrite remap_obj. match goal with |- context[struct ?l] => remember (struct l) as o eqn:Eo end. cbn [dec_obj]. unfold dec_detail.
  erewrite (get_back_at [] (enc_str u8) dec_str _ _ _ (td_ident d) (td_ident d)); [|exact Eo|plain|reflexivity|reflexivity|apply back_str, A1]. cbn [obind].
  erewrite (get_back_at [] (enc_str u8) dec_str _ _ _ (td_name d) (td_name d)); [|exact Eo|plain|reflexivity|reflexivity|apply back_str, A2]. cbn [obind].
  erewrite (get_back_at false JBool dec_bool _ _ _ (td_baseline d) (td_baseline d)); [|exact Eo|plain|reflexivity|reflexivity|split; [discriminate|reflexivity]]. cbn [obind].
  erewrite (get_back_at false JBool dec_bool _ _ _ (td_regression d) (td_regression d)); [|exact Eo|plain|reflexivity|reflexivity|split; [discriminate|reflexivity]]. cbn [obind].
  erewrite (get_back_at 0%N (fun n => JNum (Z.of_N n)) dec_nat _ _ _ (td_diff d) (td_diff d)); [|exact Eo|plain|reflexivity|reflexivity|apply back_nat, A3]. cbn [obind].
  erewrite (get_back_at 0%Z JNum dec_int _ _ _ (td_hits d) (td_hits d)); [|exact Eo|plain|reflexivity|reflexivity|apply back_int, A4]. cbn [obind].
  subst o. rewrite struct_get by (plain || reflexivity). change (mget (B "field_changes") _) with (Some match td_fields d with Some m => enc_map u8 (enc_map u8 (enc_str u8)) m | None => JNull end).
  unfold norm_detail. destruct (td_fields d) as [m|] eqn:Ef; [|reflexivity]. destruct (back_fields m (A5 m eq_refl)) as [N E]. cbn [option_map].
  assert (nonnull None (fun v => option_map Some (dec_map [] (dec_map [] dec_str) v)) (Some (remap (enc_map u8 (enc_map u8 (enc_str u8)) m))) = Some (norm_fields (Some m))) as ->; [|reflexivity].
  unfold nonnull. rewrite E. cbn [option_map]. destruct (remap (enc_map u8 (enc_map u8 (enc_str u8)) m)); [congruence|reflexivity..].
Qed.
Lemma back_module m : module_ok m -> back (enc_module u8) (dec_obj dec_module) m m.
Proof using num_exact.
  intros (A1 & A2 & A3 & A4 & A5 & A6 & A7 & A8 & A9). split; [discriminate|]. unfold enc_module. rewrite remap_obj. match goal with |- context[struct ?l] => remember (struct l) as o eqn:Eo end. cbn [dec_obj]. unfold dec_module.
  erewrite (get_back_at [] (enc_str u8) dec_str _ _ _ (mm_name m) (mm_name m)); [|exact Eo|plain|reflexivity|reflexivity|apply back_str, A1]. cbn [obind].
  erewrite (get_back_at [] (enc_str u8) dec_str _ _ _ (mm_start m) (mm_start m)); [|exact Eo|plain|reflexivity|reflexivity|apply back_str, A2]. cbn [obind].
  erewrite (get_back_at [] (enc_str u8) dec_str _ _ _ (mm_update m) (mm_update m)); [|exact Eo|plain|reflexivity|reflexivity|apply back_str, A3]. cbn [obind].
  erewrite (get_strs_at _ _ _ (mm_changed m)); [|exact Eo|plain|reflexivity|reflexivity|exact A4]. cbn [obind].
  erewrite (get_back_at 0%Z JNum dec_int _ _ _ (mm_changed_count m) (mm_changed_count m)); [|exact Eo|plain|reflexivity|reflexivity|apply back_int, A5]. cbn [obind].
  erewrite (get_back_at 0%Z JNum dec_int _ _ _ (mm_funcs m) (mm_funcs m)); [|exact Eo|plain|reflexivity|reflexivity|apply back_int, A6]. cbn [obind].
  erewrite (get_strs_at _ _ _ (mm_reachable m)); [|exact Eo|plain|reflexivity|reflexivity|exact A7]. cbn [obind].
  erewrite (get_back_at 0%Z JNum dec_int _ _ _ (mm_reachable_count m) (mm_reachable_count m)); [|exact Eo|plain|reflexivity|reflexivity|apply back_int, A8]. cbn [obind].
  erewrite (get_back_at 0%Z JNum dec_int _ _ _ (mm_untracked m) (mm_untracked m)); [|exact Eo|plain|reflexivity|reflexivity|apply back_int, A9]. cbn [obind].
  destruct m; reflexivity.
Qed.
Lemma back_validation v : validation_ok v -> back (enc_validation u8) (dec_obj dec_validation) v
  (ValMetrics (vm_project v) (vm_project_count v) (vm_tests v) (vm_tests_count v) (vm_checks v) (vm_hits v) (vm_same v) (vm_diff v)
       (vm_generated v) (vm_mutations v) (vm_squashed v) (vm_perf v) (option_map (map norm_detail) (vm_details v))).
Proof using num_exact.
  intros (A1 & A2 & A3 & A4 & A5 & A6 & A7). split; [discriminate|]. unfold enc_validation. rewrite remap_obj. match goal with |- context[struct ?l] => remember (struct l) as o eqn:Eo end. cbn [dec_obj]. unfold dec_validation.
  repeat match goal with H : Forall exact (_ :: _) |- _ => inversion_clear H end.
  erewrite (get_strs_at _ _ _ (vm_project v)); [|exact Eo|plain|reflexivity|reflexivity|exact A1]. cbn [obind].
  erewrite (get_back_at 0%Z JNum dec_int _ _ _ (vm_project_count v) (vm_project_count v)); [|exact Eo|plain|reflexivity|reflexivity|apply back_int, A2]. cbn [obind].
  erewrite (get_strs_at _ _ _ (vm_tests v)); [|exact Eo|plain|reflexivity|reflexivity|exact A3]. cbn [obind].
  erewrite (get_back_at 0%Z JNum dec_int _ _ _ (vm_tests_count v) (vm_tests_count v)); [|exact Eo|plain|reflexivity|reflexivity|apply back_int, A4]. cbn [obind].
  erewrite (get_back_at 0%Z JNum dec_int _ _ _ (vm_checks v) (vm_checks v)); [|exact Eo|plain|reflexivity|reflexivity|apply back_int; assumption]. cbn [obind].
  erewrite (get_back_at 0%Z JNum dec_int _ _ _ (vm_hits v) (vm_hits v)); [|exact Eo|plain|reflexivity|reflexivity|apply back_int; assumption]. cbn [obind].
  erewrite (get_back_at 0%Z JNum dec_int _ _ _ (vm_same v) (vm_same v)); [|exact Eo|plain|reflexivity|reflexivity|apply back_int; assumption]. cbn [obind].
  erewrite (get_back_at 0%Z JNum dec_int _ _ _ (vm_diff v) (vm_diff v)); [|exact Eo|plain|reflexivity|reflexivity|apply back_int; assumption]. cbn [obind].
  erewrite (get_back_at 0%Z JNum dec_int _ _ _ (vm_generated v) (vm_generated v)); [|exact Eo|plain|reflexivity|reflexivity|apply back_int; assumption]. cbn [obind].
  erewrite (get_back_at 0%Z JNum dec_int _ _ _ (vm_mutations v) (vm_mutations v)); [|exact Eo|plain|reflexivity|reflexivity|apply back_int; assumption]. cbn [obind].
  erewrite (get_back_at 0%Z JNum dec_int _ _ _ (vm_squashed v) (vm_squashed v)); [|exact Eo|plain|reflexivity|reflexivity|apply back_int; assumption]. cbn [obind].
  erewrite (get_list_at _ (enc_perf u8) (dec_obj dec_perf) (fun x => x) _ _ _ (vm_perf v)); [|exact Eo|plain|reflexivity|reflexivity|intros l Hl; eapply Forall_impl; [|exact (A6 l Hl)]; apply back_perf]. cbn [obind].
  erewrite (get_list_at _ (enc_detail u8) (dec_obj dec_detail) norm_detail _ _ _ (vm_details v)); [|exact Eo|plain|reflexivity|reflexivity|intros l Hl; eapply Forall_impl; [|exact (A7 l Hl)]; apply back_detail]. cbn [obind].
  destruct (vm_perf v); cbn [option_map]; rewrite ?map_id; reflexivity.
Qed.

(** ** The whole file *)
(** What extensions add has other keys, whatever the case. *)
Definition tags : list bytes := mkeys (enc_metrics u8 (Metrics [] 0 0 0 0 0 zero_module zero_validation)).
Definition apart (extra : list (bytes * jv)) : Prop := forall k, In k (mkeys extra) -> ~ In (lower k) tags.

Lemma set_all_get {V} (extra m : list (bytes * V)) k : ~ In k (mkeys extra) ->
  mget k (fold_left (fun r e => mset (fst e) (snd e) r) extra m) = mget k m.
Proof.
  revert m. induction extra as [|[q v] l IH]; intros m N; [reflexivity|]. cbn [fold_left fst snd]. rewrite IH by (intros H; apply N; right; exact H).
  rewrite mget_mset. destruct (beq_spec k q) as [->|]; [exfalso; apply N; left; reflexivity|reflexivity].
Qed.
Lemma set_all_keys {V} (extra m : list (bytes * V)) k : In k (mkeys (fold_left (fun r e => mset (fst e) (snd e) r) extra m)) -> In k (mkeys extra) \/ In k (mkeys m).
Proof.
  revert m. induction extra as [|[q v] l IH]; intros m H; [right; exact H|]. cbn [fold_left fst snd] in H. destruct (IH _ H) as [H1|H1]; [left; right; exact H1|].
  apply mkeys_mset in H1 as [-> |H1]; [left; left; reflexivity|right; exact H1].
Qed.
Lemma set_all_wf {V} (extra m : list (bytes * V)) : mwf m -> mwf (fold_left (fun r e => mset (fst e) (snd e) r) extra m).
Proof. revert m. induction extra as [|[q v] l IH]; intros m W; [exact W|]. apply IH, mwf_mset, W. Qed.

Lemma top_get {A} (zero : A) dec tag extra m : apart extra -> In tag tags ->
  get zero dec tag (sort_keys (fold_left (fun r e => mset (fst e) (snd e) r) extra (report_map num u8 m))) = nonnull zero dec (option_map remap (mget tag (enc_metrics u8 m))).
Proof.
  intros Ap Ht. assert (plain_keys (enc_metrics u8 m)) as [N L] by plain.
  assert (mkeys (enc_metrics u8 m) = tags) as Ek by reflexivity.
  assert (mkeys (report_map num u8 m) = tags) as Er by (unfold report_map; rewrite as_map_id; [apply keys_mapped|rewrite keys_mapped; exact N]).
  assert (mwf (report_map num u8 m)) as Wr by (unfold mwf; rewrite Er, <- Ek; exact N).
  assert (lower tag = tag) as Lt by (apply L; rewrite Ek; exact Ht).
  rewrite get_at; [|apply sort_keys_wf, set_all_wf, Wr|exact Lt|].
  - rewrite sort_keys_get by (apply set_all_wf, Wr). rewrite set_all_get by (intros H; apply (Ap tag H); rewrite Lt; exact Ht).
    unfold report_map. rewrite as_map_id by (rewrite keys_mapped; exact N). rewrite get_mapped. reflexivity.
  - intros k Hk E. rewrite sort_keys_keys in Hk. apply (proj1 (bsort_in _ _)), set_all_keys in Hk as [Hk|Hk]; [exfalso; apply (Ap k Hk); rewrite E; exact Ht|].
    rewrite Er, <- Ek in Hk. rewrite (L k Hk) in E. exact E.
Qed.
Lemma top_back {A} (zero : A) (enc : A -> jv) dec tag extra m a a' : apart extra -> In tag tags -> mget tag (enc_metrics u8 m) = Some (enc a) -> back enc dec a a' ->
  get zero dec tag (sort_keys (fold_left (fun r e => mset (fst e) (snd e) r) extra (report_map num u8 m))) = Some a'.
Proof. intros Ap Ht G Hb. rewrite top_get by assumption. rewrite G. cbn [option_map]. apply (nonnull_back zero enc dec a a' Hb). Qed.

(** Reading the file, whatever extensions added to it, gives the report written. *)
Theorem C70_read_back : forall extra m, apart extra -> metrics_ok m -> read_report (written num u8 extra m) = Some (norm_metrics m).
Proof using num_exact.
  intros extra m Ap (A1 & A2 & A3 & A4). repeat match goal with H : Forall exact (_ :: _) |- _ => inversion_clear H end.
  unfold written, read_report. cbn [dec_obj].
  Ltac tagged := cbn; tauto.
  rewrite (top_back [] (enc_str u8) dec_str _ extra m (me_time m) (me_time m)); [|exact Ap|tagged|reflexivity|apply back_str, A1]. cbn [obind].
  rewrite (top_back 0%Z JNum dec_int _ extra m (me_run m) (me_run m)); [|exact Ap|tagged|reflexivity|apply back_int; assumption]. cbn [obind].
  rewrite (top_back 0%Z JNum dec_int _ extra m (me_analysis m) (me_analysis m)); [|exact Ap|tagged|reflexivity|apply back_int; assumption]. cbn [obind].
  rewrite (top_back 0%Z JNum dec_int _ extra m (me_discovery m) (me_discovery m)); [|exact Ap|tagged|reflexivity|apply back_int; assumption]. cbn [obind].
  rewrite (top_back 0%Z JNum dec_int _ extra m (me_fields m) (me_fields m)); [|exact Ap|tagged|reflexivity|apply back_int; assumption]. cbn [obind].
  rewrite (top_back 0%Z JNum dec_int _ extra m (me_mutation m) (me_mutation m)); [|exact Ap|tagged|reflexivity|apply back_int; assumption]. cbn [obind].
  rewrite (top_back zero_module (enc_module u8) (dec_obj dec_module) _ extra m (me_module m) (me_module m)); [|exact Ap|tagged|reflexivity|apply back_module, A3]. cbn [obind].
  erewrite (top_back zero_validation (enc_validation u8) (dec_obj dec_validation) _ extra m (me_validation m)); [|exact Ap|tagged|reflexivity|apply back_validation, A4]. cbn [obind].
  reflexivity.
Qed.
End Back.
Print Assumptions C70_read_back.

(** Field changes in the order of the file are the same maps. *)
Definition same_fields (a b : option (amap (amap bytes))) : Prop :=
  match a, b with
  | None, None => True
  | Some x, Some y => forall k, match mget k x, mget k y with None, None => True | Some u, Some w => forall j, mget j u = mget j w | _, _ => False end
  | _, _ => False
  end.
Lemma map_pair_id (l : list (bytes * bytes)) : map (fun x => (fst x, snd x)) l = l.
Proof. induction l as [|[a b] l IH]; [reflexivity|]. cbn. rewrite IH. reflexivity. Qed.
Theorem C70_maps_same : forall f, (forall m, f = Some m -> mwf m /\ forall k x, mget k m = Some x -> mwf x) -> same_fields (norm_fields f) f.
Proof.
  intros [m|] H; [|exact I]. destruct (H m eq_refl) as [W V]. cbn. intros k.
  rewrite (get_mapped (fun x : amap bytes => map (fun y : bytes * bytes => (fst y, snd y)) (sort_keys x))). rewrite sort_keys_get by exact W. destruct (mget k m) as [x|] eqn:E; [|exact I].
  cbn. intros j. rewrite map_pair_id. apply sort_keys_get, (V k x E).
Qed.
Print Assumptions C70_maps_same.

(** ** Names in the file *)
(** The same letter, in the same or the other case. *)
Definition letter_pairs : list (ascii * ascii) := combine (B "ABCDEFGHIJKLMNOPQRSTUVWXYZ") (B "abcdefghijklmnopqrstuvwxyz").
Definition same_letter (a b : ascii) : Prop := a = b \/ In (a, b) letter_pairs \/ In (b, a) letter_pairs.
Definition same_letterb (a b : ascii) : bool :=
  Ascii.eqb a b || existsb (fun p => Ascii.eqb (fst p) a && Ascii.eqb (snd p) b || Ascii.eqb (fst p) b && Ascii.eqb (snd p) a) letter_pairs.
Lemma same_letterb_iff a b : same_letterb a b = true <-> same_letter a b.
Proof.
  unfold same_letterb, same_letter. rewrite orb_true_iff, Ascii.eqb_eq, existsb_exists. split; (intros [E|H]; [left; exact E|right]).
  - destruct H as [[x y] [H E]]. cbn [fst snd] in E. rewrite orb_true_iff, !andb_true_iff, !Ascii.eqb_eq in E. destruct E as [[-> ->]|[-> ->]]; auto.
  - destruct H as [H|H]; [exists (a, b)|exists (b, a)]; (split; [exact H|]); cbn [fst snd]; rewrite !Ascii.eqb_refl; [reflexivity|apply orb_true_r].
Qed.
Definition all_bytes : list ascii := map ascii_of_nat (seq 0 256).
Lemma all_bytes_all c : In c all_bytes.
Proof.
  apply in_map_iff. exists (nat_of_ascii c). split; [apply ascii_nat_embedding|]. apply in_seq. pose proof (nat_ascii_bounded c). lia.
Qed.
Lemma lower_letters : forall a b, lower [a] = lower [b] <-> same_letter a b.
Proof.
  intros a b. rewrite <- same_letterb_iff.
  assert (forallb (fun x => forallb (fun y => Bool.eqb (beq (lower [x]) (lower [y])) (same_letterb x y)) all_bytes) all_bytes = true) as K by (vm_compute; reflexivity).
  rewrite forallb_forall in K. specialize (K a (all_bytes_all a)). rewrite forallb_forall in K. specialize (K b (all_bytes_all b)). apply eqb_prop in K. rewrite <- K. apply iff_sym, beq_true.
Qed.
Lemma lower_cons a s : lower (a :: s) = lower [a] ++ lower s. Proof. reflexivity. Qed.
Lemma lower_names s t : lower s = lower t <-> Forall2 same_letter s t.
Proof.
  revert t. induction s as [|a s IH]; intros [|b t]; [split; [constructor|reflexivity]|split; [discriminate|inversion 1]|split; [discriminate|inversion 1]|].
  rewrite (lower_cons a), (lower_cons b). split.
  - intros E. assert (lower [a] = lower [b] /\ lower s = lower t) as [E1 E2] by (split; [exact (f_equal (firstn 1) E)|exact (f_equal (skipn 1) E)]). constructor; [apply lower_letters, E1|apply IH, E2].
  - inversion_clear 1 as [|? ? ? ? H1 H2]. apply lower_letters in H1. apply IH in H2. rewrite H1, H2. reflexivity.
Qed.
Lemma respelled_get {A} (zero : A) dec tag o o' : Forall2 (fun e e' => Forall2 same_letter (fst e) (fst e') /\ snd e = snd e') o o' -> get zero dec tag o = get zero dec tag o'.
Proof.
  intros H. unfold get. replace (field tag o') with (field tag o); [reflexivity|]. unfold field. generalize (@None jv). induction H as [|[k v] [k' v'] o o' [Hk Hv] _ IH]; intros acc; [reflexivity|].
  cbn [fold_left fst snd] in *. subst v'. apply lower_names in Hk. rewrite Hk. apply IH.
Qed.
(** Names are read in any case. *)
Theorem C70_names_in_any_case : forall o o', Forall2 (fun e e' => Forall2 same_letter (fst e) (fst e') /\ snd e = snd e') o o' -> read_report (JObj o) = read_report (JObj o').
Proof. intros o o' H. unfold read_report. cbn [dec_obj]. rewrite !(fun A z d t => @respelled_get A z d t o o' H). reflexivity. Qed.
Print Assumptions C70_names_in_any_case.
Example C70_names_in_any_case_example : Forall2 same_letter (B "Run_MS") (B "run_ms") /\ ~ Forall2 same_letter (B "run ms") (B "run_ms") /\
  option_map me_run (read_report (JObj [(B "Run_MS", JNum 7)])) = Some 7%Z /\ option_map me_run (read_report (JObj [(B "run ms", JNum 7)])) = Some 0%Z.
Proof. rewrite <- !lower_names. split; [reflexivity|]. split; [discriminate|]. split; vm_compute; reflexivity. Qed.

Definition report_names : list bytes := map B ["generated_at"; "run_ms"; "analysis_ms"; "test_discovery_ms"; "field_check_ms"; "mutation_ms"; "module"; "validation"]%string.
Lemma foreign_get {A} (zero : A) dec tag o k v o' : lower tag = tag -> ~ Forall2 same_letter k tag -> get zero dec tag (o ++ (k, v) :: o') = get zero dec tag (o ++ o').
Proof.
  intros L N. unfold get, field. rewrite !fold_left_app. cbn [fold_left fst snd]. rewrite (proj2 (beq_false (lower k) tag)); [reflexivity|]. intros E. apply N, lower_names. congruence.
Qed.
(** Whatever else is in the file, and wherever, is ignored. *)
Theorem C70_other_names : forall o k v o', (forall n, In n report_names -> ~ Forall2 same_letter k n) -> read_report (JObj (o ++ (k, v) :: o')) = read_report (JObj (o ++ o')).
Proof.
  intros o k v o' N. unfold read_report. cbn [dec_obj].
  assert (forall A (z : A) d t, In t report_names -> lower t = t -> get z d t (o ++ (k, v) :: o') = get z d t (o ++ o')) as G by (intros A z d t Ht Lt; apply foreign_get; [exact Lt|apply N, Ht]).
  rewrite !G; try reflexivity; unfold report_names; cbn [map In]; tauto.
Qed.
Print Assumptions C70_other_names.
Example C70_other_names_example : forall n, In n report_names -> ~ Forall2 same_letter (B "Extension") n.
Proof. intros n H. rewrite <- lower_names. unfold report_names in H. cbn [map In] in H. repeat (destruct H as [<- |H]; [discriminate|]). destruct H. Qed.

(** The counts in a file are the lengths of the lists in it. *)
Theorem C70_counts_fit : forall num u8, (forall z, exact z -> num z = z) ->
  forall extra time run analysis discovery fields mutation name start update modules reachable project tests c perfs details, apart u8 extra ->
  metrics_ok u8 (build_metrics time run analysis discovery fields mutation name start update modules reachable project tests c perfs details) ->
  exists m, read_report (written num u8 extra (build_metrics time run analysis discovery fields mutation name start update modules reachable project tests c perfs details)) = Some m /\
  mm_changed (me_module m) = modules /\ mm_changed_count (me_module m) = olen modules /\
  mm_reachable (me_module m) = reachable /\ mm_reachable_count (me_module m) = olen reachable /\
  vm_project (me_validation m) = project /\ vm_project_count (me_validation m) = olen project /\
  vm_tests (me_validation m) = tests /\ vm_tests_count (me_validation m) = olen tests.
Proof.
  intros num u8 Hn extra time run analysis discovery fields mutation name start update modules reachable project tests c perfs details Ap Ok.
  eexists. split; [apply C70_read_back; assumption|]. repeat split.
Qed.
Print Assumptions C70_counts_fit.

(** What the charts drawn from the file show of the tests: the totals of the time changes and,
    row by row, name, state and number of changed fields. *)
Theorem C70_charts_from_file : forall num u8 trim, (forall z, exact z -> num z = z) ->
  forall extra m rs ps, apart u8 extra -> metrics_ok u8 m ->
  vm_details (me_validation m) = Some (map (detail_of trim) rs) -> vm_perf (me_validation m) = Some ps ->
  Permutation ps (flat_map perfs_of rs) -> (forall r, In r rs -> mwf (olist (rp_times r))) -> times_named_once rs ->
  exists m' ds, read_report (written num u8 extra m) = Some m' /\ vm_details (me_validation m') = Some ds /\ vm_perf (me_validation m') = Some ps /\
  total_times (map (rebuild ps) ds) = total_times rs /\
  map (fun r => (rw_name r, rw_state r, rw_count r)) (risky (map (rebuild ps) ds)) = map (fun r => (rw_name r, rw_state r, rw_count r)) (risky rs).
Proof.
  intros num u8 trim Hn extra m rs ps Ap Ok Ed Ep P W U. exists (norm_metrics m), (map norm_detail (map (detail_of trim) rs)).
  split; [apply C70_read_back; assumption|]. split; [cbn; rewrite Ed; reflexivity|]. split; [exact Ep|]. split.
  - rewrite <- (C58_times_kept trim rs ps _ P W U (Permutation_refl _)). unfold total_times. rewrite !flat_map_concat_map, !map_map. reflexivity.
  - unfold risky. rewrite !flat_map_concat_map, !concat_map, !map_map. f_equal. apply map_ext. intros r.
    unfold row_of, rebuild, norm_detail, detail_of, regressed, state_text, regressed. cbn [rp_orig rp_post rp_fields rp_diff tr_name tr_fail td_ident td_name td_baseline td_regression td_diff td_hits td_fields].
    destruct (tr_fail (rp_orig r)), (tr_fail (rp_post r)); cbn; destruct (0 <? rp_diff r)%N; reflexivity.
Qed.
Print Assumptions C70_charts_from_file.

(** A count beyond 2^53 is not read back, as the map of the report holds floats. *)
Theorem C70_large_counts_refuted : exists num, (forall z, exact z -> num z = z) /\ num (2 ^ 53 + 1)%Z = (2 ^ 53)%Z /\
  exists m m', read_report (written num (fun s => s) [] m) = Some m' /\ me_run m = (2 ^ 53 + 1)%Z /\ me_run m' = (2 ^ 53)%Z.
Proof.
  exists (fun z => if (z =? 2 ^ 53 + 1)%Z then (2 ^ 53)%Z else z). split; [|split].
  - intros z H. unfold exact in H. destruct (Z.eqb_spec z (2 ^ 53 + 1)); lia.
  - reflexivity.
  - exists (Metrics (B "t") (2 ^ 53 + 1) 0 0 0 0 zero_module zero_validation). eexists. split; [vm_compute; reflexivity|split; reflexivity].
Qed.
Print Assumptions C70_large_counts_refuted.

(** Field names that are no UTF-8 may become equal, and one difference is lost. *)
Theorem C70_equal_after_cleaning_refuted : exists u8 m m', u8 (B "a") = u8 (B "b") /\
  read_report (written (fun z => z) u8 [] m) = Some m' /\
  option_map (map (fun d => option_map (map (fun e => (fst e, length (snd e)))) (td_fields d))) (vm_details (me_validation m)) = Some [Some [(B "f", 2)]] /\
  option_map (map (fun d => option_map (map (fun e => (fst e, length (snd e)))) (td_fields d))) (vm_details (me_validation m')) = Some [Some [(B "f", 1)]].
Proof.
  exists (fun s => if beq s (B "b") then B "a" else s),
    (build_metrics (B "t") 0 0 0 0 0 [] [] [] None None None None (Counts 0 0 0 0 0 0 0 0 0) None
      (Some [Detail (B "p.T") (B "T") false false 2 1 (Some [(B "f", [(B "a", B "1"); (B "b", B "2")])])])).
  eexists. split; [reflexivity|]. split; [vm_compute; reflexivity|]. split; reflexivity.
Qed.
Print Assumptions C70_equal_after_cleaning_refuted.

(** An extension that writes a key of the report in another case changes what is read. *)
Theorem C70_extension_in_the_way_refuted : exists m m', me_run m = 10%Z /\
  read_report (written (fun z => z) (fun s => s) [(B "run_MS", JNum 7)] m) = Some m' /\ me_run m' = 10%Z /\
  exists m2, read_report (written (fun z => z) (fun s => s) [(B "run_ms", JNum 7)] m) = Some m2 /\ me_run m2 = 7%Z /\
  read_report (written (fun z => z) (fun s => s) [(B "run_ms", JStr (B "7"))] m) = None.
Proof.
  exists (Metrics (B "t") 10 0 0 0 0 zero_module zero_validation). eexists. split; [reflexivity|]. split; [vm_compute; reflexivity|]. split; [reflexivity|].
  eexists. split; [vm_compute; reflexivity|]. split; reflexivity.
Qed.
Print Assumptions C70_extension_in_the_way_refuted.

(** A small report, with an extension. *)
Definition ex70 : metrics :=
  build_metrics (B "2025-01-02T03:04:05Z") 10 1 2 3 4 (B "m") (B "v1") (B "v2") (Some [B "m"]) (Some (map B ["m.F"; "m.G"]%string)) None (Some [])
    (Counts 5 1 0 7 8 9 0 3 2) (Some [Perf (B "p.TestA") (B "TestA") (B "p.F") (-5) 10 5])
    (Some [Detail (B "p.TestA") (B "TestA") false true 2 1 (Some [(B "p.G", [(B "x", B "1")]); (B "p.F", [(B "z", B "2"); (B "y", B "3")])])]).
Example C70_example :
  apart (fun s => s) [(B "notes", JStr (B "hello"))] /\ metrics_ok (fun s => s) ex70 /\
  option_map (fun m => (mm_changed_count (me_module m), olen (vm_details (me_validation m)), me_time m)) (read_report (written (fun z => z) (fun s => s) [(B "notes", JStr (B "hello"))] ex70))
    = Some (1%Z, 1%Z, B "2025-01-02T03:04:05Z") /\
  option_map (fun m => option_map (map (fun d => option_map (map fst) (td_fields d))) (vm_details (me_validation m))) (read_report (written (fun z => z) (fun s => s) [] ex70))
    = Some (Some [Some [B "p.F"; B "p.G"]]).
Proof.
  split; [intros k [<-|[]]; vm_compute; intuition discriminate|]. split; [|split; vm_compute; reflexivity].
  assert (forall z, (-100 <= z <= 100)%Z -> exact z) as Ex by (intros z; unfold exact; lia).
  split; [reflexivity|]. split; [repeat constructor; apply Ex; cbn; lia|]. split.
  - unfold module_ok. repeat apply conj; try reflexivity; try (apply Ex; cbn; lia); intros l E; injection E as <-; repeat constructor.
  - unfold validation_ok. repeat apply conj; try (apply Ex; cbn; lia); try (intros l E; try discriminate; injection E as <-; repeat constructor; fail).
    + repeat constructor; apply Ex; cbn; lia.
    + intros l E. injection E as <-. constructor; [|constructor]. unfold perf_ok. repeat apply conj; try reflexivity; try (apply Ex; cbn; lia); cbn; lia.
    + intros l E. injection E as <-. constructor; [|constructor]. unfold detail_ok. repeat apply conj; try reflexivity; try (apply Ex; cbn; lia); try (cbn; lia).
      intros m E. injection E as <-. split; [unfold mwf; cbn; repeat constructor; cbn; intuition discriminate|]. split; [reflexivity|].
      intros k x E. split; [|split; reflexivity]. cbn [mget] in E. repeat match type of E with (if ?b then _ else _) = _ => destruct b end; try discriminate; injection E as <-;
        unfold mwf; cbn; repeat constructor; cbn; intuition discriminate.
Qed.
(** The tests of C58_example through the file. *)
Example C70_charts_example :
  let rs := [timed58 "TestA" [(B "p.F", TChange 5 1 6); (B "p.G", TChange (-3) 4 1)]; timed58 "TestB" [(B "p.F", TChange 1 1 2)]] in
  let m := build_metrics (B "t") 0 0 0 0 0 [] [] [] None None None None (Counts 0 0 0 0 0 0 0 0 0) (Some (rev (flat_map perfs_of rs))) (Some (map (detail_of (fun x => x)) rs)) in
  match read_report (written (fun z => z) (fun s => s) [] m) with
  | Some m' => match vm_details (me_validation m'), vm_perf (me_validation m') with
               | Some ds, Some ps => total_times (map (rebuild ps) ds) = (6, 9)%N /\ length (risky (map (rebuild ps) ds)) = 2
               | _, _ => False
               end
  | None => False
  end.
Proof. vm_compute. auto. Qed.
