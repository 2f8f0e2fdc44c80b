(** Properties C14, C15 and C16: flattening, storing and identifying captured
    field trees. *)

From Verif Require Import Base Maps TypesModel TypesSpec TypesProofs TypesCodec TypesIds.
From Coq Require Import Permutation.

(** A small tree used in the examples: a point with a nested position. *)
Definition leaf (v : bytes) : fval := FVal v None.
Definition ex_tree : fvals :=
  Some [(B "pos", FVal [] (Some [(B "x", leaf (B "1")); (B "y", leaf (B "2"))])); (B "id", leaf (B "7"))].
(** The same tree, its maps iterated in another order. *)
Definition ex_tree' : fvals :=
  Some [(B "id", leaf (B "7")); (B "pos", FVal [] (Some [(B "y", leaf (B "2")); (B "x", leaf (B "1"))]))].

Ltac nodup_keys := cbn; repeat constructor; cbn; intuition discriminate.
Ltac all_entries tac := let H := fresh in
  intros ? ? H; cbn in H;
  repeat (destruct H as [H|H]; [injection H as <- <-; tac|]); destruct H.

Lemma ex_leaf_wf v : fwf (leaf v).
Proof. constructor; [constructor|intros k x []]. Qed.
Lemma ex_leaf_plain v : names_plain (leaf v).
Proof. constructor. intros k x []. Qed.
Lemma ex_plain k : forallb (fun c => negb (Ascii.eqb c ".")) k = true -> k <> [] -> plain_name k.
Proof.
  intros H1 H2. split; [exact H2|]. intros Hin. rewrite forallb_forall in H1. specialize (H1 _ Hin). discriminate.
Qed.

Lemma ex_tree_wf : fvals_wf ex_tree.
Proof.
  split; [nodup_keys|].
  all_entries ltac:(first [apply ex_leaf_wf|constructor; [nodup_keys|all_entries ltac:(apply ex_leaf_wf)]]).
Qed.
Lemma ex_tree_plain : fvals_plain ex_tree.
Proof.
  all_entries ltac:(split; [apply ex_plain; [reflexivity|discriminate]|
    first [apply ex_leaf_plain|
      constructor; all_entries ltac:(split; [apply ex_plain; [reflexivity|discriminate]|apply ex_leaf_plain])]]).
Qed.

(** ** C14 *)

(** Flattening lists exactly the leaves, each once, under its dotted path. *)
Theorem C14_flatten_lists_exactly_the_leaves : forall f,
  fvals_wf f -> fvals_plain f ->
  NoDup (mkeys (flatten f)) /\
  (forall k v, mget k (flatten f) = Some v <-> exists p, leaf_at f p v /\ k = dotted p).
Proof.
  intros f W P. split; [apply fold_mset_wf; constructor|apply flatten_spec; assumption].
Qed.
Print Assumptions C14_flatten_lists_exactly_the_leaves.

(** Two leaves at different paths never share a name. *)
Theorem C14_leaf_names_are_distinct : forall f p q v w,
  fvals_plain f -> leaf_at f p v -> leaf_at f q w -> dotted p = dotted q -> p = q /\ v = w.
Proof.
  intros f p q v w P Hp Hq E. assert (p = q) as ->.
  { apply dotted_inj; auto; [eapply leaf_at_nonempty; exact Hp|eapply leaf_at_nonempty; exact Hq|
      eapply leaf_at_plain; eassumption|eapply leaf_at_plain; eassumption]. }
  split; [reflexivity|eapply leaf_at_det; eassumption].
Qed.
Print Assumptions C14_leaf_names_are_distinct.

Example C14_flatten_example :
  fvals_wf ex_tree /\ fvals_plain ex_tree /\
  flatten ex_tree = [(B "pos.x", B "1"); (B "pos.y", B "2"); (B "id", B "7")] /\
  leaf_at ex_tree [B "pos"; B "y"] (B "2") /\ leaf_at ex_tree [B "id"] (B "7").
Proof.
  split; [apply ex_tree_wf|]. split; [apply ex_tree_plain|]. split; [reflexivity|].
  split; [eapply leaf_below; [reflexivity|]; eapply leaf_here; reflexivity|eapply leaf_here; reflexivity].
Qed.

(** Without plain names two leaves can collide: one value is lost, and which one
    depends on map order.  (Map keys of captured values become names, so dots do
    occur.) *)
Theorem C14_dotted_names_collide_refuted : exists f f',
  fvals_wf f /\ fvals_wf f' /\ same_fields f f' /\
  leaf_at f [B "a.b"] (B "1") /\ leaf_at f [B "a"; B "b"] (B "2") /\
  flatten f = [(B "a.b", B "2")] /\ flatten f' = [(B "a.b", B "1")].
Proof.
  exists (Some [(B "a.b", leaf (B "1")); (B "a", FVal [] (Some [(B "b", leaf (B "2"))]))]),
         (Some [(B "a", FVal [] (Some [(B "b", leaf (B "2"))])); (B "a.b", leaf (B "1"))]).
  assert (fwf (FVal [] (Some [(B "b", leaf (B "2"))]))) as W1
    by (constructor; [nodup_keys|all_entries ltac:(apply ex_leaf_wf)]).
  split; [split; [nodup_keys|all_entries ltac:(first [apply ex_leaf_wf|exact W1])]|].
  split; [split; [nodup_keys|all_entries ltac:(first [apply ex_leaf_wf|exact W1])]|].
  split.
  { split; intros k x E; apply mget_in in E; cbn in E;
      (destruct E as [E|[E|[]]]; injection E as <- <-; eexists; (split; [reflexivity|apply same_tree_refl])). }
  split; [eapply leaf_here; reflexivity|].
  split; [eapply leaf_below; [reflexivity|]; eapply leaf_here; reflexivity|].
  split; reflexivity.
Qed.
Print Assumptions C14_dotted_names_collide_refuted.

(** ** C15 *)

(** Whatever the sharing pattern and the order in which the counting pass visits
    the maps ([trc]), decoding gives the result back. *)
Theorem C15_saved_results_load_back : forall sha1 mp tr trc fuel,
  result_wf tr -> ids_tell_apart sha1 mp tr -> (3 * result_height tr + 1 <= fuel)%nat ->
  exists tr', unmarshal fuel (marshal sha1 mp trc tr) = DOk tr' /\ same_result tr' tr.
Proof. exact round_trip. Qed.
Print Assumptions C15_saved_results_load_back.

(** For results whose captured fields are all flat the proviso reduces to the
    hash not colliding on the data of that result. *)
Theorem C15_flat_results_load_back : forall sha1 mp tr trc fuel,
  result_wf tr -> flat_result tr -> no_collisions sha1 mp tr -> (3 * result_height tr + 1 <= fuel)%nat ->
  exists tr', unmarshal fuel (marshal sha1 mp trc tr) = DOk tr' /\ same_result tr' tr.
Proof.
  intros sha1 mp tr trc fuel W F C H. apply round_trip; auto. apply flat_ids_tell_apart; assumption.
Qed.
Print Assumptions C15_flat_results_load_back.

(** Identifiers confuse trees that differ in nesting: there is no end-of-children
    marker, whatever the hash function. *)
Definition nest_in : fvals :=
  Some [(B "a", FVal [] (Some [(B "b", leaf (B "v")); (B "c", leaf (B "w"))]))].
Definition nest_out : fvals :=
  Some [(B "a", FVal [] (Some [(B "b", leaf (B "v"))])); (B "c", leaf (B "w"))].

Lemma nest_wf : fvals_wf nest_in /\ fvals_wf nest_out.
Proof.
  split; (split; [nodup_keys|]);
  all_entries ltac:(first [apply ex_leaf_wf|constructor; [nodup_keys|all_entries ltac:(apply ex_leaf_wf)]]).
Qed.

Theorem C15_identifiers_confuse_nesting_refuted : forall sha1,
  exists a b, fvals_wf a /\ fvals_wf b /\ fvals_id sha1 a = fvals_id sha1 b /\ ~ same_fields a b.
Proof.
  intros sha1. exists nest_in, nest_out. destruct nest_wf as [W1 W2].
  split; [exact W1|]. split; [exact W2|]. split; [reflexivity|].
  intros [_ H]. destruct (H (B "c") (leaf (B "w")) eq_refl) as (x & E & _). discriminate.
Qed.
Print Assumptions C15_identifiers_confuse_nesting_refuted.

(** They also ignore the value of a node that has children. *)
Theorem C15_identifiers_ignore_inner_values_refuted : forall sha1,
  exists a b, fvals_wf a /\ fvals_wf b /\ fvals_id sha1 a = fvals_id sha1 b /\ ~ same_fields a b.
Proof.
  intros sha1.
  exists (Some [(B "a", FVal (B "1") (Some [(B "b", leaf (B "v"))]))]),
         (Some [(B "a", FVal (B "2") (Some [(B "b", leaf (B "v"))]))]).
  split; [split; [nodup_keys|all_entries ltac:(constructor; [nodup_keys|all_entries ltac:(apply ex_leaf_wf)])]|].
  split; [split; [nodup_keys|all_entries ltac:(constructor; [nodup_keys|all_entries ltac:(apply ex_leaf_wf)])]|].
  split; [reflexivity|].
  intros [H _]. destruct (H (B "a") _ eq_refl) as (x & E & S). injection E as <-.
  apply same_tree_inv in S as [E _]. discriminate.
Qed.
Print Assumptions C15_identifiers_ignore_inner_values_refuted.

(** Such a confusion does change a stored result, even with a hash that never
    collides (here: the identity): the second call comes back with the field
    tree of the first. *)
Definition ex_frame (f : fvals) (n : N) : cframe :=
  CFrame f (Some [SFrame (B "m.go") n (B "main.main")]) 5%N.
Definition ex_mp (s : stack) : bytes :=
  concat (map (fun f => sf_file f ++ itoa (sf_line f) ++ sf_func f) (olist s)).
Definition ex_result (f g : fvals) : tresult :=
  TResult (B "T") (B "TestA") (Some [(B "m.F", [ex_frame f 1%N; ex_frame g 2%N; ex_frame f 1%N])]) None
    (Some [(B "m.G", [B "boom"])]) 3%Z true (Some [(B "m.H", [ex_frame f 1%N])]).

Theorem C15_confusion_changes_results_refuted : exists sha1 mp tr,
  (forall a b, sha1 a = sha1 b -> a = b) /\ result_wf tr /\
  exists tr', (forall fuel, (20 <= fuel)%nat -> unmarshal fuel (marshal sha1 mp tr tr) = DOk tr') /\
              ~ same_result tr' tr.
Proof.
  exists (fun b => b), ex_mp, (ex_result nest_out nest_in). split; [auto|]. split.
  { intros cf H. destruct nest_wf as [W1 W2]. cbn in H.
    repeat (destruct H as [<-|H]; [first [exact W1|exact W2]|]). destruct H. }
  eexists. split.
  - intros fuel Hf. do 20 (destruct fuel as [|fuel]; [lia|]). vm_compute. reflexivity.
  - intros (_ & _ & H & _). specialize (H (B "m.F")). cbn in H.
    inversion H as [|? ? ? ? _ H2]; subst. inversion H2 as [|? ? ? ? (H3 & _) _]; subst.
    destruct H3 as [H3 _]. destruct (H3 (B "c") (leaf (B "w")) eq_refl) as (x & E & _). discriminate.
Qed.
Print Assumptions C15_confusion_changes_results_refuted.

(** Corrupt stored data: a dictionary entry that refers to itself makes decoding
    recurse without end (index range checks do not catch it). *)
Definition ex_cyclic : enctr :=
  EncTR (B "T") (B "TestA")
    (Some [(B "m.F", [EFrame None (Some [(B "x", EFV (Some 0%nat) [] None None)]) None None 0%N])])
    None None 0%Z false None [] [EFV (Some 0%nat) [] None None] [].
Theorem C15_cyclic_dictionary_never_decodes : forall fuel, unmarshal fuel ex_cyclic = DFuel.
Proof.
  assert (forall fuel, dec_node fuel [] [EFV (Some 0%nat) [] None None] (EFV (Some 0%nat) [] None None) = DFuel) as H.
  { induction fuel as [|fuel IH]; [reflexivity|]. cbn [dec_node nth_error]. exact IH. }
  intros [|fuel]; [reflexivity|]. unfold unmarshal, ex_cyclic, dec_frame_map, dec_frame.
  cbn [olist et_callers et_fvdict et_nodedict ef_fv ef_fvi dmap fst snd dec_fv]. rewrite H. reflexivity.
Qed.
Print Assumptions C15_cyclic_dictionary_never_decodes.

(** Example: a result with a repeated nested tree, a repeated node and a
    repeated stack; all three dictionaries are used. *)
Definition ex_long : fval := leaf (B "a long scalar").
Definition ex_f1 : fvals := Some [(B "p", ex_long); (B "q", FVal [] (Some [(B "r", ex_long)]))].
Definition ex_f2 : fvals := Some [(B "q", FVal [] (Some [(B "r", ex_long)]))].
Example C15_example :
  result_wf (ex_result ex_f1 ex_f2) /\ ids_tell_apart (fun b => b) ex_mp (ex_result ex_f1 ex_f2) /\
  (let t := marshal (fun b => b) ex_mp (ex_result ex_f1 ex_f2) (ex_result ex_f1 ex_f2) in
   length (et_fvdict t) = 2%nat /\ length (et_nodedict t) = 2%nat /\ length (et_stdict t) = 1%nat) /\
  (3 * result_height (ex_result ex_f1 ex_f2) + 1 = 7)%nat.
Proof.
  assert (fwf ex_long) as WL by apply ex_leaf_wf.
  assert (forall cf, In cf (all_frames (ex_result ex_f1 ex_f2)) ->
    (cf_fields cf = ex_f1 /\ cf_stack cf = Some [SFrame (B "m.go") 1%N (B "main.main")]) \/
    (cf_fields cf = ex_f2 /\ cf_stack cf = Some [SFrame (B "m.go") 2%N (B "main.main")])) as Fr.
  { intros cf H. cbn in H. repeat (destruct H as [<-|H]; [cbn; auto|]). destruct H. }
  assert (fwf (FVal [] (Some [(B "r", ex_long)]))) as WQ
    by (constructor; [nodup_keys|all_entries ltac:(exact WL)]).
  assert (forall n, occurs_node (ex_result ex_f1 ex_f2) n ->
    n = ex_long \/ n = FVal [] (Some [(B "r", ex_long)])) as Nd.
  { intros n [cf x Hcf Hn].
    assert (forall f y, node_in_fields f y -> f = None \/ f = Some [(B "r", ex_long)] \/ f = ex_f1 \/ f = ex_f2 ->
      y = ex_long \/ y = FVal [] (Some [(B "r", ex_long)])) as G.
    { intros f y Hy. induction Hy as [f k y Hin|f k v c y Hin Hy IH]; intros Hf;
        (destruct Hf as [-> | [-> | [-> | ->] ] ]; cbn in Hin;
         repeat (destruct Hin as [Hin|Hin]; [injection Hin; intros; subst; auto|]); try destruct Hin);
        try (apply IH; unfold ex_long, leaf in *; congruence). }
    destruct (Fr cf Hcf) as [[E _]|[E _]]; rewrite E in Hn; apply (G _ _ Hn); auto. }
  assert (forall f, occurs_fields (ex_result ex_f1 ex_f2) f ->
    f = ex_f1 \/ f = ex_f2 \/ f = None \/ f = Some [(B "r", ex_long)]) as Fd.
  { intros f [cf Hcf|v c Hn].
    - destruct (Fr cf Hcf) as [[E _]|[E _]]; rewrite E; auto.
    - destruct (Nd _ Hn) as [E|E]; injection E; intros; subst; auto. }
  split; [|split; [|split; [vm_compute; auto|reflexivity]]].
  - intros cf Hcf. destruct (Fr cf Hcf) as [[E _]|[E _]]; rewrite E;
      (split; [nodup_keys|all_entries ltac:(first [exact WL|exact WQ])]).
  - split; [|split].
    + intros a b Ha Hb E.
      destruct (Fd a Ha) as [-> | [-> | [-> | ->] ] ], (Fd b Hb) as [-> | [-> | [-> | ->] ] ];
        first [apply same_fields_refl|exfalso; vm_compute in E; discriminate].
    + intros a b Ha Hb E.
      destruct (Nd a Ha) as [-> | ->], (Nd b Hb) as [-> | ->];
        first [apply same_tree_refl|exfalso; vm_compute in E; discriminate].
    + intros a b [cf Hcf] [cf' Hcf'] E.
      destruct (Fr cf Hcf) as [[_ E1]|[_ E1]], (Fr cf' Hcf') as [[_ E2]|[_ E2]]; rewrite E1, E2 in *;
        first [reflexivity|exfalso; vm_compute in E; discriminate].
Qed.

(** Example for the flat case. *)
Definition ex_flat : fvals := Some [(B "p", ex_long); (B "q", leaf (B "1"))].
Definition ex_hash (b : bytes) : bytes := firstn 20 (skipn 43 b ++ repeat "x"%char 20).
Example C15_flat_example :
  result_wf (ex_result ex_flat ex_flat) /\ flat_result (ex_result ex_flat ex_flat) /\
  no_collisions ex_hash ex_mp (ex_result ex_flat ex_flat).
Proof.
  assert (forall cf, In cf (all_frames (ex_result ex_flat ex_flat)) ->
    cf_fields cf = ex_flat /\ (cf_stack cf = Some [SFrame (B "m.go") 1%N (B "main.main")] \/
                               cf_stack cf = Some [SFrame (B "m.go") 2%N (B "main.main")])) as Fr.
  { intros cf H. cbn in H. repeat (destruct H as [<-|H]; [cbn; auto|]). destruct H. }
  assert (flat_result (ex_result ex_flat ex_flat)) as F.
  { intros cf Hcf. destruct (Fr cf Hcf) as [-> _]. all_entries ltac:(split; [reflexivity|split; reflexivity]). }
  assert (forall f, occurs_node (ex_result ex_flat ex_flat) f -> f = ex_long \/ f = leaf (B "1")) as Nd.
  { intros n [cf x Hcf Hn]. destruct (Fr cf Hcf) as [E _]. rewrite E in Hn.
    inversion Hn as [f k y Hin|f k v c y Hin Hy]; subst; cbn in Hin.
    - repeat (destruct Hin as [Hin|Hin]; [injection Hin; intros; subst; auto|]). destruct Hin.
    - repeat (destruct Hin as [Hin|Hin];
        [injection Hin; intros; subst; inversion Hy as [? ? ? Z|? ? ? ? ? Z]; subst; destruct Z|]). destruct Hin. }
  assert (forall f, occurs_fields (ex_result ex_flat ex_flat) f -> f = ex_flat \/ f = None) as Fd.
  { intros f [cf Hcf|v c Hn]; [left; apply (Fr cf Hcf)|].
    destruct (Nd _ Hn) as [E|E]; injection E; intros; subst; auto. }
  split.
  { intros cf Hcf. destruct (Fr cf Hcf) as [-> _].
    split; [nodup_keys|all_entries ltac:(apply ex_leaf_wf)]. }
  split; [exact F|]. split; [|split; [|split]].
  - intros a b Ha Hb. destruct (Fd a Ha) as [-> | ->], (Fd b Hb) as [-> | ->];
      first [reflexivity|intros E; exfalso; vm_compute in E; discriminate].
  - intros a Ha. destruct (Fd a Ha) as [-> | ->]; reflexivity.
  - intros v c w d Ha Hb. destruct (Nd _ Ha) as [E1|E1], (Nd _ Hb) as [E2|E2];
      injection E1; injection E2; intros; subst;
      first [reflexivity|match goal with E : bytes_key _ _ = _ |- _ => exfalso; vm_compute in E; discriminate end].
  - intros a b [cf Hcf] [cf' Hcf'] E.
    destruct (Fr cf Hcf) as [_ [E1|E1]], (Fr cf' Hcf') as [_ [E2|E2]]; rewrite E1, E2 in *;
      first [reflexivity|exfalso; vm_compute in E; discriminate].
Qed.

(** ** C16 *)

(** Equal trees have equal identifiers, whatever the order of the maps at every
    level.  (At the top a nil and an empty map are told apart on purpose.) *)
Theorem C16_identifier_ignores_map_order : forall sha1 f g v,
  fvals_wf f -> fvals_wf g -> same_fields f g -> (f = None <-> g = None) ->
  fvals_id sha1 f = fvals_id sha1 g /\ fval_id sha1 (FVal v f) = fval_id sha1 (FVal v g).
Proof.
  intros sha1 f g v W1 W2 H Hn. pose proof (fvals_id_same sha1 f g W1 W2 H Hn) as E.
  split; [exact E|]. cbn [fval_id]. rewrite E. reflexivity.
Qed.
Print Assumptions C16_identifier_ignores_map_order.

(** For flat fields the identifier also determines the fields, up to collisions
    of the hash. *)
Theorem C16_flat_identifier_is_faithful : forall f g,
  flat_map_of (olist f) -> flat_map_of (olist g) ->
  ser_map (olist f) = ser_map (olist g) -> same_fields f g.
Proof.
  intros f g Ff Fg E. rewrite !ser_map_flat in E by assumption. apply same_fields_flat; auto.
  apply ser_pairs_inj; [| |exact E]; intros k v H.
  - apply sorted_pairs_get in H as (x & Hx & <-); [|exact Ff]. apply mget_in in Hx. apply (Ff k x Hx).
  - apply sorted_pairs_get in H as (x & Hx & <-); [|exact Fg]. apply mget_in in Hx. apply (Fg k x Hx).
Qed.
Print Assumptions C16_flat_identifier_is_faithful.

Example C16_example : fvals_wf ex_tree /\ fvals_wf ex_tree' /\ same_fields ex_tree ex_tree' /\ ex_tree <> ex_tree' /\
  flat_map_of (olist ex_flat).
Proof.
  split; [apply ex_tree_wf|]. split.
  { split; [nodup_keys|]. all_entries ltac:(first [apply ex_leaf_wf|constructor; [nodup_keys|all_entries ltac:(apply ex_leaf_wf)]]). }
  assert (same_tree (FVal [] (Some [(B "x", leaf (B "1")); (B "y", leaf (B "2"))]))
                    (FVal [] (Some [(B "y", leaf (B "2")); (B "x", leaf (B "1"))]))) as S.
  { constructor; intros k x E; apply mget_in in E; cbn in E;
      (destruct E as [E|[E|[]]]; injection E as <- <-; eexists; (split; [reflexivity|apply same_tree_refl])). }
  split.
  { split; intros k x E; apply mget_in in E; cbn in E;
      (destruct E as [E|[E|[]]]; injection E as <- <-; eexists; (split; [reflexivity|first [exact S|apply same_tree_refl]])). }
  split; [discriminate|].
  all_entries ltac:(split; [reflexivity|split; reflexivity]).
Qed.
