(** More of C35: where frames are recorded, what a frame is made of, the reached changes. *)
From Coq Require Import Permutation Sorted.
From Verif Require Import Base Maps WireModel TypesModel StableModel StableProps MonitorModel MonitorProps.

(** The frames of the state messages whose point satisfies [p], in order. *)
Definition frames_of (p : N -> bool) (ms : list mmsg) : list cframe :=
  flat_map (fun m => match m with MState id f => if p id then [f] else [] | _ => [] end) ms.
Definition at_key (points : N -> option bytes) (k : bytes) (id : N) : bool :=
  match points id with Some k' => if bytes_eq_dec k' k then true else false | None => false end.
Definition no_point (points : N -> option bytes) (id : N) : bool :=
  match points id with Some _ => false | None => true end.

Lemma frames_of_ext p q ms : (forall id, p id = q id) -> frames_of p ms = frames_of q ms.
Proof. intros E. apply flat_map_ext. intros [id|id f|id t]; [reflexivity|rewrite E; reflexivity|reflexivity]. Qed.
Lemma sent_ext ext proj k ms : sent ext proj (true, k) ms = frames_of (at_key ext k) ms.
Proof.
  apply flat_map_ext. intros [id|id f|id t]; try reflexivity. unfold pick, storage_key, at_key, eqk. cbn.
  destruct (ext id) as [k'|]; [unfold beq; cbn; destruct (bytes_eq_dec k' k); reflexivity|]. destruct (proj id); reflexivity.
Qed.
Lemma sent_proj ext proj k ms : sent ext proj (false, k) ms = frames_of (fun id => no_point ext id && at_key proj k id) ms.
Proof.
  apply flat_map_ext. intros [id|id f|id t]; try reflexivity. unfold pick, storage_key, at_key, no_point, eqk. cbn.
  destruct (ext id) as [k'|]; [reflexivity|]. cbn. destruct (proj id) as [k'|]; [cbn; unfold beq; destruct (bytes_eq_dec k' k); reflexivity|reflexivity].
Qed.

Lemma record_none key l : record_all key None l = l.
Proof. induction l as [|f l IH] using rev_ind; [reflexivity|]. rewrite record_all_app, IH. reflexivity. Qed.
Lemma record_stacks key s l : map cf_stack (record_all key s l) = map cf_stack l.
Proof.
  induction l as [|f l IH] using rev_ind; [reflexivity|]. rewrite record_all_app, !map_app, IH. f_equal. cbn. f_equal.
  destruct s; [apply apply_filter_stack|reflexivity].
Qed.

(** When everything is done, the frames kept for a function of the extension are those of
    the messages of its points, each as often as it was sent; the frames kept for a caller
    of the project are those of the messages of its points that are not points of the
    extension.  Stable results leave the stacks of the caller's frames as sent. *)
Theorem C35_frames_where : forall ext proj pp mp stripe key stable qs ls st,
  mexec ext proj pp mp stripe key stable (m_init qs) ls st -> finished st ->
  (forall k, Permutation (getl k (m_exts st)) (frames_of (at_key ext k) (concat qs))) /\
  (stable = None -> forall k, Permutation (getl k (m_callers st)) (frames_of (fun id => no_point ext id && at_key proj k id) (concat qs))) /\
  (forall k, Permutation (map cf_stack (getl k (m_callers st))) (map cf_stack (frames_of (fun id => no_point ext id && at_key proj k id) (concat qs)))).
Proof.
  intros ext proj pp mp stripe key stable qs ls st H F.
  destruct (C35_everything_accounted _ _ _ _ _ _ _ _ _ _ H F) as (_ & _ & _ & P & E & C & _). split; [|split].
  - intros k. rewrite E, <- (sent_ext ext proj). apply P.
  - intros -> k. rewrite C, <- sent_proj. cbn [option_map]. rewrite record_none. apply P.
  - intros k. rewrite C, record_stacks, <- sent_proj. apply Permutation_map, P.
Qed.
Print Assumptions C35_frames_where.

(** The frame made of a message: there is one exactly when every file name can be
    shortened; its stack is the message's with the names shortened, its fields are those
    collected, and its time is the message's rounded to milliseconds, halves upwards. *)
Theorem C35_frame_made : forall trim collect m,
  (state_frame trim collect m = None <-> exists f, In f (ms_stack m) /\ trim (fr_file f) = None) /\
  forall c, state_frame trim collect m = Some c ->
  cf_fields c = Some (collect (ms_fields m)) /\
  (exists st, cf_stack c = Some st /\
     Forall2 (fun f s => trim (fr_file f) = Some (sf_file s) /\ sf_func s = fr_func f /\ ((fr_line f < 4294967296)%N -> sf_line s = fr_line f)) (ms_stack m) st) /\
  ((0 <= ms_time m < 4294967295 * 1000000)%Z ->
   (1000000 * Z.of_N (cf_time c) - 500000 <= ms_time m < 1000000 * Z.of_N (cf_time c) + 500000)%Z).
Proof.
  intros trim collect m. unfold state_frame. set (fr := fix frames (l : list frame) : option (list sframe) := _).
  assert (forall l, (fr l = None <-> exists f, In f l /\ trim (fr_file f) = None) /\
    forall st, fr l = Some st -> Forall2 (fun f s => trim (fr_file f) = Some (sf_file s) /\ sf_func s = fr_func f /\ ((fr_line f < 4294967296)%N -> sf_line s = fr_line f)) l st) as G.
  { induction l as [|f l [IH1 IH2]]; cbn [fr].
    - split; [split; [discriminate|intros (f & [] & _)]|]. intros st E. injection E as <-. constructor.
    - destruct (trim (fr_file f)) as [t|] eqn:Et.
      + fold fr. destruct (fr l) as [r|].
        * split; [split; [discriminate|]|].
          -- intros (g & [<-|Hg] & Tg); [congruence|]. assert (Some r = None) as X by (apply IH1; eauto). discriminate.
          -- intros st E. injection E as <-. constructor; [|apply IH2; reflexivity]. cbn. split; [exact Et|]. split; [reflexivity|].
             intros L. unfold StaticModel.u32. apply N.mod_small, L.
        * split; [split; [|reflexivity]|discriminate]. intros _. destruct (proj1 IH1 eq_refl) as (g & Hg & Tg). exists g. split; [right; exact Hg|exact Tg].
      + split; [split; [|reflexivity]|discriminate]. intros _. exists f. split; [left; reflexivity|exact Et]. }
  specialize (G (ms_stack m)) as [G1 G2]. destruct (fr (ms_stack m)) as [st|].
  - split; [split; [discriminate|]|].
    + intros X. apply G1 in X. discriminate.
    + intros c E. injection E as <-. cbn [cf_fields cf_stack cf_time]. split; [reflexivity|]. split; [exists st; split; [reflexivity|apply G2; reflexivity]|].
      intros T. rewrite Z.quot_div_nonneg by lia. pose proof (Z.div_mod (ms_time m + 500000) 1000000 ltac:(lia)) as D.
      pose proof (Z.mod_pos_bound (ms_time m + 500000) 1000000 ltac:(lia)) as M.
      rewrite Z.mod_small by lia. rewrite Z2N.id by lia. lia.
  - split; [split; [intros _; apply G1; reflexivity|reflexivity]|discriminate].
Qed.
Print Assumptions C35_frame_made.

(** The points reached are counted once each, and the changes reached are their
    identifiers, in order. *)
Theorem C35_reached : forall ext proj pp mp stripe key stable qs ls st entry,
  mexec ext proj pp mp stripe key stable (m_init qs) ls st -> finished st ->
  exists ids, NoDup ids /\ (forall id, In id ids <-> In (MPoint id) (concat qs)) /\
    reach_count st = length ids /\ bsorted (changes_reached entry st) /\
    Permutation (map Some (changes_reached entry st)) (filter (fun o => match o with Some _ => true | None => false end) (map entry ids)).
Proof.
  intros ext proj pp mp stripe key stable qs ls st entry H F.
  destruct (C35_everything_accounted _ _ _ _ _ _ _ _ _ _ H F) as (_ & _ & _ & _ & _ & _ & _ & _ & _ & R & ND).
  exists (m_reached st). split; [exact ND|]. split.
  { intros id. rewrite R, in_concat. reflexivity. }
  split; [reflexivity|]. unfold changes_reached. split; [apply bsort_sorted|].
  transitivity (map Some (flat_map (fun id => match entry id with Some k => [k] | None => [] end) (m_reached st))).
  - apply Permutation_map, bsort_perm.
  - apply Permutation_refl'. clear. induction (m_reached st) as [|id l IH]; [reflexivity|]. 
    cbn [flat_map map filter].
    destruct (entry id); cbn [app]; [|exact IH]. cbn [map]. f_equal. exact IH.
Qed.
Print Assumptions C35_reached.

(** A point of both tables counts for the extension; times are rounded; a point reached
    twice counts once. *)
Definition ex35_g (t : Z) : option cframe :=
  state_frame (fun f => if beq f (B "bad") then None else Some (skipn 2 f)) (fun _ => []) (mkState 1 t [mkFrame (B "p/a.go") (B "F") 7] []).
Example C35_more_example :
  ex35_g 1499999 = Some (CFrame (Some []) (Some [SFrame (B "a.go") 7 (B "F")]) 1) /\
  ex35_g 1500000 = Some (CFrame (Some []) (Some [SFrame (B "a.go") 7 (B "F")]) 2) /\
  (exists ls st, mexec (fun id => if N.eqb id 1 then Some (B "e") else None) (fun id => if N.leb id 2 then Some (B "c") else None) (fun _ => None) (fun _ => None)
      (fun _ => 0%nat) (fun _ => []) None (m_init [[MPoint 9; MState 1 (ex35_f 10); MPoint 8; MPoint 9]]) ls st /\ finished st /\
    m_exts st = [(B "e", [ex35_f 10])] /\ m_callers st = [] /\ reach_count st = 2%nat /\
    changes_reached (fun id => if N.eqb id 9 then Some (B "z") else if N.eqb id 8 then Some (B "a") else None) st = [B "a"; B "z"]).
Proof.
  split; [reflexivity|]. split; [reflexivity|]. eexists. eexists. split.
  - eapply me_cons; [eapply (ms_simple _ _ _ _ _ _ _ _ 0%nat); reflexivity|]; norm35.
    eapply me_cons; [eapply (ms_state _ _ _ _ _ _ _ _ 0%nat); reflexivity|]; norm35.
    eapply me_cons; [eapply (ms_acquire _ _ _ _ _ _ _ _ 0%nat); [reflexivity|reflexivity|intros []]|]; norm35.
    eapply me_cons; [eapply (ms_record _ _ _ _ _ _ _ _ []); reflexivity|]; norm35.
    eapply me_cons; [eapply (ms_unlock _ _ _ _ _ _ _ _ []); reflexivity|]; norm35.
    eapply me_cons; [eapply (ms_done _ _ _ _ _ _ _ _ []); reflexivity|]; norm35.
    eapply me_cons; [eapply (ms_simple _ _ _ _ _ _ _ _ 0%nat); reflexivity|]; norm35.
    eapply me_cons; [eapply (ms_simple _ _ _ _ _ _ _ _ 0%nat); reflexivity|]; norm35.
    constructor.
  - split; [split; [repeat constructor|reflexivity]|]. repeat split; reflexivity.
Qed.
