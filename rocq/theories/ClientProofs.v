From Verif Require Import Base WireModel WireSpec WireProofs WireRobust WireDec ClientModel ClientSpec.
Local Open Scope N_scope.

(** * Unwrapping *)

Lemma unwrap_eq h f v : unwrap h f v =
  match v with
  | RIface ty None => UNil ty
  | RIface _ (Some v') => unwrap h f v'
  | RPtr ty None => UNil ty
  | RPtr _ (Some a) => match f with O => UFuel | S g => unwrap h g (h_ptr h a) end
  | _ => UVal v
  end.
Proof. destruct f, v as [| ? [] | ? [] | | | | | | | | | ]; reflexivity. Qed.

Lemma unwrap_reaches h v u : reaches h v u -> forall f, unwrap h f v = UFuel \/ unwrap h f v = UVal u.
Proof.
  induction 1 as [v H1 H2|ty v u H IH|ty a u H IH]; intros f; rewrite unwrap_eq.
  - right. destruct v; try reflexivity; exfalso; [eapply H1|eapply H2]; reflexivity.
  - apply IH.
  - destruct f; [left; reflexivity|apply IH].
Qed.
Lemma unwrap_reaches_nil h v ty : reaches_nil h v ty -> forall f, unwrap h f v = UFuel \/ unwrap h f v = UNil ty.
Proof.
  induction 1 as [ty|ty|ty ty' v H IH|ty ty' a H IH]; intros f; rewrite unwrap_eq; auto.
  destruct f; [left; reflexivity|apply IH].
Qed.
Lemma ends_unwrap h n v : ends h n v -> unwrap h n v <> UFuel.
Proof.
  induction 1 as [n v H1 H2|n ty|n ty|n ty v H IH|n ty a H IH]; rewrite unwrap_eq; try discriminate; auto.
  destruct v; try discriminate; exfalso; [eapply H1|eapply H2]; reflexivity.
Qed.
Lemma chains_unwrap h n v : chains_end h n -> unwrap h n v <> UFuel.
Proof. intros H. apply ends_unwrap, H. Qed.

Lemma unwrap_ok K h f : heap_ok K h -> forall v, rv_ok K v ->
  match unwrap h f v with UNil ty => str_ok ty | UVal u => rv_ok K u | UFuel => True end.
Proof.
  intros Hh. induction f as [|f IHf]; intros v Hv.
  - induction Hv; rewrite unwrap_eq; try (constructor; assumption); auto.
    destruct a; [exact I|assumption].
  - induction Hv; rewrite unwrap_eq; try (constructor; assumption); auto.
    destruct a; [|assumption]. apply IHf, Hh.
Qed.

(** * Strings *)

Lemma limit_string_len maxlen s : go_len s -> blen (limit_string maxlen s) <= maxlen + 30.
Proof.
  intros Hs. unfold limit_string. destruct (N.ltb_spec maxlen (blen s)); [|lia].
  rewrite !blen_app. assert (blen (itoa (blen s - maxlen)) <= 19).
  { pose proof (itoa_len (blen s - maxlen) 19) as H1. unfold blen at 1.
    assert (length (itoa (blen s - maxlen)) <= 19)%nat; [|lia].
    apply H1; [|lia]. unfold go_len in Hs. change (10 ^ N.of_nat 19) with 10000000000000000000. lia. }
  assert (blen (firstn (N.to_nat maxlen) s) <= maxlen) by (unfold blen; rewrite firstn_length; lia).
  change (blen ellipsis) with 3. change (blen (B "(")) with 1. change (blen (B " more)")) with 6. lia.
Qed.
Lemma limit_string_short maxlen s : blen s <= maxlen -> limit_string maxlen s = s.
Proof. intros H. unfold limit_string. destruct (N.ltb_spec maxlen (blen s)); [lia|reflexivity]. Qed.

(** The note makes truncation visible and records the original length. *)
Lemma limit_string_info maxlen s t : limit_string maxlen s = limit_string maxlen t ->
  blen s = blen t /\ firstn (N.to_nat maxlen) s = firstn (N.to_nat maxlen) t.
Proof.
  unfold limit_string.
  destruct (N.ltb_spec maxlen (blen s)) as [Hs|Hs], (N.ltb_spec maxlen (blen t)) as [Ht|Ht]; intros E.
  - apply app_inv_length in E.
    2:{ unfold blen in *. rewrite !firstn_length. lia. }
    destruct E as [E1 E2]. split; [|assumption].
    apply app_inv_head in E2. apply (app_inv_head (B "(")) in E2.
    cbn [app B list_ascii_of_string] in E2.
    apply digits_cut in E2; [|apply itoa_digits|apply itoa_digits|reflexivity|reflexivity].
    destruct E2 as [E2 _]. apply itoa_inj in E2. lia.
  - exfalso. apply (f_equal blen) in E. rewrite blen_app, blen_app in E.
    change (blen ellipsis) with 3 in E.
    assert (blen (firstn (N.to_nat maxlen) s) = maxlen) by (unfold blen in *; rewrite firstn_length; lia). lia.
  - exfalso. apply (f_equal blen) in E. rewrite blen_app, blen_app in E.
    change (blen ellipsis) with 3 in E.
    assert (blen (firstn (N.to_nat maxlen) t) = maxlen) by (unfold blen in *; rewrite firstn_length; lia). lia.
  - subst. auto.
Qed.

(** * Limits of what is emitted *)

Section Limits.
Variables (h : heap) (utf8 : bytes -> bool) (maxlen : N) (ufuel : nat) (K : N) (maxrec : nat).
Hypothesis Hh : heap_ok K h.
Hypothesis Hm : maxlen <= 2147483648.
Hypothesis HK : 21 <= K.
Let L := (N.of_nat maxrec + 1) * (K + 1).
Hypothesis HL : L + 8 < 4294967296.

Definition vis_ok (vis : visited) : Prop := Forall (fun e => blen (snd e) <= L) (vmap vis).

Definition out_ok (n : nat) (w : wval) : Prop :=
  val_ok maxlen w /\ val_lim maxlen w /\ (wdepth w <= n)%nat.
Definition res_ok (n : nat) (r : sres) : Prop :=
  match r with
  | None => True
  | Some (ty, w, vis') => str_ok ty /\ out_ok n w /\ vis_ok vis'
  end.
Definition sf_ok (n : nat) (sf : bytes -> rv -> visited -> sres) : Prop :=
  forall nm v vis, blen nm <= K -> rv_ok K v -> vis_ok vis -> res_ok n (sf nm v vis).

Lemma vback_ok vis vis' : vis_ok vis -> vis_ok vis' -> vis_ok (vback vis vis').
Proof. destruct vis; cbn; auto. Qed.

Lemma str_ok_small s : blen s <= maxlen + 30 -> str_ok s.
Proof. unfold str_ok. lia. Qed.
Lemma K_ok nm : blen nm <= K -> str_ok nm.
Proof. unfold str_ok, L in *. intros. assert (K + 1 <= (N.of_nat maxrec + 1) * (K + 1)) by nia. lia. Qed.

Definition kids_ok (n : nat) (l : list (bytes * rv)) (ws : list wfield) : Prop :=
  length ws = length l /\
  Forall (fun f => str_ok (fst (fst f)) /\ str_ok (snd (fst f)) /\ out_ok n (snd f)) ws.

Lemma stream_kids_ok n sf l : sf_ok n sf ->
  (forall nm v, In (nm, v) l -> blen nm <= K /\ rv_ok K v) -> forall vis, vis_ok vis ->
  match stream_kids sf l vis with
  | None => True
  | Some (ws, vis') => kids_ok n l ws /\ vis_ok vis'
  end.
Proof.
  intros Hsf. induction l as [|[nm v] l IH]; intros Hl vis Hv; cbn [stream_kids].
  - split; [split; [reflexivity|constructor]|assumption].
  - destruct (Hl nm v (or_introl eq_refl)) as [Hn Hvv].
    pose proof (Hsf nm v vis Hn Hvv Hv) as H1.
    destruct (sf nm v vis) as [[[ty w] vis']|]; [|exact I]. destruct H1 as (H1 & H2 & H3).
    specialize (IH (fun nm v H => Hl nm v (or_intror H)) (vback vis vis') (vback_ok _ _ Hv H3)).
    destruct (stream_kids sf l (vback vis vis')) as [[ws vis'']|]; [|exact I].
    destruct IH as [[IH1 IH2] IH3]. split; [|assumption]. split; [cbn; congruence|].
    constructor; [|assumption]. cbn. split; [apply K_ok, Hn|]. split; assumption.
Qed.

Lemma node_ok n k l ws : kids_ok n l ws -> kind_ok maxlen k (blen l) -> out_ok (S n) (WNode k ws).
Proof.
  intros [H1 H2] Hk.
  assert (Hk' : kind_ok maxlen k (blen ws)) by (unfold blen in *; rewrite H1; exact Hk).
  split; [|split].
  - constructor; [exact Hk'|]. eapply Forall_impl; [|exact H2]. intros f (A1 & A2 & A3 & _). auto.
  - constructor; [exact Hk'|]. eapply Forall_impl; [|exact H2]. intros f (_ & _ & _ & A4 & _). auto.
  - cbn [wdepth]. apply list_max_le. rewrite Forall_map. eapply Forall_impl; [|exact H2].
    intros [[nm ty] w] (_ & _ & _ & _ & A5). cbn in A5. lia.
Qed.
Lemma prim_out n p : prim_ok maxlen p -> prim_lim maxlen p -> out_ok n (WPrim p).
Proof. intros H1 H2. split; [constructor; assumption|]. split; [constructor; assumption|]. cbn; lia. Qed.
Lemma text_out n s : blen s <= maxlen + 30 -> out_ok n (WPrim (PStr s)).
Proof. intros H. apply prim_out; cbn; [apply str_ok_small, H|left; exact H]. Qed.

Lemma cut_len {A} (l : list A) : blen (cut maxlen l) <= maxlen.
Proof. unfold cut, blen. rewrite firstn_length. lia. Qed.
Lemma cut_Forall {A} (P : A -> Prop) l : Forall P l -> Forall P (cut maxlen l).
Proof.
  rewrite !Forall_forall. intros H x Hx. apply H. unfold cut in Hx.
  rewrite <- (firstn_skipn (N.to_nat maxlen) l). apply in_or_app. left; exact Hx.
Qed.

Lemma index_names_in l : forall i nm v, i + blen l <= 2147483648 -> In (nm, v) (index_names i l) ->
  blen nm <= K /\ In v l.
Proof.
  induction l as [|u l IH]; intros i nm v Hi Hin; [contradiction|].
  assert (blen (u :: l) = blen l + 1) by (unfold blen; cbn [length]; lia).
  cbn [index_names] in Hin. destruct Hin as [E|Hin].
  - apply pair_equal_spec in E. destruct E as [<- <-].
    split; [|left; reflexivity]. rewrite !blen_app. change (blen (B "[")) with 1. change (blen (B "]")) with 1.
    assert (length (itoa i) <= 19)%nat; [|unfold blen at 1; lia].
    apply itoa_len; [|lia]. change (10 ^ N.of_nat 19) with 10000000000000000000. lia.
  - destruct (IH (i + 1) nm v); [lia|assumption|]. split; [assumption|right; assumption].
Qed.
Lemma index_names_length l : forall i, length (index_names i l) = length l.
Proof. induction l; intros i; cbn; [reflexivity|]. rewrite IHl. reflexivity. Qed.

Lemma stream_elems_ok n sf es vis : sf_ok n sf -> elems_ok K es -> vis_ok vis ->
  match stream_elems utf8 maxlen sf es vis with
  | None => True
  | Some (w, vis') => out_ok (S n) w /\ vis_ok vis'
  end.
Proof.
  intros Hsf He Hv.
  assert (Hlim : forall l, Forall go_len l ->
     blen (map (limit_string maxlen) (cut maxlen l)) <= maxlen /\
     Forall (fun s => blen s <= maxlen + 30) (map (limit_string maxlen) (cut maxlen l))).
  { intros l Hl. split; [unfold blen; rewrite map_length; apply cut_len|].
    rewrite Forall_map. eapply Forall_impl; [|apply cut_Forall, Hl]. intros s. apply limit_string_len. }
  inversion He as [l Hl|l Hl|l Hl|l|l Hl|l Hl|l Hl|l Hl|l Hl|l Hl]; subst es; cbn [stream_elems];
    try (split; [|assumption]; apply prim_out; cbn; auto using cut_len, cut_Forall; fail).
  - split; [|assumption]. pose proof (cut_len l). destruct (utf8 (cut maxlen l)).
    + rewrite limit_string_short by assumption. apply text_out. lia.
    + apply prim_out; cbn; assumption.
  - split; [|assumption]. destruct (Hlim l Hl) as [A1 A2]. apply prim_out; cbn; [|auto].
    split; [assumption|]. eapply Forall_impl; [|exact A2]. intros s. apply str_ok_small.
  - pose proof (cut_len l) as Hc.
    pose proof (stream_kids_ok n sf (index_names 0 (cut maxlen l)) Hsf) as H1.
    assert (Hin : forall nm v, In (nm, v) (index_names 0 (cut maxlen l)) -> blen nm <= K /\ rv_ok K v).
    { intros nm v Hin. apply index_names_in in Hin; [|lia]. destruct Hin as [A1 A2].
      split; [assumption|]. apply Hl. unfold cut in A2.
      rewrite <- (firstn_skipn (N.to_nat maxlen) l). apply in_or_app; left; exact A2. }
    specialize (H1 Hin vis Hv).
    destruct (stream_kids sf (index_names 0 (cut maxlen l)) vis) as [[ws vis']|]; [|exact I].
    destruct H1 as [H1 H2]. split; [|assumption].
    eapply node_ok; [exact H1|]. cbn [kind_ok]. unfold blen in *. rewrite index_names_length. exact Hc.
Qed.

Lemma stream_body_ok n sf v vis : sf_ok n sf -> rv_ok K v -> vis_ok vis ->
  match stream_body h utf8 maxlen sf v vis with
  | None => True
  | Some (w, vis') => out_ok (S n) w /\ vis_ok vis'
  end.
Proof.
  intros Hsf He Hv. destruct Hh as (Hh1 & Hh2 & Hh3).
  assert (Hsm : forall s, blen s <= 30 -> out_ok (S n) (WPrim (PStr s))) by (intros s Hs; apply text_out; lia).
  assert (Hnil : out_ok (S n) (WPrim PNil)) by (apply prim_out; exact I).
  inversion He; subst v; cbn [stream_body]; try (split; assumption).
  - split; [|assumption]. apply prim_out; destruct p; cbn in *; try contradiction; auto.
  - split; [|assumption]. apply text_out, limit_string_len; assumption.
  - apply stream_elems_ok; assumption.
  - destruct r as [[a i]|]; [|split; assumption]. apply stream_elems_ok; auto.
  - destruct r as [a|]; [|split; assumption].
    pose proof (stream_kids_ok n sf (map_entries h maxlen a) Hsf) as H1.
    assert (Hin : forall nm v, In (nm, v) (map_entries h maxlen a) -> blen nm <= K /\ rv_ok K v).
    { intros nm v Hin. apply (Hh3 a). unfold map_entries in Hin. destruct (blen (h_map h a) <=? maxlen).
      - left; assumption.
      - right. rewrite <- (firstn_skipn (N.to_nat maxlen)). apply in_or_app; left; eassumption. }
    specialize (H1 Hin vis Hv).
    destruct (stream_kids sf (map_entries h maxlen a) vis) as [[ws vis']|]; [|exact I].
    destruct H1 as [H1 H2]. split; [|assumption]. eapply node_ok; [exact H1|]. cbn [kind_ok].
    unfold map_entries. destruct (N.leb_spec (blen (h_map h a)) maxlen); [assumption|].
    unfold blen. rewrite firstn_length. lia.
  - pose proof (stream_kids_ok n sf fs Hsf H1 vis Hv) as H2.
    destruct (stream_kids sf fs vis) as [[ws vis']|]; [|exact I].
    destruct H2 as [H2 H3]. split; [|assumption]. eapply node_ok; [exact H2|exact H0].
  - split; [|assumption]. apply Hsm. vm_compute; discriminate.
  - split; [|assumption]. apply Hsm. vm_compute; discriminate.
  - split; [|assumption]. apply text_out, limit_string_len; assumption.
Qed.

Lemma rv_type_ok v : rv_ok K v -> str_ok (rv_type v).
Proof. destruct 1; cbn; try assumption. vm_compute; reflexivity. Qed.

Lemma cycle_out n p : blen p <= L -> out_ok n (cycle_mark p).
Proof.
  intros Hp. apply prim_out; cbn [prim_ok prim_lim].
  - unfold str_ok. rewrite !blen_app. change (blen (B "<cycle:")) with 7. change (blen (B ">")) with 1. lia.
  - right. exists p. reflexivity.
Qed.
Lemma vlookup_ok m a p : Forall (fun e : N * bytes => blen (snd e) <= L) m -> vlookup m a = Some p -> blen p <= L.
Proof.
  induction m as [|[a' p'] m IH]; intros H E; [discriminate|]. inversion H; subst.
  cbn [vlookup] in E. destruct (a =? a'); [injection E as <-; assumption|auto].
Qed.

Lemma stream_rest_ok n (deep : bool) sf path v vis :
  (deep = false -> sf_ok n sf) -> blen path <= L -> rv_ok K v -> vis_ok vis ->
  res_ok (if deep then O else S n) (stream_rest h utf8 maxlen ufuel deep sf path v vis).
Proof.
  intros Hsf Hp Hv Hvis. unfold stream_rest.
  pose proof (unwrap_ok K h ufuel Hh v Hv) as Hu.
  assert (Hsm : forall n s, blen s <= 30 -> out_ok n (WPrim (PStr s))) by (intros n' s Hs; apply text_out; lia).
  assert (Hnil : forall n, out_ok n (WPrim PNil)) by (intros; apply prim_out; exact I).
  destruct (unwrap h ufuel v) as [ty|u|]; [split; auto| |exact I].
  assert (Hty : str_ok (rv_type u)) by (apply rv_type_ok, Hu).
  assert (Hbody : forall vis1, vis_ok vis1 -> deep = false ->
     res_ok (S n) (match stream_body h utf8 maxlen sf u vis1 with
                   | Some (w, vis') => Some (rv_type u, w, vis') | None => None end)).
  { intros vis1 Hv1 Hd. pose proof (stream_body_ok n sf u vis1 (Hsf Hd) Hu Hv1) as H1.
    destruct (stream_body h utf8 maxlen sf u vis1) as [[w vis']|]; [|exact I].
    split; [assumption|]. exact H1. }
  assert (Hgen : res_ok (if deep then O else S n)
    (if deep then Some (rv_type u, WPrim (PStr (B "<max-depth>")), vis)
      else match class_of u with
           | ANil => Some (rv_type u, WPrim PNil, vis)
           | ANone => match stream_body h utf8 maxlen sf u vis with
                      | None => None | Some (w, vis') => Some (rv_type u, w, vis') end
           | AAddr a => match vlookup (vmap vis) a with
               | Some p => Some (rv_type u, cycle_mark p, Some (vmap vis))
               | None => match stream_body h utf8 maxlen sf u (Some ((a, path) :: vmap vis)) with
                         | None => None | Some (w, vis') => Some (rv_type u, w, vis') end
               end
           end)).
  { destruct deep.
    - split; [assumption|]. split; [|assumption]. apply Hsm. vm_compute; discriminate.
    - destruct (class_of u) as [|a|].
      + split; auto.
      + destruct (vlookup (vmap vis) a) as [p|] eqn:E.
        * split; [assumption|]. split; [|assumption]. apply cycle_out. eapply vlookup_ok; eassumption.
        * apply Hbody; [|reflexivity]. constructor; assumption.
      + apply Hbody; auto. }
  destruct u; try exact Hgen. split; [vm_compute; reflexivity|]. split; [apply Hnil|assumption].
Qed.

Lemma stream_field_ok rem : forall parent nm v vis,
  (rem <= maxrec)%nat -> blen parent <= (N.of_nat (maxrec - rem)) * (K + 1) ->
  blen nm <= K -> rv_ok K v -> vis_ok vis ->
  res_ok rem (stream_field h utf8 maxlen ufuel rem parent nm v vis).
Proof.
  induction rem as [|r IH]; intros parent nm v vis Hr Hpar Hnm Hv Hvis.
  - assert (Hp : blen (join_path parent nm) <= (N.of_nat (maxrec - 0) + 1) * (K + 1)).
    { unfold join_path. destruct parent as [|c parent]; [nia|].
      rewrite !blen_app. change (blen (B ".")) with 1. nia. }
    assert (Hp' : blen (join_path parent nm) <= L) by (unfold L; replace (maxrec - 0)%nat with maxrec in Hp by lia; exact Hp).
    cbn [stream_field].
    assert (Hrest : forall vis', vis_ok vis' -> res_ok 0 (stream_rest h utf8 maxlen ufuel true
      (fun _ _ _ => None) (join_path parent nm) v vis')).
    { intros vis' Hv'. apply (stream_rest_ok 0 true); auto. discriminate. }
    destruct v as [| | ty [a|] | | | | | | | | | ]; try (apply Hrest; assumption).
    destruct (vlookup (vmap vis) a) as [p|] eqn:E.
    + split; [inversion Hv; assumption|]. split; [|assumption]. apply cycle_out. eapply vlookup_ok; eassumption.
    + apply Hrest. constructor; assumption.
  - assert (Hp : blen (join_path parent nm) <= (N.of_nat (maxrec - S r) + 1) * (K + 1)).
    { unfold join_path. destruct parent as [|c parent]; [nia|].
      rewrite !blen_app. change (blen (B ".")) with 1. nia. }
    assert (Hp2 : blen (join_path parent nm) <= N.of_nat (maxrec - r) * (K + 1)).
    { replace (N.of_nat (maxrec - r)) with (N.of_nat (maxrec - S r) + 1) by lia. exact Hp. }
    assert (Hp' : blen (join_path parent nm) <= L).
    { unfold L. etransitivity; [exact Hp2|]. apply N.mul_le_mono_r. lia. }
    cbn [stream_field].
    assert (Hsf : sf_ok r (stream_field h utf8 maxlen ufuel r (join_path parent nm))).
    { intros nm' v' vis' A1 A2 A3. apply IH; auto. lia. }
    assert (Hrest : forall vis', vis_ok vis' -> res_ok (S r) (stream_rest h utf8 maxlen ufuel false
      (stream_field h utf8 maxlen ufuel r (join_path parent nm)) (join_path parent nm) v vis')).
    { intros vis' Hv'. apply (stream_rest_ok r false); auto. }
    destruct v as [| | ty [a|] | | | | | | | | | ]; try (apply Hrest; assumption).
    destruct (vlookup (vmap vis) a) as [p|] eqn:E.
    + split; [inversion Hv; assumption|]. split; [|assumption]. apply cycle_out. eapply vlookup_ok; eassumption.
    + apply Hrest. constructor; assumption.
Qed.

Lemma stream_snaps_ok snaps ws :
  (forall nm v, In (nm, v) snaps -> blen nm <= K /\ rv_ok K v) ->
  stream_snaps h utf8 maxlen ufuel maxrec snaps = Some ws ->
  Forall (fun f => field_ok maxlen f /\ val_lim maxlen (snd f) /\ (fdepth f <= maxrec)%nat) ws /\
  (length ws <= length snaps)%nat.
Proof.
  revert ws; induction snaps as [|[nm v] l IH]; intros ws Hs E; cbn [stream_snaps] in E.
  - injection E as <-. split; [constructor|reflexivity].
  - destruct (beq nm (B "nil")).
    + apply IH in E; [|intros; apply Hs; right; assumption]. destruct E as [E1 E2].
      split; [assumption|cbn; lia].
    + destruct (Hs nm v (or_introl eq_refl)) as [Hn Hv].
      assert (H1 : res_ok maxrec (stream_field h utf8 maxlen ufuel maxrec [] nm v None)).
      { apply stream_field_ok; auto; [cbn; lia|constructor]. }
      destruct (stream_field h utf8 maxlen ufuel maxrec [] nm v None) as [[[ty w] vis]|]; [|discriminate].
      destruct (stream_snaps h utf8 maxlen ufuel maxrec l) as [ws'|]; [|discriminate].
      injection E as <-. destruct H1 as (A1 & (A2 & A3 & A4) & A5).
      destruct (IH ws' (fun nm v H => Hs nm v (or_intror H)) eq_refl) as [B1 B2].
      split; [|cbn; lia]. constructor; [|assumption]. split; [|split; assumption].
      split; [apply K_ok, Hn|]. split; assumption.
Qed.

End Limits.

(** * Termination *)
Section Term.
Variables (h : heap) (utf8 : bytes -> bool) (maxlen : N) (ufuel : nat).
Hypothesis Hc : chains_end h ufuel.

Lemma stream_kids_total sf l : (forall nm v vis, sf nm v vis <> None) -> forall vis, stream_kids sf l vis <> None.
Proof.
  intros H. induction l as [|[nm v] l IH]; intros vis; cbn [stream_kids]; [discriminate|].
  specialize (H nm v vis). destruct (sf nm v vis) as [[[ty w] vis']|]; [|congruence].
  specialize (IH (vback vis vis')). destruct (stream_kids sf l (vback vis vis')) as [[ws v2]|]; congruence.
Qed.
Lemma stream_elems_total sf es vis : (forall nm v vis, sf nm v vis <> None) -> stream_elems utf8 maxlen sf es vis <> None.
Proof.
  intros H. destruct es; cbn [stream_elems]; try discriminate.
  pose proof (stream_kids_total sf (index_names 0 (cut maxlen l)) H vis) as H1.
  destruct (stream_kids sf (index_names 0 (cut maxlen l)) vis) as [[]|]; congruence.
Qed.
Lemma stream_body_total sf v vis : (forall nm v vis, sf nm v vis <> None) -> stream_body h utf8 maxlen sf v vis <> None.
Proof.
  intros H. destruct v as [| | | | |ty es|ty [[a i]|]|ty [a|]|ty fs| | |]; cbn [stream_body]; try discriminate;
    try (apply stream_elems_total; assumption).
  - pose proof (stream_kids_total sf (map_entries h maxlen a) H vis) as H1.
    destruct (stream_kids sf (map_entries h maxlen a) vis) as [[]|]; congruence.
  - pose proof (stream_kids_total sf fs H vis) as H1. destruct (stream_kids sf fs vis) as [[]|]; congruence.
Qed.
Lemma stream_rest_total (deep : bool) sf path v vis : (deep = false -> forall nm v vis, sf nm v vis <> None) ->
  stream_rest h utf8 maxlen ufuel deep sf path v vis <> None.
Proof.
  intros H. unfold stream_rest. pose proof (chains_unwrap h ufuel v Hc) as Hu.
  destruct (unwrap h ufuel v) as [ty|u|]; [discriminate| |congruence].
  assert (G : (if deep then Some (rv_type u, WPrim (PStr (B "<max-depth>")), vis)
      else match class_of u with
           | ANil => Some (rv_type u, WPrim PNil, vis)
           | ANone => match stream_body h utf8 maxlen sf u vis with
                      | None => None | Some (w, vis') => Some (rv_type u, w, vis') end
           | AAddr a => match vlookup (vmap vis) a with
               | Some p => Some (rv_type u, cycle_mark p, Some (vmap vis))
               | None => match stream_body h utf8 maxlen sf u (Some ((a, path) :: vmap vis)) with
                         | None => None | Some (w, vis') => Some (rv_type u, w, vis') end
               end
           end) <> None).
  { destruct deep; [discriminate|].
    assert (Hb : forall vis', stream_body h utf8 maxlen sf u vis' <> None) by (intros; apply stream_body_total; auto).
    destruct (class_of u) as [|a|]; [discriminate| |].
    - destruct (vlookup (vmap vis) a); [discriminate|].
      specialize (Hb (Some ((a, path) :: vmap vis))).
      destruct (stream_body h utf8 maxlen sf u (Some ((a, path) :: vmap vis))) as [[]|]; congruence.
    - specialize (Hb vis). destruct (stream_body h utf8 maxlen sf u vis) as [[]|]; congruence. }
  destruct u; try exact G. discriminate.
Qed.
Lemma stream_field_total rem : forall parent nm v vis, stream_field h utf8 maxlen ufuel rem parent nm v vis <> None.
Proof.
  induction rem as [|r IH]; intros parent nm v vis; cbn [stream_field].
  - destruct v as [| | ty [a|] | | | | | | | | | ]; try (apply stream_rest_total; discriminate).
    destruct (vlookup (vmap vis) a); [discriminate|]. apply stream_rest_total; discriminate.
  - destruct v as [| | ty [a|] | | | | | | | | | ]; try (apply stream_rest_total; intros _; apply IH).
    destruct (vlookup (vmap vis) a); [discriminate|]. apply stream_rest_total; intros _; apply IH.
Qed.
Lemma stream_snaps_total maxrec snaps : stream_snaps h utf8 maxlen ufuel maxrec snaps <> None.
Proof.
  induction snaps as [|[nm v] l IH]; cbn [stream_snaps]; [discriminate|].
  destruct (beq nm (B "nil")); [assumption|].
  pose proof (stream_field_total maxrec [] nm v None) as H.
  destruct (stream_field h utf8 maxlen ufuel maxrec [] nm v None) as [[[ty w] vis]|]; [|congruence].
  destruct (stream_snaps h utf8 maxlen ufuel maxrec l); congruence.
Qed.
End Term.

(** * Fidelity on unshared data within the limits *)
Section Faithful.
Variables (h : heap) (utf8 : bytes -> bool) (maxlen : N) (ufuel : nat).
Hypothesis Hc : chains_end h ufuel.

Definition dom (vis : visited) : list N := map fst (vmap vis).
Definition fresh (A : list N) (vis : visited) : Prop := NoDup A /\ forall a, In a A -> ~ In a (dom vis).

Lemma vlookup_none m a : ~ In a (map fst m) -> vlookup m a = None.
Proof.
  induction m as [|[a' p] m IH]; intros H; [reflexivity|]. cbn in *.
  destruct (N.eqb_spec a a'); [subst; tauto|]. apply IH; tauto.
Qed.

Lemma reach_unwrap v u : reaches h v u -> unwrap h ufuel v = UVal u.
Proof.
  intros H. destruct (unwrap_reaches h v u H ufuel) as [E|E]; [|exact E].
  exfalso. exact (chains_unwrap h ufuel v Hc E).
Qed.
Lemma reach_unwrap_nil v ty : reaches_nil h v ty -> unwrap h ufuel v = UNil ty.
Proof.
  intros H. destruct (unwrap_reaches_nil h v ty H ufuel) as [E|E]; [|exact E].
  exfalso. exact (chains_unwrap h ufuel v Hc E).
Qed.

Lemma fresh_app A1 A2 vis : fresh (A1 ++ A2) vis ->
  fresh A1 vis /\ fresh A2 vis /\ (forall a, In a A1 -> ~ In a A2).
Proof.
  intros [H1 H2]. apply NoDup_app_iff in H1. destruct H1 as (N1 & N2 & N3). split; [|split].
  - split; [assumption|]. intros; apply H2, in_or_app; auto.
  - split; [assumption|]. intros; apply H2, in_or_app; auto.
  - exact N3.
Qed.
Lemma fresh_ext A vis vis' : fresh A vis -> (forall a, In a A -> In a (dom vis') -> In a (dom vis)) -> fresh A vis'.
Proof. intros [H1 H2] H. split; [assumption|]. intros a Ha Hin. exact (H2 a Ha (H a Ha Hin)). Qed.

(** the statement for a streaming function [sf] on values with picture (w, A) *)
Definition good (r : sres) (vis : visited) ty w A : Prop :=
  exists vis', r = Some (ty, w, vis') /\ incl (dom vis') (dom vis ++ A).
Definition goodb (r : option (wval * visited)) (vis : visited) w A : Prop :=
  exists vis', r = Some (w, vis') /\ incl (dom vis') (dom vis ++ A).

Definition own_vis (v : rv) (path : bytes) (vis : visited) : visited :=
  match v with RPtr _ (Some a) => Some ((a, path) :: vmap vis) | _ => vis end.

Lemma field_unfold rem parent nm v vis : (forall a, In a (own v) -> ~ In a (dom vis)) ->
  stream_field h utf8 maxlen ufuel rem parent nm v vis =
  stream_rest h utf8 maxlen ufuel (match rem with O => true | S _ => false end)
    (match rem with O => fun _ _ _ => None | S r => stream_field h utf8 maxlen ufuel r (join_path parent nm) end)
    (join_path parent nm) v (own_vis v (join_path parent nm) vis).
Proof.
  intros H. destruct rem; cbn [stream_field]; destruct v as [| | ty [a|] | | | | | | | | | ]; try reflexivity;
    cbn [own] in H; rewrite (vlookup_none (vmap vis) a) by (apply H; left; reflexivity); reflexivity.
Qed.
Lemma dom_own v path vis : forall a, In a (dom (own_vis v path vis)) <-> In a (own v) \/ In a (dom vis).
Proof.
  intros a. destruct v as [| | ty [b|] | | | | | | | | | ]; cbn; unfold dom; cbn; tauto.
Qed.
Lemma dom_vback vis vis' : incl (dom (vback vis vis')) (dom vis').
Proof. destruct vis; cbn; [apply incl_refl|intros a []]. Qed.

Definition P_field n v ty w A := forall parent nm vis, fresh A vis ->
  good (stream_field h utf8 maxlen ufuel n parent nm v vis) vis ty w A.
Definition P_elems n es w A := forall path vis, fresh A vis ->
  goodb (stream_elems utf8 maxlen (stream_field h utf8 maxlen ufuel n path) es vis) vis w A.
Definition P_kids n l ws A := forall path vis, fresh A vis ->
  exists vis', stream_kids (stream_field h utf8 maxlen ufuel n path) l vis = Some (ws, vis') /\
    incl (dom vis') (dom vis ++ A).

(** common reasoning for every constructor of [shows] whose value is reached at [u] *)
Lemma field_ANone n v u w A : reaches h v u -> class_of u = ANone -> u <> RInvalid ->
  (forall path vis, fresh A vis ->
     goodb (stream_body h utf8 maxlen (stream_field h utf8 maxlen ufuel n path) u vis) vis w A) ->
  P_field (S n) v (rv_type u) w (own v ++ A).
Proof.
  intros Hr Hcl Hni Hb parent nm vis Hf.
  destruct (fresh_app _ _ _ Hf) as (F1 & F2 & F3).
  rewrite field_unfold by (intros a Ha; apply F1, Ha).
  unfold stream_rest. rewrite (reach_unwrap _ _ Hr).
  destruct (Hb (join_path parent nm) (own_vis v (join_path parent nm) vis)) as (vis' & E & I).
  { eapply fresh_ext; [exact F2|]. intros a Ha Hd. apply dom_own in Hd. destruct Hd as [Hd|Hd]; [|exact Hd].
    exfalso. exact (F3 a Hd Ha). }
  exists vis'. split.
  - destruct u; try congruence; rewrite Hcl, E; reflexivity.
  - intros a Ha. apply I in Ha. rewrite !in_app_iff in *. destruct Ha as [Ha|Ha]; [|tauto].
    apply dom_own in Ha. tauto.
Qed.
Lemma field_AAddr n v u b w A : reaches h v u -> class_of u = AAddr b ->
  (forall path vis, fresh A vis ->
     goodb (stream_body h utf8 maxlen (stream_field h utf8 maxlen ufuel n path) u vis) vis w A) ->
  P_field (S n) v (rv_type u) w (own v ++ b :: A).
Proof.
  intros Hr Hcl Hb parent nm vis Hf.
  destruct (fresh_app _ _ _ Hf) as (F1 & F2 & F3).
  rewrite field_unfold by (intros a Ha; apply F1, Ha).
  unfold stream_rest. rewrite (reach_unwrap _ _ Hr).
  set (ov := own_vis v (join_path parent nm) vis).
  assert (Hnb : ~ In b (dom ov)).
  { intros Hd. apply dom_own in Hd. destruct Hd as [Hd|Hd].
    - apply (F3 b Hd). left; reflexivity.
    - apply (proj2 F2 b); [left; reflexivity|exact Hd]. }
  destruct (Hb (join_path parent nm) (Some ((b, join_path parent nm) :: vmap ov))) as (vis' & E & I).
  { destruct F2 as [N1 N2]. inversion N1; subst. split; [assumption|]. intros a Ha Hd.
    unfold dom in Hd. cbn in Hd. destruct Hd as [<-|Hd]; [contradiction|].
    change (map fst (vmap ov)) with (dom ov) in Hd. apply dom_own in Hd. destruct Hd as [Hd|Hd].
    - apply (F3 a Hd). right; assumption.
    - apply (N2 a); [right; assumption|exact Hd]. }
  exists vis'. split.
  - destruct u; try discriminate Hcl; rewrite Hcl, (vlookup_none (vmap ov) b Hnb), E; reflexivity.
  - intros a Ha. apply I in Ha. unfold dom at 1 in Ha. cbn in Ha. rewrite !in_app_iff in *. cbn.
    destruct Ha as [Ha|[Ha|Ha]]; [tauto| |tauto].
    change (map fst (vmap ov)) with (dom ov) in Ha. apply dom_own in Ha. tauto.
Qed.
Lemma field_ANil n v u : reaches h v u -> class_of u = ANil ->
  P_field (S n) v (rv_type u) (WPrim PNil) (own v).
Proof.
  intros Hr Hcl parent nm vis Hf.
  rewrite field_unfold by (intros a Ha; apply Hf, Ha).
  unfold stream_rest. rewrite (reach_unwrap _ _ Hr).
  exists (own_vis v (join_path parent nm) vis). split.
  - destruct u; try discriminate Hcl; rewrite Hcl; reflexivity.
  - intros a Ha. apply dom_own in Ha. rewrite in_app_iff. tauto.
Qed.
Lemma goodb_ret w vis : goodb (Some (w, vis)) vis w [].
Proof. exists vis. split; [reflexivity|]. rewrite app_nil_r. apply incl_refl. Qed.
Lemma kids_node k n l ws A path vis : P_kids n l ws A -> fresh A vis ->
  goodb (match stream_kids (stream_field h utf8 maxlen ufuel n path) l vis with
         | None => None | Some (ws, vis') => Some (WNode k ws, vis') end) vis (WNode k ws) A.
Proof. intros H Hf. destruct (H path vis Hf) as (vis' & E & I). exists vis'. rewrite E. auto. Qed.

Lemma cut_short {A} (l : list A) : blen l <= maxlen -> cut maxlen l = l.
Proof. intros H. unfold cut. apply firstn_all2. unfold blen in H. lia. Qed.
Lemma index_names_nth l : forall i j, nth_error (index_names i l) j =
  match nth_error l j with Some v => Some (B "[" ++ itoa (i + N.of_nat j) ++ B "]", v) | None => None end.
Proof.
  induction l as [|v l IH]; intros i [|j]; cbn [index_names nth_error]; try reflexivity.
  - rewrite N.add_0_r. reflexivity.
  - rewrite IH. replace (i + 1 + N.of_nat j) with (i + N.of_nat (S j)) by lia. reflexivity.
Qed.
Lemma nth_ext_opt {A} (l l' : list A) : (forall i, nth_error l i = nth_error l' i) -> l = l'.
Proof.
  revert l'; induction l as [|x l IH]; intros [|y l'] H; try reflexivity; try (specialize (H O); discriminate).
  pose proof (H O) as H0. cbn in H0. injection H0 as ->. f_equal. apply IH. intros i. exact (H (S i)).
Qed.
Lemma numbered_index l nl : numbered l nl -> nl = index_names 0 l.
Proof.
  intros [H1 H2]. apply nth_ext_opt. intros i. rewrite index_names_nth.
  destruct (nth_error l i) as [v|] eqn:E.
  - rewrite (H2 _ _ E). reflexivity.
  - apply nth_error_None in E. apply nth_error_None. lia.
Qed.

Lemma shows_stream n v ty w A : shows h utf8 maxlen n v ty w A -> P_field n v ty w A.
Proof.
  intros H. revert n v ty w A H.
  apply (shows_mut h utf8 maxlen (fun n v ty w A _ => P_field n v ty w A)
    (fun n es w A _ => P_elems n es w A) (fun n l ws A _ => P_kids n l ws A)).
  - intros n v ty Hr parent nm vis Hf. rewrite field_unfold by (intros a Ha; apply Hf, Ha).
    unfold stream_rest. rewrite (reach_unwrap_nil _ _ Hr).
    eexists. split; [reflexivity|]. intros a Ha. apply dom_own in Ha. rewrite in_app_iff. tauto.
  - intros n v Hr parent nm vis Hf. rewrite field_unfold by (intros a Ha; apply Hf, Ha).
    unfold stream_rest. rewrite (reach_unwrap _ _ Hr).
    eexists. split; [reflexivity|]. intros a Ha. apply dom_own in Ha. rewrite in_app_iff. tauto.
  - intros n v ty p Hr. rewrite <- (app_nil_r (own v)).
    apply (field_ANone n v (RScalar ty p)); try assumption; try reflexivity; try discriminate.
    intros. apply goodb_ret.
  - intros n v ty s Hr Hs. rewrite <- (app_nil_r (own v)).
    apply (field_ANone n v (RStr ty s)); try assumption; try reflexivity; try discriminate.
    intros. cbn [stream_body]. rewrite limit_string_short by assumption. apply goodb_ret.
  - intros n v ty es w A Hr _ IH.
    apply (field_ANone n v (RArr ty es)); try assumption; try reflexivity; try discriminate.
  - intros n v ty Hr. apply (field_ANil n v (RSlice ty None)); auto.
  - intros n v ty a i w A Hr _ IH. apply (field_AAddr n v (RSlice ty (Some (a, i)))); try assumption; reflexivity.
  - intros n v ty Hr. apply (field_ANil n v (RMap ty None)); auto.
  - intros n v ty a ws A Hr Hl _ IH. apply (field_AAddr n v (RMap ty (Some a))); try assumption; try reflexivity.
    intros path vis Hf. cbn [stream_body]. unfold map_entries.
    destruct (N.leb_spec (blen (h_map h a)) maxlen); [|lia]. apply kids_node; assumption.
  - intros n v ty fs ws A Hr _ IH.
    apply (field_ANone n v (RStruct ty fs)); try assumption; try reflexivity; try discriminate.
    intros path vis Hf. cbn [stream_body]. apply kids_node; assumption.
  - intros n v ty a Hr. apply (field_AAddr n v (RFunc ty (Some a))); try assumption; try reflexivity.
    intros. apply goodb_ret.
  - intros n v ty Hr. apply (field_ANil n v (RFunc ty None)); auto.
  - intros n v ty a Hr. apply (field_AAddr n v (RChan ty (Some a))); try assumption; try reflexivity.
    intros. apply goodb_ret.
  - intros n v ty Hr. apply (field_ANil n v (RChan ty None)); auto.
  - intros n v ty s Hr Hs. rewrite <- (app_nil_r (own v)).
    apply (field_ANone n v (ROther ty s)); try assumption; try reflexivity; try discriminate.
    intros. cbn [stream_body]. rewrite limit_string_short by assumption. apply goodb_ret.
  - intros n es p Hp path vis Hf.
    assert (Hst : forall l, Forall (fun s => blen s <= maxlen) l -> map (limit_string maxlen) l = l).
    { intros l Hl. apply map_id_on. eapply Forall_impl; [|exact Hl]. intros s. apply limit_string_short. }
    inversion Hp; subst; cbn [stream_elems]; rewrite cut_short by assumption;
      try apply goodb_ret.
    + rewrite H0, limit_string_short by assumption. apply goodb_ret.
    + rewrite H0. apply goodb_ret.
    + rewrite Hst by assumption. apply goodb_ret.
  - intros n l nl ws A Hl Hn _ IH path vis Hf. cbn [stream_elems]. rewrite cut_short by assumption.
    apply numbered_index in Hn. subst nl. apply kids_node; assumption.
  - intros n path vis Hf. exists vis. split; [reflexivity|]. rewrite app_nil_r. apply incl_refl.
  - intros n nm v l ty w ws A A' _ IH1 _ IH2 path vis Hf. cbn [stream_kids].
    destruct (fresh_app _ _ _ Hf) as (F1 & F2 & F3).
    destruct (IH1 path nm vis F1) as (vis1 & E1 & I1). rewrite E1.
    destruct (IH2 path (vback vis vis1)) as (vis2 & E2 & I2).
    { eapply fresh_ext; [exact F2|]. intros a Ha Hd. apply dom_vback, I1, in_app_iff in Hd.
      destruct Hd as [Hd|Hd]; [exact Hd|]. exfalso. exact (F3 a Hd Ha). }
    rewrite E2. exists vis2. split; [reflexivity|].
    intros a Ha. apply I2 in Ha. rewrite !in_app_iff in *. destruct Ha as [Ha|Ha]; [|tauto].
    apply dom_vback, I1, in_app_iff in Ha. tauto.
Qed.

Lemma shows_top n nm v ty w A : shows h utf8 maxlen n v ty w A -> NoDup A ->
  exists vis, stream_field h utf8 maxlen ufuel n [] nm v None = Some (ty, w, vis).
Proof.
  intros H HA. destruct (shows_stream n v ty w A H [] nm None) as (vis & E & _).
  - split; [assumption|]. intros a _ [].
  - exists vis; exact E.
Qed.
End Faithful.

(** * The unwrap loop can run forever *)
Definition loop_heap : heap :=
  mkHeap (fun _ => RIface (B "interface {}") (Some (RPtr (B "*interface {}") (Some 1))))
         (fun _ => EBools []) (fun _ => []) (fun _ => []).
Lemma loop_unwrap f : forall v, v = RPtr (B "*interface {}") (Some 1) -> unwrap loop_heap f v = UFuel.
Proof.
  induction f as [|f IH]; intros v ->; rewrite unwrap_eq; [reflexivity|].
  cbn [h_ptr loop_heap]. rewrite unwrap_eq. apply IH. reflexivity.
Qed.
