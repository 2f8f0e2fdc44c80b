(** Properties C19 to C22. *)

From Verif Require Import Base UtilModel.

(** ** C19: the rolling buffer *)

(** The buffer after a sequence of writes. *)
Definition roll_all (max : nat) (buf : bytes) (ps : list bytes) : bytes :=
  fold_left (fun b p => fst (roll_write max b p)) ps buf.

Definition suffix_of {A} (s l : list A) : Prop := exists r, l = r ++ s.

(** What the contents may be when [all] has been written. *)
Definition true_tail (max : nat) (all contents : bytes) : Prop :=
  (contents = all /\ (length all <= max)%nat) \/
  (exists s, contents = B "..." ++ s /\ suffix_of s all /\
     (Nat.div max 2 <= length s)%nat /\ (length all > max)%nat).

Lemma suffix_app {A} (s l r : list A) : suffix_of s l -> suffix_of (s ++ r) (l ++ r).
Proof. intros [q ->]. exists q. apply app_assoc_reverse. Qed.
Lemma suffix_skip {A} n (l : list A) : suffix_of (skipn n l) l.
Proof. exists (firstn n l). symmetry; apply firstn_skipn. Qed.
Lemma suffix_trans {A} (a b c : list A) : suffix_of a b -> suffix_of b c -> suffix_of a c.
Proof. intros [r ->] [q ->]. exists (q ++ r). apply app_assoc. Qed.

Lemma roll_step max all buf p : true_tail max all buf -> true_tail max (all ++ p) (fst (roll_write max buf p)).
Proof.
  intros H. unfold roll_write. cbn [fst].
  assert (Nat.div max 2 <= max)%nat as Hh by (apply Nat.div_le_upper_bound; lia).
  destruct (Nat.ltb_spec max (length (buf ++ p))) as [Hlt|Hge].
  - right. set (h := Nat.div max 2) in *.
    exists (skipn (length (buf ++ p) - h) (buf ++ p)). split; [reflexivity|].
    rewrite skipn_length. split; [|split; [lia|]].
    + destruct H as [[-> _]|(s & -> & Hs & Hl & _)]; [apply suffix_skip|].
      rewrite <- app_assoc, skipn_app.
      rewrite (skipn_all2 (n := length (B "..." ++ s ++ p) - h) (B "...")).
      2:{ rewrite !app_length. change (length (B "...")) with 3%nat. lia. }
      cbn [app]. eapply suffix_trans; [apply suffix_skip|]. apply suffix_app. exact Hs.
    + destruct H as [[-> _]|(s & -> & Hs & _ & Hl)]; [exact Hlt|]. rewrite app_length. lia.
  - destruct H as [[-> Hl]|(s & -> & Hs & Hl & Ha)].
    + left. split; [reflexivity|exact Hge].
    + right. exists (s ++ p). rewrite <- app_assoc. split; [reflexivity|]. split; [apply suffix_app; exact Hs|].
      rewrite !app_length. split; lia.
Qed.

(** At every moment the contents are everything written, if that fits, or else
    "..." and a suffix of at least half the limit of everything written. *)
Theorem C19_contents_are_a_true_tail : forall max ps,
  true_tail max (concat ps) (roll_all max [] ps).
Proof.
  intros max ps. unfold roll_all.
  assert (forall all buf, true_tail max all buf ->
    true_tail max (all ++ concat ps) (fold_left (fun b p => fst (roll_write max b p)) ps buf)) as H.
  { induction ps as [|p ps IH]; intros all buf Hb; cbn [concat fold_left]; [rewrite app_nil_r; exact Hb|].
    rewrite app_assoc. apply IH. apply roll_step. exact Hb. }
  apply (H [] []). left. split; [reflexivity|]. cbn; lia.
Qed.
Print Assumptions C19_contents_are_a_true_tail.

(** The size stays within the limit; a limit under 6 leaves room for the marker
    and half the limit. *)
Theorem C19_size_is_bounded : forall max ps,
  (length (roll_all max [] ps) <= Nat.max max (Nat.div max 2 + 3))%nat /\
  ((6 <= max)%nat -> (length (roll_all max [] ps) <= max)%nat).
Proof.
  intros max ps.
  assert (forall buf, (length buf <= Nat.max max (Nat.div max 2 + 3))%nat ->
    (length (fold_left (fun b p => fst (roll_write max b p)) ps buf) <= Nat.max max (Nat.div max 2 + 3))%nat) as H.
  { induction ps as [|p ps IH]; intros buf Hb; cbn [fold_left]; [exact Hb|].
    apply IH. unfold roll_write. cbn [fst]. destruct (Nat.ltb_spec max (length (buf ++ p))) as [Hlt|Hge]; [|lia].
    rewrite app_length, skipn_length. change (length (B "...")) with 3%nat. lia. }
  specialize (H [] ltac:(cbn; lia)). split; [exact H|].
  intros Hm. unfold roll_all in *. assert (max / 2 + 3 <= max)%nat; [|lia].
  pose proof (Nat.div_mod max 2 ltac:(lia)). pose proof (Nat.mod_upper_bound max 2 ltac:(lia)). lia.
Qed.
Print Assumptions C19_size_is_bounded.

(** Every write reports that it took everything. *)
Theorem C19_write_always_succeeds : forall max buf p, snd (roll_write max buf p) = (length p, true).
Proof. reflexivity. Qed.
Print Assumptions C19_write_always_succeeds.

Example C19_example :
  roll_all 8 [] [B "abcd"; B "efgh"; B "ij"; B "kl"] = B "...ghijkl" \/
  roll_all 8 [] [B "abcd"; B "efgh"; B "ij"; B "k"] = B "...ghijk".
Proof. right. reflexivity. Qed.
Example C19_example_again : roll_all 8 [] [B "abcd"; B "efgh"; B "ij"; B "kl"] = B "...ijkl".
Proof. reflexivity. Qed.

(** ** Line limiting *)

(** The lines of a text are the unique newline-free pieces it is joined from. *)
Definition lines_of (s : bytes) (ls : list bytes) : Prop :=
  ls <> [] /\ Forall (fun l => ~ In nl l) ls /\ join_with [nl] ls = s.

Lemma join_cons sep x l : l <> [] -> join_with sep (x :: l) = x ++ sep ++ join_with sep l.
Proof. destruct l; [congruence|reflexivity]. Qed.

Lemma split_on_nonempty c s : split_on c s <> [].
Proof. destruct s; cbn; [discriminate|]. destruct (ascii_dec _ _); [discriminate|]. destruct (split_on c s); discriminate. Qed.

Lemma split_on_spec c s : Forall (fun l => ~ In c l) (split_on c s) /\ join_with [c] (split_on c s) = s.
Proof.
  induction s as [|x s [F J]]; cbn [split_on]; [split; [constructor; [intros []|constructor]|reflexivity]|].
  destruct (ascii_dec x c) as [->|Hne].
  - split; [constructor; [intros []|exact F]|]. rewrite join_cons by apply split_on_nonempty. cbn. rewrite J. reflexivity.
  - pose proof (split_on_nonempty c s) as N. destruct (split_on c s) as [|l ls]; [congruence|].
    inversion F as [|? ? F1 F2]; subst. split.
    + constructor; [intros [E|E]; [congruence|exact (F1 E)]|exact F2].
    + destruct ls; reflexivity.
Qed.

(** ** C20: the tee writer *)

(** The sinks of a writer, in order. *)
Fixpoint sinks (w : writer) : list nat :=
  match w with WNil | WDiscard => [] | WSink id _ => [id] | WTee a b => sinks a ++ sinks b end.
Fixpoint closers (w : writer) : list nat :=
  match w with
  | WNil | WDiscard => []
  | WSink id c => if c then [id] else []
  | WTee a b => closers a ++ closers b
  end.
(** No nil writer inside. *)
Fixpoint solid (w : writer) : Prop :=
  match w with WNil => False | WDiscard | WSink _ _ => True | WTee a b => solid a /\ solid b end.

(** A list of writers as callers pass them: sinks and nils. *)
Definition plain_writer (w : writer) : Prop := match w with WSink _ _ | WNil => True | _ => False end.

Definition wrote (id : nat) (p : bytes) (ev : sink_event) : Prop := exists n e, ev = EvWrite id p n e.
(** A sink took [p] completely, and said so. *)
Definition took_all (p : bytes) (ev : sink_event) : Prop :=
  exists id, ev = EvWrite id p (Z.of_nat (length p)) false.
Definition failed (ev : sink_event) : Prop :=
  match ev with EvWrite _ _ _ e => e = true | EvClose _ e => e = true end.

(** The contract of [io.Writer]: a short write comes with an error. *)
Definition honest (on_write : trace -> nat -> bytes -> Z * bool) : Prop :=
  forall tr id p, let '(n, e) := on_write tr id p in e = false -> n = Z.of_nat (length p).

Section C20.
Variable on_write : trace -> nat -> bytes -> Z * bool.
Variable on_close : trace -> nat -> bool.

Lemma tee_write_spec w p : solid w -> forall tr,
  exists evs n e, tee_write on_write w p tr = Some (tr ++ evs, (n, e)) /\
    Forall2 (fun id ev => wrote id p ev) (sinks w) evs /\
    (e = false -> Forall (fun ev => exists id, ev = EvWrite id p n false) evs) /\
    (Exists failed evs -> e = true) /\
    (e = true -> Exists failed evs \/
       exists id1 n1 id2 n2, In (EvWrite id1 p n1 false) evs /\ ((n1 <> n2 /\ In (EvWrite id2 p n2 false) evs) \/ n1 <> Z.of_nat (length p))) /\
    (sinks w = [] -> n = Z.of_nat (length p) /\ e = false) /\
    (honest on_write -> e = false -> n = Z.of_nat (length p)) /\
    (evs <> [] -> e = false -> exists id, In (EvWrite id p n false) evs).
Proof.
  induction w as [| |id c|a IHa b IHb]; intros S tr; [destruct S| | |].
  - exists [], (Z.of_nat (length p)), false. cbn. rewrite app_nil_r.
    split; [reflexivity|]. split; [constructor|]. split; [constructor|]. split; [intros H; inversion H|].
    split; [discriminate|]. split; [auto|]. split; [auto|]. congruence.
  - cbn. destruct (on_write tr id p) as [n e] eqn:E. exists [EvWrite id p n e], n, e.
    split; [reflexivity|]. split; [constructor; [exists n, e; reflexivity|constructor]|].
    split; [intros ->; constructor; [exists id; reflexivity|constructor]|].
    split; [intros H; inversion H as [? ? H'|? ? H']; subst; [exact H'|inversion H']|].
    split; [intros ->; left; constructor; reflexivity|]. split; [discriminate|].
    split; [intros Hh He; specialize (Hh tr id p); rewrite E in Hh; auto|].
    intros _ ->. exists id. left; reflexivity.
  - cbn [tee_write sinks]. destruct S as [Sa Sb].
    destruct (IHa Sa tr) as (e1s & n1 & e1 & -> & F1 & O1 & X1 & Y1 & Z1 & H1 & N1).
    destruct (IHb Sb (tr ++ e1s)) as (e2s & n2 & e2 & -> & F2 & O2 & X2 & Y2 & Z2 & H2 & N2).
    rewrite <- app_assoc.
    assert (Forall2 (fun id ev => wrote id p ev) (sinks a ++ sinks b) (e1s ++ e2s)) as F12 by (apply Forall2_app; assumption).
    assert (forall l ev, sinks l = [] -> Forall2 (fun id e => wrote id p e) (sinks l) ev -> ev = []) as Em
      by (intros l ev E F; rewrite E in F; inversion F; reflexivity).
    destruct (negb e1 && negb e2 && negb (n1 =? n2)%Z) eqn:Ev.
    + apply andb_true_iff in Ev as [Ev Ez]. apply andb_true_iff in Ev as [Ea Eb].
      apply negb_true_iff in Ea, Eb, Ez. subst e1 e2. apply Z.eqb_neq in Ez.
      exists (e1s ++ e2s), 0%Z, true. split; [reflexivity|]. split; [exact F12|]. split; [discriminate|].
      split; [auto|]. split.
      { intros _. right. destruct e1s as [|ev1 e1s].
        - assert (sinks a = []) as Sa0 by (inversion F1; reflexivity). destruct (Z1 Sa0) as [-> _].
          destruct e2s as [|ev2 e2s].
          + assert (sinks b = []) as Sb0 by (inversion F2; reflexivity). destruct (Z2 Sb0) as [-> _]. congruence.
          + destruct (N2 ltac:(discriminate) eq_refl) as [id Hid]. exists id, n2, id, n2. split; [exact Hid|].
            right. congruence.
        - destruct (N1 ltac:(discriminate) eq_refl) as [id1 Hid1]. destruct e2s as [|ev2 e2s].
          + assert (sinks b = []) as Sb0 by (inversion F2; reflexivity). destruct (Z2 Sb0) as [-> _].
            exists id1, n1, id1, n1. split; [apply in_app_iff; left; exact Hid1|]. right. exact Ez.
          + destruct (N2 ltac:(discriminate) eq_refl) as [id2 Hid2]. exists id1, n1, id2, n2.
            split; [apply in_app_iff; left; exact Hid1|]. left. split; [exact Ez|apply in_app_iff; right; exact Hid2]. }
      split.
      { intros E0. apply app_eq_nil in E0 as [Sa0 Sb0]. destruct (Z1 Sa0) as [-> _]. destruct (Z2 Sb0) as [-> _]. congruence. }
      split; [discriminate|]. discriminate.
    + exists (e1s ++ e2s), n1, (e1 || e2). split; [reflexivity|]. split; [exact F12|].
      assert (e1 || e2 = false -> e1 = false /\ e2 = false /\ n1 = n2) as Ok.
      { intros Ee. apply orb_false_iff in Ee as [-> ->]. cbn in Ev. apply negb_false_iff, Z.eqb_eq in Ev. auto. }
      split.
      { intros Ee. destruct (Ok Ee) as (-> & -> & <-). apply Forall_app; auto. }
      split.
      { intros Hx. apply Exists_app in Hx as [Hx|Hx]; [rewrite (X1 Hx); reflexivity|rewrite (X2 Hx); apply orb_true_r]. }
      split.
      { intros Ee. apply orb_true_iff in Ee as [Ee|Ee].
        - destruct (Y1 Ee) as [Hx|(i1 & m1 & i2 & m2 & Hi & Hd)]; [left; apply Exists_app; auto|].
          right. exists i1, m1, i2, m2. split; [apply in_app_iff; auto|].
          destruct Hd as [[Hd Hi2]|Hd]; [left; split; [exact Hd|apply in_app_iff; auto]|right; exact Hd].
        - destruct (Y2 Ee) as [Hx|(i1 & m1 & i2 & m2 & Hi & Hd)]; [left; apply Exists_app; auto|].
          right. exists i1, m1, i2, m2. split; [apply in_app_iff; auto|].
          destruct Hd as [[Hd Hi2]|Hd]; [left; split; [exact Hd|apply in_app_iff; auto]|right; exact Hd]. }
      split.
      { intros E0. apply app_eq_nil in E0 as [Sa0 Sb0]. destruct (Z1 Sa0) as [-> ->]. destruct (Z2 Sb0) as [_ ->]. auto. }
      split; [intros Hh Ee; destruct (Ok Ee) as (E1 & _); auto|].
      intros Hne Ee. destruct (Ok Ee) as (-> & -> & <-). destruct e1s as [|x e1s].
      * destruct (N2 Hne eq_refl) as [id Hid]. exists id. exact Hid.
      * destruct (N1 ltac:(discriminate) eq_refl) as [id Hid]. exists id. apply in_app_iff. left. exact Hid.
Qed.

Lemma tee_close_spec w : solid w -> forall tr,
  exists evs e, tee_close on_close w tr = (tr ++ evs, e) /\
    Forall2 (fun id ev => exists er, ev = EvClose id er) (closers w) evs /\
    (e = true <-> Exists failed evs).
Proof.
  induction w as [| |id c|a IHa b IHb]; intros S tr; [destruct S| | |].
  - exists [], false. cbn. rewrite app_nil_r. split; [reflexivity|]. split; [constructor|].
    split; [discriminate|intros H; inversion H].
  - cbn. destruct c.
    + exists [EvClose id (on_close tr id)], (on_close tr id). split; [reflexivity|].
      split; [constructor; [eexists; reflexivity|constructor]|].
      split; [intros E; constructor; exact E|intros H; inversion H as [? ? H'|? ? H']; subst; [exact H'|inversion H']].
    + exists [], false. rewrite app_nil_r. split; [reflexivity|]. split; [constructor|].
      split; [discriminate|intros H; inversion H].
  - destruct S as [Sa Sb].
    assert (forall w, (if is_closer w then tee_close on_close w else (fun tr => (tr, false))) = tee_close on_close w \/ closers w = [] /\ is_closer w = false) as Ic.
    { intros [| |id [|]|x y]; cbn; auto. }
    assert (forall w tr, (if is_closer w then tee_close on_close w tr else (tr, false)) = tee_close on_close w tr) as Ic'.
    { intros [| |id [|]|x y] tr0; reflexivity. }
    cbn [tee_close closers]. rewrite Ic'. destruct (IHa Sa tr) as (e1s & e1 & -> & F1 & X1).
    rewrite Ic'. destruct (IHb Sb (tr ++ e1s)) as (e2s & e2 & -> & F2 & X2).
    exists (e1s ++ e2s), (e1 || e2). rewrite app_assoc. split; [reflexivity|].
    split; [apply Forall2_app; assumption|]. rewrite orb_true_iff, X1, X2, Exists_app. reflexivity.
Qed.
End C20.

(** The tee built from a list of writers has exactly the non-nil ones as sinks,
    in order. *)
Lemma tee_last_spec ws : Forall plain_writer ws -> forall last,
  (last = WNil \/ solid last) ->
  let r := fold_left (fun last w => match w with
                           | WNil => last
                           | _ => match last with WNil => w | _ => WTee last w end
                           end) ws last in
  sinks r = sinks last ++ concat (map sinks ws) /\ closers r = closers last ++ concat (map closers ws) /\
  (r = WNil \/ solid r) /\ (sinks last ++ concat (map sinks ws) <> [] -> last = WNil \/ sinks last <> [] -> r <> WNil).
Proof.
  induction 1 as [|w ws Pw F IH]; intros last HL; cbn [fold_left map concat].
  - cbn. rewrite !app_nil_r. split; [reflexivity|]. split; [reflexivity|]. split; [exact HL|].
    intros H _ ->. apply H; reflexivity.
  - destruct w as [| |id c|a b]; try destruct Pw.
    + apply IH. exact HL.
    + set (last' := match last with WNil => WSink id c | _ => WTee last (WSink id c) end).
      assert (sinks last' = sinks last ++ [id] /\ closers last' = closers last ++ closers (WSink id c) /\ solid last')
        as (E1 & E2 & E3).
      { unfold last'. destruct last; (destruct HL as [E|HL]; [try discriminate|]); cbn; auto; try destruct HL; auto. }
      destruct (IH last' (or_intror E3)) as (H1 & H2 & H3 & H4). cbn zeta.
      split; [rewrite H1, E1; cbn; rewrite <- app_assoc; reflexivity|].
      split; [rewrite H2, E2, <- app_assoc; reflexivity|].
      split; [exact H3|]. intros _ _. apply H4.
      * rewrite E1. destruct (sinks last); discriminate.
      * right. rewrite E1. destruct (sinks last); discriminate.
Qed.

Lemma tee_writer_spec ws : Forall plain_writer ws -> concat (map sinks ws) <> [] ->
  solid (tee_writer ws) /\ sinks (tee_writer ws) = concat (map sinks ws) /\
  closers (tee_writer ws) = concat (map closers ws).
Proof.
  intros F N. destruct (tee_last_spec ws F WNil (or_introl eq_refl)) as (H1 & H2 & H3 & H4).
  fold (tee_last ws) in *. cbn in *. specialize (H4 N (or_introl eq_refl)).
  destruct H3 as [H3|H3]; [congruence|]. unfold tee_writer.
  destruct (is_closer (tee_last ws)).
  - auto.
  - cbn. rewrite !app_nil_r. auto.
Qed.

(** One write reaches every sink, once and in order, with the whole input.  A
    reported success means no sink failed and all answered the same count; if
    the sinks keep to the [io.Writer] contract, that count is the length of the
    input, that is every sink took everything.  Any failing sink makes the write
    fail, and a failure is always due to a sink failing or answering a count
    that differs from another sink's or from the input's length. *)
Theorem C20_tee_write_reaches_all : forall on_write ws p tr,
  Forall plain_writer ws -> concat (map sinks ws) <> [] ->
  exists evs n err,
    tee_write on_write (tee_writer ws) p tr = Some (tr ++ evs, (n, err)) /\
    Forall2 (fun id ev => wrote id p ev) (concat (map sinks ws)) evs /\
    (err = false -> Forall (fun ev => exists id, ev = EvWrite id p n false) evs) /\
    (honest on_write -> err = false -> n = Z.of_nat (length p) /\ Forall (took_all p) evs) /\
    (Exists failed evs -> err = true) /\
    (honest on_write -> err = true -> Exists failed evs).
Proof.
  intros ow ws p tr F N. destruct (tee_writer_spec ws F N) as (S & E & _).
  destruct (tee_write_spec ow (tee_writer ws) p S tr) as (evs & n & e & W & F2 & O & X & Y & Z0 & H & Nn).
  exists evs, n, e. split; [exact W|]. split; [rewrite <- E; exact F2|]. split; [exact O|].
  split.
  { intros Hh He. specialize (H Hh He). subst n. split; [reflexivity|]. specialize (O He). exact O. }
  split; [exact X|].
  intros Hh He. destruct (Y He) as [Hx|(i1 & m1 & i2 & m2 & Hi & Hd)]; [exact Hx|].
  exfalso.
  (* an event without error reports the full length when sinks are honest *)
  assert (forall w tr0 evs0 r id n0, solid w -> tee_write ow w p tr0 = Some (tr0 ++ evs0, r) ->
    In (EvWrite id p n0 false) evs0 -> n0 = Z.of_nat (length p)) as Full.
  { clear - Hh. induction w as [| |id c|a IHa b IHb]; intros tr0 evs0 r id0 n0 S W Hin; [destruct S| | |].
    - cbn in W. injection W as W _. rewrite <- (app_nil_r tr0) in W at 1. apply app_inv_head in W. subst. destruct Hin.
    - cbn in W. specialize (Hh tr0 id p). destruct (ow tr0 id p) as [m e]. injection W as W _.
      apply app_inv_head in W. subst evs0. destruct Hin as [Hin|[]]. injection Hin as -> -> ->. auto.
    - destruct S as [Sa Sb]. cbn in W.
      destruct (tee_write_spec ow a p Sa tr0) as (e1 & k1 & x1 & W1 & _). rewrite W1 in W.
      destruct (tee_write_spec ow b p Sb (tr0 ++ e1)) as (e2 & k2 & x2 & W2 & _). rewrite W2 in W.
      assert (evs0 = e1 ++ e2) as ->.
      { rewrite <- app_assoc in W. destruct (negb x1 && negb x2 && negb (k1 =? k2)%Z); injection W as W _;
          apply app_inv_head in W; congruence. }
      apply in_app_iff in Hin as [Hin|Hin]; [eapply IHa; eassumption|eapply IHb; eassumption]. }
  pose proof (Full _ _ _ _ _ _ S W Hi) as E1. destruct Hd as [[Hd Hi2]|Hd]; [|congruence].
  pose proof (Full _ _ _ _ _ _ S W Hi2) as E2. congruence.
Qed.
Print Assumptions C20_tee_write_reaches_all.

(** Closing closes every sink that can be closed, once and in order, even after
    a failure, and fails exactly when one of them did. *)
Theorem C20_tee_close_closes_all : forall on_close ws tr,
  Forall plain_writer ws -> concat (map sinks ws) <> [] ->
  exists evs err, tee_close on_close (tee_writer ws) tr = (tr ++ evs, err) /\
    Forall2 (fun id ev => exists er, ev = EvClose id er) (concat (map closers ws)) evs /\
    (err = true <-> Exists failed evs).
Proof.
  intros oc ws tr F N. destruct (tee_writer_spec ws F N) as (S & _ & E).
  destruct (tee_close_spec oc (tee_writer ws) S tr) as (evs & e & C & F2 & X).
  exists evs, e. split; [exact C|]. split; [rewrite <- E; exact F2|exact X].
Qed.
Print Assumptions C20_tee_close_closes_all.

(** A tee of nothing panics when written to. *)
Theorem C20_empty_tee_panics_refuted : forall on_write p tr, tee_write on_write (tee_writer []) p tr = None.
Proof. reflexivity. Qed.
Print Assumptions C20_empty_tee_panics_refuted.

(** Sinks that break the contract in unison go unnoticed: a "success" after
    which no sink has the whole input. *)
Theorem C20_equally_short_sinks_unnoticed_refuted : exists on_write p,
  tee_write on_write (tee_writer [WSink 0 false; WSink 1 false]) p [] =
    Some ([EvWrite 0 p 1 false; EvWrite 1 p 1 false], (1%Z, false)) /\ length p = 5%nat.
Proof. exists (fun _ _ _ => (1%Z, false)), (B "hello"). split; reflexivity. Qed.
Print Assumptions C20_equally_short_sinks_unnoticed_refuted.

Example C20_example : 
  let ow := fun (tr : trace) id p => if Nat.eqb id 1 then (2%Z, true) else (Z.of_nat (length p), false) in
  honest ow /\
  tee_write ow (tee_writer [WSink 0 true; WNil; WSink 1 false; WSink 2 true]) (B "abc") [] =
    Some ([EvWrite 0 (B "abc") 3 false; EvWrite 1 (B "abc") 2 true; EvWrite 2 (B "abc") 3 false], (3%Z, true)).
Proof.
  split; [|reflexivity]. intros tr id p. destruct (Nat.eqb id 1); [discriminate|reflexivity].
Qed.

(** ** C21: the child environment *)

(** The name in an entry: the text before the first [=], or all of it. *)
Definition entry_name (e k : bytes) : Prop :=
  ~ In "="%char k /\ (e = k \/ exists v, e = k ++ "="%char :: v).

(** [picks P l r]: [r] is [l] with exactly the entries satisfying [P] kept, in
    order. *)
Inductive picks {A} (P : A -> Prop) : list A -> list A -> Prop :=
| pk_nil : picks P [] []
| pk_keep x l r : P x -> picks P l r -> picks P (x :: l) (x :: r)
| pk_drop x l r : ~ P x -> picks P l r -> picks P (x :: l) r.

(** The parent entries that may be passed on. *)
Definition passes (custom : list bytes) (e : bytes) : Prop :=
  e <> [] /\ e <> B "=" /\ (forall r, e <> B "LD_" ++ r) /\
  (forall c k, In c custom -> entry_name e k -> ~ entry_name c k).

Lemma entry_name_before e : entry_name e (before_eq e).
Proof.
  induction e as [|c e [N H]]; cbn; [split; [intros []|left; reflexivity]|].
  destruct (ascii_dec c "=") as [->|Hne].
  - split; [intros []|]. right. exists e. reflexivity.
  - split; [intros [E|E]; [congruence|exact (N E)]|].
    destruct H as [H|[v H]]; [left|right].
    + f_equal. exact H.
    + exists v. cbn. f_equal. exact H.
Qed.
Lemma entry_name_unique e k : entry_name e k -> k = before_eq e.
Proof.
  revert k. induction e as [|c e IH]; intros k [N H].
  - destruct H as [<-|[v E]]; [reflexivity|destruct k; discriminate].
  - cbn. destruct k as [|x k].
    + destruct H as [E|[v E]]; [discriminate|]. injection E as -> _. reflexivity.
    + assert (c = x) as <- by (destruct H as [E|[v E]]; injection E; congruence).
      destruct (ascii_dec c "=") as [->|Hne]; [exfalso; apply N; left; reflexivity|]. f_equal. apply IH.
      split; [intros Hin; apply N; right; exact Hin|].
      destruct H as [E|[v E]]; injection E; [left; congruence|right; exists v; assumption].
Qed.

Lemma picks_filter {A} (P : A -> Prop) (f : A -> bool) l :
  (forall x, f x = true <-> P x) -> picks P l (filter f l).
Proof.
  intros H. induction l as [|x l IH]; cbn; [constructor|]. destruct (f x) eqn:E.
  - apply pk_keep; [apply H; exact E|exact IH].
  - apply pk_drop; [rewrite <- H, E; discriminate|exact IH].
Qed.

Theorem C21_child_environment : forall environ custom,
  exists kept, merge_safe_env environ custom = kept ++ custom /\ picks (passes custom) environ kept.
Proof.
  intros environ custom. eexists. split; [reflexivity|]. apply picks_filter. intros e. unfold passes.
  destruct (beq_spec e []) as [->|H1]; [cbn; split; [discriminate|intros (H & _); congruence]|].
  destruct (beq_spec e (B "=")) as [->|H2]; [cbn; split; [discriminate|intros (_ & H & _); congruence]|].
  cbn [orb]. destruct (has_prefix (B "LD_") e) eqn:H3.
  { split; [discriminate|]. intros (_ & _ & H & _). apply has_prefix_spec in H3 as [r Hr]. exfalso; exact (H r Hr). }
  destruct (existsb (beq (before_eq e)) (map before_eq custom)) eqn:H4.
  - split; [discriminate|]. intros (_ & _ & _ & H). exfalso.
    apply existsb_exists in H4 as (k & Hk & E). apply beq_true in E. subst k.
    apply in_map_iff in Hk as (c & E & Hc). apply (H c (before_eq e) Hc (entry_name_before e)).
    rewrite <- E. apply entry_name_before.
  - split; [intros _|reflexivity]. split; [exact H1|]. split; [exact H2|].
    split; [intros r E; rewrite E, has_prefix_app in H3; discriminate|].
    intros c k Hc He Hk. apply entry_name_unique in He, Hk. subst k.
    assert (existsb (beq (before_eq e)) (map before_eq custom) = true); [|congruence].
    apply existsb_exists. exists (before_eq c). split; [apply in_map; exact Hc|]. apply beq_true. congruence.
Qed.
Print Assumptions C21_child_environment.

(** Hence a variable set by the caller has, in the child, the value of the last
    custom entry for it, whichever of several entries the child looks at first or
    last among the parent's. *)
Theorem C21_custom_entries_win : forall environ custom c k e,
  In c custom -> entry_name c k -> In e (merge_safe_env environ custom) -> entry_name e k -> In e custom.
Proof.
  intros environ custom c k e Hc Hk He Ek.
  destruct (C21_child_environment environ custom) as (kept & E & P). rewrite E in He.
  apply in_app_iff in He as [He|He]; [|exact He]. exfalso.
  assert (passes custom e) as (_ & _ & _ & H).
  { clear - P He. induction P as [|x l r Hx P IH|x l r Hx P IH]; [destruct He| |auto].
    destruct He as [<-|He]; auto. }
  exact (H c k Hc Ek Hk).
Qed.
Print Assumptions C21_custom_entries_win.

Example C21_example :
  merge_safe_env [B "PATH=/bin"; B "LD_PRELOAD=x"; B "GOPATH=/old"; B ""; B "="; B "GOPATHX=1"; B "FLAG"]
                 [B "GOPATH=/new"; B "LD_X=kept"] =
  [B "PATH=/bin"; B "GOPATHX=1"; B "FLAG"; B "GOPATH=/new"; B "LD_X=kept"] /\
  entry_name (B "GOPATH=/new") (B "GOPATH").
Proof.
  split; [reflexivity|]. apply (entry_name_before (B "GOPATH=/new")).
Qed.

(** ** C22: containment *)

(** Where a path leads, lexically: walking its elements from the root. *)
Inductive walk : list bytes -> list bytes -> list bytes -> Prop :=
| wk_end at_ : walk at_ [] at_
| wk_stay at_ e es r : (e = [] \/ e = B ".") -> walk at_ es r -> walk at_ (e :: es) r
| wk_up at_ d es r : walk at_ es r -> walk (at_ ++ [d]) (B ".." :: es) r
| wk_top es r : walk [] es r -> walk [] (B ".." :: es) r
| wk_down at_ e es r : e <> [] -> e <> B "." -> e <> B ".." -> walk (at_ ++ [e]) es r -> walk at_ (e :: es) r.

(** [leads p r]: the absolute path [p], cut at its slashes, leads to the place
    whose names below the root are [r]. *)
Definition leads (p : bytes) (r : list bytes) : Prop :=
  exists es, es <> [] /\ Forall (fun e => ~ In slash e) es /\ join_with [slash] es = p /\ walk [] es r.

Definition absolute (cwd p : bytes) : bytes := if is_abs p then p else cwd ++ slash :: p.

Lemma walk_fold es : forall at_ r, walk at_ es r <-> r = fold_left clean_step es at_.
Proof.
  intros at_ r. split.
  - induction 1 as [at_|at_ e es r E W IH|at_ d es r W IH|es r W IH|at_ e es r N1 N2 N3 W IH]; cbn [fold_left].
    + reflexivity.
    + destruct E as [-> | ->]; exact IH.
    + change (clean_step (at_ ++ [d]) (B "..")) with (removelast (at_ ++ [d])). rewrite removelast_last. exact IH.
    + exact IH.
    + unfold clean_step at 2. destruct (beq_spec e []); [congruence|]. destruct (beq_spec e (B ".")); [congruence|].
      destruct (beq_spec e (B "..")); [congruence|]. exact IH.
  - intros ->. revert at_. induction es as [|e es IH]; intros at_; cbn [fold_left]; [constructor|].
    unfold clean_step at 2. destruct (beq_spec e []) as [->|H1]; [apply wk_stay; auto|].
    destruct (beq_spec e (B ".")) as [->|H2]; [apply wk_stay; auto|].
    destruct (beq_spec e (B "..")) as [->|H3]; cbn [orb].
    + destruct at_ as [|a l] eqn:E using rev_ind; [apply wk_top; apply IH|].
      rewrite removelast_last. apply wk_up. apply IH.
    + apply wk_down; auto.
Qed.

Lemma split_unique c es : es <> [] -> Forall (fun e => ~ In c e) es -> split_on c (join_with [c] es) = es.
Proof.
  induction es as [|e es IH]; intros N F; [congruence|]. inversion F as [|? ? F1 F2]; subst.
  destruct es as [|e' es].
  - cbn. clear - F1. induction e as [|x e IH]; [reflexivity|]. cbn.
    destruct (ascii_dec x c) as [->|]; [exfalso; apply F1; left; reflexivity|].
    rewrite IH; [reflexivity|]. intros H; apply F1; right; exact H.
  - rewrite join_cons by discriminate. clear N F.
    assert (forall r, split_on c (e ++ [c] ++ r) = e :: split_on c r) as H.
    { intros r. clear - F1. induction e as [|x e IH]; cbn.
      - destruct (ascii_dec c c); [reflexivity|congruence].
      - destruct (ascii_dec x c) as [->|]; [exfalso; apply F1; left; reflexivity|].
        cbn in IH. rewrite IH; [reflexivity|]. intros H; apply F1; right; exact H. }
    rewrite H, IH; auto. discriminate.
Qed.

Lemma leads_clean p r : leads p r <-> r = clean_elems p.
Proof.
  unfold leads, clean_elems. split.
  - intros (es & N & F & <- & W). rewrite split_unique by assumption. apply walk_fold. exact W.
  - intros ->. destruct (split_on_spec slash p) as [F J]. exists (split_on slash p).
    split; [apply split_on_nonempty|]. split; [exact F|]. split; [exact J|]. apply walk_fold. reflexivity.
Qed.

Lemma rel_elems_spec base : forall targ,
  exists com b t, base = com ++ b /\ targ = com ++ t /\
    rel_elems base targ = repeat (B "..") (length b) ++ t /\
    (forall x y b' t', b = x :: b' -> t = y :: t' -> x <> y).
Proof.
  induction base as [|x base IH]; intros [|y targ].
  - exists [], [], []. split; [reflexivity|]. split; [reflexivity|]. split; [reflexivity|]. discriminate.
  - exists [], [], (y :: targ). split; [reflexivity|]. split; [reflexivity|]. split; [reflexivity|]. discriminate.
  - exists [], (x :: base), []. split; [reflexivity|]. split; [reflexivity|]. split; [reflexivity|]. discriminate.
  - cbn [rel_elems]. destruct (beq_spec x y) as [->|Hne].
    + destruct (IH targ) as (com & b & t & -> & -> & E & D). exists (y :: com), b, t. auto.
    + exists [], (x :: base), (y :: targ). split; [reflexivity|]. split; [reflexivity|]. split; [reflexivity|].
      intros x' y' b' t' [= <- _] [= <- _]. exact Hne.
Qed.

(** Elements a walk can end with. *)
Definition real_name (e : bytes) : Prop := e <> [] /\ e <> B "." /\ e <> B ".." .
Lemma clean_real es : forall at_, Forall real_name at_ -> Forall real_name (fold_left clean_step es at_).
Proof.
  induction es as [|e es IH]; intros at_ F; cbn; [exact F|]. apply IH. unfold clean_step.
  destruct (beq_spec e []); cbn [orb]; [exact F|]. destruct (beq_spec e (B ".")); [exact F|].
  destruct (beq_spec e (B "..")).
  - apply Forall_forall. intros x Hx. rewrite Forall_forall in F. apply F.
    destruct at_ as [|a l] eqn:E using rev_ind; [exact Hx|]. rewrite removelast_last in Hx. apply in_app_iff; auto.
  - apply Forall_app. split; [exact F|]. constructor; [|constructor]. split; auto.
Qed.

Lemma has_prefix_join p e es : e <> [] -> (length p <= length e)%nat ->
  has_prefix p (join_with [slash] (e :: es)) = has_prefix p e.
Proof.
  intros _ L. assert (exists r, join_with [slash] (e :: es) = e ++ r) as [r ->]
    by (destruct es; [exists []; cbn; rewrite app_nil_r; reflexivity|eexists; cbn; reflexivity]).
  revert e L; induction p as [|x p IH]; intros [|y e] L; cbn in *; try lia; auto.
  destruct (ascii_dec x y); [apply IH; lia|reflexivity].
Qed.

Lemma no_slash_split p : Forall (fun e => ~ In slash e) (clean_elems p).
Proof.
  unfold clean_elems. destruct (split_on_spec slash p) as [F _].
  assert (forall es at_, Forall (fun e => ~ In slash e) es -> Forall (fun e => ~ In slash e) at_ ->
    Forall (fun e => ~ In slash e) (fold_left clean_step es at_)) as H.
  { induction es as [|e es IH]; intros at_ F1 F2; cbn; [exact F2|]. inversion F1; subst. apply IH; auto.
    unfold clean_step. destruct (beq e [] || beq e (B ".")); [exact F2|]. destruct (beq e (B "..")).
    - apply Forall_forall. intros x Hx. rewrite Forall_forall in F2. apply F2.
      destruct at_ as [|a l] eqn:E using rev_ind; [exact Hx|]. rewrite removelast_last in Hx. apply in_app_iff; auto.
    - apply Forall_app; auto. }
  apply H; [exact F|constructor].
Qed.

(** The test answers yes exactly when the place the file path leads to is the
    directory's place or below it, and the name right below the directory does
    not begin with two dots. *)
Theorem C22_within_dir_exact : forall cwd file dir f d,
  leads (absolute cwd file) f -> leads (absolute cwd dir) d ->
  (file_within_dir cwd file dir = true <->
   exists rest, f = d ++ rest /\ (forall e es, rest = e :: es -> ~ exists r, e = B ".." ++ r)).
Proof.
  intros cwd file dir f d Hf Hd. apply leads_clean in Hf, Hd. subst f d.
  unfold file_within_dir, rel, abs_elems. fold (absolute cwd file) (absolute cwd dir).
  set (d := clean_elems (absolute cwd dir)). set (f := clean_elems (absolute cwd file)).
  assert (Forall real_name f) as Rf by (apply clean_real; constructor).
  assert (Forall real_name d) as Rd by (apply clean_real; constructor).
  clearbody d f.
  destruct (rel_elems_spec d f) as (com & b & t & -> & -> & E & D). rewrite E.
  apply Forall_app in Rf as [_ Rt].
  destruct b as [|x b].
  - cbn [length repeat app]. rewrite app_nil_r. destruct t as [|e es].
    + split; [intros _|reflexivity]. exists []. split; [reflexivity|discriminate].
    + inversion Rt as [|? ? (R1 & R2 & R3) Rt']; subst.
      assert (has_prefix (B "../") (join_with [slash] (e :: es)) = true ->
              has_prefix (B "..") (join_with [slash] (e :: es)) = true) as Imp.
      { rewrite !has_prefix_spec. intros [r ->]. exists (slash :: r). reflexivity. }
      assert (has_prefix (B "..") (join_with [slash] (e :: es)) = has_prefix (B "..") e) as Pe.
      { destruct (le_lt_dec 2 (length e)) as [L|L]; [apply has_prefix_join; [exact R1|exact L]|].
        destruct e as [|c [|c2 e]]; [congruence| |cbn in L; lia].
        destruct es as [|e2 es]; [reflexivity|]. cbn [join_with app has_prefix B list_ascii_of_string].
        destruct (ascii_dec "." c) as [<-|]; [|reflexivity]. exfalso; apply R2; reflexivity. }
      split.
      * intros H. exists (e :: es). split; [reflexivity|]. intros e' es' [= <- <-] [r Hr].
        apply negb_true_iff, orb_false_iff in H as [H _]. rewrite Pe in H.
        rewrite Hr, has_prefix_app in H. discriminate.
      * intros (rest & Er & H). apply app_inv_head in Er. subst rest.
        destruct (has_prefix (B "..") e) eqn:Ep.
        { exfalso. apply (H e es eq_refl). apply has_prefix_spec. exact Ep. }
        rewrite Pe. cbn [orb]. destruct (has_prefix (B "../") (join_with [slash] (e :: es))) eqn:Ep2; [|reflexivity].
        rewrite Pe in Imp. specialize (Imp eq_refl). congruence.
  - cbn [length repeat app]. assert (has_prefix (B "..") (join_with [slash] (B ".." :: repeat (B "..") (length b) ++ t)) = true) as ->.
    { rewrite has_prefix_join; [reflexivity|discriminate|cbn; lia]. }
    cbn [orb negb]. split; [discriminate|]. intros (rest & Er & _). exfalso.
    rewrite <- app_assoc in Er. apply app_inv_head in Er. subst t.
    apply (D x x b (b ++ rest)); reflexivity.
Qed.
Print Assumptions C22_within_dir_exact.

(** In particular it never says yes for a place outside the directory. *)
Theorem C22_never_yes_outside : forall cwd file dir f d,
  leads (absolute cwd file) f -> leads (absolute cwd dir) d ->
  file_within_dir cwd file dir = true -> exists rest, f = d ++ rest.
Proof.
  intros cwd file dir f d Hf Hd H. apply (C22_within_dir_exact _ _ _ _ _ Hf Hd) in H as (rest & E & _).
  exists rest; exact E.
Qed.
Print Assumptions C22_never_yes_outside.

(** A file below the directory for which it wrongly says no. *)
Theorem C22_dotdot_names_rejected_refuted : exists cwd file dir f d,
  leads (absolute cwd file) f /\ leads (absolute cwd dir) d /\ (exists rest, f = d ++ rest) /\
  file_within_dir cwd file dir = false.
Proof.
  exists (B "/"), (B "/home/..cache/x.go"), (B "/home"), [B "home"; B "..cache"; B "x.go"], [B "home"].
  split; [apply leads_clean; reflexivity|]. split; [apply leads_clean; reflexivity|].
  split; [exists [B "..cache"; B "x.go"]; reflexivity|reflexivity].
Qed.
Print Assumptions C22_dotdot_names_rejected_refuted.

Example C22_example :
  leads (absolute (B "/w") (B "sub/../x/./y.go")) [B "w"; B "x"; B "y.go"] /\
  leads (absolute (B "/w") (B "/w/x/")) [B "w"; B "x"] /\
  file_within_dir (B "/w") (B "sub/../x/./y.go") (B "/w/x/") = true /\
  file_within_dir (B "/w") (B "../xx") (B "/x") = false /\
  file_within_dir (B "/w") (B "/w/x/../../etc") (B "/w/x") = false.
Proof.
  split; [apply leads_clean; reflexivity|]. split; [apply leads_clean; reflexivity|].
  split; [reflexivity|]. split; reflexivity.
Qed.

(** ** C51: limiting a text to some of its lines *)

(** The first (or last) lines of the text, all of them when there are few
    enough; whatever is kept is whole lines of the text, in order. *)
Theorem C51_keeps_whole_lines : forall s ls count head,
  lines_of s ls -> (0 < count)%nat ->
  exists kept dropped, lines_of (limit_string_lines s count head) kept /\
    length kept = Nat.min count (length ls) /\
    ls = (if head then kept ++ dropped else dropped ++ kept).
Proof.
  intros s ls count head (N & F & J) Hc. unfold limit_string_lines.
  rewrite <- J, (split_unique nl ls N F).
  destruct (Nat.ltb_spec count (length ls)) as [H|H].
  - destruct head.
    + exists (firstn count ls), (skipn count ls). split; [|split; [rewrite firstn_length; reflexivity|symmetry; apply firstn_skipn]].
      split; [intros E; apply (f_equal (@length _)) in E; rewrite firstn_length in E; cbn in E; lia|].
      split; [|reflexivity]. rewrite <- (firstn_skipn count ls) in F. apply Forall_app in F as [F _]. exact F.
    + exists (skipn (length ls - count) ls), (firstn (length ls - count) ls).
      split; [|split; [rewrite skipn_length; lia|symmetry; apply firstn_skipn]].
      split; [intros E; apply (f_equal (@length _)) in E; rewrite skipn_length in E; cbn in E; lia|].
      split; [|reflexivity]. rewrite <- (firstn_skipn (length ls - count) ls) in F. apply Forall_app in F as [_ F]. exact F.
  - exists ls, []. split; [split; [exact N|split; [exact F|reflexivity]]|]. split; [lia|].
    destruct head; [symmetry; apply app_nil_r|reflexivity].
Qed.
Print Assumptions C51_keeps_whole_lines.

(** Every text has lines, and only one way of being cut into them. *)
Theorem C51_lines_unique : forall s, exists! ls, lines_of s ls.
Proof.
  intros s. destruct (split_on_spec nl s) as [F J]. exists (split_on nl s). split.
  - split; [apply split_on_nonempty|]. split; assumption.
  - intros ls (N & F' & <-). apply split_unique; assumption.
Qed.
Print Assumptions C51_lines_unique.

Example C51_example :
  let s := B "a" ++ [nl] ++ B "bc" ++ [nl] ++ [nl] in
  lines_of s [B "a"; B "bc"; []; []] /\ limit_string_lines s 2 false = [nl] /\
  limit_string_lines s 2 true = B "a" ++ [nl] ++ B "bc".
Proof.
  cbn zeta. split; [|split; reflexivity]. split; [discriminate|].
  split; [|reflexivity]. repeat constructor; cbn; intros H; decompose [or] H; auto; discriminate.
Qed.
