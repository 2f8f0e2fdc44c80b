(** Proofs about the storage model. *)

From Verif Require Import Base Maps StorageModel StorageSpec.
From Coq Require Import Permutation Sorted.

(** ** last_write *)

Lemma last_write_nil k : last_write k [] = None.
Proof. reflexivity. Qed.

Lemma last_write_snoc k h o :
  last_write k (h ++ [o]) =
  match o with
  | Save k' b => if bytes_eq_dec k' k then Some b else last_write k h
  | Delete k' => if bytes_eq_dec k' k then None else last_write k h
  | Clear => None
  end.
Proof. unfold last_write; rewrite rev_app_distr; destruct o; reflexivity. Qed.

Lemma last_write_saved k b h : last_write k h = Some b -> In (Save k b) h.
Proof.
  induction h as [|o h IH] using rev_ind; [discriminate|].
  rewrite last_write_snoc, in_app_iff. destruct o as [k' b'|k'|]; [| |discriminate].
  - destruct (bytes_eq_dec k' k) as [->|]; [intros [= ->]; right; left; reflexivity|auto].
  - destruct (bytes_eq_dec k' k); [discriminate|auto].
Qed.

Lemma last_write_ok kok bok k b h :
  Forall (op_ok kok bok) h -> last_write k h = Some b -> kok k /\ bok b.
Proof.
  intros H E. apply last_write_saved in E. rewrite Forall_forall in H. exact (H _ E).
Qed.

Lemma run_snoc {S} (st : storage S) h o s : run st (h ++ [o]) s = step st (run st h s) o.
Proof. unfold run; rewrite fold_left_app; reflexivity. Qed.

Lemma run_app {S} (st : storage S) h h' s : run st (h ++ h') s = run st h' (run st h s).
Proof. unfold run; rewrite fold_left_app; reflexivity. Qed.

(** ** The in-memory store *)

Lemma mem_run_inv ord h :
  mwf (run (mem_storage ord) h mem_new) /\
  forall k, mget k (run (mem_storage ord) h mem_new) = last_write k h.
Proof.
  induction h as [|o h [IH1 IH2]] using rev_ind; [split; [constructor|reflexivity]|].
  rewrite run_snoc. destruct o as [k' b|k'|]; cbn.
  - split; [apply mwf_mset; exact IH1|]. intros k. unfold mem_save.
    rewrite mget_mset, last_write_snoc, IH2.
    destruct (beq_spec k k') as [->|H]; destruct (bytes_eq_dec k' _); try congruence; auto.
  - split; [apply mwf_mdel; exact IH1|]. intros k. unfold mem_delete.
    rewrite mget_mdel, last_write_snoc, IH2.
    destruct (beq_spec k k') as [->|H]; destruct (bytes_eq_dec k' _); try congruence; auto.
  - split; [constructor|]. intros k. rewrite last_write_snoc; reflexivity.
Qed.

Lemma filter_NoDup {A} (f : A -> bool) l : NoDup l -> NoDup (filter f l).
Proof.
  induction 1 as [|x l Hx Hl IH]; cbn; [constructor|].
  destruct (f x); [|exact IH]. constructor; [|exact IH].
  rewrite filter_In; tauto.
Qed.

Lemma mem_map_store ord :
  any_order ord -> map_store (mem_storage ord) mem_new (fun _ => True) (fun _ => True).
Proof.
  intros Ho h _. destruct (mem_run_inv ord h) as [Hwf Hget]. split.
  - intros k _. cbn. unfold mem_load. rewrite Hget; reflexivity.
  - intros p. cbn. unfold mem_list, lists_exactly. split.
    + apply filter_NoDup. eapply Permutation_NoDup; [apply Permutation_sym, Ho|exact Hwf].
    + intros k. rewrite filter_In, has_prefix_spec, <- Hget, <- mget_keys.
      split; intros [H1 H2]; split; auto.
      * eapply Permutation_in; [apply Ho|exact H1].
      * eapply Permutation_in; [apply Permutation_sym, Ho|exact H2].
Qed.

(** ** Namespaced views *)

Lemma trim_prefix_app p k : trim_prefix p (p ++ k) = k.
Proof. unfold trim_prefix. rewrite has_prefix_app, skipn_app_exact; reflexivity. Qed.

Lemma app_semi_cases (p q : bytes) (c : byte) k1 k2 :
  p ++ c :: k1 = q ++ c :: k2 ->
  (exists r, q = p ++ c :: r) \/ (exists r, p = q ++ c :: r) \/ (p = q /\ k1 = k2).
Proof.
  revert q; induction p as [|x p IH]; intros [|y q] E; cbn in E.
  - injection E as ->; auto.
  - injection E as -> E. left; exists q; reflexivity.
  - injection E as -> E. right; left; exists p; reflexivity.
  - injection E as -> E. destruct (IH q E) as [[r ->]|[[r ->]|[-> ->]]].
    + left; exists r; reflexivity.
    + right; left; exists r; reflexivity.
    + right; right; auto.
Qed.

Definition vkey (p k : bytes) : bytes := (p ++ B ";") ++ k.

Lemma vkey_inj p k1 k2 : vkey p k1 = vkey p k2 -> k1 = k2.
Proof. apply app_inv_head. Qed.

Lemma separate_keys p q k1 k2 : separate p q -> vkey p k1 <> vkey q k2.
Proof.
  intros (_ & _ & Hne & H1 & H2) E. unfold vkey in E. rewrite <- !app_assoc in E. cbn in E.
  apply app_semi_cases in E as [[r Hr]|[[r Hr]|[-> _]]];
    [apply H1; exists r; exact Hr|apply H2; exists r; exact Hr|congruence].
Qed.

Lemma separate_sym p q : separate p q -> separate q p.
Proof. unfold separate; intuition congruence. Qed.

Section Views.
Context {S : Type} (st : storage S) (s0 : S) (kok bok : bytes -> Prop).
Hypothesis Hst : map_store st s0 kok bok.

(** The calls a view makes on the store below, for one call of its own. *)
Definition base_calls (p : bytes) (s : S) (o : op) : list op :=
  match o with
  | Save k b => [Save (vkey p k) b]
  | Delete k => [Delete (vkey p k)]
  | Clear => map Delete (sList st (p ++ B ";") s)
  end.

Lemma key_prefix_nonempty p : p <> [] -> key_prefix_storage st p = prefix_storage (p ++ B ";") st.
Proof. intros H; unfold key_prefix_storage. rewrite (proj2 (beq_false p []) H); reflexivity. Qed.

Lemma deletes_run l s : run st (map Delete l) s = fold_left (fun s k => sDelete st k s) l s.
Proof. unfold run. revert s; induction l as [|k l IH]; intros s; cbn; auto. Qed.

Lemma view_step p h o :
  p <> [] -> Forall (op_ok kok bok) h ->
  step (key_prefix_storage st p) (run st h s0) o =
  run st (h ++ base_calls p (run st h s0) o) s0.
Proof.
  intros Hp Hh. rewrite key_prefix_nonempty by exact Hp. rewrite run_app.
  destruct o as [k b|k|]; cbn [step base_calls]; [reflexivity|reflexivity|].
  cbn [prefix_storage sClear]. rewrite deletes_run, app_nil_r.
  destruct (Hst h Hh) as [_ HL]. destruct (HL (p ++ B ";")) as [_ Hin].
  generalize dependent (sList st (p ++ B ";") (run st h s0)). intros l Hin.
  assert (Forall (fun k => exists r, k = (p ++ B ";") ++ r) l) as F
    by (apply Forall_forall; intros k Hk; apply (Hin k); exact Hk).
  clear Hin. revert F. generalize (run st h s0).
  induction l as [|k l IH]; intros s F; [reflexivity|].
  inversion F as [|? ? [r ->] F']; subst. cbn. rewrite trim_prefix_app. apply IH; exact F'.
Qed.

Lemma last_write_deletes k l : forall h,
  last_write k (h ++ map Delete l) = if in_dec bytes_eq_dec k l then None else last_write k h.
Proof.
  induction l as [|x l IH] using rev_ind; intros h.
  - cbn. rewrite app_nil_r; reflexivity.
  - rewrite map_app, app_assoc. cbn [map]. rewrite last_write_snoc, IH.
    destruct (bytes_eq_dec x k) as [->|Hx].
    + destruct (in_dec bytes_eq_dec k (l ++ [k])) as [|n]; [reflexivity|].
      exfalso; apply n; apply in_app_iff; right; left; reflexivity.
    + destruct (in_dec bytes_eq_dec k l) as [i|n], (in_dec bytes_eq_dec k (l ++ [x])) as [i'|n'];
        try reflexivity; exfalso.
      * apply n'; apply in_app_iff; auto.
      * apply in_app_iff in i' as [i'|[->|[]]]; auto.
Qed.

(** Effect of the base calls of view [p] on its own keys and on other keys. *)
Lemma base_calls_own p h o k :
  Forall (op_ok kok bok) h ->
  last_write (vkey p k) (h ++ base_calls p (run st h s0) o) =
  match o with
  | Save k' b => if bytes_eq_dec k' k then Some b else last_write (vkey p k) h
  | Delete k' => if bytes_eq_dec k' k then None else last_write (vkey p k) h
  | Clear => None
  end.
Proof.
  intros Hh. destruct o as [k' b|k'|]; cbn [base_calls].
  - rewrite last_write_snoc.
    destruct (bytes_eq_dec (vkey p k') (vkey p k)) as [E|E], (bytes_eq_dec k' k) as [E'|E'];
      try congruence. apply vkey_inj in E; congruence.
  - rewrite last_write_snoc.
    destruct (bytes_eq_dec (vkey p k') (vkey p k)) as [E|E], (bytes_eq_dec k' k) as [E'|E'];
      try congruence. apply vkey_inj in E; congruence.
  - rewrite last_write_deletes.
    destruct (in_dec bytes_eq_dec (vkey p k) (sList st (p ++ B ";") (run st h s0))) as [i|n];
      [reflexivity|].
    destruct (last_write (vkey p k) h) eqn:E; [|reflexivity].
    exfalso; apply n. apply (proj2 (Hst h Hh)). split; [exists k; reflexivity|congruence].
Qed.

Lemma base_calls_other p h o x :
  Forall (op_ok kok bok) h -> (forall k, x <> vkey p k) ->
  last_write x (h ++ base_calls p (run st h s0) o) = last_write x h.
Proof.
  intros Hh Hx. destruct o as [k' b|k'|]; cbn [base_calls].
  - rewrite last_write_snoc.
    destruct (bytes_eq_dec (vkey p k') x) as [E|E]; [|reflexivity].
    exfalso; apply (Hx k'); auto.
  - rewrite last_write_snoc.
    destruct (bytes_eq_dec (vkey p k') x) as [E|E]; [|reflexivity].
    exfalso; apply (Hx k'); auto.
  - rewrite last_write_deletes.
    destruct (in_dec bytes_eq_dec x (sList st (p ++ B ";") (run st h s0))) as [i|n];
      [|reflexivity].
    apply (proj2 (Hst h Hh)) in i as [[r Hr] _]. exfalso; apply (Hx r); exact Hr.
Qed.

Lemma base_calls_ok p h o :
  Forall (op_ok kok bok) h -> op_ok (fun k => kok (vkey p k)) bok o ->
  Forall (op_ok kok bok) (h ++ base_calls p (run st h s0) o).
Proof.
  intros Hh Ho. apply Forall_app; split; [exact Hh|].
  destruct o as [k' b|k'|]; cbn [base_calls].
  - constructor; [exact Ho|constructor].
  - constructor; [exact Ho|constructor].
  - apply Forall_forall. intros o Hin. apply in_map_iff in Hin as (k & <- & Hk).
    apply (proj2 (Hst h Hh)) in Hk as [_ Hk]. cbn.
    destruct (last_write k h) as [b|] eqn:E; [|congruence].
    apply (last_write_ok kok bok k b h Hh E).
Qed.

Lemma only_snoc w h o :
  only w (h ++ [o]) = if Bool.eqb (fst o) w then only w h ++ [snd o] else only w h.
Proof.
  destruct o as [v o]. unfold only. rewrite filter_app, map_app. cbn.
  destruct (Bool.eqb v w); cbn; [reflexivity|apply app_nil_r].
Qed.

Definition ns (p q : bytes) (w : side) : bytes := if w then p else q.

Definition two_ok (p q : bytes) (h : list (side * op)) : Prop :=
  Forall (fun o => op_ok (fun k => kok (vkey (ns p q (fst o)) k)) bok (snd o)) h.

Lemma two_run_base p q h :
  separate p q -> two_ok p q h ->
  exists hb, Forall (op_ok kok bok) hb /\
    two_run (key_prefix_storage st p) (key_prefix_storage st q) h s0 = run st hb s0 /\
    (forall w k, last_write (vkey (ns p q w) k) hb = last_write k (only w h)) /\
    (forall x, (forall w k, x <> vkey (ns p q w) k) -> last_write x hb = None).
Proof.
  intros Hsep. induction h as [|[w o] h IH] using rev_ind; intros Hok.
  - exists []. split; [constructor|]. split; [reflexivity|]. split; reflexivity.
  - apply Forall_app in Hok as [Hok Ho]. inversion Ho as [|? ? Ho1 _]; subst. cbn in Ho1.
    destruct (IH Hok) as (hb & Hhb & Hrun & Hown & Hoth).
    exists (hb ++ base_calls (ns p q w) (run st hb s0) o).
    split; [apply base_calls_ok; assumption|].
    split.
    { unfold two_run. rewrite fold_left_app. cbn. fold (two_run (key_prefix_storage st p)
        (key_prefix_storage st q) h s0). rewrite Hrun. unfold two_step. cbn [fst snd].
      destruct Hsep as (Hp & Hq & _).
      destruct w; apply view_step; assumption. }
    split.
    + intros w' k. rewrite only_snoc. cbn [fst snd].
      destruct (Bool.eqb_spec w w') as [->|Hw].
      * rewrite base_calls_own by assumption. rewrite last_write_snoc, Hown. reflexivity.
      * rewrite base_calls_other; [apply Hown|assumption|].
        intros k' E. destruct w, w'; try congruence; cbn in E.
        -- exact (separate_keys _ _ _ _ Hsep (eq_sym E)).
        -- exact (separate_keys _ _ _ _ Hsep E).
    + intros x Hx. rewrite base_calls_other; [apply Hoth; assumption|assumption|].
      intros k; apply Hx.
Qed.

Lemma view_reads p q w h :
  separate p q -> two_ok p q h ->
  let s := two_run (key_prefix_storage st p) (key_prefix_storage st q) h s0 in
  (forall k, kok (vkey (ns p q w) k) ->
     sLoad (key_prefix_storage st (ns p q w)) k s = LOk (last_write k (only w h))) /\
  (forall pre, lists_exactly pre (only w h) (sList (key_prefix_storage st (ns p q w)) pre s)).
Proof.
  intros Hsep Hok s. subst s.
  destruct (two_run_base p q h Hsep Hok) as (hb & Hhb & -> & Hown & _).
  assert (ns p q w <> []) as Hne by (destruct Hsep as (? & ? & _), w; assumption).
  rewrite key_prefix_nonempty by exact Hne. generalize (Hown w); clear Hown.
  generalize dependent (ns p q w). intros n Hne Hown.
  destruct (Hst hb Hhb) as [HL HK]. split.
  - intros k Hk. cbn [prefix_storage sLoad]. rewrite <- Hown. apply HL. exact Hk.
  - intros pre. cbn [prefix_storage sList]. destruct (HK ((n ++ B ";") ++ pre)) as [HN HI]. split.
    + set (l := sList st ((n ++ B ";") ++ pre) (run st hb s0)) in *. clearbody l.
      assert (forall x, In x l -> exists r, x = vkey n r) as F.
      { intros x Hx. apply HI in Hx as [[r ->] _]. exists (pre ++ r). unfold vkey.
        rewrite !app_assoc; reflexivity. }
      clear HI. induction HN as [|x l Hx Hl IH]; cbn; [constructor|].
      constructor; [|apply IH; intros; apply F; right; assumption].
      intros Hin. apply in_map_iff in Hin as (y & Ey & Hy). apply Hx.
      destruct (F x (or_introl eq_refl)) as [r ->]. destruct (F y (or_intror Hy)) as [r' ->].
      unfold vkey in Ey. rewrite !trim_prefix_app in Ey. subst. exact Hy.
    + intros k. rewrite in_map_iff. split.
      * intros (x & Ex & Hx). apply HI in Hx as [[r ->] Hl].
        rewrite <- app_assoc in Ex, Hl. rewrite trim_prefix_app in Ex. subst k.
        split; [exists r; reflexivity|]. rewrite <- Hown. exact Hl.
      * intros [[r ->] Hl]. exists ((n ++ B ";") ++ pre ++ r).
        split; [apply trim_prefix_app|]. apply HI. split; [exists r; rewrite app_assoc; reflexivity|].
        rewrite <- Hown in Hl. exact Hl.
Qed.

(** A single view is itself a map store, and touches nothing outside. *)
Lemma only_all h : only true (map (pair true) h) = h.
Proof. unfold only. induction h as [|o h IH]; cbn; [reflexivity|]. f_equal; exact IH. Qed.

Lemma two_run_left a b h s : two_run a b (map (pair true) h) s = run (S:=S) a h s.
Proof.
  unfold two_run, run. revert s; induction h as [|o h IH]; intros s; cbn; [reflexivity|apply IH].
Qed.

Lemma separate_exists p : p <> [] -> exists q, separate p q.
Proof.
  intros Hp. destruct p as [|c p]; [congruence|].
  exists (if ascii_dec c "0" then B "1" else B "0").
  assert (forall u v w : bytes, length u = 1%nat -> u = v ++ B ";" ++ w -> v = []) as L.
  { intros u v w Hu Hv. subst u. rewrite !app_length in Hu. cbn in Hu. destruct v; [reflexivity|cbn in Hu; lia]. }
  destruct (ascii_dec c "0") as [->|Hc]; repeat split; try discriminate; try congruence.
  - intros [r Hr]. apply L in Hr; [discriminate|reflexivity].
  - intros [r Hr]. discriminate.
  - intros [= E _]; congruence.
  - intros [r Hr]. apply L in Hr; [discriminate|reflexivity].
  - intros [r Hr]. injection Hr as E _; congruence.
Qed.

Lemma view_map_store p :
  p <> [] -> map_store (key_prefix_storage st p) s0 (fun k => kok (vkey p k)) bok.
Proof.
  intros Hp h Hh. destruct (separate_exists p Hp) as [q Hq].
  assert (two_ok p q (map (pair true) h)) as Hok.
  { unfold two_ok. apply Forall_forall. intros o Ho. apply in_map_iff in Ho as (x & <- & Hx).
    cbn. rewrite Forall_forall in Hh. apply Hh; exact Hx. }
  pose proof (view_reads p q true _ Hq Hok) as V. cbn zeta in V.
  rewrite only_all, two_run_left in V. exact V.
Qed.

End Views.

(** ** Parsing of the split marker *)

Lemma is_digit_range c : is_digit c = true <-> (48 <= N_of_ascii c <= 57)%N.
Proof. unfold is_digit. rewrite andb_true_iff, !N.leb_le; tauto. Qed.

Lemma take_digits_spec s d r :
  take_digits s = (d, r) ->
  s = d ++ r /\ Forall (fun c => is_digit c = true) d /\
  match r with [] => True | c :: _ => is_digit c = false end.
Proof.
  revert d r; induction s as [|c s IH]; intros d r; cbn.
  - intros [= <- <-]; auto.
  - destruct (is_digit c) eqn:E.
    + destruct (take_digits s) as [d' r'] eqn:E'. intros [= <- <-].
      destruct (IH d' r' eq_refl) as (-> & H2 & H3). cbn; auto.
    + intros [= <- <-]; auto.
Qed.

Lemma take_digits_app d r :
  Forall (fun c => is_digit c = true) d ->
  match r with [] => True | c :: _ => is_digit c = false end ->
  take_digits (d ++ r) = (d, r).
Proof.
  intros H1 H2. induction H1 as [|c d Hc Hd IH]; cbn.
  - destruct r as [|c r]; cbn; [reflexivity|]. rewrite H2; reflexivity.
  - rewrite Hc, IH; reflexivity.
Qed.

Lemma split_match_some v a b c :
  split_match v = Some (a, b, c) ->
  a <> [] /\ b <> [] /\ c <> [] /\
  Forall (fun x => is_digit x = true) a /\ Forall (fun x => is_digit x = true) b /\
  Forall (fun x => is_digit x = true) c /\
  v = split_prefix ++ a ++ B ":" ++ b ++ B ":" ++ c.
Proof.
  unfold split_match. destruct (has_prefix split_prefix v) eqn:E; [|discriminate].
  apply has_prefix_spec in E as [s ->]. rewrite skipn_app_exact.
  destruct (take_digits s) as [a' s1] eqn:E1. apply take_digits_spec in E1 as (-> & Ha & _).
  destruct s1 as [|x1 s1]; [discriminate|]. destruct (ascii_dec x1 ":") as [->|]; [|discriminate].
  destruct (take_digits s1) as [b' s2] eqn:E2. apply take_digits_spec in E2 as (-> & Hb & _).
  destruct s2 as [|x2 s2]; [discriminate|]. destruct (ascii_dec x2 ":") as [->|]; [|discriminate].
  destruct (take_digits s2) as [c' s3] eqn:E3. apply take_digits_spec in E3 as (-> & Hc & _).
  destruct a', b', c', s3; try discriminate. intros [= <- <- <-].
  repeat split; try discriminate; auto. rewrite app_nil_r. reflexivity.
Qed.

Lemma split_match_marker a b c :
  a <> [] -> b <> [] -> c <> [] ->
  Forall (fun x => is_digit x = true) a -> Forall (fun x => is_digit x = true) b ->
  Forall (fun x => is_digit x = true) c ->
  split_match (split_prefix ++ a ++ B ":" ++ b ++ B ":" ++ c) = Some (a, b, c).
Proof.
  intros Na Nb Nc Ha Hb Hc. unfold split_match.
  rewrite has_prefix_app, skipn_app_exact. change (B ":") with [":"%char]. cbn [app].
  rewrite take_digits_app by (auto; reflexivity).
  destruct (ascii_dec ":" ":"); [|congruence].
  rewrite take_digits_app by (auto; reflexivity).
  destruct (ascii_dec ":" ":"); [|congruence].
  pose proof (take_digits_app c [] Hc I) as Ec. rewrite app_nil_r in Ec. rewrite Ec.
  destruct a; [congruence|]. destruct b; [congruence|]. destruct c; [congruence|]. reflexivity.
Qed.

Lemma looks_like_marker_iff v : looks_like_marker v <-> split_match v <> None.
Proof.
  split.
  - intros (a & b & c & (Na & Nb & Nc) & Hd & ->).
    change (B "badger_split:") with split_prefix.
    rewrite split_match_marker; auto; try discriminate;
      apply Forall_forall; intros x Hx; apply is_digit_range, Hd; rewrite !in_app_iff; auto.
  - destruct (split_match v) as [[[a b] c]|] eqn:E; [|congruence]. intros _.
    apply split_match_some in E as (Na & Nb & Nc & Ha & Hb & Hc & ->).
    exists a, b, c. repeat split; auto.
    all: rewrite !in_app_iff in H; rewrite Forall_forall in Ha, Hb, Hc;
      apply is_digit_range; destruct H as [H|[H|H]]; auto.
Qed.

Lemma split_match_of_marker p s o :
  split_match (marker p s o) = Some (itoa p, itoa s, itoa o).
Proof.
  apply split_match_marker; try apply itoa_nonempty; apply itoa_digits.
Qed.

Lemma atoi_int_itoa n : (n < 2 ^ 63)%N -> atoi_int (itoa n) = Some n.
Proof.
  intros H. unfold atoi_int. rewrite atoi_itoa.
  rewrite (proj2 (N.ltb_lt _ _) H); reflexivity.
Qed.

Lemma atoi_unchecked_itoa n : (n < 2 ^ 63)%N -> atoi_unchecked (itoa n) = n.
Proof. intros H. unfold atoi_unchecked. rewrite atoi_int_itoa by exact H. reflexivity. Qed.

(** ** Part keys are unambiguous and disjoint from ordinary keys *)

Lemma part_key_inj k1 i1 k2 i2 : part_key k1 i1 = part_key k2 i2 -> k1 = k2 /\ i1 = i2.
Proof.
  unfold part_key. intros E. apply app_inv_head in E.
  apply (f_equal (@rev ascii)) in E. rewrite !rev_app_distr in E.
  change (rev (B "-")) with ["-"%char] in E. rewrite <- !app_assoc in E. cbn [app] in E.
  apply digits_cut in E as (E1 & _ & E2); try reflexivity;
    try (apply Forall_rev, itoa_digits).
  apply (f_equal (@rev ascii)) in E1, E2. rewrite !rev_involutive in E1, E2.
  split; [exact E2|apply itoa_inj; exact E1].
Qed.

Lemma ordinary_not_part k k' i : ordinary_key k -> k <> part_key k' i.
Proof. intros [_ H] ->. apply H. eexists. reflexivity. Qed.

Lemma ordinary_prefix k : ordinary_key k -> has_prefix split_prefix k = false.
Proof.
  intros [_ H]. destruct (has_prefix split_prefix k) eqn:E; [|reflexivity].
  apply has_prefix_spec in E. exfalso; apply H; exact E.
Qed.

(** ** Split arithmetic *)

Lemma num_parts_least limit len :
  (0 < limit)%N -> least_pieces limit len (num_parts limit len).
Proof.
  intros Hl. unfold least_pieces, num_parts.
  pose proof (N.div_mod len limit ltac:(lia)) as D.
  pose proof (N.mod_upper_bound len limit ltac:(lia)) as M.
  set (q := (len / limit)%N) in *. set (r := (len mod limit)%N) in *. clearbody q r.
  destruct (N.eqb_spec r 0) as [Hr|Hr].
  - split; [rewrite N.mul_comm; lia|]. intros n Hn.
    apply (N.mul_le_mono_pos_r _ _ limit Hl). lia.
  - split; [rewrite N.mul_add_distr_r; lia|]. intros n Hn.
    destruct (N.lt_ge_cases q n) as [|Hge]; [lia|].
    pose proof (N.mul_le_mono_r n q limit Hge). lia.
Qed.

Lemma num_parts_pos limit len : (0 < limit)%N -> (0 < len)%N -> (0 < num_parts limit len)%N.
Proof.
  intros Hl Hn. destruct (num_parts_least limit len Hl) as [H _].
  destruct (N.eq_dec (num_parts limit len) 0) as [E|]; [rewrite E in H; lia|lia].
Qed.

Lemma num_parts_le limit len : (0 < limit)%N -> (num_parts limit len <= len)%N.
Proof.
  intros Hl. destruct (num_parts_least limit len Hl) as [_ H]. apply H.
  pose proof (N.mul_le_mono_l 1 limit len ltac:(lia)). lia.
Qed.

Lemma num_parts_prev limit len :
  (0 < limit)%N -> (0 < len)%N -> ((num_parts limit len - 1) * limit < len)%N.
Proof.
  intros Hl Hn. destruct (num_parts_least limit len Hl) as [_ H].
  pose proof (num_parts_pos limit len Hl Hn).
  destruct (N.lt_ge_cases ((num_parts limit len - 1) * limit) len) as [|Hge]; [assumption|].
  apply H in Hge. lia.
Qed.

(** Sum of the sizes of parts [i .. i+n-1]. *)
Fixpoint sizes_sum (base rem i : N) (n : nat) : N :=
  match n with
  | O => 0
  | S n' => part_size base rem i + sizes_sum base rem (i + 1) n'
  end%N.

Lemma sizes_sum_closed base rem n : forall i,
  sizes_sum base rem i n =
  (N.of_nat n * base + (N.min rem (i + N.of_nat n) - N.min rem i))%N.
Proof.
  induction n as [|n IH]; intros i; cbn [sizes_sum]; [lia|].
  rewrite IH. unfold part_size. rewrite Nat2N.inj_succ, N.mul_succ_l.
  set (nb := (N.of_nat n * base)%N). clearbody nb.
  destruct (N.ltb_spec i rem); lia.
Qed.

Lemma sizes_sum_total len parts :
  (0 < parts)%N -> sizes_sum (len / parts) (len mod parts) 0 (N.to_nat parts) = len.
Proof.
  intros Hp. rewrite sizes_sum_closed, N2Nat.id.
  pose proof (N.div_mod len parts ltac:(lia)) as D.
  pose proof (N.mod_upper_bound len parts ltac:(lia)) as M.
  set (q := (len / parts)%N) in *. set (r := (len mod parts)%N) in *.
  set (pq := (parts * q)%N) in *. clearbody pq r. lia.
Qed.

Lemma part_size_bounds limit len i :
  (0 < limit)%N -> (0 < len)%N ->
  let parts := num_parts limit len in
  (1 <= part_size (len / parts) (len mod parts) i <= limit)%N.
Proof.
  intros Hl Hn parts.
  pose proof (num_parts_pos limit len Hl Hn) as Hp. fold parts in Hp.
  pose proof (num_parts_le limit len Hl) as Hle. fold parts in Hle.
  destruct (num_parts_least limit len Hl) as [Hcov _]. fold parts in Hcov.
  pose proof (N.div_mod len parts ltac:(lia)) as D.
  pose proof (N.mod_upper_bound len parts ltac:(lia)) as M.
  assert (1 <= len / parts)%N as H1.
  { apply N.div_le_lower_bound; lia. }
  unfold part_size.
  set (q := (len / parts)%N) in *. set (r := (len mod parts)%N) in *. clearbody q r parts.
  destruct (N.ltb_spec i r) as [Hi|Hi].
  - split; [lia|]. destruct (N.lt_ge_cases q limit) as [|Hge]; [lia|].
    pose proof (N.mul_le_mono_l limit q parts Hge). lia.
  - split; [lia|]. apply (N.mul_le_mono_pos_l _ _ parts Hp). lia.
Qed.

(** ** The writes of a save *)

Lemma part_writes_length key blob base rem n : forall i off,
  length (part_writes key blob base rem i n off) = n.
Proof. induction n as [|n IH]; intros; cbn; auto. Qed.

Lemma skipn_skipn' {A} (n m : nat) (l : list A) : skipn n (skipn m l) = skipn (m + n) l.
Proof.
  revert l; induction m as [|m IH]; intros l; cbn; [reflexivity|].
  destruct l; [destruct n; reflexivity|apply IH].
Qed.

Lemma part_writes_join key blob base rem n : forall i off,
  concat (map snd (part_writes key blob base rem i n off)) =
  firstn (N.to_nat (sizes_sum base rem i n)) (skipn off blob).
Proof.
  induction n as [|n IH]; intros i off; cbn [part_writes map concat snd sizes_sum]; [reflexivity|].
  rewrite IH, N2Nat.inj_add, <- skipn_skipn'.
  set (a := N.to_nat (part_size base rem i)). set (b := N.to_nat (sizes_sum base rem (i + 1) n)).
  set (l := skipn off blob). clearbody a b l.
  rewrite <- (firstn_skipn a l) at 3. rewrite firstn_app.
  rewrite firstn_length. destruct (Nat.le_gt_cases a (length l)) as [Hl|Hl].
  - rewrite Nat.min_l by exact Hl. replace (a + b - a)%nat with b by lia.
    f_equal. symmetry. apply firstn_all2. rewrite firstn_length; lia.
  - rewrite skipn_all2 by lia. rewrite !firstn_nil, !app_nil_r.
    rewrite (firstn_all2 (n:=a)) by lia. symmetry; apply firstn_all2. lia.
Qed.

Lemma part_writes_nth key blob base rem n : forall i off j w,
  nth_error (part_writes key blob base rem i n off) j = Some w ->
  fst w = part_key key (i + N.of_nat j) /\
  exists off', snd w = firstn (N.to_nat (part_size base rem (i + N.of_nat j))) (skipn off' blob) /\
    off' = (off + N.to_nat (sizes_sum base rem i j))%nat.
Proof.
  induction n as [|n IH]; intros i off j w E; [destruct j; discriminate|].
  destruct j as [|j]; cbn in E.
  - injection E as <-. rewrite N.add_0_r. cbn [fst snd]. split; [reflexivity|].
    exists off. split; [reflexivity|cbn; lia].
  - apply IH in E as (E1 & off' & E2 & E3).
    replace (i + 1 + N.of_nat j)%N with (i + N.of_nat (S j))%N in * by lia.
    split; [exact E1|]. exists off'. split; [exact E2|]. cbn [sizes_sum]. lia.
Qed.

Lemma sizes_sum_le base rem i n m :
  (n <= m)%nat -> (sizes_sum base rem i n <= sizes_sum base rem i m)%N.
Proof.
  intros H. rewrite !sizes_sum_closed.
  pose proof (N.mul_le_mono_r (N.of_nat n) (N.of_nat m) base ltac:(lia)). lia.
Qed.

Lemma sizes_sum_S base rem i n :
  sizes_sum base rem i (S n) = (sizes_sum base rem i n + part_size base rem (i + N.of_nat n))%N.
Proof.
  revert i; induction n as [|n IH]; intros i.
  - cbn [sizes_sum]. change (N.of_nat 0) with 0%N. rewrite !N.add_0_r. reflexivity.
  - change (sizes_sum base rem i (S (S n)))
      with (part_size base rem i + sizes_sum base rem (i + 1) (S n))%N.
    rewrite IH. cbn [sizes_sum].
    replace (i + 1 + N.of_nat n)%N with (i + N.of_nat (S n))%N by lia. lia.
Qed.

(** Lengths of the pieces: exactly the computed sizes, so no slice bound is
    exceeded. *)
Lemma piece_length key blob parts j w :
  (0 < parts)%N ->
  let len := blen blob in
  nth_error (part_writes key blob (len / parts) (len mod parts) 0 (N.to_nat parts) 0) j = Some w ->
  N.of_nat (length (snd w)) = part_size (len / parts) (len mod parts) (N.of_nat j) /\
  fst w = part_key key (N.of_nat j).
Proof.
  intros Hp len E.
  assert (j < N.to_nat parts)%nat as Hj.
  { rewrite <- (part_writes_length key blob (len / parts) (len mod parts) (N.to_nat parts) 0 0).
    apply nth_error_Some; congruence. }
  apply part_writes_nth in E as (E1 & off' & E2 & E3). rewrite N.add_0_l in *.
  split; [|exact E1]. rewrite E2, firstn_length, skipn_length.
  pose proof (sizes_sum_le (len / parts) (len mod parts) 0 (S j) (N.to_nat parts) ltac:(lia)) as H.
  rewrite sizes_sum_total in H by exact Hp. rewrite sizes_sum_S, N.add_0_l in H.
  cbn in E3. unfold len, blen in *. lia.
Qed.
