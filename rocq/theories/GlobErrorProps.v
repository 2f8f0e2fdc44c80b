(** C95: characters after a backslash, and what is no pattern. *)
From Verif Require Import Base Maps UtilModel WorkModel GlobModel GlobSpec GlobProofs.

(** A text with a backslash before each of its characters. *)
Definition escaped (s : bytes) : bytes := flat_map (fun c => ["\"%char; c]) s.
(** Characters and stars, and after a star an opening bracket that is the last character. *)
Definition open_end (p : bytes) : bytes := p ++ B "*[".

Section Errors.
Variable decode : bytes -> N * nat.

Lemma scan_escaped s : scan false (escaped s) = (escaped s, []).
Proof. induction s as [| c s IH]; [reflexivity |]. change (escaped (c :: s)) with ("\"%char :: c :: escaped s). cbn [scan]. change (Ascii.eqb "\" "\") with true. cbv iota. rewrite IH. reflexivity. Qed.
Lemma chunk_escaped s : forall fuel o, (length s < fuel)%nat -> chunk_match decode fuel (escaped s) o = Some (match o with Some n => strip s n | None => None end).
Proof.
  induction s as [| c s IH]; intros fuel o L; (destruct fuel as [| f]; [cbn in L; lia |]); [destruct o; reflexivity |].
  change (escaped (c :: s)) with ("\"%char :: c :: escaped s). cbn [chunk_match]. change (Ascii.eqb "\" "[") with false. change (Ascii.eqb "\" "?") with false. change (Ascii.eqb "\" "\") with true. cbv iota.
  rewrite IH by (cbn in L; lia). destruct o as [[| x n] |]; [reflexivity | | reflexivity]. cbn [eat strip]. destruct (Ascii.eqb x c); reflexivity.
Qed.
(** With a backslash before each of its characters a text stands for itself only, whatever its characters are. *)
Theorem C95_escaped : forall s n, exists b, matches decode (escaped s) n = Some b /\ (b = true <-> n = s).
Proof.
  intros s n. destruct s as [| c s]; [exists (none n); split; [reflexivity | apply none_iff] |].
  exists (match strip (c :: s) n with Some [] => true | _ => false end). split.
  - unfold matches. assert (Sk : skip_stars (escaped (c :: s)) = (false, escaped (c :: s))) by reflexivity.
    assert (Ca : chunk_at decode (escaped (c :: s)) n = Some (strip (c :: s) n)).
    { unfold chunk_at. apply (chunk_escaped (c :: s) _ (Some n)). clear. induction (c :: s) as [| d t IH]; [apply le_n |]. change (escaped (d :: t)) with ("\"%char :: d :: escaped t). cbn [length] in *. lia. }
    cbn [match_]. rewrite Sk, scan_escaped, Ca. change (escaped (c :: s)) with ("\"%char :: c :: escaped s). cbn [andb none negb orb].
    destruct (strip (c :: s) n) as [[| x t] |]; reflexivity.
  - destruct (strip (c :: s) n) as [t |] eqn:E.
    + apply strip_iff in E. subst n. destruct t; [rewrite app_nil_r; split; reflexivity |]. split; [discriminate |]. intros X. apply (f_equal (@length _)) in X. rewrite app_length in X. cbn in X. lia.
    + split; [discriminate |]. intros ->. pose proof (proj2 (strip_iff (c :: s) (c :: s) []) (eq_sym (app_nil_r _))) as X. congruence.
Qed.

(** A class has to have a first range that begins with a character of its own: none is a bracket or a dash. *)
Theorem C95_class_start : forall neg c rest n, In c (B "-]") ->
  matches decode ("["%char :: (if neg : bool then ["^"%char] else []) ++ c :: rest) n = None.
Proof.
  intros neg c rest n Hc. unfold matches.
  assert (Ch : forall a s, chunk_at decode ("["%char :: (if neg then ["^"%char] else []) ++ c :: a) s = None).
  { intros a s. unfold chunk_at. destruct Hc as [<- | [<- | []]]; destruct neg; destruct s as [| x t]; cbn [app length chunk_match]; try reflexivity; cbn -[skipn ranges]; destruct (decode (x :: t)) as [r n0]; reflexivity. }
  assert (Sc : exists a b, scan false ("["%char :: (if neg then ["^"%char] else []) ++ c :: rest) = ("["%char :: (if neg then ["^"%char] else []) ++ c :: a, b)).
  { destruct (scan (if Ascii.eqb c "]" then false else true) rest) as [a b] eqn:E. exists a, b.
    destruct Hc as [<- | [<- | []]]; destruct neg; cbn in E |- *; rewrite E; reflexivity. }
  destruct Sc as (a & b & Sc). remember ("["%char :: (if neg then ["^"%char] else []) ++ c :: rest) as p eqn:Ep.
  assert (Sk : skip_stars p = (false, p)) by (rewrite Ep; reflexivity).
  cbn [match_]. rewrite Sk, Sc, Ch. rewrite Ep. reflexivity.
Qed.

Lemma scan_open q : simple q -> scan false (q ++ B "*[") = (fst (scan false q), snd (scan false q) ++ B "*[") /\ simple (snd (scan false q)).
Proof.
  induction q as [| c q IH]; intros H; [split; [reflexivity | exact H] |]. destruct (IH (simple_tl _ _ H)) as [E Sq]. cbn [app scan].
  pose proof H as (_ & B0 & C). rewrite (eqb_no _ _ _ C), (eqb_no _ _ _ B0).
  destruct (Ascii.eqb_spec c "*") as [-> | N]; [cbn [andb negb]; split; [reflexivity | exact H] |]. cbn [andb].
  replace (if Ascii.eqb c "]" then false else false) with false by (destruct (Ascii.eqb c "]"); reflexivity). rewrite E. destruct (scan false q) as [a b]. split; [reflexivity | exact Sq].
Qed.
Lemma parts_open p : simple p -> exists c r, scan false (snd (skip_stars (open_end p))) = (c, r) /\ none c = false /\
  ((c = B "[" /\ r = []) \/ exists r', r = open_end r' /\ simple r').
Proof.
  unfold open_end. induction p as [| c p IH]; intros H; [exists (B "["), []; split; [reflexivity | split; [reflexivity | left; split; reflexivity]] |].
  cbn [app skip_stars]. destruct (Ascii.eqb_spec c "*") as [-> | N]; [cbn [snd]; apply IH, (simple_tl _ _ H) |]. cbn [snd].
  destruct (scan_open (c :: p) H) as [E Sq]. cbn [app] in E. rewrite E. do 2 eexists. split; [reflexivity |]. split; [| right; eexists; split; [reflexivity | exact Sq]].
  cbn [scan]. pose proof H as (_ & B0 & C). rewrite (eqb_no _ _ _ C). destruct (Ascii.eqb_spec c "*") as [-> |]; [congruence |]. cbn [andb]. destruct (scan _ p); reflexivity.
Qed.
Lemma bracket_bad s : chunk_at decode (B "[") s = None.
Proof. destruct s as [| x t]; [reflexivity |]. unfold chunk_at. cbn -[skipn]. destruct (decode (x :: t)). reflexivity. Qed.
Lemma open_end_some p : exists c t, open_end p = c :: t.
Proof. unfold open_end. destruct p; do 2 eexists; reflexivity. Qed.
Lemma well_open fuel : forall p, simple p -> well decode fuel (open_end p) = false.
Proof.
  induction fuel as [| f IH]; intros p H; [reflexivity |]. cbn [well]. destruct (parts_open p H) as (c & r & E & _ & Hr). destruct (open_end_some p) as (c0 & t0 & E0).
  rewrite E0 in *. cbv iota. rewrite E. destruct Hr as [[-> ->] | (r' & -> & Sr)]; [rewrite bracket_bad; reflexivity |]. rewrite (IH r' Sr). destruct (chunk_at decode c []); reflexivity.
Qed.
Lemma match_open fuel : forall p n, simple p -> match_ decode fuel (open_end p) n = None.
Proof.
  induction fuel as [| f IH]; intros p n H; [reflexivity |]. cbn [match_]. destruct (parts_open p H) as (c & r & E & Nc & Hr). destruct (open_end_some p) as (c0 & t0 & E0).
  rewrite E0 in *. cbv iota. destruct (skip_stars (c0 :: t0)) as [star p1]. cbn [snd] in E. rewrite E, Nc, andb_false_r.
  destruct Hr as [[-> ->] | (r' & -> & Sr)]; [rewrite bracket_bad; reflexivity |].
  assert (Rf : refuse decode (open_end r') = None) by (unfold refuse; rewrite (well_open _ r' Sr); reflexivity).
  destruct (chunk_at decode c n) as [o |]; [| reflexivity].
  match goal with |- match ?x with _ => _ end = None => destruct x as [t |] end; [apply (IH r' t Sr) |]. destruct star; [| exact Rf].
  destruct (seek decode c _ n) as [[t |] |]; [apply (IH r' t Sr) | exact Rf | reflexivity].
Qed.
(** An error at the end of a pattern is reported for every name, whether the part before it matches or not. *)
Theorem C95_error_seen : forall p n, simple p -> matches decode (open_end p) n = None.
Proof. intros p n H. apply match_open, H. Qed.
End Errors.
Print Assumptions C95_escaped.
Print Assumptions C95_class_start.
Print Assumptions C95_error_seen.

Example C95_error_example :
  escaped (B "a*[") = B "\a\*\[" /\ map (matches decode_ascii (escaped (B "a*["))) (map B ["a*["; "ab["; "\a\*\["]%string) = [Some true; Some false; Some false] /\
  matches decode_ascii (B "[]a]") (B "a") = None /\ matches decode_ascii (B "[^-a]") (B "b") = None /\
  map (matches decode_ascii (open_end (B "x*y"))) (map B ["xy"; "z"; ""]%string) = [None; None; None] /\ matches decode_ascii (B "x*y*") (B "z") = Some false.
Proof. vm_compute. repeat split; reflexivity. Qed.
