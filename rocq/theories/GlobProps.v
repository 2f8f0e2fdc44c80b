(** C95: the file name patterns given to filepath.Glob. *)
From Verif Require Import Base Maps UtilModel UtilProps WorkModel WorkSpec WorkProofs FsModel ModifierModel GlobModel GlobSpec GlobProofs.

(** Match on patterns of characters and stars: never an error, and exactly the names the pattern stands for. *)
Theorem C95_match : forall decode p n, simple p -> ~ In slash n -> exists b, matches decode p n = Some b /\ (b = true <-> like p n).
Proof. exact matches_simple. Qed.
Print Assumptions C95_match.

(** Glob on an absolute path with stars: exactly the paths that match element by element and are there. *)
Theorem C95_glob : forall decode there names, consistent there names -> forall limit es,
  Forall entry_name es -> Forall simple es -> (length es < limit)%nat ->
  exists l, glob decode there names limit (text_of es) = Some l /\
  forall q, In q l <-> exists xs, q = text_of xs /\ Forall2 like es xs /\ Forall entry_name xs /\ there q = true.
Proof. intros decode there names W limit es. exact (glob_simple decode there names W limit es). Qed.
Print Assumptions C95_glob.

(** ** The client of a package *)
Lemma client_name n : like (B "xx_lens_*_gen.go") n <-> exists x, ~ In slash x /\ n = B "xx_lens_" ++ x ++ B "_gen.go".
Proof.
  change (B "xx_lens_*_gen.go") with (B "xx_lens_" ++ "*"%char :: B "_gen.go").
  assert (H1 : ~ In "*"%char (B "xx_lens_")) by (intros H; repeat (destruct H as [H | H]; [discriminate H |]); exact H).
  assert (H2 : plain (B "_gen.go")) by (apply magical_iff; reflexivity).
  rewrite like_app by exact H1. split.
  - intros (t & -> & K). destruct (like_star_inv _ _ K) as (a & m & -> & Ha & Km). apply like_plain in Km; [| exact H2]. subst m. eauto.
  - intros (x & Hx & ->). exists (x ++ B "_gen.go"). split; [reflexivity |]. apply lk_star; [exact Hx |]. apply like_plain; auto.
Qed.
Lemma abs_snoc es n : es <> [] -> abs_of (es ++ [n]) = abs_of es ++ [slash] ++ n.
Proof.
  intros He. unfold abs_of. cbn [app]. f_equal. induction es as [| e es IH]; [congruence |]. destruct es as [| x es]; [reflexivity |].
  change ((e :: x :: es) ++ [n]) with (e :: (x :: es) ++ [n]). rewrite (join_cons _ e ((x :: es) ++ [n])) by discriminate.
  rewrite (join_cons _ e (x :: es)) by discriminate. rewrite IH by discriminate. rewrite <- app_assoc. reflexivity.
Qed.
(** In a directory whose path has no special characters the pattern finds what C37 takes it to find: a file of this
    directory with such a name. *)
Theorem C95_client : forall decode there names (f : fsys), consistent there names -> (forall q, there q = true <-> f q <> None) ->
  forall limit es, es <> [] -> Forall entry_name es -> Forall plain es -> (S (length es) < limit)%nat ->
  (has_client decode there names limit (text_of es) = true <-> exists q, glob_match (text_of es) q /\ f q <> None).
Proof.
  intros decode there names f W Hf limit es Ne He Hp L. unfold has_client.
  assert (Hn : entry_name (B "xx_lens_*_gen.go")).
  { split; [repeat split; discriminate |]. intros H; repeat (destruct H as [H | H]; [discriminate H |]); exact H. }
  assert (Hs : simple (B "xx_lens_*_gen.go")).
  { repeat split; intros H; repeat (destruct H as [H | H]; [discriminate H |]); exact H. }
  rewrite text_abs, join2_entry by assumption.
  destruct (glob_simple decode there names W limit (es ++ [B "xx_lens_*_gen.go"])) as (l & El & Q).
  { apply Forall_app; auto. } { apply Forall_app. split; [eapply Forall_impl; [| exact Hp]; intros a Ha; apply Ha | auto]. }
  { rewrite app_length. cbn [length]. lia. }
  rewrite El. transitivity (exists q, In q l); [destruct l as [| q l]; split; [discriminate | intros (? & []) | intros _; exists q; left; reflexivity | reflexivity] |].
  split.
  - intros (q & I0). apply Q in I0. destruct I0 as (xs & -> & F & Hx & T). apply Forall2_snoc in F. destruct F as (m & y & -> & F & K).
    apply likes_plain in F; [| exact Hp]. subst m. apply client_name in K. destruct K as (x & Hsx & ->).
    exists (abs_of (es ++ [B "xx_lens_" ++ x ++ B "_gen.go"])). split; [| apply Hf; exact T]. exists x. split; [exact Hsx |]. apply abs_snoc. exact Ne.
  - intros (q & (x & Hsx & ->) & T). exists (abs_of (es ++ [B "xx_lens_" ++ x ++ B "_gen.go"])). apply Q.
    exists (es ++ [B "xx_lens_" ++ x ++ B "_gen.go"]). split; [reflexivity |].
    assert (Hy : entry_name (B "xx_lens_" ++ x ++ B "_gen.go")).
    { split; [repeat split; discriminate |]. rewrite !in_app_iff. intros [H | [H | H]]; [| exact (Hsx H) |];
        repeat (destruct H as [H | H]; [discriminate H |]); exact H. }
    split; [apply Forall2_snoc; do 2 eexists; split; [reflexivity |]; split; [apply likes_plain; auto | apply client_name; eauto] |].
    split; [apply Forall_app; auto |]. apply Hf. rewrite abs_snoc by exact Ne. exact T.
Qed.
Print Assumptions C95_client.

(** ** Directories with an opening bracket only *)
Lemma scan_plain a q : plain a -> scan false (a ++ q) = let (x, y) := scan false q in (a ++ x, y).
Proof.
  induction a as [| c a IH]; intros [S0 N0]; [cbn [app]; destruct (scan false q); reflexivity |].
  assert (Pa : plain a) by (split; [exact (simple_tl _ _ S0) | intros H; apply N0; right; exact H]).
  destruct S0 as (Q1 & Q2 & Q3). cbn [app scan].
  rewrite (eqb_no c "\"%char a Q3), (eqb_no c "*"%char a N0), (eqb_no c "["%char a Q2). cbn [andb].
  assert (E : (if Ascii.eqb c "]" then false else false) = false) by (destruct (Ascii.eqb c "]"); reflexivity).
  rewrite E, (IH Pa). destruct (scan false q). reflexivity.
Qed.
Lemma scan_open n : forall b, (length b <= n)%nat -> ~ In "]"%char b -> scan true b = (b, []).
Proof.
  induction n as [| n IH]; intros b L H; [destruct b; [reflexivity | cbn in L; lia] |]. destruct b as [| c b]; [reflexivity |]. cbn [length] in L. cbn [scan].
  destruct (Ascii.eqb c "\").
  - destruct b as [| d b]; [reflexivity |]. cbn [length] in L. rewrite IH; [reflexivity | lia |]. intros K. apply H. right. right. exact K.
  - rewrite Bool.andb_false_r, (eqb_no c "]"%char b H).
    assert (E : (if Ascii.eqb c "[" then true else true) = true) by (destruct (Ascii.eqb c "["); reflexivity).
    rewrite E, IH; [reflexivity | lia |]. intros K. apply H. right. exact K.
Qed.
Lemma esc_within decode ch r rest : get_esc decode ch = Some (r, rest) -> forall x, In x rest -> In x ch.
Proof.
  unfold get_esc. destruct ch as [| c ch]; [discriminate |]. destruct (Ascii.eqb c "-" || Ascii.eqb c "]")%bool; [discriminate |].
  assert (K : forall ch1, (forall x, In x ch1 -> In x (c :: ch)) ->
    match ch1 with [] => None | d :: l => let (r0, n) := decode (d :: l) in if (N.eqb r0 65533 && Nat.eqb n 1)%bool then None
      else match skipn n (d :: l) with [] => None | rest0 => Some (r0, rest0) end end = Some (r, rest) -> forall x, In x rest -> In x (c :: ch)).
  { intros [| d l] Hs E x Hx; [discriminate |]. destruct (decode (d :: l)) as [r0 n]. destruct (N.eqb r0 65533 && Nat.eqb n 1)%bool; [discriminate |].
    destruct (skipn n (d :: l)) as [| y l'] eqn:Es; [discriminate |]. apply Hs. injection E as _ <-.
    rewrite <- (firstn_skipn n (d :: l)), Es. apply in_app_iff. right. exact Hx. }
  intros E x Hx. destruct (Ascii.eqb c "\"); [apply (K ch (fun y Hy => or_intror Hy) E x Hx) | apply (K (c :: ch) (fun y Hy => Hy) E x Hx)].
Qed.
Lemma ranges_open decode fuel : forall r ch some hit, ~ In "]"%char ch -> ranges decode fuel r ch some hit = None.
Proof.
  induction fuel as [| fuel IH]; intros r ch some hit H; [reflexivity |]. cbn [ranges].
  match goal with |- match ?x with _ => _ end = None => assert (E : x = None) end.
  { destruct some; [| reflexivity]. destruct ch as [| c ch0]; [reflexivity |]. rewrite (eqb_no c "]"%char ch0 H). reflexivity. }
  rewrite E. destruct (get_esc decode ch) as [[lo ch1] |] eqn:E1; [| reflexivity]. destruct ch1 as [| c ch2]; [reflexivity |].
  assert (H1 : ~ In "]"%char (c :: ch2)) by (intros K; apply H; exact (esc_within _ _ _ _ E1 _ K)).
  destruct (Ascii.eqb c "-"); [| apply IH; exact H1].
  destruct (get_esc decode ch2) as [[hi ch3] |] eqn:E2; [| reflexivity]. apply IH. intros K. apply H1. right. exact (esc_within _ _ _ _ E2 _ K).
Qed.
Lemma chunk_open decode a b : plain a -> ~ In "]"%char b -> forall fuel s, chunk_match decode fuel (a ++ "["%char :: b) s = None.
Proof.
  intros Pa Hb. induction a as [| c a IH]; intros [| fuel] s; try reflexivity; cbn [app chunk_match].
  - rewrite Ascii.eqb_refl. destruct (match s with Some (x :: t) => let (r, n) := decode (x :: t) in (r, Some (skipn n (x :: t))) | _ => (0%N, None) end) as [r s1].
    destruct b as [| d b]; [rewrite ranges_open by exact Hb; reflexivity |].
    destruct (Ascii.eqb d "^"); rewrite ranges_open; try reflexivity; [intros K; apply Hb; right; exact K | exact Hb].
  - destruct Pa as [S0 N0]. assert (P' : plain a) by (split; [exact (simple_tl _ _ S0) | intros H; apply N0; right; exact H]).
    destruct S0 as (Q1 & Q2 & Q3). rewrite (eqb_no c "["%char a Q2), (eqb_no c "?"%char a Q1), (eqb_no c "\"%char a Q3). apply (IH P').
Qed.
Lemma matches_open decode a b n : plain a -> ~ In "]"%char b -> matches decode (a ++ "["%char :: b) n = None.
Proof.
  intros Pa Hb. unfold matches. cbn [match_].
  assert (Es : skip_stars (a ++ "["%char :: b) = (false, a ++ "["%char :: b)).
  { destruct a as [| c a]; [reflexivity |]. cbn [app skip_stars]. destruct Pa as [_ N0]. rewrite (eqb_no c "*"%char a N0). reflexivity. }
  assert (Ec : scan false (a ++ "["%char :: b) = (a ++ "["%char :: b, [])).
  { rewrite (scan_plain a _ Pa).
    change (scan false ("["%char :: b)) with (let (x, y) := scan true b in ("["%char :: x, y)). rewrite (scan_open (length b) b (le_n _) Hb). reflexivity. }
  rewrite Es, Ec. cbn [andb]. unfold chunk_at. rewrite (chunk_open decode a b Pa Hb). destruct a; reflexivity.
Qed.
(** Below a directory with an opening bracket and no closing one after it Glob gives an error whatever is there, and
    the error is dropped: a client that is in such a package is never found. *)
Theorem C95_client_unclosed : forall decode there names limit es a b, Forall entry_name es ->
  text_of es = a ++ "["%char :: b -> plain a -> ~ In "]"%char b ->
  glob decode there names limit (join2 (text_of es) (B "xx_lens_*_gen.go")) = None /\ has_client decode there names limit (text_of es) = false.
Proof.
  intros decode there names limit es a b He E Pa Hb.
  assert (G : glob decode there names limit (join2 (text_of es) (B "xx_lens_*_gen.go")) = None).
  { assert (Hn : entry_name (B "xx_lens_*_gen.go")).
    { split; [repeat split; discriminate |]. intros H; repeat (destruct H as [H | H]; [discriminate H |]); exact H. }
    assert (Ne : es <> []).
    { intros ->. destruct a as [| c [| d a]]; [discriminate E | discriminate E | discriminate E]. }
    rewrite text_abs, join2_entry by assumption. rewrite abs_snoc by exact Ne. rewrite <- text_abs, E. rewrite <- app_assoc. cbn [app].
    destruct limit as [| k]; [reflexivity |]. cbn [glob]. rewrite matches_open; [reflexivity | exact Pa |].
    rewrite in_app_iff. intros [K | K]; [exact (Hb K) |]. repeat (destruct K as [K | K]; [discriminate K |]). exact K. }
  split; [exact G |]. unfold has_client. rewrite G. reflexivity.
Qed.
Print Assumptions C95_client_unclosed.
Example C95_client_unclosed_example : has_client decode_ascii (fun _ => true) (fun _ => Some [B "xx_lens_client_gen.go"]) 10 (B "/a/p[1/q") = false /\
  has_client decode_ascii (fun _ => true) (fun _ => Some [B "xx_lens_client_gen.go"]) 10 (B "/a/p1/q") = true /\
  split_dir (B "xx_*") = (B ".", B "xx_*") /\ map (matches decode_ascii (B "[a-c-]")) (map B ["b"; "d"; "A"]%string) = [None; None; None] /\
  map (matches decode_ascii (B "[a-cx]")) (map B ["b"; "d"; "A"; "x"]%string) = [Some true; Some false; Some false; Some true].
Proof. vm_compute. repeat split; reflexivity. Qed.

(** So a package that has a client gets no second one, and no second action to remove it. *)
Theorem C95_once : forall decode there names (f : fsys), consistent there names -> (forall q, there q = true <-> f q <> None) ->
  forall limit es, es <> [] -> Forall entry_name es -> Forall plain es -> (S (length es) < limit)%nat ->
  has_client decode there names limit (text_of es) = true ->
  forall ct at_ a f' a' o, inject (text_of es) ct at_ f a f' a' o -> f' = f /\ a' = a /\ o = INothing.
Proof.
  intros decode there names f W Hf limit es Ne He Hp L Hc ct at_ a f' a' o H.
  apply (C95_client decode there names f W Hf limit es Ne He Hp L) in Hc. destruct Hc as (q & Hq & Tq).
  inversion H; subst; auto; match goal with X : forall q, glob_match _ q -> _ = None |- _ => rewrite (X q Hq) in Tq; congruence end.
Qed.
Print Assumptions C95_once.

(** ** Directories of a workspace *)
Lemma rel_below es xs : Forall entry_name es -> Forall entry_name xs -> xs <> [] -> rel_of (abs_of es) (abs_of (es ++ xs)) = join_with [slash] xs.
Proof.
  intros He Hx Nx. unfold rel_of. destruct (entry_parts _ He) as [R N].
  assert (Hex : Forall entry_name (es ++ xs)) by (apply Forall_app; auto). destruct (entry_parts _ Hex) as [R' N'].
  rewrite !place_text by assumption. unfold rel.
  assert (E : rel_elems es (es ++ xs) = xs).
  { clear. induction es as [| e es IH]; [destruct xs; reflexivity |]. cbn [app rel_elems]. destruct (beq_spec e e); [exact IH | congruence]. }
  rewrite E. destruct xs; [congruence | reflexivity].
Qed.
Lemma rel_not_abs rs : Forall entry_name rs -> is_abs (join_with [slash] rs) = false.
Proof.
  intros H. destruct rs as [| r rs]; [reflexivity |]. inversion H as [| ? ? Hr _]; subst. apply join_not_abs; apply Hr.
Qed.
(** A use directive with stars, in a workspace whose path has no special characters: the directories below it that
    match element by element, named from the workspace. *)
Theorem C95_work : forall decode there names is_dir stat_ok walk, consistent there names -> forall limit es rs raw,
  Forall entry_name es -> Forall plain es -> Forall entry_name rs -> Forall simple rs -> (length es + length rs < limit)%nat ->
  raw = join_with (B "/") rs \/ raw = B "./" ++ join_with (B "/") rs ->
  In "*"%char raw -> (forall pre, raw <> pre ++ B "...") ->
  exists l, entry stat_ok is_dir (glob decode there names limit) walk (text_of es) raw = Some l /\
  forall r, In r l <-> exists xs, r = join_with (B "/") xs /\ Forall2 like rs xs /\ Forall entry_name xs /\
    there (text_of (es ++ xs)) = true /\ is_dir (text_of (es ++ xs)) = true.
Proof.
  intros decode there names is_dir stat_ok walk W limit es rs raw He Hp Hr Hs L Eraw Star Nd.
  destruct (entry_parts _ He) as [Re Ne]. destruct (entry_parts _ Hr) as [Rr Nr].
  assert (Nrs : rs <> []).
  { intros ->. destruct Eraw as [-> | ->]; cbn in Star; [exact Star |]. destruct Star as [S0 | [S0 | []]]; discriminate S0. }
  assert (A : is_abs raw = false) by (destruct Eraw as [-> | ->]; [apply rel_not_abs; exact Hr | reflexivity]).
  assert (Dp : dots_prefix raw = None).
  { unfold dots_prefix. destruct (beq_spec (skipn (length raw - 3) raw) (B "...")) as [E | _]; [| reflexivity].
    destruct (Nd (firstn (length raw - 3) raw)). rewrite <- E. symmetry. apply firstn_skipn. }
  assert (Hm : has_meta raw = true).
  { unfold has_meta. apply existsb_exists. exists "*"%char. split; [exact Star | reflexivity]. }
  assert (J : join2 (abs_of es) raw = abs_of (es ++ rs)).
  { rewrite join2_abs by reflexivity. rewrite place_text by assumption.
    assert (G : go es (split_on slash (join_with [slash] rs)) = es ++ rs) by (rewrite split_unique by assumption; apply go_real; exact Rr).
    destruct Eraw as [-> | ->]; [rewrite <- G; reflexivity |].
    change (B "./" ++ join_with (B "/") rs) with (B "." ++ [slash] ++ join_with [slash] rs). rewrite split_app.
    change (split_on slash (B ".")) with [B "."]. unfold go. rewrite fold_left_app.
    change (fold_left clean_step [B "."] es) with es. rewrite <- G. reflexivity. }
  unfold entry. rewrite A, Dp, Hm, text_abs, J.
  destruct (glob_simple decode there names W limit (es ++ rs)) as (l & El & Q).
  { apply Forall_app; auto. } { apply Forall_app. split; [eapply Forall_impl; [| exact Hp]; intros a Ha; apply Ha | exact Hs]. }
  { rewrite app_length. exact L. }
  rewrite El. eexists. split; [reflexivity |]. intros r. rewrite in_map_iff. split.
  - intros (q & <- & I0). apply filter_In in I0. destruct I0 as [I0 D]. apply Q in I0. destruct I0 as (ys & -> & F & Hy & T).
    apply Forall2_app_inv_l in F. destruct F as (m & xs & F1 & F2 & ->). apply likes_plain in F1; [| exact Hp]. subst m.
    apply Forall_app in Hy. destruct Hy as [_ Hx]. exists xs. split; [| auto]. apply rel_below; [exact He | exact Hx |].
    intros ->. inversion F2; subst. congruence.
  - intros (xs & -> & F & Hx & T & D). exists (abs_of (es ++ xs)). split.
    + apply rel_below; [exact He | exact Hx |]. intros ->. inversion F; subst. congruence.
    + apply filter_In. split; [| exact D]. apply Q. exists (es ++ xs). split; [reflexivity |]. split; [apply Forall2_app; [apply likes_plain; auto | exact F] |].
      split; [apply Forall_app; auto | exact T].
Qed.
Print Assumptions C95_work.

(** ** Special characters in the path itself *)
(** Example trees: directories with what they list, as Lstat and reading a directory show them. *)
Definition listed (dirs : list (list bytes * list bytes)) (es : list bytes) : option (list bytes) :=
  match find (fun d => if list_eq_dec bytes_eq_dec (fst d) es then true else false) dirs with Some d => Some (snd d) | None => None end.
Definition t_names (dirs : list (list bytes * list bytes)) (p : bytes) : option (list bytes) := listed dirs (clean_elems p).
Definition t_there (dirs : list (list bytes * list bytes)) (p : bytes) : bool :=
  match rev (clean_elems p) with
  | [] => true
  | n :: r => match listed dirs (rev r) with Some l => existsb (beq n) l | None => false end
  end.
(** Listed directories are listed by the one above them, and only names are listed. *)
Definition tree_ok (dirs : list (list bytes * list bytes)) : bool :=
  forallb (fun d => t_there dirs (abs_of (fst d)) &&
    forallb (fun n => negb (beq n [] || beq n (B ".") || beq n (B "..") || existsb (Ascii.eqb slash) n)) (snd d)) dirs.
Lemma tree_consistent dirs : tree_ok dirs = true -> consistent (t_there dirs) (t_names dirs).
Proof.
  intros H. split.
  - intros es n He Hn. rewrite !text_abs. unfold t_there, t_names. destruct (entry_parts _ He) as [R N].
    assert (He' : Forall entry_name (es ++ [n])) by (apply Forall_app; auto). destruct (entry_parts _ He') as [R' N'].
    rewrite !place_text by assumption. rewrite rev_app_distr. cbn [rev app]. rewrite rev_involutive.
    destruct (listed dirs es) as [l |]; [| split; [discriminate | intros (l & E & _); discriminate E]].
    rewrite existsb_exists. split.
    + intros (x & I0 & E). exists l. destruct (beq_spec n x); [subst; auto | discriminate].
    + intros (l' & E & I0). injection E as <-. exists n. split; [exact I0 |]. destruct (beq_spec n n); congruence.
  - intros es l He E. rewrite !text_abs in *. unfold t_names in E. destruct (entry_parts _ He) as [R N]. rewrite place_text in E by assumption.
    unfold listed in E. destruct (find _ dirs) as [d |] eqn:F; [| discriminate]. injection E as <-. apply find_some in F. destruct F as [I0 E0].
    destruct (list_eq_dec bytes_eq_dec (fst d) es) as [<- |]; [| discriminate]. unfold tree_ok in H. rewrite forallb_forall in H.
    specialize (H d I0). apply andb_prop in H. destruct H as [H1 H2]. split; [exact H1 |].
    rewrite forallb_forall in H2. apply Forall_forall. intros n Hn. specialize (H2 n Hn). apply Bool.negb_true_iff in H2.
    apply Bool.orb_false_iff in H2. destruct H2 as [H2 H3]. apply Bool.orb_false_iff in H2. destruct H2 as [H2 H4].
    apply Bool.orb_false_iff in H2. destruct H2 as [H2 H5].
    split; [repeat split; intros ->; discriminate |]. intros Is. assert (X : existsb (Ascii.eqb slash) n = true); [| congruence].
    apply existsb_exists. exists slash. split; [exact Is | reflexivity].
Qed.

(** A package in /a/[p]: its client is not found. *)
Definition own_tree : list (list bytes * list bytes) :=
  [([], map B ["a"]%string); (map B ["a"]%string, map B ["[p]"]%string); (map B ["a"; "[p]"]%string, map B ["x.go"; "xx_lens_api_gen.go"; "xx_lens_client_gen.go"]%string)].
(** A package in /a/[p] without, one in /a/p with a client. *)
Definition other_tree : list (list bytes * list bytes) :=
  [([], map B ["a"]%string); (map B ["a"]%string, map B ["[p]"; "p"]%string); (map B ["a"; "[p]"]%string, map B ["x.go"]%string);
   (map B ["a"; "p"]%string, map B ["xx_lens_api_gen.go"; "xx_lens_client_gen.go"; "y.go"]%string)].
(** With a bracket in the path a client is not found where there is one, so that it would be put in, and taken out,
    twice; and found where there is none, so that the package gets none and its messages are declared nowhere. *)
Theorem C95_client_missed_refuted : exists decode there names es, consistent there names /\ es <> [] /\ Forall entry_name es /\
  (exists q, glob_match (text_of es) q /\ there q = true) /\
  forall more, has_client decode there names (5 + more) (text_of es) = false.
Proof.
  exists decode_ascii, (t_there own_tree), (t_names own_tree), (map B ["a"; "[p]"]%string).
  split; [apply tree_consistent; vm_compute; reflexivity |]. split; [discriminate |].
  split; [repeat (constructor; [split; [repeat split; discriminate | intros H; repeat (destruct H as [H | H]; [discriminate H |]); exact H] |]); constructor |].
  split; [exists (B "/a/[p]/xx_lens_client_gen.go"); split; [exists (B "client"); split; [intros H; repeat (destruct H as [H | H]; [discriminate H |]); exact H | reflexivity] | vm_compute; reflexivity] |].
  intros more. vm_compute. reflexivity.
Qed.
Print Assumptions C95_client_missed_refuted.
Theorem C95_client_elsewhere_refuted : exists decode there names es, consistent there names /\ es <> [] /\ Forall entry_name es /\
  (forall q, glob_match (text_of es) q -> there q = false) /\
  forall more, has_client decode there names (5 + more) (text_of es) = true.
Proof.
  exists decode_ascii, (t_there other_tree), (t_names other_tree), (map B ["a"; "[p]"]%string).
  assert (He : Forall entry_name (map B ["a"; "[p]"]%string)).
  { repeat (constructor; [split; [repeat split; discriminate | intros H; repeat (destruct H as [H | H]; [discriminate H |]); exact H] |]); constructor. }
  split; [apply tree_consistent; vm_compute; reflexivity |]. split; [discriminate |]. split; [exact He |].
  split; [| intros more; vm_compute; reflexivity].
  intros q (x & Hx & ->).
  assert (Hy : entry_name (B "xx_lens_" ++ x ++ B "_gen.go")).
  { split; [repeat split; discriminate |]. rewrite !in_app_iff. intros [H | [H | H]]; [| exact (Hx H) |];
      repeat (destruct H as [H | H]; [discriminate H |]); exact H. }
  pose proof (proj1 (tree_consistent other_tree eq_refl) _ _ He Hy) as C.
  rewrite !text_abs in *. rewrite (abs_snoc (map B ["a"; "[p]"]%string) _ ltac:(discriminate)) in C.
  destruct (t_there other_tree (abs_of (map B ["a"; "[p]"]%string) ++ B "/xx_lens_" ++ x ++ B "_gen.go")) eqn:T; [| reflexivity].
  apply C in T. destruct T as (l & E & I0). vm_compute in E. injection E as <-. destruct I0 as [I0 | []]. discriminate I0.
Qed.
Print Assumptions C95_client_elsewhere_refuted.

(** A workspace in /w[1]: its use directive finds nothing; in /w[1 it is an error. *)
Definition work_tree (w : bytes) : list (list bytes * list bytes) :=
  [([], [w]); ([w], map B ["go.work"; "m1"; "m2"]%string); ([w; B "m1"], map B ["go.mod"]%string); ([w; B "m2"], map B ["go.mod"]%string)].
Theorem C95_work_refuted :
  consistent (t_there (work_tree (B "w[1]"))) (t_names (work_tree (B "w[1]"))) /\ consistent (t_there (work_tree (B "w[1"))) (t_names (work_tree (B "w[1"))) /\
  forall more is_dir stat_ok walk,
  t_there (work_tree (B "w[1]")) (B "/w[1]/m1") = true /\ like (B "m*") (B "m1") /\
  entry stat_ok is_dir (glob decode_ascii (t_there (work_tree (B "w[1]"))) (t_names (work_tree (B "w[1]"))) (5 + more)) walk (B "/w[1]") (B "./m*") = Some [] /\
  entry stat_ok is_dir (glob decode_ascii (t_there (work_tree (B "w[1"))) (t_names (work_tree (B "w[1"))) (5 + more)) walk (B "/w[1") (B "./m*") = None.
Proof.
  split; [apply tree_consistent; vm_compute; reflexivity |]. split; [apply tree_consistent; vm_compute; reflexivity |].
  intros more is_dir stat_ok walk. split; [vm_compute; reflexivity |]. split.
  { apply lk_char; [discriminate |]. apply (lk_star [] ["1"%char] []); [intros [H | []]; discriminate H | constructor]. }
  split; vm_compute; reflexivity.
Qed.
Print Assumptions C95_work_refuted.

(** ** Examples *)
Example C95_example_match : map (matches decode_ascii (B "xx_lens_*_gen.go")) (map B ["xx_lens_client_gen.go"; "xx_lens__gen.go"; "xx_lens_gen.go"; "xx_lens_a_gen.go.bkp"; "xx_lens_gen.go_gen.go"]%string)
  = [Some true; Some true; Some false; Some false; Some true] /\
  map (fun p => matches decode_ascii p (B "ab]-c")) (map B ["a?]*"; "[^b-z]b\]-c"; "[b-z]*"; "[a"; "*[]"; "a*[a-"; "ab[]]-c"; "*\"; "x[a"; "x*[a"]%string)
  = [Some true; Some true; Some false; None; None; None; None; None; None; None] /\
  map (matches decode_ascii (B "a[*?]b")) (map B ["a*b"; "a?b"; "axb"; "a/b"]%string) = [Some true; Some true; Some false; Some false].
Proof. vm_compute. repeat split; reflexivity. Qed.
(** The same package in /a/p, and a workspace in /w. *)
Definition plain_tree : list (list bytes * list bytes) :=
  [([], map B ["a"]%string); (map B ["a"]%string, map B ["p"; "q"]%string); (map B ["a"; "q"]%string, map B ["x.go"]%string);
   (map B ["a"; "p"]%string, map B ["xx_lens_api_gen.go"; "xx_lens_client_gen.go"; "y.go"]%string)].
Example C95_example_client : consistent (t_there plain_tree) (t_names plain_tree) /\ Forall plain (map B ["a"; "p"]%string) /\
  has_client decode_ascii (t_there plain_tree) (t_names plain_tree) 10 (B "/a/p") = true /\
  has_client decode_ascii (t_there plain_tree) (t_names plain_tree) 10 (B "/a/q") = false.
Proof.
  split; [apply tree_consistent; vm_compute; reflexivity |]. split; [repeat (constructor; [apply magical_iff; reflexivity |]); constructor |].
  split; vm_compute; reflexivity.
Qed.
Example C95_example_work : consistent (t_there (work_tree (B "w"))) (t_names (work_tree (B "w"))) /\
  entry (fun _ => true) (fun p => match t_names (work_tree (B "w")) p with Some _ => true | None => false end)
    (glob decode_ascii (t_there (work_tree (B "w"))) (t_names (work_tree (B "w"))) 10) (fun _ => None) (B "/w") (B "./*") = Some (map B ["m1"; "m2"]%string).
Proof. split; [apply tree_consistent; vm_compute; reflexivity | vm_compute; reflexivity]. Qed.
