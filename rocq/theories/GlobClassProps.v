(** C95: classes of characters in patterns. *)
From Verif Require Import Base Maps UtilModel WorkModel GlobModel.

(** The end of a range: a character, with or without a backslash; a range with one or two ends. *)
Definition rend := (ascii * bool)%type.
Definition rng := (rend * option rend)%type.
Definition end_text (e : rend) : bytes := if snd e then ["\"%char; fst e] else [fst e].
Definition hi_text (h : option rend) : bytes := match h with Some h => "-"%char :: end_text h | None => [] end.
Definition rng_text (r : rng) : bytes := end_text (fst r) ++ hi_text (snd r).
Definition end_ok (e : rend) : Prop := (N_of_ascii (fst e) < 128)%N /\ (snd e = false -> ~ In (fst e) (B "-]\")).
Definition rng_ok (r : rng) : Prop := end_ok (fst r) /\ match snd r with Some h => end_ok h | None => True end.
(** The class: brackets, perhaps a circumflex, and the ranges. *)
Definition class_text (neg : bool) (rs : list rng) : bytes := "["%char :: (if neg then ["^"%char] else []) ++ flat_map rng_text rs ++ ["]"%char].
(** A character is in a range between the ends, or is the only end. *)
Definition in_rng (c : ascii) (r : rng) : Prop :=
  match snd r with Some h => (N_of_ascii (fst (fst r)) <= N_of_ascii c <= N_of_ascii (fst h))%N | None => c = fst (fst r) end.

Section Class.
Variable decode : bytes -> N * nat.
Hypothesis D : forall (c : byte) (s : bytes), (N_of_ascii c < 128)%N -> decode (c :: s) = (N_of_ascii c, 1%nat).

Definition hasb (n : N) (r : rng) : bool :=
  N.leb (N_of_ascii (fst (fst r))) n && N.leb n (N_of_ascii (fst (match snd r with Some h => h | None => fst r end))).

Lemma not_special c : ~ In c (B "-]\") -> Ascii.eqb c "-" = false /\ Ascii.eqb c "]" = false /\ Ascii.eqb c "\" = false.
Proof. intros N. repeat split; apply Ascii.eqb_neq; intros ->; apply N; vm_compute; auto. Qed.
Lemma small_rune c : (N_of_ascii c < 128)%N -> N.eqb (N_of_ascii c) 65533 = false.
Proof. intros L. apply N.eqb_neq. lia. Qed.
Lemma esc_end e rest : end_ok e -> rest <> [] -> get_esc decode (end_text e ++ rest) = Some (N_of_ascii (fst e), rest).
Proof.
  intros [L N] Nr. destruct e as [c [|]]; cbn [end_text fst snd app] in *; unfold get_esc.
  - change (Ascii.eqb "\" "-") with false. change (Ascii.eqb "\" "]") with false. change (Ascii.eqb "\" "\") with true. cbn [orb]. match goal with |- context [decode ?y] => replace (decode y) with (N_of_ascii c, 1%nat) by (symmetry; apply D, L) end. rewrite (small_rune c L). cbn. destruct rest; [contradiction | reflexivity].
  - destruct (not_special c (N eq_refl)) as (-> & -> & ->). cbn [orb]. match goal with |- context [decode ?y] => replace (decode y) with (N_of_ascii c, 1%nat) by (symmetry; apply D, L) end. rewrite (small_rune c L). cbn. destruct rest; [contradiction | reflexivity].
Qed.
Lemma end_starts e rest : end_ok e -> exists c t, end_text e ++ rest = c :: t /\ Ascii.eqb c "]" = false /\ Ascii.eqb c "-" = false.
Proof.
  intros [L N]. destruct e as [c [|]]; cbn [end_text fst snd app] in *; [do 2 eexists; split; [reflexivity | split; reflexivity] |].
  destruct (not_special c (N eq_refl)) as (N1 & N2 & _). do 2 eexists. split; [reflexivity | split; assumption].
Qed.
Lemma more rs rest : Forall rng_ok rs -> exists c t, flat_map rng_text rs ++ "]"%char :: rest = c :: t /\ Ascii.eqb c "-" = false.
Proof.
  intros [| r rs' [O _] _]; [do 2 eexists; split; reflexivity |]. cbn [flat_map]. unfold rng_text at 1. rewrite <- !app_assoc.
  destruct (end_starts (fst r) (hi_text (snd r) ++ flat_map rng_text rs' ++ "]"%char :: rest) O) as (c & t & E & _ & N2). exists c, t. auto.
Qed.

Lemma ranges_step f n ch some hit c t : ch = c :: t -> Ascii.eqb c "]" = false -> ranges decode (S f) n ch some hit =
  match get_esc decode ch with
  | None => None
  | Some (lo, ch) =>
    match (match ch with c :: ch2 => if Ascii.eqb c "-" then get_esc decode ch2 else Some (lo, ch) | [] => None end) with
    | None => None
    | Some (hi, ch3) => ranges decode f n ch3 true (hit || (N.leb lo n && N.leb n hi))
    end
  end.
Proof. intros -> N. cbn [ranges]. rewrite N. destruct some; reflexivity. Qed.
Lemma ranges_all n rs : Forall rng_ok rs -> forall fuel some hit rest, (length rs < fuel)%nat -> (some = true \/ rs <> []) ->
  ranges decode fuel n (flat_map rng_text rs ++ "]"%char :: rest) some hit = Some ((hit || existsb (hasb n) rs)%bool, rest).
Proof.
  induction 1 as [| [a h] rs [Oa Oh] F IH]; intros fuel some hit rest Lf Hs; (destruct fuel as [| fuel]; [cbn in Lf; lia |]).
  - destruct Hs as [-> | Hs]; [| contradiction]. cbn. rewrite orb_false_r. reflexivity.
  - cbn [flat_map existsb]. unfold rng_text at 1. cbn [fst snd] in *. rewrite <- !app_assoc.
    set (tail := hi_text h ++ flat_map rng_text rs ++ "]"%char :: rest).
    assert (Nt : tail <> []) by (unfold tail; destruct h; cbn; [discriminate |]; destruct (flat_map rng_text rs); discriminate).
    destruct (end_starts a tail Oa) as (c0 & t0 & E0 & N0 & _). rewrite (ranges_step fuel n _ some hit c0 t0 E0 N0). clear c0 t0 E0 N0.
    rewrite (esc_end a tail Oa Nt). unfold tail. clear Nt tail. destruct h as [h |]; cbn [hi_text app].
    + replace (Ascii.eqb "-" "-") with true by reflexivity. rewrite (esc_end h _ Oh) by (destruct (flat_map rng_text rs); discriminate).
      rewrite IH by (cbn in Lf; auto; lia). cbn [hasb fst snd]. rewrite orb_assoc. reflexivity.
    + destruct (more rs rest F) as (c & t & E & N). rewrite E, N, <- E, IH by (cbn in Lf; auto; lia). unfold hasb. cbn [fst snd]. rewrite orb_assoc. reflexivity.
Qed.

Lemma scan_end e rest : end_ok e -> scan true (end_text e ++ rest) = (end_text e ++ fst (scan true rest), snd (scan true rest)).
Proof.
  intros [L N]. destruct e as [c [|]]; cbn [end_text fst snd app] in *; cbn [scan].
  - replace (Ascii.eqb "\" "\") with true by reflexivity. destruct (scan true rest); reflexivity.
  - destruct (not_special c (N eq_refl)) as (_ & -> & ->). rewrite andb_false_r. replace (if Ascii.eqb c "[" then true else true) with true by (destruct (Ascii.eqb c "["); reflexivity). destruct (scan true rest); reflexivity.
Qed.
Lemma scan_all rs : Forall rng_ok rs -> scan true (flat_map rng_text rs ++ ["]"%char]) = (flat_map rng_text rs ++ ["]"%char], []).
Proof.
  induction 1 as [| [a h] rs [Oa Oh] F IH]; [reflexivity |]. cbn [flat_map]. unfold rng_text at 1 3. cbn [fst snd] in *. rewrite <- !app_assoc, (scan_end a _ Oa).
  destruct h as [h |]; cbn [hi_text app]; [| rewrite IH; reflexivity].
  assert (X : forall x, scan true ("-"%char :: x) = ("-"%char :: fst (scan true x), snd (scan true x))) by (intros x; cbn [scan]; replace (Ascii.eqb "-" "\") with false by reflexivity; change (Ascii.eqb "-" "*") with false; change (Ascii.eqb "-" "[") with false; change (Ascii.eqb "-" "]") with false; cbn [andb]; destruct (scan true x); reflexivity).
  rewrite X, (scan_end h _ Oh), IH. reflexivity.
Qed.
Lemma scan_class neg rs : Forall rng_ok rs -> scan false (class_text neg rs) = (class_text neg rs, []).
Proof.
  intros F. unfold class_text. cbn [scan]. replace (Ascii.eqb "[" "\") with false by reflexivity. replace (Ascii.eqb "[" "*") with false by reflexivity. replace (Ascii.eqb "[" "[") with true by reflexivity. cbn [andb].
  destruct neg; cbn [app]; [| rewrite (scan_all rs F); reflexivity]. cbn [scan]. replace (Ascii.eqb "^" "\") with false by reflexivity. replace (Ascii.eqb "^" "*") with false by reflexivity.
  replace (Ascii.eqb "^" "[") with false by reflexivity. replace (Ascii.eqb "^" "]") with false by reflexivity. cbn [andb]. rewrite (scan_all rs F). reflexivity.
Qed.
Lemma rngs_length rs : (length rs <= length (flat_map rng_text rs))%nat.
Proof.
  induction rs as [| [[c e] h] rs IH]; [apply le_n |]. cbn [flat_map length]. rewrite app_length.
  assert (H : (1 <= length (rng_text ((c, e), h)))%nat) by (unfold rng_text; rewrite app_length; destruct e; cbn [end_text snd fst length]; lia). exact (Nat.add_le_mono 1 _ _ _ H IH).
Qed.

Lemma chunk_bracket f (T : bytes) (s : option bytes) r s1 neg (ch1 : bytes) hit (rest : bytes) :
  match s with Some (x :: t) => let (r, n) := decode (x :: t) in (r, Some (skipn n (x :: t))) | _ => (0%N, None) end = (r, s1) ->
  match T with d :: ch' => if Ascii.eqb d "^" then (true, ch') else (false, T) | [] => (false, T) end = (neg, ch1) ->
  ranges decode (S (length ch1)) r ch1 false false = Some (hit, rest) ->
  chunk_match decode (S f) ("["%char :: T) s = chunk_match decode f rest (if Bool.eqb hit neg then None else s1).
Proof. intros E1 E2 E3. cbn [chunk_match]. change (Ascii.eqb "[" "[") with true. cbv iota.
  destruct s as [[| x t] |]; [injection E1 as <- <- | destruct (decode (x :: t)) as [r0 n0]; injection E1 as <- <- | injection E1 as <- <-];
    (destruct T as [| d T']; [injection E2 as <- <- | destruct (Ascii.eqb d "^"); injection E2 as <- <-]); rewrite E3; reflexivity.
Qed.
Lemma chunk_class neg rs n : Forall rng_ok rs -> rs <> [] -> (neg = false -> forall c t, flat_map rng_text rs = c :: t -> c <> "^"%char) -> Forall (fun c => (N_of_ascii c < 128)%N) n ->
  chunk_at decode (class_text neg rs) n = Some (match n with [] => None | x :: t => if Bool.eqb (existsb (hasb (N_of_ascii x)) rs) neg then None else Some t end).
Proof.
  intros F Ne Nc Fn. unfold chunk_at.
  assert (E2 : match (if neg then ["^"%char] else []) ++ flat_map rng_text rs ++ ["]"%char] with d :: ch' => if Ascii.eqb d "^" then (true, ch') else (false, (if neg then ["^"%char] else []) ++ flat_map rng_text rs ++ ["]"%char]) | [] => (false, (if neg then ["^"%char] else []) ++ flat_map rng_text rs ++ ["]"%char]) end
    = (neg, flat_map rng_text rs ++ ["]"%char])).
  { destruct neg; cbn [app]; [reflexivity |]. destruct (flat_map rng_text rs) as [| c t] eqn:E; [reflexivity |]. cbn [app]. destruct (Ascii.eqb_spec c "^") as [X |]; [destruct (Nc eq_refl c t eq_refl X) | reflexivity]. }
  assert (E3 : forall r, ranges decode (S (length (flat_map rng_text rs ++ ["]"%char]))) r (flat_map rng_text rs ++ ["]"%char]) false false = Some (existsb (hasb r) rs, [])).
  { intros r. apply (ranges_all r rs F); [| right; exact Ne]. apply Nat.lt_succ_r. rewrite app_length. eapply Nat.le_trans; [apply rngs_length | apply Nat.le_add_r]. }
  assert (Le : exists k, length (class_text neg rs) = S k) by (unfold class_text; eexists; reflexivity). destruct Le as [k ->].
  destruct n as [| x t].
  - refine (eq_trans (chunk_bracket (S k) _ (Some []) 0 None neg _ _ [] eq_refl E2 (E3 _)) _). destruct (Bool.eqb _ _); reflexivity.
  - inversion Fn as [| ? ? Lx _]; subst.
    assert (E1 : (let (r, n) := decode (x :: t) in (r, Some (skipn n (x :: t)))) = (N_of_ascii x, Some t)) by (match goal with |- context [decode ?y] => replace (decode y) with (N_of_ascii x, 1%nat) by (symmetry; apply D, Lx) end; reflexivity).
    refine (eq_trans (chunk_bracket (S k) _ (Some (x :: t)) _ _ neg _ _ [] E1 E2 (E3 _)) _). reflexivity.
Qed.

Lemma hasb_iff x r : rng_ok r -> (hasb (N_of_ascii x) r = true <-> in_rng x r).
Proof.
  intros _. unfold hasb, in_rng. rewrite andb_true_iff, !N.leb_le. destruct (snd r) as [h |]; [tauto |]. split; [| intros ->; lia].
  intros [H1 H2]. rewrite <- (ascii_N_embedding x), <- (ascii_N_embedding (fst (fst r))). f_equal. lia.
Qed.

(** A class matches the names of one character that is in one of its ranges, or, with a circumflex, in none of them. *)
Theorem C95_class : forall neg rs n, Forall rng_ok rs -> rs <> [] -> (neg = false -> forall c t, flat_map rng_text rs = c :: t -> c <> "^"%char) ->
  Forall (fun c => (N_of_ascii c < 128)%N) n ->
  exists b, matches decode (class_text neg rs) n = Some b /\
    (b = true <-> exists x, n = [x] /\ if neg then ~ Exists (in_rng x) rs else Exists (in_rng x) rs).
Proof.
  intros neg rs n F Ne Nc Fn. exists (match n with [x] => negb (Bool.eqb (existsb (hasb (N_of_ascii x)) rs) neg) | _ => false end).
  assert (Hx : forall x, existsb (hasb (N_of_ascii x)) rs = true <-> Exists (in_rng x) rs).
  { intros x. rewrite existsb_exists, Exists_exists. rewrite Forall_forall in F. split; intros (r & Hr & H); exists r; (split; [exact Hr |]); apply (hasb_iff x r (F r Hr)), H. }
  split.
  - unfold matches. change (match_ decode (S (length (class_text neg rs))) (class_text neg rs) n) with
      (let (chunk, rest) := scan false (class_text neg rs) in
       if false && none chunk then Some (negb (existsb (Ascii.eqb slash) n)) else
       match chunk_at decode chunk n with
       | None => None
       | Some o => match (match o with Some t => if none t || negb (none rest) then Some t else None | None => None end) with
                   | Some t => match_ decode (length (class_text neg rs)) rest t
                   | None => refuse decode rest
                   end
       end).
    rewrite (scan_class neg rs F), (chunk_class neg rs n F Ne Nc Fn). cbn [andb none negb orb]. destruct n as [| x t]; [reflexivity |].
    destruct (Bool.eqb _ _); [destruct t; reflexivity |]. destruct t; reflexivity.
  - destruct n as [| x [| y n]]; [split; [discriminate | intros (x & X & _); discriminate X] | | split; [discriminate | intros (z & X & _); discriminate X]].
    specialize (Hx x). split.
    + intros H. exists x. split; [reflexivity |]. destruct (existsb _ rs), neg; try discriminate H; [apply Hx; reflexivity | intros X; apply Hx in X; discriminate X].
    + intros (z & X & H). injection X as <-. destruct neg; destruct (existsb _ rs); try reflexivity; [destruct H; apply Hx; reflexivity | apply Hx in H; discriminate H].
Qed.
End Class.
Print Assumptions C95_class.

Lemma end_okb e : (N.ltb (N_of_ascii (fst e)) 128 && (snd e || negb (existsb (Ascii.eqb (fst e)) (B "-]\"))))%bool = true -> end_ok e.
Proof.
  intros H. apply andb_true_iff in H as [L N]. apply N.ltb_lt in L. split; [exact L |]. intros Es I. rewrite Es in N. apply negb_true_iff in N.
  assert (X : existsb (Ascii.eqb (fst e)) (B "-]\") = true) by (apply existsb_exists; exists (fst e); split; [exact I | apply Ascii.eqb_refl]). congruence.
Qed.
(** Digits, a dash and a closing bracket after a backslash, and lower case letters but for some. *)
Example C95_class_example :
  let rs := [(("0"%char, false), Some ("9"%char, false)); (("-"%char, true), None); (("]"%char, true), None); (("a"%char, false), Some ("f"%char, true))] in
  class_text false rs = B "[0-9\-\]a-\f]" /\ Forall rng_ok rs /\
  map (matches decode_ascii (class_text false rs)) (map B ["5"; "-"; "]"; "f"; "g"; "55"; ""]%string) = [Some true; Some true; Some true; Some true; Some false; Some false; Some false] /\
  map (matches decode_ascii (class_text true rs)) (map B ["5"; "g"; "^"; "gg"]%string) = [Some false; Some true; Some true; Some false].
Proof.
  cbv zeta. split; [reflexivity |]. split; [| split; reflexivity].
  repeat (apply Forall_cons; [split; cbn [fst snd]; try exact I; apply end_okb; reflexivity |]). apply Forall_nil.
Qed.
