(** Proofs for C95: Match on patterns of characters and stars, Glob element by element. *)
From Verif Require Import Base Maps UtilModel UtilProps WorkModel WorkSpec WorkProofs GlobModel GlobSpec.

Lemma eqb_no (c d : ascii) p : ~ In d (c :: p) -> Ascii.eqb c d = false.
Proof. intros H. destruct (Ascii.eqb_spec c d) as [-> | N]; [destruct H; left; reflexivity | reflexivity]. Qed.
Lemma simple_tl c p : simple (c :: p) -> simple p.
Proof. intros (A & B0 & C). repeat split; intros H; [apply A | apply B0 | apply C]; right; exact H. Qed.
Lemma simple_app a b : simple (a ++ b) <-> simple a /\ simple b.
Proof. unfold simple. rewrite !in_app_iff. tauto. Qed.
Lemma none_iff p : none p = true <-> p = [].
Proof. destruct p; cbn; split; congruence. Qed.

(** ** Match *)
Lemma like_cons_inv c p n : c <> "*"%char -> like (c :: p) n -> exists t, n = c :: t /\ like p t.
Proof. intros N H. inversion H; subst; [eauto | congruence]. Qed.
Lemma like_star_inv p n : like ("*"%char :: p) n -> exists a m, n = a ++ m /\ ~ In slash a /\ like p m.
Proof. intros H. inversion H; subst; [congruence | eauto]. Qed.

Lemma skip_like p b p1 : skip_stars p = (b, p1) -> simple p ->
  simple p1 /\ (length p1 + (if b then 1 else 0) <= length p)%nat /\ (forall q, p1 <> "*"%char :: q) /\
  forall n, ~ In slash n -> (like p n <-> if b then exists a m, n = a ++ m /\ like p1 m else like p1 n).
Proof.
  revert b p1. induction p as [| c p IH]; intros b p1 E H.
  - cbn in E. injection E as <- <-. repeat split; try apply H; auto; discriminate.
  - cbn [skip_stars] in E. destruct (Ascii.eqb_spec c "*") as [-> | N].
    + injection E as <- <-. destruct (skip_stars p) as [b' p1] eqn:E'. cbn [snd].
      destruct (IH _ _ eq_refl (simple_tl _ _ H)) as (S1 & L & Nq & Q). split; [exact S1 |]. split; [cbn [length]; destruct b'; lia |].
      split; [exact Nq |]. intros n Hn. split.
      * intros K. destruct (like_star_inv _ _ K) as (a & m & -> & Ha & Km).
        assert (Hm : ~ In slash m) by (intros I0; apply Hn, in_or_app; right; exact I0).
        apply Q in Km; [| exact Hm]. destruct b'.
        -- destruct Km as (a' & m' & -> & Km). exists (a ++ a'), m'. rewrite app_assoc. auto.
        -- eauto.
      * intros (a & m & -> & K). assert (Ha : ~ In slash a) by (intros I0; apply Hn, in_or_app; left; exact I0).
        assert (Hm : ~ In slash m) by (intros I0; apply Hn, in_or_app; right; exact I0).
        apply lk_star; [exact Ha |]. apply Q; [exact Hm |]. destruct b'; [exists [], m; auto | exact K].
    + injection E as <- <-. split; [exact H |]. split; [lia |]. split; [intros q Eq; injection Eq as E0 _; congruence |]. intros n _. reflexivity.
Qed.

Lemma scan_simple p c r : simple p -> scan false p = (c, r) -> p = c ++ r /\ ~ In "*"%char c /\ (r = [] \/ exists r', r = "*"%char :: r').
Proof.
  revert c r. induction p as [| x p IH]; intros c r H E; cbn [scan] in E.
  - injection E as <- <-. repeat split; [intros [] | left; reflexivity].
  - destruct H as (A & B0 & C). rewrite (eqb_no _ _ _ C) in E. destruct (Ascii.eqb_spec x "*") as [-> | N]; cbn [andb negb] in E.
    + injection E as <- <-. split; [reflexivity |]. split; [intros [] | right; eauto].
    + rewrite (eqb_no _ _ _ B0) in E.
      assert (E1 : (let (a, b) := scan false p in (x :: a, b)) = (c, r)) by (destruct (Ascii.eqb x "]"); exact E).
      destruct (scan false p) as [a b]. injection E1 as <- <-.
      destruct (IH a b (simple_tl _ _ (conj A (conj B0 C))) eq_refl) as (-> & Na & R). repeat split; auto.
      intros [-> | I0]; auto.
Qed.

(** The text behind a prefix. *)
Fixpoint strip (c n : bytes) : option bytes :=
  match c with [] => Some n | x :: c' => match n with y :: n' => if Ascii.eqb y x then strip c' n' else None | [] => None end end.
Lemma strip_iff c n t : strip c n = Some t <-> n = c ++ t.
Proof.
  revert n. induction c as [| x c IH]; intros n; cbn [strip app]; [split; congruence |].
  destruct n as [| y n]; [split; discriminate |]. destruct (Ascii.eqb_spec y x) as [-> | N].
  - rewrite IH. split; [intros ->; reflexivity | intros E; injection E as ->; reflexivity].
  - split; [discriminate | intros E; injection E as E0 _; congruence].
Qed.

Section Proofs.
Variable decode : bytes -> N * nat.

Lemma chunk_simple c : simple c -> forall fuel s, (length c < fuel)%nat ->
  chunk_match decode fuel c s = Some (match s with Some n => strip c n | None => None end).
Proof.
  induction c as [| x c IH]; intros H fuel s L; destruct fuel as [| f]; try (cbn in L; lia); cbn [chunk_match].
  - destruct s; reflexivity.
  - destruct H as (A & B0 & C). rewrite (eqb_no _ _ _ B0), (eqb_no _ _ _ A), (eqb_no _ _ _ C).
    rewrite IH; [| exact (simple_tl _ _ (conj A (conj B0 C))) | cbn in L; lia].
    destruct s as [[| y n] |]; cbn [eat strip]; try reflexivity. destruct (Ascii.eqb y x); reflexivity.
Qed.
Lemma chunk_at_simple c n : simple c -> chunk_at decode c n = Some (strip c n).
Proof. intros H. unfold chunk_at. apply chunk_simple; [exact H | lia]. Qed.

Lemma like_app c r n : ~ In "*"%char c -> (like (c ++ r) n <-> exists t, n = c ++ t /\ like r t).
Proof.
  revert n. induction c as [| x c IH]; intros n Hc; cbn [app].
  - split; [eauto | intros (t & -> & K); exact K].
  - assert (Nx : x <> "*"%char) by (intros ->; apply Hc; left; reflexivity).
    assert (Hc' : ~ In "*"%char c) by (intros I0; apply Hc; right; exact I0). split.
    + intros K. destruct (like_cons_inv _ _ _ Nx K) as (t & -> & K'). apply IH in K'; [| exact Hc']. destruct K' as (t' & -> & K'). eauto.
    + intros (t & -> & K). apply lk_char; [exact Nx |]. apply IH; eauto.
Qed.
Lemma like_more q a t : ~ In slash a -> like ("*"%char :: q) t -> like ("*"%char :: q) (a ++ t).
Proof.
  intros Ha K. destruct (like_star_inv _ _ K) as (b & m & -> & Hb & Km). rewrite app_assoc. apply lk_star; [| exact Km].
  rewrite in_app_iff. tauto.
Qed.
Lemma suffix_of (x t y t' : bytes) : x ++ t = y ++ t' -> (length t' <= length t)%nat -> exists b, t = b ++ t'.
Proof.
  revert y. induction x as [| c x IH]; intros y E L; cbn [app] in E; [exists y; exact E |].
  destruct y as [| d y]; cbn [app] in E; [subst t'; cbn in L; rewrite app_length in L; lia |].
  injection E as _ E. exact (IH _ E L).
Qed.

Lemma seek_simple c b n : simple c -> ~ In slash n ->
  exists o, seek decode c b n = Some o /\
  match o with
  | Some t => (exists a, n = a ++ c ++ t) /\ (b = true -> t = []) /\
              forall a' t', a' <> [] -> n = a' ++ c ++ t' -> (b = true -> t' = []) -> (length t' <= length t)%nat
  | None => forall a' t', a' <> [] -> n = a' ++ c ++ t' -> (b = true -> t' = []) -> False
  end.
Proof.
  intros Hc. induction n as [| x n IH]; intros Hn; cbn [seek].
  - exists None. split; [reflexivity |]. intros a' t' Na E. destruct a'; [congruence | discriminate].
  - rewrite (eqb_no _ _ _ Hn). assert (Hn' : ~ In slash n) by (intros I0; apply Hn; right; exact I0).
    rewrite chunk_at_simple by exact Hc.
    assert (Go : (forall t', n = c ++ t' -> (b = true -> t' = []) -> False) -> exists o, seek decode c b n = Some o /\
      match o with
      | Some t => (exists a, x :: n = a ++ c ++ t) /\ (b = true -> t = []) /\
              forall a' t', a' <> [] -> x :: n = a' ++ c ++ t' -> (b = true -> t' = []) -> (length t' <= length t)%nat
      | None => forall a' t', a' <> [] -> x :: n = a' ++ c ++ t' -> (b = true -> t' = []) -> False
      end).
    { intros F. destruct (IH Hn') as (o & E & P). exists o. split; [exact E |]. destruct o as [t |].
      - destruct P as ((a & Ea) & P2 & P3). split; [exists (x :: a); rewrite Ea; reflexivity |]. split; [exact P2 |].
        intros a' t' Na Ex Hb. destruct a' as [| y a']; [congruence |]. cbn [app] in Ex. injection Ex as -> Ex.
        destruct a' as [| z a']; [destruct (F t' Ex Hb) |]. exact (P3 (z :: a') t' ltac:(discriminate) Ex Hb).
      - intros a' t' Na Ex Hb. destruct a' as [| y a']; [congruence |]. cbn [app] in Ex. injection Ex as -> Ex.
        destruct a' as [| z a']; [exact (F t' Ex Hb) |]. exact (P (z :: a') t' ltac:(discriminate) Ex Hb). }
    destruct (strip c n) as [t |] eqn:Es.
    + apply strip_iff in Es. destruct (b && negb (none t))%bool eqn:Eb.
      * apply Go. intros t' Et Hb. apply andb_prop in Eb. destruct Eb as [-> Eb]. rewrite (Hb eq_refl), Es in Et.
        apply app_inv_head in Et. subst t. discriminate Eb.
      * exists (Some t). split; [reflexivity |]. split; [exists [x]; rewrite Es; reflexivity |]. split.
        -- intros ->. destruct t; [reflexivity | discriminate Eb].
        -- intros a' t' Na Ex _. destruct a' as [| y a']; [congruence |]. cbn [app] in Ex. injection Ex as -> Ex.
           apply (f_equal (@length _)) in Ex. rewrite Es, !app_length in Ex. lia.
    + apply Go. intros t' Et _. assert (K : strip c n = Some t') by (apply strip_iff; exact Et). congruence.
Qed.

Lemma well_simple fuel p : simple p -> (length p < fuel)%nat -> well decode fuel p = true.
Proof.
  revert p. induction fuel as [| f IH]; intros p H L; [lia |]. cbn [well]. destruct p as [| x p]; [reflexivity |].
  destruct (skip_stars (x :: p)) as [b p1] eqn:E1. destruct (skip_like _ _ _ E1 H) as (S1 & L1 & Nq & _). cbn [snd].
  destruct (scan false p1) as [c r] eqn:E2. destruct (scan_simple _ _ _ S1 E2) as (-> & Nc & _).
  apply simple_app in S1. destruct S1 as [Sc Sr]. rewrite chunk_at_simple by exact Sc. apply IH; [exact Sr |].
  rewrite app_length in L1. destruct c as [| y c]; [| cbn [length] in *; destruct b; lia].
  destruct b; [cbn [length] in *; lia |]. exfalso. cbn [skip_stars] in E1. destruct (Ascii.eqb x "*"); [discriminate E1 |].
  injection E1 as E1. cbn [app] in *. subst r. destruct (scan false (x :: p)) as [c0 r0] eqn:E3.
  injection E2 as -> ->. cbn [scan] in E3. destruct H as (A & B0 & C).
  rewrite (eqb_no _ _ _ C), (eqb_no _ _ _ B0) in E3. destruct (Ascii.eqb_spec x "*") as [-> | N]; [exact (Nq p eq_refl) |].
  cbn [andb] in E3. destruct (scan _ p) in E3. discriminate E3.
Qed.
Lemma refuse_simple r : simple r -> refuse decode r = Some false.
Proof. intros H. unfold refuse. rewrite well_simple; [reflexivity | exact H | lia]. Qed.

(** A chunk is not empty unless a star stands in front of it. *)
Lemma chunk_some x p b p1 c r : skip_stars (x :: p) = (b, p1) -> simple (x :: p) -> scan false p1 = (c, r) -> (length r < length (x :: p))%nat.
Proof.
  intros E1 H E2. destruct (skip_like _ _ _ E1 H) as (S1 & L1 & Nq & _).
  destruct (scan_simple _ _ _ S1 E2) as (-> & Nc & Hr). rewrite app_length in L1.
  destruct c as [| y c]; [| cbn [length] in *; destruct b; lia]. destruct Hr as [-> | (r' & ->)]; [cbn; lia | destruct (Nq r' eq_refl)].
Qed.

Lemma match_simple fuel p n : simple p -> ~ In slash n -> (length p < fuel)%nat ->
  exists b, match_ decode fuel p n = Some b /\ (b = true <-> like p n).
Proof.
  revert p n. induction fuel as [| f IH]; intros p n H Hn L; [lia |]. cbn [match_]. destruct p as [| x p].
  - exists (none n). split; [reflexivity |]. rewrite none_iff. split; [intros ->; constructor | intros K; inversion K; reflexivity].
  - destruct (skip_stars (x :: p)) as [b p1] eqn:E1. destruct (skip_like _ _ _ E1 H) as (S1 & L1 & Nq & Q).
    destruct (scan false p1) as [c r] eqn:E2. pose proof (chunk_some _ _ _ _ _ _ E1 H E2) as Lr.
    destruct (scan_simple _ _ _ S1 E2) as (-> & Nc & Hr). apply simple_app in S1. destruct S1 as [Sc Sr].
    specialize (Q n Hn). cbn [length] in L, Lr.
    destruct (b && none c)%bool eqn:Ebc.
    { apply andb_prop in Ebc. destruct Ebc as [-> Ec]. apply none_iff in Ec. subst c.
      destruct Hr as [-> | (r' & ->)]; [| destruct (Nq r' eq_refl)].
      exists (negb (existsb (Ascii.eqb slash) n)). split; [reflexivity |]. rewrite Q. split.
      - intros _. exists n, []. rewrite app_nil_r. split; [reflexivity | constructor].
      - intros _. destruct (existsb (Ascii.eqb slash) n) eqn:Ex; [| reflexivity]. apply existsb_exists in Ex. destruct Ex as (y & I0 & Ey).
        apply Ascii.eqb_eq in Ey. subst y. destruct (Hn I0). }
    rewrite chunk_at_simple by exact Sc.
    (* a decomposition, and the rest of it *)
    assert (D : like (x :: p) n <-> exists a t, n = a ++ c ++ t /\ (b = false -> a = []) /\ like r t).
    { rewrite Q. destruct b.
      - split.
        + intros (a & m & -> & K). apply like_app in K; [| exact Nc]. destruct K as (t & -> & K). exists a, t. repeat split; [discriminate | exact K].
        + intros (a & t & -> & _ & K). exists a, (c ++ t). split; [reflexivity |]. apply like_app; eauto.
      - rewrite like_app by exact Nc. split.
        + intros (t & -> & K). exists [], t. auto.
        + intros (a & t & -> & Ea & K). rewrite (Ea eq_refl). exists t. split; [reflexivity | exact K]. }
    assert (Best : forall y t, n = y ++ t -> (exists a, y = a ++ c /\ (b = false -> a = [])) -> (none r = true -> t = []) ->
      (forall a' t', n = a' ++ c ++ t' -> (b = false -> a' = []) -> (none r = true -> t' = []) -> (length t' <= length t)%nat) ->
      (like r t <-> like (x :: p) n)).
    { intros y t En (a & -> & Ha) Ht M. rewrite D. split.
      - intros K. exists a, t. rewrite En, <- app_assoc. auto.
      - intros (a' & t' & En' & Ha' & K). destruct Hr as [-> | (r' & ->)].
        + rewrite (Ht eq_refl). constructor.
        + assert (Lt : (length t' <= length t)%nat) by (apply (M a' t' En' Ha'); discriminate).
          destruct (suffix_of (a ++ c) t (a' ++ c) t') as (z & ->); [rewrite <- En, En', app_assoc; reflexivity | exact Lt |].
          apply like_more; [| exact K]. intros I0. apply Hn. rewrite En. apply in_or_app. right. apply in_or_app. left. exact I0. }
    destruct (match strip c n with Some t => if none t || negb (none r) then Some t else None | None => None end) as [t |] eqn:Eo.
    + destruct (strip c n) as [t0 |] eqn:Es; [| discriminate]. destruct (none t0 || negb (none r))%bool eqn:Et; [| discriminate].
      injection Eo as ->. apply strip_iff in Es.
      assert (Hnt : ~ In slash t) by (intros I0; apply Hn; rewrite Es; apply in_or_app; right; exact I0).
      destruct (IH r t Sr Hnt) as (v & Ev & V); [lia |]. exists v. split; [exact Ev |]. rewrite V.
      apply (Best c t Es).
      * exists []. auto.
      * intros Er. rewrite Er in Et. cbn in Et. rewrite Bool.orb_false_r in Et. apply none_iff. exact Et.
      * intros a' t' En _ _. apply (f_equal (@length _)) in En. rewrite Es, !app_length in En. lia.
    + assert (Fail : forall t', n = c ++ t' -> (none r = true -> t' = []) -> False).
      { intros t' En Ht. assert (Es : strip c n = Some t') by (apply strip_iff; exact En). rewrite Es in Eo.
        destruct (none r) eqn:Er; [| rewrite Bool.orb_true_r in Eo; discriminate Eo]. rewrite (Ht eq_refl) in Eo. discriminate Eo. }
      assert (Lh : forall t', like r t' -> none r = true -> t' = []).
      { intros t' K Er. apply none_iff in Er. subst r. inversion K. reflexivity. }
      destruct b.
      * destruct (seek_simple c (none r) n Sc Hn) as (o & Eso & P). rewrite Eso. destruct o as [t |].
        -- destruct P as ((a & Ea) & P2 & P3).
           assert (Hnt : ~ In slash t) by (intros I0; apply Hn; rewrite Ea; apply in_or_app; right; apply in_or_app; right; exact I0).
           destruct (IH r t Sr Hnt) as (v & Ev & V); [lia |]. exists v. split; [exact Ev |]. rewrite V.
           apply (Best (a ++ c) t); [rewrite <- app_assoc; exact Ea | exists a; split; [reflexivity | discriminate] | exact P2 |].
           intros a' t' En _ Ht. destruct a' as [| z a']; [destruct (Fail t' En Ht) |]. exact (P3 (z :: a') t' ltac:(discriminate) En Ht).
        -- exists false. rewrite refuse_simple by exact Sr. split; [reflexivity |]. split; [discriminate |]. rewrite D. intros (a' & t' & En & _ & K).
           destruct a' as [| z a']; [destruct (Fail t' En (Lh t' K)) |]. destruct (P (z :: a') t' ltac:(discriminate) En (Lh t' K)).
      * exists false. rewrite refuse_simple by exact Sr. split; [reflexivity |]. split; [discriminate |]. rewrite D. intros (a' & t' & En & Ha & K).
        rewrite (Ha eq_refl) in En. destruct (Fail t' En (Lh t' K)).
Qed.
Lemma matches_simple p n : simple p -> ~ In slash n -> exists b, matches decode p n = Some b /\ (b = true <-> like p n).
Proof. intros H Hn. apply match_simple; [exact H | exact Hn | lia]. Qed.

(** ** Glob *)
Lemma magical_iff p : magical p = false <-> plain p.
Proof.
  clear decode. unfold magical, plain, simple. induction p as [| c p IH]; cbn [existsb].
  - split; [intros _; cbn; tauto | reflexivity].
  - rewrite Bool.orb_false_iff, IH. unfold magic. cbn [B list_ascii_of_string existsb].
    destruct (Ascii.eqb_spec c "*"), (Ascii.eqb_spec c "?"), (Ascii.eqb_spec c "["), (Ascii.eqb_spec c "\"); cbn [orb In]; subst; try intuition congruence.
Qed.
Lemma magical_app a b : magical (a ++ b) = (magical a || magical b)%bool.
Proof. apply existsb_app. Qed.
Lemma magical_join es : magical (join_with [slash] es) = existsb magical es.
Proof.
  induction es as [| e es IH]; [reflexivity |]. destruct es as [| e' es]; [cbn [join_with existsb]; rewrite Bool.orb_false_r; reflexivity |].
  rewrite join_cons by discriminate. rewrite !magical_app, IH. reflexivity.
Qed.
Lemma magical_abs es : magical (abs_of es) = existsb magical es.
Proof. unfold abs_of. rewrite <- magical_join. reflexivity. Qed.
Lemma simple_abs es : Forall simple es -> simple (abs_of es).
Proof.
  intros H. unfold abs_of. change (slash :: join_with [slash] es) with ([slash] ++ join_with [slash] es). apply simple_app.
  split; [repeat split; intros [E | []]; discriminate E |]. induction es as [| e es IH]; [repeat split; intros [] |].
  inversion H; subst. destruct es as [| e' es]; [assumption |]. rewrite join_cons by discriminate. apply simple_app. split; [assumption |].
  apply simple_app. split; [repeat split; intros [E | []]; discriminate E | auto].
Qed.
Lemma entry_parts es : Forall entry_name es -> Forall real_name es /\ ns es.
Proof. intros H. split; eapply Forall_impl; [| exact H | | exact H]; intros a Ha; apply Ha. Qed.
Lemma abs_inj a b : Forall entry_name a -> Forall entry_name b -> abs_of a = abs_of b -> a = b.
Proof.
  intros Ha Hb E. destruct (entry_parts _ Ha), (entry_parts _ Hb). rewrite <- (place_text a), <- (place_text b) by assumption. rewrite E. reflexivity.
Qed.
Lemma join2_entry es n : Forall entry_name es -> entry_name n -> join2 (abs_of es) n = abs_of (es ++ [n]).
Proof.
  intros He Hn. destruct (entry_parts _ He) as [R N]. rewrite join2_abs by reflexivity. rewrite place_text by assumption.
  replace (split_on slash n) with [n]; [rewrite go_real; [reflexivity | constructor; [apply Hn | constructor]] |].
  change n with (join_with [slash] [n]) at 2. rewrite split_unique; [reflexivity | discriminate |]. constructor; [apply Hn | constructor].
Qed.
Lemma split_dir_abs es e : Forall entry_name es -> entry_name e -> split_dir (abs_of (es ++ [e])) = (abs_of es, e).
Proof.
  intros He Hn. destruct (entry_parts _ He) as [R N]. unfold split_dir.
  assert (E : split_on slash (abs_of (es ++ [e])) = ([] :: es) ++ [e]).
  { unfold abs_of. change (slash :: join_with [slash] (es ++ [e])) with ([] ++ [slash] ++ join_with [slash] (es ++ [e])).
    rewrite split_app, split_unique; [reflexivity | destruct es; discriminate |]. apply Forall_app. split; [exact N |]. constructor; [apply Hn | constructor]. }
  rewrite E, removelast_last, last_last. f_equal. destruct es as [| x es]; reflexivity.
Qed.
Lemma like_plain p n : plain p -> (like p n <-> n = p).
Proof.
  intros [_ Hs]. rewrite <- (app_nil_r p) at 1. rewrite like_app by exact Hs. split.
  - intros (t & -> & K). inversion K. apply app_nil_r.
  - intros ->. exists []. rewrite app_nil_r. split; [reflexivity | constructor].
Qed.
Lemma likes_plain es l : Forall plain es -> (Forall2 like es l <-> l = es).
Proof.
  intros H. revert l. induction H as [| e es He _ IH]; intros l.
  - split; [intros K; inversion K; reflexivity | intros ->; constructor].
  - split.
    + intros K. inversion K as [| ? ? ? ? K1 K2]; subst. apply like_plain in K1; [| exact He]. apply IH in K2. congruence.
    + intros ->. constructor; [apply like_plain; auto | apply IH; reflexivity].
Qed.

Variable there : bytes -> bool.
Variable names : bytes -> option (list bytes).
Hypothesis W : consistent there names.

Lemma select_simple p d l : simple p -> Forall entry_name l ->
  exists r, select decode p d l = Some r /\ forall q, In q r <-> exists n, In n l /\ like p n /\ q = join2 d n.
Proof.
  intros H. induction l as [| n l IH]; intros Hl; cbn [select].
  - exists []. split; [reflexivity |]. intros q. split; [intros [] | intros (? & [] & _)].
  - inversion Hl as [| ? ? Hn Hl']; subst. destruct (IH Hl') as (r & E & R). destruct (matches_simple p n H (proj2 Hn)) as (b & Eb & Vb).
    rewrite Eb, E. exists (if b then join2 d n :: r else r). split; [reflexivity |]. intros q. destruct b.
    + cbn [In]. rewrite R. split.
      * intros [<- | (m & Im & K & ->)]; [exists n; repeat split; [left; reflexivity | apply Vb; reflexivity] | exists m; auto].
      * intros (m & [<- | Im] & K & ->); [left; reflexivity | right; exists m; auto].
    + rewrite R. split.
      * intros (m & Im & K & ->). exists m. split; [right; exact Im | auto].
      * intros (m & [<- | Im] & K & ->); [apply Vb in K; discriminate | exists m; auto].
Qed.
Lemma glob_dir_simple e ds : simple e -> Forall entry_name ds ->
  exists r, glob_dir decode names e (abs_of ds) = Some r /\
  forall q, In q r <-> exists n, entry_name n /\ like e n /\ q = abs_of (ds ++ [n]) /\ there q = true.
Proof.
  intros H Hd. destruct W as [W1 W2]. unfold glob_dir. destruct (names (abs_of ds)) as [l |] eqn:El.
  - destruct (W2 ds l Hd El) as [_ Hl]. destruct (select_simple e (abs_of ds) l H Hl) as (r & E & R). exists r. split; [exact E |].
    intros q. rewrite R. split.
    + intros (n & I0 & K & ->). assert (Hn : entry_name n) by (rewrite Forall_forall in Hl; exact (Hl n I0)). exists n.
      rewrite join2_entry by assumption. repeat split; try apply Hn; try exact K. apply (W1 ds n Hd Hn). exists l. split; [exact El | exact I0].
    + intros (n & Hn & K & -> & T). apply (W1 ds n Hd Hn) in T. destruct T as (l' & El' & I0).
      assert (l' = l) by (change (text_of ds) with (abs_of ds) in El'; congruence). subst l'.
      exists n. rewrite join2_entry by assumption. auto.
  - exists []. split; [reflexivity |]. intros q. split; [intros [] |]. intros (n & Hn & K & -> & T). apply (W1 ds n Hd Hn) in T.
    destruct T as (l' & El' & _). change (text_of ds) with (abs_of ds) in El'. congruence.
Qed.
Lemma glob_dirs_simple e dl : simple e -> (forall d, In d dl -> exists ds, d = abs_of ds /\ Forall entry_name ds) ->
  exists r, glob_dirs decode names e dl = Some r /\
  forall q, In q r <-> exists ds n, In (abs_of ds) dl /\ Forall entry_name ds /\ entry_name n /\ like e n /\ q = abs_of (ds ++ [n]) /\ there q = true.
Proof.
  intros H. induction dl as [| d dl IH]; intros Hd; cbn [glob_dirs].
  - exists []. split; [reflexivity |]. intros q. split; [intros [] | intros (? & ? & [] & _)].
  - destruct (Hd d (or_introl eq_refl)) as (ds & -> & Hds). destruct (glob_dir_simple e ds H Hds) as (a & Ea & A).
    destruct (IH (fun d' I0 => Hd d' (or_intror I0))) as (b & Eb & B0). rewrite Ea, Eb. exists (a ++ b). split; [reflexivity |].
    intros q. rewrite in_app_iff, A, B0. split.
    + intros [(n & Hn & K & -> & T) | (ds' & n & I0 & Hds' & Hn & K & -> & T)].
      * exists ds, n. repeat split; try apply Hn; auto. left. reflexivity.
      * exists ds', n. repeat split; try apply Hn; auto. right. exact I0.
    + intros (ds' & n & [E | I0] & Hds' & Hn & K & -> & T).
      * left. apply abs_inj in E; [| assumption | assumption]. subst ds'. exists n. auto.
      * right. exists ds', n. repeat split; try apply Hn; auto.
Qed.

Lemma Forall2_snoc {A C} (P : A -> C -> Prop) l x l' : Forall2 P (l ++ [x]) l' <-> exists m y, l' = m ++ [y] /\ Forall2 P l m /\ P x y.
Proof.
  split.
  - intros H. apply Forall2_app_inv_l in H. destruct H as (m & k & H1 & H2 & ->). inversion H2 as [| ? y ? ? Py H3]; subst. inversion H3; subst. eauto.
  - intros (m & y & -> & H1 & Py). apply Forall2_app; [exact H1 | constructor; [exact Py | constructor]].
Qed.
Lemma exists_plain es : existsb magical es = false -> Forall plain es.
Proof. intros H. induction es as [| e es IH]; constructor; cbn in H; apply Bool.orb_false_iff in H; [apply magical_iff, H | apply IH, H]. Qed.

Lemma glob_simple limit es : Forall entry_name es -> Forall simple es -> (length es < limit)%nat ->
  exists l, glob decode there names limit (abs_of es) = Some l /\
  forall q, In q l <-> exists xs, q = abs_of xs /\ Forall2 like es xs /\ Forall entry_name xs /\ there q = true.
Proof.
  revert limit. induction es as [| e es IH] using rev_ind; intros limit He Hs L; (destruct limit as [| k]; [cbn in L; rewrite ?app_length in L; lia |]); cbn [glob].
  - destruct (matches_simple (abs_of []) []) as (b & Eb & _); [apply simple_abs; constructor | intros [] |]. rewrite Eb.
    change (magical (abs_of [])) with false. exists (if there (abs_of []) then [abs_of []] else []). split; [reflexivity |]. intros q. split.
    + intros I0. exists []. destruct (there (abs_of [])) eqn:T; [| destruct I0]. destruct I0 as [<- | []]. repeat split; auto.
    + intros (xs & -> & F & _ & T). inversion F; subst. rewrite T. left. reflexivity.
  - destruct (matches_simple (abs_of (es ++ [e])) []) as (b & Eb & _); [apply simple_abs; exact Hs | intros [] |]. rewrite Eb.
    apply Forall_app in He, Hs. destruct He as [He He1], Hs as [Hs Hs1]. inversion He1 as [| ? ? He2 _]; subst. inversion Hs1 as [| ? ? Hs2 _]; subst.
    rewrite magical_abs. destruct (existsb magical (es ++ [e])) eqn:M.
    + rewrite split_dir_abs by assumption. rewrite magical_abs. destruct (existsb magical es) eqn:M1.
      * destruct (beq_spec (abs_of es) (abs_of (es ++ [e]))) as [E | _].
        { apply abs_inj in E; [| exact He | apply Forall_app; auto]. apply (f_equal (@length _)) in E. rewrite app_length in E. cbn in E. lia. }
        rewrite app_length in L. cbn [length] in L. destruct (IH k He Hs) as (dl & Ed & D); [lia |]. rewrite Ed.
        destruct (glob_dirs_simple e dl Hs2) as (r & Er & R); [intros d I0; apply D in I0; destruct I0 as (xs & -> & _ & Hx & _); eauto |].
        exists r. split; [exact Er |]. intros q. rewrite R. split.
        -- intros (ds & n & I0 & Hds & Hn & K & -> & T). apply D in I0. destruct I0 as (xs & E & F & Hx & _).
           apply abs_inj in E; [| assumption | assumption]. subst xs. exists (ds ++ [n]). split; [reflexivity |].
           split; [apply Forall2_snoc; eauto |]. split; [apply Forall_app; auto | exact T].
        -- intros (xs & -> & F & Hx & T). apply Forall2_snoc in F. destruct F as (m & y & -> & F & K).
           apply Forall_app in Hx. destruct Hx as [Hm Hy]. inversion Hy as [| ? ? Hy1 _]; subst.
           assert (Td : there (abs_of m) = true).
           { destruct W as [W1 W2]. pose proof T as T'. apply (W1 m y Hm Hy1) in T'. destruct T' as (l & El & _). exact (proj1 (W2 m l Hm El)). }
           exists m, y. split; [apply D; exists m; auto |]. repeat split; try apply Hy1; auto.
      * destruct (glob_dir_simple e es Hs2 He) as (r & Er & R). exists r. split; [exact Er |]. intros q. rewrite R. apply exists_plain in M1. split.
        -- intros (n & Hn & K & -> & T). exists (es ++ [n]). split; [reflexivity |]. split; [apply Forall2_snoc; exists es, n; repeat split; [apply likes_plain; auto | exact K] |].
           split; [apply Forall_app; auto | exact T].
        -- intros (xs & -> & F & Hx & T). apply Forall2_snoc in F. destruct F as (m & y & -> & F & K). apply likes_plain in F; [| exact M1]. subst m.
           apply Forall_app in Hx. destruct Hx as [_ Hy]. inversion Hy; subst. exists y. auto.
    + exists (if there (abs_of (es ++ [e])) then [abs_of (es ++ [e])] else []). split; [reflexivity |]. apply exists_plain in M. intros q. split.
      * intros I0. destruct (there (abs_of (es ++ [e]))) eqn:T; [| destruct I0]. destruct I0 as [<- | []]. exists (es ++ [e]). split; [reflexivity |].
        split; [apply likes_plain; auto |]. split; [apply Forall_app; auto | exact T].
      * intros (xs & -> & F & _ & T). apply likes_plain in F; [| exact M]. subst xs. rewrite T. left. reflexivity.
Qed.
End Proofs.
