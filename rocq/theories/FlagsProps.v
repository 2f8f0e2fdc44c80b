(** C72: the command line says what is analysed and how. *)
From Verif Require Import Base Maps UtilModel StaticModel StaticProps TemplateModel ReachProps WorkModel EngineModel EngineProps ChartModel ChartProps FlagsModel.
From Coq Require Import Permutation.

Lemma cut_first_none c s : cut_first c s = None -> ~ In c s.
Proof.
  induction s as [|x s IH]; cbn; [tauto|]. destruct (ascii_dec x c) as [E|E]; [discriminate|]. destruct (cut_first c s) as [[a b]|]; [discriminate|].
  intros _ [H|H]; [congruence|exact (IH eq_refl H)].
Qed.
Lemma cut_first_some c s a b : cut_first c s = Some (a, b) -> s = a ++ c :: b /\ ~ In c a.
Proof.
  revert a b. induction s as [|x s IH]; cbn; [discriminate|]. intros a b. destruct (ascii_dec x c) as [E|E].
  - intros [= <- <-]. subst. split; [reflexivity|tauto].
  - destruct (cut_first c s) as [[u w]|]; [|discriminate]. intros [= <- <-]. destruct (IH u w eq_refl) as [-> N]. split; [reflexivity|]. cbn. intuition congruence.
Qed.
Lemma cut_first_app c a b : ~ In c a -> cut_first c (a ++ c :: b) = Some (a, b).
Proof.
  induction a as [|x a IH]; cbn; intros H; [destruct (ascii_dec c c); [reflexivity|congruence]|].
  destruct (ascii_dec x c) as [E|E]; [exfalso; apply H; left; exact E|]. rewrite IH by tauto. reflexivity.
Qed.
Lemma cut_first_no c a : ~ In c a -> cut_first c a = None.
Proof.
  induction a as [|x a IH]; cbn; intros H; [reflexivity|]. destruct (ascii_dec x c) as [E|E]; [exfalso; apply H; left; exact E|]. rewrite IH by tauto. reflexivity.
Qed.

Lemma mget_mset_if (A : Type) n m (x : A) t : mget m (mset n x t) = if beq n m then Some x else mget m t.
Proof. destruct (beq_spec n m) as [->|N]; [apply mget_mset_same|apply mget_mset_other; congruence]. Qed.

(** ** How a setting is spelled *)
Definition dashes (d : bytes) : Prop := d = B "-" \/ d = B "--".
(** A name that can be given: not empty, no dash in front, no equals sign. *)
Definition nameable (n : bytes) : Prop := exists c r, n = c :: r /\ c <> "-"%char /\ ~ In "="%char n.
(** [spelled t args n v]: these arguments set flag [n] to the text [v]. *)
Inductive spelled (t : amap fval) : list bytes -> bytes -> bytes -> Prop :=
  | sp_equals : forall d n v, dashes d -> nameable n -> spelled t [d ++ n ++ B "=" ++ v] n v
  | sp_next : forall d n v old, dashes d -> nameable n -> mget n t = Some old -> is_bool old = false -> spelled t [d ++ n; v] n v
  | sp_bare : forall d n old, dashes d -> nameable n -> mget n t = Some old -> is_bool old = true -> spelled t [d ++ n] n (B "true").
(** Where the flags end: at the end, behind "--", or at an argument that does not look like a flag. *)
Inductive ends : list bytes -> list bytes -> Prop :=
  | end_none : ends [] []
  | end_mark : forall r, ends (B "--" :: r) r
  | end_word : forall s r, (forall c w, s <> "-"%char :: c :: w) -> ends (s :: r) (s :: r).

(** A setting: arguments, name, text.  The last text for a name. *)
Definition piece := (list bytes * (bytes * bytes))%type.
Fixpoint last_text (n : bytes) (ps : list piece) : option bytes :=
  match ps with
  | [] => None
  | (_, (m, v)) :: ps' => match last_text n ps' with Some w => Some w | None => if beq m n then Some v else None end
  end.

Section Parse.
Variable parse_int : bytes -> option Z.
Notation prs := (parse parse_int).
Notation setv := (set_value parse_int).
(** A piece is well spelled and its text is a value of the flag. *)
Definition sound (t : amap fval) (p : piece) : Prop :=
  spelled t (fst p) (fst (snd p)) (snd (snd p)) /\ exists old x, mget (fst (snd p)) t = Some old /\ setv old (snd (snd p)) = Some x.
(** The value of a flag: from the last text for it, else the default. *)
Definition value_of (t : amap fval) (ps : list piece) (n : bytes) : option fval :=
  match mget n t with
  | None => None
  | Some d => match last_text n ps with Some v => setv d v | None => Some d end
  end.

Definition kind (v : fval) : nat := match v with VStr _ => 0 | VInt _ => 1 | VBool _ => 2 end.
Definition same_kinds (s t : amap fval) : Prop := forall n, option_map kind (mget n s) = option_map kind (mget n t).
Lemma set_kind old v x : setv old v = Some x -> kind x = kind old.
Proof. destruct old; cbn; [intros [= <-]; reflexivity|destruct (parse_int v)|destruct (parse_bool v)]; cbn; intros [= <-]; reflexivity. Qed.
Lemma set_by_kind a b v : kind a = kind b -> setv a v = setv b v.
Proof. destruct a, b; cbn; intros E; try discriminate; reflexivity. Qed.
Lemma same_mset s n old x : mget n s = Some old -> kind x = kind old -> same_kinds (mset n x s) s.
Proof. intros E K m. rewrite mget_mset_if. destruct (beq_spec n m) as [->|N]; [rewrite E; cbn; rewrite K; reflexivity|reflexivity]. Qed.
Lemma kinds_get s t n a : same_kinds s t -> mget n s = Some a -> exists b, mget n t = Some b /\ kind a = kind b.
Proof. intros K E. specialize (K n). rewrite E in K. destruct (mget n t) as [b|]; [|discriminate]. exists b. split; [reflexivity|]. injection K as K. exact K. Qed.
Lemma is_bool_kind a b : kind a = kind b -> is_bool a = is_bool b.
Proof. destruct a, b; cbn; congruence. Qed.
Lemma spelled_kinds s t a n v : same_kinds s t -> spelled s a n v -> spelled t a n v.
Proof.
  intros K [d m w D N|d m w old D N E Bo|d m old D N E Bo].
  - apply sp_equals; assumption.
  - destruct (kinds_get _ _ _ _ K E) as (b & E' & K'). apply (sp_next t d m w b D N E'). rewrite <- (is_bool_kind _ _ K'). exact Bo.
  - destruct (kinds_get _ _ _ _ K E) as (b & E' & K'). apply (sp_bare t d m b D N E'). rewrite <- (is_bool_kind _ _ K'). exact Bo.
Qed.
Lemma sound_kinds s t p : same_kinds s t -> sound s p -> sound t p.
Proof.
  intros K [S (old & x & E & V)]. split; [apply (spelled_kinds s t _ _ _ K S)|]. destruct (kinds_get _ _ _ _ K E) as (b & E' & K'). exists b, x.
  split; [exact E'|]. rewrite <- (set_by_kind _ _ _ K'). exact V.
Qed.

(** One argument taken apart. *)
Lemma after_dashes_some s n : after_dashes s = Some n -> s <> B "--" -> bad_name n = false ->
  exists d, dashes d /\ s = d ++ n /\ exists c r, n = c :: r /\ c <> "-"%char /\ c <> "="%char.
Proof.
  destruct s as [|c [|d r]]; cbn [after_dashes]; try discriminate. destruct (ascii_dec c "-") as [->|]; [|discriminate].
  assert (forall m, bad_name m = false -> exists c r, m = c :: r /\ c <> "-"%char /\ c <> "="%char) as Bn.
  { intros [|x m]; cbn; [discriminate|]. destruct (ascii_dec x "-"); [discriminate|]. destruct (ascii_dec x "="); [discriminate|]. intros _. exists x, m. repeat split; assumption. }
  destruct (ascii_dec d "-") as [->|N]; intros [= <-] _ Hb; destruct (Bn _ Hb) as (x & m & E & N1 & N2).
  - exists (B "--"). split; [right; reflexivity|]. split; [reflexivity|]. exists x, m. tauto.
  - exists (B "-"). split; [left; reflexivity|]. split; [reflexivity|]. exists x, m. tauto.
Qed.
Lemma after_dashes_none s : after_dashes s = None -> forall c w, s <> "-"%char :: c :: w.
Proof. intros H c w ->. cbn in H. destruct (ascii_dec c "-"); discriminate. Qed.
Lemma after_dashes_app d n : dashes d -> (exists c r, n = c :: r /\ c <> "-"%char) -> after_dashes (d ++ n) = Some n /\ d ++ n <> B "--".
Proof.
  intros [-> | ->] (c & r & -> & N); cbn; (destruct (ascii_dec c "-") as [E|E]; [contradiction|]); (split; [reflexivity|]); intros H; injection H as H; congruence.
Qed.
Lemma cut_value_spec n name v c r : n = c :: r -> c <> "-"%char -> c <> "="%char -> cut_value n = (name, v) ->
  nameable name /\ match v with Some w => n = name ++ B "=" ++ w | None => n = name end.
Proof.
  intros -> N1 N2 H. cbn [cut_value] in H. destruct (cut_first "=" r) as [[a b]|] eqn:E; injection H as <- <-.
  - apply cut_first_some in E. destruct E as [-> N]. split; [|reflexivity]. exists c, a. split; [reflexivity|]. split; [exact N1|]. cbn. intuition congruence.
  - apply cut_first_none in E. split; [|reflexivity]. exists c, r. split; [reflexivity|]. split; [exact N1|]. cbn. intuition congruence.
Qed.
Lemma cut_value_app name w : nameable name -> cut_value (name ++ B "=" ++ w) = (name, Some w) /\ cut_value name = (name, None) /\ bad_name name = false /\ bad_name (name ++ B "=" ++ w) = false.
Proof.
  intros (c & r & -> & N1 & N2). cbn in N2. assert (c <> "="%char) as N3 by (intros X; apply N2; left; exact X). assert (~ In "="%char r) as N4 by tauto.
  change (cut_value ((c :: r) ++ B "=" ++ w)) with (match cut_first "="%char (r ++ "="%char :: w) with Some (a, b) => (c :: a, Some b) | None => ((c :: r) ++ B "=" ++ w, None) end).
  pose proof (cut_first_app "="%char r w N4) as C1. pose proof (cut_first_no "="%char r N4) as C2. unfold byte in *. rewrite C1. cbn [cut_value]. rewrite C2.
  split; [reflexivity|]. split; [reflexivity|]. cbn [bad_name app]. destruct (ascii_dec c "-"); [contradiction|]. destruct (ascii_dec c "="); [contradiction|]. split; reflexivity.
Qed.

Lemma last_text_cons n a m v ps : last_text n ((a, (m, v)) :: ps) = match last_text n ps with Some w => Some w | None => if beq m n then Some v else None end.
Proof. reflexivity. Qed.

Lemma value_step st name old x v ps n : mget name st = Some old -> setv old v = Some x ->
  forall a, value_of (mset name x st) ps n = value_of st ((a, (name, v)) :: ps) n.
Proof.
  intros E V a. unfold value_of. rewrite mget_mset_if, last_text_cons. destruct (beq_spec name n) as [->|N].
  - rewrite E. destruct (last_text n ps) as [w|]; [apply set_by_kind, (set_kind _ _ _ V)|]. symmetry. exact V.
  - destruct (mget n st); [|reflexivity]. destruct (last_text n ps); reflexivity.
Qed.

(** What was read: settings up to where the flags end; each flag has the last text for it. *)
Theorem C72_read : forall t args st left, prs t args = Some (st, left) ->
  exists ps stop, args = concat (map fst ps) ++ stop /\ ends stop left /\ Forall (sound t) ps /\ forall n, mget n st = value_of t ps n.
Proof.
  assert (forall k t args st left, (length args <= k)%nat -> prs t args = Some (st, left) ->
    exists ps stop, args = concat (map fst ps) ++ stop /\ ends stop left /\ Forall (sound t) ps /\ forall n, mget n st = value_of t ps n) as G.
  { induction k as [|k IH]; intros t args st left L H.
    - destruct args; [|cbn in L; lia]. cbn in H. injection H as <- <-. exists [], []. split; [reflexivity|]. split; [constructor|]. split; [constructor|].
      intros n. unfold value_of. cbn. destruct (mget n t); reflexivity.
    - destruct args as [|s rest].
      { cbn in H. injection H as <- <-. exists [], []. split; [reflexivity|]. split; [constructor|]. split; [constructor|]. intros n. unfold value_of. cbn. destruct (mget n t); reflexivity. }
      cbn [parse] in H. destruct (after_dashes s) as [m|] eqn:Ea.
      2: { injection H as <- <-. exists [], (s :: rest). split; [reflexivity|]. split; [apply end_word, after_dashes_none, Ea|]. split; [constructor|]. intros n. unfold value_of. cbn. destruct (mget n t); reflexivity. }
      destruct (beq_spec s (B "--")) as [->|Nm].
      { injection H as <- <-. exists [], (B "--" :: rest). split; [reflexivity|]. split; [apply end_mark|]. split; [constructor|]. intros n. unfold value_of. cbn. destruct (mget n t); reflexivity. }
      destruct (bad_name m) eqn:Eb; [discriminate|]. destruct (after_dashes_some s m Ea Nm Eb) as (d & D & -> & c & r & Em & N1 & N2).
      destruct (cut_value m) as [name value] eqn:Ec. destruct (cut_value_spec m name value c r Em N1 N2 Ec) as [Nn Ev].
      destruct (mget name t) as [old|] eqn:Eo; [|discriminate].
      assert (forall x v rest' a, (length rest' <= k)%nat -> setv old v = Some x -> prs (mset name x t) rest' = Some (st, left) -> spelled t a name v -> (d ++ m) :: rest = a ++ rest' ->
        exists ps stop, (d ++ m) :: rest = concat (map fst ps) ++ stop /\ ends stop left /\ Forall (sound t) ps /\ forall n, mget n st = value_of t ps n) as Step.
      { intros x v rest' a Lr V P Sp E. destruct (IH _ _ _ _ Lr P) as (ps & stop & E1 & E2 & E3 & E4). exists ((a, (name, v)) :: ps), stop.
        split; [rewrite E, E1; cbn [map concat fst]; rewrite app_assoc; reflexivity|]. split; [exact E2|]. split.
        - constructor; [split; [exact Sp|exists old, x; split; [exact Eo|exact V]]|]. eapply Forall_impl; [|exact E3]. intros p. apply sound_kinds, (same_mset t name old x Eo (set_kind _ _ _ V)).
        - intros n. rewrite E4. apply value_step with (old := old); assumption. }
      destruct value as [w|].
      + rewrite Em in *. rewrite Ev in *. clear Em. destruct (setv old w) as [x|] eqn:V; [|discriminate]. apply (Step x w rest [d ++ name ++ B "=" ++ w]); [cbn in L; lia|exact V|exact H|apply sp_equals; assumption|reflexivity].
      + subst name. destruct (is_bool old) eqn:Bo.
        * apply (Step (VBool true) (B "true") rest [d ++ m]); [cbn in L; lia| |exact H|apply (sp_bare t d m old D Nn Eo Bo)|reflexivity]. destruct old; try discriminate Bo. reflexivity.
        * destruct rest as [|v rest']; [discriminate|]. destruct (setv old v) as [x|] eqn:V; [|discriminate].
          apply (Step x v rest' [d ++ m; v]); [cbn in L; lia|exact V|exact H|apply (sp_next t d m v old D Nn Eo Bo)|reflexivity]. }
  intros t args st left. apply (G (length args)). lia.
Qed.

(** Every such command line is read. *)
Theorem C72_readable : forall t ps stop left, Forall (sound t) ps -> ends stop left ->
  exists st, prs t (concat (map fst ps) ++ stop) = Some (st, left) /\ forall n, mget n st = value_of t ps n.
Proof.
  intros t ps stop left H E. revert t H. induction ps as [|[a [name v]] ps IH]; intros t H.
  - exists t. split.
    + cbn [map concat app]. destruct E as [|r|s r N]; [reflexivity|reflexivity|]. cbn [parse]. destruct (after_dashes s) as [m|] eqn:Ea; [|reflexivity]. exfalso.
      destruct s as [|c [|d w]]; try discriminate. cbn in Ea. destruct (ascii_dec c "-") as [->|]; [|discriminate]. exact (N d w eq_refl).
    + intros n. unfold value_of. cbn. destruct (mget n t); reflexivity.
  - inversion H as [|? ? [Sp (old & x & Eo & V)] Hps]; subst. cbn [fst snd] in *.
    destruct (IH (mset name x t)) as (st & P & Vs).
    { eapply Forall_impl; [|exact Hps]. intros p. apply sound_kinds. intros n. symmetry. apply (same_mset t name old x Eo (set_kind _ _ _ V)). }
    exists st. split; [|intros n; rewrite Vs; apply value_step with (old := old); assumption].
    cbn [map concat fst]. rewrite <- app_assoc.
    inversion Sp as [d n w D Nn|d n w o D Nn E1 Bo|d n o D Nn E1 Bo]; subst a n; try subst w v; cbn [app].
    + destruct (cut_value_app name v Nn) as (C1 & _ & _ & B2). assert (exists c r, name ++ B "=" ++ v = c :: r /\ c <> "-"%char) as Hd by (destruct Nn as (c & r & -> & N1 & _); exists c, (r ++ B "=" ++ v); split; [reflexivity|exact N1]).
      destruct (after_dashes_app d _ D Hd) as [A1 A2]. cbn [parse]. rewrite A1. destruct (beq_spec (d ++ name ++ B "=" ++ v) (B "--")); [contradiction|]. rewrite B2, C1, Eo, V. exact P.
    + destruct (cut_value_app name v Nn) as (_ & C1 & B2 & _). assert (exists c r, name = c :: r /\ c <> "-"%char) as Hd by (destruct Nn as (c & r & -> & N1 & _); exists c, r; split; [reflexivity|exact N1]).
      destruct (after_dashes_app d _ D Hd) as [A1 A2]. cbn [parse]. rewrite A1. destruct (beq_spec (d ++ name) (B "--")); [contradiction|]. rewrite B2, C1, Eo.
      assert (o = old) as -> by congruence. rewrite Bo, V. exact P.
    + destruct (cut_value_app name [] Nn) as (_ & C1 & B2 & _). assert (exists c r, name = c :: r /\ c <> "-"%char) as Hd by (destruct Nn as (c & r & -> & N1 & _); exists c, r; split; [reflexivity|exact N1]).
      destruct (after_dashes_app d _ D Hd) as [A1 A2]. cbn [parse]. rewrite A1. destruct (beq_spec (d ++ name) (B "--")); [contradiction|]. rewrite B2, C1, Eo.
      assert (o = old) as -> by congruence. rewrite Bo. destruct old; try discriminate Bo. subst v. cbn in V. injection V as <-. exact P.
Qed.
End Parse.
Print Assumptions C72_read.
Print Assumptions C72_readable.

(** ** Which flags there are *)
Lemma mget_app (A : Type) n (a b : amap A) : mget n (a ++ b) = match mget n a with Some x => Some x | None => mget n b end.
Proof. induction a as [|[k v] a IH]; cbn; [reflexivity|]. destruct (beq n k); [reflexivity|exact IH]. Qed.
Lemma contains_in c s : contains c s = true <-> In c s.
Proof. destruct (contains c s) eqn:E; split; intros H; try reflexivity; try discriminate; [apply contains_spec; exact E|]. apply contains_spec in H. congruence. Qed.

(** Types a custom flag may have, and names the flag package takes. *)
Definition known (c : custom) : Prop := cu_type c = B "string" \/ cu_type c = B "int" \/ cu_type c = B "bool".
Definition good_name (n : bytes) : Prop := (forall r, n <> "-"%char :: r) /\ ~ In "="%char n.
Definition knownb (c : custom) : bool := one_of (cu_type c) ["string"; "int"; "bool"]%string.
Lemma knownb_spec c : knownb c = true <-> known c.
Proof.
  unfold knownb, known, one_of. cbn [existsb]. rewrite !Bool.orb_true_iff. split.
  - intros [H|[H|[H|H]]]; try (apply beq_true in H; rewrite H; tauto). discriminate.
  - intros [E|[E|E]]; rewrite E, beq_refl; tauto.
Qed.
Lemma define_spec n v t t' : define n v t = Some t' <-> mget n t = None /\ good_name n /\ t' = t ++ [(n, v)].
Proof.
  unfold define, good_name. destruct (mget n t) as [x|]; [split; [discriminate|intros [H _]; discriminate]|].
  assert (forall b, (match n with c :: _ => if ascii_dec c "-"%char then true else false | [] => false end) = b -> (b = false <-> forall r, n <> "-"%char :: r)) as D.
  { intros b <-. destruct n as [|c r]; [split; [intros _ r; discriminate|reflexivity]|]. destruct (ascii_dec c "-") as [->|N]; split; try discriminate; try reflexivity.
    - intros H. destruct (H r eq_refl).
    - intros _ r' [= X _]. contradiction. }
  specialize (D _ eq_refl). destruct (match n with c :: _ => if ascii_dec c "-"%char then true else false | [] => false end); cbn [orb].
  - split; [discriminate|]. intros (_ & [H _] & _). apply D in H. discriminate.
  - destruct (contains "=" n) eqn:C.
    + split; [discriminate|]. intros (_ & [_ H] & _). apply contains_in in C. contradiction.
    + split; [intros [= <-]|intros (_ & _ & ->); reflexivity]. split; [reflexivity|]. split; [|reflexivity]. split; [apply D; reflexivity|]. intros X. apply contains_in in X. congruence.
Qed.
Lemma mget_none_keys (A : Type) n (t : amap A) : mget n t = None <-> ~ In n (map fst t).
Proof.
  induction t as [|[k v] t IH]; cbn; [tauto|]. destruct (beq_spec n k) as [->|N]; [split; [discriminate|tauto]|]. rewrite IH. intuition congruence.
Qed.

(** The flags in the order they are defined. *)
Definition customs (cs : list custom) : amap fval := map (fun c => (cu_name c, cu_default c)) (filter knownb cs).
Definition help_flags : amap fval := [(B "h", VBool false); (B "help", VBool false)].
(** The definitions go through: no name twice, names the package takes, defaults of the type. *)
Definition definable (cs : list custom) : Prop :=
  NoDup (map fst (standard ++ customs cs ++ help_flags)) /\
  forall c, In c cs -> known c -> good_name (cu_name c) /\ type_of (cu_default c) = cu_type c.

Lemma define_custom_spec cs : forall t t', NoDup (map fst t) ->
  (define_custom cs t = Some t' <-> t' = t ++ customs cs /\ NoDup (map fst (t ++ customs cs)) /\ forall c, In c cs -> known c -> good_name (cu_name c) /\ type_of (cu_default c) = cu_type c).
Proof.
  induction cs as [|c cs IH]; intros t t' N.
  - cbn. rewrite app_nil_r. split; [intros [= <-]; split; [reflexivity|]; split; [exact N|intros c []]|intros (-> & _ & _); reflexivity].
  - cbn [define_custom]. fold (knownb c). unfold customs. cbn [filter]. fold (customs cs). destruct (knownb c) eqn:K; cbn [negb map].
    + fold (customs cs). pose proof (proj1 (knownb_spec c) K) as Kn. destruct (beq_spec (type_of (cu_default c)) (cu_type c)) as [Ty|Ty]; cbn [negb].
      2: { split; [discriminate|]. intros (_ & _ & H). destruct (H c (or_introl eq_refl) Kn) as [_ X]. contradiction. }
      destruct (define (cu_name c) (cu_default c) t) as [t1|] eqn:D.
      * apply define_spec in D. destruct D as (D1 & D2 & ->). assert (NoDup (map fst (t ++ [(cu_name c, cu_default c)]))) as N1.
        { rewrite map_app. cbn. apply mget_none_keys in D1. clear - N D1. induction (map fst t) as [|k l IHl]; cbn; [constructor; [intros []|constructor]|].
          inversion N; subst. constructor; [rewrite in_app_iff; cbn; intros [X|[X|[]]]; [contradiction|subst; apply D1; left; reflexivity]|apply IHl; [assumption|intros X; apply D1; right; exact X]]. }
        rewrite (IH _ t' N1). rewrite <- app_assoc. cbn [app]. split.
        -- intros (-> & A & Bc). split; [reflexivity|]. split; [exact A|]. intros c' [<-|I] Kc; [split; assumption|apply Bc; assumption].
        -- intros (-> & A & Bc). split; [reflexivity|]. split; [exact A|]. intros c' I Kc. apply Bc; [right; exact I|exact Kc].
      * split; [discriminate|]. intros (_ & A & Bc). exfalso. destruct (Bc c (or_introl eq_refl) Kn) as [G _].
        assert (mget (cu_name c) t = None) as M. { apply mget_none_keys. intros X. rewrite map_app in A. cbn in A. apply NoDup_remove_2 in A. apply A. rewrite in_app_iff. left. exact X. }
        assert (define (cu_name c) (cu_default c) t = Some (t ++ [(cu_name c, cu_default c)])) as D' by (apply define_spec; repeat split; try assumption; apply G). congruence.
    + rewrite (IH t t' N). split.
      * intros (-> & A & Bc). split; [reflexivity|]. split; [exact A|]. intros c' [<-|I] Kc; [apply knownb_spec in Kc; congruence|apply Bc; assumption].
      * intros (-> & A & Bc). split; [reflexivity|]. split; [exact A|]. intros c' I Kc. apply Bc; [right; exact I|exact Kc].
Qed.

Lemma nodup_front (l m : list bytes) : NoDup (l ++ m) -> NoDup l.
Proof. induction l as [|x l IH]; cbn; intros H; [constructor|]. inversion H; subst. constructor; [rewrite in_app_iff in H2; tauto|apply IH; assumption]. Qed.

(** There are the 16 standard flags, the custom flags of one of the three types, and the two for help;
    anything else panics. *)
Theorem C72_flags : forall cs t, table cs = Some t <-> definable cs /\ t = standard ++ customs cs ++ help_flags.
Proof.
  intros cs t. unfold table. assert (NoDup (map fst standard)) as Ns by (vm_compute; repeat constructor; cbn; intuition discriminate).
  assert (good_name (B "h") /\ good_name (B "help")) as [G1 G2] by (unfold good_name; split; (split; [intros r; discriminate|cbn; intuition discriminate])).
  unfold definable. split.
  - destruct (define_custom cs standard) as [t1|] eqn:D; [|discriminate]. apply (define_custom_spec cs standard t1 Ns) in D. destruct D as (-> & A & Bc).
    destruct (define (B "h") (VBool false) (standard ++ customs cs)) as [t2|] eqn:D2; [|discriminate]. apply define_spec in D2. destruct D2 as (M1 & _ & ->).
    intros D3. apply define_spec in D3. destruct D3 as (M2 & _ & ->). rewrite <- !app_assoc. split; [|reflexivity]. split; [|exact Bc].
    apply mget_none_keys in M1, M2. rewrite app_assoc, map_app. rewrite map_app in M2. cbn [map fst help_flags] in *.
    revert A M1 M2. generalize (map fst (standard ++ customs cs)). intros l A M1 M2. rewrite in_app_iff in M2. cbn [In] in M2.
    apply NoDup_Add with (a := B "h") (l := l ++ [B "help"]); [|].
    + apply Add_app.
    + split; [|rewrite in_app_iff; cbn; intros [X|[X|[]]]; [contradiction|discriminate]].
      apply NoDup_Add with (a := B "help") (l := l); [rewrite <- (app_nil_r l) at 1; apply Add_app|]. split; [exact A|tauto].
  - intros [[N Bc] ->]. rewrite app_assoc, map_app in N. pose proof (nodup_front _ _ N) as A.
    assert (define_custom cs standard = Some (standard ++ customs cs)) as -> by (apply (define_custom_spec cs standard _ Ns); repeat split; try assumption; apply (Bc c); assumption).
    cbn [map fst help_flags] in N. pose proof (NoDup_remove_2 _ _ _ N) as M1. rewrite in_app_iff in M1.
    change (map fst (standard ++ customs cs) ++ [B "h"; B "help"]) with (map fst (standard ++ customs cs) ++ [B "h"] ++ [B "help"]) in N. rewrite app_assoc in N. pose proof (NoDup_remove_2 _ _ _ N) as M2. rewrite app_nil_r in M2.
    assert (define (B "h") (VBool false) (standard ++ customs cs) = Some ((standard ++ customs cs) ++ [(B "h", VBool false)])) as ->.
    { apply define_spec. split; [apply mget_none_keys; tauto|]. split; [exact G1|reflexivity]. }
    assert (forall t', t' = ((standard ++ customs cs) ++ [(B "h", VBool false)]) ++ [(B "help", VBool false)] -> define (B "help") (VBool false) ((standard ++ customs cs) ++ [(B "h", VBool false)]) = Some t') as X.
    { intros t' ->. apply define_spec. split; [|split; [exact G2|reflexivity]]. apply mget_none_keys. rewrite map_app. exact M2. }
    rewrite (X (standard ++ customs cs ++ help_flags)); [reflexivity|]. rewrite <- !app_assoc. reflexivity.
Qed.
Print Assumptions C72_flags.

(** ** What is accepted, and as what *)
Section Accept.
Variable parse_int : bytes -> option Z.
(** The text, number or truth value given for a flag, else the default.  (Texts that are no value of
    the flag end the program, see [sound].) *)
Definition txt (ps : list piece) (n : string) (d : bytes) : bytes := match last_text (B n) ps with Some v => v | None => d end.
Definition num_at (ps : list piece) (n : bytes) (d : Z) : Z :=
  match last_text n ps with Some v => match parse_int v with Some z => z | None => 0%Z end | None => d end.
Definition num (ps : list piece) (n : string) (d : Z) : Z := num_at ps (B n) d.
Definition sw_at (ps : list piece) (n : bytes) (d : bool) : bool :=
  match last_text n ps with Some v => match parse_bool v with Some b => b | None => false end | None => d end.
Definition sw (ps : list piece) (n : string) (d : bool) : bool := sw_at ps (B n) d.
Definition settings (ps : list piece) : config :=
  Config (txt ps "project" []) (txt ps "module" []) (txt ps "modules" []) (txt ps "gomod" []) (txt ps "gowork" [])
    (num ps "monitorport" 44440) (num ps "fieldrecurse" 20) (num ps "fieldlen" 1024) (num ps "cachemb" 200)
    (txt ps "json" (B "modreport.json")) (txt ps "charts" (B "modreport.png"))
    (txt ps "mutationscope" (B "line")) (txt ps "mutationset" (B "fast")) (txt ps "mutationtests" (B "targeted"))
    (sw ps "tmpcopy" true) (num ps "timemultiplier" 2) [] [] false.
(** The text of a custom flag. *)
Definition custom_text (ps : list piece) (c : custom) : bytes :=
  match cu_default c with
  | VStr d => match last_text (cu_name c) ps with Some v => v | None => d end
  | VInt d => zitoa (num_at ps (cu_name c) d)
  | VBool d => if sw_at ps (cu_name c) d then B "true" else B "false"
  end.
(** What the command line must say. *)
Definition enough (c : config) : Prop :=
  c_project c <> [] /\ (c_module c <> [] \/ c_modules c <> [] \/ c_gomod c <> [] \/ c_gowork c <> []) /\ (c_gomod c = [] \/ c_gowork c = []).

Lemma str_value t ps st n d : mget n t = Some (VStr d) -> mget n st = value_of parse_int t ps n -> str_of n st = match last_text n ps with Some v => v | None => d end.
Proof. intros E V. unfold str_of. rewrite V. unfold value_of. rewrite E. destruct (last_text n ps); reflexivity. Qed.
Lemma int_value t ps st n d : mget n t = Some (VInt d) -> mget n st = value_of parse_int t ps n -> int_of n st = num_at ps n d.
Proof. intros E V. unfold int_of, num_at. rewrite V. unfold value_of. rewrite E. destruct (last_text n ps) as [v|]; [|reflexivity]. cbn. destruct (parse_int v); reflexivity. Qed.
Lemma bool_value t ps st n d : mget n t = Some (VBool d) -> mget n st = value_of parse_int t ps n -> bool_of n st = sw_at ps n d.
Proof. intros E V. unfold bool_of, sw_at. rewrite V. unfold value_of. rewrite E. destruct (last_text n ps) as [v|]; [|reflexivity]. cbn. destruct (parse_bool v); reflexivity. Qed.

Lemma nodup_get (t : amap fval) n x : NoDup (map fst t) -> In (n, x) t -> mget n t = Some x.
Proof.
  induction t as [|[k v] t IH]; cbn; intros N I; [contradiction|]. inversion N; subst. destruct I as [E|I].
  - injection E as -> ->. rewrite beq_refl. reflexivity.
  - destruct (beq_spec n k) as [->|Ne]; [|apply IH; assumption]. exfalso. apply H1. apply (in_map fst) in I. exact I.
Qed.

Lemma table_get cs t : table cs = Some t ->
  (forall n x, In (n, x) standard -> mget n t = Some x) /\ mget (B "h") t = Some (VBool false) /\ mget (B "help") t = Some (VBool false) /\
  (forall c, In c cs -> known c -> mget (cu_name c) t = Some (cu_default c) /\ type_of (cu_default c) = cu_type c).
Proof.
  intros T. apply C72_flags in T. destruct T as [[N Bc] ->]. split; [|split; [|split]].
  - intros n x I. apply nodup_get; [exact N|]. rewrite in_app_iff. left. exact I.
  - apply nodup_get; [exact N|]. rewrite !in_app_iff. right. right. left. reflexivity.
  - apply nodup_get; [exact N|]. rewrite !in_app_iff. right. right. right. left. reflexivity.
  - intros c I K. split; [|apply (Bc c I K)]. apply nodup_get; [exact N|]. rewrite !in_app_iff. right. left. unfold customs. apply in_map_iff. exists c. split; [reflexivity|]. apply filter_In. split; [exact I|apply knownb_spec, K].
Qed.

Lemma config_value cs t ps st : table cs = Some t -> (forall n, mget n st = value_of parse_int t ps n) -> config_of st = settings ps.
Proof.
  intros T V. apply C72_flags in T. destruct T as [_ ->].
  assert (forall n x, mget n standard = Some x -> mget n (standard ++ customs cs ++ help_flags) = Some x) as S by (intros n x E; rewrite mget_app, E; reflexivity).
  revert S V. generalize (standard ++ customs cs ++ help_flags). intros t S V.
  assert (forall n d, mget (B n) standard = Some (VStr d) -> str_of (B n) st = txt ps n d) as Ss by (intros n d I; apply (str_value t); [apply S, I|apply V]).
  assert (forall n d, mget (B n) standard = Some (VInt d) -> int_of (B n) st = num ps n d) as Si by (intros n d I; apply (int_value t); [apply S, I|apply V]).
  assert (forall n d, mget (B n) standard = Some (VBool d) -> bool_of (B n) st = sw ps n d) as Sb by (intros n d I; apply (bool_value t); [apply S, I|apply V]).
  unfold config_of, settings.
  rewrite (Ss "project"%string []), (Ss "module"%string []), (Ss "modules"%string []), (Ss "gomod"%string []), (Ss "gowork"%string []), (Si "monitorport"%string 44440%Z), (Si "fieldrecurse"%string 20%Z), (Si "fieldlen"%string 1024%Z), (Si "cachemb"%string 200%Z),
    (Ss "json"%string (B "modreport.json")), (Ss "charts"%string (B "modreport.png")), (Ss "mutationscope"%string (B "line")), (Ss "mutationset"%string (B "fast")), (Ss "mutationtests"%string (B "targeted")), (Sb "tmpcopy"%string true), (Si "timemultiplier"%string 2%Z)
    by reflexivity. reflexivity.
Qed.

Lemma texts_get cs st n w : (forall c, In c cs -> known c -> exists x, mget (cu_name c) st = Some x) ->
  mget n (custom_texts cs st) = Some w <-> exists c x, In c cs /\ known c /\ cu_name c = n /\ mget n st = Some x /\ w = value_text x.
Proof.
  intros D. unfold custom_texts.
  assert (forall m0, mget n (fold_left (fun m c => if one_of (cu_type c) ["string"; "int"; "bool"]%string
                        then match mget (cu_name c) st with Some v => mset (cu_name c) (value_text v) m | None => m end else m) cs m0) = Some w
     <-> (exists c x, In c cs /\ known c /\ cu_name c = n /\ mget n st = Some x /\ w = value_text x) \/ ((forall c, In c cs -> known c -> cu_name c <> n) /\ mget n m0 = Some w)) as G.
  { induction cs as [|c cs IH]; intros m0.
    - cbn. split; [intros H; right; split; [intros c []|exact H]|intros [(c & x & [] & _)|[_ H]]; exact H].
    - cbn [fold_left]. rewrite IH by (intros c' I; apply D; right; exact I). fold (knownb c). split.
      + intros [(c' & x & I & H)|[Hn H]]; [left; exists c', x; split; [right; exact I|exact H]|]. destruct (knownb c) eqn:K.
        * apply knownb_spec in K. destruct (D c (or_introl eq_refl) K) as [x Ex]. rewrite Ex, mget_mset in H. destruct (beq_spec n (cu_name c)) as [->|Ne].
          -- injection H as <-. left. exists c, x. split; [left; reflexivity|]. repeat split; assumption.
          -- right. split; [|exact H]. intros c' [<-|I] K'; [congruence|apply Hn; assumption].
        * right. split; [|exact H]. intros c' [<-|I] K'; [apply knownb_spec in K'; congruence|apply Hn; assumption].
      + intros [(c' & x & [<-|I] & Kc & En & Ex & Ew)|[Hn H]].
        * destruct (existsb (fun c' => knownb c' && beq (cu_name c') n) cs) eqn:Later.
          -- apply existsb_exists in Later. destruct Later as (c' & I' & L). apply Bool.andb_true_iff in L. destruct L as [L1 L2]. apply knownb_spec in L1. apply beq_true in L2.
             left. exists c', x. repeat split; assumption.
          -- right. split.
             ++ intros c' I' K' E. assert (existsb (fun c' => knownb c' && beq (cu_name c') n) cs = true) as X; [|congruence]. apply existsb_exists. exists c'. split; [exact I'|]. rewrite (proj2 (knownb_spec c') K'), E. apply beq_refl.
             ++ rewrite (proj2 (knownb_spec c) Kc). rewrite En, Ex, mget_mset, beq_refl, Ew. reflexivity.
        * left. exists c', x. split; [exact I|]. repeat split; assumption.
        * right. split; [intros c' I' K'; apply Hn; [right; exact I'|exact K']|]. destruct (knownb c) eqn:K; [|exact H]. destruct (mget (cu_name c) st); [|exact H]. rewrite mget_mset_other; [exact H|].
          intros E. apply (Hn c (or_introl eq_refl)); [apply knownb_spec, K|symmetry; exact E]. }
  rewrite G. cbn [mget]. split; [intros [H|[_ H]]; [exact H|discriminate]|intros H; left; exact H].
Qed.

Lemma value_there t ps n d : Forall (sound parse_int t) ps -> mget n t = Some d -> exists x, value_of parse_int t ps n = Some x.
Proof.
  intros F E. unfold value_of. rewrite E. destruct (last_text n ps) as [v|] eqn:L; [|exists d; reflexivity].
  assert (exists p, In p ps /\ snd p = (n, v)) as (p & I & Ep).
  { clear F. induction ps as [|[a [m u]] ps IH]; [discriminate|]. cbn in L. destruct (last_text n ps) as [w|] eqn:L'.
    - injection L as ->. destruct (IH eq_refl) as (p & I & Ep). exists p. split; [right; exact I|exact Ep].
    - destruct (beq_spec m n) as [->|]; [|discriminate]. injection L as ->. exists (a, (n, v)). split; [left; reflexivity|reflexivity]. }
  rewrite Forall_forall in F. destruct (F p I) as [_ (old & x & Eo & Vx)]. rewrite Ep in Eo, Vx. cbn in Eo, Vx. exists x. congruence.
Qed.

Lemma empty_iff s : empty s = true <-> s = [].
Proof. destruct s; cbn; split; congruence. Qed.
Lemma empty_no s : empty s = false <-> s <> [].
Proof. destruct s; cbn; split; congruence. Qed.

Lemma parse_flags_eq cs gp gm args : parse_flags parse_int cs gp gm args =
  match table cs with
  | None => Panics
  | Some t => match parse parse_int t args with
    | None => Usage
    | Some (st, _) => if bool_of (B "h") st || bool_of (B "help") st then Help else
        let c := config_of st in
        if (empty (c_module c) && empty (c_modules c) && empty (c_gomod c) && empty (c_gowork c)) || empty (c_project c) then Refused
        else if negb (empty (c_gomod c)) && negb (empty (c_gowork c)) then Refused
        else match setup gp gm with None => Refused | Some (p, m) => Accepted c (custom_texts cs st) p m end
    end
  end.
Proof. reflexivity. Qed.

(** A command line read as settings: its outcome. *)
Lemma outcome_of cs t gp gm ps st : table cs = Some t -> Forall (sound parse_int t) ps -> (forall n, mget n st = value_of parse_int t ps n) ->
  forall left args, parse parse_int t args = Some (st, left) ->
  match parse_flags parse_int cs gp gm args with
  | Panics => False
  | Usage => False
  | Help => sw ps "h" false = true \/ sw ps "help" false = true
  | Refused => sw ps "h" false = false /\ sw ps "help" false = false /\ (~ enough (settings ps) \/ (gp = [] /\ gm = []))
  | Accepted c texts p m => sw ps "h" false = false /\ sw ps "help" false = false /\ enough c /\ c = settings ps /\
      p = gp /\ m = match gm with [] => join_parts [gp; B "pkg"; B "mod"] | _ => gm end /\ (gp <> [] \/ gm <> []) /\
      forall n w, mget n texts = Some w <-> exists cu, In cu cs /\ known cu /\ cu_name cu = n /\ w = custom_text ps cu
  end.
Proof.
  intros T F V left args P. rewrite parse_flags_eq, T, P. destruct (table_get cs t T) as (S & Th & Thl & Tc).
  rewrite (bool_value t ps st (B "h") false Th (V _)), (bool_value t ps st (B "help") false Thl (V _)). fold (sw ps "h" false). fold (sw ps "help" false).
  destruct (sw ps "h" false); [left; reflexivity|]. destruct (sw ps "help" false); [right; reflexivity|]. cbn [orb]. cbv zeta.
  pose proof (config_value cs t ps st T V) as C. rewrite C.
  destruct ((empty (c_module (settings ps)) && empty (c_modules (settings ps)) && empty (c_gomod (settings ps)) && empty (c_gowork (settings ps))) || empty (c_project (settings ps))) eqn:E1.
  { split; [reflexivity|]. split; [reflexivity|]. left. intros (A & A2 & _). apply Bool.orb_true_iff in E1. rewrite !Bool.andb_true_iff, !empty_iff in E1. tauto. }
  destruct (negb (empty (c_gomod (settings ps))) && negb (empty (c_gowork (settings ps)))) eqn:E2.
  { split; [reflexivity|]. split; [reflexivity|]. left. intros (_ & _ & A). rewrite Bool.andb_true_iff, !Bool.negb_true_iff, !empty_no in E2. tauto. }
  assert (enough (settings ps)) as En.
  { apply Bool.orb_false_iff in E1. destruct E1 as [E1 E0]. apply empty_no in E0. split; [exact E0|]. split.
    - rewrite !Bool.andb_false_iff, !empty_no in E1. tauto.
    - rewrite Bool.andb_false_iff, !Bool.negb_false_iff, !empty_iff in E2. exact E2. }
  destruct (setup gp gm) as [[p m]|] eqn:Es.
  - split; [reflexivity|]. split; [reflexivity|]. split; [exact En|]. split; [reflexivity|].
    assert (p = gp /\ m = match gm with [] => join_parts [gp; B "pkg"; B "mod"] | _ => gm end /\ (gp <> [] \/ gm <> [])) as (-> & -> & G).
    { unfold setup in Es. destruct gm as [|x gm]; [destruct gp as [|y gp]; [discriminate|]|]; injection Es as <- <-; (split; [reflexivity|]; split; [reflexivity|]); [left|right]; discriminate. }
    split; [reflexivity|]. split; [reflexivity|]. split; [exact G|]. intros n w.
    assert (forall c, In c cs -> known c -> exists x, mget (cu_name c) st = Some x) as D by (intros c I K; rewrite V; apply (value_there t ps _ (cu_default c) F), (Tc c I K)).
    assert (forall c x, In c cs -> known c -> mget (cu_name c) st = Some x -> value_text x = custom_text ps c) as Tx.
    { intros c x I K Ex. destruct (Tc c I K) as [Td _]. unfold custom_text. destruct (cu_default c) as [d|d|d] eqn:Ed.
      - rewrite V in Ex. unfold value_of in Ex. rewrite Td in Ex. destruct (last_text (cu_name c) ps); cbn in Ex; injection Ex as <-; reflexivity.
      - rewrite <- (int_value t ps st _ d Td (V _)). unfold int_of. rewrite Ex. rewrite V in Ex. unfold value_of in Ex. rewrite Td in Ex. destruct (last_text (cu_name c) ps) as [v|]; cbn in Ex; [destruct (parse_int v)|]; cbn in Ex; try discriminate; injection Ex as <-; reflexivity.
      - rewrite <- (bool_value t ps st _ d Td (V _)). unfold bool_of. rewrite Ex. rewrite V in Ex. unfold value_of in Ex. rewrite Td in Ex. destruct (last_text (cu_name c) ps) as [v|]; cbn in Ex; [destruct (parse_bool v)|]; cbn in Ex; try discriminate; injection Ex as <-; reflexivity. }
    rewrite (texts_get cs st n w D). split.
    + intros (c & x & I & K & <- & Ex & ->). exists c. split; [exact I|]. split; [exact K|]. split; [reflexivity|]. apply Tx; assumption.
    + intros (c & I & K & <- & ->). destruct (D c I K) as [x Ex]. exists c, x. split; [exact I|]. split; [exact K|]. split; [reflexivity|]. split; [exact Ex|]. symmetry. apply Tx; assumption.
  - split; [reflexivity|]. split; [reflexivity|]. right. unfold setup in Es. destruct gm; [|discriminate]. destruct gp; [|discriminate]. split; reflexivity.
Qed.

(** The configuration handed on is the one the arguments spell. *)
Theorem C72_accepted : forall cs gp gm args c texts p m, parse_flags parse_int cs gp gm args = Accepted c texts p m ->
  exists t ps stop left, table cs = Some t /\ args = concat (map fst ps) ++ stop /\ ends stop left /\ Forall (sound parse_int t) ps /\
    sw ps "h" false = false /\ sw ps "help" false = false /\ enough c /\ c = settings ps /\
    p = gp /\ m = match gm with [] => join_parts [gp; B "pkg"; B "mod"] | _ => gm end /\ (gp <> [] \/ gm <> []) /\
    forall n w, mget n texts = Some w <-> exists cu, In cu cs /\ known cu /\ cu_name cu = n /\ w = custom_text ps cu.
Proof.
  intros cs gp gm args c texts p m H. destruct (table cs) as [t|] eqn:T; [|rewrite parse_flags_eq, T in H; discriminate].
  destruct (parse parse_int t args) as [[st left]|] eqn:P; [|rewrite parse_flags_eq, T, P in H; discriminate].
  destruct (C72_read parse_int t args st left P) as (ps & stop & E & En & F & V). pose proof (outcome_of cs t gp gm ps st T F V left args P) as O. rewrite H in O.
  exists t, ps, stop, left. repeat (split; [first [reflexivity|assumption]|]). exact O.
Qed.

(** Arguments that spell settings have exactly one of three outcomes, by the last text for each flag:
    help, a refusal, or the configuration they spell. *)
Theorem C72_outcome : forall cs t gp gm ps stop left, table cs = Some t -> Forall (sound parse_int t) ps -> ends stop left ->
  match parse_flags parse_int cs gp gm (concat (map fst ps) ++ stop) with
  | Panics => False
  | Usage => False
  | Help => sw ps "h" false = true \/ sw ps "help" false = true
  | Refused => sw ps "h" false = false /\ sw ps "help" false = false /\ (~ enough (settings ps) \/ (gp = [] /\ gm = []))
  | Accepted c texts p m => sw ps "h" false = false /\ sw ps "help" false = false /\ enough c /\ c = settings ps /\
      p = gp /\ m = match gm with [] => join_parts [gp; B "pkg"; B "mod"] | _ => gm end /\ (gp <> [] \/ gm <> []) /\
      forall n w, mget n texts = Some w <-> exists cu, In cu cs /\ known cu /\ cu_name cu = n /\ w = custom_text ps cu
  end.
Proof.
  intros cs t gp gm ps stop left T F E. destruct (C72_readable parse_int t ps stop left F E) as (st & P & V). exact (outcome_of cs t gp gm ps st T F V left _ P).
Qed.

(** Everything else ends the program with the usage text: an argument of an unknown flag, a text that
    is no value of its flag, or a flag without its value. *)
Theorem C72_usage : forall cs t gp gm args, table cs = Some t ->
  (parse_flags parse_int cs gp gm args = Usage <-> ~ exists ps stop left, args = concat (map fst ps) ++ stop /\ ends stop left /\ Forall (sound parse_int t) ps).
Proof.
  intros cs t gp gm args T. split.
  - intros H (ps & stop & left & -> & E & F). pose proof (C72_outcome cs t gp gm ps stop left T F E) as O. rewrite H in O. exact O.
  - intros H. rewrite parse_flags_eq, T. destruct (parse parse_int t args) as [[st left]|] eqn:P; [|reflexivity]. exfalso. apply H.
    destruct (C72_read parse_int t args st left P) as (ps & stop & E & En & F & _). exists ps, stop, left. repeat split; assumption.
Qed.

(** The same outcome: states that agree on every flag. *)
Lemma same_state cs t gp gm a b st st' l l' : table cs = Some t -> parse parse_int t a = Some (st, l) -> parse parse_int t b = Some (st', l') ->
  (forall n, mget n st = mget n st') -> parse_flags parse_int cs gp gm a = parse_flags parse_int cs gp gm b.
Proof.
  intros T P P' E. rewrite !parse_flags_eq, T, P, P'. assert (forall n, bool_of n st = bool_of n st') as Eb by (intros n; unfold bool_of; rewrite E; reflexivity).
  assert (config_of st = config_of st') as ->. { unfold config_of, str_of, int_of, bool_of. rewrite !E. reflexivity. }
  rewrite !Eb. assert (custom_texts cs st = custom_texts cs st') as ->; [|reflexivity].
  unfold custom_texts. clear T. generalize (@nil (bytes * bytes)). induction cs as [|c cs IH]; [reflexivity|]. intros m. cbn [fold_left]. rewrite E. apply IH.
Qed.

(** Everything behind the end of the flags is ignored, whatever it is. *)
Theorem C72_rest_ignored : forall cs t gp gm ps s r r', table cs = Some t -> Forall (sound parse_int t) ps -> (s = B "--" \/ forall c w, s <> "-"%char :: c :: w) ->
  parse_flags parse_int cs gp gm (concat (map fst ps) ++ s :: r) = parse_flags parse_int cs gp gm (concat (map fst ps) ++ s :: r') /\
  parse_flags parse_int cs gp gm (concat (map fst ps) ++ s :: r) = parse_flags parse_int cs gp gm (concat (map fst ps)).
Proof.
  intros cs t gp gm ps s r r' T F Hs.
  assert (forall q, exists left, ends (s :: q) left) as En by (intros q; destruct Hs as [-> | Hs]; [exists q; apply end_mark|exists (s :: q); apply end_word, Hs]).
  destruct (En r) as [l E1], (En r') as [l' E2]. destruct (C72_readable parse_int t ps _ _ F E1) as (st & P & V). destruct (C72_readable parse_int t ps _ _ F E2) as (st' & P' & V').
  destruct (C72_readable parse_int t ps _ _ F end_none) as (st0 & P0 & V0). rewrite app_nil_r in P0.
  split; [apply (same_state cs t gp gm _ _ st st' l l' T P P'); intros n; rewrite V, V'; reflexivity|apply (same_state cs t gp gm _ _ st st0 l [] T P P0); intros n; rewrite V, V0; reflexivity].
Qed.

(** The order of settings of different flags does not matter. *)
Lemma last_text_none n ps : ~ In n (map (fun p : piece => fst (snd p)) ps) -> last_text n ps = None.
Proof. induction ps as [|[a [m v]] ps IH]; [reflexivity|]. cbn. intros H. rewrite IH by tauto. destruct (beq_spec m n); [tauto|reflexivity]. Qed.
Lemma last_text_in n v ps : NoDup (map (fun p : piece => fst (snd p)) ps) -> (last_text n ps = Some v <-> exists a, In (a, (n, v)) ps).
Proof.
  induction ps as [|[a [m u]] ps IH]; intros N; [split; [discriminate|intros [a []]]|]. cbn [map fst snd] in N. apply NoDup_cons_iff in N. destruct N as [N1 N2]. specialize (IH N2).
  cbn [last_text]. destruct (beq_spec m n) as [->|Ne].
  - rewrite (last_text_none n ps N1). split; [intros [= <-]; exists a; left; reflexivity|]. intros [a' [E|I]]; [injection E as _ ->; reflexivity|].
    exfalso. apply N1. apply in_map_iff. exists (a', (n, v)). split; [reflexivity|exact I].
  - assert ((exists a', In (a', (n, v)) ((a, (m, u)) :: ps)) <-> exists a', In (a', (n, v)) ps) as ->.
    { split; intros [a' I]; exists a'; [destruct I as [E|I]; [congruence|exact I]|right; exact I]. }
    rewrite <- IH. destruct (last_text n ps); split; congruence.
Qed.
Theorem C72_order : forall cs t gp gm ps ps', table cs = Some t -> Forall (sound parse_int t) ps -> Permutation ps ps' -> NoDup (map (fun p : piece => fst (snd p)) ps) ->
  parse_flags parse_int cs gp gm (concat (map fst ps)) = parse_flags parse_int cs gp gm (concat (map fst ps')).
Proof.
  intros cs t gp gm ps ps' T F Pm N. assert (Forall (sound parse_int t) ps') as F'. { rewrite Forall_forall in *. intros p I. apply F. apply (Permutation_in p (Permutation_sym Pm) I). }
  assert (NoDup (map (fun p : piece => fst (snd p)) ps')) as N' by (apply (Permutation_NoDup (Permutation_map _ Pm) N)).
  destruct (C72_readable parse_int t ps _ _ F end_none) as (st & P & V). destruct (C72_readable parse_int t ps' _ _ F' end_none) as (st' & P' & V'). rewrite app_nil_r in P, P'.
  apply (same_state cs t gp gm _ _ st st' [] [] T P P'). intros n. rewrite V, V'. unfold value_of. destruct (mget n t); [|reflexivity].
  assert (last_text n ps = last_text n ps') as ->; [|reflexivity].
  assert (forall v, last_text n ps = Some v <-> last_text n ps' = Some v) as Q.
  { intros v. rewrite (last_text_in n v ps N), (last_text_in n v ps' N'). split; intros [a I]; exists a; [apply (Permutation_in _ Pm I)|apply (Permutation_in _ (Permutation_sym Pm) I)]. }
  destruct (last_text n ps) as [v|]; [symmetry; apply Q; reflexivity|]. destruct (last_text n ps') as [v|]; [|reflexivity]. pose proof (proj2 (Q v) eq_refl). discriminate.
Qed.

(** Without settings for them, the numbers and words are ones Prepare takes (C43). *)
Theorem C72_defaults : forall ps, (forall n, In n (map B ["monitorport"; "fieldrecurse"; "fieldlen"; "cachemb"; "timemultiplier"; "mutationscope"; "mutationset"; "mutationtests"]%string) -> last_text n ps = None) ->
  ranges_ok (settings ps) = true /\ words_ok (settings ps) = true.
Proof.
  intros ps H. unfold ranges_ok, words_ok, settings. cbn [c_port c_recurse c_len c_cache c_mult c_scope c_mode c_tests]. unfold num, num_at, txt.
  rewrite !H by (cbn [map]; repeat first [left; reflexivity|right]). split; reflexivity.
Qed.
End Accept.
Print Assumptions C72_accepted.
Print Assumptions C72_outcome.
Print Assumptions C72_usage.
Print Assumptions C72_rest_ignored.
Print Assumptions C72_order.
Print Assumptions C72_defaults.

(** ** Cases *)
Definition dec (s : bytes) : option Z := option_map Z.of_N (atoi s).

Definition cs1 : list custom := [Custom (B "quiet") (VBool false) (B "bool"); Custom (B "limit") (VInt (-7)) (B "int"); Custom (B "odd") (VStr (B "x")) (B "float")].
Definition line1 : list bytes := map B ["-project"; "../app"; "--module=github.com/a/b@v1.2.3"; "-quiet"; "--limit"; "12"; "-tmpcopy=false"; "-module=github.com/a/b@v1.3.0"; "stray"; "-json=x"]%string.
Example C72_example : parse_flags dec cs1 (B "/home/u/go") [] line1 =
  Accepted (Config (B "../app") (B "github.com/a/b@v1.3.0") [] [] [] 44440 20 1024 200 (B "modreport.json") (B "modreport.png") (B "line") (B "fast") (B "targeted") false 2 [] [] false)
    [(B "quiet", B "true"); (B "limit", B "12")] (B "/home/u/go") (B "/home/u/go/pkg/mod").
Proof. vm_compute. reflexivity. Qed.
(** The settings of that line, and where its flags end. *)
Example C72_read_example : exists t, table cs1 = Some t /\
  let ps := [([B "-project"; B "../app"], (B "project", B "../app")); ([B "--module=github.com/a/b@v1.2.3"], (B "module", B "github.com/a/b@v1.2.3"));
             ([B "-quiet"], (B "quiet", B "true")); ([B "--limit"; B "12"], (B "limit", B "12")); ([B "-tmpcopy=false"], (B "tmpcopy", B "false")); ([B "-module=github.com/a/b@v1.3.0"], (B "module", B "github.com/a/b@v1.3.0"))] in
  Forall (sound dec t) ps /\ ends (map B ["stray"; "-json=x"]%string) (map B ["stray"; "-json=x"]%string) /\ line1 = concat (map fst ps) ++ map B ["stray"; "-json=x"]%string /\ enough (settings dec ps).
Proof.
  eexists. split; [vm_compute; reflexivity|]. cbv zeta.
  assert (forall n, n <> [] -> match n with c :: _ => c <> "-"%char | [] => False end -> ~ In "="%char n -> nameable n) as Nm by (intros [|c r] A A2 A3; [contradiction|]; exists c, r; split; [reflexivity|split; assumption]).
  split; [|split; [|split; [reflexivity|]]].
  - repeat (constructor; [split; [|eexists; eexists; split; vm_compute; reflexivity]|]); [..|constructor].
    + apply (sp_next _ (B "-") (B "project") (B "../app") (VStr [])); [left; reflexivity|apply Nm; [discriminate|discriminate|vm_compute; intuition discriminate]|reflexivity|reflexivity].
    + apply (sp_equals _ (B "--") (B "module")); [right; reflexivity|apply Nm; [discriminate|discriminate|vm_compute; intuition discriminate]].
    + apply (sp_bare _ (B "-") (B "quiet") (VBool false)); [left; reflexivity|apply Nm; [discriminate|discriminate|vm_compute; intuition discriminate]|reflexivity|reflexivity].
    + apply (sp_next _ (B "--") (B "limit") (B "12") (VInt (-7))); [right; reflexivity|apply Nm; [discriminate|discriminate|vm_compute; intuition discriminate]|reflexivity|reflexivity].
    + apply (sp_equals _ (B "-") (B "tmpcopy")); [left; reflexivity|apply Nm; [discriminate|discriminate|vm_compute; intuition discriminate]].
    + apply (sp_equals _ (B "-") (B "module")); [left; reflexivity|apply Nm; [discriminate|discriminate|vm_compute; intuition discriminate]].
  - apply end_word. intros c w. discriminate.
  - split; [discriminate|]. split; [left; discriminate|left; reflexivity].
Qed.
(** Refusals, help and usage. *)
Example C72_refused_example :
  parse_flags dec [] (B "/go") [] (map B ["-module=a/b@v1"]%string) = Refused /\
  parse_flags dec [] (B "/go") [] (map B ["-project=p"; "-gomod=x"; "-gowork=y"]%string) = Refused /\
  parse_flags dec [] [] [] (map B ["-project=p"; "-gomod=x"]%string) = Refused /\
  parse_flags dec [] [] [] (map B ["-project=p"; "--help"]%string) = Help /\
  parse_flags dec [] (B "/go") [] (map B ["-project=p"; "-gomod"]%string) = Usage /\
  parse_flags dec [] (B "/go") [] (map B ["-project=p"; "-cachemb=many"]%string) = Usage /\
  parse_flags dec [] (B "/go") [] (map B ["-projects=p"]%string) = Usage /\
  parse_flags dec [Custom (B "json") (VStr []) (B "string")] (B "/go") [] [] = Panics /\
  parse_flags dec [Custom (B "n") (VStr []) (B "int")] (B "/go") [] [] = Panics.
Proof. vm_compute. repeat split. Qed.
(** What a flag takes as truth values, and nothing else. *)
Theorem C72_truth_values : forall parse_int old s x, set_value parse_int (VBool old) s = Some x <->
  (x = VBool true /\ In s (map B ["1"; "t"; "T"; "true"; "True"; "TRUE"]%string)) \/ (x = VBool false /\ In s (map B ["0"; "f"; "F"; "false"; "False"; "FALSE"]%string)).
Proof.
  intros parse_int old s x. cbn [set_value]. split.
  - unfold parse_bool. destruct (one_of s ["1"; "t"; "T"; "TRUE"; "true"; "True"]%string) eqn:E1.
    + cbn. intros [= <-]. left. split; [reflexivity|]. unfold one_of in E1. apply existsb_exists in E1 as (w & Hw & E1). apply beq_true in E1. subst s. apply (in_map B) in Hw. cbn [map In] in Hw |- *. tauto.
    + destruct (one_of s ["0"; "f"; "F"; "FALSE"; "false"; "False"]%string) eqn:E2; [|discriminate].
      cbn. intros [= <-]. right. split; [reflexivity|]. unfold one_of in E2. apply existsb_exists in E2 as (w & Hw & E2). apply beq_true in E2. subst s. apply (in_map B) in Hw. cbn [map In] in Hw |- *. tauto.
  - intros [(-> & H)|(-> & H)]; cbn [map In] in H; repeat (destruct H as [<-|H]; [reflexivity|]); destruct H.
Qed.
Print Assumptions C72_truth_values.
Example C72_truth_example :
  match parse_flags dec [] (B "/go") [] (map B ["-project=p"; "-gomod=x"; "-tmpcopy=1"]%string) with Accepted c _ _ _ => c_tmp c = true | _ => False end /\
  parse_flags dec [] (B "/go") [] (map B ["-project=p"; "-gomod=x"; "-tmpcopy=no"]%string) = Usage.
Proof. vm_compute. split; reflexivity. Qed.
(** Another order. *)
Example C72_order_example : parse_flags dec [] (B "/go") [] (map B ["-project"; "p"; "-gomod=x"]%string) = parse_flags dec [] (B "/go") [] (map B ["--gomod"; "x"; "-project=p"]%string).
Proof. vm_compute. reflexivity. Qed.

(** A truth value as the next argument is not read: the flag is set, and everything behind is lost. *)
Theorem C72_false_refuted : ~ forall b more c texts p m,
  parse_flags dec [] (B "/go") [] (map B ["-project=p"; "-gomod=x"; "-tmpcopy"]%string ++ (if b : bool then B "true" else B "false") :: more) = Accepted c texts p m -> c_tmp c = b.
Proof. intros H. specialize (H false [B "-json=out.json"] _ _ _ _ eq_refl). discriminate. Qed.
Example C72_false_example : exists c texts p m, parse_flags dec [] (B "/go") [] (map B ["-project=p"; "-gomod=x"; "-tmpcopy"; "false"; "-json=out.json"]%string) = Accepted c texts p m /\ c_tmp c = true /\ c_json c = B "modreport.json".
Proof. do 4 eexists. split; [vm_compute; reflexivity|split; reflexivity]. Qed.
(** A custom flag of another type is silently left out. *)
Theorem C72_custom_defined_refuted : ~ forall cs t c, table cs = Some t -> In c cs -> exists x, mget (cu_name c) t = Some x.
Proof. intros H. destruct (H cs1 _ (Custom (B "odd") (VStr (B "x")) (B "float")) eq_refl) as [x E]; [right; right; left; reflexivity|discriminate]. Qed.
(** A GOPATH with several directories gives a module cache that is none of theirs. *)
Theorem C72_cache_refuted : ~ forall gp p m, setup gp [] = Some (p, m) -> exists d, In d (split_on ":"%char gp) /\ m = join_parts [d; B "pkg"; B "mod"].
Proof.
  intros H. destruct (H (B "/a:/b") _ _ eq_refl) as (d & I & E). vm_compute in I. destruct I as [<-|[<-|[]]]; vm_compute in E; discriminate.
Qed.
(** The chart command writes a PNG under any name. *)
Theorem C72_picture_kind_refuted : ~ forall draw path k b, report_picture draw path = Some (path, (k, b)) -> has_suffix (B ".svg") path = true -> k = SVG.
Proof. intros H. specialize (H (fun _ h => Some (h, Some (B "pic"))) (B "out.svg") PNG (B "pic") eq_refl eq_refl). discriminate. Qed.
Print Assumptions C72_false_refuted.
Print Assumptions C72_custom_defined_refuted.
Print Assumptions C72_cache_refuted.
Print Assumptions C72_picture_kind_refuted.
(** What the chart command writes under the name given: a PNG drawn 768 high if it fits there and fills it but for 128 or less, else one drawn
    as high as the first needed; nothing if one of these could not be drawn. *)
Theorem C72_picture : forall draw path,
  (forall p k b, report_picture draw path = Some (p, (k, b)) -> p = path /\ k = PNG /\
     exists box, (draw PNG 768%Z = Some (box, Some b) /\ (640 <= box <= 768)%Z) \/
       ((box < 640 \/ 768 < box)%Z /\ (exists b0, draw PNG 768%Z = Some (box, b0)) /\ exists box', draw PNG box = Some (box', Some b))) /\
  (draw PNG 768%Z = None -> report_picture draw path = None) /\
  (forall box b, draw PNG 768%Z = Some (box, Some b) -> (640 <= box <= 768)%Z -> report_picture draw path = Some (path, (PNG, b))).
Proof.
  intros draw path. unfold report_picture, render. split; [|split].
  - intros p k b. destruct (draw PNG 768%Z) as [[box b0]|] eqn:E; [|discriminate].
    destruct ((box <? 768 - 128) || (768 <? box))%Z eqn:O; cbn [snd].
    + destruct (draw PNG box) as [[box' b']|] eqn:E'; [|discriminate]. destruct b' as [b'|]; [|discriminate]. intros [= <- <- <-]. split; [reflexivity|]. split; [reflexivity|].
      exists box. right. apply Bool.orb_true_iff in O as [O|O]; apply Z.ltb_lt in O; (split; [lia|]); eauto.
    + destruct b0 as [b0|]; [|discriminate]. intros [= <- <- <-]. split; [reflexivity|]. split; [reflexivity|]. exists box. left. split; [reflexivity|].
      apply Bool.orb_false_iff in O as [O1 O2]. apply Z.ltb_ge in O1, O2. lia.
  - intros ->. reflexivity.
  - intros box b -> H. replace ((box <? 768 - 128) || (768 <? box))%Z with false; [reflexivity|]. symmetry. apply Bool.orb_false_iff. split; apply Z.ltb_ge; lia.
Qed.
Print Assumptions C72_picture.
Example C72_picture_example :
  let draw := fun k h => Some ((match k with PNG => 900 | _ => 700 end)%Z, Some (match k with PNG => B "png" | _ => B "svg" end ++ itoa (Z.to_N h))) in
  report_picture draw (B "out.svg") = Some (B "out.svg", (PNG, B "png900")).
Proof. vm_compute. reflexivity. Qed.
