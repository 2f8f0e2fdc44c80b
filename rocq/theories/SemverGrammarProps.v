(** What counts as a version, and which of two versions is the older one,
    stated after the text of the semantic-versioning rules (C27). *)

From Verif Require Import Base Maps UtilModel UtilProps SemverModel SemverProps.

(** Identifiers: letters, digits and hyphens. *)
Definition letters : bytes := B "ABCDEFGHIJKLMNOPQRSTUVWXYZabcdefghijklmnopqrstuvwxyz0123456789-".
Definition digits : bytes := B "0123456789".
Definition identifier (i : bytes) : Prop := i <> [] /\ forall c, In c i -> In c letters.
Definition all_digits (i : bytes) : Prop := forall c, In c i -> In c digits.
(** An identifier of a pre-release made of digits only is a number: no leading
    zeros. *)
Definition pre_identifier (i : bytes) : Prop :=
  identifier i /\ (all_digits i -> forall r, i = "0"%char :: r -> r = []).
Definition number (i : bytes) : Prop := i <> [] /\ all_digits i /\ forall r, i = "0"%char :: r -> r = [].

(** A version and its parts.  Minor and patch number may be left out together
    with what follows them (the one deviation from the rules that x/mod/semver
    allows); build data after a plus is not part of what is compared. *)
Inductive is_version : bytes -> semver -> Prop :=
| V_major x : number x -> is_version (B "v" ++ x) (Semver x (B "0") (B "0") [])
| V_minor x y : number x -> number y -> is_version (B "v" ++ x ++ B "." ++ y) (Semver x y (B "0") [])
| V_full x y z pre build p b :
    number x -> number y -> number z ->
    (pre = [] /\ p = [] \/
     pre <> [] /\ Forall pre_identifier pre /\ p = B "-" ++ join_with (B ".") pre) ->
    (b = [] \/ build <> [] /\ Forall identifier build /\ b = B "+" ++ join_with (B ".") build) ->
    is_version (B "v" ++ x ++ B "." ++ y ++ B "." ++ z ++ p ++ b) (Semver x y z pre).

(** Precedence. *)
Definition text_below (a b : bytes) : Prop :=
  (exists c r, b = a ++ c :: r) \/
  exists p c d a' b', a = p ++ c :: a' /\ b = p ++ d :: b' /\ (N_of_ascii c < N_of_ascii d)%N.
Definition ident_below (a b : bytes) : Prop :=
  (all_digits a /\ all_digits b /\ (value a < value b)%N) \/
  (all_digits a /\ ~ all_digits b) \/
  (~ all_digits a /\ ~ all_digits b /\ text_below a b).
Definition pre_below (a b : list bytes) : Prop :=
  (a <> [] /\ b = []) \/
  (a <> [] /\ exists i r, b = a ++ i :: r) \/
  exists p i j a' b', a = p ++ i :: a' /\ b = p ++ j :: b' /\ ident_below i j.
Definition below (s t : semver) : Prop :=
  let ma := value (sv_major s) in let mb := value (sv_major t) in
  let na := value (sv_minor s) in let nb := value (sv_minor t) in
  let pa := value (sv_patch s) in let pb := value (sv_patch t) in
  (ma < mb \/ ma = mb /\ (na < nb \/ na = nb /\ pa < pb))%N \/
  (ma = mb /\ na = nb /\ pa = pb /\ pre_below (sv_pre s) (sv_pre t)).

(** ** The grammar *)

Lemma is_digit_in c : is_digit c = true <-> In c digits.
Proof.
  split.
  - destruct c as [[] [] [] [] [] [] [] []]; cbv; intros E; try discriminate E; tauto.
  - intros H. cbv in H. repeat (destruct H as [<-|H]; [reflexivity|]). destruct H.
Qed.
Lemma is_ident_in c : is_ident_char c = true <-> In c letters.
Proof.
  split.
  - destruct c as [[] [] [] [] [] [] [] []]; cbv; intros E; try discriminate E; tauto.
  - intros H. cbv in H. repeat (destruct H as [<-|H]; [reflexivity|]). destruct H.
Qed.
Lemma all_digits_num i : all_digits i <-> is_num i = true.
Proof. unfold all_digits, is_num. rewrite forallb_forall. split; intros H c I; apply is_digit_in, H, I. Qed.
Lemma number_numeral i : number i <-> numeral i.
Proof.
  unfold number, numeral. split; intros (A & D & Z); repeat split; auto.
  - apply Forall_forall. intros c I. apply is_digit_in, D, I.
  - intros c I. rewrite Forall_forall in D. apply is_digit_in, D, I.
Qed.
Lemma identifier_b i : identifier i <-> forallb is_ident_char i && negb (beq i []) = true.
Proof.
  unfold identifier. rewrite andb_true_iff, forallb_forall. split.
  - intros [N H]. split; [intros c I; apply is_ident_in, H, I|]. destruct (beq_spec i []); [congruence|reflexivity].
  - intros [H N]. split; [intros ->; discriminate N|]. intros c I. apply is_ident_in, H, I.
Qed.
Lemma pre_identifier_b i : pre_identifier i <-> forallb is_ident_char i && negb (beq i []) && negb (is_bad_num i) = true.
Proof.
  unfold pre_identifier. rewrite identifier_b, (andb_true_iff (_ && _)), all_digits_num. unfold is_bad_num.
  split; intros [H K]; (split; [exact H|]).
  - destruct (is_num i) eqn:E; [|reflexivity]. specialize (K eq_refl). destruct i as [|c [|d i]]; try reflexivity. cbn [length Nat.ltb Nat.leb andb].
    destruct (ascii_dec c "0") as [->|]; [|reflexivity]. specialize (K _ eq_refl). discriminate.
  - intros E r ->. rewrite E in K. destruct r; [reflexivity|]. cbn in K. discriminate.
Qed.

Lemma until_plus_no v : ~ In "+"%char v -> forall r, until_plus (v ++ "+"%char :: r) = (v, "+"%char :: r) /\ until_plus v = (v, []).
Proof.
  induction v as [|c v IH]; intros N r; cbn; [split; reflexivity|].
  destruct (ascii_dec c "+") as [->|]; [destruct N; left; reflexivity|].
  destruct (IH (fun I => N (or_intror I)) r) as [-> ->]. split; reflexivity.
Qed.
Lemma until_plus_inv v : forall t r, until_plus v = (t, r) ->
  v = t ++ r /\ ~ In "+"%char t /\ (r = [] \/ exists r', r = "+"%char :: r').
Proof.
  induction v as [|c v IH]; intros t r; cbn.
  - intros [= <- <-]. auto.
  - destruct (ascii_dec c "+") as [->|N].
    + intros [= <- <-]. split; [reflexivity|]. split; [intros []|]. right. eauto.
    + destruct (until_plus v) as [t' r'] eqn:E. intros [= <- <-]. destruct (IH _ _ eq_refl) as (-> & N' & R).
      split; [reflexivity|]. split; [intros [->|I]; [congruence|exact (N' I)]|exact R].
Qed.

Lemma ident_no c i : identifier i -> ~ In c letters -> ~ In c i.
Proof. intros [_ H] N I. exact (N (H c I)). Qed.
Lemma no_sym c : In c (B "+.") -> ~ In c letters.
Proof. intros [<-|[<-|[]]] H; apply is_ident_in in H; discriminate H. Qed.
Lemma join_no c (is : list bytes) : c <> "."%char -> Forall (fun i => ~ In c i) is -> ~ In c (join_with (B ".") is).
Proof.
  intros N F. induction F as [|i is Hi F IH]; [intros []|].
  destruct is as [|j is]; [exact Hi|]. rewrite join_cons by discriminate. rewrite !in_app_iff. intros [I|[[I|[]]|I]]; auto.
Qed.

Lemma parse_pre_iff v pre r : parse_pre v = Some (pre, r) <->
  pre <> [] /\ Forall pre_identifier pre /\ (r = [] \/ exists r', r = "+"%char :: r') /\ v = join_with (B ".") pre ++ r.
Proof.
  unfold parse_pre. split.
  - destruct (until_plus v) as [t r0] eqn:E. apply until_plus_inv in E as (-> & N & R).
    destruct (forallb _ _) eqn:F; [|discriminate]. intros [= <- <-]. split; [apply split_on_nonempty|].
    split. { apply Forall_forall. intros i I. rewrite forallb_forall in F. apply pre_identifier_b, F, I. }
    split; [exact R|]. destruct (split_on_spec "."%char t) as [_ J]. apply (f_equal (fun x => x ++ r0)). symmetry. exact J.
  - intros (N & F & R & ->).
    assert (until_plus (join_with (B ".") pre ++ r) = (join_with (B ".") pre, r)) as ->.
    { assert (~ In "+"%char (join_with (B ".") pre)) as H.
      { apply join_no; [discriminate|]. eapply Forall_impl; [|exact F]. intros i [I _]. apply (ident_no _ _ I), no_sym. left; reflexivity. }
      destruct R as [->|[r' ->]]; [rewrite app_nil_r; apply (until_plus_no _ H [])|apply (until_plus_no _ H r')]. }
    change (B ".") with ["."%char]. rewrite split_unique; [|exact N|].
    2:{ eapply Forall_impl; [|exact F]. intros i [I _]. apply (ident_no _ _ I), no_sym. right; left; reflexivity. }
    assert (forallb (fun i => forallb is_ident_char i && negb (beq i []) && negb (is_bad_num i)) pre = true) as ->; [|reflexivity].
    apply forallb_forall. intros i I. rewrite Forall_forall in F. apply pre_identifier_b, F, I.
Qed.

Lemma parse_build_iff v : parse_build v = true <->
  exists build, build <> [] /\ Forall identifier build /\ v = join_with (B ".") build.
Proof.
  unfold parse_build. split.
  - intros F. exists (split_on "."%char v). split; [apply split_on_nonempty|]. split.
    { apply Forall_forall. intros i I. rewrite forallb_forall in F. apply identifier_b, F, I. }
    destruct (split_on_spec "."%char v) as [_ J]. symmetry. exact J.
  - intros (build & N & F & ->). change (B ".") with ["."%char]. rewrite split_unique; [|exact N|].
    2:{ eapply Forall_impl; [|exact F]. intros i I. apply (ident_no _ _ I), no_sym. right; left; reflexivity. }
    apply forallb_forall. intros i I. rewrite Forall_forall in F. apply identifier_b, F, I.
Qed.

Lemma parse_tail_iff x y z v s : parse_tail x y z v = Some s <->
  exists pre build p b, s = Semver x y z pre /\ v = p ++ b /\
    (pre = [] /\ p = [] \/ pre <> [] /\ Forall pre_identifier pre /\ p = B "-" ++ join_with (B ".") pre) /\
    (b = [] \/ build <> [] /\ Forall identifier build /\ b = B "+" ++ join_with (B ".") build).
Proof.
  unfold parse_tail. split.
  - intros H.
    assert (exists pre p v1, v = p ++ v1 /\
      (pre = [] /\ p = [] \/ pre <> [] /\ Forall pre_identifier pre /\ p = B "-" ++ join_with (B ".") pre) /\
      match v1 with [] => Some (Semver x y z pre) | c :: v2 => if ascii_dec c "+" then (if parse_build v2 then Some (Semver x y z pre) else None) else None end = Some s) as (pre & p & v1 & -> & P & H').
    { destruct v as [|c v]; [exists [], [], []; auto|]. destruct (ascii_dec c "-") as [->|N].
      - destruct (parse_pre v) as [[pre r]|] eqn:E; [|discriminate]. apply parse_pre_iff in E as (E1 & E2 & _ & ->).
        exists pre, (B "-" ++ join_with (B ".") pre), r. rewrite <- app_assoc. cbn [app B list_ascii_of_string]. auto 6.
      - exists [], [], (c :: v). auto. }
    destruct v1 as [|c v2].
    + injection H' as <-. exists pre, [], p, []. auto.
    + destruct (ascii_dec c "+") as [->|]; [|discriminate]. destruct (parse_build v2) eqn:E; [|discriminate].
      injection H' as <-. apply parse_build_iff in E as (build & E1 & E2 & ->).
      exists pre, build, p, (B "+" ++ join_with (B ".") build). split; [reflexivity|]. split; [reflexivity|]. split; [exact P|]. right. auto.
  - intros (pre & build & p & b & -> & -> & P & Hb).
    assert (match b with [] => Some (Semver x y z pre) | c :: v2 => if ascii_dec c "+" then (if parse_build v2 then Some (Semver x y z pre) else None) else None end = Some (Semver x y z pre)) as K.
    { destruct Hb as [->|(N & F & ->)]; [reflexivity|]. cbn [app B list_ascii_of_string]. destruct (ascii_dec "+" "+") as [_|]; [|congruence].
      assert (parse_build (join_with (B ".") build) = true) as E by (apply parse_build_iff; eauto). cbn in E. rewrite E. reflexivity. }
    destruct P as [[-> ->]|(N & F & ->)].
    + cbn [app]. destruct b as [|c b]; [exact K|]. destruct (ascii_dec c "-") as [->|]; [|exact K].
      destruct Hb as [Q|(_ & _ & Q)]; discriminate Q.
    + cbn [app B list_ascii_of_string]. destruct (ascii_dec "-" "-") as [_|]; [|congruence].
      assert (parse_pre (join_with (B ".") pre ++ b) = Some (pre, b)) as E.
      { apply parse_pre_iff. split; [exact N|]. split; [exact F|]. split; [|reflexivity].
        destruct Hb as [->|(_ & _ & ->)]; [auto|]. right. eexists. reflexivity. }
      cbn in E. rewrite E. exact K.
Qed.

Lemma take_digits_inv v : forall t r, take_digits v = (t, r) ->
  v = t ++ r /\ Forall (fun c => is_digit c = true) t /\ (forall c r', r = c :: r' -> is_digit c = false).
Proof.
  induction v as [|c v IH]; intros t r; cbn.
  - intros [= <- <-]. repeat split; [constructor|discriminate].
  - destruct (is_digit c) eqn:E.
    + destruct (take_digits v) as [t' r']. intros [= <- <-]. destruct (IH _ _ eq_refl) as (-> & F & N). repeat split; [constructor; assumption|exact N].
    + intros [= <- <-]. repeat split; [constructor|]. intros c' r' [= <- _]. exact E.
Qed.
Lemma parse_int_inv v t r : parse_int v = Some (t, r) ->
  v = t ++ r /\ number t /\ (forall c r', r = c :: r' -> is_digit c = false).
Proof.
  unfold parse_int. destruct (take_digits v) as [t0 r0] eqn:E. apply take_digits_inv in E as (-> & F & N). intros H.
  destruct t0 as [|c [|d t0]]; [discriminate| |].
  - injection H as <- <-. split; [reflexivity|]. split; [|exact N]. apply number_numeral. split; [discriminate|]. split; [exact F|]. intros q [= _ <-]. reflexivity.
  - destruct (ascii_dec c "0") as [->|Z]; [discriminate|]. injection H as <- <-. split; [reflexivity|]. split; [|exact N].
    apply number_numeral. split; [discriminate|]. split; [exact F|]. intros q [= -> _]. congruence.
Qed.

Theorem C27_valid_is_the_grammar : forall v s, semver_parse v = Some s <-> is_version v s.
Proof.
  assert (forall (r : bytes) c r', B "." ++ r = c :: r' -> is_digit c = false) as Hdot by (intros r c r' [= <- _]; reflexivity).
  assert (forall c (r' : bytes), [] = c :: r' -> is_digit c = false) as Hnil by discriminate.
  intros v s. split.
  - unfold semver_parse. destruct v as [|c v0]; [discriminate|]. destruct (ascii_dec c "v") as [->|]; [|discriminate].
    destruct (parse_int v0) as [[x r]|] eqn:E; [|discriminate]. apply parse_int_inv in E as (-> & Nx & _).
    destruct r as [|c r]. { intros [= <-]. rewrite app_nil_r. exact (V_major x Nx). }
    destruct (ascii_dec c ".") as [->|]; [|discriminate].
    destruct (parse_int r) as [[y r2]|] eqn:E; [|discriminate]. apply parse_int_inv in E as (-> & Ny & _).
    destruct r2 as [|c r2]. { intros [= <-]. rewrite app_nil_r. exact (V_minor x y Nx Ny). }
    destruct (ascii_dec c ".") as [->|]; [|discriminate].
    destruct (parse_int r2) as [[z r3]|] eqn:E; [|discriminate]. apply parse_int_inv in E as (-> & Nz & _).
    intros H. apply parse_tail_iff in H as (pre & build & p & b & -> & -> & P & Q).
    exact (V_full x y z pre build p b Nx Ny Nz P Q).
  - intros H. destruct H as [x Nx|x y Nx Ny|x y z pre build p b Nx Ny Nz P Q]; rewrite number_numeral in *;
      cbn [app B list_ascii_of_string semver_parse]; destruct (ascii_dec "v" "v") as [_|]; try congruence.
    + rewrite <- (app_nil_r x), (parse_int_numeral x [] Nx Hnil), app_nil_r. reflexivity.
    + change (parse_int (x ++ "."%char :: y)) with (parse_int (x ++ B "." ++ y)).
      rewrite (parse_int_numeral x _ Nx (Hdot _)). cbn [app B list_ascii_of_string]. destruct (ascii_dec "." ".") as [_|]; [|congruence].
      rewrite <- (app_nil_r y), (parse_int_numeral y [] Ny Hnil), app_nil_r. reflexivity.
    + change (parse_int (x ++ "."%char :: ?r)) with (parse_int (x ++ B "." ++ r)).
      rewrite (parse_int_numeral x _ Nx (Hdot _)). cbn [app B list_ascii_of_string]. destruct (ascii_dec "." ".") as [_|]; [|congruence].
      change (parse_int (y ++ "."%char :: ?r)) with (parse_int (y ++ B "." ++ r)).
      rewrite (parse_int_numeral y _ Ny (Hdot _)). cbn [app B list_ascii_of_string].
      rewrite (parse_int_numeral z (p ++ b) Nz).
      2:{ intros c r'. destruct P as [[_ ->]|(_ & _ & ->)]; [|intros [= <- _]; reflexivity].
          destruct Q as [->|(_ & _ & ->)]; [discriminate|intros [= <- _]; reflexivity]. }
      apply parse_tail_iff. exists pre, build, p, b. auto.
Qed.
Print Assumptions C27_valid_is_the_grammar.

(** ** Precedence *)

Lemma bltb_text a : forall b, bltb a b = true <-> text_below a b.
Proof.
  induction a as [|c a IH]; intros [|d b].
  - split; [discriminate|]. intros [(c & r & E)|(p & c & d & a' & b' & E & _)]; [discriminate E|destruct p; discriminate E].
  - split; [|reflexivity]. intros _. left. exists d, b. reflexivity.
  - split; [discriminate|]. intros [(e & r & E)|(p & e & d & a' & b' & _ & E & _)]; [discriminate E|destruct p; discriminate E].
  - cbn [bltb]. destruct (N.ltb_spec (N_of_ascii c) (N_of_ascii d)) as [L|L].
    { split; [|reflexivity]. intros _. right. exists [], c, d, a, b. auto. }
    destruct (N.ltb_spec (N_of_ascii d) (N_of_ascii c)) as [L'|L'].
    { split; [discriminate|]. intros [(e & r & E)|(p & e & e' & a' & b' & E1 & E2 & E3)].
      - injection E as -> _. lia.
      - destruct p as [|q p]; cbn in E1, E2; [injection E1 as -> _; injection E2 as -> _; lia|].
        injection E1 as -> _. injection E2 as -> _. lia. }
    assert (c = d) as <- by (apply N_of_ascii_inj; lia). rewrite IH. split.
    + intros [(e & r & ->)|(p & e & e' & a' & b' & -> & -> & E3)]; [left; exists e, r; reflexivity|].
      right. exists (c :: p), e, e', a', b'. auto.
    + intros [(e & r & E)|(p & e & e' & a' & b' & E1 & E2 & E3)]; [left; exists e, r; injection E as ->; reflexivity|].
      destruct p as [|q p]; cbn in E1, E2.
      * injection E1 as -> _. injection E2 as -> _. lia.
      * injection E1 as _ ->. injection E2 as _ ->. right. exists p, e, e', a', b'. auto.
Qed.

Lemma pre_number i : pre_identifier i -> all_digits i -> numeral i.
Proof. intros [[N _] Z] D. apply number_numeral. split; [exact N|]. split; [exact D|exact (Z D)]. Qed.

Lemma bcmp_lt a b : bcmp a b = Lt <-> text_below a b.
Proof.
  rewrite <- bltb_text. unfold bcmp. destruct (beq_spec a b) as [->|N]; [rewrite bltb_irrefl; split; discriminate|].
  destruct (bltb a b); split; congruence.
Qed.

Lemma idcmp_below i j : pre_identifier i -> pre_identifier j -> (idcmp i j = Lt <-> ident_below i j).
Proof.
  intros Pi Pj. unfold ident_below. rewrite !all_digits_num.
  destruct (is_num i) eqn:Ei, (is_num j) eqn:Ej; unfold idcmp, lex; rewrite Ei, Ej; cbn [Nat.compare].
  - pose proof (compare_int_value i j (pre_number i Pi (proj2 (all_digits_num i) Ei)) (pre_number j Pj (proj2 (all_digits_num j) Ej))) as V.
    rewrite <- compare_int_lex in V. unfold lex, lencmp in V. rewrite V, N.compare_lt_iff. split; [auto|].
    intros [(_ & _ & L)|[[_ L]|[L _]]]; [exact L|congruence|congruence].
  - split; [intros _; right; left; split; congruence|reflexivity].
  - split; [discriminate|]. intros [(L & _)|[[L _]|[_ [L _]]]]; congruence.
  - rewrite bcmp_lt. split; [intros T; right; right; repeat split; [congruence|congruence|exact T]|].
    intros [(L & _)|[[L _]|[_ [_ L]]]]; [congruence|congruence|exact L].
Qed.

Lemma ident_below_irrefl i : ~ ident_below i i.
Proof.
  intros [(_ & _ & L)|[[A N]|[_ [_ T]]]]; [lia|exact (N A)|].
  apply bltb_text in T. rewrite bltb_irrefl in T. discriminate.
Qed.

Lemma lcmp_below a : forall b, Forall pre_identifier a -> Forall pre_identifier b ->
  (lcmp idcmp a b = Lt <-> (exists i r, b = a ++ i :: r) \/ exists p i j a' b', a = p ++ i :: a' /\ b = p ++ j :: b' /\ ident_below i j).
Proof.
  induction a as [|i a IH]; intros [|j b] Fa Fb; cbn [lcmp].
  - split; [discriminate|]. intros [(i & r & E)|(p & i & j & a' & b' & E & _)]; [discriminate E|destruct p; discriminate E].
  - split; [|reflexivity]. intros _. left. exists j, b. reflexivity.
  - split; [discriminate|]. intros [(k & r & E)|(p & k & j & a' & b' & _ & E & _)]; [discriminate E|destruct p; discriminate E].
  - inversion Fa as [|? ? Pi Fa']; inversion Fb as [|? ? Pj Fb']; subst. specialize (IH b Fa' Fb').
    pose proof (idcmp_below i j Pi Pj) as L. destruct (idcmp i j) eqn:E.
    + apply idcmp_eq in E as <-. rewrite IH. split.
      * intros [(k & r & ->)|(p & k & l & a' & b' & -> & -> & B)]; [left; exists k, r; reflexivity|].
        right. exists (i :: p), k, l, a', b'. auto.
      * intros [(k & r & Q)|(p & k & l & a' & b' & Q1 & Q2 & B)]; [left; exists k, r; injection Q as ->; reflexivity|].
        destruct p as [|q p]; cbn in Q1, Q2.
        -- injection Q1 as <- _. injection Q2 as <- _. destruct (ident_below_irrefl i B).
        -- injection Q1 as _ ->. injection Q2 as _ ->. right. exists p, k, l, a', b'. auto.
    + split; [|reflexivity]. intros _. right. exists [], i, j, a, b. rewrite <- L. auto.
    + split; [discriminate|]. intros [(k & r & Q)|(p & k & l & a' & b' & Q1 & Q2 & B)].
      * injection Q as -> _. rewrite (proj2 (idcmp_eq i i) eq_refl) in E. discriminate.
      * destruct p as [|q p]; cbn in Q1, Q2.
        -- injection Q1 as <- _. injection Q2 as <- _. apply L in B. discriminate.
        -- injection Q1 as <- _. injection Q2 as -> _. rewrite (proj2 (idcmp_eq i i) eq_refl) in E. discriminate.
Qed.

Lemma compare_pre_below a b : Forall pre_identifier a -> Forall pre_identifier b ->
  (compare_pre a b = Lt <-> pre_below a b).
Proof.
  intros Fa Fb. pose proof (lcmp_below a b Fa Fb) as L. rewrite <- compare_pre_cmp. unfold precmp, lex, pre_below.
  destruct a as [|i a], b as [|j b]; cbn [lbeq Nat.compare].
  - split; [discriminate|]. intros [[N _]|[[N _]|(p & k & l & a' & b' & Q & _)]]; [congruence|congruence|destruct p; discriminate Q].
  - split; [discriminate|]. intros [[N _]|[[N _]|(p & k & l & a' & b' & Q & _)]]; [congruence|congruence|destruct p; discriminate Q].
  - split; [|reflexivity]. intros _. left. split; [discriminate|reflexivity].
  - rewrite L. split.
    + intros [H|H]; [right; left; split; [discriminate|exact H]|right; right; exact H].
    + intros [[_ H]|[[_ H]|H]]; [discriminate H|left; exact H|right; exact H].
Qed.

Lemma version_parts v s : is_version v s ->
  numeral (sv_major s) /\ numeral (sv_minor s) /\ numeral (sv_patch s) /\ Forall pre_identifier (sv_pre s).
Proof.
  assert (numeral (B "0")) as Z by (split; [discriminate|]; split; [repeat constructor|]; intros r [= <-]; reflexivity).
  intros [x Nx|x y Nx Ny|x y z pre build p b Nx Ny Nz P Q]; rewrite number_numeral in *; cbn [sv_major sv_minor sv_patch sv_pre];
    repeat (split; [assumption|]); try constructor.
  destruct P as [[-> _]|(_ & F & _)]; [constructor|exact F].
Qed.

Theorem C27_precedence : forall v w s t, is_version v s -> is_version w t ->
  (semver_compare v w = Lt <-> below s t) /\ (semver_compare v w = Gt <-> below t s).
Proof.
  assert (forall v w s t, is_version v s -> is_version w t -> (semver_compare v w = Lt <-> below s t)) as H.
  { intros v w s t Hv Hw. unfold semver_compare.
    rewrite (proj2 (C27_valid_is_the_grammar v s) Hv), (proj2 (C27_valid_is_the_grammar w t) Hw).
    apply version_parts in Hv as (A1 & A2 & A3 & A4). apply version_parts in Hw as (B1 & B2 & B3 & B4).
    rewrite !compare_int_value by assumption. pose proof (compare_pre_below _ _ A4 B4) as P. unfold below. cbv zeta.
    destruct (N.compare_spec (value (sv_major s)) (value (sv_major t))) as [E1|E1|E1];
      [|split; [intros _; left; left; exact E1|reflexivity]|split; [discriminate|intros K; exfalso; lia]].
    destruct (N.compare_spec (value (sv_minor s)) (value (sv_minor t))) as [E2|E2|E2];
      [|split; [intros _; left; right; auto|reflexivity]|split; [discriminate|intros K; exfalso; lia]].
    destruct (N.compare_spec (value (sv_patch s)) (value (sv_patch t))) as [E3|E3|E3];
      [|split; [intros _; left; right; auto|reflexivity]|split; [discriminate|intros K; exfalso; lia]].
    rewrite P. split; [intros K; right; auto|]. intros [K|K]; [exfalso; lia|apply K]. }
  intros v w s t Hv Hw. split; [apply H; assumption|]. rewrite <- (H w v t s Hw Hv).
  destruct C27_compare_is_a_total_order as [A _]. pose proof (A v w) as Q. destruct (semver_compare v w), (semver_compare w v); cbn in Q; split; congruence.
Qed.
Print Assumptions C27_precedence.

(** Strings outside the grammar sort below all versions and equal to each other. *)
Theorem C27_invalid_sorts_lowest : forall v w s, (forall t, ~ is_version v t) ->
  (is_version w s -> semver_compare v w = Lt /\ semver_compare w v = Gt) /\
  ((forall t, ~ is_version w t) -> semver_compare v w = Eq).
Proof.
  intros v w s N. unfold semver_compare.
  assert (forall u, (forall t, ~ is_version u t) -> semver_parse u = None) as K.
  { intros u Nu. destruct (semver_parse u) as [t|] eqn:E; [|reflexivity]. destruct (Nu t). apply C27_valid_is_the_grammar. exact E. }
  rewrite (K v N). split.
  - intros W. rewrite (proj2 (C27_valid_is_the_grammar w s) W). auto.
  - intros W. rewrite (K w W). reflexivity.
Qed.
Print Assumptions C27_invalid_sorts_lowest.

Example C27_grammar_ex :
  is_version (B "v1.2.3-rc-1.0.x+b.007") (Semver (B "1") (B "2") (B "3") [B "rc-1"; B "0"; B "x"]) /\
  below (Semver (B "1") (B "2") (B "3") [B "rc"; B "2"]) (Semver (B "1") (B "2") (B "3") [B "rc"; B "11"]) /\
  (forall s, ~ is_version (B "v1.02") s) /\ (forall s, ~ is_version (B "v1.2.3-01") s) /\
  (forall s, ~ is_version (B "v1.2.3+a..b") s) /\ (forall s, ~ is_version (B "v1.2-x") s).
Proof.
  repeat split; try (intros s H; apply C27_valid_is_the_grammar in H; discriminate H).
  - apply C27_valid_is_the_grammar. reflexivity.
  - right. repeat split. right. right. exists [B "rc"], (B "2"), (B "11"), [], []. repeat split. left.
    rewrite !all_digits_num. repeat split.
Qed.
