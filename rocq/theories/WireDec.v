From Verif Require Import Base WireModel WireSpec WireGrammar WireProofs WireRobust.
Local Open Scope N_scope.

(** * Fields, stacks and messages, exactly *)

Lemma read_field_exact maxlen f : exact (read_field f maxlen) (R_field maxlen f).
Proof.
  induction f as [|f IH]; cbn [read_field].
  - split; [discriminate|]. intros c a r (w & _ & H & _). lia.
  - eapply exact_weaken.
    + apply exact_bind; [apply exact_string|]. intros nm.
      apply exact_bind; [apply exact_string|]. intros ty.
      apply exact_fmap. apply read_value_exact, IH.
    + intros c x; cbn beta. unfold R_field, R_val, fdepth. split.
      * intros (c1 & c2 & nm & -> & H1 & c3 & c4 & ty & -> & H2 & vc & (v & <- & Hd & Hg) & ->).
        exists ((nm, ty), v). split; [reflexivity|]. split; [cbn; lia|].
        rewrite <- (app_nil_r (c1 ++ c3 ++ c4)). constructor; auto. constructor.
      * intros (w & <- & Hd & Hg).
        inversion Hg as [|nm ty v fs bn bt bv bs H1 H2 H3 H4]; subst. cbn [snd] in Hd.
        inversion H4; subst. rewrite app_nil_r.
        exists bn, (bt ++ bv), nm. split; [reflexivity|]. split; [assumption|].
        exists bt, bv, ty. split; [reflexivity|]. split; [assumption|].
        exists (view_val v). split; [|reflexivity]. exists v. repeat split; auto. lia.
Qed.

Definition R_fields (maxlen : N) (f : nat) (c : bytes) (x : list lfield) : Prop :=
  exists fs hd body, c = hd ++ body /\ varint_bytes hd (blen fs) /\ blen fs < 4294967296 /\
    gr_fields maxlen fs body /\ Forall (fun w => (fdepth w < f)%nat) fs /\ x = map view_field fs.

Lemma read_fields_exact maxlen f : exact (read_fields f maxlen) (R_fields maxlen f).
Proof.
  unfold read_fields. eapply exact_weaken.
  - apply exact_bind; [apply exact_varint|]. intros n.
    apply exact_if; [apply exact_fail|]. apply exact_read_n, read_field_exact.
  - intros c x; cbn beta. unfold R_fields. split.
    + intros (c1 & c2 & n & -> & H1 & H2). destruct (N.ltb_spec 4294967295 n); [contradiction|].
      destruct H2 as [Hl Hs]. apply seq_R_field in Hs. destruct Hs as (fs & <- & Hf & Hg).
      rewrite map_length in Hl. assert (n = blen fs) as -> by (unfold blen; lia).
      exists fs, c1, c2. repeat split; auto. lia.
    + intros (fs & hd & body & -> & H1 & H2 & H3 & H4 & ->).
      exists hd, body, (blen fs). split; [reflexivity|]. split; [assumption|].
      destruct (N.ltb_spec 4294967295 (blen fs)); [lia|].
      split; [rewrite map_length; symmetry; apply Nat2N.id|]. apply seq_R_field. eauto.
Qed.

Lemma read_frame_exact table : exact (read_frame table) (frame_bytes table).
Proof.
  unfold read_frame.
  assert (Hm : forall i j ln, exact
    (match nth_error table (N.to_nat i), nth_error table (N.to_nat j) with
     | Some f, Some g => ret (mkFrame f g ln) | _, _ => panic end)
    (fun c f => c = [] /\ fr_line f = ln /\ nth_error table (N.to_nat i) = Some (fr_file f) /\
        nth_error table (N.to_nat j) = Some (fr_func f))).
  { intros i j ln. destruct (nth_error table (N.to_nat i)) as [fi|] eqn:Ei.
    2:{ eapply exact_weaken; [apply exact_panic|]. intuition congruence. }
    destruct (nth_error table (N.to_nat j)) as [fj|] eqn:Ej.
    2:{ eapply exact_weaken; [apply exact_panic|]. intuition congruence. }
    eapply exact_weaken; [apply exact_ret|]. intros c [a b l]; cbn. split.
    - intros [-> [= -> -> ->]]. auto.
    - intros (-> & -> & [= ->] & [= ->]). auto. }
  eapply exact_weaken.
  - apply exact_bind; [apply exact_varint|]. intros i.
    apply exact_if; [apply exact_fail|].
    apply exact_bind; [apply exact_varint|]. intros j.
    apply exact_if; [apply exact_fail|].
    apply exact_bind; [apply exact_varint|]. intros ln. apply Hm.
  - intros c f; cbn beta. unfold frame_bytes. split.
    + intros (c1 & c2 & i & -> & H1 & H2). destruct (N.leb_spec (blen table) i); [contradiction|].
      destruct H2 as (c3 & c4 & j & -> & H3 & H4). destruct (N.leb_spec (blen table) j); [contradiction|].
      destruct H4 as (c5 & c6 & ln & -> & H5 & -> & <- & H6 & H7).
      exists c1, c3, c5, i, j. rewrite app_nil_r. auto 8.
    + intros (b1 & b2 & b3 & i & j & -> & H1 & H2 & H3 & H4 & H5).
      exists b1, (b2 ++ b3), i. split; [reflexivity|]. split; [assumption|].
      assert (Hi : (N.to_nat i < length table)%nat) by (apply nth_error_Some; congruence).
      assert (Hj : (N.to_nat j < length table)%nat) by (apply nth_error_Some; congruence).
      destruct (N.leb_spec (blen table) i); [unfold blen in *; lia|].
      exists b2, b3, j. split; [reflexivity|]. split; [assumption|].
      destruct (N.leb_spec (blen table) j); [unfold blen in *; lia|].
      exists b3, [], (fr_line f). rewrite app_nil_r. auto 8.
Qed.

Lemma read_stack_exact : exact read_stack stack_bytes.
Proof.
  unfold read_stack. eapply exact_weaken.
  - apply exact_bind; [apply exact_varint|]. intros n.
    apply exact_if; [apply exact_fail|]. apply exact_if; [apply exact_ret|].
    apply exact_bind; [apply exact_varint|]. intros ts.
    apply exact_if; [apply exact_fail|].
    apply exact_bind; [apply exact_read_n, exact_string|]. intros table.
    apply exact_read_n, read_frame_exact.
  - intros c fs; cbn beta. unfold stack_bytes. split.
    + intros (c1 & c2 & n & -> & H1 & H2). destruct (N.ltb_spec 2048 n); [contradiction|].
      destruct (N.eqb_spec n 0) as [->|Hn].
      * destruct H2 as [-> ->]. rewrite app_nil_r. split; [cbn; lia|]. left; auto.
      * destruct H2 as (c3 & c4 & ts & -> & H3 & H4).
        destruct (N.ltb_spec (n * 2) ts); [contradiction|].
        destruct H4 as (c5 & c6 & table & -> & (Ht & H5) & Hf & H6).
        assert (blen fs = n) by (unfold blen; lia).
        assert (blen table = ts) by (unfold blen; lia). subst n ts.
        split; [assumption|]. right. split.
        { intros ->. apply Hn. reflexivity. }
        exists c1, c3, c5, c6, table. repeat split; auto. lia.
    + intros [Hl [[-> H]|(Hne & hd & ht & bt & body & table & -> & H1 & H2 & H3 & H4 & H5)]].
      * exists c, [], 0. rewrite app_nil_r. split; [reflexivity|]. split; [assumption|].
        cbn. auto.
      * exists hd, (ht ++ bt ++ body), (blen fs). split; [reflexivity|]. split; [assumption|].
        destruct (N.ltb_spec 2048 (blen fs)); [lia|].
        destruct (N.eqb_spec (blen fs) 0) as [E|E].
        { exfalso. apply Hne. destruct fs; [reflexivity|]. unfold blen in E; cbn in E; lia. }
        exists ht, (bt ++ body), (blen table). split; [reflexivity|]. split; [assumption|].
        destruct (N.ltb_spec (blen fs * 2) (blen table)); [lia|].
        exists bt, body, table. split; [reflexivity|].
        split; [split; [unfold blen; lia|assumption]|]. split; [unfold blen; lia|assumption].
Qed.

Lemma read_int64_exact : exact read_int64 int64_bytes.
Proof.
  eapply exact_weaken; [apply exact_fmap, exact_take|].
  assert (Hb : forall bs, length bs = 8%nat -> le_value bs < two64).
  { assert (Hg : forall bs, le_value bs < 256 ^ N.of_nat (length bs)).
    { induction bs as [|b bs IH]; [cbn; lia|]. cbn [le_value length].
      rewrite Nat2N.inj_succ, N.pow_succ_r'. pose proof (b2n_lt b) as Hb. unfold b2n in Hb. lia. }
    intros bs E. specialize (Hg bs). rewrite E in Hg. exact Hg. }
  intros c z; cbn beta. unfold int64_bytes. split.
  - intros (s & (-> & Hl) & ->). assert (E : length s = 8%nat) by (unfold blen in Hl; lia).
    split; [assumption|]. rewrite le_value_dec. specialize (Hb _ E).
    unfold i64_of_n, in_i64, two64 in *.
    match goal with |- context [(?a <? 9223372036854775808)%Z] =>
      destruct (Z.ltb_spec a 9223372036854775808) end.
    + split; [lia|]. exists 0%Z. lia.
    + split; [lia|]. exists 1%Z. lia.
  - intros (E & Hz & k & Hk). exists c. split; [split; [reflexivity|unfold blen; lia]|].
    rewrite le_value_dec. specialize (Hb _ E). unfold i64_of_n, in_i64, two64 in *.
    match goal with |- context [(?a <? 9223372036854775808)%Z] =>
      destruct (Z.ltb_spec a 9223372036854775808) end; lia.
Qed.

Lemma dec_point_exact : exact dec_point point_bytes.
Proof.
  unfold dec_point. eapply exact_weaken.
  - apply exact_bind; [apply exact_varint|]. intros id.
    apply exact_bind; [apply read_int64_exact|]. intros t.
    apply exact_fmap, read_stack_exact.
  - intros c m; cbn beta. unfold point_bytes, id_bytes. split.
    + intros (c1 & c2 & id & -> & H1 & c3 & c4 & t & -> & H2 & st & H3 & ->). cbn.
      exists c1, c3, c4. split; [reflexivity|]. split; [exists id; auto|]. auto.
    + intros (b1 & b2 & b3 & -> & (w & H1 & H2) & H3 & H4).
      exists b1, (b2 ++ b3), w. split; [reflexivity|]. split; [assumption|].
      exists b2, b3, (mp_time m). split; [reflexivity|]. split; [assumption|].
      exists (mp_stack m). split; [assumption|]. destruct m; cbn in *. subst. reflexivity.
Qed.

Lemma dec_panic_exact : exact dec_panic panic_bytes.
Proof.
  unfold dec_panic. eapply exact_weaken.
  - apply exact_bind; [apply exact_varint|]. intros id.
    apply exact_bind; [apply read_int64_exact|]. intros t.
    apply exact_fmap, exact_string.
  - intros c m; cbn beta. unfold panic_bytes, id_bytes. split.
    + intros (c1 & c2 & id & -> & H1 & c3 & c4 & t & -> & H2 & st & H3 & ->). cbn.
      exists c1, c3, c4. split; [reflexivity|]. split; [exists id; auto|]. auto.
    + intros (b1 & b2 & b3 & -> & (w & H1 & H2) & H3 & H4).
      exists b1, (b2 ++ b3), w. split; [reflexivity|]. split; [assumption|].
      exists b2, b3, (mk_time m). split; [reflexivity|]. split; [assumption|].
      exists (mk_text m). split; [assumption|]. destruct m; cbn in *. subst. reflexivity.
Qed.

Lemma dec_error_exact : exact dec_error error_bytes.
Proof.
  unfold dec_error. eapply exact_weaken.
  - apply exact_bind; [apply exact_varint|]. intros id.
    apply exact_bind; [apply exact_string|]. intros t.
    apply exact_fmap, read_stack_exact.
  - intros c m; cbn beta. unfold error_bytes, id_bytes. split.
    + intros (c1 & c2 & id & -> & H1 & c3 & c4 & t & -> & H2 & st & H3 & ->). cbn.
      exists c1, c3, c4. split; [reflexivity|]. split; [exists id; auto|]. auto.
    + intros (b1 & b2 & b3 & -> & (w & H1 & H2) & H3 & H4).
      exists b1, (b2 ++ b3), w. split; [reflexivity|]. split; [assumption|].
      exists b2, b3, (me_text m). split; [reflexivity|]. split; [assumption|].
      exists (me_stack m). split; [assumption|]. destruct m; cbn in *. subst. reflexivity.
Qed.

(** The state decoder with explicit fuel. *)
Definition dec_state_f (f : nat) (maxlen : N) : reader msg_state :=
  id <- read_varint ;; t <- read_int64 ;; st <- read_stack ;;
  fs <- read_fields f maxlen ;; ret (mkState (u32_of_n id) t st fs).

Definition R_state (maxlen : N) (f : nat) (bs : bytes) (m : msg_state) : Prop :=
  exists b1 b2 b3 b4 b5 fs, bs = b1 ++ b2 ++ b3 ++ b4 ++ b5 /\ id_bytes b1 (ms_id m) /\
    int64_bytes b2 (ms_time m) /\ stack_bytes b3 (ms_stack m) /\
    varint_bytes b4 (blen fs) /\ blen fs < 4294967296 /\ gr_fields maxlen fs b5 /\
    Forall (fun w => (fdepth w < f)%nat) fs /\
    ms_fields m = map view_field fs.

Lemma dec_state_f_exact f maxlen : exact (dec_state_f f maxlen) (R_state maxlen f).
Proof.
  unfold dec_state_f. eapply exact_weaken.
  - apply exact_bind; [apply exact_varint|]. intros id.
    apply exact_bind; [apply read_int64_exact|]. intros t.
    apply exact_bind; [apply read_stack_exact|]. intros st.
    apply exact_fmap, read_fields_exact.
  - intros c m; cbn beta. unfold R_state, id_bytes, R_fields. split.
    + intros (c1 & c2 & id & -> & H1 & c3 & c4 & t & -> & H2 & c5 & c6 & st & -> & H3 & l &
              (fs & hd & body & -> & H4 & H5 & H6 & H7 & ->) & ->). cbn.
      exists c1, c3, c5, hd, body, fs. split; [reflexivity|]. split; [exists id; auto|]. auto 10.
    + intros (b1 & b2 & b3 & b4 & b5 & fs & -> & (w & H1 & Hw) & H2 & H3 & H4 & H5 & H6 & H7 & H8).
      exists b1, (b2 ++ b3 ++ b4 ++ b5), w. split; [reflexivity|]. split; [assumption|].
      exists b2, (b3 ++ b4 ++ b5), (ms_time m). split; [reflexivity|]. split; [assumption|].
      exists b3, (b4 ++ b5), (ms_stack m). split; [reflexivity|]. split; [assumption|].
      exists (ms_fields m). split.
      * exists fs, b4, b5. auto 8.
      * destruct m; cbn in *. subst. reflexivity.
Qed.

(** * Fuel is never the reason to stop *)

Definition nf {A} (d : reader A) : Prop := forall i, d i <> RFuel.
(** no fuel problem on inputs shorter than [n] *)
Definition nfb {A} (n : nat) (d : reader A) : Prop := forall i, (length i < n)%nat -> d i <> RFuel.

Lemma nf_bind {A C} (m : reader A) (k : A -> reader C) : nf m -> (forall a, nf (k a)) -> nf (bind m k).
Proof.
  intros H1 H2 i. unfold bind. specialize (H1 i). destruct (m i) eqn:E; try congruence; apply H2.
Qed.
Lemma nf_nfb {A} n (d : reader A) : nf d -> nfb n d.
Proof. intros H i _. apply H. Qed.
Lemma nf_ret {A} (a : A) : nf (ret a). Proof. intros i; discriminate. Qed.
Lemma nf_fail {A} : nf (@fail A). Proof. intros i; discriminate. Qed.
Lemma nf_panic {A} : nf (@panic A). Proof. intros i; discriminate. Qed.
Lemma nf_if {A} (b : bool) (m1 m2 : reader A) : nf m1 -> nf m2 -> nf (if b then m1 else m2).
Proof. destruct b; auto. Qed.
Lemma nf_take n : nf (take n).
Proof. intros i. unfold take. destruct (n <=? blen i); discriminate. Qed.
Lemma nf_read_byte : nf read_byte.
Proof. intros [|b i]; discriminate. Qed.
Lemma nf_read_n {A} n (rd : reader A) : nf rd -> nf (read_n n rd).
Proof.
  intros H. induction n; cbn [read_n]; [apply nf_ret|].
  apply nf_bind; [assumption|]. intros a. apply nf_bind; [assumption|]. intros l. apply nf_ret.
Qed.
Lemma nf_varint_loop k : forall v s, s + 7 * N.of_nat k = 70 -> (0 < k)%nat -> nf (read_varint_loop k v s).
Proof.
  induction k as [|k IH]; intros v s Hs Hk i; [lia|]. cbn [read_varint_loop].
  destruct i as [|b i]; [discriminate|]. destruct (b2n b <? 128); [discriminate|].
  destruct (N.leb_spec 64 (s + 7)); [discriminate|]. apply IH; lia.
Qed.
Lemma nf_varint : nf read_varint.
Proof. apply nf_varint_loop; [reflexivity|lia]. Qed.
Lemma nf_svarint : nf read_svarint.
Proof. apply nf_bind; [apply nf_varint|]. intros; apply nf_ret. Qed.
Lemma nf_string : nf read_string.
Proof.
  apply nf_bind; [apply nf_varint|]. intros n. apply nf_if; [apply nf_ret|].
  apply nf_if; [apply nf_fail|apply nf_take].
Qed.
Lemma nf_f32 : nf read_f32.
Proof. apply nf_bind; [apply nf_take|]. intros; apply nf_ret. Qed.
Lemma nf_f64 : nf read_f64.
Proof. apply nf_bind; [apply nf_take|]. intros; apply nf_ret. Qed.
Lemma nf_int64 : nf read_int64.
Proof. apply nf_bind; [apply nf_take|]. intros; apply nf_ret. Qed.
Lemma nf_slice {A} maxlen (rd : reader A) : nf rd -> nf (read_slice maxlen rd).
Proof.
  intros H. apply nf_bind; [apply nf_varint|]. intros n. apply nf_if; [apply nf_fail|].
  apply nf_read_n, H.
Qed.
Lemma nf_bools f : forall n, (n <= f)%nat -> nf (read_bools f n).
Proof.
  induction f as [|f IH]; intros n Hn.
  - destruct n; [|lia]. apply nf_ret.
  - destruct n; [apply nf_ret|]. cbn [read_bools].
    apply nf_bind; [apply nf_read_byte|]. intros b.
    apply nf_bind; [apply IH; lia|]. intros l; apply nf_ret.
Qed.
Lemma nf_bool_slice maxlen : nf (read_bool_slice maxlen).
Proof.
  apply nf_bind; [apply nf_varint|]. intros n. apply nf_if; [apply nf_fail|]. apply nf_bools; lia.
Qed.
Lemma nf_bytes maxlen : nf (read_bytes maxlen).
Proof.
  apply nf_bind; [apply nf_varint|]. intros n. apply nf_if; [apply nf_ret|].
  apply nf_if; [apply nf_fail|apply nf_take].
Qed.
Lemma nf_frame table : nf (read_frame table).
Proof.
  apply nf_bind; [apply nf_varint|]. intros i. apply nf_if; [apply nf_fail|].
  apply nf_bind; [apply nf_varint|]. intros j. apply nf_if; [apply nf_fail|].
  apply nf_bind; [apply nf_varint|]. intros ln.
  destruct (nth_error table (N.to_nat i)); [|apply nf_panic].
  destruct (nth_error table (N.to_nat j)); [apply nf_ret|apply nf_panic].
Qed.
Lemma nf_stack : nf read_stack.
Proof.
  apply nf_bind; [apply nf_varint|]. intros n. apply nf_if; [apply nf_fail|].
  apply nf_if; [apply nf_ret|]. apply nf_bind; [apply nf_varint|]. intros ts.
  apply nf_if; [apply nf_fail|]. apply nf_bind; [apply nf_read_n, nf_string|]. intros t.
  apply nf_read_n, nf_frame.
Qed.

Lemma nfb_bind {A C} n (m : reader A) (k : A -> reader C) R :
  exact m R -> nfb n m -> (forall a, nfb n (k a)) -> nfb n (bind m k).
Proof.
  intros [S _] H1 H2 i Hi. unfold bind. specialize (H1 i Hi).
  destruct (m i) as [a r| | |] eqn:E; try congruence.
  destruct (S _ _ _ E) as (c & -> & _). apply H2. rewrite app_length in Hi. lia.
Qed.
(** binding a reader that consumes at least one byte *)
Lemma nfb_bind_strict {A C} n (m : reader A) (k : A -> reader C) R :
  exact m R -> (forall a, ~ R [] a) -> nf m -> (forall a, nfb n (k a)) -> nfb (S n) (bind m k).
Proof.
  intros [S _] HR H1 H2 i Hi. unfold bind. specialize (H1 i).
  destruct (m i) as [a r| | |] eqn:E; try congruence.
  destruct (S _ _ _ E) as (c & -> & Hc). apply H2. rewrite app_length in Hi.
  destruct c as [|x c]; [exfalso; eapply HR, Hc|]. cbn in Hi. lia.
Qed.
Lemma nfb_if {A} n (b : bool) (m1 m2 : reader A) : nfb n m1 -> nfb n m2 -> nfb n (if b then m1 else m2).
Proof. destruct b; auto. Qed.
Lemma nfb_read_n {A} n k (rd : reader A) R : exact rd R -> nfb n rd -> nfb n (read_n k rd).
Proof.
  intros He H. induction k; cbn [read_n]; [apply nf_nfb, nf_ret|].
  eapply nfb_bind; [exact He|assumption|]. intros a.
  eapply nfb_bind; [apply exact_read_n, He|assumption|]. intros l. apply nf_nfb, nf_ret.
Qed.

Lemma nfb_value maxlen f n rf : exact rf (R_field maxlen f) -> nfb n rf ->
  nfb n (read_value maxlen rf).
Proof.
  intros He Hrf. unfold read_value.
  eapply nfb_bind; [apply exact_read_byte|apply nf_nfb, nf_read_byte|]. intros tag.
  assert (Hs : forall A (m : reader A) (g : A -> prim * list lfield),
     nf m -> nfb n (a <- m ;; ret (g a))).
  { intros A m g Hm. apply nf_nfb, nf_bind; [assumption|]. intros a. apply nf_ret. }
  apply nfb_if; [apply nf_nfb, nf_ret|].
  apply nfb_if; [apply Hs, nf_read_byte|].
  apply nfb_if; [apply Hs, nf_svarint|].
  apply nfb_if; [apply Hs, nf_svarint|].
  apply nfb_if; [apply Hs, nf_varint|].
  apply nfb_if; [apply Hs, nf_varint|].
  apply nfb_if; [apply Hs, nf_f32|].
  apply nfb_if; [apply Hs, nf_f64|].
  apply nfb_if; [apply nf_nfb, nf_bind; [apply nf_f64|]; intros re; apply nf_bind; [apply nf_f64|];
                 intros im; apply nf_ret|].
  apply nfb_if; [apply Hs, nf_string|].
  apply nfb_if; [apply Hs, nf_bool_slice|].
  apply nfb_if; [apply Hs, nf_bytes|].
  apply nfb_if; [apply Hs, nf_slice, nf_svarint|].
  apply nfb_if; [apply Hs, nf_slice, nf_svarint|].
  apply nfb_if; [apply Hs, nf_slice, nf_varint|].
  apply nfb_if; [apply Hs, nf_slice, nf_varint|].
  apply nfb_if; [apply Hs, nf_slice, nf_f32|].
  apply nfb_if; [apply Hs, nf_slice, nf_f64|].
  apply nfb_if; [apply Hs, nf_slice, nf_string|].
  assert (Hc : forall k, nfb n (c <- read_n k rf ;; ret (PNil, c))).
  { intros k. eapply nfb_bind; [apply exact_read_n, He|eapply nfb_read_n; eassumption|].
    intros l. apply nf_nfb, nf_ret. }
  apply nfb_if.
  { eapply nfb_bind; [apply exact_varint|apply nf_nfb, nf_varint|]. intros k.
    apply nfb_if; [apply nf_nfb, nf_fail|apply Hc]. }
  apply nfb_if; [|apply nf_nfb, nf_fail].
  eapply nfb_bind; [apply exact_varint|apply nf_nfb, nf_varint|]. intros k.
  apply nfb_if; [apply nf_nfb, nf_panic|apply Hc].
Qed.

Lemma string_bytes_nonempty s : ~ string_bytes [] s.
Proof.
  intros (hd & H & _ & E). apply varint_bytes_nonempty in H. destruct hd; [congruence|discriminate].
Qed.

Lemma nfb_field maxlen f : nfb f (read_field f maxlen).
Proof.
  induction f as [|f IH]; [intros i Hi; lia|]. cbn [read_field].
  eapply nfb_bind_strict; [apply exact_string|apply string_bytes_nonempty|apply nf_string|].
  intros nm. eapply nfb_bind; [apply exact_string|apply nf_nfb, nf_string|]. intros ty.
  eapply nfb_bind; [apply read_value_exact, read_field_exact| |].
  - eapply nfb_value; [apply read_field_exact|exact IH].
  - intros vc. apply nf_nfb, nf_ret.
Qed.

Lemma nfb_fields maxlen f : nfb f (read_fields f maxlen).
Proof.
  unfold read_fields.
  eapply nfb_bind; [apply exact_varint|apply nf_nfb, nf_varint|]. intros n.
  apply nfb_if; [apply nf_nfb, nf_fail|].
  eapply nfb_read_n; [apply read_field_exact|apply nfb_field].
Qed.

Lemma nfb_dec_state_f maxlen f : nfb f (dec_state_f f maxlen).
Proof.
  unfold dec_state_f.
  eapply nfb_bind; [apply exact_varint|apply nf_nfb, nf_varint|]. intros id.
  eapply nfb_bind; [apply read_int64_exact|apply nf_nfb, nf_int64|]. intros t.
  eapply nfb_bind; [apply read_stack_exact|apply nf_nfb, nf_stack|]. intros st.
  eapply nfb_bind; [apply read_fields_exact|apply nfb_fields|]. intros fs.
  apply nf_nfb, nf_ret.
Qed.

Lemma dec_state_unfold maxlen i : dec_state maxlen i = dec_state_f (S (length i)) maxlen i.
Proof. reflexivity. Qed.

Lemma dec_state_nf maxlen i : dec_state maxlen i <> RFuel.
Proof. rewrite dec_state_unfold. apply nfb_dec_state_f. lia. Qed.

(** * More fuel never changes a result *)

Definition le_rd {A} (d1 d2 : reader A) : Prop := forall i, d1 i = RFuel \/ d1 i = d2 i.

Lemma le_refl_rd {A} (d : reader A) : le_rd d d.
Proof. intros i; right; reflexivity. Qed.
Lemma le_bind {A C} (m1 m2 : reader A) (k1 k2 : A -> reader C) :
  le_rd m1 m2 -> (forall a, le_rd (k1 a) (k2 a)) -> le_rd (bind m1 k1) (bind m2 k2).
Proof.
  intros H1 H2 i. unfold bind. destruct (H1 i) as [E|E]; rewrite E; [left; reflexivity|].
  destruct (m2 i); try (right; reflexivity). apply H2.
Qed.
Lemma le_if {A} (b : bool) (m1 m2 n1 n2 : reader A) :
  le_rd m1 n1 -> le_rd m2 n2 -> le_rd (if b then m1 else m2) (if b then n1 else n2).
Proof. destruct b; auto. Qed.
Lemma le_read_n {A} n (r1 r2 : reader A) : le_rd r1 r2 -> le_rd (read_n n r1) (read_n n r2).
Proof.
  intros H. induction n; cbn [read_n]; [apply le_refl_rd|].
  apply le_bind; [assumption|]. intros a. apply le_bind; [assumption|]. intros l. apply le_refl_rd.
Qed.
Lemma le_rvalue maxlen r1 r2 : le_rd r1 r2 -> le_rd (read_value maxlen r1) (read_value maxlen r2).
Proof.
  intros H. unfold read_value. apply le_bind; [apply le_refl_rd|]. intros tag.
  do 19 (apply le_if; [apply le_refl_rd|]).
  apply le_if.
  { apply le_bind; [apply le_refl_rd|]. intros n. apply le_if; [apply le_refl_rd|].
    apply le_bind; [apply le_read_n, H|]. intros; apply le_refl_rd. }
  apply le_if; [|apply le_refl_rd].
  apply le_bind; [apply le_refl_rd|]. intros n. apply le_if; [apply le_refl_rd|].
  apply le_bind; [apply le_read_n, H|]. intros; apply le_refl_rd.
Qed.
Lemma le_field maxlen f g : (f <= g)%nat -> le_rd (read_field f maxlen) (read_field g maxlen).
Proof.
  revert g; induction f as [|f IH]; intros g Hg; [intros i; left; reflexivity|].
  destruct g as [|g]; [lia|]. cbn [read_field].
  apply le_bind; [apply le_refl_rd|]. intros nm. apply le_bind; [apply le_refl_rd|]. intros ty.
  apply le_bind; [apply le_rvalue, IH; lia|]. intros; apply le_refl_rd.
Qed.
Lemma le_dec_state maxlen f g : (f <= g)%nat -> le_rd (dec_state_f f maxlen) (dec_state_f g maxlen).
Proof.
  intros H. unfold dec_state_f, read_fields.
  do 3 (apply le_bind; [apply le_refl_rd|]; intros ?).
  apply le_bind.
  - apply le_bind; [apply le_refl_rd|]; intros n. apply le_if; [apply le_refl_rd|].
    apply le_read_n, le_field, H.
  - intros; apply le_refl_rd.
Qed.

Lemma dec_state_fuel maxlen g i : (S (length i) <= g)%nat ->
  dec_state maxlen i = dec_state_f g maxlen i.
Proof.
  intros H. rewrite dec_state_unfold.
  destruct (le_dec_state maxlen (S (length i)) g H i) as [E|E]; [|exact E].
  exfalso. revert E. apply nfb_dec_state_f. lia.
Qed.

Lemma dec_state_exact maxlen : exact (dec_state maxlen) (state_bytes maxlen).
Proof.
  split.
  - intros i m r E. rewrite dec_state_unfold in E.
    apply (proj1 (dec_state_f_exact _ _)) in E.
    destruct E as (c & -> & b1 & b2 & b3 & b4 & b5 & fs & -> & H1 & H2 & H3 & H4 & H5 & H6 & _ & H8).
    eexists. split; [reflexivity|]. exists b1, b2, b3, b4, b5, fs. auto 10.
  - intros c m r (b1 & b2 & b3 & b4 & b5 & fs & -> & H1 & H2 & H3 & H4 & H5 & H6 & H8).
    set (c := b1 ++ b2 ++ b3 ++ b4 ++ b5).
    rewrite (dec_state_fuel maxlen (S (length (c ++ r)) + S (list_max (map fdepth fs)))) by lia.
    apply (proj2 (dec_state_f_exact _ _)).
    exists b1, b2, b3, b4, b5, fs. repeat (split; [auto; fail|]). split; [|assumption].
    rewrite Forall_forall. intros w Hw.
    pose proof (list_max_in (map fdepth fs) (fdepth w) (in_map _ _ _ Hw)). lia.
Qed.

(** * Cutting the input *)

(** Panics do not disappear when more input arrives. *)
Definition ps {A} (d : reader A) : Prop := forall i s, d i = RPanic -> d (i ++ s) = RPanic.

Lemma ps_bind {A C} (m : reader A) (k : A -> reader C) R :
  exact m R -> ps m -> (forall a, ps (k a)) -> ps (bind m k).
Proof.
  intros [S Cc] H1 H2 i s. unfold bind. destruct (m i) as [a r| | |] eqn:E; try discriminate.
  - intros Hk. destruct (S _ _ _ E) as (c & -> & Hc).
    rewrite <- app_assoc, (Cc _ _ _ Hc). apply H2, Hk.
  - intros _. rewrite (H1 _ s E). reflexivity.
Qed.
Definition np {A} (d : reader A) : Prop := forall i, d i <> RPanic.
Lemma np_ps {A} (d : reader A) : np d -> ps d.
Proof. intros H i s E. exfalso. exact (H i E). Qed.
Lemma np_bind {A C} (m : reader A) (k : A -> reader C) : np m -> (forall a, np (k a)) -> np (bind m k).
Proof.
  intros H1 H2 i. unfold bind. specialize (H1 i). destruct (m i) eqn:E; try congruence; apply H2.
Qed.
Lemma np_ret {A} (a : A) : np (ret a). Proof. intros i; discriminate. Qed.
Lemma np_fail {A} : np (@fail A). Proof. intros i; discriminate. Qed.
Lemma np_if {A} (b : bool) (m1 m2 : reader A) : np m1 -> np m2 -> np (if b then m1 else m2).
Proof. destruct b; auto. Qed.
Lemma np_take n : np (take n).
Proof. intros i. unfold take. destruct (n <=? blen i); discriminate. Qed.
Lemma np_read_byte : np read_byte.
Proof. intros [|b i]; discriminate. Qed.
Lemma np_read_n {A} n (rd : reader A) : np rd -> np (read_n n rd).
Proof.
  intros H. induction n; cbn [read_n]; [apply np_ret|].
  apply np_bind; [assumption|]. intros a. apply np_bind; [assumption|]. intros l. apply np_ret.
Qed.
Lemma np_varint_loop k : forall v s, np (read_varint_loop k v s).
Proof.
  induction k as [|k IH]; intros v s i; [discriminate|]. cbn [read_varint_loop].
  destruct i as [|b i]; [discriminate|]. destruct (b2n b <? 128); [discriminate|].
  destruct (64 <=? s + 7); [discriminate|]. apply IH.
Qed.
Lemma np_varint : np read_varint. Proof. apply np_varint_loop. Qed.
Lemma np_svarint : np read_svarint.
Proof. apply np_bind; [apply np_varint|]. intros; apply np_ret. Qed.
Lemma np_string : np read_string.
Proof.
  apply np_bind; [apply np_varint|]. intros n. apply np_if; [apply np_ret|].
  apply np_if; [apply np_fail|apply np_take].
Qed.
Lemma np_f32 : np read_f32.
Proof. apply np_bind; [apply np_take|]. intros; apply np_ret. Qed.
Lemma np_f64 : np read_f64.
Proof. apply np_bind; [apply np_take|]. intros; apply np_ret. Qed.
Lemma np_int64 : np read_int64.
Proof. apply np_bind; [apply np_take|]. intros; apply np_ret. Qed.
Lemma np_slice {A} maxlen (rd : reader A) : np rd -> np (read_slice maxlen rd).
Proof.
  intros H. apply np_bind; [apply np_varint|]. intros n. apply np_if; [apply np_fail|].
  apply np_read_n, H.
Qed.
Lemma np_bools f : forall n, np (read_bools f n).
Proof.
  induction f as [|f IH]; intros n.
  - destruct n; [apply np_ret|intros i; discriminate].
  - destruct n; [apply np_ret|]. cbn [read_bools].
    apply np_bind; [apply np_read_byte|]. intros b.
    apply np_bind; [apply IH|]. intros l; apply np_ret.
Qed.
Lemma np_bool_slice maxlen : np (read_bool_slice maxlen).
Proof.
  apply np_bind; [apply np_varint|]. intros n. apply np_if; [apply np_fail|]. apply np_bools.
Qed.
Lemma np_bytes maxlen : np (read_bytes maxlen).
Proof.
  apply np_bind; [apply np_varint|]. intros n. apply np_if; [apply np_ret|].
  apply np_if; [apply np_fail|apply np_take].
Qed.
Lemma np_frame table : np (read_frame table).
Proof.
  intros i. unfold read_frame, bind.
  pose proof (np_varint i) as P1. destruct (read_varint i) as [fi r1| | |]; try congruence.
  destruct (N.leb_spec (blen table) fi); [discriminate|].
  pose proof (np_varint r1) as P2. destruct (read_varint r1) as [gi r2| | |]; try congruence.
  destruct (N.leb_spec (blen table) gi); [discriminate|].
  pose proof (np_varint r2) as P3. destruct (read_varint r2) as [ln r3| | |]; try congruence.
  destruct (nth_error table (N.to_nat fi)) eqn:E1.
  2:{ apply nth_error_None in E1. unfold blen in *. lia. }
  destruct (nth_error table (N.to_nat gi)) eqn:E2.
  2:{ apply nth_error_None in E2. unfold blen in *. lia. }
  discriminate.
Qed.
Lemma np_stack : np read_stack.
Proof.
  apply np_bind; [apply np_varint|]. intros n. apply np_if; [apply np_fail|].
  apply np_if; [apply np_ret|]. apply np_bind; [apply np_varint|]. intros ts.
  apply np_if; [apply np_fail|]. apply np_bind; [apply np_read_n, np_string|]. intros t.
  apply np_read_n, np_frame.
Qed.
Lemma ps_if {A} (b : bool) (m1 m2 : reader A) : ps m1 -> ps m2 -> ps (if b then m1 else m2).
Proof. destruct b; auto. Qed.
Lemma ps_read_n {A} n (rd : reader A) R : exact rd R -> ps rd -> ps (read_n n rd).
Proof.
  intros He H. induction n; cbn [read_n]; [apply np_ps, np_ret|].
  eapply ps_bind; [exact He|assumption|]. intros a.
  eapply ps_bind; [apply exact_read_n, He|assumption|]. intros l. apply np_ps, np_ret.
Qed.
Lemma ps_value maxlen f rf : exact rf (R_field maxlen f) -> ps rf -> ps (read_value maxlen rf).
Proof.
  intros He Hrf. unfold read_value.
  eapply ps_bind; [apply exact_read_byte|apply np_ps, np_read_byte|]. intros tag.
  assert (Hs : forall A (m : reader A) (g : A -> prim * list lfield),
     np m -> ps (a <- m ;; ret (g a))).
  { intros A m g Hm. apply np_ps, np_bind; [assumption|]. intros a. apply np_ret. }
  apply ps_if; [apply np_ps, np_ret|].
  apply ps_if; [apply Hs, np_read_byte|].
  apply ps_if; [apply Hs, np_svarint|].
  apply ps_if; [apply Hs, np_svarint|].
  apply ps_if; [apply Hs, np_varint|].
  apply ps_if; [apply Hs, np_varint|].
  apply ps_if; [apply Hs, np_f32|].
  apply ps_if; [apply Hs, np_f64|].
  apply ps_if; [apply np_ps, np_bind; [apply np_f64|]; intros re; apply np_bind; [apply np_f64|];
                 intros im; apply np_ret|].
  apply ps_if; [apply Hs, np_string|].
  apply ps_if; [apply Hs, np_bool_slice|].
  apply ps_if; [apply Hs, np_bytes|].
  apply ps_if; [apply Hs, np_slice, np_svarint|].
  apply ps_if; [apply Hs, np_slice, np_svarint|].
  apply ps_if; [apply Hs, np_slice, np_varint|].
  apply ps_if; [apply Hs, np_slice, np_varint|].
  apply ps_if; [apply Hs, np_slice, np_f32|].
  apply ps_if; [apply Hs, np_slice, np_f64|].
  apply ps_if; [apply Hs, np_slice, np_string|].
  assert (Hc : forall k, ps (c <- read_n k rf ;; ret (PNil, c))).
  { intros k. eapply ps_bind; [apply exact_read_n, He|eapply ps_read_n; eassumption|].
    intros l. apply np_ps, np_ret. }
  apply ps_if.
  { eapply ps_bind; [apply exact_varint|apply np_ps, np_varint|]. intros k.
    apply ps_if; [apply np_ps, np_fail|apply Hc]. }
  apply ps_if; [|apply np_ps, np_fail].
  eapply ps_bind; [apply exact_varint|apply np_ps, np_varint|]. intros k.
  apply ps_if; [intros i s _; reflexivity|apply Hc].
Qed.
Lemma ps_field maxlen f : ps (read_field f maxlen).
Proof.
  induction f as [|f IH]; [intros i s; discriminate|]. cbn [read_field].
  eapply ps_bind; [apply exact_string|apply np_ps, np_string|]. intros nm.
  eapply ps_bind; [apply exact_string|apply np_ps, np_string|]. intros ty.
  eapply ps_bind; [apply read_value_exact, read_field_exact| |].
  - eapply ps_value; [apply read_field_exact|exact IH].
  - intros vc. apply np_ps, np_ret.
Qed.
Lemma ps_dec_state_f maxlen f : ps (dec_state_f f maxlen).
Proof.
  unfold dec_state_f.
  eapply ps_bind; [apply exact_varint|apply np_ps, np_varint|]. intros id.
  eapply ps_bind; [apply read_int64_exact|apply np_ps, np_int64|]. intros t.
  eapply ps_bind; [apply read_stack_exact|apply np_ps, np_stack|]. intros st.
  eapply ps_bind; [apply read_fields_exact| |intros fs; apply np_ps, np_ret].
  unfold read_fields. eapply ps_bind; [apply exact_varint|apply np_ps, np_varint|]. intros n.
  apply ps_if; [apply np_ps, np_fail|]. eapply ps_read_n; [apply read_field_exact|apply ps_field].
Qed.
Lemma ps_dec_state maxlen : ps (dec_state maxlen).
Proof.
  intros i s E. rewrite dec_state_unfold.
  rewrite (dec_state_fuel maxlen (S (length (i ++ s)))) in E by (rewrite app_length; lia).
  apply ps_dec_state_f, E.
Qed.

(** A cut-off input is an error for every exact, fuel-safe, panic-stable decoder. *)
Lemma cut_is_error {A} (d : reader A) R e p m :
  exact d R -> nf d -> ps d -> d e = ROk m [] -> strict_prefix p e -> d p = RErr.
Proof.
  intros [S C] Hnf Hps He (q & Hq & ->).
  destruct (d p) as [a r| | |] eqn:E.
  - exfalso. destruct (S _ _ _ E) as (c & -> & Hc).
    rewrite <- app_assoc, (C _ _ _ Hc) in He. injection He as _ He.
    destruct r, q; try discriminate. congruence.
  - reflexivity.
  - pose proof (Hps p q E). congruence.
  - exfalso. exact (Hnf _ E).
Qed.

Lemma dec_point_nf : nf dec_point.
Proof.
  apply nf_bind; [apply nf_varint|]. intros id. apply nf_bind; [apply nf_int64|]. intros t.
  apply nf_bind; [apply nf_stack|]. intros; apply nf_ret.
Qed.
Lemma dec_panic_nf : nf dec_panic.
Proof.
  apply nf_bind; [apply nf_varint|]. intros id. apply nf_bind; [apply nf_int64|]. intros t.
  apply nf_bind; [apply nf_string|]. intros; apply nf_ret.
Qed.
Lemma dec_error_nf : nf dec_error.
Proof.
  apply nf_bind; [apply nf_varint|]. intros id. apply nf_bind; [apply nf_string|]. intros t.
  apply nf_bind; [apply nf_stack|]. intros; apply nf_ret.
Qed.
Lemma dec_point_np : np dec_point.
Proof.
  apply np_bind; [apply np_varint|]. intros id. apply np_bind; [apply np_int64|]. intros t.
  apply np_bind; [apply np_stack|]. intros; apply np_ret.
Qed.
Lemma dec_panic_np : np dec_panic.
Proof.
  apply np_bind; [apply np_varint|]. intros id. apply np_bind; [apply np_int64|]. intros t.
  apply np_bind; [apply np_string|]. intros; apply np_ret.
Qed.
Lemma dec_error_np : np dec_error.
Proof.
  apply np_bind; [apply np_varint|]. intros id. apply np_bind; [apply np_string|]. intros t.
  apply np_bind; [apply np_stack|]. intros; apply np_ret.
Qed.

(** * Round trips of messages *)

Lemma point_rt id ts st rest : in_u32 id -> in_i64 ts -> stack_ok st ->
  dec_point (enc_point id ts st ++ rest) = ROk (mkPoint id ts st) rest.
Proof.
  intros Hid Hts Hst. unfold dec_point, enc_point. rewrite <- !app_assoc.
  unfold bind at 1. rewrite varint_rt by (apply u32_u64; assumption).
  unfold bind at 1. rewrite int64_rt by assumption.
  unfold bind at 1. rewrite stack_rt by assumption.
  unfold ret. rewrite u32_id by assumption. reflexivity.
Qed.

Lemma panic_rt id ts msg rest : in_u32 id -> in_i64 ts -> str_ok msg ->
  dec_panic (enc_panic id ts msg ++ rest) = ROk (mkPanic id ts msg) rest.
Proof.
  intros Hid Hts Hst. unfold dec_panic, enc_panic. rewrite <- !app_assoc.
  unfold bind at 1. rewrite varint_rt by (apply u32_u64; assumption).
  unfold bind at 1. rewrite int64_rt by assumption.
  unfold bind at 1. rewrite string_rt by assumption.
  unfold ret. rewrite u32_id by assumption. reflexivity.
Qed.

Lemma error_rt id msg st rest : in_u32 id -> str_ok msg -> stack_ok st ->
  dec_error (enc_error id msg st ++ rest) = ROk (mkError id msg st) rest.
Proof.
  intros Hid Hts Hst. unfold dec_error, enc_error. rewrite <- !app_assoc.
  unfold bind at 1. rewrite varint_rt by (apply u32_u64; assumption).
  unfold bind at 1. rewrite string_rt by assumption.
  unfold bind at 1. rewrite stack_rt by assumption.
  unfold ret. rewrite u32_id by assumption. reflexivity.
Qed.

Lemma state_rt maxlen id ts st fs rest : maxlen < two64 ->
  in_u32 id -> in_i64 ts -> stack_ok st -> Forall (field_ok maxlen) fs -> blen fs < 4294967296 ->
  dec_state maxlen (enc_state id ts st fs ++ rest) = ROk (mkState id ts st (map view_field fs)) rest.
Proof.
  intros Hm Hid Hts Hst Hfs Hl.
  set (i := enc_state id ts st fs ++ rest).
  rewrite (dec_state_fuel maxlen (S (length i) + S (list_max (map fdepth fs)))) by lia.
  unfold i, dec_state_f, enc_state. rewrite <- !app_assoc.
  unfold bind at 1. rewrite varint_rt by (apply u32_u64; assumption).
  unfold bind at 1. rewrite int64_rt by assumption.
  unfold bind at 1. rewrite stack_rt by assumption.
  unfold bind at 1. rewrite (app_assoc (write_varint (blen fs))).
  rewrite fields_rt by (try assumption; lia).
  unfold ret. rewrite u32_id by assumption. reflexivity.
Qed.

(** * The HTTP layer *)

Lemma serve_at maxlen p bd :
  serve maxlen (mkReq true p bd) =
  if beq p path_error then handle dec_error EvError (mkReq true p bd)
  else if beq p path_point then handle dec_point EvPoint (mkReq true p bd)
  else if beq p path_state then handle (dec_state maxlen) EvState (mkReq true p bd)
  else if beq p path_panic then handle dec_panic EvPanic (mkReq true p bd)
  else Served 404 None.
Proof. reflexivity. Qed.

Lemma serve_post maxlen m : maxlen < 18446744073709551616 -> cmsg_ok maxlen m ->
  serve maxlen (post m) = Served 200 (Some (cmsg_view m)).
Proof.
  intros Hm Hok. unfold post. rewrite serve_at.
  destruct m as [id ts st|id ts st fs|id ts text|id text st]; cbn [cmsg_ok post_path post_body cmsg_view] in *;
    cbn [beq]; cbv [beq path_error path_point path_state path_panic B list_ascii_of_string Ascii.eqb Bool.eqb];
    unfold handle; cbn [rq_post rq_body].
  - destruct Hok as (H1 & H2 & H3). rewrite <- (app_nil_r (enc_point _ _ _)), point_rt by assumption. reflexivity.
  - destruct Hok as (H1 & H2 & H3 & H4 & H5).
    rewrite <- (app_nil_r (enc_state _ _ _ _)), state_rt by assumption. reflexivity.
  - destruct Hok as (H1 & H2 & H3). rewrite <- (app_nil_r (enc_panic _ _ _)), panic_rt by assumption. reflexivity.
  - destruct Hok as (H1 & H2 & H3). rewrite <- (app_nil_r (enc_error _ _ _)), error_rt by assumption. reflexivity.
Qed.

Lemma serve_cut maxlen m p : maxlen < 18446744073709551616 -> cmsg_ok maxlen m ->
  strict_prefix p (post_body m) ->
  serve maxlen (mkReq true (post_path m) p) = Served 400 None.
Proof.
  intros Hm Hok Hp. rewrite serve_at.
  destruct m as [id ts st|id ts st fs|id ts text|id text st]; cbn [cmsg_ok post_path post_body] in *;
    cbv [beq path_error path_point path_state path_panic B list_ascii_of_string Ascii.eqb Bool.eqb];
    unfold handle; cbn [rq_post rq_body].
  - destruct Hok as (H1 & H2 & H3).
    erewrite (cut_is_error dec_point); [reflexivity|apply dec_point_exact|apply dec_point_nf|
      apply np_ps, dec_point_np| |exact Hp].
    rewrite <- (app_nil_r (enc_point _ _ _)). apply point_rt; assumption.
  - destruct Hok as (H1 & H2 & H3 & H4 & H5).
    erewrite (cut_is_error (dec_state maxlen)); [reflexivity|apply dec_state_exact|intros i; apply dec_state_nf|
      apply ps_dec_state| |exact Hp].
    rewrite <- (app_nil_r (enc_state _ _ _ _)). apply state_rt; assumption.
  - destruct Hok as (H1 & H2 & H3).
    erewrite (cut_is_error dec_panic); [reflexivity|apply dec_panic_exact|apply dec_panic_nf|
      apply np_ps, dec_panic_np| |exact Hp].
    rewrite <- (app_nil_r (enc_panic _ _ _)). apply panic_rt; assumption.
  - destruct Hok as (H1 & H2 & H3).
    erewrite (cut_is_error dec_error); [reflexivity|apply dec_error_exact|apply dec_error_nf|
      apply np_ps, dec_error_np| |exact Hp].
    rewrite <- (app_nil_r (enc_error _ _ _)). apply error_rt; assumption.
Qed.

(** * Accepted input is within the limits *)

Lemma le_value_bound bs : le_value bs < 256 ^ N.of_nat (length bs).
Proof.
  induction bs as [|b bs IH]; [cbn; lia|]. cbn [le_value length].
  rewrite Nat2N.inj_succ, N.pow_succ_r'. pose proof (b2n_lt b) as Hb. unfold b2n in Hb. lia.
Qed.
Lemma fixed4_u32 bs v : fixed_bytes 4 bs v -> in_u32 v.
Proof. intros [Hl ->]. pose proof (le_value_bound bs) as H. rewrite Hl in H. exact H. Qed.
Lemma fixed8_u64 bs v : fixed_bytes 8 bs v -> in_u64 v.
Proof. intros [Hl ->]. pose proof (le_value_bound bs) as H. rewrite Hl in H. exact H. Qed.
Lemma svarint_i64 bs z : svarint_bytes bs z -> in_i64 z.
Proof.
  intros (n & Hn & ->). apply varint_bytes_u64 in Hn. unfold in_u64, in_i64, unzig in *.
  assert (n / 2 < 9223372036854775808) by (apply N.div_lt_upper_bound; lia).
  destruct (N.even n); lia.
Qed.
Lemma mod32 w : in_u32 (w mod 4294967296).
Proof. unfold in_u32. apply N.mod_lt. lia. Qed.
Lemma seq_bytes_Forall {A} (R : bytes -> A -> Prop) (P : A -> Prop) bs l :
  (forall b a, R b a -> P a) -> seq_bytes R bs l -> Forall P l.
Proof. intros H. induction 1; constructor; eauto. Qed.
Lemma counted_ok {A} (R : bytes -> A -> Prop) (P : A -> Prop) lim bs l :
  (forall b a, R b a -> P a) -> counted R lim bs l -> blen l <= lim /\ Forall P l.
Proof. intros H (hd & body & -> & _ & Hl & Hs). split; [assumption|]. eapply seq_bytes_Forall; eassumption. Qed.
Lemma string_str_ok b s : string_bytes b s -> str_ok s.
Proof. intros (hd & _ & H & _). exact H. Qed.

Lemma gr_prim_ok maxlen p bs : gr_prim maxlen p bs -> prim_ok maxlen p.
Proof.
  destruct p; cbn [gr_prim prim_ok]; auto.
  - intros (w & _ & [H _]). exact H.
  - apply svarint_i64.
  - intros (w & _ & ->). apply mod32.
  - apply varint_bytes_u64.
  - apply fixed4_u32.
  - apply fixed8_u64.
  - intros (b1 & b2 & _ & H1 & H2). split; eapply fixed8_u64; eassumption.
  - apply string_str_ok.
  - intros (hd & body & _ & _ & H & _). exact H.
  - intros (hd & _ & _ & H). exact H.
  - apply counted_ok. intros b a (w & _ & [H _]). exact H.
  - apply counted_ok. apply svarint_i64.
  - apply counted_ok. intros b a (w & _ & ->). apply mod32.
  - apply counted_ok. apply varint_bytes_u64.
  - apply counted_ok. apply fixed4_u32.
  - apply counted_ok. apply fixed8_u64.
  - apply counted_ok. apply string_str_ok.
Qed.

Lemma gr_fields_ok maxlen fs bs : gr_fields maxlen fs bs -> Forall (field_ok maxlen) fs.
Proof.
  intros H. revert fs bs H.
  apply (gr_fields_mut maxlen (fun v _ _ => val_ok maxlen v) (fun fs _ _ => Forall (field_ok maxlen) fs)).
  - intros. constructor. eapply gr_prim_ok; eassumption.
  - intros. constructor; assumption.
  - constructor.
  - intros nm ty v fs bn bt bv bs H1 H2 H3 H4 H5 H6. constructor; [|assumption].
    split; [|split]; cbn; [eapply string_str_ok; eassumption|eapply string_str_ok; eassumption|assumption].
Qed.

Lemma stack_bytes_ok bs fs : stack_bytes bs fs -> stack_ok fs.
Proof.
  intros [Hl [[-> _]|(_ & hd & ht & bt & body & table & _ & _ & _ & _ & Ht & Hf)]].
  - split; [assumption|constructor].
  - split; [assumption|].
    assert (Hs : Forall str_ok table) by (eapply seq_bytes_Forall; [apply string_str_ok|exact Ht]).
    eapply seq_bytes_Forall; [|exact Hf].
    intros b f (b1 & b2 & b3 & i & j & _ & _ & _ & H3 & H4 & H5).
    rewrite Forall_forall in Hs. repeat split.
    + apply Hs. eapply nth_error_In; eassumption.
    + apply Hs. eapply nth_error_In; eassumption.
    + eapply varint_bytes_u64; eassumption.
Qed.

(** Any accepted event is one the client could have sent within the limits. *)
Lemma accepted_ok maxlen rq ev : serve maxlen rq = Served 200 (Some ev) ->
  exists m, cmsg_ok maxlen m /\ ev = cmsg_view m /\ rq_path rq = post_path m.
Proof.
  assert (Hid : forall b n, id_bytes b n -> in_u32 n) by (intros b n (w & _ & ->); apply mod32).
  assert (H64 : forall b z, int64_bytes b z -> in_i64 z) by (intros b z (_ & H & _); exact H).
  unfold serve, handle. destruct (rq_post rq).
  2:{ repeat match goal with |- context [if beq ?a ?b then _ else _] => destruct (beq a b) end; discriminate. }
  destruct (beq (rq_path rq) path_error) eqn:E1.
  { apply beq_true in E1. destruct (dec_error (rq_body rq)) as [m r| | |] eqn:E; try discriminate.
    intros [= <-]. apply (proj1 dec_error_exact) in E.
    destruct E as (c & _ & b1 & b2 & b3 & _ & H1 & H2 & H3).
    exists (CError (me_id m) (me_text m) (me_stack m)). cbn. destruct m; cbn in *.
    split; [|auto]. split; [eapply Hid; eassumption|].
    split; [eapply string_str_ok; eassumption|eapply stack_bytes_ok; eassumption]. }
  destruct (beq (rq_path rq) path_point) eqn:E2.
  { apply beq_true in E2. destruct (dec_point (rq_body rq)) as [m r| | |] eqn:E; try discriminate.
    intros [= <-]. apply (proj1 dec_point_exact) in E.
    destruct E as (c & _ & b1 & b2 & b3 & _ & H1 & H2 & H3).
    exists (CPoint (mp_id m) (mp_time m) (mp_stack m)). cbn. destruct m; cbn in *.
    split; [|auto]. split; [eapply Hid; eassumption|].
    split; [eapply H64; eassumption|eapply stack_bytes_ok; eassumption]. }
  destruct (beq (rq_path rq) path_state) eqn:E3.
  { apply beq_true in E3. destruct (dec_state maxlen (rq_body rq)) as [m r| | |] eqn:E; try discriminate.
    intros [= <-]. apply (proj1 (dec_state_exact maxlen)) in E.
    destruct E as (c & _ & b1 & b2 & b3 & b4 & b5 & fs & _ & H1 & H2 & H3 & H4 & H5 & H6 & H7).
    exists (CState (ms_id m) (ms_time m) (ms_stack m) fs). cbn. destruct m; cbn in *. subst.
    split; [|auto]. split; [eapply Hid; eassumption|].
    split; [eapply H64; eassumption|]. split; [eapply stack_bytes_ok; eassumption|].
    split; [eapply gr_fields_ok; eassumption|assumption]. }
  destruct (beq (rq_path rq) path_panic) eqn:E4; [|discriminate].
  apply beq_true in E4. destruct (dec_panic (rq_body rq)) as [m r| | |] eqn:E; try discriminate.
  intros [= <-]. apply (proj1 dec_panic_exact) in E.
  destruct E as (c & _ & b1 & b2 & b3 & _ & H1 & H2 & H3).
  exists (CPanic (mk_id m) (mk_time m) (mk_text m)). cbn. destruct m; cbn in *.
  split; [|auto]. split; [eapply Hid; eassumption|].
  split; [eapply H64; eassumption|eapply string_str_ok; eassumption].
Qed.

(** * Rejections *)

Lemma stack_too_long fs rest : 2048 < blen fs < 18446744073709551616 ->
  read_stack (write_stack fs ++ rest) = RErr.
Proof.
  intros H. unfold read_stack, write_stack. rewrite <- app_assoc.
  unfold bind at 1. rewrite varint_rt by (unfold in_u64; lia).
  destruct (N.ltb_spec 2048 (blen fs)); [reflexivity|lia].
Qed.

Lemma frame_bad_index table b1 i rest : varint_bytes b1 i -> blen table <= i ->
  read_frame table (b1 ++ rest) = RErr.
Proof.
  intros H Hi. unfold read_frame, bind at 1. rewrite (proj2 exact_varint _ _ _ H).
  destruct (N.leb_spec (blen table) i); [reflexivity|lia].
Qed.
Lemma frame_bad_index2 table b1 b2 i j rest : varint_bytes b1 i -> varint_bytes b2 j -> blen table <= j ->
  read_frame table (b1 ++ b2 ++ rest) = RErr.
Proof.
  intros H H2 Hj. unfold read_frame, bind at 1. rewrite (proj2 exact_varint _ _ _ H).
  destruct (N.leb_spec (blen table) i); [reflexivity|]. unfold bind at 1.
  rewrite (proj2 exact_varint _ _ _ H2).
  destruct (N.leb_spec (blen table) j); [reflexivity|lia].
Qed.

(** A sequence of values one after the other on one stream. *)
Lemma read_points_stream ms rest :
  Forall (fun m => in_u32 (mp_id m) /\ in_i64 (mp_time m) /\ stack_ok (mp_stack m)) ms ->
  read_n (length ms) dec_point
    (flat_map (fun m => enc_point (mp_id m) (mp_time m) (mp_stack m)) ms ++ rest) = ROk ms rest.
Proof.
  intros H. rewrite (read_n_rt dec_point _ (fun m => m)); [rewrite map_id; reflexivity|].
  eapply Forall_impl; [|exact H]. intros [id t st] (H1 & H2 & H3) r. cbn in *. apply point_rt; assumption.
Qed.
