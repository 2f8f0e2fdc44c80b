(** C90: the code put in place of returns compiles. *)

From Verif Require Import Base InstrModel InstrSpec InstrProofs CompileSpec CompileProofs.

(** What is said of a program before it is instrumented: it is Go, it is
    user code, it compiles, it keeps clear of the added names and its named
    results are in scope at its end. *)
Record ready {Op} (G : gotypes Op) (F : func) (I : info Op) (body : list (stmt Op)) : Prop := Ready {
  rd_laws : lawful G F (i_ids I);
  rd_plain : forallb plain body = true;
  rd_compiles : compiles F body (G := G);
  rd_fresh : forall k rs, touched body k rs -> forall e x, In e rs -> In x (expr_ids I e) -> ~ synth x;
  rd_types : forall i x, In x (nth i (f_tyids F) []) -> ~ synth x;
  rd_decls : forall k rs, touched body k rs -> forall d, In d (i_decls I k) -> ~ synth d;
  rd_end : forall i n, nth_error (f_names F) i = Some n -> ~ In [] (f_names F) -> n <> B "_" ->
     g_scope G (i_end_tag I) n = Some (EVal (Typed (g_res G i))) }.

Lemma end_named_spec F n : end_named F n = true -> ~ In [] (f_names F) /\ n <> B "_".
Proof.
  unfold end_named. rewrite !andb_true_iff. intros [[A _] C]. split; [apply all_named_spec; exact A|].
  intros ->. discriminate C.
Qed.

(** Exactly when the instrumented function compiles: at every return that is
    replaced the client's names mean the client's declarations, every recorded
    variable can be put into an interface, and every result handed on through
    a variable fits the type of that variable - the result type as the names
    stand for it there, or the type of the expression alone - and that type
    the result; if no return is replaced, the same for the names at the end
    and the zero values. *)
Theorem C90_exactly : forall Op (G : gotypes Op) F I body, ready G F I body ->
  (compiles F (instrument F I body) (G := G) <->
   (forall k rs, touched body k rs -> block_fits Op G F I (g_scope G k) k rs) /\
   ((forall k rs, ~ touched body k rs) -> end_fits Op G F I (g_scope G (i_end_tag I)))).
Proof.
  intros Op G F I body [L P C Fr Ft Fd Fe]. apply body_compiles; auto.
  - intros k rs H _ i e Hi x [Hx|Hx]; [|eapply Ft; eauto]. eapply Fr; eauto. eapply nth_error_In; eauto.
  - intros i n Hi En. apply end_named_spec in En. apply Fe; tauto.
Qed.
Print Assumptions C90_exactly.

(** The expression and its result type have an identifier in common. *)
Definition shares {Op} (F : func) (I : info Op) (i : nat) (e : expr Op) : Prop :=
  exists x, In x (expr_ids I e) /\ In x (nth i (f_tyids F) []).

Lemma shadow_shares {Op} F (I : info Op) i e : shadow F I i e = true <-> shares F I i e.
Proof.
  unfold shadow, shares. rewrite existsb_exists. split; intros (x & A & C); exists x; split; auto; apply mem_spec; exact C.
Qed.

(** In terms of the program alone: where the names of the result types mean
    the same as in the signature, the recorded names and the returned
    identifiers can be put into an interface, expressions sharing an
    identifier with their result type have a type of their own that fits, and
    the zero values fit, the instrumented function compiles - whatever the
    type information says about temporaries. *)
Theorem C90_compiles : forall Op (G : gotypes Op) F I body, ready G F I body ->
  (forall k n, (exists rs, touched body k rs) \/ k = i_end_tag I -> In n client_names -> g_scope G k n = Some EClient) ->
  (forall k rs d, touched body k rs -> In d (i_decls I k) -> d <> B "nil" -> sendable Op G (g_scope G k) d) ->
  (forall k rs i, touched body k rs -> (i < length (f_names F))%nat -> g_mean G (g_scope G k) i = Some (g_res G i)) ->
  (forall k rs x, touched body k rs -> In (EId x) rs -> x <> B "nil" -> sendable Op G (g_scope G k) x) ->
  (forall k rs i e, touched body k rs -> nth_error rs i = Some e -> shares F I i e ->
     exists v t, ety (g_scope G k) e = Some v /\ single v = Some t /\ g_asg G (Typed t) (g_res G i) = true) ->
  (forall d, In d (i_end_decls I) -> d <> B "nil" -> sendable Op G (g_scope G (i_end_tag I)) d) ->
  (forall i, (i < length (f_names F))%nat -> exists v, ety (g_scope G (i_end_tag I)) (i_zero I i) = Some v /\
     g_asg G v (g_res G i) = true) ->
  compiles F (instrument F I body) (G := G).
Proof.
  intros Op G F I body R Hc Hd Hm Hi Hs Hed Hz. apply C90_exactly; [exact R|]. split.
  - intros k rs Ht. split; [intros n; apply Hc; left; eauto|]. split; [intros d; eapply Hd; eauto|].
    intros Hl i e He. unfold result_ok.
    assert (Li : (i < length (f_names F))%nat).
    { apply Nat.lt_le_trans with (length rs); [apply nth_error_Some; congruence|]. unfold nresults in Hl. lia. }
    assert (Sh : shadow F I i e = true -> exists v t, ety (g_scope G k) e = Some v /\ single v = Some t /\ g_asg G (Typed t) (g_res G i) = true).
    { intros X. apply shadow_shares in X. eauto. }
    assert (Wr : exists v t, ety (g_scope G k) e = Some v /\ g_mean G (g_scope G k) i = Some t /\ g_asg G v t = true /\ g_asg G (Typed t) (g_res G i) = true).
    { destruct R as [L P [O _] _ _ _ _].
      assert (Ro : ret_ok F (g_scope G k) rs (G := G)) by (eapply touched_ret_ok; eauto).
      unfold ret_ok in Ro. destruct rs as [|a rs]; [destruct i; discriminate He|].
      destruct Ro as [[_ Ro]|(c & o & ts & E & H2 & _)]; [|rewrite E in Hl; cbn in Hl; lia].
      destruct (Ro i e He) as (v & Ev & Av). exists v, (g_res G i). rewrite (Hm k _ i Ht Li). repeat split; auto. apply L. }
    unfold way_of. destruct e as [x|o|c o|o].
    + destruct (i_need I i (EId x)).
      * destruct (beq x (B "nil")); [exact Wr|]. destruct (shadow F I i (EId x)); auto.
      * intros y E N. injection E as <-. eapply Hi; eauto. eapply nth_error_In; eauto.
    + destruct (i_need I i (ELit o)); cbn [andb]; auto. destruct (shadow F I i (ELit o)); auto.
    + destruct (shadow F I i (ECall c o)); auto.
    + destruct (shadow F I i (EOther o)); auto.
  - intros _. split; [intros n; apply Hc; auto|]. split; [exact Hed|].
    intros i n Hi' _. apply Hz. apply nth_error_Some. congruence.
Qed.
Print Assumptions C90_compiles.

(** A result type hidden at a return breaks the build: if the text of the
    result type is no type there, the expression has no identifier in common
    with it and is not handed on as it is, the instrumented function does not
    compile. *)
Theorem C90_hidden_type : forall Op (G : gotypes Op) F I body k rs i e, ready G F I body ->
  touched body k rs -> length rs = length (f_names F) -> nth_error rs i = Some e -> ~ shares F I i e ->
  match e with EId _ => i_need I i e = true | _ => True end ->
  g_mean G (g_scope G k) i = None -> ~ compiles F (instrument F I body) (G := G).
Proof.
  intros Op G F I body k rs i e R Ht Hl He Hs Hn Hm H. apply C90_exactly in H; [|exact R].
  destruct H as [H _]. destruct (H k rs Ht) as (_ & _ & Q). specialize (Q Hl i e He). unfold result_ok, way_of in Q.
  assert (Sh : shadow F I i e = false) by (destruct (shadow F I i e) eqn:E; auto; apply shadow_shares in E; contradiction).
  rewrite Sh in Q. destruct e as [x|o|c o|o].
  - rewrite Hn in Q. destruct (beq x (B "nil")); destruct Q as (v & t & _ & X & _); congruence.
  - rewrite andb_false_r in Q. destruct Q as (v & t & _ & X & _); congruence.
  - destruct Q as (v & t & _ & X & _); congruence.
  - destruct Q as (v & t & _ & X & _); congruence.
Qed.
Print Assumptions C90_hidden_type.

(** Neither bare returns nor the returns of one call with several results
    need anything of the result types. *)
Theorem C90_no_types : forall Op (G : gotypes Op) F I k rs s, lawful G F (i_ids I) ->
  g_scope G k = s -> ret_ok F s rs (G := G) -> length rs <> length (f_names F) \/ f_names F = [] ->
  (forall d, In d (i_decls I k) -> ~ synth d) ->
  (forall n, In n client_names -> s n = Some EClient) ->
  (forall d, In d (i_decls I k) -> d <> B "nil" -> sendable Op G s d) ->
  ok F [] (SBlock (build_return F I k rs)) (G := G).
Proof.
  intros Op G F I k rs s L Hs R Hl Hd Hc Hsd. apply ok_block.
  assert (Z : length rs = nresults F -> rs = []).
  { intros E. destruct Hl as [Hl|Hl]; [unfold nresults in E; congruence|]. unfold nresults in E. rewrite Hl in E. destruct rs; auto; discriminate. }
  apply (return_fits Op G F I L s k rs Hs R).
  - intros E i e He. rewrite (Z E) in He. destruct i; discriminate He.
  - exact Hd.
  - split; [exact Hc|]. split; [exact Hsd|]. intros E i e He. rewrite (Z E) in He. destruct i; discriminate He.
Qed.
Print Assumptions C90_no_types.

(** The added statements leave a function that ends as Go demands one that
    does, whatever the types are. *)
Theorem C90_still_ends : forall Op (G : gotypes Op) F I body, forallb plain body = true -> f_names F <> [] ->
  lasts (G := G) body = true -> lasts (G := G) (instrument F I body) = true.
Proof.
  intros Op G F I body P Ne H. unfold instrument. destruct (flat_map reached body) as [|k ks] eqn:E.
  - unfold tail_return. destruct (f_names F) as [|a l] eqn:Ef; [congruence|].
    rewrite <- Ef. match goal with |- lasts (_ ++ _ ++ (if ?c then [?x] else [?y])) = true => destruct c end;
      rewrite app_assoc; apply lasts_snoc.
  - rewrite lasts_rw; auto. apply Forall_forall. intros s _. apply term_rw.
Qed.
Print Assumptions C90_still_ends.

(** ** Concrete programs *)

(** A program with a type [response], a named boolean [Flag], [uint64] and
    pointers to responses; [fetch] gives such a pointer. *)
Inductive cty := TInt | TBool | TFlag | TUint64 | TResp | TPtr.
Inductive ccst := CBool | CNum (n : N).
(** A number, [x == T(true)], a call of [fetch]. *)
Inductive cop := ONum (n : N) | OCompare (x t : bytes) | OFetch.

Definition c_ids (o : cop) : list bytes :=
  match o with ONum _ => [] | OCompare x t => [x; t; B "true"] | OFetch => [B "fetch"] end.
Definition cty_eqb (a b : cty) : bool :=
  match a, b with
  | TInt, TInt | TBool, TBool | TFlag, TFlag | TUint64, TUint64 | TResp, TResp | TPtr, TPtr => true
  | _, _ => false
  end.
Definition c_op (s : scope cty ccst) (o : cop) : option (sty cty ccst) :=
  match o with
  | ONum n => Some (Untyped (CNum n))
  | OCompare x t =>
    match s x, s t with
    | Some (EVal (Typed a)), Some (EType b) => if cty_eqb a b then Some (Untyped CBool) else None
    | _, _ => None
    end
  | OFetch => match s (B "fetch") with Some (EVal _) => Some (Typed TPtr) | _ => None end
  end.
(** The text of a result type: a name, perhaps behind a star. *)
Definition c_mean (texts : list (bool * bytes)) (s : scope cty ccst) (i : nat) : option cty :=
  match nth_error texts i with
  | Some (star, n) =>
    match s n with
    | Some (EType t) => if star then match t with TResp => Some TPtr | _ => None end else Some t
    | _ => None
    end
  | None => None
  end.
Definition c_asg (v : sty cty ccst) (t : cty) : bool :=
  match v, t with
  | Typed a, _ => cty_eqb a t
  | Untyped CBool, (TBool | TFlag) => true
  | Untyped (CNum n), TInt => (n <? 2 ^ 63)%N
  | Untyped (CNum n), TUint64 => (n <? 2 ^ 64)%N
  | SNil, TPtr => true
  | _, _ => false
  end.
Definition c_def (c : ccst) : option cty :=
  match c with CBool => Some TBool | CNum n => if (n <? 2 ^ 63)%N then Some TInt else None end.

(** The names of the package, the universe and the client file. *)
Definition c_package : scope cty ccst := fun x =>
  if mem x client_names then Some EClient
  else if beq x (B "response") then Some (EType TResp)
  else if beq x (B "Flag") then Some (EType TFlag)
  else if beq x (B "uint64") then Some (EType TUint64)
  else if beq x (B "fetch") then Some (EVal (Typed TInt))
  else if beq x (B "big") then Some (EVal (Untyped (CNum (2 ^ 63))))
  else if beq x (B "nil") then Some (EVal SNil)
  else None.
Definition c_with (x : bytes) (v : sty cty ccst) (s : scope cty ccst) : scope cty ccst :=
  fun y => if beq y x then Some (EVal v) else s y.

(** A function with one unnamed result, the same scope everywhere. *)
Definition c_types (text : bool * bytes) (res : cty) (s : scope cty ccst) : gotypes cop :=
  GoTypes cop cty ccst c_op (c_mean [text]) c_asg c_def (fun _ => res) (fun _ => s) (fun _ _ => True) (fun _ => false).
Definition c_func (n : bytes) : func := Func (B "f") [[]] [[n]].
Definition c_info (need : bool) (decls : list bytes) : info cop :=
  Info cop c_ids (fun _ _ => need) (fun _ => decls) (fun _ => 5%N) decls 6%N 9 (fun _ => EId (B "nil")).

Lemma cty_eqb_refl t : cty_eqb t t = true.
Proof. destruct t; reflexivity. Qed.

Lemma c_lawful text res s : lawful (c_types text res s) (c_func (snd text)) c_ids.
Proof.
  split; [|split].
  - intros s1 s2 o H. change (c_op s1 o = c_op s2 o). destruct o as [n|x t|]; unfold c_op; auto.
    + rewrite (H x), (H t) by (cbn; auto). reflexivity.
    + rewrite (H (B "fetch")) by (left; reflexivity). reflexivity.
  - intros s1 s2 i H. change (c_mean [text] s1 i = c_mean [text] s2 i). destruct i as [|[|i]]; auto.
    destruct text as [star n]. unfold c_mean. cbn [nth_error]. rewrite (H n) by (left; reflexivity). reflexivity.
  - intros t. apply cty_eqb_refl.
Qed.

Lemma one_touched {Op} k rs k' rs' : touched [SReturn (Op := Op) k rs] k' rs' -> k' = k /\ rs' = rs.
Proof. intros H. inversion H as [A|? A|? ? ? A|? ? ? A|? ? ? ? ? A|? ? ? A|? ? ? A]; destruct A as [A|[]]; try discriminate. injection A as -> ->. auto. Qed.

Lemma c_ready text res s need decls e v :
  ety (G := c_types text res s) s e = Some v -> c_asg v res = true ->
  (forall x, In x (expr_ids (c_info need decls) e) -> ~ synth x) -> ~ synth (snd text) ->
  (forall d, In d decls -> ~ synth d) ->
  ready (c_types text res s) (c_func (snd text)) (c_info need decls) [SReturn 0%nat [e]].
Proof.
  intros E A F1 F2 F3. constructor.
  - apply c_lawful.
  - reflexivity.
  - split; [|reflexivity]. cbn. split; [|exact Logic.I]. left. split; [reflexivity|].
    intros [|[|i]] e' He; try discriminate. injection He as <-. exists v. auto.
  - intros k rs [-> ->]%one_touched e' x [<-|[]] Hx. auto.
  - intros [|[|i]] x Hx; cbn in Hx; try contradiction. destruct Hx as [<-|[]]. exact F2.
  - intros k rs _ d Hd. auto.
  - intros [|[|i]] n Hn Z; try discriminate. destruct Z. left. reflexivity.
Qed.

Lemma not_synth x : reserved x = false -> ~ synth x.
Proof. intros H (i & [-> |[-> | ->]]); cbn in H; discriminate H. Qed.

(** [func f() *response { response := fetch(); return nil }]: the type of the
    result is hidden by the variable, [var lenSyntheticRet0 *response = nil]
    does not compile.  Early returns of [nil] behind a variable named like its
    type are common Go. *)
Definition hidden_scope : scope cty ccst := c_with (B "response") (Typed TPtr) c_package.

Theorem C90_nil_after_variable_refuted :
  let G := c_types (true, B "response") TPtr hidden_scope in
  let I := c_info true [B "response"] in
  let body := [SReturn 0%nat [EId (B "nil")]] in
  ready G (c_func (B "response")) I body /\
  ~ compiles (c_func (B "response")) (instrument (c_func (B "response")) I body) (G := G).
Proof.
  intros G I body.
  assert (R : ready G (c_func (B "response")) I body).
  { apply (c_ready (true, B "response") TPtr hidden_scope true [B "response"] (EId (B "nil")) SNil); try reflexivity.
    - intros x [<-|[]]. apply not_synth. reflexivity.
    - apply not_synth. reflexivity.
    - intros d [<-|[]]. apply not_synth. reflexivity. }
  split; [exact R|].
  apply (C90_hidden_type cop G _ I body 0 [EId (B "nil")] 0 (EId (B "nil")) R); try reflexivity.
  - apply TReturn. left. reflexivity.
  - intros (x & [<-|[]] & [H|[]]). discriminate H.
Qed.
Print Assumptions C90_nil_after_variable_refuted.

(** [return response] in its place compiles: the name is recognised. *)
Example C90_same_name :
  let G := c_types (true, B "response") TPtr hidden_scope in
  let I := c_info true [B "response"] in
  let body := [SReturn 0%nat [EId (B "response")]] in
  ready G (c_func (B "response")) I body /\
  compiles (c_func (B "response")) (instrument (c_func (B "response")) I body) (G := G).
Proof.
  intros G I body.
  assert (R : ready G (c_func (B "response")) I body).
  { apply (c_ready (true, B "response") TPtr hidden_scope true [B "response"] (EId (B "response")) (Typed TPtr)); try reflexivity.
    - intros x [<-|[]]. apply not_synth. reflexivity.
    - apply not_synth. reflexivity.
    - intros d [<-|[]]. apply not_synth. reflexivity. }
  split; [exact R|]. apply C90_exactly; [exact R|]. split.
  - intros k rs [-> ->]%one_touched. split; [intros n [<-|[<-|[]]]; reflexivity|]. split.
    + intros d [<-|[]] _. exists (Typed TPtr), TPtr. split; reflexivity.
    + intros _ [|[|i]] e He; try discriminate. injection He as <-. exists (Typed TPtr), TPtr. repeat split; reflexivity.
  - intros N. destruct (N 0%nat [EId (B "response")]). apply TReturn. left. reflexivity.
Qed.

(** [func f(x Flag) Flag { return x == Flag(true) }]: the type and the
    expression share a name though nothing is hidden, so the variable gets the
    type [bool] and cannot be returned as [Flag]. *)
Theorem C90_shared_name_refuted :
  let s := c_with (B "x") (Typed TFlag) c_package in
  let G := c_types (false, B "Flag") TFlag s in
  let I := c_info false [B "x"] in
  let body := [SReturn 0%nat [EOther (OCompare (B "x") (B "Flag"))]] in
  ready G (c_func (B "Flag")) I body /\ g_mean G s 0 = Some TFlag /\
  ~ compiles (c_func (B "Flag")) (instrument (c_func (B "Flag")) I body) (G := G).
Proof.
  intros s G I body.
  assert (R : ready G (c_func (B "Flag")) I body).
  { apply (c_ready (false, B "Flag") TFlag s false [B "x"] (EOther (OCompare (B "x") (B "Flag"))) (Untyped CBool)); try reflexivity.
    - intros x [<-|[<-|[<-|[]]]]; apply not_synth; reflexivity.
    - apply not_synth. reflexivity.
    - intros d [<-|[]]. apply not_synth. reflexivity. }
  split; [exact R|]. split; [reflexivity|]. intros H. apply C90_exactly in H; [|exact R]. destruct H as [H _].
  destruct (H 0%nat [EOther (OCompare (B "x") (B "Flag"))]) as (_ & _ & Q); [apply TReturn; left; reflexivity|].
  specialize (Q eq_refl 0%nat _ eq_refl). unfold result_ok in Q.
  assert (W : way_of cop (c_func (B "Flag")) I 0 (EOther (OCompare (B "x") (B "Flag"))) = Inferred) by reflexivity.
  rewrite W in Q. destruct Q as (v & t & E1 & E2 & E3).
  assert (E0 : ety (G := G) s (EOther (OCompare (B "x") (B "Flag"))) = Some (Untyped CBool)) by reflexivity.
  change (g_scope G 0) with s in E1. rewrite E0 in E1. injection E1 as <-. injection E2 as <-. discriminate E3.
Qed.
Print Assumptions C90_shared_name_refuted.

(** [func f() uint64 { return big }] with [const big = 1 << 63]: the message
    takes the constant as [int], which it does not fit.  The same with a local
    constant that is not returned at all. *)
Theorem C90_large_constant_refuted :
  (let G := c_types (false, B "uint64") TUint64 c_package in
   let I := c_info false [] in
   let body := [SReturn 0%nat [EId (B "big")]] in
   ready G (c_func (B "uint64")) I body /\
   ~ compiles (c_func (B "uint64")) (instrument (c_func (B "uint64")) I body) (G := G)) /\
  (let s := c_with (B "local") (Untyped (CNum (2 ^ 63))) c_package in
   let G := c_types (false, B "uint64") TUint64 s in
   let I := c_info false [B "local"] in
   let body := [SReturn 0%nat [ELit (ONum 7)]] in
   ready G (c_func (B "uint64")) I body /\
   ~ compiles (c_func (B "uint64")) (instrument (c_func (B "uint64")) I body) (G := G)).
Proof.
  split.
  - intros G I body.
    assert (R : ready G (c_func (B "uint64")) I body).
    { apply (c_ready (false, B "uint64") TUint64 c_package false [] (EId (B "big")) (Untyped (CNum (2 ^ 63)))); try reflexivity.
      - intros x [<-|[]]. apply not_synth. reflexivity.
      - apply not_synth. reflexivity.
      - intros d []. }
    split; [exact R|]. intros H. apply C90_exactly in H; [|exact R]. destruct H as [H _].
    destruct (H 0%nat [EId (B "big")]) as (_ & _ & Q); [apply TReturn; left; reflexivity|].
    specialize (Q eq_refl 0%nat _ eq_refl). unfold result_ok in Q.
    assert (W : way_of cop (c_func (B "uint64")) I 0 (EId (B "big")) = AsIs) by reflexivity.
    rewrite W in Q. destruct (Q _ eq_refl) as (v & t & E1 & E2); [discriminate|].
    assert (E0 : c_package (B "big") = Some (EVal (Untyped (CNum (2 ^ 63))))) by (vm_compute; reflexivity).
    change (g_scope G 0 (B "big")) with (c_package (B "big")) in E1. rewrite E0 in E1. injection E1 as <-. discriminate E2.
  - intros s G I body.
    assert (R : ready G (c_func (B "uint64")) I body).
    { apply (c_ready (false, B "uint64") TUint64 s false [B "local"] (ELit (ONum 7)) (Untyped (CNum 7))); try reflexivity.
      - intros x [].
      - apply not_synth. reflexivity.
      - intros d [<-|[]]. apply not_synth. reflexivity. }
    split; [exact R|]. intros H. apply C90_exactly in H; [|exact R]. destruct H as [H _].
    destruct (H 0%nat [ELit (ONum 7)]) as (_ & Q & _); [apply TReturn; left; reflexivity|].
    destruct (Q (B "local") (or_introl eq_refl)) as (v & t & E1 & E2); [discriminate|].
    assert (E0 : s (B "local") = Some (EVal (Untyped (CNum (2 ^ 63))))) by (vm_compute; reflexivity).
    change (g_scope G 0 (B "local")) with (s (B "local")) in E1. rewrite E0 in E1. injection E1 as <-. discriminate E2.
Qed.
Print Assumptions C90_large_constant_refuted.

(** [func f() *response { return fetch() }] meets every hypothesis of
    [C90_compiles], and the compiled block is this. *)
Example C90_example :
  let G := c_types (true, B "response") TPtr c_package in
  let I := c_info true [] in
  let F := c_func (B "response") in
  let body := [SReturn 0%nat [ECall (B "fetch") OFetch]] in
  compiles F (instrument F I body) (G := G) /\
  instrument F I body = [SBlock
    [STemp 0 (B "lenSyntheticTmp0") (Some 0%nat) (ECall (B "fetch") OFetch);
     STemp 0 (B "lenSyntheticRet0") (Some 0%nat) (EId (B "lenSyntheticTmp0"));
     SSend 0 5 [(B "ret0", B "lenSyntheticRet0")];
     SReturn 0 [EId (B "lenSyntheticRet0")]]].
Proof.
  intros G I F body. split; [|vm_compute; reflexivity].
  assert (R : ready G F I body).
  { apply (c_ready (true, B "response") TPtr c_package true [] (ECall (B "fetch") OFetch) (Typed TPtr)); try reflexivity.
    - intros x [<-|[]]. apply not_synth. reflexivity.
    - apply not_synth. reflexivity.
    - intros d []. }
  apply (C90_compiles cop G F I body R).
  - intros k n _ [<-|[<-|[]]]; reflexivity.
  - intros k rs d _ [].
  - intros k rs [|[|i]] _ Hi; cbn in Hi; try lia. reflexivity.
  - intros k rs x [-> ->]%one_touched [X|[]]. discriminate X.
  - intros k rs [|[|i]] e [-> ->]%one_touched He; try discriminate. injection He as <-.
    intros (x & [<-|[]] & [X|[]]). discriminate X.
  - intros d [].
  - intros i _. exists SNil. split; reflexivity.
Qed.
