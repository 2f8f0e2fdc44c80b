(** C48: instrumenting the returns of a function keeps its behaviour and
    reports every visited return exactly once. *)

From Verif Require Import Base InstrModel InstrSpec InstrProofs.

(** An order of reading variables allowed by the language that includes the
    one the added code fixes. *)
Definition includes {Op} (I : info Op) (D : nat -> expr Op -> bool -> Prop) : Prop :=
  forall i e b, code_order I i e b -> D i e b.

(** The instrumented function does only what the original may do: whatever
    order of reading variables the compiler chooses ([D]; [any_order] for the
    Go specification), every call of the instrumented function is, its
    messages removed, a call of the original with the same result (or panic),
    the same events in the same order and the same final state. *)
Theorem C48_refines : forall Op (W : world Op) F I body D, go_ok W F I body -> includes I D ->
  forall u t' u' r, @call Op W F D (instrument F I body) u t' u' r -> @call Op W F D body u (own t') u' r.
Proof.
  intros Op W F I body D G HD u t' u' r H.
  destruct (call_bwd Op W F I body G D HD _ _ _ _ H) as (t & u1 & o & m & t2 & X & Ht & -> & He & Hf).
  rewrite !own_app2, Ht, own_users, (expected_own _ _ _ _ _ _ _ _ He). eapply finish_call; eauto.
Qed.
Print Assumptions C48_refines.

(** Conversely every behaviour of the original with the reading order of the
    added code is one of the instrumented function, with messages added: in
    particular the instrumented function can end if the original does. *)
Theorem C48_realised : forall Op (W : world Op) F I body D, go_ok W F I body -> includes I D ->
  forall u t u' r, @call Op W F (code_order I) body u t u' r ->
  exists t', @call Op W F D (instrument F I body) u t' u' r /\ own t' = t.
Proof.
  intros Op W F I body D G HD u t u' r H.
  destruct (call_finish Op W F _ _ _ _ _ _ H) as (t1 & u1 & o & t2 & X & -> & Hf).
  destruct (instr_fwd Op W F I body G D HD _ _ _ _ X) as (m & Y & Hm).
  exists ((t1 ++ m) ++ map EvUser t2). split; [eapply finish_call; eauto|].
  rewrite !own_app2, own_users, Hm, app_nil_r. f_equal.
  eapply (proj1 (proj2 (plain_own Op W F (code_order I)))); eauto. apply (ok_plain _ _ _ _ G).
Qed.
Print Assumptions C48_realised.

(** When variables are read in the order of the added code, nothing but the
    messages distinguishes the two functions. *)
Theorem C48_behaviour_kept : forall Op (W : world Op) F I body, go_ok W F I body ->
  forall u t u' r, @call Op W F (code_order I) body u t u' r <->
    exists t', @call Op W F (code_order I) (instrument F I body) u t' u' r /\ own t' = t.
Proof.
  intros Op W F I body G u t u' r. split.
  - apply C48_realised; auto. intros i e b Hb; exact Hb.
  - intros (t' & H & <-). eapply C48_refines; eauto. intros i e b Hb; exact Hb.
Qed.
Print Assumptions C48_behaviour_kept.

(** The messages of a call: a visited return sends exactly one, as the last
    event of the body before the deferred calls, with the point id of that
    return, every visible variable and every result; a return that is not
    visited and a panic send none; falling off the end sends one exactly if no
    return of the body is visited. *)
Theorem C48_messages : forall Op (W : world Op) F I body D, go_ok W F I body -> includes I D ->
  forall u t' u' r, @call Op W F D (instrument F I body) u t' u' r ->
  exists t u1 o m t2, @execs Op W F D [] body u t u1 o /\ states t = [] /\ t' = t ++ m ++ map EvUser t2 /\
    expected W F I body u1 o m /\ finish W F o u1 t2 u' r.
Proof.
  intros Op W F I body D G HD u t' u' r H.
  destruct (call_bwd Op W F I body G D HD _ _ _ _ H) as (t & u1 & o & m & t2 & X & Ht & -> & He & Hf).
  exists t, u1, o, m, t2. split; auto. split; auto. rewrite <- Ht. clear.
  unfold states, own. induction t as [|[|] t IH]; cbn; auto.
Qed.
Print Assumptions C48_messages.

(** Hence never more than one message per call. *)
Theorem C48_at_most_one : forall Op (W : world Op) F I body D, go_ok W F I body -> includes I D ->
  forall u t' u' r, @call Op W F D (instrument F I body) u t' u' r -> (length (states t') <= 1)%nat.
Proof.
  intros Op W F I body D G HD u t' u' r H.
  destruct (C48_messages Op W F I body D G HD _ _ _ _ H) as (t & u1 & o & m & t2 & X & Ht & -> & He & Hf).
  unfold states in *. rewrite !filter_app, Ht.
  replace (filter _ (map EvUser t2)) with (@nil (event Op W)) by (clear; induction t2; cbn; auto).
  rewrite app_nil_r. cbn. destruct o; cbn in He; subst; cbn; auto.
  - destruct He as [(_ & f & -> & _)|[_ ->]]; cbn; auto.
  - destruct He as [(_ & rs & f & _ & -> & _)|[_ ->]]; cbn; auto.
Qed.
Print Assumptions C48_at_most_one.

(** ** A concrete world: one variable [x], a function [f] that adds 5 to it
    and returns 7, and a deferred call that is seen as event 100. *)

Definition x_act (o u : nat) : list nat * nat * reply nat :=
  match o with
  | 0 => ([0], u + 5, RVals [7])            (* f() *)
  | 1 => ([], u, RBranch u)                 (* x != 0 *)
  | 2 => ([2], u + 1, RVals [])             (* x++ *)
  | 3 => ([], u, RBranch 1)                 (* true *)
  | 4 => ([], u, RBranch 0)                 (* false, or the first case *)
  | 5 => ([], u, RBranch (3 - u))           (* x < 3 *)
  | 8 => ([8], u, RPanic 13)                (* panic(13) *)
  | 9 => ([9], u, RVals [u])                (* g(lenSyntheticRet0) *)
  | _ => ([], u, RVals [])
  end%nat.

Definition x_world : world nat := {|
  Val := nat; UState := nat; UEv := nat;
  w_ids := fun o => match o with 9%nat => [B "g"; B "lenSyntheticRet0"] | _ => [] end;
  w_rd := fun _ u x => if beq x (B "x") then u else 0%nat;
  w_act := fun o u t u' r => x_act o u = (t, u', r);
  w_actc := fun o T u t u' r => t = [o] /\ u' = u /\ r = RVals [match T with (_, v) :: _ => v | [] => 0%nat end];
  w_conv := fun _ v => v;
  w_res := fun u _ => u;
  w_fin := fun vs u t u' r => t = [100%nat] /\ u' = u /\ r = inr vs;
  w_finp := fun p u t u' r => t = [100%nat] /\ u' = u /\ r = inl p |}.

Definition x_func (names : list bytes) : func := Func (B "foo") names [].
Definition x_info : info nat := {|
  i_ids := fun _ => []; i_need := fun _ _ => false; i_decls := fun _ => [B "x"];
  i_pid := fun k => N.of_nat k; i_end_decls := [B "x"]; i_end_pid := 50; i_end_tag := 90; i_zero := fun _ => EId (B "nil") |}.

Notation x_call := (@call nat x_world).
Notation EU := (@EvUser nat x_world).
Notation ES := (@EvState nat x_world).

Notation x_ret := (@ORet nat x_world).

Lemma call_eq F D b u t t2 u' r : x_call F D b u t u' r -> t = t2 -> x_call F D b u t2 u' r.
Proof. intros H <-; exact H. Qed.

Ltac op := eexists; split; reflexivity.
Ltac inv H := inversion H; clear H; subst.
(* run backwards through a derivation *)
Ltac back := repeat (cbn [x_act] in *; subst; match goal with
  | H : doop _ _ _ _ _ _ |- _ => destruct H as (? & ? & H); cbn in H
  | H : (_, _, _) = (_, _, _) |- _ => inv H
  | H : RBranch _ = _ |- _ => inv H
  | H : RVals _ = _ |- _ => inv H
  | H : RPanic _ = _ |- _ => inv H
  | H : inr _ = _ |- _ => inv H
  | H : inl _ = _ |- _ => inv H
  | H : in_place _ _ _ |- _ => unfold in_place in H
  | H : true = false |- _ => discriminate H
  | H : ?a <> ?a |- _ => contradiction
  | H : op_of _ = _ |- _ => inv H
  | H : exec _ _ _ _ _ _ _ _ _ _ |- _ => inv H
  | H : execs _ _ _ _ _ _ _ _ |- _ => inv H
  | H : clauses _ _ _ _ _ _ _ _ _ |- _ => inv H
  | H : evals _ _ _ _ _ _ _ _ _ |- _ => inv H
  | H : eval1 _ _ _ _ _ _ _ |- _ => inv H
  | H : ret_eval _ _ _ _ _ _ _ _ _ |- _ => inv H
  | H : rcons _ _ = _ |- _ => progress cbn in H
  | H : if _ then _ else _ |- _ => progress cbn in H
  | H : rcons _ ?r = _ |- _ => is_var r; destruct r; cbn in H
  | H : _ /\ _ |- _ => destruct H
  end).

(** for x < 3 { if x != 0 { return x, f() } else { x++ } }; return x, x *)
Definition ex_body : list (stmt nat) :=
  [SLoop 5 [SIf 1 [SReturn 0 [EId (B "x"); ECall (B "f") 0]] (Some (SBlock [SOp 2]))] 6;
   SReturn 1 [EId (B "x"); EId (B "x")]].
Definition ex_func := x_func [[]; []].

Lemma ex_ok : go_ok x_world ex_func x_info ex_body.
Proof.
  constructor; auto.
  - cbn. repeat constructor; cbn; intuition discriminate.
  - cbn. intros k rs [H|[H|[]]]; inv H; auto.
  - cbn. intros k [H|[H|[]]]; inv H.
  - intros k rs e x H He Hx. destruct H as [H|[H|[]]]; injection H as <- <-; destruct He as [<-|[<-|[]]];
      first [contradiction | destruct Hx as [<-|[]]; reflexivity].
  - cbn. intros k rs x _ [<-|[]]; reflexivity.
  - cbn. intros x [<-|[<-|[]]]; reflexivity.
  - cbn. intros x [<-|[]]; reflexivity.
  - intros _ D u t u1 H. inv H; [|contradiction].
    match goal with X : execs _ _ _ [_] _ _ _ _ |- _ => inv X; [|contradiction] end.
    match goal with X : exec _ _ _ _ (SReturn _ _) _ _ _ _ _ |- _ => inv X end.
Qed.

(** The call of the example with x = 0, before and after. *)
Example C48_example_original : x_call ex_func (code_order x_info) ex_body 0%nat [EU 2; EU 0; EU 100]%nat 6%nat (inr [6; 7]%nat).
Proof.
  eapply call_eq.
  - eapply CallRet; [|cbn; auto]. eapply XsStop; [|discriminate]. apply XLoop.
    eapply LStep; [op| | |op|exact Logic.I|].
    + eapply XsCons; [|constructor]. eapply XIfElse; [op|]. apply XBlock. eapply XsCons; [|constructor]. eapply XOp; [op|exact Logic.I].
    + reflexivity.
    + eapply (LLeave _ _ _ _ _ _ _ _ _ _ _ _ _ _ _ (x_ret 0 [6; 7]%nat)); [op| |].
      * eapply XsStop; [|discriminate]. eapply XIfTrue; [op|].
        eapply XsStop; [|discriminate]. apply XReturn. apply (@RtList nat x_world) with (l := [None; Some 7%nat]); [discriminate|reflexivity|].
        eapply (@EsLate nat x_world) with (r := (inr [Some 7%nat])); [reflexivity|].
        eapply (@EsOp nat x_world) with (r := (inr [])); [reflexivity|op|constructor].
      * reflexivity.
  - reflexivity.
Qed.

Example C48_example : x_call ex_func any_order (instrument ex_func x_info ex_body) 0%nat
  [EU 2%nat; EU 0%nat; ES 0 [(B "x", 6%nat); (B "ret1", 7%nat)]; EU 100%nat] 6%nat (inr [6; 7]%nat).
Proof.
  eapply call_eq.
  - eapply CallRet; [|cbn; auto]. eapply XsStop; [|discriminate]. apply XLoop.
    eapply LStep; [op| | |op|exact Logic.I|].
    + eapply XsCons; [|constructor]. eapply XIfElse; [op|]. apply XBlock. eapply XsCons; [|constructor]. eapply XOp; [op|exact Logic.I].
    + reflexivity.
    + eapply (LLeave _ _ _ _ _ _ _ _ _ _ _ _ _ _ _ (x_ret 0 [6; 7]%nat)); [op| |].
      * eapply XsStop; [|discriminate]. eapply XIfTrue; [op|].
        eapply XsStop; [|discriminate]. apply XBlock. 
        eapply XsCons; [eapply XTemp; eapply E1Op; [reflexivity|op]|].
        eapply XsCons; [eapply XTemp; eapply E1Id|].
        eapply XsCons; [eapply XSend|]. eapply XsStop; [|discriminate]. apply XReturn.
        apply (@RtList nat x_world) with (l := [None; None]); [discriminate|reflexivity|].
        eapply (@EsLate nat x_world) with (r := (inr [None])); [exact Logic.I|].
        eapply (@EsLate nat x_world) with (r := (inr [])); [exact Logic.I|constructor].
      * reflexivity.
  - reflexivity.
Qed.

(** ** Limits *)

(** Keeping the order in which variables are read is not guaranteed: with a
    compiler reading operands in place, [return x, f()] where [f] changes [x]
    returns another value once instrumented. *)
Definition ip_body : list (stmt nat) := [SReturn 0 [EId (B "x"); ECall (B "f") 0]].

Lemma one_return_ok rs : length rs = 2%nat -> (forall e x, In e rs -> In x (uses x_world e) -> reserved x = false) ->
  go_ok x_world ex_func x_info [SReturn 0 rs].
Proof.
  intros HL Hn. constructor; auto.
  - cbn. repeat constructor; intros [].
  - intros k rs' [H|[]]. injection H as <- <-. auto.
  - intros k [H|[]]. injection H as <- ->. discriminate HL.
  - intros k rs' e x [H|[]] He Hx. injection H as <- <-. eauto.
  - intros k rs' x _ [<-|[]]; reflexivity.
  - intros x [<-|[<-|[]]]; reflexivity.
  - intros x [<-|[]]; reflexivity.
  - intros _ D u t u1 H. inv H; [|contradiction].
    match goal with X : exec _ _ _ _ (SReturn _ _) _ _ _ _ _ |- _ => inv X end.
Qed.

Theorem C48_in_place_order_refuted :
  ~ (forall Op (W : world Op) F I body, go_ok W F I body -> forall u t' u' r,
       @call Op W F in_place (instrument F I body) u t' u' r -> @call Op W F in_place body u (own t') u' r).
Proof.
  intros A.
  assert (G : go_ok x_world ex_func x_info ip_body).
  { apply one_return_ok; [reflexivity|]. intros e x [<-|[<-|[]]] Hx; cbn in Hx; [destruct Hx as [<-|[]]; reflexivity|contradiction]. }
  assert (H : x_call ex_func in_place (instrument ex_func x_info ip_body) 0%nat
     [EU 0%nat; ES 0 [(B "x", 5%nat); (B "ret1", 7%nat)]; EU 100%nat] 5%nat (inr [5; 7]%nat)).
  { eapply call_eq.
    - eapply CallRet with (k := 0%nat); [|cbn; auto]. eapply XsStop; [|discriminate]. apply XBlock.
      eapply XsCons; [eapply XTemp; eapply E1Op; [reflexivity|op]|].
      eapply XsCons; [eapply XTemp; eapply E1Id|].
      eapply XsCons; [eapply XSend|]. eapply XsStop; [|discriminate]. apply XReturn.
      apply (@RtList nat x_world) with (l := [Some 5; Some 7]%nat); [discriminate|reflexivity|].
      apply (@EsNow nat x_world) with (r := inr [Some 7%nat]); [reflexivity|].
      apply (@EsNow nat x_world) with (r := inr []); [reflexivity|constructor].
    - reflexivity. }
  apply A in H; [|exact G]. inversion H as [? ? ? ? ? ? ? ? X Y|? ? ? ? ? ? X ? Y|? ? ? ? ? ? ? X Y]; subst; clear H; cbn in Y; back; cbn in *; congruence.
Qed.
Print Assumptions C48_in_place_order_refuted.

(** Not every return is reported: not in a labelled statement, not in a
    select, not in the else of an else-if. *)
Definition xx : list (expr nat) := [EId (B "x"); EId (B "x")].
Definition lab_body : list (stmt nat) := [SLabeled (B "L") (SLoop 3 [SReturn 0 xx] 6); SReturn 1 xx].
Definition sel_body : list (stmt nat) := [SSelect 4 [[SReturn 0 xx]]; SReturn 1 xx].
Definition elif_body : list (stmt nat) :=
  [SIf 4 [SReturn 1 xx] (Some (SIf 4 [SReturn 2 xx] (Some (SBlock [SReturn 0 xx])))); SReturn 3 xx].

Ltac op0 := exists []; split; reflexivity.
Ltac xx_ret := apply XReturn; apply (@RtList nat x_world) with (l := [None; None]);
  [discriminate|reflexivity|];
  eapply (@EsLate nat x_world) with (r := inr [None]); [exact Logic.I|];
  eapply (@EsLate nat x_world) with (r := inr []); [exact Logic.I|constructor].

Theorem C48_every_return_reported_refuted : forall body, In body [lab_body; sel_body; elif_body] ->
  x_call ex_func any_order (instrument ex_func x_info body) 0%nat [EU 100%nat] 0%nat (inr [0; 0]%nat).
Proof.
  intros body [<-|[<-|[<-|[]]]]; 
    apply (@CallRet nat x_world) with (t1 := []) (k := 0%nat) (vs := [0; 0]%nat) (u1 := 0%nat) (t2 := [100%nat]); cbn [w_fin x_world]; auto;
    (eapply XsStop; [|discriminate]).
  - apply (@XLabeled nat x_world) with (o := x_ret 0 [0; 0]%nat) (T' := []). apply XLoop.
    eapply (@LLeave nat x_world) with (o := x_ret 0 [0; 0]%nat) (t1 := []) (t2 := []); [op0| |reflexivity].
    eapply XsStop; [|discriminate]. xx_ret.
  - apply (@XSelect nat x_world) with (o := x_ret 0 [0; 0]%nat) (t1 := []) (t2 := []) (u1 := 0%nat) (n := 0%nat); [op0|].
    eapply CRun; [reflexivity| |discriminate]. eapply XsStop; [|discriminate]. xx_ret.
  - eapply XIfElse with (t1 := []) (t2 := []); [op0|]. eapply XIfElse with (t1 := []) (t2 := []); [op0|].
    apply XBlock. eapply XsStop; [|discriminate]. xx_ret.
Qed.
Print Assumptions C48_every_return_reported_refuted.

(** The end of a function without results is not reported when the body has
    a return elsewhere: [if c { return }; x++] *)
Definition early_body : list (stmt nat) := [SIf 4 [SReturn 0 []] None; SOp 2].

Theorem C48_end_reported_refuted :
  x_call (x_func []) any_order (instrument (x_func []) x_info early_body) 0%nat [EU 2; EU 100]%nat 1%nat (inr []).
Proof.
  eapply call_eq.
  - eapply CallEnd; [|reflexivity|cbn; auto].
    eapply XsCons; [eapply XIfNone; op|]. eapply XsCons; [eapply XOp; [op|exact Logic.I]|constructor].
  - reflexivity.
Qed.
Print Assumptions C48_end_reported_refuted.

(** It is reported otherwise: [x++] *)
Example C48_example_end :
  x_call (x_func []) any_order (instrument (x_func []) x_info [SOp 2%nat]) 0%nat
    [EU 2%nat; ES 50 [(B "x", 1%nat)]; EU 100%nat] 1%nat (inr []).
Proof.
  eapply call_eq.
  - eapply CallEnd; [|reflexivity|cbn; auto].
    eapply XsCons; [eapply XOp; [op|exact Logic.I]|]. eapply XsCons; [eapply XSend|constructor].
  - reflexivity.
Qed.

(** The premise on names is needed: a user variable with the name of an added
    one is captured.  [return f(), g(lenSyntheticRet0)] *)
Definition cap_body : list (stmt nat) := [SReturn 0 [ECall (B "f") 0; ECall (B "g") 9]].

Theorem C48_reserved_names_needed :
  (exists t', x_call ex_func any_order (instrument ex_func x_info cap_body) 0%nat t' 5%nat (inr [7; 7]%nat)) /\
  forall t u' r, x_call ex_func any_order cap_body 0%nat t u' r -> r = inr [7; 5]%nat.
Proof.
  split.
  - eexists. eapply CallRet with (k := 0%nat) (t2 := [100%nat]); [|cbn; auto]. eapply XsStop; [|discriminate]. apply XBlock.
    eapply XsCons; [eapply XTemp; eapply E1Op; [reflexivity|op]|].
    eapply XsCons; [eapply XTemp; eapply E1Id|].
    eapply XsCons; [eapply XTemp; eapply E1Op; [reflexivity|exists [9%nat]; split; [reflexivity|cbn; auto]]|].
    eapply XsCons; [eapply XTemp; eapply E1Id|].
    eapply XsCons; [eapply XSend|]. eapply XsStop; [|discriminate]. apply XReturn.
    apply (@RtList nat x_world) with (l := [None; None]); [discriminate|reflexivity|].
    eapply (@EsLate nat x_world) with (r := inr [None]); [exact Logic.I|].
    eapply (@EsLate nat x_world) with (r := inr []); [exact Logic.I|constructor].
  - intros t u' r H. inversion H as [? ? ? ? ? ? ? ? X Y|? ? ? ? ? ? X ? Y|? ? ? ? ? ? ? X Y]; subst; clear H; cbn in Y; back; cbn in *; congruence.
Qed.
Print Assumptions C48_reserved_names_needed.

(** The typed declarations may not compile: the code looks for the names of
    the result type in the returned expression, not among the variables in
    scope.  A function [open] with a parameter [url string] and
    results [url.URL] pointer and [error], ending in [return nil, e()],
    declares a variable of that type where [url] is the parameter. *)
Definition url_func : func := Func (B "open") [[]; []] [[B "url"; B "URL"]; [B "error"]].
Definition url_info : info nat := {|
  i_ids := fun _ => [B "e"]; i_need := fun _ e => match e with EId x => beq x (B "nil") | _ => false end;
  i_decls := fun _ => [B "url"];
  i_pid := fun k => N.of_nat k; i_end_decls := []; i_end_pid := 0; i_end_tag := 0; i_zero := fun _ => EId (B "nil") |}.

Theorem C48_type_names_refuted :
  exists k x i e n, In (STemp k x (Some i) e) (build_return url_func url_info 0 [EId (B "nil"); ECall (B "e") 0%nat]) /\
    In n (nth i (f_tyids url_func) []) /\ In n (i_decls url_info k).
Proof.
  exists 0%nat, (p_ret ++ num 0), 0%nat, (EId (B "nil")), (B "url").
  split; [left; reflexivity|]. split; left; reflexivity.
Qed.
Print Assumptions C48_type_names_refuted.
