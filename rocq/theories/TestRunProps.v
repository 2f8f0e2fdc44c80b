(** C62: running the tests against the servers. *)
From Verif Require Import Base Maps TestRunModel TestRunSpec TestRunProofs.
From Coq Require Import Permutation.

Section C62.
Context {R E : Type} (combine : R -> R -> R) (enc : R -> bytes) (ntests : nat) (ident : nat -> bytes)
  (servers : list nat) (force update : bool).
Notation step := (step R combine E enc ntests ident servers force update).
Notation exec := (exec R combine E enc ntests ident servers force update).
Notation init := (init R E servers).

(** A server is with one test at most, never also in the channel, and none is lost:
    when the loop returns every server is back. *)
Theorem C62_servers_exclusive tr st : NoDup servers -> exec init tr = Some st ->
  (forall i j s, holds (t_tests _ _ st i) s -> holds (t_tests _ _ st j) s -> i = j) /\
  (forall i s, holds (t_tests _ _ st i) s -> In s servers /\ ~ In s (t_chan _ _ st)) /\
  (forall r, t_main _ _ st = MRet _ r -> Permutation (t_chan _ _ st) servers).
Proof.
  intros ND Ex. destruct (all_inv combine enc ntests ident servers force update _ _ ND Ex) as (I1 & (N & U & D & A) & I3 & I4 & I5 & I6 & I7).
  split; [exact U|]. split; [intros i s H; split; [apply A; right; exists i; exact H|eapply D, H]|].
  intros r M. apply NoDup_Permutation; [exact N|exact ND|]. intros s. rewrite A. split; [intros H; left; exact H|].
  intros [H|[i H]]; [exact H|]. exfalso. unfold inv6 in I6. rewrite M in I6.
  destruct (Nat.lt_ge_cases i (t_next _ _ st)) as [L|G]; [|apply I1 in G; rewrite G in H; exact H].
  destruct I6 as [(I6 & _ & T)|(I6 & _ & T & T0)].
  - replace i with 0%nat in H by lia. rewrite T in H. exact H.
  - destruct i as [|i]; [rewrite T0 in H by lia; exact H|]. destruct (T (S i)) as [q Q]; [lia|]. rewrite Q in H. exact H.
Qed.

(** When messages arrive while the process that sent them runs, a handler records
    messages of its own run only. *)
Theorem C62_messages_own tr st : NoDup servers -> exec init tr = Some st ->
  (forall tr1 e tr2 st1, tr = tr1 ++ e :: tr2 -> exec init tr1 = Some st1 -> well_sent st1 e) ->
  forall h x, In (h, x) (t_rec _ _ st) -> h = x.
Proof. intros. eapply rec_own; eassumption. Qed.

(** The first test runs alone. *)
Theorem C62_first_alone tr st i : NoDup servers -> exec init tr = Some st -> (0 < i)%nat ->
  t_tests _ _ st i <> PIdle _ _ -> t_tests _ _ st 0%nat = PDone _ _ None.
Proof.
  intros ND Ex L N. destruct (all_inv combine enc ntests ident servers force update _ _ ND Ex) as (I1 & _ & _ & _ & _ & I6 & _).
  assert (Li : (i < t_next _ _ st)%nat) by (destruct (Nat.lt_ge_cases i (t_next _ _ st)) as [|G]; [assumption|apply I1 in G; contradiction]).
  unfold inv6 in I6. destruct (t_main _ _ st).
  - destruct I6 as [I6|I6]; [lia|exact I6].
  - lia.
  - destruct I6 as [(I6 & _)|(I6 & _ & _ & I)]; [lia|apply I; destruct I1; lia].
Qed.

(** At the return nothing runs any more; no error means that every test was run to its
    end; an error is the error of some test. *)
Theorem C62_return tr st r : NoDup servers -> exec init tr = Some st -> t_main _ _ st = MRet _ r ->
  (forall i, active _ _ (t_tests _ _ st i) = false) /\
  (r = None <-> forall i, (i < ntests)%nat -> t_tests _ _ st i = PDone _ _ None) /\
  (forall x, r = Some x -> exists i, (i < ntests)%nat /\ t_tests _ _ st i = PDone _ _ (Some x)).
Proof.
  intros ND Ex M. destruct (all_inv combine enc ntests ident servers force update _ _ ND Ex) as (I1 & _ & _ & _ & I5 & I6 & _).
  unfold inv6 in I6. rewrite M in I6. unfold inv5 in I5.
  assert (LT : forall i, t_tests _ _ st i <> PIdle _ _ -> (i < t_next _ _ st)%nat).
  { intros i N. destruct (Nat.lt_ge_cases i (t_next _ _ st)) as [|G]; [assumption|apply I1 in G; contradiction]. }
  destruct I6 as [(I6 & [x ->] & T)|(I6 & -> & T & T0)].
  - split; [|split].
    + intros i. destruct i as [|i]; [rewrite T; reflexivity|]. rewrite (proj1 (proj1 I1 _)) by lia. reflexivity.
    + split; [discriminate|]. intros A. rewrite A in T by (destruct I1; lia). discriminate.
    + intros y Y. exists 0%nat. split; [destruct I1; lia|congruence].
  - split; [|split].
    + intros i. destruct (Nat.lt_ge_cases i ntests) as [L|G]; [|rewrite (proj1 (proj1 I1 _)) by lia; reflexivity].
      destruct i as [|i]; [rewrite T0 by lia; reflexivity|]. destruct (T (S i)) as [q Q]; [lia|]. rewrite Q. reflexivity.
    + destruct (t_err _ _ st) as [x|].
      * split; [discriminate|]. intros A. destruct I5 as (i & L & I5). rewrite A in I5 by (rewrite <- I6; apply LT; congruence). discriminate.
      * split; [|reflexivity]. intros _ i L. destruct i as [|i]; [apply T0, L|]. destruct (T (S i)) as [[y|] Q]; [lia| |exact Q].
        exfalso. eapply I5; [|exact Q]. lia.
    + intros x X. rewrite X in I5. destruct I5 as (i & L & I5). exists i. split; [rewrite <- I6; apply LT; congruence|exact I5].
Qed.

(** After a return without error the totals are those of all tests: each was run twice,
    or once where results from before the update were found and no second run is asked
    for; the checks of all tests are added up and the functions reached joined. *)
Theorem C62_totals tr st : NoDup servers -> exec init tr = Some st -> t_main _ _ st = MRet _ None ->
  (forall i, (i < ntests)%nat ->
     (length (outs tr i) = 1%nat /\ update = true /\ force = false /\ found tr i) \/
     (length (outs tr i) = 2%nat /\ ~ (update = true /\ force = false /\ found tr i))) /\
  t_total _ _ st = sumN (fun i => chk (outs tr i)) (seq 0 ntests) /\
  (forall f, In f (t_reached _ _ st) <-> exists i, (i < ntests)%nat /\ In f (rch (outs tr i))).
Proof.
  intros ND Ex M. destruct (all_inv combine enc ntests ident servers force update _ _ ND Ex) as (I1 & _ & I3 & _ & _ & _ & (J1 & J2 & J3 & J4)).
  destruct (C62_return _ _ _ ND Ex M) as (_ & [A _] & _). specialize (A eq_refl).
  assert (C : forall i, In i (committed tr) <-> (i < ntests)%nat).
  { intros i. rewrite J1. split; [|intros L; rewrite A by exact L; exact Logic.I]. intros F.
    destruct (Nat.lt_ge_cases i ntests) as [|G]; [assumption|]. rewrite (proj1 (proj1 I1 _)) in F by (destruct I1; lia). contradiction. }
  split; [|split].
  - intros i L. specialize (I3 i). rewrite A in I3 by exact L. destruct I3 as [[(o1 & o2 & ->) S]|[(o & ->) S]]; [right|left]; (split; [reflexivity|exact S]).
  - rewrite J3. apply sumN_perm. apply NoDup_Permutation; [exact J2|apply seq_NoDup|]. intros i. rewrite C, in_seq. lia.
  - intros f. rewrite J4. split; intros (i & Hi & Hf); exists i; (split; [apply C, Hi|exact Hf]).
Qed.

(** A test that has returned without error is stored under its identifier. *)
Theorem C62_stored tr st i : NoDup servers -> distinct ntests ident -> exec init tr = Some st ->
  t_tests _ _ st i = PDone _ _ None ->
  exists r c l, amounts combine (outs tr i) r c l /\ mget (ident i) (t_store _ _ st) = Some (enc r).
Proof.
  intros ND D Ex T. pose proof (store_inv combine enc ntests ident servers force update _ _ ND D Ex i) as S.
  rewrite T in S. destruct (S Logic.I) as (r & c & l & F & G). exists r, c, l. split; [apply final_amounts, F|exact G].
Qed.

(** With a server, or without tests, there is always a step until the loop has returned. *)
Theorem C62_progress tr st (r0 : R) : NoDup servers -> (servers = [] -> ntests = 0%nat) -> exec init tr = Some st ->
  (forall r, t_main _ _ st <> MRet _ r) -> exists e st', is_msg e = false /\ step st e = Some st'.
Proof. apply progress, r0. Qed.

(** Whatever the order, at most ten steps per test are made. *)
Theorem C62_bounded tr st : exec init tr = Some st ->
  (length (filter (fun e => negb (is_msg e)) tr) <= 10 * ntests + 3)%nat.
Proof. intros Ex. pose proof (steps_bound combine enc ntests ident servers force update _ _ Ex). lia. Qed.
End C62.

(** The servers started meet what the theorems above ask of them, and there are no more
    of them than tests. *)
Theorem C62_started port_start ncpu ntests : NoDup (started port_start ncpu ntests) /\
  (started port_start ncpu ntests = [] <-> ntests = 0%nat) /\
  (length (started port_start ncpu ntests) <= Nat.min ntests 64)%nat /\
  forall p, In p (started port_start ncpu ntests) -> (port_start <= p < port_start + 64)%nat.
Proof.
  unfold started. split; [apply FinFun.Injective_map_NoDup; [intros a b; lia|apply seq_NoDup]|].
  split; [|split].
  - split; [|intros ->; unfold server_count; rewrite Nat.min_0_r; reflexivity].
    intros H. destruct (server_count ncpu ntests) eqn:C; [|discriminate]. unfold server_count in C. lia.
  - rewrite map_length, seq_length. unfold server_count. lia.
  - intros p H. apply in_map_iff in H as (i & <- & H). apply in_seq in H. unfold server_count in H. lia.
Qed.
Print Assumptions C62_started.
Print Assumptions C62_servers_exclusive.
Print Assumptions C62_messages_own.
Print Assumptions C62_first_alone.
Print Assumptions C62_return.
Print Assumptions C62_totals.
Print Assumptions C62_stored.
Print Assumptions C62_progress.
Print Assumptions C62_bounded.

(** Three tests, two servers; the results are numbers, two runs give their minimum. *)
Definition ex_ident (i : nat) : bytes := match i with 0%nat => B "m.TestA" | 1%nat => B "m.TestB" | _ => B "m.TestC" end.
Definition ex_enc (r : nat) : bytes := repeat "x"%char r.
Definition ex_exec (servers : list nat) (force update : bool) :=
  exec nat Nat.min bytes ex_enc 3 ex_ident servers force update (init nat bytes servers).
Definition ex_view (o : option (state nat bytes)) :=
  option_map (fun st => (t_main _ _ st, t_chan _ _ st, t_total _ _ st, t_reached _ _ st, t_store _ _ st, t_rec _ _ st)) o.
(** One test from its server to its end, run twice. *)
Definition ex_twice (i s : nat) (a b : outcome nat) : list (event nat bytes) :=
  [ETake _ _ i; ELoad _ _ i (inr false); ESet _ _ i None; EMsg _ _ s (i, 0%nat); EExec _ _ i a; ESet _ _ i None;
   EMsg _ _ s (i, 1%nat); EExec _ _ i b; ESave _ _ i None; ECommit _ _ i; EPut _ _ i].
(** The second and the third test interleaved; the third is run once. *)
Definition ex_trace : list (event nat bytes) :=
  [EStart _ _] ++ ex_twice 0 7 (4%nat, 10%N, [B "f"]) (3%nat, 8%N, [B "ignored"]) ++
  [EFirst _ _; EStart _ _; EStart _ _; ETake _ _ 2; ETake _ _ 1; ELoad _ _ 1 (inr false); ESet _ _ 1 None; ELoad _ _ 2 (inr true);
   ESet _ _ 2 None; EMsg _ _ 9 (2, 0)%nat; EMsg _ _ 7 (1, 0)%nat; EExec _ _ 2 (5%nat, 100%N, [B "g"]); EExec _ _ 1 (2%nat, 1%N, [B "f"]);
   ESave _ _ 2 None; ESet _ _ 1 None; ECommit _ _ 2; EPut _ _ 2; EExec _ _ 1 (2%nat, 5%N, []); ESave _ _ 1 None; ECommit _ _ 1; EPut _ _ 1; EWait _ _].
Example C62_example : ex_view (ex_exec [7; 9]%nat false true ex_trace) =
  Some (MRet _ None, [9; 7]%nat, 109%N, [B "f"; B "g"; B "f"],
    [(B "m.TestA", B "xxx"); (B "m.TestC", B "xxxxx"); (B "m.TestB", B "xx")],
    [((0, 0), (0, 0)); ((0, 1), (0, 1)); ((2, 0), (2, 0)); ((1, 0), (1, 0))]%nat).
Proof. reflexivity. Qed.
Example C62_example_started : started 90 6 5 = [90; 91; 92]%nat /\ started 90 1 5 = [90]%nat /\ started 90 256 200 = seq 90 64.
Proof. vm_compute. repeat split. Qed.
Example C62_example_distinct : NoDup [7; 9]%nat /\ [7; 9]%nat <> [] /\ distinct 3 ex_ident.
Proof.
  split; [repeat constructor; cbn; intuition lia|]. split; [discriminate|].
  intros [|[|[|i]]] [|[|[|j]]] Li Lj H; try reflexivity; try lia; discriminate H.
Qed.
Example C62_example_totals : sumN (fun i => chk (outs ex_trace i)) (seq 0 3) = 109%N /\ found ex_trace 2 /\ ~ found ex_trace 1.
Proof. split; [reflexivity|]. split; [cbv; tauto|]. cbv. intuition discriminate. Qed.
Example C62_example_holds : option_map (fun st => (t_tests _ _ st 1%nat, t_tests _ _ st 2%nat, t_chan _ _ st, t_handler _ _ st 7%nat))
    (ex_exec [7; 9]%nat false true (firstn 19 ex_trace)) =
  Some (PExec _ _ 7%nat false [], PLoad _ _ 9%nat, [], Some (1, 0)%nat).
Proof. vm_compute. reflexivity. Qed.
(** The messages of the example are sent by the running processes. *)
Fixpoint ex_sent (st : state nat bytes) (tr : list (event nat bytes)) : bool :=
  match tr with
  | [] => true
  | e :: tr' =>
    match e with
    | EMsg _ _ s (i, k) => match t_tests _ _ st i with PExec _ _ s' _ os => (s' =? s)%nat && (length os =? k)%nat | _ => false end
    | _ => true
    end && match step nat Nat.min bytes ex_enc 3 ex_ident [7; 9]%nat false true st e with Some st' => ex_sent st' tr' | None => false end
  end.
Lemma ex_sent_ok tr1 : forall st e tr2 st1, ex_sent st (tr1 ++ e :: tr2) = true ->
  exec nat Nat.min bytes ex_enc 3 ex_ident [7; 9]%nat false true st tr1 = Some st1 -> well_sent st1 e.
Proof.
  induction tr1 as [|x tr1 IH]; intros st e tr2 st1 H Ex; cbn [app ex_sent] in H; apply andb_true_iff in H as [H1 H2].
  - injection Ex as <-. destruct e; try exact Logic.I. destruct sender as [i k]. cbn.
    destruct (t_tests nat bytes st i) eqn:T; try discriminate. apply andb_true_iff in H1 as [A B].
    apply Nat.eqb_eq in A, B. subst. eexists; eexists; split; reflexivity.
  - cbn [exec] in Ex. destruct (step _ _ _ _ _ _ _ _ _ st x) as [st'|]; [|discriminate]. eapply IH; eassumption.
Qed.
Example C62_example_own : forall tr1 e tr2 st1, ex_trace = tr1 ++ e :: tr2 -> ex_exec [7; 9]%nat false true tr1 = Some st1 -> well_sent st1 e.
Proof.
  intros tr1 e tr2 st1 H. apply (ex_sent_ok tr1 _ e tr2 st1). rewrite <- H. vm_compute. reflexivity.
Qed.

(** A failing test: the ones after it are still run, and the error is returned at the end;
    a failing first test ends the loop. *)
Example C62_example_error : ex_view (ex_exec [7]%nat true false
  ([EStart _ _] ++ ex_twice 0 7 (4%nat, 10%N, []) (3%nat, 8%N, []) ++
   [EFirst _ _; EStart _ _; ETake _ _ 1; ELoad _ _ 1 (inr false); ESet _ _ 1 (Some (B "no server")); EPut _ _ 1; EStart _ _] ++
   ex_twice 2 7 (1%nat, 1%N, []) (1%nat, 1%N, []) ++ [EWait _ _])) =
  Some (MRet _ (Some (B "no server")), [7]%nat, 9%N, [], [(B "m.TestA", B "xxx"); (B "m.TestC", B "x")],
    [((0, 0), (0, 0)); ((0, 1), (0, 1)); ((2, 0), (2, 0)); ((2, 1), (2, 1))]%nat) /\
  ex_view (ex_exec [7; 9]%nat true true
    [EStart _ _; ETake _ _ 0; ELoad _ _ 0 (inl (B "bad data")); EPut _ _ 0; EFirst _ _]) =
  Some (MRet _ (Some (B "bad data")), [9; 7]%nat, 0%N, [], [], []).
Proof. split; reflexivity. Qed.

(** Nothing ties a message to the run that sent it: one that arrives late is recorded by
    the handler of the test that has the server then. *)
Theorem C62_late_message_refuted :
  exists tr, option_map (fun st => t_rec _ _ st) (ex_exec [7]%nat false false tr) =
    Some [((0, 0), (0, 0)); ((0, 1), (0, 1)); ((1, 0), (0, 1))]%nat.
Proof.
  exists ([EStart _ _] ++ ex_twice 0 7 (4%nat, 10%N, []) (3%nat, 8%N, []) ++
   [EFirst _ _; EStart _ _; ETake _ _ 1; ELoad _ _ 1 (inr false); ESet _ _ 1 None; EMsg _ _ 7 (0, 1)%nat]).
  vm_compute. reflexivity.
Qed.
Print Assumptions C62_late_message_refuted.
