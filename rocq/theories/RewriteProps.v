(** C78: which calls get a point when a function body is rewritten, and where the messages go. *)
From Verif Require Import Base InstrModel RewriteModel RewriteSpec RewriteProofs RewriteGuard RewriteCover RewriteScope.
From Coq Require Import Permutation.
Local Open Scope nat_scope.

(** ** Examples of syntax *)
Definition idn (x : bytes) : nd := Nd (KId x) [].
Definition lit (l : list nd) : nd := Nd (KFun []) l.
Definition stmt (e : nd) : nd := Nd KExpr [e].
Definition tgt (j : nat) (args : list nd) : nd := Nd (KCall true j) (idn (B "target") :: args).
Definition other (args : list nd) : nd := Nd (KCall false 0) (idn (B "other") :: args).

(** ** Termination *)
(** However blocks and function literals are nested and whatever was added before. *)
Theorem C78_terminates pkgs next body : exists s' body', rewrite_calls pkgs next body = Some (s', body').
Proof. unfold rewrite_calls. destruct (rwb_total pkgs (S (list_max (map deep body))) (State next [] 0) body) as (s' & l' & E & _); [unfold deepl; lia|]. eauto. Qed.

(** ** One message for each point *)
(** Ids are consecutive, the messages in the new body are those in the old one and one for each id drawn, if
    no selection has a function literal in it. *)
Theorem C78_one_message pkgs next body s' body' : rewrite_calls pkgs next body = Some (s', body') ->
  forallb sel_ok body = true -> (forall t, In t body -> msgs t = []) ->
  Permutation (flat_map msgs body') (map fst (st_points s')) /\
  map fst (st_points s') = map (fun i => (next + N.of_nat i)%N) (seq 0 (length (st_points s'))) /\ st_next s' = (next + N.of_nat (length (st_points s')))%N.
Proof.
  intros H S N. destruct (rwb_once _ _ _ _ _ _ H S) as (_ & new & (G1 & G2 & G3) & C). cbn [st_points st_next app] in *. subst new. split; [|split; [exact G3|exact G2]].
  apply (Permutation_count_occ N.eq_dec). intros p. specialize (C p). unfold cnt, msgsl in C. rewrite C. assert (flat_map msgs body = []) as ->; [|reflexivity]. clear - N. induction body as [|t l IH]; [reflexivity|]. cbn. rewrite (N t (or_introl eq_refl)). apply IH. intros u I. apply N. right. exact I.
Qed.
(** No id twice. *)
Theorem C78_ids_differ pkgs next body s' body' : rewrite_calls pkgs next body = Some (s', body') -> forallb sel_ok body = true -> (forall t, In t body -> msgs t = []) -> NoDup (flat_map msgs body').
Proof.
  intros H S N. destruct (C78_one_message _ _ _ _ _ H S N) as (P & E & _). apply (Permutation_NoDup (Permutation_sym P)). rewrite E. generalize (length (st_points s')) as n. intros n. generalize 0 as a. clear. induction n as [|n IH]; intros a; cbn; constructor; [|apply IH].
  intros I. apply in_map_iff in I as (x & Ex & Ix). apply in_seq in Ix. lia.
Qed.
(** A function literal in a selection is copied into the message; if it has a message already there are two with one id.
    In the example  { other(func() { defer target(target(func() { target() }().x)) }) }. *)
Definition dup_body : list nd :=
  [Nd KBlock [stmt (other [lit [Nd KDefer [tgt 1 [tgt 2 [Nd (KSel (B "x")) [Nd (KCall false 0) [lit [stmt (tgt 3 [])]]]]]]]])]].
Theorem C78_ids_differ_refuted : exists s' body', rewrite_calls [] 7 dup_body = Some (s', body') /\ ~ NoDup (flat_map msgs body').
Proof. eexists _, _. split; [vm_compute; reflexivity|]. vm_compute. intros H. repeat match goal with X : NoDup _ |- _ => inversion X; subst; clear X end. cbn in *. intuition congruence. Qed.

(** ** The message is directly in front of its call *)
Lemma nomsg_guard P t : nomsg t = true -> wf t = true -> guard P t.
Proof.
  induction t as [k cs IH] using nd_ind'. intros N Wt. cbn [wf] in Wt. apply andb_true_iff in Wt as [W1 W2]. pose proof (nomsg_kids _ _ N) as Nk. rewrite Forall_forall in Nk. rewrite forallb_forall in W2.
  assert (forall u, In u cs -> msg_id u = None) as Mi. { intros u I. pose proof (nomsg_id _ (Nk u I)) as X. rewrite id_message in X. destruct (msg_id u); [discriminate X|reflexivity]. }
  assert (forall l, (forall u, In u l -> msg_id u = None) -> pairs P l) as Pl. { intros l. induction l as [|x l IHl]; intros H; [exact I|]. cbn [pairs]. rewrite (H x (or_introl eq_refl)). split; [exact I|]. apply IHl. intros u Iu. apply H. right. exact Iu. }
  constructor.
  - split; [exact W1|]. split; [|split].
    + apply Pl. intros u I. apply Mi. destruct k; try destruct I; try exact I. destruct cs; [destruct I|right; exact I].
    + apply Forall_forall. intros u I. apply Mi. destruct k; try exact I; try (destruct I; fail). cbn [others] in I. destruct cs as [|c cs]; [destruct I|]. destruct I as [->|[]]. left. reflexivity.
    + intros c p ns I K. specialize (Nk c I). destruct c as [kc ?]. cbn in K. subst kc. discriminate Nk.
  - apply Forall_forall. intros u I. rewrite Forall_forall in IH. apply IH; auto.
Qed.
Lemma nomsg_ok P l : Forall (fun t => nomsg t = true) l -> forallb wf l = true -> Ok P l.
Proof.
  intros N W. pose proof (nomsg_guard P (Nd KBlock l)) as G. apply (list_ok P KBlock); [auto|]. apply G; [cbn; apply forallb_forall; rewrite Forall_forall in N; exact N|cbn; exact W].
Qed.
Lemma pairs_in P l x p : pairs P l -> In x l -> msg_id x = Some p -> exists a y b, l = a ++ x :: y :: b /\ Q P p y.
Proof.
  induction l as [|z l IH]; intros H I E; [destruct I|]. cbn [pairs] in H. destruct H as [H1 H2]. destruct I as [->|I].
  - rewrite E in H1. destruct l as [|y l]; [destruct H1|]. exists [], y, l. auto.
  - destruct (IH H2 I E) as (a & y & b & -> & HQ). exists (z :: a), y, b. auto.
Qed.
Lemma guard_sub P p ns vs t : guard P t -> sub (Nd (KMsg p ns) vs) t ->
  t = Nd (KMsg p ns) vs \/ t = stmt (Nd (KMsg p ns) vs) \/
  exists o a y b, sub o t /\ entries o = a ++ stmt (Nd (KMsg p ns) vs) :: y :: b /\ Q P p y.
Proof.
  induction t as [k cs IH] using nd_ind'. intros G Sb. apply guard_inv in G as [(L1 & L2 & L3 & L4) F]. inversion Sb as [|t0 k0 cs0 c I Sc]; subst; [left; reflexivity|]. right. rewrite Forall_forall in *.
  destruct (IH c I (F c I) Sc) as [->|[->|(o & a & y & b & So & E & HQ)]].
  - left. destruct (L4 _ p ns I eq_refl) as [-> Ln]. destruct cs as [|x [|? ?]]; try discriminate Ln. destruct I as [->|[]]. reflexivity.
  - right. exists (Nd k cs). destruct (pairs_in P (entries (Nd k cs)) (stmt (Nd (KMsg p ns) vs)) p) as (a & y & b & E & HQ); [exact L2| |reflexivity|exists a, y, b; split; [apply sub_here|auto]].
    destruct k; try (exfalso; specialize (L3 _ I); discriminate L3); try exact I. cbn [entries]. destruct cs as [|h l]; [destruct I|]. destruct I as [->|I]; [|exact I]. exfalso. specialize (L3 _ (or_introl eq_refl)). discriminate L3.
  - right. exists o, a, y, b. split; [apply sub_in with (c := c); assumption|auto].
Qed.
(** Every message is a statement and the next statement of the same list has, in front of its blocks, the call that the
    map of points gives for it. *)
Theorem C78_before_call pkgs next body s' body' p ns vs : rewrite_calls pkgs next body = Some (s', body') ->
  forallb wf body = true -> forallb nomsg body = true -> sub (Nd (KMsg p ns) vs) (Nd KBlock body') ->
  exists o a y b j, sub o (Nd KBlock body') /\ entries o = a ++ stmt (Nd (KMsg p ns) vs) :: y :: b /\ In (p, j) (st_points s') /\ shows j y.
Proof.
  intros H W N Sb. destruct (rwb_ok _ _ _ _ _ _ H) as [_ O]. assert (Forall (fun t => nomsg t = true) body) as N' by (apply Forall_forall; rewrite forallb_forall in N; exact N). specialize (O (nomsg_ok _ _ N' W)).
  pose proof (list_guard (st_points s') KBlock body' (or_introl eq_refl) O) as G. destruct (guard_sub _ _ _ _ _ G Sb) as [E|[E|(o & a & y & b & So & E & (j & Ij & Sj))]]; [discriminate E|discriminate E|]. exists o, a, y, b, j. auto.
Qed.
(** switch { case true: for ; ; target(f()) { defer target(x) } }  *)
Definition place_body : list nd :=
  [Nd KSwitch [none; none; Nd KClause [Nd KNode [idn (B "true")]; Nd KFor [none; none; stmt (tgt 1 [other []]); Nd KBlock [Nd KDefer [tgt 2 [idn (B "x")]]]]]]].
Example C78_place_example : forallb wf place_body = true /\ forallb nomsg place_body = true /\ forallb sel_ok place_body = true /\ exists s',
  rewrite_calls [] 3 place_body = Some (s',
   [Nd KSwitch [none; none; Nd KClause [Nd KNode [idn (B "true")];
      Nd KFor [none; none;
        stmt (closure [define (arg_var 3 0) (other []); message 3 [(B "arg0", idn (arg_var 3 0))]; stmt (tgt 1 [idn (arg_var 3 0)])]);
        Nd KBlock [Nd KDefer [closure [message 4 [(B "arg0", idn (B "x"))]; stmt (tgt 2 [idn (B "x")])]]]]]]]) /\ st_points s' = [(3%N, 1); (4%N, 2)].
Proof. repeat split. eexists. split; vm_compute; reflexivity. Qed.

(** ** Which statements get a point *)
(** A statement reached from the body with a matching call where one is looked for gets a point for such a call; so does
    a loop with a matching call in its post statement. *)
Theorem C78_reached pkgs next body s' body' t : rewrite_calls pkgs next body = Some (s', body') ->
  forallb nomsg body = true -> reached t body ->
  ((exists j, due j t) -> exists p j, due j t /\ In (p, j) (st_points s')) /\
  (forall i c q b, t = Nd KFor [i; c; q; b] -> (exists j, calls j q) -> exists p j, calls j q /\ In (p, j) (st_points s')).
Proof.
  intros H N R. assert (Forall (fun t => nomsg t = true) body) as N' by (apply Forall_forall; rewrite forallb_forall in N; exact N). destruct (rwb_cov _ _ _ _ _ _ H N' t R) as [A B]. split.
  - intros D. destruct (A D) as (j & Dj & Ij). apply in_map_iff in Ij as ((p & j') & E & Ix). cbn in E. subst j'. eauto.
  - intros i c q b E C. destruct (B i c q b E C) as (j & Cj & Ij). apply in_map_iff in Ij as ((p & j') & E' & Ix). cbn in E'. subst j'. eauto.
Qed.
(** In the example the deferred call is reached and so is the loop; other(func() { return target() }) has its literal reached. *)
Example C78_reached_example : reached (Nd KDefer [tgt 2 [idn (B "x")]]) place_body /\ due 2 (Nd KDefer [tgt 2 [idn (B "x")]]) /\
  reached (Nd KReturn [tgt 5 []]) [stmt (other [lit [Nd KReturn [tgt 5 []]]])] /\ due 5 (Nd KReturn [tgt 5 []]).
Proof.
  split; [|split; [|split]].
  - eapply reached_inner; [left; reflexivity|apply (inner_switch _ _ _ _ (Nd KNode [idn (B "true")])); [auto|left; reflexivity]|]. eapply reached_inner; [left; reflexivity|apply inner_for|]. apply reached_here. left. reflexivity.
  - eexists. reflexivity.
  - eapply reached_literal with (l' := [Nd KReturn [tgt 5 []]]); [left; reflexivity|reflexivity| | |apply reached_here; left; reflexivity].
    + apply focus_none; reflexivity.
    + apply literal_in with (c := other [lit [Nd KReturn [tgt 5 []]]]); [discriminate|left; reflexivity|]. apply literal_in with (c := lit [Nd KReturn [tgt 5 []]]); [discriminate|right; left; reflexivity|]. apply literal_here.
  - apply calls_in with (c := tgt 5 []); [discriminate|left; reflexivity|apply calls_here].
Qed.

(** Elsewhere matching calls get no point: the condition of an else-if and its else branch, a labelled statement, case
    expressions, operands of a deferred call, the channel of a send, and statements such as x[target()]++. *)
Definition missed : list (list nd) :=
  [[Nd KIf [none; idn (B "a"); Nd KBlock []; Nd KIf [none; tgt 1 []; Nd KBlock []]]];
   [Nd KIf [none; idn (B "a"); Nd KBlock []; Nd KIf [none; idn (B "b"); Nd KBlock []; Nd KBlock [stmt (tgt 1 [])]]]];
   [Nd KLabel [Nd KFor [none; none; none; Nd KBlock [stmt (tgt 1 [])]]]];
   [Nd KSwitch [none; idn (B "a"); Nd KClause [Nd KNode [tgt 1 []]]]];
   [Nd KDefer [other [tgt 1 []]]];
   [Nd KChan [tgt 1 []; idn (B "a")]];
   [Nd KOther [Nd KNode [idn (B "a"); tgt 1 []]]]].
Fixpoint subs (t : nd) : list nd := match t with Nd k cs => t :: flat_map subs cs end.
Lemma subs_sub x t : In x (subs t) -> sub x t.
Proof.
  induction t as [k cs IH] using nd_ind'. cbn [subs]. intros [<-|I]; [apply sub_here|]. apply in_flat_map in I as (c & Ic & Ix). rewrite Forall_forall in IH. apply sub_in with (c := c); auto.
Qed.
Theorem C78_missed_refuted body : In body missed -> forallb wf body = true /\ forallb nomsg body = true /\ (exists j cs, sub (Nd (KCall true j) cs) (Nd KBlock body)) /\ exists s', rewrite_calls [] 3 body = Some (s', body) /\ st_points s' = [].
Proof.
  intros I. assert (forall b, In b missed -> match rewrite_calls [] 3 b with Some (s', b') => st_points s' = [] /\ b' = b | None => False end) as G.
  { intros b Ib. repeat (destruct Ib as [<-|Ib]; [vm_compute; auto|]). destruct Ib. }
  specialize (G body I). split; [|split; [|split]].
  - repeat (destruct I as [<-|I]; [reflexivity|]). destruct I.
  - repeat (destruct I as [<-|I]; [reflexivity|]). destruct I.
  - exists 1, [idn (B "target")]. apply subs_sub. clear G. repeat (destruct I as [<-|I]; [vm_compute; tauto|]). destruct I.
  - destruct (rewrite_calls [] 3 body) as [[s' b']|]; [|destruct G]. destruct G as [G ->]. eauto.
Qed.
(** A function literal that is an operand of a matching call is not visited; the same statement in a block is: its list is visited again. *)
Definition arg_lit : nd := stmt (tgt 1 [lit [stmt (tgt 2 [])]]).
Theorem C78_literal_operand_refuted : exists s1 b1 s2 b2,
  rewrite_calls [] 3 [arg_lit] = Some (s1, b1) /\ map snd (st_points s1) = [1] /\
  rewrite_calls [] 3 [stmt (other [lit [Nd KBlock [stmt (other [lit [arg_lit]])]]])] = Some (s2, b2) /\ map snd (st_points s2) = [1; 2].
Proof. eexists _, _, _, _. split; [vm_compute; reflexivity|]. split; [reflexivity|]. split; vm_compute; reflexivity. Qed.
(** Applied to its own result the function may draw further points:  target(target(x)). *)
Theorem C78_idempotent_refuted : exists s1 b1 s2 b2, rewrite_calls [] 3 [stmt (tgt 1 [tgt 2 [idn (B "x")]])] = Some (s1, b1) /\ length (st_points s1) = 1 /\
  rewrite_calls [] 4 b1 = Some (s2, b2) /\ st_points s2 = [(4%N, 2)] /\ b2 <> b1.
Proof. eexists _, _, _, _. split; [vm_compute; reflexivity|]. split; [reflexivity|]. split; [vm_compute; reflexivity|]. split; [reflexivity|discriminate]. Qed.
(** A message in front of a statement may use names that its init statement declares:
    if x := f(); target(x) {},  for i := 0; target(i); {},  switch x := f(); target(x) {}. *)
Definition early : list (list nd) :=
  [[Nd KIf [Nd (KAssign [B "x"]) [other []]; tgt 1 [idn (B "x")]; Nd KBlock []]];
   [Nd KFor [Nd (KAssign [B "x"]) [Nd KBasic []]; tgt 1 [idn (B "x")]; none; Nd KBlock []]];
   [Nd KSwitch [Nd (KAssign [B "x"]) [other []]; tgt 1 [idn (B "x")]]]].
Theorem C78_declared_refuted body : In body early -> undeclared (map B ["other"; "target"]%string) (Nd KBlock body) = [] /\
  exists s' body', rewrite_calls [] 3 body = Some (s', body') /\ undeclared (map B ["other"; "target"]%string) (Nd KBlock body') = [B "x"].
Proof. intros I. repeat (destruct I as [<-|I]; [split; [reflexivity|]; eexists _, _; split; vm_compute; reflexivity|]). destruct I. Qed.

(** Otherwise no name is used that was not declared. *)
Theorem C78_declared pkgs next env body s' body' : rewrite_calls pkgs next body = Some (s', body') -> forallb inits_ok body = true -> undeclared env (Nd KBlock body) = [] -> undeclared env (Nd KBlock body') = [].
Proof. intros H O U. apply D_eq. apply (proj2 (rwb_names _ _ _ _ _ _ H O)). apply (D_eq env KBlock body). exact U. Qed.
(** x := f();  if y := target(x); target(y) { defer x.m(f()).target(y) };  for i := 0; i; i = target(x) { target(func(z) { target(z, f()) }, i) };
    select { case c := target(x): target(c) }. *)
Definition scoped : list nd :=
  [Nd (KAssign [B "x"]) [other []];
   Nd KIf [Nd (KAssign [B "y"]) [tgt 1 [idn (B "x")]]; tgt 2 [idn (B "y")]; Nd KBlock [Nd KDefer [Nd (KCall true 3) [Nd (KSel (B "target")) [other [Nd (KSel (B "m")) [idn (B "x")]]]; idn (B "y")]]]];
   Nd KFor [Nd (KAssign [B "i"]) [Nd KBasic []]; idn (B "i"); Nd (KAssign []) [idn (B "i"); tgt 4 [idn (B "x"); other []]]; Nd KBlock [stmt (other [Nd (KFun [B "z"]) [stmt (tgt 5 [idn (B "z"); other []])]; idn (B "i")])]];
   Nd KSelect [Nd KClause [Nd (KAssign [B "c"]) [tgt 6 [idn (B "x")]]; stmt (tgt 7 [idn (B "c")])]]].
Example C78_declared_example : forallb inits_ok scoped = true /\ undeclared (map B ["other"; "target"]%string) (Nd KBlock scoped) = [] /\ undeclared (map B ["other"]%string) (Nd KBlock scoped) <> [] /\
  exists s' b', rewrite_calls [] 3 scoped = Some (s', b') /\ length (st_points s') = 6 /\ undeclared (map B ["other"; "target"]%string) (Nd KBlock b') = [].
Proof. split; [reflexivity|]. split; [reflexivity|]. split; [discriminate|]. eexists _, _. split; [vm_compute; reflexivity|]. split; reflexivity. Qed.

(** ** The number of visits *)
(** A function literal in a block is looked through twice, so nesting costs time exponential in its depth. *)
Fixpoint nest (n : nat) : list nd := match n with O => [] | S m => [Nd KBlock [stmt (lit (nest m))]] end.
Fixpoint cost (n : nat) : N := match n with O => 1 | S m => 2 + 2 * cost m end.
Lemma steps_stmt pk rb s l : steps pk rb s [] [stmt (lit l)] = match rb s l with Some (s', l') => Some (s', [stmt (lit l')]) | None => None end.
Proof. cbn. destruct (rb s l) as [[s' l']|]; reflexivity. Qed.
Lemma steps_block pk rb s l : steps pk rb s [] [Nd KBlock [stmt (lit l)]] =
  match rb s [stmt (lit l)] with
  | Some (s', l') => match lits rb s' (Nd KBlock l') with Some (s2, t) => Some (s2, [t]) | None => None end
  | None => None
  end.
Proof. cbn [steps]. unfold step. cbn [after_message last is_message wraps focus kind_of nested into app]. destruct (rb s [stmt (lit l)]) as [[s' l']|]; [|reflexivity]. destruct (lits rb s' (Nd KBlock l')) as [[s2 t]|]; reflexivity. Qed.
Lemma lits_block rb s l : lits rb s (Nd KBlock [stmt (lit l)]) = match rb s l with Some (s', l') => Some (s', Nd KBlock [stmt (lit l')]) | None => None end.
Proof. cbn. destruct (rb s l) as [[s' l']|]; reflexivity. Qed.
Lemma nest_cost pk n : forall fuel s, 2 * n < fuel -> rwb pk fuel s (nest n) = Some (State (st_next s) (st_points s) (st_visits s + cost n), nest n).
Proof.
  induction n as [|n IH]; intros fuel s H.
  - destruct fuel; [lia|]. reflexivity.
  - destruct fuel as [|[|f]]; [lia|lia|]. assert (2 * n < f) as H1 by lia. assert (2 * n < S f) as H2 by lia.
    assert (forall s, rwb pk (S f) s [stmt (lit (nest n))] = Some (State (st_next s) (st_points s) (st_visits s + 1 + cost n), [stmt (lit (nest n))])) as E1.
    { intros s0. change (rwb pk (S f) s0 [stmt (lit (nest n))]) with (steps pk (rwb pk f) (State (st_next s0) (st_points s0) (st_visits s0 + 1)) [] [stmt (lit (nest n))]). rewrite steps_stmt, (IH f _ H1). reflexivity. }
    change (rwb pk (S (S f)) s (nest (S n))) with (steps pk (rwb pk (S f)) (State (st_next s) (st_points s) (st_visits s + 1)) [] [Nd KBlock [stmt (lit (nest n))]]). rewrite steps_block, E1, lits_block, (IH (S f) _ H2).
    cbn [st_next st_points st_visits]. f_equal. f_equal. f_equal. change (cost (S n)) with (2 + 2 * cost n)%N. lia.
Qed.
Theorem C78_visits_refuted pkgs next n : exists s', rewrite_calls pkgs next (nest n) = Some (s', nest n) /\ length (flat_map subs (nest n)) = 3 * n /\ (2 ^ N.of_nat n <= st_visits s')%N.
Proof.
  assert (forall n, list_max (map deep (nest n)) = 2 * n) as D. { clear. induction n as [|n IH]; [reflexivity|]. cbn [nest map list_max fold_right]. unfold stmt, lit. rewrite !deep_eq. unfold deepl. cbn [map list_max fold_right]. rewrite !deep_eq. unfold deepl. cbn [map list_max fold_right]. rewrite !deep_eq. unfold deepl. rewrite IH. lia. }
  unfold rewrite_calls. rewrite nest_cost by (rewrite D; lia). eexists. split; [reflexivity|]. split.
  - induction n as [|n IH]; [reflexivity|]. cbn [nest flat_map subs stmt lit length app]. rewrite !app_nil_r, IH. lia.
  - cbn [st_visits]. induction n as [|n IH]; [cbn; lia|]. cbn [cost]. rewrite Nat2N.inj_succ, N.pow_succ_r'. lia.
Qed.
Print Assumptions C78_terminates.
Print Assumptions C78_one_message.
Print Assumptions C78_ids_differ.
Print Assumptions C78_ids_differ_refuted.
Print Assumptions C78_before_call.
Print Assumptions C78_reached.
Print Assumptions C78_missed_refuted.
Print Assumptions C78_literal_operand_refuted.
Print Assumptions C78_idempotent_refuted.
Print Assumptions C78_declared_refuted.
Print Assumptions C78_declared.
Print Assumptions C78_visits_refuted.
