(** C61: the names recorded at a return are the names in scope there. *)
From Verif Require Import Base Maps VisibleModel VisibleSpec VisibleProofs.
From Coq Require Import Permutation Sorted.

(** For every function and every return statement of it outside select statements
    and function literals: the scan gives, ordered by position, each name in scope at
    the return with the declaration it means there, except the blank name and the
    receiver. *)
Theorem C61_names_at_return f q env out :
  wf_func f -> In (q, env, false) (rets false (fn_scope f) (fn_body f)) -> visible f q out ->
  StronglySorted (fun a b => (snd a < snd b)%N) out /\
  forall x p, In (x, p) out <-> x <> B "_" /\ means env x p /\ ~ In (x, p) (fn_recv f).
Proof.
  intros W H V. pose proof W as (Kb & Wb & _).
  pose proof (rets_pos _ Wb _ _ _ _ _ H) as (Q1 & _ & _).
  apply rets_coll in H as (sc & -> & H1 & H2 & H3); [|exact Wb|congruence].
  eapply visible_of; try eassumption. intros d Hd. apply H2 in Hd. lia.
Qed.
Print Assumptions C61_names_at_return.

(** Where the body has no return: the names in scope at its end, if the last
    statement does not end right at the closing brace. *)
Theorem C61_names_at_end f out :
  wf_func f -> Forall (fun c => (nfin c < end_pos f)%N) (nkids (fn_body f)) ->
  Forall (fun c => nkind c <> KComm) (nkids (fn_body f)) -> visible f (end_pos f) out ->
  StronglySorted (fun a b => (snd a < snd b)%N) out /\
  forall x p, In (x, p) out <->
    x <> B "_" /\ means (fn_scope f ++ flat_map leaks (nkids (fn_body f))) x p /\ ~ In (x, p) (fn_recv f).
Proof.
  intros W F C V. pose proof W as (Kb & Wb & _).
  destruct (fn_body f) as [k p e ids kids] eqn:Eb. cbn [nkind nkids] in *. subst k.
  unfold end_pos in *. rewrite Eb in *. cbn [nfin] in *.
  pose proof (wf_chain _ _ _ _ _ Wb) as HW. pose proof (wf_lt _ Wb) as Lt. cbn [npos nfin] in Lt.
  assert (Ei : ids = []) by (destruct Wb as (_ & (S1 & _) & _); apply S1; discriminate).
  assert (Ec : flat_map (coll (e - 1)) kids = flat_map leaks kids).
  { clear - F C HW. induction kids as [|c r IH]; [reflexivity|]; cbn [flat_map].
    inversion F; inversion C; inversion HW as [|? ? (? & _) ?]; subst. rewrite coll_ended, IH by assumption. reflexivity. }
  pose proof (coll_in (e - 1) _ Wb) as Hin. pose proof (coll_incr (e - 1) _ Wb) as Hinc.
  cbn [coll prunable declares npos nfin] in Hin, Hinc.
  replace (e <? e - 1)%N with false in Hin, Hinc by (symmetry; apply N.ltb_ge; lia).
  cbn [andb app] in Hin, Hinc. rewrite Ec in Hin, Hinc.
  assert (Hpos : forall d, In d (flat_map leaks kids) -> (p <= snd d <= e - 1)%N) by (intros d Hd; apply Hin in Hd; lia).
  eapply visible_of; try eassumption; rewrite ?Eb; cbn [npos].
  - cbn [coll prunable declares]. replace (e <? e - 1)%N with false by (symmetry; apply N.ltb_ge; lia).
    cbn [andb app]. rewrite Ec. apply filter_nodup_name. intros d Hd. apply Hpos in Hd. lia.
  - exact Hpos.
  - lia.
Qed.
Print Assumptions C61_names_at_end.

(** The positions of
    [package p;func (t T) f(a int, _ bool) (r int) {x:=a;if y:=x;y>0{x:=y;_=x}else{z,x:=g();return x+z};return x}]. *)
Definition ex_func : func := {|
  fn_recv := [(B "t", 17)]; fn_params := [(B "a", 24); (B "_", 31)]; fn_results := [(B "r", 40)];
  fn_body := Node KBlock 47 109 [] [
    Node KPlain 48 52 [(B "x", 48)] [];
    Node KIf 53 99 [] [
      Node KPlain 56 60 [(B "y", 56)] [];
      Node KBlock 64 74 [] [Node KPlain 65 69 [(B "x", 65)] []; Node KPlain 70 73 [] []];
      Node KBlock 78 99 [] [Node KPlain 79 87 [(B "z", 79); (B "x", 81)] []; Node KRet 88 98 [] []]];
    Node KRet 100 108 [] []] |}%N.

Ltac wf_ex := cbn; unfold shape; cbn; repeat (split || (intros; discriminate) || (intros; exfalso; congruence) || intros || reflexivity || eexists || constructor || lia).

Example C61_ex_wf : wf_func ex_func.
Proof.
  unfold wf_func. split; [reflexivity|]. split.
  - wf_ex.
  - exists 41%N. cbn. repeat split; lia.
Qed.
Example C61_ex_rets : map (fun r => (fst (fst r), snd r)) (rets false (fn_scope ex_func) (fn_body ex_func)) = [(88, false); (100, false)]%N.
Proof. reflexivity. Qed.
Example C61_ex_visible :
  visible ex_func 88 [(B "a", 24); (B "r", 40); (B "y", 56); (B "z", 79); (B "x", 81)]%N /\
  visible ex_func 100 [(B "a", 24); (B "r", 40); (B "x", 48)]%N.
Proof.
  split; split; try (repeat constructor; cbn; lia).
  apply NoDup_Permutation; try (vm_compute; repeat constructor; cbn; intuition discriminate).
  intros d; vm_compute; intuition.
Qed.

(** Without a character between the last statement and the closing brace a name is
    given that is not in scope: [package p;func f(){{x:=1;_=x}}]. *)
Definition touching : func := {|
  fn_recv := []; fn_params := []; fn_results := [];
  fn_body := Node KBlock 19 31 [] [Node KBlock 20 30 [] [Node KPlain 21 25 [(B "x", 21)] []; Node KPlain 26 29 [] []]] |}%N.
Theorem C61_end_refuted :
  ~ (forall f out, wf_func f -> rets false (fn_scope f) (fn_body f) = [] ->
       Forall (fun c => nkind c <> KComm) (nkids (fn_body f)) -> visible f (end_pos f) out ->
       forall x p, In (x, p) out -> means (fn_scope f ++ flat_map leaks (nkids (fn_body f))) x p).
Proof.
  intros H. specialize (H touching [(B "x", 21%N)]).
  assert (W : wf_func touching).
  { unfold wf_func. split; [reflexivity|]. split; [wf_ex|]. exists 1%N. cbn. split; [reflexivity|lia]. }
  specialize (H W eq_refl). assert (C : Forall (fun c => nkind c <> KComm) (nkids (fn_body touching))) by (repeat constructor; discriminate).
  specialize (H C). assert (V : visible touching (end_pos touching) [(B "x", 21%N)]).
  { split; [vm_compute; apply Permutation_refl|repeat constructor]. }
  specialize (H V (B "x") 21%N (or_introl eq_refl)). apply means_in in H. exact H.
Qed.
Print Assumptions C61_end_refuted.

(** In a select statement the names of other cases would be given; the rewriting
    does not go into select statements (lens/asttweak.go:556-624).
    [package p;func f(c chan int)int{select{case x:=<-c:return x;case y:=<-c:return y}}]. *)
Definition selecting : func := {|
  fn_recv := []; fn_params := [(B "c", 18)]; fn_results := [];
  fn_body := Node KBlock 32 83 [] [Node KSelect 33 82 [] [Node KSelBody 39 82 [] [
    Node KComm 40 60 [] [Node KPlain 45 51 [(B "x", 45)] []; Node KRet 52 60 [] []];
    Node KComm 61 81 [] [Node KPlain 66 72 [(B "y", 66)] []; Node KRet 73 81 [] []]]]] |}%N.
Theorem C61_select_refuted :
  ~ (forall f q env s out, wf_func f -> In (q, env, s) (rets false (fn_scope f) (fn_body f)) -> visible f q out ->
       forall x p, In (x, p) out -> means env x p).
Proof.
  intros H. specialize (H selecting 73%N [(B "c", 18%N); (B "y", 66%N)] true [(B "c", 18%N); (B "x", 45%N); (B "y", 66%N)]).
  assert (W : wf_func selecting).
  { unfold wf_func. split; [reflexivity|]. split; [wf_ex|]. exists 19%N. cbn. repeat split; lia. }
  specialize (H W). assert (R : In (73%N, [(B "c", 18%N); (B "y", 66%N)], true) (rets false (fn_scope selecting) (fn_body selecting)))
    by (right; left; reflexivity).
  specialize (H R). assert (V : visible selecting 73 [(B "c", 18%N); (B "x", 45%N); (B "y", 66%N)]).
  { split; [vm_compute; apply Permutation_refl|repeat constructor; cbn; lia]. }
  specialize (H V (B "x") 45%N (or_intror (or_introl eq_refl))). apply means_in in H.
  cbn in H. intuition discriminate.
Qed.
Print Assumptions C61_select_refuted.

(** Key and value of a range statement are in scope in its body, not after it: the positions of
    [package p;func f(m M) int {for k,v:=range m{if k>0{return v}};return 0}]. *)
Definition ranging : func := {|
  fn_recv := []; fn_params := [(B "m", 18)]; fn_results := [];
  fn_body := Node KBlock 27 72 [] [
    Node KRange 28 62 [(B "k", 32); (B "v", 34)] [Node KBlock 44 62 [] [Node KIf 45 61 [] [Node KBlock 51 61 [] [Node KRet 52 60 [] []]]]];
    Node KRet 63 71 [] []] |}%N.
Example C61_range_example : wf_func ranging /\ map (fun r => fst (fst r)) (rets false (fn_scope ranging) (fn_body ranging)) = [52; 63]%N /\
  latest ranging 52 = [(B "m", 18); (B "k", 32); (B "v", 34)]%N /\ latest ranging 63 = [(B "m", 18)]%N.
Proof.
  split; [|vm_compute; repeat split]. unfold wf_func. split; [reflexivity|]. split; [wf_ex|]. exists 19%N. cbn. repeat split; lia.
Qed.
