(** C66: a panic is handed out once. *)
From Verif Require Import Base PanicModel.

(** A statement that counts the answers of recover, and gets none where no panic is on. *)
Definition counts {W} (s : stmt nat W) : Prop := forall ctx u u' m r ds c, s ctx u u' m r ds c ->
  u' = (u + if r then 1 else 0)%nat /\ (ctx = None -> r = false).
(** However many statements of a function ask, at most one is given the panic. *)
Theorem C66_recovered_once : forall W (l : list (stmt nat W)) ctx u u' m r ds c, Forall counts l -> exec l ctx u u' m r ds c ->
  (u <= u' <= S u)%nat /\ (u' = S u <-> r = true) /\ (ctx = None -> u' = u).
Proof.
  intros W l ctx u u' m r ds c F H. assert (X : u' = (u + if r then 1 else 0)%nat /\ (ctx = None -> r = false)).
  { induction H as [ctx u | s l ctx u u1 u2 m m' r r' ds ds' c Hs _ IH | s l ctx u u1 m r ds c Hs _].
    - split; [lia | reflexivity].
    - inversion F as [| ? ? Cs Fl]; subst. destruct (Cs _ _ _ _ _ _ _ Hs) as [-> N]. destruct (IH Fl) as [-> N']. destruct r; cbn [next_ctx orb] in *.
      + rewrite (N' eq_refl). split; [lia | exact N].
      + split; [lia | exact N'].
    - inversion F as [| ? ? Cs Fl]; subst. exact (Cs _ _ _ _ _ _ _ Hs). }
  destruct X as [-> N]. split; [destruct r; lia |]. split; [destruct r; split; intros; try reflexivity; try discriminate; lia |]. intros E. rewrite (N E). lia.
Qed.
Print Assumptions C66_recovered_once.

(** Three statements that ask: with a panic the first is given it. *)
Definition asks : stmt nat nat := fun ctx u u' m r ds c =>
  u' = (u + match ctx with Some _ => 1 | None => 0 end)%nat /\ m = [] /\ r = (match ctx with Some _ => true | None => false end) /\ ds = [] /\ c = CNext.
Example C66_once_example : Forall counts [asks; asks; asks] /\ (forall v, exec [asks; asks; asks] (Some v) 0 1 [] true [] CNext) /\ exec [asks; asks; asks] None 0 0 [] false [] CNext.
Proof.
  split; [| split].
  - repeat (apply Forall_cons; [intros ctx u u' m r ds c (-> & _ & -> & _); destruct ctx; split; [reflexivity | discriminate | reflexivity | reflexivity] |]). apply Forall_nil.
  - intros v. apply (ex_next nat nat asks [asks; asks] (Some v) 0 1 1 [] [] true false [] [] CNext); [repeat split |].
    apply (ex_next nat nat asks [asks] None 1 1 1 [] [] false false [] [] CNext); [repeat split |].
    apply (ex_next nat nat asks [] None 1 1 1 [] [] false false [] [] CNext); [repeat split | constructor].
  - apply (ex_next nat nat asks [asks; asks] None 0 0 0 [] [] false false [] [] CNext); [repeat split |].
    apply (ex_next nat nat asks [asks] None 0 0 0 [] [] false false [] [] CNext); [repeat split |].
    apply (ex_next nat nat asks [] None 0 0 0 [] [] false false [] [] CNext); [repeat split | constructor].
Qed.
