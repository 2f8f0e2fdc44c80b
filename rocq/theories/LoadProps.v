(** C65: the packages of the call graph. *)
From Coq Require Import Permutation.
From Verif Require Import Base LoadModel LoadProofs.

(** For a finite set of packages that is closed under imports and in which no two share
    their types: the program gets exactly one package for the types of each package
    that a loaded one imports through packages with type information, in whatever order
    the imports are iterated; the module packages are exactly those among them that were
    not loaded themselves, each once; and with enough fuel it ends. *)
Theorem C65_created_exactly : forall types_of imports project nodes fuel,
  (forall p q, In p nodes -> In q (imports p) -> In q nodes) ->
  (forall p q t, types_of p = Some t -> types_of q = Some t -> p = q) ->
  incl project nodes -> (length nodes < fuel)%nat -> project <> [] ->
  exists st, load_graph types_of imports project fuel true 0 = LGraph st /\
    NoDup (created st) /\ NoDup (modules st) /\
    (forall t, In t (created st) <-> exists s q, In s project /\ imported types_of imports s q /\ types_of q = Some t) /\
    (forall q, In q (modules st) <->
       types_of q <> None /\ ~ In q project /\ exists s, In s project /\ imported types_of imports s q).
Proof.
  intros ty im pr nodes fuel Hc Hi Hp Hf Hn.
  destruct (load_spec ty im pr nodes Hc Hi fuel Hp Hf) as (st & ps & E & S). exists st.
  split; [unfold load_graph; cbn [negb Nat.ltb Nat.leb]; rewrite E; destruct pr; [congruence|reflexivity]|].
  destruct (so_created _ _ _ _ _ _ _ _ S) as (new & C & F). cbn [created app] in C.
  pose proof (so_nodup _ _ _ _ _ _ _ _ S) as N. rewrite C in N.
  pose proof (so_modules _ _ _ _ _ _ _ _ S) as M. cbn [modules app] in M.
  assert (NoDup ps) as Np.
  { clear - F N. induction F as [|x y l m R F IH]; [constructor|]. inversion N as [|? ? Ny N']; subst. constructor; [|apply IH; exact N'].
    intros Hx. apply Ny. destruct (forall2_in_l _ _ _ F x Hx) as (b & Hb & Rb). congruence. }
  assert (forall q, In q ps <-> ty q <> None /\ exists s, In s pr /\ imported ty im s q) as Ps.
  { intros q. split.
    - intros Hq. split; [|exact (so_reach _ _ _ _ _ _ _ _ S q Hq)]. destruct (forall2_in_l _ _ _ F q Hq) as (b & _ & Rb). congruence.
    - intros (T & s & Hs & R). destruct (ty q) as [t|] eqn:Et; [|congruence]. exact (load_complete ty im pr nodes Hi st ps s q S Hs R t Et). }
  split; [rewrite C; exact N|]. split; [rewrite M; apply NoDup_filter; exact Np|]. split.
  - intros t. rewrite C. split.
    + intros Ht. destruct (forall2_in _ _ _ F t Ht) as (q & Hq & Eq). apply Ps in Hq as (_ & s & Hs & R). exists s, q. auto.
    + intros (s & q & Hs & R & Et). assert (In q ps) as Hq by (apply Ps; split; [congruence|eauto]).
      destruct (forall2_in_l _ _ _ F q Hq) as (b & Hb & Rb). congruence.
  - intros q. rewrite M, filter_In, Ps, Bool.negb_true_iff. split.
    + intros ((T & R) & X). split; [exact T|]. split; [|exact R]. intros H. apply Bool.not_true_iff_false in X. apply X.
      apply existsb_exists. exists q. split; [exact H|apply Nat.eqb_refl].
    + intros (T & NP & R). split; [auto|]. apply Bool.not_true_iff_false. intros X. apply existsb_exists in X as (y & Hy & Ey).
      apply Nat.eqb_eq in Ey as <-. exact (NP Hy).
Qed.
Print Assumptions C65_created_exactly.

(** So two runs agree up to order, though Go iterates the imports of a package in any
    order. *)
Theorem C65_order_irrelevant : forall types_of imports imports' project nodes fuel fuel' st st',
  (forall p q, In p nodes -> In q (imports p) -> In q nodes) ->
  (forall p, Permutation (imports p) (imports' p)) ->
  (forall p q t, types_of p = Some t -> types_of q = Some t -> p = q) ->
  incl project nodes -> (length nodes < fuel)%nat -> (length nodes < fuel')%nat ->
  load_graph types_of imports project fuel true 0 = LGraph st ->
  load_graph types_of imports' project fuel' true 0 = LGraph st' ->
  Permutation (created st) (created st') /\ Permutation (modules st) (modules st').
Proof.
  intros ty im im' pr nodes fuel fuel' st st' Hc Hp Hi Hin Hf Hf' E E'.
  assert (pr <> []) as Hn by (intros ->; discriminate).
  destruct (C65_created_exactly ty im pr nodes fuel Hc Hi Hin Hf Hn) as (s1 & E1 & A1 & A2 & A3 & A4).
  destruct (C65_created_exactly ty im' pr nodes fuel') as (s2 & E2 & B1 & B2 & B3 & B4); auto.
  { intros p q Hq Hpq. apply (Hc p q Hq). eapply Permutation_in; [symmetry; apply Hp|exact Hpq]. }
  rewrite E in E1. rewrite E' in E2. injection E1 as <-. injection E2 as <-.
  assert (forall s q, imported ty im s q <-> imported ty im' s q) as Q.
  { intros s q. split; (induction 1 as [|x y R IH T I]; [apply im_self|]); apply (im_next _ _ _ x); auto;
      eapply Permutation_in; try exact I; [apply Hp|symmetry; apply Hp]. }
  split; apply NoDup_Permutation; auto.
  - intros t. rewrite A3, B3. split; intros (s & q & Hs & R & Et); exists s, q; (split; [exact Hs|split; [apply Q; exact R|exact Et]]).
  - intros q. rewrite A4, B4. split; intros (T & N & s & Hs & R); (split; [exact T|split; [exact N|exists s; split; [exact Hs|apply Q; exact R]]]).
Qed.
Print Assumptions C65_order_irrelevant.

(** There is no graph when loading fails or a package has errors; nothing at all, and no
    error, when no package was loaded. *)
Theorem C65_no_graph : forall types_of imports project fuel loaded errors,
  (load_graph types_of imports project fuel loaded errors = LError <-> loaded = false \/ (errors > 0)%nat) /\
  (load_graph types_of imports project fuel loaded errors = LNothing <-> loaded = true /\ errors = 0%nat /\ project = []).
Proof.
  intros ty im pr fuel [] errors; unfold load_graph; cbn [negb].
  - destruct (Nat.ltb_spec 0 errors).
    + split; (split; [intros H'; try discriminate|intros H'; try reflexivity]); [right; lia|]. destruct H' as (_ & -> & _). lia.
    + destruct pr as [|p pr].
      * split; split; try discriminate; try (intros [|]; [discriminate|lia]); auto. intros _. repeat split. lia.
      * destruct (each _ _ _); split; split; try discriminate; try (intros [|]; [discriminate|lia]); intros (_ & _ & ?); discriminate.
  - split; split; auto; try discriminate. intros (? & _); discriminate.
Qed.
Print Assumptions C65_no_graph.

(** A package without type information ends the descent: what is imported only through it
    is not part of the program, and not a module package. *)
Theorem C65_untyped_package_cuts_off_refuted : exists types_of imports project st,
  load_graph types_of imports project 9 true 0 = LGraph st /\ project = [0%nat] /\
  In 1%nat (imports 0%nat) /\ In 2%nat (imports 1%nat) /\ types_of 2%nat = Some 2%nat /\
  ~ In 2%nat (created st) /\ ~ In 2%nat (modules st).
Proof.
  exists (fun p => if Nat.eqb p 1 then None else Some p), (fun p => match p with 0 => [1] | 1 => [2] | _ => [] end%nat), [0%nat].
  eexists. split; [vm_compute; reflexivity|]. split; [reflexivity|]. split; [left; reflexivity|]. split; [left; reflexivity|].
  split; [reflexivity|]. split; vm_compute; intuition discriminate.
Qed.
Print Assumptions C65_untyped_package_cuts_off_refuted.

(** Packages 0 and 1 are the project's, 2 to 4 modules, 3 and 4 import each other (as test
    variants may), 5 is not imported, 6 has no types. *)
Definition ex_imports (p : nat) : list nat := match p with 0 => [1; 2] | 1 => [2; 6] | 2 => [3] | 3 => [4] | 4 => [3] | _ => [] end%nat.
Definition ex_types (p : nat) : option nat := if Nat.eqb p 6 then None else Some (10 + p)%nat.
Example C65_example :
  load_graph ex_types ex_imports [0; 1]%nat 8 true 0 = LGraph (LS [10; 11; 12; 13; 14] [2; 3; 4])%nat /\
  load_graph ex_types ex_imports [1; 0]%nat 8 true 0 = LGraph (LS [11; 12; 13; 14; 10] [2; 3; 4])%nat /\
  imported ex_types ex_imports 0 4 /\
  load_graph ex_types ex_imports [0]%nat 8 true 2 = LError /\ load_graph ex_types ex_imports [] 8 true 0 = LNothing.
Proof.
  split; [reflexivity|]. split; [reflexivity|]. split; [|split; reflexivity].
  apply (im_next _ _ _ 3%nat); [|discriminate|left; reflexivity]. apply (im_next _ _ _ 2%nat); [|discriminate|left; reflexivity].
  apply (im_next _ _ _ 0%nat); [apply im_self|discriminate|right; left; reflexivity].
Qed.
