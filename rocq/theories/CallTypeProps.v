(** C92: when a rewritten call compiles. *)
From Verif Require Import Base InstrModel InstrProofs CompileSpec RewriteModel CallTypeSpec CallTypeProofs.
From Coq Require Import Lia.

(** The names made for point [p] do not occur. *)
Definition unused_names (p : N) (l : list bytes) : Prop :=
  ~ In (recv_var p) l /\ forall i, ~ In (arg_var p i) l.

Section Go.
Variable C : calltypes.
Hypothesis HL : lawful_calls C.

Lemma name_shows s x : (exists v, c_ty C s (name x) = Some v /\ shows C v) <-> exists v, s x = Some (EVal v) /\ shows C v.
Proof.
  destruct HL as (_ & L2 & _). unfold name. rewrite L2. split.
  - intros (v & H & Hs). destruct (s x) as [[w|t| |]|]; try discriminate H. injection H as ->. exists v. split; [reflexivity|exact Hs].
  - intros (v & -> & Hs). exists v. split; [reflexivity|exact Hs].
Qed.

(** The statements put in front of a correct call and the new call compile, with
    the same signature, exactly if a receiver that is captured is a value and
    every argument is a single value that can be put into an interface and,
    when it is taken out of the call, still fits its parameter with its
    default type. *)
Theorem C92_exactly s blk pkgs p dots m k f args sg :
  (forall n, In n client_names -> s n = Some EClient) ->
  unused_names p (blk ++ flat_map names (f :: args)) ->
  call_ok C s dots f args sg ->
  (compiles_call C s blk dots sg (build pkgs p (Nd (KCall m k) (f :: args))) <->
   receiver_fits C s pkgs f /\ forall i a, nth_error args i = Some a -> argument_fits C s sg dots i a).
Proof.
  intros Hcl [Hu1 Hu2] Hok.
  assert (Hfr : forall a, In a (f :: args) -> fresh_in p a).
  { intros a Ha x Hx [->|(i & ->)]; [apply Hu1|apply (Hu2 i)]; apply in_or_app; right; apply in_flat_map; exists a; split; assumption. }
  assert (Hargs : forall a, In a args -> fresh_in p a) by (intros a Ha; apply Hfr; right; exact Ha).
  assert (Hblk : forall j, ~ In (arg_var p j) blk) by (intros j HI; apply (Hu2 j), in_or_app; left; exact HI).
  assert (Hrecv : ~ In (recv_var p) blk) by (intros HI; apply Hu1, in_or_app; left; exact HI).
  assert (Hself : agree C p s s) by (intros x _; reflexivity).
  pose proof Hok as [Hfun _].
  destruct (build_args p 0 args) as [[st l'] v] eqn:E.
  assert (Hmain : forall vr,
    (compiles_call C s blk dots sg (st ++ [message p (vr ++ v)], Nd (KCall m k) (f :: l')) <->
     (forall e, In e (map snd vr) -> forall ov, binds C p s 0 args ov -> exists u, c_ty C (overs C ov s) e = Some u /\ shows C u) /\
     forall i a, nth_error args i = Some a -> argument_fits C s sg dots i a)).
  { intros vr. unfold compiles_call. cbn [fst snd]. apply (args_fit C HL p s s f f sg dots args st l' v vr blk); try assumption.
    intros ov Hb. rewrite (fun_same C HL p s); [exact Hfun|apply Hfr; left; reflexivity|eapply agree_overs; eassumption]. }
  assert (Hplain : (forall mm y, f <> Nd (KSel mm) [y]) ->
    (compiles_call C s blk dots sg (st ++ [message p ([] ++ v)], Nd (KCall m k) (f :: l')) <->
     receiver_fits C s pkgs f /\ forall i a, nth_error args i = Some a -> argument_fits C s sg dots i a)).
  { intros Hn. rewrite Hmain. split; intros [_ H]; (split; [|exact H]).
    - split; intros mm y Hf; exfalso; eapply Hn; exact Hf.
    - intros e []. }
  assert (Hcomplex : forall mm y, f = Nd (KSel mm) [y] -> (forall x, y <> Nd (KId x) []) ->
    (compiles_call C s blk dots sg (([define (recv_var p) y] ++ st ++ [message p ([(B "recv", name (recv_var p))] ++ v)]), Nd (KCall m k) (Nd (KSel mm) [name (recv_var p)] :: l')) <->
     receiver_fits C s pkgs f /\ forall i a, nth_error args i = Some a -> argument_fits C s sg dots i a)).
  { intros mm y Ef Hy. unfold compiles_call. cbn [fst snd]. destruct HL as (L1 & L2 & L3 & L4).
    cbn [app front define].
    assert (Hbk : forall j, ~ In (arg_var p j) (recv_var p :: blk)) by (intros j [HI|HI]; [symmetry in HI; exact (arg_recv_var _ _ HI)|exact (Hblk _ HI)]).
    assert (Hnew : forall t ov, binds C p s 0 args ov -> overs C ov (with_var C (recv_var p) t s) (recv_var p) = Some (EVal (Typed t))).
    { intros t ov Hb. rewrite overs_out.
      - unfold with_var. rewrite (proj2 (beq_true (recv_var p) (recv_var p)) eq_refl). reflexivity.
      - intros HI. destruct (binds_names _ _ _ _ _ _ _ Hb HI) as (j & _ & Ej). symmetry in Ej. exact (arg_recv_var _ _ Ej). }
    assert (Hin : In (recv_var p) (flat_map names (st ++ [message p ((B "recv", name (recv_var p)) :: v)]))).
    { rewrite flat_map_app. apply in_or_app. right. unfold message. cbn. left. reflexivity. }
    assert (Hrest : forall t, c_ty C s y = Some (Typed t) ->
      (front C (with_var C (recv_var p) t s) (recv_var p :: blk) (st ++ [message p ((B "recv", name (recv_var p)) :: v)])
         (fun s2 => call_ok C s2 dots (Nd (KSel mm) [name (recv_var p)]) l' sg) <->
       forall i a, nth_error args i = Some a -> argument_fits C s sg dots i a)).
    { intros t Ht. subst f. destruct (L3 _ _ _ _ _ Hfun Ht) as (t' & Et & Hvar). injection Et as <-.
      rewrite (args_fit C (conj L1 (conj L2 (conj L3 L4))) p s (with_var C (recv_var p) t s) (Nd (KSel mm) [y]) (Nd (KSel mm) [name (recv_var p)]) sg dots args st l' v [(B "recv", name (recv_var p))] (recv_var p :: blk)); try assumption.
      - split; [intros [_ H]; exact H|]. intros H. split; [|exact H]. intros e [<-|[]] ov Hb. cbn [snd]. unfold name. rewrite L2, (Hnew t ov Hb). exists (Typed t). split; [reflexivity|exact Logic.I].
      - apply agree_with; [exact Hself|left; reflexivity].
      - intros ov Hb. apply Hvar, Hnew, Hb. }
    split.
    - intros (_ & _ & w & t & Hw & Hal & H). subst f. destruct (L3 _ _ _ _ _ Hfun Hw) as (t' & -> & _). cbn in Hal. injection Hal as <-.
      split; [|apply (Hrest _ Hw), H]. split.
      + intros m2 x Ef. injection Ef as _ Ef. exfalso. eapply Hy, Ef.
      + intros m2 y2 Ef _. injection Ef as _ <-. exists (Typed t'). exact Hw.
    - intros [[_ HR] H]. destruct (HR mm y Ef Hy) as (w & Hw). subst f. destruct (L3 _ _ _ _ _ Hfun Hw) as (t' & -> & _).
      split; [exact Hrecv|]. split; [exact Hin|]. exists (Typed t'), t'. split; [exact Hw|]. split; [reflexivity|]. apply (Hrest _ Hw), H. }
  unfold build. destruct f as [kf cf].
  destruct kf as [|x|mm| | | | | | | | | | | | | | | | | | | | | | | | |]; try (cbn [build_recv]; rewrite E; cbn [app]; apply Hplain; intros m2 y2 H; discriminate H).
  destruct cf as [|[k1 c1] [|z cf]]; [cbn [build_recv]; rewrite E; cbn [app]; apply Hplain; intros m2 y2 H; discriminate H| |
    cbn [build_recv]; destruct k1; try destruct c1; rewrite E; cbn [app]; apply Hplain; intros m2 y2 H; discriminate H].
  destruct k1 as [|x|mm1| | | | | | | | | | | | | | | | | | | | | | | | |];
    try (cbn [build_recv]; rewrite E; apply (Hcomplex mm _ eq_refl); intros xx Hx; discriminate Hx).
  destruct c1 as [|z c1]; [|cbn [build_recv]; rewrite E; apply (Hcomplex mm _ eq_refl); intros xx Hx; discriminate Hx].
  cbn [build_recv]. rewrite E. cbn [app]. rewrite Hmain.
  assert (Hnx : fresh_in p (name x)).
  { intros z Hz. apply (Hfr _ (or_introl eq_refl)). cbn. cbn in Hz. exact Hz. }
  split; intros [Hv H]; (split; [|exact H]).
  - split; [|intros m2 y2 Ef Hy; injection Ef as _ <-; exfalso; apply (Hy x); reflexivity].
    intros m2 x2 Ef Hb Hp. injection Ef as _ <-. apply name_shows.
    assert (Ev : negb (beq x (B "_")) && negb (mem x pkgs) = true).
    { apply andb_true_intro. split; apply Bool.negb_true_iff; [apply beq_false, Hb|].
      destruct (mem x pkgs) eqn:Em; [|reflexivity]. exfalso. apply Hp. unfold mem in Em. apply existsb_exists in Em. destruct Em as (y & Hy & Ey). apply beq_true in Ey. congruence. }
    destruct (binds_make C p s args 0) as (ov & Hbd).
    { intros a Ha Es. apply In_nth_error in Ha. destruct Ha as (i & Hi). destruct (H i a Hi) as (w & Hw & [[Has _]|(_ & t & pt & Hal & _)]).
      - apply stays_as_is in Has. congruence.
      - exists w, t. split; assumption. }
    rewrite Ev in Hv. destruct (Hv (name x) (or_introl eq_refl) ov Hbd) as (u & Hty & Hsh).
    rewrite (ty_same C HL p s) in Hty; [exists u; split; assumption|exact Hnx|eapply agree_overs; eassumption].
  - intros e He ov Hbd. destruct (negb (beq x (B "_")) && negb (mem x pkgs)) eqn:Ev; [|destruct He]. destruct He as [<-|[]]. cbn [snd].
    apply andb_prop in Ev. destruct Ev as [E1 E2]. apply Bool.negb_true_iff in E1, E2. apply beq_false in E1. destruct Hv as [Hv _].
    rewrite (ty_same C HL p s); [|exact Hnx|eapply agree_overs; eassumption]. apply name_shows. apply (Hv mm x eq_refl E1).
    intros HI. assert (mem x pkgs = true) by (unfold mem; apply existsb_exists; exists x; split; [exact HI|apply beq_true; reflexivity]). congruence.
Qed.

(** Arguments of types and a receiver that is a value: it compiles. *)
Theorem C92_compiles s blk pkgs p dots m k f args sg :
  (forall n, In n client_names -> s n = Some EClient) ->
  unused_names p (blk ++ flat_map names (f :: args)) ->
  call_ok C s dots f args sg ->
  (forall mm y, f = Nd (KSel mm) [y] -> (exists x, y = Nd (KId x) [] /\ In x pkgs) \/ exists t, c_ty C s y = Some (Typed t)) ->
  (forall a, In a args -> exists t, c_ty C s a = Some (Typed t)) ->
  compiles_call C s blk dots sg (build pkgs p (Nd (KCall m k) (f :: args))).
Proof.
  intros Hcl Hu Hok Hr Ha. apply C92_exactly; try assumption. split.
  - split.
    + intros mm x Ef Hb Hp. destruct (Hr mm _ Ef) as [(z & Hz & HI)|(t & Ht)].
      * injection Hz as <-. contradiction.
      * destruct HL as (_ & L2 & _). rewrite L2 in Ht. destruct (s x) as [[w|u| |]|]; try discriminate Ht. injection Ht as ->.
        exists (Typed t). split; [reflexivity|exact Logic.I].
    + intros mm y Ef Hy. destruct (Hr mm _ Ef) as [(z & Hz & _)|(t & Ht)]; [exfalso; eapply Hy, Hz|exists (Typed t); exact Ht].
  - intros i a Hi. destruct (Ha a (nth_error_In _ _ Hi)) as (t & Ht). exists (Typed t). split; [exact Ht|].
    destruct (stays a) eqn:Es; [left; split; [apply stays_as_is, Es|exact Logic.I]|]. right. split; [apply stays_not, Es|]. exists t.
    destruct Hok as [_ [(_ & Hv)|(b & ts & -> & Hb & _)]].
    + destruct (Hv i a Hi) as (v & pt & Hty & Hpt & Hasg). rewrite Ht in Hty. injection Hty as <-. exists pt. repeat split; assumption.
    + destruct i as [|[|i]]; try discriminate Hi. injection Hi as <-. congruence.
Qed.

(** The results of a call passed on as arguments, f(g()): it never compiles. *)
Theorem C92_several_results s blk pkgs p dots m k f a ts sg :
  (forall n, In n client_names -> s n = Some EClient) ->
  unused_names p (blk ++ flat_map names [f; a]) ->
  call_ok C s dots f [a] sg -> c_ty C s a = Some (Tuple ts) ->
  ~ compiles_call C s blk dots sg (build pkgs p (Nd (KCall m k) [f; a])).
Proof.
  intros Hcl Hu Hok Ht H. apply C92_exactly in H; try assumption. destruct H as [_ H].
  destruct (H 0%nat a eq_refl) as (v & Hv & [[_ Hsh]|(_ & t & pt & Hal & _)]); rewrite Ht in Hv; injection Hv as <-; [exact Hsh|discriminate Hal].
Qed.

(** A package whose name is not taken for one: it never compiles. *)
Theorem C92_package s blk pkgs p dots m k mm x args sg :
  (forall n, In n client_names -> s n = Some EClient) ->
  unused_names p (blk ++ flat_map names (Nd (KSel mm) [Nd (KId x) []] :: args)) ->
  call_ok C s dots (Nd (KSel mm) [Nd (KId x) []]) args sg ->
  s x = Some EElse -> x <> B "_" -> ~ In x pkgs ->
  ~ compiles_call C s blk dots sg (build pkgs p (Nd (KCall m k) (Nd (KSel mm) [Nd (KId x) []] :: args))).
Proof.
  intros Hcl Hu Hok Hs Hb Hp H. apply C92_exactly in H; try assumption. destruct H as [[H _] _].
  destruct (H mm x eq_refl Hb Hp) as (v & Hv & _). congruence.
Qed.

(** An untyped constant: taken out of the call it must have its default type
    there, left in the call it must fit its default type. *)
Theorem C92_constant s blk pkgs p dots m k f args sg i a c pt :
  (forall n, In n client_names -> s n = Some EClient) ->
  unused_names p (blk ++ flat_map names (f :: args)) ->
  call_ok C s dots f args sg -> nth_error args i = Some a -> c_ty C s a = Some (Untyped c) -> param C sg dots i = Some pt ->
  (forall t, c_def C c = Some t -> ~ as_is a /\ c_asg C (Typed t) pt = false) ->
  ~ compiles_call C s blk dots sg (build pkgs p (Nd (KCall m k) (f :: args))).
Proof.
  intros Hcl Hu Hok Hi Ht Hp Hd H. apply C92_exactly in H; try assumption. destruct H as [_ H].
  destruct (H i a Hi) as (v & Hv & [[Has Hsh]|(_ & t & pt' & Hal & Hp' & Hasg)]); rewrite Ht in Hv; injection Hv as <-.
  - cbn in Hsh. destruct (c_def C c) as [t|]; [|apply Hsh; reflexivity]. destruct (Hd t eq_refl) as [Hn _]. contradiction.
  - cbn in Hal. destruct (Hd t Hal) as [_ Hf]. congruence.
Qed.
End Go.

(** ** A small part of Go *)
Inductive ty := TyInt | TyI64 | TyU64 | TySlice | TyS | TyF1 | TyF2.
Definition ty_eqb (a b : ty) : bool :=
  match a, b with
  | TyInt, TyInt | TyI64, TyI64 | TyU64, TyU64 | TySlice, TySlice | TyS, TyS | TyF1, TyF1 | TyF2, TyF2 => true
  | _, _ => false
  end.
Notation sc := (scope ty N).
(** Names, the literal 5, sums, parentheses, the field of a [TyS], the constant
    of a package, calls of functions with one and with two results. *)
Fixpoint mini_ty (s : sc) (e : nd) : option (sty ty N) :=
  match e with
  | Nd (KId x) [] => match s x with Some (EVal v) => Some v | _ => None end
  | Nd KBasic [] => Some (Untyped 5%N)
  | Nd KBin [a; b] =>
    match mini_ty s a, mini_ty s b with
    | Some (Untyped c), Some (Untyped d) => Some (Untyped (c + d)%N)
    | Some (Typed t), Some (Untyped _) | Some (Untyped _), Some (Typed t) => Some (Typed t)
    | Some (Typed t), Some (Typed u) => if ty_eqb t u then Some (Typed t) else None
    | _, _ => None
    end
  | Nd KPar [a] => mini_ty s a
  | Nd (KSel _) [Nd (KId x) []] =>
    match s x with Some (EVal (Typed TyS)) => Some (Typed TyS) | Some EElse => Some (Untyped 18446744073709551615%N) | _ => None end
  | Nd (KCall _ _) (Nd (KId g) [] :: _) =>
    match s g with Some (EVal (Typed TyF1)) => Some (Typed TyInt) | Some (EVal (Typed TyF2)) => Some (Tuple [TyI64; TyInt]) | _ => None end
  | _ => None
  end.
(** A method and a package function with parameters int64, ...int; a function
    with one uint64. *)
Definition mini_fun (s : sc) (f : nd) : option (sig ty) :=
  match f with
  | Nd (KSel _) [x] =>
    match mini_ty s x with
    | Some (Typed TyS) => Some (Sig [TyI64] (Some (TyInt, TySlice)))
    | Some _ => None
    | None => match x with Nd (KId y) [] => match s y with Some EElse => Some (Sig [TyI64] (Some (TyInt, TySlice))) | _ => None end | _ => None end
    end
  | Nd (KId g) [] => match s g with Some (EVal (Typed TyF1)) => Some (Sig [TyU64] None) | _ => None end
  | _ => None
  end.
Definition mini : calltypes := {|
  CT := ty; CK := N; c_ty := mini_ty; c_fun := mini_fun;
  c_asg := fun v t => match v with
                      | Typed u => ty_eqb u t
                      | Untyped c => match t with TyInt | TyI64 => (c <? 9223372036854775808)%N | TyU64 => (c <? 18446744073709551616)%N | _ => false end
                      | SNil => ty_eqb t TySlice
                      | Tuple _ => false
                      end;
  c_def := fun c => if (c <? 9223372036854775808)%N then Some TyInt else None |}.

Lemma mini_ty_names : forall e (s s' : sc), (forall x, In x (names e) -> s x = s' x) -> mini_ty s e = mini_ty s' e.
Proof.
  fix IH 1. intros [k cs] s s' H. destruct k as [|x|m| | | | | | | | | | | | | | | | | | | | | | | | | ]; try reflexivity.
  - destruct cs; [|reflexivity]. cbn. rewrite (H x); [reflexivity|left; reflexivity].
  - destruct cs as [|[[|y| | | | | | | | | | | | | | | | | | | | | | | | | | ] [|? ?]] [|? ?]]; try reflexivity.
    cbn. rewrite (H y); [reflexivity|cbn; left; reflexivity].
  - destruct cs as [|a [|b [|? ?]]]; try reflexivity. cbn. rewrite (IH a s s'), (IH b s s'); [reflexivity| |]; intros z Hz; apply H; cbn; apply in_or_app; [right; rewrite app_nil_r; exact Hz|left; exact Hz].
  - destruct cs as [|a [|b ?]]; try reflexivity. cbn. apply IH. intros z Hz; apply H; cbn. rewrite app_nil_r. exact Hz.
  - destruct cs as [|[[|y| | | | | | | | | | | | | | | | | | | | | | | | | | ] [|? ?]] ?]; try reflexivity. cbn. rewrite (H y); [reflexivity|cbn; left; reflexivity].
Qed.
Lemma mini_lawful : lawful_calls mini.
Proof.
  split; [|split; [|split]].
  - intros s s' e H. split; [apply mini_ty_names, H|]. cbn. destruct e as [k cs]. destruct k as [|x|m| | | | | | | | | | | | | | | | | | | | | | | | | ]; try reflexivity.
    + destruct cs; [|reflexivity]. cbn. rewrite (H x); [reflexivity|left; reflexivity].
    + destruct cs as [|a [|? ?]]; try reflexivity. cbn [mini_fun].
      rewrite (mini_ty_names a s s'); [|intros z Hz; apply H; cbn; rewrite app_nil_r; exact Hz].
      destruct (mini_ty s' a) as [v|]; [reflexivity|]. destruct a as [[|y| | | | | | | | | | | | | | | | | | | | | | | | | | ] [|? ?]]; try reflexivity.
      rewrite (H y); [reflexivity|cbn; left; reflexivity].
  - reflexivity.
  - intros s m x g v Hf Ht. cbn [mini c_fun c_ty mini_fun] in Hf, Ht. rewrite Ht in Hf. destruct v as [[]| | |]; try discriminate Hf.
    exists TyS. split; [reflexivity|]. intros s' y Hy. cbn [mini c_fun mini_fun mini_ty]. rewrite Hy. exact Hf.
  - reflexivity.
Qed.

(** The names in scope: a variable [o] of type TyS, [n] an int64, the constant
    [lim], the package [yaml], the functions [one] and [two]. *)
Definition mini_scope : sc := fun x =>
  if beq x (B "o") then Some (EVal (Typed TyS)) else if beq x (B "n") then Some (EVal (Typed TyI64))
  else if beq x (B "lim") then Some (EVal (Untyped 7%N)) else if beq x (B "yaml") then Some EElse
  else if beq x (B "one") then Some (EVal (Typed TyF1)) else if beq x (B "two") then Some (EVal (Typed TyF2))
  else if existsb (beq x) client_names then Some EClient else None.
Definition nid (x : String.string) : nd := Nd (KId (B x)) [].
Definition ncall (f : nd) (args : list nd) : nd := Nd (KCall true 0) (f :: args).
Definition the_sig : sig ty := Sig [TyI64] (Some (TyInt, TySlice)).
Lemma mini_client n : In n client_names -> mini_scope n = Some EClient.
Proof. intros [<-|[<-|[]]]; vm_compute; reflexivity. Qed.
Lemma unused_by p l : forallb (fun x => negb (has_prefix (B "lenSynthetic") x)) l = true -> unused_names p l.
Proof.
  intros H. rewrite forallb_forall in H. split; [intros HI|intros i HI]; specialize (H _ HI); vm_compute in H; discriminate H.
Qed.


(** o.inner.M(n + 5, 5, one(n)): the receiver and two arguments are taken out. *)
Definition good_call : nd :=
  ncall (Nd (KSel (B "M")) [Nd (KSel (B "inner")) [nid "o"]]) [Nd KBin [nid "n"; Nd KBasic []]; Nd KBasic []; Nd (KCall false 1) [nid "one"; nid "n"]].
Example C92_example : compiles_call mini mini_scope [B "o"] false the_sig (build [B "yaml"] 7 good_call) /\ length (fst (build [B "yaml"] 7 good_call)) = 4%nat.
Proof.
  split; [|vm_compute; reflexivity]. apply C92_exactly; [exact mini_lawful|exact mini_client|apply unused_by; vm_compute; reflexivity| |].
  - split; [reflexivity|]. left. split; [cbn; lia|]. intros i a H. 
    destruct i as [|[|[|i]]]; cbn in H; [| | |destruct i; discriminate H]; injection H as <-; eexists; eexists; (split; [vm_compute; reflexivity|]); (split; [reflexivity|vm_compute; reflexivity]).
  - split.
    + split; [intros m x H; discriminate H|]. intros m y H _. injection H as _ <-. eexists. vm_compute. reflexivity.
    + intros i a H. destruct i as [|[|[|i]]]; cbn in H; [| | |destruct i; discriminate H]; injection H as <-; eexists; (split; [vm_compute; reflexivity|]).
      * right. split; [intros Ha; apply stays_as_is in Ha; discriminate Ha|]. exists TyI64, TyI64. repeat split.
      * left. split; [apply stays_as_is; reflexivity|cbn; discriminate].
      * right. split; [intros Ha; apply stays_as_is in Ha; discriminate Ha|]. exists TyInt, TyInt. repeat split.
Qed.

(** A call compiles before and not after: the results of a call passed on
    ([o.M(two())]); a sum of untyped constants for an int64 ([o.M(lim + 5)]); a
    constant that fits no int ([one(yaml.Max)] for a uint64); a package whose
    name is not the end of its path ([yaml.M(n)] with gopkg.in/yaml.v3). *)
Definition bad_calls : list (sig ty * (nd * list nd)) :=
  [(the_sig, (Nd (KSel (B "M")) [nid "o"], [Nd (KCall false 1) [nid "two"]]));
   (the_sig, (Nd (KSel (B "M")) [nid "o"], [Nd KBin [nid "lim"; Nd KBasic []]]));
   (Sig [TyU64] None, (nid "one", [Nd (KSel (B "Max")) [nid "yaml"]]));
   (the_sig, (Nd (KSel (B "M")) [nid "yaml"], [nid "n"]))].
Theorem C92_every_call_refuted sg f args : In (sg, (f, args)) bad_calls ->
  call_ok mini mini_scope false f args sg /\
  ~ compiles_call mini mini_scope [] false sg (build [B "yaml.v3"] 7 (Nd (KCall true 0) (f :: args))).
Proof.
  assert (Hu : forall l, forallb (fun x => negb (has_prefix (B "lenSynthetic") x)) l = true -> unused_names 7 l) by (intros l; apply unused_by).
  intros [H|[H|[H|[H|[]]]]]; injection H as <- <- <-.
  - assert (Hok : call_ok mini mini_scope false (Nd (KSel (B "M")) [nid "o"]) [Nd (KCall false 1) [nid "two"]] the_sig).
    { split; [reflexivity|]. right. exists (Nd (KCall false 1) [nid "two"]), [TyI64; TyInt]. split; [reflexivity|]. split; [vm_compute; reflexivity|]. split; [reflexivity|].
      split; [cbn; lia|]. intros i u H. destruct i as [|[|i]]; cbn in H; [| |destruct i; discriminate H]; injection H as <-; eexists; split; reflexivity. }
    split; [exact Hok|]. apply (C92_several_results mini mini_lawful _ _ _ _ _ _ _ _ _ [TyI64; TyInt]); [exact mini_client|apply Hu; vm_compute; reflexivity|exact Hok|vm_compute; reflexivity].
  - assert (Hok : call_ok mini mini_scope false (Nd (KSel (B "M")) [nid "o"]) [Nd KBin [nid "lim"; Nd KBasic []]] the_sig).
    { split; [reflexivity|]. left. split; [cbn; lia|]. intros i a H. destruct i as [|i]; cbn in H; [|destruct i; discriminate H]. injection H as <-.
      exists (Untyped 12%N), TyI64. repeat split; vm_compute; reflexivity. }
    split; [exact Hok|]. apply (C92_constant mini mini_lawful _ _ _ _ _ _ _ _ _ _ 0 (Nd KBin [nid "lim"; Nd KBasic []]) 12%N TyI64); [exact mini_client|apply Hu; vm_compute; reflexivity|exact Hok|reflexivity|vm_compute; reflexivity|reflexivity|].
    intros t Ht. vm_compute in Ht. injection Ht as <-. split; [intros Ha; apply stays_as_is in Ha; discriminate Ha|reflexivity].
  - assert (Hok : call_ok mini mini_scope false (nid "one") [Nd (KSel (B "Max")) [nid "yaml"]] (Sig [TyU64] None)).
    { split; [reflexivity|]. left. split; [split; reflexivity|]. intros i a H. destruct i as [|i]; cbn in H; [|destruct i; discriminate H]. injection H as <-.
      exists (Untyped 18446744073709551615%N), TyU64. repeat split; vm_compute; reflexivity. }
    split; [exact Hok|]. apply (C92_constant mini mini_lawful _ _ _ _ _ _ _ _ _ _ 0 (Nd (KSel (B "Max")) [nid "yaml"]) 18446744073709551615%N TyU64); [exact mini_client|apply Hu; vm_compute; reflexivity|exact Hok|reflexivity|vm_compute; reflexivity|reflexivity|].
    intros t Ht. vm_compute in Ht. discriminate Ht.
  - assert (Hok : call_ok mini mini_scope false (Nd (KSel (B "M")) [nid "yaml"]) [nid "n"] the_sig).
    { split; [reflexivity|]. left. split; [cbn; lia|]. intros i a H. destruct i as [|i]; cbn in H; [|destruct i; discriminate H]. injection H as <-.
      exists (Typed TyI64), TyI64. repeat split; vm_compute; reflexivity. }
    split; [exact Hok|]. apply (C92_package mini mini_lawful); [exact mini_client|apply Hu; vm_compute; reflexivity|exact Hok|reflexivity|vm_compute; discriminate|].
    intros [H|[]]. vm_compute in H. discriminate H.
Qed.
Print Assumptions C92_exactly.
Print Assumptions C92_compiles.
Print Assumptions C92_several_results.
Print Assumptions C92_package.
Print Assumptions C92_constant.
Print Assumptions C92_every_call_refuted.
(** o.M(n + n) with a value in front of the name and an argument taken out. *)
Example C92_typed_example : compiles_call mini mini_scope [] false the_sig (build [B "yaml"] 7 (ncall (Nd (KSel (B "M")) [nid "o"]) [Nd KBin [nid "n"; nid "n"]])).
Proof.
  apply C92_compiles; [exact mini_lawful|exact mini_client|apply unused_by; vm_compute; reflexivity| | |].
  - split; [reflexivity|]. left. split; [cbn; lia|]. intros i a H. destruct i as [|i]; cbn in H; [|destruct i; discriminate H]. injection H as <-.
    exists (Typed TyI64), TyI64. repeat split; vm_compute; reflexivity.
  - intros mm y H. injection H as _ <-. right. exists TyS. vm_compute. reflexivity.
  - intros a [<-|[]]. exists TyI64. vm_compute. reflexivity.
Qed.

(** ** Names of several points *)
(** The variables that statements of a block declare. *)
Definition declares (l : list nd) : list bytes := flat_map (fun t => match t with Nd (KAssign xs) _ => xs | _ => [] end) l.
Lemma cut_same (a b x y : bytes) : Forall (fun c => is_digit c = true) a -> Forall (fun c => is_digit c = true) b -> a ++ B "_" ++ x = b ++ B "_" ++ y -> a = b.
Proof.
  revert b. induction a as [| c a IH]; intros b Ha Hb E.
  - destruct b as [| d b]; [reflexivity |]. inversion Hb as [| ? ? Hd _]; subst. cbn in E. injection E as E0 _. subst d. discriminate Hd.
  - inversion Ha as [| ? ? Hc Ha']; subst. destruct b as [| d b]; [cbn in E; injection E as E0 _; subst c; discriminate Hc |].
    inversion Hb as [| ? ? _ Hb']; subst. cbn [app] in E. injection E as -> E. rewrite (IH b Ha' Hb' E). reflexivity.
Qed.
Lemma arg_var_point p q i j : arg_var p i = arg_var q j -> p = q /\ i = j.
Proof.
  intros H. assert (Ep : p = q).
  { unfold arg_var in H. apply app_inv_head in H. apply cut_same in H; [| apply itoa_digits | apply itoa_digits]. apply itoa_inj. exact H. }
  subst q. split; [reflexivity |]. exact (arg_var_inj p i j H).
Qed.
Lemma recv_var_point p q : recv_var p = recv_var q -> p = q.
Proof. unfold recv_var. intros H. apply app_inv_head in H. apply itoa_inj. exact H. Qed.
Lemma arg_not_recv p q i : arg_var p i <> recv_var q.
Proof. unfold arg_var, recv_var. intros H. vm_compute in H. discriminate H. Qed.
Lemma args_declare p : forall l i s l' v, build_args p i l = (s, l', v) ->
  NoDup (declares s) /\ forall x, In x (declares s) -> exists j, (i <= j)%nat /\ x = arg_var p j.
Proof.
  induction l as [| a l IH]; intros i s l' v E; cbn [build_args] in E.
  - injection E as <- _ _. split; [constructor | intros x []].
  - destruct (build_args p (S i) l) as [[s1 l1] v1] eqn:E1. destruct (IH _ _ _ _ E1) as [N1 I1]. destruct (stays a); injection E as <- _ _.
    + split; [exact N1 |]. intros x Hx. destruct (I1 x Hx) as (j & Lj & ->). exists j. split; [lia | reflexivity].
    + change (declares (define (arg_var p i) a :: s1)) with (arg_var p i :: declares s1). split.
      * constructor; [| exact N1]. intros Hx. destruct (I1 _ Hx) as (j & Lj & Ej). apply arg_var_inj in Ej. lia.
      * intros x [<- | Hx]; [exists i; split; [lia | reflexivity] |]. destruct (I1 x Hx) as (j & Lj & ->). exists j. split; [lia | reflexivity].
Qed.
Lemma recv_declares pkgs p f s f' v : build_recv pkgs p f = (s, f', v) -> declares s = [] \/ declares s = [recv_var p].
Proof.
  unfold build_recv. intros E. destruct f as [k cs]. destruct k; try (injection E as <- _ _; left; reflexivity).
  destruct cs as [| x [| y cs]]; try (injection E as <- _ _; left; reflexivity).
  - destruct x as [k0 cs0]. destruct k0, cs0; injection E as <- _ _; auto.
  - destruct x as [k0 cs0]. destruct k0, cs0; injection E as <- _ _; auto.
Qed.
Lemma build_declares pkgs p c : NoDup (declares (fst (build pkgs p c))) /\
  forall x, In x (declares (fst (build pkgs p c))) -> x = recv_var p \/ exists i, x = arg_var p i.
Proof.
  destruct c as [k [| f args]]; cbn [build fst]; [split; [constructor | intros x []] |].
  destruct (build_recv pkgs p f) as [[s f'] v] eqn:E1. destruct (build_args p 0 args) as [[s' args'] v'] eqn:E2. cbn [fst].
  destruct (args_declare _ _ _ _ _ _ E2) as [N2 I2].
  assert (Ed : declares (s ++ s' ++ [message p (v ++ v')]) = declares s ++ declares s').
  { unfold declares. rewrite !flat_map_app. cbn [flat_map message app]. rewrite app_nil_r. reflexivity. }
  rewrite Ed. destruct (recv_declares _ _ _ _ _ _ E1) as [-> | ->]; cbn [app].
  - split; [exact N2 |]. intros x Hx. destruct (I2 x Hx) as (j & _ & ->). right. eauto.
  - split.
    + constructor; [| exact N2]. intros Hx. destruct (I2 _ Hx) as (j & _ & Ej). exact (arg_not_recv p p j (eq_sym Ej)).
    + intros x [<- | Hx]; [left; reflexivity |]. destruct (I2 x Hx) as (j & _ & ->). right. eauto.
Qed.
(** No variable is declared twice in front of a call, nor by the statements of two points. *)
Theorem C92_names_apart : forall pkgs p c, NoDup (declares (fst (build pkgs p c))) /\
  forall q d x, p <> q -> In x (declares (fst (build pkgs p c))) -> ~ In x (declares (fst (build pkgs q d))).
Proof.
  intros pkgs p c. destruct (build_declares pkgs p c) as [N1 I1]. split; [exact N1 |]. intros q d x Npq Hp Hq.
  destruct (I1 x Hp) as [-> | (i & ->)]; destruct (proj2 (build_declares pkgs q d) _ Hq) as [E | (j & E)].
  - exact (Npq (recv_var_point _ _ E)).
  - exact (arg_not_recv q p j (eq_sym E)).
  - exact (arg_not_recv p q i E).
  - apply arg_var_point in E. exact (Npq (proj1 E)).
Qed.
Print Assumptions C92_names_apart.
(** a[0].f(x + y, -z) and a call with twelve sums: the names of points 1 and 11. *)
Example C92_example_names :
  declares (fst (build [] 1 (Nd (KCall true 0) (Nd (KSel (B "f")) [Nd KBin [name (B "a")]] :: repeat (Nd KBin [name (B "x"); name (B "y")]) 2)))) =
    map B ["lenSyntheticRecv1"; "lenSyntheticArg1_0"; "lenSyntheticArg1_1"]%string /\
  last (declares (fst (build [] 1 (Nd (KCall true 0) (name (B "f") :: repeat (Nd KBin [name (B "x"); name (B "y")]) 12))))) [] = B "lenSyntheticArg1_11" /\
  declares (fst (build [] 11 (Nd (KCall true 0) (name (B "f") :: repeat (Nd KBin [name (B "x"); name (B "y")]) 2)))) = map B ["lenSyntheticArg11_0"; "lenSyntheticArg11_1"]%string.
Proof. vm_compute. repeat split; reflexivity. Qed.
