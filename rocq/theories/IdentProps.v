(** C82: the identifiers of functions and the listing of a module's functions. *)
From Verif Require Import Base Maps StaticModel StaticProps ModuleModel IdentModel.
Require Import Permutation Lia.

(** ** What the language guarantees *)

(** An identifier of the language: not empty, of letters, digits, underscores and the bytes
    of other characters. *)
Definition name_byte (c : ascii) : Prop :=
  let n := N_of_ascii c in
  (48 <= n <= 57 \/ 65 <= n <= 90 \/ n = 95 \/ 97 <= n <= 122 \/ 128 <= n)%N.
Definition name (s : bytes) : Prop := s <> [] /\ Forall name_byte s.
Fixpoint good_type (t : rtype) : Prop :=
  match t with RBase n ps => name n /\ Forall name ps | RStar t => good_type t | RParen t => good_type t end.
Definition good_decl (d : fdecl) : Prop :=
  name (fd_name d) /\ (length (fd_recv d) <= 1)%nat /\ Forall good_type (fd_recv d).
(** An import path: not empty and without a colon. *)
Definition path (p : bytes) : Prop := p <> [] /\ ~ In ":"%char p.
(** What the compiler checks of the declarations of one package: no two functions of a name,
    init and the blank name apart, and no two methods of a name for a type, the blank name apart. *)
Definition lawful (ds : list fdecl) : Prop :=
  forall i j a b, nth_error ds i = Some a -> nth_error ds j = Some b -> fd_name a = fd_name b ->
    match fd_recv a, fd_recv b with
    | [], [] => i = j \/ fd_name a = B "init" \/ fd_name a = B "_"
    | t :: _, u :: _ => recv_base t = recv_base u -> i = j \/ fd_name a = B "_"
    | _, _ => True
    end.

Lemma name_no c s : name s -> ~ name_byte c -> ~ In c s.
Proof. intros [_ H] N I. apply N. rewrite Forall_forall in H. auto. Qed.
Ltac notbyte := unfold name_byte; cbn; lia.
Lemma nb_colon : ~ name_byte ":"%char. Proof. notbyte. Qed.
Lemma nb_dot : ~ name_byte "."%char. Proof. notbyte. Qed.
Lemma nb_open : ~ name_byte "["%char. Proof. notbyte. Qed.
Lemma nb_close : ~ name_byte "]"%char. Proof. notbyte. Qed.
Lemma nb_comma : ~ name_byte ","%char. Proof. notbyte. Qed.
Lemma nb_star : ~ name_byte "*"%char. Proof. notbyte. Qed.
Lemma nb_paren : ~ name_byte "("%char. Proof. notbyte. Qed.
Lemma nb_slash : ~ name_byte "/"%char. Proof. notbyte. Qed.

Lemma commas_cons x y l : commas (x :: y :: l) = x ++ ","%char :: " "%char :: commas (y :: l).
Proof. reflexivity. Qed.
Lemma commas_inj : forall l m, l <> [] -> m <> [] -> Forall name l -> Forall name m -> commas l = commas m -> l = m.
Proof.
  induction l as [|x l IH]; intros m Nl Nm Hl Hm E; [contradiction|]. destruct m as [|y m]; [contradiction|].
  inversion Hl as [|? ? Hx Hl']; subst. inversion Hm as [|? ? Hy Hm']; subst.
  destruct l as [|x2 l]; destruct m as [|y2 m].
  - cbn in E. congruence.
  - rewrite commas_cons in E. cbn [commas] in E. exfalso. apply (name_no ","%char x Hx nb_comma). rewrite E. apply in_app_iff. right. left. reflexivity.
  - rewrite commas_cons in E. cbn [commas] in E. exfalso. apply (name_no ","%char y Hy nb_comma). rewrite <- E. apply in_app_iff. right. left. reflexivity.
  - rewrite !commas_cons in E. apply (cut_first ","%char) in E as [-> E]; [|apply (name_no _ _ Hx nb_comma)|apply (name_no _ _ Hy nb_comma)].
    injection E as E. rewrite (IH (y2 :: m)); auto; discriminate.
Qed.

Lemma recv_text_inj : forall t u, good_type t -> good_type u -> recv_text t = recv_text u -> t = u.
Proof.
  assert (forall t, good_type t -> recv_text t <> []) as Ne.
  { intros [n ps|t|t] H; try (cbn; discriminate). destruct H as [[H _] _]. destruct ps; cbn; [exact H|]. destruct n; [contradiction|discriminate]. }
  assert (forall n ps c s, name n -> ~ name_byte c -> recv_text (RBase n ps) <> c :: s) as Hd.
  { intros n ps c s [N F] Hc E. destruct n as [|a n]; [contradiction|]. inversion F; subst. apply Hc.
    destruct ps; cbn in E; injection E; intros; subst; assumption. }
  induction t as [n ps|t IH|t IH]; intros u Ht Hu E.
  - destruct u as [m qs|u|u].
    + destruct Ht as [Hn Hps], Hu as [Hm Hqs].
      destruct ps as [|p ps]; destruct qs as [|q qs]; cbn [recv_text] in E.
      * congruence.
      * exfalso. apply (name_no "["%char n Hn nb_open). rewrite E. apply in_app_iff. right. left. reflexivity.
      * exfalso. apply (name_no "["%char m Hm nb_open). rewrite <- E. apply in_app_iff. right. left. reflexivity.
      * apply (cut_first "["%char) in E as [-> E]; [|apply (name_no _ _ Hn nb_open)|apply (name_no _ _ Hm nb_open)].
        apply app_inv_tail in E. apply commas_inj in E; auto; try discriminate. congruence.
    + exfalso. apply (Hd n ps "*"%char (recv_text u)); [apply Ht|apply nb_star|exact E].
    + exfalso. apply (Hd n ps "("%char (recv_text u ++ B ")")); [apply Ht|apply nb_paren|exact E].
  - destruct u as [m qs|u|u].
    + exfalso. apply (Hd m qs "*"%char (recv_text t)); [apply Hu|apply nb_star|symmetry; exact E].
    + cbn in E. injection E as E. f_equal. apply IH; auto.
    + cbn in E. discriminate.
  - destruct u as [m qs|u|u].
    + exfalso. apply (Hd m qs "("%char (recv_text t ++ B ")")); [apply Hu|apply nb_paren|symmetry; exact E].
    + cbn in E. discriminate.
    + cbn [recv_text] in E. injection E as E. apply app_inv_tail in E. f_equal. apply IH; auto.
Qed.

Lemma recv_text_ne t : good_type t -> recv_text t <> [].
Proof.
  destruct t as [n ps|t|t]; intros H; try (cbn; discriminate). destruct H as [[H _] _].
  destruct ps; cbn; [exact H|]. destruct n; [contradiction|discriminate].
Qed.

(** Two declarations have the same identifier exactly when they are of the same package, have
    the same name, and have the same receiver type as it is written, if any. *)
Theorem C82_same_ident : forall p q a b, path p -> path q -> good_decl a -> good_decl b ->
  (decl_ident p a = decl_ident q b <-> p = q /\ fd_name a = fd_name b /\ fd_recv a = fd_recv b).
Proof.
  intros p q a b [Np Hp] [Nq Hq] (Na & La & Ga) (Nb & Lb & Gb). split.
  - intros E. unfold decl_ident in E.
    apply C54_identifiers_are_injective in E as (E1 & E2 & E3); auto using name_no, nb_dot.
    split; [exact E1|]. split; [exact E3|].
    destruct (fd_recv a) as [|t [|t2 ta]], (fd_recv b) as [|u [|u2 ub]]; cbn in La, Lb; try lia; auto.
    + exfalso. inversion Gb; subst. apply (recv_text_ne u); auto.
    + exfalso. inversion Ga; subst. apply (recv_text_ne t); auto.
    + inversion Ga; inversion Gb; subst. rewrite (recv_text_inj t u); auto.
  - intros (-> & E1 & E2). unfold decl_ident. rewrite E1, E2. reflexivity.
Qed.
Print Assumptions C82_same_ident.

(** In a package that compiles an identifier stands for one declaration, unless it is that of
    several functions called init or of blank ones. *)
Theorem C82_one_declaration : forall p ds i j a b, path p -> Forall good_decl ds -> lawful ds ->
  nth_error ds i = Some a -> nth_error ds j = Some b -> decl_ident p a = decl_ident p b ->
  i = j \/ fd_name a = B "_" \/ (fd_recv a = [] /\ fd_name a = B "init").
Proof.
  intros p ds i j a b Hp G L Ha Hb E. rewrite Forall_forall in G.
  apply C82_same_ident in E as (_ & E1 & E2); auto; try (apply G; eapply nth_error_In; eassumption).
  specialize (L _ _ _ _ Ha Hb E1). rewrite E2 in L. rewrite E2. destruct (fd_recv b) as [|t ts].
  - destruct L as [L|[L|L]]; auto.
  - destruct (L eq_refl); auto.
Qed.
Print Assumptions C82_one_declaration.

(** ** Functions of the program *)

(** What the builder of the program guarantees: a function made from a declaration belongs to
    the package it was declared in; of the others only the initializer of a package, called
    init, has both a package and a name that is one of the language. *)
Definition built (fn : ssafn) : Prop :=
  match sf_syntax fn with
  | SDecl d => good_decl d /\ (exists p, sf_pkg fn = Some p /\ path p)
  | _ => sf_pkg fn = None \/ (exists p, sf_pkg fn = Some p /\ path p /\ ~ In "."%char (sf_name fn) /\ (sf_name fn = B "init" \/ ~ name (sf_name fn)))
  end.

(** The identifier of a function of the program is that of its declaration, and it counts as
    supported exactly when it has one. *)
Theorem C82_program_ident : forall fn,
  snd (ssa_ident fn) = true <-> exists f d, fn = Some f /\ sf_syntax f = SDecl d /\
    forall p, sf_pkg f = Some p -> fst (ssa_ident fn) = decl_ident p d.
Proof.
  intros [f|]; cbn.
  - split.
    + intros H. exists f. destruct (sf_syntax f) as [d| |] eqn:E; try discriminate. exists d. split; [reflexivity|]. split; [first [exact E|reflexivity]|].
      intros p ->. reflexivity.
    + intros (f' & d & E & E1 & _). injection E as <-. rewrite E1. reflexivity.
  - split; [discriminate|]. intros (f' & d & E & _). discriminate.
Qed.
Print Assumptions C82_program_ident.

(** Looking up the identifier of a declaration among the functions of the program finds a
    function of this very declaration's package, name and receiver, or the initializer of the
    package when it is an init function. *)
Theorem C82_lookup : forall f p d, built f -> path p -> good_decl d -> fst (ssa_ident (Some f)) = decl_ident p d ->
  sf_pkg f = Some p /\
  ((exists d', sf_syntax f = SDecl d' /\ fd_name d' = fd_name d /\ fd_recv d' = fd_recv d) \/
   (snd (ssa_ident (Some f)) = false /\ sf_name f = B "init" /\ fd_name d = B "init" /\ fd_recv d = [])).
Proof.
  intros f p d Hb Hp Hd E. pose proof Hd as (Nd & Ld & Gd). pose proof Hp as (Np & Cp). unfold built in Hb. cbn in *.
  assert ((sf_syntax f = SLit \/ sf_syntax f = SNone) -> 
    (sf_pkg f = None \/ (exists p, sf_pkg f = Some p /\ path p /\ ~ In "."%char (sf_name f) /\ (sf_name f = B "init" \/ ~ name (sf_name f)))) ->
    ident_str match sf_pkg f with Some p => p | None => [] end [] (sf_name f) = decl_ident p d ->
    sf_pkg f = Some p /\ sf_name f = B "init" /\ fd_name d = B "init" /\ fd_recv d = []) as Hs.
  { clear E Hb. intros _ [Hn|(q & Hq & [Nq Cq] & Dq & Hn)] E.
    - rewrite Hn in E. unfold decl_ident in E. exfalso. unfold ident_str in E. cbn in E.
      assert (forall s, ":"%char :: sf_name f = p ++ ":"%char :: s -> False) as Hx.
      { intros s Es. apply (cut_first ":"%char [] p) in Es as [Es _]; auto. }
      destruct (beq (match fd_recv d with [] => [] | t :: _ => recv_text t end) []); eapply Hx; exact E.
    - rewrite Hq in *. unfold decl_ident in E. apply C54_identifiers_are_injective in E as (E1 & E2 & E3); auto using name_no, nb_dot.
      subst q. split; [reflexivity|]. destruct Hn as [Hn|Hn]; [|exfalso; apply Hn; rewrite E3; exact Nd].
      split; [exact Hn|]. split; [congruence|]. destruct (fd_recv d) as [|t ts]; [reflexivity|].
      inversion Gd; subst. exfalso. apply (recv_text_ne t); auto. }
  destruct (sf_syntax f) as [d'| |] eqn:Es.
  - destruct Hb as (Gd' & q & Hq & Pq). rewrite Hq in *. cbn in E. apply C82_same_ident in E as (-> & E1 & E2); auto.
    split; [reflexivity|]. left. exists d'. auto.
  - cbn in E. apply Hs in E as (E1 & E2 & E3 & E4); auto. split; [exact E1|]. right. auto.
  - cbn in E. apply Hs in E as (E1 & E2 & E3 & E4); auto. split; [exact E1|]. right. auto.
Qed.
Print Assumptions C82_lookup.

(** Go iterates over the functions of the graph in any order.  The function taken for a changed
    one (lens/static.go:37-54) is the same in every order if only one has the identifier. *)
Theorem C82_any_order : forall info nodes nodes' id n,
  Permutation nodes nodes' -> In n nodes -> f_nil (info n) = false -> f_ident (info n) = id ->
  (forall m, In m nodes -> f_ident (info m) = id -> m = n) ->
  node_of info nodes id = Some n /\ node_of info nodes' id = Some n.
Proof.
  intros info nodes nodes' id n P I F E U.
  assert (forall l, Permutation nodes l -> node_of info l id = Some n) as H.
  { intros l Pl. unfold node_of. destruct (find _ (rev l)) as [m|] eqn:Ef.
    - apply find_some in Ef as [Im Em]. apply beq_true in Em. apply in_rev in Im.
      rewrite (U m); [rewrite F; reflexivity| |exact Em]. eapply Permutation_in; [symmetry; exact Pl|exact Im].
    - exfalso. apply (find_none _ _) with (x := n) in Ef.
      + rewrite E, beq_refl in Ef. discriminate.
      + apply -> in_rev. eapply Permutation_in; [exact Pl|exact I]. }
  split; apply H; auto.
Qed.
Print Assumptions C82_any_order.

(** Which function is taken for a changed init function depends on the order: the declared
    functions called init and the initializer of the package share one identifier. *)
Theorem C82_init_order_refuted : exists fns : nat -> ssafn, exists info,
  (forall n, built (fns n)) /\
  (forall n, f_nil (info n) = false /\ f_ident (info n) = fst (ssa_ident (Some (fns n)))) /\
  node_of info [0; 1]%nat (B "m:init") = Some 1%nat /\ node_of info [1; 0]%nat (B "m:init") = Some 0%nat.
Proof.
  set (d := FDecl [] (B "init") [] (Some (B "func init() {}")) 1 [] false).
  set (fns := fun n => match n with
     | O => Fn (Some (B "m")) (B "init") SNone None
     | _ => Fn (Some (B "m")) (B "init#1") (SDecl d) (Some (B "m.go")) end).
  exists fns, (fun n => FnInfo false true (fst (ssa_ident (Some (fns n)))) false [] (Some false) None false false).
  assert (path (B "m")) as Hp.
  { split; [discriminate|]. intros [H|[]]. discriminate. }
  split; [|repeat split].
  intros [|n]; cbn.
  - right. exists (B "m"). split; [reflexivity|]. split; [exact Hp|]. split; [|left; reflexivity].
    cbn. intros H. repeat destruct H as [H|H]; try discriminate; contradiction.
  - split; [|exists (B "m"); auto]. split; [|split; [cbn; lia|constructor]].
    split; [discriminate|]. cbn. repeat constructor; unfold name_byte; cbn; lia.
Qed.
Print Assumptions C82_init_order_refuted.

(** ** The listing *)

(** The functions listed for a module are exactly the declarations of its files that can be
    printed, each with the data of its own package and file, whether or not the package has
    errors. *)
Theorem C82_listed : forall module pkgs m, In m (list_functions module pkgs) <->
  exists p f d text, In p pkgs /\ In f (p_syntax p) /\ In (Some d) (fl_decls f) /\ fd_text d = Some text /\
    m = MFun (fl_name f) (p_path p) (decl_ident (p_path p) d) (fd_name d) (fd_entry d) (fd_rets d) (fd_panic d)
          (fd_doc d ++ text) module.
Proof.
  intros module pkgs m. unfold list_functions. rewrite in_flat_map. split.
  - intros (p & Hp & H). destruct (_ && _); [destruct H|]. apply in_flat_map in H as (f & Hf & H).
    apply in_flat_map in H as ([d|] & Hd & H); [|destruct H]. unfold list_decl in H.
    destruct (fd_text d) as [text|] eqn:E; [|destruct H]. destruct H as [<-|[]]. exists p, f, d, text. auto.
  - intros (p & f & d & text & Hp & Hf & Hd & Ht & ->). exists p. split; [exact Hp|].
    destruct (p_syntax p) as [|f0 fs] eqn:Es; [destruct Hf|]. rewrite Bool.andb_false_r.
    apply in_flat_map. exists f. split; [exact Hf|]. apply in_flat_map. exists (Some d). split; [exact Hd|].
    unfold list_decl. rewrite Ht. left. reflexivity.
Qed.
Print Assumptions C82_listed.

(** They come in the order of the sources: packages, files and declarations. *)
Theorem C82_order : forall module a b path errs fs gs nm ds es,
  list_functions module (a ++ b) = list_functions module a ++ list_functions module b /\
  list_functions module [Package path 0 (fs ++ gs)] =
    list_functions module [Package path errs fs] ++ list_functions module [Package path 0 gs] /\
  list_functions module [Package path 0 [File nm (ds ++ es)]] =
    list_functions module [Package path 0 [File nm ds]] ++ list_functions module [Package path 0 [File nm es]].
Proof.
  intros. unfold list_functions. rewrite flat_map_app. split; [reflexivity|]. cbn. rewrite !app_nil_r. split.
  - rewrite flat_map_app. destruct fs; cbn; [rewrite Bool.andb_true_r; destruct errs; reflexivity|].
    rewrite Bool.andb_false_r. reflexivity.
  - rewrite flat_map_app. reflexivity.
Qed.
Print Assumptions C82_order.

(** The definitions listed contain the documentation, those compared for changes do not
    (lens/module.go:654): two versions that differ in a comment only are listed with different
    definitions although the function did not change. *)
Theorem C82_documentation_refuted : exists old new,
  file_functions (B "m") [Some old] = file_functions (B "m") [Some new] /\ file_functions (B "m") [Some new] <> None /\
  map mf_def (list_functions (B "m") [Package (B "m") 0 [File (B "m.go") [Some old]]]) <>
  map mf_def (list_functions (B "m") [Package (B "m") 0 [File (B "m.go") [Some new]]]).
Proof.
  exists (FDecl [] (B "F") (B "// F is.") (Some (B "func F() {}")) 1 [] false).
  exists (FDecl [] (B "F") (B "// F was.") (Some (B "func F() {}")) 1 [] false).
  split; [reflexivity|]. split; discriminate.
Qed.
Print Assumptions C82_documentation_refuted.

(** ** Functions that cannot be printed *)

Lemma file_fold path ds : forall l e,
  fst (fold_left (file_step path) ds (l, e)) =
    l ++ flat_map (fun d => match d with Some d => match fd_text d with Some t => [(decl_ident path d, t)] | None => [] end | None => [] end) ds.
Proof.
  induction ds as [|[d|] ds IH]; intros l e; cbn; [rewrite app_nil_r; reflexivity| |apply IH].
  destruct (fd_text d); rewrite IH; cbn; [rewrite <- app_assoc|]; reflexivity.
Qed.
Lemma fold_none path es : forall st, (forall x, In x es -> x = None) -> fold_left (file_step path) es st = st.
Proof. induction es as [|x es IH]; intros st H; [reflexivity|]. cbn. rewrite (H x (or_introl eq_refl)). apply IH. intros y Hy. apply H. right. exact Hy. Qed.

(** The functions of a file are compared unless printing fails for the last function of the
    file: only then is there an error. *)
Theorem C82_error_of_last : forall path ds,
  (file_functions path ds = None <->
    exists ds1 d es, ds = ds1 ++ Some d :: es /\ (forall x, In x es -> x = None) /\ fd_text d = None) /\
  (forall l, file_functions path ds = Some l -> forall id text,
     In (id, text) l <-> exists d, In (Some d) ds /\ decl_ident path d = id /\ fd_text d = Some text).
Proof.
  intros path ds. split.
  - unfold file_functions. destruct (fold_left (file_step path) ds ([], false)) as [l e] eqn:E. split.
    + destruct e; [intros _|discriminate]. revert l E. induction ds as [|x ds IH] using rev_ind; intros l E; [discriminate|].
      rewrite fold_left_app in E. cbn in E. destruct (fold_left (file_step path) ds ([], false)) as [l0 e0] eqn:E0.
      destruct x as [d|].
      * exists ds, d, []. split; [reflexivity|]. split; [intros x []|]. cbn in E. destruct (fd_text d); [discriminate|reflexivity].
      * cbn in E. injection E as -> ->. destruct (IH l eq_refl) as (ds1 & d & es & -> & Hn & Hd).
        exists ds1, d, (es ++ [None]). rewrite <- app_assoc. split; [reflexivity|]. split; [|exact Hd].
        intros x Hx. apply in_app_iff in Hx as [Hx|[Hx|[]]]; auto.
    + intros (ds1 & d & es & -> & Hn & Hd). rewrite fold_left_app in E. cbn in E. rewrite fold_none in E by exact Hn.
      destruct (fold_left (file_step path) ds1 ([], false)) as [l0 e0]. cbn in E. rewrite Hd in E. injection E as _ <-. reflexivity.
  - intros l H id text. unfold file_functions in H. pose proof (file_fold path ds [] false) as F.
    destruct (fold_left (file_step path) ds ([], false)) as [l0 e0]. destruct e0; [discriminate|]. injection H as <-. cbn in F. subst l0.
    rewrite in_flat_map. split.
    + intros ([d|] & Hd & H); [|destruct H]. destruct (fd_text d) as [t|] eqn:Et; [|destruct H]. destruct H as [H|[]].
      injection H as H1 H2. exists d. subst. auto.
    + intros (d & Hd & H1 & H2). exists (Some d). split; [exact Hd|]. rewrite H2. left. congruence.
Qed.
Print Assumptions C82_error_of_last.

(** So a function that cannot be printed is dropped without an error if another one follows in
    its file. *)
Theorem C82_print_error_lost_refuted : exists d e l, fd_text d = None /\
  file_functions (B "m") [Some d; Some e] = Some l /\ ~ In (decl_ident (B "m") d) (map fst l).
Proof.
  exists (FDecl [] (B "F") [] None 1 [] false), (FDecl [] (B "G") [] (Some (B "func G() {}")) 1 [] false).
  eexists. split; [reflexivity|]. split; [reflexivity|]. intros [H|[]]. discriminate.
Qed.
Print Assumptions C82_print_error_lost_refuted.

(** ** Renamed type parameters *)

(** The compiler tells methods apart by the base type, identifiers by the receiver as it is
    written.  If a new version writes the receiver of a method differently (another name for a
    type parameter, a pointer for a value), a change of its body is not found. *)
Theorem C82_receiver_rewritten_refuted : exists old new : fdecl, exists fo fn,
  good_decl old /\ good_decl new /\ fd_name old = fd_name new /\
  map recv_base (fd_recv old) = map recv_base (fd_recv new) /\
  file_functions (B "m") [Some old] = Some fo /\ file_functions (B "m") [Some new] = Some fn /\ map snd fo <> map snd fn /\
  exists pkgs calls, analyze_module (fun _ _ => []) (fun _ v => if beq v (B "v1") then Some (Loaded [Pkg (B "m") [fo]] [GoMod [] []])
       else Some (Loaded [Pkg (B "m") [fn]] [GoMod [] []]))
    [] (fun _ _ l => l) (fun _ l => l) false 0 (Change (B "m") (B "v1") (B "v2") false []) = Some ([], pkgs, calls).
Proof.
  exists (FDecl [RStar (RBase (B "Set") [B "T"])] (B "Len") [] (Some (B "func (s *Set[T]) Len() int { return s.n }")) 1 [] false).
  exists (FDecl [RStar (RBase (B "Set") [B "E"])] (B "Len") [] (Some (B "func (s *Set[E]) Len() int { return 0 }")) 1 [] false).
  eexists _, _.
  assert (forall s, s <> [] -> forallb (fun c => let n := N_of_ascii c in
      ((48 <=? n) && (n <=? 57) || (65 <=? n) && (n <=? 90) || (n =? 95) || (97 <=? n) && (n <=? 122) || (128 <=? n))%N) s = true -> name s) as Hn.
  { intros s Ns Hs. split; [exact Ns|]. rewrite Forall_forall. intros c Hc. rewrite forallb_forall in Hs. specialize (Hs c Hc).
    cbn zeta in Hs. unfold name_byte. rewrite !Bool.orb_true_iff, !Bool.andb_true_iff, !N.leb_le, N.eqb_eq in Hs. lia. }
  split; [|split].
  1,2: (split; [apply Hn; [discriminate|reflexivity]|]; split; [cbn; lia|]; constructor; [|constructor];
        cbn; split; [apply Hn; [discriminate|reflexivity]|]; constructor; [|constructor]; apply Hn; [discriminate|reflexivity]).
  split; [reflexivity|]. split; [reflexivity|]. split; [reflexivity|]. split; [reflexivity|]. split; [discriminate|].
  eexists _, _. reflexivity.
Qed.
Print Assumptions C82_receiver_rewritten_refuted.

(** ** Names for people *)

Lemma last_slash_none s : ~ In "/"%char s -> last_slash s = None.
Proof.
  induction s as [|c s IH]; intros H; [reflexivity|]. cbn. rewrite IH by (intros I; apply H; right; exact I).
  destruct (ascii_dec c "/"%char) as [->|]; [|reflexivity]. exfalso. apply H. left. reflexivity.
Qed.
Lemma last_slash_at dir rest : ~ In "/"%char rest -> last_slash (dir ++ "/"%char :: rest) = Some (length dir).
Proof.
  intros H. induction dir as [|c dir IH]; cbn [app last_slash length].
  - rewrite last_slash_none by exact H. destruct (ascii_dec "/"%char "/"%char); [reflexivity|contradiction].
  - rewrite IH. reflexivity.
Qed.

(** The short identifier is the identifier in a package called by the last element of the path. *)
Theorem C82_short : forall dir base d, good_decl d -> dir <> [] -> ~ In "/"%char base ->
  short_ident (decl_ident (dir ++ "/"%char :: base) d) = decl_ident base d /\ short_ident (decl_ident base d) = decl_ident base d.
Proof.
  intros dir base d (Nd & _ & Gd) Hdir Hb.
  assert (exists tl, ~ In "/"%char tl /\ forall p, decl_ident p d = p ++ tl) as (tl & Ht & E).
  { unfold decl_ident, ident_str. set (r := match fd_recv d with [] => [] | t :: _ => recv_text t end).
    assert (~ In "/"%char r) as Hr.
    { subst r. destruct (fd_recv d) as [|t ts]; [intros []|]. inversion Gd as [|? ? Gt _]; subst. clear - Gt.
      induction t as [n ps|t IH|t IH]; cbn [good_type recv_text] in *.
      - destruct Gt as [Gn Gp]. destruct ps as [|q ps]; [apply (name_no _ _ Gn nb_slash)|].
        rewrite in_app_iff. intros [H|[H|H]]; [apply (name_no _ _ Gn nb_slash H)|discriminate|].
        rewrite in_app_iff in H. destruct H as [H|[H|[]]]; [|discriminate].
        revert q Gp H. induction ps as [|x ps IH]; intros q Gp H; inversion Gp; subst.
        + cbn in H. eapply name_no; [eassumption|apply nb_slash|exact H].
        + rewrite commas_cons in H. rewrite in_app_iff in H. destruct H as [H|[H|[H|H]]]; try discriminate.
          * eapply name_no; [eassumption|apply nb_slash|exact H].
          * eapply IH; eassumption.
      - intros [H|H]; [discriminate|exact (IH Gt H)].
      - intros [H|H]; [discriminate|]. rewrite in_app_iff in H. destruct H as [H|[H|[]]]; [exact (IH Gt H)|discriminate]. }
    destruct (beq r []) eqn:Er.
    - exists (":"%char :: fd_name d). split; [intros [H|H]; [discriminate|exact (name_no _ _ Nd nb_slash H)]|]. intros p. match goal with |- context [if ?c then _ else _] => change c with (beq r []) end; rewrite Er. reflexivity.
    - exists (":"%char :: r ++ "."%char :: fd_name d). split; [|intros p; match goal with |- context [if ?c then _ else _] => change c with (beq r []) end; rewrite Er; reflexivity].
      intros [H|H]; [discriminate|]. rewrite in_app_iff in H. destruct H as [H|[H|H]]; [auto|discriminate|exact (name_no _ _ Nd nb_slash H)]. }
  rewrite !E. assert (~ In "/"%char (base ++ tl)) as Hbt. { rewrite in_app_iff. intros [H|H]; auto. }
  split; unfold short_ident.
  - rewrite <- app_assoc. cbn [app]. rewrite (last_slash_at dir (base ++ tl)) by exact Hbt.
    destruct dir as [|c dir]; [contradiction|]. cbn [length].
    change (skipn (S (S (length dir))) ((c :: dir) ++ "/"%char :: base ++ tl)) with (skipn (S (length dir)) (dir ++ "/"%char :: base ++ tl)).
    clear. induction dir as [|c dir IH]; [reflexivity|]. exact IH.
  - rewrite last_slash_none by exact Hbt. reflexivity.
Qed.
Print Assumptions C82_short.

(** Functions of different packages can have the same short identifier. *)
Theorem C82_short_refuted : exists p q d, path p /\ path q /\ good_decl d /\ p <> q /\
  short_ident (decl_ident p d) = short_ident (decl_ident q d).
Proof.
  exists (B "a/x"), (B "b/x"), (FDecl [] (B "F") [] None 1 [] false).
  repeat split; try discriminate; cbn; try lia; try (intros H; repeat destruct H as [H|H]; try discriminate; contradiction);
    repeat constructor; unfold name_byte; cbn; lia.
Qed.
Print Assumptions C82_short_refuted.

Example C82_example :
  let t := RStar (RBase (B "Set") (map B ["K"; "V"]%string)) in
  let m := FDecl [t] (B "Len") (B "// Len.") (Some (B "func (s *Set[K, V]) Len() int")) 7 [Ret 8 0] false in
  let f := FDecl [] (B "init") [] (Some (B "func init()")) 9 [] false in
  let g := FDecl [] (B "G") [] None 11 [] false in
  decl_ident (B "a/b") m = B "a/b:*Set[K, V].Len" /\
  ssa_ident (Some (Fn (Some (B "a/b")) (B "Len") (SDecl m) (Some (B "s.go")))) = (B "a/b:*Set[K, V].Len", true) /\
  ssa_ident (Some (Fn (Some (B "a/b")) (B "Len$1") SLit (Some (B "s.go")))) = (B "a/b:Len$1", false) /\
  ssa_ident (Some (Fn None (B "Len") SNone None)) = (B ":Len", false) /\ ssa_ident None = ([], false) /\
  ssa_file (Some (Fn None (B "Len") SNone None)) = [] /\
  map mf_ident (list_functions (B "m") [Package (B "e") 2 []; Package (B "a/b") 1 [File (B "s.go") [Some m; None; Some g; Some f]]])
    = map B ["a/b:*Set[K, V].Len"; "a/b:init"]%string /\
  file_functions (B "a/b") [Some m; Some g] = None /\
  joined_idents (map B ["x/a/b:F"; "c:G"]%string) = B "b:F, c:G" /\ short_ident (B "/F") = B "/F".
Proof. repeat split. Qed.

(** A package of three functions and two methods that meets the hypotheses of [C82_one_declaration]. *)
Example C82_lawful_example :
  let mk r n := FDecl r n [] None 1 [] false in
  lawful [mk [] (B "init"); mk [] (B "F"); mk [] (B "init"); mk [RStar (RBase (B "T") [])] (B "F"); mk [RBase (B "U") []] (B "F")].
Proof.
  intros mk i j a b Ha Hb E.
  destruct i as [|[|[|[|[|i]]]]]; cbn in Ha; [..|destruct i; discriminate]; injection Ha as <-;
  (destruct j as [|[|[|[|[|j]]]]]; cbn in Hb; [..|destruct j; discriminate]; injection Hb as <-);
  cbn in *; try discriminate; auto; intros; try discriminate; auto.
Qed.
