(** C80: a function gets its return points once. *)
From Verif Require Import Base ChartModel EditModel.
From Coq Require Import Permutation.
Local Open Scope nat_scope.

(** ** What the statements use *)
(** The [n]-th function of the file as the editor has it, or would read it. *)
Definition fun_at (e : ed) (n : nat) : option decl := nth_error (n_decls (load e)) n.
(** How often the [k]-th return has a point. *)
Definition times (k : nat) (d : decl) : nat := length (filter (fun p => match p with PState j _ => j =? k | PFun _ => false end) (d_points d)).
Definition ids_of (d : decl) : list N := map (fun p => match p with PState _ i => i | PFun i => i end) (d_points d).
Definition all_ids (e : ed) : list N := flat_map ids_of (n_decls (load e)).
Definition fresh (k : disk) (c : N) : ed := Ed k None c.
Definition no_states (d : decl) : Prop := forall j i, ~ In (PState j i) (d_points d).
Definition mentions (s : bytes) : Prop := exists a b, s = a ++ mark ++ b.

(** ** Lists of functions *)
Lemma nth_upd f ds : forall i j, nth_error (upd ds i f) j = if i =? j then option_map f (nth_error ds j) else nth_error ds j.
Proof.
  induction ds as [|d ds IH]; intros i j; cbn [upd].
  - destruct j; cbn; destruct (i =? _); reflexivity.
  - destruct i as [|i], j as [|j]; cbn; try reflexivity. apply IH.
Qed.
Lemma find_ids ds : forall ds' id, map d_id ds = map d_id ds' -> find_last ds id = find_last ds' id.
Proof.
  induction ds as [|d ds IH]; intros [|d' ds'] id E; try discriminate; [reflexivity|]. cbn in E. injection E as E1 E2. cbn. rewrite (IH ds' id E2), E1. reflexivity.
Qed.
Lemma upd_ids f ds : (forall d, d_id (f d) = d_id d) -> forall i, map d_id (upd ds i f) = map d_id ds.
Proof. intros H. induction ds as [|d ds IH]; intros i; [reflexivity|]. destruct i; cbn; [rewrite H; reflexivity|rewrite IH; reflexivity]. Qed.
Lemma find_nth ds id : forall i, find_last ds id = Some i -> exists d, nth_error ds i = Some d /\ d_id d = id.
Proof.
  induction ds as [|d ds IH]; intros i E; [discriminate|]. cbn in E. destruct (find_last ds id) as [j|] eqn:F.
  - injection E as <-. apply IH. reflexivity.
  - destruct (beq_spec (d_id d) id) as [<-|]; [|discriminate]. injection E as <-. exists d. auto.
Qed.
Lemma infix_spec p s : is_infix p s = true <-> exists a b, s = a ++ p ++ b.
Proof.
  induction s as [|c s IH]; cbn [is_infix].
  - rewrite orb_false_r. rewrite has_prefix_spec. split; [intros (r & E); exists [], r; exact E|]. intros (a & b & E). exists b. destruct a; [exact E|discriminate].
  - rewrite orb_true_iff, has_prefix_spec, IH. split.
    + intros [(r & E)|(a & b & ->)]; [exists [], r; exact E|exists (c :: a), b; reflexivity].
    + intros (a & b & E). destruct a as [|x a]; [left; exists b; exact E|]. right. cbn in E. injection E as _ E. exists a, b. exact E.
Qed.
Lemma marked_spec d : marked d = true <-> exists s, In s (d_doc d) /\ mentions s.
Proof. unfold marked. rewrite existsb_exists. split; intros (s & I & H); exists s; (split; [exact I|]); apply infix_spec; exact H. Qed.
Lemma marked_add d : marked (add_mark d) = true.
Proof. apply marked_spec. exists (B "// " ++ mark). split; [cbn; apply in_or_app; right; left; reflexivity|]. exists (B "// "), []. rewrite app_nil_r. reflexivity. Qed.
Lemma marked_doc d : marked d = true -> d_doc d <> [].
Proof. intros H E. unfold marked in H. rewrite E in H. discriminate. Qed.

(** ** Ids *)
Lemma next_spec c : match next c with
  | None => (c + 1) mod 4294967296 = 0 /\ c <> 0
  | Some (i, c') => i < c' /\ c <= i /\ (c = 0 -> i = 1) /\ (c <> 0 -> i = c) /\ i <> 0 /\ c' = i + 1 end%N.
Proof. unfold next. destruct (N.eqb_spec c 0) as [->|N]; [lia|]. destruct (N.eqb_spec ((c + 1) mod 4294967296) 0); [auto|lia]. Qed.
Lemma draw_spec n : forall c, let '(ids, c', ok) := draw n c in
  length ids <= n /\ (ok = true -> length ids = n) /\ (ok = false -> next c' = None) /\ NoDup ids /\ (c <= c')%N /\ (forall i, In i ids -> c <= i < c' /\ i <> 0)%N.
Proof.
  induction n as [|n IH]; intros c; cbn [draw].
  - repeat split; auto; try discriminate; try (constructor); try lia; destruct H.
  - pose proof (next_spec c) as Hn. destruct (next c) as [[i c1]|] eqn:E.
    + specialize (IH c1). destruct (draw n c1) as [[l c2] ok]. destruct IH as (A & B & C & D & E1 & F). cbn [length].
      split; [lia|]. split; [intros Hok; rewrite (B Hok); reflexivity|]. split; [exact C|]. split; [constructor; [|exact D]; intros I; apply F in I; lia|]. split; [lia|].
      intros j [<-|I]; [lia|]. apply F in I. lia.
    + cbn. repeat split; auto; try discriminate; try (constructor); try lia; destruct H.
Qed.
Lemma draw_stuck n c : next c = None -> draw (S n) c = ([], c, false).
Proof. intros E. cbn. rewrite E. reflexivity. Qed.
Lemma draw_room n : forall c, (N.max 1 c + N.of_nat n < 4294967296)%N -> exists ids c', draw n c = (ids, c', true) /\ length ids = n /\ (N.max 1 c' <= N.max 1 c + N.of_nat n)%N.
Proof.
  induction n as [|n IH]; intros c H; [exists [], c; cbn; split; [reflexivity|]; split; [reflexivity|]; lia|]. cbn [draw]. unfold next. destruct (N.eqb_spec c 0) as [->|Nz].
  - destruct (IH 2%N) as (l & c' & E & L & H1); [lia|]. rewrite E. exists (1%N :: l), c'. split; [reflexivity|]. cbn [length]. split; lia.
  - destruct (N.eqb_spec ((c + 1) mod 4294967296) 0) as [E|_]; [rewrite N.mod_small in E by lia; lia|]. destruct (IH (c + 1)%N) as (l & c' & E & L & H1); [lia|]. rewrite E. exists (c :: l), c'. split; [reflexivity|]. cbn [length]. split; lia.
Qed.

(** ** Points *)
Lemma times_add k ps d : times k (add_points ps d) = times k d + length (filter (fun p => match p with PState j _ => j =? k | PFun _ => false end) ps).
Proof. unfold times. cbn. rewrite filter_app, app_length. reflexivity. Qed.
Lemma times_states k ids : length (filter (fun p => match p with PState j _ => j =? k | PFun _ => false end) (state_points ids)) = if k <? length ids then 1 else 0.
Proof.
  unfold state_points. assert (forall s, length (filter (fun p => match p with PState j _ => j =? k | PFun _ => false end) (map (fun ki => PState (fst ki) (snd ki)) (combine (seq s (length ids)) ids))) = if (s <=? k) && (k <? s + length ids) then 1 else 0) as G.
  { induction ids as [|i ids IH]; intros s; cbn [length seq combine map filter fst snd].
    - destruct (s <=? k) eqn:A; [|reflexivity]. destruct (k <? s + 0) eqn:B; [|reflexivity]. apply Nat.leb_le in A. apply Nat.ltb_lt in B. lia.
    - destruct (Nat.eqb_spec s k) as [->|N]; cbn [length]; rewrite IH.
      + destruct (S k <=? k) eqn:A; [apply Nat.leb_le in A; lia|]. cbn [andb]. rewrite Nat.leb_refl. destruct (k <? k + S (length ids)) eqn:B; [reflexivity|]. apply Nat.ltb_ge in B. lia.
      + destruct (S s <=? k) eqn:A, (s <=? k) eqn:A'; try (apply Nat.leb_le in A); try (apply Nat.leb_le in A'); try (apply Nat.leb_gt in A); try (apply Nat.leb_gt in A'); try lia; cbn [andb]; try reflexivity.
        replace (S s + length ids) with (s + S (length ids)) by lia. reflexivity. }
  rewrite (G 0). reflexivity.
Qed.
Lemma times_zero d : no_states d -> forall k, times k d = 0.
Proof.
  intros H k. unfold times. replace (filter _ (d_points d)) with (@nil pt); [reflexivity|]. symmetry. unfold no_states in H. induction (d_points d) as [|p l IH]; [reflexivity|]. cbn. destruct p as [j i|i].
  - destruct (H j i). left. reflexivity.
  - apply IH. intros j i' I. apply (H j i'). right. exact I.
Qed.

(** ** One step *)
Definition reread (n : node) (d : decl) : decl :=
  let doc := if n_comments n && negb (d_linked d) then [] else d_doc d in
  Decl (d_id d) doc (match doc with [] => false | _ => true end) (d_body d) (d_rets d) (d_points d).
Lemma parse_print n : n_decls (parse (print n)) = map (reread n) (n_decls n).
Proof. unfold parse, print. cbn. rewrite map_map. apply map_ext. intros d. reflexivity. Qed.
Definition gets (e : ed) (o : op) (e' : ed) (d d' : decl) : Prop :=
  d' = d \/
  (exists id p, o = DoPoint id /\ d_id d = id /\ next (e_next e) = Some (p, e_next e') /\ d' = add_points [PFun p] d) \/
  (exists id ids ok, o = DoStates id /\ d_id d = id /\ d_body d = true /\ marked d = false /\ draw (Nat.max 1 (d_rets d)) (e_next e) = (ids, e_next e', ok) /\
     d' = if ok then add_mark (add_points (state_points ids) d) else add_points (state_points ids) d) \/
  (o = DoCommit /\ d' = reread (load e) d).
Lemma step_view e o n : match fun_at e n with
  | None => fun_at (fst (step e o)) n = None
  | Some d => exists d', fun_at (fst (step e o)) n = Some d' /\ gets e o (fst (step e o)) d d'
  end.
Proof.
  unfold fun_at. destruct o as [id|id| |]; cbn [step].
  - remember (load e) as nd eqn:En. destruct (find_last (n_decls nd) id) as [i|] eqn:F; [|cbn; destruct (nth_error (n_decls nd) n) as [d|]; [exists d; split; [reflexivity|left; reflexivity]|reflexivity]].
    destruct (find_nth _ _ _ F) as (d0 & E0 & I0). rewrite E0. destruct (d_body d0) eqn:Eb; cbn [negb]; [|cbn; destruct (nth_error (n_decls nd) n) as [d|]; [exists d; split; [reflexivity|left; reflexivity]|reflexivity]].
    destruct (marked d0) eqn:Em; [cbn; destruct (nth_error (n_decls nd) n) as [d|]; [exists d; split; [reflexivity|left; reflexivity]|reflexivity]|].
    destruct (draw (Nat.max 1 (d_rets d0)) (e_next e)) as [[ids c] ok] eqn:Ed. cbn [fst load e_node n_decls e_next]. rewrite nth_upd. destruct (Nat.eqb_spec i n) as [->|Nn].
    + rewrite E0. cbn [option_map]. eexists. split; [reflexivity|]. right. right. left. exists id, ids, ok. repeat split; auto.
    + destruct (nth_error (n_decls nd) n) as [d|]; [exists d; split; [reflexivity|left; reflexivity]|reflexivity].
  - remember (load e) as nd eqn:En. destruct (find_last (n_decls nd) id) as [i|] eqn:F; [|cbn; destruct (nth_error (n_decls nd) n) as [d|]; [exists d; split; [reflexivity|left; reflexivity]|reflexivity]].
    destruct (find_nth _ _ _ F) as (d0 & E0 & I0). rewrite E0. destruct (d_body d0) eqn:Eb; cbn [negb]; [|cbn; destruct (nth_error (n_decls nd) n) as [d|]; [exists d; split; [reflexivity|left; reflexivity]|reflexivity]].
    destruct (next (e_next e)) as [[p c]|] eqn:Ex; [|cbn; destruct (nth_error (n_decls nd) n) as [d|]; [exists d; split; [reflexivity|left; reflexivity]|reflexivity]].
    cbn [fst load e_node n_decls e_next]. rewrite nth_upd. destruct (Nat.eqb_spec i n) as [->|Nn].
    + rewrite E0. cbn [option_map]. eexists. split; [reflexivity|]. right. left. exists id, p. repeat split; auto.
    + destruct (nth_error (n_decls nd) n) as [d|]; [exists d; split; [reflexivity|left; reflexivity]|reflexivity].
  - destruct e as [k [nd|] c]; cbn [load e_node e_disk fst].
    + rewrite parse_print, nth_error_map. destruct (nth_error (n_decls nd) n) as [d|]; cbn [option_map]; [|reflexivity]. eexists. split; [reflexivity|]. right. right. right. split; reflexivity.
    + destruct (nth_error (n_decls (parse k)) n) as [d|]; [|reflexivity]. exists d. split; [reflexivity|left; reflexivity].
  - destruct (next (e_next e)) as [[p c]|]; cbn [fst]; [change (load (Ed (e_disk e) (e_node e) c)) with (load e)|]; (destruct (nth_error (n_decls (load e)) n) as [d|]; [exists d; split; [reflexivity|left; reflexivity]|reflexivity]).
Qed.
Lemma stuck_step e o : next (e_next e) = None -> e_next (fst (step e o)) = e_next e.
Proof.
  intros H. destruct o as [id|id| |]; cbn [step].
  - destruct (find_last _ _) as [i|]; [|reflexivity]. destruct (nth_error _ _) as [d|]; [|reflexivity]. destruct (d_body d); [|reflexivity]. destruct (marked d); [reflexivity|]. cbn [negb]. destruct (Nat.max 1 (d_rets d)) as [|m] eqn:Em; [lia|]. rewrite draw_stuck by exact H. reflexivity.
  - destruct (find_last _ _) as [i|]; [|reflexivity]. destruct (nth_error _ _) as [d|]; [|reflexivity]. destruct (d_body d); [|reflexivity]. cbn [negb]. rewrite H. reflexivity.
  - destruct (e_node e); reflexivity.
  - rewrite H. reflexivity.
Qed.
Lemma step_keeps e o : o <> DoCommit -> n_comments (load (fst (step e o))) = n_comments (load e) /\ map d_id (n_decls (load (fst (step e o)))) = map d_id (n_decls (load e)).
Proof.
  intros No. destruct o as [i|i| |]; [| |contradiction|]; cbn [step].
  - destruct (find_last _ _) as [x|]; [|auto]. destruct (nth_error _ _) as [y|]; [|auto]. destruct (d_body y); [|auto]. destruct (marked y); [auto|]. cbn [negb]. destruct (draw _ _) as [[? ?] ok]. cbn [fst load e_node n_decls n_comments]. split; [reflexivity|]. apply upd_ids. intros z. destruct ok; reflexivity.
  - destruct (find_last _ _) as [x|]; [|auto]. destruct (nth_error _ _) as [y|]; [|auto]. destruct (d_body y); [|auto]. cbn [negb]. destruct (next _) as [[? ?]|]; [|auto]. cbn [fst load e_node n_decls n_comments]. split; [reflexivity|]. apply upd_ids. reflexivity.
  - destruct (next _) as [[? ?]|]; auto.
Qed.
Lemma run_app e a b : run e (a ++ b) = run (run e a) b.
Proof. apply fold_left_app. Qed.
Lemma run_inv (P : ed -> Prop) os : (forall e o, In o os -> P e -> P (fst (step e o))) -> forall e, P e -> P (run e os).
Proof.
  induction os as [|o os IH]; intros H e He; [exact He|]. cbn. apply IH; [intros x y I; apply H; right; exact I|]. apply H; [left; reflexivity|exact He].
Qed.

(** ** At most once *)
Lemma doc_gets e o e' d d' : gets e o e' d d' -> d_linked d = true -> d_doc d <> [] -> d_linked d' = true /\ d_doc d' <> [] /\ (marked d = true -> marked d' = true).
Proof.
  intros [->|[(id & p & _ & _ & _ & ->)|[(id & ids & ok & _ & _ & _ & _ & _ & ->)|(_ & ->)]]] L D.
  - auto.
  - auto.
  - destruct ok; [|auto]. cbn [add_mark d_linked d_doc]. split; [exact L|]. split; [intros X; apply app_eq_nil in X as [_ X]; discriminate|]. intros _. apply marked_add.
  - unfold reread. rewrite L, andb_false_r. cbn [d_linked d_doc]. destruct (d_doc d) as [|x l] eqn:E; [contradiction|]. split; [reflexivity|]. split; [discriminate|]. unfold marked. cbn [d_doc]. rewrite E. auto.
Qed.
Definition at_most_once (e : ed) (d : decl) : Prop := (forall k, times k d <= 1) /\ (marked d = true \/ (forall k, times k d = 0) \/ next (e_next e) = None).
Lemma once_gets e o d d' : gets e o (fst (step e o)) d d' -> (marked d = true -> marked d' = true) -> at_most_once e d -> at_most_once (fst (step e o)) d'.
Proof.
  intros G M (T & H). destruct G as [->|[(id & p & -> & I & Ex & ->)|[(id & ids & ok & -> & I & Eb & Em & Ed & ->)|(-> & ->)]]].
  - split; [exact T|]. destruct H as [H|[H|H]]; auto. right. right. rewrite stuck_step; exact H.
  - split; [intros k; rewrite times_add; cbn; rewrite Nat.add_0_r; apply T|]. destruct H as [H|[H|H]].
    + left. exact H.
    + right. left. intros k. rewrite times_add, H. reflexivity.
    + congruence.
  - pose proof (draw_spec (Nat.max 1 (d_rets d)) (e_next e)) as D. rewrite Ed in D. destruct D as (D1 & D2 & D3 & _).
    assert (forall k, times k (add_points (state_points ids) d) <= 1) as T1.
    { intros k. rewrite times_add, times_states. destruct H as [H|[H|H]]; [congruence|rewrite H; destruct (_ <? _); lia|].
      destruct (Nat.max 1 (d_rets d)) as [|m] eqn:E; [lia|]. rewrite draw_stuck in Ed by exact H. injection Ed as <- _ _. cbn. specialize (T k). lia. }
    destruct ok.
    + split; [exact T1|]. left. apply marked_add.
    + split; [exact T1|]. right. right. apply D3. reflexivity.
  - split; [exact T|]. destruct H as [H|[H|H]]; [left; apply M; exact H|right; left; exact H|right; right]. cbn [step]. destruct (e_node e); exact H.
Qed.
(** A function with a doc comment has each of its returns instrumented at most once, whatever is done with the file how often. *)
Theorem C80_once_documented k c n d os : nth_error (k_decls k) n = Some d -> d_doc d <> [] -> no_states d ->
  exists d', fun_at (run (fresh k c) os) n = Some d' /\ forall j, times j d' <= 1.
Proof.
  intros E Dd Np. assert (exists d', fun_at (run (fresh k c) os) n = Some d' /\ d_linked d' = true /\ d_doc d' <> [] /\ at_most_once (run (fresh k c) os) d') as (d' & E' & _ & _ & (T & _)); [|eauto].
  apply (run_inv (fun e => exists d', fun_at e n = Some d' /\ d_linked d' = true /\ d_doc d' <> [] /\ at_most_once e d')).
  - intros e o _ (d1 & E1 & L1 & D1 & O1). pose proof (step_view e o n) as V. rewrite E1 in V. destruct V as (d2 & E2 & G). destruct (doc_gets _ _ _ _ _ G L1 D1) as (L2 & D2 & M). exists d2. split; [exact E2|]. split; [exact L2|]. split; [exact D2|]. apply (once_gets e o d1 d2 G M O1).
  - unfold fun_at, load, fresh. cbn [e_node e_disk parse n_decls]. rewrite nth_error_map, E. cbn [option_map]. eexists. split; [reflexivity|]. cbn [d_linked d_doc]. split; [destruct (d_doc d); [contradiction|reflexivity]|]. split; [exact Dd|].
    pose proof (times_zero d Np) as Z. split; [intros j; unfold times in *; cbn [d_points]; rewrite Z; lia|]. right. left. exact Z.
Qed.
Print Assumptions C80_once_documented.
(** In a file without any comment the same holds for the functions instrumented before the first commit. *)
Theorem C80_once_before_commit k c n d before id ids after : nth_error (k_decls k) n = Some d -> no_states d ->
  k_other k = false -> (forall d, In d (k_decls k) -> d_doc d = []) -> ~ In DoCommit before ->
  find_last (k_decls k) id = Some n -> snd (step (run (fresh k c) before) (DoStates id)) = OIds ids ->
  exists d', fun_at (run (fresh k c) (before ++ DoStates id :: after)) n = Some d' /\ forall j, times j d' <= 1.
Proof.
  intros E Np Ho Hd Nc F R.
  set (Q := fun e => n_comments (load e) = false /\ map d_id (n_decls (load e)) = map d_id (k_decls k) /\ exists d', fun_at e n = Some d' /\ at_most_once e d').
  assert (forall e o, o <> DoCommit -> Q e -> Q (fst (step e o))) as Qs.
  { intros e o No (C & I & d1 & E1 & O1). pose proof (step_view e o n) as V. rewrite E1 in V. destruct V as (d2 & E2 & G). split; [|split].
    - rewrite (proj1 (step_keeps e o No)). exact C.
    - rewrite (proj2 (step_keeps e o No)). exact I.
    - exists d2. split; [exact E2|]. apply (once_gets e o d1 d2 G); [|exact O1]. destruct G as [->|[(? & ? & _ & _ & _ & ->)|[(? & ? & ok & _ & _ & _ & _ & _ & ->)|(X & _)]]].
      + auto.
      + auto.
      + destruct ok; [intros _; apply marked_add|auto].
      + contradiction. }
  assert (Q (run (fresh k c) before)) as Qb.
  { apply run_inv; [intros e o I; apply Qs; intros ->; contradiction|]. unfold Q, fun_at, fresh, load. cbn [e_node e_disk parse n_comments n_decls]. split; [|split].
    - rewrite Ho. cbn [orb]. apply not_true_is_false. intros X. apply existsb_exists in X as (x & Ix & X). rewrite (Hd x Ix) in X. discriminate.
    - rewrite map_map. reflexivity.
    - rewrite nth_error_map, E. cbn [option_map]. eexists. split; [reflexivity|]. pose proof (times_zero d Np) as Z. split; [intros j; unfold times in *; cbn [d_points]; rewrite Z; lia|]. right. left. exact Z. }
  assert (let e := fst (step (run (fresh k c) before) (DoStates id)) in exists d', fun_at e n = Some d' /\ (n_comments (load e) = false \/ d_linked d' = true) /\ marked d' = true /\ at_most_once e d') as M.
  { cbn zeta. pose proof (Qs _ (DoStates id) ltac:(discriminate) Qb) as (C2 & _ & d2 & E2 & O2). exists d2. split; [exact E2|]. split; [left; exact C2|]. split; [|exact O2]. destruct Qb as (C1 & I1 & d1 & E1 & O1). remember (run (fresh k c) before) as e eqn:Ee. clear - F R I1 E1 E2.
    unfold fun_at in *. cbn [step] in *. rewrite (find_ids _ _ id I1), F in *. rewrite E1 in *. destruct (d_body d1); [|discriminate R]. cbn [negb] in *. destruct (marked d1) eqn:Em; [cbn [fst load e_node] in E2; rewrite E1 in E2; injection E2 as <-; exact Em|]. destruct (draw _ _) as [[l c1] ok]. destruct ok; [|discriminate R]. cbn [fst load e_node n_decls] in E2. rewrite nth_upd, Nat.eqb_refl, E1 in E2. injection E2 as <-. apply marked_add. }
  rewrite run_app. cbn [run fold_left]. remember (fst (step (run (fresh k c) before) (DoStates id))) as e1 eqn:Ee1. clear Ee1. cbn zeta in M.
  assert (exists d', fun_at (run e1 after) n = Some d' /\ (n_comments (load (run e1 after)) = false \/ d_linked d' = true) /\ marked d' = true /\ at_most_once (run e1 after) d') as (d' & E' & _ & _ & (T & _)); [|eauto].
  apply (run_inv (fun e => exists d', fun_at e n = Some d' /\ (n_comments (load e) = false \/ d_linked d' = true) /\ marked d' = true /\ at_most_once e d')); [|exact M].
  intros e o _ (d1 & E1 & L1 & M1 & O1). pose proof (step_view e o n) as V. rewrite E1 in V. destruct V as (d2 & E2 & G). exists d2. split; [exact E2|].
  assert (marked d2 = true /\ (d_linked d2 = true \/ o <> DoCommit /\ d_linked d2 = d_linked d1 \/ e_node e = None)) as (M2 & L2).
  { destruct G as [->|[(id' & p & -> & _ & _ & ->)|[(id' & ids' & ok & -> & _ & _ & _ & _ & ->)|(-> & ->)]]].
    - split; [exact M1|]. destruct (d_linked d1) eqn:X; [auto|]. right. destruct o as [| | |]; try (left; split; [discriminate|congruence]). destruct (e_node e) as [nd|] eqn:En; [|auto]. exfalso. cbn [step] in E2. rewrite En in E2. unfold fun_at in E1, E2. cbn [fst load e_node e_disk] in E2. unfold load in E1. rewrite En in E1. rewrite parse_print, nth_error_map, E1 in E2. cbn [option_map] in E2. injection E2 as E2. unfold reread in E2. rewrite X in E2. destruct L1 as [L1|L1]; [|discriminate]. unfold load in L1. rewrite En in L1. rewrite L1 in E2. cbn [andb] in E2. pose proof (marked_doc d1 M1) as Nd. destruct (d_doc d1) as [|a0 l0]; [contradiction|]. apply (f_equal d_linked) in E2. cbn in E2. congruence.
    - split; [exact M1|]. right. left. split; [discriminate|reflexivity].
    - split; [destruct ok; [apply marked_add|exact M1]|]. right. left. split; [discriminate|destruct ok; reflexivity].
    - unfold reread, marked in *. cbn [d_doc d_linked]. assert (n_comments (load e) && negb (d_linked d1) = false) as -> by (destruct L1 as [-> | ->]; [reflexivity|apply andb_false_r]). split; [exact M1|]. left. destruct (d_doc d1); [discriminate|reflexivity]. }
  split; [|split; [exact M2|apply (once_gets e o d1 d2 G); [intros _; exact M2|exact O1]]].
  destruct L2 as [L2|[(No & L2)|L2]]; [right; exact L2| |].
  - destruct L1 as [L1|L1]; [left|right; congruence]. rewrite (proj1 (step_keeps e o No)). exact L1.
  - assert (d_linked d1 = true) as X. { unfold fun_at, load in E1. rewrite L2 in E1. cbn [parse n_decls] in E1. rewrite nth_error_map in E1. destruct (nth_error (k_decls (e_disk e)) n) as [d0|]; [|discriminate]. cbn [option_map] in E1. injection E1 as E1. pose proof (marked_doc d1 M1) as Nd. rewrite <- E1 in Nd |- *. cbn [d_doc d_linked] in *. destruct (d_doc d0); [contradiction|reflexivity]. }
    right. destruct (doc_gets _ _ _ _ _ G X (marked_doc _ M1)) as (L & _). exact L.
Qed.
Print Assumptions C80_once_before_commit.

(** ** In memory *)
(** Once it has given ids for a function, it gives none and changes nothing until the file is committed. *)
Theorem C80_again_nothing e id ids between : snd (step e (DoStates id)) = OIds ids -> ~ In DoCommit between ->
  let e' := run (fst (step e (DoStates id))) between in step e' (DoStates id) = (e', OIds []).
Proof.
  intros R Nc. cbn zeta.
  assert (exists n d, e_node (fst (step e (DoStates id))) <> None /\ find_last (n_decls (load (fst (step e (DoStates id))))) id = Some n /\ fun_at (fst (step e (DoStates id))) n = Some d /\ d_body d = true /\ marked d = true) as (n & d & A & F & E & Eb & M).
  { unfold fun_at. cbn [step] in *. destruct (find_last (n_decls (load e)) id) as [n|] eqn:F; [|discriminate R]. destruct (nth_error (n_decls (load e)) n) as [d|] eqn:E; [|discriminate R]. destruct (d_body d) eqn:Eb; [|discriminate R]. cbn [negb] in *. destruct (marked d) eqn:Em.
    - exists n, d. cbn [fst e_node load]. repeat split; auto. discriminate.
    - destruct (draw _ _) as [[l c] ok]. destruct ok; [|discriminate R]. cbn [fst e_node load n_decls]. exists n, (add_mark (add_points (state_points l) d)). split; [discriminate|]. split; [rewrite <- F; apply find_ids, upd_ids; reflexivity|]. split; [rewrite nth_upd, Nat.eqb_refl, E; reflexivity|]. split; [exact Eb|apply marked_add]. }
  remember (fst (step e (DoStates id))) as e1 eqn:E1. clear E1 R.
  assert (e_node (run e1 between) <> None /\ find_last (n_decls (load (run e1 between))) id = Some n /\ exists d', fun_at (run e1 between) n = Some d' /\ d_body d' = true /\ marked d' = true) as (A' & F' & d' & E' & Eb' & M').
  { apply (run_inv (fun x => e_node x <> None /\ find_last (n_decls (load x)) id = Some n /\ exists d', fun_at x n = Some d' /\ d_body d' = true /\ marked d' = true)); [|split; [exact A|]; split; [exact F|]; eauto].
    intros x o I (Ax & Fx & dx & Ex & Bx & Mx). assert (o <> DoCommit) as No by (intros ->; contradiction). split; [|split].
    - destruct o as [i|i| |]; [| |contradiction|]; cbn [step].
      + clear Fx. destruct (find_last (n_decls (load x)) i); [|discriminate]. destruct (nth_error _ _) as [y|]; [|discriminate]. destruct (d_body y); [|discriminate]. destruct (marked y); [discriminate|]. cbn [negb]. destruct (draw _ _) as [[? ?] ?]. discriminate.
      + clear Fx. destruct (find_last (n_decls (load x)) i); [|discriminate]. destruct (nth_error _ _) as [y|]; [|discriminate]. destruct (d_body y); [|discriminate]. cbn [negb]. destruct (next _) as [[? ?]|]; discriminate.
      + destruct (next _) as [[? ?]|]; exact Ax.
    - rewrite <- Fx. apply find_ids, step_keeps, No.
    - pose proof (step_view x o n) as V. rewrite Ex in V. destruct V as (d2 & E2 & G). exists d2. split; [exact E2|]. destruct G as [->|[(? & ? & _ & _ & _ & ->)|[(? & ? & ok & _ & _ & _ & X & _)|(X & _)]]]; [auto|auto|congruence|contradiction]. }
  cbn [step]. unfold fun_at in E'. rewrite F', E', Eb', M'. cbn [negb]. f_equal. destruct (run e1 between) as [k [nd|] c]; [reflexivity|contradiction].
Qed.
Print Assumptions C80_again_nothing.
(** Refuted: it is once in general.  The mark of a function without doc is not written to a file that has other comments, so that after a
    commit every return of the function gets a second point. *)
Theorem C80_once_refuted k c n d id : nth_error (k_decls k) n = Some d -> find_last (k_decls k) id = Some n ->
  d_doc d = [] -> d_body d = true -> k_other k = true -> (N.max 1 c + 2 * N.of_nat (Nat.max 1 (d_rets d)) < 4294967296)%N ->
  exists d', nth_error (k_decls (e_disk (run (fresh k c) [DoStates id; DoCommit; DoStates id; DoCommit]))) n = Some d' /\
    forall j, j < Nat.max 1 (d_rets d) -> times j d' = times j d + 2.
Proof.
  intros E F Dd Db Ho Room. set (m := Nat.max 1 (d_rets d)) in *.
  assert (forall k0 c0 d0, k_other k0 = true -> map d_id (k_decls k0) = map d_id (k_decls k) -> nth_error (k_decls k0) n = Some d0 -> d_doc d0 = [] -> d_body d0 = true -> d_rets d0 = d_rets d ->
    (N.max 1 c0 + N.of_nat m < 4294967296)%N ->
    exists k1 c1 d1, run (Ed k0 None c0) [DoStates id; DoCommit] = Ed k1 None c1 /\ k_other k1 = true /\ map d_id (k_decls k1) = map d_id (k_decls k) /\ nth_error (k_decls k1) n = Some d1 /\ d_doc d1 = [] /\ d_body d1 = true /\ d_rets d1 = d_rets d /\
      (N.max 1 c1 <= N.max 1 c0 + N.of_nat m)%N /\ forall j, j < m -> times j d1 = times j d0 + 1) as G.
  { intros k0 c0 d0 O0 I0 E0 D0 B0 R0 Rm. cbn [run fold_left]. cbn [step load e_node e_disk e_next].
    assert (find_last (n_decls (parse k0)) id = Some n) as F0 by (rewrite <- F; apply find_ids; cbn [parse n_decls]; rewrite map_map; exact I0).
    rewrite F0. cbn [parse n_decls n_comments n_other]. rewrite nth_error_map, E0. cbn [option_map d_body d_rets]. rewrite B0. cbn [negb]. unfold marked. cbn [d_doc]. rewrite D0. cbn [existsb]. rewrite R0. fold m.
    destruct (draw_room m c0 Rm) as (ids & c1 & Ed1 & L & Hc). rewrite Ed1. cbn [fst e_node e_next]. do 3 eexists. split; [reflexivity|]. cbn [print n_other n_comments n_decls k_other k_decls]. split; [exact O0|]. split; [|].
    { rewrite map_map. cbn [d_id]. change (map (fun x => d_id x) (upd (map (fun d2 => Decl (d_id d2) (d_doc d2) match d_doc d2 with [] => false | _ :: _ => true end (d_body d2) (d_rets d2) (d_points d2)) (k_decls k0)) n (fun d2 => add_mark (add_points (state_points ids) d2))) = map d_id (k_decls k)). change (fun x => d_id x) with d_id. rewrite upd_ids by reflexivity. rewrite map_map. exact I0. }
    split; [rewrite nth_error_map, nth_upd, Nat.eqb_refl, nth_error_map, E0; cbn [option_map]; reflexivity|]. cbn [add_mark add_points d_doc d_linked d_body d_rets]. rewrite D0, O0. cbn [orb andb negb]. split; [reflexivity|]. split; [exact B0|]. split; [exact R0|]. split; [exact Hc|].
    intros j Hj. change (times j (add_points (state_points ids) d0) = times j d0 + 1). rewrite times_add, times_states, L. apply Nat.ltb_lt in Hj. rewrite Hj. reflexivity. }
  destruct (G k c d Ho eq_refl E Dd Db eq_refl ltac:(lia)) as (k1 & c1 & d1 & R1 & O1 & I1 & E1 & D1 & B1 & Q1 & H1 & T1).
  destruct (G k1 c1 d1 O1 I1 E1 D1 B1 Q1 ltac:(lia)) as (k2 & c2 & d2 & R2 & _ & _ & E2 & _ & _ & _ & _ & T2).
  exists d2. change [DoStates id; DoCommit; DoStates id; DoCommit] with ([DoStates id; DoCommit] ++ [DoStates id; DoCommit]). unfold fresh. rewrite run_app, R1, R2. split; [exact E2|]. intros j Hj. rewrite (T2 j Hj), (T1 j Hj). lia.
Qed.
Print Assumptions C80_once_refuted.

(** ** What is put where *)
(** A call that gives ids puts exactly these, in order, before the returns of the last function of that identifier, and nothing elsewhere. *)
Theorem C80_points_exactly e id ids : snd (step e (DoStates id)) = OIds ids -> ids <> [] ->
  exists n d, find_last (n_decls (load e)) id = Some n /\ fun_at e n = Some d /\ length ids = Nat.max 1 (d_rets d) /\
    (exists d', fun_at (fst (step e (DoStates id))) n = Some d' /\ d_points d' = d_points d ++ state_points ids) /\
    forall m, m <> n -> fun_at (fst (step e (DoStates id))) m = fun_at e m.
Proof.
  intros R N. unfold fun_at. cbn [step] in *. destruct (find_last (n_decls (load e)) id) as [n|] eqn:F; [|discriminate R]. destruct (nth_error (n_decls (load e)) n) as [d|] eqn:E; [|discriminate R]. destruct (d_body d); [|discriminate R]. cbn [negb] in *. destruct (marked d); [injection R as <-; contradiction|].
  pose proof (draw_spec (Nat.max 1 (d_rets d)) (e_next e)) as D. destruct (draw _ _) as [[l c] ok]. destruct ok; [|discriminate R]. injection R as <-. destruct D as (_ & D & _). exists n, d. split; [reflexivity|]. split; [exact E|]. split; [apply D; reflexivity|]. cbn [fst load e_node n_decls].
  split; [rewrite nth_upd, Nat.eqb_refl, E; eexists; split; reflexivity|]. intros m Nm. rewrite nth_upd. destruct (Nat.eqb_spec n m); [congruence|reflexivity].
Qed.
Print Assumptions C80_points_exactly.
(** No id is in the file twice, and all are below the next one. *)
Lemma perm_upd (g : decl -> list N) f new ds : forall i d, nth_error ds i = Some d -> g (f d) = g d ++ new -> Permutation (flat_map g (upd ds i f)) (flat_map g ds ++ new).
Proof.
  induction ds as [|x ds IH]; intros i d E H; [destruct i; discriminate|]. destruct i as [|i]; cbn [upd flat_map].
  - injection E as ->. rewrite H. rewrite <- !app_assoc. apply Permutation_app_head, Permutation_app_comm.
  - rewrite <- app_assoc. apply Permutation_app_head. exact (IH i d E H).
Qed.
Lemma ids_states l : map (fun p => match p with PState _ i => i | PFun i => i end) (state_points l) = l.
Proof.
  unfold state_points. generalize 0 as s. induction l as [|a l IH]; intros s; [reflexivity|]. cbn. f_equal. apply IH.
Qed.
Lemma ids_add ps d : ids_of (add_points ps d) = ids_of d ++ map (fun p => match p with PState _ i => i | PFun i => i end) ps.
Proof. unfold ids_of. cbn. apply map_app. Qed.
Theorem C80_ids_distinct k c os : all_ids (fresh k c) = [] ->
  NoDup (all_ids (run (fresh k c) os)) /\ forall i, In i (all_ids (run (fresh k c) os)) -> (i <> 0 /\ i < e_next (run (fresh k c) os))%N.
Proof.
  intros H0. apply (run_inv (fun e => NoDup (all_ids e) /\ forall i, In i (all_ids e) -> (i <> 0 /\ i < e_next e)%N)); [|rewrite H0; split; [constructor|intros i []]].
  intros e o _ (D & B).
  assert (forall e', all_ids e' = all_ids e -> (e_next e <= e_next e')%N -> NoDup (all_ids e') /\ forall i, In i (all_ids e') -> (i <> 0 /\ i < e_next e')%N) as K.
  { intros e' E L. rewrite E. split; [exact D|]. intros i I. destruct (B i I). split; [assumption|lia]. }
  assert (forall e' new, Permutation (all_ids e') (all_ids e ++ new) -> (e_next e <= e_next e')%N -> NoDup new -> (forall i, In i new -> e_next e <= i < e_next e' /\ i <> 0)%N -> NoDup (all_ids e') /\ forall i, In i (all_ids e') -> (i <> 0 /\ i < e_next e')%N) as A.
  { intros e' new P L Dn Hn. split.
    - apply (Permutation_NoDup (Permutation_sym P)). clear P K. revert D B. generalize (all_ids e) as l. intros l D B. induction l as [|a l IH]; [exact Dn|]. cbn. inversion D; subst. constructor; [|apply IH; [assumption|intros i I; apply B; right; exact I]]. intros X. apply in_app_or in X as [X|X]; [contradiction|]. apply Hn in X. destruct (B a (or_introl eq_refl)). lia.
    - intros i I. apply (Permutation_in _ P) in I. apply in_app_or in I as [I|I]; [destruct (B i I); split; [assumption|lia]|]. apply Hn in I. lia. }
  destruct o as [id|id| |]; cbn [step].
  - destruct (find_last (n_decls (load e)) id) as [n|] eqn:F; [|apply K; [reflexivity|cbn; lia]]. destruct (nth_error (n_decls (load e)) n) as [d|] eqn:E; [|apply K; [reflexivity|cbn; lia]]. destruct (d_body d); [|apply K; [reflexivity|cbn; lia]]. cbn [negb]. destruct (marked d); [apply K; [reflexivity|cbn; lia]|].
    pose proof (draw_spec (Nat.max 1 (d_rets d)) (e_next e)) as Ds. destruct (draw _ _) as [[l c1] ok]. destruct Ds as (_ & _ & _ & Dn & L & Hn). apply (A _ l); cbn [fst e_next]; auto. unfold all_ids. cbn [load e_node n_decls]. apply (perm_upd ids_of _ l _ _ d E). destruct ok; [change (ids_of (add_points (state_points l) d) = ids_of d ++ l)|]; rewrite ids_add, ids_states; reflexivity.
  - destruct (find_last (n_decls (load e)) id) as [n|] eqn:F; [|apply K; [reflexivity|cbn; lia]]. destruct (nth_error (n_decls (load e)) n) as [d|] eqn:E; [|apply K; [reflexivity|cbn; lia]]. destruct (d_body d); [|apply K; [reflexivity|cbn; lia]]. cbn [negb].
    pose proof (next_spec (e_next e)) as Ns. destruct (next (e_next e)) as [[p c1]|]; [|apply K; [reflexivity|cbn; lia]]. apply (A _ [p]); cbn [fst e_next]; [|lia|repeat constructor; intros []|intros i [<-|[]]; lia]. unfold all_ids. cbn [load e_node n_decls]. apply (perm_upd ids_of _ [p] _ _ d E). rewrite ids_add. reflexivity.
  - destruct e as [k1 [nd|] c1]; [|apply K; [reflexivity|cbn; lia]]. apply K; [|cbn; lia]. unfold all_ids. cbn [fst e_node load e_disk]. rewrite parse_print, flat_map_concat_map, map_map, <- flat_map_concat_map. reflexivity.
  - pose proof (next_spec (e_next e)) as Ns. destruct (next (e_next e)) as [[p c1]|]; [|apply K; [reflexivity|cbn; lia]]. apply K; [reflexivity|cbn; lia].
Qed.
Print Assumptions C80_ids_distinct.
(** A commit writes the points the editor has, and the docs of the functions that had one. *)
Theorem C80_commit_writes e n d : fun_at e n = Some d -> e_node e <> None ->
  exists d', nth_error (k_decls (e_disk (fst (step e DoCommit)))) n = Some d' /\ d_points d' = d_points d /\ (d_linked d = true -> d_doc d' = d_doc d) /\
    e_node (fst (step e DoCommit)) = None.
Proof.
  intros E N. unfold fun_at, load in E. cbn [step]. destruct (e_node e) as [nd|]; [|contradiction]. cbn [fst e_disk print k_decls e_node]. rewrite nth_error_map, E. cbn [option_map]. eexists. split; [reflexivity|]. split; [reflexivity|]. split; [|reflexivity]. intros L. cbn [d_doc]. rewrite L, andb_false_r. reflexivity.
Qed.
Print Assumptions C80_commit_writes.
(** A doc comment that happens to mention the mark keeps a function from ever getting points. *)
Theorem C80_mentioned_refuted e id n d s : find_last (n_decls (load e)) id = Some n -> fun_at e n = Some d -> d_body d = true ->
  In s (d_doc d) -> mentions s -> snd (step e (DoStates id)) = OIds [] /\ fun_at (fst (step e (DoStates id))) n = Some d.
Proof.
  intros F E Db I M. assert (marked d = true) as Em by (apply marked_spec; eauto). unfold fun_at in *. cbn [step]. rewrite F, E, Db, Em. cbn [negb fst snd load e_node]. auto.
Qed.
Print Assumptions C80_mentioned_refuted.

Definition ex80 : disk := Disk true [Decl (B "p:f") [] false true 2 []; Decl (B "p:g") [B "// g does it."] false true 0 []; Decl (B "p:h") [B "// see patchlens:return-states"] false true 1 []; Decl (B "p:asm") [] false false 0 []].
Example C80_example : let e := run (fresh ex80 0) [DoStates (B "p:f"); DoElse; DoPoint (B "p:f"); DoStates (B "p:g"); DoStates (B "p:f"); DoCommit; DoStates (B "p:f"); DoStates (B "p:g"); DoCommit] in
  map d_points (k_decls (e_disk e)) = [[PState 0 1; PState 1 2; PFun 4; PState 0 6; PState 1 7]; [PState 0 5]; []; []]%N /\ e_next e = 8%N /\
  map d_doc (k_decls (e_disk e)) = [[]; [B "// g does it."; B "// patchlens:return-states"]; [B "// see patchlens:return-states"]; []] /\
  snd (step e (DoStates (B "p:h"))) = OIds [] /\ snd (step e (DoStates (B "p:asm"))) = ONoBody /\ snd (step e (DoStates (B "p:x"))) = OErr.
Proof. repeat split; reflexivity. Qed.
(** In a file without comments the mark is written, but only for the functions of the first commit. *)
Example C80_no_comments_example : let k := Disk false [Decl (B "p:f") [] false true 1 []; Decl (B "p:g") [] false true 1 []] in
  map d_points (k_decls (e_disk (run (fresh k 0) [DoStates (B "p:f"); DoCommit; DoStates (B "p:f"); DoStates (B "p:g"); DoCommit; DoStates (B "p:g"); DoStates (B "p:f"); DoCommit]))) = [[PState 0 1]; [PState 0 2; PState 0 3]]%N.
Proof. reflexivity. Qed.
(** Refuted: an error leaves the file alone.  When the ids run out in the middle of a function, the returns before have points with
    ids nobody was told, and the next commit writes them. *)
Theorem C80_error_refuted : exists k c id, snd (step (fresh k c) (DoStates id)) = OErr /\ all_ids (fresh k c) = [] /\
  exists d, nth_error (k_decls (e_disk (run (fresh k c) [DoStates id; DoCommit]))) 0 = Some d /\ ids_of d <> [].
Proof. exists ex80, 4294967294%N, (B "p:f"). split; [reflexivity|]. split; [reflexivity|]. eexists. split; [reflexivity|]. cbn. discriminate. Qed.
Print Assumptions C80_error_refuted.
