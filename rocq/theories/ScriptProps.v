(** C67: what the mutation scripts hand over. *)
From Coq Require Import Permutation.
From Verif Require Import Base Maps UtilModel UtilProps MutationModel MutationProps ScriptModel ScriptProofs.

(** The script for selected tests, read by bash: if no path, test name or package has a
    quote, backquote, dollar sign or backslash, PKGS is the packages joined by blanks, the
    map gives for each file exactly its tests joined by blanks and for any other file the
    empty text, and bash goes on with the constant part. *)
Theorem C67_select_data : forall (m : amap (list bytes)) packages fuel, mwf m ->
  (forall f ts, mget f m = Some ts -> plain f /\ forall t, In t ts -> plain t) ->
  (forall p, In p packages -> plain p) -> (length m < fuel)%nat ->
  exists l, read_script fuel (select_script m packages) = Some (SD (join_with (B " ") packages) l (select_tail ++ finish_text)) /\
    forall f, lookup l f = match mget f m with Some ts => test_entry ts | None => [] end.
Proof.
  intros m packages fuel W Hm Hp Hf. exists (map (fun e => (fst e, test_entry (snd e))) (entries m)).
  assert (length (entries m) = length m) as Len.
  { unfold entries. rewrite map_length. rewrite (Permutation_length (bsort_perm (mkeys m))). apply map_length. }
  assert (map fst (entries m) = bsort (mkeys m)) as Keys.
  { unfold entries. rewrite map_map. cbn [fst]. apply map_id. }
  split.
  - unfold read_script.
    assert (select_script m packages = (B "#!/usr/bin/env bash" ++ [nl; nl] ++ B "PKGS=" ++ [dq]) ++
      (join_with (B " ") packages ++ dq :: (([nl] ++ B "declare -A FILE_TEST_MAP" ++ [nl]) ++ (flat_map entry_line (entries m) ++ (select_tail ++ finish_text))))) as ->.
    { unfold select_script, pkgs_line. rewrite <- !app_assoc. reflexivity. }
    rewrite lit_app, read_plain.
    + rewrite lit_app, read_entries_spec; [reflexivity| |rewrite Len; exact Hf|].
      * intros [k ts] He. cbn [fst snd]. unfold entries in He. apply in_map_iff in He as (k' & [= -> <-] & Hk).
        apply (proj1 (bsort_in _ _)) in Hk. apply mget_keys in Hk. destruct (mget k m) as [ts|] eqn:E; [|congruence].
        destruct (Hm k ts E) as [A D]. split; [exact A|apply plain_entry; exact D].
      * reflexivity.
    + apply plain_join; [|exact Hp]. intros c [<-|[]]. cbn. intuition discriminate.
  - intros f. rewrite lookup_spec.
    + rewrite (find_entries m f W). destruct (mget f m); reflexivity.
    + rewrite Keys. apply bsort_nodup. exact W.
Qed.
Print Assumptions C67_select_data.

(** The quotes are no protection beyond that: a file below a directory named like a command
    substitution has it run, one with a quote ends the text early, two backslashes are read
    as one. *)
Theorem C67_quotes_refuted :
  (exists f, ~ In dq f /\ forall rest, read_dq (f ++ dq :: rest) = QRuns) /\
  (exists f g, forall rest, read_dq (f ++ dq :: rest) = QText g (B "b.go" ++ dq :: rest) /\ g <> f) /\
  (exists f g, ~ In dq f /\ ~ In "$"%char f /\ forall rest, read_dq (f ++ dq :: rest) = QText g rest /\ g <> f) /\
  (exists f, ~ In dq f /\ ~ In "$"%char f /\ ~ In "\"%char f /\ forall rest, read_dq (f ++ dq :: rest) = QRuns).
Proof.
  split; [|split; [|split]].
  - exists (B "/src/$(id)/a.go"). split; [vm_compute; intuition discriminate|]. intros rest. reflexivity.
  - exists (B "/src/a" ++ [dq] ++ B "b.go"), (B "/src/a"). intros rest. split; [reflexivity|discriminate].
  - exists (B "/src/\\a.go"), (B "/src/\a.go"). split; [vm_compute; intuition discriminate|]. split; [vm_compute; intuition discriminate|].
    intros rest. split; [reflexivity|discriminate].
  - exists (B "/src/`id`/a.go"). split; [vm_compute; intuition discriminate|]. split; [vm_compute; intuition discriminate|]. split; [vm_compute; intuition discriminate|]. intros rest. reflexivity.
Qed.
Print Assumptions C67_quotes_refuted.

(** The packages that go test is given are exactly the packages, whatever files there are,
    exactly when each of them is one word: not empty, no blanks and no pattern characters.
    In both scripts. *)
Lemma timeout_field glob t : (forall c, In c t -> blank c = false /\ magic c = false) ->
  fields glob None [Exact (B "-timeout="); Unquoted (t ++ B "s")] = [B "-timeout=" ++ t ++ B "s"].
Proof.
  intros H. cbn [fields add_text]. rewrite split_noblank.
  - cbn [fields add_text]. assert (existsb magic (t ++ B "s") = false) as ->; [|reflexivity].
    apply existsb_magic_false. intros c Hc. apply in_app_iff in Hc as [Hc|[<-|[]]]; [apply H; exact Hc|reflexivity].
  - destruct t; discriminate.
  - intros c Hc. apply in_app_iff in Hc as [Hc|[<-|[]]]; [apply H; exact Hc|reflexivity].
Qed.
Theorem C67_packages_exactly : forall packages timeout pattern, (forall c, In c timeout -> blank c = false /\ magic c = false) ->
  ((forall glob, select_test glob timeout pattern (join_with (B " ") packages) =
      map B ["go"; "test"; "-count=1"; "-failfast"]%string ++ [B "-timeout=" ++ timeout ++ B "s"; B "-run"; pattern] ++ packages)
   <-> Forall one_word packages) /\
  ((forall glob, all_test glob timeout (join_with (B " ") packages) =
      map B ["go"; "test"; "-count=1"; "-failfast"]%string ++ [B "-timeout=" ++ timeout ++ B "s"] ++ packages)
   <-> Forall one_word packages).
Proof.
  intros packages timeout pattern Ht. rewrite <- join_comes_back. unfold select_test, all_test, command.
  split; (split; intros H glob; specialize (H glob)).
  - cbn [flat_map] in H. rewrite timeout_field, app_nil_r in H by exact Ht. cbn [map app] in H.
    repeat match type of H with _ :: _ = _ :: _ => injection H as H | (_ ++ _) = _ :: _ => cbn [fields add_text finish app] in H end.
    exact H.
  - cbn [flat_map]. rewrite timeout_field, app_nil_r by exact Ht. rewrite H. reflexivity.
  - cbn [flat_map] in H. rewrite timeout_field, app_nil_r in H by exact Ht. cbn [map app] in H.
    repeat match type of H with _ :: _ = _ :: _ => injection H as H | (_ ++ _) = _ :: _ => cbn [fields add_text finish app] in H end.
    exact H.
  - cbn [flat_map]. rewrite timeout_field, app_nil_r by exact Ht. rewrite H. reflexivity.
Qed.
Print Assumptions C67_packages_exactly.

(** The script for selected tests moves and copies exactly the files it means, whatever
    they are called. *)
Theorem C67_select_files : forall glob orig changed,
  select_mv glob orig = [B "mv"; orig; orig ++ B ".mbkp"] /\
  select_cp glob changed orig = [B "cp"; changed; orig].
Proof. intros glob orig changed. split; reflexivity. Qed.
Print Assumptions C67_select_files.

(** The script for all tests does so exactly when the path of the file is one word. *)
Lemma move_word glob v : one_word v -> fields glob None [Unquoted v; Exact (B ".mbkp")] = [v ++ B ".mbkp"].
Proof.
  intros [Hn H]. cbn [fields]. rewrite split_noblank; [|exact Hn|intros c Hc; apply H; exact Hc].
  assert (existsb magic v = false) as -> by (apply existsb_magic_false; intros c Hc; apply H; exact Hc). reflexivity.
Qed.
Theorem C67_all_files : forall orig,
  (forall glob, all_mv glob orig = [B "mv"; orig; orig ++ B ".mbkp"]) <-> one_word orig.
Proof.
  intros orig. split.
  - intros H. assert (forall glob, fields glob None [Unquoted (join_with (B " ") [orig])] = [orig]) as F.
    { assert (forall glob, fields glob None [Unquoted orig] ++ fields glob None [Unquoted orig; Exact (B ".mbkp")] = [orig; orig ++ B ".mbkp"]) as H'.
      { intros glob. specialize (H glob). unfold all_mv, command in H. cbn [flat_map] in H. rewrite app_nil_r in H.
        change (fields glob None [Exact (B "mv")]) with [B "mv"] in H. cbn [app] in H. injection H as H. exact H. }
      pose proof (fields_solid orig) as S. pose proof (H' (fun _ => [])) as H0.
      destruct (fields (fun _ => []) None [Unquoted orig]) as [|a [|b l]] eqn:E0.
      - exfalso. assert (orig = []) as ->.
        { destruct orig as [|c o]; [reflexivity|]. exfalso. cbn [fields app] in *.
          destruct (split_var (fun _ => []) None (c :: o)) as [l cur] eqn:Es. apply app_eq_nil in E0 as [-> Ef].
          destruct cur as [[w []]|]; [discriminate|discriminate|]. cbn in H0. discriminate. }
        discriminate H0.
      - cbn [app] in H0. injection H0 as -> _. apply Forall_inv in S as [Sn Sb].
        intros glob. cbn [join_with]. specialize (H' glob). destruct (existsb magic orig) eqn:M.
        + exfalso. clear - M Sn Sb H. specialize (H (fun _ => [[]])). unfold all_mv, command in H. cbn [flat_map fields] in H.
          rewrite split_noblank in H by assumption. rewrite M in H. cbn in H. injection H as H _. congruence.
        + cbn [fields]. rewrite split_noblank by assumption. rewrite M. reflexivity.
      - exfalso. cbn [app] in H0. injection H0 as -> -> H0. apply app_eq_nil in H0 as [-> H0].
        cbn [fields] in H0, E0. destruct (split_var (fun _ => []) None orig) as [l cur]. apply app_eq_nil in H0 as [-> H0].
        destruct cur as [[w []]|]; discriminate. }
    assert (Forall one_word [orig]) as O by (apply join_comes_back; exact F). exact (Forall_inv O).
  - intros O glob. unfold all_mv, command. cbn [flat_map]. rewrite (move_word glob orig O), app_nil_r.
    assert (forall g, fields g None [Unquoted (join_with (B " ") [orig])] = [orig]) as F by (apply join_comes_back; constructor; [exact O|constructor]).
    cbn [join_with] in F. rewrite F. reflexivity.
Qed.
Print Assumptions C67_all_files.

(** With a blank in the path it moves something else, or nothing. *)
Theorem C67_all_unquoted_refuted : exists orig, ~ In "*"%char orig /\ forall glob,
  all_mv glob orig = map B ["mv"; "/my"; "src/a.go"; "/my"; "src/a.go.mbkp"]%string /\ orig = B "/my src/a.go".
Proof. exists (B "/my src/a.go"). split; [vm_compute; intuition discriminate|]. intros glob. split; reflexivity. Qed.
Print Assumptions C67_all_unquoted_refuted.

Lemma not_in_text c (s : bytes) : existsb (Ascii.eqb c) s = false -> ~ In c s.
Proof.
  intros E H. assert (existsb (Ascii.eqb c) s = true); [|congruence]. apply existsb_exists. exists c. split; [exact H|apply Ascii.eqb_refl].
Qed.
(** The script for all tests: formatting leaves no verb behind, puts the packages into the
    same line as the other script, once, and leaves the rest and the final check as they
    are. *)
Theorem C67_all_text : exists middle,
  (forall packages, all_script packages =
     Some (B "#!/usr/bin/env bash" ++ [nl] ++ pkgs_line packages ++ middle ++ finish_text)) /\
  (exists a b, middle = a ++ B "-timeout=$(printf '%ds' $MUTATE_TIMEOUT) $PKGS" ++ b /\ ~ In "%"%char (a ++ b)).
Proof.
  set (all := match all_script [] with Some s => s | None => [] end).
  set (h := length (B "#!/usr/bin/env bash" ++ [nl] ++ pkgs_line [])).
  exists (firstn (length all - h - length finish_text) (skipn h all)). split.
  - intros packages. unfold all_script, pkgs_line. generalize (join_with (B " ") packages). intros j. rewrite <- !app_assoc. vm_compute. reflexivity.
  - exists (firstn 659 (skipn h all)), (skipn 705 (firstn (length all - h - length finish_text) (skipn h all))). split; [vm_compute; reflexivity|].
    apply not_in_text. vm_compute. reflexivity.
Qed.
Print Assumptions C67_all_text.

(** The lines of the texts, in their order, and the commands bash makes of them.  [sub] gives the output of
    the timeout's printf. *)
Definition script_env (orig changed pattern pkgs n : bytes) : bytes :=
  if beq n (B "MUTATE_ORIGINAL") then orig else if beq n (B "MUTATE_CHANGED") then changed
  else if beq n (B "pattern") then pattern else if beq n (B "PKGS") then pkgs else [].
Definition script_sub (timeout cmd : bytes) : bytes := if beq cmd (B "printf '%ds' $MUTATE_TIMEOUT") then timeout ++ B "s" else [].
Theorem C67_select_lines : let line k := nth k (split_on nl select_tail) [] in
  forall glob orig changed timeout pattern pkgs, let run := line_command glob (script_env orig changed pattern pkgs) (script_sub timeout) in
  run [] [] (line 11) = Some (select_mv glob orig) /\
  run (B "trap '") (B "' EXIT") (line 15) = Some [B "mv"; orig ++ B ".mbkp"; orig] /\
  run [] [] (line 16) = Some (select_cp glob changed orig) /\
  run (B "GOMUTESTING_TEST=$(") (B ")") (line 20) = Some (select_test glob timeout pattern pkgs) /\
  line 21 = B "export GOMUTESTING_RESULT=$?" /\
  (forall k, k <> 11%nat -> k <> 15%nat -> k <> 16%nat -> existsb (fun w => has_prefix (B w) (line k)) ["mv "; "cp "; "rm "; "trap "; "GOMUTESTING_TEST="]%string = (Nat.eqb k 20)).
Proof.
  cbv zeta. intros glob orig changed timeout pattern pkgs. repeat (split; [vm_compute; reflexivity|]).
  assert (length (split_on nl select_tail) = 24%nat) as L by (vm_compute; reflexivity).
  intros k. destruct (le_lt_dec 24 k) as [G|G].
  - intros _ _ _. rewrite nth_overflow by lia. destruct (Nat.eqb_spec k 20); [lia|reflexivity].
  - do 24 (destruct k as [|k]; [intros N1 N2 N3; first [congruence|vm_compute; reflexivity]|]). lia.
Qed.
Print Assumptions C67_select_lines.
(** So in the other script, whose commands leave the variables unquoted. *)
Theorem C67_all_lines : exists middle,
  (forall packages, all_script packages = Some (B "#!/usr/bin/env bash" ++ [nl] ++ pkgs_line packages ++ middle ++ finish_text)) /\
  let line k := nth k (split_on nl middle) [] in
  forall glob orig changed timeout pattern pkgs, let run := line_command glob (script_env orig changed pattern pkgs) (script_sub timeout) in
  run [] [] (line 6) = Some (all_mv glob orig) /\
  run (B "trap '") (B "' EXIT") (line 10) = Some [B "mv"; orig ++ B ".mbkp"; orig] /\
  run [] [] (line 11) = Some (all_cp glob changed orig) /\
  run (B "GOMUTESTING_TEST=$(") (B ")") (line 15) = Some (all_test glob timeout pkgs) /\
  line 16 = B "export GOMUTESTING_RESULT=$?" /\
  (forall k, k <> 6%nat -> k <> 10%nat -> k <> 11%nat -> existsb (fun w => has_prefix (B w) (line k)) ["mv "; "cp "; "rm "; "trap "; "GOMUTESTING_TEST="]%string = (Nat.eqb k 15)).
Proof.
  set (all := match all_script [] with Some s => s | None => [] end).
  set (h := length (B "#!/usr/bin/env bash" ++ [nl] ++ pkgs_line [])).
  exists (firstn (length all - h - length finish_text) (skipn h all)). split.
  - intros packages. unfold all_script, pkgs_line. generalize (join_with (B " ") packages). intros j. rewrite <- !app_assoc. vm_compute. reflexivity.
  - cbv zeta. intros glob orig changed timeout pattern pkgs. repeat (split; [vm_compute; reflexivity|]).
    assert (length (split_on nl (firstn (length all - h - length finish_text) (skipn h all))) = 19%nat) as L by (vm_compute; reflexivity).
    intros k. destruct (le_lt_dec 19 k) as [G|G].
    + intros _ _ _. rewrite nth_overflow by lia. destruct (Nat.eqb_spec k 15); [lia|reflexivity].
    + do 19 (destruct k as [|k]; [intros N1 N2 N3; first [congruence|vm_compute; reflexivity]|]). lia.
Qed.
Print Assumptions C67_all_lines.
(** The script for all tests copies the files meant when both paths are one word. *)
Theorem C67_all_copy : forall changed orig, one_word changed -> one_word orig -> forall glob, all_cp glob changed orig = [B "cp"; changed; orig].
Proof.
  intros changed orig C O glob. unfold all_cp, command. cbn [flat_map]. rewrite app_nil_r.
  assert (forall v, one_word v -> fields glob None [Unquoted v] = [v]) as F.
  { intros v W. assert (forall g, fields g None [Unquoted (join_with (B " ") [v])] = [v]) as F by (apply join_comes_back; constructor; [exact W|constructor]). cbn [join_with] in F. apply F. }
  rewrite (F changed C), (F orig O). reflexivity.
Qed.
Print Assumptions C67_all_copy.

(** Two files and their tests, two packages. *)
Definition ex_map : amap (list bytes) := [(B "/m/b.go", [B "TestB"; B "TestA"]); (B "/m/a b.go", [B "TestA"])].
Example C67_example :
  mwf ex_map /\ plain (B "/m/a b.go") /\ Forall one_word [B "./..."; B "./sub/..."] /\
  option_map sd_pkgs (read_script 3 (select_script ex_map [B "./..."; B "./sub/..."])) = Some (B "./... ./sub/...") /\
  option_map (fun d => map (lookup (sd_map d)) [B "/m/b.go"; B "/m/a b.go"; B "/m/c.go"])
    (read_script 3 (select_script ex_map [B "./..."])) = Some [B "TestA TestB"; B "TestA"; []] /\
  select_test (fun _ => []) (B "30") (run_pattern (B "TestA TestB")) (B "./... ./sub/...") =
    map B ["go"; "test"; "-count=1"; "-failfast"; "-timeout=30s"; "-run"; "^(TestA|TestB)$"; "./..."; "./sub/..."]%string /\
  all_test (fun _ => [B "./x"]) (B "30") (B "./[a] ./sub/...") =
    map B ["go"; "test"; "-count=1"; "-failfast"; "-timeout=30s"; "./x"; "./sub/..."]%string.
Proof.
  split; [repeat constructor; cbn; intuition discriminate|]. split.
  { intros c Hc X. vm_compute in Hc, X. intuition (subst; discriminate). }
  split.
  { repeat constructor; try discriminate; match goal with H : In _ _ |- _ => vm_compute in H; intuition (subst; reflexivity) end. }
  repeat split; vm_compute; reflexivity.
Qed.

(** Which texts are one word that stands for itself where a script does not quote it: those with a character and without spaces, tabs, line ends,
    stars, question marks and opening brackets. *)
Theorem C67_one_word : forall s, one_word s <-> s <> [] /\ forall c, In c s -> ~ In c (map ascii_of_nat [32; 9; 10; 42; 63; 91]%nat).
Proof.
  assert (forall c, blank c = false /\ magic c = false <-> ~ In c (map ascii_of_nat [32; 9; 10; 42; 63; 91]%nat)) as K.
  { intros c. split.
    - intros (H1 & H2) H. cbn [map In] in H. repeat (destruct H as [<-|H]; [first [discriminate H1|discriminate H2]|]). destruct H.
    - intros H. split; (match goal with |- ?b = false => destruct b eqn:E; [|reflexivity] end); exfalso; apply H; apply existsb_exists in E as (x & I & E); apply Ascii.eqb_eq in E; subst x;
        cbn [In] in I; repeat (destruct I as [<-|I]; [vm_compute; tauto|]); destruct I. }
  intros s. unfold one_word. split; intros (A & H); (split; [exact A|]); intros c Hc; apply K, H, Hc.
Qed.
Print Assumptions C67_one_word.
Example C67_one_word_example : one_word (B "./sub/...") /\ ~ one_word (B "./sub dir/...") /\ ~ one_word (B "./[a]").
Proof.
  split; [|split].
  - apply C67_one_word. split; [discriminate|]. intros c Hc. cbn in Hc. repeat (destruct Hc as [<-|Hc]; [vm_compute; intuition discriminate|]). destruct Hc.
  - intros H. apply C67_one_word in H as (_ & H). apply (H " "%char); vm_compute; tauto.
  - intros H. apply C67_one_word in H as (_ & H). apply (H "["%char); vm_compute; tauto.
Qed.
