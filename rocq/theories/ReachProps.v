(** C69: the messages of a test reach the server of that test. *)
From Verif Require Import Base Maps UtilModel UtilProps WireModel WireSpec WireDec TemplateModel ReachModel.
Local Open Scope nat_scope.

Lemma itoa_first n : exists c s, itoa n = c :: s /\ is_digit c = true.
Proof.
  pose proof (atoi_itoa n) as A. destruct (itoa n) as [|c s]; [discriminate|]. exists c, s. split; [reflexivity|].
  cbn in A. destruct (is_digit c); [reflexivity|discriminate].
Qed.
Lemma digit_chars s : forall k n, atoi_acc k s = Some n -> forall c, In c s -> is_digit c = true.
Proof.
  induction s as [|x s IH]; intros k n H c Hc; [destruct Hc|]. cbn in H. destruct (is_digit x) eqn:E; [|discriminate].
  destruct Hc as [<-|Hc]; [exact E|eapply IH; eassumption].
Qed.
Lemma itoa_chars n c : In c (itoa n) -> is_digit c = true.
Proof.
  intros H. pose proof (atoi_itoa n) as A. unfold atoi in A. destruct (itoa n) as [|x s] eqn:E; [destruct H|]. rewrite <- E in *.
  eapply digit_chars; [exact A|exact H].
Qed.
Lemma zitoa_chars z c : In c (zitoa z) -> c = "-"%char \/ is_digit c = true.
Proof. unfold zitoa. destruct (z <? 0)%Z; [intros [<-|H]; [auto|]|intros H]; right; eapply itoa_chars; exact H. Qed.
Lemma zitoa_nonempty z : zitoa z <> [].
Proof. unfold zitoa. destruct (z <? 0)%Z; [discriminate|apply itoa_nonempty]. Qed.
Lemma zitoa_inj a b : zitoa a = zitoa b -> a = b.
Proof.
  unfold zitoa. destruct (Z.ltb_spec a 0), (Z.ltb_spec b 0); intros E.
  - injection E as E. apply itoa_inj in E. lia.
  - destruct (itoa_first (Z.to_N b)) as (c & s & Eb & D). rewrite Eb in E. injection E as <- _. discriminate.
  - destruct (itoa_first (Z.to_N a)) as (c & s & Ea & D). rewrite Ea in E. injection E as -> _. discriminate.
  - apply itoa_inj in E. lia.
Qed.
Lemma atoi_zitoa z : (- 2 ^ 63 <= z < 2 ^ 63)%Z -> atoi_signed (zitoa z) = Some z.
Proof.
  intros R. unfold zitoa. destruct (Z.ltb_spec z 0) as [L|L].
  - unfold atoi_signed. rewrite atoi_itoa. rewrite Z2N.id by lia. rewrite Z.opp_involutive.
    destruct (Z.leb_spec (- 2 ^ 63) z); [|lia]. destruct (Z.ltb_spec z (2 ^ 63)); [reflexivity|lia].
  - destruct (itoa_first (Z.to_N z)) as (c & s & E & D). pose proof (atoi_itoa (Z.to_N z)) as A. rewrite E in *.
    assert (atoi_signed (c :: s) = match atoi (c :: s) with Some n => if ((- 2 ^ 63 <=? Z.of_N n) && (Z.of_N n <? 2 ^ 63))%Z then Some (Z.of_N n) else None | None => None end) as ->.
    { unfold atoi_signed. destruct (Ascii.eqb_spec c "-"%char) as [->|N1]; [discriminate|]. destruct (Ascii.eqb_spec c "+"%char) as [->|N2]; [discriminate|].
      destruct c as [[] [] [] [] [] [] [] []]; try reflexivity; try (exfalso; apply N1; reflexivity); exfalso; apply N2; reflexivity. }
    rewrite A, Z2N.id by lia. destruct (Z.leb_spec (- 2 ^ 63) z); [|lia]. destruct (Z.ltb_spec z (2 ^ 63)); [reflexivity|lia].
Qed.

Lemma after_colon_host host s : ~ In ":"%char host -> after_colon (host ++ B ":" ++ s) = s.
Proof.
  induction host as [|c h IH]; intros N; [reflexivity|]. cbn [app after_colon]. destruct (Ascii.eqb_spec c ":"%char) as [->|]; [exfalso; apply N; left; reflexivity|].
  apply IH. intros H. apply N. right. exact H.
Qed.

(** The port asked of a server is the port it was started with, for hosts without a
    colon. *)
Theorem C69_port_known : forall host port, ~ In ":"%char host -> (- 2 ^ 63 <= port < 2 ^ 63)%Z -> server_port (server_addr host port) = port.
Proof. intros host port N R. unfold server_port, server_addr. rewrite after_colon_host by exact N. rewrite atoi_zitoa by exact R. reflexivity. Qed.
Print Assumptions C69_port_known.
Theorem C69_ipv6_port_refuted : exists host, server_port (server_addr host 8448) = 0%Z.
Proof. exists (B "::1"). reflexivity. Qed.
Print Assumptions C69_ipv6_port_refuted.

Lemma seq_addrs_nodup start n k : NoDup (map (fun i => server_addr monitor_host (start + Z.of_nat i)) (seq k n)).
Proof.
  revert k. induction n as [|n IH]; intros k; [constructor|]. cbn [seq map]. constructor; [|apply IH].
  intros H. apply in_map_iff in H as (i & E & Hi). apply in_seq in Hi. unfold server_addr in E. apply app_inv_head in E. apply app_inv_head in E.
  apply zitoa_inj in E. lia.
Qed.

(** No two servers have the same address; there are at most 64 and at most one per test,
    but one if there are tests. *)
Theorem C69_servers_apart : forall start cpus tests,
  NoDup (server_addrs start cpus tests) /\ length (server_addrs start cpus tests) <= 64 /\
  length (server_addrs start cpus tests) <= tests /\ (0 < tests -> 0 < length (server_addrs start cpus tests)).
Proof.
  intros start cpus tests. split; [apply seq_addrs_nodup|]. unfold server_addrs. rewrite map_length, seq_length. unfold server_count.
  pose proof (Nat.le_max_l 1 (Nat.div cpus 2)). lia.
Qed.
Print Assumptions C69_servers_apart.

Lemma getenv_app k a b : (forall e, In e b -> has_prefix (k ++ B "=") e = false) -> getenv k (a ++ b) = getenv k a.
Proof.
  intros H. unfold getenv. rewrite fold_left_app. induction b as [|e b IH] using rev_ind; [reflexivity|]. rewrite fold_left_app. cbn [fold_left].
  rewrite (H e) by (apply in_or_app; right; left; reflexivity). apply IH. intros x Hx. apply H, in_or_app. left. exact Hx.
Qed.
Lemma getenv_snoc k a v : getenv k (a ++ [k ++ B "=" ++ v]) = v.
Proof.
  unfold getenv. rewrite fold_left_app. cbn [fold_left]. rewrite app_assoc, has_prefix_app.
  rewrite skipn_app, app_length. cbn [length B String.length list_ascii_of_string].
  rewrite skipn_all2 by (rewrite app_length; cbn; lia). replace (S (length k) - (length k + 1)) with 0 by lia. reflexivity.
Qed.

Lemma test_env_port environ gopath gomodcache addr :
  getenv (B "LENS_MONITOR_PORT") (test_env environ gopath gomodcache addr) = zitoa (server_port addr).
Proof.
  unfold test_env. destruct (C21_child_environment environ ((B "LENS_MONITOR_PORT=" ++ zitoa (server_port addr)) :: go_env gopath gomodcache)) as (kept & -> & _).
  change (kept ++ ?x :: ?l) with (kept ++ [x] ++ l). rewrite app_assoc, getenv_app.
  - apply (getenv_snoc (B "LENS_MONITOR_PORT") kept (zitoa (server_port addr))).
  - intros e He. unfold go_env in He. apply in_app_or in He as [He|He].
    + destruct (beq gopath []); [destruct He|]. destruct He as [<-|[]]. reflexivity.
    + destruct (beq gomodcache []); [destruct He|]. destruct He as [<-|[]]. reflexivity.
Qed.

(** The URL of a message: scheme, address and path. *)
Definition url_of (addr path url : bytes) : Prop := url = B "http://" ++ addr ++ path /\ ~ In "/"%char addr /\ exists r, path = "/"%char :: r.

(** Whatever the environment of this process and whatever port the client was injected
    with, the messages of a test process go to the server the test was given, each to the
    path of its kind. *)
Theorem C69_own_server : forall environ gopath gomodcache start cpus tests const_port addr,
  (- 2 ^ 63 <= start)%Z -> (start + 64 < 2 ^ 63)%Z ->
  In addr (server_addrs start cpus tests) ->
  exists base, client_base const_port (test_env environ gopath gomodcache addr) = Some base /\
  forall m, url_of addr (post_path m) (endpoint base (post_path m)).
Proof.
  intros environ gopath gomodcache start cpus tests cp addr L1 L2 Ha. unfold server_addrs in Ha. apply in_map_iff in Ha as (i & <- & Hi). apply in_seq in Hi.
  assert (i < 64) as Li by (unfold server_count in Hi; lia).
  unfold client_base. rewrite test_env_port. rewrite C69_port_known by (try lia; vm_compute; intuition discriminate).
  pose proof (zitoa_nonempty (start + Z.of_nat i)) as Ne. rewrite atoi_zitoa by lia. destruct (zitoa (start + Z.of_nat i)) as [|c s] eqn:Ez; [congruence|]. rewrite <- Ez in *.
  eexists. split; [reflexivity|]. intros m. split; [|split].
  - unfold endpoint, server_addr. rewrite <- !app_assoc. reflexivity.
  - unfold server_addr. intros H. apply in_app_or in H as [H|H]; [vm_compute in H; intuition discriminate|]. apply in_app_or in H as [H|H]; [vm_compute in H; intuition discriminate|].
    apply zitoa_chars in H as [H|H]; discriminate.
  - destruct m; eexists; reflexivity.
Qed.
Print Assumptions C69_own_server.

(** A process started without that environment reports to the port it was injected with,
    which is zero for the analysis. *)
Theorem C69_cleared_environment_refuted : forall env, (forall e, In e env -> has_prefix (B "LENS_MONITOR_PORT=") e = false) ->
  client_base 0 env = Some (B "http://127.0.0.1:0").
Proof. intros env H. unfold client_base. rewrite <- (app_nil_l env). rewrite getenv_app; [reflexivity|exact H]. Qed.
Print Assumptions C69_cleared_environment_refuted.

(** The stack sent holds the innermost frames and is within what the server accepts. *)
Theorem C69_stack_within_limit : forall skip frames,
  1 <= length (capture_stack skip frames) <= 2048 /\
  (skip < length frames -> exists rest, skipn skip frames = capture_stack skip frames ++ rest /\ (length frames <= skip + 2048 -> rest = [])).
Proof.
  intros skip frames. unfold capture_stack. pose proof (firstn_le_length 2048 (skipn skip frames)) as L.
  assert (firstn 2048 (skipn skip frames) = [] -> length frames <= skip) as Z.
  { intros E. apply (f_equal (@length _)) in E. rewrite firstn_length, skipn_length in E.
    cbn [length] in E. lia. }
  destruct (firstn 2048 (skipn skip frames)) as [|f l] eqn:E.
  - split; [cbn [length]; lia|]. intros H. specialize (Z eq_refl). lia.
  - split; [split; [cbn [length]; lia|exact L]|]. intros _. exists (skipn 2048 (skipn skip frames)). split; [rewrite <- E; symmetry; apply firstn_skipn|].
    intros H. apply skipn_all2. rewrite skipn_length. lia.
Qed.
Print Assumptions C69_stack_within_limit.

(** Sending a message makes one request when it succeeds, and otherwise one more, to the
    error endpoint, whatever becomes of that. *)
Theorem C69_requests_bounded : forall net url body error_url err reqs printed,
  post_message net url body error_url err = (reqs, printed) ->
  (reqs = [(url, body)] /\ printed = false /\ exists c, net 0 = RStatus c /\ (c < 300)%N) \/
  (reqs = [(url, body); (error_url, err (net 0))] /\ (net 0 = RFailed \/ exists c, net 0 = RStatus c /\ (300 <= c)%N) /\
   (printed = true <-> net 1 = RFailed \/ exists c, net 1 = RStatus c /\ (300 <= c)%N)).
Proof.
  assert (forall r, failed r = true <-> r = RFailed \/ exists c, r = RStatus c /\ (300 <= c)%N) as Fs.
  { intros [c|]; cbn.
    - destruct (N.leb_spec 300 c); split; auto; [right; eauto|discriminate|intros [E|(d & E & L)]; [discriminate|injection E as ->; lia]].
    - split; auto. }
  intros net url body error_url err reqs printed E. unfold post_message in E. destruct (failed (net 0)) eqn:F.
  - right. injection E as <- <-. split; [reflexivity|]. split; [apply Fs, F|apply Fs].
  - left. injection E as <- <-. split; [reflexivity|]. split; [reflexivity|]. destruct (net 0) as [c|]; [|discriminate]. exists c. split; [reflexivity|].
    cbn in F. apply N.leb_gt in F. exact F.
Qed.
Print Assumptions C69_requests_bounded.

(** A message within the limits, answered by the server, takes one request. *)
Theorem C69_accepted_once : forall maxlen m net base err, (maxlen < 18446744073709551616)%N -> cmsg_ok maxlen m ->
  net 0 = match serve maxlen (mkReq true (post_path m) (post_body m)) with Served c _ => RStatus c | Aborted => RFailed end ->
  post_message net (endpoint base (post_path m)) (post_body m) (endpoint base path_error) err = ([(endpoint base (post_path m), post_body m)], false).
Proof.
  intros maxlen m net base err L Ok E. fold (post m) in E. rewrite (serve_post maxlen m L Ok) in E. unfold post_message. rewrite E. reflexivity.
Qed.
Print Assumptions C69_accepted_once.

(** Three servers; the variable of the surrounding process does not matter. *)
Definition ex69_env : list bytes := test_env [B "HOME=/h"; B "LENS_MONITOR_PORT=1"; B "LD_PRELOAD=x"] (B "/go") [] (B "127.0.0.1:8450").
Example C69_example :
  server_addrs 8448 6 5 = map B ["127.0.0.1:8448"; "127.0.0.1:8449"; "127.0.0.1:8450"]%string /\
  ex69_env = map B ["HOME=/h"; "LENS_MONITOR_PORT=8450"; "GOPATH=/go"]%string /\
  client_base 0 ex69_env = Some (B "http://127.0.0.1:8450") /\
  client_base 0 [B "LENS_MONITOR_PORT=x"] = None /\
  endpoint (B "http://127.0.0.1:8450") path_state = B "http://127.0.0.1:8450/ast.0/point/state" /\
  map fr_line (capture_stack 3 [mkFrame [] [] 1; mkFrame [] [] 2; mkFrame [] [] 3; mkFrame [] [] 4; mkFrame [] [] 5]) = [4%N; 5%N] /\
  post_message (fun _ => RStatus 400) (B "u") (B "b") (B "e") (fun _ => B "m") = ([(B "u", B "b"); (B "e", B "m")], true).
Proof. repeat split; reflexivity. Qed.
