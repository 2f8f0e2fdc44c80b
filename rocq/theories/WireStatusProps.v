(** C05: how the server answers requests of any kind. *)
From Verif Require Import Base WireModel.

(** The four endpoints, and which kind of event each one passes on. *)
Definition endpoint (p : bytes) : Prop := In p (map B ["/ast.0/event/error"; "/ast.0/point/point"; "/ast.0/point/state"; "/ast.0/point/panic"]%string).
Definition kind_at (p : bytes) (e : event) : Prop :=
  match e with
  | EvError _ => p = B "/ast.0/event/error"
  | EvPoint _ => p = B "/ast.0/point/point"
  | EvState _ => p = B "/ast.0/point/state"
  | EvPanic _ => p = B "/ast.0/point/panic"
  end.

Lemma handled {A} (d : reader A) (ev : A -> event) (Q : event -> Prop) rq : (forall m, Q (ev m)) ->
  (rq_post rq = false -> handle d ev rq = Served 405 None) /\
  (rq_post rq = true -> (exists e, handle d ev rq = Served 200 (Some e) /\ Q e) \/ handle d ev rq = Served 400 None \/ handle d ev rq = Aborted).
Proof.
  intros K. unfold handle. destruct (rq_post rq); (split; intros H; try discriminate H); [| reflexivity].
  destruct (d (rq_body rq)); eauto.
Qed.

(** Any request: 404 away from the four endpoints, 405 for other methods than POST; else the event is passed on with 200 and is of the kind
    of its endpoint, or nothing is passed on and the answer is 400, or the connection is dropped. *)
Theorem C05_answers : forall maxlen rq,
  (~ endpoint (rq_path rq) -> serve maxlen rq = Served 404 None) /\
  (endpoint (rq_path rq) -> rq_post rq = false -> serve maxlen rq = Served 405 None) /\
  (endpoint (rq_path rq) -> rq_post rq = true ->
     (exists e, serve maxlen rq = Served 200 (Some e) /\ kind_at (rq_path rq) e) \/ serve maxlen rq = Served 400 None \/ serve maxlen rq = Aborted).
Proof.
  intros maxlen rq. unfold serve.
  destruct (beq_spec (rq_path rq) path_error) as [E | N1];
    [destruct (handled dec_error EvError (kind_at (rq_path rq)) rq (fun m => E)) as [H1 H2]; split; [intros N; destruct N; rewrite E; left; reflexivity | split; intros _; assumption] |].
  destruct (beq_spec (rq_path rq) path_point) as [E | N2];
    [destruct (handled dec_point EvPoint (kind_at (rq_path rq)) rq (fun m => E)) as [H1 H2]; split; [intros N; destruct N; rewrite E; right; left; reflexivity | split; intros _; assumption] |].
  destruct (beq_spec (rq_path rq) path_state) as [E | N3];
    [destruct (handled (dec_state maxlen) EvState (kind_at (rq_path rq)) rq (fun m => E)) as [H1 H2]; split; [intros N; destruct N; rewrite E; right; right; left; reflexivity | split; intros _; assumption] |].
  destruct (beq_spec (rq_path rq) path_panic) as [E | N4];
    [destruct (handled dec_panic EvPanic (kind_at (rq_path rq)) rq (fun m => E)) as [H1 H2]; split; [intros N; destruct N; rewrite E; right; right; right; left; reflexivity | split; intros _; assumption] |].
  split; [reflexivity |]. split; intros [E | [E | [E | [E | []]]]]; exfalso; symmetry in E; [exact (N1 E) | exact (N2 E) | exact (N3 E) | exact (N4 E) | exact (N1 E) | exact (N2 E) | exact (N3 E) | exact (N4 E)].
Qed.
Print Assumptions C05_answers.

(** The same body at three places and with another method, and a body that does not decode. *)
Example C05_answers_example : let b := enc_point 7 3 [] in
  serve 100 (mkReq true (B "/ast.0/point/point") b) = Served 200 (Some (EvPoint (mkPoint 7 3 []))) /\
  serve 100 (mkReq false (B "/ast.0/point/point") b) = Served 405 None /\
  serve 100 (mkReq true (B "/ast.0/point") b) = Served 404 None /\
  serve 100 (mkReq true (B "/ast.0/point/panic") []) = Served 400 None.
Proof. vm_compute. auto. Qed.
