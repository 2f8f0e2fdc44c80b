(** Commands and their output: the locked buffer (lens/util_io.go:88-128), a command whose output is
    shown and captured (lens/exec.go:54-75), a test run (lens/exec.go:77-92) and the text kept of a
    failed test (lens/astexec.go:568-571).  Definitions only. *)
From Verif Require Import Base UtilModel.

(** ** The locked buffer *)
(** A bytes.Buffer that is never read from (lens/util_io.go:88-91): the arrays made so far, each as long as
    its capacity, the one in use and how much of it is filled. *)
Record lbuf := LBuf { lb_arrays : list bytes; lb_cur : nat; lb_len : nat }.
(** lens/util_io.go:94-96; no array yet is an array without room. *)
Definition new_lbuf : lbuf := LBuf [[]] 0 0.
(** The array in use (lens/util_io.go:90). *)
Definition array (b : lbuf) (i : nat) : bytes := nth i (lb_arrays b) [].
(** What Bytes returns is a slice: an array and a length (lens/util_io.go:105-110). *)
Definition view : Type := nat * nat.
(** What is read through it later (lens/util_io.go:109). *)
Definition seen (b : lbuf) (v : view) : bytes := firstn (snd v) (array b (fst v)).
(** Bytes (lens/util_io.go:105-110). *)
Definition lb_view (b : lbuf) : view := (lb_cur b, lb_len b).
(** The text from [k] on replaced by [p] (copy, lens/util_io.go:102). *)
Definition over (a : bytes) (k : nat) (p : bytes) : bytes := firstn k a ++ p ++ skipn (k + length p) a.
(** The entry of a list replaced (lens/util_io.go:102). *)
Fixpoint set_at {A} (i : nat) (x : A) (l : list A) : list A :=
  match l, i with [], _ => [] | _ :: l', O => x :: l' | y :: l', S i' => y :: set_at i' x l' end.
(** What may be called (lens/util_io.go:98-128); each holds the lock from beginning to end. *)
Inductive lbop := OWrite (p : bytes) | OReset | OLook.
(** lens/util_io.go:98-128. Write uses the array in use when there is room; else a longer one is made, with
    anything in the rest. *)
Inductive lb_step : lbuf -> lbop -> lbuf -> Prop :=
  | lb_fits : forall b p, (lb_len b + length p <= length (array b (lb_cur b)))%nat ->
      lb_step b (OWrite p) (LBuf (set_at (lb_cur b) (over (array b (lb_cur b)) (lb_len b) p) (lb_arrays b)) (lb_cur b) (lb_len b + length p))
  | lb_grows : forall b p rest, (length (array b (lb_cur b)) < lb_len b + length p)%nat ->
      lb_step b (OWrite p) (LBuf (lb_arrays b ++ [seen b (lb_view b) ++ p ++ rest]) (length (lb_arrays b)) (lb_len b + length p))
  | lb_reset : forall b, lb_step b OReset (LBuf (lb_arrays b) (lb_cur b) 0)
  | lb_look : forall b, lb_step b OLook b.
(** Calls in the order in which they got the lock (lens/util_io.go:88-128). *)
Inductive lb_run : lbuf -> list lbop -> lbuf -> Prop :=
  | lr_nil : forall b, lb_run b [] b
  | lr_cons : forall b o b1 l b2, lb_step b o b1 -> lb_run b1 l b2 -> lb_run b (o :: l) b2.

(** ** A command that is shown and captured *)
(** NewProjectCapturedOutputExec (lens/exec.go:62-75): what the two copying goroutines of os/exec will still
    read ([None]: one stopped with an error), the bytes captured, whether one of them failed.  The
    terminal (66, 70) may refuse or shorten any write; the buffer (67, 71) takes all. *)
Record capture := Capture { ca_out : option (list bytes); ca_err : option (list bytes); ca_buf : bytes; ca_bad : bool }.
(** lens/exec.go:62-73: one goroutine copies one piece; teeWriter (lens/util_io.go:41-48) writes to both, then
    says whether both took all of it. *)
Inductive cap_step : capture -> capture -> Prop :=
  | cp_out : forall p l e b bad ok, cap_step (Capture (Some (p :: l)) e b bad) (Capture (if ok : bool then Some l else None) e (b ++ p) (bad || negb ok))
  | cp_err : forall p l o b bad ok, cap_step (Capture o (Some (p :: l)) b bad) (Capture o (if ok : bool then Some l else None) (b ++ p) (bad || negb ok)).
(** lens/exec.go:64-73. *)
Inductive cap_run (c : capture) : capture -> Prop :=
  | cr_here : cap_run c c
  | cr_step : forall c1 c2, cap_run c c1 -> cap_step c1 c2 -> cap_run c c2.
(** A goroutine has ended: there is nothing more or it failed (lens/exec.go:73, os/exec waits for both). *)
Definition ended (o : option (list bytes)) : bool := match o with Some (_ :: _) => false | _ => true end.
(** lens/exec.go:73-74: what is returned, the bytes and whether the error is nil; [exit_ok]: the process
    ended well. *)
Inductive captured (outs errs : list bytes) (exit_ok : bool) : bytes -> bool -> Prop :=
  | cd_run : forall o e b bad, cap_run (Capture (Some outs) (Some errs) [] false) (Capture o e b bad) -> ended o = true -> ended e = true ->
      captured outs errs exit_ok b (exit_ok && negb bad).

(** ** A test run *)
(** The arguments of ExecGoTest (lens/exec.go:79-80). *)
Definition test_args (name : bytes) : list bytes :=
  map B ["test"; "-timeout=30s"; "-count=1"; "-parallel=1"; "-run"]%string ++ [B "^" ++ name ++ B "$"].
(** os/exec (lens/exec.go:81-83): who writes to what. The streams 1 and 2 of the process go to writers; one
    goroutine for both if the writers are the same one, else one for each. *)
Definition copiers (stdout stderr : nat) : list (nat * list nat) :=
  if Nat.eqb stdout stderr then [(stdout, [1; 2]%nat)] else [(stdout, [1%nat]); (stderr, [2%nat])].
(** What the goroutine of some streams reads (lens/exec.go:81-83): what the process wrote to them, in its order. *)
Definition read_by (streams : list nat) (written : list (nat * bytes)) : bytes :=
  concat (map snd (filter (fun w => existsb (Nat.eqb (fst w)) streams) written)).

(** How much of the output of a test is kept (lens/astexec.go:531). *)
Definition test_keep : nat := N.to_nat 8192.

(** ** The text of a failed test *)
(** strings.TrimSpace (lens/astexec.go:569-570); spaces beyond ASCII are left out. *)
Definition is_space (c : ascii) : bool := let n := N_of_ascii c in ((9 <=? n) && (n <=? 13) || (n =? 32))%N.
(** lens/astexec.go:569-570. *)
Fixpoint trim_left (s : bytes) : bytes := match s with c :: s' => if is_space c then trim_left s' else s | [] => [] end.
(** lens/astexec.go:569-570. *)
Definition trim_space (s : bytes) : bytes := rev (trim_left (rev (trim_left s))).
(** strings.ReplaceAll with nothing (lens/astexec.go:570): from left to right, not overlapping; [k] bytes of
    a place that was found are still to be left out. *)
Fixpoint delete_all (m : bytes) (k : nat) (s : bytes) : bytes :=
  match s with
  | [] => []
  | c :: s' => match k with
               | S k' => delete_all m k' s'
               | O => if has_prefix m s then delete_all m (pred (length m)) s' else c :: delete_all m 0 s'
               end
  end.
(** "FAIL\nexit status 1\n" (lens/astexec.go:570). *)
Definition fail_mark : bytes := B "FAIL" ++ [nl] ++ B "exit status 1" ++ [nl].
(** cleanExecOutput (lens/astexec.go:568-571). *)
Definition clean_output (s : bytes) : bytes := trim_space (delete_all fail_mark 0 (trim_space s)).
