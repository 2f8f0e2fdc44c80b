(** Storing the results of the tests and reading them back (lens/astexec.go:100-182, 222-262, lens/engine.go:390-420, 612-624): the two loops over
    the tests (TestRunModel.v) write through views of one store (StorageModel.v); the second loop and the comparison (CompareModel.v) read from
    them.  Definitions only. *)
From Verif Require Import Base Maps StorageModel TypesModel StableModel CompareModel TestRunModel.

Section Stored.
(** lens/util.go:128-134: [crypto/sha1], any function. *)
Variable sha1 : bytes -> bytes.
(** [msgpack.Marshal] of a stack (lens/types.go:207-213), any function. *)
Variable mp : stack -> bytes.
(** The bytes of msgpack for the stored form (lens/types.go:410-418); the format is the library's. *)
Variable pack : enctr -> bytes.
(** The library's part of UnmarshalMsgpack (lens/types.go:420-427). *)
Variable unpack : bytes -> option enctr.
(** The order in which the counting pass visits the maps (lens/types.go:245-256): any. *)
Variable visit : tresult -> tresult.
(** How deep decoding goes (lens/types.go:438-480); Go has no bound, the theorems ask for enough. *)
Variable fuel : nat.

(** What is stored, lens/astexec.go:254-256. *)
Definition blob_of (r : tresult) : bytes := pack (marshal sha1 mp (visit r) r).
(** UnmarshalMsgpack, lens/types.go:420-531. *)
Definition read_blob (b : bytes) : option tresult :=
  match unpack b with
  | Some t => match unmarshal fuel t with DOk r => Some r | _ => None end
  | None => None
  end.
(** loadTestResult, lens/engine.go:612-624; the same in the second loop, lens/astexec.go:227-241. *)
Definition load_from {S} (view : storage S) (s : S) (k : bytes) : loaded :=
  match sLoad view k s with
  | LOk (Some b) => match read_blob b with Some r => LSome r | None => CompareModel.LErr end
  | LOk None => LNone
  | _ => CompareModel.LErr
  end.

Section Loop.
(** Errors, lens/astexec.go:222-260. *)
Variable E : Type.
(** tFunc.FunctionIdent, lens/astexec.go:227, 258. *)
Variable ident : nat -> bytes.
(** len(testFunctions), lens/astexec.go:220. *)
Variable ntests : nat.
(** The servers, lens/astexec.go:75-95. *)
Variable servers : list nat.

(** The calls made to the store by one step of the loop, lens/astexec.go:256-262; a failed call may leave anything under the key. *)
Definition writes (st : state tresult E) (e : event tresult E) : list op :=
  match e with
  | ESave _ _ i err =>
      match t_tests _ _ st i with
      | PSave _ _ _ os =>
          match final _ (stable_result sha1) os, err with
          | Some (r, _, _), None => [Save (ident i) (blob_of r)]
          | Some _, Some (_, Some b) => [Save (ident i) b]
          | Some _, Some (_, None) => [Delete (ident i)]
          | None, _ => []
          end
      | _ => []
      end
  | _ => []
  end.
(** One step of the loop of lens/astexec.go:220-298 with these results. *)
Definition loop_step (force update : bool) := TestRunModel.step tresult (stable_result sha1) E blob_of ntests ident servers force update.
(** An execution of it, lens/astexec.go:220-298. *)
Definition loop_exec (force update : bool) := TestRunModel.exec tresult (stable_result sha1) E blob_of ntests ident servers force update.
(** The state in front of it, lens/astexec.go:215-219. *)
Definition loop_init : state tresult E := TestRunModel.init tresult E servers.
(** All calls made by an execution, lens/astexec.go:220-298. *)
Fixpoint history (force update : bool) (st : state tresult E) (tr : list (event tresult E)) : list op :=
  match tr with
  | [] => []
  | e :: tr' => match loop_step force update st e with Some st' => writes st e ++ history force update st' tr' | None => [] end
  end.

(** The two views of the store, lens/astexec.go:100, 170. *)
Definition pre_view {S} (st : storage S) : storage S := key_prefix_storage st (B "pre").
(** lens/astexec.go:170. *)
Definition post_view {S} (st : storage S) : storage S := key_prefix_storage st (B "post").
(** What the second loop finds of a test, lens/astexec.go:226-241. *)
Definition answers (l : loaded) (r : E + bool) : Prop :=
  match l with
  | CompareModel.LErr => exists x, r = inl x
  | LNone => r = inr false
  | LSome _ => r = inr true
  end.
End Loop.

(** CompareTestResults on the two views, lens/engine.go:390-420, with the keys as listed by the store. *)
Definition compare_views {S} (quote : bytes -> bytes) (unified : bytes -> bytes -> option bytes) (mult : N) (st : storage S) (s : S)
  : option (N * N * list treport) :=
  compare_results quote unified (project_key sha1) mult (Some (sList (pre_view st) [] s)) (Some (sList (post_view st) [] s))
    (load_from (pre_view st) s) (load_from (post_view st) s).
End Stored.
