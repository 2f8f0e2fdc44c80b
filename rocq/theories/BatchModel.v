(** Distributing the functions to instrument over per-file batches
    (lens/astexec.go:301-518, injectMonitorPoints). The project and the module
    loops are the same code over different types. *)
From Verif Require Import Base Maps.

Section Batch.
(** CallerFunction or ModuleFunction (lens/types.go:72-95), their order being given. *)
Variable F : Type.
(** FilePath of a function, lens/astexec.go:372. *)
Variable file : F -> bytes.
(** lens/astexec.go:378, 457: filepath.Dir *)
Variable dir : bytes -> bytes.

(** lens/astexec.go:370-371: the loop variables; the batches and client injections
    started so far, oldest first. *)
Record bstate := BSt { b_file : bytes; b_funcs : list F; b_pkgs : list bytes; b_batches : list (list F); b_clients : list bytes }.

(** lens/astexec.go:372-393, one iteration (the module loop is 449-476). *)
Definition batch_step (s : bstate) (cf : F) : bstate :=
  if beq (b_file s) (file cf) then BSt (b_file s) (b_funcs s ++ [cf]) (b_pkgs s) (b_batches s) (b_clients s)
  else
    let d := dir (file cf) in
    let seen := existsb (beq d) (b_pkgs s) in
    BSt (file cf) [cf] (if seen then b_pkgs s else b_pkgs s ++ [d]) (b_batches s ++ [b_funcs s]) (if seen then b_clients s else b_clients s ++ [d]).

(** lens/astexec.go:370-371: before the first iteration. *)
Definition batch_init : bstate := BSt [] [] [] [] [].

(** lens/astexec.go:370-395: all batches and client injections started for the sorted
    functions; the last batch is started after the loop. *)
Definition batch_run (sorted : list F) : list (list F) * list bytes :=
  let s := fold_left batch_step sorted batch_init in (b_batches s ++ [b_funcs s], b_clients s).

(** The outcome of one injection (lens/astexec.go:325-334, 344-351). *)
Inductive inj (A : Type) := JOk (a : A) | JNormal | JFail.
Arguments JOk {A}. Arguments JNormal {A}. Arguments JFail {A}.

(** FunctionIdent, lens/astexec.go:336. *)
Variable ident : F -> bytes.
(** ReturnPanic, lens/astexec.go:320. *)
Variable return_panic : F -> bool.
(** InjectFuncPointReturnStates, lens/astexec.go:325. *)
Variable inject_returns : F -> inj (list N).
(** InjectFuncPointPanic, lens/astexec.go:344. *)
Variable inject_panic : F -> inj N.

(** lens/astexec.go:317-355: the functions of one batch; the ids and identifiers of
    return and panic points, or an error. *)
Fixpoint batch_funcs (fs : list F) (states panics : list (N * bytes)) : option (list (N * bytes) * list (N * bytes)) :=
  match fs with
  | [] => Some (states, panics)
  | cf :: fs' =>
      if return_panic cf then batch_funcs fs' states panics
      else match inject_returns cf with
           | JFail => None
           | JNormal => batch_funcs fs' states panics
           | JOk [] => batch_funcs fs' states panics
           | JOk ids =>
               let states := states ++ map (fun id => (id, ident cf)) ids in
               match inject_panic cf with
               | JFail => None
               | JNormal => batch_funcs fs' states panics
               | JOk id => batch_funcs fs' states (panics ++ [(id, ident cf)])
               end
           end
  end.

(** lens/astexec.go:311-366 fileFuncHandler: nothing for an empty batch, an error for a
    batch of several files or when the file cannot be written. *)
Definition handle_batch (commit_ok : bytes -> bool) (fs : list F) : option (list (N * bytes) * list (N * bytes)) :=
  match fs with
  | [] => Some ([], [])
  | f :: _ =>
      if beq (file f) (file (last fs f)) then
        match batch_funcs fs [] [] with
        | Some r => if commit_ok (file f) then Some r else None
        | None => None
        end
      else None
  end.

(** Assigning map entries one after the other, later ones overwriting
    (lens/astexec.go:335-340, 351, 361-364); the map is looked up from the last entry. *)
Definition lookup_point (m : list (N * bytes)) (id : N) : option bytes :=
  match find (fun e => N.eqb (fst e) id) (rev m) with Some e => Some (snd e) | None => None end.

(** lens/astexec.go:361-364, 480: the maps of all batches, in the order they finish. *)
Fixpoint merge_batches (commit_ok : bytes -> bool) (order : list (list F)) : option (list (N * bytes) * list (N * bytes)) :=
  match order with
  | [] => Some ([], [])
  | b :: rest =>
      match handle_batch commit_ok b, merge_batches commit_ok rest with
      | Some (s, p), Some (s', p') => Some (s ++ s', p ++ p')
      | _, _ => None
      end
  end.

(** InjectFuncPointEntry, lens/astexec.go:409. *)
Variable inject_entry : F -> inj N.
(** lens/astexec.go:408-432: the changed functions of one file of a module; the ids and
    identifiers of entry and panic points, or an error. *)
Fixpoint module_funcs (fs : list F) (entries panics : list (N * bytes)) : option (list (N * bytes) * list (N * bytes)) :=
  match fs with
  | [] => Some (entries, panics)
  | mf :: fs' =>
      match inject_entry mf with
      | JFail => None
      | JNormal => module_funcs fs' entries panics
      | JOk id =>
          let entries := entries ++ [(id, ident mf)] in
          if return_panic mf then module_funcs fs' entries panics
          else match inject_panic mf with
               | JFail => None
               | JNormal => module_funcs fs' entries panics
               | JOk p => module_funcs fs' entries (panics ++ [(p, ident mf)])
               end
      end
  end.
(** lens/astexec.go:400-443: as [handle_batch]. *)
Definition handle_module (commit_ok : bytes -> bool) (fs : list F) : option (list (N * bytes) * list (N * bytes)) :=
  match fs with
  | [] => Some ([], [])
  | f :: _ =>
      if beq (file f) (file (last fs f)) then
        match module_funcs fs [] [] with
        | Some r => if commit_ok (file f) then Some r else None
        | None => None
        end
      else None
  end.
End Batch.
Arguments JOk {A}. Arguments JNormal {A}. Arguments JFail {A}.
