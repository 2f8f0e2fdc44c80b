(** What C96 says about goroutines that edit files at the same time. *)
From Verif Require Import Base Maps FsModel ModifierModel GoModProps InterModel.

(** The directories given to InjectASTClient and the files written. *)
Definition dirs (js : list job) : list bytes := flat_map (fun j => match j with JClient d _ _ => [d] | _ => [] end) js.
Definition files (js : list job) : list bytes := flat_map (fun j => match j with JFile p _ => [p] | _ => [] end) js.
(** Every directory and every file once; the files are regular files and neither backups nor generated; no links where
    the goroutines write. *)
Definition orderly (f0 : fsys) (js : list job) : Prop :=
  NoDup (dirs js) /\ NoDup (files js) /\
  (forall p, In p (files js) -> (exists m c, f0 p = Some (NFile m c)) /\ regular f0 (bkp p) /\ (forall q, p <> bkp q) /\ (forall d, ~ glob_match d p)) /\
  (forall d q, In d (dirs js) -> glob_match d q -> regular f0 q).

(** As calls one after the other, in the words of C37: the edits, and the call of a goroutine with its outcome. *)
Definition edits (js : list job) : list eevent := flat_map (fun j => match j with JFile p t => [EvEdit p t] | _ => [] end) js.
Definition event (jo : job * outcome) : eevent :=
  match jo with
  | (JClient d _ _, OClient o) => EvInject d o
  | (JFile p _, OFile o) => EvCommitFile p o
  | _ => EvRestore []
  end.
(** Not stopped in the middle of a client file or of a backup. *)
Definition whole (o : outcome) : Prop := o <> OClient IBroken /\ o <> OFile WBroken.
