(** * C72: THREADSAFE_MPI, all functions of LockModel.v *)
From Verif Require Import SerFacts.

(** Reading from all kinds of grids, opening grids of plain types (or of a type which has been checked by another thread before),
    setting communicators: in every execution at most one thread is in MPI, and it holds [mpiLock]. *)
Theorem C72_functions_partial :
  forall cn N p, (forall t, Forall kept (p t)) ->
  forall s t u, reach N (Cfg true true cn) p s -> in_mpi s t -> in_mpi s u -> t = u /\ holds s t LMpi.
Proof. exact one_in_mpi. Qed.
Print Assumptions C72_functions_partial.

(** Thread 0 opens a cache grid with windows, thread 1 misses a block of another grid, which it gets from another process;
    thread 1 is in MPI. *)
Definition ser_read : read := Read 1 0 false false 3 false true 1 (fun _ => None) (Entry true 0) (Entry true 0) true true true true 0.
Definition ser_open : open_args := OpenArgs 7 2 0 2 true true false 1 (Opened 2) [Dim false false; Dim false false] true true 2 (fun _ => false).
Definition ser_prog (t : nat) : list call :=
  match t with 0 => [CComm; COpen (KCacheDist MWin true) ser_open] | 1 => [CRead (KCacheDist MWin true) ser_read] | _ => [] end.
Example C72_functions_example :
  (forall t, Forall kept (ser_prog t)) /\
  match run 2 (init (Cfg true true true) ser_prog) (repeat (AThr 1) 12) with
  | Go s => exists k, s_code s 1 = Mpi k
  | _ => False
  end.
Proof. split; [intros [|[|t]]; repeat constructor|]. cbn. eexists. reflexivity. Qed.
