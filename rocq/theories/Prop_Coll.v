(** * Properties C71 and C72: collective calls and concurrent calls with THREADSAFE_MPI (mpi/mpicomm.h) *)
From Verif Require Import CollFacts.

(** C71: two threads of each of two processes open one full grid each, with windows and THREADSAFE_MPI.  On process 0 the first
    thread has locked [mpiLock] and waits in MPI_Comm_dup for process 1; there the second thread has locked it and
    waits for process 0. *)
Theorem C71_open_blocked_refuted :
  exists s, lreach true 2 2 (fun _ => full_open) s /\ (forall p t, lstep true 2 2 s p t = None) /\
  forall p t, p < 2 -> t < 2 -> length (l_todo s p t) = length full_open.
Proof. exact open_blocked. Qed.
Print Assumptions C71_open_blocked_refuted.

(** The same while closing: the two grids are open, all calls before MPI_Win_free have been made. *)
Theorem C71_close_blocked_refuted :
  exists s, lreach true 2 2 (fun _ => full_open ++ full_close) s /\ (forall p t, lstep true 2 2 s p t = None) /\
  forall p t, p < 2 -> t < 2 -> length (l_todo s p t) = 3.
Proof. exact close_blocked. Qed.
Print Assumptions C71_close_blocked_refuted.

(** C71, without THREADSAFE_MPI or with one thread of each process which makes collective calls under the lock (opens and
    closes grids with windows): nothing is blocked for ever, and every schedule ends with all work done. *)
Theorem C71_no_deadlock_partial :
  forall lib P T prog s, (lib = true -> exists t0, one_opener T prog t0) -> lreach lib P T prog s ->
  forall p t, p < P -> t < T -> l_todo s p t <> [] -> exists p' t' s', lstep lib P T s p' t' = Some s'.
Proof. exact l_progress. Qed.
Print Assumptions C71_no_deadlock_partial.

Theorem C71_finishes_partial :
  forall lib P T prog acts s, (lib = true -> exists t0, one_opener T prog t0) -> lrun lib P T (linit prog) acts = Some s ->
  (forall p t, lstep lib P T s p t = None) -> forall p t, p < P -> t < T -> l_todo s p t = [].
Proof. exact l_finishes. Qed.
Print Assumptions C71_finishes_partial.

Theorem C71_bounded :
  forall lib P T prog acts s, lrun lib P T (linit prog) acts = Some s ->
  length acts <= P * list_sum (map (fun t => list_sum (map (fun k => 2 * k_colls k + 2) (prog t))) (seq 0 T)).
Proof. exact l_bounded. Qed.
Print Assumptions C71_bounded.

(** C72: with THREADSAFE_MPI two threads of a process call MPI at the same time: one closes a grid (MPI_Barrier, mpicomm.h
    line 150), the other reads from another grid. *)
Theorem C72_barrier_refuted :
  exists prog s, prog 0 = full_open ++ full_close /\ prog 1 = [full_read] /\
  lreach true 2 2 prog s /\ in_mpi s 0 0 /\ in_mpi s 0 1.
Proof. exact barrier_overlap. Qed.
Print Assumptions C72_barrier_refuted.

(** One creates the datatype of a grid of arrays (types/arraytype.h lines 107-110), the other allocates memory. *)
Theorem C72_types_refuted :
  exists prog s, prog 0 = comm_init :: type_create :: tl full_open /\ prog 1 = full_open /\
  lreach true 1 2 prog s /\ in_mpi s 0 0 /\ in_mpi s 0 1.
Proof. exact types_overlap. Qed.
Print Assumptions C72_types_refuted.

(** C72, what holds: the regions under the lock exclude each other, so that one thread at a time calls MPI
    if all regions of the programs are under the lock (opening and reading grids of plain types with windows). *)
Theorem C72_locked_exclusive_partial :
  forall lib P T prog s p t t', lib = true -> lreach lib P T prog s -> locked s p t -> locked s p t' -> t = t'.
Proof. exact l_exclusive. Qed.
Print Assumptions C72_locked_exclusive_partial.

Theorem C72_one_in_mpi_partial :
  forall lib P T prog s p t t', lib = true -> (forall t, Forall (fun k => k_lock k = true) (prog t)) -> lreach lib P T prog s ->
  in_mpi s p t -> in_mpi s p t' -> t = t'.
Proof. exact l_one_in_mpi. Qed.
Print Assumptions C72_one_in_mpi_partial.

(** One thread opens and closes two grids, the others read. *)
Definition demo_prog (t : nat) : list call :=
  match t with 0 => full_open ++ cache_open ++ full_close ++ cache_close | _ => [full_read; full_read] end.
Example C71_one : one_opener 3 demo_prog 0.
Proof. intros [|t] Ht Hne; [congruence|]. repeat constructor. Qed.
(** A schedule in turns. *)
Fixpoint turns (fuel P T : nat) (s : lst) : lst :=
  match fuel with
  | 0 => s
  | S fuel' => turns fuel' P T (fold_left (fun s a => match lstep true P T s (fst a) (snd a) with Some s' => s' | None => s end)
                                  (list_prod (seq 0 P) (seq 0 T)) s)
  end.
Example C71_done : let s := turns 120 2 3 (linit demo_prog) in
  map (fun p => map (fun t => length (l_todo s p t)) (seq 0 3)) (seq 0 2) = [[0; 0; 0]; [0; 0; 0]].
Proof. vm_compute. reflexivity. Qed.
(** A state with a thread in a collective call under the lock and another one waiting for the lock. *)
Example C71_waiting : let s := turns 2 2 3 (linit demo_prog) in
  l_ph s 0 0 = Arr 0 /\ l_lock s 0 = Some 0 /\ l_ph s 0 1 = Ready /\ lstep true 2 3 s 0 1 = None.
Proof. vm_compute. auto. Qed.
(** Programs with all regions under the lock. *)
Example C72_opening : Forall (fun k => k_lock k = true) (full_open ++ cache_open ++ [full_read]).
Proof. repeat constructor. Qed.
