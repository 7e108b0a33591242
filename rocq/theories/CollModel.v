(** * Collective MPI calls under the library-wide MPI lock: mpi/mpicomm.h, allocator/mpialloc.h, transfer/mpiwinfull.h,
      transfer/mpiwincache.h, types/, grid/grid.cpp

    With THREADSAFE_MPI a lock per process, [mpi::MPIComm::mpiLock], "will make sure that ASAGI does not call MPI functions
    from different threads at the same time" (documentation/user/02_usage.h lines 154-156).  Some of the calls under the
    lock are collective: they may wait for the other processes.

    Threads of each process create, open, use and close grids.  Thread [t] of every process does the same with
    the grids of thread [t] (which have their own communicators).

    Simplifications: a function which calls MPI is a region with a number of collective calls; the other
    MPI calls in it return; a collective call returns when all processes have called it (MPI allows this for
    MPI_Comm_dup, MPI_Comm_free, MPI_Win_create and MPI_Win_free); MPI calls do not fail; one NUMA domain; one level.
    Grids with communication thread are left out (C64, C68). *)
From Coq Require Export List Arith Bool Lia.
From Verif Require Export Base.
Export ListNotations.

(** A region: under [mpiLock]?  How many collective calls? *)
Record call := Call { k_lock : bool; k_colls : nat }.

(** [MPIComm::init] (from [setComm]): MPI_Comm_dup, mpicomm.h lines 104-119; [~MPIComm]: MPI_Comm_free, lines 95-99 and 172-177. *)
Definition comm_init : call := Call true 1.
Definition comm_free : call := Call true 1.
(** [MPIComm::barrier], mpicomm.h lines 148-151: without the lock. *)
Definition comm_barrier : call := Call false 1.
(** mpialloc.h lines 67-75 and 81-87. *)
Definition mpi_alloc : call := Call true 0.
Definition mpi_free : call := Call true 0.
(** [getMPIType], arraytype.h lines 105-115, and the destructor, lines 80-84: without the lock. *)
Definition type_create : call := Call false 0.
Definition type_free : call := Call false 0.

(** A full grid with windows.  [open]: storage (full.h lines 100-104), cache (fulldist.h lines 117-121), window (mpiwinfull.h lines
    131-141).  Read of a remote block: mpiwinfull.h lines 166-191.  Closing: grid.cpp lines 177-191, fulldist.h line 93, mpiwinfull.h
    lines 97-103, full.h lines 77-81. *)
Definition full_open : list call := [comm_init; mpi_alloc; mpi_alloc; Call true 1].
Definition full_read : call := Call true 0.
Definition full_close : list call := [comm_barrier; mpi_free; Call true 1; mpi_free; comm_free].
(** A cache grid with windows.  [open]: cache (cache.h lines 102-104), dictionary (mpicache.h lines 104-108), two windows
    (mpiwincache.h lines 173-199).  Closing: mpiwincache.h lines 121-134, mpicache.h lines 83-87, cache.h lines 78-82. *)
Definition cache_open : list call := [comm_init; mpi_alloc; mpi_alloc; Call true 2].
Definition cache_close : list call := [comm_barrier; Call true 2; mpi_free; mpi_free; comm_free].

(** A thread: before the next region; in it with [j] collective calls to do; in one of them with [j] to do after it. *)
Inductive phase := Ready | In_ (j : nat) | Arr (j : nat).
Record lst := LSt {
  l_todo : nat -> nat -> list call;   (* process, thread *)
  l_ph : nat -> nat -> phase;
  l_arr : nat -> nat -> nat;          (* collective calls of thread t which process p has entered *)
  l_lock : nat -> option nat          (* mpiLock of a process *)
}.

Section Step.
Variable lib : bool.                  (* THREADSAFE_MPI *)
Variables P T : nat.                  (* processes, threads of each process *)
Variable prog : nat -> list call.     (* program of thread t on all processes *)

Definition linit : lst := LSt (fun _ => prog) (fun _ _ => Ready) (fun _ _ => 0) (fun _ => None).

Definition set2 {A} (f : nat -> nat -> A) (p t : nat) (x : A) : nat -> nat -> A :=
  fun p' t' => if (p' =? p) && (t' =? t) then x else f p' t'.

(** A step of thread [t] of process [p]. *)
Definition lstep (s : lst) (p t : nat) : option lst :=
  if (p <? P) && (t <? T) then
    match l_todo s p t with
    | [] => None
    | Call lk n :: rest =>
        match l_ph s p t with
        | Ready =>
            if lib && lk then
              match l_lock s p with
              | None => Some (LSt (l_todo s) (set2 (l_ph s) p t (In_ n)) (l_arr s) (upd (l_lock s) p (Some t)))
              | Some _ => None
              end
            else Some (LSt (l_todo s) (set2 (l_ph s) p t (In_ n)) (l_arr s) (l_lock s))
        | In_ (S j) => Some (LSt (l_todo s) (set2 (l_ph s) p t (Arr j)) (set2 (l_arr s) p t (S (l_arr s p t))) (l_lock s))
        | In_ 0 =>
            Some (LSt (set2 (l_todo s) p t rest) (set2 (l_ph s) p t Ready) (l_arr s)
                      (if lib && lk then upd (l_lock s) p None else l_lock s))
        | Arr j =>
            if forallb (fun q => l_arr s p t <=? l_arr s q t) (seq 0 P) then
              Some (LSt (l_todo s) (set2 (l_ph s) p t (In_ j)) (l_arr s) (l_lock s))
            else None
        end
    end
  else None.

Fixpoint lrun (s : lst) (acts : list (nat * nat)) : option lst :=
  match acts with
  | [] => Some s
  | (p, t) :: acts' => match lstep s p t with Some s' => lrun s' acts' | None => None end
  end.

Definition lreach (s : lst) : Prop := exists acts, lrun linit acts = Some s.
End Step.
