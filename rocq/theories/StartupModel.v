(** * Opening a level on several ranks

    The threads which open a level on each rank (the master of each NUMA domain)
    and how they synchronise, grid/grid.cpp lines 214-249.  Each master executes a
    fixed list of instructions; everything which neither synchronises nor writes
    memory that other ranks use is left out (errors, the NetCDF file, allocation,
    the threads which are not masters and only wait in the last broadcast).

    Assumed: [NumaComm::broadcast] releases a thread only after all masters of the
    rank have called it (theorems C36 and C37) and the collective MPI operations
    [MPI_Win_create] and [MPI_Allreduce] return only after all ranks have called
    them, which is more than MPI promises for [MPI_Win_create]. *)
From Verif Require Export Base.
Require Export ZArith.

(** Memory of one domain of one rank which other ranks use. *)
Inductive item :=
| Data (k : nat)     (* block k of the static storage *)
| Entry (k : nat)    (* dictionary entry of block k *)
| Lock (k : nat)     (* mutex memory of block k, last element of its dictionary entry *)
| Recv (j : nat).    (* receiver j of the level in the communication thread *)

Definition item_eqb (x y : item) : bool :=
  match x, y with
  | Data k, Data l | Entry k, Entry l | Lock k, Lock l | Recv k, Recv l => k =? l
  | _, _ => false
  end.

Inductive instr :=
| Bcast              (* NumaComm::broadcast, all masters of the rank *)
| Coll               (* collective MPI operation, masters of domain 0 of all ranks *)
| Write (x : item).  (* initialise an item *)

Inductive variant := FullWin | FullThread | CacheWin | CacheThread.

Record setup := Setup {
  u_var : variant;
  u_ranks : nat;
  u_doms : nat;
  u_blocks : nat -> nat -> nat;              (* blocks (entries) of a domain of a rank *)
  u_content : nat -> nat -> nat -> Z;        (* their content in the file *)
  u_numa : bool                              (* NumaCache is used *)
}.

Section Startup.
Variable u : setup.

(** The instructions of the master of domain [d] on rank [r]. *)
Definition each (r d : nat) (x : nat -> item) : list instr := map (fun k => Write (x k)) (seq 0 (u_blocks u r d)).
Definition master (d : nat) (l : list instr) : list instr := if d =? 0 then l else [].
(** numacache.h line 102 and grid.cpp line 244. *)
Definition finish : list instr := (if u_numa u then [Bcast] else []) ++ [Bcast].

(** - [FullWin]: numacomm.h line 142 (full.h lines 104-106), full.h lines 111-128,
      mpiwinfull.h lines 134-149
    - [FullThread]: the same with mpithreadfull.h lines 143-158 and
      commthread.h lines 229-238
    - [CacheWin]: numacomm.h line 142 (cache.h lines 104-106), mpiwincache.h line 164,
      mpicache.h lines 110-117 (which also fills the mutex memory with -1),
      mpiwincache.h lines 177-225
    - [CacheThread]: numacomm.h line 142, mpicache.h lines 110-117,
      mpithreadcache.h lines 381-443 *)
Definition prog (r d : nat) : list instr :=
  match u_var u with
  | FullWin =>
      [Bcast] ++ each r d Data ++ master d [Coll] ++ [Bcast; Bcast] ++ finish
  | FullThread =>
      [Bcast] ++ each r d Data ++ master d [Coll; Write (Recv 0)] ++ [Bcast; Bcast] ++ finish
  | CacheWin =>
      [Bcast; Bcast; Bcast] ++ each r d Lock ++ each r d Entry ++ master d [Coll; Coll] ++
      [Bcast; Bcast; Bcast; Bcast; Bcast] ++ each r d Lock ++ finish
  | CacheThread =>
      [Bcast; Bcast] ++ each r d Entry ++
      master d [Coll; Write (Recv 0); Coll; Write (Recv 1); Coll; Write (Recv 2); Coll; Write (Recv 3)] ++
      [Bcast; Bcast; Bcast; Bcast; Bcast; Bcast; Bcast; Bcast; Bcast] ++ finish
  end.

(** What is written: full.h line 126, mpicache.h line 117, mpi/mutex.h line 115,
    commthread.h line 238. *)
Definition value (r d : nat) (x : item) : Z :=
  match x with
  | Data k => u_content u r d k
  | Entry _ | Lock _ => -1
  | Recv _ => 1
  end.

(** Position of each master in its list, memory ([None]: not initialised), and the
    holders of locks as (rank of the holder, rank, domain, block). *)
Record ost := OSt {
  o_pos : nat -> nat -> nat;
  o_mem : nat -> nat -> item -> option Z;
  o_hold : list (nat * (nat * nat * nat))
}.

Definition count (i : instr) (l : list instr) : nat :=
  length (filter (fun j => match i, j with Bcast, Bcast | Coll, Coll => true | _, _ => false end) l).

(** Calls of the operation [i] which a master has returned from, and calls it has made. *)
Definition returned (s : ost) (i : instr) (r d : nat) : nat := count i (firstn (o_pos s r d) (prog r d)).
Definition called (s : ost) (i : instr) (r d : nat) : nat := count i (firstn (S (o_pos s r d)) (prog r d)).

Definition all_below (n : nat) (p : nat -> bool) : bool := forallb p (seq 0 n).

Definition set_mem (m : nat -> nat -> item -> option Z) (r d : nat) (x : item) (v : Z) :=
  fun r' d' x' => if ((r' =? r) && (d' =? d) && item_eqb x' x)%bool then Some v else m r' d' x'.

Definition advance (s : ost) (r d : nat) (m : nat -> nat -> item -> option Z) : ost :=
  OSt (fun r' d' => if ((r' =? r) && (d' =? d))%bool then S (o_pos s r d) else o_pos s r' d') m (o_hold s).

(** [ORun r d]: next instruction of a master.  [OLock q r d k]: a thread of rank [q], where
    [open] has returned, acquires the mutex of block [k] of domain [d] on rank [r]
    ([Mutex::acquire], mpi/mutex.h lines 128-143; the lock id is the rank here, one thread per
    rank). *)
Inductive oact := ORun (r d : nat) | OLock (q r d k : nat).

Definition done_at (s : ost) (r d : nat) : bool := o_pos s r d =? length (prog r d).

Definition ostep (s : ost) (a : oact) : option ost :=
  match a with
  | ORun r d =>
      if ((r <? u_ranks u) && (d <? u_doms u))%bool then
        match nth_error (prog r d) (o_pos s r d) with
        | None => None
        | Some Bcast =>
            if all_below (u_doms u) (fun d' => returned s Bcast r d <? called s Bcast r d')
            then Some (advance s r d (o_mem s)) else None
        | Some Coll =>
            if all_below (u_ranks u) (fun r' => returned s Coll r d <? called s Coll r' 0)
            then Some (advance s r d (o_mem s)) else None
        | Some (Write x) => Some (advance s r d (set_mem (o_mem s) r d x (value r d x)))
        end
      else None
  | OLock q r d k =>
      if ((q <? u_ranks u) && (r <? u_ranks u) && (d <? u_doms u) && (k <? u_blocks u r d) &&
          all_below (u_doms u) (done_at s q))%bool
      then match u_var u with
           | CacheWin =>
               Some (OSt (o_pos s) (set_mem (o_mem s) r d (Lock k) (Z.of_nat q))
                      (match o_mem s r d (Lock k) with
                       | Some (-1)%Z => (q, (r, d, k)) :: o_hold s
                       | _ => o_hold s
                       end))
           | _ => None
           end
      else None
  end.

Fixpoint orun (s : ost) (acts : list oact) : option ost :=
  match acts with
  | [] => Some s
  | a :: acts' => match ostep s a with Some s' => orun s' acts' | None => None end
  end.

Definition ostart : ost := OSt (fun _ _ => 0) (fun _ _ _ => None) [].

Definition oreach (s : ost) : Prop := exists acts, orun ostart acts = Some s.

End Startup.
