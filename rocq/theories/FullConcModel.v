(** * Concurrent reads of distributed full grids: grid/level/fulldist.h

    Interleaving semantics of any number of threads on any number of ranks and NUMA domains
    calling [FullDist::getAt] (lines 150-199) with the NUMA policies of LevelsModel.v and one of the MPI policies
    - [XNo]: transfer/mpino.h,
    - [XWin]: transfer/mpiwinfull.h,
    - [XThread]: transfer/mpithreadfull.h with mpi/commthread.h.

    The storage of a rank ([m_data], shared by its domains) is written by [open] only
    ([fc_store]: rank, cell).  The caches of the blocks of others are written by the threads.

    Simplifications: as in ConcModel.v (sequentially consistent memory, a critical section that touches only the data of
    its lock is one step, positions are already converted to (block, cell), counters are left out).  A full grid with one
    level, so that the replies with tag 0 are those of this level (theorems C53 for several).  Sending and receiving
    a reply is one step each.  With the window, [mpiLock] (THREADSAFE_MPI) or [m_winMutex] (without) is one lock per
    rank. *)
From Verif Require Export ConcModel LevelsModel.

Inductive mpi_kind := XNo | XWin | XThread.

(** Program counter in [getAt]; [i] is the slot of the own cache. *)
Inductive fpc (W : Type) :=
| QIdle                                   (* getAt not yet called, or line 162 *)
| QGetLocked                              (* cachemanager.h line 121 done *)
| QGetSlot (i : nat) (old : option nat)   (* waiting for the slot mutex *)
| QGetBoth (i : nat) (old : option nat)   (* both locked *)
| QHave (i : nat) (old : option nat)      (* get returned *)
| QNuma (i : nat)                         (* m_numaTrans.transfer called *)
| QMem (i x : nat)                        (* memcpy of NumaFull, next cell x *)
| QSearch (i k : nat)                     (* NumaCache::transfer, next domain k *)
| QTryLocked (i k : nat)
| QTryMiss (i k : nat)
| QTryFound (i k j : nat)
| QTryBoth (i k j : nat)
| QCopy (i k j x : nat)                   (* memcpy of NumaCache, next cell x *)
| QCopyDone (i k j : nat)
| QMpi (i : nat)                          (* m_mpiTrans.transfer called *)
| QGet (i x : nat)                        (* XWin: between MPI_Win_lock and MPI_Win_unlock *)
| QAsk (i : nat)                          (* XThread: m_sendRecvMutex locked *)
| QWait (i : nat)                         (* XThread: MPI_Recv *)
| QReady (i : nat)                        (* line 195 *)
| QRelease (i : nat) (v : option W).      (* line 198: value converted, unlock the slot *)
Arguments QIdle {W}. Arguments QGetLocked {W}. Arguments QGetSlot {W}. Arguments QGetBoth {W}. Arguments QHave {W}.
Arguments QNuma {W}. Arguments QMem {W}. Arguments QSearch {W}. Arguments QTryLocked {W}. Arguments QTryMiss {W}.
Arguments QTryFound {W}. Arguments QTryBoth {W}. Arguments QCopy {W}. Arguments QCopyDone {W}. Arguments QMpi {W}.
Arguments QGet {W}. Arguments QAsk {W}. Arguments QWait {W}. Arguments QReady {W}. Arguments QRelease {W}.

(** A thread: program counter, remaining requests (block, cell), answers. *)
Record fthr (W : Type) := FThr { q_pc : fpc W; q_todo : list (nat * nat); q_done : list (nat * nat * option W) }.
Arguments FThr {W}. Arguments q_pc {W}. Arguments q_todo {W}. Arguments q_done {W}.

(** The parameters of a system. *)
Record fcfg (W : Type) := FCfg {
  fc_mpi : mpi_kind;
  fc_numa : numa_policy;
  fc_dist : dist;                    (* ranks, domains, distribution of the blocks *)
  fc_size : nat;                     (* slots per domain *)
  fc_spread : Z;                     (* CACHE_HAND_SPREAD *)
  fc_cells : nat;                    (* cells per block *)
  fc_rank : nat -> nat;              (* rank of a thread *)
  fc_dom : nat -> nat;               (* domain of a thread *)
  fc_store : nat -> nat -> W;        (* rank, cell: the storage after open *)
  fc_prog : nat -> list (nat * nat)  (* requests of a thread *)
}.
Arguments FCfg {W}. Arguments fc_mpi {W}. Arguments fc_numa {W}. Arguments fc_dist {W}. Arguments fc_size {W}.
Arguments fc_spread {W}. Arguments fc_cells {W}. Arguments fc_rank {W}. Arguments fc_dom {W}. Arguments fc_store {W}.
Arguments fc_prog {W}.

(** Locks as in ConcModel.v: [LCache r d] cache manager, [LSlot r o] slot, [LInfo r] lock of the
    window, [LBlk r] [m_sendRecvMutex]. *)
Record fst_ (W : Type) := FSt {
  u_lock : lock -> option nat;                   (* thread which holds the lock *)
  u_list : nat -> nat -> clist;                  (* rank, domain *)
  u_data : nat -> nat -> nat -> option W;        (* rank, slot of the rank, cell *)
  u_req : nat -> nat -> list nat;                (* from rank, to rank: offsets *)
  u_rep : nat -> nat -> list (nat -> W);         (* to rank, from rank: content of a block *)
  u_thr : nat -> fthr W
}.
Arguments FSt {W}. Arguments u_lock {W}. Arguments u_list {W}. Arguments u_data {W}. Arguments u_req {W}.
Arguments u_rep {W}. Arguments u_thr {W}.

Section Step.
Context {W : Type} (c : fcfg W).
Local Notation n := (fc_size c).
Local Notation D := (d_domains (fc_dist c)).
Local Notation K := (fc_cells c).
Local Notation d_ := (fc_dist c).

Definition uset_lock (s : fst_ W) (k : lock) (o : option nat) : fst_ W :=
  FSt (fun k' => if lock_eq k' k then o else u_lock s k') (u_list s) (u_data s) (u_req s) (u_rep s) (u_thr s).
Definition uset_list (s : fst_ W) (r d : nat) (l : clist) : fst_ W :=
  FSt (u_lock s) (updp (u_list s) r d l) (u_data s) (u_req s) (u_rep s) (u_thr s).
Definition uset_data (s : fst_ W) (r o : nat) (f : nat -> option W) : fst_ W :=
  FSt (u_lock s) (u_list s) (updp (u_data s) r o f) (u_req s) (u_rep s) (u_thr s).
Definition uset_req (s : fst_ W) (r q : nat) (l : list nat) : fst_ W :=
  FSt (u_lock s) (u_list s) (u_data s) (updp (u_req s) r q l) (u_rep s) (u_thr s).
Definition uset_rep (s : fst_ W) (r q : nat) (l : list (nat -> W)) : fst_ W :=
  FSt (u_lock s) (u_list s) (u_data s) (u_req s) (updp (u_rep s) r q l) (u_thr s).
Definition uset_thr (s : fst_ W) (t : nat) (x : fthr W) : fst_ W :=
  FSt (u_lock s) (u_list s) (u_data s) (u_req s) (u_rep s) (upd (u_thr s) t x).
Definition ugoto (s : fst_ W) (t : nat) (p : fpc W) : fst_ W :=
  uset_thr s t (FThr p (q_todo (u_thr s t)) (q_done (u_thr s t))).

(** Blocking lock; [try_lock], which may fail although the lock is free. *)
Definition uacquire (s : fst_ W) (k : lock) (t : nat) : option (fst_ W) :=
  match u_lock s k with None => Some (uset_lock s k (Some t)) | Some _ => None end.
Definition utry (s : fst_ W) (fail : bool) (k : lock) (t : nat) : option (fst_ W) :=
  if fail then None else uacquire s k t.
Definition urelease (s : fst_ W) (k : lock) : fst_ W := uset_lock s k None.

(** Slot [i] of domain [d] in the numbering of the rank (only names the slot). *)
Definition uoff (d i : nat) : nat := i + n * d.

(** Cell [x] of block [b] as found by [Full::getAt] (full.h lines 137-163) on domain [d]: [m_data] of this domain, numa/numacomm.h
    lines 132-150, and the offset of the block in the domain. *)
Definition own_cell (d b x : nat) : nat := K * local_block_count d_ * d + (block_offset d_ b * K + x).
(** ... by [NumaFull::transfer] called on domain [d], numafull.h lines 91-92 and 115-116. *)
Definition numa_cell (d b x : nat) : nat :=
  (K * local_block_count d_ * d - d * (K * local_block_count d_)) +
  ((local_block_count d_ * block_domain d_ b + block_offset d_ b) * K + x).
(** ... for the offset [o] of a block on a rank: mpiwinfull.h lines 179-186 and mpithreadfull.h lines 188-189. *)
Definition node_cell (o x : nat) : nat := o * K + x.

(** One step of thread [t]; [fail]: a [try_lock] fails.  [None]: not possible.  Lines of fulldist.h unless another
    file is given. *)
Definition ustep_thr (s : fst_ W) (t : nat) (fail : bool) : option (fst_ W) :=
  let r := fc_rank c t in
  let d := fc_dom c t in
  match q_todo (u_thr s t) with
  | [] => None
  | (b, cell) :: todo =>
    let own i := uoff d i in
    match q_pc (u_thr s t) with
    | QIdle =>
        (* lines 157-163 *)
        if (block_rank d_ b =? r) && (block_domain d_ b =? d) then
          Some (uset_thr s t (FThr QIdle todo
                  (q_done (u_thr s t) ++ [(b, cell, Some (fc_store c r (own_cell d b cell)))])))
        (* line 171; cachemanager.h line 121 *)
        else option_map (fun s => ugoto s t QGetLocked) (uacquire s (LCache r d) t)
    (* cachemanager.h lines 123-127 *)
    | QGetLocked =>
        match clist_request (u_list s r d) b with
        | Ok (l, i, old) => Some (ugoto (uset_list s r d l) t (QGetSlot i old))
        | Ub => None
        end
    (* cachemanager.h lines 130, 131 *)
    | QGetSlot i old => option_map (fun s => ugoto s t (QGetBoth i old)) (uacquire s (LSlot r (own i)) t)
    | QGetBoth i old => Some (ugoto (urelease s (LCache r d)) t (QHave i old))
    (* line 173 *)
    | QHave i old => if is_hit b old then Some (ugoto s t (QReady i)) else Some (ugoto s t (QNuma i))
    (* lines 176-178; numano.h, numafull.h lines 112-113, numafullcache.h lines 93-101 *)
    | QNuma i =>
        match fc_numa c with
        | PNumaNo => Some (ugoto s t (QMpi i))
        | PNumaFull => if block_rank d_ b =? r then Some (ugoto s t (QMem i 0)) else Some (ugoto s t (QMpi i))
        | PNumaFullCache => if block_rank d_ b =? r then Some (ugoto s t (QMem i 0)) else Some (ugoto s t (QSearch i 0))
        end
    (* numafull.h lines 115-116 *)
    | QMem i x =>
        if x <? K then
          Some (ugoto (uset_data s r (own i) (upd (u_data s r (own i)) x (Some (fc_store c r (numa_cell d b x)))))
                      t (QMem i (S x)))
        else Some (ugoto s t (QReady i))
    (* numacache.h lines 118-124; cachemanager.h line 152 *)
    | QSearch i k =>
        if k <? D then
          if k =? d then Some (ugoto s t (QSearch i (S k)))
          else match utry s fail (LCache r k) t with
               | Some s' => Some (ugoto s' t (QTryLocked i k))
               | None => Some (ugoto s t (QSearch i (S k)))
               end
        else Some (ugoto s t (QMpi i))
    (* cachemanager.h line 156 *)
    | QTryLocked i k =>
        match clist_peek (u_list s r k) b with
        | Some j => Some (ugoto s t (QTryFound i k j))
        | None => Some (ugoto s t (QTryMiss i k))
        end
    (* cachemanager.h lines 157, 164 *)
    | QTryMiss i k => Some (ugoto (urelease s (LCache r k)) t (QSearch i (S k)))
    (* cachemanager.h line 163 *)
    | QTryFound i k j =>
        match utry s fail (LSlot r (uoff k j)) t with
        | Some s' => Some (ugoto s' t (QTryBoth i k j))
        | None => Some (ugoto s t (QTryMiss i k))
        end
    (* cachemanager.h line 167 *)
    | QTryBoth i k j => Some (ugoto (urelease s (LCache r k)) t (QCopy i k j 0))
    (* numacache.h line 125 *)
    | QCopy i k j x =>
        if x <? K then
          Some (ugoto (uset_data s r (own i) (upd (u_data s r (own i)) x (u_data s r (uoff k j) x)))
                      t (QCopy i k j (S x)))
        else Some (ugoto s t (QCopyDone i k j))
    (* numacache.h line 126 *)
    | QCopyDone i k j => Some (ugoto (urelease s (LSlot r (uoff k j))) t (QReady i))
    (* lines 183-185; mpiwinfull.h lines 166-172, mpithreadfull.h line 174 *)
    | QMpi i =>
        match fc_mpi c with
        | XNo => Some (ugoto s t (QReady i))    (* mpino.h: assert(false), the slot is not written *)
        | XWin => option_map (fun s => ugoto s t (QGet i 0)) (uacquire s (LInfo r) t)
        | XThread => option_map (fun s => ugoto s t (QAsk i)) (uacquire s (LBlk r) t)
        end
    (* mpiwinfull.h lines 175-191 *)
    | QGet i x =>
        if x <? K then
          Some (ugoto (uset_data s r (own i) (upd (u_data s r (own i)) x
                         (Some (fc_store c (block_rank d_ b) (node_cell (block_node_offset d_ b) x)))))
                      t (QGet i (S x)))
        else Some (ugoto (urelease s (LInfo r)) t (QReady i))
    (* mpithreadfull.h line 176 *)
    | QAsk i =>
        Some (ugoto (uset_req s r (block_rank d_ b) (u_req s r (block_rank d_ b) ++ [block_node_offset d_ b])) t (QWait i))
    (* mpithreadfull.h lines 178-180 *)
    | QWait i =>
        match u_rep s r (block_rank d_ b) with
        | [] => None
        | m :: q =>
            Some (ugoto (urelease (uset_data (uset_rep s r (block_rank d_ b) q) r (own i)
                           (fun x => if x <? K then Some (m x) else u_data s r (own i) x)) (LBlk r)) t (QReady i))
        end
    (* lines 190-195 *)
    | QReady i => Some (ugoto s t (QRelease i (u_data s r (own i) cell)))
    (* line 198 *)
    | QRelease i v =>
        Some (uset_thr (urelease s (LSlot r (own i))) t
                (FThr QIdle todo (q_done (u_thr s t) ++ [(b, cell, v)])))
    end
  end.

(** The communication thread of rank [r] receives a request of rank [src], commthread.h lines 280-315, and calls
    [recv], mpithreadfull.h lines 182-191. *)
Definition ustep_com (s : fst_ W) (r src : nat) : option (fst_ W) :=
  match u_req s src r with
  | [] => None
  | o :: q => Some (uset_rep (uset_req s src r q) src r (u_rep s src r ++ [fun x => fc_store c r (node_cell o x)]))
  end.

Inductive uact := UThr (t : nat) (fail : bool) | UCom (r src : nat).

Definition ustep (s : fst_ W) (a : uact) : option (fst_ W) :=
  match a with
  | UThr t fail => ustep_thr s t fail
  | UCom r src =>
      match fc_mpi c with
      | XThread => if r <? d_ranks d_ then ustep_com s r src else None
      | _ => None
      end
  end.

Fixpoint urun (s : fst_ W) (acts : list uact) : option (fst_ W) :=
  match acts with
  | [] => Some s
  | a :: acts' => match ustep s a with Some s' => urun s' acts' | None => None end
  end.

(** After [open] on all ranks: caches empty. *)
Definition uinit (l0 : clist) : fst_ W :=
  FSt (fun _ => None) (fun _ _ => l0) (fun _ _ _ => None) (fun _ _ => []) (fun _ _ => [])
      (fun t => FThr QIdle (fc_prog c t) []).

Definition ureach (s : fst_ W) : Prop :=
  exists l0 acts, clist_init n (fc_spread c) = Ok l0 /\ urun (uinit l0) acts = Some s.

End Step.
