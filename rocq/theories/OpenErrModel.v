(** * Errors in open with several NUMA domains: grid/grid.cpp, grid/simplecontainer.h, numa/numacomm.h and the [init] functions of transfer/

    [Grid::open] is called by all threads of a process.  The master thread of each domain creates the level of its
    domain; this contains collective calls among the masters (broadcasts of pointers).  All threads meet in
    the broadcast at the end.  Here: who waits for whom if a step fails.

    Simplifications: one process (MPI calls return or fail); a broadcast is an arrival and a departure, a thread departs
    when all have arrived (theorems C37 and C38 for threads/sync.h); pthread
    calls do not fail; the values of the steps are left out, only whether they fail ([bad]). *)
From Coq Require Export List Arith Bool Lia.
From Verif Require Export Base.
Export ListNotations.

(** A step of a master in [Container::init].
    [ODo k]: every domain executes step [k] and returns if it fails;
    [ORoot k]: only domain 0 executes step [k] and returns if it fails;
    [OAll]: a collective call. *)
Inductive oop := ODo (k : nat) | ORoot (k : nat) | OAll.

(** The steps which can fail. *)
Definition FILE_OPEN := 0.      (* io/netcdfreader.cpp lines 73-128 *)
Definition TYPE_CHECK := 1.     (* check of types/ *)
Definition ALLOC := 2.          (* Allocator::allocate, numa/numacomm.h line 136 *)
Definition ALLOC_CACHE := 3.    (* Allocator::allocate, grid/level/fulldist.h line 117 *)
Definition WIN1 := 4.           (* the first MPI_Win_create *)
Definition WIN2 := 5.           (* the second MPI_Win_create *)
Definition REG (i : nat) := 6 + i.   (* registerReceiver, four calls *)

Fixpoint alls (n : nat) : list oop := match n with 0 => [] | S n' => OAll :: alls n' end.

(** Constructor of [Level] (level.h lines 137-145: [createComm], numa/numa.cpp line 170) and [copies] calls of its
    copy constructor by [m_levels.resize] (simplecontainer.h lines 85-87). *)
Definition make_level (copies : nat) : list oop := alls (S copies).
(** level.h lines 210-271, blocked.h lines 89-145. *)
Definition level_open : list oop := [ODo FILE_OPEN; ODo TYPE_CHECK].
(** numacomm.h lines 132-150. *)
Definition numa_allocate : list oop := [ORoot ALLOC; OAll].
(** transfer/: the [init] functions. *)
Inductive mpi_trans := TNo | TWinFull | TThreadFull | TWinCache | TThreadCache.
Definition mpi_init (m : mpi_trans) : list oop :=
  match m with
  | TNo => []                                                   (* mpino.h *)
  | TWinFull => [ORoot WIN1] ++ alls 2                          (* mpiwinfull.h lines 115-152 *)
  | TThreadFull => [ORoot (REG 0)] ++ alls 2                    (* mpithreadfull.h lines 128-160 *)
  | TWinCache => alls 2 ++ [ORoot WIN1; ORoot WIN2] ++ alls 5   (* mpiwincache.h lines 148-228, mpicache.h lines 93-120 *)
  | TThreadCache =>                                             (* mpithreadcache.h lines 352-446 *)
      alls 1 ++ [ORoot (REG 0); ORoot (REG 1); ORoot (REG 2); ORoot (REG 3)] ++ alls 9
  end.
Inductive numa_trans := NNo | NFull | NCache.
Definition numa_init (n : numa_trans) : list oop :=
  match n with
  | NNo => []          (* numano.h *)
  | NFull => []        (* numafull.h lines 79-97 *)
  | NCache => [OAll]   (* numacache.h lines 85-110 *)
  end.
(** The implementations of a level. *)
Inductive lkind :=
| KFull | KFullDist (m : mpi_trans) (n : numa_trans) | KCache | KCacheDist (m : mpi_trans) (n : numa_trans) | KPass.
(** [open]: full.h lines 86-130, fulldist.h lines 99-144, cache.h lines 87-114, cachedist.h lines 96-129,
    passthrough.h lines 82-99. *)
Definition kind_open (k : lkind) : list oop :=
  match k with
  | KFull => level_open ++ numa_allocate
  | KFullDist m n => level_open ++ numa_allocate ++ [ODo ALLOC_CACHE] ++ mpi_init m ++ numa_init n
  | KCache => level_open ++ numa_allocate
  | KCacheDist m n => level_open ++ numa_allocate ++ mpi_init m ++ numa_init n
  | KPass => level_open
  end.
(** [Container::init] for a level which does not exist yet. *)
Definition container_init (k : lkind) (copies : nat) : list oop := make_level copies ++ kind_open k.

(** A thread: before or in [Container::init], with the steps to do and whether it waits in a collective call; at the
    end of [open] (grid.cpp line 244), with the result; returned. *)
Inductive othr := OIn (todo : list oop) (waiting : bool) | OEnd (ok waiting : bool) | ORet (ok : bool).
(** [o_all d]: collective calls the master of domain [d] has entered; [o_end]: threads which have
    entered the broadcast at the end; [o_val]: the result of thread 0, which is the root of this broadcast. *)
Record ost := OSt { o_thr : nat -> othr; o_all : nat -> nat; o_end : nat; o_val : bool }.

Section Step.
Variable D : nat.                    (* domains *)
Variable T : nat.                    (* threads; thread d < D is the master of domain d *)
Variable prog : list oop.
Variable bad : nat -> nat -> bool.   (* domain, step: the step fails *)

(** grid.cpp lines 216-241: the others go directly to the end. *)
Definition oinit : ost := OSt (fun t => if t <? D then OIn prog false else OEnd true false) (fun _ => 0) 0 true.

Definition set_othr (s : ost) (t : nat) (x : othr) : ost := OSt (upd (o_thr s) t x) (o_all s) (o_end s) (o_val s).

(** A step of thread [t]. *)
Definition ostep (s : ost) (t : nat) : option ost :=
  if t <? T then
    match o_thr s t with
    | OIn [] _ => Some (set_othr s t (OEnd true false))
    | OIn (ODo k :: todo) _ =>
        if bad t k then Some (set_othr s t (OEnd false false)) else Some (set_othr s t (OIn todo false))
    | OIn (ORoot k :: todo) _ =>
        if (t =? 0) && bad t k then Some (set_othr s t (OEnd false false)) else Some (set_othr s t (OIn todo false))
    | OIn (OAll :: todo) false =>
        Some (OSt (upd (o_thr s) t (OIn (OAll :: todo) true)) (upd (o_all s) t (S (o_all s t))) (o_end s) (o_val s))
    | OIn (OAll :: todo) true =>
        if forallb (fun d => o_all s t <=? o_all s d) (seq 0 D) then Some (set_othr s t (OIn todo false)) else None
    | OEnd ok false =>   (* grid.cpp line 244, numa.h line 167 *)
        Some (OSt (upd (o_thr s) t (OEnd ok true)) (o_all s) (S (o_end s)) (if t =? 0 then ok else o_val s))
    | OEnd _ true => if T <=? o_end s then Some (set_othr s t (ORet (o_val s))) else None
    | ORet _ => None
    end
  else None.

Fixpoint orun (s : ost) (l : list nat) : option ost :=
  match l with
  | [] => Some s
  | t :: l' => match ostep s t with Some s' => orun s' l' | None => None end
  end.
End Step.
