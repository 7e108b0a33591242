(** * Grid levels (one reader at a time): grid/level/{full,fulldist,cache,passthrough}.h *)
From Coq Require Export Bool.
From Verif Require Export BlockedModel NetCdfModel CacheModel.

(** ** Counters, perf/counter.h lines 74-92 (the four native ones) *)
Record counters := Counters { n_access : nat; n_numa : nat; n_mpi : nat; n_file : nat }.
(** [Counter::Counter], perf/counter.cpp lines 45-48. *)
Definition counters0 := Counters 0 0 0 0.
(** [Counter::inc], perf/counter.h lines 125-135, for each native counter. *)
Definition inc_access (c : counters) := Counters (S (n_access c)) (n_numa c) (n_mpi c) (n_file c).
Definition inc_numa (c : counters) := Counters (n_access c) (S (n_numa c)) (n_mpi c) (n_file c).
Definition inc_mpi (c : counters) := Counters (n_access c) (n_numa c) (S (n_mpi c)) (n_file c).
Definition inc_file (c : counters) := Counters (n_access c) (n_numa c) (n_mpi c) (S (n_file c)).

Section Levels.
  Context {V : Type}.

  (** An opened file together with its decomposition; [g_opaque] tells whether the
      cell type is loaded through [getBlock<void>]. *)
  Record geom := Geom { g_bl : blocked; g_file : file V; g_opaque : bool }.

  (** [type().load(inputFile(), pos, blockSize(), ptr)]: types/basictype.h,
      types/arraytype.h and types/structtype.h all forward to [getBlock]. *)
  Definition load (g : geom) (corner : list nat) (base : nat) (m : mem V) : outcome (mem V) :=
    get_block (g_opaque g) (g_file g) corner (b_bs (g_bl g)) base m.

  (** ** Full, grid/level/full.h *)

  (** The loading loop of [Full::open], lines 106-125, on rank [r] and domain
      [dom]; [i] is the loop variable and [k] the number of remaining
      iterations, [base] the position of [m_data] in the memory of the process. *)
  Fixpoint full_load (g : geom) (d : dist) (r dom base i k : nat) (m : mem V)
    : outcome (mem V) :=
    match k with
    | 0 => Ok m
    | S k' =>
        let id := local2global d r dom i in
        if d_total d <=? id then Ok m
        else
          do m' <- load g (ix_mul (calc_block_position (g_bl g) id) (b_bs (g_bl g)))
                     (base + b_tbs (g_bl g) * i) m;
          full_load g d r dom base (S i) k' m'
    end.

  (** Size of the storage of one NUMA domain (argument of [allocate], lines
      100-102) in cells. *)
  Definition domain_size (g : geom) (d : dist) : nat := b_tbs (g_bl g) * local_block_count d.

  (** Position of [m_data] of domain [dom], numa/numacomm.h lines 132-150. *)
  Definition domain_base (g : geom) (d : dist) (dom : nat) : nat := domain_size g d * dom.

  (** Opening on all domains of a rank, one after the other; the memory is
      allocated by domain 0 for all domains (numa/numacomm.h lines 134-139). *)
  Fixpoint full_open_domains (g : geom) (d : dist) (r dom k : nat) (m : mem V)
    : outcome (mem V) :=
    match k with
    | 0 => Ok m
    | S k' =>
        do m' <- full_load g d r dom (domain_base g d dom) 0 (local_block_count d) m;
        full_open_domains g d r (S dom) k' m'
    end.
  Definition full_open (g : geom) (d : dist) (r : nat) : outcome (mem V) :=
    full_open_domains g d r 0 (d_domains d) (mem_new V (domain_size g d * d_domains d)).

  (** [Full::getAt], lines 137-163, after [pos2index]; the value is the content
      of the cell handed to [convert]. *)
  Definition full_get (g : geom) (d : dist) (base : nat) (m : mem V) (index : list nat)
    : outcome (option V) :=
    let b := block_by_coords (g_bl g) index in
    let off := calc_offset_in_block (g_bl g) index in
    mem_rd m (base + (block_offset d b * b_tbs (g_bl g) + off)).

  (** [Full::getAt] with its counter (line 139). *)
  Definition full_get_counted (g : geom) (d : dist) (base : nat) (m : mem V) (c : counters)
      (index : list nat) : outcome (counters * option V) :=
    do v <- full_get g d base m index; Ok (inc_access c, v).

  (** A history of reads on a Full level. *)
  Fixpoint full_run (g : geom) (d : dist) (base : nat) (m : mem V) (c : counters)
      (ixs : list (list nat)) : outcome (counters * list (option V)) :=
    match ixs with
    | [] => Ok (c, [])
    | ix :: ixs' =>
        do r <- full_get_counted g d base m c ix;
        let '(c', v) := r in
        do r' <- full_run g d base m c' ixs';
        let '(c'', vs) := r' in Ok (c'', v :: vs)
    end.

  (** ** Cache, grid/level/cache.h *)
  Record cache_state := CacheState {
    cs_mem : mem V;            (* m_cache *)
    cs_list : clist;           (* m_cacheManager's list *)
    cs_cnt : counters
  }.

  (** [Cache::open], lines 87-114 and [CacheManager::init], cache/cachemanager.h
      lines 90-103.  The [memset] to zero is not modelled: the content counts as
      uninitialised. *)
  Definition cache_open (g : geom) (cacheSize : nat) (spread : Z) : outcome cache_state :=
    do l <- clist_init cacheSize spread;
    Ok (CacheState (mem_new V (b_tbs (g_bl g) * cacheSize)) l counters0).

  (** Corner of the block of an index as computed by [loadBlock], lines 163-165. *)
  Definition load_corner (g : geom) (index : list nat) : list nat :=
    map2 (fun i b => i - i mod b) index (b_bs (g_bl g)).

  (** Comparison of [oldGlobalBlockId] with the requested block. *)
  Definition is_hit (b : nat) (old : option nat) : bool :=
    match old with Some ob => ob =? b | None => false end.

  (** [Cache::getAt], lines 120-149, with [loadBlock], lines 157-171. *)
  Definition cache_get (g : geom) (s : cache_state) (index : list nat)
    : outcome (cache_state * option V) :=
    let b := block_by_coords (g_bl g) index in
    let off := calc_offset_in_block (g_bl g) index in
    let cnt := inc_access (cs_cnt s) in
    do r <- clist_request (cs_list s) b;
    let '(l, slot, old) := r in
    let base := slot * b_tbs (g_bl g) in
    do mc <- (if is_hit b old then Ok (cs_mem s, cnt)
              else do m <- load g (load_corner g index) base (cs_mem s);
                   Ok (m, inc_file cnt));
    let '(m, cnt') := mc in
    do v <- mem_rd m (base + off);
    Ok (CacheState m l cnt', v).

  (** A history of reads with the values returned. *)
  Fixpoint cache_run (g : geom) (s : cache_state) (ixs : list (list nat))
    : outcome (cache_state * list (option V)) :=
    match ixs with
    | [] => Ok (s, [])
    | ix :: ixs' =>
        do r <- cache_get g s ix;
        let '(s', v) := r in
        do r' <- cache_run g s' ixs';
        let '(s'', vs) := r' in Ok (s'', v :: vs)
    end.

  (** ** FullDist, grid/level/fulldist.h *)

  (** The NUMA policies of lines 202-228. *)
  Inductive numa_policy := PNumaNo | PNumaFull | PNumaFullCache.

  (** State of all ranks and domains: storage of each rank (shared by its
      domains), cache memory, cache list and counters per (rank, domain). *)
  Record fd_state := FdState {
    fd_store : nat -> mem V;
    fd_cmem : nat -> nat -> mem V;
    fd_list : nat -> nat -> clist;
    fd_cnt : nat -> nat -> counters
  }.

  Definition upd2 {A} (f : nat -> nat -> A) (r dom : nat) (a : A) : nat -> nat -> A :=
    fun r' dom' => if (r' =? r) && (dom' =? dom) then a else f r' dom'.

  (** [NumaFull::transfer], transfer/numafull.h lines 112-124, with the base
      pointer computed by [init], lines 90-94. *)
  Definition numa_full_transfer (g : geom) (d : dist) (s : fd_state) (r dom b : nat)
      (m : mem V) (base : nat) : outcome (option (mem V)) :=
    if block_rank d b =? r then
      let bs := b_tbs (g_bl g) in
      let start := domain_base g d dom - dom * bs * local_block_count d in
      do m' <- mem_cpy m base (fd_store s r)
                 (start + (local_block_count d * block_domain d b + block_offset d b) * bs) bs;
      Ok (Some m')
    else Ok None.

  (** [NumaCache::transfer], transfer/numacache.h lines 110-128, with
      [CacheManager::tryGet], cache/cachemanager.h lines 150-172 (no other
      thread holds a lock here).  [i] runs over the domains. *)
  Fixpoint numa_cache_transfer (g : geom) (s : fd_state) (r dom b : nat) (i k : nat)
      (m : mem V) (base : nat) : outcome (option (mem V)) :=
    match k with
    | 0 => Ok None
    | S k' =>
        if i =? dom then numa_cache_transfer g s r dom b (S i) k' m base
        else
          match clist_peek (fd_list s r i) b with
          | None => numa_cache_transfer g s r dom b (S i) k' m base
          | Some slot =>
              do m' <- mem_cpy m base (fd_cmem s r i) (slot * b_tbs (g_bl g)) (b_tbs (g_bl g));
              Ok (Some m')
          end
    end.

  (** [m_numaTrans.transfer] for the three policies; transfer/numano.h,
      transfer/numafull.h, transfer/numafullcache.h lines 91-99. *)
  Definition numa_transfer (p : numa_policy) (g : geom) (d : dist) (s : fd_state) (r dom b : nat)
      (m : mem V) (base : nat) : outcome (option (mem V)) :=
    match p with
    | PNumaNo => Ok None
    | PNumaFull => numa_full_transfer g d s r dom b m base
    | PNumaFullCache =>
        do x <- numa_full_transfer g d s r dom b m base;
        match x with
        | Some m' => Ok (Some m')
        | None => numa_cache_transfer g s r dom b 0 (d_domains d) m base
        end
    end.

  (** The MPI policies of lines 202-228: none, or one of the two real ones. *)
  Inductive mpi_policy := PMpiNo | PMpiFull.

  (** [m_mpiTrans.transfer]: [PMpiNo] is transfer/mpino.h lines 88-98 ([assert(false)],
      the cache would stay unfilled), [PMpiFull] transfer/mpiwinfull.h lines 160-190 ([MPI_Get] from the
      window of the owner, displacement [offset*m_blockSize]) and
      transfer/mpithreadfull.h lines 154-178 (the owner's communication thread
      sends [m_data[blockId*m_blockSize*m_typeSize]]).  Both copy the same
      cells of the owner's memory. *)
  Definition mpi_full_transfer (mp : mpi_policy) (g : geom) (d : dist) (s : fd_state) (b : nat)
      (m : mem V) (base : nat) : outcome (mem V) :=
    match mp with
    | PMpiNo => Ub
    | PMpiFull =>
        mem_cpy m base (fd_store s (block_rank d b))
          (block_node_offset d b * b_tbs (g_bl g)) (b_tbs (g_bl g))
    end.

  (** [FullDist::getAt], lines 150-199, called on rank [r], domain [dom]. *)
  Definition fd_get (p : numa_policy) (mp : mpi_policy) (g : geom) (d : dist) (s : fd_state) (r dom : nat)
      (index : list nat) : outcome (fd_state * option V) :=
    let b := block_by_coords (g_bl g) index in
    let off := calc_offset_in_block (g_bl g) index in
    let cnt := inc_access (fd_cnt s r dom) in
    if (block_rank d b =? r) && (block_domain d b =? dom) then
      do v <- full_get g d (domain_base g d dom) (fd_store s r) index;
      Ok (FdState (fd_store s) (fd_cmem s) (fd_list s) (upd2 (fd_cnt s) r dom cnt), v)
    else
      do rq <- clist_request (fd_list s r dom) b;
      let '(l, slot, old) := rq in
      let base := slot * b_tbs (g_bl g) in
      let m := fd_cmem s r dom in
      do mc <- (if is_hit b old then Ok (m, cnt)
                else do x <- numa_transfer p g d s r dom b m base;
                     match x with
                     | Some m' => Ok (m', inc_numa cnt)
                     | None => do m' <- mpi_full_transfer mp g d s b m base; Ok (m', inc_mpi cnt)
                     end);
      let '(m', cnt') := mc in
      do v <- mem_rd m' (base + off);
      Ok (FdState (fd_store s) (upd2 (fd_cmem s) r dom m') (upd2 (fd_list s) r dom l)
                  (upd2 (fd_cnt s) r dom cnt'), v).

  (** [FullDist::open], lines 99-144, on all ranks and domains: storage loaded,
      caches empty. *)
  Fixpoint open_ranks (g : geom) (d : dist) (r k : nat) (st : nat -> mem V)
    : outcome (nat -> mem V) :=
    match k with
    | 0 => Ok st
    | S k' =>
        do m <- full_open g d r;
        open_ranks g d (S r) k' (upd st r m)
    end.
  Definition fd_open (g : geom) (d : dist) (cacheSize : nat) (spread : Z) : outcome fd_state :=
    do st <- open_ranks g d 0 (d_ranks d) (fun _ => mem_new V 0);
    do l <- clist_init cacheSize spread;
    Ok (FdState st (fun _ _ => mem_new V (b_tbs (g_bl g) * cacheSize)) (fun _ _ => l)
                (fun _ _ => counters0)).

  (** A history of reads, each on some rank and domain. *)
  Fixpoint fd_run (p : numa_policy) (mp : mpi_policy) (g : geom) (d : dist) (s : fd_state)
      (rs : list (nat * nat * list nat)) : outcome (fd_state * list (option V)) :=
    match rs with
    | [] => Ok (s, [])
    | (r, dom, ix) :: rs' =>
        do x <- fd_get p mp g d s r dom ix;
        let '(s', v) := x in
        do y <- fd_run p mp g d s' rs';
        let '(s'', vs) := y in Ok (s'', v :: vs)
    end.

  (** ** PassThrough, grid/level/passthrough.h lines 82-122 *)

  (** The load step of [getAt] of thread [tid] (lines 105-118) and the read done by
      [convert] (line 119).  [m_buf] has one cell per thread. *)
  Definition pass_open (threads : nat) : mem V := mem_new V threads.
  Definition pass_load (opaque : bool) (f : file V) (m : mem V) (tid : nat) (index : list nat)
    : outcome (mem V) :=
    get_block opaque f index (map (fun _ => 1) (f_size f)) tid m.
  Definition pass_read (m : mem V) (tid : nat) : outcome (option V) := mem_rd m tid.

  (** Threads interleave their loads and reads arbitrarily. *)
  Inductive pass_op := PLoad (tid : nat) (index : list nat) | PRead (tid : nat).
  Definition pass_tid (o : pass_op) : nat := match o with PLoad t _ => t | PRead t => t end.

  (** Result: the values read, with the reading thread, in order. *)
  Fixpoint pass_run (opaque : bool) (f : file V) (m : mem V) (ops : list pass_op)
    : outcome (mem V * list (nat * option V)) :=
    match ops with
    | [] => Ok (m, [])
    | PLoad t ix :: ops' =>
        do m' <- pass_load opaque f m t ix;
        pass_run opaque f m' ops'
    | PRead t :: ops' =>
        do v <- pass_read m t;
        do r <- pass_run opaque f m ops';
        let '(m', vs) := r in Ok (m', (t, v) :: vs)
    end.

  (** [PassThrough::getAt] as a whole with its counters (lines 97-98). *)
  Definition pass_get (opaque : bool) (f : file V) (m : mem V) (c : counters) (tid : nat)
      (index : list nat) : outcome (mem V * counters * option V) :=
    do m' <- pass_load opaque f m tid index;
    do v <- pass_read m' tid;
    Ok (m', inc_file (inc_access c), v).

  (** A history of reads, each by some thread. *)
  Fixpoint pass_seq (opaque : bool) (f : file V) (m : mem V) (c : counters)
      (rs : list (nat * list nat)) : outcome (mem V * counters * list (option V)) :=
    match rs with
    | [] => Ok (m, c, [])
    | (t, ix) :: rs' =>
        do x <- pass_get opaque f m c t ix;
        let '(m', c', v) := x in
        do y <- pass_seq opaque f m' c' rs';
        let '(m'', c'', vs) := y in Ok (m'', c'', v :: vs)
    end.
End Levels.

(** ** Reported counters: [Counter::get], perf/counter.cpp lines 58-75, on
    [unsigned long] (64 bit, wrapping).  The names are those of
    perf/counter.h lines 74-110. *)
Inductive counter_type := CAccess | CNuma | CMpi | CFile | CHit | CNodeHit | CMiss | CInvalid.
Definition wrap64 (z : Z) : Z := (z mod 2 ^ 64)%Z.
Definition counter_get (c : counters) (t : counter_type) : Z :=
  let a := Z.of_nat (n_access c) in
  let nu := Z.of_nat (n_numa c) in
  let mp := Z.of_nat (n_mpi c) in
  let fi := Z.of_nat (n_file c) in
  wrap64 match t with
  | CAccess => a
  | CNuma => nu
  | CMpi => mp
  | CFile => fi
  | CHit => a - nu - mp - fi
  | CNodeHit => a - mp - fi
  | CMiss => nu + mp + fi
  | CInvalid => 0
  end%Z.
Arguments geom V : clear implicits.
Arguments fd_state V : clear implicits.
Arguments cache_state V : clear implicits.
