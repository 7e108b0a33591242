(** * The mutexes of the library: what every function locks and unlocks, and where it stays while it holds a mutex

    All functions of the library that use a [threads::Mutex] or [mpi::Lock], reduced to their lock operations, their netCDF and MPI
    calls and the barriers of the NUMA domains.  Simplified: the data is left out; what a function decides from data (hit or
    miss, slot, failure of a call) is a parameter; consecutive MPI calls are one step; MPI calls and barriers return (when they do:
    C15, C37, C53, C61, C64, C67, C70, C71); the mutexes inside threads/sync.h belong to the barriers. *)
From Coq Require Export List Arith Bool.
From Verif Require Export Base.
Export ListNotations.

(** The mutexes of a process.  [gr]: grid, [g]: level of a grid, [d]: NUMA domain. *)
Inductive lock :=
| LOnce (gr : nat)                            (* threads/once.h line 57, grid/grid.h: m_resizeOnce *)
| LCache (g d : nat) | LSlot (g d i : nat)    (* cache/cachemanager.h: m_cacheMutex, m_blockMutexes *)
| LMpi                                        (* mpi/mpicomm.h line 180: mpiLock *)
| LDictWin (g : nat) | LCacheWin (g : nat)    (* transfer/mpiwincache.h *)
| LWin (g : nat)                              (* transfer/mpiwinfull.h: m_winMutex *)
| LInfo (g : nat) | LBlock (g : nat)          (* transfer/mpithreadcache.h: m_infoMutex, m_blockMutex *)
| LSend (g : nat)                             (* transfer/mpithreadfull.h: m_sendRecvMutex *)
| LEntry (g b : nat)                          (* transfer/mpithreadcache.h: m_mutexes *)
| LReg                                        (* mpi/commthread.h: m_lock *)
| LType (gr : nat)                            (* types/arraytype.h, structtype.h: m_lock *)
| LNc                                         (* io/netcdfreader.cpp line 133: netcdfLock *)
| LCount (g d n : nat)                        (* perf/counter.h: m_mutex *)
| LPtr.                                       (* fortran/pointerarray.h: m_lock *)
Definition lock_dec (a b : lock) : {a = b} + {a <> b}.
Proof. decide equality; apply Nat.eq_dec. Defined.

(** What remains to be done by a thread. *)
Inductive code :=
| Done
| Lock (l : lock) (k : code)
| Unlock (l : lock) (k : code)
| Try (l : lock) (yes no : code)
| Nc (k : code)                   (* a call of the netCDF library *)
| Mpi (k : code)                  (* MPI calls *)
| Bar (k : code)                  (* a barrier or broadcast of the NUMA domains, or of all threads *)
| HandOver (k : code).            (* [LReg] is left to the communication thread *)

(** ** How the library is built *)
Record cfg := Cfg {
  thr : bool;   (* THREADSAFE: threads/mutex.h lines 41-68, without it [NoopMutex] *)
  lib : bool;   (* THREADSAFE_MPI: mpi/mpicomm.h lines 58-63 *)
  cnt : bool    (* THREADSAFE_COUNTER: perf/counter.h lines 130-132 *)
}.
Definition real (c : cfg) (l : lock) : bool := thr c && match l with LMpi => lib c | _ => true end.
(** threads/noopmutex.h lines 52-71. *)
Definition lock_ (c : cfg) (l : lock) (k : code) : code := if real c l then Lock l k else k.
Definition unlock_ (c : cfg) (l : lock) (k : code) : code := if real c l then Unlock l k else k.
Definition try_ (c : cfg) (l : lock) (yes no : code) : code := if real c l then Try l yes no else no.
(** A function that holds a mutex while it does [body]; [k] is what follows. *)
Definition within (c : cfg) (l : lock) (body : code -> code) (k : code) : code := lock_ c l (body (unlock_ c l k)).
Fixpoint times (n : nat) (f : code -> code) (k : code) : code := match n with O => k | S n' => f (times n' f k) end.

Section Functions.
Variable c : cfg.

(** [Counter::inc], perf/counter.h lines 125-135. *)
Definition inc (g d n : nat) (k : code) : code := if cnt c then within c (LCount g d n) (fun x => x) k else k.
Definition ACCESS : nat := 0. Definition MPI : nat := 1. Definition NUMA : nat := 2. Definition FILE : nat := 3.

(** ** io/netcdfreader.h and .cpp *)
(** How [NetCdfReader::open] ends. *)
Inductive opened := NoFile | NoVar | ManyDims | Opened (dims : nat).
(** [NetCdfReader::open], netcdfreader.cpp lines 73-128; the mutex is released at each [return]. *)
Definition reader_open (o : opened) (k err : code) : code :=
  match o with
  | NoFile => within c LNc Nc err
  | NoVar => within c LNc (times 3 Nc) err
  | ManyDims => within c LNc (times 4 Nc) err
  | Opened n => within c LNc (fun x => times 4 Nc (times n Nc (times 2 Nc x))) k
  end.
(** [NetCdfReader::~NetCdfReader], lines 56-65: [file] is [m_file >= 0]. *)
Definition reader_close (file : bool) (k : code) : code := if file then within c LNc Nc k else k.
(** A dimension: does it have a variable, is its size 1? *)
Record dim := Dim { d_var : bool; d_one : bool }.
(** [getOffset], netcdfreader.h lines 142-158. *)
Definition get_offset (x : dim) (k : code) : code := within c LNc (fun k => Nc (if d_var x then Nc k else k)) k.
(** [getScaling], lines 162-186. *)
Definition get_scaling (x : dim) (k : code) : code :=
  if d_one x then k else within c LNc (fun k => Nc (if d_var x then Nc (Nc k) else k)) k.
(** [getBlock], lines 195-218, under [Type::load]. *)
Definition get_block (k : code) : code := within c LNc Nc k.

(** ** cache/cachemanager.h *)
(** [get], lines 119-137: [i] is the slot that the list returns. *)
Definition cm_get (g d i : nat) (k : code) : code :=
  lock_ c (LCache g d) (lock_ c (LSlot g d i) (unlock_ c (LCache g d) k)).
(** [tryGet], lines 150-172: [at_] is the slot where the list has the block. *)
Definition cm_try (g d : nat) (at_ : option nat) (yes : nat -> code) (no : code) : code :=
  try_ c (LCache g d)
    (match at_ with
     | None => unlock_ c (LCache g d) no
     | Some i => try_ c (LSlot g d i) (unlock_ c (LCache g d) (yes i)) (unlock_ c (LCache g d) no)
     end)
    no.
(** [unlock], lines 179-182. *)
Definition cm_unlock (g d i : nat) (k : code) : code := unlock_ c (LSlot g d i) k.

(** ** The transfers *)
(** [NumaCache::transfer], transfer/numacache.h lines 115-133, over the domains [ds]. *)
Fixpoint numa_cache (g d : nat) (at_ : nat -> option nat) (ds : list nat) (yes no : code) : code :=
  match ds with
  | [] => no
  | i :: ds' =>
      if i =? d then numa_cache g d at_ ds' yes no
      else cm_try g i (at_ i) (fun j => cm_unlock g i j yes) (numa_cache g d at_ ds' yes no)
  end.
(** Window mutexes are only used if the MPI library is thread-safe. *)
Definition wlock (l : lock) (k : code) : code := if lib c then k else lock_ c l k.
Definition wunlock (l : lock) (k : code) : code := if lib c then k else unlock_ c l k.
(** Reading an entry of the dictionary and acquiring its MPI mutex, transfer/mpiwincache.h lines 251-311 and 476-540; [w]: the thread
    has to wait for the MPI mutex. *)
Definition dict_acquire (g : nat) (w : bool) (k : code) : code :=
  wlock (LDictWin g) (Mpi (if w then wunlock (LDictWin g) (Mpi (wlock (LDictWin g) (Mpi k))) else k)).
(** [MPIWinCache::startTransfer], lines 243-344. *)
Definition win_start (g : nat) (w : bool) (k : code) : code :=
  lock_ c LMpi (dict_acquire g w (Mpi (wunlock (LDictWin g) k))).
(** [transfer], lines 356-405: [remote]: there is an entry, on another rank. *)
Definition win_transfer (g : nat) (remote : bool) (k : code) : code :=
  if remote then wlock (LCacheWin g) (Mpi (wunlock (LCacheWin g) k)) else k.
(** [endTransfer], lines 415-438: the guard of the window mutex ends after [mpiLock.unlock()]. *)
Definition win_end (g : nat) (k : code) : code :=
  wlock (LDictWin g) (Mpi (unlock_ c LMpi (wunlock (LDictWin g) k))).
(** [addBlock], lines 450-455. *)
Definition win_add (g : nat) (w : bool) (k : code) : code := win_start g w (win_end g k).
(** [deleteBlock], lines 465-572. *)
Definition win_delete (g : nat) (old w : bool) (k : code) : code :=
  if old then within c LMpi (fun k => dict_acquire g w (Mpi (wunlock (LDictWin g) k))) k else k.

(** The entry of a block in the dictionary: on this rank, which one. *)
Record entry := Entry { e_here : bool; e_id : nat }.
(** [fetchBlockInfo], [addBlock] and [deleteBlock] on the rank of the entry, transfer/mpithreadcache.h lines 613-647. *)
Definition dict_local (g b : nat) (k : code) : code := within c (LEntry g b) (fun x => x) k.
(** [startTransfer], lines 458-477. *)
Definition thread_start (g : nat) (e : entry) (k : code) : code :=
  if e_here e then dict_local g (e_id e) k else within c (LInfo g) Mpi k.
(** [transfer], lines 489-535, if there is an entry. *)
Definition thread_transfer (g : nat) (k : code) : code := within c (LBlock g) Mpi k.
(** [addBlock], lines 565-576, and [deleteBlock], lines 587-603: on another rank only a message. *)
Definition thread_update (g : nat) (e : entry) (k : code) : code := if e_here e then dict_local g (e_id e) k else Mpi k.

(** [MPIWinFull::transfer], transfer/mpiwinfull.h lines 161-192. *)
Definition win_full_transfer (g : nat) (k : code) : code :=
  within c LMpi (fun k => wlock (LWin g) (Mpi (wunlock (LWin g) k))) k.
(** [MPIThreadFull::transfer], transfer/mpithreadfull.h lines 169-180. *)
Definition thread_full_transfer (g : nat) (k : code) : code := within c (LSend g) Mpi k.

(** ** Reading *)
Inductive mpi_kind := MNo | MThread | MWin.
Inductive kind := KFull | KFullDist (m : mpi_kind) (nf nc : bool) | KCache | KCacheDist (m : mpi_kind) (nc : bool) | KPass.
(** What a read meets. *)
Record read := Read {
  r_g : nat; r_d : nat;               (* level, domain *)
  r_local : bool;                     (* the block belongs to this domain (full grids) *)
  r_near : bool;                      (* ... to this process *)
  r_slot : nat; r_hit : bool;
  r_old : bool;                       (* the slot had another block before *)
  r_doms : nat;
  r_at : nat -> option nat;           (* where the other domains have the block *)
  r_new : entry; r_del : entry;       (* dictionary entries of the block and of the old block *)
  r_w1 : bool; r_w2 : bool;           (* their MPI mutexes are taken *)
  r_found : bool; r_remote : bool;    (* the dictionary knows the block; on another rank *)
  r_retry : nat                       (* number of failing transfers (communication thread) *)
}.
(** [Cache::loadBlock], grid/level/cache.h lines 157-172. *)
Definition load (r : read) (k : code) : code := inc (r_g r) (r_d r) FILE (get_block k).
(** [Full::getAt], grid/level/full.h lines 137-163. *)
Definition full_get (r : read) (k : code) : code := inc (r_g r) (r_d r) ACCESS k.
(** [NumaNo], [NumaFull] and [NumaFullCache]::transfer, transfer/numafull.h lines 108-119, numafullcache.h lines 93-101. *)
Definition numa_full (nf nc : bool) (r : read) (yes no : code) : code :=
  if nf && r_near r then yes
  else if nc then numa_cache (r_g r) (r_d r) (r_at r) (seq 0 (r_doms r)) yes no
  else no.
(** [FullDist::getAt], grid/level/fulldist.h lines 150-199. *)
Definition fulldist_get (m : mpi_kind) (nf nc : bool) (r : read) (k : code) : code :=
  let g := r_g r in let d := r_d r in
  if r_local r then full_get r k
  else
    inc g d ACCESS (cm_get g d (r_slot r)
      (let fin := cm_unlock g d (r_slot r) k in
       if r_hit r then fin
       else
         numa_full nf nc r
           (inc g d NUMA fin)
           (inc g d MPI (match m with
                         | MNo => fin
                         | MThread => thread_full_transfer g fin
                         | MWin => win_full_transfer g fin
                         end)))).
(** [Cache::getAt], grid/level/cache.h lines 120-149. *)
Definition cache_get (r : read) (k : code) : code :=
  let g := r_g r in let d := r_d r in
  inc g d ACCESS (cm_get g d (r_slot r)
    (let fin := cm_unlock g d (r_slot r) k in if r_hit r then fin else load r fin)).
(** The loop of [CacheDist::getAt], grid/level/cachedist.h lines 165-182, with the communication thread. *)
Fixpoint thread_loop (g d : nat) (e : entry) (retry : nat) (found : bool) (got not : code) : code :=
  thread_start g e
    match retry with
    | S n => thread_transfer g (thread_loop g d e n found got not)
    | O => if found then thread_transfer g (inc g d MPI got) else not
    end.
(** [CacheDist::getAt], lines 135-211. *)
Definition cachedist_get (m : mpi_kind) (nc : bool) (r : read) (k : code) : code :=
  let g := r_g r in let d := r_d r in
  inc g d ACCESS (cm_get g d (r_slot r)
    (let fin := cm_unlock g d (r_slot r) k in
     let numa yes no := if nc then numa_cache g d (r_at r) (seq 0 (r_doms r)) yes no else no in
     if r_hit r then fin
     else
       match m with
       | MNo => numa (inc g d NUMA fin) (load r fin)
       | MThread =>
           let del k := if r_old r then thread_update g (r_del r) k else k in
           del (numa (inc g d NUMA (thread_update g (r_new r) fin))
                     (let fin' := thread_update g (r_new r) fin in
                      thread_loop g d (r_new r) (r_retry r) (r_found r) fin' (load r fin')))
       | MWin =>
           win_delete g (r_old r) (r_w2 r)
             (numa (inc g d NUMA (win_add g (r_w1 r) fin))
                   (let fin' := win_end g fin in
                    win_start g (r_w1 r)
                      (win_transfer g (r_found r && r_remote r)
                         (if r_found r then inc g d MPI fin' else load r fin'))))
       end)).
(** [PassThrough::getAt], grid/level/passthrough.h lines 105-124. *)
Definition pass_get (r : read) (k : code) : code := inc (r_g r) (r_d r) ACCESS (inc (r_g r) (r_d r) FILE (get_block k)).
Definition get (kd : kind) (r : read) (k : code) : code :=
  match kd with
  | KFull => full_get r k
  | KFullDist m nf nc => fulldist_get m nf nc r k
  | KCache => cache_get r k
  | KCacheDist m nc => cachedist_get m nc r k
  | KPass => pass_get r k
  end.

(** ** Opening *)
(** Which checks fail: [f i]. *)
Definition chk (f : nat -> bool) (i : nat) (k err : code) : code := if f i then err else k.
Definition share (f : nat -> bool) (i : nat) (k err : code) : code := Bar (chk f i k err).
(** [ArrayType::check] and [StructType::check], types/arraytype.h lines 90-121, structtype.h lines 143-193 ([BasicType::check] uses no
    mutex): [first]: the size was not set before. *)
Definition type_check (gr : nat) (basic first : bool) (f : nat -> bool) (i : nat) (k err : code) : code :=
  if basic then chk f i k err
  else lock_ c (LType gr) (unlock_ c (LType gr) (if first then Mpi (chk f i k err) else chk f i k err)).
Record open_args := OpenArgs {
  a_gr : nat; a_g : nat; a_d : nat;
  a_once : nat;                        (* [initContainers] has been executed: 0 before, 1 when the mutex was taken, 2 no *)
  a_self : bool;                       (* [setComm(MPI_COMM_SELF)], grid.cpp lines 325-330 *)
  a_master : bool; a_init : bool;      (* domain master; [registerThread] has been executed before *)
  a_resize : nat;                      (* levels constructed or copied by [resize] *)
  a_reader : opened; a_dims : list dim; a_basic : bool; a_first : bool;
  a_blocks : nat;
  a_fail : nat -> bool
}.
(** [MPIComm::init], mpi/mpicomm.h lines 104-119; the result is ignored by the callers here. *)
Definition comm_init (k : code) : code := within c LMpi Mpi k.
(** [Level::open], grid/level/level.h lines 210-271. *)
Definition level_open (a : open_args) (k err : code) : code :=
  chk (a_fail a) 0
    (reader_open (a_reader a)
       (fold_right (fun x k => get_offset x (get_scaling x k))
                   (type_check (a_gr a) (a_basic a) (a_first a) (a_fail a) 1 k err) (a_dims a))
       err)
    err.
(** [MPIAlloc::allocate] and [free], allocator/mpialloc.h lines 67-87; the default allocator uses no mutex. *)
Definition alloc (mpi : bool) (f : nat -> bool) (i : nat) (k err : code) : code :=
  if mpi then within c LMpi Mpi (chk f i k err) else chk f i k err.
Definition free (mpi : bool) (k : code) : code := if mpi then within c LMpi Mpi k else k.
(** [NumaComm::allocate], numa/numacomm.h lines 132-149. *)
Definition numa_alloc (mpi : bool) (d : nat) (f : nat -> bool) (i : nat) (k err : code) : code :=
  if d =? 0 then alloc mpi f i (share f (S i) k err) err else share f (S i) k err.
Fixpoint shares (f : nat -> bool) (i n : nat) (k err : code) : code :=
  match n with O => k | S n' => share f i (shares f (S i) n' k err) err end.
(** [MPICache::init], transfer/mpicache.h lines 93-120; its result is ignored. *)
Definition dict_init (mpi : bool) (d : nat) (f : nat -> bool) (k : code) : code :=
  if d =? 0 then alloc mpi f 10 (share f 11 k k) (share f 11 k k) else share f 11 k k.
(** [CommThread::registerReceiver], mpi/commthread.h lines 220-243: not initialized, or the reduction fails, or not. *)
Definition register (f : nat -> bool) (i : nat) (k err : code) : code :=
  lock_ c LReg (if f i then unlock_ c LReg err else Mpi (unlock_ c LReg (chk f (S i) k err))).
(** [MPIWinFull::init], transfer/mpiwinfull.h lines 115-152. *)
Definition win_full_init (d : nat) (f : nat -> bool) (k err : code) : code :=
  let rest := shares f 21 2 k err in
  if d =? 0 then within c LMpi Mpi (chk f 20 rest err) else rest.
(** [MPIThreadFull::init], transfer/mpithreadfull.h lines 128-160. *)
Definition thread_full_init (d : nat) (f : nat -> bool) (k err : code) : code :=
  let rest := shares f 22 2 k err in
  if d =? 0 then register f 20 rest err else rest.
(** [MPIWinCache::init], transfer/mpiwincache.h lines 148-228: two windows are created under the guard. *)
Definition win_cache_init (d : nat) (f : nat -> bool) (k err : code) : code :=
  share f 20
    (dict_init true d f
       (let rest := shares f 23 5 k err in
        if d =? 0 then
          lock_ c LMpi (Mpi (if f 21 then unlock_ c LMpi err
                             else Mpi (if f 22 then unlock_ c LMpi err else unlock_ c LMpi rest)))
        else rest))
    err.
(** [MPIThreadCache::init], transfer/mpithreadcache.h lines 352-446. *)
Definition thread_cache_init (d : nat) (f : nat -> bool) (k err : code) : code :=
  dict_init false d f
    (let rest := shares f 30 9 k err in
     if d =? 0 then register f 20 (register f 22 (register f 24 (register f 26 rest err) err) err) err else rest).
(** [NumaCache::init], transfer/numacache.h lines 85-110. *)
Definition numa_cache_init (f : nat -> bool) (k err : code) : code := share f 50 k err.

Definition is_mpi (m : mpi_kind) : bool := match m with MNo => false | _ => true end.
(** The [open] functions: full.h lines 86-130, fulldist.h lines 99-144, cache.h lines 87-114, cachedist.h lines 96-129, passthrough.h lines
    82-99.  The reader is closed by [closeInputFile], level.h. *)
Definition full_open (mpi : bool) (a : open_args) (k err : code) : code :=
  level_open a (numa_alloc mpi (a_d a) (a_fail a) 2 (times (a_blocks a) get_block (reader_close true k)) err) err.
Definition cache_open (mpi : bool) (a : open_args) (k err : code) : code :=
  level_open a (numa_alloc mpi (a_d a) (a_fail a) 2 k err) err.
Definition kind_open (kd : kind) (a : open_args) (k err : code) : code :=
  let f := a_fail a in let d := a_d a in
  let numa nc := if nc : bool then numa_cache_init f k err else k in
  match kd with
  | KFull => full_open false a k err
  | KFullDist m _ nc =>
      full_open (is_mpi m) a
        (alloc (is_mpi m) f 4
           (match m with
            | MNo => numa nc
            | MThread => thread_full_init d f (numa nc) err
            | MWin => win_full_init d f (numa nc) err
            end) err) err
  | KCache => cache_open false a k err
  | KCacheDist m nc =>
      cache_open (is_mpi m) a
        (match m with
         | MNo => numa nc
         | MThread => thread_cache_init d f (numa nc) err
         | MWin => win_cache_init d f (numa nc) err
         end) err
  | KPass => level_open a k err
  end.
(** [Once::saveExec] with [initContainers], threads/once.h lines 70-87, grid.cpp lines 278-457. *)
Definition once (gr : nat) (st : nat) (self : bool) (k : code) : code :=
  match st with
  | 0 => k
  | 1 => within c (LOnce gr) (fun x => x) k
  | _ => within c (LOnce gr) (fun k => if self then comm_init k else k) k
  end.
(** [Grid::open], grid/grid.cpp lines 214-249, with [registerThread], numa/numa.cpp lines 76-154 ([Bar]), and
    [SimpleContainer::init]'s [resize], grid/simplecontainer.h lines 85-87 (a broadcast for each level). *)
Definition open (kd : kind) (a : open_args) (k : code) : code :=
  let fin := Bar k in
  let go :=
    if a_master a then
      once (a_gr a) (a_once a) (a_self a) (times (a_resize a) Bar (kind_open kd a fin fin))
    else fin in
  if a_init a then go else Bar go.

(** ** Closing *)
(** [CommThread::unregisterReceiver], mpi/commthread.h lines 246-255; the communication thread unlocks, lines 293-302. *)
Definition unregister (k : code) : code := if real c LReg then Lock LReg (Mpi (HandOver k)) else Mpi k.
(** What the domain's level has got: reader open, storage, receivers registered, windows. *)
Record close_args := CloseArgs { z_reader : bool; z_data : bool; z_cache : bool; z_dict : bool; z_tag : bool; z_win : bool }.
(** The destructors of the transfer classes: mpiwinfull.h lines 95-103, mpithreadfull.h lines 109-116, mpiwincache.h lines 120-134,
    mpithreadcache.h lines 324-338, mpicache.h lines 83-87. *)
Definition trans_full_close (m : mpi_kind) (d : nat) (z : close_args) (k : code) : code :=
  match m with
  | MNo => k
  | MThread => if (d =? 0) && z_tag z then unregister k else k
  | MWin => if (d =? 0) && z_win z then within c LMpi Mpi k else k
  end.
Definition trans_cache_close (m : mpi_kind) (d : nat) (z : close_args) (k : code) : code :=
  match m with
  | MNo => k
  | MThread => if (d =? 0) && z_tag z then times 4 unregister k else k
  | MWin =>
      let dict := if (d =? 0) && z_dict z then free true k else k in
      if d =? 0 then within c LMpi (fun k => if z_win z then Mpi k else k) dict else dict
  end.
(** [Full::~Full], full.h lines 77-81, and [Level::~Level], level.h lines 147-152. *)
Definition full_close (mpi : bool) (d : nat) (z : close_args) (k : code) : code :=
  let lv := reader_close (z_reader z) k in
  if (d =? 0) && z_data z then free mpi lv else lv.
Definition level_close (kd : kind) (d : nat) (z : close_args) (k : code) : code :=
  match kd with
  | KFull => full_close false d z k
  | KFullDist m _ _ =>   (* fulldist.h line 93 *)
      let mem := trans_full_close m d z (full_close (is_mpi m) d z k) in
      if z_cache z then free (is_mpi m) mem else mem
  | KCache => reader_close (z_reader z) k
  | KCacheDist m _ =>    (* cache.h lines 78-82 *)
      let lv := reader_close (z_reader z) k in
      trans_cache_close m d z (if (d =? 0) && z_data z then free (is_mpi m) lv else lv)
  | KPass => reader_close (z_reader z) k
  end.
(** [Grid::~Grid], grid/grid.cpp lines 177-191: MPI barrier, datatype, the levels of all containers; [~MPIComm], mpicomm.h lines 95-99. *)
Definition close (kd : kind) (lv : list (nat * close_args)) (k : code) : code :=
  Mpi (Mpi (fold_right (fun x k => level_close kd (fst x) (snd x) k) (within c LMpi Mpi k) lv)).

(** ** The communication thread *)
(** [BlockInfoResponder::recv], transfer/mpithreadcache.h lines 95-112. *)
Definition on_info (g b : nat) (k : code) : code := dict_local g b (Mpi k).
(** [BlockTransferer::recv], lines 137-185, over the domains [ds]. *)
Fixpoint on_transfer (g : nat) (at_ : nat -> option nat) (ds : list nat) (k : code) : code :=
  match ds with
  | [] => Mpi k
  | i :: ds' => cm_try g i (at_ i) (fun j => Mpi (cm_unlock g i j k)) (on_transfer g at_ ds' k)
  end.
(** [Adder::recv] and [Deleter::recv], lines 211-218 and 244-251. *)
Definition on_update (g b : nat) (k : code) : code := dict_local g b k.
(** [CommThread::init], mpi/commthread.h lines 130-178, and [finialize], lines 182-210. *)
Definition comm_start (k : code) : code := within c LReg Mpi k.
Definition comm_stop (k : code) : code := within c LReg Mpi k.

(** ** What a thread may call *)
Inductive call :=
| CNew                                       (* [PointerArray::add], fortran/pointerarray.h lines 73-81, in [Grid::init] *)
| CComm                                      (* [Grid::setComm] *)
| COpen (kd : kind) (a : open_args)
| CRead (kd : kind) (r : read)
| CClose (kd : kind) (lv : list (nat * close_args))
| CStart | CStop
| CInfo (g b : nat) | CTransfer (g n : nat) (at_ : nat -> option nat) | CUpdate (g b : nat)
| CSend.                                     (* [MPIThreadFull::recv], transfer/mpithreadfull.h lines 182-192 *)
Definition call_code (x : call) (k : code) : code :=
  match x with
  | CNew => within c LPtr (fun x => x) k
  | CComm => comm_init k
  | COpen kd a => open kd a k
  | CRead kd r => get kd r k
  | CClose kd lv => close kd lv k
  | CStart => comm_start k
  | CStop => comm_stop k
  | CInfo g b => on_info g b k
  | CTransfer g n at_ => on_transfer g at_ (seq 0 n) k
  | CUpdate g b => on_update g b k
  | CSend => Mpi k
  end.
Definition program (p : list call) : code := fold_right call_code Done p.
End Functions.

(** ** Running the threads of a process *)
Inductive agent := Thr (t : nat) | CommThr.
Record st := St { s_code : nat -> code; s_owner : lock -> option agent }.
Definition set_owner (o : lock -> option agent) (l : lock) (a : option agent) : lock -> option agent :=
  fun x => if lock_dec x l then a else o x.
(** A step is made, the thread waits for a mutex or has ended, or it does what is undefined. *)
Inductive result := Go (s : st) | Wait | Bad.
(** Thread [t] of [N]; or the communication thread unlocks what was left to it. *)
Inductive act := AThr (t : nat) | AComm.
Definition owns (s : st) (l : lock) (t : nat) : bool :=
  match s_owner s l with Some (Thr u) => u =? t | _ => false end.
Definition step (N : nat) (s : st) (a : act) : result :=
  match a with
  | AComm =>
      match s_owner s LReg with
      | Some CommThr => Go (St (s_code s) (set_owner (s_owner s) LReg None))
      | _ => Wait
      end
  | AThr t =>
      if t <? N then
        match s_code s t with
        | Done => Wait
        | Lock l k =>
            match s_owner s l with
            | None => Go (St (upd (s_code s) t k) (set_owner (s_owner s) l (Some (Thr t))))
            | Some _ => if owns s l t then Bad else Wait   (* a mutex must not be locked twice *)
            end
        | Unlock l k =>
            if owns s l t then Go (St (upd (s_code s) t k) (set_owner (s_owner s) l None)) else Bad
        | Try l yes no =>
            match s_owner s l with
            | None => Go (St (upd (s_code s) t yes) (set_owner (s_owner s) l (Some (Thr t))))
            | Some _ => if owns s l t then Bad else Go (St (upd (s_code s) t no) (s_owner s))
            end
        | Nc k | Mpi k | Bar k => Go (St (upd (s_code s) t k) (s_owner s))
        | HandOver k =>
            if owns s LReg t then Go (St (upd (s_code s) t k) (set_owner (s_owner s) LReg (Some CommThr))) else Bad
        end
      else Wait
  end.
Fixpoint run (N : nat) (s : st) (l : list act) : result :=
  match l with
  | [] => Go s
  | a :: r => match step N s a with Go s' => run N s' r | x => x end
  end.
Definition init (c : cfg) (p : nat -> list call) : st := St (fun t => program c (p t)) (fun _ => None).
