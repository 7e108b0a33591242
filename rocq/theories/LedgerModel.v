(** * Memory, windows and receivers of a grid: who allocates and who releases

    The constructors, [open]/[init] functions and destructors of grid/level/*.h, transfer/*.h, cache/*.h, followed through
    grid/simplecontainer.h and grid/grid.cpp, as far as they create and release things.  All domains of a process execute the same
    functions; they wait for each other in every broadcast (numa/numacomm.h lines 105-114).  Simplified: between two broadcasts the
    domains take turns; the failing of a call is decided by oracles; [new] does not fail (it would throw). *)
From Coq Require Export List Arith Bool.
From Verif Require Export Base.
Export ListNotations.

(** The pointers and handles of a level and of its members. *)
Inductive field :=
| FComm | FReader                                  (* grid/level/level.h: m_numaComm, m_inputFile *)
| FData                                            (* grid/level/full.h: m_data *)
| FCache                                           (* grid/level/fulldist.h and cache.h: m_cache *)
| FBuf                                             (* grid/level/passthrough.h: m_buf *)
| FIndex | FRef | FLocks                           (* cache/cachelist.h, lru.h, cachemanager.h *)
| FDict                                            (* transfer/mpicache.h: m_dictionary *)
| FWinMutex | FWin                                 (* transfer/mpiwinfull.h *)
| FTag | FSendRecv                                 (* transfer/mpithreadfull.h: registered receiver, m_sendRecvMutex *)
| FDictWinMutex | FDictWin | FMpiMutex | FCacheWinMutex | FCacheWin   (* transfer/mpiwincache.h *)
| FMgrs | FMutexes | FTag1 | FTag2 | FTag3 | FTag4 | FInfo | FBlock   (* transfer/mpithreadcache.h *)
| FNumaMgrs                                        (* transfer/numacache.h: m_cacheManager *)
| FView.                                           (* values that are shared but not owned *)
Definition field_dec (a b : field) : {a = b} + {a <> b}.
Proof. decide equality. Defined.
(** The classes that remember their domain: [Level::m_numaDomainId], the MPI transfer classes', [MPICache]'s and [NumaCache]'s. *)
Inductive part := PLevel | PMpi | PDict | PNuma.
Definition part_dec (a b : part) : {a = b} + {a <> b}.
Proof. decide equality. Defined.

Record obj := Obj { o_ptr : field -> option nat; o_dom : part -> nat }.
Definition set_ptr (o : obj) (f : field) (v : option nat) : obj :=
  Obj (fun g => if field_dec g f then v else o_ptr o g) (o_dom o).
Definition set_dom (o : obj) (p : part) (d : nat) : obj :=
  Obj (o_ptr o) (fun q => if part_dec q p then d else o_dom o q).

(** What happens to the heap, the last event first. *)
Inductive ev := Alloc (x : nat) | Free (x : nat).
Record heap := Heap { h_next : nat; h_log : list ev }.
Definition alloc (h : heap) : heap * nat := (Heap (S (h_next h)) (Alloc (h_next h) :: h_log h), h_next h).
Fixpoint free_list (h : heap) (l : list nat) : heap :=
  match l with [] => h | x :: r => free_list (Heap (h_next h) (Free x :: h_log h)) r end.

(** ** The functions that initialize a level *)
Inductive who := First | Each.   (* [if (domainId == 0)], or every domain *)
(** An error of the call cannot happen, ends the function, or is not looked at. *)
Inductive mode := Sure | Checked | Unchecked.
Inductive cmd :=
| Ident (p : part)                  (* [m_numaDomainId = numaComm.domainId()] *)
| New (w : who) (f : field) (m : mode)
| Share (f : field) (m : mode)      (* [numaComm.broadcast(f)] *)
| Test                              (* something that may fail *)
| Drop (f : field).                 (* delete and forget *)

(** [Level::open], grid/level/level.h lines 210-271. *)
Definition init_level : list cmd := [New Each FReader Sure; Test; Test].
(** [Full::open], grid/level/full.h lines 86-130, with [NumaComm::allocate], numa/numacomm.h lines 123-142. *)
Definition init_full : list cmd := init_level ++ [New First FData Checked; Share FData Checked; Drop FReader].
(** [CacheManager::init], [CacheList::init] and [LRU::init], cache/cachemanager.h lines 90-103, cachelist.h 87-94, lru.h 77-91. *)
Definition init_manager : list cmd := [New Each FIndex Sure; New Each FRef Sure; New Each FLocks Sure].
(** [MPICache::init], transfer/mpicache.h lines 93-120; with the default allocator [allocate] does not fail.  Its result and that of
    [init] itself are ignored (mpiwincache.h line 169, mpithreadcache.h line 366). *)
Definition init_dict (mpi : bool) : list cmd :=
  [Ident PDict; New First FDict (if mpi then Unchecked else Sure); Share FDict Unchecked].
(** [MPIWinFull::init], transfer/mpiwinfull.h lines 115-152. *)
Definition init_win_full : list cmd :=
  [Ident PMpi; New First FWinMutex Sure; New First FWin Checked; Share FWinMutex Checked; Share FWin Checked].
(** [MPIThreadFull::init], transfer/mpithreadfull.h lines 128-160. *)
Definition init_thread_full : list cmd :=
  [Ident PMpi; New First FTag Checked; New First FSendRecv Sure; Share FTag Checked; Share FSendRecv Checked].
(** [MPIWinCache::init], transfer/mpiwincache.h lines 148-228. *)
Definition init_win_cache : list cmd :=
  [Ident PMpi; Share FView Checked] ++ init_dict true ++
  [New First FDictWinMutex Sure; New First FDictWin Checked; New First FMpiMutex Sure; New First FCacheWinMutex Sure;
   New First FCacheWin Checked; Share FDictWinMutex Checked; Share FDictWin Checked; Share FMpiMutex Checked;
   Share FCacheWinMutex Checked; Share FCacheWin Checked].
(** [MPIThreadCache::init], transfer/mpithreadcache.h lines 352-446. *)
Definition init_thread_cache : list cmd :=
  [Ident PMpi] ++ init_dict false ++
  [New First FMgrs Sure; New First FMutexes Sure; New First FTag1 Checked; New First FTag2 Checked; New First FTag3 Checked;
   New First FTag4 Checked; New First FInfo Sure; New First FBlock Sure; Share FMgrs Checked; Share FMutexes Checked;
   Share FTag1 Checked; Share FTag2 Checked; Share FTag3 Checked; Share FTag4 Checked; Share FView Checked;
   Share FInfo Checked; Share FBlock Checked].
(** [NumaCache::init], transfer/numacache.h lines 85-110. *)
Definition init_numa_cache : list cmd := [Ident PNuma; New First FNumaMgrs Sure; Share FNumaMgrs Checked].

(** The kinds of levels: grid/level/full.h line 177, fulldist.h 204-228, cache.h 193, cachedist.h 219-238, passthrough.h. *)
Inductive mpi_kind := MNo | MThread | MWin.
Inductive kind :=
| KFull
| KFullDist (m : mpi_kind) (numa_cache : bool)    (* NumaNo and NumaFull allocate nothing; NumaFullCache has a NumaCache *)
| KCache
| KCacheDist (m : mpi_kind) (numa_cache : bool)   (* NumaNo or NumaCache *)
| KPassThrough.
Definition init (k : kind) : list cmd :=
  match k with
  | KFull => init_full
  | KFullDist m nc =>   (* grid/level/fulldist.h lines 99-144 *)
      init_full ++ [New Each FCache Checked] ++ init_manager ++
      match m with MNo => [] | MThread => init_thread_full | MWin => init_win_full end ++ (if nc then init_numa_cache else [])
  | KCache =>           (* grid/level/cache.h lines 87-114 *)
      init_level ++ [New First FCache Checked; Share FCache Checked] ++ init_manager
  | KCacheDist m nc =>  (* grid/level/cachedist.h lines 96-129 *)
      init_level ++ [New First FCache Checked; Share FCache Checked] ++ init_manager ++
      match m with MNo => [] | MThread => init_thread_cache | MWin => init_win_cache end ++ (if nc then init_numa_cache else [])
  | KPassThrough => init_level ++ [New Each FBuf Sure]   (* grid/level/passthrough.h lines 82-99 *)
  end.

(** ** Destructors: in this order; [delete] of a null pointer does nothing *)
Inductive guard := Always | Zero (p : part) | ZeroSet (p : part) (f : field).
Definition passes (o : obj) (g : guard) : bool :=
  match g with
  | Always => true
  | Zero p => o_dom o p =? 0
  | ZeroSet p f => (o_dom o p =? 0) && match o_ptr o f with Some _ => true | None => false end
  end.
(** grid/level/level.h lines 147-152. *)
Definition del_level : list (guard * field) := [(Always, FReader); (Zero PLevel, FComm)].
(** grid/level/full.h lines 77-81; the check of [&this->numa()] is always true here. *)
Definition del_full : list (guard * field) := (Zero PLevel, FData) :: del_level.
(** cache/cachemanager.h lines 76-79, then its member: cachelist.h 77-80, lru.h 69-72. *)
Definition del_manager : list (guard * field) := [(Always, FLocks); (Always, FIndex); (Always, FRef)].
(** transfer/mpicache.h lines 83-87. *)
Definition del_dict : list (guard * field) := [(Zero PDict, FDict)].
(** transfer/mpiwinfull.h lines 95-103. *)
Definition del_win_full : list (guard * field) := [(ZeroSet PMpi FWin, FWinMutex); (ZeroSet PMpi FWin, FWin)].
(** transfer/mpithreadfull.h lines 109-116. *)
Definition del_thread_full : list (guard * field) := [(ZeroSet PMpi FTag, FTag); (ZeroSet PMpi FTag, FSendRecv)].
(** transfer/mpiwincache.h lines 120-134. *)
Definition del_win_cache : list (guard * field) :=
  [(Zero PMpi, FMpiMutex); (Zero PMpi, FDictWinMutex); (Zero PMpi, FCacheWinMutex); (Zero PMpi, FDictWin); (Zero PMpi, FCacheWin)]
  ++ del_dict.
(** transfer/mpithreadcache.h lines 324-338. *)
Definition del_thread_cache : list (guard * field) :=
  map (pair (ZeroSet PMpi FTag1)) [FMgrs; FTag1; FTag2; FTag3; FTag4; FMutexes; FInfo; FBlock] ++ del_dict.
(** transfer/numacache.h lines 76-80. *)
Definition del_numa_cache : list (guard * field) := [(Zero PNuma, FNumaMgrs)].
(** The body of the destructor, the members in reverse order, the base classes. *)
Definition dels (k : kind) : list (guard * field) :=
  match k with
  | KFull => del_full
  | KFullDist m nc =>   (* grid/level/fulldist.h lines 67-94 *)
      [(Always, FCache)] ++ (if nc then del_numa_cache else []) ++
      match m with MNo => [] | MThread => del_thread_full | MWin => del_win_full end ++ del_manager ++ del_full
  | KCache =>           (* grid/level/cache.h lines 58-82 *)
      [(Zero PLevel, FCache)] ++ del_manager ++ del_level
  | KCacheDist m nc =>  (* grid/level/cachedist.h lines 62-91 *)
      (if nc then del_numa_cache else []) ++
      match m with MNo => [] | MThread => del_thread_cache | MWin => del_win_cache end ++
      [(Zero PLevel, FCache)] ++ del_manager ++ del_level
  | KPassThrough => (Always, FBuf) :: del_level   (* grid/level/passthrough.h lines 74-77 *)
  end.
Definition release (ds : list (guard * field)) (o : obj) : list nat :=
  flat_map (fun e => if passes o (fst e) then match o_ptr o (snd e) with Some x => [x] | None => [] end else []) ds.

Section Domains.
Variable n : nat.   (* number of domains *)

(** ** Opening a level on all domains *)
Record st := St { s_heap : heap; s_obj : nat -> obj; s_run : nat -> bool }.   (* [s_run]: the domain's function has not returned an error *)
Definition put (s : st) (d : nat) (f : field) (v : option nat) : st := St (s_heap s) (upd (s_obj s) d (set_ptr (s_obj s d) f v)) (s_run s).
Definition quit (s : st) (d : nat) : st := St (s_heap s) (s_obj s) (upd (s_run s) d false).
Fixpoint each (k : nat) (f : nat -> st -> st) (s : st) : st :=
  match k with O => s | S k' => let s' := each k' f s in if s_run s' k' then f k' s' else s' end.
Inductive res (A : Type) := Go (a : A) | Hung | Crash.
Arguments Go {A}. Arguments Hung {A}. Arguments Crash {A}.
(** [fail i d]: the call of step [i] fails on domain [d]; [late]: only after the broadcast value has been stored. *)
Section Step.
Variables (fail late : nat -> nat -> bool).
Definition do_new (i : nat) (f : field) (m : mode) (d : nat) (s : st) : st :=
  match m with
  | Sure => let (h, x) := alloc (s_heap s) in put (St h (s_obj s) (s_run s)) d f (Some x)
  | _ => if fail i d then quit s d else let (h, x) := alloc (s_heap s) in put (St h (s_obj s) (s_run s)) d f (Some x)
  end.
Definition do_share (i : nat) (f : field) (m : mode) (d : nat) (s : st) : st :=
  let s1 := if fail i d && negb (late i d) then s else put s d f (o_ptr (s_obj s 0) f) in
  match m with Checked => if fail i d then quit s1 d else s1 | _ => s1 end.
Definition do_drop (f : field) (d : nat) (s : st) : st :=
  let h := match o_ptr (s_obj s d) f with Some x => free_list (s_heap s) [x] | None => s_heap s end in
  put (St h (s_obj s) (s_run s)) d f None.
Definition step (i : nat) (c : cmd) (s : st) : res st :=
  match c with
  | Ident p => Go (each n (fun d s => St (s_heap s) (upd (s_obj s) d (set_dom (s_obj s d) p d)) (s_run s)) s)
  | New First f m =>
      if s_run s 0 then
        (* an ignored failure leaves the null pointer that the caller then writes to, transfer/mpicache.h lines 115-117 *)
        match m with Unchecked => if fail i 0 then Crash else Go (do_new i f m 0 s) | _ => Go (do_new i f m 0 s) end
      else Go s
  | New Each f m => Go (each n (do_new i f m) s)
  | Share f m =>
      if forallb (s_run s) (seq 0 n) then Go (each n (do_share i f m) s)
      else if existsb (s_run s) (seq 0 n) then Hung   (* they wait for the one that has left *)
      else Go s
  | Test => Go (each n (fun d s => if fail i d then quit s d else s) s)
  | Drop f => Go (each n (do_drop f) s)
  end.
Fixpoint steps (i : nat) (cs : list cmd) (s : st) : res st :=
  match cs with
  | [] => Go s
  | c :: r => match step i c s with Go s' => steps (S i) r s' | Hung => Hung | Crash => Crash end
  end.
End Step.

(** ** The containers: one per domain, [m_levels] of all of them *)
Variable k : kind.
Record cst := Cst { c_heap : heap; c_lv : nat -> nat -> obj; c_count : nat; c_cap : nat }.   (* level, domain *)
(** [Numa::createComm], numa/numa.cpp lines 162-174 (its broadcast does not fail), in the constructor of [Level] (grid/level/level.h
    lines 137-145) and of its members. *)
Definition construct (h : heap) : heap * (nat -> obj) :=
  let (h', x) := alloc h in
  (h', fun d => Obj (fun f => if field_dec f FComm then Some x else None) (fun p => if part_dec p PLevel then d else 0)).
(** The copy constructors: grid/level/level.h lines 125-132 with a new [NumaComm]; the other classes' are the implicit ones, which
    copy the pointers. *)
Definition copy (h : heap) (o : nat -> obj) : heap * (nat -> obj) :=
  let (h', x) := alloc h in (h', fun d => set_ptr (o d) FComm (Some x)).
(** Levels [b], ..., [b+j-1] are new. *)
Fixpoint fresh (b j : nat) (h : heap) (lv : nat -> nat -> obj) : heap * (nat -> nat -> obj) :=
  match j with
  | O => (h, lv)
  | S j' => let (h1, lv1) := fresh b j' h lv in let (h2, o) := construct h1 in (h2, upd lv1 (b + j') o)
  end.
Fixpoint copies (j : nat) (h : heap) (lv : nat -> nat -> obj) : heap * (nat -> nat -> obj) :=
  match j with
  | O => (h, lv)
  | S j' => let (h1, lv1) := copies j' h lv in let (h2, o) := copy h1 (lv j') in (h2, upd lv1 j' o)
  end.
(** Destructors of all levels of all domains. *)
Definition all_released (lv : nat -> nat -> obj) (count : nat) : list nat :=
  flat_map (fun d => flat_map (fun l => release (dels k) (lv l d)) (seq 0 count)) (seq 0 n).
Variable grow : nat -> nat -> nat.
(** [m_levels.resize(n, Level(...))], grid/simplecontainer.h lines 85-87: the temporary, its copies, the copies of the old elements if
    the capacity does not suffice, the destructors of the old elements and of the temporary. *)
Definition resize (s : cst) (m : nat) : cst :=
  if m <=? c_count s then s
  else
    let (h0, tmp) := construct (c_heap s) in
    let (h1, lv1) := fresh (c_count s) (m - c_count s) h0 (c_lv s) in
    if m <=? c_cap s then Cst (free_list h1 (flat_map (fun d => release (dels k) (tmp d)) (seq 0 n))) lv1 m (c_cap s)
    else
      let (h2, lv2) := copies (c_count s) h1 lv1 in
      let h3 := free_list h2 (all_released (c_lv s) (c_count s)) in
      Cst (free_list h3 (flat_map (fun d => release (dels k) (tmp d)) (seq 0 n))) lv2 m (grow (c_count s) m).
(** [SimpleContainer::init], grid/simplecontainer.h lines 78-112, on all domains. *)
Record call := Call { q_level : nat; q_fail : nat -> nat -> bool; q_late : nat -> nat -> bool }.
Definition open (s : cst) (q : call) : res cst :=
  let s1 := resize s (q_level q + 1) in
  match steps (q_fail q) (q_late q) 0 (init k) (St (c_heap s1) (c_lv s1 (q_level q)) (fun _ => true)) with
  | Go r => Go (Cst (s_heap r) (upd (c_lv s1) (q_level q) (s_obj r)) (c_count s1) (c_cap s1))
  | Hung => Hung
  | Crash => Crash
  end.
Fixpoint opens (s : cst) (l : list call) : res cst :=
  match l with
  | [] => Go s
  | q :: r => match open s q with Go s' => opens s' r | Hung => Hung | Crash => Crash end
  end.
Definition cst0 : cst := Cst (Heap 0 []) (fun _ _ => Obj (fun _ => None) (fun _ => 0)) 0 0.
(** [Grid::~Grid], grid/grid.cpp lines 177-191: the containers of all domains, one after the other. *)
Definition close (s : cst) : list ev := h_log (free_list (c_heap s) (all_released (c_lv s) (c_count s))).
End Domains.
Arguments Go {A}. Arguments Hung {A}. Arguments Crash {A}.
