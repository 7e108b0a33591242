# Formal model of ASAGI: design

The code in /repo (ASAGI, a parallel server for gridded geo-data) was read as
text.  Nothing was built or run.  The model lives in `rocq/theories`, the
English properties in `properties.jsonl`, their status in `MANIFEST.json`, and
the record of deliberately broken models in `seeded/LOG.jsonl`.

## Layout

* `*Model.v`: executable Gallina definitions.  Every definition has a comment
  naming the file and lines in /repo and the simplifications made.
* `Spec.v`: model independent vocabulary used by the theorem statements.
* `Base.v`: undefined behaviour as an outcome, memory objects.
* `*Proofs.v`, `*Facts.v`, `Conc*.v`, `Coord*.v`, `Live*.v`, `LruTrace.v`: lemmas.
  The predicates that only serve to state a theorem are defined at the start of
  the `*Facts.v` files.
* `Prop_*.v`: only the property theorems (closed by `exact`), examples that
  their hypotheses can be met, and `Print Assumptions`.

Theorem names: `Cxx_…` proves (a part of) property Cxx as stated;
`Cxx_…_partial` proves a weaker statement, the comment above it says what is
missing; `Cxx_…_refuted` proves that the code violates the property, with a
concrete witness or for all configurations.  In `MANIFEST.json` a refuted
property has status `partial` and a note starting with REFUTED (or containing
it), because the property as a whole is not a theorem about this code.

## Trusted base

1. Coq 8.16.1's kernel (and `vm_compute`, used for closed examples).
2. The axioms listed by `Print Assumptions`, all from Coq's standard library:
   * none for all theorems but the following ones;
   * `functional_extensionality_dep`, `ClassicalDedekindReals.sig_forall_dec`:
     C19 (all), C20_range_usable_partial, C20_range_shape (real numbers);
   * these and `ClassicalDedekindReals.sig_not_dec`, `Classical_Prop.classic`:
     C20_float_refuted, C20_double_partial, C21, C22, C23, C33 without C33_raw, C34, C58, C74, C80, C88, C95_no_failure, C95_success, C100_pass_partial, C101, C102, C104
     (Flocq's theory of floating-point numbers).
   No axioms, parameters, admitted proofs, functors or kernel options of our own.
3. The model: that the Gallina definitions say what the C++ code does.  The
   simplifications are listed below and in the comments.
4. What the model takes from outside of /repo:
   * netCDF: `nc_get_varm_*` and `nc_get_vara` store the addressed elements at the
     positions given by the strides, and do nothing but return an error for
     a hyperslab outside of the variable; conversions of netCDF types are part of
     the abstract file content (except for bytes, C58).
   * MPI: collective operations, messages between two processes do not overtake
     each other for the same communicator (used in C61_can_finish_partial and C62
     for the messages about one slot, which the mutex of the slot orders), one-sided operations under an
     exclusive window lock are atomic and windows are one memory (except for C89, which has
     MPI's rules for private and public copies), `MPI_Ssend` returns after the matching
     receive has started, `MPI_Comm_split` orders by key.
   * POSIX threads: mutexes, condition variables (with and without spurious
     wake-ups, C37/C38 and C39).
   * `std::map`, `std::unordered_map`, `std::vector` behave as maps and arrays;
     vector growth is arbitrary (C43) or doubling (C60).
   * the submodule `utils` is not in the repository: `toUpper` is the C locale's,
     `parse<int>` reads a sign and digits, loggers only log.
   * LP64 (int 32, long and size_t 64 bit), two's complement, IEEE-754 binary32 and
     binary64 with round to nearest even.
   * Python: `netCDF4` raises an exception for an index outside of a variable (C99),
     `numpy.linspace` is exact (C99).

The code of the repository is read as text; no part of the model, the theorems or
the examples depends on running it.  Once, against this rule, the functions of
`pnoise.py` before `noise1D` were executed to look for a cell where the noise reaches its bound; the result was
discarded and the search repeated in Coq on the model (C98_sharp).

## Modelling decisions

* Sizes and indices are unbounded `nat`; C55 redoes the block, slot and byte
  arithmetic with machine integers (`WrapModel.v`) and shows when it agrees.
* Undefined behaviour (out-of-bounds access, division by zero, reading
  uninitialised memory where it matters, invalid float-to-integer cast) is the
  outcome `Ub`.  Theorems state that it does not occur (or that it does).
* Memory that was never written is `None`; a theorem that a read returns
  `Some v` therefore also says that the read hits initialised memory.
* Threads: interleaving semantics (sequential consistency), one step per lock
  operation or shared access, code under a lock that only touches data of that lock
  is one step.  Contents of a slot being filled are arbitrary.  Theorems quantify
  over all schedules (lists of actions).
* Coordinates: the code is written once over a record of number operations and
  used with exact (extended) reals and with IEEE binary64.

## Code that is modelled

| code | model |
|------|-------|
| grid/level/blocked.h | BlockedModel, WrapModel |
| grid/level/level.h (open, closeInputFile, destructor, pos2index, min, max, delta, copy constructor) | FileModel, CoordModel, GridModel |
| grid/level/full.h, fulldist.h, cache.h, passthrough.h (one reader at a time) | LevelsModel, RequestModel (netCDF calls) |
| grid/level/fulldist.h (concurrent) | FullConcModel |
| several grids, library-wide MPI lock, one communication thread | GridsModel, CollModel |
| grid/level/cache.h, cachedist.h (concurrent) | ConcModel |
| cache/lru.h, cachelist.h, cachemanager.h | CacheModel, ConcModel |
| io/netcdfreader.h, netcdfreader.cpp (open, destructor, getBlock, getVar, getOffset, getScaling) | FileModel, NetCdfModel, CoordModel |
| transfer/numafull.h, numacache.h, numafullcache.h, numano.h | LevelsModel, ConcModel, NumaModel |
| transfer/mpiwinfull.h, mpithreadfull.h, mpino.h | LevelsModel, FullConcModel, ReplyModel, StartupModel, CollModel |
| transfer/mpicache.h, mpiwincache.h, mpithreadcache.h | DictModel, ConcModel, LiveModel, MpiMutexModel, ReplyModel, StartupModel, WinModel |
| mpi/mutex.h | MpiMutexModel, WinModel |
| mpi/commthread.h | CommThreadModel, RestartModel, MapModel, ConcModel |
| mpi/mpicomm.h (reserveTags) | ReplyModel |
| numa/numa.cpp, numa.h, numacomm.h | NumaModel, StartupModel, CallersModel, FailModel |
| threads/sync.h, once.h | SyncModel, FailModel (failing pthread functions) |
| threads/mutex.h, noopmutex.h | NoopModel |
| types/basictype.h, arraytype.h, structtype.h, structtype.cpp, type.h | TypesModel, DatatypeModel, FileModel (check) |
| grid/grid.cpp, grid.h, simplecontainer.h, container.h | ParamModel, GridModel, ContModel (metadata), FileModel (readers), TypesModel, OpenErrModel (error paths of open), CloseModel (destructors), LedgerModel (memory), EndModel, EndRunModel (everything together) |
| constructors, copies, init functions and destructors in grid/level/*.h, transfer/*.h, cache/*.h as far as they allocate and release | LedgerModel |
| perf/counter.h, counter.cpp | LevelsModel, ParamModel, CountModel (several threads) |
| include/asagi.h, asagi.f90 | ParamModel (error codes), FortranModel (module procedures) |
| asagi_f90.cpp | FortranModel |
| fortran/pointerarray.h | GridModel |
| asagi.cpp (nodeLocalRank, communication thread pinning) | NodeRankModel, CommThreadModel |
| tests/ (programs of the grid tests) | SuiteModel |
| preprocess/test/test_index.py | DealModel |
| preprocess/gen_noise/ | NoiseModel |
| preprocess/interpol_time/ | InterpolModel |
| examples/, tools/pinning_test/ | ExampleModel |
| tests/unittest/ | UnitModel, UnitTypeModel |

## Code that is not modelled

* allocator/default.h, mpialloc.h (memory is obtained, never exhausted), the
  destructors except where a property is about them (C43, C44, C68, C78, C82), `Comm`
  initialisation, `mpi/lockassert.h` (assertions), `nompicomm.h`, `nonuma.*`.
* The C wrapper functions in asagi.cpp (they forward to the grid pointer).
* Error returns of MPI, pthread and netCDF functions, except for C41, C67, C77-C79, C82, C107, C108 and C109.
* Logging, preprocess/ (except test_index.py, C96, gen_noise/, C98, C99, and interpol_time/, C101), tools/ (except pinning_test, C103), examples/ (except the reads of the five programs, C102), tests/ (except the test programs, C95, and the unit tests, C100), the build system (its switches
  appear as parameters where they matter: round robin, thread safety, MPI thread
  safety, NUMA).
* The static initialisation order, signals, `fork`.
* Weak memory: the models are interleavings of sequentially consistent steps, except for C92 (store buffers) and C93
  (loads return any value the thread may still see; stores which take part in the loads they depend on are not modelled), for
  reads of the caches of one process, barriers and the once-flag. For the blocks, lists and dictionary entries the interleavings lose
  nothing, as there are no races on them (C83); the races on the counters (C83) are modelled as interleavings only.

## Properties

| id | property | model | proof | status |
|----|----|----|----|----|
| C01 | Block decomposition is an exact partition of the grid | BlockedModel | round trip and injectivity by induction on the dimension list | proved |
| C02 | Every block has exactly one home in a distributed full grid | BlockedModel | owner and local2global are inverse (div/mod), both modes | proved |
| C03 | Loading an edge block leaves the right value at every valid position | NetCdfModel | strided writes = row-major positions, induction on dimensions | proved |
| C04 | Loading an opaque (array/struct) edge block in place is equivalent to a strided load | NetCdfModel | loop invariant of the backward in-place move (positions only grow, source not yet overwritten) | proved |
| C05 | A full grid returns the value stored in the file | LevelsModel | composition of C01-C04 and the loading loop | proved |
| C06 | A distributed full grid returns the file value on every rank and domain | LevelsModel | invariant over histories: cached slots hold their block, all transfer policies | proved |
| C07 | A cache grid returns the file value after any access history | LevelsModel | invariant over histories | proved |
| C08 | A pass-through grid returns the file value | LevelsModel | non-interference of per-thread buffers | proved |
| C09 | The grid type never changes the answer | LevelsModel | corollary of C05-C08 | proved |
| C10 | Concurrent readers of a cache grid always see the block they asked for | ConcModel | invariant over all interleavings (lock ownership, slot contents) | proved |
| C11 | Concurrent cache reads cannot deadlock | ConcModel | lock order argument; measure that decreases with every step | proved |
| C12 | Copying blocks between NUMA caches never delivers a wrong or half-written block | ConcModel | as C10 with several cache managers and try-locks | proved |
| C13 | The one-sided MPI cache protocol never delivers a wrong block | ConcModel | as C10 plus: the dictionary lists exactly completely filled slots | proved |
| C14 | The communication-thread cache protocol never delivers a wrong block | ConcModel | as C10 plus: replies and requests match one to one | proved |
| C15 | The MPI mutex gives mutual exclusion and loses no waiter | MpiMutexModel | queue invariant (linked list of waiters encoded by the swaps), progress measure | proved |
| C16 | Bounded cache occupancy and exact bookkeeping | CacheModel | invariant over request histories | proved |
| C17 | Victim search terminates quickly and respects recent use | CacheModel | clock invariant on event traces | proved |
| C18 | An oversized hand spread is harmless | CacheModel | direct computation for every oversized spread | refuted, parts proved |
| C19 | Coordinates are mapped to the nearest cell and always stay inside the grid | CoordModel (exact) | real arithmetic | proved |
| C20 | The reported range is exactly usable | CoordModel (exact, ieee) | real arithmetic; for doubles relative errors of all operations which compute the ends (RangeFacts.v); witness | refuted, parts proved |
| C21 | Floating-point coordinate mapping is monotone and in range | CoordModel (ieee) | monotonicity of rounded operations (Flocq) | proved |
| C22 | Floating-point mapping picks the nearest cell | CoordModel (ieee) | witness; error bound by the rounding error of each operation | refuted, parts proved |
| C23 | The reported range endpoints can be used as coordinates | CoordModel (ieee) | witnesses; case analysis on finite/infinite operands | refuted, parts proved |
| C24 | Dimension order of the interface | CoordModel, BlockedModel | index arithmetic for any number of dimensions | proved |
| C25 | Effective block sizes | BlockedModel | case analysis | proved |
| C26 | The time dimension gets block size 1 by default | BlockedModel | witness; case analysis | refuted, parts proved |
| C27 | Degenerate files are handled | BlockedModel, NetCdfModel | witnesses; case analysis | refuted, parts proved |
| C28 | Counters add up | LevelsModel | induction over histories on all level types | proved |
| C29 | Counters are per level and documented names work | ParamModel | witnesses; sums modulo 2^64 | refuted, parts proved |
| C30 | Parameters: spelling-insensitive, last write wins, levels independent | ParamModel | induction over calls against an abstract map | proved |
| C31 | Negative numeric parameter values survive | ParamModel | string computation for every negative number | refuted, parts proved |
| C32 | Configuration selects the documented grid implementation | ParamModel | case analysis; witness | refuted, parts proved |
| C33 | Reads of plain grids convert like C++ value conversion and raw reads are bit exact | TypesModel | modular arithmetic, Flocq rounding | proved |
| C34 | Scalar reads of array and struct grids return the first element | TypesModel | exact description of the outcome for every type | refuted, parts proved |
| C35 | Cell size checks across files and levels | TypesModel | invariant over interleavings | proved |
| C36 | One-time initialisation runs exactly once and completes before anyone continues | SyncModel | invariant over interleavings, measure | proved |
| C37 | Thread barrier | SyncModel | invariant over rounds and interleavings, measure | proved |
| C38 | Thread broadcast | SyncModel | as C37 | proved |
| C39 | Barrier tolerates spurious wake-ups | SyncModel | witness schedules with one spurious wake-up; mutex invariant | refuted, parts proved |
| C40 | Thread registration | NumaModel | invariant over arrival orders on top of the barrier | proved |
| C41 | Open reports a failure of any domain | GridModel | consequence of C38 | refuted, parts proved |
| C42 | When open returns, the whole distributed grid is ready | StartupModel | witness schedules; order invariant of the masters | refuted, parts proved |
| C43 | Levels can be opened in any order | GridModel | shallow copies on reallocation; induction over opens | refuted, parts proved |
| C44 | Fortran handles | GridModel | invariant over histories | proved |
| C45 | Receiver tags of the communication thread | CommThreadModel | invariant over interleavings of overlapping groups | refuted, parts proved |
| C46 | Receiver tags never collide with the control tags | CommThreadModel | counting; witness | refuted, parts proved |
| C47 | Communication thread pinning | CommThreadModel | arithmetic in int | refuted, parts proved |
| C48 | Node-local rank | NodeRankModel | list counting | proved |
| C49 | Node-local rank works for every host name | NodeRankModel | bounds of Adler-32; witness | refuted, parts proved |
| C50 | Dictionary entries are bounded sets with most recent first | DictModel | invariant over histories against an abstract set | proved |
| C51 | Deleting a location removes only that location | DictModel | witness; case analysis | refuted, parts proved |
| C52 | Location and message encodings are lossless | DictModel | div/mod | proved |
| C53 | Several levels can use the communication thread | ReplyModel | witness schedules; matching invariant for separate tags | refuted, parts proved |
| C54 | Shared NUMA allocation | NumaModel | interval arithmetic | proved |
| C55 | Size arithmetic does not overflow | WrapModel | each machine function equals the exact one under size bounds; witnesses | refuted, parts proved |
| C56 | Non-thread-safe builds make progress | NoopModel | invariant that holds for ever; witness schedule | refuted, parts proved |
| C57 | Error codes agree in all language bindings | ParamModel | enumeration | refuted, parts proved |
| C58 | Byte values are signed | TypesModel | witness; arithmetic | refuted, parts proved |
| C59 | The implementation class matches the requested cell type | TypesModel | case analysis over the type list | proved |
| C60 | Fortran handles can be used while other threads create grids | GridModel | witness schedule; all interleavings without reallocation | refuted, parts proved |
| C61 | Reads through the communication thread can always still be completed | ConcModel.v with MThread; LiveFacts.v: `trapped` states; LiveModel.v: messages about one location arrive in order. | Refuted: invariant `trap` shows that no read completes from a trapped state; two executable runs reach such states. If at most one domain has several threads in the middle of reads: invariant `dsync` of the dictionary, a measure to reach a state at rest (threads to start a transfer, or to wait for the slot of such a thread with the manager of the one domain locked), from which the thread that keeps the others waiting finishes its read as its block is in no slot of its own domain; induction over the pending reads. No step starts a further read as long as one is left to be completed. | refuted, parts proved |
| C62 | The dictionary of the communication threads lists only cached blocks | ConcModel.v with MThread and the message order of LiveModel.v. | Invariant `dsync` (LiveInv.v): the messages about a block and a location alternate between addition and deletion and agree with the state of the slot. | proved |
| C63 | The MPI datatype of array and struct cells is ready when it is used | DatatypeModel.v: check, allocate (as a barrier, justified by C37 and C38) and getMPIType of all domains as interleaved steps. | Invariant over the three phases of the datatype: not requested, being created by one domain, committed. | proved |
| C64 | Registrations of receivers for several grids cannot block each other | CommThreadModel.v (the model of C45). | Refuted by a reachable state in which every step is impossible. Partial: induction over the registrations in their order; a process that has not entered yet has a free lock or waits for its own communication thread. | refuted, parts proved |
| C65 | The table of receivers is not changed while it is read | MapModel.v: accesses of the table have a begin and an end; one process, any number of threads. | Invariant: four phases of the lock (free, held by a registration, unregister message in flight, removal) and the life of a tag. Refuted by three runs with overlapping accesses. | refuted, parts proved |
| C66 | The lock of the communication thread is released correctly | MapModel.v with a mutex that checks its owner. | Refuted: every removal releases a lock of another thread. Partial: from every phase of the lock a run that frees it. | refuted, parts proved |
| C67 | Opening a level returns in all threads also when a step fails | OpenErrModel.v: the steps of Container::init for every level kind as a list of local steps, steps of domain 0 and collective calls; threads enter and leave collective calls. | Invariant counting the collective calls entered by each domain. Refuted in general: if the counts of two domains differ no thread returns. Partial: equal counts, then some step is always possible (the domain furthest behind) and a weight bounds the run. | refuted, parts proved |
| C68 | Closing a grid with communication thread accesses nothing freed | CloseModel.v: processes with using threads, the barrier of ~Grid, the list of freeing and unregistering steps of the destructors, the communication thread split into receive, look-up, before and after the reply. | Invariant: pending requests belong to waiting threads (counted), so nobody closes while one is pending; a kind that was unregistered is neither in the table nor being handled. Weight function for the end. The order of the steps is a condition checked for both destructors. | proved |
| C69 | Concurrent reads of a distributed full grid return the values of the file | FullConcModel.v: interleaving semantics of FullDist::getAt with NumaNo, NumaFull, NumaFullCache and MPINo, MPIWinFull, MPIThreadFull; the storages are those of fd_open (LevelsModel.v). | Simulation: every step is matched by steps of ConcModel.v in mode MNo whose file content is what the owner stores, so the invariants about locks and slots carry over; an own invariant for window lock, send-receive mutex and messages. Chain of waiting threads for no deadlock; weight function for the end. | proved |
| C70 | Several open grids are independent and cannot block each other | GridsModel.v: a world of cache grids (ConcModel.v) and full grids (FullConcModel.v), a lock per process taken and released around the window functions, one communication thread per process for all grids, threads with programs over all grids. | Invariant: the state of each grid is reachable in the model of one grid, a thread is in at most one grid, the lock is held exactly inside. Progress of the current grid is a step of a thread in this grid or of the communication thread; if it needs the lock, its holder can move. Weight function for the end. | proved |
| C71 | Threads can open and close different grids at the same time | CollModel.v: the functions which call MPI as regions with or without the library-wide lock and a number of collective calls; processes with threads which run the same programs. | Two blocked states by computation (opening, closing). Otherwise invariant (lock held exactly in the regions, collective calls entered plus those to enter is constant); of a thread that has not finished, the process which is furthest behind can go on or waits for the lock. Weight function for the end. | refuted, parts proved |
| C72 | THREADSAFE_MPI serialises the MPI calls of a process | CollModel.v; for all functions of the library LockModel.v (C84) with SerSpec.v. | Two overlapping states by computation (barrier while reading, datatype while allocating); exclusion of the regions under the lock from the invariant. Over LockModel a syntactic check of every function (MPI calls only between taking and giving back `mpiLock`) lifted to all executions. | refuted, parts proved |
| C73 | Counters with several threads | CountModel.v: one Counter object; increments as load and store, with the mutex if THREADSAFE_COUNTER; queries as single loads in any order. | Invariant: with the mutex or one reading thread at most one thread is between load and store of a counter, so the counter is the number of stores. Queries: the loaded values lie between the true numbers at begin and end. Refuted by two runs (lost access; hits queried during a miss). | refuted, parts proved |
| C74 | Reads return the file's value, from parameters to result | EndModel.v: a session = setParam calls, build, processes, domains, threads, type, level, file; puts together ParamModel, CoordModel, BlockedModel, LevelsModel, ConcModel, FullConcModel and TypesModel. In the cache class without NUMA exchange and in PassThrough the domains resp. threads are independent; with MPI switched off one process is described. | The selection guarantees what each level class needs (classes without MPI or NUMA transfer are only selected for one process or domain, except CACHE, whose domains are independent). Then the value theorems of the level classes, the index theorems (C19, C21) and the conversions are composed. Completion: no deadlock and bounded length of runs. | proved |
| C75 | Fortran calls do what the C++ calls do | FortranModel.v: the module procedures of asagi.f90, the functions of asagi_f90.cpp, the handle table and grid objects as call histories; the class itself is any function of its history. FortranSpec.v: the C++ program, without handles. | Simulation over programs: each live variable's handle leads to the object with the same history, different variables to different objects. Witness: a file name in a longer character variable. General: a padded parameter name is never looked up. | refuted, parts proved |
| C76 | Parameters for every level | FortranModel.v (set_param_u: the level in 32 bits) | equals the natural number version of ParamModel below 2^32-1; level 2^32-1 undefined | refuted, parts proved |
| C77 | Open succeeds exactly for readable variables | FileModel.v: NetCdfReader::open, Level::open, check of the three kinds of types; files with variables of any type; the table of open files. FileSpec.v: which types can be read as cells. | case analysis of open; every verdict as an equivalence with a statement about the file. Transfers: the bytes of the MPI type map lie in the buffer iff all fields lie in the cell. Witnesses: a text variable in a plain grid, a struct larger than the cell. | refuted, parts proved |
| C78 | Files are closed once | FileModel.v (resize, open_one, open_all, close_input, delete_all: any sequence of opens of any levels, the vector of levels with its copies, closeInputFile of full grids, then the destructors; readers are heap objects, deleting one twice is undefined) | invariant: the readers are different live objects and hold different open files, all opened by this grid; without repeated opens every open file is held; full grids hold no reader between opens. Witnesses: retry after WRONG_SIZE; ascending levels for every growth policy. | refuted, parts proved |
| C79 | Coordinates of a level | FileModel.v (get_offset, get_scaling), FileSpec.v (coordinate variables, origin, spacing) | the lookup by name finds the coordinate variable since names are unique. Witnesses: a text variable, a two-dimensional one | refuted, parts proved |
| C80 | Reading at the coordinates of a cell | CoordModel.v (getOffset, getScaling, pos2index in double arithmetic), EndModel.v (sessions), FileModel.v with doubles (C80_file). AxisFacts.v, first section: coordinates of a cell, almost equidistant values. | error analysis: the computed scaling is within 1/8 + 3 ulp of the spacing, so the scaled distance is within 2/5 of the index, and float_close (C22) leaves no other index; composed with C74. Witness: values 0, 1, 10. C80_beside_partial: coordinates which are up to 1/10 of the spacing off (near_cell, beside_index) belong to the same cell. | refuted, parts proved |
| C81 | Metadata of a grid with several levels | ContModel.v (init, getDimensions, getMin, getMax, getDelta of grid/container.h and simplecontainer.h, vector growth), ContSpec.v (last successful open of a level in the history) | induction over the history; other opens do not touch the container's arrays. Witnesses: ascending levels, level 0 not opened, different numbers of dimensions, failed second open. | refuted, parts proved |
| C82 | Memory, windows and receivers of a grid are released exactly once | LedgerModel.v: init functions and destructors of all level and transfer classes as command lists per class, executed by all domains with broadcasts; failures by oracle; vector growth with copy constructors; a log of allocations and releases. LedgerSpec.v: proper histories, what the readers of each kind use. | invariant per level: every live object is owned by exactly one field of domain 0 or of its own domain; which domain releases it is a static condition on the command lists (`kind_ok`), checked for every kind. Witnesses for every kind: second open, ascending levels; receiver and window that cannot be created. | refuted, parts proved |
| C83 | Reads do not race | RaceModel: which shared place (block of a cache, list of a cache manager, dictionary entry) the next step of each thread and communication thread reads or writes, for the systems of ConcModel (Cache, CacheDist) and FullConcModel (FullDist); the flag of Once; the performance counters | race freedom of every reachable state from the lock invariants of C10-C14 and the simulation of C69; completeness of the access tables by non-interference: a step changes only what it is said to write (C83_writes) and depends only on what it is said to access (C83_reads), in all states; refuted for the once-flag and the counters by schedules | refuted, parts proved |
| C84 | The mutexes of the library are used in an orderly way | LockModel.v: all functions of the library that use a mutex (reads of all kinds of levels, open with every failure, close, handlers of the communication thread, handles, counters, cell types), reduced to lock operations, netCDF/MPI calls and barriers; decisions are parameters; any number of threads run any programs of such calls. | A thread's remaining code is in order for the mutexes it holds (locks only upwards in a fixed rank of mutexes, try-locks of mutexes not held, returns with none held): proved function by function, preserved by every step; the thread that waits for the mutex of highest rank gives progress; code size decreases. | proved |
| C85 | Processes may use different numbers of NUMA domains and threads | RanksModel.v: one layout (BlockedModel) per process with its own number of domains; memory of distributed full grids; caches, dictionary entries (DictModel), locations and messages of both cache protocols with the own rankCacheSize of sender and receiver, reads one after the other; lock words, wake-ups and reserveTags with the own number of threads. Not modelled here: concurrency (C10-C15, C69), unsigned wrap-around (C55). | Refuted for all pairs of different numbers by arithmetic on the layouts; concrete histories by vm_compute. Partial: equal numbers give the requested block for every history (invariant: every dictionary entry names slots holding its block, no location twice). | refuted, parts proved |
| C86 | Each communicator a grid takes over is duplicated and freed exactly once; rank, size and the last barrier belong to it | CommModel: `mc_new`, `free_comm`, `mc_init`, `mc_reserve`, `mc_op`, `mc_ops`, `mc_close`, `life` (MPIComm with failing MPI calls; the record of all MPI calls). | CommSpec gives the communicators taken over (`taken`) and the exact sequence of MPI calls (`history`); CommFacts proves by induction over the operations that the calls are exactly these if no `MPI_Comm_dup` fails after one succeeded. FINDING: `init` frees the old communicator before `MPI_Comm_dup`; if that fails the grid keeps `MPI_COMM_NULL` with the old rank and size, and ends in a barrier on or the release of `MPI_COMM_NULL` whatever it does next (mpicomm.h 104-119, 172-177). | refuted, parts proved |
| C87 | Each thread keeps its own identifiers in each grid, however many grids are created and closed | CommModel: `numa_new`, `numa_delete`, `numa_register`, `numa_ids`, `kstep`, `krun`, `kids` (the key of each grid, an uninitialised `m_ptkey` is an oracle). | Invariant over any sequence of operations of any number of grids: keys of open grids are distinct, in use and hold what was stored last (pigeonhole: a key is left while fewer than `kmax` grids are open). FINDING: if `pthread_key_create` fails the destructor still calls `pthread_key_delete` with an uninitialised key; it may delete the key of another open grid, and the next grid then shares it (numa.cpp 48-61). | refuted, parts proved |
| C88 | Every coordinate selects a cell | CoordModel (`pos2index` in double arithmetic) as in C21; NanFacts.v starts with the list of lost coordinates (`lost`). | Exact characterisation with Flocq: when a product, a difference (gradual underflow: zero only if equal) and the inverse of the spacing (overflow exactly up to 2^-1024) are NaN, zero or infinite. FINDING: NaN passes both comparisons of the range check and is converted to an index (undefined behaviour), level.h 359-369; with a spacing of at most 2^-1024 the centre of the first cell does the same (0 times infinity). | refuted, parts proved |
| C89 | What is read through an MPI window is what was stored last, under the memory rules of MPI | WinModel.v: window memory as two copies per word with MPI-3's rules (MPI 3.1, 11.4 and 11.7), locks, remote operations; programs of all processes: the epochs of startTransfer, endTransfer, deleteBlock with arbitrary values, fills and fetches of slots, initMutexMem. WinSpec.v: one memory. | Simulation by one memory, invariant over all interleavings: outside of the owner's epochs the public copy is current, inside the private one for entries, always the public one for mutexes. FINDINGS for the separate model: slots of a cache are filled by stores and fetched by others without any synchronisation of the window by the owner; initMutexMem stores to the window after its creation. The library never asks for the model (MPI_WIN_MODEL). | refuted, parts proved |
| C90 | The file is read only if no other cache holds the block | FetchModel.v: the bookkeeping of CacheDist::getAt with both NUMA and all MPI transports, one reader at a time: lists of all caches (CacheModel), dictionary entries (DictModel), where the block comes from. | Invariant over all histories: entries list slots which hold the block, and all of them while at most four caches hold it (counting distinct caches); first-lap argument for histories without evictions. FINDING: an entry keeps four locations, a fifth one pushes out the oldest, and the deletion of an unlisted location removes the last listed one: the file is read although another process holds the block (witness with six processes). | refuted, parts proved |
| C91 | Simultaneous readers load a block from the file only once | ConcModel.v unchanged; SoleSpec.v counts the starts of `loadBlock` along an execution. | Invariant without evictions: every list is in its first lap, so a block misses once per cache; with windows the first place of the dictionary entry is empty only until the first reader has claimed it in its epoch. Also with evictions at most one thread loads a block at a time (the mutex of the entry). FINDING: without windows nothing prevents simultaneous misses: two domains of a process (cache.h; tryGet fails on the locked slot) and two processes with communication threads (the entry is added after the load) read the same block from the file twice; the comment in cachedist.h 168-172 speaks of collisions with deletions only. | refuted, parts proved |
| C92 | Store buffers of the processors do not change what readers get | BufModel.v: a machine with a store buffer per thread (in order, or reordered between locations; unlock waits for the buffer), and two programs on it: the operations of ConcModel.v for one process with explicit loads and stores, and saveExec of threads/once.h with the flag and the stored words as locations. BufSpec.v: the machine without buffers and what it means to keep to the mutexes. | Simulation: for programs which touch every location under its mutex a buffered execution has the threads, mutexes and visible values of an execution without buffers; the cache program keeps to the mutexes by the invariant of C10, so C10 carries over, and so does the absence of deadlocks. For the once-flag an invariant over the buffer of the holder. FINDING: saveExec reads m_state without the mutex and without any ordering (a plain bool, once.h 73, 85): if the store to m_state becomes visible before the stores of initContainers (not on x86, but on ARM or POWER or by the compiler), a thread goes on with uninitialised containers. With stores in order, or without the first test, it is proved correct; the function starts at most once in all cases. | refuted, parts proved |
| C93 | Old values in loads do not change what readers get | LateModel.v: a memory that keeps all stores with stamps; threads, mutexes and atomic stores carry what has to be known; on it the programs of BufModel.v (reads of caches, saveExec with a plain or an atomic flag) and the barrier of SyncModel.v. BufSpec.v: the machine with one memory and what it means to keep to the mutexes. | Invariant: the holder of a mutex has to know the newest store of every location of this mutex, a free mutex carries it; hence a simulation by the machine with one memory, and C10, C11 carry over. Barrier: the store of a thread that has arrived is known to whoever holds the mutex, with C37 everybody who passed knows it. FINDING: saveExec tests the plain bool m_state without the mutex (once.h 73): a thread that finds it set may read the containers as they were before initContainers, even if the stores were made in order. With std::atomic, or without the first test, it is proved correct. | refuted, parts proved |
| C94 | The hand spread controls how well the cache replacement approximates least recently used | CacheModel (`lru_init`, `lru_iter`, `lru_get_free`, `clist_request`) as for C16-C18; SpreadSpec: distance of the hands, number of misses, first-in-first-out reference. | Number the hand moves: the leading hand clears slot (spread+k) mod n in move k, the other one inspects slot k-1, so a slot is inspected exactly spread moves after it was cleared (`timed`, `window`); lifetime and fifo by induction over the requests; the last-used block is a victim: general history for every size and spread. | refuted, parts proved |
| C95 | The repository's own test programs cannot fail | SuiteModel.v: the files of prepare.cpp and the loops of the test programs (one probe per comparison, float and double arithmetic of the programs included) on top of EndModel.v. Not modelled: process start and exit, logging, numa_transfers (compiled out or zero), test programs' MPI calls. | SuiteFacts.v: each probe's coordinate is within 1/10 of the spacing of its cell (C80_beside), the cell decodes to the expected float, the conversion is exact below 2^24; composed with C74, C28, C73. Prop_Suite.v also evaluates the unit tests of the cache list, cache manager, block sizes on the model, and shows which classes the programs select: NUMA_CACHE in two of them is not read by the code (the class they are named after is never tested), and by the exchanged branches (C32) cachegrid2d runs the NUMA cache, cachenumagrid2d the plain one. | proved |
| C96 | The block distribution agrees with dealing the blocks out one by one | DealModel.v: preprocess/test/test_index.py, its two dealing loops with all list accesses checked, and its test; BlockedModel.v | Invariants of the loops: after i blocks the loop variables are the quotients and remainders of i (round robin: the number of blocks each node and core has got), the tables agree with the formulas below i; C02 for the storage places. | proved |
| C97 | Blocks are shared evenly | BlockedModel.v; share (DealFacts.v) counts the blocks of a place | Induction over the number of blocks: share = the number of multiples (round robin), min of the local count and the rest (contiguous). Refuted for contiguous by P+1 blocks on P ranks. | refuted, parts proved |
| C98 | The noise functions have a value everywhere and no jumps | NoiseModel.v: pnoise.py (table, gradients, pnoise1D/2D/3D, octaves) over rational numbers; exceptions are Ub | NoiseFacts.v, NoiseThree.v: the number of a lattice point depends on the point only (the cells agree on their edges and faces); weights and gradients bounded; Lipschitz within a cell by algebra (the interpolation can be done in any order of the axes), across cells by induction over the cells between two points; NoiseOct.v: octaves; a computed witness beyond 1 in three dimensions; Prop_Noise.v | refuted, parts proved |
| C99 | The noise generator writes the noise at each point of the grid | NoiseModel.v: create_noise_grid.py with list/dictionary or netCDF output, rounding of stored numbers and the logarithm arbitrary; the file is an ncfile of FileModel.v | NoiseGrid.v: invariants of the two nested loops; first failing store for grids that are not square; square axes agree (continuity of C98 transports equal coordinates); NoiseSpec.v says what the files should show; Prop_Noise.v | refuted, parts proved |
| C100 | The unit tests are successful in every interleaving | UnitModel.v: the test programs with their assertions, as interleaved machines on top of SyncModel, NumaModel, CommThreadModel, CacheModel, NetCdfModel and BlockedModel; UnitTypeModel.v: the tests of one thread on SyncModel (once), TypesModel and CoordModel | UnitFacts.v: invariants relating the position in each test program, the shared variable and the state of the barrier (with the theorems of C37); UnitNuma.v: once a thread has returned from the registration both have registered, so the communicator is a synchronisation of fixed configuration; UnitComm.v: per process, the position determines lock, map and the messages under way; UnitRest.v: evaluation with symbolic blocks, loading theorem of C03; UnitTypeFacts.v: rounding error of the maximum; Prop_Unit.v, Prop_UnitType.v | refuted, parts proved |
| C101 | The script that adds a time dimension multiplies the data with the share of the time | InterpolModel.v: interpol_time.py on files as lists of dimensions and variables; numpy's types of products, IEEE arithmetic of TypesModel.v and CoordModel.v | InterpolFacts.v: the quotient of a double by 600 is truncated to the exact quotient for all products below 2^53 (error less than the distance to the next multiple of 1/600); relative error of the float steps; the axis is exact, pos2index of the opened axis selects the step; Prop_Interpol.v | refuted, parts proved |
| C102 | The example programs show the values of the cells at the positions they print | ExampleModel.v: the reads of each program per rank, with the literals as nearest double or nearest float, on the sessions of EndModel.v; the file of SuiteModel.v | ExampleFacts.v: an axis without coordinate variable maps a number within 2/5 of k to k, and negative numbers to 0 (error bound and monotonicity of C21, C22); the literals are evaluated; the answers follow from the general theorem about runs (EndFacts.v) and the conversions (C33); Prop_Example.v | proved |
| C103 | pinning_test prints exactly the CPUs a thread is pinned to | ExampleModel.v: the loop with fuel, the text as a string | ExampleFacts.v: induction over the remaining bits; the ascending list of a mask is unique; Prop_Example.v | proved |
| C104 | Programs reading a grid run to their end | EndRunModel.v: executions with their steps ([hist], [next], [moment], [session_exec], [later]) over the transition systems of EndModel.v. | EndRunFacts.v: every incomplete moment has a next one ([moment_next], from the absence of deadlocks in ConcFacts/FullConcFacts), complete ones have none ([moment_last]), bound ([moment_bound]); values from C74's lemmas. | proved |
| C105 | Registration with any number of calling threads | CallersModel.v: registerThread of N threads with the number T of setThreads, both arbitrary: the test of m_initialized without lock, the barrier of SyncModel.v with T, the unsigned m_totalThreads-1 | CallersFacts.v: T = N: every execution is one of NumaModel.v preceded by the tests of m_initialized, so the theorems of C36-C38 apply; fewer callers or T = 0: invariant (nobody beyond the first wait, the counter is the number of sleepers) and a count of the steps; more callers: run the first T to the end, then one more; Prop_Callers.v | refuted, parts proved |
| C106 | The three grid types access the file exactly as documented | RequestModel.v: the loading functions of LevelsModel.v together with the netCDF calls (start, count) they make | RequestFacts.v: the block numbers loaded by all ranks are exactly 0..total-1 without repetition (from C02), a request covers exactly the cells of its block (from C01); cache: the calls follow from the history of the cache list (C16, C17); FULL reads: the functions do not depend on the file; Prop_Request.v | proved |
| C107 | A failing pthread function in a barrier or broadcast is reported and does no harm | FailModel.v: one call of barrier/broadcast by one thread, every pthread call may fail (answers), the other threads change the object arbitrarily during waits; the calls are logged with their success | FailFacts.v: each phase of waitBarrier goes on with a clean log or stops with one failed call (stage), composed in report_facts; findings by computation for all objects and numbers of threads; Prop_Fail.v | refuted, parts proved |
| C108 | A thread whose registration failed is never told that it succeeded | FailModel.v: registerThread over the same answers, with nregister and nagain of NumaModel.v, sched_getcpu/numa_node_of_cpu, pthread_key_create and pthread_setspecific failing or not | FailFacts.v: case analysis over the phases, using the lemmas of C107; Prop_Fail.v | refuted, parts proved |
| C109 | Starting and stopping the communication thread | RestartModel.v: `init`, `finalize`, `register`, `unregister` of mpi/commthread.h per process with failing calls, `step`/`run` over all processes with what they see recorded; calls that never return (`Hang`) and erroneous calls (`Undef`) are outcomes. RestartSpec.v: which processes have a thread and which tags are in use, from the record only. | RestartFacts.v: invariant tying the member variables to the record, by induction over the calls; `stuck` (communicator without thread) preserved by every later call. | refuted, parts proved |

## Findings: properties which the code violates

Each is a theorem `…_refuted`; the file and lines are in the comments of the model.

* **C18** REFUTED: every CACHE_HAND_SPREAD >= cache size indexes outside the reference flags; smaller spreads proved safe. (C18_oversized_spread_refuted, C18_every_oversized_spread_fails)
* **C20** Proved in exact arithmetic for any number of dimensions; REFUTED for doubles: the rounded cell-centred maximum of the grid 1048576, 1048577 is clamped. Proved for doubles if the first coordinate (in cells) and the number of cells are together at most 50000 (cell-centred) or 2^47 (vertex-centred). (C20_float_refuted)
* **C22** REFUTED by 0.49999999999999994; proved: never worse than the nearest cell by more than 10*2^-53 of the extent (2^-900 <= |spacing| <= 2^900). (C22_refuted)
* **C23** REFUTED: NaN index at the infinite end points of size-one dimensions, and for finite coordinates whose distance to the offset overflows; everything else is defined. (C23_refuted, C23_overflow_refuted)
* **C26** REFUTED: the default block size 1 of the time dimension is overwritten by the general default; holds when the block size is given explicitly. (C26_time_block_refuted)
* **C27** REFUTED: zero-length dimensions divide by zero, 0-dimensional variables index imap[-1]; all other files are safe. (C27_degenerate_refuted)
* **C29** REFUTED: getCounter ignores the level, and the documented name file_load is not recognised; level 0 and the other documented names proved. (C29_level_refuted, C29_name_refuted)
* **C31** REFUTED: every negative number given to a parameter other than VARIABLE and BLOCK_SIZE_x arrives as 0 (the minus sign becomes an underscore); values without a minus sign arrive unchanged. (C31_refuted)
* **C32** Storage class and MPI mode proved; REFUTED for NUMA: a cache grid without MPI communication gets the opposite NUMA mode. (C32_numa_refuted)
* **C34** REFUTED: the scalar getters of array and struct grids overrun the result variable or reinterpret raw bytes; proved exactly what happens, and the one-element case. (C34_refuted, C34_what_happens)
* **C39** REFUTED: each of the three condition waits is an if; one spurious wake-up lets a thread through the barrier, or makes a broadcast read a dead variable. Exclusion survives. (C39_refuted, C39_dangling_refuted, C39_reuse_refuted)
* **C41** REFUTED: the broadcast hands everybody the error of thread 0, even the failing master returns success; failures of domain of thread 0 are reported by all. (C41_refuted)
* **C42** REFUTED: window creation and receiver registration synchronise the ranks only through the masters of domain 0, so another rank may still be loading blocks or initialising dictionary entries of further domains; initMutexMem runs after window creation and releases locks which faster ranks have already acquired (also with one domain); receivers are saved after the collective operation. Proved parts: domain 0 of every rank and all domains of the own rank are ready; locks are exclusive if used only after the last initialisation. (C42_blocks_refuted, C42_entries_refuted, C42_locks_refuted, C42_receivers_refuted)
* **C43** REFUTED for every growth policy of the level vector: ascending opens destroy the earlier levels (shallow copy); proved when the largest level is opened first. (C43_refuted)
* **C45** Tags, receivers and exactly-once handling proved for all groups and interleavings; REFUTED that a message is always handled: one sent before the receiving process has stored its receiver is dropped. (C45_early_message_refuted)
* **C46** REFUTED: tags are never reused, so the 32767th receiver gets the unregister tag and the next one the exit tag; fewer are safe. (C46_refuted)
* **C47** REFUTED: negative arguments, also the default -1, select a CPU that does not exist, and the smallest int overflows; non-negative arguments proved. (C47_negative_refuted, C47_min_int_refuted)
* **C49** REFUTED: host names like compute-node-01.example.org hash to a negative color; ASCII names up to 22 characters are fine. (C49_refuted)
* **C51** REFUTED: deleting a location that is not in a full entry erases the last location; deletion of recorded locations is exact. (C51_delete_refuted)
* **C53** REFUTED for several levels: dictionary requests of a cache grid wait for reply tag 0 without the level's tag offset, so on later levels they hang or take another level's reply, and all full-grid levels share reply tag 0. Proved: block requests of all levels with dictionary requests of the first, and single-level full use; with offsets used everywhere it would hold (C53_with_offsets). (C53_cache_hang_refuted, C53_cache_mixed_refuted, C53_full_refuted)
* **C55** REFUTED: rounding up wraps for grids near 2^64 (no blocks, division by zero), cacheSize*domains is computed in 32 bits (slots collide, rank cache size 0) and MPI counts are truncated to int. Proved for grids (plus one block per domain) below 2^63 bytes, fewer than 2^32 slots per rank and blocks below 2^31 values: every model function computed with machine integers equals the exact one. (C55_rounding_refuted, C55_local_count_refuted, C55_rank_cache_refuted, C55_slots_refuted, C55_count_refuted)
* **C56** REFUTED: NoopMutex::try_lock returns false, so tryGet never finds a block and a read of a block listed in the dictionary retries for ever (proved for every configuration, with a reachable example). Proved part: reads of blocks which no rank has cached are answered with the value of the file. (C56_endless_retry_refuted, C56_read_lost_refuted)
* **C57** REFUTED: INVALID_VAR_SIZE is 12 in C++/Fortran and 13 in C (which has an extra MULTIPLE_TOPGRIDS); all other names proved to agree. (C57_refuted)
* **C58** REFUTED: bytes are loaded as unsigned; non-negative values are exact. (C58_refuted)
* **C60** REFUTED: the lookup does not lock and reads the freed table when a creation reallocates it; safe in every interleaving without reallocation. (C60_refuted)
* **C61** REFUTED: CacheManager::get keeps the manager locked while waiting for a slot, so tryGet fails; two threads on each of two ranks (or domains) which want each other's cached blocks retry for ever (proved for every configuration in a trapped state, with reachable examples). Proved part: all reads can be completed from every reachable state in which at most one domain has several threads in the middle of reads - in particular always if at most one domain has several threads, and from the start for all programs (messages about one location in order; the completing schedule is first in, first out). (C61_livelock_refuted, C61_two_ranks_refuted, C61_two_domains_refuted)
* **C64** REFUTED: registerReceiver holds m_lock of the process while it waits in MPI_Allreduce; two threads on each of two processes that open two grids in different orders block each other for ever (no step is possible). Proved part: if all processes open the grids in the same order (at most 32766 registrations, see C46), all registrations can be completed from every reachable state. (C64_deadlock_refuted)
* **C65** REFUTED: send and the communication thread look up m_receiver without the lock, also while another thread inserts a receiver (opens a grid) or the communication thread removes one. Proved part: writing accesses exclude each other, and a receiver is not called after unregisterReceiver has returned. (C65_lookup_race_refuted)
* **C66** REFUTED: the communication thread releases the lock that the caller of unregisterReceiver acquired, which is undefined for C++ and POSIX mutexes and spin locks. Proved part: with locks that permit it, the lock can be released from every state (assuming the MPI calls return). (C66_refuted)
* **C67** REFUTED: domain 0 alone creates memory, windows and receivers and returns at once if this fails; the other domains then wait for ever in the following broadcast of pointers, and every thread in the last broadcast of open (two or more domains; all level kinds except the pass-through). Proved: open returns in all threads exactly when all domains get to the same number of collective calls; in particular with one domain, and when a step fails in all domains (missing file). The result is the one of domain 0 (see C41). (C67_hangs_refuted, C67_domain0_refuted)
* **C71** REFUTED: MPI_Comm_dup, MPI_Win_create and MPI_Win_free are called while mpiLock is held; two threads which open (or close) one grid each, in different order on two processes, wait for each other for ever. Proved part: no deadlock and termination without THREADSAFE_MPI, or if on each process one thread opens and closes grids with windows. (C71_open_blocked_refuted, C71_close_blocked_refuted)
* **C72** REFUTED: MPI_Barrier in ~Grid and MPI_Type_* in types/ are not under mpiLock, so two threads call MPI at the same time. Proved: the regions under the lock exclude each other; over all functions of the library (LockModel) at most one thread is in MPI, holding mpiLock, as long as threads only read (all kinds of grids but the communication thread, which is replaced by windows with THREADSAFE_MPI), open grids whose datatype is plain or already created, and set communicators. Missing: closing, first open of an array or struct type (refuted), startCommThread. (C72_barrier_refuted, C72_types_refuted)
* **C73** REFUTED (C73_lost_refuted): in the default build two threads that miss together can lose an increment of ACCESS; local_hits then is 2^64-1 (the documentation only says inaccurate). REFUTED (C73_hits_refuted): with THREADSAFE_COUNTER get takes no mutex, local_hits queried during a miss can be 2^64-1. Proved otherwise: exact values at the end with THREADSAFE_COUNTER or one reading thread; native counters and misses queried at any time lie between the true numbers; never too large in any build. (C73_lost_refuted, C73_hits_refuted)
* **C75** REFUTED for character variables longer than the text: asagi.f90 appends the null character without trimming, so trailing blanks reach open (file not found) and setParam (a parameter under a name nobody looks up, silently ignored). Proved: with strings in variables of exactly their length every Fortran program sees what the C++ program with the same calls sees, for any behaviour of the grid class. (C75_file_refuted, C75_name_refuted)
* **C76** REFUTED for the last level 2^32-1 (-1 in a Fortran program): level+1 wraps to 0, the vector is emptied and then indexed. Proved for all other levels, assuming that the memory suffices. (C76_last_level_refuted)
* **C77** REFUTED for plain types (check accepts any variable; text and user-defined types cannot be converted, the error is ignored and blocks keep the former memory contents) and for structs (one larger than the cell of the file is accepted, MPI transfers then leave the buffer). Proved: exact conditions of all six results, arrays, cell size, memory of transfers; assumes the netCDF library fails only for the listed reasons. (C77_plain_refuted, C77_struct_refuted)
* **C78** REFUTED when a level is opened again, e.g. after WRONG_SIZE (the first reader is overwritten, its file never closed), and when the vector of levels grows (the copies delete the same reader and close the same file again; full grids only after a failed open). Proved: every file closed once if the largest level is opened first and each level once, with any errors; nothing twice and no foreign file also with repeated opens; full grids in any order if the opens succeed. (C78_reopen_refuted, C78_grow_refuted, C78_grow_full_refuted)
* **C79** REFUTED for coordinate variables of text (offset and scaling never set, open succeeds) and with two dimensions (library reads behind the index). Proved for files whose dimensions each have a one-dimensional numeric coordinate variable or none, and non-empty dimensions (empty ones: C27). (C79_text_refuted, C79_curvilinear_refuted)
* **C80** REFUTED for coordinate variables that are not equidistant (0, 1, 10: coordinate 1 is mapped to cell 0; no error, restriction not documented). Proved in double arithmetic, for all sessions of C74, when each axis has no coordinate variable, one cell, or values within 1/16 of the spacing of an equidistant grid, with at most 2^47 cells and a spacing between 2^-890 and 2^890. C80_file connects the axes with opening a file. C80_beside_partial: the same for coordinates the program computes itself, up to 1/10 of the spacing from the place of the cell on the equidistant grid (on axes of length one: up to 2^1000 away). (C80_uneven_refuted)
* **C81** REFUTED: with levels opened in ascending order the spacing of level 0 is uninitialised memory (copy constructor, every growth policy); a grid without level 0 reports 0 dimensions and an uninitialised range; levels with more dimensions than level 0 are accepted, reads then look past the caller's coordinates; after a failed second open of level 0 range and spacing belong to different files. Proved: dimensions and range are level 0's after its last success in every history; spacing per level if the largest level is opened first. (C81_order_refuted, C81_missing_refuted, C81_dims_refuted, C81_stale_refuted)
* **C82** REFUTED: for every kind of level a second open of a level leaks everything of the first; with levels in ascending order (all opened once, successfully) memory is freed twice and the copied level keeps freed memory; a distributed cache whose first receiver cannot be registered leaks its arrays; a distributed full grid whose window cannot be created leaks the window's mutex. Proved: exactly once and usable until then for all kinds, domains and failures otherwise, when no level is opened twice and the largest is opened first; under the same conditions windows and receivers end before the blocks and dictionaries they give access to (C82_order_partial). (C82_reopen_refuted, C82_grow_refuted, C82_receiver_refuted, C82_window_refuted)
* **C83** REFUTED for two data: Once::m_state is read without the mutex at line 73 while another thread writes it at line 85 (the first opens of a grid by several threads), and the performance counters are incremented without mutex by default and queried without mutex even with THREADSAFE_COUNTER. Proved: no race on blocks, cache lists and dictionary entries, for cached and full grids; the access tables are complete; the flag has no other race; counters have none with THREADSAFE_COUNTER and no queries. (C83_once_refuted, C83_counter_refuted, C83_query_refuted)
* **C85** REFUTED: each process computes ranks, offsets, locations and tags from its own number of domains and threads, nothing compares them. For any two processes with different numbers of domains there is a grid in which one reads a wrong block of the other (C85_round_robin_refuted, C85_contiguous_refuted: all numbers, not one witness); cached locations are decoded wrongly (C85_location_refuted), a concrete history returns block 5 for block 0 with windows and retries forever with the communication thread (C85_cache_refuted); with different numbers of threads wake-ups of the MPI mutex go to the wrong process or to a tag nobody waits for (C85_wake_refuted). Partial: with equal numbers everything is right. Reads are executed one after the other here (the concurrent protocols with one number are C10-C15, C69). (C85_round_robin_refuted, C85_contiguous_refuted, C85_location_refuted, C85_cache_refuted, C85_wake_refuted)
* **C86** REFUTED in general: setComm frees the old communicator before MPI_Comm_dup; if the dup fails the grid is left with MPI_COMM_NULL and the old size, and every continuation ends in MPI_Barrier or MPI_Comm_free of MPI_COMM_NULL (C86_late_failure_refuted). Proved for all sequences in which no dup fails after a successful one: the exact sequence of MPI calls, and rank/size when nothing fails. (C86_late_failure_refuted)
* **C87** REFUTED in general: with all keys in use pthread_key_create fails, m_ptkey stays uninitialised and ~Numa deletes it anyway, possibly the key of an open grid (C87_deleted_refuted), which the next grid then shares (C87_shared_refuted). Proved for all sequences with at most kmax grids open at a time: identifiers (C87_ids_partial), registering succeeds (C87_register_partial); a grid created while all keys are in use refuses registration and leaves the others alone (C87_refused_partial). (C87_deleted_refuted, C87_shared_refuted)
* **C88** REFUTED: a NaN coordinate is not corrected, its conversion to size_t is undefined (C88_nan_refuted, in every file); also the centre of the first cell if the spacing is at most 2^-1024 (C88_tiny_refuted). C88_exact_partial lists exactly the coordinates for which this happens; for all others the indices are in range. (C88_nan_refuted, C88_tiny_refuted)
* **C89** REFUTED for windows with MPI's separate memory model, which the library does not exclude: fetching a slot that its owner has filled is undefined (C89_block_refuted), acquiring a mutex after initMutexMem is undefined (C89_mutex_refuted). Proved: everything in the unified model; in both models the dictionary (mutexes initialised before the window) and blocks of full grids in memory before the window is created. (C89_block_refuted, C89_mutex_refuted)
* **C90** REFUTED in general (C90_other_cache_refuted, windows and communication threads): an entry lists at most four locations and deleting an unlisted location removes another one (C51), so the only process which holds a block may be unlisted and the file is read. Proved: every source used does hold the block and domains of the own process are always preferred (C90_source_partial); never more than four holders (C90_four_partial) or at most four caches (C90_small_partial): the file is read exactly if no cache holds the block; any number of caches without evictions: every block is read from the file exactly once (C90_once_partial). One reader at a time; concurrent readers of a block may both read the file, which is not part of the claim. (C90_other_cache_refuted)
* **C91** REFUTED without MPI windows: two NUMA domains of one process, or two processes with communication threads, which miss the same block at the same time both load it (witness schedules). Proved: with windows one load for all ranks and domains together; in every build one load per cache; with windows at most one thread loads a given block at any time even with replacements. (C91_domains_refuted, C91_processes_refuted)
* **C92** REFUTED for the once-flag if stores may become visible out of order (not x86): a thread can return from saveExec before the stores of initContainers are visible (witness). Proved: every program which keeps to its mutexes behaves as without buffers; in particular the reads of the caches of one process return the values of the file and do not deadlock, stores in order or not; the once-function starts at most once; with stores in order or without the first test its effects are visible. Missing: MPI transports and counters with buffers, speculative loads. (C92_once_refuted)
* **C93** REFUTED for the once-flag: a thread that takes the fast path of saveExec may read old values (C93_once_refuted). Proved: programs that keep to their mutexes, cache reads of one process, barriers and broadcasts, at most one start of the function, and saveExec without the fast path or with an atomic flag. Not modelled: stores that influence the loads they depend on; MPI transports. (C93_once_refuted)
* **C94** REFUTED for the last part: whatever the cache size and the spread, if all blocks are in use the next victim is the block under the leading hand, even if it was used last (C94_last_used_refuted). Proved: bound and exact length of the search, time window for a second use, minimal lifetime of a loaded block, first in first out for spread 0. (C94_last_used_refuted)
* **C97** REFUTED for the contiguous mode (ROUND_ROBIN off): with one block more than ranks the first rank stores two blocks and the last none (C97_idle_refuted, for every number of ranks from 3). Proved for round robin (the default): shares differ by at most one; for contiguous the exact share of every place. (C97_idle_refuted)
* **C98** REFUTED for one dimension (C98_one_refuted): noise1D calls pnoise1D with one argument although it has two parameters, so it always raises an exception; and for the bound in three dimensions (C98_three_refuted): at (223.35, 61.5, 233.5) the value is beyond 1. Proved in two dimensions: no exception, values within [-1, 1] (attained, C98_sharp), zero on the lattice, period 256, Lipschitz continuous across all cells, also for sums of octaves with roughness >= 0 (a negative roughness can divide by zero, C98_negative). The same in three dimensions, with values within [-3/2, 3/2]. Numbers are rational (no rounding). (C98_three_refuted, C98_one_refuted)
* **C99** REFUTED: grids that are not square always raise an exception (C99_shape_refuted; C99_square_partial says exactly which calls succeed), as nc_values has the dimensions (x, y) but is written as [j, i]. Square grids: by the names of the dimensions the field is transposed (C99_names_refuted); ASAGI, whose first coordinate belongs to the last dimension, finds the right values (C99_files_partial, C99_opens_partial); the VTK file is transposed (C99_vtk_refuted). (C99_shape_refuted, C99_vtk_refuted, C99_names_refuted)
* **C100** REFUTED in three places. (1) testRegisterThread asserts thread ids 0 and 1 for the first and second thread, but if the created thread enters registerThread first it gets 0 (C100_register_refuted); the test passes exactly if the main thread gets 0. (2) testAllocate asserts data + 1 == data2_1 on two domains, which fails if the created thread registers first (C100_allocate_refuted); on one domain it always passes. (3) With a spurious wake-up a barrier test can fail (C100_spurious_refuted), see C39. Proved for everything else: all other assertions in every interleaving, definedness, progress, bounded length; the communication thread's test for any number of processes; the cache tests for any four blocks; the reader's test for any file, offset and size, and that it notices every wrong value; the full level's test for any size; the once test for any number of calls; the array type's test for any cell size; the pass-through level's test for any width from 2 to 2^36. (C100_spurious_refuted, C100_register_refuted, C100_allocate_refuted)
* **C101** REFUTED: products overflow in variables of 1 and 2 bytes with two or more dimensions (step 400 of 100 is negative), large singles become infinite, actual_range says 600 although the time ends before 300 (C101_overflow_refuted, C101_infinite_refuted, C101_range_refuted). Proved for all files: content of the new file (integers exact unless a product overflows, floats within rounding unless they overflow), when it is written, when the script raises, exact time axis and its use by ASAGI. Missing: masked values, scale_factor, empty dimensions, scalars. (C101_overflow_refuted, C101_infinite_refuted, C101_range_refuted)
* **C105** REFUTED for wrong numbers of callers: C105_missing_refuted (fewer callers, or setThreads(0): all callers sleep for ever, for every such T and N), C105_surplus_refuted (more callers: an execution in which a surplus thread returns with id 0 and as master, like the registered thread 0, for every such T and N), C105_surplus_waits_refuted (one surplus thread which has read m_initialized too early sleeps for ever, every T > 1). C105_fits_partial: with exactly T callers everything claimed holds. No spurious wake-ups (C39), pthread functions do not fail. (C105_missing_refuted, C105_surplus_refuted, C105_surplus_waits_refuted)
* **C107** REFUTED: C107_lock_refuted (a failing pthread_mutex_lock goes unnoticed: line 109 of threads/sync.h guards the test of m_finishing instead of returning, startBarrier reports success and the object is used without the mutex), C107_held_refuted (if the wait of startBarrier fails, false is returned with the mutex locked), C107_count_refuted (a thread whose wait failed stays counted; the next barrier opens with one thread missing and m_finishing stays set), C107_ignored_refuted (the result of the last broadcast is not looked at). Proved: given that the lock succeeds, exactly which failures are reported and when the mutex is free (C107_reported_partial); all is well without failures. Effects of failing pthread functions as in POSIX (listed in FailModel.v). (C107_lock_refuted, C107_held_refuted, C107_count_refuted, C107_ignored_refuted)
* **C108** REFUTED: C108_again_refuted (m_initialized is set before the ids are stored: after a failing pthread_setspecific the first call returns THREAD_ERROR, every later one SUCCESS, with thread id 0 and the master flag of thread 0), C108_key_refuted (after a failing pthread_key_create the later calls use the key that does not exist). Proved: the registering call itself returns SUCCESS only if nothing failed and the ids are stored (C108_success_partial). (C108_again_refuted, C108_key_refuted)
* **C109** REFUTED in general: if pthread_create (or MPI_Comm_group, MPI_Comm_rank) fails in init, m_comm stays set: the start reports the error, every later start reports ALREADY_INITIALIZED, registerReceiver succeeds although nobody receives, stop does not return (C109_create_refuted; for all continuations C109_stuck_partial); the MPI groups of init and registerReceiver are never freed (C109_groups_refuted, exact number in C109_objects_partial); a registration by processes only some of which have a thread never returns at those (C109_mixed_refuted). Proved for all histories in which only reductions and duplications fail (at any processes): results of start, stop, register, unregister, tags, one communicator and one thread; with all failures: the result of a start at each process. (C109_create_refuted, C109_groups_refuted, C109_mixed_refuted)
