{"id": "C01", "title": "Block decomposition is an exact partition of the grid", "statement": "Splitting a grid of any shape into blocks assigns every cell to exactly one (block, in-block offset) pair: the block number is smaller than the reported number of blocks, the offset is smaller than the block volume, two different cells never share a pair, and walking from the block number back to its corner yields exactly the corner of the block that contains the cell.", "quantifier": "every number of dimensions, every positive extent per dimension, every requested block size (default, negative, positive, larger than the grid), every cell", "why_tests_cant": "the space of shapes x block sizes x cells is infinite; a test fixes a handful of shapes", "anchors": ["grid/level/blocked.h:open,calcBlockPosition,blockByCoords,calcOffsetInBlock"]}
{"id": "C02", "title": "Every block has exactly one home in a distributed full grid", "statement": "With any number of MPI ranks and NUMA domains, and in both distribution modes (round robin and contiguous), every block is loaded by exactly one (rank, domain) at exactly one storage slot; that slot lies inside the allocated storage, the owner computed on the reading side is the one that loaded it, and its offset within the rank's shared memory is inside the rank's window.", "quantifier": "every block count, rank count >= 1, domain count >= 1, both distribution modes, every block", "why_tests_cant": "needs all combinations of ranks, domains and block counts including the ragged last slot; cluster runs sample a few", "anchors": ["grid/level/blocked.h:localBlockCount,nodeBlockCount,blockRank,blockDomain,blockOffset,blockNodeOffset,local2global", "grid/level/full.h:open"]}
{"id": "C03", "title": "Loading an edge block leaves the right value at every valid position", "statement": "Reading a block of built-in values from the file writes the file value of each in-range cell at the row-major position of that cell inside the block, touches no position outside the block and never asks the file for a cell outside the variable, even when the block hangs over the edge of the grid in any subset of the dimensions.", "quantifier": "every dimension count, extent, block size, block and cell", "why_tests_cant": "edge blocks ragged in several dimensions at once explode combinatorially", "anchors": ["io/netcdfreader.h:getBlock,getVar<T>"]}
{"id": "C04", "title": "Loading an opaque (array/struct) edge block in place is equivalent to a strided load", "statement": "For array and struct grids, which are read compactly and then spread out inside the same buffer, the final buffer holds every in-range cell's value at its row-major position inside the block, no value is overwritten before it has been moved, and all accesses stay inside the block buffer.", "quantifier": "every dimension count, every block size, every clipped size in each dimension, every file content", "why_tests_cant": "in-place overlapping moves are wrong only for particular combinations of clipped extents; tests use one 3-d shape", "anchors": ["io/netcdfreader.h:getVar<void>,getBlock"]}
{"id": "C05", "title": "A full grid returns the value stored in the file", "statement": "After opening a FULL grid without MPI/NUMA distribution, a read at any index returns the value which the file holds for that cell; the read never touches storage that was not loaded.", "quantifier": "every shape, block size, file content and every index", "why_tests_cant": "requires all shapes and all cells, including blocks clipped by the grid edge", "anchors": ["grid/level/full.h:open,getAt"]}
{"id": "C06", "title": "A distributed full grid returns the file value on every rank and domain", "statement": "With a FULL grid distributed over any number of ranks and domains, with every transfer configuration (NUMA on/off/cache, MPI window/thread), any sequence of reads issued from any rank and domain returns the file values, whatever the cache size and eviction history, and every remote access stays inside the owner's memory.", "quantifier": "every configuration, every sequence of reads, every cache size >= 1 and hand spread accepted", "why_tests_cant": "depends on the whole access history through cache evictions and on the distribution; tests run a couple of fixed loops", "anchors": ["grid/level/fulldist.h:getAt,open", "transfer/numafull.h", "transfer/numafullcache.h", "transfer/mpiwinfull.h", "transfer/mpithreadfull.h"]}
{"id": "C07", "title": "A cache grid returns the file value after any access history", "statement": "With a CACHE grid, any sequence of reads returns the file values, whatever the cache size (>= 1), hand spread (smaller than the cache size) and eviction history.", "quantifier": "every access sequence, every cache geometry, every file", "why_tests_cant": "stale-slot bugs need particular eviction orders; the number of histories is infinite", "anchors": ["grid/level/cache.h:getAt,loadBlock", "cache/cachemanager.h:get", "cache/cachelist.h", "cache/lru.h"]}
{"id": "C08", "title": "A pass-through grid returns the file value", "statement": "With a PASS-THROUGH grid each read returns the file value of the addressed cell and each thread uses its own disjoint scratch buffer, so concurrent reads cannot see each other's value.", "quantifier": "every shape, cell, number of threads and thread id below that number, every interleaving of loads and conversions", "why_tests_cant": "buffer sharing only shows under particular thread schedules", "anchors": ["grid/level/passthrough.h:open,getAt"]}
{"id": "C09", "title": "The grid type never changes the answer", "statement": "FULL, CACHE and PASS-THROUGH grids opened on the same file return the same value for the same position after any two access histories.", "quantifier": "every file, every pair of access histories, every position", "why_tests_cant": "two unbounded histories are compared", "anchors": ["grid/level/full.h", "grid/level/cache.h", "grid/level/passthrough.h"]}
{"id": "C10", "title": "Concurrent readers of a cache grid always see the block they asked for", "statement": "When any number of threads read concurrently through one cache, then in every interleaving each read that completes returns the content of the requested block, at most one thread uses a cache slot at a time, and no thread reads a slot while another one is filling it.", "quantifier": "every number of threads, every program of reads per thread, every schedule", "why_tests_cant": "the failing schedule of a lock bug is a single interleaving out of astronomically many", "anchors": ["cache/cachemanager.h:get,tryGet,unlock", "grid/level/cache.h:getAt"]}
{"id": "C11", "title": "Concurrent cache reads cannot deadlock", "statement": "While any thread still has a read to finish, some thread can take a step, whatever the schedule and even if the cache has a single slot.", "quantifier": "every number of threads, cache size >= 1 and schedule", "why_tests_cant": "absence of deadlock is a statement over all reachable lock configurations", "anchors": ["cache/cachemanager.h:get,unlock"]}
{"id": "C12", "title": "Copying blocks between NUMA caches never delivers a wrong or half-written block", "statement": "If caches of several NUMA domains look into each other while they are being filled and evicted, in every interleaving each completed read returns the content of the requested block, and the try-locks make the system free of deadlock.", "quantifier": "every number of domains, threads, cache sizes and schedules", "why_tests_cant": "needs all interleavings of two-lock acquisitions across caches", "anchors": ["transfer/numacache.h:transfer", "cache/cachemanager.h:tryGet", "grid/level/cachedist.h:getAt"]}
{"id": "C13", "title": "The one-sided MPI cache protocol never delivers a wrong block", "statement": "In CACHE mode with MPI windows, for every interleaving of all threads on all ranks, a block copied from another rank's cache (or from another slot of the same rank) is exactly the requested block; the dictionary never refers to a slot that does not completely hold that block while the entry can be used.", "quantifier": "every number of ranks, threads, slots, blocks and schedules", "why_tests_cant": "the protocol has many atomic steps per read; wrong orders appear only under rare schedules on a cluster", "anchors": ["transfer/mpiwincache.h:startTransfer,transfer,endTransfer,addBlock,deleteBlock", "transfer/mpicache.h", "grid/level/cachedist.h:getAt"]}
{"id": "C14", "title": "The communication-thread cache protocol never delivers a wrong block", "statement": "In CACHE mode with the communication thread, for every interleaving of threads and message deliveries, whatever the (possibly stale) dictionary says, a block that is accepted as received is exactly the requested block, and replies are never mixed up between the requests of one level.", "quantifier": "every number of ranks, threads, slots, blocks, message schedules and dictionary contents", "why_tests_cant": "asynchronous messages and stale dictionary entries give unboundedly many histories", "anchors": ["transfer/mpithreadcache.h", "mpi/commthread.h"]}
{"id": "C15", "title": "The MPI mutex gives mutual exclusion and loses no waiter", "statement": "For every interleaving of acquire, wait and release by any number of processes and threads on any number of mutexes (each thread holding one mutex at a time, as all callers do), at most one thread is inside the protected section of a mutex, a releasing thread hands over to exactly the thread queued behind it, and no reachable state is stuck.", "quantifier": "every number of threads and mutexes, every schedule", "why_tests_cant": "a hand-over queue race shows only under specific remote-memory-access orders", "anchors": ["mpi/mutex.h:acquire,wait,release,lockId"]}
{"id": "C16", "title": "Bounded cache occupancy and exact bookkeeping", "statement": "After any sequence of requests the cache holds at most CACHE-SIZE blocks, no block twice, the block-to-slot and slot-to-block maps are inverse to each other, a requested block is present right after the request, and exactly the reported victim disappears.", "quantifier": "every request sequence, every cache size >= 1 and hand spread below it", "why_tests_cant": "an inductive invariant over unbounded histories", "anchors": ["cache/cachelist.h:init,getIndex,getFreeIndex", "cache/lru.h"]}
{"id": "C17", "title": "Victim search terminates quickly and respects recent use", "statement": "Finding a victim inspects at most CACHE-SIZE slots, never reads an uninitialised reference bit, only picks slots inside the cache, never evicts while an empty slot exists before the first lap, and never picks a slot that was used after the clearing hand last passed it.", "quantifier": "every request history, size >= 1, hand spread smaller than the size", "why_tests_cant": "termination and the second-chance guarantee quantify over all histories", "anchors": ["cache/lru.h:init,access,getFree"]}
{"id": "C18", "title": "An oversized hand spread is harmless", "statement": "Setting CACHE-HAND-SPREAD to any integer keeps the cache memory-safe.", "quantifier": "every integer hand spread and cache size", "why_tests_cant": "only particular parameter pairs corrupt memory, typically silently", "anchors": ["cache/lru.h:init,getFree", "grid/grid.cpp:open"]}
{"id": "C19", "title": "Coordinates are mapped to the nearest cell and always stay inside the grid", "statement": "In exact arithmetic, for any coordinate the chosen index is inside the dimension; if the coordinate lies within the grid the index minimises the distance to the cell centre; coordinates outside are clamped to the nearest end; this holds for positive and negative spacing.", "quantifier": "every real coordinate, offset, non-zero spacing and dimension size >= 1", "why_tests_cant": "a continuum of coordinates", "anchors": ["grid/level/level.h:pos2index,getInvScaling,round", "io/netcdfreader.h:getOffset,getScaling"]}
{"id": "C20", "title": "The reported range is exactly usable", "statement": "Every coordinate between the reported minimum and maximum is mapped without clamping, for cell- and vertex-centred grids and for both directions of the coordinate axis; minimum <= maximum, the cell-centred range extends the vertex-centred one by just under half a cell, and getDelta is non-negative.", "quantifier": "every offset, spacing, size and coordinate in the range", "why_tests_cant": "continuum of coordinates and axis definitions", "anchors": ["grid/level/level.h:open,min,max,delta,pos2index"]}
{"id": "C21", "title": "Floating-point coordinate mapping is monotone and in range", "statement": "With IEEE double arithmetic, for every finite coordinate (and any finite file metadata producing no NaN) the index is inside the dimension, and a larger coordinate never yields a smaller index when the spacing is positive.", "quantifier": "every finite double coordinate, offset, reciprocal spacing and size up to 2^53", "why_tests_cant": "2^64 coordinates per axis definition", "anchors": ["grid/level/level.h:pos2index,round"]}
{"id": "C22", "title": "Floating-point mapping picks the nearest cell", "statement": "With IEEE double arithmetic a coordinate inside the grid is mapped to a nearest cell.", "quantifier": "every double coordinate in range", "why_tests_cant": "fails only for isolated coordinates among 2^64", "anchors": ["grid/level/level.h:round,pos2index"]}
{"id": "C23", "title": "The reported range endpoints can be used as coordinates", "statement": "A read at the reported minimum or maximum coordinate is well defined, also for dimensions of size one, whose range is the whole real line including its reported infinite end points.", "quantifier": "every dimension size, every coordinate in the reported closed range", "why_tests_cant": "a NaN appears only for the combination of an infinite coordinate and a size-one dimension", "anchors": ["grid/level/level.h:open,pos2index,getInvScaling", "documentation/user/02_usage.h"]}
{"id": "C24", "title": "Dimension order of the interface", "statement": "The n-th coordinate, minimum, maximum, spacing and block-size parameter of the interface all refer to the same file dimension (the n-th from the last), for every number of dimensions.", "quantifier": "every dimension count and n", "why_tests_cant": "an index mix-up is invisible on square or symmetric test grids", "anchors": ["grid/level/level.h:min,max,delta,pos2index", "grid/level/blocked.h:open"]}
{"id": "C25", "title": "Effective block sizes", "statement": "The block size used in a dimension is the requested one limited to the extent of the dimension, the whole extent if a negative size was requested, 64 (limited) by default, and it is always at least 1, so that block arithmetic never divides by zero.", "quantifier": "every requested size and every extent >= 1", "why_tests_cant": "all parameter/extent combinations", "anchors": ["grid/level/blocked.h:open"]}
{"id": "C26", "title": "The time dimension gets block size 1 by default", "statement": "If a time dimension is configured and no block size is given for it, blocks contain one time step.", "quantifier": "every grid with a valid time dimension and no explicit block size", "why_tests_cant": "only visible in performance, never in values", "anchors": ["grid/level/blocked.h:open"]}
{"id": "C27", "title": "Degenerate files are handled", "statement": "Opening a file whose variable has a zero-length dimension, or a scalar variable, either succeeds or returns an error; it does not crash.", "quantifier": "every file accepted by the netCDF library with at most MAX_DIMENSIONS dimensions", "why_tests_cant": "degenerate shapes are not in the test files", "anchors": ["grid/level/blocked.h:open", "io/netcdfreader.h:getBlock", "io/netcdfreader.cpp:open"]}
{"id": "C28", "title": "Counters add up", "statement": "After any sequence of reads on a grid level: accesses equals the number of reads, local_hits + local_misses = accesses, local_misses = numa_transfers + mpi_transfers + file_loads, node_hits = local_hits + numa_transfers, no counter wraps below zero, and a miss is counted in exactly one of the three transfer counters.", "quantifier": "every grid type, every read sequence (serialised reads)", "why_tests_cant": "arithmetic relation over unbounded histories", "anchors": ["perf/counter.cpp:get", "grid/level/*.h:getAt"]}
{"id": "C29", "title": "Counters are per level and documented names work", "statement": "getCounter(name, level) reports the counter of that level, and every documented counter name is recognised.", "quantifier": "every level and every documented name", "why_tests_cant": "needs multi-level grids with different traffic per level, which no test uses", "anchors": ["grid/grid.cpp:getCounter", "perf/counter.h:NameToCounterMap", "documentation/user/02_usage.h"]}
{"id": "C30", "title": "Parameters: spelling-insensitive, last write wins, levels independent", "statement": "setParam treats names that differ only in case or in '-' versus '_' as equal, the last value written to a (name, level) is the one used, other names and levels are unaffected, unset parameters keep their default, and the values of VARIABLE and BLOCK-SIZE-x are taken literally.", "quantifier": "every sequence of setParam calls, every name, value and level", "why_tests_cant": "infinitely many strings and call sequences", "anchors": ["grid/grid.cpp:setParam,param"]}
{"id": "C31", "title": "Negative numeric parameter values survive", "statement": "A documented negative parameter value such as -1 for TIME-DIMENSION or CACHE-HAND-SPREAD reaches the grid unchanged.", "quantifier": "every parameter documented as int", "why_tests_cant": "the mangled value silently selects another behaviour", "anchors": ["grid/grid.cpp:setParam,param"]}
{"id": "C32", "title": "Configuration selects the documented grid implementation", "statement": "For every combination of GRID, MPI_COMMUNICATION, NUMA_COMMUNICATION, number of ranks and number of NUMA domains, the selected implementation distributes over MPI exactly if MPI is on and more than one rank is used, uses NUMA exchange exactly if it is on and more than one domain exists, and an unknown GRID value behaves like FULL.", "quantifier": "every parameter string, rank count and domain count", "why_tests_cant": "the cross product of strings and machine shapes; wrong choices change only performance, not values", "anchors": ["grid/grid.cpp:initContainers", "documentation/user/02_usage.h"]}
{"id": "C33", "title": "Reads of plain grids convert like C++ value conversion and raw reads are bit exact", "statement": "On a grid of a primitive type getBuf copies exactly the stored cell; getByte/getInt/getLong return the stored value exactly whenever it fits the requested type; conversions between integer types reduce modulo the width.", "quantifier": "every stored value, every pair of types", "why_tests_cant": "2^64 values per type pair", "anchors": ["types/basictype.h:convert", "grid/simplecontainer.h"]}
{"id": "C34", "title": "Scalar reads of array and struct grids return the first element", "statement": "On array and struct grids getByte/getInt/getLong/getFloat/getDouble return the first element converted to the requested type and write only that one value.", "quantifier": "every array length, element type and requested type", "why_tests_cant": "the overrun lands in the caller's stack frame and may go unnoticed", "anchors": ["types/arraytype.h:convert", "types/structtype.h:convert", "include/asagi.h:getByte"]}
{"id": "C35", "title": "Cell size checks across files and levels", "statement": "For array grids a file whose cell size is not a multiple of the element size is rejected; the first accepted file fixes the cell size, later files of any other size are rejected, and the reported cell size never changes afterwards; concurrent checks agree on one size.", "quantifier": "every sequence (and interleaving) of opens with arbitrary cell sizes", "why_tests_cant": "history dependent; races between domains", "anchors": ["types/arraytype.h:check,size", "types/structtype.h:check,size"]}
{"id": "C36", "title": "One-time initialisation runs exactly once and completes before anyone continues", "statement": "For every interleaving of any number of threads, the guarded initialisation is executed exactly once and each thread that returns from the guard returns after the execution has finished.", "quantifier": "every number of threads, every schedule (sequentially consistent memory)", "why_tests_cant": "double-checked locking errors need a specific schedule", "anchors": ["threads/once.h:saveExec", "grid/grid.cpp:open"]}
{"id": "C37", "title": "Thread barrier", "statement": "No thread leaves the barrier of round k before all participating threads have entered round k, and threads never get stuck, for any number of consecutive rounds.", "quantifier": "every number of threads >= 1, every number of rounds, every schedule without spurious wake-ups", "why_tests_cant": "reuse races between consecutive rounds need adversarial schedules", "anchors": ["threads/sync.h:startBarrier,waitBarrier,endBarrier"]}
{"id": "C38", "title": "Thread broadcast", "statement": "Every thread leaves a broadcast with the root's value, and the root leaves only after every other thread has copied the value, for any number of consecutive broadcasts with varying roots.", "quantifier": "every number of threads >= 1, rounds, roots, values, schedules without spurious wake-ups", "why_tests_cant": "lifetime races on the root's stack variable", "anchors": ["threads/sync.h:broadcast,waitBarrier"]}
{"id": "C39", "title": "Barrier tolerates spurious wake-ups", "statement": "The barrier keeps its guarantee under the POSIX rule that a condition wait may return spuriously.", "quantifier": "every schedule including spurious wake-ups", "why_tests_cant": "spurious wake-ups cannot be provoked by a test", "anchors": ["threads/sync.h:waitBarrier"]}
{"id": "C40", "title": "Thread registration", "statement": "For every order in which the threads register and every assignment of threads to NUMA nodes: thread ids are exactly 0..n-1 without duplicates, domain ids are exactly 0..d-1, two threads share a domain id iff they are on the same node, each domain has exactly one master, thread 0 is a master, with detection disabled there is one domain, a second registration reports the same master flag, and both ids survive being packed into one word.", "quantifier": "every number of threads, arrival order and node assignment", "why_tests_cant": "n! orders times all placements", "anchors": ["numa/numa.cpp:registerThread", "numa/numa.h:threadId,domainId"]}
{"id": "C41", "title": "Open reports a failure of any domain", "statement": "If opening fails in any NUMA domain, open does not report success.", "quantifier": "every assignment of error codes to domains", "why_tests_cant": "needs failures in only one domain", "anchors": ["grid/grid.cpp:open", "numa/numa.h:broadcast"]}
{"id": "C42", "title": "When open returns, the whole distributed grid is ready", "statement": "When open has returned on one rank, every block that this rank may read remotely has been loaded and every remote dictionary entry and lock is initialised.", "quantifier": "every relative speed of ranks and NUMA domains during open", "why_tests_cant": "depends on the relative speed of processes on a cluster", "anchors": ["transfer/mpiwinfull.h:init", "transfer/mpiwincache.h:init", "transfer/mpicache.h:init", "grid/level/fulldist.h:open", "grid/grid.cpp:open"]}
{"id": "C43", "title": "Levels can be opened in any order", "statement": "A grid whose levels are opened in any order (as documented, coarsest first) serves correct values on every level.", "quantifier": "every set of levels and every opening order", "why_tests_cant": "re-allocation corrupts earlier levels only for ascending orders; no test opens two levels", "anchors": ["grid/simplecontainer.h:init", "grid/level/level.h:Level(const Level&)"]}
{"id": "C44", "title": "Fortran handles", "statement": "Each created grid gets a handle different from all handles ever handed out, the handle resolves to that grid until it is closed and to nothing afterwards, and creating or closing other grids never changes what a handle resolves to.", "quantifier": "every sequence of creations and closings", "why_tests_cant": "invariant over unbounded histories", "anchors": ["fortran/pointerarray.h:add,get,remove", "grid/grid.cpp:init,~Grid"]}
{"id": "C45", "title": "Receiver tags of the communication thread", "statement": "All processes that register a receiver together obtain the same tag, on no process do two live receivers share a tag, so a message is always handled by the receiver it was meant for, for any pattern of overlapping process groups.", "quantifier": "every sequence of collective registrations over arbitrary subsets of processes", "why_tests_cant": "arbitrary overlapping groups and unbounded histories", "anchors": ["mpi/commthread.h:registerReceiver,send,commThreadHandler"]}
{"id": "C46", "title": "Receiver tags never collide with the control tags", "statement": "However many grids are opened and closed over the lifetime of a program, a receiver tag never equals the exit or unregister tag.", "quantifier": "every number of registrations", "why_tests_cant": "needs thousands of open/close cycles", "anchors": ["mpi/commthread.h:registerReceiver,EXIT_TAG,UNREG_TAG"]}
{"id": "C47", "title": "Communication thread pinning", "statement": "A valid CPU argument pins the communication thread to an existing CPU: non-negative values select that CPU, negative values count from the last CPU.", "quantifier": "every CPU count and every valid argument", "why_tests_cant": "affects only placement", "anchors": ["mpi/commthread.h:init"]}
{"id": "C48", "title": "Node-local rank", "statement": "nodeLocalRank returns the number of lower ranks on the same host, so the results on each host are 0..k-1 without duplicates, whatever the hash collisions between host names.", "quantifier": "every number of ranks and every assignment of host names", "why_tests_cant": "hash collisions are never hit in tests", "anchors": ["asagi.cpp:nodeLocalRank"]}
{"id": "C49", "title": "Node-local rank works for every host name", "statement": "nodeLocalRank calls MPI with valid arguments for every host name.", "quantifier": "every host name", "why_tests_cant": "fails only for host names whose hash has the top bit set", "anchors": ["asagi.cpp:nodeLocalRank"]}
{"id": "C50", "title": "Dictionary entries are bounded sets with most recent first", "statement": "After any sequence of additions and deletions in which a location is not added again while it is recorded, a dictionary entry holds at most four locations, all of them added and not deleted since, without holes; an addition is found immediately afterwards; a lookup returns a member if and only if the entry is non-empty.", "quantifier": "every sequence of additions and deletions, every random choice", "why_tests_cant": "unbounded histories", "anchors": ["transfer/mpicache.h:fetchBlockInfo,updateBlockInfo,deleteBlockInfo,fetchAndUpdateBlockInfo"]}
{"id": "C51", "title": "Deleting a location removes only that location", "statement": "Deleting a location from a dictionary entry leaves all other locations of that entry in place.", "quantifier": "every dictionary state and location", "why_tests_cant": "only costs performance (a lost location), never a wrong value", "anchors": ["transfer/mpicache.h:deleteBlockInfo"]}
{"id": "C52", "title": "Location and message encodings are lossless", "statement": "Packing (rank, slot) into a dictionary entry, (dictionary offset, slot) into a message and (rank, thread) into a lock value can be undone exactly by the receiving side, for every value in range.", "quantifier": "every rank, thread, domain, slot below the respective size", "why_tests_cant": "all value combinations", "anchors": ["transfer/mpithreadcache.h:addBlock,Adder", "transfer/mpiwincache.h:transfer", "mpi/mutex.h:lockId,wait"]}
{"id": "C53", "title": "Several levels can use the communication thread", "statement": "In a grid with several levels that use the communication thread, replies are delivered to the request they answer.", "quantifier": "every number of levels, threads and message schedules", "why_tests_cant": "needs concurrent multi-level traffic", "anchors": ["transfer/mpithreadcache.h:startTransfer,BlockInfoResponder", "transfer/mpithreadfull.h:transfer,recv", "mpi/mpicomm.h:reserveTags"]}
{"id": "C54", "title": "Shared NUMA allocation", "statement": "The storage slices which the NUMA domains of a process get from one collective allocation are pairwise disjoint, lie inside the allocation and cover it; the addresses which other domains compute for a block from their own slice pointer agree with the owner's.", "quantifier": "every number of domains, slice size and block", "why_tests_cant": "pointer arithmetic over all domain counts", "anchors": ["numa/numacomm.h:allocate", "transfer/numafull.h:init,transfer"]}
{"id": "C55", "title": "Size arithmetic does not overflow", "statement": "As long as the grid's total number of bytes (padded to whole blocks) fits in 64 bits, none of the block, slot and byte offset computations of a read wraps around.", "quantifier": "every grid and index under that bound", "why_tests_cant": "needs grids close to 2^64 bytes", "anchors": ["grid/level/blocked.h", "grid/level/full.h:getAt", "transfer/mpicache.h:init"]}
{"id": "C56", "title": "Non-thread-safe builds make progress", "statement": "A cache grid using the communication thread answers every read, also in builds without thread safety.", "quantifier": "every access history with at least one remotely cached block", "why_tests_cant": "the endless retry depends on what other ranks have cached", "anchors": ["threads/noopmutex.h:try_lock", "cache/cachemanager.h:tryGet", "grid/level/cachedist.h:getAt", "transfer/mpithreadcache.h:BlockTransferer"]}
{"id": "C57", "title": "Error codes agree in all language bindings", "statement": "Each error has the same numeric value in the C++, C and Fortran interfaces.", "quantifier": "every error", "why_tests_cant": "compares three declarations; no test triggers the affected error through C", "anchors": ["include/asagi.h", "include/asagi.f90"]}
{"id": "C58", "title": "Byte values are signed", "statement": "A grid of the documented signed byte type returns negative file values as negative numbers.", "quantifier": "every byte value", "why_tests_cant": "only half of the byte values are affected", "anchors": ["include/asagi.h:Type", "grid/grid.cpp:Grid", "types/basictype.h"]}
{"id": "C59", "title": "The implementation class matches the requested cell type", "statement": "The implementation created for a grid handles exactly the type requested by the user: array grids are never treated as plain grids although array types derive from plain types.", "quantifier": "every type kind and element type", "why_tests_cant": "template dispatch order over all types", "anchors": ["grid/grid.cpp:TypeSelector,Grid", "types/structtype.cpp:createStruct"]}
{"id": "C60", "title": "Fortran handles can be used while other threads create grids", "statement": "Resolving a valid Fortran handle in one thread returns the handle's grid even if another thread creates a grid at the same time.", "quantifier": "every interleaving of a lookup with a creation, every table size", "why_tests_cant": "needs a lookup between reallocation and release of the table", "anchors": ["fortran/pointerarray.h:add,get"]}
{"id": "C61", "title": "Reads through the communication thread can always still be completed", "statement": "With the communication thread, from every state of a running system there is a schedule after which every pending read of every thread has returned: retrying failed block transfers never traps threads for ever.", "quantifier": "every reachable state, any number of ranks, domains and threads", "why_tests_cant": "needs particular timing of four threads on two caches", "anchors": ["cache/cachemanager.h:get,tryGet", "transfer/mpithreadcache.h:transfer", "grid/level/cachedist.h:getAt"]}
{"id": "C62", "title": "The dictionary of the communication threads lists only cached blocks", "statement": "With the communication thread, a location that the dictionary lists for a block and on which no thread works holds the whole block, or the message that removes the location from the dictionary is under way to the rank of the entry; no location is listed twice for a block.", "quantifier": "every reachable state, any number of ranks, domains, threads and cache sizes, messages of one domain arriving in the order in which they were sent", "why_tests_cant": "stale entries only cost time (or a livelock) and depend on message timing", "anchors": ["transfer/mpithreadcache.h:addBlock,deleteBlock", "transfer/mpicache.h:updateBlockInfo,deleteBlockInfo", "grid/level/cachedist.h:getAt"]}
{"id": "C63", "title": "The MPI datatype of array and struct cells is ready when it is used", "statement": "All NUMA domains share the type object of a grid. Whatever the order in which the domains check the cell size of a level, the MPI datatype is created at most once, every domain that opens the level takes the committed datatype with the right number of elements, all domains get the same result for a level, and no domain waits for ever.", "quantifier": "every interleaving, any number of domains and levels, any cell and element sizes", "why_tests_cant": "check releases its lock before the datatype exists; a wrong order would only show with a slow creator", "anchors": ["types/arraytype.h:check,getMPIType", "types/structtype.h:check,getMPIType", "numa/numacomm.h:allocate", "grid/level/cache.h:open", "grid/level/full.h:open"]}
{"id": "C64", "title": "Registrations of receivers for several grids cannot block each other", "statement": "Grids may be opened at the same time by different threads. Whatever the order in which the threads of the processes call registerReceiver, every registration whose processes all call it is completed.", "quantifier": "any number of processes, any groups, any number of registrations, every interleaving with messages and unregistrations", "why_tests_cant": "needs two threads per process that get the lock of the communication thread in different orders on two processes", "anchors": ["mpi/commthread.h:registerReceiver,unregisterReceiver,commThreadHandler"]}
{"id": "C65", "title": "The table of receivers is not changed while it is read", "statement": "Accesses of m_receiver by the application threads and the communication thread of a process do not overlap if one of them changes the table, and a receiver is not called after unregisterReceiver has returned.", "quantifier": "any number of threads, any number of receivers, every interleaving, any incoming messages", "why_tests_cant": "a data race inside of an unordered_map is rarely visible; needs a message that arrives while another grid is opened", "anchors": ["mpi/commthread.h:registerReceiver,unregisterReceiver,send,commThreadHandler"]}
{"id": "C66", "title": "The lock of the communication thread is released correctly", "statement": "m_lock is always released by the thread that acquired it, and from every state it can be released.", "quantifier": "any number of threads, any number of receivers, every interleaving, any incoming messages", "why_tests_cant": "releasing a mutex of another thread is undefined, but often works", "anchors": ["mpi/commthread.h:registerReceiver,unregisterReceiver,commThreadHandler", "threads/cxxmutex.h", "threads/pthreadmutex.h"]}
{"id": "C67", "title": "Opening a level returns in all threads also when a step fails", "statement": "If a step of opening a level fails in some NUMA domains, Grid::open still returns in every thread of the process, with an error.", "quantifier": "any number of threads and domains, all level implementations and transfer classes, any set of failing steps, every interleaving", "why_tests_cant": "needs several NUMA domains and failures of memory, window or receiver registration", "anchors": ["grid/grid.cpp:open", "grid/simplecontainer.h:init", "numa/numa.cpp:createComm", "numa/numacomm.h:allocate,broadcast", "transfer/mpiwincache.h:init", "transfer/mpithreadcache.h:init", "transfer/mpiwinfull.h:init", "transfer/mpithreadfull.h:init"]}
{"id": "C68", "title": "Closing a grid with communication thread accesses nothing freed", "statement": "While processes close a grid, their communication threads may still receive messages of that grid; no receiver accesses memory which is already freed, nothing is freed twice, and closing ends in all processes.", "quantifier": "any number of processes and threads, caches and full grids with communication thread, every interleaving and every order of messages", "why_tests_cant": "needs a message that is delayed until the other process is in the destructor", "anchors": ["grid/grid.cpp:~Grid", "transfer/mpithreadcache.h:~MPIThreadCache,recv", "transfer/mpithreadfull.h:~MPIThreadFull,recv", "transfer/mpicache.h:~MPICache", "mpi/commthread.h:unregisterReceiver,commThreadHandler", "grid/level/cache.h:~Cache", "grid/level/full.h:~Full"]}
{"id": "C69", "title": "Concurrent reads of a distributed full grid return the values of the file", "statement": "Threads which read a full grid distributed over processes and NUMA domains concurrently get the values of the file: directly from their domain, by copying from another domain or its cache, through the MPI window, or from the communication thread of the owner. The reads do not block each other for ever, a cache slot has one user at a time, a process has at most one open epoch of the window, and a reply goes to the thread which waits for it.", "quantifier": "any number of threads, processes, domains, slots and reads; three MPI and three NUMA policies; every interleaving", "why_tests_cant": "needs particular interleavings of several threads and processes with evictions in the cache", "anchors": ["grid/level/fulldist.h:getAt", "grid/level/full.h:getAt", "transfer/numafull.h:transfer", "transfer/numafullcache.h:transfer", "transfer/numacache.h:transfer", "transfer/mpiwinfull.h:transfer", "transfer/mpithreadfull.h:transfer,recv", "cache/cachemanager.h:get,tryGet,unlock"]}
{"id": "C70", "title": "Several open grids are independent and cannot block each other", "statement": "Threads of several processes read from any number of open grids, cached or full, in any order. All windows of a process are used under one library-wide MPI mutex (THREADSAFE_MPI) and all grids of a process share one communication thread. Every read returns the value of the file of its grid, every grid behaves as if it was the only one, the reads cannot block each other for ever, and with THREADSAFE_MPI at most one thread of a process is in the window functions of all grids.", "quantifier": "any number of grids, threads, processes, domains, slots and reads; every combination of cached and full grids and of MPI policies; every interleaving", "why_tests_cant": "deadlocks across grids need particular interleavings of several threads and processes on several grids", "anchors": ["mpi/mpicomm.h:mpiLock", "transfer/mpiwincache.h:startTransfer", "transfer/mpiwincache.h:endTransfer", "transfer/mpiwincache.h:deleteBlock", "transfer/mpiwinfull.h:transfer", "mpi/commthread.h:run"]}
{"id": "C71", "title": "Threads can open and close different grids at the same time", "statement": "When several threads of all processes open or close different grids at the same time, every call returns: the library-wide MPI lock (THREADSAFE_MPI) is not held in a way that lets processes wait for each other for ever.", "quantifier": "any number of processes, threads and grids with windows; every interleaving", "why_tests_cant": "needs two processes whose threads get the lock in different orders", "anchors": ["mpi/mpicomm.h:init", "mpi/mpicomm.h:~MPIComm", "transfer/mpiwinfull.h:init", "transfer/mpiwinfull.h:~MPIWinFull", "transfer/mpiwincache.h:init", "transfer/mpiwincache.h:~MPIWinCache", "documentation/user/02_usage.h:multithread"]}
{"id": "C72", "title": "THREADSAFE_MPI serialises the MPI calls of a process", "statement": "With THREADSAFE_MPI the library does not call MPI functions from different threads of a process at the same time, as documented.", "quantifier": "any number of processes, threads and grids; every interleaving", "why_tests_cant": "overlapping calls are usually harmless with a thread-safe MPI library, so tests pass", "anchors": ["documentation/user/02_usage.h:multithread", "mpi/mpicomm.h:barrier", "types/arraytype.h:getMPIType", "types/structtype.h:getMPIType", "grid/grid.cpp:~Grid", "allocator/mpialloc.h:allocate"]}
{"id": "C73", "title": "Counters with several threads", "statement": "After any number of threads have used a level, each performance counter equals the number of reads of its kind, and a counter queried in the meantime is a number that was or becomes true during the query.", "quantifier": "any number of threads, reads and queries; every interleaving; with and without THREADSAFE_COUNTER", "why_tests_cant": "a lost increment or a query in the middle of a miss needs an interleaving of a few instructions", "anchors": ["perf/counter.h:inc", "perf/counter.cpp:get", "grid/level/level.h:incCounter", "CMakeLists.txt:THREADSAFE_COUNTER", "documentation/user/02_usage.h:counters"]}
{"id": "C74", "title": "Reads return the file's value, from parameters to result", "statement": "A grid is configured by any setParam calls, opened on a file and read by any number of threads through getByte...getDouble and getBuf. Every answer is the value of the cell nearest to the coordinates, converted to the type of the getter (the bytes of the cell for getBuf). The answer depends on the file, the type, the coordinates and the getter only, not on grid kind, block sizes, cache size, NUMA or MPI settings, build, processes, threads or schedule. Except with the polling cache class, every program of reads can be run to its end.", "quantifier": "all parameter calls, builds, numbers of processes, domains and threads, distributions, types, dimensions, axes, block and cache sizes, programs and interleavings", "why_tests_cant": "Tests run single configurations of parameters, files and schedules; the claim is about all combinations.", "anchors": ["/repo/grid/grid.cpp:61-101", "/repo/grid/grid.cpp:193-249", "/repo/grid/grid.cpp:278-457", "/repo/grid/simplecontainer.h:78-135", "/repo/grid/level/level.h:356-371", "/repo/grid/grid.h:149-192"]}
{"id": "C75", "title": "Fortran calls do what the C++ calls do", "statement": "A Fortran program that creates grids, makes calls through its handles, leaves out optional arguments and closes grids in any order sees the results of the C++ program with the same calls on the same grids: no call reaches another grid, defaults are those of the C++ declarations, and strings arrive as their text, whatever the length of the character variables holding them.", "quantifier": "all programs, numbers of grids, orders of creation, calls and closing, optional arguments, string lengths; any behaviour of the grid class; with and without MPI", "why_tests_cant": "Tests use string literals and one grid; the claim is about every program and every length of a character variable.", "anchors": ["/repo/include/asagi.f90:288-512", "/repo/asagi_f90.cpp:46-247", "/repo/fortran/pointerarray.h:73-103", "/repo/grid/grid.h:201-225", "/repo/include/asagi.h:149-330"]}
{"id": "C76", "title": "Parameters for every level", "statement": "setParam is defined for every level its argument's type can hold, stores the value for this level and leaves all others alone.", "quantifier": "all previous parameters, names, values and 32 bit levels", "why_tests_cant": "The failing level is one of 2^32; a Fortran program writes it as -1.", "anchors": ["/repo/grid/grid.cpp:193-212", "/repo/asagi_f90.cpp:104-108"]}
{"id": "C77", "title": "Open succeeds exactly for readable variables", "statement": "open reports each error exactly in its documented situation, and success only if the cells of the variable can be read as cells of the grid type without leaving the memory of a cell.", "quantifier": "all files (variables of any type and any dimensions), all names, the three kinds of types, all earlier opened levels", "why_tests_cant": "The outcome depends on combinations of type kind, variable type and earlier levels; a wrong success shows as stale memory contents or as a write outside of the buffer later.", "anchors": ["/repo/io/netcdfreader.cpp:73-128", "/repo/grid/level/level.h:208-276", "/repo/types/basictype.h:52-58", "/repo/types/arraytype.h:89-121", "/repo/types/structtype.h:139-192"]}
{"id": "C78", "title": "Files are closed once", "statement": "After the levels are deleted every file that was opened is closed, none is closed twice, and no file of another grid is closed.", "quantifier": "all sequences of opens of any levels with any files, successful or not, all files open before", "why_tests_cant": "Leaked handles show only after many grids; a double close hits a file another grid opened in between.", "anchors": ["/repo/io/netcdfreader.cpp:56-65", "/repo/grid/level/level.h:149-154", "/repo/grid/level/level.h:219-222", "grid/level/level.h:closeInputFile,Level(const Level&)", "grid/level/full.h:open", "grid/simplecontainer.h:init"]}
{"id": "C79", "title": "Coordinates of a level", "statement": "Offset and scaling of each dimension are those of its coordinate variable (first value, mean distance), the defaults 0 and 1 without one, infinite for a single cell.", "quantifier": "all files, all variables, all values of the coordinate variables", "why_tests_cant": "Files with unusual coordinate variables (text, two-dimensional) are rare in tests; the result is an uninitialised number that may happen to be right.", "anchors": ["/repo/io/netcdfreader.h:142-183", "/repo/grid/level/level.h:226-236"]}
{"id": "C80", "title": "Reading at the coordinates of a cell", "statement": "A read with the coordinates which the file gives for a cell (the values of its coordinate variables, or the indices where there are none) returns the value of this cell, converted to the type of the getter, in double arithmetic and whatever the parameters, the number of processes, domains and threads.", "quantifier": "all files and cells, all numbers of dimensions and sizes, all parameters, all interleavings of any number of threads", "why_tests_cant": "The index is computed in floating point from the first and the last coordinate; whether rounding moves a cell depends on the size of the grid and the values, which tests with a few small files cannot cover.", "anchors": ["/repo/grid/level/level.h:226-261", "/repo/grid/level/level.h:356-412", "/repo/io/netcdfreader.h:142-183", "/repo/documentation/user/02_usage.h:104-116"]}
{"id": "C81", "title": "Metadata of a grid with several levels", "statement": "After level 0 is opened, the grid's number of dimensions and its range are those of level 0's file and the spacing of a level is that of the level's file, whatever other levels are opened, in any order, successfully or not; a read uses as many coordinates as the grid has dimensions.", "quantifier": "all sequences of opens of any levels with any results, all growth policies of the vector of levels, all dimensions", "why_tests_cant": "Depends on the order of opens over several levels and on failures in between; uninitialised members often contain the old values in tests.", "anchors": ["grid/container.h:getDimensions,getMin,getMax", "grid/simplecontainer.h:init,getDelta", "grid/level/level.h:Level(const Level&),open,min,max,delta"]}
{"id": "C82", "title": "Memory, windows and receivers of a grid are released exactly once", "statement": "Everything a grid creates while its levels are opened - data, caches, index and lock arrays, the dictionary, window and receiver handles, mutexes, the communication objects of the domains, the readers - is released exactly once when the grid is closed, on all domains together; until then nothing a domain can reach has been released.", "quantifier": "for all kinds of levels (with every NUMA and MPI transfer class), any number of domains, any sequence of opens of any levels, wherever and on whichever domains calls fail", "why_tests_cant": "Pointers are shared between domains and copied between level objects; who releases what depends on the domain number remembered by four classes, on which call failed and on the order in which levels were opened. Tests open levels once, in a process with one domain, without failures.", "anchors": ["grid/level/level.h:125-152", "grid/level/full.h:77-130", "grid/level/fulldist.h:67-144", "grid/level/cache.h:58-114", "grid/level/cachedist.h:62-129", "grid/level/passthrough.h:74-99", "grid/simplecontainer.h:78-112", "transfer/mpicache.h:83-120", "transfer/mpiwinfull.h:95-152", "transfer/mpithreadfull.h:109-160", "transfer/mpiwincache.h:120-228", "transfer/mpithreadcache.h:324-446", "transfer/numacache.h:76-110", "cache/cachemanager.h:76-103", "numa/numacomm.h:105-142"]}
{"id": "C83", "title": "Reads do not race", "statement": "While threads read, no two threads access the same shared datum at the same time unless both only read it or both hold its mutex: blocks in the caches, lists of the cache managers, dictionary entries, the once-flag and the performance counters.", "quantifier": "for all numbers of threads, ranks, domains and slots, all positions, all transfers of cached and full grids, all schedules, all outcomes of try_lock and rand()", "why_tests_cant": "A race is visible only in some schedules and on some machines; a race detector sees the schedules it is run on, and data races make every other result of the program meaningless in C++.", "anchors": ["cache/cachemanager.h:118-175", "transfer/numacache.h:110-130", "transfer/mpiwincache.h:300-561", "transfer/mpithreadcache.h:90-252", "transfer/mpithreadcache.h:613-648", "grid/level/cache.h:120-175", "grid/level/fulldist.h:150-199", "threads/once.h:70-86", "perf/counter.h:125-135", "perf/counter.cpp:58-75"]}
{"id": "C84", "title": "The mutexes of the library are used in an orderly way", "statement": "Threads of a process create, open, read and close any number of grids of all kinds at the same time, with a communication thread answering requests, and any call inside may fail. No thread locks a mutex twice or unlocks a mutex it does not hold (the one the communication thread unlocks is C66); at most one thread is in the netCDF library; the mutexes of lists, dictionary entries, counters, cell types and handles are not held during calls of netCDF or MPI; no mutex is held while waiting for other domains; the mutexes never block all threads, and when all calls have returned every mutex is free.", "quantifier": "for all build options, numbers of threads, programs of calls, outcomes of all decisions and calls inside, and schedules; C84_netcdf for builds with THREADSAFE", "why_tests_cant": "Lock order mistakes and mutexes left locked on an error path show up only in rare schedules or failures.", "anchors": ["io/netcdfreader.h:142-220", "io/netcdfreader.cpp:56-133", "cache/cachemanager.h:119-182", "transfer/mpiwincache.h:120-572", "transfer/mpithreadcache.h:324-647", "mpi/commthread.h:130-302", "types/arraytype.h:90-121", "threads/once.h:70-87"]}
{"id": "C85", "title": "Processes may use different numbers of NUMA domains and threads", "statement": "In a grid distributed over several MPI processes every process gets the requested block (distributed full grids and distributed caches with windows and with the communication thread), and the wake-up message of the MPI mutex reaches the thread that holds the mutex, whatever number of NUMA domains (found by each process from the CPUs its threads run on) and of threads (setThreads) each process has.", "quantifier": "for all numbers of processes, domains and threads per process, block counts, distributions, cache sizes, histories of reads (rank, domain, replaced slot, block, random choice), lists of levels", "why_tests_cant": "The number of domains depends on where the operating system runs the threads when they register, and on the machine; a test on one kind of node with pinned threads has the same number everywhere, and with few blocks or one level wrong offsets and tags coincide with the right ones.", "anchors": ["grid/level/blocked.h:182-290", "grid/level/full.h:107-124", "grid/level/fulldist.h:152-188", "transfer/mpicache.h:95-117", "transfer/mpiwincache.h:316-396", "transfer/mpithreadcache.h:208-251", "transfer/mpithreadcache.h:489-602", "mpi/mutex.h:99-211", "mpi/mpicomm.h:159-164", "numa/numa.cpp:77-157"]}
{"id": "C86", "title": "Each communicator a grid takes over is duplicated and freed exactly once; rank, size and the last barrier belong to it", "statement": "Whatever communicators the application hands to a grid, and whether MPI communication is switched off, the grid duplicates each once and frees each duplicate once, before it makes the next one or when it is closed; it never frees a communicator it did not make; rank and size are those of the communicator taken over last; the barrier at the end is made exactly if there are other processes. This holds also if MPI calls fail.", "quantifier": "all sequences of setComm, the reset of initContainers and reserveTags, all results of MPI_Comm_dup, MPI_Comm_rank and MPI_Comm_size", "why_tests_cant": "Needs failing MPI calls; tests set one communicator once and never see MPI_Comm_dup fail.", "anchors": ["mpi/mpicomm.h:88-120", "mpi/mpicomm.h:166-177", "grid/grid.cpp:177-181", "grid/grid.cpp:325-331"]}
{"id": "C87", "title": "Each thread keeps its own identifiers in each grid, however many grids are created and closed", "statement": "The thread and domain identifier a thread sees in a grid are the ones it registered in this grid, 0 and 0 before, whatever other grids are created, used and closed, in whatever order and number.", "quantifier": "all sequences of creations, registrations and closes of any number of grids by any threads, all numbers of keys the system offers, all contents of uninitialised memory", "why_tests_cant": "The system offers about a thousand keys; tests create a handful of grids and never run out of keys.", "anchors": ["numa/numa.cpp:48-61", "numa/numa.cpp:143-153", "numa/numa.h:135-151"]}
{"id": "C88", "title": "Every coordinate selects a cell", "statement": "Whatever doubles are passed as coordinates, also NaN and infinities, and whatever doubles the coordinate variables of the file contain, the conversion to indices is defined and gives indices inside the grid (coordinates out of range are corrected).", "quantifier": "all doubles as coordinates, first coordinates and spacings, all numbers of dimensions, all sizes from 1 to 2^53", "why_tests_cant": "Needs NaN, infinities, subnormal spacings; what an undefined conversion does differs between machines and optimisation levels.", "anchors": ["grid/level/level.h:227-262", "grid/level/level.h:349-371", "grid/level/level.h:394-412"]}
{"id": "C89", "title": "What is read through an MPI window is what was stored last, under the memory rules of MPI", "statement": "Whichever memory model the windows have (MPI_WIN_MODEL, unified or separate), every access of the library to a window - dictionary entries and their mutexes, blocks of caches and of full grids, by remote operations or by the owner's loads and stores - is defined by MPI and returns the value stored last.", "quantifier": "all numbers of processes, entries, slots, all sequences of epochs, all interleavings, updates reaching the other copy at any permitted time", "why_tests_cant": "Common MPI implementations provide the unified model on the machines at hand; the separate model needs other networks, and reading an old copy there depends on timing.", "anchors": ["transfer/mpiwincache.h:222-225", "transfer/mpiwincache.h:263-337", "transfer/mpiwincache.h:383-401", "transfer/mpiwincache.h:488-567", "mpi/mutex.h:113-116", "transfer/mpiwinfull.h:175-190"]}
{"id": "C90", "title": "The file is read only if no other cache holds the block", "statement": "With a cache grid and other NUMA domains or processes, a block is copied from another cache whenever one holds it; only otherwise it is fetched from the file (documented in documentation/user/02_usage.h lines 69-72). Where the block is copied from, it is really there.", "quantifier": "all numbers of processes, domains and slots, all histories of reads by any of them (one at a time), all results of rand(), windows and communication threads", "why_tests_cant": "Data are right either way; a test would have to compare counters of all processes over long histories with evictions on more than four processes.", "anchors": ["documentation/user/02_usage.h:69-72", "grid/level/cachedist.h:149-203", "transfer/mpicache.h:188-200", "transfer/mpicache.h:250-279", "transfer/numacache.h:114-131"]}
{"id": "C91", "title": "Simultaneous readers load a block from the file only once", "statement": "However the threads of all processes and NUMA domains interleave, as long as no cache has to replace blocks, every block is loaded from the file at most once; in particular two readers which miss the same block at the same time do not both load it.", "quantifier": "for all numbers of threads, ranks and domains, all programs of requests, all schedules and all outcomes of try_lock and rand()", "why_tests_cant": "two readers have to miss the same block within the duration of one load; the values read are correct either way, only the number of file accesses differs", "anchors": ["grid/level/cachedist.h:140-213", "cache/cachemanager.h:118-135", "cache/cachemanager.h:150-170", "transfer/numacache.h:110-130", "transfer/mpiwincache.h:240-345", "transfer/mpithreadcache.h:440-580"]}
{"id": "C92", "title": "Store buffers of the processors do not change what readers get", "statement": "On processors which delay stores in a buffer, and even if stores to different locations become visible out of order, every thread reads what it would read if all steps were executed one after the other: the values returned by the caches are those of the file, and whoever returns from the one-time initialisation of the containers sees them initialised.", "quantifier": "for all programs which touch every location under its mutex, all numbers of threads, domains and requests, all schedules of the threads and of the buffers, stores in order or not", "why_tests_cant": "the reordering depends on the processor, the compiler and the timing of two threads within nanoseconds; on x86 it does not happen for stores at all", "anchors": ["threads/once.h:69-86", "grid/grid.cpp:222-240", "grid/level/cachedist.h:134-214", "cache/cachemanager.h:118-170", "transfer/numacache.h:110-130", "threads/pthreadmutex.h:50-90"]}
{"id": "C93", "title": "Old values in loads do not change what readers get", "statement": "Also on machines on which a load may return any older value that the thread does not have to know about (loads and stores of different locations are executed in any order), threads that access data under its mutex behave as with one memory: reads of the caches of a process return the values of the file and do not block each other, a barrier or broadcast (threads/sync.h) makes everything stored before it visible to all who passed it, and everybody who returned from Once::saveExec reads what the function stored.", "quantifier": "for all programs that keep to their mutexes, all settings, numbers of threads, schedules, all choices of what loads return and where stores are placed in the order of a location", "why_tests_cant": "The tests run on x86 with few threads; which old values a load returns cannot be controlled in a test and differs between processors and compilers.", "anchors": ["threads/once.h:69-86", "threads/sync.h:105-233", "threads/pthreadmutex.h", "cache/cachemanager.h:118-170", "grid/level/cachedist.h:134-214", "transfer/numacache.h:108-130"]}
{"id": "C94", "title": "The hand spread controls how well the cache replacement approximates least recently used", "statement": "CACHE-HAND-SPREAD is the distance of the two hands of the clock: a search for a victim moves the hands at most spread+1 times (lower values are faster), a block which is used is kept for more than spread hand moves, a loaded block is kept until at least cache size/(spread+1) further blocks were loaded, spread 0 is first in first out (lower values approximate worse), and the block which was used last is not the next victim.", "quantifier": "all cache sizes, all spreads smaller than the cache size, all histories of requests", "why_tests_cant": "the guarantees speak about all histories; a test sees the victims of a few of them and cannot tell an unlucky history from a wrong algorithm", "anchors": ["cache/lru.h:77-119", "cache/cachelist.h:103-139", "cache/cachemanager.h:119-137", "documentation/user/02_usage.h (CACHE-HAND-SPREAD)"]}
{"id": "C95", "title": "The repository's own test programs cannot fail", "statement": "Every test program of tests/ that reads a file of tests/prepare.cpp makes only successful comparisons: the getters return, at each of its coordinates (also those it computes as i * 1.0/(WIDTH-1) for the scaled file), the number which prepare.cpp has written for that cell; and the counters have the values it expects.", "quantifier": "All sizes of the files for which the numbers are exact floats, all setParam calls, builds, numbers of processes, NUMA domains and threads, all interleavings, every moment of the run.", "why_tests_cant": "The test suite runs each program in one configuration with one size and one (lucky) interleaving; that it passes says nothing about other configurations or schedules.", "anchors": ["tests/prepare.cpp:42-173", "tests/fullgrid2d.cpp:48-95", "tests/fullgrid2dscale.cpp:57-73", "tests/fullgrid2darray.cpp:53-105", "tests/fullgrid2dstruct.cpp:54-97", "tests/passthroughgrid2d.cpp:50-96", "tests/fullgrid3d.cpp:57-92", "tests/cachegrid2d.cpp:50-85", "tests/unittest/cache/cachelisttest.h:45-113"]}
{"id": "C96", "title": "The block distribution agrees with dealing the blocks out one by one", "statement": "Dealing the blocks out one at a time, as the script preprocess/test/test_index.py does in both modes, gives every block the rank, domain, offset and node offset computed by the formulas of grid/level/blocked.h, fills each storage place with the block local2global names, and never leaves the tables; so the script's test passes for all parameters.", "quantifier": "all numbers of blocks, ranks >= 1 and domains >= 1, both distribution modes", "why_tests_cant": "The script checks five combinations of numbers; the formulas are used for any grid and machine.", "anchors": ["preprocess/test/test_index.py:44-137", "grid/level/blocked.h:182-290"]}
{"id": "C97", "title": "Blocks are shared evenly", "statement": "In a distributed full grid no domain of any rank stores more than one block more than another one.", "quantifier": "all numbers of blocks, ranks and domains, both distribution modes", "why_tests_cant": "Uneven shares give correct values; only memory use and transfer counts at scale show them.", "anchors": ["grid/level/blocked.h:182-249", "CMakeLists.txt:57-58"]}
{"id": "C98", "title": "The noise functions have a value everywhere and no jumps", "statement": "The gradient noise of the preprocessing tool (one, two and three dimensions, one or several octaves) raises no exception for any coordinates and any roughness from 0 on; its values lie between -1 and 1; it is zero at the points of the integer lattice, has the period 256 and is continuous, also across the borders of the cells.", "quantifier": "all rational coordinates, depths and non-negative roughnesses", "why_tests_cant": "the table accesses and the agreement of neighbouring cells depend on 65536 cells and on all positions within them", "anchors": ["preprocess/gen_noise/pnoise.py:pnoise2D", "preprocess/gen_noise/pnoise.py:pnoise3D", "preprocess/gen_noise/pnoise.py:noise1D", "preprocess/gen_noise/pnoise.py:noise2D"]}
{"id": "C99", "title": "The noise generator writes the noise at each point of the grid", "statement": "For every width, height and roughness the noise generator writes its files without an exception; the netCDF file has at every point (x, y) the value of the noise at (x, y), by the names of its dimensions and when it is read by ASAGI, and the VTK file shows the same.", "quantifier": "all widths and heights of at least 1, all non-negative roughnesses, all roundings of stored numbers, with and without netCDF and VTK output", "why_tests_cant": "the defaults are square grids, for which a transposed noise field looks like any other noise field", "anchors": ["preprocess/gen_noise/create_noise_grid.py:create_grid", "grid/level/level.h:pos2index"]}
{"id": "C100", "title": "The unit tests are successful in every interleaving", "statement": "Every unit test of the repository passes for the implementation, whatever the order in which its threads and processes run: the tests of the barrier and the broadcast, of the registration of threads, of the NUMA communicator, of the communication thread, of the cache list and the cache manager, of the netCDF reader, of the full and the pass-through level (maximum and spacing in double arithmetic), of the one-time execution and of the array type. No test accesses a variable that no longer exists, gets stuck or runs for ever.", "quantifier": "all interleavings of the two threads (of the 2n threads of n processes for the communication thread), all assignments of threads to NUMA nodes, all initial contents of variables, all block numbers, offsets, block sizes, grid sizes, cell sizes and numbers of calls in place of those in the tests", "why_tests_cant": "a test run shows one interleaving on one machine; whether an assertion depends on the scheduler or on the number of NUMA nodes is not visible in it", "anchors": ["tests/unittest/threads/synctest.h", "tests/unittest/numa/numatest.h:testRegisterThread", "tests/unittest/numa/numacommtest.h:testAllocate", "tests/unittest/mpi/commthread.h:testSendRecv", "tests/unittest/cache/cachelisttest.h", "tests/unittest/cache/cachemanagertest.h", "tests/unittest/io/netcdfreadertest.h:testGetBlock", "tests/unittest/grid/level/fulltest.h", "tests/unittest/grid/level/passthroughtest.h", "tests/unittest/threads/oncetest.h", "tests/unittest/types/arraytypetest.h"]}
{"id": "C101", "title": "The script that adds a time dimension multiplies the data with the share of the time", "statement": "interpol_time.py, applied to a netCDF file without the name \"time\", writes a file that has the dimensions of the old one and \"time\" with 600 steps; coordinate variables are copied; step i of every other variable has i/600 of the old values (integers rounded towards zero, floating-point numbers up to rounding); the time axis has step k at k/2 seconds, ASAGI finds step k for a read at this time; the attribute actual_range of the time names the first and last value. If \"time\" is in use already, the script ends with an exception.", "quantifier": "For all files with variables of signed integers of 1, 2, 4 bytes, singles and doubles, any dimensions and values, all steps", "why_tests_cant": "A test uses one file with small values; that a product overflows for some step depends on the type and the values, and the 600 steps of all cells are not compared with anything.", "anchors": ["preprocess/interpol_time/interpol_time.py:9-59"]}
{"id": "C102", "title": "The example programs show the values of the cells at the positions they print", "statement": "The examples in C, C++ and Fortran, run on the file of the repository's tests, show for each position the value of the nearest cell, for float, double, int and untyped reads alike: 5x10 and 5x10.1 the cell (5,10), 1x50.3 the cell (1,50), and the positions with negative coordinates the first cell; also where Fortran rounds the literal to single precision first. The ranges shown are -0.5 to the number of cells minus 0.5 in each dimension.", "quantifier": "All file sizes of at least 6 x 51 cells with values exact in float, all builds, parameters, numbers of processes and domains, and all interleavings of the processes.", "why_tests_cant": "The examples are not compared with expected output anywhere; they run with one configuration, and the rounding of 10.1 in single precision is not visible in the printed digits.", "anchors": ["examples/c/simple.c", "examples/cpp/simple.cpp", "examples/cpp/array.cpp", "examples/f90/simple.f90", "examples/f90/buf.f90", "tests/prepare.cpp"]}
{"id": "C103", "title": "pinning_test prints exactly the CPUs a thread is pinned to", "statement": "For every affinity mask the loop of pinning_test ends, and the line contains the number of CPUs in the mask and all of these CPUs, each once, in ascending order, separated by commas without a comma at the end.", "quantifier": "All mask sizes, all masks, ranks and thread numbers.", "why_tests_cant": "A run sees the one mask of the machine; masks with gaps, with the last bit or without any bit do not occur there.", "anchors": ["tools/pinning_test/pinning_test.cpp"]}
{"id": "C104", "title": "Programs reading a grid run to their end", "statement": "For every grid except cached grids with the communication thread (see C61): whatever the parameters, the build, the numbers of processes, domains and threads, the file, and the programs of the threads (reads at coordinates for which the index is defined), no execution takes more than (cells of a block + 5 domains + 17) steps per read; an execution cannot be continued exactly when every thread has the answers to all its reads, so there is no deadlock and no step afterwards; from every moment the end can be reached; and at the end every read has the answer for a cell nearest to its coordinates (exact arithmetic), respectively for the cell pos2index gives (double arithmetic).", "quantifier": "all parameter calls, builds, numbers of processes, domains, threads, distributions, files, grid types, programs, interleavings, outcomes of try_lock and rand, all moments", "why_tests_cant": "A run which ends shows that one interleaving of one configuration ends; locks taken in the cache managers, windows and message exchanges of several processes give unboundedly many interleavings.", "anchors": ["grid/level/full.h:137-163", "grid/level/fulldist.h:150-197", "grid/level/cache.h:120-147", "grid/level/cachedist.h:135-212", "grid/level/passthrough.h:105-123"]}
{"id": "C105", "title": "Registration with any number of calling threads", "statement": "Whatever number setThreads announced and however many threads call Grid::open (registerThread), every caller returns, with an id of its own below the announced number or with an error; threads are in the same domain exactly if they run on the same node, and each domain has exactly one master. (Holds when exactly the announced number of threads call; with fewer callers, or with setThreads(0), nobody ever returns; with more, a surplus thread can return successfully with the id and the master role of another thread.)", "quantifier": "all announced numbers T and numbers N of callers below 2^32, all nodes of the threads, detection of domains on or off, all interleavings", "why_tests_cant": "A test calls with the announced number of threads; what happens otherwise depends on the interleaving and is a hang or a silent duplicate id.", "anchors": ["numa/numa.cpp:75-154", "numa/numa.h:108-125", "threads/sync.h:95-186", "grid/grid.cpp:205-225"]}
{"id": "C106", "title": "The three grid types access the file exactly as documented", "statement": "FULL: while the grid is opened, the netCDF calls of all ranks and NUMA domains together ask for every cell of the variable exactly once, one non-empty call per block and none reaching outside of the variable; afterwards no read depends on the file (the values stay those of the opened file whatever the file then contains, and the FILE counter stays 0), on one process and distributed. CACHE: after opening the cache is empty; a read makes no call or exactly one, which asks for exactly the cells of its block; the first read of a block always makes one, the next read of the same block makes none, and as long as no more distinct blocks are used than fit into the cache every block is asked for once only; the FILE counter is the number of calls. PASS-THROUGH: every read makes exactly one call, for exactly its cell.", "quantifier": "all variables, block sizes, distributions over ranks and domains, cache sizes and hand spreads, transfer policies and histories of reads", "why_tests_cant": "Tests see the values, not the calls to the library: a block loaded twice, a block loaded again although it is cached, or a read of the file at run time returns the same values.", "anchors": ["documentation/user/02_usage.h:57-63", "grid/level/full.h:86-163", "grid/level/cache.h:120-171", "grid/level/passthrough.h:105-121", "io/netcdfreader.h:195-218"]}
{"id": "C107", "title": "A failing pthread function in a barrier or broadcast is reported and does no harm", "statement": "If a pthread function called by Sync::barrier or Sync::broadcast fails, the call returns false (documented: true on success, false otherwise; THREAD_ERROR: a pthread function failed), the thread does not keep the mutex and later barriers work as before; if none fails, the call returns true and the mutex is free.", "quantifier": "every combination of failing calls, every state of the object, any number of threads, any behaviour of the other threads during the waits", "why_tests_cant": "pthread functions practically never fail in a test; the error paths are dead code there.", "anchors": ["threads/sync.h:107-234", "numa/numa.h:156-172", "include/asagi.h:97-98"]}
{"id": "C108", "title": "A thread whose registration failed is never told that it succeeded", "statement": "registerThread returns SUCCESS only to threads whose ids have been determined and stored: if getting the CPU or the NUMA node, the barrier, the creation of the key or storing the ids fails, the call and all later calls of that thread report an error.", "quantifier": "every combination of failing system calls, every state of the shared variables, any number of threads, any later call", "why_tests_cant": "needs pthread_setspecific or pthread_key_create to fail, which no test provokes.", "anchors": ["numa/numa.cpp:50-56", "numa/numa.cpp:75-154", "numa/numa.h:138-151"]}
{"id": "C109", "title": "Starting and stopping the communication thread", "statement": "Whatever groups of processes start and stop the communication thread and register receivers, in any order and number: a start succeeds at all its processes exactly if none of them has a thread, otherwise all are told so and nothing changes; a running process has exactly one thread and one communicator of its own, a stopped one none; tags given out are in use at no process of the group; what a start or registration takes is given back; after a start that reported an error the process can start again; a registration returns at all processes.", "quantifier": "all sequences of starts, stops, registrations and removals of receivers by all processes and groups; all patterns of failing MPI and pthread calls", "why_tests_cant": "The unit tests start the thread once on all processes; failing pthread_create calls and thousands of restarts do not occur in tests.", "anchors": ["mpi/commthread.h:init", "mpi/commthread.h:finialize", "mpi/commthread.h:registerReceiver", "mpi/commthread.h:unregisterReceiver", "asagi.cpp:67-75"]}
