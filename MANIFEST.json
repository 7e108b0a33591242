{"claims": [
{"property": "C01", "status": "proved", "theorems": ["C01_block_partition"], "note": ""},
{"property": "C02", "status": "proved", "theorems": ["C02_one_home"], "note": ""},
{"property": "C03", "status": "proved", "theorems": ["C03_load_builtin"], "note": ""},
{"property": "C04", "status": "proved", "theorems": ["C04_load_opaque"], "note": ""},
{"property": "C05", "status": "proved", "theorems": ["C05_full_value"], "note": ""},
{"property": "C06", "status": "proved", "theorems": ["C06_full_dist_value"], "note": ""},
{"property": "C07", "status": "proved", "theorems": ["C07_cache_value"], "note": ""},
{"property": "C08", "status": "proved", "theorems": ["C08_pass_through_value", "C08_pass_through_calls"], "note": ""},
{"property": "C09", "status": "proved", "theorems": ["C09_same_answer"], "note": ""},
{"property": "C10", "status": "proved", "theorems": ["C10_concurrent_values", "C10_slot_exclusive", "C10_no_race", "C10_writes_complete"], "note": ""},
{"property": "C11", "status": "proved", "theorems": ["C11_no_deadlock", "C11_blocked_only_by_waiting", "C11_no_livelock", "C11_can_finish"], "note": ""},
{"property": "C12", "status": "proved", "theorems": ["C12_numa_values", "C12_received_block", "C12_numa_no_deadlock"], "note": ""},
{"property": "C13", "status": "proved", "theorems": ["C13_window_values", "C13_dictionary_exact", "C13_listed_once"], "note": ""},
{"property": "C14", "status": "proved", "theorems": ["C14_thread_values", "C14_replies_match", "C14_info_replies_match", "C14_no_stray_reply"], "note": ""},
{"property": "C15", "status": "proved", "theorems": ["C15_exclusion", "C15_fifo", "C15_handover", "C15_no_stuck_state", "C15_terminates"], "note": ""},
{"property": "C16", "status": "proved", "theorems": ["C16_bookkeeping"], "note": ""},
{"property": "C17", "status": "proved", "theorems": ["C17_victim_search", "C17_trace_is_model", "C17_no_early_eviction"], "note": "Search length, slots, flags, second chance and no eviction before the first lap."},
{"property": "C18", "status": "partial", "theorems": ["C18_oversized_spread_refuted", "C18_every_oversized_spread_fails", "C18_small_spread_partial"], "note": "REFUTED: every CACHE_HAND_SPREAD >= cache size indexes outside the reference flags; smaller spreads proved safe."},
{"property": "C19", "status": "proved", "theorems": ["C19_nearest_cell", "C19_clamped_to_end"], "note": ""},
{"property": "C20", "status": "partial", "theorems": ["C20_range_usable_partial", "C20_range_shape", "C20_float_refuted", "C20_double_partial"], "note": "Proved in exact arithmetic for any number of dimensions; REFUTED for doubles: the rounded cell-centred maximum of the grid 1048576, 1048577 is clamped. Proved for doubles if the first coordinate (in cells) and the number of cells are together at most 50000 (cell-centred) or 2^47 (vertex-centred)."},
{"property": "C21", "status": "proved", "theorems": ["C21_in_range", "C21_monotone", "C21_no_nan"], "note": "Any coordinate, offset and spacing without NaN; no-NaN conditions proved separately."},
{"property": "C22", "status": "partial", "theorems": ["C22_refuted", "C22_almost_nearest_partial"], "note": "REFUTED by 0.49999999999999994; proved: never worse than the nearest cell by more than 10*2^-53 of the extent (2^-900 <= |spacing| <= 2^900)."},
{"property": "C23", "status": "partial", "theorems": ["C23_refuted", "C23_overflow_refuted", "C23_size_one_partial", "C23_larger_partial"], "note": "REFUTED: NaN index at the infinite end points of size-one dimensions, and for finite coordinates whose distance to the offset overflows; everything else is defined."},
{"property": "C24", "status": "proved", "theorems": ["C24_ranges", "C24_coordinates", "C24_block_sizes"], "note": ""},
{"property": "C25", "status": "proved", "theorems": ["C25_block_sizes"], "note": ""},
{"property": "C26", "status": "partial", "theorems": ["C26_time_block_refuted", "C26_time_block_partial"], "note": "REFUTED: the default block size 1 of the time dimension is overwritten by the general default; holds when the block size is given explicitly."},
{"property": "C27", "status": "partial", "theorems": ["C27_degenerate_refuted", "C27_degenerate_partial"], "note": "REFUTED: zero-length dimensions divide by zero, 0-dimensional variables index imap[-1]; all other files are safe."},
{"property": "C28", "status": "proved", "theorems": ["C28_full", "C28_full_dist", "C28_cache", "C28_pass_through", "C28_counters_add_up"], "note": "Serialised reads; the documentation says counters are not thread safe."},
{"property": "C29", "status": "partial", "theorems": ["C29_level0_partial", "C29_names_partial", "C29_level_refuted", "C29_name_refuted"], "note": "REFUTED: getCounter ignores the level, and the documented name file_load is not recognised; level 0 and the other documented names proved."},
{"property": "C30", "status": "proved", "theorems": ["C30_last_write_wins", "C30_unset_keeps_default", "C30_others_unaffected"], "note": ""},
{"property": "C31", "status": "partial", "theorems": ["C31_refuted", "C31_numbers_partial", "C31_nonnegative_partial"], "note": "REFUTED: every negative number given to a parameter other than VARIABLE and BLOCK_SIZE_x arrives as 0 (the minus sign becomes an underscore); values without a minus sign arrive unchanged."},
{"property": "C32", "status": "partial", "theorems": ["C32_storage", "C32_mpi", "C32_numa_partial", "C32_numa_refuted"], "note": "Storage class and MPI mode proved; REFUTED for NUMA: a cache grid without MPI communication gets the opposite NUMA mode."},
{"property": "C33", "status": "proved", "theorems": ["C33_raw", "C33_representation", "C33_exact_if_fits", "C33_modulo_width", "C33_double_nearest", "C33_float_nearest"], "note": ""},
{"property": "C34", "status": "partial", "theorems": ["C34_refuted", "C34_what_happens", "C34_single_element_partial"], "note": "REFUTED: the scalar getters of array and struct grids overrun the result variable or reinterpret raw bytes; proved exactly what happens, and the one-element case."},
{"property": "C35", "status": "proved", "theorems": ["C35_verdicts", "C35_size_fixed_by_first", "C35_size_is_requested", "C35_size_never_changes", "C35_no_deadlock"], "note": ""},
{"property": "C36", "status": "proved", "theorems": ["C36_at_most_once", "C36_done_before_return", "C36_no_stuck_state", "C36_terminates"], "note": ""},
{"property": "C37", "status": "proved", "theorems": ["C37_barrier", "C37_exclusion", "C37_no_stuck_state", "C37_terminates"], "note": ""},
{"property": "C38", "status": "proved", "theorems": ["C38_values", "C38_root_is_last", "C38_defined"], "note": ""},
{"property": "C39", "status": "partial", "theorems": ["C39_refuted", "C39_dangling_refuted", "C39_reuse_refuted", "C39_exclusion_partial"], "note": "REFUTED: each of the three condition waits is an if; one spurious wake-up lets a thread through the barrier, or makes a broadcast read a dead variable. Exclusion survives."},
{"property": "C40", "status": "proved", "theorems": ["C40_thread_ids", "C40_domains", "C40_masters", "C40_detection_off", "C40_first_call", "C40_later_calls", "C40_packing", "C40_schedules"], "note": "Holds for every schedule of the barrier (no spurious wake-ups); the unlocked read of m_initialized is taken as sequentially consistent."},
{"property": "C41", "status": "partial", "theorems": ["C41_first_domain_partial", "C41_refuted"], "note": "REFUTED: the broadcast hands everybody the error of thread 0, even the failing master returns success; failures of domain of thread 0 are reported by all."},
{"property": "C42", "status": "partial", "theorems": ["C42_blocks_refuted", "C42_entries_refuted", "C42_locks_refuted", "C42_receivers_refuted", "C42_domain0_blocks_partial", "C42_domain0_entries_partial", "C42_own_blocks_partial", "C42_own_entries_partial", "C42_late_locks_partial", "C42_late_first_partial"], "note": "REFUTED: window creation and receiver registration synchronise the ranks only through the masters of domain 0, so another rank may still be loading blocks or initialising dictionary entries of further domains; initMutexMem runs after window creation and releases locks which faster ranks have already acquired (also with one domain); receivers are saved after the collective operation. Proved parts: domain 0 of every rank and all domains of the own rank are ready; locks are exclusive if used only after the last initialisation."},
{"property": "C43", "status": "partial", "theorems": ["C43_refuted", "C43_largest_first_partial", "C43_within_capacity_partial"], "note": "REFUTED for every growth policy of the level vector: ascending opens destroy the earlier levels (shallow copy); proved when the largest level is opened first."},
{"property": "C44", "status": "proved", "theorems": ["C44_unique", "C44_resolves", "C44_closed", "C44_defined"], "note": ""},
{"property": "C45", "status": "partial", "theorems": ["C45_same_tag", "C45_unique", "C45_right_receiver", "C45_handled_once", "C45_not_lost_partial", "C45_handler_progress", "C45_early_message_refuted"], "note": "Tags, receivers and exactly-once handling proved for all groups and interleavings; REFUTED that a message is always handled: one sent before the receiving process has stored its receiver is dropped."},
{"property": "C46", "status": "partial", "theorems": ["C46_refuted", "C46_few_partial"], "note": "REFUTED: tags are never reused, so the 32767th receiver gets the unregister tag and the next one the exit tag; fewer are safe."},
{"property": "C47", "status": "partial", "theorems": ["C47_nonnegative_partial", "C47_invalid_partial", "C47_negative_refuted", "C47_min_int_refuted"], "note": "REFUTED: negative arguments, also the default -1, select a CPU that does not exist, and the smallest int overflows; non-negative arguments proved."},
{"property": "C48", "status": "proved", "theorems": ["C48_lower_ranks", "C48_any_hash", "C48_distinct", "C48_compact"], "note": "For names with valid hash values (see C49); holds for any hash function."},
{"property": "C49", "status": "partial", "theorems": ["C49_refuted", "C49_short_names_partial"], "note": "REFUTED: host names like compute-node-01.example.org hash to a negative color; ASCII names up to 22 characters are fine."},
{"property": "C50", "status": "proved", "theorems": ["C50_dictionary_entry"], "note": ""},
{"property": "C51", "status": "partial", "theorems": ["C51_delete_refuted", "C51_delete_partial"], "note": "REFUTED: deleting a location that is not in a full entry erases the last location; deletion of recorded locations is exact."},
{"property": "C52", "status": "proved", "theorems": ["C52_encodings"], "note": ""},
{"property": "C53", "status": "partial", "theorems": ["C53_cache_partial", "C53_full_partial", "C53_cache_hang_refuted", "C53_cache_mixed_refuted", "C53_full_refuted", "C53_with_offsets"], "note": "REFUTED for several levels: dictionary requests of a cache grid wait for reply tag 0 without the level's tag offset, so on later levels they hang or take another level's reply, and all full-grid levels share reply tag 0. Proved: block requests of all levels with dictionary requests of the first, and single-level full use; with offsets used everywhere it would hold (C53_with_offsets)."},
{"property": "C54", "status": "proved", "theorems": ["C54_same_pointer", "C54_disjoint", "C54_inside", "C54_cover", "C54_same_address"], "note": ""},
{"property": "C55", "status": "partial", "theorems": ["C55_rounding_refuted", "C55_local_count_refuted", "C55_rank_cache_refuted", "C55_slots_refuted", "C55_count_refuted", "C55_open_partial", "C55_storage_partial", "C55_full_read_partial", "C55_remote_read_partial", "C55_dict_partial", "C55_cache_read_partial", "C55_message_partial"], "note": "REFUTED: rounding up wraps for grids near 2^64 (no blocks, division by zero), cacheSize*domains is computed in 32 bits (slots collide, rank cache size 0) and MPI counts are truncated to int. Proved for grids (plus one block per domain) below 2^63 bytes, fewer than 2^32 slots per rank and blocks below 2^31 values: every model function computed with machine integers equals the exact one."},
{"property": "C56", "status": "partial", "theorems": ["C56_endless_retry_refuted", "C56_read_lost_refuted", "C56_unlisted_answered_partial"], "note": "REFUTED: NoopMutex::try_lock returns false, so tryGet never finds a block and a read of a block listed in the dictionary retries for ever (proved for every configuration, with a reachable example). Proved part: reads of blocks which no rank has cached are answered with the value of the file."},
{"property": "C57", "status": "partial", "theorems": ["C57_refuted", "C57_partial"], "note": "REFUTED: INVALID_VAR_SIZE is 12 in C++/Fortran and 13 in C (which has an extra MULTIPLE_TOPGRIDS); all other names proved to agree."},
{"property": "C58", "status": "partial", "theorems": ["C58_refuted", "C58_nonnegative_partial"], "note": "REFUTED: bytes are loaded as unsigned; non-negative values are exact."},
{"property": "C59", "status": "proved", "theorems": ["C59_elements", "C59_plain_and_array", "C59_struct"], "note": ""},
{"property": "C60", "status": "partial", "theorems": ["C60_refuted", "C60_no_reallocation_partial"], "note": "REFUTED: the lookup does not lock and reads the freed table when a creation reallocates it; safe in every interleaving without reallocation."},
{"property": "C61", "status": "partial", "theorems": ["C61_livelock_refuted", "C61_two_ranks_refuted", "C61_two_domains_refuted", "C61_can_finish_partial", "C61_one_domain_partial", "C61_from_start_partial"], "note": "REFUTED: CacheManager::get keeps the manager locked while waiting for a slot, so tryGet fails; two threads on each of two ranks (or domains) which want each other's cached blocks retry for ever (proved for every configuration in a trapped state, with reachable examples). Proved part: all reads can be completed from every reachable state in which at most one domain has several threads in the middle of reads - in particular always if at most one domain has several threads, and from the start for all programs (messages about one location in order; the completing schedule is first in, first out)."},
{"property": "C62", "status": "proved", "theorems": ["C62_listed_cached", "C62_listed_single"], "note": ""},
{"property": "C63", "status": "proved", "theorems": ["C63_outcomes", "C63_created_once", "C63_progress"], "note": "Errors of MPI functions are not modelled; the barrier inside of NumaComm::allocate is one step (C37 and C38 prove its guarantee)."},
{"property": "C64", "status": "partial", "theorems": ["C64_deadlock_refuted", "C64_same_order_partial"], "note": "REFUTED: registerReceiver holds m_lock of the process while it waits in MPI_Allreduce; two threads on each of two processes that open two grids in different orders block each other for ever (no step is possible). Proved part: if all processes open the grids in the same order (at most 32766 registrations, see C46), all registrations can be completed from every reachable state."},
{"property": "C65", "status": "partial", "theorems": ["C65_writes_exclusive_partial", "C65_not_called_after_partial", "C65_lookup_race_refuted"], "note": "REFUTED: send and the communication thread look up m_receiver without the lock, also while another thread inserts a receiver (opens a grid) or the communication thread removes one. Proved part: writing accesses exclude each other, and a receiver is not called after unregisterReceiver has returned."},
{"property": "C66", "status": "partial", "theorems": ["C66_refuted", "C66_released_partial"], "note": "REFUTED: the communication thread releases the lock that the caller of unregisterReceiver acquired, which is undefined for C++ and POSIX mutexes and spin locks. Proved part: with locks that permit it, the lock can be released from every state (assuming the MPI calls return)."},
{"property": "C67", "status": "partial", "theorems": ["C67_returns_partial", "C67_hangs_refuted", "C67_one_domain_partial", "C67_same_failure_partial", "C67_domain0_refuted"], "note": "REFUTED: domain 0 alone creates memory, windows and receivers and returns at once if this fails; the other domains then wait for ever in the following broadcast of pointers, and every thread in the last broadcast of open (two or more domains; all level kinds except the pass-through). Proved: open returns in all threads exactly when all domains get to the same number of collective calls; in particular with one domain, and when a step fails in all domains (missing file). The result is the one of domain 0 (see C41)."},
{"property": "C68", "status": "proved", "theorems": ["C68_cache_safe", "C68_full_safe", "C68_any_order", "C68_cache_completes", "C68_full_completes"], "note": "Proved for the protocol of destructors, messages and unregistering of one level of one grid: the requests end before the barrier, what later messages and the end of an answer access is freed after unregistering. Assumes that the application closes a grid only when none of its threads uses it."},
{"property": "C69", "status": "proved", "theorems": ["C69_values", "C69_finishes", "C69_no_deadlock", "C69_slot_exclusive", "C69_slot_exists", "C69_writes_used", "C69_one_epoch", "C69_right_reply", "C69_in_storage"], "note": ""},
{"property": "C70", "status": "proved", "theorems": ["C70_values", "C70_no_deadlock", "C70_finishes", "C70_one_in_mpi", "C70_alone"], "note": "Models THREADSAFE_MPI's library-wide lock around window functions and the shared communication thread; termination excludes cached grids with communication thread (C61); opening and closing are not part of the model (C42, C67, C68)."},
{"property": "C71", "status": "partial", "theorems": ["C71_open_blocked_refuted", "C71_close_blocked_refuted", "C71_no_deadlock_partial", "C71_finishes_partial", "C71_bounded"], "note": "REFUTED: MPI_Comm_dup, MPI_Win_create and MPI_Win_free are called while mpiLock is held; two threads which open (or close) one grid each, in different order on two processes, wait for each other for ever. Proved part: no deadlock and termination without THREADSAFE_MPI, or if on each process one thread opens and closes grids with windows."},
{"property": "C72", "status": "partial", "theorems": ["C72_barrier_refuted", "C72_types_refuted", "C72_locked_exclusive_partial", "C72_one_in_mpi_partial", "C72_functions_partial"], "note": "REFUTED: MPI_Barrier in ~Grid and MPI_Type_* in types/ are not under mpiLock, so two threads call MPI at the same time. Proved: the regions under the lock exclude each other; over all functions of the library (LockModel) at most one thread is in MPI, holding mpiLock, as long as threads only read (all kinds of grids but the communication thread, which is replaced by windows with THREADSAFE_MPI), open grids whose datatype is plain or already created, and set communicators. Missing: closing, first open of an array or struct type (refuted), startCommThread."},
{"property": "C73", "status": "partial", "theorems": ["C73_exact_partial", "C73_bounds_partial", "C73_query_partial", "C73_query_mixed_partial", "C73_query_quiet", "C73_no_deadlock", "C73_lost_refuted", "C73_hits_refuted"], "note": "REFUTED (C73_lost_refuted): in the default build two threads that miss together can lose an increment of ACCESS; local_hits then is 2^64-1 (the documentation only says inaccurate). REFUTED (C73_hits_refuted): with THREADSAFE_COUNTER get takes no mutex, local_hits queried during a miss can be 2^64-1. Proved otherwise: exact values at the end with THREADSAFE_COUNTER or one reading thread; native counters and misses queried at any time lie between the true numbers; never too large in any build."},
{"property": "C74", "status": "proved", "theorems": ["C74_nearest_value", "C74_double_value", "C74_same_answer", "C74_completes", "C74_defined", "C74_parameters"], "note": "Exact arithmetic: nearest cell. IEEE double: a cell of the file (C21-C23 say which; C20, C22, C23 refute exact nearness in doubles). Without NaN in the coordinate computation."},
{"property": "C75", "status": "partial", "theorems": ["C75_same_results_partial", "C75_arrives", "C75_file_refuted", "C75_name_refuted"], "note": "REFUTED for character variables longer than the text: asagi.f90 appends the null character without trimming, so trailing blanks reach open (file not found) and setParam (a parameter under a name nobody looks up, silently ignored). Proved: with strings in variables of exactly their length every Fortran program sees what the C++ program with the same calls sees, for any behaviour of the grid class."},
{"property": "C76", "status": "partial", "theorems": ["C76_set_param_partial", "C76_last_level_refuted"], "note": "REFUTED for the last level 2^32-1 (-1 in a Fortran program): level+1 wraps to 0, the vector is emptied and then indexed. Proved for all other levels, assuming that the memory suffices."},
{"property": "C77", "status": "partial", "theorems": ["C77_verdict_partial", "C77_success_partial", "C77_cell_size", "C77_array", "C77_plain_transfer", "C77_struct_transfer", "C77_plain_refuted", "C77_struct_refuted"], "note": "REFUTED for plain types (check accepts any variable; text and user-defined types cannot be converted, the error is ignored and blocks keep the former memory contents) and for structs (one larger than the cell of the file is accepted, MPI transfers then leave the buffer). Proved: exact conditions of all six results, arrays, cell size, memory of transfers; assumes the netCDF library fails only for the listed reasons."},
{"property": "C78", "status": "partial", "theorems": ["C78_all_closed_partial", "C78_never_twice_partial", "C78_full_partial", "C78_reopen_refuted", "C78_grow_refuted", "C78_grow_full_refuted"], "note": "REFUTED when a level is opened again, e.g. after WRONG_SIZE (the first reader is overwritten, its file never closed), and when the vector of levels grows (the copies delete the same reader and close the same file again; full grids only after a failed open). Proved: every file closed once if the largest level is opened first and each level once, with any errors; nothing twice and no foreign file also with repeated opens; full grids in any order if the opens succeed."},
{"property": "C79", "status": "partial", "theorems": ["C79_axes_partial", "C79_text_refuted", "C79_curvilinear_refuted"], "note": "REFUTED for coordinate variables of text (offset and scaling never set, open succeeds) and with two dimensions (library reads behind the index). Proved for files whose dimensions each have a one-dimensional numeric coordinate variable or none, and non-empty dimensions (empty ones: C27)."},
{"property": "C80", "status": "partial", "theorems": ["C80_index_partial", "C80_value_partial", "C80_beside_partial", "C80_file", "C80_uneven_refuted"], "note": "REFUTED for coordinate variables that are not equidistant (0, 1, 10: coordinate 1 is mapped to cell 0; no error, restriction not documented). Proved in double arithmetic, for all sessions of C74, when each axis has no coordinate variable, one cell, or values within 1/16 of the spacing of an equidistant grid, with at most 2^47 cells and a spacing between 2^-890 and 2^890. C80_file connects the axes with opening a file. C80_beside_partial: the same for coordinates the program computes itself, up to 1/10 of the spacing from the place of the cell on the equidistant grid (on axes of length one: up to 2^1000 away)."},
{"property": "C81", "status": "partial", "theorems": ["C81_range", "C81_delta_partial", "C81_order_refuted", "C81_missing_refuted", "C81_dims_refuted", "C81_stale_refuted"], "note": "REFUTED: with levels opened in ascending order the spacing of level 0 is uninitialised memory (copy constructor, every growth policy); a grid without level 0 reports 0 dimensions and an uninitialised range; levels with more dimensions than level 0 are accepted, reads then look past the caller's coordinates; after a failed second open of level 0 range and spacing belong to different files. Proved: dimensions and range are level 0's after its last success in every history; spacing per level if the largest level is opened first."},
{"property": "C82", "status": "partial", "theorems": ["C82_exactly_once_partial", "C82_usable_partial", "C82_returns", "C82_complete_partial", "C82_order_partial", "C82_reopen_refuted", "C82_grow_refuted", "C82_receiver_refuted", "C82_window_refuted"], "note": "REFUTED: for every kind of level a second open of a level leaks everything of the first; with levels in ascending order (all opened once, successfully) memory is freed twice and the copied level keeps freed memory; a distributed cache whose first receiver cannot be registered leaks its arrays; a distributed full grid whose window cannot be created leaks the window's mutex. Proved: exactly once and usable until then for all kinds, domains and failures otherwise, when no level is opened twice and the largest is opened first; under the same conditions windows and receivers end before the blocks and dictionaries they give access to (C82_order_partial)."},
{"property": "C83", "status": "partial", "theorems": ["C83_race_free_partial", "C83_writes", "C83_reads", "C83_full_race_free_partial", "C83_full_writes", "C83_full_reads", "C83_once_refuted", "C83_once_partial", "C83_counter_refuted", "C83_query_refuted", "C83_counter_partial"], "note": "REFUTED for two data: Once::m_state is read without the mutex at line 73 while another thread writes it at line 85 (the first opens of a grid by several threads), and the performance counters are incremented without mutex by default and queried without mutex even with THREADSAFE_COUNTER. Proved: no race on blocks, cache lists and dictionary entries, for cached and full grids; the access tables are complete; the flag has no other race; counters have none with THREADSAFE_COUNTER and no queries."},
{"property": "C84", "status": "proved", "theorems": ["C84_defined", "C84_netcdf", "C84_brief", "C84_barrier", "C84_returns", "C84_bounded"], "note": "LockModel.v: every function that uses a mutex, reduced to lock operations, netCDF and MPI calls and barriers. MPI calls and barriers are assumed to return here (C15, C37, C53, C61, C64, C67, C70, C71 say when they do). The mutex of the communication thread is unlocked by another thread than the one that locked it (C66)."},
{"property": "C85", "status": "partial", "theorems": ["C85_full_partial", "C85_cache_partial", "C85_wake_partial", "C85_round_robin_refuted", "C85_contiguous_refuted", "C85_location_refuted", "C85_cache_refuted", "C85_wake_refuted"], "note": "REFUTED: each process computes ranks, offsets, locations and tags from its own number of domains and threads, nothing compares them. For any two processes with different numbers of domains there is a grid in which one reads a wrong block of the other (C85_round_robin_refuted, C85_contiguous_refuted: all numbers, not one witness); cached locations are decoded wrongly (C85_location_refuted), a concrete history returns block 5 for block 0 with windows and retries forever with the communication thread (C85_cache_refuted); with different numbers of threads wake-ups of the MPI mutex go to the wrong process or to a tag nobody waits for (C85_wake_refuted). Partial: with equal numbers everything is right. Reads are executed one after the other here (the concurrent protocols with one number are C10-C15, C69)."},
{"property": "C86", "status": "partial", "theorems": ["C86_calls_partial", "C86_values_partial", "C86_late_failure_refuted"], "note": "REFUTED in general: setComm frees the old communicator before MPI_Comm_dup; if the dup fails the grid is left with MPI_COMM_NULL and the old size, and every continuation ends in MPI_Barrier or MPI_Comm_free of MPI_COMM_NULL (C86_late_failure_refuted). Proved for all sequences in which no dup fails after a successful one: the exact sequence of MPI calls, and rank/size when nothing fails."},
{"property": "C87", "status": "partial", "theorems": ["C87_ids_partial", "C87_register_partial", "C87_refused_partial", "C87_deleted_refuted", "C87_shared_refuted"], "note": "REFUTED in general: with all keys in use pthread_key_create fails, m_ptkey stays uninitialised and ~Numa deletes it anyway, possibly the key of an open grid (C87_deleted_refuted), which the next grid then shares (C87_shared_refuted). Proved for all sequences with at most kmax grids open at a time: identifiers (C87_ids_partial), registering succeeds (C87_register_partial); a grid created while all keys are in use refuses registration and leaves the others alone (C87_refused_partial)."},
{"property": "C88", "status": "partial", "theorems": ["C88_exact_partial", "C88_nan_refuted", "C88_tiny_refuted"], "note": "REFUTED: a NaN coordinate is not corrected, its conversion to size_t is undefined (C88_nan_refuted, in every file); also the centre of the first cell if the spacing is at most 2^-1024 (C88_tiny_refuted). C88_exact_partial lists exactly the coordinates for which this happens; for all others the indices are in range."},
{"property": "C89", "status": "partial", "theorems": ["C89_unified_partial", "C89_dictionary_partial", "C89_full_partial", "C89_block_refuted", "C89_mutex_refuted"], "note": "REFUTED for windows with MPI's separate memory model, which the library does not exclude: fetching a slot that its owner has filled is undefined (C89_block_refuted), acquiring a mutex after initMutexMem is undefined (C89_mutex_refuted). Proved: everything in the unified model; in both models the dictionary (mutexes initialised before the window) and blocks of full grids in memory before the window is created."},
{"property": "C90", "status": "partial", "theorems": ["C90_source_partial", "C90_four_partial", "C90_small_partial", "C90_once_partial", "C90_other_cache_refuted"], "note": "REFUTED in general (C90_other_cache_refuted, windows and communication threads): an entry lists at most four locations and deleting an unlisted location removes another one (C51), so the only process which holds a block may be unlisted and the file is read. Proved: every source used does hold the block and domains of the own process are always preferred (C90_source_partial); never more than four holders (C90_four_partial) or at most four caches (C90_small_partial): the file is read exactly if no cache holds the block; any number of caches without evictions: every block is read from the file exactly once (C90_once_partial). One reader at a time; concurrent readers of a block may both read the file, which is not part of the claim."},
{"property": "C91", "status": "partial", "theorems": ["C91_windows_partial", "C91_per_cache_partial", "C91_one_at_a_time_partial", "C91_domains_refuted", "C91_processes_refuted"], "note": "REFUTED without MPI windows: two NUMA domains of one process, or two processes with communication threads, which miss the same block at the same time both load it (witness schedules). Proved: with windows one load for all ranks and domains together; in every build one load per cache; with windows at most one thread loads a given block at any time even with replacements."},
{"property": "C92", "status": "partial", "theorems": ["C92_guarded_partial", "C92_cache_partial", "C92_once_partial", "C92_once_visible_partial", "C92_once_refuted"], "note": "REFUTED for the once-flag if stores may become visible out of order (not x86): a thread can return from saveExec before the stores of initContainers are visible (witness). Proved: every program which keeps to its mutexes behaves as without buffers; in particular the reads of the caches of one process return the values of the file and do not deadlock, stores in order or not; the once-function starts at most once; with stores in order or without the first test its effects are visible. Missing: MPI transports and counters with buffers, speculative loads."},
{"property": "C93", "status": "partial", "theorems": ["C93_guarded_partial", "C93_cache_partial", "C93_barrier_partial", "C93_once_partial", "C93_once_visible_partial", "C93_once_refuted"], "note": "REFUTED for the once-flag: a thread that takes the fast path of saveExec may read old values (C93_once_refuted). Proved: programs that keep to their mutexes, cache reads of one process, barriers and broadcasts, at most one start of the function, and saveExec without the fast path or with an atomic flag. Not modelled: stores that influence the loads they depend on; MPI transports."},
{"property": "C94", "status": "partial", "theorems": ["C94_search_partial", "C94_search_exact_partial", "C94_window_partial", "C94_kept_partial", "C94_lifetime_partial", "C94_fifo_partial", "C94_last_used_refuted"], "note": "REFUTED for the last part: whatever the cache size and the spread, if all blocks are in use the next victim is the block under the leading hand, even if it was used last (C94_last_used_refuted). Proved: bound and exact length of the search, time window for a second use, minimal lifetime of a loaded block, first in first out for spread 0."},
{"property": "C95", "status": "proved", "theorems": ["C95_no_failure", "C95_success", "C95_counters", "C95_reads", "C95_two_threads"], "note": "All eight kinds of test programs (2D, pass-through with getBuf, struct, array, scaled coordinates, 3D, and the two 1D programs that are not built) in all configurations; C95_success additionally: all comparisons can be reached (with some interleaving; for CACHE with MPI_COMMUNICATION = THREAD not with every one, C61). Counters: exact for one thread, within the tests' bounds for two. Unit tests on the cache list, cache manager, block sizes and array type as examples."},
{"property": "C96", "status": "proved", "theorems": ["C96_dealt", "C96_test_passes"], "note": "Both modes, all numbers. The script is modelled loop by loop (DealModel.v) with exceptions for indices outside of its lists; the formulas compared with are those of the model of grid/level/blocked.h."},
{"property": "C97", "status": "partial", "theorems": ["C97_round_robin_partial", "C97_contiguous_partial", "C97_idle_refuted"], "note": "REFUTED for the contiguous mode (ROUND_ROBIN off): with one block more than ranks the first rank stores two blocks and the last none (C97_idle_refuted, for every number of ranks from 3). Proved for round robin (the default): shares differ by at most one; for contiguous the exact share of every place."},
{"property": "C98", "status": "partial", "theorems": ["C98_value_partial", "C98_continuous_partial", "C98_lattice_partial", "C98_periodic_partial", "C98_octaves_partial", "C98_octaves_continuous_partial", "C98_three_partial", "C98_three_continuous_partial", "C98_three_lattice_partial", "C98_three_periodic_partial", "C98_three_octaves_partial", "C98_three_octaves_continuous_partial", "C98_three_refuted", "C98_one_refuted"], "note": "REFUTED for one dimension (C98_one_refuted): noise1D calls pnoise1D with one argument although it has two parameters, so it always raises an exception; and for the bound in three dimensions (C98_three_refuted): at (223.35, 61.5, 233.5) the value is beyond 1. Proved in two dimensions: no exception, values within [-1, 1] (attained, C98_sharp), zero on the lattice, period 256, Lipschitz continuous across all cells, also for sums of octaves with roughness >= 0 (a negative roughness can divide by zero, C98_negative). The same in three dimensions, with values within [-3/2, 3/2]. Numbers are rational (no rounding)."},
{"property": "C99", "status": "partial", "theorems": ["C99_square_partial", "C99_files_partial", "C99_opens_partial", "C99_shape_refuted", "C99_vtk_refuted", "C99_names_refuted"], "note": "REFUTED: grids that are not square always raise an exception (C99_shape_refuted; C99_square_partial says exactly which calls succeed), as nc_values has the dimensions (x, y) but is written as [j, i]. Square grids: by the names of the dimensions the field is transposed (C99_names_refuted); ASAGI, whose first coordinate belongs to the last dimension, finds the right values (C99_files_partial, C99_opens_partial); the VTK file is transposed (C99_vtk_refuted)."},
{"property": "C100", "status": "partial", "theorems": ["C100_sync_partial", "C100_spurious_refuted", "C100_numa_partial", "C100_numa_end_partial", "C100_register_refuted", "C100_allocate_refuted", "C100_comm_partial", "C100_cache_partial", "C100_reader_partial", "C100_full_partial", "C100_once_partial", "C100_array_partial", "C100_pass_partial"], "note": "REFUTED in three places. (1) testRegisterThread asserts thread ids 0 and 1 for the first and second thread, but if the created thread enters registerThread first it gets 0 (C100_register_refuted); the test passes exactly if the main thread gets 0. (2) testAllocate asserts data + 1 == data2_1 on two domains, which fails if the created thread registers first (C100_allocate_refuted); on one domain it always passes. (3) With a spurious wake-up a barrier test can fail (C100_spurious_refuted), see C39. Proved for everything else: all other assertions in every interleaving, definedness, progress, bounded length; the communication thread's test for any number of processes; the cache tests for any four blocks; the reader's test for any file, offset and size, and that it notices every wrong value; the full level's test for any size; the once test for any number of calls; the array type's test for any cell size; the pass-through level's test for any width from 2 to 2^36."},
{"property": "C101", "status": "partial", "theorems": ["C101_file_partial", "C101_written_partial", "C101_raised_partial", "C101_time_partial", "C101_overflow_refuted", "C101_infinite_refuted", "C101_range_refuted"], "note": "REFUTED: products overflow in variables of 1 and 2 bytes with two or more dimensions (step 400 of 100 is negative), large singles become infinite, actual_range says 600 although the time ends before 300 (C101_overflow_refuted, C101_infinite_refuted, C101_range_refuted). Proved for all files: content of the new file (integers exact unless a product overflows, floats within rounding unless they overflow), when it is written, when the script raises, exact time axis and its use by ASAGI. Missing: masked values, scale_factor, empty dimensions, scalars."},
{"property": "C102", "status": "proved", "theorems": ["C102_values", "C102_complete", "C102_ranges"], "note": "Proved for the reads of examples/c/simple.c, cpp/simple.cpp, cpp/array.cpp, f90/simple.f90 and f90/buf.f90 and the printed ranges; printf, write and MPI start-up are not modelled. Uses the axioms of the real numbers listed in DESIGN.md."},
{"property": "C103", "status": "proved", "theorems": ["C103_pinning"], "note": "Proved for every mask (CPU_ISSET is 0 beyond the size of the mask, as in glibc); the system call filling the mask is assumed to succeed."},
{"property": "C104", "status": "proved", "theorems": ["C104_bounded", "C104_stops", "C104_continues", "C104_starts", "C104_nearest", "C104_double"], "note": "Cached grids with the communication thread are excluded in the statement (C61 is about them). Steps are those of ConcModel and FullConcModel; a read of the full level without transfers is one step, one of the pass-through level two."},
{"property": "C105", "status": "partial", "theorems": ["C105_fits_partial", "C105_missing_refuted", "C105_surplus_refuted", "C105_surplus_waits_refuted"], "note": "REFUTED for wrong numbers of callers: C105_missing_refuted (fewer callers, or setThreads(0): all callers sleep for ever, for every such T and N), C105_surplus_refuted (more callers: an execution in which a surplus thread returns with id 0 and as master, like the registered thread 0, for every such T and N), C105_surplus_waits_refuted (one surplus thread which has read m_initialized too early sleeps for ever, every T > 1). C105_fits_partial: with exactly T callers everything claimed holds. No spurious wake-ups (C39), pthread functions do not fail."},
{"property": "C106", "status": "proved", "theorems": ["C106_full_open", "C106_full_reads", "C106_full_dist_reads", "C106_cache", "C106_pass"], "note": "The netCDF library itself is external: a call is its start and count. The functions with suffix _log repeat the model functions and also return the calls; each theorem states that both give the same result. Reads one at a time; concurrent reads are in C10-C14 and C69. The communication between caches (cache grids with several domains or ranks) is not part of this property."},
{"property": "C107", "status": "partial", "theorems": ["C107_reported_partial", "C107_no_failure_partial", "C107_alone_partial", "C107_lock_refuted", "C107_held_refuted", "C107_count_refuted", "C107_ignored_refuted"], "note": "REFUTED: C107_lock_refuted (a failing pthread_mutex_lock goes unnoticed: line 109 of threads/sync.h guards the test of m_finishing instead of returning, startBarrier reports success and the object is used without the mutex), C107_held_refuted (if the wait of startBarrier fails, false is returned with the mutex locked), C107_count_refuted (a thread whose wait failed stays counted; the next barrier opens with one thread missing and m_finishing stays set), C107_ignored_refuted (the result of the last broadcast is not looked at). Proved: given that the lock succeeds, exactly which failures are reported and when the mutex is free (C107_reported_partial); all is well without failures. Effects of failing pthread functions as in POSIX (listed in FailModel.v)."},
{"property": "C108", "status": "partial", "theorems": ["C108_success_partial", "C108_again_refuted", "C108_key_refuted"], "note": "REFUTED: C108_again_refuted (m_initialized is set before the ids are stored: after a failing pthread_setspecific the first call returns THREAD_ERROR, every later one SUCCESS, with thread id 0 and the master flag of thread 0), C108_key_refuted (after a failing pthread_key_create the later calls use the key that does not exist). Proved: the registering call itself returns SUCCESS only if nothing failed and the ids are stored (C108_success_partial)."},
{"property": "C109", "status": "partial", "theorems": ["C109_start_partial", "C109_stop_partial", "C109_register_partial", "C109_unregister_partial", "C109_objects_partial", "C109_errors_partial", "C109_stuck_partial", "C109_create_refuted", "C109_groups_refuted", "C109_mixed_refuted"], "note": "REFUTED in general: if pthread_create (or MPI_Comm_group, MPI_Comm_rank) fails in init, m_comm stays set: the start reports the error, every later start reports ALREADY_INITIALIZED, registerReceiver succeeds although nobody receives, stop does not return (C109_create_refuted; for all continuations C109_stuck_partial); the MPI groups of init and registerReceiver are never freed (C109_groups_refuted, exact number in C109_objects_partial); a registration by processes only some of which have a thread never returns at those (C109_mixed_refuted). Proved for all histories in which only reductions and duplications fail (at any processes): results of start, stop, register, unregister, tags, one communicator and one thread; with all failures: the result of a start at each process."}
]}
