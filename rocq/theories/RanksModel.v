(** * Processes with different numbers of NUMA domains or threads

    Every process computes the place of a block, the location of a cached block and the receiver of a wake-up from its
    own number of NUMA domains and threads.  The number of domains is found out by [registerThread] from the CPUs
    the threads happen to run on (numa/numa.cpp lines 75-154), separately in each process; the number of threads
    is what the process gave to [setThreads] (include/asagi.h lines 141-149).  Nothing compares them.

    Here each process has its own numbers.  The reads of all processes are executed one after the other (the
    concurrent protocols, with one number for all processes, are C10-C15 and C69); block numbers stand for the
    data of blocks. *)
From Verif Require Export BlockedModel DictModel.

Record ranks := Ranks {
  k_mode : dist_mode;             (* ROUND_ROBIN *)
  k_size : nat;                   (* number of processes *)
  k_total : nat;                  (* totalBlockCount(): the same file and the same parameters in all processes *)
  k_doms : nat -> nat;            (* numa().totalDomains() of each process *)
  k_threads : nat -> nat;         (* numa().totalThreads() of each process *)
  k_cache : nat                   (* CACHE_SIZE *)
}.

(** What is in a piece of memory: a block, nothing yet, or the access is outside of the memory of the other process. *)
Inductive got := Block (b : nat) | Unset | Outside | Retry.

Section Ranks.
Variable k : ranks.

(** The layout as process [q] computes it (grid/level/blocked.h lines 182-290 with its own [numa()]). *)
Definition view (q : nat) : dist := Dist (k_mode k) (k_size k) (k_doms k q) (k_total k).

(** ** Distributed full grids *)

(** The block which process [r] stores at offset [o] of its memory: domain [o / localBlockCount()] loads the blocks
    [local2global(0)], [local2global(1)], .., grid/level/full.h lines 107-124; the memory of all domains is one
    array, numa/numacomm.h lines 124-155. *)
Definition full_mem (r o : nat) : got :=
  if o <? node_block_count (view r) then
    let b := local2global (view r) r (o / local_block_count (view r)) (o mod local_block_count (view r)) in
    if b <? k_total k then Block b else Unset
  else Outside.

(** A read of block [b] in process [q]: own memory, memory of another domain or of another process, at the rank and
    offset computed by [q]: grid/level/fulldist.h lines 150-195, transfer/mpiwinfull.h lines 161-190 (window) and
    transfer/mpithreadfull.h lines 169-191 (the other process sends the block at this offset). *)
Definition full_read (q b : nat) : got :=
  let r := block_rank (view q) b in
  if r <? k_size k then full_mem r (block_node_offset (view q) b) else Outside.

(** ** Distributed caches *)

(** [m_rankCacheSize], transfer/mpicache.h line 101. *)
Definition slots (q : nat) : nat := k_cache k * k_doms k q.

(** The block number and the data of every slot of every process, and the dictionary of every process. *)
Record caches := Caches {
  t_id : nat -> nat -> option nat;
  t_data : nat -> nat -> got;
  t_dict : nat -> nat -> dentry
}.
Definition caches_init : caches := Caches (fun _ _ => None) (fun _ _ => Unset) (fun _ _ => dict_init).

(** Access to entry [o] of the dictionary of process [r]: the dictionary has [blockCount * totalDomains()] entries,
    transfer/mpicache.h lines 104-108. *)
Definition on_entry {A} (s : caches) (r o : nat) (f : dentry -> outcome (A * dentry)) : outcome (A * caches) :=
  if ((r <? k_size k) && (o <? node_block_count (view r)))%bool then
    do xd <- f (t_dict s r o);
    Ok (fst xd, Caches (t_id s) (t_data s) (upd (t_dict s) r (upd (t_dict s r) o (snd xd))))
  else Ub.

(** Where process [q] enters its slot [sl] for block [b], and what.  Windows: mpiwincache.h lines 316-323 and
    543-550; communication thread: mpithreadcache.h lines 563-602, the other process divides by its own
    [rankCacheSize()], lines 211-218 and 244-251. *)
Definition target (thr : bool) (q b sl : nat) : nat * nat * nat :=
  let r := block_rank (view q) b in
  let o := block_node_offset (view q) b in
  if (thr && negb (r =? q))%bool
  then let m := o * slots q + sl in (r, m / slots r, q * slots r + m mod slots r)
  else (r, o, q * slots q + sl).

Definition remove_loc (thr : bool) (s : caches) (q b sl : nat) : outcome caches :=
  let '(r, o, e) := target thr q b sl in
  do x <- on_entry s r o (fun d => do d' <- delete_block_info d e; Ok (tt, d')); Ok (snd x).
Definition add_loc (thr : bool) (s : caches) (q b sl : nat) : outcome caches :=
  let '(r, o, e) := target thr q b sl in
  do x <- on_entry s r o (fun d => do d' <- update_block_info d e; Ok (tt, d')); Ok (snd x).

(** The slot with block [b] among the [n] slots from [lo] on (cache/cachemanager.h lines 119-137 and 150-175). *)
Definition lookup (s : caches) (q lo n b : nat) : option nat :=
  find (fun sl => match t_id s q sl with Some x => x =? b | None => false end) (seq lo n).

Definition fill (s : caches) (q sl b : nat) (g : got) : caches :=
  Caches (upd (t_id s) q (upd (t_id s q) sl (Some b))) (upd (t_data s) q (upd (t_data s q) sl g)) (t_dict s).

(** [transfer] with the location [e]: windows copy from the slot, mpiwincache.h lines 356-396; the communication
    thread of the other process looks for the block in all its caches, mpithreadcache.h lines 137-172 and
    489-533 (not there: try again). *)
Definition transfer (thr : bool) (s : caches) (q e b : nat) : outcome got :=
  let r := e / slots q in
  if thr then
    if r <? k_size k then
      match lookup s r 0 (slots r) b with
      | Some sl => Ok (t_data s r sl)
      | None => Ok Retry
      end
    else Ub
  else
    let o := e mod slots q in
    if ((r <? k_size k) && (o <? slots r))%bool then Ok (t_data s r o) else Ok Outside.

(** One read of block [b] in domain [dom] of process [q], grid/level/cachedist.h lines 135-215; [slot] is the slot
    the cache manager replaces, [pick] the result of [rand()].  Windows enter the own location together with the
    fetch (mpiwincache.h lines 316-323), the communication thread variant afterwards. *)
Definition read (thr : bool) (s : caches) (q dom slot b pick : nat) : outcome (caches * got) :=
  let sl := slot + k_cache k * dom in
  match lookup s q (k_cache k * dom) (k_cache k) b with
  | Some sl' => Ok (s, t_data s q sl')
  | None =>
      do s1 <- match t_id s q sl with None => Ok s | Some ob => remove_loc thr s q ob sl end;
      match lookup s1 q 0 (slots q) b with
      | Some sl' => do s2 <- add_loc thr s1 q b sl; Ok (fill s2 q sl b (t_data s1 q sl'), t_data s1 q sl')
      | None =>
          let r := block_rank (view q) b in
          let o := block_node_offset (view q) b in
          if thr then
            do xs <- on_entry s1 r o (fun d => do x <- fetch_block_info d pick; Ok (fst x, d));
            do g <- match fst xs with None => Ok (Block b) | Some e => transfer thr s1 q e b end;
            do s2 <- add_loc thr s1 q b sl;
            Ok (fill s2 q sl b g, g)
          else
            do xs <- on_entry s1 r o (fun d => fetch_and_update d pick (q * slots q + sl));
            do g <- match fst xs with None => Ok (Block b) | Some e => transfer thr s1 q e b end;
            Ok (fill (snd xs) q sl b g, g)
      end
  end.

Record rd := Rd { i_rank : nat; i_dom : nat; i_slot : nat; i_block : nat; i_pick : nat }.

Fixpoint reads (thr : bool) (s : caches) (l : list rd) : outcome (list got) :=
  match l with
  | [] => Ok []
  | x :: l' =>
      do sg <- read thr s (i_rank x) (i_dom x) (i_slot x) (i_block x) (i_pick x);
      do gs <- reads thr (fst sg) l';
      Ok (snd sg :: gs)
  end.

(** ** Wake-ups of the MPI mutex *)

(** The levels of a grid in the order of their [open]: what each takes from [reserveTags] (mpi/mpicomm.h lines
    159-164): the mutex of a window cache one tag for each thread (mpi/mutex.h line 105), the communication thread
    variant three (transfer/mpithreadcache.h line 401), all others none. *)
Inductive level_tags := TWindow | TThread | TNone.
Definition tags_of (q : nat) (l : level_tags) : nat :=
  match l with TWindow => k_threads k q | TThread => 3 | TNone => 0 end.
(** [m_tagOffset] of level [n] in process [q]. *)
Definition tag_offset (q : nat) (ls : list level_tags) (n : nat) : nat :=
  fold_left (fun a l => a + tags_of q l) (firstn n ls) 0.

(** [lockId] of thread [t] of process [r], mutex.h lines 208-211. *)
Definition lock_word (r t : nat) : nat := r * k_threads k r + t.
(** Rank and tag of the message which process [q] sends to the holder, mutex.h lines 160-164. *)
Definition wake (q : nat) (ls : list level_tags) (n w : nat) : nat * nat :=
  (w / k_threads k q, tag_offset q ls n + w mod k_threads k q).
(** The tag for which thread [t] of process [r] waits, mutex.h lines 198-199. *)
Definition wait_tag (r : nat) (ls : list level_tags) (n t : nat) : nat := tag_offset r ls n + t.

End Ranks.
