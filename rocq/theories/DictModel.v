(** * Dictionary of the distributed cache: transfer/mpicache.h *)
From Verif Require Export Base.

(** One dictionary entry: the array [long dictEntry[m_dictEntrySize]] (without the
    lock word).  A negative number is [None]; locations are never negative. *)
Definition dentry := list (option nat).

(** [m_dictEntrySize], line 77. *)
Definition dict_size : nat := 4.

(** [MPICache::init], lines 114-117: everything undefined. *)
Definition dict_init : dentry := repeat None dict_size.

(** [dictEntry[i]] and [dictEntry[i] = x]. *)
Definition dget (d : dentry) (i : nat) : outcome (option nat) :=
  match nth_error d i with Some x => Ok x | None => Ub end.
Fixpoint dset (d : dentry) (i : nat) (x : option nat) : outcome dentry :=
  match d, i with
  | [], _ => Ub
  | _ :: d', 0 => Ok (x :: d')
  | y :: d', S i' => do d'' <- dset d' i' x; Ok (y :: d'')
  end.

(** The loops in lines 158-161 and 252-254: index of the first negative entry
    among [i, .., i + k - 1], or [i + k]. *)
Fixpoint dcount (d : dentry) (i k : nat) : outcome nat :=
  match k with
  | 0 => Ok i
  | S k' =>
      do x <- dget d i;
      match x with
      | None => Ok i
      | Some _ => dcount d (S i) k'
      end
  end.

(** [fetchBlockInfo(dictEntry, count)], lines 250-261; [r] is the result of
    [rand()].  Result: (entry, count). *)
Definition fetch_block_info (d : dentry) (r : nat) : outcome (option nat * nat) :=
  do count <- dcount d 0 dict_size;
  if count =? 0 then Ok (None, count)
  else do x <- dget d (r mod count); Ok (x, count).

(** The loop in lines 274-275, from [i = c - 1] down to 0. *)
Fixpoint shift_up (c : nat) (d : dentry) : outcome dentry :=
  match c with
  | 0 => Ok d
  | S i => do x <- dget d i; do d' <- dset d (S i) x; shift_up i d'
  end.

(** [updateBlockInfo(dictEntry, newEntry, count)], lines 270-279. *)
Definition update_counted (d : dentry) (e count : nat) : outcome dentry :=
  let c := Nat.min count (dict_size - 1) in
  do d' <- shift_up c d;
  dset d' 0 (Some e).

(** [updateBlockInfo(dictEntry, newEntry)], lines 156-164. *)
Definition update_block_info (d : dentry) (e : nat) : outcome dentry :=
  do count <- dcount d 0 dict_size;
  update_counted d e count.

(** [fetchAndUpdateBlockInfo], lines 173-180. *)
Definition fetch_and_update (d : dentry) (r e : nat) : outcome (option nat * dentry) :=
  do xc <- fetch_block_info d r;
  let '(x, count) := xc in
  do d' <- update_counted d e count;
  Ok (x, d').

(** First loop of [deleteBlockInfo], lines 190-194. *)
Fixpoint dfind (d : dentry) (e i k : nat) : outcome nat :=
  match k with
  | 0 => Ok i
  | S k' =>
      do x <- dget d i;
      match x with
      | Some y => if y =? e then Ok i else dfind d e (S i) k'
      | None => dfind d e (S i) k'
      end
  end.

(** Second loop, lines 196-197: [k] iterations starting at [i]. *)
Fixpoint shift_down (i k : nat) (d : dentry) : outcome dentry :=
  match k with
  | 0 => Ok d
  | S k' => do x <- dget d (S i); do d' <- dset d i x; shift_down (S i) k' d'
  end.

(** [deleteBlockInfo], lines 188-200. *)
Definition delete_block_info (d : dentry) (e : nat) : outcome dentry :=
  do i <- dfind d e 0 dict_size;
  do d' <- shift_down i (dict_size - 1 - i) d;
  dset d' (dict_size - 1) None.

(** A history on one dictionary entry. *)
Inductive dop := DAdd (e : nat) | DDel (e : nat) | DFetchAdd (r e : nat).

Definition dstep (d : dentry) (o : dop) : outcome dentry :=
  match o with
  | DAdd e => update_block_info d e
  | DDel e => delete_block_info d e
  | DFetchAdd r e => do xd <- fetch_and_update d r e; Ok (snd xd)
  end.

Fixpoint drun (d : dentry) (os : list dop) : outcome dentry :=
  match os with
  | [] => Ok d
  | o :: os' => do d' <- dstep d o; drun d' os'
  end.

(** ** Encodings *)
Local Open Scope Z_scope.

(** Results of C++ arithmetic on [unsigned int] and [unsigned long]. *)
Definition u32 (x : Z) : Z := x mod 2 ^ 32.
Definition u64 (x : Z) : Z := x mod 2 ^ 64.
(** Conversion of an [unsigned long] to [long] (two's complement). *)
Definition to_long (x : Z) : Z := if x <? 2 ^ 63 then x else x - 2 ^ 64.

(** [m_rankCacheSize = cacheSize * numaComm.totalDomains()], mpicache.h line 101:
    both factors are [unsigned int]. *)
Definition rank_cache_size (cacheSize domains : Z) : Z := u32 (cacheSize * domains).

(** [cacheOffset + m_cacheSize * numaDomainId()], cachedist.h lines 157, 166, 184, 200: the
    product is computed in [unsigned int] (m_cacheSize and the domain id are
    [unsigned int]), the sum in [unsigned long]. *)
Definition node_slot (cacheSize domain slot : Z) : Z := u64 (slot + u32 (cacheSize * domain)).

(** [rank * rankCacheSize() + offset], stored as [long]: mpiwincache.h lines 320,
    323, 547, 550 and mpithreadcache.h lines 631, 645. *)
Definition enc_entry (rcs rank off : Z) : Z := to_long (u64 (rank * rcs + off)).
(** [entry / rankCacheSize()], [entry % rankCacheSize()] for a non-negative entry:
    mpiwincache.h lines 363-364, mpithreadcache.h line 496. *)
Definition dec_entry (rcs e : Z) : Z * Z := (e / rcs, e mod rcs).

(** [data = dictOffset * rankCacheSize() + offset]: mpithreadcache.h lines 573 and
    599; the receiving side (lines 214-215, 247-248) divides again. *)
Definition enc_msg (rcs dictOff off : Z) : Z := u64 (dictOff * rcs + off).
Definition dec_msg (rcs x : Z) : Z * Z := (x / rcs, x mod rcs).

(** [lockId]: [rank * totalThreads() + threadId], mpi/mutex.h line 210: computed in
    [unsigned int], then widened; [wait], lines 162-163, divides again. *)
Definition lock_id (threads rank thread : Z) : Z := u32 (rank * threads + thread).
Definition dec_lock (threads l : Z) : Z * Z := (l / threads, l mod threads).
