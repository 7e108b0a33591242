(** * Where a block comes from: [CacheDist::getAt] for one reader at a time

    grid/level/cachedist.h lines 136-214 with the transfers of
    transfer/numacache.h, transfer/mpiwincache.h and transfer/mpithreadcache.h.
    Simplifications: a read ends before the next one starts (on whatever process),
    all messages to communication threads are then delivered; only the bookkeeping
    and the source of the block are followed, not the data (for the data and the
    interleavings see ConcModel).  [MPINo] and [NumaNo] are included. *)
From Verif Require Export CacheModel DictModel.

(** The class [MPITrans] of the level: mpino.h, mpiwincache.h, mpithreadcache.h. *)
Inductive transport := TNo | TWin | TThread.

(** A grid: processes, domains per process, slots per domain; [fc_numa]: the class
    [NumaTrans] is [NumaCache] instead of [NumaNo]. *)
Record fcfg := FCfg {
  fc_tr : transport;
  fc_numa : bool;
  fc_ranks : nat;
  fc_doms : nat;
  fc_size : nat
}.

(** The lists of the cache managers (rank, domain) and the dictionary (block);
    on which process an entry is kept makes no difference here. *)
Record fstate := FState { fs_list : nat -> nat -> clist; fs_dict : nat -> dentry }.

(** Where the reader found the block: in the own cache, in the cache of another
    domain of the process, in the cache of a process (offset in its cache
    memory), in the file. *)
Inductive source := SHit | SNuma (dom : nat) | SMpi (rank off : nat) | SFile.

Definition fset_list (s : fstate) (r d : nat) (l : clist) : fstate :=
  FState (fun r' d' => if ((r' =? r) && (d' =? d))%bool then l else fs_list s r' d') (fs_dict s).
Definition fset_dict (s : fstate) (b : nat) (e : dentry) : fstate :=
  FState (fs_list s) (upd (fs_dict s) b e).

Section Fetch.
Context (c : fcfg).
Local Notation n := (fc_size c).
Local Notation D := (fc_doms c).

(** [rank * rankCacheSize() + offset], mpiwincache.h lines 320, 547,
    mpithreadcache.h lines 631, 645. *)
Definition floc (r off : nat) : nat := r * (n * D) + off.

(** [deleteBlock]: mpiwincache.h lines 474-571, mpithreadcache.h lines 588-603 and
    641-646.  Called only for a valid old block (mpiwincache.h line 468, mpithreadcache.h line 591). *)
Definition fdelete (s : fstate) (r off ob : nat) : outcome fstate :=
  match fc_tr c with
  | TNo => Ok s
  | _ => do e <- delete_block_info (fs_dict s ob) (floc r off); Ok (fset_dict s ob e)
  end.

(** [NumaCache::transfer], numacache.h lines 114-131: the loop over the domains
    [k], ..., [k + m - 1]; nobody else holds a mutex, so [tryGet] fails only if
    the block is not there. *)
Fixpoint fnuma (s : fstate) (r d b k m : nat) : option nat :=
  match m with
  | 0 => None
  | S m' =>
      if k =? d then fnuma s r d b (S k) m'
      else match clist_peek (fs_list s r k) b with
           | Some _ => Some k
           | None => fnuma s r d b (S k) m'
           end
  end.

(** [addBlock]: mpiwincache.h lines 450-455, mpithreadcache.h lines 564-577 and
    627-632. *)
Definition fadd (s : fstate) (r off b rnd : nat) : outcome fstate :=
  match fc_tr c with
  | TNo => Ok s
  | TWin => do xe <- fetch_and_update (fs_dict s b) rnd (floc r off); Ok (fset_dict s b (snd xe))
  | TThread => do e <- update_block_info (fs_dict s b) (floc r off); Ok (fset_dict s b e)
  end.

(** [BlockTransferer::recv] on rank [q], mpithreadcache.h lines 134-184: the loop
    over the domains [k], ..., [k + m - 1].  The slot the block of the reader
    [(r, d)] is going to is listed already, but its mutex is taken. *)
Fixpoint fserve (s : fstate) (q r d b k m : nat) : option nat :=
  match m with
  | 0 => None
  | S m' =>
      match clist_peek (fs_list s q k) b with
      | Some j => if ((q =? r) && (k =? d))%bool then fserve s q r d b (S k) m' else Some (j + n * k)
      | None => fserve s q r d b (S k) m'
      end
  end.

(** The loop in cachedist.h lines 177-191 with the communication thread:
    [startTransfer] and [transfer], mpithreadcache.h lines 458-541; [rnds]: what
    [rand()] returns.  Running out of them is [Ub]. *)
Fixpoint fask (s : fstate) (r d b : nat) (rnds : list nat) : outcome (option (nat * nat)) :=
  match rnds with
  | [] => Ub
  | x :: rnds' =>
      do ec <- fetch_block_info (fs_dict s b) x;
      match fst ec with
      | None => Ok None
      | Some e =>
          match fserve s (e / (n * D)) r d b 0 D with
          | Some off => Ok (Some (e / (n * D), off))
          | None => fask s r d b rnds'
          end
      end
  end.

(** The same loop for all transports, lines 177-191: with windows, [startTransfer]
    (mpiwincache.h lines 246-343) records the new location and [transfer] (lines
    355-402) copies from the location it got. *)
Definition fstart (s : fstate) (r d off b : nat) (rnds : list nat)
  : outcome (fstate * option (nat * nat)) :=
  match fc_tr c with
  | TNo => Ok (s, None)
  | TWin =>
      do xe <- fetch_and_update (fs_dict s b) (hd 0 rnds) (floc r off);
      Ok (fset_dict s b (snd xe),
          match fst xe with Some e => Some (e / (n * D), e mod (n * D)) | None => None end)
  | TThread => do x <- fask s r d b rnds; Ok (s, x)
  end.

(** [endTransfer], lines 197-200: mpithreadcache.h lines 548-552; with windows only
    the lock is given back. *)
Definition fend (s : fstate) (r off b : nat) : outcome fstate :=
  match fc_tr c with
  | TThread => do e <- update_block_info (fs_dict s b) (floc r off); Ok (fset_dict s b e)
  | _ => Ok s
  end.

(** A request: rank, domain, block, results of [rand()]. *)
Definition freq := (nat * nat * nat * list nat)%type.

(** [CacheDist::getAt], lines 149-203. *)
Definition fread (s : fstate) (q : freq) : outcome (fstate * source) :=
  let '(r, d, b, rnds) := q in
  do lio <- clist_request (fs_list s r d) b;
  let '(l, i, old) := lio in
  let s := fset_list s r d l in
  let off := i + n * d in
  let fill :=
    do s <- match old with Some ob => fdelete s r off ob | None => Ok s end;
    match (if fc_numa c then fnuma s r d b 0 D else None) with
    | Some k => do s <- fadd s r off b (hd 0 rnds); Ok (s, SNuma k)
    | None =>
        do sx <- fstart s r d off b rnds;
        do s <- fend (fst sx) r off b;
        Ok (s, match snd sx with Some (q, o) => SMpi q o | None => SFile end)
    end in
  match old with
  | Some ob => if ob =? b then Ok (s, SHit) else fill
  | None => fill
  end.

Fixpoint frun (s : fstate) (qs : list freq) : outcome (fstate * list source) :=
  match qs with
  | [] => Ok (s, [])
  | q :: qs' =>
      do x <- fread s q;
      do y <- frun (fst x) qs';
      Ok (fst y, snd x :: snd y)
  end.

(** After [open] on all processes: [Cache::open] (cache.h lines 83-105) and
    [MPICache::init] (mpicache.h lines 93-127). *)
Definition finit (spread : Z) : outcome fstate :=
  do l <- clist_init n spread;
  Ok (FState (fun _ _ => l) (fun _ => dict_init)).
End Fetch.
