(** * Machine arithmetic of the block, slot and byte offset computations

    The other model files compute with unbounded naturals.  Here the same
    functions are written again, operation by operation, on [Z] with the width
    of the C++ type in which each operation is carried out (LP64: [unsigned
    long], [size_t] and [long] have 64 bits, [int] and [unsigned int] 32). *)
From Coq Require Import ZArith Bool.
From Verif Require Export BlockedModel.
Local Open Scope Z_scope.

(** Outcome of a machine computation. *)
Inductive res (A : Type) :=
| Val (a : A)
| Wrapped            (* only in the checking mode: a result did not fit *)
| DivZero.           (* integer division by zero: undefined behaviour *)
Arguments Val {A} a.
Arguments Wrapped {A}.
Arguments DivZero {A}.

Definition rbind {A B} (x : res A) (f : A -> res B) : res B :=
  match x with Val a => f a | Wrapped => Wrapped | DivZero => DivZero end.
Notation "'let!' x ':=' e 'in' k" := (rbind e (fun x => k))
  (at level 200, x name, e at level 100, k at level 200).

(** [Wrapping] is what the hardware does; [Checking] reports the first
    operation whose exact result does not fit into its type. *)
Inductive wmode := Wrapping | Checking.

Section Machine.
Variable md : wmode.

(** An operation with exact result [x] carried out modulo [m]. *)
Definition fit (m x : Z) : res Z :=
  match md with
  | Wrapping => Val (x mod m)
  | Checking => if (0 <=? x) && (x <? m) then Val x else Wrapped
  end.
Definition u64 (x : Z) : res Z := fit (2 ^ 64) x.
Definition u32 (x : Z) : res Z := fit (2 ^ 32) x.

(** Conversion to a signed type of [2 * h] values ([h = 2^31] for [int] and
    [h = 2^63] for [long]/[MPI_Aint]), two's complement. *)
Definition sfit (h x : Z) : res Z :=
  match md with
  | Wrapping => Val ((x + h) mod (2 * h) - h)
  | Checking => if (- h <=? x) && (x <? h) then Val x else Wrapped
  end.
Definition i32 (x : Z) : res Z := sfit (2 ^ 31) x.
Definition i64 (x : Z) : res Z := sfit (2 ^ 63) x.

Definition udiv (a b : Z) : res Z := if b =? 0 then DivZero else Val (a / b).
Definition umod (a b : Z) : res Z := if b =? 0 then DivZero else Val (a mod b).

(** ** grid/level/blocked.h *)

(** The block size of one dimension, lines 114-129 (as [loop_block_size]). *)
Definition w_block_size (req size : Z) : Z :=
  let bs := if req =? 0 then 64 else if req <? 0 then size else req in
  if size <? bs then size else bs.

Record wblk := WBlk {
  w_bs : list Z; w_blocks : list Z; w_tbs : Z; w_tb : Z
}.

(** The loop of [Blocked::open], lines 110-142.  [dims] holds, in file order,
    the block size request and the extent of each dimension. *)
Fixpoint w_open_loop (dims : list (Z * Z)) (b : wblk) : res wblk :=
  match dims with
  | [] => Val b
  | (req, size) :: dims' =>
      let bs := w_block_size req size in
      let! tbs := u64 (w_tbs b * bs) in
      let! s1 := u64 (size + bs) in
      let! s2 := u64 (s1 - 1) in
      let! n := udiv s2 bs in
      let! tb := u64 (w_tb b * n) in
      w_open_loop dims' (WBlk (w_bs b ++ [bs]) (w_blocks b ++ [n]) tbs tb)
  end.
Definition w_open (dims : list (Z * Z)) : res wblk :=
  w_open_loop dims (WBlk [] [] 1 1).

(** [localBlockCount], lines 190-194.  [totalDomains()] is an [unsigned int] and
    [comm().size()] an [int], so that the product is computed with 32 bits. *)
Definition w_local_block_count (P D tb : Z) : res Z :=
  let! cores := u32 (D * P) in
  let! s1 := u64 (tb + cores) in
  let! s2 := u64 (s1 - 1) in
  udiv s2 cores.

(** [nodeBlockCount], lines 182-185. *)
Definition w_node_block_count (P D tb : Z) : res Z :=
  let! l := w_local_block_count P D tb in u64 (l * D).

(** [calcBlockPosition], lines 202-208, from the last dimension to the first. *)
Fixpoint w_cbp (blocks : list Z) (block : Z) : res (list Z * Z) :=
  match blocks with
  | [] => Val ([], block)
  | n :: blocks' =>
      let! r := w_cbp blocks' block in
      let! q := umod (snd r) n in
      let! d := udiv (snd r) n in
      Val (q :: fst r, d)
  end.

(** [blockByCoords], lines 213-223. *)
Fixpoint w_block_loop (id : Z) (blocks bs index : list Z) : res Z :=
  match blocks, bs, index with
  | n :: blocks', s :: bs', i :: index' =>
      let! a := u64 (id * n) in
      let! q := udiv i s in
      let! id' := u64 (a + q) in
      w_block_loop id' blocks' bs' index'
  | _, _, _ => Val id
  end.

(** [calcOffsetInBlock], lines 298-309. *)
Fixpoint w_offset_loop (off : Z) (bs index : list Z) : res Z :=
  match bs, index with
  | s :: bs', i :: index' =>
      let! a := u64 (off * s) in
      let! q := umod i s in
      let! off' := u64 (a + q) in
      w_offset_loop off' bs' index'
  | _, _ => Val off
  end.

(** [blockRank], lines 229-236; the result is converted to [int]. *)
Definition w_block_rank (m : dist_mode) (P D tb id : Z) : res Z :=
  match m with
  | RoundRobin => let! q := umod id P in i32 q
  | Contiguous =>
      let! n := w_node_block_count P D tb in
      let! q := udiv id n in i32 q
  end.

(** [blockDomain], lines 242-249; the result is converted to [unsigned int]. *)
Definition w_block_domain (m : dist_mode) (P D tb id : Z) : res Z :=
  match m with
  | RoundRobin => let! q := udiv id P in let! r := umod q D in u32 r
  | Contiguous =>
      let! l := w_local_block_count P D tb in
      let! q := udiv id l in let! r := umod q D in u32 r
  end.

(** [blockOffset], lines 255-262. *)
Definition w_block_offset (m : dist_mode) (P D tb id : Z) : res Z :=
  match m with
  | RoundRobin => let! q := udiv id P in udiv q D
  | Contiguous => let! l := w_local_block_count P D tb in umod id l
  end.

(** [blockNodeOffset], lines 268-271. *)
Definition w_block_node_offset (m : dist_mode) (P D tb id : Z) : res Z :=
  let! o := w_block_offset m P D tb id in
  let! d := w_block_domain m P D tb id in
  let! l := w_local_block_count P D tb in
  let! p := u64 (d * l) in
  u64 (o + p).

(** [local2global], lines 279-290.  In the contiguous mode the number of the
    domain in the whole program is computed with 32 bits. *)
Definition w_local2global (m : dist_mode) (P D tb r dom id : Z) : res Z :=
  match m with
  | RoundRobin =>
      let! a := u64 (id * D) in
      let! b := u64 (a + dom) in
      let! c := u64 (b * P) in
      u64 (c + r)
  | Contiguous =>
      let! a := u32 (r * D) in
      let! b := u32 (dom + a) in
      let! l := w_local_block_count P D tb in
      let! c := u64 (b * l) in
      u64 (id + c)
  end.

(** ** Static storage *)

(** [this->typeSize() * this->totalBlockSize()] *)
Definition w_block_bytes (ts tbs : Z) : res Z := u64 (ts * tbs).

(** Size of the allocation of [Full::open] (grid/level/full.h lines 101-103)
    times the number of domains (numa/numacomm.h line 136). *)
Definition w_full_alloc (P D ts tbs tb : Z) : res Z :=
  let! bb := w_block_bytes ts tbs in
  let! l := w_local_block_count P D tb in
  let! a := u64 (bb * l) in
  u64 (a * D).

(** Start of the storage of domain [dom], numa/numacomm.h line 147. *)
Definition w_domain_start (P D ts tbs tb dom : Z) : res Z :=
  let! bb := w_block_bytes ts tbs in
  let! l := w_local_block_count P D tb in
  let! a := u64 (bb * l) in
  u64 (a * dom).

(** Where [Full::open] puts its [i]-th block, grid/level/full.h line 124. *)
Definition w_load_addr (ts tbs i : Z) : res Z :=
  let! bb := w_block_bytes ts tbs in u64 (bb * i).

(** The address of the value in [Full::getAt], grid/level/full.h lines 159-161,
    relative to the storage of the domain. *)
Definition w_full_addr (m : dist_mode) (P D ts : Z) (b : wblk) (index : list Z)
  : res Z :=
  let! id := w_block_loop 0 (w_blocks b) (w_bs b) index in
  let! lb := w_block_offset m P D (w_tb b) id in
  let! off := w_offset_loop 0 (w_bs b) index in
  let! x := u64 (lb * w_tbs b) in
  let! y := u64 (x + off) in
  u64 (ts * y).

(** [NumaFull::transfer], transfer/numafull.h line 115, relative to the storage
    of the node. *)
Definition w_numa_addr (m : dist_mode) (P D ts : Z) (b : wblk) (id : Z) : res Z :=
  let! l := w_local_block_count P D (w_tb b) in
  let! dom := w_block_domain m P D (w_tb b) id in
  let! off := w_block_offset m P D (w_tb b) id in
  let! bb := u64 (w_tbs b * ts) in
  let! x := u64 (l * dom) in
  let! y := u64 (x + off) in
  u64 (y * bb).

(** The displacement and the element count given to [MPI_Get] by
    [MPIWinFull::transfer], transfer/mpiwinfull.h lines 179-186: the
    displacement is an [MPI_Aint], the count an [int]. *)
Definition w_mpi_get (m : dist_mode) (P D : Z) (b : wblk) (id : Z) : res (Z * Z) :=
  let! off := w_block_node_offset m P D (w_tb b) id in
  let! d := u64 (off * w_tbs b) in
  let! disp := i64 d in
  let! count := i32 (w_tbs b) in
  Val (disp, count).

(** ** Caches *)

(** The slot number on the node, grid/level/cachedist.h lines 157, 166, 184 and
    200: [m_cacheSize] and [numaDomainId()] are [unsigned int]s. *)
Definition w_slot (cs dom off : Z) : res Z :=
  let! a := u32 (cs * dom) in u64 (off + a).

(** [m_rankCacheSize], transfer/mpicache.h line 101: two [unsigned int]s. *)
Definition w_rank_cache_size (cs D : Z) : res Z := u32 (cs * D).

(** A dictionary entry, transfer/mpiwincache.h lines 320-323 and
    mpithreadcache.h line 631; stored in a [long]. *)
Definition w_entry (cs D r slot : Z) : res Z :=
  let! rcs := w_rank_cache_size cs D in
  let! a := u64 (r * rcs) in
  let! b := u64 (a + slot) in
  i64 b.

(** What [transfer] makes of an entry, transfer/mpiwincache.h lines 363-364. *)
Definition w_decode (cs D e : Z) : res (Z * Z) :=
  let! rcs := w_rank_cache_size cs D in
  let! u := u64 e in
  let! r := udiv u rcs in
  let! rank := i32 r in
  let! off := umod u rcs in
  Val (rank, off).

(** Position of a value inside the cache memory of the node: start of the
    domain (numa/numacomm.h line 147 with the size of grid/level/cache.h
    line 103), block (cache/cachemanager.h line 134), value
    (grid/level/cachedist.h line 210). *)
Definition w_cache_addr (cs ts tbs dom off v : Z) : res Z :=
  let! bb := w_block_bytes ts tbs in
  let! a := u64 (bb * cs) in
  let! s := u64 (a * dom) in
  let! p := u64 (off * bb) in
  let! q := u64 (ts * v) in
  let! x := u64 (s + p) in
  u64 (x + q).

(** Position of a block in the cache memory of the node as computed from a
    dictionary entry, transfer/mpiwincache.h line 371. *)
Definition w_slot_addr (ts tbs off : Z) : res Z :=
  let! a := u64 (off * tbs) in u64 (a * ts).

(** Byte size of the dictionary of a rank, transfer/mpicache.h lines 105-107 and
    mpiwincache.h line 178 ([tde] is [totalDictEntrySize()], 4 or 5). *)
Definition w_dict_bytes (P D tb tde : Z) : res Z :=
  let! l := w_local_block_count P D tb in
  let! a := u64 (l * tde) in
  let! n := u64 (a * D) in
  u64 (8 * n).

(** Index of element [k] of the dictionary entry of a block,
    transfer/mpiwincache.h lines 267-278. *)
Definition w_dict_index (tde dictOffset k : Z) : res Z :=
  let! a := u64 (dictOffset * tde) in u64 (a + k).

(** The message of [addBlock]/[deleteBlock], transfer/mpithreadcache.h lines
    573 and 599, and what [Adder]/[Deleter] make of it (lines 214-215). *)
Definition w_message (cs D dictOffset slot : Z) : res Z :=
  let! rcs := w_rank_cache_size cs D in
  let! a := u64 (dictOffset * rcs) in
  u64 (a + slot).
Definition w_unpack (cs D data : Z) : res (Z * Z) :=
  let! rcs := w_rank_cache_size cs D in
  let! q := udiv data rcs in
  let! r := umod data rcs in
  Val (q, r).

End Machine.
