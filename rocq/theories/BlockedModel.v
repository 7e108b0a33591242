(** * Block decomposition and distribution: grid/level/blocked.h *)
From Verif Require Export Base.

(** The members of [Blocked] set by [open] (grid/level/blocked.h lines 52-66).
    All lists are in file (C) order.  Unbounded naturals instead of
    [size_t]/[unsigned long] (see C55 for the wrap-around question). *)
Record blocked := Blocked {
  b_size : list nat;        (* Level::m_size, set by Level::open *)
  b_bs : list nat;          (* m_blockSize *)
  b_blocks : list nat;      (* m_blocks *)
  b_tbs : nat;              (* m_totalBlockSize *)
  b_total : nat             (* m_totalBlocks *)
}.

(** Body of the loop of [Blocked::open], grid/level/blocked.h lines 113-142, for
    one dimension with extent [size] and user request [req] (an [int]): the
    block size.  ([m_blockSize[i]] is overwritten in all three branches.) *)
Definition loop_block_size (req : Z) (size : nat) : nat :=
  let bs := if (req =? 0)%Z then 64
            else if (req <? 0)%Z then size
            else Z.to_nat req in
  if size <? bs then size else bs.

(** The loop itself.  [arr] is the member array [m_blockSize] (its content
    before the loop is whatever was there), [i] the loop variable, [sizes] the
    extents still to be visited, [reqs i] is [blockSize[dimensions()-i-1]].
    Division by a block size of zero (extent zero) is undefined behaviour. *)
Fixpoint open_loop (reqs : nat -> Z) (i : nat) (sizes : list nat)
    (arr : nat -> nat) (blocks : list nat) (tbs tb : nat)
  : outcome ((nat -> nat) * list nat * nat * nat) :=
  match sizes with
  | [] => Ok (arr, blocks, tbs, tb)
  | size :: sizes' =>
      let arr := upd arr i (loop_block_size (reqs i) size) in
      let bs := arr i in
      if bs =? 0 then Ub
      else
        let n := (size + bs - 1) / bs in
        open_loop reqs (S i) sizes' arr (blocks ++ [n]) (tbs * bs) (tb * n)
  end.

(** [Blocked::open] after a successful [Level::open], grid/level/blocked.h
    lines 89-145.  [user] is the array of block size parameters in user
    (Fortran) order, [td] the time dimension, [arr0] the uninitialised content
    of [m_blockSize]. *)
Definition blocked_open (sizes : list nat) (user : nat -> Z) (td : Z)
    (arr0 : nat -> nat) : outcome blocked :=
  let dims := length sizes in
  let td := if (Z.of_nat dims <=? td)%Z then (-1)%Z else td in
  let arr1 :=
    if ((0 <=? td)%Z && (user (Z.to_nat td) =? 0)%Z)%bool
    then upd arr0 (dims - Z.to_nat td - 1) 1
    else arr0 in
  do r <- open_loop (fun i => user (dims - i - 1)) 0 sizes arr1 [] 1 1;
  let '(arr, blocks, tbs, tb) := r in
  Ok (Blocked sizes (map arr (seq 0 dims)) blocks tbs tb).

(** [calcBlockPosition], grid/level/blocked.h lines 202-208.  The loop runs from
    the last dimension to the first one, hence the recursion works on the tail
    first; the second component is the remaining value of [block]. *)
Fixpoint cbp (blocks : list nat) (block : nat) : list nat * nat :=
  match blocks with
  | [] => ([], block)
  | n :: blocks' =>
      let '(pos, rest) := cbp blocks' block in
      (rest mod n :: pos, rest / n)
  end.
Definition calc_block_position (bl : blocked) (block : nat) : list nat :=
  fst (cbp (b_blocks bl) block).

(** [blockByCoords], grid/level/blocked.h lines 213-223. *)
Fixpoint block_loop (id : nat) (blocks bs index : list nat) : nat :=
  match blocks, bs, index with
  | n :: blocks', s :: bs', i :: index' =>
      block_loop (id * n + i / s) blocks' bs' index'
  | _, _, _ => id
  end.
Definition block_by_coords (bl : blocked) (index : list nat) : nat :=
  block_loop 0 (b_blocks bl) (b_bs bl) index.

(** [calcOffsetInBlock], grid/level/blocked.h lines 298-309. *)
Fixpoint offset_loop (off : nat) (bs index : list nat) : nat :=
  match bs, index with
  | s :: bs', i :: index' => offset_loop (off * s + i mod s) bs' index'
  | _, _ => off
  end.
Definition calc_offset_in_block (bl : blocked) (index : list nat) : nat :=
  offset_loop 0 (b_bs bl) index.

(** ** Distribution over [P] ranks and [D] NUMA domains *)

(** The compile time switch [ROUND_ROBIN]. *)
Inductive dist_mode := RoundRobin | Contiguous.

Record dist := Dist {
  d_mode : dist_mode;
  d_ranks : nat;          (* comm().size() *)
  d_domains : nat;        (* numa().totalDomains() *)
  d_total : nat           (* totalBlockCount() *)
}.

(** [localBlockCount], lines 190-194. *)
Definition local_block_count (d : dist) : nat :=
  let cores := d_domains d * d_ranks d in
  (d_total d + cores - 1) / cores.

(** [nodeBlockCount], lines 182-185. *)
Definition node_block_count (d : dist) : nat := local_block_count d * d_domains d.

(** [blockRank], lines 229-236. *)
Definition block_rank (d : dist) (id : nat) : nat :=
  match d_mode d with
  | RoundRobin => id mod d_ranks d
  | Contiguous => id / node_block_count d
  end.

(** [blockDomain], lines 242-249. *)
Definition block_domain (d : dist) (id : nat) : nat :=
  match d_mode d with
  | RoundRobin => (id / d_ranks d) mod d_domains d
  | Contiguous => (id / local_block_count d) mod d_domains d
  end.

(** [blockOffset], lines 255-262. *)
Definition block_offset (d : dist) (id : nat) : nat :=
  match d_mode d with
  | RoundRobin => id / d_ranks d / d_domains d
  | Contiguous => id mod local_block_count d
  end.

(** [blockNodeOffset], lines 268-271. *)
Definition block_node_offset (d : dist) (id : nat) : nat :=
  block_offset d id + block_domain d id * local_block_count d.

(** [local2global] on rank [r] and domain [dom], lines 279-290. *)
Definition local2global (d : dist) (r dom id : nat) : nat :=
  match d_mode d with
  | RoundRobin => (id * d_domains d + dom) * d_ranks d + r
  | Contiguous => id + (dom + r * d_domains d) * local_block_count d
  end.
