(** * C01, C02, C25, C26, C27: blocks and their distribution *)
From Verif Require Import BlockedFacts.

(** C01.  For every positive extents, requests, time dimension and previous
    content of the block size array, opening succeeds; each cell gets a block
    number and an offset in range; the block number leads back to the corner
    of the block containing the cell; no two cells share (block, offset); two
    cells are in the same block iff they have the same corner; every block
    number below the number of blocks is used. *)
Theorem C01_block_partition :
  forall (sizes : list nat) (user : nat -> Z) (td : Z) (arr0 : nat -> nat),
  Forall (fun s => 0 < s) sizes ->
  exists bl, blocked_open sizes user td arr0 = Ok bl /\
    (forall ix, in_box sizes ix ->
       block_by_coords bl ix < b_total bl /\
       calc_offset_in_block bl ix < b_tbs bl /\
       ix_mul (calc_block_position bl (block_by_coords bl ix)) (b_bs bl) = corner_of (b_bs bl) ix) /\
    (forall ix jx, in_box sizes ix -> in_box sizes jx ->
       block_by_coords bl ix = block_by_coords bl jx ->
       calc_offset_in_block bl ix = calc_offset_in_block bl jx -> ix = jx) /\
    (forall ix jx, in_box sizes ix -> in_box sizes jx ->
       (block_by_coords bl ix = block_by_coords bl jx <->
        corner_of (b_bs bl) ix = corner_of (b_bs bl) jx)) /\
    (forall b, b < b_total bl -> exists ix, in_box sizes ix /\ block_by_coords bl ix = b) /\
    b_tbs bl = volume (b_bs bl) /\
    b_total bl = volume (map2 (fun s b => (s + b - 1) / b) sizes (b_bs bl)).
Proof. exact partition_spec. Qed.
Print Assumptions C01_block_partition.

Example C01_example :
  let user := fun n => nth n [2; -1; 3]%Z 0%Z in
  match blocked_open [5; 3; 7] user (-1) (fun _ => 0) with
  | Ok bl => b_bs bl = [3; 3; 2] /\ b_blocks bl = [2; 1; 4] /\ b_total bl = 8 /\
             block_by_coords bl [4; 2; 5] = 6 /\ calc_offset_in_block bl [4; 2; 5] = 11
  | Ub => False
  end.
Proof. vm_compute. repeat split. Qed.

(** C02.  Both modes are covered because [d] is arbitrary. *)
Theorem C02_one_home :
  forall d : dist, 0 < d_ranks d -> 0 < d_domains d ->
  (forall b, b < d_total d ->
     block_rank d b < d_ranks d /\ block_domain d b < d_domains d /\
     block_offset d b < local_block_count d /\
     (forall r dom k, r < d_ranks d -> dom < d_domains d -> k < local_block_count d ->
        (local2global d r dom k = b <->
         r = block_rank d b /\ dom = block_domain d b /\ k = block_offset d b)) /\
     block_node_offset d b < local_block_count d * d_domains d) /\
  (forall b b', b < d_total d -> b' < d_total d -> block_rank d b = block_rank d b' ->
     block_node_offset d b = block_node_offset d b' -> b = b') /\
  (forall r dom k k', k <= k' -> local2global d r dom k' < d_total d -> local2global d r dom k < d_total d).
Proof. exact one_home. Qed.
Print Assumptions C02_one_home.

Example C02_example :
  map (fun b => (block_rank (Dist RoundRobin 2 3 8) b, block_domain (Dist RoundRobin 2 3 8) b,
                 block_offset (Dist RoundRobin 2 3 8) b)) [0; 5; 7] = [(0,0,0); (1,2,0); (1,0,1)] /\
  map (fun b => (block_rank (Dist Contiguous 2 3 8) b, block_domain (Dist Contiguous 2 3 8) b,
                 block_offset (Dist Contiguous 2 3 8) b)) [0; 5; 7] = [(0,0,0); (0,2,1); (1,0,1)].
Proof. vm_compute. auto. Qed.

(** C25. *)
Theorem C25_block_sizes :
  forall sizes user td arr0 bl,
  blocked_open sizes user td arr0 = Ok bl ->
  length (b_bs bl) = length sizes /\
  forall i s, nth_error sizes i = Some s ->
    nth_error (b_bs bl) i = Some (documented_block_size (user (length sizes - i - 1)) s) /\
    1 <= documented_block_size (user (length sizes - i - 1)) s.
Proof. exact block_sizes_spec. Qed.
Print Assumptions C25_block_sizes.

Example C25_example :
  match blocked_open [100; 100; 10] (fun n => nth n [20; -1; 0]%Z 0%Z) (-1) (fun _ => 0) with
  | Ok bl => b_bs bl = [64; 100; 10]
  | Ub => False
  end.
Proof. vm_compute. reflexivity. Qed.

(** C26 is false: the time dimension is blocked like any other dimension, so
    with more than one time step a block never holds exactly one. *)
Theorem C26_time_block_refuted :
  exists sizes user td arr0 bl,
    td < length sizes /\ user td = 0%Z /\
    blocked_open sizes user (Z.of_nat td) arr0 = Ok bl /\
    nth_error (b_bs bl) (length sizes - td - 1) <> Some 1.
Proof. exact time_block_refuted. Qed.
Print Assumptions C26_time_block_refuted.

(** What holds instead for every grid. *)
Theorem C26_time_block_partial :
  forall sizes user td arr0 bl n s,
  blocked_open sizes user (Z.of_nat td) arr0 = Ok bl ->
  td < length sizes -> user td = 0%Z -> n = length sizes - td - 1 -> nth_error sizes n = Some s ->
  nth_error (b_bs bl) n = Some (Nat.min 64 s).
Proof. exact time_block_spec. Qed.
Print Assumptions C26_time_block_partial.

(** C27 is false: every zero-length dimension makes [open] divide by zero, and
    loading a scalar variable writes before the start of an array. *)
Theorem C27_degenerate_refuted :
  (exists sizes user td arr0, blocked_open sizes user td arr0 = Ub) /\
  (exists (f : file nat) m, f_size f = [] /\ 0 < m_len m /\ get_block false f [] [] 0 m = Ub).
Proof. exact degenerate_refuted. Qed.
Print Assumptions C27_degenerate_refuted.

(** Exactly the files with a zero-length dimension fail in the decomposition. *)
Theorem C27_degenerate_partial :
  forall sizes user td arr0,
  (blocked_open sizes user td arr0 = Ub <-> In 0 sizes).
Proof. exact degenerate_partial. Qed.
Print Assumptions C27_degenerate_partial.
