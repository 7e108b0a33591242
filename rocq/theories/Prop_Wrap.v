(** * C55: size arithmetic does not overflow

    Full statement: as long as the total number of bytes of the grid (padded to
    whole blocks) fits in 64 bits, none of the block, slot and byte offset
    computations of a read wraps around.  Refuted, also for sizes far below the
    bound where 32-bit operations are involved; proved under stronger bounds. *)
From Coq Require Import ZArith.
From Verif Require Import WrapModel WrapFacts BlockedModel.
Local Open Scope Z_scope.

Theorem C55_rounding_refuted :
  exists size, size * 1 < 2 ^ 64 /\ w_open Wrapping [(-1, size)] = Val (WBlk [size] [0] size 0).
Proof. exact rounding_wraps. Qed.

Theorem C55_local_count_refuted :
  exists tb P D, tb * 1 < 2 ^ 64 /\
    w_local_block_count Wrapping P D tb = Val 0 /\
    w_block_offset Wrapping Contiguous P D tb 5 = DivZero.
Proof. exact local_count_wraps. Qed.

Theorem C55_rank_cache_refuted :
  exists cs D, cs < 2 ^ 32 /\
    w_rank_cache_size Wrapping cs D = Val 0 /\
    forall e, w_decode Wrapping cs D e = DivZero.
Proof. exact rank_cache_wraps. Qed.

Theorem C55_slots_refuted :
  exists cs off dom dom', cs < 2 ^ 32 /\ dom <> dom' /\
    w_slot Wrapping cs dom off = w_slot Wrapping cs dom' off.
Proof. exact slots_collide. Qed.

Theorem C55_count_refuted :
  exists tbs, tbs * 4 < 2 ^ 64 /\
    exists disp, w_mpi_get Wrapping Contiguous 2 1 (WBlk [tbs] [2] tbs 2) 1 = Val (disp, - tbs).
Proof. exact count_wraps. Qed.

(** Opening and reading the own part.  Missing for the full statement: grids
    between [small_grid] and [2^64] bytes. *)
Theorem C55_open_partial : forall sizes user td arr0 bl P D ts,
  blocked_open sizes user td arr0 = Ok bl ->
  small_grid P D (b_total bl) (b_tbs bl) ts ->
  exactly (fun md => w_open md (dims_of user sizes)) (wz bl).
Proof. exact (fun s u t a bl P D ts E G => open_final s u t a bl E RoundRobin P D ts G). Qed.

Theorem C55_storage_partial : forall sizes user td arr0 bl m P D ts,
  blocked_open sizes user td arr0 = Ok bl ->
  small_grid P D (b_total bl) (b_tbs bl) ts ->
  let d := Dist m P D (b_total bl) in
  exactly (fun md => w_full_alloc md #P #D #ts #(b_tbs bl) #(b_total bl))
    #(node_block_count d * (b_tbs bl * ts)) /\
  (forall dom, (dom < D)%nat ->
    exactly (fun md => w_domain_start md #P #D #ts #(b_tbs bl) #(b_total bl) #dom)
      #(dom * local_block_count d * (b_tbs bl * ts))) /\
  (forall r dom k, (r < P)%nat -> (dom < D)%nat -> (k < local_block_count d)%nat ->
    exactly (fun md => w_local2global md m #P #D #(b_total bl) #r #dom #k) #(local2global d r dom k) /\
    exactly (fun md => w_load_addr md #ts #(b_tbs bl) #k) #(k * (b_tbs bl * ts))).
Proof. exact (fun s u t a bl m P D ts E G => storage_final s u t a bl E m P D ts G). Qed.

Theorem C55_full_read_partial : forall sizes user td arr0 bl m P D ts ix,
  blocked_open sizes user td arr0 = Ok bl ->
  small_grid P D (b_total bl) (b_tbs bl) ts ->
  in_box sizes ix ->
  let d := Dist m P D (b_total bl) in
  exactly (fun md => w_block_loop md 0 (w_blocks (wz bl)) (w_bs (wz bl)) (Zs ix)) #(block_by_coords bl ix) /\
  exactly (fun md => w_full_addr md m #P #D #ts (wz bl) (Zs ix))
    #((block_offset d (block_by_coords bl ix) * b_tbs bl + calc_offset_in_block bl ix) * ts).
Proof. exact (fun s u t a bl m P D ts ix E G H => full_final s u t a bl E m P D ts G ix H). Qed.

(** Reading from another domain or rank.  Missing: as above, and blocks of
    [2^31] values or more with MPI. *)
Theorem C55_remote_read_partial : forall sizes user td arr0 bl m P D ts id,
  blocked_open sizes user td arr0 = Ok bl ->
  small_grid P D (b_total bl) (b_tbs bl) ts ->
  (id < b_total bl)%nat ->
  let d := Dist m P D (b_total bl) in
  exactly (fun md => w_block_rank md m #P #D #(b_total bl) #id) #(block_rank d id) /\
  exactly (fun md => w_block_domain md m #P #D #(b_total bl) #id) #(block_domain d id) /\
  exactly (fun md => w_block_node_offset md m #P #D #(b_total bl) #id) #(block_node_offset d id) /\
  exactly (fun md => w_numa_addr md m #P #D #ts (wz bl) #id) #(block_node_offset d id * (b_tbs bl * ts)) /\
  (#(b_tbs bl) < 2 ^ 31 ->
   exactly (fun md => w_mpi_get md m #P #D (wz bl) #id) (#(block_node_offset d id * b_tbs bl), #(b_tbs bl))).
Proof. exact (fun s u t a bl m P D ts id E G H => remote_final s u t a bl E m P D ts G id H). Qed.

(** Caches and their dictionaries.  Missing: [2^32] and more slots per rank. *)
Theorem C55_dict_partial : forall sizes user td arr0 bl m P D ts tde,
  blocked_open sizes user td arr0 = Ok bl ->
  small_grid P D (b_total bl) (b_tbs bl) ts ->
  let d := Dist m P D (b_total bl) in
  #(8 * (node_block_count d * tde)) < 2 ^ 64 ->
  exactly (fun md => w_dict_bytes md #P #D #(b_total bl) #tde) #(8 * (node_block_count d * tde)) /\
  forall id k, (id < b_total bl)%nat -> (k < tde)%nat ->
    exactly (fun md => w_dict_index md #tde #(block_node_offset d id) #k)
      #(block_node_offset d id * tde + k) /\
    (block_node_offset d id * tde + k < node_block_count d * tde)%nat.
Proof. exact (fun s u t a bl m P D ts tde E G => dict_final s u t a bl E m P D ts G tde). Qed.

Theorem C55_cache_read_partial : forall P D cs tbs ts r dom off v,
  cache_fits P D cs tbs ts -> (0 < ts)%nat ->
  (r < P)%nat -> (dom < D)%nat -> (off < cs)%nat -> (v < tbs)%nat ->
  let slot := (off + cs * dom)%nat in
  let entry := (r * (cs * D) + slot)%nat in
  exactly (fun md => w_slot md #cs #dom #off) #slot /\
  exactly (fun md => w_entry md #cs #D #r #slot) #entry /\
  exactly (fun md => w_decode md #cs #D #entry) (#r, #slot) /\
  exactly (fun md => w_cache_addr md #cs #ts #tbs #dom #off #v) #(slot * (tbs * ts) + ts * v) /\
  exactly (fun md => w_slot_addr md #ts #tbs #slot) #(slot * (tbs * ts)).
Proof. exact cache_final. Qed.

Theorem C55_message_partial : forall P D cs tbs ts dom off n o,
  cache_fits P D cs tbs ts -> (dom < D)%nat -> (off < cs)%nat -> (o < n)%nat ->
  #(n * (cs * D)) < 2 ^ 64 ->
  let slot := (off + cs * dom)%nat in
  exactly (fun md => w_message md #cs #D #o #slot) #(o * (cs * D) + slot) /\
  exactly (fun md => w_unpack md #cs #D #(o * (cs * D) + slot)) (#o, #slot).
Proof. exact message_final. Qed.

(** A grid with 35 blocks on three ranks with two domains meets the
    hypotheses. *)
Example C55_used :
  exists bl, blocked_open [20; 30]%nat (fun _ => 5) (-1) (fun _ => 0%nat) = Ok bl /\
    small_grid 3 2 (b_total bl) (b_tbs bl) 8 /\
    cache_fits 3 2 10 (b_tbs bl) 8 /\
    in_box [20; 30]%nat [19; 29]%nat /\
    w_full_addr Wrapping RoundRobin 3 2 8 (wz bl) [19; 29] = Val 792.
Proof.
  eexists. split; [vm_compute; reflexivity|]. repeat split; try (vm_compute; reflexivity);
    try (vm_compute; discriminate); cbn; repeat constructor.
Qed.

Print Assumptions C55_open_partial.
Print Assumptions C55_storage_partial.
Print Assumptions C55_full_read_partial.
Print Assumptions C55_remote_read_partial.
Print Assumptions C55_dict_partial.
Print Assumptions C55_cache_read_partial.
Print Assumptions C55_message_partial.
Print Assumptions C55_count_refuted.
Print Assumptions C55_rounding_refuted.
Print Assumptions C55_local_count_refuted.
Print Assumptions C55_rank_cache_refuted.
Print Assumptions C55_slots_refuted.
