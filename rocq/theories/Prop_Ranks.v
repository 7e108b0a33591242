(** * C85: processes with different numbers of NUMA domains and threads *)
From Verif Require Import RanksModel RanksFacts.

(** Distributed full grid: with the same number of domains in all processes every process gets every block. *)
Theorem C85_full_partial : forall k D q b,
  0 < D -> (forall q, q < k_size k -> k_doms k q = D) -> q < k_size k -> b < k_total k ->
  full_read k q b = Block b.
Proof. exact full_all. Qed.

(** Distributed caches, with windows and with the communication thread: with the same number of domains no history
    of reads leaves the dictionary or a cache, gets another block or has to try again. *)
Theorem C85_cache_partial : forall k D thr l,
  0 < k_size k -> 0 < D -> 0 < k_cache k -> (forall q, q < k_size k -> k_doms k q = D) ->
  (forall x, In x l -> i_rank x < k_size k /\ i_dom x < k_doms k (i_rank x) /\ i_slot x < k_cache k /\ i_block x < k_total k) ->
  reads k thr caches_init l = Ok (map (fun x => Block (i_block x)) l).
Proof. exact cache_same. Qed.

(** MPI mutex: with the same number of threads the wake-up for a lock word goes to the process and to the tag of the
    thread which wrote the word, and all threads and levels have different tags. *)
Theorem C85_wake_partial : forall k ls n,
  (forall q r t, k_threads k q = k_threads k r -> t < k_threads k r ->
     wake k q ls n (lock_word k r t) = (r, wait_tag k r ls n t)) /\
  (forall r t n' t', nth_error ls n = Some TWindow -> nth_error ls n' = Some TWindow ->
     t < k_threads k r -> t' < k_threads k r -> wait_tag k r ls n t = wait_tag k r ls n' t' -> n = n' /\ t = t').
Proof. exact (fun k ls n => conj (fun q r t => wake_ok k q r t ls n) (fun r t n' t' => wait_tag_inj k r ls n t n' t')). Qed.

(** Any two processes with different numbers of domains: there is a grid in which one does not get a block of the
    other. *)
Theorem C85_round_robin_refuted : forall k q r,
  q < k_size k -> r < k_size k -> 0 < k_doms k q -> 0 < k_doms k r -> k_doms k q <> k_doms k r ->
  k_mode k = RoundRobin -> k_total k = 2 * k_size k * k_doms k q * k_doms k r ->
  exists b, b < k_total k /\ block_rank (view k q) b = r /\ full_read k q b <> Block b.
Proof. exact round_robin_wrong. Qed.

Theorem C85_contiguous_refuted : forall k q r,
  q < k_size k -> 0 < r < k_size k -> 0 < k_doms k q -> 0 < k_doms k r -> k_doms k q <> k_doms k r ->
  k_mode k = Contiguous -> k_total k = k_size k * k_size k * k_doms k q * k_doms k r + 1 ->
  exists b, b < k_total k /\ block_rank (view k q) b = r /\ full_read k q b <> Block b.
Proof. exact contiguous_wrong. Qed.

(** The location of the first slot of a process (not the first one) is read as another location by every process with
    another number of domains. *)
Theorem C85_location_refuted : forall k q r,
  0 < r -> 0 < slots k q -> 0 < slots k r -> slots k q <> slots k r ->
  (r * slots k r / slots k q, (r * slots k r) mod slots k q) <> (r, 0).
Proof. exact location_wrong. Qed.

(** Three processes, the second with two domains, caches of one block: the first process asks for block 0 and gets
    block 5 (windows); it asks for block 3 and is sent to a process without it again and again (communication
    thread). *)
Definition three : ranks := Ranks RoundRobin 3 12 (fun q => if q =? 1 then 2 else 1) (fun _ => 2) 1.
Theorem C85_cache_refuted :
  reads three false caches_init [Rd 2 0 0 5 0; Rd 1 0 0 0 0; Rd 0 0 0 0 0] = Ok [Block 5; Block 0; Block 5] /\
  reads three true caches_init [Rd 1 1 0 0 0; Rd 0 0 0 3 0] = Ok [Block 0; Retry].
Proof. split; vm_compute; reflexivity. Qed.

(** Different numbers of threads: the wake-up for thread 0 of a process (not the first one) goes somewhere else; from
    the second level on nobody waits for the tag. *)
Theorem C85_wake_refuted : forall k q r ls,
  0 < k_threads k q -> 0 < k_threads k r -> k_threads k q <> k_threads k r ->
  (0 < r -> wake k q ls 0 (lock_word k r 0) <> (r, wait_tag k r ls 0 0)) /\
  (forall t, t < k_threads k q -> t < k_threads k r -> hd_error ls = Some TWindow ->
     tag_offset k q ls 1 + t <> wait_tag k r ls 1 t).
Proof.
  exact (fun k q r ls Hq Hr Hne =>
    conj (fun H => wake_wrong k q r ls H Hq Hr Hne) (fun t H1 H2 => wake_tag_wrong k q r ls t H1 H2 Hne)).
Qed.

(** Cases. *)
Definition two : ranks := Ranks RoundRobin 2 7 (fun _ => 2) (fun _ => 4) 1.
Example C85_ex_full : full_read two 0 3 = Block 3 /\ full_read two 1 6 = Block 6.
Proof. split; apply (C85_full_partial two 2); cbn; auto with arith. Qed.
(** A replaced block, a copy between domains, a transfer in both directions. *)
Example C85_ex_cache : forall thr,
  reads two thr caches_init [Rd 0 0 0 3 0; Rd 0 1 0 3 0; Rd 1 0 0 3 1; Rd 0 0 0 4 0; Rd 1 1 0 4 0; Rd 0 0 0 3 1] =
  Ok [Block 3; Block 3; Block 3; Block 4; Block 4; Block 3].
Proof. intros []; vm_compute; reflexivity. Qed.
Example C85_ex_wake : wake two 0 [TWindow; TThread; TWindow] 2 (lock_word two 1 3) = (1, 10).
Proof. vm_compute. reflexivity. Qed.
(** The hypotheses of the two refutations of the full grid. *)
Example C85_ex_different :
  (exists b, full_read (Ranks RoundRobin 2 8 (fun q => if q =? 0 then 1 else 2) (fun _ => 1) 1) 0 b <> Block b) /\
  (exists b, full_read (Ranks Contiguous 2 9 (fun q => if q =? 0 then 1 else 2) (fun _ => 1) 1) 0 b <> Block b).
Proof.
  split.
  - destruct (C85_round_robin_refuted (Ranks RoundRobin 2 8 (fun q => if q =? 0 then 1 else 2) (fun _ => 1) 1) 0 1) as (b & _ & _ & H); try (vm_compute; repeat constructor; fail); try discriminate; try reflexivity; eauto.
  - destruct (C85_contiguous_refuted (Ranks Contiguous 2 9 (fun q => if q =? 0 then 1 else 2) (fun _ => 1) 1) 0 1) as (b & _ & _ & H); try (vm_compute; repeat constructor; fail); try discriminate; try reflexivity; eauto.
Qed.

Print Assumptions C85_full_partial.
Print Assumptions C85_cache_partial.
Print Assumptions C85_wake_partial.
Print Assumptions C85_round_robin_refuted.
Print Assumptions C85_contiguous_refuted.
Print Assumptions C85_location_refuted.
Print Assumptions C85_cache_refuted.
Print Assumptions C85_wake_refuted.
