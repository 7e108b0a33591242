(** * C96, C97: dealing out the blocks (preprocess/test/test_index.py) and the shares of the ranks *)
From Verif Require Import DealFacts.

(** C96.  Any numbers of blocks, nodes and cores, both modes.  The script deals the blocks out one by one without leaving its
    lists; afterwards the functions of grid/level/blocked.h ([Dist], nodes are ranks and cores are domains) say for each block where it
    went, and for each place which block it got; places without a block still contain -1. *)
Theorem C96_dealt :
  forall total nodes cores rr, 0 < nodes -> 0 < cores ->
  let d := Dist (mode_of rr) nodes cores total in
  exists t, dealt total nodes cores rr = Ok t /\
  (forall b, b < total ->
     t_nodes t b = Z.of_nat (block_rank d b) /\ t_cores t b = Z.of_nat (block_domain d b) /\
     t_offset t b = Z.of_nat (block_offset d b) /\ t_node_offset t b = Z.of_nat (block_node_offset d b)) /\
  (forall r c k, r < nodes -> c < cores -> k < local_block_count d ->
     t_l2g t r c k = if local2global d r c k <? total then Z.of_nat (local2global d r c k) else (-1)%Z).
Proof. exact (fun total nodes cores rr N C => dealt_holds total nodes cores N C rr). Qed.
Print Assumptions C96_dealt.

(** The test of the script passes for all numbers, not only for those it is called with. *)
Theorem C96_test_passes :
  forall total nodes cores rr, 0 < nodes -> 0 < cores -> test_index total nodes cores rr = Ok true.
Proof. exact (fun total nodes cores rr N C => test_passes total nodes cores N C rr). Qed.
Print Assumptions C96_test_passes.

(** Lines 140-145. *)
Example C96_calls : forallb (fun rr => forallb (fun '(t, n, c) => match test_index t n c rr with Ok b => b | Ub => false end)
  [(20, 2, 2); (50, 4, 2); (32, 1, 4); (32, 4, 1); (7, 1, 1)]) [true; false] = true.
Proof. vm_compute. reflexivity. Qed.
(** Seven blocks on two ranks with two domains. *)
Definition listed (rr : bool) : outcome (list (Z * Z * Z * Z) * list (list Z)) :=
  omap (fun t => (map (fun b => (t_nodes t b, t_cores t b, t_offset t b, t_node_offset t b)) (seq 0 7),
                  map (fun rc => map (t_l2g t (fst rc) (snd rc)) [0; 1]) [(0, 0); (0, 1); (1, 0); (1, 1)])) (dealt 7 2 2 rr).
Example C96_robin : listed true = Ok (
  [(0, 0, 0, 0); (1, 0, 0, 0); (0, 1, 0, 2); (1, 1, 0, 2); (0, 0, 1, 1); (1, 0, 1, 1); (0, 1, 1, 3)],
  [[0; 4]; [2; 6]; [1; 5]; [3; -1]])%Z.
Proof. vm_compute. reflexivity. Qed.
Example C96_contiguous : listed false = Ok (
  [(0, 0, 0, 0); (0, 0, 1, 1); (0, 1, 0, 2); (0, 1, 1, 3); (1, 0, 0, 0); (1, 0, 1, 1); (1, 1, 0, 2)],
  [[0; 1]; [2; 3]; [4; 5]; [6; -1]])%Z.
Proof. vm_compute. reflexivity. Qed.

(** C97 in full: no domain of any rank stores more than one block more than another ([share], DealFacts.v).  Round robin: *)
Theorem C97_round_robin_partial :
  forall total nodes cores r dom r' dom', 0 < nodes -> 0 < cores -> r < nodes -> dom < cores -> r' < nodes -> dom' < cores ->
  share (Dist RoundRobin nodes cores total) r dom <= share (Dist RoundRobin nodes cores total) r' dom' + 1.
Proof. exact robin_differ. Qed.
Print Assumptions C97_round_robin_partial.

(** Contiguous: the places are filled up one after the other. *)
Theorem C97_contiguous_partial :
  forall total nodes cores r dom, 0 < nodes -> 0 < cores -> r < nodes -> dom < cores ->
  let d := Dist Contiguous nodes cores total in
  share d r dom = Nat.min (local_block_count d) (total - (r * cores + dom) * local_block_count d).
Proof. exact contiguous_share. Qed.
Print Assumptions C97_contiguous_partial.

(** So one block more than ranks leaves the last rank without blocks, while the
    first has two. *)
Theorem C97_idle_refuted :
  forall P, 3 <= P -> let d := Dist Contiguous P 1 (P + 1) in share d 0 0 = 2 /\ share d (P - 1) 0 = 0.
Proof. exact last_idle. Qed.
Print Assumptions C97_idle_refuted.

Example C97_shares :
  let places := list_prod (seq 0 3) (seq 0 2) in
  map (fun p => share (Dist RoundRobin 3 2 13) (fst p) (snd p)) places = [3; 2; 2; 2; 2; 2] /\
  map (fun p => share (Dist Contiguous 3 2 13) (fst p) (snd p)) places = [3; 3; 3; 3; 1; 0].
Proof. vm_compute. auto. Qed.
