(** * C94: the two-handed clock approximates least recently used; CACHE-HAND-SPREAD controls how *)
From Verif Require Import SpreadFacts.

(** [n] slots; [spread_of n spread] is the distance of the hands.  [lru_run_ev] reports what happens to the slots: used,
    reference bit cleared by the leading hand ([moves] counts these), picked as victim. *)

(** "Lower values result in a faster algorithm": a search moves the hands at most spread + 1 times .. *)
Theorem C94_search_partial : forall n spread ops, 0 < n -> (spread < Z.of_nat n)%Z -> Forall (op_ok n) ops ->
  exists l l' ess, lru_init n spread = Ok l /\ lru_run_ev l ops = Ok (l', ess) /\ length ess = length ops /\
    Forall (fun es => moves es <= spread_of n spread + 1) ess.
Proof. exact (fun n spread ops Hn Hs => search_bound n spread Hn Hs ops). Qed.

(** .. and exactly that often if all blocks were used since the last search. *)
Theorem C94_search_exact_partial : forall n spread ops, 0 < n -> (spread < Z.of_nat n)%Z -> Forall (op_ok n) ops ->
  exists l l1 ess l2 es, lru_init n spread = Ok l /\ lru_run_ev l (ops ++ map OpUse (seq 0 n)) = Ok (l1, ess) /\
    lru_step_ev l1 OpFree = Ok (l2, es) /\ moves es = spread_of n spread + 1.
Proof. exact search_exact. Qed.

(** The spread is the time a block has to be used again: a victim was not used in the last [spread] moves, and its
    reference bit was cleared in the move before them (or is still clear from the start). *)
Theorem C94_window_partial : forall n spread ops, 0 < n -> (spread < Z.of_nat n)%Z -> Forall (op_ok n) ops ->
  exists l l' ess, lru_init n spread = Ok l /\ lru_run_ev l ops = Ok (l', ess) /\ length ess = length ops /\
    forall pre i post, concat ess = pre ++ EPick i :: post ->
      (moves pre <= spread_of n spread /\ ~ In (EUse i) pre) \/
      (exists a b, pre = a ++ EClear i :: b /\ moves b = spread_of n spread /\ ~ In (EUse i) b).
Proof. exact (fun n spread ops Hn Hs => window_facts n spread Hn Hs ops). Qed.

(** A block which is used is kept for more than [spread] moves. *)
Theorem C94_kept_partial : forall n spread ops, 0 < n -> (spread < Z.of_nat n)%Z -> Forall (op_ok n) ops ->
  exists l l' ess, lru_init n spread = Ok l /\ lru_run_ev l ops = Ok (l', ess) /\ length ess = length ops /\
    forall pre i mid post, concat ess = pre ++ EUse i :: mid ++ EPick i :: post -> spread_of n spread < moves mid.
Proof. exact (fun n spread ops Hn Hs => kept_facts n spread Hn Hs ops). Qed.

(** Any history [bs1], then block [x] is loaded, then [bs2] during which [x] stays, then the request for [b] removes [x]:
    at least [n / (spread + 1)] blocks were loaded after [x] (including [b]). *)
Theorem C94_lifetime_partial : forall n spread bs1 x bs2 b, 0 < n -> (spread < Z.of_nat n)%Z -> b <> x ->
  exists c0 c1 c2 c3 c4 outs1 i1 old1 outs2 i2 old2,
    clist_init n spread = Ok c0 /\ clist_trace c0 bs1 = Ok (c1, outs1) /\
    clist_request c1 x = Ok (c2, i1, old1) /\ clist_trace c2 bs2 = Ok (c3, outs2) /\
    clist_request c3 b = Ok (c4, i2, old2) /\
    (old1 <> Some x -> old2 = Some x ->
     (forall k b' o, nth_error bs2 k = Some b' -> nth_error outs2 k = Some o -> snd o = Some x -> b' = x) ->
     n <= (spread_of n spread + 1) * (1 + misses bs2 outs2)).
Proof. exact lifetime_facts. Qed.

(** "Lower values result in a worse approximation": with spread 0 uses have no influence at all, the blocks are replaced
    in the order in which they were loaded. *)
Theorem C94_fifo_partial : forall n bs, 0 < n ->
  exists c0 c outs, clist_init n 0 = Ok c0 /\ clist_trace c0 bs = Ok (c, outs) /\ map snd outs = fifo n [] bs.
Proof. exact fifo_facts. Qed.

(** The approximation can be as bad as possible, for every cache size and every spread: if all [n] blocks were used, the
    block under the leading hand is the next victim, even if it was used last. *)
Theorem C94_last_used_refuted : forall n spread, 0 < n -> (spread < Z.of_nat n)%Z -> let h := spread_of n spread in
  exists c0 c outs c' i, clist_init n spread = Ok c0 /\ clist_trace c0 (seq 0 n ++ seq 0 n ++ [h]) = Ok (c, outs) /\
    clist_request c n = Ok (c', i, Some h).
Proof. exact last_used. Qed.

(** 4 slots, default spread (2): blocks 0 to 3 are loaded, used again, block 2 once more; block 4 replaces block 2. *)
Example C94_ex_last : omap (fun r => map snd (snd r)) (do c <- clist_init 4 (-1); clist_trace c [0; 1; 2; 3; 0; 1; 2; 3; 2; 4; 2]) =
  Ok [None; None; None; None; Some 0; Some 1; Some 2; Some 3; Some 2; Some 2; Some 3].
Proof. reflexivity. Qed.

(** 4 slots, spread 0: block 5 is removed although it was just used. *)
Example C94_ex_fifo : omap (fun r => map snd (snd r)) (do c <- clist_init 4 0; clist_trace c [5; 1; 2; 3; 5; 4; 1; 6; 5]) =
  Ok [None; None; None; None; Some 5; Some 5; Some 1; Some 1; Some 2] /\
  fifo 4 [] [5; 1; 2; 3; 5; 4; 1; 6; 5] = [None; None; None; None; Some 5; Some 5; Some 1; Some 1; Some 2].
Proof. split; reflexivity. Qed.

(** 5 slots, spread 2: block 6 is removed by the second load after its own: 5 <= 3 * 2. *)
Example C94_ex_lifetime : omap (fun r => (map snd (snd r), misses [0; 1; 3; 5] (skipn 5 (snd r))))
    (do c <- clist_init 5 2; clist_trace c [0; 1; 7; 5; 6; 0; 1; 3; 5; 4]) =
  Ok ([None; None; None; None; None; Some 0; Some 1; Some 7; Some 5; Some 6], 1).
Proof. reflexivity. Qed.

Example C94_ex_search : Forall (op_ok 4) [OpFree; OpFree; OpFree; OpFree; OpUse 0; OpUse 1; OpUse 2; OpUse 3; OpFree] /\
  omap (fun r => map moves (snd r)) (do l <- lru_init 4 (-1);
    lru_run_ev l [OpFree; OpFree; OpFree; OpFree; OpUse 0; OpUse 1; OpUse 2; OpUse 3; OpFree]) = Ok [1; 1; 1; 1; 0; 0; 0; 0; 3].
Proof. split; [repeat constructor|reflexivity]. Qed.

Print Assumptions C94_search_partial.
Print Assumptions C94_search_exact_partial.
Print Assumptions C94_window_partial.
Print Assumptions C94_kept_partial.
Print Assumptions C94_lifetime_partial.
Print Assumptions C94_fifo_partial.
Print Assumptions C94_last_used_refuted.
