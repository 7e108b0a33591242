(** * C90: the file is read only if no other cache holds the block *)
From Verif Require Import FetchFacts.

(** The source which [getAt] uses always holds the block (the own cache, another
    domain, the slot of another process), a block of the own cache is never
    fetched, and with NUMA transfers nothing is fetched from other processes or
    the file while a domain of the process holds the block.  [Forall req_ok]:
    the readers exist. *)
Theorem C90_source_partial :
  forall c spread qs q, 0 < fc_size c -> (spread < Z.of_nat (fc_size c))%Z ->
  Forall (req_ok c) (qs ++ [q]) ->
  exists s0 s outs s' src, finit c spread = Ok s0 /\ frun c s0 qs = Ok (s, outs) /\
    fread c s q = Ok (s', src) /\ source_true c s q src /\
    (src = SHit <-> holds_block c s (req_rank q) (req_dom q) (req_block q)) /\
    (fc_numa c = true ->
       ((exists r off, src = SMpi r off) \/ src = SFile) ->
       forall k, ~ holds_block c s (req_rank q) k (req_block q)).
Proof. intros c spread qs q Hn Hs. exact (source_facts c spread Hn Hs qs q). Qed.
Print Assumptions C90_source_partial.

(** With MPI transfers the file is read exactly if no cache of any process holds
    the block, as long as never more than four caches held it at the same time. *)
Theorem C90_four_partial :
  forall c spread qs q, 0 < fc_size c -> (spread < Z.of_nat (fc_size c))%Z ->
  fc_tr c <> TNo -> Forall (req_ok c) (qs ++ [q]) ->
  (forall pre post s0 s outs, qs = pre ++ post -> finit c spread = Ok s0 -> frun c s0 pre = Ok (s, outs) ->
     few_holders c s (req_block q)) ->
  exists s0 s outs s' src, finit c spread = Ok s0 /\ frun c s0 qs = Ok (s, outs) /\
    fread c s q = Ok (s', src) /\ source_true c s q src /\
    (src = SFile <-> forall r d, ~ holds_block c s r d (req_block q)).
Proof. intros c spread qs q Hn Hs. exact (four_facts c spread Hn Hs qs q). Qed.
Print Assumptions C90_four_partial.

(** With at most four caches in total that is always so. *)
Theorem C90_small_partial :
  forall c spread qs q, 0 < fc_size c -> (spread < Z.of_nat (fc_size c))%Z ->
  fc_tr c <> TNo -> fc_ranks c * fc_doms c <= 4 -> Forall (req_ok c) (qs ++ [q]) ->
  exists s0 s outs s' src, finit c spread = Ok s0 /\ frun c s0 qs = Ok (s, outs) /\
    fread c s q = Ok (s', src) /\ source_true c s q src /\
    (src = SFile <-> forall r d, ~ holds_block c s r d (req_block q)).
Proof. intros c spread qs q Hn Hs. exact (small_facts c spread Hn Hs qs q). Qed.
Print Assumptions C90_small_partial.

(** With any number of caches, each of which is large enough for the blocks it is
    asked for, every block is read from the file once: by whoever asks first. *)
Theorem C90_once_partial :
  forall c spread qs, 0 < fc_size c -> (spread < Z.of_nat (fc_size c))%Z ->
  fc_tr c <> TNo -> Forall (req_ok c) qs ->
  (forall r d, length (nodup Nat.eq_dec (asked r d qs)) <= fc_size c) ->
  exists s0 s outs, finit c spread = Ok s0 /\ frun c s0 qs = Ok (s, outs) /\ length outs = length qs /\
    forall k q, nth_error qs k = Some q ->
      (nth_error outs k = Some SFile <-> ~ In (req_block q) (map req_block (firstn k qs))).
Proof. intros c spread qs Hn Hs. exact (once_facts c spread Hn Hs qs). Qed.
Print Assumptions C90_once_partial.

(** In general it is false: five processes fetch a block, four of them drop it
    again; the first of these is not listed any more and its deletion removes the
    process which keeps the block.  The sixth process reads the file. *)
Theorem C90_other_cache_refuted :
  forall t, t <> TNo ->
  Forall (req_ok (six t)) (six_reads ++ [(5, 0, 0, [0])]) /\
  exists s0 s outs s', finit (six t) (-1) = Ok s0 /\ frun (six t) s0 six_reads = Ok (s, outs) /\
    fread (six t) s (5, 0, 0, [0]) = Ok (s', SFile) /\ holds_block (six t) s 1 0 0.
Proof. exact five_refuted. Qed.
Print Assumptions C90_other_cache_refuted.

(** Two processes with two domains and two slots each: the sources of a history. *)
Example C90_sources :
  forall t, t <> TNo ->
  let c := FCfg t true 2 2 2 in
  let qs := map (fun x => (fst (fst x), snd (fst x), snd x, [3])) 
    [(0, 0, 5); (0, 0, 5); (0, 1, 5); (1, 0, 5); (1, 0, 6); (1, 0, 7); (0, 0, 6); (0, 0, 9); (0, 1, 9)] in
  Forall (req_ok c) qs /\
  omap snd (do s0 <- finit c (-1); frun c s0 qs) =
  Ok [SFile; SHit; SNuma 0; SMpi 0 0; SFile; SFile; SMpi 1 1; SFile; SNuma 0].
Proof.
  intros t Ht c qs. split; [repeat constructor; discriminate|].
  destruct t; [congruence|vm_compute; reflexivity|vm_compute; reflexivity].
Qed.
