(** * C16, C17, C18: cache bookkeeping and replacement *)
From Verif Require Import CacheFacts.

(** C16.  [cached c] lists the blocks of the slots of [c].  After any history of
    requests: no duplicates, at most [n] blocks, the two maps are inverse; a
    further request reports a hit iff the block was present, leaves it
    present, and removes exactly the block it reports. *)
Theorem C16_bookkeeping :
  forall n spread bs, 0 < n -> (spread < Z.of_nat n)%Z ->
  exists c0 c outs, clist_init n spread = Ok c0 /\ clist_trace c0 bs = Ok (c, outs) /\
    cached c0 = [] /\
    NoDup (cached c) /\ length (cached c) <= n /\
    (forall b i, c_b2i c b = Some i <-> i < n /\ m_at (c_i2b c) i = Some (Some b)) /\
    (forall b, In b (cached c) <-> exists i, c_b2i c b = Some i) /\
    (forall b, exists c' i old, clist_request c b = Ok (c', i, old) /\ i < n /\
       c_b2i c' b = Some i /\
       (In b (cached c) -> old = Some b) /\ (~ In b (cached c) -> old <> Some b) /\
       (forall x, old = Some x -> In x (cached c)) /\
       (forall b', In b' (cached c') <-> b' = b \/ (In b' (cached c) /\ old <> Some b')) /\
       (forall b', b' <> b -> In b' (cached c') -> c_b2i c' b' = c_b2i c b')).
Proof. exact bookkeeping. Qed.
Print Assumptions C16_bookkeeping.

Example C16_example :
  match (do c <- clist_init 3 1; clist_trace c [7; 8; 7; 9; 4; 7]) with
  | Ok (c, outs) => cached c = [4; 7; 9] /\
      outs = [(0, None); (1, None); (0, Some 7); (2, None); (0, Some 7); (1, Some 8)]
  | Ub => False
  end.
Proof. vm_compute. auto. Qed.

(** C17, search: each operation moves the hands at most [n] times, picks a slot
    of the cache, and a slot which was used is picked again only after the
    clearing hand passed it. *)
Theorem C17_victim_search :
  forall n spread ops, 0 < n -> (spread < Z.of_nat n)%Z -> Forall (op_ok n) ops ->
  exists l l' ess, lru_init n spread = Ok l /\ lru_run_ev l ops = Ok (l', ess) /\
    length ess = length ops /\
    Forall (fun es => moves es <= n /\ forall i, In (EPick i) es -> i < n) ess /\
    (forall pre i mid post, concat ess = pre ++ EUse i :: mid ++ EPick i :: post -> In (EClear i) mid).
Proof. exact victim_search. Qed.
Print Assumptions C17_victim_search.

(** The event trace belongs to the modelled functions. *)
Theorem C17_trace_is_model :
  forall l,
  omap (fun x => (fst x, filter (fun e => match e with EPick _ => true | _ => false end) (snd x)))
       (lru_step_ev l OpFree)
  = omap (fun x => (fst x, [EPick (snd x)])) (lru_get_free l).
Proof. exact lru_step_ev_free. Qed.
Print Assumptions C17_trace_is_model.

(** C17, first lap: as long as a history has no more than [n] different blocks, a
    request is a hit iff the block was requested before, and otherwise it gets
    an empty slot: nothing is evicted. *)
Theorem C17_no_early_eviction :
  forall n spread bs, 0 < n -> (spread < Z.of_nat n)%Z -> length (nodup Nat.eq_dec bs) <= n ->
  exists c0 c outs, clist_init n spread = Ok c0 /\ clist_trace c0 bs = Ok (c, outs) /\
    forall k b, nth_error bs k = Some b ->
      exists i, nth_error outs k = Some (i, if in_dec Nat.eq_dec b (firstn k bs) then Some b else None).
Proof. exact first_lap_facts. Qed.
Print Assumptions C17_no_early_eviction.

Example C17_example :
  match (do l <- lru_init 3 1; lru_run_ev l [OpFree; OpFree; OpUse 0; OpFree; OpFree]) with
  | Ok (_, ess) => concat ess =
      [EClear 1; EPick 0; EUse 0; EClear 2; EPick 1; EUse 1; EUse 0; EClear 0; EPick 2; EUse 2;
       EClear 1; EPick 0; EUse 0]
  | Ub => False
  end /\ length (nodup Nat.eq_dec [5; 6; 5; 7]) <= 3.
Proof. vm_compute. auto. Qed.

(** C18 is false. *)
Theorem C18_oversized_spread_refuted :
  exists n spread b, 0 < n /\ (do c <- clist_init n spread; clist_request c b) = Ub.
Proof. exact oversized_spread_refuted. Qed.
Print Assumptions C18_oversized_spread_refuted.

(** Every spread of at least the cache size fails, at the latest at the first
    request ... *)
Theorem C18_every_oversized_spread_fails :
  forall n spread b, 0 < n -> (Z.of_nat n <= spread)%Z ->
  (do c <- clist_init n spread; clist_request c b) = Ub.
Proof. exact oversized_spread. Qed.
Print Assumptions C18_every_oversized_spread_fails.

(** ... and every smaller one is safe. *)
Theorem C18_small_spread_partial :
  forall n spread bs, 0 < n -> (spread < Z.of_nat n)%Z ->
  (do c <- clist_init n spread; clist_trace c bs) <> Ub.
Proof. exact small_spread_safe. Qed.
Print Assumptions C18_small_spread_partial.
