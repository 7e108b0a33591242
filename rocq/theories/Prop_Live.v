(** * C61: reads through the communication thread can always still be completed,
      C62: stale dictionary entries are about to be deleted

    Model: ConcModel.v with [MThread] (transfer/mpithreadcache.h), LiveModel.v. *)
From Verif Require Import LiveDict.

(** C61 is false.  [CacheManager::get] (cache/cachemanager.h lines 119-137) keeps the cache
    manager locked while it waits for the mutex of a slot, and [tryGet] fails as long as the
    manager is locked.  If all managers are locked like this and the others wait for blocks
    which the dictionary lists ([trapped]), then no thread ever completes a read again. *)
Theorem C61_livelock_refuted :
  forall (V : Type) (c : cfg V), wf_cfg c -> cf_mode c = MThread ->
  forall s acts s', reachable c s -> trapped c s -> run c s acts = Some s' ->
  forall t, t_todo (s_thr s' t) = t_todo (s_thr s t) /\ t_done (s_thr s' t) = t_done (s_thr s t).
Proof. exact (fun V c Hwf Hm => trapped_forever c Hwf Hm). Qed.
Print Assumptions C61_livelock_refuted.

(** Such states are reached: two ranks with two threads each; threads 0 and 1 (rank 0) want the
    block of thread 2 (rank 1), threads 2 and 3 want the block of thread 0. *)
Theorem C61_two_ranks_refuted :
  exists s, reachable ranks_cfg s /\
  forall acts s', run ranks_cfg s acts = Some s' -> forall t, t < 4 -> t_todo (s_thr s' t) <> [].
Proof. exact two_ranks_stuck. Qed.
Print Assumptions C61_two_ranks_refuted.

(** One rank with two domains and two threads in each of them. *)
Theorem C61_two_domains_refuted :
  exists s, reachable domains_cfg s /\
  forall acts s', run domains_cfg s acts = Some s' -> forall t, t < 4 -> t_todo (s_thr s' t) <> [].
Proof. exact two_domains_stuck. Qed.
Print Assumptions C61_two_domains_refuted.

Example C61_wf : wf_cfg ranks_cfg /\ wf_cfg domains_cfg /\ cf_prog ranks_cfg 0 = [(0, 0); (8, 0)].
Proof.
  split; [|split; [|reflexivity]]; apply readers_wf, trap_setting; try apply half_lt; unfold zero; lia.
Qed.
Example C61_trapped : exists s, reachable ranks_cfg s /\ trapped ranks_cfg s /\
  forall t, t < 4 -> t_todo (s_thr s t) <> [].
Proof. exact ranks_trapped. Qed.

(** With another schedule the same reads are answered. *)
Example C61_other_schedule :
  outcome ranks_cfg 3000 4 2 =
    ([[Some (Some 0); Some (Some 46)]; [Some (Some 46)]; [Some (Some 46); Some (Some 0)]; [Some (Some 0)]], [0; 0; 0; 0]).
Proof. vm_compute. reflexivity. Qed.

(** What holds of C61: all reads of all threads can be completed from every state in which at most one
    domain of all ranks has several threads in the middle of reads.  Messages about the same location
    have to arrive in the order in which they were sent, as MPI guarantees ([ordered_reachable]); the
    schedule which completes the reads lets no message overtake another one ([fifo_run]).  Missing:
    several threads in the middle of reads in each of two domains, for which the statement
    is false (see above). *)
Theorem C61_can_finish_partial :
  forall (V : Type) (c : cfg V), wf_cfg c -> cf_mode c = MThread -> (forall b, cf_dict c b = []) ->
  forall N, (forall t, N <= t -> cf_prog c t = []) ->
  forall s, ordered_reachable c s ->
  (forall t t' u u', together c s t t' -> together c s u u' ->
     cf_rank c t = cf_rank c u /\ cf_dom c t = cf_dom c u) ->
  exists acts s', fifo_run c s acts = Some s' /\ forall t, t_todo (s_thr s' t) = [].
Proof. exact (fun V c Hwf Hm Hd0 N HN => can_finish c Hwf Hm Hd0 N HN). Qed.
Print Assumptions C61_can_finish_partial.

(** This holds always if at most one domain has several threads. *)
Theorem C61_one_domain_partial :
  forall (V : Type) (c : cfg V), wf_cfg c -> cf_mode c = MThread -> (forall b, cf_dict c b = []) ->
  forall N, (forall t, N <= t -> cf_prog c t = []) ->
  (forall t t' u u', share_domain c t t' -> share_domain c u u' ->
     cf_rank c t = cf_rank c u /\ cf_dom c t = cf_dom c u) ->
  forall s, ordered_reachable c s ->
  exists acts s', fifo_run c s acts = Some s' /\ forall t, t_todo (s_thr s' t) = [].
Proof.
  exact (fun V c Hwf Hm Hd0 N HN Hone s Hs => can_finish c Hwf Hm Hd0 N HN s Hs (share_crowd c Hwf s Hs Hone)).
Qed.
Print Assumptions C61_one_domain_partial.

(** And after the grid was opened, for all programs. *)
Theorem C61_from_start_partial :
  forall (V : Type) (c : cfg V), wf_cfg c -> cf_mode c = MThread -> (forall b, cf_dict c b = []) ->
  forall N, (forall t, N <= t -> cf_prog c t = []) ->
  forall l0, clist_init (cf_size c) (cf_spread c) = Ok l0 ->
  exists acts s, fifo_run c (init c l0) acts = Some s /\ forall t, t_todo (s_thr s t) = [].
Proof. exact (fun V c Hwf Hm Hd0 N HN => can_complete c Hwf Hm Hd0 N HN). Qed.
Print Assumptions C61_from_start_partial.

(** One thread in each domain. *)
Example C61_one_thread :
  wf_cfg lone_cfg /\ (forall t, 2 <= t -> cf_prog lone_cfg t = []) /\
  (forall t t', ~ share_domain lone_cfg t t') /\
  cf_prog lone_cfg 0 = [(8, 0); (0, 0)] /\ cf_prog lone_cfg 1 = [(8, 0)] /\
  outcome lone_cfg 3000 2 2 = ([[Some (Some 46); Some (Some 0)]; [Some (Some 46)]], [0; 0]).
Proof.
  split; [apply readers_wf, lone_setting|]. split; [intros [|[|t]]; [lia|lia|reflexivity]|].
  split; [intros [|[|t]] [|[|t']] (H0 & H1 & H2 & H3 & _); try discriminate H3; now (destruct H0 + destruct H1 + destruct H2)|].
  repeat split; vm_compute; reflexivity.
Qed.
(** Two threads on one rank, one on the other one; a state in which one thread waits for the slot
    of another one with the manager locked. *)
Example C61_crowd :
  wf_cfg crowd_cfg /\ (forall t, 3 <= t -> cf_prog crowd_cfg t = []) /\
  (forall t t' u u', share_domain crowd_cfg t t' -> share_domain crowd_cfg u u' ->
     cf_rank crowd_cfg t = cf_rank crowd_cfg u /\ cf_dom crowd_cfg t = cf_dom crowd_cfg u) /\
  share_domain crowd_cfg 0 1 /\
  outcome crowd_cfg 3000 3 2 = ([[Some (Some 0); Some (Some 46)]; [Some (Some 46)]; [Some (Some 46); Some (Some 0)]], [0; 0; 0]).
Proof.
  split; [apply readers_wf, crowd_setting|]. split; [intros [|[|[|t]]]; [lia|lia|lia|reflexivity]|].
  split.
  { assert (forall t t', share_domain crowd_cfg t t' -> cf_rank crowd_cfg t = 0 /\ cf_dom crowd_cfg t = 0) as H.
    { intros [|[|[|t]]] [|[|[|t']]] (H0 & H1 & H2 & H3 & _); try discriminate H3; try (split; reflexivity);
        now (destruct H0 + destruct H1 + destruct H2). }
    intros t t' u u' H1 H2. destruct (H _ _ H1) as [-> ->]. destruct (H _ _ H2) as [-> ->]. auto. }
  split; [split; [discriminate|]; split; [discriminate|]; split; [discriminate|]; split; reflexivity|].
  vm_compute. reflexivity.
Qed.
Example C61_crowd_waits : exists s, ordered_reachable crowd_cfg s /\
  (exists i old, t_pc (s_thr s 1) = PGetSlot i old /\ t_pc (s_thr s 0) = PStart i) /\
  s_lock s (LCache 0 0) = Some (Usr 1) /\ forall t, t < 3 -> t_todo (s_thr s t) <> [].
Proof. exact crowd_waits. Qed.
(** A state from which the reads of the refuted example can be completed. *)
Example C61_ranks_crowd : exists s, ordered_reachable ranks_cfg s /\ together ranks_cfg s 0 1 /\
  (forall t t', together ranks_cfg s t t' -> cf_rank ranks_cfg t = 0 /\ cf_dom ranks_cfg t = 0) /\
  s_lock s (LCache 0 0) = Some (Usr 1) /\ forall t, t < 4 -> t_todo (s_thr s t) <> [].
Proof. exact ranks_crowd. Qed.

(** C62.  Location [e] is listed for block [b] and nobody works on the location: it holds the
    whole block, or the message that deletes the entry is under way to the rank of the entry. *)
Theorem C62_listed_cached :
  forall (V : Type) (c : cfg V), wf_cfg c -> cf_mode c = MThread -> (forall b, cf_dict c b = []) ->
  forall s b e, ordered_reachable c s -> listed s b e -> idle c s e ->
  holds c s e b \/ In (false, b, e) (s_upd s (cf_home c b)).
Proof. exact (fun V c Hwf Hm Hd0 => listed_cached c Hwf Hm Hd0). Qed.
Print Assumptions C62_listed_cached.

(** No location is listed twice for a block. *)
Theorem C62_listed_single :
  forall (V : Type) (c : cfg V), wf_cfg c -> cf_mode c = MThread -> (forall b, cf_dict c b = []) ->
  forall s b e, ordered_reachable c s -> listed s b e -> count_occ oeq_dec (s_dict s b) (Some e) = 1.
Proof. exact (fun V c Hwf Hm Hd0 => listed_single c Hwf Hm Hd0). Qed.
Print Assumptions C62_listed_single.

Example C62_listed : exists s, ordered_reachable lone_cfg s /\ listed s 8 0 /\ idle lone_cfg s 0 /\ s_upd s 1 = [].
Proof. exact lone_listed. Qed.
Example C62_stale : exists s, ordered_reachable lone_cfg s /\ listed s 8 0 /\ idle lone_cfg s 0 /\
  clist_peek (s_list s 0 0) 8 = None /\ s_upd s 1 = [(false, 8, 0)].
Proof. exact lone_stale. Qed.
(** The order of the messages matters: a deletion which overtakes the addition is lost. *)
Example C62_overtaken : exists s, reachable lone_cfg s /\ listed s 8 0 /\ idle lone_cfg s 0 /\
  clist_peek (s_list s 0 0) 8 = None /\ s_upd s 0 = [] /\ s_upd s 1 = [].
Proof. exact lone_overtaken. Qed.
