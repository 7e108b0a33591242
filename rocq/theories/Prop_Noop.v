(** * C56: builds without thread safety

    [noop_run] (NoopModel.v): steps in a build where [threads::Mutex] is
    [NoopMutex]. *)
From Verif Require Import NoopFacts.

(** C56 is false.  A thread which asks for a block that it has not cached and that the
    dictionary lists ([listed]: for some rank) never gets its answer, although all other threads
    are done and no message is under way ([calm]): whatever steps follow, the request remains.  *)
Theorem C56_endless_retry_refuted :
  forall (V : Type) (c : cfg V), wf_cfg c -> cf_mode c = MThread ->
  forall s t b cell rest acts s', noop_reachable c s -> calm s t ->
  t_pc (s_thr s t) = PIdle -> t_todo (s_thr s t) = (b, cell) :: rest ->
  clist_peek (s_list s (cf_rank c t) (cf_dom c t)) b = None -> (exists e, listed s b e) ->
  noop_run c s acts = Some s' ->
  t_todo (s_thr s' t) = (b, cell) :: rest /\ t_done (s_thr s' t) = t_done (s_thr s t).
Proof. exact (fun V c Hwf Hm s t b cell rest acts s' => @never_answered V c s t b cell rest acts s' Hwf Hm). Qed.
Print Assumptions C56_endless_retry_refuted.

(** Such states are reached: two ranks with one thread each, thread 0 has read cell (0,0), thread 1
    wants to read cell (0,1) of the same block ([pair_cfg], NoopFacts.v). *)
Theorem C56_read_lost_refuted :
  exists (c : cfg (option nat)) s, wf_cfg c /\ cf_mode c = MThread /\ noop_reachable c s /\ calm s 1 /\
  map snd (t_done (s_thr s 0)) = [Some (Some 0)] /\ t_todo (s_thr s 1) <> [] /\
  forall acts s', noop_run c s acts = Some s' -> t_done (s_thr s' 1) = [] /\ t_todo (s_thr s' 1) <> [].
Proof. exact read_lost. Qed.
Print Assumptions C56_read_lost_refuted.

(** What remains true: if no rank has cached the block, the read is answered. *)
Theorem C56_unlisted_answered_partial :
  forall (V : Type) (c : cfg V), wf_cfg c -> cf_mode c = MThread ->
  forall s t b cell rest, noop_reachable c s -> calm s t ->
  t_pc (s_thr s t) = PIdle -> t_todo (s_thr s t) = (b, cell) :: rest ->
  clist_peek (s_list s (cf_rank c t) (cf_dom c t)) b = None -> (forall e, ~ listed s b e) ->
  exists acts s', noop_run c s acts = Some s' /\ t_todo (s_thr s' t) = rest /\
    t_done (s_thr s' t) = t_done (s_thr s t) ++ [(b, cell, Some (cf_file c b cell))].
Proof. exact (fun V c Hwf Hm s t b cell rest => @unlisted_served V c s t b cell rest Hwf Hm). Qed.
Print Assumptions C56_unlisted_answered_partial.

(** The same reads with working mutexes (ConcModel.v): both are answered. *)
Example C56_with_mutexes : outcome pair_cfg 3000 2 1 = ([[Some (Some 0)]; [Some (Some 1)]], [0; 0]).
Proof. vm_compute. reflexivity. Qed.

(** The first read of this example meets the hypotheses of [C56_unlisted_answered_partial]. *)
Example C56_first_read : exists s, noop_reachable pair_cfg s /\ t_todo (s_thr s 0) = [(0, 0)] /\
  t_pc (s_thr s 0) = PIdle /\ clist_peek (s_list s 0 0) 0 = None /\ s_dict s 0 = dict_init.
Proof. exact first_read_open. Qed.
