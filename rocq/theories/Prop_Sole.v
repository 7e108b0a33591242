(** * C91: blocks loaded by simultaneous readers

    Executions of ConcModel.v: any number of threads, ranks and domains, every
    interleaving.  [loads who b s acts] counts the starts of [loadBlock] for block [b]
    by threads in [who]; [roomy] = no cache ever has to replace a block. *)
From Verif Require Import SoleFacts.

(** With MPI windows, one load for all ranks and domains together. *)
Theorem C91_windows_partial :
  forall (V : Type) (c : cfg V), wf_cfg c -> cf_mode c = MWin -> roomy c ->
  forall l0 acts b, clist_init (cf_size c) (cf_spread c) = Ok l0 ->
  loads c everybody b (init c l0) acts <= 1.
Proof. exact (fun V => @once_win V). Qed.
Print Assumptions C91_windows_partial.

(** In every build, one load for all threads of a domain. *)
Theorem C91_per_cache_partial :
  forall (V : Type) (c : cfg V), wf_cfg c -> roomy c ->
  forall l0 acts r d b, clist_init (cf_size c) (cf_spread c) = Ok l0 ->
  loads c (of_cache c r d) b (init c l0) acts <= 1.
Proof. exact (fun V => @once_per_cache V). Qed.
Print Assumptions C91_per_cache_partial.

(** With MPI windows, also when blocks are replaced: no two threads load the same block
    at the same time. *)
Theorem C91_one_at_a_time_partial :
  forall (V : Type) (c : cfg V), wf_cfg c -> cf_mode c = MWin ->
  forall s t t' b, reachable c s -> loading s t b -> loading s t' b -> t = t'.
Proof. exact (fun V => @sole_loader V). Qed.
Print Assumptions C91_one_at_a_time_partial.

(** Without windows two domains of a process load the block both, ... *)
Theorem C91_domains_refuted :
  exists c : cfg nat, wf_cfg c /\ roomy c /\ cf_mode c = MNo /\ loads_it_twice c.
Proof.
  exact (ex_intro _ (pair MNo 1 2) (conj (pair_wf MNo 1 2 ltac:(repeat constructor) ltac:(repeat constructor))
    (conj (pair_roomy _ _ _) (conj eq_refl twice_numa)))).
Qed.
Print Assumptions C91_domains_refuted.

(** ... and with communication threads two processes. *)
Theorem C91_processes_refuted :
  exists c : cfg nat, wf_cfg c /\ roomy c /\ cf_mode c = MThread /\ loads_it_twice c.
Proof.
  exact (ex_intro _ (pair MThread 2 1) (conj (pair_wf MThread 2 1 ltac:(repeat constructor) ltac:(repeat constructor))
    (conj (pair_roomy _ _ _) (conj eq_refl twice_thread)))).
Qed.
Print Assumptions C91_processes_refuted.

(** Two processes with windows; the second waits in [startTransfer] while the first loads. *)
Example C91_example :
  wf_cfg (pair MWin 2 1) /\ roomy (pair MWin 2 1) /\
  report MWin 2 1 race_win = Some (1, [[(7, 0, Some 7)]; [(7, 0, Some 7)]], [0; 0]) /\
  report MThread 2 1 race_thread = Some (2, [[(7, 0, Some 7)]; [(7, 0, Some 7)]], [0; 0]) /\
  report MNo 1 2 race_numa = Some (2, [[(7, 0, Some 7)]; [(7, 0, Some 7)]], [0; 0]).
Proof.
  split; [apply pair_wf; repeat constructor|]. split; [apply pair_roomy|]. vm_compute. repeat split.
Qed.
