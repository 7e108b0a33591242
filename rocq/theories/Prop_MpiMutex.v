(** * C15: the MPI mutex *)
From Verif Require Import MpiMutexFacts.

(** [wf_mcfg]: thread numbers are below [totalThreads()] and identify the threads of a
    process; a thread has at most one mutex at a time and releases it (all users
    in transfer/mpiwincache.h do so).  Any number of processes, threads and mutexes,
    with and without THREADSAFE_MPI. *)

(** C15: at most one thread has a mutex. *)
Theorem C15_exclusion :
  forall c, wf_mcfg c -> forall xs s es t t' m, mrun c (minit c) xs = Some (s, es) ->
  inside s t m -> inside s t' m -> t = t'.
Proof. exact mutex_exclusion. Qed.
Print Assumptions C15_exclusion.

(** C15: every execution is an execution of FIFO locks ([fifo_step], MpiMutexProofs.v): threads
    enter in the order of their swaps, and only after the one before has left. *)
Theorem C15_fifo :
  forall c, wf_mcfg c -> forall xs s es, mrun c (minit c) xs = Some (s, es) ->
  exists f, fifo_run fifo0 es = Some f /\ (forall m t, f_in f m = Some t <-> inside s t m) /\
    forall m, NoDup (f_queue f m).
Proof. exact mutex_fifo. Qed.
Print Assumptions C15_fifo.

(** C15: a release hands over the mutex to one thread, and no other thread could
    have been taken. *)
Theorem C15_handover :
  forall c, wf_mcfg c -> forall xs s es a b s' es',
  mrun c (minit c) xs = Some (s, es) -> mstep c s (MMsg a b) = Some (s', es') ->
  (exists m, inside s b m /\ ~ inside s' b m /\ ~ inside s a m /\ inside s' a m) /\
  (forall a' s'' es'', mstep c s (MMsg a' b) = Some (s'', es'') -> a' = a).
Proof. exact mutex_handover. Qed.
Print Assumptions C15_handover.

(** C15: as long as one thread is not done, something can move; and all executions are
    finite.  Hence all threads get and release all their mutexes. *)
Theorem C15_no_stuck_state :
  forall c, wf_mcfg c -> forall xs s es t, mrun c (minit c) xs = Some (s, es) ->
  h_todo (x_thr s t) <> [] -> exists x s' es', mstep c s x = Some (s', es').
Proof. exact mutex_no_stuck. Qed.
Print Assumptions C15_no_stuck_state.

Theorem C15_terminates :
  forall c, wf_mcfg c -> forall N xs s es, (forall t, N <= t -> x_prog c t = []) ->
  mrun c (minit c) xs = Some (s, es) -> length xs <= msum (fun t => 14 * length (x_prog c t)) N.
Proof. exact mutex_terminates. Qed.
Print Assumptions C15_terminates.

(** Three threads on two ranks compete for mutex 5 (and use mutex 6). *)
Definition demo_mcfg : mcfg :=
  MCfg false 2 (fun t => t / 2) (fun t => t mod 2) (fun m => m mod 2)
       (fun t => match t with
                 | 0 => [OAcq 5; ORel 5; ODel 6]
                 | 1 => [ODel 5; OAcq 6; ORel 6]
                 | 2 => [OAcq 5; ORel 5]
                 | _ => []
                 end).
Fixpoint rounds (n : nat) : list mact :=
  match n with
  | 0 => []
  | S n' => [MRun 0; MRun 2; MRun 1; MRun 2; MMsg 0 1; MMsg 0 2; MMsg 1 0; MMsg 1 2; MMsg 2 0; MMsg 2 1] ++ rounds n'
  end.
Example C15_example :
  wf_mcfg demo_mcfg /\
  let '(s, es, _) := drive demo_mcfg (minit demo_mcfg) (rounds 60) in
  map (fun t => h_todo (x_thr s t)) [0; 1; 2] = [[]; []; []] /\
  es = [EQueue 5 2; EEnter 5 2; EQueue 5 0; ELeave 5 2; EEnter 5 0; EQueue 5 1; ELeave 5 0; EEnter 5 1;
        ELeave 5 1; EQueue 6 0; EEnter 6 0; ELeave 6 0; EQueue 6 1; EEnter 6 1; ELeave 6 1].
Proof.
  split.
  - constructor.
    + intros t. apply Nat.mod_upper_bound. discriminate.
    + intros t t' H1 H2. rewrite (Nat.div_mod t 2), (Nat.div_mod t' 2) by discriminate. cbn [x_rank x_tid demo_mcfg] in *. lia.
    + intros [|[|[|t]]]; cbn; auto.
  - vm_compute. auto.
Qed.

(** C15: one mutex at a time is needed.  The receiver does not look at the source of the
    message, so a thread which has two mutexes can hand over the wrong one; nothing in
    transfer/mpiwincache.h does this. *)
Definition nested_mcfg : mcfg :=
  MCfg false 1 (fun t => t) (fun _ => 0) (fun m => m)
       (fun t => match t with
                 | 0 => [OAcq 0; OAcq 1; ORel 0; ORel 1]
                 | 1 => [OAcq 0; ORel 0]
                 | 2 => [OAcq 1; ORel 1]
                 | _ => []
                 end).
Example C15_nested_counterexample :
  exists xs s es, mrun nested_mcfg (minit nested_mcfg) xs = Some (s, es) /\ inside s 0 1 /\ inside s 2 1.
Proof.
  exists (snd (drive nested_mcfg (minit nested_mcfg)
    (repeat (MRun 0) 14 ++ repeat (MRun 1) 6 ++ repeat (MRun 2) 6 ++ repeat (MRun 0) 4 ++ [MMsg 2 0]))).
  eexists. eexists. rewrite drive_run. split; [vm_compute; reflexivity|]. vm_compute. auto.
Qed.
