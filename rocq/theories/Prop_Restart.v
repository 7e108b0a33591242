(** * C109: starting and stopping the communication thread *)
From Verif Require Import RestartModel RestartSpec RestartFacts.

(** ** No call fails, or only reductions and duplications of the communicator fail, anywhere *)

(** A collective start succeeds at all its processes if none of them has a thread (and nothing fails); otherwise all of them are told so
    and nothing changes.  The start itself may fail in every way. *)
Theorem C109_start_partial :
  forall os s tr l f,
  Forall mild os -> run sys0 [] os = Done (s, tr) ->
  exists s',
    step s (Start l f) =
      Done (s', map (fun r => EvStart r (report (existsb (fun r => running r tr) l) (f r))) l) /\
    (forall r, ~ In r l -> s' r = s r) /\
    (forall r, In r l -> existsb (fun r => running r tr) l = true \/ f r = FReduce \/ f r = FDup -> s' r = s r).
Proof. exact start_fact. Qed.

(** A process can stop its thread exactly if it has one; afterwards it has no thread, no communicator, no
    receivers and counts tags from 0 again. *)
Theorem C109_stop_partial :
  forall os s tr r,
  Forall mild os -> run sys0 [] os = Done (s, tr) ->
  if running r tr
  then exists s', step s (Stop r) = Done (s', [EvStop r]) /\
       (forall r', r' <> r -> s' r' = s r') /\
       p_comm (s' r) = None /\ p_run (s' r) = None /\ p_live (s' r) = [] /\ p_next (s' r) = 0 /\ p_tags (s' r) = []
  else step s (Stop r) = Undef.
Proof. exact stop_fact. Qed.

(** Registering gives all processes one tag, in use at none of them, if all have threads (processes at which the reduction
    fails keep what they had); NOT_INITIALIZED if none has; if some have, the call does not return. *)
Theorem C109_register_partial :
  forall os s tr l f,
  Forall mild os -> run sys0 [] os = Done (s, tr) ->
  (forallb (fun r => running r tr) l = true ->
     exists s' t,
       step s (Register l f) = Done (s', map (fun r => if f r then EvNoReg r EMpi else EvReg r t) l) /\
       (forall r, In r l -> ~ in_use r tr t) /\
       (forall r, ~ In r l \/ f r = true -> s' r = s r)) /\
  (existsb (fun r => running r tr) l = true -> forallb (fun r => running r tr) l = false ->
     step s (Register l f) = Hang) /\
  (existsb (fun r => running r tr) l = false -> l <> [] ->
     step s (Register l f) = Done (s, map (fun r => EvNoReg r ENotInit) l)).
Proof. exact register_fact. Qed.

(** A receiver can be removed exactly while the thread runs; no other receiver is. *)
Theorem C109_unregister_partial :
  forall os s tr r t,
  Forall mild os -> run sys0 [] os = Done (s, tr) ->
  if running r tr
  then exists s', step s (Unregister r t) = Done (s', [EvUnreg r t]) /\
       forall r' t', In t' (p_tags (s' r')) <-> In t' (p_tags (s r')) /\ ~ (r' = r /\ t' = t)
  else step s (Unregister r t) = Undef.
Proof. exact unregister_fact. Qed.

(** There is one communicator and one thread, receiving in it, while a process runs, none otherwise; the table
    has the receivers in use; and one group more for every start and every registration ever made. *)
Theorem C109_objects_partial :
  forall os s tr r,
  Forall mild os -> run sys0 [] os = Done (s, tr) ->
  (forall c, In c (p_live (s r)) <-> p_comm (s r) = Some c) /\
  length (p_live (s r)) = (if running r tr then 1 else 0) /\
  p_run (s r) = p_comm (s r) /\
  (forall t, In t (p_tags (s r)) <-> in_use r tr t) /\
  p_groups (s r) = starts r tr + regs r tr.
Proof. exact objects_fact. Qed.

(** ** Calls fail *)

(** What a start returns at each process, in every state and for every set of failures: SUCCESS exactly if nothing failed
    here and no process of the communicator has one already; then its thread runs.  Otherwise no thread is started.
    After a failing reduction or duplication nothing has changed here. *)
Theorem C109_errors_partial :
  forall s l f, NoDup l ->
  exists s' es, step s (Start l f) = Done (s', es) /\
    forall r, In r l -> exists e, In (EvStart r e) es /\
      (e = ESuccess <-> f r = FNone /\ forall q, In q l -> p_comm (s q) = None) /\
      (e = EThread <-> f r = FCreate /\ forall q, In q l -> p_comm (s q) = None) /\
      (e = EAlready <-> f r <> FReduce /\ exists q, In q l /\ p_comm (s q) <> None) /\
      (e = ESuccess -> p_comm (s' r) = Some (p_made (s r)) /\ p_run (s' r) = p_comm (s' r)) /\
      (e <> ESuccess -> p_run (s' r) = p_run (s r)) /\
      (f r = FReduce \/ f r = FDup -> s' r = s r).
Proof. exact errors_fact. Qed.

(** If a start fails at a process after the duplication (group, rank or thread), then whatever is called later: no start
    succeeds here any more, no thread runs, the communicator is never freed, and a stop or a removal of a receiver
    does not return. *)
Theorem C109_stuck_partial :
  forall os s tr l f r,
  Forall mild os -> run sys0 [] os = Done (s, tr) -> existsb (fun q => running q tr) l = false ->
  In r l -> f r = FGroup \/ f r = FRank \/ f r = FCreate ->
  forall os' s' tr', run s tr (Start l f :: os') = Done (s', tr') ->
    (In (EvStart r ESuccess) tr' -> In (EvStart r ESuccess) tr) /\
    p_run (s' r) = None /\ p_live (s' r) <> [] /\
    Forall (fun o => o <> Stop r /\ forall t, o <> Unregister r t) os'.
Proof. exact stuck_fact. Qed.

(** The statement that a start that reported an error can be repeated is wrong: [pthread_create] fails once; the second
    start reports ALREADY_INITIALIZED, registering succeeds although nobody will receive, and a stop does not
    return. *)
Theorem C109_create_refuted :
  exists s tr,
    run sys0 [] [Start [0] (fun _ => FCreate); Start [0] (fun _ => FNone); Register [0] (fun _ => false)] = Done (s, tr) /\
    tr = [EvReg 0 0; EvStart 0 EAlready; EvStart 0 EThread] /\
    p_run (s 0) = None /\ step s (Stop 0) = Hang.
Proof. eexists. eexists. vm_compute. repeat split; reflexivity. Qed.

(** The statement that everything is given back is wrong: a start, a registration, its end and a stop leave two groups. *)
Theorem C109_groups_refuted :
  exists s tr,
    run sys0 [] [Start [0] (fun _ => FNone); Register [0] (fun _ => false); Unregister 0 0; Stop 0] = Done (s, tr) /\
    running 0 tr = false /\ p_groups (s 0) = 2.
Proof. eexists. eexists. vm_compute. repeat split; reflexivity. Qed.

(** The statement that processes without thread are told so is wrong: of two processes that register together only one has
    a thread; the other returns, and this one waits in the reduction for ever. *)
Theorem C109_mixed_refuted :
  exists s tr,
    run sys0 [] [Start [0] (fun _ => FNone)] = Done (s, tr) /\
    running 1 tr = false /\ step s (Register [0; 1] (fun _ => false)) = Hang.
Proof. eexists. eexists. vm_compute. repeat split; reflexivity. Qed.

(** ** Examples: three processes; two of them start, register twice, stop, all start again. *)
Example C109_example :
  match run sys0 [] [Start [0; 1] (fun _ => FNone); Start [0; 1; 2] (fun _ => FNone); Register [1; 0] (fun _ => false);
                     Register [0] (fun _ => false); Unregister 0 0; Stop 1; Stop 0;
                     Start [0; 1; 2] (fun _ => FNone); Register [0; 1; 2] (fun _ => false)] with
  | Done (s, tr) =>
      (map (fun r => running r tr) [0; 1; 2; 3], map (fun r => p_tags (s r)) [0; 1; 2], map (fun r => p_groups (s r)) [0; 1; 2],
       firstn 8 (rev tr))
  | _ => ([], [], [], [])
  end =
  ([true; true; true; false], [[0]; [0]; [0]], [5; 4; 2],
   [EvStart 0 ESuccess; EvStart 1 ESuccess; EvStart 0 EAlready; EvStart 1 EAlready; EvStart 2 EAlready;
    EvReg 1 0; EvReg 0 0; EvReg 0 1]).
Proof. vm_compute. reflexivity. Qed.

Example C109_example_mild :
  let os := [Start [0; 1] (fun r => if r =? 1 then FDup else FNone); Stop 0; Start [1; 0] (fun _ => FNone);
             Register [1; 0] (fun r => r =? 0)] in
  Forall mild os /\
  exists s tr, run sys0 [] os = Done (s, tr) /\
    tr = [EvNoReg 0 EMpi; EvReg 1 0; EvStart 0 ESuccess; EvStart 1 ESuccess; EvStop 0; EvStart 1 EMpi; EvStart 0 ESuccess].
Proof.
  split.
  - assert (N : NoDup [0; 1] /\ NoDup [1; 0]).
    { split; repeat constructor; cbn; intuition discriminate. }
    repeat (apply Forall_cons || apply Forall_nil); cbn; try tauto.
    split; [tauto|]. intros r _. destruct (r =? 1); auto.
  - eexists. eexists. vm_compute. split; reflexivity.
Qed.

(** Two processes; the thread cannot be created at process 1: process 0 has its thread, process 1 never will. *)
Example C109_example_stuck :
  exists s tr,
    run sys0 [] [Start [0; 1] (fun r => if r =? 1 then FCreate else FNone); Stop 0; Start [0; 1] (fun _ => FNone);
                 Start [0] (fun _ => FNone)] = Done (s, tr) /\
    tr = [EvStart 0 ESuccess; EvStart 1 EAlready; EvStart 0 EAlready; EvStop 0; EvStart 1 EThread; EvStart 0 ESuccess].
Proof. eexists. eexists. vm_compute. repeat split; reflexivity. Qed.

Print Assumptions C109_start_partial.
Print Assumptions C109_stop_partial.
Print Assumptions C109_register_partial.
Print Assumptions C109_unregister_partial.
Print Assumptions C109_objects_partial.
Print Assumptions C109_errors_partial.
Print Assumptions C109_stuck_partial.
Print Assumptions C109_create_refuted.
Print Assumptions C109_groups_refuted.
Print Assumptions C109_mixed_refuted.
