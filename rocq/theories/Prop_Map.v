(** * C65, C66: the table of receivers and its lock *)
From Verif Require Import MapModel MapFacts.

(** ** C65: accesses of the table *)
(** Two writing accesses (registerReceiver in any thread, the removal in the communication
    thread) never overlap, although the lock is passed from one thread to another. *)
Theorem C65_writes_exclusive_partial : forall s x y, mreach s -> writes s x -> writes s y -> x = y.
Proof. exact writes_exclusive. Qed.
Print Assumptions C65_writes_exclusive_partial.
(** A receiver is not called after unregisterReceiver has returned (its object may be deleted then). *)
Theorem C65_not_called_after_partial : forall s tag, mreach s -> m_com s = CCall tag -> m_gone s tag = false.
Proof. exact call_alive. Qed.
Print Assumptions C65_not_called_after_partial.
(** But the reading accesses take no lock: a look-up in the communication thread overlaps a
    registration, and a look-up in send overlaps a registration and a removal. *)
Theorem C65_lookup_race_refuted :
  (exists s t, mreach s /\ writes s (Thread t) /\ reads s Comm) /\
  (exists s t t', mreach s /\ writes s (Thread t) /\ reads s (Thread t')) /\
  (exists s t, mreach s /\ writes s Comm /\ reads s (Thread t)).
Proof.
  split; [|split].
  - eexists. exists 0. split; [exists [AReg 0; AReduced 0 0; AStored 0; AReg 0; AReduced 0 1; CRecv 0]; vm_compute; reflexivity|].
    split; eexists; reflexivity.
  - eexists. exists 0, 1. split; [exists [AReg 0; AReduced 0 0; AStored 0; AReg 0; AReduced 0 1; AFind 1 0]; vm_compute; reflexivity|].
    split; eexists; reflexivity.
  - eexists. exists 1. split;
      [exists [AReg 0; AReduced 0 0; AStored 0; AReg 0; AReduced 0 1; AStored 0; AUnreg 0 0; CUnreg; AFind 1 1]; vm_compute; reflexivity|].
    split; [exists 0, 0; reflexivity|eexists; reflexivity].
Qed.
Print Assumptions C65_lookup_race_refuted.
(** A receiver is called, then unregistered; unregisterReceiver returns while the table still has it. *)
Example C65_used : exists s s',
  mrun false minit [AReg 0; AReduced 0 3; AStored 0; CRecv 3; CFound; AUnreg 1 3] = Some (Ok s) /\ m_com s = CCall 3 /\ m_gone s 3 = false /\
  mrun false s [CCalled; CUnreg; AUnregDone 1] = Some (Ok s') /\ m_gone s' 3 = true /\ m_map s' 3 = true /\ writes s' Comm.
Proof.
  eexists. eexists. split; [vm_compute; reflexivity|]. split; [reflexivity|]. split; [reflexivity|].
  split; [vm_compute; reflexivity|]. split; [reflexivity|]. split; [reflexivity|]. exists 1, 3. reflexivity.
Qed.

(** ** C66: the lock is released by the thread that acquired it *)
(** Every removal ends with the communication thread releasing a lock that another thread acquired; this
    is undefined for the mutexes of C++ and POSIX. *)
Theorem C66_refuted :
  (forall s t tag, mreach s -> m_com s = CErase t tag -> m_lock s = Some t /\ mstep true s CErased = Some Ub) /\
  mrun true minit [AReg 0; AReduced 0 0; AStored 0; AUnreg 0 0; CUnreg; CErased] = Some Ub.
Proof.
  split; [|reflexivity]. intros s t tag R C. split; [exact (erase_owner s t tag R C)|]. cbn [mstep]. rewrite C. reflexivity.
Qed.
Print Assumptions C66_refuted.
(** With a mutex that permits this, the lock can always be released again, from every state. *)
Theorem C66_released_partial : forall s, mreach s -> exists l s', mrun false s l = Some (Ok s') /\ m_lock s' = None.
Proof. exact lock_released. Qed.
Print Assumptions C66_released_partial.
Example C66_used : exists s, mrun false minit [AReg 0; AReduced 0 0; AStored 0; AUnreg 2 0; CRecv 5] = Some (Ok s) /\
  m_lock s = Some 2 /\ mstep false s CUnreg = None.
Proof. eexists. split; [vm_compute; reflexivity|]. split; reflexivity. Qed.
