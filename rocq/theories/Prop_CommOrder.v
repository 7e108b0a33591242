(** * C64: registering receivers for several grids at the same time *)
From Verif Require Import CommThreadModel CommThreadFacts CommOrderFacts.
Local Open Scope Z_scope.

(** registerReceiver waits for the other processes while it holds the lock of the process.  Two processes
    with two threads each open the same two grids; the threads get the lock in different orders.
    Then no step is possible any more, and no process has a receiver. *)
Theorem C64_deadlock_refuted : exists grp l s, krun grp kinit l = Some (Ok s) /\
  (forall g, grp g = [0; 1]%nat) /\ l = [KEnter 0 0; KEnter 1 1]%nat /\
  (forall a, kstep grp s a = None) /\ (forall r g, ks_tag s r g = None).
Proof.
  exists both, [KEnter 0 0; KEnter 1 1]%nat. eexists. split; [vm_compute; reflexivity|].
  split; [reflexivity|]. split; [reflexivity|]. split; [|reflexivity].
  intros a. apply stuck_step. vm_compute. reflexivity.
Qed.
Print Assumptions C64_deadlock_refuted.

(** If every process opens the grids in the same order (the order of the numbers), then all registrations can be
    completed from every state, whatever else is sent and closed in between. *)
Theorem C64_same_order_partial : forall grp n l s, Z.of_nat n <= 32766 -> krun grp kinit l = Some (Ok s) ->
  in_order grp l -> (forall r g, In (KEnter r g) l -> (g < n)%nat) ->
  exists l' s', krun grp s l' = Some (Ok s') /\ forall g r, (g < n)%nat -> In r (grp g) -> ks_tag s' r g <> None.
Proof. exact can_finish. Qed.
Print Assumptions C64_same_order_partial.

(** Three groups on three processes; process 1 is closing the first while process 0 waits in the last. *)
Definition three (g : nat) : list nat := match g with 0 => [0; 1] | 1 => [1; 2] | _ => [2; 0] end%nat.
Definition three_run : list kact := [KEnter 0 0; KEnter 1 0; KReturn 1 0; KReturn 0 0; KSend 1 0 1 5; KUnreg 1 0; KEnter 0 2]%nat.
Example C64_used : exists s, krun three kinit three_run = Some (Ok s) /\
  kp_lock (ks_proc s 0) = KReg 2 /\ kp_lock (ks_proc s 1) = KDel /\ kstep three s (KEnter 1 1)%nat = None.
Proof. eexists. split; [vm_compute; reflexivity|]. repeat split. Qed.
Example C64_used_order : in_order three three_run.
Proof.
  change three_run with (((((((([] ++ [KEnter 0 0]) ++ [KEnter 1 0]) ++ [KReturn 1 0]) ++ [KReturn 0 0]) ++ [KSend 1 0 1 5])
    ++ [KUnreg 1 0]) ++ [KEnter 0 2]))%nat.
  repeat apply in_order_snoc; [intros [|] r g l2 E; discriminate E|..]; intros r g E; try discriminate E;
    injection E as <- <-; intros g' L M; try (inversion L; fail).
  destruct g' as [|[|g']]; [cbn; tauto|cbn in M; destruct M as [M|[M|[]]]; discriminate M|].
  do 2 apply le_S_n in L. inversion L.
Qed.
