(** * C45-C47: the communication thread *)
From Coq Require Import Lia.
From Verif Require Import CommThreadModel CommThreadFacts.
Local Open Scope Z_scope.

(** ** C45: receiver tags.  [grp g]: the processes of registration [g]; any groups,
    any number of registrations, in any interleaving. *)
Theorem C45_same_tag : forall grp s r r' g t t', kreachable grp s ->
  ks_tag s r g = Some t -> ks_tag s r' g = Some t' -> t = t'.
Proof. exact tag_same. Qed.
Print Assumptions C45_same_tag.
(** No two registrations of a process share a tag, not even closed ones. *)
Theorem C45_unique : forall grp s r g g' t, kreachable grp s ->
  ks_tag s r g = Some t -> ks_tag s r g' = Some t -> g = g'.
Proof. exact tag_unique. Qed.
Print Assumptions C45_unique.
(** A handled message was sent through the same registration, with the same data, to this process,
    by the process the receiver is told.  ([small]: no control tag handed out, see C46.) *)
Theorem C45_right_receiver : forall grp s id p g sender d, kreachable grp s -> small s ->
  In (KGot id p g sender d) (ks_log s) ->
  exists src k, nth_error (ks_sent s) id = Some (src, g, k, d) /\
    nth_error (grp g) k = Some p /\ nth_error (grp g) sender = Some src.
Proof. exact delivery. Qed.
Print Assumptions C45_right_receiver.
(** Each message is handled once: it is in flight or in the log, and in the log only once. *)
Theorem C45_handled_once : forall grp s, kreachable grp s -> small s ->
  NoDup (log_ids (ks_log s)) /\ all_ids s.
Proof. exact (fun grp s R SM => conj (handled_once grp s R SM) (all_ids_reachable grp s R SM)). Qed.
Print Assumptions C45_handled_once.
(** A message is dropped only if the process has not finished the registration or
    has unregistered the receiver. *)
Theorem C45_not_lost_partial : forall grp s r src s' id, kreachable grp s -> small s ->
  kstep grp s (KHandle r src) = Some (Ok s') -> ks_log s' = KDrop id r :: ks_log s ->
  exists g k d, nth_error (ks_sent s) id = Some (src, g, k, d) /\ (ks_tag s r g = None \/ ks_closed s r g = true).
Proof. exact not_lost. Qed.
Print Assumptions C45_not_lost_partial.
(** The handler can always take a message in flight, and does nothing undefined. *)
Theorem C45_handler_progress : forall grp s m, kreachable grp s -> small s -> In m (ks_net s) ->
  exists s', kstep grp s (KHandle (km_dst m) (km_src m)) = Some (Ok s').
Proof. exact handle_enabled. Qed.
Print Assumptions C45_handler_progress.
(** But a process that returns early from the registration can send before the
    other process has stored its receiver; the message is then lost. *)
Theorem C45_early_message_refuted : exists grp l s, krun grp kinit l = Some (Ok s) /\ small s /\
  ks_sent s = [(0%nat, 0%nat, 1%nat, 42)] /\ ks_log s = [KDrop 0 1] /\
  (exists l' s', krun grp s l' = Some (Ok s') /\ ks_tag s' 1 0 = Some 0 /\ ks_closed s' 1 0 = false).
Proof.
  exists both, [KEnter 0 0; KEnter 1 0; KReturn 0 0; KSend 0 0 1 42; KHandle 1 0]%nat.
  eexists. split; [vm_compute; reflexivity|]. split; [|split; [reflexivity|split; [reflexivity|]]].
  - intros [|r] [|g] t E; cbn in E; try discriminate E. injection E as <-. reflexivity.
  - exists [KReturn 1 0]%nat. eexists. split; [vm_compute; reflexivity|]. split; reflexivity.
Qed.
Print Assumptions C45_early_message_refuted.
(** Overlapping groups {0,1}, {1,2}, {2,0}: tags 0, 1, 2; a message over the last one. *)
Definition ring (g : nat) : list nat := match g with 0 => [0; 1] | 1 => [1; 2] | _ => [2; 0] end%nat.
Example C45_used : exists s,
  krun ring kinit [KEnter 0 0; KEnter 1 0; KReturn 1 0; KEnter 1 1; KReturn 0 0; KEnter 2 1; KReturn 2 1; KReturn 1 1;
    KEnter 0 2; KEnter 2 2; KReturn 0 2; KReturn 2 2; KSend 0 2 0 77; KHandle 2 0; KUnreg 2 1; KHandle 2 2]%nat = Some (Ok s) /\
  ks_tag s 0%nat 0%nat = Some 0 /\ ks_tag s 1%nat 1%nat = Some 1 /\ ks_tag s 0%nat 2%nat = Some 2 /\
  ks_tag s 2%nat 2%nat = Some 2 /\ ks_log s = [KGot 0 2 2 1 77] /\ ks_net s = [].
Proof. eexists. split; [vm_compute; reflexivity|]. repeat split. Qed.

(** ** C46: control tags *)
(** Two processes open and close a grid again and again, one at a time.  The tag of the n-th grid
    is [n], so one of them has the unregister tag, and a message to it
    unlocks a mutex nobody holds; for the next one a message ends the thread. *)
Theorem C46_refuted :
  (forall n, exists s, krun both kinit (cycles n ++ only_open n) = Some (Ok s) /\
     ks_tag s 0%nat n = Some (Z.of_nat n) /\
     (forall g r, (g < n)%nat -> (r < 2)%nat -> ks_closed s r g = true)) /\
  (forall d, exists n, krun both kinit (cycles n ++ only_open n ++ [KSend 0 n 1 d; KHandle 1 0]) = Some Ub) /\
  (forall d, exists n s, krun both kinit (cycles n ++ only_open n ++ [KSend 0 n 1 d; KHandle 1 0]) = Some (Ok s) /\
     kp_run (ks_proc s 1) = false /\ ks_closed s 1%nat n = false).
Proof.
  split; [|split; [exact unreg_collision|exact exit_collision]].
  intros n. destruct (tag_grows n) as (s & R & T & _ & C & _). exists s. auto.
Qed.
Print Assumptions C46_refuted.
(** With at most [n] registrations all tags are below [n]; so up to 32766 receivers are fine. *)
Theorem C46_few_partial : forall grp n l s r g t, krun grp kinit l = Some (Ok s) ->
  (forall r g, In (KEnter r g) l -> (g < n)%nat) -> ks_tag s r g = Some t ->
  0 <= t < Z.of_nat n /\ (Z.of_nat n <= 32766 -> t < UNREG_TAG /\ t < EXIT_TAG).
Proof.
  intros grp n l s r g t R F T. pose proof (tag_bound grp n l s r g t R F T).
  unfold UNREG_TAG, EXIT_TAG. lia.
Qed.
Print Assumptions C46_few_partial.
Example C46_used : exists s, krun both kinit (cycles 3 ++ only_open 3) = Some (Ok s) /\ ks_tag s 1%nat 3%nat = Some 3.
Proof. eexists. split; [vm_compute; reflexivity|reflexivity]. Qed.

(** ** C47: pinning *)
(** Non-negative arguments. *)
Theorem C47_nonnegative_partial : forall n c, 0 <= n < 2 ^ 31 -> 0 <= c < 2 ^ 31 ->
  pin n c = Ok (if c <? n then Some c else None).
Proof. exact pin_nonneg. Qed.
Print Assumptions C47_nonnegative_partial.
(** Invalid arguments do not pin (except the smallest int, below). *)
Theorem C47_invalid_partial : forall n c, 0 <= n < 2 ^ 31 -> - 2 ^ 31 < c < 2 ^ 31 -> n <= c \/ c < - n -> pin n c = Ok None.
Proof. exact pin_invalid. Qed.
Print Assumptions C47_invalid_partial.
(** Every valid negative argument, also the default -1, selects a CPU that does not exist
    (the CPUs are 0..n-1; the last one, n-1, was meant for -1). *)
Theorem C47_negative_refuted : forall n c, 0 <= n < 2 ^ 30 -> - n <= c < 0 ->
  exists x, pin n c = Ok (Some x) /\ n < x.
Proof.
  exact (fun n c N C => ex_intro _ (n - c) (conj (pin_negative_used n c N C)
    (pin_negative n c (n - c) (proj1 N) (proj2 C) (pin_negative_used n c N C)))).
Qed.
Print Assumptions C47_negative_refuted.
(** The smallest int overflows. *)
Theorem C47_min_int_refuted : forall n, 0 <= n -> pin n (- 2 ^ 31) = Ub.
Proof. intros n N. unfold pin. destruct (Z.ltb_spec (- 2 ^ 31) n); [reflexivity|lia]. Qed.
Print Assumptions C47_min_int_refuted.
Example C47_used : pin 8 (-1) = Ok (Some 9) /\ pin 8 3 = Ok (Some 3) /\ pin 8 8 = Ok None /\ pin 8 (-9) = Ok None.
Proof. repeat split. Qed.
