(** * C42: a rank which has opened the level finds the other ranks ready

    [oreach u s]: reached by any relative speed of the masters of all domains of all
    ranks (StartupModel.v).  [done_at u s q d]: [open] has returned to the master of
    domain [d] on rank [q].  [o_mem s r d x = None]: not yet initialised. *)
From Verif Require Import StartupFacts.

(** C42 is false.  Two ranks with two domains and full storage: [open] has returned on rank 0,
    but domain 1 of rank 1 has not loaded its block. *)
Theorem C42_blocks_refuted :
  exists u s, u_var u = FullWin /\ oreach u s /\ (forall d, d < u_doms u -> done_at u s 0 d = true) /\
  1 < u_ranks u /\ 1 < u_doms u /\ 0 < u_blocks u 1 1 /\ o_mem s 1 1 (Data 0) = None.
Proof.
  destruct full_witness as (s & H1 & H2 & H3).
  exists (two FullWin 2), s. repeat (split; [first [exact H1 | exact H2 | reflexivity | (cbn; lia)]|]). exact H3.
Qed.
Print Assumptions C42_blocks_refuted.

(** The same with caches and windows or the communication thread: a dictionary entry. *)
Theorem C42_entries_refuted :
  forall v, v = CacheWin \/ v = CacheThread ->
  exists u s, u_var u = v /\ oreach u s /\ (forall d, d < u_doms u -> done_at u s 0 d = true) /\
  1 < u_ranks u /\ 1 < u_doms u /\ 0 < u_blocks u 1 1 /\ o_mem s 1 1 (Entry 0) = None.
Proof.
  intros v [-> | ->].
  - destruct entry_witness as (s & H1 & H2 & H3 & _).
    exists (two CacheWin 2), s. repeat (split; [first [exact H1 | exact H2 | reflexivity | (cbn; lia)]|]). exact H3.
  - destruct thread_witness as (s & H1 & H2 & H3 & _).
    exists (two CacheThread 2), s. repeat (split; [first [exact H1 | exact H2 | reflexivity | (cbn; lia)]|]). exact H3.
Qed.
Print Assumptions C42_entries_refuted.

(** With a single domain: rank 0 acquires a lock on rank 1 before rank 1 executes
    [initMutexMem], which releases it, so that rank 1 holds the same lock as well. *)
Theorem C42_locks_refuted :
  exists u s q q' a, u_var u = CacheWin /\ u_doms u = 1 /\ oreach u s /\
  In (q, a) (o_hold s) /\ In (q', a) (o_hold s) /\ q <> q'.
Proof.
  destruct lock_witness as (s & H1 & H2 & H3).
  exists (two CacheWin 1), s, 0, 1, (1, 0, 0). repeat (split; [first [exact H1 | exact H2 | exact H3 | reflexivity]|]). lia.
Qed.
Print Assumptions C42_locks_refuted.

(** With a single domain and the communication thread: rank 0 may send a request which rank 1
    has no receiver for. *)
Theorem C42_receivers_refuted :
  exists u s, u_var u = FullThread /\ u_doms u = 1 /\ oreach u s /\ done_at u s 0 0 = true /\
  1 < u_ranks u /\ o_mem s 1 0 (Recv 0) = None.
Proof.
  destruct recv_witness as (s & H1 & H2 & H3).
  exists (two FullThread 1), s. repeat (split; [first [exact H1 | exact H2 | reflexivity | (cbn; lia)]|]). exact H3.
Qed.
Print Assumptions C42_receivers_refuted.

(** What remains true for any number of ranks, domains and blocks.  Domain 0 of every rank has
    loaded its blocks; so all blocks are loaded if there is a single domain. *)
Theorem C42_domain0_blocks_partial :
  forall u s q d r k, oreach u s -> is_full u -> q < u_ranks u -> d < u_doms u -> r < u_ranks u ->
  done_at u s q d = true -> k < u_blocks u r 0 -> o_mem s r 0 (Data k) = Some (u_content u r 0 k).
Proof. exact remote_blocks. Qed.
Print Assumptions C42_domain0_blocks_partial.

(** Domain 0 of every rank has initialised its dictionary entries. *)
Theorem C42_domain0_entries_partial :
  forall u s q d r k, oreach u s -> is_cache u -> q < u_ranks u -> d < u_doms u -> r < u_ranks u ->
  done_at u s q d = true -> k < u_blocks u r 0 -> o_mem s r 0 (Entry k) = Some (-1)%Z.
Proof. exact remote_entries. Qed.
Print Assumptions C42_domain0_entries_partial.

(** All domains of the own rank are ready. *)
Theorem C42_own_blocks_partial :
  forall u s q d d' k, oreach u s -> is_full u -> q < u_ranks u -> d < u_doms u -> d' < u_doms u ->
  done_at u s q d = true -> k < u_blocks u q d' -> o_mem s q d' (Data k) = Some (u_content u q d' k).
Proof. exact own_blocks. Qed.
Print Assumptions C42_own_blocks_partial.

Theorem C42_own_entries_partial :
  forall u s q d d' k, oreach u s -> is_cache u -> q < u_ranks u -> d < u_doms u -> d' < u_doms u ->
  done_at u s q d = true -> k < u_blocks u q d' ->
  o_mem s q d' (Entry k) = Some (-1)%Z /\ (u_var u = CacheWin -> o_mem s q d' (Lock k) <> None).
Proof. exact own_entries. Qed.
Print Assumptions C42_own_entries_partial.

(** If no lock is used before the last initialisation (for example, because the program
    has a barrier after open), locks have one holder, and the first to ask gets the lock. *)
Theorem C42_late_locks_partial :
  forall u acts1 acts2 s1 s2, orun u ostart acts1 = Some s1 -> Forall runs acts1 ->
  orun u s1 acts2 = Some s2 -> Forall locks acts2 ->
  forall q q' a, In (q, a) (o_hold s2) -> In (q', a) (o_hold s2) -> q = q'.
Proof. exact late_locks. Qed.
Print Assumptions C42_late_locks_partial.

Theorem C42_late_first_partial :
  forall u acts1 s1 q r d k s2, orun u ostart acts1 = Some s1 -> Forall runs acts1 ->
  (forall r d, r < u_ranks u -> d < u_doms u -> done_at u s1 r d = true) ->
  ostep u s1 (OLock q r d k) = Some s2 -> In (q, (r, d, k)) (o_hold s2).
Proof. exact late_first. Qed.
Print Assumptions C42_late_first_partial.

(** The four kinds of levels can be opened: round-robin schedules of two ranks with two domains
    reach the end, and then all items are initialised. *)
Definition fair (v : variant) (fuel : nat) : option ost :=
  fold_left (fun s a => match s with
                        | Some s => match ostep (two v 2) s a with Some s' => Some s' | None => Some s end
                        | None => None end)
    (concat (repeat [ORun 0 0; ORun 1 1; ORun 1 0; ORun 0 1] fuel)) (Some ostart).

Example C42_opens :
  forallb (fun v => match fair v 60 with
     | Some s => forallb (fun rd => done_at (two v 2) s (fst rd) (snd rd)) [(0, 0); (0, 1); (1, 0); (1, 1)]
     | None => false end) [FullWin; FullThread; CacheWin; CacheThread] = true.
Proof. vm_compute. reflexivity. Qed.
