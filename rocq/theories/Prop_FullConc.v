(** * Property C69: concurrent reads of distributed full grids (grid/level/fulldist.h) *)
From Verif Require Import FullConcFacts.

(** C69: any number of threads, ranks, domains and slots, every MPI and NUMA policy, every schedule: after [open] on all ranks
    the completed reads of a thread returned the values of the file at its positions, in order. *)
Theorem C69_values :
  forall (V : Type) (m : mpi_kind) (p : numa_policy) (f : file V) bl opaque mode P D n spread rk dm ixs,
  full_setting m p f bl P D n spread rk dm ixs ->
  let g := Geom bl f opaque in
  let d := Dist mode P D (b_total bl) in
  exists s0, fd_open g d n spread = Ok s0 /\
  let c := full_readers m p bl d n spread rk dm (fd_store s0) ixs in
  wf_fcfg c /\
  forall s, ureach c s -> forall t, exists k,
    map snd (q_done (u_thr s t)) = map (fun ix => Some (Some (f_val f ix))) (firstn k (ixs t)) /\
    length (q_todo (u_thr s t)) = length (ixs t) - k.
Proof. exact (fun V => @full_values V). Qed.
Print Assumptions C69_values.

(** C69: every schedule ends (the bound is linear in the number of reads), and where it cannot be continued all reads
    are answered. *)
Theorem C69_finishes :
  forall (V : Type) (m : mpi_kind) (p : numa_policy) (f : file V) bl opaque mode P D n spread rk dm ixs N,
  full_setting m p f bl P D n spread rk dm ixs -> (forall t, N <= t -> ixs t = []) ->
  let g := Geom bl f opaque in
  let d := Dist mode P D (b_total bl) in
  exists s0 l0, fd_open g d n spread = Ok s0 /\ clist_init n spread = Ok l0 /\
  let c := full_readers m p bl d n spread rk dm (fd_store s0) ixs in
  forall acts s, urun c (uinit c l0) acts = Some s ->
    length acts <= sum (fun t => (b_tbs bl + 5 * D + 13) * length (ixs t)) N /\
    ((forall a, ustep c s a = None) ->
     forall t, map snd (q_done (u_thr s t)) = map (fun ix => Some (Some (f_val f ix))) (ixs t)).
Proof. exact (fun V => @full_finishes V). Qed.
Print Assumptions C69_finishes.

(** C69: no deadlock. *)
Theorem C69_no_deadlock :
  forall (W : Type) (c : fcfg W), wf_fcfg c ->
  forall s t, ureach c s -> q_todo (u_thr s t) <> [] -> exists a s', ustep c s a = Some s'.
Proof. exact (fun W => @u_no_deadlock W). Qed.
Print Assumptions C69_no_deadlock.

(** C69: a slot of a cache has one user at a time (from locking to unlocking, as slot of the own cache or as source of a
    copy), the slot exists, and a step changes no slot which its thread does not use. *)
Theorem C69_slot_exclusive :
  forall (W : Type) (c : fcfg W), wf_fcfg c ->
  forall s t t' r d i, ureach c s -> q_uses c s t r d i -> q_uses c s t' r d i -> t = t'.
Proof. exact (fun W => @q_exclusive W). Qed.
Print Assumptions C69_slot_exclusive.

Theorem C69_slot_exists :
  forall (W : Type) (c : fcfg W), wf_fcfg c ->
  forall s t r d i, ureach c s -> q_uses c s t r d i -> d < d_domains (fc_dist c) /\ i < fc_size c.
Proof. exact (fun W => @q_lt W). Qed.
Print Assumptions C69_slot_exists.

Theorem C69_writes_used :
  forall (W : Type) (c : fcfg W) s a s' r o, ustep c s a = Some s' ->
  u_data s' r o = u_data s r o \/
  exists t f i, a = UThr t f /\ r = fc_rank c t /\ o = uoff c (fc_dom c t) i /\ q_uses c s t r (fc_dom c t) i.
Proof. exact (fun W => @u_writes W). Qed.
Print Assumptions C69_writes_used.

(** C69: at most one thread of a rank is between [MPI_Win_lock] and [MPI_Win_unlock]. *)
Theorem C69_one_epoch :
  forall (W : Type) (c : fcfg W), wf_fcfg c ->
  forall s, ureach c s -> forall t1 t2 i1 i2 x1 x2, fc_rank c t1 = fc_rank c t2 ->
  q_pc (u_thr s t1) = QGet i1 x1 -> q_pc (u_thr s t2) = QGet i2 x2 -> t1 = t2.
Proof. exact (fun W => @u_epoch W). Qed.
Print Assumptions C69_one_epoch.

(** C69: between two ranks there is at most one request or reply; a reply belongs to the thread which waits and
    contains its block, so that [MPI_Recv] with the constant tag 0 takes the right message. *)
Theorem C69_right_reply :
  forall (W : Type) (c : fcfg W), wf_fcfg c ->
  forall s, ureach c s -> forall src dst,
  length (u_req s src dst) + length (u_rep s src dst) <= 1 /\
  forall m, In m (u_rep s src dst) -> exists t i, fc_rank c t = src /\ q_pc (u_thr s t) = QWait i /\
    block_rank (fc_dist c) (rq (u_thr s t)) = dst /\ forall x, m x = bcont c (rq (u_thr s t)) x.
Proof. exact (fun W => @u_reply W). Qed.
Print Assumptions C69_right_reply.

(** C69: the three ways to address a block stay inside the storage of the rank. *)
Theorem C69_in_storage :
  forall (W : Type) (c : fcfg W), wf_fcfg c ->
  forall b x d, b < d_total (fc_dist c) -> x < fc_cells c ->
  let len := fc_cells c * local_block_count (fc_dist c) * d_domains (fc_dist c) in
  node_cell c (block_node_offset (fc_dist c) b) x < len /\
  (d < d_domains (fc_dist c) -> numa_cell c d b x < len) /\
  (block_domain (fc_dist c) b = d -> own_cell c d b x < len).
Proof. exact (fun W => @u_bounds W). Qed.
Print Assumptions C69_in_storage.

(** A 5x7 variable whose cell (i,j) contains 10*i+j, in blocks of 2x3; four threads on two ranks with two domains; one slot
    per cache. *)
Definition demo_file : file nat :=
  File [5; 7] (fun ix => match ix with [i; j] => 10 * i + j | _ => 999 end).
Definition demo_bl : blocked := Blocked [5; 7] [2; 3] [3; 3] 6 9.
Definition demo_ixs (t : nat) : list (list nat) :=
  match t with
  | 0 => [[4; 6]; [0; 0]; [4; 6]]
  | 1 => [[4; 6]; [2; 5]]
  | 2 => [[0; 1]; [4; 5]]
  | 3 => [[4; 6]; [0; 2]; [2; 3]]
  | _ => []
  end.
Definition demo_answers : list (list (option (option nat))) :=
  map (map (fun v => Some (Some v))) [[46; 0; 46]; [46; 25]; [1; 45]; [46; 2; 23]].
(** The storages after [open], as a table (evaluated once). *)
Definition demo_table (P D : nat) : list (list (option nat)) :=
  match fd_open (Geom demo_bl demo_file true) (Dist Contiguous P D 9) 1 0 with
  | Ok s => map (fun r => map (m_at (fd_store s r)) (seq 0 (m_len (fd_store s r)))) (seq 0 P)
  | Ub => []
  end.
Definition demo_readers (m : mpi_kind) (p : numa_policy) (P D : nat) : fcfg (option nat) :=
  let tab := demo_table P D in
  full_readers m p demo_bl (Dist Contiguous P D 9) 1 0 (fun t => t mod P) (fun t => (t / P) mod D)
    (fun r => Mem (length (nth r tab [])) (fun a => nth a (nth r tab []) None)) demo_ixs.

Example demo_setting m p P D : 0 < P -> 0 < D -> m <> XNo ->
  full_setting m p demo_file demo_bl P D 1 0 (fun t => t mod P) (fun t => (t / P) mod D) demo_ixs.
Proof.
  intros HP HD Hm. split; [discriminate|].
  split; [exists (fun n => nth n [3; 2]%Z 0%Z), (-1)%Z, (fun _ => 0); reflexivity|].
  split; [lia|]. split; [lia|].
  split; [intros t; apply Nat.mod_upper_bound; lia|].
  split; [intros t; apply Nat.mod_upper_bound; lia|].
  split; [tauto|]. intros [|[|[|[|t]]]]; repeat constructor.
Qed.

Example C69_window : let '(k, vs, todo) := u_outcome (demo_readers XWin PNumaFullCache 2 2) 1500 4 1 in
  50 < k /\ vs = demo_answers /\ todo = [0; 0; 0; 0].
Proof. vm_compute. split; [lia|auto]. Qed.
Example C69_thread : let '(k, vs, todo) := u_outcome (demo_readers XThread PNumaFull 2 2) 1500 4 7 in
  50 < k /\ vs = demo_answers /\ todo = [0; 0; 0; 0].
Proof. vm_compute. split; [lia|auto]. Qed.
Example C69_one_rank : let '(k, vs, todo) := u_outcome (demo_readers XNo PNumaFullCache 1 3) 1500 4 3 in
  50 < k /\ vs = demo_answers /\ todo = [0; 0; 0; 0].
Proof. vm_compute. split; [lia|auto]. Qed.

(** Reachable states in the middle: two ranks in epochs of their windows; a thread waiting for a reply. *)
Definition demo_mid (m : mpi_kind) (p : numa_policy) (fuel : nat) (z : Z) : option (fst_ (option nat)) :=
  match clist_init 1 0 with
  | Ok l0 => Some (snd (uplan (demo_readers m p 2 2) fuel 4 z (uinit (demo_readers m p 2 2) l0)))
  | Ub => None
  end.
Example demo_mid_reach m p fuel z s : demo_mid m p fuel z = Some s -> ureach (demo_readers m p 2 2) s.
Proof.
  unfold demo_mid. destruct (clist_init 1 0) as [l0|] eqn:E; [|discriminate]. intros H. injection H as <-.
  exists l0, (fst (uplan (demo_readers m p 2 2) fuel 4 z (uinit (demo_readers m p 2 2) l0))).
  split; [exact E|apply uplan_run].
Qed.
Definition demo_pcs (s : option (fst_ (option nat))) : list (fpc (option nat)) :=
  match s with Some s => map (fun t => q_pc (u_thr s t)) (seq 0 4) | None => [] end.
Example C69_epochs : demo_pcs (demo_mid XWin PNumaFullCache 70 1) =
  [QGet 0 2; QGet 0 0; QRelease 0 (Some (Some 1)); QMem 0 6].
Proof. vm_compute. reflexivity. Qed.
Example C69_waiting : demo_pcs (demo_mid XThread PNumaFullCache 70 7) = [QWait 0; QTryLocked 0 1; QIdle; QMem 0 1].
Proof. vm_compute. reflexivity. Qed.
