(** * C10-C14: concurrent cache grids

    A system is given by [readers] (ConcFacts.v): an opened grid, ranks, domains, cache
    slots, and any assignment of positions to threads; [setting] lists the premises.
    [reachable] = after some sequence of steps of ConcModel.v from the state
    after [open]; every schedule and every outcome of try_lock and rand() is such a
    sequence. *)
From Verif Require Import ConcFacts.

(** C10: whatever the schedule, the completed reads of every thread returned the values of the
    file at its positions, in order, and the other reads are still to do. *)
Theorem C10_concurrent_values :
  forall (V : Type) (m : mode) (f : file V) bl opaque dm0 P D n spread rk dm dict ixs s,
  setting m f bl P D n spread rk dm dict ixs ->
  reachable (readers m f bl opaque dm0 P D n spread rk dm dict ixs) s ->
  forall t, exists k,
    map snd (t_done (s_thr s t)) = map (fun ix => Some (Some (f_val f ix))) (firstn k (ixs t)) /\
    length (t_todo (s_thr s t)) = length (ixs t) - k.
Proof. exact (fun V => @readers_values V). Qed.
Print Assumptions C10_concurrent_values.

(** C10: a slot has one user ([uses]: from locking to unlocking, as slot of the own cache or as
    source of a copy). *)
Theorem C10_slot_exclusive :
  forall (V : Type) (c : cfg V), wf_cfg c ->
  forall s o o' a, reachable c s -> uses c s o a -> uses c s o' a -> o = o'.
Proof. exact (fun V => @slot_exclusive V). Qed.
Print Assumptions C10_slot_exclusive.

(** C10: nobody else reads or writes a block while a thread writes it. *)
Theorem C10_no_race :
  forall (V : Type) (c : cfg V), wf_cfg c ->
  forall s t o a, reachable c s -> writes c s t = Some a ->
  (reads c s o = Some a \/ exists t', o = Usr t' /\ writes c s t' = Some a) -> o = Usr t.
Proof. exact (fun V => @no_race V). Qed.
Print Assumptions C10_no_race.

(** C10: the table [writes] leaves out no write. *)
Theorem C10_writes_complete :
  forall (V : Type) (c : cfg V) s a s' r o, step c s a = Some s' ->
  s_data s' r o = s_data s r o \/ exists t ch, a = AThr t ch /\ writes c s t = Some (r, o).
Proof. exact (fun V => @writes_complete V). Qed.
Print Assumptions C10_writes_complete.

(** A 5x7 variable whose cell (i,j) contains 10*i+j, in blocks of 2x3; four threads. *)
Definition demo_file : file nat :=
  File [5; 7] (fun ix => match ix with [i; j] => 10 * i + j | _ => 999 end).
Definition demo_bl : blocked := Blocked [5; 7] [2; 3] [3; 3] 6 9.
Definition demo_ixs (t : nat) : list (list nat) :=
  match t with
  | 0 => [[4; 6]; [0; 0]; [4; 6]]
  | 1 => [[4; 6]; [2; 5]]
  | 2 => [[0; 1]; [4; 5]]
  | 3 => [[4; 6]; [0; 2]; [2; 3]]
  | _ => []
  end.
Definition demo_readers (m : mode) (P D : nat) : cfg (option nat) :=
  readers m demo_file demo_bl true Contiguous P D 1 0 (fun t => t mod P) (fun t => (t / P) mod D)
    (fun _ => []) demo_ixs.
Definition demo_answers : list (list (option (option nat))) :=
  map (map (fun v => Some (Some v))) [[46; 0; 46]; [46; 25]; [1; 45]; [46; 2; 23]].

Example demo_setting m P D : 0 < P -> 0 < D ->
  setting m demo_file demo_bl P D 1 0 (fun t => t mod P) (fun t => (t / P) mod D) (fun _ => []) demo_ixs.
Proof.
  intros HP HD. split; [discriminate|].
  split; [exists (fun n => nth n [3; 2]%Z 0%Z), (-1)%Z, (fun _ => 0); reflexivity|].
  split; [lia|]. split; [lia|].
  split; [intros; apply Nat.mod_upper_bound; lia|]. split; [intros; apply Nat.mod_upper_bound; lia|].
  split; [intros b; split; [cbn; unfold dict_size; lia|constructor]|].
  split; auto. intros [|[|[|[|t]]]]; repeat constructor.
Qed.

Example C10_example : outcome (demo_readers MNo 1 1) 3000 4 1 = (demo_answers, [0; 0; 0; 0]).
Proof. vm_compute. reflexivity. Qed.

(** C11: a thread with work left implies that the system can move ... *)
Theorem C11_no_deadlock :
  forall (V : Type) (c : cfg V), wf_cfg c ->
  forall s t, reachable c s -> t_todo (s_thr s t) <> [] -> exists a s', step c s a = Some s'.
Proof. exact (fun V => @no_deadlock V). Qed.
Print Assumptions C11_no_deadlock.

(** ... a thread which cannot move waits for a lock or a message (so it is never the
    undefined behaviour of an operation which stops it) ... *)
Theorem C11_blocked_only_by_waiting :
  forall (V : Type) (c : cfg V), wf_cfg c ->
  forall s t ch, reachable c s -> t_todo (s_thr s t) <> [] -> step_thr c s t ch = None ->
  exists w, waits c t (s_thr s t) = Some w /\ stuck_on c s t w.
Proof. exact (fun V => @blocked_why V). Qed.
Print Assumptions C11_blocked_only_by_waiting.

(** ... and, without communication thread, every schedule is finite: no livelock. *)
Theorem C11_no_livelock :
  forall (V : Type) (c : cfg V), wf_cfg c ->
  forall N l0 acts s, cf_mode c <> MThread -> (forall t, N <= t -> cf_prog c t = []) ->
  clist_init (cf_size c) (cf_spread c) = Ok l0 -> run c (init c l0) acts = Some s ->
  length acts <= sum (fun t => (cf_cells c + 5 * cf_doms c + 17) * length (cf_prog c t)) N.
Proof. exact (fun V => @bounded V). Qed.
Print Assumptions C11_no_livelock.

Theorem C11_can_finish :
  forall (V : Type) (c : cfg V), wf_cfg c ->
  forall N l0 acts s, cf_mode c <> MThread -> (forall t, N <= t -> cf_prog c t = []) ->
  clist_init (cf_size c) (cf_spread c) = Ok l0 -> run c (init c l0) acts = Some s ->
  exists acts' s', run c s acts' = Some s' /\ forall t, t_todo (s_thr s' t) = [].
Proof. exact (fun V => @stops_only_when_done V). Qed.
Print Assumptions C11_can_finish.

Example C11_example : wf_cfg (demo_readers MNo 1 1) /\ cf_prog (demo_readers MNo 1 1) 0 = [(8, 0); (0, 0); (8, 0)].
Proof.
  split; [|reflexivity].
  apply readers_wf, demo_setting; lia.
Qed.

(** C12: caches of several domains.  The values are those of the file (C10), a copied
    block is the requested one (all of its cells), and there is no deadlock. *)
Theorem C12_numa_values :
  forall (V : Type) (f : file V) bl opaque dm0 P D n spread rk dm dict ixs s,
  setting MNo f bl P D n spread rk dm dict ixs ->
  reachable (readers MNo f bl opaque dm0 P D n spread rk dm dict ixs) s ->
  forall t, exists k,
    map snd (t_done (s_thr s t)) = map (fun ix => Some (Some (f_val f ix))) (firstn k (ixs t)) /\
    length (t_todo (s_thr s t)) = length (ixs t) - k.
Proof. exact (fun V => @readers_values V MNo). Qed.
Print Assumptions C12_numa_values.

Theorem C12_received_block :
  forall (V : Type) (c : cfg V), wf_cfg c ->
  forall s t i, reachable c s ->
  (exists k j, t_pc (s_thr s t) = PCopyDone i k j) \/ t_pc (s_thr s t) = PAdd i \/
  t_pc (s_thr s t) = PEnd i \/ t_pc (s_thr s t) = PReady i ->
  forall x, x < cf_cells c ->
  s_data s (cf_rank c t) (node_off c (cf_dom c t) i) x = Some (cf_file c (req (s_thr s t)) x).
Proof. exact (fun V => @received V). Qed.
Print Assumptions C12_received_block.

Theorem C12_numa_no_deadlock :
  forall (V : Type) (c : cfg V), wf_cfg c ->
  forall s t, reachable c s -> t_todo (s_thr s t) <> [] -> exists a s', step c s a = Some s'.
Proof. exact (fun V => @no_deadlock V). Qed.
Print Assumptions C12_numa_no_deadlock.

Example C12_example : outcome (demo_readers MNo 1 2) 3000 4 1 = (demo_answers, [0; 0; 0; 0]).
Proof. vm_compute. reflexivity. Qed.

(** C13: MPI windows. *)
Theorem C13_window_values :
  forall (V : Type) (f : file V) bl opaque dm0 P D n spread rk dm dict ixs s,
  setting MWin f bl P D n spread rk dm dict ixs ->
  reachable (readers MWin f bl opaque dm0 P D n spread rk dm dict ixs) s ->
  forall t, exists k,
    map snd (t_done (s_thr s t)) = map (fun ix => Some (Some (f_val f ix))) (firstn k (ixs t)) /\
    length (t_todo (s_thr s t)) = length (ixs t) - k.
Proof. exact (fun V => @readers_values V MWin). Qed.
Print Assumptions C13_window_values.

(** While an entry can be used (its mutex is free, or its holder is about to look at it),
    every location in it holds the whole block. *)
Theorem C13_dictionary_exact :
  forall (V : Type) (c : cfg V), wf_cfg c ->
  forall s b e, reachable c s -> cf_mode c = MWin -> listed s b e ->
  (s_lock s (LDict b) = None \/
   exists t i, s_lock s (LDict b) = Some (Usr t) /\ t_pc (s_thr s t) = PStartHold i) ->
  forall x, x < cf_cells c ->
  s_data s (e / (cf_size c * cf_doms c)) (e mod (cf_size c * cf_doms c)) x = Some (cf_file c b x).
Proof. exact (fun V => @usable_entries V). Qed.
Print Assumptions C13_dictionary_exact.

Theorem C13_listed_once :
  forall (V : Type) (c : cfg V), wf_cfg c ->
  forall s b b' e, reachable c s -> cf_mode c = MWin -> listed s b e ->
  (listed s b' e -> b = b') /\ count_occ oeq_dec (s_dict s b) (Some e) = 1.
Proof. exact (fun V => @listed_once V). Qed.
Print Assumptions C13_listed_once.

Example C13_example : outcome (demo_readers MWin 2 2) 3000 4 1 = (demo_answers, [0; 0; 0; 0]).
Proof. vm_compute. reflexivity. Qed.

(** C14: communication thread; [dict] (the dictionary at the start) is arbitrary. *)
Theorem C14_thread_values :
  forall (V : Type) (f : file V) bl opaque dm0 P D n spread rk dm dict ixs s,
  setting MThread f bl P D n spread rk dm dict ixs ->
  reachable (readers MThread f bl opaque dm0 P D n spread rk dm dict ixs) s ->
  forall t, exists k,
    map snd (t_done (s_thr s t)) = map (fun ix => Some (Some (f_val f ix))) (firstn k (ixs t)) /\
    length (t_todo (s_thr s t)) = length (ixs t) - k.
Proof. exact (fun V => @readers_values V MThread). Qed.
Print Assumptions C14_thread_values.

(** A thread waiting for a block is the only one of its rank; there is at most one reply for
    it, which answers its own request: the whole block, or a refusal. *)
Theorem C14_replies_match :
  forall (V : Type) (c : cfg V), wf_cfg c ->
  forall s t dst i, reachable c s -> t_pc (s_thr s t) = PWaitBlk i dst ->
  length (s_brep s (cf_rank c t) dst) <= 1 /\
  (forall t' i' dst', t_pc (s_thr s t') = PWaitBlk i' dst' -> cf_rank c t' = cf_rank c t -> t' = t) /\
  forall b x q, s_brep s (cf_rank c t) dst = (b, x) :: q ->
    b = req (s_thr s t) /\
    forall buf, x = Some buf -> forall z, z < cf_cells c -> buf z = Some (cf_file c (req (s_thr s t)) z).
Proof. exact (fun V => @replies_match V). Qed.
Print Assumptions C14_replies_match.

Theorem C14_info_replies_match :
  forall (V : Type) (c : cfg V), wf_cfg c ->
  forall s t i b x q, reachable c s -> t_pc (s_thr s t) = PWaitInfo i ->
  s_irep s (cf_rank c t) (cf_home c (req (s_thr s t))) = (b, x) :: q -> b = req (s_thr s t) /\ q = [].
Proof. exact (fun V => @info_match V). Qed.
Print Assumptions C14_info_replies_match.

(** No reply is left over for a later request. *)
Theorem C14_no_stray_reply :
  forall (V : Type) (c : cfg V), wf_cfg c ->
  forall s src dst, reachable c s -> s_brep s src dst <> [] ->
  exists t i, cf_rank c t = src /\ t_pc (s_thr s t) = PWaitBlk i dst.
Proof. exact (fun V => @no_stray V). Qed.
Print Assumptions C14_no_stray_reply.

Example C14_example : outcome (demo_readers MThread 2 2) 4000 4 1 = (demo_answers, [0; 0; 0; 0]).
Proof. vm_compute. reflexivity. Qed.
