(** * C93: stores which become visible in any order, loads which return old values

    The machine of LateModel.v: all stores to a location remain, with stamps; a load returns any of them which is not older
    than what the thread has to know from its own stores, from the mutexes it has locked and from atomic loads. *)
From Verif Require Import LateFacts.

(** Every program in which each location is touched only by the holder of its mutex (in executions with one memory, BufSpec.v): whatever the
    loads return, there is an execution with one memory and the same threads and mutexes; the holder of a mutex reads the values of this
    memory, and so does the next holder. *)
Theorem C93_guarded_partial :
  forall (A K W L C : Type) aeq keq (prog : nat -> L -> C -> option (instr A K W L)) sync guard m0 l0 xs v,
  (forall a a' : A, aeq a a' = true <-> a = a') -> (forall k k' : K, keq k k' = true <-> k = k') ->
  (forall acts' s, srun aeq keq prog (SSt m0 (fun _ => None) l0) acts' = Some s -> orderly prog guard s) ->
  vrun aeq keq prog sync (vinit m0 l0) xs = Some v ->
  exists acts' s, srun aeq keq prog (SSt m0 (fun _ => None) l0) acts' = Some s /\
    v_loc v = m_loc s /\ v_lock v = m_lock s /\
    (forall t a rd, v_lock v (guard a) = Some t -> vload (v_mem v) t rd a = m_mem s a) /\
    (forall t a rd, v_lock v (guard a) = None -> vload (vlock (v_mem v) t (guard a)) t rd a = m_mem s a).
Proof. exact (fun A K W L C => @guarded_late A K W L C). Qed.
Print Assumptions C93_guarded_partial.

(** Reads of the caches of one process, several domains: the completed reads returned the values of the file, in
    order, the others are still to do, and while some are left somebody can go on. *)
Theorem C93_cache_partial :
  forall (V : Type) (f : file V) bl opaque dm0 P D n spread rk dm dict ixs l0 xs v,
  setting MNo f bl P D n spread rk dm dict ixs ->
  let c := readers MNo f bl opaque dm0 P D n spread rk dm dict ixs in
  clist_init n spread = Ok l0 ->
  vrun caddr_eq lock_eq (cprog c) plain_access (vinit (b_mem (cbinit c l0)) (b_loc (cbinit c l0))) xs = Some v ->
  (forall t, exists k,
    map snd (t_done (v_loc v t)) = map (fun ix => Some (Some (f_val f ix))) (firstn k (ixs t)) /\
    length (t_todo (v_loc v t)) = length (ixs t) - k) /\
  (forall t, t_todo (v_loc v t) <> [] -> exists x v', vstep caddr_eq lock_eq (cprog c) plain_access v x = Some v').
Proof. exact (fun V => @late_values V). Qed.
Print Assumptions C93_cache_partial.

(** threads/sync.h: what thread [u] stored before its call [k] is seen by everybody who has passed the barrier (or the broadcast)
    [k]: a load returns this store or one with a newer stamp, and its value if there is no newer one. *)
Theorem C93_barrier_partial :
  forall (V A W : Type) aeq, (forall a b : A, aeq a b = true <-> a = b) ->
  forall c : ycfg V, wf_ycfg c -> y_spurious c = false ->
  forall (m0 : A -> W) xs s u a w ts s1 xs' s2 t k rd,
  zrun aeq c (zinit c m0) xs = Some s -> u < y_n c -> t < y_n c ->
  ~ arrived (z_sync s) u k -> zstep aeq c s (ZStore u a w ts) = Some s1 -> zrun aeq c s1 xs' = Some s2 ->
  passed (z_sync s2) t k ->
  ts <= vstamp (z_mem s2) t rd a /\
  ((forall ts', ts < ts' -> v_msg (z_mem s2) a ts' = None) -> vload (z_mem s2) t rd a = w).
Proof. exact (fun V A W => @barrier_publishes V A W). Qed.
Print Assumptions C93_barrier_partial.

(** threads/once.h: the function starts at most once, whatever the loads of the flag return. *)
Theorem C93_once_partial :
  forall w val fast atomic calls xs, vstarts w val fast atomic (voinit calls) xs <= 1.
Proof. exact late_once_starts. Qed.
Print Assumptions C93_once_partial.

(** Without the test in front of the lock, or with an atomic flag, everybody who returned reads what the function
    stored. *)
Theorem C93_once_visible_partial :
  forall w val fast atomic calls xs v t, fast = false \/ atomic = true ->
  vrun Nat.eqb unit_eq (oprog w val fast) (once_access atomic) (voinit calls) xs = Some v ->
  forall j y, In (j, y) (ot_seen (v_loc v t)) -> y = val j.
Proof. exact late_once_visible. Qed.
Print Assumptions C93_once_visible_partial.

(** As the code is (a plain flag, tested without the mutex): thread 1 returns from [saveExec] and reads the 0 of the time before the
    function, although the stores of thread 0 were made in order. *)
Theorem C93_once_refuted :
  exists xs v, vrun Nat.eqb unit_eq (oprog 1 (fun _ => 7) true) (once_access false) (voinit (fun _ => 1)) xs = Some v /\
  BufModel.ot_pc (v_loc v 1) = BufModel.OBack /\ ot_seen (v_loc v 1) = [(0, 0)].
Proof. exact (ex_intro _ (late_sched (fun a => if a =? 0 then 1 else 0)) late_once_stale). Qed.
Print Assumptions C93_once_refuted.

(** Two readers in two domains, copying from each other; every load returns the oldest store it may return.  Stamps of the
    cells known to the two threads in the end: old stores remain in the memory. *)
Example C93_example_setting :
  setting MNo buf_file buf_bl 1 2 1 0 (fun _ => 0) (fun t => t mod 2) (fun _ => []) buf_ixs /\ clist_init 1 0 <> Ub.
Proof. exact buf_setting. Qed.
Example C93_example :
  late_report = Some ([[Some (Some 1); Some (Some 12); Some (Some 2)]; [Some (Some 11); Some (Some 12); Some (Some 1)]],
                      [[8; 8]; [6; 8]]).
Proof. vm_compute. reflexivity. Qed.
(** Before the barrier thread 1 may still read the 0 of the beginning, afterwards it reads the 7. *)
Example C93_example_barrier :
  let load s t := vload (z_mem s) t (fun _ => 0) 3 in
  option_map (fun s => (load s 0, load s 1)) (zrun Nat.eqb bar_cfg (zinit bar_cfg (fun _ => 0)) [bar_store; ZSync 0]) = Some (7, 0) /\
  option_map (fun s => (y_round (y_thr (z_sync s) 1), load s 0, load s 1))
    (zrun Nat.eqb bar_cfg (zinit bar_cfg (fun _ => 0)) (bar_store :: bar_sched)) = Some (1, 7, 7).
Proof. vm_compute. split; reflexivity. Qed.
(** With an atomic flag the load of the word which was stale in C93_once_refuted is not. *)
Example C93_example_once :
  option_map (fun v => (BufModel.ot_pc (v_loc v 1), ot_seen (v_loc v 1)))
    (vrun Nat.eqb unit_eq (oprog 1 (fun _ => 7) true) (once_access true) (voinit (fun _ => 1))
      (late_sched (fun a => if a =? 0 then 1 else 0))) = Some (BufModel.OBack, [(0, 7)]).
Proof. vm_compute. reflexivity. Qed.
