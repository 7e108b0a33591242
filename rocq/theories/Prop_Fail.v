(** * C107, C108: failing pthread functions in barriers, broadcasts and registration
    ([answered], [good], [reports]: FailFacts.v) *)
From Verif Require Import FailFacts.

(** C107.  Given that the mutex can be locked, [barrier] and [broadcast] return true exactly if
    no call failed except for the last broadcast, and they leave the mutex unlocked exactly if neither the
    wait of [startBarrier] nor the unlocking failed.  Missing: the four findings below. *)
Theorem C107_reported_partial :
  forall a total last o, a_lock a = true ->
  exists r s, sync_call a total last (fresh o) = Ok (r, s) /\
    (forall p ok, In (p, ok) (f_log s) -> ok = answered a p) /\
    (r = true <-> forall p, In (p, false) (f_log s) -> p = PSignal CFinish) /\
    (f_held s = false <-> ~ In (PWait CFinish, false) (f_log s) /\ ~ In (PUnlock, false) (f_log s)).
Proof. exact report_facts. Qed.
Print Assumptions C107_reported_partial.

(** Without failures the call returns true and the mutex is free ... *)
Theorem C107_no_failure_partial :
  forall a total last o, good a ->
  exists s, sync_call a total last (fresh o) = Ok (true, s) /\ f_held s = false.
Proof. exact no_failure_facts. Qed.
Print Assumptions C107_no_failure_partial.

(** ... and a single thread leaves the object as it was. *)
Theorem C107_alone_partial :
  forall a last, good a ->
  exists s, sync_call a 1 last (fresh (Obj 0 0 false)) = Ok (true, s) /\ f_held s = false /\
    f_obj s = Obj 0 0 false.
Proof. exact alone_facts. Qed.
Print Assumptions C107_alone_partial.

(** Finding: a failing lock is not noticed, [startBarrier] reports success, and the call goes on
    without the mutex. *)
Theorem C107_lock_refuted :
  forall a total last o, a_lock a = false ->
  (exists s, start_barrier a (fresh o) = (true, s) /\ f_held s = false) /\
  sync_call a total last (fresh o) = Ub.
Proof. exact lock_failure. Qed.
Print Assumptions C107_lock_refuted.

(** Finding: if the wait of [startBarrier] fails, the mutex stays locked for ever. *)
Theorem C107_held_refuted :
  forall a total last o, a_lock a = true -> o_fin o = true -> a_wait a CFinish = None ->
  exists s, sync_call a total last (fresh o) = Ok (false, s) /\ f_held s = true.
Proof. exact held_failure. Qed.
Print Assumptions C107_held_refuted.

(** Finding: a thread whose wait failed stays counted: in the next barrier, with one thread
    missing, the last of the others does not wait; and m_finishing is still set when they have left. *)
Theorem C107_count_refuted :
  forall a a' total, (2 <= total < 2 ^ 32)%Z ->
  a_lock a = true -> a_wait a CMain = None -> a_unlock a = true -> good a' ->
  exists s1, sync_call a total false (fresh (Obj 0 0 false)) = Ok (false, s1) /\ f_held s1 = false /\
    o_synced (f_obj s1) = 1%Z /\
    exists s2, sync_call a' total false (fresh (Obj (o_synced (f_obj s1) + (total - 2)) 0 false)) = Ok (true, s2) /\
      f_log s2 = [(PLock, true); (PSignal CMain, true); (PUnlock, true)] /\
      o_fin (f_obj s2) = true /\ o_synced (f_obj s2) = (total - 1)%Z.
Proof. exact count_failure. Qed.
Print Assumptions C107_count_refuted.

(** Finding: the failure of the last broadcast is not reported. *)
Theorem C107_ignored_refuted :
  forall last, exists a s, a_signal a CFinish = false /\
    sync_call a 1 last (fresh (Obj 0 0 false)) = Ok (true, s) /\ In (PSignal CFinish, false) (f_log s).
Proof. exact ignored_failure. Qed.
Print Assumptions C107_ignored_refuted.

Definition all_well : answers := Answers true (fun _ => Some (Obj 3 0 true)) (fun _ => true) true.

(** The second of three threads: it sleeps, is woken up when all have arrived and leaves first. *)
Example C107_example :
  match sync_call all_well 3 false (fresh (Obj 1 0 false)) with
  | Ok (r, s) => (r, f_log s, f_obj s)
                 = (true, [(PLock, true); (PWait CMain, true); (PUnlock, true)], Obj 2 0 true)
  | Ub => False
  end.
Proof. vm_compute. reflexivity. Qed.

(** The signal to the root fails: reported, mutex free. *)
Example C107_example_fail :
  match sync_call (Answers true (fun _ => Some (Obj 2 1 true)) (fun c => match c with CLast => false | _ => true end) true)
          2 false (fresh (Obj 0 0 false)) with
  | Ok (r, s) => (r, f_held s, f_log s)
                 = (false, false, [(PLock, true); (PWait CMain, true); (PSignal CLast, false); (PUnlock, true)])
  | Ub => False
  end.
Proof. vm_compute. reflexivity. Qed.

(** C108.  The call of [registerThread] in which a thread registers: success means that no call
    failed (except for the one ignored in C107) and that the ids have been stored; the
    thread id is the number of threads already waiting.  Missing: later calls, see below. *)
Theorem C108_success_partial :
  forall total detect x o s m o' s',
  n_ready (rs_numa s) = false -> register_thread total detect x (fresh o) s = Ok (RSuccess, m, o', s') ->
  (exists node, ra_node x = Some node) /\ f_held o' = false /\
  (forall p, In (p, false) (f_log o') -> p = PSignal CFinish) /\
  (forall p ok, In (p, ok) (f_log o') -> ok = answered (ra_sync x) p) /\
  ra_set x = true /\ rs_keyerr s' = false /\ rs_keyerr s = false /\
  (exists t dom, rs_ids s' = Some (t, dom)) /\
  (o_fin o = false -> thread_id s' = Ok (Z.to_nat (o_synced o))).
Proof. exact register_success_facts. Qed.
Print Assumptions C108_success_partial.

(** Finding: if storing the ids fails, the call returns THREAD_ERROR, but as soon as the other
    threads have registered every later call of the same thread returns SUCCESS; the thread then
    has the id 0 and the master flag of thread 0. *)
Theorem C108_again_refuted :
  forall total detect x o s, good (ra_sync x) -> n_ready (rs_numa s) = false ->
  (exists node, ra_node x = Some node) -> rs_ids s = None -> rs_keyerr s = false -> ra_set x = false ->
  exists m o' s', register_thread total detect x (fresh o) s = Ok (RThread, m, o', s') /\
    forall n m0 ms x' o'', n_ready n = true -> n_masters n = m0 :: ms ->
      let s'' := RSt n (rs_keyerr s') (rs_ids s') in
      register_thread total detect x' o'' s'' = Ok (RSuccess, Some m0, o'', s'') /\ thread_id s'' = Ok 0.
Proof. exact register_again_facts. Qed.
Print Assumptions C108_again_refuted.

(** Finding: if the key could not be created, the first call reports it, but later ones use the
    key nevertheless. *)
Theorem C108_key_refuted :
  forall total detect x o s, good (ra_sync x) -> n_ready (rs_numa s) = false ->
  (exists node, ra_node x = Some node) -> rs_keyerr s = true ->
  exists m o' s', register_thread total detect x (fresh o) s = Ok (RThread, m, o', s') /\
    forall n x' o'', n_ready n = true ->
      register_thread total detect x' o'' (RSt n (rs_keyerr s') (rs_ids s')) = Ub.
Proof. exact register_key_facts. Qed.
Print Assumptions C108_key_refuted.

(** One thread: storing the ids fails, the second call succeeds. *)
Example C108_example :
  let x := RAns (Some 5) all_well ninit ninit false in
  match register_thread 1 true x (fresh (Obj 0 0 false)) (RSt ninit false None) with
  | Ok (RThread, Some true, o', s') =>
      n_ready (rs_numa s') = true /\
      match register_thread 1 true x (fresh (f_obj o')) s' with
      | Ok (RSuccess, Some true, _, _) => True
      | _ => False
      end
  | _ => False
  end.
Proof. vm_compute. auto. Qed.

(** The same with ids stored. *)
Example C108_example_success :
  match register_thread 1 true (RAns (Some 5) all_well ninit ninit true) (fresh (Obj 0 0 false)) (RSt ninit false None) with
  | Ok (RSuccess, Some true, o', s') => rs_ids s' = Some (0, 0) /\ f_obj o' = Obj 0 0 false
  | _ => False
  end.
Proof. vm_compute. auto. Qed.
