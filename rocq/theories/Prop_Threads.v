(** * C36-C40, C54: threads of one process *)
From Verif Require Import OnceFacts NumaFacts.
Require Import ZArith NArith.

(** ** C36: threads/once.h *)

(** The function is started at most once, whatever the number of threads and calls. *)
Theorem C36_at_most_once : forall calls s, ostate calls s ->
  o_started s <= 1 /\ o_ended s <= o_started s.
Proof. exact once_at_most. Qed.
Print Assumptions C36_at_most_once.

(** When a call has returned, the function was executed once, and completely. *)
Theorem C36_done_before_return : forall calls s t, ostate calls s -> oreturned calls s t ->
  o_started s = 1 /\ o_ended s = 1.
Proof. exact once_done. Qed.
Print Assumptions C36_done_before_return.

(** All calls return: somebody can always go on, and executions are finite. *)
Theorem C36_no_stuck_state : forall calls s t, ostate calls s -> o_left (o_thr s t) <> 0 ->
  exists u s', ostep s u = Some s'.
Proof. exact once_progress. Qed.
Print Assumptions C36_no_stuck_state.
Theorem C36_terminates : forall calls n l s, (forall t, n <= t -> calls t = 0) ->
  orun (oinit calls) l = Some s -> length l <= 8 * osum calls n.
Proof. exact once_terminates. Qed.
Print Assumptions C36_terminates.

(** Three threads; two of them wait for the lock while the first executes the function. *)
Example C36_example :
  let calls := fun t => match t with 0 => 1 | 1 => 2 | 2 => 1 | _ => 0 end in
  exists s, orun (oinit calls) [0; 1; 2; 0; 0; 0; 0; 0; 0; 0; 1; 1; 1; 1; 1; 1; 2; 2; 2; 2] = Some s /\
  o_started s = 1 /\ o_ended s = 1 /\ map (fun t => o_left (o_thr s t)) [0; 1; 2] = [0; 0; 0].
Proof. eexists. split; [vm_compute; reflexivity|]. vm_compute. auto. Qed.

(** ** C37: barriers

    [wf_ycfg]: at least one thread, roots are threads.  No spurious wake-ups. *)

(** No thread passes the barrier of call [k] before all threads have arrived there. *)
Theorem C37_barrier : forall V (c : ycfg V), wf_ycfg c -> y_spurious c = false ->
  forall s t u k, ystate c s -> t < y_n c -> u < y_n c -> passed s t k -> arrived s u k.
Proof. exact @sync_barrier. Qed.
Print Assumptions C37_barrier.

(** The code between [startBarrier] and [waitBarrier], and after [waitBarrier], is executed by one
    thread at a time. *)
Theorem C37_exclusion : forall V (c : ycfg V), wf_ycfg c -> y_spurious c = false ->
  forall s t u, ystate c s -> t < y_n c -> u < y_n c -> inside s t -> inside s u -> t = u.
Proof. exact @sync_exclusive. Qed.
Print Assumptions C37_exclusion.

(** Every thread gets through all calls. *)
Theorem C37_no_stuck_state : forall V (c : ycfg V), wf_ycfg c -> y_spurious c = false ->
  forall s, ystate c s -> (exists t, t < y_n c /\ ~ finished c s t) -> exists a s', ystep c s a = Some (Ok s').
Proof. exact @sync_progress. Qed.
Print Assumptions C37_no_stuck_state.
Theorem C37_terminates : forall V (c : ycfg V), wf_ycfg c -> y_spurious c = false ->
  forall l s, yrun c (yinit c) l = Some (Ok s) -> length l <= 12 * y_n c * y_rounds c.
Proof. exact @sync_terminates. Qed.
Print Assumptions C37_terminates.

(** ** C38: broadcasts *)

(** After call [k] every thread has the value of the root (and its own after a barrier). *)
Theorem C38_values : forall V (c : ycfg V), wf_ycfg c -> y_spurious c = false ->
  forall s t, ystate c s -> t < y_n c ->
  map snd (y_out (y_thr s t)) =
  map (fun k => match y_root c k with Some r => y_init c r k | None => y_init c t k end)
      (seq 0 (y_round (y_thr s t))).
Proof. exact @sync_values. Qed.
Print Assumptions C38_values.

(** The root returns after all others: they never read a variable which is gone. *)
Theorem C38_root_is_last : forall V (c : ycfg V), wf_ycfg c -> y_spurious c = false ->
  forall s r u k, ystate c s -> u < y_n c -> y_root c k = Some r -> passed s r k -> u = r \/ returned s u k.
Proof. exact @sync_root_last. Qed.
Print Assumptions C38_root_is_last.
Theorem C38_defined : forall V (c : ycfg V), wf_ycfg c -> y_spurious c = false ->
  forall l, yrun c (yinit c) l <> Some Ub.
Proof. exact @sync_defined. Qed.
Print Assumptions C38_defined.

(** Three threads: broadcast from thread 2, barrier, broadcast from thread 0. *)
Definition demo_ycfg (sp : bool) : ycfg nat :=
  YCfg 3 3 (fun k => match k with 0 => Some 2 | 2 => Some 0 | _ => None end) (fun t k => 10 * t + k) sp.
Fixpoint turns (n : nat) : list yact :=
  match n with 0 => [] | S n' => [YStep 1; YStep 1; YStep 0; YStep 2; YStep 0; YStep 1; YStep 2; YStep 2] ++ turns n' end.
Example C37_C38_example :
  wf_ycfg (demo_ycfg false) /\
  let s := fst (ydrive (demo_ycfg false) (yinit (demo_ycfg false)) (turns 20)) in
  map (fun t => map snd (y_out (y_thr s t))) [0; 1; 2] = [[20; 1; 2]; [20; 11; 2]; [20; 21; 2]].
Proof.
  split; [|vm_compute; reflexivity]. split; [cbn; auto with arith|].
  intros [|[|[|k]]] r H; cbn in H; try discriminate; injection H as <-; cbn; auto with arith.
Qed.

(** ** C39: spurious wake-ups

    All three waits are written with [if]; each of them breaks the guarantee. *)
Theorem C39_refuted : exists c s, wf_ycfg c /\ ystate c s /\ passed (V := unit) s 0 0 /\ ~ arrived s 1 0.
Proof.
  exists (YCfg 2 1 (fun _ => None) (fun _ _ => tt) true). eexists. split; [|split; [|split]].
  - split; [cbn; auto with arith|discriminate].
  - exists [YStep 0; YStep 0; YSpur 0; YStep 0; YStep 0; YStep 0]. vm_compute. reflexivity.
  - right. vm_compute. auto.
  - intros [H|[_ H]]; vm_compute in H; [inversion H|discriminate].
Qed.
Print Assumptions C39_refuted.
(** Second wait: the root leaves early and another thread reads its dead variable. *)
Theorem C39_dangling_refuted : exists c l, wf_ycfg c /\ yrun (V := nat) c (yinit c) l = Some Ub.
Proof.
  exists (YCfg 2 1 (fun _ => Some 0) (fun t _ => t) true).
  exists [YStep 1; YStep 1; YStep 0; YStep 0; YStep 0; YSpur 0; YStep 0; YStep 0; YStep 0; YStep 0;
          YStep 1; YStep 1; YStep 1; YStep 1]. split.
  - split; [cbn; auto with arith|]. intros k r H. injection H as <-. cbn; auto with arith.
  - vm_compute. reflexivity.
Qed.
Print Assumptions C39_dangling_refuted.
(** Third wait: a thread runs through the next barrier alone. *)
Theorem C39_reuse_refuted : exists c s, wf_ycfg c /\ ystate c s /\ passed (V := unit) s 1 1 /\ ~ arrived s 0 1.
Proof.
  exists (YCfg 2 2 (fun _ => None) (fun _ _ => tt) true). eexists. split; [|split; [|split]].
  - split; [cbn; auto with arith|discriminate].
  - exists [YStep 0; YStep 0; YStep 1; YStep 1; YStep 1; YStep 1; YStep 1; YStep 1; YStep 1; YSpur 1; YStep 1;
            YStep 1; YStep 1; YStep 1]. vm_compute. reflexivity.
  - right. vm_compute. auto.
  - intros [H|[H _]]; vm_compute in H; [inversion H|discriminate].
Qed.
Print Assumptions C39_reuse_refuted.
(** What remains: exclusion. *)
Theorem C39_exclusion_partial : forall V (c : ycfg V) s t u, ystate c s -> inside s t -> inside s u -> t = u.
Proof. exact @sync_exclusive_any. Qed.
Print Assumptions C39_exclusion_partial.

(** ** C40: registration

    [eff detect node t]: the NUMA node of thread [t], or 0 if detection is off. *)
Theorem C40_thread_ids : forall V (c : ycfg V) detect node, wf_ycfg c -> y_spurious c = false ->
  forall s, nstate c detect node s -> all_registered c s ->
  (forall t, t < y_n c -> exists r, ns_reg s t = Some r /\ r_tid r < y_n c) /\
  (forall i, i < y_n c -> exists t r, t < y_n c /\ ns_reg s t = Some r /\ r_tid r = i) /\
  (forall t u r r', t < y_n c -> u < y_n c -> ns_reg s t = Some r -> ns_reg s u = Some r' -> r_tid r = r_tid r' -> t = u).
Proof. exact @reg_ids. Qed.
Print Assumptions C40_thread_ids.

Theorem C40_domains : forall V (c : ycfg V) detect node, wf_ycfg c -> y_spurious c = false ->
  forall s, nstate c detect node s -> all_registered c s ->
  let D := length (n_domains (ns_numa s)) in
  (forall t r, t < y_n c -> ns_reg s t = Some r -> r_dom r < D) /\
  (forall d, d < D -> exists t r, t < y_n c /\ ns_reg s t = Some r /\ r_dom r = d) /\
  (forall t u r r', t < y_n c -> u < y_n c -> ns_reg s t = Some r -> ns_reg s u = Some r' ->
     (r_dom r = r_dom r' <-> eff detect node t = eff detect node u)).
Proof. exact @reg_domains. Qed.
Print Assumptions C40_domains.

(** One master for each node; thread 0 is the master of domain 0; later calls report the same flag. *)
Theorem C40_masters : forall V (c : ycfg V) detect node, wf_ycfg c -> y_spurious c = false ->
  forall s, nstate c detect node s -> all_registered c s ->
  (forall t, t < y_n c -> exists u r, u < y_n c /\ ns_reg s u = Some r /\ r_master r = true /\
     eff detect node u = eff detect node t) /\
  (forall t u r r', t < y_n c -> u < y_n c -> ns_reg s t = Some r -> ns_reg s u = Some r' ->
     r_master r = true -> r_master r' = true -> eff detect node t = eff detect node u -> t = u) /\
  (forall t r, t < y_n c -> ns_reg s t = Some r -> r_tid r = 0 -> r_master r = true /\ r_dom r = 0) /\
  (forall t r, t < y_n c -> ns_reg s t = Some r -> nagain (ns_numa s) (r_tid r) = Some (r_master r)).
Proof. exact @reg_masters. Qed.
Print Assumptions C40_masters.

Theorem C40_detection_off : forall V (c : ycfg V) detect node, wf_ycfg c -> y_spurious c = false ->
  forall s, nstate c detect node s -> all_registered c s -> detect = false ->
  length (n_domains (ns_numa s)) = 1.
Proof. exact @reg_off. Qed.
Print Assumptions C40_detection_off.

(** The test of [m_initialized] sends a thread to the registration until it has registered, and to
    the stored flag after it. *)
Theorem C40_first_call : forall V (c : ycfg V) detect node, wf_ycfg c -> y_spurious c = false ->
  forall s t, nstate c detect node s -> t < y_n c -> ~ arrived (ns_sync s) t 0 -> n_ready (ns_numa s) = false.
Proof. exact @reg_first. Qed.
Print Assumptions C40_first_call.
Theorem C40_later_calls : forall V (c : ycfg V) detect node, wf_ycfg c -> y_spurious c = false ->
  forall s t, nstate c detect node s -> t < y_n c -> returned (ns_sync s) t 0 -> n_ready (ns_numa s) = true.
Proof. exact @reg_later. Qed.
Print Assumptions C40_later_calls.

(** Both ids survive in one word, for ids of [w] bits. *)
Theorem C40_packing : forall w tid dom, (tid < 2 ^ w -> dom < 2 ^ w ->
  nthread_id w (npack w tid dom) = tid /\ ndomain_id w (npack w tid dom) = dom)%N.
Proof. exact pack_ids. Qed.
Print Assumptions C40_packing.

(** Registration happens in every schedule of the barrier. *)
Theorem C40_schedules : forall V (c : ycfg V) detect node l y, yrun c (yinit c) l = Some (Ok y) ->
  exists s, nrun c detect node (nsys_init c) l = Some (Ok s) /\ ns_sync s = y.
Proof. exact (fun V c detect node l => @nrun_of_sync V c detect node l (nsys_init c)). Qed.
Print Assumptions C40_schedules.

(** Four threads on two nodes, arriving in the order 2, 0, 3, 1. *)
Example C40_example :
  let c := YCfg 4 1 (fun _ => None) (fun _ _ => tt) false in
  exists s, nrun c true (fun t => t mod 2) (nsys_init c)
    (snd (ydrive c (yinit c) ([YStep 2; YStep 2; YStep 0; YStep 0; YStep 3; YStep 3; YStep 1; YStep 1] ++
       flat_map (fun t => repeat (YStep t) 5) [1; 0; 2; 3]))) = Some (Ok s) /\
  map (fun t => y_round (y_thr (ns_sync s) t)) [0; 1; 2; 3] = [1; 1; 1; 1] /\
  map (ns_reg s) [0; 1; 2; 3] =
    [Some (NReg 1 0 false); Some (NReg 3 1 false); Some (NReg 0 0 true); Some (NReg 2 1 true)] /\
  n_ready (ns_numa s) = true.
Proof. eexists. split; [vm_compute; reflexivity|]. vm_compute. auto. Qed.
Example C40_packing_example : ndomain_id 32 (npack 32 7 3) = 3%N /\ nthread_id 32 (npack 32 7 3) = 7%N.
Proof. vm_compute. auto. Qed.

(** ** C54: memory of the NUMA domains *)

(** All domains compute their slice from the pointer which domain 0 got from the allocator. *)
Theorem C54_same_pointer : forall (c : ycfg Z) k, wf_ycfg c -> y_spurious c = false -> y_root c k = Some 0 ->
  forall s d w p, ystate c s -> d < y_n c -> nth_error (y_out (y_thr s d)) k = Some (w, p) -> p = y_init c 0 k.
Proof. exact alloc_slices. Qed.
Print Assumptions C54_same_pointer.

Theorem C54_disjoint : forall base size d e i j, (0 <= size)%Z -> d <> e ->
  (0 <= i < size)%Z -> (0 <= j < size)%Z -> (nslice base size d + i <> nslice base size e + j)%Z.
Proof. exact slices_disjoint. Qed.
Print Assumptions C54_disjoint.
Theorem C54_inside : forall base size D d i, d < D -> (0 <= i < size)%Z ->
  (base <= nslice base size d + i < base + nalloc_total size (Z.of_nat D))%Z.
Proof. exact slices_inside. Qed.
Print Assumptions C54_inside.
Theorem C54_cover : forall base size D a,
  (base <= a < base + nalloc_total size (Z.of_nat D))%Z -> (0 <= size)%Z ->
  exists d i, d < D /\ (0 <= i < size)%Z /\ a = (nslice base size d + i)%Z.
Proof. exact slices_cover. Qed.
Print Assumptions C54_cover.

(** A block at offset [off] of domain [dom], as addressed by any domain [d]. *)
Theorem C54_same_address : forall base blockSize blockCount d dom off,
  let size := (blockSize * blockCount)%Z in
  nfull_addr (nfull_start (nslice base size d) blockSize blockCount d) blockSize blockCount dom off
  = (nslice base size dom + blockSize * Z.of_nat off)%Z.
Proof. exact slices_agree. Qed.
Print Assumptions C54_same_address.
Example C54_example :
  let c := YCfg 2 1 (fun _ => Some 0) (fun t _ => if t =? 0 then 1000%Z else 77%Z) false in
  let s := fst (ydrive c (yinit c) (flat_map (fun t => repeat (YStep t) 7) [0; 1; 0; 1; 0])) in
  map (fun d => map (fun '(_, p) => nslice p 24 d) (y_out (y_thr s d))) [0; 1] = [[1000%Z]; [1024%Z]].
Proof. vm_compute. reflexivity. Qed.
