(** * C67: errors in open with several NUMA domains *)
From Verif Require Import OpenErrModel OpenErrFacts.

(** [meets bad prog d] (OpenErrFacts.v): how many collective calls the master of domain [d] gets to;
    [fine bad prog d]: no step of domain [d] fails. *)

(** If all masters get to the same number of collective calls, every run ends, and it ends only when open has returned in
    all threads; the result is the one of domain 0. *)
Theorem C67_returns_partial : forall D T prog bad, 0 < D -> D <= T ->
  forall m, (forall d, d < D -> meets bad prog d = m) ->
  forall l s, orun D T bad (oinit D prog) l = Some s ->
  length l <= T * (2 * length prog + 3) /\
  ((forall t, t < T -> o_thr s t = ORet (fine bad prog 0)) \/ exists t s', ostep D T bad s t = Some s').
Proof. exact every_run. Qed.

(** Otherwise open returns in no thread. *)
Theorem C67_hangs_refuted : forall D T prog bad, 0 < D -> D <= T ->
  forall d0 d1, d0 < D -> d1 < D -> meets bad prog d0 < meets bad prog d1 ->
  forall s t ok, (exists l, orun D T bad (oinit D prog) l = Some s) -> t < T -> o_thr s t <> ORet ok.
Proof. exact nobody_returns. Qed.

(** All kinds of levels: with one domain open returns. *)
Theorem C67_one_domain_partial : forall T k copies bad, 0 < T ->
  forall l s, orun 1 T bad (oinit 1 (container_init k copies)) l = Some s ->
  length l <= T * (2 * length (container_init k copies) + 3) /\
  ((forall t, t < T -> o_thr s t = ORet (fine bad (container_init k copies) 0)) \/ exists t s', ostep 1 T bad s t = Some s').
Proof. exact one_domain_returns. Qed.

(** All kinds of levels: open returns if the steps executed by every domain have the same outcome
    in all domains (for example if the file does not exist) and the steps executed by domain 0 alone succeed. *)
Theorem C67_same_failure_partial : forall D T k copies bad, 0 < D -> D <= T ->
  (forall d j, d < D -> In (ODo j) (container_init k copies) -> bad d j = bad 0 j) ->
  (forall j, In (ORoot j) (container_init k copies) -> bad 0 j = false) ->
  forall l s, orun D T bad (oinit D (container_init k copies)) l = Some s ->
  length l <= T * (2 * length (container_init k copies) + 3) /\
  ((forall t, t < T -> o_thr s t = ORet (fine bad (container_init k copies) 0)) \/ exists t s', ostep D T bad s t = Some s').
Proof. exact uniform_returns. Qed.

(** All kinds of levels, two or more domains: if one of the steps executed by domain 0 alone fails (memory, windows,
    receivers), open never returns. *)
Theorem C67_domain0_refuted : forall D T k copies bad, 2 <= D -> D <= T ->
  (forall d j, In (ODo j) (container_init k copies) -> bad d j = false) ->
  (exists j, In (ORoot j) (container_init k copies) /\ bad 0 j = true) ->
  forall l s t ok, orun D T bad (oinit D (container_init k copies)) l = Some s -> t < T -> o_thr s t <> ORet ok.
Proof. exact root_failure. Qed.

(** ** Examples *)
Definition round_robin (T n : nat) : list nat := concat (repeat (seq 0 T) n).
(** Run each thread in turn as far as possible. *)
Fixpoint otry (D T : nat) (bad : nat -> nat -> bool) (s : ost) (l : list nat) : ost :=
  match l with
  | [] => s
  | t :: l' => match ostep D T bad s t with Some s' => otry D T bad s' l' | None => otry D T bad s l' end
  end.
Definition results (T : nat) (s : ost) : list (option bool) :=
  map (fun t => match o_thr s t with ORet ok => Some ok | _ => None end) (seq 0 T).

(** Two domains, three threads, a cache with a communication thread. *)
Definition ex_kind := KCacheDist TThreadCache NCache.
Example C67_good : results 3 (otry 2 3 (fun _ _ => false) (oinit 2 (container_init ex_kind 1)) (round_robin 3 60)) = [Some true; Some true; Some true].
Proof. vm_compute. reflexivity. Qed.
(** The file does not exist. *)
Example C67_no_file : results 3 (otry 2 3 (fun _ k => k =? FILE_OPEN) (oinit 2 (container_init ex_kind 1)) (round_robin 3 60)) = [Some false; Some false; Some false].
Proof. vm_compute. reflexivity. Qed.
(** The communication thread is not running: [registerReceiver] fails. *)
Example C67_no_comm_thread :
  results 3 (otry 2 3 (fun d k => (d =? 0) && (k =? REG 0)) (oinit 2 (container_init ex_kind 1)) (round_robin 3 60)) = [None; None; None] /\
  In (ORoot (REG 0)) (container_init ex_kind 1) /\
  (forall j, In (ODo j) (container_init ex_kind 1) -> (fun d k => (d =? 0) && (k =? REG 0)) 0 j = false).
Proof. split; [vm_compute; reflexivity|]. split; [cbn; tauto|]. cbn. intros j H. repeat (destruct H as [H|H]; [try discriminate; injection H as <-; reflexivity|]). destruct H. Qed.
(** Only domain 1 gets no memory: it does not get to the calls of the others. *)
Example C67_domain1 :
  let bad := fun d k => (d =? 1) && (k =? ALLOC_CACHE) in
  meets bad (container_init (KFullDist TWinFull NFull) 0) 1 < meets bad (container_init (KFullDist TWinFull NFull) 0) 0 /\
  results 2 (otry 2 2 bad (oinit 2 (container_init (KFullDist TWinFull NFull) 0)) (round_robin 2 60)) = [None; None] /\
  results 2 (otry 2 2 bad (oinit 2 (container_init (KFullDist TNo NFull) 0)) (round_robin 2 60)) = [Some true; Some true].
Proof. vm_compute. auto. Qed.
(** The same with one domain. *)
Example C67_one : results 2 (otry 1 2 (fun d k => (d =? 0) && (k =? REG 0)) (oinit 1 (container_init ex_kind 1)) (round_robin 2 60)) = [Some false; Some false].
Proof. vm_compute. reflexivity. Qed.

Print Assumptions C67_returns_partial.
Print Assumptions C67_hangs_refuted.
Print Assumptions C67_one_domain_partial.
Print Assumptions C67_same_failure_partial.
Print Assumptions C67_domain0_refuted.
