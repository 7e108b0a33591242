(** * C104: programs reading a grid run to their end *)
From Coq Require Import List Arith Bool ZArith Reals Lia String.
From Flocq Require Import Core.Core IEEE754.BinarySingleNaN.
From Verif Require Import ConcLive Base BlockedModel LevelsModel ParamModel TypesModel CoordModel CoordFacts EndModel EndFacts EndRunModel EndRunFacts.
From Verif Require Prop_End.
Import ListNotations.
Local Open Scope string_scope.
Local Open Scope nat_scope.

(** C104, no execution goes on for ever: every session, any programs, any
    interleaving and any outcome of [try_lock] and [rand]; the number of steps
    is at most (cells of a block + 5 domains + 17) per read. *)
Theorem C104_bounded :
  forall (A : arith) (s : session A) bl ixs prog,
  session_ok s -> (forall t, n_threads s <= t -> prog t = []) ->
  (forall t r, In r (prog t) -> defined_at s (q_pos r)) ->
  forall h answers, session_exec s bl ixs prog h answers ->
  steps h <= sum (fun t => (b_tbs bl + 5 * domains s + 17) * List.length (prog t)) (n_threads s).
Proof. exact @exec_bound. Qed.
Print Assumptions C104_bounded.

(** C104, an execution stops exactly when every thread has all its answers: no
    deadlock before, no step afterwards. *)
Theorem C104_stops :
  forall (A : arith) (s : session A) bl ixs prog h answers,
  session_ok s -> (forall t, n_threads s <= t -> prog t = []) ->
  (forall t r, In r (prog t) -> defined_at s (q_pos r)) ->
  session_exec s bl ixs prog h answers ->
  ((forall h' answers', next h h' -> ~ session_exec s bl ixs prog h' answers') <->
   forall t, List.length (answers t) = List.length (prog t)).
Proof. exact @exec_ends. Qed.
Print Assumptions C104_stops.

(** C104, from every moment the end can be reached. *)
Theorem C104_continues :
  forall (A : arith) (s : session A) bl ixs prog,
  session_ok s -> (forall t, n_threads s <= t -> prog t = []) ->
  (forall t r, In r (prog t) -> defined_at s (q_pos r)) ->
  forall h answers, session_exec s bl ixs prog h answers ->
  exists h' answers', later s bl ixs prog h h' /\ session_exec s bl ixs prog h' answers' /\
    forall t, List.length (answers' t) = List.length (prog t).
Proof. exact @exec_finish. Qed.
Print Assumptions C104_continues.

(** C104, there are such executions for every class of level except caches with
    the communication thread (for those: C61). *)
Theorem C104_starts :
  forall (A : arith) (s : session A) prog,
  session_ok s -> (forall nu, class_ s <> (SCache, MPIThread, nu)) ->
  (forall t, n_threads s <= t -> prog t = []) -> (forall t r, In r (prog t) -> defined_at s (q_pos r)) ->
  exists bl ixs h answers, steps h = 0 /\ session_exec s bl ixs prog h answers.
Proof. exact @exec_start. Qed.
Print Assumptions C104_starts.

(** C104, the answers at the end, exact arithmetic: every read has the answer
    for a nearest cell. *)
Theorem C104_nearest :
  forall (s : session exact) bl ixs us prog h answers,
  session_ok s -> n_axes s = map ra_axis us -> Forall ra_ok us ->
  (forall ix, in_box (map (fun u => Z.to_nat (ra_n u)) us) ix -> List.length (n_cell s ix) = type_size (n_type s)) ->
  (forall t, n_threads s <= t -> prog t = []) ->
  session_exec s bl ixs (fun t => map at_reals (prog t)) h answers ->
  (forall h' answers', next h h' -> ~ session_exec s bl ixs (fun t => map at_reals (prog t)) h' answers') ->
  forall t, Forall2 (fun r a => exists ix, nearest us (fst r) ix /\ expected (n_type s) (snd r) (n_cell s ix) a) (prog t) (answers t).
Proof. exact exec_nearest. Qed.
Print Assumptions C104_nearest.

(** C104, the answers at the end, double arithmetic: every read has the answer
    for the cell of the file which [pos2index] gives (C21 - C23). *)
Theorem C104_double :
  forall (s : session ieee) bl ixs (prog : nat -> list (@request ieee)) h answers,
  session_ok s ->
  (forall ix, in_box (map (fun ax => Z.to_nat (x_size ax)) (n_axes s)) ix -> List.length (n_cell s ix) = type_size (n_type s)) ->
  (forall t, n_threads s <= t -> prog t = []) ->
  (forall t r, In r (prog t) -> no_nan_at s (q_pos r)) ->
  session_exec s bl ixs prog h answers ->
  (forall h' answers', next h h' -> ~ session_exec s bl ixs prog h' answers') ->
  forall t, Forall2 (fun r a => exists ix init, index_of s (q_pos r) init = Ok ix /\
                                 in_box (map (fun ax => Z.to_nat (x_size ax)) (n_axes s)) ix /\
                                 expected (n_type s) (q_getter r) (n_cell s ix) a) (prog t) (answers t).
Proof. exact exec_double. Qed.
Print Assumptions C104_double.

(** ** Examples: the file and the programs of C74 (two threads, two reads each) *)
Lemma e_runs calls P D : 0 < P -> 0 < D ->
  0 < cache_size (Prop_End.e_session calls P D) ->
  (hand_spread (Prop_End.e_session calls P D) < Z.of_nat (cache_size (Prop_End.e_session calls P D)))%Z ->
  (forall nu, class_ (Prop_End.e_session calls P D) <> (SCache, MPIThread, nu)) ->
  exists bl ixs h answers, session_exec (Prop_End.e_session calls P D) bl ixs Prop_End.e_prog h answers /\
    (forall h' answers', next h h' -> ~ session_exec (Prop_End.e_session calls P D) bl ixs Prop_End.e_prog h' answers') /\
    forall t, List.length (answers t) = List.length (Prop_End.e_prog t).
Proof.
  intros HP HD Hn Hs Hcl. set (s := Prop_End.e_session calls P D) in *.
  assert (session_ok s) as Hok by (apply Prop_End.e_ok; auto).
  assert (forall t, n_threads s <= t -> Prop_End.e_prog t = []) as Hth.
  { intros t Ht. unfold Prop_End.e_prog. destruct (Nat.ltb_spec t 2); [cbn in Ht; lia|reflexivity]. }
  assert (forall t r, In r (Prop_End.e_prog t) -> @defined_at ieee s (q_pos r)) as Hdef.
  { intros t r Hr. apply ieee_defined, (Prop_End.e_no_nan _ _ _ t r Hr). }
  destruct (C104_starts ieee s Prop_End.e_prog Hok Hcl Hth Hdef) as (bl & ixs & h0 & a0 & _ & H0).
  destruct (C104_continues ieee s bl ixs Prop_End.e_prog Hok Hth Hdef h0 a0 H0) as (h & answers & _ & H & L).
  exists bl, ixs, h, answers. split; [exact H|]. split; [|exact L].
  apply (C104_stops ieee s bl ixs Prop_End.e_prog h answers Hok Hth Hdef H). exact L.
Qed.

(** Executions which have ended, for a cache with windows, full grids with the
    communication thread, the pass-through level and a single process. *)
Example C104_example :
  Forall (fun x => exists bl ixs h answers, let '(calls, n) := x in
    let s := Prop_End.e_session calls n n in
    session_exec s bl ixs Prop_End.e_prog h answers /\
    (forall h' answers', next h h' -> ~ session_exec s bl ixs Prop_End.e_prog h' answers') /\
    forall t, List.length (answers t) = List.length (Prop_End.e_prog t))
  [([("grid", "cache", 0); ("cache-size", "3", 0)], 2);
   ([("NUMA_COMMUNICATION", "off", 0); ("MPI_COMMUNICATION", "THREAD", 0)], 2);
   ([("GRID", "pass-through", 0)], 2); ([], 1)].
Proof.
  repeat constructor; apply e_runs; try lia; try (vm_compute; lia); try (vm_compute; reflexivity);
    intros nu; vm_compute; discriminate.
Qed.

(** A longest execution is bounded by 2 * 2 * (12 + 10 + 17) steps for blocks of 12 cells. *)
Example C104_bound_value :
  let s := Prop_End.e_session [("grid", "cache", 0); ("cache-size", "3", 0)] 2 2 in
  match blocks s (fun _ => 0) with
  | Ok bl => b_tbs bl = 12 /\ sum (fun t => (b_tbs bl + 5 * domains s + 17) * List.length (Prop_End.e_prog t)) (n_threads s) = 156
  | Ub => False
  end.
Proof. vm_compute. split; reflexivity. Qed.
