(** * C73: counters used by several threads *)
From Coq Require Import List Arith ZArith Lia.
From Verif Require Import LevelsModel CounterProofs CountModel CountFacts.
Import ListNotations.

(** ** C73

    Compiled with THREADSAFE_COUNTER, or with a single reading thread, every
    counter of a level has its exact value once all threads are done, whatever
    the interleaving with other reads and queries. *)
Theorem C73_exact_partial : forall ts prog T sch s,
  ts = true \/ one_reader prog -> bounded_by T prog ->
  run ts (init prog) sch = Some s -> (forall t, finished s t) ->
  (Z.of_nat (length (all_reads T prog)) < 2 ^ 64)%Z ->
  reported (as_counters (s_val s)) (all_reads T prog).
Proof. exact final_exact. Qed.
Print Assumptions C73_exact_partial.

Definition three (t : nat) : list op :=
  match t with
  | 0 => [Read AFile; Read AHit]
  | 1 => [Read ANuma]
  | 2 => [Query CMiss]
  | _ => []
  end.

(** Two readers and a query, interleaved inside of the increments. *)
Definition three_sch : list (nat * native) :=
  [(0, NAccess); (0, NAccess); (2, NAccess); (2, NFile); (0, NAccess); (0, NAccess);
   (1, NAccess); (0, NAccess); (1, NAccess); (0, NAccess); (1, NAccess); (1, NAccess);
   (0, NAccess); (0, NAccess); (1, NAccess); (1, NAccess); (2, NNuma); (0, NAccess); (0, NAccess);
   (1, NAccess); (1, NAccess); (0, NAccess); (0, NAccess); (2, NMpi); (2, NMpi)].

Example C73_exact_used :
  match run true (init three) three_sch with
  | Some s => (forall t, finished s t) /\
      counter_get (as_counters (s_val s)) CHit = 1%Z /\
      counter_get (as_counters (s_val s)) CAccess = 3%Z /\ t_got (s_thr s 2) = [(CMiss, 0%Z)]
  | None => False
  end.
Proof.
  vm_compute. split; [|repeat split; reflexivity].
  intros [|[|[|t]]]; split; reflexivity.
Qed.

(** In every build the native counters are never too large, and not zero when
    there was something to count. *)
Theorem C73_bounds_partial : forall ts prog T sch s n, bounded_by T prog ->
  run ts (init prog) sch = Some s -> (forall t, finished s t) ->
  s_val s n <= occ_kind n (all_reads T prog) /\
  (1 <= occ_kind n (all_reads T prog) -> 1 <= s_val s n).
Proof. exact final_below. Qed.
Print Assumptions C73_bounds_partial.

(** Default build, two readers: the second load sees the first store. *)
Example C73_bounds_used :
  ends false (fun t => match t with 0 | 1 => [Read AFile] | _ => [] end) 2
    [(0, NAccess); (0, NAccess); (1, NAccess); (0, NAccess); (1, NAccess); (1, NAccess);
     (0, NAccess); (1, NAccess)]
    (fun s => Nat.eqb (s_val s NAccess) 2 && Nat.eqb (s_val s NFile) 1)%bool = true.
Proof. vm_compute. reflexivity. Qed.

(** With exact counters, a query of a native counter or of the misses returns
    (modulo 2^64) a number between the true one when the query starts and the
    true one when it ends, whatever the other threads do meanwhile. *)
Theorem C73_query_partial : forall ts prog T sch1 sch2 s1 s2 t,
  ts = true \/ one_reader prog -> bounded_by T prog ->
  run ts (init prog) sch1 = Some s1 -> run ts s1 sch2 = Some s2 -> not_querying s1 t ->
  exists new, t_got (s_thr s2 t) = new ++ t_got (s_thr s1 t) /\
    forall c z, In (c, z) new ->
      forall lo hi, true_sum T s1 c = Some lo -> true_sum T s2 c = Some hi ->
      exists k, lo <= k <= hi /\ z = wrap64 (Z.of_nat k).
Proof. exact queries. Qed.
Print Assumptions C73_query_partial.

(** Every query computes its counter from four numbers of this kind, so it is exact (in 64 bits) if no read counts while
    it runs. *)
Theorem C73_query_mixed_partial : forall ts prog T sch1 sch2 s1 s2 t,
  ts = true \/ one_reader prog -> bounded_by T prog ->
  run ts (init prog) sch1 = Some s1 -> run ts s1 sch2 = Some s2 -> not_querying s1 t ->
  exists new, t_got (s_thr s2 t) = new ++ t_got (s_thr s1 t) /\
    forall c z, In (c, z) new ->
      exists f, (forall n, executed T s1 n <= f n <= executed T s2 n) /\ z = wrap64 (formula f c).
Proof. exact queries_all. Qed.
Print Assumptions C73_query_mixed_partial.

Theorem C73_query_quiet : forall ts prog T sch1 sch2 s1 s2 t,
  ts = true \/ one_reader prog -> bounded_by T prog ->
  run ts (init prog) sch1 = Some s1 -> run ts s1 sch2 = Some s2 -> not_querying s1 t ->
  (forall n, executed T s2 n = executed T s1 n) ->
  exists new, t_got (s_thr s2 t) = new ++ t_got (s_thr s1 t) /\
    forall c z, In (c, z) new -> z = wrap64 (formula (executed T s1) c).
Proof. exact queries_quiet. Qed.
Print Assumptions C73_query_quiet.

(** A hit, a NUMA transfer and a file access, then queries of the node hits and the hits. *)
Example C73_query_quiet_used :
  let prog t := match t with 0 => [Read AHit; Read ANuma; Read AFile] | 1 => [Query CNodeHit; Query CHit] | _ => [] end in
  match run true (init prog) (repeat (0, NAccess) 20) with
  | Some s1 =>
      not_querying s1 1 /\
      match run true s1 [(1, NAccess); (1, NMpi); (1, NAccess); (1, NFile); (1, NFile);
                         (1, NAccess); (1, NMpi); (1, NAccess); (1, NFile); (1, NNuma); (1, NFile)] with
      | Some s2 => map (executed 2 s2) [NAccess; NNuma; NMpi; NFile] = map (executed 2 s1) [NAccess; NNuma; NMpi; NFile] /\
                   t_got (s_thr s2 1) = [(CHit, 1%Z); (CNodeHit, 2%Z)]
      | None => False
      end
  | None => False
  end.
Proof. vm_compute. repeat split; discriminate. Qed.

(** [three_sch] cut where the query of thread 2 has not begun (true number of
    misses 0) and run to its end (true number 2): the answer is 0. *)
Example C73_query_used :
  match run true (init three) (firstn 2 three_sch) with
  | Some s1 =>
      not_querying s1 2 /\ true_sum 3 s1 CMiss = Some 0 /\
      match run true s1 (skipn 2 three_sch) with
      | Some s2 => t_got (s_thr s2 2) = [(CMiss, 0%Z)] /\ true_sum 3 s2 CMiss = Some 2
      | None => False
      end
  | None => False
  end.
Proof. vm_compute. repeat split; discriminate. Qed.

(** The mutexes of the counters cannot block the threads. *)
Theorem C73_no_deadlock : forall ts prog sch s t,
  run ts (init prog) sch = Some s -> ~ finished s t ->
  exists u ch s', step ts s u ch = Some s'.
Proof. exact can_step. Qed.
Print Assumptions C73_no_deadlock.

(** Thread 1 waits for the mutex thread 0 holds. *)
Example C73_no_deadlock_used :
  match run true (init three) [(0, NAccess)] with
  | Some s => ~ finished s 1 /\ step true s 1 NAccess = None /\ step true s 0 NAccess <> None
  | None => False
  end.
Proof. vm_compute. repeat split; try discriminate. intros [_ H]. discriminate. Qed.

Definition two_files (t : nat) : list op :=
  match t with 0 | 1 => [Read AFile] | _ => [] end.

(** In the default build two threads that miss together lose an access, and the
    number of local hits wraps around: two reads, 2^64 - 1 hits. *)
Theorem C73_lost_refuted : exists prog T sch s, bounded_by T prog /\
  run false (init prog) sch = Some s /\ (forall t, finished s t) /\
  length (all_reads T prog) = 2 /\ ~ reported (as_counters (s_val s)) (all_reads T prog) /\
  counter_get (as_counters (s_val s)) CAccess = 1%Z /\
  counter_get (as_counters (s_val s)) CHit = (2 ^ 64 - 1)%Z.
Proof.
  pose (sch := [(0, NAccess); (1, NAccess); (0, NAccess); (1, NAccess);
                (0, NAccess); (0, NAccess); (1, NAccess); (1, NAccess)]).
  destruct (ends_ok false two_files 2 sch
    (fun s => Z.eqb (counter_get (as_counters (s_val s)) CAccess) 1 &&
              Z.eqb (counter_get (as_counters (s_val s)) CHit) (2 ^ 64 - 1))%bool)
    as (s & H1 & H2 & H3).
  - intros [|[|t]] Ht; [lia|lia|reflexivity].
  - vm_compute. reflexivity.
  - apply andb_prop in H3. destruct H3 as [H3 H4]. apply Z.eqb_eq in H3. apply Z.eqb_eq in H4.
    exists two_files, 2, sch, s. split; [intros [|[|t]] Ht; [lia|lia|reflexivity]|].
    split; [exact H1|]. split; [exact H2|]. split; [reflexivity|].
    split; [|split; [exact H3|exact H4]].
    intros [H _]. rewrite H3 in H. discriminate H.
Qed.
Print Assumptions C73_lost_refuted.

Definition asked (t : nat) : list op :=
  match t with 0 => [Read AFile] | 1 => [Query CHit] | _ => [] end.

(** Even with THREADSAFE_COUNTER, [get] takes no mutex: the hits queried while
    another thread misses can wrap around. *)
Theorem C73_hits_refuted : exists prog sch s,
  run true (init prog) sch = Some s /\ (forall t, finished s t) /\
  t_got (s_thr s 1) = [(CHit, (2 ^ 64 - 1)%Z)] /\
  all_reads 2 prog = [KFile].
Proof.
  pose (sch := [(1, NAccess); (1, NAccess); (0, NAccess); (0, NAccess); (0, NAccess); (0, NAccess);
                (0, NAccess); (0, NAccess); (0, NAccess); (0, NAccess);
                (1, NNuma); (1, NMpi); (1, NFile); (1, NFile)]).
  destruct (ends_ok true asked 2 sch
    (fun s => match t_got (s_thr s 1) with [(CHit, z)] => Z.eqb z (2 ^ 64 - 1) | _ => false end))
    as (s & H1 & H2 & H3).
  - intros [|[|t]] Ht; [lia|lia|reflexivity].
  - vm_compute. reflexivity.
  - exists asked, sch, s. split; [exact H1|]. split; [exact H2|]. split; [|reflexivity].
    destruct (t_got (s_thr s 1)) as [|[[] z] [|? ?]]; try discriminate H3.
    apply Z.eqb_eq in H3. now rewrite H3.
Qed.
Print Assumptions C73_hits_refuted.
