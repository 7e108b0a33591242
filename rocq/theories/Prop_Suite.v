(** * C95: the test programs of the repository *)
From Coq Require Import List Arith Bool ZArith Lia String.
From Flocq Require Import Core.Core IEEE754.BinarySingleNaN.
From Verif Require Import Base BlockedModel LevelsModel CacheModel ParamModel TypesModel CoordModel EndModel EndFacts SuiteModel SuiteFacts.
From Verif Require CountModel CountFacts.
Import ListNotations.
Local Open Scope string_scope.
Local Open Scope nat_scope.

(** C95.  Every test which reads a file of tests/prepare.cpp, for files of any (not too large) size, opened with any
    parameters, in any build, with any number of processes, domains and threads, in any interleaving: at every moment, every
    comparison that a thread has made so far has been successful. *)
Theorem C95_no_failure : forall W L H r x (s : session ieee) answers,
  usual_sizes W L H -> (forall i, (Z.abs (r i) <= 2 ^ 53)%Z) -> In x (suite W L H r) -> opened_for x s ->
  session_run s (test_prog x (n_threads s)) answers ->
  forall t, t < n_threads s -> exists k, passed (firstn k (t_probes x)) (answers t).
Proof. exact suite_no_failure. Qed.
Print Assumptions C95_no_failure.

(** All of the loop's comparisons can be reached.  (With GRID = CACHE and MPI_COMMUNICATION = THREAD this
    depends on the interleaving, see C61.) *)
Theorem C95_success : forall W L H r x (s : session ieee),
  usual_sizes W L H -> (forall i, (Z.abs (r i) <= 2 ^ 53)%Z) -> In x (suite W L H r) -> opened_for x s ->
  exists answers, session_run s (test_prog x (n_threads s)) answers /\ forall t, t < n_threads s -> passed (t_probes x) (answers t).
Proof. exact suite_success. Qed.
Print Assumptions C95_success.

(** The counters which the single threaded tests compare: [accesses] and [local_hits] of FULL, [accesses] of CACHE,
    [accesses] and [file_loads] of PASS_THROUGH are the number of reads. *)
Theorem C95_counters : forall (V : Type) (f : file V) user td arr0 bl opaque mode cn spread ixs,
  f_size f <> [] -> blocked_open (f_size f) user td arr0 = Ok bl -> 0 < cn -> (spread < Z.of_nat cn)%Z ->
  Forall (in_box (f_size f)) ixs -> (Z.of_nat (List.length ixs) < 2 ^ 64)%Z ->
  let g := Geom bl f opaque in let d := Dist mode 1 1 (b_total bl) in let n := Z.of_nat (List.length ixs) in
  (exists m c vs, full_open g d 0 = Ok m /\ full_run g d (domain_base g d 0) m counters0 ixs = Ok (c, vs) /\
     counter_get c CAccess = n /\ counter_get c CHit = n) /\
  (exists s s' vs, cache_open g cn spread = Ok s /\ cache_run g s ixs = Ok (s', vs) /\ counter_get (cs_cnt s') CAccess = n) /\
  (exists m c vs, pass_seq opaque f (pass_open 1) counters0 (map (fun ix => (0, ix)) ixs) = Ok (m, c, vs) /\
     counter_get c CAccess = n /\ counter_get c CFile = n).
Proof. exact single_counters. Qed.
Print Assumptions C95_counters.

(** The numbers of reads: the constants in the tests ([WIDTH * LENGTH], [WIDTH * LENGTH * 2], ..). *)
Theorem C95_reads : forall W L H r, map (fun x => List.length (t_probes x)) (suite W L H r) =
  [W * L; W * L * 2; W * L; W * L; W * W; W * L * H; W; W].
Proof. exact probe_counts. Qed.
Print Assumptions C95_reads.

(** The tests with two threads and [n] reads in each of them do not find [accesses] zero or larger than [2 * n],
    whatever the interleaving of the (by default not protected) counters. *)
Theorem C95_two_threads : forall ts prog sch st n, 1 <= n ->
  (forall t, t < 2 -> List.length (CountFacts.reads_of (prog t)) = n) -> (forall t, 2 <= t -> prog t = []) ->
  CountModel.run ts (CountModel.init prog) sch = Some st -> (forall t, CountFacts.finished st t) ->
  1 <= CountModel.s_val st CountModel.NAccess <= 2 * n.
Proof. exact double_counters. Qed.
Print Assumptions C95_two_threads.

(** ** Examples: the tests as they are in the repository *)
Example C95_sizes : usual_sizes 70 70 70.
Proof. unfold usual_sizes. lia. Qed.

(** The classes selected by the programs.  [NUMA_CACHE] (fullmpiwinnumacachegrid2d.cpp line 60,
    fullmpithreadnumacachegrid2d.cpp line 65) is not a parameter any more: these two tests select the same classes as
    without it, so no test runs the transfer class [NumaExchangeCache] which they are named after.  Because of
    the exchanged branches of C32, cachegrid2d.cpp runs the NUMA cache and cachenumagrid2d.cpp the other one. *)
Definition program (x : test) (calls : list set_call) (P D T : nat) : session ieee :=
  @Session ieee (Build false false) calls P D T (fun t => t mod P) (fun t => t mod D) RoundRobin (t_type x) 0 (t_axes x) (t_cells x).
Definition file2d := test_2d 70 70.
Example C95_classes :
  class_ (program file2d [] 1 1 1) = (SFull, MPINo, NumaNo) /\
  class_ (program file2d [] 1 2 2) = (SFull, MPINo, NumaExchange) /\
  class_ (program file2d [] 2 1 1) = (SFull, MPIWin, NumaNo) /\
  class_ (program file2d [] 2 2 2) = (SFull, MPIWin, NumaExchange) /\
  class_ (program file2d [("NUMA_CACHE", "1", 0)] 2 2 2) = (SFull, MPIWin, NumaExchange) /\
  class_ (program file2d [("MPI_COMMUNICATION", "THREAD", 0)] 2 1 1) = (SFull, MPIThread, NumaNo) /\
  class_ (program file2d [("NUMA_CACHE", "1", 0); ("MPI_COMMUNICATION", "THREAD", 0)] 2 2 2) = (SFull, MPIThread, NumaExchange) /\
  class_ (program file2d [("GRID", "CACHE", 0)] 1 1 1) = (SCache, MPINo, NumaExchange) /\
  class_ (program file2d [("GRID", "CACHE", 0)] 1 2 2) = (SCache, MPINo, NumaNo) /\
  class_ (program file2d [("GRID", "CACHE", 0)] 2 1 1) = (SCache, MPIWin, NumaNo) /\
  class_ (program file2d [("GRID", "CACHE", 0); ("NUMA_COMMUNICATION", "OFF", 0)] 2 2 2) = (SCache, MPIWin, NumaNo) /\
  class_ (program file2d [("GRID", "CACHE", 0)] 2 2 2) = (SCache, MPIWin, NumaExchange) /\
  class_ (program file2d [("GRID", "CACHE", 0); ("MPI_COMMUNICATION", "THREAD", 0)] 2 1 1) = (SCache, MPIThread, NumaNo) /\
  class_ (program file2d [("GRID", "PASS_THROUGH", 0)] 1 1 1) = (SPass, MPINo, NumaNo).
Proof. vm_compute. repeat split. Qed.

(** All of these programs, for each of the files. *)
Definition noise (i : nat) : Z := (Z.of_nat i * 777777 mod 2 ^ 31 - 2 ^ 30)%Z.
Lemma program_opened x calls P D T : In x (suite 70 70 70 noise) -> 0 < P -> 0 < D ->
  cache_size (program x calls P D T) = 128 -> (hand_spread (program x calls P D T) < 128)%Z -> opened_for x (program x calls P D T).
Proof.
  intros Hx HP HD Hc Hh. split; [|repeat split; reflexivity].
  split; [|split; [|split; [rewrite Hc; lia|split; [rewrite Hc; exact Hh|]]]].
  - cbn [suite In] in Hx. destruct Hx as [<-|[<-|[<-|[<-|[<-|[<-|[<-|[<-|[]]]]]]]]]; discriminate.
  - cbn [suite In] in Hx. destruct Hx as [<-|[<-|[<-|[<-|[<-|[<-|[<-|[<-|[]]]]]]]]]; repeat constructor; cbn [x_size plain]; discriminate.
  - split; intros t; cbn [n_rk n_dm n_ranks n_domains program]; apply Nat.mod_upper_bound; lia.
Qed.
Example C95_example : forall x, In x (suite 70 70 70 noise) ->
  let s := program x [("GRID", "CACHE", 0); ("MPI_COMMUNICATION", "THREAD", 0)] 2 2 2 in
  exists answers, session_run s (test_prog x 2) answers /\ forall t, t < 2 -> passed (t_probes x) (answers t).
Proof.
  intros x Hx s. apply (C95_success 70 70 70 noise x s).
  - exact C95_sizes.
  - intros i. unfold noise. pose proof (Z.mod_pos_bound (Z.of_nat i * 777777) (2 ^ 31) eq_refl). lia.
  - exact Hx.
  - apply program_opened; [exact Hx|lia|lia|reflexivity|reflexivity].
Qed.

(** ** The unit tests of tests/unittest on the same functions of the model *)
(** cache/cachelisttest.h lines 57-86: [testGetIndex], [list->init(3)]. *)
Definition free (o : outcome (clist * list (nat * option nat))) (b : nat) : outcome (clist * list (nat * option nat)) :=
  do r <- o; let '(c, l) := r in do f <- clist_get_free c b; let '(c', i, old) := f in Ok (c', (l ++ [(i, old)])%list).
Definition look (o : outcome (clist * list (nat * option nat))) (b : nat) : outcome (option nat) :=
  do r <- o; do x <- clist_get_index (fst r) b; Ok (snd x).
Definition list3 : outcome (clist * list (nat * option nat)) := do c <- clist_init 3 (-1); Ok (c, []).
Example C95_testGetIndex :
  look list3 5 = Ok None /\
  look (fold_left free [5; 6; 7] list3) 6 = Ok (Some 1) /\
  look (do r <- fold_left free [5; 6; 7] list3; do x <- clist_get_index (fst r) 6; free (Ok (fst x, [])) 8) 8 = Ok (Some 0) /\
  look (do r <- fold_left free [5; 6; 7] list3; do x <- clist_get_index (fst r) 6; free (Ok (fst x, [])) 8) 5 = Ok None.
Proof. vm_compute. repeat split. Qed.
(** Lines 88-113: [testGetFreeIndex]. *)
Example C95_testGetFreeIndex :
  (do r <- fold_left free [5; 6; 7; 8; 7] list3; Ok (snd r)) = Ok [(0, None); (1, None); (2, None); (0, Some 5); (1, Some 6)].
Proof. vm_compute. reflexivity. Qed.
(** cache/cachemanagertest.h lines 61-87: [testGet]. *)
Example C95_testGet :
  (do c <- clist_init 3 (-1); do r <- clist_trace c [5; 3; 5; 10; 3; 12]; Ok (map snd (snd r))) =
  Ok [None; None; Some 5; None; Some 3; Some 5].
Proof. vm_compute. reflexivity. Qed.
(** grid/level/fulltest.h lines 90-103: [testTotalBlockSize], [testLocal2global]. *)
Example C95_testFull : forall arr0 : nat -> nat,
  (do b <- blocks (program (test_1d 70) [] 1 1 1) arr0; Ok (b_tbs b)) = Ok 64 /\
  (do b <- blocks (program (test_1d 70) [("BLOCK_SIZE_0", "12", 0)] 1 1 1) arr0; Ok (b_tbs b)) = Ok 12 /\
  (do b <- blocks (program file2d [("BLOCK_SIZE_0", "-1", 0)] 1 1 1) arr0; Ok (nth_error (b_bs b) 1)) = Ok (Some 70) /\
  (do b <- blocks (program (test_1d 70) [] 1 1 1) arr0;
   Ok (local2global (Dist RoundRobin 1 1 (b_total b)) 0 0 0, local2global (Dist RoundRobin 1 1 (b_total b)) 0 0 1)) = Ok (0, 1).
Proof. intros arr0. split; [|split; [|split]]; vm_compute; reflexivity. Qed.
(** types/arraytypetest.h lines 58-64: the size which [check] stores for a file of floats. *)
Example C95_testSize : type_size (CType KArray Float 1) = sizeof Float.
Proof. reflexivity. Qed.
