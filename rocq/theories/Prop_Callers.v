(** * C105: registration with any number of calling threads

    The machine of CallersModel.v: [setThreads(T)], [N] threads each call [registerThread] once, in any order. *)
From Verif Require Import CallersModel CallersFacts.
Require Import ZArith List. Import ListNotations.

(** As many callers as announced: nothing undefined; while somebody has not returned somebody can go on, and an execution
    has at most [13 * T] steps, so all return; then the ids are 0 to [T - 1], each once, two threads are in the same domain
    if and only if they run on the same node (or no nodes are to be told apart), and each domain has exactly one master. *)
Theorem C105_fits_partial :
  forall T detect node l, 0 < T -> (Z.of_nat T < 2 ^ 32)%Z ->
  grun T T detect node (ginit T) l <> Some Ub /\
  forall s, grun T T detect node (ginit T) l = Some (Ok s) ->
  length l <= 13 * T /\
  ((exists t, t < T /\ forall r, g_pc s t <> GRet r) -> exists t s', gstep T T detect node s t = Some (Ok s')) /\
  ((forall t, t < T -> exists r, g_pc s t = GRet r) ->
   (forall i, i < T -> exists t r, t < T /\ g_pc s t = GRet r /\ r_tid r = i) /\
   (forall t u r r', t < T -> u < T -> g_pc s t = GRet r -> g_pc s u = GRet r' -> t <> u -> r_tid r <> r_tid r') /\
   (forall t u r r', t < T -> u < T -> g_pc s t = GRet r -> g_pc s u = GRet r' ->
      (r_dom r = r_dom r' <-> (detect = false \/ node t = node u))) /\
   (forall t, t < T -> exists u r, u < T /\ g_pc s u = GRet r /\ r_master r = true /\ (detect = false \/ node u = node t)) /\
   (forall t u r r', t < T -> u < T -> g_pc s t = GRet r -> g_pc s u = GRet r' -> r_master r = true -> r_master r' = true ->
      (detect = false \/ node t = node u) -> t = u)).
Proof.
  exact (fun T detect node l H0 HT => conj (equal_defined T detect node H0 HT l)
    (fun s E => conj (equal_bounded T detect node H0 HT l s E)
      (conj (equal_goes_on T detect node H0 HT l s E) (equal_results T detect node H0 HT l s E)))).
Qed.
Print Assumptions C105_fits_partial.

(** Two threads on two nodes: both return, each master of its own domain. *)
Example C105_fits_example :
  match grun 2 2 true (fun t => t) (ginit 2) [0; 0; 0; 1; 1; 1; 1; 1; 1; 1; 0; 0; 0; 0; 0] with
  | Some (Ok s) => map (g_pc s) [0; 1]
  | _ => []
  end = [GRet (NReg 0 0 true); GRet (NReg 1 1 true)].
Proof. vm_compute. reflexivity. Qed.

(** Fewer callers than announced, or [setThreads(0)] with any number of callers: nobody ever returns, and nobody gets an
    error; each makes three steps at most, and when nothing more can happen all of them sleep in the barrier. *)
Theorem C105_missing_refuted :
  forall T N detect node l, (T = 0 \/ N < T) -> (Z.of_nat T < 2 ^ 32)%Z -> (Z.of_nat N < 2 ^ 32)%Z ->
  grun T N detect node (ginit T) l <> Some Ub /\
  forall s, grun T N detect node (ginit T) l = Some (Ok s) ->
  length l <= 3 * N /\
  (forall t r, g_pc s t <> GRet r) /\
  ((forall t, gstep T N detect node s t = None) -> forall t, t < N -> y_pc (y_thr (g_sync s) t) = YSleepC).
Proof.
  exact (fun T N detect node l H HT HN => conj (few_defined T N detect node H HT HN l)
    (fun s E => conj (few_bounded T N detect node H HT HN l s E)
      (conj (few_never T N detect node H HT HN l s E) (few_asleep T N detect node H HT HN l s E)))).
Qed.
Print Assumptions C105_missing_refuted.

(** [setThreads(0)], two callers. *)
Example C105_missing_example :
  match grun 0 2 true (fun t => t) (ginit 0) [0; 1; 0; 0; 1; 1] with
  | Some (Ok s) => map (fun t => (y_pc (y_thr (g_sync s) t), gstep 0 2 true (fun t => t) s t)) [0; 1]
  | _ => []
  end = [(YSleepC, None); (YSleepC, None)].
Proof. vm_compute. reflexivity. Qed.

(** More callers than announced: there is an execution in which one of the surplus threads returns at once, without an error,
    with the id and the domain of another thread, and both are told to be the master of this domain. *)
Theorem C105_surplus_refuted :
  forall T M detect node, 0 < T -> 0 < M -> (Z.of_nat T < 2 ^ 32)%Z ->
  exists l s u r, grun T (T + M) detect node (ginit T) l = Some (Ok s) /\
    u < T /\ g_pc s u = GRet r /\ r_tid r = 0 /\ r_dom r = 0 /\ r_master r = true /\ g_pc s T = GRet r.
Proof. exact (fun T M detect node H0 HM HT => surplus_same_ids T M detect node H0 HT HM). Qed.
Print Assumptions C105_surplus_refuted.

(** ... or, if it has looked at m_initialized too early: the others return and it sleeps for ever. *)
Theorem C105_surplus_waits_refuted :
  forall T detect node, 1 < T -> (Z.of_nat T < 2 ^ 32)%Z ->
  exists l s, grun T (T + 1) detect node (ginit T) l = Some (Ok s) /\
    (forall t, t < T -> exists r, g_pc s t = GRet r) /\
    y_pc (y_thr (g_sync s) T) = YSleepC /\ (forall t, gstep T (T + 1) detect node s t = None).
Proof. exact (fun T detect node H1 HT => surplus_waits T 1 detect node (Nat.lt_trans _ _ _ Nat.lt_0_1 H1) HT H1 eq_refl). Qed.
Print Assumptions C105_surplus_waits_refuted.

(** Three callers on three nodes, two announced: the third is another thread 0, and counted to the first domain. *)
Example C105_surplus_example :
  match grun 2 3 true (fun t => t) (ginit 2) [0; 0; 0; 1; 1; 1; 1; 1; 1; 1; 0; 0; 0; 0; 0; 2] with
  | Some (Ok s) => map (g_pc s) [0; 1; 2]
  | _ => []
  end = [GRet (NReg 0 0 true); GRet (NReg 1 1 true); GRet (NReg 0 0 true)].
Proof. vm_compute. reflexivity. Qed.

Example C105_surplus_waits_example :
  match grun 2 3 true (fun t => t) (ginit 2) [2; 0; 0; 0; 1; 1; 1; 1; 1; 1; 1; 0; 0; 0; 0; 0; 2; 2] with
  | Some (Ok s) => (map (g_pc s) [0; 1; 2], y_pc (y_thr (g_sync s) 2), map (gstep 2 3 true (fun t => t) s) [0; 1; 2])
  | _ => ([], YOut, [])
  end = ([GRet (NReg 0 0 true); GRet (NReg 1 1 true); GSync], YSleepC, [None; None; None]).
Proof. vm_compute. reflexivity. Qed.
