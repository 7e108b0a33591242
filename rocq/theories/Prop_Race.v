(** * C83: data races *)
From Verif Require Import CountModel OnceFacts.
From Verif Require Import FullConcSim RaceModel RaceSpec RaceFacts RaceFull Prop_Conc.
From Verif Require Prop_FullConc.

(** Any number of threads on any ranks and domains read through [Cache] or [CacheDist] with any of the transfers: in no reachable state
    the next accesses of two different threads (communication threads included) conflict, for the blocks in the caches, the lists of the
    cache managers and the dictionary. *)
Theorem C83_race_free_partial : forall (V : Type) (c : cfg V), wf_cfg c -> forall s a b, reachable c s -> ~ race c s a b.
Proof. exact (fun V => @race_free V). Qed.
Print Assumptions C83_race_free_partial.
(** The accesses are all: a step changes only places it is said to write, in every state. *)
Theorem C83_writes : forall (V : Type) (c : cfg V) p s a s', step c s a = Some s' -> (forall m, In (p, m) (about c s a) -> m = Rd) -> unchanged p s s'.
Proof. exact (fun V => @writes_step V). Qed.
Print Assumptions C83_writes.
(** ... and its effect and whether it is possible depend only on places it is said to access. *)
Theorem C83_reads : forall (V : Type) (c : cfg V) p s1 s2 a, same_but p s1 s2 -> ~ In p (map fst (about c s1 a)) ->
  match step c s1 a, step c s2 a with Some s1', Some s2' => same_but p s1' s2' | None, None => True | _, _ => False end.
Proof. exact (fun V => @reads_step V). Qed.
Print Assumptions C83_reads.

(** The same for [FullDist] with any of its transfers. *)
Theorem C83_full_race_free_partial : forall (W : Type) (c : fcfg W), wf_fcfg c -> forall s t u, ureach c s -> ~ urace c s t u.
Proof. exact (fun W => @urace_free W). Qed.
Print Assumptions C83_full_race_free_partial.
Theorem C83_full_writes : forall (W : Type) (c : fcfg W) p s a s', ustep c s a = Some s' -> (forall m, In (p, m) (uabout_act c s a) -> m = Rd) -> uunchanged p s s'.
Proof. exact (fun W => @uwrites_step W). Qed.
Print Assumptions C83_full_writes.
Theorem C83_full_reads : forall (W : Type) (c : fcfg W) p s1 s2 a, usame_but p s1 s2 -> ~ In p (map fst (uabout_act c s1 a)) ->
  match ustep c s1 a, ustep c s2 a with Some s1', Some s2' => usame_but p s1' s2' | None, None => True | _, _ => False end.
Proof. exact (fun W => @ureads_step W). Qed.
Print Assumptions C83_full_reads.

(** Four threads on two ranks with two domains each; what they access next in some reachable states. *)
Definition demo_mid (m : mode) (fuel : nat) : option (st (option nat)) :=
  match clist_init 1 0 with
  | Ok l0 => Some (snd (plan (demo_readers m 2 2) fuel 4 1 (init (demo_readers m 2 2) l0)))
  | Ub => None
  end.
Example demo_mid_reach m fuel s : demo_mid m fuel = Some s -> wf_cfg (demo_readers m 2 2) /\ reachable (demo_readers m 2 2) s.
Proof.
  unfold demo_mid. destruct (clist_init 1 0) as [l0|] eqn:E; [|discriminate]. intros H. injection H as <-. split; [apply readers_wf, demo_setting; lia|].
  exists l0, (fst (plan (demo_readers m 2 2) fuel 4 1 (init (demo_readers m 2 2) l0))). split; [exact E|apply plan_run].
Qed.
Definition demo_next (m : mode) (fuel : nat) : list (list (place * manner)) :=
  match demo_mid m fuel with Some s => map (about_thr (demo_readers m 2 2) s) (seq 0 4) | None => [] end.
Example C83_window : demo_next MWin 42 = [[]; [(Index 1 1, Rd)]; [(Index 0 0, Rd)]; [(Entry 8, Wr)]] /\
  demo_next MWin 95 = [[]; [(Block 1 0, Wr); (Block 1 1, Rd)]; [(Index 0 1, Wr)]; [(Index 1 1, Wr)]].
Proof. vm_compute. split; reflexivity. Qed.
Example C83_thread : demo_next MThread 63 = [[]; [(Entry 8, Inside)]; [(Entry 0, Inside)]; [(Entry 8, Inside)]] /\
  demo_next MThread 70 = [[]; [(Block 1 0, Wr)]; [(Block 0 1, Rd)]; [(Block 1 1, Rd)]].
Proof. vm_compute. split; reflexivity. Qed.
Example C83_full : match Prop_FullConc.demo_mid XWin PNumaFullCache 52 1 with
  | Some s => map (uabout (Prop_FullConc.demo_readers XWin PNumaFullCache 2 2) s) (seq 0 4) | None => [] end =
  [[(Block 0 0, Wr)]; [(Index 1 1, Rd)]; [(Block 0 1, Wr)]; [(Block 1 1, Wr)]].
Proof. vm_compute. reflexivity. Qed.

(** [m_state] of threads/once.h: two threads, the first at line 85, the second at line 73.  [Grid] uses it for [initContainers]
    (grid/grid.cpp line 224), so the first opens of a grid by several threads race. *)
Theorem C83_once_refuted : exists calls s, ostate calls s /\ orace s 0 1.
Proof.
  exists (fun _ => 1). destruct (orun (oinit (fun _ => 1)) [0; 0; 0; 0; 0]) as [s|] eqn:E; [|discriminate E]. exists s. split; [exists [0; 0; 0; 0; 0]; exact E|].
  vm_compute in E. injection E as <-. split; [discriminate|]. split; [reflexivity|discriminate].
Qed.
Print Assumptions C83_once_refuted.
(** It is the only one there: all other accesses are made with the mutex. *)
Theorem C83_once_partial : forall calls s t u, ostate calls s -> orace s t u -> o_pc (o_thr s u) = ORead /\ o_mutex s = Some t.
Proof. exact once_races. Qed.
Print Assumptions C83_once_partial.

(** perf/counter.h: two reading threads without THREADSAFE_COUNTER (the default), a reading thread and a query with it. *)
Theorem C83_counter_refuted : exists prog sch s, only_reads prog /\ CountModel.run false (CountModel.init prog) sch = Some s /\ nrace false s 0 1.
Proof.
  exists (fun _ => [Read AHit]), [(0, NAccess)]. eexists. split; [intros t c [H|[]]; discriminate H|]. split; [reflexivity|].
  split; [discriminate|]. exists NAccess, NAccess, NAccess, false. split; reflexivity.
Qed.
Print Assumptions C83_counter_refuted.
Theorem C83_query_refuted : exists prog sch s, CountModel.run true (CountModel.init prog) sch = Some s /\ nrace true s 0 1.
Proof.
  exists (fun t => match t with 0 => [Read AHit] | _ => [Query CHit] end), [(0, NAccess); (0, NAccess); (1, NAccess)]. eexists. split; [reflexivity|].
  split; [discriminate|]. exists NAccess, NAccess, NAccess, false. split; reflexivity.
Qed.
Print Assumptions C83_query_refuted.
(** With THREADSAFE_COUNTER and without queries there is none. *)
Theorem C83_counter_partial : forall prog sch s t u, only_reads prog -> CountModel.run true (CountModel.init prog) sch = Some s -> ~ nrace true s t u.
Proof. exact counter_race_free. Qed.
Print Assumptions C83_counter_partial.
