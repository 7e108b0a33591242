(** * Executions of a session, step by step

    [EndModel] says which answers the threads may have at some moment; here
    the moment comes with the steps that have led to it, so that the number of
    steps, the next step and the end of an execution can be spoken about. *)
From Coq Require Import List Arith Bool ZArith.
From Verif Require Import ConcModel ConcFacts FullConcModel FullConcFacts
  Base BlockedModel LevelsModel ParamModel TypesModel CoordModel EndModel.
Import ListNotations.

(** The steps taken so far, oldest first: atomic steps of the levels with a
    cache (grid/level/cache.h:120-147, grid/level/cachedist.h:135-212, as in
    ConcModel.v), of the distributed full levels (grid/level/fulldist.h:150-197,
    as in FullConcModel.v), whole reads of the full level without transfers
    (grid/level/full.h:137-163: the memory is only read; entry: the thread),
    loads and conversions of the pass-through level
    (grid/level/passthrough.h:105-123). *)
Inductive hist :=
| HC (l : list (@act (option (list Z))))
| HU (l : list uact)
| HR (l : list nat)
| HP (l : list pass_op).

Definition steps (h : hist) : nat :=
  match h with HC l => length l | HU l => length l | HR l => length l | HP l => length l end.

(** [h'] is [h] and one more step. *)
Definition next (h h' : hist) : Prop :=
  match h, h' with
  | HC l, HC l' => exists a, l' = l ++ [a]
  | HU l, HU l' => exists a, l' = l ++ [a]
  | HR l, HR l' => exists a, l' = l ++ [a]
  | HP l, HP l' => exists a, l' = l ++ [a]
  | _, _ => False
  end.

Section EndRun.
Context {A : arith} (s : session A).

(** Like [observed] (EndModel.v, same classes and the same transition systems),
    after the steps [h]; without cached levels with the communication thread,
    whose executions need not end (C61). *)
Definition moment (bl : blocked) (ixs : nat -> list (list nat)) (h : hist)
    (cells : nat -> list (option (option (list Z)))) : Prop :=
  let g := Geom bl (variable s) (opaque s) in
  let d := Dist (n_mode s) (ranks s) (domains s) (b_total bl) in
  let conc m P D rk dm :=
    exists acts l0 st, h = HC acts /\
      let c := readers m (variable s) bl (opaque s) (n_mode s) P D (cache_size s) (hand_spread s)
                 rk dm (fun _ => []) ixs in
      clist_init (cache_size s) (hand_spread s) = Ok l0 /\
      run c (init c l0) acts = Some st /\
      forall t, cells t = map snd (t_done (s_thr st t)) in
  let full m p :=
    exists acts s0 l0 st, h = HU acts /\ fd_open g d (cache_size s) (hand_spread s) = Ok s0 /\
      let c := full_readers m p bl d (cache_size s) (hand_spread s) (rank_of s) (domain_of s) (fd_store s0) ixs in
      clist_init (cache_size s) (hand_spread s) = Ok l0 /\
      urun c (uinit c l0) acts = Some st /\
      forall t, cells t = map snd (q_done (u_thr st t)) in
  match class_ s with
  | (SFull, MPINo, NumaNo) =>
      exists l m, h = HR l /\ full_open g d 0 = Ok m /\
        forall t, exists c vs,
          let k := length (filter (fun u => u =? t) l) in
          k <= length (ixs t) /\
          full_run g d (domain_base g d 0) m counters0 (firstn k (ixs t)) = Ok (c, vs) /\
          cells t = map Some vs
  | (SFull, MPINo, NumaExchange) => full XNo PNumaFull
  | (SFull, MPINo, NumaExchangeCache) => full XNo PNumaFullCache
  | (SFull, MPIThread, NumaNo) => full XThread PNumaNo
  | (SFull, MPIThread, NumaExchange) => full XThread PNumaFull
  | (SFull, MPIThread, NumaExchangeCache) => full XThread PNumaFullCache
  | (SFull, MPIWin, NumaNo) => full XWin PNumaNo
  | (SFull, MPIWin, NumaExchange) => full XWin PNumaFull
  | (SFull, MPIWin, NumaExchangeCache) => full XWin PNumaFullCache
  | (SCache, MPINo, NumaNo) => conc MNo (domains s) 1 (domain_of s) (fun _ => 0)
  | (SCache, MPINo, _) => conc MNo (ranks s) (domains s) (rank_of s) (domain_of s)
  | (SCache, MPIWin, _) => conc MWin (ranks s) (domains s) (rank_of s) (domain_of s)
  | (SCache, MPIThread, _) => False
  | (SPass, _, _) =>
      exists ops m vs, h = HP ops /\
        pass_run (opaque s) (variable s) (pass_open (n_threads s)) ops = Ok (m, vs) /\
        (forall t, exists k, part_of t ops = firstn k (pass_prog t (ixs t))) /\
        forall t, cells t = map Some (map snd (filter (fun r => fst r =? t) vs))
  end.

(** The threads run [prog], on the block layout [bl] and with the indices [ixs]
    of the cells; after the steps [h] thread [t] has the answers [answers t]. *)
Definition session_exec (bl : blocked) (ixs : nat -> list (list nat)) (prog : nat -> list (@request A)) (h : hist)
    (answers : nat -> list answer) : Prop :=
  exists arr0 cells,
    blocks s arr0 = Ok bl /\
    (forall t, Forall2 (fun r ix => exists init, index_of s (q_pos r) init = Ok ix) (prog t) (ixs t)) /\
    moment bl ixs h cells /\
    forall t, answers t = map (fun rc => answer_of s (q_getter (fst rc)) (snd rc)) (combine (prog t) (cells t)).

End EndRun.

(** [h'] is [h] and further steps, all of them possible. *)
Inductive later {A : arith} (s : session A) (bl : blocked) (ixs : nat -> list (list nat)) (prog : nat -> list (@request A)) :
  hist -> hist -> Prop :=
| later_now h : later s bl ixs prog h h
| later_step h h1 h2 answers : next h h1 -> session_exec s bl ixs prog h1 answers -> later s bl ixs prog h1 h2 -> later s bl ixs prog h h2.
