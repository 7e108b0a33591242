(** * Thread synchronisation: threads/sync.h and threads/once.h

    [N] threads take part in a sequence of collective calls on one [Sync] object; call [k] is a
    broadcast from thread [y_root k] or (no root) a plain barrier.  (The user of a barrier and
    the section between [startBarrier] and [waitBarrier] may run other code; it runs under the
    mutex.)

    Simplifications: sequentially consistent memory; the statements executed under the
    mutex between two waits are one or two steps; pthread functions do not fail. *)
From Verif Require Export Base.

(** Program counter.  [Y*F], [Y*C], [Y*L]: m_finishCondition, m_condition, m_lastCondition. *)
Inductive ypc :=
| YOut          (* before pthread_mutex_lock, line 109 *)
| YSleepF       (* in pthread_cond_wait, line 112 *)
| YWakeF        (* woken up, mutex not yet locked again *)
| YIn           (* startBarrier returned; mutex locked *)
| YSleepC       (* line 142 *)
| YWakeC
| YCheck        (* line 149; mutex locked *)
| YSleepL       (* line 150 *)
| YWakeL
| YLeave        (* line 157; mutex locked *)
| YCopy         (* waitBarrier returned; mutex locked *)
| YEnd.         (* endBarrier; mutex locked *)

(** A thread: program counter, number of completed calls, its variable [data], the value of
    [waiting()] it saw when it entered the current call, and what it got from the
    completed calls (value of [waiting()], value of [data]). *)
Record ythr (V : Type) := YThr {
  y_pc : ypc; y_round : nat; y_var : V; y_num : nat; y_out : list (nat * V)
}.
Arguments YThr {V}. Arguments y_pc {V}. Arguments y_round {V}. Arguments y_var {V}.
Arguments y_num {V}. Arguments y_out {V}.

(** The object (lines 58-78) and the threads.  [y_data]: the thread and the call whose variable [m_data]
    points to. *)
Record yst (V : Type) := YSt {
  y_mutex : option nat;
  y_synced : nat;
  y_last : nat;
  y_fin : bool;
  y_data : option (nat * nat);
  y_thr : nat -> ythr V
}.
Arguments YSt {V}. Arguments y_mutex {V}. Arguments y_synced {V}. Arguments y_last {V}.
Arguments y_fin {V}. Arguments y_data {V}. Arguments y_thr {V}.

Record ycfg (V : Type) := YCfg {
  y_n : nat;                       (* number of threads *)
  y_rounds : nat;                  (* number of calls *)
  y_root : nat -> option nat;      (* root of a call *)
  y_init : nat -> nat -> V;        (* thread, call: value of the variable at the start *)
  y_spurious : bool                (* pthread_cond_wait may return without a signal *)
}.
Arguments YCfg {V}. Arguments y_n {V}. Arguments y_rounds {V}. Arguments y_root {V}.
Arguments y_init {V}. Arguments y_spurious {V}.

Section Sync.
Context {V : Type} (c : ycfg V).

Definition y_set (s : yst V) (t : nat) (x : ythr V) : yst V :=
  YSt (y_mutex s) (y_synced s) (y_last s) (y_fin s) (y_data s) (upd (y_thr s) t x).
Definition y_goto (s : yst V) (t : nat) (p : ypc) : yst V :=
  let x := y_thr s t in y_set s t (YThr p (y_round x) (y_var x) (y_num x) (y_out x)).
Definition y_lock (s : yst V) (o : option nat) : yst V :=
  YSt o (y_synced s) (y_last s) (y_fin s) (y_data s) (y_thr s).
(** pthread_cond_broadcast: all threads sleeping at [p] wake up. *)
Definition ypc_eq (p p' : ypc) : bool :=
  match p, p' with
  | YSleepF, YSleepF | YSleepC, YSleepC | YSleepL, YSleepL => true
  | _, _ => false
  end.
Definition y_wake (s : yst V) (p p' : ypc) : yst V :=
  YSt (y_mutex s) (y_synced s) (y_last s) (y_fin s) (y_data s)
      (fun t => let x := y_thr s t in
                if ypc_eq (y_pc x) p then YThr p' (y_round x) (y_var x) (y_num x) (y_out x) else x).

Definition is_last (t k : nat) : bool :=
  match y_root c k with Some r => r =? t | None => false end.
Definition b2n (b : bool) : nat := if b then 1 else 0.

(** One step of thread [t]; [None]: not possible now; [Some Ub]: dangling pointer. *)
Definition ystep_thr (s : yst V) (t : nat) : option (outcome (yst V)) :=
  let x := y_thr s t in
  let k := y_round x in
  let lock s f := match y_mutex s with None => Some (Ok (f (y_lock s (Some t)))) | Some _ => None end in
  match y_pc x with
  | YOut => (* lines 109-113 *)
      if k <? y_rounds c then
        lock s (fun s => if y_fin s then y_lock (y_goto s t YSleepF) None else y_goto s t YIn)
      else None
  | YSleepF | YSleepC | YSleepL => None
  | YWakeF => lock s (fun s => y_goto s t YIn)
  | YIn => (* lines 225-226, 129-145 *)
      let n := S (y_synced s) in
      let s1 := YSt (y_mutex s) n (y_last s + b2n (is_last t k)) (y_fin s)
                    (if is_last t k then Some (t, k) else y_data s)
                    (upd (y_thr s) t (YThr YIn k (y_var x) (y_synced s) (y_out x))) in
      if n =? y_n c then
        let s2 := y_wake s1 YSleepC YWakeC in
        Some (Ok (y_goto (YSt (y_mutex s2) (y_synced s2) (y_last s2) true (y_data s2) (y_thr s2)) t YCheck))
      else Some (Ok (y_lock (y_goto s1 t YSleepC) None))
  | YWakeC => lock s (fun s => y_goto s t YCheck)
  | YCheck => (* lines 148-154 *)
      if andb (is_last t k) (y_last s <? y_synced s)
      then Some (Ok (y_lock (y_goto s t YSleepL) None))
      else Some (Ok (y_goto s t YLeave))
  | YWakeL => lock s (fun s => y_goto s t YLeave)
  | YLeave => (* lines 157-175 *)
      let s1 := YSt (y_mutex s) (y_synced s - 1) (y_last s - b2n (is_last t k)) (y_fin s) (y_data s) (y_thr s) in
      let s2 := if andb (y_synced s1 =? y_last s1) (negb (is_last t k)) then y_wake s1 YSleepL YWakeL else s1 in
      let s3 := if y_synced s2 =? 0
                then y_wake (YSt (y_mutex s2) (y_synced s2) (y_last s2) false (y_data s2) (y_thr s2)) YSleepF YWakeF
                else s2 in
      Some (Ok (y_goto s3 t YCopy))
  | YCopy => (* line 231; a barrier does not copy *)
      match y_root c k with
      | None => Some (Ok (y_goto s t YEnd))
      | Some _ =>
          match y_data s with
          | Some (r, k') =>
              (* the variable exists until its thread has left the call *)
              if y_round (y_thr s r) =? k'
              then Some (Ok (y_set s t (YThr YEnd k (y_var (y_thr s r)) (y_num x) (y_out x))))
              else Some Ub
          | None => Some Ub
          end
      end
  | YEnd => (* line 185; then the next call with a new variable *)
      Some (Ok (y_lock (y_set s t (YThr YOut (S k) (y_init c t (S k)) 0 (y_out x ++ [(y_num x, y_var x)]))) None))
  end.

(** A spurious wake-up. *)
Definition ystep_spur (s : yst V) (t : nat) : option (outcome (yst V)) :=
  if y_spurious c then
    match y_pc (y_thr s t) with
    | YSleepF => Some (Ok (y_goto s t YWakeF))
    | YSleepC => Some (Ok (y_goto s t YWakeC))
    | YSleepL => Some (Ok (y_goto s t YWakeL))
    | _ => None
    end
  else None.

Inductive yact := YStep (t : nat) | YSpur (t : nat).
Definition ystep (s : yst V) (a : yact) : option (outcome (yst V)) :=
  match a with
  | YStep t => if t <? y_n c then ystep_thr s t else None
  | YSpur t => if t <? y_n c then ystep_spur s t else None
  end.
Fixpoint yrun (s : yst V) (l : list yact) : option (outcome (yst V)) :=
  match l with
  | [] => Some (Ok s)
  | a :: l' => match ystep s a with
               | Some (Ok s') => yrun s' l'
               | x => x
               end
  end.

(** Lines 81-91. *)
Definition yinit : yst V :=
  YSt None 0 0 false None (fun t => YThr YOut 0 (y_init c t 0) 0 []).

End Sync.
Arguments yact : clear implicits.

(** ** threads/once.h

    Any number of threads; each calls [saveExec] [o_calls t] times. *)
Inductive opc :=
| ORead         (* line 73, without lock *)
| OWant         (* line 77 *)
| ORecheck      (* line 78, locked *)
| OExec         (* line 83: the function starts *)
| OExecEnd      (* ... and ends *)
| OSet          (* line 85 *)
| OUnlock (r : bool)    (* end of the scope; true: after line 85 *)
| OReturn.      (* after the call *)

Record othr := OThr { o_pc : opc; o_left : nat }.
Record ost := OSt {
  o_state : bool;                (* m_state *)
  o_mutex : option nat;          (* m_mutex *)
  o_started : nat;               (* how often the function was started ... *)
  o_ended : nat;                 (* ... and has finished *)
  o_thr : nat -> othr
}.

(** A thread which returned starts its next call; [OReturn] is visible in the state before. *)
Definition ostep (s : ost) (t : nat) : option ost :=
  let x := o_thr s t in
  let go st m a e p := OSt st m a e (upd (o_thr s) t (OThr p (o_left x))) in
  match o_pc x with
  | ORead =>
      match o_left x with
      | 0 => None
      | S _ => Some (go (o_state s) (o_mutex s) (o_started s) (o_ended s) (if o_state s then OReturn else OWant))
      end
  | OWant => match o_mutex s with
             | None => Some (go (o_state s) (Some t) (o_started s) (o_ended s) ORecheck)
             | Some _ => None
             end
  | ORecheck => Some (go (o_state s) (o_mutex s) (o_started s) (o_ended s) (if o_state s then OUnlock false else OExec))
  | OExec => Some (go (o_state s) (o_mutex s) (S (o_started s)) (o_ended s) OExecEnd)
  | OExecEnd => Some (go (o_state s) (o_mutex s) (o_started s) (S (o_ended s)) OSet)
  | OSet => Some (go true (o_mutex s) (o_started s) (o_ended s) (OUnlock true))
  | OUnlock _ => Some (go (o_state s) None (o_started s) (o_ended s) OReturn)
  | OReturn => Some (OSt (o_state s) (o_mutex s) (o_started s) (o_ended s)
                         (upd (o_thr s) t (OThr ORead (o_left x - 1))))
  end.
Fixpoint orun (s : ost) (l : list nat) : option ost :=
  match l with
  | [] => Some s
  | t :: l' => match ostep s t with Some s' => orun s' l' | None => None end
  end.
Definition oinit (calls : nat -> nat) : ost := OSt false None 0 0 (fun t => OThr ORead (calls t)).
