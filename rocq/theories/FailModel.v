(** * Failing pthread functions: threads/sync.h and the registration of numa/numa.cpp

    One call by one thread.  The pthread functions succeed or fail as [answers] says (each of
    them is called at most once in a call of [barrier] or [broadcast]); the other threads
    appear as the contents of the object when the thread gets the mutex back after a wait,
    which may be anything.

    External (POSIX): a failing [pthread_mutex_lock] does not lock; a failing
    [pthread_cond_wait] returns at once and leaves the mutex locked; a failing
    [pthread_mutex_unlock] leaves it locked; a failing [pthread_cond_broadcast] wakes nobody.
    Unlocking a mutex not held and access to the variables of the object without it (a data race)
    are undefined. *)
From Verif Require Export NumaModel.

(** The variables of threads/sync.h lines 58-78; unsigned 32 bit counters.  [m_data] is left
    out: the pointer is copied under the mutex like the counters. *)
Record obj := Obj { o_synced : Z; o_lasts : Z; o_fin : bool }.
Definition u32 (z : Z) : Z := (z mod 2 ^ 32)%Z.

(** The condition variables m_finishCondition, m_condition, m_lastCondition and the calls. *)
Inductive cond := CFinish | CMain | CLast.
Inductive pcall := PLock | PUnlock | PWait (c : cond) | PSignal (c : cond).

(** What the calls answer; for a wait: [None], it fails; [Some o], the object when it returns. *)
Record answers := Answers {
  a_lock : bool; a_wait : cond -> option obj; a_signal : cond -> bool; a_unlock : bool
}.

(** The object, whether this thread holds the mutex, and the pthread calls made with their
    success. *)
Record fst_ := FSt { f_obj : obj; f_held : bool; f_log : list (pcall * bool) }.

Definition f_call (s : fst_) (p : pcall) (ok : bool) : fst_ := FSt (f_obj s) (f_held s) (f_log s ++ [(p, ok)]).
Definition f_put (s : fst_) (o : obj) : fst_ := FSt o (f_held s) (f_log s).
(** [pthread_cond_wait]: result and state afterwards. *)
Definition f_wait (a : answers) (c : cond) (s : fst_) : bool * fst_ :=
  match a_wait a c with
  | Some o => (true, f_put (f_call s (PWait c) true) o)
  | None => (false, f_call s (PWait c) false)
  end.
(** [pthread_mutex_unlock]. *)
Definition f_unlock (a : answers) (s : fst_) : outcome (bool * fst_) :=
  if f_held s
  then Ok (a_unlock a, FSt (f_obj s) (negb (a_unlock a)) (f_log s ++ [(PUnlock, a_unlock a)]))
  else Ub.

(** [startBarrier], lines 107-117: the test of m_finishing belongs to the [if] of line 109. *)
Definition start_barrier (a : answers) (s : fst_) : bool * fst_ :=
  let s1 := FSt (f_obj s) (a_lock a) (f_log s ++ [(PLock, a_lock a)]) in
  if a_lock a then
    if o_fin (f_obj s1) then f_wait a CFinish s1 else (true, s1)
  else (true, s1).

(** Lines 138-139, 143-144, 151-152, 164-165: unlock and return false; the result of the
    unlock is not looked at. *)
Definition f_fail (a : answers) (s : fst_) : outcome (bool * fst_) :=
  do x <- f_unlock a s; let '(_, s') := x in Ok (false, s').

Definition lastz (last : bool) : Z := if last then 1%Z else 0%Z.

(** [waitBarrier], lines 127-176.  The two phases: arriving (lines 129-146) ... *)
Definition arrive (a : answers) (total : Z) (last : bool) (s : fst_) : bool * fst_ :=
  let o := f_obj s in
  let o1 := Obj (u32 (o_synced o + 1)) (u32 (o_lasts o + lastz last)) (o_fin o) in
  let s1 := f_put s o1 in
  if (o_synced o1 =? total)%Z then
    let s2 := f_put s1 (Obj (o_synced o1) (o_lasts o1) true) in
    (a_signal a CMain, f_call s2 (PSignal CMain) (a_signal a CMain))
  else f_wait a CMain s1.
(** ... waiting for the others as root (lines 149-154) ... *)
Definition hold_back (a : answers) (last : bool) (s : fst_) : bool * fst_ :=
  if (last && (o_lasts (f_obj s) <? o_synced (f_obj s))%Z)%bool then f_wait a CLast s else (true, s).
(** ... and leaving (lines 157-173).  The result of the last broadcast is not looked at. *)
Definition leave (a : answers) (last : bool) (s : fst_) : bool * fst_ :=
  let o := f_obj s in
  let o1 := Obj (u32 (o_synced o - 1)) (u32 (o_lasts o - lastz last)) (o_fin o) in
  let s1 := f_put s o1 in
  if ((o_synced o1 =? o_lasts o1)%Z && negb last)%bool then
    (a_signal a CLast, f_call s1 (PSignal CLast) (a_signal a CLast))
  else (true, s1).
Definition finish (a : answers) (s : fst_) : fst_ :=
  let o := f_obj s in
  if (o_synced o =? 0)%Z
  then f_call (f_put s (Obj (o_synced o) (o_lasts o) false)) (PSignal CFinish) (a_signal a CFinish)
  else s.
Definition wait_barrier (a : answers) (total : Z) (last : bool) (s : fst_) : outcome (bool * fst_) :=
  if f_held s then
    let '(ok1, s1) := arrive a total last s in
    if ok1 then
      let '(ok2, s2) := hold_back a last s1 in
      if ok2 then
        let '(ok3, s3) := leave a last s2 in
        if ok3 then Ok (true, finish a s3) else f_fail a s3
      else f_fail a s2
    else f_fail a s1
  else Ub.

(** [endBarrier], lines 183-186. *)
Definition end_barrier (a : answers) (s : fst_) : outcome (bool * fst_) := f_unlock a s.

(** [barrier], lines 201-208 ([last] is false), and [broadcast], lines 220-234 ([last]: the
    thread is the root). *)
Definition sync_call (a : answers) (total : Z) (last : bool) (s : fst_) : outcome (bool * fst_) :=
  let '(ok, s1) := start_barrier a s in
  if ok then
    do x <- wait_barrier a total last s1;
    let '(ok2, s2) := x in
    if ok2 then end_barrier a s2 else Ok (false, s2)
  else Ok (false, s1).

(** ** [registerThread], numa/numa.cpp lines 75-154 *)
Inductive rcode := RSuccess | RThread | RNuma.

(** Shared: m_initialized, m_masterThreads, m_domains ([NumaModel.nst]) and m_keyError; of the
    thread: the value of the key ([None]: NULL). *)
Record rst := RSt { rs_numa : nst; rs_keyerr : bool; rs_ids : option (nat * nat) }.

(** What the system answers in one call: [sched_getcpu] and [numa_node_of_cpu] ([None]:
    negative), the pthread functions, the shared variables when the mutex is locked and when the wait of
    the barrier is over (other threads register in between), [pthread_setspecific]. *)
Record rans := RAns {
  ra_node : option nat; ra_sync : answers; ra_before : nst; ra_after : nst; ra_set : bool
}.

(** [threadId()], numa/numa.h lines 138-142: undefined if the key does not exist. *)
Definition thread_id (s : rst) : outcome nat :=
  if rs_keyerr s then Ub
  else Ok (match rs_ids s with Some (t, _) => t | None => 0 end).

(** Result code, m_initialized and so on afterwards, and masterThread. *)
Definition register_thread (total : nat) (detect : bool) (x : rans) (o : fst_) (s : rst)
  : outcome (rcode * option bool * fst_ * rst) :=
  if n_ready (rs_numa s) then (* lines 77-80 *)
    do t <- thread_id s;
    match nagain (rs_numa s) t with
    | Some m => Ok (RSuccess, Some m, o, s)
    | None => Ub
    end
  else
    match ra_node x with
    | None => Ok (RNuma, None, o, s) (* lines 84-95 *)
    | Some node =>
        let '(ok, o1) := start_barrier (ra_sync x) o in
        if ok then
          if f_held o1 then
            let '(n1, r) := nregister total detect (ra_before x) (Z.to_nat (o_synced (f_obj o1))) node in
            do y <- wait_barrier (ra_sync x) (Z.of_nat total) false o1;
            let '(ok2, o2) := y in
            (* a thread that waited finds what the others have stored *)
            let n2 := if (u32 (o_synced (f_obj o1) + 1) =? Z.of_nat total)%Z then n1
                      else match a_wait (ra_sync x) CMain with Some _ => ra_after x | None => n1 end in
            if ok2 then
              do z <- end_barrier (ra_sync x) o2;
              let '(ok3, o3) := z in
              if ok3 then
                if rs_keyerr s then Ok (RThread, Some (r_master r), o3, RSt n2 true (rs_ids s)) (* 144-145 *)
                else if ra_set x
                then Ok (RSuccess, Some (r_master r), o3, RSt n2 false (Some (r_tid r, r_dom r)))
                else Ok (RThread, Some (r_master r), o3, RSt n2 false (rs_ids s)) (* 150-151 *)
              else Ok (RThread, Some (r_master r), o3, RSt n2 (rs_keyerr s) (rs_ids s))
            else Ok (RThread, Some (r_master r), o2, RSt n2 (rs_keyerr s) (rs_ids s))
          else Ub (* the variables are used without the mutex *)
        else Ok (RThread, None, o1, s)
    end.
