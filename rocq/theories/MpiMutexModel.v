(** * The MPI mutex (mpi/mutex.h) and its use (transfer/mpiwincache.h)

    Every thread of every process runs a list of operations: acquire a mutex
    ([startTransfer], mpiwincache.h lines 243-344), release it ([endTransfer],
    lines 415-438), or acquire and release it in one call ([deleteBlock], lines 465-572).

    Locks below the mutex:
    - the window lock [MPI_Win_lock(MPI_LOCK_EXCLUSIVE, dictRank, ...)], one per rank;
    - one lock per process: without THREADSAFE_MPI this is [m_dictWinMutex], which
      is held while a thread has locked the window; with THREADSAFE_MPI ([x_lib]) it
      is [mpiLock], which is held from the begin of [startTransfer] to the end of
      [endTransfer].

    Simplifications: sequentially consistent memory; one atomic step per MPI
    call; the dictionary itself is not part of this model (see ConcModel.v);
    MPI_Ssend and the matching MPI_Recv are one joint step (synchronous send); no
    wraparound in [lockId] (premise of the theorems in Prop_MpiMutex.v). *)
From Verif Require Export Base.

Inductive mop := OAcq (m : nat) | ORel (m : nat) | ODel (m : nat).

(** Program counter inside of an operation on mutex [m]. *)
Inductive mpc :=
| QRun                     (* between two operations *)
| QProc (m : nat)          (* lock of the process wanted, mpiwincache.h line 256 *)
| QWin (m : nat)           (* window lock wanted, line 263 *)
| QSwap (m : nat)          (* window locked; mutex.h lines 135-141 *)
| QUnwin (m : nat) (o : Z) (* old value >= 0: unlock the window, line 283 *)
| QUnproc (m : nat) (o : Z)   (* line 287 *)
| QSend (m : nat) (o : Z)  (* MPI_Ssend, mutex.h lines 160-164 *)
| QProc2 (m : nat)         (* line 293 *)
| QWin2 (m : nat)          (* line 296 *)
| QGot (m : nat)           (* mutex acquired, window locked: lines 317-334 *)
| QOut (m : nat)           (* unlock the window, line 336 *)
| QOut2 (m : nat)          (* line 340 *)
| QRel (m : nat)           (* endTransfer: lock of the process, line 423 *)
| QRelWin (m : nat)        (* line 428 *)
| QCas (m : nat)           (* mutex.h lines 187-193 *)
| QRecv (m : nat)          (* mutex.h lines 197-198 *)
| QDrop (m : nat)          (* unlock the window, line 434 *)
| QDrop2 (m : nat).        (* unlock the process *)

(** A thread: program counter, mutexes it has acquired and not yet released, operations
    left (the first one is in progress if the program counter is not [QRun]). *)
Record mthr := MThr { h_pc : mpc; h_held : list nat; h_todo : list mop }.

Record mst := MSt {
  x_word : nat -> Z;            (* mutex memory in the window *)
  x_proc : nat -> option nat;   (* per process: thread that holds the lock *)
  x_win : nat -> option nat;    (* per rank: thread that has locked the window *)
  x_thr : nat -> mthr
}.

(** Parameters.  Thread [t] is thread number [x_tid t] of process [x_rank t]; mutex [m] is stored
    in the window of rank [x_home m]. *)
Record mcfg := MCfg {
  x_lib : bool;                 (* THREADSAFE_MPI *)
  x_threads : nat;              (* totalThreads() *)
  x_rank : nat -> nat;
  x_tid : nat -> nat;
  x_home : nat -> nat;
  x_prog : nat -> list mop
}.

(** Observable events. *)
Inductive mev :=
| EQueue (m t : nat)            (* swap: [t] is in the queue *)
| EEnter (m t : nat)            (* [t] has the mutex *)
| ELeave (m t : nat).           (* [t] has given it back *)

Section Mutex.
Variable c : mcfg.

(** mutex.h lines 208-211. *)
Definition lock_id (t : nat) : Z := (Z.of_nat (x_rank c t) * Z.of_nat (x_threads c) + Z.of_nat (x_tid c t))%Z.
(** mutex.h line 213. *)
Definition unlocked : Z := (-1)%Z.

Definition set_word (s : mst) (m : nat) (w : Z) : mst := MSt (upd (x_word s) m w) (x_proc s) (x_win s) (x_thr s).
Definition set_proc (s : mst) (r : nat) (o : option nat) : mst := MSt (x_word s) (upd (x_proc s) r o) (x_win s) (x_thr s).
Definition set_win (s : mst) (r : nat) (o : option nat) : mst := MSt (x_word s) (x_proc s) (upd (x_win s) r o) (x_thr s).
Definition set_mthr (s : mst) (t : nat) (x : mthr) : mst := MSt (x_word s) (x_proc s) (x_win s) (upd (x_thr s) t x).
Definition set_pc (s : mst) (t : nat) (p : mpc) : mst :=
  set_mthr s t (MThr p (h_held (x_thr s t)) (h_todo (x_thr s t))).
Definition set_held (s : mst) (t : nat) (p : mpc) (h : list nat) : mst :=
  set_mthr s t (MThr p h (h_todo (x_thr s t))).
(** The operation in progress is complete. *)
Definition finish (s : mst) (t : nat) : mst :=
  set_mthr s t (MThr QRun (h_held (x_thr s t)) (tl (h_todo (x_thr s t)))).

(** One step of one thread (all but the rendezvous). *)
Definition mstep_thr (s : mst) (t : nat) : option (mst * list mev) :=
  let r := x_rank c t in
  let h := h_held (x_thr s t) in
  let lock_proc s k := match x_proc s r with None => Some (k (set_proc s r (Some t)), []) | Some _ => None end in
  let lock_win s m k := match x_win s (x_home c m) with
                        | None => Some (k (set_win s (x_home c m) (Some t)), [])
                        | Some _ => None
                        end in
  match h_pc (x_thr s t) with
  | QRun =>
      match h_todo (x_thr s t) with
      | [] => None
      | OAcq m :: _ | ODel m :: _ => Some (set_pc s t (QProc m), [])
      | ORel m :: _ => Some (set_pc s t (QRel m), [])
      end
  | QProc m => lock_proc s (fun s => set_pc s t (QWin m))
  | QWin m => lock_win s m (fun s => set_pc s t (QSwap m))
  | QSwap m =>
      let old := x_word s m in
      let s' := set_word s m (lock_id t) in
      if (old <? 0)%Z then Some (set_held s' t (QGot m) (m :: h), [EQueue m t; EEnter m t])
      else Some (set_pc s' t (QUnwin m old), [EQueue m t])
  | QUnwin m old => Some (set_pc (set_win s (x_home c m) None) t (QUnproc m old), [])
  | QUnproc m old => Some (set_pc (if x_lib c then s else set_proc s r None) t (QSend m old), [])
  | QSend _ _ => None
  | QProc2 m => if x_lib c then Some (set_pc s t (QWin2 m), []) else lock_proc s (fun s => set_pc s t (QWin2 m))
  | QWin2 m => lock_win s m (fun s => set_pc s t (QGot m))
  | QGot m =>
      match h_todo (x_thr s t) with
      | ODel _ :: _ => Some (set_pc s t (QCas m), [])      (* lines 559-560 *)
      | _ => Some (set_pc s t (QOut m), [])
      end
  | QOut m => Some (set_pc (set_win s (x_home c m) None) t (QOut2 m), [])
  | QOut2 m => Some (finish (if x_lib c then s else set_proc s r None) t, [])
  | QRel m => if x_lib c then Some (set_pc s t (QRelWin m), []) else lock_proc s (fun s => set_pc s t (QRelWin m))
  | QRelWin m => lock_win s m (fun s => set_pc s t (QCas m))
  | QCas m =>
      if (x_word s m =? lock_id t)%Z
      then Some (set_held (set_word s m unlocked) t (QDrop m) (remove Nat.eq_dec m h), [ELeave m t])
      else Some (set_pc s t (QRecv m), [])
  | QRecv _ => None
  | QDrop m => Some (set_pc (set_win s (x_home c m) None) t (QDrop2 m), [])
  | QDrop2 m => Some (finish (set_proc s r None) t, [])
  end.

(** The rendezvous: [a] sends to the rank and with the tag it computes from the old value (mutex.h
    lines 160-164), [b] receives from any source with the tag of its thread number. *)
Definition mstep_msg (s : mst) (a b : nat) : option (mst * list mev) :=
  match h_pc (x_thr s a), h_pc (x_thr s b) with
  | QSend m old, QRecv m' =>
      if andb (Z.quot old (Z.of_nat (x_threads c)) =? Z.of_nat (x_rank c b))%Z
              (Z.rem old (Z.of_nat (x_threads c)) =? Z.of_nat (x_tid c b))%Z
      then let s1 := set_held s b (QDrop m') (remove Nat.eq_dec m' (h_held (x_thr s b))) in
           Some (set_held s1 a (QProc2 m) (m :: h_held (x_thr s a)), [ELeave m' b; EEnter m a])
      else None
  | _, _ => None
  end.

Inductive mact := MRun (t : nat) | MMsg (a b : nat).

Definition mstep (s : mst) (x : mact) : option (mst * list mev) :=
  match x with
  | MRun t => mstep_thr s t
  | MMsg a b => mstep_msg s a b
  end.

Fixpoint mrun (s : mst) (xs : list mact) : option (mst * list mev) :=
  match xs with
  | [] => Some (s, [])
  | x :: xs' =>
      match mstep s x with
      | None => None
      | Some (s', e) => match mrun s' xs' with
                        | None => None
                        | Some (s'', e') => Some (s'', e ++ e')
                        end
      end
  end.

(** mutex.h lines 107-110: all mutexes unlocked. *)
Definition minit : mst :=
  MSt (fun _ => unlocked) (fun _ => None) (fun _ => None) (fun t => MThr QRun [] (x_prog c t)).

End Mutex.
