(** * The table of receivers of one process and its lock: mpi/commthread.h, lines 93-114 and 220-315

    CommThreadModel treats an access of [m_receiver] as one step.  Here an access has a begin and an end, so that
    overlapping accesses are visible.  One process with any number of threads, and its communication
    thread.

    Simplifications: the values of the table are left out (only whether a tag is present); the other processes are
    represented by their effects: a reduction returns any tag from [m_next] on, a message with
    any tag may arrive at any time; MPI calls do not fail; no receiver gets a control tag (C46). *)
From Coq Require Export List Arith Bool.
From Verif Require Export Base.
Export ListNotations.

(** A thread of the application:
    [UReg]: in registerReceiver, holds the lock and waits for the reduction (line 229);
    [UStore tag]: writes [m_receiver[tag]] (line 238);
    [UUnreg tag]: in unregisterReceiver, waits in MPI_Ssend (line 254);
    [UFind tag]: in send, reads m_receiver (line 266). *)
Inductive upc := UIdle | UReg | UStore (tag : nat) | UUnreg (tag : nat) | UFind (tag : nat).

(** The communication thread (lines 282-314): waits in MPI_Recv; removes [tag] for
    thread [t] (line 299); looks up a tag (line 304); runs the receiver (line 310). *)
Inductive cpc := CIdle | CErase (t tag : nat) | CFind (tag : nat) | CCall (tag : nat).

(** [m_lock]: the thread that acquired the lock; [m_q]: unregister messages in flight;
    [m_open tag]: registered and unregisterReceiver not yet called;
    [m_gone tag]: unregisterReceiver has returned, the receiver may be deleted. *)
Record mst := MSt {
  m_lock : option nat; m_next : nat; m_map : nat -> bool; m_user : nat -> upc; m_com : cpc;
  m_q : list (nat * nat); m_open : nat -> bool; m_gone : nat -> bool
}.
Definition minit : mst := MSt None 0 (fun _ => false) (fun _ => UIdle) CIdle [] (fun _ => false) (fun _ => false).

Inductive mact :=
| AReg (t : nat)               (* lines 222-229: registerReceiver up to the reduction *)
| AReduced (t tag : nat)       (* lines 229-237: the reduction has returned [tag] *)
| AStored (t : nat)            (* line 238 is done; the lock is released (line 241) *)
| AUnreg (t tag : nat)         (* lines 251-254: unregisterReceiver, the message is on its way *)
| AUnregDone (t : nat)         (* line 254: MPI_Ssend returns after the message was matched *)
| AFind (t tag : nat)          (* line 266 begins *)
| AFound (t : nat)             (* line 266 is done; the message is sent or a warning is printed *)
| CRecv (tag : nat)            (* lines 286 and 304: a message has arrived, the look-up begins *)
| CFound                       (* lines 304-310: the look-up is done *)
| CCalled                      (* line 310 is done *)
| CUnreg                       (* lines 286 and 299: the unregister message has arrived *)
| CErased.                     (* lines 299-300: erase is done, then unlock *)

(** threads::Mutex.  [strict]: releasing a mutex of another thread is undefined (std::mutex in
    threads/cxxmutex.h, pthread mutexes and spin locks in threads/pthreadmutex.h);
    otherwise it is just released. *)
Section Step.
Variable strict : bool.

Definition set_user (s : mst) (t : nat) (p : upc) : nat -> upc := upd (m_user s) t p.

Definition mstep (s : mst) (a : mact) : option (outcome mst) :=
  match a with
  | AReg t =>
      match m_user s t, m_lock s with
      | UIdle, None => Some (Ok (MSt (Some t) (m_next s) (m_map s) (set_user s t UReg) (m_com s) (m_q s) (m_open s) (m_gone s)))
      | _, _ => None
      end
  | AReduced t tag =>
      match m_user s t with
      | UReg =>
          if m_next s <=? tag then
            Some (Ok (MSt (m_lock s) (S tag) (m_map s) (set_user s t (UStore tag)) (m_com s) (m_q s) (m_open s) (m_gone s)))
          else None
      | _ => None
      end
  | AStored t =>
      match m_user s t with
      | UStore tag =>
          Some (Ok (MSt None (m_next s) (upd (m_map s) tag true) (set_user s t UIdle) (m_com s) (m_q s)
                        (upd (m_open s) tag true) (m_gone s)))
      | _ => None
      end
  | AUnreg t tag =>
      match m_user s t, m_lock s, m_open s tag with
      | UIdle, None, true =>
          Some (Ok (MSt (Some t) (m_next s) (m_map s) (set_user s t (UUnreg tag)) (m_com s) (m_q s ++ [(t, tag)])
                        (upd (m_open s) tag false) (m_gone s)))
      | _, _, _ => None
      end
  | AUnregDone t =>
      match m_user s t with
      | UUnreg tag =>
          if existsb (fun x => Nat.eqb (snd x) tag) (m_q s) then None
          else Some (Ok (MSt (m_lock s) (m_next s) (m_map s) (set_user s t UIdle) (m_com s) (m_q s)
                             (m_open s) (upd (m_gone s) tag true)))
      | _ => None
      end
  | AFind t tag =>
      match m_user s t, m_open s tag with
      | UIdle, true =>
          Some (Ok (MSt (m_lock s) (m_next s) (m_map s) (set_user s t (UFind tag)) (m_com s) (m_q s) (m_open s) (m_gone s)))
      | _, _ => None
      end
  | AFound t =>
      match m_user s t with
      | UFind _ =>
          Some (Ok (MSt (m_lock s) (m_next s) (m_map s) (set_user s t UIdle) (m_com s) (m_q s) (m_open s) (m_gone s)))
      | _ => None
      end
  | CRecv tag =>
      match m_com s with
      | CIdle => Some (Ok (MSt (m_lock s) (m_next s) (m_map s) (m_user s) (CFind tag) (m_q s) (m_open s) (m_gone s)))
      | _ => None
      end
  | CFound =>
      match m_com s with
      | CFind tag =>
          Some (Ok (MSt (m_lock s) (m_next s) (m_map s) (m_user s) (if m_map s tag then CCall tag else CIdle)
                        (m_q s) (m_open s) (m_gone s)))
      | _ => None
      end
  | CCalled =>
      match m_com s with
      | CCall _ => Some (Ok (MSt (m_lock s) (m_next s) (m_map s) (m_user s) CIdle (m_q s) (m_open s) (m_gone s)))
      | _ => None
      end
  | CUnreg =>
      match m_com s, m_q s with
      | CIdle, (t, tag) :: q =>
          Some (Ok (MSt (m_lock s) (m_next s) (m_map s) (m_user s) (CErase t tag) q (m_open s) (m_gone s)))
      | _, _ => None
      end
  | CErased =>
      match m_com s with
      | CErase t tag =>
          if strict then Some Ub
          else Some (Ok (MSt None (m_next s) (upd (m_map s) tag false) (m_user s) CIdle (m_q s) (m_open s) (m_gone s)))
      | _ => None
      end
  end.

Fixpoint mrun (s : mst) (l : list mact) : option (outcome mst) :=
  match l with
  | [] => Some (Ok s)
  | a :: l' => match mstep s a with Some (Ok s') => mrun s' l' | x => x end
  end.
End Step.
