(** * Closing grids which use the communication thread: grid/grid.cpp lines 177-191 and the destructors of the levels
    and of transfer/mpithreadcache.h, transfer/mpicache.h, transfer/mpithreadfull.h

    Several processes close a grid.  The communication thread of a process may still get messages of the others
    while the memory of the grid is freed.  An access to something freed is undefined.

    Simplifications: one level of one grid; the parts of a process are numbered ([res]); the other grids
    and their use of the lock of the communication thread are left out; the content of messages is left
    out; MPI calls do not fail; a destructor is run by one thread of each process, and the application closes
    the grid when no other thread uses it.  A message to a tag which is not registered (any more) is dropped
    with a warning. *)
From Coq Require Export List Arith Bool Lia.
From Verif Require Export Base.
Export ListNotations.

(** A step of closing: free a part, or [unregisterReceiver] for a kind of messages. *)
Inductive clop := CFree (r : nat) | CUnreg (k : nat).

(** A protocol: the kinds of messages without reply; the parts which a receiver accesses before the reply
    is sent and after; the steps of closing after the barrier of [~Grid]. *)
Record proto := Proto {
  p_oneway : nat -> bool;
  p_before : nat -> list nat;
  p_after : nat -> list nat;
  p_close : list clop
}.

(** ** The cache with communication thread *)
Definition BLOCK_INFO := 0.  Definition TRANSFER := 1.  Definition ADD := 2.  Definition DEL := 3.
Definition R_TYPE := 0.      (* the MPI datatype: m_mpiType *)
Definition R_MANAGERS := 1.  (* the array m_cacheManager *)
Definition R_MUTEXES := 2.   (* m_mutexes *)
Definition R_INFO := 3.      (* m_infoMutex *)
Definition R_BLOCK := 4.     (* m_blockMutex *)
Definition R_RECV := 5.      (* the receiver objects and their parent *)
Definition R_DICT := 6.      (* m_dictionary *)
Definition R_CACHE := 7.     (* m_cache of the level *)
Definition R_OBJ := 8.       (* the cache managers of the domains *)
Definition cache_proto : proto :=
  Proto (fun k => (k =? ADD) || (k =? DEL))
    (fun k =>
       if k =? BLOCK_INFO then [R_RECV; R_MUTEXES; R_DICT]                   (* mpithreadcache.h lines 90-111 *)
       else if k =? TRANSFER then [R_RECV; R_MANAGERS; R_OBJ; R_CACHE; R_TYPE]  (* lines 136-160 *)
       else [R_RECV; R_MUTEXES; R_DICT])                                     (* lines 209-217, 243-252 *)
    (fun k => if k =? TRANSFER then [R_OBJ; R_CACHE] else [])                (* lines 162-168 *)
    ([CFree R_TYPE] ++                                                       (* grid.cpp line 183 *)
     [CFree R_MANAGERS; CUnreg BLOCK_INFO; CUnreg TRANSFER; CUnreg ADD; CUnreg DEL;
      CFree R_MUTEXES; CFree R_INFO; CFree R_BLOCK; CFree R_RECV] ++         (* mpithreadcache.h lines 324-338 *)
     [CFree R_DICT] ++                                                       (* mpicache.h lines 83-87 *)
     [CFree R_CACHE; CFree R_OBJ]).                                          (* cache.h lines 78-82 *)

(** ** The full grid with communication thread *)
Definition F_TYPE := 0.
Definition F_CACHE := 1.     (* m_cache of the level *)
Definition F_MUTEX := 2.     (* m_sendRecvMutex *)
Definition F_RECV := 3.      (* the transfer object *)
Definition F_MANAGER := 4.   (* m_cacheManager of the level *)
Definition F_DATA := 5.      (* m_data *)
Definition full_proto : proto :=
  Proto (fun _ => false)
    (fun _ => [F_RECV; F_DATA; F_TYPE])                                      (* mpithreadfull.h lines 182-191 *)
    (fun _ => [])
    ([CFree F_TYPE] ++                                                       (* grid.cpp line 183 *)
     [CFree F_CACHE] ++                                                      (* fulldist.h lines 91-94 *)
     [CUnreg 0; CFree F_MUTEX; CFree F_RECV] ++                              (* mpithreadfull.h lines 109-116 *)
     [CFree F_MANAGER; CFree F_DATA]).                                       (* fulldist.h line 71, full.h lines 77-81 *)

(** ** The processes *)
(** A message: sender, thread of the sender, destination, kind. *)
Record cmsg := CMsg { cm_src : nat; cm_thr : nat; cm_dst : nat; cm_kind : nat }.
(** A thread which uses the grid: idle; waiting for a reply; the reply is on its way. *)
Inductive user := UFree | UWait | UReply.
(** The communication thread: in MPI_Recv; has received a message (commthread.h line 286); in the receiver before the
    reply and after (line 310); has received an unregister message (line 298). *)
Inductive ccom := QIdle | QFind (m : cmsg) | QBefore (m : cmsg) | QAfter (m : cmsg) | QErase (k : nat).
(** The first step to do is [unregisterReceiver] (commthread.h lines 246-255): not yet called; waiting in MPI_Ssend; the
    message has been received, but MPI_Ssend has not returned. *)
Inductive cwait := WNone | WSent | WMatched.
(** The process: using the grid; in the barrier (grid.cpp line 181); closing, with the steps to do. *)
Inductive cphase := PUse | PBar | PClose (todo : list clop) (w : cwait).
Record cproc := CProc {
  c_phase : cphase; c_user : nat -> user; c_com : ccom;
  c_map : nat -> bool;   (* registered kinds *)
  c_freed : nat -> bool;
  c_lock : bool          (* m_lock of the communication thread *)
}.
Record cst := CSt { cs_proc : nat -> cproc; cs_net : list cmsg }.

Inductive cact :=
| USend (p u q k : nat)     (* thread u of p sends a message of kind k to q *)
| UGet (p u : nat)          (* it receives the reply *)
| PEnter (p : nat)          (* p calls ~Grid and enters the barrier *)
| PLeave (p : nat)
| PStep (p : nat)           (* next step of closing *)
| PSent (p : nat)           (* MPI_Ssend of the unregister message returns *)
| QRecv (p i : nat)         (* the communication thread of p receives the i-th message of the network *)
| QLook (p : nat)           (* looks up the receiver, commthread.h line 304 *)
| QReply (p : nat)          (* the receiver has sent the reply, or done its work *)
| QDone (p : nat)           (* the receiver returns *)
| QUnreg (p : nat)          (* the communication thread receives the unregister message *)
| QErased (p : nat).        (* lines 299-300 *)

Section Step.
Variable P : nat.   (* processes *)
Variable U : nat.   (* threads of each process *)
Variable pr : proto.

Definition cinit : cst := CSt (fun _ => CProc PUse (fun _ => UFree) QIdle (fun _ => true) (fun _ => false) false) [].

Definition set_proc (s : cst) (p : nat) (x : cproc) : cst := CSt (upd (cs_proc s) p x) (cs_net s).
Definition all_there (s : cst) : bool := forallb (fun p => match c_phase (cs_proc s p) with PUse => false | _ => true end) (seq 0 P).
Definition all_idle (x : cproc) : bool := forallb (fun u => match c_user x u with UFree => true | _ => false end) (seq 0 U).
Definition touches (x : cproc) (l : list nat) : bool := forallb (fun r => negb (c_freed x r)) l.
Fixpoint remove_nth {A} (i : nat) (l : list A) : list A :=
  match l, i with
  | [], _ => []
  | _ :: l', 0 => l'
  | a :: l', S i' => a :: remove_nth i' l'
  end.

(** [None]: the step is not possible; [Ub]: an access to something freed, or freed twice. *)
Definition cstep (s : cst) (a : cact) : option (outcome cst) :=
  match a with
  | USend p u q k =>
      let x := cs_proc s p in
      match c_phase x, c_user x u with
      | PUse, UFree =>
          if (p <? P) && (u <? U) && (q <? P) then
            Some (Ok (CSt (if p_oneway pr k then cs_proc s
                           else upd (cs_proc s) p (CProc PUse (upd (c_user x) u UWait) (c_com x) (c_map x) (c_freed x) (c_lock x)))
                          (cs_net s ++ [CMsg p u q k])))
          else None
      | _, _ => None
      end
  | UGet p u =>
      let x := cs_proc s p in
      match c_user x u with
      | UReply =>
          if (p <? P) && (u <? U) then
            Some (Ok (set_proc s p (CProc (c_phase x) (upd (c_user x) u UFree) (c_com x) (c_map x) (c_freed x) (c_lock x))))
          else None
      | _ => None
      end
  | PEnter p =>
      let x := cs_proc s p in
      match c_phase x with
      | PUse => if (p <? P) && all_idle x then Some (Ok (set_proc s p (CProc PBar (c_user x) (c_com x) (c_map x) (c_freed x) (c_lock x)))) else None
      | _ => None
      end
  | PLeave p =>
      let x := cs_proc s p in
      match c_phase x with
      | PBar => if all_there s then Some (Ok (set_proc s p (CProc (PClose (p_close pr) WNone) (c_user x) (c_com x) (c_map x) (c_freed x) (c_lock x)))) else None
      | _ => None
      end
  | PStep p =>
      let x := cs_proc s p in
      match c_phase x with
      | PClose (CFree r :: todo) WNone =>
          if c_freed x r then Some Ub
          else Some (Ok (set_proc s p (CProc (PClose todo WNone) (c_user x) (c_com x) (c_map x) (upd (c_freed x) r true) (c_lock x))))
      | PClose (CUnreg k :: todo) WNone =>
          if c_lock x then None
          else Some (Ok (set_proc s p (CProc (PClose (CUnreg k :: todo) WSent) (c_user x) (c_com x) (c_map x) (c_freed x) true)))
      | _ => None
      end
  | PSent p =>
      let x := cs_proc s p in
      match c_phase x with
      | PClose (_ :: todo) WMatched => Some (Ok (set_proc s p (CProc (PClose todo WNone) (c_user x) (c_com x) (c_map x) (c_freed x) (c_lock x))))
      | _ => None
      end
  | QUnreg p =>
      let x := cs_proc s p in
      match c_phase x, c_com x with
      | PClose (CUnreg k :: todo) WSent, QIdle =>
          Some (Ok (set_proc s p (CProc (PClose (CUnreg k :: todo) WMatched) (c_user x) (QErase k) (c_map x) (c_freed x) (c_lock x))))
      | _, _ => None
      end
  | QErased p =>
      let x := cs_proc s p in
      match c_com x with
      | QErase k => Some (Ok (set_proc s p (CProc (c_phase x) (c_user x) QIdle (upd (c_map x) k false) (c_freed x) false)))
      | _ => None
      end
  | QRecv p i =>
      let x := cs_proc s p in
      match c_com x, nth_error (cs_net s) i with
      | QIdle, Some m =>
          if cm_dst m =? p then
            Some (Ok (CSt (upd (cs_proc s) p (CProc (c_phase x) (c_user x) (QFind m) (c_map x) (c_freed x) (c_lock x)))
                          (remove_nth i (cs_net s))))
          else None
      | _, _ => None
      end
  | QLook p =>
      let x := cs_proc s p in
      match c_com x with
      | QFind m =>
          Some (Ok (set_proc s p (CProc (c_phase x) (c_user x) (if c_map x (cm_kind m) then QBefore m else QIdle) (c_map x) (c_freed x) (c_lock x))))
      | _ => None
      end
  | QReply p =>
      let x := cs_proc s p in
      match c_com x with
      | QBefore m =>
          if touches x (p_before pr (cm_kind m)) then
            let s1 := set_proc s p (CProc (c_phase x) (c_user x) (QAfter m) (c_map x) (c_freed x) (c_lock x)) in
            if p_oneway pr (cm_kind m) then Some (Ok s1)
            else
              let y := cs_proc s1 (cm_src m) in
              Some (Ok (set_proc s1 (cm_src m) (CProc (c_phase y) (upd (c_user y) (cm_thr m) UReply) (c_com y) (c_map y) (c_freed y) (c_lock y))))
          else Some Ub
      | _ => None
      end
  | QDone p =>
      let x := cs_proc s p in
      match c_com x with
      | QAfter m =>
          if touches x (p_after pr (cm_kind m)) then
            Some (Ok (set_proc s p (CProc (c_phase x) (c_user x) QIdle (c_map x) (c_freed x) (c_lock x))))
          else Some Ub
      | _ => None
      end
  end.

Fixpoint crun (s : cst) (l : list cact) : option (outcome cst) :=
  match l with
  | [] => Some (Ok s)
  | a :: l' => match cstep s a with Some (Ok s') => crun s' l' | x => x end
  end.
End Step.
