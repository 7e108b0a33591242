(** * The windows of transfer/mpiwincache.h and transfer/mpiwinfull.h under the memory rules of MPI-3

    MPI keeps two copies of a window: the private one, which its owner loads and stores, and the public one, which the remote
    operations of all processes (the owner's included) read and write.  In the unified memory model both are the same memory; in the
    separate model an update of one copy reaches the other at the latest when the owner locks (public to private) or unlocks (private
    to public) its window, and possibly earlier; until then a location that was changed in one copy must not be used through the
    other.  Which model a window has is an attribute of it that the library never looks at.  Simplified: a word holds a number; a slot
    of the cache is one word. *)
From Coq Require Export ZArith List Bool Arith.
From Verif Require Export Base.
Export ListNotations.

(** ** Memory of a window *)
(** The copy that is newer. *)
Inductive side := Same | Prv | Pub.
Record word := Word { w_prv : Z; w_pub : Z; w_new : side }.
Definition is_prv (s : side) : bool := match s with Prv => true | _ => false end.
Definition is_pub (s : side) : bool := match s with Pub => true | _ => false end.
(** Targets of a lock with the processes that hold it ([true]: exclusively). *)
Record win := Win { mem : nat -> nat -> word; holders : nat -> list (nat * bool) }.
Inductive act :=
| Store (p x : nat) (v : Z) | Load (p x : nat)               (* the process's own window memory *)
| Lock (p t : nat) (ex : bool) | Unlock (p t : nat)          (* MPI_Win_lock, MPI_Win_unlock *)
| Get (p t x : nat) | Put (p t x : nat) (v : Z)              (* MPI_Get, MPI_Put *)
| Swap (p t x : nat) (v : Z)                                 (* MPI_Fetch_and_op with MPI_REPLACE *)
| Cas (p t x : nat) (old v : Z).                             (* MPI_Compare_and_swap *)
(** What an access returns, and whether MPI defines that. *)
Record reply := Reply { r_val : option Z; r_ok : bool }.

Section Run.
Variable unified : bool.
Definition store (w : word) (v : Z) : word := if unified then Word v v Same else Word v (w_pub w) Prv.
Definition rma (w : word) (v : Z) : word := if unified then Word v v Same else Word (w_prv w) v Pub.
Definition to_prv (w : word) : word := if is_pub (w_new w) then Word (w_pub w) (w_pub w) Same else w.
Definition to_pub (w : word) : word := if is_prv (w_new w) then Word (w_prv w) (w_prv w) Same else w.
Definition setw (s : win) (t x : nat) (w : word) : win := Win (upd (mem s) t (upd (mem s t) x w)) (holders s).
Definition sync (s : win) (t : nat) (f : word -> word) : nat -> nat -> word := upd (mem s) t (fun x => f (mem s t x)).
Definition holds (s : win) (p t : nat) : bool := existsb (fun h => fst h =? p) (holders s t).
(** One access; [None]: it has to wait (or is not allowed without the lock). *)
Definition step (s : win) (a : act) : option (win * reply) :=
  match a with
  | Store p x v => Some (setw s p x (store (mem s p x) v), Reply None (negb (is_pub (w_new (mem s p x)))))
  | Load p x => Some (s, Reply (Some (w_prv (mem s p x))) (negb (is_pub (w_new (mem s p x)))))
  | Lock p t ex =>
      if holds s p t then None
      else if ex && negb (match holders s t with [] => true | _ => false end) then None
      else if existsb snd (holders s t) then None
      else Some (Win (if p =? t then sync s t to_prv else mem s) (upd (holders s) t ((p, ex) :: holders s t)), Reply None true)
  | Unlock p t =>
      if holds s p t then
        Some (Win (if p =? t then sync s t to_pub else mem s)
                (upd (holders s) t (filter (fun h => negb (fst h =? p)) (holders s t))), Reply None true)
      else None
  | Get p t x =>
      if holds s p t then Some (s, Reply (Some (w_pub (mem s t x))) (negb (is_prv (w_new (mem s t x))))) else None
  | Put p t x v =>
      if holds s p t then Some (setw s t x (rma (mem s t x) v), Reply None (negb (is_prv (w_new (mem s t x))))) else None
  | Swap p t x v =>
      if holds s p t then Some (setw s t x (rma (mem s t x) v), Reply (Some (w_pub (mem s t x))) (negb (is_prv (w_new (mem s t x)))))
      else None
  | Cas p t x old v =>
      if holds s p t then
        Some (if (w_pub (mem s t x) =? old)%Z then setw s t x (rma (mem s t x) v) else s,
              Reply (Some (w_pub (mem s t x))) (negb (is_prv (w_new (mem s t x)))))
      else None
  end.

(** The processes run their programs; updates may reach the other copy at any time. *)
Inductive event := Run (p : nat) | Flow (t x : nat).
Record sys := Sys { s_win : win; s_prog : nat -> list act }.
Definition next (s : sys) (e : event) : option (sys * list (act * reply)) :=
  match e with
  | Run p =>
      match s_prog s p with
      | [] => None
      | a :: r => match step (s_win s) a with
                  | Some (w, o) => Some (Sys w (upd (s_prog s) p r), [(a, o)])
                  | None => None
                  end
      end
  | Flow t x => Some (Sys (setw (s_win s) t x (to_prv (to_pub (mem (s_win s) t x)))) (s_prog s), [])
  end.
Fixpoint run (s : sys) (es : list event) : option (sys * list (act * reply)) :=
  match es with
  | [] => Some (s, [])
  | e :: r => match next s e with
              | Some (s', t) => match run s' r with Some (s'', t') => Some (s'', t ++ t') | None => None end
              | None => None
              end
  end.
(** MPI_Win_create: both copies hold what the memory contains. *)
Definition created (m : nat -> nat -> Z) : win := Win (fun t x => Word (m t x) (m t x) Same) (fun _ => []).
End Run.

(** ** The dictionary window

    Entry [o] of a process has four words and the mutex word behind them (transfer/mpicache.h lines 77 and 205-216). *)
Definition entry (o : nat) : list nat := [5 * o; 5 * o + 1; 5 * o + 2; 5 * o + 3].
Definition mutex (o : nat) : nat := 5 * o + 4.
(** Reading an entry: [MPI_Get] for another rank, the memory itself for the own rank. *)
Definition remote_read (p t o : nat) : list act := if p =? t then [] else map (Get p t) (entry o).
Definition local_read (p t o : nat) : list act := if p =? t then map (Load p) (entry o) else [].
Definition write (p t o : nat) (vs : nat -> Z) : list act :=
  map (fun x => if p =? t then Store p x (vs x) else Put p t x (vs x)) (entry o).
(** The epochs.  Values are arbitrary, so this includes those that the code computes from what it has read. *)
Inductive epoch :=
| StartNow (t o : nat) (id : Z) (vs : nat -> Z)     (* startTransfer, mutex acquired at once *)
| StartQueue (t o : nat) (id : Z)                   (* startTransfer or deleteBlock, mutex taken: up to the wait *)
| StartLater (t o : nat) (vs : nat -> Z)            (* startTransfer after the wait *)
| EndTransfer (t o : nat) (id : Z)
| DeleteNow (t o : nat) (id : Z) (vs : nat -> Z)
| DeleteLater (t o : nat) (id : Z) (vs : nat -> Z).
Definition unlocked : Z := (-1)%Z.   (* mpi/mutex.h line 215 *)
(** [acquire] and [release], mpi/mutex.h lines 132-147 and 180-200. *)
Definition acquire (p t o : nat) (id : Z) : list act := [Swap p t (mutex o) id].
Definition release (p t o : nat) (id : Z) : list act := [Cas p t (mutex o) id unlocked].
Definition dict_acts (p : nat) (e : epoch) : list act :=
  match e with
  | StartNow t o id vs =>      (* transfer/mpiwincache.h lines 263-281, 315-337 *)
      [Lock p t true] ++ remote_read p t o ++ acquire p t o id ++ local_read p t o ++ write p t o vs ++ [Unlock p t]
  | StartQueue t o id =>       (* lines 263-284 and 488-513 *)
      [Lock p t true] ++ remote_read p t o ++ acquire p t o id ++ [Unlock p t]
  | StartLater t o vs =>       (* lines 296-337 *)
      [Lock p t true] ++ remote_read p t o ++ local_read p t o ++ write p t o vs ++ [Unlock p t]
  | EndTransfer t o id =>      (* lines 428-435 *)
      [Lock p t true] ++ release p t o id ++ [Unlock p t]
  | DeleteNow t o id vs =>     (* lines 488-509, 543-567 *)
      [Lock p t true] ++ remote_read p t o ++ acquire p t o id ++ local_read p t o ++ write p t o vs ++ release p t o id ++ [Unlock p t]
  | DeleteLater t o id vs =>   (* lines 525-567 *)
      [Lock p t true] ++ remote_read p t o ++ local_read p t o ++ write p t o vs ++ release p t o id ++ [Unlock p t]
  end.
Definition dict_prog (es : nat -> list epoch) (p : nat) : list act := flat_map (dict_acts p) (es p).
(** [initMutexMem] for all entries of the process, mpiwincache.h lines 222-225, mpi/mutex.h lines 113-116: after the window has been
    created, without a lock. *)
Definition init_mutexes (p blocks : nat) : list act := map (fun o => Store p (mutex o) unlocked) (seq 0 blocks).

(** ** The windows of the blocks *)
Inductive block_op :=
| Fill (x : nat) (v : Z)       (* a block from the file, from another domain or from another rank is stored in slot [x] *)
| Fetch (t x : nat)            (* mpiwincache.h lines 383-401, mpiwinfull.h lines 175-190 *)
| Use (x : nat).               (* the block in slot [x] is read, or copied within the process *)
Definition block_acts (p : nat) (b : block_op) : list act :=
  match b with
  | Fill x v => [Store p x v]
  | Fetch t x => [Lock p t false; Get p t x; Unlock p t]
  | Use x => [Load p x]
  end.
Definition block_prog (bs : nat -> list block_op) (p : nat) : list act := flat_map (block_acts p) (bs p).
