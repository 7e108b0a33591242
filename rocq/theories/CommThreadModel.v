(** * The communication thread: mpi/commthread.h

    Processes are numbered by their rank in the communicator of the communication thread
    ([m_comm], [m_group]).  A registration is one collective call of [registerReceiver]
    (one receiver object on each process of a grid's communicator); registrations are numbered,
    [grp g] lists the processes of registration [g] in the order of their ranks in the
    grid's communicator.

    Simplifications: one run between [init] and [finialize]; MPI calls do not fail; messages from one
    process to another do not overtake each other, no other order is assumed; [int] is
    unbounded; an access of [m_receiver] is one step (the code reads the map in [send] and in
    the handler without a lock). *)
From Coq Require Export ZArith Bool.
From Verif Require Export Base.
Local Open Scope Z_scope.

(** Lines 325-330. *)
Definition EXIT_TAG : Z := 32767.
Definition UNREG_TAG : Z := 32767 - 1.

(** struct ReceiverDetail, lines 86-91: the receiver object (its registration) and the group. *)
Record kentry := KEntry { ke_reg : nat; ke_group : list nat }.

(** Who holds m_lock: nobody, a thread in registerReceiver, or a thread
    in unregisterReceiver (until the communication thread releases it). *)
Inductive klock := KFree | KReg (g : nat) | KDel.

(** One process, lines 93-114: m_nextTag, m_receiver, m_lock, and whether the
    communication thread is still running. *)
Record kproc := KProc {
  kp_next : Z; kp_map : Z -> option kentry; kp_lock : klock; kp_run : bool
}.

(** A message in [m_comm].  [km_id] is not transmitted; it is the number of the call of [send]
    ([None]: a control message). *)
Record kmsg := KMsg { km_src : nat; km_dst : nat; km_tag : Z; km_data : Z; km_id : option nat }.

(** What the handler did with a message: call the receiver [g] with [(sender, data)], or
    warn about an unknown tag. *)
Inductive kevent :=
| KGot (id : nat) (p g sender : nat) (data : Z)
| KDrop (id : nat) (p : nat).

(** The system.  [ks_in g r]: what [r] contributed to the reduction of registration [g];
    [ks_tag r g]: the tag [r] obtained; [ks_closed r g]: [r] has unregistered [g]; [ks_sent]: all
    calls of [send] (process, registration, destination rank in the group, data);
    [ks_log]: what the handlers did (last first). *)
Record kst := KSt {
  ks_proc : nat -> kproc;
  ks_in : nat -> nat -> option Z;
  ks_tag : nat -> nat -> option Z;
  ks_closed : nat -> nat -> bool;
  ks_net : list kmsg;
  ks_sent : list (nat * nat * nat * Z);
  ks_log : list kevent
}.

(** Constructor, lines 117-122, and init, lines 130-177. *)
Definition kinit : kst :=
  KSt (fun _ => KProc 0 (fun _ => None) KFree true) (fun _ _ => None) (fun _ _ => None)
      (fun _ _ => false) [] [] [].

Inductive kact :=
| KEnter (r g : nat)              (* r calls registerReceiver, up to the reduction *)
| KReturn (r g : nat)             (* the reduction returns; rest of registerReceiver *)
| KUnreg (r g : nat)              (* r calls unregisterReceiver *)
| KSend (r g k : nat) (d : Z)     (* r calls send for rank k of the group *)
| KHandle (r src : nat).          (* the communication thread of r receives from src *)

(** MPI_Allreduce with MPI_MAX (line 229): defined once all processes have contributed.
    (0 is neutral as all contributions are at least 0.) *)
Fixpoint kmax (f : nat -> option Z) (l : list nat) : option Z :=
  match l with
  | [] => Some 0
  | r :: l' =>
      match f r, kmax f l' with
      | Some a, Some b => Some (Z.max a b)
      | _, _ => None
      end
  end.

(** MPI_Group_translate_ranks from [m_group] to the group of a grid (line 308). *)
Fixpoint index_of (r : nat) (l : list nat) : option nat :=
  match l with
  | [] => None
  | x :: l' => if Nat.eqb x r then Some 0%nat else option_map S (index_of r l')
  end.

(** MPI_Recv with MPI_ANY_TAG: the oldest message from [src] to [r], and the remaining messages. *)
Fixpoint ktake (src r : nat) (l : list kmsg) : option (kmsg * list kmsg) :=
  match l with
  | [] => None
  | m :: l' =>
      if (Nat.eqb (km_src m) src && Nat.eqb (km_dst m) r)%bool then Some (m, l')
      else match ktake src r l' with Some (m', l'') => Some (m', m :: l'') | None => None end
  end.

(** unordered_map assignment and erase. *)
Definition kset (f : Z -> option kentry) (t : Z) (e : option kentry) : Z -> option kentry :=
  fun t' => if t' =? t then e else f t'.

Definition upd2 {A} (f : nat -> nat -> A) (i j : nat) (a : A) : nat -> nat -> A :=
  fun i' j' => if (Nat.eqb i' i && Nat.eqb j' j)%bool then a else f i' j'.

Section CommThread.
Variable grp : nat -> list nat.

Definition kstep (s : kst) (a : kact) : option (outcome kst) :=
  match a with
  | KEnter r g =>
      (* lines 220-229; a process takes part in a registration at most once *)
      let p := ks_proc s r in
      match kp_lock p, ks_in s g r with
      | KFree, None =>
          if existsb (Nat.eqb r) (grp g) then
            Some (Ok (KSt (upd (ks_proc s) r (KProc (kp_next p) (kp_map p) (KReg g) (kp_run p)))
                          (upd2 (ks_in s) g r (Some (kp_next p))) (ks_tag s) (ks_closed s)
                          (ks_net s) (ks_sent s) (ks_log s)))
          else None
      | _, _ => None
      end
  | KReturn r g =>
      (* lines 229-240 *)
      let p := ks_proc s r in
      match kp_lock p with
      | KReg g' =>
          if Nat.eqb g' g then
            match kmax (ks_in s g) (grp g) with
            | Some tag =>
                Some (Ok (KSt (upd (ks_proc s) r
                                 (KProc (tag + 1) (kset (kp_map p) tag (Some (KEntry g (grp g)))) KFree (kp_run p)))
                              (ks_in s) (upd2 (ks_tag s) r g (Some tag)) (ks_closed s)
                              (ks_net s) (ks_sent s) (ks_log s)))
            | None => None
            end
          else None
      | _ => None
      end
  | KUnreg r g =>
      (* lines 246-255; the destructors of the grids call it once for a registration *)
      let p := ks_proc s r in
      match kp_lock p, ks_tag s r g, ks_closed s r g with
      | KFree, Some tag, false =>
          Some (Ok (KSt (upd (ks_proc s) r (KProc (kp_next p) (kp_map p) KDel (kp_run p)))
                        (ks_in s) (ks_tag s) (upd2 (ks_closed s) r g true)
                        (ks_net s ++ [KMsg r r UNREG_TAG tag None]) (ks_sent s) (ks_log s)))
      | _, _, _ => None
      end
  | KSend r g k d =>
      (* lines 264-274; the user does not send with a receiver that is unregistered *)
      match ks_tag s r g, ks_closed s r g with
      | Some tag, false =>
          match kp_map (ks_proc s r) tag with
          | None => Some (Ok s)          (* warning *)
          | Some e =>
              match nth_error (ke_group e) k with
              | None => Some Ub          (* invalid rank *)
              | Some dst =>
                  Some (Ok (KSt (ks_proc s) (ks_in s) (ks_tag s) (ks_closed s)
                                (ks_net s ++ [KMsg r dst tag d (Some (length (ks_sent s)))])
                                (ks_sent s ++ [(r, g, k, d)]) (ks_log s)))
              end
          end
      | _, _ => None
      end
  | KHandle r src =>
      (* lines 280-315 *)
      let p := ks_proc s r in
      if kp_run p then
        match ktake src r (ks_net s) with
        | None => None
        | Some (m, net) =>
            let with_proc p' log :=
              Some (Ok (KSt (upd (ks_proc s) r p') (ks_in s) (ks_tag s) (ks_closed s) net (ks_sent s) log)) in
            if km_tag m =? EXIT_TAG then
              with_proc (KProc (kp_next p) (kp_map p) (kp_lock p) false) (ks_log s)
            else if km_tag m =? UNREG_TAG then
              (* the lock has to be held by unregisterReceiver *)
              match kp_lock p with
              | KDel => with_proc (KProc (kp_next p) (kset (kp_map p) (km_data m) None) KFree true) (ks_log s)
              | _ => Some Ub
              end
            else
              match kp_map p (km_tag m), km_id m with
              | None, Some id => with_proc p (KDrop id r :: ks_log s)
              | Some e, Some id =>
                  match index_of (km_src m) (ke_group e) with
                  | None => Some Ub      (* MPI_UNDEFINED *)
                  | Some k => with_proc p (KGot id r (ke_reg e) k (km_data m) :: ks_log s)
                  end
              | _, None => with_proc p (ks_log s)
              end
        end
      else None
  end.

Fixpoint krun (s : kst) (l : list kact) : option (outcome kst) :=
  match l with
  | [] => Some (Ok s)
  | a :: l' =>
      match kstep s a with
      | Some (Ok s') => krun s' l'
      | Some Ub => Some Ub
      | None => None
      end
  end.
End CommThread.

(** ** Pinning, lines 151-172 *)
(** [int] arithmetic: overflow is undefined. *)
Definition in_int (z : Z) : Prop := - 2 ^ 31 <= z < 2 ^ 31.
Definition int_ok (z : Z) : outcome Z :=
  if (- 2 ^ 31 <=? z) && (z <? 2 ^ 31) then Ok z else Ub.

(** The CPU given to CPU_SET, or [None] if the thread is not pinned. *)
Definition pin (numCPUs schedCPU : Z) : outcome (option Z) :=
  if schedCPU <? numCPUs then
    do neg <- int_ok (- schedCPU);
    if neg <=? numCPUs then
      if 0 <=? schedCPU then Ok (Some schedCPU)
      else do c <- int_ok (numCPUs - schedCPU); Ok (Some c)
    else Ok None
  else Ok None.
