(** * Starting and stopping the communication thread: mpi/commthread.h

    The member variables of the communication thread of each process, the MPI objects it makes,
    and the calls of the application: [init] (asagi.cpp lines 67-70, [Grid::startCommThread]),
    [finialize] (lines 72-75, [Grid::stopCommThread]), [registerReceiver] and
    [unregisterReceiver].  The functions which are collective ([init], [registerReceiver]) are one
    step of all processes of their communicator, which is given as the list of its processes.

    Simplified: m_lock and messages between processes (C45, C65, C66, C68), the sizes of tags
    (C46) and pinning (C47) are left out; the receivers are known by their tag.

    External (MPI, POSIX): a collective call returns only if all processes of the communicator
    make it; [MPI_Issend] and [MPI_Ssend] to the own process complete only if a thread of the process
    receives in this communicator; a call with MPI_COMM_NULL is erroneous; calls that fail change
    nothing.  MPI functions return errors only if the error handler of the communicator is
    MPI_ERRORS_RETURN; [pthread_create] returns them always. *)
From Verif Require Export Base.

(** What asagi::Grid::Error the functions return, include/asagi.h lines 92-119. *)
Inductive err := ESuccess | EMpi | EThread | ENotInit | EAlready.

(** A call ends, never ends, or is erroneous. *)
Inductive res (A : Type) := Done (a : A) | Hang | Undef.
Arguments Done {A} a. Arguments Hang {A}. Arguments Undef {A}.

(** Lines 94-114: m_comm ([None]: MPI_COMM_NULL; otherwise the number of the duplicate), the
    communicator in which the thread of m_thread receives, if it was started and has not ended,
    m_nextTag and the tags in m_receiver.  Beside them the duplicated communicators and the number of
    groups ([MPI_Comm_group] makes a new one) that exist, and the number of the next duplicate. *)
Record proc := Proc {
  p_comm : option nat; p_run : option nat; p_next : nat; p_tags : list nat;
  p_live : list nat; p_groups : nat; p_made : nat
}.
(** Constructor, lines 117-121. *)
Definition proc0 : proc := Proc None None 0 [] [] 0 0.

(** Which function call of [init] fails at a process, if any. *)
Inductive failing := FNone | FReduce | FDup | FGroup | FRank | FCreate.

(** Line 145: [MPI_Comm_dup] to m_comm. *)
Definition dup (p : proc) : proc :=
  Proc (Some (p_made p)) (p_run p) (p_next p) (p_tags p) (p_made p :: p_live p) (p_groups p) (S (p_made p)).
(** Line 147: [MPI_Comm_group] to m_group. *)
Definition group (p : proc) : proc :=
  Proc (p_comm p) (p_run p) (p_next p) (p_tags p) (p_live p) (S (p_groups p)) (p_made p).
(** Line 154: [pthread_create]; the thread receives in m_comm, line 286. *)
Definition create (p : proc) : proc :=
  Proc (p_comm p) (p_comm p) (p_next p) (p_tags p) (p_live p) (p_groups p) (p_made p).

(** Line 136. *)
Definition initialized (p : proc) : bool := match p_comm p with Some _ => true | None => false end.

(** [init], lines 130-177, at one process; [any]: the result of the reduction of lines 136-138. *)
Definition init (any : bool) (f : failing) (p : proc) : err * proc :=
  match f with
  | FReduce => (EMpi, p)
  | _ =>
    if any then (EAlready, p)
    else match f with
    | FReduce | FDup => (EMpi, p)
    | FGroup => (EMpi, dup p)
    | FRank => (EMpi, group (dup p))
    | FCreate => (EThread, group (dup p))
    | FNone => (ESuccess, create (group (dup p)))
    end
  end.

(** Whether the thread receives in m_comm, so that a message to the own process is received. *)
Definition receives (p : proc) : bool :=
  match p_comm p, p_run p with Some c, Some c' => c =? c' | _, _ => false end.

(** [finialize], lines 182-208: the exit message (lines 188-194), the end of the thread (lines 197, 288-293), the
    receivers and the communicator (lines 200-207).  m_group is not freed. *)
Definition finalize (p : proc) : res proc :=
  match p_comm p with
  | None => Undef
  | Some c =>
      if receives p
      then Done (Proc None None 0 [] (List.remove Nat.eq_dec c (p_live p)) (p_groups p) (p_made p))
      else Hang
  end.

(** [registerReceiver], lines 220-241, after the reduction of line 229 gave [tag]. *)
Definition register (fails : bool) (tag : nat) (p : proc) : err * proc :=
  if fails then (EMpi, p)
  else (ESuccess, Proc (p_comm p) (p_run p) (S tag) (tag :: List.remove Nat.eq_dec tag (p_tags p)) (p_live p)
                       (S (p_groups p)) (p_made p)).

(** [unregisterReceiver], lines 246-255, and its handling by the thread, lines 295-302.  The group of the receiver is
    not freed. *)
Definition unregister (tag : nat) (p : proc) : res proc :=
  match p_comm p with
  | None => Undef
  | Some _ =>
      if receives p
      then Done (Proc (p_comm p) (p_run p) (p_next p) (List.remove Nat.eq_dec tag (p_tags p)) (p_live p) (p_groups p)
                      (p_made p))
      else Hang
  end.

(** ** All processes *)
Definition sys := nat -> proc.
Definition sys0 : sys := fun _ => proc0.

(** Calls of the application (or of a grid): with the processes of the communicator and which calls fail where. *)
Inductive op :=
| Start (l : list nat) (f : nat -> failing)
| Stop (r : nat)
| Register (l : list nat) (f : nat -> bool)
| Unregister (r tag : nat).

(** What the processes see. *)
Inductive ev :=
| EvStart (r : nat) (e : err)
| EvStop (r : nat)
| EvReg (r tag : nat)
| EvNoReg (r : nat) (e : err)
| EvUnreg (r tag : nat).

Definition member (l : list nat) (r : nat) : bool := existsb (Nat.eqb r) l.
(** Apply a function at the processes of [l]. *)
Definition at_all (l : list nat) (g : nat -> proc -> proc) (s : sys) : sys :=
  fun r => if member l r then g r (s r) else s r.

(** The reduction with MPI_MAX of line 229. *)
Definition next_tag (s : sys) (l : list nat) : nat := fold_right Nat.max 0 (map (fun r => p_next (s r)) l).
Definition reg_event (r tag : nat) (e : err) : ev :=
  match e with ESuccess => EvReg r tag | _ => EvNoReg r e end.

Definition step (s : sys) (o : op) : res (sys * list ev) :=
  match o with
  | Start l f =>
      let any := existsb (fun r => initialized (s r)) l in
      Done (at_all l (fun r p => snd (init any (f r) p)) s,
            map (fun r => EvStart r (fst (init any (f r) (s r)))) l)
  | Stop r =>
      match finalize (s r) with
      | Done p => Done (upd s r p, [EvStop r])
      | Hang => Hang
      | Undef => Undef
      end
  | Register l f =>
      if forallb (fun r => initialized (s r)) l then
        let tag := next_tag s l in
        Done (at_all l (fun r p => snd (register (f r) tag p)) s,
              map (fun r => reg_event r tag (fst (register (f r) tag (s r)))) l)
      else if existsb (fun r => initialized (s r)) l then Hang   (* line 226 at some, line 229 at the others *)
      else Done (s, map (fun r => EvNoReg r ENotInit) l)
  | Unregister r tag =>
      match unregister tag (s r) with
      | Done p => Done (upd s r p, [EvUnreg r tag])
      | Hang => Hang
      | Undef => Undef
      end
  end.

(** A whole program; what the processes see is recorded, the last first. *)
Fixpoint run (s : sys) (tr : list ev) (os : list op) : res (sys * list ev) :=
  match os with
  | [] => Done (s, tr)
  | o :: os' =>
      match step s o with
      | Done (s', es) => run s' (rev es ++ tr) os'
      | Hang => Hang
      | Undef => Undef
      end
  end.
