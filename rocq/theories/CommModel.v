(** * The communicator of a grid: mpi/mpicomm.h, and its thread-specific key: numa/numa.cpp *)
From Verif Require Export Base.

(** A communicator handle: [MPI_COMM_SELF], [MPI_COMM_NULL], a communicator of the application ([MPI_COMM_WORLD], ..)
    or the [n]-th one made by [MPI_Comm_dup]. *)
Inductive comm := CSelf | CNull | CUser (n : nat) | CDup (n : nat).

(** What [MPIComm::init] meets: [MPI_Comm_dup], [MPI_Comm_rank] or [MPI_Comm_size] fails, or nothing does.
    A failing [MPI_Comm_dup] leaves its result alone. *)
Inductive res := RDup | RRank | RSize | ROk.

(** The members of [MPIComm] (mpicomm.h lines 76-86), the communicators made so far and not yet freed, and the calls of
    MPI which were made. *)
Inductive call := KDup (c : comm) (n : nat) | KFree (n : nat) | KBarrier (c : comm).
Record mc := Mc {
  c_comm : comm; c_rank : nat; c_size : nat; c_tag : nat;
  c_next : nat; c_live : list nat; c_calls : list call
}.

Section Comm.
(** Rank and size of this process in the communicators of the application. *)
Variable group : comm -> nat * nat.

(** [MPIComm::MPIComm], lines 89-93. *)
Definition mc_new : mc := Mc CSelf 0 1 0 0 [] [].

(** [freeComm], lines 172-177: [MPI_Comm_free] of [MPI_COMM_NULL], of a communicator freed before or of one the
    library did not make is an error; it sets the handle to [MPI_COMM_NULL]. *)
Definition free_comm (s : mc) : outcome mc :=
  match c_comm s with
  | CSelf => Ok s
  | CDup n =>
      if in_dec Nat.eq_dec n (c_live s)
      then Ok (Mc CNull (c_rank s) (c_size s) (c_tag s) (c_next s) (remove Nat.eq_dec n (c_live s)) (c_calls s ++ [KFree n]))
      else Ub
  | _ => Ub
  end.

(** [MPIComm::init], lines 104-119. *)
Definition mc_init (s : mc) (c : comm) (r : res) : outcome mc :=
  do s <- free_comm s;
  match r with
  | RDup => Ok s
  | _ =>
      let n := c_next s in
      let s := Mc (CDup n) (c_rank s) (c_size s) (c_tag s) (S n) (n :: c_live s) (c_calls s ++ [KDup c n]) in
      match r with
      | RDup | RRank => Ok s
      | RSize => Ok (Mc (c_comm s) (fst (group c)) (c_size s) (c_tag s) (c_next s) (c_live s) (c_calls s))
      | ROk => Ok (Mc (c_comm s) (fst (group c)) (snd (group c)) (c_tag s) (c_next s) (c_live s) (c_calls s))
      end
  end.

(** [reserveTags], lines 159-164. *)
Definition mc_reserve (s : mc) (n : nat) : mc :=
  Mc (c_comm s) (c_rank s) (c_size s) (c_tag s + n) (c_next s) (c_live s) (c_calls s).

(** What happens to the communicator of a grid before it is closed: [Grid::setComm] (grid/grid.h lines 109-112), the
    reset in [initContainers] if MPI communication is off (grid/grid.cpp lines 325-331) and [reserveTags]. *)
Inductive op := OSet (c : comm) (r : res) | OOff (r : res) | OTags (n : nat).
Definition mc_op (s : mc) (o : op) : outcome mc :=
  match o with
  | OSet c r => mc_init s c r
  | OOff r => if c_size s =? 1 then Ok s else mc_init s CSelf r
  | OTags n => Ok (mc_reserve s n)
  end.
Fixpoint mc_ops (s : mc) (l : list op) : outcome mc :=
  match l with [] => Ok s | o :: l' => do s' <- mc_op s o; mc_ops s' l' end.

(** [Grid::~Grid], grid.cpp lines 177-181 (a barrier on [MPI_COMM_NULL] is an error), and [~MPIComm], mpicomm.h lines
    95-99. *)
Definition mc_close (s : mc) : outcome mc :=
  do s <- (if 1 <? c_size s then
             match c_comm s with
             | CNull => Ub
             | c => Ok (Mc c (c_rank s) (c_size s) (c_tag s) (c_next s) (c_live s) (c_calls s ++ [KBarrier c]))
             end
           else Ok s);
  free_comm s.

(** A grid from its creation to the end. *)
Definition life (l : list op) : outcome mc := do s <- mc_ops mc_new l; mc_close s.

End Comm.

(** ** Thread-specific keys *)

(** The keys of the process and the value of each key in each thread.  [PTHREAD_KEYS_MAX] keys exist.
    A deleted or new key has no value in any thread. *)
Record keys := Keys {
  y_used : nat -> bool;
  y_val : nat -> nat -> option (nat * nat)          (* key, thread: the thread and domain identifier *)
}.
Definition keys_init : keys := Keys (fun _ => false) (fun _ _ => None).

(** The members [m_ptkey] and [m_keyError] of a grid's [Numa] object (numa/numa.h lines 89-96). *)
Record numa := Numa { n_key : nat; n_error : bool }.

Section Keys.
Variable kmax : nat.                                 (* PTHREAD_KEYS_MAX *)

(** [Numa::Numa], numa.cpp lines 48-56.  If no key is left [m_ptkey] is never written: [junk] is what the memory
    contains. *)
Definition numa_new (y : keys) (junk : nat) : keys * numa :=
  match find (fun i => negb (y_used y i)) (seq 0 kmax) with
  | Some i => (Keys (upd (y_used y) i true) (upd (y_val y) i (fun _ => None)), Numa i false)
  | None => (y, Numa junk true)
  end.

(** [Numa::~Numa], lines 58-61: [pthread_key_delete], an error code (ignored) if the key does not exist. *)
Definition numa_delete (y : keys) (m : numa) : keys :=
  Keys (upd (y_used y) (n_key m) false) (y_val y).

(** The end of [registerThread], lines 143-153, for thread [t]: an error, or the identifiers are stored. *)
Definition numa_register (y : keys) (m : numa) (t : nat) (ids : nat * nat) : keys * bool :=
  if n_error m then (y, false)
  else if y_used y (n_key m) then (Keys (y_used y) (upd (y_val y) (n_key m) (upd (y_val y (n_key m)) t (Some ids))), true)
  else (y, false).

(** [threadId], [domainId], numa.h lines 138-151: undefined for a key which does not exist; 0 in threads which did
    not register. *)
Definition numa_ids (y : keys) (m : numa) (t : nat) : outcome (nat * nat) :=
  if y_used y (n_key m) then Ok (match y_val y (n_key m) t with Some v => v | None => (0, 0) end) else Ub.

(** Several grids. *)
Record proc := Proc { p_keys : keys; p_grid : nat -> option numa }.
Inductive kop := PNew (g junk : nat) | PReg (g t : nat) (ids : nat * nat) | PClose (g : nat).
Definition kstep (p : proc) (o : kop) : proc :=
  match o with
  | PNew g junk =>
      match p_grid p g with
      | Some _ => p
      | None => let '(y, m) := numa_new (p_keys p) junk in Proc y (upd (p_grid p) g (Some m))
      end
  | PReg g t ids =>
      match p_grid p g with
      | None => p
      | Some m => Proc (fst (numa_register (p_keys p) m t ids)) (p_grid p)
      end
  | PClose g =>
      match p_grid p g with
      | None => p
      | Some m => Proc (numa_delete (p_keys p) m) (upd (p_grid p) g None)
      end
  end.
Definition krun (l : list kop) : proc := fold_left kstep l (Proc keys_init (fun _ => None)).
(** Whether thread [t] can register in grid [g] ([registerThread] returns no error). *)
Definition kreg (p : proc) (g t : nat) (ids : nat * nat) : bool :=
  match p_grid p g with None => false | Some m => snd (numa_register (p_keys p) m t ids) end.
(** The identifiers thread [t] sees in grid [g]. *)
Definition kids (p : proc) (g t : nat) : outcome (nat * nat) :=
  match p_grid p g with None => Ub | Some m => numa_ids (p_keys p) m t end.

End Keys.
