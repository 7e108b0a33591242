(** * The MPI datatype of array and struct cells

    All NUMA domains of a grid share one type object.  Each domain calls
    [check] when it opens a level and takes the MPI datatype afterwards. *)
From Verif Require Export Base.

(** Progress of one domain inside of [open] for one level. *)
Inductive kpc :=
| KStart                (* before [check] *)
| KLocked               (* holds [m_lock] *)
| KCreate               (* set the size and released [m_lock]; has to create the datatype *)
| KCommit               (* datatype created, not committed *)
| KBarrier              (* [check] returned SUCCESS; in [NumaComm::allocate] *)
| KUse.                 (* left [NumaComm::allocate]; will call [getMPIType] *)

(** What [open] did for a level: an error of [check], or the datatype that was taken
    (number of elements, committed; [None]: MPI_DATATYPE_NULL). *)
Inductive opened :=
| KInvalid              (* INVALID_VAR_SIZE *)
| KWrong                (* WRONG_SIZE *)
| KTook (ty : option (nat * bool)).

Record kthr := KThr { k_pc : kpc; k_out : list opened }.
Record kst := KSt {
  k_lock : option nat;            (* [m_lock] *)
  k_size : nat;                   (* [m_arraySize] *)
  k_type : option (nat * bool);   (* [m_mpiType] *)
  k_made : nat;                   (* calls of [MPI_Type_contiguous] *)
  k_thr : nat -> kthr
}.

Section Datatype.
(** [D] domains, [el] = [sizeof(T)] (1 for [StructType], which counts bytes), [sizes] = size of
    a cell ([getVarSize], the same in all domains) in the levels in the order in which they
    are opened.  [open] of the next level starts when this one has returned. *)
Variables (D el : nat) (sizes : list nat).

Definition k_level (x : kthr) : nat := length (k_out x).
Definition k_put (s : kst) (t : nat) (x : kthr) : kst :=
  KSt (k_lock s) (k_size s) (k_type s) (k_made s) (upd (k_thr s) t x).
Definition k_go (s : kst) (t : nat) (p : kpc) : kst := k_put s t (KThr p (k_out (k_thr s t))).
Definition k_ret (s : kst) (t : nat) (o : opened) : kst := k_put s t (KThr KStart (k_out (k_thr s t) ++ [o])).
Definition k_set_lock (s : kst) (o : option nat) : kst := KSt o (k_size s) (k_type s) (k_made s) (k_thr s).

(** Domain [t'] has entered the broadcast of level [k] ([NumaComm::allocate], numa/numacomm.h
    lines 138-158, which [Cache::open] and [Full::open] call after [Level::open] and before
    the transfer classes are initialised).  The broadcast starts with a barrier of all domains
    (threads/sync.h; C37 and C38 prove that nobody leaves before all have entered). *)
Definition entered (k : nat) (x : kthr) : bool :=
  (k <? k_level x) ||
  ((k =? k_level x) && match k_pc x with KBarrier | KUse => true | _ => false end).

(** [ArrayType::check], types/arraytype.h lines 90-121, and [StructType::check],
    types/structtype.h lines 143-192 (where MPI_Type_create_struct and
    MPI_Type_create_resized are one step, and errors of MPI are not modelled); [getMPIType]
    in the [init] functions of the transfer classes (mpiwinfull.h line 124, mpithreadfull.h
    line 140, mpiwincache.h line 160, mpithreadcache.h line 364). *)
Definition kstep (s : kst) (t : nat) : option kst :=
  if D <=? t then None else
  let x := k_thr s t in
  match nth_error sizes (k_level x) with
  | None => None
  | Some sz =>
      match k_pc x with
      | KStart =>
          if negb (sz mod el =? 0) then Some (k_ret s t KInvalid)
          else match k_lock s with
               | None => Some (k_go (k_set_lock s (Some t)) t KLocked)
               | Some _ => None
               end
      | KLocked =>
          let s1 := k_set_lock s None in
          if k_size s =? 0 then Some (k_go (KSt None (sz / el) (k_type s) (k_made s) (k_thr s)) t KCreate)
          else if negb (sz / el =? k_size s) then Some (k_ret s1 t KWrong)
          else Some (k_go s1 t KBarrier)
      | KCreate => Some (k_go (KSt (k_lock s) (k_size s) (Some (k_size s, false)) (S (k_made s)) (k_thr s)) t KCommit)
      | KCommit =>
          Some (k_go (KSt (k_lock s) (k_size s) (match k_type s with Some (n, _) => Some (n, true) | None => None end) (k_made s) (k_thr s)) t KBarrier)
      | KBarrier =>
          if forallb (fun t' => entered (k_level x) (k_thr s t')) (seq 0 D) then Some (k_go s t KUse) else None
      | KUse => Some (k_ret s t (KTook (k_type s)))
      end
  end.

Fixpoint krun (s : kst) (l : list nat) : option kst :=
  match l with
  | [] => Some s
  | t :: l' => match kstep s t with Some s' => krun s' l' | None => None end
  end.

End Datatype.

(** The constructors: size 0, MPI_DATATYPE_NULL (arraytype.h lines 71-77, structtype.h
    lines 89-125). *)
Definition kinit : kst := KSt None 0 None 0 (fun _ => KThr KStart []).
