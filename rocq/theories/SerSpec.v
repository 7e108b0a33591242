(** * MPI calls of one thread at a time

    THREADSAFE_MPI "will make sure that ASAGI does not call MPI functions from different threads at the same
    time" (documentation/user/02_usage.h lines 154-158). *)
From Verif Require Export LockSpec LockModel.

(** Calls for which the promise is kept: no communication thread (which [initContainers] replaces by windows, grid.cpp lines 319-324), opening only with one of the plain types or with a type
    another thread has checked before, no closing. *)
Definition no_comm_thread (kd : kind) : Prop :=
  match kd with KFullDist MThread _ _ | KCacheDist MThread _ => False | _ => True end.
Definition kept (x : call) : Prop :=
  match x with
  | CNew | CComm => True
  | CRead kd _ => no_comm_thread kd
  | COpen kd a => no_comm_thread kd /\ (a_basic a = true \/ a_first a = false)
  | _ => False
  end.
