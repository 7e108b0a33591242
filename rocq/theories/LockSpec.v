(** * What is expected of the mutexes *)
From Verif Require Import LockModel.

Definition reach (N : nat) (c : cfg) (p : nat -> list call) (s : st) : Prop := exists l, run N (init c p) l = Go s.

(** Thread [t] is in a call of the netCDF library, of MPI, or waits for the other domains. *)
Definition in_netcdf (s : st) (t : nat) : Prop := exists k, s_code s t = Nc k.
Definition in_mpi (s : st) (t : nat) : Prop := exists k, s_code s t = Mpi k.
Definition in_barrier (s : st) (t : nat) : Prop := exists k, s_code s t = Bar k.
Definition holds (s : st) (t : nat) (l : lock) : Prop := s_owner s l = Some (Thr t).

(** Mutexes which protect a few instructions of the library itself: whoever waits for one does not wait for a file or for another
    process. *)
Definition brief (l : lock) : Prop :=
  match l with LCache _ _ | LEntry _ _ | LType _ | LCount _ _ _ | LPtr => True | _ => False end.

(** All calls have returned and no mutex is left locked. *)
Definition finished (N : nat) (s : st) : Prop := (forall t, t < N -> s_code s t = Done) /\ forall l, s_owner s l = None.
Definition stuck (N : nat) (s : st) : Prop := forall a s', step N s a <> Go s'.
