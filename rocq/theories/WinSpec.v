(** * What users of a window expect: one memory *)
From Verif Require Export WinModel.

(** The effect and the result of an access if there were only one copy. *)
Definition one_mem (m : nat -> nat -> Z) (a : act) : nat -> nat -> Z :=
  match a with
  | Store p x v => upd m p (upd (m p) x v)
  | Put _ t x v | Swap _ t x v => upd m t (upd (m t) x v)
  | Cas _ t x old v => if (m t x =? old)%Z then upd m t (upd (m t) x v) else m
  | _ => m
  end.
Definition one_val (m : nat -> nat -> Z) (a : act) : option Z :=
  match a with
  | Load p x => Some (m p x)
  | Get _ t x | Swap _ t x _ | Cas _ t x _ _ => Some (m t x)
  | _ => None
  end.
(** A run in which all accesses are defined by MPI and return what one memory would. *)
Fixpoint coherent (m : nat -> nat -> Z) (tr : list (act * reply)) : Prop :=
  match tr with
  | [] => True
  | (a, r) :: t => r_ok r = true /\ r_val r = one_val m a /\ coherent (one_mem m a) t
  end.
