(** * How often the function of threads/once.h starts *)
From Verif Require Export LateModel BufSpec.

Section Starts.
Variables (w : nat) (val : nat -> nat) (fast atomic : bool).
Local Notation vst := (vst nat unit nat oth).
Definition vonce (s : vst) (x : vact nat nat) : option vst :=
  vstep Nat.eqb unit_eq (oprog w val fast) (once_access atomic) s x.
(** Thread [t] has tested [m_state] under the mutex (line 78) and calls the function next (line 83). *)
Definition begins (s s' : vst) (t : nat) : bool :=
  match BufModel.ot_pc (v_loc s t), BufModel.ot_pc (v_loc s' t) with
  | OTest, OFunc _ => true
  | _, _ => false
  end.
Fixpoint vstarts (s : vst) (xs : list (vact nat nat)) : nat :=
  match xs with
  | [] => 0
  | x :: xs' =>
      match vonce s x with
      | Some s' => (if begins s s' (va_thr x) then 1 else 0) + vstarts s' xs'
      | None => 0
      end
  end.
Definition voinit (calls : nat -> nat) : vst := vinit (fun _ => 0) (fun t => OTh BufModel.OCall (calls t) []).
End Starts.
