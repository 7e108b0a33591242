(** * The machine without buffers, and what it means to keep to the mutexes *)
From Verif Require Export BufModel.

Section Spec.
Context {A K W L C : Type}.
Variable aeq : A -> A -> bool.
Variable keq : K -> K -> bool.
Variable prog : nat -> L -> C -> option (instr A K W L).

(** One memory, every store is visible at once. *)
Record sst := SSt { m_mem : A -> W; m_lock : K -> option nat; m_loc : nat -> L }.

Fixpoint put (ws : list (A * W)) (m : A -> W) : A -> W :=
  match ws with
  | [] => m
  | (a, w) :: ws' => put ws' (fun x => if aeq a x then w else m x)
  end.

Definition sstep (s : sst) (t : nat) (ch : C) : option sst :=
  match prog t (m_loc s t) ch with
  | None => None
  | Some (ILock k l) =>
      match m_lock s k with
      | None => Some (SSt (m_mem s) (updk keq (m_lock s) k (Some t)) (upd (m_loc s) t l))
      | Some _ => None
      end
  | Some (ITry k yes no) =>
      match m_lock s k with
      | None => Some (SSt (m_mem s) (updk keq (m_lock s) k (Some t)) (upd (m_loc s) t yes))
      | Some _ => Some (SSt (m_mem s) (m_lock s) (upd (m_loc s) t no))
      end
  | Some (IUnlock k l) => Some (SSt (m_mem s) (updk keq (m_lock s) k None) (upd (m_loc s) t l))
  | Some (IMem f) =>
      match f (m_mem s) with
      | Some (ws, l) => Some (SSt (put ws (m_mem s)) (m_lock s) (upd (m_loc s) t l))
      | None => None
      end
  end.

Fixpoint srun (s : sst) (acts : list (nat * C)) : option sst :=
  match acts with
  | [] => Some s
  | (t, ch) :: acts' => match sstep s t ch with Some s' => srun s' acts' | None => None end
  end.

(** The loads and stores of [f] are to locations in [on]. *)
Definition within (f : (A -> W) -> option (list (A * W) * L)) (on : A -> Prop) : Prop :=
  (forall m m', (forall a, on a -> m a = m' a) -> f m = f m') /\
  (forall m ws l, f m = Some (ws, l) -> forall a, In a (map fst ws) -> on a).

(** Nobody touches location [a] without holding the mutex [guard a], or unlocks a mutex of others. *)
Definition orderly (guard : A -> K) (s : sst) : Prop :=
  forall t ch,
  match prog t (m_loc s t) ch with
  | Some (IMem f) => within f (fun a => m_lock s (guard a) = Some t)
  | Some (IUnlock k _) => m_lock s k = Some t
  | _ => True
  end.
End Spec.
Arguments sst : clear implicits.

(** How often the function of threads/once.h starts in an execution. *)
Section Starts.
Variables (w : nat) (val : nat -> nat) (fast fifo : bool).
Definition starts1 (b b' : bst nat unit nat oth) (a : bact nat) : nat :=
  match a with
  | BRun t _ =>
      match ot_pc (b_loc b t), ot_pc (b_loc b' t) with
      | OTest, OFunc _ => 1
      | _, _ => 0
      end
  | BCommit _ _ => 0
  end.
Fixpoint starts (b : bst nat unit nat oth) (acts : list (bact nat)) : nat :=
  match acts with
  | [] => 0
  | a :: acts' =>
      match bstep Nat.eqb unit_eq (oprog w val fast) fifo b a with
      | Some b' => starts1 b b' a + starts b' acts'
      | None => 0
      end
  end.
End Starts.
