(** * Outcomes and memory *)
From Verif Require Export Spec.

(** A computation of the C++ code either ends normally or runs into undefined
    behaviour (out-of-bounds access, division by zero, ...). *)
Inductive outcome (A : Type) : Type :=
| Ok (a : A)
| Ub.
Arguments Ok {A} a.
Arguments Ub {A}.

Definition obind {A B} (x : outcome A) (f : A -> outcome B) : outcome B :=
  match x with Ok a => f a | Ub => Ub end.
Definition omap {A B} (f : A -> B) (x : outcome A) : outcome B :=
  match x with Ok a => Ok (f a) | Ub => Ub end.
Notation "'do' x <- e ; f" := (obind e (fun x => f))
  (at level 200, x pattern, e at level 100, f at level 200).

(** Point update of a function. *)
Definition upd {A} (f : nat -> A) (i : nat) (a : A) : nat -> A :=
  fun j => if j =? i then a else f j.

(** A memory object of [m_len] cells.  A cell is one grid value (or whatever
    the user of the object says); [None] is a cell which was never written. *)
Record mem (V : Type) : Type := Mem { m_len : nat; m_at : nat -> option V }.
Arguments Mem {V} m_len m_at.
Arguments m_len {V} m.
Arguments m_at {V} m _.

(** Freshly allocated, uninitialised memory ([new T[n]], [malloc]). *)
Definition mem_new (V : Type) (n : nat) : mem V := Mem n (fun _ => None).

(** Reading: undefined behaviour outside of the object. *)
Definition mem_rd {V} (m : mem V) (i : nat) : outcome (option V) :=
  if i <? m_len m then Ok (m_at m i) else Ub.

(** Writing: undefined behaviour outside of the object. *)
Definition mem_wr {V} (m : mem V) (i : nat) (v : option V) : outcome (mem V) :=
  if i <? m_len m then Ok (Mem (m_len m) (upd (m_at m) i v)) else Ub.

(** [memcpy] of [n] cells between two objects. *)
Fixpoint mem_cpy {V} (dst : mem V) (dpos : nat) (src : mem V) (spos n : nat)
  : outcome (mem V) :=
  match n with
  | 0 => Ok dst
  | S n' =>
      do v <- mem_rd src spos;
      do dst' <- mem_wr dst dpos v;
      mem_cpy dst' (S dpos) src (S spos) n'
  end.
