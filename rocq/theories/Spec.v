(** * Model independent vocabulary used by the theorem statements *)
From Coq Require Export List Arith ZArith Lia.
Export ListNotations.

(** Number of cells of a box with the given extents. *)
Fixpoint volume (ds : list nat) : nat :=
  match ds with
  | [] => 1
  | d :: ds' => d * volume ds'
  end.

(** A multi-index is inside a box: one component per dimension, each smaller
    than the extent. *)
Definition in_box (ds ix : list nat) : Prop := Forall2 (fun i d => i < d) ix ds.

(** Position of a multi-index in a row-major (C order) array. *)
Fixpoint row_major (ds ix : list nat) : nat :=
  match ds, ix with
  | d :: ds', i :: ix' => i * volume ds' + row_major ds' ix'
  | _, _ => 0
  end.

(** Componentwise operations on multi-indices. *)
Fixpoint map2 {A B C} (f : A -> B -> C) (l : list A) (m : list B) : list C :=
  match l, m with
  | a :: l', b :: m' => f a b :: map2 f l' m'
  | _, _ => []
  end.

Definition ix_add := map2 Nat.add.
Definition ix_mul := map2 Nat.mul.

(** All multi-indices of a box in row-major order. *)
Fixpoint box (ds : list nat) : list (list nat) :=
  match ds with
  | [] => [[]]
  | d :: ds' => flat_map (fun i => map (cons i) (box ds')) (seq 0 d)
  end.
