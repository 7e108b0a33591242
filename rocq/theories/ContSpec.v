(** * What the metadata of a grid should be: a function of the history of opens *)
From Verif Require Import ContModel.

Section Spec.
Variable D : Type.
Notation hist := (list (nat * result D)).
(** The axes of the last successful open of a level. *)
Definition opened (h : hist) (i : nat) (m : list (meta D)) : Prop :=
  exists h1 h2, h = h1 ++ (i, Good m) :: h2 /\ forall m', ~ In (i, Good m') h2.
(** The axes of the last open of a level that found its variable. *)
Definition seen (h : hist) (i : nat) (m : list (meta D)) : Prop :=
  exists h1 h2 r, h = h1 ++ (i, r) :: h2 /\ (r = Good m \/ r = Bad m) /\ forall r', In (i, r') h2 -> r' = NoFile.
(** Dimension [n] of the interface. *)
Definition axis (m : list (meta D)) (n : nat) (e : meta D) : Prop :=
  n < List.length m /\ nth_error m (List.length m - n - 1) = Some e.
Definition largest_first (h : hist) : Prop := match h with [] => True | x :: r => forall y, In y r -> fst y <= fst x end.
Definition all_good (h : hist) : Prop := forall i r, In (i, r) h -> exists m, r = Good m.
End Spec.
