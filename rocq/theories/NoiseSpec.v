(** * What the noise generator should write *)
From Coq Require Import QArith List String.
From Verif Require Import Base FileModel.
Import ListNotations.

Section Spec.
(** The element [ix] of a variable of the file. *)
Definition var_at (f : ncfile Q) (name : string) (ix : list nat) : option Q :=
  option_map (fun v => v_data Q v ix) (find (fun v => String.eqb (v_name Q v) name) (f_vars Q f)).
Definition has_size (f : ncfile Q) (w h : nat) : Prop := f_dims Q f = [("x", w); ("y", h)]%string.

(** [F x y]: the function to be shown; [st]: rounding of the stored numbers.
    [by_name]: the element at (x, y), as the names of the dimensions say, is [F x y].
    [by_asagi]: the same for ASAGI, where the first number of a position belongs to the last dimension of the variable
    (grid/level/level.h line 359). *)
Variables (F : Q -> Q -> outcome Q) (st : Q -> Q).
Definition is_val (o : outcome Q) (z : option Q) : Prop := exists v z', o = Ok v /\ z = Some z' /\ z' == st v.
Definition by_name (f : ncfile Q) (w h : nat) : Prop :=
  forall a b x y, (a < w)%nat -> (b < h)%nat -> var_at f "x" [a] = Some x -> var_at f "y" [b] = Some y ->
  is_val (F x y) (var_at f "z" [a; b]).
Definition by_asagi (f : ncfile Q) (w h : nat) : Prop :=
  forall a b c0 c1, (a < w)%nat -> (b < h)%nat -> var_at f "y" [b] = Some c0 -> var_at f "x" [a] = Some c1 ->
  is_val (F c0 c1) (var_at f "z" [a; b]).
(** A VTK file of structured points: the first coordinate varies fastest.  [xs], [ys]: the coordinates. *)
Definition by_vtk (xs ys : nat -> Q) (l : list Q) (w h : nat) : Prop :=
  List.length l = (w * h)%nat /\
  forall i j, (i < w)%nat -> (j < h)%nat -> is_val (F (xs i) (ys j)) (nth_error l (j * w + i)).
End Spec.
