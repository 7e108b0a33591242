(** * What opening a level is meant to do *)
From Verif Require Import FileModel.

(** Elements have a size. *)
Definition sized (g : gkind) : Prop := match g with GBasic el | GArray el => 0 < el | GStruct _ => True end.

Section Spec.
Variable D : Type.
(** Variables of a file have different names (the netCDF library guarantees this). *)
Definition named_once (k : disk D) : Prop := forall name f, k name = Some f -> NoDup (map (v_name D) (f_vars D f)).
(** The variable [var] of the file [name]. *)
Definition is_var (k : disk D) (name var : string) (v : ncvar D) : Prop :=
  exists f, k name = Some f /\ In v (f_vars D f) /\ v_name D v = var.

(** The variable's values can be read as cells of the grid's type: numbers as a plain type; whole elements as an array;
    all fields inside of the cell of the file as a struct. *)
Definition readable (g : gkind) (t : nctype) : Prop :=
  match g with
  | GBasic _ => exists n, t = TNum n
  | GArray el => exists n, tsize t = n * el
  | GStruct fs => forall d l, In (d, l) fs -> d + l <= tsize t
  end.

(** A coordinate variable: numbers, one dimension, namely the dimension of the same name. *)
Definition coordinates (f : ncfile D) (d : nat) (x : ncvar D) : Prop :=
  In x (f_vars D f) /\ v_name D x = fst (nc_inq_dim D f d) /\ (exists n, v_type D x = TNum n) /\ v_dims D x = [d].
(** Each dimension has a coordinate variable or no variable of its name. *)
Definition good_axes (f : ncfile D) (v : ncvar D) : Prop :=
  forall d, In d (v_dims D v) ->
  (exists x, coordinates f d x) \/ (forall x, In x (f_vars D f) -> v_name D x <> fst (nc_inq_dim D f d)).
(** Whatever is opened: if the file has the variable, its dimensions are not empty and have usable coordinates. *)
Definition usable (k : disk D) (name var : string) : Prop :=
  forall f v, k name = Some f -> In v (f_vars D f) -> v_name D v = var ->
  good_axes f v /\ forall d, In d (v_dims D v) -> 0 < snd (nc_inq_dim D f d).

Variables (zero one inf : D) (sub : D -> D -> D) (div : D -> nat -> D).
(** The offset and the scaling of a dimension, from the file alone. *)
Definition origin (f : ncfile D) (d : nat) (o : D) : Prop :=
  (exists x, coordinates f d x /\ o = v_data D x [0]) \/
  ((forall x, In x (f_vars D f) -> v_name D x <> fst (nc_inq_dim D f d)) /\ o = zero).
Definition spacing (f : ncfile D) (d : nat) (c : D) : Prop :=
  let n := snd (nc_inq_dim D f d) in
  (n = 1 /\ c = inf) \/
  (n <> 1 /\ ((exists x, coordinates f d x /\ c = div (sub (v_data D x [n - 1]) (v_data D x [0])) (n - 1)) \/
              ((forall x, In x (f_vars D f) -> v_name D x <> fst (nc_inq_dim D f d)) /\ c = one))).
End Spec.

(** A sequence of opens: level, file, variable, and whether the steps after [Level::open] succeed.  No level larger than the
    first one. *)
Definition level_of (o : nat * string * string * bool) : nat := fst (fst (fst o)).
Definition first_largest (l : list (nat * string * string * bool)) : Prop :=
  match l with [] => True | x :: r => forall y, In y r -> level_of y <= level_of x end.
Definition all_usable {D} (k : disk D) (l : list (nat * string * string * bool)) : Prop :=
  forall i name var rest, In (i, name, var, rest) l -> usable D k name var.
(** The opens which fit together: the variables exist, have at most [maxd] dimensions and, for arrays and structs, whole elements
    and the same size [c]. *)
Definition fitting {D} (maxd : nat) (g : gkind) (k : disk D) (c : nat) (l : list (nat * string * string * bool)) : Prop :=
  forall i name var rest, In (i, name, var, rest) l -> rest = true /\ exists v, is_var D k name var v /\ List.length (v_dims D v) <= maxd /\
    (forall el, g = GArray el -> exists n, tsize (v_type D v) = n * el) /\ ((forall el, g <> GBasic el) -> tsize (v_type D v) = c).
(** Exactly the files [w0] are still open, all others of [w] are closed. *)
Definition only {D} (w0 w : handles D) : Prop :=
  forall h, nth_error w h = if h <? List.length w0 then nth_error w0 h else if h <? List.length w then Some None else None.
