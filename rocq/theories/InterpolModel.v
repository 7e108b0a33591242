(** * preprocess/interpol_time/interpol_time.py: a file with a time dimension

    The script adds a dimension "time" with TIME_STEPS entries to the variables of a netCDF file and writes [i * v / 600.0] as
    value of step [i].

    What is assumed about the libraries (the script is a Python 2 program): the product of an integer with a numpy array has
    the type of the array, unless the integer does not fit (numpy's rules for scalars); with a numpy scalar it has 64 bits;
    dividing an integer array by a [float] gives doubles, a float array keeps its type; what is stored is converted to
    the type of the variable (towards zero for integers).  netCDF4 raises an exception if a name is defined
    twice.  Signed integers of 1, 2 and 4 bytes, singles and doubles only; no missing values (masked arrays); attributes
    other than those of "time" are not modelled. *)
From Coq Require Import ZArith Bool List String.
From Flocq Require Import IEEE754.BinarySingleNaN.
From Verif Require Import Base TypesModel CoordModel.
Import ListNotations.
Local Open Scope Z_scope.

(** Line 9. *)
Definition time_steps : Z := 600.

Inductive width := W1 | W2 | W4.
Definition bits (w : width) : Z := match w with W1 => 8 | W2 => 16 | W4 => 32 end.
(** The values of a variable by index. *)
Inductive content :=
| CInt (w : width) (f : list nat -> Z)
| CSingle (f : list nat -> f32)
| CDouble (f : list nat -> f64).
Record ivar := IVar { i_name : string; i_dims : list string; i_data : content }.
Record ifile := IFile { i_dim : list (string * nat); i_vars : list ivar }.

(** ** Line 56: [i*v/float(TIME_STEPS)], where [v] is an array, or a scalar if the variable has one dimension *)

(** Bits of the product. *)
Definition product_bits (w : width) (scalar : bool) (i : Z) : Z :=
  if scalar then 64
  else match w with W1 => if i <? 128 then 8 else 16 | _ => bits w end.
Definition step_int (w : width) (scalar : bool) (i v : Z) : Z :=
  signed (bits w) (Btrunc (Bdiv mode_NE (z_f64 (signed (product_bits w scalar i) (i * v))) (z_f64 time_steps))).
Definition step_double (i : Z) (v : f64) : f64 := Bdiv mode_NE (Bmult mode_NE (z_f64 i) v) (z_f64 time_steps).
Definition step_single (scalar : bool) (i : Z) (v : f32) : f32 :=
  if scalar then f64_f32 (step_double i (f32_f64 v))
  else @Bdiv 24 128 prec32 prec32' mode_NE (@Bmult 24 128 prec32 prec32' mode_NE (z_f32 i) v) (z_f32 time_steps).

(** Lines 54-56; the first index is the time. *)
Definition steps (scalar : bool) (c : content) : content :=
  let t (ix : list nat) := Z.of_nat (hd O ix) in
  match c with
  | CInt w f => CInt w (fun ix => step_int w scalar (t ix) (f (tl ix)))
  | CSingle f => CSingle (fun ix => step_single scalar (t ix) (f (tl ix)))
  | CDouble f => CDouble (fun ix => step_double (t ix) (f (tl ix)))
  end.

(** ** The file *)

(** Line 44: [numpy.arange(0, 300, 300/float(TIME_STEPS))], stored as singles. *)
Definition time_value (k : Z) : f32 :=
  f64_f32 (Bplus mode_NE (z_f64 0) (Bmult mode_NE (z_f64 k) (Bdiv mode_NE (z_f64 300) (z_f64 time_steps)))).
Definition time_var : ivar := IVar "time" ["time"%string] (CSingle (fun ix => time_value (Z.of_nat (hd O ix)))).
(** Line 42. *)
Definition actual_range : Z * Z := (0, time_steps).

(** The end of the script.  [Other]: reading or writing of shapes which are not modelled (a variable with the name of a
    dimension but other dimensions, variables without dimensions, dimensions of length 0). *)
Inductive ending := Written (f : ifile) | Raised | Other.

Definition names_dim (f : ifile) (n : string) : bool := existsb (fun d => String.eqb (fst d) n) (i_dim f).

(** Lines 32-38: the coordinate variables, in order. *)
Definition is_coord (f : ifile) (v : ivar) : bool := names_dim f (i_name v).
Definition plain_shape (f : ifile) (v : ivar) : bool :=
  if is_coord f v then match i_dims v with [n] => String.eqb n (i_name v) | _ => false end
  else match i_dims v with [] => false | _ => true end.
Definition copy_coord (v : ivar) : ivar := IVar (i_name v) [i_name v] (i_data v).
(** Lines 48-56. *)
Definition add_time (v : ivar) : ivar :=
  IVar (i_name v) ("time"%string :: i_dims v) (steps (List.length (i_dims v) =? 1)%nat (i_data v)).

(** Lines 27-56.  "time" is created after the other dimensions (line 29), the variable "time" (line 39) after the
    coordinate variables and before all others. *)
Definition interpol (f : ifile) : ending :=
  if names_dim f "time" then Raised
  else if negb (forallb (fun d => (0 <? snd d)%nat) (i_dim f)) then Other
  else if negb (forallb (plain_shape f) (i_vars f)) then Other
  else
    let real := filter (fun v => negb (is_coord f v)) (i_vars f) in
    if existsb (fun v => String.eqb (i_name v) "time") real then Raised
    else Written (IFile (i_dim f ++ [("time"%string, Z.to_nat time_steps)])
                        (map copy_coord (filter (is_coord f) (i_vars f)) ++ [time_var] ++ map add_time real)).
