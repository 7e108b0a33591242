(** * The test programs of the repository: tests/*.cpp, tests/fortran2d.f90

    The programs create files (tests/prepare.cpp), open one of them with some
    parameters, read all cells in a loop and compare the answers.  The numbers
    WIDTH, LENGTH and HEIGHT of tests/testdefines.h (all 70) are arguments here. *)
From Coq Require Import List Arith Bool ZArith String.
From Flocq Require Import Core.Core IEEE754.BinarySingleNaN IEEE754.Bits.
From Flocq Require IEEE754.Binary.
From Verif Require Import Base TypesModel CoordModel EndModel.
Import ListNotations.
Local Open Scope nat_scope.

(** ** Files *)
(** The bytes of a [float] variable to which the unsigned int [z] was assigned. *)
Definition float_cell (z : nat) : list Z :=
  le_bytes 4 (bits_of_b32 (Binary.binary_normalize 24 128 prec32 prec32' mode_NE (Z.of_nat z) 0 false)).
Definition plain (n : nat) : axis ieee := @Axis ieee (Z.of_nat n) None.
Definition at1 (ix : list nat) : nat := nth 0 ix 0.
Definition at2 (ix : list nat) : nat := nth 1 ix 0.
Definition at3 (ix : list nat) : nat := nth 2 ix 0.

(** prepare.cpp lines 50-64: [values_1d[i] = i]. *)
Definition cells_1d (ix : list nat) : list Z := float_cell (at1 ix).
(** Lines 66-76: dimensions y (one cell) and x. *)
Definition cells_pseudo (ix : list nat) : list Z := float_cell (at2 ix).
(** Lines 78-94: [values_2d[j][i] = i * LENGTH + j]. *)
Definition cells_2d (L : nat) (ix : list nat) : list Z := float_cell (at2 ix * L + at1 ix).
(** Lines 122-145: two floats in each cell. *)
Definition cells_compound (L : nat) (ix : list nat) : list Z :=
  (float_cell (at2 ix * L + at1 ix) ++ float_cell (at2 ix * L + at1 ix + 10 * 1000))%list.
(** Lines 147-170: [values_2d[j][i] = (i * LENGTH + j) * HEIGHT + k]. *)
Definition cells_3d (L H : nat) (ix : list nat) : list Z := float_cell ((at3 ix * L + at2 ix) * H + at1 ix).

(** The coordinate variables of lines 96-120, as [nc_get_var1_double] returns
    their values (float to double).  [y]: [values_1d[i] = i]; [x]: [i * 1.0/(WIDTH-1)].
    The variables are defined over each other's dimension (lines 105-106), which
    makes no difference as WIDTH = LENGTH. *)
Definition y_values (k : Z) : f64 := f32_f64 (z_f32 k).
Definition quotient (W : nat) (k : Z) : f64 :=
  Bdiv mode_NE (Bmult mode_NE (fnum k 0) (fnum 1 0)) (fnum (Z.of_nat (W - 1)) 0).
Definition x_values (W : nat) (k : Z) : f64 := f32_f64 (f64_f32 (quotient W k)).

(** ** Programs: one probe per comparison *)
Record probe := Probe { p_read : @request ieee; p_ok : answer -> bool }.

(** [double coords[3]]: the first coordinate is x. *)
Definition coords (l : list f64) (k : nat) : f64 := nth k l (fnum 0 0).
Definition int_coord (i : nat) : f64 := fnum (Z.of_nat i) 0.

(** [grid->getInt(coords) != value] does not hold. *)
Definition int_is (v : nat) (a : answer) : bool :=
  match a with AScalar (Ok (VI z)) => (z =? Z.of_nat v)%Z | _ => false end.
(** [grid->getFloat(coords) != value]: [value] is converted to float. *)
Definition float_eq (v : nat) (c : outcome cval) : bool :=
  match c with Ok (VF f) => Beqb f (z_f32 (Z.of_nat v)) | _ => false end.
Definition float_is (v : nat) (a : answer) : bool :=
  match a with AScalar c => float_eq v c | _ => false end.
(** [buf[n] != value] after [grid->getBuf(buf, coords)]. *)
Definition buf_is (n v : nat) (a : answer) : bool :=
  match a with ABuf (Ok b) => float_eq v (read_var Float (skipn (4 * n) b)) | _ => false end.

(** [for (int i = 0; i < WIDTH; i++) for (int j = 0; j < LENGTH; j++) ...] *)
Definition loop {X} (n : nat) (body : nat -> list X) : list X := flat_map body (seq 0 n).
Definition at_2d (i j : nat) := coords [int_coord i; int_coord j].

(** The loop of all two-dimensional tests, e.g. fullgrid2d.cpp lines 62-78, also fortran2d.f90 lines 61-73. *)
Definition loop_2d (W L : nat) : list probe :=
  loop W (fun i => loop L (fun j => [Probe (@Request ieee (at_2d i j) (GetScalar Int)) (int_is (j + i * L))])).
(** passthroughgrid2d.cpp lines 58-82. *)
Definition loop_pass (W L : nat) : list probe :=
  loop W (fun i => loop L (fun j =>
    [Probe (@Request ieee (at_2d i j) (GetScalar Int)) (int_is (j + i * L));
     Probe (@Request ieee (at_2d i j) (GetBuf 4)) (buf_is 0 (j + i * L))])).
(** fullgrid2dstruct.cpp lines 65-81. *)
Definition loop_struct (W L : nat) : list probe :=
  loop W (fun i => loop L (fun j => [Probe (@Request ieee (at_2d i j) (GetScalar Float)) (float_is (j + i * L))])).
(** fullgrid2darray.cpp lines 65-91: both floats of one [getBuf]. *)
Definition loop_array (W L : nat) : list probe :=
  loop W (fun i => loop L (fun j =>
    [Probe (@Request ieee (at_2d i j) (GetBuf 8)) (fun a => buf_is 0 (j + i * L) a && buf_is 1 (j + i * L + 10 * 1000) a)])).
(** fullgrid2dscale.cpp lines 57-73: [coords[0] = i * 1.0/(WIDTH-1)]. *)
Definition loop_scale (W L : nat) : list probe :=
  loop W (fun i => loop L (fun j =>
    [Probe (@Request ieee (coords [quotient W (Z.of_nat i); int_coord j]) (GetScalar Int)) (int_is (j + i * L))])).
(** fullgrid3d.cpp lines 57-78. *)
Definition loop_3d (W L H : nat) : list probe :=
  loop W (fun i => loop L (fun j => loop H (fun k =>
    [Probe (@Request ieee (coords [int_coord i; int_coord j; int_coord k]) (GetScalar Int)) (int_is (k + H * (j + i * L)))]))).
(** grid1d.cpp lines 61-70 and grid1dpseudo.cpp lines 63-74 (not built,
    tests/CMakeLists.txt lines 126-127; the second with getters that no longer
    exist): all cells of the one-dimensional files; [r i]: the random number
    taken as second coordinate. *)
Definition loop_1d (W : nat) : list probe :=
  loop W (fun i => [Probe (@Request ieee (coords [int_coord i]) (GetScalar Int)) (int_is i)]).
Definition loop_pseudo (W : nat) (r : nat -> Z) : list probe :=
  loop W (fun i => [Probe (@Request ieee (coords [int_coord i; fnum (r i) 0]) (GetScalar Int)) (int_is i)]).

(** ** The tests: type of the grid, file, loop *)
Record test := Test { t_type : ctype; t_axes : list (axis ieee); t_cells : list nat -> list Z; t_probes : list probe }.

(** [Grid::create()] and [createArray()] have the type float, include/asagi.h lines 316 and 326;
    array and struct: with the size which [check] stores when the file is opened
    (8 bytes in 2 floats, 4 bytes). *)
Definition float_grid : ctype := new_grid FLOAT false.
Definition test_2d (W L : nat) : test := Test float_grid [plain L; plain W] (cells_2d L) (loop_2d W L).
Definition test_pass (W L : nat) : test := Test float_grid [plain L; plain W] (cells_2d L) (loop_pass W L).
Definition test_struct (W L : nat) : test := Test (CType KStruct Float 4) [plain L; plain W] (cells_2d L) (loop_struct W L).
Definition test_array (W L : nat) : test := Test (CType KArray Float 2) [plain L; plain W] (cells_compound L) (loop_array W L).
Definition test_scale (W : nat) : test :=
  Test float_grid [@Axis ieee (Z.of_nat W) (Some y_values); @Axis ieee (Z.of_nat W) (Some (x_values W))] (cells_2d W) (loop_scale W W).
Definition test_3d (W L H : nat) : test := Test float_grid [plain H; plain L; plain W] (cells_3d L H) (loop_3d W L H).
Definition test_1d (W : nat) : test := Test float_grid [plain W] cells_1d (loop_1d W).
Definition test_pseudo (W : nat) (r : nat -> Z) : test := Test float_grid [plain 1; plain W] cells_pseudo (loop_pseudo W r).

Definition suite (W L H : nat) (r : nat -> Z) : list test :=
  [test_2d W L; test_pass W L; test_struct W L; test_array W L; test_scale W; test_3d W L H; test_1d W; test_pseudo W r].

(** All threads of the test (1 or 2 in the repository) run the loop. *)
Definition test_prog (x : test) (threads t : nat) : list (@request ieee) :=
  if t <? threads then map p_read (t_probes x) else [].
