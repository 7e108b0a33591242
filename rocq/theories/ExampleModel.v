(** * The example programs (examples/) and tools/pinning_test

    The examples open tests/2dgrid.nc (tests/prepare.cpp lines 78-94, [cells_2d] in SuiteModel.v) and print some
    values.  A program is the list of its reads, in each process; the text around the values is not modelled. *)
From Coq Require Import List Arith Bool ZArith String.
From Coq Require Import Numbers.DecimalString.
From Flocq Require Import Core.Core IEEE754.BinarySingleNaN.
From Verif Require Import Base TypesModel CoordModel EndModel SuiteModel.
Import ListNotations.
Local Open Scope nat_scope.

(** ** Numbers in the programs *)
(** The double literal [a / b] (C and C++; for example 10.1 = 101 / 10): the nearest double. *)
Definition double_lit (a b : Z) : f64 := Bdiv mode_NE (fnum a 0) (fnum b 0).
(** A Fortran literal without exponent letter is of type [real]: the nearest float, converted to double by the assignment
    to [pos]. *)
Definition real_lit (a b : Z) : f64 := f32_f64 (@Bdiv 24 128 prec32 prec32' mode_NE (z_f32 a) (z_f32 b)).

(** ** Programs *)
(** [e_type]: the type of the grid; [e_reads r]: the reads of the process with rank [r] in MPI_COMM_WORLD. *)
Record example := Example_ { e_type : ctype; e_reads : nat -> list (@request ieee) }.
Definition read_at (l : list f64) (g : getter) : @request ieee := @Request ieee (coords l) g.

(** examples/c/simple.c lines 58-59 ([double pos[] = {5, 10}]).  No communicator is set, thus MPI_COMM_SELF: each process
    has its own grid. *)
Definition simple_c : example :=
  Example_ float_grid (fun _ => [read_at [fnum 5 0; fnum 10 0] (GetScalar Float)]).
(** examples/cpp/simple.cpp lines 71-83. *)
Definition simple_cpp : example :=
  Example_ float_grid (fun rank =>
    if rank =? 0 then
      let pos0 := [fnum 5 0; fnum 10 0] in
      [read_at pos0 (GetScalar Float); read_at pos0 (GetScalar Double); read_at pos0 (GetScalar Int)]
    else
      [read_at [fnum 5 0; double_lit 101 10] (GetScalar Float);
       read_at [fnum (-1) 0; double_lit (-1532) 100] (GetScalar Float)]).
(** examples/cpp/array.cpp lines 66-76; the type with the size which [check] has stored; [value] is a float. *)
Definition array_cpp : example :=
  Example_ (CType KArray Float 1) (fun rank =>
    if rank =? 0 then
      let pos := [fnum 5 0; fnum 10 0] in [read_at pos (GetScalar Float); read_at pos (GetBuf 4)]
    else []).
(** examples/f90/simple.f90 lines 62-70. *)
Definition simple_f90 : example :=
  Example_ float_grid (fun _ =>
    [read_at [real_lit 5 1; real_lit 10 1] (GetScalar Float);
     read_at [real_lit 5 1; real_lit 101 10] (GetScalar Float);
     read_at [real_lit (-1) 1; real_lit (-500532) 100] (GetScalar Float)]).
(** examples/f90/buf.f90 lines 60-64. *)
Definition buf_f90 : example :=
  Example_ float_grid (fun _ => [read_at [real_lit 1 1; real_lit 503 10] (GetBuf 4)]).

(** The reads of thread [t] of a session: one thread per process. *)
Definition example_prog (e : example) (s : session ieee) (t : nat) : list (@request ieee) :=
  if t <? n_threads s then e_reads e (n_rk s t) else [].

(** The range printed at the beginning: [getMin(n)], [getMax(n)] (examples/c/simple.c lines 55-56, examples/cpp/simple.cpp
    lines 67-68, examples/cpp/array.cpp lines 67-68, examples/f90/simple.f90 lines 59-60). *)
Definition example_range (s : session ieee) (n : nat) : f64 * f64 :=
  let lv := level_open ieee (value_position s) (n_axes s) in (level_min ieee lv n, level_max ieee lv n).
(** examples/cpp/array.cpp line 70. *)
Definition example_size (e : example) : nat := type_size (e_type e).

(** ** tools/pinning_test/pinning_test.cpp lines 53-74 *)
Definition decimal (n : nat) : string := NilZero.string_of_uint (Nat.to_uint n).
(** [CPU_ISSET] of a mask with [size] bits: 0 beyond the end. *)
Definition cpu_isset (size : nat) (mask : nat -> bool) (i : nat) : bool := (i <? size) && mask i.
Definition cpu_count (size : nat) (mask : nat -> bool) : nat := List.length (filter (cpu_isset size mask) (seq 0 size)).
(** The loop of lines 62-69 for at most [fuel] rounds; [None]: still running. [ss] is the stream. *)
Fixpoint pin_loop (fuel size : nat) (mask : nat -> bool) (cpus out current : nat) (ss : string) : option string :=
  if out <? cpus then
    match fuel with
    | O => None
    | S f =>
        if cpu_isset size mask current
        then pin_loop f size mask cpus (S out) (S current) (ss ++ decimal current ++ ", ")%string
        else pin_loop f size mask cpus out (S current) ss
    end
  else Some ss.
(** Line 72: [substr(0, size() - 2)]. *)
Definition drop2 (s : string) : string := substring 0 (String.length s - 2) s.
Definition pin_test (fuel size : nat) (mask : nat -> bool) (rank thread : nat) : option string :=
  let cpus := cpu_count size mask in
  let ss := ("Found " ++ decimal cpus ++ " CPUs on rank " ++ decimal rank ++ ", thread " ++ decimal thread ++ ": ")%string in
  match pin_loop fuel size mask cpus 0 0 ss with Some r => Some (drop2 r) | None => None end.
