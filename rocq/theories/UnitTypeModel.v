(** * The unit tests of one thread: tests/unittest/threads/oncetest.h, tests/unittest/types/arraytypetest.h and
    tests/unittest/grid/level/passthroughtest.h

    The remaining unit tests (see UnitModel.v), on top of the models of [Once], [ArrayType] and [Level]. *)
From Coq Require Import ZArith Bool List.
From Flocq Require Import IEEE754.BinarySingleNaN.
From Verif Require Import Base SyncModel TypesModel CoordModel.
Import ListNotations.

(** ** tests/unittest/threads/oncetest.h, lines 53-59 *)

Definition o_returned (p : opc) : bool := match p with OReturn => true | _ => false end.
(** One call of [saveExec] by thread 0; it has at most [fuel] steps. *)
Fixpoint o_call (fuel : nat) (s : ost) : option ost :=
  match fuel with
  | 0 => None
  | S k => match ostep s 0 with
           | Some s' => if o_returned (o_pc (o_thr s' 0)) then ostep s' 0 else o_call k s'
           | None => None
           end
  end.
(** The values of [executed] (counted by the calls of line 65, each of them completed) after each of [n] calls; the
    test makes two. *)
Fixpoint o_calls (n : nat) (s : ost) : list (option nat) :=
  match n with
  | 0 => []
  | S n' => match o_call 8 s with
            | Some s' => (if o_started s' =? o_ended s' then Some (o_ended s') else None) :: o_calls n' s'
            | None => [None]
            end
  end.
Definition test_once (n : nat) : list (option nat) := o_calls n (oinit (fun t => if t =? 0 then n else 0)).

(** ** tests/unittest/types/arraytypetest.h, lines 57-63

    [check] on one file with cells of [sz] bytes, then [size()], for elements of type [e] (the test: [Float]). *)
Fixpoint c_all (fuel : nat) (e : elem) (s : cstate) : cstate :=
  match fuel with
  | 0 => s
  | S k => match cstep KArray e s 0 with Some s' => c_all k e s' | None => s end
  end.
Definition test_array_size (e : elem) (sz : nat) : nat :=
  csize KArray e (c_all 8 e (cinit (fun t => if t =? 0 then [sz] else []))).

(** ** tests/unittest/grid/level/passthroughtest.h

    TS_ASSERT_DELTA, tools/cxxtest/cxxtest/TestSuite.h lines 159-163. *)
Definition ts_delta (x y d : f64) : bool := (Bleb (Bminus mode_NE x d) y && Bleb y (Bplus mode_NE x d))%bool.
(** 0.0001 is 0x1.a36e2eb1c432dp-14. *)
Definition ts_tol : f64 := fnum 0x1a36e2eb1c432d (-66).
(** Lines 66-84 without line 73 (the domain is a reference to the same object): the type, the maximum and the
    spacing of the grid in 1dgrid.nc, which has [W] cells and no coordinate variable (tests/prepare.cpp lines
    52-64); the position of the values is the default. *)
Definition test_pass_through (W : Z) : bool :=
  let lv := level_open ieee CellCentered [@Axis ieee W None] in
  ((type_size (new_grid FLOAT false) =? sizeof Float) &&
   ts_delta (level_max ieee lv 0) (Bplus mode_NE (fnum (W - 1) 0) (fnum 1 (-1))) ts_tol &&
   ts_delta (level_delta ieee lv 0) (fnum 1 0) ts_tol)%bool.
