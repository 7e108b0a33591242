(** * C100: the unit tests with one thread *)
From Coq Require Import ZArith List.
From Verif Require Import TypesModel UnitTypeModel UnitTypeFacts.
Import ListNotations.

(** ** threads/oncetest.h: after each call the function was executed once.  The test has two calls. *)
Theorem C100_once_partial : forall n, test_once n = repeat (Some 1) n.
Proof. exact once_test. Qed.
Print Assumptions C100_once_partial.
Example C100_once_demo : test_once 2 = [Some 1; Some 1].
Proof. vm_compute. reflexivity. Qed.

(** ** types/arraytypetest.h: the size is that of the cells of the file if they consist of whole elements; the test is
    successful for a file of single elements. *)
Theorem C100_array_partial : forall e sz, test_array_size e sz = if sz mod sizeof e =? 0 then sz else 0.
Proof. exact array_test. Qed.
Print Assumptions C100_array_partial.
Example C100_array_demo : test_array_size Float 4 = sizeof Float /\ test_array_size Float 8 = 8 /\ test_array_size Float 6 = 0.
Proof. vm_compute. auto. Qed.

(** ** grid/level/passthroughtest.h: maximum and spacing are within 0.0001 of the expected ones, in double arithmetic, for
    every file of at least two cells without coordinate variable (the test: 70 cells). *)
Theorem C100_pass_partial : forall W, (2 <= W <= 2 ^ 36)%Z -> test_pass_through W = true.
Proof. exact pass_test. Qed.
Print Assumptions C100_pass_partial.
(** A single cell has no maximum. *)
Example C100_pass_demo : test_pass_through 70 = true /\ test_pass_through 1 = false.
Proof. split; vm_compute; reflexivity. Qed.
