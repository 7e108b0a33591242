(** * asagi.cpp, nodeLocalRank (lines 77-144)

    A processor name is the list of its bytes (1..255, so no terminating 0 inside).
    [names] are the processor names of the processes of the communicator, by rank.

    Simplifications: a processor name fits into MPI_MAX_PROCESSOR_NAME (guaranteed by MPI). *)
From Coq Require Export ZArith List Bool.
From Verif Require Export Base.
Export ListNotations.
Local Open Scope Z_scope.

(** Lines 97-105: Adler32 in uint32_t. *)
Fixpoint adler_loop (s1 s2 : Z) (name : list Z) : Z * Z :=
  match name with
  | [] => (s1, s2)
  | b :: rest =>
      let s1' := ((s1 + b) mod 2 ^ 32) mod 65521 in
      let s2' := ((s2 + s1') mod 2 ^ 32) mod 65521 in
      adler_loop s1' s2' rest
  end.
Definition adler (name : list Z) : Z :=
  let '(s1, s2) := adler_loop 1 0 name in
  Z.lor (Z.shiftl s2 16 mod 2 ^ 32) s1.

(** Line 111: conversion of the hash to the [int] argument [color] (two's complement). *)
Definition to_int (z : Z) : Z := if z <? 2 ^ 31 then z else z - 2 ^ 32.

Fixpoint name_eqb (a b : list Z) : bool :=
  match a, b with
  | [], [] => true
  | x :: a', y :: b' => (x =? y) && name_eqb a' b'
  | _, _ => false
  end.

(** MPI_Comm_split with key = rank (line 111): the ranks with the color of the caller, ascending. *)
Definition comm_split (colors : list Z) (c : Z) : list nat :=
  filter (fun r => match nth_error colors r with Some c' => c' =? c | None => false end)
         (seq 0 (length colors)).

(** Lines 106-143 on process [rank], for any function computing the color.  A negative color is
    not allowed in MPI_Comm_split. *)
Definition node_rank (color : list Z -> Z) (names : list (list Z)) (rank : nat) : outcome nat :=
  let colors := map color names in
  if forallb (fun c => 0 <=? c) colors then
    match nth_error names rank with
    | None => Ub
    | Some procName =>
        let nodeComm := comm_split colors (color procName) in
        let procNames := map (fun r => nth r names []) nodeComm in     (* MPI_Allgather *)
        (* position of the caller in nodeComm *)
        let nodeRank := length (filter (fun r => Nat.ltb r rank) nodeComm) in
        (* lines 131-135 *)
        Ok (length (filter (name_eqb procName) (firstn nodeRank procNames)))
    end
  else Ub.

Definition node_local_rank : list (list Z) -> nat -> outcome nat :=
  node_rank (fun name => to_int (adler name)).
