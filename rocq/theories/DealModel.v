(** * The enumeration of preprocess/test/test_index.py

    The script deals the blocks out one by one, remembers where each of them went, and compares this with formulas.  Python lists are
    functions with a length; an index that is not in the list is an exception ([Ub]).  Negative indices, which Python would accept, do
    not occur as all numbers are natural; the entries, which start as -1, are integers. *)
From Verif Require Export BlockedModel.
Local Open Scope bool_scope.
Local Open Scope Z_scope.
Notation "# n" := (Z.of_nat n) (at level 1, format "# n").

(** [l[i]] and [l[i] = v] for a list [l] of [len] elements. *)
Definition at_ {A} (len : nat) (l : nat -> A) (i : nat) : outcome A := if (i <? len)%nat then Ok (l i) else Ub.
Definition set_ {A} (len : nat) (l : nat -> A) (i : nat) (v : A) : outcome (nat -> A) := if (i <? len)%nat then Ok (upd l i v) else Ub.

(** [__nodes], [__cores], [__offset], [__nodeOffset], [__local2global] (lines 50-54). *)
Record tables := Tables {
  t_nodes : nat -> Z;
  t_cores : nat -> Z;
  t_offset : nat -> Z;
  t_node_offset : nat -> Z;
  t_l2g : nat -> nat -> nat -> Z
}.
Definition blank : tables := Tables (fun _ => -1) (fun _ => -1) (fun _ => -1) (fun _ => -1) (fun _ _ _ => -1).

Section Deal.
Variables total nodes cores : nat.

(** [_localBlockCount], lines 98-100 (with the integer division of Python 2). *)
Definition p_local : nat := ((total + cores * nodes - 1) / (cores * nodes))%nat.
(** [_nodeBlockCount], lines 95-96. *)
Definition p_node_count : nat := (p_local * cores)%nat.
(** [_blockRank], lines 102-105. *)
Definition p_rank (rr : bool) (id : nat) : nat := if rr then (id mod nodes)%nat else (id / p_node_count)%nat.
(** [_blockDomain], lines 107-110. *)
Definition p_domain (rr : bool) (id : nat) : nat := if rr then ((id / nodes) mod cores)%nat else ((id / p_local) mod cores)%nat.
(** [_blockOffset], lines 112-115. *)
Definition p_offset (rr : bool) (id : nat) : nat := if rr then (id / nodes / cores)%nat else (id mod p_local)%nat.
(** [_blockNodeOffset], lines 117-118. *)
Definition p_node_offset (rr : bool) (id : nat) : nat := (p_offset rr id + p_domain rr id * p_local)%nat.
(** [_local2global], lines 120-123. *)
Definition p_l2g (rr : bool) (id core node : nat) : nat :=
  if rr then ((id * cores + core) * nodes + node)%nat else (id + (core + node * cores) * p_local)%nat.

(** Lines 62-67 and 79-83: the entries of block [i]. *)
Definition enter (t : tables) (i node core offset node_offset : nat) : outcome tables :=
  do a <- set_ total (t_nodes t) i #node;
  do b <- set_ total (t_cores t) i #core;
  do c <- set_ total (t_offset t) i #offset;
  do e <- set_ total (t_node_offset t) i #node_offset;
  do row <- at_ nodes (t_l2g t) node;
  do col <- at_ cores row core;
  do col' <- set_ p_local col offset #i;
  do row' <- set_ cores row core col';
  do f <- set_ nodes (t_l2g t) node row';
  Ok (Tables a b c e f).

(** The variables of the loop in lines 57-72. *)
Record dealer := Dealer {
  e_node : nat;
  e_core : nat -> nat;
  e_offset : nat -> nat;
  e_node_offset : nat -> nat
}.
(** Lines 62-72. *)
Definition deal_one (i : nat) (x : tables * dealer) : outcome (tables * dealer) :=
  let '(t, e) := x in
  let node := e_node e in
  do core <- at_ nodes (e_core e) node;
  do offset <- at_ (nodes * cores) (e_offset e) (node * cores + core);
  do node_offset <- at_ (nodes * cores) (e_node_offset e) (node * cores + core);
  do t' <- enter t i node core offset (node_offset + core * p_local);
  do o' <- set_ (nodes * cores) (e_offset e) (node * cores + core) (offset + 1)%nat;
  do n' <- set_ (nodes * cores) (e_node_offset e) (node * cores + core) (node_offset + 1)%nat;
  do c' <- set_ nodes (e_core e) node ((core + 1) mod cores)%nat;
  Ok (t', Dealer ((node + 1) mod nodes) c' o' n').

(** The variables of the loop in lines 74-93. *)
Record filler := Filler { i_node : nat; i_core : nat; i_offset : nat; i_node_offset : nat }.
(** Lines 79-93. *)
Definition fill_one (i : nat) (x : tables * filler) : outcome (tables * filler) :=
  let '(t, e) := x in
  do t' <- enter t i (i_node e) (i_core e) (i_offset e) (i_node_offset e);
  let offset := (i_offset e + 1)%nat in
  let node_offset := (i_node_offset e + 1)%nat in
  let '(core, offset) := if (p_local <=? offset)%nat then ((i_core e + 1)%nat, 0%nat) else (i_core e, offset) in
  if (cores <=? core)%nat then Ok (t', Filler (i_node e + 1) 0 offset 0)
  else Ok (t', Filler (i_node e) core offset node_offset).

(** [for i in range(n)] *)
Fixpoint loop {A} (body : nat -> A -> outcome A) (n : nat) (a : A) : outcome A :=
  match n with O => Ok a | S n' => do a' <- loop body n' a; body n' a' end.

(** [__init__], lines 44-93. *)
Definition dealt (rr : bool) : outcome tables :=
  if rr then omap fst (loop deal_one total (blank, Dealer 0 (fun _ => 0%nat) (fun _ => 0%nat) (fun _ => 0%nat)))
  else omap fst (loop fill_one total (blank, Filler 0 0 0 0)).

(** [test], lines 125-137: whether no assertion fails. *)
Definition checks (rr : bool) (t : tables) : bool :=
  forallb (fun i => (#(p_rank rr i) =? t_nodes t i) && (#(p_domain rr i) =? t_cores t i) && (#(p_offset rr i) =? t_offset t i)
                    && (#(p_node_offset rr i) =? t_node_offset t i)) (seq 0 total) &&
  forallb (fun n => forallb (fun c => forallb (fun i =>
      if (p_l2g rr i c n <? total)%nat then #(p_l2g rr i c n) =? t_l2g t n c i else true)
    (seq 0 p_local)) (seq 0 cores)) (seq 0 nodes).
Definition test_index (rr : bool) : outcome bool := omap (checks rr) (dealt rr).
End Deal.
