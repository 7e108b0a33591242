(** * C48, C49: node-local ranks *)
From Coq Require Import Lia.
From Verif Require Import NodeRankModel NodeRankFacts.
Local Open Scope Z_scope.

(** ** C48.  [names]: processor names by rank.  The hash values have to be valid colors (C49). *)
Theorem C48_lower_ranks : forall names rank, (rank < length names)%nat ->
  (forall h, In h names -> 0 <= to_int (adler h)) ->
  exists n, node_local_rank names rank = Ok n /\ lower_on_host names rank n.
Proof. exact (fun names rank => node_rank_correct (fun h => to_int (adler h)) names rank). Qed.
Print Assumptions C48_lower_ranks.
(** The same with any other hash function, even a constant: collisions do not matter. *)
Theorem C48_any_hash : forall color names rank, (rank < length names)%nat ->
  (forall h, In h names -> 0 <= color h) ->
  exists n, node_rank color names rank = Ok n /\ lower_on_host names rank n.
Proof. exact node_rank_correct. Qed.
Print Assumptions C48_any_hash.
(** The processes of a host get different numbers, in the order of their ranks, ... *)
Theorem C48_distinct : forall names r r' n n' h,
  (forall h, In h names -> 0 <= to_int (adler h)) ->
  nth_error names r = Some h -> nth_error names r' = Some h -> (r < r')%nat ->
  node_local_rank names r = Ok n -> node_local_rank names r' = Ok n' -> (n < n')%nat.
Proof. exact local_distinct. Qed.
Print Assumptions C48_distinct.
(** ... without gaps. *)
Theorem C48_compact : forall names r n m,
  (forall h, In h names -> 0 <= to_int (adler h)) -> (r < length names)%nat ->
  node_local_rank names r = Ok n -> (m < n)%nat ->
  exists r' h, (r' < r)%nat /\ nth_error names r = Some h /\ nth_error names r' = Some h /\
    node_local_rank names r' = Ok m.
Proof. exact local_compact. Qed.
Print Assumptions C48_compact.
(** "aaca" and "abab" have the same hash. *)
Definition aaca : list Z := [97; 97; 99; 97].
Definition abab : list Z := [97; 98; 97; 98].
Example C48_collision : aaca <> abab /\ adler aaca = adler abab /\
  map (node_local_rank [aaca; abab; aaca; abab; abab]) [0; 1; 2; 3; 4]%nat = [Ok 0; Ok 0; Ok 1; Ok 1; Ok 2]%nat.
Proof. split; [discriminate|]. split; reflexivity. Qed.

(** ** C49 *)
(** "compute-node-01.example.org" is given to MPI_Comm_split as a negative color. *)
Theorem C49_refuted : exists h, is_name h /\ (length h <= 128)%nat /\ to_int (adler h) < 0 /\
  forall names rank, In h names -> node_local_rank names rank = Ub.
Proof. exact long_name_fails. Qed.
Print Assumptions C49_refuted.
Theorem C49_short_names_partial : forall names rank,
  (forall h, In h names -> is_name h /\ (forall b, In b h -> b <= 127) /\ (length h <= 22)%nat) ->
  (rank < length names)%nat -> node_local_rank names rank <> Ub.
Proof. exact short_names_work. Qed.
Print Assumptions C49_short_names_partial.
Example C49_used : node_local_rank [[110; 48]; [110; 49]; [110; 48]] 2%nat = Ok 1%nat.
Proof. reflexivity. Qed.
