(** * C29-C32, C57: parameters, grid selection, counters, error codes *)
From Coq Require Import List Arith Bool ZArith Ascii String Lia.
From Verif Require Import Base LevelsModel ParamModel ParamFacts.
Import ListNotations.
Local Open Scope string_scope.
Local Open Scope nat_scope.

(** ** C29 *)
(** At level 0 every name known to the code reports the sum over the NUMA
    domains of what the name means.  Missing for the full property: other
    levels and the documented name [file_load] (both refuted below). *)
Theorem C29_level0_partial : forall name containers firsts vals,
  Forall2 (fun levels c => nth_error levels 0 = Some c) containers firsts ->
  Forall2 (fun c z => meaning name c = Some z) firsts vals ->
  (0 <= sumZ vals < 2 ^ 64)%Z ->
  grid_counter containers name 0 = Ok (sumZ vals).
Proof. exact counter_level0. Qed.

Example C29_level0_used :
  grid_counter [[Counters 9 2 1 3; Counters 5 0 0 5]; [Counters 4 0 0 1]] "local_hits" 0 = Ok 6%Z.
Proof.
  apply (C29_level0_partial "local_hits" _ [Counters 9 2 1 3; Counters 4 0 0 1] [3; 3]%Z).
  - repeat constructor.
  - repeat constructor.
  - vm_compute. split; [discriminate|reflexivity].
Qed.

(** Every documented name except "file_load" is known. *)
Theorem C29_names_partial : forall name c, In name documented_names -> name <> "file_load" ->
  exists z, meaning name c = Some z /\ counter_get c (name2type name) = wrap64 z.
Proof. exact documented_known. Qed.

(** The counter of level 1 is not reported: all reads on level 1 stay invisible. *)
Theorem C29_level_refuted : exists containers c level name z,
  map (fun levels => nth_error levels level) containers = [Some c] /\
  meaning name c = Some z /\ (0 <= z < 2 ^ 64)%Z /\
  grid_counter containers name level <> Ok z.
Proof.
  exists [[counters0; Counters 5 0 0 5]], (Counters 5 0 0 5), 1, "accesses", 5%Z.
  repeat split; try (vm_compute; congruence); vm_compute; intros H; discriminate H.
Qed.

(** The documented name "file_load" always reports 0. *)
Theorem C29_name_refuted : In "file_load" documented_names /\
  exists c, (0 < n_file c) /\ grid_counter [[c]] "file_load" 0 = Ok 0%Z.
Proof.
  split; [cbn; tauto|]. exists (Counters 5 0 0 5). split; [cbn; lia|reflexivity].
Qed.

(** ** C30 *)
(** The last call that spells the parameter [key], on the same level, decides;
    the values of VARIABLE and BLOCK_SIZE_x are passed on literally, other
    values up to spelling. *)
Theorem C30_last_write_wins : forall T (parse : string -> T) before name value level after key dflt,
  canonical key -> same_spelling name key ->
  (forall c, In c after -> ~ writes c key level) ->
  exists v,
    param parse (set_params [] (before ++ (name, value, level) :: after)%list) key dflt level = parse v /\
    (literal_key key -> v = value) /\
    (~ literal_key key -> same_spelling v value /\ canonical v).
Proof. exact @last_write_value. Qed.

Theorem C30_unset_keeps_default : forall T (parse : string -> T) calls key dflt level,
  canonical key ->
  (forall c, In c calls -> ~ writes c key level) ->
  param parse (set_params [] calls) key dflt level = dflt.
Proof. exact @unset_default. Qed.

Theorem C30_others_unaffected : forall T (parse : string -> T) ps name value l key dflt level,
  canonical key -> ~ (same_spelling name key /\ l = level) ->
  param parse (set_param ps name value l) key dflt level = param parse ps key dflt level.
Proof. exact @others_unaffected. Qed.

Example C30_used :
  let ps := set_params [] [("grid", "full", 0); ("Cache-Size", "7", 1); ("variable", "My-Var", 0);
                           ("GRID", "pass-through", 0); ("block-size-0", "-3", 2)] in
  param (fun s => s) ps "GRID" "FULL" 0 = "PASS_THROUGH" /\
  param parse_int ps "CACHE_SIZE" 128%Z 1 = 7%Z /\
  param parse_int ps "CACHE_SIZE" 128%Z 0 = 128%Z /\
  param (fun s => s) ps "VARIABLE" "z" 0 = "My-Var" /\
  param parse_int ps "BLOCK_SIZE_0" 0%Z 2 = (-3)%Z.
Proof. vm_compute. repeat split. Qed.
Example C30_hypotheses : canonical "CACHE_SIZE" /\ same_spelling "cache-Size" "CACHE_SIZE" /\
  ~ same_spelling "cachesize" "CACHE_SIZE" /\ literal_key "BLOCK_SIZE_12" /\ ~ literal_key "GRID".
Proof.
  assert (C : canonical "CACHE_SIZE") by exact (norm_canonical "CACHE_SIZE").
  split; [exact C|]. split; [apply same_spelling_norm; reflexivity|].
  split; [rewrite same_spelling_norm; vm_compute; discriminate|].
  split; [right; exists "12"; reflexivity|].
  intros [H|[i H]]; discriminate H.
Qed.

(** ** C31 *)
(** Every negative number given to any parameter other than VARIABLE and
    BLOCK_SIZE_x arrives as 0. *)
Theorem C31_refuted : forall ps name z level dflt,
  (z < 0)%Z -> ~ literal_key (norm_name name) ->
  param parse_int (set_param ps name (decimal z) level) (norm_name name) dflt level = 0%Z.
Proof. exact decimal_lost. Qed.
Example C31_refuted_used :
  param parse_int (set_param [] "CACHE-HAND-SPREAD" "-1" 0) "CACHE_HAND_SPREAD" (-1)%Z 0 = 0%Z.
Proof. reflexivity. Qed.

(** All other numbers arrive unchanged.  Missing: negative numbers of other parameters. *)
Theorem C31_numbers_partial : forall ps name z level dflt,
  (0 <= z)%Z \/ literal_key (norm_name name) ->
  param parse_int (set_param ps name (decimal z) level) (norm_name name) dflt level = z.
Proof. exact decimal_kept. Qed.
Example C31_numbers_used :
  param parse_int (set_param [] "block-size-0" "-17" 0) "BLOCK_SIZE_0" 64%Z 0 = (-17)%Z /\
  decimal (-17) = "-17" /\ literal_key (norm_name "block-size-0").
Proof. split; [reflexivity|]. split; [reflexivity|]. right. now exists "0". Qed.

(** Values without '-' and without lower case letters arrive unchanged, and so
    do all values of the block sizes. *)
Theorem C31_nonnegative_partial : forall T (parse : string -> T) ps name value level dflt,
  canonical value \/ literal_key (norm_name name) ->
  param parse (set_param ps name value level) (norm_name name) dflt level = parse value.
Proof. exact @plain_value_kept. Qed.
Example C31_nonnegative_used :
  param parse_int (set_param [] "cache-size" "42" 0) "CACHE_SIZE" 128%Z 0 = 42%Z.
Proof.
  apply (C31_nonnegative_partial Z parse_int [] "cache-size" "42" 0 128%Z).
  left. exact (norm_canonical "42").
Qed.

(** ** C32 *)
Theorem C32_storage : forall b ps ranks domains, storage_ok b ps ranks domains.
Proof. exact select_storage. Qed.
Theorem C32_mpi : forall b ps ranks domains, ranks >= 1 -> domains >= 1 ->
  wanted_storage ps <> SPass -> mpi_ok b ps ranks domains.
Proof. exact select_mpi. Qed.
(** Missing: GRID=CACHE without MPI (refuted below). *)
Theorem C32_numa_partial : forall b ps ranks domains, ranks >= 1 -> domains >= 1 ->
  wanted_storage ps = SFull \/ (wanted_storage ps = SCache /\ mpi_wanted ps ranks) ->
  numa_ok b ps ranks domains.
Proof. exact select_numa. Qed.
(** For every cache grid without MPI the decision about NUMA is wrong. *)
Theorem C32_numa_refuted : forall b ps ranks domains, ranks >= 1 -> domains >= 1 ->
  wanted_storage ps = SCache -> ~ mpi_wanted ps ranks -> ~ numa_ok b ps ranks domains.
Proof. exact select_numa_swapped. Qed.

Example C32_used :
  let ps := set_params [] [("grid", "cache", 0); ("mpi-communication", "thread", 0)] in
  level_class (init_containers (Build false false) ps 4 2) = (SCache, MPIThread, NumaExchange) /\
  level_class (init_containers (Build true false) ps 4 1) = (SCache, MPIWin, NumaNo) /\
  level_class (init_containers (Build true false) ps 1 2) = (SCache, MPINo, NumaNo) /\
  level_class (init_containers (Build true false) [] 3 2) = (SFull, MPIWin, NumaExchange) /\
  wanted_storage ps = SCache /\ wanted_storage [] = SFull.
Proof. vm_compute. repeat split. Qed.

(** ** C57 *)
Theorem C57_refuted : exists e v w, enum_value errors_cpp e = Some v /\
  enum_value errors_c e = Some w /\ v <> w.
Proof. exists "INVALID_VAR_SIZE", 12, 13. repeat split. discriminate. Qed.
(** C++ and Fortran agree on every name; C agrees with them on every name but
    INVALID_VAR_SIZE (and MULTIPLE_TOPGRIDS, which only C has). *)
Theorem C57_partial :
  (forall e, enum_value errors_cpp e = enum_value errors_f90 e) /\
  (forall e, e <> "INVALID_VAR_SIZE" -> e <> "MULTIPLE_TOPGRIDS" ->
     enum_value errors_cpp e = enum_value errors_c e).
Proof. exact error_codes. Qed.
Example C57_used : enum_value errors_c "WRONG_SIZE" = Some 10.
Proof. reflexivity. Qed.

Print Assumptions C29_level0_partial.
Print Assumptions C29_names_partial.
Print Assumptions C29_level_refuted.
Print Assumptions C29_name_refuted.
Print Assumptions C30_last_write_wins.
Print Assumptions C30_unset_keeps_default.
Print Assumptions C30_others_unaffected.
Print Assumptions C31_refuted.
Print Assumptions C31_numbers_partial.
Print Assumptions C31_nonnegative_partial.
Print Assumptions C32_storage.
Print Assumptions C32_mpi.
Print Assumptions C32_numa_partial.
Print Assumptions C32_numa_refuted.
Print Assumptions C57_refuted.
Print Assumptions C57_partial.
