(** * C74: from parameters, file and coordinates to the returned value *)
From Coq Require Import List Arith Bool ZArith Reals Lia Lra String.
From Flocq Require Import Core.Core IEEE754.BinarySingleNaN.
From Verif Require Import Base BlockedModel LevelsModel ParamModel TypesModel CoordModel CoordFacts EndModel EndFacts ParamFacts EndParamFacts.
From Coq Require Import DecimalString.
Import ListNotations.
Local Open Scope string_scope.
Local Open Scope nat_scope.

(** C74, exact arithmetic.  Every sequence of [setParam] calls, build, number
    of processes and domains, distribution, grid type, level, number of
    dimensions, regular axes, block sizes, cache size; any number of threads
    with any reads, any interleaving, any moment: the answers which a thread has
    so far are, in order, those for the cells nearest to its coordinates. *)
Theorem C74_nearest_value :
  forall (s : session exact) (us : list raxis) (prog : nat -> list ((nat -> R) * getter)) answers,
  session_ok s -> n_axes s = map ra_axis us -> Forall ra_ok us ->
  (forall ix, in_box (map (fun u => Z.to_nat (ra_n u)) us) ix -> List.length (n_cell s ix) = type_size (n_type s)) ->
  (forall t, n_threads s <= t -> prog t = []) ->
  session_run s (fun t => map at_reals (prog t)) answers ->
  forall t, exists k, Forall2 (fun r a => exists ix, nearest us (fst r) ix /\ expected (n_type s) (snd r) (n_cell s ix) a)
                        (firstn k (prog t)) (answers t).
Proof. exact nearest_answers. Qed.
Print Assumptions C74_nearest_value.

(** C74, double arithmetic: the answers are those for cells of the file (which
    ones: C21 - C23), whenever no NaN arises (C21_no_nan says when). *)
Theorem C74_double_value :
  forall (s : session ieee) (prog : nat -> list (@request ieee)) answers,
  session_ok s ->
  (forall ix, in_box (map (fun ax => Z.to_nat (x_size ax)) (n_axes s)) ix -> List.length (n_cell s ix) = type_size (n_type s)) ->
  (forall t, n_threads s <= t -> prog t = []) ->
  (forall t r, In r (prog t) -> no_nan_at s (q_pos r)) ->
  session_run s prog answers ->
  forall t, exists k, Forall2 (fun r a => exists ix, in_box (map (fun ax => Z.to_nat (x_size ax)) (n_axes s)) ix /\
                                 expected (n_type s) (q_getter r) (n_cell s ix) a)
                        (firstn k (prog t)) (answers t).
Proof. exact double_answers. Qed.
Print Assumptions C74_double_value.

(** C74, no influence of the configuration: in two grids for the same file and
    type, with any parameters, builds, numbers of processes, domains and
    threads, in any executions, the same read has the same answer. *)
Theorem C74_same_answer :
  forall (A : arith) (s1 s2 : session A) p1 p2 a1 a2,
  session_ok s1 -> session_ok s2 ->
  n_axes s1 = n_axes s2 -> (forall ix, n_cell s1 ix = n_cell s2 ix) -> n_type s1 = n_type s2 ->
  (forall t, n_threads s1 <= t -> p1 t = []) -> (forall t, n_threads s2 <= t -> p2 t = []) ->
  (forall t r, In r (p1 t) -> defined_at s1 (q_pos r)) -> (forall t r, In r (p2 t) -> defined_at s2 (q_pos r)) ->
  session_run s1 p1 a1 -> session_run s2 p2 a2 ->
  forall t1 t2 i1 i2 r x1 x2,
    nth_error (p1 t1) i1 = Some r -> nth_error (p2 t2) i2 = Some r ->
    nth_error (a1 t1) i1 = Some x1 -> nth_error (a2 t2) i2 = Some x2 -> x1 = x2.
Proof. exact @same_answers. Qed.
Print Assumptions C74_same_answer.

(** C74, the programs can be run to their end.  (With GRID = CACHE and MPI_COMMUNICATION = THREAD this
    depends on the interleaving, see C61.) *)
Theorem C74_completes :
  forall (A : arith) (s : session A) prog,
  session_ok s ->
  (forall t, n_threads s <= t -> prog t = []) ->
  (forall t r, In r (prog t) -> defined_at s (q_pos r)) ->
  exists answers, session_run s prog answers /\ forall t, List.length (answers t) = List.length (prog t).
Proof. exact @can_run. Qed.
Print Assumptions C74_completes.

(** Coordinates for which reads are defined: all of them in exact arithmetic,
    those without NaN in double arithmetic. *)
Theorem C74_defined :
  (forall (s : session exact) us p, n_axes s = map ra_axis us -> Forall ra_ok us -> @defined_at exact s (fun k => XFin (p k))) /\
  (forall (s : session ieee) (pos : nat -> num ieee), no_nan_at s pos -> @defined_at ieee s pos).
Proof. exact (conj exact_defined ieee_defined). Qed.
Print Assumptions C74_defined.

(** C74, the parameters of the calls reach [open], with these defaults. *)
Theorem C74_parameters : forall (A : arith) (s : session A),
  (unset (n_calls s) "CACHE_SIZE" (n_level s) -> cache_size s = 128) /\
  (forall z, (0 <= z)%Z -> set_to (n_calls s) "CACHE_SIZE" (n_level s) (decimal z) -> cache_size s = Z.to_nat z) /\
  (unset (n_calls s) "CACHE_HAND_SPREAD" (n_level s) -> hand_spread s = (-1)%Z) /\
  (forall z, (0 <= z)%Z -> set_to (n_calls s) "CACHE_HAND_SPREAD" (n_level s) (decimal z) -> hand_spread s = z) /\
  (unset (n_calls s) "TIME_DIMENSION" 0 -> time_dim s = (-1)%Z) /\
  (forall z, (0 <= z)%Z -> set_to (n_calls s) "TIME_DIMENSION" 0 (decimal z) -> time_dim s = z) /\
  (forall i, unset (n_calls s) ("BLOCK_SIZE_" ++ NilZero.string_of_uint (Nat.to_uint i)) (n_level s) -> block_size s i = 0%Z) /\
  (forall i z, set_to (n_calls s) ("BLOCK_SIZE_" ++ NilZero.string_of_uint (Nat.to_uint i)) (n_level s) (decimal z) -> block_size s i = z) /\
  (unset (n_calls s) "VALUE_POSITION" 0 -> value_position s = CellCentered) /\
  (forall v, set_to (n_calls s) "VALUE_POSITION" 0 v -> (value_position s = VertexCentered <-> same_spelling v "VERTEX_CENTERED")).
Proof. exact arrive. Qed.
Print Assumptions C74_parameters.

Example C74_parameters_used :
  let calls := [("cache-size", "5", 1); ("Cache_Size", "7", 1); ("CACHE_SIZE", "9", 0); ("value-position", "Vertex-Centered", 0)] in
  set_to calls "CACHE_SIZE" 1 (decimal 7) /\ unset calls "CACHE_HAND_SPREAD" 1 /\ set_to calls "VALUE_POSITION" 0 "Vertex-Centered" /\
  same_spelling "Vertex-Centered" "VERTEX_CENTERED".
Proof.
  assert (V : forall n v l key level, canonical key -> (level =? l) && String.eqb key (ParamModel.norm_name n) = false -> ~ writes (n, v, l) key level)
    by (intros n v l key level C E W; apply writes_iff in W; [congruence|exact C]).
  intros calls. split; [|split; [|split]].
  - exists [("cache-size", "5", 1)], "Cache_Size", [("CACHE_SIZE", "9", 0); ("value-position", "Vertex-Centered", 0)]. split; [reflexivity|].
    split; [apply same_spelling_norm; reflexivity|]. intros c [<-|[<-|[]]]; apply V; try reflexivity; apply key_canonical; reflexivity.
  - intros c [<-|[<-|[<-|[<-|[]]]]]; apply V; try reflexivity; apply key_canonical; reflexivity.
  - exists [("cache-size", "5", 1); ("Cache_Size", "7", 1); ("CACHE_SIZE", "9", 0)], "value-position", []. split; [reflexivity|].
    split; [apply same_spelling_norm; reflexivity|]. intros c [].
  - apply same_spelling_norm. reflexivity.
Qed.

(** ** Examples: a file with 4 x 3 cells of type int *)
Definition e_cell (ix : list nat) : list Z := le_bytes 4 (Z.of_nat (10 * nth 0 ix 0 + nth 1 ix 0)).
Definition e_axes : list (axis ieee) := [@Axis ieee 4 None; @Axis ieee 3 (Some (fun k => fnum (2 * k + 1) 0))].
Definition e_session (calls : list set_call) (P D : nat) : session ieee :=
  @Session ieee (Build false false) calls P D 2 (fun t => t mod P) (fun t => t mod D) RoundRobin (new_grid INT false) 0 e_axes e_cell.
Definition e_prog (t : nat) : list (@request ieee) :=
  if t <? 2 then [@Request ieee (fun k => match k with 0 => fnum 4 0 | _ => fnum 2 0 end) (GetScalar Double);
                  @Request ieee (fun k => fnum 1 0) (GetBuf 4)] else [].

(** The strings of the calls select the level class; the parameters of the level arrive. *)
Example C74_classes :
  class_ (e_session [("grid", "cache", 0); ("mpi-communication", "off", 0)] 2 2) = (SCache, MPINo, NumaNo) /\
  class_ (e_session [("grid", "cache", 0); ("cache-size", "3", 0)] 2 2) = (SCache, MPIWin, NumaExchange) /\
  class_ (e_session [("GRID", "pass-through", 0)] 2 2) = (SPass, MPINo, NumaNo) /\
  class_ (e_session [("NUMA_COMMUNICATION", "off", 0); ("MPI_COMMUNICATION", "THREAD", 0)] 2 2) = (SFull, MPIThread, NumaNo) /\
  class_ (e_session [] 1 1) = (SFull, MPINo, NumaNo) /\
  cache_size (e_session [("grid", "cache", 0); ("cache-size", "3", 0)] 2 2) = 3 /\
  block_size (e_session [("block_size_1", "2", 0)] 2 2) 1 = 2%Z /\
  domains (e_session [("NUMA_COMMUNICATION", "off", 0)] 2 2) = 1.
Proof. repeat split. Qed.

Lemma e_ok calls P D : 0 < P -> 0 < D ->
  0 < cache_size (e_session calls P D) -> (hand_spread (e_session calls P D) < Z.of_nat (cache_size (e_session calls P D)))%Z ->
  session_ok (e_session calls P D).
Proof.
  intros HP HD Hn Hs. split; [discriminate|]. split; [repeat constructor; cbn; lia|]. split; auto. split; auto.
  split; intros t; cbn; apply Nat.mod_upper_bound; lia.
Qed.

Lemma e_no_nan calls P D t r : In r (e_prog t) -> no_nan_at (e_session calls P D) (q_pos r).
Proof.
  unfold e_prog. destruct (t <? 2); [|intros []].
  intros [<-|[<-|[]]]; intros [|[|[|i]]] ax Hi; cbn in Hi; try discriminate Hi; inversion Hi; subst;
    (split; [cbn; lia|vm_compute; reflexivity]).
Qed.

Example C74_example :
  let s := e_session [("grid", "cache", 0); ("cache-size", "3", 0)] 2 2 in
  session_ok s /\ (forall ix, List.length (n_cell s ix) = type_size (n_type s)) /\
  index_of s (q_pos (nth 0 (e_prog 0) (@Request ieee (fun _ => fnum 0 0) (GetBuf 0)))) (fun _ => 0%Z) = Ok [2; 2] /\
  exists answers, session_run s e_prog answers /\ forall t, List.length (answers t) = List.length (e_prog t).
Proof.
  intros s. assert (session_ok s) as Hs by (apply e_ok; [lia|lia|vm_compute; lia|vm_compute; reflexivity]).
  split; [exact Hs|]. split; [reflexivity|]. split; [vm_compute; reflexivity|].
  apply C74_completes; [exact Hs| |].
  - intros t Ht. unfold e_prog. destruct (Nat.ltb_spec t 2); [cbn in Ht; lia|reflexivity].
  - intros t r Hr. apply ieee_defined, (e_no_nan _ _ _ t r Hr).
Qed.

(** The expected answers for the cell [2, 2]: 22.0 for [getDouble], four bytes for [getBuf]. *)
Example C74_answers :
  (exists f, expected (new_grid INT false) (GetScalar Double) (e_cell [2; 2]) (AScalar (Ok (VD f))) /\
             Beqb f (fnum 22 0) = true) /\
  expected (new_grid INT false) (GetScalar UChar) (e_cell [2; 2]) (AScalar (Ok (VI 22))) /\
  expected (new_grid INT false) (GetBuf 5) (e_cell [2; 2]) (ABuf (Ok [Some 22; Some 0; Some 0; Some 0; None]%Z)).
Proof.
  split; [|split; intros _; vm_compute; reflexivity].
  exists (z_f64 22). split; [intros _; reflexivity|vm_compute; reflexivity].
Qed.

Example C74_exact_example :
  let us := [RAxis 4 10 (-2) true; RAxis 7 0 1 false] in
  let s := @Session exact (Build true false) [("GRID", "CACHE", 0)] 3 2 5 (fun t => t mod 3) (fun t => t mod 2) Contiguous
             (new_grid DOUBLE false) 0 (map ra_axis us) (fun _ => repeat 0%Z 8) in
  session_ok s /\ Forall ra_ok us /\ nearest us (fun k => match k with 0 => 2.3 | _ => 3.2 end)%R [3; 2].
Proof.
  intros us s. split; [|split].
  - split; [discriminate|]. split; [repeat constructor; cbn; lia|]. split; [vm_compute; lia|]. split; [vm_compute; reflexivity|].
    split; intros t; cbn -[Nat.modulo]; apply Nat.mod_upper_bound; lia.
  - constructor; [| constructor; [| constructor]]; unfold ra_ok, size_max; cbn;
      split; [lia | split; [lra | intros; discriminate] | lia | split; [lra | intros; lra]].
  - split; [reflexivity|]. intros [|[|i]] u x Hu Hx; cbn in Hu, Hx; inversion Hu; inversion Hx; subst.
    + split; [cbn; lia|]. intros j Hj. cbn in Hj |- *. unfold centre; cbn.
      assert (j = 0 \/ j = 1 \/ j = 2 \/ j = 3)%Z as [-> | [-> | [-> | ->]]] by lia; cbn;
        unfold Rabs; repeat destruct Rcase_abs; lra.
    + split; [cbn; lia|]. intros j Hj. cbn in Hj |- *. unfold centre; cbn.
      assert (j = 0 \/ j = 1 \/ j = 2 \/ j = 3 \/ j = 4 \/ j = 5 \/ j = 6)%Z as [-> | [-> | [-> | [-> | [-> | [-> | ->]]]]]] by lia; cbn;
        unfold Rabs; repeat destruct Rcase_abs; lra.
    + destruct i; discriminate.
Qed.
