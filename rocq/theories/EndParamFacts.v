(** * Which parameter values reach [open] *)
From Coq Require Import List Arith Bool ZArith Lia String DecimalString.
From Verif Require Import Base ParamModel ParamFacts CoordModel EndModel.
Import ListNotations.
Local Open Scope string_scope.

(** The calls of [setParam] do not mention a parameter of a level; the last one that does gives the value [v]. *)
Definition unset (calls : list set_call) (key : string) (level : nat) : Prop := forall c, In c calls -> ~ writes c key level.
Definition set_to (calls : list set_call) (key : string) (level : nat) (v : string) : Prop :=
  exists before name after, calls = (before ++ (name, v, level) :: after)%list /\ same_spelling name key /\ unset after key level.

Lemma nonneg_canonical : forall z, (0 <= z)%Z -> canonical (decimal z).
Proof.
  intros z H. unfold decimal. destruct z as [|p|p]; [| |lia]; cbn [Z.to_int NilZero.string_of_int]; rewrite <- digits_norm; apply norm_canonical.
Qed.
Lemma set_value : forall T (parse : string -> T) calls key level v dflt, canonical key -> set_to calls key level v ->
  param parse (set_params [] calls) key dflt level = parse (norm_value key v).
Proof.
  intros T parse calls key level v dflt C (b & n & a & -> & S & U). unfold param. rewrite last_write by assumption. reflexivity.
Qed.
Lemma number_set : forall calls key level z dflt, canonical key -> set_to calls key level (decimal z) -> (0 <= z)%Z \/ literal_key key ->
  param parse_int (set_params [] calls) key dflt level = z.
Proof.
  intros calls key level z dflt C S H. rewrite (set_value _ _ _ _ _ _ _ C S).
  assert (norm_value key (decimal z) = decimal z) as ->; [|apply parse_decimal].
  destruct H as [H|H]; [|apply norm_value_literal; exact H]. unfold norm_value. destruct (_ && _); [|reflexivity].
  apply canonical_norm. apply nonneg_canonical. exact H.
Qed.
Lemma key_canonical : forall s, norm_name s = s -> canonical s.
Proof. intros s <-. apply norm_canonical. Qed.
Lemma block_key : forall i, canonical ("BLOCK_SIZE_" ++ NilZero.string_of_uint (Nat.to_uint i)).
Proof.
  intros i. apply key_canonical. pose proof (digits_norm (Nat.to_uint i)) as H. unfold norm_name in *. cbn. rewrite H. reflexivity.
Qed.

Lemma arrive : forall (A : arith) (s : session A),
  (unset (n_calls s) "CACHE_SIZE" (n_level s) -> cache_size s = 128) /\
  (forall z, (0 <= z)%Z -> set_to (n_calls s) "CACHE_SIZE" (n_level s) (decimal z) -> cache_size s = Z.to_nat z) /\
  (unset (n_calls s) "CACHE_HAND_SPREAD" (n_level s) -> hand_spread s = (-1)%Z) /\
  (forall z, (0 <= z)%Z -> set_to (n_calls s) "CACHE_HAND_SPREAD" (n_level s) (decimal z) -> hand_spread s = z) /\
  (unset (n_calls s) "TIME_DIMENSION" 0 -> time_dim s = (-1)%Z) /\
  (forall z, (0 <= z)%Z -> set_to (n_calls s) "TIME_DIMENSION" 0 (decimal z) -> time_dim s = z) /\
  (forall i, unset (n_calls s) ("BLOCK_SIZE_" ++ NilZero.string_of_uint (Nat.to_uint i)) (n_level s) -> block_size s i = 0%Z) /\
  (forall i z, set_to (n_calls s) ("BLOCK_SIZE_" ++ NilZero.string_of_uint (Nat.to_uint i)) (n_level s) (decimal z) -> block_size s i = z) /\
  (unset (n_calls s) "VALUE_POSITION" 0 -> value_position s = CellCentered) /\
  (forall v, set_to (n_calls s) "VALUE_POSITION" 0 v -> (value_position s = VertexCentered <-> same_spelling v "VERTEX_CENTERED")).
Proof.
  intros A s. unfold cache_size, hand_spread, time_dim, block_size, value_position, stored.
  assert (C1 : canonical "CACHE_SIZE") by (apply key_canonical; reflexivity).
  assert (C2 : canonical "CACHE_HAND_SPREAD") by (apply key_canonical; reflexivity).
  assert (C3 : canonical "TIME_DIMENSION") by (apply key_canonical; reflexivity).
  assert (C4 : canonical "VALUE_POSITION") by (apply key_canonical; reflexivity).
  assert (C5 : canonical "VERTEX_CENTERED") by (apply key_canonical; reflexivity).
  assert (K : ~ literal_key "VALUE_POSITION") by (intros [E|[i E]]; discriminate E).
  split; [intros U; rewrite (unset_default _ _ _ _ _ C1 U); reflexivity|].
  split; [intros z Z S; rewrite (number_set _ _ _ _ _ C1 S (or_introl Z)); reflexivity|].
  split; [intros U; exact (unset_default _ _ _ _ _ C2 U)|].
  split; [intros z Z S; exact (number_set _ _ _ _ _ C2 S (or_introl Z))|].
  split; [intros U; exact (unset_default _ _ _ _ _ C3 U)|].
  split; [intros z Z S; exact (number_set _ _ _ _ _ C3 S (or_introl Z))|].
  split; [intros i U; exact (unset_default _ _ _ _ _ (block_key i) U)|].
  split; [intros i z S; apply (number_set _ _ _ _ _ (block_key i) S); right; right; eauto|].
  split; [intros U; rewrite (unset_default _ _ _ _ _ C4 U); reflexivity|].
  intros v S. rewrite (set_value _ _ _ _ _ _ _ C4 S), norm_value_other by exact K. rewrite same_spelling_norm, (canonical_norm _ C5).
  destruct (String.eqb (norm_name v) "VERTEX_CENTERED") eqn:E.
  - apply String.eqb_eq in E. tauto.
  - apply String.eqb_neq in E. split; [discriminate|contradiction].
Qed.
