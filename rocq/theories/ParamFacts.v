(** * Facts about parameters, selection, counters and error codes *)
From Coq Require Import List Arith Bool ZArith Ascii String Lia DecimalString DecimalZ.
From Verif Require Import Base LevelsModel ParamModel.
Import ListNotations.
Local Open Scope string_scope.
Local Open Scope nat_scope.

(** ** Specification: spelling *)
Definition is_dash (c : ascii) : Prop := c = "-"%char \/ c = "_"%char.
(** Two characters that the documentation does not distinguish. *)
Definition same_char (a b : ascii) : Prop :=
  a = b
  \/ (is_dash a /\ is_dash b)
  \/ exists k, k < 26 /\ (  (nat_of_ascii a = 65 + k /\ nat_of_ascii b = 97 + k)
                          \/ (nat_of_ascii a = 97 + k /\ nat_of_ascii b = 65 + k)).
Inductive same_spelling : string -> string -> Prop :=
| same_nil : same_spelling "" ""
| same_cons a b r s : same_char a b -> same_spelling r s -> same_spelling (String a r) (String b s).
(** A canonical spelling, as used inside the library ("GRID", "CACHE_SIZE"). *)
Definition canonical (s : string) : Prop :=
  forall i c, String.get i s = Some c -> c <> "-"%char /\ ~ (97 <= nat_of_ascii c <= 122).
(** Parameters whose values are taken literally. *)
Definition literal_key (k : string) : Prop := k = "VARIABLE" \/ exists i, k = "BLOCK_SIZE_" ++ i.

(** The call changes parameter [key] of level [level]. *)
Definition writes (c : set_call) (key : string) (level : nat) : Prop :=
  match c with (n, _, l) => same_spelling n key /\ l = level end.

(** ** Characters *)
Definition norm_char (c : ascii) : ascii := dash_char (up_char c).

Lemma nat_ascii_lt c : nat_of_ascii c < 256.
Proof. apply nat_ascii_bounded. Qed.

Lemma nat_ascii_inj a b : nat_of_ascii a = nat_of_ascii b -> a = b.
Proof. intros H. rewrite <- (ascii_nat_embedding a), <- (ascii_nat_embedding b), H. reflexivity. Qed.

Definition norm_code (n : nat) : nat :=
  if (97 <=? n) && (n <=? 122) then n - 32 else if n =? 45 then 95 else n.

Lemma norm_char_code c : nat_of_ascii (norm_char c) = norm_code (nat_of_ascii c).
Proof.
  unfold norm_char, norm_code, up_char, is_lower.
  pose proof (nat_ascii_lt c) as L.
  destruct ((97 <=? nat_of_ascii c) && (nat_of_ascii c <=? 122)) eqn:E.
  - apply andb_true_iff in E as [E1 E2]. apply Nat.leb_le in E1, E2.
    unfold dash_char.
    destruct (Ascii.eqb _ _) eqn:F.
    + apply Ascii.eqb_eq in F. apply (f_equal nat_of_ascii) in F.
      rewrite nat_ascii_embedding in F by lia. change (nat_of_ascii "-") with 45 in F. lia.
    + rewrite nat_ascii_embedding by lia. reflexivity.
  - unfold dash_char. destruct (Ascii.eqb c "-") eqn:F.
    + apply Ascii.eqb_eq in F. subst c. reflexivity.
    + destruct (nat_of_ascii c =? 45) eqn:G; [|reflexivity].
      apply Nat.eqb_eq in G. apply Ascii.eqb_neq in F. exfalso. apply F.
      apply nat_ascii_inj. exact G.
Qed.

Lemma norm_code_spec n : (97 <= n <= 122 /\ norm_code n = n - 32)
  \/ (n = 45 /\ norm_code n = 95) \/ (~ 97 <= n <= 122 /\ n <> 45 /\ norm_code n = n).
Proof.
  unfold norm_code.
  destruct (Nat.leb_spec 97 n); destruct (Nat.leb_spec n 122); cbn [andb];
  destruct (Nat.eqb_spec n 45); lia.
Qed.

Lemma same_char_norm a b : same_char a b <-> norm_char a = norm_char b.
Proof.
  assert (Q : norm_char a = norm_char b <-> norm_code (nat_of_ascii a) = norm_code (nat_of_ascii b)).
  { rewrite <- !norm_char_code. split; [congruence|apply nat_ascii_inj]. }
  rewrite Q. clear Q. unfold same_char, is_dash.
  pose proof (norm_code_spec (nat_of_ascii a)) as A.
  pose proof (norm_code_spec (nat_of_ascii b)) as B.
  assert (D : forall c, c = "-"%char <-> nat_of_ascii c = 45).
  { intros c; split; [intros ->; reflexivity|]. intros H; apply nat_ascii_inj; exact H. }
  assert (U : forall c, c = "_"%char <-> nat_of_ascii c = 95).
  { intros c; split; [intros ->; reflexivity|]. intros H; apply nat_ascii_inj; exact H. }
  rewrite !D, !U.
  assert (E : a = b <-> nat_of_ascii a = nat_of_ascii b).
  { split; [congruence|apply nat_ascii_inj]. }
  rewrite E. clear D U E.
  generalize dependent (nat_of_ascii a). intros x A. generalize dependent (nat_of_ascii b). intros y B.
  split.
  - intros [H|[[H1 H2]|(k & K & H)]]; [rewrite H; reflexivity|lia|].
    destruct H as [[H1 H2]|[H1 H2]]; lia.
  - intros H.
    destruct A as [[A1 A2]|[[A1 A2]|[A1 [A2 A3]]]]; destruct B as [[B1 B2]|[[B1 B2]|[B1 [B2 B3]]]];
      try (left; lia); try (right; left; lia).
    + right; right. exists (x - 97). lia.
    + right; right. exists (y - 97). lia.
Qed.

Lemma norm_map s : norm_name s = map_string norm_char s.
Proof.
  unfold norm_name, dashes, to_upper. induction s; cbn; [reflexivity|]. rewrite IHs. reflexivity.
Qed.

Lemma same_spelling_norm a b : same_spelling a b <-> norm_name a = norm_name b.
Proof.
  rewrite !norm_map. split.
  - induction 1; cbn; [reflexivity|]. apply same_char_norm in H. congruence.
  - revert b; induction a as [|x a IH]; intros [|y b]; cbn; intros H; try discriminate H.
    + constructor.
    + constructor.
      * apply same_char_norm. congruence.
      * apply IH. congruence.
Qed.

Lemma canonical_cons c s : canonical (String c s) ->
  (c <> "-"%char /\ ~ (97 <= nat_of_ascii c <= 122)) /\ canonical s.
Proof.
  intros H. split; [apply (H 0); reflexivity|]. intros i d G. apply (H (S i)). exact G.
Qed.

Lemma canonical_norm s : canonical s -> norm_name s = s.
Proof.
  rewrite norm_map. induction s as [|c s IH]; intros C; [reflexivity|].
  apply canonical_cons in C as [[C1 C2] C3]. cbn. rewrite (IH C3). f_equal.
  apply nat_ascii_inj. rewrite norm_char_code.
  destruct (norm_code_spec (nat_of_ascii c)) as [A|[[A _]|A]]; [lia| |lia].
  exfalso; apply C1. apply nat_ascii_inj. exact A.
Qed.

Lemma norm_canonical s : canonical (norm_name s).
Proof.
  rewrite norm_map. induction s as [|a s IH]; intros i c G; [destruct i; discriminate G|].
  destruct i as [|i]; cbn in G.
  - injection G as <-.
    pose proof (norm_code_spec (nat_of_ascii a)) as A. rewrite <- norm_char_code in A.
    pose proof (nat_ascii_lt a). pose proof (nat_ascii_lt (norm_char a)).
    split; [|lia]. intros E. rewrite E in A. change (nat_of_ascii "-") with 45 in A. lia.
  - apply (IH i). exact G.
Qed.

Lemma canonical_dec s : {canonical s} + {~ canonical s}.
Proof.
  destruct (string_dec (norm_name s) s) as [E|E].
  - left. rewrite <- E. apply norm_canonical.
  - right. intros C. apply E. apply canonical_norm; exact C.
Qed.

(** ** The store *)
Lemma set_nth_length {A} (l : list A) i x : List.length (set_nth l i x) = List.length l.
Proof. revert i; induction l; intros [|i]; cbn; auto. Qed.

Lemma set_nth_same {A} (l : list A) i x : i < List.length l -> nth_error (set_nth l i x) i = Some x.
Proof. revert i; induction l; intros [|i] H; cbn in *; try lia; auto. apply IHl; lia. Qed.

Lemma set_nth_other {A} (l : list A) i j x : i <> j -> nth_error (set_nth l i x) j = nth_error l j.
Proof. revert i j; induction l; intros [|i] [|j] H; cbn; auto; try lia. Qed.

Lemma resize_length ps level : level < List.length (resize ps level).
Proof.
  unfold resize. destruct (Nat.leb_spec (List.length ps) level).
  - rewrite app_length, repeat_length. lia.
  - lia.
Qed.

Lemma nth_error_repeat {A} (a : A) n i : i < n -> nth_error (repeat a n) i = Some a.
Proof. revert i; induction n; intros [|i] H; cbn; try lia; auto. apply IHn; lia. Qed.

(** Growing the vector changes no lookup. *)
Lemma resize_raw ps level k l : param_raw (resize ps level) k l = param_raw ps k l.
Proof.
  unfold param_raw, resize. destruct (Nat.leb_spec (List.length ps) level) as [H|H]; [|reflexivity].
  destruct (Nat.lt_ge_cases l (List.length ps)) as [L|L].
  - rewrite nth_error_app1 by exact L. reflexivity.
  - rewrite nth_error_app2 by exact L.
    replace (nth_error ps l) with (@None pmap) by (symmetry; apply nth_error_None; exact L).
    destruct (Nat.lt_ge_cases (l - List.length ps) (level + 1 - List.length ps)) as [M|M].
    + rewrite nth_error_repeat by exact M. reflexivity.
    + rewrite (proj2 (nth_error_None _ _)); [reflexivity|]. rewrite repeat_length. exact M.
Qed.

Lemma set_param_raw ps name value level k l :
  param_raw (set_param ps name value level) k l =
    if (l =? level) && String.eqb k (norm_name name) then Some (norm_value (norm_name name) value)
    else param_raw ps k l.
Proof.
  unfold set_param. set (ps1 := resize ps level).
  pose proof (resize_length ps level) as L. fold ps1 in L.
  assert (R : forall k l, param_raw ps1 k l = param_raw ps k l) by (intros; apply resize_raw).
  rewrite <- R. unfold param_raw at 1.
  destruct (Nat.eqb_spec l level) as [->|N]; cbn [andb].
  - rewrite set_nth_same by exact L. unfold pmap_set.
    destruct (String.eqb k (norm_name name)); [reflexivity|].
    unfold param_raw. rewrite (nth_error_nth' ps1 pmap0 L). reflexivity.
  - rewrite set_nth_other by congruence. reflexivity.
Qed.

Lemma set_params_app ps c1 c2 : set_params ps (app c1 c2) = set_params (set_params ps c1) c2.
Proof. unfold set_params. apply fold_left_app. Qed.

Lemma writes_iff n v l key level : canonical key ->
  writes (n, v, l) key level <-> ((level =? l) && String.eqb key (norm_name n) = true)%bool.
Proof.
  intros C. cbn. rewrite same_spelling_norm, (canonical_norm key C).
  rewrite andb_true_iff, Nat.eqb_eq, String.eqb_eq. intuition congruence.
Qed.

Lemma set_params_unwritten calls : forall ps key level, canonical key ->
  (forall c, In c calls -> ~ writes c key level) ->
  param_raw (set_params ps calls) key level = param_raw ps key level.
Proof.
  induction calls as [|[[n v] l] r IH]; intros ps key level C H; [reflexivity|].
  cbn. fold (set_params (set_param ps n v l) r). rewrite IH; [|exact C|].
  - rewrite set_param_raw. destruct ((level =? l) && String.eqb key (norm_name n)) eqn:E; [|reflexivity].
    exfalso. apply (H (n, v, l)); [left; reflexivity|]. apply writes_iff; assumption.
  - intros c I. apply H. right; exact I.
Qed.

Lemma starts_with_app p i : starts_with (p ++ i) p = true.
Proof. induction p; cbn; [destruct i; reflexivity|]. rewrite Ascii.eqb_refl. exact IHp. Qed.

Lemma starts_with_inv p : forall s, starts_with s p = true -> exists i, s = p ++ i.
Proof.
  induction p as [|a p IH]; intros s H.
  - exists s. reflexivity.
  - destruct s as [|b s]; [discriminate H|]. cbn in H.
    apply andb_true_iff in H as [H1 H2]. apply Ascii.eqb_eq in H1. subst b.
    destruct (IH s H2) as [i ->]. exists i. reflexivity.
Qed.

Lemma norm_value_literal key v : literal_key key -> norm_value key v = v.
Proof.
  intros [->|[i ->]]; unfold norm_value.
  - reflexivity.
  - rewrite starts_with_app, andb_false_r. reflexivity.
Qed.

Lemma norm_value_other key v : ~ literal_key key -> norm_value key v = norm_name v.
Proof.
  intros N. unfold norm_value.
  destruct (String.eqb_spec key "VARIABLE") as [E|E]; [exfalso; apply N; left; exact E|].
  destruct (starts_with key "BLOCK_SIZE_") eqn:S; [|reflexivity].
  exfalso. apply N. right. apply starts_with_inv; exact S.
Qed.

Lemma last_write calls1 name value level calls2 key : canonical key -> same_spelling name key ->
  (forall c, In c calls2 -> ~ writes c key level) ->
  param_raw (set_params [] (app calls1 ((name, value, level) :: calls2))) key level =
  Some (norm_value key value).
Proof.
  intros C S H. rewrite set_params_app. cbn.
  fold (set_params (set_param (set_params [] calls1) name value level) calls2).
  rewrite set_params_unwritten by assumption. rewrite set_param_raw.
  assert (E : key = norm_name name).
  { rewrite <- (canonical_norm key C). symmetry. apply same_spelling_norm; exact S. }
  rewrite <- E, Nat.eqb_refl, String.eqb_refl. reflexivity.
Qed.

Lemma last_write_value {T} (parse : string -> T) calls1 name value level calls2 key dflt :
  canonical key -> same_spelling name key ->
  (forall c, In c calls2 -> ~ writes c key level) ->
  exists v, param parse (set_params [] (app calls1 ((name, value, level) :: calls2))) key dflt level = parse v /\
    (literal_key key -> v = value) /\
    (~ literal_key key -> same_spelling v value /\ canonical v).
Proof.
  intros C S H. exists (norm_value key value). split.
  - unfold param. rewrite last_write by assumption. reflexivity.
  - split; intros K.
    + apply norm_value_literal; exact K.
    + rewrite norm_value_other by exact K. split; [|apply norm_canonical].
      apply same_spelling_norm. apply canonical_norm. apply norm_canonical.
Qed.

Lemma unset_default {T} (parse : string -> T) calls key dflt level : canonical key ->
  (forall c, In c calls -> ~ writes c key level) ->
  param parse (set_params [] calls) key dflt level = dflt.
Proof.
  intros C H. unfold param. rewrite set_params_unwritten by assumption.
  unfold param_raw. destruct level; reflexivity.
Qed.

Lemma others_unaffected {T} (parse : string -> T) ps name value l key dflt level : canonical key ->
  ~ (same_spelling name key /\ l = level) ->
  param parse (set_param ps name value l) key dflt level = param parse ps key dflt level.
Proof.
  intros C N. unfold param. rewrite set_param_raw.
  destruct ((level =? l) && String.eqb key (norm_name name)) eqn:E; [|reflexivity].
  exfalso. apply N. change (writes (name, value, l) key level). apply writes_iff; assumption.
Qed.

(** ** Negative values *)
Lemma negative_lost ps name value level dflt : ~ literal_key (norm_name name) ->
  param parse_int (set_param ps name ("-" ++ value) level) (norm_name name) dflt level = 0%Z.
Proof.
  intros N. unfold param. rewrite set_param_raw, Nat.eqb_refl, String.eqb_refl.
  cbn [andb]. rewrite norm_value_other by exact N. reflexivity.
Qed.

Lemma plain_value_kept {T} (parse : string -> T) ps name value level dflt :
  canonical value \/ literal_key (norm_name name) ->
  param parse (set_param ps name value level) (norm_name name) dflt level = parse value.
Proof.
  intros H. unfold param. rewrite set_param_raw, Nat.eqb_refl, String.eqb_refl. cbn [andb].
  f_equal. destruct H as [H|H].
  - unfold norm_value. destruct (_ && _); [apply canonical_norm; exact H|reflexivity].
  - apply norm_value_literal; exact H.
Qed.

(** ** Numbers *)
(** Decimal notation of a number, from the standard library. *)
Definition decimal (z : Z) : string := DecimalString.NilZero.string_of_int (Z.to_int z).

Lemma digits_acc u acc : parse_digits (Zpos acc) (DecimalString.NilEmpty.string_of_uint u) = Zpos (Pos.of_uint_acc u acc).
Proof.
  revert acc. induction u; intros acc; cbn [DecimalString.NilEmpty.string_of_uint parse_digits Pos.of_uint_acc]; auto;
    rewrite <- IHu; 
    match goal with |- context [digit ?c] => let d := eval vm_compute in (digit c) in change (digit c) with d end;
    cbn iota; f_equal; lia.
Qed.
Lemma digits_uint u : parse_digits 0 (DecimalString.NilEmpty.string_of_uint u) = Z.of_uint u.
Proof.
  unfold Z.of_uint. induction u; cbn [DecimalString.NilEmpty.string_of_uint parse_digits Pos.of_uint]; auto;
    unfold digit; cbn -[parse_digits DecimalString.NilEmpty.string_of_uint Pos.of_uint]; try apply digits_acc; exact IHu.
Qed.
Lemma digits_zero u : parse_digits 0 (DecimalString.NilZero.string_of_uint u) = Z.of_uint u.
Proof. destruct u; [reflexivity|..]; apply digits_uint. Qed.
Lemma first_digit u : exists c s, DecimalString.NilZero.string_of_uint u = String c s /\ digit c <> None.
Proof. destruct u; cbn; do 2 eexists; (split; [reflexivity|]); discriminate. Qed.

Lemma parse_decimal z : parse_int (decimal z) = z.
Proof.
  unfold decimal. rewrite <- (DecimalZ.of_to z) at 2. destruct (Z.to_int z) as [u|u].
  - cbn [DecimalString.NilZero.string_of_int Z.of_int]. rewrite <- digits_zero.
    destruct (first_digit u) as (c & r & -> & Hc). unfold parse_int.
    destruct c as [[] [] [] [] [] [] [] []]; try reflexivity; now destruct Hc.
  - cbn [DecimalString.NilZero.string_of_int Z.of_int parse_int]. now rewrite digits_zero.
Qed.

Lemma digits_norm u : norm_name (DecimalString.NilZero.string_of_uint u) = DecimalString.NilZero.string_of_uint u.
Proof.
  assert (forall v, norm_name (DecimalString.NilEmpty.string_of_uint v) = DecimalString.NilEmpty.string_of_uint v) as H.
  { unfold norm_name. induction v; cbn in *; auto; now rewrite IHv. }
  destruct u; [reflexivity|..]; apply (H (_ u)).
Qed.
Lemma decimal_kept ps name z level dflt : (0 <= z)%Z \/ literal_key (norm_name name) ->
  param parse_int (set_param ps name (decimal z) level) (norm_name name) dflt level = z.
Proof.
  intros H. rewrite (plain_value_kept parse_int); [apply parse_decimal|].
  destruct H as [H|H]; auto. left. unfold decimal. destruct z as [|p|p]; [| |lia];
  cbn [Z.to_int DecimalString.NilZero.string_of_int]; rewrite <- digits_norm; apply norm_canonical.
Qed.
Lemma decimal_lost ps name z level dflt : (z < 0)%Z -> ~ literal_key (norm_name name) ->
  param parse_int (set_param ps name (decimal z) level) (norm_name name) dflt level = 0%Z.
Proof. intros Hz H. unfold decimal. destruct z as [|p|p]; try lia. cbn [Z.to_int DecimalString.NilZero.string_of_int]. now apply (negative_lost ps name). Qed.

(** ** Selection *)
(** What the user asked for, read off the parameters of level 0. *)
Definition asked (ps : params) (key dflt : string) : string :=
  match param_raw ps key 0 with Some v => v | None => dflt end.
Definition mpi_wanted (ps : params) (ranks : nat) : Prop :=
  asked ps "MPI_COMMUNICATION" "WINDOW" <> "OFF" /\ ranks > 1.
Definition numa_wanted (b : build) (ps : params) (domains : nat) : Prop :=
  asked ps "NUMA_COMMUNICATION" (if b_nonuma b then "OFF" else "ON") <> "OFF" /\ domains > 1.
Definition wanted_storage (ps : params) : storage :=
  let g := asked ps "GRID" "FULL" in
  if String.eqb g "CACHE" then SCache else if String.eqb g "PASS_THROUGH" then SPass else SFull.

(** What the documentation promises about the chosen class. *)
Definition storage_ok (b : build) ps ranks domains : Prop :=
  fst (fst (level_class (init_containers b ps ranks domains))) = wanted_storage ps.
Definition mpi_ok (b : build) ps ranks domains : Prop :=
  let m := snd (fst (level_class (init_containers b ps ranks domains))) in
  (m <> MPINo <-> mpi_wanted ps ranks) /\
  (m = MPIThread <-> mpi_wanted ps ranks /\ b_threadsafe_mpi b = false /\
                     asked ps "MPI_COMMUNICATION" "WINDOW" = "THREAD").
Definition numa_ok (b : build) ps ranks domains : Prop :=
  let n := snd (level_class (init_containers b ps ranks domains)) in
  n <> NumaNo <-> numa_wanted b ps domains.

Lemma select_storage b ps ranks domains : storage_ok b ps ranks domains.
Proof.
  unfold storage_ok, init_containers, wanted_storage, select.
  change (param (fun s => s) ps "GRID" "FULL" 0) with (asked ps "GRID" "FULL").
  destruct (String.eqb (asked ps "GRID" "FULL") "CACHE");
  destruct (String.eqb (sel_mpi b ps ranks) "OFF"), (String.eqb (sel_numa b ps domains) "OFF"),
    (String.eqb (sel_mpi b ps ranks) "THREAD"); try reflexivity;
  destruct (String.eqb (asked ps "GRID" "FULL") "PASS_THROUGH"); try reflexivity;
  destruct (String.eqb (sel_numa b ps domains) "CACHE"); reflexivity.
Qed.

Lemma sel_mpi_off b ps ranks : ranks >= 1 ->
  (sel_mpi b ps ranks = "OFF" <-> ~ mpi_wanted ps ranks).
Proof.
  intros R. unfold sel_mpi, mpi_wanted.
  change (param (fun s => s) ps "MPI_COMMUNICATION" "WINDOW" 0) with (asked ps "MPI_COMMUNICATION" "WINDOW").
  set (t := asked _ _ _).
  destruct (Nat.eqb_spec ranks 1) as [->|N].
  - split; [intros _ [_ H]; lia|reflexivity].
  - assert (G : ranks > 1) by lia.
    destruct (b_threadsafe_mpi b); cbn [andb].
    + destruct (String.eqb_spec t "THREAD") as [->|T].
      * split; [intros H; discriminate H|]. intros H. exfalso; apply H. split; [discriminate|exact G].
      * split; [intros -> [H _]; congruence|]. intros H.
        destruct (string_dec t "OFF") as [E|E]; [exact E|]. exfalso; apply H; split; assumption.
    + split; [intros -> [H _]; congruence|]. intros H.
      destruct (string_dec t "OFF") as [E|E]; [exact E|]. exfalso; apply H; split; assumption.
Qed.

Lemma sel_mpi_thread b ps ranks : ranks >= 1 ->
  (sel_mpi b ps ranks = "THREAD" <->
   mpi_wanted ps ranks /\ b_threadsafe_mpi b = false /\ asked ps "MPI_COMMUNICATION" "WINDOW" = "THREAD").
Proof.
  intros R. unfold sel_mpi, mpi_wanted.
  change (param (fun s => s) ps "MPI_COMMUNICATION" "WINDOW" 0) with (asked ps "MPI_COMMUNICATION" "WINDOW").
  set (t := asked _ _ _).
  destruct (Nat.eqb_spec ranks 1) as [->|N].
  - split; [discriminate|]. intros [[_ H] _]; lia.
  - destruct (b_threadsafe_mpi b); cbn [andb].
    + destruct (String.eqb_spec t "THREAD") as [E|T].
      * split; [discriminate|]. intros (_ & H & _); discriminate H.
      * split; [congruence|]. intros (_ & H & _); discriminate H.
    + split.
      * intros E. rewrite E. repeat split; [discriminate|lia].
      * intros (_ & _ & E). exact E.
Qed.

Lemma sel_numa_off b ps domains : domains >= 1 ->
  (sel_numa b ps domains = "OFF" <-> ~ numa_wanted b ps domains).
Proof.
  intros R. unfold sel_numa, numa_wanted.
  change (param (fun s => s) ps "NUMA_COMMUNICATION" (if b_nonuma b then "OFF" else "ON") 0)
    with (asked ps "NUMA_COMMUNICATION" (if b_nonuma b then "OFF" else "ON")).
  set (t := asked _ _ _).
  destruct (Nat.eqb_spec domains 1) as [->|N].
  - split; [intros _ [_ H]; lia|reflexivity].
  - split; [intros -> [H _]; congruence|]. intros H.
    destruct (string_dec t "OFF") as [E|E]; [exact E|]. exfalso; apply H; split; [assumption|lia].
Qed.

Lemma mpi_wanted_dec ps ranks : mpi_wanted ps ranks \/ ~ mpi_wanted ps ranks.
Proof.
  unfold mpi_wanted. destruct (string_dec (asked ps "MPI_COMMUNICATION" "WINDOW") "OFF");
  destruct (le_lt_dec ranks 1); [right|right|right|left]; intuition lia.
Qed.
Lemma numa_wanted_dec b ps d : numa_wanted b ps d \/ ~ numa_wanted b ps d.
Proof.
  unfold numa_wanted.
  destruct (string_dec (asked ps "NUMA_COMMUNICATION" (if b_nonuma b then "OFF" else "ON")) "OFF");
  destruct (le_lt_dec d 1); [right|right|right|left]; intuition lia.
Qed.

Lemma eqb_reflect_false s t : s <> t -> String.eqb s t = false.
Proof. apply String.eqb_neq. Qed.

Lemma select_mpi b ps ranks domains : ranks >= 1 -> domains >= 1 -> wanted_storage ps <> SPass ->
  mpi_ok b ps ranks domains.
Proof.
  intros R D P. unfold mpi_ok, init_containers, select.
  pose proof (sel_mpi_off b ps ranks R) as MO. pose proof (sel_mpi_thread b ps ranks R) as MT.
  unfold wanted_storage in P.
  change (param (fun s => s) ps "GRID" "FULL" 0) with (asked ps "GRID" "FULL").
  rewrite <- MT. clear MT.
  destruct (String.eqb_spec (sel_mpi b ps ranks) "OFF") as [E|E].
  - assert (W : ~ mpi_wanted ps ranks) by (apply MO; exact E).
    assert (E' : sel_mpi b ps ranks <> "THREAD") by (rewrite E; discriminate).
    destruct (String.eqb (asked ps "GRID" "FULL") "CACHE");
    [|destruct (String.eqb (asked ps "GRID" "FULL") "PASS_THROUGH"); [congruence|]];
    destruct (String.eqb (sel_numa b ps domains) "OFF"); cbn; split; split; intros H; tauto || discriminate.
  - assert (W : mpi_wanted ps ranks).
    { destruct (mpi_wanted_dec ps ranks) as [W|W]; [exact W|]. exfalso; apply E, MO, W. }
    destruct (String.eqb_spec (sel_mpi b ps ranks) "THREAD") as [T|T];
    (destruct (String.eqb (asked ps "GRID" "FULL") "CACHE");
    [|destruct (String.eqb (asked ps "GRID" "FULL") "PASS_THROUGH"); [congruence|]]);
    destruct (String.eqb (sel_numa b ps domains) "OFF"); try destruct (String.eqb (sel_numa b ps domains) "CACHE");
    cbn; split; split; intros H; tauto || discriminate.
Qed.

Lemma select_numa b ps ranks domains : ranks >= 1 -> domains >= 1 ->
  wanted_storage ps = SFull \/ (wanted_storage ps = SCache /\ mpi_wanted ps ranks) ->
  numa_ok b ps ranks domains.
Proof.
  intros R D P. unfold numa_ok, init_containers, select.
  pose proof (sel_mpi_off b ps ranks R) as MO. pose proof (sel_numa_off b ps domains D) as NO.
  unfold wanted_storage in P.
  change (param (fun s => s) ps "GRID" "FULL" 0) with (asked ps "GRID" "FULL").
  assert (NW : sel_numa b ps domains <> "OFF" <-> numa_wanted b ps domains).
  { split; intros H.
    - destruct (numa_wanted_dec b ps domains) as [W|W]; [exact W|]. exfalso; apply H, NO, W.
    - intros E. apply NO in E. exact (E H). }
  rewrite <- NW.
  destruct (String.eqb_spec (asked ps "GRID" "FULL") "CACHE") as [C|C].
  - destruct P as [P|[_ P]]; [discriminate P|].
    destruct (String.eqb_spec (sel_mpi b ps ranks) "OFF") as [E|E]; [exfalso; apply MO in E; exact (E P)|].
    destruct (String.eqb (sel_mpi b ps ranks) "THREAD");
    destruct (String.eqb_spec (sel_numa b ps domains) "OFF"); cbn; split; intros H; tauto || discriminate.
  - destruct (String.eqb (asked ps "GRID" "FULL") "PASS_THROUGH"); [destruct P as [P|[P _]]; discriminate P|].
    destruct (String.eqb (sel_mpi b ps ranks) "OFF"); destruct (String.eqb (sel_mpi b ps ranks) "THREAD");
    destruct (String.eqb_spec (sel_numa b ps domains) "OFF"); try destruct (String.eqb (sel_numa b ps domains) "CACHE");
    cbn; split; intros H; tauto || discriminate.
Qed.

(** With GRID=CACHE and no MPI the NUMA decision is always the opposite. *)
Lemma select_numa_swapped b ps ranks domains : ranks >= 1 -> domains >= 1 ->
  wanted_storage ps = SCache -> ~ mpi_wanted ps ranks -> ~ numa_ok b ps ranks domains.
Proof.
  intros R D P W. unfold numa_ok, init_containers, select.
  pose proof (sel_mpi_off b ps ranks R) as MO. pose proof (sel_numa_off b ps domains D) as NO.
  unfold wanted_storage in P.
  change (param (fun s => s) ps "GRID" "FULL" 0) with (asked ps "GRID" "FULL").
  destruct (String.eqb (asked ps "GRID" "FULL") "CACHE");
    [|destruct (String.eqb (asked ps "GRID" "FULL") "PASS_THROUGH"); discriminate P].
  rewrite (proj2 MO W). change (String.eqb "OFF" "OFF") with true. cbv iota.
  destruct (String.eqb_spec (sel_numa b ps domains) "OFF") as [E|E]; cbn; intros [H1 H2].
  - apply NO in E. apply E. apply H1. discriminate.
  - destruct (numa_wanted_dec b ps domains) as [V|V].
    + apply H2 in V. apply V. reflexivity.
    + apply E, NO, V.
Qed.

(** ** Counters *)
(** The user manual, documentation/user/02_usage.h. *)
Definition documented_names : list string :=
  [ "accesses"; "numa_transfers"; "mpi_transfers"; "file_load"; "local_hits"; "node_hits"; "local_misses" ].
(** What the names mean, in terms of the four native counts. *)
Definition meaning (name : string) (c : counters) : option Z :=
  let a := Z.of_nat (n_access c) in let nu := Z.of_nat (n_numa c) in
  let m := Z.of_nat (n_mpi c) in let f := Z.of_nat (n_file c) in
  if String.eqb name "accesses" then Some a
  else if String.eqb name "numa_transfers" then Some nu
  else if String.eqb name "mpi_transfers" then Some m
  else if String.eqb name "file_loads" then Some f
  else if String.eqb name "local_hits" then Some (a - (nu + m + f))%Z
  else if String.eqb name "node_hits" then Some (a - (m + f))%Z
  else if String.eqb name "local_misses" then Some (nu + m + f)%Z
  else None.
Definition sumZ (l : list Z) : Z := fold_right Z.add 0%Z l.

Lemma meaning_get name c z : meaning name c = Some z -> counter_get c (name2type name) = wrap64 z.
Proof.
  unfold meaning, name2type.
  destruct (String.eqb name "accesses"); [intros [= <-]; reflexivity|].
  destruct (String.eqb name "numa_transfers"); [intros [= <-]; reflexivity|].
  destruct (String.eqb name "mpi_transfers"); [intros [= <-]; reflexivity|].
  destruct (String.eqb name "file_loads"); [intros [= <-]; reflexivity|].
  destruct (String.eqb name "local_hits"); [intros [= <-]; cbn [counter_get]; unfold counter_get; f_equal; lia|].
  destruct (String.eqb name "node_hits"); [intros [= <-]; unfold counter_get; f_equal; lia|].
  destruct (String.eqb name "local_misses"); [intros [= <-]; reflexivity|].
  discriminate.
Qed.

Lemma sum_counters_spec name t : (forall c z, meaning name c = Some z -> counter_get c t = wrap64 z) ->
  forall containers firsts vals acc,
  Forall2 (fun l c => nth_error l 0 = Some c) containers firsts ->
  Forall2 (fun c z => meaning name c = Some z) firsts vals ->
  acc = wrap64 acc ->
  sum_counters containers t 0 acc = Ok (wrap64 (acc + sumZ vals)).
Proof.
  intros T containers firsts vals acc H. revert vals acc.
  induction H as [|l c containers firsts N H IH]; intros vals acc V A.
  - inversion V; subst. cbn. rewrite Z.add_0_r. congruence.
  - inversion V as [|? z ? vals' M V']; subst. cbn [sum_counters]. unfold container_counter. rewrite N.
    cbn [obind]. rewrite (T c z M).
    rewrite (IH vals' _ V').
    + f_equal. cbn [sumZ fold_right]. unfold wrap64. unfold sumZ. rewrite Zplus_mod_idemp_r.
      rewrite Zplus_mod_idemp_l. f_equal. lia.
    + unfold wrap64. rewrite Zmod_mod. reflexivity.
Qed.

Lemma counter_level0 name containers firsts vals :
  Forall2 (fun l c => nth_error l 0 = Some c) containers firsts ->
  Forall2 (fun c z => meaning name c = Some z) firsts vals ->
  (0 <= sumZ vals < 2 ^ 64)%Z ->
  grid_counter containers name 0 = Ok (sumZ vals).
Proof.
  intros F V B. unfold grid_counter.
  rewrite (sum_counters_spec name _ (fun c z => meaning_get name c z) containers firsts vals 0%Z F V).
  - f_equal. unfold wrap64. rewrite Z.add_0_l. apply Z.mod_small. exact B.
  - reflexivity.
Qed.

Lemma documented_known name c : In name documented_names -> name <> "file_load" ->
  exists z, meaning name c = Some z /\ counter_get c (name2type name) = wrap64 z.
Proof.
  intros H N.
  assert (E : exists z, meaning name c = Some z).
  { cbn in H. repeat destruct H as [<-|H]; try contradiction; try congruence; eexists; reflexivity. }
  destruct E as [z E]. exists z. split; [exact E|]. apply meaning_get; exact E.
Qed.

(** The level argument never has any influence. *)
Lemma counter_ignores_level containers name l1 l2 :
  grid_counter containers name l1 = grid_counter containers name l2.
Proof. reflexivity. Qed.

(** ** Error codes *)
Lemma error_codes :
  (forall e, enum_value errors_cpp e = enum_value errors_f90 e) /\
  (forall e, e <> "INVALID_VAR_SIZE" -> e <> "MULTIPLE_TOPGRIDS" ->
     enum_value errors_cpp e = enum_value errors_c e).
Proof.
  split; [reflexivity|]. intros e N1 N2. unfold errors_cpp, errors_c. cbn [enum_value].
  do 12 (match goal with |- (if String.eqb ?a e then _ else _) = _ => destruct (String.eqb a e); [reflexivity|]
         | |- option_map S _ = option_map S _ => f_equal;
             match goal with |- (if String.eqb ?a e then _ else _) = _ => destruct (String.eqb a e); [reflexivity|] end
         end).
  destruct (String.eqb_spec "INVALID_VAR_SIZE" e); [congruence|].
  destruct (String.eqb_spec "MULTIPLE_TOPGRIDS" e); [congruence|]. reflexivity.
Qed.
