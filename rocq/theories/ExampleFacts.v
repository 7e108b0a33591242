(** * The example programs: proofs *)
From Coq Require Import List Arith Bool ZArith Reals Lia Lra String.
From Coq Require Sorting.Sorted.
From Flocq Require Import Core.Core IEEE754.BinarySingleNaN.
From Verif Require Import Base BlockedModel BlockedProofs LevelsModel TypesModel TypesFacts CoordModel CoordExact CoordFloat CoordFloat2
  CoordFloat3 CoordFacts ParamModel EndModel EndFacts AxisFacts SuiteModel SuiteFacts ExampleModel.
From Verif Require RangeFacts.
Import ListNotations.
Local Open Scope nat_scope.

(** ** Specification *)
(** Answers: the float, double or int with the value [v]; a buffer which contains the float [v]. *)
Definition shows_float (v : nat) (a : answer) : Prop :=
  exists f, a = AScalar (Ok (VF f)) /\ is_finite f = true /\ B2R f = IZR (Z.of_nat v).
Definition shows_double (v : nat) (a : answer) : Prop :=
  exists f, a = AScalar (Ok (VD f)) /\ is_finite f = true /\ B2R f = IZR (Z.of_nat v).
Definition shows_int (v : nat) (a : answer) : Prop := a = AScalar (Ok (VI (Z.of_nat v))).
Definition shows_buf (v : nat) (a : answer) : Prop :=
  exists b f, a = ABuf (Ok b) /\ List.length b = 4 /\ read_var Float b = Ok (VF f) /\ is_finite f = true /\ B2R f = IZR (Z.of_nat v).

(** What the processes show: the file contains [i * L + j] at x = i, y = j. *)
Definition examples (L : nat) : list (example * (nat -> list (answer -> Prop))) :=
  let at_ i j := i * L + j in
  [ (simple_c, fun _ => [shows_float (at_ 5 10)]);
    (simple_cpp, fun rank => match rank with
      | 0 => [shows_float (at_ 5 10); shows_double (at_ 5 10); shows_int (at_ 5 10)]
      | _ => [shows_float (at_ 5 10); shows_float (at_ 0 0)] end);
    (array_cpp, fun rank => match rank with 0 => [shows_float (at_ 5 10); shows_buf (at_ 5 10)] | _ => [] end);
    (simple_f90, fun _ => [shows_float (at_ 5 10); shows_float (at_ 5 10); shows_float (at_ 0 0)]);
    (buf_f90, fun _ => [shows_buf (at_ 1 50)]) ].
(** The grid of the example is opened on the file with [W] columns of [L] cells. *)
Definition opened_example (W L : nat) (e : example) (s : session ieee) : Prop :=
  session_ok s /\ n_axes s = [plain L; plain W] /\ n_type s = e_type e /\
  forall ix, in_box [L; W] ix -> n_cell s ix = cells_2d L ix.
Definition example_sizes (W L : nat) : Prop := 6 <= W /\ 51 <= L /\ (Z.of_nat (W * L) < 2 ^ 24)%Z.

(** ** Coordinates *)
Lemma near_plain' n k p : (2 <= n <= 2 ^ 47)%Z -> (0 <= k < n)%Z -> is_finite p = true -> (Rabs (B2R p - IZR k) <= 2 / 5)%R ->
  exists w, @dim_index ieee (@Axis ieee n None) p = Ok (k, w).
Proof.
  intros Hn Hk Fk Ek.
  destruct (val_fin_inv _ _ (val_int 0 ltac:(lia))) as [F0 E0]. destruct (val_fin_inv _ _ (val_int 1 ltac:(lia))) as [F1 E1].
  assert (HN : (2 <= IZR n <= 140737488355328)%R) by (split; apply IZR_le; lia).
  assert (HK : (0 <= IZR k <= IZR n - 1)%R) by (split; [|rewrite <- minus_IZR]; apply IZR_le; lia).
  destruct (float_close (fnum 0 0) (fnum 1 0) p n F0 F1 Fk) as (i & w & E & Hi & Hd).
  - rewrite E1, Rabs_R1. change 1%R with (bpow radix2 0). split; apply bpow_le; lia.
  - unfold two53. lia.
  - rewrite E0, E1. replace ((B2R p - 0) / 1)%R with (B2R p) by field. apply Rabs_le_inv in Ek. lra.
  - rewrite E0, E1 in Hd. replace ((B2R p - 0) / 1)%R with (B2R p) in Hd by field.
    assert (i = k) as ->.
    { assert (Rabs (IZR (k - i)) < 1)%R as Lt.
      { rewrite minus_IZR. replace (IZR k - IZR i)%R with ((B2R p - IZR i) + - (B2R p - IZR k))%R by ring.
        apply Rle_lt_trans with (1 / 2 + 5 * ulp1 * IZR n + 2 / 5)%R.
        - apply abs_add; [exact Hd | now rewrite Rabs_Ropp].
        - rewrite ulp1_val. lra. }
      rewrite <- abs_IZR in Lt. apply lt_IZR in Lt. lia. }
    exists w. unfold dim_index, get_scaling. cbn [x_size x_var].
    replace (n =? 1)%Z with false by (symmetry; apply Z.eqb_neq; lia). exact E.
Qed.
Lemma below_plain n p : (2 <= n <= 2 ^ 47)%Z -> is_finite p = true -> (B2R p <= 0)%R ->
  exists w, @dim_index ieee (@Axis ieee n None) p = Ok (0%Z, w).
Proof.
  intros Hn Fp Ep.
  destruct (val_fin_inv _ _ (val_int 0 ltac:(lia))) as [F0 E0]. destruct (val_fin_inv _ _ (val_int 1 ltac:(lia))) as [F1 E1].
  assert (HS : (is_finite (fnum 1 0) = true /\ (bpow radix2 (-1022) <= Rabs (B2R (fnum 1 0)))%R)).
  { split; [exact F1|]. rewrite E1, Rabs_R1. change 1%R with (bpow radix2 0). apply bpow_le. lia. }
  assert (N1 : forall q : f64, is_finite q = true -> is_nan (Bmult mode_NE (Bminus mode_NE q (fnum 0 0)) (inv_scaling ieee (fnum 1 0))) = false).
  { intros q Fq. apply ieee_no_nan; auto. }
  destruct (ieee_in_range (fnum 0 0) (fnum 1 0) p n (N1 p Fp)) as (i & w & E & Hi); [lia|].
  destruct (near_plain' n 0 (fnum 0 0) Hn) as [w0 Z0]; [lia|exact F0|rewrite E0, Rminus_0_r, Rabs_R0; lra|].
  unfold dim_index, get_scaling in *. cbn [x_size x_var] in *.
  replace (n =? 1)%Z with false in * by (symmetry; apply Z.eqb_neq; lia).
  assert (i <= 0)%Z.
  { assert (is_nan (fnum 1 0) = false) as NS by (vm_compute; reflexivity).
    pose proof (ieee_monotone (fnum 0 0) (fnum 1 0) p (fnum 0 0) n i 0 w w0 NS F0 Fp F0 (N1 p Fp) (N1 _ F0) ltac:(lia)) as M.
    rewrite E0 in M. apply (proj1 (M Ep E Z0)). vm_compute. reflexivity. }
  assert (i = 0)%Z as -> by lia. exists w. exact E.
Qed.

(** The number [p] belongs to the cell [k] of an axis without coordinate variable. *)
Definition cell_of (p : f64) (k : nat) : Prop :=
  is_finite p = true /\ ((Rabs (B2R p - IZR (Z.of_nat k)) <= 2 / 5)%R \/ k = 0 /\ (B2R p <= 0)%R).
Lemma cell_dim n k p : (2 <= n) -> (Z.of_nat n <= 2 ^ 47)%Z -> k < n -> cell_of p k ->
  exists w, @dim_index ieee (plain n) p = Ok (Z.of_nat k, w).
Proof.
  intros Hn Hn2 Hk [F [H|[-> H]]].
  - apply near_plain'; auto; lia.
  - apply below_plain; auto. lia.
Qed.
Ltac literal s m e := match goal with |- cell_of ?x _ =>
  let F := fresh in let E := fresh in
  destruct (RangeFacts.computed x s m e) as [F E]; [vm_compute; reflexivity|];
  split; [exact F|]; rewrite E; unfold F2R; cbn [Fnum Fexp cond_Zopp Z.opp bpow] end.
Lemma cell_int k : (Z.of_nat k <= 2 ^ 53)%Z -> cell_of (fnum (Z.of_nat k) 0) k.
Proof.
  intros H. destruct (val_fin_inv _ _ (val_int (Z.of_nat k) ltac:(lia))) as [F E]. split; [exact F|]. left.
  rewrite E, Rminus_diag_eq, Rabs_R0 by reflexivity. lra.
Qed.
Lemma cell_101 : cell_of (double_lit 101 10) 10.
Proof. literal false 0x14333333333333%positive (-49)%Z. left. apply Rabs_le. cbn. lra. Qed.
Lemma cell_1532 : cell_of (double_lit (-1532) 100) 0.
Proof. literal true 0x1ea3d70a3d70a4%positive (-49)%Z. right. split; [reflexivity|]. cbn. lra. Qed.
Lemma cell_m1 : cell_of (fnum (-1) 0) 0.
Proof. literal true 0x10000000000000%positive (-52)%Z. right. split; [reflexivity|]. cbn. lra. Qed.
Lemma cell_r5 : cell_of (real_lit 5 1) 5.
Proof. literal false 5629499534213120%positive (-50)%Z. left. apply Rabs_le. cbn. lra. Qed.
Lemma cell_r10 : cell_of (real_lit 10 1) 10.
Proof. literal false 5629499534213120%positive (-49)%Z. left. apply Rabs_le. cbn. lra. Qed.
Lemma cell_r101 : cell_of (real_lit 101 10) 10.
Proof. literal false 5685794744303616%positive (-49)%Z. left. apply Rabs_le. cbn. lra. Qed.
Lemma cell_rm1 : cell_of (real_lit (-1) 1) 0.
Proof. literal true 4503599627370496%positive (-52)%Z. right. split; [reflexivity|]. cbn. lra. Qed.
Lemma cell_r5005 : cell_of (real_lit (-500532) 100) 0.
Proof. literal true 5503407347466240%positive (-40)%Z. right. split; [reflexivity|]. cbn. lra. Qed.
Lemma cell_r1 : cell_of (real_lit 1 1) 1.
Proof. literal false 4503599627370496%positive (-52)%Z. left. apply Rabs_le. cbn. lra. Qed.
Lemma cell_r503 : cell_of (real_lit 503 10) 50.
Proof. literal false 7079095556898816%positive (-47)%Z. left. apply Rabs_le. cbn. lra. Qed.

(** ** Answers *)
Section Answers.
Context (s : session ieee) (v : nat) (Hv : (Z.of_nat v < 2 ^ 24)%Z).
Let cell := Some (Some (float_cell v)).

Lemma has_float : has_value (decode Float (firstn (sizeof Float) (float_cell v))) (IZR (Z.of_nat v)).
Proof.
  destruct (z_f32_value (Z.of_nat v)) as [F V]; [lia|]. change (firstn (sizeof Float) (float_cell v)) with (float_cell v).
  rewrite float_cell_decode. split; [exact F|]. now rewrite V.
Qed.
Lemma answer_float : n_type s = float_grid \/ n_type s = CType KArray Float 1 -> shows_float v (answer_of s (GetScalar Float) cell).
Proof.
  destruct (z_f32_value (Z.of_nat v)) as [F V]; [lia|]. intros [Ht|Ht]; unfold cell, answer_of; rewrite Ht; cbn [obind].
  - destruct (basic_float Float 0 (float_cell v) (IZR (Z.of_nat v)) has_float) as (f & E & Ff & Vf & Vf').
    + rewrite rnd32_small by lia. rewrite <- abs_IZR. apply Rlt_trans with (IZR (2 ^ 24)); [apply IZR_lt; lia|].
      change (IZR (2 ^ 24)) with (bpow radix2 24). apply bpow_lt. reflexivity.
    + exists f. split; [f_equal; exact E|]. auto.
  - exists (z_f32 (Z.of_nat v)). split; [|auto]. rewrite array_single; [|discriminate|reflexivity|reflexivity].
    cbn [ct_elem]. change (firstn (sizeof Float) (float_cell v)) with (float_cell v). rewrite float_cell_decode. reflexivity.
Qed.
Lemma answer_double : n_type s = float_grid -> shows_double v (answer_of s (GetScalar Double) cell).
Proof.
  intros Ht. unfold cell, answer_of. rewrite Ht. cbn [obind].
  destruct (basic_double Float 0 (float_cell v) (IZR (Z.of_nat v)) has_float) as (f & E & Ff & Vf & Vf').
  exists f. split; [f_equal; exact E|]. split; [exact Ff|]. apply Vf'. left. discriminate.
Qed.
Lemma answer_int : n_type s = float_grid -> shows_int v (answer_of s (GetScalar Int) cell).
Proof.
  intros Ht. unfold cell, answer_of, shows_int. rewrite Ht. cbn [obind]. f_equal. unfold float_grid, new_grid. cbn [elem_of].
  apply basic_exact; [unfold is_int; auto|exact has_float|]. cbn [in_type]. lia.
Qed.
Lemma answer_buf : n_type s = float_grid \/ n_type s = CType KArray Float 1 -> shows_buf v (answer_of s (GetBuf 4) cell).
Proof.
  destruct (z_f32_value (Z.of_nat v)) as [F V]; [lia|]. intros Ht. exists (map Some (float_cell v)), (z_f32 (Z.of_nat v)).
  split; [destruct Ht as [Ht|Ht]; unfold cell, answer_of; rewrite Ht; reflexivity|]. split; [reflexivity|]. split; [|auto].
  unfold read_var. change (firstn (sizeof Float) (map Some (float_cell v))) with (map Some (float_cell v)).
  rewrite all_some_map, float_cell_decode. reflexivity.
Qed.
End Answers.

(** ** Runs *)
(** The read [r] belongs to a cell, and the contents of the cell are what is expected. *)
Definition right (W L : nat) (t : ctype) (r : @request ieee) (P : answer -> Prop) : Prop :=
  exists i j p q, i < W /\ j < L /\ q_pos r = coords [p; q] /\ cell_of p i /\ cell_of q j /\
    forall s : session ieee, n_type s = t -> P (answer_of s (q_getter r) (Some (Some (float_cell (i * L + j))))).

Lemma right_examples W L e want rank : example_sizes W L -> In (e, want) (examples L) ->
  Forall2 (right W L (e_type e)) (e_reads e rank) (want rank).
Proof.
  intros (HW & HL & HV) Hin.
  assert (V : forall i j, i < W -> j < L -> (Z.of_nat (i * L + j) < 2 ^ 24)%Z).
  { intros i j Hi Hj. assert (i * L + j < W * L) by nia. lia. }
  assert (G : forall t i j p q g (P : answer -> Prop), i < W -> j < L -> cell_of p i -> cell_of q j ->
    (forall s : session ieee, n_type s = t -> P (answer_of s g (Some (Some (float_cell (i * L + j)))))) ->
    right W L t (read_at [p; q] g) P).
  { intros t i j p q g P Hi Hj Hp Hq Hs. exists i, j, p, q. split; [exact Hi|]. split; [exact Hj|]. split; [reflexivity|]. auto. }
  pose proof (cell_int 5 ltac:(lia)) as C5. pose proof (cell_int 10 ltac:(lia)) as C10.
  pose proof cell_101. pose proof cell_1532. pose proof cell_m1. pose proof cell_r5. pose proof cell_r10. pose proof cell_r101.
  pose proof cell_rm1. pose proof cell_r5005. pose proof cell_r1. pose proof cell_r503.
  assert (V510 := V 5 10 ltac:(lia) ltac:(lia)). assert (V00 := V 0 0 ltac:(lia) ltac:(lia)). assert (V150 := V 1 50 ltac:(lia) ltac:(lia)).
  assert (A1 : forall t p q, t = float_grid \/ t = CType KArray Float 1 -> cell_of p 5 -> cell_of q 10 ->
    right W L t (read_at [p; q] (GetScalar Float)) (shows_float (5 * L + 10))).
  { intros t p q Ht Hp Hq. apply (G t 5 10); auto; try lia. intros s E. apply answer_float; [exact V510|now rewrite E]. }
  assert (A0 : forall p q, cell_of p 0 -> cell_of q 0 -> right W L float_grid (read_at [p; q] (GetScalar Float)) (shows_float (0 * L + 0))).
  { intros p q Hp Hq. apply (G float_grid 0 0); auto; try lia. intros s E. apply answer_float; [exact V00|now left]. }
  destruct Hin as [[= <- <-]|[[= <- <-]|[[= <- <-]|[[= <- <-]|[[= <- <-]|[]]]]]];
    cbn [e_type e_reads simple_c simple_cpp array_cpp simple_f90 buf_f90].
  - repeat constructor. apply A1; auto.
  - destruct rank; cbn [Nat.eqb]; repeat constructor; try (apply A1; auto); try (apply A0; auto); apply (G float_grid 5 10); auto; try lia; intros s E.
    + apply answer_double; auto.
    + apply answer_int; auto.
  - destruct rank; cbn [Nat.eqb]; repeat constructor; try (apply A1; auto). apply (G (CType KArray Float 1) 5 10); auto; try lia. intros s E.
    apply answer_buf; auto.
  - repeat constructor; try (apply A1; auto). apply A0; auto.
  - repeat constructor. apply (G float_grid 1 50); auto; try lia. intros s E. apply answer_buf; auto.
Qed.

Section Run.
Context (W L : nat) (e : example) (want : nat -> list (answer -> Prop)) (s : session ieee).
Context (Hs : example_sizes W L) (He : In (e, want) (examples L)) (Ho : opened_example W L e s).

Lemma right_index t r P : n_type s = t -> right W L t r P -> @defined_at ieee s (q_pos r) /\
  forall init ix, @index_of ieee s (q_pos r) init = Ok ix -> P (answer_of s (q_getter r) (Some (Some (n_cell s ix)))).
Proof.
  intros Ht (i & j & p & q & Hi & Hj & Hq & Cp & Cq & HP). destruct Ho as (Hok & Ha & _ & Hc). destruct Hs as (HW & HL & HV).
  assert (Hbox : in_box [L; W] [j; i]) by (now apply box2).
  assert ((Z.of_nat W <= 2 ^ 47)%Z /\ (Z.of_nat L <= 2 ^ 47)%Z) as [BW BL] by (assert (W <= W * L /\ L <= W * L) by nia; lia).
  destruct (index_by_dims s [j; i] (q_pos r)) as [D E].
  - cbn [variable f_size]. rewrite Ha. cbn [map plain x_size]. rewrite !Nat2Z.id. exact Hbox.
  - intros k ax x Hk Hx _. rewrite Ha in *. rewrite Hq.
    destruct k as [|[|k]]; cbn [nth_error] in Hk, Hx; [| |destruct k; discriminate]; injection Hk as <-; injection Hx as <-;
      cbn [List.length Nat.sub coords nth]; apply cell_dim; auto; lia.
  - split; [exact D|]. intros init ix Hix. rewrite (E init ix Hix), Hc by exact Hbox. unfold cells_2d, at1, at2. cbn [nth]. now apply HP.
Qed.
Lemma example_defined t r : In r (example_prog e s t) -> @defined_at ieee s (q_pos r).
Proof.
  unfold example_prog. destruct (t <? n_threads s); [|intros []]. intros Hin.
  pose proof (right_examples W L e want (n_rk s t) Hs He) as HF.
  assert (exists P, right W L (e_type e) r P) as [P HP].
  { induction HF as [|r' P l l' H HF IH]; [destruct Hin|]. destruct Hin as [->|Hin]; [now exists P|auto]. }
  apply (right_index (e_type e) r P); [apply Ho|exact HP].
Qed.
Lemma example_run answers : session_run s (example_prog e s) answers ->
  forall t, t < n_threads s -> exists k, Forall2 (fun P a => P a) (firstn k (want (n_rk s t))) (answers t).
Proof.
  intros Hr t Ht. destruct (run_answers s (example_prog e s) answers) with (t := t) as [k Hk]; auto.
  - apply Ho.
  - intros t' H'. unfold example_prog. destruct (Nat.ltb_spec t' (n_threads s)); [lia|reflexivity].
  - intros t' r. apply example_defined.
  - exists k. unfold example_prog in Hk. destruct (Nat.ltb_spec t (n_threads s)); [|lia].
    pose proof (forall2_firstn _ k _ _ (right_examples W L e want (n_rk s t) Hs He)) as HF.
    revert Hk. generalize (answers t). induction HF as [|r P l l' H1 HF IH]; intros a Hk; inversion Hk as [|r' a0 l0 a' (ix & init & E & _ & ->) Hk']; subst; constructor; auto.
    destruct (right_index (e_type e) r P) as [_ HI]; [apply Ho|exact H1|]. apply (HI init), E.
Qed.
Lemma example_complete : exists answers, session_run s (example_prog e s) answers /\
  forall t, t < n_threads s -> Forall2 (fun P a => P a) (want (n_rk s t)) (answers t).
Proof.
  destruct (can_run s (example_prog e s)) as (answers & Hr & HL).
  - apply Ho.
  - intros t Ht. unfold example_prog. destruct (Nat.ltb_spec t (n_threads s)); [lia|reflexivity].
  - intros t r. apply example_defined.
  - exists answers. split; [exact Hr|]. intros t Ht. destruct (example_run answers Hr t Ht) as [k Hk]. specialize (HL t).
    unfold example_prog in HL. destruct (Nat.ltb_spec t (n_threads s)); [|lia].
    assert (List.length (firstn k (want (n_rk s t))) = List.length (answers t)) as E by (clear - Hk; induction Hk; cbn; congruence).
    assert (List.length (e_reads e (n_rk s t)) = List.length (want (n_rk s t))) as E2.
    { pose proof (right_examples W L e want (n_rk s t) Hs He) as HF. clear - HF. induction HF; cbn; congruence. }
    rewrite firstn_length in E. rewrite firstn_all2 in Hk; [exact Hk|]. lia.
Qed.
End Run.

(** ** Range *)
Definition printed (x : f64) (r : R) : Prop := is_finite x = true /\ (Rabs (B2R x - r) < 5 / 10000000)%R.
Lemma plain_range n : (2 <= n)%nat -> (Z.of_nat n < 2 ^ 24)%Z -> let m := open_dim ieee CellCentered (plain n) in
  printed (dm_min m) (- (1 / 2)) /\ printed (dm_max m) (IZR (Z.of_nat n) - 1 / 2).
Proof.
  intros Hn Hn2. unfold open_dim, plain, get_scaling, get_offset. cbn [x_size x_var].
  replace (Z.of_nat n =? 1)%Z with false by (symmetry; apply Z.eqb_neq; lia).
  change (a_isinf ieee (a_ofZ ieee 1)) with false. cbv iota. cbn [dm_min dm_max].
  set (h := a_mul ieee (a_ofZ ieee 1) (a_sub ieee (a_half ieee) (a_prec ieee))).
  set (mn := a_sub ieee (a_ofZ ieee 0) h).
  set (m0 := a_add ieee (a_ofZ ieee 0) (a_mul ieee (a_ofZ ieee 1) (a_ofZ ieee (Z.of_nat n - 1)))).
  set (mx := a_add ieee m0 h).
  destruct (RangeFacts.computed h false 9007199252939552%positive (-54)%Z) as [Fh Eh]; [vm_compute; reflexivity|].
  destruct (RangeFacts.computed mn true 9007199252939552%positive (-54)%Z) as [Fm Em]; [vm_compute; reflexivity|].
  clearbody h mn. unfold F2R in Eh, Em. cbn [Fnum Fexp cond_Zopp Z.opp] in Eh, Em.
  change (bpow radix2 (-54)) with (/ 18014398509481984)%R in *.
  destruct (val_fin_inv _ _ (val_int 0 ltac:(lia))) as [F0 E0]. destruct (val_fin_inv _ _ (val_int 1 ltac:(lia))) as [F1 E1].
  destruct (val_fin_inv _ _ (val_int (Z.of_nat n - 1) ltac:(lia))) as [Fn En].
  assert (HN : (1 <= IZR (Z.of_nat n - 1) <= 16777216)%R) by (split; apply IZR_le; lia).
  assert (Hbig : forall r, (Rabs r <= 33554432 -> Rabs r < big)%R).
  { intros r Hr. eapply Rle_lt_trans; [exact Hr|]. change 33554432%R with (bpow radix2 25). apply bpow_lt. lia. }
  assert (F2 : is_finite m0 = true /\ B2R m0 = IZR (Z.of_nat n - 1)).
  { pose proof (val_mul _ _ F1 Fn) as V. rewrite E1, En, Rmult_1_l, rnd_IZR in V by lia.
    destruct (fin_of_sat _ _ V) as [Fp Ep]; [apply Hbig; rewrite Rabs_right; lra|].
    pose proof (val_add _ _ F0 Fp) as V2. rewrite E0, Ep, Rplus_0_l, rnd_IZR in V2 by lia.
    apply (fin_of_sat _ _ V2). apply Hbig. rewrite Rabs_right; lra. }
  destruct F2 as [F2 E2]. clearbody m0.
  assert (Hx : printed mx (IZR (Z.of_nat n) - 1 / 2) /\ (1 <= B2R mx)%R).
  { pose proof (val_add _ _ F2 Fh) as V. rewrite E2, Eh in V.
    set (r := (IZR (Z.of_nat n - 1) + 9007199252939552 * / 18014398509481984)%R) in *.
    assert (1 <= r <= 16777217)%R as Hr by (unfold r; lra).
    destruct (rnd_rel r) as (d & Hd & Er).
    { rewrite Rabs_right by lra. apply Rle_trans with 1%R; [|lra]. change 1%R with (bpow radix2 0). apply bpow_le. lia. }
    assert (Hu : (0 < ulp1 <= / 9007199254740992)%R) by (rewrite ulp1_val; lra).
    assert (Hrd : (Rabs (r * d) <= 16777217 * / 9007199254740992)%R) by (apply abs_mul; [rewrite Rabs_right; lra|lra]).
    assert (Hrr : (rnd r - r = r * d)%R) by (rewrite Er; ring).
    assert (1 <= rnd r)%R as H1.
    { rewrite <- (rnd_IZR 1) by lia. apply rnd_mono. lra. }
    apply Rabs_le_inv in Hrd. destruct (fin_of_sat _ _ V) as [Fx Ex].
    { apply Hbig. rewrite Rabs_right by lra. lra. }
    change (Bplus mode_NE m0 h) with mx in *. split; [split; [exact Fx|]|]; rewrite Ex; [|exact H1].
    unfold r in *. rewrite minus_IZR in *. apply Rabs_def1; lra. }
  destruct Hx as [Hx Hx1].
  assert (C1 : a_ltb ieee mx mn = false).
  { change (a_ltb ieee mx mn) with (Bltb mx mn). rewrite Bltb_correct by (try exact Fm; apply Hx). apply Rlt_bool_false. lra. }
  assert (C2 : a_ltb ieee mn mx = true).
  { change (a_ltb ieee mn mx) with (Bltb mn mx). rewrite Bltb_correct by (try exact Fm; apply Hx). apply Rlt_bool_true. lra. }
  unfold std_min, std_max. rewrite C1, C2. split; [|exact Hx]. split; [exact Fm|]. rewrite Em. apply Rabs_def1; lra.
Qed.

Lemma example_printed W L e s : example_sizes W L -> opened_example W L e s -> value_position s = CellCentered ->
  let '(x0, x1) := example_range s 0 in let '(y0, y1) := example_range s 1 in
  printed x0 (- (1 / 2)) /\ printed x1 (IZR (Z.of_nat W) - 1 / 2) /\ printed y0 (- (1 / 2)) /\ printed y1 (IZR (Z.of_nat L) - 1 / 2).
Proof.
  intros (HW & HL & HV) (_ & Ha & _) Hp. unfold example_range. rewrite Ha, Hp.
  assert (W <= W * L /\ L <= W * L) as [] by nia.
  destruct (plain_range W) as [P1 P2]; [lia|lia|]. destruct (plain_range L) as [P3 P4]; [lia|lia|].
  unfold level_min, level_max, level_open, meta. cbn [map List.length Nat.sub nth]. auto.
Qed.

(** ** pinning_test *)
(** Numbers separated by commas. *)
Fixpoint commas (l : list nat) : string :=
  match l with [] => "" | [n] => decimal n | n :: r => decimal n ++ ", " ++ commas r end%string.
Fixpoint trailed (l : list nat) : string := match l with [] => "" | n :: r => decimal n ++ ", " ++ trailed r end%string.
Lemma app_nil_s (s : string) : (s ++ "")%string = s.
Proof. induction s; cbn; [reflexivity|]. now rewrite IHs. Qed.
Lemma app_assoc_s (a b c : string) : ((a ++ b) ++ c)%string = (a ++ b ++ c)%string.
Proof. induction a; cbn; [reflexivity|]. now rewrite IHa. Qed.
Lemma trailed_commas l : l <> [] -> trailed l = (commas l ++ ", ")%string.
Proof.
  induction l as [|n [|m l] IH]; intros H; [congruence|reflexivity|].
  change (trailed (n :: m :: l)) with (decimal n ++ ", " ++ trailed (m :: l))%string. rewrite IH by discriminate.
  change (commas (n :: m :: l)) with (decimal n ++ ", " ++ commas (m :: l))%string. now rewrite !app_assoc_s.
Qed.
Lemma length_app_s (a b : string) : String.length (a ++ b) = String.length a + String.length b.
Proof. induction a; cbn; [reflexivity|]. now rewrite IHa. Qed.
Lemma substring_prefix (a b : string) : substring 0 (String.length a) (a ++ b) = a.
Proof. induction a; cbn; [destruct b; reflexivity|]. now rewrite IHa. Qed.
Lemma drop2_app (a : string) x y : drop2 (a ++ String x (String y "")) = a.
Proof.
  unfold drop2. rewrite length_app_s. cbn [String.length]. replace (String.length a + 2 - 2) with (String.length a) by lia. apply substring_prefix.
Qed.

Lemma pin_loop_spec size mask : forall n fuel current cpus out ss, current + n = size -> n <= fuel ->
  cpus = out + List.length (filter (cpu_isset size mask) (seq current n)) ->
  pin_loop fuel size mask cpus out current ss = Some (ss ++ trailed (filter (cpu_isset size mask) (seq current n)))%string.
Proof.
  induction n as [|n IH]; intros fuel current cpus out ss Hs Hf Hc.
  - cbn in Hc. cbn [seq filter trailed]. rewrite app_nil_s. destruct fuel; cbn [pin_loop]; replace (out <? cpus) with false by (symmetry; apply Nat.ltb_ge; lia); reflexivity.
  - cbn [seq filter] in *. destruct fuel as [|fuel]; [lia|]. cbn [pin_loop].
    destruct (cpu_isset size mask current) eqn:B.
    + cbn [List.length trailed] in *. replace (out <? cpus) with true by (symmetry; apply Nat.ltb_lt; lia).
      rewrite (IH fuel (S current)) by lia. now rewrite !app_assoc_s.
    + destruct (Nat.ltb_spec out cpus).
      * now rewrite (IH fuel (S current)) by lia.
      * destruct (filter (cpu_isset size mask) (seq (S current) n)); [|cbn in Hc; lia]. cbn. now rewrite app_nil_s.
Qed.
(** The CPUs of a mask, ascending. *)
Definition lists_mask (size : nat) (mask : nat -> bool) (l : list nat) : Prop :=
  Sorted.StronglySorted lt l /\ forall c, In c l <-> c < size /\ mask c = true.
Lemma seq_sorted n : forall k, Sorted.StronglySorted lt (seq k n).
Proof.
  induction n; intros k; cbn; constructor; [apply IHn|]. apply Forall_forall. intros x Hx. apply in_seq in Hx. lia.
Qed.
Lemma filter_sorted f l : Sorted.StronglySorted lt l -> Sorted.StronglySorted lt (filter f l).
Proof.
  induction 1 as [|x l H IH HF]; cbn; [constructor|]. destruct (f x); [|exact IH]. constructor; [exact IH|].
  apply Forall_forall. intros y Hy. apply filter_In in Hy as [Hy _]. rewrite Forall_forall in HF. auto.
Qed.
Lemma sorted_unique (l l' : list nat) : Sorted.StronglySorted lt l -> Sorted.StronglySorted lt l' -> (forall c, In c l <-> In c l') -> l = l'.
Proof.
  intros H. revert l'. induction H as [|x l H IH HF]; intros l' H' E.
  - destruct l' as [|y l']; [reflexivity|]. exfalso. apply (proj2 (E y)). now left.
  - destruct H' as [|y l' H' HF']; [exfalso; apply (proj1 (E x)); now left|]. rewrite Forall_forall in HF, HF'.
    assert (x = y) as <-.
    { destruct (proj1 (E x) (or_introl eq_refl)) as [->|Hx]; [reflexivity|]. destruct (proj2 (E y) (or_introl eq_refl)) as [->|Hy]; [reflexivity|].
      specialize (HF y Hy). specialize (HF' x Hx). lia. }
    f_equal. apply IH; [exact H'|]. intros c. specialize (E c). cbn in E. split; intros Hc.
    + destruct (proj1 E (or_intror Hc)) as [<-|]; auto. specialize (HF x Hc). lia.
    + destruct (proj2 E (or_intror Hc)) as [<-|]; auto. specialize (HF' x Hc). lia.
Qed.
Definition pin_text (l : list nat) : string := match l with [] => "" | _ => ": " ++ commas l end%string.
Lemma pin_spec size mask rank thread l fuel : lists_mask size mask l -> size <= fuel ->
  pin_test fuel size mask rank thread =
  Some ("Found " ++ decimal (List.length l) ++ " CPUs on rank " ++ decimal rank ++ ", thread " ++ decimal thread ++ pin_text l)%string.
Proof.
  intros [Hs Hl] Hf.
  assert (filter (cpu_isset size mask) (seq 0 size) = l) as E.
  { apply sorted_unique; [apply filter_sorted, seq_sorted|exact Hs|]. intros c. rewrite filter_In, in_seq, Hl. unfold cpu_isset.
    rewrite andb_true_iff, Nat.ltb_lt. split; intros H; repeat split; try lia; tauto. }
  unfold pin_test, cpu_count. cbv zeta. rewrite (pin_loop_spec size mask size fuel 0) by (rewrite ?E; lia || reflexivity).
  rewrite E. destruct l as [|c l].
  - cbn [trailed pin_text]. rewrite !app_nil_s.
    replace ("Found " ++ decimal (List.length (@nil nat)) ++ " CPUs on rank " ++ decimal rank ++ ", thread " ++ decimal thread ++ ": ")%string
      with (("Found " ++ decimal (List.length (@nil nat)) ++ " CPUs on rank " ++ decimal rank ++ ", thread " ++ decimal thread) ++ ": ")%string
      by now rewrite !app_assoc_s.
    now rewrite drop2_app.
  - rewrite trailed_commas by discriminate. rewrite <- (app_assoc_s _ (commas (c :: l)) ", "), drop2_app, !app_assoc_s. reflexivity.
Qed.
Lemma pin_lists size mask : exists l, lists_mask size mask l.
Proof.
  exists (filter (cpu_isset size mask) (seq 0 size)). split; [apply filter_sorted, seq_sorted|]. intros c. rewrite filter_In, in_seq. unfold cpu_isset.
  rewrite andb_true_iff, Nat.ltb_lt. split; intros H; repeat split; try lia; tauto.
Qed.
Lemma pin_all size mask rank thread : exists l,
  Sorted.StronglySorted lt l /\ (forall c, In c l <-> c < size /\ mask c = true) /\
  forall fuel, size <= fuel -> pin_test fuel size mask rank thread =
    Some ("Found " ++ decimal (List.length l) ++ " CPUs on rank " ++ decimal rank ++ ", thread " ++ decimal thread ++ pin_text l)%string.
Proof.
  destruct (pin_lists size mask) as [l Hl]. exists l. split; [apply Hl|]. split; [apply Hl|]. intros fuel Hf. now apply pin_spec.
Qed.
