(** * The test programs of the repository: proofs *)
From Coq Require Import List Arith Bool ZArith Reals Lia Lra Psatz String.
From Flocq Require Import Core.Core IEEE754.BinarySingleNaN IEEE754.Bits.
From Flocq Require IEEE754.Binary Relative.
From Verif Require CounterProofs LevelsFacts CountModel CountFacts.
From Verif Require Import Base BlockedModel BlockedProofs LevelsModel TypesModel TypesFacts CoordModel CoordExact CoordFloat CoordFloat2
  CoordFloat3 CoordFacts ParamModel EndModel EndFacts AxisFacts SuiteModel.
Import ListNotations.
Local Open Scope nat_scope.

(** ** Specification *)
(** Sizes for which all numbers in the files are floats and no coordinate is 1/0. *)
Definition usual_sizes (W L H : nat) : Prop :=
  2 <= W /\ 1 <= L /\ 1 <= H /\ (Z.of_nat (W * L * H) + 10000 < 2 ^ 24)%Z /\ (Z.of_nat (W * W) < 2 ^ 24)%Z.
(** The grid [s] is opened on the file of the test, with the type of the test. *)
Definition opened_for (x : test) (s : session ieee) : Prop :=
  session_ok s /\ n_axes s = t_axes x /\ n_type s = t_type x /\
  forall ix, in_box (map (fun ax => Z.to_nat (x_size ax)) (t_axes x)) ix -> n_cell s ix = t_cells x ix.
Definition passed (ps : list probe) (answers : list answer) : Prop := Forall2 (fun p a => p_ok p a = true) ps answers.

(** ** Cells *)
Lemma float_cell_length z : List.length (float_cell z) = 4.
Proof. reflexivity. Qed.
Lemma float_cell_decode z : decode Float (float_cell z) = VF (z_f32 (Z.of_nat z)).
Proof.
  unfold float_cell. rewrite decode_f32. unfold Binary.binary_normalize. rewrite Binary.B2BSN_BSN2B'. reflexivity.
Qed.
Lemma z_f32_value z : (Z.abs z < 2 ^ 24)%Z -> is_finite (z_f32 z) = true /\ B2R (z_f32 z) = IZR z.
Proof.
  intros H. destruct (conv_float (VI z) (IZR z) eq_refl) as (f & E & F & V).
  - intros z' [= ->]. cbn [in_type]. lia.
  - rewrite rnd32_small by exact H. rewrite <- abs_IZR. apply Rlt_trans with (IZR (2 ^ 24)); [apply IZR_lt; exact H|].
    change (IZR (2 ^ 24)) with (bpow radix2 24). apply bpow_lt. reflexivity.
  - injection E as <-. split; [exact F|]. rewrite V. now apply rnd32_small.
Qed.
Lemma beq_self (f : f32) : is_finite f = true -> Beqb f f = true.
Proof.
  intros F. rewrite Beqb_correct by assumption. apply Req_bool_true. reflexivity.
Qed.

Lemma all_some_map (l : list Z) : all_some (map Some l) = Some l.
Proof. induction l; cbn; [reflexivity|]. now rewrite IHl. Qed.

Lemma int_probe (s : session ieee) v c : n_type s = float_grid -> (Z.of_nat v < 2 ^ 24)%Z -> c = float_cell v ->
  int_is v (answer_of s (GetScalar Int) (Some (Some c))) = true.
Proof.
  intros Ht Hv ->. destruct (z_f32_value (Z.of_nat v)) as [F V]; [lia|].
  cbn [answer_of int_is obind]. rewrite Ht. unfold float_grid, new_grid. cbn [elem_of].
  rewrite (basic_exact Float 0 Int (float_cell v) (Z.of_nat v)).
  - apply Z.eqb_refl.
  - unfold is_int. auto.
  - change (firstn (sizeof Float) (float_cell v)) with (float_cell v). rewrite float_cell_decode. split; [exact F|]. now rewrite V.
  - cbn [in_type]. lia.
Qed.
Lemma float_probe (s : session ieee) v c : n_type s = CType KStruct Float 4 -> (Z.of_nat v < 2 ^ 24)%Z -> c = float_cell v ->
  float_is v (answer_of s (GetScalar Float) (Some (Some c))) = true.
Proof.
  intros Ht Hv ->. destruct (z_f32_value (Z.of_nat v)) as [F V]; [lia|].
  cbn [answer_of float_is obind]. rewrite Ht, array_single; [|discriminate|reflexivity|reflexivity].
  cbn [ct_elem]. change (firstn (sizeof Float) (float_cell v)) with (float_cell v). rewrite float_cell_decode.
  cbn [conv float_eq]. now apply beq_self.
Qed.
Lemma read_float v (r : buffer) : (Z.of_nat v < 2 ^ 24)%Z -> float_eq v (read_var Float (map Some (float_cell v) ++ r)) = true.
Proof.
  intros Hv. destruct (z_f32_value (Z.of_nat v)) as [F V]; [lia|]. unfold read_var.
  change (firstn (sizeof Float) (map Some (float_cell v) ++ r)) with (map Some (float_cell v)).
  rewrite all_some_map, float_cell_decode. now apply beq_self.
Qed.
Lemma buf_probe (s : session ieee) v c : n_type s = float_grid -> (Z.of_nat v < 2 ^ 24)%Z -> c = float_cell v ->
  buf_is 0 v (answer_of s (GetBuf 4) (Some (Some c))) = true.
Proof.
  intros Ht Hv ->.
  assert (answer_of s (GetBuf 4) (Some (Some (float_cell v))) = ABuf (Ok (map Some (float_cell v) ++ []))) as ->.
  { cbn [answer_of obind]. rewrite Ht. reflexivity. }
  exact (read_float v [] Hv).
Qed.
Lemma two_probe (s : session ieee) v w c : n_type s = CType KArray Float 2 -> (Z.of_nat v < 2 ^ 24)%Z -> (Z.of_nat w < 2 ^ 24)%Z ->
  c = (float_cell v ++ float_cell w)%list ->
  let a := answer_of s (GetBuf 8) (Some (Some c)) in buf_is 0 v a && buf_is 1 w a = true.
Proof.
  intros Ht Hv Hw ->.
  assert (answer_of s (GetBuf 8) (Some (Some (float_cell v ++ float_cell w)))%list =
          ABuf (Ok (map Some (float_cell v) ++ map Some (float_cell w)))%list) as ->.
  { cbn [answer_of obind]. rewrite Ht. reflexivity. }
  cbv zeta. apply andb_true_iff. split.
  - exact (read_float v _ Hv).
  - cbn [buf_is]. change (skipn (4 * 1) (map Some (float_cell v) ++ map Some (float_cell w)))%list with (map Some (float_cell w)).
    rewrite <- (app_nil_r (map Some (float_cell w))). exact (read_float w [] Hw).
Qed.

(** ** Coordinates *)
Lemma beside_plain n k : k < n -> (Z.of_nat n <= 2 ^ 47)%Z -> beside (plain n) (Z.of_nat k) (int_coord k).
Proof.
  intros Hk Hn. destruct (val_fin_inv _ _ (val_int (Z.of_nat k) ltac:(lia))) as [F E]. split; [exact F|].
  unfold plain. cbn [x_size x_var]. destruct (Z.eqb_spec (Z.of_nat n) 1) as [E1|N1].
  - assert (k = 0) as -> by lia. unfold coordinate. cbn [x_var]. change (int_coord 0) with (fnum 0 0).
    rewrite Rminus_diag_eq, Rabs_R0 by reflexivity. apply bpow_ge_0.
  - exists 0%R, 1%R. rewrite Rabs_R1. split; [|split; [auto|]].
    + change 1%R with (bpow radix2 0). split; apply bpow_le; lia.
    + unfold int_coord. rewrite E. replace (IZR (Z.of_nat k) - (0 + IZR (Z.of_nat k) * 1))%R with 0%R by ring. rewrite Rabs_R0. lra.
Qed.
Lemma beside_any z : (Z.abs z <= 2 ^ 53)%Z -> beside (plain 1) 0 (fnum z 0).
Proof.
  intros Hz. destruct (val_fin_inv _ _ (val_int z Hz)) as [F E]. split; [exact F|].
  cbn [plain x_size]. change (Z.of_nat 1 =? 1)%Z with true. cbv iota. unfold coordinate. cbn [x_var].
  destruct (val_fin_inv _ _ (val_int 0 ltac:(lia))) as [F0 E0].
  change (x_var (plain 1)) with (@None (Z -> f64)). cbv iota. rewrite E, E0, Rminus_0_r, <- abs_IZR.
  apply Rle_trans with (IZR (2 ^ 53)); [apply IZR_le; exact Hz|].
  change (IZR (2 ^ 53)) with (bpow radix2 53). apply bpow_le. lia.
Qed.
Lemma usual_plain n : 1 <= n -> (Z.of_nat n <= 2 ^ 47)%Z -> usual_axis (plain n).
Proof. intros H1 H2. split; [cbn; lia|]. intros c H. discriminate H. Qed.

(** ** The scaled file *)
Lemma f32_f64_value (f : f32) : is_finite f = true -> is_finite (f32_f64 f) = true /\ B2R (f32_f64 f) = B2R f.
Proof.
  intros F. destruct (conv_double (VF f) (B2R f) (conj F eq_refl)) as (g & E & Fg & V); [intros z H; discriminate H|].
  injection E as <-. split; [exact Fg|]. rewrite V. apply rnd64_b24.
Qed.
Lemma y_near n : (Z.of_nat n < 2 ^ 24)%Z -> near_regular (Z.of_nat n) y_values 0 1.
Proof.
  intros Hn k Hk. destruct (z_f32_value k) as [F E]; [lia|]. destruct (f32_f64_value _ F) as [F' E']. split; [exact F'|].
  unfold y_values. rewrite E', E. replace (IZR k - (0 + IZR k * 1))%R with 0%R by ring. rewrite Rabs_R0, Rabs_R1. lra.
Qed.

Lemma quotient_near W k : 2 <= W -> (Z.of_nat W < 4096)%Z -> (0 <= k < Z.of_nat W)%Z ->
  is_finite (quotient W k) = true /\ (Rabs (B2R (quotient W k) - IZR k * / IZR (Z.of_nat (W - 1))) <= / 1000000000000)%R.
Proof.
  intros HW HW2 Hk. destruct (val_fin_inv _ _ (val_int k ltac:(lia))) as [F1 E1].
  destruct (val_fin_inv _ _ (val_int 1 ltac:(lia))) as [F2 E2].
  destruct (val_fin_inv _ _ (val_int (Z.of_nat (W - 1)) ltac:(lia))) as [F3 E3].
  pose proof (val_mul _ _ F1 F2) as V. rewrite E1, E2, Rmult_1_r, rnd_IZR in V by lia.
  assert (HM : (1 <= IZR (Z.of_nat (W - 1)) <= 4095)%R) by (split; apply IZR_le; lia).
  assert (HK : (0 <= IZR k <= IZR (Z.of_nat (W - 1)))%R) by (split; apply IZR_le; lia).
  destruct (fin_of_sat _ _ V) as [F4 E4].
  { rewrite Rabs_right by lra. unfold big. apply Rle_lt_trans with (bpow radix2 12).
    - change (bpow radix2 12) with 4096%R. lra.
    - apply bpow_lt. lia. }
  pose proof (val_div _ _ F4 F3 ltac:(rewrite E3; lra)) as V2. rewrite E4, E3 in V2.
  fold (quotient W k) in V2. clear V.
  set (m := IZR (Z.of_nat (W - 1))) in *. set (q := (IZR k / m)%R) in *.
  assert (Hi : (/ 4095 <= / m <= 1)%R).
  { split; [apply Rinv_le_contravar; lra|]. rewrite <- Rinv_1. apply Rinv_le_contravar; lra. }
  assert (Hq : (0 <= q <= 1)%R).
  { unfold q, Rdiv. split; [apply Rmult_le_pos; lra|]. replace 1%R with (m * / m)%R by (apply Rinv_r; lra). apply Rmult_le_compat_r; lra. }
  assert (Hr : (Rabs (rnd q - q) <= / 1000000000000)%R).
  { destruct (Z.eq_dec k 0) as [->|Nk].
    - assert (q = 0)%R as -> by (unfold q; lra). unfold rnd. rewrite round_0 by apply valid_rnd_N. rewrite Rminus_0_r, Rabs_R0. lra.
    - assert (/ 4095 <= q)%R as Hq2.
      { assert (1 <= IZR k)%R by (apply IZR_le; lia). unfold q, Rdiv. apply Rle_trans with (1 * / m)%R; [lra|]. apply Rmult_le_compat_r; lra. }
      destruct (rnd_rel q) as (e & He & Hr).
      { rewrite Rabs_right by lra. apply Rle_trans with (bpow radix2 (-12)); [apply bpow_le; lia|]. change (bpow radix2 (-12)) with (/ 4096)%R. lra. }
      rewrite Hr. replace (q * (1 + e) - q)%R with (q * e)%R by ring.
      assert (Hu : (0 < ulp1 <= / 9007199254740992)%R) by (rewrite ulp1_val; lra).
      apply Rle_trans with (1 * / 9007199254740992)%R; [|lra]. apply abs_mul; [rewrite Rabs_right; lra|lra]. }
  destruct (fin_of_sat _ _ V2) as [F5 E5].
  { apply Rle_lt_trans with 2%R; [|unfold big; change 2%R with (bpow radix2 1); apply bpow_lt; lia].
    apply Rabs_le_inv in Hr. apply Rabs_le. lra. }
  split; [exact F5|]. rewrite E5. exact Hr.
Qed.

Lemma x_near W : 2 <= W -> (Z.of_nat W < 4096)%Z -> near_regular (Z.of_nat W) (x_values W) 0 (/ IZR (Z.of_nat (W - 1))).
Proof.
  intros HW HW2 k Hk. destruct (quotient_near W k HW HW2 Hk) as [F E].
  assert (HM : (1 <= IZR (Z.of_nat (W - 1)) <= 4095)%R) by (split; apply IZR_le; lia).
  assert (HK : (0 <= IZR k <= IZR (Z.of_nat (W - 1)))%R) by (split; apply IZR_le; lia).
  set (m := IZR (Z.of_nat (W - 1))) in *. set (q := B2R (quotient W k)) in *.
  assert (Hi : (/ 4095 <= / m <= 1)%R).
  { split; [apply Rinv_le_contravar; lra|]. rewrite <- Rinv_1. apply Rinv_le_contravar; lra. }
  assert (Hq : (0 <= IZR k * / m <= 1)%R).
  { split; [apply Rmult_le_pos; lra|]. replace 1%R with (m * / m)%R by (apply Rinv_r; lra). apply Rmult_le_compat_r; lra. }
  assert (Hq2 : (-1 <= q <= 2)%R) by (apply Rabs_le_inv in E; lra).
  assert (Hr : (Rabs (rnd32 q - q) <= / 1000000)%R).
  { destruct (Relative.error_N_FLT radix2 (3 - 128 - 24) 24 eq_refl (fun z => negb (Z.even z)) q) as (e & t & He & Ht & _ & Er).
    unfold rnd32. rewrite Er. replace (q * (1 + e) + t - q)%R with (q * e + t)%R by ring.
    assert (Rabs e <= / 16777216)%R as He2.
    { eapply Rle_trans; [exact He|]. change (/ 2 * / 8388608 <= / 16777216)%R. lra. }
    assert (Rabs t <= / 16777216)%R as Ht2.
    { eapply Rle_trans; [exact Ht|]. apply Rle_trans with (/ 2 * bpow radix2 (-23))%R; [apply Rmult_le_compat_l; [lra|apply bpow_le; lia]|].
      change (bpow radix2 (-23)) with (/ 8388608)%R. lra. }
    apply Rle_trans with (2 * / 16777216 + / 16777216)%R; [|lra]. apply abs_add; [|exact Ht2].
    apply abs_mul; [apply Rabs_le; lra|exact He2]. }
  destruct (conv_float (VD (quotient W k)) q (conj F eq_refl)) as (f & Ef & Ff & Vf).
  { intros z Hz. discriminate Hz. }
  { apply Rle_lt_trans with (bpow radix2 2); [|apply bpow_lt; reflexivity]. change (bpow radix2 2) with 4%R.
    apply Rabs_le_inv in Hr. apply Rabs_le. lra. }
  injection Ef as <-. destruct (f32_f64_value _ Ff) as [F' E']. split; [exact F'|].
  unfold x_values. rewrite E', Vf, (Rabs_right (/ m)) by lra.
  apply Rabs_le_inv in Hr. apply Rabs_le_inv in E. apply Rabs_le. lra.
Qed.

Lemma usual_scale W c h : 2 <= W -> (Z.of_nat W < 4096)%Z -> (/ 4095 <= h <= 1)%R -> near_regular (Z.of_nat W) c 0 h ->
  usual_axis (@Axis ieee (Z.of_nat W) (Some c)).
Proof.
  intros HW HW2 Hh Hc. split; [cbn [x_size]; lia|]. cbn [x_var x_size]. intros c' [= <-]. split; [apply (Hc 0%Z); lia|].
  intros _. exists 0%R, h. split; [|exact Hc]. rewrite Rabs_right by lra.
  split; [apply Rle_trans with (bpow radix2 (-12)); [apply bpow_le; lia|change (bpow radix2 (-12)) with (/ 4096)%R; lra]|].
  apply Rle_trans with (bpow radix2 0); [change (bpow radix2 0) with 1%R; lra|apply bpow_le; lia].
Qed.
Lemma beside_scale W c h k p : 2 <= W -> (Z.of_nat W < 4096)%Z -> (/ 4095 <= h <= 1)%R -> near_regular (Z.of_nat W) c 0 h ->
  is_finite p = true -> (Rabs (B2R p - IZR k * h) <= / 1000000000000)%R -> beside (@Axis ieee (Z.of_nat W) (Some c)) k p.
Proof.
  intros HW HW2 Hh Hc Fp Hp. split; [exact Fp|]. cbn [x_size x_var].
  destruct (Z.eqb_spec (Z.of_nat W) 1) as [E1|N1]; [lia|]. exists 0%R, h. rewrite Rabs_right by lra. split; [|split; [exact Hc|]].
  - split; [apply Rle_trans with (bpow radix2 (-12)); [apply bpow_le; lia|change (bpow radix2 (-12)) with (/ 4096)%R; lra]|].
    apply Rle_trans with (bpow radix2 0); [change (bpow radix2 0) with 1%R; lra|apply bpow_le; lia].
  - rewrite Rplus_0_l. lra.
Qed.

(** ** Tests *)
Definition sizes (x : test) : list nat := map (fun ax => Z.to_nat (x_size ax)) (t_axes x).
(** Each probe belongs to a cell of the file, and is successful with its contents. *)
Definition sound (x : test) (p : probe) : Prop :=
  exists ix, in_box (sizes x) ix /\ beside_cell (t_axes x) ix (q_pos (p_read p)) /\
    forall s : session ieee, n_type s = t_type x -> p_ok p (answer_of s (q_getter (p_read p)) (Some (Some (t_cells x ix)))) = true.

Lemma loop_all {X} n (body : nat -> list X) (P : X -> Prop) : (forall i, i < n -> Forall P (body i)) -> Forall P (loop n body).
Proof.
  intros H. apply Forall_forall. intros x Hx. apply in_flat_map in Hx as (i & Hi & Hx). apply in_seq in Hi.
  specialize (H i ltac:(lia)). rewrite Forall_forall in H. now apply H.
Qed.

Lemma choose (x : test) : Forall (sound x) (t_probes x) -> exists l : list (list nat * probe), map snd l = t_probes x /\
  Forall (fun r => in_box (sizes x) (fst r) /\ beside_cell (t_axes x) (fst r) (q_pos (p_read (snd r))) /\
    forall s : session ieee, n_type s = t_type x ->
      p_ok (snd r) (answer_of s (q_getter (p_read (snd r))) (Some (Some (t_cells x (fst r))))) = true) l.
Proof.
  induction 1 as [|p ps (ix & H) Hs (l & E & IH)]; [exists []; split; [reflexivity|constructor]|].
  exists ((ix, p) :: l). split; [cbn; now rewrite E|]. constructor; [exact H|exact IH].
Qed.

Section Run.
Context (x : test) (Hu : Forall usual_axis (t_axes x)) (Hs : Forall (sound x) (t_probes x)).
Context (s : session ieee) (Ho : opened_for x s).

Lemma run_passed answers : session_run s (test_prog x (n_threads s)) answers ->
  forall t, t < n_threads s -> exists k, passed (firstn k (t_probes x)) (answers t).
Proof.
  intros Hr t Ht. destruct Ho as (Hok & Ha & Hty & Hc). destruct (choose x Hs) as (l & El & Hl). rewrite Forall_forall in Hl.
  set (prog := fun t => if t <? n_threads s then map (fun r => (fst r, p_read (snd r))) l else []).
  destruct (beside_run s prog answers Hok) with (t := t) as [k Ek].
  - now rewrite Ha.
  - intros t' H'. unfold prog. destruct (Nat.ltb_spec t' (n_threads s)); [lia|reflexivity].
  - intros t' ix r Hin. unfold prog in Hin. destruct (t' <? n_threads s); [|destruct Hin].
    apply in_map_iff in Hin as (y & [= <- <-] & Hy). destruct (Hl y Hy) as (H1 & H2 & _). rewrite Ha. auto.
  - destruct Hr as (arr0 & bl & ixs & cells & H1 & H2 & H3 & H4). exists arr0, bl, ixs, cells.
    assert (forall t, map snd (prog t) = test_prog x (n_threads s) t) as E.
    { intros t'. unfold prog, test_prog. destruct (t' <? n_threads s); [|reflexivity]. rewrite <- El, !map_map. reflexivity. }
    split; [exact H1|]. split; [intros t'; rewrite E; apply H2|]. split; [exact H3|]. intros t'. rewrite E. apply H4.
  - exists k. unfold prog in Ek. rewrite Ek, <- El. destruct (Nat.ltb_spec t (n_threads s)); [|lia].
    rewrite !firstn_map, map_map. unfold passed. clear Ek.
    assert (forall y, In y (firstn k l) -> In y l) as Hin.
    { intros y Hy. rewrite <- (firstn_skipn k l). apply in_or_app. now left. }
    revert Hin. generalize (firstn k l). intros l'. induction l' as [|y l' IH]; intros Hin; constructor.
    + destruct (Hl y (Hin y (or_introl eq_refl))) as (H1 & _ & H3). cbn [fst snd]. rewrite (Hc (fst y)) by exact H1. now apply H3.
    + apply IH. intros z Hz. apply Hin. now right.
Qed.

Lemma prog_defined t r : In r (test_prog x (n_threads s) t) -> @defined_at ieee s (q_pos r).
Proof.
  destruct Ho as (Hok & Ha & Hty & Hc). unfold test_prog. destruct (t <? n_threads s); [|intros []].
  intros Hin. apply in_map_iff in Hin as (p & <- & Hp). rewrite Forall_forall in Hs. destruct (Hs p Hp) as (ix & H1 & H2 & _).
  apply (beside_index s ix); [now rewrite Ha|cbn [variable f_size]; rewrite Ha; exact H1|now rewrite Ha].
Qed.

Lemma can_pass :
  exists answers, session_run s (test_prog x (n_threads s)) answers /\ forall t, t < n_threads s -> passed (t_probes x) (answers t).
Proof.
  destruct (can_run s (test_prog x (n_threads s))) as (answers & Hr & HL).
  - apply Ho.
  - intros t Ht. unfold test_prog. destruct (Nat.ltb_spec t (n_threads s)); [lia|reflexivity].
  - intros t r Hin. now apply (prog_defined t).
  - exists answers. split; [exact Hr|]. intros t Ht. destruct (run_passed answers Hr t Ht) as [k Hk]. specialize (HL t).
    unfold test_prog in HL. destruct (Nat.ltb_spec t (n_threads s)); [|lia]. rewrite map_length in HL.
    assert (List.length (firstn k (t_probes x)) = List.length (answers t)) as E by (clear - Hk; induction Hk; cbn; congruence).
    rewrite firstn_length in E. rewrite firstn_all2 in Hk; [exact Hk|]. lia.
Qed.
End Run.

Lemma box1 a i : i < a -> in_box [a] [i].
Proof. intros. repeat constructor; auto. Qed.
Lemma box2 a b i j : i < a -> j < b -> in_box [a; b] [i; j].
Proof. intros. repeat constructor; auto. Qed.
Lemma box3 a b c i j k : i < a -> j < b -> k < c -> in_box [a; b; c] [i; j; k].
Proof. intros. repeat constructor; auto. Qed.

Lemma cell_1 ax i p : beside ax (Z.of_nat i) p -> beside_cell [ax] [i] (coords [p]).
Proof. intros H k a x Hk Hx. destruct k as [|[|k]]; cbn in Hk, Hx; try discriminate. injection Hk as <-. injection Hx as <-. exact H. Qed.
Lemma cell_2 a1 a0 j i p q : beside a1 (Z.of_nat j) q -> beside a0 (Z.of_nat i) p -> beside_cell [a1; a0] [j; i] (coords [p; q]).
Proof.
  intros H1 H0 k a x Hk Hx. destruct k as [|[|[|k]]]; cbn in Hk, Hx; try discriminate; injection Hk as <-; injection Hx as <-; [exact H1|exact H0].
Qed.
Lemma cell_3 a2 a1 a0 k j i p q r : beside a2 (Z.of_nat k) r -> beside a1 (Z.of_nat j) q -> beside a0 (Z.of_nat i) p ->
  beside_cell [a2; a1; a0] [k; j; i] (coords [p; q; r]).
Proof.
  intros H2 H1 H0 n a x Hk Hx. destruct n as [|[|[|[|n]]]]; cbn in Hk, Hx; try discriminate; injection Hk as <-; injection Hx as <-;
    [exact H2|exact H1|exact H0].
Qed.

Lemma plain_sizes l : map (fun ax : axis ieee => Z.to_nat (x_size ax)) (map plain l) = l.
Proof. induction l; cbn; [reflexivity|]. rewrite IHl, Nat2Z.id. reflexivity. Qed.

Lemma value_2d W L H i j : usual_sizes W L H -> i < W -> j < L -> (Z.of_nat (j + i * L + 10 * 1000) < 2 ^ 24)%Z /\ (Z.of_nat W <= 2 ^ 47)%Z /\ (Z.of_nat L <= 2 ^ 47)%Z.
Proof.
  intros (H1 & H2 & H3 & H4 & H5) Hi Hj.
  assert (j + i * L < W * L) by nia. assert (W * L <= W * L * H) by nia. assert (W <= W * L /\ L <= W * L) as [] by nia. lia.
Qed.

Theorem all_sound W L H r x : usual_sizes W L H -> (forall i, (Z.abs (r i) <= 2 ^ 53)%Z) -> In x (suite W L H r) ->
  Forall usual_axis (t_axes x) /\ Forall (sound x) (t_probes x).
Proof.
  intros Hs Hr Hx. pose proof Hs as (H1 & H2 & H3 & H4 & H5).
  assert (HW : (Z.of_nat W < 4096)%Z) by nia.
  assert (HWL : (Z.of_nat W <= 2 ^ 47)%Z /\ (Z.of_nat L <= 2 ^ 47)%Z /\ (Z.of_nat H <= 2 ^ 47)%Z).
  { assert (W <= W * L * H /\ L <= W * L * H /\ H <= W * L * H) as (? & ? & ?) by (clear - H1 H2 H3; assert (1 <= L * H) by nia; assert (1 <= W * L) by nia; assert (1 <= W * H) by nia; split; [rewrite <- Nat.mul_assoc|split]; nia). lia. }
  destruct HWL as (BW & BL & BH).
  assert (UW : usual_axis (plain W)) by (apply usual_plain; lia). assert (UL : usual_axis (plain L)) by (apply usual_plain; lia).
  assert (UH : usual_axis (plain H)) by (apply usual_plain; lia). assert (U1 : usual_axis (plain 1)) by (apply usual_plain; lia).
  assert (PW : forall i, i < W -> beside (plain W) (Z.of_nat i) (int_coord i)) by (intros; now apply beside_plain).
  assert (PL : forall i, i < L -> beside (plain L) (Z.of_nat i) (int_coord i)) by (intros; now apply beside_plain).
  assert (PH : forall i, i < H -> beside (plain H) (Z.of_nat i) (int_coord i)) by (intros; now apply beside_plain).
  assert (B2 : forall i j, i < W -> j < L -> in_box (map (fun ax : axis ieee => Z.to_nat (x_size ax)) [plain L; plain W]) [j; i]).
  { intros i j Hi Hj. rewrite (plain_sizes [L; W] : map (fun ax : axis ieee => Z.to_nat (x_size ax)) [plain L; plain W] = [L; W]). now apply box2. }
  assert (C2 : forall i j, i < W -> j < L -> beside_cell [plain L; plain W] [j; i] (at_2d i j)) by (intros; apply cell_2; auto).
  assert (V2 : forall i j, i < W -> j < L -> (Z.of_nat (j + i * L) < 2 ^ 24)%Z /\ (Z.of_nat (j + i * L + 10 * 1000) < 2 ^ 24)%Z).
  { intros i j Hi Hj. destruct (value_2d W L H i j Hs Hi Hj) as (V & _). lia. }
  destruct Hx as [<-|[<-|[<-|[<-|[<-|[<-|[<-|[<-|[]]]]]]]]]; cbn [t_axes t_probes test_2d test_pass test_struct test_array test_scale test_3d test_1d test_pseudo].
  - split; [auto|]. apply loop_all. intros i Hi. apply loop_all. intros j Hj. constructor; [|constructor].
    exists [j; i]. split; [now apply B2|]. split; [now apply C2|]. intros s Hty. apply int_probe; [exact Hty|apply V2; auto|].
    unfold test_2d, cells_2d, at1, at2, at3. cbn [t_cells nth]. apply f_equal. lia.
  - split; [auto|]. apply loop_all. intros i Hi. apply loop_all. intros j Hj. constructor; [|constructor; [|constructor]].
    + exists [j; i]. split; [now apply B2|]. split; [now apply C2|]. intros s Hty. apply int_probe; [exact Hty|apply V2; auto|].
      unfold test_pass, cells_2d, at1, at2, at3. cbn [t_cells nth]. apply f_equal. lia.
    + exists [j; i]. split; [now apply B2|]. split; [now apply C2|]. intros s Hty. apply buf_probe; [exact Hty|apply V2; auto|].
      unfold test_pass, cells_2d, at1, at2, at3. cbn [t_cells nth]. apply f_equal. lia.
  - split; [auto|]. apply loop_all. intros i Hi. apply loop_all. intros j Hj. constructor; [|constructor].
    exists [j; i]. split; [now apply B2|]. split; [now apply C2|]. intros s Hty. apply float_probe; [exact Hty|apply V2; auto|].
    unfold test_struct, cells_2d, at1, at2, at3. cbn [t_cells nth]. apply f_equal. lia.
  - split; [auto|]. apply loop_all. intros i Hi. apply loop_all. intros j Hj. constructor; [|constructor].
    exists [j; i]. split; [now apply B2|]. split; [now apply C2|]. intros s Hty.
    apply two_probe; [exact Hty|apply V2; auto|apply V2; auto|].
    unfold test_array, cells_compound, at1, at2, at3. cbn [t_cells nth]. f_equal; apply f_equal; lia.
  - assert (Hm : (1 <= IZR (Z.of_nat (W - 1)) <= 4095)%R) by (split; apply IZR_le; lia).
    assert (Hi' : (/ 4095 <= / IZR (Z.of_nat (W - 1)) <= 1)%R).
    { split; [apply Rinv_le_contravar; lra|]. rewrite <- Rinv_1. apply Rinv_le_contravar; lra. }
    split.
    { constructor; [apply (usual_scale W y_values 1); auto; [lra|apply y_near; lia]|].
      constructor; [|constructor]. now apply (usual_scale W (x_values W) (/ IZR (Z.of_nat (W - 1)))); [..|apply x_near]. }
    apply loop_all. intros i Hi. apply loop_all. intros j Hj. constructor; [|constructor].
    exists [j; i]. split; [|split].
    + unfold sizes. cbn [test_scale t_axes map x_size]. rewrite Nat2Z.id. now apply box2.
    + cbn [p_read q_pos test_scale t_axes]. apply cell_2.
      * destruct (val_fin_inv _ _ (val_int (Z.of_nat j) ltac:(lia))) as [F E].
        apply (beside_scale W y_values 1); auto; [lra|apply y_near; lia|]. unfold int_coord. rewrite E.
        replace (IZR (Z.of_nat j) - IZR (Z.of_nat j) * 1)%R with 0%R by ring. rewrite Rabs_R0. lra.
      * destruct (quotient_near W (Z.of_nat i)) as [F E]; [lia|lia|lia|].
        apply (beside_scale W (x_values W) (/ IZR (Z.of_nat (W - 1)))); auto. apply x_near; auto.
    + intros s Hty. apply int_probe; [exact Hty| |].
      * assert (j + i * W < W * W) by nia. lia.
      * unfold test_scale, cells_2d, at1, at2, at3. cbn [t_cells nth]. apply f_equal. lia.
  - split; [auto|]. apply loop_all. intros i Hi. apply loop_all. intros j Hj. apply loop_all. intros k Hk. constructor; [|constructor].
    exists [k; j; i]. split; [|split].
    + unfold sizes. cbn [test_3d t_axes]. rewrite (plain_sizes [H; L; W] : map (fun ax : axis ieee => Z.to_nat (x_size ax)) [plain H; plain L; plain W] = [H; L; W]). now apply box3.
    + apply cell_3; auto.
    + intros s Hty. apply int_probe; [exact Hty| |].
      * assert (j + i * L < W * L) by nia. assert (k + H * (j + i * L) < W * L * H) by nia. lia.
      * unfold test_3d, cells_3d, at1, at2, at3. cbn [t_cells nth]. apply f_equal. lia.
  - split; [auto|]. apply loop_all. intros i Hi. constructor; [|constructor].
    exists [i]. split; [|split].
    + unfold sizes. cbn [test_1d t_axes]. rewrite (plain_sizes [W] : map (fun ax : axis ieee => Z.to_nat (x_size ax)) [plain W] = [W]). now apply box1.
    + apply cell_1; auto.
    + intros s Hty. apply int_probe; [exact Hty|lia|reflexivity].
  - split; [auto|]. apply loop_all. intros i Hi. constructor; [|constructor].
    exists [0; i]. split; [|split].
    + unfold sizes. cbn [test_pseudo t_axes]. rewrite (plain_sizes [1; W] : map (fun ax : axis ieee => Z.to_nat (x_size ax)) [plain 1; plain W] = [1; W]). apply box2; [lia|exact Hi].
    + apply cell_2; [|auto]. apply beside_any, Hr.
    + intros s Hty. apply int_probe; [exact Hty|lia|reflexivity].
Qed.

(** ** Results *)
Lemma suite_no_failure W L H r x (s : session ieee) answers :
  usual_sizes W L H -> (forall i, (Z.abs (r i) <= 2 ^ 53)%Z) -> In x (suite W L H r) -> opened_for x s ->
  session_run s (test_prog x (n_threads s)) answers ->
  forall t, t < n_threads s -> exists k, passed (firstn k (t_probes x)) (answers t).
Proof.
  intros Hs Hr Hx Ho Hrun. destruct (all_sound W L H r x Hs Hr Hx) as [Hu Hp]. now apply run_passed.
Qed.
Lemma suite_success W L H r x (s : session ieee) :
  usual_sizes W L H -> (forall i, (Z.abs (r i) <= 2 ^ 53)%Z) -> In x (suite W L H r) -> opened_for x s ->
  exists answers, session_run s (test_prog x (n_threads s)) answers /\ forall t, t < n_threads s -> passed (t_probes x) (answers t).
Proof.
  intros Hs Hr Hx Ho. destruct (all_sound W L H r x Hs Hr Hx) as [Hu Hp]. now apply can_pass.
Qed.

(** ** Counters *)
Lemma loop_length {X} n (body : nat -> list X) m : (forall i, i < n -> List.length (body i) = m) -> List.length (loop n body) = n * m.
Proof.
  unfold loop. intros H. assert (forall a, (forall i, a <= i < a + n -> List.length (body i) = m) -> List.length (flat_map body (seq a n)) = n * m) as G.
  { clear H. induction n as [|n IH]; intros a H; [reflexivity|]. cbn [seq flat_map]. rewrite app_length, H, IH by lia || (intros; apply H; lia). lia. }
  apply G. intros i Hi. apply H. lia.
Qed.
Lemma probe_counts W L H r : map (fun x => List.length (t_probes x)) (suite W L H r) =
  [W * L; W * L * 2; W * L; W * L; W * W; W * L * H; W; W].
Proof.
  assert (forall n m (b : nat -> nat -> list probe) c, (forall i j, List.length (b i j) = c) ->
            List.length (loop n (fun i => loop m (b i))) = n * (m * c)) as G.
  { intros n m b c Hb. apply loop_length. intros i _. apply loop_length. auto. }
  unfold suite. cbn [map t_probes test_2d test_pass test_struct test_array test_scale test_3d test_1d test_pseudo].
  unfold loop_2d, loop_pass, loop_struct, loop_array, loop_scale, loop_3d, loop_1d, loop_pseudo.
  repeat (apply f_equal2; [|]); try reflexivity.
  1,3,4,5: rewrite (G _ _ _ 1) by reflexivity; lia.
  - rewrite (G _ _ _ 2) by reflexivity. lia.
  - rewrite (loop_length W _ (L * (H * 1))); [lia|]. intros. apply loop_length. intros. apply loop_length. reflexivity.
  - rewrite (loop_length W _ 1) by reflexivity. lia.
  - rewrite (loop_length W _ 1) by reflexivity. lia.
Qed.

(** The single threaded tests: [n] reads. *)
Lemma single_counters (V : Type) (f : file V) user td arr0 bl opaque mode cn spread ixs :
  f_size f <> [] -> blocked_open (f_size f) user td arr0 = Ok bl -> 0 < cn -> (spread < Z.of_nat cn)%Z ->
  Forall (in_box (f_size f)) ixs -> (Z.of_nat (List.length ixs) < 2 ^ 64)%Z ->
  let g := Geom bl f opaque in let d := Dist mode 1 1 (b_total bl) in let n := Z.of_nat (List.length ixs) in
  (exists m c vs, full_open g d 0 = Ok m /\ full_run g d (domain_base g d 0) m counters0 ixs = Ok (c, vs) /\
     counter_get c CAccess = n /\ counter_get c CHit = n) /\
  (exists s s' vs, cache_open g cn spread = Ok s /\ cache_run g s ixs = Ok (s', vs) /\ counter_get (cs_cnt s') CAccess = n) /\
  (exists m c vs, pass_seq opaque f (pass_open 1) counters0 (map (fun ix => (0, ix)) ixs) = Ok (m, c, vs) /\
     counter_get c CAccess = n /\ counter_get c CFile = n).
Proof.
  intros Hd E Hn Hs Hi Hl g d n. split; [|split].
  - destruct (LevelsFacts.full_counters f user td arr0 bl opaque mode ixs Hd E Hi Hl) as (m & c & vs & E1 & E2 & R).
    exists m, c, vs. split; [exact E1|]. split; [exact E2|]. destruct R as (R1 & _ & _ & _ & R2 & _).
    rewrite repeat_length in R1. split; [exact R1|]. rewrite R2. unfold n. f_equal. clear.
    induction (List.length ixs) as [|k IH]; [reflexivity|]. cbn. unfold CounterProofs.count in *. cbn. now rewrite IH.
  - destruct (LevelsFacts.cache_reported f user td arr0 bl opaque cn spread ixs Hd E Hn Hs Hi Hl) as (s & s' & vs & E1 & E2 & HL & R).
    exists s, s', vs. split; [exact E1|]. split; [exact E2|]. destruct R as (R1 & _). rewrite R1. unfold n. now rewrite HL.
  - destruct (LevelsFacts.pass_reported opaque f 1 (map (fun ix => (0, ix)) ixs) Hd) as (m & c & vs & E1 & R).
    + apply Forall_forall. intros [t ix] Hin. apply in_map_iff in Hin as (y & [= <- <-] & Hy). rewrite Forall_forall in Hi. auto.
    + now rewrite map_length.
    + rewrite map_length in R. exists m, c, vs. split; [exact E1|]. destruct R as (R1 & _ & _ & R2 & _).
      rewrite repeat_length in R1. split; [exact R1|]. rewrite R2. unfold n. f_equal. clear.
      induction (List.length ixs) as [|k IH]; [reflexivity|]. cbn. unfold CounterProofs.count in *. cbn. now rewrite IH.
Qed.

(** The tests with two threads, [n] reads each: [accesses == 0 || accesses > 2 * n] does not hold. *)
Lemma double_counters ts prog sch st n : 1 <= n ->
  (forall t, t < 2 -> List.length (CountFacts.reads_of (prog t)) = n) -> (forall t, 2 <= t -> prog t = []) ->
  CountModel.run ts (CountModel.init prog) sch = Some st -> (forall t, CountFacts.finished st t) ->
  1 <= CountModel.s_val st CountModel.NAccess <= 2 * n.
Proof.
  intros Hn Hl Hz Hr Hf. destruct (CountFacts.final_below ts prog 2 sch st CountModel.NAccess Hz Hr Hf) as [H1 H2].
  assert (CountFacts.occ_kind CountModel.NAccess (CountFacts.all_reads 2 prog) = 2 * n) as E.
  { cbn [CountFacts.occ_kind]. unfold CountFacts.all_reads. cbn [seq flat_map]. rewrite app_nil_r, app_length, !Hl by lia. lia. }
  rewrite E in *. split; [apply H2; lia|exact H1].
Qed.
