(** * interpol_time.py: proofs *)
From Coq Require Import ZArith Reals Bool List String Lia Lra.
From Flocq Require Import Core.Core IEEE754.BinarySingleNaN Relative.
From Verif Require Import Base TypesModel TypesFacts CoordModel CoordExact CoordFloat CoordFloat2 CoordFloat3 CoordFacts RangeFacts EndModel EndFacts SuiteModel SuiteFacts AxisFacts InterpolModel.
Import ListNotations.
Local Open Scope R_scope.

(** [x] is [r] up to a relative error [d]. *)
Definition close (d r x : R) : Prop := Rabs (x - r) <= d * Rabs r.

Lemma close_two u r e1 e2 : 0 < u <= / 1000000 -> Rabs e1 <= u -> Rabs e2 <= u -> close (3 * u) r (r * ((1 + e1) * (1 + e2))).
Proof.
  intros U H1 H2. unfold close. replace (r * ((1 + e1) * (1 + e2)) - r) with ((e1 + e2 + e1 * e2) * r) by ring.
  rewrite Rabs_mult. apply Rmult_le_compat_r; [apply Rabs_pos|].
  apply Rle_trans with (u + u + u * / 1000000); [|lra]. apply abs_add; [now apply abs_add|]. apply abs_mul; [exact H1|lra].
Qed.

(** ** Relative errors *)
Section Rel.
Variables prec emax : Z.
Context (Hp : Prec_gt_0 prec) (Hm : Prec_lt_emax prec emax).
Hypothesis Hprec : (20 <= prec)%Z.
Hypothesis Hemax : (100 <= emax)%Z.
Notation flt := (binary_float prec emax).
Notation u := (bpow radix2 (- prec)).
Notation rd := (round radix2 (SpecFloat.fexp prec emax) ZnearestE).

Lemma u_small : 0 < u <= / 1000000.
Proof.
  split; [apply bpow_gt_0|]. apply Rle_trans with (bpow radix2 (-20)); [apply bpow_le; lia|].
  change (bpow radix2 (-20)) with (/ 1048576). lra.
Qed.

Lemma rel_round x : bpow radix2 (2 - emax) <= Rabs x -> exists e, Rabs e <= u /\ rd x = x * (1 + e).
Proof.
  intros Hx. destruct (relative_error_N_FLT_ex radix2 (3 - emax - prec) prec Hp (fun z => negb (Z.even z)) x) as (e & He & Hr).
  { replace (3 - emax - prec + prec - 1)%Z with (2 - emax)%Z by lia. exact Hx. }
  exists e. split; [|exact Hr]. replace u with (/ 2 * bpow radix2 (- prec + 1)); [exact He|].
  rewrite bpow_plus. change (bpow radix2 1) with 2. field.
Qed.

Lemma rel_fits x e : Rabs x <= bpow radix2 (emax - 1) * (99 / 100) -> Rabs e <= u -> Rabs (x * (1 + e)) < bpow radix2 emax.
Proof.
  intros H He. pose proof u_small. apply Rle_lt_trans with (bpow radix2 (emax - 1) * (99 / 100) * (1001 / 1000)).
  - apply abs_mul; [exact H|]. apply Rle_trans with (1 + u); [apply abs_add; [rewrite Rabs_R1; lra|exact He]|lra].
  - replace emax with (emax - 1 + 1)%Z at 2 by lia. rewrite bpow_plus. change (bpow radix2 1) with 2.
    pose proof (bpow_gt_0 radix2 (emax - 1)). lra.
Qed.

Lemma mul_rel (x y : flt) : is_finite x = true -> is_finite y = true ->
  bpow radix2 (2 - emax) <= Rabs (B2R x * B2R y) <= bpow radix2 (emax - 1) * (99 / 100) ->
  is_finite (Bmult mode_NE x y) = true /\ exists e, Rabs e <= u /\ B2R (Bmult mode_NE x y) = B2R x * B2R y * (1 + e).
Proof.
  intros Fx Fy [Hl Hu]. destruct (rel_round _ Hl) as (e & He & Hr).
  pose proof (Bmult_correct prec emax Hp Hm mode_NE x y) as B. cbn [round_mode] in B.
  rewrite Hr in B. rewrite Rlt_bool_true in B by now apply rel_fits.
  destruct B as (B1 & B2 & _). rewrite Fx, Fy in B2. split; [exact B2|]. exists e. auto.
Qed.

Lemma div_rel (x y : flt) : is_finite x = true -> B2R y <> 0 ->
  bpow radix2 (2 - emax) <= Rabs (B2R x / B2R y) <= bpow radix2 (emax - 1) * (99 / 100) ->
  is_finite (Bdiv mode_NE x y) = true /\ exists e, Rabs e <= u /\ B2R (Bdiv mode_NE x y) = B2R x / B2R y * (1 + e).
Proof.
  intros Fx Ny [Hl Hu]. destruct (rel_round _ Hl) as (e & He & Hr).
  pose proof (Bdiv_correct prec emax Hp Hm mode_NE x y Ny) as B. cbn [round_mode] in B.
  rewrite Hr in B. rewrite Rlt_bool_true in B by now apply rel_fits.
  destruct B as (B1 & B2 & _). rewrite Fx in B2. split; [exact B2|]. exists e. auto.
Qed.

Definition ofz (z : Z) : flt := binary_normalize prec emax Hp Hm mode_NE z 0 false.
Lemma ofz_val z : (Z.abs z < 2 ^ 20)%Z -> is_finite (ofz z) = true /\ B2R (ofz z) = IZR z.
Proof.
  intros Hz. pose proof (binary_normalize_correct prec emax Hp Hm mode_NE z 0 false) as B. cbn zeta in B.
  assert (E : F2R (Defs.Float radix2 z 0) = IZR z) by (unfold F2R; cbn; lra). rewrite E in B.
  assert (G : round radix2 (SpecFloat.fexp prec emax) (round_mode mode_NE) (IZR z) = IZR z).
  { apply round_generic; [auto with typeclass_instances|].
    assert (FLT_format radix2 (3 - emax - prec) prec (IZR z)) as F.
    { exists (Defs.Float radix2 z 0); [now rewrite E| |cbn [Fexp]; lia].
      cbn [Fnum]. change (radix_val radix2) with 2%Z. apply Z.lt_le_trans with (1 := Hz). apply Z.pow_le_mono_r; lia. }
    apply generic_format_FLT in F; auto. }
  rewrite G in B. rewrite Rlt_bool_true in B.
  - destruct B as (B1 & B2 & _). auto.
  - rewrite <- abs_IZR. apply Rlt_trans with (IZR (2 ^ 20)); [apply IZR_lt; exact Hz|].
    change (IZR (2 ^ 20)) with (bpow radix2 20). apply bpow_lt. lia.
Qed.

Definition gstep (i : Z) (v : flt) : flt := Bdiv mode_NE (Bmult mode_NE (ofz i) v) (ofz 600).

Lemma gstep_zero i v : (Z.abs i < 2 ^ 20)%Z -> is_finite v = true -> IZR i * B2R v = 0 ->
  is_finite (gstep i v) = true /\ B2R (gstep i v) = 0.
Proof.
  intros Hi Fv Z. destruct (ofz_val i Hi) as [F0 E0]. destruct (ofz_val 600 ltac:(lia)) as [F6 E6].
  pose proof (Bmult_correct prec emax Hp Hm mode_NE (ofz i) v) as B.
  rewrite E0, Z, round_0, Rabs_R0, Rlt_bool_true in B by (auto with typeclass_instances; apply bpow_gt_0).
  destruct B as (B1 & B2 & _). rewrite F0, Fv in B2.
  pose proof (Bdiv_correct prec emax Hp Hm mode_NE (Bmult mode_NE (ofz i) v) (ofz 600)) as D.
  rewrite E6, B1 in D. specialize (D ltac:(lra)).
  replace (0 / 600) with 0 in D by lra. rewrite round_0, Rabs_R0, Rlt_bool_true in D by (auto with typeclass_instances; apply bpow_gt_0).
  destruct D as (D1 & D2 & _). rewrite B2 in D2. auto.
Qed.

Lemma gstep_rel i v : (1 <= i < 600)%Z -> is_finite v = true ->
  bpow radix2 (16 - emax) <= Rabs (B2R v) <= bpow radix2 (emax - 16) ->
  is_finite (gstep i v) = true /\ exists e1 e2, Rabs e1 <= u /\ Rabs e2 <= u /\
  B2R (gstep i v) = IZR i / 600 * B2R v * ((1 + e1) * (1 + e2)).
Proof.
  intros Hi Fv [Hl Hu]. pose proof u_small as U.
  destruct (ofz_val i ltac:(lia)) as [Fi Ei]. destruct (ofz_val 600 ltac:(lia)) as [F6 E6].
  assert (Ri : 1 <= IZR i <= 600) by (split; apply IZR_le; lia).
  assert (Lo : 65536 * bpow radix2 (- emax) <= Rabs (B2R v)).
  { replace (65536 * bpow radix2 (- emax)) with (bpow radix2 (16 - emax)); [exact Hl|].
    replace (16 - emax)%Z with (16 + - emax)%Z by lia. rewrite bpow_plus. reflexivity. }
  assert (Up : Rabs (B2R v) <= bpow radix2 emax * / 65536).
  { replace (bpow radix2 emax * / 65536) with (bpow radix2 (emax - 16)); [exact Hu|].
    replace (emax - 16)%Z with (emax + -16)%Z by lia. rewrite bpow_plus. reflexivity. }
  assert (L2 : bpow radix2 (2 - emax) = 4 * bpow radix2 (- emax)).
  { replace (2 - emax)%Z with (2 + - emax)%Z by lia. rewrite bpow_plus. reflexivity. }
  assert (U1 : bpow radix2 (emax - 1) = bpow radix2 emax * / 2).
  { replace (emax - 1)%Z with (emax + -1)%Z by lia. rewrite bpow_plus. reflexivity. }
  pose proof (bpow_gt_0 radix2 (- emax)) as P1. pose proof (bpow_gt_0 radix2 emax) as P2.
  assert (Pv : 0 < Rabs (B2R v)) by lra.
  destruct (mul_rel (ofz i) v Fi Fv) as [Fm (e1 & H1 & Em)].
  { rewrite Ei, Rabs_mult, (Rabs_pos_eq (IZR i)) by lra. rewrite L2, U1. split.
    - apply Rle_trans with (1 * Rabs (B2R v)); [lra|]. apply Rmult_le_compat_r; lra.
    - apply Rle_trans with (600 * (bpow radix2 emax * / 65536)); [apply Rmult_le_compat; lra|lra]. }
  rewrite Ei in Em.
  assert (H1' := H1). apply Rabs_le_inv in H1'.
  destruct (div_rel (Bmult mode_NE (ofz i) v) (ofz 600) Fm) as [Fd (e2 & H2 & Ed)].
  { rewrite E6. lra. }
  { rewrite E6, Em. unfold Rdiv. rewrite !Rabs_mult, (Rabs_pos_eq (IZR i)), (Rabs_pos_eq (/ 600)), (Rabs_pos_eq (1 + e1)) by lra.
    rewrite L2, U1. split.
    - apply Rle_trans with (1 * (65536 * bpow radix2 (- emax)) * (999 / 1000) * / 600); [lra|].
      apply Rmult_le_compat_r; [lra|]. apply Rmult_le_compat; [lra|lra| |lra]. apply Rmult_le_compat; lra.
    - apply Rle_trans with (600 * (bpow radix2 emax * / 65536) * (1001 / 1000) * / 600); [|lra].
      apply Rmult_le_compat_r; [lra|]. apply Rmult_le_compat; [|lra| |lra].
      + apply Rmult_le_pos; lra.
      + apply Rmult_le_compat; lra. }
  split; [exact Fd|]. exists e1, e2. split; [exact H1|]. split; [exact H2|].
  unfold gstep. rewrite Ed, E6, Em. field.
Qed.

Lemma gstep_close i v : (0 <= i < 600)%Z -> is_finite v = true ->
  (B2R v = 0 \/ bpow radix2 (16 - emax) <= Rabs (B2R v) <= bpow radix2 (emax - 16)) ->
  is_finite (gstep i v) = true /\ close (3 * u) (IZR i / 600 * B2R v) (B2R (gstep i v)).
Proof.
  intros Hi Fv Hv. pose proof u_small as U.
  assert (C : IZR i * B2R v = 0 \/ (1 <= i)%Z /\ bpow radix2 (16 - emax) <= Rabs (B2R v) <= bpow radix2 (emax - 16)).
  { destruct Hv as [->|Hv]; [left; ring|]. destruct (Z.eq_dec i 0) as [->|]; [left; ring|right; split; [lia|exact Hv]]. }
  destruct C as [Z|[H1 H2]].
  - destruct (gstep_zero i v ltac:(lia) Fv Z) as [F E]. split; [exact F|]. unfold close. rewrite E.
    replace (IZR i / 600 * B2R v) with (IZR i * B2R v / 600) by field. rewrite Z.
    replace (0 - 0 / 600) with 0 by field. replace (0 / 600) with 0 by field. rewrite Rabs_R0. lra.
  - destruct (gstep_rel i v ltac:(lia) Fv H2) as [F (e1 & e2 & A1 & A2 & E)]. split; [exact F|]. rewrite E. now apply close_two.
Qed.
End Rel.

Lemma weaken d d' r x : d <= d' -> close d r x -> close d' r x.
Proof. unfold close. intros H C. apply Rle_trans with (1 := C). apply Rmult_le_compat_r; [apply Rabs_pos|exact H]. Qed.

Lemma double_steps i v : (0 <= i < 600)%Z -> is_finite v = true ->
  (B2R v = 0 \/ bpow radix2 (-1000) <= Rabs (B2R v) <= bpow radix2 1000) ->
  is_finite (step_double i v) = true /\ close (3 * bpow radix2 (-53)) (IZR i / 600 * B2R v) (B2R (step_double i v)).
Proof.
  intros Hi Fv Hv. change (step_double i v) with (gstep 53 1024 Hprec53 Hmax1024 i v).
  apply gstep_close; auto; try lia. destruct Hv as [Hv|[A B]]; [now left|right].
  split; [apply Rle_trans with (2 := A); apply bpow_le; lia|apply Rle_trans with (1 := B); apply bpow_le; lia].
Qed.

(** ** Singles *)
Lemma to_single (x : f64) : is_finite x = true -> (B2R x = 0 \/ bpow radix2 (-126) <= Rabs (B2R x) <= bpow radix2 126) ->
  is_finite (f64_f32 x) = true /\ exists e, Rabs e <= bpow radix2 (-24) /\ B2R (f64_f32 x) = B2R x * (1 + e).
Proof.
  intros F H.
  assert (E : exists e, Rabs e <= bpow radix2 (-24) /\ rnd32 (B2R x) = B2R x * (1 + e)).
  { destruct H as [->|[H _]].
    - exists 0. split; [rewrite Rabs_R0; apply bpow_ge_0|]. rewrite Rmult_0_l. apply round_0. auto with typeclass_instances.
    - apply (rel_round 24 128 prec32). exact H. }
  destruct E as (e & He & E).
  destruct (conv_float (VD x) (B2R x) (conj F eq_refl)) as (f & Ef & Ff & Vf).
  - intros z K. discriminate K.
  - apply rabs_lt_emax32. destruct H as [->|[_ H]]; [rewrite Rabs_R0; apply bpow_gt_0|].
    apply Rle_lt_trans with (1 := H). apply bpow_lt. lia.
  - injection Ef as <-. split; [exact Ff|]. exists e. split; [exact He|]. now rewrite Vf.
Qed.

Lemma single_steps scalar i v : (0 <= i < 600)%Z -> is_finite v = true ->
  (B2R v = 0 \/ bpow radix2 (-112) <= Rabs (B2R v) <= bpow radix2 112) ->
  is_finite (step_single scalar i v) = true /\
  close (3 * bpow radix2 (-24)) (IZR i / 600 * B2R v) (B2R (step_single scalar i v)).
Proof.
  intros Hi Fv Hv. unfold step_single. destruct scalar.
  - destruct (f32_f64_value v Fv) as [F2 E2]. rewrite <- E2 in Hv |- *.
    destruct (double_steps i (f32_f64 v) Hi F2) as [F3 C3].
    { destruct Hv as [Hv|[A B]]; [now left|right]. split; [apply Rle_trans with (2 := A)|apply Rle_trans with (1 := B)]; apply bpow_le; lia. }
    set (x := step_double i (f32_f64 v)) in *. set (r := IZR i / 600 * B2R (f32_f64 v)) in *.
    assert (D53 : bpow radix2 (-53) = / 9007199254740992) by reflexivity.
    assert (D24 : bpow radix2 (-24) = / 16777216) by reflexivity.
    assert (M : 999 / 1000 * Rabs r <= Rabs (B2R x) <= 1001 / 1000 * Rabs r).
    { unfold close in C3. rewrite D53 in C3. pose proof (Rabs_triang_inv r (B2R x)) as T1. pose proof (Rabs_triang (B2R x - r) r) as T2.
      replace (B2R x - r + r) with (B2R x) in T2 by ring. rewrite (Rabs_minus_sym r) in T1. lra. }
    destruct M as [M1 M2].
    assert (K : B2R x = 0 \/ bpow radix2 (-126) <= Rabs (B2R x) <= bpow radix2 126).
    { destruct (Req_dec r 0) as [Z|Nz].
      - left. unfold close in C3. rewrite Z, Rminus_0_r, Rabs_R0, Rmult_0_r in C3.
        destruct (Req_dec (B2R x) 0) as [|N]; [assumption|]. apply Rabs_pos_lt in N. lra.
      - right. assert (Pi : (1 <= i)%Z) by (destruct (Z.eq_dec i 0) as [->|]; [exfalso; apply Nz; unfold r; field|lia]).
        assert (Ri : 1 <= IZR i <= 600) by (split; apply IZR_le; lia).
        destruct Hv as [Hv|[A B]]; [exfalso; apply Nz; unfold r; rewrite Hv; ring|].
        assert (Rr : bpow radix2 (-112) * / 600 <= Rabs r <= bpow radix2 112).
        { unfold r. rewrite Rabs_mult, (Rabs_pos_eq (IZR i / 600)) by lra. pose proof (bpow_gt_0 radix2 (-112)). split.
          - rewrite Rmult_comm. apply Rmult_le_compat; lra.
          - apply Rle_trans with (1 * bpow radix2 112); [apply Rmult_le_compat; try lra; apply Rabs_pos|lra]. }
        assert (B1 : bpow radix2 (-126) = bpow radix2 (-112) * / 16384).
        { change (-126)%Z with (-112 + -14)%Z. rewrite bpow_plus. reflexivity. }
        assert (B2 : bpow radix2 126 = bpow radix2 112 * 16384).
        { change 126%Z with (112 + 14)%Z. rewrite bpow_plus. reflexivity. }
        rewrite B1, B2. pose proof (bpow_gt_0 radix2 (-112)). pose proof (bpow_gt_0 radix2 112). clear - M1 M2 Rr H H0. lra. }
    destruct (to_single x F3 K) as [Ff (e & He & Ee)]. split; [exact Ff|]. unfold close. rewrite Ee.
    replace (B2R x * (1 + e) - r) with ((B2R x - r) + B2R x * e) by ring.
    apply Rle_trans with (3 * bpow radix2 (-53) * Rabs r + (1001 / 1000 * Rabs r) * bpow radix2 (-24)).
    + apply abs_add; [exact C3|]. apply abs_mul; [lra|exact He].
    + rewrite D53, D24. pose proof (Rabs_pos r). lra.
  - change (@Bdiv 24 128 prec32 prec32' mode_NE (@Bmult 24 128 prec32 prec32' mode_NE (z_f32 i) v) (z_f32 time_steps)) with (gstep 24 128 prec32 prec32' i v).
    apply gstep_close; auto; lia.
Qed.

(** ** Integers *)
Lemma trunc_div a : (Z.abs a <= 2 ^ 44)%Z -> Btrunc (Bdiv mode_NE (fnum a 0) (fnum 600 0)) = Z.quot a 600.
Proof.
  intros Ha. destruct (val_fin_inv _ _ (val_int a ltac:(lia))) as [Fa Ea].
  destruct (val_fin_inv _ _ (val_int 600 ltac:(lia))) as [F6 E6].
  assert (Ra : Rabs (IZR a) <= 17592186044416) by (rewrite <- abs_IZR; apply IZR_le; exact Ha).
  destruct (rnd_abs (IZR a / 600)) as (e & t & He & Ht & Hr).
  assert (Er : Rabs (rnd (IZR a / 600) - IZR a / 600) <= / 1000).
  { rewrite Hr. replace (IZR a / 600 * (1 + e) + t - IZR a / 600) with (IZR a * (e * / 600) + t) by field.
    apply Rle_trans with (17592186044416 * (ulp1 * / 600) + / 10000).
    - apply abs_add.
      + apply abs_mul; [exact Ra|]. apply abs_mul; [exact He|]. rewrite Rabs_pos_eq; lra.
      + apply Rle_trans with (1 := Ht). apply Rle_trans with (bpow radix2 (-20)); [apply bpow_le; lia|].
        change (bpow radix2 (-20)) with (/ 1048576). lra.
    - rewrite ulp1_val. lra. }
  assert (N6 : B2R (fnum 600 0) <> 0) by (rewrite E6; lra).
  pose proof (Bdiv_correct 53 1024 Hprec53 Hmax1024 mode_NE (fnum a 0) (fnum 600 0) N6) as D.
  rewrite Ea, E6 in D. change (round radix2 (SpecFloat.fexp 53 1024) (round_mode mode_NE) (IZR a / 600)) with (rnd (IZR a / 600)) in D.
  rewrite Rlt_bool_true in D.
  2:{ apply Rle_lt_trans with (bpow radix2 50); [|apply bpow_lt; lia].
      replace (rnd (IZR a / 600)) with ((rnd (IZR a / 600) - IZR a / 600) + IZR a * / 600) by (unfold Rdiv; ring).
      apply Rle_trans with (/ 1000 + 17592186044416 * / 600).
      - apply abs_add; [exact Er|]. apply abs_mul; [exact Ra|]. rewrite Rabs_pos_eq; lra.
      - change (bpow radix2 50) with 1125899906842624. lra. }
  destruct D as (D1 & D2 & _).
  assert (T : Btrunc (Bdiv mode_NE (fnum a 0) (fnum 600 0)) = Ztrunc (rnd (IZR a / 600))).
  { apply eq_IZR. rewrite Btrunc_correct by reflexivity. rewrite D1. unfold round, scaled_mantissa, F2R. cbn -[IZR].
    unfold cexp, FIX_exp. cbn -[IZR]. now rewrite !Rmult_1_r. }
  rewrite T. apply Rabs_le_inv in Er. set (n := Z.quot a 600).
  destruct (Z.le_gt_cases 0 a) as [Pa|Na].
  - pose proof (Z.quot_rem' a 600) as Q. fold n in Q. pose proof (Z.rem_bound_pos a 600 Pa ltac:(lia)) as Rm.
    assert (Eq : IZR a / 600 = IZR n + IZR (Z.rem a 600) / 600).
    { rewrite Q at 1. rewrite plus_IZR, mult_IZR. field. }
    assert (B : 0 <= IZR (Z.rem a 600) <= 599) by (split; apply IZR_le; lia).
    assert (Pn : (0 <= n)%Z) by (apply Z.quot_pos; lia).
    assert (Lo : IZR n <= rnd (IZR a / 600)).
    { rewrite <- (rnd_IZR n) by (unfold n; pose proof (Z.quot_le_upper_bound a 600 (2 ^ 44)); lia). apply rnd_mono. rewrite Eq. lra. }
    assert (0 <= IZR n) by (apply (IZR_le 0); exact Pn).
    rewrite Ztrunc_floor by lra. apply Zfloor_imp. rewrite plus_IZR. rewrite Eq in Er. rewrite Eq in *. lra.
  - pose proof (Z.quot_rem' a 600) as Q. fold n in Q. pose proof (Z.rem_bound_pos_neg a 600 ltac:(lia) ltac:(lia)) as Rm.
    assert (Eq : IZR a / 600 = IZR n + IZR (Z.rem a 600) / 600).
    { rewrite Q at 1. rewrite plus_IZR, mult_IZR. field. }
    assert (B : -599 <= IZR (Z.rem a 600) <= 0) by (split; apply IZR_le; lia).
    assert (Pn : (n <= 0)%Z) by lia.
    assert (Up : rnd (IZR a / 600) <= IZR n).
    { rewrite <- (rnd_IZR n) by lia. apply rnd_mono. rewrite Eq. lra. }
    assert (IZR n <= 0) by (apply (IZR_le n 0); exact Pn).
    rewrite Ztrunc_ceil by lra. apply Zceil_imp. rewrite minus_IZR. rewrite Eq in *. lra.
Qed.

(** The values of a type. *)
Definition in_bits (b z : Z) : Prop := (- 2 ^ (b - 1) <= z < 2 ^ (b - 1))%Z.

Lemma quot_range b i v : (1 <= b)%Z -> (0 <= i < 600)%Z -> in_bits b v -> in_bits b (Z.quot (i * v) 600).
Proof.
  unfold in_bits. intros Hb Hi Hv. destruct (Z.le_gt_cases 0 v) as [P|N].
  - pose proof (Z.quot_pos (i * v) 600 ltac:(nia) ltac:(lia)).
    pose proof (Z.quot_le_upper_bound (i * v) 600 v ltac:(lia) ltac:(nia)). lia.
  - assert (E : (i * v = - (i * - v))%Z) by ring. rewrite E, Z.quot_opp_l by lia.
    pose proof (Z.quot_pos (i * - v) 600 ltac:(nia) ltac:(lia)).
    pose proof (Z.quot_le_upper_bound (i * - v) 600 (- v) ltac:(lia) ltac:(nia)). lia.
Qed.

Lemma int_steps w scalar i v : (0 <= i < 600)%Z -> in_bits (bits w) v -> in_bits (product_bits w scalar i) (i * v) ->
  step_int w scalar i v = Z.quot (i * v) 600.
Proof.
  intros Hi Hv Hp. unfold step_int.
  rewrite (signed_id (product_bits w scalar i)).
  - change (z_f64 (i * v)) with (fnum (i * v) 0). change (z_f64 time_steps) with (fnum 600 0). rewrite trunc_div.
    + apply signed_id; [destruct w; cbn; lia|]. apply quot_range; auto. destruct w; cbn; lia.
    + assert (Z.abs v <= 2 ^ 31)%Z by (unfold in_bits in Hv; destruct w; cbn in Hv; lia). nia.
  - unfold product_bits. destruct scalar; [lia|]. destruct w; cbn; try lia. destruct (i <? 128)%Z; lia.
  - exact Hp.
Qed.
Lemma int_scalar w i v : (0 <= i < 600)%Z -> in_bits (bits w) v -> in_bits (product_bits w true i) (i * v).
Proof.
  unfold in_bits. intros Hi Hv. cbn [product_bits].
  assert (Z.abs v <= 2 ^ 31)%Z by (destruct w; cbn in Hv; lia). change (2 ^ (64 - 1))%Z with 9223372036854775808%Z. nia.
Qed.

(** ** The time axis *)
Lemma time_all : forallb (fun k => Beqb (f32_f64 (time_value (Z.of_nat k))) (fnum (Z.of_nat k) (-1)) && is_finite (time_value (Z.of_nat k)))%bool (seq 0 600) = true.
Proof. vm_compute. reflexivity. Qed.
Lemma half_val k : (0 <= k < 600)%Z -> val (fnum k (-1)) = XFin (IZR k / 2).
Proof.
  intros Hk. rewrite val_fnum. unfold F2R. cbn [Fnum Fexp]. change (bpow radix2 (-1)) with (/ 2).
  assert (G : rnd (IZR k * / 2) = IZR k / 2).
  { apply round_generic; [auto with typeclass_instances|].
    assert (FLT_format radix2 (-1074) 53 (IZR k / 2)) as F.
    { exists (Defs.Float radix2 k (-1)); [reflexivity| |cbn; lia]. cbn [Fnum]. change (radix_val radix2) with 2%Z. lia. }
    apply generic_format_FLT in F; auto. }
  rewrite G. unfold sat. rewrite Rlt_bool_true; [reflexivity|].
  assert (0 <= IZR k <= 600) by (split; apply IZR_le; lia). rewrite Rabs_pos_eq by lra.
  apply Rle_lt_trans with (bpow radix2 10); [change (bpow radix2 10) with 1024; lra|unfold big; apply bpow_lt; lia].
Qed.
Lemma time_val k : (0 <= k < 600)%Z -> is_finite (time_value k) = true /\ B2R (time_value k) = IZR k / 2.
Proof.
  intros Hk. pose proof time_all as A. rewrite forallb_forall in A. specialize (A (Z.to_nat k)).
  rewrite Z2Nat.id in A by lia. rewrite andb_true_iff in A. destruct A as [A F]; [apply in_seq; lia|].
  split; [exact F|]. destruct (f32_f64_value _ F) as [F2 E2]. rewrite <- E2.
  destruct (val_fin_inv _ _ (half_val k Hk)) as [Fh Eh].
  rewrite (Beqb_correct 53 1024 _ _ F2 Fh) in A. rewrite <- Eh. destruct (Req_bool_spec (B2R (f32_f64 (time_value k))) (B2R (fnum k (-1)))); [assumption|discriminate].
Qed.

Definition time_axis : axis ieee := @Axis ieee time_steps (Some (fun k => f32_f64 (time_value k))).
Lemma time_usual : usual_axis time_axis.
Proof.
  split; [change (x_size time_axis) with 600%Z; lia|]. intros c H. injection H as <-.
  assert (N : near_regular 600 (fun k => f32_f64 (time_value k)) 0 (/ 2)).
  { intros k Hk. destruct (time_val k Hk) as [F E]. destruct (f32_f64_value _ F) as [F2 E2]. split; [exact F2|].
    rewrite E2, E. replace (IZR k / 2 - (0 + IZR k * / 2)) with 0 by field. rewrite Rabs_R0, (Rabs_pos_eq (/ 2)) by lra. lra. }
  split; [apply (N 0%Z); lia|]. intros _. exists 0, (/ 2). split; [|exact N].
  rewrite Rabs_pos_eq by lra. change (/ 2) with (bpow radix2 (-1)). split; apply bpow_le; lia.
Qed.
Lemma time_read (s : f64) k : (0 <= k < 600)%Z -> s = fnum k (-1) ->
  exists w, @dim_index ieee time_axis s = Ok (k, w).
Proof.
  intros Hk ->. destruct (own_dim time_axis k time_usual Hk) as (w & E). exists w.
  assert (EQ : f32_f64 (time_value k) = fnum k (-1)).
  { destruct (time_val k Hk) as [F E1]. destruct (f32_f64_value _ F) as [F2 E2]. destruct (val_fin_inv _ _ (half_val k Hk)) as [Fh Eh].
    destruct (Z.eq_dec k 0) as [->|N]; [vm_compute; reflexivity|].
    apply B2R_inj.
    - apply is_finite_strict_B2R. rewrite E2, E1. apply (IZR_neq k 0) in N. lra.
    - apply is_finite_strict_B2R. rewrite Eh. apply (IZR_neq k 0) in N. lra.
    - rewrite E2, E1, Eh. reflexivity. }
  unfold coordinate in E. cbn [time_axis x_var] in E. now rewrite EQ in E.
Qed.

Lemma time_index vp k : (0 <= k < 600)%Z ->
  let m := open_dim ieee vp time_axis in
  exists w, pos2index_dim ieee (dm_off m) (dm_sinv m) (dm_size m) (fnum k (-1)) = Ok (k, w).
Proof.
  intros Hk m. destruct (time_read (fnum k (-1)) k Hk eq_refl) as (w & E). exists w. rewrite <- E. apply open_dim_index.
Qed.

(** ** The file *)
(** The product fits into the type of the variable, or is not computed in it. *)
Definition no_overflow (w : width) (dims : nat) (i v : Z) : Prop := dims = 1%nat \/ in_bits (bits w) (i * v).
(** Zero or a number with room for a factor 600. *)
Definition moderate (e : Z) (v : R) : Prop := v = 0 \/ bpow radix2 (- e) <= Rabs v <= bpow radix2 e.

(** What is stored for step [i]: the share [i / 600] of the value. *)
Definition shares (dims : nat) (old new : content) : Prop :=
  match old, new with
  | CInt w f, CInt w' g => w' = w /\ forall i ix, (i < 600)%nat -> in_bits (bits w) (f ix) ->
      no_overflow w dims (Z.of_nat i) (f ix) -> g (i :: ix) = Z.quot (Z.of_nat i * f ix) 600
  | CSingle f, CSingle g => forall i ix, (i < 600)%nat -> is_finite (f ix) = true -> moderate 112 (B2R (f ix)) ->
      is_finite (g (i :: ix)) = true /\ close (3 * bpow radix2 (-24)) (INR i / 600 * B2R (f ix)) (B2R (g (i :: ix)))
  | CDouble f, CDouble g => forall i ix, (i < 600)%nat -> is_finite (f ix) = true -> moderate 1000 (B2R (f ix)) ->
      is_finite (g (i :: ix)) = true /\ close (3 * bpow radix2 (-53)) (INR i / 600 * B2R (f ix)) (B2R (g (i :: ix)))
  | _, _ => False
  end.

Lemma steps_shares n c : shares n c (steps (n =? 1)%nat c).
Proof.
  destruct c as [w f|f|f]; cbn [steps shares].
  - split; [reflexivity|]. intros i ix Hi Hv Ho. cbn [hd tl]. apply int_steps; [lia|exact Hv|].
    destruct Ho as [->|Ho]; [apply int_scalar; [lia|exact Hv]|].
    destruct (n =? 1)%nat; [apply int_scalar; [lia|exact Hv]|]. unfold in_bits in *. destruct w; cbn [product_bits bits] in *; auto.
    destruct (Z.of_nat i <? 128)%Z; [exact Ho|]. cbn in *. lia.
  - intros i ix Hi F M. cbn [hd tl]. rewrite INR_IZR_INZ. apply single_steps; [lia|exact F|exact M].
  - intros i ix Hi F M. cbn [hd tl]. rewrite INR_IZR_INZ. apply double_steps; [lia|exact F|exact M].
Qed.

Definition dim_name (f : ifile) (n : string) : Prop := exists k, In (n, k) (i_dim f).
Lemma names_dim_spec f n : names_dim f n = true <-> dim_name f n.
Proof.
  unfold names_dim, dim_name. rewrite existsb_exists. split.
  - intros ([m k] & H & E). apply String.eqb_eq in E. cbn in E. subst. eauto.
  - intros (k & H). exists (n, k). split; [exact H|]. apply String.eqb_refl.
Qed.
(** Shapes which are modelled: no empty dimension; a variable with the name of a dimension has this dimension only; no
    scalars. *)
Definition modelled (f : ifile) : Prop :=
  (forall n k, In (n, k) (i_dim f) -> (0 < k)%nat) /\
  forall v, In v (i_vars f) -> (dim_name f (i_name v) -> i_dims v = [i_name v]) /\ i_dims v <> [].

Lemma modelled_spec f : modelled f <->
  forallb (fun d => (0 <? snd d)%nat) (i_dim f) = true /\ forallb (plain_shape f) (i_vars f) = true.
Proof.
  unfold modelled. rewrite !forallb_forall. split.
  - intros [H1 H2]. split.
    + intros [n k] H. apply Nat.ltb_lt. eauto.
    + intros v H. destruct (H2 v H) as [A B]. unfold plain_shape, is_coord.
      destruct (names_dim f (i_name v)) eqn:E.
      * rewrite (A (proj1 (names_dim_spec _ _) E)). apply String.eqb_refl.
      * destruct (i_dims v); [now elim B|reflexivity].
  - intros [H1 H2]. split.
    + intros n k H. apply Nat.ltb_lt. apply (H1 (n, k) H).
    + intros v H. specialize (H2 v H). unfold plain_shape, is_coord in H2. destruct (names_dim f (i_name v)) eqn:E.
      * destruct (i_dims v) as [|n [|]]; try discriminate H2. apply String.eqb_eq in H2. subst. split; [reflexivity|discriminate].
      * split; [|intros K; rewrite K in H2; discriminate]. intros D. apply names_dim_spec in D. congruence.
Qed.

Lemma raised_iff f : interpol f = Raised <->
  dim_name f "time" \/ modelled f /\ exists v, In v (i_vars f) /\ i_name v = "time"%string.
Proof.
  unfold interpol. destruct (names_dim f "time") eqn:E.
  - apply names_dim_spec in E. tauto.
  - assert (N : ~ dim_name f "time") by (intros K; apply names_dim_spec in K; congruence).
    destruct (forallb (fun d => (0 <? snd d)%nat) (i_dim f)) eqn:E1; cbn [negb].
    2:{ split; [discriminate|]. intros [K|[K _]]; [tauto|]. apply modelled_spec in K. destruct K. congruence. }
    destruct (forallb (plain_shape f) (i_vars f)) eqn:E2; cbn [negb].
    2:{ split; [discriminate|]. intros [K|[K _]]; [tauto|]. apply modelled_spec in K. destruct K. congruence. }
    assert (M : modelled f) by (apply modelled_spec; auto).
    destruct (existsb _ _) eqn:E3.
    + split; [|reflexivity]. intros _. right. split; [exact M|]. apply existsb_exists in E3. destruct E3 as (v & H & K).
      apply filter_In in H. apply String.eqb_eq in K. exists v. tauto.
    + split; [discriminate|]. intros [K|[_ (v & H & K)]]; [tauto|]. exfalso.
      assert (existsb (fun v => String.eqb (i_name v) "time") (filter (fun v => negb (is_coord f v)) (i_vars f)) = true) as X; [|congruence].
      apply existsb_exists. exists v. split; [|now rewrite K].
      apply filter_In. split; [exact H|]. unfold is_coord. rewrite K, E. reflexivity.
Qed.

Lemma written_spec f g : interpol f = Written g ->
  (forall n k, In (n, k) (i_dim g) <-> In (n, k) (i_dim f) \/ n = "time"%string /\ k = 600%nat) /\
  (forall w, In w (i_vars g) -> w = time_var \/
     exists v, In v (i_vars f) /\ i_name w = i_name v /\
       (dim_name f (i_name v) /\ w = v \/
        ~ dim_name f (i_name v) /\ i_dims w = "time"%string :: i_dims v /\ shares (List.length (i_dims v)) (i_data v) (i_data w))) /\
  (forall v, In v (i_vars f) -> exists w, In w (i_vars g) /\ i_name w = i_name v) /\ In time_var (i_vars g) /\
  (NoDup (map i_name (i_vars f)) -> NoDup (map i_name (i_vars g))).
Proof.
  unfold interpol. destruct (names_dim f "time") eqn:E; [discriminate|].
  destruct (forallb (fun d => (0 <? snd d)%nat) (i_dim f)) eqn:E1; cbn [negb]; [|discriminate].
  destruct (forallb (plain_shape f) (i_vars f)) eqn:E2; cbn [negb]; [|discriminate].
  assert (M : modelled f) by (apply modelled_spec; auto). destruct M as [M1 M2].
  destruct (existsb _ _) eqn:E3; [discriminate|]. intros H. injection H as <-. cbn [i_dim i_vars].
  split; [|split; [|split; [|split]]].
  - intros n k. rewrite in_app_iff. cbn. split; intros [H|H]; auto.
    + destruct H as [H|[]]. injection H as <- <-. auto.
    + destruct H as [-> ->]. auto.
  - intros w. rewrite !in_app_iff. intros [H|[H|H]].
    + apply in_map_iff in H. destruct H as (v & <- & H). apply filter_In in H. destruct H as [H K].
      apply names_dim_spec in K. right. exists v. split; [exact H|]. split; [reflexivity|]. left. split; [exact K|].
      destruct v as [n d c]. unfold copy_coord. cbn in *. destruct (M2 _ H) as [A _]. cbn in A. rewrite (A K). reflexivity.
    + auto.
    + apply in_map_iff in H. destruct H as (v & <- & H). apply filter_In in H. destruct H as [H K].
      right. exists v. split; [exact H|]. split; [reflexivity|]. right. split.
      * intros D. apply names_dim_spec in D. unfold is_coord in K. rewrite D in K. discriminate.
      * split; [reflexivity|]. apply steps_shares.
  - intros v H. destruct (is_coord f v) eqn:K.
    + exists (copy_coord v). split; [|reflexivity]. apply in_app_iff. left. apply in_map, filter_In. auto.
    + exists (add_time v). split; [|reflexivity]. rewrite !in_app_iff. right. right. apply in_map, filter_In. rewrite K. auto.
  - rewrite !in_app_iff. right. now left.
  - intros ND. rewrite map_app. cbn [map]. rewrite !map_map. cbn [i_name time_var].
    change (fun x => i_name (copy_coord x)) with i_name. change (fun x => i_name (add_time x)) with i_name.
    change (NoDup (map i_name (filter (is_coord f) (i_vars f)) ++ "time"%string :: map i_name (filter (fun v => negb (is_coord f v)) (i_vars f)))).
    apply NoDup_Add with (a := "time"%string) (l := map i_name (filter (is_coord f) (i_vars f)) ++ map i_name (filter (fun v => negb (is_coord f v)) (i_vars f))).
    { apply Add_app. }
    split.
    + clear - ND. induction (i_vars f) as [|v l IH]; [constructor|]. cbn in ND. inversion ND as [|? ? N1 N2]; subst.
      specialize (IH N2). cbn [filter]. destruct (is_coord f v); cbn [negb map app].
      * constructor; [|exact IH]. rewrite in_app_iff, !in_map_iff. intros [(x & A & B)|(x & A & B)]; apply filter_In in B; apply N1, in_map_iff; exists x; tauto.
      * apply NoDup_Add with (a := i_name v) (l := map i_name (filter (is_coord f) l) ++ map i_name (filter (fun v0 => negb (is_coord f v0)) l)); [apply Add_app|].
        split; [exact IH|]. rewrite in_app_iff, !in_map_iff. intros [(x & A & B)|(x & A & B)]; apply filter_In in B; apply N1, in_map_iff; exists x; tauto.
    + rewrite in_app_iff, !in_map_iff. intros [(v & K & H)|(v & K & H)].
      * apply filter_In in H. destruct H as [_ H]. unfold is_coord in H. rewrite K in H. congruence.
      * assert (existsb (fun v => String.eqb (i_name v) "time") (filter (fun v => negb (is_coord f v)) (i_vars f)) = true) as X; [|congruence].
        apply existsb_exists. exists v. split; [exact H|]. now rewrite K.
Qed.

(** ** Findings *)
Lemma int_wraps : exists w i v, (0 <= i < 600)%Z /\ in_bits (bits w) v /\
  step_int w false i v <> Z.quot (i * v) 600 /\ (0 < v)%Z /\ (step_int w false i v < 0)%Z.
Proof. exists W2, 400%Z, 100%Z. unfold in_bits. cbn [bits]. split; [lia|]. split; [cbn; lia|]. vm_compute. repeat split; discriminate. Qed.
Lemma single_inf : exists i v, (0 <= i < 600)%Z /\ is_finite v = true /\ is_finite (step_single false i v) = false.
Proof. exists 300%Z, (binary_normalize 24 128 prec32 prec32' mode_NE 1 120 false). split; [lia|]. split; vm_compute; reflexivity. Qed.
Lemma range_wrong : forall k, (0 <= k < 600)%Z -> B2R (time_value k) <= 299.5 < IZR (snd actual_range).
Proof.
  intros k Hk. change (IZR (snd actual_range)) with 600. rewrite (proj2 (time_val k Hk)). assert (IZR k <= 599) by (apply IZR_le; lia). lra.
Qed.

Lemma written_iff f : (exists g, interpol f = Written g) <->
  modelled f /\ ~ dim_name f "time" /\ ~ exists v, In v (i_vars f) /\ i_name v = "time"%string.
Proof.
  split.
  - intros [g H]. assert (M : modelled f).
    { apply modelled_spec. unfold interpol in H. destruct (names_dim f "time"); [discriminate|].
      destruct (forallb (fun d => (0 <? snd d)%nat) (i_dim f)); cbn [negb] in H; [|discriminate].
      destruct (forallb (plain_shape f) (i_vars f)); cbn [negb] in H; [auto|discriminate]. }
    split; [exact M|].
    assert (N : interpol f <> Raised) by congruence. rewrite raised_iff in N. tauto.
  - intros (M & N1 & N2). assert (N : interpol f <> Raised) by (rewrite raised_iff; tauto).
    unfold interpol in *. destruct (names_dim f "time"); [congruence|].
    apply modelled_spec in M. destruct M as [M1 M2]. rewrite M1, M2 in *. cbn [negb] in *.
    destruct (existsb _ _); [congruence|]. eauto.
Qed.

Lemma time_spec : (i_name time_var = "time"%string /\ i_dims time_var = ["time"%string] /\
    exists d, i_data time_var = CSingle d /\ forall k, d [k] = time_value (Z.of_nat k)) /\
  forall k, (0 <= k < 600)%Z ->
  is_finite (time_value k) = true /\ B2R (time_value k) = (IZR k / 2)%R /\
  forall vp, let m := open_dim ieee vp time_axis in
  exists w, pos2index_dim ieee (dm_off m) (dm_sinv m) (dm_size m) (fnum k (-1)) = Ok (k, w).
Proof.
  split.
  - split; [reflexivity|]. split; [reflexivity|]. eexists. split; [reflexivity|]. reflexivity.
  - intros k Hk. destruct (time_val k Hk) as [F E]. split; [exact F|]. split; [exact E|]. intros vp. exact (time_index vp k Hk).
Qed.
