(** * Coordinates in IEEE-754 double arithmetic: distance to the nearest cell *)
From Coq Require Import ZArith Reals Bool List Lia Lra.
From Flocq Require Import Core.Core IEEE754.BinarySingleNaN Relative Plus_error.
From Verif Require Import Base CoordModel CoordExact CoordFloat CoordFloat2.
Local Open Scope R_scope.

Definition ulp1 : R := bpow radix2 (-53).

Lemma ulp1_val : ulp1 = / 9007199254740992.
Proof. unfold ulp1. cbn. reflexivity. Qed.

Lemma half_ulp : / 2 * bpow radix2 (Z.opp 53 + 1) = ulp1.
Proof. unfold ulp1. cbn. lra. Qed.

Lemma rnd_rel : forall x, bpow radix2 (-1022) <= Rabs x ->
  exists e, Rabs e <= ulp1 /\ rnd x = x * (1 + e).
Proof.
  intros x Hx.
  destruct (relative_error_N_FLT_ex radix2 (-1074) 53 ltac:(lia) (fun z => negb (Z.even z)) x Hx)
    as (e & He & Hr).
  exists e. rewrite half_ulp in He. split; [exact He | exact Hr].
Qed.

Lemma rnd_abs : forall x, exists e t,
  Rabs e <= ulp1 /\ Rabs t <= bpow radix2 (-1074) /\ rnd x = x * (1 + e) + t.
Proof.
  intros x.
  destruct (error_N_FLT radix2 (-1074) 53 ltac:(lia) (fun z => negb (Z.even z)) x)
    as (e & t & He & Ht & _ & Hr).
  exists e, t. rewrite half_ulp in He. split; [exact He |]. split; [| exact Hr].
  pose proof (bpow_gt_0 radix2 (-1074)). lra.
Qed.

Lemma rnd_plus : forall x y,
  generic_format radix2 fexp64 x -> generic_format radix2 fexp64 y ->
  exists e, Rabs e <= ulp1 /\ rnd (x + y) = (x + y) * (1 + e).
Proof.
  intros x y Fx Fy.
  destruct (FLT_plus_error_N_ex radix2 (-1074) 53 (fun z => negb (Z.even z)) x y Fx Fy)
    as (e & He & Hr).
  exists e. split; [| exact Hr]. apply Rle_trans with (1 := He).
  unfold u_ro. rewrite half_ulp. pose proof (bpow_gt_0 radix2 (-53)) as P. fold ulp1 in P.
  apply Rmult_le_reg_r with (1 + ulp1); [lra |]. unfold Rdiv. rewrite Rmult_assoc, Rinv_l by lra.
  nra.
Qed.

Lemma abs_mul : forall a b x y, Rabs a <= x -> Rabs b <= y -> Rabs (a * b) <= x * y.
Proof.
  intros a b x y Ha Hb. rewrite Rabs_mult.
  apply Rmult_le_compat; auto using Rabs_pos.
Qed.

Lemma abs_add : forall a b x y, Rabs a <= x -> Rabs b <= y -> Rabs (a + b) <= x + y.
Proof. intros a b x y Ha Hb. apply Rle_trans with (1 := Rabs_triang a b). lra. Qed.

Lemma tiny : bpow radix2 (-1074) <= ulp1 * ulp1.
Proof. unfold ulp1. rewrite <- bpow_plus. apply bpow_le. lia. Qed.

(** The value which is rounded down is close to the exact one. *)
Lemma chain_error : forall v e1 e2 e3 t e4 N,
  Rabs e1 <= ulp1 -> Rabs e2 <= ulp1 -> Rabs e3 <= ulp1 -> Rabs e4 <= ulp1 ->
  Rabs t <= ulp1 * ulp1 -> 1 <= N -> Rabs v <= N ->
  let m := v * (1 + e1) * (1 + e2) * (1 + e3) + t in
  Rabs ((m + 1 / 2) * (1 + e4) - (v + 1 / 2)) <= 5 * ulp1 * N /\ Rabs m <= 2 * N.
Proof.
  intros v e1 e2 e3 t e4 N H1 H2 H3 H4 Ht HN Hv m.
  assert (Hu : 0 < ulp1 <= / 1000000) by (rewrite ulp1_val; lra).
  set (k := (1 + e1) * (1 + e2) * (1 + e3) - 1).
  assert (Hk : Rabs k <= 301 / 100 * ulp1).
  { replace k with ((e1 + e2 + e3) + (e1 * e2 + (e1 * e3 + e2 * e3)) + e1 * e2 * e3)
      by (unfold k; ring).
    apply Rle_trans with ((ulp1 + ulp1 + ulp1) + (ulp1 * ulp1 + (ulp1 * ulp1 + ulp1 * ulp1))
                          + ulp1 * ulp1 * ulp1).
    - repeat (apply abs_add || apply abs_mul); assumption.
    - nra. }
  assert (Em : m = v + v * k + t) by (unfold m, k; ring).
  assert (Hm : Rabs m <= N + N * (301 / 100 * ulp1) + ulp1 * ulp1).
  { rewrite Em. repeat (apply abs_add || apply abs_mul); assumption. }
  split.
  - replace ((m + 1 / 2) * (1 + e4) - (v + 1 / 2)) with (v * k + t + (m + 1 / 2) * e4)
      by (rewrite Em; ring).
    apply Rle_trans with (N * (301 / 100 * ulp1) + ulp1 * ulp1
       + (N + N * (301 / 100 * ulp1) + ulp1 * ulp1 + 1 / 2) * ulp1).
    + apply abs_add; [apply abs_add; [apply abs_mul |] |]; try assumption.
      apply abs_mul; [| assumption]. apply abs_add; [assumption |].
      rewrite Rabs_right; lra.
    + assert (P1 : ulp1 * ulp1 <= / 1000000 * ulp1) by nra.
      assert (P2 : N * ulp1 * ulp1 <= N * (/ 1000000 * ulp1)) by nra.
      assert (P3 : ulp1 * ulp1 * ulp1 <= / 1000000 * ulp1) by nra.
      assert (P4 : ulp1 <= N * ulp1) by nra.
      lra.
  - assert (N * ulp1 <= N * / 1000000) by nra. assert (ulp1 * ulp1 <= / 1000000) by nra. lra.
Qed.

Lemma format_B2R : forall x : f64, generic_format radix2 fexp64 (B2R x).
Proof. intros x. apply (generic_format_B2R 53 1024). Qed.

(** Cells are reached up to a relative error of 5/2^53 of the extent. *)
Lemma float_close : forall (off s p : f64) n,
  is_finite off = true -> is_finite s = true -> is_finite p = true ->
  bpow radix2 (-900) <= Rabs (B2R s) <= bpow radix2 900 ->
  (1 <= n <= two53)%Z ->
  - (1 / 2) <= (B2R p - B2R off) / B2R s <= IZR n - 1 / 2 ->
  exists i w,
    pos2index_dim ieee off (inv_scaling ieee s) n p = Ok (i, w) /\ (0 <= i < n)%Z /\
    Rabs ((B2R p - B2R off) / B2R s - IZR i) <= 1 / 2 + 5 * ulp1 * IZR n.
Proof.
  intros off s p n Fo Fs Fp Hs Hn Hv.
  set (v := (B2R p - B2R off) / B2R s) in *.
  set (N := IZR n) in *.
  assert (HN : 1 <= N <= 9007199254740992).
  { unfold N. split; apply IZR_le; unfold two53 in Hn; lia. }
  assert (NZ : B2R s <> 0).
  { intros E. rewrite E, Rabs_R0 in Hs. pose proof (bpow_gt_0 radix2 (-900)). lra. }
  assert (Hu : 0 < ulp1 <= / 1000000) by (rewrite ulp1_val; lra).
  assert (Hvn : Rabs v <= N) by (apply Rabs_le; lra).
  assert (E1 : exists d, Bminus mode_NE p off = d /\ is_finite d = true /\
     exists e1, Rabs e1 <= ulp1 /\ B2R d = (B2R p - B2R off) * (1 + e1)).
  { eexists. split; [reflexivity |].
    assert (Fo' : generic_format radix2 fexp64 (- B2R off)) by apply generic_format_opp, format_B2R.
    destruct (rnd_plus (B2R p) (- B2R off) (format_B2R p) Fo') as (e1 & He & Hr).
    change (B2R p + - B2R off) with (B2R p - B2R off) in Hr.
    pose proof (val_sub p off Fp Fo) as V. rewrite Hr in V.
    assert (L : Rabs ((B2R p - B2R off) * (1 + e1)) < big).
    { replace (B2R p - B2R off) with (v * B2R s) by (unfold v; field; exact NZ).
      apply Rle_lt_trans with (bpow radix2 53 * bpow radix2 900 * bpow radix2 1).
      - apply abs_mul; [apply abs_mul |].
        + apply Rle_trans with (1 := Hvn). change (bpow radix2 53) with 9007199254740992. lra.
        + lra.
        + change (bpow radix2 1) with 2. apply Rle_trans with (1 + ulp1); [| lra].
          apply abs_add; [rewrite Rabs_R1; lra | exact He].
      - unfold big. rewrite <- !bpow_plus. apply bpow_lt. lia. }
    unfold sat in V. rewrite Rlt_bool_true in V by exact L.
    apply val_fin_inv in V. destruct V as [V1 V2]. split; [exact V1 |]. exists e1. auto. }
  assert (E2 : exists si, inv_scaling ieee s = si /\ is_finite si = true /\
     exists e2, Rabs e2 <= ulp1 /\ B2R si = / B2R s * (1 + e2)).
  { eexists. split; [reflexivity |].
    assert (HI : inv_scaling ieee s = Bdiv mode_NE (fnum 1 0) s).
    { destruct s as [sg | sg | | sg m e H]; try discriminate; [now elim NZ |].
      rewrite inv_float by reflexivity. reflexivity. }
    rewrite HI.
    destruct (val_fin_inv _ _ (val_int 1 ltac:(lia))) as [F1 Eo].
    pose proof (val_div (fnum 1 0) s F1 Fs NZ) as V. rewrite Eo in V.
    replace (1 / B2R s) with (/ B2R s) in V by (field; exact NZ).
    assert (Hlo : bpow radix2 (-900) <= Rabs (/ B2R s)).
    { rewrite Rabs_inv. replace (bpow radix2 (-900)) with (/ bpow radix2 900) by (rewrite <- bpow_opp; reflexivity).
      apply Rinv_le_contravar; [now apply Rabs_pos_lt | lra]. }
    assert (Hup : Rabs (/ B2R s) <= bpow radix2 900).
    { rewrite Rabs_inv. replace (bpow radix2 900) with (/ bpow radix2 (-900)) by (rewrite <- bpow_opp; reflexivity).
      apply Rinv_le_contravar; [apply bpow_gt_0 | lra]. }
    destruct (rnd_rel (/ B2R s)) as (e2 & He & Hr).
    { apply Rle_trans with (2 := Hlo). apply bpow_le. lia. }
    rewrite Hr in V.
    assert (L : Rabs (/ B2R s * (1 + e2)) < big).
    { apply Rle_lt_trans with (bpow radix2 900 * bpow radix2 1).
      - apply abs_mul; [exact Hup |].
        change (bpow radix2 1) with 2. apply Rle_trans with (1 + ulp1); [| lra].
        apply abs_add; [rewrite Rabs_R1; lra | exact He].
      - unfold big. rewrite <- !bpow_plus. apply bpow_lt. lia. }
    unfold sat in V. rewrite Rlt_bool_true in V by exact L.
    apply val_fin_inv in V. destruct V as [V1 V2]. split; [exact V1 |]. exists e2. auto. }
  destruct E1 as (d & Ed & Fd & e1 & He1 & Hd).
  destruct E2 as (si & Es & Fsi & e2 & He2 & Hsi). rewrite Es.
  assert (Edsi : B2R d * B2R si = v * (1 + e1) * (1 + e2)).
  { rewrite Hd, Hsi. unfold v. field. exact NZ. }
  destruct (rnd_abs (B2R d * B2R si)) as (e3 & t & He3 & Ht & Hr3).
  pose proof (val_mul d si Fd Fsi) as Vm. rewrite Hr3, Edsi in Vm.
  set (m := v * (1 + e1) * (1 + e2) * (1 + e3) + t) in *.
  assert (Ht' : Rabs t <= ulp1 * ulp1) by (apply Rle_trans with (1 := Ht); apply tiny).
  assert (Hm : Rabs m <= 2 * N).
  { destruct (chain_error v e1 e2 e3 t 0 N) as [_ Q]; auto; [rewrite Rabs_R0; lra | lra]. }
  assert (Lbig : forall x, Rabs x <= 4 * N -> Rabs x < big).
  { intros x Hx. apply Rle_lt_trans with (1 := Hx).
    apply Rle_lt_trans with (bpow radix2 2 * bpow radix2 53).
    - change (bpow radix2 2) with 4. change (bpow radix2 53) with 9007199254740992. lra.
    - unfold big. rewrite <- bpow_plus. apply bpow_lt. lia. }
  unfold sat in Vm. rewrite Rlt_bool_true in Vm by (apply Lbig; lra).
  assert (Fm : generic_format radix2 fexp64 m).
  { apply val_fin_inv in Vm. destruct Vm as [_ Vm]. rewrite <- Vm. apply format_B2R. }
  assert (Fh : generic_format radix2 fexp64 (1 / 2)).
  { destruct (val_fin_inv _ _ val_half) as [_ Eh]. rewrite <- Eh. apply format_B2R. }
  destruct (rnd_plus m (1 / 2) Fm Fh) as (e4 & He4 & Hr4).
  destruct (chain_error v e1 e2 e3 t e4 N) as [Q _]; auto; [lra |]. fold m in Q.
  assert (Lu : Rabs ((m + 1 / 2) * (1 + e4)) < big).
  { apply Lbig. replace ((m + 1 / 2) * (1 + e4)) with
      (((m + 1 / 2) * (1 + e4) - (v + 1 / 2)) + (v + 1 / 2)) by ring.
    apply Rle_trans with (5 * ulp1 * N + (N + 1 / 2)).
    - apply abs_add; [exact Q |]. apply abs_add; [exact Hvn | rewrite Rabs_right; lra].
    - nra. }
  assert (Hc : xfloor (addx (val (prod off si p))) = XFin (IZR (Zfloor ((m + 1 / 2) * (1 + e4))))).
  { unfold prod. rewrite Ed, Vm. cbn [addx]. rewrite Hr4. unfold sat.
    rewrite Rlt_bool_true by exact Lu. reflexivity. }
  assert (Nn : is_nan (prod off si p) = false).
  { apply val_nan. unfold prod. rewrite Ed, Vm. discriminate. }
  rewrite p2i_gen by assumption. rewrite Hc. cbn [xclamp]. rewrite Zfloor_IZR.
  eexists _, _. split; [reflexivity |]. split; [apply clampZ_range; lia |].
  set (u := (m + 1 / 2) * (1 + e4)) in *.
  apply Rabs_le_inv in Q.
  pose proof (floor_bounds u) as [B1 B2]. set (f := Zfloor u) in *.
  set (dl := 5 * ulp1 * N) in *.
  assert (Hdl : 0 <= dl) by (unfold dl; nra).
  apply Rabs_le. unfold clampZ.
  destruct (f <? 0)%Z eqn:E1'.
  - apply Z.ltb_lt in E1'. assert (IZR f <= -1) by (apply IZR_le; lia). lra.
  - apply Z.ltb_ge in E1'. destruct (n <=? f)%Z eqn:E2'.
    + apply Z.leb_le in E2'. assert (IZR n <= IZR f) by (apply IZR_le; lia).
      rewrite minus_IZR. fold N in H |- *. lra.
    + lra.
Qed.

(** In terms of distances to cell centres: no cell is nearer by more than
    10/2^53 of the extent of the grid. *)
Lemma float_almost_nearest : forall (off s p : f64) n,
  is_finite off = true -> is_finite s = true -> is_finite p = true ->
  bpow radix2 (-900) <= Rabs (B2R s) <= bpow radix2 900 ->
  (1 <= n <= two53)%Z ->
  - (1 / 2) <= (B2R p - B2R off) / B2R s <= IZR n - 1 / 2 ->
  exists i w,
    pos2index_dim ieee off (inv_scaling ieee s) n p = Ok (i, w) /\ (0 <= i < n)%Z /\
    forall j, (0 <= j < n)%Z ->
      Rabs (B2R p - (B2R off + IZR i * B2R s))
      <= Rabs (B2R p - (B2R off + IZR j * B2R s)) + 10 * ulp1 * IZR n * Rabs (B2R s).
Proof.
  intros off s p n Fo Fs Fp Hs Hn Hv.
  destruct (float_close off s p n Fo Fs Fp Hs Hn Hv) as (i & w & E & Hi & Hd).
  exists i, w. split; [exact E |]. split; [exact Hi |]. intros j Hj.
  assert (NZ : B2R s <> 0).
  { intros Ez. rewrite Ez, Rabs_R0 in Hs. pose proof (bpow_gt_0 radix2 (-900)). lra. }
  rewrite !scale_dist by exact NZ.
  replace ((B2R p - B2R off) * (1 / B2R s)) with ((B2R p - B2R off) / B2R s) by (field; exact NZ).
  set (v := (B2R p - B2R off) / B2R s) in *.
  pose proof (Rabs_pos (B2R s)) as Ps.
  assert (Hu : 0 < ulp1) by apply bpow_gt_0.
  assert (HN : 0 <= IZR n) by (apply IZR_le; lia).
  destruct (Z.eq_dec i j) as [-> | Hne].
  - assert (0 <= 10 * ulp1 * IZR n * Rabs (B2R s)).
    { repeat apply Rmult_le_pos; lra. }
    lra.
  - assert (Hij : 1 <= Rabs (IZR i - IZR j)).
    { rewrite <- minus_IZR, <- abs_IZR. apply IZR_le. lia. }
    assert (Rabs (IZR i - IZR j) <= Rabs (v - IZR i) + Rabs (v - IZR j)).
    { replace (IZR i - IZR j) with (- (v - IZR i) + (v - IZR j)) by ring.
      apply abs_add; [rewrite Rabs_Ropp; lra | lra]. }
    assert (Rabs (v - IZR i) <= Rabs (v - IZR j) + 10 * ulp1 * IZR n) by lra.
    apply Rle_trans with (Rabs (B2R s) * (Rabs (v - IZR j) + 10 * ulp1 * IZR n)).
    + apply Rmult_le_compat_l; assumption.
    + right. ring.
Qed.
