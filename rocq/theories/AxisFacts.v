(** * Reading at the coordinates which the file gives for a cell: proofs *)
From Coq Require Import List Arith Bool ZArith Reals Lia Lra Psatz String.
From Flocq Require Import Core.Core IEEE754.BinarySingleNaN.
From Verif Require Import Base BlockedModel BlockedProofs LevelsModel TypesModel CoordModel CoordExact CoordFloat CoordFloat2 CoordFloat3
  CoordFacts EndModel EndFacts.
From Verif Require FileModel FileSpec FileFacts.
Import ListNotations.
Local Open Scope R_scope.

(** ** Specification *)
(** The coordinate of cell [k]: the value of the coordinate variable; the index if there is none. *)
Definition coordinate (ax : axis ieee) (k : Z) : f64 :=
  match x_var ax with Some c => c k | None => fnum k 0 end.
(** The values are up to 1/16 of the spacing [h] at [x0], [x0 + h], [x0 + 2 h], ... *)
Definition near_regular (n : Z) (c : Z -> f64) (x0 h : R) : Prop :=
  forall k, (0 <= k < n)%Z -> is_finite (c k) = true /\ Rabs (B2R (c k) - (x0 + IZR k * h)) <= Rabs h / 16.
Definition usual_axis (ax : axis ieee) : Prop :=
  (1 <= x_size ax <= 2 ^ 47)%Z /\
  forall c, x_var ax = Some c ->
    is_finite (c 0%Z) = true /\
    ((2 <= x_size ax)%Z -> exists x0 h, bpow radix2 (-890) <= Rabs h <= bpow radix2 890 /\ near_regular (x_size ax) c x0 h).
(** The coordinates of the cell with the indices [ix] (in C order). *)
Definition coordinates (axes : list (axis ieee)) (ix : list nat) (k : nat) : f64 :=
  let i := (List.length axes - k - 1)%nat in
  match nth_error axes i, nth_error ix i with
  | Some ax, Some x => coordinate ax (Z.of_nat x)
  | _, _ => fnum 0 0
  end.

(** The coordinate [p] belongs to cell [k]: it is not further from the place of the cell on the equidistant grid than 1/10 of
    the spacing.  (One cell: every coordinate belongs to it, up to the overflow of the difference to the cell's coordinate.) *)
Definition beside (ax : axis ieee) (k : Z) (p : f64) : Prop :=
  is_finite p = true /\
  if (x_size ax =? 1)%Z then Rabs (B2R p - B2R (coordinate ax 0)) <= bpow radix2 1000
  else exists x0 h, bpow radix2 (-890) <= Rabs h <= bpow radix2 890 /\
    match x_var ax with Some c => near_regular (x_size ax) c x0 h | None => x0 = 0 /\ h = 1 end /\
    Rabs (B2R p - (x0 + IZR k * h)) <= Rabs h / 10.
(** ... in all dimensions; [pos] is the argument of the getter. *)
Definition beside_cell (axes : list (axis ieee)) (ix : list nat) (pos : nat -> f64) : Prop :=
  forall i ax x, nth_error axes i = Some ax -> nth_error ix i = Some x ->
    beside ax (Z.of_nat x) (pos (List.length axes - i - 1)%nat).

(** ** One dimension *)
Lemma fin_of_sat (x : f64) r : val x = sat r -> Rabs r < big -> is_finite x = true /\ B2R x = r.
Proof.
  intros V L. unfold sat in V. rewrite Rlt_bool_true in V by exact L. now apply val_fin_inv in V.
Qed.

Lemma scaling_near (a b : f64) m h : is_finite a = true -> is_finite b = true -> (1 <= m <= 2 ^ 47)%Z ->
  bpow radix2 (-890) <= Rabs h <= bpow radix2 890 ->
  Rabs (B2R b - B2R a - IZR m * h) <= Rabs h / 8 ->
  let s := Bdiv mode_NE (Bminus mode_NE b a) (fnum m 0) in
  is_finite s = true /\ exists e, Rabs e <= 3 * ulp1 /\ B2R s = (B2R b - B2R a) / IZR m * (1 + e).
Proof.
  intros Fa Fb Hm Hh Hd s.
  assert (Hu : 0 < ulp1 <= / 1000000) by (rewrite ulp1_val; lra).
  assert (HM : 1 <= IZR m <= bpow radix2 47).
  { change (bpow radix2 47) with (IZR (2 ^ 47)). split; apply IZR_le; lia. }
  assert (Hh0 : 0 < Rabs h) by (pose proof (bpow_gt_0 radix2 (-890)); lra).
  set (D := B2R b - B2R a) in *.
  assert (HDlo : IZR m * Rabs h / 2 <= Rabs D).
  { assert (Rabs (IZR m * h) <= Rabs D + Rabs (D - IZR m * h)) as H.
    { replace (IZR m * h) with (D + - (D - IZR m * h)) at 1 by ring. apply abs_add; [lra | rewrite Rabs_Ropp; lra]. }
    rewrite Rabs_mult, (Rabs_right (IZR m)) in H by lra. nra. }
  assert (HDup : Rabs D <= 2 * (IZR m * Rabs h)).
  { assert (Rabs D <= Rabs (IZR m * h) + Rabs (D - IZR m * h)) as H.
    { replace D with (IZR m * h + (D - IZR m * h)) at 1 by ring. apply abs_add; lra. }
    rewrite Rabs_mult, (Rabs_right (IZR m)) in H by lra. nra. }
  (* the difference *)
  assert (E1 : is_finite (Bminus mode_NE b a) = true /\
     exists e1, Rabs e1 <= ulp1 /\ B2R (Bminus mode_NE b a) = D * (1 + e1)).
  { assert (Fo' : generic_format radix2 fexp64 (- B2R a)) by apply generic_format_opp, format_B2R.
    destruct (rnd_plus (B2R b) (- B2R a) (format_B2R b) Fo') as (e1 & He & Hr).
    change (B2R b + - B2R a) with D in Hr.
    pose proof (val_sub b a Fb Fa) as V. fold D in V. rewrite Hr in V.
    destruct (fin_of_sat _ _ V) as [V1 V2].
    { apply Rle_lt_trans with (bpow radix2 1 * (bpow radix2 47 * bpow radix2 890) * bpow radix2 1).
      - apply abs_mul.
        + apply Rle_trans with (1 := HDup). change (bpow radix2 1) with 2. apply Rmult_le_compat_l; [lra|].
          apply Rmult_le_compat; lra.
        + change (bpow radix2 1) with 2. apply Rle_trans with (1 + ulp1); [| lra].
          apply abs_add; [rewrite Rabs_R1; lra | exact He].
      - unfold big. rewrite <- !bpow_plus. apply bpow_lt. lia. }
    split; [exact V1 |]. exists e1. auto. }
  destruct E1 as (Fd & e1 & He1 & Hd1).
  destruct (val_fin_inv _ _ (val_int m ltac:(lia))) as [Fm Em].
  assert (Nm : B2R (fnum m 0) <> 0) by (rewrite Em; lra).
  pose proof (val_div _ _ Fd Fm Nm) as V. rewrite Hd1, Em in V.
  set (q := D * (1 + e1) / IZR m) in *.
  assert (Hq : q = D / IZR m * (1 + e1)) by (unfold q; field; lra).
  assert (HQlo : Rabs h / 2 <= Rabs (D / IZR m)).
  { unfold Rdiv at 2. rewrite Rabs_mult, Rabs_inv, (Rabs_right (IZR m)) by lra.
    apply (Rmult_le_reg_r (IZR m)); [lra|]. replace (Rabs D * / IZR m * IZR m) with (Rabs D) by (field; lra). lra. }
  assert (HQup : Rabs (D / IZR m) <= 2 * Rabs h).
  { unfold Rdiv at 1. rewrite Rabs_mult, Rabs_inv, (Rabs_right (IZR m)) by lra.
    apply (Rmult_le_reg_r (IZR m)); [lra|]. replace (Rabs D * / IZR m * IZR m) with (Rabs D) by (field; lra). lra. }
  assert (He1' : / 2 <= Rabs (1 + e1) <= 2).
  { apply Rabs_le_inv in He1. rewrite Rabs_right by lra. lra. }
  assert (Hql : Rabs h / 4 <= Rabs q <= 4 * Rabs h).
  { rewrite Hq, Rabs_mult. split; nra. }
  destruct (rnd_rel q) as (e2 & He2 & Hr2).
  { apply Rle_trans with (bpow radix2 (-890) * bpow radix2 (-2)).
    - rewrite <- bpow_plus. apply bpow_le. lia.
    - change (bpow radix2 (-2)) with (/ 4). lra. }
  rewrite Hr2 in V.
  destruct (fin_of_sat _ _ V) as [V1 V2].
  { apply Rle_lt_trans with (bpow radix2 2 * bpow radix2 890 * bpow radix2 1).
    - apply abs_mul.
      + change (bpow radix2 2) with 4. lra.
      + change (bpow radix2 1) with 2. apply Rle_trans with (1 + ulp1); [| lra].
        apply abs_add; [rewrite Rabs_R1; lra | exact He2].
    - unfold big. rewrite <- !bpow_plus. apply bpow_lt. lia. }
  split; [exact V1|]. exists (e1 + e2 + e1 * e2). split.
  - apply Rle_trans with (ulp1 + ulp1 + ulp1 * ulp1); [|nra]. apply abs_add; [apply abs_add; auto|]. apply abs_mul; auto.
  - unfold s. rewrite V2, Hq. ring.
Qed.

Lemma near_cell n c x0 h k p : (2 <= n <= 2 ^ 47)%Z -> bpow radix2 (-890) <= Rabs h <= bpow radix2 890 ->
  near_regular n c x0 h -> (0 <= k < n)%Z -> is_finite p = true -> Rabs (B2R p - (x0 + IZR k * h)) <= Rabs h / 10 ->
  exists w, @dim_index ieee (@Axis ieee n (Some c)) p = Ok (k, w).
Proof.
  intros Hn Hh Hc Hk Fk Hck.
  assert (Hh0 : 0 < Rabs h) by (pose proof (bpow_gt_0 radix2 (-890)); lra).
  assert (Hu : 0 < ulp1) by apply bpow_gt_0.
  destruct (Hc 0%Z ltac:(lia)) as [F0 H0]. destruct (Hc (n - 1)%Z ltac:(lia)) as [F1 H1].
  replace (x0 + 0 * h) with x0 in H0 by ring.
  set (m := (n - 1)%Z) in *.
  assert (Hdiff : forall x j d, Rabs (x - (x0 + IZR j * h)) <= d -> Rabs (x - B2R (c 0%Z) - IZR j * h) <= d + Rabs h / 16).
  { intros x j d Hj. replace (x - B2R (c 0%Z) - IZR j * h) with ((x - (x0 + IZR j * h)) + - (B2R (c 0%Z) - x0)) by ring.
    apply abs_add; [exact Hj | now rewrite Rabs_Ropp]. }
  pose proof (Hdiff _ k _ Hck) as Dk. pose proof (Hdiff _ m _ H1) as Dm.
  replace (Rabs h / 16 + Rabs h / 16) with (Rabs h / 8) in Dm by field.
  destruct (scaling_near (c 0%Z) (c m) m h F0 F1) as (Fs & e & He & Es); [lia|auto|auto|].
  set (s := Bdiv mode_NE (Bminus mode_NE (c m) (c 0%Z)) (fnum m 0)) in *.
  set (M := IZR m) in *.
  assert (HM : 1 <= M <= 140737488355328) by (unfold M; split; apply IZR_le; lia).
  assert (HK : 0 <= IZR k <= M) by (unfold M; split; apply IZR_le; lia).
  set (T := B2R (c m) - B2R (c 0%Z) - M * h) in *.
  set (t := B2R p - B2R (c 0%Z) - IZR k * h) in *.
  assert (Hs : B2R s = (h + T / M) * (1 + e)).
  { rewrite Es. unfold T. field. lra. }
  assert (HTM : Rabs (T / M) <= Rabs h / 8).
  { unfold Rdiv at 1. rewrite Rabs_mult, Rabs_inv, (Rabs_right M) by lra.
    apply (Rmult_le_reg_r M); [lra|]. replace (Rabs T * / M * M) with (Rabs T) by (field; lra). nra. }
  assert (Hue : 3 * ulp1 <= / 1000000) by (rewrite ulp1_val; lra).
  assert (Hsn : 6 / 7 * Rabs h <= Rabs (B2R s) <= 2 * Rabs h).
  { rewrite Hs, Rabs_mult. pose proof (Rabs_le_inv _ _ He) as He'. rewrite (Rabs_right (1 + e)) by lra.
    assert (7 / 8 * Rabs h <= Rabs (h + T / M) <= 9 / 8 * Rabs h).
    { split.
      - assert (Rabs h <= Rabs (h + T / M) + Rabs (T / M)); [|lra].
        replace h with ((h + T / M) + - (T / M)) at 1 by ring. apply abs_add; [lra | rewrite Rabs_Ropp; lra].
      - apply Rle_trans with (Rabs h + Rabs h / 8); [|lra]. apply abs_add; [lra | exact HTM]. }
    split; nra. }
  assert (NZ : B2R s <> 0) by (intros E; rewrite E, Rabs_R0 in Hsn; lra).
  set (v := (B2R p - B2R (c 0%Z)) / B2R s).
  assert (HkT : Rabs (IZR k * (T / M)) <= Rabs h / 8).
  { replace (IZR k * (T / M)) with (IZR k / M * T) by (field; lra).
    apply Rle_trans with (1 * (Rabs h / 8)); [|lra]. apply abs_mul; [|exact Dm].
    rewrite Rabs_right.
    - apply (Rmult_le_reg_r M); [lra|]. replace (IZR k / M * M) with (IZR k) by (field; lra). lra.
    - apply Rle_ge, Rmult_le_pos; [lra|]. left. apply Rinv_0_lt_compat. lra. }
  assert (Hke : Rabs (IZR k * e) <= / 20).
  { apply Rle_trans with (M * (3 * ulp1)); [apply abs_mul; [rewrite Rabs_right; lra | exact He] |]. rewrite ulp1_val. lra. }
  assert (Hnum : Rabs (v * B2R s - IZR k * B2R s) <= Rabs h * (1 / 10 + 1 / 16 + 1 / 8 + 9 / 8 * / 20)).
  { replace (v * B2R s) with (B2R p - B2R (c 0%Z)) by (unfold v; field; exact NZ).
    replace (B2R p - B2R (c 0%Z) - IZR k * B2R s) with (t + - (IZR k * (T / M)) + - ((IZR k * e) * (h + T / M))).
    2:{ rewrite Hs. unfold t. ring. }
    apply Rle_trans with ((Rabs h / 10 + Rabs h / 16) + Rabs h / 8 + / 20 * (9 / 8 * Rabs h)); [|lra].
    apply abs_add; [apply abs_add; [exact Dk | now rewrite Rabs_Ropp] |]. rewrite Rabs_Ropp. apply abs_mul; [exact Hke|].
    apply Rle_trans with (Rabs h + Rabs h / 8); [|lra]. apply abs_add; [lra | exact HTM]. }
  assert (Hv : Rabs (v - IZR k) <= 405 / 1000).
  { replace (v * B2R s - IZR k * B2R s) with ((v - IZR k) * B2R s) in Hnum by ring. rewrite Rabs_mult in Hnum.
    pose proof (Rabs_pos (v - IZR k)). nra. }
  assert (HN : IZR n = M + 1) by (unfold M, m; rewrite minus_IZR; ring).
  destruct (float_close (c 0%Z) s p n F0 Fs Fk) as (i & w & E & Hi & Hd).
  - split.
    + apply Rle_trans with (bpow radix2 (-890) * bpow radix2 (-1)).
      * rewrite <- bpow_plus. apply bpow_le. lia.
      * change (bpow radix2 (-1)) with (/ 2). lra.
    + apply Rle_trans with (bpow radix2 1 * bpow radix2 890).
      * change (bpow radix2 1) with 2. lra.
      * rewrite <- bpow_plus. apply bpow_le. lia.
  - unfold two53. lia.
  - fold v. apply Rabs_le_inv in Hv. rewrite HN. lra.
  - fold v in Hd.
    assert (i = k) as ->.
    { assert (Rabs (IZR (i - k)) < 1) as L.
      { rewrite minus_IZR. replace (IZR i - IZR k) with (- (v - IZR i) + (v - IZR k)) by ring.
        apply Rle_lt_trans with (1 / 2 + 5 * ulp1 * IZR n + 405 / 1000).
        - apply abs_add; [now rewrite Rabs_Ropp | exact Hv].
        - rewrite HN, ulp1_val. lra. }
      rewrite <- abs_IZR in L. apply lt_IZR in L. lia. }
    exists w. unfold dim_index, get_scaling. cbn [x_size x_var].
    replace (n =? 1)%Z with false by (symmetry; apply Z.eqb_neq; lia). exact E.
Qed.

Lemma own_near n c x0 h k : (2 <= n <= 2 ^ 47)%Z -> bpow radix2 (-890) <= Rabs h <= bpow radix2 890 ->
  near_regular n c x0 h -> (0 <= k < n)%Z ->
  exists w, @dim_index ieee (@Axis ieee n (Some c)) (c k) = Ok (k, w).
Proof.
  intros Hn Hh Hc Hk. destruct (Hc k Hk) as [Fk Hck]. apply (near_cell n c x0 h k); auto.
  pose proof (Rabs_pos h). lra.
Qed.

Lemma near_plain n k p : (2 <= n <= 2 ^ 47)%Z -> (0 <= k < n)%Z -> is_finite p = true -> Rabs (B2R p - IZR k) <= 1 / 10 ->
  exists w, @dim_index ieee (@Axis ieee n None) p = Ok (k, w).
Proof.
  intros Hn Hk Fk Ek.
  destruct (val_fin_inv _ _ (val_int 0 ltac:(lia))) as [F0 E0]. destruct (val_fin_inv _ _ (val_int 1 ltac:(lia))) as [F1 E1].
  assert (HN : 2 <= IZR n <= 140737488355328) by (split; apply IZR_le; lia).
  assert (HK : 0 <= IZR k <= IZR n - 1) by (split; [|rewrite <- minus_IZR]; apply IZR_le; lia).
  destruct (float_close (fnum 0 0) (fnum 1 0) p n F0 F1 Fk) as (i & w & E & Hi & Hd).
  - rewrite E1, Rabs_R1. change 1 with (bpow radix2 0). split; apply bpow_le; lia.
  - unfold two53. lia.
  - rewrite E0, E1. replace ((B2R p - 0) / 1) with (B2R p) by field. apply Rabs_le_inv in Ek. lra.
  - rewrite E0, E1 in Hd. replace ((B2R p - 0) / 1) with (B2R p) in Hd by field.
    assert (i = k) as ->.
    { assert (Rabs (IZR (k - i)) < 1) as L.
      { rewrite minus_IZR. replace (IZR k - IZR i) with ((B2R p - IZR i) + - (B2R p - IZR k)) by ring.
        apply Rle_lt_trans with (1 / 2 + 5 * ulp1 * IZR n + 1 / 10).
        - apply abs_add; [exact Hd | now rewrite Rabs_Ropp].
        - rewrite ulp1_val. lra. }
      rewrite <- abs_IZR in L. apply lt_IZR in L. lia. }
    exists w. unfold dim_index, get_scaling. cbn [x_size x_var].
    replace (n =? 1)%Z with false by (symmetry; apply Z.eqb_neq; lia). exact E.
Qed.

Lemma own_plain n k : (2 <= n <= 2 ^ 47)%Z -> (0 <= k < n)%Z -> exists w, @dim_index ieee (@Axis ieee n None) (fnum k 0) = Ok (k, w).
Proof.
  intros Hn Hk. destruct (val_fin_inv _ _ (val_int k ltac:(lia))) as [Fk Ek]. apply near_plain; auto.
  rewrite Ek, Rminus_diag_eq, Rabs_R0 by reflexivity. lra.
Qed.

Lemma own_dim ax k : usual_axis ax -> (0 <= k < x_size ax)%Z -> exists w, @dim_index ieee ax (coordinate ax k) = Ok (k, w).
Proof.
  intros [Hn Hv] Hk. destruct ax as [n var]. cbn [x_size x_var] in *.
  destruct (Z.eq_dec n 1) as [->|N1].
  - assert (k = 0)%Z as -> by lia. exists false. rewrite <- (open_dim_index CellCentered).
    assert (coordinate (@Axis ieee 1 var) 0 = dm_off (open_dim ieee CellCentered (@Axis ieee 1 var))) as ->.
    { unfold open_dim, get_scaling, coordinate. cbn [x_size x_var]. change (1 =? 1)%Z with true. cbn. destruct var; reflexivity. }
    assert (is_finite (dm_off (open_dim ieee CellCentered (@Axis ieee 1 var))) = true) as F.
    { unfold open_dim, get_scaling. cbn [x_size x_var]. change (1 =? 1)%Z with true. cbn. destruct var as [c|].
      - apply (Hv c eq_refl).
      - apply (val_fin_inv _ _ (val_int 0 ltac:(lia))). }
    apply ieee_size_one; auto.
    pose proof (val_sub _ _ F F) as V. rewrite Rminus_diag_eq in V by reflexivity.
    apply (fin_of_sat _ _ V). rewrite rnd_0, Rabs_R0. apply big_pos.
  - unfold coordinate. cbn [x_var]. destruct var as [c|].
    + destruct (Hv c eq_refl) as [_ H]. destruct H as (x0 & h & Hh & Hr); [lia|]. apply (own_near n c x0 h k); auto. lia.
    + apply own_plain; lia.
Qed.

(** ** All dimensions, all levels and configurations *)
Lemma box_nth (sizes ix : list nat) i n x : in_box sizes ix -> nth_error sizes i = Some n -> nth_error ix i = Some x -> (x < n)%nat.
Proof.
  intros H. revert i. induction H as [|y m ix sizes Hy H IH]; intros [|i] Hn Hx; cbn in Hn, Hx; try discriminate.
  - inversion Hn; inversion Hx; subst. exact Hy.
  - apply (IH i Hn Hx).
Qed.

Lemma index_by_dims (s : session ieee) ix pos : in_box (f_size (variable s)) ix ->
  (forall i ax x, nth_error (n_axes s) i = Some ax -> nth_error ix i = Some x -> (0 <= Z.of_nat x < x_size ax)%Z ->
     exists w, @dim_index ieee ax (pos (List.length (n_axes s) - i - 1)%nat) = Ok (Z.of_nat x, w)) ->
  @defined_at ieee s pos /\
  forall init ix', @index_of ieee s pos init = Ok ix' -> ix' = ix.
Proof.
  intros Hb Hd. pose proof (in_box_length _ _ Hb) as HL. cbn [variable f_size] in HL. rewrite map_length in HL.
  assert (forall i ax, nth_error (n_axes s) i = Some ax -> exists x, nth_error ix i = Some x /\ (0 <= Z.of_nat x < x_size ax)%Z /\
            exists w, @dim_index ieee ax (pos (List.length (n_axes s) - i - 1)%nat) = Ok (Z.of_nat x, w)) as H.
  { intros i ax Hi. assert (i < List.length (n_axes s))%nat as Hlt by (apply nth_error_Some; congruence).
    destruct (nth_error ix i) as [x|] eqn:Ex.
    2:{ apply nth_error_None in Ex. lia. }
    exists x. split; auto.
    assert (x < Z.to_nat (x_size ax))%nat as Hx.
    { apply (box_nth _ _ i _ _ Hb); auto. cbn [variable f_size]. now rewrite nth_error_map, Hi. }
    split; [lia|]. apply (Hd i ax x Hi Ex). lia. }
  split.
  - intros i ax Hi. destruct (H i ax Hi) as (x & _ & Hr & w & E). exists (Z.of_nat x), w. auto.
  - intros init ix' E. destruct (index_dims s _ init ix' E) as [L D]. apply (nth_ext _ _ 0%nat 0%nat); [congruence|].
    intros n Hn. rewrite L in Hn. destruct (nth_error (n_axes s) n) as [ax|] eqn:Ea.
    2:{ apply nth_error_None in Ea. lia. }
    destruct (H n ax Ea) as (x & Ex & Hr & w & E1). destruct (D n ax Ea) as (z & w' & E2 & Ez).
    rewrite E1 in E2. inversion E2; subst z. rewrite Nat2Z.id in Ez.
    apply (nth_error_nth _ _ 0%nat) in Ez. apply (nth_error_nth _ _ 0%nat) in Ex. congruence.
Qed.

Lemma own_index (s : session ieee) ix : Forall usual_axis (n_axes s) -> in_box (f_size (variable s)) ix ->
  @defined_at ieee s (coordinates (n_axes s) ix) /\
  forall init ix', @index_of ieee s (coordinates (n_axes s) ix) init = Ok ix' -> ix' = ix.
Proof.
  intros Hu Hb. apply index_by_dims; [exact Hb|]. intros i ax x Hi Ex Hx.
  assert (i < List.length (n_axes s))%nat as Hlt by (apply nth_error_Some; congruence). unfold coordinates.
  replace (List.length (n_axes s) - (List.length (n_axes s) - i - 1) - 1)%nat with i by lia. rewrite Hi, Ex.
  apply own_dim; [|lia]. rewrite Forall_forall in Hu. eapply Hu, nth_error_In, Hi.
Qed.

Lemma beside_dim ax k p : usual_axis ax -> (0 <= k < x_size ax)%Z -> beside ax k p -> exists w, @dim_index ieee ax p = Ok (k, w).
Proof.
  intros [Hn Hv] Hk [Fp Hp]. destruct ax as [n var]. cbn [x_size x_var] in *. destruct (Z.eqb_spec n 1) as [->|N1].
  - assert (k = 0)%Z as -> by lia. exists false. rewrite <- (open_dim_index CellCentered).
    assert (coordinate (@Axis ieee 1 var) 0 = dm_off (open_dim ieee CellCentered (@Axis ieee 1 var))) as Ec.
    { unfold open_dim, get_scaling, coordinate. cbn [x_size x_var]. change (1 =? 1)%Z with true. cbn. destruct var; reflexivity. }
    assert (is_finite (dm_off (open_dim ieee CellCentered (@Axis ieee 1 var))) = true) as F.
    { unfold open_dim, get_scaling. cbn [x_size x_var]. change (1 =? 1)%Z with true. cbn. destruct var as [c|].
      - apply (Hv c eq_refl).
      - apply (val_fin_inv _ _ (val_int 0 ltac:(lia))). }
    rewrite Ec in Hp. apply ieee_size_one; auto.
    set (off := dm_off _) in *. pose proof (val_sub p off Fp F) as V.
    assert (generic_format radix2 fexp64 (- B2R off)) as Fo' by apply generic_format_opp, format_B2R.
    destruct (rnd_plus (B2R p) (- B2R off) (format_B2R p) Fo') as (e1 & He & Hr).
    change (B2R p + - B2R off) with (B2R p - B2R off) in Hr. rewrite Hr in V. apply (fin_of_sat _ _ V).
    apply Rle_lt_trans with (bpow radix2 1000 * bpow radix2 1).
    + apply abs_mul; [exact Hp|]. change (bpow radix2 1) with 2. apply Rle_trans with (1 + ulp1); [|rewrite ulp1_val; lra].
      apply abs_add; [rewrite Rabs_R1; lra | exact He].
    + unfold big. rewrite <- bpow_plus. apply bpow_lt. lia.
  - destruct Hp as (x0 & h & Hh & Hx & Hp). destruct var as [c|].
    + apply (near_cell n c x0 h k p); auto. lia.
    + destruct Hx as [-> ->]. apply near_plain; auto; [lia|]. rewrite Rabs_R1 in Hp.
      replace (0 + IZR k * 1) with (IZR k) in Hp by ring. exact Hp.
Qed.

Lemma beside_index (s : session ieee) ix pos : Forall usual_axis (n_axes s) -> in_box (f_size (variable s)) ix ->
  beside_cell (n_axes s) ix pos ->
  @defined_at ieee s pos /\ forall init ix', @index_of ieee s pos init = Ok ix' -> ix' = ix.
Proof.
  intros Hu Hb Hp. apply index_by_dims; [exact Hb|]. intros i ax x Hi Ex Hx.
  apply beside_dim; [|exact Hx|apply (Hp i ax x Hi Ex)]. rewrite Forall_forall in Hu. eapply Hu, nth_error_In, Hi.
Qed.

(** Reads at the coordinates [q_pos r] of a cell [ix] each. *)
Lemma beside_run (s : session ieee) (prog : nat -> list (list nat * @request ieee)) answers :
  session_ok s -> Forall usual_axis (n_axes s) ->
  (forall t, n_threads s <= t -> prog t = [])%nat ->
  (forall t ix r, In (ix, r) (prog t) -> in_box (map (fun ax => Z.to_nat (x_size ax)) (n_axes s)) ix /\ beside_cell (n_axes s) ix (q_pos r)) ->
  session_run s (fun t => map snd (prog t)) answers ->
  forall t, exists k, answers t = map (fun r => answer_of s (q_getter (snd r)) (Some (Some (n_cell s (fst r))))) (firstn k (prog t)).
Proof.
  intros Hok Hu Hth Hin Hr t.
  destruct (run_answers s (fun t => map snd (prog t)) answers Hok) with (t := t) as (k & F); auto.
  - intros t' Ht. now rewrite Hth.
  - intros t' r Hr'. apply in_map_iff in Hr' as ([ix r'] & <- & Hq). destruct (Hin t' ix r' Hq) as [H1 H2]. apply (beside_index s ix); auto.
  - exists k. rewrite firstn_map in F.
    assert (forall ix r, In (ix, r) (firstn k (prog t)) -> in_box (f_size (variable s)) ix /\ beside_cell (n_axes s) ix (q_pos r)) as Hb.
    { intros ix r Hr'. apply (Hin t). rewrite <- (firstn_skipn k (prog t)). apply in_or_app. now left. }
    clear - F Hu Hb. remember (map snd (firstn k (prog t))) as l eqn:El. revert El Hb. generalize (firstn k (prog t)).
    induction F as [|r a l l' (ix & init & E & Hx & ->) F IH]; intros [|[ix' r'] l0] El Hb; try discriminate El; [reflexivity|].
    cbn [map snd] in El. inversion El; subst. destruct (Hb ix' r' (or_introl eq_refl)) as [H1 H2]. cbn [map fst snd]. f_equal.
    + apply (beside_index s ix') in E; auto. now subst ix.
    + apply IH; auto. intros ix2 r2 Hr. apply Hb. now right.
Qed.
Lemma beside_answers (s : session ieee) (prog : nat -> list (list nat * @request ieee)) answers :
  session_ok s -> Forall usual_axis (n_axes s) ->
  (forall ix, in_box (map (fun ax => Z.to_nat (x_size ax)) (n_axes s)) ix -> List.length (n_cell s ix) = type_size (n_type s)) ->
  (forall t, n_threads s <= t -> prog t = [])%nat ->
  (forall t ix r, In (ix, r) (prog t) -> in_box (map (fun ax => Z.to_nat (x_size ax)) (n_axes s)) ix /\ beside_cell (n_axes s) ix (q_pos r)) ->
  session_run s (fun t => map snd (prog t)) answers ->
  forall t, exists k, Forall2 (fun r a => expected (n_type s) (q_getter (snd r)) (n_cell s (fst r)) a) (firstn k (prog t)) (answers t).
Proof.
  intros Hok Hu Hl Hth Hin Hr t. destruct (beside_run s prog answers Hok Hu Hth Hin Hr t) as [k ->]. exists k.
  assert (forall ix r, In (ix, r) (firstn k (prog t)) -> List.length (n_cell s ix) = type_size (n_type s)) as Hb.
  { intros ix r Hr'. apply Hl. apply (Hin t ix r). rewrite <- (firstn_skipn k (prog t)). apply in_or_app. now left. }
  induction (firstn k (prog t)) as [|[ix r] l IH]; cbn [map]; constructor.
  - cbn [fst snd]. apply answer_expected. apply (Hb ix r). now left.
  - apply IH. intros ix' r' H. apply (Hb ix' r'). now right.
Qed.

(** A read with the coordinates of a cell. *)
Definition at_cell (s : session ieee) (r : list nat * getter) : @request ieee :=
  @Request ieee (coordinates (n_axes s) (fst r)) (snd r).

Lemma own_answers (s : session ieee) (prog : nat -> list (list nat * getter)) answers :
  session_ok s -> Forall usual_axis (n_axes s) ->
  (forall ix, in_box (map (fun ax => Z.to_nat (x_size ax)) (n_axes s)) ix -> List.length (n_cell s ix) = type_size (n_type s)) ->
  (forall t, n_threads s <= t -> prog t = [])%nat ->
  (forall t r, In r (prog t) -> in_box (map (fun ax => Z.to_nat (x_size ax)) (n_axes s)) (fst r)) ->
  session_run s (fun t => map (at_cell s) (prog t)) answers ->
  forall t, exists k, Forall2 (fun r a => expected (n_type s) (snd r) (n_cell s (fst r)) a) (firstn k (prog t)) (answers t).
Proof.
  intros Hok Hu Hl Hth Hin Hr t.
  destruct (run_answers s (fun t => map (at_cell s) (prog t)) answers Hok) with (t := t) as (k & F); auto.
  - intros t' Ht. now rewrite Hth.
  - intros t' r Hr'. apply in_map_iff in Hr' as (q & <- & Hq). apply own_index; auto. apply (Hin t' q Hq).
  - exists k. rewrite firstn_map in F. assert (forall r, In r (firstn k (prog t)) -> in_box (f_size (variable s)) (fst r)) as Hb.
    { intros r Hr'. apply (Hin t). rewrite <- (firstn_skipn k (prog t)). apply in_or_app. now left. }
    clear - F Hu Hl Hb. remember (map (at_cell s) (firstn k (prog t))) as l eqn:El. revert El Hb. generalize (firstn k (prog t)).
    induction F as [|r a l l' (ix & init & E & Hx & ->) F IH]; intros [|q l0] El Hb; try discriminate El; [constructor|].
    cbn [map] in El. inversion El; subst. constructor.
    + cbn [at_cell q_pos] in E. apply own_index in E; auto; [|apply Hb; now left]. subst ix. apply answer_expected, Hl, Hx.
    + apply IH; auto. intros r Hr. apply Hb. now right.
Qed.

Lemma own_index_ok (s : session ieee) ix init : Forall usual_axis (n_axes s) -> in_box (f_size (variable s)) ix ->
  @index_of ieee s (coordinates (n_axes s) ix) init = Ok ix.
Proof.
  intros Hu Hb. destruct (own_index s ix Hu Hb) as [Hd H]. destruct (defined_index s _ init Hd) as (ix' & E & _).
  rewrite E. now rewrite (H init ix' E).
Qed.

(** ** The axes of a file *)
(** Dimension [d] of [f] as an axis: its size, and the values of its coordinate variable if it has one. *)
Definition is_axis (f : FileModel.ncfile f64) (d : nat) (ax : axis ieee) : Prop :=
  x_size ax = Z.of_nat (snd (FileModel.nc_inq_dim f64 f d)) /\
  ((exists x, FileSpec.coordinates f64 f d x /\ x_var ax = Some (fun k => FileModel.v_data f64 x [Z.to_nat k])) \/
   ((forall x, In x (FileModel.f_vars f64 f) -> FileModel.v_name f64 x <> fst (FileModel.nc_inq_dim f64 f d)) /\ x_var ax = None)).
(** [Level::open] with doubles. *)
Definition open_level (maxd : nat) :=
  FileModel.level_open f64 maxd (fnum 0 0) (fnum 1 0) (B754_infinity false) (Bminus mode_NE) (fun x n => Bdiv mode_NE x (fnum (Z.of_nat n) 0)).

Lemma forall2_nth {X Y} (R : X -> Y -> Prop) l l' i x : Forall2 R l l' -> nth_error l i = Some x ->
  exists y, nth_error l' i = Some y /\ R x y.
Proof.
  intros H. revert i. induction H as [|a b l l' Hab H IH]; intros [|i] E; cbn in E; try discriminate.
  - inversion E; subst. exists b. auto.
  - apply (IH i E).
Qed.

Lemma coordinates_unique k f d x y : FileSpec.named_once f64 k -> forall name, k name = Some f ->
  FileSpec.coordinates f64 f d x -> FileSpec.coordinates f64 f d y -> x = y.
Proof.
  intros Hn name Hk (I1 & N1 & _) (I2 & N2 & _). specialize (Hn name f Hk).
  revert I1 I2 Hn. generalize (FileModel.f_vars f64 f). induction l as [|a l IH]; intros I1 I2 Hn; [destruct I1|].
  cbn in Hn. apply NoDup_cons_iff in Hn as [Ha Hn].
  destruct I1 as [->|I1], I2 as [E|I2]; auto.
  - exfalso. apply Ha. rewrite N1, <- N2. now apply in_map.
  - subst a. exfalso. apply Ha. rewrite N2, <- N1. now apply in_map.
Qed.

Lemma file_axes maxd g k w m name f v axes :
  FileSpec.named_once f64 k -> k name = Some f -> In v (FileModel.f_vars f64 f) ->
  (List.length (FileModel.v_dims f64 v) <= maxd)%nat -> FileSpec.good_axes f64 f v ->
  Forall2 (is_axis f) (FileModel.v_dims f64 v) axes -> Forall (fun ax => 1 <= x_size ax)%Z axes ->
  exists w1 m1 lv e, open_level maxd g k w m name (FileModel.v_name f64 v) = Ok (w1, m1, lv, e) /\
    FileModel.l_offset f64 lv = map (fun ax => Some (get_offset ieee ax)) axes /\
    FileModel.l_scaling f64 lv = map (fun ax => Some (get_scaling ieee ax)) axes.
Proof.
  intros Hn Hk Hv Hd Hg Ha Hs.
  destruct (FileFacts.axes_ok f64 maxd (fnum 0 0) (fnum 1 0) (B754_infinity false) (Bminus mode_NE)
              (fun x n => Bdiv mode_NE x (fnum (Z.of_nat n) 0)) g k w m name (FileModel.v_name f64 v) f v)
    as (w1 & m1 & lv & e & E & Lo & Ls & H); auto.
  { intros d Hin. apply In_nth_error in Hin as [i Hi]. destruct (forall2_nth _ _ _ _ _ Ha Hi) as (ax & Ex & Hsz & _).
    rewrite Forall_forall in Hs. pose proof (Hs ax (nth_error_In _ _ Ex)). lia. }
  exists w1, m1, lv, e. split; [exact E|].
  assert (List.length (FileModel.v_dims f64 v) = List.length axes) as L by (clear - Ha; induction Ha; cbn; congruence).
  assert (forall i ax, nth_error axes i = Some ax -> nth_error (FileModel.l_offset f64 lv) i = Some (Some (get_offset ieee ax)) /\
            nth_error (FileModel.l_scaling f64 lv) i = Some (Some (get_scaling ieee ax))) as Q.
  { intros i ax Hi. destruct (nth_error (FileModel.v_dims f64 v) i) as [d|] eqn:Ed.
    2:{ apply nth_error_None in Ed. assert (nth_error axes i <> None) as N by congruence. apply nth_error_Some in N. lia. }
    destruct (forall2_nth _ _ _ _ _ Ha Ed) as (ax' & Ex & Hsz & Hx). rewrite Hi in Ex. inversion Ex; subst ax'.
    assert (1 <= x_size ax)%Z as H1 by (rewrite Forall_forall in Hs; apply Hs, (nth_error_In _ _ Hi)).
    destruct (H i d Ed) as [(o & Eo & Ho) (c & Ec & Hc)]. rewrite Eo, Ec. unfold get_offset, get_scaling.
    assert ((x_size ax =? 1)%Z = (snd (FileModel.nc_inq_dim f64 f d) =? 1)%nat) as Eone.
    { destruct (Nat.eqb_spec (snd (FileModel.nc_inq_dim f64 f d)) 1); destruct (Z.eqb_spec (x_size ax) 1); auto; lia. }
    rewrite Eone.
    destruct Hx as [(x & Cx & Ev)|[No Ev]]; rewrite Ev.
    - split.
      + destruct Ho as [(y & Cy & ->)|[No _]].
        * now rewrite (coordinates_unique k f d y x Hn name Hk Cy Cx).
        * destruct Cx as (I & N & _). now elim (No x I).
      + destruct Hc as [[E1 ->]|[N1 Hc]]; [now rewrite E1|]. apply Nat.eqb_neq in N1. rewrite N1.
        destruct Hc as [(y & Cy & ->)|[No _]].
        * rewrite (coordinates_unique k f d y x Hn name Hk Cy Cx). cbn [ieee a_div a_sub a_ofZ].
          replace (Z.to_nat (x_size ax - 1)) with (snd (FileModel.nc_inq_dim f64 f d) - 1)%nat by lia.
          replace (Z.of_nat (snd (FileModel.nc_inq_dim f64 f d) - 1)) with (x_size ax - 1)%Z by lia. reflexivity.
        * destruct Cx as (I & N & _). now elim (No x I).
    - split.
      + destruct Ho as [(y & (I & N & _) & ->)|[_ ->]]; [now elim (No y I)|reflexivity].
      + destruct Hc as [[E1 ->]|[N1 Hc]]; [now rewrite E1|]. apply Nat.eqb_neq in N1. rewrite N1.
        destruct Hc as [(y & (I & N & _) & ->)|[_ ->]]; [now elim (No y I)|reflexivity]. }
  assert (forall X (l : list X) (h : axis ieee -> X), List.length l = List.length axes ->
            (forall i ax, nth_error axes i = Some ax -> nth_error l i = Some (h ax)) -> l = map h axes) as Ext.
  { clear. intros X l h. revert l. induction axes as [|a axes IH]; intros [|x l] HL HN; cbn in HL; try lia; [reflexivity|].
    cbn [map]. f_equal.
    - specialize (HN 0%nat a eq_refl). cbn in HN. congruence.
    - apply IH; [lia|]. intros i ax Hi. apply (HN (S i) ax Hi). }
  split; apply Ext; [exact (eq_trans Lo L)| |exact (eq_trans Ls L)|]; intros i ax Hi; apply (Q i ax Hi).
Qed.
