(** * Coordinates in exact arithmetic: proofs *)
From Coq Require Import ZArith Reals Bool List Lia Lra.
From Flocq Require Import Core.Core.
From Verif Require Import Base CoordModel.
Import ListNotations.
Local Open Scope R_scope.

Definition clampZ (f n : Z) : Z :=
  if (f <? 0)%Z then 0%Z else if (n <=? f)%Z then (n - 1)%Z else f.

Lemma xltb_IZR : forall a b, xltb (XFin (IZR a)) (XFin (IZR b)) = (a <? b)%Z.
Proof.
  intros a b. cbn. destruct (Rlt_dec (IZR a) (IZR b)) as [H | H].
  - symmetry. apply Z.ltb_lt. now apply lt_IZR.
  - symmetry. apply Z.ltb_ge. apply Rnot_lt_le in H. now apply le_IZR.
Qed.

Lemma xleb_IZR : forall a b, xleb (XFin (IZR a)) (XFin (IZR b)) = (a <=? b)%Z.
Proof.
  intros a b. cbn. destruct (Rle_dec (IZR a) (IZR b)) as [H | H].
  - symmetry. apply Z.leb_le. now apply le_IZR.
  - symmetry. apply Z.leb_gt. apply Rnot_le_lt in H. now apply lt_IZR.
Qed.

Lemma xtoZ_IZR : forall z, (0 <= z < size_max)%Z -> xtoZ (XFin (IZR z)) = Some z.
Proof.
  intros z Hz. unfold xtoZ. rewrite Ztrunc_IZR.
  rewrite (proj2 (Z.leb_le 0 z)), (proj2 (Z.ltb_lt z size_max)) by lia. reflexivity.
Qed.

(** What the code computes for a finite reciprocal spacing. *)
Lemma p2i_exact : forall off si n p,
  (1 <= n < size_max)%Z ->
  let f := Zfloor ((p - off) * si + 1 / 2) in
  pos2index_dim exact (XFin off) (XFin si) n (XFin p)
  = Ok (clampZ f n, ((f <? 0)%Z || (n <=? f)%Z)%bool).
Proof.
  intros off si n p Hn f. unfold pos2index_dim, c_round.
  cbn [exact a_floor a_add a_mul a_sub a_ltb a_leb a_ofZ a_toZ a_half xneg xadd xmul xfloor].
  change (p + - off) with (p - off). fold f.
  rewrite xltb_IZR, xleb_IZR. unfold clampZ.
  destruct (f <? 0)%Z eqn:E1; cbn [orb].
  - rewrite xtoZ_IZR by lia. reflexivity.
  - destruct (n <=? f)%Z eqn:E2.
    + rewrite xtoZ_IZR by lia. reflexivity.
    + rewrite xtoZ_IZR by lia. reflexivity.
Qed.

Lemma clampZ_range : forall f n, (1 <= n)%Z -> (0 <= clampZ f n < n)%Z.
Proof.
  intros f n Hn. unfold clampZ.
  destruct (f <? 0)%Z eqn:E1; [lia |]. destruct (n <=? f)%Z eqn:E2; lia.
Qed.

Lemma floor_bounds : forall v, IZR (Zfloor v) <= v < IZR (Zfloor v) + 1.
Proof. intros v. split; [apply Zfloor_lb | apply Zfloor_ub]. Qed.

Lemma clampZ_nearest : forall v n j, (1 <= n)%Z -> (0 <= j < n)%Z ->
  Rabs (v - IZR (clampZ (Zfloor (v + 1 / 2)) n)) <= Rabs (v - IZR j).
Proof.
  intros v n j Hn Hj.
  pose proof (floor_bounds (v + 1 / 2)) as [F1 F2].
  set (f := Zfloor (v + 1 / 2)) in *.
  unfold clampZ.
  destruct (f <? 0)%Z eqn:E1.
  - apply Z.ltb_lt in E1. assert (IZR f <= -1) by (apply IZR_le; lia).
    assert (0 <= IZR j) by (apply IZR_le; lia).
    rewrite !Rabs_left1 by lra. lra.
  - apply Z.ltb_ge in E1. destruct (n <=? f)%Z eqn:E2.
    + apply Z.leb_le in E2. assert (IZR n <= IZR f) by (apply IZR_le; lia).
      assert (IZR j <= IZR (n - 1)) by (apply IZR_le; lia).
      rewrite minus_IZR in *. 
      rewrite !Rabs_right by lra. lra.
    + apply Z.leb_gt in E2.
      assert (Hf : Rabs (v - IZR f) <= 1 / 2) by (apply Rabs_le; lra).
      destruct (Z.lt_trichotomy j f) as [H | [-> | H]]; [| lra |].
      * assert (IZR j <= IZR (f - 1)) by (apply IZR_le; lia). rewrite minus_IZR in *.
        rewrite (Rabs_right (v - IZR j)) by lra. lra.
      * assert (IZR (f + 1) <= IZR j) by (apply IZR_le; lia). rewrite plus_IZR in *.
        rewrite (Rabs_left1 (v - IZR j)) by lra. lra.
Qed.

Lemma inv_fin : forall s, s <> 0 -> inv_scaling exact (XFin s) = XFin (1 / s).
Proof.
  intros s Hs. unfold inv_scaling. cbn. unfold rzero.
  destruct (Req_EM_T (s - 0) 0) as [E | E]; [lra |]. cbn.
  destruct (Req_EM_T s 0); [contradiction | reflexivity].
Qed.

Lemma inv_zero : inv_scaling exact (XFin 0) = XFin 0.
Proof.
  unfold inv_scaling. cbn. unfold rzero.
  destruct (Req_EM_T (0 - 0) 0) as [E | E]; [reflexivity | lra].
Qed.

Lemma inv_inf : forall b, inv_scaling exact (XInf b) = XFin 0.
Proof. intros b. unfold inv_scaling. cbn. reflexivity. Qed.

Lemma scale_dist : forall p off s i, s <> 0 ->
  Rabs (p - (off + IZR i * s)) = Rabs s * Rabs ((p - off) * (1 / s) - IZR i).
Proof.
  intros p off s i Hs. rewrite <- Rabs_mult. f_equal. field. exact Hs.
Qed.

(** Nearest cell, whatever the sign of the spacing. *)
Lemma p2i_nearest : forall off s n p,
  s <> 0 -> (1 <= n < size_max)%Z ->
  exists i w,
    pos2index_dim exact (XFin off) (inv_scaling exact (XFin s)) n (XFin p) = Ok (i, w) /\
    (0 <= i < n)%Z /\
    (forall j, (0 <= j < n)%Z ->
       Rabs (p - (off + IZR i * s)) <= Rabs (p - (off + IZR j * s))).
Proof.
  intros off s n p Hs Hn. rewrite inv_fin by exact Hs.
  eexists _, _. split; [apply p2i_exact; exact Hn |].
  split; [apply clampZ_range; lia |].
  intros j Hj. rewrite !scale_dist by exact Hs.
  apply Rmult_le_compat_l; [apply Rabs_pos |].
  apply clampZ_nearest; lia.
Qed.

(** Ties and the exact cell: no other index is as near unless the coordinate is
    exactly half way. *)
Lemma p2i_warn : forall off s n p,
  s <> 0 -> (1 <= n < size_max)%Z ->
  forall i, pos2index_dim exact (XFin off) (inv_scaling exact (XFin s)) n (XFin p)
            = Ok (i, false) ->
  Rabs (p - (off + IZR i * s)) <= Rabs s / 2.
Proof.
  intros off s n p Hs Hn i. rewrite inv_fin by exact Hs.
  rewrite p2i_exact by exact Hn. intros E.
  injection E as E1 E2. subst i.
  apply orb_false_iff in E2. destruct E2 as [E2 E3]. unfold clampZ. rewrite E2, E3.
  rewrite scale_dist by exact Hs.
  pose proof (floor_bounds ((p - off) * (1 / s) + 1 / 2)) as [F1 F2].
  replace (Rabs s / 2) with (Rabs s * (1 / 2)) by lra.
  apply Rmult_le_compat_l; [apply Rabs_pos |].
  apply Rabs_le. lra.
Qed.

(** *** The metadata computed by [open] *)

Lemma scaling_uniform : forall n c0 s, (2 <= n)%Z ->
  get_scaling exact (@Axis exact n (Some (fun k => XFin (c0 + IZR k * s)))) = XFin s.
Proof.
  intros n c0 s Hn. unfold get_scaling. cbn [x_size x_var].
  rewrite (proj2 (Z.eqb_neq n 1)) by lia. cbn.
  unfold rzero. destruct (Req_EM_T (IZR (n - 1)) 0) as [E | E].
  - apply eq_IZR in E. lia.
  - f_equal. field. exact E.
Qed.

Lemma offset_uniform : forall n c0 s,
  get_offset exact (@Axis exact n (Some (fun k => XFin (c0 + IZR k * s)))) = XFin c0.
Proof. intros. unfold get_offset. cbn. f_equal. ring. Qed.

(** The metadata for a finite spacing. *)
Lemma open_fin : forall vp ax off s,
  get_offset exact ax = XFin off -> get_scaling exact ax = XFin s ->
  let h := match vp with
           | CellCentered => s * (1 / 2 - 1 / 10000000000)
           | VertexCentered => 0
           end in
  let a := off - h in
  let b := off + s * IZR (x_size ax - 1) + h in
  open_dim exact vp ax
  = @DimMeta exact (x_size ax) (XFin off) (XFin (Rabs s)) (inv_scaling exact (XFin s))
      (XFin (Rmin a b)) (XFin (Rmax a b)).
Proof.
  intros vp ax off s Ho Hs h a b. unfold open_dim. rewrite Ho, Hs.
  cbn [exact a_isinf a_abs a_sub a_mul a_add a_ofZ a_half a_prec xadd xmul xneg xabs].
  assert (Hmin : forall x y, std_min exact (XFin x) (XFin y) = XFin (Rmin x y)).
  { intros x y. unfold std_min. cbn [exact a_ltb xltb].
    destruct (Rlt_dec y x) as [H | H]; f_equal; unfold Rmin; destruct (Rle_dec x y); lra. }
  assert (Hmax : forall x y, std_max exact (XFin x) (XFin y) = XFin (Rmax x y)).
  { intros x y. unfold std_max. cbn [exact a_ltb xltb].
    destruct (Rlt_dec x y) as [H | H]; f_equal; unfold Rmax; destruct (Rle_dec x y); lra. }
  unfold a, b, h. clear a b h.
  destruct vp; fold exact; f_equal.
  all: first [rewrite <- Hmin | rewrite <- Hmax]; f_equal; f_equal; ring.
Qed.

Lemma open_one : forall vp v,
  open_dim exact vp (@Axis exact 1 v)
  = @DimMeta exact 1 (get_offset exact (@Axis exact 1 v)) (XInf false) (XFin 0) (XInf true) (XInf false).
Proof. intros vp v. unfold open_dim, get_scaling. cbn [x_size]. change (1 =? 1)%Z with true.
  cbv iota. cbn [exact a_isinf a_inf]. fold exact. rewrite inv_inf. reflexivity.
Qed.

(** Between the ends no clamping. *)
Lemma range_no_clamp : forall off s n p e,
  s <> 0 -> (1 <= n < size_max)%Z -> 0 <= e < 1 / 2 ->
  Rmin (off - s * e) (off + s * IZR (n - 1) + s * e) <= p
    <= Rmax (off - s * e) (off + s * IZR (n - 1) + s * e) ->
  exists i,
    pos2index_dim exact (XFin off) (inv_scaling exact (XFin s)) n (XFin p) = Ok (i, false)
    /\ (0 <= i < n)%Z.
Proof.
  intros off s n p e Hs Hn He Hp.
  rewrite inv_fin by exact Hs. rewrite p2i_exact by exact Hn.
  set (v := (p - off) * (1 / s)).
  assert (Hpv : p = off + s * v) by (unfold v; field; exact Hs).
  assert (Hm : 0 <= IZR (n - 1)) by (apply IZR_le; lia).
  assert (Hv : - e <= v <= IZR (n - 1) + e).
  { unfold Rmin, Rmax in Hp.
    destruct (Rtotal_order s 0) as [Hneg | [H0 | Hpos]]; [| contradiction |].
    - assert (s * (IZR (n - 1) + 2 * e) <= 0) by (rewrite <- (Rmult_0_r s); apply Rmult_le_compat_neg_l; lra).
      destruct (Rle_dec (off - s * e) (off + s * IZR (n - 1) + s * e)) as [H1 | H1].
      + assert (s * IZR (n - 1) + s * (2 * e) = 0) by lra.
        assert (IZR (n - 1) + 2 * e = 0) by nra. 
        assert (e = 0) by lra. assert (IZR (n - 1) = 0) by lra. subst e.
        assert (s * v = 0) by lra. assert (v = 0) by nra. lra.
      + split; apply Rmult_le_reg_l with (- s); lra.
    - assert (0 <= s * (IZR (n - 1) + 2 * e)) by (apply Rmult_le_pos; lra).
      destruct (Rle_dec (off - s * e) (off + s * IZR (n - 1) + s * e)) as [H1 | H1]; [| lra].
      split; apply Rmult_le_reg_l with s; lra. }
  exists (Zfloor (v + 1 / 2)).
  pose proof (floor_bounds (v + 1 / 2)) as [F1 F2].
  assert (0 <= Zfloor (v + 1 / 2))%Z.
  { assert (-1 < IZR (Zfloor (v + 1 / 2))) by lra. apply lt_IZR in H. lia. }
  assert (Zfloor (v + 1 / 2) < n)%Z.
  { apply lt_IZR. rewrite minus_IZR in Hv. lra. }
  split; [| lia]. f_equal. unfold clampZ.
  rewrite (proj2 (Z.ltb_ge _ 0)) by lia. rewrite (proj2 (Z.leb_gt n _)) by lia. reflexivity.
Qed.

Lemma p2i_flat : forall off n p, (1 <= n < size_max)%Z ->
  pos2index_dim exact (XFin off) (XFin 0) n (XFin p) = Ok (0%Z, false).
Proof.
  intros off n p Hn. rewrite p2i_exact by exact Hn.
  replace (Zfloor ((p - off) * 0 + 1 / 2)) with 0%Z.
  - unfold clampZ. cbn [Z.ltb Z.compare]. rewrite (proj2 (Z.leb_gt n 0)) by lia. reflexivity.
  - symmetry. apply Zfloor_imp. cbn. lra.
Qed.

(** *** All dimensions *)

Lemma p2i_loop_spec : forall A metas dims k pos index w,
  (k <= dims)%nat ->
  match pos2index_loop A metas dims k pos index w with
  | Ok (r, w') =>
      (forall i, (i < k)%nat -> exists wi,
         pos2index_dim A (dm_off (metas i)) (dm_sinv (metas i)) (dm_size (metas i))
           (pos (dims - i - 1)%nat) = Ok (r i, wi) /\ (wi = true -> w' = true)) /\
      (forall i, (k <= i)%nat -> r i = index i) /\ (w = true -> w' = true) /\
      (w' = true -> w = true \/ exists i, (i < k)%nat /\
         pos2index_dim A (dm_off (metas i)) (dm_sinv (metas i)) (dm_size (metas i))
           (pos (dims - i - 1)%nat) = Ok (r i, true))
  | Ub => exists i, (i < k)%nat /\
         pos2index_dim A (dm_off (metas i)) (dm_sinv (metas i)) (dm_size (metas i))
           (pos (dims - i - 1)%nat) = Ub
  end.
Proof.
  intros A metas dims k. induction k as [| k IH]; intros pos index w Hk.
  - cbn. repeat split; auto. intros i Hi. lia.
  - cbn [pos2index_loop].
    destruct (pos2index_dim A (dm_off (metas k)) (dm_sinv (metas k)) (dm_size (metas k))
                (pos (dims - k - 1)%nat)) as [[x wx] |] eqn:E; cbn [obind].
    2: { exists k. split; [lia | exact E]. }
    specialize (IH pos (upd index k x) (w || wx)%bool ltac:(lia)).
    destruct (pos2index_loop A metas dims k pos (upd index k x) (w || wx)%bool) as [[r w'] |].
    + destruct IH as (I1 & I2 & I3 & I4).
      assert (Hrk : r k = x).
      { rewrite I2 by lia. unfold upd. now rewrite Nat.eqb_refl. }
      split; [| split; [| split]].
      * intros i Hi. destruct (Nat.eq_dec i k) as [-> | Hne].
        -- exists wx. rewrite Hrk. split; [exact E |]. intros ->. apply I3. apply orb_true_r.
        -- apply I1. lia.
      * intros i Hi. rewrite I2 by lia. unfold upd.
        destruct (Nat.eqb_spec i k); [lia | reflexivity].
      * intros ->. apply I3. reflexivity.
      * intros Hw'. destruct (I4 Hw') as [Hw | (i & Hi & Hd)].
        -- apply orb_true_iff in Hw. destruct Hw as [Hw | Hw]; [now left |].
           right. exists k. split; [lia |]. rewrite Hrk. rewrite E, Hw. reflexivity.
        -- right. exists i. split; [lia | exact Hd].
    + destruct IH as (i & Hi & Hd). exists i. split; [lia | exact Hd].
Qed.

Lemma meta_open : forall A vp axes i ax,
  nth_error axes i = Some ax -> meta A (level_open A vp axes) i = open_dim A vp ax.
Proof.
  intros A vp axes i ax H. unfold meta, level_open.
  apply nth_error_nth. rewrite nth_error_map, H. reflexivity.
Qed.
