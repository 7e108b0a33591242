(** * C19 - C24: coordinates *)
From Coq Require Import ZArith Reals Bool List Lia Lra.
From Flocq Require Import Core.Core IEEE754.BinarySingleNaN.
From Verif Require Import Base BlockedModel CoordFacts RangeFacts.
Import ListNotations.
Local Open Scope R_scope.

(** C19.  Every number of dimensions, every regular axis in each of them (any
    size from 1, any first centre, any non-zero spacing, stored or not), every
    coordinate: the index is inside the dimension and no other cell centre is
    nearer.  Coordinates outside of the grid are included. *)
Theorem C19_nearest_cell :
  forall (vp : value_pos) (us : list raxis) (pos : nat -> R) (init : nat -> Z),
  Forall ra_ok us ->
  exists idx w,
    pos2index exact (level_open exact vp (map ra_axis us)) (fun k => XFin (pos k)) init = Ok (idx, w) /\
    forall i u, nth_error us i = Some u ->
      (0 <= idx i < ra_n u)%Z /\
      forall j, (0 <= j < ra_n u)%Z ->
        Rabs (pos (user_dim (length us) i) - centre u (idx i))
        <= Rabs (pos (user_dim (length us) i) - centre u j).
Proof. exact nearest_cell. Qed.
Print Assumptions C19_nearest_cell.

(** C19, clamping: a coordinate on the far side of the first (last) centre is
    mapped to the first (last) cell. *)
Theorem C19_clamped_to_end :
  forall (vp : value_pos) (u : raxis) (p : R), ra_ok u ->
  let m := open_dim exact vp (ra_axis u) in
  forall i w,
    pos2index_dim exact (dm_off m) (dm_sinv m) (dm_size m) (XFin p) = Ok (i, w) ->
    ((p - ra_c0 u) / ra_s u <= 0 -> i = 0%Z) /\
    (IZR (ra_n u - 1) <= (p - ra_c0 u) / ra_s u -> i = (ra_n u - 1)%Z).
Proof. exact outside_clamped. Qed.
Print Assumptions C19_clamped_to_end.

(** A falling axis and one without coordinate variable meet the hypotheses. *)
Example C19_example : Forall ra_ok [RAxis 4 10 (-2) true; RAxis 7 0 1 false] /\
  centre (RAxis 4 10 (-2) true) 3 = 4.
Proof.
  split.
  - constructor; [| constructor; [| constructor]]; unfold ra_ok, size_max; cbn;
      split; [lia | split; [lra | intros; discriminate] | lia | split; [lra | intros; lra]].
  - unfold centre. cbn. lra.
Qed.

(** C20 in exact arithmetic.  Every coordinate vector inside the reported
    ranges is mapped without the out-of-range correction (second component
    [false]) and to a cell at most half a spacing away.  Missing for the full
    property: it fails in double arithmetic, see below. *)
Theorem C20_range_usable_partial :
  forall (vp : value_pos) (us : list raxis) (pos : nat -> R) (init : nat -> Z),
  Forall ra_ok us ->
  let lv := level_open exact vp (map ra_axis us) in
  (forall n, (n < length us)%nat ->
     xleb (level_min exact lv n) (XFin (pos n)) = true /\
     xleb (XFin (pos n)) (level_max exact lv n) = true) ->
  exists idx,
    pos2index exact lv (fun k => XFin (pos k)) init = Ok (idx, false) /\
    forall i u, nth_error us i = Some u ->
      (0 <= idx i < ra_n u)%Z /\
      ((2 <= ra_n u)%Z ->
       Rabs (pos (user_dim (length us) i) - centre u (idx i)) <= Rabs (ra_s u) / 2).
Proof. exact range_usable. Qed.
Print Assumptions C20_range_usable_partial.

(** C20: shape of the range and of the spacing reported for an axis of at least
    two cells, for both directions of the axis. *)
Theorem C20_range_shape :
  forall u : raxis, ra_ok u -> (2 <= ra_n u)%Z ->
  exists lo hi,
    lo <= hi /\ lo = Rmin (centre u 0) (centre u (ra_n u - 1)) /\
    hi = Rmax (centre u 0) (centre u (ra_n u - 1)) /\
    dm_min (open_dim exact VertexCentered (ra_axis u)) = XFin lo /\
    dm_max (open_dim exact VertexCentered (ra_axis u)) = XFin hi /\
    dm_min (open_dim exact CellCentered (ra_axis u))
      = XFin (lo - Rabs (ra_s u) * (1 / 2 - 1 / 10000000000)) /\
    dm_max (open_dim exact CellCentered (ra_axis u))
      = XFin (hi + Rabs (ra_s u) * (1 / 2 - 1 / 10000000000)) /\
    (forall vp, dm_scal (open_dim exact vp (ra_axis u)) = XFin (Rabs (centre u 1 - centre u 0))).
Proof. exact range_shape. Qed.
Print Assumptions C20_range_shape.

(** C20 is false in double arithmetic: cell centres 1048576 and 1048577; the
    reported cell-centred maximum is rounded to 1048577.5, which is mapped with
    the out-of-range correction. *)
Theorem C20_float_refuted :
  exists (ax : axis ieee),
    let m := open_dim ieee CellCentered ax in
    is_finite (dm_max m) = true /\
    pos2index_dim ieee (dm_off m) (dm_sinv m) (dm_size m) (dm_max m) = Ok (1%Z, true).
Proof.
  exists (@Axis ieee 2 (Some (fun k => fnum (1048576 + k) 0))).
  vm_compute. split; reflexivity.
Qed.
Print Assumptions C20_float_refuted.

(** What holds in double arithmetic ([roomy]): cell-centred, if the first coordinate (in units of the spacing) and the
    number of cells are together at most 50000; vertex-centred up to 2^47.  Then every double between the reported ends is
    mapped without correction, to a cell at most half a spacing (and 10 * 2^-53 of the extent) away.  [single]: one cell.
    Missing: grids further away from zero, where it is false. *)
Theorem C20_double_partial :
  forall vp (axes : list (axis ieee)) (pos : nat -> f64) init,
  let lv := level_open ieee vp axes in
  (forall i ax, nth_error axes i = Some ax -> roomy vp ax \/ single ax (pos (user_dim (length axes) i))) ->
  (forall n, (n < length axes)%nat -> Bleb (level_min ieee lv n) (pos n) = true /\ Bleb (pos n) (level_max ieee lv n) = true) ->
  exists idx, pos2index ieee lv pos init = Ok (idx, false) /\
    forall i ax, nth_error axes i = Some ax -> (0 <= idx i < x_size ax)%Z /\
      ((2 <= x_size ax)%Z ->
       Rabs (B2R (pos (user_dim (length axes) i)) - (B2R (get_offset ieee ax) + IZR (idx i) * B2R (get_scaling ieee ax)))
       <= Rabs (B2R (get_scaling ieee ax)) * (1 / 2 + 10 * bpow radix2 (-53) * IZR (x_size ax))).
Proof. exact range_usable_double. Qed.
Print Assumptions C20_double_partial.

(** The falling axis 10, 8, 6, 4 and a single cell; the ends of the range are 3.0000000002 and 10.9999999998. *)
Example C20_double_example :
  let ax := @Axis ieee 4 (Some (fun k => fnum (10 - 2 * k) 0)) in let one := @Axis ieee 1 None in
  let lv := level_open ieee CellCentered [ax; one] in
  roomy CellCentered ax /\ roomy VertexCentered ax /\ single one (fnum 7 0) /\
  (forall p, p = level_min ieee lv 1 \/ p = level_max ieee lv 1 ->
   let pos k := match k with O => fnum 7 0 | _ => p end in
   forall n, (n < 2)%nat -> Bleb (level_min ieee lv n) (pos n) = true /\ Bleb (pos n) (level_max ieee lv n) = true).
Proof.
  intros ax one lv.
  assert (R : forall vp, roomy vp ax).
  { intros vp.
    destruct (computed (get_offset ieee ax) false 5629499534213120 (-49)) as [F1 E1]; [vm_compute; reflexivity|].
    destruct (computed (get_scaling ieee ax) true 4503599627370496 (-51)) as [F2 E2]; [vm_compute; reflexivity|].
    unfold roomy. cbn zeta. rewrite E1, E2. unfold F2R. cbn [Fnum Fexp cond_Zopp Z.opp].
    change (bpow radix2 (-49)) with (/ 562949953421312). change (bpow radix2 (-51)) with (/ 2251799813685248).
    assert (EA : Rabs (IZR (- 4503599627370496) * / 2251799813685248) = 2) by (rewrite Rabs_left; lra).
    assert (EB : Rabs (5629499534213120 * / 562949953421312) = 10) by (rewrite Rabs_right; lra).
    rewrite EA, EB. change (IZR (x_size ax)) with 4. split; [cbn; lia|]. split; [exact F1|]. split; [exact F2|].
    split; [split; [apply Rle_trans with (bpow radix2 0); [apply bpow_le; lia|cbn; lra]|
                    apply Rle_trans with (bpow radix2 1); [cbn; lra|apply bpow_le; lia]]|].
    destruct vp; cbn [room]; [lra|]. apply Rle_trans with (bpow radix2 4); [cbn; lra|apply bpow_le; lia]. }
  split; [apply R|]. split; [apply R|]. split; [repeat split; vm_compute; reflexivity|].
  intros p [->| ->] pos [|[|n]] Hn; try lia; split; vm_compute; reflexivity.
Qed.

(** The falling axis 10, 8, 6, 4: 3.1 is in the cell-centred range. *)
Example C20_example :
  let u := RAxis 4 10 (-2) true in
  ra_ok u /\ xleb (dm_min (open_dim exact CellCentered (ra_axis u))) (XFin (31 / 10)) = true.
Proof.
  intros u.
  assert (Hu : ra_ok u).
  { unfold ra_ok, size_max. cbn. split; [lia |]. split; [lra | intros; discriminate]. }
  split; [exact Hu |].
  destruct (range_shape u Hu ltac:(cbn; lia)) as (lo & hi & _ & El & _ & _ & _ & E & _).
  rewrite E. cbn [xleb]. subst lo. unfold centre. cbn [ra_c0 ra_s ra_n u].
  rewrite Rabs_left by lra. rewrite Rmin_right by (cbn; lra).
  match goal with |- (if ?d then _ else _) = _ => destruct d as [H | H]; [reflexivity |] end.
  exfalso. apply H. cbn. lra.
Qed.

(** C21.  Doubles: the index is defined and in range for every coordinate,
    offset and spacing which do not produce NaN ... *)
Theorem C21_in_range :
  forall (off s p : f64) n,
  is_nan (Bmult mode_NE (Bminus mode_NE p off) (inv_scaling ieee s)) = false ->
  (1 <= n <= 2 ^ 53)%Z ->
  exists i w, pos2index_dim ieee off (inv_scaling ieee s) n p = Ok (i, w) /\ (0 <= i < n)%Z.
Proof. exact ieee_in_range. Qed.
Print Assumptions C21_in_range.

(** ... and monotone in the coordinate (antitone for a falling axis). *)
Theorem C21_monotone :
  forall (off s p q : f64) n i j wi wj,
  is_nan s = false -> is_finite off = true -> is_finite p = true -> is_finite q = true ->
  is_nan (Bmult mode_NE (Bminus mode_NE p off) (inv_scaling ieee s)) = false ->
  is_nan (Bmult mode_NE (Bminus mode_NE q off) (inv_scaling ieee s)) = false ->
  (1 <= n <= 2 ^ 53)%Z ->
  B2R p <= B2R q ->
  pos2index_dim ieee off (inv_scaling ieee s) n p = Ok (i, wi) ->
  pos2index_dim ieee off (inv_scaling ieee s) n q = Ok (j, wj) ->
  (Bleb (fnum 0 0) s = true -> (i <= j)%Z) /\ (Bleb s (fnum 0 0) = true -> (j <= i)%Z).
Proof. exact ieee_monotone. Qed.
Print Assumptions C21_monotone.

(** When there is no NaN: for every spacing which is a normal number, and for
    zero or infinite spacing as long as coordinate minus offset does not
    overflow. *)
Theorem C21_no_nan :
  forall (off s p : f64),
  is_finite off = true -> is_finite p = true ->
  (is_finite s = true /\ bpow radix2 (-1022) <= Rabs (B2R s)) \/
  (is_finite (Bminus mode_NE p off) = true /\ (s = B754_infinity false \/ B2R s = 0 /\ is_finite s = true)) ->
  is_nan (Bmult mode_NE (Bminus mode_NE p off) (inv_scaling ieee s)) = false.
Proof. exact ieee_no_nan. Qed.
Print Assumptions C21_no_nan.

(** Spacing 0.1, offset 0.3, coordinates 0.7 and 1e300. *)
Example C21_example :
  let off := fnum 5404319552844595 (-54) in
  let s := fnum 7205759403792794 (-56) in
  pos2index_dim ieee off (inv_scaling ieee s) 100 (fnum 6305039478318694 (-53)) = Ok (4%Z, false) /\
  pos2index_dim ieee off (inv_scaling ieee s) 100 (fnum 1 900) = Ok (99%Z, true) /\
  pos2index_dim ieee off (inv_scaling ieee s) 100 (fnum (-1) 900) = Ok (0%Z, true).
Proof. vm_compute. auto. Qed.

(** C22 is false: 0.49999999999999994 on the grid with centres 0 and 1 is
    mapped to 1. *)
Theorem C22_refuted :
  exists p : f64,
    let m := open_dim ieee VertexCentered (@Axis ieee 2 None) in
    pos2index_dim ieee (dm_off m) (dm_sinv m) (dm_size m) p = Ok (1%Z, false) /\
    Rabs (B2R p - 0) < Rabs (B2R p - 1).
Proof. exists w22. exact round_up_witness. Qed.
Print Assumptions C22_refuted.

(** What holds instead: no cell is nearer than the chosen one by more than
    10 * 2^-53 times the extent of the grid.  Missing for the full property:
    exactly nearest, which is false. *)
Theorem C22_almost_nearest_partial :
  forall (off s p : f64) n,
  is_finite off = true -> is_finite s = true -> is_finite p = true ->
  bpow radix2 (-900) <= Rabs (B2R s) <= bpow radix2 900 ->
  (1 <= n <= 2 ^ 53)%Z ->
  - (1 / 2) <= (B2R p - B2R off) / B2R s <= IZR n - 1 / 2 ->
  exists i w,
    pos2index_dim ieee off (inv_scaling ieee s) n p = Ok (i, w) /\ (0 <= i < n)%Z /\
    forall j, (0 <= j < n)%Z ->
      Rabs (B2R p - (B2R off + IZR i * B2R s))
      <= Rabs (B2R p - (B2R off + IZR j * B2R s)) + 10 * bpow radix2 (-53) * IZR n * Rabs (B2R s).
Proof. exact CoordFloat3.float_almost_nearest. Qed.
Print Assumptions C22_almost_nearest_partial.

(** C23 is false: the reported minimum of a size-one dimension is minus
    infinity, and a read there converts NaN to an index. *)
Theorem C23_refuted :
  exists ax : axis ieee,
    let m := open_dim ieee VertexCentered ax in
    x_size ax = 1%Z /\
    pos2index_dim ieee (dm_off m) (dm_sinv m) (dm_size m) (dm_min m) = Ub /\
    pos2index_dim ieee (dm_off m) (dm_sinv m) (dm_size m) (dm_max m) = Ub.
Proof. exists (@Axis ieee 1 None). vm_compute. auto. Qed.
Print Assumptions C23_refuted.

(** It is also false for finite coordinates of a size-one dimension: offset
    -2^1023, coordinate 2^1023. *)
Theorem C23_overflow_refuted :
  exists (ax : axis ieee) (p : f64),
    let m := open_dim ieee VertexCentered ax in
    is_finite p = true /\ is_finite (dm_off m) = true /\
    Bleb (dm_min m) p = true /\ Bleb p (dm_max m) = true /\
    pos2index_dim ieee (dm_off m) (dm_sinv m) (dm_size m) p = Ub.
Proof.
  exists (@Axis ieee 1 (Some (fun _ => fnum (-1) 1023))), (fnum 1 1023).
  vm_compute. auto.
Qed.
Print Assumptions C23_overflow_refuted.

(** What holds: finite coordinates whose distance to the offset is finite, for
    size-one dimensions; every finite coordinate for larger dimensions (with a
    spacing which is a normal number).  Missing: infinite coordinates of
    size-one dimensions and the overflow case, where it is false. *)
Theorem C23_size_one_partial :
  forall vp v (p : f64),
  let m := open_dim ieee vp (@Axis ieee 1 v) in
  is_finite (dm_off m) = true -> is_finite p = true ->
  is_finite (Bminus mode_NE p (dm_off m)) = true ->
  pos2index_dim ieee (dm_off m) (dm_sinv m) (dm_size m) p = Ok (0%Z, false).
Proof. exact ieee_size_one. Qed.
Print Assumptions C23_size_one_partial.

Theorem C23_larger_partial :
  forall vp (ax : axis ieee) (p : f64),
  let m := open_dim ieee vp ax in
  (2 <= x_size ax <= 2 ^ 53)%Z ->
  is_finite (dm_off m) = true -> is_finite (get_scaling ieee ax) = true ->
  bpow radix2 (-1022) <= Rabs (B2R (get_scaling ieee ax)) ->
  is_finite p = true ->
  exists i w, pos2index_dim ieee (dm_off m) (dm_sinv m) (dm_size m) p = Ok (i, w) /\
    (0 <= i < x_size ax)%Z.
Proof. exact ieee_endpoints. Qed.
Print Assumptions C23_larger_partial.

(** C24.  For every number of dimensions and every arithmetic, what the
    interface calls dimension [n] is file dimension number [n] from the end:
    range, spacing, coordinate and block size are those of the one-dimensional
    grid over that file dimension alone. *)
Theorem C24_ranges :
  forall (A : arith) vp axes n ax, nth_error (rev axes) n = Some ax ->
  let lv := level_open A vp axes in
  let lv1 := level_open A vp [ax] in
  level_min A lv n = level_min A lv1 0 /\ level_max A lv n = level_max A lv1 0 /\
  level_delta A lv n = level_delta A lv1 0.
Proof. exact order_meta. Qed.
Print Assumptions C24_ranges.

Theorem C24_coordinates :
  forall (A : arith) vp axes n ax pos init idx w,
  nth_error (rev axes) n = Some ax ->
  pos2index A (level_open A vp axes) pos init = Ok (idx, w) ->
  exists idx1 w1,
    pos2index A (level_open A vp [ax]) (fun _ => pos n) (fun _ => 0%Z) = Ok (idx1, w1) /\
    nth_error (rev (map idx (seq 0 (length axes)))) n = Some (idx1 0%nat).
Proof. exact order_index. Qed.
Print Assumptions C24_coordinates.

Theorem C24_block_sizes :
  forall sizes user td arr0 bl n s arr1,
  nth_error (rev sizes) n = Some s ->
  blocked_open sizes user td arr0 = Ok bl ->
  exists bl1, blocked_open [s] (fun _ => user n) (-1) arr1 = Ok bl1 /\
    nth_error (rev (b_bs bl)) n = nth_error (b_bs bl1) 0.
Proof. exact order_blocks. Qed.
Print Assumptions C24_block_sizes.

(** Three dimensions of different sizes; coordinate 0 belongs to the last one. *)
Example C24_example :
  let axes := [@Axis ieee 3 None; @Axis ieee 5 None; @Axis ieee 9 None] in
  match pos2index ieee (level_open ieee VertexCentered axes)
          (fun n => nth n [fnum 7 0; fnum 4 0; fnum 2 0] (fnum 0 0)) (fun _ => 0%Z) with
  | Ok (idx, w) => map idx (seq 0 3) = [2; 4; 7]%Z /\ w = false
  | Ub => False
  end.
Proof. vm_compute. auto. Qed.
