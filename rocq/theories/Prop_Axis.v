(** * C80: reads with the coordinates which the file gives for a cell *)
From Coq Require Import List Arith Bool ZArith Reals Lia Lra String.
From Flocq Require Import Core.Core IEEE754.BinarySingleNaN.
From Verif Require Import Base BlockedModel LevelsModel ParamModel TypesModel CoordModel CoordFloat CoordFloat2 CoordFloat3 EndModel EndFacts AxisFacts.
From Verif Require FileModel FileSpec.
Import ListNotations.
Local Open Scope string_scope.

(** [usual_axis]: no coordinate variable, one cell, or values within 1/16 of the spacing of an equidistant grid; up to 2^47 cells.
    In double arithmetic, with the offset and the scaling which [Level::open] computes from the first and the last value, the
    coordinates of a cell are mapped to this cell. *)
Theorem C80_index_partial : forall (s : session ieee) ix init,
  Forall usual_axis (n_axes s) -> in_box (map (fun ax => Z.to_nat (x_size ax)) (n_axes s)) ix ->
  index_of s (coordinates (n_axes s) ix) init = Ok ix.
Proof. exact own_index_ok. Qed.
Print Assumptions C80_index_partial.

(** All parameters, builds, processes, domains, threads and interleavings, at any moment: the answers to reads at the
    coordinates of cells are the values of these cells. *)
Theorem C80_value_partial : forall (s : session ieee) (prog : nat -> list (list nat * getter)) answers,
  session_ok s -> Forall usual_axis (n_axes s) ->
  (forall ix, in_box (map (fun ax => Z.to_nat (x_size ax)) (n_axes s)) ix -> List.length (n_cell s ix) = type_size (n_type s)) ->
  (forall t, n_threads s <= t -> prog t = [])%nat ->
  (forall t r, In r (prog t) -> in_box (map (fun ax => Z.to_nat (x_size ax)) (n_axes s)) (fst r)) ->
  session_run s (fun t => map (at_cell s) (prog t)) answers ->
  forall t, exists k, Forall2 (fun r a => expected (n_type s) (snd r) (n_cell s (fst r)) a) (firstn k (prog t)) (answers t).
Proof. exact own_answers. Qed.
Print Assumptions C80_value_partial.

(** The same for coordinates which the program has computed by itself: up to 1/10 of the spacing away from the cell's place. *)
Theorem C80_beside_partial : forall (s : session ieee) (prog : nat -> list (list nat * @request ieee)) answers,
  session_ok s -> Forall usual_axis (n_axes s) ->
  (forall ix, in_box (map (fun ax => Z.to_nat (x_size ax)) (n_axes s)) ix -> List.length (n_cell s ix) = type_size (n_type s)) ->
  (forall t, n_threads s <= t -> prog t = [])%nat ->
  (forall t ix r, In (ix, r) (prog t) -> in_box (map (fun ax => Z.to_nat (x_size ax)) (n_axes s)) ix /\ beside_cell (n_axes s) ix (q_pos r)) ->
  session_run s (fun t => map snd (prog t)) answers ->
  forall t, exists k, Forall2 (fun r a => expected (n_type s) (q_getter (snd r)) (n_cell s (fst r)) a) (firstn k (prog t)) (answers t).
Proof. exact beside_answers. Qed.
Print Assumptions C80_beside_partial.

(** The offsets and scalings of these axes are those which opening the file gives. *)
Theorem C80_file : forall maxd g k w m name f v axes,
  FileSpec.named_once f64 k -> k name = Some f -> In v (FileModel.f_vars f64 f) ->
  (List.length (FileModel.v_dims f64 v) <= maxd)%nat -> FileSpec.good_axes f64 f v ->
  Forall2 (is_axis f) (FileModel.v_dims f64 v) axes -> Forall (fun ax => 1 <= x_size ax)%Z axes ->
  exists w1 m1 lv e, open_level maxd g k w m name (FileModel.v_name f64 v) = Ok (w1, m1, lv, e) /\
    FileModel.l_offset f64 lv = map (fun ax => Some (get_offset ieee ax)) axes /\
    FileModel.l_scaling f64 lv = map (fun ax => Some (get_scaling ieee ax)) axes.
Proof. exact file_axes. Qed.
Print Assumptions C80_file.

(** ** Examples: the axes 0.1, 0.2, ... (rounded to double), 3, 2, ..., -96 and one without coordinate variable *)
Definition tenths (k : Z) : f64 := Bdiv mode_NE (fnum (k + 1) 0) (fnum 10 0).
Lemma tenths_near n : (n <= 2 ^ 40)%Z -> near_regular n tenths (1 / 10) (1 / 10).
Proof.
  intros Hn k Hk.
  destruct (val_fin_inv _ _ (val_int (k + 1) ltac:(lia))) as [F1 E1]. destruct (val_fin_inv _ _ (val_int 10 ltac:(lia))) as [F2 E2].
  pose proof (val_div (fnum (k + 1) 0) (fnum 10 0) F1 F2 ltac:(rewrite E2; lra)) as V. rewrite E1, E2 in V.
  assert (HK : (1 <= IZR (k + 1) <= 1099511627776)%R) by (split; apply IZR_le; lia).
  destruct (rnd_rel (IZR (k + 1) / 10)) as (e & He & Hr).
  { rewrite Rabs_right by lra. apply Rle_trans with (bpow radix2 (-4)); [apply bpow_le; lia|]. change (bpow radix2 (-4)) with (/ 16)%R. lra. }
  assert (Hu : (0 < ulp1 <= / 9007199254740992)%R) by (rewrite ulp1_val; lra).
  assert (Hd : (Rabs (IZR (k + 1) / 10 * e) <= / 1000)%R).
  { apply Rle_trans with (109951162778 * / 9007199254740992)%R; [|lra]. apply abs_mul; [rewrite Rabs_right; lra | lra]. }
  rewrite Hr in V. destruct (fin_of_sat _ _ V) as [Fd Ed].
  { replace (IZR (k + 1) / 10 * (1 + e))%R with (IZR (k + 1) / 10 + IZR (k + 1) / 10 * e)%R by ring.
    apply Rle_lt_trans with (bpow radix2 40 + 1)%R; [|unfold big; apply Rle_lt_trans with (bpow radix2 41)].
    - apply abs_add; [|lra]. change (bpow radix2 40) with 1099511627776%R. rewrite Rabs_right; lra.
    - change (bpow radix2 40) with 1099511627776%R. change (bpow radix2 41) with 2199023255552%R. lra.
    - apply bpow_lt. lia. }
  split; [exact Fd|]. unfold tenths. rewrite Ed, plus_IZR in *.
  replace ((IZR k + 1) / 10 * (1 + e) - (1 / 10 + IZR k * (1 / 10)))%R with ((IZR k + 1) / 10 * e)%R by field.
  rewrite (Rabs_right (1 / 10)) by lra. lra.
Qed.
Definition downwards (k : Z) : f64 := fnum (3 - k) 0.
Lemma downwards_near n : (n <= 2 ^ 40)%Z -> near_regular n downwards 3 (-1).
Proof.
  intros Hn k Hk. destruct (val_fin_inv _ _ (val_int (3 - k) ltac:(lia))) as [F E]. split; [exact F|]. unfold downwards.
  rewrite E, minus_IZR. replace (3 - IZR k - (3 + IZR k * -1))%R with 0%R by ring. rewrite Rabs_R0. pose proof (Rabs_pos (-1)). lra.
Qed.

Definition u_axes : list (axis ieee) := [@Axis ieee 12 (Some tenths); @Axis ieee 100 (Some downwards); @Axis ieee 7 None; @Axis ieee 1 (Some (fun _ => fnum 5 0))].
Example C80_usual : Forall usual_axis u_axes.
Proof.
  apply Forall_forall. intros ax Hax. unfold u_axes in Hax.
  destruct Hax as [<-|[<-|[<-|[<-|[]]]]]; (split; [cbn [x_size]; lia|]); cbn [x_size x_var]; intros c H; inversion H; subst c; split.
  - apply (tenths_near 12%Z ltac:(lia) 0%Z ltac:(lia)).
  - intros _. exists (1 / 10)%R, (1 / 10)%R. split; [|apply tenths_near; lia]. rewrite Rabs_right by lra.
    split; [apply Rle_trans with (bpow radix2 (-4)); [apply bpow_le; lia | change (bpow radix2 (-4)) with (/ 16)%R; lra]
           |apply Rle_trans with (bpow radix2 0); [change (bpow radix2 0) with 1%R; lra | apply bpow_le; lia]].
  - reflexivity.
  - intros _. exists 3%R, (-1)%R. split; [|apply downwards_near; lia]. rewrite Rabs_left by lra.
    replace (- -1)%R with (bpow radix2 0) by (cbn; lra). split; apply bpow_le; lia.
  - reflexivity.
  - intros L. lia.
Qed.

Definition u_session : session ieee :=
  @Session ieee (Build false false) [("grid", "cache", 0%nat); ("cache-size", "3", 0%nat)] 2 2 2 (fun t => t mod 2)%nat (fun t => t mod 2)%nat
    RoundRobin (new_grid INT false) 0 u_axes (fun ix => le_bytes 4 (Z.of_nat (100 * nth 0 ix 0 + nth 1 ix 0)))%nat.
Lemma u_ok : session_ok u_session.
Proof.
  split; [discriminate|]. split; [repeat constructor; cbn; lia|]. split; [vm_compute; lia|]. split; [vm_compute; reflexivity|].
  split; intros t; cbn -[Nat.modulo]; apply Nat.mod_upper_bound; lia.
Qed.
(** The cell [3, 98, 6, 0] is at (5, 6, -95, 0.4) in the user's order. *)
Example C80_example :
  in_box (map (fun ax => Z.to_nat (x_size ax)) (n_axes u_session)) [3; 98; 6; 0]%nat /\
  map (fun k => Beqb (coordinates u_axes [3; 98; 6; 0]%nat k)
                     (nth k [fnum 5 0; fnum 6 0; fnum (-95) 0; Bdiv mode_NE (fnum 4 0) (fnum 10 0)] (fnum 0 0))) [0; 1; 2; 3]%nat = [true; true; true; true] /\
  index_of u_session (coordinates (n_axes u_session) [3; 98; 6; 0]%nat) (fun _ => 0%Z) = Ok [3; 98; 6; 0]%nat /\
  exists answers, session_run u_session (fun t => map (at_cell u_session) (if (t <? 2)%nat then [([3; 98; 6; 0]%nat, GetScalar Double)] else [])) answers /\
    List.length (answers 1%nat) = 1%nat.
Proof.
  assert (in_box (map (fun ax => Z.to_nat (x_size ax)) (n_axes u_session)) [3; 98; 6; 0]%nat) as Hb.
  { repeat constructor; cbn; lia. }
  split; [exact Hb|]. split; [vm_compute; reflexivity|]. split; [apply (own_index_ok u_session); [apply C80_usual|exact Hb]|].
  destruct (can_run u_session (fun t => map (at_cell u_session) (if (t <? 2)%nat then [([3; 98; 6; 0]%nat, GetScalar Double)] else []))) as (answers & Hr & L).
  - exact u_ok.
  - intros t Ht. destruct (Nat.ltb_spec t 2); [cbn in Ht; lia|reflexivity].
  - intros t r Hr. destruct (t <? 2)%nat; [|destruct Hr]. destruct Hr as [<-|[]]. apply (own_index u_session); [apply C80_usual|exact Hb].
  - exists answers. split; [exact Hr|]. now rewrite L.
Qed.

(** 0.405 on the first axis, -95.05 on the second, 6.0625 on the third, anything on the last belong to the same cell. *)
Example C80_beside_used : beside_cell u_axes [3; 98; 6; 0]%nat
  (fun k => nth k [fnum 1 900; fnum 97 (-4); Bdiv mode_NE (fnum (-9505) 0) (fnum 100 0); Bdiv mode_NE (fnum 405 0) (fnum 1000 0)] (fnum 0 0)).
Proof.
  assert (H : forall a b, (Z.abs a <= 2 ^ 20)%Z -> (1 <= b <= 1000)%Z -> (1 <= Z.abs a)%Z ->
            is_finite (Bdiv mode_NE (fnum a 0) (fnum b 0)) = true /\ (Rabs (B2R (Bdiv mode_NE (fnum a 0) (fnum b 0)) - IZR a / IZR b) <= / 1000000)%R).
  { intros a b Ha Hb Ha1. destruct (val_fin_inv _ _ (val_int a ltac:(lia))) as [F1 E1]. destruct (val_fin_inv _ _ (val_int b ltac:(lia))) as [F2 E2].
    assert (HB : (1 <= IZR b <= 1000)%R) by (split; apply IZR_le; lia).
    assert (HA : (1 <= Rabs (IZR a) <= 1048576)%R) by (rewrite <- abs_IZR; split; apply IZR_le; lia).
    pose proof (val_div (fnum a 0) (fnum b 0) F1 F2 ltac:(rewrite E2; lra)) as V. rewrite E1, E2 in V.
    assert (HQ : (/ 1000 <= Rabs (IZR a / IZR b) <= 1048576)%R).
    { unfold Rdiv. rewrite Rabs_mult, Rabs_inv, (Rabs_right (IZR b)) by lra. split.
      - apply Rle_trans with (1 * / 1000)%R; [lra|]. apply Rmult_le_compat; try lra. apply Rinv_le_contravar; lra.
      - apply Rle_trans with (1048576 * / 1)%R; [|lra]. apply Rmult_le_compat; try lra. left. apply Rinv_0_lt_compat. lra.
        apply Rinv_le_contravar; lra. }
    destruct (rnd_rel (IZR a / IZR b)) as (e & He & Hr).
    { apply Rle_trans with (bpow radix2 (-10)); [apply bpow_le; lia|]. change (bpow radix2 (-10)) with (/ 1024)%R. lra. }
    assert (Hu : (0 < ulp1 <= / 9007199254740992)%R) by (rewrite ulp1_val; lra).
    assert (Hd : (Rabs (IZR a / IZR b * e) <= / 1000000)%R).
    { apply Rle_trans with (1048576 * / 9007199254740992)%R; [|lra]. apply abs_mul; lra. }
    rewrite Hr in V. destruct (fin_of_sat _ _ V) as [Fd Ed].
    { replace (IZR a / IZR b * (1 + e))%R with (IZR a / IZR b + IZR a / IZR b * e)%R by ring.
      apply Rle_lt_trans with (1048576 + 1)%R; [apply abs_add; lra|]. unfold big. apply Rlt_trans with (bpow radix2 21).
      - change (bpow radix2 21) with 2097152%R. lra.
      - apply bpow_lt. lia. }
    split; [exact Fd|]. rewrite Ed. replace (IZR a / IZR b * (1 + e) - IZR a / IZR b)%R with (IZR a / IZR b * e)%R by ring. exact Hd. }
  assert (Hs : forall q, (q = 1 \/ q = 1 / 10)%R -> (bpow radix2 (-890) <= Rabs q <= bpow radix2 890)%R).
  { intros q Hq. assert (/ 16 <= q <= 1)%R as Hq' by lra. rewrite Rabs_right by lra.
    split; [apply Rle_trans with (bpow radix2 (-4)); [apply bpow_le; lia | change (bpow radix2 (-4)) with (/ 16)%R; lra]
           |apply Rle_trans with (bpow radix2 0); [change (bpow radix2 0) with 1%R; lra | apply bpow_le; lia]]. }
  intros i ax x Hi Hx. destruct i as [|[|[|[|i]]]]; cbn in Hi, Hx; try (destruct i; discriminate);
    inversion Hi; inversion Hx; subst; clear Hi Hx; cbn [List.length u_axes Nat.sub nth].
  - destruct (H 405%Z 1000%Z ltac:(lia) ltac:(lia) ltac:(lia)) as [F E]. split; [exact F|]. cbn [x_size x_var]. change (12 =? 1)%Z with false.
    exists (1 / 10)%R, (1 / 10)%R. split; [apply Hs; auto|]. split; [apply tenths_near; lia|].
    rewrite (Rabs_right (1 / 10)) by lra. apply Rabs_le_inv in E. apply Rabs_le. change (Z.of_nat 3) with 3%Z. lra.
  - destruct (H (-9505)%Z 100%Z ltac:(lia) ltac:(lia) ltac:(lia)) as [F E]. split; [exact F|]. cbn [x_size x_var]. change (100 =? 1)%Z with false.
    exists 3%R, (-1)%R. split; [rewrite Rabs_left by lra; replace (- -1)%R with (Rabs 1) by (rewrite Rabs_R1; lra); apply Hs; auto|].
    split; [apply downwards_near; lia|].
    rewrite (Rabs_left (-1)) by lra. apply Rabs_le_inv in E. apply Rabs_le. change (Z.of_nat 98) with 98%Z. lra.
  - assert (val (fnum 97 (-4)) = XFin (97 / 16)) as V.
    { rewrite val_fnum. replace (F2R (Core.Defs.Float radix2 97 (-4))) with (97 / 16)%R by (unfold F2R; cbn; lra).
      assert (rnd (97 / 16) = 97 / 16)%R as ->.
      { unfold rnd. apply round_generic; [apply valid_rnd_N|]. replace (97 / 16)%R with (F2R (Core.Defs.Float radix2 97 (-4))) by (unfold F2R; cbn; lra).
        apply generic_format_F2R. intros _. unfold cexp, fexp64, FLT_exp. rewrite (mag_unique radix2 _ 3); [vm_compute; discriminate|].
        unfold F2R. cbn. rewrite Rabs_right by lra. lra. }
      unfold sat. rewrite Rlt_bool_true; [reflexivity|]. rewrite Rabs_right by lra. unfold big. apply Rlt_trans with (bpow radix2 3).
      - change (bpow radix2 3) with 8%R. lra.
      - apply bpow_lt. lia. }
    destruct (val_fin_inv _ _ V) as [F E]. split; [exact F|]. cbn [x_size x_var]. change (7 =? 1)%Z with false.
    exists 0%R, 1%R. split; [apply Hs; auto|]. split; [auto|]. rewrite E. apply Rabs_le. rewrite Rabs_R1. change (Z.of_nat 6) with 6%Z. lra.
  - assert (val (fnum 1 900) = XFin (bpow radix2 900)) as V.
    { rewrite val_fnum. replace (F2R (Core.Defs.Float radix2 1 900)) with (bpow radix2 900) by (unfold F2R; cbn [Fnum Fexp]; ring).
      assert (rnd (bpow radix2 900) = bpow radix2 900)%R as ->.
      { unfold rnd. apply round_generic; [apply valid_rnd_N|]. apply generic_format_bpow. vm_compute; discriminate. }
      unfold sat. rewrite Rlt_bool_true; [reflexivity|]. rewrite Rabs_right by (apply Rle_ge, bpow_ge_0). unfold big. apply bpow_lt. lia. }
    destruct (val_fin_inv _ _ V) as [F E]. split; [exact F|]. cbn [x_size x_var]. change (1 =? 1)%Z with true. cbv iota.
    destruct (val_fin_inv _ _ (val_int 5 ltac:(lia))) as [F5 E5]. unfold coordinate; cbn [x_var]. rewrite E. match goal with |- context[B2R ?z] => change (B2R z) with (B2R (fnum 5 0)) end. rewrite E5.
    apply Rle_trans with (bpow radix2 900 + bpow radix2 3)%R.
    + apply abs_add; [rewrite Rabs_right; [lra|apply Rle_ge, bpow_ge_0]|]. rewrite Rabs_Ropp, Rabs_right by lra. change (bpow radix2 3) with 8%R. lra.
    + apply Rle_trans with (bpow radix2 900 + bpow radix2 900)%R; [apply Rplus_le_compat_l, bpow_le; lia|].
      replace (bpow radix2 900 + bpow radix2 900)%R with (bpow radix2 901); [apply bpow_le; lia|].
      change 901%Z with (900 + 1)%Z. rewrite bpow_plus. change (bpow radix2 1) with 2%R. ring.
Qed.

(** Opening a file with the dimensions [y] (with a coordinate variable) and [x] (without). *)
Definition f_file : FileModel.ncfile f64 :=
  FileModel.NcFile f64 [("y", 12%nat); ("x", 7%nat)]
    [FileModel.Var f64 "y" (FileModel.TNum 8) [0%nat] (fun ix => tenths (Z.of_nat (hd 0%nat ix))); FileModel.Var f64 "z" (FileModel.TNum 4) [0; 1]%nat (fun _ => fnum 0 0)].
Example C80_file_used : exists w1 m1 lv e, open_level 4 (FileModel.GBasic 4) (fun _ => Some f_file) [] 0 "f.nc" "z" = Ok (w1, m1, lv, e) /\
  FileModel.l_offset f64 lv = [Some (tenths 0); Some (fnum 0 0)].
Proof.
  destruct (C80_file 4 (FileModel.GBasic 4) (fun _ => Some f_file) [] 0 "f.nc" f_file (FileModel.Var f64 "z" (FileModel.TNum 4) [0; 1]%nat (fun _ => fnum 0 0))
    [@Axis ieee 12 (Some (fun k => tenths (Z.of_nat (Z.to_nat k)))); @Axis ieee 7 None]) as (w1 & m1 & lv & e & E & O & _).
  - intros name f H. injection H as <-. cbn. repeat constructor; cbn; intuition discriminate.
  - reflexivity.
  - cbn. auto.
  - cbn. lia.
  - intros d [<-|[<-|[]]].
    + left. eexists. split; [left; reflexivity|]. split; [reflexivity|]. split; [exists 8%nat; reflexivity|reflexivity].
    + right. cbn. intros x [<-|[<-|[]]]; discriminate.
  - constructor; [|constructor; [|constructor]]; (split; [reflexivity|]).
    + left. eexists. split; [split; [left; reflexivity|]; split; [reflexivity|]; split; [exists 8%nat; reflexivity|reflexivity]|reflexivity].
    + right. split; [|reflexivity]. cbn. intros x [<-|[<-|[]]]; discriminate.
  - repeat constructor; cbn; lia.
  - exists w1, m1, lv, e. split; [exact E|]. rewrite O. reflexivity.
Qed.

(** Refuted for other coordinate variables, e.g. with the values 0, 1, 10: the grid opens without an error (COARDS allows
    them, the documentation mentions no restriction), but 1 is mapped to cell 0, whose coordinate is 0. *)
Definition uneven (k : Z) : f64 := match k with 0 => fnum 0 0 | 1 => fnum 1 0 | _ => fnum 10 0 end%Z.
Theorem C80_uneven_refuted : exists (s : session ieee) c ix ix',
  session_ok s /\ n_axes s = [@Axis ieee 3 (Some c)] /\
  (forall k, (0 <= k < 3)%Z -> is_finite (c k) = true) /\ (forall k, (0 <= k < 2)%Z -> Bltb (c k) (c (k + 1)%Z) = true) /\
  in_box (map (fun ax => Z.to_nat (x_size ax)) (n_axes s)) ix /\
  (forall init, index_of s (coordinates (n_axes s) ix) init = Ok ix') /\ ix' <> ix /\
  answer_of s (GetScalar Int) (Some (Some (n_cell s ix'))) <> answer_of s (GetScalar Int) (Some (Some (n_cell s ix))).
Proof.
  exists (@Session ieee (Build false false) [] 1 1 1 (fun _ => 0%nat) (fun _ => 0%nat) RoundRobin (new_grid INT false) 0
            [@Axis ieee 3 (Some uneven)] (fun ix => le_bytes 4 (Z.of_nat (nth 0 ix 0%nat)))), uneven, [1%nat], [0%nat].
  split.
  { split; [discriminate|]. split; [repeat constructor; cbn; lia|]. split; [vm_compute; lia|]. split; [vm_compute; reflexivity|].
    split; intros t; cbn; lia. }
  split; [reflexivity|]. split.
  { intros k Hk. assert (k = 0 \/ k = 1 \/ k = 2)%Z as [-> | [-> | ->]] by lia; reflexivity. }
  split.
  { intros k Hk. assert (k = 0 \/ k = 1)%Z as [-> | ->] by lia; vm_compute; reflexivity. }
  split; [repeat constructor; cbn; lia|]. split; [intros init; vm_compute; reflexivity|]. split; [discriminate|].
  vm_compute. intros H. discriminate H.
Qed.
Print Assumptions C80_uneven_refuted.
