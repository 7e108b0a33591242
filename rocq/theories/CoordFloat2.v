(** * Coordinates in IEEE-754 double arithmetic: any metadata, error bound *)
From Coq Require Import ZArith Reals Bool List Lia Lra.
From Flocq Require Import Core.Core IEEE754.BinarySingleNaN Relative Plus_error.
From Verif Require Import Base CoordModel CoordExact CoordFloat.
Local Open Scope R_scope.

(** The product before rounding to an index. *)
Definition prod (off si p : f64) : f64 := Bmult mode_NE (Bminus mode_NE p off) si.

Lemma p2i_gen : forall (off si p : f64) n,
  is_nan (prod off si p) = false -> (1 <= n <= two53)%Z ->
  pos2index_dim ieee off si n p = Ok (xclamp n (xfloor (addx (val (prod off si p))))).
Proof.
  intros off si p n Hnan Hsz.
  set (c := xfloor (addx (val (prod off si p)))).
  assert (Hx : val (c_round ieee (a_mul ieee (a_sub ieee p off) si)) = c).
  { unfold c_round. cbn [ieee a_floor a_add a_mul a_sub a_half].
    now rewrite val_floor, val_add_half. }
  assert (Hok : xok c).
  { apply xfloor_ok, addx_ok. intros E. destruct (prod off si p); cbn in *; discriminate. }
  assert (Hint : match c with XFin r => r = IZR (Zfloor r) | _ => True end).
  { unfold c. destruct (addx _); cbn [xfloor]; auto. now rewrite Zfloor_IZR. }
  unfold two53 in Hsz. assert (H53 : (2 ^ 53 < size_max)%Z) by reflexivity.
  unfold pos2index_dim. set (x := c_round _ _) in *.
  assert (E1 : a_ltb ieee x (a_ofZ ieee 0) = xltb (val x) (XFin (IZR 0))).
  { cbn [ieee a_ltb a_ofZ]. rewrite val_ltb, val_int by lia. reflexivity. }
  assert (E2 : a_leb ieee (a_ofZ ieee n) x = xleb (XFin (IZR n)) (val x)).
  { cbn [ieee a_leb a_ofZ]. rewrite val_leb, val_int by lia. reflexivity. }
  cbv zeta. rewrite E1, E2, Hx. cbn [ieee a_toZ a_ofZ].
  destruct c as [r | s |] eqn:Ec; [| | now elim Hok].
  - rewrite Hint. rewrite xltb_IZR, xleb_IZR. cbn [xclamp]. rewrite Zfloor_IZR.
    set (f := Zfloor r) in *. unfold clampZ.
    destruct (f <? 0)%Z eqn:F1; cbn [orb].
    + rewrite (f_toZ_int _ 0) by (try apply val_int; lia). reflexivity.
    + destruct (n <=? f)%Z eqn:F2.
      * rewrite (f_toZ_int _ (n - 1)) by (try apply val_int; lia). reflexivity.
      * rewrite (f_toZ_int _ f); [reflexivity | rewrite Hx; now rewrite Hint at 1 | lia].
  - destruct s; cbn [xltb xleb orb xclamp].
    + rewrite (f_toZ_int _ 0) by (try apply val_int; lia). reflexivity.
    + rewrite (f_toZ_int _ (n - 1)) by (try apply val_int; lia). reflexivity.
Qed.

(** Conversely, NaN makes the conversion to an index undefined. *)
Lemma p2i_nan : forall (off si p : f64) n,
  is_nan (prod off si p) = true -> pos2index_dim ieee off si n p = Ub.
Proof.
  intros off si p n Hnan. unfold pos2index_dim, c_round.
  cbn [ieee a_floor a_add a_mul a_sub a_half]. fold (prod off si p).
  destruct (prod off si p); try discriminate. cbn [Bplus Bnearbyint].
  assert (E : a_leb ieee (a_ofZ ieee n) (@B754_nan 53 1024) = false).
  { cbn [ieee a_leb]. rewrite val_leb. destruct (val (a_ofZ ieee n)) as [? | [|] |]; reflexivity. }
  assert (E' : a_ltb ieee (@B754_nan 53 1024) (a_ofZ ieee 0) = false).
  { cbn [ieee a_ltb]. rewrite val_ltb. reflexivity. }
  cbn [ieee a_ltb a_leb a_ofZ a_toZ] in *. rewrite E, E'. reflexivity.
Qed.

Lemma val_inf_r : forall (d : f64) s, is_nan (Bmult mode_NE d (B754_infinity s)) = false ->
  val (Bmult mode_NE d (B754_infinity s)) = XInf (xorb (Bsign d) s) /\
  (Bsign d = false -> xle (XFin 0) (val d) /\ val d <> XFin 0) /\
  (Bsign d = true -> xle (val d) (XFin 0) /\ val d <> XFin 0).
Proof.
  intros [sd | sd | | sd m e H] s Hn; try discriminate.
  - cbn. split; [reflexivity |]. split; intros ->; split; (reflexivity || discriminate).
  - split; [reflexivity |]. cbn [Bsign val].
    split; intros ->; unfold xle; cbn [xleb].
    + assert (0 < B2R (B754_finite false m e H)) by (apply F2R_gt_0; cbn; lia).
      split; [destruct (Rle_dec 0 (B2R (B754_finite false m e H))); [reflexivity | lra] |].
      intros E. apply (f_equal (fun a => match a with XFin r => r | _ => 0 end)) in E.
      cbv beta iota in E. lra.
    + assert (B2R (B754_finite true m e H) < 0) by (apply F2R_lt_0; cbn; lia).
      split; [destruct (Rle_dec (B2R (B754_finite true m e H)) 0); [reflexivity | lra] |].
      intros E. apply (f_equal (fun a => match a with XFin r => r | _ => 0 end)) in E.
      cbv beta iota in E. lra.
Qed.

Lemma xle_antisym0 : forall a, xle a (XFin 0) -> xle (XFin 0) a -> a = XFin 0.
Proof.
  intros [r | [|] |] H1 H2; unfold xle in *; cbn in *; try discriminate.
  destruct (Rle_dec r 0); [| discriminate]. destruct (Rle_dec 0 r); [| discriminate].
  f_equal. lra.
Qed.

Lemma xle_trans : forall a b c, xle a b -> xle b c -> xle a c.
Proof.
  intros a b c H1 H2. unfold xle in *.
  destruct a as [a | [|] |], b as [b | [|] |], c as [c | [|] |]; cbn in *; try discriminate; auto.
  destruct (Rle_dec a b); [| discriminate]. destruct (Rle_dec b c); [| discriminate].
  destruct (Rle_dec a c); [reflexivity | lra].
Qed.

Lemma val_xok : forall x : f64, is_nan x = false -> xok (val x).
Proof. intros [s | s | | s m e H] E; try discriminate; intros F; discriminate. Qed.

Lemma sub_le : forall off p q : f64, is_finite off = true -> is_finite p = true ->
  is_finite q = true -> B2R p <= B2R q ->
  xle (val (Bminus mode_NE p off)) (val (Bminus mode_NE q off)).
Proof.
  intros off p q Fo Fp Fq H. rewrite !val_sub by assumption. apply sat_mono, rnd_mono. lra.
Qed.

Lemma sub_ok : forall off p : f64, is_finite off = true -> is_finite p = true ->
  xok (val (Bminus mode_NE p off)).
Proof. intros. rewrite val_sub by assumption. apply sat_ok. Qed.

(** The product is monotone in the coordinate for a non-negative reciprocal
    spacing and antitone for a non-positive one. *)
Lemma prod_mono : forall (off si p q : f64),
  is_finite off = true -> is_finite p = true -> is_finite q = true ->
  is_nan (prod off si p) = false -> is_nan (prod off si q) = false ->
  B2R p <= B2R q ->
  (xle (XFin 0) (val si) -> xle (val (prod off si p)) (val (prod off si q))) /\
  (xle (val si) (XFin 0) -> xle (val (prod off si q)) (val (prod off si p))).
Proof.
  intros off si p q Fo Fp Fq Np Nq Hpq.
  pose proof (sub_le off p q Fo Fp Fq Hpq) as Hd.
  pose proof (sub_ok off p Fo Fp) as Op. pose proof (sub_ok off q Fo Fq) as Oq.
  unfold prod in *. set (dp := Bminus mode_NE p off) in *. set (dq := Bminus mode_NE q off) in *.
  destruct (is_finite si) eqn:Fs.
  - rewrite (val_finite _ Fs).
    destruct (Req_dec (B2R si) 0) as [Z | NZ].
    + assert (Fd : forall d, is_nan d = false -> is_nan (Bmult mode_NE d si) = false -> is_finite d = true).
      { intros d Hd1 Hd2. destruct d as [s | s | | s m e H]; try reflexivity; try discriminate.
        destruct si as [s' | s' | | s' m' e' H']; try discriminate.
        destruct s'; cbn in Z; [ assert (F2R (Float radix2 (Z.neg m') e') < 0) by (apply F2R_lt_0; cbn; lia)
                               | assert (0 < F2R (Float radix2 (Z.pos m') e')) by (apply F2R_gt_0; cbn; lia)];
        unfold F2R in *; cbn in *; lra. }
      rewrite !val_mul by (first [exact Fs | apply Fd; [now apply val_nan | assumption]]).
      rewrite Z, !Rmult_0_r. split; intros _; apply sat_mono; lra.
    + rewrite !val_mul_any by (first [exact Fs | right; split; [now apply val_nan | exact NZ]]).
      split; intros H; unfold xle in H; cbn [xleb] in H.
      * apply mulx_mono; auto. destruct (Rle_dec 0 (B2R si)); [lra | discriminate].
      * apply mulx_anti; auto. destruct (Rle_dec (B2R si) 0); [lra | discriminate].
  - destruct si as [s | s | | s m e H]; try discriminate.
    2: { split; intros H; unfold xle in H; cbn in H; discriminate. }
    destruct (val_inf_r _ _ Np) as (Ep & Pp1 & Pp2).
    destruct (val_inf_r _ _ Nq) as (Eq & Pq1 & Pq2).
    rewrite Ep, Eq. unfold xle. cbn [val xleb].
    destruct (Bsign dp) eqn:Sp; destruct (Bsign dq) eqn:Sq; destruct s; cbn; split; auto; intros _; exfalso.
    all: destruct (Pp1 eq_refl) as [A1 A2]; destruct (Pq2 eq_refl) as [B1 B2]; apply A2;
      apply xle_antisym0; [eapply xle_trans; eassumption | exact A1].
Qed.

(** Sign of [getInvScaling]. *)
Lemma val_div : forall x y : f64, is_finite x = true -> is_finite y = true -> B2R y <> 0 ->
  val (Bdiv mode_NE x y) = sat (rnd (B2R x / B2R y)).
Proof.
  intros x y Fx Fy Ny. pose proof (Bdiv_correct 53 1024 _ _ mode_NE x y Ny) as H.
  cbn [round_mode] in H. fold (rnd (B2R x / B2R y)) in H. fold big in H.
  destruct (Rlt_bool_spec (Rabs (rnd (B2R x / B2R y))) big) as [L | L].
  - destruct H as (H1 & H2 & _). rewrite Fx in H2.
    rewrite val_finite by exact H2. rewrite H1.
    unfold sat. rewrite Rlt_bool_true by exact L. reflexivity.
  - cbn in H. rewrite (val_SF _ _ H). symmetry.
    assert (Hy : forall r, B2R x / B2R y = r -> 
       (xorb (Bsign x) (Bsign y) = true -> r <= 0) /\ (xorb (Bsign x) (Bsign y) = false -> 0 <= r)).
    { intros r <-. unfold Rdiv.
      assert (Hi : (Bsign y = true -> / B2R y <= 0) /\ (Bsign y = false -> 0 <= / B2R y)).
      { split; intros S.
        - apply sign_le in S. left. apply Rinv_lt_0_compat. lra.
        - apply sign_ge in S. left. apply Rinv_0_lt_compat. lra. }
      destruct Hi as [I1 I2].
      destruct (Bsign x) eqn:Ex; destruct (Bsign y) eqn:Ey; cbn;
        first [apply sign_le in Ex | apply sign_ge in Ex];
        split; intros E; try discriminate;
        try specialize (I1 eq_refl); try specialize (I2 eq_refl); nra. }
    destruct (Hy _ eq_refl) as [P1 P2].
    apply sat_over; [exact L | |]; intros Hs; rewrite <- rnd_0; apply rnd_mono; auto.
Qed.

Lemma inv_float : forall s : f64, is_nan s = false ->
  inv_scaling ieee s
  = match s with
    | B754_finite _ _ _ _ => Bdiv mode_NE (fnum 1 0) s
    | _ => fnum 0 0
    end.
Proof.
  intros s Hn. unfold inv_scaling. cbn [ieee a_eqb a_ofZ a_isinf a_div].
  destruct s as [sg | sg | | sg m e H]; try discriminate.
  - destruct sg; reflexivity.
  - rewrite orb_true_r. reflexivity.
  - destruct sg; reflexivity.
Qed.

Lemma inv_nan : forall s : f64, is_nan s = false -> is_nan (inv_scaling ieee s) = false.
Proof.
  intros s Hn. rewrite inv_float by exact Hn. destruct s as [sg | sg | | sg m e H]; try reflexivity.
  apply val_nan.
  destruct (val_fin_inv _ _ (val_int 1 ltac:(lia))) as [F1 _].
  rewrite val_div; [apply sat_ok | exact F1 | reflexivity |].
  destruct sg; cbn; apply F2R_neq_0; cbn; lia.
Qed.

Lemma inv_sign : forall s : f64, is_nan s = false ->
  (xle (XFin 0) (val s) -> xle (XFin 0) (val (inv_scaling ieee s))) /\
  (xle (val s) (XFin 0) -> xle (val (inv_scaling ieee s)) (XFin 0)).
Proof.
  intros s Hn. rewrite inv_float by exact Hn.
  assert (H0 : val (fnum 0 0) = XFin 0) by (apply val_int; lia).
  assert (L0 : xle (XFin 0) (XFin 0)).
  { unfold xle. cbn. destruct (Rle_dec 0 0); [reflexivity | lra]. }
  assert (S0 : sat 0 = XFin 0).
  { unfold sat. rewrite Rabs_R0, Rlt_bool_true by apply big_pos. reflexivity. }
  destruct s as [sg | sg | | sg m e H]; try discriminate.
  - rewrite H0. auto.
  - rewrite H0. auto.
  - destruct (val_fin_inv _ _ (val_int 1 ltac:(lia))) as [F1 E1].
    assert (NZ : B2R (B754_finite sg m e H : f64) <> 0).
    { destruct sg; cbn; apply F2R_neq_0; cbn; lia. }
    rewrite val_div by (assumption || reflexivity). rewrite E1.
    set (r := B2R (B754_finite sg m e H : f64)) in *.
    change (val (B754_finite sg m e H)) with (XFin r).
    split; intros L; unfold xle in L; cbn [xleb] in L; rewrite <- S0.
    + destruct (Rle_dec 0 r) as [L1 | L1]; [| discriminate L]. rewrite <- rnd_0. apply sat_mono, rnd_mono.
      unfold Rdiv. rewrite Rmult_1_l. left. apply Rinv_0_lt_compat. lra.
    + destruct (Rle_dec r 0) as [L1 | L1]; [| discriminate L]. rewrite <- rnd_0. apply sat_mono, rnd_mono.
      unfold Rdiv. rewrite Rmult_1_l. left. apply Rinv_lt_0_compat. lra.
Qed.

(** *** C21 *)

Lemma float_in_range : forall (off si p : f64) n,
  is_nan (prod off si p) = false -> (1 <= n <= two53)%Z ->
  exists i w, pos2index_dim ieee off si n p = Ok (i, w) /\ (0 <= i < n)%Z.
Proof.
  intros off si p n Hn Hsz. rewrite p2i_gen by assumption.
  destruct (xclamp n (xfloor (addx (val (prod off si p))))) as [i w] eqn:E.
  exists i, w. split; [reflexivity |].
  pose proof (xclamp_range n (xfloor (addx (val (prod off si p)))) ltac:(lia)) as H.
  rewrite E in H. exact H.
Qed.

Lemma float_monotone : forall (off s p q : f64) n i j wi wj,
  is_nan s = false -> is_finite off = true -> is_finite p = true -> is_finite q = true ->
  is_nan (prod off (inv_scaling ieee s) p) = false ->
  is_nan (prod off (inv_scaling ieee s) q) = false ->
  (1 <= n <= two53)%Z -> B2R p <= B2R q ->
  pos2index_dim ieee off (inv_scaling ieee s) n p = Ok (i, wi) ->
  pos2index_dim ieee off (inv_scaling ieee s) n q = Ok (j, wj) ->
  (xle (XFin 0) (val s) -> (i <= j)%Z) /\ (xle (val s) (XFin 0) -> (j <= i)%Z).
Proof.
  intros off s p q n i j wi wj Hs Fo Fp Fq Np Nq Hn Hpq Ei Ej.
  destruct (inv_sign s Hs) as [I1 I2].
  destruct (prod_mono off (inv_scaling ieee s) p q Fo Fp Fq Np Nq Hpq) as [M1 M2].
  rewrite p2i_gen in Ei, Ej by assumption.
  assert (Ei' : xclamp n (xfloor (addx (val (prod off (inv_scaling ieee s) p)))) = (i, wi)) by congruence.
  assert (Ej' : xclamp n (xfloor (addx (val (prod off (inv_scaling ieee s) q)))) = (j, wj)) by congruence.
  apply (f_equal fst) in Ei', Ej'. cbn [fst] in Ei', Ej'. rewrite <- Ei', <- Ej'.
  pose proof (val_xok _ Np) as Op. pose proof (val_xok _ Nq) as Oq.
  split; intros H.
  - apply xclamp_mono; [lia | now apply xfloor_ok, addx_ok | now apply xfloor_ok, addx_ok |].
    apply xfloor_mono; [now apply addx_ok | now apply addx_ok |].
    apply addx_mono; auto.
  - apply xclamp_mono; [lia | now apply xfloor_ok, addx_ok | now apply xfloor_ok, addx_ok |].
    apply xfloor_mono; [now apply addx_ok | now apply addx_ok |].
    apply addx_mono; auto.
Qed.

(** Where NaN can come from: with an ordinary spacing there is none. *)
Lemma no_nan_normal : forall (off s p : f64),
  is_finite off = true -> is_finite p = true -> is_finite s = true ->
  bpow radix2 (-1022) <= Rabs (B2R s) ->
  is_nan (prod off (inv_scaling ieee s) p) = false.
Proof.
  intros off s p Fo Fp Fs Hs.
  destruct s as [sg | sg | | sg m e H]; try discriminate.
  { cbn in Hs. rewrite Rabs_R0 in Hs. pose proof (bpow_gt_0 radix2 (-1022)). lra. }
  rewrite inv_float by reflexivity.
  set (s := B754_finite sg m e H : f64) in *.
  assert (NZ : B2R s <> 0).
  { intros E. rewrite E, Rabs_R0 in Hs. pose proof (bpow_gt_0 radix2 (-1022)). lra. }
  destruct (val_fin_inv _ _ (val_int 1 ltac:(lia))) as [F1 E1].
  pose proof (val_div (fnum 1 0) s F1 Fs NZ) as V. rewrite E1 in V.
  assert (Hup : Rabs (1 / B2R s) <= bpow radix2 1022).
  { unfold Rdiv. rewrite Rmult_1_l, Rabs_inv.
    replace (bpow radix2 1022) with (/ bpow radix2 (-1022)) by (rewrite <- bpow_opp; reflexivity).
    apply Rinv_le_contravar; [apply bpow_gt_0 | exact Hs]. }
  assert (Hlo : bpow radix2 (-1024) <= Rabs (1 / B2R s)).
  { unfold Rdiv. rewrite Rmult_1_l, Rabs_inv.
    replace (bpow radix2 (-1024)) with (/ bpow radix2 1024) by (rewrite <- bpow_opp; reflexivity).
    apply Rinv_le_contravar; [now apply Rabs_pos_lt | left; apply (abs_B2R_lt_emax 53 1024)]. }
  assert (Rup : Rabs (rnd (1 / B2R s)) <= bpow radix2 1022).
  { apply abs_round_le_generic; auto with typeclass_instances.
    apply generic_format_bpow. vm_compute. discriminate. }
  assert (Rlo : bpow radix2 (-1024) <= Rabs (rnd (1 / B2R s))).
  { apply abs_round_ge_generic; auto with typeclass_instances.
    apply generic_format_bpow. vm_compute. discriminate. }
  unfold sat in V. rewrite Rlt_bool_true in V.
  2: { apply Rle_lt_trans with (1 := Rup). apply bpow_lt. lia. }
  apply val_fin_inv in V. destruct V as [Fi Ei].
  apply val_nan. unfold prod. rewrite val_mul_any.
  - apply mulx_ok. rewrite val_sub by assumption. apply sat_ok.
  - exact Fi.
  - right. split; [apply val_nan; rewrite val_sub by assumption; apply sat_ok |].
    rewrite Ei. intros E. rewrite E, Rabs_R0 in Rlo. pose proof (bpow_gt_0 radix2 (-1024)). lra.
Qed.

(** With reciprocal zero (dimension of size one, or first = last): as long as
    the subtraction does not overflow. *)
Lemma no_nan_zero : forall (off si p : f64),
  is_finite (Bminus mode_NE p off) = true -> is_finite si = true ->
  is_nan (prod off si p) = false.
Proof.
  intros off si p Fd Fs. apply val_nan. unfold prod. rewrite val_mul by assumption. apply sat_ok.
Qed.
