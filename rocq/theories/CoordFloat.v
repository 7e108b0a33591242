(** * Coordinates in IEEE-754 double arithmetic: proofs *)
From Coq Require Import ZArith Reals Bool List Lia Lra.
From Flocq Require Import Core.Core IEEE754.BinarySingleNaN.
From Verif Require Import Base CoordModel CoordExact.
Local Open Scope R_scope.

Notation fexp64 := (SpecFloat.fexp 53 1024).
Definition rnd (r : R) : R := round radix2 fexp64 ZnearestE r.
Definition big : R := bpow radix2 1024.

(** The value of a double. *)
Definition val (x : f64) : xreal :=
  match x with
  | B754_infinity s => XInf s
  | B754_nan => XNan
  | _ => XFin (B2R x)
  end.

(** Overflow of a rounded value. *)
Definition sat (r : R) : xreal :=
  if Rlt_bool (Rabs r) big then XFin r else XInf (Rlt_bool r 0).

Definition xle (a b : xreal) : Prop := xleb a b = true.

#[global] Instance fexp64_valid : Valid_exp fexp64.
Proof. apply (fexp_correct 53 1024). reflexivity. Qed.
#[global] Instance fexp64_mono : Monotone_exp fexp64.
Proof. apply (fexp_monotone 53 1024). Qed.

Lemma rnd_mono : forall r q, r <= q -> rnd r <= rnd q.
Proof. intros r q H. unfold rnd. apply round_le; auto with typeclass_instances. Qed.

Lemma rnd_0 : rnd 0 = 0.
Proof. apply round_0. auto with typeclass_instances. Qed.

Lemma val_finite : forall x, is_finite x = true -> val x = XFin (B2R x).
Proof. intros [s | s | | s m e H] F; try discriminate; reflexivity. Qed.

Lemma sign_ge : forall x : f64, Bsign x = false -> 0 <= B2R x.
Proof.
  intros [s | s | | s m e H] F; cbn in *; try lra.
  subst s. apply F2R_ge_0. cbn. lia.
Qed.
Lemma sign_le : forall x : f64, Bsign x = true -> B2R x <= 0.
Proof.
  intros [s | s | | s m e H] F; cbn in *; try lra.
  subst s. apply F2R_le_0. cbn. lia.
Qed.

Lemma big_pos : 0 < big.
Proof. apply bpow_gt_0. Qed.

Lemma sat_over : forall r s, big <= Rabs r ->
  (s = true -> r <= 0) -> (s = false -> 0 <= r) -> sat r = XInf s.
Proof.
  intros r s Hb Ht Hf. pose proof big_pos. unfold sat. rewrite Rlt_bool_false by exact Hb.
  f_equal. destruct s.
  - specialize (Ht eq_refl). apply Rlt_bool_true. 
    rewrite Rabs_left1 in Hb by exact Ht. lra.
  - specialize (Hf eq_refl). apply Rlt_bool_false. exact Hf.
Qed.

Lemma val_SF : forall x : f64, forall s, B2SF x = SpecFloat.S754_infinity s -> val x = XInf s.
Proof.
  intros [s' | s' | | s' m e H] s E; cbn in *; try discriminate.
  injection E as ->. reflexivity.
Qed.

Lemma val_sub : forall x y : f64, is_finite x = true -> is_finite y = true ->
  val (Bminus mode_NE x y) = sat (rnd (B2R x - B2R y)).
Proof.
  intros x y Fx Fy. pose proof (Bminus_correct 53 1024 _ _ mode_NE x y Fx Fy) as H.
  cbn [round_mode] in H. fold (rnd (B2R x - B2R y)) in H. fold big in H.
  destruct (Rlt_bool_spec (Rabs (rnd (B2R x - B2R y))) big) as [L | L].
  - destruct H as (H1 & H2 & _). rewrite val_finite by exact H2. rewrite H1.
    unfold sat. rewrite Rlt_bool_true by exact L. reflexivity.
  - destruct H as (H1 & H2). cbn in H1. rewrite (val_SF _ _ H1). symmetry.
    apply sat_over; [exact L | |]; intros Hs; rewrite Hs in H2.
    + rewrite <- rnd_0. apply rnd_mono. apply sign_le in Hs.
      destruct (Bsign y) eqn:Ey; [discriminate |]. apply sign_ge in Ey. lra.
    + rewrite <- rnd_0. apply rnd_mono. apply sign_ge in Hs.
      destruct (Bsign y) eqn:Ey; [| discriminate]. apply sign_le in Ey. lra.
Qed.

Lemma val_add : forall x y : f64, is_finite x = true -> is_finite y = true ->
  val (Bplus mode_NE x y) = sat (rnd (B2R x + B2R y)).
Proof.
  intros x y Fx Fy. pose proof (Bplus_correct 53 1024 _ _ mode_NE x y Fx Fy) as H.
  cbn [round_mode] in H. fold (rnd (B2R x + B2R y)) in H. fold big in H.
  destruct (Rlt_bool_spec (Rabs (rnd (B2R x + B2R y))) big) as [L | L].
  - destruct H as (H1 & H2 & _). rewrite val_finite by exact H2. rewrite H1.
    unfold sat. rewrite Rlt_bool_true by exact L. reflexivity.
  - destruct H as (H1 & H2). cbn in H1. rewrite (val_SF _ _ H1). symmetry.
    apply sat_over; [exact L | |]; intros Hs; rewrite Hs in H2.
    + rewrite <- rnd_0. apply rnd_mono. apply sign_le in Hs. symmetry in H2.
      apply sign_le in H2. lra.
    + rewrite <- rnd_0. apply rnd_mono. apply sign_ge in Hs. symmetry in H2.
      apply sign_ge in H2. lra.
Qed.

Lemma xorb_sign_mul : forall x y : f64,
  (xorb (Bsign x) (Bsign y) = true -> B2R x * B2R y <= 0) /\
  (xorb (Bsign x) (Bsign y) = false -> 0 <= B2R x * B2R y).
Proof.
  intros x y. destruct (Bsign x) eqn:Ex; destruct (Bsign y) eqn:Ey; cbn;
    first [apply sign_le in Ex | apply sign_ge in Ex];
    first [apply sign_le in Ey | apply sign_ge in Ey];
    split; intros E; try discriminate; nra.
Qed.

Lemma val_mul : forall x y : f64, is_finite x = true -> is_finite y = true ->
  val (Bmult mode_NE x y) = sat (rnd (B2R x * B2R y)).
Proof.
  intros x y Fx Fy. pose proof (Bmult_correct 53 1024 _ _ mode_NE x y) as H.
  cbn [round_mode] in H. fold (rnd (B2R x * B2R y)) in H. fold big in H.
  destruct (Rlt_bool_spec (Rabs (rnd (B2R x * B2R y))) big) as [L | L].
  - destruct H as (H1 & H2 & _). rewrite Fx, Fy in H2. cbn in H2.
    rewrite val_finite by exact H2. rewrite H1.
    unfold sat. rewrite Rlt_bool_true by exact L. reflexivity.
  - cbn in H. rewrite (val_SF _ _ H). symmetry.
    destruct (xorb_sign_mul x y) as [P1 P2].
    apply sat_over; [exact L | |]; intros Hs; rewrite <- rnd_0; apply rnd_mono; auto.
Qed.

Lemma val_inf_mul : forall s (y : f64), is_finite y = true -> B2R y <> 0 ->
  val (Bmult mode_NE (B754_infinity s) y) = XInf (xorb s (Rlt_bool (B2R y) 0)).
Proof.
  intros s [sy | sy | | sy m e H] F Hy; try discriminate; [cbn in Hy; lra |].
  cbn [Bmult val]. f_equal. f_equal. symmetry.
  destruct sy.
  - apply Rlt_bool_true. apply F2R_lt_0. cbn. lia.
  - apply Rlt_bool_false. apply F2R_ge_0. cbn. lia.
Qed.

Lemma val_floor : forall x : f64, val (Bnearbyint mode_DN x) = xfloor (val x).
Proof.
  intros x. pose proof (Bnearbyint_correct 53 1024 _ mode_DN x) as (H1 & H2 & _).
  destruct (is_finite x) eqn:Fx.
  - rewrite (val_finite _ H2), (val_finite _ Fx), H1. cbn [xfloor]. f_equal.
    cbn [round_mode]. unfold round, F2R, scaled_mantissa, cexp, FIX_exp. cbn. 
    rewrite Rmult_1_r, Rmult_1_r. reflexivity.
  - destruct x; cbn in Fx; try discriminate; reflexivity.
Qed.

Lemma val_ltb : forall x y : f64, Bltb x y = xltb (val x) (val y).
Proof.
  intros x y.
  destruct (is_finite x) eqn:Fx; destruct (is_finite y) eqn:Fy.
  - rewrite (Bltb_correct 53 1024) by assumption.
    rewrite (val_finite _ Fx), (val_finite _ Fy). cbn.
    unfold Rlt_bool. destruct (Rcompare_spec (B2R x) (B2R y)); destruct (Rlt_dec (B2R x) (B2R y)); lra || reflexivity.
  - rewrite (val_finite _ Fx). destruct y as [s | s | | s m e H]; try discriminate;
      destruct x as [s' | s' | | s' m' e' H']; try discriminate; try destruct s; try destruct s'; reflexivity.
  - rewrite (val_finite _ Fy). destruct x as [s | s | | s m e H]; try discriminate;
      destruct y as [s' | s' | | s' m' e' H']; try discriminate; try destruct s; try destruct s'; reflexivity.
  - destruct x as [s | s | | s m e H]; try discriminate;
      destruct y as [s' | s' | | s' m' e' H']; try discriminate; try destruct s; try destruct s'; reflexivity.
Qed.

Lemma val_leb : forall x y : f64, Bleb x y = xleb (val x) (val y).
Proof.
  intros x y.
  destruct (is_finite x) eqn:Fx; destruct (is_finite y) eqn:Fy.
  - rewrite (Bleb_correct 53 1024) by assumption.
    rewrite (val_finite _ Fx), (val_finite _ Fy). cbn.
    unfold Rle_bool. destruct (Rcompare_spec (B2R x) (B2R y)); destruct (Rle_dec (B2R x) (B2R y)); lra || reflexivity.
  - rewrite (val_finite _ Fx). destruct y as [s | s | | s m e H]; try discriminate;
      destruct x as [s' | s' | | s' m' e' H']; try discriminate; try destruct s; try destruct s'; reflexivity.
  - rewrite (val_finite _ Fy). destruct x as [s | s | | s m e H]; try discriminate;
      destruct y as [s' | s' | | s' m' e' H']; try discriminate; try destruct s; try destruct s'; reflexivity.
  - destruct x as [s | s | | s m e H]; try discriminate;
      destruct y as [s' | s' | | s' m' e' H']; try discriminate; try destruct s; try destruct s'; reflexivity.
Qed.

Lemma val_fin_inv : forall x r, val x = XFin r -> is_finite x = true /\ B2R x = r.
Proof.
  intros [s | s | | s m e H] r E; cbn [val] in E; try discriminate.
  - split; [reflexivity | congruence].
  - split; [reflexivity | congruence].
Qed.

(** Integers up to 2^53 are exact. *)
Lemma format_IZR : forall z, (Z.abs z <= 2 ^ 53)%Z -> generic_format radix2 fexp64 (IZR z).
Proof.
  intros z Hz. apply (generic_format_FLT radix2 (-1074) 53).
  destruct (Z.eq_dec (Z.abs z) (2 ^ 53)) as [E | E].
  - exists (Float radix2 (Z.sgn z) 53); cbn [Fnum Fexp].
    + unfold F2R. cbn [Fnum Fexp]. change (bpow radix2 53) with (IZR (2 ^ 53)).
      rewrite <- mult_IZR. f_equal. rewrite <- E. lia.
    + destruct z; cbn; lia.
    + lia.
  - exists (Float radix2 z 0); cbn [Fnum Fexp].
    + unfold F2R. cbn. ring.
    + change (Zpower radix2 53) with (2 ^ 53)%Z. lia.
    + lia.
Qed.

Lemma rnd_IZR : forall z, (Z.abs z <= 2 ^ 53)%Z -> rnd (IZR z) = IZR z.
Proof. intros z Hz. apply round_generic; auto with typeclass_instances. now apply format_IZR. Qed.

Lemma big_53 : forall z, (Z.abs z <= 2 ^ 53)%Z -> Rabs (IZR z) < big.
Proof.
  intros z Hz. rewrite <- abs_IZR. apply Rle_lt_trans with (IZR (2 ^ 53)).
  - now apply IZR_le.
  - unfold big. change (IZR (2 ^ 53)) with (bpow radix2 53). apply bpow_lt. lia.
Qed.

Lemma val_fnum : forall m e, val (fnum m e) = sat (rnd (F2R (Float radix2 m e))).
Proof.
  intros m e. unfold fnum.
  pose proof (binary_normalize_correct 53 1024 _ _ mode_NE m e false) as H. cbv zeta in H.
  cbn [round_mode] in H. fold (rnd (F2R (Float radix2 m e))) in H. fold big in H.
  destruct (Rlt_bool_spec (Rabs (rnd (F2R (Float radix2 m e)))) big) as [L | L].
  - destruct H as (H1 & H2 & _). rewrite val_finite by exact H2. rewrite H1.
    unfold sat. rewrite Rlt_bool_true by exact L. reflexivity.
  - cbn [binary_overflow] in H. apply val_SF in H. rewrite H. symmetry.
    apply sat_over; [exact L | |]; intros Hs; rewrite <- rnd_0; apply rnd_mono.
    + destruct (Rlt_bool_spec (F2R (Float radix2 m e)) 0); [lra | discriminate].
    + destruct (Rlt_bool_spec (F2R (Float radix2 m e)) 0); [discriminate | lra].
Qed.

Lemma val_int : forall z, (Z.abs z <= 2 ^ 53)%Z -> val (fnum z 0) = XFin (IZR z).
Proof.
  intros z Hz. rewrite val_fnum. replace (F2R (Float radix2 z 0)) with (IZR z).
  - rewrite rnd_IZR by exact Hz. unfold sat. rewrite Rlt_bool_true by now apply big_53.
    reflexivity.
  - unfold F2R. cbn. ring.
Qed.

Lemma val_half : val (fnum 1 (-1)) = XFin (1 / 2).
Proof.
  rewrite val_fnum. unfold rnd. rewrite round_generic; auto with typeclass_instances.
  - replace (F2R (Float radix2 1 (-1))) with (1 / 2) by (unfold F2R; cbn; lra).
    unfold sat. rewrite Rlt_bool_true; [reflexivity |].
    apply Rlt_trans with 1; [rewrite Rabs_right; lra |].
    change 1 with (bpow radix2 0). apply bpow_lt. lia.
  - apply generic_format_F2R. intros _. cbn. unfold cexp.
    replace (F2R (Float radix2 1 (-1))) with (bpow radix2 (-1)) by (unfold F2R; cbn; lra).
    rewrite mag_bpow. cbn. lia.
Qed.

(** Conversion back to an integer. *)
Lemma f_toZ_int : forall x z, val x = XFin (IZR z) -> (0 <= z < size_max)%Z ->
  f_toZ x = Some z.
Proof.
  intros x z E Hz. apply val_fin_inv in E. destruct E as [F E].
  unfold f_toZ. rewrite F.
  assert (Ht : Btrunc x = z).
  { apply eq_IZR. rewrite (Btrunc_correct 53 1024 _ x). rewrite E.
    apply round_generic; auto with typeclass_instances.
    apply generic_format_FIX. exists (Float radix2 z 0); [unfold F2R; cbn; ring | reflexivity]. }
  rewrite Ht. rewrite (proj2 (Z.leb_le 0 z)), (proj2 (Z.ltb_lt z size_max)) by lia. reflexivity.
Qed.

(** *** The chain of operations as monotone functions *)

Definition xok (a : xreal) : Prop := a <> XNan.

Lemma sat_ok : forall r, xok (sat r).
Proof. intros r. unfold sat, xok. destruct (Rlt_bool (Rabs r) big); discriminate. Qed.

Lemma sat_mono : forall r q, r <= q -> xle (sat r) (sat q).
Proof.
  intros r q H. unfold sat, xle. pose proof big_pos as B.
  destruct (Rlt_bool_spec (Rabs r) big) as [L1 | L1];
    destruct (Rlt_bool_spec (Rabs q) big) as [L2 | L2]; cbn [xleb].
  - destruct (Rle_dec r q); [reflexivity | contradiction].
  - destruct (Rlt_bool_spec q 0) as [L3 | L3]; [| reflexivity]. exfalso.
    rewrite (Rabs_left q) in L2 by exact L3. rewrite (Rabs_left r) in L1 by lra. lra.
  - destruct (Rlt_bool_spec r 0) as [L3 | L3]; [reflexivity |]. exfalso.
    rewrite (Rabs_right r) in L1 by lra. rewrite (Rabs_right q) in L2 by lra. lra.
  - destruct (Rlt_bool_spec r 0) as [L3 | L3]; [reflexivity |].
    rewrite (Rlt_bool_false q 0) by lra. reflexivity.
Qed.

Definition mulx (si : R) (a : xreal) : xreal :=
  match a with
  | XFin r => sat (rnd (r * si))
  | XInf s => XInf (xorb s (Rlt_bool si 0))
  | XNan => XNan
  end.
Definition addx (a : xreal) : xreal :=
  match a with XFin r => sat (rnd (r + 1 / 2)) | _ => a end.

Lemma xle_inf_top : forall a, xok a -> xle a (XInf false).
Proof. intros [r | [|] |] H; try reflexivity. now elim H. Qed.
Lemma xle_inf_bot : forall a, xok a -> xle (XInf true) a.
Proof. intros [r | [|] |] H; try reflexivity. now elim H. Qed.

Lemma xle_cases : forall a b, xle a b ->
  (exists r q, a = XFin r /\ b = XFin q /\ r <= q) \/ a = XInf true \/ b = XInf false.
Proof.
  intros [r | [|] |] [q | [|] |] H; unfold xle in H; cbn in H; try discriminate; auto.
  destruct (Rle_dec r q); [| discriminate]. left. exists r, q. auto.
Qed.

Lemma mulx_ok : forall si a, xok a -> xok (mulx si a).
Proof. intros si [r | s |] H; cbn; [apply sat_ok | discriminate | exact H]. Qed.
Lemma addx_ok : forall a, xok a -> xok (addx a).
Proof. intros [r | s |] H; cbn; [apply sat_ok | discriminate | exact H]. Qed.
Lemma xfloor_ok : forall a, xok a -> xok (xfloor a).
Proof. intros [r | s |] H; cbn; [discriminate | discriminate | exact H]. Qed.

Lemma mulx_mono : forall si a b, 0 < si -> xok a -> xok b -> xle a b ->
  xle (mulx si a) (mulx si b).
Proof.
  intros si a b Hs Ha Hb H. destruct (xle_cases _ _ H) as [(r & q & -> & -> & L) | [-> | ->]].
  - cbn. apply sat_mono, rnd_mono. apply Rmult_le_compat_r; lra.
  - cbn. rewrite Rlt_bool_false by lra. apply xle_inf_bot. now apply mulx_ok.
  - cbn. rewrite Rlt_bool_false by lra. apply xle_inf_top. now apply mulx_ok.
Qed.

Lemma mulx_anti : forall si a b, si < 0 -> xok a -> xok b -> xle a b ->
  xle (mulx si b) (mulx si a).
Proof.
  intros si a b Hs Ha Hb H. destruct (xle_cases _ _ H) as [(r & q & -> & -> & L) | [-> | ->]].
  - cbn. apply sat_mono, rnd_mono. nra.
  - cbn [mulx]. rewrite Rlt_bool_true by lra. apply xle_inf_top. now apply mulx_ok.
  - cbn [mulx]. rewrite Rlt_bool_true by lra. apply xle_inf_bot. now apply mulx_ok.
Qed.

Lemma addx_mono : forall a b, xok a -> xok b -> xle a b -> xle (addx a) (addx b).
Proof.
  intros a b Ha Hb H. destruct (xle_cases _ _ H) as [(r & q & -> & -> & L) | [-> | ->]].
  - cbn. apply sat_mono, rnd_mono. lra.
  - apply xle_inf_bot. now apply addx_ok.
  - apply xle_inf_top. now apply addx_ok.
Qed.

Lemma xfloor_mono : forall a b, xok a -> xok b -> xle a b -> xle (xfloor a) (xfloor b).
Proof.
  intros a b Ha Hb H. destruct (xle_cases _ _ H) as [(r & q & -> & -> & L) | [-> | ->]].
  - unfold xle. cbn [xfloor]. rewrite xleb_IZR. apply Z.leb_le. now apply Zfloor_le.
  - apply xle_inf_bot. now apply xfloor_ok.
  - apply xle_inf_top. now apply xfloor_ok.
Qed.

(** The last part of [pos2index]: clamping an integral or infinite value. *)
Definition xclamp (n : Z) (a : xreal) : Z * bool :=
  match a with
  | XFin r => let f := Zfloor r in (clampZ f n, ((f <? 0)%Z || (n <=? f)%Z)%bool)
  | XInf s => (if s then 0%Z else (n - 1)%Z, true)
  | XNan => (0%Z, false)
  end.

Lemma xclamp_range : forall n a, (1 <= n)%Z -> (0 <= fst (xclamp n a) < n)%Z.
Proof.
  intros n [r | [|] |] Hn; cbn [xclamp fst]; try lia. now apply clampZ_range.
Qed.

Lemma xclamp_mono : forall n a b, (1 <= n)%Z -> xok a -> xok b -> xle a b ->
  (fst (xclamp n a) <= fst (xclamp n b))%Z.
Proof.
  intros n a b Hn Ha Hb H. destruct (xle_cases _ _ H) as [(r & q & -> & -> & L) | [-> | ->]].
  - cbn [xclamp fst]. apply Zfloor_le in L. unfold clampZ.
    destruct (Zfloor r <? 0)%Z eqn:E1; destruct (Zfloor q <? 0)%Z eqn:E2;
      destruct (n <=? Zfloor r)%Z eqn:E3; destruct (n <=? Zfloor q)%Z eqn:E4; lia.
  - pose proof (xclamp_range n b Hn). cbn [xclamp fst]. lia.
  - pose proof (xclamp_range n a Hn). cbn [xclamp fst]. lia.
Qed.

(** The value before clamping. *)
Definition chain (off si p : R) : xreal :=
  xfloor (addx (mulx si (sat (rnd (p - off))))).

Lemma val_mul_any : forall d si : f64, is_finite si = true ->
  is_finite d = true \/ (is_nan d = false /\ B2R si <> 0) ->
  val (Bmult mode_NE d si) = mulx (B2R si) (val d).
Proof.
  intros d si Fs H. destruct (is_finite d) eqn:Fd.
  - rewrite val_mul, (val_finite _ Fd) by assumption. reflexivity.
  - destruct H as [H | [Hn Hs]]; [discriminate |].
    destruct d; try discriminate. rewrite val_inf_mul by assumption. reflexivity.
Qed.

Lemma val_add_half : forall d : f64, val (Bplus mode_NE d (fnum 1 (-1))) = addx (val d).
Proof.
  intros d. destruct (val_fin_inv _ _ val_half) as [Fh Eh].
  destruct (is_finite d) eqn:Fd.
  - rewrite val_add, (val_finite _ Fd), Eh by assumption. reflexivity.
  - destruct d as [s | s | | s m e H]; try discriminate; cbn [val addx];
      destruct (fnum 1 (-1)) as [s' | s' | | s' m' e' H']; try discriminate; reflexivity.
Qed.

Lemma val_nan : forall d : f64, xok (val d) -> is_nan d = false.
Proof. intros [s | s | | s m e H] O; try reflexivity. now elim O. Qed.

Definition two53 : Z := (2 ^ 53)%Z.

(** What [pos2index] computes. *)
Lemma p2i_float : forall (off si p : f64) n,
  is_finite off = true -> is_finite si = true -> is_finite p = true ->
  (B2R si <> 0 \/ is_finite (Bminus mode_NE p off) = true) ->
  (1 <= n <= two53)%Z ->
  pos2index_dim ieee off si n p = Ok (xclamp n (chain (B2R off) (B2R si) (B2R p))).
Proof.
  intros off si p n Fo Fs Fp Hn Hsz.
  assert (Hx : val (c_round ieee (a_mul ieee (a_sub ieee p off) si))
               = chain (B2R off) (B2R si) (B2R p)).
  { unfold c_round, chain. cbn [ieee a_floor a_add a_mul a_sub a_half].
    rewrite val_floor, val_add_half. f_equal. f_equal.
    rewrite val_mul_any; [now rewrite val_sub | exact Fs |].
    destruct Hn as [Hn | Hn]; [| now left]. right. split; [| exact Hn].
    apply val_nan. rewrite val_sub by assumption. apply sat_ok. }
  assert (Hok : xok (chain (B2R off) (B2R si) (B2R p))).
  { unfold chain. apply xfloor_ok, addx_ok, mulx_ok, sat_ok. }
  assert (Hint : match chain (B2R off) (B2R si) (B2R p) with
                 | XFin r => r = IZR (Zfloor r) | _ => True end).
  { unfold chain. destruct (addx _); cbn [xfloor]; auto. now rewrite Zfloor_IZR. }
  unfold two53 in Hsz. assert (H53 : (2 ^ 53 < size_max)%Z) by reflexivity.
  unfold pos2index_dim. set (x := c_round _ _) in *.
  assert (E1 : a_ltb ieee x (a_ofZ ieee 0) = xltb (val x) (XFin (IZR 0))).
  { cbn [ieee a_ltb a_ofZ]. rewrite val_ltb, val_int by lia. reflexivity. }
  assert (E2 : a_leb ieee (a_ofZ ieee n) x = xleb (XFin (IZR n)) (val x)).
  { cbn [ieee a_leb a_ofZ]. rewrite val_leb, val_int by lia. reflexivity. }
  cbv zeta. rewrite E1, E2, Hx. cbn [ieee a_toZ a_ofZ].
  destruct (chain (B2R off) (B2R si) (B2R p)) as [r | s |] eqn:Ec; [| | now elim Hok].
  - rewrite Hint. rewrite xltb_IZR, xleb_IZR. cbn [xclamp]. rewrite Zfloor_IZR.
    set (f := Zfloor r) in *. unfold clampZ.
    destruct (f <? 0)%Z eqn:F1; cbn [orb].
    + rewrite (f_toZ_int _ 0) by (try apply val_int; lia). reflexivity.
    + destruct (n <=? f)%Z eqn:F2.
      * rewrite (f_toZ_int _ (n - 1)) by (try apply val_int; lia). reflexivity.
      * rewrite (f_toZ_int _ f); [reflexivity | rewrite Hx; now rewrite Hint at 1 | lia].
  - destruct s; cbn [xltb xleb orb xclamp].
    + rewrite (f_toZ_int _ 0) by (try apply val_int; lia). reflexivity.
    + rewrite (f_toZ_int _ (n - 1)) by (try apply val_int; lia). reflexivity.
Qed.

Lemma chain_ok : forall off si p, xok (chain off si p).
Proof. intros. unfold chain. apply xfloor_ok, addx_ok, mulx_ok, sat_ok. Qed.

Lemma chain_mono : forall off si p q, 0 < si -> p <= q -> xle (chain off si p) (chain off si q).
Proof.
  intros off si p q Hs H. unfold chain.
  apply xfloor_mono; [apply addx_ok, mulx_ok, sat_ok | apply addx_ok, mulx_ok, sat_ok |].
  apply addx_mono; [apply mulx_ok, sat_ok | apply mulx_ok, sat_ok |].
  apply mulx_mono; [exact Hs | apply sat_ok | apply sat_ok |].
  apply sat_mono, rnd_mono. lra.
Qed.

Lemma chain_anti : forall off si p q, si < 0 -> p <= q -> xle (chain off si q) (chain off si p).
Proof.
  intros off si p q Hs H. unfold chain.
  apply xfloor_mono; [apply addx_ok, mulx_ok, sat_ok | apply addx_ok, mulx_ok, sat_ok |].
  apply addx_mono; [apply mulx_ok, sat_ok | apply mulx_ok, sat_ok |].
  apply mulx_anti; [exact Hs | apply sat_ok | apply sat_ok |].
  apply sat_mono, rnd_mono. lra.
Qed.

(** With reciprocal spacing zero every coordinate goes to index 0. *)
Lemma p2i_float_zero : forall (off si p : f64) n,
  is_finite off = true -> is_finite si = true -> is_finite p = true ->
  B2R si = 0 -> is_finite (Bminus mode_NE p off) = true ->
  (1 <= n <= two53)%Z ->
  pos2index_dim ieee off si n p = Ok (0%Z, false).
Proof.
  intros off si p n Fo Fs Fp Hs Fd Hn.
  rewrite p2i_float by auto. f_equal.
  assert (Hc : chain (B2R off) (B2R si) (B2R p) = XFin (IZR 0)).
  { unfold chain. rewrite <- val_sub by assumption. rewrite (val_finite _ Fd). rewrite Hs.
    cbn [mulx]. rewrite Rmult_0_r, rnd_0. unfold sat at 1. rewrite Rabs_R0, Rlt_bool_true by apply big_pos.
    cbn [addx]. rewrite Rplus_0_l.
    destruct (val_fin_inv _ _ val_half) as [Fh Eh].
    assert (Hr : rnd (1 / 2) = 1 / 2).
    { rewrite <- Eh. apply round_generic; auto with typeclass_instances. apply generic_format_B2R. }
    rewrite Hr. unfold sat. rewrite Rlt_bool_true.
    - cbn [xfloor]. f_equal. f_equal. apply Zfloor_imp. cbn. lra.
    - rewrite <- Eh. apply (abs_B2R_lt_emax 53 1024). }
  rewrite Hc. cbn [xclamp]. rewrite Zfloor_IZR. unfold clampZ. cbn [Z.ltb Z.compare].
  rewrite (proj2 (Z.leb_gt n 0)) by lia. reflexivity.
Qed.
