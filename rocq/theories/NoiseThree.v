(** * Facts about NoiseModel: noise in three dimensions *)
From Coq Require Import Lia Lqa Setoid Morphisms Qabs.
From Verif Require Import NoiseModel NoiseFacts.
Local Open Scope Q_scope.

(** The number at a point of the lattice. *)
Definition corner3 (X Y V : Z) : Z := tab (tab (tab X + Y) + V).
Definition smooth3 (g : Z -> Z -> Z -> Z) (x y z : Q) : Q :=
  lerp (fade z)
    (lerp (fade y) (lerp (fade x) (grad3D (g 0 0 0)%Z x y z) (grad3D (g 1 0 0)%Z (x - 1) y z))
                   (lerp (fade x) (grad3D (g 0 1 0)%Z x (y - 1) z) (grad3D (g 1 1 0)%Z (x - 1) (y - 1) z)))
    (lerp (fade y) (lerp (fade x) (grad3D (g 0 0 1)%Z x y (z - 1)) (grad3D (g 1 0 1)%Z (x - 1) y (z - 1)))
                   (lerp (fade x) (grad3D (g 0 1 1)%Z x (y - 1) (z - 1)) (grad3D (g 1 1 1)%Z (x - 1) (y - 1) (z - 1)))).
Definition patch3 (X Y V : Z) : Q -> Q -> Q -> Q := smooth3 (fun i j k => corner3 (X + i) (Y + j) (V + k)).
Definition noise3 (x y z : Q) : Q := patch3 (Qfloor x) (Qfloor y) (Qfloor z) (frac x) (frac y) (frac z).

Lemma corner3_mod X Y V X' Y' V' : (X mod 256 = X' mod 256)%Z -> (Y mod 256 = Y' mod 256)%Z -> (V mod 256 = V' mod 256)%Z ->
  corner3 X Y V = corner3 X' Y' V'.
Proof.
  intros HX HY HZ. unfold corner3. pose proof (corner_mod X Y X' Y' HX HY) as E. unfold corner in E. rewrite E.
  apply tab_eq. rewrite Z.add_mod, HZ, <- Z.add_mod; lia.
Qed.
Lemma tab_add a b c d : tab a = tab c -> (b mod 256 = d mod 256)%Z -> tab (tab a + b) = tab (tab c + d).
Proof. intros -> H. apply tab_eq. rewrite Z.add_mod, H, <- Z.add_mod; lia. Qed.

Lemma pnoise3D_noise x y z : pnoise3D x y z = Ok (noise3 x y z).
Proof.
  unfold pnoise3D, cell. rewrite !land255. set (X := Qfloor x). set (Y := Qfloor y). set (Z0 := Qfloor z).
  pose proof (Z.mod_pos_bound X 256 ltac:(lia)). pose proof (Z.mod_pos_bound Y 256 ltac:(lia)). pose proof (Z.mod_pos_bound Z0 256 ltac:(lia)).
  pose proof (Z.mod_pos_bound (X mod 256 + 1) 256 ltac:(lia)).
  rewrite get_tab by lia. cbv [obind]. rewrite land255. rewrite get_tab by lia.
  pose proof (tab_range (X mod 256)). pose proof (tab_range ((X mod 256 + 1) mod 256)).
  rewrite get_tab by lia. rewrite !land255.
  set (a := (tab (X mod 256) + Y mod 256)%Z) in *. set (b := (tab ((X mod 256 + 1) mod 256) + Y mod 256)%Z) in *.
  pose proof (Z.mod_pos_bound (a + 1) 256 ltac:(lia)). pose proof (Z.mod_pos_bound (b + 1) 256 ltac:(lia)).
  pose proof (tab_range a). pose proof (tab_range b). pose proof (tab_range ((a + 1) mod 256)). pose proof (tab_range ((b + 1) mod 256)).
  rewrite get_tab by lia. rewrite get_tab by lia. rewrite get_tab by lia.
  do 8 (rewrite get_tab by lia).
  f_equal. unfold noise3, patch3, smooth3. fold X Y Z0.
  assert (E1 : tab ((X mod 256 + 1) mod 256) = tab (X + 1)) by (rewrite tab_mod; apply tab_eq; modz).
  assert (Ha : tab a = tab (tab X + Y)) by (unfold a; rewrite tab_mod; apply tab_eq; modz).
  assert (Hb : tab b = tab (tab (X + 1) + Y)) by (unfold b; rewrite E1; apply tab_eq; modz).
  assert (Ha1 : tab ((a + 1) mod 256) = tab (tab X + (Y + 1))).
  { rewrite tab_mod. unfold a. rewrite tab_mod. rewrite Z.add_assoc. apply tab_eq. rewrite <- Z.add_assoc, Z.add_mod by lia.
    rewrite (Zplus_mod_idemp_l Y 1). rewrite <- Z.add_mod by lia. f_equal. lia. }
  assert (Hb1 : tab ((b + 1) mod 256) = tab (tab (X + 1) + (Y + 1))).
  { rewrite tab_mod. unfold b. rewrite E1. rewrite Z.add_assoc. apply tab_eq. rewrite <- Z.add_assoc, Z.add_mod by lia.
    rewrite (Zplus_mod_idemp_l Y 1). rewrite <- Z.add_mod by lia. f_equal. lia. }
  rewrite Ha, Hb, Ha1, Hb1. rewrite !Z.add_0_r.
  assert (P0 : forall u, tab (u + Z0 mod 256) = tab (u + Z0)) by (intros u; apply tab_eq; modz).
  assert (P1 : forall u, tab (u + Z0 mod 256 + 1) = tab (u + (Z0 + 1))).
  { intros u. apply tab_eq. rewrite <- Z.add_assoc, Z.add_mod by lia. rewrite (Zplus_mod_idemp_l Z0 1). rewrite <- Z.add_mod by lia. reflexivity. }
  rewrite !P0, !P1. reflexivity.
Qed.

(** ** Gradients: two of the three directions *)
Definition hx (h : Z) : Q := grad3D h 1 0 0.
Definition hy (h : Z) : Q := grad3D h 0 1 0.
Definition hz (h : Z) : Q := grad3D h 0 0 1.
Lemma grad3_linear h x y z : grad3D h x y z == hx h * x + hy h * y + hz h * z.
Proof.
  unfold hx, hy, hz, grad3D, signs. cbv zeta.
  repeat match goal with |- context [if ?b then _ else _] => destruct b end; ring.
Qed.
Lemma grad3_unit h : -(1) <= hx h <= 1 /\ -(1) <= hy h <= 1 /\ -(1) <= hz h <= 1.
Proof.
  unfold hx, hy, hz, grad3D. cbv zeta. pose proof (land15 h) as L. set (k := Z.land h 15) in *. clearbody k.
  assert (exists n, (n < 16)%nat /\ k = Z.of_nat n) as (n & Hn & ->) by (exists (Z.to_nat k); lia). clear L.
  do 16 (destruct n as [|n]; [repeat split; vm_compute; discriminate|]). lia.
Qed.
Lemma grad3_bound h x y z : Qabs (grad3D h x y z) <= Qabs x + Qabs y + Qabs z.
Proof.
  rewrite grad3_linear. pose proof (grad3_unit h) as (GX & GY & GZ).
  eapply Qle_trans; [apply Qabs_triangle|]. pose proof (Qabs_triangle (hx h * x) (hy h * y)).
  pose proof (mul_unit _ x GX). pose proof (mul_unit _ y GY). pose proof (mul_unit _ z GZ). lra.
Qed.

#[local] Instance fade_proper' : Proper (Qeq ==> Qeq) fade.
Proof. intros a b E. unfold fade. now rewrite E. Qed.
#[local] Instance grad3_proper h : Proper (Qeq ==> Qeq ==> Qeq ==> Qeq) (grad3D h).
Proof. intros a b E c d F e f G. rewrite !grad3_linear. now rewrite E, F, G. Qed.
#[local] Instance lerp_proper' : Proper (Qeq ==> Qeq ==> Qeq ==> Qeq) lerp.
Proof. intros a b E c d F e f G. unfold lerp. now rewrite E, F, G. Qed.
#[local] Instance frac_proper' : Proper (Qeq ==> Qeq) frac.
Proof. intros a b E. unfold frac. rewrite (Qfloor_comp _ _ E). now rewrite E. Qed.
#[local] Instance smooth3_proper g : Proper (Qeq ==> Qeq ==> Qeq ==> Qeq) (smooth3 g).
Proof. intros x x' E y y' F z z' G. unfold smooth3. now rewrite E, F, G. Qed.
#[local] Instance patch3_proper X Y V : Proper (Qeq ==> Qeq ==> Qeq ==> Qeq) (patch3 X Y V).
Proof. intros x x' E y y' F z z' G. unfold patch3. now rewrite E, F, G. Qed.
#[local] Instance noise3_proper : Proper (Qeq ==> Qeq ==> Qeq ==> Qeq) noise3.
Proof.
  intros x x' E y y' F z z' G. unfold noise3. rewrite (Qfloor_comp _ _ E), (Qfloor_comp _ _ F), (Qfloor_comp _ _ G). now rewrite E, F, G.
Qed.

Lemma smooth3_bound g x y z : unit x -> unit y -> unit z -> Qabs (smooth3 g x y z) <= 3 # 2.
Proof.
  intros X Y Z. pose proof (abs_unit x X) as [X0 X1]. pose proof (abs_unit y Y) as [Y0 Y1]. pose proof (abs_unit z Z) as [Z0 Z1].
  pose proof (fade_unit x X) as U. pose proof (fade_unit y Y) as V. pose proof (fade_unit z Z) as W.
  unfold smooth3. eapply Qle_trans.
  { eapply (lerp_between _ _ _ _ _ W);
    (eapply (lerp_between _ _ _ _ _ V); (eapply (lerp_between _ _ _ _ _ U); apply grad3_bound)). }
  pose proof (half x X) as HX. pose proof (half y Y) as HY. pose proof (half z Z) as HZ.
  set (u := fade x) in *. set (v := fade y) in *. set (w := fade z) in *. rewrite X0, X1, Y0, Y1, Z0, Z1.
  match goal with |- ?e <= _ =>
    assert (e == ((1 - u) * x + u * (1 - x)) + ((1 - v) * y + v * (1 - y)) + ((1 - w) * z + w * (1 - z))) as -> by ring end. lra.
Qed.
Lemma noise3_bound x y z : Qabs (noise3 x y z) <= 3 # 2.
Proof. unfold noise3, patch3. apply smooth3_bound; apply frac_unit. Qed.

(** ** Zero at the points of the lattice; periodic *)
Lemma noise3_lattice X Y V : noise3 (inject_Z X) (inject_Z Y) (inject_Z V) == 0.
Proof.
  unfold noise3, patch3. rewrite !frac_int. unfold smooth3, lerp. change (fade 0) with 0. rewrite !grad3_linear. ring.
Qed.
Lemma noise3_periodic x y z k l m :
  noise3 (x + inject_Z (k * 256)) (y + inject_Z (l * 256)) (z + inject_Z (m * 256)) == noise3 x y z.
Proof.
  unfold noise3, patch3. rewrite !floor_shift, !frac_shift. unfold smooth3.
  assert (E : forall i j n, corner3 (Qfloor x + k * 256 + i) (Qfloor y + l * 256 + j) (Qfloor z + m * 256 + n) =
                            corner3 (Qfloor x + i) (Qfloor y + j) (Qfloor z + n)).
  { intros i j n. assert (S : forall q r s, ((q + r * 256 + s) mod 256 = (q + s) mod 256)%Z)
      by (intros q r s; replace (q + r * 256 + s)%Z with (q + s + r * 256)%Z by lia; now rewrite Z.mod_add).
    apply corner3_mod; apply S. }
  rewrite !E. reflexivity.
Qed.

(** ** Continuity *)
Lemma row3_step a0 b0 a1 b1 t s : -(1) <= a0 <= 1 -> -(1) <= a1 <= 1 -> -(2) <= b0 <= 2 -> -(2) <= b1 <= 2 -> unit t -> unit s ->
  Qabs (lerp (fade t) (a0 * t + b0) (a1 * (t - 1) + b1) - lerp (fade s) (a0 * s + b0) (a1 * (s - 1) + b1)) <= 361 * Qabs (t - s).
Proof.
  intros A0 A1 B0 B1 T S. pose proof (fade_step t s T S) as F. pose proof (fade_unit t T) as [U0 U1].
  set (u := fade t) in *. set (w := fade s) in *.
  assert (lerp u (a0 * t + b0) (a1 * (t - 1) + b1) - lerp w (a0 * s + b0) (a1 * (s - 1) + b1) ==
    ((1 - u) * a0 + u * a1) * (t - s) + (u - w) * (a1 * (s - 1) + b1 - a0 * s - b0)) as -> by (unfold lerp; ring).
  eapply Qle_trans; [apply Qabs_triangle|]. rewrite !Qabs_Qmult.
  assert (Qabs ((1 - u) * a0 + u * a1) <= 1) as H1 by (apply abs_le; nra).
  assert (Qabs (a1 * (s - 1) + b1 - a0 * s - b0) <= 6) as H2.
  { destruct (small a1 s A1 S) as [_ K1], (small a0 s A0 S) as [K2 _]. apply abs_le; lra. }
  pose proof (Qabs_nonneg (t - s)) as N1. pose proof (Qabs_nonneg (u - w)) as N2.
  pose proof (Qabs_nonneg (a1 * (s - 1) + b1 - a0 * s - b0)) as N3.
  set (q := Qabs (t - s)) in *. set (r := Qabs (u - w)) in *. set (e := Qabs (a1 * (s - 1) + b1 - a0 * s - b0)) in *.
  set (o := Qabs ((1 - u) * a0 + u * a1)) in *. clearbody q r e o.
  assert (o * q <= 1 * q) by now apply Qmult_le_compat_r. assert (r * e <= r * 6) by (rewrite !(Qmult_comm r); now apply Qmult_le_compat_r). lra.
Qed.
(** The rest of a row: two products. *)
Definition off (i : Z) (x : Q) : Q := x - inject_Z i.
Lemma rest p q i j y z : -(1) <= p <= 1 -> -(1) <= q <= 1 -> unit y -> unit z -> (i = 0 \/ i = 1)%Z -> (j = 0 \/ j = 1)%Z ->
  -(2) <= p * off i y + q * off j z <= 2.
Proof.
  intros P P' [Y0 Y1] [Z0 Z1] I J. unfold off. assert (-(1) <= p * (y - inject_Z i) <= 1).
  { destruct I as [->| ->]; change (inject_Z 0) with 0; change (inject_Z 1) with 1; split; nra. }
  assert (-(1) <= q * (z - inject_Z j) <= 1).
  { destruct J as [->| ->]; change (inject_Z 0) with 0; change (inject_Z 1) with 1; split; nra. }
  lra.
Qed.
(** The three orders of interpolation. *)
Definition row_x (g : Z -> Z -> Z -> Z) (y z : Q) (j k : Z) (x : Q) : Q :=
  lerp (fade x) (hx (g 0 j k)%Z * x + (hy (g 0 j k)%Z * off j y + hz (g 0 j k)%Z * off k z))
                (hx (g 1 j k)%Z * (x - 1) + (hy (g 1 j k)%Z * off j y + hz (g 1 j k)%Z * off k z)).
Definition row_y (g : Z -> Z -> Z -> Z) (x z : Q) (i k : Z) (y : Q) : Q :=
  lerp (fade y) (hy (g i 0 k)%Z * y + (hx (g i 0 k)%Z * off i x + hz (g i 0 k)%Z * off k z))
                (hy (g i 1 k)%Z * (y - 1) + (hx (g i 1 k)%Z * off i x + hz (g i 1 k)%Z * off k z)).
Definition row_z (g : Z -> Z -> Z -> Z) (x y : Q) (i j : Z) (z : Q) : Q :=
  lerp (fade z) (hz (g i j 0)%Z * z + (hx (g i j 0)%Z * off i x + hy (g i j 0)%Z * off j y))
                (hz (g i j 1)%Z * (z - 1) + (hx (g i j 1)%Z * off i x + hy (g i j 1)%Z * off j y)).
Lemma smooth3_x g x y z : smooth3 g x y z ==
  lerp (fade z) (lerp (fade y) (row_x g y z 0 0 x) (row_x g y z 1 0 x)) (lerp (fade y) (row_x g y z 0 1 x) (row_x g y z 1 1 x)).
Proof. unfold smooth3, row_x, off. rewrite !grad3_linear. change (inject_Z 0) with 0. change (inject_Z 1) with 1. unfold lerp. ring. Qed.
Lemma smooth3_y g x y z : smooth3 g x y z ==
  lerp (fade z) (lerp (fade x) (row_y g x z 0 0 y) (row_y g x z 1 0 y)) (lerp (fade x) (row_y g x z 0 1 y) (row_y g x z 1 1 y)).
Proof. unfold smooth3, row_y, off. rewrite !grad3_linear. change (inject_Z 0) with 0. change (inject_Z 1) with 1. unfold lerp. ring. Qed.
Lemma smooth3_z g x y z : smooth3 g x y z ==
  lerp (fade y) (lerp (fade x) (row_z g x y 0 0 z) (row_z g x y 1 0 z)) (lerp (fade x) (row_z g x y 0 1 z) (row_z g x y 1 1 z)).
Proof. unfold smooth3, row_z, off. rewrite !grad3_linear. change (inject_Z 0) with 0. change (inject_Z 1) with 1. unfold lerp. ring. Qed.
Ltac row_tac :=
  match goal with |- Qabs (_ (?g) _ _ _ _ _ - _) <= _ => idtac end;
  unfold row_x, row_y, row_z;
  repeat match goal with |- context [hx ?h] =>
    lazymatch goal with _ : -(1) <= hx h <= 1 |- _ => fail | _ => destruct (grad3_unit h) as (? & ? & ?) end end;
  apply row3_step; auto using rest.
Lemma smooth3_step_x g x x' y z : unit x -> unit x' -> unit y -> unit z ->
  Qabs (smooth3 g x y z - smooth3 g x' y z) <= 361 * Qabs (x - x').
Proof.
  intros X X' Y Z. rewrite !smooth3_x. pose proof (fade_unit y Y) as V. pose proof (fade_unit z Z) as W.
  apply lerp_step; [exact W| |]; (apply lerp_step; [exact V| |]); row_tac.
Qed.
Lemma smooth3_step_y g x y y' z : unit x -> unit y -> unit y' -> unit z ->
  Qabs (smooth3 g x y z - smooth3 g x y' z) <= 361 * Qabs (y - y').
Proof.
  intros X Y Y' Z. rewrite !smooth3_y. pose proof (fade_unit x X) as U. pose proof (fade_unit z Z) as W.
  apply lerp_step; [exact W| |]; (apply lerp_step; [exact U| |]); row_tac.
Qed.
Lemma smooth3_step_z g x y z z' : unit x -> unit y -> unit z -> unit z' ->
  Qabs (smooth3 g x y z - smooth3 g x y z') <= 361 * Qabs (z - z').
Proof.
  intros X Y Z Z'. rewrite !smooth3_z. pose proof (fade_unit x X) as U. pose proof (fade_unit y Y) as V.
  apply lerp_step; [exact V| |]; (apply lerp_step; [exact U| |]); row_tac.
Qed.

(** Neighbouring cells agree on the face between them. *)
Ltac face := unfold patch3, smooth3; rewrite ?Z.add_0_r, ?Z.add_0_l; rewrite !grad3_linear; assert (fade 1 == 1) as -> by reflexivity;
  assert (fade 0 == 0) as -> by reflexivity; unfold lerp; ring.
Lemma face_x X Y V y z : patch3 X Y V 1 y z == patch3 (X + 1) Y V 0 y z.
Proof. face. Qed.
Lemma face_y X Y V x z : patch3 X Y V x 1 z == patch3 X (Y + 1) V x 0 z.
Proof. face. Qed.
Lemma face_z X Y V x y : patch3 X Y V x y 1 == patch3 X Y (V + 1) x y 0.
Proof. face. Qed.
Section Axis.
(** One coordinate: [f] is [pt X] of the distance to [X] in each cell, the ends of the cells agree. *)
Variables (f : Q -> Q) (pt : Z -> Q -> Q).
Hypothesis f_proper : forall a b, a == b -> f a == f b.
Hypothesis pt_proper : forall X a b, a == b -> pt X a == pt X b.
Hypothesis f_pt : forall x, f x = pt (Qfloor x) (frac x).
Hypothesis ends : forall X, pt X 1 == pt (X + 1) 0.
Lemma closed_cell X x : inject_Z X <= x -> x <= inject_Z X + 1 -> f x == pt X (x - inject_Z X).
Proof.
  intros A B. destruct (Qlt_le_dec x (inject_Z X + 1)) as [L|L].
  - rewrite f_pt. unfold frac. rewrite (floor_in X x A L). reflexivity.
  - assert (x == inject_Z (X + 1)) as E by (rewrite inject_Z_plus; change (inject_Z 1) with 1; lra).
    transitivity (f (inject_Z (X + 1))); [now apply f_proper|]. rewrite f_pt, Qfloor_Z.
    transitivity (pt (X + 1) 0); [apply pt_proper, frac_int|].
    transitivity (pt X 1); [symmetry; apply ends|]. apply pt_proper. rewrite E, inject_Z_plus. ring.
Qed.
Variable K : Q.
Hypothesis pt_step : forall X a b, unit a -> unit b -> Qabs (pt X a - pt X b) <= K * Qabs (a - b).
Lemma axis_step x x' : Qabs (f x - f x') <= K * Qabs (x - x').
Proof.
  apply (lipschitz f K). intros m a b A0 A1 B0 B1. rewrite (closed_cell m a), (closed_cell m b) by assumption.
  setoid_replace (a - b) with ((a - inject_Z m) - (b - inject_Z m)) by ring. apply pt_step; split; lra.
Qed.
End Axis.
Lemma noise3_step x y z x' y' z' :
  Qabs (noise3 x y z - noise3 x' y' z') <= 361 * (Qabs (x - x') + Qabs (y - y') + Qabs (z - z')).
Proof.
  assert (Qabs (noise3 x y z - noise3 x' y z) <= 361 * Qabs (x - x')) as HX.
  { apply (axis_step (fun x => noise3 x y z) (fun X t => patch3 X (Qfloor y) (Qfloor z) t (frac y) (frac z))).
    - intros a b E. now rewrite E.
    - intros X a b E. now rewrite E.
    - reflexivity.
    - intros X. apply face_x.
    - intros X a b A B. apply smooth3_step_x; auto using frac_unit. }
  assert (Qabs (noise3 x' y z - noise3 x' y' z) <= 361 * Qabs (y - y')) as HY.
  { apply (axis_step (fun y => noise3 x' y z) (fun Y t => patch3 (Qfloor x') Y (Qfloor z) (frac x') t (frac z))).
    - intros a b E. now rewrite E.
    - intros X a b E. now rewrite E.
    - reflexivity.
    - intros X. apply face_y.
    - intros X a b A B. apply smooth3_step_y; auto using frac_unit. }
  assert (Qabs (noise3 x' y' z - noise3 x' y' z') <= 361 * Qabs (z - z')) as HZ.
  { apply (axis_step (fun z => noise3 x' y' z) (fun V t => patch3 (Qfloor x') (Qfloor y') V (frac x') (frac y') t)).
    - intros a b E. now rewrite E.
    - intros X a b E. now rewrite E.
    - reflexivity.
    - intros X. apply face_z.
    - intros X a b A B. apply smooth3_step_z; auto using frac_unit. }
  setoid_replace (noise3 x y z - noise3 x' y' z') with
    ((noise3 x y z - noise3 x' y z) + (noise3 x' y z - noise3 x' y' z) + (noise3 x' y' z - noise3 x' y' z')) by ring.
  eapply Qle_trans; [apply Qabs_triangle|].
  pose proof (Qabs_triangle (noise3 x y z - noise3 x' y z) (noise3 x' y z - noise3 x' y' z)). lra.
Qed.
