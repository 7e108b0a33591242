(** * Facts about NoiseModel *)
From Coq Require Import Lia Lqa Setoid Morphisms Qabs.
From Verif Require Import NoiseModel.
Local Open Scope Q_scope.

(** ** The table *)
Definition tab (i : Z) : Z := nth (Z.to_nat (i mod 256)) perm 0%Z.
Lemma perm_ok : forallb (fun i => match nth_error perm i with
  | Some v => ((v =? tab (Z.of_nat i)) && (0 <=? v) && (v <? 256))%Z | None => false end) (seq 0 512) = true.
Proof. vm_compute. reflexivity. Qed.
Lemma get_tab i : (0 <= i < 512)%Z -> get i = Ok (tab i).
Proof.
  intros H. unfold get. destruct (Z.ltb_spec i 0); [lia|].
  assert (In (Z.to_nat i) (seq 0 512)) as I by (apply in_seq; lia).
  pose proof (proj1 (forallb_forall _ _) perm_ok _ I) as P. cbv beta in P. destruct (nth_error perm (Z.to_nat i)); [|discriminate].
  rewrite Z2Nat.id in P by lia. apply andb_true_iff in P. destruct P as [P _]. apply andb_true_iff in P. destruct P as [P _].
  apply Z.eqb_eq in P. now rewrite P.
Qed.
Lemma tab_range i : (0 <= tab i < 256)%Z.
Proof.
  pose proof (Z.mod_pos_bound i 256 ltac:(lia)) as M.
  assert (In (Z.to_nat (i mod 256)) (seq 0 512)) as I by (apply in_seq; lia).
  pose proof (proj1 (forallb_forall _ _) perm_ok _ I) as P. cbv beta in P. unfold tab at 1 2.
  destruct (nth_error perm (Z.to_nat (i mod 256))) eqn:E; [|discriminate]. rewrite (nth_error_nth _ _ 0%Z E).
  apply andb_true_iff in P. destruct P as [P B]. apply andb_true_iff in P. destruct P as [_ A]. lia.
Qed.
Lemma tab_mod i : tab (i mod 256) = tab i.
Proof. unfold tab. now rewrite Z.mod_mod. Qed.
Lemma tab_period i k : tab (i + k * 256) = tab i.
Proof. unfold tab. now rewrite Z.mod_add. Qed.
Lemma land255 i : Z.land i 255 = (i mod 256)%Z.
Proof. change 255%Z with (Z.ones 8). rewrite Z.land_ones by lia. reflexivity. Qed.
Lemma tab_eq i j : (i mod 256 = j mod 256)%Z -> tab i = tab j.
Proof. unfold tab. now intros ->. Qed.

(** The number at a point of the lattice. *)
Definition corner (X Y : Z) : Z := tab (tab X + Y).
Definition smooth (a b c d : Z) (x y : Q) : Q :=
  lerp (fade y) (lerp (fade x) (grad2D a x y) (grad2D b (x - 1) y)) (lerp (fade x) (grad2D c x (y - 1)) (grad2D d (x - 1) (y - 1))).
Definition patch (X Y : Z) (x y : Q) : Q := smooth (corner X Y) (corner (X + 1) Y) (corner X (Y + 1)) (corner (X + 1) (Y + 1)) x y.
Definition noise (x y : Q) : Q := patch (Qfloor x) (Qfloor y) (frac x) (frac y).

Lemma corner_mod X Y X' Y' : (X mod 256 = X' mod 256)%Z -> (Y mod 256 = Y' mod 256)%Z -> corner X Y = corner X' Y'.
Proof.
  intros HX HY. unfold corner. rewrite (tab_eq X X' HX). apply tab_eq. rewrite Z.add_mod, HY, <- Z.add_mod; lia.
Qed.
Ltac modz := repeat (rewrite Z.mod_mod || rewrite Zplus_mod_idemp_l || rewrite Zplus_mod_idemp_r); try lia.

Lemma pnoise2D_noise x y : pnoise2D x y = Ok (noise x y).
Proof.
  unfold pnoise2D, cell. rewrite !land255. set (X := Qfloor x). set (Y := Qfloor y).
  pose proof (Z.mod_pos_bound X 256 ltac:(lia)). pose proof (Z.mod_pos_bound Y 256 ltac:(lia)).
  pose proof (Z.mod_pos_bound (X mod 256 + 1) 256 ltac:(lia)).
  rewrite get_tab by lia. cbv [obind]. rewrite land255. rewrite get_tab by lia.
  pose proof (tab_range (X mod 256)). pose proof (tab_range ((X mod 256 + 1) mod 256)).
  rewrite get_tab by lia. rewrite !land255.
  rewrite get_tab by (pose proof (Z.mod_pos_bound (tab (X mod 256) + Y mod 256 + 1) 256 ltac:(lia)); lia).
  rewrite get_tab by lia.
  rewrite get_tab by (pose proof (Z.mod_pos_bound (tab ((X mod 256 + 1) mod 256) + Y mod 256 + 1) 256 ltac:(lia)); lia).
  f_equal. unfold noise, patch. fold X Y. unfold smooth.
  assert (forall a b, tab (tab (X mod 256) + Y mod 256) = a -> a = b -> tab (tab (X mod 256) + Y mod 256) = b) as _ by congruence.
  assert (tab (tab (X mod 256) + Y mod 256) = corner X Y) as ->.
  { unfold corner. rewrite tab_mod. apply tab_eq. modz. }
  assert (tab ((tab (X mod 256) + Y mod 256 + 1) mod 256) = corner X (Y + 1)) as ->.
  { unfold corner. rewrite !tab_mod. apply tab_eq. rewrite <- Z.add_assoc, Z.add_mod by lia. rewrite (Zplus_mod_idemp_l Y 1).
    rewrite <- Z.add_mod by lia. reflexivity. }
  assert (tab ((X mod 256 + 1) mod 256) = tab (X + 1)) as -> by (rewrite tab_mod; apply tab_eq; modz).
  assert (tab (tab (X + 1) + Y mod 256) = corner (X + 1) Y) as ->.
  { unfold corner. apply tab_eq. modz. }
  assert (tab ((tab (X + 1) + Y mod 256 + 1) mod 256) = corner (X + 1) (Y + 1)) as ->.
  { unfold corner. rewrite !tab_mod. apply tab_eq. rewrite <- Z.add_assoc, Z.add_mod by lia. rewrite (Zplus_mod_idemp_l Y 1).
    rewrite <- Z.add_mod by lia. reflexivity. }
  reflexivity.
Qed.

(** ** Gradients *)
Definition gx (h : Z) : Q := grad2D h 1 0.
Definition gy (h : Z) : Q := grad2D h 0 1.
Lemma grad_linear h x y : grad2D h x y == gx h * x + gy h * y.
Proof.
  unfold gx, gy, grad2D, signs. cbv zeta.
  repeat match goal with |- context [if ?b then _ else _] => destruct b end; ring.
Qed.
Lemma land15 h : (0 <= Z.land h 15 < 16)%Z.
Proof. change 15%Z with (Z.ones 4). rewrite Z.land_ones by lia. apply Z.mod_pos_bound. lia. Qed.
Lemma grad_unit h : -(1) <= gx h <= 1 /\ -(1) <= gy h <= 1.
Proof.
  unfold gx, gy, grad2D. cbv zeta. pose proof (land15 h) as L. set (k := Z.land h 15) in *. clearbody k.
  assert (exists n, (n < 16)%nat /\ k = Z.of_nat n) as (n & Hn & ->) by (exists (Z.to_nat k); lia). clear L.
  do 16 (destruct n as [|n]; [repeat split; vm_compute; discriminate|]). lia.
Qed.
Lemma abs_le a b : -(b) <= a -> a <= b -> Qabs.Qabs a <= b.
Proof. intros. apply Qabs.Qabs_Qle_condition. lra. Qed.
Lemma mul_unit g x : -(1) <= g <= 1 -> Qabs.Qabs (g * x) <= Qabs.Qabs x.
Proof.
  intros [A B]. rewrite Qabs.Qabs_Qmult. assert (Qabs.Qabs g <= 1) by (apply abs_le; lra).
  pose proof (Qabs.Qabs_nonneg x). nra.
Qed.
Lemma grad_bound h x y : Qabs.Qabs (grad2D h x y) <= Qabs.Qabs x + Qabs.Qabs y.
Proof.
  rewrite grad_linear. pose proof (grad_unit h) as [GX GY].
  eapply Qle_trans; [apply Qabs.Qabs_triangle|]. pose proof (mul_unit _ x GX). pose proof (mul_unit _ y GY). lra.
Qed.

(** ** The weights *)
Definition unit (x : Q) : Prop := 0 <= x /\ x <= 1.
Lemma fade_mirror t : fade (1 - t) == 1 - fade t.
Proof. unfold fade. ring. Qed.
Lemma fade_pos t : 0 <= t -> 0 <= fade t.
Proof.
  intros H. unfold fade. repeat apply Qmult_le_0_compat; try exact H.
  setoid_replace (t * (t * 6 - 15) + 10) with (6 * ((t - (5 # 4)) * (t - (5 # 4))) + (5 # 8)) by ring.
  assert (0 <= (t - (5 # 4)) * (t - (5 # 4))) by (set (a := t - (5 # 4)); clearbody a; destruct (Qlt_le_dec a 0); nra). lra.
Qed.
#[local] Instance fade_proper : Proper (Qeq ==> Qeq) fade.
Proof. intros a b E. unfold fade. now rewrite E. Qed.
Lemma fade_unit t : unit t -> unit (fade t).
Proof.
  intros [A B]. split; [now apply fade_pos|]. pose proof (fade_pos (1 - t) ltac:(lra)) as H. rewrite fade_mirror in H. lra.
Qed.
Lemma unit_mul a b : unit a -> unit b -> unit (a * b).
Proof. intros [A B] [C D]. split; nra. Qed.
Lemma fade_step t s : unit t -> unit s -> Qabs.Qabs (fade t - fade s) <= 60 * Qabs.Qabs (t - s).
Proof.
  intros T S.
  set (t2 := t * t). set (ts := t * s). set (s2 := s * s).
  assert (unit t2) as T2 by now apply unit_mul. assert (unit ts) as TS by now apply unit_mul. assert (unit s2) as S2 by now apply unit_mul.
  pose proof (unit_mul _ _ T2 T) as H1. pose proof (unit_mul _ _ T2 S) as H2. pose proof (unit_mul _ _ S2 T) as H3. pose proof (unit_mul _ _ S2 S) as H4.
  pose proof (unit_mul _ _ T2 T2) as H5. pose proof (unit_mul _ _ T2 TS) as H6. pose proof (unit_mul _ _ T2 S2) as H7.
  pose proof (unit_mul _ _ TS S2) as H8. pose proof (unit_mul _ _ S2 S2) as H9.
  set (P := 10 * (t2 + ts + s2) - 15 * (t2 * t + t2 * s + s2 * t + s2 * s) + 6 * (t2 * t2 + t2 * ts + t2 * s2 + ts * s2 + s2 * s2)).
  assert (fade t - fade s == (t - s) * P) as -> by (unfold fade, P, t2, ts, s2; ring).
  rewrite Qabs.Qabs_Qmult. assert (Qabs.Qabs P <= 60).
  { unfold unit in *. apply abs_le; unfold P; lra. }
  pose proof (Qabs.Qabs_nonneg (t - s)). nra.
Qed.
(** The weighted distance to the two ends. *)
Lemma half t : unit t -> (1 - fade t) * t + fade t * (1 - t) <= 1 # 2.
Proof.
  intros [A B]. set (s := t - (1 # 2)).
  assert ((1 # 2) - ((1 - fade t) * t + fade t * (1 - t)) == 2 * (s * s) * ((15 # 8) - 5 * (s * s) + 6 * (s * s) * (s * s))) as E
    by (unfold fade, s; ring).
  assert (0 <= s * s <= 1 # 4) as [S0 S1] by (unfold s; split; [destruct (Qlt_le_dec t (1 # 2))|]; nra).
  clearbody s.
  assert (0 <= 2 * (s * s) * ((15 # 8) - 5 * (s * s) + 6 * (s * s) * (s * s))).
  { set (q := s * s) in *. clearbody q. apply Qmult_le_0_compat; [lra|]. nra. }
  lra.
Qed.

#[local] Instance grad_proper h : Proper (Qeq ==> Qeq ==> Qeq) (grad2D h).
Proof. intros a b E c d F. rewrite !grad_linear. now rewrite E, F. Qed.
#[local] Instance lerp_proper : Proper (Qeq ==> Qeq ==> Qeq ==> Qeq) lerp.
Proof. intros a b E c d F e f G. unfold lerp. now rewrite E, F, G. Qed.
#[local] Instance smooth_proper a b c d : Proper (Qeq ==> Qeq ==> Qeq) (smooth a b c d).
Proof. intros x x' E y y' F. unfold smooth. now rewrite E, F. Qed.

Lemma abs_unit x : unit x -> Qabs.Qabs x == x /\ Qabs.Qabs (x - 1) == 1 - x.
Proof. intros [A B]. split; [apply Qabs.Qabs_pos; lra|]. rewrite Qabs.Qabs_neg by lra. ring. Qed.
Lemma abs_cond a b : Qabs.Qabs a <= b -> -(b) <= a /\ a <= b.
Proof. intros H. now apply Qabs.Qabs_Qle_condition in H. Qed.
Lemma lerp_between u a b p q : unit u -> Qabs.Qabs a <= p -> Qabs.Qabs b <= q -> Qabs.Qabs (lerp u a b) <= (1 - u) * p + u * q.
Proof.
  intros [U0 U1] A B. apply abs_cond in A. apply abs_cond in B. unfold lerp. apply abs_le; nra.
Qed.
Lemma smooth_bound a b c d x y : unit x -> unit y -> Qabs.Qabs (smooth a b c d x y) <= 1.
Proof.
  intros X Y. pose proof (abs_unit x X) as [X0 X1]. pose proof (abs_unit y Y) as [Y0 Y1].
  pose proof (fade_unit x X) as U. pose proof (fade_unit y Y) as V.
  pose proof (grad_bound a x y) as A. pose proof (grad_bound b (x - 1) y) as B. pose proof (grad_bound c x (y - 1)) as C.
  pose proof (grad_bound d (x - 1) (y - 1)) as D.
  pose proof (lerp_between _ _ _ _ _ V (lerp_between _ _ _ _ _ U A B) (lerp_between _ _ _ _ _ U C D)) as H.
  unfold smooth. eapply Qle_trans; [exact H|]. pose proof (half x X) as HX. pose proof (half y Y) as HY.
  set (u := fade x) in *. set (v := fade y) in *. rewrite X0, X1, Y0, Y1.
  assert ((1 - v) * ((1 - u) * (x + y) + u * (1 - x + y)) + v * ((1 - u) * (x + (1 - y)) + u * (1 - x + (1 - y))) ==
          ((1 - u) * x + u * (1 - x)) + ((1 - v) * y + v * (1 - y))) as -> by ring. lra.
Qed.
Lemma frac_unit x : unit (frac x).
Proof.
  unfold frac, unit. pose proof (Qfloor_le x). pose proof (Qlt_floor x). rewrite inject_Z_plus in H0. change (inject_Z 1) with 1 in H0. lra.
Qed.
Lemma noise_bound x y : Qabs.Qabs (noise x y) <= 1.
Proof. apply smooth_bound; apply frac_unit. Qed.

(** ** Zero at the points of the lattice; periodic *)
Lemma frac_int X : frac (inject_Z X) == 0.
Proof. unfold frac. rewrite Qfloor_Z. ring. Qed.
Lemma noise_lattice X Y : noise (inject_Z X) (inject_Z Y) == 0.
Proof.
  unfold noise, patch. rewrite !frac_int. unfold smooth, lerp. change (fade 0) with 0. rewrite !grad_linear. ring.
Qed.
#[local] Instance frac_proper : Proper (Qeq ==> Qeq) frac.
Proof. intros a b E. unfold frac. rewrite (Qfloor_comp _ _ E). now rewrite E. Qed.
#[local] Instance noise_proper : Proper (Qeq ==> Qeq ==> Qeq) noise.
Proof.
  intros a b E c d F. unfold noise, patch. rewrite (Qfloor_comp _ _ E), (Qfloor_comp _ _ F). now rewrite E, F.
Qed.
Lemma floor_shift x k : Qfloor (x + inject_Z k) = (Qfloor x + k)%Z.
Proof.
  pose proof (Qfloor_le x) as A. pose proof (Qlt_floor x) as B. pose proof (Qfloor_le (x + inject_Z k)) as C. pose proof (Qlt_floor (x + inject_Z k)) as D.
  rewrite inject_Z_plus in B, D. change (inject_Z 1) with 1 in *.
  assert (inject_Z (Qfloor (x + inject_Z k)) < inject_Z (Qfloor x + k + 1)) as L1 by (rewrite !inject_Z_plus; change (inject_Z 1) with 1; lra).
  assert (inject_Z (Qfloor x + k) < inject_Z (Qfloor (x + inject_Z k) + 1)) as L2 by (rewrite !inject_Z_plus; change (inject_Z 1) with 1; lra).
  rewrite <- Zlt_Qlt in L1, L2. lia.
Qed.
Lemma frac_shift x k : frac (x + inject_Z k) == frac x.
Proof. unfold frac. rewrite floor_shift, inject_Z_plus. ring. Qed.
Lemma noise_periodic x y k l : noise (x + inject_Z (k * 256)) (y + inject_Z (l * 256)) == noise x y.
Proof.
  unfold noise, patch. rewrite !floor_shift, !frac_shift.
  rewrite (corner_mod (Qfloor x + k * 256) (Qfloor y + l * 256) (Qfloor x) (Qfloor y)) by now rewrite Z.mod_add.
  rewrite (corner_mod (Qfloor x + k * 256 + 1) (Qfloor y + l * 256) (Qfloor x + 1) (Qfloor y))
    by (rewrite ?Z.mod_add by lia; try reflexivity; replace (Qfloor x + k * 256 + 1)%Z with (Qfloor x + 1 + k * 256)%Z by lia; now rewrite Z.mod_add).
  rewrite (corner_mod (Qfloor x + k * 256) (Qfloor y + l * 256 + 1) (Qfloor x) (Qfloor y + 1))
    by (rewrite ?Z.mod_add by lia; try reflexivity; replace (Qfloor y + l * 256 + 1)%Z with (Qfloor y + 1 + l * 256)%Z by lia; now rewrite Z.mod_add).
  rewrite (corner_mod (Qfloor x + k * 256 + 1) (Qfloor y + l * 256 + 1) (Qfloor x + 1) (Qfloor y + 1))
    by (replace (Qfloor y + l * 256 + 1)%Z with (Qfloor y + 1 + l * 256)%Z by lia;
        replace (Qfloor x + k * 256 + 1)%Z with (Qfloor x + 1 + k * 256)%Z by lia; now rewrite Z.mod_add).
  reflexivity.
Qed.

(** ** Continuity *)
Lemma small g y : -(1) <= g <= 1 -> unit y -> -(1) <= g * y <= 1 /\ -(1) <= g * (y - 1) <= 1.
Proof. intros G [A B]. split; split; nra. Qed.
Lemma row_step a0 b0 a1 b1 t s : -(1) <= a0 <= 1 -> -(1) <= a1 <= 1 -> -(1) <= b0 <= 1 -> -(1) <= b1 <= 1 -> unit t -> unit s ->
  Qabs.Qabs (lerp (fade t) (a0 * t + b0) (a1 * (t - 1) + b1) - lerp (fade s) (a0 * s + b0) (a1 * (s - 1) + b1)) <= 241 * Qabs.Qabs (t - s).
Proof.
  intros A0 A1 B0 B1 T S. pose proof (fade_step t s T S) as F. pose proof (fade_unit t T) as [U0 U1].
  set (u := fade t) in *. set (w := fade s) in *.
  assert (lerp u (a0 * t + b0) (a1 * (t - 1) + b1) - lerp w (a0 * s + b0) (a1 * (s - 1) + b1) ==
    ((1 - u) * a0 + u * a1) * (t - s) + (u - w) * (a1 * (s - 1) + b1 - a0 * s - b0)) as -> by (unfold lerp; ring).
  eapply Qle_trans; [apply Qabs.Qabs_triangle|]. rewrite !Qabs.Qabs_Qmult.
  assert (Qabs.Qabs ((1 - u) * a0 + u * a1) <= 1) as H1 by (apply abs_le; nra).
  assert (Qabs.Qabs (a1 * (s - 1) + b1 - a0 * s - b0) <= 4) as H2.
  { destruct (small a1 s A1 S) as [_ K1], (small a0 s A0 S) as [K2 _]. apply abs_le; lra. }
  pose proof (Qabs.Qabs_nonneg (t - s)) as N1. pose proof (Qabs.Qabs_nonneg (u - w)) as N2.
  pose proof (Qabs.Qabs_nonneg (a1 * (s - 1) + b1 - a0 * s - b0)) as N3.
  set (q := Qabs.Qabs (t - s)) in *. set (r := Qabs.Qabs (u - w)) in *. set (e := Qabs.Qabs (a1 * (s - 1) + b1 - a0 * s - b0)) in *.
  set (o := Qabs.Qabs ((1 - u) * a0 + u * a1)) in *. clearbody q r e o.
  assert (o * q <= 1 * q) by now apply Qmult_le_compat_r. assert (r * e <= r * 4) by (rewrite !(Qmult_comm r); now apply Qmult_le_compat_r). lra.
Qed.
Lemma lerp_step v p q p' q' M : unit v -> Qabs.Qabs (p - p') <= M -> Qabs.Qabs (q - q') <= M -> Qabs.Qabs (lerp v p q - lerp v p' q') <= M.
Proof.
  intros V P R. assert (lerp v p q - lerp v p' q' == lerp v (p - p') (q - q')) as -> by (unfold lerp; ring).
  eapply Qle_trans; [apply (lerp_between _ _ _ _ _ V P R)|]. lra.
Qed.
Lemma smooth_step_x a b c d x x' y : unit x -> unit x' -> unit y ->
  Qabs.Qabs (smooth a b c d x y - smooth a b c d x' y) <= 241 * Qabs.Qabs (x - x').
Proof.
  intros X X' Y. unfold smooth. pose proof (fade_unit y Y) as V. rewrite !grad_linear.
  destruct (grad_unit a) as [AX AY], (grad_unit b) as [BX BY], (grad_unit c) as [CX CY], (grad_unit d) as [DX DY].
  pose proof (small _ y AY Y) as [? ?]. pose proof (small _ y BY Y) as [? ?]. pose proof (small _ y CY Y) as [? ?]. pose proof (small _ y DY Y) as [? ?].
  apply lerp_step; [exact V| |]; apply row_step; auto.
Qed.
Lemma smooth_swap a b c d x y : smooth a b c d x y ==
  lerp (fade x) (lerp (fade y) (gy a * y + gx a * x) (gy c * (y - 1) + gx c * x))
                (lerp (fade y) (gy b * y + gx b * (x - 1)) (gy d * (y - 1) + gx d * (x - 1))).
Proof. unfold smooth. rewrite !grad_linear. unfold lerp. ring. Qed.
Lemma smooth_step_y a b c d x y y' : unit x -> unit y -> unit y' ->
  Qabs.Qabs (smooth a b c d x y - smooth a b c d x y') <= 241 * Qabs.Qabs (y - y').
Proof.
  intros X Y Y'. rewrite !smooth_swap. pose proof (fade_unit x X) as U.
  destruct (grad_unit a) as [AX AY], (grad_unit b) as [BX BY], (grad_unit c) as [CX CY], (grad_unit d) as [DX DY].
  pose proof (small _ x AX X) as [? ?]. pose proof (small _ x BX X) as [? ?]. pose proof (small _ x CX X) as [? ?]. pose proof (small _ x DX X) as [? ?].
  apply lerp_step; [exact U| |]; apply row_step; auto.
Qed.

(** Neighbouring cells agree on the edge between them. *)
Lemma edge_x X Y y : patch X Y 1 y == patch (X + 1) Y 0 y.
Proof.
  unfold patch, smooth. rewrite !grad_linear. assert (fade 1 == 1) as -> by reflexivity. assert (fade 0 == 0) as -> by reflexivity.
  unfold lerp. ring.
Qed.
Lemma edge_y X Y x : patch X Y x 1 == patch X (Y + 1) x 0.
Proof.
  unfold patch, smooth. rewrite !grad_linear. assert (fade 1 == 1) as -> by reflexivity. assert (fade 0 == 0) as -> by reflexivity.
  unfold lerp. ring.
Qed.
#[local] Instance patch_proper X Y : Proper (Qeq ==> Qeq ==> Qeq) (patch X Y).
Proof. intros x x' E y y' F. unfold patch. now rewrite E, F. Qed.
Lemma floor_in X x : inject_Z X <= x -> x < inject_Z X + 1 -> Qfloor x = X.
Proof.
  intros A B. pose proof (Qfloor_le x) as C. pose proof (Qlt_floor x) as D. rewrite inject_Z_plus in D. change (inject_Z 1) with 1 in D.
  assert (inject_Z (Qfloor x) < inject_Z (X + 1)) as L1 by (rewrite inject_Z_plus; change (inject_Z 1) with 1; lra).
  assert (inject_Z X < inject_Z (Qfloor x + 1)) as L2 by (rewrite inject_Z_plus; change (inject_Z 1) with 1; lra).
  rewrite <- Zlt_Qlt in L1, L2. lia.
Qed.
Lemma noise_x X x y : inject_Z X <= x -> x <= inject_Z X + 1 -> noise x y == patch X (Qfloor y) (x - inject_Z X) (frac y).
Proof.
  intros A B. destruct (Qlt_le_dec x (inject_Z X + 1)) as [L|L].
  - unfold noise, frac. rewrite (floor_in X x A L). reflexivity.
  - assert (x == inject_Z (X + 1)) as E by (rewrite inject_Z_plus; change (inject_Z 1) with 1; lra).
    transitivity (noise (inject_Z (X + 1)) y); [apply noise_proper; [exact E|reflexivity]|]. transitivity (patch (X + 1) (Qfloor y) 0 (frac y)).
    { unfold noise. rewrite Qfloor_Z. apply patch_proper; [apply frac_int|reflexivity]. }
    transitivity (patch X (Qfloor y) 1 (frac y)); [symmetry; apply edge_x|]. symmetry. apply patch_proper; [rewrite E, inject_Z_plus; ring|reflexivity].
Qed.
Lemma noise_y Y x y : inject_Z Y <= y -> y <= inject_Z Y + 1 -> noise x y == patch (Qfloor x) Y (frac x) (y - inject_Z Y).
Proof.
  intros A B. destruct (Qlt_le_dec y (inject_Z Y + 1)) as [L|L].
  - unfold noise, frac. rewrite (floor_in Y y A L). reflexivity.
  - assert (y == inject_Z (Y + 1)) as E by (rewrite inject_Z_plus; change (inject_Z 1) with 1; lra).
    transitivity (noise x (inject_Z (Y + 1))); [apply noise_proper; [reflexivity|exact E]|]. transitivity (patch (Qfloor x) (Y + 1) (frac x) 0).
    { unfold noise. rewrite Qfloor_Z. apply patch_proper; [reflexivity|apply frac_int]. }
    transitivity (patch (Qfloor x) Y (frac x) 1); [symmetry; apply edge_y|]. symmetry. apply patch_proper; [reflexivity|rewrite E, inject_Z_plus; ring].
Qed.
Section Chain.
Variables (f : Q -> Q) (K : Q).
Hypothesis near : forall m x x', inject_Z m <= x -> x <= inject_Z m + 1 -> inject_Z m <= x' -> x' <= inject_Z m + 1 ->
  Qabs.Qabs (f x - f x') <= K * Qabs.Qabs (x - x').
Lemma chain n : forall x x', x <= x' -> x' <= inject_Z (Qfloor x + 1 + Z.of_nat n) -> Qabs.Qabs (f x - f x') <= K * (x' - x).
Proof.
  induction n as [|n IH]; intros x x' L U.
  - pose proof (Qfloor_le x) as A. assert (inject_Z (Qfloor x + 1 + Z.of_nat 0) == inject_Z (Qfloor x) + 1) as E by (rewrite !inject_Z_plus; ring).
    rewrite E in U. pose proof (near (Qfloor x) x x' A ltac:(lra) ltac:(lra) U) as N.
    rewrite (Qabs.Qabs_neg (x - x')) in N by lra. setoid_replace (K * (x' - x)) with (K * - (x - x')) by ring. exact N.
  - set (m := (Qfloor x + 1)%Z) in *. pose proof (Qfloor_le x) as A. pose proof (Qlt_floor x) as B. fold m in B.
    assert (inject_Z m == inject_Z (Qfloor x) + 1) as E by (unfold m; rewrite inject_Z_plus; ring).
    destruct (Qlt_le_dec x' (inject_Z m)) as [L'|L'].
    + pose proof (near (Qfloor x) x x' A ltac:(lra) ltac:(lra) ltac:(lra)) as N.
      rewrite (Qabs.Qabs_neg (x - x')) in N by lra. setoid_replace (K * (x' - x)) with (K * - (x - x')) by ring. exact N.
    + pose proof (near (Qfloor x) x (inject_Z m) A ltac:(lra) ltac:(lra) ltac:(lra)) as N. rewrite (Qabs.Qabs_neg (x - inject_Z m)) in N by lra.
      specialize (IH (inject_Z m) x' L'). rewrite Qfloor_Z in IH.
      assert (x' <= inject_Z (m + 1 + Z.of_nat n)) as U' by (replace (m + 1 + Z.of_nat n)%Z with (m + Z.of_nat (S n))%Z by lia; exact U).
      specialize (IH U'). setoid_replace (f x - f x') with ((f x - f (inject_Z m)) + (f (inject_Z m) - f x')) by ring.
      eapply Qle_trans; [apply Qabs.Qabs_triangle|]. setoid_replace (K * (x' - x)) with (K * - (x - inject_Z m) + K * (x' - inject_Z m)) by ring. lra.
Qed.
Lemma lipschitz x x' : Qabs.Qabs (f x - f x') <= K * Qabs.Qabs (x - x').
Proof.
  assert (forall a b, a <= b -> Qabs.Qabs (f a - f b) <= K * (b - a)) as H.
  { intros a b L. apply (chain (Z.to_nat (Qfloor b - Qfloor a + 1))); [exact L|].
    pose proof (Qlt_floor b) as B. eapply Qle_trans; [apply Qlt_le_weak, B|]. rewrite <- Zle_Qle. lia. }
  destruct (Qlt_le_dec x x') as [L|L].
  - rewrite (Qabs.Qabs_neg (x - x')) by lra. setoid_replace (K * - (x - x')) with (K * (x' - x)) by ring. apply H. lra.
  - rewrite Qabs.Qabs_Qminus, (Qabs.Qabs_pos (x - x')) by lra. now apply H.
Qed.
End Chain.
Lemma noise_step x y x' y' : Qabs.Qabs (noise x y - noise x' y') <= 241 * (Qabs.Qabs (x - x') + Qabs.Qabs (y - y')).
Proof.
  assert (Qabs.Qabs (noise x y - noise x' y) <= 241 * Qabs.Qabs (x - x')) as HX.
  { apply (lipschitz (fun x => noise x y) 241). intros m a b A0 A1 B0 B1. rewrite (noise_x m a y), (noise_x m b y) by assumption.
    setoid_replace (a - b) with ((a - inject_Z m) - (b - inject_Z m)) by ring.
    apply smooth_step_x; [split; lra|split; lra|apply frac_unit]. }
  assert (Qabs.Qabs (noise x' y - noise x' y') <= 241 * Qabs.Qabs (y - y')) as HY.
  { apply (lipschitz (fun y => noise x' y) 241). intros m a b A0 A1 B0 B1. rewrite (noise_y m x' a), (noise_y m x' b) by assumption.
    setoid_replace (a - b) with ((a - inject_Z m) - (b - inject_Z m)) by ring.
    apply smooth_step_y; [apply frac_unit|split; lra|split; lra]. }
  setoid_replace (noise x y - noise x' y') with ((noise x y - noise x' y) + (noise x' y - noise x' y')) by ring.
  eapply Qle_trans; [apply Qabs.Qabs_triangle|]. lra.
Qed.

(** ** Several octaves *)
Definition fine (pn : list Q -> outcome Q) (arity : nat) (B : Q) : Prop :=
  forall l, List.length l = arity -> exists v, pn l = Ok v /\ Qabs.Qabs v <= B.
Lemma sum_nonzero s : 0 < s -> Qeq_bool s 0 = false.
Proof. intros H. apply not_true_iff_false. intros E. apply Qeq_bool_iff in E. lra. Qed.
Lemma div_bound n s B : 0 < s -> Qabs.Qabs n <= B * s -> Qabs.Qabs (n / s) <= B.
Proof.
  intros S N. apply abs_cond in N. apply abs_le.
  - apply Qle_shift_div_l; [exact S|]. lra.
  - apply Qle_shift_div_r; [exact S|]. lra.
Qed.
Lemma octaves_fine pn arity B r : fine pn arity B -> 0 <= r -> forall k l f n s, List.length l = arity -> 0 <= f -> 0 <= s ->
  0 < (match k with O => 0 | S _ => f end) + s -> Qabs.Qabs n <= B * s ->
  exists v, octaves pn k l f n s r = Ok v /\ Qabs.Qabs v <= B.
Proof.
  intros F R. induction k as [|k IH]; intros l f n s L F0 S0 P N; cbn [octaves].
  - rewrite sum_nonzero by lra. eexists. split; [reflexivity|]. apply div_bound; lra.
  - destruct (F l L) as (v & -> & V). cbn [obind]. apply IH.
    + now rewrite map_length.
    + now apply Qmult_le_0_compat.
    + lra.
    + assert (0 <= f * r) by now apply Qmult_le_0_compat. destruct k; lra.
    + eapply Qle_trans; [apply Qabs.Qabs_triangle|]. rewrite Qabs.Qabs_Qmult, (Qabs.Qabs_pos f) by lra.
      assert (f * Qabs.Qabs v <= f * B) by (rewrite !(Qmult_comm f); now apply Qmult_le_compat_r). lra.
Qed.
Definition pair_noise (l : list Q) : outcome Q := match l with [x; y] => pnoise2D x y | _ => Ub end.
Lemma pair_fine : fine pair_noise 2 1.
Proof.
  intros [|x [|y [|z l]]] L; try discriminate L. exists (noise x y). split; [apply pnoise2D_noise|apply noise_bound].
Qed.
Lemma noise2D_fine x y depth r : 0 <= r -> exists v, noise2D x y depth r = Ok v /\ Qabs.Qabs v <= 1.
Proof.
  intros R. apply (octaves_fine pair_noise 2 1 r pair_fine R); try reflexivity; try (cbn; lra). all: vm_compute; discriminate.
Qed.

(** The same at two places. *)
Lemma two_pow k : 1 <= inject_Z (2 ^ Z.of_nat k) /\ inject_Z (2 ^ Z.of_nat (S k)) == 2 * inject_Z (2 ^ Z.of_nat k).
Proof.
  split.
  - change 1 with (inject_Z 1). rewrite <- Zle_Qle. pose proof (Z.pow_pos_nonneg 2 (Z.of_nat k)). lia.
  - rewrite Nat2Z.inj_succ, Z.pow_succ_r by lia. now rewrite inject_Z_mult.
Qed.
Lemma octaves_step r M : 0 <= r -> forall k x y x' y' f n n' s v v',
  0 <= f -> 0 <= s -> 0 < (match k with O => 0 | S _ => f end) + s -> Qabs.Qabs (n - n') <= M * s ->
  241 * inject_Z (2 ^ Z.of_nat k) * (Qabs.Qabs (x - x') + Qabs.Qabs (y - y')) <= M ->
  octaves pair_noise k [x; y] f n s r = Ok v -> octaves pair_noise k [x'; y'] f n' s r = Ok v' -> Qabs.Qabs (v - v') <= M.
Proof.
  intros R. induction k as [|k IH]; intros x y x' y' f n n' s v v' F0 S0 P N D H H'; cbn [octaves] in H, H'.
  - rewrite sum_nonzero in H, H' by lra. injection H as <-. injection H' as <-.
    setoid_replace (n / s - n' / s) with ((n - n') / s) by (field; lra). apply div_bound; lra.
  - cbn [pair_noise] in H, H'. rewrite pnoise2D_noise in H, H'. cbn [obind map] in H, H'.
    destruct (two_pow k) as [P1 P2]. rewrite P2 in D. set (e := Qabs.Qabs (x - x') + Qabs.Qabs (y - y')) in *.
    assert (0 <= e) as E0 by (unfold e; pose proof (Qabs.Qabs_nonneg (x - x')); pose proof (Qabs.Qabs_nonneg (y - y')); lra).
    refine (IH _ _ _ _ _ _ _ _ _ _ _ _ _ _ _ H H').
    + now apply Qmult_le_0_compat.
    + lra.
    + assert (0 <= f * r) by now apply Qmult_le_0_compat. destruct k; lra.
    + setoid_replace (n + f * noise x y - (n' + f * noise x' y')) with ((n - n') + f * (noise x y - noise x' y')) by ring.
      eapply Qle_trans; [apply Qabs.Qabs_triangle|]. rewrite Qabs.Qabs_Qmult, (Qabs.Qabs_pos f) by lra.
      pose proof (noise_step x y x' y') as T. fold e in T.
      assert (241 * e <= M).
      { eapply Qle_trans; [|exact D]. apply Qmult_le_compat_r; [|exact E0]. set (q := inject_Z (2 ^ Z.of_nat k)) in *. lra. }
      assert (f * Qabs.Qabs (noise x y - noise x' y') <= f * M) by (rewrite !(Qmult_comm f); apply Qmult_le_compat_r; [lra|exact F0]).
      lra.
    + setoid_replace (x * 2 - x' * 2) with (2 * (x - x')) by ring. setoid_replace (y * 2 - y' * 2) with (2 * (y - y')) by ring.
      rewrite !Qabs.Qabs_Qmult. change (Qabs.Qabs 2) with 2.
      setoid_replace (2 * Qabs.Qabs (x - x') + 2 * Qabs.Qabs (y - y')) with (2 * e) by (unfold e; ring).
      setoid_replace (241 * inject_Z (2 ^ Z.of_nat k) * (2 * e)) with (241 * (2 * inject_Z (2 ^ Z.of_nat k)) * e) by ring. exact D.
Qed.
Lemma noise2D_step depth r : 0 <= r -> exists K, 0 < K /\ forall x y x' y' v v',
  noise2D x y depth r = Ok v -> noise2D x' y' depth r = Ok v' ->
  Qabs.Qabs (v - v') <= K * (Qabs.Qabs (x - x') + Qabs.Qabs (y - y')).
Proof.
  intros R. exists (241 * inject_Z (2 ^ Z.of_nat (S depth))). split; [destruct (two_pow (S depth)); lra|]. intros x y x' y' v v' H H'.
  refine (octaves_step r _ R (S depth) x y x' y' 1 0 0 0 v v' _ _ _ _ _ H H'); try lra.
  setoid_replace (0 - 0) with 0 by ring. change (Qabs.Qabs 0) with 0. lra.
Qed.

Lemma pnoise2D_step x y x' y' v v' : pnoise2D x y = Ok v -> pnoise2D x' y' = Ok v' ->
  Qabs.Qabs (v - v') <= 241 * (Qabs.Qabs (x - x') + Qabs.Qabs (y - y')).
Proof. rewrite !pnoise2D_noise. intros H H'. injection H as <-. injection H' as <-. apply noise_step. Qed.
Lemma pnoise2D_lattice X Y v : pnoise2D (inject_Z X) (inject_Z Y) = Ok v -> v == 0.
Proof. rewrite pnoise2D_noise. intros H. injection H as <-. apply noise_lattice. Qed.
Lemma pnoise2D_periodic x y k l v v' :
  pnoise2D x y = Ok v -> pnoise2D (x + inject_Z (k * 256)) (y + inject_Z (l * 256)) = Ok v' -> v' == v.
Proof. rewrite !pnoise2D_noise. intros H H'. injection H as <-. injection H' as <-. apply noise_periodic. Qed.

(** One dimension: always an exception. *)
Lemma pnoise1D_ok x y : exists v, pnoise1D [x; y] = Ok v.
Proof.
  unfold pnoise1D, cell. rewrite !land255. pose proof (Z.mod_pos_bound (Qfloor x) 256 ltac:(lia)).
  pose proof (Z.mod_pos_bound (Qfloor x mod 256 + 1) 256 ltac:(lia)).
  rewrite get_tab by lia. cbv [obind]. rewrite get_tab by lia. eexists. reflexivity.
Qed.
Lemma noise1D_fails x depth r : noise1D x depth r = Ub.
Proof. reflexivity. Qed.
