(** * The reported range in double arithmetic: proofs *)
From Coq Require Import ZArith Reals Bool List Lia Lra Psatz.
From Flocq Require Import Core.Core IEEE754.BinarySingleNaN Relative Plus_error.
From Verif Require Import Base CoordModel CoordExact CoordFloat CoordFloat2 CoordFloat3 CoordFacts.
Import ListNotations.
Local Open Scope R_scope.

Lemma float_pos : forall (off s p : f64) n N,
  is_finite off = true -> is_finite s = true -> is_finite p = true ->
  bpow radix2 (-900) <= Rabs (B2R s) <= bpow radix2 900 ->
  (1 <= n <= two53)%Z ->
  1 <= N <= 9007199254740992 -> Rabs ((B2R p - B2R off) / B2R s) <= N ->
  exists u, Rabs (u - ((B2R p - B2R off) / B2R s + 1 / 2)) <= 5 * ulp1 * N /\
    pos2index_dim ieee off (inv_scaling ieee s) n p
    = Ok (clampZ (Zfloor u) n, ((Zfloor u <? 0)%Z || (n <=? Zfloor u)%Z)%bool).
Proof.
  intros off s p n N Fo Fs Fp Hs Hn HN Hvn.
  set (v := (B2R p - B2R off) / B2R s) in *.
  assert (NZ : B2R s <> 0).
  { intros E. rewrite E, Rabs_R0 in Hs. pose proof (bpow_gt_0 radix2 (-900)). lra. }
  assert (Hu : 0 < ulp1 <= / 1000000) by (rewrite ulp1_val; lra).
  assert (E1 : exists d, Bminus mode_NE p off = d /\ is_finite d = true /\
     exists e1, Rabs e1 <= ulp1 /\ B2R d = (B2R p - B2R off) * (1 + e1)).
  { eexists. split; [reflexivity |].
    assert (Fo' : generic_format radix2 fexp64 (- B2R off)) by apply generic_format_opp, format_B2R.
    destruct (rnd_plus (B2R p) (- B2R off) (format_B2R p) Fo') as (e1 & He & Hr).
    change (B2R p + - B2R off) with (B2R p - B2R off) in Hr.
    pose proof (val_sub p off Fp Fo) as V. rewrite Hr in V.
    assert (L : Rabs ((B2R p - B2R off) * (1 + e1)) < big).
    { replace (B2R p - B2R off) with (v * B2R s) by (unfold v; field; exact NZ).
      apply Rle_lt_trans with (bpow radix2 53 * bpow radix2 900 * bpow radix2 1).
      - apply abs_mul; [apply abs_mul |].
        + apply Rle_trans with (1 := Hvn). change (bpow radix2 53) with 9007199254740992. lra.
        + lra.
        + change (bpow radix2 1) with 2. apply Rle_trans with (1 + ulp1); [| lra].
          apply abs_add; [rewrite Rabs_R1; lra | exact He].
      - unfold big. rewrite <- !bpow_plus. apply bpow_lt. lia. }
    unfold sat in V. rewrite Rlt_bool_true in V by exact L.
    apply val_fin_inv in V. destruct V as [V1 V2]. split; [exact V1 |]. exists e1. auto. }
  assert (E2 : exists si, inv_scaling ieee s = si /\ is_finite si = true /\
     exists e2, Rabs e2 <= ulp1 /\ B2R si = / B2R s * (1 + e2)).
  { eexists. split; [reflexivity |].
    assert (HI : inv_scaling ieee s = Bdiv mode_NE (fnum 1 0) s).
    { destruct s as [sg | sg | | sg m e H]; try discriminate; [now elim NZ |].
      rewrite inv_float by reflexivity. reflexivity. }
    rewrite HI.
    destruct (val_fin_inv _ _ (val_int 1 ltac:(lia))) as [F1 Eo].
    pose proof (val_div (fnum 1 0) s F1 Fs NZ) as V. rewrite Eo in V.
    replace (1 / B2R s) with (/ B2R s) in V by (field; exact NZ).
    assert (Hlo : bpow radix2 (-900) <= Rabs (/ B2R s)).
    { rewrite Rabs_inv. replace (bpow radix2 (-900)) with (/ bpow radix2 900) by (rewrite <- bpow_opp; reflexivity).
      apply Rinv_le_contravar; [now apply Rabs_pos_lt | lra]. }
    assert (Hup : Rabs (/ B2R s) <= bpow radix2 900).
    { rewrite Rabs_inv. replace (bpow radix2 900) with (/ bpow radix2 (-900)) by (rewrite <- bpow_opp; reflexivity).
      apply Rinv_le_contravar; [apply bpow_gt_0 | lra]. }
    destruct (rnd_rel (/ B2R s)) as (e2 & He & Hr).
    { apply Rle_trans with (2 := Hlo). apply bpow_le. lia. }
    rewrite Hr in V.
    assert (L : Rabs (/ B2R s * (1 + e2)) < big).
    { apply Rle_lt_trans with (bpow radix2 900 * bpow radix2 1).
      - apply abs_mul; [exact Hup |].
        change (bpow radix2 1) with 2. apply Rle_trans with (1 + ulp1); [| lra].
        apply abs_add; [rewrite Rabs_R1; lra | exact He].
      - unfold big. rewrite <- !bpow_plus. apply bpow_lt. lia. }
    unfold sat in V. rewrite Rlt_bool_true in V by exact L.
    apply val_fin_inv in V. destruct V as [V1 V2]. split; [exact V1 |]. exists e2. auto. }
  destruct E1 as (d & Ed & Fd & e1 & He1 & Hd).
  destruct E2 as (si & Es & Fsi & e2 & He2 & Hsi). rewrite Es.
  assert (Edsi : B2R d * B2R si = v * (1 + e1) * (1 + e2)).
  { rewrite Hd, Hsi. unfold v. field. exact NZ. }
  destruct (rnd_abs (B2R d * B2R si)) as (e3 & t & He3 & Ht & Hr3).
  pose proof (val_mul d si Fd Fsi) as Vm. rewrite Hr3, Edsi in Vm.
  set (m := v * (1 + e1) * (1 + e2) * (1 + e3) + t) in *.
  assert (Ht' : Rabs t <= ulp1 * ulp1) by (apply Rle_trans with (1 := Ht); apply tiny).
  assert (Hm : Rabs m <= 2 * N).
  { destruct (chain_error v e1 e2 e3 t 0 N) as [_ Q]; auto; [rewrite Rabs_R0; lra | lra]. }
  assert (Lbig : forall x, Rabs x <= 4 * N -> Rabs x < big).
  { intros x Hx. apply Rle_lt_trans with (1 := Hx).
    apply Rle_lt_trans with (bpow radix2 2 * bpow radix2 53).
    - change (bpow radix2 2) with 4. change (bpow radix2 53) with 9007199254740992. lra.
    - unfold big. rewrite <- bpow_plus. apply bpow_lt. lia. }
  unfold sat in Vm. rewrite Rlt_bool_true in Vm by (apply Lbig; lra).
  assert (Fm : generic_format radix2 fexp64 m).
  { apply val_fin_inv in Vm. destruct Vm as [_ Vm]. rewrite <- Vm. apply format_B2R. }
  assert (Fh : generic_format radix2 fexp64 (1 / 2)).
  { destruct (val_fin_inv _ _ val_half) as [_ Eh]. rewrite <- Eh. apply format_B2R. }
  destruct (rnd_plus m (1 / 2) Fm Fh) as (e4 & He4 & Hr4).
  destruct (chain_error v e1 e2 e3 t e4 N) as [Q _]; auto; [lra |]. fold m in Q.
  assert (Lu : Rabs ((m + 1 / 2) * (1 + e4)) < big).
  { apply Lbig. replace ((m + 1 / 2) * (1 + e4)) with
      (((m + 1 / 2) * (1 + e4) - (v + 1 / 2)) + (v + 1 / 2)) by ring.
    apply Rle_trans with (5 * ulp1 * N + (N + 1 / 2)).
    - apply abs_add; [exact Q |]. apply abs_add; [exact Hvn | rewrite Rabs_right; lra].
    - nra. }
  assert (Hc : xfloor (addx (val (prod off si p))) = XFin (IZR (Zfloor ((m + 1 / 2) * (1 + e4))))).
  { unfold prod. rewrite Ed, Vm. cbn [addx]. rewrite Hr4. unfold sat.
    rewrite Rlt_bool_true by exact Lu. reflexivity. }
  assert (Nn : is_nan (prod off si p) = false).
  { apply val_nan. unfold prod. rewrite Ed, Vm. discriminate. }
  rewrite p2i_gen by assumption. rewrite Hc. cbn [xclamp]. rewrite Zfloor_IZR.
  exists ((m + 1 / 2) * (1 + e4)). split; [exact Q|reflexivity].
Qed.

(** ** Rounded operations *)
Lemma fin_sat (x : f64) r : val x = sat r -> Rabs r < big -> is_finite x = true /\ B2R x = r.
Proof. intros V L. unfold sat in V. rewrite Rlt_bool_true in V by exact L. now apply val_fin_inv in V. Qed.

Lemma e_small e : Rabs e <= ulp1 -> Rabs (1 + e) <= 2.
Proof.
  intros H. apply Rle_trans with (1 + ulp1); [apply abs_add; [rewrite Rabs_R1; lra|exact H]|]. rewrite ulp1_val. lra.
Qed.

Lemma lt_big x e : Rabs x <= bpow radix2 1000 -> Rabs e <= ulp1 -> Rabs (x * (1 + e)) < big.
Proof.
  intros H He. apply Rle_lt_trans with (bpow radix2 1000 * bpow radix2 1).
  - apply abs_mul; [exact H|]. now apply e_small.
  - unfold big. rewrite <- bpow_plus. apply bpow_lt. lia.
Qed.

Lemma fl_mul (x y : f64) : is_finite x = true -> is_finite y = true ->
  bpow radix2 (-1000) <= Rabs (B2R x * B2R y) <= bpow radix2 1000 ->
  is_finite (Bmult mode_NE x y) = true /\ exists e, Rabs e <= ulp1 /\ B2R (Bmult mode_NE x y) = B2R x * B2R y * (1 + e).
Proof.
  intros Fx Fy [Hl Hu]. destruct (rnd_rel (B2R x * B2R y)) as (e & He & Hr).
  { apply Rle_trans with (2 := Hl). apply bpow_le. lia. }
  pose proof (val_mul x y Fx Fy) as V. rewrite Hr in V.
  destruct (fin_sat _ _ V) as [V1 V2]; [now apply lt_big|]. split; [exact V1|]. exists e. auto.
Qed.

Lemma fl_add (x y : f64) : is_finite x = true -> is_finite y = true -> Rabs (B2R x + B2R y) <= bpow radix2 1000 ->
  is_finite (Bplus mode_NE x y) = true /\ exists e, Rabs e <= ulp1 /\ B2R (Bplus mode_NE x y) = (B2R x + B2R y) * (1 + e).
Proof.
  intros Fx Fy H. destruct (rnd_plus (B2R x) (B2R y) (format_B2R x) (format_B2R y)) as (e & He & Hr).
  pose proof (val_add x y Fx Fy) as V. rewrite Hr in V.
  destruct (fin_sat _ _ V) as [V1 V2]; [now apply lt_big|]. split; [exact V1|]. exists e. auto.
Qed.

Lemma fl_sub (x y : f64) : is_finite x = true -> is_finite y = true -> Rabs (B2R x - B2R y) <= bpow radix2 1000 ->
  is_finite (Bminus mode_NE x y) = true /\ exists e, Rabs e <= ulp1 /\ B2R (Bminus mode_NE x y) = (B2R x - B2R y) * (1 + e).
Proof.
  intros Fx Fy H. assert (Fo : generic_format radix2 fexp64 (- B2R y)) by apply generic_format_opp, format_B2R.
  destruct (rnd_plus (B2R x) (- B2R y) (format_B2R x) Fo) as (e & He & Hr).
  change (B2R x + - B2R y) with (B2R x - B2R y) in Hr.
  pose proof (val_sub x y Fx Fy) as V. rewrite Hr in V.
  destruct (fin_sat _ _ V) as [V1 V2]; [now apply lt_big|]. split; [exact V1|]. exists e. auto.
Qed.

(** Half a cell minus NUMERIC_PRECISION. *)
Definition f_half : f64 := Bminus mode_NE (fnum 1 (-1)) (fnum 0x1b7cdfd9d7bdbb (-86)).
Lemma f_half_val : is_finite f_half = true /\ 1 / 4 <= B2R f_half <= 1 / 2 - 99 / 1000000000000.
Proof.
  split; [vm_compute; reflexivity|].
  assert (E : exists s m e H, f_half = B754_finite s m e H /\ s = false /\ m = 9007199252939552%positive /\ e = (-54)%Z).
  { assert (B2SF f_half = SpecFloat.S754_finite false 9007199252939552 (-54)) as E by (vm_compute; reflexivity).
    destruct f_half as [| | |s m e H]; cbn in E; try discriminate E. inversion E. subst. eauto 9. }
  destruct E as (s & m & e & H & -> & -> & -> & ->). cbn [B2R]. unfold F2R. cbn [Fnum Fexp cond_Zopp].
  change (bpow radix2 (-54)) with (/ 18014398509481984). split; [|].
  - lra.
  - lra.
Qed.

(** ** The ends of the range *)
(** Errors of the ends, in units of the spacing. *)
Lemma ends_close o n c B e5 e6 e7 e8 e9 :
  Rabs e5 <= ulp1 -> Rabs e6 <= ulp1 -> Rabs e7 <= ulp1 -> Rabs e8 <= ulp1 -> Rabs e9 <= ulp1 ->
  Rabs o <= B -> 2 <= n -> 0 <= c <= 1 / 2 ->
  let X := (n - 1) * (1 + e5) * (1 + e6) + o * e6 in
  let Y := - (c * (1 + e7) * (1 + e8)) + o * e8 in
  let W := (X + c * (1 + e7)) * (1 + e9) + o * e9 in
  Rabs (X - (n - 1)) <= 3 * ulp1 * (B + n) /\ Rabs (Y - - c) <= 3 * ulp1 * (B + n) /\
  Rabs (W - (n - 1 + c)) <= 6 * ulp1 * (B + n).
Proof.
  intros H5 H6 H7 H8 H9 Ho Hn Hc X Y W.
  assert (Hu : 0 < ulp1 <= / 1000000) by (rewrite ulp1_val; lra).
  assert (HB : 0 <= B) by (pose proof (Rabs_pos o); lra).
  assert (Hn1 : Rabs (n - 1) <= n) by (rewrite Rabs_right; lra).
  assert (Hc1 : Rabs c <= 1 / 2) by (rewrite Rabs_right; lra).
  assert (P1 : n * ulp1 * ulp1 <= n * ulp1 * / 1000000) by (apply Rmult_le_compat_l; [nra|lra]).
  assert (P2 : B * ulp1 * ulp1 <= B * ulp1 * / 1000000) by (apply Rmult_le_compat_l; [nra|lra]).
  assert (P3 : 0 <= n * ulp1) by nra. assert (P4 : 0 <= B * ulp1) by nra.
  assert (P5 : ulp1 * ulp1 <= ulp1 * / 1000000) by nra. assert (P6 : 2 * ulp1 <= n * ulp1) by nra.
  assert (KX : Rabs (X - (n - 1)) <= n * (ulp1 + ulp1 + ulp1 * ulp1) + B * ulp1).
  { replace (X - (n - 1)) with ((n - 1) * (e5 + e6 + e5 * e6) + o * e6) by (unfold X; ring).
    repeat (apply abs_add || apply abs_mul); assumption. }
  split; [nra|]. split.
  - replace (Y - - c) with (- (c * (e7 + e8 + e7 * e8)) + o * e8) by (unfold Y; ring).
    apply Rle_trans with (1 / 2 * (ulp1 + ulp1 + ulp1 * ulp1) + B * ulp1); [|nra].
    apply abs_add; [rewrite Rabs_Ropp|]; repeat (apply abs_add || apply abs_mul); assumption.
  - assert (KXa : Rabs X <= n * (ulp1 + ulp1 + ulp1 * ulp1) + B * ulp1 + n).
    { replace X with ((X - (n - 1)) + (n - 1)) by ring. apply abs_add; assumption. }
    unfold W. clear Y W. clearbody X.
    replace ((X + c * (1 + e7)) * (1 + e9) + o * e9 - (n - 1 + c)) with ((X - (n - 1)) + c * e7 + (X + c * (1 + e7)) * e9 + o * e9) by ring.
    apply Rle_trans with ((n * (ulp1 + ulp1 + ulp1 * ulp1) + B * ulp1) + 1 / 2 * ulp1
       + (n * (ulp1 + ulp1 + ulp1 * ulp1) + B * ulp1 + n + 1 / 2 * 2) * ulp1 + B * ulp1).
    + apply abs_add; [apply abs_add; [apply abs_add; [exact KX|apply abs_mul; assumption]|]|apply abs_mul; assumption].
      apply abs_mul; [|exact H9]. apply abs_add; [exact KXa|]. apply abs_mul; [exact Hc1|now apply e_small].
    + assert (n * ulp1 * ulp1 * ulp1 <= n * ulp1 * / 1000000 * / 1000000).
      { apply Rle_trans with (n * ulp1 * / 1000000 * ulp1); [apply Rmult_le_compat_r; lra|apply Rmult_le_compat_l; [nra|lra]]. }
      nra.
Qed.

Lemma between off s p Y W lo hi : s <> 0 ->
  (off + s * Y <= p \/ off + s * W <= p) -> (p <= off + s * Y \/ p <= off + s * W) ->
  lo <= Y <= hi -> lo <= W <= hi -> lo <= (p - off) / s <= hi.
Proof.
  intros Hs A C HY HW. assert (E : p = off + s * ((p - off) / s)) by (field; exact Hs).
  revert E. generalize ((p - off) / s). intros v ->.
  assert (K : forall a b, off + s * a <= off + s * b -> (0 < s -> a <= b) /\ (s < 0 -> b <= a)).
  { intros a b H. split; intros S; nra. }
  destruct (Rtotal_order s 0) as [S|[S|S]]; [|contradiction|];
    destruct A as [A|A], C as [C|C]; apply K in A; apply K in C; destruct A as [A1 A2], C as [C1 C2]; split;
    first [specialize (A1 S); specialize (C1 S); lra | specialize (A2 S); specialize (C2 S); lra].
Qed.

(** Between two finite numbers. *)
Lemma std_between (a b p : f64) : is_finite a = true -> is_finite b = true ->
  Bleb (std_min ieee a b) p = true -> Bleb p (std_max ieee a b) = true ->
  is_finite p = true /\ (B2R a <= B2R p \/ B2R b <= B2R p) /\ (B2R p <= B2R a \/ B2R p <= B2R b).
Proof.
  intros Fa Fb H1 H2. rewrite val_leb in H1, H2.
  assert (E1 : std_min ieee a b = a \/ std_min ieee a b = b) by (unfold std_min; destruct (a_ltb ieee b a); auto).
  assert (E2 : std_max ieee a b = a \/ std_max ieee a b = b) by (unfold std_max; destruct (a_ltb ieee a b); auto).
  assert (Fp : is_finite p = true).
  { destruct p as [| s | |]; try reflexivity; [destruct s|].
    - destruct E1 as [E|E]; rewrite E in H1; [rewrite (val_finite a Fa) in H1|rewrite (val_finite b Fb) in H1]; discriminate H1.
    - destruct E2 as [E|E]; rewrite E in H2; [rewrite (val_finite a Fa) in H2|rewrite (val_finite b Fb) in H2]; discriminate H2.
    - destruct E1 as [E|E]; rewrite E in H1; [rewrite (val_finite a Fa) in H1|rewrite (val_finite b Fb) in H1]; discriminate H1. }
  split; [exact Fp|].
  assert (L : forall x y : f64, is_finite x = true -> is_finite y = true -> xleb (val x) (val y) = true -> B2R x <= B2R y).
  { intros x y Fx Fy. rewrite !val_finite by assumption. cbn [xleb]. destruct (Rle_dec (B2R x) (B2R y)); [auto|discriminate]. }
  split; [destruct E1 as [E|E]; rewrite E in H1 | destruct E2 as [E|E]; rewrite E in H2]; auto.
Qed.

(** ** The statement for one dimension *)
(** At least two cells, spacing far from overflow and underflow; the first coordinate is so many cells away from zero and
    there are so few cells that the coordinates can be told apart. *)
Definition room (vp : value_pos) : R := match vp with CellCentered => 50000 | VertexCentered => bpow radix2 47 end.
Definition roomy (vp : value_pos) (ax : axis ieee) : Prop :=
  let off := get_offset ieee ax in let s := get_scaling ieee ax in
  (2 <= x_size ax)%Z /\ is_finite off = true /\ is_finite s = true /\
  bpow radix2 (-890) <= Rabs (B2R s) <= bpow radix2 890 /\
  Rabs (B2R off) / Rabs (B2R s) + IZR (x_size ax) <= room vp.

Lemma range_double vp ax p : roomy vp ax ->
  let m := open_dim ieee vp ax in
  Bleb (dm_min m) p = true -> Bleb p (dm_max m) = true ->
  is_finite p = true /\ exists i, pos2index_dim ieee (dm_off m) (dm_sinv m) (dm_size m) p = Ok (i, false) /\ (0 <= i < x_size ax)%Z /\
    Rabs (B2R p - (B2R (get_offset ieee ax) + IZR i * B2R (get_scaling ieee ax)))
    <= Rabs (B2R (get_scaling ieee ax)) * (1 / 2 + 10 * bpow radix2 (-53) * IZR (x_size ax)).
Proof.
  intros (Hn & Fo & Fs & Hs & HB) m.
  set (off := get_offset ieee ax) in *. set (s := get_scaling ieee ax) in *. set (n := x_size ax) in *.
  set (o := B2R off / B2R s).
  assert (Hs0 : 0 < Rabs (B2R s)) by (pose proof (bpow_gt_0 radix2 (-890)); lra).
  assert (NZ : B2R s <> 0) by (intros E; rewrite E, Rabs_R0 in Hs0; lra).
  assert (Eo : B2R off = B2R s * o) by (unfold o; field; exact NZ).
  set (B := Rabs (B2R off) / Rabs (B2R s)) in *.
  assert (Ho : Rabs o <= B).
  { unfold o, B, Rdiv. rewrite Rabs_mult, Rabs_inv. lra. }
  assert (HB0 : 0 <= B) by (pose proof (Rabs_pos o); lra).
  assert (Hr : room vp <= bpow radix2 47) by (destruct vp; cbn [room]; [change (bpow radix2 47) with 140737488355328; lra|lra]).
  assert (HN : 2 <= IZR n) by (apply IZR_le; lia).
  assert (Hn53 : (1 <= n <= 2 ^ 53)%Z).
  { split; [lia|]. apply le_IZR. change (IZR (2 ^ 53)) with 9007199254740992.
    change (bpow radix2 47) with 140737488355328 in Hr. lra. }
  assert (E47 : bpow radix2 47 = 140737488355328) by reflexivity.
  assert (Hu : 0 < ulp1 <= / 1000000) by (rewrite ulp1_val; lra).
  (* sizes of all intermediate values *)
  assert (Hsize : forall r, Rabs r <= bpow radix2 50 -> Rabs (B2R s * r) <= bpow radix2 1000).
  { intros r Hr0. apply Rle_trans with (bpow radix2 890 * bpow radix2 50); [apply abs_mul; lra|].
    rewrite <- bpow_plus. apply bpow_le. lia. }
  assert (E50 : bpow radix2 50 = 1125899906842624) by reflexivity.
  destruct (val_fin_inv _ _ (val_int (n - 1) ltac:(lia))) as [Fn En].
  (* the vertex-centred maximum *)
  destruct (fl_mul s (fnum (n - 1) 0) Fs Fn) as (F5 & e5 & H5 & E5).
  { rewrite En. split.
    - rewrite Rabs_mult. rewrite (Rabs_right (IZR (n - 1))) by (rewrite minus_IZR; lra).
      apply Rle_trans with (bpow radix2 (-890)); [apply bpow_le; lia|]. rewrite minus_IZR. nra.
    - apply Hsize. rewrite minus_IZR, Rabs_right by lra. lra. }
  rewrite En, minus_IZR in E5.
  destruct (fl_add off (Bmult mode_NE s (fnum (n - 1) 0)) Fo F5) as (F6 & e6 & H6 & E6).
  { rewrite E5, Eo. replace (B2R s * o + B2R s * (IZR n - 1) * (1 + e5)) with (B2R s * (o + (IZR n - 1) * (1 + e5))) by ring.
    apply Hsize. apply Rle_trans with (B + (IZR n * 2)); [|lra]. apply abs_add; [exact Ho|].
    apply abs_mul; [rewrite Rabs_right; lra|now apply e_small]. }
  rewrite E5 in E6.
  set (mx := Bplus mode_NE off (Bmult mode_NE s (fnum (n - 1) 0))) in *.
  set (X := (IZR n - 1) * (1 + e5) * (1 + e6) + o * e6).
  assert (EX : B2R mx = B2R off + B2R s * X) by (rewrite E6, Eo; unfold X; ring).
  (* half a cell *)
  destruct f_half_val as [Fc Hc].
  destruct (fl_mul s f_half Fs Fc) as (F7 & e7 & H7 & E7).
  { split.
    - rewrite Rabs_mult, (Rabs_right (B2R f_half)) by lra. apply Rle_trans with (bpow radix2 (-890) * bpow radix2 (-2)).
      + rewrite <- bpow_plus. apply bpow_le. lia.
      + change (bpow radix2 (-2)) with (/ 4). pose proof (bpow_gt_0 radix2 (-890)). nra.
    - apply Hsize. rewrite Rabs_right by lra. lra. }
  set (c := B2R f_half) in *. set (h := Bmult mode_NE s f_half) in *.
  assert (Hw7 : Rabs (1 + e7) <= 2) by now apply e_small.
  destruct (fl_sub off h Fo F7) as (F8 & e8 & H8 & E8).
  { rewrite E7, Eo. replace (B2R s * o - B2R s * c * (1 + e7)) with (B2R s * (o + - (c * (1 + e7)))) by ring.
    apply Hsize. apply Rle_trans with (B + 1 / 2 * 2); [|lra]. apply abs_add; [exact Ho|]. rewrite Rabs_Ropp.
    apply abs_mul; [rewrite Rabs_right; lra|exact Hw7]. }
  destruct (ends_close o (IZR n) c B e5 e6 e7 e8 0 H5 H6 H7 H8 ltac:(rewrite Rabs_R0; lra) Ho HN ltac:(lra)) as (KX & _ & _).
  fold X in KX.
  assert (KXa : Rabs X <= 2 * bpow radix2 47).
  { replace X with ((X - (IZR n - 1)) + (IZR n - 1)) by ring.
    apply Rle_trans with (3 * ulp1 * (B + IZR n) + IZR n); [apply abs_add; [exact KX|rewrite Rabs_right; lra]|]. nra. }
  destruct (fl_add mx h F6 F7) as (F9 & e9 & H9 & E9).
  { rewrite EX, E7, Eo. replace (B2R s * o + B2R s * X + B2R s * c * (1 + e7)) with (B2R s * (o + X + c * (1 + e7))) by ring.
    apply Hsize. apply Rle_trans with (B + 2 * bpow radix2 47 + 1 / 2 * 2); [|lra].
    apply abs_add; [apply abs_add; [exact Ho|exact KXa]|]. apply abs_mul; [rewrite Rabs_right; lra|exact Hw7]. }
  destruct (ends_close o (IZR n) c B e5 e6 e7 e8 e9 H5 H6 H7 H8 H9 Ho HN ltac:(lra)) as (_ & KY & KW). fold X in KW.
  set (Y := - (c * (1 + e7) * (1 + e8)) + o * e8) in *. set (W := (X + c * (1 + e7)) * (1 + e9) + o * e9) in *.
  assert (EY : B2R (Bminus mode_NE off h) = B2R off + B2R s * Y) by (rewrite E8, E7, Eo; unfold Y; ring).
  assert (EW : B2R (Bplus mode_NE mx h) = B2R off + B2R s * W) by (rewrite E9, EX, E7, Eo; unfold W; ring).
  (* the range *)
  assert (Em : m = @DimMeta ieee n off (a_abs ieee s) (inv_scaling ieee s)
     (std_min ieee (match vp with CellCentered => Bminus mode_NE off h | VertexCentered => off end)
                   (match vp with CellCentered => Bplus mode_NE mx h | VertexCentered => mx end))
     (std_max ieee (match vp with CellCentered => Bminus mode_NE off h | VertexCentered => off end)
                   (match vp with CellCentered => Bplus mode_NE mx h | VertexCentered => mx end))).
  { unfold m, open_dim. fold off s n.
    assert (a_isinf ieee s = false) as -> by (destruct s; try discriminate Fs; reflexivity). reflexivity. }
  rewrite Em. cbn [dm_min dm_max dm_off dm_sinv dm_size]. clear Em m.
  set (lo := - (1 / 2) + 8 * ulp1 * (B + IZR n)). set (hi := IZR n - 1 / 2 - 8 * ulp1 * (B + IZR n)).
  assert (R : Bleb (std_min ieee (match vp with CellCentered => Bminus mode_NE off h | VertexCentered => off end)
                   (match vp with CellCentered => Bplus mode_NE mx h | VertexCentered => mx end)) p = true ->
     Bleb p (std_max ieee (match vp with CellCentered => Bminus mode_NE off h | VertexCentered => off end)
                   (match vp with CellCentered => Bplus mode_NE mx h | VertexCentered => mx end)) = true ->
     is_finite p = true /\ lo <= (B2R p - B2R off) / B2R s <= hi).
  { apply Rabs_le_inv in KX. apply Rabs_le_inv in KY. apply Rabs_le_inv in KW.
    assert (HU : ulp1 * (B + IZR n) <= ulp1 * room vp) by (apply Rmult_le_compat_l; lra).
    assert (P : 0 <= ulp1 * (B + IZR n)) by (apply Rmult_le_pos; lra).
    intros G1 G2. destruct vp.
    - destruct (std_between _ _ p F8 F9 G1 G2) as (Fp & A & C). split; [exact Fp|]. rewrite EY, EW in A, C.
      cbn [room] in HU. rewrite ulp1_val in HU at 2.
      apply (between _ _ _ Y W lo hi NZ A C); unfold lo, hi; lra.
    - destruct (std_between _ _ p Fo F6 G1 G2) as (Fp & A & C). split; [exact Fp|]. rewrite EX in A, C.
      cbn [room] in HU. rewrite ulp1_val in HU at 2. rewrite E47 in HU.
      apply (between _ _ _ 0 X lo hi NZ); [rewrite Rmult_0_r, Rplus_0_r; exact A|rewrite Rmult_0_r, Rplus_0_r; exact C| |];
        unfold lo, hi; lra. }
  intros G1 G2. destruct (R G1 G2) as (Fp & Hv). clear R G1 G2.
  split; [exact Fp|].
  assert (P : 0 <= ulp1 * (B + IZR n)) by (apply Rmult_le_pos; lra).
  assert (PB : 0 <= ulp1 * B) by (apply Rmult_le_pos; lra).
  destruct (float_pos off s p n (IZR n) Fo Fs Fp) as (u & Hu1 & E).
  { split; [apply Rle_trans with (bpow radix2 (-890)); [apply bpow_le; lia|lra]|].
    apply Rle_trans with (bpow radix2 890); [lra|apply bpow_le; lia]. }
  { exact Hn53. }
  { split; [lra|]. change 9007199254740992 with (IZR (2 ^ 53)). apply IZR_le. lia. }
  { apply Rabs_le. unfold lo, hi in Hv. lra. }
  set (v := (B2R p - B2R off) / B2R s) in *. apply Rabs_le_inv in Hu1.
  assert (U : 0 <= u < IZR n).
  { assert (0 < ulp1 * IZR n) by (apply Rmult_lt_0_compat; lra). unfold lo, hi in Hv. lra. }
  assert (Fl : (0 <= Zfloor u < n)%Z).
  { split; [apply Zfloor_lub; exact (proj1 U)|]. apply lt_IZR. pose proof (Zfloor_lb u). lra. }
  exists (Zfloor u). rewrite E. unfold clampZ.
  assert ((Zfloor u <? 0)%Z = false) as -> by (apply Z.ltb_ge; lia).
  assert ((n <=? Zfloor u)%Z = false) as -> by (apply Z.leb_gt; lia).
  split; [reflexivity|]. split; [exact Fl|].
  assert (Ep : B2R p - (B2R off + IZR (Zfloor u) * B2R s) = B2R s * (v - IZR (Zfloor u))) by (unfold v; field; exact NZ).
  rewrite Ep, Rabs_mult. apply Rmult_le_compat_l; [lra|]. fold ulp1.
  pose proof (Zfloor_lb u). pose proof (Zfloor_ub u). assert (0 < ulp1 * IZR n) by (apply Rmult_lt_0_compat; lra).
  apply Rabs_le. lra.
Qed.

(** One cell: the coordinate is finite and its distance to the first coordinate does not overflow. *)
Definition single (ax : axis ieee) (p : f64) : Prop :=
  x_size ax = 1%Z /\ is_finite (get_offset ieee ax) = true /\ is_finite p = true /\
  is_finite (Bminus mode_NE p (get_offset ieee ax)) = true.

Lemma range_usable_double vp (axes : list (axis ieee)) (pos : nat -> f64) init :
  let lv := level_open ieee vp axes in
  (forall i ax, nth_error axes i = Some ax -> roomy vp ax \/ single ax (pos (user_dim (length axes) i))) ->
  (forall n, (n < length axes)%nat -> Bleb (level_min ieee lv n) (pos n) = true /\ Bleb (pos n) (level_max ieee lv n) = true) ->
  exists idx, pos2index ieee lv pos init = Ok (idx, false) /\
    forall i ax, nth_error axes i = Some ax -> (0 <= idx i < x_size ax)%Z /\
      ((2 <= x_size ax)%Z ->
       Rabs (B2R (pos (user_dim (length axes) i)) - (B2R (get_offset ieee ax) + IZR (idx i) * B2R (get_scaling ieee ax)))
       <= Rabs (B2R (get_scaling ieee ax)) * (1 / 2 + 10 * bpow radix2 (-53) * IZR (x_size ax))).
Proof.
  intros lv Hok Hr.
  assert (Hd : forall i ax, nth_error axes i = Some ax ->
     exists k, pos2index_dim ieee (dm_off (open_dim ieee vp ax)) (dm_sinv (open_dim ieee vp ax)) (dm_size (open_dim ieee vp ax))
       (pos (length axes - i - 1)%nat) = Ok (k, false) /\ (0 <= k < x_size ax)%Z /\
       ((2 <= x_size ax)%Z ->
        Rabs (B2R (pos (length axes - i - 1)%nat) - (B2R (get_offset ieee ax) + IZR k * B2R (get_scaling ieee ax)))
        <= Rabs (B2R (get_scaling ieee ax)) * (1 / 2 + 10 * bpow radix2 (-53) * IZR (x_size ax)))).
  { intros i ax Hi. assert (Hlt : (i < length axes)%nat) by (apply nth_error_Some; congruence).
    destruct (Hr (length axes - i - 1)%nat ltac:(lia)) as [R1 R2].
    unfold level_min, level_max, lv in R1, R2.
    assert (Hl : length (level_open ieee vp axes) = length axes) by (unfold level_open; now rewrite map_length).
    rewrite Hl in R1, R2. replace (length axes - (length axes - i - 1) - 1)%nat with i in R1, R2 by lia.
    rewrite (meta_open ieee vp axes i ax Hi) in R1, R2.
    destruct (Hok i ax Hi) as [H|H].
    - destruct (range_double vp ax _ H R1 R2) as (_ & k & E & K1 & K2). exists k. auto.
    - replace (user_dim (length axes) i) with (length axes - i - 1)%nat in H by (unfold user_dim; lia).
      destruct H as (H1 & H2 & H3 & H4). destruct ax as [n v]. cbn [x_size] in *. subst n.
      assert (Eo : dm_off (open_dim ieee vp (@Axis ieee 1 v)) = get_offset ieee (@Axis ieee 1 v)) by reflexivity.
      exists 0%Z. split; [apply ieee_size_one; rewrite ?Eo; assumption|]. split; [lia|lia]. }
  destruct (level_p2i_ok ieee vp axes pos init) as (idx & w & E & P & W & _).
  - intros i ax Hi. destruct (Hd i ax Hi) as (k & Ek & _). eexists. exact Ek.
  - exists idx. split.
    + destruct w; [|exact E]. exfalso. destruct (W eq_refl) as (i & ax & Hi & Ei).
      destruct (Hd i ax Hi) as (k & Ek & _). congruence.
    + intros i ax Hi. destruct (P i ax Hi) as (wi & Ei & _). destruct (Hd i ax Hi) as (k & Ek & K1 & K2).
      assert (Hk : k = idx i) by congruence. rewrite <- Hk.
      replace (user_dim (length axes) i) with (length axes - i - 1)%nat by (unfold user_dim; lia). auto.
Qed.

(** For the examples: the value of a computed double. *)
Lemma computed (x : f64) s m e : B2SF x = SpecFloat.S754_finite s m e ->
  is_finite x = true /\ B2R x = F2R (Float radix2 (cond_Zopp s (Zpos m)) e).
Proof. destruct x as [| | |s' m' e' H]; cbn; intros E; try discriminate E. inversion E. subst. auto. Qed.
