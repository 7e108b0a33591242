(** * Which coordinates select no cell *)
From Coq Require Import ZArith Reals Bool List Lia Lra.
From Flocq Require Import Core.Core IEEE754.BinarySingleNaN Relative Plus_error.
From Verif Require Import Base CoordModel CoordExact CoordFloat CoordFloat2 CoordFloat3 CoordFacts.
Import ListNotations.
Local Open Scope R_scope.

(** The cases, for an axis with first coordinate [off] and spacing [s] and a coordinate [p]. *)
Inductive lost (off s p : f64) : Prop :=
| lost_nan : is_nan p = true \/ is_nan off = true \/ is_nan s = true -> lost off s p
| lost_same b : p = B754_infinity b -> off = B754_infinity b -> lost off s p
| lost_flat b : (is_finite s = true /\ B2R s = 0) \/ (exists c, s = B754_infinity c) ->
    Bminus mode_NE p off = B754_infinity b -> lost off s p
| lost_tiny : is_finite s = true -> 0 < Rabs (B2R s) <= bpow radix2 (-1024) ->
    is_finite p = true -> is_finite off = true -> B2R p = B2R off -> lost off s p.

Lemma mult_nan (x y : f64) : is_nan (Bmult mode_NE x y) = true <->
  is_nan x = true \/ is_nan y = true \/
  ((exists b, x = B754_infinity b) /\ is_finite y = true /\ B2R y = 0) \/
  ((exists b, y = B754_infinity b) /\ is_finite x = true /\ B2R x = 0).
Proof.
  destruct (is_finite x) eqn:Fx, (is_finite y) eqn:Fy.
  - assert (is_nan (Bmult mode_NE x y) = false) as -> by (apply val_nan; rewrite val_mul by assumption; apply sat_ok).
    split; [discriminate|]. destruct x, y; try discriminate; intros [H|[H|[[[b H] _]|[[b H] _]]]]; discriminate.
  - destruct x as [sx|sx| |sx mx ex Hx], y as [sy|sy| |sy my ey Hy]; try discriminate; cbn; (split; [intros H; try discriminate; eauto 8|]);
      try reflexivity; intros [H|[H|[[[b H] _]|[[b H] [_ G]]]]]; try discriminate.
    exfalso. revert G. destruct sx; cbn; apply F2R_neq_0; cbn; lia.
  - destruct x as [sx|sx| |sx mx ex Hx], y as [sy|sy| |sy my ey Hy]; try discriminate; cbn; (split; [intros H; try discriminate; eauto 8|]);
      try reflexivity; intros [H|[H|[[[b H] [_ G]]|[[b H] _]]]]; try discriminate.
    exfalso. revert G. destruct sy; cbn; apply F2R_neq_0; cbn; lia.
  - destruct x, y; try discriminate; cbn; (split; [intros H; try discriminate; auto|]); try reflexivity;
      intros [H|[H|[[_ [H _]]|[_ [H _]]]]]; discriminate.
Qed.

Lemma minus_nan (p off : f64) : is_nan (Bminus mode_NE p off) = true <->
  is_nan p = true \/ is_nan off = true \/ exists b, p = B754_infinity b /\ off = B754_infinity b.
Proof.
  destruct (is_finite p) eqn:Fp, (is_finite off) eqn:Fo.
  - assert (is_nan (Bminus mode_NE p off) = false) as -> by (apply val_nan; rewrite val_sub by assumption; apply sat_ok).
    split; [discriminate|]. destruct p, off; try discriminate; intros [H|[H|(b & H & G)]]; discriminate.
  - destruct p, off; try discriminate; cbn; (split; [intros H; try discriminate; auto|]); try reflexivity; intros [H|[H|(b & H & G)]]; discriminate.
  - destruct p, off; try discriminate; cbn; (split; [intros H; try discriminate; auto|]); try reflexivity; intros [H|[H|(b & H & G)]]; discriminate.
  - destruct p as [|s| |], off as [|t| |]; try discriminate; cbn; try (split; auto; fail).
    destruct s, t; cbn; (split; [intros H; try discriminate; eauto|]); try reflexivity; intros [H|[H|(b & H & G)]]; try discriminate; congruence.
Qed.

Lemma minus_zero (p off : f64) : is_finite (Bminus mode_NE p off) = true -> B2R (Bminus mode_NE p off) = 0 ->
  is_finite p = true /\ is_finite off = true /\ B2R p = B2R off.
Proof.
  intros F Z. destruct (is_finite p) eqn:Fp, (is_finite off) eqn:Fo.
  - split; [reflexivity|]. split; [reflexivity|]. pose proof (val_sub p off Fp Fo) as V. rewrite (val_finite _ F), Z in V.
    unfold sat in V. destruct (Rlt_bool _ _); [|discriminate]. injection V as V.
    destruct (Req_dec (B2R p - B2R off) 0) as [E|N]; [lra|]. exfalso.
    assert (Exp_not_FTZ fexp64) by (apply monotone_exp_not_FTZ; typeclasses eauto).
    apply (round_plus_neq_0 radix2 fexp64 ZnearestE (B2R p) (- B2R off)).
    + apply format_B2R.
    + apply generic_format_opp, format_B2R.
    + exact N.
    + symmetry. exact V.
  - destruct p, off; discriminate.
  - destruct p, off; discriminate.
  - destruct p as [|s| |], off as [|t| |]; try discriminate; destruct s, t; discriminate.
Qed.

Lemma minus_same (p off : f64) : is_finite p = true -> is_finite off = true -> B2R p = B2R off ->
  is_finite (Bminus mode_NE p off) = true /\ B2R (Bminus mode_NE p off) = 0.
Proof.
  intros Fp Fo E. apply val_fin_inv. rewrite val_sub by assumption. replace (B2R p - B2R off) with 0 by lra.
  rewrite rnd_0. unfold sat. rewrite Rabs_R0. now rewrite Rlt_bool_true by apply big_pos.
Qed.

Lemma inv_zero (s : f64) : is_nan s = false ->
  (is_finite (inv_scaling ieee s) = true /\ B2R (inv_scaling ieee s) = 0) <->
  ((is_finite s = true /\ B2R s = 0) \/ exists c, s = B754_infinity c).
Proof.
  intros Hn. rewrite inv_float by exact Hn.
  destruct (val_fin_inv _ _ (val_int 0 ltac:(lia))) as [F0 E0].
  destruct s as [sg|sg| |sg m e H]; try discriminate.
  - split; [left; split; reflexivity|]. auto.
  - split; [right; eauto|]. auto.
  - set (s := B754_finite sg m e H : f64).
    assert (NZ : B2R s <> 0) by (destruct sg; cbn; apply F2R_neq_0; cbn; lia).
    assert (Fs : is_finite s = true) by reflexivity. clearbody s.
    split; [|intros [[_ G]|[c G]]; [contradiction|rewrite G in Fs; discriminate]]. intros [F Z]. exfalso.
    destruct (val_fin_inv _ _ (val_int 1 ltac:(lia))) as [F1 E1].
    pose proof (val_div (fnum 1 0) s F1 Fs NZ) as V. rewrite E1 in V.
    assert (Hlo : bpow radix2 (-1024) <= Rabs (1 / B2R s)).
    { unfold Rdiv. rewrite Rmult_1_l, Rabs_inv.
      replace (bpow radix2 (-1024)) with (/ bpow radix2 1024) by (rewrite <- bpow_opp; reflexivity).
      apply Rinv_le_contravar; [now apply Rabs_pos_lt | left; apply (abs_B2R_lt_emax 53 1024)]. }
    assert (Rlo : bpow radix2 (-1024) <= Rabs (rnd (1 / B2R s))).
    { apply abs_round_ge_generic; [typeclasses eauto|typeclasses eauto| |exact Hlo]. apply generic_format_bpow. vm_compute. discriminate. }
    rewrite (val_finite _ F), Z in V. unfold sat in V. destruct (Rlt_bool _ _); [|discriminate]. injection V as V.
    rewrite <- V, Rabs_R0 in Rlo. pose proof (bpow_gt_0 radix2 (-1024)). lra.
Qed.

Lemma inv_inf (s : f64) : is_nan s = false ->
  (exists b, inv_scaling ieee s = B754_infinity b) <-> (is_finite s = true /\ 0 < Rabs (B2R s) <= bpow radix2 (-1024)).
Proof.
  intros Hn. rewrite inv_float by exact Hn.
  destruct s as [sg|sg| |sg m e H]; try discriminate.
  - split; [intros [b G]; vm_compute in G; discriminate|]. intros [_ [G _]]. cbn in G. rewrite Rabs_R0 in G. lra.
  - split; [intros [b G]; vm_compute in G; discriminate|]. intros [G _]. discriminate.
  - set (s := B754_finite sg m e H : f64).
    assert (NZ : B2R s <> 0) by (destruct sg; cbn; apply F2R_neq_0; cbn; lia).
    assert (Fs : is_finite s = true) by reflexivity. clearbody s.
    destruct (val_fin_inv _ _ (val_int 1 ltac:(lia))) as [F1 E1].
    pose proof (val_div (fnum 1 0) s F1 Fs NZ) as V. rewrite E1 in V.
    assert (A : Rabs (1 / B2R s) = / Rabs (B2R s)) by (unfold Rdiv; rewrite Rmult_1_l; apply Rabs_inv).
    pose proof (Rabs_pos_lt _ NZ) as P.
    assert (K : (exists b, Bdiv mode_NE (fnum 1 0) s = B754_infinity b) <-> big <= Rabs (rnd (1 / B2R s))).
    { unfold sat in V. destruct (Rlt_bool_spec (Rabs (rnd (1 / B2R s))) big) as [L|L].
      - split; [|lra]. intros [b G]. rewrite G in V. discriminate.
      - split; [auto|]. intros _. destruct (Bdiv mode_NE (fnum 1 0) s); cbn in V; try discriminate. eauto. }
    rewrite K. split.
    + intros L. split; [exact Fs|]. split; [exact P|]. apply Rnot_lt_le. intros G.
      assert (S : bpow radix2 (-1024) + bpow radix2 (-1074) <= Rabs (B2R s)).
      { replace (bpow radix2 (-1024) + bpow radix2 (-1074)) with (succ radix2 fexp64 (bpow radix2 (-1024))).
        - apply succ_le_lt; [typeclasses eauto| | |exact G]; [apply generic_format_bpow; vm_compute; discriminate|].
          apply generic_format_abs, format_B2R.
        - rewrite succ_eq_pos by apply bpow_ge_0. rewrite ulp_bpow. reflexivity. }
      assert (U : Rabs (1 / B2R s) <= pred radix2 fexp64 (bpow radix2 1024)).
      { rewrite A. rewrite pred_bpow. change (fexp64 1024) with 971%Z.
        apply Rmult_le_reg_r with (Rabs (B2R s)); [exact P|]. rewrite Rinv_l by lra.
        apply Rle_trans with ((bpow radix2 1024 - bpow radix2 971) * (bpow radix2 (-1024) + bpow radix2 (-1074))).
        - assert (E2 : bpow radix2 1024 * bpow radix2 (-1024) = 1) by (rewrite <- bpow_plus; reflexivity).
          assert (E3 : bpow radix2 1024 * bpow radix2 (-1074) = bpow radix2 (-53) * 8)
            by (rewrite <- bpow_plus; change 8 with (bpow radix2 3); rewrite <- bpow_plus; reflexivity).
          assert (E4 : bpow radix2 971 * bpow radix2 (-1024) = bpow radix2 (-53)) by (rewrite <- bpow_plus; reflexivity).
          assert (E5 : bpow radix2 971 * bpow radix2 (-1074) = bpow radix2 (-53) * bpow radix2 (-50)) by (rewrite <- !bpow_plus; reflexivity).
          replace ((bpow radix2 1024 - bpow radix2 971) * (bpow radix2 (-1024) + bpow radix2 (-1074))) with
            (bpow radix2 1024 * bpow radix2 (-1024) + bpow radix2 1024 * bpow radix2 (-1074)
             - bpow radix2 971 * bpow radix2 (-1024) - bpow radix2 971 * bpow radix2 (-1074)) by ring.
          rewrite E2, E3, E4, E5. pose proof (bpow_gt_0 radix2 (-53)).
          assert (bpow radix2 (-50) <= 1) by (change 1 with (bpow radix2 0); apply bpow_le; lia). nra.
        - apply Rmult_le_compat_l; [|exact S]. assert (bpow radix2 971 <= bpow radix2 1024) by (apply bpow_le; lia). lra. }
      assert (W : Rabs (rnd (1 / B2R s)) <= pred radix2 fexp64 (bpow radix2 1024)).
      { apply abs_round_le_generic; [typeclasses eauto|typeclasses eauto| |exact U].
        apply generic_format_pred; [typeclasses eauto|]. apply generic_format_bpow. vm_compute. discriminate. }
      rewrite pred_bpow in W. pose proof (bpow_gt_0 radix2 (fexp64 1024)). unfold big in L. lra.
    + intros (_ & _ & G). unfold big. apply abs_round_ge_generic; [typeclasses eauto|typeclasses eauto| |].
      * apply generic_format_bpow. vm_compute. discriminate.
      * rewrite A. replace (bpow radix2 1024) with (/ bpow radix2 (-1024)) by (rewrite <- bpow_opp; reflexivity).
        apply Rinv_le_contravar; assumption.
Qed.

Lemma inv_is_nan (s : f64) : is_nan (inv_scaling ieee s) = true <-> is_nan s = true.
Proof.
  split; intros H.
  - destruct (is_nan s) eqn:E; [reflexivity|]. now rewrite inv_nan in H.
  - destruct s; try discriminate. vm_compute. reflexivity.
Qed.

Lemma prod_lost (off s p : f64) : is_nan (prod off (inv_scaling ieee s) p) = true <-> lost off s p.
Proof.
  unfold prod. rewrite mult_nan, minus_nan, inv_is_nan. split.
  - intros [[H|[H|(b & H & G)]]|[H|[([b H] & F & Z)|([b H] & F & Z)]]].
    + apply lost_nan. auto.
    + apply lost_nan. auto.
    + exact (lost_same off s p b H G).
    + apply lost_nan. auto.
    + destruct (is_nan s) eqn:Hs; [apply lost_nan; auto|]. apply (lost_flat off s p b); [|exact H]. now apply inv_zero.
    + destruct (is_nan s) eqn:Hs; [apply lost_nan; auto|]. destruct (minus_zero _ _ F Z) as (A & B & C).
      destruct (proj1 (inv_inf s Hs)) as [D E]; [eauto|]. apply lost_tiny; assumption.
  - intros [[H|[H|H]]|b H G|b H G|H G A B C].
    + auto.
    + auto.
    + auto.
    + left. right. right. eauto.
    + destruct (is_nan s) eqn:Hs; [auto|]. right. right. left. split; [eauto|]. now apply inv_zero.
    + right. right. right. split; [|now apply minus_same]. apply inv_inf; [now destruct s|auto].
Qed.

Lemma dim_lost vp (ax : axis ieee) (p : f64) : (1 <= x_size ax <= 2 ^ 53)%Z ->
  let m := open_dim ieee vp ax in
  (pos2index_dim ieee (dm_off m) (dm_sinv m) (dm_size m) p = Ub /\ lost (get_offset ieee ax) (get_scaling ieee ax) p) \/
  (exists i w, pos2index_dim ieee (dm_off m) (dm_sinv m) (dm_size m) p = Ok (i, w) /\ (0 <= i < x_size ax)%Z /\
     ~ lost (get_offset ieee ax) (get_scaling ieee ax) p).
Proof.
  intros Hn m.
  assert (Em : dm_off m = get_offset ieee ax /\ dm_sinv m = inv_scaling ieee (get_scaling ieee ax) /\ dm_size m = x_size ax).
  { unfold m, open_dim. destruct (a_isinf ieee (get_scaling ieee ax)); cbn; auto. }
  destruct Em as (-> & -> & ->).
  destruct (is_nan (prod (get_offset ieee ax) (inv_scaling ieee (get_scaling ieee ax)) p)) eqn:E.
  - left. split; [now apply p2i_nan|now apply prod_lost].
  - right. destruct (float_in_range _ _ _ _ E Hn) as (i & w & A & B). exists i, w. split; [exact A|]. split; [exact B|].
    rewrite <- prod_lost. congruence.
Qed.

(** All dimensions. *)
Lemma level_lost vp (axes : list (axis ieee)) (pos : nat -> f64) init :
  (forall ax, In ax axes -> (1 <= x_size ax <= 2 ^ 53)%Z) ->
  (pos2index ieee (level_open ieee vp axes) pos init = Ub <->
   exists i ax, nth_error axes i = Some ax /\ lost (get_offset ieee ax) (get_scaling ieee ax) (pos (user_dim (length axes) i))) /\
  (forall idx w, pos2index ieee (level_open ieee vp axes) pos init = Ok (idx, w) ->
   forall i ax, nth_error axes i = Some ax -> (0 <= idx i < x_size ax)%Z).
Proof.
  intros Hn.
  assert (Hd : forall i ax, nth_error axes i = Some ax -> user_dim (length axes) i = (length axes - i - 1)%nat) by (intros; unfold user_dim; lia).
  unfold pos2index. assert (Hl : length (level_open ieee vp axes) = length axes) by (unfold level_open; apply map_length). rewrite Hl.
  pose proof (p2i_loop_spec ieee (meta ieee (level_open ieee vp axes)) (length axes) (length axes) pos init false ltac:(lia)) as S.
  destruct (pos2index_loop ieee (meta ieee (level_open ieee vp axes)) (length axes) (length axes) pos init false) as [[r w]|].
  - destruct S as (S1 & _). assert (K : forall i ax, nth_error axes i = Some ax -> (0 <= r i < x_size ax)%Z /\
      ~ lost (get_offset ieee ax) (get_scaling ieee ax) (pos (user_dim (length axes) i))).
    { intros i ax Hi. assert (Hlt : (i < length axes)%nat) by (apply nth_error_Some; congruence).
      destruct (S1 i Hlt) as (wi & E & _). rewrite (meta_open ieee vp axes i ax Hi) in E. rewrite (Hd i ax Hi).
      destruct (dim_lost vp ax (pos (length axes - i - 1)%nat) (Hn ax (nth_error_In _ _ Hi))) as [[A _]|(j & wj & A & B & C)]; [congruence|].
      assert (j = r i) by congruence. subst j. auto. }
    split; [split; [discriminate|]|].
    + intros (i & ax & Hi & L). destruct (K i ax Hi) as [_ N]. contradiction.
    + intros idx w' [= <- <-] i ax Hi. exact (proj1 (K i ax Hi)).
  - split; [split; [|reflexivity]|discriminate]. intros _. destruct S as (i & Hi & E).
    destruct (nth_error axes i) as [ax|] eqn:Ei; [|apply nth_error_None in Ei; lia].
    rewrite (meta_open ieee vp axes i ax Ei) in E. exists i, ax. split; [exact Ei|]. rewrite (Hd i ax Ei).
    destruct (dim_lost vp ax (pos (length axes - i - 1)%nat) (Hn ax (nth_error_In _ _ Ei))) as [[_ A]|(j & wj & A & _)]; [exact A|congruence].
Qed.

(** Two cells with centres 0 and 2^-1074. *)
Definition tiny_axis : axis ieee := @Axis ieee 2 (Some (fun k => fnum k (-1074))).

Lemma nan_lost vp (axes : list (axis ieee)) (pos : nat -> f64) init i :
  (forall ax, In ax axes -> (1 <= x_size ax <= 2 ^ 53)%Z) -> (i < length axes)%nat ->
  is_nan (pos (user_dim (length axes) i)) = true ->
  pos2index ieee (level_open ieee vp axes) pos init = Ub.
Proof.
  intros H L N. apply (proj1 (level_lost vp axes pos init H)).
  destruct (nth_error axes i) as [ax|] eqn:E; [|apply nth_error_None in E; lia].
  exists i, ax. split; [exact E|]. apply lost_nan. auto.
Qed.
