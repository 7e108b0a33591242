(** * Coordinates: the statements behind the property theorems *)
From Coq Require Import ZArith Reals Bool List Lia Lra.
From Flocq Require Import Core.Core IEEE754.BinarySingleNaN.
From Verif Require Import Base BlockedModel BlockedProofs BlockedFacts.
From Verif Require Export CoordModel.
From Verif Require Import CoordExact CoordFloat CoordFloat2 CoordFloat3.
Import ListNotations.
Local Open Scope R_scope.

(** ** Specification side *)

(** A regular axis: [n] cell centres [c0], [c0 + s], ...  It is stored in the
    file as a coordinate variable, or has none (then the centres are 0, 1, ...). *)
Record raxis := RAxis { ra_n : Z; ra_c0 : R; ra_s : R; ra_stored : bool }.

Definition ra_ok (u : raxis) : Prop :=
  (1 <= ra_n u < size_max)%Z /\ ra_s u <> 0 /\
  (ra_stored u = false -> ra_c0 u = 0 /\ ra_s u = 1).

Definition centre (u : raxis) (k : Z) : R := ra_c0 u + IZR k * ra_s u.

(** The file content for it. *)
Definition ra_axis (u : raxis) : axis exact :=
  @Axis exact (ra_n u)
    (if ra_stored u then Some (fun k => XFin (centre u k)) else None).

(** The coordinate which the interface passes for file dimension [i]. *)
Definition user_dim (dims i : nat) : nat := (dims - 1 - i)%nat.

(** ** Exact arithmetic *)

Lemma ra_offset : forall u, ra_ok u -> get_offset exact (ra_axis u) = XFin (ra_c0 u).
Proof.
  intros [n c0 s st] (Hn & Hs & Hst). unfold ra_axis, get_offset, centre. cbn in *.
  destruct st; cbn; f_equal; [ring |]. destruct (Hst eq_refl) as [-> _]. reflexivity.
Qed.

Lemma ra_scaling : forall u, ra_ok u -> (2 <= ra_n u)%Z ->
  get_scaling exact (ra_axis u) = XFin (ra_s u).
Proof.
  intros [n c0 s st] (Hn & Hs & Hst) H2. unfold ra_axis, centre. cbn [ra_n ra_c0 ra_s ra_stored] in *.
  destruct st.
  - apply scaling_uniform. exact H2.
  - unfold get_scaling. cbn [x_size x_var]. rewrite (proj2 (Z.eqb_neq n 1)) by lia.
    destruct (Hst eq_refl) as [_ ->]. reflexivity.
Qed.

Lemma ra_open1 : forall vp u, ra_ok u -> ra_n u = 1%Z ->
  open_dim exact vp (ra_axis u)
  = @DimMeta exact 1 (XFin (ra_c0 u)) (XInf false) (XFin 0) (XInf true) (XInf false).
Proof.
  intros vp u Hu H1. pose proof (ra_offset u Hu) as Ho. unfold ra_axis in *. rewrite H1 in *.
  rewrite open_one. rewrite Ho. reflexivity.
Qed.

Definition ra_h (vp : value_pos) : R :=
  match vp with CellCentered => 1 / 2 - 1 / 10000000000 | VertexCentered => 0 end.

Lemma ra_open2 : forall vp u, ra_ok u -> (2 <= ra_n u)%Z ->
  let a := ra_c0 u - ra_s u * ra_h vp in
  let b := ra_c0 u + ra_s u * IZR (ra_n u - 1) + ra_s u * ra_h vp in
  open_dim exact vp (ra_axis u)
  = @DimMeta exact (ra_n u) (XFin (ra_c0 u)) (XFin (Rabs (ra_s u)))
      (inv_scaling exact (XFin (ra_s u))) (XFin (Rmin a b)) (XFin (Rmax a b)).
Proof.
  intros vp u Hu H2 a b. rewrite (open_fin vp _ _ _ (ra_offset u Hu) (ra_scaling u Hu H2)).
  unfold a, b, ra_h. destruct vp; cbn [ra_axis x_size]; rewrite ?Rmult_0_r; reflexivity.
Qed.

Lemma ra_p2i : forall vp u p, ra_ok u ->
  let m := open_dim exact vp (ra_axis u) in
  exists i w,
    pos2index_dim exact (dm_off m) (dm_sinv m) (dm_size m) (XFin p) = Ok (i, w) /\
    (0 <= i < ra_n u)%Z /\
    (forall j, (0 <= j < ra_n u)%Z -> Rabs (p - centre u i) <= Rabs (p - centre u j)).
Proof.
  intros vp u p Hu m. unfold m. pose proof Hu as (Hn & Hs & _).
  destruct (Z.eq_dec (ra_n u) 1) as [H1 | H1].
  - rewrite ra_open1 by assumption. cbn [dm_off dm_sinv dm_size].
    rewrite p2i_flat by (unfold size_max; lia). exists 0%Z, false.
    split; [reflexivity |]. split; [lia |]. intros j Hj. replace j with 0%Z by lia. lra.
  - rewrite ra_open2 by (assumption || lia). cbn [dm_off dm_sinv dm_size].
    destruct (p2i_nearest (ra_c0 u) (ra_s u) (ra_n u) p Hs Hn) as (i & w & E & R1 & R2).
    exists i, w. auto.
Qed.

Lemma level_p2i_ok : forall A vp axes pos init,
  (forall i ax, nth_error axes i = Some ax ->
     exists r, pos2index_dim A (dm_off (open_dim A vp ax)) (dm_sinv (open_dim A vp ax))
       (dm_size (open_dim A vp ax)) (pos (length axes - i - 1)%nat) = Ok r) ->
  exists idx w, pos2index A (level_open A vp axes) pos init = Ok (idx, w) /\
    (forall i ax, nth_error axes i = Some ax ->
       exists wi, pos2index_dim A (dm_off (open_dim A vp ax)) (dm_sinv (open_dim A vp ax))
         (dm_size (open_dim A vp ax)) (pos (length axes - i - 1)%nat) = Ok (idx i, wi) /\
         (wi = true -> w = true)) /\
    (w = true -> exists i ax, nth_error axes i = Some ax /\
       pos2index_dim A (dm_off (open_dim A vp ax)) (dm_sinv (open_dim A vp ax))
         (dm_size (open_dim A vp ax)) (pos (length axes - i - 1)%nat) = Ok (idx i, true)) /\
    (forall i, (length axes <= i)%nat -> idx i = init i).
Proof.
  intros A vp axes pos init H. unfold pos2index.
  assert (Hl : length (level_open A vp axes) = length axes) by (unfold level_open; apply map_length).
  rewrite Hl.
  pose proof (p2i_loop_spec A (meta A (level_open A vp axes)) (length axes) (length axes)
                pos init false ltac:(lia)) as S.
  destruct (pos2index_loop A (meta A (level_open A vp axes)) (length axes) (length axes) pos init false)
    as [[r w] |].
  - destruct S as (S1 & S2 & _ & S4). exists r, w. split; [reflexivity |].
    split; [| split].
    + intros i ax Hi. assert (Hlt : (i < length axes)%nat) by (apply nth_error_Some; congruence).
      specialize (S1 i Hlt). rewrite (meta_open A vp axes i ax Hi) in S1. exact S1.
    + intros Hw. destruct (S4 Hw) as [F | (i & Hi & E)]; [discriminate |].
      destruct (nth_error axes i) as [ax |] eqn:Ei.
      * exists i, ax. split; [exact Ei |]. rewrite (meta_open A vp axes i ax Ei) in E. exact E.
      * apply nth_error_None in Ei. lia.
    + exact S2.
  - destruct S as (i & Hi & E). destruct (nth_error axes i) as [ax |] eqn:Ei.
    + rewrite (meta_open A vp axes i ax Ei) in E. destruct (H i ax Ei) as [q Hq]. congruence.
    + apply nth_error_None in Ei. lia.
Qed.

Lemma nth_error_map_inv : forall {X Y} (f : X -> Y) l i y,
  nth_error (map f l) i = Some y -> exists x, nth_error l i = Some x /\ y = f x.
Proof.
  intros X Y f l i y H. rewrite nth_error_map in H.
  destruct (nth_error l i) as [x |]; [| discriminate]. exists x. cbn in H. split; congruence.
Qed.

(** C19: all dimensions. *)
Lemma nearest_cell : forall vp us (pos : nat -> R) init,
  Forall ra_ok us ->
  exists idx w,
    pos2index exact (level_open exact vp (map ra_axis us)) (fun k => XFin (pos k)) init = Ok (idx, w) /\
    forall i u, nth_error us i = Some u ->
      (0 <= idx i < ra_n u)%Z /\
      forall j, (0 <= j < ra_n u)%Z ->
        Rabs (pos (user_dim (length us) i) - centre u (idx i))
        <= Rabs (pos (user_dim (length us) i) - centre u j).
Proof.
  intros vp us pos init Hok.
  assert (Hu : forall i u, nth_error us i = Some u -> ra_ok u).
  { intros i u Hi. rewrite Forall_forall in Hok. apply Hok. now apply nth_error_In with i. }
  destruct (level_p2i_ok exact vp (map ra_axis us) (fun k => XFin (pos k)) init) as (idx & w & E & P & _).
  - intros i ax Hi. apply nth_error_map_inv in Hi. destruct Hi as (u & Hi & ->).
    destruct (ra_p2i vp u (pos (length (map ra_axis us) - i - 1)%nat) (Hu i u Hi)) as (k & wk & Ek & _).
    eexists. exact Ek.
  - exists idx, w. split; [exact E |]. intros i u Hi.
    destruct (P i (ra_axis u)) as (wi & Ei & _).
    { rewrite nth_error_map, Hi. reflexivity. }
    rewrite map_length in Ei.
    replace (length us - i - 1)%nat with (user_dim (length us) i) in Ei by (unfold user_dim; lia).
    destruct (ra_p2i vp u (pos (user_dim (length us) i)) (Hu i u Hi)) as (k & wk & Ek & K1 & K2).
    assert (Hk : k = idx i) by congruence. rewrite <- Hk. auto.
Qed.

(** Clamping: beyond the outermost centres the outermost cell is used. *)
Lemma outside_clamped : forall vp u p, ra_ok u ->
  let m := open_dim exact vp (ra_axis u) in
  forall i w,
    pos2index_dim exact (dm_off m) (dm_sinv m) (dm_size m) (XFin p) = Ok (i, w) ->
    ((p - ra_c0 u) / ra_s u <= 0 -> i = 0%Z) /\
    (IZR (ra_n u - 1) <= (p - ra_c0 u) / ra_s u -> i = (ra_n u - 1)%Z).
Proof.
  intros vp u p Hu m i w E. unfold m in E.
  destruct (ra_p2i vp u p Hu) as (k & wk & Ek & K1 & K2).
  assert (k = i) by congruence. subst k. clear Ek.
  pose proof Hu as (Hn & Hs & _).
  assert (D : forall j, Rabs (p - centre u j) = Rabs (ra_s u) * Rabs ((p - ra_c0 u) / ra_s u - IZR j)).
  { intros j. unfold centre. rewrite scale_dist by exact Hs. f_equal. f_equal. field. exact Hs. }
  assert (Ps : 0 < Rabs (ra_s u)) by now apply Rabs_pos_lt.
  set (v := (p - ra_c0 u) / ra_s u) in *.
  assert (K3 : forall j, (0 <= j < ra_n u)%Z -> Rabs (v - IZR i) <= Rabs (v - IZR j)).
  { intros j Hj. specialize (K2 j Hj). rewrite !D in K2.
    apply Rmult_le_reg_l with (1 := Ps). exact K2. }
  split; intros Hv.
  - specialize (K3 0%Z ltac:(lia)).
    assert (0 <= IZR i) by (apply IZR_le; lia).
    rewrite !Rabs_left1 in K3 by (cbn; lra). cbn in K3.
    apply eq_IZR. cbn. lra.
  - specialize (K3 (ra_n u - 1)%Z ltac:(lia)).
    assert (IZR i <= IZR (ra_n u - 1)) by (apply IZR_le; lia).
    rewrite !Rabs_right in K3 by lra. apply eq_IZR. lra.
Qed.

(** C20: the reported range in exact arithmetic. *)
Lemma range_dim : forall vp u p, ra_ok u ->
  let m := open_dim exact vp (ra_axis u) in
  xle (dm_min m) (XFin p) -> xle (XFin p) (dm_max m) ->
  exists i,
    pos2index_dim exact (dm_off m) (dm_sinv m) (dm_size m) (XFin p) = Ok (i, false) /\
    (0 <= i < ra_n u)%Z /\
    ((2 <= ra_n u)%Z -> Rabs (p - centre u i) <= Rabs (ra_s u) / 2).
Proof.
  intros vp u p Hu m. unfold m. clear m. pose proof Hu as (Hn & Hs & _).
  destruct (Z.eq_dec (ra_n u) 1) as [H1 | H1].
  - rewrite ra_open1 by assumption. cbn [dm_off dm_sinv dm_size dm_min dm_max]. intros _ _.
    rewrite p2i_flat by (unfold size_max; lia). exists 0%Z. split; [reflexivity |]. split; lia.
  - rewrite ra_open2 by (assumption || lia). cbn [dm_off dm_sinv dm_size dm_min dm_max].
    unfold xle. cbn [xleb]. intros L1 L2.
    set (a := ra_c0 u - ra_s u * ra_h vp) in *.
    set (b := ra_c0 u + ra_s u * IZR (ra_n u - 1) + ra_s u * ra_h vp) in *.
    destruct (Rle_dec (Rmin a b) p) as [M1 | M1]; [| discriminate].
    destruct (Rle_dec p (Rmax a b)) as [M2 | M2]; [| discriminate].
    destruct (range_no_clamp (ra_c0 u) (ra_s u) (ra_n u) p (ra_h vp)) as (i & E & Hi).
    + exact Hs.
    + exact Hn.
    + unfold ra_h. destruct vp; lra.
    + fold a b. lra.
    + exists i. split; [exact E |]. split; [exact Hi |]. intros _.
      apply (p2i_warn (ra_c0 u) (ra_s u) (ra_n u) p Hs Hn i E).
Qed.

Lemma range_usable : forall vp us (pos : nat -> R) init,
  Forall ra_ok us ->
  let lv := level_open exact vp (map ra_axis us) in
  (forall n, (n < length us)%nat ->
     xleb (level_min exact lv n) (XFin (pos n)) = true /\
     xleb (XFin (pos n)) (level_max exact lv n) = true) ->
  exists idx,
    pos2index exact lv (fun k => XFin (pos k)) init = Ok (idx, false) /\
    forall i u, nth_error us i = Some u ->
      (0 <= idx i < ra_n u)%Z /\
      ((2 <= ra_n u)%Z ->
       Rabs (pos (user_dim (length us) i) - centre u (idx i)) <= Rabs (ra_s u) / 2).
Proof.
  intros vp us pos init Hok lv Hr.
  assert (Hu : forall i u, nth_error us i = Some u -> ra_ok u).
  { intros i u Hi. rewrite Forall_forall in Hok. apply Hok. now apply nth_error_In with i. }
  assert (Hd : forall i u, nth_error us i = Some u ->
     let m := open_dim exact vp (ra_axis u) in
     xle (dm_min m) (XFin (pos (length us - i - 1)%nat)) /\
     xle (XFin (pos (length us - i - 1)%nat)) (dm_max m)).
  { intros i u Hi m. assert (Hlt : (i < length us)%nat) by (apply nth_error_Some; congruence).
    destruct (Hr (length us - i - 1)%nat ltac:(lia)) as [R1 R2].
    unfold level_min, level_max, lv in R1, R2.
    assert (Hl : length (level_open exact vp (map ra_axis us)) = length us)
      by (unfold level_open; now rewrite !map_length).
    rewrite Hl in R1, R2.
    replace (length us - (length us - i - 1) - 1)%nat with i in R1, R2 by lia.
    rewrite (meta_open exact vp (map ra_axis us) i (ra_axis u)) in R1, R2
      by (rewrite nth_error_map, Hi; reflexivity).
    split; assumption. }
  destruct (level_p2i_ok exact vp (map ra_axis us) (fun k => XFin (pos k)) init) as (idx & w & E & P & W & _).
  - intros i ax Hi. apply nth_error_map_inv in Hi. destruct Hi as (u & Hi & ->).
    destruct (ra_p2i vp u (pos (length (map ra_axis us) - i - 1)%nat) (Hu i u Hi)) as (k & wk & Ek & _).
    eexists. exact Ek.
  - exists idx. split.
    + destruct w; [| exact E]. exfalso.
      destruct (W eq_refl) as (i & ax & Hi & Ei). apply nth_error_map_inv in Hi.
      destruct Hi as (u & Hi & ->). rewrite map_length in Ei.
      destruct (Hd i u Hi) as [D1 D2].
      destruct (range_dim vp u _ (Hu i u Hi) D1 D2) as (k & Ek & _). congruence.
    + intros i u Hi. destruct (P i (ra_axis u)) as (wi & Ei & _).
      { rewrite nth_error_map, Hi. reflexivity. }
      rewrite map_length in Ei. destruct (Hd i u Hi) as [D1 D2].
      destruct (range_dim vp u _ (Hu i u Hi) D1 D2) as (k & Ek & K1 & K2).
      assert (Hk : k = idx i) by congruence. rewrite <- Hk.
      replace (user_dim (length us) i) with (length us - i - 1)%nat by (unfold user_dim; lia).
      auto.
Qed.

Lemma range_shape : forall u, ra_ok u -> (2 <= ra_n u)%Z ->
  exists lo hi,
    lo <= hi /\ lo = Rmin (centre u 0) (centre u (ra_n u - 1)) /\
    hi = Rmax (centre u 0) (centre u (ra_n u - 1)) /\
    dm_min (open_dim exact VertexCentered (ra_axis u)) = XFin lo /\
    dm_max (open_dim exact VertexCentered (ra_axis u)) = XFin hi /\
    dm_min (open_dim exact CellCentered (ra_axis u))
      = XFin (lo - Rabs (ra_s u) * (1 / 2 - 1 / 10000000000)) /\
    dm_max (open_dim exact CellCentered (ra_axis u))
      = XFin (hi + Rabs (ra_s u) * (1 / 2 - 1 / 10000000000)) /\
    (forall vp, dm_scal (open_dim exact vp (ra_axis u)) = XFin (Rabs (centre u 1 - centre u 0))).
Proof.
  intros u Hu H2. pose proof Hu as (Hn & Hs & _).
  exists (Rmin (centre u 0) (centre u (ra_n u - 1))), (Rmax (centre u 0) (centre u (ra_n u - 1))).
  assert (Hm : 0 <= IZR (ra_n u - 1)) by (apply IZR_le; lia).
  assert (Hr : 0 < IZR (ra_n u - 1)) by (apply IZR_lt; lia).
  assert (C0 : centre u 0 = ra_c0 u) by (unfold centre; ring).
  assert (C1 : centre u (ra_n u - 1) = ra_c0 u + ra_s u * IZR (ra_n u - 1)) by (unfold centre; ring).
  split; [unfold Rmin, Rmax; destruct (Rle_dec (centre u 0) (centre u (ra_n u - 1))); lra |].
  split; [reflexivity |]. split; [reflexivity |].
  rewrite !ra_open2 by (assumption || lia). cbn [dm_min dm_max].
  unfold ra_h. rewrite C0, C1, !Rmult_0_r.
  split; [f_equal; f_equal; ring |]. split; [f_equal; f_equal; ring |].
  set (N := IZR (ra_n u - 1)) in *. set (h := 1 / 2 - 1 / 10000000000).
  assert (Hh : 0 < h) by (unfold h; lra).
  destruct (Rle_or_lt 0 (ra_s u)) as [Sg | Sg].
  - assert (0 < ra_s u) by lra. rewrite Rabs_right by lra.
    assert (0 < ra_s u * N) by now apply Rmult_lt_0_compat.
    assert (0 < ra_s u * h) by now apply Rmult_lt_0_compat.
    split; [f_equal; rewrite !Rmin_left by lra; ring |].
    split; [f_equal; rewrite !Rmax_right by lra; ring |].
    intros vp. rewrite ra_open2 by (assumption || lia). cbn [dm_scal]. f_equal. f_equal.
    unfold centre. ring.
  - rewrite Rabs_left by lra.
    assert (ra_s u * N < 0) by nra. assert (ra_s u * h < 0) by nra.
    split; [f_equal; rewrite !Rmin_right by lra; ring |].
    split; [f_equal; rewrite !Rmax_left by lra; ring |].
    intros vp. rewrite ra_open2 by (assumption || lia). cbn [dm_scal]. f_equal. f_equal.
    unfold centre. ring.
Qed.

(** ** C24: a grid behaves like the product of one-dimensional grids, in
    reversed order *)

Lemma rev_nth_error : forall {X} (l : list X) n x,
  nth_error (rev l) n = Some x -> (n < length l)%nat /\ nth_error l (length l - n - 1) = Some x.
Proof.
  intros X l n x H.
  assert (Hn : (n < length l)%nat) by (rewrite <- rev_length; apply nth_error_Some; congruence).
  split; [exact Hn |].
  apply nth_error_nth with (d := x) in H. rewrite rev_nth in H by exact Hn.
  rewrite (nth_error_nth' l x) by lia. f_equal.
  replace (length l - n - 1)%nat with (length l - S n)%nat by lia. exact H.
Qed.

Lemma order_meta : forall A vp axes n ax, nth_error (rev axes) n = Some ax ->
  let lv := level_open A vp axes in
  let lv1 := level_open A vp [ax] in
  level_min A lv n = level_min A lv1 0 /\ level_max A lv n = level_max A lv1 0 /\
  level_delta A lv n = level_delta A lv1 0.
Proof.
  intros A vp axes n ax H lv lv1. apply rev_nth_error in H. destruct H as [Hn H].
  unfold level_min, level_max, level_delta, lv, lv1.
  assert (Hl : length (level_open A vp axes) = length axes) by (unfold level_open; apply map_length).
  rewrite Hl. rewrite (meta_open A vp axes _ ax H).
  change (meta A (level_open A vp [ax]) (length (level_open A vp [ax]) - 0 - 1)) with (open_dim A vp ax).
  auto.
Qed.

Lemma order_index : forall A vp axes n ax pos init idx w,
  nth_error (rev axes) n = Some ax ->
  pos2index A (level_open A vp axes) pos init = Ok (idx, w) ->
  exists idx1 w1,
    pos2index A (level_open A vp [ax]) (fun _ => pos n) (fun _ => 0%Z) = Ok (idx1, w1) /\
    nth_error (rev (map idx (seq 0 (length axes)))) n = Some (idx1 0%nat).
Proof.
  intros A vp axes n ax pos init idx w H E. apply rev_nth_error in H. destruct H as [Hn H].
  unfold pos2index in E.
  assert (Hl : length (level_open A vp axes) = length axes) by (unfold level_open; apply map_length).
  rewrite Hl in E.
  pose proof (p2i_loop_spec A (meta A (level_open A vp axes)) (length axes) (length axes)
                pos init false ltac:(lia)) as S.
  rewrite E in S. destruct S as (S1 & _).
  destruct (S1 (length axes - n - 1)%nat ltac:(lia)) as (wi & Ei & _).
  rewrite (meta_open A vp axes _ ax H) in Ei.
  replace (length axes - (length axes - n - 1) - 1)%nat with n in Ei by lia.
  exists (upd (fun _ => 0%Z) 0 (idx (length axes - n - 1)%nat)), wi. split.
  - unfold pos2index. cbn [level_open map length pos2index_loop meta nth].
    change (1 - 0 - 1)%nat with 0%nat. cbv beta. rewrite Ei. reflexivity.
  - unfold upd. cbn [Nat.eqb].
    assert (Hr : nth_error (rev (map idx (seq 0 (length axes)))) n
                 = Some (nth n (rev (map idx (seq 0 (length axes)))) 0%Z)).
    { apply nth_error_nth'. rewrite rev_length, map_length, seq_length. exact Hn. }
    rewrite Hr. f_equal. rewrite rev_nth by (rewrite map_length, seq_length; exact Hn).
    rewrite map_length, seq_length.
    rewrite (nth_indep _ 0%Z (idx 0%nat)) by (rewrite map_length, seq_length; lia).
    rewrite map_nth. rewrite seq_nth by lia. change (Nat.eqb 0 0) with true. cbv iota. f_equal. lia.
Qed.

Lemma order_blocks : forall sizes user td arr0 bl n s arr1,
  nth_error (rev sizes) n = Some s ->
  blocked_open sizes user td arr0 = Ok bl ->
  exists bl1, blocked_open [s] (fun _ => user n) (-1) arr1 = Ok bl1 /\
    nth_error (rev (b_bs bl)) n = nth_error (b_bs bl1) 0.
Proof.
  intros sizes user td arr0 bl n s arr1 H E. apply rev_nth_error in H. destruct H as [Hn H].
  destruct (blocked_open_spec _ _ _ _ _ E) as (Hwf & Hsz & Hbs).
  assert (Hpos : Forall (fun s => 0 < s)%nat sizes).
  { apply (blocked_open_ok_iff sizes user td arr0). eauto. }
  assert (Hs : (0 < s)%nat).
  { rewrite Forall_forall in Hpos. apply Hpos. now apply nth_error_In in H. }
  destruct (proj2 (blocked_open_ok_iff [s] (fun _ => user n) (-1)%Z arr1)) as [bl1 E1].
  { repeat constructor. exact Hs. }
  exists bl1. split; [exact E1 |].
  destruct (blocked_open_spec _ _ _ _ _ E1) as (_ & _ & Hb1). rewrite Hb1, Hbs.
  assert (Hle : length (eff_sizes (fun i => user (length sizes - i - 1)%nat) 0 sizes) = length sizes)
    by apply eff_sizes_length.
  rewrite (nth_error_nth' _ 0%nat) by (rewrite rev_length, Hle; exact Hn).
  rewrite rev_nth by (rewrite Hle; exact Hn). rewrite Hle.
  replace (length sizes - S n)%nat with (length sizes - n - 1)%nat by lia.
  rewrite (nth_error_nth _ _ 0%nat (eff_sizes_nth _ _ 0 _ s H)).
  cbn [eff_sizes nth_error]. f_equal. f_equal. f_equal. lia.
Qed.

(** ** IEEE arithmetic *)

Lemma ieee_in_range : forall (off s p : f64) n,
  is_nan (Bmult mode_NE (Bminus mode_NE p off) (inv_scaling ieee s)) = false ->
  (1 <= n <= 2 ^ 53)%Z ->
  exists i w, pos2index_dim ieee off (inv_scaling ieee s) n p = Ok (i, w) /\ (0 <= i < n)%Z.
Proof. intros off s p n H Hn. now apply float_in_range. Qed.

Lemma ieee_monotone : forall (off s p q : f64) n i j wi wj,
  is_nan s = false -> is_finite off = true -> is_finite p = true -> is_finite q = true ->
  is_nan (Bmult mode_NE (Bminus mode_NE p off) (inv_scaling ieee s)) = false ->
  is_nan (Bmult mode_NE (Bminus mode_NE q off) (inv_scaling ieee s)) = false ->
  (1 <= n <= 2 ^ 53)%Z ->
  B2R p <= B2R q ->
  pos2index_dim ieee off (inv_scaling ieee s) n p = Ok (i, wi) ->
  pos2index_dim ieee off (inv_scaling ieee s) n q = Ok (j, wj) ->
  (Bleb (fnum 0 0) s = true -> (i <= j)%Z) /\ (Bleb s (fnum 0 0) = true -> (j <= i)%Z).
Proof.
  intros off s p q n i j wi wj H1 H2 H3 H4 H5 H6 H7 H8 H9 H10.
  rewrite !val_leb. rewrite val_int by lia.
  exact (float_monotone off s p q n i j wi wj H1 H2 H3 H4 H5 H6 H7 H8 H9 H10).
Qed.

Lemma ieee_no_nan : forall (off s p : f64),
  is_finite off = true -> is_finite p = true ->
  (is_finite s = true /\ bpow radix2 (-1022) <= Rabs (B2R s)) \/
  (is_finite (Bminus mode_NE p off) = true /\ (s = B754_infinity false \/ B2R s = 0 /\ is_finite s = true)) ->
  is_nan (Bmult mode_NE (Bminus mode_NE p off) (inv_scaling ieee s)) = false.
Proof.
  intros off s p Fo Fp [[Fs Hs] | [Fd Hs]].
  - now apply no_nan_normal.
  - apply no_nan_zero; [exact Fd |].
    destruct (val_fin_inv _ _ (val_int 0 ltac:(lia))) as [F0 _].
    destruct Hs as [-> | [Hs Fs]].
    + rewrite inv_float by reflexivity. exact F0.
    + destruct s as [sg | sg | | sg m e H]; try discriminate.
      * rewrite inv_float by reflexivity. exact F0.
      * exfalso. destruct sg; revert Hs; cbn; apply F2R_neq_0; cbn; lia.
Qed.

(** Size-one (or flat) dimensions: index 0 for every coordinate whose distance
    to the offset does not overflow. *)
Lemma ieee_size_one : forall vp v (p : f64),
  let m := open_dim ieee vp (@Axis ieee 1 v) in
  is_finite (dm_off m) = true -> is_finite p = true ->
  is_finite (Bminus mode_NE p (dm_off m)) = true ->
  pos2index_dim ieee (dm_off m) (dm_sinv m) (dm_size m) p = Ok (0%Z, false).
Proof.
  intros vp v p m Fo Fp Fd.
  destruct (val_fin_inv _ _ (val_int 0 ltac:(lia))) as [F0 E0].
  assert (Em : dm_sinv m = fnum 0 0 /\ dm_size m = 1%Z).
  { unfold m, open_dim, get_scaling. cbn [x_size]. change (1 =? 1)%Z with true. cbv iota.
    cbn [ieee a_isinf a_inf dm_sinv dm_size]. split; reflexivity. }
  destruct Em as [-> ->]. apply p2i_float_zero; auto. unfold two53. lia.
Qed.

(** Dimensions of at least two cells: a read at any finite coordinate (so also
    at finite end points of the range) is defined and in range. *)
Lemma ieee_endpoints : forall vp (ax : axis ieee) (p : f64),
  let m := open_dim ieee vp ax in
  (2 <= x_size ax <= 2 ^ 53)%Z ->
  is_finite (dm_off m) = true -> is_finite (get_scaling ieee ax) = true ->
  bpow radix2 (-1022) <= Rabs (B2R (get_scaling ieee ax)) ->
  is_finite p = true ->
  exists i w, pos2index_dim ieee (dm_off m) (dm_sinv m) (dm_size m) p = Ok (i, w) /\
    (0 <= i < x_size ax)%Z.
Proof.
  intros vp ax p m Hn Fo Fs Hs Fp.
  assert (Hinf : a_isinf ieee (get_scaling ieee ax) = false).
  { cbn [ieee a_isinf]. destruct (get_scaling ieee ax); try discriminate; reflexivity. }
  assert (Em : dm_off m = get_offset ieee ax /\ dm_sinv m = inv_scaling ieee (get_scaling ieee ax) /\ dm_size m = x_size ax).
  { unfold m, open_dim. rewrite Hinf. auto. }
  destruct Em as (Eo & -> & ->). rewrite Eo in *.
  apply ieee_in_range; [| lia].
  apply ieee_no_nan; auto.
Qed.

(** *** Witnesses *)

(** 0.49999999999999994 on the grid 0, 1. *)
Definition w22 : f64 := fnum 0x1fffffffffffff (-54).

Lemma round_up_witness :
  let ax := @Axis ieee 2 None in
  let m := open_dim ieee VertexCentered ax in
  pos2index_dim ieee (dm_off m) (dm_sinv m) (dm_size m) w22 = Ok (1%Z, false) /\
  Rabs (B2R w22 - 0) < Rabs (B2R w22 - 1).
Proof.
  split; [vm_compute; reflexivity |].
  assert (E : B2R w22 = IZR 0x1fffffffffffff * / IZR (2 ^ 54)).
  { unfold w22. cbv [B2R fnum binary_normalize SF2B]. vm_compute binary_round. cbn. reflexivity. }
  rewrite E. cbn. rewrite Rabs_right by lra. rewrite Rabs_left by lra. lra.
Qed.
