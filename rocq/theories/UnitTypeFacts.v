(** * The unit tests of one thread: proofs *)
From Coq Require Import ZArith Reals Bool List Lia Lra.
From Flocq Require Import Core.Core IEEE754.BinarySingleNaN.
From Verif Require Import Base SyncModel TypesModel CoordModel CoordExact CoordFloat CoordFloat2 CoordFloat3 CoordFacts RangeFacts UnitTypeModel.
Import ListNotations.

(** ** Once *)
Lemma o_first s n : o_state s = false -> o_mutex s = None -> o_thr s 0 = OThr ORead (S n) ->
  exists s', o_call 8 s = Some s' /\ o_state s' = true /\ o_thr s' 0 = OThr ORead n /\
    o_started s' = S (o_started s) /\ o_ended s' = S (o_ended s).
Proof.
  destruct s as [st mx a b th]. cbn. intros -> -> E.
  unfold o_call, ostep. cbn. repeat (rewrite E; cbn). eexists. split; [reflexivity|]. cbn. unfold upd. change (0 =? 0) with true. cbn. rewrite ?Nat.sub_0_r. auto 9.
Qed.
Lemma o_later s n : o_state s = true -> o_thr s 0 = OThr ORead (S n) ->
  exists s', o_call 8 s = Some s' /\ o_state s' = true /\ o_thr s' 0 = OThr ORead n /\
    o_started s' = o_started s /\ o_ended s' = o_ended s.
Proof.
  destruct s as [st mx a b th]. cbn. intros -> E.
  unfold o_call, ostep. cbn. repeat (rewrite E; cbn). eexists. split; [reflexivity|]. cbn. unfold upd. change (0 =? 0) with true. cbn. rewrite ?Nat.sub_0_r. auto 9.
Qed.
Lemma o_rest n : forall s, o_state s = true -> o_thr s 0 = OThr ORead n -> o_started s = 1 -> o_ended s = 1 ->
  o_calls n s = repeat (Some 1) n.
Proof.
  induction n as [|n IH]; intros s H1 H2 H3 H4; [reflexivity|].
  destruct (o_later s n H1 H2) as (s' & E & A & B & C & D). cbn [o_calls repeat]. rewrite E, C, D, H3, H4.
  cbn [Nat.eqb]. f_equal. apply IH; congruence.
Qed.
Lemma once_test n : test_once n = repeat (Some 1) n.
Proof.
  destruct n as [|n]; [reflexivity|]. unfold test_once.
  destruct (o_first (oinit (fun t => if t =? 0 then S n else 0)) n eq_refl eq_refl eq_refl) as (s' & E & A & B & C & D).
  cbn [o_calls repeat]. rewrite E, C, D. cbn. f_equal. now apply o_rest.
Qed.

(** ** ArrayType *)
Lemma array_test e sz : test_array_size e sz = if sz mod sizeof e =? 0 then sz else 0.
Proof.
  unfold test_array_size, cinit, csize. cbn [unit_of].
  assert (0 < sizeof e) by (destruct e; cbn; lia).
  pose proof (Nat.div_mod sz (sizeof e) ltac:(lia)) as D.
  destruct (sz mod sizeof e =? 0) eqn:M.
  - unfold c_all, cstep, upd, unit_of. cbn -[Nat.div Nat.modulo Nat.mul sizeof].
    do 9 (change (0 =? 0) with true; cbn -[Nat.div Nat.modulo Nat.mul sizeof]; rewrite ?M).
    apply Nat.eqb_eq in M. nia.
  - unfold c_all, cstep, upd, unit_of. cbn -[Nat.div Nat.modulo Nat.mul sizeof].
    do 9 (change (0 =? 0) with true; cbn -[Nat.div Nat.modulo Nat.mul sizeof]; rewrite ?M). reflexivity.
Qed.

(** ** PassThrough *)
Local Open Scope R_scope.

Lemma leb_sub (x d y a b : f64) : is_finite x = true -> is_finite d = true -> is_finite a = true -> is_finite b = true ->
  y = Bplus mode_NE a b -> B2R x - B2R d <= B2R a + B2R b -> Bleb (Bminus mode_NE x d) y = true.
Proof.
  intros Fx Fd Fa Fb -> H. rewrite val_leb, (val_sub x d Fx Fd), (val_add a b Fa Fb). apply sat_mono, rnd_mono, H.
Qed.
Lemma leb_add (x d y a b : f64) : is_finite x = true -> is_finite d = true -> is_finite a = true -> is_finite b = true ->
  y = Bplus mode_NE a b -> B2R a + B2R b <= B2R x + B2R d -> Bleb y (Bplus mode_NE x d) = true.
Proof.
  intros Fx Fd Fa Fb -> H. rewrite val_leb, (val_add x d Fx Fd), (val_add a b Fa Fb). apply sat_mono, rnd_mono, H.
Qed.

Lemma tol_val : is_finite ts_tol = true /\ 9 / 100000 <= B2R ts_tol.
Proof.
  destruct (computed ts_tol false 7378697629483821 (-66)) as [F E]; [vm_compute; reflexivity|].
  split; [exact F|]. rewrite E. unfold F2R. cbn [Fnum Fexp cond_Zopp]. change (bpow radix2 (-66)) with (/ 73786976294838206464). lra.
Qed.

Lemma pass_max W : (2 <= W <= 2 ^ 36)%Z ->
  let x := level_max ieee (level_open ieee CellCentered [@Axis ieee W None]) 0 in
  is_finite x = true /\ Rabs (B2R x - (IZR W - 1 / 2)) <= 2 / 100000.
Proof.
  intros HW x.
  destruct (val_fin_inv _ _ (val_int 0 ltac:(lia))) as [F0 E0].
  destruct (val_fin_inv _ _ (val_int 1 ltac:(lia))) as [F1 E1].
  destruct (val_fin_inv _ _ (val_int (W - 1) ltac:(lia))) as [FW EW].
  assert (HR : 1 <= IZR (W - 1) <= 68719476736).
  { split; apply IZR_le; lia. }
  (* the last cell *)
  assert (M : val (Bmult mode_NE (fnum 1 0) (fnum (W - 1) 0)) = XFin (IZR (W - 1))).
  { rewrite val_mul by assumption. rewrite E1, EW, Rmult_1_l, rnd_IZR by lia. unfold sat.
    rewrite Rlt_bool_true; [reflexivity|]. apply big_53. lia. }
  destruct (val_fin_inv _ _ M) as [FM EM].
  assert (P : val (Bplus mode_NE (fnum 0 0) (Bmult mode_NE (fnum 1 0) (fnum (W - 1) 0))) = XFin (IZR (W - 1))).
  { rewrite val_add by assumption. rewrite E0, EM, Rplus_0_l, rnd_IZR by lia. unfold sat.
    rewrite Rlt_bool_true; [reflexivity|]. apply big_53. lia. }
  destruct (val_fin_inv _ _ P) as [FP EP].
  (* half a cell *)
  destruct (computed (Bmult mode_NE (fnum 1 0) f_half) false 9007199252939552 (-54)) as [FH EH]; [vm_compute; reflexivity|].
  destruct (computed (Bminus mode_NE (fnum 0 0) (Bmult mode_NE (fnum 1 0) f_half)) true 9007199252939552 (-54)) as [FN EN]; [vm_compute; reflexivity|].
  unfold F2R in EH, EN. cbn [Fnum Fexp cond_Zopp Z.opp] in EH, EN. change (bpow radix2 (-54)) with (/ 18014398509481984) in EH, EN.
  destruct (fl_add _ _ FP FH) as [FX (e & He & EX)].
  { rewrite EP, EH. rewrite Rabs_pos_eq by lra. apply Rle_trans with (bpow radix2 40); [|apply bpow_le; lia].
    change (bpow radix2 40) with 1099511627776. lra. }
  rewrite EP, EH in EX.
  assert (X : x = Bplus mode_NE (Bplus mode_NE (fnum 0 0) (Bmult mode_NE (fnum 1 0) (fnum (W - 1) 0))) (Bmult mode_NE (fnum 1 0) f_half)).
  { subst x. unfold level_max, level_open, meta. cbn [length map Nat.sub nth]. unfold open_dim, get_scaling, get_offset. cbn [x_size x_var].
    replace (W =? 1)%Z with false by (symmetry; apply Z.eqb_neq; lia).
    change (a_isinf ieee (a_ofZ ieee 1)) with false. cbn [dm_max]. unfold std_max.
    change (a_ofZ ieee 1) with (fnum 1 0). change (a_ofZ ieee 0) with (fnum 0 0). change (a_ofZ ieee (W - 1)) with (fnum (W - 1) 0).
    change (a_sub ieee (a_half ieee) (a_prec ieee)) with f_half.
    change (a_add ieee) with (@Bplus 53 1024 _ _ mode_NE). change (a_sub ieee) with (@Bminus 53 1024 _ _ mode_NE).
    change (a_mul ieee) with (@Bmult 53 1024 _ _ mode_NE). change (a_ltb ieee) with (@Bltb 53 1024).
    rewrite val_ltb, (val_finite _ FN), (val_finite _ FX), EN, EX. cbn [xltb].
    destruct (Rlt_dec _ _) as [|N]; [reflexivity|]. exfalso. apply N.
    apply Rabs_le_inv in He. rewrite ulp1_val in He.
    apply Rlt_trans with 0; [lra|]. apply Rmult_lt_0_compat; lra. }
  rewrite X. split; [exact FX|]. rewrite EX. rewrite minus_IZR in *.
  set (a := IZR W - 1 + 9007199252939552 * / 18014398509481984) in *.
  assert (K : Rabs (a * e) <= 68719476737 * / 9007199254740992).
  { apply abs_mul; [|now rewrite <- ulp1_val]. unfold a. rewrite Rabs_pos_eq; lra. }
  apply Rabs_le. apply Rabs_le_inv in K. replace (a * (1 + e)) with (a + a * e) by ring. unfold a in *. lra.
Qed.

Lemma pass_test W : (2 <= W <= 2 ^ 36)%Z -> test_pass_through W = true.
Proof.
  intros HW. destruct (pass_max W HW) as [FX EX]. destruct tol_val as [FT ET].
  destruct (val_fin_inv _ _ val_half) as [Fh Eh].
  destruct (val_fin_inv _ _ (val_int (W - 1) ltac:(lia))) as [FW EW].
  unfold test_pass_through, ts_delta.
  rewrite (leb_sub _ _ _ _ _ FX FT FW Fh eq_refl), (leb_add _ _ _ _ _ FX FT FW Fh eq_refl).
  - assert (level_delta ieee (level_open ieee CellCentered [@Axis ieee W None]) 0 = Babs (fnum 1 0)) as ->.
    { unfold level_delta, level_open, meta. cbn [length map Nat.sub nth]. unfold open_dim, get_scaling. cbn [x_size x_var].
      replace (W =? 1)%Z with false by (symmetry; apply Z.eqb_neq; lia). reflexivity. }
    vm_compute. reflexivity.
  - apply Rabs_le_inv in EX. rewrite EW, Eh, minus_IZR. lra.
  - apply Rabs_le_inv in EX. rewrite EW, Eh, minus_IZR. lra.
Qed.

(** One cell: the range is the whole line. *)
Lemma pass_one : test_pass_through 1 = false.
Proof. vm_compute. reflexivity. Qed.
