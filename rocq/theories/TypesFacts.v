(** * Facts about cell types *)
From Coq Require Import ZArith Reals List Bool Arith Lia Lra.
From Flocq Require Import Core.Core IEEE754.BinarySingleNaN IEEE754.Bits.
From Flocq Require IEEE754.Binary.
From Verif Require Import Base TypesModel.
Import ListNotations.
Local Open Scope Z_scope.

(** ** Specification *)
Definition is_int (t : elem) : Prop := t = UChar \/ t = Int \/ t = Long.
Definition bits_of (t : elem) : Z := match t with UChar => 8 | Int => 32 | Float => 32 | _ => 64 end.
(** The mathematical value; infinities and NaN have none. *)
Definition has_value (v : cval) (x : R) : Prop :=
  match v with
  | VI z => x = IZR z
  | VF f => is_finite f = true /\ x = B2R f
  | VD f => is_finite f = true /\ x = B2R f
  end.
(** [z] is a value of the integer type [t]. *)
Definition in_type (t : elem) (z : Z) : Prop :=
  match t with
  | UChar => 0 <= z < 256
  | Int => - 2 ^ 31 <= z < 2 ^ 31
  | Long => - 2 ^ 63 <= z < 2 ^ 63
  | _ => False
  end.
Definition bytes (bs : list Z) : Prop := Forall (fun b => 0 <= b < 256) bs.

(** ** Bytes and integers *)
Lemma le_le_bytes n : forall z, le (le_bytes n z) = z mod 256 ^ Z.of_nat n.
Proof.
  induction n as [|n IH]; intros z.
  - cbn. rewrite Z.mod_1_r. reflexivity.
  - cbn [le_bytes le]. rewrite IH. rewrite Nat2Z.inj_succ, Z.pow_succ_r by lia.
    pose proof (Z.pow_pos_nonneg 256 (Z.of_nat n) ltac:(lia) ltac:(lia)) as P.
    rewrite (Z.rem_mul_r z 256 (256 ^ Z.of_nat n)) by lia. reflexivity.
Qed.

Lemma le_bytes_length n z : length (le_bytes n z) = n.
Proof. revert z; induction n; intros z; cbn; auto. Qed.
Lemma le_bytes_bytes n : forall z, bytes (le_bytes n z).
Proof.
  induction n; intros z; cbn; constructor; [apply Z.mod_pos_bound; lia|apply IHn].
Qed.

Lemma signed_id bits z : 0 < bits -> - 2 ^ (bits - 1) <= z < 2 ^ (bits - 1) -> signed bits z = z.
Proof.
  intros B H. unfold signed.
  assert (P : 2 ^ bits = 2 * 2 ^ (bits - 1)).
  { rewrite <- Z.pow_succ_r by lia. f_equal. lia. }
  destruct (Z_lt_ge_dec z 0) as [L|L].
  - assert (E : z mod 2 ^ bits = z + 2 ^ bits).
    { symmetry. apply Z.mod_unique with (-1); lia. }
    rewrite E. destruct (Z.ltb_spec (z + 2 ^ bits) (2 ^ (bits - 1))); lia.
  - rewrite Z.mod_small by lia. destruct (Z.ltb_spec z (2 ^ (bits - 1))); lia.
Qed.
Lemma signed_mod bits z : 0 < bits -> signed bits (z mod 2 ^ bits) = signed bits z.
Proof. intros B. unfold signed. rewrite Zmod_mod. reflexivity. Qed.
Lemma signed_spec bits z : 0 < bits ->
  - 2 ^ (bits - 1) <= signed bits z < 2 ^ (bits - 1) /\ (2 ^ bits | signed bits z - z).
Proof.
  intros B. unfold signed.
  assert (P : 2 ^ bits = 2 * 2 ^ (bits - 1)).
  { rewrite <- Z.pow_succ_r by lia. f_equal. lia. }
  pose proof (Z.pow_pos_nonneg 2 (bits - 1) ltac:(lia) ltac:(lia)) as Q.
  pose proof (Z.mod_pos_bound z (2 ^ bits) ltac:(lia)) as M.
  pose proof (Z.div_mod z (2 ^ bits) ltac:(lia)) as D.
  destruct (Z.ltb_spec (z mod 2 ^ bits) (2 ^ (bits - 1))).
  - split; [lia|]. exists (- (z / 2 ^ bits)). lia.
  - split; [lia|]. exists (- (z / 2 ^ bits) - 1). lia.
Qed.

Lemma in_type_fits t z : is_int t -> (fits t z = true <-> in_type t z).
Proof.
  intros [->|[->| ->]]; unfold fits, in_type; cbn [int_range fst snd];
  rewrite andb_true_iff, !Z.leb_le; lia.
Qed.

Lemma wrap_id t z : is_int t -> in_type t z -> wrap t z = z.
Proof.
  intros [->|[->| ->]] H; cbn [wrap in_type] in *.
  - apply Z.mod_small. exact H.
  - apply signed_id; [lia|exact H].
  - apply signed_id; [lia|exact H].
Qed.
Lemma wrap_spec t z : is_int t -> in_type t (wrap t z) /\ (2 ^ bits_of t | wrap t z - z).
Proof.
  intros [->|[->| ->]]; cbn [wrap bits_of in_type].
  - split; [apply Z.mod_pos_bound; reflexivity|].
    exists (- (z / 2 ^ 8)). pose proof (Z.div_mod z (2 ^ 8) ltac:(discriminate)). lia.
  - apply (signed_spec 32 z). reflexivity.
  - apply (signed_spec 64 z). reflexivity.
Qed.

Lemma decode_int t z : is_int t -> in_type t z -> decode t (le_bytes (sizeof t) z) = VI z.
Proof.
  intros [->|[->| ->]] H; unfold decode, sizeof; rewrite le_le_bytes; f_equal.
  - change (256 ^ Z.of_nat 1) with (2 ^ 8). rewrite Zmod_mod. apply Z.mod_small. exact H.
  - change (256 ^ Z.of_nat 4) with (2 ^ 32). rewrite signed_mod by reflexivity.
    apply signed_id; [reflexivity|exact H].
  - change (256 ^ Z.of_nat 8) with (2 ^ 64). rewrite signed_mod by reflexivity.
    apply signed_id; [reflexivity|exact H].
Qed.

Lemma bits_range mw ew x : 0 < mw -> 0 < ew -> 0 <= bits_of_binary_float mw ew x < 2 ^ (mw + ew + 1).
Proof. intros A B. apply bits_of_binary_float_range; assumption. Qed.
Lemma decode_f32 f : decode Float (le_bytes 4 (bits_of_b32 f)) = VF (Binary.B2BSN 24 128 f).
Proof.
  unfold decode. rewrite le_le_bytes. change (256 ^ Z.of_nat 4) with (2 ^ 32).
  rewrite Zmod_mod, Z.mod_small.
  - unfold b32_of_bits, bits_of_b32. rewrite binary_float_of_bits_of_binary_float. reflexivity.
  - exact (bits_range 23 8 f eq_refl eq_refl).
Qed.
Lemma decode_f64 f : decode Double (le_bytes 8 (bits_of_b64 f)) = VD (Binary.B2BSN 53 1024 f).
Proof.
  unfold decode. rewrite le_le_bytes. change (256 ^ Z.of_nat 8) with (2 ^ 64).
  rewrite Zmod_mod, Z.mod_small.
  - unfold b64_of_bits, bits_of_b64. rewrite binary_float_of_bits_of_binary_float. reflexivity.
  - exact (bits_range 52 11 f eq_refl eq_refl).
Qed.

Lemma decode_int_val t bs : is_int t -> exists z, decode t bs = VI z /\ in_type t z.
Proof.
  intros [->|[->| ->]]; eexists; (split; [reflexivity|]).
  - apply Z.mod_pos_bound. reflexivity.
  - apply (signed_spec 32). reflexivity.
  - apply (signed_spec 64). reflexivity.
Qed.

(** ** Conversion *)
Lemma trunc_exact prec emax (H : Prec_lt_emax prec emax) (f : binary_float prec emax) z :
  B2R f = IZR z -> Btrunc f = z.
Proof.
  intros E. apply eq_IZR. rewrite Btrunc_correct by exact H. rewrite E.
  apply round_generic; [apply valid_rnd_ZR|]. apply generic_format_FIX.
  exists (Defs.Float radix2 z 0); [unfold F2R; cbn; lra|reflexivity].
Qed.

Lemma conv_exact v b z : is_int b -> has_value v (IZR z) -> in_type b z -> conv b v = Ok (VI z).
Proof.
  intros I H T.
  assert (F : fits b z = true) by (apply in_type_fits; assumption).
  destruct v as [y|f|f]; cbn [has_value] in H.
  - apply eq_IZR in H. subst y.
    destruct I as [->|[->| ->]]; cbn [conv]; rewrite wrap_id; auto; unfold is_int; auto.
  - destruct H as [Fi E]. symmetry in E.
    apply (trunc_exact 24 128 prec32') in E.
    destruct I as [->|[->| ->]]; cbn [conv]; unfold to_int; rewrite Fi, E, F; reflexivity.
  - destruct H as [Fi E]. symmetry in E.
    apply (trunc_exact 53 1024 prec64') in E.
    destruct I as [->|[->| ->]]; cbn [conv]; unfold to_int; rewrite Fi, E, F; reflexivity.
Qed.

Lemma conv_modulo z b : is_int b ->
  exists r, conv b (VI z) = Ok (VI r) /\ in_type b r /\ (2 ^ bits_of b | r - z).
Proof.
  intros I. exists (wrap b z). split; [destruct I as [->|[->| ->]]; reflexivity|]. apply wrap_spec; exact I.
Qed.

(** Rounding to the nearest [double] / [float], ties to even. *)
Definition rnd64 (x : R) : R := round radix2 (FLT_exp (3 - 1024 - 53) 53) ZnearestE x.
Definition rnd32 (x : R) : R := round radix2 (FLT_exp (3 - 128 - 24) 24) ZnearestE x.

Lemma norm64 m e s x : F2R (Defs.Float radix2 m e) = x -> (Rabs (rnd64 x) < bpow radix2 1024)%R ->
  let f := binary_normalize 53 1024 prec64 prec64' mode_NE m e s in
  is_finite f = true /\ B2R f = rnd64 x.
Proof.
  intros E B f. pose proof (binary_normalize_correct 53 1024 prec64 prec64' mode_NE m e s) as C.
  cbv zeta in C. rewrite E in C.
  change (round radix2 (SpecFloat.fexp 53 1024) (round_mode mode_NE) x) with (rnd64 x) in C.
  rewrite Rlt_bool_true in C by exact B. destruct C as (C1 & C2 & _). split; assumption.
Qed.
Lemma norm32 m e s x : F2R (Defs.Float radix2 m e) = x -> (Rabs (rnd32 x) < bpow radix2 128)%R ->
  let f := binary_normalize 24 128 prec32 prec32' mode_NE m e s in
  is_finite f = true /\ B2R f = rnd32 x.
Proof.
  intros E B f. pose proof (binary_normalize_correct 24 128 prec32 prec32' mode_NE m e s) as C.
  cbv zeta in C. rewrite E in C.
  change (round radix2 (SpecFloat.fexp 24 128) (round_mode mode_NE) x) with (rnd32 x) in C.
  rewrite Rlt_bool_true in C by exact B. destruct C as (C1 & C2 & _). split; assumption.
Qed.

Lemma F2R_int z : F2R (Defs.Float radix2 z 0) = IZR z.
Proof. unfold F2R; cbn. lra. Qed.

Lemma rnd64_b53 (f : f64) : is_finite f = true -> rnd64 (B2R f) = B2R f.
Proof.
  intros F. apply round_generic; [apply valid_rnd_N|]. apply (generic_format_B2R 53 1024).
Qed.
Lemma rnd32_b24 (f : f32) : is_finite f = true -> rnd32 (B2R f) = B2R f.
Proof.
  intros F. apply round_generic; [apply valid_rnd_N|]. apply (generic_format_B2R 24 128).
Qed.
Lemma rnd64_b24 (f : f32) : rnd64 (B2R f) = B2R f.
Proof.
  apply round_generic; [apply valid_rnd_N|].
  generalize (generic_format_B2R 24 128 f). apply generic_inclusion_mag.
  intros _. unfold SpecFloat.fexp, FLT_exp, SpecFloat.emin. lia.
Qed.

Lemma rabs_lt_emax64 x : (Rabs x < bpow radix2 1023)%R -> (Rabs (rnd64 x) < bpow radix2 1024)%R.
Proof.
  intros H. apply Rle_lt_trans with (bpow radix2 1023); [|apply bpow_lt; reflexivity].
  apply abs_round_le_generic; [apply FLT_exp_valid; reflexivity|apply valid_rnd_N| |lra].
  apply generic_format_bpow. unfold FLT_exp. lia.
Qed.
Lemma rabs_lt_emax32 x : (Rabs x < bpow radix2 127)%R -> (Rabs (rnd32 x) < bpow radix2 128)%R.
Proof.
  intros H. apply Rle_lt_trans with (bpow radix2 127); [|apply bpow_lt; reflexivity].
  apply abs_round_le_generic; [apply FLT_exp_valid; reflexivity|apply valid_rnd_N| |lra].
  apply generic_format_bpow. unfold FLT_exp. lia.
Qed.

Lemma B2R_cond s m e H : B2R (B754_finite s m e H : f32) = F2R (Defs.Float radix2 (cond_Zopp s (Zpos m)) e).
Proof. reflexivity. Qed.

(** Reading as [double]: exact for float, double, int, byte; nearest double for long. *)
Lemma conv_double v x : has_value v x ->
  (forall z, v = VI z -> in_type Long z) ->
  exists f, conv Double v = Ok (VD f) /\ is_finite f = true /\ B2R f = rnd64 x.
Proof.
  intros H L. destruct v as [z|f|f]; cbn [has_value] in H; cbn [conv].
  - exists (z_f64 z). split; [reflexivity|]. subst x. apply norm64.
    + apply F2R_int.
    + apply rabs_lt_emax64. specialize (L z eq_refl). cbn in L.
      apply Rle_lt_trans with (bpow radix2 64); [|apply bpow_lt; reflexivity].
      rewrite <- abs_IZR. change (bpow radix2 64) with (IZR (2 ^ 64)). apply IZR_le. lia.
  - destruct H as [Fi ->]. exists (f32_f64 f). split; [reflexivity|].
    destruct f as [s|s| |s m e E]; try discriminate Fi.
    + split; [reflexivity|]. cbn. unfold rnd64. rewrite round_0; [reflexivity|apply valid_rnd_N].
    + apply norm64; [reflexivity|]. rewrite rnd64_b24.
      eapply Rlt_trans; [apply abs_B2R_lt_emax|apply bpow_lt; reflexivity].
  - destruct H as [Fi ->]. exists f. split; [reflexivity|]. split; [exact Fi|].
    symmetry. apply rnd64_b53. exact Fi.
Qed.
Lemma conv_float v x : has_value v x ->
  (forall z, v = VI z -> in_type Long z) -> (Rabs (rnd32 x) < bpow radix2 128)%R ->
  exists f, conv Float v = Ok (VF f) /\ is_finite f = true /\ B2R f = rnd32 x.
Proof.
  intros H L B. destruct v as [z|f|f]; cbn [has_value] in H; cbn [conv].
  - exists (z_f32 z). split; [reflexivity|]. subst x. apply norm32; [apply F2R_int|exact B].
  - destruct H as [Fi ->]. exists f. split; [reflexivity|]. split; [exact Fi|].
    symmetry. apply rnd32_b24. exact Fi.
  - destruct H as [Fi ->]. exists (f64_f32 f). split; [reflexivity|].
    destruct f as [s|s| |s m e E]; try discriminate Fi.
    + split; [reflexivity|]. cbn. unfold rnd32. rewrite round_0; [reflexivity|apply valid_rnd_N].
    + apply norm32; [reflexivity|]. exact B.
Qed.
(** Infinities and NaN stay what they are. *)
Lemma conv_special : 
  (forall s, conv Double (VF (B754_infinity s)) = Ok (VD (B754_infinity s))) /\
  (forall s, conv Float (VD (B754_infinity s)) = Ok (VF (B754_infinity s))) /\
  conv Double (VF B754_nan) = Ok (VD B754_nan) /\ conv Float (VD B754_nan) = Ok (VF B754_nan).
Proof. repeat split; reflexivity. Qed.

Lemma rnd64_small z : Z.abs z <= 2 ^ 53 -> rnd64 (IZR z) = IZR z.
Proof.
  intros H. apply round_generic; [apply valid_rnd_N|].
  destruct (Z.eq_dec (Z.abs z) (2 ^ 53)) as [E|E].
  - assert (C : z = 2 ^ 53 \/ z = - 2 ^ 53) by lia. 
    assert (G : generic_format radix2 (FLT_exp (3 - 1024 - 53) 53) (IZR (2 ^ 53))).
    { change (IZR (2 ^ 53)) with (bpow radix2 53). apply generic_format_bpow. unfold FLT_exp. lia. }
    destruct C as [->| ->]; [exact G|]. rewrite opp_IZR. apply generic_format_opp. exact G.
  - apply generic_format_FLT. exists (Defs.Float radix2 z 0).
    + rewrite F2R_int. reflexivity.
    + cbn. change (Z.pow_pos 2 53) with (2 ^ 53). lia.
    + cbn. lia.
Qed.

(** ** Raw copies *)
Lemma copy_spec data buf n : (n <= length data)%nat -> (n <= length buf)%nat ->
  exists buf', copy data buf n = Ok buf' /\ length buf' = length buf /\
    (forall i, (i < n)%nat -> nth_error buf' i = option_map Some (nth_error data i)) /\
    (forall i, (n <= i)%nat -> nth_error buf' i = nth_error buf i).
Proof.
  intros A B. unfold copy.
  rewrite (proj2 (Nat.leb_le _ _) A), (proj2 (Nat.leb_le _ _) B). cbn [andb].
  eexists. split; [reflexivity|].
  assert (L : length (map Some (firstn n data)) = n) by (rewrite map_length, firstn_length; lia).
  split; [rewrite app_length, L, skipn_length; lia|]. split.
  - intros i I. rewrite nth_error_app1 by lia. rewrite nth_error_map. f_equal.
    rewrite <- (firstn_skipn n data) at 2. rewrite nth_error_app1; [reflexivity|].
    rewrite map_length in L. lia.
  - intros i I. rewrite nth_error_app2 by lia. rewrite L.
    rewrite <- (firstn_skipn n buf) at 2. rewrite nth_error_app2; rewrite firstn_length; [|lia].
    f_equal. lia.
Qed.

Lemma get_buf_spec t cell buf : (type_size t <= length cell)%nat -> (type_size t <= length buf)%nat ->
  exists buf', get_buf t cell buf = Ok buf' /\ length buf' = length buf /\
    (forall i, (i < type_size t)%nat -> nth_error buf' i = option_map Some (nth_error cell i)) /\
    (forall i, (type_size t <= i)%nat -> nth_error buf' i = nth_error buf i).
Proof. apply copy_spec. Qed.

Lemma all_some_map bs : all_some (map Some bs) = Some bs.
Proof. induction bs; cbn; [reflexivity|]. rewrite IHbs. reflexivity. Qed.
Lemma all_some_none b : In None b -> all_some b = None.
Proof.
  induction b as [|[x|] b IH]; cbn; intros H; [contradiction| |reflexivity].
  destruct H as [H|H]; [discriminate H|]. rewrite (IH H). reflexivity.
Qed.

(** ** Array and struct cells read as scalars *)
Lemma array_scalar t b cell : ct_kind t <> KBasic -> length cell = type_size t ->
  get_scalar t b cell = if (type_size t =? sizeof b)%nat then Ok (decode b cell) else Ub.
Proof.
  intros K L.
  assert (G : get_scalar t b cell = obind (convert_raw t cell (repeat None (sizeof b))) (read_var b)).
  { unfold get_scalar. destruct (ct_kind t); [congruence|reflexivity|reflexivity]. }
  rewrite G. unfold convert_raw, copy. rewrite repeat_length, L, Nat.leb_refl. cbn [andb].
  destruct (Nat.eqb_spec (type_size t) (sizeof b)) as [E|E].
  - rewrite E, Nat.leb_refl. cbn [obind]. unfold read_var.
    rewrite (skipn_all2 (repeat None (sizeof b))) by (rewrite repeat_length; lia).
    rewrite app_nil_r, firstn_all2 by (rewrite map_length, firstn_length; lia).
    rewrite all_some_map. rewrite firstn_all2 by lia. reflexivity.
  - destruct (Nat.leb_spec (type_size t) (sizeof b)) as [M|M]; [|reflexivity].
    cbn [obind]. unfold read_var.
    rewrite firstn_all2.
    + rewrite all_some_none; [reflexivity|]. apply in_or_app. right.
      assert (S : skipn (type_size t) (repeat (@None Z) (sizeof b)) = repeat None (sizeof b - type_size t)).
      { clear. generalize (type_size t) (sizeof b). intros n m. revert n.
        induction m; intros [|n]; cbn; auto. }
      rewrite S. destruct (sizeof b - type_size t)%nat eqn:D; [lia|]. left; reflexivity.
    + rewrite app_length, map_length, firstn_length, skipn_length, repeat_length. lia.
Qed.

(** ** Type selection *)
Lemma select_type_exact k e n : select_type typelist (CType k e n) = Some (k, e).
Proof. destruct k, e; reflexivity. Qed.
Lemma grid_class a isArray :
  select_type typelist (new_grid a isArray) = Some (if isArray then KArray else KBasic, elem_of a).
Proof. destruct isArray; apply select_type_exact. Qed.
Lemma struct_class a rest : exists t, new_struct (a :: rest) = Ok t /\
  select_type typelist t = Some (KStruct, elem_of a).
Proof. eexists. split; [reflexivity|]. apply select_type_exact. Qed.

(** ** Getters of plain grids *)
Lemma basic_exact e n b cell z : is_int b ->
  has_value (decode e (firstn (sizeof e) cell)) (IZR z) -> in_type b z ->
  get_scalar (CType KBasic e n) b cell = Ok (VI z).
Proof. intros I H T. apply conv_exact; assumption. Qed.
Lemma basic_modulo e n b cell : is_int e -> is_int b ->
  exists z r, decode e (firstn (sizeof e) cell) = VI z /\ in_type e z /\
    get_scalar (CType KBasic e n) b cell = Ok (VI r) /\ in_type b r /\ (2 ^ bits_of b | r - z).
Proof.
  intros E B. destruct (decode_int_val e (firstn (sizeof e) cell) E) as (z & D & T).
  destruct (conv_modulo z b B) as (r & C & R). exists z, r.
  split; [exact D|]. split; [exact T|]. split; [|exact R].
  unfold get_scalar. cbn [ct_kind ct_elem]. rewrite D. exact C.
Qed.
Lemma decode_long e bs z : decode e bs = VI z -> in_type Long z.
Proof.
  destruct e; try discriminate; intros H; injection H as <-.
  - pose proof (Z.mod_pos_bound (le bs) (2 ^ 8) eq_refl). cbn [in_type]. lia.
  - destruct (signed_spec 32 (le bs) eq_refl) as [S _]. cbn [in_type]. change (32 - 1) with 31 in S. lia.
  - destruct (signed_spec 64 (le bs) eq_refl) as [S _]. exact S.
Qed.
Lemma basic_double e n cell x :
  has_value (decode e (firstn (sizeof e) cell)) x ->
  exists f, get_scalar (CType KBasic e n) Double cell = Ok (VD f) /\ is_finite f = true /\
    B2R f = rnd64 x /\
    (e <> Long \/ (Rabs x <= IZR (2 ^ 53))%R -> B2R f = x).
Proof.
  intros H. destruct (conv_double _ x H) as (f & C & F & V).
  { intros z E. eapply decode_long; exact E. }
  exists f. split; [exact C|]. split; [exact F|]. split; [exact V|].
  rewrite V. intros N.
  destruct e; cbn [decode has_value] in H; try (destruct H as [_ ->]; apply rnd64_b24);
    try (destruct H as [Fi ->]; apply rnd64_b53; exact Fi); subst x; apply rnd64_small.
  - pose proof (Z.mod_pos_bound (le (firstn (sizeof UChar) cell)) (2 ^ 8) eq_refl). lia.
  - destruct (signed_spec 32 (le (firstn (sizeof Int) cell)) eq_refl) as [S _].
    change (32 - 1) with 31 in S. lia.
  - destruct N as [N|N]; [congruence|]. rewrite <- abs_IZR in N. apply le_IZR in N. exact N.
Qed.
Lemma rnd32_small z : Z.abs z < 2 ^ 24 -> rnd32 (IZR z) = IZR z.
Proof.
  intros H. apply round_generic; [apply valid_rnd_N|].
  apply generic_format_FLT. exists (Defs.Float radix2 z 0).
  + rewrite F2R_int. reflexivity.
  + cbn. change (Z.pow_pos 2 24) with (2 ^ 24). lia.
  + cbn. lia.
Qed.
Lemma basic_float e n cell x :
  has_value (decode e (firstn (sizeof e) cell)) x -> (Rabs (rnd32 x) < bpow radix2 128)%R ->
  exists f, get_scalar (CType KBasic e n) Float cell = Ok (VF f) /\ is_finite f = true /\
    B2R f = rnd32 x /\ (e = Float \/ e = UChar -> B2R f = x).
Proof.
  intros H B. destruct (conv_float _ x H) as (f & C & F & V); [|exact B|].
  { intros z E. eapply decode_long; exact E. }
  exists f. split; [exact C|]. split; [exact F|]. split; [exact V|].
  rewrite V. intros [->| ->]; cbn [decode has_value] in H.
  - destruct H as [Fi ->]. apply rnd32_b24. exact Fi.
  - subst x. apply rnd32_small.
    pose proof (Z.mod_pos_bound (le (firstn (sizeof UChar) cell)) (2 ^ 8) eq_refl). lia.
Qed.

Lemma array_single t cell : ct_kind t <> KBasic ->
  type_size t = sizeof (ct_elem t) -> length cell = type_size t ->
  get_scalar t (ct_elem t) cell = conv (ct_elem t) (decode (ct_elem t) (firstn (sizeof (ct_elem t)) cell)).
Proof.
  intros K S L. rewrite (array_scalar t (ct_elem t) cell K L), S, Nat.eqb_refl.
  rewrite firstn_all2 by lia.
  assert (I : forall e, is_int e -> Ok (decode e cell) = conv e (decode e cell)).
  { intros e E. destruct (decode_int_val e cell E) as (z & D & T). rewrite D.
    symmetry. apply conv_exact; [exact E|reflexivity|exact T]. }
  destruct (ct_elem t); try (apply I; unfold is_int; tauto); reflexivity.
Qed.

Lemma array_scalar_witness :
  (exists t b cell, length cell = type_size t /\
     conv b (decode (ct_elem t) (firstn (sizeof (ct_elem t)) cell)) = Ok (VI 7) /\
     get_scalar t b cell = Ub) /\
  (exists t b cell, length cell = type_size t /\
     has_value (decode (ct_elem t) (firstn (sizeof (ct_elem t)) cell)) (IZR 1) /\
     conv b (decode (ct_elem t) (firstn (sizeof (ct_elem t)) cell)) = Ok (VI 1) /\
     get_scalar t b cell = Ok (VI 1065353216)).
Proof.
  split.
  - exists (CType KArray Int 2), Int, [7; 0; 0; 0; 8; 0; 0; 0]. repeat split.
  - exists (CType KArray Float 1), Int, [0; 0; 128; 63].
    split; [reflexivity|].
    assert (H : has_value (decode Float [0; 0; 128; 63]) (IZR 1)).
    { split; [reflexivity|]. rewrite Binary.B2R_B2BSN.
      change (le [0; 0; 128; 63] mod 2 ^ 32) with 1065353216. cbn. unfold F2R. cbn. lra. }
    split; [exact H|]. split; [|reflexivity].
    apply conv_exact; [unfold is_int; auto|exact H|cbn [in_type]; lia].
Qed.

(** ** Bytes *)
Lemma byte_decode v : -128 <= v < 128 -> decode UChar (firstn (sizeof UChar) (load_byte v)) = VI (v mod 256).
Proof.
  intros H. unfold decode, load_byte, sizeof. cbn [firstn le]. f_equal.
  replace (v mod 256 + 256 * 0) with (v mod 256) by lia.
  apply Z.mod_small. apply Z.mod_pos_bound. reflexivity.
Qed.
Lemma byte_negative (n : nat) v : -128 <= v < 0 ->
  get_scalar (new_grid BYTE false) Int (load_byte v) = Ok (VI (v + 256)) /\
  get_scalar (CType KBasic UChar n) UChar (load_byte v) = Ok (VI (v + 256)).
Proof.
  intros H. assert (E : v mod 256 = v + 256) by (symmetry; apply Z.mod_unique with (-1); lia).
  split; apply basic_exact; unfold is_int; auto.
  - rewrite byte_decode by lia. rewrite E. reflexivity.
  - cbn [in_type]. lia.
  - rewrite byte_decode by lia. rewrite E. reflexivity.
  - cbn [in_type]. lia.
Qed.
Lemma byte_nonnegative v b : 0 <= v < 128 -> is_int b ->
  get_scalar (new_grid BYTE false) b (load_byte v) = Ok (VI v).
Proof.
  intros H I. apply basic_exact; [exact I| |].
  - rewrite byte_decode by lia. rewrite Z.mod_small by lia. reflexivity.
  - destruct I as [->|[->| ->]]; cbn [in_type]; lia.
Qed.
