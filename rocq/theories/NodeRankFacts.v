(** * Facts about nodeLocalRank *)
From Coq Require Import Lia.
From Verif Require Import NodeRankModel.
Local Open Scope Z_scope.

(** Number of lower ranks on the same host. *)
Definition lower_on_host (names : list (list Z)) (rank : nat) (n : nat) : Prop :=
  exists l, NoDup l /\ length l = n /\
    forall r, In r l <-> (r < rank)%nat /\ exists h, nth_error names r = Some h /\ nth_error names rank = Some h.

Lemma name_eqb_eq a b : name_eqb a b = true <-> a = b.
Proof.
  revert b. induction a as [|x a IH]; destruct b as [|y b]; cbn; split; intros H; try discriminate; try reflexivity.
  - apply andb_true_iff in H. destruct H as (A & B). apply Z.eqb_eq in A. apply IH in B. congruence.
  - injection H as -> ->. apply andb_true_iff. split; [apply Z.eqb_refl|apply IH; reflexivity].
Qed.

(** In an ascending list, the elements below a bound are a prefix. *)
Lemma filter_lt_prefix (P : nat -> bool) k n rank :
  firstn (length (filter (fun r => Nat.ltb r rank) (filter P (seq k n)))) (filter P (seq k n)) =
  filter (fun r => Nat.ltb r rank) (filter P (seq k n)).
Proof.
  revert k. induction n as [|n IH]; intros k; [reflexivity|]. cbn [seq filter].
  destruct (P k); [|apply IH]. cbn [filter].
  destruct (Nat.ltb_spec k rank) as [L|L].
  - cbn [length firstn]. rewrite IH. reflexivity.
  - (* nothing smaller later *)
    assert (E : filter (fun r => Nat.ltb r rank) (filter P (seq (S k) n)) = []).
    { destruct (filter (fun r => Nat.ltb r rank) (filter P (seq (S k) n))) as [|x l] eqn:F; [reflexivity|].
      assert (I : In x (filter (fun r => Nat.ltb r rank) (filter P (seq (S k) n)))) by (rewrite F; left; reflexivity).
      apply filter_In in I. destruct I as (I & B). apply filter_In in I. destruct I as (I & _).
      apply in_seq in I. apply Nat.ltb_lt in B. lia. }
    rewrite E. reflexivity.
Qed.

Lemma filter_map_len {A B} (f : A -> B) (p : B -> bool) l :
  length (filter p (map f l)) = length (filter (fun x => p (f x)) l).
Proof. induction l as [|x l IH]; [reflexivity|]. cbn. destruct (p (f x)); cbn; rewrite IH; reflexivity. Qed.

Lemma node_rank_correct color names rank :
  (rank < length names)%nat -> (forall h, In h names -> 0 <= color h) ->
  exists n, node_rank color names rank = Ok n /\ lower_on_host names rank n.
Proof.
  intros L C. unfold node_rank.
  assert (V : forallb (fun c => 0 <=? c) (map color names) = true).
  { apply forallb_forall. intros c I. apply in_map_iff in I. destruct I as (h & <- & I). apply Z.leb_le. auto. }
  rewrite V. destruct (nth_error names rank) as [me|] eqn:ME; [|apply nth_error_None in ME; lia].
  eexists. split; [reflexivity|]. unfold comm_split. set (P := fun r => match nth_error (map color names) r with Some c' => c' =? color me | None => false end).
  rewrite firstn_map, filter_lt_prefix, filter_map_len.
  eexists. split; [|split; [reflexivity|]].
  - repeat apply NoDup_filter. apply seq_NoDup.
  - intros r. rewrite !filter_In, in_seq, Nat.ltb_lt, name_eqb_eq. split.
    + intros (((A & B) & D) & E). split; [exact D|]. exists me. split; [|exact ME].
      rewrite E. apply nth_error_nth'. rewrite map_length in A. lia.
    + intros (A & h & B & D). rewrite ME in D. injection D as <-.
      split; [split; [split|exact A]|].
      * rewrite map_length. split; [lia|]. cbn. lia.
      * unfold P. rewrite nth_error_map, B. cbn. apply Z.eqb_refl.
      * symmetry. apply nth_error_nth. exact B.
Qed.

(** The spec determines the number, and the numbers on a host are 0..k-1. *)
Lemma lower_unique names rank n n' : lower_on_host names rank n -> lower_on_host names rank n' -> n = n'.
Proof.
  intros (l & N & L & F) (l' & N' & L' & F'). apply Nat.le_antisymm; rewrite <- L, <- L';
    apply NoDup_incl_length; auto; intros x X; [apply F'; apply F|apply F; apply F']; exact X.
Qed.
Lemma lower_distinct names r r' n n' h : nth_error names r = Some h -> nth_error names r' = Some h ->
  lower_on_host names r n -> lower_on_host names r' n' -> (r < r')%nat -> (n < n')%nat.
Proof.
  intros H H' (l & N & L & F) (l' & N' & L' & F') LT. rewrite <- L, <- L'.
  assert (LE : (length (r :: l) <= length l')%nat).
  { apply NoDup_incl_length; [constructor; [|exact N]|].
    - intros I. apply F in I. lia.
    - intros x [<-|I]; apply F'.
      + split; [exact LT|]. exists h. auto.
      + apply F in I. destruct I as (A & h' & B & C). split; [lia|]. exists h'. split; [exact B|]. congruence. }
  cbn in LE. lia.
Qed.
Lemma lower_compact names r n m : lower_on_host names r n -> (m < n)%nat ->
  exists r' h, (r' < r)%nat /\ nth_error names r = Some h /\ nth_error names r' = Some h /\ lower_on_host names r' m.
Proof.
  revert n m. induction r as [r IH] using (well_founded_induction Wf_nat.lt_wf).
  intros n m (l & N & L & F) LT.
  (* the largest lower rank on the host has n-1 *)
  assert (MX : exists x, In x l /\ forall y, In y l -> (y <= x)%nat).
  { assert (G : forall k : list nat, k <> [] -> exists x, In x k /\ forall y, In y k -> (y <= x)%nat).
    { induction k as [|a k IHk]; [contradiction|]. intros _. destruct k as [|b k].
      - exists a. split; [left; reflexivity|]. intros y [<-|[]]. lia.
      - destruct IHk as (x & X & M); [discriminate|]. destruct (Nat.le_gt_cases a x).
        + exists x. split; [right; exact X|]. intros y [<-|I]; auto.
        + exists a. split; [left; reflexivity|]. intros y [<-|I]; [lia|]. specialize (M y I). lia. }
    apply G. intros ->. cbn in L. lia. }
  destruct MX as (x & X & M). destruct (proj1 (F x) X) as (XR & h & HX & HR).
  assert (LX : lower_on_host names x (n - 1)).
  { apply in_split in X. destruct X as (a & b & ->). exists (a ++ b).
    pose proof (NoDup_remove _ _ _ N) as (ND & NI). split; [exact ND|].
    rewrite app_length in L. cbn in L. split; [rewrite app_length; lia|].
    intros y. split.
    - intros I. assert (I2 : In y (a ++ x :: b)) by (apply in_app_or in I; apply in_or_app; destruct I; [left|right; right]; assumption).
      pose proof (M y I2) as LE. destruct (proj1 (F y) I2) as (_ & h' & A & B). split.
      + assert (y <> x) by (intros ->; contradiction). lia.
      + exists h'. split; [exact A|congruence].
    - intros (A & h' & B & C). assert (I2 : In y (a ++ x :: b)).
      { apply F. split; [lia|]. exists h'. split; [exact B|congruence]. }
      apply in_app_or in I2. apply in_or_app. destruct I2 as [I2|[->|I2]]; [left; exact I2|lia|right; exact I2]. }
  destruct (Nat.eq_dec m (n - 1)) as [->|NE].
  - exists x, h. auto.
  - destruct (IH x XR (n - 1)%nat m LX ltac:(lia)) as (r' & h' & A & B & C & D).
    exists r', h'. split; [lia|]. split; [congruence|auto].
Qed.

(** ** The hash *)
Definition is_name (name : list Z) : Prop := forall b, In b name -> 1 <= b < 256.

Lemma adler_small s1 s2 name : 0 <= s1 -> 0 <= s2 -> is_name name ->
  forall m, (forall b, In b name -> b <= m) -> 0 <= m ->
  s1 + m * Z.of_nat (length name) < 65521 ->
  s2 + Z.of_nat (length name) * (s1 + m * Z.of_nat (length name)) < 65521 ->
  let '(a, b) := adler_loop s1 s2 name in
  0 <= a < 65521 /\ 0 <= b /\
  2 * b <= 2 * s2 + 2 * s1 * Z.of_nat (length name) + m * (Z.of_nat (length name) * (Z.of_nat (length name) + 1)).
Proof.
  revert s1 s2. induction name as [|x name IH]; intros s1 s2 S1 S2 NM m B M0 L1 L2.
  - cbn in *. lia.
  - cbn [adler_loop]. cbn [length] in *. rewrite Nat2Z.inj_succ in *. set (n := Z.of_nat (length name)) in *.
    assert (N0 : 0 <= n) by (unfold n; lia).
    assert (BX : 1 <= x <= m) by (split; [apply NM|apply B]; left; reflexivity).
    assert (T1 : 0 <= m * n) by (apply Z.mul_nonneg_nonneg; lia).
    assert (E1 : ((s1 + x) mod 2 ^ 32) mod 65521 = s1 + x).
    { rewrite (Z.mod_small (s1 + x) (2 ^ 32)) by lia. apply Z.mod_small. lia. }
    rewrite E1.
    assert (T2 : s1 + m <= s1 + m * Z.succ n) by lia.
    assert (T3 : s1 + m * Z.succ n <= Z.succ n * (s1 + m * Z.succ n)).
    { rewrite <- (Z.mul_1_l (s1 + m * Z.succ n)) at 1. apply Z.mul_le_mono_nonneg_r; lia. }
    assert (E2 : ((s2 + (s1 + x)) mod 2 ^ 32) mod 65521 = s2 + (s1 + x)).
    { rewrite (Z.mod_small _ (2 ^ 32)) by lia. apply Z.mod_small. lia. }
    rewrite E2. specialize (IH (s1 + x) (s2 + (s1 + x))).
    assert (P1 : forall b, In b name -> b <= m) by (intros b I; apply B; right; exact I).
    assert (P0 : is_name name) by (intros b I; apply NM; right; exact I).
    specialize (IH ltac:(lia) ltac:(lia) P0 m P1 M0 ltac:(lia)). fold n in IH.
    assert (IL : s2 + (s1 + x) + n * (s1 + x + m * n) < 65521).
    { assert (n * (s1 + x + m * n) <= n * (s1 + m * Z.succ n)) by (apply Z.mul_le_mono_nonneg_l; lia). lia. }
    specialize (IH IL). destruct (adler_loop (s1 + x) (s2 + (s1 + x)) name) as [a b].
    destruct IH as (A & C & D). split; [exact A|]. split; [exact C|].
    assert (x * n <= m * n) by (apply Z.mul_le_mono_nonneg_r; lia). nia.
Qed.

Lemma adler_value name a b : adler_loop 1 0 name = (a, b) -> 0 <= a < 65521 -> 0 <= b < 65521 ->
  adler name = b * 65536 + a.
Proof.
  intros E A B. unfold adler. rewrite E. rewrite Z.shiftl_mul_pow2 by lia. change (2 ^ 16) with 65536.
  rewrite Z.mod_small by lia.
  assert (Z.land (b * 65536) a = 0).
  { apply Z.bits_inj'. intros k K. rewrite Z.land_spec, Z.bits_0. change 65536 with (2 ^ 16).
    destruct (Z.lt_ge_cases k 16).
    - rewrite Z.mul_pow2_bits_low by lia. reflexivity.
    - rewrite (Z.bits_above_log2 a k), andb_false_r; [reflexivity|lia|].
      destruct (Z.eq_dec a 0) as [->|N]; [cbn; lia|]. apply Z.log2_lt_pow2; [lia|].
      assert (2 ^ 16 <= 2 ^ k) by (apply Z.pow_le_mono_r; lia). lia. }
  rewrite <- Z.lxor_lor by exact H. rewrite <- Z.add_nocarry_lxor by exact H. lia.
Qed.

(** ASCII names up to 22 characters have a valid color. *)
Lemma short_name_valid name : is_name name -> (forall b, In b name -> b <= 127) -> (length name <= 22)%nat ->
  0 <= to_int (adler name) < 2 ^ 31.
Proof.
  intros NM AS L. set (n := Z.of_nat (length name)).
  assert (N : 0 <= n <= 22) by (unfold n; lia).
  assert (S := adler_small 1 0 name ltac:(lia) ltac:(lia) NM 127 AS ltac:(lia)). fold n in S.
  assert (n * (1 + 127 * n) <= 22 * (1 + 127 * 22)) by (apply Z.mul_le_mono_nonneg; lia).
  specialize (S ltac:(lia) ltac:(lia)). destruct (adler_loop 1 0 name) as [a b] eqn:E.
  destruct S as (A & B & C).
  assert (n * (n + 1) <= 22 * 23) by (apply Z.mul_le_mono_nonneg; lia).
  rewrite (adler_value name a b E A) by lia. unfold to_int.
  destruct (Z.ltb_spec (b * 65536 + a) (2 ^ 31)); lia.
Qed.

Lemma local_distinct names r r' n n' h :
  (forall h, In h names -> 0 <= to_int (adler h)) ->
  nth_error names r = Some h -> nth_error names r' = Some h -> (r < r')%nat ->
  node_local_rank names r = Ok n -> node_local_rank names r' = Ok n' -> (n < n')%nat.
Proof.
  intros C H H' LT A B.
  assert (L : (r < length names)%nat) by (apply nth_error_Some; congruence).
  assert (L' : (r' < length names)%nat) by (apply nth_error_Some; congruence).
  destruct (node_rank_correct (fun h => to_int (adler h)) names r L C) as (m & M & S).
  destruct (node_rank_correct (fun h => to_int (adler h)) names r' L' C) as (m' & M' & S').
  unfold node_local_rank in *. rewrite M in A. rewrite M' in B. injection A as ->. injection B as ->.
  exact (lower_distinct names r r' n n' h H H' S S' LT).
Qed.
Lemma local_compact names r n m :
  (forall h, In h names -> 0 <= to_int (adler h)) -> (r < length names)%nat ->
  node_local_rank names r = Ok n -> (m < n)%nat ->
  exists r' h, (r' < r)%nat /\ nth_error names r = Some h /\ nth_error names r' = Some h /\
    node_local_rank names r' = Ok m.
Proof.
  intros C L A LT. destruct (node_rank_correct (fun h => to_int (adler h)) names r L C) as (k & K & S).
  unfold node_local_rank in *. rewrite K in A. injection A as ->.
  destruct (lower_compact names r n m S LT) as (r' & h & X & Y & Z & W). exists r', h.
  split; [exact X|]. split; [exact Y|]. split; [exact Z|].
  destruct (node_rank_correct (fun h => to_int (adler h)) names r' ltac:(lia) C) as (k' & K' & S').
  rewrite K'. rewrite (lower_unique _ _ _ _ S' W). reflexivity.
Qed.

Definition long_name : list Z :=
  [99; 111; 109; 112; 117; 116; 101; 45; 110; 111; 100; 101; 45; 48; 49; 46; 101; 120; 97; 109; 112; 108; 101; 46; 111; 114; 103].
Lemma long_name_fails : exists h, is_name h /\ (length h <= 128)%nat /\ to_int (adler h) < 0 /\
  forall names rank, In h names -> node_local_rank names rank = Ub.
Proof.
  exists long_name.
  assert (NEG : to_int (adler long_name) < 0) by (vm_compute; reflexivity).
  split; [|split; [cbn; lia|split; [exact NEG|]]].
  - intros b I. cbn in I. repeat (destruct I as [<-|I]; [lia|]). contradiction.
  - intros names rank I. unfold node_local_rank, node_rank.
    assert (F : forallb (fun c => 0 <=? c) (map (fun name => to_int (adler name)) names) = false).
    { destruct (forallb (fun c => 0 <=? c) (map (fun name => to_int (adler name)) names)) eqn:E; [|reflexivity].
      rewrite forallb_forall in E. specialize (E (to_int (adler long_name)) (in_map _ _ _ I)). apply Z.leb_le in E. lia. }
    rewrite F. reflexivity.
Qed.
Lemma short_names_work names rank :
  (forall h, In h names -> is_name h /\ (forall b, In b h -> b <= 127) /\ (length h <= 22)%nat) ->
  (rank < length names)%nat -> node_local_rank names rank <> Ub.
Proof.
  intros S L. destruct (node_rank_correct (fun h => to_int (adler h)) names rank L) as (n & E & _).
  - intros h I. destruct (S h I) as (A & B & C). apply (short_name_valid h A B C).
  - unfold node_local_rank. rewrite E. discriminate.
Qed.
