(** * The unit tests of the cache, the reader and the level: lemmas *)
From Verif Require Import NetCdfProofs BlockedProofs UnitModel UnitFacts.
Require Import Lia.

Lemma eqb_false : forall a b, a <> b -> (a =? b) = false /\ (b =? a) = false.
Proof. intros a b H. split; apply Nat.eqb_neq; auto. Qed.

Ltac run := repeat (lazy -[Nat.eqb];
  repeat match goal with
    | X : (?p =? ?q) = _ |- context [?p =? ?q] => rewrite !X
    | |- context [?p =? ?q] =>
        let v := eval compute in (p =? q) in
        match v with true => idtac | false => idtac end; change (p =? q) with v
    end).

Definition l_test (size : nat) (hand : Z) (l : list lop) : outcome bool := do c <- clist_init size hand; l_run c l.

Lemma cache_tests : forall a b c d, NoDup [a; b; c; d] ->
  l_test 3 (-1) (test_get_index a b c d) = Ok true /\
  l_test 3 (-1) (test_get_free a b c d) = Ok true /\
  l_test 3 (-1) (test_get a b c d) = Ok true.
Proof.
  intros a b c d H.
  assert (N : a <> b /\ a <> c /\ a <> d /\ b <> c /\ b <> d /\ c <> d).
  { inversion H as [|? ? A H1]; subst. inversion H1 as [|? ? B H2]; subst. inversion H2 as [|? ? C H3]; subst. cbn in *.
    repeat split; intros ->; tauto. }
  destruct N as (N1 & N2 & N3 & N4 & N5 & N6). clear H.
  destruct (eqb_false _ _ N1), (eqb_false _ _ N2), (eqb_false _ _ N3), (eqb_false _ _ N4), (eqb_false _ _ N5), (eqb_false _ _ N6).
  clear N1 N2 N3 N4 N5 N6.
  pose proof (Nat.eqb_refl a). pose proof (Nat.eqb_refl b). pose proof (Nat.eqb_refl c). pose proof (Nat.eqb_refl d).
  split; [|split]; run; reflexivity.
Qed.

(** [testGetBlock] with any file of the expected values, any block and any offset. *)
Lemma block_test : forall opaque H L W val off size buffer, length size = 3 ->
  (forall z y x, z < H -> y < L -> x < W -> val z y x = (x * L + y) * W + z) ->
  in_box [H; L; W] off -> Forall (fun b => 0 < b) size -> volume size <= m_len buffer ->
  exists m, test_block opaque H L W val off size buffer = Ok (m, true).
Proof.
  intros opaque H L W val off size buffer Ls Hval Hb Hp Hv. unfold test_block.
  set (f := File [H; L; W] _).
  destruct (get_block_spec opaque f off size 0 buffer) as (m & E & _ & Hin & _); auto; [discriminate|].
  rewrite E. cbn [obind]. exists m. do 2 f_equal.
  inversion Hb as [|o0 ? off1 ? H0 Hb1]; subst. inversion Hb1 as [|o1 ? off2 ? H1 Hb2]; subst.
  inversion Hb2 as [|o2 ? off3 ? H2 Hb3]; subst. inversion Hb3; subst. clear Hb Hb1 Hb2 Hb3.
  destruct size as [|b0 [|b1 [|b2 [|]]]]; try discriminate. cbn [nth].
  apply forallb_forall. intros i Hi. apply in_seq in Hi. apply forallb_forall. intros j Hj. apply in_seq in Hj.
  apply forallb_forall. intros k Hk. apply in_seq in Hk.
  assert (B : m_at m (0 + row_major [b0; b1; b2] [i; j; k]) = Some (val (o0 + i) (o1 + j) (o2 + k))).
  { apply (Hin [i; j; k]); repeat constructor; lia. }
  replace ((i * b1 + j) * b2 + k) with (0 + row_major [b0; b1; b2] [i; j; k]) by (cbn; lia).
  rewrite B. apply Nat.eqb_eq. rewrite Hval by lia. rewrite (Nat.add_comm o0), (Nat.add_comm o1), (Nat.add_comm o2). reflexivity.
Qed.

(** The other way round: a single wrong value inside the block is noticed. *)
Lemma block_test_sharp : forall opaque H L W val off size buffer m, length size = 3 ->
  in_box [H; L; W] off -> Forall (fun b => 0 < b) size -> volume size <= m_len buffer ->
  test_block opaque H L W val off size buffer = Ok (m, true) ->
  forall z y x, nth 0 off 0 <= z < Nat.min H (nth 0 off 0 + nth 0 size 0) -> nth 1 off 0 <= y < Nat.min L (nth 1 off 0 + nth 1 size 0) ->
    nth 2 off 0 <= x < Nat.min W (nth 2 off 0 + nth 2 size 0) -> val z y x = (x * L + y) * W + z.
Proof.
  intros opaque H L W val off size buffer m Ls Hb Hp Hv T. unfold test_block in T.
  set (f := File [H; L; W] _) in T.
  destruct (get_block_spec opaque f off size 0 buffer) as (m' & E & _ & Hin & _); auto; [discriminate|].
  rewrite E in T. cbn [obind] in T. injection T as <- T.
  inversion Hb as [|o0 ? off1 ? H0 Hb1]; subst. inversion Hb1 as [|o1 ? off2 ? H1 Hb2]; subst.
  inversion Hb2 as [|o2 ? off3 ? H2 Hb3]; subst. inversion Hb3; subst. clear Hb Hb1 Hb2 Hb3.
  destruct size as [|b0 [|b1 [|b2 [|]]]]; try discriminate. cbn [nth] in *.
  intros z y x Hz Hy Hx.
  rewrite forallb_forall in T. specialize (T (z - o0)). rewrite in_seq, forallb_forall in T. specialize (T ltac:(lia) (y - o1)).
  rewrite in_seq, forallb_forall in T. specialize (T ltac:(lia) (x - o2)). rewrite in_seq in T. specialize (T ltac:(lia)).
  assert (B : m_at m' (0 + row_major [b0; b1; b2] [z - o0; y - o1; x - o2]) = Some (val z y x)).
  { replace (val z y x) with (val (o0 + (z - o0)) (o1 + (y - o1)) (o2 + (x - o2))) by (f_equal; lia).
    apply (Hin [z - o0; y - o1; x - o2]); repeat constructor; lia. }
  replace (((z - o0) * b1 + (y - o1)) * b2 + (x - o2)) with (0 + row_major [b0; b1; b2] [z - o0; y - o1; x - o2]) in T by (cbn; lia).
  rewrite B in T. apply Nat.eqb_eq in T. rewrite T.
  replace (x - o2 + o2) with x by lia. replace (y - o1 + o1) with y by lia. replace (z - o0 + o0) with z by lia. reflexivity.
Qed.

(** [fulltest.h]: the values for grids of any size. *)
Lemma full_test : forall mode W L b arr, 0 < W -> 0 < L -> (0 < b)%Z ->
  test_full mode W L b arr = Ok [Nat.min 64 W; Nat.min (Z.to_nat b) W; W; 0; 1].
Proof.
  assert (B : forall q size, loop_block_size q size = if (q =? 0)%Z then Nat.min 64 size else if (q <? 0)%Z then size else Nat.min (Z.to_nat q) size).
  { intros q size. unfold loop_block_size. destruct (q =? 0)%Z; [|destruct (q <? 0)%Z]; match goal with |- context [size <? ?x] => destruct (Nat.ltb_spec size x) end; lia. }
  assert (O1 : forall W q arr, 0 < W -> (0 <= q)%Z -> exists g, blocked_open [W] (fun i => if i =? 0 then q else 0%Z) (-1) arr = Ok g /\
             b_tbs g = if (q =? 0)%Z then Nat.min 64 W else Nat.min (Z.to_nat q) W).
  { intros W q arr HW Hq. unfold blocked_open. cbn [length Z.of_nat]. change (1 <=? -1)%Z with false. cbn iota.
    change ((0 <=? -1)%Z) with false. cbn [andb open_loop]. cbn [Nat.sub Nat.eqb]. rewrite UnitFacts.upd_same, B. change (0 =? 0) with true. cbn iota.
    destruct (Z.ltb_spec q 0); [lia|].
    destruct (Z.eqb_spec q 0) as [Eq|Nq];
      (match goal with |- context [Nat.min ?x W =? 0] => destruct (Nat.eqb_spec (Nat.min x W) 0) end; [lia|]; cbn [obind]; eexists; split; [reflexivity|]; cbn [b_tbs]; lia). }
  assert (O2 : forall L W arr, 0 < L -> 0 < W -> exists g, blocked_open [L; W] (fun i => if i =? 0 then (-1)%Z else 0%Z) (-1) arr = Ok g /\
             nth 1 (b_bs g) 0 = W).
  { intros L W arr HL HW. unfold blocked_open. cbn [length Z.of_nat Pos.of_succ_nat Pos.succ]. change (2 <=? -1)%Z with false. cbn iota.
    change ((0 <=? -1)%Z) with false. cbn [andb open_loop]. rewrite !B. cbn [Nat.sub].
    change (1 =? 0) with false. change (0 =? 0) with true. cbn iota.
    change (-1 =? 0)%Z with false. change (0 =? 0)%Z with true. change (-1 <? 0)%Z with true. cbn iota.
    rewrite !UnitFacts.upd_same. destruct (Nat.eqb_spec (Nat.min 64 L) 0); [lia|].
    destruct (Nat.eqb_spec W 0); [lia|]. cbn [obind]. eexists. split; [reflexivity|]. reflexivity. }
  intros mode W L b arr HW HL Hb. unfold test_full.
  destruct (O1 W 0%Z arr HW ltac:(lia)) as (g0 & E0 & T0). destruct (O1 W b arr HW ltac:(lia)) as (g1 & E1 & T1).
  destruct (O2 L W arr HL HW) as (g2 & E2 & T2). rewrite E0, E1, E2. cbn [obind]. rewrite T0, T1, T2.
  destruct (Z.eqb_spec b 0); [lia|]. cbn [Z.eqb]. unfold local2global. cbn [d_mode d_domains d_ranks].
  destruct mode; reflexivity.
Qed.

Lemma block_test_all : forall opaque H L W val off size buffer, length size = 3 ->
  in_box [H; L; W] off -> Forall (fun b => 0 < b) size -> volume size <= m_len buffer ->
  ((forall z y x, z < H -> y < L -> x < W -> val z y x = (x * L + y) * W + z) ->
     exists m, test_block opaque H L W val off size buffer = Ok (m, true)) /\
  (forall m, test_block opaque H L W val off size buffer = Ok (m, true) ->
     forall z y x, nth 0 off 0 <= z < Nat.min H (nth 0 off 0 + nth 0 size 0) ->
       nth 1 off 0 <= y < Nat.min L (nth 1 off 0 + nth 1 size 0) ->
       nth 2 off 0 <= x < Nat.min W (nth 2 off 0 + nth 2 size 0) -> val z y x = (x * L + y) * W + z).
Proof.
  intros opaque H L W val off size buffer A B C D. split.
  - intros V. apply block_test; assumption.
  - intros m T. apply (block_test_sharp opaque H L W val off size buffer m A B C D T).
Qed.
