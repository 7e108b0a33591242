(** * The unit tests of the synchronisation: lemmas *)
From Verif Require Import SyncFacts NumaFacts UnitModel.
Require Import Lia.

(** ** What a step of a thread does to the program counters *)
Section Steps.
Context {V : Type} (c : ycfg V).

Definition asleep (p : ypc) : bool := match p with YSleepF | YSleepC | YSleepL => true | _ => false end.
Definition woken (p : ypc) : bool := match p with YWakeF | YWakeC | YWakeL => true | _ => false end.

Definition same_thr (x x' : ythr V) : Prop :=
  y_round x' = y_round x /\ y_out x' = y_out x /\
  (y_pc x' = y_pc x \/ asleep (y_pc x) = true /\ woken (y_pc x') = true).

Lemma same_refl : forall x, same_thr x x.
Proof. intros x. repeat split; auto. Qed.
Lemma same_wake : forall s p p' u, asleep p = true -> woken p' = true -> same_thr (y_thr s u) (y_thr (y_wake s p p') u).
Proof.
  intros s p p' u A B. unfold y_wake. cbn. destruct (ypc_eq (y_pc (y_thr s u)) p) eqn:E; [|apply same_refl].
  repeat split; auto. right. cbn. split; [|exact B].
  destruct (y_pc (y_thr s u)); cbn in *; try discriminate; reflexivity.
Qed.
Lemma same_trans : forall x y z, same_thr x y -> same_thr y z -> same_thr x z.
Proof.
  intros x y z (A & B & C) (A' & B' & C'). repeat split; try congruence.
  destruct C as [C|[C D]], C' as [C'|[C' D']]; try (right; split; congruence). left; congruence.
Qed.

Lemma upd_other : forall {A} (f : nat -> A) t u a, u <> t -> upd f t a u = f u.
Proof. intros. unfold upd. destruct (Nat.eqb_spec u t); congruence. Qed.
Lemma upd_same : forall {A} (f : nat -> A) t a, upd f t a t = a.
Proof. intros. unfold upd. rewrite Nat.eqb_refl. reflexivity. Qed.

Ltac stp H := repeat match type of H with
  | (if ?b then _ else _) = _ => destruct b eqn:?; try discriminate H
  | match ?b with _ => _ end = _ => destruct b eqn:?; try discriminate H
  end.

Lemma ystep_other : forall s t s' u, ystep c s (YStep t) = Some (Ok s') -> u <> t ->
  same_thr (y_thr s u) (y_thr s' u).
Proof.
  intros s t s' u H N. unfold ystep in H. destruct (t <? y_n c); [|discriminate].
  unfold ystep_thr in H. cbn zeta in H.
  destruct (y_pc (y_thr s t)) eqn:E; try discriminate H; stp H; injection H as <-;
    try solve [unfold y_lock, y_goto, y_set; cbn; try (destruct (y_fin s); cbn); rewrite ?upd_other by exact N; apply same_refl].
  - unfold y_goto, y_set. cbn. rewrite ?upd_other by exact N.
    destruct (ypc_eq (y_pc (y_thr s u)) YSleepC) eqn:E'; [|apply same_refl].
    repeat split; auto. right. split; [|reflexivity]. destruct (y_pc (y_thr s u)); cbn in *; try discriminate; reflexivity.
  - match goal with |- context [if ?b then y_wake ?s0 YSleepL YWakeL else ?s0] =>
      set (s1 := s0); set (s2 := if b then y_wake s1 YSleepL YWakeL else s1) end.
    assert (S1 : same_thr (y_thr s u) (y_thr s2 u)).
    { unfold s2. destruct (_ && _)%bool; [apply (same_wake s1); reflexivity|apply same_refl]. }
    unfold y_goto, y_set. cbn [y_thr]. rewrite upd_other by exact N.
    destruct (y_synced s2 =? 0); [|exact S1].
    eapply same_trans; [exact S1|]. exact (same_wake s2 YSleepF YWakeF u eq_refl eq_refl).
Qed.

Lemma y_wake_self : forall (s : yst V) p p' t, asleep (y_pc (y_thr s t)) = false -> y_thr (y_wake s p p') t = y_thr s t.
Proof.
  intros s p p' t A. unfold y_wake. cbn. destruct (ypc_eq (y_pc (y_thr s t)) p) eqn:E; [|reflexivity].
  destruct (y_pc (y_thr s t)); cbn in *; discriminate.
Qed.

(** The own step: only the end of a call changes the number of calls. *)
Lemma ystep_own : forall s t s', ystep c s (YStep t) = Some (Ok s') ->
  let x := y_thr s t in let x' := y_thr s' t in
  match y_pc x with
  | YEnd => y_pc x' = YOut /\ y_round x' = S (y_round x) /\ y_out x' = y_out x ++ [(y_num x, y_var x)]
  | YCopy => y_pc x' = YEnd /\ y_round x' = y_round x /\ y_out x' = y_out x
  | _ => y_pc x' <> YOut /\ y_pc x' <> YEnd /\ y_round x' = y_round x /\ y_out x' = y_out x
  end.
Proof.
  intros s t s' H. unfold ystep in H. destruct (t <? y_n c); [|discriminate].
  unfold ystep_thr in H. cbn zeta in *.
  destruct (y_pc (y_thr s t)) eqn:E; try discriminate H; stp H; injection H as <-;
    try solve [unfold y_lock, y_goto, y_set; cbn; try (destruct (y_fin s); cbn); rewrite ?upd_same; cbn; rewrite ?upd_same; cbn;
               repeat split; auto; discriminate].
  match goal with |- context [if ?b then y_wake ?s0 YSleepL YWakeL else ?s0] =>
    set (s1 := s0); set (s2 := if b then y_wake s1 YSleepL YWakeL else s1) end.
  assert (S2 : y_thr s2 t = y_thr s t).
  { unfold s2. destruct (_ && _)%bool; [|reflexivity]. rewrite y_wake_self; cbn; rewrite ?E; reflexivity. }
  unfold y_goto, y_set. cbn [y_thr]. rewrite upd_same. cbn.
  destruct (y_synced s2 =? 0); cbn; rewrite ?S2, ?E; cbn; repeat split; auto; discriminate.
Qed.
End Steps.

(** ** threads/synctest.h *)
Fixpoint calls (p : list uop) : nat :=
  match p with [] => 0 | UCall _ _ :: p' => S (calls p') | _ :: p' => calls p' end.
Definition at_call (p : list uop) : bool := match p with UCall _ _ :: _ => true | _ => false end.

Record ubase (c : ycfg nat) (s : ust) : Prop := {
  ub_state : ystate c (u_sync s);
  ub_calls : forall t, t < 2 -> y_round (y_thr (u_sync s) t) + calls (u_prog s t) = y_rounds c;
  ub_head : forall t, t < 2 -> at_call (u_prog s t) = false -> y_pc (y_thr (u_sync s) t) = YOut
}.

Inductive ucase (c : ycfg nat) (s s' : ust) (t : nat) : Prop :=
| UC_simple o p v b : u_prog s t = o :: p -> at_call [o] = false -> u_simple s o = Some (v, b) ->
    s' = USt (u_sync s) v (upd (u_prog s) t p) b -> ucase c s s' t
| UC_inner sh o inner p v b : u_prog s t = UCall sh (o :: inner) :: p -> y_pc (y_thr (u_sync s) t) = YEnd ->
    u_simple s o = Some (v, b) -> s' = USt (u_sync s) v (upd (u_prog s) t (UCall sh inner :: p)) b -> ucase c s s' t
| UC_sync sh inner p y : u_prog s t = UCall sh inner :: p -> ystep c (u_sync s) (YStep t) = Some (Ok y) ->
    (y_pc (y_thr (u_sync s) t) = YEnd -> inner = []) ->
    s' = USt y (match y_pc (y_thr (u_sync s) t) with YCopy => if sh then y_var (y_thr y t) else u_value s | _ => u_value s end)
               (match y_pc (y_thr (u_sync s) t) with YEnd => upd (u_prog s) t p | _ => u_prog s end) (u_ok s) -> ucase c s s' t.

Lemma u_step_case : forall c s a s', y_spurious c = false -> u_step c s a = Some (Ok s') ->
  exists t, a = YStep t /\ t < 2 /\ ucase c s s' t.
Proof.
  intros c s [t|t] s' Sp H; unfold u_step in H.
  - destruct (Nat.ltb_spec t 2) as [L|L]; [|discriminate]. exists t. split; [reflexivity|]. split; [exact L|].
    destruct (u_prog s t) as [|o p] eqn:P; [discriminate|].
    destruct o as [v|v|sh inner|].
    + cbn in H. injection H as <-. eapply UC_simple; [exact P|reflexivity|cbn; reflexivity|reflexivity].
    + cbn in H. injection H as <-. eapply UC_simple; [exact P|reflexivity|cbn; reflexivity|reflexivity].
    + destruct inner as [|o inner].
      * assert (E : exists y, ystep c (u_sync s) (YStep t) = Some (Ok y) /\
           s' = USt y (match y_pc (y_thr (u_sync s) t) with YCopy => if sh then y_var (y_thr y t) else u_value s | _ => u_value s end)
               (match y_pc (y_thr (u_sync s) t) with YEnd => upd (u_prog s) t p | _ => u_prog s end) (u_ok s)).
        { destruct (y_pc (y_thr (u_sync s) t)); destruct (ystep c (u_sync s) (YStep t)) as [[y|]|];
            try discriminate; injection H as <-; eauto. }
        destruct E as (y & E & ->). eapply UC_sync; eauto.
      * destruct (y_pc (y_thr (u_sync s) t)) eqn:E.
        12:{ unfold u_next in H. destruct (u_simple s o) as [[v b]|] eqn:Q; [|discriminate]. injection H as <-.
             eapply UC_inner; eauto. }
        all: destruct (ystep c (u_sync s) (YStep t)) as [[y|]|] eqn:Q; try discriminate; injection H as <-;
             eapply UC_sync; [exact P|exact Q|rewrite E; discriminate|rewrite E; reflexivity].
    + unfold u_next in H. destruct (u_simple s UJoin) as [[v b]|] eqn:Q; [|discriminate]. injection H as <-.
      eapply UC_simple; [exact P|reflexivity|exact Q|reflexivity].
  - unfold ystep, ystep_spur in H. rewrite Sp in H. destruct (t <? y_n c); discriminate.
Qed.

Lemma ystate_step : forall {V} (c : ycfg V) s a s', ystate c s -> ystep c s a = Some (Ok s') -> ystate c s'.
Proof.
  intros V c s a s' [l H] E. exists (l ++ [a]). revert H. generalize (yinit c) as s0. induction l as [|b l IH]; intros s0 H; cbn in *.
  - injection H as ->. rewrite E. reflexivity.
  - destruct (ystep c s0 b) as [[s1|]|]; try discriminate. apply IH. exact H.
Qed.

Lemma ubase_step : forall c s a s', y_spurious c = false -> ubase c s -> u_step c s a = Some (Ok s') -> ubase c s'.
Proof.
  intros c s a s' Sp [A B C] H. apply u_step_case in H; [|exact Sp]. destruct H as (t & -> & L & H).
  destruct H as [o p v b P O Q ->|sh o inner p v b P O Q ->|sh inner p y P Q I ->].
  - constructor; cbn [u_sync u_prog]; [exact A| |].
    + intros u Lu. destruct (Nat.eq_dec u t) as [->|N]; [rewrite upd_same|rewrite upd_other by exact N; auto].
      specialize (B t L). rewrite P in B. destruct o; cbn in *; try discriminate; exact B.
    + intros u Lu D. destruct (Nat.eq_dec u t) as [->|N]; [|rewrite upd_other in D by exact N; auto].
      apply C; [exact L|]. rewrite P. exact O.
  - constructor; cbn [u_sync u_prog]; [exact A| |].
    + intros u Lu. destruct (Nat.eq_dec u t) as [->|N]; [rewrite upd_same|rewrite upd_other by exact N; auto].
      specialize (B t L). rewrite P in B. exact B.
    + intros u Lu D. destruct (Nat.eq_dec u t) as [->|N]; [rewrite upd_same in D; discriminate|rewrite upd_other in D by exact N; auto].
  - pose proof (ystep_own c _ _ _ Q) as W. cbn zeta in W.
    constructor; cbn [u_sync u_prog]; [eapply ystate_step; eauto| |].
    + intros u Lu. destruct (Nat.eq_dec u t) as [->|N].
      * specialize (B t L). rewrite P in B. cbn in B.
        destruct (y_pc (y_thr (u_sync s) t)); rewrite ?upd_same, ?P; cbn [calls]; destruct W as (W1 & W2 & W3); try destruct W3; lia.
      * destruct (ystep_other c _ _ _ u Q N) as (R & _ & _). rewrite R.
        replace (match y_pc (y_thr (u_sync s) t) with YEnd => upd (u_prog s) t p | _ => u_prog s end u) with (u_prog s u); [auto|].
        destruct (y_pc (y_thr (u_sync s) t)); rewrite ?upd_other by exact N; reflexivity.
    + intros u Lu. destruct (Nat.eq_dec u t) as [->|N].
      * destruct (y_pc (y_thr (u_sync s) t)); rewrite ?upd_same, ?P; cbn [at_call]; try discriminate. intros _. apply W.
      * replace (match y_pc (y_thr (u_sync s) t) with YEnd => upd (u_prog s) t p | _ => u_prog s end u) with (u_prog s u)
          by (destruct (y_pc (y_thr (u_sync s) t)); rewrite ?upd_other by exact N; reflexivity).
        intros D. specialize (C u Lu D). destruct (ystep_other c _ _ _ u Q N) as (_ & _ & [R|[R _]]).
        -- congruence.
        -- rewrite C in R. discriminate.
Qed.

Definition ustate (sp : bool) (old value : nat) (x : utest) (s : ust) : Prop :=
  let c := ut_cfg sp old x in exists l, u_run c (u_init c value x) l = Some (Ok s).

Lemma ubase_init : forall sp old value x, calls (ut_main x) = ut_rounds x -> calls (ut_second x) = ut_rounds x ->
  ubase (ut_cfg sp old x) (u_init (ut_cfg sp old x) value x).
Proof.
  intros sp old value x A B. constructor; cbn [u_sync u_prog u_init].
  - exists []. reflexivity.
  - intros [|[|t]] L; cbn; lia.
  - intros t _ _. reflexivity.
Qed.

Lemma u_run_ind : forall (c : ycfg nat) (P : ust -> Prop), y_spurious c = false ->
  (forall s t s', ubase c s -> P s -> t < 2 -> ucase c s s' t -> P s') ->
  forall l s s', ubase c s -> P s -> u_run c s l = Some (Ok s') -> ubase c s' /\ P s'.
Proof.
  intros c P Sp St. induction l as [|a l IH]; intros s s' B H R; cbn in R.
  - injection R as <-. auto.
  - destruct (u_step c s a) as [[s1|]|] eqn:E; try discriminate.
    destruct (u_step_case _ _ _ _ Sp E) as (t & -> & L & C).
    apply (IH s1 s'); [eapply ubase_step; eauto|eapply St; eauto|exact R].
Qed.

Lemma wf_cfg : forall sp old x, (forall k r, ut_root x k = Some r -> r = 0) -> wf_ycfg (ut_cfg sp old x).
Proof. intros sp old x H. split; [cbn; lia|]. intros k r E. cbn in *. apply H in E. lia. Qed.

Ltac up := rewrite ?upd_same; rewrite ?upd_other by discriminate.

(** *** testBarrier *)
Section Barrier.
Variables (old value : nat).
Let c := ut_cfg false old test_barrier.
Let W : wf_ycfg c. Proof. apply wf_cfg. discriminate. Qed.

Definition inv1 (s : ust) : Prop := exists i j,
  u_prog s 0 = skipn i (ut_main test_barrier) /\ u_prog s 1 = skipn j (ut_second test_barrier) /\
  i <= 5 /\ j <= 4 /\ u_ok s = true /\ (1 <= j <= 3 -> u_value s = 42) /\ (j = 4 -> u_value s = 5) /\ (4 <= i -> j = 4).

Lemma inv1_step : forall s t s', ubase c s -> inv1 s -> t < 2 -> ucase c s s' t -> inv1 s'.
Proof.
  intros s t s' B (i & j & P0 & P1 & Li & Lj & O & V1 & V2 & J) L C.
  pose proof (ub_state _ _ B) as ST. pose proof (ub_calls _ _ B) as CA. pose proof (ub_head _ _ B) as HD.
  assert (t = 0 \/ t = 1) as [-> | ->] by lia.
  - (* main *)
    destruct C as [o p v b P A Q ->|sh o inner p v b P A Q ->|sh inner p y P Q I ->]; rewrite P0 in P.
    + destruct i as [|[|[|[|[|[|i]]]]]]; cbn in P; try discriminate; try lia; injection P as <- <-; try discriminate.
      * (* value == 42 *)
        cbn in Q. injection Q as <- <-.
        pose proof (CA 0 ltac:(lia)) as C0. rewrite P0 in C0. cbn in C0.
        assert (R0 : passed (u_sync s) 0 0) by (left; lia).
        pose proof (sync_barrier c W eq_refl _ 0 1 0 ST ltac:(cbn; lia) ltac:(cbn; lia) R0) as A1.
        assert (j <> 0).
        { intros ->. pose proof (CA 1 ltac:(lia)) as C1. rewrite P1 in C1. cbn in C1.
          assert (y_pc (y_thr (u_sync s) 1) = YOut) as E by (apply HD; [lia|rewrite P1; reflexivity]).
          destruct A1 as [A1|[_ A1]]; [lia|rewrite E in A1; discriminate]. }
        assert (j <> 4).
        { intros ->. pose proof (CA 1 ltac:(lia)) as C1. rewrite P1 in C1. cbn in C1.
          assert (R1 : passed (u_sync s) 1 1) by (left; lia).
          pose proof (sync_barrier c W eq_refl _ 1 0 1 ST ltac:(cbn; lia) ltac:(cbn; lia) R1) as A0.
          assert (y_pc (y_thr (u_sync s) 0) = YOut) as E by (apply HD; [lia|rewrite P0; reflexivity]).
          destruct A0 as [A0|[_ A0]]; [lia|rewrite E in A0; discriminate]. }
        exists 2, j. cbn [u_prog u_ok u_value]. up.
        rewrite O, V1 by lia. repeat split; auto; try lia.
      * (* join *)
        cbn in Q. destruct (u_prog s 1) eqn:E; [|discriminate]. injection Q as <- <-.
        assert (j = 4) as -> by (destruct j as [|[|[|[|[|j]]]]]; cbn in P1; try discriminate; lia).
        exists 4, 4. cbn [u_prog u_ok u_value]. up.
        repeat split; auto; try lia.
      * (* value == 5 *)
        cbn in Q. injection Q as <- <-. assert (j = 4) as -> by (apply J; lia).
        exists 5, 4. cbn [u_prog u_ok u_value]. up.
        rewrite O, V2 by lia. repeat split; auto; try lia.
    + destruct i as [|[|[|[|[|[|i]]]]]]; cbn in P; try discriminate; lia.
    + assert (sh = false /\ p = skipn (S i) (ut_main test_barrier) /\ (i = 0 \/ i = 2)) as (-> & -> & Ei).
      { destruct i as [|[|[|[|[|[|i]]]]]]; cbn in P; try discriminate; try lia; injection P as <- <- <-; repeat split; auto. }
      destruct (y_pc (y_thr (u_sync s) 0));
        try (exists i, j; cbn [u_prog u_ok u_value]; repeat split; assumption).
      exists (S i), j. cbn [u_prog u_ok u_value]. up.
      repeat split; auto; try lia.
  - (* second thread *)
    destruct C as [o p v b P A Q ->|sh o inner p v b P A Q ->|sh inner p y P Q I ->]; rewrite P1 in P.
    + destruct j as [|[|[|[|[|j]]]]]; cbn in P; try discriminate; try lia; injection P as <- <-; try discriminate;
        cbn in Q; injection Q as <- <-.
      * exists i, 1. cbn [u_prog u_ok u_value]. up.
        repeat split; auto; try lia. 
      * exists i, 4. cbn [u_prog u_ok u_value]. up.
        repeat split; auto; try lia.
    + destruct j as [|[|[|[|[|j]]]]]; cbn in P; try discriminate; lia.
    + assert (sh = false /\ p = skipn (S j) (ut_second test_barrier) /\ (j = 1 \/ j = 2)) as (-> & -> & Ej).
      { destruct j as [|[|[|[|[|j]]]]]; cbn in P; try discriminate; try lia; injection P as <- <- <-; repeat split; auto. }
      destruct (y_pc (y_thr (u_sync s) 1));
        try (exists i, j; cbn [u_prog u_ok u_value]; repeat split; assumption).
      exists i, (S j). cbn [u_prog u_ok u_value]. up.
      repeat split; auto; try lia.
Qed.

Lemma inv1_state : forall s, ustate false old value test_barrier s -> ubase c s /\ inv1 s.
Proof.
  intros s [l H]. eapply (u_run_ind c inv1); [reflexivity| exact inv1_step| | |exact H].
  - apply ubase_init; reflexivity.
  - exists 0, 0. repeat split; try (cbn; lia).
Qed.
End Barrier.

(** *** testWaitBarrier *)
Section WaitBarrier.
Variables (old value : nat).
Let c := ut_cfg false old test_wait_barrier.
Let W : wf_ycfg c. Proof. apply wf_cfg. intros k r H. cbn in H. injection H as <-. reflexivity. Qed.

Definition main2 (i : nat) : list uop :=
  match i with
  | 0 => [UWrite 42; UCall false [UCheck 0; UWrite 3]; UCheck 3; UJoin]
  | 1 => [UCall false [UCheck 0; UWrite 3]; UCheck 3; UJoin]
  | 2 => [UCall false [UWrite 3]; UCheck 3; UJoin]
  | 3 => [UCall false []; UCheck 3; UJoin]
  | 4 => [UCheck 3; UJoin]
  | 5 => [UJoin]
  | _ => []
  end.
Definition second2 (j : nat) : list uop :=
  match j with 0 => [UCall false [UWrite 0]] | 1 => [UCall false []] | _ => [] end.

Definition inv2 (s : ust) : Prop := exists i j,
  u_prog s 0 = main2 i /\ u_prog s 1 = second2 j /\ i <= 6 /\ j <= 2 /\ u_ok s = true /\
  (i = 0 -> j = 0) /\ (i = 1 -> 1 <= j -> u_value s = 0) /\ (2 <= i -> j = 2) /\ (3 <= i <= 4 -> u_value s = 3).

Lemma inv2_step : forall s t s', ubase c s -> inv2 s -> t < 2 -> ucase c s s' t -> inv2 s'.
Proof.
  intros s t s' B (i & j & P0 & P1 & Li & Lj & O & I0 & I1 & I2 & I3) L C.
  pose proof (ub_state _ _ B) as ST. pose proof (ub_calls _ _ B) as CA. pose proof (ub_head _ _ B) as HD.
  assert (t = 0 \/ t = 1) as [-> | ->] by lia.
  - destruct C as [o p v b P A Q ->|sh o inner p v b P A Q ->|sh inner p y P Q I ->]; rewrite P0 in P.
    + destruct i as [|[|[|[|[|[|[|i]]]]]]]; cbn in P; try discriminate; try lia; injection P as <- <-; try discriminate.
      * cbn in Q. injection Q as <- <-. exists 1, j. cbn [u_prog u_ok u_value].
        up. repeat split; auto; try lia.
      * cbn in Q. injection Q as <- <-. exists 5, j. cbn [u_prog u_ok u_value].
        up.
        rewrite O, I3 by lia. repeat split; auto; try lia.
      * cbn in Q. destruct (u_prog s 1) eqn:E; [|discriminate]. injection Q as <- <-.
        exists 6, j. cbn [u_prog u_ok u_value]. up.
        rewrite E. repeat split; auto; try lia.
    + assert (R0 : passed (u_sync s) 0 0).
      { pose proof (CA 0 ltac:(lia)) as C0. destruct i as [|[|[|[|[|[|[|i]]]]]]]; cbn in P; try discriminate; try lia;
          rewrite P0 in C0; cbn in C0; right; (split; [lia|]); auto. }
      destruct (sync_root_last c W eq_refl _ 0 1 0 ST ltac:(cbn; lia) eq_refl R0) as [X|R1]; [discriminate|].
      assert (j = 2) as ->.
      { pose proof (CA 1 ltac:(lia)) as C1. unfold returned in R1. destruct j as [|[|[|j]]]; try lia; rewrite P1 in C1; cbn in C1; lia. }
      destruct i as [|[|[|[|[|[|[|i]]]]]]]; cbn in P; try discriminate; try lia; injection P as <- <- <- <-.
      * cbn in Q. injection Q as <- <-. exists 2, 2. cbn [u_prog u_ok u_value].
        up. rewrite O, I1 by lia. repeat split; auto; try lia.
      * cbn in Q. injection Q as <- <-. exists 3, 2. cbn [u_prog u_ok u_value].
        up. repeat split; auto; try lia.
    + assert (sh = false) as -> by (destruct i as [|[|[|[|[|[|[|i]]]]]]]; cbn in P; try discriminate; try lia; injection P as <- <- <-; auto).
      destruct (y_pc (y_thr (u_sync s) 0)); try (exists i, j; cbn [u_prog u_ok u_value]; repeat split; assumption).
      specialize (I eq_refl). subst inner.
      assert (i = 3) as -> by (destruct i as [|[|[|[|[|[|[|i]]]]]]]; cbn in P; try discriminate; lia).
      cbn in P. injection P as <-.
      exists 4, j. cbn [u_prog u_ok u_value]. up.
      repeat split; auto; try lia.
  - destruct C as [o p v b P A Q ->|sh o inner p v b P A Q ->|sh inner p y P Q I ->]; rewrite P1 in P.
    + destruct j as [|[|[|j]]]; cbn in P; try discriminate; try lia; injection P as <- <-; discriminate.
    + destruct j as [|[|[|j]]]; cbn in P; try discriminate; try lia. injection P as <- <- <- <-.
      cbn in Q. injection Q as <- <-.
      assert (R1 : passed (u_sync s) 1 0).
      { pose proof (CA 1 ltac:(lia)) as C1. rewrite P1 in C1. cbn in C1. right. split; [lia|auto]. }
      pose proof (sync_barrier c W eq_refl _ 1 0 0 ST ltac:(cbn; lia) ltac:(cbn; lia) R1) as A0.
      assert (i <> 0).
      { intros ->. pose proof (CA 0 ltac:(lia)) as C0. rewrite P0 in C0. cbn in C0.
        assert (y_pc (y_thr (u_sync s) 0) = YOut) as E by (apply HD; [lia|rewrite P0; reflexivity]).
        destruct A0 as [A0|[_ A0]]; [lia|rewrite E in A0; discriminate]. }
      assert (i = 1) as -> by (destruct i as [|[|i]]; lia).
      exists 1, 1. cbn [u_prog u_ok u_value]. up.
      repeat split; auto; try lia.
    + assert (sh = false) as -> by (destruct j as [|[|[|j]]]; cbn in P; try discriminate; try lia; injection P as <- <- <-; auto).
      destruct (y_pc (y_thr (u_sync s) 1)); try (exists i, j; cbn [u_prog u_ok u_value]; repeat split; assumption).
      specialize (I eq_refl). subst inner.
      assert (j = 1) as -> by (destruct j as [|[|[|j]]]; cbn in P; try discriminate; lia).
      cbn in P. injection P as <-.
      exists i, 2. cbn [u_prog u_ok u_value]. up.
      repeat split; auto; try lia.
Qed.

Lemma inv2_state : forall s, ustate false old value test_wait_barrier s -> ubase c s /\ inv2 s.
Proof.
  intros s [l H]. eapply (u_run_ind c inv2); [reflexivity| exact inv2_step| | |exact H].
  - apply ubase_init; reflexivity.
  - exists 0, 0. repeat split; try (cbn; lia).
Qed.
End WaitBarrier.

(** *** testBroadcast *)
Section Broadcast.
Variables (old value : nat).
Let c := ut_cfg false old test_broadcast.
Let W : wf_ycfg c. Proof. apply wf_cfg. intros k r H. cbn in H. injection H as <-. reflexivity. Qed.

Definition copied (s : ust) : Prop := passed (u_sync s) 1 0 /\ y_pc (y_thr (u_sync s) 1) <> YCopy.

Definition inv3 (s : ust) : Prop := exists i,
  u_prog s 0 = skipn i (ut_main test_broadcast) /\
  (u_prog s 1 = ut_second test_broadcast \/ u_prog s 1 = []) /\
  i <= 4 /\ u_ok s = true /\ (copied s -> u_value s = 77) /\ (3 <= i -> u_prog s 1 = []).

Lemma var77 : forall y, ystate c y -> y_pc (y_thr y 1) = YEnd -> y_round (y_thr y 1) = 0 -> y_var (y_thr y 1) = 77.
Proof.
  intros y ST E R. 
  assert (exists y', ystep c y (YStep 1) = Some (Ok y')) as [y' Q].
  { cbn. unfold ystep_thr. rewrite E. eexists. reflexivity. }
  pose proof (ystep_own c _ _ _ Q) as O. cbn zeta in O. rewrite E in O. destruct O as (_ & O2 & O3).
  pose proof (sync_values c W eq_refl _ 1 (ystate_step c _ _ _ ST Q) ltac:(cbn; lia)) as V.
  rewrite O2, O3, R, map_app in V. cbn in V.
  pose proof (sync_values c W eq_refl _ 1 ST ltac:(cbn; lia)) as V0. rewrite R in V0. cbn in V0. rewrite V0 in V.
  cbn in V. congruence.
Qed.

Lemma inv3_step : forall s t s', ubase c s -> inv3 s -> t < 2 -> ucase c s s' t -> inv3 s'.
Proof.
  intros s t s' B (i & P0 & P1 & Li & O & V & J) L C.
  pose proof (ub_state _ _ B) as ST. pose proof (ub_calls _ _ B) as CA. pose proof (ub_head _ _ B) as HD.
  assert (t = 0 \/ t = 1) as [-> | ->] by lia.
  - destruct C as [o p v b P A Q ->|sh o inner p v b P A Q ->|sh inner p y P Q I ->]; rewrite P0 in P.
    + destruct i as [|[|[|[|[|i]]]]]; cbn in P; try discriminate; try lia; injection P as <- <-; try discriminate.
      * (* pointer = 0 *)
        cbn in Q. injection Q as <- <-. exists 1. unfold copied. cbn [u_prog u_ok u_value u_sync].
        up.
        repeat split; auto; try lia. intros [R1 _]. exfalso.
        pose proof (sync_barrier c W eq_refl _ 1 0 0 ST ltac:(cbn; lia) ltac:(cbn; lia) R1) as A0.
        pose proof (CA 0 ltac:(lia)) as C0. rewrite P0 in C0. cbn in C0.
        assert (y_pc (y_thr (u_sync s) 0) = YOut) as E by (apply HD; [lia|rewrite P0; reflexivity]).
        destruct A0 as [A0|[_ A0]]; [lia|rewrite E in A0; discriminate].
      * (* join *)
        cbn in Q. destruct (u_prog s 1) eqn:E; [|discriminate]. injection Q as <- <-.
        exists 3. unfold copied. cbn [u_prog u_ok u_value u_sync].
        up. rewrite E. repeat split; auto; try lia.
      * (* *pointer == 77 *)
        cbn in Q. injection Q as <- <-. assert (u_prog s 1 = []) as E by (apply J; lia).
        assert (copied s) as CP.
        { split; [left|rewrite HD; [discriminate|lia|rewrite E; reflexivity]].
          pose proof (CA 1 ltac:(lia)) as C1. rewrite E in C1. cbn in C1. lia. }
        exists 4. unfold copied. cbn [u_prog u_ok u_value u_sync].
        up.
        rewrite O, V by exact CP. repeat split; auto; try lia.
    + destruct i as [|[|[|[|[|i]]]]]; cbn in P; try discriminate; lia.
    + assert (sh = false /\ p = skipn (S i) (ut_main test_broadcast) /\ i = 1) as (-> & -> & ->).
      { destruct i as [|[|[|[|[|i]]]]]; cbn in P; try discriminate; try lia; injection P as <- <- <-; repeat split; auto. }
      assert (V' : passed y 1 0 /\ y_pc (y_thr y 1) <> YCopy -> u_value s = 77).
      { intros [A1 A2]. apply V. destruct (ystep_other c _ _ _ 1 Q ltac:(lia)) as (R1 & _ & R2).
        unfold copied, passed in *. rewrite R1 in A1. destruct R2 as [R2|[R2 R3]].
        - rewrite R2 in *. auto.
        - split; [|intros X; rewrite X in R2; discriminate].
          destruct A1 as [A1|[A1 [A3|A3]]]; [auto|rewrite A3 in R3; discriminate|rewrite A3 in R3; discriminate]. }
      destruct (y_pc (y_thr (u_sync s) 0));
        try (exists 1; unfold copied; cbn [u_prog u_ok u_value u_sync]; repeat split; assumption).
      exists 2. unfold copied. cbn [u_prog u_ok u_value u_sync].
      up.
      repeat split; auto; try lia.
  - destruct P1 as [P1|P1]; rewrite P1 in *;
      destruct C as [o p v b P A Q ->|sh o inner p v b P A Q ->|sh inner p y P Q I ->]; rewrite P1 in P; try discriminate P.
    + injection P as <- <-. discriminate.
    + injection P as <- <- <-.
      pose proof (ystep_own c _ _ _ Q) as OW. cbn zeta in OW.
      pose proof (ystate_step c _ _ _ ST Q) as ST'.
      pose proof (CA 1 ltac:(lia)) as C1. rewrite P1 in C1. cbn in C1.
      assert (NC : (y_pc (y_thr y 1) <> YEnd -> y_round (y_thr y 1) = 0 -> passed y 1 0 /\ y_pc (y_thr y 1) <> YCopy -> False)).
      { intros N1 N2 [[X|[_ [X|X]]] X']; [lia|contradiction|contradiction]. }
      assert (J' : 3 <= i -> False) by (intros X; specialize (J X); discriminate).
      destruct (y_pc (y_thr (u_sync s) 1)) eqn:E.
      11:{ exists i. unfold copied. cbn [u_prog u_ok u_value u_sync]. destruct OW as (OW1 & OW2 & _).
           repeat split; auto; try lia. intros _. apply var77; [exact ST'|exact OW1|lia]. }
      11:{ exists i. unfold copied. cbn [u_prog u_ok u_value u_sync].
           up. repeat split; auto; try lia.
           intros _. apply V. split; [right; split; [lia|auto]|rewrite E; discriminate]. }
      all: exists i; unfold copied; cbn [u_prog u_ok u_value u_sync]; destruct OW as (OW1 & OW2 & OW3 & _);
           repeat split; auto; try lia; intros X; exfalso; apply NC; auto; lia.
Qed.

Lemma inv3_state : forall s, ustate false old value test_broadcast s -> ubase c s /\ inv3 s.
Proof.
  intros s [l H]. eapply (u_run_ind c inv3); [reflexivity| exact inv3_step| | |exact H].
  - apply ubase_init; reflexivity.
  - exists 0. repeat split; auto; try (cbn; lia). intros [[X|[_ [X|X]]] _]; cbn in X; [lia|discriminate|discriminate].
Qed.
End Broadcast.

(** *** All three tests *)
Definition sync_tests : list utest := [test_barrier; test_wait_barrier; test_broadcast].
Lemma sync_test_wf : forall sp old x, In x sync_tests -> wf_ycfg (ut_cfg sp old x).
Proof.
  intros sp old x H. apply wf_cfg. intros k r E. cbn in H.
  destruct H as [<-|[<-|[<-|[]]]]; cbn in E; try discriminate; injection E as <-; reflexivity.
Qed.
Lemma sync_test_base : forall old value x s, In x sync_tests -> ustate false old value x s -> ubase (ut_cfg false old x) s.
Proof.
  intros old value x s H U. cbn in H. destruct H as [<-|[<-|[<-|[]]]].
  - apply (inv1_state old value s U).
  - apply (inv2_state old value s U).
  - apply (inv3_state old value s U).
Qed.
Theorem sync_tests_ok : forall old value x s, In x sync_tests -> ustate false old value x s -> u_ok s = true.
Proof.
  intros old value x s H U. cbn in H. destruct H as [<-|[<-|[<-|[]]]].
  - destruct (inv1_state old value s U) as [_ (i & j & A)]. apply A.
  - destruct (inv2_state old value s U) as [_ (i & j & A)]. apply A.
  - destruct (inv3_state old value s U) as [_ (i & A)]. apply A.
Qed.

Lemma yrun_app : forall {V} (c : ycfg V) l l' s s', yrun c s l = Some (Ok s') -> yrun c s (l ++ l') = yrun c s' l'.
Proof.
  intros V c. induction l as [|a l IH]; intros l' s s' H; cbn in *.
  - injection H as <-. reflexivity.
  - destruct (ystep c s a) as [[s1|]|]; try discriminate. apply IH. exact H.
Qed.
Lemma u_run_app : forall c l l' s s', u_run c s l = Some (Ok s') -> u_run c s (l ++ l') = u_run c s' l'.
Proof.
  intros c. induction l as [|a l IH]; intros l' s s' H; cbn [u_run app] in *.
  - injection H as <-. reflexivity.
  - destruct (u_step c s a) as [[s1|]|]; try discriminate. apply IH. exact H.
Qed.
Lemma ystep_defined : forall {V} (c : ycfg V) s a, wf_ycfg c -> y_spurious c = false -> ystate c s -> ystep c s a <> Some Ub.
Proof.
  intros V c s a W Sp [l H] E. apply (sync_defined c W Sp (l ++ [a])). rewrite (yrun_app c l [a] _ _ H). cbn. rewrite E. reflexivity.
Qed.

Theorem sync_tests_defined : forall old value x l, In x sync_tests ->
  u_run (ut_cfg false old x) (u_init (ut_cfg false old x) value x) l <> Some Ub.
Proof.
  intros old value x l H. set (c := ut_cfg false old x).
  assert (G : forall l s, ustate false old value x s -> u_run c s l <> Some Ub).
  { clear l. induction l as [|a l IH]; intros s U E; cbn in E; [discriminate|].
    destruct (u_step c s a) as [[s1|]|] eqn:Q; try discriminate.
    - apply (IH s1); [|exact E]. destruct U as [l0 U]. exists (l0 ++ [a]).
      unfold c in Q. cbn zeta in *. rewrite (u_run_app _ _ _ _ _ U). cbn [u_run]. rewrite Q. reflexivity.
    - pose proof (sync_test_base _ _ _ _ H U) as B. pose proof (ub_state _ _ B) as ST.
      pose proof (fun a => ystep_defined c _ a (sync_test_wf false old x H) eq_refl ST) as D.
      unfold u_step in Q. destruct a as [t|t].
      + destruct (t <? 2); [|discriminate]. destruct (u_prog s t) as [|o p]; [discriminate|].
        unfold u_next in Q. specialize (D (YStep t)).
        destruct o as [v|v|sh inner|]; try (destruct (u_simple s _) as [[? ?]|]; discriminate).
        destruct (y_pc (y_thr (u_sync s) t)), inner; try (destruct (u_simple s _) as [[? ?]|]; discriminate);
          destruct (ystep c (u_sync s) (YStep t)) as [[?|]|]; try discriminate; congruence.
      + specialize (D (YSpur t)). destruct (ystep c (u_sync s) (YSpur t)) as [[?|]|]; try discriminate; congruence. }
  apply G. exists []. reflexivity.
Qed.

(** Progress. *)
Definition plain_op (o : uop) : bool := match o with UWrite _ | UCheck _ => true | _ => false end.
Fixpoint shape (main : bool) (p : list uop) : bool :=
  match p with
  | [] => true
  | UCall _ inner :: p' => forallb plain_op inner && shape main p'
  | UJoin :: p' => main && (calls p' =? 0) && shape main p'
  | _ :: p' => shape main p'
  end.
Lemma shape_skipn : forall m n p, shape m p = true -> shape m (skipn n p) = true.
Proof.
  intros m. induction n as [|n IH]; intros p H; [exact H|]. destruct p as [|o p]; [reflexivity|]. cbn. apply IH.
  destruct o; cbn in H; rewrite ?Bool.andb_true_iff in H; tauto.
Qed.
Lemma sync_test_shape : forall old value x s, In x sync_tests -> ustate false old value x s ->
  shape true (u_prog s 0) = true /\ shape false (u_prog s 1) = true.
Proof.
  intros old value x s H U. cbn in H. destruct H as [<-|[<-|[<-|[]]]].
  - destruct (inv1_state old value s U) as [_ (i & j & -> & -> & _)]. split; apply shape_skipn; reflexivity.
  - destruct (inv2_state old value s U) as [_ (i & j & -> & -> & _)].
    split; [destruct i as [|[|[|[|[|[|i]]]]]]|destruct j as [|[|j]]]; reflexivity.
  - destruct (inv3_state old value s U) as [_ (i & -> & P1 & _)].
    split; [apply shape_skipn; reflexivity|destruct P1 as [-> | ->]; reflexivity].
Qed.

Lemma plain_steps : forall s o, plain_op o = true -> exists r, u_simple s o = Some r.
Proof. intros s [v|v|sh i|] H; try discriminate; eexists; reflexivity. Qed.

Theorem sync_tests_progress : forall old value x s, In x sync_tests -> ustate false old value x s ->
  u_prog s 0 <> [] \/ u_prog s 1 <> [] -> exists a s', u_step (ut_cfg false old x) s a = Some (Ok s').
Proof.
  intros old value x s H U NE. pose proof (sync_test_base _ _ _ _ H U) as B. destruct (sync_test_shape _ _ _ _ H U) as [S0 S1].
  set (c := ut_cfg false old x) in *.
  pose proof (ub_state _ _ B) as ST. pose proof (ub_calls _ _ B) as CA. pose proof (ub_head _ _ B) as HD.
  assert (Hplain : forall t o p, t < 2 -> u_prog s t = o :: p -> plain_op o = true -> exists a s', u_step c s a = Some (Ok s')).
  { intros t o p L P Q. destruct (plain_steps s o Q) as [[v b] E]. exists (YStep t). unfold u_step.
    apply Nat.ltb_lt in L. rewrite L, P. destruct o; try discriminate; unfold u_next; rewrite E; eauto. }
  assert (Hcall : forall t sh inner p y, t < 2 -> u_prog s t = UCall sh inner :: p -> forallb plain_op inner = true ->
            ystep c (u_sync s) (YStep t) = Some (Ok y) -> exists a s', u_step c s a = Some (Ok s')).
  { intros t sh inner p y L P Q E. exists (YStep t). unfold u_step. apply Nat.ltb_lt in L. rewrite L, P, E.
    destruct inner as [|o inner].
    - destruct (y_pc (y_thr (u_sync s) t)); eauto.
    - cbn in Q. apply Bool.andb_true_iff in Q. destruct (plain_steps s o (proj1 Q)) as [[v b] E'].
      unfold u_next. rewrite E'. destruct (y_pc (y_thr (u_sync s) t)); eauto. }
  assert (Hsync : forall t sh inner p, t < 2 -> u_prog s t = UCall sh inner :: p ->
            (forall u o q, u < 2 -> u_prog s u = o :: q -> plain_op o = false) -> exists a s', u_step c s a = Some (Ok s')).
  { intros t sh inner p L P NP.
    destruct (sync_progress c (sync_test_wf false old x H) eq_refl _ ST) as (a & y & E).
    - exists t. split; [exact L|]. intros [F _]. specialize (CA t L). rewrite P in CA. cbn [calls] in CA. lia.
    - destruct a as [u|u].
      2:{ unfold ystep, ystep_spur in E. cbn in E. destruct (u <=? 1); discriminate. }
      assert (Lu : u < 2). { unfold ystep in E. destruct (Nat.ltb_spec u (y_n c)) as [X|X]; [exact X|discriminate]. }
      destruct (u_prog s u) as [|o q] eqn:Pu.
      + exfalso. assert (y_pc (y_thr (u_sync s) u) = YOut) as X by (apply HD; [exact Lu|rewrite Pu; reflexivity]).
        specialize (CA u Lu). rewrite Pu in CA. cbn [calls] in CA. unfold ystep in E.
        destruct (u <? y_n c); [|discriminate]. unfold ystep_thr in E. rewrite X in E.
        destruct (Nat.ltb_spec (y_round (y_thr (u_sync s) u)) (y_rounds c)); [lia|discriminate].
      + specialize (NP u o q Lu Pu). destruct o as [v|v|sh' inner'|]; try discriminate.
        * apply (Hcall u sh' inner' q y Lu Pu); [|exact E].
          assert (u = 0 \/ u = 1) as [-> | ->] by lia; [rewrite Pu in S0; cbn in S0; apply Bool.andb_true_iff in S0; tauto
                                                        |rewrite Pu in S1; cbn in S1; apply Bool.andb_true_iff in S1; tauto].
        * exfalso. assert (y_pc (y_thr (u_sync s) u) = YOut) as X by (apply HD; [exact Lu|rewrite Pu; reflexivity]).
          assert (calls q = 0) as Z.
          { assert (u = 0 \/ u = 1) as [-> | ->] by lia.
            - rewrite Pu in S0. cbn in S0. apply Bool.andb_true_iff in S0. destruct S0 as [S0 _]. apply Nat.eqb_eq in S0. exact S0.
            - rewrite Pu in S1. cbn in S1. discriminate. }
          specialize (CA u Lu). rewrite Pu in CA. cbn [calls] in CA. unfold ystep in E.
          destruct (u <? y_n c); [|discriminate]. unfold ystep_thr in E. rewrite X in E.
          destruct (Nat.ltb_spec (y_round (y_thr (u_sync s) u)) (y_rounds c)); [lia|discriminate]. }
  destruct (u_prog s 0) as [|o0 p0] eqn:P0; destruct (u_prog s 1) as [|o1 p1] eqn:P1.
  - destruct NE; congruence.
  - destruct (plain_op o1) eqn:E1; [eapply (Hplain 1); eauto|].
    destruct o1 as [v|v|sh inner|]; try discriminate. eapply (Hsync 1); eauto.
    intros u o q Lu Pu. assert (u = 0 \/ u = 1) as [-> | ->] by lia; rewrite Pu in *; [discriminate|congruence].
  - destruct (plain_op o0) eqn:E0; [eapply (Hplain 0); eauto|].
    destruct o0 as [v|v|sh inner|]; try discriminate.
    + eapply (Hsync 0); eauto. intros u o q Lu Pu. assert (u = 0 \/ u = 1) as [-> | ->] by lia; rewrite Pu in *; congruence.
    + exists (YStep 0). unfold u_step. cbn [Nat.ltb Nat.leb]. rewrite P0. unfold u_next, u_simple. rewrite P1. eauto.
  - destruct (plain_op o0) eqn:E0; [eapply (Hplain 0); eauto|].
    destruct (plain_op o1) eqn:E1; [eapply (Hplain 1); eauto|].
    assert (NP : forall u o q, u < 2 -> u_prog s u = o :: q -> plain_op o = false).
    { intros u o q Lu Pu. assert (u = 0 \/ u = 1) as [-> | ->] by lia; rewrite Pu in *; congruence. }
    destruct o1 as [v|v|sh inner|]; try discriminate. eapply (Hsync 1); eauto.
Qed.

(** Executions are finite. *)
Definition op_weight (o : uop) : nat := match o with UCall _ inner => length inner | _ => 1 end.
Fixpoint weight (p : list uop) : nat := match p with [] => 0 | o :: p' => op_weight o + weight p' end.
Lemma u_run_length : forall c l s s', y_spurious c = false -> u_run c s l = Some (Ok s') ->
  exists l', yrun c (u_sync s) l' = Some (Ok (u_sync s')) /\
    length l + weight (u_prog s' 0) + weight (u_prog s' 1) = length l' + weight (u_prog s 0) + weight (u_prog s 1).
Proof.
  intros c. induction l as [|a l IH]; intros s s' Sp R; cbn in R.
  - injection R as <-. exists []. split; reflexivity.
  - destruct (u_step c s a) as [[s1|]|] eqn:E; try discriminate.
    destruct (IH s1 s' Sp R) as (l' & A & B).
    destruct (u_step_case _ _ _ _ Sp E) as (t & -> & L & C).
    assert (t = 0 \/ t = 1) as T by lia.
    destruct C as [o p v b P Q Z ->|sh o inner p v b P Q Z ->|sh inner p y P Q I ->]; cbn [u_sync u_prog] in *.
    + exists l'. split; [exact A|]. assert (op_weight o = 1) by (destruct o; try discriminate; reflexivity).
      destruct T as [-> | ->]; rewrite P in *; cbn [length weight] in *; revert B; up; lia.
    + exists l'. split; [exact A|].
      destruct T as [-> | ->]; rewrite P in *; cbn [length weight op_weight] in *; revert B; up; cbn [length weight op_weight]; lia.
    + exists (YStep t :: l'). split; [cbn [yrun]; rewrite Q; exact A|].
      destruct (y_pc (y_thr (u_sync s) t)); try (cbn [length]; lia).
      rewrite (I eq_refl) in P. destruct T as [-> | ->]; rewrite P in *; cbn [length weight op_weight] in *; revert B; up; lia.
Qed.
Theorem sync_tests_finite : forall old value x l s, In x sync_tests ->
  u_run (ut_cfg false old x) (u_init (ut_cfg false old x) value x) l = Some (Ok s) -> length l <= 60.
Proof.
  intros old value x l s H R. destruct (u_run_length (ut_cfg false old x) l _ _ eq_refl R) as (l' & A & B).
  pose proof (sync_terminates (ut_cfg false old x) (sync_test_wf false old x H) eq_refl l' _ A) as T.
  cbn in H. destruct H as [<-|[<-|[<-|[]]]]; cbn in *; lia.
Qed.

Theorem sync_tests_all : forall old value x l, In x [test_barrier; test_wait_barrier; test_broadcast] ->
  let c := ut_cfg false old x in
  u_run c (u_init c value x) l <> Some Ub /\
  forall s, u_run c (u_init c value x) l = Some (Ok s) ->
    u_ok s = true /\ length l <= 60 /\
    (u_prog s 0 <> [] \/ u_prog s 1 <> [] -> exists a s', u_step c s a = Some (Ok s')).
Proof.
  intros old value x l X c. split; [apply sync_tests_defined; exact X|]. intros s H.
  assert (U : ustate false old value x s) by (exists l; exact H).
  split; [apply (sync_tests_ok old value x s X U)|]. split; [apply (sync_tests_finite old value x l s X H)|].
  apply (sync_tests_progress old value x s X U).
Qed.

Theorem sync_tests_spurious : exists l s,
  u_run (ut_cfg true 0 test_barrier) (u_init (ut_cfg true 0 test_barrier) 0 test_barrier) l = Some (Ok s) /\ u_ok s = false.
Proof.
  set (l := YStep 0 :: YStep 0 :: YSpur 0 :: repeat (YStep 0) 6). exists l.
  assert (B : match u_run (ut_cfg true 0 test_barrier) (u_init (ut_cfg true 0 test_barrier) 0 test_barrier) l with
              | Some (Ok s) => negb (u_ok s) | _ => false end = true) by (vm_compute; reflexivity).
  destruct (u_run _ _ l) as [[s|]|]; try discriminate. exists s. split; [reflexivity|]. apply Bool.negb_true_iff, B.
Qed.
