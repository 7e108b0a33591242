(** * Registration with any number of calling threads: proofs *)
From Verif Require Import CallersModel SyncProofs SyncFacts NumaFacts.
Require Import ZArith Lia.

(** ** Too few callers, or [setThreads(0)]: nobody returns *)
Section Few.
Variables (T N : nat) (detect : bool) (node : nat -> nat).
Hypothesis Hfew : T = 0 \/ N < T.
Hypothesis HT : (Z.of_nat T < 2 ^ 32)%Z.
Hypothesis HN : (Z.of_nat N < 2 ^ 32)%Z.

Definition sleeps (p : ypc) : bool := match p with YSleepC => true | _ => false end.

Record few (s : gst) : Prop := {
  fw_pc : forall t, match g_pc s t with GRet _ => False | GNew => y_pc (y_thr (g_sync s) t) = YOut | GSync => True end;
  fw_y : forall t, match y_pc (y_thr (g_sync s) t) with YOut | YIn | YSleepC => True | _ => False end;
  fw_fin : y_fin (g_sync s) = false;
  fw_ready : n_ready (g_numa s) = false;
  fw_cnt : y_synced (g_sync s) = cnt (fun t => sleeps (y_pc (y_thr (g_sync s) t))) N;
  fw_out : forall t, N <= t -> y_pc (y_thr (g_sync s) t) = YOut;
  fw_own : forall t, y_mutex (g_sync s) = Some t -> t < N /\ g_pc s t = GSync /\ y_pc (y_thr (g_sync s) t) = YIn;
  fw_round : forall t, y_round (y_thr (g_sync s) t) = 0
}.

Lemma few_init : few (ginit T).
Proof.
  constructor; cbn; auto; [|discriminate]. clear. induction N; cbn; auto.
Qed.

Lemma few_step s t s' : few s -> gstep T N detect node s t = Some (Ok s') -> few s'.
Proof.
  intros I. unfold gstep. destruct (Nat.ltb_spec t N) as [Ht|Ht]; [|discriminate].
  pose proof (fw_pc _ I t) as Hp. pose proof (fw_y _ I t) as Hy.
  destruct (g_pc s t) eqn:Eg; [| |destruct Hp].
  - rewrite (fw_ready _ I). intros E; inversion E; subst s'. clear E.
    destruct I as [I1 I2 I3 I4 I5 I6 I7 I8]. constructor; cbn; auto.
    + intros u. specialize (I1 u). unfold upd. destruct (u =? t); auto.
    + intros u Hu. destruct (I7 u Hu) as (A & B & C). unfold upd. destruct (u =? t); auto.
  - unfold ystep_thr. cbv zeta. destruct (y_pc (y_thr (g_sync s) t)) eqn:Ey; try destruct Hy.
    + (* YOut *)
      destruct (y_round (y_thr (g_sync s) t) <? y_rounds (g_cfg T)); [|discriminate].
      destruct (y_mutex (g_sync s)); [discriminate|]. cbn [y_lock y_fin]. rewrite (fw_fin _ I).
      intros E; inversion E; subst s'. clear E. destruct I as [I1 I2 I3 I4 I5 I6 I7 I8].
      constructor; cbn; auto.
      * intros u. specialize (I1 u). unfold upd. destruct (Nat.eqb_spec u t) as [->|]; auto. now rewrite Eg.
      * intros u. specialize (I2 u). unfold upd. destruct (u =? t); cbn; auto.
      * rewrite I5. apply cnt_ext. intros u Hu. unfold upd. destruct (Nat.eqb_spec u t) as [->|]; auto. now rewrite Ey.
      * intros u Hu. unfold upd. destruct (Nat.eqb_spec u t); [lia|auto].
      * intros u Hu. inversion Hu; subst u. rewrite upd_eq. auto.
      * intros u. specialize (I8 u). unfold upd. destruct (u =? t) eqn:E; auto. apply Nat.eqb_eq in E; subst u. exact I8.
    + (* YIn *)
      assert (y_synced (g_sync s) < N) as Hlt.
      { rewrite (fw_cnt _ I). pose proof (cnt_le N (fun t => sleeps (y_pc (y_thr (g_sync s) t)))) as L.
        destruct (Nat.eq_dec (cnt (fun t => sleeps (y_pc (y_thr (g_sync s) t))) N) N) as [E|]; [|lia].
        pose proof (cnt_full N _ E t Ht) as X. cbv beta in X. rewrite Ey in X. discriminate. }
      destruct (Nat.eqb_spec (S (y_synced (g_sync s))) (y_n (g_cfg T))) as [E|_]; [cbn in E; lia|].
      unfold gregister. destruct (nregister T detect (g_numa s) (y_synced (g_sync s)) (node t)) as [n' r].
      intros E; inversion E; subst s'. clear E. destruct I as [I1 I2 I3 I4 I5 I6 I7 I8]. constructor; cbn; auto.
      * intros u. specialize (I1 u). unfold upd. destruct (Nat.eqb_spec u t) as [->|]; auto. now rewrite Eg.
      * intros u. specialize (I2 u). unfold upd. destruct (u =? t); cbn; auto.
      * destruct (Z.leb_spec (before_last T) (Z.of_nat (y_synced (g_sync s)))) as [L|L]; auto. exfalso.
        unfold before_last in L. destruct Hfew as [->|Hl].
        -- change ((Z.of_nat 0 - 1) mod 2 ^ 32)%Z with (2 ^ 32 - 1)%Z in L. lia.
        -- rewrite Z.mod_small in L by lia. lia.
      * rewrite I5. symmetry. apply (cnt_add N (fun u => sleeps (y_pc (y_thr (g_sync s) u))) _ t); auto.
        -- now rewrite Ey.
        -- rewrite upd_eq. reflexivity.
        -- intros u _ Hu. rewrite !upd_ne by auto. reflexivity.
      * intros u Hu. unfold upd. destruct (Nat.eqb_spec u t); [lia|auto].
      * discriminate.
      * intros u. specialize (I8 u). unfold upd. rewrite Nat.eqb_refl. destruct (u =? t) eqn:E; auto. apply Nat.eqb_eq in E; subst u. exact I8.
    + discriminate.
Qed.

Lemma few_run l : forall s s', few s -> grun T N detect node s l = Some (Ok s') -> few s'.
Proof.
  induction l as [|t l IH]; cbn; intros s s' I E; [inversion E; subst; auto|].
  destruct (gstep T N detect node s t) as [[s1|]|] eqn:E1; try discriminate. eapply IH; [|exact E]. eapply few_step; eauto.
Qed.

Lemma few_never l s : grun T N detect node (ginit T) l = Some (Ok s) -> forall t r, g_pc s t <> GRet r.
Proof. intros E t r H. pose proof (fw_pc _ (few_run l _ _ few_init E) t) as X. now rewrite H in X. Qed.

(** ... and when nothing more can happen, all of them sleep in [pthread_cond_wait]. *)
Lemma few_asleep l s : grun T N detect node (ginit T) l = Some (Ok s) -> (forall t, gstep T N detect node s t = None) ->
  forall t, t < N -> y_pc (y_thr (g_sync s) t) = YSleepC.
Proof.
  intros E Hst t Ht. pose proof (few_run l _ _ few_init E) as I.
  assert (y_mutex (g_sync s) = None) as Em.
  { destruct (y_mutex (g_sync s)) as [u|] eqn:Eu; auto. exfalso. destruct (fw_own _ I u Eu) as (A & B & C).
    pose proof (Hst u) as H. unfold gstep in H. apply Nat.ltb_lt in A. rewrite A, B in H. unfold ystep_thr in H. rewrite C in H.
    destruct (gregister T detect (g_numa s) (y_synced (g_sync s)) (node u)) as [n' r].
    destruct (S (y_synced (g_sync s)) =? y_n (g_cfg T)); discriminate. }
  pose proof (Hst t) as H. unfold gstep in H. pose proof Ht as Ht'. apply Nat.ltb_lt in Ht'. rewrite Ht' in H.
  pose proof (fw_pc _ I t) as Hp. pose proof (fw_y _ I t) as Hy. pose proof (fw_round _ I t) as Hr.
  destruct (g_pc s t) eqn:Eg; [rewrite (fw_ready _ I) in H; discriminate| |destruct Hp].
  unfold ystep_thr in H. destruct (y_pc (y_thr (g_sync s) t)) eqn:Ey; try destruct Hy; auto; exfalso.
  - rewrite Hr, Em in H. cbn in H. discriminate.
  - destruct (gregister T detect (g_numa s) (y_synced (g_sync s)) (node t)) as [n' r].
    destruct (S (y_synced (g_sync s)) =? y_n (g_cfg T)); discriminate.
Qed.

(** Each of them makes three steps at most. *)
Definition begun (s : gst) (t : nat) : bool := match g_pc s t with GNew => false | _ => true end.
Definition entered (s : gst) (t : nat) : bool := match y_pc (y_thr (g_sync s) t) with YOut => false | _ => true end.
Definition asleep (s : gst) (t : nat) : bool := sleeps (y_pc (y_thr (g_sync s) t)).
Definition few_steps (s : gst) : nat := cnt (begun s) N + cnt (entered s) N + cnt (asleep s) N.

Lemma few_counts s t s' : few s -> gstep T N detect node s t = Some (Ok s') -> few_steps s' = S (few_steps s).
Proof.
  intros I. unfold gstep. destruct (Nat.ltb_spec t N) as [Ht|Ht]; [|discriminate].
  pose proof (fw_pc _ I t) as Hp. pose proof (fw_y _ I t) as Hy. unfold few_steps.
  destruct (g_pc s t) eqn:Eg; [| |destruct Hp].
  - rewrite (fw_ready _ I). intros E; inversion E; subst s'. clear E.
    rewrite (cnt_add N (begun s) (begun _) t Ht); [cbn; unfold entered, asleep; cbn; lia|unfold begun; now rewrite Eg|unfold begun; cbn; now rewrite upd_eq|].
    intros u _ Hu. unfold begun. cbn. now rewrite upd_ne.
  - unfold ystep_thr. cbv zeta. destruct (y_pc (y_thr (g_sync s) t)) eqn:Ey; try destruct Hy.
    + destruct (y_round (y_thr (g_sync s) t) <? y_rounds (g_cfg T)); [|discriminate].
      destruct (y_mutex (g_sync s)); [discriminate|]. cbn [y_lock y_fin]. rewrite (fw_fin _ I).
      intros E; inversion E; subst s'. clear E.
      rewrite (cnt_add N (entered s) (entered _) t Ht); [|unfold entered; now rewrite Ey|unfold entered; cbn; now rewrite upd_eq|].
      * rewrite (cnt_ext N (begun _) (begun s)) by reflexivity.
        rewrite (cnt_ext N (asleep _) (asleep s)); [lia|]. intros u _. unfold asleep. cbn. unfold upd.
        destruct (Nat.eqb_spec u t) as [->|]; auto. now rewrite Ey.
      * intros u _ Hu. unfold entered. cbn. now rewrite upd_ne.
    + assert (y_synced (g_sync s) < N) as Hlt.
      { rewrite (fw_cnt _ I). pose proof (cnt_le N (fun t => sleeps (y_pc (y_thr (g_sync s) t)))) as L.
        destruct (Nat.eq_dec (cnt (fun t => sleeps (y_pc (y_thr (g_sync s) t))) N) N) as [E|]; [|lia].
        pose proof (cnt_full N _ E t Ht) as X. cbv beta in X. rewrite Ey in X. discriminate. }
      destruct (Nat.eqb_spec (S (y_synced (g_sync s))) (y_n (g_cfg T))) as [E|_]; [cbn in E; lia|].
      unfold gregister. destruct (nregister T detect (g_numa s) (y_synced (g_sync s)) (node t)) as [n' r].
      intros E; inversion E; subst s'. clear E.
      rewrite (cnt_add N (asleep s) (asleep _) t Ht); [|unfold asleep; now rewrite Ey|unfold asleep; cbn; now rewrite upd_eq|].
      * rewrite (cnt_ext N (begun _) (begun s)) by reflexivity.
        rewrite (cnt_ext N (entered _) (entered s)); [lia|]. intros u _. unfold entered. cbn. unfold upd.
        destruct (Nat.eqb_spec u t) as [->|]; auto. rewrite Nat.eqb_refl. cbn. now rewrite Ey.
      * intros u _ Hu. unfold asleep. cbn. now rewrite !upd_ne.
    + discriminate.
Qed.

Lemma few_bounded l s : grun T N detect node (ginit T) l = Some (Ok s) -> length l <= 3 * N.
Proof.
  assert (forall l s s', few s -> grun T N detect node s l = Some (Ok s') -> few_steps s' = length l + few_steps s) as G.
  { clear l s. induction l as [|t l IH]; cbn; intros s s' I E; [inversion E; subst; auto|].
    destruct (gstep T N detect node s t) as [[s1|]|] eqn:E1; try discriminate.
    rewrite (IH s1 s' (few_step _ _ _ I E1) E), (few_counts _ _ _ I E1). lia. }
  intros E. pose proof (G l _ _ few_init E) as X. unfold few_steps at 1 in X.
  pose proof (cnt_le N (begun s)). pose proof (cnt_le N (entered s)). pose proof (cnt_le N (asleep s)). lia.
Qed.

Lemma few_defined l : grun T N detect node (ginit T) l <> Some Ub.
Proof.
  assert (forall l s, few s -> grun T N detect node s l <> Some Ub) as G; [|apply G, few_init].
  clear l. induction l as [|t l IH]; cbn; intros s I; [discriminate|].
  destruct (gstep T N detect node s t) as [[s1|]|] eqn:E1; try discriminate; [apply IH; eapply few_step; eauto|]. intros _.
  unfold gstep in E1. destruct (t <? N); [|discriminate]. pose proof (fw_pc _ I t) as Hp. pose proof (fw_y _ I t) as Hy.
  destruct (g_pc s t); [rewrite (fw_ready _ I) in E1; discriminate| |destruct Hp].
  unfold ystep_thr in E1. destruct (y_pc (y_thr (g_sync s) t)); try destruct Hy; try discriminate.
  - destruct (y_round (y_thr (g_sync s) t) <? y_rounds (g_cfg T)); [|discriminate]. destruct (y_mutex (g_sync s)); [discriminate|].
    cbn [y_lock y_fin] in E1. destruct (y_fin (g_sync s)); discriminate.
  - destruct (gregister T detect (g_numa s) (y_synced (g_sync s)) (node t)).
    destruct (S (y_synced (g_sync s)) =? y_n (g_cfg T)); discriminate.
Qed.
End Few.

(** ** As many callers as [setThreads] says *)
Lemma g_cfg_wf T : 0 < T -> wf_ycfg (g_cfg T).
Proof. intros H. split; [exact H|]. intros k r E. discriminate E. Qed.

Lemma gregister_same T detect s w node : 0 < T -> (Z.of_nat T < 2 ^ 32)%Z -> gregister T detect s w node = nregister T detect s w node.
Proof.
  intros H L. unfold gregister. destruct (nregister T detect s w node) as [n' r] eqn:E.
  assert (n_ready n' = if T - 1 <=? w then true else n_ready s) as En.
  { unfold nregister in E. destruct (nfind (n_domains s) (if detect then node else 0)); inversion E; reflexivity. }
  unfold before_last. rewrite Z.mod_small by lia.
  replace (Z.of_nat T - 1 <=? Z.of_nat w)%Z with (T - 1 <=? w).
  - rewrite <- En. destruct n'; reflexivity.
  - destruct (Nat.leb_spec (T - 1) w), (Z.leb_spec (Z.of_nat T - 1) (Z.of_nat w)); auto; lia.
Qed.

Section Fits.
Variables (T M : nat) (detect : bool) (node : nat -> nat).
Hypothesis H0 : 0 < T.
Hypothesis HT : (Z.of_nat T < 2 ^ 32)%Z.
Local Notation c := (g_cfg T).

(** While only threads below [T] have acted. *)
Record fits (s : gst) : Prop := {
  ft_n : nstate c detect node (NSys (g_sync s) (g_numa s) (g_reg s));
  ft_pc : forall t, match g_pc s t with
                    | GNew => y_pc (y_thr (g_sync s) t) = YOut /\ y_round (y_thr (g_sync s) t) = 0
                    | GSync => y_round (y_thr (g_sync s) t) = 0
                    | GRet r => y_round (y_thr (g_sync s) t) = 1 /\ y_pc (y_thr (g_sync s) t) = YOut /\ g_reg s t = Some r
                    end;
  ft_reg : forall t, t < T -> arrived (g_sync s) t 0 -> g_reg s t <> None
}.

Lemma nrun_snoc l : forall (s : nsys unit) a s1 s', nrun c detect node s l = Some (Ok s1) -> nstep c detect node s1 a = Some (Ok s') ->
  nrun c detect node s (l ++ [a]) = Some (Ok s').
Proof.
  induction l as [|b l IH]; cbn; intros s a s1 s' E1 E2.
  - inversion E1; subst. now rewrite E2.
  - destruct (nstep c detect node s b) as [[s2|]|]; try discriminate. eauto.
Qed.

Lemma fits_init : fits (ginit T).
Proof.
  constructor; cbn.
  - exists []. reflexivity.
  - auto.
  - intros t _ [H|[_ H]]; cbn in H; [lia|discriminate].
Qed.

Lemma ystep_effect (s : yst unit) t s' : ystep_thr c s t = Some (Ok s') ->
  (forall u, u <> t -> y_round (y_thr s' u) = y_round (y_thr s u) /\ (y_pc (y_thr s u) = YOut -> y_pc (y_thr s' u) = YOut)) /\
  (y_pc (y_thr s t) <> YEnd -> y_round (y_thr s' t) = y_round (y_thr s t)) /\
  (y_pc (y_thr s t) = YEnd -> y_round (y_thr s' t) = S (y_round (y_thr s t)) /\ y_pc (y_thr s' t) = YOut).
Proof.
  assert (Hw : forall (s : yst unit) p p' u, y_round (y_thr (y_wake s p p') u) = y_round (y_thr s u) /\
     (y_pc (y_thr s u) = YOut -> y_pc (y_thr (y_wake s p p') u) = YOut)).
  { intros x p p' u. cbn. destruct (ypc_eq (y_pc (y_thr x u)) p) eqn:E; cbn; split; auto. intros Eo. rewrite Eo in E. destruct p; discriminate. }
  assert (Hg : forall (s : yst unit) p u, u <> t -> y_thr (y_goto s t p) u = y_thr s u) by (intros x p u Hu; cbn; now rewrite upd_ne).
  assert (Ht : forall (s : yst unit) p, y_round (y_thr (y_goto s t p) t) = y_round (y_thr s t)) by (intros x p; cbn; now rewrite upd_eq).
  unfold ystep_thr. cbv zeta. cbn [y_root g_cfg y_rounds].
  destruct (y_pc (y_thr s t)) eqn:Ep; try discriminate.
  - destruct (y_round (y_thr s t) <? 1); [|discriminate]. destruct (y_mutex s); [discriminate|]. cbn [y_lock y_fin].
    destruct (y_fin s); intros E; inversion E; subst s'; clear E;
      (split; [intros u Hu; cbn; now rewrite upd_ne|split; [intros _; cbn; now rewrite upd_eq|discriminate]]).
  - destruct (y_mutex s); [discriminate|]. intros E; inversion E; subst s'; clear E.
    split; [intros u Hu; cbn; now rewrite upd_ne|split; [intros _; cbn; now rewrite upd_eq|discriminate]].
  - destruct (S (y_synced s) =? y_n c); intros E; inversion E; subst s'; clear E.
    + split; [|split; [intros _; cbn; now rewrite !upd_eq|discriminate]]. intros u Hu. cbn. rewrite !upd_ne by auto.
      destruct (ypc_eq (y_pc (y_thr s u)) YSleepC) eqn:E; cbn; split; auto. intros Eo. rewrite Eo in E. discriminate.
    + split; [intros u Hu; cbn; now rewrite !upd_ne|split; [intros _; cbn; now rewrite !upd_eq|discriminate]].
  - destruct (y_mutex s); [discriminate|]. intros E; inversion E; subst s'; clear E.
    split; [intros u Hu; cbn; now rewrite upd_ne|split; [intros _; cbn; now rewrite upd_eq|discriminate]].
  - destruct (is_last c t (y_round (y_thr s t)) && (y_last s <? y_synced s))%bool; intros E; inversion E; subst s'; clear E;
      (split; [intros u Hu; cbn; now rewrite upd_ne|split; [intros _; cbn; now rewrite upd_eq|discriminate]]).
  - destruct (y_mutex s); [discriminate|]. intros E; inversion E; subst s'; clear E.
    split; [intros u Hu; cbn; now rewrite upd_ne|split; [intros _; cbn; now rewrite upd_eq|discriminate]].
  - intros E; injection E as <-.
    match goal with |- context [y_goto ?x t YCopy] => set (z := x) end.
    assert (forall u, y_round (y_thr z u) = y_round (y_thr s u) /\ (y_pc (y_thr s u) = YOut -> y_pc (y_thr z u) = YOut)) as Hz.
    { intros u. unfold z. clear z.
      match goal with |- context [if ?b then y_wake ?x YSleepL YWakeL else _] => set (b1 := b); set (z1 := x) end.
      destruct b1.
      - destruct (y_synced (y_wake z1 YSleepL YWakeL) =? 0).
        + destruct (Hw (YSt (y_mutex (y_wake z1 YSleepL YWakeL)) (y_synced (y_wake z1 YSleepL YWakeL)) (y_last (y_wake z1 YSleepL YWakeL)) false
              (y_data (y_wake z1 YSleepL YWakeL)) (y_thr (y_wake z1 YSleepL YWakeL))) YSleepF YWakeF u) as [A B].
          destruct (Hw z1 YSleepL YWakeL u) as [A' B']. cbn [y_thr z1] in *. split; [rewrite A; exact A'|auto].
        + apply (Hw z1 YSleepL YWakeL u).
      - destruct (y_synced z1 =? 0); [|split; auto].
        apply (Hw (YSt (y_mutex z1) (y_synced z1) (y_last z1) false (y_data z1) (y_thr z1)) YSleepF YWakeF u). }
    split; [intros u Hu; rewrite (Hg z YCopy u Hu); apply Hz|split; [intros _; rewrite Ht; apply Hz|discriminate]].
  - intros E; inversion E; subst s'; clear E.
    split; [intros u Hu; cbn; now rewrite upd_ne|split; [intros _; cbn; now rewrite upd_eq|discriminate]].
  - intros E; inversion E; subst s'; clear E.
    split; [intros u Hu; cbn; now rewrite upd_ne|split; [congruence|intros _; cbn; now rewrite upd_eq]].
Qed.

Lemma fits_step s t s' : fits s -> t < T -> gstep T (T + M) detect node s t = Some (Ok s') -> fits s'.
Proof.
  intros I Ht. unfold gstep. destruct (Nat.ltb_spec t (T + M)) as [_|]; [|lia].
  pose proof (ft_pc _ I t) as Hp. destruct (g_pc s t) eqn:Eg; [| |discriminate].
  - destruct Hp as [P1 P2].
    assert (n_ready (g_numa s) = false) as ->.
    { apply (reg_first c detect node (g_cfg_wf T H0) eq_refl _ t (ft_n _ I) Ht). intros [A|[_ A]]; cbn in A; [lia|].
      rewrite P1 in A. discriminate. }
    intros E; inversion E; subst s'; clear E. destruct I as [I1 I2 I3]. constructor; cbn; auto.
    intros u. specialize (I2 u). unfold upd. destruct (Nat.eqb_spec u t) as [->|]; auto.
  - destruct (ystep_thr c (g_sync s) t) as [[y'|]|] eqn:Ey; try discriminate.
    destruct (ystep_effect _ _ _ Ey) as (F1 & F2 & F3).
    assert (ystep c (g_sync s) (YStep t) = Some (Ok y')) as Es.
    { cbn [ystep g_cfg y_n]. apply Nat.ltb_lt in Ht. now rewrite Ht. }
    assert (forall n' reg', nstep c detect node (NSys (g_sync s) (g_numa s) (g_reg s)) (YStep t) = Some (Ok (NSys y' n' reg')) ->
      forall pc', (forall u, u <> t -> pc' u = g_pc s u) -> (forall u, u <> t -> reg' u = g_reg s u) ->
      match pc' t with
      | GNew => False
      | GSync => y_round (y_thr y' t) = 0
      | GRet r => y_round (y_thr y' t) = 1 /\ y_pc (y_thr y' t) = YOut /\ reg' t = Some r
      end -> (arrived y' t 0 -> reg' t <> None) -> fits (GSt y' n' reg' pc')) as Hmk.
    { intros n' reg' Hn pc' Hpc Hrg Hpt Hat. constructor; cbn [g_sync g_numa g_reg g_pc].
      - destruct (ft_n _ I) as [l El]. exists (l ++ [YStep t]). eapply nrun_snoc; eauto.
      - intros u. destruct (Nat.eq_dec u t) as [->|Hu].
        + destruct (pc' t); auto. destruct Hpt.
        + rewrite (Hpc u Hu). pose proof (ft_pc _ I u) as X. destruct (F1 u Hu) as [A B].
          destruct (g_pc s u); rewrite A; auto; [tauto|]. rewrite (Hrg u Hu). tauto.
      - intros u Hu Ha. destruct (Nat.eq_dec u t) as [->|Hne]; [auto|]. rewrite (Hrg u Hne). apply (ft_reg _ I u Hu).
        apply (arrived_step c node (g_sync s) (YStep t) y' u 0 Es) in Ha. destruct Ha as [Ha|[Ha _]]; auto. congruence. }
    assert (y_pc (y_thr (g_sync s) t) <> YIn -> arrived y' t 0 -> g_reg s t <> None) as Har.
    { intros Hn Ha. apply (ft_reg _ I t Ht). apply (arrived_step c node (g_sync s) (YStep t) y' t 0 Es) in Ha.
      destruct Ha as [Ha|(_ & Ha & _)]; auto. congruence. }
    destruct (y_pc (y_thr (g_sync s) t)) eqn:Ep; try (intros E; inversion E; subst s'; clear E; apply Hmk; auto;
      [unfold nstep; cbn [ns_sync]; rewrite Es, Ep; reflexivity|rewrite Eg; rewrite F2; [exact Hp|discriminate]|apply Har; discriminate]).
    + (* YIn *)
      rewrite gregister_same by auto.
      destruct (nregister T detect (g_numa s) (y_synced (g_sync s)) (node t)) as [n' r] eqn:En.
      intros E; inversion E; subst s'; clear E. apply Hmk; auto.
      * unfold nstep. cbn [ns_sync ns_numa ns_reg]. rewrite Es, Ep, Hp. cbn [y_n g_cfg]. rewrite En. reflexivity.
      * intros u Hu. now rewrite upd_ne.
      * rewrite Eg, F2; [exact Hp|discriminate].
      * rewrite upd_eq. discriminate.
    + (* YEnd *)
      destruct (F3 eq_refl) as [F4 F5].
      destruct (g_reg s t) as [r|] eqn:Er; [|discriminate]. intros E; inversion E; subst s'; clear E. apply Hmk; auto.
      * unfold nstep. cbn [ns_sync]. rewrite Es, Ep. reflexivity.
      * intros u Hu. now rewrite upd_ne.
      * rewrite upd_eq. rewrite F4, Hp. auto.
      * intros _. rewrite Er. discriminate.
Qed.

Lemma fits_run l : forall s s', fits s -> Forall (fun t => t < T) l -> grun T (T + M) detect node s l = Some (Ok s') -> fits s'.
Proof.
  induction l as [|t l IH]; cbn; intros s s' I Hl E; [inversion E; subst; auto|]. inversion Hl; subst.
  destruct (gstep T (T + M) detect node s t) as [[s1|]|] eqn:E1; try discriminate. eapply IH; [|eauto|exact E]. eapply fits_step; eauto.
Qed.

(** Never undefined, and some thread can go on until all have returned. *)
Lemma fits_progress s : fits s -> (exists t, t < T /\ forall r, g_pc s t <> GRet r) ->
  exists t s', t < T /\ gstep T (T + M) detect node s t = Some (Ok s').
Proof.
  intros I (t0 & Ht0 & Hn).
  assert (ystate c (g_sync s)) as Hy.
  { destruct (ft_n _ I) as [l El]. exists l. exact (nrun_sync c detect node l _ _ El). }
  destruct (sync_progress c (g_cfg_wf T H0) eq_refl _ Hy) as (a & y' & Ha).
  - exists t0. split; auto. intros [F1 F2]. pose proof (ft_pc _ I t0) as X. cbn in F1.
    destruct (g_pc s t0) as [| |r]; [destruct X; lia|lia|]. exact (Hn r eq_refl).
  - destruct a as [t|t]; cbn [ystep g_cfg y_n] in Ha; (destruct (Nat.ltb_spec t T) as [Ht|]; [|discriminate Ha]);
      [|unfold ystep_spur in Ha; discriminate Ha].
    exists t. unfold gstep. destruct (Nat.ltb_spec t (T + M)) as [_|]; [|lia].
    pose proof (ft_pc _ I t) as X. destruct (g_pc s t) eqn:Eg.
    + destruct X as [X1 X2].
      assert (n_ready (g_numa s) = false) as ->; [|eauto].
      apply (reg_first c detect node (g_cfg_wf T H0) eq_refl _ t (ft_n _ I) Ht). intros [A|[_ A]]; cbn in A; [lia|].
      rewrite X1 in A. discriminate.
    + rewrite Ha. destruct (y_pc (y_thr (g_sync s) t)) eqn:Ep; eauto.
      * destruct (gregister T detect (g_numa s) (y_synced (g_sync s)) (node t)) as [n' r]. eauto.
      * destruct (g_reg s t) eqn:Er; [eauto|]. exfalso. apply (ft_reg _ I t Ht); auto.
        right. rewrite Ep, X. auto.
    + exfalso. destruct X as (X1 & X2 & _). unfold ystep_thr in Ha. rewrite X2, X1 in Ha. discriminate Ha.
Qed.

(** Every step of such an execution is the one look at [m_initialized] of a thread or a step of the barrier. *)
Definition started (s : gst) (t : nat) : bool := match g_pc s t with GNew => false | _ => true end.

Definition counted (s : gst) (k : nat) : Prop :=
  exists l, nrun c detect node (nsys_init c) l = Some (Ok (NSys (g_sync s) (g_numa s) (g_reg s))) /\
    k = length l + cnt (started s) T.

Lemma counted_step s t s' k : fits s -> t < T -> gstep T (T + M) detect node s t = Some (Ok s') -> counted s k -> counted s' (S k).
Proof.
  intros I Ht. unfold gstep. destruct (Nat.ltb_spec t (T + M)) as [_|]; [|lia].
  pose proof (ft_pc _ I t) as Hp. destruct (g_pc s t) eqn:Eg; [| |discriminate].
  - destruct Hp as [P1 P2].
    assert (n_ready (g_numa s) = false) as ->.
    { apply (reg_first c detect node (g_cfg_wf T H0) eq_refl _ t (ft_n _ I) Ht). intros [A|[_ A]]; cbn in A; [lia|].
      rewrite P1 in A. discriminate. }
    intros E (l & El & Ek); inversion E; subst s'; clear E. exists l. split; [exact El|].
    rewrite (cnt_add T (started s) (started (GSt (g_sync s) (g_numa s) (g_reg s) (upd (g_pc s) t GSync))) t); auto.
    + lia.
    + unfold started. now rewrite Eg.
    + unfold started. cbn. now rewrite upd_eq.
    + intros u _ Hu. unfold started. cbn. now rewrite upd_ne.
  - destruct (ystep_thr c (g_sync s) t) as [[y'|]|] eqn:Ey; try discriminate.
    assert (ystep c (g_sync s) (YStep t) = Some (Ok y')) as Es.
    { cbn [ystep g_cfg y_n]. apply Nat.ltb_lt in Ht. now rewrite Ht. }
    assert (forall s', nstep c detect node (NSys (g_sync s) (g_numa s) (g_reg s)) (YStep t) =
              Some (Ok (NSys (g_sync s') (g_numa s') (g_reg s'))) -> (forall u, started s' u = started s u) -> counted s k -> counted s' (S k)) as Hmk.
    { intros x Hn Hs (l & El & Ek). exists (l ++ [YStep t]). split; [eapply nrun_snoc; eauto|].
      rewrite app_length, (cnt_ext T (started x) (started s)) by (intros; apply Hs). cbn. lia. }
    destruct (y_pc (y_thr (g_sync s) t)) eqn:Ep; try (intros E; inversion E; subst s'; clear E; apply Hmk; auto;
      unfold nstep; cbn [ns_sync]; rewrite Es, Ep; reflexivity).
    + rewrite gregister_same by auto.
      destruct (nregister T detect (g_numa s) (y_synced (g_sync s)) (node t)) as [n' r] eqn:En.
      intros E; inversion E; subst s'; clear E. apply Hmk; auto.
      unfold nstep. cbn [ns_sync ns_numa ns_reg]. rewrite Es, Ep, Hp. cbn [y_n g_cfg]. rewrite En. reflexivity.
    + destruct (g_reg s t) as [r|]; [|discriminate]. intros E; inversion E; subst s'; clear E. apply Hmk.
      * unfold nstep. cbn [ns_sync]. rewrite Es, Ep. reflexivity.
      * intros u. unfold started. cbn. unfold upd. destruct (Nat.eqb_spec u t) as [->|]; auto. now rewrite Eg.
Qed.

Lemma counted_run l : forall s s' k, fits s -> Forall (fun t => t < T) l -> grun T (T + M) detect node s l = Some (Ok s') ->
  counted s k -> counted s' (length l + k).
Proof.
  induction l as [|t l IH]; cbn; intros s s' k I Hl E C; [inversion E; subst; auto|]. inversion Hl; subst.
  destruct (gstep T (T + M) detect node s t) as [[s1|]|] eqn:E1; try discriminate.
  rewrite plus_n_Sm. eapply IH; [|eauto|exact E|]; [eapply fits_step; eauto|eapply counted_step; eauto].
Qed.

Lemma counted_init : counted (ginit T) 0.
Proof.
  exists []. split; [reflexivity|]. cbn. generalize T at 2. intros n. induction n; cbn; auto.
Qed.

Lemma fits_bounded l s : Forall (fun t => t < T) l -> grun T (T + M) detect node (ginit T) l = Some (Ok s) -> length l <= 13 * T.
Proof.
  intros Hl E. destruct (counted_run l _ _ 0 fits_init Hl E counted_init) as (ly & El & Ek).
  pose proof (sync_terminates c (g_cfg_wf T H0) eq_refl _ _ (nrun_sync c detect node ly _ _ El)) as B. cbn [y_rounds g_cfg y_n] in B.
  pose proof (cnt_le T (started s)). lia.
Qed.

Lemma grun_snoc l : forall s t s1 s', grun T (T + M) detect node s l = Some (Ok s1) -> gstep T (T + M) detect node s1 t = Some (Ok s') ->
  grun T (T + M) detect node s (l ++ [t]) = Some (Ok s').
Proof.
  induction l as [|b l IH]; cbn; intros s t s1 s' E1 E2.
  - inversion E1; subst. now rewrite E2.
  - destruct (gstep T (T + M) detect node s b) as [[s2|]|]; try discriminate. eauto.
Qed.

Definition is_ret (p : gpc) : bool := match p with GRet _ => true | _ => false end.

Lemma not_all_ret (f : nat -> bool) n : (forall t, t < n -> f t = true) \/ (exists t, t < n /\ f t = false).
Proof.
  induction n as [|n IH]; [left; intros; lia|]. destruct IH as [IH|(t & A & B)]; [|right; exists t; split; auto; lia].
  destruct (f n) eqn:E; [left|right; exists n; auto]. intros t Ht. destruct (Nat.eq_dec t n) as [->|]; auto. apply IH. lia.
Qed.

Lemma fits_end : exists l s, Forall (fun t => t < T) l /\ grun T (T + M) detect node (ginit T) l = Some (Ok s) /\
  forall t, t < T -> exists r, g_pc s t = GRet r.
Proof.
  assert (forall n l s, 13 * T - length l <= n -> Forall (fun t => t < T) l -> grun T (T + M) detect node (ginit T) l = Some (Ok s) ->
    exists l s, Forall (fun t => t < T) l /\ grun T (T + M) detect node (ginit T) l = Some (Ok s) /\
      forall t, t < T -> exists r, g_pc s t = GRet r) as G.
  { induction n as [|n IH]; intros l s Hn Hl E;
      (destruct (not_all_ret (fun t => is_ret (g_pc s t)) T) as [A|(t & Ht & A)];
       [exists l, s; split; [auto|split; auto]; intros t Ht; specialize (A t Ht); cbv beta in A; destruct (g_pc s t) as [| |r]; try discriminate; eauto|]);
      (destruct (fits_progress s (fits_run l _ _ fits_init Hl E)) as (u & s1 & Hu & E1);
        [exists t; split; auto; intros r Hr; rewrite Hr in A; discriminate|]);
      assert (Forall (fun t => t < T) (l ++ [u])) as Hl1 by (apply Forall_app; auto);
      pose proof (grun_snoc l _ _ _ _ E E1) as E2; pose proof (fits_bounded _ _ Hl1 E2) as B; rewrite app_length in B; cbn in B.
    - exfalso. lia.
    - apply (IH (l ++ [u]) s1); auto. rewrite app_length. cbn. lia. }
  apply (G (13 * T) [] (ginit T)); auto. cbn. lia.
Qed.

Lemma fits_all_registered s : fits s -> (forall t, t < T -> exists r, g_pc s t = GRet r) ->
  all_registered c (NSys (g_sync s) (g_numa s) (g_reg s)).
Proof.
  intros I H t Ht. cbn in Ht. destruct (H t Ht) as [r Hr]. pose proof (ft_pc _ I t) as X. rewrite Hr in X. unfold returned. cbn. lia.
Qed.

(** A thread which comes when all [T] have registered gets the ids of the first. *)
Lemma surplus_step s t : fits s -> (forall t, t < T -> exists r, g_pc s t = GRet r) -> T <= t < T + M -> g_pc s t = GNew ->
  gstep T (T + M) detect node s t = Some (Ok (GSt (g_sync s) (g_numa s) (g_reg s) (upd (g_pc s) t (GRet (NReg 0 0 true))))).
Proof.
  intros I H Ht Hn. pose proof (fits_all_registered s I H) as A.
  unfold gstep. destruct (Nat.ltb_spec t (T + M)) as [_|]; [|lia]. rewrite Hn.
  pose proof (reg_later c detect node (g_cfg_wf T H0) eq_refl _ 0 (ft_n _ I) H0 (A 0 H0)) as R. cbn [ns_numa] in R. rewrite R.
  destruct (reg_ids c detect node (g_cfg_wf T H0) eq_refl _ (ft_n _ I) A) as (_ & Q & _).
  destruct (Q 0 H0) as (u & r & Hu & Hr & H00).
  destruct (reg_masters c detect node (g_cfg_wf T H0) eq_refl _ (ft_n _ I) A) as (_ & _ & P1 & P2).
  destruct (P1 u r Hu Hr H00) as [B1 B2]. pose proof (P2 u r Hu Hr) as B3. rewrite H00, B1 in B3. cbn [ns_numa] in B3.
  rewrite B3. reflexivity.
Qed.

(** A thread with an id of [T] or above has not acted. *)
Lemma untouched l : forall s s' t, Forall (fun t => t < T) l -> T <= t -> grun T (T + M) detect node s l = Some (Ok s') -> g_pc s' t = g_pc s t.
Proof.
  induction l as [|u l IH]; cbn; intros s s' t Hl Ht E; [inversion E; subst; auto|]. inversion Hl; subst.
  destruct (gstep T (T + M) detect node s u) as [[s1|]|] eqn:E1; try discriminate. rewrite (IH s1 s' t) by auto.
  assert (t <> u) as Hne by lia. unfold gstep in E1. destruct (u <? T + M); [|discriminate].
  destruct (g_pc s u); [| |discriminate].
  - destruct (n_ready (g_numa s)); [destruct (nagain (g_numa s) 0); [|discriminate]|]; inversion E1; subst s1; cbn; now rewrite upd_ne.
  - destruct (ystep_thr c (g_sync s) u) as [[y'|]|]; try discriminate.
    destruct (y_pc (y_thr (g_sync s) u)); try (inversion E1; subst s1; reflexivity).
    + destruct (gregister T detect (g_numa s) (y_synced (g_sync s)) (node u)). inversion E1; subst s1; reflexivity.
    + destruct (g_reg s u); [|discriminate]. inversion E1; subst s1; cbn; now rewrite upd_ne.
Qed.

Lemma surplus_same_ids : 0 < M -> exists l s u r, grun T (T + M) detect node (ginit T) l = Some (Ok s) /\
  u < T /\ g_pc s u = GRet r /\ r_tid r = 0 /\ r_dom r = 0 /\ r_master r = true /\ g_pc s T = GRet r.
Proof.
  intros HM. destruct fits_end as (l & s & Hl & E & H). pose proof (fits_run l _ _ fits_init Hl E) as I.
  pose proof (fits_all_registered s I H) as A.
  assert (g_pc s T = GNew) as Hn by (rewrite (untouched l _ _ T Hl (le_n _) E); reflexivity).
  pose proof (surplus_step s T I H ltac:(lia) Hn) as E1.
  destruct (reg_ids c detect node (g_cfg_wf T H0) eq_refl _ (ft_n _ I) A) as (_ & Q & _).
  destruct (Q 0 H0) as (u & r & Hu & Hr & H00). cbn in Hu.
  destruct (reg_masters c detect node (g_cfg_wf T H0) eq_refl _ (ft_n _ I) A) as (_ & _ & P1 & P2).
  destruct (P1 u r Hu Hr H00) as [B1 B2].
  exists (l ++ [T]). eexists. exists u, r. split; [eapply grun_snoc; eauto|]. cbn [g_pc].
  split; [auto|]. rewrite upd_eq, upd_ne by lia.
  destruct (H u Hu) as [r' Hr']. pose proof (ft_pc _ I u) as X. rewrite Hr' in X. destruct X as (_ & _ & X).
  cbn [ns_reg] in Hr. rewrite Hr in X. inversion X; subst r'. repeat split; auto.
  destruct r; cbn in *; subst; reflexivity.
Qed.
(** A surplus thread which has looked at [m_initialized] too early waits for ever. *)
Definition early : gst := GSt (yinit c) ninit (fun _ => None) (upd (fun _ => GNew) T GSync).

Lemma fits_early : fits early.
Proof.
  destruct fits_init as [A B C]. constructor; auto. intros t. cbn. unfold upd. destruct (t =? T); auto.
Qed.

Lemma counted_early : counted early 0.
Proof.
  exists []. split; [reflexivity|]. cbn. rewrite (cnt_ext T (started early) (started (ginit T))).
  - destruct counted_init as (l & E & Ek). cbn in *. lia.
  - intros t Ht. unfold started, early. cbn. rewrite upd_ne by lia. reflexivity.
Qed.

Lemma fits_end_from s0 : fits s0 -> counted s0 0 ->
  exists l s, Forall (fun t => t < T) l /\ grun T (T + M) detect node s0 l = Some (Ok s) /\
    forall t, t < T -> exists r, g_pc s t = GRet r.
Proof.
  intros I0 C0.
  assert (forall l s, Forall (fun t => t < T) l -> grun T (T + M) detect node s0 l = Some (Ok s) -> length l <= 13 * T) as Bd.
  { intros l s Hl E. destruct (counted_run l _ _ 0 I0 Hl E C0) as (ly & El & Ek).
    pose proof (sync_terminates c (g_cfg_wf T H0) eq_refl _ _ (nrun_sync c detect node ly _ _ El)) as B. cbn [y_rounds g_cfg y_n] in B.
    pose proof (cnt_le T (started s)). lia. }
  assert (forall n l s, 13 * T - length l <= n -> Forall (fun t => t < T) l -> grun T (T + M) detect node s0 l = Some (Ok s) ->
    exists l s, Forall (fun t => t < T) l /\ grun T (T + M) detect node s0 l = Some (Ok s) /\
      forall t, t < T -> exists r, g_pc s t = GRet r) as G.
  { induction n as [|n IH]; intros l s Hn Hl E;
      (destruct (not_all_ret (fun t => is_ret (g_pc s t)) T) as [A|(t & Ht & A)];
       [exists l, s; split; [auto|split; auto]; intros t Ht; specialize (A t Ht); cbv beta in A; destruct (g_pc s t) as [| |r]; try discriminate; eauto|]);
      (destruct (fits_progress s (fits_run l _ _ I0 Hl E)) as (u & s1 & Hu & E1);
        [exists t; split; auto; intros r Hr; rewrite Hr in A; discriminate|]);
      assert (Forall (fun t => t < T) (l ++ [u])) as Hl1 by (apply Forall_app; auto);
      pose proof (grun_snoc l _ _ _ _ E E1) as E2; pose proof (Bd _ _ Hl1 E2) as B; rewrite app_length in B; cbn in B.
    - exfalso. lia.
    - apply (IH (l ++ [u]) s1); auto. rewrite app_length. cbn. lia. }
  apply (G (13 * T) [] s0); auto. cbn. lia.
Qed.

Lemma out_stays l : forall s s' t, Forall (fun t => t < T) l -> T <= t -> y_pc (y_thr (g_sync s) t) = YOut ->
  grun T (T + M) detect node s l = Some (Ok s') -> y_pc (y_thr (g_sync s') t) = YOut.
Proof.
  induction l as [|u l IH]; cbn; intros s s' t Hl Ht Ho E; [inversion E; subst; auto|]. inversion Hl; subst.
  destruct (gstep T (T + M) detect node s u) as [[s1|]|] eqn:E1; try discriminate. apply (IH s1 s' t); auto.
  assert (t <> u) as Hne by lia. unfold gstep in E1. destruct (u <? T + M); [|discriminate].
  destruct (g_pc s u); [| |discriminate].
  - destruct (n_ready (g_numa s)); [destruct (nagain (g_numa s) 0); [|discriminate]|]; inversion E1; subst s1; exact Ho.
  - destruct (ystep_thr c (g_sync s) u) as [[y'|]|] eqn:Ey; try discriminate.
    destruct (ystep_effect _ _ _ Ey) as (F & _ & _). specialize (F t Hne).
    destruct (y_pc (y_thr (g_sync s) u)); try (inversion E1; subst s1; apply F; exact Ho).
    + destruct (gregister T detect (g_numa s) (y_synced (g_sync s)) (node u)). inversion E1; subst s1; apply F; exact Ho.
    + destruct (g_reg s u); [|discriminate]. inversion E1; subst s1; apply F; exact Ho.
Qed.

Lemma all_returned_idle s : fits s -> (forall t, t < T -> exists r, g_pc s t = GRet r) ->
  y_mutex (g_sync s) = None /\ y_fin (g_sync s) = false /\ y_synced (g_sync s) = 0.
Proof.
  intros I H.
  assert (forall t, t < T -> y_pc (y_thr (g_sync s) t) = YOut) as Ho.
  { intros t Ht. destruct (H t Ht) as [r Hr]. pose proof (ft_pc _ I t) as X. rewrite Hr in X. tauto. }
  assert (ystate c (g_sync s)) as Hy.
  { destruct (ft_n _ I) as [l El]. exists l. exact (nrun_sync c detect node l _ _ El). }
  destruct (ystate_inv c (g_cfg_wf T H0) eq_refl _ Hy) as [K J].
  assert (y_synced (g_sync s) = 0) as E0.
  { rewrite (yi_synced _ _ _ J). cbn [y_n g_cfg].
    assert (forall n, n <= T -> cnt (fun t => in_s (y_pc (y_thr (g_sync s) t))) n = 0) as G.
    { induction n; cbn; auto. intros Hn. rewrite IHn, Ho by lia. reflexivity. }
    auto. }
  split; [|split; auto].
  - destruct (y_mutex (g_sync s)) as [t|] eqn:E; auto. exfalso. pose proof (yi_own _ _ _ J t E) as Ht. cbn in Ht.
    pose proof (proj2 (to_mutex _ _ _ _ _ (yi_thr _ _ _ J t Ht)) E) as X. rewrite Ho in X by auto. discriminate.
  - pose proof (yi_fin _ _ _ J) as X. destruct (y_fin (g_sync s)); auto. lia.
Qed.

Lemma step_in s t : t < T + M -> g_pc s t = GSync -> y_pc (y_thr (g_sync s) t) = YOut -> y_round (y_thr (g_sync s) t) = 0 ->
  y_mutex (g_sync s) = None -> y_fin (g_sync s) = false ->
  gstep T (T + M) detect node s t = Some (Ok (GSt (y_goto (y_lock (g_sync s) (Some t)) t YIn) (g_numa s) (g_reg s) (g_pc s))).
Proof.
  intros Ht Hs Ho Hr E1 E2. unfold gstep. apply Nat.ltb_lt in Ht. rewrite Ht, Hs. unfold ystep_thr. rewrite Ho, Hr, E1. cbn. rewrite E2. reflexivity.
Qed.

Lemma step_sleep s t : t < T + M -> g_pc s t = GSync -> y_pc (y_thr (g_sync s) t) = YIn -> S (y_synced (g_sync s)) <> T ->
  exists s', gstep T (T + M) detect node s t = Some (Ok s') /\ g_pc s' = g_pc s /\ y_pc (y_thr (g_sync s') t) = YSleepC.
Proof.
  intros Ht Hs Hi Hn. unfold gstep. apply Nat.ltb_lt in Ht. rewrite Ht, Hs. unfold ystep_thr. rewrite Hi. cbv zeta. cbn [y_n g_cfg].
  destruct (Nat.eqb_spec (S (y_synced (g_sync s))) T) as [|_]; [contradiction|].
  destruct (gregister T detect (g_numa s) (y_synced (g_sync s)) (node t)) as [n' r]. eexists. split; [reflexivity|]. split; [reflexivity|].
  cbn. now rewrite upd_eq.
Qed.

Lemma surplus_waits : 1 < T -> M = 1 -> exists l s, grun T (T + M) detect node (ginit T) l = Some (Ok s) /\
  (forall t, t < T -> exists r, g_pc s t = GRet r) /\
  y_pc (y_thr (g_sync s) T) = YSleepC /\ (forall t, gstep T (T + M) detect node s t = None).
Proof.
  intros H1 HM. destruct (fits_end_from early fits_early counted_early) as (l & s & Hl & E & H).
  pose proof (fits_run l _ _ fits_early Hl E) as I.
  destruct (all_returned_idle s I H) as (E1 & E2 & E3).
  pose proof (out_stays l early s T Hl (le_n _) eq_refl E) as Ho.
  assert (g_pc s T = GSync) as Hs by (rewrite (untouched l early s T Hl (le_n _) E); cbn; now rewrite upd_eq).
  pose proof (ft_pc _ I T) as Hr. rewrite Hs in Hr.
  assert (gstep T (T + M) detect node (ginit T) T = Some (Ok early)) as S0.
  { unfold gstep. destruct (Nat.ltb_spec T (T + M)); [reflexivity|lia]. }
  pose proof (step_in s T ltac:(lia) Hs Ho Hr E1 E2) as S1.
  match type of S1 with _ = Some (Ok ?x) => destruct (step_sleep x T) as (s2 & S2 & P2 & Y2) end;
    [lia|exact Hs|cbn; now rewrite upd_eq|cbn; rewrite E3; lia|]. cbn [g_pc] in P2.
  exists (T :: l ++ [T; T]), s2. split.
  - cbn [grun]. rewrite S0. replace (l ++ [T; T]) with ((l ++ [T]) ++ [T]) by (now rewrite <- app_assoc).
    eapply grun_snoc; [eapply grun_snoc; [exact E|exact S1]|exact S2].
  - rewrite P2. split; [exact H|]. split; [exact Y2|].
    intros t. unfold gstep. rewrite P2. destruct (Nat.ltb_spec t (T + M)) as [Ht|]; auto.
    destruct (Nat.eq_dec t T) as [->|Hne].
    + rewrite Hs. unfold ystep_thr. rewrite Y2. reflexivity.
    + destruct (H t ltac:(lia)) as [r Hrt]. rewrite Hrt. reflexivity.
Qed.

Lemma yrun_snoc l : forall (s : yst unit) a s1 r, yrun c s l = Some (Ok s1) -> ystep c s1 a = Some r -> yrun c s (l ++ [a]) = Some r.
Proof.
  induction l as [|b l IH]; cbn; intros s a s1 r E1 E2.
  - inversion E1; subst. rewrite E2. destruct r; reflexivity.
  - destruct (ystep c s b) as [[s2|]|]; try discriminate. eauto.
Qed.

Lemma fits_defined s t : fits s -> t < T -> gstep T (T + M) detect node s t <> Some Ub.
Proof.
  intros I Ht. unfold gstep. destruct (t <? T + M); [|discriminate].
  pose proof (ft_pc _ I t) as Hp. destruct (g_pc s t) eqn:Eg; [| |discriminate].
  - destruct Hp as [P1 P2].
    assert (n_ready (g_numa s) = false) as ->; [|discriminate].
    apply (reg_first c detect node (g_cfg_wf T H0) eq_refl _ t (ft_n _ I) Ht). intros [A|[_ A]]; cbn in A; [lia|].
    rewrite P1 in A. discriminate.
  - destruct (ystep_thr c (g_sync s) t) as [[y'|]|] eqn:Ey; try discriminate.
    + destruct (y_pc (y_thr (g_sync s) t)) eqn:Ep; try discriminate.
      * destruct (gregister T detect (g_numa s) (y_synced (g_sync s)) (node t)). discriminate.
      * destruct (g_reg s t) eqn:Er; [discriminate|]. exfalso. apply (ft_reg _ I t Ht); auto. right. rewrite Ep, Hp. auto.
    + exfalso. destruct (ft_n _ I) as [l El]. pose proof (nrun_sync c detect node l _ _ El) as El'.
      apply (sync_defined c (g_cfg_wf T H0) eq_refl (l ++ [YStep t])). eapply yrun_snoc; [exact El'|].
      cbn [ystep g_cfg y_n]. apply Nat.ltb_lt in Ht. now rewrite Ht.
Qed.

Lemma fits_run_defined l : forall s, fits s -> Forall (fun t => t < T) l -> grun T (T + M) detect node s l <> Some Ub.
Proof.
  induction l as [|t l IH]; cbn; intros s I Hl; [discriminate|]. inversion Hl; subst.
  destruct (gstep T (T + M) detect node s t) as [[s1|]|] eqn:E1; try discriminate.
  - apply IH; auto. eapply fits_step; eauto.
  - intros _. eapply fits_defined; eauto.
Qed.
End Fits.

(** ** As many callers as promised: what [registerThread] promises *)
Section Equal.
Variables (T : nat) (detect : bool) (node : nat -> nat).
Hypothesis H0 : 0 < T.
Hypothesis HT : (Z.of_nat T < 2 ^ 32)%Z.

Lemma gstep_guard s t s' : gstep T (T + 0) detect node s t = Some s' -> t < T.
Proof. unfold gstep. destruct (Nat.ltb_spec t (T + 0)); [lia|discriminate]. Qed.

Lemma grun_guard l : forall s s', grun T (T + 0) detect node s l = Some (Ok s') -> Forall (fun t => t < T) l.
Proof.
  induction l as [|t l IH]; cbn; intros s s' E; auto.
  destruct (gstep T (T + 0) detect node s t) as [[s1|]|] eqn:E1; try discriminate. constructor; [eapply gstep_guard; eauto|eauto].
Qed.

Lemma equal_bounded l s : grun T T detect node (ginit T) l = Some (Ok s) -> length l <= 13 * T.
Proof. rewrite <- (Nat.add_0_r T) at 2. intros E. eapply (fits_bounded T 0); eauto. eapply grun_guard; eauto. Qed.

Lemma equal_defined l : grun T T detect node (ginit T) l <> Some Ub.
Proof.
  replace (grun T T) with (grun T (T + 0)) by (now rewrite Nat.add_0_r).
  assert (forall l s, fits T detect node s -> grun T (T + 0) detect node s l <> Some Ub) as G; [|apply G; now apply fits_init].
  clear l. induction l as [|t l IH]; cbn; intros s I; [discriminate|].
  destruct (gstep T (T + 0) detect node s t) as [[s1|]|] eqn:E1; try discriminate; pose proof (gstep_guard _ _ _ E1) as Ht.
  - apply IH. eapply fits_step; eauto.
  - intros _. eapply fits_defined; eauto.
Qed.

Lemma equal_goes_on l s : grun T T detect node (ginit T) l = Some (Ok s) -> (exists t, t < T /\ forall r, g_pc s t <> GRet r) ->
  exists t s', gstep T T detect node s t = Some (Ok s').
Proof.
  replace (grun T T) with (grun T (T + 0)) by (now rewrite Nat.add_0_r). replace (gstep T T) with (gstep T (T + 0)) by (now rewrite Nat.add_0_r).
  intros E X. assert (fits T detect node s) as I by (refine (fits_run T 0 detect node H0 HT l _ _ _ (grun_guard l _ _ E) E); now apply fits_init).
  destruct (fits_progress T 0 detect node H0 s I X) as (t & s' & _ & E'). eauto.
Qed.

Lemma equal_results l s : grun T T detect node (ginit T) l = Some (Ok s) -> (forall t, t < T -> exists r, g_pc s t = GRet r) ->
  (forall i, i < T -> exists t r, t < T /\ g_pc s t = GRet r /\ r_tid r = i) /\
  (forall t u r r', t < T -> u < T -> g_pc s t = GRet r -> g_pc s u = GRet r' -> t <> u -> r_tid r <> r_tid r') /\
  (forall t u r r', t < T -> u < T -> g_pc s t = GRet r -> g_pc s u = GRet r' ->
     (r_dom r = r_dom r' <-> (detect = false \/ node t = node u))) /\
  (forall t, t < T -> exists u r, u < T /\ g_pc s u = GRet r /\ r_master r = true /\ (detect = false \/ node u = node t)) /\
  (forall t u r r', t < T -> u < T -> g_pc s t = GRet r -> g_pc s u = GRet r' -> r_master r = true -> r_master r' = true ->
     (detect = false \/ node t = node u) -> t = u).
Proof.
  replace (grun T T) with (grun T (T + 0)) by (now rewrite Nat.add_0_r).
  intros E H. assert (fits T detect node s) as I by (refine (fits_run T 0 detect node H0 HT l _ _ _ (grun_guard l _ _ E) E); now apply fits_init).
  pose proof (fits_all_registered T detect node H0 s I H) as A.
  assert (forall t r, g_pc s t = GRet r -> g_reg s t = Some r) as F.
  { intros t r Hr. pose proof (ft_pc _ _ _ _ I t) as X. rewrite Hr in X. tauto. }
  assert (forall t r, t < T -> g_reg s t = Some r -> g_pc s t = GRet r) as F'.
  { intros t r Ht Hr. destruct (H t Ht) as [r' Hr']. rewrite (F _ _ Hr') in Hr. congruence. }
  assert (forall t u, eff detect node t = eff detect node u <-> (detect = false \/ node t = node u)) as Ef.
  { intros t u. unfold eff. destruct detect; split; auto; [intros [|]; auto; discriminate]. }
  destruct (reg_ids (g_cfg T) detect node (g_cfg_wf T H0) eq_refl _ (ft_n _ _ _ _ I) A) as (_ & A1 & A2).
  destruct (reg_domains (g_cfg T) detect node (g_cfg_wf T H0) eq_refl _ (ft_n _ _ _ _ I) A) as (_ & _ & A3).
  destruct (reg_masters (g_cfg T) detect node (g_cfg_wf T H0) eq_refl _ (ft_n _ _ _ _ I) A) as (A4 & A5 & _).
  cbn [y_n g_cfg ns_reg] in *. split; [|split; [|split; [|split]]].
  - intros i Hi. destruct (A1 i Hi) as (t & r & X & Y & Z0). exists t, r. auto.
  - intros t u r r' Ht Hu Hr Hr' Hne Heq. apply Hne. eapply A2; eauto.
  - intros t u r r' Ht Hu Hr Hr'. rewrite <- Ef. eapply A3; eauto.
  - intros t Ht. destruct (A4 t Ht) as (u & r & X1 & X2 & X3 & X4). exists u, r. rewrite <- Ef. auto.
  - intros t u r r' Ht Hu Hr Hr' M1 M2 X. apply Ef in X. eapply A5; eauto.
Qed.
End Equal.
