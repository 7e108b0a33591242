(** * Executions of a session, step by step: proofs *)
From Coq Require Import List Arith Bool ZArith Reals Lia String.
From Verif Require Import ConcModel ConcFacts FullConcModel FullConcFacts LevelsProofs LevelsFacts
  BlockedProofs Base BlockedModel LevelsModel ParamModel TypesModel CoordModel CoordFacts EndModel EndFacts EndRunModel.
Import ListNotations.
Local Open Scope nat_scope.

Lemma moment_observed {A} (s : session A) bl ixs h cells : moment s bl ixs h cells -> observed s bl ixs cells.
Proof.
  unfold moment, observed. destruct (class_ s) as [[st mp] nu].
  destruct st.
  - destruct mp, nu; try (intros (acts & s0 & l0 & x & _ & E0 & El & Hr & Hc); exists s0, x; split; [exact E0|];
      split; [exists l0, acts; split; [exact El|exact Hr]|exact Hc]).
    intros (l & m & _ & Em & H). exists m. split; auto. intros t. destruct (H t) as (c & vs & _ & E & Hc). eauto.
  - destruct mp, nu; try tauto; intros (acts & l0 & x & _ & El & Hr & Hc); exists x;
      (split; [exists l0, acts; split; [exact El|exact Hr]|exact Hc]).
  - intros (ops & m & vs & _ & H). exists ops, m, vs. exact H.
Qed.

(** ** Counting steps *)
Lemma sum_le f g N : (forall t, t < N -> f t <= g t) -> sum f N <= sum g N.
Proof. induction N; intros H; cbn; [lia|]. pose proof (H N ltac:(lia)). assert (sum f N <= sum g N) by (apply IHN; intros; apply H; lia). lia. Qed.

Lemma sum_plus f g N : sum (fun t => f t + g t) N = sum f N + sum g N.
Proof. induction N; cbn; lia. Qed.

Lemma sum_one u N : u < N -> sum (fun t => if u =? t then 1 else 0) N = 1.
Proof.
  induction N; cbn; intros H; [lia|]. destruct (Nat.eqb_spec u N) as [->|Ne].
  - assert (forall k, k <= N -> sum (fun t => if N =? t then 1 else 0) k = 0) as Hz.
    { induction k; cbn; intros; auto. destruct (Nat.eqb_spec N k); [lia|]. rewrite IHk; lia. }
    rewrite Hz; lia.
  - rewrite IHN; lia.
Qed.

Lemma sum_parts {X} (key : X -> nat) N l : Forall (fun x => key x < N) l ->
  List.length l = sum (fun t => List.length (filter (fun x => key x =? t) l)) N.
Proof.
  induction 1 as [|x l Hx Hl IH]; cbn [List.length filter].
  - symmetry. clear. induction N; cbn; lia.
  - rewrite IH at 1. pose proof (sum_one (key x) N Hx) as H1.
    replace (S (sum (fun t => List.length (filter (fun x => key x =? t) l)) N))
      with (sum (fun t => if key x =? t then 1 else 0) N + sum (fun t => List.length (filter (fun x => key x =? t) l)) N) by lia.
    rewrite <- sum_plus. apply sum_ext. intros t. destruct (key x =? t); reflexivity.
Qed.

(** ** One more step, and the number of steps *)
Section Moments.
Context {A : arith} (s : session A) (arr0 : nat -> nat) (bl : blocked) (ixs : nat -> list (list nat)).
Hypothesis Hok : session_ok s.
Hypothesis Hb : blocks s arr0 = Ok bl.
Hypothesis Hix : forall t, Forall (in_box (f_size (variable s))) (ixs t).
Hypothesis Hth : forall t, n_threads s <= t -> ixs t = [].

Lemma file_dims : f_size (variable s) <> [].
Proof. destruct Hok as (H & _). unfold variable. cbn. destruct (n_axes s); [congruence|discriminate]. Qed.

Lemma opened : exists user td arr0, blocked_open (f_size (variable s)) user td arr0 = Ok bl.
Proof. eexists _, _, _; exact Hb. Qed.

Lemma run_snoc_ {V} (c : cfg V) acts : forall s0 x a x', run c s0 acts = Some x -> step c x a = Some x' -> run c s0 (acts ++ [a]) = Some x'.
Proof.
  induction acts as [|a0 acts IH]; cbn; intros s0 x a x' H Hs.
  - injection H as ->. now rewrite Hs.
  - destruct (step c s0 a0); [|discriminate H]. eauto.
Qed.

Section Conc.
Variables (m : mode) (P D : nat) (rk dm : nat -> nat).
Hypothesis (Hr : forall t, rk t < P) (Hd : forall t, dm t < D) (Hm : m <> MThread).
Let c := readers m (variable s) bl (opaque s) (n_mode s) P D (cache_size s) (hand_spread s) rk dm (fun _ => []) ixs.

Lemma conc_setting : setting m (variable s) bl P D (cache_size s) (hand_spread s) rk dm (fun _ => []) ixs.
Proof.
  pose proof Hok as (_ & _ & Hn & Hsp & _). unfold setting.
  split; [exact file_dims|]. split; [exact opened|]. repeat (split; auto). cbn. apply Nat.le_0_l.
Qed.

Lemma conc_wf : wf_cfg c.
Proof. exact (proj1 (readers_wf m (variable s) bl (opaque s) (n_mode s) P D _ _ rk dm (fun _ => []) ixs conc_setting)). Qed.

Lemma conc_next l0 acts st t : clist_init (cache_size s) (hand_spread s) = Ok l0 -> run c (init c l0) acts = Some st ->
  List.length (map snd (t_done (s_thr st t))) < List.length (ixs t) ->
  exists a st', run c (init c l0) (acts ++ [a]) = Some st'.
Proof.
  intros El Hrun L. assert (reachable c st) as Hre by (exists l0, acts; auto).
  destruct (readers_values _ _ _ (opaque s) (n_mode s) _ _ _ _ _ _ _ _ st conc_setting Hre t) as (k & E & Lt).
  destruct (no_deadlock c conc_wf st t Hre) as (a & st' & Hs).
  - rewrite E, map_length, firstn_length in L. intros E0. rewrite E0 in Lt. cbn in Lt. lia.
  - exists a, st'. eapply run_snoc_; eauto.
Qed.

Lemma conc_bound l0 acts st : clist_init (cache_size s) (hand_spread s) = Ok l0 -> run c (init c l0) acts = Some st ->
  List.length acts <= sum (fun t => (b_tbs bl + 5 * D + 17) * List.length (ixs t)) (n_threads s).
Proof.
  intros El Hrun. pose proof (bounded c conc_wf (n_threads s) l0 acts st Hm) as H.
  etransitivity; [apply H; auto|].
  - intros t Ht. cbn. now rewrite Hth.
  - apply sum_le. intros t _. cbn. rewrite map_length. lia.
Qed.
End Conc.

Section Full.
Variables (m : mpi_kind) (p : numa_policy).
Hypothesis Hm : m = XNo -> p <> PNumaNo /\ ranks s = 1.
Let g := Geom bl (variable s) (opaque s).
Let d := Dist (n_mode s) (ranks s) (domains s) (b_total bl).

Lemma full_setting_ : full_setting m p (variable s) bl (ranks s) (domains s) (cache_size s) (hand_spread s) (rank_of s) (domain_of s) ixs.
Proof.
  pose proof Hok as (_ & _ & Hn & Hsp & _). unfold full_setting.
  split; [exact file_dims|]. split; [exact opened|].
  pose proof (rank_lt s Hok). pose proof (domain_lt s Hok). repeat (split; auto).
Qed.

Lemma full_next s0 l0 acts st t : fd_open g d (cache_size s) (hand_spread s) = Ok s0 ->
  let c := full_readers m p bl d (cache_size s) (hand_spread s) (rank_of s) (domain_of s) (fd_store s0) ixs in
  clist_init (cache_size s) (hand_spread s) = Ok l0 -> urun c (uinit c l0) acts = Some st ->
  List.length (map snd (q_done (u_thr st t))) < List.length (ixs t) ->
  exists a st', urun c (uinit c l0) (acts ++ [a]) = Some st'.
Proof.
  intros E0 c El Hrun L. assert (ureach c st) as Hre by (exists l0, acts; auto).
  destruct (FullConcFacts.full_values _ _ _ _ (opaque s) (n_mode s) _ _ _ _ _ _ _ full_setting_) as (s1 & E1 & Hwf & Hv).
  fold g d in E1. rewrite E0 in E1. inversion E1; subst s1.
  destruct (Hv st Hre t) as (k & E & Lt).
  destruct (u_no_deadlock c Hwf st t Hre) as (a & st' & Hs).
  - rewrite E, map_length, firstn_length in L. intros X. rewrite X in Lt. cbn in Lt. lia.
  - exists a, st'. eapply urun_snoc; eauto.
Qed.

Lemma full_bound s0 l0 acts st : fd_open g d (cache_size s) (hand_spread s) = Ok s0 ->
  let c := full_readers m p bl d (cache_size s) (hand_spread s) (rank_of s) (domain_of s) (fd_store s0) ixs in
  clist_init (cache_size s) (hand_spread s) = Ok l0 -> urun c (uinit c l0) acts = Some st ->
  List.length acts <= sum (fun t => (b_tbs bl + 5 * domains s + 17) * List.length (ixs t)) (n_threads s).
Proof.
  intros E0 c El Hrun.
  destruct (full_finishes _ _ _ _ (opaque s) (n_mode s) _ _ _ _ _ _ _ (n_threads s) full_setting_ Hth) as (s1 & l1 & E1 & E2 & H).
  fold g d in E1. rewrite E0 in E1. inversion E1; subst s1. rewrite El in E2. inversion E2; subst l1.
  destruct (H acts st Hrun) as [H1 _]. etransitivity; [exact H1|]. apply sum_le. intros. nia.
Qed.
End Full.

Lemma classes st mp nu : class_ s = (st, mp, nu) ->
  (st <> SPass -> mp = MPINo -> ranks s = 1) /\ (st = SFull -> nu = NumaNo -> domains s = 1).
Proof.
  intros Ec. destruct (class_alone s st mp nu Ec) as [HP HD]. split; intros; subst; auto.
  apply HD; auto; [discriminate|]. intros [X _]; discriminate X.
Qed.

Lemma prog_length t l : List.length (pass_prog t l) = 2 * List.length l.
Proof. induction l; cbn [pass_prog List.length]; lia. Qed.

Lemma pass_ok ops : (forall t, exists k, part_of t ops = firstn k (pass_prog t (ixs t))) ->
  Forall (fun o => pass_tid o < n_threads s /\
            match o with PLoad _ ix => in_box (f_size (variable s)) ix | PRead _ => True end) ops.
Proof.
  intros Hp. apply Forall_forall. intros o Ho.
  destruct (Hp (pass_tid o)) as [k Hk].
  assert (In o (pass_prog (pass_tid o) (ixs (pass_tid o)))) as Hin.
  { apply (in_firstn_ k). rewrite <- Hk. apply filter_In. split; auto. apply Nat.eqb_refl. }
  destruct (pass_prog_in _ _ _ Hin) as [_ H2]. split.
  + destruct (le_lt_dec (n_threads s) (pass_tid o)) as [L|L]; auto.
    rewrite (Hth _ L) in H2. destruct o; [destruct H2|congruence].
  + destruct o as [t' ix|]; auto. pose proof (Hix (pass_tid (PLoad t' ix))) as H.
    rewrite Forall_forall in H. apply H. exact H2.
Qed.

Lemma firstn_S_nth {X} k (l : list X) x : nth_error l k = Some x -> firstn (S k) l = firstn k l ++ [x].
Proof.
  revert l. induction k; intros [|y l] H; cbn in H; try discriminate.
  - inversion H. reflexivity.
  - cbn. f_equal. now apply IHk.
Qed.

Lemma moment_bound h cells : moment s bl ixs h cells ->
  steps h <= sum (fun t => (b_tbs bl + 5 * domains s + 17) * List.length (ixs t)) (n_threads s).
Proof.
  pose proof (rank_lt s Hok) as Hrk. pose proof (domain_lt s Hok) as Hdm.
  unfold moment. destruct (class_ s) as [[st mp] nu] eqn:Ec. destruct (classes st mp nu Ec) as [HP HD].
  destruct st.
  - assert (mp = MPINo -> ranks s = 1) as HP' by (apply HP; discriminate).
    destruct mp, nu; try (intros (acts & s0 & l0 & x & -> & E0 & El & Hr & Hc); cbn [steps];
      refine (full_bound _ _ _ s0 l0 acts x E0 El Hr); (intros _; split; [discriminate|now apply HP']) || discriminate).
    intros (l & m & -> & Em & H). cbn [steps].
    rewrite (sum_parts (fun u => u) (n_threads s)).
    + apply sum_le. intros t _. destruct (H t) as (c & vs & L & _). nia.
    + apply Forall_forall. intros u Hu. destruct (le_lt_dec (n_threads s) u) as [L|L]; auto. exfalso.
      destruct (H u) as (c & vs & L' & _). rewrite (Hth u L) in L'. cbn in L'.
      assert (In u (filter (fun v => v =? u) l)) as Hin by (apply filter_In; split; auto; apply Nat.eqb_refl).
      destruct (filter (fun v => v =? u) l); [destruct Hin|cbn in L'; lia].
  - destruct mp, nu; try tauto; intros (acts & l0 & x & -> & El & Hr & Hc); cbn [steps];
      (etransitivity; [refine (conc_bound _ _ _ _ _ _ _ _ l0 acts x El Hr); auto; discriminate|]);
      apply sum_le; intros t _; specialize (Hdm 0); nia.
  - intros (ops & m & vs & -> & Hr & Hp & Hc). cbn [steps].
    rewrite (sum_parts pass_tid (n_threads s)).
    + apply sum_le. intros t _. destruct (Hp t) as [k Hk]. unfold part_of in Hk. rewrite Hk, firstn_length, prog_length. nia.
    + eapply Forall_impl; [|exact (pass_ok ops Hp)]. cbv beta. tauto.
Qed.

Lemma moment_next h cells t : moment s bl ixs h cells -> List.length (cells t) < List.length (ixs t) ->
  exists h' cells', next h h' /\ moment s bl ixs h' cells'.
Proof.
  pose proof (rank_lt s Hok) as Hrk. pose proof (domain_lt s Hok) as Hdm.
  unfold moment. destruct (class_ s) as [[st mp] nu] eqn:Ec. destruct (classes st mp nu Ec) as [HP HD].
  destruct st.
  - assert (mp = MPINo -> ranks s = 1) as HP' by (apply HP; discriminate).
    assert (nu = NumaNo -> domains s = 1) as HD' by (apply HD; reflexivity).
    destruct mp, nu; try (intros (acts & s0 & l0 & x & -> & E0 & El & Hr & Hc) L; rewrite Hc in L;
      (edestruct full_next as (a & x' & Hr'); [|exact E0|exact El|exact Hr|exact L|
         exists (HU (acts ++ [a])), (fun t => map snd (q_done (u_thr x' t))); split; [cbn; eauto|];
         exists (acts ++ [a]), s0, l0, x'; repeat (split; auto)]);
      (intros _; split; [discriminate|now apply HP']) || discriminate).
    intros (l & m & -> & Em & H) L. rewrite (HP' eq_refl), (HD' eq_refl) in *.
    destruct opened as (user & td & arr & Hbo).
    destruct (LevelsFacts.full_values (variable s) user td arr bl (opaque s) (n_mode s) file_dims Hbo) as (m' & Em' & Hv).
    rewrite Em in Em'. inversion Em'; subst m'.
    set (k := fun t' => List.length (filter (fun u => u =? t') (l ++ [t]))).
    exists (HR (l ++ [t])), (fun t' => map Some (map (fun ix => Some (f_val (variable s) ix)) (firstn (k t') (ixs t')))).
    split; [cbn; eauto|]. exists (l ++ [t]), m. split; auto. split; auto. intros t'.
    destruct (Hv (firstn (k t') (ixs t'))) as (c & E).
    { apply Forall_forall. intros x Hx. apply in_firstn_ in Hx. pose proof (Hix t') as H0. rewrite Forall_forall in H0. auto. }
    exists c. eexists. cbv zeta. split; [|split; [exact E|reflexivity]].
    destruct (H t') as (c' & vs & Lk & Er & Ec'). cbv zeta in *. rewrite filter_app, app_length. cbn [filter].
    destruct (Nat.eqb_spec t t') as [<-|N]; cbn [List.length]; [|lia].
    rewrite Ec', map_length in L.
    destruct (Hv (firstn (List.length (filter (fun u => u =? t) l)) (ixs t))) as (c2 & E2).
    { apply Forall_forall. intros x Hx. apply in_firstn_ in Hx. pose proof (Hix t) as H0. rewrite Forall_forall in H0. auto. }
    rewrite E2 in Er. inversion Er; subst. rewrite map_length, firstn_length in L. lia.
  - destruct mp, nu; try tauto; intros (acts & l0 & x & -> & El & Hr & Hc) L; rewrite Hc in L;
      (edestruct conc_next as (a & x' & Hr'); [| |exact El|exact Hr|exact L|
         exists (HC (acts ++ [a])), (fun t => map snd (t_done (s_thr x' t))); split; [cbn; eauto|];
         exists (acts ++ [a]), l0, x'; repeat (split; auto)]); auto.
  - intros (ops & m & vs & -> & Hr & Hp & Hc) L.
    destruct (pass_run_spec (opaque s) (variable s) ops (pass_open (n_threads s)) (fun _ => None) file_dims) as (m1 & E1);
      [exact (pass_ok ops Hp)|reflexivity|].
    rewrite Hr in E1. inversion E1; subst m1 vs.
    destruct (Hp t) as [k Hk].
    assert (k < List.length (pass_prog t (ixs t))) as Lk.
    { destruct (le_lt_dec (List.length (pass_prog t (ixs t))) k) as [Lk|]; auto. exfalso.
      rewrite firstn_all2 in Hk by auto. rewrite Hc, !map_length, expected_count, Hk, reads_prog in L. lia. }
    destruct (nth_error (pass_prog t (ixs t)) k) as [o|] eqn:En; [|apply nth_error_None in En; lia].
    assert (pass_tid o = t) as Et by (apply nth_error_In in En; now apply (pass_prog_in t (ixs t))).
    assert (forall t', exists k', part_of t' (ops ++ [o]) = firstn k' (pass_prog t' (ixs t'))) as Hp'.
    { intros t'. unfold part_of. rewrite filter_app. cbn [filter]. rewrite Et. destruct (Nat.eqb_spec t t') as [<-|N].
      - exists (S k). rewrite (firstn_S_nth _ _ _ En). f_equal. exact Hk.
      - destruct (Hp t') as [k' Hk']. exists k'. rewrite app_nil_r. exact Hk'. }
    destruct (pass_run_spec (opaque s) (variable s) (ops ++ [o]) (pass_open (n_threads s)) (fun _ => None) file_dims) as (m1 & E2);
      [exact (pass_ok _ Hp')|reflexivity|].
    exists (EndRunModel.HP (ops ++ [o])). eexists (fun t' => map Some (map snd (filter (fun r => fst r =? t') _))). split; [cbn; eauto|].
    exists (ops ++ [o]), m1. eexists. split; [reflexivity|]. split; [exact E2|]. split; [exact Hp'|reflexivity].
Qed.

Lemma moment_start : (forall nu, class_ s <> (SCache, MPIThread, nu)) -> exists h cells, steps h = 0 /\ moment s bl ixs h cells.
Proof.
  intros Hcl. pose proof Hok as (_ & _ & Hn & Hsp & _).
  assert (eff_spread (cache_size s) (hand_spread s) < cache_size s) as Hh.
  { unfold eff_spread. destruct (Z.ltb_spec (hand_spread s) 0); [apply Nat.div_lt; lia|lia]. }
  destruct (clist_init_spec (cache_size s) (hand_spread s) Hn Hh) as (l0 & El & _).
  unfold moment. destruct (class_ s) as [[st mp] nu] eqn:Ec. destruct (classes st mp nu Ec) as [HP HD].
  destruct st.
  - assert (mp = MPINo -> ranks s = 1) as HP' by (apply HP; discriminate).
    assert (nu = NumaNo -> domains s = 1) as HD' by (apply HD; reflexivity).
    assert (exists s0,
       fd_open (Geom bl (variable s) (opaque s)) (Dist (n_mode s) (ranks s) (domains s) (b_total bl)) (cache_size s) (hand_spread s) = Ok s0) as (s0 & E0).
    { assert (XWin = XNo -> PNumaFull <> PNumaNo /\ ranks s = 1) as Hm by discriminate.
      destruct (FullConcFacts.full_values _ _ _ _ (opaque s) (n_mode s) _ _ _ _ _ _ _ (full_setting_ XWin PNumaFull Hm)) as (s0 & E0 & _). eauto. }
    destruct mp, nu; try (eexists (HU []), _; split; [reflexivity|]; exists [], s0, l0; eexists; split; [reflexivity|];
        split; [exact E0|]; split; [exact El|]; split; [reflexivity|]; reflexivity).
    rewrite (HP' eq_refl), (HD' eq_refl) in *. destruct opened as (user & td & arr & Hbo).
    destruct (LevelsFacts.full_values (variable s) user td arr bl (opaque s) (n_mode s) file_dims Hbo) as (m & Em & _).
    exists (HR []), (fun _ => []). split; [reflexivity|]. exists [], m. split; auto. split; auto. intros t.
    exists counters0, []. cbn. split; [lia|]. auto.
  - destruct mp, nu; try (eexists (HC []), _; split; [reflexivity|]; exists [], l0; eexists; split; [reflexivity|];
      split; [exact El|]; split; [reflexivity|]; reflexivity); exfalso; eapply Hcl; reflexivity.
  - exists (EndRunModel.HP []), (fun _ => []). split; [reflexivity|]. exists []. eexists _, _. split; [reflexivity|]. split; [reflexivity|].
    split; [intros t; exists 0; reflexivity|reflexivity].
Qed.
(** ** No step is left when all reads are answered *)
Lemma conc_last m P D rk dm (Hr : forall t, rk t < P) (Hd : forall t, dm t < D) (Hm : m <> MThread) l0 acts st a st' :
  let c := readers m (variable s) bl (opaque s) (n_mode s) P D (cache_size s) (hand_spread s) rk dm (fun _ => []) ixs in
  clist_init (cache_size s) (hand_spread s) = Ok l0 -> run c (init c l0) acts = Some st ->
  (forall t, List.length (map snd (t_done (s_thr st t))) = List.length (ixs t)) ->
  run c (init c l0) (acts ++ [a]) = Some st' -> False.
Proof.
  intros c El Hrun L H'. assert (reachable c st) as Hre by (exists l0, acts; auto).
  assert (forall t, t_todo (s_thr st t) = []) as Ht.
  { intros t. destruct (readers_values _ _ _ (opaque s) (n_mode s) _ _ _ _ _ _ _ _ st (conc_setting m P D rk dm Hr Hd) Hre t) as (k & E & Lt).
    specialize (L t). rewrite E, map_length, firstn_length in L. destruct (t_todo (s_thr st t)); auto. cbn in Lt. lia. }
  assert (forall x0, run c x0 acts = Some st -> run c x0 (acts ++ [a]) = Some st' -> step c st a = Some st') as Hs.
  { clear. induction acts as [|a0 acts IH]; cbn; intros x0 H H'.
    - inversion H; subst. destruct (step c st a); congruence.
    - destruct (step c x0 a0); [|discriminate]. eauto. }
  specialize (Hs _ Hrun H'). destruct a as [t ch|r ch]; cbn [step] in Hs.
  - unfold step_thr in Hs. rewrite Ht in Hs. discriminate.
  - change (cf_mode c) with m in Hs. destruct m; try discriminate. congruence.
Qed.

Lemma full_last m p (Hm : m = XNo -> p <> PNumaNo /\ ranks s = 1) s0 l0 acts st a st' :
  let g := Geom bl (variable s) (opaque s) in
  let d := Dist (n_mode s) (ranks s) (domains s) (b_total bl) in
  fd_open g d (cache_size s) (hand_spread s) = Ok s0 ->
  let c := full_readers m p bl d (cache_size s) (hand_spread s) (rank_of s) (domain_of s) (fd_store s0) ixs in
  clist_init (cache_size s) (hand_spread s) = Ok l0 -> urun c (uinit c l0) acts = Some st ->
  (forall t, List.length (map snd (q_done (u_thr st t))) = List.length (ixs t)) ->
  urun c (uinit c l0) (acts ++ [a]) = Some st' -> False.
Proof.
  intros g d E0 c El Hrun L H'. assert (ureach c st) as Hre by (exists l0, acts; auto).
  destruct (FullConcFacts.full_values _ _ _ _ (opaque s) (n_mode s) _ _ _ _ _ _ _ (full_setting_ m p Hm)) as (s1 & E1 & Hwf & Hv).
  fold g d in E1. rewrite E0 in E1. inversion E1; subst s1.
  assert (forall t, q_todo (u_thr st t) = []) as Ht.
  { intros t. destruct (Hv st Hre t) as (k & E & Lt).
    specialize (L t). rewrite E, map_length, firstn_length in L. destruct (q_todo (u_thr st t)); auto. cbn in Lt. lia. }
  assert (forall x0, urun c x0 acts = Some st -> urun c x0 (acts ++ [a]) = Some st' -> ustep c st a = Some st') as Hs.
  { clear. induction acts as [|a0 acts IH]; cbn; intros x0 H H'.
    - inversion H; subst. destruct (ustep c st a); congruence.
    - destruct (ustep c x0 a0); [|discriminate]. eauto. }
  specialize (Hs _ Hrun H'). destruct a as [t fail|r src]; cbn [ustep] in Hs.
  - unfold ustep_thr in Hs. rewrite Ht in Hs. discriminate.
  - destruct (fc_mpi c); try discriminate. destruct (r <? _); try discriminate.
    unfold ustep_com in Hs. destruct (u_req st src r) eqn:Eq; [discriminate|].
    destruct (ureach_inv c Hwf st Hre) as [Hl _].
    destruct (li_msg _ _ Hl src r) as (t & i & _ & Ep & _); [left; congruence|].
    destruct (li_todo _ _ Hl t) as (b & cell & todo & Et & _); [congruence|]. rewrite Ht in Et. discriminate.
Qed.

Lemma moment_last h cells : moment s bl ixs h cells -> (forall t, List.length (cells t) = List.length (ixs t)) ->
  forall h' cells', next h h' -> ~ moment s bl ixs h' cells'.
Proof.
  pose proof (rank_lt s Hok) as Hrk. pose proof (domain_lt s Hok) as Hdm.
  unfold moment. destruct (class_ s) as [[st mp] nu] eqn:Ec. destruct (classes st mp nu Ec) as [HP HD].
  destruct st.
  - assert (mp = MPINo -> ranks s = 1) as HP' by (apply HP; discriminate).
    assert (nu = NumaNo -> domains s = 1) as HD' by (apply HD; reflexivity).
    destruct mp, nu; try (intros (acts & s0 & l0 & x & -> & E0 & El & Hr & Hc) L h' cells' Hn
                             (acts' & s0' & l0' & x' & -> & E0' & El' & Hr' & Hc');
      destruct Hn as [a ->]; rewrite E0 in E0'; inversion E0'; subst s0'; rewrite El in El'; inversion El'; subst l0';
      (refine (full_last _ _ _ s0 l0 acts x a x' E0 El Hr _ Hr'); [|intros t; rewrite <- Hc; apply L]);
      (intros _; split; [discriminate|now apply HP']) || discriminate).
    intros (l & m & -> & Em & H) L h' cells' Hn (l' & m' & -> & Em' & H'). destruct Hn as [u ->].
    rewrite (HP' eq_refl), (HD' eq_refl) in *. destruct opened as (user & td & arr & Hbo).
    destruct (LevelsFacts.full_values (variable s) user td arr bl (opaque s) (n_mode s) file_dims Hbo) as (m1 & Em1 & Hv).
    rewrite Em in Em1. inversion Em1; subst m1.
    destruct (H u) as (c & vs & Lk & Er & Ec'). destruct (H' u) as (_ & _ & Lk' & _). cbv zeta in *.
    rewrite filter_app, app_length in Lk'. cbn [filter] in Lk'. rewrite Nat.eqb_refl in Lk'. cbn [List.length] in Lk'.
    specialize (L u). rewrite Ec', map_length in L.
    destruct (Hv (firstn (List.length (filter (fun v => v =? u) l)) (ixs u))) as (c2 & E2).
    { apply Forall_forall. intros x Hx. apply in_firstn_ in Hx. pose proof (Hix u) as H0. rewrite Forall_forall in H0. auto. }
    rewrite E2 in Er. inversion Er; subst. rewrite map_length, firstn_length in L. lia.
  - destruct mp, nu; try tauto; intros (acts & l0 & x & -> & El & Hr & Hc) L h' cells' Hn (acts' & l0' & x' & -> & El' & Hr' & Hc');
      destruct Hn as [a ->]; rewrite El in El'; inversion El'; subst l0';
      (refine (conc_last _ _ _ _ _ _ _ _ l0 acts x a x' El Hr _ Hr'); auto; [discriminate|intros t; rewrite <- Hc; apply L]).
  - intros (ops & m & vs & -> & Hr & Hp & Hc) L h' cells' Hn (ops' & m' & vs' & -> & Hr' & Hp' & Hc'). destruct Hn as [o ->].
    destruct (pass_run_spec (opaque s) (variable s) ops (pass_open (n_threads s)) (fun _ => None) file_dims) as (m1 & E1);
      [exact (pass_ok ops Hp)|reflexivity|].
    rewrite Hr in E1. inversion E1; subst m1 vs. set (t := pass_tid o).
    destruct (Hp t) as [k Hk]. destruct (Hp' t) as [k' Hk'].
    assert (part_of t (ops ++ [o]) = part_of t ops ++ [o]) as Eo.
    { unfold part_of. rewrite filter_app. cbn [filter]. unfold t. now rewrite Nat.eqb_refl. }
    rewrite Eo in Hk'. specialize (L t). rewrite Hc, !map_length, expected_count in L.
    assert (In o (pass_prog t (ixs t)) /\ List.length (part_of t ops) < List.length (pass_prog t (ixs t))) as [_ Lt].
    { split; [apply (in_firstn_ k'); rewrite <- Hk'; apply in_or_app; right; now left|].
      pose proof (f_equal (@List.length _) Hk') as E. rewrite app_length, firstn_length in E. cbn in E. lia. }
    assert (forall t l k, k < List.length (pass_prog t l) -> List.length (filter is_read (firstn k (pass_prog t l))) < List.length l) as Hlt.
    { clear. intros t l. induction l as [|ix l IH]; intros k Hlt; [cbn in Hlt; lia|].
      destruct k as [|[|k]]; cbn; [lia|lia|]. cbn in Hlt. specialize (IH k). lia. }
    rewrite Hk, firstn_length in Lt.
    pose proof (Hlt t (ixs t) k) as Hx. rewrite Hk in L. lia.
Qed.
End Moments.

(** ** Sessions *)
Section Sessions.
Context {A : arith} (s : session A) (bl : blocked) (ixs : nat -> list (list nat)) (prog : nat -> list (@request A)).
Hypothesis Hok : session_ok s.
Hypothesis Hth : forall t, n_threads s <= t -> prog t = [].
Hypothesis Hdef : forall t r, In r (prog t) -> defined_at s (q_pos r).

Lemma exec_run h answers : session_exec s bl ixs prog h answers -> session_run s prog answers.
Proof.
  intros (arr0 & cells & Hb & Hi & Hm & Ha). exists arr0, bl, ixs, cells. repeat (split; auto).
  eapply moment_observed; eauto.
Qed.

Lemma forall2_len {X Y} (R : X -> Y -> Prop) l l' : Forall2 R l l' -> List.length l = List.length l'.
Proof. induction 1; cbn; auto. Qed.

Lemma indices : (forall t, Forall2 (fun r ix => exists init, index_of s (q_pos r) init = Ok ix) (prog t) (ixs t)) ->
  (forall t, Forall (in_box (f_size (variable s))) (ixs t)) /\ (forall t, n_threads s <= t -> ixs t = []) /\
  forall t, List.length (ixs t) = List.length (prog t).
Proof.
  intros Hi. split; [|split].
  - intros t. pose proof (Hi t) as H. pose proof (Hdef t) as H'.
    induction H as [|r ix l l' [init Hr] Hl IH]; constructor.
    + destruct (defined_index s (q_pos r) init (H' r (or_introl eq_refl))) as (ix' & E & Hbx). congruence.
    + apply IH. intros r' Hr'. apply H'. now right.
  - intros t Ht. pose proof (Hi t) as H. rewrite (Hth t Ht) in H. now inversion H.
  - intros t. symmetry. eapply forall2_len, Hi.
Qed.

Definition most : nat := sum (fun t => (b_tbs bl + 5 * domains s + 17) * List.length (prog t)) (n_threads s).

Lemma exec_bound h answers : session_exec s bl ixs prog h answers -> steps h <= most.
Proof.
  intros (arr0 & cells & Hb & Hi & Hm & Ha). destruct (indices Hi) as (H1 & H2 & H3).
  etransitivity; [exact (moment_bound s arr0 bl ixs Hok Hb H1 H2 h cells Hm)|].
  apply sum_le. intros t _. now rewrite H3.
Qed.

Lemma exec_next h answers t : session_exec s bl ixs prog h answers -> List.length (answers t) < List.length (prog t) ->
  exists h' answers', next h h' /\ session_exec s bl ixs prog h' answers'.
Proof.
  intros (arr0 & cells & Hb & Hi & Hm & Ha) L. destruct (indices Hi) as (H1 & H2 & H3).
  destruct (moment_next s arr0 bl ixs Hok Hb H1 H2 h cells t Hm) as (h' & cells' & Hn & Hm').
  - rewrite Ha, map_length, combine_length in L. rewrite H3. lia.
  - exists h'. eexists. split; [exact Hn|]. exists arr0, cells'. split; [exact Hb|]. split; [exact Hi|]. split; [exact Hm'|reflexivity].
Qed.

Lemma answers_le h answers t : session_exec s bl ixs prog h answers -> List.length (answers t) <= List.length (prog t).
Proof. intros (arr0 & cells & _ & _ & _ & Ha). rewrite Ha, map_length, combine_length. lia. Qed.

Lemma exec_ended h answers : session_exec s bl ixs prog h answers ->
  (forall h' answers', next h h' -> ~ session_exec s bl ixs prog h' answers') ->
  forall t, List.length (answers t) = List.length (prog t).
Proof.
  intros H He t. pose proof (answers_le h answers t H).
  destruct (Nat.eq_dec (List.length (answers t)) (List.length (prog t))) as [E|N]; auto. exfalso.
  destruct (exec_next h answers t H) as (h' & a' & Hn & H'); [lia|]. eapply He; eauto.
Qed.

Lemma exec_complete h answers : session_exec s bl ixs prog h answers -> (forall t, List.length (answers t) = List.length (prog t)) ->
  forall h' answers', next h h' -> ~ session_exec s bl ixs prog h' answers'.
Proof.
  intros (arr0 & cells & Hb & Hi & Hm & Ha) L h' answers' Hn (arr1 & cells1 & Hb1 & _ & Hm1 & Ha1).
  destruct (indices Hi) as (H1 & H2 & H3).
  refine (moment_last s arr0 bl ixs Hok Hb H1 H2 h cells Hm _ h' cells1 Hn Hm1).
  intros t. destruct (observed_cells s arr0 bl ixs cells Hok Hb H1 H2 (moment_observed _ _ _ _ _ Hm) t) as (k & E).
  specialize (L t). rewrite Ha, map_length, combine_length in L. rewrite E, map_length, firstn_length in *. rewrite H3 in *. lia.
Qed.

Lemma next_steps h h' : next h h' -> steps h' = S (steps h).
Proof. destruct h, h'; cbn; try tauto; intros [a ->]; rewrite app_length; cbn; lia. Qed.

Lemma exec_finish h answers : session_exec s bl ixs prog h answers ->
  exists h' answers', later s bl ixs prog h h' /\ session_exec s bl ixs prog h' answers' /\
    forall t, List.length (answers' t) = List.length (prog t).
Proof.
  intros H. assert (forall k h answers, session_exec s bl ixs prog h answers -> most - steps h < k ->
     exists h' answers', later s bl ixs prog h h' /\ session_exec s bl ixs prog h' answers' /\
       forall t, List.length (answers' t) = List.length (prog t)) as Hk.
  { clear h answers H. intros k. induction k as [|k IH]; intros h answers H L; [lia|].
    destruct (existsb (fun t => List.length (answers t) <? List.length (prog t)) (seq 0 (n_threads s))) eqn:Ex.
    - apply existsb_exists in Ex as (t & _ & Ht). apply Nat.ltb_lt in Ht.
      destruct (exec_next h answers t H Ht) as (h1 & a1 & Hn & H1).
      pose proof (exec_bound h1 a1 H1) as Hb1. pose proof (next_steps h h1 Hn) as E1.
      destruct (IH h1 a1 H1) as (h2 & a2 & H2 & H3 & H4); [lia|].
      exists h2, a2. split; auto. eapply later_step; eauto.
    - exists h, answers. split; [constructor|]. split; auto. intros t. pose proof (answers_le h answers t H).
      destruct (le_lt_dec (n_threads s) t) as [Lt|Lt].
      + rewrite (Hth t Lt) in *. cbn in *. lia.
      + destruct (le_lt_dec (List.length (prog t)) (List.length (answers t))) as [|N]; [lia|]. exfalso.
        assert (existsb (fun t => List.length (answers t) <? List.length (prog t)) (seq 0 (n_threads s)) = true); [|congruence].
        apply existsb_exists. exists t. split; [apply in_seq; lia|]. now apply Nat.ltb_lt. }
  apply (Hk (S most) h answers H). lia.
Qed.
End Sessions.

Lemma exec_start {A} (s : session A) prog :
  session_ok s -> (forall nu, class_ s <> (SCache, MPIThread, nu)) ->
  (forall t, n_threads s <= t -> prog t = []) -> (forall t r, In r (prog t) -> defined_at s (q_pos r)) ->
  exists bl ixs h answers, steps h = 0 /\ session_exec s bl ixs prog h answers.
Proof.
  intros Hok Hcl Hth Hdef.
  assert (exists bl, blocks s (fun _ => 0) = Ok bl) as [bl Hb].
  { apply blocked_open_ok_iff. unfold variable. cbn. apply Forall_map. destruct Hok as (_ & H & _).
    eapply Forall_impl; [|exact H]. intros ax Hx. cbv beta in *. lia. }
  set (ixs := fun t => map (fun r => match index_of s (q_pos r) (fun _ => 0%Z) with Ok ix => ix | Ub => [] end) (prog t)).
  assert (forall t, Forall2 (fun r ix => exists init, index_of s (q_pos r) init = Ok ix) (prog t) (ixs t)) as Hi.
  { intros t. unfold ixs. pose proof (Hdef t) as H. induction (prog t) as [|r l IH]; cbn [map]; constructor.
    - exists (fun _ => 0%Z). destruct (defined_index s (q_pos r) (fun _ => 0%Z) (H r (or_introl eq_refl))) as (ix & E & _). now rewrite E.
    - apply IH. intros r' Hr'. apply H. now right. }
  destruct (indices s ixs prog Hth Hdef Hi) as (H1 & H2 & _).
  destruct (moment_start s (fun _ => 0) bl ixs Hok Hb H1 H2 Hcl) as (h & cells & E & Hm).
  exists bl, ixs, h. eexists. split; [exact E|]. exists (fun _ => 0), cells. split; [exact Hb|]. split; [exact Hi|]. split; [exact Hm|reflexivity].
Qed.

(** ** The answers at the end *)
Lemma all_of {X Y} (R : X -> Y -> Prop) l l' : (exists k, Forall2 R (firstn k l) l') -> List.length l' = List.length l -> Forall2 R l l'.
Proof.
  intros [k H] E. pose proof (forall2_len _ _ _ H) as L. rewrite firstn_length in L.
  rewrite firstn_all2 in H by lia. exact H.
Qed.

Lemma exec_nearest (s : session exact) bl ixs us prog h answers :
  session_ok s -> n_axes s = map ra_axis us -> Forall ra_ok us ->
  (forall ix, in_box (map (fun u => Z.to_nat (ra_n u)) us) ix -> List.length (n_cell s ix) = type_size (n_type s)) ->
  (forall t, n_threads s <= t -> prog t = []) ->
  session_exec s bl ixs (fun t => map at_reals (prog t)) h answers ->
  (forall h' answers', next h h' -> ~ session_exec s bl ixs (fun t => map at_reals (prog t)) h' answers') ->
  forall t, Forall2 (fun r a => exists ix, nearest us (fst r) ix /\ expected (n_type s) (snd r) (n_cell s ix) a) (prog t) (answers t).
Proof.
  intros Hok Ha Hu Hl Hth H He t. apply all_of.
  - eapply nearest_answers; eauto. eapply exec_run; eauto.
  - erewrite exec_ended; eauto; cbv beta.
    + now rewrite map_length.
    + intros t' Ht. now rewrite Hth.
    + intros t' r Hin. apply in_map_iff in Hin as ((p & g) & <- & _). cbn. now apply (exact_defined s us).
Qed.

Lemma exec_double (s : session ieee) bl ixs (prog : nat -> list (@request ieee)) h answers :
  session_ok s ->
  (forall ix, in_box (map (fun ax => Z.to_nat (x_size ax)) (n_axes s)) ix -> List.length (n_cell s ix) = type_size (n_type s)) ->
  (forall t, n_threads s <= t -> prog t = []) ->
  (forall t r, In r (prog t) -> no_nan_at s (q_pos r)) ->
  session_exec s bl ixs prog h answers ->
  (forall h' answers', next h h' -> ~ session_exec s bl ixs prog h' answers') ->
  forall t, Forall2 (fun r a => exists ix init, index_of s (q_pos r) init = Ok ix /\
                                 in_box (map (fun ax => Z.to_nat (x_size ax)) (n_axes s)) ix /\
                                 expected (n_type s) (q_getter r) (n_cell s ix) a) (prog t) (answers t).
Proof.
  intros Hok Hl Hth Hn H He t.
  assert (forall t r, In r (prog t) -> @defined_at ieee s (q_pos r)) as Hdef by (intros t' r Hin; apply ieee_defined, (Hn t' r Hin)).
  apply all_of.
  - destruct (run_answers s prog answers Hok Hth Hdef (exec_run s bl ixs prog h answers H) t) as (k & F).
    exists k. eapply forall2_impl_in; [|exact F]. intros r a _ (ix & init & Ei & Hb & ->).
    exists ix, init. split; auto. split; auto. apply answer_expected, Hl, Hb.
  - exact (exec_ended s bl ixs prog Hok Hth Hdef h answers H He t).
Qed.

Lemma exec_ends {A} (s : session A) bl ixs prog h answers :
  session_ok s -> (forall t, n_threads s <= t -> prog t = []) -> (forall t r, In r (prog t) -> defined_at s (q_pos r)) ->
  session_exec s bl ixs prog h answers ->
  ((forall h' answers', next h h' -> ~ session_exec s bl ixs prog h' answers') <->
   forall t, List.length (answers t) = List.length (prog t)).
Proof.
  intros Hok Hth Hdef H. split.
  - exact (exec_ended s bl ixs prog Hok Hth Hdef h answers H).
  - exact (exec_complete s bl ixs prog Hok Hth Hdef h answers H).
Qed.
