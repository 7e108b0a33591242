(** * The unit tests of the registration and of the NUMA communicator: lemmas *)
From Verif Require Import SyncFacts NumaFacts UnitModel UnitFacts.
Require Import Lia Permutation.

(** The two threads: which one registered first, and what they got. *)
Record vinfo (node : nat -> nat) (n : nsys unit) (a b : nat) : Prop := {
  vi_ab : a = 0 /\ b = 1 \/ a = 1 /\ b = 0;
  vi_a : ns_reg n a = Some (NReg 0 0 true);
  vi_b : ns_reg n b = Some (NReg 1 (if node a =? node b then 0 else 1) (negb (node a =? node b)));
  vi_d : length (n_domains (ns_numa n)) = if node a =? node b then 1 else 2
}.

Definition vready (n : nsys unit) : Prop := arrived (ns_sync n) 0 0 /\ arrived (ns_sync n) 1 0.

Lemma regcfg_wf : wf_ycfg v_regcfg.
Proof. split; [cbn; lia|]. intros k r H. discriminate. Qed.

Lemma pair_list : forall l : list nat, NoDup l -> (forall t, In t l <-> t < 2) -> l = [0; 1] \/ l = [1; 0].
Proof.
  intros l N H.
  assert (L : length l = 2).
  { rewrite <- (seq_length 2 0). apply Permutation_length, NoDup_Permutation; [exact N|apply seq_NoDup|].
    intros t. rewrite H, in_seq. lia. }
  destruct l as [|p [|q [|]]]; try discriminate.
  assert (p < 2) by (apply H; left; reflexivity). assert (q < 2) by (apply H; right; left; reflexivity).
  assert (p <> q) by (inversion N as [|? ? X]; subst; intros ->; apply X; left; reflexivity).
  destruct p as [|[|p]]; [| |lia]; destruct q as [|[|q]]; try lia; auto.
Qed.

Lemma vready_info : forall node n, nstate v_regcfg true node n -> vready n -> exists a b, vinfo node n a b.
Proof.
  intros node n E [A0 A1]. destruct (nstate_link v_regcfg true node regcfg_wf eq_refl n E) as [arr [L1 L2]].
  assert (P : arr = [0; 1] \/ arr = [1; 0]).
  { apply pair_list; [apply (ni_nodup _ _ _ _ _ _ L1)|]. intros t. rewrite L2. cbn [y_n v_regcfg]. split; [tauto|].
    intros H. split; [exact H|]. destruct t as [|[|t]]; [exact A0|exact A1|lia]. }
  assert (G : exists a b, (a = 0 /\ b = 1 \/ a = 1 /\ b = 0) /\ arr = [a; b]).
  { destruct P as [-> | ->]; [exists 0, 1|exists 1, 0]; auto. }
  clear P L2 A0 A1. destruct G as (a & b & AB & ->). exists a, b.
  pose proof (ni_first _ _ _ _ _ _ L1 a eq_refl) as F.
  destruct (ni_reg _ _ _ _ _ _ L1 0 a eq_refl) as (ra & Ra & Ta & Da & _ & Ma).
  destruct (ni_reg _ _ _ _ _ _ L1 1 b eq_refl) as (rb & Rb & Tb & Db & _ & Mb).
  pose proof (ni_in _ _ _ _ _ _ L1) as I. pose proof (ni_fst _ _ _ _ _ _ L1) as N. pose proof (ni_snd _ _ _ _ _ _ L1) as S'.
  assert (Xa : nth_error (map fst (n_domains (ns_numa n))) (r_dom ra) = Some (node a)).
  { apply (nfind_nth _ 0) in Da; [|exact S'|exact N]. rewrite Nat.sub_0_r in Da. apply Da. }
  assert (Xb : nth_error (map fst (n_domains (ns_numa n))) (r_dom rb) = Some (node b)).
  { apply (nfind_nth _ 0) in Db; [|exact S'|exact N]. rewrite Nat.sub_0_r in Db. apply Db. }
  change (eff true node a) with (node a) in *.
  pose proof (map_length fst (n_domains (ns_numa n))) as Lm.
  assert (IN : forall x, In x (map fst (n_domains (ns_numa n))) <-> x = node a \/ x = node b).
  { intros x. rewrite I. unfold eff. split.
    - intros (t & [<-|[<-|[]]] & <-); auto.
    - intros [-> | ->]; [exists a|exists b]; cbn; auto. }
  clear I.
  remember (map fst (n_domains (ns_numa n))) as l eqn:El. clear El.
  assert (MA : r_master ra = true) by (apply Ma; intros; lia).
  assert (MB : r_master rb = negb (node a =? node b)).
  { destruct (Nat.eqb_spec (node a) (node b)) as [e|e]; cbn.
    - destruct (r_master rb) eqn:X; [|reflexivity]. destruct (proj1 Mb eq_refl 0 a); auto.
    - apply Mb. intros [|j] u Hj Hu; [|lia]. injection Hu as <-. exact e. }
  destruct l as [|x l]; [discriminate|]. cbn in F. injection F as ->.
  assert (Za : r_dom ra = 0).
  { apply (proj1 (NoDup_nth_error _) N); [|exact Xa]. apply nth_error_Some. congruence. }
  assert (Z : r_dom rb = (if node a =? node b then 0 else 1) /\ length (node a :: l) = if node a =? node b then 1 else 2).
  { inversion N as [|? ? N1 N2]; subst. destruct (Nat.eqb_spec (node a) (node b)) as [e|e].
    - destruct l as [|z l].
      + destruct (r_dom rb) as [|[|]]; try discriminate. auto.
      + exfalso. assert (Hz : In z (node a :: z :: l)) by (right; left; reflexivity). apply IN in Hz.
        apply N1. left. destruct Hz; congruence.
    - destruct l as [|z l].
      + exfalso. assert (Hb : In (node b) [node a]) by (apply IN; auto). destruct Hb as [Hb|[]]. congruence.
      + assert (Hz : In z (node a :: z :: l)) by (right; left; reflexivity). apply IN in Hz.
        assert (z = node b) by (destruct Hz as [-> | ->]; [exfalso; apply N1; left; reflexivity|reflexivity]). subst z.
        assert (r_dom rb = 1).
        { apply (proj1 (NoDup_nth_error _) N); [|exact Xb]. apply nth_error_Some. congruence. }
        destruct l as [|z l]; [auto|]. exfalso.
        assert (Hz' : In z (node a :: node b :: z :: l)) by (right; right; left; reflexivity). apply IN in Hz'.
        inversion N2 as [|? ? N3 _]; subst. destruct Hz' as [-> | ->].
        * apply N1. right. left. reflexivity.
        * apply N3. left. reflexivity. }
  destruct Z as [Z1 Z2].
  destruct ra as [t0 d0 m0], rb as [t1 d1 m1]; cbn in *; subst.
  constructor; auto; congruence.
Qed.

Lemma nstep_sync : forall {V} (c : ycfg V) detect node s a s', nstep c detect node s a = Some (Ok s') ->
  ystep c (ns_sync s) a = Some (Ok (ns_sync s')).
Proof.
  intros V c detect node s a s' H. pose proof (nrun_sync c detect node [a] s s') as X. cbn in X. rewrite H in X. specialize (X eq_refl).
  destruct (ystep c (ns_sync s) a) as [[?|]|]; congruence.
Qed.

Lemma nstate_step : forall {V} (c : ycfg V) detect node s a s', nstate c detect node s ->
  nstep c detect node s a = Some (Ok s') -> nstate c detect node s'.
Proof.
  intros V c detect node s a s' [l H] E. exists (l ++ [a]). revert H. generalize (nsys_init c) as s0.
  induction l as [|b l IH]; intros s0 H; cbn in *.
  - injection H as ->. rewrite E. reflexivity.
  - destruct (nstep c detect node s0 b) as [[s1|]|]; try discriminate. apply IH. exact H.
Qed.

Lemma nready_step : forall node s t s', vready s -> nstep v_regcfg true node s (YStep t) = Some (Ok s') ->
  vready s' /\ ns_numa s' = ns_numa s /\ ns_reg s' = ns_reg s.
Proof.
  intros node s t s' [R0 R1] H. pose proof (nstep_sync _ _ _ _ _ _ H) as Y.
  pose proof (fun u => arrived_step v_regcfg node (ns_sync s) (YStep t) (ns_sync s') u 0 Y) as A.
  split; [split; apply A; auto|].
  assert (T : t < 2).
  { unfold ystep in Y. destruct (Nat.ltb_spec t (y_n v_regcfg)); [assumption|discriminate]. }
  assert (Ar : arrived (ns_sync s) t 0) by (destruct t as [|[|t]]; [exact R0|exact R1|lia]).
  unfold nstep in H. rewrite Y in H.
  destruct (y_pc (y_thr (ns_sync s) t)) eqn:P; try (injection H as <-; auto).
  destruct (y_round (y_thr (ns_sync s) t)) eqn:Q; try (injection H as <-; auto).
  exfalso. unfold arrived in Ar. rewrite P, Q in Ar. destruct Ar as [X|[_ X]]; [lia|discriminate].
Qed.

Section Tests.
Variables (x : vtest) (node : nat -> nat) (ptr : Z) (junk : nat -> nat -> Z).

Record vinv (s : vst) : Prop := {
  vv_reg : nstate v_regcfg true node (v_reg s);
  vv_comm : forall y, v_comm s = Some y -> vready (v_reg s) /\ ystate (v_cfg x ptr junk s) y
}.

Lemma registered_ready : forall s t, nstate v_regcfg true node (v_reg s) -> t < 2 -> v_registered s t = true -> vready (v_reg s).
Proof.
  intros s t E Ht H. unfold v_registered in H. apply Nat.ltb_lt in H.
  assert (Y : ystate v_regcfg (ns_sync (v_reg s))).
  { destruct E as [l E]. exists l. apply (nrun_sync v_regcfg true node l _ _ E). }
  split; apply (sync_barrier v_regcfg regcfg_wf eq_refl _ t); auto; try (cbn; lia); left; exact H.
Qed.

Lemma cfg_eq : forall s s', ns_numa (v_reg s') = ns_numa (v_reg s) -> ns_reg (v_reg s') = ns_reg (v_reg s) ->
  v_cfg x ptr junk s' = v_cfg x ptr junk s.
Proof. intros s s' A B. unfold v_cfg, v_names, v_domains, v_dom. rewrite A, B. reflexivity. Qed.

Lemma names_lt : forall s a b, vinfo node (v_reg s) a b -> v_names x s 0 < v_domains s.
Proof.
  intros s a b [AB A B D]. unfold v_names, v_domains, v_dom. rewrite D.
  destruct AB as [[-> ->]|[-> ->]]; rewrite ?A, ?B; cbn; destruct x; destruct (node _ =? node _); lia.
Qed.

Lemma vcfg_wf : forall s a b, vinfo node (v_reg s) a b -> wf_ycfg (v_cfg x ptr junk s).
Proof.
  intros s a b I. pose proof (names_lt s a b I). split; cbn; [lia|]. intros k r H'. injection H' as <-. assumption.
Qed.

Lemma vinv_init : vinv v_init.
Proof. constructor; [exists []; reflexivity|discriminate]. Qed.

Lemma vinv_step : forall s t s', vinv s -> v_step x node ptr junk s t = Some (Ok s') -> vinv s'.
Proof.
  intros s t s' [R C] H. unfold v_step in H. destruct (Nat.ltb_spec t 2) as [T|]; [|discriminate].
  destruct (v_registered s t) eqn:Q.
  - destruct (v_part s t); [|discriminate]. cbn zeta in H.
    destruct (ystep _ _ _) as [[y'|]|] eqn:Y; try discriminate. injection H as <-.
    constructor; [exact R|]. intros y Hy. cbn in Hy. injection Hy as <-. cbn.
    pose proof (registered_ready s t R T Q) as Rd. split; [exact Rd|].
    change (v_cfg x ptr junk {| v_reg := v_reg s; v_comm := Some y' |}) with (v_cfg x ptr junk s).
    eapply ystate_step; [|exact Y]. destruct (v_comm s) as [y|]; [apply (C y eq_refl)|]. exists []. reflexivity.
  - destruct (nstep _ _ _ _ _) as [[n|]|] eqn:Y; try discriminate. injection H as <-.
    constructor; cbn; [eapply nstate_step; eauto|]. intros y Hy. destruct (C y Hy) as [Rd Ys].
    destruct (nready_step node _ _ _ Rd Y) as (Rd' & E1 & E2). split; [exact Rd'|].
    rewrite (cfg_eq s); [exact Ys|exact E1|exact E2].
Qed.

Lemma v_run_inv : forall l s s', vinv s -> v_run x node ptr junk s l = Some (Ok s') -> vinv s'.
Proof.
  induction l as [|t l IH]; intros s s' I H; cbn in H; [injection H as <-; exact I|].
  destruct (v_step x node ptr junk s t) as [[s1|]|] eqn:E; try discriminate. eapply IH; [|exact H]. eapply vinv_step; eauto.
Qed.

Definition vstate (s : vst) : Prop := exists l, v_run x node ptr junk v_init l = Some (Ok s).
Lemma vstate_inv : forall s, vstate s -> vinv s.
Proof. intros s [l H]. eapply v_run_inv; [apply vinv_init|exact H]. Qed.

(** What a thread of a finished test got. *)
Lemma done_info : forall s t, vstate s -> t < 2 -> v_done x s t = true -> exists a b, vinfo node (v_reg s) a b.
Proof.
  intros s t S T H. pose proof (vstate_inv s S) as [R _]. unfold v_done in H. apply andb_prop in H as [H _].
  apply (vready_info node (v_reg s) R (registered_ready s t R T H)).
Qed.

Lemma dom_lt : forall s a b t, vinfo node (v_reg s) a b -> t < 2 -> v_dom s t < v_domains s.
Proof.
  intros s a b t [AB A B D] T. unfold v_domains, v_dom. rewrite D.
  assert (t = a \/ t = b) as [-> | ->] by lia; rewrite ?A, ?B; cbn; destruct (_ =? _); lia.
Qed.

Lemma outs : forall s t, vstate s -> t < 2 -> v_done x s t = true -> v_part s t = true ->
  v_outs s t = repeat ptr (v_rounds x).
Proof.
  intros s t S T H P. destruct (done_info s t S T H) as (a & b & I). pose proof (vstate_inv s S) as [R C].
  unfold v_done in H. apply andb_prop in H as [Q H]. rewrite P in H. cbn in H. apply Nat.eqb_eq in H.
  unfold v_outs in *. destruct (v_comm s) as [y|] eqn:Y.
  - destruct (C y eq_refl) as [_ Ys].
    pose proof (sync_values _ (vcfg_wf s a b I) eq_refl y (v_dom s t) Ys (dom_lt s a b t I T)) as V.
    rewrite V in H |- *. rewrite map_length, seq_length in H. rewrite H.
    cbn [v_cfg y_root y_init]. rewrite Nat.eqb_refl. clear. generalize 0. induction (v_rounds x) as [|k IH]; intros i; cbn; [reflexivity|].
    f_equal. apply IH.
  - cbn in H. rewrite <- H. reflexivity.
Qed.

(** The domains of the two threads and the root of the broadcasts. *)
Lemma two_domains : forall s a b, vinfo node (v_reg s) a b -> node 0 <> node 1 ->
  v_domains s = 2 /\ v_dom s 0 = v_tid s 0 /\ v_dom s 1 = v_tid s 1.
Proof.
  intros s a b [AB A B D] N. unfold v_domains, v_dom, v_tid. rewrite D.
  destruct AB as [[-> ->]|[-> ->]]; rewrite ?A, ?B; cbn;
    rewrite ?(Nat.eqb_sym (node 1) (node 0)); destruct (Nat.eqb_spec (node 0) (node 1)); try congruence; auto.
Qed.

Lemma one_domain : forall s a b, vinfo node (v_reg s) a b -> node 0 = node 1 ->
  v_domains s = 1 /\ v_dom s 0 = 0 /\ v_dom s 1 = 0.
Proof.
  intros s a b [AB A B D] N. unfold v_domains, v_dom. rewrite D.
  destruct AB as [[-> ->]|[-> ->]]; rewrite ?A, ?B; cbn; rewrite ?N, ?Nat.eqb_refl; auto.
Qed.

Lemma tids : forall s a b, vinfo node (v_reg s) a b -> v_tid s 0 = 0 /\ v_tid s 1 = 1 \/ v_tid s 0 = 1 /\ v_tid s 1 = 0.
Proof. intros s a b [AB A B D]. unfold v_tid. destruct AB as [[-> ->]|[-> ->]]; rewrite A, B; cbn; auto. Qed.

Theorem names_agree : forall s t, vstate s -> t < 2 -> v_registered s t = true -> v_part s t = true ->
  v_names x s t = v_names x s 0.
Proof.
  intros s t S T R P. pose proof (vstate_inv s S) as [E _].
  destruct (vready_info node (v_reg s) E (registered_ready s t E T R)) as (a & b & I).
  unfold v_names. destruct x; try reflexivity. destruct t as [|[|t]]; [reflexivity| |lia]. cbn [Nat.eqb].
  destruct (Nat.eq_dec (node 0) (node 1)) as [e|e].
  - destruct (one_domain s a b I e) as (D & _ & _). unfold v_part in P. rewrite D in P. discriminate.
  - destruct (two_domains s a b I e) as (D & -> & ->). destruct (tids s a b I) as [[-> ->]|[-> ->]]; reflexivity.
Qed.

(** Which test is successful when. *)
Theorem numa_tests_ok : forall s, vstate s -> ptr <> 0%Z -> v_done x s 0 = true -> v_done x s 1 = true ->
  (v_ok x s = true <->
   match x with
   | VRegister => v_tid s 0 = 0
   | VAllocate => node 0 = node 1 \/ v_tid s 0 = 0
   | _ => True
   end).
Proof.
  intros s S P D0 D1. destruct (done_info s 0 S ltac:(lia) D0) as (a & b & I).
  pose proof (outs s 0 S ltac:(lia) D0 eq_refl) as O0. pose proof (outs s 1 S ltac:(lia) D1) as O1.
  pose proof (tids s a b I) as T. apply Z.eqb_neq in P.
  destruct (Nat.eq_dec (node 0) (node 1)) as [e|e].
  - destruct (one_domain s a b I e) as (D & E0 & E1). unfold v_ok. rewrite D. cbn [Nat.eqb].
    unfold v_slice. rewrite O0, E0. destruct x; cbn; rewrite ?P; cbn.
    + destruct I as [AB A B _]. unfold v_master, v_tid in *.
      destruct AB as [[-> ->]|[-> ->]]; rewrite A, B in *; cbn; rewrite ?e, ?Nat.eqb_refl; cbn; intuition congruence.
    + tauto.
    + tauto.
    + unfold nslice. cbn. rewrite Z.add_0_r, P. cbn. tauto.
  - destruct (two_domains s a b I e) as (D & E0 & E1). unfold v_part in O1. rewrite D in O1. specialize (O1 eq_refl).
    unfold v_ok. rewrite D. cbn [Nat.eqb]. unfold v_slice. rewrite O0, O1, E0, E1. destruct x; cbn; rewrite ?P, ?Z.eqb_refl; cbn.
    + destruct I as [AB A B _]. unfold v_master, v_tid in *.
      destruct AB as [[-> ->]|[-> ->]]; rewrite A, B in *; cbn;
      rewrite ?(Nat.eqb_sym (node 1) (node 0)); destruct (Nat.eqb_spec (node 0) (node 1)); try congruence; cbn; intuition congruence.
    + tauto.
    + tauto.
    + unfold nslice. destruct T as [[-> ->]|[-> ->]].
      * split; [auto|]. intros _. apply Z.eqb_eq. cbn. lia.
      * split; [|intros [|]; congruence]. intros X. apply Z.eqb_eq in X. cbn in X. lia.
Qed.

(** Never undefined. *)
Theorem numa_tests_defined : forall l, v_run x node ptr junk v_init l <> Some Ub.
Proof.
  intros l. generalize vinv_init. generalize v_init as s. induction l as [|t l IH]; intros s I E; cbn in E; [discriminate|].
  destruct (v_step x node ptr junk s t) as [[s1|]|] eqn:Q; try discriminate.
  - apply (IH s1); [|exact E]. eapply vinv_step; eauto.
  - clear E IH. destruct I as [R C]. unfold v_step in Q. destruct (Nat.ltb_spec t 2) as [T|]; [|discriminate].
    destruct (v_registered s t) eqn:Rg.
    + destruct (v_part s t); [|discriminate]. cbn zeta in Q.
      destruct (vready_info node (v_reg s) R (registered_ready s t R T Rg)) as (a & b & I).
      assert (Y : ystate (v_cfg x ptr junk s) match v_comm s with Some y => y | None => yinit (v_cfg x ptr junk s) end).
      { destruct (v_comm s) as [y|]; [apply (C y eq_refl)|exists []; reflexivity]. }
      pose proof (ystep_defined _ _ (YStep (v_dom s t)) (vcfg_wf s a b I) eq_refl Y) as D.
      destruct (ystep _ _ _) as [[?|]|]; try discriminate. apply D. reflexivity.
    + assert (Y : ystate v_regcfg (ns_sync (v_reg s))).
      { destruct R as [k R]. exists k. apply (nrun_sync v_regcfg true node k _ _ R). }
      pose proof (ystep_defined _ _ (YStep t) regcfg_wf eq_refl Y) as D.
      unfold nstep in Q. destruct (ystep _ _ _) as [[?|]|]; [|apply D; reflexivity|discriminate].
      destruct (y_pc _); try discriminate. destruct (y_round _); try discriminate. destruct (nregister _ _ _ _ _); discriminate.
Qed.

(** Not stuck. *)
Theorem numa_tests_progress : forall s, vstate s -> (exists t, t < 2 /\ v_done x s t = false) ->
  exists t s', v_step x node ptr junk s t = Some (Ok s').
Proof.
  intros s S (t0 & T0 & ND). pose proof (vstate_inv s S) as [R C].
  assert (YR : ystate v_regcfg (ns_sync (v_reg s))).
  { destruct R as [k R]. exists k. apply (nrun_sync v_regcfg true node k _ _ R). }
  destruct (ystate_inv v_regcfg regcfg_wf eq_refl _ YR) as [K IK].
  assert (G : forall t, t < 2 -> v_registered s t = false -> exists t s', v_step x node ptr junk s t = Some (Ok s')).
  { intros t T Rg.
    assert (NF : ~ finished v_regcfg (ns_sync (v_reg s)) t).
    { intros [F _]. unfold v_registered in Rg. rewrite F in Rg. discriminate. }
    destruct (sync_progress v_regcfg regcfg_wf eq_refl _ YR (ex_intro _ t (conj T NF))) as (a & y & Y).
    destruct a as [u|u].
    2:{ unfold ystep, ystep_spur in Y. cbn [y_spurious v_regcfg] in Y. destruct (u <? _); discriminate. }
    assert (U : u < 2). { unfold ystep in Y. destruct (Nat.ltb_spec u (y_n v_regcfg)); [assumption|discriminate]. }
    assert (Ru : v_registered s u = false).
    { destruct (v_registered s u) eqn:X; [|reflexivity]. exfalso. unfold v_registered in X. apply Nat.ltb_lt in X.
      pose proof (to_rounds _ _ _ _ _ (yi_thr _ _ _ IK u U)) as [B1 B2]. cbn [y_rounds v_regcfg] in B1, B2.
      unfold ystep in Y. destruct (u <? _); [|discriminate]. unfold ystep_thr in Y. cbn zeta in Y.
      destruct (y_pc (y_thr (ns_sync (v_reg s)) u)) eqn:Pc; try (specialize (B2 ltac:(discriminate)); lia).
      destruct (Nat.ltb_spec (y_round (y_thr (ns_sync (v_reg s)) u)) (y_rounds v_regcfg)) as [L|L]; [cbn in L; lia|discriminate]. }
    exists u. unfold v_step. rewrite (proj2 (Nat.ltb_lt u 2) U), Ru. unfold nstep. rewrite Y.
    destruct (y_pc _); eauto. destruct (y_round _); eauto. destruct (nregister _ _ _ _ _); eauto. }
  destruct (v_registered s 0) eqn:R0; [|apply (G 0); auto].
  destruct (v_registered s 1) eqn:R1; [|apply (G 1); auto]. clear G YR IK.
  destruct (vready_info node (v_reg s) R (registered_ready s 0 R ltac:(lia) R0)) as (a & b & I).
  set (y := match v_comm s with Some y => y | None => yinit (v_cfg x ptr junk s) end).
  assert (Y : ystate (v_cfg x ptr junk s) y).
  { subst y. destruct (v_comm s) as [y|]; [apply (C y eq_refl)|exists []; reflexivity]. }
  assert (Rt : v_registered s t0 = true) by (destruct t0 as [|[|]]; auto; lia).
  unfold v_done in ND. rewrite Rt in ND. cbn in ND. apply Bool.orb_false_iff in ND as [Pt ND].
  apply Bool.negb_false_iff in Pt. apply Nat.eqb_neq in ND.
  assert (Dl : v_dom s t0 < v_domains s) by (apply (dom_lt s a b); auto).
  assert (NF : ~ finished (v_cfg x ptr junk s) y (v_dom s t0)).
  { intros [F _]. apply ND. pose proof (sync_values _ (vcfg_wf s a b I) eq_refl y (v_dom s t0) Y Dl) as V.
    apply (f_equal (@length Z)) in V. rewrite !map_length, seq_length, F in V. cbn [y_rounds v_cfg] in V.
    unfold v_outs. subst y. destruct (v_comm s); [rewrite map_length; exact V|exact V]. }
  destruct (sync_progress _ (vcfg_wf s a b I) eq_refl y Y (ex_intro _ _ (conj Dl NF))) as (act & y' & Ys).
  destruct act as [d|d].
  2:{ unfold ystep, ystep_spur in Ys. cbn [y_spurious v_cfg] in Ys. destruct (d <? _); discriminate. }
  assert (Hd : d < v_domains s). { unfold ystep in Ys. destruct (Nat.ltb_spec d (y_n (v_cfg x ptr junk s))); [assumption|discriminate]. }
  assert (W : exists t, t < 2 /\ v_part s t = true /\ v_dom s t = d).
  { destruct (Nat.eq_dec (node 0) (node 1)) as [e|e].
    - destruct (one_domain s a b I e) as (D & E0 & E1). exists 0. split; [lia|]. split; [reflexivity|]. lia.
    - destruct (two_domains s a b I e) as (D & E0 & E1). rewrite D in Hd.
      destruct (tids s a b I) as [[A B]|[A B]]; rewrite A in E0; rewrite B in E1;
        (destruct d as [|[|]]; [| |lia]); [exists 0|exists 1|exists 1|exists 0];
        unfold v_part; rewrite D; auto. }
  destruct W as (t & T & Pa & Ed). exists t. unfold v_step. rewrite (proj2 (Nat.ltb_lt t 2) T).
  assert (Rg : v_registered s t = true) by (destruct t as [|[|]]; auto; lia). rewrite Rg, Pa. cbn zeta.
  subst d. unfold y in Ys. rewrite Ys. eauto.
Qed.

(** Every schedule is finite. *)
Definition vcount (k : nat) (s : vst) : Prop :=
  exists l1 l2, k = length l1 + length l2 /\ nrun v_regcfg true node (nsys_init v_regcfg) l1 = Some (Ok (v_reg s)) /\
    match v_comm s with
    | None => l2 = []
    | Some y => yrun (v_cfg x ptr junk s) (yinit (v_cfg x ptr junk s)) l2 = Some (Ok y)
    end.

Lemma nrun_snoc : forall {V} (c : ycfg V) detect node l s a s1 s2, nrun c detect node s l = Some (Ok s1) ->
  nstep c detect node s1 a = Some (Ok s2) -> nrun c detect node s (l ++ [a]) = Some (Ok s2).
Proof.
  intros V c detect nd l. induction l as [|b l IH]; intros s a s1 s2 H E; cbn in *.
  - injection H as ->. rewrite E. reflexivity.
  - destruct (nstep c detect nd s b) as [[s'|]|]; try discriminate. eapply IH; eauto.
Qed.

Lemma vcount_step : forall k s t s', vinv s -> vcount k s -> v_step x node ptr junk s t = Some (Ok s') -> vcount (S k) s'.
Proof.
  intros k s t s' [R C] (l1 & l2 & E & N & Y) H. unfold v_step in H. destruct (Nat.ltb_spec t 2) as [T|]; [|discriminate].
  destruct (v_registered s t) eqn:Q.
  - destruct (v_part s t); [|discriminate]. cbn zeta in H.
    destruct (ystep _ _ _) as [[y'|]|] eqn:Ys; try discriminate. injection H as <-.
    exists l1, (l2 ++ [YStep (v_dom s t)]). rewrite app_length. cbn [length v_reg v_comm]. split; [lia|]. split; [exact N|].
    change (v_cfg x ptr junk {| v_reg := v_reg s; v_comm := Some y' |}) with (v_cfg x ptr junk s).
    destruct (v_comm s) as [y|].
    + rewrite (yrun_app _ _ _ _ _ Y). cbn [yrun]. rewrite Ys. reflexivity.
    + subst l2. cbn [yrun app]. rewrite Ys. reflexivity.
  - destruct (nstep _ _ _ _ _) as [[n|]|] eqn:Ns; try discriminate. injection H as <-.
    exists (l1 ++ [YStep t]), l2. rewrite app_length. cbn. split; [lia|]. split; [eapply nrun_snoc; eauto|].
    destruct (v_comm s) as [y|]; [|exact Y]. destruct (C y eq_refl) as [Rd _].
    destruct (nready_step node _ _ _ Rd Ns) as (_ & E1 & E2). rewrite (cfg_eq s); [exact Y|exact E1|exact E2].
Qed.

Theorem numa_tests_finite : forall l s, v_run x node ptr junk v_init l = Some (Ok s) -> length l <= 72.
Proof.
  intros l s H.
  assert (G : forall l k s0, vinv s0 -> vcount k s0 -> v_run x node ptr junk s0 l = Some (Ok s) -> vinv s /\ vcount (k + length l) s).
  { clear. induction l as [|t l IH]; intros k s0 I V H; cbn in H.
    - injection H as <-. rewrite Nat.add_0_r. auto.
    - destruct (v_step x node ptr junk s0 t) as [[s1|]|] eqn:E; try discriminate. cbn [length]. rewrite <- Nat.add_succ_comm.
      apply (IH (S k) s1); auto; [eapply vinv_step; eauto|eapply vcount_step; eauto]. }
  assert (V0 : vcount 0 v_init) by (exists [], []; split; [reflexivity|split; reflexivity]).
  destruct (G l 0 v_init vinv_init V0 H) as [[R C] (l1 & l2 & E & N & Y)].
  cbn in E. rewrite E.
  assert (L1 : length l1 <= 24).
  { apply (sync_terminates v_regcfg regcfg_wf eq_refl l1 (ns_sync (v_reg s))). apply (nrun_sync v_regcfg true node _ _ _ N). }
  assert (L2 : length l2 <= 48); [|lia].
  destruct (v_comm s) as [y|]; [|subst; cbn; lia]. destruct (C y eq_refl) as [Rd _].
  destruct (vready_info node (v_reg s) R Rd) as (a & b & I).
  pose proof (sync_terminates _ (vcfg_wf s a b I) eq_refl l2 y Y) as T. cbn [y_n y_rounds v_cfg] in T.
  assert (v_domains s <= 2) by (unfold v_domains; rewrite (vi_d _ _ _ _ I); destruct (_ =? _); lia).
  assert (v_rounds x <= 2) by (destruct x; cbn; lia). nia.
Qed.
End Tests.

Theorem numa_tests_all : forall x node ptr junk l s, ptr <> 0%Z ->
  v_run x node ptr junk v_init l = Some (Ok s) -> v_done x s 0 = true -> v_done x s 1 = true ->
  (v_ok x s = true <->
   match x with
   | VRegister => v_tid s 0 = 0
   | VAllocate => node 0 = node 1 \/ v_tid s 0 = 0
   | VCreate | VBroadcast => True
   end) /\
  (v_tid s 0 = 0 /\ v_tid s 1 = 1 \/ v_tid s 0 = 1 /\ v_tid s 1 = 0).
Proof.
  intros x node ptr junk l s P H D0 D1. assert (V : vstate x node ptr junk s) by (exists l; exact H). split.
  - pose proof (numa_tests_ok x node ptr junk s V P D0 D1) as G. destruct x; exact G.
  - destruct (done_info x node ptr junk s 0 V ltac:(lia) D0) as (a & b & I). apply (tids node s a b I).
Qed.

Theorem numa_tests_end : forall x node ptr junk l,
  v_run x node ptr junk v_init l <> Some Ub /\
  forall s, v_run x node ptr junk v_init l = Some (Ok s) ->
    length l <= 72 /\
    (forall t, t < 2 -> v_registered s t = true -> v_part s t = true -> v_names x s t = v_names x s 0) /\
    ((exists t, t < 2 /\ v_done x s t = false) -> exists t s', v_step x node ptr junk s t = Some (Ok s')).
Proof.
  intros x node ptr junk l. split; [apply numa_tests_defined|]. intros s H.
  assert (V : vstate x node ptr junk s) by (exists l; exact H).
  split; [eapply numa_tests_finite; eauto|]. split; [|apply numa_tests_progress; exact V].
  intros t T R P. eapply names_agree; eauto.
Qed.

(** The second thread registers first. *)
Definition v_bad (x : vtest) (node : nat -> nat) (l : list nat) : bool :=
  match v_run x node 7 (fun _ _ => 0%Z) v_init l with
  | Some (Ok s) => (v_done x s 0 && v_done x s 1 && negb (v_ok x s))%bool
  | _ => false
  end.
Lemma v_bad_spec : forall x node l, v_bad x node l = true -> exists l s,
  v_run x node 7 (fun _ _ => 0%Z) v_init l = Some (Ok s) /\ v_done x s 0 = true /\ v_done x s 1 = true /\ v_ok x s = false.
Proof.
  intros x node l H. unfold v_bad in H. destruct (v_run _ _ _ _ _ l) as [[s|]|] eqn:E; try discriminate.
  apply andb_prop in H as [H A]. apply andb_prop in H as [B C]. exists l, s. apply Bool.negb_true_iff in A. auto.
Qed.

Theorem numa_register_fails : exists l s,
  v_run VRegister (fun _ => 0) 7 (fun _ _ => 0%Z) v_init l = Some (Ok s) /\
  v_done VRegister s 0 = true /\ v_done VRegister s 1 = true /\ v_ok VRegister s = false.
Proof.
  apply (v_bad_spec VRegister (fun _ => 0) [1; 1; 0; 0; 0; 0; 0; 0; 1; 1; 1; 1; 1]). vm_compute. reflexivity.
Qed.
Theorem numa_allocate_fails : exists l s,
  v_run VAllocate (fun t => t) 7 (fun _ _ => 0%Z) v_init l = Some (Ok s) /\
  v_done VAllocate s 0 = true /\ v_done VAllocate s 1 = true /\ v_ok VAllocate s = false.
Proof.
  apply (v_bad_spec VAllocate (fun t => t) [1; 1; 0; 0; 0; 0; 0; 0; 1; 1; 1; 1; 1; 1; 1; 0; 0; 0; 0; 0; 0; 1; 1; 1; 1; 1]).
  vm_compute. reflexivity.
Qed.
