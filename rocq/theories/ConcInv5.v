(** * Concurrent caches: steps of the communication threads, all steps *)
From Verif Require Export ConcInv4.

Section Conc.
Context {V : Type} (c : cfg V).
Local Notation n := (cf_size c).
Local Notation D := (cf_doms c).
Local Notation K := (cf_cells c).
Local Notation P := (cf_ranks c).
Hypothesis Hwf : wf_cfg c.

Ltac eqs :=
  repeat match goal with
  | E : (_ <? _) = true |- _ => apply Nat.ltb_lt in E
  | E : (_ <? _) = false |- _ => apply Nat.ltb_ge in E
  | E : (_ =? _) = false |- _ => apply Nat.eqb_neq in E
  | E : (_ =? _) = true |- _ => apply Nat.eqb_eq in E
  end.

Lemma frame_com s r ch s' : step_com c s r ch = Some s' ->
  s_thr s' = s_thr s /\ s_list s' = s_list s /\ s_data s' = s_data s /\
  (forall r', r' <> r -> s_com s' r' = s_com s r') /\
  s_lock s' (LBlk r) = s_lock s (LBlk r).
Proof.
  intros H. repeat split; try (open_step H; repeat break; reflexivity).
  intros r' Hne. open_step H; repeat break; proj; now rewrite ?upd_ne by auto.
Qed.

Lemma locks_msg_com s r ch s' : step_com c s r ch = Some s' ->
  forall q, s_lock s' (LBlk q) = s_lock s (LBlk q) /\ s_lock s' (LInfo q) = s_lock s (LInfo q).
Proof. intros H q. open_step H. repeat break; split; reflexivity. Qed.

Lemma exp_com s r ch s' : step_com c s r ch = Some s' ->
  forall src dst, blk_expected s' src dst = blk_expected s src dst /\ info_expected c s' src dst = info_expected c s src dst.
Proof.
  intros H src dst. unfold blk_expected, info_expected.
  destruct (locks_msg_com _ _ _ _ H src) as [-> ->]. destruct (frame_com _ _ _ _ H) as (-> & _). auto.
Qed.

Lemma com_data_com s r ch s' : inv1 c s -> inv2 c s -> step_com c s r ch = Some s' ->
  forall q, com_data c s' q (s_com s' q).
Proof.
  intros Hi Hj H q. destruct (frame_com _ _ _ _ H) as (Ht & El & Ed & Ho & _).
  assert (forall r d i, phys s' r d i = phys s r d i) as Hph by (intros; eapply phys_com; eauto).
  assert (forall r d i, i2b s' r d i = i2b s r d i) as Hib by (intros; unfold i2b; now rewrite El).
  destruct (Nat.eq_dec q r) as [->|Hne].
  - pose proof (j_com c s Hj r) as Hc. pose proof (i_com c s Hi r) as Hw.
    pose proof (fun k => held_ccm c s r k Hi) as Hcm.
    pose proof (fun k j => held_cfor c s r k j Hi) as Hcf.
    pose proof (i_list c s Hi) as Hli.
    pose proof (j_good c s Hj r) as Hg.
    pose proof (inv1_com c s r ch s' Hi H) as Hi'.
    pose proof (fun k => held_ccm c s' r k Hi') as Hcm2.
    assert (forall k, com_cm (s_com s' r) = Some k -> forall i, phys s' r k i = i2b s' r k i) as Hpi.
    { intros k E i. unfold phys. now rewrite (Hcm2 k E). }
    clear Hcm2 Hi'.
    destruct (s_com s r) eqn:Ec; open_step H; rewrite Ec in H; cbn in Hc, Hw, Hcm, Hcf.
    all: repeat break; proj; rewrite ?upd_eq in *; rewrite ?Ec; cbn [com_data com_cm] in *; auto.
    all: eqs.
    + rewrite Hib. unfold i2b. match goal with E : clist_peek _ _ = Some _ |- _ =>
        apply (peek_inv c) in E; [|apply Hi]; destruct E as [_ E]; rewrite E end. reflexivity.
    + rewrite (Hpi _ eq_refl), Hib. auto.
    + rewrite Hph. split; auto. intros z Hz. lia.
    + rewrite Hph. destruct Hc as [Hc1 Hc2]. split; auto.
      intros z Hz HzK. unfold upd. destruct (Nat.eqb_spec z c0) as [->|].
      * apply (Hg k j b); auto; [tauto|]. unfold view. rewrite (Hcf _ _ eq_refl). auto.
      * apply Hc2; lia.
  - rewrite Ho by auto. pose proof (j_com c s Hj q) as Hc.
    destruct (s_com s q); cbn in *; auto.
    + rewrite Hib; auto.
    + rewrite Hph; auto.
    + rewrite Hph; auto.
Qed.

Lemma dict_com_same s r ch s' : cf_mode c = MThread -> step_com c s r ch = Some s' -> dict_ok c s'.
Proof. intros Hm _ Hm'. congruence. Qed.

Lemma bufs_com s r ch s' : inv2 c s -> step_com c s r ch = Some s' -> bufs_ok c s'.
Proof.
  intros Hj H r' q. pose proof (j_bufs c s Hj) as Hb. pose proof (j_com c s Hj r) as Hc.
  destruct (s_com s r) eqn:Ec; open_step H; rewrite Ec in H; cbn in Hc.
  all: repeat break; proj; auto; try apply Hb.
  all: match goal with |- context [updp ?f ?i ?j ?a ?r ?q] =>
    destruct (updp_cases f i j a r q) as [(-> & -> & ->)|(_ & ->)] end; [|apply Hb].
  all: apply Forall_app; split; [apply Hb|]; constructor; [|constructor]; cbn [fst snd]; intros buf' E; try discriminate.
  injection E as <-. eqs. intros z Hz. apply Hc; lia.
Qed.

Lemma blk_com s r ch s' : inv1 c s -> inv2 c s -> step_com c s r ch = Some s' ->
  forall src dst, blk_tokens s' src dst = blk_expected s' src dst.
Proof.
  intros Hi Hj H src dst. destruct (exp_com _ _ _ _ H src dst) as [-> _].
  pose proof (j_blk c s Hj src dst) as Hb. rewrite <- Hb.
  assert (length (blk_tokens s src dst) <= 1) as Hlen.
  { rewrite Hb. unfold blk_expected. destruct (s_lock s (LBlk src)) as [[t|]|]; cbn; auto.
    destruct (t_pc (s_thr s t)); cbn; auto. destruct (_ =? _); cbn; auto. }
  clear Hb.
  destruct (frame_com _ _ _ _ H) as (_ & _ & _ & Ho & _).
  unfold blk_tokens, serving in *.
  destruct (Nat.eq_dec dst r) as [->|Hne].
  - destruct (s_com s r) eqn:Ec; open_step H; rewrite Ec in H; cbn [busy] in Hlen.
    all: repeat break; proj; rewrite ?upd_eq in *; rewrite ?Ec; cbn [busy] in *; auto.
    + destruct (updp_cases (s_breq s) (ch_src ch) r l src r) as [(-> & _ & ->)|(Hne & ->)].
      * rewrite Nat.eqb_refl. match goal with E : s_breq _ _ _ = _ |- _ => rewrite E in * end.
        rewrite !app_length in Hlen. cbn in Hlen. destruct l; [|cbn in Hlen; lia]. cbn.
        destruct (s_brep s (ch_src ch) r); [|cbn in Hlen; lia]. reflexivity.
      * destruct (Nat.eqb_spec (ch_src ch) src); [exfalso; subst; tauto|]. reflexivity.
    + rename src0 into q.
      destruct (updp_cases (s_brep s) q r (s_brep s q r ++ [(b, None)]) src r) as [(-> & _ & ->)|(Hne & ->)].
      * rewrite Nat.eqb_refl in *. rewrite map_app. cbn. rewrite !app_length in Hlen. cbn in Hlen. rewrite ?map_length in Hlen.
        destruct (s_breq s q r); [|cbn in Hlen; lia]. destruct (s_brep s q r); [|cbn in Hlen; lia]. reflexivity.
      * destruct (Nat.eqb_spec q src); [exfalso; subst; tauto|]. reflexivity.
    + rename src0 into q.
      destruct (updp_cases (s_brep s) q r (s_brep s q r ++ [(b, Some buf)]) src r) as [(-> & _ & ->)|(Hne & ->)].
      * rewrite Nat.eqb_refl in *. rewrite map_app. cbn. rewrite !app_length in Hlen. cbn in Hlen. rewrite ?map_length in Hlen.
        destruct (s_breq s q r); [|cbn in Hlen; lia]. destruct (s_brep s q r); [|cbn in Hlen; lia]. reflexivity.
      * destruct (Nat.eqb_spec q src); [exfalso; subst; tauto|]. reflexivity.
  - rewrite Ho by auto.
    assert (s_breq s' src dst = s_breq s src dst /\ s_brep s' src dst = s_brep s src dst) as [-> ->]; auto.
    clear - H Hne. open_step H. repeat break; proj; split; auto; now rewrite updp_ne by auto.
Qed.

Lemma info_com s r ch s' : inv1 c s -> inv2 c s -> step_com c s r ch = Some s' ->
  forall src dst, info_tokens s' src dst = info_expected c s' src dst.
Proof.
  intros Hi Hj H src dst. destruct (exp_com _ _ _ _ H src dst) as [_ ->].
  pose proof (j_info c s Hj src dst) as Hb. rewrite <- Hb.
  assert (length (info_tokens s src dst) <= 1) as Hlen.
  { rewrite Hb. unfold info_expected. destruct (s_lock s (LInfo src)) as [[t|]|]; cbn; auto.
    destruct (t_pc (s_thr s t)); cbn; auto. destruct (_ =? _); cbn; auto. }
  clear Hb. unfold info_tokens in *.
  open_step H. repeat break; proj; auto.
  match goal with |- context [updp ?f ?i ?j ?a src dst] =>
    destruct (updp_cases f i j a src dst) as [(-> & -> & ->)|(Hne & ->)] end.
  - rewrite updp_eq, map_app. match goal with E : s_ireq _ _ _ = _ |- _ => rewrite E in * end.
    rewrite !app_length in Hlen. cbn in Hlen. destruct l; [|cbn in Hlen; lia]. cbn.
    destruct (s_irep s (ch_src ch) r); [|cbn in Hlen; lia]. reflexivity.
  - rewrite updp_ne by auto. reflexivity.
Qed.

Lemma inv2_com s r ch s' : cf_mode c = MThread -> inv1 c s -> inv2 c s -> step_com c s r ch = Some s' -> inv2 c s'.
Proof.
  intros Hm Hi Hj H. destruct (frame_com _ _ _ _ H) as (Ht & El & Ed & Ho & _).
  assert (forall r d i, phys s' r d i = phys s r d i) as Hph by (intros; eapply phys_com; eauto).
  assert (forall r d i, i2b s' r d i = i2b s r d i) as Hib by (intros; unfold i2b; now rewrite El).
  assert (forall f r d i, view c f s' r d i = view c f s r d i) as Hv by (intros; eapply view_com; eauto).
  constructor.
  - intros t. rewrite Ht. destruct (j_thr c s Hj t) as (H1 & H2 & H3 & H4).
    split; [|split; [|split]]; auto.
    + intros. rewrite Hph. auto.
    + intros. rewrite Hph. auto.
    + rewrite Ed. destruct (t_pc (s_thr s t)); auto; rewrite Hib; auto.
  - eapply com_data_com; eauto.
  - intros r' d i b Hin E. rewrite Hv in E. unfold good. rewrite Ed. apply (j_good c s Hj r' d i b Hin E).
  - intros t i e y E. rewrite Ht in E |- *. cbn zeta. rewrite !Hv. apply (j_xfer c s Hj t i e y E).
  - intros Hm'. congruence.
  - eapply bufs_com; eauto.
  - eapply blk_com; eauto.
  - eapply info_com; eauto.
Qed.

Lemma inv2_init l0 : (forall i, i < n -> m_at (c_i2b l0) i = Some None) -> inv2 c (init c l0).
Proof.
  intros Hl. constructor; cbn.
  - intros t. unfold thr_data. cbn. repeat split; try discriminate. constructor.
  - intros r. exact I.
  - intros r d i b Hin E. unfold view in E. cbn in E. unfold phys, i2b in E. cbn in E. rewrite Hl in E by auto. discriminate.
  - intros t i e y E. cbn in E. discriminate.
  - intros Hm b. exists []. cbn. rewrite (wc_dict_win c Hwf Hm b). cbn. split; auto. split; [constructor|]. intros ? [].
  - intros r q. constructor.
  - intros. reflexivity.
  - intros. reflexivity.
Qed.

(** ** All reachable states *)
Definition inv (s : st V) : Prop := inv1 c s /\ inv2 c s.

Lemma inv_step s a s' : inv s -> step c s a = Some s' -> inv s'.
Proof.
  intros [Hi Hj] H. split; [eapply inv1_step; eauto|]. destruct a; cbn in H.
  - eapply inv2_thr; eauto.
  - destruct (cf_mode c) eqn:Em; try discriminate. destruct (r <? P); try discriminate. eapply inv2_com; eauto.
Qed.

Lemma inv_run acts : forall s s', inv s -> run c s acts = Some s' -> inv s'.
Proof.
  induction acts as [|a acts IH]; cbn; intros s s' Hi H; [congruence|].
  destruct (step c s a) eqn:E; [|discriminate]. apply (IH s0); auto. apply (inv_step s a s0); auto.
Qed.

(** A state of an execution. *)
Definition reachable (s : st V) : Prop :=
  exists l0 acts, clist_init n (cf_spread c) = Ok l0 /\ run c (init c l0) acts = Some s.

Lemma reach_inv s : reachable s -> inv s.
Proof.
  intros (l0 & acts & E & H). destruct (inv1_init c Hwf) as (l1 & E1 & Hi & Hb).
  assert (l0 = l1) by congruence. subst l1. eapply inv_run; [|exact H]. split; auto. apply inv2_init; auto.
Qed.

Lemma reach_init : exists s, reachable s.
Proof. destruct (inv1_init c Hwf) as (l1 & E1 & Hi & Hb). exists (init c l1), l1, []. auto. Qed.

Lemma reach_step s a s' : reachable s -> step c s a = Some s' -> reachable s'.
Proof.
  intros (l0 & acts & E & H) Hs. exists l0, (acts ++ [a]). split; auto.
  clear E. revert H. generalize (init c l0). induction acts; cbn; intros s0 H.
  - injection H as ->. now rewrite Hs.
  - destruct (step c s0 a0); [|discriminate]. auto.
Qed.

End Conc.
