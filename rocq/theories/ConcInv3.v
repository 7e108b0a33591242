(** * Concurrent caches: preservation of the contents by thread steps *)
From Verif Require Export ConcInv2.

Section Conc.
Context {V : Type} (c : cfg V).
Local Notation n := (cf_size c).
Local Notation D := (cf_doms c).
Local Notation K := (cf_cells c).
Local Notation P := (cf_ranks c).
Hypothesis Hwf : wf_cfg c.

Ltac eqs :=
  repeat match goal with
  | E : (_ <? _) = true |- _ => apply Nat.ltb_lt in E
  | E : (_ <? _) = false |- _ => apply Nat.ltb_ge in E
  | E : (_ =? _) = false |- _ => apply Nat.eqb_neq in E
  | E : (_ =? _) = true |- _ => apply Nat.eqb_eq in E
  end.

(** ** Locations *)
Lemma slot_div d i : i < n -> node_off c d i / n = d.
Proof. intros. unfold node_off. rewrite Nat.mul_comm, Nat.div_add by lia. rewrite Nat.div_small; lia. Qed.
Lemma slot_mod d i : i < n -> node_off c d i mod n = i.
Proof. intros. unfold node_off. rewrite Nat.mul_comm, Nat.mod_add by lia. apply Nat.mod_small; lia. Qed.

Definition e_rank (e : nat) := e / (n * D).
Definition e_dom (e : nat) := e mod (n * D) / n.
Definition e_slot (e : nat) := e mod (n * D) mod n.

Lemma e_slot_lt e : e_slot e < n.
Proof. apply Nat.mod_upper_bound. pose proof (wc_n c Hwf). lia. Qed.

Lemma e_off e : node_off c (e_dom e) (e_slot e) = e mod (n * D).
Proof.
  unfold node_off, e_dom, e_slot. pose proof (wc_n c Hwf).
  pose proof (Nat.div_mod (e mod (n * D)) n). lia.
Qed.

Lemma e_loc e : D <> 0 -> loc c (e_rank e) (node_off c (e_dom e) (e_slot e)) = e.
Proof.
  intros HD. rewrite e_off. unfold loc, e_rank. pose proof (wc_n c Hwf).
  assert (n * D <> 0) by (intros E; apply Nat.eq_mul_0 in E; lia).
  pose proof (Nat.div_mod e (n * D)). lia.
Qed.

Lemma loc_e r d i : i < n -> d < D ->
  let e := loc c r (node_off c d i) in e_rank e = r /\ e_dom e = d /\ e_slot e = i.
Proof.
  intros Hi Hd. pose proof (node_off_lt c d i Hi Hd). unfold e_rank, e_dom, e_slot. cbn zeta.
  rewrite loc_div, loc_mod by auto. rewrite slot_div, slot_mod by auto. auto.
Qed.

Definition eview f (s : st V) e := view c f s (e_rank e) (e_dom e) (e_slot e).

Lemma d_pos : D <> 0.
Proof. pose proof (wc_dom c Hwf 0). lia. Qed.

(** ** Contents of the slots *)
Lemma odec (o1 o2 : option nat) : o1 = o2 \/ o1 <> o2.
Proof. destruct o1 as [x|], o2 as [y|]; try (right; congruence); auto. destruct (Nat.eq_dec x y); [left|right]; congruence. Qed.

Lemma option_eq_dec_pair (o : option (nat * nat)) p : o = Some p \/ o <> Some p.
Proof. destruct o as [[a b]|], p as [a' b']; [|right; congruence]. destruct (Nat.eq_dec a a'), (Nat.eq_dec b b'); [left|right..]; congruence. Qed.

Lemma brep_head s t i dst b0 x q : inv1 c s -> inv2 c s ->
  t_pc (s_thr s t) = PWaitBlk i dst -> s_brep s (cf_rank c t) dst = (b0, x) :: q ->
  b0 = req (s_thr s t) /\ q = [] /\ s_breq s (cf_rank c t) dst = [] /\ serving s (cf_rank c t) dst = [].
Proof.
  intros Hi Hj Ep Eb.
  assert (s_lock s (LBlk (cf_rank c t)) = Some (Usr t)) as El by (eapply held_msg; eauto; rewrite Ep; reflexivity).
  pose proof (j_blk c s Hj (cf_rank c t) dst) as Hb. unfold blk_tokens, blk_expected in Hb.
  rewrite El, Ep, Nat.eqb_refl, Eb in Hb. cbn [map fst] in Hb.
  pose proof (f_equal (@length nat) Hb) as Hl. rewrite !app_length in Hl. cbn in Hl. rewrite map_length in Hl.
  destruct (s_breq s (cf_rank c t) dst); [|cbn in Hl; lia].
  destruct (serving s (cf_rank c t) dst); [|cbn in Hl; lia].
  destruct q; [|cbn in Hl; lia]. cbn in Hb. injection Hb as ->. auto.
Qed.

Lemma good_thr s t ch s' : inv1 c s -> inv2 c s -> step_thr c s t ch = Some s' ->
  forall r d i b, i < n -> view c pc_stb s' r d i = Some b -> good c s' r (node_off c d i) b.
Proof.
  intros Hi Hj H r d i b Hin Hv.
  pose proof (inv1_thr c Hwf s t ch s' Hi H) as Hi'.
  destruct (frame_thr c Hwf s t ch s' Hi H) as (_ & _ & _ & Hdata).
  destruct (Nat.eq_dec r (cf_rank c t)) as [->|Hr]; cycle 1.
  { rewrite (view_thr c Hwf _ s t ch s' Hi H) in Hv; auto; [|intros; tauto].
    eapply good_own; [|eapply (j_good c s Hj); eauto]. apply Hdata; auto. tauto. }
  destruct (Nat.eq_dec d (cf_dom c t)) as [->|Hd]; cycle 1.
  { rewrite (view_thr c Hwf _ s t ch s' Hi H) in Hv; auto; [|intros; tauto].
    eapply good_own; [|eapply (j_good c s Hj); eauto]. apply Hdata; auto. tauto. }
  destruct (odec (pc_own (t_pc (s_thr s' t))) (Some i)) as [Eo'|Eo'].
  - (* own slot afterwards *)
    rewrite (view_own c _ s' t i Hi' Eo') in Hv.
    destruct (own_before c pc_stb s t ch s' i Hi H Eo') as [Eo|(old & E1 & E2 & E3)]; cycle 1.
    { unfold pc_stb in Hv. rewrite E2 in Hv. subst old.
      eapply good_own; [|eapply (j_good c s Hj); eauto]. apply Hdata; auto. rewrite E1. cbn. intros (_ & _ & ?). discriminate. }
    assert (forall b, pc_stb (s_thr s t) = Some b -> good c s (cf_rank c t) (node_off c (cf_dom c t) i) b) as Hg.
    { intros b' E. eapply (j_good c s Hj); eauto. rewrite (view_own c _ s t i Hi Eo). auto. }
    pose proof (j_thr c s Hj t) as (_ & _ & Hpart & _).
    pose proof (brep_head s t) as Hbh.
    destruct (s_thr s t) as [p todo dn] eqn:Et.
    assert (exists d', s_data s' = d') as [d' Ed'] by eauto.
    clear Hdata Eo'. cbn [t_pc t_todo] in *. unfold pc_stb in Hg, Hv. cbn [t_pc] in Hg.
    open_step H. rewrite Et in H. cbn [t_pc t_todo t_done] in H.
    revert Hv. repeat break; intros Hv; proj; unfold good; proj; rewrite ?upd_eq in Hv; rewrite ?Et in Hv; cbn [t_pc req t_todo pc_own] in *; try discriminate.
    all: try (injection Hv as <-).
    all: eqs; subst.
    all: try injection Eo as ->.
    all: try exact (Hg _ eq_refl).
    + intros x Hx. apply Hpart; lia.
    + intros x Hx. apply Hpart; lia.
    + rewrite updp_eq. destruct (Hbh _ _ _ _ _ Hi Hj eq_refl ltac:(eassumption)) as (-> & _).
      intros x Hx. pose proof (j_bufs c s Hj (cf_rank c t) dst) as Hb.
      match goal with E : s_brep _ _ _ = _ |- _ => rewrite E in Hb end. inversion Hb as [|? ? Hb1 _]; subst. exact (Hb1 _ eq_refl x Hx).
    + rewrite updp_eq. auto.
  - destruct (odec (pc_own (t_pc (s_thr s t))) (Some i)) as [Eo|Eo].
    + (* released *)
      destruct (phys_thr c s t ch s' Hi H (cf_rank c t) (cf_dom c t) i Hin) as [Hph|(old & E1 & _)]; [|rewrite E1 in Eo; discriminate].
      pose proof (j_thr c s Hj t) as (Hp & _). specialize (Hp i Eo).
      assert (view c pc_stb s' (cf_rank c t) (cf_dom c t) i = phys s' (cf_rank c t) (cf_dom c t) i) as Hv'.
      { unfold view. destruct (s_lock s' _) as [[t'|]|] eqn:El; auto. destruct (Nat.eqb_spec (cf_dom c t') (cf_dom c t)); auto.
        destruct (Nat.eq_dec t' t) as [->|Hne].
        - apply (lock_slot c s' t _ _ Hi') in El as (_ & [(i0 & E1 & E2)|(k & j & E1 & E2)]).
          + exfalso. apply (node_off_inj c Hwf) in E2; auto; [|eapply own_lt; eauto]. destruct E2; subst. tauto.
          + exfalso. destruct (for_lt c s' t k j Hi' E1) as (? & ? & ?). apply (node_off_inj c Hwf) in E2; auto. destruct E2. congruence.
        - exfalso. apply (held_own c s t i Hi) in Eo. apply (lock_iff c s' _ _ Hi') in El. cbn in El.
          destruct (frame_thr c Hwf s t ch s' Hi H) as (_ & Ho & _). rewrite Ho in El by auto.
          assert (s_lock s (LSlot (cf_rank c t) (node_off c (cf_dom c t) i)) = Some (Usr t')) by (apply (lock_iff c s _ _ Hi); auto).
          congruence. }
      rewrite Hv', Hph, Hp in Hv. injection Hv as <-.
      assert (exists v, t_pc (s_thr s t) = PRelease i v) as [v Er].
      { destruct (s_thr s t) as [p todo dn] eqn:Et. open_step H. rewrite Et in H. cbn [t_pc t_todo t_done] in *.
        repeat break; proj; rewrite upd_eq in Eo'; rewrite ?Et in Eo'; cbn [t_pc pc_own] in *; try congruence.
        injection Eo as ->. eauto. }
      assert (s_data s' = s_data s) as Ed by (clear - H Er; open_step H; rewrite Er in H; repeat break; reflexivity).
      eapply good_own; [now rewrite Ed|]. eapply (j_good c s Hj); eauto.
      rewrite (view_own c _ s t i Hi Eo). unfold pc_stb. now rewrite Er.
    + rewrite (view_thr c Hwf _ s t ch s' Hi H) in Hv; auto.
      * eapply good_own; [|eapply (j_good c s Hj); eauto]. apply Hdata; auto. tauto.
      * intros i' [E|E] (_ & _ & ->); tauto.
Qed.


(** ** Threads *)
Lemma phys_keep s t ch s' r d i : inv1 c s -> step_thr c s t ch = Some s' -> i < n ->
  s_lock s (LSlot r (node_off c d i)) <> None -> phys s' r d i = phys s r d i.
Proof.
  intros Hi H Hin Hl. destruct (phys_thr c s t ch s' Hi H r d i Hin) as [E|(? & _ & _ & _ & _ & E & _)]; auto.
  congruence.
Qed.

Lemma data_other s t ch s' t' : inv1 c s -> inv2 c s -> step_thr c s t ch = Some s' -> t' <> t ->
  thr_data c s' t' (s_thr s' t').
Proof.
  intros Hi Hj H Hne. destruct (frame_thr c Hwf s t ch s' Hi H) as (_ & Ho & Hlist & Hdata).
  rewrite Ho by auto. pose proof (j_thr c s Hj t') as (H1 & H2 & H3 & H4).
  split; [|split; [|split]]; auto.
  - intros i E. rewrite (phys_keep s t ch s'); auto; [eapply own_lt; eauto|].
    rewrite (held_own c s t' i Hi E). discriminate.
  - intros k j E. destruct (for_lt c s t' k j Hi E) as (? & ? & ?).
    rewrite (phys_keep s t ch s'); auto. rewrite (held_for c s t' k j Hi E). discriminate.
  - pose proof (fun k => held_cm c s t' k Hi) as Hcm.
    assert (forall i, pc_own (t_pc (s_thr s t')) = Some i ->
      s_data s' (cf_rank c t') (node_off c (cf_dom c t') i) = s_data s (cf_rank c t') (node_off c (cf_dom c t') i)) as Hd.
    { intros i E. apply Hdata; [eapply own_lt; eauto|]. intros (E1 & E2 & E3). apply Hne.
      eapply (own_unique c s); eauto. }
    destruct (t_pc (s_thr s t')); auto; cbn in Hcm, Hd.
    + unfold i2b. rewrite Hlist; auto. right. rewrite (Hcm _ eq_refl). congruence.
    + unfold i2b. rewrite Hlist; auto. right. rewrite (Hcm _ eq_refl). congruence.
    + rewrite (Hd _ eq_refl). auto.
    + rewrite (Hd _ eq_refl). auto.
Qed.

Lemma data_self s t ch s' : inv1 c s -> inv2 c s -> step_thr c s t ch = Some s' ->
  thr_data c s' t (s_thr s' t).
Proof.
  intros Hi Hj H.
  pose proof (inv1_thr c Hwf s t ch s' Hi H) as Hi'.
  pose proof (j_thr c s Hj t) as (H1 & H2 & H3 & H4 & H5).
  pose proof (i_thr c s Hi t) as (_ & Hlt & Hcell & _).
  assert (forall r d i, i < n -> not_slot (t_pc (s_thr s t)) -> phys s' r d i = phys s r d i) as Hph.
  { intros r d i Hin Hp. destruct (phys_thr c s t ch s' Hi H r d i Hin) as [E|(? & E & _)]; auto.
    rewrite E in Hp. destruct Hp. }
  split; [|split; [|split]].
  - intros i Eo. destruct (own_before c pc_stb s t ch s' i Hi H Eo) as [E|(old & E1 & E2 & E3)].
    + rewrite Hph; [|eauto|destruct (t_pc (s_thr s t)); cbn in *; auto; discriminate].
      rewrite (H1 i E). f_equal. clear - H Eo.
      open_step H. repeat break; proj; rewrite upd_eq in Eo |- *; cbn in Eo |- *; try discriminate; unfold req; cbn [t_todo];
        match goal with E : t_todo _ = _ |- _ => rewrite E; reflexivity end.
    + rewrite E1 in H3. 
      assert (req (s_thr s' t) = req (s_thr s t)) as ->.
      { clear - H E1. open_step H. rewrite E1 in H. repeat break. proj. rewrite upd_eq. unfold req. cbn [t_todo].
        match goal with E : t_todo _ = _ |- _ => now rewrite E end. }
      rewrite <- H3. unfold phys. rewrite (held_cm c s' t (cf_dom c t) Hi') by (rewrite E2; reflexivity). rewrite E2.
      unfold i2b. assert (s_list s' = s_list s) as -> by (clear - H E1; open_step H; rewrite E1 in H; repeat break; reflexivity).
      reflexivity.
  - intros k j Ef. destruct (for_lt c s' t k j Hi' Ef) as (Hk & Hkd & Hjn).
    assert (req (s_thr s' t) = req (s_thr s t)) as ->.
    { clear - H Ef. open_step H. repeat break; proj; rewrite upd_eq in Ef |- *; cbn in Ef |- *; try discriminate; unfold req; cbn [t_todo];
        match goal with E : t_todo _ = _ |- _ => rewrite E; reflexivity end. }
    destruct (option_eq_dec_pair (pc_for (t_pc (s_thr s t))) (k, j)) as [E|E].
    + rewrite Hph; auto. destruct (t_pc (s_thr s t)); cbn in *; auto. discriminate.
    + assert (exists i, t_pc (s_thr s t) = PTryFound i k j /\ t_pc (s_thr s' t) = PTryBoth i k j) as (i & E1 & E2).
      { clear - H Ef E. destruct (s_thr s t) as [p todo dn] eqn:Et. open_step H. rewrite Et in H. cbn [t_pc t_todo t_done] in *.
        repeat break; proj; rewrite upd_eq in Ef |- *; rewrite ?Et in Ef; cbn in Ef |- *; try discriminate; cbn in E; try congruence.
        injection Ef as -> ->. eauto. }
      rewrite E1 in H3. rewrite <- H3. unfold phys.
      rewrite (held_cm c s' t k Hi') by (rewrite E2; reflexivity). rewrite E2.
      unfold i2b. assert (s_list s' = s_list s) as -> by (clear - H E1; open_step H; rewrite E1 in H; repeat break; reflexivity).
      reflexivity.
  - assert (forall i, pc_own (t_pc (s_thr s t)) = Some i -> forall b, pc_stb (s_thr s t) = Some b ->
        good c s (cf_rank c t) (node_off c (cf_dom c t) i) b) as Hg.
    { intros i Eo b E. eapply (j_good c s Hj); eauto. rewrite (view_own c _ s t i Hi Eo). auto. }
    assert (forall k j, pc_for (t_pc (s_thr s t)) = Some (k, j) -> t_pc (s_thr s t) <> PIdle ->
        good c s (cf_rank c t) (node_off c k j) (req (s_thr s t))) as Hgf.
    { intros k j Ef _. destruct (for_lt c s t k j Hi Ef) as (Hk & Hkd & Hjn).
      apply (j_good c s Hj); auto. unfold view. rewrite (held_for c s t k j Hi Ef).
      destruct (Nat.eqb_spec (cf_dom c t) k); [congruence|]. apply H2; auto. }
    pose proof (j_xfer c s Hj t) as Hx.
    assert (forall k, inv1 c s -> k < n -> True) as _ by auto.
    clear Hi' Hph. 
    destruct (s_thr s t) as [p todo dn] eqn:Et.
    open_step H. rewrite Et in H. cbn [t_pc t_todo t_done] in *.
    repeat break; proj; rewrite upd_eq; rewrite ?Et; cbn [t_pc t_todo req pc_own] in *; auto.
    all: eqs.
    + (* request *)
      unfold i2b. proj. rewrite updp_eq.
      match goal with E : clist_request _ _ = Ok _ |- _ =>
        apply (request_inv c) in E; [|apply Hi]; destruct E as [(_ & Hnew & _) _] end. now rewrite Hnew.
    + (* peek *)
      unfold i2b. proj. match goal with E : clist_peek _ _ = Some _ |- _ =>
        apply (peek_inv c) in E; [|apply Hi]; destruct E as [_ E]; rewrite E end. reflexivity.
    + intros z Hz. lia.
    + (* copy *)
      intros z Hz HzK. rewrite updp_eq. unfold upd.
      destruct (Nat.eqb_spec z c0) as [->|].
      * apply (Hgf _ _ eq_refl); auto. discriminate.
      * apply H3; lia.
    + intros z Hz. lia.
    + (* transfer through the window *)
      intros z Hz HzK. rewrite updp_eq. unfold upd.
      destruct (Nat.eqb_spec z c0) as [->|].
      * destruct (Hx _ _ _ eq_refl) as [_ Hs]. cbn zeta in Hs.
        pose proof (e_off e) as Ho. unfold e_dom, e_slot in Ho. rewrite <- Ho.
        apply (j_good c s Hj) in Hs; [apply Hs; auto|]. apply Nat.mod_upper_bound. pose proof (wc_n c Hwf). lia.
      * apply H3; lia.
    + (* the value is read *)
      eexists _, _, _. split; [reflexivity|]. inversion Hcell; subst.
      apply (Hg _ eq_refl _ eq_refl). auto.
  - pose proof (fun i E => H1 i E) as Hown.
    destruct (s_thr s t) as [p todo dn] eqn:Et.
    open_step H. rewrite Et in H. cbn [t_pc t_todo t_done] in *.
    repeat break; proj; rewrite upd_eq; rewrite ?Et; cbn [t_pc t_todo t_done req pc_own] in *; auto.
    destruct H3 as (b & cell & todo & E1 & ->). injection E1 as <- <- <-.
    split.
    + apply Forall_app. split; auto.
    + rewrite map_app. cbn. rewrite <- app_assoc. auto.
Qed.

(** ** Communication threads while a thread moves *)
Lemma com_data_thr s t ch s' : inv1 c s -> inv2 c s -> step_thr c s t ch = Some s' ->
  forall r, com_data c s' r (s_com s' r).
Proof.
  intros Hi Hj H r. destruct (frame_thr c Hwf s t ch s' Hi H) as (-> & _ & Hlist & _).
  pose proof (j_com c s Hj r) as Hc. pose proof (i_com c s Hi r) as Hw.
  pose proof (fun k => held_ccm c s r k Hi) as Hcm.
  pose proof (fun k j => held_cfor c s r k j Hi) as Hcf.
  destruct (s_com s r); cbn in *; auto.
  - unfold i2b. rewrite Hlist; auto. right. rewrite (Hcm _ eq_refl). discriminate.
  - rewrite (phys_keep s t ch s'); auto; [tauto|]. rewrite (Hcf _ _ eq_refl). discriminate.
  - destruct Hc. split; auto. rewrite (phys_keep s t ch s'); auto; [tauto|]. rewrite (Hcf _ _ eq_refl). discriminate.
Qed.

End Conc.
