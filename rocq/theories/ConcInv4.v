(** * Concurrent caches: dictionary, window transfers and messages *)
From Verif Require Export ConcInv3.

Section Conc.
Context {V : Type} (c : cfg V).
Local Notation n := (cf_size c).
Local Notation D := (cf_doms c).
Local Notation K := (cf_cells c).
Local Notation P := (cf_ranks c).
Hypothesis Hwf : wf_cfg c.

Ltac eqs :=
  repeat match goal with
  | E : (_ <? _) = true |- _ => apply Nat.ltb_lt in E
  | E : (_ <? _) = false |- _ => apply Nat.ltb_ge in E
  | E : (_ =? _) = false |- _ => apply Nat.eqb_neq in E
  | E : (_ =? _) = true |- _ => apply Nat.eqb_eq in E
  end.

Lemma view_cases f s t ch s' : (f = pc_lst \/ f = pc_stb) -> inv1 c s -> inv2 c s -> step_thr c s t ch = Some s' ->
  forall r d i, i < n ->
  view c f s' r d i = view c f s r d i \/
  r = cf_rank c t /\ d = cf_dom c t /\ pc_own (t_pc (s_thr s t)) = Some i /\ pc_own (t_pc (s_thr s' t)) = Some i /\
  view c f s r d i = f (s_thr s t) /\ view c f s' r d i = f (s_thr s' t).
Proof.
  intros Hf Hi Hj H r d i Hin.
  pose proof (inv1_thr c Hwf s t ch s' Hi H) as Hi'.
  destruct (Nat.eq_dec r (cf_rank c t)) as [->|Hr]; cycle 1.
  { left. apply (view_thr c Hwf _ s t ch s' Hi H); auto. intros; tauto. }
  destruct (Nat.eq_dec d (cf_dom c t)) as [->|Hd]; cycle 1.
  { left. apply (view_thr c Hwf _ s t ch s' Hi H); auto. intros; tauto. }
  destruct (odec (pc_own (t_pc (s_thr s' t))) (Some i)) as [Eo'|Eo'].
  - destruct (own_before c f s t ch s' i Hi H Eo') as [Eo|(old & E1 & E2 & E3)].
    + right. repeat (split; auto); apply view_own; auto.
    + left. rewrite E3, (view_own c f s' t i Hi' Eo'). destruct Hf as [->| ->]; unfold pc_lst, pc_stb; now rewrite E2.
  - left. destruct (odec (pc_own (t_pc (s_thr s t))) (Some i)) as [Eo|Eo].
    + rewrite (view_own c f s t i Hi Eo).
      destruct (phys_thr c s t ch s' Hi H (cf_rank c t) (cf_dom c t) i Hin) as [Hph|(old & E1 & _)]; [|rewrite E1 in Eo; discriminate].
      pose proof (j_thr c s Hj t) as (Hp & _). specialize (Hp i Eo).
      assert (view c f s' (cf_rank c t) (cf_dom c t) i = phys s' (cf_rank c t) (cf_dom c t) i) as Hv'.
      { unfold view. destruct (s_lock s' _) as [[t'|]|] eqn:El; auto. destruct (Nat.eqb_spec (cf_dom c t') (cf_dom c t)); auto.
        destruct (Nat.eq_dec t' t) as [->|Hne].
        - apply (lock_slot c s' t _ _ Hi') in El as (_ & [(i0 & E1 & E2)|(k & j & E1 & E2)]).
          + exfalso. apply (node_off_inj c Hwf) in E2; auto; [|eapply own_lt; eauto]. destruct E2; subst. tauto.
          + exfalso. destruct (for_lt c s' t k j Hi' E1) as (? & ? & ?). apply (node_off_inj c Hwf) in E2; auto. destruct E2. congruence.
        - exfalso. apply (held_own c s t i Hi) in Eo. apply (lock_iff c s' _ _ Hi') in El. cbn in El.
          destruct (frame_thr c Hwf s t ch s' Hi H) as (_ & Ho & _). rewrite Ho in El by auto.
          assert (s_lock s (LSlot (cf_rank c t) (node_off c (cf_dom c t) i)) = Some (Usr t')) by (apply (lock_iff c s _ _ Hi); auto).
          congruence. }
      rewrite Hv', Hph, Hp.
      assert (exists v, t_pc (s_thr s t) = PRelease i v) as [v Er].
      { destruct (s_thr s t) as [p todo dn] eqn:Et. open_step H. rewrite Et in H. cbn [t_pc t_todo t_done] in *.
        repeat break; proj; rewrite upd_eq in Eo'; rewrite ?Et in Eo'; cbn [t_pc pc_own] in *; try congruence.
        injection Eo as ->. eauto. }
      destruct Hf as [->| ->]; unfold pc_lst, pc_stb; now rewrite Er.
    + apply (view_thr c Hwf _ s t ch s' Hi H); auto. intros i' [E|E] (_ & _ & ->); tauto.
Qed.

(** Listed blocks whose dictionary entry is locked by another thread are complete. *)
Lemma listed_complete s t r d i b : inv1 c s -> cf_mode c = MWin ->
  s_lock s (LDict b) = Some (Usr t) -> view c pc_lst s r d i = Some b ->
  (forall t', s_lock s (LSlot r (node_off c d i)) = Some (Usr t') -> cf_dom c t' = d -> t' <> t) ->
  view c pc_stb s r d i = Some b.
Proof.
  intros Hi Hm Hl Hv Hne. unfold view in *.
  destruct (s_lock s (LSlot r (node_off c d i))) as [[t'|]|] eqn:E; auto.
  destruct (Nat.eqb_spec (cf_dom c t') d); auto. specialize (Hne _ eq_refl e).
  pose proof (fun b => held_dl c s t' b Hi) as Hdl. unfold pc_lst, pc_stb in *.
  destruct (t_pc (s_thr s t')) eqn:Ep; try discriminate; auto; cbn in Hdl; rewrite ?Hm in Hdl;
    specialize (Hdl _ eq_refl); congruence.
Qed.

(** Whether a block remains listed and complete for a slot of the moving thread. *)
Lemma lst_keeps s t ch s' b : inv1 c s -> cf_mode c = MWin -> step_thr c s t ch = Some s' ->
  pc_own (t_pc (s_thr s' t)) <> None ->
  pc_lst (s_thr s t) = Some b -> (forall i ob, t_pc (s_thr s t) <> PDelHold i ob) -> pc_lst (s_thr s' t) = Some b.
Proof.
  intros Hi Hm H Hown Hl Hno. pose proof (i_thr c s Hi t) as (_ & _ & _ & Hw).
  destruct (s_thr s t) as [p todo dn] eqn:Et. open_step H. rewrite Et in H. cbn [t_pc t_todo t_done] in *.
  revert Hl. unfold pc_lst. cbn [t_pc].
  repeat break; intros Hl; proj; rewrite upd_eq in *; rewrite ?Et in *; cbn [t_pc req t_todo pc_own] in *; try congruence; auto.
  all: eqs; try congruence.
Qed.

Lemma stb_keeps s t ch s' b : inv1 c s -> cf_mode c = MWin -> step_thr c s t ch = Some s' ->
  pc_own (t_pc (s_thr s' t)) <> None ->
  pc_lst (s_thr s t) = Some b ->
  pc_stb (s_thr s t) = Some b -> (forall i ob, t_pc (s_thr s t) <> PDelHold i ob) -> pc_stb (s_thr s' t) = Some b.
Proof.
  intros Hi Hm H Hown Hl0 Hl Hno. pose proof (i_thr c s Hi t) as (_ & _ & _ & Hw).
  destruct (s_thr s t) as [p todo dn] eqn:Et. open_step H. rewrite Et in H. cbn [t_pc t_todo t_done] in *.
  revert Hl Hl0. unfold pc_stb, pc_lst. cbn [t_pc].
  repeat break; intros Hl Hl0; proj; rewrite upd_eq in *; rewrite ?Et in *; cbn [t_pc req t_todo pc_own] in *; try congruence; auto.
  all: eqs; try congruence.
Qed.

Lemma own_some (s' : st V) t i : pc_own (t_pc (s_thr s' t)) = Some i -> pc_own (t_pc (s_thr s' t)) <> None.
Proof. congruence. Qed.

Lemma xfer_thr s t ch s' : inv1 c s -> inv2 c s -> step_thr c s t ch = Some s' -> xfer_ok c s'.
Proof.
  intros Hi Hj H t' i e y Ep. cbn zeta.
  fold (e_rank c e) (e_dom c e) (e_slot c e).
  destruct (frame_thr c Hwf s t ch s' Hi H) as (_ & Ho & _ & _).
  pose proof (inv1_thr c Hwf s t ch s' Hi H) as Hi'.
  pose proof (view_cases pc_lst s t ch s' (or_introl eq_refl) Hi Hj H (e_rank c e) (e_dom c e) (e_slot c e) (e_slot_lt c Hwf e)) as Vl.
  pose proof (view_cases pc_stb s t ch s' (or_intror eq_refl) Hi Hj H (e_rank c e) (e_dom c e) (e_slot c e) (e_slot_lt c Hwf e)) as Vs.
  pose proof (i_thr c s' Hi' t') as (_ & _ & _ & Hw'). rewrite Ep in Hw'. destruct Hw' as [Hm Hel].
  destruct (Nat.eq_dec t' t) as [->|Hne].
  - (* the thread itself *)
    assert (req (s_thr s' t) = req (s_thr s t) /\ view c pc_lst s (e_rank c e) (e_dom c e) (e_slot c e) = Some (req (s_thr s t)) /\
      view c pc_stb s (e_rank c e) (e_dom c e) (e_slot c e) = Some (req (s_thr s t)) /\
      (pc_lst (s_thr s t) = None \/ pc_stb (s_thr s t) = None)) as (Er & El & Es & Enone).
    { assert (t_pc (s_thr s t) = PStartHold i \/ exists y', t_pc (s_thr s t) = PXfer i e y') as [E|[y' E]].
      { clear - H Ep. open_step H. destruct (s_thr s t) as [p todo dn] eqn:Et. cbn [t_pc t_todo t_done] in *.
        repeat break; proj; rewrite upd_eq in Ep; cbn in Ep; try discriminate; injection Ep; intros; subst; eauto. }
      - assert (exists x, fetch_and_update (s_dict s (req (s_thr s t))) (ch_rand ch) (loc c (cf_rank c t) (node_off c (cf_dom c t) i)) = Ok (Some e, x)
           /\ req (s_thr s' t) = req (s_thr s t)) as (x & Ef & Er).
        { clear - H Ep E. open_step H. destruct (s_thr s t) as [p todo dn] eqn:Et. cbn [t_pc t_todo t_done] in *. subst p.
          repeat break; proj; rewrite upd_eq in *; cbn in Ep; try discriminate. injection Ep; intros; subst. cbn. eauto. }
        destruct (j_dict c s Hj Hm (req (s_thr s t))) as (l & Ed & _ & Hlst).
        destruct (i_dict c s Hi (req (s_thr s t))) as (l2 & Ed2 & Hlen & _).
        assert (length l <= dict_size) as Hlen'.
        { rewrite Ed in Ed2. apply (f_equal (@length _)) in Ed2. unfold rep in Ed2. rewrite !app_length, !map_length, !repeat_length in Ed2. lia. }
        rewrite Ed in Ef. destruct (fetch_update_rep l (ch_rand ch) (loc c (cf_rank c t) (node_off c (cf_dom c t) i)) Hlen') as (z & Ez & _ & Hin).
        rewrite Ef in Ez. assert (z = Some e) by congruence. subst z. specialize (Hin _ eq_refl).
        specialize (Hlst _ Hin). cbn zeta in Hlst. fold (e_rank c e) (e_dom c e) (e_slot c e) in Hlst.
        assert (pc_lst (s_thr s t) = None) as Hnone by (unfold pc_lst; now rewrite E).
        split; auto. split; auto. split; auto.
        eapply listed_complete; eauto.
        + apply (held_dl c s t _ Hi). rewrite E. reflexivity.
        + intros t'' El Hd ->. apply (lock_slot c s t _ _ Hi) in El as HH. destruct HH as [Hr _].
          unfold view in Hlst. rewrite El, Hd, Nat.eqb_refl, Hnone in Hlst. discriminate.
      - assert (req (s_thr s' t) = req (s_thr s t)) as Er.
        { clear - H Ep E. open_step H. destruct (s_thr s t) as [p todo dn] eqn:Et. cbn [t_pc t_todo t_done] in *. subst p.
          repeat break; proj; rewrite upd_eq in *; cbn in Ep |- *; try discriminate; rewrite ?Et; reflexivity. }
        destruct (j_xfer c s Hj t i e y' E) as [E1 E2]. cbn zeta in E1, E2.
        fold (e_rank c e) (e_dom c e) (e_slot c e) in E1, E2.
        split; auto. split; auto. split; auto. right. unfold pc_stb. now rewrite E. }
    rewrite Er. split.
    + destruct Vl as [->|(E1 & E2 & E3 & E4 & E5 & E6)]; auto. rewrite <- Er, E6. unfold pc_lst. now rewrite Ep.
    + destruct Vs as [->|(E1 & E2 & E3 & E4 & E5 & E6)]; auto.
      destruct Enone as [En|En]; [|congruence].
      rewrite E1, E2, (view_own c _ s t _ Hi E3) in El. congruence.
  - (* another thread *)
    rewrite Ho in Ep |- * by auto.
    destruct (j_xfer c s Hj t' i e y Ep) as [El Es]. cbn zeta in El, Es.
    fold (e_rank c e) (e_dom c e) (e_slot c e) in El, Es.
    assert (s_lock s (LDict (req (s_thr s t'))) = Some (Usr t')) as Hlk by (apply (held_dl c s t' _ Hi); rewrite Ep; reflexivity).
    assert (forall b, pc_lst (s_thr s t) = Some b -> b = req (s_thr s t') -> forall i ob, t_pc (s_thr s t) <> PDelHold i ob) as Hnd.
    { intros b E -> i0 ob E0. unfold pc_lst in E. rewrite E0 in E. injection E as ->.
      pose proof (held_dl c s t (req (s_thr s t')) Hi) as Hh. rewrite E0 in Hh. specialize (Hh eq_refl). congruence. }
    split.
    + destruct Vl as [->|(E1 & E2 & E3 & E4 & E5 & E6)]; auto. rewrite E6. rewrite E5 in El.
      apply (lst_keeps s t ch s'); auto; [congruence|exact (Hnd _ El eq_refl)].
    + destruct Vs as [->|(E1 & E2 & E3 & E4 & E5 & E6)]; auto. rewrite E6. rewrite E5 in Es.
      rewrite E1, E2, (view_own c _ s t _ Hi E3) in El.
      apply (stb_keeps s t ch s'); auto; [congruence|exact (Hnd _ El eq_refl)].
Qed.


(** ** Dictionary *)
Lemma dict_change s t ch s' : inv1 c s -> cf_mode c = MWin -> step_thr c s t ch = Some s' ->
  let e0 i := loc c (cf_rank c t) (node_off c (cf_dom c t) i) in
  (s_dict s' = s_dict s /\ forall i ob, t_pc (s_thr s t) <> PDelHold i ob) \/
  (exists i ob x, t_pc (s_thr s t) = PDelHold i ob /\ t_pc (s_thr s' t) = PDelRel i ob /\
     delete_block_info (s_dict s ob) (e0 i) = Ok x /\ s_dict s' = upd (s_dict s) ob x) \/
  (exists i y x, pc_own (t_pc (s_thr s t)) = Some i /\ pc_own (t_pc (s_thr s' t)) = Some i /\
     pc_lst (s_thr s t) = None /\ pc_lst (s_thr s' t) = Some (req (s_thr s t)) /\
     fetch_and_update (s_dict s (req (s_thr s t))) (ch_rand ch) (e0 i) = Ok (y, x) /\
     s_dict s' = upd (s_dict s) (req (s_thr s t)) x).
Proof.
  intros Hi Hm H e0.
  destruct (s_thr s t) as [p todo dn] eqn:Et. open_step H. rewrite Et in H. cbn [t_pc t_todo t_done] in *.
  repeat break; proj; rewrite ?upd_eq; rewrite ?Et; cbn [t_pc req t_todo pc_own]; try congruence;
   try (left; split; [reflexivity|discriminate]).
  - right. left. eexists _, _, _. repeat (split; [reflexivity|]). split; [eassumption|reflexivity].
  - right. right. eexists _, _, _. repeat (split; [reflexivity|]). split; [eassumption|reflexivity].
  - right. right. eexists _, _, _. repeat (split; [reflexivity|]). split; [eassumption|reflexivity].
  - right. right. eexists _, _, _. repeat (split; [reflexivity|]). split; [eassumption|reflexivity].
Qed.

Lemma rep_len l l2 : rep l = rep l2 -> length l2 <= dict_size -> length l <= dict_size.
Proof.
  intros E Hl. apply (f_equal (@length _)) in E. unfold rep in E. rewrite !app_length, !map_length, !repeat_length in E. lia.
Qed.

Lemma dict_thr2 s t ch s' : inv1 c s -> inv2 c s -> step_thr c s t ch = Some s' -> dict_ok c s'.
Proof.
  intros Hi Hj H Hm b.
  pose proof (inv1_thr c Hwf s t ch s' Hi H) as Hi'.
  pose proof (fun e => view_cases pc_lst s t ch s' (or_introl eq_refl) Hi Hj H (e_rank c e) (e_dom c e) (e_slot c e) (e_slot_lt c Hwf e)) as Vl.
  assert (forall e i, e_rank c e = cf_rank c t -> e_dom c e = cf_dom c t -> e_slot c e = i ->
    e = loc c (cf_rank c t) (node_off c (cf_dom c t) i)) as Hloc.
  { intros e i <- <- <-. symmetry. apply (e_loc c Hwf). apply (d_pos c Hwf). }
  destruct (j_dict c s Hj Hm b) as (l & Ed & Hnd & Hl).
  assert (length l <= dict_size) as Hlen.
  { destruct (i_dict c s Hi b) as (l2 & Ed2 & Hlen & _). apply (rep_len l l2); auto. congruence. }
  assert (forall e, In e l -> (forall i ob, t_pc (s_thr s t) <> PDelHold i ob) ->
    view c pc_lst s' (e_rank c e) (e_dom c e) (e_slot c e) = Some b) as Hkeep.
  { intros e He Hno. specialize (Hl e He). cbn zeta in Hl. fold (e_rank c e) (e_dom c e) (e_slot c e) in Hl.
    destruct (Vl e) as [->|(E1 & E2 & E3 & E4 & E5 & E6)]; auto. rewrite E6. rewrite E5 in Hl.
    apply (lst_keeps s t ch s'); auto. congruence. }
  destruct (dict_change s t ch s' Hi Hm H) as [(E & Hno)|[(i & ob & x & Ep & Ep' & Edel & E)|(i & y & x & Eo & Eo' & En & En' & Ef & E)]].
  - rewrite E. exists l. split; auto. split; auto. intros e He. apply Hkeep; auto.
  - rewrite E.
    assert (forall e, In e l -> (b = ob -> e <> loc c (cf_rank c t) (node_off c (cf_dom c t) i)) ->
      view c pc_lst s' (e_rank c e) (e_dom c e) (e_slot c e) = Some b) as Hk.
    { intros e He Hne. specialize (Hl e He). cbn zeta in Hl. fold (e_rank c e) (e_dom c e) (e_slot c e) in Hl.
      destruct (Vl e) as [->|(E1 & E2 & E3 & E4 & E5 & E6)]; auto.
      exfalso. rewrite E5 in Hl. unfold pc_lst in Hl. rewrite Ep in Hl. injection Hl as ->.
      rewrite Ep in E3. injection E3 as E3. apply (Hne eq_refl). apply Hloc; auto. }
    destruct (Nat.eq_dec b ob) as [->|Hb].
    + rewrite upd_eq. rewrite Ed, delete_rep in Edel by auto. assert (x = rep (del_list l (loc c (cf_rank c t) (node_off c (cf_dom c t) i)))) as -> by congruence.
      eexists. split; [reflexivity|]. split; [eapply subseq_NoDup; [apply subseq_del|auto]|].
      intros e He. apply Hk.
      * eapply subseq_In; [apply subseq_del|eauto].
      * intros _ ->. revert He. apply del_list_not_In. auto.
    + rewrite upd_ne by auto. exists l. split; auto. split; auto. intros e He. apply Hk; auto.
  - rewrite E.
    assert (forall i ob, t_pc (s_thr s t) <> PDelHold i ob) as Hno.
    { intros i0 ob E0. unfold pc_lst in En. rewrite E0 in En. discriminate. }
    destruct (Nat.eq_dec b (req (s_thr s t))) as [->|Hb].
    + rewrite upd_eq. pose proof Ef as Ef2. rewrite Ed in Ef2. destruct (fetch_update_rep l (ch_rand ch) (loc c (cf_rank c t) (node_off c (cf_dom c t) i)) Hlen) as (y' & Ey & _ & _).
      rewrite Ef2 in Ey. assert (x = rep (firstn dict_size (loc c (cf_rank c t) (node_off c (cf_dom c t) i) :: l))) as -> by congruence.
      eexists. split; [reflexivity|].
      assert (Hin : i < n) by (eapply own_lt; eauto).
      destruct (loc_e c (cf_rank c t) (cf_dom c t) i Hin (wc_dom c Hwf t)) as (R1 & R2 & R3).
      split.
      * eapply subseq_NoDup; [apply subseq_firstn|]. constructor; auto. intros Hin'.
        specialize (Hl _ Hin'). cbn zeta in Hl. 
        match type of Hl with view _ _ _ (?e / _) _ _ = _ => fold (e_rank c e) (e_dom c e) (e_slot c e) in Hl end.
        rewrite R1, R2, R3, (view_own c _ s t i Hi Eo) in Hl. congruence.
      * intros e He. eapply subseq_In in He; [|apply subseq_firstn].
        cbn zeta. fold (e_rank c e) (e_dom c e) (e_slot c e). destruct He as [<-|He]; auto.
        rewrite R1, R2, R3. rewrite (view_own c _ s' t i Hi' Eo'). auto.
    + rewrite upd_ne by auto. exists l. split; auto. split; auto. intros e He. apply Hkeep; auto.
Qed.

(** ** Messages *)
Lemma bufs_thr s t ch s' : inv2 c s -> step_thr c s t ch = Some s' -> bufs_ok c s'.
Proof.
  intros Hj H r q. pose proof (j_bufs c s Hj) as Hb.
  open_step H. repeat break; proj; auto.
  all: try apply Hb.
  all: match goal with |- context [updp ?f ?i ?j ?a ?r ?q] =>
    destruct (updp_cases f i j a r q) as [(-> & -> & ->)|(_ & ->)] end; [|apply Hb].
  all: match goal with E : s_brep _ ?a ?b = _ |- _ => specialize (Hb a b); rewrite E in Hb; inversion Hb; auto end.
Qed.

(** Lock and waiting thread of the block messages of a rank. *)
Definition no_blk (p : pc V) : Prop := match p with PWaitBlk _ _ => False | _ => True end.
Definition no_info (p : pc V) : Prop := match p with PWaitInfo _ => False | _ => True end.

Lemma blk_exp_eq (s s' : st V) t x src dst :
  s_thr s' = upd (s_thr s) t x -> no_blk (t_pc (s_thr s t)) -> no_blk (t_pc x) ->
  (s_lock s' (LBlk src) = s_lock s (LBlk src) \/
   s_lock s (LBlk src) = None /\ s_lock s' (LBlk src) = Some (Usr t) \/
   s_lock s (LBlk src) = Some (Usr t) /\ s_lock s' (LBlk src) = None) ->
  blk_expected s' src dst = blk_expected s src dst.
Proof.
  intros Et Hp Hp' Hlk. unfold blk_expected. rewrite Et.
  destruct Hlk as [->|[[-> ->]|[-> ->]]].
  - destruct (s_lock s (LBlk src)) as [[t'|]|]; auto. unfold upd. destruct (Nat.eqb_spec t' t); auto. subst.
    destruct (t_pc (s_thr s t)), (t_pc x); cbn in *; tauto.
  - rewrite upd_eq. destruct (t_pc x); cbn in *; tauto.
  - destruct (t_pc (s_thr s t)); cbn in *; tauto.
Qed.

Lemma info_exp_eq (s s' : st V) t x src dst :
  s_thr s' = upd (s_thr s) t x -> no_info (t_pc (s_thr s t)) -> no_info (t_pc x) ->
  (s_lock s' (LInfo src) = s_lock s (LInfo src) \/
   s_lock s (LInfo src) = None /\ s_lock s' (LInfo src) = Some (Usr t) \/
   s_lock s (LInfo src) = Some (Usr t) /\ s_lock s' (LInfo src) = None) ->
  info_expected c s' src dst = info_expected c s src dst.
Proof.
  intros Et Hp Hp' Hlk. unfold info_expected. rewrite Et.
  destruct Hlk as [->|[[-> ->]|[-> ->]]].
  - destruct (s_lock s (LInfo src)) as [[t'|]|]; auto. unfold upd. destruct (Nat.eqb_spec t' t); auto. subst.
    destruct (t_pc (s_thr s t)), (t_pc x); cbn in *; tauto.
  - rewrite upd_eq. destruct (t_pc x); cbn in *; tauto.
  - destruct (t_pc (s_thr s t)); cbn in *; tauto.
Qed.

Lemma msg_lock s t r : inv1 c s -> s_lock s (LBlk r) = Some (Usr t) -> r = cf_rank c t.
Proof.
  intros Hi E. apply (lock_iff c s _ _ Hi) in E. cbn in E. unfold thr_locks in E. rewrite !in_app_iff, !olist_In in E.
  destruct (pc_own (t_pc (s_thr s t))) as [i|], (pc_for (t_pc (s_thr s t))) as [[k j]|], (pc_cm _ (t_pc (s_thr s t))), (pc_dl _ _ (t_pc (s_thr s t)));
    cbn [option_map fst snd] in E; destruct (t_pc (s_thr s t)); cbn in E; intuition (try discriminate); congruence.
Qed.
Lemma info_lock s t r : inv1 c s -> s_lock s (LInfo r) = Some (Usr t) -> r = cf_rank c t.
Proof.
  intros Hi E. apply (lock_iff c s _ _ Hi) in E. cbn in E. unfold thr_locks in E. rewrite !in_app_iff, !olist_In in E.
  destruct (pc_own (t_pc (s_thr s t))) as [i|], (pc_for (t_pc (s_thr s t))) as [[k j]|], (pc_cm _ (t_pc (s_thr s t))), (pc_dl _ _ (t_pc (s_thr s t)));
    cbn [option_map fst snd] in E; destruct (t_pc (s_thr s t)); cbn in E; intuition (try discriminate); congruence.
Qed.

Lemma blk_thr s t ch s' : inv1 c s -> inv2 c s -> step_thr c s t ch = Some s' ->
  forall src dst, blk_tokens s' src dst = blk_expected s' src dst.
Proof.
  intros Hi Hj H src dst. pose proof (j_blk c s Hj src dst) as Hb.
  pose proof (fun k => held_msg c s t k Hi) as Hm.
  pose proof (fun i dst b0 x q => brep_head c s t i dst b0 x q Hi Hj) as Hbh.
  destruct (s_thr s t) as [p todo dn] eqn:Et.
  assert (Hother : src <> cf_rank c t -> s_thr s t = Thr p todo dn -> s_lock s (LBlk src) <> Some (Usr t)).
  { intros Hne _ E. apply Hne. apply (msg_lock s t src Hi E). }
  open_step H. rewrite Et in H. cbn [t_pc t_todo t_done] in *.
  repeat break.
  all: try solve [
    unfold blk_tokens, serving in *; proj; rewrite Hb; symmetry; eapply blk_exp_eq with (t := t); proj;
    [reflexivity | rewrite Et; exact I | exact I | cbn [lock_eq];
     try (match goal with |- context [(?a =? ?b)] =>
       destruct (Nat.eqb_spec a b) as [->|] end); auto; right; right; auto ] ].
  - (* the request is sent *)
    specialize (Hm _ eq_refl). unfold blk_tokens, blk_expected, serving in *. proj.
    destruct (Nat.eq_dec src (cf_rank c t)) as [->|Hne].
    + rewrite Hm in *. rewrite upd_eq. cbn [t_pc t_todo req]. rewrite Et in Hb. cbn [t_pc] in Hb.
      apply app_eq_nil in Hb as [Hb1 Hb2]. apply app_eq_nil in Hb2 as [Hb2 Hb3].
      destruct (updp_cases (s_breq s) (cf_rank c t) dst0 (s_breq s (cf_rank c t) dst0 ++ [n]) (cf_rank c t) dst) as [(_ & -> & ->)|(Hne & ->)].
      * rewrite Hb1, Nat.eqb_refl. cbn [app]. rewrite Hb2, Hb3. reflexivity.
      * destruct (Nat.eqb_spec dst0 dst) as [->|]; [exfalso; tauto|]. rewrite Hb1, Hb2, Hb3. reflexivity.
    + rewrite updp_ne by auto. rewrite Hb. destruct (s_lock s (LBlk src)) as [[t'|]|] eqn:El; auto.
      unfold upd. destruct (Nat.eqb_spec t' t); auto. subst. exfalso. apply Hother; auto.
  - (* the block arrives *)
    specialize (Hm _ eq_refl).
    match goal with E : s_brep _ _ _ = _ |- _ => destruct (Hbh _ _ _ _ _ eq_refl E) as (-> & -> & Hq1 & Hq2) end.
    unfold blk_tokens, blk_expected, serving in *. proj. cbn [lock_eq].
    destruct (Nat.eqb_spec src (cf_rank c t)) as [->|Hne].
    + destruct (updp_cases (s_brep s) (cf_rank c t) dst0 [] (cf_rank c t) dst) as [(_ & -> & ->)|(Hne & ->)].
      * rewrite Hq1, Hq2. reflexivity.
      * rewrite Hb, Hm, Et. cbn [t_pc]. destruct (Nat.eqb_spec dst0 dst) as [->|]; [exfalso; tauto|]. reflexivity.
    + rewrite updp_ne by auto. rewrite Hb. destruct (s_lock s (LBlk src)) as [[t'|]|] eqn:El; auto.
      unfold upd. destruct (Nat.eqb_spec t' t); auto. subst. exfalso. apply Hother; auto.
  - (* the block is not available *)
    specialize (Hm _ eq_refl).
    match goal with E : s_brep _ _ _ = _ |- _ => destruct (Hbh _ _ _ _ _ eq_refl E) as (-> & -> & Hq1 & Hq2) end.
    unfold blk_tokens, blk_expected, serving in *. proj. cbn [lock_eq].
    destruct (Nat.eqb_spec src (cf_rank c t)) as [->|Hne].
    + destruct (updp_cases (s_brep s) (cf_rank c t) dst0 [] (cf_rank c t) dst) as [(_ & -> & ->)|(Hne & ->)].
      * rewrite Hq1, Hq2. reflexivity.
      * rewrite Hb, Hm, Et. cbn [t_pc]. destruct (Nat.eqb_spec dst0 dst) as [->|]; [exfalso; tauto|]. reflexivity.
    + rewrite updp_ne by auto. rewrite Hb. destruct (s_lock s (LBlk src)) as [[t'|]|] eqn:El; auto.
      unfold upd. destruct (Nat.eqb_spec t' t); auto. subst. exfalso. apply Hother; auto.
Qed.

Lemma irep_head s t i b0 x q : inv1 c s -> inv2 c s ->
  t_pc (s_thr s t) = PWaitInfo i -> s_irep s (cf_rank c t) (cf_home c (req (s_thr s t))) = (b0, x) :: q ->
  b0 = req (s_thr s t) /\ q = [] /\ s_ireq s (cf_rank c t) (cf_home c (req (s_thr s t))) = [].
Proof.
  intros Hi Hj Ep Eb.
  assert (s_lock s (LInfo (cf_rank c t)) = Some (Usr t)) as El by (eapply held_msg; eauto; rewrite Ep; reflexivity).
  pose proof (j_info c s Hj (cf_rank c t) (cf_home c (req (s_thr s t)))) as Hb. unfold info_tokens, info_expected in Hb.
  rewrite El, Ep, Nat.eqb_refl, Eb in Hb. cbn [map fst] in Hb.
  pose proof (f_equal (@length nat) Hb) as Hl. rewrite !app_length in Hl. cbn in Hl. rewrite map_length in Hl.
  destruct (s_ireq s (cf_rank c t) _); [|cbn in Hl; lia].
  destruct q; [|cbn in Hl; lia]. cbn in Hb. injection Hb as ->. auto.
Qed.

Lemma info_thr s t ch s' : inv1 c s -> inv2 c s -> step_thr c s t ch = Some s' ->
  forall src dst, info_tokens s' src dst = info_expected c s' src dst.
Proof.
  intros Hi Hj H src dst. pose proof (j_info c s Hj src dst) as Hb.
  pose proof (fun k => held_msg c s t k Hi) as Hm.
  pose proof (fun i b0 x q => irep_head s t i b0 x q Hi Hj) as Hbh.
  destruct (s_thr s t) as [p todo dn] eqn:Et.
  assert (Hother : src <> cf_rank c t -> s_thr s t = Thr p todo dn -> s_lock s (LInfo src) <> Some (Usr t)).
  { intros Hne _ E. apply Hne. apply (info_lock s t src Hi E). }
  open_step H. rewrite Et in H. cbn [t_pc t_todo t_done] in *.
  repeat break.
  all: try solve [
    unfold info_tokens in *; proj; rewrite Hb; symmetry; eapply info_exp_eq with (t := t); proj;
    [reflexivity | rewrite Et; exact I | exact I | cbn [lock_eq];
     try (match goal with |- context [(?a =? ?b)] =>
       destruct (Nat.eqb_spec a b) as [->|] end); auto; right; right; auto ] ].
  - (* the request is sent *)
    specialize (Hm _ eq_refl). unfold info_tokens, info_expected in *. proj.
    destruct (Nat.eq_dec src (cf_rank c t)) as [->|Hne].
    + rewrite Hm in *. rewrite upd_eq. cbn [t_pc t_todo req]. rewrite Et in Hb. cbn [t_pc] in Hb.
      apply app_eq_nil in Hb as [Hb1 Hb2].
      match goal with |- context [updp ?f ?a ?b ?v _ dst] => destruct (updp_cases f a b v a dst) as [(_ & -> & ->)|(Hne & ->)] end.
      * rewrite Hb1, Nat.eqb_refl. cbn [app]. rewrite Hb2. reflexivity.
      * match goal with |- context [?a =? dst] => destruct (Nat.eqb_spec a dst) as [E|] end; [exfalso; intuition|]. rewrite Hb1, Hb2. reflexivity.
    + rewrite updp_ne by auto. rewrite Hb. destruct (s_lock s (LInfo src)) as [[t'|]|] eqn:El; auto.
      unfold upd. destruct (Nat.eqb_spec t' t); auto. subst. exfalso. apply Hother; auto.
  - specialize (Hm _ eq_refl). cbn [req t_todo] in Hbh.
    match goal with E : s_irep _ _ _ = _ |- _ => destruct (Hbh _ _ _ _ eq_refl E) as (-> & -> & Hq1) end.
    unfold info_tokens, info_expected in *. proj. cbn [lock_eq].
    destruct (Nat.eqb_spec src (cf_rank c t)) as [->|Hne].
    + match goal with |- context [updp ?f ?a ?b ?v _ dst] => destruct (updp_cases f a b v a dst) as [(_ & -> & ->)|(Hne & ->)] end.
      * rewrite Hq1. reflexivity.
      * rewrite Hb, Hm, Et. cbn [t_pc req t_todo].
        match goal with |- context [?a =? dst] => destruct (Nat.eqb_spec a dst) as [E|] end; [exfalso; intuition|]. reflexivity.
    + rewrite updp_ne by auto. rewrite Hb. destruct (s_lock s (LInfo src)) as [[t'|]|] eqn:El; auto.
      unfold upd. destruct (Nat.eqb_spec t' t); auto. subst. exfalso. apply Hother; auto.
  - specialize (Hm _ eq_refl). cbn [req t_todo] in Hbh.
    match goal with E : s_irep _ _ _ = _ |- _ => destruct (Hbh _ _ _ _ eq_refl E) as (-> & -> & Hq1) end.
    unfold info_tokens, info_expected in *. proj. cbn [lock_eq].
    destruct (Nat.eqb_spec src (cf_rank c t)) as [->|Hne].
    + match goal with |- context [updp ?f ?a ?b ?v _ dst] => destruct (updp_cases f a b v a dst) as [(_ & -> & ->)|(Hne & ->)] end.
      * rewrite Hq1. reflexivity.
      * rewrite Hb, Hm, Et. cbn [t_pc req t_todo].
        match goal with |- context [?a =? dst] => destruct (Nat.eqb_spec a dst) as [E|] end; [exfalso; intuition|]. reflexivity.
    + rewrite updp_ne by auto. rewrite Hb. destruct (s_lock s (LInfo src)) as [[t'|]|] eqn:El; auto.
      unfold upd. destruct (Nat.eqb_spec t' t); auto. subst. exfalso. apply Hother; auto.
Qed.

Lemma inv2_thr s t ch s' : inv1 c s -> inv2 c s -> step_thr c s t ch = Some s' -> inv2 c s'.
Proof.
  intros Hi Hj H. constructor.
  - intros t'. destruct (Nat.eq_dec t' t) as [->|Hne]; [eapply data_self; eauto|eapply data_other; eauto].
  - eapply com_data_thr; eauto.
  - eapply good_thr; eauto.
  - eapply xfer_thr; eauto.
  - eapply dict_thr2; eauto.
  - eapply bufs_thr; eauto.
  - eapply blk_thr; eauto.
  - eapply info_thr; eauto.
Qed.

End Conc.
