(** * Concurrent caches: how a step changes the slots *)
From Verif Require Export ConcData.

Section Conc.
Context {V : Type} (c : cfg V).
Local Notation n := (cf_size c).
Local Notation D := (cf_doms c).
Local Notation K := (cf_cells c).
Local Notation P := (cf_ranks c).
Hypothesis Hwf : wf_cfg c.

Ltac eqs :=
  repeat match goal with
  | E : (_ <? _) = true |- _ => apply Nat.ltb_lt in E
  | E : (_ <? _) = false |- _ => apply Nat.ltb_ge in E
  | E : (_ =? _) = false |- _ => apply Nat.eqb_neq in E
  | E : (_ =? _) = true |- _ => apply Nat.eqb_eq in E
  end.

Lemma step_todo s t ch s' : step_thr c s t ch = Some s' -> t_todo (s_thr s t) <> [].
Proof. unfold step_thr. destruct (t_todo (s_thr s t)); congruence. Qed.

Lemma lock_iff s k o : inv1 c s -> s_lock s k = Some o <-> In k (held c s o).
Proof. intros Hi. apply (i_locks c s Hi). Qed.

Definition not_slot (p : pc V) : Prop := match p with PGetSlot _ _ => False | _ => True end.

Lemma phys_eq (s s' : st V) t x r d i :
  s_thr s' = upd (s_thr s) t x -> not_slot (t_pc (s_thr s t)) -> not_slot (t_pc x) ->
  s_list s' = s_list s ->
  (s_lock s' (LCache r d) = s_lock s (LCache r d) \/
   s_lock s (LCache r d) = None /\ s_lock s' (LCache r d) = Some (Usr t) \/
   s_lock s (LCache r d) = Some (Usr t) /\ s_lock s' (LCache r d) = None) ->
  phys s' r d i = phys s r d i.
Proof.
  intros Et Hp Hp' El Hlk. unfold phys, i2b. rewrite Et, El.
  destruct Hlk as [->|[[-> ->]|[-> ->]]].
  - destruct (s_lock s (LCache r d)) as [[t'|]|]; auto. unfold upd. destruct (Nat.eqb_spec t' t); auto. subst.
    destruct (t_pc (s_thr s t)), (t_pc x); cbn in *; tauto.
  - rewrite upd_eq. destruct (t_pc x); cbn in *; tauto.
  - destruct (t_pc (s_thr s t)); cbn in *; tauto.
Qed.

(** The recorded block of a slot changes hands only when the slot is locked by [get]. *)
Lemma phys_thr s t ch s' : inv1 c s -> step_thr c s t ch = Some s' ->
  forall r d i, i < n ->
  phys s' r d i = phys s r d i \/
  exists old, t_pc (s_thr s t) = PGetSlot i old /\ t_pc (s_thr s' t) = PGetBoth i old /\
    r = cf_rank c t /\ d = cf_dom c t /\ s_lock s (LSlot r (node_off c d i)) = None /\
    phys s r d i = old /\ phys s' r d i = i2b s r d i.
Proof.
  intros Hi H r d i Hin.
  pose proof (lock_cm c s t r d Hi) as Hcm.
  pose proof (fun k => held_cm c s t k Hi) as Hcm'.
  destruct (s_thr s t) as [p todo dn] eqn:Et.
  open_step H. rewrite Et in H. cbn [t_pc t_todo t_done] in H, Hcm, Hcm'.
  repeat break; rewrite ?Et; cbn [t_pc t_todo t_done].
  all: try solve [left; eapply phys_eq with (t := t); proj;
    [reflexivity | rewrite Et; exact I | exact I | reflexivity | cbn [lock_eq];
     try (match goal with |- context [(?a =? ?b) && (?e =? ?f)] =>
       destruct (Nat.eqb_spec a b) as [->|], (Nat.eqb_spec e f) as [->|] end); cbn [andb]; auto ]].
  - (* the list answers the request *)
    left. unfold phys, i2b. proj.
    destruct (s_lock s (LCache r d)) as [[t'|r']|] eqn:El.
    + destruct (Nat.eq_dec t' t) as [->|Hne].
      * destruct (Hcm eq_refl) as [-> Hd]. cbn in Hd. injection Hd as <-.
        rewrite upd_eq. cbn [t_pc]. rewrite Et. cbn [t_pc].
        rewrite !updp_eq.
        match goal with E : clist_request _ _ = Ok _ |- _ =>
          apply (request_inv c) in E; [|apply Hi]; destruct E as [(Hlt & Hnew & Hb & Hcase) _] end.
        match goal with |- context [?a =? i] => destruct (Nat.eqb_spec a i) as [->|Hni] end.
        -- destruct Hcase as [(-> & _ & E2 & _)|(_ & E2 & _)].
           ++ rewrite <- E2, Hnew. auto.
           ++ rewrite E2. auto.
        -- destruct Hcase as [(_ & _ & E2 & _)|(_ & _ & _ & E2 & _)].
           ++ now rewrite E2.
           ++ rewrite E2; auto.
      * rewrite upd_ne by auto. rewrite updp_ne; auto.
        destruct (Nat.eq_dec r (cf_rank c t)) as [->|]; auto. destruct (Nat.eq_dec d (cf_dom c t)) as [->|]; auto.
        rewrite (Hcm' _ eq_refl) in El. congruence.
    + rewrite updp_ne; auto. destruct (Nat.eq_dec r (cf_rank c t)) as [->|]; auto. destruct (Nat.eq_dec d (cf_dom c t)) as [->|]; auto.
      rewrite (Hcm' _ eq_refl) in El. congruence.
    + rewrite updp_ne; auto. destruct (Nat.eq_dec r (cf_rank c t)) as [->|]; auto. destruct (Nat.eq_dec d (cf_dom c t)) as [->|]; auto.
      rewrite (Hcm' _ eq_refl) in El. congruence.
  - (* the slot is locked *)
    unfold phys, i2b. proj. cbn [lock_eq].
    destruct (s_lock s (LCache r d)) as [[t'|r']|] eqn:El; auto.
    destruct (Nat.eq_dec t' t) as [->|Hne].
    + destruct (Hcm eq_refl) as [-> Hd]. cbn in Hd. injection Hd as <-.
      rewrite upd_eq, Et. cbn [t_pc]. match goal with |- context [?a =? i] => destruct (Nat.eqb_spec a i) as [->|] end; auto.
      right. eexists. rewrite ?upd_eq. cbn [t_pc]. repeat (split; [reflexivity|]). auto.
    + rewrite upd_ne by auto. auto.
Qed.

Lemma phys_com s r0 ch s' : inv1 c s -> step_com c s r0 ch = Some s' ->
  forall r d i, phys s' r d i = phys s r d i.
Proof.
  intros Hi H r d i.
  pose proof (fun k => held_ccm c s r0 k Hi) as Hcm'.
  destruct (s_com s r0) as [] eqn:Et; open_step H; rewrite Et in H; cbn in Hcm'.
  all: unfold phys, i2b.
  all: repeat break; proj; cbn [lock_eq]; auto.
  all: try (match goal with |- context [(?a =? ?b) && (?e =? ?f)] =>
     destruct (Nat.eqb_spec a b), (Nat.eqb_spec e f); subst end); cbn [andb]; auto.
  all: try match goal with E : s_lock _ (LCache _ _) = None |- _ => rewrite E end; auto.
  all: rewrite (Hcm' _ eq_refl); auto.
Qed.

(** Views of slots a step of [t] does not concern. *)
Lemma view_thr f s t ch s' : inv1 c s -> step_thr c s t ch = Some s' ->
  forall r d i, i < n ->
  (forall i', pc_own (t_pc (s_thr s t)) = Some i' \/ pc_own (t_pc (s_thr s' t)) = Some i' ->
     ~ (r = cf_rank c t /\ d = cf_dom c t /\ i = i')) ->
  view c f s' r d i = view c f s r d i.
Proof.
  intros Hi H r d i Hin Hno.
  pose proof (inv1_thr c Hwf s t ch s' Hi H) as Hi'.
  assert (phys s' r d i = phys s r d i) as Hp.
  { destruct (phys_thr s t ch s' Hi H r d i Hin) as [E|(old & E1 & E2 & -> & -> & _)]; auto.
    exfalso. apply (Hno i); auto. right. rewrite E2. reflexivity. }
  assert (forall t', t' <> t -> s_thr s' t' = s_thr s t') as Ho.
  { intros t' Hne. clear - H Hne. open_step H. repeat break; proj; now rewrite ?upd_ne by auto. }
  assert (forall (s0 : st V), inv1 c s0 -> s_lock s0 (LSlot r (node_off c d i)) = Some (Usr t) -> cf_dom c t = d ->
    r = cf_rank c t /\ pc_own (t_pc (s_thr s0 t)) = Some i) as Hown.
  { intros s0 H0 E <-. destruct (lock_slot c s0 t _ _ H0 E) as [Er [(i0 & E1 & E2)|(k & j & E1 & E2)]].
    - apply (node_off_inj c Hwf) in E2; auto; [destruct E2; subst; auto|]. eapply own_lt; eauto.
    - destruct (for_lt c s0 t k j H0 E1) as (? & Hk & ?). apply (node_off_inj c Hwf) in E2; auto.
      destruct E2. congruence. }
  assert (forall o, o <> Usr t -> s_lock s' (LSlot r (node_off c d i)) = Some o <-> s_lock s (LSlot r (node_off c d i)) = Some o) as Hlk.
  { intros o Hne. rewrite (lock_iff s _ _ Hi), (lock_iff s' _ _ Hi').
    assert (held c s' o = held c s o) as ->; [|tauto].
    destruct o as [t'|r']; cbn.
    - rewrite Ho by congruence. auto.
    - assert (s_com s' = s_com s) as -> by (clear - H; open_step H; repeat break; reflexivity). auto. }
  unfold view. destruct (s_lock s (LSlot r (node_off c d i))) as [o|] eqn:E.
  - destruct (owner_dec o (Usr t)) as [->|Hne].
    + destruct (Nat.eqb_spec (cf_dom c t) d) as [Hd|Hd].
      { exfalso. destruct (Hown s Hi E Hd). eapply Hno; eauto. }
      destruct (s_lock s' (LSlot r (node_off c d i))) as [[t'|]|] eqn:E'; auto.
      destruct (Nat.eq_dec t' t) as [->|Hne]; [apply Nat.eqb_neq in Hd; now rewrite Hd|].
      assert (Usr t' <> Usr t) as Hne' by congruence. pose proof (proj1 (Hlk _ Hne') eq_refl). congruence.
    + rewrite (proj2 (Hlk _ Hne) eq_refl). destruct o as [t'|]; auto.
      rewrite Ho by congruence. destruct (_ =? _); auto.
  - destruct (s_lock s' (LSlot r (node_off c d i))) as [[t'|]|] eqn:E'; auto.
    destruct (Nat.eq_dec t' t) as [->|Hne].
    + destruct (Nat.eqb_spec (cf_dom c t) d) as [Hd|Hd]; auto.
      exfalso. destruct (Hown s' Hi' E' Hd). eapply Hno; eauto.
    + assert (Usr t' <> Usr t) as Hne' by congruence. pose proof (proj1 (Hlk _ Hne') eq_refl). congruence.
Qed.

Lemma view_com f s r0 ch s' : inv1 c s -> step_com c s r0 ch = Some s' ->
  forall r d i, view c f s' r d i = view c f s r d i.
Proof.
  intros Hi H r d i.
  pose proof (inv1_com c s r0 ch s' Hi H) as Hi'.
  pose proof (phys_com s r0 ch s' Hi H r d i) as Hp.
  assert (s_thr s' = s_thr s) as Ht by (clear - H; open_step H; repeat break; reflexivity).
  assert (forall t, s_lock s' (LSlot r (node_off c d i)) = Some (Usr t) <-> s_lock s (LSlot r (node_off c d i)) = Some (Usr t)) as Hlk.
  { intros t. rewrite (lock_iff s _ _ Hi), (lock_iff s' _ _ Hi'). cbn. now rewrite Ht. }
  unfold view. rewrite Hp, Ht.
  destruct (s_lock s (LSlot r (node_off c d i))) as [[t|]|] eqn:E.
  - rewrite (proj2 (Hlk t) eq_refl). auto.
  - destruct (s_lock s' (LSlot r (node_off c d i))) as [[t'|]|] eqn:E'; auto.
    specialize (proj1 (Hlk t') eq_refl). discriminate.
  - destruct (s_lock s' (LSlot r (node_off c d i))) as [[t'|]|] eqn:E'; auto.
    specialize (proj1 (Hlk t') eq_refl). discriminate.
Qed.

(** A slot that was just unlocked by its owner. *)
Lemma view_free f s r d i : s_lock s (LSlot r (node_off c d i)) = None -> view c f s r d i = phys s r d i.
Proof. intros E. unfold view. now rewrite E. Qed.

(** What a step of [t] leaves alone. *)
Lemma frame_thr s t ch s' : inv1 c s -> step_thr c s t ch = Some s' ->
  s_com s' = s_com s /\
  (forall t', t' <> t -> s_thr s' t' = s_thr s t') /\
  (forall r d, ~ (r = cf_rank c t /\ d = cf_dom c t) \/ s_lock s (LCache r d) <> Some (Usr t) -> s_list s' r d = s_list s r d) /\
  (forall r d i, i < n -> ~ (r = cf_rank c t /\ d = cf_dom c t /\ pc_own (t_pc (s_thr s t)) = Some i) ->
     s_data s' r (node_off c d i) = s_data s r (node_off c d i)).
Proof.
  intros Hi H.
  pose proof (fun k => held_cm c s t k Hi) as Hcm'.
  pose proof (fun i => own_lt c s t i Hi) as Hol.
  destruct (s_thr s t) as [p todo dn] eqn:Et.
  open_step H. rewrite Et in H. cbn [t_pc t_todo t_done] in H.
  split; [|split; [|split]].
  - repeat break; reflexivity.
  - intros t' Hne. repeat break; proj; now rewrite ?upd_ne by auto.
  - intros r d Hr. repeat break; proj; auto.
    match goal with |- context [updp ?f ?i ?j ?a ?r ?q] =>
      destruct (updp_cases f i j a r q) as [(-> & -> & ->)|(_ & ->)] end; auto.
    rewrite (Hcm' _ eq_refl) in Hr. exfalso. intuition.
  - intros r d i Hin Hno. repeat break; proj; auto.
    all: match goal with |- context [updp ?f ?i ?j ?a ?r ?q] =>
      destruct (updp_cases f i j a r q) as [(E1 & E2 & ->)|(_ & ->)] end; auto.
    all: exfalso; apply (node_off_inj c Hwf) in E2; auto; destruct E2; subst; apply Hno; auto.
Qed.

(** ** Contents *)
Lemma good_own s s' r o b : s_data s' r o = s_data s r o -> good c s r o b -> good c s' r o b.
Proof. unfold good. intros -> H. exact H. Qed.

(** Stored blocks the own slot may hold before and after. *)
Lemma own_before f s t ch s' i : inv1 c s -> step_thr c s t ch = Some s' ->
  pc_own (t_pc (s_thr s' t)) = Some i -> pc_own (t_pc (s_thr s t)) = Some i \/
  exists old, t_pc (s_thr s t) = PGetSlot i old /\ t_pc (s_thr s' t) = PGetBoth i old /\
   view c f s (cf_rank c t) (cf_dom c t) i = old.
Proof.
  intros Hi H E.
  assert (exists q, t_pc (s_thr s' t) = q) as [q Eq] by eauto. 
  pose proof (fun k => held_cm c s t k Hi) as Hcm'.
  destruct (s_thr s t) as [p todo dn] eqn:Et.
  open_step H. rewrite Et in H. cbn [t_pc t_todo t_done] in H.
  repeat break; proj; rewrite upd_eq in E; cbn [t_pc pc_own] in E; try discriminate; rewrite ?Et in E; cbn [t_pc pc_own]; auto.
  right. injection E as ->. exists old. rewrite upd_eq. cbn [t_pc]. split; auto. split; auto.
  rewrite view_free by auto. unfold phys. rewrite (Hcm' _ eq_refl), Et. cbn [t_pc]. now rewrite Nat.eqb_refl.
Qed.

End Conc.
