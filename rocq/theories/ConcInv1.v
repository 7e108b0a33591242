(** * Concurrent caches: preservation of the basic invariant *)
From Verif Require Export ConcLocks.

Ltac open_step H :=
  unfold step_thr, step_com, try_lock, acquire, release, thread_update, goto, set_lock, set_list, set_data, set_dict,
    set_ireq, set_irep, set_breq, set_brep, set_upd, set_thr, set_com in H;
  cbn [s_lock s_list s_data s_dict s_ireq s_irep s_breq s_brep s_upd s_thr s_com t_pc t_todo t_done] in H.

Ltac proj := cbn [s_lock s_list s_data s_dict s_ireq s_irep s_breq s_brep s_upd s_thr s_com t_pc t_todo t_done] in *.

Lemma updl_fold lk k o : (fun k' => if lock_eq k' k then o else lk k') = updl lk k o.
Proof. reflexivity. Qed.

Lemma upd_eq {A} (f : nat -> A) i a : upd f i a i = a.
Proof. unfold upd. now rewrite Nat.eqb_refl. Qed.
Lemma upd_ne {A} (f : nat -> A) i j a : j <> i -> upd f i a j = f j.
Proof. unfold upd. destruct (Nat.eqb_spec j i); congruence. Qed.
Lemma updp_eq {A} (f : nat -> nat -> A) i j a : updp f i j a i j = a.
Proof. unfold updp. now rewrite !Nat.eqb_refl. Qed.
Lemma updp_ne {A} (f : nat -> nat -> A) i j a i' j' : i' <> i \/ j' <> j -> updp f i j a i' j' = f i' j'.
Proof. unfold updp. destruct (Nat.eqb_spec i' i), (Nat.eqb_spec j' j); cbn; intuition. Qed.
Lemma updp_cases {A} (f : nat -> nat -> A) i j a i' j' :
  (i' = i /\ j' = j /\ updp f i j a i' j' = a) \/ ((i' <> i \/ j' <> j) /\ updp f i j a i' j' = f i' j').
Proof. unfold updp. destruct (Nat.eqb_spec i' i), (Nat.eqb_spec j' j); cbn; intuition. Qed.

Section Conc.
Context {V : Type} (c : cfg V).
Local Notation n := (cf_size c).
Local Notation D := (cf_doms c).
Local Notation K := (cf_cells c).
Local Notation P := (cf_ranks c).
Hypothesis Hwf : wf_cfg c.

Ltac modes :=
  repeat match goal with H : _ /\ _ |- _ => destruct H end;
  repeat match goal with E : cf_mode c = _ |- _ => rewrite E in * end;
  try discriminate.

Lemma locks_thr s t ch s' : inv1 c s -> step_thr c s t ch = Some s' -> locks_ok (s_lock s') (held c s').
Proof.
  intros [Hl Ht Hc Hli Hd Hu Hr Hsr] H. specialize (Ht t).
  destruct (s_thr s t) as [p todo dn] eqn:Et.
  open_step H. rewrite Et in H. cbn [t_pc t_todo t_done] in H.
  assert (forall p' lk li da di a b' e f g o, o <> Usr t ->
   held c (St lk li da di a b' e f g (upd (s_thr s) t p') (s_com s)) o = held c s o) as Hother.
  { intros. destruct o as [t'|]; cbn; auto. unfold upd. destruct (Nat.eqb_spec t' t); [congruence|]. auto. }
  repeat break.
  all: cbn [s_lock].
  all: try rewrite updl_fold.
  all: match goal with
   | |- locks_ok (updl _ ?k (Some _)) _ => apply lock_acq with (hd := held c s); [assumption|assumption|apply Hother|]
   | |- locks_ok (updl _ ?k None) _ => apply lock_rel with (hd := held c s) (o0 := Usr t); [assumption| |apply Hother|]
   | |- _ => apply lock_keep with (hd := held c s) (o0 := Usr t); [assumption|apply Hother|]
   end.
  all: cbn [held]; unfold upd; cbn [s_thr]; rewrite ?Nat.eqb_refl, ?Et; unfold thr_locks; cbn -[node_off In app];
    rewrite ?app_nil_r; cbn [app].
  all: destruct Ht as (_ & Hown & _ & Hk); cbn [t_pc t_todo] in Hk, Hown.
  all: modes; modes.
  all: try solve [cbn; intuition congruence].
  all: specialize (Hown _ eq_refl).
  all: cbn [In]; intros; split; intros; repeat match goal with H : _ \/ _ |- _ => destruct H | H : _ /\ _ |- _ => destruct H end; subst; try tauto; try (split; [auto|]); try congruence.
  all: intros E; injection E as E; apply (node_off_inj c Hwf) in E; auto; destruct E; congruence.
Qed.

Lemma locks_com s r ch s' : inv1 c s -> step_com c s r ch = Some s' -> locks_ok (s_lock s') (held c s').
Proof.
  intros [Hl Ht Hc Hli Hd Hu Hr Hsr] H. specialize (Hc r).
  destruct (s_com s r) as [] eqn:Et; open_step H; rewrite Et in H.
  all: assert (forall p' lk li da di a b' e f g o, o <> Com r ->
   held c (St lk li da di a b' e f g (s_thr s) (upd (s_com s) r p')) o = held c s o) as Hother
    by (intros; destruct o as [|r']; cbn; auto; unfold upd; destruct (Nat.eqb_spec r' r); [congruence|]; auto).
  all: repeat break.
  all: cbn [s_lock].
  all: try rewrite updl_fold.
  all: match goal with
   | |- locks_ok (updl _ ?k (Some _)) _ => apply lock_acq with (hd := held c s); [assumption|assumption|apply Hother|]
   | |- locks_ok (updl _ ?k None) _ => apply lock_rel with (hd := held c s) (o0 := Com r); [assumption| |apply Hother|]
   | |- locks_ok (s_lock _) _ => first [exact Hl | apply lock_keep with (hd := held c s) (o0 := Com r); [assumption|apply Hother|]]
   | |- _ => apply lock_keep with (hd := held c s) (o0 := Com r); [assumption|apply Hother|]
   end.
  all: cbn [held]; unfold upd; cbn [s_com]; rewrite ?Nat.eqb_refl, ?Et; unfold com_locks; cbn -[node_off In app];
    rewrite ?app_nil_r; cbn [app].
  all: try solve [cbn; intuition congruence].
Qed.

(** Request of a list in a state satisfying the invariant. *)
Lemma request_inv (s : st V) r d b l i old :
  (forall r d, exists h tt, clist_inv n h tt (s_list s r d)) ->
  clist_request (s_list s r d) b = Ok (l, i, old) ->
  request_effect n (s_list s r d) l b i old /\ exists h tt, clist_inv n h tt l.
Proof.
  intros Hli E. destruct (Hli r d) as (h & tt & Hi).
  destruct (clist_request_spec n h tt _ b Hi) as (c' & i' & old' & t' & E' & _ & Hi' & He).
  rewrite E in E'. injection E' as <- <- <-. eauto.
Qed.

Lemma peek_inv (s : st V) r d b j :
  (forall r d, exists h tt, clist_inv n h tt (s_list s r d)) ->
  clist_peek (s_list s r d) b = Some j -> j < n /\ m_at (c_i2b (s_list s r d)) j = Some (Some b).
Proof.
  intros Hli E. destruct (Hli r d) as (h & tt & Hi). apply (ci_inv _ _ _ _ Hi) in E. auto.
Qed.

Lemma lists_thr s t ch s' : inv1 c s -> step_thr c s t ch = Some s' ->
  forall r d, exists h tt, clist_inv n h tt (s_list s' r d).
Proof.
  intros [Hl Ht Hc Hli Hd Hu Hr Hsr] H. open_step H. repeat break; proj; auto.
  intros r d. unfold updp. destruct ((r =? cf_rank c t) && (d =? cf_dom c t))%bool; auto.
  destruct (request_inv _ _ _ _ _ _ _ Hli Heqo) as [_ ?]; auto.
Qed.

Lemma lists_com s r ch s' : inv1 c s -> step_com c s r ch = Some s' ->
  forall r d, exists h tt, clist_inv n h tt (s_list s' r d).
Proof. intros [Hl Ht Hc Hli Hd Hu Hr Hsr] H. open_step H. repeat break; proj; auto. Qed.

(** Dictionary operations keep the shape. *)
Definition shape (x : dentry) : Prop :=
  exists l, x = rep l /\ length l <= dict_size /\ Forall (fun e => e < locations c) l.

Lemma shape_update x e x' : shape x -> e < locations c -> update_block_info x e = Ok x' -> shape x'.
Proof.
  intros (l & -> & Hl & Hf) He E. rewrite update_rep in E by auto. assert (x' = rep (firstn dict_size (e :: l))) as -> by congruence.
  exists (firstn dict_size (e :: l)). split; auto. split; [rewrite firstn_length; lia|].
  apply Forall_forall. intros y Hy. apply (subseq_In _ (e :: l)) in Hy; [|apply subseq_firstn].
  destruct Hy as [<-|Hy]; auto. eapply Forall_forall in Hf; eauto.
Qed.

Lemma shape_delete x e x' : shape x -> delete_block_info x e = Ok x' -> shape x'.
Proof.
  intros (l & -> & Hl & Hf) E. rewrite delete_rep in E by auto. assert (x' = rep (del_list l e)) as -> by congruence.
  exists (del_list l e). split; auto. split; [apply del_list_length; auto|].
  apply Forall_forall. intros y Hy. apply (subseq_In _ l) in Hy; [|apply subseq_del].
  eapply Forall_forall in Hf; eauto.
Qed.

Lemma shape_fetch_update x r e y x' : shape x -> e < locations c -> fetch_and_update x r e = Ok (y, x') ->
  shape x' /\ forall z, y = Some z -> z < locations c.
Proof.
  intros (l & -> & Hl & Hf) He E. destruct (fetch_update_rep l r e Hl) as (y' & E' & _ & Hin).
  rewrite E in E'. assert (y' = y /\ x' = rep (firstn dict_size (e :: l))) as [-> ->] by (split; congruence). split.
  - eapply shape_update with (x := rep l) (e := e); eauto; [exists l; auto|]. apply update_rep; auto.
  - intros z Hz. eapply Forall_forall in Hf; eauto.
Qed.

Lemma shape_fetch x r y k : shape x -> fetch_block_info x r = Ok (y, k) ->
  forall z, y = Some z -> z < locations c.
Proof.
  intros (l & -> & Hl & Hf) E. destruct (fetch_rep l r Hl) as (y' & E' & _ & _ & Hin).
  rewrite E in E'. injection E' as <- _. intros z Hz. eapply Forall_forall in Hf; eauto.
Qed.

Lemma dict_thr s t ch s' : inv1 c s -> step_thr c s t ch = Some s' -> dict_shape c s'.
Proof.
  intros [Hl Ht Hc Hli Hd Hu Hr Hsr] H. specialize (Ht t). destruct Ht as (_ & Hown & _ & _).
  open_step H. destruct (t_pc (s_thr s t)) eqn:Ep; cbn in Hown.
  all: repeat break; proj; auto.
  all: intros bb; cbn [s_dict]; unfold upd; match goal with |- exists l, (if ?a =? ?b then _ else _) = _ /\ _ => destruct (Nat.eqb_spec a b) end;
    [subst|apply Hd].
  all: specialize (Hown _ eq_refl); pose proof (own_loc_lt c Hwf t _ Hown).
  all: assert (Hd' : forall b, shape (s_dict s b)) by exact Hd.
  all: match goal with |- exists l, ?x = rep l /\ _ => change (shape x) end.
  all: first [ eapply shape_update; eauto; fail | eapply shape_delete; eauto; fail
             | match goal with E : fetch_and_update _ _ _ = Ok _ |- _ => exact (proj1 (shape_fetch_update _ _ _ _ _ (Hd' _) ltac:(eassumption) E)) end ].
Qed.

Lemma dict_com s r ch s' : inv1 c s -> step_com c s r ch = Some s' -> dict_shape c s'.
Proof.
  intros [Hl Ht Hc Hli Hd Hu Hr Hsr] H.
  open_step H. repeat break; proj; auto.
  all: intros bb; cbn [s_dict]; unfold upd; match goal with |- exists l, (if ?a =? ?b then _ else _) = _ /\ _ => destruct (Nat.eqb_spec a b) end;
    [subst|apply Hd].
  all: match goal with E : nth_error _ _ = Some _ |- _ => apply nth_error_In in E end;
    match goal with E : In _ (s_upd _ _) |- _ => pose proof (proj1 (Forall_forall _ _) (Hu r) _ E) as He; cbn in He end.
  all: assert (Hd' : forall b, shape (s_dict s b)) by exact Hd.
  all: match goal with |- exists l, ?x = rep l /\ _ => change (shape x) end.
  all: match goal with E : (if ?b then _ else _) = Ok _ |- _ => destruct b end.
  all: first [ eapply shape_update; eauto; fail | eapply shape_delete; eauto ].
Qed.

Lemma upd_thr_ok s t ch s' : inv1 c s -> step_thr c s t ch = Some s' -> upd_shape c s'.
Proof.
  intros [Hl Ht Hc Hli Hd Hu Hr Hsr] H. specialize (Ht t). destruct Ht as (_ & Hown & _ & _).
  open_step H. destruct (t_pc (s_thr s t)) eqn:Ep; cbn in Hown.
  all: repeat break; proj; auto.
  all: intros q; unfold upd; cbn [s_upd]; destruct (Nat.eqb_spec q (cf_home c n)); auto; subst.
  all: try (match goal with |- context [?a =? ?b] => destruct (Nat.eqb_spec a b) end; [|apply Hu]).
  all: try (constructor; [|apply Hu]; cbn; apply (own_loc_lt c Hwf); auto).
Qed.

Lemma in_firstn {A} k (l : list A) x : In x (firstn k l) -> In x l.
Proof. intros H. rewrite <- (firstn_skipn k l). apply in_app_iff. auto. Qed.
Lemma in_skipn {A} k (l : list A) x : In x (skipn k l) -> In x l.
Proof. intros H. rewrite <- (firstn_skipn k l). apply in_app_iff. auto. Qed.

Lemma upd_com_ok s r ch s' : inv1 c s -> step_com c s r ch = Some s' -> upd_shape c s'.
Proof.
  intros [Hl Ht Hc Hli Hd Hu Hr Hsr] H. open_step H. repeat break; proj; auto.
  all: intros q; unfold upd; cbn [s_upd]; destruct (Nat.eqb_spec q r); [|apply Hu]; subst.
  all: apply Forall_forall; intros m Hm; apply (proj1 (Forall_forall _ _) (Hu r)).
  all: apply in_app_iff in Hm; destruct Hm as [Hm|Hm]; [eapply in_firstn; eauto|apply (in_skipn (S (ch_src ch))); exact Hm].
Qed.

Lemma rep_thr s t ch s' : inv1 c s -> step_thr c s t ch = Some s' -> rep_shape c s'.
Proof.
  intros [Hl Ht Hc Hli Hd Hu Hr Hsr] H. open_step H. repeat break; proj; auto.
  all: intros r q; cbn [s_irep]; match goal with |- context [updp ?f ?i ?j ?a r q] =>
    destruct (updp_cases f i j a r q) as [(-> & -> & ->)|(_ & ->)] end; [|apply Hr].
  all: match goal with E : s_irep _ ?r ?q = _ |- _ => specialize (Hr r q); rewrite E in Hr end; inversion Hr; auto.
Qed.

Lemma rep_com s r ch s' : inv1 c s -> step_com c s r ch = Some s' -> rep_shape c s'.
Proof.
  intros [Hl Ht Hc Hli Hd Hu Hr Hsr] H. open_step H. repeat break; proj; auto.
  all: intros r' q; cbn [s_irep]; match goal with |- context [updp ?f ?i ?j ?a ?r ?q] =>
    destruct (updp_cases f i j a r q) as [(-> & -> & ->)|(_ & ->)] end; [|apply Hr].
  all: apply Forall_app; split; [apply Hr|]; constructor; [|constructor]; cbn; intros.
  all: assert (Hd' : forall b, shape (s_dict s b)) by exact Hd.
  all: eapply shape_fetch; eauto.
Qed.

Lemma src_thr s t ch s' : inv1 c s -> step_thr c s t ch = Some s' -> src_shape c s'.
Proof.
  intros [Hl Ht Hc Hli Hd Hu Hr Hsr] H. open_step H. repeat break; proj; auto.
  all: intros r q; cbn [s_ireq s_breq]; match goal with |- context [updp ?f ?i ?j ?a r q] =>
    destruct (updp_cases f i j a r q) as [(-> & -> & ->)|(_ & ->)] end; [intros _; apply Hwf|apply Hsr].
Qed.

Lemma src_com s r ch s' : inv1 c s -> step_com c s r ch = Some s' -> src_shape c s'.
Proof.
  intros [Hl Ht Hc Hli Hd Hu Hr Hsr] H. open_step H. repeat break; proj; auto.
  all: intros r' q; cbn [s_ireq s_breq]; match goal with |- context [updp ?f ?i ?j ?a ?r ?q] =>
    destruct (updp_cases f i j a r q) as [(-> & -> & ->)|(_ & ->)] end; [|apply Hsr].
  all: intros _; apply (Hsr _ r).
  all: try (left; congruence); right; congruence.
Qed.

Lemma wf_com_step s r ch s' : inv1 c s -> step_com c s r ch = Some s' -> forall q, wf_com c (s_com s' q).
Proof.
  intros [Hl Ht Hc Hli Hd Hu Hr Hsr] H.
  assert (forall (p : cpc V), wf_com c p -> forall q, wf_com c (upd (s_com s) r p q)) as Hu'.
  { intros p Hp q. unfold upd. destruct (q =? r); auto. }
  pose proof (Hc r) as Hcr.
  destruct (s_com s r) as [] eqn:Et; open_step H; rewrite Et in H; cbn in Hcr.
  all: repeat break; cbn [s_com]; auto; apply Hu'; cbn.
  all: repeat match goal with E : (_ <? _) = true |- _ => apply Nat.ltb_lt in E end.
  all: try tauto; auto.
  - apply (Hsr _ r). right. congruence.
  - destruct (peek_inv _ _ _ _ _ Hli Heqo). tauto.
Qed.

Lemma wf_thr_step s t ch s' : inv1 c s -> step_thr c s t ch = Some s' -> forall q, wf_thr c q (s_thr s' q).
Proof.
  intros [Hl Ht Hc Hli Hd Hu Hr Hsr] H.
  assert (forall (x : thr V), wf_thr c t x -> forall q, wf_thr c q (upd (s_thr s) t x q)) as Hu'.
  { intros p Hp q. unfold upd. destruct (Nat.eqb_spec q t); subst; auto. }
  pose proof (Ht t) as Htt.
  destruct (s_thr s t) as [p todo dn] eqn:Et.
  open_step H. rewrite Et in H. cbn [t_pc t_todo t_done] in H.
  repeat break; cbn [s_thr]; apply Hu'; clear Hu' Ht; rewrite ?Et; unfold wf_thr in *; cbn [t_pc t_todo t_done pc_own req] in *.
  all: destruct Htt as (_ & Hown & Hf & Hx).
  all: repeat match goal with E : (_ <? _) = true |- _ => apply Nat.ltb_lt in E
     | E : (_ =? _) = false |- _ => apply Nat.eqb_neq in E end.
  all: split; [try discriminate; intros; congruence|].
  all: split; [try discriminate; intros ? [= <-]; try (apply Hown; reflexivity)|].
  all: try (split; [first [assumption | inversion Hf; assumption]|]); try tauto.
  all: try solve [modes; auto].
  all: try solve [split; congruence].
  - eapply request_inv; eauto.
  - destruct (peek_inv _ _ _ _ _ Hli Heqo). tauto.
  - split; auto. apply (loc_rank_lt c). eapply shape_fetch; [apply (Hd n)| |reflexivity]; eauto.
  - split; auto. eapply (shape_fetch_update (s_dict s n)); [apply (Hd n)| |eauto|reflexivity].
    apply (own_loc_lt c Hwf). auto.
  - split; [tauto|]. apply (loc_rank_lt c). pose proof (Hr (cf_rank c t) (cf_home c n)) as Hr'.
    rewrite Heql0 in Hr'. inversion Hr' as [|? ? Hh _]; subst. apply Hh. reflexivity.
Qed.

Lemma inv1_thr s t ch s' : inv1 c s -> step_thr c s t ch = Some s' -> inv1 c s'.
Proof.
  intros Hi H. constructor.
  - eapply locks_thr; eauto.
  - eapply wf_thr_step; eauto.
  - assert (s_com s' = s_com s) as -> by (open_step H; repeat break; reflexivity). apply Hi.
  - eapply lists_thr; eauto.
  - eapply dict_thr; eauto.
  - eapply upd_thr_ok; eauto.
  - eapply rep_thr; eauto.
  - eapply src_thr; eauto.
Qed.

Lemma inv1_com s r ch s' : inv1 c s -> step_com c s r ch = Some s' -> inv1 c s'.
Proof.
  intros Hi H. constructor.
  - eapply locks_com; eauto.
  - assert (s_thr s' = s_thr s) as -> by (open_step H; repeat break; reflexivity). apply Hi.
  - eapply wf_com_step; eauto.
  - eapply lists_com; eauto.
  - eapply dict_com; eauto.
  - eapply upd_com_ok; eauto.
  - eapply rep_com; eauto.
  - eapply src_com; eauto.
Qed.

Lemma inv1_step s a s' : inv1 c s -> step c s a = Some s' -> inv1 c s'.
Proof.
  intros Hi H. destruct a; cbn in H.
  - eapply inv1_thr; eauto.
  - destruct (cf_mode c); try discriminate. destruct (r <? P); try discriminate. eapply inv1_com; eauto.
Qed.

Lemma inv1_init : exists l0, clist_init n (cf_spread c) = Ok l0 /\ inv1 c (init c l0) /\
  (forall i, i < n -> m_at (c_i2b l0) i = Some None).
Proof.
  destruct (clist_init_spec n (cf_spread c)) as (l0 & E & Hi & _ & Hb & _).
  { apply Hwf. }
  { unfold eff_spread. pose proof (wc_n c Hwf). pose proof (wc_spread c Hwf).
    destruct (Z.ltb_spec (cf_spread c) 0); [apply Nat.div_lt; lia|lia]. }
  exists l0. split; auto. split; auto. constructor; cbn; eauto.
  - intros k o. split; [discriminate|]. destruct o; cbn; tauto.
  - intros t. unfold wf_thr. cbn. split; [congruence|]. split; [discriminate|]. split; auto. apply Hwf.
  - intros b. exists (cf_dict c b). split; [reflexivity|]. apply (wc_dict c Hwf).
  - intros r. constructor.
  - intros r q. constructor.
  - intros r q [H|H]; cbn in H; congruence.
Qed.

End Conc.
