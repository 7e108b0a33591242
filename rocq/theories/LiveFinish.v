(** * Communication threads: if at most one domain has several threads in a read, all of them can finish *)
From Verif Require Export LiveSettle.
Require Import Bool.

Section Live.
Context {V : Type} (c : cfg V).
Local Notation n := (cf_size c).
Local Notation D := (cf_doms c).
Local Notation K := (cf_cells c).
Local Notation P := (cf_ranks c).
Hypothesis Hwf : wf_cfg c.
Hypothesis Hm : cf_mode c = MThread.
Hypothesis Hd0 : forall b, cf_dict c b = [].
Variable N : nat.
Hypothesis HN : forall t, N <= t -> cf_prog c t = [].


(** Two threads of the same domain are in the middle of reads. *)
Definition together (s : st V) (t t' : nat) : Prop :=
  t <> t' /\ t_pc (s_thr s t) <> PIdle /\ t_pc (s_thr s t') <> PIdle /\
  cf_rank c t = cf_rank c t' /\ cf_dom c t = cf_dom c t'.
(** This happens in one domain only. *)
Definition one_crowd (s : st V) : Prop :=
  forall t t' u u', together s t t' -> together s u u' -> cf_rank c t = cf_rank c u /\ cf_dom c t = cf_dom c u.
Lemma calm_crowd s s' : calm s s' -> one_crowd s -> one_crowd s'.
Proof.
  intros Hc H t t' u u' (H1 & H2 & H3 & H4) (K1 & K2 & K3 & K4).
  apply (H t t' u u'); unfold together; repeat (split; auto); try (apply Hc; auto); tauto.
Qed.
Local Notation OR := (ordered_reachable c).
Local Notation can := (can c).

Lemma or_inv s : OR s -> inv c s.
Proof. intros H. apply (reach_inv c Hwf), ordered_reach; auto. Qed.

(** ** The last steps of a read *)
Definition ending (p : pc V) : Prop :=
  match p with PFill _ | PFilling _ | PEnd _ | PReady _ | PRelease _ _ => True | _ => False end.

Lemma finish s t : OR s -> ending (t_pc (s_thr s t)) -> can s (fun s' => reads N s' < reads N s).
Proof.
  remember (rank_thr c (t_pc (s_thr s t))) as k eqn:Ek. revert s Ek. induction k as [k IH] using lt_wf_ind. intros s -> Hs He.
  pose proof (or_inv s Hs) as Hi.
  assert (t_todo (s_thr s t) <> []) as Hw.
  { apply (works_pc c s t (proj1 Hi)). intros E. rewrite E in He. destruct He. }
  destruct (step_thr c s t ch0) as [s'|] eqn:E.
  2:{ exfalso. destruct (step_blocked c s t ch0 (proj1 Hi) Hw E) as (w & E1 & _). unfold waits in E1.
      destruct (t_pc (s_thr s t)); cbn in He; try tauto; discriminate. }
  assert (t < N) as Ht by (eapply works_lt; eauto).
  pose proof (or_step c s (AThr t ch0) s' Hs E) as Hs'.
  pose proof (track_step c Hwf Hm Hd0 N HN s (AThr t ch0) s' Hi E) as Htr.
  assert ((ending (t_pc (s_thr s' t)) /\ rank_thr c (t_pc (s_thr s' t)) < rank_thr c (t_pc (s_thr s t))) \/
          (t_pc (s_thr s t) <> PIdle /\ t_pc (s_thr s' t) = PIdle)) as [[H1 H2]|[H1 H2]].
  { clear - He E Hm. destruct (s_thr s t) as [p todo dn] eqn:Et. open_step E. rewrite Et in E. cbn [t_pc t_todo t_done] in *.
    repeat break; proj; rewrite upd_eq, ?Et; cbn [t_pc t_todo t_done ending rank_thr] in *; try tauto; try congruence;
      try (left; split; [exact I|lia]). right. split; [discriminate|reflexivity]. }
  - apply (can_thr c Hm s t ch0 s'); auto; [intros E'; rewrite E' in He; exact He|].
    eapply can_trans; [exact (IH _ H2 s' eq_refl Hs' H1)|]. intros s2 H3. apply can_now. cbn beta in *. destruct Htr. lia.
  - apply (can_thr c Hm s t ch0 s'); auto. apply can_now. destruct (proj2 Htr t H1); [congruence|auto].
Qed.

(** ** The communication thread sends a block *)
Lemma send_block s r src b k j x buf : r < P -> s_com s r = CSend src b k j x buf ->
  can s (fun s' => s_thr s' = s_thr s /\ exists buf', s_brep s' src r = s_brep s src r ++ [(b, Some buf')]).
Proof.
  intros Hr. remember (K - x) as m eqn:Em. revert s x buf Em. induction m as [m IH] using lt_wf_ind. intros s x buf -> Ec.
  destruct (step_com c s r ch0) as [s'|] eqn:E; [|unfold step_com in E; rewrite Ec in E; destruct (x <? K); discriminate].
  assert (fifo_step c s (ACom r ch0) = Some s') as Eo by (apply com_ordered; auto; unfold oldest_first; now rewrite Ec).
  apply (can_com c Hm s _ _ s' _ Eo). unfold step_com in E. rewrite Ec in E.
  destruct (x <? K) eqn:Ex; injection E as <-.
  - apply Nat.ltb_lt in Ex. eapply can_trans; [eapply (IH (K - S x)); [lia|reflexivity|cbn; apply upd_eq]|].
    intros s2 [H1 H2]. apply can_now. auto.
  - apply can_now. split; [reflexivity|]. eexists. cbn. rewrite updp_eq. reflexivity.
Qed.

(** The caches of [r] can be searched for [b]. *)
Definition findable (s : st V) (r b d : nat) : Prop :=
  s_lock s (LCache r d) = None /\
  exists j, clist_peek (s_list s r d) b = Some j /\ s_lock s (LSlot r (node_off c d j)) = None.

Lemma search_block s r src b d k : r < P -> d < D -> k <= d -> s_com s r = CTry src b k -> findable s r b d ->
  can s (fun s' => s_thr s' = s_thr s /\ exists buf', s_brep s' src r = s_brep s src r ++ [(b, Some buf')]).
Proof.
  intros Hr Hd. remember (d - k) as m eqn:Em. revert s k Em. induction m as [m IH] using lt_wf_ind.
  intros s k -> Hk Ec (Hc & j & Hp & Hl).
  assert ((k <? D) = true) as Hkd by (apply Nat.ltb_lt; lia).
  destruct (s_lock s (LCache r k)) as [o|] eqn:Eo.
  { (* somebody else has locked the manager *)
    assert (k <> d) by congruence.
    set (s1 := set_com s r (CTry src b (S k))).
    apply (can_com c Hm s r ch0 s1).
    { apply com_ordered; auto; [unfold oldest_first; now rewrite Ec|]. unfold step_com. rewrite Ec, Hkd. unfold try_lock, acquire. cbn [ch_fail ch0]. now rewrite Eo. }
    eapply can_trans; [apply (IH (d - S k)) with (k := S k); [lia|reflexivity|lia|cbn; apply upd_eq|]|].
    - split; [exact Hc|]. exists j. cbn. auto.
    - intros s4 H4. apply can_now. exact H4. }
  (* lock the manager *)
  set (s1 := set_com (set_lock s (LCache r k) (Some (Com r))) r (CTryLocked src b k)).
  apply (can_com c Hm s r ch0 s1).
  { apply com_ordered; auto; [unfold oldest_first; now rewrite Ec|]. unfold step_com. rewrite Ec, Hkd. unfold try_lock, acquire. cbn [ch_fail ch0]. now rewrite Eo. }
  assert (s_com s1 r = CTryLocked src b k) as Ec1 by (cbn; apply upd_eq).
  destruct (clist_peek (s_list s r k) b) as [j'|] eqn:Ej.
  2:{ (* not here *)
    set (s2 := set_com s1 r (CTryMiss src b k)).
    apply (can_com c Hm s1 r ch0 s2).
    { apply com_ordered; auto; [unfold oldest_first; now rewrite Ec1|]. unfold step_com. rewrite Ec1. cbn [s_list s1 set_com set_lock]. now rewrite Ej. }
    set (s3 := set_com (release s2 (LCache r k)) r (CTry src b (S k))).
    apply (can_com c Hm s2 r ch0 s3).
    { assert (s_com s2 r = CTryMiss src b k) as Ec2 by (cbn; apply upd_eq).
      apply com_ordered; auto; [unfold oldest_first; now rewrite Ec2|]. unfold step_com. now rewrite Ec2. }
    assert (k <> d) by congruence.
    eapply can_trans; [apply (IH (d - S k)) with (k := S k); [lia|reflexivity|lia|cbn; apply upd_eq|]|].
    - split.
      + cbn. destruct ((r =? r) && (d =? k))%bool; auto.
      + exists j. cbn. auto.
    - intros s4 H4. apply can_now. exact H4. }
  set (s2 := set_com s1 r (CTryFound src b k j')).
  apply (can_com c Hm s1 r ch0 s2).
  { apply com_ordered; auto; [unfold oldest_first; now rewrite Ec1|]. unfold step_com. rewrite Ec1. cbn [s_list s1 set_com set_lock]. now rewrite Ej. }
  assert (s_com s2 r = CTryFound src b k j') as Ec2 by (cbn; apply upd_eq).
  destruct (s_lock s (LSlot r (node_off c k j'))) as [o|] eqn:Es.
  { set (s3 := set_com s2 r (CTryMiss src b k)).
    apply (can_com c Hm s2 r ch0 s3).
    { apply com_ordered; auto; [unfold oldest_first; now rewrite Ec2|]. unfold step_com. rewrite Ec2. unfold try_lock, acquire. cbn [ch_fail ch0].
      cbn [s_lock s2 s1 set_com set_lock lock_eq]. now rewrite Es. }
    set (s4 := set_com (release s3 (LCache r k)) r (CTry src b (S k))).
    apply (can_com c Hm s3 r ch0 s4).
    { assert (s_com s3 r = CTryMiss src b k) as Ec3 by (cbn; apply upd_eq).
      apply com_ordered; auto; [unfold oldest_first; now rewrite Ec3|]. unfold step_com. now rewrite Ec3. }
    assert (k <> d) by congruence.
    eapply can_trans; [apply (IH (d - S k)) with (k := S k); [lia|reflexivity|lia|cbn; apply upd_eq|]|].
    - split.
      + cbn. destruct ((r =? r) && (d =? k))%bool; auto.
      + exists j. cbn. auto.
    - intros s5 H5. apply can_now. exact H5. }
  set (s3 := set_com (set_lock s2 (LSlot r (node_off c k j')) (Some (Com r))) r (CTryBoth src b k j')).
  apply (can_com c Hm s2 r ch0 s3).
  { apply com_ordered; auto; [unfold oldest_first; now rewrite Ec2|]. unfold step_com. rewrite Ec2. unfold try_lock, acquire. cbn [ch_fail ch0].
    change (s_lock s2 (LSlot r (node_off c k j'))) with (s_lock s (LSlot r (node_off c k j'))). now rewrite Es. }
  set (s4 := set_com (release s3 (LCache r k)) r (CSend src b k j' 0 (fun _ => None))).
  apply (can_com c Hm s3 r ch0 s4).
  { assert (s_com s3 r = CTryBoth src b k j') as Ec3 by (cbn; apply upd_eq).
    apply com_ordered; auto; [unfold oldest_first; now rewrite Ec3|]. unfold step_com. now rewrite Ec3. }
  eapply can_trans; [eapply (send_block s4 r src b k j' 0); [auto|cbn; apply upd_eq]|].
  intros s5 H5. apply can_now. exact H5.
Qed.

(** ** A thread asks a rank for a block *)
Definition askable (s : st V) (src r b d : nat) : Prop :=
  s_com s r = CIdle /\ s_breq s src r = [] /\ s_brep s src r = [] /\ s_lock s (LBlk src) = None /\ findable s r b d.

Lemma ask_block s t i dst d : OR s -> d < D -> t_pc (s_thr s t) = PAskBlk i dst ->
  askable s (cf_rank c t) dst (req (s_thr s t)) d -> can s (fun s' => ending (t_pc (s_thr s' t))).
Proof.
  intros Hs Hd Ep (Hc & Hq & Hb & Hl & Hf). pose proof (or_inv s Hs) as Hi.
  pose proof (i_thr c s (proj1 Hi) t) as (Hw & _ & _ & Hx). rewrite Ep in Hx. destruct Hx as [_ Hdst].
  specialize (Hw ltac:(congruence)).
  destruct (s_thr s t) as [p todo dn] eqn:Et. cbn [t_pc t_todo] in *. subst p.
  destruct todo as [|[b cell] todo]; [congruence|]. cbn [req t_todo] in Hf. clear Hw.
  set (r := cf_rank c t) in *.
  set (s1 := goto (set_lock s (LBlk r) (Some (Usr t))) t (PSendBlk i dst)).
  apply (can_thr c Hm s t ch0 s1).
  { cbn. unfold step_thr. rewrite Et. cbn [t_todo t_pc]. fold r. unfold acquire. now rewrite Hl. }
  { unfold reading. rewrite Et. discriminate. }
  assert (s_thr s1 t = Thr (PSendBlk i dst) ((b, cell) :: todo) dn) as Et1 by (cbn; now rewrite upd_eq, Et).
  set (s2 := goto (set_breq s1 r dst (s_breq s1 r dst ++ [b])) t (PWaitBlk i dst)).
  apply (can_thr c Hm s1 t ch0 s2).
  { cbn [fifo_step oldest_first step]. unfold fifo_step. cbn [oldest_first step]. unfold step_thr. rewrite Et1. cbn [t_todo t_pc]. reflexivity. }
  { unfold reading. rewrite Et1. discriminate. }
  assert (s_thr s2 t = Thr (PWaitBlk i dst) ((b, cell) :: todo) dn) as Et2 by (cbn; now rewrite !upd_eq, Et).
  assert (s_breq s2 r dst = [b]) as Hq2 by (cbn; now rewrite updp_eq, Hq).
  set (s3 := set_com (set_breq s2 r dst []) dst (CTry r b 0)).
  apply (can_com c Hm s2 dst (Choice false 0 (fun _ => None) 1 r) s3).
  { assert (s_com s2 dst = CIdle) as Hc2 by exact Hc.
    apply com_ordered; auto; [unfold oldest_first; now rewrite Hc2|]. unfold step_com. rewrite Hc2. cbn [ch_kind ch_src]. now rewrite Hq2. }
  eapply can_trans; [apply (search_block s3 dst r b d 0); auto; [lia|cbn; apply upd_eq]|].
  intros s4 (Et4 & buf & Eb).
  assert (s_brep s4 r dst = [(b, Some buf)]) as Eb4.
  { rewrite Eb. change (s_brep s3 r dst) with (s_brep s r dst). now rewrite Hb. }
  assert (s_thr s4 t = Thr (PWaitBlk i dst) ((b, cell) :: todo) dn) as Et4' by (rewrite Et4; exact Et2).
  eapply (can_thr c Hm s4 t ch0).
  { unfold fifo_step. cbn [oldest_first step]. unfold step_thr. rewrite Et4'. cbn [t_todo t_pc]. fold r. rewrite Eb4. reflexivity. }
  { unfold reading. rewrite Et4'. discriminate. }
  apply can_now. cbn. rewrite upd_eq. exact I.
Qed.

(** ** What holds at rest *)
Lemma rest_lock s k : OR s -> at_rest c s -> match k with LSlot _ _ | LCache _ _ => False | _ => True end -> s_lock s k = None.
Proof.
  intros Hs (Hp & Hc & _) Hk. pose proof (or_inv s Hs) as [Hi _].
  destruct (s_lock s k) as [[t|r]|] eqn:E; auto; exfalso.
  - pose proof (holder_pc c s t k Hi E) as Hh.
    assert (match t_pc (s_thr s t) with PIdle | PStart _ | PGetSlot _ _ => True | _ => False end) as Hp'.
    { destruct (Hp t) as [H|(t' & H)]; [|unfold kept in H]; destruct (t_pc (s_thr s t)); cbn in *; auto. }
    destruct k; try tauto.
    + destruct Hh as [H1 H2]. apply (lock_iff c s _ _ Hi) in E. cbn in E. unfold thr_locks in E.
      destruct (t_pc (s_thr s t)); cbn in *; intuition discriminate.
    + destruct Hh as [i [Hh|Hh]]; rewrite Hh in Hp'; exact Hp'.
    + destruct Hh as (i & dst & [Hh|Hh]); rewrite Hh in Hp'; exact Hp'.
  - apply (com_rank_lt c s r k Hi E). apply Hc.
Qed.

(** A manager is locked by a thread of its domain, which waits for a slot. *)
Lemma rest_manager s r d : OR s -> at_rest c s -> s_lock s (LCache r d) <> None ->
  exists t t', s_lock s (LCache r d) = Some (Usr t) /\ kept c s t t' /\ cf_rank c t = r /\ cf_dom c t = d.
Proof.
  intros Hs (Hp & Hc & _) Hl. pose proof (or_inv s Hs) as [Hi _].
  destruct (s_lock s (LCache r d)) as [[t|q]|] eqn:E; [| |congruence].
  - pose proof (lock_cm c s t r d Hi E) as [Er Hd].
    destruct (Hp t) as [H|(t' & H)].
    { exfalso. destruct (t_pc (s_thr s t)); cbn in *; try tauto; discriminate. }
    exists t, t'. split; auto. split; auto. unfold kept in H. destruct (t_pc (s_thr s t)); cbn in *; try tauto. split; congruence.
  - exfalso. apply (com_rank_lt c s q _ Hi E). apply Hc.
Qed.

(** Only the manager of the domain of [t] may be locked. *)
Definition only (s : st V) (t : nat) : Prop :=
  forall r d, s_lock s (LCache r d) <> None -> r = cf_rank c t /\ d = cf_dom c t.

Lemma kept_together s t t' : inv1 c s -> kept c s t t' -> together s t t'.
Proof.
  intros Hi H. destruct (kept_same c Hwf s t t' Hi H) as (H1 & H2 & H3). unfold kept in H.
  destruct (t_pc (s_thr s t)) eqn:Ep; try tauto. destruct H as [_ H].
  split; auto. split; [congruence|]. split; auto. intros E. rewrite E in H. exact H.
Qed.

Lemma kept_only s t t' : OR s -> at_rest c s -> one_crowd s -> kept c s t t' -> only s t'.
Proof.
  intros Hs Hr Hone Hk r d Hl. destruct (rest_manager s r d Hs Hr Hl) as (u & u' & _ & Hu & <- & <-).
  pose proof (or_inv s Hs) as [Hi _]. pose proof (kept_together s t t' Hi Hk) as Ht. pose proof (kept_together s u u' Hi Hu) as Hu'.
  destruct (Hone _ _ _ _ Ht Hu') as [<- <-]. destruct Ht as (_ & _ & _ & -> & ->). auto.
Qed.

Lemma rest_findable s t i e : OR s -> at_rest c s -> only s t -> t_pc (s_thr s t) = PStart i ->
  e < locations c -> listed s (req (s_thr s t)) e -> findable s (e_rank c e) (req (s_thr s t)) (e_dom c e).
Proof.
  intros Hs Hr Ho Ep He Hl. destruct (ordered_dsync c Hwf Hm Hd0 s Hs) as [[Hi Hj] Hd].
  set (b := req (s_thr s t)) in *.
  pose proof (or_once c Hwf Hm s Hs) as Hon.
  pose proof Hr as (Hp & Hcu & _).
  pose proof (d_agree c s Hd b e He) as Ha. rewrite (proj2 (Hcu _)) in Ha. cbn in Ha. specialize (Ha Hl).
  unfold adv, view in Ha.
  pose proof (e_slot_lt c Hwf e) as Hsl.
  assert (s_lock s (LSlot (e_rank c e) (node_off c (e_dom c e) (e_slot c e))) = None /\ phys s (e_rank c e) (e_dom c e) (e_slot c e) = Some b) as [H1 H2].
  { destruct (s_lock s (LSlot _ _)) as [[t'|r]|] eqn:E.
    - exfalso. specialize (Hp t'). destruct (lock_slot c s t' _ _ Hi E) as [_ [(i' & E1 & E2)|(k & j & E1 & E2)]].
      + pose proof (own_lt c s t' i' Hi E1). apply (node_off_inj c Hwf) in E2 as [E2 _]; auto.
        rewrite E2, Nat.eqb_refl in Ha. unfold pc_adv in Ha. unfold kept in Hp.
        destruct (t_pc (s_thr s t')); cbn in *; try discriminate; destruct Hp as [[]|(? & [])].
      + unfold kept in Hp. destruct (t_pc (s_thr s t')); cbn in *; try discriminate; destruct Hp as [[]|(? & [])].
    - exfalso. apply (com_rank_lt c s r _ Hi E). apply Hcu.
    - split; auto. destruct (phys _ _ _ _) as [b'|]; [|discriminate]. apply Nat.eqb_eq in Ha. congruence. }
  assert (s_lock s (LCache (e_rank c e) (e_dom c e)) = None) as Hc.
  { destruct (s_lock s (LCache _ _)) as [o|] eqn:Eo; auto. exfalso.
    destruct (Ho (e_rank c e) (e_dom c e)) as [Er Ed]; [congruence|].
    assert (pc_own (t_pc (s_thr s t)) = Some i) as Eow by now rewrite Ep.
    destruct (j_thr c s Hj t) as (Hown & _). specialize (Hown i Eow).
    assert (i < n) as Hin by (eapply own_lt; eauto).
    rewrite Er, Ed in *. rewrite (Hon _ _ _ _ _ Hsl Hin H2 Hown) in H1.
    rewrite (held_own c s t i Hi Eow) in H1. discriminate. }
  split; auto. exists (e_slot c e). split; auto.
  destruct (i_list c s Hi (e_rank c e) (e_dom c e)) as (h & tt & Hci). apply (ci_inv _ _ _ _ Hci).
  unfold phys in H2. rewrite Hc in H2.
  split; auto. unfold i2b in H2. destruct (m_at _ _) as [o|]; [congruence|discriminate].
Qed.

Lemma e_dom_lt e : e_dom c e < D.
Proof.
  unfold e_dom. pose proof (d_pos c Hwf). pose proof (wc_n c Hwf).
  apply Nat.div_lt_upper_bound; [lia|]. apply Nat.mod_upper_bound. intros E. apply Nat.eq_mul_0 in E. lia.
Qed.

Lemma fetch_listed s b r x k : inv1 c s -> fetch_block_info (s_dict s b) r = Ok (Some x, k) -> listed s b x /\ x < locations c.
Proof.
  intros Hi E. destruct (i_dict c s Hi b) as (l & El & Hl & Hf). unfold listed. rewrite El in *.
  destruct (fetch_rep l r Hl) as (x' & Ex & _ & _ & Hx). rewrite Ex in E. injection E as -> _.
  specialize (Hx x eq_refl). split; [now apply rep_In|]. rewrite Forall_forall in Hf. auto.
Qed.

(** ** A thread which waits for its transfer gets its block *)
Lemma start_served s t i : OR s -> at_rest c s -> only s t -> t_pc (s_thr s t) = PStart i ->
  can s (fun s' => ending (t_pc (s_thr s' t))).
Proof.
  intros Hs Hr Ho Ep. pose proof (or_inv s Hs) as [Hi Hj].
  pose proof (fun e => rest_findable s t i e Hs Hr Ho Ep) as Hfind.
  pose proof (i_thr c s Hi t) as (Hw & _). rewrite Ep in Hw. specialize (Hw ltac:(congruence)).
  destruct (s_thr s t) as [p todo dn] eqn:Et. cbn [t_pc t_todo] in *. subst p.
  destruct todo as [|[b cell] todo]; [congruence|]. clear Hw.
  set (r := cf_rank c t) in *.
  destruct (dict_ops_ok c s b 0 0 Hi) as (_ & _ & _ & (y & k & Ex)).
  assert (s_brep s r = s_brep s r) as _ by auto.
  assert (forall e, y = Some e -> askable s r (e_rank c e) b (e_dom c e)) as Hask.
  { intros e ->. destruct (fetch_listed s b 0 e k Hi Ex) as [Hl He].
    pose proof Hr as (Hp & Hcu & Hq). pose proof (rest_lock s (LBlk r) Hs Hr I) as Hlb.
    split; [apply Hcu|]. split; [apply Hq|]. split.
    - pose proof (j_blk c s Hj r (e_rank c e)) as Ht. unfold blk_tokens, blk_expected in Ht. rewrite Hlb in Ht.
      apply app_eq_nil in Ht as [_ Ht]. apply app_eq_nil in Ht as [_ Ht]. now apply map_eq_nil in Ht.
    - split; auto. }
  destruct (Nat.eq_dec (cf_home c b) r) as [Eh|Eh].
  - (* own dictionary *)
    destruct y as [e|].
    + set (s1 := goto s t (PAskBlk i (e / (n * D)))).
      assert (fifo_step c s (AThr t ch0) = Some s1) as E1.
      { unfold fifo_step. cbn [oldest_first step]. unfold step_thr. rewrite Et. cbn [t_todo t_pc]. fold r. rewrite Hm, Eh, Nat.eqb_refl. cbn [ch_rand ch0]. now rewrite Ex. }
      apply (can_thr c Hm s _ _ s1 _ E1); [unfold reading; rewrite Et; discriminate|].
      assert (s_thr s1 t = Thr (PAskBlk i (e_rank c e)) ((b, cell) :: todo) dn) as Et1 by (cbn; now rewrite upd_eq, Et).
      apply (ask_block s1 t i (e_rank c e) (e_dom c e)); [eapply or_step; eauto|apply e_dom_lt|now rewrite Et1|].
      rewrite Et1. apply Hask. auto.
    + eapply (can_thr c Hm s t ch0).
      { unfold fifo_step. cbn [oldest_first step]. unfold step_thr. rewrite Et. cbn [t_todo t_pc]. fold r. rewrite Hm, Eh, Nat.eqb_refl. cbn [ch_rand ch0]. now rewrite Ex. }
      { unfold reading. rewrite Et. discriminate. }
      apply can_now. cbn. rewrite upd_eq. exact I.
  - (* dictionary of another rank *)
    pose proof (rest_lock s (LInfo r) Hs Hr I) as Hli.
    set (h := cf_home c b) in *.
    assert (s_ireq s r h = [] /\ s_irep s r h = []) as [Hq Hp].
    { pose proof (j_info c s Hj r h) as Ht. unfold info_tokens, info_expected in Ht. rewrite Hli in Ht.
      apply app_eq_nil in Ht as [H1 H2]. apply map_eq_nil in H2. auto. }
    set (s1 := goto (set_lock s (LInfo r) (Some (Usr t))) t (PAskInfo i)).
    assert (fifo_step c s (AThr t ch0) = Some s1) as E1.
    { unfold fifo_step. cbn [oldest_first step]. unfold step_thr. rewrite Et. cbn [t_todo t_pc]. fold r h. rewrite Hm.
      destruct (Nat.eqb_spec h r) as [E|]; [congruence|]. unfold acquire. now rewrite Hli. }
    apply (can_thr c Hm s _ _ s1 _ E1); [unfold reading; rewrite Et; discriminate|]. pose proof (or_step c _ _ _ Hs E1) as Hs1.
    assert (s_thr s1 t = Thr (PAskInfo i) ((b, cell) :: todo) dn) as Et1 by (cbn; now rewrite upd_eq, Et).
    set (s2 := goto (set_ireq s1 r h (s_ireq s1 r h ++ [b])) t (PWaitInfo i)).
    assert (fifo_step c s1 (AThr t ch0) = Some s2) as E2.
    { unfold fifo_step. cbn [oldest_first step]. unfold step_thr. rewrite Et1. cbn [t_todo t_pc]. reflexivity. }
    apply (can_thr c Hm s1 _ _ s2 _ E2); [unfold reading; rewrite Et1; discriminate|]. pose proof (or_step c _ _ _ Hs1 E2) as Hs2.
    assert (s_thr s2 t = Thr (PWaitInfo i) ((b, cell) :: todo) dn) as Et2 by (cbn; now rewrite !upd_eq, Et).
    assert (s_ireq s2 r h = [b]) as Hq2 by (cbn; now rewrite updp_eq, Hq).
    set (s3 := set_irep (set_ireq s2 r h []) r h (s_irep s2 r h ++ [(b, y)])).
    assert (fifo_step c s2 (ACom h (Choice false 0 (fun _ => None) 0 r)) = Some s3) as E3.
    { assert (s_com s2 h = CIdle) as Hc2 by (apply Hr).
      apply com_ordered; auto; [apply Hwf|unfold oldest_first; now rewrite Hc2|]. unfold step_com. rewrite Hc2. cbn [ch_kind ch_src ch_rand]. rewrite Hq2.
      change (s_dict s2 b) with (s_dict s b). now rewrite Ex. }
    apply (can_com c Hm s2 _ _ s3 _ E3). pose proof (or_step c _ _ _ Hs2 E3) as Hs3.
    assert (s_thr s3 t = Thr (PWaitInfo i) ((b, cell) :: todo) dn) as Et3 by exact Et2.
    assert (s_irep s3 r h = [(b, y)]) as Hp3 by (cbn; now rewrite updp_eq, Hp).
    destruct y as [e|].
    + set (s4 := goto (release (set_irep s3 r h []) (LInfo r)) t (PAskBlk i (e / (n * D)))).
      assert (fifo_step c s3 (AThr t ch0) = Some s4) as E4.
      { unfold fifo_step. cbn [oldest_first step]. unfold step_thr. rewrite Et3. cbn [t_todo t_pc]. fold r h. now rewrite Hp3. }
      apply (can_thr c Hm s3 _ _ s4 _ E4); [unfold reading; rewrite Et3; discriminate|].
      assert (s_thr s4 t = Thr (PAskBlk i (e_rank c e)) ((b, cell) :: todo) dn) as Et4.
      { change (s_thr s4) with (upd (s_thr s3) t (Thr (PAskBlk i (e_rank c e)) (t_todo (s_thr s3 t)) (t_done (s_thr s3 t)))). now rewrite upd_eq, Et3. }
      apply (ask_block s4 t i (e_rank c e) (e_dom c e)); [eapply or_step; eauto|apply e_dom_lt|now rewrite Et4|].
      rewrite Et4. fold r. destruct (Hask e eq_refl) as (A1 & A2 & A3 & A4 & A5 & j & A6 & A7).
      split; [exact A1|]. split; [exact A2|]. split; [exact A3|]. split; [exact A4|]. split; [exact A5|]. exists j. split; [exact A6|exact A7].
    + eapply (can_thr c Hm s3 t ch0).
      { unfold fifo_step. cbn [oldest_first step]. unfold step_thr. rewrite Et3. cbn [t_todo t_pc]. fold r h. rewrite Hp3. reflexivity. }
      { unfold reading. rewrite Et3. discriminate. }
      apply can_now. change (ending (t_pc (upd (s_thr s3) t (Thr (PFill i) (t_todo (s_thr s3 t)) (t_done (s_thr s3 t))) t))).
      rewrite upd_eq. exact I.
Qed.

Lemma start_finishes s t i : OR s -> at_rest c s -> only s t -> t_pc (s_thr s t) = PStart i -> can s (fun s' => reads N s' < reads N s).
Proof.
  intros Hs Hr Ho Ep.
  eapply can_trans; [exact (can_or c s _ Hs (can_track c Hwf Hm Hd0 N HN s _ Hs (start_served s t i Hs Hr Ho Ep)))|].
  intros s1 (Hs1 & Ht & He). eapply can_trans; [apply (finish s1 t Hs1 He)|].
  intros s2 H2. apply can_now. cbn beta in *. destruct Ht. lia.
Qed.

(** The thread whose slot somebody waits for. *)
Lemma kept_finishes s t t' : OR s -> at_rest c s -> one_crowd s -> kept c s t t' -> can s (fun s' => reads N s' < reads N s).
Proof.
  intros Hs Hr Hone Hk. pose proof (kept_only s t t' Hs Hr Hone Hk) as Ho. unfold kept in Hk.
  destruct (t_pc (s_thr s t)); try tauto. destruct Hk as [_ Hk]. destruct (t_pc (s_thr s t')) eqn:Ep; try tauto.
  eapply start_finishes; eauto.
Qed.

(** A thread works which has started a read. *)
Lemma rest_finishes s t : OR s -> at_rest c s -> one_crowd s -> t_pc (s_thr s t) <> PIdle -> can s (fun s' => reads N s' < reads N s).
Proof.
  intros Hs Hr Hone Hp. pose proof (or_inv s Hs) as Hi.
  destruct (below (fun u => ~ exists t', kept c s u t') N) as [(u & _ & Hu)|Hn].
  { intros u. destruct (kept_dec c s u); [right|left]; tauto. }
  { destruct (kept_dec c s u) as [(t' & H)|H]; [|tauto]. eapply kept_finishes; eauto. }
  assert (forall u t', ~ kept c s u t') as Hno.
  { intros u t' H. destruct (lt_dec u N) as [Hu|Hu]; [apply (Hn u Hu); eauto|].
    destruct (kept_together s u t' (proj1 Hi) H) as (_ & Hw & _). apply (works_pc c s u (proj1 Hi)) in Hw.
    apply Hw. apply (todo_nil c N HN); auto. lia. }
  destruct (proj1 Hr t) as [H|(t' & H)]; [|destruct (Hno t t' H)].
  destruct (t_pc (s_thr s t)) eqn:Ep; cbn in H; try tauto. apply (start_finishes s t i); auto.
  intros r d Hl. exfalso. destruct (rest_manager s r d Hs Hr Hl) as (u & u' & _ & Hu & _). exact (Hno _ _ Hu).
Qed.

(** If a read has been started, one can be completed. *)
Lemma progress_read s t : OR s -> one_crowd s -> t_pc (s_thr s t) <> PIdle -> can s (fun s' => reads N s' < reads N s).
Proof.
  intros Hs Hone Hp.
  eapply can_trans; [exact (can_calm c s _ (can_or c s _ Hs (can_track c Hwf Hm Hd0 N HN s _ Hs (settle c Hwf Hm Hd0 N HN s Hs))))|].
  intros s1 (Hc & Hs1 & [Hle Ht] & Hr).
  destruct (Ht t Hp) as [Hp1|H1]; [|apply can_now; cbn beta in *; lia].
  eapply can_trans; [apply (rest_finishes s1 t); auto; eapply calm_crowd; eauto|].
  intros s2 H2. apply can_now. cbn beta in *. lia.
Qed.

Lemma can_finish s : OR s -> one_crowd s -> exists acts s', fifo_run c s acts = Some s' /\ forall t, t_todo (s_thr s' t) = [].
Proof.
  remember (reads N s) as k eqn:Ek. revert s Ek. induction k as [k IH] using lt_wf_ind. intros s -> Hs Hone.
  pose proof (or_inv s Hs) as Hi.
  assert (forall s0 t acts0, fifo_run c s acts0 = Some s0 -> OR s0 -> one_crowd s0 -> reads N s0 <= reads N s -> t_pc (s_thr s0 t) <> PIdle ->
    exists acts s', fifo_run c s acts = Some s' /\ forall t, t_todo (s_thr s' t) = []) as Hgo.
  { intros s0 t acts0 E0 Hs0 H0 Hle Hp.
    destruct (can_or c s0 _ Hs0 (progress_read s0 t Hs0 H0 Hp)) as (acts & s1 & E1 & Hc & Hs1 & Hlt).
    destruct (IH (reads N s1) ltac:(lia) s1 eq_refl Hs1 (calm_crowd _ _ Hc H0)) as (acts' & s' & E' & Hd).
    exists (acts0 ++ acts ++ acts'), s'. split; auto. eapply run_app; eauto. eapply run_app; eauto. }
  destruct (below (fun t => t_pc (s_thr s t) = PIdle) N) as [(t & Ht & Hp)|Hidle].
  { intros t. destruct (t_pc (s_thr s t)); auto; right; discriminate. }
  { apply (Hgo s t []); auto. }
  assert (forall t, t_pc (s_thr s t) = PIdle) as Hall.
  { intros t. destruct (lt_dec t N) as [|Ht]; auto.
    destruct (t_pc (s_thr s t)) eqn:E; auto; exfalso; apply (works_pc c s t (proj1 Hi)); try congruence; apply (todo_nil c N HN); auto; lia. }
  (* nobody reads: a thread starts *)
  destruct (settle c Hwf Hm Hd0 N HN s Hs) as (acts & s1 & E1 & Hc & Hr).
  assert (forall t, t_pc (s_thr s1 t) = PIdle) as Hall1.
  { intros t. specialize (Hc t). unfold reading in Hc. rewrite Hall in Hc.
    destruct (t_pc (s_thr s1 t)); auto; exfalso; apply Hc; auto; discriminate. }
  pose proof (or_run c s acts s1 Hs E1) as Hs1.
  pose proof (track_run c Hwf Hm Hd0 N HN acts s s1 Hi E1) as [Hle _].
  destruct (below (fun t => t_todo (s_thr s1 t) = []) N) as [(t & Ht & Hw')|H0].
  { intros t. destruct (t_todo (s_thr s1 t)); auto. right. discriminate. }
  2:{ exists acts, s1. split; auto. intros t. destruct (lt_dec t N) as [|Ht]; auto. apply (todo_nil c N HN); [apply or_inv; auto|lia]. }
  destruct (s_lock s1 (LCache (cf_rank c t) (cf_dom c t))) as [o|] eqn:El.
  { exfalso. destruct (rest_manager s1 (cf_rank c t) (cf_dom c t) Hs1 Hr) as (u & u' & _ & Hu & _); [congruence|].
    unfold kept in Hu. rewrite Hall1 in Hu. exact Hu. }
  specialize (Hall1 t) as Ep.
  destruct (s_thr s1 t) as [p todo dn] eqn:Et. cbn [t_pc t_todo] in *. subst p.
  destruct todo as [|[b cell] todo]; [congruence|].
  set (s2 := goto (set_lock s1 (LCache (cf_rank c t) (cf_dom c t)) (Some (Usr t))) t PGetLocked).
  assert (fifo_step c s1 (AThr t ch0) = Some s2) as E2.
  { unfold fifo_step. cbn [oldest_first step]. unfold step_thr. rewrite Et. cbn [t_todo t_pc]. unfold acquire. now rewrite El. }
  pose proof (or_step c _ _ _ Hs1 E2) as Hs2.
  pose proof (track_step c Hwf Hm Hd0 N HN s1 _ s2 (or_inv s1 Hs1) E2) as [Hle2 _].
  assert (forall u, t_pc (s_thr s2 u) <> PIdle -> u = t) as Hlone.
  { intros u Hu. destruct (Nat.eq_dec u t) as [|Hne]; auto. exfalso. apply Hu. cbn. rewrite upd_ne by auto. apply Hall1. }
  apply (Hgo s2 t (acts ++ [AThr t ch0])).
  - eapply run_app; [exact E1|]. cbn [fifo_run]. now rewrite E2.
  - exact Hs2.
  - intros u u' v v' (H1 & H2 & H3 & _). exfalso. apply H1. rewrite (Hlone _ H2), (Hlone _ H3). reflexivity.
  - lia.
  - cbn. rewrite upd_eq. discriminate.
Qed.

(** At most one domain has several threads. *)
Definition share_domain (t t' : nat) : Prop :=
  t <> t' /\ cf_prog c t <> [] /\ cf_prog c t' <> [] /\ cf_rank c t = cf_rank c t' /\ cf_dom c t = cf_dom c t'.
Lemma share_crowd s : OR s ->
  (forall t t' u u', share_domain t t' -> share_domain u u' -> cf_rank c t = cf_rank c u /\ cf_dom c t = cf_dom c u) ->
  one_crowd s.
Proof.
  intros Hs H. pose proof (or_inv s Hs) as Hi.
  assert (forall t t', together s t t' -> share_domain t t') as Hsh.
  { intros t t' (H1 & H2 & H3 & H4). split; auto. split; [|split; auto]; eapply prog_work; eauto; apply (works_pc c s _ (proj1 Hi)); auto. }
  intros t t' u u' H1 H2. eauto.
Qed.

Lemma fifo_reach l0 acts s : clist_init n (cf_spread c) = Ok l0 -> fifo_run c (init c l0) acts = Some s -> reachable c s.
Proof.
  intros E H. apply ordered_reach. apply (or_run c (init c l0) acts); auto. exists l0, []. auto.
Qed.

(** All reads can be completed after the grid was opened. *)
Lemma can_complete l0 : clist_init n (cf_spread c) = Ok l0 ->
  exists acts s, fifo_run c (init c l0) acts = Some s /\ forall t, t_todo (s_thr s t) = [].
Proof.
  intros E. apply can_finish; [exists l0, []; auto|]. intros t t' u u' (_ & H & _). now destruct H.
Qed.
End Live.
