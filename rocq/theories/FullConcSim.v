(** * Concurrent full grids: every execution is one of a cache grid without MPI (ConcModel.v, [MNo]) *)
From Verif Require Export FullConcModel ConcInv5 LevelsFacts.

Section F.
Context {W : Type} (c : fcfg W).
Local Notation n := (fc_size c).
Local Notation D := (d_domains (fc_dist c)).
Local Notation P := (d_ranks (fc_dist c)).
Local Notation K := (fc_cells c).
Local Notation d_ := (fc_dist c).

(** What is assumed about a system. *)
Record wf_fcfg : Prop := {
  wf_n : 0 < n;
  wf_spread : (fc_spread c < Z.of_nat n)%Z;
  wf_rank : forall t, fc_rank c t < P;
  wf_dom : forall t, fc_dom c t < D;
  wf_prog : forall t, Forall (fun q => fst q < d_total d_ /\ snd q < K) (fc_prog c t);
  wf_nompi : fc_mpi c = XNo -> fc_numa c <> PNumaNo /\ P = 1
}.

(** Content of a block: what its home stores. *)
Definition bcont (b x : nat) : W := fc_store c (block_rank d_ b) (node_cell c (block_node_offset d_ b) x).

Definition remote (t : nat) (q : nat * nat) : bool :=
  negb ((block_rank d_ (fst q) =? fc_rank c t) && (block_domain d_ (fst q) =? fc_dom c t)).

Definition cc : cfg W :=
  Cfg MNo P D n (fc_spread c) K (fc_rank c) (fc_dom c) (fun _ => 0) bcont (fun _ => [])
      (fun t => filter (remote t) (fc_prog c t)).

Definition abs_pc (p : fpc W) : pc W :=
  match p with
  | QIdle => PIdle
  | QGetLocked => PGetLocked
  | QGetSlot i old => PGetSlot i old
  | QGetBoth i old => PGetBoth i old
  | QHave i old => PHave i old
  | QNuma i => PSearch i 0
  | QMem i _ => PFilling i
  | QSearch i k => PSearch i k
  | QTryLocked i k => PTryLocked i k
  | QTryMiss i k => PTryMiss i k
  | QTryFound i k j => PTryFound i k j
  | QTryBoth i k j => PTryBoth i k j
  | QCopy i k j x => PCopy i k j x
  | QCopyDone i k j => PCopyDone i k j
  | QMpi i => PStart i
  | QGet i _ => PFilling i
  | QAsk i => PFilling i
  | QWait i => PFilling i
  | QReady i => PReady i
  | QRelease i v => PRelease i v
  end.

Definition abs_thr (t : nat) (x : fthr W) : thr W :=
  Thr (abs_pc (q_pc x)) (filter (remote t) (q_todo x)) (filter (fun a => remote t (fst a)) (q_done x)).

(** The slot a thread fills from a storage. *)
Definition pc_fill (p : fpc W) : option nat :=
  match p with QMem i _ | QGet i _ | QAsk i | QWait i => Some i | _ => None end.

Definition filling (s : fst_ W) (r o : nat) : Prop :=
  exists t i, pc_fill (q_pc (u_thr s t)) = Some i /\ r = fc_rank c t /\ o = uoff c (fc_dom c t) i.

Record sim (s : fst_ W) (z : st W) : Prop := {
  m_cache : forall r d, s_lock z (LCache r d) = option_map Usr (u_lock s (LCache r d));
  m_slot : forall r o, s_lock z (LSlot r o) = option_map Usr (u_lock s (LSlot r o));
  m_list : forall r d, s_list z r d = u_list s r d;
  m_thr : forall t, s_thr z t = abs_thr t (u_thr s t);
  m_data : forall r o x, x < K -> ~ filling s r o -> s_data z r o x = u_data s r o x
}.

Definition rq (x : fthr W) : nat := match q_todo x with (b, _) :: _ => b | [] => 0 end.

Definition pc_ok (s : fst_ W) (t : nat) (x : fthr W) : Prop :=
  let part i y := forall z, z < y -> z < K -> u_data s (fc_rank c t) (uoff c (fc_dom c t) i) z = Some (bcont (rq x) z) in
  match q_pc x with
  | QMem i y => block_rank d_ (rq x) = fc_rank c t /\ part i y
  | QGet i y => fc_mpi c = XWin /\ part i y
  | QAsk _ | QWait _ => fc_mpi c = XThread
  | QMpi _ | QSearch _ _ | QTryLocked _ _ | QTryMiss _ _ | QTryFound _ _ _ => fc_mpi c <> XNo
  | _ => True
  end.

(** Facts about the state which the abstraction leaves out. *)
Record linv (s : fst_ W) : Prop := {
  li_todo : forall t, q_pc (u_thr s t) <> QIdle ->
    exists b cell todo, q_todo (u_thr s t) = (b, cell) :: todo /\ remote t (b, cell) = true;
  li_pc : forall t, pc_ok s t (u_thr s t);
  li_win : forall r t, u_lock s (LInfo r) = Some t <-> fc_rank c t = r /\ exists i x, q_pc (u_thr s t) = QGet i x;
  li_snd : forall r t, u_lock s (LBlk r) = Some t <->
    fc_rank c t = r /\ exists i, q_pc (u_thr s t) = QAsk i \/ q_pc (u_thr s t) = QWait i;
  li_msg : forall src dst, u_req s src dst <> [] \/ u_rep s src dst <> [] ->
    exists t i, fc_rank c t = src /\ q_pc (u_thr s t) = QWait i /\ block_rank d_ (rq (u_thr s t)) = dst;
  li_wait : forall t i, q_pc (u_thr s t) = QWait i ->
    let src := fc_rank c t in
    let b := rq (u_thr s t) in
    (u_req s src (block_rank d_ b) = [block_node_offset d_ b] /\ u_rep s src (block_rank d_ b) = []) \/
    (u_req s src (block_rank d_ b) = [] /\
     exists m, u_rep s src (block_rank d_ b) = [m] /\ forall x, m x = bcont b x);
  li_prog : forall t, map fst (q_done (u_thr s t)) ++ q_todo (u_thr s t) = fc_prog c t;
  li_done : forall t, Forall (fun a => remote t (fst a) = false ->
    snd a = Some (bcont (fst (fst a)) (snd (fst a)))) (q_done (u_thr s t))
}.

Hypothesis Hc : wf_fcfg.

Lemma cc_wf : wf_cfg cc.
Proof.
  pose proof (wf_rank Hc 0). constructor; cbn; try apply Hc; auto; try lia.
  - intros b. split; [cbn; unfold dict_size; lia|constructor].
  - intros t. apply Forall_forall. intros q Hq. apply filter_In in Hq as [Hq _].
    pose proof (wf_prog Hc t) as Hp. rewrite Forall_forall in Hp. now apply Hp.
Qed.

(** The three ways to address a block agree. *)
Lemma numa_addr d b x : numa_cell c d b x = node_cell c (block_node_offset d_ b) x.
Proof.
  unfold numa_cell, node_cell, block_node_offset.
  replace (K * local_block_count d_ * d - d * (K * local_block_count d_)) with 0 by lia. lia.
Qed.
Lemma own_addr d b x : block_domain d_ b = d -> own_cell c d b x = node_cell c (block_node_offset d_ b) x.
Proof. intros <-. unfold own_cell, node_cell, block_node_offset. lia. Qed.

Lemma fill_own p i : pc_fill p = Some i -> pc_own (abs_pc p) = Some i.
Proof. destruct p; cbn; congruence. Qed.

Section Step.
Variables (s : fst_ W) (z : st W).
Hypothesis Hl : linv s.
Hypothesis Hs : sim s z.
Hypothesis Hz : inv cc z.

Lemma own_locked t i : pc_own (abs_pc (q_pc (u_thr s t))) = Some i ->
  s_lock z (LSlot (fc_rank c t) (uoff c (fc_dom c t) i)) = Some (Usr t).
Proof.
  intros E. change (uoff c (fc_dom c t) i) with (node_off cc (cf_dom cc t) i). change (fc_rank c t) with (cf_rank cc t).
  apply held_own; [apply Hz|]. rewrite (m_thr _ _ Hs). exact E.
Qed.
Lemma for_locked t k j : pc_for (abs_pc (q_pc (u_thr s t))) = Some (k, j) ->
  s_lock z (LSlot (fc_rank c t) (uoff c k j)) = Some (Usr t).
Proof.
  intros E. change (uoff c k j) with (node_off cc k j). change (fc_rank c t) with (cf_rank cc t).
  apply held_for; [apply Hz|]. rewrite (m_thr _ _ Hs). exact E.
Qed.

Lemma own_fill t i : pc_own (abs_pc (q_pc (u_thr s t))) = Some i -> pc_fill (q_pc (u_thr s t)) = None ->
  ~ filling s (fc_rank c t) (uoff c (fc_dom c t) i).
Proof.
  intros E En (t' & i' & E' & E1 & E2). apply own_locked in E. pose proof (own_locked t' i' (fill_own _ _ E')) as H'.
  rewrite <- E1, <- E2 in H'. congruence.
Qed.
Lemma for_fill t k j : pc_for (abs_pc (q_pc (u_thr s t))) = Some (k, j) -> pc_fill (q_pc (u_thr s t)) = None ->
  ~ filling s (fc_rank c t) (uoff c k j).
Proof.
  intros E En (t' & i' & E' & E1 & E2). apply for_locked in E. pose proof (own_locked t' i' (fill_own _ _ E')) as H'.
  rewrite <- E1, <- E2 in H'. congruence.
Qed.

(** Skipping the search in the caches of other domains. *)
Definition chf (b : bool) : choice W := Choice b 0 (fun _ => None) 0 0.

Lemma skip t i k todo dn z0 : todo <> [] -> s_thr z0 t = Thr (PSearch i k) todo dn ->
  exists acts z1, run cc z0 acts = Some z1 /\ s_thr z1 t = Thr (PStart i) todo dn /\
    (forall t', t' <> t -> s_thr z1 t' = s_thr z0 t') /\
    s_lock z1 = s_lock z0 /\ s_list z1 = s_list z0 /\ s_data z1 = s_data z0.
Proof.
  intros Ht. remember (D - k) as m. revert k Heqm z0. induction m as [|m IH]; intros k Em z0 E.
  - exists [AThr t (chf true)], (goto z0 t (PStart i)).
    destruct todo as [|[b cell] todo]; [congruence|].
    split. { cbn [run step]. unfold step_thr. rewrite E. cbn [t_pc t_todo t_done].
      change (cf_doms cc) with D. destruct (Nat.ltb_spec k D); [lia|]. reflexivity. }
    unfold goto, set_thr. cbn [s_thr s_lock s_list s_data]. rewrite upd_eq, E. split; auto.
    split; auto. intros. now rewrite upd_ne by auto.
  - destruct (IH (S k) ltac:(lia) (goto z0 t (PSearch i (S k)))) as (acts & z1 & Hr & E1 & Ho & H1 & H2 & H3).
    { unfold goto, set_thr. cbn [s_thr]. now rewrite upd_eq, E. }
    exists (AThr t (chf true) :: acts), z1.
    destruct todo as [|[b cell] todo]; [congruence|].
    split. { cbn [run step]. unfold step_thr. rewrite E. cbn [t_pc t_todo t_done].
      change (cf_doms cc) with D. change (cf_dom cc t) with (fc_dom c t). destruct (Nat.ltb_spec k D); [|lia].
      cbn [try_lock chf ch_fail]. destruct (k =? fc_dom c t); exact Hr. }
    split; auto. split; [|auto]. intros t' Hne. rewrite Ho by auto. unfold goto, set_thr. cbn [s_thr]. now rewrite upd_ne by auto.
Qed.

End Step.

End F.

Ltac uopen H :=
  unfold ustep_thr, ustep_com, utry, uacquire, urelease, ugoto, uset_lock, uset_list, uset_data, uset_req, uset_rep, uset_thr in H;
  cbn [u_lock u_list u_data u_req u_rep u_thr q_pc q_todo q_done] in H.
Ltac uproj := cbn [u_lock u_list u_data u_req u_rep u_thr q_pc q_todo q_done] in *.

Section Frame.
Context {W : Type} (c : fcfg W).
Local Notation d_ := (fc_dist c).
Local Notation K := (fc_cells c).
Local Notation P := (d_ranks (fc_dist c)).

Lemma u_frame (s : fst_ W) t f s' : ustep_thr c s t f = Some s' -> forall t', t' <> t -> u_thr s' t' = u_thr s t'.
Proof. intros H t' Hne. uopen H. repeat break; uproj; rewrite ?upd_ne by auto; auto. Qed.

Lemma u_data_frame (s : fst_ W) t f s' r o : ustep_thr c s t f = Some s' ->
  u_data s' r o = u_data s r o \/
  exists i, pc_own (abs_pc (q_pc (u_thr s t))) = Some i /\ r = fc_rank c t /\ o = uoff c (fc_dom c t) i.
Proof.
  intros H. destruct (u_thr s t) as [p todo dn] eqn:Et. uopen H. rewrite Et in H. uproj.
  repeat break; uproj; auto;
  match goal with |- context [updp ?f ?i ?j ?a ?r ?o] =>
      destruct (updp_cases f i j a r o) as [(-> & -> & _)|(_ & ->)]; [right; eexists; split; [reflexivity|auto]|auto] end.
Qed.

Lemma u_works (s : fst_ W) t f s' : ustep_thr c s t f = Some s' -> q_todo (u_thr s t) <> [].
Proof. intros H. unfold ustep_thr in H. destruct (q_todo (u_thr s t)); congruence. Qed.

Hypothesis Hc : wf_fcfg c.
Variables (s : fst_ W) (z : st W).
Hypothesis Hl : linv c s.
Hypothesis Hs : sim c s z.
Hypothesis Hz : inv (cc c) z.

Lemma rq_lt t : q_todo (u_thr s t) <> [] -> rq (u_thr s t) < d_total d_ /\ block_rank d_ (rq (u_thr s t)) < P.
Proof.
  intros Hne. pose proof (li_prog _ _ Hl t) as E. pose proof (wf_prog _ Hc t) as Hp. rewrite <- E, Forall_app in Hp.
  destruct Hp as [_ Hp]. unfold rq. destruct (q_todo (u_thr s t)) as [|[b cell] todo]; [congruence|].
  inversion Hp as [|? ? [Hb _] _]; subst. cbn [fst] in Hb. split; auto.
  pose proof (wf_rank _ Hc 0). pose proof (wf_dom _ Hc 0). apply owner_bounds; auto; lia.
Qed.

Lemma cell_lt t b cell todo : q_todo (u_thr s t) = (b, cell) :: todo -> cell < K.
Proof.
  intros Et. pose proof (li_prog _ _ Hl t) as E. pose proof (wf_prog _ Hc t) as Hp. rewrite <- E, Forall_app in Hp.
  destruct Hp as [_ Hp]. rewrite Et in Hp. inversion Hp as [|? ? [_ Hb] _]; subst. auto.
Qed.

Section Thr.
Variables (t : nat) (f : bool) (s' : fst_ W).
Hypothesis H : ustep_thr c s t f = Some s'.

Lemma l_todo t' : q_pc (u_thr s' t') <> QIdle ->
    exists b cell todo, q_todo (u_thr s' t') = (b, cell) :: todo /\ remote c t' (b, cell) = true.
Proof.
  destruct (Nat.eq_dec t' t) as [->|Hne]; [|rewrite (u_frame s t f s' H t' Hne); apply Hl].
  pose proof (li_todo _ _ Hl t) as Ht.
  destruct (u_thr s t) as [p todo dn] eqn:Et. uopen H. rewrite Et in H. uproj.
  clear - H Et Ht. repeat break; uproj; rewrite ?upd_eq, ?Et; uproj; intros Hp; try congruence; try (apply Ht; congruence).
  do 3 eexists. split; [reflexivity|]. unfold remote. cbn [fst]. now rewrite Heqb.
Qed.

Lemma l_prog t' : map fst (q_done (u_thr s' t')) ++ q_todo (u_thr s' t') = fc_prog c t'.
Proof.
  destruct (Nat.eq_dec t' t) as [->|Hne]; [|rewrite (u_frame s t f s' H t' Hne); apply Hl].
  pose proof (li_prog _ _ Hl t) as Ht.
  destruct (u_thr s t) as [p todo dn] eqn:Et. uopen H. rewrite Et in H. uproj.
  clear - H Et Ht. repeat break; uproj; rewrite ?upd_eq, ?Et; uproj; auto.
  all: rewrite map_app, <- app_assoc; exact Ht.
Qed.

Lemma l_done t' : Forall (fun a => remote c t' (fst a) = false ->
    snd a = Some (bcont c (fst (fst a)) (snd (fst a)))) (q_done (u_thr s' t')).
Proof.
  destruct (Nat.eq_dec t' t) as [->|Hne]; [|rewrite (u_frame s t f s' H t' Hne); apply Hl].
  pose proof (li_done _ _ Hl t) as Ht. pose proof (li_todo _ _ Hl t) as Hr.
  destruct (u_thr s t) as [p todo dn] eqn:Et. uopen H. rewrite Et in H. uproj.
  clear - H Et Ht Hr. repeat break; uproj; rewrite ?upd_eq, ?Et; uproj; auto.
  - apply Forall_app. split; auto. constructor; auto. cbn [fst snd]. intros _.
    apply andb_prop in Heqb as [E1 E2]. apply Nat.eqb_eq in E1, E2. rewrite own_addr by auto. unfold bcont. now rewrite E1.
  - apply Forall_app. split; auto. constructor; auto. cbn [fst snd]. intros E.
    destruct (Hr ltac:(discriminate)) as (b & ce & td & E1 & E2). injection E1 as <- <- <-. congruence.
Qed.

Lemma part_keep t' i y : t' <> t -> pc_own (abs_pc (q_pc (u_thr s t'))) = Some i ->
  u_data s' (fc_rank c t') (uoff c (fc_dom c t') i) y = u_data s (fc_rank c t') (uoff c (fc_dom c t') i) y.
Proof.
  intros Hne E. destruct (u_data_frame s t f s' (fc_rank c t') (uoff c (fc_dom c t') i) H) as [->|(i' & E' & E1 & E2)]; auto.
  exfalso. apply (own_locked c s z Hs Hz) in E, E'. rewrite E1, E2 in E. congruence.
Qed.

Lemma l_pc t' : pc_ok c s' t' (u_thr s' t').
Proof.
  destruct (Nat.eq_dec t' t) as [->|Hne].
  - pose proof (li_pc _ _ Hl t) as Ht. pose proof (rq_lt t (u_works s t f s' H)) as [_ Hrq].
    assert (fc_mpi c = XNo -> block_rank d_ (rq (u_thr s t)) = fc_rank c t /\ fc_numa c <> PNumaNo) as Hno.
    { intros E. destruct (wf_nompi _ Hc E) as [E1 E2]. split; auto. pose proof (wf_rank _ Hc t). lia. }
    pose proof (fun i => uoff c (fc_dom c t) i) as off.
    destruct (u_thr s t) as [p todo dn] eqn:Et. pose proof H as H0. uopen H0. rewrite Et in H0. unfold rq in *. uproj.
    unfold pc_ok, rq in *. uproj. clear - H0 Et Ht Hno Hc.
    repeat break; uproj; rewrite ?upd_eq, ?Et; uproj; auto; try tauto; try congruence.
    all: repeat match goal with E : (_ =? _) = true |- _ => apply Nat.eqb_eq in E | E : (_ =? _) = false |- _ => apply Nat.eqb_neq in E
      | E : (_ <? _) = true |- _ => apply Nat.ltb_lt in E end.
    all: try (split; [tauto|]; intros; lia).
    all: try (intros E; destruct (Hno E); congruence).
    + destruct Ht as [E Ht]. split; auto. intros y Hy HyK. rewrite updp_eq. unfold upd.
      destruct (Nat.eqb_spec y x); [subst|apply Ht; lia]. rewrite numa_addr. unfold bcont. now rewrite E.
    + destruct Ht as [E Ht]. split; auto. intros y Hy HyK. rewrite updp_eq. unfold upd.
      destruct (Nat.eqb_spec y x); [subst|apply Ht; lia]. reflexivity.
  - pose proof (li_pc _ _ Hl t') as Ht. unfold pc_ok in *. rewrite (u_frame s t f s' H t' Hne).
    destruct (q_pc (u_thr s t')) eqn:Ep; auto; destruct Ht as [E Ht]; split; auto; intros;
      rewrite part_keep; auto; rewrite Ep; reflexivity.
Qed.

Lemma l_win r t' : u_lock s' (LInfo r) = Some t' <-> fc_rank c t' = r /\ exists i x, q_pc (u_thr s' t') = QGet i x.
Proof.
  pose proof (li_win _ _ Hl) as Hw.
  assert (forall t'', t'' <> t -> u_lock s' (LInfo r) = Some t'' <-> u_lock s (LInfo r) = Some t'') as Ho.
  { intros t'' Hne. specialize (Hw (fc_rank c t) t).
    destruct (u_thr s t) as [p todo dn] eqn:Et. pose proof H as H0. uopen H0. rewrite Et in H0. uproj.
    clear - H0 Hne Hw. repeat break; uproj; cbn [lock_eq]; try tauto.
    - destruct (Nat.eqb_spec r (fc_rank c t)); [subst|tauto]. intuition congruence.
    - destruct (Nat.eqb_spec r (fc_rank c t)); [subst|tauto].
      destruct Hw as [_ Hw]. rewrite Hw by eauto. intuition congruence. }
  destruct (Nat.eq_dec t' t) as [->|Hne].
  - specialize (Hw r t).
    destruct (u_thr s t) as [p todo dn] eqn:Et. pose proof H as H0. uopen H0. rewrite Et in H0. uproj.
    clear - H0 Hw Et. repeat break; uproj; cbn [lock_eq]; rewrite ?upd_eq, ?Et; uproj; rewrite ?Hw;
      try (split; [intros (? & ? & ? & ?); discriminate|intros (? & ? & ? & ?); discriminate]).
    all: try (destruct (Nat.eqb_spec r (fc_rank c t)); [subst|]).
    all: rewrite ?Hw; split; try (intros (? & ? & ? & ?); discriminate); try (intros (? & ? & ? & ?); split; eauto; congruence); try congruence; eauto.
  - rewrite Ho, Hw, (u_frame s t f s' H t' Hne) by auto. tauto.
Qed.

Lemma l_snd r t' : u_lock s' (LBlk r) = Some t' <->
  fc_rank c t' = r /\ exists i, q_pc (u_thr s' t') = QAsk i \/ q_pc (u_thr s' t') = QWait i.
Proof.
  pose proof (li_snd _ _ Hl) as Hw.
  assert (forall t'', t'' <> t -> u_lock s' (LBlk r) = Some t'' <-> u_lock s (LBlk r) = Some t'') as Ho.
  { intros t'' Hne. specialize (Hw (fc_rank c t) t).
    destruct (u_thr s t) as [p todo dn] eqn:Et. pose proof H as H0. uopen H0. rewrite Et in H0. uproj.
    clear - H0 Hne Hw. repeat break; uproj; cbn [lock_eq]; try tauto.
    - destruct (Nat.eqb_spec r (fc_rank c t)); [subst|tauto]. intuition congruence.
    - destruct (Nat.eqb_spec r (fc_rank c t)); [subst|tauto].
      destruct Hw as [_ Hw]. rewrite Hw by eauto. intuition congruence. }
  destruct (Nat.eq_dec t' t) as [->|Hne].
  - specialize (Hw r t).
    destruct (u_thr s t) as [p todo dn] eqn:Et. pose proof H as H0. uopen H0. rewrite Et in H0. uproj.
    clear - H0 Hw Et. repeat break; uproj; cbn [lock_eq]; rewrite ?upd_eq, ?Et; uproj; rewrite ?Hw;
      try (split; [intros (? & ? & [?|?]); discriminate|intros (? & ? & [?|?]); discriminate]).
    all: try (destruct (Nat.eqb_spec r (fc_rank c t)); [subst|]).
    all: rewrite ?Hw; split; try (intros (? & ? & [?|?]); discriminate); try (intros (? & ? & ?); split; eauto; congruence); try congruence; eauto.
  - rewrite Ho, Hw, (u_frame s t f s' H t' Hne) by auto. tauto.
Qed.

(** Messages: only the steps of [QAsk] and [QWait] change the queues. *)
Lemma msg_frame : (forall i, q_pc (u_thr s t) <> QAsk i) -> (forall i, q_pc (u_thr s t) <> QWait i) ->
  u_req s' = u_req s /\ u_rep s' = u_rep s /\ (forall i, q_pc (u_thr s' t) <> QWait i).
Proof.
  intros H1 H2. destruct (u_thr s t) as [p todo dn] eqn:Et. pose proof H as H0. uopen H0. rewrite Et in H0. uproj.
  clear - H0 H1 H2 Et. repeat break; uproj; rewrite ?upd_eq, ?Et; uproj; try (split; [|split]; auto; congruence).
  all: exfalso; first [now apply (H1 i)|now apply (H2 i)].
Qed.

Lemma one_waiter t1 t2 i1 i2 : fc_rank c t1 = fc_rank c t2 ->
  q_pc (u_thr s t1) = QAsk i1 \/ q_pc (u_thr s t1) = QWait i1 ->
  q_pc (u_thr s t2) = QAsk i2 \/ q_pc (u_thr s t2) = QWait i2 -> t1 = t2.
Proof.
  intros E H1 H2.
  assert (u_lock s (LBlk (fc_rank c t2)) = Some t1) by (apply (li_snd _ _ Hl); split; eauto).
  assert (u_lock s (LBlk (fc_rank c t2)) = Some t2) by (apply (li_snd _ _ Hl); split; eauto).
  congruence.
Qed.

Lemma l_msg_wait :
  (forall src dst, u_req s' src dst <> [] \/ u_rep s' src dst <> [] ->
    exists t i, fc_rank c t = src /\ q_pc (u_thr s' t) = QWait i /\ block_rank d_ (rq (u_thr s' t)) = dst) /\
  (forall t i, q_pc (u_thr s' t) = QWait i ->
    let src := fc_rank c t in
    let b := rq (u_thr s' t) in
    (u_req s' src (block_rank d_ b) = [block_node_offset d_ b] /\ u_rep s' src (block_rank d_ b) = []) \/
    (u_req s' src (block_rank d_ b) = [] /\
     exists m, u_rep s' src (block_rank d_ b) = [m] /\ forall x, m x = bcont c b x)).
Proof.
  destruct (q_pc (u_thr s t)) eqn:Ep.
  17: {
    (* request *)
    assert (u_req s (fc_rank c t) (block_rank d_ (rq (u_thr s t))) = [] /\
            u_rep s (fc_rank c t) (block_rank d_ (rq (u_thr s t))) = []) as [Eq Er].
    { destruct (u_req s (fc_rank c t) (block_rank d_ (rq (u_thr s t)))) eqn:E1, (u_rep s (fc_rank c t) (block_rank d_ (rq (u_thr s t)))) eqn:E2; auto; exfalso.
      all: destruct (li_msg _ _ Hl (fc_rank c t) (block_rank d_ (rq (u_thr s t)))) as (t' & i' & E3 & E4 & _);
        [rewrite ?E1, ?E2; (left; discriminate) || (right; discriminate)|].
      all: assert (t' = t) by (eapply one_waiter; eauto); subst; congruence. }
    pose proof (u_works s t f s' H) as Hwk.
    destruct (u_thr s t) as [p todo dn] eqn:Et. uproj. subst p. unfold rq in Eq, Er. uproj.
    pose proof H as H0. uopen H0. rewrite Et in H0. uproj. repeat break. uproj. 
    rewrite Eq. cbn [app].
    split.
    - intros src dst Hm. destruct (updp_cases (u_req s) (fc_rank c t) (block_rank d_ n) [block_node_offset d_ n] src dst) as [(-> & -> & _)|(Hne & E)].
      + exists t, i. rewrite !upd_eq, ?Et. uproj. auto.
      + rewrite E in Hm. destruct (li_msg _ _ Hl src dst Hm) as (t' & i' & E1 & E2 & E3).
        exists t', i'. destruct (Nat.eq_dec t' t) as [->|Hn]; [rewrite Et in E2; discriminate|]. rewrite upd_ne by auto. auto.
    - intros t' i' E1. destruct (Nat.eq_dec t' t) as [->|Hn].
      + rewrite !upd_eq, ?Et. left. unfold rq. cbn [q_todo]. rewrite updp_eq. auto.
      + rewrite upd_ne in * by auto. 
        assert (fc_rank c t' <> fc_rank c t) as Hr.
        { intros E. apply Hn. eapply (one_waiter t' t i' i); eauto. rewrite Et. auto. }
        cbv zeta. rewrite !updp_ne by auto. apply (li_wait _ _ Hl t' i' E1). }
  17: {
    (* reply *)
    pose proof (li_wait _ _ Hl t _ Ep) as Hw.
    destruct (u_thr s t) as [p todo dn] eqn:Et. uproj. subst p. unfold rq in Hw. uproj.
    pose proof H as H0. uopen H0. rewrite Et in H0. uproj. repeat break. uproj. 
    destruct Hw as [[_ E]|[E1 (m' & E2 & _)]]; [congruence|].
    injection E2 as E2 E3. subst l0.
    split.
    - intros src dst Hm. destruct (updp_cases (u_rep s) (fc_rank c t) (block_rank d_ n) [] src dst) as [(-> & -> & E)|(Hne & E)].
      + rewrite E in Hm. destruct Hm; congruence.
      + rewrite E in Hm. destruct (li_msg _ _ Hl src dst Hm) as (t' & i' & E4 & E5 & E6).
        exists t', i'. destruct (Nat.eq_dec t' t) as [->|Hn].
        * exfalso. rewrite Et in E6. cbn in E6. subst. destruct Hne; congruence.
        * rewrite upd_ne by auto. auto.
    - intros t' i' E4. destruct (Nat.eq_dec t' t) as [->|Hn].
      + rewrite upd_eq in E4. discriminate.
      + rewrite upd_ne in * by auto.
        assert (fc_rank c t' <> fc_rank c t) as Hr.
        { intros E. apply Hn. eapply (one_waiter t' t i' i); eauto. rewrite Et. auto. }
        cbv zeta. rewrite !updp_ne by auto. apply (li_wait _ _ Hl t' i' E4). }
  all: destruct msg_frame as (-> & -> & Hn); [intros; congruence|intros; congruence|].
  all: split;
    [intros src dst Hm; destruct (li_msg _ _ Hl src dst Hm) as (t' & i' & E1 & E2 & E3); exists t', i';
     rewrite (u_frame s t f s' H t') by congruence; auto
    |intros t' i' E; destruct (Nat.eq_dec t' t) as [->|Hne]; [destruct (Hn _ E)|];
     rewrite (u_frame s t f s' H t') in * by auto; apply (li_wait _ _ Hl t' i' E)].
Qed.

Lemma linv_thr : linv c s'.
Proof.
  constructor.
  - apply l_todo.
  - apply l_pc.
  - apply l_win.
  - apply l_snd.
  - apply l_msg_wait.
  - apply l_msg_wait.
  - apply l_prog.
  - apply l_done.
Qed.
End Thr.

(** The communication thread. *)
Section Com.
Variables (r src : nat) (s' : fst_ W).
Hypothesis H : ustep_com c s r src = Some s'.

Lemma com_frame : u_lock s' = u_lock s /\ u_list s' = u_list s /\ u_data s' = u_data s /\ u_thr s' = u_thr s.
Proof. pose proof H as H0. uopen H0. repeat break. uproj. auto. Qed.

Lemma linv_com : linv c s'.
Proof.
  destruct com_frame as (E1 & E2 & E3 & E4). constructor.
  - rewrite E4. apply Hl.
  - intros t. unfold pc_ok. rewrite E4, E3. apply (li_pc _ _ Hl).
  - rewrite E1, E4. apply Hl.
  - rewrite E1, E4. apply Hl.
  - intros src' dst Hm. rewrite E4. apply (li_msg _ _ Hl). pose proof H as H0. uopen H0. repeat break. uproj.
    unfold updp in Hm. destruct (Nat.eqb_spec src' src), (Nat.eqb_spec dst r); cbn in Hm; auto. subst.
    left. congruence.
  - intros t i Ep. rewrite E4 in *. cbv zeta.
    pose proof (li_wait _ _ Hl t i Ep) as Hw. cbv zeta in Hw. pose proof H as H0. uopen H0. repeat break. uproj.
    unfold updp. destruct (Nat.eqb_spec (fc_rank c t) src), (Nat.eqb_spec (block_rank d_ (rq (u_thr s t))) r); cbn; auto. subst.
    destruct Hw as [[Ea Eb]|[Ea _]]; [|congruence]. rewrite Heql in Ea. injection Ea as -> ->. right. split; auto.
    rewrite Eb. cbn. eexists. split; [reflexivity|]. intros x. reflexivity.
  - rewrite E4. apply Hl.
  - rewrite E4. apply Hl.
Qed.

Lemma sim_com : sim c s' z.
Proof.
  destruct com_frame as (E1 & E2 & E3 & E4). constructor; rewrite ?E1, ?E2, ?E3, ?E4; try apply Hs.
  intros rr o x Hx Hn. apply (m_data _ _ _ Hs); auto. unfold filling in *. now rewrite E4 in Hn.
Qed.
End Com.
End Frame.

Section Sim.
Context {W : Type} (c : fcfg W).
Local Notation d_ := (fc_dist c).
Local Notation D := (d_domains (fc_dist c)).
Local Notation K := (fc_cells c).
Hypothesis Hc : wf_fcfg c.

Lemma run_app {V} (g : cfg V) a b : forall z z1 z2, run g z a = Some z1 -> run g z1 b = Some z2 -> run g z (a ++ b) = Some z2.
Proof.
  induction a as [|x a IH]; cbn; intros z z1 z2 H1 H2; [congruence|].
  destruct (step g z x); [|discriminate]. eauto.
Qed.

Definition same_but (z0 z1 : st W) t : Prop :=
  (forall t', t' <> t -> s_thr z1 t' = s_thr z0 t') /\ (forall k, s_lock z1 k = s_lock z0 k) /\
  (forall r d, s_list z1 r d = s_list z0 r d).

Ltac one E := cbn [run step]; unfold step_thr at 1; rewrite E; cbn [t_pc t_todo t_done cf_mode cc].

Lemma start_fill t i todo dn z0 : todo <> [] -> s_thr z0 t = Thr (PStart i) todo dn ->
  exists acts z1, run (cc c) z0 acts = Some z1 /\ s_thr z1 t = Thr (PFilling i) todo dn /\ same_but z0 z1 t /\
    forall r o, r <> fc_rank c t \/ o <> uoff c (fc_dom c t) i -> s_data z1 r o = s_data z0 r o.
Proof.
  intros Ht E. destruct todo as [|[b cell] todo]; [congruence|].
  exists [AThr t (chf true); AThr t (chf true)]. eexists. split.
  { one E. unfold step_thr, goto, set_thr, set_data. cbn [s_thr]. rewrite upd_eq, E. reflexivity. }
  unfold same_but, goto, set_thr, set_data. cbn [s_thr s_lock s_list s_data]. rewrite !upd_eq. cbn [t_todo t_done]. rewrite ?E.
  split; auto. split; [split; auto; intros; now rewrite !upd_ne by auto|].
  intros r o Hne. rewrite updp_ne; auto.
Qed.

Lemma fill_end t i b cell todo dn z0 : s_thr z0 t = Thr (PFilling i) ((b, cell) :: todo) dn ->
  exists acts z1, run (cc c) z0 acts = Some z1 /\ s_thr z1 t = Thr (PReady i) ((b, cell) :: todo) dn /\ same_but z0 z1 t /\
    (forall r o, r <> fc_rank c t \/ o <> uoff c (fc_dom c t) i -> s_data z1 r o = s_data z0 r o) /\
    s_data z1 (fc_rank c t) (uoff c (fc_dom c t) i) = (fun x => Some (bcont c b x)).
Proof.
  intros E.
  exists [AThr t (chf true); AThr t (chf true)]. eexists. split.
  { one E. unfold step_thr, goto, set_thr, set_data. cbn [s_thr]. rewrite upd_eq, E. reflexivity. }
  unfold same_but, goto, set_thr, set_data. cbn [s_thr s_lock s_list s_data]. rewrite !upd_eq. cbn [t_todo t_done]. rewrite ?E.
  split; auto. split; [split; auto; intros; now rewrite !upd_ne by auto|]. split.
  - intros r o Hne. rewrite updp_ne; auto.
  - apply updp_eq.
Qed.

Variables (s : fst_ W) (z : st W).
Hypothesis Hl : linv c s.
Hypothesis Hs : sim c s z.
Hypothesis Hz : inv (cc c) z.
Variables (t : nat) (f : bool) (s' : fst_ W).

(** The slot leaves or enters the set of slots being filled. *)
Lemma keep_fill r o : (forall t', t' <> t -> u_thr s' t' = u_thr s t') -> ~ filling c s' r o ->
  (forall i, pc_fill (q_pc (u_thr s t)) = Some i -> r <> fc_rank c t \/ o <> uoff c (fc_dom c t) i) -> ~ filling c s r o.
Proof.
  intros Ho Hn Hi (t' & i' & E & E1 & E2). destruct (Nat.eq_dec t' t) as [->|Hne].
  - destruct (Hi i' E); auto.
  - apply Hn. exists t', i'. rewrite Ho; auto.
Qed.

Hypothesis H : ustep_thr c s t f = Some s'.

Ltac locks := let r := fresh in let o := fresh in
  intros r o; rewrite ?(m_cache _ _ _ Hs), ?(m_slot _ _ _ Hs); auto; unfold node_off, uoff; cbn [lock_eq cc cf_size cf_rank cf_dom];
  repeat match goal with |- context [?a =? ?b] => destruct (Nat.eqb_spec a b) end; cbn; auto.
Ltac lists := let r := fresh in let o := fresh in
  intros r o; rewrite ?(m_list _ _ _ Hs); auto; unfold updp; rewrite ?(m_list _ _ _ Hs); reflexivity.

Ltac simz := constructor;
  unfold goto, set_thr, set_data, set_list, release, set_lock, ugoto, uset_thr, uset_data, uset_list, urelease, uset_lock in *;
  cbn [s_lock s_list s_data s_thr t_pc t_todo t_done] in *; uproj; [locks|locks|lists| |].

Lemma sim_thr : exists acts z', run (cc c) z acts = Some z' /\ sim c s' z'.
Proof.
  pose proof (u_frame c s t f s' H) as Ho.
  pose proof (li_todo _ _ Hl t) as Hr. pose proof (m_thr _ _ _ Hs t) as Ez.
  pose proof (li_pc _ _ Hl t) as Hpc. pose proof (li_wait _ _ Hl t) as Hwt.
  pose proof (fun b cell todo => cell_lt c Hc s Hl t b cell todo) as Hcell.
  pose proof (fun i => own_fill c s z Hs Hz t i) as Hown.
  pose proof (fun k j => for_fill c s z Hs Hz t k j) as Hfor.
  pose proof (fun r o => keep_fill r o Ho) as Hkeep.
  destruct (u_thr s t) as [p todo dn] eqn:Et. pose proof H as H0. unfold ustep_thr in H0. rewrite Et in H0. uproj.
  unfold abs_thr in Ez. uproj. unfold pc_ok, rq in Hpc. uproj. unfold rq in Hwt. uproj.
  destruct todo as [|[b cell] todo]; [discriminate|].
  assert (p <> QIdle -> filter (remote c t) ((b, cell) :: todo) = (b, cell) :: filter (remote c t) todo) as Ef.
  { intros Hp. destruct (Hr Hp) as (? & ? & ? & E1 & E2). injection E1 as <- <- <-. cbn [filter]. now rewrite E2. }
  specialize (Hcell _ _ _ eq_refl). cbv zeta in *. cbn [fst] in *.
  assert (forall z1, s_thr z1 t = abs_thr c t (u_thr s' t) -> same_but z z1 t ->
    (forall r d, u_lock s' (LCache r d) = u_lock s (LCache r d)) -> (forall r o, u_lock s' (LSlot r o) = u_lock s (LSlot r o)) ->
    u_list s' = u_list s -> (forall r o x, x < K -> ~ filling c s' r o -> s_data z1 r o x = u_data s' r o x) -> sim c s' z1) as Hsame.
  { intros z1 E1 (E2 & E3 & E4) E5 E6 E7 E8. constructor; auto.
    - intros. now rewrite E3, E5, (m_cache _ _ _ Hs).
    - intros. now rewrite E3, E6, (m_slot _ _ _ Hs).
    - intros. now rewrite E4, E7, (m_list _ _ _ Hs).
    - intros t'. destruct (Nat.eq_dec t' t) as [->|Hne]; auto. now rewrite E2, Ho, (m_thr _ _ _ Hs). }
  assert (forall i, abs_pc p = PFilling i -> pc_fill p = Some i -> q_pc (u_thr s' t) = QReady i -> q_todo (u_thr s' t) = (b, cell) :: todo ->
    q_done (u_thr s' t) = dn -> (forall r d, u_lock s' (LCache r d) = u_lock s (LCache r d)) ->
    (forall r o, u_lock s' (LSlot r o) = u_lock s (LSlot r o)) -> u_list s' = u_list s ->
    (forall r o, r <> fc_rank c t \/ o <> uoff c (fc_dom c t) i -> u_data s' r o = u_data s r o) ->
    (forall y, y < K -> u_data s' (fc_rank c t) (uoff c (fc_dom c t) i) y = Some (bcont c b y)) ->
    exists acts z', run (cc c) z acts = Some z' /\ sim c s' z') as Hend.
  { intros i Ep Epf E1 E2 E3 E4 E5 E6 E7 E8. rewrite Ep, Ef in Ez by (intros ->; discriminate).
    destruct (fill_end t i _ _ _ _ z Ez) as (acts2 & z2 & Hrun2 & F1 & F2 & F5 & F6).
    exists acts2, z2. split; auto. apply Hsame; auto.
    - rewrite F1. destruct (u_thr s' t) as [p' todo' dn']. uproj. subst. unfold abs_thr. uproj. cbn [abs_pc].
      now rewrite Ef by (intros ->; discriminate).
    - intros r o x Hx Hn.
      destruct (Nat.eq_dec r (fc_rank c t)) as [Er|Hne1]; [destruct (Nat.eq_dec o (uoff c (fc_dom c t) i)) as [Eo|Hne2]|].
      + subst. now rewrite F6, E8 by auto.
      + rewrite F5, E7 by auto. apply (m_data _ _ _ Hs); auto. apply Hkeep; auto. intros i' Ei'. replace i' with i by congruence. auto.
      + rewrite F5, E7 by auto. apply (m_data _ _ _ Hs); auto. }
  Ltac samed Hkeep Hs := let r := fresh in let o := fresh in let x := fresh in let Hx := fresh in let Hn := fresh in
    intros r o x Hx Hn; apply (m_data _ _ _ Hs); auto; apply Hkeep; auto; discriminate.
  Ltac thrd Et Ez Ef Hs t := let t' := fresh in let Hne := fresh in
    intros t'; destruct (Nat.eq_dec t' t) as [->|Hne]; [|rewrite !upd_ne by auto; apply (m_thr _ _ _ Hs)];
    rewrite !upd_eq; unfold abs_thr; rewrite ?Et; uproj; cbn [abs_pc]; rewrite ?Ef, ?Ez by discriminate; reflexivity.
  destruct p.
  - (* QIdle *)
    destruct ((block_rank d_ b =? fc_rank c t) && (block_domain d_ b =? fc_dom c t)) eqn:Eb.
    + injection H0 as H0. assert (remote c t (b, cell) = false) as Er by (unfold remote; cbn [fst]; now rewrite Eb).
      exists [], z. split; auto. subst s'. apply Hsame; unfold uset_thr in *; uproj; auto.
      * rewrite upd_eq. unfold abs_thr. uproj. rewrite Ez. cbn [filter]. rewrite Er. f_equal.
        rewrite filter_app. cbn [filter fst]. rewrite Er. now rewrite app_nil_r.
      * split; auto.
      * intros r o x Hx Hn. apply (m_data _ _ _ Hs); auto. apply Hkeep; auto. discriminate.
    + assert (remote c t (b, cell) = true) as Er by (unfold remote; cbn [fst]; now rewrite Eb).
      cbn [filter] in Ez. rewrite Er in Ez.
      unfold uacquire in H0. destruct (u_lock s (LCache (fc_rank c t) (fc_dom c t))) eqn:El; [discriminate|].
      cbn [option_map] in H0. injection H0 as H0.
      exists [AThr t (chf f)]. eexists. split.
      { one Ez. unfold acquire. change (cf_rank (cc c) t) with (fc_rank c t). change (cf_dom (cc c) t) with (fc_dom c t).
        rewrite (m_cache _ _ _ Hs), El. reflexivity. }
      subst s'. simz.
      * intros t'. destruct (Nat.eq_dec t' t) as [->|Hne]; [|rewrite !upd_ne by auto; apply (m_thr _ _ _ Hs)].
        rewrite !upd_eq. unfold abs_thr. rewrite Et. uproj. cbn [abs_pc filter]. rewrite Er, Ez. reflexivity.
      * samed Hkeep Hs.
  - (* QGetLocked *)
    destruct (clist_request (u_list s (fc_rank c t) (fc_dom c t)) b) as [[[l i] old]|] eqn:El; [|discriminate].
    injection H0 as H0. rewrite Ef in Ez by discriminate.
    exists [AThr t (chf f)]. eexists. split.
    { one Ez. cbn [abs_pc]. rewrite (m_list _ _ _ Hs). change (cf_rank (cc c) t) with (fc_rank c t). change (cf_dom (cc c) t) with (fc_dom c t).
      rewrite El. reflexivity. }
    subst s'. simz; [thrd Et Ez Ef Hs t|samed Hkeep Hs].
  - (* QGetSlot *)
    unfold uacquire in H0. destruct (u_lock s (LSlot (fc_rank c t) _)) eqn:El; [discriminate|].
    cbn [option_map] in H0. injection H0 as H0. rewrite Ef in Ez by discriminate.
    exists [AThr t (chf f)]. eexists. split.
    { one Ez. cbn [abs_pc]. unfold acquire. change (cf_rank (cc c) t) with (fc_rank c t).
      change (node_off (cc c) (cf_dom (cc c) t) i) with (uoff c (fc_dom c t) i).
      rewrite (m_slot _ _ _ Hs), El. reflexivity. }
    subst s'. simz; [thrd Et Ez Ef Hs t|samed Hkeep Hs].
  - (* QGetBoth *)
    injection H0 as H0. rewrite Ef in Ez by discriminate.
    exists [AThr t (chf f)]. eexists. split; [one Ez; reflexivity|].
    subst s'. simz; [thrd Et Ez Ef Hs t|samed Hkeep Hs].
  - (* QHave *)
    rewrite Ef in Ez by discriminate.
    exists [AThr t (chf f)]. destruct old as [ob|]; cbn [is_hit] in H0.
    + destruct (ob =? b) eqn:Eo; injection H0 as H0.
      * eexists. split; [one Ez; cbn [abs_pc]; rewrite Eo; reflexivity|].
        subst s'. simz; [thrd Et Ez Ef Hs t|samed Hkeep Hs].
      * eexists. split; [one Ez; cbn [abs_pc]; rewrite Eo; reflexivity|].
        subst s'. simz; [thrd Et Ez Ef Hs t|samed Hkeep Hs].
    + injection H0 as H0. eexists. split; [one Ez; reflexivity|].
      subst s'. simz; [thrd Et Ez Ef Hs t|samed Hkeep Hs].
  - (* QNuma *)
    rewrite Ef in Ez by discriminate. cbn [abs_pc] in Ez.
    assert (forall i', s' = ugoto s t (QMpi i') -> i' = i -> exists acts z', run (cc c) z acts = Some z' /\ sim c s' z') as Hm.
    { intros i' E ->. destruct (skip c t i 0 ((b, cell) :: filter (remote c t) todo) _ z ltac:(discriminate) Ez) as (acts & z1 & Hrun & E1 & E2 & E3 & E4 & E5).
      exists acts, z1. split; auto. apply Hsame; subst s'; unfold ugoto, uset_thr in *; uproj; auto.
      - rewrite upd_eq, E1. unfold abs_thr. rewrite Et. uproj. cbn [abs_pc]. now rewrite Ef by discriminate.
      - split; auto. split; intros; [now rewrite E3|now rewrite E4].
      - rewrite E5. samed Hkeep Hs. }
    assert (forall i', s' = ugoto s t (QMem i' 0) -> i' = i -> exists acts z', run (cc c) z acts = Some z' /\ sim c s' z') as Hf.
    { intros i' E ->. destruct (skip c t i 0 ((b, cell) :: filter (remote c t) todo) _ z ltac:(discriminate) Ez) as (acts & z1 & Hrun & E1 & E2 & E3 & E4 & E5).
      destruct (start_fill t i ((b, cell) :: filter (remote c t) todo) _ z1 ltac:(discriminate) E1) as (acts2 & z2 & Hrun2 & F1 & (F2 & F3 & F4) & F5).
      exists (acts ++ acts2), z2. split; [eapply run_app; eauto|]. apply Hsame; subst s'; unfold ugoto, uset_thr in *; uproj; auto.
      - rewrite upd_eq, F1. unfold abs_thr. rewrite Et. uproj. cbn [abs_pc]. now rewrite Ef by discriminate.
      - split; [|split]; intros; [now rewrite F2, E2 by auto|now rewrite F3, E3|now rewrite F4, E4].
      - intros r o x Hx Hn. rewrite F5, E5. { apply (m_data _ _ _ Hs); auto. apply Hkeep; auto. discriminate. }
        destruct (Nat.eq_dec r (fc_rank c t)) as [->|]; auto. destruct (Nat.eq_dec o (uoff c (fc_dom c t) i)) as [->|]; auto.
        exfalso. apply Hn. exists t, i. cbn [u_thr]. rewrite upd_eq. auto. }
    destruct (fc_numa c); [| |].
    + injection H0 as H0. eauto.
    + destruct (_ =? _); injection H0 as H0; eauto.
    + destruct (_ =? _); injection H0 as H0; eauto.
      exists [], z. split; auto. apply Hsame; subst s'; unfold ugoto, uset_thr in *; uproj; auto.
      * rewrite upd_eq, Ez. unfold abs_thr. rewrite Et. uproj. cbn [abs_pc]. now rewrite Ef by discriminate.
      * split; auto.
      * samed Hkeep Hs.
  - (* QMem *)
    rewrite Ef in Ez by discriminate. cbn [abs_pc] in Ez. destruct Hpc as [Hbr Hpart].
    destruct (Nat.ltb_spec x K); injection H0 as H0.
    + exists [], z. split; auto. apply Hsame; subst s'; unfold ugoto, uset_thr, uset_data in *; uproj; auto.
      * rewrite upd_eq, Ez. unfold abs_thr. rewrite Et. uproj. cbn [abs_pc]. now rewrite Ef by discriminate.
      * split; auto.
      * intros r o y Hy Hn. assert (r <> fc_rank c t \/ o <> uoff c (fc_dom c t) i) as Hne.
        { destruct (Nat.eq_dec r (fc_rank c t)) as [->|]; auto. destruct (Nat.eq_dec o (uoff c (fc_dom c t) i)) as [->|]; auto.
          exfalso. apply Hn. exists t, i. cbn [u_thr]. rewrite upd_eq. auto. }
        rewrite updp_ne by auto. apply (m_data _ _ _ Hs); auto. apply Hkeep; auto. cbn. intros ? [= <-]. auto.
    + apply (Hend i); auto; subst s'; unfold ugoto, uset_thr in *; uproj; rewrite ?upd_eq, ?Et; uproj; auto. intros y Hy. apply Hpart; auto; lia.
  - (* QSearch *)
    rewrite Ef in Ez by discriminate. cbn [abs_pc] in Ez.
    exists [AThr t (chf f)]. unfold utry, uacquire in H0.
    destruct (k <? D) eqn:Ek.
    + destruct (k =? fc_dom c t) eqn:Ekd.
      * injection H0 as H0. eexists. split.
        { one Ez. change (cf_doms (cc c)) with D. change (cf_dom (cc c) t) with (fc_dom c t). rewrite Ek, Ekd. reflexivity. }
        subst s'. simz; [thrd Et Ez Ef Hs t|samed Hkeep Hs].
      * destruct f.
        { injection H0 as H0. eexists. split.
          { one Ez. change (cf_doms (cc c)) with D. change (cf_dom (cc c) t) with (fc_dom c t). rewrite Ek, Ekd. reflexivity. }
          subst s'. simz; [thrd Et Ez Ef Hs t|samed Hkeep Hs]. }
        destruct (u_lock s (LCache (fc_rank c t) k)) eqn:El; injection H0 as H0; eexists; (split;
          [one Ez; change (cf_doms (cc c)) with D; change (cf_dom (cc c) t) with (fc_dom c t); rewrite Ek, Ekd;
           unfold try_lock, acquire, chf; cbn [ch_fail]; change (cf_rank (cc c) t) with (fc_rank c t);
           rewrite (m_cache _ _ _ Hs), El; reflexivity|]); subst s'; (simz; [thrd Et Ez Ef Hs t|samed Hkeep Hs]).
    + injection H0 as H0. eexists. split.
      { one Ez. change (cf_doms (cc c)) with D. rewrite Ek. reflexivity. }
      subst s'. simz; [thrd Et Ez Ef Hs t|samed Hkeep Hs].
  - (* QTryLocked *)
    rewrite Ef in Ez by discriminate. cbn [abs_pc] in Ez. exists [AThr t (chf f)].
    destruct (clist_peek (u_list s (fc_rank c t) k) b) eqn:El; injection H0 as H0; eexists; (split;
      [one Ez; rewrite (m_list _ _ _ Hs); change (cf_rank (cc c) t) with (fc_rank c t); rewrite El; reflexivity|]);
      subst s'; (simz; [thrd Et Ez Ef Hs t|samed Hkeep Hs]).
  - (* QTryMiss *)
    injection H0 as H0. rewrite Ef in Ez by discriminate.
    exists [AThr t (chf f)]. eexists. split; [one Ez; reflexivity|].
    subst s'. simz; [thrd Et Ez Ef Hs t|samed Hkeep Hs].
  - (* QTryFound *)
    rewrite Ef in Ez by discriminate. cbn [abs_pc] in Ez. exists [AThr t (chf f)]. unfold utry, uacquire in H0. destruct f.
    { injection H0 as H0. eexists. split; [one Ez; reflexivity|]. subst s'. simz; [thrd Et Ez Ef Hs t|samed Hkeep Hs]. }
    destruct (u_lock s (LSlot (fc_rank c t) (uoff c k j))) eqn:El; injection H0 as H0; eexists; (split;
      [one Ez; unfold try_lock, acquire, chf; cbn [ch_fail]; change (cf_rank (cc c) t) with (fc_rank c t);
       change (node_off (cc c) k j) with (uoff c k j); rewrite (m_slot _ _ _ Hs), El; reflexivity|]);
      subst s'; (simz; [thrd Et Ez Ef Hs t|samed Hkeep Hs]).
  - (* QTryBoth *)
    injection H0 as H0. rewrite Ef in Ez by discriminate.
    exists [AThr t (chf f)]. eexists. split; [one Ez; reflexivity|].
    subst s'. simz; [thrd Et Ez Ef Hs t|samed Hkeep Hs].
  - (* QCopy *)
    rewrite Ef in Ez by discriminate. cbn [abs_pc] in Ez. exists [AThr t (chf f)].
    destruct (x <? K) eqn:Ex; injection H0 as H0; eexists; (split;
      [one Ez; change (cf_cells (cc c)) with K; rewrite Ex; reflexivity|]); subst s'.
    + simz; [thrd Et Ez Ef Hs t|]. intros r o y Hy Hn.
      apply Hkeep in Hn; [|discriminate].
      change (cf_rank (cc c) t) with (fc_rank c t). change (node_off (cc c) (cf_dom (cc c) t) i) with (uoff c (fc_dom c t) i).
      change (node_off (cc c) k j) with (uoff c k j). apply Nat.ltb_lt in Ex.
      unfold updp. destruct ((r =? fc_rank c t) && (o =? uoff c (fc_dom c t) i)); [|apply (m_data _ _ _ Hs); auto].
      unfold upd. destruct (y =? x).
      * apply (m_data _ _ _ Hs); auto.
      * apply (m_data _ _ _ Hs); auto.
    + simz; [thrd Et Ez Ef Hs t|samed Hkeep Hs].
  - (* QCopyDone *)
    injection H0 as H0. rewrite Ef in Ez by discriminate. cbn [abs_pc] in Ez.
    exists [AThr t (chf f); AThr t (chf f)]. eexists. split.
    { one Ez. unfold step_thr, goto, set_thr, release, set_lock. cbn [s_thr]. rewrite upd_eq, Ez. reflexivity. }
    subst s'. simz; [|samed Hkeep Hs].
    intros t'. destruct (Nat.eq_dec t' t) as [->|Hne]; [|rewrite !upd_ne by auto; apply (m_thr _ _ _ Hs)].
    rewrite !upd_eq. unfold abs_thr. rewrite Et. uproj. cbn [abs_pc]. rewrite Ef by discriminate. reflexivity.
  - (* QMpi *)
    rewrite Ef in Ez by discriminate. cbn [abs_pc] in Ez.
    destruct (start_fill t i ((b, cell) :: filter (remote c t) todo) _ z ltac:(discriminate) Ez) as (acts2 & z2 & Hrun2 & F1 & (F2 & F3 & F4) & F5).
    assert (forall p k, s' = ugoto (uset_lock s k (Some t)) t p -> pc_fill p = Some i -> abs_pc p = PFilling i ->
      (forall r d, lock_eq (LCache r d) k = false) -> (forall r d, lock_eq (LSlot r d) k = false) ->
      exists acts z', run (cc c) z acts = Some z' /\ sim c s' z') as Hf.
    { intros p k E Ep1 Ep2 E1 E2. exists acts2, z2. split; auto.
      apply Hsame; subst s'; unfold ugoto, uset_thr, uset_lock in *; uproj; auto.
      - rewrite upd_eq, F1. unfold abs_thr. rewrite Et. uproj. now rewrite Ep2, Ef by discriminate.
      - split; auto.
      - intros. now rewrite E1.
      - intros. now rewrite E2.
      - intros r o x Hx Hn. rewrite F5. { apply (m_data _ _ _ Hs); auto. apply Hkeep; auto. discriminate. }
        destruct (Nat.eq_dec r (fc_rank c t)) as [->|]; auto. destruct (Nat.eq_dec o (uoff c (fc_dom c t) i)) as [->|]; auto.
        exfalso. apply Hn. exists t, i. cbn [u_thr]. rewrite upd_eq. auto. }
    unfold uacquire in H0. destruct (fc_mpi c); [congruence| |].
    + destruct (u_lock s (LInfo _)); [discriminate|]. cbn [option_map] in H0. injection H0 as H0.
      eapply Hf; [symmetry; exact H0| | | |]; reflexivity.
    + destruct (u_lock s (LBlk _)); [discriminate|]. cbn [option_map] in H0. injection H0 as H0.
      eapply Hf; [symmetry; exact H0| | | |]; reflexivity.
  - (* QGet *)
    rewrite Ef in Ez by discriminate. cbn [abs_pc] in Ez. destruct Hpc as [_ Hpart].
    destruct (Nat.ltb_spec x K); injection H0 as H0.
    + exists [], z. split; auto. apply Hsame; subst s'; unfold ugoto, uset_thr, uset_data in *; uproj; auto.
      * rewrite upd_eq, Ez. unfold abs_thr. rewrite Et. uproj. cbn [abs_pc]. now rewrite Ef by discriminate.
      * split; auto.
      * intros r o y Hy Hn. assert (r <> fc_rank c t \/ o <> uoff c (fc_dom c t) i) as Hne.
        { destruct (Nat.eq_dec r (fc_rank c t)) as [->|]; auto. destruct (Nat.eq_dec o (uoff c (fc_dom c t) i)) as [->|]; auto.
          exfalso. apply Hn. exists t, i. cbn [u_thr]. rewrite upd_eq. auto. }
        rewrite updp_ne by auto. apply (m_data _ _ _ Hs); auto. apply Hkeep; auto. cbn. intros ? [= <-]. auto.
    + apply (Hend i); auto; subst s'; unfold ugoto, uset_thr, urelease, uset_lock in *; uproj; rewrite ?upd_eq, ?Et; uproj; auto. intros y Hy. apply Hpart; auto; lia.
  - (* QAsk *)
    rewrite Ef in Ez by discriminate. cbn [abs_pc] in Ez. injection H0 as H0.
    exists [], z. split; auto. apply Hsame; subst s'; unfold ugoto, uset_thr, uset_req in *; uproj; auto.
    + rewrite upd_eq, Ez. unfold abs_thr. rewrite Et. uproj. cbn [abs_pc]. now rewrite Ef by discriminate.
    + split; auto.
    + intros r o y Hy Hn. apply (m_data _ _ _ Hs); auto. apply Hkeep; auto. cbn. intros ? [= <-].
      destruct (Nat.eq_dec r (fc_rank c t)) as [->|]; auto. destruct (Nat.eq_dec o (uoff c (fc_dom c t) i)) as [->|]; auto.
      exfalso. apply Hn. exists t, i. cbn [u_thr]. rewrite upd_eq. auto.
  - (* QWait *)
    rewrite Ef in Ez by discriminate. cbn [abs_pc] in Ez.
    destruct (Hwt _ eq_refl) as [[_ E]|[_ (m & E & Em)]]; rewrite E in H0; [discriminate|]. injection H0 as H0.
    apply (Hend i); auto; subst s'; unfold ugoto, uset_thr, uset_rep, uset_data, urelease, uset_lock in *; uproj; rewrite ?upd_eq, ?Et; uproj; auto.
    + intros r o Hne. now rewrite updp_ne.
    + intros y Hy. rewrite updp_eq. apply Nat.ltb_lt in Hy. now rewrite Hy, Em.
  - (* QReady *)
    injection H0 as H0. rewrite Ef in Ez by discriminate.
    exists [AThr t (chf f)]. eexists. split; [one Ez; reflexivity|].
    subst s'. simz; [|samed Hkeep Hs].
    intros t'. destruct (Nat.eq_dec t' t) as [->|Hne]; [|rewrite !upd_ne by auto; apply (m_thr _ _ _ Hs)].
    rewrite !upd_eq. unfold abs_thr. rewrite Et. uproj. cbn [abs_pc]. rewrite Ef by discriminate.
    change (cf_rank (cc c) t) with (fc_rank c t). change (node_off (cc c) (cf_dom (cc c) t) i) with (uoff c (fc_dom c t) i).
    rewrite (m_data _ _ _ Hs) by auto. rewrite ?Ez. reflexivity.
  - (* QRelease *)
    injection H0 as H0. rewrite Ef in Ez by discriminate.
    exists [AThr t (chf f)]. eexists. split; [one Ez; reflexivity|].
    destruct (Hr ltac:(discriminate)) as (? & ? & ? & E1 & E2). injection E1 as <- <- <-.
    subst s'. simz; [|samed Hkeep Hs].
    intros t'. destruct (Nat.eq_dec t' t) as [->|Hne]; [|rewrite !upd_ne by auto; apply (m_thr _ _ _ Hs)].
    rewrite !upd_eq. unfold abs_thr. uproj. cbn [abs_pc]. f_equal.
    rewrite filter_app. cbn [filter fst]. rewrite E2. rewrite ?Ez. reflexivity.
Qed.
End Sim.
