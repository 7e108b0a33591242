(** * Communication threads: the system can come to rest *)
From Verif Require Export LiveInv.
Require Import Bool.

Lemma below (Q : nat -> Prop) k : (forall r, Q r \/ ~ Q r) -> (exists r, r < k /\ ~ Q r) \/ forall r, r < k -> Q r.
Proof.
  intros HQ. induction k as [|k IH]; [right; lia|]. destruct IH as [(r & Hr & Hn)|IH]; [left; exists r; auto|].
  destruct (HQ k) as [H|H]; [right|left; exists k; auto].
  intros r Hr. destruct (Nat.eq_dec r k) as [->|]; auto. apply IH. lia.
Qed.

Lemma sum_one f g k j : j < k -> (forall i, i <> j -> f i = g i) -> sum f k + g j = sum g k + f j.
Proof.
  induction k; cbn; intros Hj Ho; [lia|]. destruct (Nat.eq_dec j k) as [->|Hne].
  - assert (sum f k = sum g k); [|lia].
    assert (forall m, m <= k -> sum f m = sum g m) as E; [|apply E; auto].
    induction m; cbn; auto. intros Hm. rewrite IHm by lia. rewrite (Ho m); lia.
  - rewrite (Ho k) by lia. specialize (IHk ltac:(lia) Ho). lia.
Qed.

Lemma sum_same f g k : (forall i, f i = g i) -> sum f k = sum g k.
Proof. intros H. induction k; cbn; auto. Qed.

Section Live.
Context {V : Type} (c : cfg V).
Local Notation n := (cf_size c).
Local Notation D := (cf_doms c).
Local Notation K := (cf_cells c).
Local Notation P := (cf_ranks c).
Hypothesis Hwf : wf_cfg c.
Hypothesis Hm : cf_mode c = MThread.
Hypothesis Hd0 : forall b, cf_dict c b = [].
Variable N : nat.
Hypothesis HN : forall t, N <= t -> cf_prog c t = [].

Local Notation OR := (ordered_reachable c).

(** Thread [t] is in the middle of a read. *)
Definition reading (s : st V) (t : nat) : Prop := t_pc (s_thr s t) <> PIdle.
(** No thread has started a read in the meantime. *)
Definition calm (s s' : st V) : Prop := forall t, reading s' t -> reading s t.

(** Something can be reached with some schedule without starting further reads. *)
Definition can (s : st V) (Q : st V -> Prop) : Prop :=
  exists acts s', fifo_run c s acts = Some s' /\ calm s s' /\ Q s'.

Lemma thr_calm s t ch s' : step_thr c s t ch = Some s' -> reading s t -> calm s s'.
Proof.
  intros H Ht t' Ht'. destruct (Nat.eq_dec t' t) as [->|Hne]; auto.
  assert (s_thr s' t' = s_thr s t') as E; [|unfold reading in *; now rewrite E in Ht'].
  destruct (s_thr s t) as [p todo dn] eqn:Et. open_step H. rewrite Et in H. cbn [t_pc t_todo t_done] in *.
  repeat break; proj; now rewrite ?upd_ne by auto.
Qed.
Lemma can_now s (Q : st V -> Prop) : Q s -> can s Q.
Proof. intros H. exists [], s. split; auto. split; auto. intros t Ht. exact Ht. Qed.
Lemma can_go s a s' Q : fifo_step c s a = Some s' -> calm s s' -> can s' Q -> can s Q.
Proof.
  intros H Hc (acts & s2 & E & Hc' & HQ). exists (a :: acts), s2. cbn. rewrite H. split; auto. split; auto.
  intros t Ht. apply Hc, Hc', Ht.
Qed.
Lemma can_thr s t ch s' Q : fifo_step c s (AThr t ch) = Some s' -> reading s t -> can s' Q -> can s Q.
Proof. intros H Ht HQ. apply (can_go s (AThr t ch) s'); auto. exact (thr_calm s t ch s' H Ht). Qed.
Lemma can_com s r ch s' Q : fifo_step c s (ACom r ch) = Some s' -> can s' Q -> can s Q.
Proof.
  intros H HQ. apply (can_go s (ACom r ch) s'); auto. unfold fifo_step in H. destruct (oldest_first _ _); [|discriminate].
  cbn in H. rewrite Hm in H. destruct (r <? P); [|discriminate].
  destruct (frame_com c s r ch s' H) as (E & _). intros t Ht. unfold reading in *. now rewrite E in Ht.
Qed.
Lemma run_app acts : forall s s1 acts' s2, fifo_run c s acts = Some s1 -> fifo_run c s1 acts' = Some s2 ->
  fifo_run c s (acts ++ acts') = Some s2.
Proof.
  induction acts as [|a acts IH]; cbn; intros s s1 acts' s2 H H'; [now injection H as ->|].
  destruct (fifo_step c s a) as [s0|]; [|discriminate]. eauto.
Qed.
Lemma can_trans s R Q : can s R -> (forall s', R s' -> can s' Q) -> can s Q.
Proof. 
  intros (acts & s1 & E & C1 & H1) H. destruct (H s1 H1) as (acts' & s2 & E' & C2 & H2). exists (acts ++ acts'), s2.
  split; [eapply run_app; eauto|]. split; auto. intros t Ht. apply C1, C2, Ht.
Qed.
Lemma can_calm s Q : can s Q -> can s (fun s' => calm s s' /\ Q s').
Proof. intros (acts & s' & E & C & H). exists acts, s'. auto. Qed.
Lemma fifo_ordered s a s' : fifo_step c s a = Some s' -> ordered_step c s a = Some s'.
Proof.
  unfold fifo_step, ordered_step. destruct (oldest_first s a) eqn:E; [|discriminate].
  assert (in_order s a = true) as ->; auto.
  destruct a as [t ch|r ch]; [reflexivity|]. unfold oldest_first, in_order in *. destruct (s_com s r); auto. destruct (ch_kind ch) as [|[|]]; auto.
  apply Nat.eqb_eq in E. rewrite skipn_all2 by (rewrite E; apply le_n). now destruct (nth_error _ _).
Qed.
Lemma or_run s acts s' : OR s -> fifo_run c s acts = Some s' -> OR s'.
Proof.
  revert s. induction acts as [|a acts IH]; cbn; intros s Hs H; [now injection H as <-|].
  destruct (fifo_step c s a) as [s1|] eqn:E; [|discriminate]. apply (IH s1); auto.
  destruct Hs as (l0 & acts0 & E0 & H0). exists l0, (acts0 ++ [a]). split; auto.
  apply fifo_ordered in E. clear - H0 E. revert H0. generalize (init c l0).
  induction acts0 as [|a' acts0 IH]; cbn; intros s0 H0; [injection H0 as ->; now rewrite E|].
  destruct (ordered_step c s0 a'); [auto|discriminate].
Qed.
Lemma or_step s a s' : OR s -> fifo_step c s a = Some s' -> OR s'.
Proof. intros H H'. apply (or_run s [a]); auto. cbn. now rewrite H'. Qed.
Lemma can_or s Q : OR s -> can s Q -> can s (fun s' => OR s' /\ Q s').
Proof. intros Hs (acts & s' & E & C & H). exists acts, s'. split; auto. split; auto. split; auto. eapply or_run; eauto. Qed.

Lemma or_step_step s a s' : fifo_step c s a = Some s' -> step c s a = Some s'.
Proof. unfold fifo_step. destruct (oldest_first s a); [auto|discriminate]. Qed.
Lemma ordered_plain s a s' : ordered_step c s a = Some s' -> step c s a = Some s'.
Proof. unfold ordered_step. destruct (in_order s a); [auto|discriminate]. Qed.
Lemma thr_ordered s t ch s' : step_thr c s t ch = Some s' -> fifo_step c s (AThr t ch) = Some s'.
Proof. auto. Qed.
Lemma com_ordered s r ch s' : r < P -> oldest_first s (ACom r ch) = true -> step_com c s r ch = Some s' ->
  fifo_step c s (ACom r ch) = Some s'.
Proof. intros Hr Ho H. unfold fifo_step. rewrite Ho. cbn. rewrite Hm. apply Nat.ltb_lt in Hr. now rewrite Hr. Qed.

(** ** Reads left *)
Definition reads (s : st V) : nat := sum (fun t => length (t_todo (s_thr s t))) N.

Lemma todo_nil s t : inv c s -> N <= t -> t_todo (s_thr s t) = [].
Proof.
  intros [_ Hj] Ht. destruct (j_thr c s Hj t) as (_ & _ & _ & _ & E). rewrite (HN t Ht) in E.
  apply app_eq_nil in E. tauto.
Qed.
Lemma works_lt s t : inv c s -> t_todo (s_thr s t) <> [] -> t < N.
Proof. intros Hi H. destruct (lt_dec t N); auto. exfalso. apply H, todo_nil; auto. lia. Qed.

Definition track (s s' : st V) : Prop :=
  reads s' <= reads s /\ forall t, t_pc (s_thr s t) <> PIdle -> t_pc (s_thr s' t) <> PIdle \/ reads s' < reads s.

Lemma track_refl s : track s s.
Proof. split; auto. Qed.
Lemma track_trans s s1 s2 : track s s1 -> track s1 s2 -> track s s2.
Proof.
  intros [H1 H2] [H3 H4]. split; [lia|]. intros t Ht. destruct (H2 t Ht) as [H|H]; [|right; lia].
  destruct (H4 t H) as [H'|H']; auto. right; lia.
Qed.
Lemma track_step s a s' : inv c s -> step c s a = Some s' -> track s s'.
Proof.
  intros Hi H. destruct a as [t ch|r ch]; cbn in H.
  - assert (t < N) as Ht by (eapply works_lt; eauto; eapply step_todo; eauto).
    destruct (frame_thr c Hwf s t ch s' (proj1 Hi) H) as (_ & Ho & _).
    assert ((t_todo (s_thr s' t) = t_todo (s_thr s t) /\ t_pc (s_thr s' t) <> PIdle) \/
      length (t_todo (s_thr s' t)) < length (t_todo (s_thr s t))) as Hc.
    { destruct (s_thr s t) as [p todo dn] eqn:Et. open_step H. rewrite Et in H. cbn [t_pc t_todo t_done] in *.
      repeat break; proj; rewrite upd_eq, ?Et; cbn [t_pc t_todo t_done length];
      try (left; split; [reflexivity|discriminate]). right. lia. }
    assert (reads s' + length (t_todo (s_thr s t)) = reads s + length (t_todo (s_thr s' t))) as E.
    { apply (sum_one (fun t => length (t_todo (s_thr s' t))) (fun t => length (t_todo (s_thr s t))) N t Ht). intros i Hne. now rewrite Ho. }
    destruct Hc as [[E1 E2]|E1]; [rewrite E1 in E|].
    + split; [lia|]. intros t' Ht'. destruct (Nat.eq_dec t' t) as [->|Hne]; auto. rewrite Ho by auto. auto.
    + split; [lia|]. intros. right. lia.
  - destruct (cf_mode c); try discriminate. destruct (r <? P); [|discriminate].
    destruct (frame_com c s r ch s' H) as (E & _). unfold track, reads. rewrite E. auto.
Qed.
Lemma track_run acts : forall s s', inv c s -> fifo_run c s acts = Some s' -> track s s'.
Proof.
  induction acts as [|a acts IH]; cbn; intros s s' Hi H; [injection H as <-; apply track_refl|].
  destruct (fifo_step c s a) as [s1|] eqn:E; [|discriminate]. apply or_step_step in E.
  apply (track_trans s s1); [eapply track_step; eauto|]. apply IH; auto. eapply inv_step; eauto.
Qed.
Lemma can_track s Q : OR s -> can s Q -> can s (fun s' => track s s' /\ Q s').
Proof.
  intros Hs (acts & s' & E & C & H). exists acts, s'. split; auto. split; auto. split; auto.
  apply (track_run acts); auto. apply (reach_inv c Hwf), ordered_reach; auto.
Qed.

(** ** Steps until the system is at rest *)
Definition wb : nat := K + 5 * D + 7.
Definition rank_thr (p : pc V) : nat :=
  match p with
  | PGetLocked => K + 5 * D + 14
  | PGetSlot _ _ => K + 5 * D + 13
  | PGetBoth _ _ => K + 5 * D + 12
  | PHave _ _ => K + 5 * D + 11
  | PDel _ _ => K + 5 * D + 10
  | PSearch _ k => K + 8 + 5 * (D - k)
  | PTryLocked _ k => K + 8 + 5 * (D - S k) + 3
  | PTryFound _ k _ => K + 8 + 5 * (D - S k) + 2
  | PTryMiss _ k => K + 8 + 5 * (D - S k) + 1
  | PTryBoth _ _ _ => K + 7
  | PCopy _ _ _ x => 6 + (K - x)
  | PCopyDone _ _ _ => 5
  | PAskInfo _ => wb + 10
  | PWaitInfo _ => wb + 8
  | PAskBlk _ _ => wb + 7
  | PSendBlk _ _ => wb + 6
  | PWaitBlk _ _ => 5
  | PFill _ => 6
  | PFilling _ => 5
  | PAdd _ | PEnd _ => 4
  | PReady _ => 2
  | PRelease _ _ => 1
  | _ => 0
  end.
Definition rank_com (p : cpc V) : nat :=
  match p with
  | CIdle => 0
  | CTry _ _ k => K + 5 + 5 * (D - k)
  | CTryLocked _ _ k => K + 5 + 5 * (D - S k) + 3
  | CTryFound _ _ k _ => K + 5 + 5 * (D - S k) + 2
  | CTryMiss _ _ k => K + 5 + 5 * (D - S k) + 1
  | CTryBoth _ _ _ _ => K + 4
  | CSend _ _ _ _ x _ => K - x + 2
  | CSendDone _ _ => 1
  end.
Definition m_thr (f : nat -> thr V) : nat := sum (fun t => rank_thr (t_pc (f t))) N.
Definition m_com (f : nat -> cpc V) : nat := sum (fun r => rank_com (f r)) P.
Definition m_upd (f : nat -> list (bool * nat * nat)) : nat := sum (fun r => length (f r)) P.
Definition m_req (f : nat -> nat -> list nat) : nat := sum (fun q => sum (fun r => length (f q r)) P) P.
Definition steps (s : st V) : nat :=
  m_thr (s_thr s) + m_com (s_com s) + m_upd (s_upd s) + m_req (s_ireq s) + wb * m_req (s_breq s).

Lemma m_thr_upd f t x : t < N -> m_thr (upd f t x) + rank_thr (t_pc (f t)) = m_thr f + rank_thr (t_pc x).
Proof.
  intros Ht. unfold m_thr. pose proof (sum_one (fun t' => rank_thr (t_pc (upd f t x t'))) (fun t' => rank_thr (t_pc (f t'))) N t Ht) as E.
  cbn beta in E. rewrite upd_eq in E. apply E. intros i Hi. now rewrite upd_ne.
Qed.
Lemma m_com_upd f r x : r < P -> m_com (upd f r x) + rank_com (f r) = m_com f + rank_com x.
Proof.
  intros Hr. unfold m_com. pose proof (sum_one (fun t' => rank_com (upd f r x t')) (fun t' => rank_com (f t')) P r Hr) as E.
  cbn beta in E. rewrite upd_eq in E. apply E. intros i Hi. now rewrite upd_ne.
Qed.
Lemma m_upd_upd f r x : r < P -> m_upd (upd f r x) + length (f r) = m_upd f + length x.
Proof.
  intros Hr. unfold m_upd. pose proof (sum_one (fun t' => length (upd f r x t')) (fun t' => length (f t')) P r Hr) as E.
  cbn beta in E. rewrite upd_eq in E. apply E. intros i Hi. now rewrite upd_ne.
Qed.
Lemma m_req_updp f q r x : q < P -> r < P -> m_req (updp f q r x) + length (f q r) = m_req f + length x.
Proof.
  intros Hq Hr. unfold m_req.
  pose proof (sum_one (fun q' => sum (fun r' => length (updp f q r x q' r')) P) (fun q' => sum (fun r' => length (f q' r')) P) P q Hq) as E.
  pose proof (sum_one (fun r' => length (updp f q r x q r')) (fun r' => length (f q r')) P r Hr) as E2.
  cbn beta in E, E2. rewrite updp_eq in E2.
  assert (forall i, i <> r -> length (updp f q r x q i) = length (f q i)) as H2 by (intros; now rewrite updp_ne by auto).
  specialize (E2 H2).
  assert (forall i, i <> q -> sum (fun r' => length (updp f q r x i r')) P = sum (fun r' => length (f i r')) P) as H1.
  { intros i Hi. apply sum_same. intros r'. now rewrite updp_ne by auto. }
  specialize (E H1). lia.
Qed.

Definition resting (p : pc V) : Prop := match p with PIdle | PStart _ => True | _ => False end.

Lemma thr_less s t ch s' : inv c s -> step_thr c s t ch = Some s' -> ~ resting (t_pc (s_thr s t)) -> steps s' < steps s.
Proof.
  intros Hi H Hp.
  assert (t < N) as Ht by (eapply works_lt; eauto; eapply step_todo; eauto).
  pose proof (i_thr c s (proj1 Hi) t) as (_ & _ & _ & Hw).
  pose proof (wc_rank c Hwf t) as Hr. pose proof (wc_home c Hwf) as Hh.
  unfold steps. pose proof (fun x => m_thr_upd (s_thr s) t x Ht) as Et'.
  destruct (s_thr s t) as [p todo dn] eqn:Et. open_step H. rewrite Et in H. cbn [t_pc t_todo t_done resting req] in *.
  repeat break; proj; try tauto; rewrite ?Et in *; cbn [t_pc t_todo] in *; try congruence;
  repeat match goal with
  | E : (_ <? _) = true |- _ => apply Nat.ltb_lt in E
  | E : (_ <? _) = false |- _ => apply Nat.ltb_ge in E
  end;
  try match goal with |- context [m_upd (upd ?f ?r ?x)] => pose proof (m_upd_upd f r x (Hh _)) end;
  try match goal with |- context [m_req (updp ?f ?q ?r ?x)] => 
     let E := fresh in assert (q < P /\ r < P) as E by (split; [apply Hr|first [apply Hh|apply Hw]]); pose proof (m_req_updp f q r x (proj1 E) (proj2 E)) end;
  match goal with |- context [m_thr (upd _ _ ?x)] => specialize (Et' x) end;
  cbn [t_pc rank_thr length] in *; rewrite ?app_length in *; cbn [length] in *; unfold wb in *; try lia.
  all: destruct Hw; congruence.
Qed.

Lemma com_less s r ch s' : inv c s -> r < P -> step_com c s r ch = Some s' -> steps s' < steps s.
Proof.
  intros Hi Hr H. pose proof (i_src c s (proj1 Hi)) as Hs. unfold src_shape in Hs.
  unfold steps. pose proof (fun x => m_com_upd (s_com s) r x Hr) as Ec'.
  destruct (s_com s r) eqn:Ec; open_step H; rewrite Ec in H.
  2-8: repeat break; proj; cbn [rank_com] in *;
    repeat match goal with
    | E : (_ <? _) = true |- _ => apply Nat.ltb_lt in E
    | E : (_ <? _) = false |- _ => apply Nat.ltb_ge in E
    end;
    match goal with |- context [m_com (upd _ _ ?x)] => specialize (Ec' x) end; cbn [rank_com] in *; lia.
  destruct (ch_kind ch) as [|[|k]].
  - destruct (s_ireq s (ch_src ch) r) as [|b q] eqn:Eq; [discriminate|]. repeat break; proj.
    assert (ch_src ch < P) as Hsrc by (apply (Hs _ r); left; congruence).
    pose proof (m_req_updp (s_ireq s) (ch_src ch) r q Hsrc Hr) as E. rewrite Eq in E. cbn [length] in E. lia.
  - destruct (s_breq s (ch_src ch) r) as [|b q] eqn:Eq; [discriminate|]. repeat break; proj.
    assert (ch_src ch < P) as Hsrc by (apply (Hs _ r); right; congruence).
    pose proof (m_req_updp (s_breq s) (ch_src ch) r q Hsrc Hr) as E. rewrite Eq in E. cbn [length] in E.
    specialize (Ec' (CTry (ch_src ch) b 0)). cbn [rank_com] in Ec'. unfold wb in *. nia.
  - destruct (nth_error (s_upd s r) (ch_src ch)) as [[[add b] e]|] eqn:En; [|discriminate]. repeat break; proj.
    all: match goal with |- context [m_upd (upd ?f ?r ?x)] => pose proof (m_upd_upd f r x Hr) as E end.
    all: assert (ch_src ch < length (s_upd s r)) by (apply nth_error_Some; congruence).
    all: rewrite app_length, firstn_length in E; destruct (s_upd s r) as [|m l]; cbn [length] in *; rewrite ?skipn_length in E; lia.
Qed.

Lemma com_moves s r : s_com s r <> CIdle -> exists s', step_com c s r ch0 = Some s'.
Proof.
  intros Hc. unfold step_com. destruct (s_com s r); try congruence; eauto.
  - destruct (k <? D); eauto. destruct (try_lock s ch0 _ _); eauto.
  - destruct (clist_peek _ _); eauto.
  - destruct (try_lock s ch0 _ _); eauto.
  - destruct (c0 <? K); eauto.
Qed.

(** Thread [t] has the manager of its domain locked and waits for a slot of a thread which has to start
    its transfer. *)
Definition kept (s : st V) (t t' : nat) : Prop :=
  match t_pc (s_thr s t) with
  | PGetSlot i _ =>
      s_lock s (LSlot (cf_rank c t) (node_off c (cf_dom c t) i)) = Some (Usr t') /\
      match t_pc (s_thr s t') with PStart _ => True | _ => False end
  | _ => False
  end.

Lemma kept_dec s t : (exists t', kept s t t') \/ ~ exists t', kept s t t'.
Proof.
  unfold kept. destruct (t_pc (s_thr s t)) eqn:Ep; try (right; intros (? & []); fail).
  destruct (s_lock s _) as [[t'|]|] eqn:E; [|right; intros (? & ? & _); discriminate..].
  destruct (t_pc (s_thr s t')) eqn:Ep'; try (right; intros (t2 & [= <-] & H); rewrite Ep' in H; exact H).
  left. exists t'. rewrite Ep'. auto.
Qed.

Lemma kept_same s t t' : inv1 c s -> kept s t t' ->
  t <> t' /\ cf_rank c t = cf_rank c t' /\ cf_dom c t = cf_dom c t'.
Proof.
  intros Hi H. unfold kept in H. destruct (t_pc (s_thr s t)) eqn:Ep; try tauto. destruct H as [El H].
  destruct (t_pc (s_thr s t')) eqn:Ep'; try tauto.
  assert (i < n) as Hin by (pose proof (i_thr c s Hi t) as (_ & _ & _ & Hx); now rewrite Ep in Hx).
  apply (lock_slot c s t' _ _ Hi) in El as [Er [(i' & E1 & E2)|(k' & j & E1 & E2)]]; [|rewrite Ep' in E1; discriminate].
  apply (node_off_inj c Hwf) in E2 as [E2 _]; auto; [|eapply own_lt; eauto].
  split; auto. congruence.
Qed.

(** Nothing happens but threads start reads or transfers. *)
Definition at_rest (s : st V) : Prop :=
  (forall t, resting (t_pc (s_thr s t)) \/ exists t', kept s t t') /\
  (forall r, s_com s r = CIdle /\ s_upd s r = []) /\
  (forall q r, s_ireq s q r = [] /\ s_breq s q r = []).

Lemma prog_work s t : inv c s -> t_todo (s_thr s t) <> [] -> cf_prog c t <> [].
Proof.
  intros [_ Hj] Ht E. destruct (j_thr c s Hj t) as (_ & _ & _ & _ & E'). rewrite E in E'. apply app_eq_nil in E'. tauto.
Qed.

Lemma unsettled_moves s t : inv c s -> (forall r, s_com s r = CIdle) ->
  (forall q r, s_ireq s q r = [] /\ s_breq s q r = []) -> ~ resting (t_pc (s_thr s t)) -> (~ exists t', kept s t t') ->
  exists t' s', step_thr c s t' ch0 = Some s' /\ ~ resting (t_pc (s_thr s t')).
Proof.
  intros Hi Hc Hq Hp Hk0. pose proof Hi as [Hi1 Hi2].
  assert (forall t', ~ resting (t_pc (s_thr s t')) -> t_todo (s_thr s t') <> []) as Hw.
  { intros t' Ht'. apply (works_pc c s t' Hi1). intros E. rewrite E in Ht'. apply Ht'. exact I. }
  (* a thread that cannot move waits for a lock of another one *)
  assert (forall t', ~ resting (t_pc (s_thr s t')) ->
    (exists s', step_thr c s t' ch0 = Some s') \/
    (exists k, waits c t' (s_thr s t') = Some (WLock k) /\ s_lock s k <> None)) as Hmv.
  { intros t' Ht'. destruct (step_thr c s t' ch0) as [s'|] eqn:E; [left; eauto|].
    destruct (step_blocked c s t' ch0 Hi1 (Hw t' Ht') E) as (w & E1 & E2). right.
    destruct w as [k|q|q]; [eauto| |]; exfalso; cbn in E2.
    - unfold waits in E1. destruct (t_pc (s_thr s t')) eqn:Ep; try discriminate.
      1,2: destruct (cf_mode c); discriminate.
      1: destruct (cf_mode c); [discriminate..|]; destruct (_ =? _); discriminate.
      injection E1 as <-.
      pose proof (j_info c s Hi2 (cf_rank c t') (cf_home c (req (s_thr s t')))) as Ht.
      unfold info_tokens, info_expected in Ht.
      rewrite (held_msg c s t' (LInfo (cf_rank c t')) Hi1), Ep, Nat.eqb_refl, E2 in Ht by (rewrite Ep; reflexivity).
      rewrite (proj1 (Hq _ _)) in Ht. discriminate.
    - unfold waits in E1. destruct (t_pc (s_thr s t')) eqn:Ep; try discriminate.
      1,2: destruct (cf_mode c); discriminate.
      1: destruct (cf_mode c); [discriminate..|]; destruct (_ =? _); discriminate.
      injection E1 as <-.
      pose proof (j_blk c s Hi2 (cf_rank c t') dst) as Ht.
      unfold blk_tokens, blk_expected, serving in Ht.
      rewrite (held_msg c s t' (LBlk (cf_rank c t')) Hi1), Ep, Nat.eqb_refl, E2 in Ht by (rewrite Ep; reflexivity).
      rewrite (proj2 (Hq _ _)), Hc in Ht. discriminate. }
  destruct (Hmv t Hp) as [(s' & E)|(k & E & Hk)]; [exists t, s'; auto|].
  destruct (s_lock s k) as [[t'|r]|] eqn:El; [| |congruence].
  2:{ exfalso. apply (com_rank_lt c s r k Hi1 El). apply Hc. }
  pose proof (holder_pc c s t' k Hi1 El) as Hh.
  assert (forall u, ~ resting (t_pc (s_thr s u)) -> (forall k', waits c u (s_thr s u) = Some (WLock k') -> False) ->
    exists t' s', step_thr c s t' ch0 = Some s' /\ ~ resting (t_pc (s_thr s t'))) as Hend.
  { intros u Hu Hwu. destruct (Hmv u Hu) as [(s' & E')|(k' & E' & _)]; [exists u, s'; auto|]. destruct (Hwu _ E'). }
  assert (forall u r k', s_lock s k' = Some (Usr u) -> k' = LBlk r \/ k' = LInfo r ->
    exists t' s', step_thr c s t' ch0 = Some s' /\ ~ resting (t_pc (s_thr s t'))) as Hmsg.
  { intros u r k' Hl Hkk. pose proof (holder_pc c s u k' Hi1 Hl) as Hh'. apply (Hend u).
    - destruct Hkk as [->| ->]; [destruct Hh' as (i' & dst' & [E'|E'])|destruct Hh' as (i' & [E'|E'])]; rewrite E'; cbn; tauto.
    - unfold waits. destruct Hkk as [->| ->]; [destruct Hh' as (i' & dst' & [E'|E'])|destruct Hh' as (i' & [E'|E'])]; rewrite E'; discriminate. }
  unfold waits in E. destruct (t_pc (s_thr s t)) eqn:Ep; cbn in Hp; try tauto; try discriminate.
  - injection E as <-. 
    assert (~ resting (t_pc (s_thr s t'))) as Hp'.
    { intros Hr. destruct Hh as [i' Hh]. destruct (t_pc (s_thr s t')) eqn:Ep'; cbn in *; try tauto; try discriminate.
      apply Hk0. exists t'. unfold kept. rewrite Ep, Ep'. auto. }
    destruct (Hmv t' Hp') as [(s' & E')|(k' & E' & Hk')]; [exists t', s'; auto|].
    destruct (s_lock s k') as [[u|r]|] eqn:El'; [| |congruence].
    2:{ exfalso. apply (com_rank_lt c s r k' Hi1 El'). apply Hc. }
    destruct Hh as [i' Hh]. unfold waits in E'. destruct (t_pc (s_thr s t')) eqn:Ep'; cbn in Hp', Hh; try tauto; try discriminate.
    + destruct (cf_mode c); discriminate.
    + destruct (cf_mode c); discriminate.
    + injection E' as <-. eapply Hmsg; eauto.
  - destruct (cf_mode c); discriminate.
  - destruct (cf_mode c); discriminate.
  - injection E as <-. eapply Hmsg; eauto.
Qed.

Lemma stir s : OR s -> at_rest s \/ exists a s', fifo_step c s a = Some s' /\ steps s' < steps s /\
  match a with AThr t _ => reading s t | ACom _ _ => True end.
Proof.
  intros Hs. destruct (ordered_dsync c Hwf Hm Hd0 s Hs) as [Hi Hd].
  pose proof (reach_com_idle c s (ordered_reach c s Hs)) as Hci.
  destruct (below (fun r => s_com s r = CIdle) P) as [(r & Hr & Hc)|Hc].
  { intros r. destruct (s_com s r); auto; right; discriminate. }
  { right. destruct (com_moves s r Hc) as [s' E]. exists (ACom r ch0), s'. split; [|split; [eapply com_less; eauto|exact I]].
    apply com_ordered; auto. unfold oldest_first. destruct (s_com s r); auto; congruence. }
  assert (forall r, s_com s r = CIdle) as Hc'.
  { intros r. destruct (lt_dec r P); auto. destruct (s_com s r) eqn:E; auto;
      exfalso; destruct (Hci r ltac:(congruence)); lia. }
  destruct (below (fun r => s_upd s r = []) P) as [(r & Hr & Hu)|Hu].
  { intros r. destruct (s_upd s r); auto; right; discriminate. }
  { right. set (k := length (s_upd s r) - 1). 
    assert (k < length (s_upd s r)) as Hk by (destruct (s_upd s r); [congruence|cbn in *; lia]).
    destruct (nth_error (s_upd s r) k) as [[[add b] e]|] eqn:En; [|apply nth_error_None in En; lia].
    destruct (dict_ops_ok c s b e 0 (proj1 Hi)) as ((x1 & E1) & (x2 & E2) & _).
    set (ch := Choice false 0 (fun _ => @None V) 2 k).
    assert (exists s', step_com c s r ch = Some s') as [s' E].
    { unfold step_com. rewrite Hc'. cbn [ch_kind ch ch_src]. rewrite En. destruct add; [rewrite E1|rewrite E2]; eauto. }
    exists (ACom r ch), s'. split; [|split; [now apply (com_less s r ch s')|exact I]]. apply com_ordered; auto.
    unfold oldest_first. rewrite Hc'. cbn [ch_kind ch ch_src]. apply Nat.eqb_eq. unfold k. lia. }
  assert (forall r, s_upd s r = []) as Hu'.
  { intros r. destruct (lt_dec r P) as [|Hr]; auto. destruct (s_upd s r) as [|m l] eqn:E; auto.
    exfalso. apply Hr. assert (In m (s_upd s r)) as Hin by (rewrite E; now left).
    apply (d_home c s Hd) in Hin as [<- _]. apply Hwf. }
  destruct (below (fun r => forall q, s_ireq s q r = []) P) as [(r & Hr & Hq)|Hq].
  { intros r. destruct (below (fun q => s_ireq s q r = []) P) as [(q & Hq & Hn)|H].
    - intros q. destruct (s_ireq s q r); auto; right; discriminate.
    - right. intros H. apply Hn, H.
    - left. intros q. destruct (s_ireq s q r) as [|b l] eqn:E; auto. rewrite <- E. apply H.
      apply (i_src c s (proj1 Hi) q r). left. congruence. }
  { right. destruct (below (fun q => s_ireq s q r = []) P) as [(q & Hq' & Hn)|H].
    - intros q. destruct (s_ireq s q r); auto; right; discriminate.
    - destruct (s_ireq s q r) as [|b l] eqn:E; [congruence|].
      destruct (dict_ops_ok c s b 0 0 (proj1 Hi)) as (_ & _ & _ & (y & k & Ex)).
      set (ch := Choice false 0 (fun _ => @None V) 0 q).
      assert (exists s', step_com c s r ch = Some s') as [s' E'].
      { unfold step_com. rewrite Hc'. cbn [ch_kind ch ch_src ch_rand]. rewrite E, Ex. eauto. }
      exists (ACom r ch), s'. split; [|split; [now apply (com_less s r ch s')|exact I]]. apply com_ordered; auto.
      unfold oldest_first. now rewrite Hc'.
    - exfalso. apply Hq. intros q. destruct (s_ireq s q r) as [|b l] eqn:E; auto. rewrite <- E. apply H.
      apply (i_src c s (proj1 Hi) q r). left. congruence. }
  destruct (below (fun r => forall q, s_breq s q r = []) P) as [(r & Hr & Hb)|Hb].
  { intros r. destruct (below (fun q => s_breq s q r = []) P) as [(q & Hq' & Hn)|H].
    - intros q. destruct (s_breq s q r); auto; right; discriminate.
    - right. intros H. apply Hn, H.
    - left. intros q. destruct (s_breq s q r) as [|b l] eqn:E; auto. rewrite <- E. apply H.
      apply (i_src c s (proj1 Hi) q r). right. congruence. }
  { right. destruct (below (fun q => s_breq s q r = []) P) as [(q & Hq' & Hn)|H].
    - intros q. destruct (s_breq s q r); auto; right; discriminate.
    - destruct (s_breq s q r) as [|b l] eqn:E; [congruence|].
      set (ch := Choice false 0 (fun _ => @None V) 1 q).
      assert (exists s', step_com c s r ch = Some s') as [s' E'].
      { unfold step_com. rewrite Hc'. cbn [ch_kind ch ch_src]. rewrite E. eauto. }
      exists (ACom r ch), s'. split; [|split; [now apply (com_less s r ch s')|exact I]]. apply com_ordered; auto.
      unfold oldest_first. now rewrite Hc'.
    - exfalso. apply Hb. intros q. destruct (s_breq s q r) as [|b l] eqn:E; auto. rewrite <- E. apply H.
      apply (i_src c s (proj1 Hi) q r). right. congruence. }
  assert (forall q r, s_ireq s q r = [] /\ s_breq s q r = []) as Hqb.
  { intros q r. destruct (lt_dec r P) as [|Hr]; auto. split.
    - pose proof (j_info c s (proj2 Hi) q r) as Ht. unfold info_tokens, info_expected in Ht.
      destruct (s_lock s (LInfo q)) as [[t|]|]; try (apply app_eq_nil in Ht; tauto).
      destruct (t_pc (s_thr s t)); try (apply app_eq_nil in Ht; tauto).
      destruct (Nat.eqb_spec (cf_home c (req (s_thr s t))) r) as [<-|]; [exfalso; apply Hr, Hwf|apply app_eq_nil in Ht; tauto].
    - pose proof (j_blk c s (proj2 Hi) q r) as Ht. unfold blk_tokens, blk_expected in Ht.
      destruct (s_lock s (LBlk q)) as [[t|]|]; try (apply app_eq_nil in Ht; tauto).
      destruct (t_pc (s_thr s t)) eqn:Ep; try (apply app_eq_nil in Ht; tauto).
      destruct (Nat.eqb_spec dst r) as [<-|]; [exfalso; apply Hr|apply app_eq_nil in Ht; tauto].
      pose proof (i_thr c s (proj1 Hi) t) as (_ & _ & _ & Hx). rewrite Ep in Hx. apply Hx. }
  destruct (below (fun t => resting (t_pc (s_thr s t)) \/ exists t', kept s t t') N) as [(t & Ht & Hp)|Hp].
  { intros t. destruct (kept_dec s t); auto. assert (resting (t_pc (s_thr s t)) \/ ~ resting (t_pc (s_thr s t))) as [|];
      [destruct (t_pc (s_thr s t)); cbn; auto|auto|tauto]. }
  { right. destruct (unsettled_moves s t Hi Hc' Hqb) as (t' & s' & E & Hp'); [tauto..|].
    exists (AThr t' ch0), s'. split; [auto|]. split; [eapply thr_less; eauto|].
    intros E'. rewrite E' in Hp'. apply Hp'. exact I. }
  left. split; [|split]; auto.
  intros t. destruct (lt_dec t N) as [|Ht]; auto. left.
  assert (t_todo (s_thr s t) = []) as E by (apply todo_nil; auto; lia).
  destruct (t_pc (s_thr s t)) eqn:Ep; cbn; auto; pose proof (works_pc c s t (proj1 Hi)) as Hw; rewrite Ep in Hw;
    exfalso; apply Hw; auto; discriminate.
Qed.

(** No block is in two slots of a domain. *)
Lemma listed_once s r d i j b : inv1 c s -> i < n -> j < n -> i2b s r d i = Some b -> i2b s r d j = Some b -> i = j.
Proof.
  intros Hi Hin Hjn Ei Ej. destruct (i_list c s Hi r d) as (h & tt & Hci).
  assert (forall k, k < n -> i2b s r d k = Some b -> c_b2i (s_list s r d) b = Some k) as H.
  { intros k Hk E. apply (ci_inv _ _ _ _ Hci). split; auto. unfold i2b in E. destruct (m_at _ _) as [o|]; [congruence|discriminate]. }
  apply H in Ei, Ej; auto. congruence.
Qed.

Definition once (s : st V) : Prop :=
  forall r d i j b, i < n -> j < n -> phys s r d i = Some b -> phys s r d j = Some b -> i = j.

Lemma once_step s a s' : inv1 c s -> inv1 c s' -> once s -> step c s a = Some s' -> once s'.
Proof.
  intros Hi Hi' Ho H r d i j b Hin Hjn Ei Ej. destruct a as [t ch|q ch]; cbn in H.
  - assert (forall k, k < n -> phys s' r d k = phys s r d k \/
      (forall k', phys s' r d k' = i2b s' r d k')) as Hk.
    { intros k Hk. destruct (phys_thr c s t ch s' Hi H r d k Hk) as [E|(old & E1 & E2 & -> & -> & _)]; auto.
      right. intros k'. unfold phys.
      rewrite (held_cm c s' t (cf_dom c t) Hi') by now rewrite E2. now rewrite E2. }
    destruct (Hk i Hin) as [E1|E1]; [destruct (Hk j Hjn) as [E2|E2]|].
    + rewrite E1 in Ei. rewrite E2 in Ej. eapply Ho; eauto.
    + rewrite E2 in Ei, Ej. eapply (listed_once s'); eauto.
    + rewrite E1 in Ei, Ej. eapply (listed_once s'); eauto.
  - destruct (cf_mode c); try discriminate. destruct (q <? P); [|discriminate].
    rewrite (phys_com c s q ch s' Hi H) in Ei, Ej. eapply Ho; eauto.
Qed.

Lemma or_once s : OR s -> once s.
Proof.
  intros (l0 & acts & E & H).
  destruct (inv1_init c Hwf) as (l1 & E1 & Hi & Hb). assert (l1 = l0) as -> by congruence.
  assert (inv c (init c l0)) as H0 by (split; [auto|apply inv2_init; auto]).
  assert (once (init c l0)) as H1 by (intros r d i j b Hin Hjn Ei Ej; exact (listed_once _ r d i j b Hi Hin Hjn Ei Ej)).
  clear E Hi Hb E1. revert H. generalize dependent (init c l0). clear l0. induction acts as [|a acts IH]; cbn; intros s0 H0 H1 H.
  - now injection H as <-.
  - destruct (ordered_step c s0 a) as [s1|] eqn:Ea; [|discriminate]. apply ordered_plain in Ea.
    assert (inv c s1) as H2 by (eapply inv_step; eauto).
    apply (IH s1); auto. eapply once_step; eauto; [apply H0|apply H2].
Qed.

Lemma settle s : OR s -> can s at_rest.
Proof.
  remember (steps s) as k eqn:Ek. revert s Ek. induction k as [k IH] using lt_wf_ind. intros s -> Hs.
  destruct (stir s Hs) as [H|(a & s' & E & Hlt & Ha)]; [now apply can_now|].
  assert (can s' at_rest) as Hcan by (apply (IH (steps s')); auto; eapply or_step; eauto).
  destruct a as [t ch|r ch]; [eapply can_thr|eapply can_com]; eauto.
Qed.
End Live.
