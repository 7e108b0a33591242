(** * Concurrent full grids: values, progress, termination *)
From Verif Require Export FullConcSim ConcFacts.

Section F.
Context {W : Type} (c : fcfg W).
Local Notation n := (fc_size c).
Local Notation D := (d_domains (fc_dist c)).
Local Notation P := (d_ranks (fc_dist c)).
Local Notation K := (fc_cells c).
Local Notation d_ := (fc_dist c).
Hypothesis Hc : wf_fcfg c.

Definition uinv (s : fst_ W) : Prop := linv c s /\ exists z, sim c s z /\ reachable (cc c) z.

Lemma uinv_init l0 : clist_init n (fc_spread c) = Ok l0 -> uinv (uinit c l0).
Proof.
  intros E. split.
  - constructor; cbn; auto; try discriminate; try congruence.
    + intros r t. split; [discriminate|]. intros (_ & i & x & E1). discriminate.
    + intros r t. split; [discriminate|]. intros (_ & i & [E1|E1]); discriminate.
    + intros src dst [H|H]; congruence.
  - exists (init (cc c) l0). split.
    + constructor; cbn; auto.
    + exists l0, []. split; auto.
Qed.

Lemma uinv_step s a s' : uinv s -> ustep c s a = Some s' -> uinv s'.
Proof.
  intros (Hl & z & Hs & Hz) H. pose proof (reach_inv _ (cc_wf c Hc) z Hz) as Hi. destruct a as [t f|r src]; cbn in H.
  - split; [eapply linv_thr; eauto|].
    destruct (sim_thr c Hc s z Hl Hs Hi t f s' H) as (acts & z' & Hr & Hs'). exists z'. split; auto.
    destruct Hz as (l0 & acts0 & E0 & E1). exists l0, (acts0 ++ acts). split; auto. eapply run_app; eauto.
  - destruct (fc_mpi c); try discriminate. destruct (r <? P); [|discriminate].
    split; [eapply linv_com; eauto|]. exists z. split; auto. eapply sim_com; eauto.
Qed.

Lemma urun_inv acts : forall s s', uinv s -> urun c s acts = Some s' -> uinv s'.
Proof.
  induction acts as [|a acts IH]; cbn; intros s s' Hi H; [congruence|].
  destruct (ustep c s a) as [s1|] eqn:E; [|discriminate]. exact (IH s1 s' (uinv_step s a s1 Hi E) H).
Qed.

Lemma ureach_inv s : ureach c s -> uinv s.
Proof. intros (l0 & acts & E & H). eapply urun_inv; [|exact H]. now apply uinv_init. Qed.

(** Answers. *)
Lemma u_answers s : ureach c s -> forall t,
  map fst (q_done (u_thr s t)) ++ q_todo (u_thr s t) = fc_prog c t /\
  Forall (fun '(b, cell, v) => v = Some (bcont c b cell)) (q_done (u_thr s t)).
Proof.
  intros Hr t. destruct (ureach_inv s Hr) as (Hl & z & Hs & Hz). split; [apply Hl|].
  destruct (answers (cc c) (cc_wf c Hc) z Hz t) as [_ Hf]. rewrite (m_thr _ _ _ Hs) in Hf. cbn [abs_thr t_done] in Hf.
  pose proof (li_done _ _ Hl t) as Hd. rewrite Forall_forall in *. intros [[b cell] v] Hin.
  destruct (remote c t (b, cell)) eqn:E.
  - specialize (Hf (b, cell, v)). cbv beta iota in Hf. apply Hf. apply filter_In. auto.
  - exact (Hd _ Hin E).
Qed.

(** Epochs of the window: at most one thread of a rank. *)
Lemma u_epoch s : ureach c s -> forall t1 t2 i1 i2 x1 x2, fc_rank c t1 = fc_rank c t2 ->
  q_pc (u_thr s t1) = QGet i1 x1 -> q_pc (u_thr s t2) = QGet i2 x2 -> t1 = t2.
Proof.
  intros Hr t1 t2 i1 i2 x1 x2 E E1 E2. destruct (ureach_inv s Hr) as (Hl & _).
  assert (u_lock s (LInfo (fc_rank c t2)) = Some t1) by (apply (li_win _ _ Hl); eauto).
  assert (u_lock s (LInfo (fc_rank c t2)) = Some t2) by (apply (li_win _ _ Hl); eauto). congruence.
Qed.

(** Messages: one request of a rank at a time, and the reply is the one waited for. *)
Lemma u_reply s : ureach c s -> forall src dst,
  length (u_req s src dst) + length (u_rep s src dst) <= 1 /\
  forall m, In m (u_rep s src dst) -> exists t i, fc_rank c t = src /\ q_pc (u_thr s t) = QWait i /\
    block_rank d_ (rq (u_thr s t)) = dst /\ forall x, m x = bcont c (rq (u_thr s t)) x.
Proof.
  intros Hr src dst. destruct (ureach_inv s Hr) as (Hl & _). pose proof (li_msg _ _ Hl src dst) as Hm.
  assert ((u_req s src dst = [] /\ u_rep s src dst = []) \/
          exists t i, fc_rank c t = src /\ q_pc (u_thr s t) = QWait i /\ block_rank d_ (rq (u_thr s t)) = dst) as [[-> ->]|(t & i & <- & Ep & <-)].
  { destruct (u_req s src dst), (u_rep s src dst); auto; right; apply Hm; (left; discriminate) || (right; discriminate). }
  - cbn. split; auto. intros m [].
  - destruct (li_wait _ _ Hl t i Ep) as [[-> ->]|[-> (m & -> & E)]]; cbn.
    + split; auto. intros m [].
    + split; auto. intros m' [<-|[]]. exists t, i. auto.
Qed.

(** ** Progress *)
(** A step is possible: of thread [t0], of a thread which has begun a read, or of a communication thread. *)
Definition uenabled (t0 : nat) (s : fst_ W) : Prop := exists a s', ustep c s a = Some s' /\
  match a with UThr t _ => t = t0 \/ q_pc (u_thr s t) <> QIdle | UCom _ _ => True end.

Section Progress.
Variables (t0 : nat) (s : fst_ W) (z : st W).
Hypothesis Hl : linv c s.
Hypothesis Hs : sim c s z.
Hypothesis Hz : inv (cc c) z.

Ltac go t := exists (UThr t true); cbn [ustep]; unfold ustep_thr.

Lemma request_ok r d b : exists l i old, clist_request (u_list s r d) b = Ok (l, i, old).
Proof.
  destruct (i_list _ _ (proj1 Hz) r d) as (h & tt & Hi). rewrite (m_list _ _ _ Hs) in Hi.
  destruct (clist_request_spec _ h tt _ b Hi) as (c' & i' & o' & t' & E & _). eauto.
Qed.

(** A thread with work left moves unless it waits for a lock or a reply. *)
Lemma u_blocked t : q_todo (u_thr s t) <> [] -> t = t0 \/ q_pc (u_thr s t) <> QIdle ->
  uenabled t0 s \/
  (q_pc (u_thr s t) = QIdle /\ exists t', u_lock s (LCache (fc_rank c t) (fc_dom c t)) = Some t') \/
  (exists i old t', q_pc (u_thr s t) = QGetSlot i old /\ u_lock s (LSlot (fc_rank c t) (uoff c (fc_dom c t) i)) = Some t') \/
  (exists i t', q_pc (u_thr s t) = QMpi i /\ fc_mpi c = XWin /\ u_lock s (LInfo (fc_rank c t)) = Some t') \/
  (exists i t', q_pc (u_thr s t) = QMpi i /\ fc_mpi c = XThread /\ u_lock s (LBlk (fc_rank c t)) = Some t') \/
  (exists i, q_pc (u_thr s t) = QWait i).
Proof.
  intros Hw Hb. destruct (ustep_thr c s t true) as [s'|] eqn:E; [left; exists (UThr t true), s'; split; [exact E|exact Hb]|].
  unfold ustep_thr in E. destruct (q_todo (u_thr s t)) as [|[b cell] todo]; [congruence|].
  destruct (q_pc (u_thr s t)) eqn:Ep; cbn in E; try discriminate E.
  - destruct (_ && _); [discriminate|]. unfold uacquire in E. destruct (u_lock s _) eqn:El; [|discriminate]. eauto 8.
  - destruct (request_ok (fc_rank c t) (fc_dom c t) b) as (l & i & old & Er). rewrite Er in E. discriminate.
  - unfold uacquire in E. destruct (u_lock s _) eqn:El; [|discriminate]. eauto 10.
  - destruct (is_hit b old); discriminate.
  - destruct (fc_numa c); [| |]; try destruct (_ =? _); discriminate.
  - destruct (x <? K); discriminate.
  - destruct (k <? D); [destruct (k =? _)|]; discriminate.
  - destruct (clist_peek _ _); discriminate.
  - destruct (x <? K); discriminate.
  - unfold uacquire in E. destruct (fc_mpi c); [discriminate| |];
      destruct (u_lock s _) eqn:El; try discriminate; eauto 12.
  - destruct (x <? K); discriminate.
  - eauto 12.
Qed.

Lemma busy_works t : q_pc (u_thr s t) <> QIdle -> q_todo (u_thr s t) <> [].
Proof. intros H. destruct (li_todo _ _ Hl t H) as (b & cell & todo & -> & _). discriminate. Qed.

Lemma en_wait t i : q_pc (u_thr s t) = QWait i -> uenabled t0 s.
Proof.
  intros Ep. pose proof (li_pc _ _ Hl t) as Hm. unfold pc_ok in Hm. rewrite Ep in Hm. cbn in Hm.
  assert (q_todo (u_thr s t) <> []) as Hw by (apply busy_works; congruence).
  destruct (rq_lt c Hc s Hl t Hw) as [_ Hlt].
  destruct (li_wait _ _ Hl t i Ep) as [[E1 E2]|[E1 (m & E2 & _)]].
  - exists (UCom (block_rank d_ (rq (u_thr s t))) (fc_rank c t)). cbn [ustep]. rewrite Hm.
    apply Nat.ltb_lt in Hlt. rewrite Hlt. unfold ustep_com. rewrite E1. eauto.
  - exists (UThr t true). cbn [ustep]. unfold ustep_thr, rq in *. destruct (q_todo (u_thr s t)) as [|[b cell] todo]; [congruence|].
    rewrite Ep, E2. eexists. split; [reflexivity|]. right. congruence.
Qed.

Lemma en_mpi t i : q_pc (u_thr s t) = QMpi i -> uenabled t0 s.
Proof.
  intros Ep. assert (q_todo (u_thr s t) <> []) as Hw by (apply busy_works; congruence).
  destruct (u_blocked t Hw ltac:(right; congruence)) as [?|[[? _]|[(? & ? & ? & ? & _)|[(i' & t' & _ & _ & El)|[(i' & t' & _ & _ & El)|(? & ?)]]]]]; auto; try congruence.
  - apply (li_win _ _ Hl) in El as (_ & i2 & x2 & Ep').
    assert (q_todo (u_thr s t') <> []) as Hw' by (apply busy_works; congruence).
    destruct (u_blocked t' Hw' ltac:(right; congruence)) as [?|[[? _]|[(? & ? & ? & ? & _)|[(? & ? & ? & _ & _)|[(? & ? & ? & _ & _)|(? & ?)]]]]]; auto; congruence.
  - apply (li_snd _ _ Hl) in El as (_ & i2 & [Ep'|Ep']); [|eapply en_wait; eauto].
    assert (q_todo (u_thr s t') <> []) as Hw' by (apply busy_works; congruence).
    destruct (u_blocked t' Hw' ltac:(right; congruence)) as [?|[[? _]|[(? & ? & ? & ? & _)|[(? & ? & ? & _ & _)|[(? & ? & ? & _ & _)|(? & ?)]]]]]; auto; congruence.
Qed.

(** A thread which is not about to lock the manager or a slot of its own. *)
Lemma en_slot t : q_pc (u_thr s t) <> QIdle -> (forall i old, q_pc (u_thr s t) <> QGetSlot i old) -> uenabled t0 s.
Proof.
  intros H1 H2. pose proof (busy_works t H1) as Hw.
  destruct (u_blocked t Hw ltac:(right; congruence)) as [?|[[? _]|[(? & ? & ? & ? & _)|[(? & ? & ? & _ & _)|[(? & ? & ? & _ & _)|(? & ?)]]]]]; auto; try congruence.
  - eapply en_mpi; eauto.
  - eapply en_mpi; eauto.
  - eapply en_wait; eauto.
Qed.

Lemma en_getslot t i old : q_pc (u_thr s t) = QGetSlot i old -> uenabled t0 s.
Proof.
  intros Ep. assert (q_todo (u_thr s t) <> []) as Hw by (apply busy_works; congruence).
  destruct (u_blocked t Hw ltac:(right; congruence)) as [?|[[? _]|[(i' & old' & t' & Ep' & El)|[(? & ? & ? & _ & _)|[(? & ? & ? & _ & _)|(? & ?)]]]]]; auto; try congruence.
  assert (s_lock z (LSlot (fc_rank c t) (uoff c (fc_dom c t) i')) = Some (Usr t')) as Ez by (rewrite (m_slot _ _ _ Hs), El; reflexivity).
  apply (lock_slot _ _ _ _ _ (proj1 Hz)) in Ez as [_ Ez]. rewrite (m_thr _ _ _ Hs) in Ez. cbn [abs_thr t_pc] in Ez.
  apply (en_slot t').
  - intros E. rewrite E in Ez. cbn in Ez. destruct Ez as [(? & ? & _)|(? & ? & ? & _)]; discriminate.
  - intros i2 old2 E. rewrite E in Ez. cbn in Ez. destruct Ez as [(? & ? & _)|(? & ? & ? & _)]; discriminate.
Qed.

Lemma en_any : q_todo (u_thr s t0) <> [] -> uenabled t0 s.
Proof.
  intros Hw.
  destruct (u_blocked t0 Hw (or_introl eq_refl)) as [?|[[Ep (t' & El)]|[(i' & old' & t' & Ep' & El)|[(? & ? & ? & _ & _)|[(? & ? & ? & _ & _)|(? & ?)]]]]]; auto.
  - assert (s_lock z (LCache (fc_rank c t0) (fc_dom c t0)) = Some (Usr t')) as Ez by (rewrite (m_cache _ _ _ Hs), El; reflexivity).
    apply (lock_cm _ _ _ _ _ (proj1 Hz)) in Ez as [_ Ez]. rewrite (m_thr _ _ _ Hs) in Ez. cbn [abs_thr t_pc] in Ez.
    destruct (q_pc (u_thr s t')) eqn:Ep'; cbn in Ez; try discriminate.
    all: first [eapply (en_getslot t'); exact Ep' | apply (en_slot t'); rewrite Ep'; congruence].
  - eapply en_getslot; eauto.
  - eapply en_mpi; eauto.
  - eapply en_mpi; eauto.
  - eapply en_wait; eauto.
Qed.
End Progress.

Lemma u_progress s t : ureach c s -> q_todo (u_thr s t) <> [] -> uenabled t s.
Proof.
  intros Hr Hw. destruct (ureach_inv s Hr) as (Hl & z & Hs & Hz). eapply en_any; eauto. apply reach_inv; auto. apply cc_wf; auto.
Qed.

Lemma u_no_deadlock s t : ureach c s -> q_todo (u_thr s t) <> [] -> exists a s', ustep c s a = Some s'.
Proof. intros Hr Hw. destruct (u_progress s t Hr Hw) as (a & s' & H & _). eauto. Qed.

(** ** Termination *)
Definition urank (p : fpc W) : nat :=
  match p with
  | QIdle => K + 5 * D + 13
  | QGetLocked => K + 5 * D + 12
  | QGetSlot _ _ => K + 5 * D + 11
  | QGetBoth _ _ => K + 5 * D + 10
  | QHave _ _ => K + 5 * D + 9
  | QNuma _ => K + 5 * D + 8
  | QSearch _ k => K + 7 + 5 * (D - k)
  | QTryLocked _ k => K + 7 + 5 * (D - S k) + 4
  | QTryFound _ k _ => K + 7 + 5 * (D - S k) + 3
  | QTryMiss _ k => K + 7 + 5 * (D - S k) + 2
  | QTryBoth _ _ _ => K + 5
  | QCopy _ _ _ x => 4 + (K - x)
  | QCopyDone _ _ _ => 3
  | QMpi _ => K + 6
  | QMem _ x => 3 + (K - x)
  | QGet _ x => 3 + (K - x)
  | QAsk _ => 5
  | QWait _ => 3
  | QReady _ => 2
  | QRelease _ _ => 1
  end.
Definition uleft (x : fthr W) : nat :=
  match q_todo x with [] => 0 | _ :: todo => urank (q_pc x) + (K + 5 * D + 13) * length todo end.

(** Requests under way. *)
Definition pending (s : fst_ W) : nat := sum (fun src => sum (fun dst => length (u_req s src dst)) P) P.

Lemma sum_at g h k j : j < k -> (forall i, i <> j -> g i = h i) -> sum g k + h j = sum h k + g j.
Proof.
  induction k; intros Hj Ho; [lia|]. cbn [sum]. destruct (Nat.eq_dec j k) as [->|Hne].
  - assert (sum g k = sum h k); [|lia]. clear - Ho. assert (forall i, i < k -> g i = h i) as Ho' by (intros; apply Ho; lia).
    clear Ho. induction k; cbn; auto. rewrite IHk, Ho'; auto.
  - rewrite (Ho k) by auto. specialize (IHk ltac:(lia) Ho). lia.
Qed.

Lemma sum_ext g h k : (forall i, g i = h i) -> sum g k = sum h k.
Proof. intros E. induction k; cbn; auto. Qed.

Lemma pending_upd s s' src dst l : src < P -> dst < P -> u_req s' = updp (u_req s) src dst l ->
  pending s' + length (u_req s src dst) = pending s + length l.
Proof.
  intros H1 H2 E. unfold pending. rewrite E.
  pose proof (sum_at (fun d => length (updp (u_req s) src dst l src d)) (fun d => length (u_req s src d)) P dst H2) as Ha.
  pose proof (sum_at (fun r => sum (fun d => length (updp (u_req s) src dst l r d)) P)
    (fun r => sum (fun d => length (u_req s r d)) P) P src H1) as Hb.
  cbv beta in *. rewrite updp_eq in Ha.
  assert (forall i, i <> dst -> length (updp (u_req s) src dst l src i) = length (u_req s src i)) as Hx
    by (intros; now rewrite updp_ne by auto).
  specialize (Ha Hx).
  assert (forall i, i <> src -> sum (fun d => length (updp (u_req s) src dst l i d)) P = sum (fun d => length (u_req s i d)) P) as Hy.
  { intros i Hi. apply sum_ext. intros d. now rewrite updp_ne by auto. }
  specialize (Hb Hy). lia.
Qed.

Lemma uleft_step s t f s' : uinv s -> ustep_thr c s t f = Some s' ->
  uleft (u_thr s' t) + pending s' < uleft (u_thr s t) + pending s.
Proof.
  intros (Hl & z & Hs & Hz) H. pose proof (reach_inv _ (cc_wf c Hc) z Hz) as [Hi _].
  pose proof (i_thr _ _ Hi t) as (_ & _ & _ & Hw). rewrite (m_thr _ _ _ Hs) in Hw.
  pose proof (u_works c s t f s' H) as Hne. destruct (rq_lt c Hc s Hl t Hne) as [_ Hrk]. pose proof (wf_rank _ Hc t) as Hrt.
  destruct (u_thr s t) as [p todo dn] eqn:Et. cbn [abs_thr t_pc] in Hw. change (cf_doms (cc c)) with D in Hw.
  pose proof (fun l => pending_upd s s' (fc_rank c t) (block_rank d_ (rq (FThr p todo dn))) l Hrt Hrk) as Hp.
  unfold uleft. uproj. pose proof H as H0. uopen H0. rewrite Et in H0. uproj. unfold rq in Hp. uproj.
  clear - Et Hw Hp H0.
  assert (forall a b : list (nat -> W) , True) as _ by auto.
  repeat break; uproj; rewrite ?upd_eq, ?Et; uproj;
  repeat match goal with
  | E : (_ <? _) = true |- _ => apply Nat.ltb_lt in E
  | E : (_ <? _) = false |- _ => apply Nat.ltb_ge in E
  end; cbn [urank length abs_pc] in *; unfold pending in *; cbn [u_req] in *; try lia.
  - destruct l; cbn [length urank]; [lia|]. rewrite Nat.mul_succ_r. lia.
  - specialize (Hp _ eq_refl). rewrite app_length in Hp. cbn [length] in Hp. lia.
  - destruct l; cbn [length urank]; [lia|]. rewrite Nat.mul_succ_r. lia.
Qed.

Definition utotal (N : nat) (s : fst_ W) : nat := sum (fun t => uleft (u_thr s t)) N + pending s.

Lemma utotal_step N s a s' : uinv s -> (forall t, N <= t -> q_todo (u_thr s t) = []) -> ustep c s a = Some s' ->
  utotal N s' < utotal N s /\ forall t, N <= t -> q_todo (u_thr s' t) = [].
Proof.
  intros Hi HN H. unfold utotal. destruct a as [t f|r src]; cbn in H.
  - pose proof (uleft_step s t f s' Hi H) as Hlt. pose proof (u_frame c s t f s' H) as Ho.
    assert (t < N) as Ht. { destruct (lt_dec t N); auto. exfalso. apply (u_works c s t f s' H). apply HN. lia. }
    split.
    + pose proof (sum_at (fun t => uleft (u_thr s' t)) (fun t => uleft (u_thr s t)) N t Ht) as Hsum. cbv beta in Hsum.
      assert (forall i, i <> t -> uleft (u_thr s' i) = uleft (u_thr s i)) as Hx by (intros; now rewrite Ho).
      specialize (Hsum Hx). lia.
    + intros t' Ht'. rewrite Ho by lia. auto.
  - destruct (fc_mpi c); try discriminate. destruct (Nat.ltb_spec r P) as [Hr|]; [|discriminate].
    destruct (com_frame c s r src s' H) as (_ & _ & _ & Eth). rewrite Eth. split; auto.
    assert (src < P) as Hsrc.
    { destruct Hi as (Hl & _). unfold ustep_com in H. destruct (u_req s src r) eqn:Er; [discriminate|].
      destruct (li_msg _ _ Hl src r) as (t & i & <- & _); [left; congruence|]. apply Hc. }
    unfold ustep_com in H. destruct (u_req s src r) as [|o q] eqn:Er; [discriminate|]. injection H as H.
    assert (u_req s' = updp (u_req s) src r q) as Eq by (subst s'; reflexivity).
    pose proof (pending_upd s s' src r q Hsrc Hr Eq) as Hp. rewrite Er in Hp. cbn [length] in Hp. lia.
Qed.

Lemma urun_bound N acts : forall s s', uinv s -> (forall t, N <= t -> q_todo (u_thr s t) = []) ->
  urun c s acts = Some s' -> utotal N s' + length acts <= utotal N s.
Proof.
  induction acts as [|a acts IH]; cbn; intros s s' Hi HN H; [injection H as ->; lia|].
  destruct (ustep c s a) as [s1|] eqn:E; [|discriminate].
  destruct (utotal_step N s a s1 Hi HN E) as [H1 H2].
  pose proof (IH s1 s' (uinv_step s a s1 Hi E) H2 H). lia.
Qed.

Lemma utotal_init N l0 : utotal N (uinit c l0) = sum (fun t => (K + 5 * D + 13) * length (fc_prog c t)) N.
Proof.
  unfold utotal. assert (pending (uinit c l0) = 0) as ->.
  { unfold pending. cbn [uinit u_req length].
    assert (forall k g, (forall i, g i = 0) -> sum g k = 0) as Hz by (intros k g Hg; induction k; cbn; auto; rewrite Hg; lia).
    apply Hz. intros. now apply Hz. }
  rewrite Nat.add_0_r. apply sum_ext. intros t. unfold uleft. cbn [uinit u_thr q_todo q_pc urank].
  destruct (fc_prog c t); cbn [length]; [lia|]. rewrite Nat.mul_succ_r. lia.
Qed.

Lemma u_bounded N l0 acts s : (forall t, N <= t -> fc_prog c t = []) -> clist_init n (fc_spread c) = Ok l0 ->
  urun c (uinit c l0) acts = Some s -> length acts <= sum (fun t => (K + 5 * D + 13) * length (fc_prog c t)) N.
Proof.
  intros HN E H. pose proof (urun_bound N acts (uinit c l0) s (uinv_init l0 E) HN H) as Hb. rewrite utotal_init in Hb. lia.
Qed.

Lemma u_finishes N l0 acts s : (forall t, N <= t -> fc_prog c t = []) -> clist_init n (fc_spread c) = Ok l0 ->
  urun c (uinit c l0) acts = Some s -> (forall a, ustep c s a = None) -> forall t, q_todo (u_thr s t) = [].
Proof.
  intros HN E H Hst t. destruct (q_todo (u_thr s t)) eqn:Et; auto. exfalso.
  destruct (u_no_deadlock s t) as (a & s' & Ha); [exists l0, acts; auto|congruence|]. congruence.
Qed.
End F.

(** ** Slots *)
Section Slots.
Context {W : Type} (c : fcfg W).
Hypothesis Hc : wf_fcfg c.

(** The slot of the own cache a thread has locked; the slot it copies from (domain, slot). *)
Definition q_own (p : fpc W) : option nat :=
  match p with
  | QIdle | QGetLocked | QGetSlot _ _ => None
  | QGetBoth i _ | QHave i _ | QNuma i | QMem i _ | QSearch i _ | QTryLocked i _ | QTryMiss i _ | QTryFound i _ _
  | QTryBoth i _ _ | QCopy i _ _ _ | QCopyDone i _ _ | QMpi i | QGet i _ | QAsk i | QWait i | QReady i | QRelease i _ => Some i
  end.
Definition q_src (p : fpc W) : option (nat * nat) :=
  match p with QTryBoth _ k j | QCopy _ k j _ | QCopyDone _ k j => Some (k, j) | _ => None end.

(** Thread [t] uses slot [i] of domain [d] of rank [r]. *)
Definition q_uses (s : fst_ W) (t r d i : nat) : Prop :=
  fc_rank c t = r /\ ((fc_dom c t = d /\ q_own (q_pc (u_thr s t)) = Some i) \/ q_src (q_pc (u_thr s t)) = Some (d, i)).

Lemma q_uses_lock s t r d i : ureach c s -> q_uses s t r d i -> u_lock s (LSlot r (uoff c d i)) = Some t.
Proof.
  intros Hr (E & H). destruct (ureach_inv c Hc s Hr) as (Hl & z & Hs & Hz). pose proof (reach_inv _ (cc_wf c Hc) z Hz) as [Hi _].
  assert (s_lock z (LSlot r (uoff c d i)) = Some (Usr t)) as Ez.
  { subst r. destruct H as [[<- H]|H].
    - apply (held_own (cc c) z t i Hi). rewrite (m_thr _ _ _ Hs). cbn. destruct (q_pc (u_thr s t)); cbn in *; auto.
    - apply (held_for (cc c) z t d i Hi). rewrite (m_thr _ _ _ Hs). cbn. destruct (q_pc (u_thr s t)); cbn in *; auto. }
  rewrite (m_slot _ _ _ Hs) in Ez. destruct (u_lock s _); cbn in Ez; congruence.
Qed.

Lemma q_exclusive s t t' r d i : ureach c s -> q_uses s t r d i -> q_uses s t' r d i -> t = t'.
Proof. intros Hr H H'. apply (q_uses_lock s) in H, H'; auto. congruence. Qed.

Lemma q_lt s t r d i : ureach c s -> q_uses s t r d i -> d < d_domains (fc_dist c) /\ i < fc_size c.
Proof.
  intros Hr (E & H). destruct (ureach_inv c Hc s Hr) as (Hl & z & Hs & Hz). pose proof (reach_inv _ (cc_wf c Hc) z Hz) as [Hi _].
  destruct H as [[<- H]|H].
  - split; [apply Hc|]. apply (own_lt (cc c) z t i Hi). rewrite (m_thr _ _ _ Hs). cbn. destruct (q_pc (u_thr s t)); cbn in *; auto.
  - assert (pc_for (t_pc (s_thr z t)) = Some (d, i)) as E1
      by (rewrite (m_thr _ _ _ Hs); cbn; destruct (q_pc (u_thr s t)); cbn in *; auto).
    destruct (for_lt (cc c) z t d i Hi E1) as (H1 & _ & H2). auto.
Qed.

Lemma u_writes s a s' r o : ustep c s a = Some s' ->
  u_data s' r o = u_data s r o \/
  exists t f i, a = UThr t f /\ r = fc_rank c t /\ o = uoff c (fc_dom c t) i /\ q_uses s t r (fc_dom c t) i.
Proof.
  intros H. destruct a as [t f|r' src]; cbn in H.
  - destruct (q_own (q_pc (u_thr s t))) as [i|] eqn:E.
    + destruct (Nat.eq_dec r (fc_rank c t)) as [->|H1].
      * destruct (Nat.eq_dec o (uoff c (fc_dom c t) i)) as [->|H2].
        -- right. exists t, f, i. unfold q_uses. rewrite E. auto 8.
        -- left. revert H. unfold ustep_thr. destruct (q_todo (u_thr s t)) as [|[b cell] todo]; [discriminate|].
           destruct (q_pc (u_thr s t)); cbn in E; try discriminate; injection E as ->; intros H; cbv zeta in H;
             unfold utry, uacquire in H; repeat break; cbn; rewrite ?updp_ne by auto; auto.
      * left. revert H. unfold ustep_thr. destruct (q_todo (u_thr s t)) as [|[b cell] todo]; [discriminate|].
        destruct (q_pc (u_thr s t)); cbn in E; try discriminate; injection E as ->; intros H; cbv zeta in H;
          unfold utry, uacquire in H; repeat break; cbn; rewrite ?updp_ne by auto; auto.
    + left. revert H. unfold ustep_thr. destruct (q_todo (u_thr s t)) as [|[b cell] todo]; [discriminate|].
      destruct (q_pc (u_thr s t)); cbn in E; try discriminate; intros H; cbv zeta in H;
        unfold utry, uacquire in H; cbn in H; repeat break; cbn; auto.
  - left. destruct (fc_mpi c); try discriminate. destruct (_ <? _); [|discriminate].
    unfold ustep_com in H. repeat break; cbn; auto.
Qed.

(** Every address used is inside the storage of the rank. *)
Lemma u_bounds b x d : b < d_total (fc_dist c) -> x < fc_cells c ->
  let len := fc_cells c * local_block_count (fc_dist c) * d_domains (fc_dist c) in
  node_cell c (block_node_offset (fc_dist c) b) x < len /\
  (d < d_domains (fc_dist c) -> numa_cell c d b x < len) /\
  (block_domain (fc_dist c) b = d -> own_cell c d b x < len).
Proof.
  intros Hb Hx len. pose proof (wf_rank _ Hc 0) as HP. pose proof (wf_dom _ Hc 0) as HD.
  assert (node_cell c (block_node_offset (fc_dist c) b) x < len) as Hn.
  { unfold node_cell, len. pose proof (node_offset_lt (fc_dist c) ltac:(lia) ltac:(lia) b Hb) as H. unfold node_block_count in H. nia. }
  split; auto. split; intros Hd.
  - rewrite numa_addr; auto.
  - rewrite own_addr; auto.
Qed.
End Slots.

(** ** Threads reading a grid *)
Section Grid.
Context {V : Type}.

Definition full_setting (m : mpi_kind) (p : numa_policy) (f : file V) (bl : blocked) (P D n : nat) (spread : Z)
    (rk dm : nat -> nat) (ixs : nat -> list (list nat)) : Prop :=
  f_size f <> [] /\
  (exists user td arr0, blocked_open (f_size f) user td arr0 = Ok bl) /\
  0 < n /\ (spread < Z.of_nat n)%Z /\
  (forall t, rk t < P) /\ (forall t, dm t < D) /\
  (m = XNo -> p <> PNumaNo /\ P = 1) /\
  (forall t, Forall (in_box (f_size f)) (ixs t)).

(** The storages [store] are the result of [open] on all ranks. *)
Definition full_readers (m : mpi_kind) (p : numa_policy) (bl : blocked) (d : dist) (n : nat) (spread : Z)
    (rk dm : nat -> nat) (store : nat -> mem V) (ixs : nat -> list (list nat)) : fcfg (option V) :=
  FCfg m p d n spread (b_tbs bl) rk dm (fun r a => m_at (store r) a)
       (fun t => map (fun ix => (block_by_coords bl ix, calc_offset_in_block bl ix)) (ixs t)).

Lemma full_wf m p f bl opaque mode P D n spread rk dm ixs store :
  full_setting m p f bl P D n spread rk dm ixs ->
  wf_fcfg (full_readers m p bl (Dist mode P D (b_total bl)) n spread rk dm store ixs) /\ wf_geom (Geom bl f opaque).
Proof.
  intros (Hf & (user & td & arr0 & E) & Hn & Hs & Hr & Hd & Hm & Hix).
  pose proof (geom_wf f user td arr0 bl opaque Hf E) as Hg. split; auto.
  constructor; cbn; auto. intros t. apply Forall_map. eapply Forall_impl; [|apply Hix]. intros ix Hi. cbn.
  assert (in_box (b_size bl) ix) as Hib by (now apply (wg_in_box _ Hg)).
  split; [apply (block_lt bl (wg_wf _ Hg) ix Hib)|apply (offset_lt bl (wg_wf _ Hg) ix Hib)].
Qed.

Lemma full_values m p (f : file V) bl opaque mode P D n spread rk dm ixs :
  full_setting m p f bl P D n spread rk dm ixs ->
  let g := Geom bl f opaque in
  let d := Dist mode P D (b_total bl) in
  exists s0, fd_open g d n spread = Ok s0 /\
  let c := full_readers m p bl d n spread rk dm (fd_store s0) ixs in
  wf_fcfg c /\
  forall s, ureach c s -> forall t, exists k,
    map snd (q_done (u_thr s t)) = map (fun ix => Some (Some (f_val f ix))) (firstn k (ixs t)) /\
    length (q_todo (u_thr s t)) = length (ixs t) - k.
Proof.
  intros Hset g d. pose proof Hset as (Hf & _ & Hn & Hs & Hrk & Hdm & Hm & Hix).
  pose proof (fun st => full_wf m p f bl opaque mode P D n spread rk dm ixs st Hset) as Hw.
  destruct (Hw (fun _ => mem_new V 0)) as [_ Hg]. fold g in Hg.
  assert (0 < P) as HP by (specialize (Hrk 0); lia). assert (0 < D) as HD by (specialize (Hdm 0); lia).
  assert (eff_spread n spread < n) as Hh.
  { unfold eff_spread. destruct (Z.ltb_spec spread 0); [apply Nat.div_lt; lia|lia]. }
  destruct (fd_open_spec g Hg d HP HD eq_refl n spread Hn Hh) as (s0 & Es & [Hst _] & _).
  exists s0. split; auto. intros c. destruct (Hw (fd_store s0)) as [Hc _]. fold d c in Hc. split; auto.
  intros s Hr t. destruct (u_answers c Hc s Hr t) as [E Hfa].
  exists (length (q_done (u_thr s t))).
  assert (map fst (q_done (u_thr s t)) = map (fun ix => (block_by_coords bl ix, calc_offset_in_block bl ix)) (firstn (length (q_done (u_thr s t))) (ixs t))) as Ef.
  { cbn in E. rewrite <- firstn_map, <- E. rewrite firstn_app, map_length, Nat.sub_diag. cbn. rewrite app_nil_r.
    rewrite firstn_all2; auto. now rewrite map_length. }
  split.
  - assert (forall ix, in_box (f_size f) ix ->
      bcont c (block_by_coords bl ix) (calc_offset_in_block bl ix) = Some (f_val f ix)) as Hv.
    { intros ix Hi. assert (in_box (b_size bl) ix) as Hib by (now apply (wg_in_box _ Hg)).
      pose proof (block_lt bl (wg_wf _ Hg) ix Hib) as Hb.
      destruct (owner_bounds d HP HD (block_by_coords bl ix) Hb) as (Hrb & _ & _).
      destruct (Hst _ Hrb) as [_ Hh2]. unfold bcont, node_cell. cbn [c full_readers fc_store fc_dist fc_cells].
      exact (Hh2 _ Hb eq_refl ix Hi eq_refl). }
    pose proof (Hix t) as Hb. revert Ef Hfa Hb Hv. generalize (q_done (u_thr s t)) (ixs t). clear.
    induction l as [|[[b cell] v] l IH]; intros ix Ef Hf Hb Hv; [reflexivity|].
    destruct ix as [|x ix]; cbn in *; [discriminate|].
    injection Ef as E1 E2 E3. inversion Hf; subst. inversion Hb; subst. f_equal; [|apply IH; auto].
    f_equal. auto.
  - apply (f_equal (@length _)) in E. cbn in E. rewrite app_length, !map_length in E. lia.
Qed.

Lemma full_finishes m p (f : file V) bl opaque mode P D n spread rk dm ixs N :
  full_setting m p f bl P D n spread rk dm ixs -> (forall t, N <= t -> ixs t = []) ->
  let g := Geom bl f opaque in
  let d := Dist mode P D (b_total bl) in
  exists s0 l0, fd_open g d n spread = Ok s0 /\ clist_init n spread = Ok l0 /\
  let c := full_readers m p bl d n spread rk dm (fd_store s0) ixs in
  forall acts s, urun c (uinit c l0) acts = Some s ->
    length acts <= sum (fun t => (b_tbs bl + 5 * D + 13) * length (ixs t)) N /\
    ((forall a, ustep c s a = None) ->
     forall t, map snd (q_done (u_thr s t)) = map (fun ix => Some (Some (f_val f ix))) (ixs t)).
Proof.
  intros Hset HN g d. destruct (full_values m p f bl opaque mode P D n spread rk dm ixs Hset) as (s0 & E0 & Hc & Hv).
  fold g d in E0. pose proof Hset as (_ & _ & Hn & Hs & _).
  destruct (clist_init n spread) as [l0|] eqn:El.
  2:{ exfalso. assert (eff_spread n spread < n) as Hh.
      { unfold eff_spread. destruct (Z.ltb_spec spread 0); [apply Nat.div_lt; lia|lia]. }
      destruct (clist_init_spec n spread Hn Hh) as (l & El2 & _). congruence. }
  exists s0, l0. split; auto. split; auto. intros c acts s Hr. fold d in Hc, Hv. fold c in Hc, Hv.
  assert (forall t, N <= t -> fc_prog c t = []) as HN' by (intros t Ht; cbn; now rewrite HN).
  split.
  - pose proof (u_bounded c Hc N l0 acts s HN' El Hr) as Hb. cbn [c full_readers fc_cells fc_dist fc_prog d d_domains] in Hb.
    etransitivity; [exact Hb|]. apply Nat.eq_le_incl. apply sum_ext. intros t. now rewrite map_length.
  - intros Hst t. destruct (Hv s) with (t := t) as (k & E1 & E2); [exists l0, acts; auto|].
    pose proof (u_finishes c Hc N l0 acts s HN' El Hr Hst t) as Et. rewrite Et in E2. cbn in E2.
    rewrite E1. f_equal. apply firstn_all2. lia.
Qed.
End Grid.

(** ** A scheduler for the examples *)
Section USched.
Context {W : Type} (c : fcfg W).

Definition u_act (N : nat) (z : Z) : uact :=
  let z1 := rnd z in let z2 := rnd z1 in let z3 := rnd z2 in
  let w := pick z3 (N + d_ranks (fc_dist c)) in
  if w <? N then UThr w (pick z1 4 =? 0) else UCom (w - N) (pick z2 (d_ranks (fc_dist c))).

(** Random steps, left out if they are not possible. *)
Fixpoint uplan (fuel N : nat) (z : Z) (s : fst_ W) : list uact * fst_ W :=
  match fuel with
  | 0 => ([], s)
  | S fuel' =>
      match ustep c s (u_act N z) with
      | Some s' => let (l, s'') := uplan fuel' N (rnd (rnd z)) s' in (u_act N z :: l, s'')
      | None => uplan fuel' N (rnd (rnd z)) s
      end
  end.

Lemma uplan_run fuel N z s : urun c s (fst (uplan fuel N z s)) = Some (snd (uplan fuel N z s)).
Proof.
  revert z s. induction fuel as [|fuel IH]; intros z s; cbn [uplan]; auto.
  destruct (ustep c s (u_act N z)) as [s'|] eqn:E; auto.
  specialize (IH (rnd (rnd z)) s'). destruct (uplan fuel N (rnd (rnd z)) s') as [l s''].
  cbn [fst snd urun] in *. now rewrite E.
Qed.

Definition u_outcome (fuel N : nat) (z : Z) : nat * list (list (option W)) * list nat :=
  match clist_init (fc_size c) (fc_spread c) with
  | Ok l0 => let (l, s) := uplan fuel N z (uinit c l0) in
      (length l, map (fun t => map snd (q_done (u_thr s t))) (seq 0 N), map (fun t => length (q_todo (u_thr s t))) (seq 0 N))
  | Ub => (0, [], [])
  end.
End USched.
