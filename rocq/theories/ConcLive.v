(** * Concurrent caches: progress and termination *)
From Verif Require Export ConcInv5.

(** What a thread may wait for. *)
Inductive wait := WLock (k : lock) | WInfo (q : nat) | WBlk (q : nat).

Section Conc.
Context {V : Type} (c : cfg V).
Local Notation n := (cf_size c).
Local Notation D := (cf_doms c).
Local Notation K := (cf_cells c).
Local Notation P := (cf_ranks c).
Hypothesis Hwf : wf_cfg c.

Definition waits (t : nat) (x : thr V) : option wait :=
  let r := cf_rank c t in
  let d := cf_dom c t in
  match t_pc x with
  | PIdle => Some (WLock (LCache r d))
  | PGetSlot i _ => Some (WLock (LSlot r (node_off c d i)))
  | PDel _ ob => match cf_mode c with MWin => Some (WLock (LDict ob)) | _ => None end
  | PAdd _ => match cf_mode c with MWin => Some (WLock (LDict (req x))) | _ => None end
  | PStart _ => match cf_mode c with
                | MWin => Some (WLock (LDict (req x)))
                | MThread => if cf_home c (req x) =? r then None else Some (WLock (LInfo r))
                | MNo => None
                end
  | PAskBlk _ _ => Some (WLock (LBlk r))
  | PWaitInfo _ => Some (WInfo (cf_home c (req x)))
  | PWaitBlk _ dst => Some (WBlk dst)
  | _ => None
  end.

Definition stuck_on (s : st V) (t : nat) (w : wait) : Prop :=
  match w with
  | WLock k => s_lock s k <> None
  | WInfo q => s_irep s (cf_rank c t) q = []
  | WBlk q => s_brep s (cf_rank c t) q = []
  end.

Lemma dict_ops_ok s b e ch : inv1 c s ->
  (exists x, update_block_info (s_dict s b) e = Ok x) /\
  (exists x, delete_block_info (s_dict s b) e = Ok x) /\
  (exists y x, fetch_and_update (s_dict s b) ch e = Ok (y, x)) /\
  (exists y k, fetch_block_info (s_dict s b) ch = Ok (y, k)).
Proof.
  intros Hi. destruct (i_dict c s Hi b) as (l & -> & Hl & _).
  rewrite update_rep, delete_rep by auto.
  destruct (fetch_update_rep l ch e Hl) as (y & -> & _). destruct (fetch_rep l ch Hl) as (y' & -> & _).
  split; [eauto|]. split; [eauto|]. split; eauto.
Qed.

(** A thread with work to do is stopped only by a lock or a missing message. *)
Lemma step_blocked s t ch : inv1 c s -> t_todo (s_thr s t) <> [] -> step_thr c s t ch = None ->
  exists w, waits t (s_thr s t) = Some w /\ stuck_on s t w.
Proof.
  intros Hi Hne H.
  pose proof (i_thr c s Hi t) as (_ & _ & _ & Hw).
  assert (exists l0 i0 old, clist_request (s_list s (cf_rank c t) (cf_dom c t)) (req (s_thr s t)) = Ok (l0, i0, old)) as (l0 & i0 & old0 & Ereq).
  { destruct (i_list c s Hi (cf_rank c t) (cf_dom c t)) as (h & tt & Hl).
    destruct (clist_request_spec n h tt _ (req (s_thr s t)) Hl) as (c' & i' & o' & t' & E & _). eauto. }
  unfold waits, stuck_on.
  destruct (s_thr s t) as [p todo dn] eqn:Et. cbn [t_pc t_todo t_done] in *.
  destruct todo as [|[b cell] todo]; [congruence|]. cbn [req t_todo] in *.
  pose proof (fun b e => dict_ops_ok s b e (ch_rand ch) Hi) as Hd.
  unfold step_thr in H. rewrite Et in H. cbn [t_pc t_todo t_done] in H.
  destruct p; cbn [pc_own] in *; try discriminate H.
  - eexists. split; [reflexivity|]. cbn. unfold acquire in H. destruct (s_lock s _); [discriminate|]. cbn in H. discriminate.
  - rewrite Ereq in H. discriminate.
  - eexists. split; [reflexivity|]. cbn. unfold acquire in H. destruct (s_lock s _); [discriminate|]. cbn in H. discriminate.
  - destruct old; [|discriminate]. destruct (n =? b); [discriminate|]. destruct (cf_mode c); discriminate.
  - destruct (cf_mode c).
    + destruct Hw; congruence.
    + eexists. split; [reflexivity|]. cbn. unfold acquire in H. destruct (s_lock s _); [discriminate|]. cbn in H. discriminate.
    + unfold thread_update in H. destruct (Hd ob (loc c (cf_rank c t) (node_off c (cf_dom c t) i))) as (_ & (x & Ex) & _).
      rewrite Ex in H. destruct (_ =? _); discriminate.
  - destruct (Hd ob (loc c (cf_rank c t) (node_off c (cf_dom c t) i))) as (_ & (x & Ex) & _). rewrite Ex in H. discriminate.
  - destruct (k <? D); [|discriminate]. destruct (k =? _); [discriminate|]. destruct (try_lock s ch _ _); discriminate.
  - destruct (clist_peek _ _); discriminate.
  - destruct (try_lock s ch _ _); discriminate.
  - destruct (c0 <? K); discriminate.
  - destruct (cf_mode c).
    + discriminate.
    + eexists. split; [reflexivity|]. cbn. unfold acquire in H. destruct (s_lock s _); [discriminate|]. cbn in H. discriminate.
    + unfold thread_update in H. destruct (Hd b (loc c (cf_rank c t) (node_off c (cf_dom c t) i))) as ((x & Ex) & _).
      rewrite Ex in H. destruct (_ =? _); discriminate.
  - destruct (Hd b (loc c (cf_rank c t) (node_off c (cf_dom c t) i))) as (_ & _ & (y & x & Ex) & _). rewrite Ex in H. discriminate.
  - destruct (cf_mode c).
    + discriminate.
    + eexists. split; [reflexivity|]. cbn. unfold acquire in H. destruct (s_lock s _); [discriminate|]. cbn in H. discriminate.
    + destruct (Hd b 0) as (_ & _ & _ & (y & k & Ex)). rewrite Ex in H.
      destruct (cf_home c b =? cf_rank c t); [destruct y; discriminate|].
      eexists. split; [reflexivity|]. cbn. unfold acquire in H. destruct (s_lock s _); [discriminate|]. cbn in H. discriminate.
  - destruct (Hd b (loc c (cf_rank c t) (node_off c (cf_dom c t) i))) as (_ & _ & (y & x & Ex) & _). rewrite Ex in H. destruct y; discriminate.
  - destruct (c0 <? K); discriminate.
  - eexists. split; [reflexivity|]. cbn. destruct (s_irep s _ _) as [|[? [?|]] ?]; auto; discriminate.
  - eexists. split; [reflexivity|]. cbn. unfold acquire in H. destruct (s_lock s _); [discriminate|]. cbn in H. discriminate.
  - eexists. split; [reflexivity|]. cbn. destruct (s_brep s _ _) as [|[? [?|]] ?]; auto; discriminate.
  - destruct (cf_mode c); try discriminate.
    unfold thread_update in H. destruct (Hd b (loc c (cf_rank c t) (node_off c (cf_dom c t) i))) as ((x & Ex) & _).
    rewrite Ex in H. destruct (_ =? _); discriminate.
Qed.

Section Progress.
Variable t0 : nat.

(** A step is possible: of thread [t0], of a thread which has begun a read, or of a communication thread. *)
Definition enabled (s : st V) : Prop := exists a s', step c s a = Some s' /\
  match a with AThr t _ => t = t0 \/ t_pc (s_thr s t) <> PIdle | ACom _ _ => True end.

Definition ch0 : choice V := Choice false 0 (fun _ => None) 0 0.

Lemma com_enabled s r : cf_mode c = MThread -> inv1 c s -> r < P -> s_com s r <> CIdle -> enabled s.
Proof.
  intros Hm Hi Hr Hc. apply Nat.ltb_lt in Hr.
  assert (exists s', step_com c s r ch0 = Some s') as [s' E].
  { unfold step_com. destruct (s_com s r); try congruence; eauto.
    - destruct (k <? D); eauto. destruct (try_lock s ch0 _ _); eauto.
    - destruct (clist_peek _ _); eauto.
    - destruct (try_lock s ch0 _ _); eauto.
    - destruct (c0 <? K); eauto. }
  exists (ACom r ch0), s'. cbn. rewrite Hm, Hr. auto.
Qed.

(** Waiting for a message: the communication thread can move. *)
Lemma msg_enabled s t w : inv1 c s -> inv2 c s -> waits t (s_thr s t) = Some w ->
  (match w with WLock _ => False | _ => True end) -> stuck_on s t w -> enabled s.
Proof.
  intros Hi Hj Hw Hk Hs. pose proof (i_thr c s Hi t) as (_ & _ & _ & Hp). unfold waits in Hw.
  destruct (t_pc (s_thr s t)) eqn:Ep; try discriminate; try (injection Hw as <-; tauto);
    try (destruct (cf_mode c); [discriminate|injection Hw as <-; tauto|discriminate]).
  - destruct (cf_mode c); [discriminate|injection Hw as <-; tauto|]. destruct (_ =? _); [discriminate|injection Hw as <-; tauto].
  - injection Hw as <-. cbn in Hs. destruct Hp as [Hm Hhome].
    set (q := cf_home c (req (s_thr s t))) in *.
    assert (q < P) as Hq by apply Hwf.
    pose proof (j_info c s Hj (cf_rank c t) q) as Hb. unfold info_tokens, info_expected in Hb.
    rewrite (held_msg c s t (LInfo (cf_rank c t)) Hi), Ep in Hb by (rewrite Ep; reflexivity). fold q in Hb. rewrite Nat.eqb_refl, Hs, app_nil_r in Hb.
    destruct (s_com s q) eqn:Ec; try (apply (com_enabled s q Hm Hi Hq); congruence).
    destruct (dict_ops_ok s (req (s_thr s t)) 0 0 Hi) as (_ & _ & _ & (y & k & Ex)).
    exists (ACom q (Choice false 0 (fun _ => None) 0 (cf_rank c t))). apply Nat.ltb_lt in Hq.
    eexists. cbn. rewrite Hm, Hq. unfold step_com. rewrite Ec. cbn. rewrite Hb. cbn [ch_rand]. rewrite Ex. auto.
  - injection Hw as <-. cbn in Hs. destruct Hp as [Hm Hq].
    pose proof (j_blk c s Hj (cf_rank c t) dst) as Hb. unfold blk_tokens, blk_expected in Hb.
    rewrite (held_msg c s t (LBlk (cf_rank c t)) Hi), Ep in Hb by (rewrite Ep; reflexivity).
    rewrite Nat.eqb_refl, Hs in Hb. cbn [map] in Hb. rewrite app_nil_r in Hb.
    destruct (s_com s dst) eqn:Ec; try (apply (com_enabled s dst Hm Hi Hq); congruence).
    unfold serving in Hb. rewrite Ec in Hb. cbn in Hb. rewrite app_nil_r in Hb.
    exists (ACom dst (Choice false 0 (fun _ => None) 1 (cf_rank c t))). apply Nat.ltb_lt in Hq.
    eexists. cbn. rewrite Hm, Hq. unfold step_com. rewrite Ec. cbn. rewrite Hb. auto.
Qed.

Definition works (s : st V) (t : nat) : Prop := t_todo (s_thr s t) <> [].

Lemma thr_or s t : inv1 c s -> works s t -> t = t0 \/ t_pc (s_thr s t) <> PIdle ->
  enabled s \/ exists w, waits t (s_thr s t) = Some w /\ stuck_on s t w.
Proof.
  intros Hi Hw Hb. destruct (step_thr c s t ch0) as [s'|] eqn:E.
  - left. exists (AThr t ch0), s'. auto.
  - right. eapply step_blocked; eauto.
Qed.

Lemma works_pc s t : inv1 c s -> t_pc (s_thr s t) <> PIdle -> works s t.
Proof. intros Hi H. apply (i_thr c s Hi t). auto. Qed.

(** A thread whose next step needs nothing. *)
Lemma no_wait s t : inv1 c s -> t_pc (s_thr s t) <> PIdle -> waits t (s_thr s t) = None -> enabled s.
Proof.
  intros Hi Hp Hw. destruct (thr_or s t Hi (works_pc s t Hi Hp) (or_intror Hp)) as [?|(w & E & _)]; auto. congruence.
Qed.

Lemma com_rank_lt s r k : inv1 c s -> s_lock s k = Some (Com r) -> s_com s r <> CIdle.
Proof.
  intros Hi E. apply (lock_iff c s _ _ Hi) in E. cbn in E. intros Ec. rewrite Ec in E. cbn in E. tauto.
Qed.

(** Holders of the message locks and the dictionary entries. *)
Lemma holder_pc s t k : inv1 c s -> s_lock s k = Some (Usr t) ->
  match k with
  | LBlk _ => exists i dst, t_pc (s_thr s t) = PSendBlk i dst \/ t_pc (s_thr s t) = PWaitBlk i dst
  | LInfo _ => exists i, t_pc (s_thr s t) = PAskInfo i \/ t_pc (s_thr s t) = PWaitInfo i
  | LDict b => t_pc (s_thr s t) <> PIdle /\ waits t (s_thr s t) = None
  | LSlot _ _ => exists i, pc_own (t_pc (s_thr s t)) = Some i
  | LCache _ _ => exists k, pc_cm (cf_dom c t) (t_pc (s_thr s t)) = Some k
  end.
Proof.
  intros Hi E. apply (lock_iff c s _ _ Hi) in E. cbn in E. unfold thr_locks in E. rewrite !in_app_iff, !olist_In in E.
  unfold waits.
  destruct k; destruct (t_pc (s_thr s t)) eqn:Ep; cbn in E;
    repeat match goal with
    | H : _ \/ _ |- _ => destruct H
    | H : Some _ = Some _ |- _ => injection H; intros; subst; clear H
    | H : None = Some _ |- _ => discriminate H
    end; try discriminate; cbn [pc_own pc_cm]; eauto; try (split; [discriminate|reflexivity]).
  all: try (destruct (cf_mode c) eqn:Em; try discriminate; split; [discriminate|reflexivity]).
  all: match goal with H : option_map _ _ = _ |- _ => destruct (cf_mode c); cbn in H; discriminate end.
Qed.

Lemma wait_enabled1 s t w : inv1 c s -> inv2 c s -> waits t (s_thr s t) = Some w -> stuck_on s t w ->
  (match w with WLock (LCache _ _) | WLock (LSlot _ _) => False | _ => True end) -> enabled s.
Proof.
  intros Hi Hj Hw Hs Hk. destruct w as [k|q|q]; try (eapply msg_enabled; eauto; exact I).
  cbn in Hs. destruct (s_lock s k) as [[t'|r]|] eqn:El; [| |congruence].
  - pose proof (holder_pc s t' k Hi El) as Hh. destruct k; try tauto.
    + destruct Hh. eapply no_wait; eauto.
    + destruct Hh as (i & [E|E]); [eapply no_wait; eauto; unfold waits; rewrite E; congruence|].
      assert (works s t') as Hw' by (apply works_pc; auto; congruence).
      destruct (thr_or s t' Hi Hw' ltac:(right; congruence)) as [?|(w & E1 & E2)]; auto.
      eapply msg_enabled; eauto. unfold waits in E1. rewrite E in E1. injection E1 as <-. exact I.
    + destruct Hh as (i & dst & [E|E]); [eapply no_wait; eauto; unfold waits; rewrite E; congruence|].
      assert (works s t') as Hw' by (apply works_pc; auto; congruence).
      destruct (thr_or s t' Hi Hw' ltac:(right; congruence)) as [?|(w & E1 & E2)]; auto.
      eapply msg_enabled; eauto. unfold waits in E1. rewrite E in E1. injection E1 as <-. exact I.
  - exfalso. apply (lock_iff c s _ _ Hi) in El. cbn in El. unfold com_locks in El. rewrite in_app_iff, !olist_In in El.
    destruct (com_for (s_com s r)), (com_cm (s_com s r)); cbn in El; destruct k; intuition discriminate.
Qed.


(** Only the communication threads of existing ranks run. *)
Definition com_idle (s : st V) : Prop := forall r, s_com s r <> CIdle -> r < P /\ cf_mode c = MThread.

Lemma com_idle_step s a s' : com_idle s -> step c s a = Some s' -> com_idle s'.
Proof.
  intros Hc H. destruct a as [t ch|r ch]; cbn in H.
  - assert (s_com s' = s_com s) as E by (open_step H; repeat break; reflexivity). intros r Hr. rewrite E in Hr. auto.
  - destruct (cf_mode c) eqn:Em; try discriminate. destruct (r <? P) eqn:Er; [|discriminate].
    intros r' Hr'. apply Nat.ltb_lt in Er. split; auto.
    destruct (Nat.eq_dec r' r) as [->|Hne]; auto.
    destruct (frame_com c _ _ _ _ H) as (_ & _ & _ & Ho & _). rewrite Ho in Hr' by auto. apply Hc. auto.
Qed.

Lemma reach_com_idle s : reachable c s -> com_idle s.
Proof.
  intros (l0 & acts & _ & H). assert (com_idle (init c l0)) as H0 by (intros r Hr; cbn in Hr; congruence).
  revert H0 H. generalize (init c l0). induction acts as [|a acts IH]; cbn; intros s0 H0 H; [injection H as <-; exact H0|].
  destruct (step c s0 a) as [s1|] eqn:E; [|discriminate]. apply (IH s1); auto. eapply com_idle_step; eauto.
Qed.

Lemma wait_enabled2 s t w : inv1 c s -> inv2 c s -> com_idle s -> waits t (s_thr s t) = Some w -> stuck_on s t w ->
  (match w with WLock (LCache _ _) => False | _ => True end) -> enabled s.
Proof.
  intros Hi Hj Hc Hw Hs Hk. destruct w as [k|q|q]; try (eapply wait_enabled1; eauto; exact I).
  destruct k; try tauto; try (eapply wait_enabled1; eauto; exact I).
  cbn in Hs. destruct (s_lock s (LSlot r o)) as [[t'|r']|] eqn:El; [| |congruence].
  - destruct (holder_pc s t' _ Hi El) as [i E].
    assert (t_pc (s_thr s t') <> PIdle) as Hp by (intros E'; rewrite E' in E; discriminate).
    destruct (thr_or s t' Hi (works_pc s t' Hi Hp) (or_intror Hp)) as [?|(w & E1 & E2)]; auto.
    eapply wait_enabled1; eauto. unfold waits in E1.
    destruct (t_pc (s_thr s t')); try discriminate; try (injection E1 as <-; exact I).
    all: destruct (cf_mode c); try discriminate; try (injection E1 as <-; exact I).
    destruct (_ =? _); [discriminate|]. injection E1 as <-; exact I.
  - destruct (Hc r' (com_rank_lt s r' _ Hi El)). eapply com_enabled; eauto. eapply com_rank_lt; eauto.
Qed.

(** No deadlock: while any thread has a request left, something can move. *)
Lemma progress s : reachable c s -> works s t0 -> enabled s.
Proof.
  intros Hr Hw. destruct (reach_inv c Hwf s Hr) as [Hi Hj]. pose proof (reach_com_idle s Hr) as Hc.
  destruct (thr_or s t0 Hi Hw (or_introl eq_refl)) as [?|(w & E1 & E2)]; auto.
  destruct w as [k|q|q]; try (eapply wait_enabled2; eauto; exact I).
  destruct k; try (eapply wait_enabled2; eauto; exact I).
  cbn in E2. destruct (s_lock s (LCache r d)) as [[t'|r']|] eqn:El; [| |congruence].
  - destruct (holder_pc s t' _ Hi El) as [i E].
    assert (t_pc (s_thr s t') <> PIdle) as Hp by (intros E'; rewrite E' in E; discriminate).
    destruct (thr_or s t' Hi (works_pc s t' Hi Hp) (or_intror Hp)) as [?|(w & E3 & E4)]; auto.
    eapply wait_enabled2; eauto. unfold waits in E3.
    destruct (t_pc (s_thr s t')); try discriminate; try (injection E3 as <-; exact I).
  - destruct (Hc r' (com_rank_lt s r' _ Hi El)). eapply com_enabled; eauto. eapply com_rank_lt; eauto.
Qed.
End Progress.

(** ** Termination without communication threads *)
Definition B := K + 9.
Definition rank_pc (p : pc V) : nat :=
  match p with
  | PIdle => B + 5 * D + 8
  | PGetLocked => B + 5 * D + 7
  | PGetSlot _ _ => B + 5 * D + 6
  | PGetBoth _ _ => B + 5 * D + 5
  | PHave _ _ => B + 5 * D + 4
  | PDel _ _ => B + 5 * D + 3
  | PDelHold _ _ => B + 5 * D + 2
  | PDelRel _ _ => B + 5 * D + 1
  | PSearch _ k => B + 5 * (D - k)
  | PTryLocked _ k => B + 5 * (D - S k) + 3
  | PTryFound _ k _ => B + 5 * (D - S k) + 2
  | PTryMiss _ k => B + 5 * (D - S k) + 1
  | PTryBoth _ _ _ => K + 8
  | PCopy _ _ _ x => 7 + (K - x)
  | PCopyDone _ _ _ => 6
  | PAdd _ => 5
  | PAddHold _ => 4
  | PAddRel _ => 3
  | PStart _ => K + 7
  | PStartHold _ => K + 6
  | PXfer _ _ x => 4 + (K - x)
  | PFill _ => 5
  | PFilling _ => 4
  | PEnd _ => 3
  | PReady _ => 2
  | PRelease _ _ => 1
  | _ => 0
  end.

(** Most steps one request can take. *)
Definition W := K + 5 * D + 17.

(** Steps a thread can still take. *)
Definition left (x : thr V) : nat :=
  match t_todo x with
  | [] => 0
  | _ :: todo => rank_pc (t_pc x) + W * length todo
  end.

Lemma left_step s t ch s' : cf_mode c <> MThread -> inv1 c s -> step_thr c s t ch = Some s' ->
  left (s_thr s' t) < left (s_thr s t) /\ forall t', t' <> t -> s_thr s' t' = s_thr s t'.
Proof.
  intros Hm Hi H. split; [|apply (frame_thr c Hwf s t ch s' Hi H)].
  pose proof (i_thr c s Hi t) as (_ & _ & _ & Hw).
  destruct (s_thr s t) as [p todo dn] eqn:Et. open_step H. rewrite Et in H. unfold left, W in *. cbn [t_pc t_todo t_done] in *.
  repeat break; proj; rewrite upd_eq, ?Et; cbn [t_pc t_todo t_done rank_pc length]; try congruence; unfold B;
  repeat match goal with
  | E : (_ <? _) = true |- _ => apply Nat.ltb_lt in E
  | E : (_ <? _) = false |- _ => apply Nat.ltb_ge in E
  end; try lia; try (destruct Hw; congruence).
  - destruct l; cbn [length]; [lia|]. rewrite Nat.mul_succ_r. lia.
Qed.

Fixpoint sum (f : nat -> nat) (k : nat) : nat := match k with 0 => 0 | S k' => sum f k' + f k' end.

Lemma sum_le f g k : (forall i, i < k -> f i <= g i) -> sum f k <= sum g k.
Proof. induction k; cbn; intros H; auto. pose proof (H k). assert (sum f k <= sum g k) by (apply IHk; auto). lia. Qed.
Lemma sum_lt f g k j : j < k -> f j < g j -> (forall i, i <> j -> f i = g i) -> sum f k < sum g k.
Proof.
  induction k; cbn; intros Hj Hlt Ho; [lia|]. destruct (Nat.eq_dec j k) as [->|Hne].
  - assert (sum f k <= sum g k) by (apply sum_le; intros i Hi; rewrite Ho; lia). lia.
  - specialize (IHk ltac:(lia) Hlt Ho). rewrite (Ho k); lia.
Qed.

Definition total (N : nat) (s : st V) : nat := sum (fun t => left (s_thr s t)) N.

Lemma run_bound N acts : cf_mode c <> MThread -> forall s s', inv c s -> (forall t, N <= t -> t_todo (s_thr s t) = []) ->
  run c s acts = Some s' -> total N s' + length acts <= total N s.
Proof.
  intros Hm. induction acts as [|a acts IH]; cbn; intros s s' Hi HN H.
  - injection H as ->. lia.
  - destruct (step c s a) as [s1|] eqn:E; [|discriminate].
    assert (exists t ch, step_thr c s t ch = Some s1) as (t & ch & Et).
    { destruct a; cbn in E; eauto. destruct (cf_mode c); congruence. }
    destruct (left_step s t ch s1 Hm (proj1 Hi) Et) as [Hlt Ho].
    assert (t < N) as HtN.
    { destruct (lt_dec t N); auto. exfalso. apply (step_todo c s t ch s1 Et). apply HN. lia. }
    assert (total N s1 < total N s) as Hs.
    { apply sum_lt with (j := t); auto. intros i Hne. now rewrite Ho. }
    assert (total N s' + length acts <= total N s1); [|lia].
    apply (IH s1 s'); auto; [apply (inv_step c Hwf s a s1); auto|].
    intros t' Ht'. rewrite Ho by lia. auto.
Qed.

Lemma total_init N l0 : total N (init c l0) = sum (fun t => W * length (cf_prog c t)) N.
Proof.
  unfold total. assert (forall t, left (s_thr (init c l0) t) = W * length (cf_prog c t)) as E.
  { intros t. unfold left. cbn. destruct (cf_prog c t); cbn [length]; [lia|]. rewrite Nat.mul_succ_r. unfold rank_pc, B, W. lia. }
  induction N; cbn [sum]; auto.
Qed.

End Conc.
