(** * Property level lemmas about the MPI mutex *)
From Verif Require Export MpiMutexProofs.

(** The thread has the mutex: it was acquired, not yet given back. *)
Definition inside (s : mst) (t m : nat) : Prop := In m (h_held (x_thr s t)).

Section Facts.
Context (c : mcfg) (Hwf : wf_mcfg c).

Lemma mutex_exclusion xs s es t t' m : mrun c (minit c) xs = Some (s, es) ->
  inside s t m -> inside s t' m -> t = t'.
Proof.
  intros H H1 H2. destruct (mreach c Hwf xs s es H) as (f & _ & Hi & _).
  destruct (head_of c _ s m t Hi H1) as (l & E). destruct (head_of c _ s m t' Hi H2) as (l' & E'). congruence.
Qed.

Lemma mutex_fifo xs s es : mrun c (minit c) xs = Some (s, es) ->
  exists f, fifo_run fifo0 es = Some f /\ (forall m t, f_in f m = Some t <-> inside s t m) /\
    forall m, NoDup (f_queue f m).
Proof.
  intros H. destruct (mreach c Hwf xs s es H) as (f & Hf & Hi & Hin). exists f. split; auto. split; [|apply Hi].
  intros m t. rewrite Hin. split.
  - intros E. pose proof (v_chain c _ _ Hi m) as Hc. destruct (f_queue f m); cbn in E; [discriminate|].
    injection E as ->. apply Hc.
  - intros Ht. destruct (head_of c _ s m t Hi Ht) as (l & ->). reflexivity.
Qed.

Lemma mutex_handover xs s es a b s' es' : mrun c (minit c) xs = Some (s, es) -> mstep c s (MMsg a b) = Some (s', es') ->
  (exists m, inside s b m /\ ~ inside s' b m /\ ~ inside s a m /\ inside s' a m) /\
  (forall a' s'' es'', mstep c s (MMsg a' b) = Some (s'', es'') -> a' = a).
Proof.
  intros H Hs. destruct (mreach c Hwf xs s es H) as (f & _ & Ha). pose proof Ha as [Hi _].
  assert (forall x s2 es2, mstep c s (MMsg x b) = Some (s2, es2) ->
    exists m l, h_pc (x_thr s b) = QRecv m /\ h_pc (x_thr s x) = QSend m (lock_id c b) /\ f_queue f m = b :: x :: l) as Hgo.
  { intros x s2 es2 Hx. cbn in Hx. unfold mstep_msg in Hx.
    destruct (h_pc (x_thr s x)) as [| | | | | |m old| | | | | | | | | | |] eqn:Ea; try discriminate.
    destruct (h_pc (x_thr s b)) as [| | | | | | | | | | | | | | |m'| |] eqn:Eb; try discriminate.
    destruct (Z.eqb_spec (Z.quot old (Z.of_nat (x_threads c))) (Z.of_nat (x_rank c b))) as [H1|]; [|discriminate].
    destruct (Z.eqb_spec (Z.rem old (Z.of_nat (x_threads c))) (Z.of_nat (x_tid c b))) as [H2|]; [|discriminate].
    destruct (msg_next c Hwf _ _ x b m old m' Hi Ea Eb H1 H2) as (-> & -> & l & Eq). eauto 6. }
  destruct (Hgo a _ _ Hs) as (m & l & Eb & Ea & Eq). split.
  - destruct (mstep_msg_inv c Hwf _ _ _ _ _ _ Ha Hs) as (f' & _ & Hi' & _).
    pose proof (v_thr c _ _ Hi a) as Hoka. pose proof (v_thr c _ _ Hi b) as Hokb. unfold ok_thr in *.
    rewrite Ea in Hoka. rewrite Eb in Hokb. destruct Hoka as [Hha _], Hokb as [Hhb _].
    assert (a <> b) by (intros ->; congruence).
    cbn in Hs. unfold mstep_msg in Hs. rewrite Ea, Eb in Hs.
    destruct (andb _ _); [|discriminate]. injection Hs as <- _. unfold inside, set_held, set_mthr. cbn [x_thr].
    exists m. rewrite upd_eq, upd_ne, upd_eq by auto. cbn [h_held]. rewrite Hha, Hhb, remove_single. cbn. tauto.
  - intros a' s'' es'' Hs'. destruct (Hgo a' _ _ Hs') as (m' & l' & Eb' & Ea' & Eq').
    assert (m' = m) as -> by congruence. congruence.
Qed.

(** ** No stuck state *)
Definition can_move (s : mst) : Prop := exists x s' es, mstep c s x = Some (s', es).

Lemma moves s t r : mstep_thr c s t = Some r -> can_move s.
Proof. destruct r as [s' es]. intros H. exists (MRun t), s', es. exact H. Qed.

Section Progress.
Context (f : fifo) (s : mst) (Ha : agree c f s).
Let Hi : minv c (f_queue f) s := proj1 Ha.

(** Steps which are always possible. *)
Lemma free_step t :
  match h_pc (x_thr s t) with
  | QRun => h_todo (x_thr s t) <> []
  | QProc _ | QWin _ | QSend _ _ | QWin2 _ | QRelWin _ | QRecv _ => False
  | QProc2 _ | QRel _ => x_lib c = true
  | _ => True
  end -> can_move s.
Proof.
  intros H. assert (mstep_thr c s t <> None) as Hn; [|destruct (mstep_thr c s t) eqn:E; [eapply moves; eauto|congruence]].
  unfold mstep_thr. destruct (h_pc (x_thr s t)); try discriminate; try contradiction; try (rewrite H; discriminate).
  - destruct (h_todo (x_thr s t)) as [|[] ?]; [congruence| | |]; discriminate.
  - destruct (x_word s m <? 0)%Z; discriminate.
  - destruct (h_todo (x_thr s t)) as [|[] ?]; discriminate.
  - destruct (x_word s m =? lock_id c t)%Z; discriminate.
Qed.

Lemma recv_step t m : h_pc (x_thr s t) = QRecv m -> can_move s.
Proof.
  intros E. pose proof (v_thr c _ _ Hi t) as Hok. unfold ok_thr in Hok. rewrite E in Hok. destruct Hok as [Hh _].
  destruct (head_of c _ s m t Hi) as (l & Eq); [rewrite Hh; left; auto|].
  pose proof (v_chain c _ _ Hi m) as Hc. pose proof (v_recv c _ _ Hi t m E) as Hx. rewrite Eq in *.
  destruct l as [|a l]; [congruence|].
  destruct Hc as (_ & Hwa & _). destruct (h_pc (x_thr s a)) eqn:Ea; try discriminate.
  - apply (free_step a). now rewrite Ea.
  - apply (free_step a). now rewrite Ea.
  - cbn in Hwa. injection Hwa as -> ->. exists (MMsg a t). cbn. unfold mstep_msg. rewrite Ea, E.
    destruct (id_dec c Hwf t) as [-> ->]. rewrite !Z.eqb_refl. cbn. eauto.
Qed.

Lemma win_step t m : h_pc (x_thr s t) = QWin m \/ h_pc (x_thr s t) = QWin2 m \/ h_pc (x_thr s t) = QRelWin m -> can_move s.
Proof.
  intros H. destruct (x_win s (x_home c m)) as [t'|] eqn:E.
  - apply (v_win c _ _ Hi) in E. unfold own_win in E.
    destruct (h_pc (x_thr s t')) eqn:E'; try discriminate; try (apply (free_step t'); now rewrite E').
    eapply recv_step; eauto.
  - assert (exists r, mstep_thr c s t = Some r) as [r Hr]; [|eapply moves; eauto].
    unfold mstep_thr. destruct H as [H|[H|H]]; rewrite H, E; eauto.
Qed.

Lemma held_todo t : h_held (x_thr s t) <> [] -> h_todo (x_thr s t) <> [].
Proof.
  intros H E. pose proof (v_thr c _ _ Hi t) as Hok. unfold ok_thr, starting, ending in Hok. rewrite E in Hok.
  destruct (h_pc (x_thr s t)); cbn in Hok; try congruence;
    repeat match goal with
    | H : _ /\ _ |- _ => destruct H | H : exists _, _ |- _ => destruct H | H : _ \/ _ |- _ => destruct H
    end; congruence.
Qed.

Lemma lib_owner t m : x_lib c = true -> In m (h_held (x_thr s t)) -> can_move s.
Proof.
  intros El Hm. assert (h_todo (x_thr s t) <> []) as Ht by (apply held_todo; intros E; rewrite E in Hm; destruct Hm).
  pose proof (v_thr c _ _ Hi t) as Hok. unfold ok_thr in Hok.
  destruct (h_pc (x_thr s t)) eqn:E; try (destruct Hok as [Hh _]; rewrite Hh in Hm; destruct Hm; fail);
    try (apply (free_step t); rewrite E; auto; fail).
  - eapply win_step; eauto.
  - eapply win_step; eauto.
  - eapply recv_step; eauto.
Qed.

Lemma send_head t m o : h_pc (x_thr s t) = QSend m o -> exists h, In m (h_held (x_thr s h)).
Proof.
  intros E. assert (In t (f_queue f m)) as H by (apply (v_mem c _ _ Hi); rewrite E; cbn; eauto).
  pose proof (v_chain c _ _ Hi m) as Hc. destruct (f_queue f m); [destruct H|]. exists n. apply Hc.
Qed.

Lemma proc_step t m : h_pc (x_thr s t) = QProc m \/ (x_lib c = false /\ (h_pc (x_thr s t) = QProc2 m \/ h_pc (x_thr s t) = QRel m)) ->
  can_move s.
Proof.
  intros H. destruct (x_proc s (x_rank c t)) as [t'|] eqn:E.
  - apply (v_proc c _ _ Hi) in E. unfold own_proc in E. destruct (has_proc c (x_thr s t')) eqn:Hp; [|discriminate].
    unfold has_proc in Hp. destruct (h_pc (x_thr s t')) eqn:E'; try discriminate;
      try (apply (free_step t'); rewrite E'; auto; fail);
      try (eapply win_step; eauto; fail); try (eapply recv_step; eauto; fail).
    + apply (free_step t'). rewrite E'. apply held_todo. intros Eh. rewrite Eh in Hp. discriminate.
    + destruct (send_head t' _ _ E') as [h Hh]. eapply lib_owner; eauto.
  - assert (exists r, mstep_thr c s t = Some r) as [r Hr]; [|eapply moves; eauto].
    unfold mstep_thr. destruct H as [H|[Hl [H|H]]]; rewrite H; rewrite ?Hl, E; eauto.
Qed.

Lemma owner_step t m : In m (h_held (x_thr s t)) -> can_move s.
Proof.
  intros Hm. destruct (x_lib c) eqn:El; [eapply lib_owner; eauto|].
  assert (h_todo (x_thr s t) <> []) as Ht by (apply held_todo; intros E; rewrite E in Hm; destruct Hm).
  pose proof (v_thr c _ _ Hi t) as Hok. unfold ok_thr in Hok.
  destruct (h_pc (x_thr s t)) eqn:E; try (destruct Hok as [Hh _]; rewrite Hh in Hm; destruct Hm; fail);
    try (apply (free_step t); rewrite E; auto; fail).
  - eapply proc_step; eauto.
  - eapply win_step; eauto.
  - eapply proc_step; eauto.
  - eapply win_step; eauto.
  - eapply recv_step; eauto.
Qed.

Lemma any_step t : h_todo (x_thr s t) <> [] -> can_move s.
Proof.
  intros Ht. destruct (h_pc (x_thr s t)) eqn:E; try (apply (free_step t); rewrite E; auto; fail);
    try (eapply win_step; eauto; fail).
  - eapply proc_step; eauto.
  - destruct (send_head t _ _ E) as [h Hh]. eapply owner_step; eauto.
  - destruct (x_lib c) eqn:El; [apply (free_step t); now rewrite E|]. eapply proc_step; eauto.
  - destruct (x_lib c) eqn:El; [apply (free_step t); now rewrite E|]. eapply proc_step; eauto.
  - eapply recv_step; eauto.
Qed.
End Progress.

Lemma mutex_no_stuck xs s es t : mrun c (minit c) xs = Some (s, es) -> h_todo (x_thr s t) <> [] ->
  exists x s' es', mstep c s x = Some (s', es').
Proof.
  intros H Ht. destruct (mreach c Hwf xs s es H) as (f & _ & Ha). eapply any_step; eauto.
Qed.

(** ** Every execution ends *)
Definition pos (p : mpc) : nat :=
  match p with
  | QRun => 0 | QProc _ => 1 | QWin _ => 2 | QSwap _ => 3 | QUnwin _ _ => 4 | QUnproc _ _ => 5 | QSend _ _ => 6
  | QProc2 _ => 7 | QWin2 _ => 8 | QGot _ => 9 | QOut _ => 10 | QOut2 _ => 11
  | QRel _ => 1 | QRelWin _ => 2 | QCas _ => 10 | QRecv _ => 11 | QDrop _ => 12 | QDrop2 _ => 13
  end.
Definition mleft (s : mst) (t : nat) : nat := 14 * length (h_todo (x_thr s t)) - pos (h_pc (x_thr s t)).
Fixpoint msum (g : nat -> nat) (n : nat) : nat := match n with 0 => 0 | S k => g k + msum g k end.

Lemma msum_le g g' n : (forall t, t < n -> g t <= g' t) -> msum g n <= msum g' n.
Proof. induction n as [|n IH]; cbn; intros H; auto. pose proof (H n). assert (msum g n <= msum g' n) by (apply IH; auto). lia. Qed.

Lemma msum_lt g g' n t : t < n -> (forall t, t < n -> g t <= g' t) -> g t < g' t -> msum g n < msum g' n.
Proof.
  intros Ht H Hlt. induction n as [|n IH]; [lia|]. cbn.
  destruct (Nat.eq_dec t n) as [->|].
  - assert (msum g n <= msum g' n) by (apply msum_le; auto). lia.
  - assert (msum g n < msum g' n) by (apply IH; auto; lia). pose proof (H n). lia.
Qed.

Lemma busy_todo f s t : agree c f s -> h_pc (x_thr s t) <> QRun -> exists o l, h_todo (x_thr s t) = o :: l.
Proof.
  intros [Hi _] H. pose proof (v_thr c _ _ Hi t) as Hok. unfold ok_thr, starting, ending in Hok.
  destruct (h_pc (x_thr s t)); try congruence;
    repeat match goal with
    | H : _ /\ _ |- _ => destruct H | H : exists _, _ |- _ => destruct H | H : _ \/ _ |- _ => destruct H
    end; eauto.
Qed.

Lemma thr_left f s t s' es : agree c f s -> mstep_thr c s t = Some (s', es) ->
  h_todo (x_thr s t) <> [] /\ mleft s' t < mleft s t /\ (forall t', t' <> t -> x_thr s' t' = x_thr s t').
Proof.
  intros Ha H. assert (h_todo (x_thr s t) <> []) as Hne.
  { destruct (h_pc (x_thr s t)) eqn:E;
      try (assert (h_pc (x_thr s t) <> QRun) as Hq by congruence;
           destruct (busy_todo f s t Ha Hq) as (? & ? & E1); rewrite E1; discriminate).
    unfold mstep_thr in H. rewrite E in H. destruct (h_todo (x_thr s t)); discriminate. }
  split; auto. unfold mleft. destruct (h_todo (x_thr s t)) as [|o l] eqn:Et; [congruence|].
  unfold mstep_thr in H. rewrite Et in H. destruct (x_lib c).
  all:
  destruct (h_pc (x_thr s t)) eqn:E; lazy beta iota zeta in H;
    repeat (match type of H with
    | match ?e with _ => _ end = _ => destruct e; try discriminate
    end; lazy beta iota zeta in H); try discriminate; injection H as <- <-;
    unfold finish, set_pc, set_held, set_mthr, set_word, set_proc, set_win;
    cbn [x_thr]; (split; [|intros; now rewrite upd_ne by auto]); rewrite upd_eq; cbn [h_todo h_pc x_thr]; rewrite Et; cbn [tl length pos]; lia.
Qed.

Lemma msg_left f s a b s' es : agree c f s -> mstep_msg c s a b = Some (s', es) ->
  h_todo (x_thr s a) <> [] /\ mleft s' a < mleft s a /\ (forall t, mleft s' t <= mleft s t) /\ (forall t, h_todo (x_thr s' t) = h_todo (x_thr s t)).
Proof.
  intros Ha H. unfold mstep_msg in H.
  destruct (h_pc (x_thr s a)) as [| | | | | |m old| | | | | | | | | | |] eqn:Ea; try discriminate.
  destruct (h_pc (x_thr s b)) as [| | | | | | | | | | | | | | |m'| |] eqn:Eb; try discriminate.
  destruct (andb _ _); [|discriminate]. injection H as <- <-.
  destruct (busy_todo f s a Ha) as (o & l & E1); [congruence|].
  assert (a <> b) as Hab by (intros ->; congruence).
  assert (forall t, h_todo (x_thr (set_held (set_held s b (QDrop m') (remove Nat.eq_dec m' (h_held (x_thr s b)))) a (QProc2 m) (m :: h_held (x_thr s a))) t) = h_todo (x_thr s t)) as Ht.
  { intros t. unfold set_held, set_mthr. cbn [x_thr]. unfold upd. destruct (Nat.eqb_spec t a) as [->|]; cbn.
    - destruct (Nat.eqb_spec a b); cbn; congruence.
    - destruct (Nat.eqb_spec t b) as [->|]; reflexivity. }
  split; [rewrite E1; discriminate|]. split; [|split; auto].
  - unfold mleft. rewrite Ht, E1, Ea. unfold set_held, set_mthr. cbn [x_thr]. rewrite upd_eq. cbn [h_pc pos length]. lia.
  - intros t. unfold mleft. rewrite Ht. unfold set_held, set_mthr. cbn [x_thr]. unfold upd. destruct (Nat.eqb_spec t a) as [->|]; cbn [h_pc].
    + rewrite Ea. cbn [pos]. lia.
    + destruct (Nat.eqb_spec t b) as [->|]; cbn [h_pc]; auto. rewrite Eb. cbn [pos]. lia.
Qed.

Lemma run_left N xs f s s' es : agree c f s -> (forall t, N <= t -> h_todo (x_thr s t) = []) ->
  mrun c s xs = Some (s', es) ->
  msum (mleft s') N + length xs <= msum (mleft s) N /\ (forall t, N <= t -> h_todo (x_thr s' t) = []).
Proof.
  revert f s es. induction xs as [|x xs IH]; cbn; intros f s es Ha HN H.
  - injection H as <- _. split; [lia|auto].
  - destruct (mstep c s x) as [[s1 e1]|] eqn:E; [|discriminate].
    destruct (mrun c s1 xs) as [[s2 e2]|] eqn:E2; [|discriminate]. injection H as <- _.
    assert (exists f1, fifo_run f e1 = Some f1 /\ agree c f1 s1) as (f1 & _ & A1)
      by (destruct x; [eapply mstep_thr_inv|eapply mstep_msg_inv]; eauto).
    assert (msum (mleft s1) N < msum (mleft s) N /\ (forall t, N <= t -> h_todo (x_thr s1 t) = [])) as [Hlt HN1].
    { destruct x as [t|a b]; cbn in E.
      - destruct (thr_left f s t _ _ Ha E) as (H1 & H2 & H3).
        assert (t < N) as Ht by (destruct (le_lt_dec N t); auto; exfalso; auto).
        split.
        + apply (msum_lt _ _ _ t); auto. intros t' _. destruct (Nat.eq_dec t' t) as [->|]; [lia|]. unfold mleft. rewrite H3; auto.
        + intros t' Ht'. rewrite H3 by lia. auto.
      - destruct (msg_left f s a b _ _ Ha E) as (H1 & H2 & H3 & H4).
        assert (a < N) as Ht by (destruct (le_lt_dec N a); auto; exfalso; auto).
        split; [apply (msum_lt _ _ _ a); auto|]. intros t' Ht'. rewrite H4. auto. }
    destruct (IH f1 s1 e2 A1 HN1 E2) as [H1 H2]. split; [lia|auto].
Qed.

Lemma mutex_terminates N xs s es : (forall t, N <= t -> x_prog c t = []) -> mrun c (minit c) xs = Some (s, es) ->
  length xs <= msum (fun t => 14 * length (x_prog c t)) N.
Proof.
  intros HN H. destruct (run_left N xs fifo0 (minit c) s es (agree_init c Hwf) HN H) as [Hl _].
  assert (msum (mleft (minit c)) N <= msum (fun t => 14 * length (x_prog c t)) N) by (apply msum_le; intros; unfold mleft; cbn; lia).
  lia.
Qed.

End Facts.

(** ** Executing examples: take the given actions, leaving out impossible ones. *)
Fixpoint drive (c : mcfg) (s : mst) (xs : list mact) : mst * list mev * list mact :=
  match xs with
  | [] => (s, [], [])
  | x :: xs' =>
      match mstep c s x with
      | Some (s', e) => let '(s'', e', l) := drive c s' xs' in (s'', e ++ e', x :: l)
      | None => drive c s xs'
      end
  end.

Lemma drive_run c s xs : mrun c s (snd (drive c s xs)) = Some (fst (drive c s xs)).
Proof.
  revert s. induction xs as [|x xs IH]; intros s; cbn [drive]; auto.
  destruct (mstep c s x) as [[s' e]|] eqn:E; auto. specialize (IH s').
  destruct (drive c s' xs) as [[s'' e'] l]. cbn [fst snd mrun] in *. now rewrite E, IH.
Qed.
