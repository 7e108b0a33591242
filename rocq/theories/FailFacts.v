(** * Property level lemmas about failing pthread functions *)
From Coq Require Import Bool.
From Verif Require Export FailModel.

(** The answer the call gets. *)
Definition answered (a : answers) (p : pcall) : bool :=
  match p with
  | PLock => a_lock a
  | PUnlock => a_unlock a
  | PWait c => match a_wait a c with Some _ => true | None => false end
  | PSignal c => a_signal a c
  end.
(** All calls succeed. *)
Definition good (a : answers) : Prop := forall p, answered a p = true.
Definition fresh (o : obj) : fst_ := FSt o false [].

(** Every call in the log is there with its answer. *)
Definition true_log (a : answers) (s : fst_) : Prop := forall p ok, In (p, ok) (f_log s) -> ok = answered a p.

Definition clean (a : answers) (l : list (pcall * bool)) : Prop :=
  forall p ok, In (p, ok) l -> ok = true /\ answered a p = true.

Lemma clean_app a l p : clean a l -> answered a p = true -> clean a (l ++ [(p, true)]).
Proof.
  intros H Hp q ok Hin. apply in_app_or in Hin as [Hin|[Hin|[]]]; [now apply H|]. injection Hin as <- <-. auto.
Qed.

(** A stage under the mutex: it goes on, or one of its calls has failed. *)
Definition stage (a : answers) (ps : list pcall) (x : bool * fst_) : Prop :=
  let '(ok, s) := x in
  f_held s = true /\
  if ok then clean a (f_log s)
  else exists l p, f_log s = l ++ [(p, false)] /\ clean a l /\ answered a p = false /\ In p ps.

Lemma wait_stage a c s : f_held s = true -> clean a (f_log s) -> stage a [PWait c] (f_wait a c s).
Proof.
  intros Hh Hc. unfold f_wait. destruct (a_wait a c) eqn:E; cbn [stage f_put f_call f_held f_log]; split; auto.
  - apply clean_app; auto. cbn. now rewrite E.
  - exists (f_log s), (PWait c). cbn. rewrite E. auto.
Qed.

Lemma signal_stage a c s : f_held s = true -> clean a (f_log s) ->
  stage a [PSignal c] (a_signal a c, f_call s (PSignal c) (a_signal a c)).
Proof.
  intros Hh Hc. cbn [stage f_call f_held f_log]. split; auto. destruct (a_signal a c) eqn:E.
  - apply clean_app; auto.
  - exists (f_log s), (PSignal c). cbn. auto.
Qed.

Lemma stage_weak a ps qs x : incl ps qs -> stage a ps x -> stage a qs x.
Proof.
  intros Hi. destruct x as [[] s]; cbn; auto. intros (Hh & l & p & H). split; auto. exists l, p. intuition.
Qed.

Lemma arrive_stage a total last s : f_held s = true -> clean a (f_log s) ->
  stage a [PSignal CMain; PWait CMain] (arrive a total last s).
Proof.
  intros Hh Hc. unfold arrive. cbv zeta. destruct (_ =? _)%Z.
  - eapply stage_weak; [|apply signal_stage; auto]. intros q [<-|[]]; now left.
  - eapply stage_weak; [|apply wait_stage; auto]. intros q [<-|[]]; right; now left.
Qed.

Lemma hold_back_stage a last s : f_held s = true -> clean a (f_log s) -> stage a [PWait CLast] (hold_back a last s).
Proof. intros Hh Hc. unfold hold_back. destruct (_ && _)%bool; [now apply wait_stage|]. split; auto. Qed.

Lemma leave_stage a last s : f_held s = true -> clean a (f_log s) -> stage a [PSignal CLast] (leave a last s).
Proof.
  intros Hh Hc. unfold leave. cbv zeta. destruct (_ && _)%bool; [now apply signal_stage|]. split; auto.
Qed.

(** The end of [waitBarrier]. *)
Definition reports (a : answers) (r : bool) (s : fst_) : Prop :=
  true_log a s /\
  (r = true <-> forall p, In (p, false) (f_log s) -> p = PSignal CFinish) /\
  (f_held s = false <-> ~ In (PWait CFinish, false) (f_log s) /\ ~ In (PUnlock, false) (f_log s)).

Lemma fail_reports a ps s : ~ In (PSignal CFinish) ps -> ~ In (PWait CFinish) ps -> ~ In PUnlock ps ->
  stage a ps (false, s) -> exists s', f_fail a s = Ok (false, s') /\ reports a false s'.
Proof.
  intros H1 H2 H3 (Hh & l & p & El & Hc & Ha & Hp). unfold f_fail, f_unlock. rewrite Hh. cbn [obind].
  eexists. split; [reflexivity|]. unfold reports, true_log. cbn [f_log f_held]. rewrite El.
  assert (forall q, In (q, false) l -> False) as Hl.
  { intros q Hq. apply Hc in Hq as [Hq _]. discriminate. }
  split; [|split].
  - intros q ok Hin. rewrite !in_app_iff in Hin. cbn in Hin.
    destruct Hin as [[Hin|[Hin|[]]]|[Hin|[]]].
    + destruct (Hc _ _ Hin) as [-> ->]. auto.
    + injection Hin as <- <-. auto.
    + injection Hin as <- <-. reflexivity.
  - split; [discriminate|]. intros H. assert (p = PSignal CFinish) as ->.
    { apply H. rewrite !in_app_iff. left. right. now left. }
    contradiction.
  - split.
    + intros Hu. apply negb_false_iff in Hu. rewrite Hu. split; rewrite !in_app_iff; cbn; intros Hin;
        destruct Hin as [[Hin|[Hin|[]]]|[Hin|[]]]; try (now apply Hl in Hin); try discriminate;
        injection Hin as ->; contradiction.
    + intros [_ Hu]. destruct (a_unlock a) eqn:E; auto. exfalso. apply Hu. rewrite !in_app_iff. right. now left.
Qed.

Lemma end_reports a s : f_held s = true ->
  (exists l, f_log s = l /\ true_log a s /\ forall p, In (p, false) l -> p = PSignal CFinish) ->
  exists r s', end_barrier a s = Ok (r, s') /\ reports a r s'.
Proof.
  intros Hh (l & El & Ht & Hf). unfold end_barrier, f_unlock. rewrite Hh. eexists _, _. split; [reflexivity|].
  unfold reports, true_log in *. cbn [f_log f_held]. rewrite El in *. split; [|split].
  - intros q ok Hin. apply in_app_or in Hin as [Hin|[Hin|[]]]; [now apply Ht|]. injection Hin as <- <-. reflexivity.
  - split.
    + intros Hu p Hin. apply in_app_or in Hin as [Hin|[Hin|[]]]; auto. injection Hin as <- E. congruence.
    + intros H. destruct (a_unlock a) eqn:E; auto. discriminate (H PUnlock). apply in_or_app. right. now left.
  - split.
    + intros Hu. apply negb_false_iff in Hu. rewrite Hu. split; intros Hin;
        apply in_app_or in Hin as [Hin|[Hin|[]]]; try discriminate; apply Hf in Hin; discriminate.
    + intros [_ Hu]. destruct (a_unlock a) eqn:E; auto. exfalso. apply Hu. apply in_or_app. right. now left.
Qed.

Lemma clean_true a s : clean a (f_log s) -> true_log a s /\ forall p, In (p, false) (f_log s) -> p = PSignal CFinish.
Proof.
  intros H. split.
  - intros p ok Hin. destruct (H _ _ Hin) as [-> ->]. auto.
  - intros p Hin. apply H in Hin as [Hin _]. discriminate.
Qed.

(** [waitBarrier] from a locked mutex. *)
Definition waited (a : answers) (r : bool) (s : fst_) : Prop :=
  if r then f_held s = true /\ true_log a s /\ forall p, In (p, false) (f_log s) -> p = PSignal CFinish
  else reports a false s.

Lemma wait_facts a total last s : f_held s = true -> clean a (f_log s) ->
  exists r s', wait_barrier a total last s = Ok (r, s') /\ waited a r s'.
Proof.
  intros Hh Hc. unfold wait_barrier. rewrite Hh.
  pose proof (arrive_stage a total last s Hh Hc) as H1. destruct (arrive a total last s) as [[] s1].
  2:{ destruct (fail_reports a [PSignal CMain; PWait CMain] s1 ltac:(cbn; intuition discriminate) ltac:(cbn; intuition discriminate)
        ltac:(cbn; intuition discriminate) H1) as (s' & E & Hr).
      rewrite E. eauto. }
  destruct H1 as [Hh1 Hc1].
  pose proof (hold_back_stage a last s1 Hh1 Hc1) as H2. destruct (hold_back a last s1) as [[] s2].
  2:{ destruct (fail_reports a [PWait CLast] s2 ltac:(cbn; intuition discriminate) ltac:(cbn; intuition discriminate)
        ltac:(cbn; intuition discriminate) H2) as (s' & E & Hr).
      rewrite E. eauto. }
  destruct H2 as [Hh2 Hc2].
  pose proof (leave_stage a last s2 Hh2 Hc2) as H3. destruct (leave a last s2) as [[] s3].
  2:{ destruct (fail_reports a [PSignal CLast] s3 ltac:(cbn; intuition discriminate) ltac:(cbn; intuition discriminate)
        ltac:(cbn; intuition discriminate) H3) as (s' & E & Hr).
      rewrite E. eauto. }
  destruct H3 as [Hh3 Hc3]. exists true, (finish a s3). split; auto.
  unfold waited, finish. cbv zeta. destruct (_ =? _)%Z.
  - destruct (clean_true _ _ Hc3) as [Ht Hf]. cbn [f_call f_put f_held f_log]. split; auto. split.
    + intros p ok Hin. cbn [f_log f_call f_put] in Hin. apply in_app_or in Hin as [Hin|[Hin|[]]]; [now apply Ht|].
      injection Hin as <- <-. reflexivity.
    + intros p Hin. apply in_app_or in Hin as [Hin|[Hin|[]]]; auto. now injection Hin as <- _.
  - destruct (clean_true _ _ Hc3). auto.
Qed.

Lemma start_facts a o : a_lock a = true ->
  (exists s, start_barrier a (fresh o) = (true, s) /\ f_held s = true /\ clean a (f_log s) /\
     (o_fin o = false -> f_obj s = o)) \/
  (exists s, start_barrier a (fresh o) = (false, s) /\ f_held s = true /\ reports a false s /\ o_fin o = true /\
     a_wait a CFinish = None).
Proof.
  intros Hl. unfold start_barrier, fresh. cbn [f_obj f_log app]. rewrite Hl.
  assert (clean a [(PLock, true)]) as Hc.
  { intros p ok [Hin|[]]. injection Hin as <- <-. auto. }
  destruct (o_fin o) eqn:Ef.
  - unfold f_wait. destruct (a_wait a CFinish) eqn:Ew.
    + left. eexists. split; [reflexivity|]. split; auto. split; [|discriminate].
      cbn [f_log f_put f_call]. apply clean_app; auto. cbn. now rewrite Ew.
    + right. eexists. split; [reflexivity|]. split; auto. split; auto.
      unfold reports, true_log. cbn [f_log f_held f_call app].
      split; [|split].
      * intros p ok [Hin|[Hin|[]]]; injection Hin as <- <-; cbn; [congruence|now rewrite Ew].
      * split; [discriminate|]. intros H. discriminate (H (PWait CFinish)). right. now left.
      * split; [discriminate|]. intros [H _]. exfalso. apply H. right. now left.
  - left. eexists. split; [reflexivity|]. auto.
Qed.

Lemma report_facts a total last o : a_lock a = true ->
  exists r s, sync_call a total last (fresh o) = Ok (r, s) /\ reports a r s.
Proof.
  intros Hl. unfold sync_call. destruct (start_facts a o Hl) as [(s & E & Hh & Hc & _)|(s & E & _ & Hr & _)]; rewrite E.
  2: eauto.
  destruct (wait_facts a total last s Hh Hc) as (r & s' & Ew & Hw). rewrite Ew. cbn [obind]. destruct r.
  - destruct Hw as (Hh' & Ht & Hf). apply end_reports; eauto.
  - eauto.
Qed.

Lemma no_failure_facts a total last o : good a ->
  exists s, sync_call a total last (fresh o) = Ok (true, s) /\ f_held s = false.
Proof.
  intros Hg. destruct (report_facts a total last o (Hg PLock)) as (r & s & E & Ht & Hr & Hh).
  assert (forall p, ~ In (p, false) (f_log s)) as Hn.
  { intros p Hin. apply Ht in Hin. rewrite Hg in Hin. discriminate. }
  assert (r = true) as -> by (apply Hr; intros p Hin; now apply Hn in Hin).
  exists s. split; auto. apply Hh. split; apply Hn.
Qed.

Lemma alone_facts a last : good a ->
  exists s, sync_call a 1 last (fresh (Obj 0 0 false)) = Ok (true, s) /\ f_held s = false /\ f_obj s = Obj 0 0 false.
Proof.
  intros Hg. destruct (no_failure_facts a 1 last (Obj 0 0 false) Hg) as (s & E & Hh). exists s. split; auto. split; auto.
  revert E. pose proof (Hg PLock) as H1. pose proof (Hg (PSignal CMain)) as H2. pose proof (Hg (PSignal CLast)) as H3.
  cbn in H1, H2, H3.
  unfold sync_call, start_barrier, fresh. cbn [f_obj f_log app o_fin]. rewrite H1.
  unfold wait_barrier, arrive, hold_back, leave, finish, end_barrier, f_unlock, f_put, f_call.
  destruct last; cbn; rewrite ?H2, ?H3; cbn; now intros [= _ <-].
Qed.

Lemma lock_failure a total last o : a_lock a = false ->
  (exists s, start_barrier a (fresh o) = (true, s) /\ f_held s = false) /\ sync_call a total last (fresh o) = Ub.
Proof.
  intros Hl. unfold sync_call, start_barrier. rewrite Hl. split; [eexists; split; reflexivity|]. reflexivity.
Qed.

Lemma held_failure a total last o : a_lock a = true -> o_fin o = true -> a_wait a CFinish = None ->
  exists s, sync_call a total last (fresh o) = Ok (false, s) /\ f_held s = true.
Proof.
  intros Hl Hf Hw. unfold sync_call, start_barrier, fresh. cbn [f_obj f_log app]. rewrite Hl, Hf.
  unfold f_wait. rewrite Hw. eexists. split; reflexivity.
Qed.

Lemma count_failure a a' total : (2 <= total < 2 ^ 32)%Z ->
  a_lock a = true -> a_wait a CMain = None -> a_unlock a = true -> good a' ->
  exists s1, sync_call a total false (fresh (Obj 0 0 false)) = Ok (false, s1) /\ f_held s1 = false /\
    o_synced (f_obj s1) = 1%Z /\
    exists s2, sync_call a' total false (fresh (Obj (o_synced (f_obj s1) + (total - 2)) 0 false)) = Ok (true, s2) /\
      f_log s2 = [(PLock, true); (PSignal CMain, true); (PUnlock, true)] /\
      o_fin (f_obj s2) = true /\ o_synced (f_obj s2) = (total - 1)%Z.
Proof.
  intros Ht Hl Hw Hu Hg. pose proof (Hg PLock) as G1. pose proof (Hg (PSignal CMain)) as G2.
  pose proof (Hg PUnlock) as G3. cbn in G1, G2, G3.
  eexists. split; [|split; [|split]].
  - unfold sync_call, start_barrier, fresh. cbn [f_obj f_log app o_fin]. rewrite Hl.
    unfold wait_barrier, arrive. cbn [f_held f_obj o_synced o_lasts o_fin f_put lastz].
    destruct (Z.eqb_spec (u32 (0 + 1)) total) as [E|_].
    { unfold u32 in E. rewrite Z.mod_small in E by lia. lia. }
    unfold f_wait. rewrite Hw. unfold f_fail, f_unlock. cbn [f_call f_put f_held f_log obind app]. rewrite Hu. reflexivity.
  - reflexivity.
  - reflexivity.
  - cbn [f_obj f_put f_call o_synced]. change (u32 (0 + 1)) with 1%Z.
    eexists. split; [|split; [|split]].
    + unfold sync_call, start_barrier, fresh. cbn [f_obj f_log app o_fin]. rewrite G1.
      unfold wait_barrier, arrive. cbn [f_held f_obj o_synced o_lasts o_fin f_put lastz f_log].
      assert (u32 (1 + (total - 2) + 1) = total) as -> by (unfold u32; rewrite Z.mod_small by lia; lia).
      rewrite Z.eqb_refl, G2. unfold hold_back, leave, finish. cbn [andb f_call f_obj f_put f_held f_log o_synced o_lasts o_fin negb lastz].
      assert (u32 (total - 1) = (total - 1)%Z) as -> by (unfold u32; rewrite Z.mod_small by lia; lia).
      assert (u32 (u32 (0 + 0) - 0) = 0%Z) as -> by reflexivity.
      assert ((total - 1 =? 0)%Z = false) as E by (apply Z.eqb_neq; lia). rewrite E.
      cbn [andb f_call f_put f_obj o_synced]. rewrite E. cbn [obind].
      unfold end_barrier, f_unlock. cbn [f_held f_obj f_log app]. rewrite G3. reflexivity.
    + reflexivity.
    + reflexivity.
    + reflexivity.
Qed.

Lemma ignored_failure last :
  exists a s, a_signal a CFinish = false /\ sync_call a 1 last (fresh (Obj 0 0 false)) = Ok (true, s) /\
    In (PSignal CFinish, false) (f_log s).
Proof.
  exists (Answers true (fun _ => None) (fun c => match c with CFinish => false | _ => true end) true).
  destruct last; eexists; (split; [reflexivity|split; [reflexivity|]]); cbn; tauto.
Qed.

(** ** Registration *)
Lemma register_success_facts total detect x o s m o' s' :
  n_ready (rs_numa s) = false -> register_thread total detect x (fresh o) s = Ok (RSuccess, m, o', s') ->
  (exists node, ra_node x = Some node) /\ f_held o' = false /\
  (forall p, In (p, false) (f_log o') -> p = PSignal CFinish) /\ true_log (ra_sync x) o' /\
  ra_set x = true /\ rs_keyerr s' = false /\ rs_keyerr s = false /\
  (exists t dom, rs_ids s' = Some (t, dom)) /\
  (o_fin o = false -> thread_id s' = Ok (Z.to_nat (o_synced o))).
Proof.
  intros Hr. unfold register_thread. rewrite Hr. destruct (ra_node x) as [node|]; [|discriminate].
  destruct (a_lock (ra_sync x)) eqn:El.
  2:{ destruct (lock_failure (ra_sync x) 0 false o El) as [(s0 & E & Hh) _]. rewrite E, Hh. discriminate. }
  destruct (start_facts (ra_sync x) o El) as [(s0 & E & Hh & Hc & Hobj)|(s0 & E & _)]; rewrite E; [|discriminate].
  rewrite Hh. destruct (nregister total detect (ra_before x) _ node) as [n1 r] eqn:En.
  destruct (wait_facts (ra_sync x) (Z.of_nat total) false s0 Hh Hc) as (ok & s1 & Ew & Hw). rewrite Ew. cbn [obind].
  destruct ok; [|discriminate]. destruct Hw as (Hh1 & Ht1 & Hf1).
  destruct (end_reports (ra_sync x) s1 Hh1) as (r2 & s2 & Ee & Ht2 & Hr2 & Hh2); [eauto|].
  rewrite Ee. cbn [obind]. destruct r2; [|discriminate].
  destruct (rs_keyerr s) eqn:Ek; [discriminate|]. destruct (ra_set x) eqn:Es; [|discriminate].
  intros [= _ <- <-]. split; [eauto|]. pose proof (proj1 Hr2 eq_refl) as Hf2. split.
  { apply Hh2. split; intros Hin; apply Hf2 in Hin; discriminate. }
  split; auto. split; auto. split; auto. split; auto. split; auto. cbn [rs_ids]. split; [eauto|].
  intros Hof. unfold thread_id. cbn [rs_keyerr rs_ids]. f_equal. rewrite (Hobj Hof) in En. unfold nregister in En.
  destruct (nfind _ _); injection En as _ <-; reflexivity.
Qed.

Lemma register_runs total detect x o s : good (ra_sync x) -> n_ready (rs_numa s) = false ->
  (exists node, ra_node x = Some node) ->
  exists m o' n', register_thread total detect x (fresh o) s =
    Ok ((if rs_keyerr s then RThread else if ra_set x then RSuccess else RThread), m, o',
        RSt n' (rs_keyerr s)
            (if rs_keyerr s then rs_ids s
             else if ra_set x then Some (match rs_ids s with _ => match
               nregister total detect (ra_before x) (Z.to_nat (o_synced (f_obj (snd (start_barrier (ra_sync x) (fresh o))))))
                 (match ra_node x with Some n => n | None => 0 end) with (_, r) => (r_tid r, r_dom r) end end)
             else rs_ids s)) /\ f_held o' = false.
Proof.
  intros Hg Hr [node Hn]. unfold register_thread. rewrite Hr, Hn.
  destruct (start_facts (ra_sync x) o (Hg PLock)) as [(s0 & E & Hh & Hc & _)|(s0 & E & _ & _ & _ & Hw)]; rewrite E.
  2:{ specialize (Hg (PWait CFinish)). cbn in Hg. rewrite Hw in Hg. discriminate. }
  rewrite Hh. cbn [snd]. destruct (nregister total detect (ra_before x) _ node) as [n1 r] eqn:En.
  destruct (wait_facts (ra_sync x) (Z.of_nat total) false s0 Hh Hc) as (ok & s1 & Ew & Hw). rewrite Ew. cbn [obind].
  assert (forall s, true_log (ra_sync x) s -> forall p, ~ In (p, false) (f_log s)) as Hnone.
  { intros s' Ht p Hin. apply Ht in Hin. rewrite Hg in Hin. discriminate. }
  destruct ok.
  2:{ destruct Hw as (Ht & [_ Hr'] & _). discriminate Hr'. intros p Hin. now apply (Hnone _ Ht) in Hin. }
  destruct Hw as (Hh1 & Ht1 & Hf1).
  destruct (end_reports (ra_sync x) s1 Hh1) as (r2 & s2 & Ee & Ht2 & Hr2 & Hh2); [eauto|].
  rewrite Ee. cbn [obind].
  assert (r2 = true) as -> by (apply Hr2; intros p Hin; now apply (Hnone _ Ht2) in Hin).
  assert (f_held s2 = false) by (apply Hh2; split; apply (Hnone _ Ht2)).
  destruct (rs_keyerr s); [|destruct (ra_set x)]; eexists _, s2, _; (split; [reflexivity|auto]).
Qed.

Lemma register_again_facts total detect x o s : good (ra_sync x) -> n_ready (rs_numa s) = false ->
  (exists node, ra_node x = Some node) -> rs_ids s = None -> rs_keyerr s = false -> ra_set x = false ->
  exists m o' s', register_thread total detect x (fresh o) s = Ok (RThread, m, o', s') /\
    forall n m0 ms x' o'', n_ready n = true -> n_masters n = m0 :: ms ->
      let s'' := RSt n (rs_keyerr s') (rs_ids s') in
      register_thread total detect x' o'' s'' = Ok (RSuccess, Some m0, o'', s'') /\ thread_id s'' = Ok 0.
Proof.
  intros Hg Hr Hn Hi Hk Hs. destruct (register_runs total detect x o s Hg Hr Hn) as (m & o' & n' & E & _).
  rewrite Hk, Hs, Hi in E. eexists _, _, _. split; [exact E|].
  intros n m0 ms x' o'' Hn' Hm s''. split; [|reflexivity].
  unfold register_thread, s''. cbn [rs_numa]. rewrite Hn'. cbn [thread_id rs_keyerr rs_ids obind].
  unfold nagain. rewrite Hm. reflexivity.
Qed.

Lemma register_key_facts total detect x o s : good (ra_sync x) -> n_ready (rs_numa s) = false ->
  (exists node, ra_node x = Some node) -> rs_keyerr s = true ->
  exists m o' s', register_thread total detect x (fresh o) s = Ok (RThread, m, o', s') /\
    forall n x' o'', n_ready n = true -> register_thread total detect x' o'' (RSt n (rs_keyerr s') (rs_ids s')) = Ub.
Proof.
  intros Hg Hr Hn Hk. destruct (register_runs total detect x o s Hg Hr Hn) as (m & o' & n' & E & _).
  rewrite Hk in E. eexists _, _, _. split; [exact E|]. intros n x' o'' Hn'. unfold register_thread. cbn [rs_numa].
  now rewrite Hn'.
Qed.
