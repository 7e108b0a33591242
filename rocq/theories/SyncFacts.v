(** * Facts about [Sync] and [Once] *)
From Verif Require Export SyncProofs.
Require Import Lia Bool.

Section Facts.
Context {V : Type} (c : ycfg V).
Notation N := (y_n c).

Lemma yinv_ext : forall K s f, yinv c K s -> (forall t, f t = y_thr s t) ->
  yinv c K (YSt (y_mutex s) (y_synced s) (y_last s) (y_fin s) (y_data s) f).
Proof.
  intros K s f I H. destruct I as [A1 A2 A3 A4 A5 A6].
  split; cbn [y_thr y_mutex y_synced y_last y_fin y_data]; auto.
  - intros t Ht. rewrite H. destruct (A1 t Ht). split; auto.
  - rewrite A3. apply cnt_ext. intros; rewrite H; reflexivity.
  - rewrite A4. destruct (y_root c K); rewrite ?H; reflexivity.
  - intros t u k v. rewrite !H. apply A6.
Qed.

Lemma yinv_step : forall K s a o,
  wf_ycfg c -> y_spurious c = false -> yinv c K s -> ystep c s a = Some o ->
  exists s' K', o = Ok s' /\ yinv c K' s'.
Proof.
  intros K s a o W Hsp I E. destruct a as [t|t]; cbn [ystep] in E;
    [|unfold ystep_spur in E; rewrite Hsp in E; destruct (t <? N); discriminate E].
  destruct (Nat.ltb_spec t N) as [Ht|]; [|discriminate].
  pose proof (yi_thr _ _ _ I t Ht) as O.
  pose proof (to_phase _ _ _ _ _ O) as Hok.
  pose proof (to_mutex _ _ _ _ _ O) as Hm.
  pose proof (to_var _ _ _ _ _ O) as Hv.
  pose proof (to_rounds _ _ _ _ _ O) as [_ Hr].
  unfold ystep_thr in E. cbv zeta in E.
  destruct (y_pc (y_thr s t)) eqn:Hp; try discriminate E; cbn [y_holds] in Hm; cbn in Hv.
  - (* YOut *)
    destruct (Nat.ltb_spec (y_round (y_thr s t)) (y_rounds c)) as [Hk|]; [|discriminate].
    destruct (y_mutex s) eqn:Em; [discriminate|]. injection E as <-.
    cbn [y_fin y_lock]. exists (if y_fin s then y_lock (y_goto (y_lock s (Some t)) t YSleepF) None else y_goto (y_lock s (Some t)) t YIn), K. split; [reflexivity|].
    destruct (y_fin s) eqn:Hf.
    + pose proof (yinv_move c K s t YSleepF (y_var (y_thr s t)) None I Ht) as M. cbv zeta in M.
      rewrite Hf, Hp in M. unfold y_lock, y_goto, y_set; cbn [y_mutex y_synced y_last y_fin y_data y_thr]. rewrite Hf.
      apply M; cbn; auto; try discriminate; intuition discriminate.
    + pose proof (yinv_move c K s t YIn (y_var (y_thr s t)) (Some t) I Ht) as M. cbv zeta in M.
      rewrite Hf, Hp in M. unfold y_lock, y_goto, y_set; cbn [y_mutex y_synced y_last y_fin y_data y_thr]. rewrite Hf.
      apply M; cbn; auto; try discriminate; intuition discriminate.
  - (* YWakeF *)
    destruct (y_mutex s) eqn:Em; [discriminate|]. injection E as <-.
    eexists; exists K; split; [reflexivity|].
    pose proof (yinv_move c K s t YIn (y_var (y_thr s t)) (Some t) I Ht) as M. cbv zeta in M.
    rewrite Hp in M. destruct (y_fin s) eqn:Hf; [contradiction|].
    unfold y_lock, y_goto, y_set; cbn [y_mutex y_synced y_last y_fin y_data y_thr]. rewrite Hf.
    apply M; cbn; auto; try discriminate; try (intuition discriminate).
  - (* YIn *)
    assert (Hf : y_fin s = false) by (destruct (y_fin s); [contradiction|reflexivity]).
    destruct (Nat.eqb_spec (S (y_synced s)) N) as [En|En].
    + injection E as <-. eexists; exists K; split; [reflexivity|].
      unfold y_goto, y_set, y_wake; cbn [y_mutex y_synced y_last y_fin y_data y_thr].
      rewrite upd_eq. cbn [y_pc ypc_eq].
      apply (yinv_full c K s t W I Ht Hp En).
      * rewrite upd_eq. reflexivity.
      * intros u Hu. rewrite upd_ne, upd_ne by assumption. reflexivity.
    + injection E as <-. eexists; exists K; split; [reflexivity|].
      pose proof (yi_fin _ _ _ I) as A. rewrite Hf in A.
      pose proof (yinv_enter c K s t I Ht Hp ltac:(lia)) as M. cbv zeta in M.
      unfold y_lock, y_goto, y_set; cbn [y_mutex y_synced y_last y_fin y_data y_thr].
      rewrite upd_eq. cbn [y_round y_var y_num y_out].
      apply (yinv_ext _ _ _ M). intros u. cbn [y_thr].
      destruct (Nat.eq_dec u t) as [->|]; [rewrite !upd_eq|rewrite !upd_ne by assumption]; reflexivity.
  - (* YWakeC *)
    destruct (y_mutex s) eqn:Em; [discriminate|]. injection E as <-.
    eexists; exists K; split; [reflexivity|].
    pose proof (yinv_move c K s t YCheck (y_var (y_thr s t)) (Some t) I Ht) as M. cbv zeta in M.
    rewrite Hp in M. destruct (y_fin s) eqn:Hf; [|contradiction].
    unfold y_lock, y_goto, y_set; cbn [y_mutex y_synced y_last y_fin y_data y_thr]. rewrite Hf.
    apply M; cbn; auto; try discriminate; try (intuition discriminate).
  - (* YCheck *)
    destruct (y_fin s) eqn:Hf; [|contradiction]. cbn in Hok.
    assert (Hown : y_mutex s = Some t) by (apply Hm; reflexivity).
    destruct (is_last c t (y_round (y_thr s t)) && (y_last s <? y_synced s))%bool eqn:El.
    + apply andb_true_iff in El. destruct El as [El Es]. apply Nat.ltb_lt in Es.
      assert (R : y_root c K = Some t).
      { unfold is_last in El. rewrite Hok in El. destruct (y_root c K); [|discriminate].
        apply Nat.eqb_eq in El. congruence. }
      injection E as <-. eexists; exists K; split; [reflexivity|].
      pose proof (yinv_move c K s t YSleepL (y_var (y_thr s t)) None I Ht) as M. cbv zeta in M.
      rewrite Hp, Hf in M. unfold y_lock, y_goto, y_set; cbn [y_mutex y_synced y_last y_fin y_data y_thr]. rewrite Hf.
      apply M; cbn; auto; try discriminate; try (intuition discriminate).
      * intros _. rewrite (yi_last _ _ _ I), R, Hp in Es. cbn in Es. exact Es.
    + injection E as <-. eexists; exists K; split; [reflexivity|].
      pose proof (yinv_move c K s t YLeave (y_var (y_thr s t)) (Some t) I Ht) as M. cbv zeta in M.
      rewrite Hp, Hf in M. unfold y_lock, y_goto, y_set; cbn [y_mutex y_synced y_last y_fin y_data y_thr]. rewrite Hf, Hown.
      apply M; cbn; auto; try discriminate; try (intuition discriminate).
      * intros [X|[_ R]]; [discriminate|].
        unfold is_last in El. rewrite Hok, R, Nat.eqb_refl in El. cbn in El. apply Nat.ltb_ge in El.
        pose proof (yi_last _ _ _ I) as A. rewrite R, Hp in A. cbn in A.
        pose proof (yi_fin _ _ _ I) as B. rewrite Hf in B. lia.
  - (* YWakeL *)
    destruct (y_mutex s) eqn:Em; [discriminate|]. injection E as <-.
    eexists; exists K; split; [reflexivity|].
    pose proof (yinv_move c K s t YLeave (y_var (y_thr s t)) (Some t) I Ht) as M. cbv zeta in M.
    rewrite Hp in M. destruct (y_fin s) eqn:Hf; [|contradiction].
    unfold y_lock, y_goto, y_set; cbn [y_mutex y_synced y_last y_fin y_data y_thr]. rewrite Hf.
    apply M; cbn; auto; try discriminate; try (intuition discriminate).
    + intros _. apply (to_alone _ _ _ _ _ O). auto.
  - (* YLeave *)
    destruct (y_fin s) eqn:Hf; [|contradiction]. cbn in Hok.
    assert (Hpos : 0 < y_synced s) by (pose proof (yi_fin _ _ _ I) as A; rewrite Hf in A; exact A).
    destruct (Nat.eq_dec (y_synced s) 1) as [H1|H1].
    + pose proof (leave_root c K s t W I Ht Hp H1) as Hroot.
      assert (Hl0 : y_last s - b2n (is_last c t (y_round (y_thr s t))) = 0).
      { rewrite (yi_last _ _ _ I). unfold is_last. rewrite Hok.
        destruct (y_root c K) as [r|] eqn:R; [|reflexivity].
        rewrite (Hroot r eq_refl), Nat.eqb_refl, Hp. reflexivity. }
      rewrite Hl0, H1 in E.
      injection E as <-. eexists; exists (S K); split; [reflexivity|].
      pose proof (yinv_leave_end c K s t W I Ht Hp H1) as M. cbv zeta in M.
      assert (Hall : forall u, u < N -> u <> t -> y_pc (y_thr s u) <> YSleepL).
      { intros u Hu Hne X. pose proof (yi_thr _ _ _ I u Hu) as Ou.
        pose proof (to_sleepl _ _ _ _ _ Ou X). lia. }
      destruct (negb _); unfold y_goto, y_set, y_wake;
        cbn [y_mutex y_synced y_last y_fin y_data y_thr Nat.sub Nat.eqb]; apply M.
      * rewrite upd_eq. rewrite Hp. cbn [ypc_eq]. rewrite Hp. reflexivity.
      * intros u Hu Hne. rewrite upd_ne by assumption. unfold wake_f.
        destruct (ypc_eq (y_pc (y_thr s u)) YSleepL) eqn:X; [|reflexivity].
        exfalso. apply (Hall u Hu Hne). destruct (y_pc (y_thr s u)); try discriminate; reflexivity.
      * rewrite upd_eq. rewrite Hp. reflexivity.
      * intros u Hu Hne. rewrite upd_ne by assumption. reflexivity.
    + pose proof (yinv_leave c K s t W I Ht Hp ltac:(lia)) as [Hl M]. cbv zeta in M.
      rewrite Hl in E. cbn [b2n] in E. rewrite Nat.sub_0_r in E. cbn [negb] in E.
      rewrite andb_true_r in E. cbn [y_synced y_last] in E.
      destruct (Nat.eqb_spec (y_synced s - 1) (y_last s)) as [Eq|Eq].
      * cbn [y_wake y_synced] in E. destruct (Nat.eqb_spec (y_synced s - 1) 0); [lia|].
        injection E as <-. eexists; exists K; split; [reflexivity|].
        rewrite <- Hf in *. unfold y_goto, y_set, y_wake. cbn [y_mutex y_synced y_last y_fin y_data y_thr]. apply M.
        -- rewrite upd_eq. rewrite Hp. reflexivity.
        -- intros u Hu Hne. rewrite upd_ne by assumption. reflexivity.
      * cbn [y_synced] in E. destruct (Nat.eqb_spec (y_synced s - 1) 0); [lia|].
        injection E as <-. eexists; exists K; split; [reflexivity|].
        rewrite <- Hf in *. unfold y_goto, y_set. cbn [y_mutex y_synced y_last y_fin y_data y_thr]. apply M.
        -- rewrite upd_eq. reflexivity.
        -- intros u Hu Hne. rewrite upd_ne by assumption. reflexivity.
  - (* YCopy *)
    assert (Hown : y_mutex s = Some t) by (apply Hm; reflexivity).
    pose proof (yinv_move c K s t YEnd (result c t (y_round (y_thr s t))) (Some t) I Ht) as M. cbv zeta in M.
    rewrite Hp in M.
    assert (G : yinv c K (YSt (Some t) (y_synced s) (y_last s) (y_fin s) (y_data s)
       (upd (y_thr s) t (YThr YEnd (y_round (y_thr s t)) (result c t (y_round (y_thr s t))) (y_num (y_thr s t)) (y_out (y_thr s t)))))).
    { apply M; cbn; auto; try discriminate; try (intuition discriminate). }
    unfold result in G. destruct (y_root c (y_round (y_thr s t))) as [r|] eqn:R.
    + (* where does m_data point to? *)
      assert (D : y_data s = Some (r, y_round (y_thr s t)) /\ y_round (y_thr s r) = y_round (y_thr s t) /\
                  y_var (y_thr s r) = y_init c r (y_round (y_thr s t))).
      { destruct (y_fin s) eqn:Hf.
        - cbn in Hok. rewrite Hok in R |- *. pose proof (proj2 W _ _ R) as Hrn.
          pose proof (yi_thr _ _ _ I r Hrn) as Or.
          pose proof (to_root _ _ _ _ _ Or Hf R) as S1.
          pose proof (to_data _ _ _ _ _ Or R S1) as S2.
          pose proof (to_phase _ _ _ _ _ Or) as S3. rewrite Hf in S3.
          pose proof (to_var _ _ _ _ _ Or) as S4.
          destruct (y_pc (y_thr s r)); try discriminate S1; cbn in S3; try contradiction;
            rewrite S3 in *; auto.
        - destruct (to_copy _ _ _ _ _ O Hf (or_introl Hp) r R) as [-> D]. auto. }
      destruct D as (D1 & D2 & D3). rewrite D1, D2, Nat.eqb_refl, D3 in E.
      injection E as <-. eexists; exists K; split; [reflexivity|].
      unfold y_set. rewrite Hown. exact G.
    + injection E as <-. eexists; exists K; split; [reflexivity|].
      unfold y_goto, y_set. cbn. rewrite Hown, Hv. exact G.
  - (* YEnd *)
    injection E as <-. eexists; exists K; split; [reflexivity|].
    apply (yinv_end c K s t I Ht Hp).
Qed.

Lemma yinv_run : forall l K s o,
  wf_ycfg c -> y_spurious c = false -> yinv c K s -> yrun c s l = Some o ->
  exists s' K', o = Ok s' /\ yinv c K' s'.
Proof.
  induction l as [|a l IH]; intros K s o W Hsp I E; cbn in E.
  - injection E as <-. eauto.
  - destruct (ystep c s a) as [o'|] eqn:Ea; [|discriminate].
    destruct (yinv_step K s a o' W Hsp I Ea) as (s' & K' & -> & I').
    eapply IH; eauto.
Qed.

(** ** What the callers see *)
Definition ystate (s : yst V) : Prop := exists l, yrun c (yinit c) l = Some (Ok s).

(** Thread [t] has called [waitBarrier] for the [k]-th time (counted from 0). *)
Definition arrived (s : yst V) (t k : nat) : Prop :=
  k < y_round (y_thr s t) \/ (k = y_round (y_thr s t) /\ entered (y_pc (y_thr s t)) = true).
(** [waitBarrier] of call [k] has returned. *)
Definition passed (s : yst V) (t k : nat) : Prop :=
  k < y_round (y_thr s t) \/
  (k = y_round (y_thr s t) /\ (y_pc (y_thr s t) = YCopy \/ y_pc (y_thr s t) = YEnd)).
(** The call [k] has returned. *)
Definition returned (s : yst V) (t k : nat) : Prop := k < y_round (y_thr s t).
(** Between the return of [startBarrier] and the next wait or [endBarrier]. *)
Definition inside (s : yst V) (t : nat) : Prop := y_holds (y_pc (y_thr s t)) = true.
Definition finished (s : yst V) (t : nat) : Prop :=
  y_round (y_thr s t) = y_rounds c /\ y_pc (y_thr s t) = YOut.

Section Safe.
Hypothesis W : wf_ycfg c.
Hypothesis Hsp : y_spurious c = false.

Lemma ystate_inv : forall s, ystate s -> exists K, yinv c K s.
Proof.
  intros s [l E]. destruct (yinv_run l 0 _ _ W Hsp (yinv_init c W) E) as (s' & K & A & I).
  injection A as <-. eauto.
Qed.

Theorem sync_defined : forall l, yrun c (yinit c) l <> Some Ub.
Proof.
  intros l E. destruct (yinv_run l 0 _ _ W Hsp (yinv_init c W) E) as (s' & K & A & I). discriminate.
Qed.

Theorem sync_barrier : forall s t u k, ystate s -> t < N -> u < N -> passed s t k -> arrived s u k.
Proof.
  intros s t u k E Ht Hu H. destruct (ystate_inv s E) as [K I].
  pose proof (to_phase _ _ _ _ _ (yi_thr _ _ _ I t Ht)) as A.
  pose proof (to_phase _ _ _ _ _ (yi_thr _ _ _ I u Hu)) as B.
  unfold passed, arrived in *. destruct (y_fin s); cbn in A, B.
  - assert (k <= K) by (destruct (y_pc (y_thr s t)); destruct H as [H|[H [H'|H']]]; try discriminate; try contradiction; lia).
    destruct (y_pc (y_thr s u)); try contradiction; subst; cbn; try lia;
    (destruct (Nat.eq_dec k (y_round (y_thr s u))); [right|left; lia]; auto).
  - assert (k < K) by (destruct (y_pc (y_thr s t)); destruct H as [H|[H [H'|H']]]; try discriminate; try contradiction; lia).
    destruct (y_pc (y_thr s u)); try contradiction; subst; cbn; try lia;
    (destruct (Nat.eq_dec k (y_round (y_thr s u))); [right|left; lia]; auto).
Qed.

Theorem sync_exclusive : forall s t u, ystate s -> t < N -> u < N -> inside s t -> inside s u -> t = u.
Proof.
  intros s t u E Ht Hu A B. destruct (ystate_inv s E) as [K I].
  apply (to_mutex _ _ _ _ _ (yi_thr _ _ _ I t Ht)) in A.
  apply (to_mutex _ _ _ _ _ (yi_thr _ _ _ I u Hu)) in B. congruence.
Qed.

Theorem sync_values : forall s t, ystate s -> t < N ->
  map snd (y_out (y_thr s t)) =
  map (fun k => match y_root c k with Some r => y_init c r k | None => y_init c t k end)
      (seq 0 (y_round (y_thr s t))).
Proof.
  intros s t E Ht. destruct (ystate_inv s E) as [K I].
  apply (to_out _ _ _ _ _ (yi_thr _ _ _ I t Ht)).
Qed.

Theorem sync_root_last : forall s r u k, ystate s -> u < N -> y_root c k = Some r ->
  passed s r k -> u = r \/ returned s u k.
Proof.
  intros s r u k E Hu R H. destruct (Nat.eq_dec u r) as [->|Hne]; [auto|right].
  destruct (ystate_inv s E) as [K I]. pose proof (proj2 W _ _ R) as Hr.
  pose proof (yi_thr _ _ _ I r Hr) as Or. pose proof (yi_thr _ _ _ I u Hu) as Ou.
  pose proof (to_phase _ _ _ _ _ Or) as A. pose proof (to_phase _ _ _ _ _ Ou) as B.
  pose proof (to_root _ _ _ _ _ Or) as C.
  pose proof (to_copy _ _ _ _ _ Ou) as D.
  unfold passed, returned in *. destruct (y_fin s) eqn:Hf; cbn in A, B.
  - assert (Hk : k < K \/ k = K) by (destruct (y_pc (y_thr s r)); destruct H as [H|[H [H'|H']]]; try discriminate; try contradiction; lia).
    destruct Hk as [Hk| ->].
    + destruct (y_pc (y_thr s u)); try contradiction; lia.
    + exfalso. specialize (C eq_refl R). destruct (y_pc (y_thr s r)) eqn:Hp; try discriminate C; try contradiction;
      destruct H as [H|[H [H'|H']]]; try discriminate; lia.
  - assert (Hk : k < K) by (destruct (y_pc (y_thr s r)); destruct H as [H|[H [H'|H']]]; try discriminate; try contradiction; lia).
    destruct (y_pc (y_thr s u)) eqn:Hp; try contradiction; try lia.
    + destruct (Nat.eq_dec k (y_round (y_thr s u))) as [Ek|]; [|lia]. subst k. destruct (D eq_refl (or_introl eq_refl) r R). congruence.
    + destruct (Nat.eq_dec k (y_round (y_thr s u))) as [Ek|]; [|lia]. subst k. destruct (D eq_refl (or_intror eq_refl) r R). congruence.
Qed.

(** The numbers seen in call [k] ([waiting()] between [startBarrier] and [waitBarrier]). *)
Theorem sync_numbers : forall s k, ystate s -> (forall t, t < N -> returned s t k) ->
  forall i, i < N -> exists t, t < N /\ option_map fst (nth_error (y_out (y_thr s t)) k) = Some i.
Proof.
  intros s k E H. destruct (ystate_inv s E) as [K I].
  set (num := fun t => match nth_error (y_out (y_thr s t)) k with Some (n, _) => n | None => 0 end).
  assert (Hsaw : forall t, t < N -> saw (y_thr s t) k (num t) /\
                   option_map fst (nth_error (y_out (y_thr s t)) k) = Some (num t)).
  { intros t Ht. unfold num.
    assert (L : length (y_out (y_thr s t)) = y_round (y_thr s t)).
    { pose proof (to_out _ _ _ _ _ (yi_thr _ _ _ I t Ht)) as A. apply (f_equal (@length _)) in A.
      rewrite !map_length, seq_length in A. exact A. }
    specialize (H t Ht). unfold returned in H.
    destruct (nth_error (y_out (y_thr s t)) k) as [[n v]|] eqn:X.
    - split; [|reflexivity]. right. rewrite X. auto.
    - apply nth_error_None in X. lia. }
  assert (P : incl (seq 0 N) (map num (seq 0 N))).
  { apply NoDup_length_incl.
    - apply NoDup_nth with (d := num 0). rewrite map_length, seq_length. intros i j Hi Hj A.
      rewrite !map_nth, !seq_nth in A by assumption. cbn in A.
      destruct (Nat.eq_dec i j) as [|Hne]; [assumption|exfalso].
      apply (yi_nums _ _ _ I i j k (num i) Hi Hj Hne); [apply Hsaw; assumption|].
      rewrite A. apply Hsaw; assumption.
    - rewrite map_length. reflexivity.
    - intros v Hv. apply in_map_iff in Hv. destruct Hv as (t & <- & Ht). apply in_seq in Ht.
      apply in_seq. split; [lia|].
      apply (to_bound _ _ _ _ _ (yi_thr _ _ _ I t ltac:(lia)) k). apply Hsaw. lia. }
  intros i Hi. assert (Q : In i (seq 0 N)) by (apply in_seq; lia).
  apply P, in_map_iff in Q. destruct Q as (t & <- & Ht). apply in_seq in Ht.
  exists t. split; [lia|]. apply Hsaw. lia.
Qed.

(** ** Progress *)
Definition y_can (s : yst V) : Prop := exists a s', ystep c s a = Some (Ok s').

Lemma step_can : forall s t o, ystate s -> t < N -> ystep_thr c s t = Some o -> y_can s.
Proof.
  intros s t o E Ht H. destruct (ystate_inv s E) as [K I].
  assert (A : ystep c s (YStep t) = Some o) by (cbn [ystep]; destruct (Nat.ltb_spec t N); [assumption|lia]).
  destruct (yinv_step K s _ o W Hsp I A) as (s' & K' & -> & _).
  exists (YStep t), s'. exact A.
Qed.

Theorem sync_progress : forall s, ystate s -> (exists t, t < N /\ ~ finished s t) -> y_can s.
Proof.
  intros s E (t0 & Ht0 & Hnf). destruct (ystate_inv s E) as [K I].
  destruct (y_mutex s) as [t|] eqn:Em.
  { (* the owner can go on *)
    pose proof (yi_own _ _ _ I t Em) as Ht.
    pose proof (proj2 (to_mutex _ _ _ _ _ (yi_thr _ _ _ I t Ht)) Em) as Hh.
    assert (exists o, ystep_thr c s t = Some o) as [o Ho]; [|apply (step_can s t o E Ht Ho)].
    unfold ystep_thr. cbv zeta. destruct (y_pc (y_thr s t)); try discriminate Hh.
    - destruct (S (y_synced s) =? N); eauto.
    - destruct (_ && _)%bool; eauto.
    - eauto.
    - destruct (y_root c _); [|eauto]. destruct (y_data s) as [[r k]|]; [|eauto].
      destruct (_ =? _); eauto.
    - eauto. }
  (* free mutex: is there a thread which wants it? *)
  set (wants := fun t => match y_pc (y_thr s t) with
                         | YOut => y_round (y_thr s t) <? y_rounds c
                         | YWakeF | YWakeC | YWakeL => true | _ => false end).
  assert (G : (exists t, t < N /\ wants t = true) \/ (forall t, t < N -> wants t = false)).
  { destruct (cnt wants N) eqn:C.
    - right. intros t Ht. destruct (wants t) eqn:X; [|reflexivity].
      pose proof (cnt_pos _ _ _ Ht X). lia.
    - left. apply cnt_ex. lia. }
  destruct G as [(t & Ht & Hw)|G].
  { assert (exists o, ystep_thr c s t = Some o) as [o Ho]; [|apply (step_can s t o E Ht Ho)].
    unfold ystep_thr, wants in *. cbv zeta. destruct (y_pc (y_thr s t)); try discriminate Hw;
      rewrite ?Hw, ?Em; eauto. }
  exfalso.
  assert (P : forall t, t < N -> match y_pc (y_thr s t) with
            | YOut => y_rounds c <= y_round (y_thr s t)
            | YSleepF | YSleepC | YSleepL => True | _ => False end).
  { intros t Ht. specialize (G t Ht). unfold wants in G.
    pose proof (to_mutex _ _ _ _ _ (yi_thr _ _ _ I t Ht)) as M. rewrite Em in M.
    destruct (y_pc (y_thr s t)); try discriminate G; auto;
      try (pose proof (proj1 M eq_refl); discriminate).
    apply Nat.ltb_ge in G. exact G. }
  destruct (y_fin s) eqn:Hf.
  - pose proof (yi_fin _ _ _ I) as F. rewrite Hf in F.
    pose proof (yi_synced _ _ _ I) as Sy. rewrite Sy in F.
    destruct (cnt_ex _ _ F) as (t & Ht & Hs). cbn in Hs.
    pose proof (P t Ht) as Pt. pose proof (yi_thr _ _ _ I t Ht) as O.
    pose proof (to_phase _ _ _ _ _ O) as A. rewrite Hf in A.
    destruct (y_pc (y_thr s t)) eqn:Hp; try discriminate Hs; try contradiction.
    pose proof (to_sleepl _ _ _ _ _ O Hp) as B. rewrite Sy in B.
    destruct (cnt_more _ _ t B) as (u & Hu & Hne & Hs'). cbn in Hs'.
    pose proof (P u Hu) as Pu. pose proof (yi_thr _ _ _ I u Hu) as Ou.
    pose proof (to_phase _ _ _ _ _ Ou) as A'. rewrite Hf in A'.
    destruct (y_pc (y_thr s u)) eqn:Hpu; try discriminate Hs'; try contradiction.
    pose proof (to_last _ _ _ _ _ O (or_introl Hp)).
    pose proof (to_last _ _ _ _ _ Ou (or_introl Hpu)). congruence.
  - pose proof (yi_fin _ _ _ I) as F. rewrite Hf in F.
    assert (Q : forall t, t < N -> y_pc (y_thr s t) = YSleepC \/
             (y_pc (y_thr s t) = YOut /\ y_round (y_thr s t) = K /\ y_rounds c <= K)).
    { intros t Ht. pose proof (P t Ht) as Pt.
      pose proof (to_phase _ _ _ _ _ (yi_thr _ _ _ I t Ht)) as A. rewrite Hf in A.
      destruct (y_pc (y_thr s t)); try contradiction; cbn in A; [right|left; reflexivity].
      subst K. auto. }
    destruct (Q t0 Ht0) as [Hp|(Hp & Hk & Hr)].
    + assert (C : cnt (fun t => in_s (y_pc (y_thr s t))) N = N).
      { apply cnt_all. intros t Ht. destruct (Q t Ht) as [->|(_ & _ & Hr)]; [reflexivity|exfalso].
        pose proof (yi_thr _ _ _ I t0 Ht0) as O.
        pose proof (to_phase _ _ _ _ _ O) as A. rewrite Hf, Hp in A. cbn in A.
        pose proof (proj2 (to_rounds _ _ _ _ _ O) ltac:(congruence)). lia. }
      rewrite <- (yi_synced _ _ _ I) in C. lia.
    + apply Hnf. split; [|exact Hp].
      pose proof (proj1 (to_rounds _ _ _ _ _ (yi_thr _ _ _ I t0 Ht0)) Hp). lia.
Qed.

(** ** Termination *)
Definition yrank (p : ypc) : nat :=
  match p with
  | YOut => 0 | YSleepF => 1 | YWakeF => 2 | YIn => 3 | YSleepC => 4 | YWakeC => 5
  | YCheck => 6 | YSleepL => 7 | YWakeL => 8 | YLeave => 9 | YCopy => 10 | YEnd => 11
  end.
Definition ypos (x : ythr V) : nat := 12 * y_round x + yrank (y_pc x).
Fixpoint ysum (f : nat -> nat) (n : nat) : nat :=
  match n with 0 => 0 | S m => f m + ysum f m end.

Lemma ysum_le : forall n f g, (forall t, t < n -> f t <= g t) -> ysum f n <= ysum g n.
Proof.
  induction n; intros f g H; cbn; [lia|]. pose proof (H n ltac:(lia)).
  pose proof (IHn f g ltac:(intros; apply H; lia)). lia.
Qed.
Lemma ysum_lt : forall n f g t, t < n -> (forall t, t < n -> f t <= g t) -> f t < g t -> ysum f n < ysum g n.
Proof.
  induction n; intros f g t Ht H Hlt; cbn; [lia|]. pose proof (H n ltac:(lia)).
  destruct (Nat.eq_dec t n) as [->|].
  - pose proof (ysum_le n f g ltac:(intros; apply H; lia)). lia.
  - pose proof (IHn f g t ltac:(lia) ltac:(intros; apply H; lia) Hlt). lia.
Qed.
Lemma ysum_const : forall n m, ysum (fun _ => m) n = n * m.
Proof. induction n; intros m; cbn; [reflexivity|]. rewrite IHn. lia. Qed.
End Safe.

Lemma wake_rank : forall (p p' : ypc) (x : ythr V), yrank p <= yrank p' -> (p = YSleepF \/ p = YSleepC \/ p = YSleepL) ->
  ypos x <= ypos (if ypc_eq (y_pc x) p then YThr p' (y_round x) (y_var x) (y_num x) (y_out x) else x).
Proof.
  intros p p' x H Hp. destruct (ypc_eq (y_pc x) p) eqn:E; [|lia]. unfold ypos; cbn [y_pc y_round].
  assert (y_pc x = p) by (destruct (y_pc x), Hp as [->|[->| ->]]; try discriminate; reflexivity).
  subst p. lia.
Qed.

Lemma ystep_up : forall s a s', ystep c s a = Some (Ok s') ->
  (forall t, ypos (y_thr s t) <= ypos (y_thr s' t)) /\
  exists t, t < N /\ ypos (y_thr s t) < ypos (y_thr s' t).
Proof.
  assert (G : forall (f g : nat -> ythr V) t, t < N -> (forall u, u <> t -> ypos (f u) <= ypos (g u)) ->
     ypos (f t) < ypos (g t) ->
     (forall u, ypos (f u) <= ypos (g u)) /\ exists u, u < N /\ ypos (f u) < ypos (g u)).
  { intros f g t Ht H1 H2. split; [|eauto]. intros u. destruct (Nat.eq_dec u t) as [->|]; [lia|auto]. }
  assert (G1 : forall (f : nat -> ythr V) t x, t < N -> ypos (f t) < ypos x ->
     (forall u, ypos (f u) <= ypos (upd f t x u)) /\ exists u, u < N /\ ypos (f u) < ypos (upd f t x u)).
  { intros f t x Ht H. apply (G f (upd f t x) t Ht); [|rewrite upd_eq; exact H].
    intros u Hu. rewrite upd_ne by assumption. lia. }
  intros s a s' E. destruct a as [t|t]; cbn [ystep] in E; (destruct (Nat.ltb_spec t N) as [Ht|]; [|discriminate]).
  - unfold ystep_thr in E. cbv zeta in E. destruct (y_pc (y_thr s t)) eqn:Hp; try discriminate E.
    + destruct (_ <? _); [|discriminate]. destruct (y_mutex s); [discriminate|]. injection E as <-.
      cbn [y_fin y_lock]. destruct (y_fin s); cbn; apply G1; auto; unfold ypos; cbn; rewrite Hp; cbn; lia.
    + destruct (y_mutex s); [discriminate|]. injection E as <-.
      cbn; apply G1; auto; unfold ypos; cbn; rewrite Hp; cbn; lia.
    + destruct (_ =? _); injection E as <-.
      * cbn [y_thr y_goto y_set]. apply (G _ _ t Ht).
        -- intros u Hu. rewrite upd_ne by assumption. cbn [y_thr y_wake]. rewrite upd_ne by assumption.
           apply wake_rank; [cbn; lia|auto].
        -- rewrite upd_eq. unfold ypos. cbn [y_thr y_wake y_round y_pc]. rewrite !upd_eq. cbn. rewrite Hp. cbn; lia.
      * cbn [y_thr y_goto y_set y_lock]. apply (G _ _ t Ht).
        -- intros u Hu. rewrite !upd_ne by assumption. lia.
        -- rewrite !upd_eq. unfold ypos. cbn. rewrite Hp. cbn; lia.
    + destruct (y_mutex s); [discriminate|]. injection E as <-.
      cbn; apply G1; auto; unfold ypos; cbn; rewrite Hp; cbn; lia.
    + destruct (_ && _)%bool; injection E as <-;
      cbn; apply G1; auto; unfold ypos; cbn; rewrite Hp; cbn; lia.
    + destruct (y_mutex s); [discriminate|]. injection E as <-.
      cbn; apply G1; auto; unfold ypos; cbn; rewrite Hp; cbn; lia.
    + injection E as <-. set (s1 := YSt _ _ _ _ _ _). set (b := andb _ _).
      set (s2 := if b then y_wake s1 YSleepL YWakeL else s1).
      assert (A2 : forall u, ypos (y_thr s u) <= ypos (y_thr s2 u) /\
                     (u = t -> y_round (y_thr s2 u) = y_round (y_thr s u) /\ yrank (y_pc (y_thr s2 u)) <= 9)).
      { intros u. subst s2. destruct b; cbn [y_thr y_wake s1].
        - split; [apply wake_rank; [cbn; lia|auto]|]. intros ->. rewrite Hp. cbn [ypc_eq]. rewrite Hp. cbn; split; [reflexivity|lia].
        - split; [lia|]. intros ->. rewrite Hp. cbn; split; [reflexivity|lia]. }
      set (s3 := if y_synced s2 =? 0 then _ else s2).
      assert (A3 : forall u, ypos (y_thr s2 u) <= ypos (y_thr s3 u) /\
                     (u = t -> y_round (y_thr s3 u) = y_round (y_thr s u) /\ yrank (y_pc (y_thr s3 u)) <= 9)).
      { intros u. destruct (A2 u) as [_ A]. subst s3. destruct (y_synced s2 =? 0); cbn [y_thr y_wake].
        - split; [apply wake_rank; [cbn; lia|auto]|]. intros Eu. destruct (A Eu) as [A' A''].
          destruct (ypc_eq (y_pc (y_thr s2 u)) YSleepF); cbn [y_round y_pc]; split; auto; cbn; lia.
        - split; [lia|]. exact A. }
      cbn [y_thr y_goto y_set]. apply (G _ _ t Ht).
      * intros u Hu. rewrite upd_ne by assumption. pose proof (proj1 (A2 u)). pose proof (proj1 (A3 u)). lia.
      * rewrite upd_eq. unfold ypos. cbn [y_round y_pc]. rewrite (proj1 (proj2 (A3 t) eq_refl)), Hp. cbn. lia.
    + destruct (y_root c _).
      * destruct (y_data s) as [[r k]|]; [|discriminate]. destruct (_ =? _); [|discriminate].
        injection E as <-. cbn; apply G1; auto; unfold ypos; cbn; rewrite Hp; cbn; lia.
      * injection E as <-. cbn; apply G1; auto; unfold ypos; cbn; rewrite Hp; cbn; lia.
    + injection E as <-. cbn; apply G1; auto; unfold ypos; cbn [y_pc y_round yrank]; rewrite Hp; cbn [yrank]; lia.
  - unfold ystep_spur in E. destruct (y_spurious c); [|discriminate].
    destruct (y_pc (y_thr s t)) eqn:Hp; try discriminate E; injection E as <-;
    cbn; apply G1; auto; unfold ypos; cbn; rewrite Hp; cbn; lia.
Qed.

Lemma yrun_up : forall l s s', yrun c s l = Some (Ok s') ->
  ysum (fun t => ypos (y_thr s t)) N + length l <= ysum (fun t => ypos (y_thr s' t)) N.
Proof.
  induction l as [|a l IH]; intros s s' E; cbn in E.
  - injection E as <-. cbn. lia.
  - destruct (ystep c s a) as [[s1|]|] eqn:Ea; try discriminate.
    destruct (ystep_up s a s1 Ea) as [A (t & Ht & B)].
    pose proof (ysum_lt N (fun t => ypos (y_thr s t)) (fun t => ypos (y_thr s1 t)) t Ht ltac:(intros; apply A) B).
    pose proof (IH _ _ E). cbn [length]. lia.
Qed.

Theorem sync_terminates : wf_ycfg c -> y_spurious c = false ->
  forall l s, yrun c (yinit c) l = Some (Ok s) -> length l <= 12 * N * y_rounds c.
Proof.
  intros W Hsp l s E. pose proof (yrun_up l _ _ E) as A.
  destruct (ystate_inv W Hsp s (ex_intro _ l E)) as [K I].
  assert (B : ysum (fun t => ypos (y_thr s t)) N <= ysum (fun _ => 12 * y_rounds c) N).
  { apply ysum_le. intros t Ht. pose proof (to_rounds _ _ _ _ _ (yi_thr _ _ _ I t Ht)) as [B1 B2].
    unfold ypos. destruct (y_pc (y_thr s t)); cbn [yrank];
      first [ specialize (B1 eq_refl); lia | specialize (B2 ltac:(discriminate)); lia ]. }
  rewrite ysum_const in B. nia.
Qed.
End Facts.

(** ** With spurious wake-ups *)
Section Any.
Context {V : Type} (c : ycfg V).
Definition excl (s : yst V) : Prop :=
  forall t, y_holds (y_pc (y_thr s t)) = true <-> y_mutex s = Some t.

Lemma wake_holds : forall (p p' : ypc) (x : ythr V), y_holds p = false -> y_holds p' = false ->
  (p = YSleepF \/ p = YSleepC \/ p = YSleepL) ->
  y_holds (y_pc (if ypc_eq (y_pc x) p then YThr p' (y_round x) (y_var x) (y_num x) (y_out x) else x)) = y_holds (y_pc x).
Proof.
  intros p p' x H H' Hp. destruct (ypc_eq (y_pc x) p) eqn:E; [|reflexivity].
  assert (y_pc x = p) by (destruct (y_pc x), Hp as [->|[->| ->]]; try discriminate; reflexivity).
  cbn. congruence.
Qed.

Lemma excl_step : forall s a s', excl s -> ystep c s a = Some (Ok s') -> excl s'.
Proof.
  assert (G : forall (s : yst V) (f : nat -> ythr V) t x m m' n l i d,
     excl s -> (forall u, y_holds (y_pc (f u)) = y_holds (y_pc (y_thr s u))) ->
     (m = None \/ m = Some t) -> m = y_mutex s -> m' = (if y_holds (y_pc x) then Some t else None) ->
     excl (YSt m' n l i d (upd f t x))).
  { intros s f t x m m' n l i d I Hf Hm -> -> u. cbn [y_thr y_mutex]. destruct (Nat.eq_dec u t) as [->|Hne].
    - rewrite upd_eq. destruct (y_holds (y_pc x)); split; congruence.
    - rewrite upd_ne by assumption. rewrite Hf, (I u). destruct Hm as [Hm|Hm]; rewrite Hm.
      + destruct (y_holds (y_pc x)); split; congruence.
      + destruct (y_holds (y_pc x)); split; congruence. }
  intros s a s' I E. destruct a as [t|t]; cbn [ystep] in E; (destruct (Nat.ltb_spec t (y_n c)) as [Ht|]; [|discriminate]).
  - pose proof (I t) as It. unfold ystep_thr in E. cbv zeta in E.
    destruct (y_pc (y_thr s t)) eqn:Hp; try discriminate E; cbn [y_holds] in It.
    + destruct (_ <? _); [|discriminate]. destruct (y_mutex s) eqn:Hm; [discriminate|]. injection E as <-.
      cbn [y_fin y_lock]. destruct (y_fin s); eapply (G s (y_thr s) t _ None); eauto.
    + destruct (y_mutex s) eqn:Hm; [discriminate|]. injection E as <-. eapply (G s (y_thr s) t _ None); eauto.
    + pose proof (proj1 It eq_refl) as Hm.
      assert (A : forall x u, y_pc x = YIn -> y_holds (y_pc (upd (y_thr s) t x u)) = y_holds (y_pc (y_thr s u))).
      { intros x u Hx. destruct (Nat.eq_dec u t) as [->|]; [rewrite upd_eq, Hp, Hx; reflexivity|rewrite upd_ne by assumption; reflexivity]. }
      destruct (_ =? _); injection E as <-.
      * eapply (G s _ t _ (Some t)); eauto. intros u. cbn [y_thr y_wake]. rewrite wake_holds by auto. apply A. reflexivity.
      * eapply (G s _ t _ (Some t)); eauto.
    + destruct (y_mutex s) eqn:Hm; [discriminate|]. injection E as <-. eapply (G s (y_thr s) t _ None); eauto.
    + pose proof (proj1 It eq_refl) as Hm.
      destruct (_ && _)%bool; injection E as <-; eapply (G s (y_thr s) t _ (Some t)); eauto.
    + destruct (y_mutex s) eqn:Hm; [discriminate|]. injection E as <-. eapply (G s (y_thr s) t _ None); eauto.
    + pose proof (proj1 It eq_refl) as Hm. injection E as <-. set (s1 := YSt _ _ _ _ _ _). set (b := andb _ _).
      set (s2 := if b then y_wake s1 YSleepL YWakeL else s1).
      assert (A2 : (forall u, y_holds (y_pc (y_thr s2 u)) = y_holds (y_pc (y_thr s u))) /\ y_mutex s2 = y_mutex s).
      { subst s2. destruct b; split; try reflexivity. intros u. apply wake_holds; auto. }
      destruct A2 as [A2 M2]. set (s3 := if y_synced s2 =? 0 then _ else s2).
      assert (A3 : (forall u, y_holds (y_pc (y_thr s3 u)) = y_holds (y_pc (y_thr s u))) /\ y_mutex s3 = y_mutex s).
      { subst s3. destruct (y_synced s2 =? 0); split; auto. intros u. rewrite <- A2. apply wake_holds; auto. }
      destruct A3 as [A3 M3]. eapply (G s _ t _ (Some t)); eauto. cbn. rewrite M3. exact Hm.
    + pose proof (proj1 It eq_refl) as Hm. destruct (y_root c _).
      * destruct (y_data s) as [[r k]|]; [|discriminate]. destruct (_ =? _); [|discriminate].
        injection E as <-. eapply (G s (y_thr s) t _ (Some t)); eauto.
      * injection E as <-. eapply (G s (y_thr s) t _ (Some t)); eauto.
    + pose proof (proj1 It eq_refl) as Hm. injection E as <-. eapply (G s (y_thr s) t _ (Some t)); eauto.
  - pose proof (I t) as It. unfold ystep_spur in E. destruct (y_spurious c); [|discriminate].
    assert (X : forall p, y_holds p = false -> y_holds (y_pc (y_thr s t)) = false -> excl (y_goto s t p)).
    { intros p Hq Hh u. unfold y_goto, y_set. cbn [y_thr y_mutex]. destruct (Nat.eq_dec u t) as [->|].
      - rewrite upd_eq. cbn. rewrite Hq, <- Hh. apply I.
      - rewrite upd_ne by assumption. apply I. }
    destruct (y_pc (y_thr s t)) eqn:Hp; try discriminate E; injection E as <-; apply X; rewrite ?Hp; reflexivity.
Qed.

Theorem sync_exclusive_any : forall s t u, ystate c s -> inside s t -> inside s u -> t = u.
Proof.
  intros s t u [l E]. assert (I : excl s).
  { assert (G : forall l s s', excl s -> yrun c s l = Some (Ok s') -> excl s').
    { clear. induction l as [|a l IH]; intros s s' I E; cbn in E; [injection E as <-; exact I|].
      destruct (ystep c s a) as [[s1|]|] eqn:X; try discriminate. eapply IH; [|exact E]. eapply excl_step; eauto. }
    eapply G; [|exact E]. intros v. cbn. split; discriminate. }
  unfold inside. rewrite (I t), (I u). congruence.
Qed.
End Any.
