(** * Property level lemmas about the cache bookkeeping *)
From Verif Require Export LruTrace.

Lemma spread_ok n spread : 0 < n -> (spread < Z.of_nat n)%Z -> eff_spread n spread < n.
Proof. intros Hn Hs. unfold eff_spread. destruct (Z.ltb_spec spread 0); [apply Nat.div_lt; lia|lia]. Qed.

Lemma bookkeeping n spread bs :
  0 < n -> (spread < Z.of_nat n)%Z ->
  exists c0 c outs, clist_init n spread = Ok c0 /\ clist_trace c0 bs = Ok (c, outs) /\
    cached c0 = [] /\
    NoDup (cached c) /\ length (cached c) <= n /\
    (forall b i, c_b2i c b = Some i <-> i < n /\ m_at (c_i2b c) i = Some (Some b)) /\
    (forall b, In b (cached c) <-> exists i, c_b2i c b = Some i) /\
    (forall b, exists c' i old, clist_request c b = Ok (c', i, old) /\ i < n /\
       c_b2i c' b = Some i /\
       (In b (cached c) -> old = Some b) /\ (~ In b (cached c) -> old <> Some b) /\
       (forall x, old = Some x -> In x (cached c)) /\
       (forall b', In b' (cached c') <-> b' = b \/ (In b' (cached c) /\ old <> Some b')) /\
       (forall b', b' <> b -> In b' (cached c') -> c_b2i c' b' = c_b2i c b')).
Proof.
  intros Hn Hs. pose proof (spread_ok n spread Hn Hs) as Hh.
  destruct (clist_init_spec n spread Hn Hh) as (c0 & E0 & Hinv0 & Hb0 & Hi0 & _).
  destruct (clist_trace_inv n _ 0 c0 bs Hinv0) as (c & outs & t & Et & _ & Hinv).
  exists c0, c, outs. split; auto. split; auto. split.
  { destruct (cached c0) as [|x l] eqn:Ec; auto. exfalso.
    assert (In x (cached c0)) as Hx by (rewrite Ec; now left).
    apply (cached_In _ _ _ _ _ Hinv0) in Hx. now rewrite Hb0 in Hx. }
  split; [eapply cached_NoDup; eauto|]. split; [eapply cached_length; eauto|].
  split; [exact (ci_inv _ _ _ _ Hinv)|]. split.
  { intros b. rewrite (cached_In _ _ _ _ _ Hinv). destruct (c_b2i c b); split; eauto; try congruence.
    intros [? ?]; discriminate. }
  intros b. destruct (clist_request_spec n _ t c b Hinv) as (c' & i & old & t' & E & _ & Hinv' & Heff).
  exists c', i, old. split; auto. destruct Heff as (Hi & Ha & Hb & Heff). split; auto. split; auto.
  destruct Heff as [(-> & Hcb & Ei & Eb)|(Hcb & Hold & Hne & Hi2b & Hb')].
  - assert (In b (cached c)) as Hin by (apply (cached_In _ _ _ _ _ Hinv); congruence).
    split; auto. split; [tauto|]. split; [intros x [= <-]; auto|]. split.
    + intros b'. rewrite (cached_In _ _ _ _ _ Hinv'), (cached_In _ _ _ _ _ Hinv). rewrite Eb.
      destruct (Nat.eq_dec b' b) as [->|Hbb].
      * split; [auto|]. intros _. congruence.
      * split; [|tauto]. intros H. right. split; auto. congruence.
    + intros b' _ _. now rewrite Eb.
  - assert (~ In b (cached c)) as Hin by (rewrite (cached_In _ _ _ _ _ Hinv); congruence).
    assert (forall x, old = Some x -> In x (cached c)) as Hx.
    { intros x ->. apply (cached_In _ _ _ _ _ Hinv).
      assert (c_b2i c x = Some i) by (apply (ci_inv _ _ _ _ Hinv); auto). congruence. }
    split; [tauto|]. split; auto. split; auto. split.
    + intros b'. rewrite (cached_In _ _ _ _ _ Hinv'), (cached_In _ _ _ _ _ Hinv).
      destruct (Nat.eq_dec b' b) as [->|Hbb].
      * split; [auto|]. intros _. congruence.
      * rewrite Hb' by auto. destruct old as [ob|].
        -- destruct (Nat.eqb_spec b' ob) as [->|Hbo].
           ++ split; [tauto|]. intros [?|[_ ?]]; congruence.
           ++ split; [|tauto]. intros H. right. split; auto. congruence.
        -- split; [|tauto]. intros H. right. split; [auto|discriminate].
    + intros b' Hbb Hin'. rewrite Hb' by auto. destruct old as [ob|]; auto.
      destruct (Nat.eqb_spec b' ob) as [->|]; auto.
      apply (cached_In _ _ _ _ _ Hinv') in Hin'. rewrite Hb', Nat.eqb_refl in Hin' by auto. congruence.
Qed.

Lemma victim_search n spread ops :
  0 < n -> (spread < Z.of_nat n)%Z -> Forall (op_ok n) ops ->
  exists l l' ess, lru_init n spread = Ok l /\ lru_run_ev l ops = Ok (l', ess) /\
    length ess = length ops /\
    Forall (fun es => moves es <= n /\ forall i, In (EPick i) es -> i < n) ess /\
    (forall pre i mid post, concat ess = pre ++ EUse i :: mid ++ EPick i :: post -> In (EClear i) mid).
Proof.
  intros Hn Hs Ho. pose proof (spread_ok n spread Hn Hs) as Hh.
  destruct (lru_init_spec n spread Hn Hh) as (l & E & Hinv & _).
  destruct (lru_run_ev_spec n _ 0 l [] ops Hinv) as (l' & ess & Er & Hl & _ & Hf); auto.
  { intros k. discriminate. }
  { exact I. }
  exists l, l', ess. split; auto. split; auto. split; auto. split; auto.
  eapply second_chance_run; eauto.
Qed.

Lemma first_lap_facts n spread bs :
  0 < n -> (spread < Z.of_nat n)%Z -> length (nodup Nat.eq_dec bs) <= n ->
  exists c0 c outs, clist_init n spread = Ok c0 /\ clist_trace c0 bs = Ok (c, outs) /\
    forall k b, nth_error bs k = Some b ->
      exists i, nth_error outs k = Some (i, if in_dec Nat.eq_dec b (firstn k bs) then Some b else None).
Proof.
  intros Hn Hs Hd. pose proof (spread_ok n spread Hn Hs) as Hh.
  destruct (first_lap_init n spread Hn Hh) as (c0 & E0 & Hfl).
  destruct (first_lap_trace n _ [] c0 bs Hfl) as (c & outs & Et & Hk); [now rewrite app_nil_r|].
  exists c0, c, outs. split; auto. split; auto. intros k b Hb.
  destruct (Hk k b Hb) as [i Ei]. exists i. rewrite Ei, app_nil_r. reflexivity.
Qed.

(** ** C18 *)
Lemma oversized_spread n spread b :
  0 < n -> (Z.of_nat n <= spread)%Z -> (do c <- clist_init n spread; clist_request c b) = Ub.
Proof.
  intros Hn Hs. unfold clist_init, lru_init.
  destruct (Z.ltb_spec spread 0); [lia|].
  destruct (Z.eq_dec spread (Z.of_nat n)) as [->|Hne].
  - rewrite Nat2Z.id. destruct (lru_clear_first_spec n n ltac:(lia)) as (m & E & Hl & Hm).
    rewrite E. cbn. unfold clist_get_free, lru_get_free. cbn [c_lru l_size].
    destruct n as [|n']; [lia|]. cbn [lru_loop]. unfold lru_iter. cbn [l_ref l_clear].
    unfold mem_wr. rewrite Hl. rewrite (proj2 (Nat.ltb_ge (S n') (S n'))) by lia. reflexivity.
  - rewrite lru_clear_first_ub by lia. reflexivity.
Qed.

Lemma oversized_spread_refuted :
  exists n spread b, 0 < n /\ (do c <- clist_init n spread; clist_request c b) = Ub.
Proof. exists 16, 16%Z, 0. split; [repeat constructor|reflexivity]. Qed.

Lemma small_spread_safe n spread bs :
  0 < n -> (spread < Z.of_nat n)%Z -> (do c <- clist_init n spread; clist_trace c bs) <> Ub.
Proof.
  intros Hn Hs. destruct (bookkeeping n spread bs Hn Hs) as (c0 & c & outs & E & Et & _).
  rewrite E. cbn [obind]. congruence.
Qed.
