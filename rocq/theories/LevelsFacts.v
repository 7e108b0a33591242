(** * Property level lemmas about loading, levels and counters *)
From Verif Require Export BlockedFacts CounterProofs.

Section Facts.
  Context {V : Type}.

  (** What a user expects from loading a block at [off] of extents [bs] into a
      buffer starting at [base]. *)
  Definition loads_block (f : file V) (off bs : list nat) (base : nat) (m m' : mem V) : Prop :=
    m_len m' = m_len m /\
    (forall k, in_box bs k -> in_box (f_size f) (ix_add off k) ->
       m_at m' (base + row_major bs k) = Some (f_val f (ix_add off k))) /\
    (forall p, p < base \/ base + volume bs <= p -> m_at m' p = m_at m p).

  Lemma load_facts (opaque : bool) (f : file V) off bs base m :
    f_size f <> [] -> in_box (f_size f) off -> length bs = length (f_size f) ->
    Forall (fun b => 0 < b) bs -> base + volume bs <= m_len m ->
    (exists m', get_block opaque f off bs base m = Ok m' /\ loads_block f off bs base m m') /\
    (forall k, in_box (act_size (f_size f) off bs) k -> in_box (f_size f) (ix_add off k)).
  Proof.
    intros H1 H2 H3 H4 H5. split; [|now apply requested_inside].
    exact (get_block_spec opaque f off bs base m H1 H2 H3 H4 H5).
  Qed.

  Lemma opaque_strided (f : file V) off bs base m :
    f_size f <> [] -> in_box (f_size f) off -> length bs = length (f_size f) ->
    Forall (fun b => 0 < b) bs -> base + volume bs <= m_len m ->
    exists m1 m2, get_block true f off bs base m = Ok m1 /\ get_block false f off bs base m = Ok m2 /\
      (forall k, in_box bs k -> in_box (f_size f) (ix_add off k) ->
         m_at m1 (base + row_major bs k) = m_at m2 (base + row_major bs k) /\
         m_at m1 (base + row_major bs k) = Some (f_val f (ix_add off k))) /\
      (forall p, p < base \/ base + volume bs <= p -> m_at m1 p = m_at m p).
  Proof.
    intros H1 H2 H3 H4 H5.
    destruct (get_block_spec true f off bs base m H1 H2 H3 H4 H5) as (m1 & E1 & L1 & A1 & O1).
    destruct (get_block_spec false f off bs base m H1 H2 H3 H4 H5) as (m2 & E2 & L2 & A2 & O2).
    exists m1, m2. split; auto. split; auto. split; auto.
    intros k Hk Hk'. rewrite A1, A2 by auto. auto.
  Qed.

  Lemma geom_wf (f : file V) user td arr0 bl opaque :
    f_size f <> [] -> blocked_open (f_size f) user td arr0 = Ok bl -> wf_geom (Geom bl f opaque).
  Proof.
    intros Hd E. destruct (blocked_open_spec _ _ _ _ _ E) as (Hwf & Hsz & _). now constructor.
  Qed.

  Lemma full_facts (f : file V) user td arr0 bl opaque mode :
    f_size f <> [] -> blocked_open (f_size f) user td arr0 = Ok bl ->
    let g := Geom bl f opaque in
    let d := Dist mode 1 1 (b_total bl) in
    exists m, full_open g d 0 = Ok m /\
      forall ixs, Forall (in_box (f_size f)) ixs ->
        exists c, full_run g d (domain_base g d 0) m counters0 ixs
                  = Ok (c, map (fun ix => Some (f_val f ix)) ixs) /\
          ((Z.of_nat (length ixs) < 2 ^ 64)%Z -> reported c (repeat KHit (length ixs))).
  Proof.
    intros Hd E g d. pose proof (geom_wf f user td arr0 bl opaque Hd E) as Hg. fold g in Hg.
    assert (HP : 0 < d_ranks d) by (cbn; lia). assert (HD : 0 < d_domains d) by (cbn; lia).
    destruct (full_open_spec g Hg d HP HD eq_refl 0 HP) as (m & Em & Hst).
    exists m. split; auto. intros ixs Hi. eexists. split.
    - apply (full_run_spec g Hg d HP HD eq_refl); auto.
    - intros Hl. apply reported_count_all. now rewrite repeat_length.
  Qed.

  Lemma cache_facts (f : file V) user td arr0 bl opaque n spread :
    f_size f <> [] -> blocked_open (f_size f) user td arr0 = Ok bl ->
    0 < n -> (spread < Z.of_nat n)%Z ->
    let g := Geom bl f opaque in
    exists s, cache_open g n spread = Ok s /\
      forall ixs, Forall (in_box (f_size f)) ixs ->
        exists s', cache_run g s ixs = Ok (s', map (fun ix => Some (f_val f ix)) ixs) /\
          length (cache_kinds g s ixs) = length ixs /\
          ((Z.of_nat (length ixs) < 2 ^ 64)%Z -> reported (cs_cnt s') (cache_kinds g s ixs)).
  Proof.
    intros Hd E Hn Hs g. pose proof (geom_wf f user td arr0 bl opaque Hd E) as Hg. fold g in Hg.
    assert (eff_spread n spread < n) as Hh.
    { unfold eff_spread. destruct (Z.ltb_spec spread 0); [apply Nat.div_lt; lia|lia]. }
    destruct (cache_open_spec g n spread Hn Hh) as (s & Es & Hok & Hc & _).
    exists s. split; auto. intros ixs Hi.
    destruct (cache_run_spec g Hg n _ s ixs Hok Hi) as (s' & Er & _). exists s'. split; auto.
    destruct (cache_counters g Hg n _ s ixs s' _ Hok Hi Er) as [Hc' Hl]. split; auto.
    intros Hlen. rewrite Hc', Hc. apply reported_count_all. now rewrite Hl.
  Qed.

  Lemma fd_facts (f : file V) user td arr0 bl opaque mode P D p mp n spread :
    f_size f <> [] -> blocked_open (f_size f) user td arr0 = Ok bl ->
    0 < P -> 0 < D -> 0 < n -> (spread < Z.of_nat n)%Z ->
    (mp = PMpiNo -> p <> PNumaNo /\ P = 1) ->
    let g := Geom bl f opaque in
    let d := Dist mode P D (b_total bl) in
    exists s, fd_open g d n spread = Ok s /\
      forall rs, Forall (fun '(r, dom, ix) => r < P /\ dom < D /\ in_box (f_size f) ix) rs ->
        exists s', fd_run p mp g d s rs = Ok (s', map (fun '(_, _, ix) => Some (f_val f ix)) rs) /\
          forall r dom,
            length (fd_kinds p mp g d s rs r dom) =
              length (filter (fun '(r', dom', _) => (r' =? r) && (dom' =? dom)) rs) /\
            ((Z.of_nat (length rs) < 2 ^ 64)%Z ->
             reported (fd_cnt s' r dom) (fd_kinds p mp g d s rs r dom)).
  Proof.
    intros Hd E HP HD Hn Hs Hmp g d. pose proof (geom_wf f user td arr0 bl opaque Hd E) as Hg. fold g in Hg.
    assert (eff_spread n spread < n) as Hh.
    { unfold eff_spread. destruct (Z.ltb_spec spread 0); [apply Nat.div_lt; lia|lia]. }
    destruct (fd_open_spec g Hg d HP HD eq_refl n spread Hn Hh) as (s & Es & Hok & Hc).
    exists s. split; auto. intros rs Hrs.
    destruct (fd_run_spec g Hg d HP HD eq_refl p mp n _ s rs Hmp Hok Hrs) as (s' & Er & _).
    exists s'. split; auto. intros r dom.
    destruct (fd_counters g Hg d HP HD eq_refl p mp n _ s rs s' _ r dom Hmp Hok Hrs Er) as [Hc' Hl].
    split; auto. intros Hlen. rewrite Hc', Hc. apply reported_count_all. rewrite Hl.
    assert (length (filter (fun '(r', dom', _) => (r' =? r) && (dom' =? dom)) rs) <= length rs).
    { clear. induction rs as [|[[r' dom'] ix] rs IH]; cbn; auto.
      destruct ((r' =? r) && (dom' =? dom)); cbn; lia. }
    lia.
  Qed.

  Lemma pass_facts opaque (f : file V) threads rs :
    f_size f <> [] -> Forall (fun '(t, ix) => t < threads /\ in_box (f_size f) ix) rs ->
    exists m' c, pass_seq opaque f (pass_open threads) counters0 rs =
                 Ok (m', c, map (fun '(_, ix) => Some (f_val f ix)) rs) /\
      ((Z.of_nat (length rs) < 2 ^ 64)%Z -> reported c (repeat KFile (length rs))).
  Proof.
    intros Hd H. destruct (pass_seq_spec opaque f (pass_open threads) counters0 rs Hd H) as (m' & E).
    eexists m', _. split; [exact E|]. intros Hl. apply reported_count_all. now rewrite repeat_length.
  Qed.

  (** The values alone. *)
  Lemma full_values (f : file V) user td arr0 bl opaque mode :
    f_size f <> [] -> blocked_open (f_size f) user td arr0 = Ok bl ->
    let g := Geom bl f opaque in
    let d := Dist mode 1 1 (b_total bl) in
    exists m, full_open g d 0 = Ok m /\
      forall ixs, Forall (in_box (f_size f)) ixs ->
        exists c, full_run g d (domain_base g d 0) m counters0 ixs
                  = Ok (c, map (fun ix => Some (f_val f ix)) ixs).
  Proof.
    intros Hd E g d. destruct (full_facts f user td arr0 bl opaque mode Hd E) as (m & Em & H).
    exists m. split; auto. intros ixs Hi. destruct (H ixs Hi) as (c & Ec & _). eauto.
  Qed.

  Lemma cache_values (f : file V) user td arr0 bl opaque n spread :
    f_size f <> [] -> blocked_open (f_size f) user td arr0 = Ok bl ->
    0 < n -> (spread < Z.of_nat n)%Z ->
    let g := Geom bl f opaque in
    exists s, cache_open g n spread = Ok s /\
      forall ixs, Forall (in_box (f_size f)) ixs ->
        exists s', cache_run g s ixs = Ok (s', map (fun ix => Some (f_val f ix)) ixs).
  Proof.
    intros Hd E Hn Hs g. pose proof (geom_wf f user td arr0 bl opaque Hd E) as Hg. fold g in Hg.
    assert (eff_spread n spread < n) as Hh.
    { unfold eff_spread. destruct (Z.ltb_spec spread 0); [apply Nat.div_lt; lia|lia]. }
    destruct (cache_open_spec g n spread Hn Hh) as (s & Es & Hok & Hc & _).
    exists s. split; auto. intros ixs Hi.
    destruct (cache_run_spec g Hg n _ s ixs Hok Hi) as (s' & Er & _). eauto.
  Qed.

  Lemma fd_values (f : file V) user td arr0 bl opaque mode P D p mp n spread :
    f_size f <> [] -> blocked_open (f_size f) user td arr0 = Ok bl ->
    0 < P -> 0 < D -> 0 < n -> (spread < Z.of_nat n)%Z ->
    (mp = PMpiNo -> p <> PNumaNo /\ P = 1) ->
    let g := Geom bl f opaque in
    let d := Dist mode P D (b_total bl) in
    exists s, fd_open g d n spread = Ok s /\
      forall rs, Forall (fun '(r, dom, ix) => r < P /\ dom < D /\ in_box (f_size f) ix) rs ->
        exists s', fd_run p mp g d s rs = Ok (s', map (fun '(_, _, ix) => Some (f_val f ix)) rs).
  Proof.
    intros Hd E HP HD Hn Hs Hmp g d. pose proof (geom_wf f user td arr0 bl opaque Hd E) as Hg. fold g in Hg.
    assert (eff_spread n spread < n) as Hh.
    { unfold eff_spread. destruct (Z.ltb_spec spread 0); [apply Nat.div_lt; lia|lia]. }
    destruct (fd_open_spec g Hg d HP HD eq_refl n spread Hn Hh) as (s & Es & Hok & Hc).
    exists s. split; auto. intros rs Hrs.
    destruct (fd_run_spec g Hg d HP HD eq_refl p mp n _ s rs Hmp Hok Hrs) as (s' & Er & _). eauto.
  Qed.

  Lemma pass_values opaque (f : file V) threads rs :
    f_size f <> [] -> Forall (fun '(t, ix) => t < threads /\ in_box (f_size f) ix) rs ->
    exists m' c, pass_seq opaque f (pass_open threads) counters0 rs =
                 Ok (m', c, map (fun '(_, ix) => Some (f_val f ix)) rs).
  Proof. intros Hd H. destruct (pass_seq_spec opaque f (pass_open threads) counters0 rs Hd H) as (m' & E). eauto. Qed.

  (** The counters alone. *)
  Lemma full_counters (f : file V) user td arr0 bl opaque mode ixs :
    f_size f <> [] -> blocked_open (f_size f) user td arr0 = Ok bl ->
    Forall (in_box (f_size f)) ixs -> (Z.of_nat (length ixs) < 2 ^ 64)%Z ->
    let g := Geom bl f opaque in
    let d := Dist mode 1 1 (b_total bl) in
    exists m c vs, full_open g d 0 = Ok m /\ full_run g d (domain_base g d 0) m counters0 ixs = Ok (c, vs) /\
      reported c (repeat KHit (length ixs)).
  Proof.
    intros Hd E Hi Hl g d. destruct (full_facts f user td arr0 bl opaque mode Hd E) as (m & Em & H).
    destruct (H ixs Hi) as (c & Ec & Hr). exists m, c, (map (fun ix => Some (f_val f ix)) ixs). auto.
  Qed.

  Lemma cache_reported (f : file V) user td arr0 bl opaque n spread ixs :
    f_size f <> [] -> blocked_open (f_size f) user td arr0 = Ok bl ->
    0 < n -> (spread < Z.of_nat n)%Z ->
    Forall (in_box (f_size f)) ixs -> (Z.of_nat (length ixs) < 2 ^ 64)%Z ->
    let g := Geom bl f opaque in
    exists s s' vs, cache_open g n spread = Ok s /\ cache_run g s ixs = Ok (s', vs) /\
      length (cache_kinds g s ixs) = length ixs /\ reported (cs_cnt s') (cache_kinds g s ixs).
  Proof.
    intros Hd E Hn Hs Hi Hl g. destruct (cache_facts f user td arr0 bl opaque n spread Hd E Hn Hs) as (s & Es & H).
    destruct (H ixs Hi) as (s' & Er & H1 & H2). exists s, s', (map (fun ix => Some (f_val f ix)) ixs). auto.
  Qed.

  Lemma fd_reported (f : file V) user td arr0 bl opaque mode P D p mp n spread rs :
    f_size f <> [] -> blocked_open (f_size f) user td arr0 = Ok bl ->
    0 < P -> 0 < D -> 0 < n -> (spread < Z.of_nat n)%Z ->
    (mp = PMpiNo -> p <> PNumaNo /\ P = 1) ->
    Forall (fun '(r, dom, ix) => r < P /\ dom < D /\ in_box (f_size f) ix) rs ->
    (Z.of_nat (length rs) < 2 ^ 64)%Z ->
    let g := Geom bl f opaque in
    let d := Dist mode P D (b_total bl) in
    exists s s' vs, fd_open g d n spread = Ok s /\ fd_run p mp g d s rs = Ok (s', vs) /\
      forall r dom,
        length (fd_kinds p mp g d s rs r dom) =
          length (filter (fun '(r', dom', _) => (r' =? r) && (dom' =? dom)) rs) /\
        reported (fd_cnt s' r dom) (fd_kinds p mp g d s rs r dom).
  Proof.
    intros Hd E HP HD Hn Hs Hmp Hi Hl g d.
    destruct (fd_facts f user td arr0 bl opaque mode P D p mp n spread Hd E HP HD Hn Hs Hmp) as (s & Es & H).
    destruct (H rs Hi) as (s' & Er & H1). exists s, s', (map (fun '(_, _, ix) => Some (f_val f ix)) rs).
    split; auto. split; auto. intros r dom. destruct (H1 r dom). auto.
  Qed.

  Lemma pass_reported opaque (f : file V) threads rs :
    f_size f <> [] -> Forall (fun '(t, ix) => t < threads /\ in_box (f_size f) ix) rs ->
    (Z.of_nat (length rs) < 2 ^ 64)%Z ->
    exists m' c vs, pass_seq opaque f (pass_open threads) counters0 rs = Ok (m', c, vs) /\
      reported c (repeat KFile (length rs)).
  Proof.
    intros Hd H Hl. destruct (pass_facts opaque f threads rs Hd H) as (m' & c & E & Hr). eauto 6.
  Qed.

  Lemma pass_interleaved opaque (f : file V) threads ops :
    f_size f <> [] ->
    Forall (fun o => pass_tid o < threads /\
                     match o with PLoad _ ix => in_box (f_size f) ix | PRead _ => True end) ops ->
    exists m', pass_run opaque f (pass_open threads) ops = Ok (m', pass_expected f (fun _ => None) ops).
  Proof. intros Hd H. now apply pass_run_spec. Qed.
End Facts.

(** ** Derived counter identities *)
Lemma reported_identities c ks :
  reported c ks ->
  (counter_get c CHit + counter_get c CMiss = counter_get c CAccess /\
   counter_get c CMiss = counter_get c CNuma + counter_get c CMpi + counter_get c CFile /\
   counter_get c CNodeHit = counter_get c CHit + counter_get c CNuma /\
   forall t, 0 <= counter_get c t <= counter_get c CAccess)%Z.
Proof.
  intros (A & B & C & D & E & F & G). pose proof (count_total ks). rewrite E, G, A, B, C, D, F.
  assert (counter_get c CInvalid = 0%Z) as I by reflexivity.
  split; [lia|]. split; [lia|]. split; [lia|].
  intros []; rewrite ?A, ?B, ?C, ?D, ?E, ?F, ?G, ?I; lia.
Qed.

Section Same.
  Context {V : Type}.

  Lemma last_map {A B} (h : A -> B) l a d : last (map h (l ++ [a])) d = h a.
  Proof. rewrite map_app. apply last_last. Qed.

  Lemma same_answer (f : file V) user td arr0 bl opaque mode P D p mp n1 sp1 n2 sp2 threads
      h1 h2 h3 h4 r dom t ix :
    f_size f <> [] -> blocked_open (f_size f) user td arr0 = Ok bl ->
    0 < P -> 0 < D -> 0 < n1 -> (sp1 < Z.of_nat n1)%Z -> 0 < n2 -> (sp2 < Z.of_nat n2)%Z ->
    (mp = PMpiNo -> p <> PNumaNo /\ P = 1) ->
    Forall (in_box (f_size f)) (h1 ++ [ix]) ->
    Forall (fun '(r, dom, ix) => r < P /\ dom < D /\ in_box (f_size f) ix) (h2 ++ [(r, dom, ix)]) ->
    Forall (in_box (f_size f)) (h3 ++ [ix]) ->
    Forall (fun '(t, ix) => t < threads /\ in_box (f_size f) ix) (h4 ++ [(t, ix)]) ->
    let g := Geom bl f opaque in
    let d1 := Dist mode 1 1 (b_total bl) in
    let d := Dist mode P D (b_total bl) in
    exists full fd cache pass v1 v2 v3 v4,
      (do m <- full_open g d1 0; full_run g d1 (domain_base g d1 0) m counters0 (h1 ++ [ix])) = Ok (full, v1) /\
      (do s <- fd_open g d n1 sp1; fd_run p mp g d s (h2 ++ [(r, dom, ix)])) = Ok (fd, v2) /\
      (do s <- cache_open g n2 sp2; cache_run g s (h3 ++ [ix])) = Ok (cache, v3) /\
      pass_seq opaque f (pass_open threads) counters0 (h4 ++ [(t, ix)]) = Ok (pass, v4) /\
      last v1 None = Some (f_val f ix) /\ last v2 None = Some (f_val f ix) /\
      last v3 None = Some (f_val f ix) /\ last v4 None = Some (f_val f ix).
  Proof.
    intros Hd E HP HD Hn1 Hs1 Hn2 Hs2 Hmp F1 F2 F3 F4 g d1 d.
    destruct (full_facts f user td arr0 bl opaque mode Hd E) as (m & Em & Hm).
    destruct (Hm _ F1) as (c1 & E1 & _).
    destruct (fd_facts f user td arr0 bl opaque mode P D p mp n1 sp1 Hd E HP HD Hn1 Hs1 Hmp) as (s2 & Es2 & H2).
    destruct (H2 _ F2) as (s2' & E2 & _).
    destruct (cache_facts f user td arr0 bl opaque n2 sp2 Hd E Hn2 Hs2) as (s3 & Es3 & H3).
    destruct (H3 _ F3) as (s3' & E3 & _).
    destruct (pass_facts opaque f threads _ Hd F4) as (m4 & c4 & E4 & _).
    fold g in Em, E1, Es2, E2, Es3, E3. fold d1 in Em, E1. fold d in Es2, E2.
    rewrite Em, Es2, Es3. cbn [obind]. rewrite E1, E2, E3, E4.
    eexists _, _, _, _, _, _, _, _. do 4 (split; [reflexivity|]).
    rewrite !last_map. auto.
  Qed.
End Same.
