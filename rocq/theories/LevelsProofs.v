(** * Proofs about the grid levels *)
From Verif Require Export BlockedProofs CacheProofs LevelsModel.

(** ** Copying memory *)
Lemma mem_cpy_spec {V} n (dst : mem V) dpos src spos :
  dpos + n <= m_len dst -> spos + n <= m_len src ->
  exists m', mem_cpy dst dpos src spos n = Ok m' /\ m_len m' = m_len dst /\
    (forall k, k < n -> m_at m' (dpos + k) = m_at src (spos + k)) /\
    (forall p, p < dpos \/ dpos + n <= p -> m_at m' p = m_at dst p).
Proof.
  revert dst dpos spos; induction n as [|n IH]; intros dst dpos spos Hd Hs; cbn [mem_cpy].
  - exists dst. repeat split; auto. intros k Hk; lia.
  - rewrite mem_rd_ok by lia. cbn [obind]. rewrite mem_wr_ok by lia. cbn [obind].
    destruct (IH (Mem (m_len dst) (upd (m_at dst) dpos (m_at src spos))) (S dpos) (S spos))
      as (m' & E & Hl & Hin & Hout); cbn [m_len]; try lia.
    exists m'. split; auto. split; auto. cbn [m_at] in *. split.
    + intros [|k] Hk.
      * rewrite !Nat.add_0_r. rewrite Hout by lia. apply upd_same.
      * replace (dpos + S k) with (S dpos + k) by lia. rewrite Hin by lia. f_equal. lia.
    + intros p Hp. rewrite Hout by lia. apply upd_other. lia.
Qed.

Section Proofs.
  Context {V : Type}.
  Implicit Types (g : geom V) (m : mem V).

  Record wf_geom (g : geom V) : Prop := {
    wg_wf : wf_blocked (g_bl g);
    wg_size : b_size (g_bl g) = f_size (g_file g);
    wg_dims : f_size (g_file g) <> []
  }.

  (** Memory from [base] on holds block [b]. *)
  Definition holds g m base b : Prop :=
    forall ix, in_box (f_size (g_file g)) ix -> block_by_coords (g_bl g) ix = b ->
      m_at m (base + calc_offset_in_block (g_bl g) ix) = Some (f_val (g_file g) ix).

  Lemma holds_cpy g (Hg : wf_geom g) m m' base src spos b :
    (forall k, k < b_tbs (g_bl g) -> m_at m' (base + k) = m_at src (spos + k)) ->
    holds g src spos b -> holds g m' base b.
  Proof.
    intros Hk Hs ix Hi Hb. rewrite Hk; [auto|].
    apply offset_lt; [apply Hg|]. now rewrite (wg_size _ Hg).
  Qed.

  Lemma holds_frame g (Hg : wf_geom g) m m' base b :
    (forall k, k < b_tbs (g_bl g) -> m_at m' (base + k) = m_at m (base + k)) ->
    holds g m base b -> holds g m' base b.
  Proof. intros. eapply holds_cpy; eauto. Qed.

  Lemma corner_split bs ix :
    Forall (fun b => 0 < b) bs -> length ix = length bs ->
    map2 (fun i b => i - i mod b) ix bs = ix_mul (map2 Nat.div ix bs) bs /\
    ix_add (ix_mul (map2 Nat.div ix bs) bs) (map2 Nat.modulo ix bs) = ix.
  Proof.
    intros H; revert ix; induction H as [|b bs Hb H IH]; intros [|i ix] Hl;
      cbn in Hl; try discriminate; auto.
    destruct (IH ix) as [A B]; [lia|]. cbn. unfold ix_mul, ix_add in *. rewrite A, B.
    pose proof (Nat.div_mod i b ltac:(lia)) as Hdm.
    generalize dependent (i mod b). generalize dependent (i / b). intros q r Hdm.
    rewrite (Nat.mul_comm b q) in Hdm. split; f_equal; lia.
  Qed.

  Lemma holds_unique g m base b b' ix :
    holds g m base b -> in_box (f_size (g_file g)) ix -> b' = b -> block_by_coords (g_bl g) ix = b' ->
    m_at m (base + calc_offset_in_block (g_bl g) ix) = Some (f_val (g_file g) ix).
  Proof. intros H Hi -> Hb. auto. Qed.

  Section Geom.
    Context (g : geom V) (Hg : wf_geom g).
    Local Notation bl := (g_bl g).
    Local Notation f := (g_file g).

    Lemma wg_in_box ix : in_box (f_size f) ix <-> in_box (b_size bl) ix.
    Proof. now rewrite (wg_size _ Hg). Qed.

    Lemma load_spec ix base m :
      in_box (f_size f) ix -> base + b_tbs bl <= m_len m ->
      exists m', load g (ix_mul (map2 Nat.div ix (b_bs bl)) (b_bs bl)) base m = Ok m' /\
        m_len m' = m_len m /\ holds g m' base (block_by_coords bl ix) /\
        (forall p, p < base \/ base + b_tbs bl <= p -> m_at m' p = m_at m p).
    Proof.
      intros Hi Hm. destruct Hg as [Hwf Hsz Hd].
      pose proof (wf_len _ Hwf) as Hlen. pose proof (wf_bs_pos _ Hwf) as Hpos.
      assert (in_box (b_size bl) ix) as Hib by (now rewrite Hsz).
      destruct (corner_cell bl Hwf (block_by_coords bl ix) (block_lt bl Hwf ix Hib)) as (Hc & Hcb & _).
      rewrite calc_block_position_spec in Hc by auto. rewrite Hsz in Hc.
      unfold load. rewrite (wf_tbs _ Hwf) in *.
      destruct (get_block_spec (g_opaque g) f _ (b_bs bl) base m Hd Hc) as (m' & E & Hl & Hin & Hout);
        auto; [now rewrite Hlen, Hsz|].
      exists m'. split; auto. split; auto. split; auto.
      intros jx Hj Hjb.
      assert (in_box (b_size bl) jx) as Hjb' by (now rewrite Hsz).
      assert (map2 Nat.div ix (b_bs bl) = map2 Nat.div jx (b_bs bl)) as Ed.
      { rewrite <- (calc_block_position_spec bl Hwf ix Hib), <- (calc_block_position_spec bl Hwf jx Hjb').
        now rewrite Hjb. }
      destruct (corner_split (b_bs bl) jx Hpos) as [_ Hs].
      { rewrite Hlen. now apply in_box_length. }
      rewrite calc_offset_spec by (auto using in_box_length).
      specialize (Hin (map2 Nat.modulo jx (b_bs bl))). rewrite Ed, Hs in Hin.
      apply Hin; auto. now apply mod_in_box.
    Qed.

    Lemma load_corner_spec ix base m :
      in_box (f_size f) ix -> base + b_tbs bl <= m_len m ->
      exists m', load g (load_corner g ix) base m = Ok m' /\
        m_len m' = m_len m /\ holds g m' base (block_by_coords bl ix) /\
        (forall p, p < base \/ base + b_tbs bl <= p -> m_at m' p = m_at m p).
    Proof.
      intros Hi Hm. unfold load_corner.
      destruct (corner_split (b_bs (g_bl g)) ix (wf_bs_pos _ (wg_wf _ Hg))) as [E _].
      { rewrite (wf_len _ (wg_wf _ Hg)). apply in_box_length. now apply wg_in_box. }
      rewrite E. now apply load_spec.
    Qed.

    Lemma load_block_spec b base m :
      b < b_total bl -> base + b_tbs bl <= m_len m ->
      exists m', load g (ix_mul (calc_block_position bl b) (b_bs bl)) base m = Ok m' /\
        m_len m' = m_len m /\ holds g m' base b /\
        (forall p, p < base \/ base + b_tbs bl <= p -> m_at m' p = m_at m p).
    Proof.
      intros Hb Hm. destruct (corner_cell bl (wg_wf _ Hg) b Hb) as (Hc & Hcb & _).
      set (c := ix_mul (calc_block_position bl b) (b_bs bl)) in *.
      assert (c = ix_mul (map2 Nat.div c (b_bs bl)) (b_bs bl)) as Ec.
      { rewrite <- (calc_block_position_spec bl (wg_wf _ Hg) c Hc). now rewrite Hcb. }
      rewrite Ec. rewrite <- Hcb. apply load_spec; auto. now apply wg_in_box.
    Qed.

    Local Notation B := (b_tbs bl).

    (** ** Caches *)

    (** A cache: bookkeeping consistent and each listed block present. *)
    Definition cache_ok n h (l : clist) m : Prop :=
      (exists t, clist_inv n h t l) /\ m_len m = B * n /\
      (forall b slot, c_b2i l b = Some slot -> holds g m (slot * B) b).

    Lemma cache_ok_init n hd :
      0 < n -> eff_spread n hd < n ->
      exists l, clist_init n hd = Ok l /\ cache_ok n (eff_spread n hd) l (mem_new V (B * n)).
    Proof.
      intros Hn Hh. destruct (clist_init_spec n hd Hn Hh) as (l & E & Hinv & Hb & _).
      exists l. split; auto. split; [eauto|]. split; auto.
      intros b slot. rewrite Hb. discriminate.
    Qed.

    Lemma slot_room n slot m : slot < n -> m_len m = B * n -> slot * B + B <= m_len m.
    Proof.
      intros Hs ->. replace (slot * B + B) with (B * (slot + 1)) by lia.
      apply Nat.mul_le_mono_l. lia.
    Qed.

    (** One request followed by filling the slot when the block is not there. *)
    Lemma cache_step n h l m b :
      cache_ok n h l m -> 
      exists l' slot old, clist_request l b = Ok (l', slot, old) /\ slot < n /\
        slot * B + B <= m_len m /\
        is_hit b old = (match c_b2i l b with Some _ => true | None => false end) /\
        (is_hit b old = true -> cache_ok n h l' m /\ holds g m (slot * B) b) /\
        (is_hit b old = false -> forall m', m_len m' = m_len m -> holds g m' (slot * B) b ->
           (forall p, p < slot * B \/ slot * B + B <= p -> m_at m' p = m_at m p) ->
           cache_ok n h l' m').
    Proof.
      intros ([t Hinv] & Hlen & Hc).
      destruct (clist_request_spec n h t l b Hinv)
        as (l' & slot & old & t' & E & _ & Hinv' & Hslot & Hat & Hb2i & Heff).
      exists l', slot, old. split; auto. split; auto. split; [eapply slot_room; eauto|].
      destruct Heff as [(-> & Hb & Ei & Eb)|(Hb & Hold & Hne & Hi2b & Hb')].
      - cbn [is_hit]. rewrite Nat.eqb_refl, Hb. split; auto. split; [|discriminate]. intros _.
        split; [|apply Hc; auto]. split; [eauto|]. split; auto. rewrite Eb. auto.
      - rewrite Hb. assert (is_hit b old = false) as Hh.
        { destruct old as [ob|]; auto. cbn. apply Nat.eqb_neq. congruence. }
        split; auto. split; [congruence|]. intros _ m' Hl' Hh' Hout.
        split; [eauto|]. split; [lia|].
        intros b2 s2 Hs2. destruct (Nat.eq_dec b2 b) as [->|Hbb].
        + assert (s2 = slot) as -> by congruence. auto.
        + assert (c_b2i l b2 = Some s2) as Hs2'.
          { rewrite Hb' in Hs2 by auto. destruct old as [ob|]; auto.
            destruct (b2 =? ob); [discriminate|auto]. }
          assert (s2 <> slot) as Hss.
          { intros ->. apply (ci_inv _ _ _ _ Hinv') in Hs2 as [_ Hs2]. congruence. }
          apply (holds_frame g Hg m); auto. intros x Hx. apply Hout.
          destruct (lt_dec s2 slot) as [Hlt|Hlt].
          * left. assert ((s2 + 1) * B <= slot * B) by (apply Nat.mul_le_mono_r; lia). lia.
          * right. assert ((slot + 1) * B <= s2 * B) by (apply Nat.mul_le_mono_r; lia). lia.
    Qed.

    (** ** Cache level *)
    Definition cs_ok n h (s : cache_state V) : Prop := cache_ok n h (cs_list s) (cs_mem s).

    Lemma cache_open_spec n hd :
      0 < n -> eff_spread n hd < n ->
      exists s, cache_open g n hd = Ok s /\ cs_ok n (eff_spread n hd) s /\ cs_cnt s = counters0
        /\ forall b, c_b2i (cs_list s) b = None.
    Proof.
      intros Hn Hh. unfold cache_open.
      destruct (clist_init_spec n hd Hn Hh) as (l0 & E0 & _ & Hnone & _).
      destruct (cache_ok_init n hd Hn Hh) as (l & E & Hok). rewrite E. cbn [obind].
      assert (l0 = l) by congruence. subst l0.
      eexists. split; [reflexivity|]. cbn. auto.
    Qed.

    Lemma offset_room ix base m :
      in_box (f_size f) ix -> base + B <= m_len m ->
      base + calc_offset_in_block bl ix < m_len m.
    Proof.
      intros Hi Hm. pose proof (offset_lt bl (wg_wf _ Hg) ix) as H.
      specialize (H ltac:(now apply wg_in_box)). lia.
    Qed.

    Lemma cache_get_spec n h s ix :
      cs_ok n h s -> in_box (f_size f) ix ->
      exists s', cache_get g s ix = Ok (s', Some (f_val f ix)) /\ cs_ok n h s' /\
        cs_cnt s' = (match c_b2i (cs_list s) (block_by_coords bl ix) with
                     | Some _ => inc_access (cs_cnt s)
                     | None => inc_file (inc_access (cs_cnt s)) end).
    Proof.
      intros Hok Hi. unfold cache_get.
      destruct (cache_step n h _ _ (block_by_coords bl ix) Hok)
        as (l' & slot & old & E & Hs & Hroom & Hhit & Hh & Hm).
      rewrite E. cbn [obind].
      destruct (is_hit (block_by_coords bl ix) old) eqn:Eh.
      - destruct (Hh eq_refl) as [Hok' Hd]. cbn [obind].
        rewrite mem_rd_ok by (apply offset_room; auto). cbn [obind].
        rewrite (Hd ix Hi eq_refl). eexists. split; [reflexivity|].
        split; [exact Hok'|]. cbn. destruct (c_b2i _ _); [auto|discriminate].
      - destruct (load_corner_spec ix (slot * B) (cs_mem s) Hi Hroom) as (m' & El & Hl & Hd & Ho).
        rewrite El. cbn [obind]. rewrite mem_rd_ok by (apply offset_room; auto; lia). cbn [obind].
        rewrite (Hd ix Hi eq_refl). eexists. split; [reflexivity|].
        split; [apply (Hm eq_refl); auto|]. cbn. destruct (c_b2i _ _); [discriminate|auto].
    Qed.

    Lemma cache_run_spec n h s ixs :
      cs_ok n h s -> Forall (in_box (f_size f)) ixs ->
      exists s', cache_run g s ixs = Ok (s', map (fun ix => Some (f_val f ix)) ixs) /\ cs_ok n h s'.
    Proof.
      intros Hok H; revert s Hok; induction H as [|ix ixs Hi H IH]; intros s Hok; cbn [cache_run map].
      - eauto.
      - destruct (cache_get_spec n h s ix Hok Hi) as (s1 & E & Hok1 & _). rewrite E. cbn [obind].
        destruct (IH s1 Hok1) as (s2 & E2 & Hok2). rewrite E2. cbn [obind]. eauto.
    Qed.

    (** ** Full *)
    Context (d : dist) (HP : 0 < d_ranks d) (HD : 0 < d_domains d) (Ht : d_total d = b_total bl).

    Local Notation L := (local_block_count d).

    Lemma full_load_spec r dom base k i m :
      r < d_ranks d -> dom < d_domains d -> i + k = L -> base + B * L <= m_len m ->
      exists m', full_load g d r dom base i k m = Ok m' /\ m_len m' = m_len m /\
        (forall j, i <= j < L -> local2global d r dom j < d_total d ->
           holds g m' (base + B * j) (local2global d r dom j)) /\
        (forall p, p < base + B * i \/ base + B * L <= p -> m_at m' p = m_at m p).
    Proof.
      intros Hr Hdom. revert i m; induction k as [|k IH]; intros i m Hik Hm; cbn [full_load].
      - exists m. split; auto. split; auto. split; [intros j Hj; lia|auto].
      - destruct (Nat.leb_spec (d_total d) (local2global d r dom i)) as [Hbr|Hbr].
        + exists m. split; auto. split; auto. split; [|auto].
          intros j [Hj _] Hlt. pose proof (local2global_mono d r dom i j Hj). lia.
        + assert (B * i + B <= B * L) as HB.
          { replace (B * i + B) with (B * (i + 1)) by lia. apply Nat.mul_le_mono_l. lia. }
          destruct (load_block_spec (local2global d r dom i) (base + B * i) m)
            as (m1 & E1 & Hl1 & Hh1 & Ho1); [lia|lia|].
          rewrite E1. cbn [obind].
          destruct (IH (S i) m1) as (m2 & E2 & Hl2 & Hh2 & Ho2); [lia|lia|].
          exists m2. split; auto. split; [lia|]. split.
          * intros j Hj Hlt. destruct (Nat.eq_dec j i) as [->|Hne].
            -- apply (holds_frame g Hg m1); auto. intros x Hx. apply Ho2.
               left. replace (B * S i) with (B * i + B) by lia. lia.
            -- apply Hh2; auto. lia.
          * intros p Hp. rewrite Ho2, Ho1; auto.
            -- lia.
            -- replace (B * S i) with (B * i + B) by lia. lia.
    Qed.

    (** What one rank stores after opening. *)
    Definition store_ok r m : Prop :=
      m_len m = B * L * d_domains d /\
      forall b, b < d_total d -> block_rank d b = r ->
        holds g m (block_node_offset d b * B) b.

    Lemma full_open_domains_spec r k dom m :
      r < d_ranks d -> dom + k = d_domains d -> m_len m = B * L * d_domains d ->
      exists m', full_open_domains g d r dom k m = Ok m' /\ m_len m' = m_len m /\
        (forall b, b < d_total d -> block_rank d b = r -> dom <= block_domain d b ->
           holds g m' (block_node_offset d b * B) b) /\
        (forall p, p < B * L * dom -> m_at m' p = m_at m p).
    Proof.
      intros Hr. revert dom m; induction k as [|k IH]; intros dom m Hdk Hm; cbn [full_open_domains].
      - exists m. split; auto. split; auto. split; auto.
        intros b Hb Hbr Hbd. destruct (owner_bounds d HP HD b Hb) as (_ & ? & _). lia.
      - assert (B * L * dom + B * L <= B * L * d_domains d) as HBL.
        { replace (B * L * dom + B * L) with (B * L * (dom + 1)) by lia.
          apply Nat.mul_le_mono_l. lia. }
        unfold domain_base, domain_size.
        destruct (full_load_spec r dom (B * L * dom) L 0 m) as (m1 & E1 & Hl1 & Hh1 & Ho1);
          [auto|lia|lia|lia|].
        rewrite E1. cbn [obind].
        destruct (IH (S dom) m1) as (m2 & E2 & Hl2 & Hh2 & Ho2); [lia|lia|].
        exists m2. split; auto. split; [lia|]. split.
        + intros b Hb Hbr Hbd. destruct (owner_bounds d HP HD b Hb) as (_ & Hd2 & Hd3).
          destruct (Nat.eq_dec (block_domain d b) dom) as [Hbe|Hbe]; [|apply Hh2; auto; lia].
          pose proof (local2global_owner d HP HD b Hb) as Hlg. rewrite Hbr, Hbe in Hlg.
          assert (block_node_offset d b * B = B * L * dom + B * block_offset d b) as ->.
          { unfold block_node_offset. rewrite Hbe. lia. }
          apply (holds_frame g Hg m1).
          * intros x Hx. apply Ho2.
            assert (B * block_offset d b + B <= B * L).
            { replace (B * block_offset d b + B) with (B * (block_offset d b + 1)) by lia.
              apply Nat.mul_le_mono_l. lia. }
            replace (B * L * S dom) with (B * L * dom + B * L) by lia. lia.
          * rewrite <- Hlg at 2. apply Hh1; [lia|]. now rewrite Hlg.
        + intros p Hp. rewrite Ho2, Ho1; auto; try lia.
    Qed.

    Lemma full_open_spec r :
      r < d_ranks d -> exists m, full_open g d r = Ok m /\ store_ok r m.
    Proof.
      intros Hr. unfold full_open, domain_size.
      destruct (full_open_domains_spec r (d_domains d) 0 (mem_new V (B * L * d_domains d)))
        as (m & E & Hl & Hh & _); auto.
      exists m. split; auto. split; auto. intros b Hb Hbr. apply Hh; auto. lia.
    Qed.

    Lemma full_get_spec r m ix :
      store_ok r m -> in_box (f_size f) ix ->
      block_rank d (block_by_coords bl ix) = r ->
      full_get g d (domain_base g d (block_domain d (block_by_coords bl ix))) m ix
      = Ok (Some (f_val f ix)).
    Proof.
      intros [Hl Hs] Hi Hr. unfold full_get.
      assert (in_box (b_size bl) ix) as Hib by (now apply wg_in_box).
      pose proof (block_lt bl (wg_wf _ Hg) ix Hib) as Hb.
      set (b := block_by_coords bl ix) in *.
      destruct (owner_bounds d HP HD b ltac:(lia)) as (_ & H2 & H3).
      pose proof (offset_lt bl (wg_wf _ Hg) ix Hib) as Hoff.
      set (off := calc_offset_in_block bl ix) in *.
      unfold domain_base, domain_size.
      assert (B * L * block_domain d b + (block_offset d b * B + off)
              = block_node_offset d b * B + off) as ->.
      { unfold block_node_offset. lia. }
      assert (block_node_offset d b * B + off < m_len m).
      { rewrite Hl. pose proof (node_offset_lt d HP HD b ltac:(lia)) as Hn.
        unfold node_block_count in Hn.
        assert ((block_node_offset d b + 1) * B <= (L * d_domains d) * B) by (apply Nat.mul_le_mono_r; lia).
        lia. }
      rewrite mem_rd_ok by auto. f_equal. apply Hs; auto. lia.
    Qed.

    (** ** FullDist *)
    Definition fd_ok n h (s : fd_state V) : Prop :=
      (forall r, r < d_ranks d -> store_ok r (fd_store s r)) /\
      (forall r dom, r < d_ranks d -> dom < d_domains d ->
         cache_ok n h (fd_list s r dom) (fd_cmem s r dom)).

    Lemma open_ranks_spec k r st :
      r + k = d_ranks d ->
      exists st', open_ranks g d r k st = Ok st' /\
        (forall r', r <= r' < d_ranks d -> store_ok r' (st' r')) /\
        (forall r', r' < r -> st' r' = st r').
    Proof.
      revert r st; induction k as [|k IH]; intros r st Hk; cbn [open_ranks].
      - exists st. split; auto. split; auto. intros; lia.
      - destruct (full_open_spec r ltac:(lia)) as (m & E & Hm). rewrite E. cbn [obind].
        destruct (IH (S r) (upd st r m)) as (st' & E' & Hs & Ho); [lia|].
        exists st'. split; auto. split.
        + intros r' Hr'. destruct (Nat.eq_dec r' r) as [->|Hne]; [|apply Hs; lia].
          rewrite Ho by lia. now rewrite upd_same.
        + intros r' Hr'. rewrite Ho by lia. apply upd_other. lia.
    Qed.

    Lemma fd_open_spec n hd :
      0 < n -> eff_spread n hd < n ->
      exists s, fd_open g d n hd = Ok s /\ fd_ok n (eff_spread n hd) s /\
        forall r dom, fd_cnt s r dom = counters0.
    Proof.
      intros Hn Hh. unfold fd_open.
      destruct (open_ranks_spec (d_ranks d) 0 (fun _ => mem_new V 0) eq_refl) as (st & E & Hs & _).
      destruct (cache_ok_init n hd Hn Hh) as (l & El & Hok).
      rewrite E, El. cbn [obind]. eexists. split; [reflexivity|]. split; [|auto]. split; cbn.
      - intros r Hr. apply Hs. lia.
      - intros r dom _ _. exact Hok.
    Qed.

    Definition filled (m : mem V) base b m' : Prop :=
      m_len m' = m_len m /\ holds g m' base b /\
      (forall p, p < base \/ base + B <= p -> m_at m' p = m_at m p).

    Lemma node_block_room r m b :
      store_ok r m -> b < d_total d -> block_node_offset d b * B + B <= m_len m.
    Proof.
      intros [-> _] Hb. pose proof (node_offset_lt d HP HD b Hb) as Hn.
      unfold node_block_count in Hn.
      assert ((block_node_offset d b + 1) * B <= (L * d_domains d) * B) by (apply Nat.mul_le_mono_r; lia).
      lia.
    Qed.

    Lemma numa_full_transfer_spec n h s r dom b m base :
      fd_ok n h s -> r < d_ranks d -> b < d_total d -> base + B <= m_len m ->
      exists x, numa_full_transfer g d s r dom b m base = Ok x /\
        (block_rank d b <> r -> x = None) /\
        (block_rank d b = r -> exists m', x = Some m' /\ filled m base b m').
    Proof.
      intros [Hst _] Hr Hb Hm. unfold numa_full_transfer.
      destruct (Nat.eqb_spec (block_rank d b) r) as [Hbr|Hbr].
      - specialize (Hst r Hr). pose proof (node_block_room r _ b Hst Hb) as Hroom.
        unfold domain_base, domain_size.
        replace (B * L * dom - dom * B * L) with 0 by lia.
        assert (0 + (L * block_domain d b + block_offset d b) * B = block_node_offset d b * B) as ->.
        { unfold block_node_offset. lia. }
        destruct (mem_cpy_spec B m base (fd_store s r) (block_node_offset d b * B) Hm Hroom)
          as (m' & E & Hl & Hin & Hout).
        rewrite E. cbn [obind]. eexists. split; [reflexivity|]. split; [congruence|]. intros _.
        exists m'. split; auto. split; auto. split; auto.
        eapply holds_cpy; eauto. apply Hst; auto.
      - exists None. split; auto. split; [auto|congruence].
    Qed.

    Lemma numa_cache_transfer_spec n h s r dom b k i m base :
      fd_ok n h s -> r < d_ranks d -> i + k <= d_domains d -> base + B <= m_len m ->
      exists x, numa_cache_transfer g s r dom b i k m base = Ok x /\
        match x with Some m' => filled m base b m' /\
                                  exists j, i <= j < i + k /\ j <> dom /\ c_b2i (fd_list s r j) b <> None
                   | None => forall j, i <= j < i + k -> j <> dom -> c_b2i (fd_list s r j) b = None end.
    Proof.
      intros Hok Hr. revert i; induction k as [|k IH]; intros i Hi Hm; cbn [numa_cache_transfer].
      - exists None. split; auto. intros; lia.
      - destruct (Nat.eqb_spec i dom) as [Hid|Hid].
        + destruct (IH (S i) ltac:(lia) Hm) as (x & E & Hx). exists x. split; auto.
          destruct x.
          * destruct Hx as [Hx (j & Hj & Hjd & Hjc)]. split; auto. exists j. split; [lia|auto].
          * intros j Hj Hjd. apply Hx; auto. lia.
        + unfold clist_peek. destruct (c_b2i (fd_list s r i) b) as [slot|] eqn:Es.
          * destruct Hok as [_ Hc]. destruct (Hc r i Hr ltac:(lia)) as ([t Hinv] & Hl & Hh).
            assert (slot < n) as Hslot by (apply (ci_inv _ _ _ _ Hinv) in Es; tauto).
            destruct (mem_cpy_spec B m base (fd_cmem s r i) (slot * B) Hm)
              as (m' & E & Hl' & Hin & Hout); [eapply slot_room; eauto|].
            rewrite E. cbn [obind]. eexists. split; [reflexivity|]. split.
            -- split; auto. split; auto. eapply holds_cpy; eauto.
            -- exists i. split; [lia|]. split; [auto|congruence].
          * destruct (IH (S i) ltac:(lia) Hm) as (x & E & Hx). exists x. split; auto.
            destruct x.
            { destruct Hx as [Hx (j & Hj & Hjd & Hjc)]. split; auto. exists j. split; [lia|auto]. } intros j Hj Hjd. destruct (Nat.eq_dec j i) as [->|]; auto.
            apply Hx; auto. lia.
    Qed.

    (** Is a copy of the block available inside the node? *)
    Definition in_cache (l : clist) b : bool := match c_b2i l b with Some _ => true | None => false end.
    Definition on_node (p : numa_policy) (s : fd_state V) r dom b : bool :=
      match p with
      | PNumaNo => false
      | PNumaFull => block_rank d b =? r
      | PNumaFullCache => (block_rank d b =? r) ||
          existsb (fun j => negb (j =? dom) && in_cache (fd_list s r j) b) (seq 0 (d_domains d))
      end.

    Lemma numa_transfer_spec p n h s r dom b m base :
      fd_ok n h s -> r < d_ranks d -> b < d_total d -> base + B <= m_len m ->
      exists x, numa_transfer p g d s r dom b m base = Ok x /\
        (on_node p s r dom b = match x with Some _ => true | None => false end) /\
        match x with Some m' => filled m base b m' | None => p = PNumaNo \/ block_rank d b <> r end.
    Proof.
      intros Hok Hr Hb Hm. destruct p; cbn [numa_transfer on_node].
      - exists None. auto.
      - destruct (numa_full_transfer_spec n h s r dom b m base Hok Hr Hb Hm) as (x & E & H1 & H2).
        exists x. split; auto. destruct (Nat.eqb_spec (block_rank d b) r) as [Hbr|Hbr].
        + destruct (H2 Hbr) as (m' & -> & ?). auto.
        + rewrite (H1 Hbr). auto.
      - destruct (numa_full_transfer_spec n h s r dom b m base Hok Hr Hb Hm) as (x & E & H1 & H2).
        rewrite E. cbn [obind]. destruct (Nat.eqb_spec (block_rank d b) r) as [Hbr|Hbr].
        + destruct (H2 Hbr) as (m' & -> & ?). cbn [orb]. eauto.
        + rewrite (H1 Hbr). cbn [orb].
          destruct (numa_cache_transfer_spec n h s r dom b (d_domains d) 0 m base Hok Hr) as (y & Ey & Hy);
            [lia|auto|].
          exists y. split; auto. destruct y as [m'|].
          * destruct Hy as [Hy (j & Hj & Hjd & Hjc)]. split; auto. apply existsb_exists.
            exists j. split; [apply in_seq; lia|]. unfold in_cache.
            destruct (Nat.eqb_spec j dom); [congruence|]. destruct (c_b2i (fd_list s r j) b); auto.
          * split; auto. destruct (existsb _ _) eqn:Ex; auto. apply existsb_exists in Ex as (j & Hj & Hx).
            apply in_seq in Hj. destruct (Nat.eqb_spec j dom) as [->|Hjd]; [discriminate|].
            unfold in_cache in Hx. rewrite Hy in Hx by lia. discriminate.
    Qed.

    Lemma mpi_full_transfer_spec n h s b m base :
      fd_ok n h s -> b < d_total d -> base + B <= m_len m ->
      exists m', mpi_full_transfer PMpiFull g d s b m base = Ok m' /\ filled m base b m'.
    Proof.
      intros [Hst _] Hb Hm. unfold mpi_full_transfer.
      destruct (owner_bounds d HP HD b Hb) as (Hr & _ & _). specialize (Hst _ Hr).
      pose proof (node_block_room _ _ b Hst Hb) as Hroom.
      destruct (mem_cpy_spec B m base (fd_store s (block_rank d b)) (block_node_offset d b * B) Hm Hroom)
        as (m' & E & Hl & Hin & Hout).
      exists m'. split; auto. split; auto. split; auto. eapply holds_cpy; eauto. apply Hst; auto.
    Qed.

    Lemma upd2_same {A} (F : nat -> nat -> A) r dom a : upd2 F r dom a r dom = a.
    Proof. unfold upd2. now rewrite !Nat.eqb_refl. Qed.
    Lemma upd2_other {A} (F : nat -> nat -> A) r dom a r' dom' :
      (r', dom') <> (r, dom) -> upd2 F r dom a r' dom' = F r' dom'.
    Proof.
      unfold upd2. intros H. destruct (Nat.eqb_spec r' r), (Nat.eqb_spec dom' dom); cbn; congruence.
    Qed.

    (** What a read on (r, dom) needs: nothing, a copy inside the node, or a
        message. *)
    Inductive read_kind := KHit | KNuma | KMpi | KFile.
    Definition fd_kind (p : numa_policy) (s : fd_state V) r dom b : read_kind :=
      if ((block_rank d b =? r) && (block_domain d b =? dom)) || in_cache (fd_list s r dom) b then KHit
      else if on_node p s r dom b then KNuma else KMpi.
    Definition count_kind (k : read_kind) (c : counters) : counters :=
      match k with
      | KHit => inc_access c
      | KNuma => inc_numa (inc_access c)
      | KMpi => inc_mpi (inc_access c)
      | KFile => inc_file (inc_access c)
      end.

    Lemma fd_get_spec p mp n h s r dom ix :
      (mp = PMpiNo -> p <> PNumaNo /\ d_ranks d = 1) ->
      fd_ok n h s -> r < d_ranks d -> dom < d_domains d -> in_box (f_size f) ix ->
      exists s', fd_get p mp g d s r dom ix = Ok (s', Some (f_val f ix)) /\ fd_ok n h s' /\
        (forall r' dom', (r', dom') <> (r, dom) -> fd_cnt s' r' dom' = fd_cnt s r' dom') /\
        fd_cnt s' r dom = count_kind (fd_kind p s r dom (block_by_coords bl ix)) (fd_cnt s r dom).
    Proof.
      intros Hmp Hok Hr Hdom Hi. unfold fd_get, fd_kind. cbn zeta.
      assert (in_box (b_size bl) ix) as Hib by (now apply wg_in_box).
      pose proof (block_lt bl (wg_wf _ Hg) ix Hib) as Hb. rewrite <- Ht in Hb.
      set (b := block_by_coords bl ix) in *.
      destruct ((block_rank d b =? r) && (block_domain d b =? dom)) eqn:Eo.
      - apply andb_true_iff in Eo as [E1 E2]. apply Nat.eqb_eq in E1, E2.
        pose proof (proj1 Hok r Hr) as Hst.
        pose proof (full_get_spec r (fd_store s r) ix Hst Hi E1) as Hget. fold b in Hget.
        rewrite E2 in Hget. rewrite Hget. cbn [obind].
        eexists. split; [reflexivity|]. split; [exact Hok|]. cbn.
        split; [intros; now apply upd2_other|apply upd2_same].
      - destruct (cache_step n h _ _ b (proj2 Hok r dom Hr Hdom))
          as (l' & slot & old & E & Hs & Hroom & Hhit & Hh & Hm).
        rewrite E. cbn [obind].
        assert (Hfin : forall m' c', m_len m' = m_len (fd_cmem s r dom) ->
           cache_ok n h l' m' -> holds g m' (slot * B) b ->
           exists s', (do v <- mem_rd m' (slot * B + calc_offset_in_block bl ix);
              Ok (FdState (fd_store s) (upd2 (fd_cmem s) r dom m') (upd2 (fd_list s) r dom l')
                    (upd2 (fd_cnt s) r dom c'), v)) = Ok (s', Some (f_val f ix)) /\ fd_ok n h s' /\
              (forall r' dom', (r', dom') <> (r, dom) -> fd_cnt s' r' dom' = fd_cnt s r' dom') /\
              fd_cnt s' r dom = c').
        { intros m' c' Hl' Hok' Hd. rewrite mem_rd_ok by (apply offset_room; auto; lia). cbn [obind].
          rewrite (Hd ix Hi eq_refl). eexists. split; [reflexivity|]. cbn.
          split; [|split; [intros; now apply upd2_other|apply upd2_same]].
          split; [exact (proj1 Hok)|]. cbn. intros r' dom' Hr' Hdom'.
          destruct (Nat.eq_dec r' r) as [->|Hne1].
          - destruct (Nat.eq_dec dom' dom) as [->|Hne2].
            + now rewrite !upd2_same.
            + rewrite !upd2_other by congruence. now apply Hok.
          - rewrite !upd2_other by congruence. now apply Hok. }
        destruct (is_hit b old) eqn:Eh.
        + cbn [obind]. destruct (Hh eq_refl) as [Hok' Hd]. unfold in_cache.
          destruct (c_b2i (fd_list s r dom) b); [|discriminate]. cbn [orb count_kind]. apply Hfin; auto.
        + unfold in_cache at 1. destruct (c_b2i (fd_list s r dom) b); [discriminate|].
          destruct (numa_transfer_spec p n h s r dom b (fd_cmem s r dom) (slot * B) Hok Hr Hb Hroom)
            as (x & Ex & Hon & Hx).
          rewrite Ex, Hon. cbn [obind orb]. destruct x as [m'|].
          * cbn [obind]. destruct Hx as (Hl' & Hd & Ho). apply Hfin; auto.
          * assert (mp = PMpiFull) as ->.
            { destruct mp; auto. destruct (Hmp eq_refl) as [Hp1 Hp2].
              destruct (owner_bounds d HP HD b Hb) as (Hrb & _ & _).
              destruct Hx as [Hx|Hx]; [contradiction|lia]. }
            destruct (mpi_full_transfer_spec n h s b (fd_cmem s r dom) (slot * B) Hok Hb Hroom)
              as (m' & Em & Hl' & Hd & Ho).
            rewrite Em. cbn [obind]. apply Hfin; auto.
    Qed.

    Lemma fd_run_spec p mp n h s rs :
      (mp = PMpiNo -> p <> PNumaNo /\ d_ranks d = 1) ->
      fd_ok n h s ->
      Forall (fun '(r, dom, ix) => r < d_ranks d /\ dom < d_domains d /\ in_box (f_size f) ix) rs ->
      exists s', fd_run p mp g d s rs = Ok (s', map (fun '(_, _, ix) => Some (f_val f ix)) rs) /\ fd_ok n h s'.
    Proof.
      intros Hmp Hok H; revert s Hok; induction H as [|[[r dom] ix] rs (Hr & Hd & Hi) H IH];
        intros s Hok; cbn [fd_run map].
      - eauto.
      - destruct (fd_get_spec p mp n h s r dom ix Hmp Hok Hr Hd Hi) as (s1 & E & Hok1 & _).
        rewrite E. cbn [obind]. destruct (IH s1 Hok1) as (s2 & E2 & Hok2). rewrite E2.
        cbn [obind]. eauto.
    Qed.
  End Geom.

  (** ** PassThrough *)

  (** The last position a thread asked for. *)
  Fixpoint last_load (cur : option (list nat)) (ops : list pass_op) (t : nat) : option (list nat) :=
    match ops with
    | [] => cur
    | PLoad t' ix :: ops' => last_load (if t' =? t then Some ix else cur) ops' t
    | PRead _ :: ops' => last_load cur ops' t
    end.

  (** What each read must return, in order. *)
  Fixpoint pass_expected (f : file V) (cur : nat -> option (list nat)) (ops : list pass_op)
    : list (nat * option V) :=
    match ops with
    | [] => []
    | PLoad t ix :: ops' => pass_expected f (upd cur t (Some ix)) ops'
    | PRead t :: ops' => (t, option_map (f_val f) (cur t)) :: pass_expected f cur ops'
    end.

  Lemma ones_volume l : volume (map (fun _ : nat => 1) l) = 1.
  Proof. induction l; cbn; lia. Qed.

  Lemma ix_add_zero l : ix_add l (map (fun _ => 0) l) = l.
  Proof. unfold ix_add. induction l; cbn; f_equal; auto. Qed.

  Lemma ones_row_major (l : list nat) k :
    in_box (map (fun _ => 1) l) k -> row_major (map (fun _ => 1) l) k = 0.
  Proof.
    intros H. pose proof (row_major_lt _ _ H) as Hl. rewrite ones_volume in Hl. lia.
  Qed.

  Lemma pass_load_spec opaque (f : file V) m t ix :
    f_size f <> [] -> in_box (f_size f) ix -> t < m_len m ->
    exists m', pass_load opaque f m t ix = Ok m' /\ m_len m' = m_len m /\
      m_at m' t = Some (f_val f ix) /\ forall p, p <> t -> m_at m' p = m_at m p.
  Proof.
    intros Hne Hi Ht. unfold pass_load.
    destruct (get_block_spec opaque f ix (map (fun _ => 1) (f_size f)) t m Hne Hi)
      as (m' & E & Hl & Hin & Hout).
    - now rewrite map_length.
    - apply Forall_forall. intros x Hx. apply in_map_iff in Hx as (? & <- & _). lia.
    - rewrite ones_volume. lia.
    - exists m'. split; auto. split; auto. split.
      + assert (in_box (map (fun _ => 1) (f_size f)) (map (fun _ => 0) ix)) as Hz.
        { clear -Hi. unfold in_box in *. induction Hi; cbn; constructor; auto. }
        specialize (Hin _ Hz). rewrite ix_add_zero in Hin. rewrite <- Hin by auto.
        rewrite ones_row_major by auto. f_equal. lia.
      + intros p Hp. apply Hout. rewrite ones_volume. lia.
  Qed.

  Lemma pass_run_spec opaque (f : file V) ops m cur :
    f_size f <> [] ->
    Forall (fun o => pass_tid o < m_len m /\
                     match o with PLoad _ ix => in_box (f_size f) ix | PRead _ => True end) ops ->
    (forall t, m_at m t = option_map (f_val f) (cur t)) ->
    exists m', pass_run opaque f m ops = Ok (m', pass_expected f cur ops).
  Proof.
    intros Hne. revert m cur; induction ops as [|o ops IH]; intros m cur Hall Hcur; cbn.
    - eauto.
    - inversion Hall as [|? ? [Ht Ho] Hall']; subst. destruct o as [t ix|t]; cbn in Ht.
      + destruct (pass_load_spec opaque f m t ix Hne Ho Ht) as (m1 & E & Hl & Hs & Hoth).
        rewrite E. cbn [obind]. apply IH.
        * now rewrite Hl.
        * intros p. unfold upd. destruct (Nat.eqb_spec p t) as [->|Hp]; [auto|]. rewrite Hoth; auto.
      + unfold pass_read. rewrite mem_rd_ok by auto. cbn [obind].
        destruct (IH m cur Hall' Hcur) as (m' & E). rewrite E. cbn [obind].
        rewrite Hcur. eauto.
  Qed.
End Proofs.
