(** * Proofs about processes with different numbers of domains *)
From Verif Require Export RanksModel BlockedProofs DictProofs.

(** ** Full grids *)
Section Same.
Variable k : ranks.
Variable D : nat.
Hypothesis HP : 0 < k_size k.
Hypothesis HD : 0 < D.
Hypothesis HS : forall q, q < k_size k -> k_doms k q = D.

Let d : dist := Dist (k_mode k) (k_size k) D (k_total k).

Lemma view_same q : q < k_size k -> view k q = d.
Proof. intros H. unfold view, d. now rewrite HS. Qed.

Lemma full_same q b : q < k_size k -> b < k_total k -> full_read k q b = Block b.
Proof.
  intros Hq Hb. unfold full_read. rewrite view_same by assumption.
  pose proof (owner_bounds d HP HD b Hb) as (Hr & Hdom & Ho). cbn [d_ranks d] in Hr.
  pose proof (local_count_pos d HP HD b Hb) as Hl.
  replace (block_rank d b <? k_size k) with true by (symmetry; now apply Nat.ltb_lt).
  unfold full_mem. rewrite view_same by assumption.
  replace (block_node_offset d b <? node_block_count d) with true
    by (symmetry; apply Nat.ltb_lt; now apply (node_offset_lt d HP HD)).
  unfold block_node_offset.
  rewrite Nat.div_add, Nat.mod_add by lia.
  rewrite Nat.div_small, Nat.mod_small by assumption. cbn [Nat.add].
  rewrite (local2global_owner d HP HD b Hb).
  now replace (b <? k_total k) with true by (symmetry; now apply Nat.ltb_lt).
Qed.

(** ** Caches *)
Hypothesis HC : 0 < k_cache k.
Let n := k_cache k * D.

Lemma slots_same q : q < k_size k -> slots k q = n.
Proof. intros H. unfold slots, n. now rewrite HS. Qed.
Lemma n_pos : 0 < n.
Proof. unfold n. nia. Qed.

Lemma loc_inj q sl q' sl' : sl < n -> sl' < n -> q * n + sl = q' * n + sl' -> q = q' /\ sl = sl'.
Proof. intros H1 H2 E. destruct (add_mul_inj sl q sl' q' n H1 H2 ltac:(lia)). auto. Qed.

Lemma target_same thr q b sl : q < k_size k -> b < k_total k -> sl < n ->
  target k thr q b sl = (block_rank d b, block_node_offset d b, q * n + sl).
Proof.
  intros Hq Hb Hs. unfold target. rewrite view_same by assumption.
  pose proof (owner_bounds d HP HD b Hb) as (Hr & _). cbn [d_ranks d] in Hr.
  rewrite !slots_same by assumption. pose proof n_pos.
  destruct (thr && negb (block_rank d b =? q))%bool; [|reflexivity].
  rewrite Nat.div_add_l by lia. rewrite Nat.div_small by assumption.
  rewrite (Nat.add_comm _ sl), Nat.mod_add, Nat.mod_small by lia. now rewrite Nat.add_0_r.
Qed.

Definition entry_ok (s : caches) (r o e : nat) : Prop :=
  exists q sl b, q < k_size k /\ sl < n /\ e = q * n + sl /\ t_id s q sl = Some b /\
    block_rank d b = r /\ block_node_offset d b = o.
Definition dict_ok (P : nat -> nat -> nat -> Prop) (s : caches) : Prop :=
  forall r o, r < k_size k -> o < node_block_count d ->
    exists l, t_dict s r o = rep l /\ length l <= dict_size /\ NoDup l /\
      forall e, In e l -> entry_ok s r o e /\ P r o e.
Definition slots_ok (s : caches) : Prop :=
  forall q sl b, q < k_size k -> sl < n -> t_id s q sl = Some b -> b < k_total k /\ t_data s q sl = Block b.
Definition inv (s : caches) : Prop := slots_ok s /\ dict_ok (fun _ _ _ => True) s.
(** Nothing refers to one slot. *)
Definition inv_but (q sl : nat) (s : caches) : Prop := slots_ok s /\ dict_ok (fun _ _ e => e <> q * n + sl) s.

Lemma inv_init : inv caches_init.
Proof.
  split; [discriminate|]. intros r o _ _. exists []. rewrite <- rep_init.
  split; [reflexivity|]. split; [cbn; lia|]. split; [constructor|]. intros e [].
Qed.

Lemma home_ok b : b < k_total k -> (block_rank d b <? k_size k) = true /\ (block_node_offset d b <? node_block_count d) = true.
Proof.
  intros Hb. split; apply Nat.ltb_lt; [apply (owner_bounds d HP HD b Hb)|apply (node_offset_lt d HP HD b Hb)].
Qed.

Lemma on_entry_same A s r o (f : dentry -> outcome (A * dentry)) : (r <? k_size k) = true -> (o <? node_block_count d) = true ->
  on_entry k s r o f = do xd <- f (t_dict s r o);
    Ok (fst xd, Caches (t_id s) (t_data s) (upd (t_dict s) r (upd (t_dict s r) o (snd xd)))).
Proof.
  intros H1 H2. unfold on_entry. rewrite view_same by now apply Nat.ltb_lt.
  now rewrite H1, H2.
Qed.

Lemma upd_eq A (f : nat -> A) i a : upd f i a i = a.
Proof. unfold upd. now rewrite Nat.eqb_refl. Qed.
Lemma upd_ne A (f : nat -> A) i j a : j <> i -> upd f i a j = f j.
Proof. intros H. unfold upd. now apply Nat.eqb_neq in H as ->. Qed.
Lemma upd2_ne A (f : nat -> nat -> A) i j a r o : r <> i \/ o <> j -> upd f i (upd (f i) j a) r o = f r o.
Proof.
  intros H. destruct (Nat.eq_dec r i) as [->|Hr]; [|now rewrite upd_ne].
  rewrite upd_eq. apply upd_ne. tauto.
Qed.
Lemma upd2_eq A (f : nat -> nat -> A) i j a : upd f i (upd (f i) j a) i j = a.
Proof. now rewrite !upd_eq. Qed.

Lemma remove_ok thr s q sl ob : inv s -> q < k_size k -> sl < n -> t_id s q sl = Some ob ->
  exists s', remove_loc k thr s q ob sl = Ok s' /\ inv_but q sl s' /\ t_id s' = t_id s /\ t_data s' = t_data s.
Proof.
  intros (Hsl & Hd) Hq Hs Hid. destruct (Hsl _ _ _ Hq Hs Hid) as (Hb & _).
  unfold remove_loc. rewrite target_same by assumption.
  destruct (home_ok ob Hb) as (H1 & H2). rewrite on_entry_same by assumption.
  destruct (Hd _ _ (proj1 (Nat.ltb_lt _ _) H1) (proj1 (Nat.ltb_lt _ _) H2)) as (l & El & Hlen & Hnd & Hl).
  rewrite El, delete_rep by assumption. cbn [obind fst snd].
  eexists. split; [reflexivity|]. split; [|split; reflexivity].
  split; [exact Hsl|]. intros r o Hr Ho. cbn [t_dict].
  destruct (Nat.eq_dec r (block_rank d ob)) as [->|Nr]; [destruct (Nat.eq_dec o (block_node_offset d ob)) as [->|No]|].
  - rewrite upd2_eq. exists (del_list l (q * n + sl)). split; [reflexivity|].
    split; [now apply del_list_length|]. split; [eapply subseq_NoDup; [apply subseq_del|assumption]|].
    intros e He. split.
    + destruct (Hl e (subseq_In _ _ _ (subseq_del _ _) He)) as (Hok & _). exact Hok.
    + intros ->. exact (del_list_not_In _ _ Hnd He).
  - rewrite upd2_ne by tauto. destruct (Hd _ o Hr Ho) as (l' & E' & Hlen' & Hnd' & Hl').
    exists l'. split; [assumption|]. split; [assumption|]. split; [assumption|]. intros e He.
    destruct (Hl' e He) as (Hok & _). split; [exact Hok|].
    intros ->. destruct Hok as (q' & sl' & b' & Hq' & Hs' & E & Hid' & _ & Hob).
    destruct (loc_inj _ _ _ _ Hs Hs' E) as (<- & <-). congruence.
  - rewrite upd2_ne by tauto. destruct (Hd _ o Hr Ho) as (l' & E' & Hlen' & Hnd' & Hl').
    exists l'. split; [assumption|]. split; [assumption|]. split; [assumption|]. intros e He.
    destruct (Hl' e He) as (Hok & _). split; [exact Hok|].
    intros ->. destruct Hok as (q' & sl' & b' & Hq' & Hs' & E & Hid' & Hrb & _).
    destruct (loc_inj _ _ _ _ Hs Hs' E) as (<- & <-). congruence.
Qed.

Lemma none_but s q sl : inv s -> sl < n -> t_id s q sl = None -> inv_but q sl s.
Proof.
  intros (Hsl & Hd) Hs Hid. split; [exact Hsl|]. intros r o Hr Ho.
  destruct (Hd r o Hr Ho) as (l & E & Hlen & Hnd & Hl). exists l.
  split; [assumption|]. split; [assumption|]. split; [assumption|]. intros e He. destruct (Hl e He) as (Hok & _).
  split; [exact Hok|]. intros ->. destruct Hok as (q' & sl' & b' & Hq' & Hs' & E' & Hid' & _).
  destruct (loc_inj _ _ _ _ Hs Hs' E') as (<- & <-). congruence.
Qed.

(** The new location is entered and the slot filled. *)
Lemma filled s q sl b l : inv_but q sl s -> q < k_size k -> sl < n -> b < k_total k ->
  t_dict s (block_rank d b) (block_node_offset d b) = rep l -> length l <= dict_size -> NoDup l ->
  (forall e, In e l -> entry_ok s (block_rank d b) (block_node_offset d b) e /\ e <> q * n + sl) ->
  inv (fill (Caches (t_id s) (t_data s)
         (upd (t_dict s) (block_rank d b) (upd (t_dict s (block_rank d b)) (block_node_offset d b)
            (rep (firstn dict_size (q * n + sl :: l)))))) q sl b (Block b)).
Proof.
  intros (Hsl & Hd) Hq Hs Hb El Hlen Hnd Hl. split.
  - intros q' sl' b' Hq' Hs' Hid. cbn [fill t_id t_data] in *.
    destruct (Nat.eq_dec q' q) as [->|Nq]; [destruct (Nat.eq_dec sl' sl) as [->|Ns]|].
    + rewrite upd2_eq in *. injection Hid as <-. auto.
    + rewrite upd2_ne in * by tauto. now apply Hsl.
    + rewrite upd2_ne in * by tauto. now apply Hsl.
  - assert (Hkeep : forall r o e, entry_ok s r o e -> e <> q * n + sl ->
      entry_ok (fill (Caches (t_id s) (t_data s)
         (upd (t_dict s) (block_rank d b) (upd (t_dict s (block_rank d b)) (block_node_offset d b)
            (rep (firstn dict_size (q * n + sl :: l)))))) q sl b (Block b)) r o e).
    { intros r o e (q' & sl' & b' & Hq' & Hs' & E & Hid & Hr & Ho) Hne.
      exists q', sl', b'. repeat (split; [assumption|]). split; [|auto]. cbn [fill t_id].
      rewrite upd2_ne; [assumption|]. destruct (Nat.eq_dec q' q) as [->|]; [|tauto].
      right. intros ->. now apply Hne. }
    intros r o Hr Ho. cbn [fill t_dict].
    assert (Hcase : (r = block_rank d b /\ o = block_node_offset d b) \/ (r <> block_rank d b \/ o <> block_node_offset d b)) by
      (destruct (Nat.eq_dec r (block_rank d b)); destruct (Nat.eq_dec o (block_node_offset d b)); tauto).
    destruct Hcase as [(-> & ->)|Hne].
    + rewrite upd2_eq. exists (firstn dict_size (q * n + sl :: l)).
      split; [reflexivity|]. split; [apply firstn_le_length|].
      assert (Hnd' : NoDup (q * n + sl :: l)) by (constructor; [intros Hi; now destruct (Hl _ Hi)|assumption]).
      split; [exact (subseq_NoDup _ _ (subseq_firstn _ _) Hnd')|].
      intros e He. split; [|exact I]. pose proof (subseq_In _ _ _ (subseq_firstn _ _) He) as [<-|Hi].
      * exists q, sl, b. repeat (split; [assumption || reflexivity|]). split; [|auto]. cbn [fill t_id]. apply upd2_eq.
      * destruct (Hl e Hi). now apply Hkeep.
    + rewrite upd2_ne by assumption. destruct (Hd r o Hr Ho) as (l' & E' & Hlen' & Hnd' & Hl').
      exists l'. split; [assumption|]. split; [assumption|]. split; [assumption|].
      intros e He. destruct (Hl' e He). split; [now apply Hkeep|exact I].
Qed.

Lemma add_ok thr s q sl b : inv_but q sl s -> q < k_size k -> sl < n -> b < k_total k ->
  exists s', add_loc k thr s q b sl = Ok s' /\ inv (fill s' q sl b (Block b)).
Proof.
  intros Hi Hq Hs Hb. unfold add_loc. rewrite target_same by assumption.
  destruct (home_ok b Hb) as (H1 & H2). rewrite on_entry_same by assumption.
  destruct (proj2 Hi _ _ (proj1 (Nat.ltb_lt _ _) H1) (proj1 (Nat.ltb_lt _ _) H2)) as (l & El & Hlen & Hnd & Hl).
  rewrite El, update_rep by assumption. cbn [obind fst snd].
  eexists. split; [reflexivity|]. apply filled; auto.
Qed.

Lemma lookup_some s q lo m b sl : lookup s q lo m b = Some sl -> lo <= sl < lo + m /\ t_id s q sl = Some b.
Proof.
  intros H. apply find_some in H. destruct H as (Hi & H). apply in_seq in Hi. split; [lia|].
  destruct (t_id s q sl) as [x|]; [|discriminate]. now apply Nat.eqb_eq in H as ->.
Qed.
Lemma lookup_none s q lo m b : lookup s q lo m b = None -> forall sl, lo <= sl < lo + m -> t_id s q sl <> Some b.
Proof.
  intros H sl Hs E. unfold lookup in H. eapply find_none in H; [|apply in_seq; exact Hs].
  rewrite E, Nat.eqb_refl in H. discriminate.
Qed.

(** The slot a location stands for has the block. *)
Lemma transfer_ok thr s q e b : slots_ok s -> q < k_size k -> b < k_total k ->
  entry_ok s (block_rank d b) (block_node_offset d b) e -> transfer k thr s q e b = Ok (Block b).
Proof.
  intros Hsl Hq Hb (q' & sl' & b' & Hq' & Hs' & -> & Hid & Hr & Ho).
  destruct (Hsl _ _ _ Hq' Hs' Hid) as (Hb' & Hdat).
  assert (b' = b) as -> by exact (node_offset_inj d HP HD b' b Hb' Hb Hr Ho).
  pose proof n_pos. unfold transfer. rewrite slots_same by assumption.
  rewrite Nat.div_add_l, (Nat.div_small sl') by lia. rewrite Nat.add_0_r.
  replace (q' <? k_size k) with true by (symmetry; now apply Nat.ltb_lt).
  rewrite slots_same by assumption. destruct thr.
  - destruct (lookup s q' 0 n b) as [sl2|] eqn:E.
    + apply lookup_some in E. destruct E as (Hr2 & Hid2).
      now destruct (Hsl _ _ _ Hq' (proj2 Hr2) Hid2) as (_ & ->).
    + exfalso. exact (lookup_none _ _ _ _ _ E sl' ltac:(lia) Hid).
  - rewrite (Nat.add_comm _ sl'), Nat.mod_add, Nat.mod_small by lia.
    replace (sl' <? n) with true by (symmetry; now apply Nat.ltb_lt). cbn [andb]. now rewrite Hdat.
Qed.

Lemma caches_eta s : Caches (t_id s) (t_data s) (t_dict s) = s.
Proof. now destruct s. Qed.

Lemma fetch_on s q sl b pick : inv_but q sl s -> b < k_total k ->
  exists x c, fetch_block_info (t_dict s (block_rank d b) (block_node_offset d b)) pick = Ok (x, c) /\
    forall e, x = Some e -> entry_ok s (block_rank d b) (block_node_offset d b) e.
Proof.
  intros Hi Hb. destruct (home_ok b Hb) as (H1 & H2).
  destruct (proj2 Hi _ _ (proj1 (Nat.ltb_lt _ _) H1) (proj1 (Nat.ltb_lt _ _) H2)) as (l & El & Hlen & Hnd & Hl).
  destruct (fetch_rep l pick Hlen) as (x & E & _ & _ & Hx). exists x, (length l). rewrite El. split; [exact E|].
  intros e He. exact (proj1 (Hl e (Hx e He))).
Qed.

Lemma read_ok thr s q dom slot b pick : inv s -> q < k_size k -> dom < D -> slot < k_cache k -> b < k_total k ->
  exists s', read k thr s q dom slot b pick = Ok (s', Block b) /\ inv s'.
Proof.
  intros Hi Hq Hdom Hslot Hb. unfold read.
  assert (Hs : slot + k_cache k * dom < n) by (unfold n; nia).
  set (sl := slot + k_cache k * dom) in *. clearbody sl.
  destruct (lookup s q (k_cache k * dom) (k_cache k) b) as [sl0|] eqn:E.
  { apply lookup_some in E. destruct E as (Hr & Hid).
    exists s. split; [|assumption].
    assert (Hs0 : sl0 < n) by (unfold n; nia).
    now rewrite (proj2 (proj1 Hi _ _ _ Hq Hs0 Hid)). }
  assert (exists s1, match t_id s q sl with None => Ok s | Some ob => remove_loc k thr s q ob sl end = Ok s1 /\ inv_but q sl s1)
    as (s1 & -> & H1).
  { destruct (t_id s q sl) as [ob|] eqn:Eid.
    - destruct (remove_ok thr s q sl ob Hi Hq Hs Eid) as (s1 & H & H' & _). eauto.
    - exists s. split; [reflexivity|]. now apply none_but. }
  cbn [obind]. rewrite slots_same by assumption.
  destruct (lookup s1 q 0 n b) as [sl1|] eqn:E1.
  { apply lookup_some in E1. destruct E1 as (Hr & Hid).
    rewrite (proj2 (proj1 H1 _ _ _ Hq (proj2 Hr) Hid)).
    destruct (add_ok thr s1 q sl b H1 Hq Hs Hb) as (s2 & -> & H2). cbn [obind]. eauto. }
  rewrite view_same by assumption. destruct (home_ok b Hb) as (Hh1 & Hh2).
  destruct (fetch_on s1 q sl b pick H1 Hb) as (x & c & Ef & Hx). destruct thr.
  - rewrite on_entry_same by assumption. rewrite Ef. cbn [obind fst snd].
    assert (match x with None => Ok (Block b) | Some e => transfer k true s1 q e b end = Ok (Block b)) as ->.
    { destruct x as [e|]; [|reflexivity]. apply transfer_ok; auto. apply H1. }
    cbn [obind]. destruct (add_ok true s1 q sl b H1 Hq Hs Hb) as (s2 & -> & H2). cbn [obind]. eauto.
  - rewrite on_entry_same by assumption.
    destruct (proj2 H1 _ _ (proj1 (Nat.ltb_lt _ _) Hh1) (proj1 (Nat.ltb_lt _ _) Hh2)) as (l & El & Hlen & Hnd & Hl).
    rewrite El. destruct (fetch_update_rep l pick (q * n + sl) Hlen) as (y & -> & _ & Hy). cbn [obind fst snd].
    assert (match y with None => Ok (Block b) | Some e => transfer k false s1 q e b end = Ok (Block b)) as ->.
    { destruct y as [e|]; [|reflexivity]. apply transfer_ok; auto; [apply H1|]. exact (proj1 (Hl e (Hy e eq_refl))). }
    cbn [obind]. eexists. split; [reflexivity|]. now apply filled.
Qed.

Lemma reads_ok thr l : forall s, inv s ->
  (forall x, In x l -> i_rank x < k_size k /\ i_dom x < D /\ i_slot x < k_cache k /\ i_block x < k_total k) ->
  reads k thr s l = Ok (map (fun x => Block (i_block x)) l).
Proof.
  induction l as [|x l IH]; intros s Hi Hl; [reflexivity|].
  destruct (Hl x (or_introl eq_refl)) as (Hq & Hdom & Hslot & Hb).
  destruct (read_ok thr s (i_rank x) (i_dom x) (i_slot x) (i_block x) (i_pick x) Hi Hq Hdom Hslot Hb) as (s' & E & Hi').
  cbn [reads]. rewrite E. cbn [obind fst snd]. rewrite (IH s' Hi') by (intros; apply Hl; now right). reflexivity.
Qed.

End Same.

(** ** Different numbers *)
Section Different.
Variable k : ranks.

Lemma full_mem_inv r o b : 0 < k_size k -> r < k_size k -> 0 < k_doms k r -> full_mem k r o = Block b ->
  o = block_node_offset (view k r) b.
Proof.
  intros HP Hr HD. unfold full_mem. destruct (o <? node_block_count (view k r)) eqn:E; [|discriminate].
  apply Nat.ltb_lt in E. unfold node_block_count in E.
  destruct (_ <? k_total k) eqn:E2; [|discriminate]. intros [= <-].
  set (v := view k r) in *. assert (Hl : 0 < local_block_count v) by (destruct (local_block_count v); lia).
  assert (Hdom : o / local_block_count v < d_domains v) by (apply Nat.div_lt_upper_bound; lia).
  pose proof (Nat.mod_upper_bound o (local_block_count v) ltac:(lia)) as Hm.
  pose proof (owner_local2global v HP HD r _ _ Hr Hdom Hm) as (_ & E3 & E4).
  unfold block_node_offset. rewrite E3, E4. pose proof (Nat.div_mod o (local_block_count v) ltac:(lia)). lia.
Qed.

Lemma ceil_exact c x : 0 < c -> (c * x + c - 1) / c = x.
Proof.
  intros H. replace (c * x + c - 1) with (x * c + (c - 1)) by lia.
  rewrite Nat.div_add_l, (Nat.div_small (c - 1)) by lia. lia.
Qed.
Lemma ceil_next c x : 0 < c -> (c * x + 1 + c - 1) / c = x + 1.
Proof.
  intros H. replace (c * x + 1 + c - 1) with ((x + 1) * c + 0) by lia.
  rewrite Nat.div_add_l, Nat.div_0_l by lia. lia.
Qed.

Lemma round_robin_wrong q r : q < k_size k -> r < k_size k -> 0 < k_doms k q -> 0 < k_doms k r ->
  k_doms k q <> k_doms k r -> k_mode k = RoundRobin -> k_total k = 2 * k_size k * k_doms k q * k_doms k r ->
  exists b, b < k_total k /\ block_rank (view k q) b = r /\ full_read k q b <> Block b.
Proof.
  intros Hq Hr Hdq Hdr Hne Hm HT. set (P := k_size k) in *.
  exists (P + r).
  assert (Hdiv : (P + r) / P = 1).
  { replace (P + r) with (1 * P + r) by lia. rewrite Nat.div_add_l, (Nat.div_small r) by lia. lia. }
  assert (Hrank : block_rank (view k q) (P + r) = r).
  { unfold block_rank, view. cbn [d_mode d_ranks]. rewrite Hm. fold P.
    replace (P + r) with (r + 1 * P) by lia. rewrite Nat.mod_add, Nat.mod_small; lia. }
  split.
  { rewrite HT. assert (H1 : 1 <= k_doms k q * k_doms k r) by nia.
    replace (2 * P * k_doms k q * k_doms k r) with (2 * P * (k_doms k q * k_doms k r)) by ring. nia. }
  split; [exact Hrank|]. unfold full_read. rewrite Hrank. fold P.
  replace (r <? P) with true by (symmetry; now apply Nat.ltb_lt). intros E.
  apply full_mem_inv in E; [|lia|assumption|assumption].
  assert (Hlq : local_block_count (view k q) = 2 * k_doms k r).
  { unfold local_block_count, view. cbn [d_total d_domains d_ranks]. rewrite HT.
    replace (2 * P * k_doms k q * k_doms k r) with ((k_doms k q * P) * (2 * k_doms k r)) by ring.
    fold P. apply ceil_exact. nia. }
  assert (Hlr : local_block_count (view k r) = 2 * k_doms k q).
  { unfold local_block_count, view. cbn [d_total d_domains d_ranks]. rewrite HT.
    replace (2 * P * k_doms k q * k_doms k r) with ((k_doms k r * P) * (2 * k_doms k q)) by ring.
    fold P. apply ceil_exact. nia. }
  unfold block_node_offset in E. rewrite Hlq, Hlr in E.
  unfold block_offset, block_domain, view in E. cbn [d_mode d_ranks d_domains] in E. rewrite Hm in E. fold P in E.
  rewrite Hdiv in E.
  assert (Hone : forall D, 0 < D -> (D = 1 /\ 1 / D = 1 /\ 1 mod D = 0) \/ (1 < D /\ 1 / D = 0 /\ 1 mod D = 1)).
  { intros D HD. destruct (Nat.eq_dec D 1) as [->|]; [left; auto|right].
    rewrite Nat.div_small, Nat.mod_small by lia. lia. }
  destruct (Hone (k_doms k q) Hdq) as [(E1 & E2 & E3)|(E1 & E2 & E3)];
    destruct (Hone (k_doms k r) Hdr) as [(F1 & F2 & F3)|(F1 & F2 & F3)]; rewrite ?E2, ?E3, ?F2, ?F3 in E; lia.
Qed.

Lemma contiguous_wrong q r : q < k_size k -> 0 < r < k_size k -> 0 < k_doms k q -> 0 < k_doms k r ->
  k_doms k q <> k_doms k r -> k_mode k = Contiguous -> k_total k = k_size k * k_size k * k_doms k q * k_doms k r + 1 ->
  exists b, b < k_total k /\ block_rank (view k q) b = r /\ full_read k q b <> Block b.
Proof.
  intros Hq Hr Hdq Hdr Hne Hm HT. set (P := k_size k) in *.
  assert (Hlq : local_block_count (view k q) = P * k_doms k r + 1).
  { unfold local_block_count, view. cbn [d_total d_domains d_ranks]. rewrite HT.
    replace (P * P * k_doms k q * k_doms k r) with ((k_doms k q * P) * (P * k_doms k r)) by ring.
    fold P. apply ceil_next. nia. }
  assert (Hlr : local_block_count (view k r) = P * k_doms k q + 1).
  { unfold local_block_count, view. cbn [d_total d_domains d_ranks]. rewrite HT.
    replace (P * P * k_doms k q * k_doms k r) with ((k_doms k r * P) * (P * k_doms k q)) by ring.
    fold P. apply ceil_next. nia. }
  set (L := local_block_count (view k q)) in *.
  assert (HL : 0 < L) by lia.
  exists (r * (L * k_doms k q)).
  assert (Hrank : block_rank (view k q) (r * (L * k_doms k q)) = r).
  { unfold block_rank, node_block_count. fold L. change (d_mode (view k q)) with (k_mode k). rewrite Hm.
    change (d_domains (view k q)) with (k_doms k q). apply Nat.div_mul. apply Nat.neq_mul_0. lia. }
  split.
  { rewrite HT, Hlq. assert (H1 : r * (P * k_doms k r + 1) <= P * P * k_doms k r) by nia.
    replace (r * ((P * k_doms k r + 1) * k_doms k q)) with (r * (P * k_doms k r + 1) * k_doms k q) by ring.
    replace (P * P * k_doms k q * k_doms k r) with (P * P * k_doms k r * k_doms k q) by ring. nia. }
  split; [exact Hrank|]. unfold full_read. rewrite Hrank. fold P.
  replace (r <? P) with true by (symmetry; apply Nat.ltb_lt; lia).
  assert (Ho : block_node_offset (view k q) (r * (L * k_doms k q)) = 0).
  { unfold block_node_offset, block_offset, block_domain. fold L. unfold view. cbn [d_mode d_domains]. rewrite Hm.
    replace (r * (L * k_doms k q)) with ((r * k_doms k q) * L) by ring.
    rewrite Nat.mod_mul, Nat.div_mul by lia. rewrite Nat.mod_mul by lia. reflexivity. }
  rewrite Ho. unfold full_mem. destruct (0 <? _); [|discriminate].
  rewrite Nat.div_0_l, Nat.mod_0_l by lia.
  assert (local2global (view k r) r 0 0 = r * k_doms k r * (P * k_doms k q + 1)) as ->.
  { unfold local2global. rewrite Hlr. unfold view. cbn [d_mode d_domains]. rewrite Hm. reflexivity. }
  destruct (_ <? k_total k); [|discriminate]. intros [= E]. rewrite Hlq in E.
  assert (r * (k_doms k r * (P * k_doms k q + 1)) = r * ((P * k_doms k r + 1) * k_doms k q)) as E2 by lia.
  apply Nat.mul_cancel_l in E2; [|lia]. apply Hne. lia.
Qed.

(** ** Locations and wake-ups *)
Lemma location_wrong q r : 0 < r -> 0 < slots k q -> 0 < slots k r -> slots k q <> slots k r ->
  (r * slots k r / slots k q, (r * slots k r) mod slots k q) <> (r, 0).
Proof.
  intros Hr Hq Hs Hne [= E1 E2]. pose proof (Nat.div_mod (r * slots k r) (slots k q) ltac:(lia)) as E.
  rewrite E1, E2 in E. apply Hne. nia.
Qed.

Lemma tag_offset_S q ls n l : nth_error ls n = Some l -> tag_offset k q ls (S n) = tag_offset k q ls n + tags_of k q l.
Proof.
  intros H. unfold tag_offset.
  assert (firstn (S n) ls = firstn n ls ++ [l]) as ->.
  { revert n H. induction ls as [|x ls IH]; intros [|n] H; cbn in H |- *; try discriminate; [now injection H as ->|].
    cbn in IH. now rewrite (IH n H). }
  now rewrite fold_left_app.
Qed.
Lemma tag_offset_le q ls n : tag_offset k q ls n <= tag_offset k q ls (S n).
Proof.
  destruct (nth_error ls n) as [l|] eqn:E; [rewrite (tag_offset_S _ _ _ _ E); lia|].
  apply nth_error_None in E. unfold tag_offset. rewrite !firstn_all2 by lia. lia.
Qed.
Lemma tag_offset_mono q ls n m : n <= m -> tag_offset k q ls n <= tag_offset k q ls m.
Proof. induction 1; [lia|]. pose proof (tag_offset_le q ls m). lia. Qed.
Lemma tag_offset_lt q ls n m l : n < m -> nth_error ls n = Some l -> tag_offset k q ls n + tags_of k q l <= tag_offset k q ls m.
Proof. intros H E. rewrite <- (tag_offset_S _ _ _ _ E). now apply tag_offset_mono. Qed.

Lemma tag_offset_same q r ls n : k_threads k q = k_threads k r -> tag_offset k q ls n = tag_offset k r ls n.
Proof.
  intros H. unfold tag_offset. generalize 0. induction (firstn n ls) as [|l fs IH]; intros a; [reflexivity|].
  cbn [fold_left]. rewrite IH. f_equal. unfold tags_of. now rewrite H.
Qed.

Lemma wake_ok q r t ls n : k_threads k q = k_threads k r -> t < k_threads k r ->
  wake k q ls n (lock_word k r t) = (r, wait_tag k r ls n t).
Proof.
  intros H Ht. unfold wake, lock_word, wait_tag. rewrite (tag_offset_same _ _ _ _ H), H.
  rewrite Nat.div_add_l, (Nat.div_small t) by lia. rewrite Nat.add_0_r.
  now rewrite (Nat.add_comm _ t), Nat.mod_add, Nat.mod_small by lia.
Qed.

Lemma wait_tag_inj r ls n t n' t' :
  nth_error ls n = Some TWindow -> nth_error ls n' = Some TWindow -> t < k_threads k r -> t' < k_threads k r ->
  wait_tag k r ls n t = wait_tag k r ls n' t' -> n = n' /\ t = t'.
Proof.
  intros Hn Hn' Ht Ht' E. unfold wait_tag in E.
  destruct (lt_eq_lt_dec n n') as [[H|H]|H].
  - pose proof (tag_offset_lt r _ _ _ _ H Hn) as L. cbn [tags_of] in L. lia.
  - subst. lia.
  - pose proof (tag_offset_lt r _ _ _ _ H Hn') as L. cbn [tags_of] in L. lia.
Qed.

Lemma wake_wrong q r ls : 0 < r -> 0 < k_threads k q -> 0 < k_threads k r -> k_threads k q <> k_threads k r ->
  wake k q ls 0 (lock_word k r 0) <> (r, wait_tag k r ls 0 0).
Proof.
  intros Hr Hq Hs Hne E. unfold wake, lock_word, wait_tag, tag_offset in E. cbn [firstn fold_left] in E.
  rewrite Nat.add_0_r in E. injection E as E1 E2.
  pose proof (Nat.div_mod (r * k_threads k r) (k_threads k q) ltac:(lia)) as E.
  rewrite E1 in E. cbn [Nat.add] in E2. rewrite E2 in E. apply Hne. nia.
Qed.

Lemma wake_tag_wrong q r ls t : t < k_threads k q -> t < k_threads k r -> k_threads k q <> k_threads k r ->
  hd_error ls = Some TWindow -> tag_offset k q ls 1 + t <> wait_tag k r ls 1 t.
Proof.
  intros Hq Hr Hne Hl. destruct ls as [|l ls]; [discriminate|]. injection Hl as ->.
  unfold wait_tag, tag_offset. cbn [firstn fold_left tags_of]. lia.
Qed.

End Different.

Lemma cache_same k D thr l :
  0 < k_size k -> 0 < D -> 0 < k_cache k -> (forall q, q < k_size k -> k_doms k q = D) ->
  (forall x, In x l -> i_rank x < k_size k /\ i_dom x < k_doms k (i_rank x) /\ i_slot x < k_cache k /\ i_block x < k_total k) ->
  reads k thr caches_init l = Ok (map (fun x => Block (i_block x)) l).
Proof.
  intros HP HD HC HS Hl. apply (reads_ok k D HP HD HS HC); [now apply inv_init|].
  intros x Hx. destruct (Hl x Hx) as (H1 & H2 & H3 & H4). rewrite (HS _ H1) in H2. auto.
Qed.

Lemma full_all k D q b : 0 < D -> (forall q, q < k_size k -> k_doms k q = D) -> q < k_size k -> b < k_total k ->
  full_read k q b = Block b.
Proof. intros HD HS Hq. apply (full_same k D); auto. lia. Qed.
