(** * Facts about the enumeration of test_index.py and the shares of the ranks *)
From Coq Require Import Lia.
From Verif Require Import BlockedFacts.
From Verif Require Export DealModel.

(** ** Specification *)
Definition mode_of (rr : bool) : dist_mode := if rr then RoundRobin else Contiguous.
Local Notation D rr total nodes cores := (Dist (mode_of rr) nodes cores total).

(** The number of blocks which domain [dom] of rank [r] stores. *)
Definition share (d : dist) (r dom : nat) : nat :=
  length (filter (fun b => (block_rank d b =? r) && (block_domain d b =? dom))%bool (seq 0 (d_total d))).

(** ** Lists *)
Lemma at_in {A} len (l : nat -> A) i : i < len -> at_ len l i = Ok (l i).
Proof. intros H. unfold at_. apply Nat.ltb_lt in H. now rewrite H. Qed.
Lemma set_in {A} len (l : nat -> A) i v : i < len -> set_ len l i v = Ok (upd l i v).
Proof. intros H. unfold set_. apply Nat.ltb_lt in H. now rewrite H. Qed.
Lemma upd_same' {A} (f : nat -> A) i v : upd f i v i = v.
Proof. unfold upd. now rewrite Nat.eqb_refl. Qed.
Lemma upd_other' {A} (f : nat -> A) i v j : j <> i -> upd f i v j = f j.
Proof. intros H. unfold upd. destruct (Nat.eqb_spec j i); congruence. Qed.

(** How many of the numbers below [i] are [n] modulo [m]. *)
Definition upto (m n i : nat) : nat := (i + (m - 1 - n)) / m.
Lemma upto_here m i : 0 < m -> upto m (i mod m) i = i / m.
Proof.
  intros M. unfold upto. symmetry. pose proof (Nat.mod_upper_bound i m ltac:(lia)). pose proof (Nat.div_mod i m ltac:(lia)).
  apply Nat.div_unique with (r := m - 1); [lia|]. lia.
Qed.
Lemma upto_step m n i : 0 < m -> n < m -> upto m n (S i) = if n =? i mod m then S (upto m n i) else upto m n i.
Proof.
  intros M L. unfold upto. pose proof (Nat.mod_upper_bound i m ltac:(lia)) as B. pose proof (Nat.div_mod i m ltac:(lia)) as E.
  set (q := i / m) in *. set (r := i mod m) in *.
  destruct (Nat.eqb_spec n r) as [->|Hne].
  - replace ((S i + (m - 1 - r)) / m) with (S q) by (apply Nat.div_unique with (r := 0); lia).
    f_equal. apply Nat.div_unique with (r := m - 1); lia.
  - destruct (le_lt_dec r n) as [Hl|Hl].
    + replace ((S i + (m - 1 - n)) / m) with q by (apply Nat.div_unique with (r := r + m - n); lia).
      apply Nat.div_unique with (r := r + (m - 1 - n)); lia.
    + replace ((S i + (m - 1 - n)) / m) with (S q) by (apply Nat.div_unique with (r := r - n); lia).
      apply Nat.div_unique with (r := r - 1 - n); lia.
Qed.

Lemma pair_index m n c n' c' : c < m -> c' < m -> n * m + c = n' * m + c' -> n = n' /\ c = c'.
Proof. intros H1 H2 E. destruct (lt_eq_lt_dec n n') as [[H| ->]|H]; [|split; lia|]; exfalso; nia. Qed.

Lemma mod_next a m : 0 < m -> (a mod m + 1) mod m = S a mod m.
Proof. intros M. rewrite Nat.add_mod_idemp_l by lia. f_equal. lia. Qed.

(** ** The numbers of the code and those of the script *)
Section Facts.
Variables total nodes cores : nat.
Hypothesis N0 : 0 < nodes.
Hypothesis C0 : 0 < cores.
Let d rr := D rr total nodes cores.

Lemma local_eq rr : local_block_count (d rr) = p_local total nodes cores.
Proof. reflexivity. Qed.
Lemma rank_eq rr b : block_rank (d rr) b = p_rank total nodes cores rr b.
Proof. destruct rr; reflexivity. Qed.
Lemma domain_eq rr b : block_domain (d rr) b = p_domain total nodes cores rr b.
Proof. destruct rr; reflexivity. Qed.
Lemma offset_eq rr b : block_offset (d rr) b = p_offset total nodes cores rr b.
Proof. destruct rr; reflexivity. Qed.
Lemma node_offset_eq rr b : block_node_offset (d rr) b = p_node_offset total nodes cores rr b.
Proof. unfold block_node_offset, p_node_offset. now rewrite offset_eq, domain_eq, local_eq. Qed.
Lemma l2g_eq rr r c k : local2global (d rr) r c k = p_l2g total nodes cores rr k c r.
Proof. destruct rr; reflexivity. Qed.

(** What the tables contain after [i] blocks. *)
Definition holds_after (rr : bool) (i : nat) (t : tables) : Prop :=
  (forall b, b < i ->
     t_nodes t b = Z.of_nat (block_rank (d rr) b) /\ t_cores t b = Z.of_nat (block_domain (d rr) b) /\
     t_offset t b = Z.of_nat (block_offset (d rr) b) /\ t_node_offset t b = Z.of_nat (block_node_offset (d rr) b)) /\
  (forall r c k, r < nodes -> c < cores -> k < p_local total nodes cores ->
     t_l2g t r c k = if local2global (d rr) r c k <? i then Z.of_nat (local2global (d rr) r c k) else (-1)%Z).

Lemma blank_holds rr : holds_after rr 0 blank.
Proof. split; [intros b H; lia|]. intros r c k _ _ _. reflexivity. Qed.

Lemma enter_holds rr i t : i < total -> holds_after rr i t ->
  exists t', enter total nodes cores t i (block_rank (d rr) i) (block_domain (d rr) i) (block_offset (d rr) i) (block_node_offset (d rr) i) = Ok t' /\
    holds_after rr (S i) t'.
Proof.
  intros Hi [T1 T2].
  destruct (one_home (d rr) N0 C0) as (OH & _). destruct (OH i Hi) as (Hr & Hd & Ho & Hu & _).
  cbn [d_ranks d_domains] in Hr, Hd. rewrite local_eq in Ho.
  unfold enter. rewrite !(set_in total) by exact Hi. cbn [obind].
  rewrite (at_in nodes) by exact Hr. cbn [obind]. rewrite (at_in cores) by exact Hd. cbn [obind].
  rewrite (set_in (p_local total nodes cores)) by exact Ho. cbn [obind].
  rewrite (set_in cores) by exact Hd. cbn [obind]. rewrite (set_in nodes) by exact Hr. cbn [obind].
  eexists. split; [reflexivity|]. split; cbn [t_nodes t_cores t_offset t_node_offset t_l2g].
  - intros b Hb. destruct (Nat.eq_dec b i) as [->|Hne].
    + rewrite !upd_same'. auto.
    + rewrite !upd_other' by exact Hne. apply T1. lia.
  - intros r c k Lr Lc Lk. specialize (Hu r c k Lr Lc).
    assert (Hu' : local2global (d rr) r c k = i <-> r = block_rank (d rr) i /\ c = block_domain (d rr) i /\ k = block_offset (d rr) i)
      by (apply Hu; rewrite local_eq; exact Lk).
    unfold upd at 1. destruct (Nat.eqb_spec r (block_rank (d rr) i)) as [->|Hne].
    + unfold upd at 1. destruct (Nat.eqb_spec c (block_domain (d rr) i)) as [->|Hne].
      * unfold upd at 1. destruct (Nat.eqb_spec k (block_offset (d rr) i)) as [->|Hne].
        -- rewrite (proj2 Hu' (conj eq_refl (conj eq_refl eq_refl))). destruct (Nat.ltb_spec i (S i)); [reflexivity|lia].
        -- rewrite T2 by assumption. destruct (Nat.ltb_spec (local2global (d rr) (block_rank (d rr) i) (block_domain (d rr) i) k) i);
             destruct (Nat.ltb_spec (local2global (d rr) (block_rank (d rr) i) (block_domain (d rr) i) k) (S i)); try reflexivity; try lia.
      * rewrite T2 by assumption. destruct (Nat.ltb_spec (local2global (d rr) (block_rank (d rr) i) c k) i);
          destruct (Nat.ltb_spec (local2global (d rr) (block_rank (d rr) i) c k) (S i)); try reflexivity; try lia.
    + rewrite T2 by assumption. destruct (Nat.ltb_spec (local2global (d rr) r c k) i);
        destruct (Nat.ltb_spec (local2global (d rr) r c k) (S i)); try reflexivity; try lia.
Qed.

(** ** Round robin *)
Definition dealer_after (i : nat) (e : dealer) : Prop :=
  e_node e = i mod nodes /\
  (forall n, n < nodes -> e_core e n = upto nodes n i mod cores) /\
  (forall n c, n < nodes -> c < cores ->
     e_offset e (n * cores + c) = upto cores c (upto nodes n i) /\ e_node_offset e (n * cores + c) = upto cores c (upto nodes n i)).

Lemma deal_step i t e : i < total -> holds_after true i t -> dealer_after i e ->
  exists t' e', deal_one total nodes cores i (t, e) = Ok (t', e') /\ holds_after true (S i) t' /\ dealer_after (S i) e'.
Proof.
  intros Hi HT (E1 & E2 & E3). unfold deal_one.
  pose proof (Nat.mod_upper_bound i nodes ltac:(lia)) as BN.
  pose proof (Nat.mod_upper_bound (i / nodes) cores ltac:(lia)) as BC.
  assert (Ec : e_core e (i mod nodes) = (i / nodes) mod cores) by (rewrite E2, upto_here by lia; reflexivity).
  destruct (E3 _ _ BN BC) as [Eo En]. rewrite (upto_here nodes) in Eo, En by lia. rewrite (upto_here cores) in Eo, En by lia.
  rewrite E1. rewrite (at_in nodes) by exact BN. cbn [obind]. rewrite Ec.
  assert (BI : i mod nodes * cores + (i / nodes) mod cores < nodes * cores) by nia.
  rewrite !(at_in (nodes * cores)) by exact BI. cbn [obind]. rewrite Eo, En.
  destruct (enter_holds true i t Hi HT) as (t' & Et & HT').
  change (block_rank (d true) i) with (i mod nodes) in Et. change (block_domain (d true) i) with ((i / nodes) mod cores) in Et.
  change (block_offset (d true) i) with (i / nodes / cores) in Et.
  change (block_node_offset (d true) i) with (i / nodes / cores + (i / nodes) mod cores * p_local total nodes cores) in Et.
  rewrite Et. cbn [obind].
  rewrite !(set_in (nodes * cores)) by exact BI. cbn [obind]. rewrite (set_in nodes) by exact BN. cbn [obind].
  eexists. eexists. split; [reflexivity|]. split; [exact HT'|].
  split; [|split]; cbn [e_node e_core e_offset e_node_offset].
  - apply mod_next. lia.
  - intros n Hn. unfold upd. rewrite upto_step by lia. destruct (Nat.eqb_spec n (i mod nodes)) as [->|Hne].
    + rewrite upto_here by lia. apply mod_next. lia.
    + apply E2, Hn.
  - intros n c Hn Hc. rewrite (upto_step nodes) by lia. destruct (Nat.eqb_spec n (i mod nodes)) as [->|Hne].
    + rewrite (upto_here nodes) by lia. rewrite (upto_step cores) by lia. destruct (Nat.eqb_spec c ((i / nodes) mod cores)) as [->|Hne].
      * rewrite !upd_same', (upto_here cores) by lia. lia.
      * rewrite !upd_other' by (intros H; apply (pair_index _ _ _ _ _ Hc BC) in H; tauto).
        destruct (E3 _ _ BN Hc) as [-> ->]. rewrite (upto_here nodes) by lia. auto.
    + rewrite !upd_other' by (intros H; apply (pair_index _ _ _ _ _ Hc BC) in H; tauto). apply E3; assumption.
Qed.

Lemma deal_all n : n <= total -> exists t e,
  loop (deal_one total nodes cores) n (blank, Dealer 0 (fun _ => 0) (fun _ => 0) (fun _ => 0)) = Ok (t, e) /\
  holds_after true n t /\ dealer_after n e.
Proof.
  induction n as [|n IH]; intros L.
  - eexists. eexists. split; [reflexivity|]. split; [apply blank_holds|].
    assert (U : forall m k, k < m -> upto m k 0 = 0) by (intros m k H; apply Nat.div_small; lia).
    split; [cbn; rewrite Nat.mod_0_l by lia; reflexivity|]. split.
    + intros k Hk. cbn [e_core]. rewrite U by exact Hk. rewrite Nat.mod_0_l by lia. reflexivity.
    + intros k c Hk Hc. cbn [e_offset e_node_offset]. rewrite (U nodes) by exact Hk. rewrite U by exact Hc. auto.
  - destruct IH as (t & e & El & HT & HE); [lia|]. cbn [loop]. rewrite El. cbn [obind].
    destruct (deal_step n t e ltac:(lia) HT HE) as (t' & e' & Es & HT' & HE'). exists t', e'. auto.
Qed.

(** ** Contiguous *)
Definition filler_after (i : nat) (e : filler) : Prop :=
  let L := p_local total nodes cores in
  i_node e = i / (L * cores) /\ i_core e = (i / L) mod cores /\ i_offset e = i mod L /\
  i_node_offset e = i mod L + (i / L) mod cores * L.

Lemma local_pos : 0 < total -> 0 < p_local total nodes cores.
Proof. intros H. unfold p_local. apply Nat.div_str_pos. nia. Qed.

Lemma fill_step i t e : i < total -> holds_after false i t -> filler_after i e ->
  exists t' e', fill_one total nodes cores i (t, e) = Ok (t', e') /\ holds_after false (S i) t' /\ filler_after (S i) e'.
Proof.
  intros Hi HT (E1 & E2 & E3 & E4). unfold fill_one.
  pose proof (local_pos ltac:(lia)) as L0. rewrite E1, E2, E3, E4.
  destruct (enter_holds false i t Hi HT) as (t' & Et & HT').
  change (block_rank (d false) i) with (i / (p_local total nodes cores * cores)) in Et.
  change (block_domain (d false) i) with ((i / p_local total nodes cores) mod cores) in Et.
  change (block_offset (d false) i) with (i mod p_local total nodes cores) in Et.
  change (block_node_offset (d false) i) with (i mod p_local total nodes cores + (i / p_local total nodes cores) mod cores * p_local total nodes cores) in Et.
  rewrite Et. cbn [obind]. clear Et HT.
  set (L := p_local total nodes cores) in *.
  pose proof (Nat.mod_upper_bound i L ltac:(lia)) as B1. pose proof (Nat.div_mod i L ltac:(lia)) as Q1.
  set (q := i / L) in *. set (o := i mod L) in *.
  pose proof (Nat.mod_upper_bound q cores ltac:(lia)) as B2. pose proof (Nat.div_mod q cores ltac:(lia)) as Q2.
  assert (EN : i / (L * cores) = q / cores) by (symmetry; apply Nat.div_div; lia).
  rewrite EN. set (n := q / cores) in *. set (c := q mod cores) in *.
  assert (EN' : forall j, j / (L * cores) = j / L / cores) by (intros j; symmetry; apply Nat.div_div; lia).
  unfold filler_after. fold L. rewrite EN'.
  destruct (Nat.leb_spec L (o + 1)) as [HL|HL].
  - assert (Es : S i / L = S q) by (symmetry; apply Nat.div_unique with (r := 0); lia).
    assert (Em : S i mod L = 0) by (symmetry; apply Nat.mod_unique with (q := S q); lia).
    rewrite Es, Em. destruct (Nat.leb_spec cores (c + 1)) as [HC|HC].
    + assert (Ec : S q / cores = S n) by (symmetry; apply Nat.div_unique with (r := 0); nia).
      assert (Ecm : S q mod cores = 0) by (symmetry; apply Nat.mod_unique with (q := S n); nia).
      eexists. eexists. split; [reflexivity|]. split; [exact HT'|]. cbn [i_node i_core i_offset i_node_offset]. rewrite Ec, Ecm. lia.
    + assert (Ec : S q / cores = n) by (symmetry; apply Nat.div_unique with (r := c + 1); nia).
      assert (Ecm : S q mod cores = c + 1) by (symmetry; apply Nat.mod_unique with (q := n); nia).
      eexists. eexists. split; [reflexivity|]. split; [exact HT'|]. cbn [i_node i_core i_offset i_node_offset]. rewrite Ec, Ecm.
      repeat split; nia.
  - assert (Es : S i / L = q) by (symmetry; apply Nat.div_unique with (r := o + 1); lia).
    assert (Em : S i mod L = o + 1) by (symmetry; apply Nat.mod_unique with (q := q); lia).
    rewrite Es, Em. destruct (Nat.leb_spec cores c) as [HC|HC]; [lia|].
    eexists. eexists. split; [reflexivity|]. split; [exact HT'|]. cbn [i_node i_core i_offset i_node_offset]. fold n c.
    repeat split; lia.
Qed.

Lemma fill_all n : n <= total -> exists t e,
  loop (fill_one total nodes cores) n (blank, Filler 0 0 0 0) = Ok (t, e) /\ holds_after false n t /\ filler_after n e.
Proof.
  induction n as [|n IH]; intros L.
  - eexists. eexists. split; [reflexivity|]. split; [apply blank_holds|]. unfold filler_after. cbn [i_node i_core i_offset i_node_offset].
    destruct (Nat.eq_dec (p_local total nodes cores) 0) as [->|H].
    + cbn. rewrite Nat.mod_0_l by lia. auto.
    + rewrite !Nat.div_0_l, !Nat.mod_0_l by nia. auto.
  - destruct IH as (t & e & El & HT & HE); [lia|]. cbn [loop]. rewrite El. cbn [obind].
    destruct (fill_step n t e ltac:(lia) HT HE) as (t' & e' & Es & HT' & HE'). exists t', e'. auto.
Qed.

(** ** Both *)
Lemma dealt_holds rr : exists t, dealt total nodes cores rr = Ok t /\ holds_after rr total t.
Proof.
  unfold dealt. destruct rr.
  - destruct (deal_all total ltac:(lia)) as (t & e & E & H & _). rewrite E. exists t. auto.
  - destruct (fill_all total ltac:(lia)) as (t & e & E & H & _). rewrite E. exists t. auto.
Qed.

Lemma test_passes rr : test_index total nodes cores rr = Ok true.
Proof.
  unfold test_index. destruct (dealt_holds rr) as (t & E & [T1 T2]). rewrite E. cbn [omap]. f_equal.
  unfold checks. apply andb_true_intro. split.
  - apply forallb_forall. intros i Hi. apply in_seq in Hi. destruct (T1 i ltac:(lia)) as (A & B & C & G).
    rewrite A, B, C, G, rank_eq, domain_eq, offset_eq, node_offset_eq, !Z.eqb_refl. reflexivity.
  - apply forallb_forall. intros n Hn. apply in_seq in Hn. apply forallb_forall. intros c Hc. apply in_seq in Hc.
    apply forallb_forall. intros i Hi. apply in_seq in Hi.
    rewrite T2 by lia. rewrite l2g_eq. destruct (p_l2g total nodes cores rr i c n <? total); [apply Z.eqb_refl|reflexivity].
Qed.
End Facts.

(** ** Shares *)
Lemma count_step (p : nat -> bool) n : length (filter p (seq 0 (S n))) = length (filter p (seq 0 n)) + if p n then 1 else 0.
Proof. rewrite seq_S, filter_app, app_length. cbn. destruct (p n); reflexivity. Qed.

Lemma count_ext (p q : nat -> bool) n : (forall b, b < n -> p b = q b) -> length (filter p (seq 0 n)) = length (filter q (seq 0 n)).
Proof.
  intros H. induction n as [|n IH]; [reflexivity|]. rewrite !count_step, (H n) by lia. rewrite IH; [reflexivity|]. intros b Hb. apply H. lia.
Qed.

Lemma robin_share total nodes cores r dom : 0 < nodes -> 0 < cores -> r < nodes -> dom < cores ->
  share (Dist RoundRobin nodes cores total) r dom = upto cores dom (upto nodes r total).
Proof.
  intros N C R D. unfold share. cbn [d_total].
  rewrite (count_ext _ (fun b => (r =? b mod nodes) && (dom =? (b / nodes) mod cores))%bool).
  2: { intros b _. unfold block_rank, block_domain. cbn. now rewrite (Nat.eqb_sym r), (Nat.eqb_sym dom). }
  induction total as [|n IH].
  - unfold upto. rewrite (Nat.div_small (0 + (nodes - 1 - r))) by lia. symmetry. apply Nat.div_small. lia.
  - rewrite count_step, IH, (upto_step nodes) by lia. destruct (Nat.eqb_spec r (n mod nodes)) as [->|H]; cbn [andb]; [|lia].
    rewrite (upto_here nodes) by lia. rewrite (upto_step cores) by lia. destruct (dom =? (n / nodes) mod cores); lia.
Qed.

Lemma robin_even total nodes cores r dom : 0 < nodes -> 0 < cores -> r < nodes -> dom < cores ->
  total / (nodes * cores) <= share (Dist RoundRobin nodes cores total) r dom <= (total + nodes * cores - 1) / (nodes * cores).
Proof.
  intros N C R D. rewrite robin_share by assumption. unfold upto. rewrite <- !Nat.div_div by lia. split.
  - apply Nat.div_le_mono; [lia|]. apply Nat.le_trans with ((total + (nodes - 1 - r)) / nodes); [apply Nat.div_le_mono; lia|lia].
  - apply Nat.div_le_mono; [lia|].
    replace (total + nodes * cores - 1) with ((total + (nodes - 1)) + (cores - 1) * nodes) by nia. rewrite Nat.div_add by lia.
    assert ((total + (nodes - 1 - r)) / nodes <= (total + (nodes - 1)) / nodes) by (apply Nat.div_le_mono; lia). lia.
Qed.

Lemma robin_differ total nodes cores r dom r' dom' : 0 < nodes -> 0 < cores -> r < nodes -> dom < cores -> r' < nodes -> dom' < cores ->
  share (Dist RoundRobin nodes cores total) r dom <= share (Dist RoundRobin nodes cores total) r' dom' + 1.
Proof.
  intros N C R D R' D'. pose proof (robin_even total nodes cores r dom N C R D) as [_ A]. pose proof (robin_even total nodes cores r' dom' N C R' D') as [B _].
  assert (M : 0 < nodes * cores) by nia. set (m := nodes * cores) in *.
  assert ((total + m - 1) / m <= total / m + 1); [|lia].
  replace (total / m + 1) with ((total + 1 * m) / m) by (rewrite Nat.div_add by lia; lia). apply Nat.div_le_mono; lia.
Qed.

Lemma count_range a l n : length (filter (fun b => (a <=? b) && (b <? a + l))%bool (seq 0 n)) = Nat.min l (n - a).
Proof.
  induction n as [|n IH]; [cbn; lia|]. rewrite count_step, IH. destruct (Nat.leb_spec a n), (Nat.ltb_spec n (a + l)); cbn [andb]; lia.
Qed.

Lemma contiguous_share total nodes cores r dom : 0 < nodes -> 0 < cores -> r < nodes -> dom < cores ->
  let d := Dist Contiguous nodes cores total in
  share d r dom = Nat.min (local_block_count d) (total - (r * cores + dom) * local_block_count d).
Proof.
  intros N C R D d. unfold share. subst d. cbn [d_total].
  destruct (Nat.eq_dec total 0) as [->|T0]; [cbn [seq filter length]; lia|].
  set (L := local_block_count (Dist Contiguous nodes cores total)).
  assert (L0 : 0 < L) by (apply (local_pos total nodes cores N C); lia).
  rewrite <- (count_range ((r * cores + dom) * L) L total). apply count_ext. intros b _.
  unfold block_rank, block_domain, node_block_count. cbn [d_mode d_domains]. fold L. rewrite <- Nat.div_div by lia.
  pose proof (Nat.mod_upper_bound b L ltac:(lia)) as B1. pose proof (Nat.div_mod b L ltac:(lia)) as Q1.
  set (q := b / L) in *. set (o := b mod L) in *.
  pose proof (Nat.mod_upper_bound q cores ltac:(lia)) as B2. pose proof (Nat.div_mod q cores ltac:(lia)) as Q2.
  set (n := q / cores) in *. set (c := q mod cores) in *.
  assert (E : (n = r /\ c = dom) <-> q = r * cores + dom).
  { split; [intros [-> ->]; lia|]. intros E. assert (n * cores + c = r * cores + dom) by lia. now apply (pair_index cores). }
  assert (E2 : q = r * cores + dom <-> (r * cores + dom) * L <= b < (r * cores + dom) * L + L).
  { split; [intros <-; nia|]. intros H. destruct (lt_eq_lt_dec q (r * cores + dom)) as [[H'|H']|H']; [exfalso; nia|exact H'|exfalso; nia]. }
  destruct (Nat.eqb_spec n r), (Nat.eqb_spec c dom), (Nat.leb_spec ((r * cores + dom) * L) b), (Nat.ltb_spec b ((r * cores + dom) * L + L)); cbn [andb];
    try reflexivity; exfalso; tauto || (destruct E2 as [E2 _]; destruct E as [E _]; lia) || (destruct E2 as [_ E2]; destruct E as [_ E]; intuition lia).
Qed.

Lemma last_idle P : 3 <= P ->
  let d := Dist Contiguous P 1 (P + 1) in share d 0 0 = 2 /\ share d (P - 1) 0 = 0.
Proof.
  intros H d. subst d. rewrite !contiguous_share by lia.
  assert (E : local_block_count (Dist Contiguous P 1 (P + 1)) = 2).
  { unfold local_block_count. cbn [d_domains d_ranks d_total]. rewrite Nat.mul_1_l. symmetry. apply Nat.div_unique with (r := 0); lia. }
  rewrite E. lia.
Qed.
