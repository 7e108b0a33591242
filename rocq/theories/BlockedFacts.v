(** * Property level lemmas about blocks *)
From Verif Require Export BlockedProofs NetCdfProofs.

(** ** C01 *)
(** First cell of the block of a cell. *)
Definition corner_of (bs ix : list nat) : list nat := map2 (fun i b => i / b * b) ix bs.

Lemma map2_map2_same {A B C D} (f : A -> B -> C) (h : C -> B -> D) l m :
  map2 h (map2 f l m) m = map2 (fun a b => h (f a b) b) l m.
Proof. revert m; induction l as [|a l IH]; intros [|b m]; cbn; auto. now rewrite IH. Qed.

Lemma partition_spec sizes user td arr0 :
  Forall (fun s => 0 < s) sizes ->
  exists bl, blocked_open sizes user td arr0 = Ok bl /\
    (forall ix, in_box sizes ix ->
       block_by_coords bl ix < b_total bl /\
       calc_offset_in_block bl ix < b_tbs bl /\
       ix_mul (calc_block_position bl (block_by_coords bl ix)) (b_bs bl) = corner_of (b_bs bl) ix) /\
    (forall ix jx, in_box sizes ix -> in_box sizes jx ->
       block_by_coords bl ix = block_by_coords bl jx ->
       calc_offset_in_block bl ix = calc_offset_in_block bl jx -> ix = jx) /\
    (forall ix jx, in_box sizes ix -> in_box sizes jx ->
       (block_by_coords bl ix = block_by_coords bl jx <->
        corner_of (b_bs bl) ix = corner_of (b_bs bl) jx)) /\
    (forall b, b < b_total bl -> exists ix, in_box sizes ix /\ block_by_coords bl ix = b) /\
    b_tbs bl = volume (b_bs bl) /\
    b_total bl = volume (map2 (fun s b => (s + b - 1) / b) sizes (b_bs bl)).
Proof.
  intros Hs. destruct (proj2 (blocked_open_ok_iff sizes user td arr0) Hs) as [bl E].
  destruct (blocked_open_spec _ _ _ _ _ E) as (Hwf & Hsz & _). exists bl. split; auto.
  rewrite <- Hsz.
  assert (Hcor : forall ix, in_box (b_size bl) ix ->
    ix_mul (calc_block_position bl (block_by_coords bl ix)) (b_bs bl) = corner_of (b_bs bl) ix).
  { intros ix Hi. rewrite calc_block_position_spec by auto. apply map2_map2_same. }
  split; [|split; [|split; [|split; [|split]]]].
  - intros ix Hi. split; [now apply block_lt|]. split; [now apply offset_lt|auto].
  - intros ix jx Hi Hj. now apply block_offset_inj.
  - intros ix jx Hi Hj. split.
    + intros Hb. rewrite <- !Hcor by auto. now rewrite Hb.
    + intros Hc. rewrite !block_by_coords_spec by auto using in_box_length. f_equal.
      pose proof (wf_bs_pos _ Hwf) as Hp. pose proof (in_box_length _ _ Hi) as Hli.
      pose proof (in_box_length _ _ Hj) as Hlj. pose proof (wf_len _ Hwf) as Hl.
      rewrite <- Hl in Hli, Hlj. clear -Hc Hp Hli Hlj. unfold corner_of in Hc.
      revert ix jx Hli Hlj Hc; induction Hp as [|b bs Hb Hp IH]; intros [|i ix] [|j jx] Hli Hlj;
        cbn in Hli, Hlj; try discriminate; auto.
      cbn. intros [= E1 E2]. f_equal; auto. apply Nat.mul_cancel_r in E1; lia.
  - intros b Hb. destruct (corner_cell bl Hwf b Hb) as (A & B & _). eauto.
  - apply (wf_tbs _ Hwf).
  - rewrite (wf_total _ Hwf), (wf_blocks _ Hwf). reflexivity.
Qed.

(** ** C02 *)
Lemma one_home d :
  0 < d_ranks d -> 0 < d_domains d ->
  (forall b, b < d_total d ->
     block_rank d b < d_ranks d /\ block_domain d b < d_domains d /\
     block_offset d b < local_block_count d /\
     (forall r dom k, r < d_ranks d -> dom < d_domains d -> k < local_block_count d ->
        (local2global d r dom k = b <->
         r = block_rank d b /\ dom = block_domain d b /\ k = block_offset d b)) /\
     block_node_offset d b < local_block_count d * d_domains d) /\
  (forall b b', b < d_total d -> b' < d_total d -> block_rank d b = block_rank d b' ->
     block_node_offset d b = block_node_offset d b' -> b = b') /\
  (forall r dom k k', k <= k' -> local2global d r dom k' < d_total d -> local2global d r dom k < d_total d).
Proof.
  intros HP HD. split; [|split].
  - intros b Hb. destruct (owner_bounds d HP HD b Hb) as (A & B & C).
    do 3 (split; [assumption|]). split; [|apply (node_offset_lt d HP HD b Hb)].
    intros r dom k Hr Hd Hk. split.
    + intros <-. destruct (owner_local2global d HP HD r dom k Hr Hd Hk) as (-> & -> & ->). auto.
    + intros (-> & -> & ->). now apply local2global_owner.
  - intros b b' Hb Hb'. now apply node_offset_inj.
  - intros r dom k k' Hk H. pose proof (local2global_mono d r dom k k' Hk). lia.
Qed.

(** ** C25 *)
(** The documented block size. *)
Definition documented_block_size (req : Z) (extent : nat) : nat :=
  if (req <? 0)%Z then extent
  else if (req =? 0)%Z then Nat.min 64 extent
  else Nat.min (Z.to_nat req) extent.

Lemma loop_block_size_doc req s : loop_block_size req s = documented_block_size req s.
Proof.
  unfold loop_block_size, documented_block_size.
  destruct (Z.eqb_spec req 0); destruct (Z.ltb_spec req 0); try lia.
  - destruct (Nat.ltb_spec s 64); lia.
  - destruct (Nat.ltb_spec s s); lia.
  - destruct (Nat.ltb_spec s (Z.to_nat req)); lia.
Qed.

Lemma eff_sizes_nth reqs sizes k i s :
  nth_error sizes i = Some s -> nth_error (eff_sizes reqs k sizes) i = Some (loop_block_size (reqs (k + i)) s).
Proof.
  revert k i; induction sizes as [|x sizes IH]; intros k [|i]; cbn; try discriminate.
  - intros [= ->]. now rewrite Nat.add_0_r.
  - intros H. rewrite (IH (S k) i H). do 3 f_equal. lia.
Qed.

Lemma block_sizes_spec sizes user td arr0 bl :
  blocked_open sizes user td arr0 = Ok bl ->
  length (b_bs bl) = length sizes /\
  forall i s, nth_error sizes i = Some s ->
    nth_error (b_bs bl) i = Some (documented_block_size (user (length sizes - i - 1)) s) /\
    1 <= documented_block_size (user (length sizes - i - 1)) s.
Proof.
  intros E. pose proof (proj1 (blocked_open_ok_iff sizes user td arr0) (ex_intro _ bl E)) as Hpos.
  destruct (blocked_open_spec _ _ _ _ _ E) as (Hwf & Hsz & Hbs). rewrite Hbs. split.
  - apply eff_sizes_length.
  - intros i s Hi. rewrite (eff_sizes_nth _ _ 0 i s Hi). rewrite <- loop_block_size_doc. split; auto.
    apply loop_block_size_pos. apply nth_error_In in Hi. rewrite Forall_forall in Hpos. auto.
Qed.

(** ** C26 *)
Lemma time_block_spec sizes user td arr0 bl n s :
  blocked_open sizes user (Z.of_nat td) arr0 = Ok bl ->
  td < length sizes -> user td = 0%Z -> n = length sizes - td - 1 -> nth_error sizes n = Some s ->
  nth_error (b_bs bl) n = Some (Nat.min 64 s).
Proof.
  intros E Htd Hu -> Hs. destruct (block_sizes_spec _ _ _ _ _ E) as [_ H].
  destruct (H _ _ Hs) as [H1 _]. rewrite H1. f_equal. unfold documented_block_size.
  replace (length sizes - (length sizes - td - 1) - 1) with td by lia. rewrite Hu. reflexivity.
Qed.

(** ** C27 *)
Lemma degenerate_ub sizes user td arr0 : In 0 sizes -> blocked_open sizes user td arr0 = Ub.
Proof.
  intros H. destruct (blocked_open sizes user td arr0) as [bl|] eqn:E; auto.
  pose proof (proj1 (blocked_open_ok_iff sizes user td arr0) (ex_intro _ bl E)) as Hp.
  rewrite Forall_forall in Hp. specialize (Hp 0 H). lia.
Qed.

(** ** C03/C04: requested cells are inside of the variable *)
Lemma requested_inside fsize off bs :
  in_box fsize off -> length bs = length fsize ->
  forall k, in_box (act_size fsize off bs) k -> in_box fsize (ix_add off k).
Proof.
  intros H; revert bs; induction H as [|o s off fsize Ho H IH]; intros [|b bs] Hl k Hk;
    cbn in Hl; try discriminate.
  - cbn in Hk. apply in_box_inv_nil in Hk as ->. constructor.
  - cbn in Hk. apply in_box_inv_cons in Hk as (i & k' & -> & Hi & Hk). cbn.
    apply in_box_cons. split; [|apply (IH bs); auto; lia].
    destruct (Nat.ltb_spec s (o + b)); lia.
Qed.

Lemma zero_of_ub sizes user td arr0 : blocked_open sizes user td arr0 = Ub -> In 0 sizes.
Proof.
  intros E. destruct (in_dec Nat.eq_dec 0 sizes) as [|Hn]; auto. exfalso.
  destruct (proj2 (blocked_open_ok_iff sizes user td arr0)) as [bl Hb].
  - apply Forall_forall. intros [|x] Hx; [contradiction|lia].
  - congruence.
Qed.

Lemma time_block_refuted :
  exists sizes user td arr0 bl,
    td < length sizes /\ user td = 0%Z /\
    blocked_open sizes user (Z.of_nat td) arr0 = Ok bl /\
    nth_error (b_bs bl) (length sizes - td - 1) <> Some 1.
Proof.
  exists [10; 4; 4], (fun _ => 0%Z), 2, (fun _ => 0).
  eexists. split; [repeat constructor|]. split; [reflexivity|]. split; [reflexivity|]. discriminate.
Qed.

Lemma degenerate_refuted :
  (exists sizes user td arr0, blocked_open sizes user td arr0 = Ub) /\
  (exists (f : file nat) m, f_size f = [] /\ 0 < m_len m /\ get_block false f [] [] 0 m = Ub).
Proof.
  split.
  - exists [3; 0], (fun _ => 0%Z), (-1)%Z, (fun _ => 0). reflexivity.
  - exists (File [] (fun _ => 0)), (mem_new nat 1). cbn. repeat split; auto.
Qed.

Lemma degenerate_partial :
  forall sizes user td arr0,
  (blocked_open sizes user td arr0 = Ub <-> In 0 sizes).
Proof.
  exact (fun sizes user td arr0 => conj (fun E => zero_of_ub sizes user td arr0 E)
           (degenerate_ub sizes user td arr0)).
Qed.
