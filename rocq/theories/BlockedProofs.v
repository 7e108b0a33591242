(** * Proofs about block decomposition and distribution *)
From Verif Require Export SpecProofs BlockedModel.

Definition ceil_div (s b : nat) : nat := (s + b - 1) / b.

Lemma ceil_div_gt i s b : 0 < b -> i < s -> i / b < ceil_div s b.
Proof. unfold ceil_div; intros; nia. Qed.

Lemma ceil_div_corner q s b : 0 < b -> q < ceil_div s b -> q * b < s.
Proof. unfold ceil_div; intros; nia. Qed.

(** What a successful [blocked_open] establishes. *)
Record wf_blocked (bl : blocked) : Prop := {
  wf_len : length (b_bs bl) = length (b_size bl);
  wf_bs_pos : Forall (fun b => 0 < b) (b_bs bl);
  wf_bs_le : Forall2 le (b_bs bl) (b_size bl);
  wf_blocks : b_blocks bl = map2 ceil_div (b_size bl) (b_bs bl);
  wf_tbs : b_tbs bl = volume (b_bs bl);
  wf_total : b_total bl = volume (b_blocks bl)
}.

Lemma loop_block_size_le req size : loop_block_size req size <= size.
Proof. unfold loop_block_size. destruct (Nat.ltb_spec size
  (if (req =? 0)%Z then 64 else if (req <? 0)%Z then size else Z.to_nat req)); lia. Qed.

Lemma loop_block_size_pos req size : 0 < size -> 0 < loop_block_size req size.
Proof.
  unfold loop_block_size; intros H.
  destruct (Z.eqb_spec req 0); [destruct (Nat.ltb_spec size 64); lia|].
  destruct (Z.ltb_spec req 0).
  - destruct (Nat.ltb_spec size size); lia.
  - destruct (Nat.ltb_spec size (Z.to_nat req)); lia.
Qed.

Lemma volume_app l m : volume (l ++ m) = volume l * volume m.
Proof. induction l; cbn; lia. Qed.

(** Characterisation of the open loop: the effective block sizes. *)
Fixpoint eff_sizes (reqs : nat -> Z) (i : nat) (sizes : list nat) : list nat :=
  match sizes with
  | [] => []
  | s :: sizes' => loop_block_size (reqs i) s :: eff_sizes reqs (S i) sizes'
  end.

Lemma eff_sizes_length reqs i sizes : length (eff_sizes reqs i sizes) = length sizes.
Proof. revert i; induction sizes; cbn; auto. Qed.

Lemma open_loop_spec reqs i sizes arr blocks tbs tb r :
  open_loop reqs i sizes arr blocks tbs tb = Ok r ->
  exists arr',
    r = (arr', blocks ++ map2 ceil_div sizes (eff_sizes reqs i sizes),
         tbs * volume (eff_sizes reqs i sizes),
         tb * volume (map2 ceil_div sizes (eff_sizes reqs i sizes))) /\
    (forall j, j < i -> arr' j = arr j) /\
    map arr' (seq i (length sizes)) = eff_sizes reqs i sizes /\
    Forall (fun b => 0 < b) (eff_sizes reqs i sizes) /\
    Forall2 le (eff_sizes reqs i sizes) sizes.
Proof.
  revert i arr blocks tbs tb r.
  induction sizes as [|s sizes IH]; intros i arr blocks tbs tb r; cbn.
  - intros [= <-]. exists arr. rewrite app_nil_r, !Nat.mul_1_r. repeat split; auto.
  - unfold upd at 1. rewrite Nat.eqb_refl.
    destruct (Nat.eqb_spec (loop_block_size (reqs i) s) 0) as [E|E]; [discriminate|].
    intros H. apply IH in H as (arr' & -> & Hlt & Hm & Hp & Hle).
    unfold upd in *. exists arr'. rewrite Nat.eqb_refl in *. repeat split.
    + rewrite <- app_assoc. cbn [app].
      change ((s + loop_block_size (reqs i) s - 1) / loop_block_size (reqs i) s)
        with (ceil_div s (loop_block_size (reqs i) s)).
      rewrite <- !Nat.mul_assoc. reflexivity.
    + intros j Hj. rewrite Hlt by lia. destruct (Nat.eqb_spec j i); lia || auto.
    + f_equal; auto. rewrite Hlt by lia. now rewrite Nat.eqb_refl.
    + constructor; auto. lia.
    + constructor; auto. apply loop_block_size_le.
Qed.

Lemma open_loop_ok reqs i sizes arr blocks tbs tb :
  Forall (fun s => 0 < s) sizes ->
  exists r, open_loop reqs i sizes arr blocks tbs tb = Ok r.
Proof.
  intros H; revert i arr blocks tbs tb; induction H as [|s sizes Hs H IH];
    intros i arr blocks tbs tb; cbn; eauto.
  unfold upd at 1. rewrite Nat.eqb_refl.
  pose proof (loop_block_size_pos (reqs i) s Hs).
  destruct (Nat.eqb_spec (loop_block_size (reqs i) s) 0); [lia|]. apply IH.
Qed.

Lemma open_loop_ub reqs i sizes arr blocks tbs tb :
  ~ Forall (fun s => 0 < s) sizes ->
  open_loop reqs i sizes arr blocks tbs tb = Ub.
Proof.
  revert i arr blocks tbs tb; induction sizes as [|s sizes IH];
    intros i arr blocks tbs tb H; cbn; [exfalso; auto|].
  unfold upd at 1. rewrite Nat.eqb_refl.
  destruct (Nat.eqb_spec (loop_block_size (reqs i) s) 0); auto.
  apply IH. intros Hf; apply H. constructor; auto.
  pose proof (loop_block_size_le (reqs i) s). lia.
Qed.

Lemma blocked_open_spec sizes user td arr0 bl :
  blocked_open sizes user td arr0 = Ok bl ->
  wf_blocked bl /\ b_size bl = sizes /\
  b_bs bl = eff_sizes (fun i => user (length sizes - i - 1)) 0 sizes.
Proof.
  unfold blocked_open. intros H.
  match type of H with context [open_loop ?a ?b ?c ?d ?e ?f ?g] =>
    destruct (open_loop a b c d e f g) as [r|] eqn:E end; [|discriminate].
  apply open_loop_spec in E as (arr' & -> & _ & Hm & Hp & Hle).
  cbn in H. injection H as <-. cbn. rewrite Hm. split; [|split; reflexivity].
  constructor; cbn; auto; try lia.
  rewrite eff_sizes_length; auto.
Qed.

Lemma blocked_open_ok_iff sizes user td arr0 :
  (exists bl, blocked_open sizes user td arr0 = Ok bl) <->
  Forall (fun s => 0 < s) sizes.
Proof.
  unfold blocked_open. split.
  - intros [bl H]. destruct (Forall_dec (fun s => 0 < s) (fun s => lt_dec 0 s) sizes); auto.
    rewrite open_loop_ub in H by auto. discriminate.
  - intros H.
    match goal with |- context [open_loop ?a ?b ?c ?d ?e ?f ?g] =>
      destruct (open_loop_ok a b c d e f g H) as [r ->] end.
    destruct r as [[[arr blocks] tbs] tb]; cbn. eauto.
Qed.

(** ** Decomposition *)
Lemma block_loop_spec id blocks bs ix :
  length bs = length blocks -> length ix = length blocks ->
  block_loop id blocks bs ix = id * volume blocks + row_major blocks (map2 Nat.div ix bs).
Proof.
  revert id bs ix; induction blocks as [|n blocks IH]; intros id [|s bs] [|i ix];
    cbn -[Nat.div]; try discriminate; intros; [lia|].
  rewrite IH by lia. lia.
Qed.

Lemma offset_loop_spec off bs ix :
  length ix = length bs ->
  offset_loop off bs ix = off * volume bs + row_major bs (map2 Nat.modulo ix bs).
Proof.
  revert off ix; induction bs as [|s bs IH]; intros off [|i ix];
    cbn -[Nat.modulo]; try discriminate; intros; [lia|].
  rewrite IH by lia. lia.
Qed.

Lemma cbp_spec blocks p k :
  in_box blocks p ->
  cbp blocks (k * volume blocks + row_major blocks p) = (p, k).
Proof.
  intros H; revert k; induction H as [|i n p blocks Hi H IH]; intros k;
    cbn -[Nat.div Nat.modulo].
  - f_equal; lia.
  - replace (k * (n * volume blocks) + (i * volume blocks + row_major blocks p))
      with ((k * n + i) * volume blocks + row_major blocks p) by lia.
    rewrite IH. f_equal.
    + f_equal. rewrite Nat.add_comm, Nat.mod_add by lia. apply Nat.mod_small; auto.
    + rewrite Nat.add_comm, Nat.div_add by lia. rewrite Nat.div_small; auto.
Qed.

Lemma cbp_in_box blocks n :
  Forall (fun b => 0 < b) blocks -> in_box blocks (fst (cbp blocks n)) /\
  n = snd (cbp blocks n) * volume blocks + row_major blocks (fst (cbp blocks n)).
Proof.
  intros H; induction H as [|b blocks Hb H [IH1 IH2]]; cbn -[Nat.div Nat.modulo].
  - split; [constructor | lia].
  - destruct (cbp blocks n) as [pos rest]; cbn -[Nat.div Nat.modulo] in *. split.
    + apply in_box_cons. split; auto. apply Nat.mod_upper_bound. lia.
    + rewrite IH2. pose proof (Nat.div_mod rest b ltac:(lia)). nia.
Qed.

Section Decomposition.
  Context (bl : blocked) (Hwf : wf_blocked bl).

  Lemma len_blocks : length (b_blocks bl) = length (b_size bl).
  Proof. rewrite (wf_blocks _ Hwf). apply map2_length. now rewrite (wf_len _ Hwf). Qed.

  Lemma corner_in_box ix :
    in_box (b_size bl) ix -> in_box (b_blocks bl) (map2 Nat.div ix (b_bs bl)).
  Proof.
    rewrite (wf_blocks _ Hwf). pose proof (wf_len _ Hwf) as Hl. pose proof (wf_bs_pos _ Hwf) as Hp.
    revert ix; generalize dependent (b_bs bl). induction (b_size bl) as [|s sizes IH];
      intros [|b bs] Hl Hp ix H; cbn in Hl; try discriminate.
    - apply in_box_inv_nil in H as ->. constructor.
    - apply in_box_inv_cons in H as (i & ix' & -> & Hi & H). inversion Hp; subst.
      cbn -[Nat.div]. apply in_box_cons. split; [apply ceil_div_gt; auto | apply IH; auto].
  Qed.

  Lemma mod_in_box ix :
    in_box (b_size bl) ix -> in_box (b_bs bl) (map2 Nat.modulo ix (b_bs bl)).
  Proof.
    pose proof (wf_len _ Hwf) as Hl. pose proof (wf_bs_pos _ Hwf) as Hp.
    revert ix; generalize dependent (b_bs bl). induction (b_size bl) as [|s sizes IH];
      intros [|b bs] Hl Hp ix H; cbn in Hl; try discriminate.
    - apply in_box_inv_nil in H as ->. constructor.
    - apply in_box_inv_cons in H as (i & ix' & -> & Hi & H). inversion Hp; subst.
      cbn -[Nat.modulo]. apply in_box_cons.
      split; [apply Nat.mod_upper_bound; lia | apply IH; auto].
  Qed.

  Lemma block_by_coords_spec ix :
    length ix = length (b_size bl) ->
    block_by_coords bl ix = row_major (b_blocks bl) (map2 Nat.div ix (b_bs bl)).
  Proof.
    intros H. unfold block_by_coords. rewrite block_loop_spec; [lia| |];
      rewrite len_blocks; auto. apply (wf_len _ Hwf).
  Qed.

  Lemma calc_offset_spec ix :
    length ix = length (b_size bl) ->
    calc_offset_in_block bl ix = row_major (b_bs bl) (map2 Nat.modulo ix (b_bs bl)).
  Proof.
    intros H. unfold calc_offset_in_block. rewrite offset_loop_spec; [lia|].
    now rewrite (wf_len _ Hwf).
  Qed.

  Lemma block_lt ix : in_box (b_size bl) ix -> block_by_coords bl ix < b_total bl.
  Proof.
    intros H. rewrite block_by_coords_spec by (apply in_box_length; auto).
    rewrite (wf_total _ Hwf). apply row_major_lt, corner_in_box; auto.
  Qed.

  Lemma offset_lt ix : in_box (b_size bl) ix -> calc_offset_in_block bl ix < b_tbs bl.
  Proof.
    intros H. rewrite calc_offset_spec by (apply in_box_length; auto).
    rewrite (wf_tbs _ Hwf). apply row_major_lt, mod_in_box; auto.
  Qed.

  Lemma calc_block_position_spec ix :
    in_box (b_size bl) ix ->
    calc_block_position bl (block_by_coords bl ix) = map2 Nat.div ix (b_bs bl).
  Proof.
    intros H. unfold calc_block_position.
    rewrite block_by_coords_spec by (apply in_box_length; auto).
    pose proof (cbp_spec (b_blocks bl) (map2 Nat.div ix (b_bs bl)) 0 (corner_in_box _ H)) as E.
    cbn in E. rewrite E. auto.
  Qed.

  Lemma div_mod_inj ix jx :
    in_box (b_size bl) ix -> in_box (b_size bl) jx ->
    map2 Nat.div ix (b_bs bl) = map2 Nat.div jx (b_bs bl) ->
    map2 Nat.modulo ix (b_bs bl) = map2 Nat.modulo jx (b_bs bl) -> ix = jx.
  Proof.
    pose proof (wf_len _ Hwf) as Hl. pose proof (wf_bs_pos _ Hwf) as Hp.
    revert ix jx; generalize dependent (b_bs bl). induction (b_size bl) as [|s sizes IH];
      intros [|b bs] Hl Hp ix jx Hi Hj; cbn in Hl; try discriminate.
    - apply in_box_inv_nil in Hi as ->. apply in_box_inv_nil in Hj as ->. auto.
    - apply in_box_inv_cons in Hi as (i & ix' & -> & Hi1 & Hi).
      apply in_box_inv_cons in Hj as (j & jx' & -> & Hj1 & Hj). inversion Hp; subst.
      cbn -[Nat.div Nat.modulo]. intros E1 E2.
      assert (i / b = j / b) as E1a by congruence.
      assert (map2 Nat.div ix' bs = map2 Nat.div jx' bs) as E1b by congruence.
      assert (i mod b = j mod b) as E2a by congruence.
      assert (map2 Nat.modulo ix' bs = map2 Nat.modulo jx' bs) as E2b by congruence.
      f_equal; [|apply (IH bs); auto; lia].
      rewrite (Nat.div_mod i b), (Nat.div_mod j b) by lia. congruence.
  Qed.

  Lemma block_offset_inj ix jx :
    in_box (b_size bl) ix -> in_box (b_size bl) jx ->
    block_by_coords bl ix = block_by_coords bl jx ->
    calc_offset_in_block bl ix = calc_offset_in_block bl jx -> ix = jx.
  Proof.
    intros Hi Hj. pose proof (in_box_length _ _ Hi). pose proof (in_box_length _ _ Hj).
    rewrite !block_by_coords_spec, !calc_offset_spec by auto. intros E1 E2.
    apply div_mod_inj; auto.
    - eapply row_major_inj; eauto using corner_in_box.
    - eapply row_major_inj; eauto using mod_in_box.
  Qed.

  (** Every block id is the block of its own corner cell, which is inside the grid. *)
  Lemma corner_cell b :
    b < b_total bl ->
    let c := ix_mul (calc_block_position bl b) (b_bs bl) in
    in_box (b_size bl) c /\ block_by_coords bl c = b /\ calc_offset_in_block bl c = 0.
  Proof.
    intros Hb c.
    assert (Forall (fun b => 0 < b) (b_blocks bl)) as Hpos.
    { rewrite (wf_total _ Hwf) in Hb. assert (0 < volume (b_blocks bl)) as H0 by lia. clear -H0.
      induction (b_blocks bl) as [|n l IH]; constructor; cbn in H0.
      - destruct n; lia.
      - apply IH. destruct (volume l); lia. }
    destruct (cbp_in_box (b_blocks bl) b Hpos) as [H1 H2].
    fold (calc_block_position bl b) in *.
    assert (row_major (b_blocks bl) (calc_block_position bl b) = b) as E.
    { rewrite (wf_total _ Hwf) in Hb.
      pose proof (row_major_lt _ _ H1).
      assert (snd (cbp (b_blocks bl) b) = 0) as Ez by nia. rewrite Ez in H2. lia. }
    assert (in_box (b_size bl) c /\
            map2 Nat.div c (b_bs bl) = calc_block_position bl b /\
            row_major (b_bs bl) (map2 Nat.modulo c (b_bs bl)) = 0) as (Hc1 & Hc2 & Hc3).
    { subst c. unfold ix_mul. rewrite (wf_blocks _ Hwf) in H1.
      pose proof (wf_len _ Hwf) as Hl. pose proof (wf_bs_pos _ Hwf) as Hp.
      generalize dependent (calc_block_position bl b). intros p H1 _ _.
      clear -H1 Hl Hp. revert p H1; generalize dependent (b_bs bl).
      induction (b_size bl) as [|s sizes IH]; intros [|x bs] Hl Hp p H1; cbn in Hl; try discriminate.
      - apply in_box_inv_nil in H1 as ->. cbn. repeat split; constructor.
      - cbn in H1. apply in_box_inv_cons in H1 as (i & p' & -> & Hi & H1). inversion Hp; subst.
        cbn -[Nat.div Nat.modulo]. destruct (IH bs ltac:(lia) ltac:(auto) p' H1) as (A & B & C).
        rewrite Nat.div_mul, Nat.mod_mul by lia. rewrite B, C. repeat split; auto.
        apply in_box_cons. split; auto. apply ceil_div_corner; auto. }
    pose proof (in_box_length _ _ Hc1).
    split; auto. rewrite block_by_coords_spec, calc_offset_spec by auto.
    rewrite Hc2, Hc3. auto.
  Qed.
End Decomposition.

Lemma add_mul_inj a b a' b' n : a < n -> a' < n -> a + b * n = a' + b' * n -> a = a' /\ b = b'.
Proof.
  intros Ha Ha' E.
  destruct (lt_eq_lt_dec b b') as [[H|H]|H].
  - assert ((b + 1) * n <= b' * n) by (apply Nat.mul_le_mono_r; lia). lia.
  - subst; lia.
  - assert ((b' + 1) * n <= b * n) by (apply Nat.mul_le_mono_r; lia). lia.
Qed.

(** ** Distribution *)
Section Distribution.
  Context (d : dist) (HP : 0 < d_ranks d) (HD : 0 < d_domains d).

  Lemma local_count_cover : d_total d <= local_block_count d * d_domains d * d_ranks d.
  Proof.
    unfold local_block_count.
    set (c := d_domains d * d_ranks d). assert (0 < c) by (subst c; nia).
    pose proof (Nat.div_mod (d_total d + c - 1) c ltac:(lia)).
    pose proof (Nat.mod_upper_bound (d_total d + c - 1) c ltac:(lia)). nia.
  Qed.

  Lemma local_count_tight : 0 < d_total d ->
    (local_block_count d - 1) * (d_domains d * d_ranks d) < d_total d.
  Proof.
    unfold local_block_count.
    set (c := d_domains d * d_ranks d). assert (0 < c) by (subst c; nia). intros.
    pose proof (Nat.div_mod (d_total d + c - 1) c ltac:(lia)).
    pose proof (Nat.mod_upper_bound (d_total d + c - 1) c ltac:(lia)). nia.
  Qed.

  Lemma local_count_pos id : id < d_total d -> 0 < local_block_count d.
  Proof. intros. pose proof local_count_cover. nia. Qed.

  Lemma owner_bounds id : id < d_total d ->
    block_rank d id < d_ranks d /\ block_domain d id < d_domains d /\
    block_offset d id < local_block_count d.
  Proof.
    intros H. pose proof local_count_cover as Hc. pose proof (local_count_pos _ H) as Hl.
    unfold block_rank, block_domain, block_offset, node_block_count.
    destruct (d_mode d).
    - repeat split; try (apply Nat.mod_upper_bound; lia).
      rewrite Nat.div_div by lia. apply Nat.div_lt_upper_bound; nia.
    - repeat split; try (apply Nat.mod_upper_bound; lia).
      apply Nat.div_lt_upper_bound; nia.
  Qed.

  Lemma local2global_owner id : id < d_total d ->
    local2global d (block_rank d id) (block_domain d id) (block_offset d id) = id.
  Proof.
    intros H. pose proof (local_count_pos _ H) as Hl.
    unfold local2global, block_rank, block_domain, block_offset, node_block_count.
    destruct (d_mode d).
    - pose proof (Nat.div_mod id (d_ranks d) ltac:(lia)).
      pose proof (Nat.div_mod (id / d_ranks d) (d_domains d) ltac:(lia)). nia.
    - rewrite <- Nat.div_div by lia.
      pose proof (Nat.div_mod id (local_block_count d) ltac:(lia)).
      pose proof (Nat.div_mod (id / local_block_count d) (d_domains d) ltac:(lia)). nia.
  Qed.

  Lemma owner_local2global r dom k :
    r < d_ranks d -> dom < d_domains d -> k < local_block_count d ->
    block_rank d (local2global d r dom k) = r /\
    block_domain d (local2global d r dom k) = dom /\
    block_offset d (local2global d r dom k) = k.
  Proof.
    intros Hr Hd Hk.
    unfold local2global, block_rank, block_domain, block_offset, node_block_count.
    destruct (d_mode d).
    - assert (((k * d_domains d + dom) * d_ranks d + r) / d_ranks d = k * d_domains d + dom) as E.
      { symmetry. apply Nat.div_unique with r; lia. }
      rewrite E. repeat split.
      + symmetry. apply Nat.mod_unique with (k * d_domains d + dom); lia.
      + symmetry. apply Nat.mod_unique with k; lia.
      + symmetry. apply Nat.div_unique with dom; lia.
    - set (L := local_block_count d) in *.
      assert ((k + (dom + r * d_domains d) * L) / L = dom + r * d_domains d) as E.
      { symmetry. apply Nat.div_unique with k; lia. }
      rewrite <- Nat.div_div by lia. rewrite E. repeat split.
      + symmetry. apply Nat.div_unique with dom; lia.
      + symmetry. apply Nat.mod_unique with r; lia.
      + symmetry. apply Nat.mod_unique with (dom + r * d_domains d); lia.
  Qed.

  (** [local2global] is monotone in the local id, so the early [break] of the
      loading loop skips nothing. *)
  Lemma local2global_mono r dom k k' : k <= k' -> local2global d r dom k <= local2global d r dom k'.
  Proof.
    unfold local2global. intros H. destruct (d_mode d).
    - apply Nat.add_le_mono_r, Nat.mul_le_mono_r, Nat.add_le_mono_r, Nat.mul_le_mono_r; auto.
    - apply Nat.add_le_mono_r; auto.
  Qed.

  Lemma node_offset_lt id : id < d_total d -> block_node_offset d id < node_block_count d.
  Proof.
    intros H. destruct (owner_bounds id H) as (_ & H2 & H3).
    unfold block_node_offset, node_block_count. nia.
  Qed.

  Lemma node_offset_inj id id' : id < d_total d -> id' < d_total d ->
    block_rank d id = block_rank d id' ->
    block_node_offset d id = block_node_offset d id' -> id = id'.
  Proof.
    intros H H' Er En.
    destruct (owner_bounds id H) as (A & B & C).
    destruct (owner_bounds id' H') as (A' & B' & C').
    unfold block_node_offset in En.
    apply add_mul_inj in En as [Eo Ed]; auto.
    rewrite <- (local2global_owner id H), <- (local2global_owner id' H'). congruence.
  Qed.
End Distribution.
