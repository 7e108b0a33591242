(** * Property level lemmas about the dictionary *)
From Verif Require Export DictProofs.

Lemma dictionary_spec os :
  legal os [] ->
  exists l, drun dict_init os = Ok (map Some l ++ repeat None (4 - length l)) /\
    length l <= 4 /\ NoDup l /\ subseq l (live os []) /\
    (forall r, exists x count, fetch_block_info (map Some l ++ repeat None (4 - length l)) r = Ok (x, count) /\
       count = length l /\ (x = None <-> l = []) /\ (forall e, x = Some e -> In e l)) /\
    (forall e, exists rest, drun dict_init (os ++ [DAdd e]) = Ok (Some e :: rest)) /\
    (forall r e, exists rest, drun dict_init (os ++ [DFetchAdd r e]) = Ok (Some e :: rest)).
Proof.
  intros Hg. destruct (drun_spec os [] [] ltac:(cbn; lia) (subseq_refl _) ltac:(constructor) Hg)
    as (l & E & Hl & Hs & Hn).
  rewrite <- rep_init in E. exists l. split; auto. split; auto.
  split; [eapply subseq_NoDup; eauto|]. split; auto. split.
  { intros r. destruct (fetch_rep l r Hl) as (x & Ef & _ & H1 & H2). exists x, (length l). auto. }
  assert (forall a b d, drun d (a ++ b) = (do d' <- drun d a; drun d' b)) as Happ.
  { intros a. induction a as [|o a IH]; intros; cbn; auto. destruct (dstep d o); cbn; auto. }
  split; intros; rewrite Happ, E; cbn [obind drun dstep].
  - rewrite update_rep by auto. cbn [obind]. eexists. reflexivity.
  - destruct (fetch_update_rep l r e Hl) as (x & Ef & _). rewrite Ef. cbn. eexists. reflexivity.
Qed.

Lemma double_add_stays :
  drun dict_init [DAdd 5; DAdd 5; DDel 5] = Ok [Some 5; None; None; None].
Proof. reflexivity. Qed.

Lemma delete_refuted :
  exists os e x d d', legal os [] /\ drun dict_init os = Ok d /\ delete_block_info d e = Ok d' /\
    x <> e /\ In (Some x) d /\ ~ In (Some x) d'.
Proof.
  exists [DAdd 1; DAdd 2; DAdd 3; DAdd 4; DAdd 5], 1, 2.
  eexists. eexists. split; [cbn; intuition discriminate|]. split; [reflexivity|]. split; [reflexivity|].
  cbn. intuition discriminate.
Qed.

Lemma delete_present os d e :
  legal os [] -> drun dict_init os = Ok d -> In (Some e) d ->
  exists d', delete_block_info d e = Ok d' /\ ~ In (Some e) d' /\
    forall x, x <> e -> In (Some x) d' <-> In (Some x) d.
Proof.
  intros Hg E Hin.
  destruct (drun_spec os [] [] ltac:(cbn; lia) (subseq_refl _) ltac:(constructor) Hg)
    as (l & E' & Hl & Hs & Hn).
  rewrite <- rep_init, E in E'. injection E' as ->.
  assert (forall l x, In (Some x) (rep l) <-> In x l) as Hrep.
  { intros k x. unfold rep. rewrite in_app_iff, in_map_iff. split; [|eauto].
    intros [(y & Hy & ?)|H]; [congruence|]. apply repeat_spec in H. discriminate. }
  rewrite Hrep in Hin. rewrite delete_rep by auto. eexists. split; [reflexivity|].
  split; [rewrite Hrep; apply del_list_not_In; eapply subseq_NoDup; eauto|].
  intros x Hx. rewrite !Hrep. split.
  - apply subseq_In, subseq_del.
  - apply del_list_other; auto.
Qed.

Local Open Scope Z_scope.
Lemma add_mul_div a b c : 0 <= a -> 0 <= c < b -> (a * b + c) / b = a /\ (a * b + c) mod b = c.
Proof.
  intros Ha Hc. split.
  - rewrite Z.add_comm, Z.div_add by lia. rewrite Z.div_small; lia.
  - rewrite Z.add_comm, Z.mod_add by lia. apply Z.mod_small; lia.
Qed.

Lemma encodings n D P T dicts :
  0 < n -> 0 < D -> n * D < 2 ^ 32 -> P * (n * D) <= 2 ^ 63 -> 0 < T -> P * T <= 2 ^ 32 ->
  dicts * (n * D) <= 2 ^ 64 ->
  (forall rank domain slot, 0 <= rank < P -> 0 <= domain < D -> 0 <= slot < n ->
     let e := enc_entry (rank_cache_size n D) rank (node_slot n domain slot) in
     0 <= e /\
     dec_entry (rank_cache_size n D) e = (rank, node_slot n domain slot) /\
     node_slot n domain slot / n = domain /\ node_slot n domain slot mod n = slot) /\
  (forall dictOff domain slot, 0 <= dictOff < dicts -> 0 <= domain < D -> 0 <= slot < n ->
     dec_msg (rank_cache_size n D) (enc_msg (rank_cache_size n D) dictOff (node_slot n domain slot))
     = (dictOff, node_slot n domain slot)) /\
  (forall rank thread, 0 <= rank < P -> 0 <= thread < T ->
     0 <= lock_id T rank thread /\ dec_lock T (lock_id T rank thread) = (rank, thread)).
Proof.
  intros Hn HD HnD HP HT HPT Hdicts.
  assert (rank_cache_size n D = n * D) as Ercs by (unfold rank_cache_size, u32; apply Z.mod_small; nia).
  assert (forall domain slot, 0 <= domain < D -> 0 <= slot < n ->
    node_slot n domain slot = domain * n + slot /\ 0 <= domain * n + slot < n * D) as Hns.
  { intros d s Hd Hs. assert (d * n + s < n * D) by nia. split; [|nia]. unfold node_slot, u64, u32.
    rewrite (Z.mod_small (n * d)) by nia. rewrite Z.mod_small by nia. lia. }
  rewrite Ercs. split; [|split].
  - intros rank d s Hr Hd Hs. destruct (Hns d s Hd Hs) as [-> Hb].
    assert (rank * (n * D) + (d * n + s) < 2 ^ 63) by nia.
    unfold enc_entry, to_long, u64. rewrite Z.mod_small by nia.
    destruct (Z.ltb_spec (rank * (n * D) + (d * n + s)) (2 ^ 63)); [|lia].
    cbn zeta. split; [nia|]. unfold dec_entry.
    destruct (add_mul_div rank (n * D) (d * n + s) ltac:(lia) ltac:(lia)) as [-> ->].
    destruct (add_mul_div d n s ltac:(lia) ltac:(lia)) as [-> ->]. auto.
  - intros k d s Hk Hd Hs. destruct (Hns d s Hd Hs) as [-> Hb].
    unfold enc_msg, dec_msg, u64. rewrite Z.mod_small by nia.
    destruct (add_mul_div k (n * D) (d * n + s) ltac:(lia) ltac:(lia)) as [-> ->]. auto.
  - intros r t Hr Ht. unfold lock_id, dec_lock, u32. rewrite Z.mod_small by nia. split; [nia|].
    destruct (add_mul_div r T t ltac:(lia) ltac:(lia)) as [-> ->]. auto.
Qed.
