(** * Counters after arbitrary read histories *)
From Verif Require Export LevelsProofs.

Definition kind_eqb (a b : read_kind) : bool :=
  match a, b with
  | KHit, KHit | KNuma, KNuma | KMpi, KMpi | KFile, KFile => true
  | _, _ => false
  end.

(** Number of reads of a kind. *)
Definition count (k : read_kind) (ks : list read_kind) : nat :=
  length (filter (kind_eqb k) ks).

Definition count_all (ks : list read_kind) (c : counters) : counters :=
  fold_left (fun c k => count_kind k c) ks c.

Lemma count_all_spec ks c :
  count_all ks c = Counters (n_access c + length ks) (n_numa c + count KNuma ks)
                            (n_mpi c + count KMpi ks) (n_file c + count KFile ks).
Proof.
  revert c; induction ks as [|k ks IH]; intros [a nu mp fi]; cbn.
  - f_equal; lia.
  - unfold count_all in IH. rewrite IH. destruct k; cbn; unfold count; cbn; f_equal; lia.
Qed.

Lemma count_total ks :
  count KHit ks + count KNuma ks + count KMpi ks + count KFile ks = length ks.
Proof. induction ks as [|[] ks IH]; unfold count in *; cbn in *; lia. Qed.

(** What the user sees. *)
Definition reported (c : counters) (ks : list read_kind) : Prop :=
  counter_get c CAccess = Z.of_nat (length ks) /\
  counter_get c CNuma = Z.of_nat (count KNuma ks) /\
  counter_get c CMpi = Z.of_nat (count KMpi ks) /\
  counter_get c CFile = Z.of_nat (count KFile ks) /\
  counter_get c CHit = Z.of_nat (count KHit ks) /\
  counter_get c CNodeHit = Z.of_nat (count KHit ks + count KNuma ks) /\
  counter_get c CMiss = Z.of_nat (count KNuma ks + count KMpi ks + count KFile ks).

Lemma reported_count_all ks :
  (Z.of_nat (length ks) < 2 ^ 64)%Z -> reported (count_all ks counters0) ks.
Proof.
  intros H. rewrite count_all_spec. cbn [counters0 n_access n_numa n_mpi n_file Nat.add].
  pose proof (count_total ks). unfold reported, counter_get, wrap64.
  cbn [n_access n_numa n_mpi n_file].
  repeat split; rewrite Z.mod_small; lia.
Qed.

Section Kinds.
  Context {V : Type}.

  (** Kinds of the reads of a Cache level: a read is a hit iff the block is in
      the cache when the read starts. *)
  Fixpoint cache_kinds (g : geom V) (s : cache_state V) (ixs : list (list nat)) : list read_kind :=
    match ixs with
    | [] => []
    | ix :: ixs' =>
        (if in_cache (cs_list s) (block_by_coords (g_bl g) ix) then KHit else KFile) ::
        match cache_get g s ix with
        | Ok (s', _) => cache_kinds g s' ixs'
        | Ub => []
        end
    end.

  (** Kinds of the reads issued on rank [r], domain [dom] in a FullDist history. *)
  Fixpoint fd_kinds (p : numa_policy) (mp : mpi_policy) (g : geom V) (d : dist) (s : fd_state V)
      (rs : list (nat * nat * list nat)) (r dom : nat) : list read_kind :=
    match rs with
    | [] => []
    | (r', dom', ix) :: rs' =>
        (if (r' =? r) && (dom' =? dom)
         then [fd_kind d p s r dom (block_by_coords (g_bl g) ix)] else []) ++
        match fd_get p mp g d s r' dom' ix with
        | Ok (s', _) => fd_kinds p mp g d s' rs' r dom
        | Ub => []
        end
    end.

  Lemma cache_counters (g : geom V) (Hg : wf_geom g) n h s ixs s' vs :
    cs_ok g n h s -> Forall (in_box (f_size (g_file g))) ixs ->
    cache_run g s ixs = Ok (s', vs) ->
    cs_cnt s' = count_all (cache_kinds g s ixs) (cs_cnt s) /\
    length (cache_kinds g s ixs) = length ixs.
  Proof.
    intros Hok H; revert s Hok s' vs; induction H as [|ix ixs Hi H IH]; intros s Hok s' vs.
    - cbn. intros [= <- <-]. auto.
    - cbn [cache_run cache_kinds]. destruct (cache_get_spec g Hg n h s ix Hok Hi) as (s1 & E & Hok1 & Hc).
      rewrite E. cbn [obind]. destruct (cache_run g s1 ixs) as [[s2 vs2]|] eqn:E2; [|discriminate].
      cbn [obind]. intros [= <- <-]. destruct (IH s1 Hok1 s2 vs2 E2) as [Hc2 Hl]. cbn [length].
      split; [|lia]. rewrite Hc2, Hc. unfold count_all. cbn [fold_left]. f_equal.
      unfold in_cache. destruct (c_b2i (cs_list s) (block_by_coords (g_bl g) ix)); auto.
  Qed.

  Lemma fd_counters (g : geom V) (Hg : wf_geom g) d (HP : 0 < d_ranks d) (HD : 0 < d_domains d)
      (Ht : d_total d = b_total (g_bl g)) p mp n h s rs s' vs r dom :
    (mp = PMpiNo -> p <> PNumaNo /\ d_ranks d = 1) ->
    fd_ok g d n h s ->
    Forall (fun '(r, dom, ix) => r < d_ranks d /\ dom < d_domains d /\ in_box (f_size (g_file g)) ix) rs ->
    fd_run p mp g d s rs = Ok (s', vs) ->
    fd_cnt s' r dom = count_all (fd_kinds p mp g d s rs r dom) (fd_cnt s r dom) /\
    length (fd_kinds p mp g d s rs r dom) =
      length (filter (fun '(r', dom', _) => (r' =? r) && (dom' =? dom)) rs).
  Proof.
    intros Hmp Hok H; revert s Hok s' vs;
      induction H as [|[[r1 dom1] ix] rs (Hr & Hd & Hi) H IH]; intros s Hok s' vs.
    - cbn. intros [= <- <-]. auto.
    - cbn [fd_run fd_kinds].
      destruct (fd_get_spec g Hg d HP HD Ht p mp n h s r1 dom1 ix Hmp Hok Hr Hd Hi)
        as (s1 & E & Hok1 & Ho & Hc).
      rewrite E. cbn [obind]. destruct (fd_run p mp g d s1 rs) as [[s2 vs2]|] eqn:E2; [|discriminate].
      cbn [obind]. intros [= <- <-]. destruct (IH s1 Hok1 s2 vs2 E2) as [Hc2 Hl].
      cbn [filter]. destruct ((r1 =? r) && (dom1 =? dom)) eqn:Ee; cbn [app length].
      + apply andb_true_iff in Ee as [E1 E2']. apply Nat.eqb_eq in E1, E2'. subst r1 dom1.
        split; [|lia]. rewrite Hc2, Hc. reflexivity.
      + split; [|auto]. rewrite Hc2. f_equal. apply Ho. intros [= -> ->].
        rewrite !Nat.eqb_refl in Ee. discriminate.
  Qed.

  Lemma full_run_spec (g : geom V) (Hg : wf_geom g) d (HP : 0 < d_ranks d) (HD : 0 < d_domains d)
      (Ht : d_total d = b_total (g_bl g)) m c ixs :
    d_ranks d = 1 -> d_domains d = 1 ->
    store_ok g d 0 m -> Forall (in_box (f_size (g_file g))) ixs ->
    full_run g d (domain_base g d 0) m c ixs =
      Ok (count_all (repeat KHit (length ixs)) c, map (fun ix => Some (f_val (g_file g) ix)) ixs).
  Proof.
    intros H1 H2 Hst H; revert c; induction H as [|ix ixs Hi H IH]; intros c; cbn [full_run map]; auto.
    unfold full_get_counted.
    assert (block_by_coords (g_bl g) ix < d_total d) as Hb.
    { rewrite Ht. apply block_lt; [apply Hg|]. now rewrite (wg_size _ Hg). }
    destruct (owner_bounds d HP HD _ Hb) as (A & B & _).
    pose proof (full_get_spec g Hg d HP HD Ht 0 m ix Hst Hi ltac:(lia)) as E.
    replace (block_domain d (block_by_coords (g_bl g) ix)) with 0 in E by lia.
    rewrite E. cbn [obind]. rewrite IH. reflexivity.
  Qed.

  Lemma pass_seq_spec opaque (f : file V) m c rs :
    f_size f <> [] ->
    Forall (fun '(t, ix) => t < m_len m /\ in_box (f_size f) ix) rs ->
    exists m', pass_seq opaque f m c rs =
      Ok (m', count_all (repeat KFile (length rs)) c, map (fun '(_, ix) => Some (f_val f ix)) rs).
  Proof.
    intros Hne. revert m c; induction rs as [|[t ix] rs IH]; intros m c H; cbn [pass_seq map]; [cbn; eauto|].
    inversion H as [|? ? Hh H']; subst; cbn in Hh; destruct Hh as [Ht Hi].
    unfold pass_get, pass_read. destruct (pass_load_spec opaque f m t ix Hne Hi Ht) as (m1 & E & Hl & Hv & _).
    rewrite E. cbn [obind]. rewrite mem_rd_ok by lia. cbn [obind]. rewrite Hv.
    destruct (IH m1 (inc_file (inc_access c))) as (m2 & E2); [now rewrite Hl|].
    rewrite E2. cbn [obind]. eexists. reflexivity.
  Qed.
End Kinds.
