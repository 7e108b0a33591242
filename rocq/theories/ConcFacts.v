(** * Property level lemmas about concurrent caches *)
From Verif Require Export ConcLive LevelsFacts.

Definition oeq_dec (a b : option nat) : {a = b} + {a <> b}.
Proof. decide equality. apply Nat.eq_dec. Defined.

Section Facts.
Context {V : Type} (c : cfg V).
Local Notation n := (cf_size c).
Local Notation D := (cf_doms c).
Local Notation K := (cf_cells c).
Local Notation P := (cf_ranks c).

(** Every read completed so far returned the content of its block; the completed
    and the remaining reads are the program. *)
Definition answers_ok (s : st V) : Prop :=
  forall t, map fst (t_done (s_thr s t)) ++ t_todo (s_thr s t) = cf_prog c t /\
    Forall (fun '(b, cell, v) => v = Some (cf_file c b cell)) (t_done (s_thr s t)).

(** Memory accesses: (rank, offset) of the block a thread is about to write ... *)
Definition writes (s : st V) (t : nat) : option (nat * nat) :=
  let own i := Some (cf_rank c t, node_off c (cf_dom c t) i) in
  match t_pc (s_thr s t) with
  | PCopy i _ _ _ | PXfer i _ _ | PFill i | PFilling i | PWaitBlk i _ => own i
  | _ => None
  end.
(** ... and to read. *)
Definition reads (s : st V) (o : owner) : option (nat * nat) :=
  match o with
  | Usr t =>
      match t_pc (s_thr s t) with
      | PCopy _ k j _ => Some (cf_rank c t, node_off c k j)
      | PXfer _ e _ => Some (e / (n * D), e mod (n * D))
      | PReady i => Some (cf_rank c t, node_off c (cf_dom c t) i)
      | _ => None
      end
  | Com r =>
      match s_com s r with
      | CSend _ _ k j _ _ => Some (r, node_off c k j)
      | _ => None
      end
  end.

(** Slots in use: from locking the slot to unlocking it. *)
Definition uses (s : st V) (o : owner) (a : nat * nat) : Prop :=
  match o with
  | Usr t => exists i, pc_own (t_pc (s_thr s t)) = Some i /\ a = (cf_rank c t, node_off c (cf_dom c t) i) \/
             exists k j, pc_for (t_pc (s_thr s t)) = Some (k, j) /\ a = (cf_rank c t, node_off c k j)
  | Com r => exists k j, com_for (s_com s r) = Some (k, j) /\ a = (r, node_off c k j)
  end.

Hypothesis Hwf : wf_cfg c.

Lemma answers s : reachable c s -> answers_ok s.
Proof.
  intros Hr t. destruct (reach_inv c Hwf s Hr) as [_ Hj]. destruct (j_thr c s Hj t) as (_ & _ & _ & Hf & E).
  split; auto. eapply Forall_impl; [|exact Hf]. intros [[b cell] v] H. exact H.
Qed.

Lemma uses_lock s o a : inv1 c s -> uses s o a -> s_lock s (LSlot (fst a) (snd a)) = Some o.
Proof.
  intros Hi H. destruct o as [t|r]; cbn in H.
  - destruct H as [i [[E ->]|(k & j & E & ->)]]; cbn [fst snd].
    + apply held_own; auto.
    + apply held_for; auto.
  - destruct H as (k & j & E & ->). cbn [fst snd]. apply held_cfor; auto.
Qed.

Lemma slot_exclusive s o o' a : reachable c s -> uses s o a -> uses s o' a -> o = o'.
Proof.
  intros Hr H H'. destruct (reach_inv c Hwf s Hr) as [Hi _].
  apply (uses_lock s o a Hi) in H. apply (uses_lock s o' a Hi) in H'. congruence.
Qed.

Lemma writes_own s t a : inv1 c s -> writes s t = Some a ->
  exists i, i < n /\ pc_own (t_pc (s_thr s t)) = Some i /\ a = (cf_rank c t, node_off c (cf_dom c t) i) /\ pc_stb (s_thr s t) = None.
Proof.
  intros Hi H. unfold writes, pc_stb in *. pose proof (fun i => own_lt c s t i Hi) as Ho.
  destruct (t_pc (s_thr s t)); try discriminate; injection H as <-; cbn in Ho; eexists; repeat split; eauto.
Qed.

(** Nobody reads or writes a block while a thread writes it. *)
Lemma no_race s t o a : reachable c s -> writes s t = Some a ->
  (reads s o = Some a \/ exists t', o = Usr t' /\ writes s t' = Some a) -> o = Usr t.
Proof.
  intros Hr Hw Hx. destruct (reach_inv c Hwf s Hr) as [Hi Hj].
  destruct (writes_own s t a Hi Hw) as (i & Hin & Eo & Ea & Es).
  pose proof (held_own c s t i Hi Eo) as Hl.
  destruct Hx as [Hx|(t' & -> & Hw')].
  - destruct o as [t'|r]; cbn in Hx.
    + destruct (t_pc (s_thr s t')) eqn:Ep; try discriminate.
      * assert (a = (cf_rank c t', node_off c k j)) as Ea' by congruence.
        assert (pc_for (t_pc (s_thr s t')) = Some (k, j)) as Ef by (rewrite Ep; reflexivity).
        pose proof (held_for c s t' k j Hi Ef) as Hl'. congruence.
      * (* transfer through the window *)
        exfalso. destruct (j_xfer c s Hj t' _ _ _ Ep) as [_ Hs]. cbn zeta in Hs.
        pose proof (e_off c Hwf e) as Hoff. unfold e_dom, e_slot in Hoff.
        assert (e / (n * D) = cf_rank c t /\ e mod (n * D) = node_off c (cf_dom c t) i) as [E1 E2] by (split; congruence).
        rewrite E2 in Hoff. apply (node_off_inj c Hwf) in Hoff as [E3 E4]; auto; [|apply Nat.mod_upper_bound; lia].
        rewrite E1, E2, E3, E4, (view_own c _ s t i Hi Eo) in Hs. congruence.
      * assert (pc_own (t_pc (s_thr s t')) = Some i0) as Ef by (rewrite Ep; reflexivity).
        pose proof (held_own c s t' i0 Hi Ef) as Hl'. congruence.
    + destruct (s_com s r) eqn:Ep; try discriminate.
      assert (com_for (s_com s r) = Some (k, j)) as Ef by (rewrite Ep; reflexivity).
      pose proof (held_cfor c s r k j Hi Ef) as Hl'. congruence.
  - destruct (writes_own s t' a Hi Hw') as (i' & Hin' & Eo' & Ea' & Es').
    pose proof (held_own c s t' i' Hi Eo') as Hl'. congruence.
Qed.

(** [writes] is complete: memory changes only where the moving thread writes. *)
Lemma writes_complete s a s' r o : step c s a = Some s' ->
  s_data s' r o = s_data s r o \/ exists t ch, a = AThr t ch /\ writes s t = Some (r, o).
Proof.
  intros H. destruct a as [t ch|q ch]; cbn in H.
  - assert (s_data s' r o = s_data s r o \/ writes s t = Some (r, o)) as [E|E]; [|left; auto|right; eauto].
    unfold writes. destruct (s_thr s t) as [p todo dn] eqn:Et. open_step H. rewrite Et in H. cbn [t_pc t_todo t_done] in *.
    repeat break; proj; auto.
    all: match goal with |- context [updp ?f ?i ?j ?a ?r ?q] =>
      destruct (updp_cases f i j a r q) as [(-> & -> & ->)|(_ & ->)] end; auto.
  - left. destruct (cf_mode c); try discriminate. destruct (q <? P); [|discriminate].
    now destruct (frame_com c _ _ _ _ H) as (_ & _ & -> & _).
Qed.

(** The dictionary entry of a block as list of locations. *)
Definition listed (s : st V) (b e : nat) : Prop := In (Some e) (s_dict s b).

Lemma rep_In l e : In (Some e) (rep l) <-> In e l.
Proof.
  unfold rep. rewrite in_app_iff. split.
  - intros [H|H]; [apply in_map_iff in H as (x & Hx & H); congruence|]. apply repeat_spec in H. discriminate.
  - intros H. left. apply in_map. auto.
Qed.

(** Whoever may look at an entry finds complete blocks. *)
Lemma usable_entries s b e : reachable c s -> cf_mode c = MWin -> listed s b e ->
  (s_lock s (LDict b) = None \/
   exists t i, s_lock s (LDict b) = Some (Usr t) /\ t_pc (s_thr s t) = PStartHold i) ->
  forall x, x < K -> s_data s (e / (n * D)) (e mod (n * D)) x = Some (cf_file c b x).
Proof.
  intros Hr Hm Hl Hk x Hx. destruct (reach_inv c Hwf s Hr) as [Hi Hj].
  destruct (j_dict c s Hj Hm b) as (l & Ed & Hnd & Hlst). unfold listed in Hl. rewrite Ed in Hl. apply rep_In in Hl.
  specialize (Hlst e Hl). cbn zeta in Hlst.
  pose proof (e_off c Hwf e) as Hoff. unfold e_dom, e_slot in Hoff. rewrite <- Hoff.
  assert (e mod (n * D) mod n < n) as Hs by (apply Nat.mod_upper_bound; pose proof (wc_n c Hwf); lia).
  apply (j_good c s Hj); auto.
  unfold view in *.
  destruct (s_lock s (LSlot _ _)) as [[t'|]|] eqn:E; auto.
  destruct (Nat.eqb_spec (cf_dom c t') (e mod (n * D) / n)) as [Ed'|]; auto.
  pose proof (fun b => held_dl c s t' b Hi) as Hdl. unfold pc_lst, pc_stb in *.
  destruct (t_pc (s_thr s t')) eqn:Ep; try discriminate; auto; cbn in Hdl; rewrite ?Hm in Hdl;
    specialize (Hdl _ eq_refl); destruct Hk as [Hk|(t & i' & Hk & Hp)]; try congruence.
Qed.

(** A location is listed at most once, and for one block only. *)
Lemma listed_once s b b' e : reachable c s -> cf_mode c = MWin -> listed s b e ->
  (listed s b' e -> b = b') /\ count_occ oeq_dec (s_dict s b) (Some e) = 1.
Proof.
  intros Hr Hm Hl. destruct (reach_inv c Hwf s Hr) as [Hi Hj].
  destruct (j_dict c s Hj Hm b) as (l & Ed & Hnd & Hlst). unfold listed in *. rewrite Ed in *. apply rep_In in Hl.
  split.
  - intros H'. destruct (j_dict c s Hj Hm b') as (l' & Ed' & Hnd' & Hlst'). rewrite Ed' in H'. apply rep_In in H'.
    specialize (Hlst e Hl). specialize (Hlst' e H'). cbn zeta in *. congruence.
  - unfold rep. rewrite count_occ_app.
    assert (count_occ oeq_dec (map Some l) (Some e) = count_occ Nat.eq_dec l e) as ->.
    { clear. induction l as [|x l IH]; cbn [map count_occ]; auto. destruct (oeq_dec (Some x) (Some e)), (Nat.eq_dec x e); congruence. }
    rewrite (proj1 (NoDup_count_occ' Nat.eq_dec l) Hnd e Hl).
    assert (count_occ oeq_dec (repeat None (dict_size - length l)) (Some e) = 0) as ->; auto.
    apply count_occ_not_In. intros H. apply repeat_spec in H. discriminate.
Qed.

(** Replies: the reply which waits for a thread is the only one and answers its request. *)
Lemma replies_match s t dst i : reachable c s -> t_pc (s_thr s t) = PWaitBlk i dst ->
  length (s_brep s (cf_rank c t) dst) <= 1 /\
  (forall t' i' dst', t_pc (s_thr s t') = PWaitBlk i' dst' -> cf_rank c t' = cf_rank c t -> t' = t) /\
  forall b x q, s_brep s (cf_rank c t) dst = (b, x) :: q ->
    b = req (s_thr s t) /\ forall buf, x = Some buf -> forall z, z < K -> buf z = Some (cf_file c (req (s_thr s t)) z).
Proof.
  intros Hr Ep. destruct (reach_inv c Hwf s Hr) as [Hi Hj]. split; [|split].
  - destruct (s_brep s (cf_rank c t) dst) as [|[b x] q] eqn:E; auto.
    destruct (brep_head c s t i dst b x q Hi Hj Ep E) as (_ & -> & _). auto.
  - intros t' i' dst' Ep' Er.
    assert (s_lock s (LBlk (cf_rank c t)) = Some (Usr t)) as El by (eapply held_msg; eauto; rewrite Ep; reflexivity).
    assert (s_lock s (LBlk (cf_rank c t')) = Some (Usr t')) as El' by (eapply held_msg; eauto; rewrite Ep'; reflexivity).
    congruence.
  - intros b x q E. destruct (brep_head c s t i dst b x q Hi Hj Ep E) as (-> & _ & _). split; auto.
    intros buf -> z Hz. pose proof (j_bufs c s Hj (cf_rank c t) dst) as Hb. rewrite E in Hb.
    inversion Hb as [|? ? Hb1 _]; subst. exact (Hb1 _ eq_refl z Hz).
Qed.

Lemma info_match s t i b x q : reachable c s -> t_pc (s_thr s t) = PWaitInfo i ->
  s_irep s (cf_rank c t) (cf_home c (req (s_thr s t))) = (b, x) :: q -> b = req (s_thr s t) /\ q = [].
Proof.
  intros Hr Ep E. destruct (reach_inv c Hwf s Hr) as [Hi Hj].
  destruct (irep_head c s t i b x q Hi Hj Ep E) as (-> & -> & _). auto.
Qed.

(** Messages with no thread waiting for them do not exist. *)
Lemma no_stray s src dst : reachable c s ->
  s_brep s src dst <> [] -> exists t i, cf_rank c t = src /\ t_pc (s_thr s t) = PWaitBlk i dst.
Proof.
  intros Hr Hne. destruct (reach_inv c Hwf s Hr) as [Hi Hj].
  pose proof (j_blk c s Hj src dst) as Hb. unfold blk_tokens, blk_expected in Hb.
  destruct (s_lock s (LBlk src)) as [[t|]|] eqn:El.
  - destruct (t_pc (s_thr s t)) eqn:Ep; try (apply app_eq_nil in Hb as [_ Hb]; apply app_eq_nil in Hb as [_ Hb]; apply map_eq_nil in Hb; congruence).
    destruct (Nat.eqb_spec dst0 dst) as [->|].
    + exists t, i. split; auto. symmetry. apply (msg_lock c s t src Hi El).
    + apply app_eq_nil in Hb as [_ Hb]; apply app_eq_nil in Hb as [_ Hb]; apply map_eq_nil in Hb; congruence.
  - apply app_eq_nil in Hb as [_ Hb]; apply app_eq_nil in Hb as [_ Hb]; apply map_eq_nil in Hb; congruence.
  - apply app_eq_nil in Hb as [_ Hb]; apply app_eq_nil in Hb as [_ Hb]; apply map_eq_nil in Hb; congruence.
Qed.

(** A block that arrived, by whatever way, is the requested one. *)
Lemma received s t i : reachable c s ->
  (exists k j, t_pc (s_thr s t) = PCopyDone i k j) \/ t_pc (s_thr s t) = PAdd i \/
  t_pc (s_thr s t) = PEnd i \/ t_pc (s_thr s t) = PReady i ->
  forall x, x < K -> s_data s (cf_rank c t) (node_off c (cf_dom c t) i) x = Some (cf_file c (req (s_thr s t)) x).
Proof.
  intros Hr Hp x Hx. destruct (reach_inv c Hwf s Hr) as [Hi Hj].
  assert (pc_own (t_pc (s_thr s t)) = Some i) as Eo
    by (destruct Hp as [(k & j & E)|[E|[E|E]]]; rewrite E; reflexivity).
  pose proof (own_lt c s t i Hi Eo) as Hlt.
  apply (j_good c s Hj); auto. rewrite (view_own c _ s t i Hi Eo). unfold pc_stb.
  destruct Hp as [(k & j & E)|[E|[E|E]]]; rewrite E; reflexivity.
Qed.

(** Liveness. *)
Lemma no_deadlock s t : reachable c s -> t_todo (s_thr s t) <> [] -> exists a s', step c s a = Some s'.
Proof. intros Hr Hw. destruct (progress c Hwf t s Hr Hw) as (a & s' & H & _). eauto. Qed.

Lemma bounded N l0 acts s : cf_mode c <> MThread -> (forall t, N <= t -> cf_prog c t = []) ->
  clist_init n (cf_spread c) = Ok l0 -> run c (init c l0) acts = Some s ->
  length acts <= sum (fun t => (K + 5 * D + 17) * length (cf_prog c t)) N.
Proof.
  intros Hm HN El H. destruct (inv1_init c Hwf) as (l1 & E1 & Hi & Hb). assert (l0 = l1) by congruence. subst l1.
  assert (inv c (init c l0)) as Hinv by (split; auto; apply inv2_init; auto).
  pose proof (run_bound c Hwf N acts Hm _ _ Hinv HN H) as Hle. rewrite total_init in Hle. unfold W in Hle. lia.
Qed.

Lemma stops_only_when_done N l0 acts s : cf_mode c <> MThread -> (forall t, N <= t -> cf_prog c t = []) ->
  clist_init n (cf_spread c) = Ok l0 -> run c (init c l0) acts = Some s ->
  exists acts' s', run c s acts' = Some s' /\ forall t, t_todo (s_thr s' t) = [].
Proof.
  intros Hm HN El H.
  assert (forall k acts s, run c (init c l0) acts = Some s ->
    sum (fun t => (K + 5 * D + 17) * length (cf_prog c t)) N - length acts <= k ->
    exists acts' s', run c s acts' = Some s' /\ forall t, t_todo (s_thr s' t) = []) as Hk.
  { clear acts s H. induction k as [|k IH]; intros acts s H Hle.
    - exists [], s. split; auto. intros t. destruct (t_todo (s_thr s t)) eqn:E; auto. exfalso.
      assert (reachable c s) as Hr by (exists l0, acts; auto).
      destruct (no_deadlock s t Hr) as (a & s' & Hs); [congruence|].
      assert (run c (init c l0) (acts ++ [a]) = Some s') as H'.
      { clear - H Hs. revert H. generalize (init c l0). induction acts; cbn; intros s0 H; [injection H as ->; now rewrite Hs|].
        destruct (step c s0 a0); [|discriminate]. auto. }
      pose proof (bounded N l0 _ _ Hm HN El H') as Hb. rewrite app_length in Hb. cbn [length] in Hb. lia.
    - destruct (existsb (fun t => match t_todo (s_thr s t) with [] => false | _ => true end) (seq 0 N)) eqn:Ex.
      + apply existsb_exists in Ex as (t & _ & Ht).
        assert (reachable c s) as Hr by (exists l0, acts; auto).
        destruct (no_deadlock s t Hr) as (a & s' & Hs); [destruct (t_todo (s_thr s t)); congruence|].
        assert (run c (init c l0) (acts ++ [a]) = Some s') as H'.
        { clear - H Hs. revert H. generalize (init c l0). induction acts; cbn; intros s0 H; [injection H as ->; now rewrite Hs|].
          destruct (step c s0 a0); [|discriminate]. auto. }
        pose proof (bounded N l0 _ _ Hm HN El H') as Hb. rewrite app_length in Hb. cbn [length] in Hb.
        destruct (IH (acts ++ [a]) s' H') as (acts' & s'' & Hr' & Hd); [rewrite app_length; cbn [length]; lia|].
        exists (a :: acts'), s''. cbn. now rewrite Hs.
      + exists [], s. split; auto. intros t.
        assert (reachable c s) as Hr by (exists l0, acts; auto).
        destruct (answers s Hr t) as [Ha _].
        destruct (le_lt_dec N t) as [Hle'|Hlt].
        * rewrite HN in Ha by auto. apply app_eq_nil in Ha. tauto.
        * destruct (t_todo (s_thr s t)) eqn:E; auto. exfalso.
          assert (existsb (fun t => match t_todo (s_thr s t) with [] => false | _ => true end) (seq 0 N) = true); [|congruence].
          apply existsb_exists. exists t. split; [apply in_seq; lia|]. now rewrite E. }
  eapply Hk; eauto.
Qed.

Lemma blocked_why s t ch : reachable c s -> t_todo (s_thr s t) <> [] -> step_thr c s t ch = None ->
  exists w, waits c t (s_thr s t) = Some w /\ stuck_on c s t w.
Proof. intros Hr Hw H. eapply step_blocked; eauto. apply (reach_inv c Hwf s Hr). Qed.

End Facts.

(** ** Real grids *)
Section Grid.
Context {V : Type}.

(** A system of readers: an opened grid [bl] for the file, [P] ranks with [D]
    domains, [n] cache slots per domain; thread [t] runs on rank [rk t], domain [dm t]
    and reads at the positions [ixs t].  [dict] is the content of the dictionary at the
    start (the window version starts with an empty one). *)
Definition setting (m : mode) (f : file V) (bl : blocked) (P D n : nat) (spread : Z)
    (rk dm : nat -> nat) (dict : nat -> list nat) (ixs : nat -> list (list nat)) : Prop :=
  f_size f <> [] /\
  (exists user td arr0, blocked_open (f_size f) user td arr0 = Ok bl) /\
  0 < n /\ (spread < Z.of_nat n)%Z /\
  (forall t, rk t < P) /\ (forall t, dm t < D) /\
  (forall b, length (dict b) <= dict_size /\ Forall (fun e => e < P * (n * D)) (dict b)) /\
  (m = MWin -> forall b, dict b = []) /\
  (forall t, Forall (in_box (f_size f)) (ixs t)).

(** Content of a block after [loadBlock] into fresh memory. *)
Definition content (g : geom V) (b x : nat) : option V :=
  match load g (ix_mul (calc_block_position (g_bl g) b) (b_bs (g_bl g))) 0 (mem_new V (b_tbs (g_bl g))) with
  | Ok m => m_at m x
  | Ub => None
  end.

(** Threads with the given ranks, domains and positions reading a grid. *)
Definition grid_cfg (m : mode) (g : geom V) (d : dist) (n : nat) (spread : Z)
    (rk dm : nat -> nat) (dict : nat -> list nat) (ixs : nat -> list (list nat)) : cfg (option V) :=
  Cfg m (d_ranks d) (d_domains d) n spread (b_tbs (g_bl g)) rk dm
      (fun b => if b <? d_total d then block_rank d b else 0)
      (content g) dict
      (fun t => map (fun ix => (block_by_coords (g_bl g) ix, calc_offset_in_block (g_bl g) ix)) (ixs t)).

Lemma content_value (g : geom V) ix : wf_geom g -> in_box (f_size (g_file g)) ix ->
  content g (block_by_coords (g_bl g) ix) (calc_offset_in_block (g_bl g) ix) = Some (f_val (g_file g) ix).
Proof.
  intros Hg Hi. unfold content.
  assert (block_by_coords (g_bl g) ix < b_total (g_bl g)) as Hlt.
  { apply block_lt; [apply Hg|]. now rewrite (wg_size _ Hg). }
  destruct (load_block_spec g Hg _ 0 (mem_new V (b_tbs (g_bl g))) Hlt) as (m & -> & _ & Hh & _); [cbn; lia|].
  apply (Hh ix Hi eq_refl).
Qed.

Lemma grid_cfg_wf m g d n spread rk dm dict ixs :
  wf_geom g -> 0 < n -> (spread < Z.of_nat n)%Z -> d_total d = b_total (g_bl g) ->
  (forall t, rk t < d_ranks d) -> (forall t, dm t < d_domains d) ->
  (forall b, length (dict b) <= dict_size /\ Forall (fun e => e < d_ranks d * (n * d_domains d)) (dict b)) ->
  (m = MWin -> forall b, dict b = []) ->
  (forall t, Forall (in_box (f_size (g_file g))) (ixs t)) ->
  wf_cfg (grid_cfg m g d n spread rk dm dict ixs).
Proof.
  intros Hg Hn Hs Ht Hr Hd Hdi Hw Hix. constructor; cbn; auto.
  - intros b. pose proof (Hr 0). pose proof (Hd 0).
    destruct (Nat.ltb_spec b (d_total d)); [|lia].
    assert (0 < d_ranks d /\ 0 < d_domains d) as [HP HD] by lia.
    apply (owner_bounds d HP HD); auto.
  - intros t. apply Forall_map. eapply Forall_impl; [|apply Hix]. intros ix Hi. cbn.
    apply offset_lt; [apply Hg|]. now rewrite (wg_size _ Hg).
Qed.

(** The threads get the values of the file, in the order of their reads. *)
Lemma grid_answers m g d n spread rk dm dict ixs s :
  let c := grid_cfg m g d n spread rk dm dict ixs in
  wf_cfg c -> wf_geom g -> (forall t, Forall (in_box (f_size (g_file g))) (ixs t)) ->
  reachable c s -> forall t, exists k,
    map snd (t_done (s_thr s t)) = map (fun ix => Some (Some (f_val (g_file g) ix))) (firstn k (ixs t)) /\
    length (t_todo (s_thr s t)) = length (ixs t) - k.
Proof.
  intros c Hc Hg Hix Hr t. destruct (answers c Hc s Hr t) as [E Hf].
  exists (length (t_done (s_thr s t))).
  assert (map fst (t_done (s_thr s t)) = map (fun ix => (block_by_coords (g_bl g) ix, calc_offset_in_block (g_bl g) ix)) (firstn (length (t_done (s_thr s t))) (ixs t))) as Ef.
  { cbn in E. rewrite <- firstn_map, <- E. rewrite firstn_app, map_length, Nat.sub_diag. cbn. rewrite app_nil_r.
    rewrite firstn_all2; auto. now rewrite map_length. }
  split.
  - pose proof (Hix t) as Hb. revert Ef Hf Hb. generalize (t_done (s_thr s t)) (ixs t). clear - Hg.
    induction l as [|[[b cell] v] l IH]; intros ix Ef Hf Hb; [reflexivity|].
    destruct ix as [|x ix]; cbn in *; [discriminate|].
    injection Ef as E1 E2 E3. inversion Hf; subst. inversion Hb; subst. f_equal; [|apply IH; auto].
    f_equal. apply content_value; auto.
  - apply (f_equal (@length _)) in E. cbn in E. rewrite app_length, !map_length in E. lia.
Qed.

Definition readers (m : mode) (f : file V) (bl : blocked) (opaque : bool) (dm0 : dist_mode) (P D n : nat) (spread : Z)
    (rk dm : nat -> nat) (dict : nat -> list nat) (ixs : nat -> list (list nat)) : cfg (option V) :=
  grid_cfg m (Geom bl f opaque) (Dist dm0 P D (b_total bl)) n spread rk dm dict ixs.

Lemma readers_wf m f bl opaque dm0 P D n spread rk dm dict ixs :
  setting m f bl P D n spread rk dm dict ixs ->
  wf_cfg (readers m f bl opaque dm0 P D n spread rk dm dict ixs) /\ wf_geom (Geom bl f opaque).
Proof.
  intros (Hf & (user & td & arr0 & E) & Hn & Hs & Hr & Hd & Hdi & Hw & Hix).
  pose proof (geom_wf f user td arr0 bl opaque Hf E) as Hg. split; auto. apply grid_cfg_wf; auto.
Qed.

Lemma readers_values m f bl opaque dm0 P D n spread rk dm dict ixs s :
  setting m f bl P D n spread rk dm dict ixs ->
  reachable (readers m f bl opaque dm0 P D n spread rk dm dict ixs) s ->
  forall t, exists k,
    map snd (t_done (s_thr s t)) = map (fun ix => Some (Some (f_val f ix))) (firstn k (ixs t)) /\
    length (t_todo (s_thr s t)) = length (ixs t) - k.
Proof.
  intros Hs Hr t. destruct (readers_wf m f bl opaque dm0 P D n spread rk dm dict ixs Hs) as [Hwf Hg].
  apply (grid_answers m (Geom bl f opaque) (Dist dm0 P D (b_total bl)) n spread rk dm dict ixs s); auto.
  apply Hs.
Qed.

End Grid.

(** ** A scheduler for the examples *)
Section Sched.
Context {V : Type} (c : cfg V).

(** Linear congruential generator. *)
Definition rnd (z : Z) : Z := ((z * 1103515245 + 12345) mod 2147483648)%Z.
Definition pick (z : Z) (k : nat) : nat := Z.to_nat ((z / 65536) mod Z.of_nat k).

Definition an_act (N : nat) (z : Z) : act (V := V) :=
  let z1 := rnd z in let z2 := rnd z1 in let z3 := rnd z2 in
  let ch := Choice (pick z1 4 =? 0) (pick z2 5) (fun _ => None) (pick z1 3) (pick z2 (cf_ranks c)) in
  let w := pick z3 (N + cf_ranks c) in
  if w <? N then AThr w ch else ACom (w - N) ch.

(** Random steps, left out if they are not possible. *)
Fixpoint plan (fuel N : nat) (z : Z) (s : st V) : list (act (V := V)) * st V :=
  match fuel with
  | 0 => ([], s)
  | S fuel' =>
      match step c s (an_act N z) with
      | Some s' => let (l, s'') := plan fuel' N (rnd (rnd z)) s' in (an_act N z :: l, s'')
      | None => plan fuel' N (rnd (rnd z)) s
      end
  end.

Lemma plan_run fuel N z s : run c s (fst (plan fuel N z s)) = Some (snd (plan fuel N z s)).
Proof.
  revert z s. induction fuel as [|fuel IH]; intros z s; cbn [plan]; auto.
  destruct (step c s (an_act N z)) as [s'|] eqn:E; auto.
  specialize (IH (rnd (rnd z)) s'). destruct (plan fuel N (rnd (rnd z)) s') as [l s''].
  cbn [fst snd run] in *. now rewrite E.
Qed.

Definition outcome (fuel N : nat) (z : Z) : list (list (option V)) * list nat :=
  match clist_init (cf_size c) (cf_spread c) with
  | Ok l0 => let s := snd (plan fuel N z (init c l0)) in
      (map (fun t => map snd (t_done (s_thr s t))) (seq 0 N), map (fun t => length (t_todo (s_thr s t))) (seq 0 N))
  | Ub => ([], [])
  end.

End Sched.
