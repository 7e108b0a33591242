(** * From parameters, file and coordinates to values: proofs *)
From Coq Require Import List Arith Bool ZArith Reals Lia Lra String.
From Flocq Require Import Core.Core IEEE754.BinarySingleNaN.
From Verif Require Import ConcModel ConcFacts FullConcModel FullConcFacts LevelsProofs LevelsFacts
  BlockedProofs Base BlockedModel LevelsModel ParamModel TypesModel CoordModel CoordExact CoordFacts EndModel.
From Verif Require LiveFinish.
Import ListNotations.
Local Open Scope string_scope.
Local Open Scope nat_scope.

(** ** Conditions and expected answers *)
(** The file has a dimension and no empty one; cache size and hand spread are
    usable; threads are on existing processes and domains. *)
Definition session_ok {A} (s : session A) : Prop :=
  n_axes s <> [] /\ Forall (fun ax => (1 <= x_size ax)%Z) (n_axes s) /\
  0 < cache_size s /\ (hand_spread s < Z.of_nat (cache_size s))%Z /\
  (forall t, n_rk s t < n_ranks s) /\ (forall t, n_dm s t < n_domains s).

(** ** Selection *)
Lemma domains_off {A} (s : session A) : sel_numa (n_build s) (stored s) (domains s) = "OFF"%string -> domains s = 1.
Proof.
  unfold sel_numa. destruct (Nat.eqb_spec (domains s) 1) as [E|N]; auto. intros H.
  unfold domains, detect in *. destruct (b_nonuma (n_build s)).
  - rewrite andb_false_r in N. congruence.
  - rewrite H in *. cbn in N. congruence.
Qed.

Lemma ranks_off {A} (s : session A) : sel_mpi (n_build s) (stored s) (n_ranks s) = "OFF"%string -> ranks s = 1.
Proof.
  unfold ranks, selected_ranks. intros H. rewrite H. cbn. destruct (Nat.eqb_spec (n_ranks s) 1); auto.
Qed.

(** Level classes without MPI transfer are used with one process, level classes
    without NUMA exchange with one domain (except the class of CACHE). *)
Lemma class_alone {A} (s : session A) st mp nu : class_ s = (st, mp, nu) ->
  (mp = MPINo -> st <> SPass -> ranks s = 1) /\
  (nu = NumaNo -> st <> SPass -> ~ (st = SCache /\ mp = MPINo) -> domains s = 1).
Proof.
  unfold class_, init_containers, select.
  pose proof (ranks_off s) as HR. pose proof (domains_off s) as HD.
  destruct (String.eqb (param (fun v : string => v) (stored s) "GRID" "FULL" 0) "CACHE").
  - destruct (String.eqb_spec (sel_mpi (n_build s) (stored s) (n_ranks s)) "OFF") as [M|M];
    [|destruct (String.eqb (sel_mpi (n_build s) (stored s) (n_ranks s)) "THREAD")];
    destruct (String.eqb_spec (sel_numa (n_build s) (stored s) (domains s)) "OFF") as [N|N];
    cbn; intros E; inversion E; subst; split; intros; auto; try discriminate; exfalso; auto.
  - destruct (String.eqb (param (fun v : string => v) (stored s) "GRID" "FULL" 0) "PASS_THROUGH").
    { cbn. intros E; inversion E; subst. split; intros; congruence. }
    destruct (String.eqb_spec (sel_mpi (n_build s) (stored s) (n_ranks s)) "OFF") as [M|M];
    [|destruct (String.eqb (sel_mpi (n_build s) (stored s) (n_ranks s)) "THREAD")];
    (destruct (String.eqb_spec (sel_numa (n_build s) (stored s) (domains s)) "OFF") as [N|N];
     [|destruct (String.eqb (sel_numa (n_build s) (stored s) (domains s)) "CACHE")]);
    cbn; intros E; inversion E; subst; split; intros; auto; try discriminate; exfalso; auto.
Qed.

Lemma rank_lt {A} (s : session A) : session_ok s -> forall t, rank_of s t < ranks s.
Proof.
  intros (_ & _ & _ & _ & Hr & _) t. unfold rank_of. destruct (Nat.eqb_spec (ranks s) 1) as [->|N]; [lia|].
  assert (ranks s = n_ranks s) as ->; auto. unfold ranks, selected_ranks in *.
  destruct (Nat.eqb_spec (n_ranks s) 1); auto. destruct (String.eqb _ _); congruence.
Qed.
Lemma domain_lt {A} (s : session A) : session_ok s -> forall t, domain_of s t < domains s.
Proof.
  intros (_ & _ & _ & _ & _ & Hd) t. unfold domain_of, domains. destruct (detect s && _); auto.
Qed.

(** ** PassThrough *)
Section Pass.
Context {V : Type} (f : file V).

Lemma pass_parts t ops : forall cur l,
  (forall k, part_of t ops = firstn k (pass_prog t l) -> exists j,
     map snd (filter (fun r => fst r =? t) (pass_expected f cur ops)) = map (fun ix => Some (f_val f ix)) (firstn j l)) /\
  (forall k ix, cur t = Some ix -> part_of t ops = firstn k (PRead t :: pass_prog t l) -> exists j,
     map snd (filter (fun r => fst r =? t) (pass_expected f cur ops)) = map (fun ix => Some (f_val f ix)) (firstn j (ix :: l))).
Proof.
  induction ops as [|o ops IH]; intros cur l.
  { split; intros; exists 0; reflexivity. }
  unfold part_of. cbn [filter]. fold (part_of t ops). destruct (Nat.eqb_spec (pass_tid o) t) as [E|N].
  - split.
    + intros k H. destruct k as [|k]; [discriminate H|]. destruct l as [|ix l]; [discriminate H|].
      cbn [pass_prog firstn] in H. inversion H as [[H1 H2]]. subst o. cbn [pass_expected].
      apply (proj2 (IH (upd cur t (Some ix)) l) k ix); auto. unfold upd. now rewrite Nat.eqb_refl.
    + intros k ix Hc H. destruct k as [|k]; [discriminate H|].
      cbn [firstn] in H. inversion H as [[H1 H2]]. subst o. cbn [pass_expected filter fst].
      rewrite Nat.eqb_refl. cbn [map snd]. rewrite Hc. cbn [option_map].
      destruct (proj1 (IH cur l) k H2) as [j Hj]. exists (S j). cbn [firstn map]. now rewrite Hj.
  - split.
    + intros k H. destruct o as [t' ix|t']; cbn [pass_tid] in N; cbn [pass_expected filter fst].
      * apply (proj1 (IH _ l) k H).
      * destruct (Nat.eqb_spec t' t); [congruence|]. apply (proj1 (IH _ l) k H).
    + intros k ix Hc H. destruct o as [t' ix'|t']; cbn [pass_tid] in N; cbn [pass_expected filter fst].
      * apply (proj2 (IH (upd cur t' (Some ix')) l) k ix); auto. unfold upd. destruct (Nat.eqb_spec t t'); congruence.
      * destruct (Nat.eqb_spec t' t); [congruence|]. apply (proj2 (IH cur l) k ix); auto.
Qed.

Lemma pass_prog_in t l o : In o (pass_prog t l) -> pass_tid o = t /\
  match o with PLoad _ ix => In ix l | PRead _ => l <> [] end.
Proof.
  induction l as [|ix l IH]; cbn; [tauto|]. intros [<-|[<-|H]]; cbn; auto.
  - split; auto. discriminate.
  - destruct (IH H) as [H1 H2]. split; auto. destruct o; auto. discriminate.
Qed.

Lemma in_firstn_ {X} k (l : list X) x : In x (firstn k l) -> In x l.
Proof. intros H. rewrite <- (firstn_skipn k l). apply in_or_app. now left. Qed.

Lemma pass_cells opq threads ops m vs ixs :
  f_size f <> [] -> (forall t, Forall (in_box (f_size f)) (ixs t)) -> (forall t, threads <= t -> ixs t = []) ->
  pass_run opq f (pass_open threads) ops = Ok (m, vs) ->
  (forall t, exists k, part_of t ops = firstn k (pass_prog t (ixs t))) ->
  forall t, exists k, map Some (map snd (filter (fun r => fst r =? t) vs))
                      = map (fun ix => Some (Some (f_val f ix))) (firstn k (ixs t)).
Proof.
  intros Hf Hi Ht Hr Hp t.
  destruct (pass_run_spec opq f ops (pass_open threads) (fun _ => None) Hf) as (m' & E).
  - apply Forall_forall. intros o Ho.
    destruct (Hp (pass_tid o)) as [k Hk].
    assert (In o (pass_prog (pass_tid o) (ixs (pass_tid o)))) as Hin.
    { apply (in_firstn_ k). rewrite <- Hk. apply filter_In. split; auto. apply Nat.eqb_refl. }
    destruct (pass_prog_in _ _ _ Hin) as [_ H2]. split.
    + cbn. destruct (le_lt_dec threads (pass_tid o)) as [L|L]; auto.
      rewrite (Ht _ L) in H2. destruct o; [destruct H2|congruence].
    + destruct o as [t' ix|]; auto. pose proof (Hi (pass_tid (PLoad t' ix))) as H.
      rewrite Forall_forall in H. apply H. exact H2.
  - reflexivity.
  - rewrite E in Hr. inversion Hr; subst. destruct (Hp t) as [k Hk].
    destruct (proj1 (pass_parts t ops (fun _ => None) (ixs t)) k Hk) as [j Hj]. exists j.
    rewrite Hj, map_map. reflexivity.
Qed.
End Pass.

(** ** The cells which the threads are given *)
Lemma firstn_le {X} k (l : list X) : exists j, j <= List.length l /\ firstn k l = firstn j l.
Proof.
  destruct (le_lt_dec k (List.length l)); [exists k; auto|].
  exists (List.length l). split; auto. rewrite firstn_all. apply firstn_all2. lia.
Qed.

Lemma observed_cells {A} (s : session A) arr0 bl ixs cells :
  session_ok s -> blocks s arr0 = Ok bl ->
  (forall t, Forall (in_box (f_size (variable s))) (ixs t)) -> (forall t, n_threads s <= t -> ixs t = []) ->
  observed s bl ixs cells ->
  forall t, exists k, cells t = map (fun ix => Some (Some (n_cell s ix))) (firstn k (ixs t)).
Proof.
  intros Hok Hb Hix Hth Ho.
  pose proof (rank_lt s Hok) as Hrk. pose proof (domain_lt s Hok) as Hdm.
  assert (f_size (variable s) <> []) as Hf.
  { destruct Hok as (H & _). unfold variable. cbn. destruct (n_axes s); [congruence|discriminate]. }
  pose proof Hok as (_ & _ & Hn & Hsp & _).
  assert (exists user td arr0, blocked_open (f_size (variable s)) user td arr0 = Ok bl) as Hbo
    by (eexists _, _, _; exact Hb).
  assert (forall m st, reachable (readers m (variable s) bl (opaque s) (n_mode s) (ranks s) (domains s) (cache_size s) (hand_spread s)
                            (rank_of s) (domain_of s) (fun _ => []) ixs) st ->
      (forall t, cells t = map snd (t_done (s_thr st t))) ->
      forall t, exists k, cells t = map (fun ix => Some (Some (n_cell s ix))) (firstn k (ixs t))) as Hconc.
  { intros m st Hr Hc t. destruct (readers_values m (variable s) bl (opaque s) (n_mode s) (ranks s) (domains s) (cache_size s)
      (hand_spread s) (rank_of s) (domain_of s) (fun _ => []) ixs st) with (t := t) as (k & E & _); auto.
    - unfold setting. repeat (split; auto).
      + cbn. apply Nat.le_0_l.
    - exists k. rewrite Hc, E. reflexivity. }
  assert (forall m p s0 st,
      fd_open (Geom bl (variable s) (opaque s)) (Dist (n_mode s) (ranks s) (domains s) (b_total bl)) (cache_size s) (hand_spread s) = Ok s0 ->
      ureach (full_readers m p bl (Dist (n_mode s) (ranks s) (domains s) (b_total bl)) (cache_size s) (hand_spread s)
                (rank_of s) (domain_of s) (fd_store s0) ixs) st ->
      (forall t, cells t = map snd (q_done (u_thr st t))) ->
      (m = XNo -> p <> PNumaNo /\ ranks s = 1) ->
      forall t, exists k, cells t = map (fun ix => Some (Some (n_cell s ix))) (firstn k (ixs t))) as Hfull.
  { intros m p s0 st E0 Hr Hc Hm t.
    destruct (FullConcFacts.full_values m p (variable s) bl (opaque s) (n_mode s) (ranks s) (domains s) (cache_size s) (hand_spread s)
                (rank_of s) (domain_of s) ixs) as (s1 & E1 & _ & Hv).
    - unfold full_setting. repeat (split; auto).
    - rewrite E0 in E1. inversion E1; subst s1. destruct (Hv st Hr t) as (k & E & _). exists k. rewrite Hc, E. reflexivity. }
  unfold observed in Ho. destruct (class_ s) as [[st mp] nu] eqn:Ec.
  destruct (class_alone s st mp nu Ec) as [HP HD].
  destruct st.
  - assert (mp = MPINo -> ranks s = 1) as HP' by (intros ->; apply HP; auto; discriminate).
    assert (nu = NumaNo -> domains s = 1) as HD' by (intros ->; apply HD; auto; [discriminate|intros [X _]; discriminate X]).
    destruct mp, nu; try (destruct Ho as (s0 & st & E0 & Hr & Hc);
                          refine (Hfull _ _ s0 st E0 Hr Hc _); (split; [discriminate|now apply HP']) || discriminate).
    destruct Ho as (m & Em & H). rewrite (HP' eq_refl), (HD' eq_refl) in *.
    destruct Hbo as (user & td & arr & Hbo).
    destruct (LevelsFacts.full_values (variable s) user td arr bl (opaque s) (n_mode s) Hf Hbo) as (m' & Em' & Hv).
    rewrite Em in Em'. inversion Em'; subst m'. intros t. destruct (H t) as (k & c & vs & Er & Hc).
    destruct (Hv (firstn k (ixs t))) as (c' & E').
    { apply Forall_forall. intros x Hx. apply in_firstn_ in Hx. pose proof (Hix t) as H0. rewrite Forall_forall in H0. auto. }
    rewrite E' in Er. inversion Er; subst. exists k. rewrite Hc, map_map. reflexivity.
  - destruct mp; [destruct nu| |]; try (destruct Ho as (st & Hr & Hc); exact (Hconc _ st Hr Hc)).
    destruct Ho as (st & Hr & Hc). intros t.
    destruct (readers_values MNo (variable s) bl (opaque s) (n_mode s) (domains s) 1 (cache_size s)
      (hand_spread s) (domain_of s) (fun _ => 0) (fun _ => []) ixs st) with (t := t) as (k & E & _); auto.
    + unfold setting. repeat (split; auto).
      * cbn. apply Nat.le_0_l.
    + exists k. rewrite Hc, E. reflexivity.
  - destruct Ho as (ops & m & vs & Hr & Hp & Hc). intros t.
    destruct (pass_cells (variable s) (opaque s) (n_threads s) ops m vs ixs Hf Hix Hth Hr Hp t) as (k & E).
    exists k. rewrite Hc, E. reflexivity.
Qed.

(** ** Indices *)
Section Index.
Context {A : arith}.

(** One dimension. *)
Definition dim_index (ax : axis A) (p : num A) : outcome (Z * bool) :=
  pos2index_dim A (get_offset A ax) (inv_scaling A (get_scaling A ax)) (x_size ax) p.

Lemma open_dim_index vp ax p :
  pos2index_dim A (dm_off (open_dim A vp ax)) (dm_sinv (open_dim A vp ax)) (dm_size (open_dim A vp ax)) p = dim_index ax p.
Proof. unfold dim_index, open_dim. destruct (a_isinf A (get_scaling A ax)); reflexivity. Qed.

Lemma seq_nth_map {X} (h : nat -> X) n i x : nth_error (map h (seq 0 n)) i = Some x -> i < n /\ x = h i.
Proof.
  intros H. assert (i < n) as L.
  { assert (i < List.length (map h (seq 0 n))) as L by (apply nth_error_Some; congruence).
    now rewrite map_length, seq_length in L. }
  split; auto. rewrite nth_error_map in H. rewrite (nth_error_nth' _ 0) in H by (now rewrite seq_length).
  rewrite seq_nth in H by auto. cbn in H. congruence.
Qed.

Lemma index_dims (s : session A) pos init ix : index_of s pos init = Ok ix ->
  List.length ix = List.length (n_axes s) /\
  forall i ax, nth_error (n_axes s) i = Some ax -> exists z w,
    dim_index ax (pos (List.length (n_axes s) - i - 1)) = Ok (z, w) /\ nth_error ix i = Some (Z.to_nat z).
Proof.
  unfold index_of, pos2index. intros H.
  assert (Hl : List.length (level_open A (value_position s) (n_axes s)) = List.length (n_axes s)) by apply map_length.
  rewrite Hl in H.
  pose proof (p2i_loop_spec A (meta A (level_open A (value_position s) (n_axes s))) (List.length (n_axes s)) (List.length (n_axes s))
                pos init false ltac:(lia)) as S.
  destruct (pos2index_loop A _ _ _ pos init false) as [[r w]|]; [|discriminate H].
  cbn in H. inversion H; subst. split; [now rewrite map_length, seq_length|].
  destruct S as (S1 & _). intros i ax Hi.
  assert (Hlt : i < List.length (n_axes s)) by (apply nth_error_Some; congruence).
  destruct (S1 i Hlt) as (wi & E & _). rewrite (meta_open A _ _ i ax Hi), open_dim_index in E.
  exists (r i), wi. split; auto.
  rewrite nth_error_map, (nth_error_nth' _ 0) by (now rewrite seq_length). rewrite seq_nth by auto. reflexivity.
Qed.

Lemma index_defined (s : session A) pos init :
  (forall i ax, nth_error (n_axes s) i = Some ax -> exists r, dim_index ax (pos (List.length (n_axes s) - i - 1)) = Ok r) ->
  exists ix, index_of s pos init = Ok ix.
Proof.
  intros H. destruct (level_p2i_ok A (value_position s) (n_axes s) pos init) as (idx & w & E & _).
  - intros i ax Hi. destruct (H i ax Hi) as [r Hr]. exists r. now rewrite open_dim_index.
  - unfold index_of. rewrite E. cbn. eauto.
Qed.

Lemma index_same (s1 s2 : session A) pos i1 i2 ix1 ix2 : n_axes s1 = n_axes s2 ->
  index_of s1 pos i1 = Ok ix1 -> index_of s2 pos i2 = Ok ix2 -> ix1 = ix2.
Proof.
  intros Ha H1 H2. destruct (index_dims s1 pos i1 ix1 H1) as [L1 D1]. destruct (index_dims s2 pos i2 ix2 H2) as [L2 D2].
  rewrite Ha in *. apply (nth_ext _ _ 0 0); [congruence|]. intros n Hn. rewrite L1 in Hn.
  destruct (nth_error (n_axes s2) n) as [ax|] eqn:E.
  2:{ apply nth_error_None in E. lia. }
  destruct (D1 n ax E) as (z & w & E1 & N1). destruct (D2 n ax E) as (z' & w' & E2 & N2).
  rewrite E1 in E2. inversion E2; subst.
  apply (nth_error_nth _ _ 0) in N1. apply (nth_error_nth _ _ 0) in N2. congruence.
Qed.

Lemma index_box (s : session A) pos init ix : index_of s pos init = Ok ix ->
  (forall i ax z w, nth_error (n_axes s) i = Some ax ->
     dim_index ax (pos (List.length (n_axes s) - i - 1)) = Ok (z, w) -> (0 <= z < x_size ax)%Z) ->
  in_box (f_size (variable s)) ix.
Proof.
  intros H Hr. destruct (index_dims s pos init ix H) as [L D]. unfold in_box, variable. cbn [f_size].
  assert (forall i ax, nth_error (n_axes s) i = Some ax -> exists x, nth_error ix i = Some x /\ x < Z.to_nat (x_size ax)) as Hall.
  { intros i ax Hi. destruct (D i ax Hi) as (z & w & E & N). exists (Z.to_nat z). split; auto.
    pose proof (Hr i ax z w Hi E). lia. }
  clear D H Hr. revert L Hall. generalize (n_axes s) as l. induction ix as [|x ix IH]; intros [|ax l] L Hall; cbn in L; try lia; cbn [map].
  - constructor.
  - constructor.
    + destruct (Hall 0 ax eq_refl) as (y & E & Hy). cbn in E. congruence.
    + apply IH; [lia|]. intros i ax' Hi. apply (Hall (S i) ax' Hi).
Qed.

(** ** Answers *)
Definition defined_at (s : session A) (pos : nat -> num A) : Prop :=
  forall i ax, nth_error (n_axes s) i = Some ax ->
    exists z w, dim_index ax (pos (List.length (n_axes s) - i - 1)) = Ok (z, w) /\ (0 <= z < x_size ax)%Z.

Lemma defined_index (s : session A) pos init : defined_at s pos ->
  exists ix, index_of s pos init = Ok ix /\ in_box (f_size (variable s)) ix.
Proof.
  intros H. destruct (index_defined s pos init) as [ix E].
  - intros i ax Hi. destruct (H i ax Hi) as (z & w & E & _). eauto.
  - exists ix. split; auto. apply (index_box s pos init ix E). intros i ax z w Hi Ez.
    destruct (H i ax Hi) as (z' & w' & E' & Hr). congruence.
Qed.

Lemma forall2_firstn {X Y} (R : X -> Y -> Prop) k : forall l l', Forall2 R l l' -> Forall2 R (firstn k l) (firstn k l').
Proof. induction k; intros l l' H; cbn; [constructor|]. inversion H; constructor; auto. Qed.

Lemma run_answers (s : session A) prog answers :
  session_ok s -> (forall t, n_threads s <= t -> prog t = []) ->
  (forall t r, In r (prog t) -> defined_at s (q_pos r)) ->
  session_run s prog answers ->
  forall t, exists k, Forall2 (fun r a => exists ix init,
      index_of s (q_pos r) init = Ok ix /\ in_box (f_size (variable s)) ix /\
      a = answer_of s (q_getter r) (Some (Some (n_cell s ix)))) (firstn k (prog t)) (answers t).
Proof.
  intros Hok Hth Hdef (arr0 & bl & ixs & cells & Hb & Hi & Ho & Ha) t.
  assert (forall t, Forall2 (fun r ix => exists init, index_of s (q_pos r) init = Ok ix /\ in_box (f_size (variable s)) ix) (prog t) (ixs t)) as Hi'.
  { intros t'. pose proof (Hi t') as H. pose proof (Hdef t') as H'.
    induction H as [|r ix l l' [init Hr] Hl IH]; constructor.
    - exists init. split; auto. destruct (defined_index s (q_pos r) init (H' r (or_introl eq_refl))) as (ix' & E & Hbx). congruence.
    - apply IH. intros r' Hr'. apply H'. now right. }
  destruct (observed_cells s arr0 bl ixs cells Hok Hb) with (t := t) as (k & E); auto.
  - intros t'. pose proof (Hi' t') as H. induction H as [|r ix l l' (init & _ & Hx) Hl IH]; constructor; auto.
  - intros t' Ht. pose proof (Hi t') as H. rewrite (Hth t' Ht) in H. now inversion H.
  - exists k. rewrite Ha, E. pose proof (forall2_firstn _ k _ _ (Hi' t)) as H. clear - H. revert H.
    generalize (firstn k (ixs t)). intros l2.
    assert (forall (rest : list request) l1, Forall2 (fun r ix => exists init, index_of s (q_pos r) init = Ok ix /\ in_box (f_size (variable s)) ix) l1 l2 ->
       Forall2 (fun r a => exists ix init, index_of s (q_pos r) init = Ok ix /\ in_box (f_size (variable s)) ix /\
          a = answer_of s (q_getter r) (Some (Some (n_cell s ix)))) l1
       (map (fun rc => answer_of s (q_getter (fst rc)) (snd rc)) (combine (l1 ++ rest) (map (fun ix => Some (Some (n_cell s ix))) l2)))) as Hg.
    { intros rest l1 H. induction H as [|r ix l l' (init & Hr & Hx) Hl IH]; cbn.
      - destruct rest; constructor.
      - constructor; auto. exists ix, init. auto. }
    intros H. pose proof (Hg (skipn k (prog t)) _ H) as Hg'. now rewrite firstn_skipn in Hg'.
Qed.
End Index.

(** ** Every program can be run to its end *)
Section Finish.
Context {W : Type} (c : fcfg W).
Hypothesis Hc : wf_fcfg c.

Lemma urun_snoc acts : forall s0 s a s', urun c s0 acts = Some s -> ustep c s a = Some s' -> urun c s0 (acts ++ [a]) = Some s'.
Proof.
  induction acts as [|a0 acts IH]; cbn; intros s0 s a s' H Hs.
  - injection H as ->. now rewrite Hs.
  - destruct (ustep c s0 a0); [|discriminate H]. eauto.
Qed.

Lemma u_can_finish N l0 : (forall t, N <= t -> fc_prog c t = []) -> clist_init (fc_size c) (fc_spread c) = Ok l0 ->
  exists s, ureach c s /\ forall t, q_todo (u_thr s t) = [].
Proof.
  intros HN El. set (B := sum (fun t => (fc_cells c + 5 * d_domains (fc_dist c) + 13) * List.length (fc_prog c t)) N).
  assert (forall k acts s, urun c (uinit c l0) acts = Some s -> B - List.length acts < k ->
    exists s', ureach c s' /\ forall t, q_todo (u_thr s' t) = []) as Hk.
  { induction k as [|k IH]; intros acts s H Hle; [lia|].
    assert (ureach c s) as Hr by (exists l0, acts; auto).
    destruct (existsb (fun t => match q_todo (u_thr s t) with [] => false | _ => true end) (seq 0 N)) eqn:Ex.
    - apply existsb_exists in Ex as (t & _ & Ht).
      destruct (u_no_deadlock c Hc s t Hr) as (a & s' & Hs); [destruct (q_todo (u_thr s t)); congruence|].
      pose proof (urun_snoc acts _ _ _ _ H Hs) as H'.
      pose proof (u_bounded c Hc N l0 _ _ HN El H') as Hb. fold B in Hb. rewrite app_length in Hb. cbn [List.length] in Hb.
      apply (IH _ _ H'). rewrite app_length. cbn [List.length]. lia.
    - exists s. split; auto. intros t. destruct (u_answers c Hc s Hr t) as [E _].
      destruct (le_lt_dec N t) as [L|L].
      + rewrite HN in E by auto. apply app_eq_nil in E. tauto.
      + destruct (q_todo (u_thr s t)) eqn:Et; auto. exfalso.
        assert (existsb (fun t => match q_todo (u_thr s t) with [] => false | _ => true end) (seq 0 N) = true); [|congruence].
        apply existsb_exists. exists t. split; [apply in_seq; lia|]. now rewrite Et. }
  apply (Hk (S B) [] (uinit c l0) eq_refl). lia.
Qed.
End Finish.

Section PassFinish.
Context {V : Type} (f : file V).
Definition is_read (o : pass_op) : bool := match o with PRead _ => true | PLoad _ _ => false end.

Lemma expected_count t ops : forall cur,
  List.length (filter (fun r => fst r =? t) (pass_expected f cur ops)) = List.length (filter is_read (part_of t ops)).
Proof.
  induction ops as [|o ops IH]; intros cur; auto.
  unfold part_of. cbn [filter]. fold (part_of t ops). destruct o as [t' ix|t']; cbn [pass_expected pass_tid filter fst].
  - rewrite IH. destruct (t' =? t); reflexivity.
  - destruct (t' =? t); cbn [filter is_read List.length]; now rewrite IH.
Qed.

Lemma part_prog t t' l : part_of t (pass_prog t' l) = if t' =? t then pass_prog t' l else [].
Proof.
  unfold part_of. induction l as [|ix l IH]; cbn [pass_prog filter pass_tid]; [now destruct (t' =? t)|].
  rewrite IH. now destruct (t' =? t).
Qed.

Lemma part_concat t N (ixs : nat -> list (list nat)) :
  part_of t (flat_map (fun t' => pass_prog t' (ixs t')) (seq 0 N)) = if t <? N then pass_prog t (ixs t) else [].
Proof.
  induction N as [|N IH]; [reflexivity|]. rewrite seq_S, flat_map_app. unfold part_of in *. rewrite filter_app, IH.
  cbn [flat_map Nat.add]. rewrite app_nil_r. fold (part_of t (pass_prog N (ixs N))). rewrite part_prog.
  destruct (Nat.ltb_spec t N), (Nat.ltb_spec t (S N)), (Nat.eqb_spec N t); try lia; subst; rewrite ?app_nil_r; auto.
Qed.

Lemma reads_prog t l : List.length (filter is_read (pass_prog t l)) = List.length l.
Proof. induction l; cbn; auto. Qed.
End PassFinish.

Lemma can_observe {A} (s : session A) arr0 bl ixs :
  session_ok s -> blocks s arr0 = Ok bl ->
  (forall t, Forall (in_box (f_size (variable s))) (ixs t)) -> (forall t, n_threads s <= t -> ixs t = []) ->
  exists cells, observed s bl ixs cells /\ forall t, List.length (cells t) = List.length (ixs t).
Proof.
  intros Hok Hb Hix Hth.
  pose proof (rank_lt s Hok) as Hrk. pose proof (domain_lt s Hok) as Hdm.
  assert (f_size (variable s) <> []) as Hf.
  { destruct Hok as (H & _). unfold variable. cbn. destruct (n_axes s); [congruence|discriminate]. }
  pose proof Hok as (_ & _ & Hn & Hsp & _).
  assert (exists user td arr0, blocked_open (f_size (variable s)) user td arr0 = Ok bl) as Hbo
    by (eexists _, _, _; exact Hb).
  assert (eff_spread (cache_size s) (hand_spread s) < cache_size s) as Hh.
  { unfold eff_spread. destruct (Z.ltb_spec (hand_spread s) 0); [apply Nat.div_lt; lia|lia]. }
  destruct (clist_init_spec (cache_size s) (hand_spread s) Hn Hh) as (l0 & El & _).
  assert (forall m P D rk dm, (forall t, rk t < P) -> (forall t, dm t < D) ->
     exists st, reachable (readers m (variable s) bl (opaque s) (n_mode s) P D (cache_size s) (hand_spread s) rk dm (fun _ => []) ixs) st /\
       forall t, List.length (map snd (t_done (s_thr st t))) = List.length (ixs t)) as Hconc.
  { intros m P D rk dm Hr Hd.
    set (c := readers m (variable s) bl (opaque s) (n_mode s) P D (cache_size s) (hand_spread s) rk dm (fun _ => []) ixs).
    assert (setting m (variable s) bl P D (cache_size s) (hand_spread s) rk dm (fun _ => []) ixs) as Hset.
    { unfold setting. repeat (split; auto). cbn. apply Nat.le_0_l. }
    pose proof (proj1 (readers_wf m (variable s) bl (opaque s) (n_mode s) P D (cache_size s) (hand_spread s) rk dm (fun _ => []) ixs Hset)) as Hwf.
    fold c in Hwf.
    assert (forall t, n_threads s <= t -> cf_prog c t = []) as HN.
    { intros t Ht. unfold c, readers, grid_cfg. cbn. now rewrite Hth. }
    assert (exists st, reachable c st /\ forall t, t_todo (s_thr st t) = []) as (st & Hre & Hd0).
    { assert (m = MThread \/ m <> MThread) as [Em|Em] by (destruct m; auto; right; discriminate).
      - destruct (LiveFinish.can_complete c Hwf Em (fun _ => eq_refl) (n_threads s) HN l0 El) as (acts & st & Hrun & Hd0).
        exists st. split; auto. exact (LiveFinish.fifo_reach c l0 acts st El Hrun).
      - destruct (stops_only_when_done c Hwf (n_threads s) l0 [] (init c l0)) as (acts & st & Hrun & Hd0); auto.
        exists st. split; auto. exists l0, acts; auto. }
    - exists st. split; auto. intros t.
      destruct (readers_values m (variable s) bl (opaque s) (n_mode s) P D (cache_size s) (hand_spread s) rk dm (fun _ => []) ixs st Hset Hre t) as (k & E & L).
      rewrite Hd0 in L. cbn in L. rewrite E, map_length, firstn_length. lia. }
  assert (forall m p, (m = XNo -> p <> PNumaNo /\ ranks s = 1) -> exists s0 st,
      fd_open (Geom bl (variable s) (opaque s)) (Dist (n_mode s) (ranks s) (domains s) (b_total bl)) (cache_size s) (hand_spread s) = Ok s0 /\
      ureach (full_readers m p bl (Dist (n_mode s) (ranks s) (domains s) (b_total bl)) (cache_size s) (hand_spread s)
                (rank_of s) (domain_of s) (fd_store s0) ixs) st /\
      forall t, List.length (map snd (q_done (u_thr st t))) = List.length (ixs t)) as Hfull.
  { intros m p Hm.
    destruct (FullConcFacts.full_values m p (variable s) bl (opaque s) (n_mode s) (ranks s) (domains s) (cache_size s) (hand_spread s)
                (rank_of s) (domain_of s) ixs) as (s0 & E0 & Hwf & Hv).
    { unfold full_setting. repeat (split; auto). }
    exists s0. destruct (u_can_finish _ Hwf (n_threads s) l0) as (st & Hr & Hd).
    - intros t Ht. cbn. now rewrite Hth.
    - exact El.
    - exists st. split; auto. split; auto. intros t. destruct (Hv st Hr t) as (k & E & L).
      rewrite Hd in L. cbn in L. rewrite E, map_length, firstn_length. lia. }
  unfold observed. destruct (class_ s) as [[st mp] nu] eqn:Ec. destruct (class_alone s st mp nu Ec) as [HP HD].
  destruct st.
  - assert (mp = MPINo -> ranks s = 1) as HP' by (intros ->; apply HP; auto; discriminate).
    assert (nu = NumaNo -> domains s = 1) as HD' by (intros ->; apply HD; auto; [discriminate|intros [X _]; discriminate X]).
    destruct mp, nu; try (edestruct Hfull as (s0 & st & E0 & Hr & L);
      [|exists (fun t => map snd (q_done (u_thr st t))); split; [exists s0, st; split; [exact E0|]; split; [exact Hr|reflexivity]|exact L]];
      (intros _; split; [discriminate|now apply HP']) || discriminate).
    rewrite (HP' eq_refl), (HD' eq_refl) in *. destruct Hbo as (user & td & arr & Hbo).
    destruct (LevelsFacts.full_values (variable s) user td arr bl (opaque s) (n_mode s) Hf Hbo) as (m & Em & Hv).
    exists (fun t => map Some (map (fun ix => Some (f_val (variable s) ix)) (ixs t))). split.
    + exists m. split; auto. intros t. destruct (Hv (ixs t) (Hix t)) as (c & E).
      exists (List.length (ixs t)), c. eexists. rewrite firstn_all. split; [exact E|reflexivity].
    + intros t. now rewrite !map_length.
  - destruct mp; [destruct nu| |].
    + destruct (Hconc MNo (domains s) 1 (domain_of s) (fun _ => 0)) as (st & Hr & L); auto.
      exists (fun t => map snd (t_done (s_thr st t))). split; eauto.
    + destruct (Hconc MNo (ranks s) (domains s) (rank_of s) (domain_of s)) as (st & Hr & L); auto.
      exists (fun t => map snd (t_done (s_thr st t))). split; eauto.
    + destruct (Hconc MNo (ranks s) (domains s) (rank_of s) (domain_of s)) as (st & Hr & L); auto.
      exists (fun t => map snd (t_done (s_thr st t))). split; eauto.
    + destruct (Hconc MThread (ranks s) (domains s) (rank_of s) (domain_of s)) as (st & Hr & L); auto.
      exists (fun t => map snd (t_done (s_thr st t))). split; eauto.
    + destruct (Hconc MWin (ranks s) (domains s) (rank_of s) (domain_of s)) as (st & Hr & L); auto.
      exists (fun t => map snd (t_done (s_thr st t))). split; eauto.
  - set (ops := flat_map (fun t' => pass_prog t' (ixs t')) (seq 0 (n_threads s))).
    assert (forall t, part_of t ops = pass_prog t (ixs t)) as Hp.
    { intros t. unfold ops. rewrite part_concat. destruct (Nat.ltb_spec t (n_threads s)); auto. now rewrite Hth. }
    destruct (pass_run_spec (opaque s) (variable s) ops (pass_open (n_threads s)) (fun _ => None) Hf) as (m & E).
    + apply Forall_forall. intros o Ho. apply in_flat_map in Ho as (t & Ht & Ho). apply in_seq in Ht.
      destruct (pass_prog_in _ _ _ Ho) as [E1 E2]. split; [cbn; lia|]. destruct o as [t' ix|]; auto.
      pose proof (Hix t) as H. rewrite Forall_forall in H. auto.
    + reflexivity.
    + eexists (fun t => map Some (map snd (filter (fun r => fst r =? t) _))). split.
      * exists ops, m. eexists. split; [exact E|]. split; [|reflexivity].
        intros t. exists (List.length (pass_prog t (ixs t))). now rewrite firstn_all.
      * intros t. cbv beta. now rewrite !map_length, expected_count, Hp, reads_prog.
Qed.

Lemma can_run {A} (s : session A) prog :
  session_ok s ->
  (forall t, n_threads s <= t -> prog t = []) ->
  (forall t r, In r (prog t) -> defined_at s (q_pos r)) ->
  exists answers, session_run s prog answers /\ forall t, List.length (answers t) = List.length (prog t).
Proof.
  intros Hok Hth Hdef.
  assert (exists bl, blocks s (fun _ => 0) = Ok bl) as [bl Hb].
  { apply blocked_open_ok_iff. unfold variable. cbn. apply Forall_map. destruct Hok as (_ & H & _).
    eapply Forall_impl; [|exact H]. intros ax Hx. cbv beta in *. lia. }
  set (ixs := fun t => map (fun r => match index_of s (q_pos r) (fun _ => 0%Z) with Ok ix => ix | Ub => [] end) (prog t)).
  assert (forall t r, In r (prog t) -> exists ix, index_of s (q_pos r) (fun _ => 0%Z) = Ok ix /\ in_box (f_size (variable s)) ix) as Hd.
  { intros t r Hr. apply defined_index, (Hdef t r Hr). }
  destruct (can_observe s (fun _ => 0) bl ixs) as (cells & Ho & L); auto.
  - intros t. unfold ixs. apply Forall_map, Forall_forall. intros r Hr. destruct (Hd t r Hr) as (ix & -> & H). exact H.
  - intros t Ht. unfold ixs. now rewrite Hth.
  - exists (fun t => map (fun rc => answer_of s (q_getter (fst rc)) (snd rc)) (combine (prog t) (cells t))). split.
    + exists (fun _ => 0), bl, ixs, cells. split; auto. split; [|split; auto]. intros t. unfold ixs.
      pose proof (Hd t) as H. induction (prog t) as [|r l IH]; cbn [map]; constructor.
      * exists (fun _ => 0%Z). destruct (H r (or_introl eq_refl)) as (ix & E & _). now rewrite E.
      * apply IH. intros r' Hr'. apply H. now right.
    + intros t. rewrite map_length, combine_length, L. unfold ixs. rewrite map_length. lia.
Qed.

(** ** What the answers must be *)
(** No centre of another cell is nearer, in any dimension. *)
Definition nearest (us : list raxis) (p : nat -> R) (ix : list nat) : Prop :=
  List.length ix = List.length us /\
  forall i u x, nth_error us i = Some u -> nth_error ix i = Some x ->
    (Z.of_nat x < ra_n u)%Z /\
    forall j, (0 <= j < ra_n u)%Z ->
      (Rabs (p (user_dim (List.length us) i) - centre u (Z.of_nat x))
       <= Rabs (p (user_dim (List.length us) i) - centre u j))%R.

(** The answer for a cell with the bytes [cell]: the value of the cell
    converted to the getter's type (grids of a basic type), the bytes
    themselves for [getBuf] with a large enough buffer (all grids). *)
Definition expected (t : ctype) (g : getter) (cell : list Z) (a : answer) : Prop :=
  match g with
  | GetScalar b => ct_kind t = KBasic -> a = AScalar (conv b (decode (ct_elem t) cell))
  | GetBuf len => type_size t <= len ->
      a = ABuf (Ok (map Some cell ++ repeat None (len - type_size t))%list)
  end.

Lemma skipn_repeat {X} (x : X) n k : skipn k (repeat x n) = repeat x (n - k).
Proof. revert k; induction n; intros [|k]; cbn; auto. Qed.

Lemma answer_expected {A} (s : session A) g cell : List.length cell = type_size (n_type s) ->
  expected (n_type s) g cell (answer_of s g (Some (Some cell))).
Proof.
  intros L. destruct g as [b|len]; cbn.
  - intros K. unfold get_scalar. rewrite K. unfold type_size in L. rewrite K in L. now rewrite <- L, firstn_all.
  - intros H. unfold get_buf, convert_raw, copy. rewrite repeat_length, L.
    rewrite (proj2 (Nat.leb_le _ _) (le_n _)), (proj2 (Nat.leb_le _ _) H). cbn [andb].
    now rewrite <- L, firstn_all, skipn_repeat.
Qed.

Definition at_reals (r : (nat -> R) * getter) : @request exact := @Request exact (fun k => XFin (fst r k)) (snd r).

Lemma exact_dim u p : ra_ok u -> exists z w, @dim_index exact (ra_axis u) (XFin p) = Ok (z, w) /\ (0 <= z < ra_n u)%Z /\
  forall j, (0 <= j < ra_n u)%Z -> (Rabs (p - centre u z) <= Rabs (p - centre u j))%R.
Proof.
  intros Hu. destruct (ra_p2i CellCentered u p Hu) as (z & w & E & H). exists z, w. split; auto.
  rewrite <- E. symmetry. apply open_dim_index.
Qed.

Lemma exact_defined (s : session exact) us p : n_axes s = map ra_axis us -> Forall ra_ok us ->
  @defined_at exact s (fun k => XFin (p k)).
Proof.
  intros Ha Hu i ax Hi. rewrite Ha in Hi. apply nth_error_map_inv in Hi as (u & Hi & ->).
  destruct (exact_dim u (p (List.length (n_axes s) - i - 1))) as (z & w & E & Hr & _).
  - rewrite Forall_forall in Hu. eapply Hu, nth_error_In, Hi.
  - exists z, w. auto.
Qed.

Lemma index_nearest (s : session exact) us p init ix : n_axes s = map ra_axis us -> Forall ra_ok us ->
  @index_of exact s (fun k => XFin (p k)) init = Ok ix -> nearest us p ix.
Proof.
  intros Ha Hu H. destruct (index_dims s _ init ix H) as [L D]. rewrite Ha, map_length in *. split; auto.
  intros i u x Hi Hx. destruct (D i (ra_axis u)) as (z & w & E & N).
  { rewrite nth_error_map, Hi. reflexivity. }
  destruct (exact_dim u (p (List.length us - i - 1))) as (z' & w' & E' & Hr & Hn).
  { rewrite Forall_forall in Hu. eapply Hu, nth_error_In, Hi. }
  rewrite E in E'. inversion E'; subst z' w'. rewrite N in Hx. inversion Hx; subst x.
  rewrite Z2Nat.id by lia. split; [lia|]. intros j Hj. unfold user_dim.
  replace (List.length us - 1 - i) with (List.length us - i - 1) by lia. auto.
Qed.

Lemma forall2_impl_in {X Y} (R R' : X -> Y -> Prop) l l' :
  (forall x y, In x l -> R x y -> R' x y) -> Forall2 R l l' -> Forall2 R' l l'.
Proof.
  intros H F. induction F as [|x y l l' Hx Hl IH]; constructor; [apply H; auto; now left|].
  apply IH. intros x' y' Hin. apply H. now right.
Qed.

Lemma nearest_answers (s : session exact) us prog answers :
  session_ok s -> n_axes s = map ra_axis us -> Forall ra_ok us ->
  (forall ix, in_box (map (fun u => Z.to_nat (ra_n u)) us) ix -> List.length (n_cell s ix) = type_size (n_type s)) ->
  (forall t, n_threads s <= t -> prog t = []) ->
  session_run s (fun t => map at_reals (prog t)) answers ->
  forall t, exists k, Forall2 (fun r a => exists ix, nearest us (fst r) ix /\ expected (n_type s) (snd r) (n_cell s ix) a)
                        (firstn k (prog t)) (answers t).
Proof.
  intros Hok Ha Hu Hl Hth Hr t.
  destruct (run_answers s (fun t => map at_reals (prog t)) answers Hok) with (t := t) as (k & F); auto.
  - intros t' Ht. now rewrite Hth.
  - intros t' r Hin. apply in_map_iff in Hin as ((p & g) & <- & _). cbn. now apply (exact_defined s us).
  - exists k. rewrite firstn_map in F. clear - F Ha Hu Hl.
    remember (map at_reals (firstn k (prog t))) as l eqn:El. revert El. generalize (firstn k (prog t)).
    induction F as [|r a l l' (ix & init & E & Hb & ->) F IH]; intros [|[p g] l0] El; try discriminate El; [constructor|].
    cbn [map] in El. inversion El; subst. constructor; [|now apply IH].
    exists ix. split; [now apply (index_nearest s us p init ix)|]. cbn [snd]. apply answer_expected, Hl.
    unfold variable in Hb. cbn [f_size] in Hb. rewrite Ha, map_map in Hb. exact Hb.
Qed.

(** Double arithmetic. *)
Definition no_nan_at (s : session ieee) (pos : nat -> num ieee) : Prop :=
  forall i ax, nth_error (n_axes s) i = Some ax ->
    (1 <= x_size ax <= 2 ^ 53)%Z /\
    is_nan (Bmult mode_NE (Bminus mode_NE (pos (List.length (n_axes s) - i - 1)) (get_offset ieee ax))
                  (inv_scaling ieee (get_scaling ieee ax))) = false.

Lemma ieee_defined (s : session ieee) (pos : nat -> num ieee) : no_nan_at s pos -> @defined_at ieee s pos.
Proof.
  intros H i ax Hi. destruct (H i ax Hi) as [Hs Hn].
  destruct (ieee_in_range _ _ _ _ Hn Hs) as (z & w & E & Hr). exists z, w. auto.
Qed.

Lemma double_answers (s : session ieee) (prog : nat -> list (@request ieee)) answers :
  session_ok s ->
  (forall ix, in_box (map (fun ax => Z.to_nat (x_size ax)) (n_axes s)) ix -> List.length (n_cell s ix) = type_size (n_type s)) ->
  (forall t, n_threads s <= t -> prog t = []) ->
  (forall t r, In r (prog t) -> no_nan_at s (q_pos r)) ->
  session_run s prog answers ->
  forall t, exists k, Forall2 (fun r a => exists ix, in_box (map (fun ax => Z.to_nat (x_size ax)) (n_axes s)) ix /\
                                 expected (n_type s) (q_getter r) (n_cell s ix) a)
                        (firstn k (prog t)) (answers t).
Proof.
  intros Hok Hl Hth Hn Hr t.
  destruct (run_answers s prog answers Hok) with (t := t) as (k & F); auto.
  - intros t' r Hin. apply ieee_defined, (Hn t' r Hin).
  - exists k. eapply forall2_impl_in; [|exact F]. intros r a _ (ix & init & _ & Hb & ->).
    exists ix. split; auto. apply answer_expected, Hl, Hb.
Qed.

(** The answer depends on the file, the type of the grid, the coordinates and
    the getter only. *)
Lemma same_answers {A} (s1 s2 : session A) p1 p2 a1 a2 :
  session_ok s1 -> session_ok s2 ->
  n_axes s1 = n_axes s2 -> (forall ix, n_cell s1 ix = n_cell s2 ix) -> n_type s1 = n_type s2 ->
  (forall t, n_threads s1 <= t -> p1 t = []) -> (forall t, n_threads s2 <= t -> p2 t = []) ->
  (forall t r, In r (p1 t) -> defined_at s1 (q_pos r)) -> (forall t r, In r (p2 t) -> defined_at s2 (q_pos r)) ->
  session_run s1 p1 a1 -> session_run s2 p2 a2 ->
  forall t1 t2 i1 i2 r x1 x2,
    nth_error (p1 t1) i1 = Some r -> nth_error (p2 t2) i2 = Some r ->
    nth_error (a1 t1) i1 = Some x1 -> nth_error (a2 t2) i2 = Some x2 -> x1 = x2.
Proof.
  intros O1 O2 Ha Hc Ht H1 H2 D1 D2 R1 R2 t1 t2 i1 i2 r x1 x2 N1 N2 X1 X2.
  assert (forall (s : session A) p a t i x, session_ok s -> (forall t, n_threads s <= t -> p t = []) ->
     (forall t r, In r (p t) -> defined_at s (q_pos r)) -> session_run s p a ->
     nth_error (p t) i = Some r -> nth_error (a t) i = Some x ->
     exists ix init, index_of s (q_pos r) init = Ok ix /\ x = answer_of s (q_getter r) (Some (Some (n_cell s ix)))) as Hone.
  { clear. intros s p a t i x O H D R N X. destruct (run_answers s p a O H D R t) as (k & F).
    assert (forall r', nth_error (firstn k (p t)) i = Some r' -> r' = r) as Hk.
    { intros r' E. rewrite <- (firstn_skipn k (p t)) in N.
      rewrite nth_error_app1 in N by (apply nth_error_Some; congruence). congruence. }
    revert F X Hk. generalize (firstn k (p t)) (a t). clear. intros l l' F. revert i.
    induction F as [|r' a' l l' (ix & init & E & _ & E') F IH]; intros [|i] X Hk; try discriminate X.
    - cbn in X. inversion X; subst. rewrite <- (Hk r' eq_refl). eauto.
    - cbn in X. apply (IH i X). intros r0 E0. now apply Hk. }
  destruct (Hone s1 p1 a1 t1 i1 x1 O1 H1 D1 R1 N1 X1) as (ix1 & n1 & E1 & ->).
  destruct (Hone s2 p2 a2 t2 i2 x2 O2 H2 D2 R2 N2 X2) as (ix2 & n2 & E2 & ->).
  pose proof (index_same s1 s2 (q_pos r) n1 n2 ix1 ix2 Ha E1 E2). subst ix2.
  unfold answer_of. now rewrite Hc, Ht.
Qed.
