(** * Property level lemmas about the requests to the file *)
From Verif Require Export RequestModel CacheFacts LevelsFacts.

(** The cell [ix] is one of those a call with [start] and [count] asks for. *)
Fixpoint covers3 (start count ix : list nat) : bool :=
  match start, count, ix with
  | [], [], [] => true
  | s :: start', c :: count', i :: ix' => (s <=? i) && (i <? s + c) && covers3 start' count' ix'
  | _, _, _ => false
  end.
Definition covers (q : request) (ix : list nat) : bool := covers3 (fst q) (snd q) ix.

(** A call the netCDF library answers: inside of the variable, at least one cell. *)
Definition fine (sizes : list nat) (q : request) : Prop :=
  slab_ok sizes (fst q) (snd q) = true /\ Forall (fun c => 0 < c) (snd q).

Lemma corner_covers sizes bs st : in_box sizes st -> Forall (fun b => 0 < b) bs -> length bs = length sizes ->
  corner_of bs st = st ->
  forall jx, in_box sizes jx -> (covers (st, act_size sizes st bs) jx = true <-> corner_of bs jx = st).
Proof.
  unfold covers, corner_of. cbn [fst snd].
  intros H. revert bs. induction H as [|o s st sizes Ho H IH]; intros bs Hp Hl Hc jx Hj.
  - destruct bs; [|discriminate]. inversion Hj; subst. cbn. tauto.
  - destruct bs as [|b bs]; [discriminate|]. inversion Hp as [|? ? Hb Hp']; subst.
    inversion Hj as [|j ? jx' ? Hjs Hj']; subst. cbn in Hc. injection Hc as Hc1 Hc2.
    cbn [act_size covers3 map2]. rewrite !andb_true_iff, Nat.leb_le, Nat.ltb_lt.
    rewrite (IH bs Hp' ltac:(cbn in Hl; lia) Hc2 jx' Hj').
    pose proof (Nat.div_mod j b ltac:(lia)). pose proof (Nat.mod_upper_bound j b ltac:(lia)).
    assert (((o <= j /\ j < o + (if s <? o + b then s - o else b)) <-> j / b * b = o)) as Hk.
    { split.
      - intros [H2 H3]. assert (j < o + b) as H4 by (destruct (Nat.ltb_spec s (o + b)); lia).
        rewrite <- Hc1. f_equal. symmetry. apply (Nat.div_unique j b (o / b) (j - o)); [lia|].
        rewrite (Nat.mul_comm b). rewrite Hc1. lia.
      - intros He. destruct (Nat.ltb_spec s (o + b)); lia. }
    split.
    + intros [H2 ->]. f_equal. now apply Hk.
    + intros [= H2 H3]. split; auto. now apply Hk.
Qed.

Lemma corner_idem bs ix : Forall (fun b => 0 < b) bs -> corner_of bs (corner_of bs ix) = corner_of bs ix.
Proof.
  unfold corner_of. intros H; revert ix; induction H as [|b bs Hb H IH]; intros [|i ix]; cbn; auto.
  rewrite IH. f_equal. now rewrite Nat.div_mul by lia.
Qed.

Lemma corner_in_box sizes bs ix : Forall (fun b => 0 < b) bs -> length bs = length sizes ->
  in_box sizes ix -> in_box sizes (corner_of bs ix).
Proof.
  unfold corner_of. intros H Hl Hi; revert bs H Hl; induction Hi as [|i s ix sizes Hs Hi IH]; intros bs H Hl.
  - destruct bs; [constructor|discriminate].
  - destruct bs as [|b bs]; [discriminate|]. inversion H; subst. cbn. constructor.
    + pose proof (Nat.div_mod i b ltac:(lia)). pose proof (Nat.mod_upper_bound i b ltac:(lia)). lia.
    + apply IH; auto.
Qed.

Lemma act_fine sizes bs st : in_box sizes st -> Forall (fun b => 0 < b) bs -> length bs = length sizes ->
  fine sizes (st, act_size sizes st bs).
Proof.
  unfold fine. cbn [fst snd].
  intros H; revert bs; induction H as [|o s st sizes Ho H IH]; intros bs Hp Hl.
  - destruct bs; [|discriminate]. cbn. auto.
  - destruct bs as [|b bs]; [discriminate|]. inversion Hp; subst.
    destruct (IH bs) as [I1 I2]; auto. cbn [act_size slab_ok]. rewrite I1.
    destruct (Nat.ltb_spec s (o + b)); (split; [rewrite andb_true_r; apply Nat.leb_le; lia|constructor; [lia|auto]]).
Qed.

(** ** The history of the cache list *)
Lemma trace_snoc c0 bs b : clist_trace c0 (bs ++ [b]) =
  (do x <- clist_trace c0 bs; let '(c, outs) := x in
   do y <- clist_request c b; let '(c', i, old) := y in Ok (c', outs ++ [(i, old)])).
Proof.
  revert c0; induction bs as [|a bs IH]; intros c0; cbn [app clist_trace].
  - cbn [obind]. destruct (clist_request c0 b) as [[[c' i] old]|]; auto.
  - destruct (clist_request c0 a) as [[[c' i] old]|]; auto. cbn [obind]. rewrite IH.
    destruct (clist_trace c' bs) as [[c outs]|]; auto. cbn [obind].
    destruct (clist_request c b) as [[[c2 i2] old2]|]; auto.
Qed.

Lemma trace_nth bs : forall c0 c outs j b, clist_trace c0 bs = Ok (c, outs) -> nth_error bs j = Some b ->
  exists cj outs1 c' i old, clist_trace c0 (firstn j bs) = Ok (cj, outs1) /\
    clist_request cj b = Ok (c', i, old) /\ nth_error outs j = Some (i, old).
Proof.
  induction bs as [|a bs IH]; intros c0 c outs j b; cbn [clist_trace]; [destruct j; discriminate|].
  destruct (clist_request c0 a) as [[[c1 i1] old1]|] eqn:Ea; [|discriminate]. cbn [obind].
  destruct (clist_trace c1 bs) as [[c2 outs2]|] eqn:Et; [|discriminate]. cbn [obind]. intros [= <- <-].
  destruct j as [|j]; cbn [nth_error firstn].
  - intros [= ->]. exists c0, [], c1, i1, old1. auto.
  - intros Hb. destruct (IH c1 c2 outs2 j b Et Hb) as (cj & outs1 & c' & i & old & E1 & E2 & E3).
    exists cj, ((i1, old1) :: outs1), c', i, old. cbn [clist_trace]. rewrite Ea. cbn [obind]. rewrite E1. auto.
Qed.

Lemma firstn_snoc {A} (l : list A) j b : nth_error l j = Some b -> firstn (S j) l = firstn j l ++ [b].
Proof.
  revert j; induction l as [|a l IH]; intros [|j]; try discriminate.
  - intros [= ->]. reflexivity.
  - intros H. cbn [nth_error] in H. change (a :: firstn (S j) l = a :: (firstn j l ++ [b])). f_equal. now apply IH.
Qed.

Lemma cached_sub n spread c0 : 0 < n -> (spread < Z.of_nat n)%Z -> clist_init n spread = Ok c0 ->
  forall bs c outs x, clist_trace c0 bs = Ok (c, outs) -> In x (cached c) -> In x bs.
Proof.
  intros Hn Hs E0. induction bs as [|b bs IH] using rev_ind; intros c outs x Et Hx.
  - destruct (bookkeeping n spread [] Hn Hs) as (c1 & c2 & o2 & E1 & _ & Hc & _). rewrite E0 in E1.
    injection E1 as <-. cbn in Et. injection Et as <- _. rewrite Hc in Hx. destruct Hx.
  - destruct (bookkeeping n spread bs Hn Hs) as (c1 & c2 & o2 & E1 & E2 & _ & _ & _ & _ & _ & H).
    rewrite E0 in E1. injection E1 as <-. destruct (H b) as (c' & i & old & Er & _ & _ & _ & _ & _ & Hc & _).
    rewrite trace_snoc, E2 in Et. cbn [obind] in Et. rewrite Er in Et. cbn [obind] in Et. injection Et as <- _.
    apply Hc in Hx as [->|[Hx _]]; apply in_or_app; [right; now left|left]. eapply IH; eauto.
Qed.

Lemma trace_first n spread c0 bs c outs j b i old : 0 < n -> (spread < Z.of_nat n)%Z ->
  clist_init n spread = Ok c0 -> clist_trace c0 bs = Ok (c, outs) ->
  nth_error bs j = Some b -> nth_error outs j = Some (i, old) -> old = Some b -> In b (firstn j bs).
Proof.
  intros Hn Hs E0 Et Hb Ho ->. destruct (trace_nth bs c0 c outs j b Et Hb) as (cj & o1 & c' & i' & old' & E1 & E2 & E3).
  rewrite Ho in E3. injection E3 as <- <-.
  destruct (bookkeeping n spread (firstn j bs) Hn Hs) as (c1 & c2 & o2 & E4 & E5 & _ & _ & _ & _ & _ & H).
  rewrite E0 in E4. injection E4 as <-. rewrite E1 in E5. injection E5 as <- <-.
  destruct (H b) as (c3 & i3 & old3 & E6 & _ & _ & _ & _ & Hx & _). rewrite E2 in E6. injection E6 as <- <- <-.
  eapply cached_sub; eauto.
Qed.

Lemma trace_again n spread c0 bs c outs j b i old : 0 < n -> (spread < Z.of_nat n)%Z ->
  clist_init n spread = Ok c0 -> clist_trace c0 bs = Ok (c, outs) ->
  nth_error bs j = Some b -> nth_error bs (S j) = Some b -> nth_error outs (S j) = Some (i, old) -> old = Some b.
Proof.
  intros Hn Hs E0 Et Hb Hb' Ho.
  destruct (trace_nth bs c0 c outs (S j) b Et Hb') as (cj & o1 & c' & i' & old' & E1 & E2 & E3).
  rewrite Ho in E3. injection E3 as <- <-.
  rewrite (firstn_snoc _ _ _ Hb) in E1.
  destruct (bookkeeping n spread (firstn j bs) Hn Hs) as (c1 & c2 & o2 & E4 & E5 & _ & _ & _ & _ & _ & H).
  rewrite E0 in E4. injection E4 as <-. rewrite trace_snoc, E5 in E1. cbn [obind] in E1.
  destruct (H b) as (c3 & i3 & old3 & E6 & _ & _ & _ & _ & _ & Hc & _). rewrite E6 in E1. cbn [obind] in E1.
  injection E1 as <- <-. assert (In b (cached c3)) as Hin by (apply Hc; now left).
  destruct (bookkeeping n spread (firstn j bs ++ [b]) Hn Hs) as (d1 & d2 & p2 & F4 & F5 & _ & _ & _ & _ & _ & F).
  rewrite E0 in F4. injection F4 as <-. rewrite trace_snoc, E5 in F5. cbn [obind] in F5. rewrite E6 in F5.
  cbn [obind] in F5. injection F5 as <- <-.
  destruct (F b) as (d3 & k3 & old4 & F6 & _ & _ & Hold & _). rewrite E2 in F6. injection F6 as <- <- <-. auto.
Qed.

Section Geo.
  Context {V : Type}.
  Variables (f : file V) (user : nat -> Z) (td : Z) (arr0 : nat -> nat) (bl : blocked) (opaque : bool).
  Hypothesis Hdim : f_size f <> [].
  Hypothesis Hopen : blocked_open (f_size f) user td arr0 = Ok bl.
  Let g := Geom bl f opaque.

  Lemma rq_wf : wf_blocked bl /\ b_size bl = f_size f.
  Proof. destruct (blocked_open_spec _ _ _ _ _ Hopen) as (Hwf & Hsz & _). auto. Qed.

  Lemma rq_corner ix : in_box (f_size f) ix ->
    ix_mul (calc_block_position bl (block_by_coords bl ix)) (b_bs bl) = corner_of (b_bs bl) ix.
  Proof.
    intros Hi. pose proof (proj1 (blocked_open_ok_iff _ _ _ _) (ex_intro _ bl Hopen)) as Hp.
    destruct (partition_spec _ user td arr0 Hp) as (bl' & E & H & _). rewrite Hopen in E. injection E as <-.
    now apply H.
  Qed.

  Lemma rq_same ix jx : in_box (f_size f) ix -> in_box (f_size f) jx ->
    (corner_of (b_bs bl) ix = corner_of (b_bs bl) jx <-> block_by_coords bl ix = block_by_coords bl jx).
  Proof.
    intros Hi Hj. pose proof (proj1 (blocked_open_ok_iff _ _ _ _) (ex_intro _ bl Hopen)) as Hp.
    destruct (partition_spec _ user td arr0 Hp) as (bl' & E & _ & _ & H & _). rewrite Hopen in E. injection E as <-.
    specialize (H ix jx Hi Hj). tauto.
  Qed.

  (** The request for the block of a cell. *)
  Lemma block_rq ix : in_box (f_size f) ix ->
    let q := block_request f (corner_of (b_bs bl) ix) (b_bs bl) in
    fine (f_size f) q /\
    forall jx, in_box (f_size f) jx -> (covers q jx = true <-> block_by_coords bl jx = block_by_coords bl ix).
  Proof.
    intros Hi q. destruct rq_wf as [Hwf Hsz]. pose proof (wf_bs_pos _ Hwf) as Hp. pose proof (wf_len _ Hwf) as Hl.
    rewrite Hsz in Hl. pose proof (corner_in_box _ _ _ Hp Hl Hi) as Hc. split.
    - now apply act_fine.
    - intros jx Hj. unfold q, block_request. rewrite (corner_covers _ (b_bs bl)); auto; [|now apply corner_idem].
      now apply rq_same.
  Qed.

  (** ** Full *)
  Fixpoint ids (d : dist) (r dom i k : nat) : list nat :=
    match k with
    | 0 => []
    | S k' => if d_total d <=? local2global d r dom i then []
              else local2global d r dom i :: ids d r dom (S i) k'
    end.
  Definition rq_of (b : nat) : request :=
    block_request f (ix_mul (calc_block_position bl b) (b_bs bl)) (b_bs bl).

  Lemma full_load_erase d r dom base k : forall i m,
    full_load_log g d r dom base i k m =
    (do m' <- full_load g d r dom base i k m; Ok (m', map rq_of (ids d r dom i k))).
  Proof.
    induction k as [|k IH]; intros i m; cbn [full_load_log full_load ids]; auto.
    destruct (_ <=? _); auto. unfold load_log. destruct (load g _ _ m) as [m'|]; auto. cbn [obind].
    rewrite IH. destruct (full_load g d r dom base (S i) k m'); auto.
  Qed.

  Lemma full_domains_erase d r k : forall dom m,
    full_domains_log g d r dom k m =
    (do m' <- full_open_domains g d r dom k m;
     Ok (m', map rq_of (flat_map (fun j => ids d r j 0 (local_block_count d)) (seq dom k)))).
  Proof.
    induction k as [|k IH]; intros dom m; cbn [full_domains_log full_open_domains seq flat_map]; auto.
    rewrite full_load_erase. destruct (full_load _ _ _ _ _ _ _ _) as [m'|]; auto. cbn [obind].
    rewrite IH. destruct (full_open_domains _ _ _ _ _ _); auto. cbn [obind]. now rewrite map_app.
  Qed.

  Lemma ids_In d r dom k : forall i b, In b (ids d r dom i k) ->
    b < d_total d /\ exists j, i <= j < i + k /\ b = local2global d r dom j.
  Proof.
    induction k as [|k IH]; intros i b; cbn [ids]; [contradiction|].
    destruct (Nat.leb_spec (d_total d) (local2global d r dom i)); [contradiction|].
    intros [<-|Hin]; [split; auto; exists i; split; auto; lia|].
    destruct (IH _ _ Hin) as (Hb & j & Hj & E). split; auto. exists j. split; auto. lia.
  Qed.

  Section D.
    Variable d : dist.
    Hypotheses (HP : 0 < d_ranks d) (HD : 0 < d_domains d).

    Lemma ids_has r dom k : forall i j, i <= j < i + k -> local2global d r dom j < d_total d ->
      In (local2global d r dom j) (ids d r dom i k).
    Proof.
      destruct (one_home d HP HD) as (_ & _ & Hm).
      induction k as [|k IH]; intros i j Hj Hb; [lia|]. cbn [ids].
      destruct (Nat.leb_spec (d_total d) (local2global d r dom i)) as [Hle|_].
      - specialize (Hm r dom i j ltac:(lia) Hb). lia.
      - destruct (Nat.eq_dec i j) as [->|]; [now left|right]. apply IH; auto. lia.
    Qed.

    Lemma ids_NoDup r dom : r < d_ranks d -> dom < d_domains d ->
      forall k i, i + k <= local_block_count d -> NoDup (ids d r dom i k).
    Proof.
      intros Hr Hd. destruct (one_home d HP HD) as (Ho & _ & _).
      induction k as [|k IH]; intros i Hk; cbn [ids]; [constructor|].
      destruct (Nat.leb_spec (d_total d) (local2global d r dom i)); [constructor|].
      constructor; [|apply IH; lia]. intros Hin. apply ids_In in Hin as (Hb & j & Hj & E).
      destruct (Ho _ Hb) as (_ & _ & _ & Hu & _).
      pose proof (proj1 (Hu r dom i Hr Hd ltac:(lia)) eq_refl).
      pose proof (proj1 (Hu r dom j Hr Hd ltac:(lia)) (eq_sym E)). lia.
    Qed.

    Lemma NoDup_flat {A} (h : nat -> list A) l : NoDup l -> (forall x, In x l -> NoDup (h x)) ->
      (forall x y a, In x l -> In y l -> In a (h x) -> In a (h y) -> x = y) -> NoDup (flat_map h l).
    Proof.
      induction 1 as [|x l Hx H IH]; intros H1 H2; cbn; [constructor|].
      assert (NoDup (flat_map h l)) as Hn.
      { apply IH; [intros; apply H1; now right|]. intros y z a Hy Hz. apply H2; now right. }
      assert (forall a, In a (h x) -> ~ In a (flat_map h l)) as Hno.
      { intros a Ha Hin. apply in_flat_map in Hin as (y & Hy & Hay).
        assert (x = y) by (eapply H2; eauto; [now left|now right]). subst. contradiction. }
      specialize (H1 x (or_introl eq_refl)). clear -Hn Hno H1. induction H1 as [|a l' Ha Hl IH]; cbn; auto.
      constructor; [|apply IH; intros; apply Hno; now right].
      intros Hin. apply in_app_or in Hin as [|Hin]; [contradiction|]. apply (Hno a); auto. now left.
    Qed.

    Definition all_ids : list nat :=
      flat_map (fun r => flat_map (fun dom => ids d r dom 0 (local_block_count d)) (seq 0 (d_domains d)))
               (seq 0 (d_ranks d)).

    Lemma all_ids_In b : In b all_ids <-> b < d_total d.
    Proof.
      destruct (one_home d HP HD) as (Ho & _ & _). unfold all_ids. split.
      - intros H. apply in_flat_map in H as (r & _ & H). apply in_flat_map in H as (dom & _ & H).
        now apply ids_In in H.
      - intros Hb. destruct (Ho b Hb) as (Hr & Hd & Hk & Hu & _).
        apply in_flat_map. exists (block_rank d b). split; [apply in_seq; lia|].
        apply in_flat_map. exists (block_domain d b). split; [apply in_seq; lia|].
        assert (local2global d (block_rank d b) (block_domain d b) (block_offset d b) = b) as E by (apply Hu; auto).
        pose proof (ids_has (block_rank d b) (block_domain d b) (local_block_count d) 0 (block_offset d b) ltac:(lia)) as Hh.
        rewrite E in Hh. auto.
    Qed.

    Lemma all_ids_NoDup : NoDup all_ids.
    Proof.
      destruct (one_home d HP HD) as (Ho & _ & _). unfold all_ids.
      assert (forall r dom b, r < d_ranks d -> dom < d_domains d -> In b (ids d r dom 0 (local_block_count d)) ->
                r = block_rank d b /\ dom = block_domain d b) as Hu.
      { intros r dom b Hr Hd Hin. apply ids_In in Hin as (Hb & j & Hj & E).
        destruct (Ho b Hb) as (_ & _ & _ & Hu & _).
        destruct (proj1 (Hu r dom j Hr Hd ltac:(lia)) (eq_sym E)) as (? & ? & _). auto. }
      apply NoDup_flat; [apply seq_NoDup| |].
      - intros r Hr. apply in_seq in Hr. apply NoDup_flat; [apply seq_NoDup| |].
        + intros dom Hd. apply in_seq in Hd. apply ids_NoDup; lia.
        + intros x y b Hx Hy Hbx Hby. apply in_seq in Hx, Hy.
          destruct (Hu r x b) as [_ ->]; auto; try lia. destruct (Hu r y b) as [_ ->]; auto; try lia.
      - intros x y b Hx Hy Hbx Hby. apply in_seq in Hx, Hy.
        apply in_flat_map in Hbx as (dx & Hdx & Hbx). apply in_flat_map in Hby as (dy & Hdy & Hby).
        apply in_seq in Hdx, Hdy.
        destruct (Hu x dx b) as [-> _]; auto; try lia. destruct (Hu y dy b) as [-> _]; auto; try lia.
    Qed.
  End D.

  Lemma rq_of_corner b : b < b_total bl -> exists ix, in_box (f_size f) ix /\ block_by_coords bl ix = b /\
    rq_of b = block_request f (corner_of (b_bs bl) ix) (b_bs bl).
  Proof.
    intros Hb. destruct rq_wf as [Hwf Hsz].
    destruct (corner_cell bl Hwf b Hb) as (Hi & Eb & _). rewrite Hsz in Hi.
    exists (ix_mul (calc_block_position bl b) (b_bs bl)). split; auto. split; auto.
    unfold rq_of. f_equal. rewrite <- rq_corner by auto. now rewrite Eb.
  Qed.

  Lemma count_one (l : list nat) b : NoDup l -> In b l -> length (filter (Nat.eqb b) l) = 1.
  Proof.
    induction 1 as [|x l Hx H IH]; [contradiction|]. cbn. intros Hin.
    destruct (Nat.eqb_spec b x) as [->|Hne]; cbn.
    - assert (filter (Nat.eqb x) l = []) as ->; auto.
      clear -Hx. induction l as [|y l IH]; cbn; auto. destruct (Nat.eqb_spec x y) as [->|].
      + destruct Hx. now left.
      + apply IH. intros ?; apply Hx; now right.
    - apply IH. destruct Hin as [->|]; [congruence|auto].
  Qed.

  Lemma full_requests_facts d : 0 < d_ranks d -> 0 < d_domains d -> d_total d = b_total bl ->
    exists logs : nat -> list request,
      (forall r, r < d_ranks d -> exists m, full_open g d r = Ok m /\ full_open_log g d r = Ok (m, logs r)) /\
      let all := flat_map logs (seq 0 (d_ranks d)) in
      Forall (fine (f_size f)) all /\
      (forall ix, in_box (f_size f) ix -> length (filter (fun q => covers q ix) all) = 1) /\
      length all = b_total bl.
  Proof.
    intros HP HD Ht.
    exists (fun r => map rq_of (flat_map (fun j => ids d r j 0 (local_block_count d)) (seq 0 (d_domains d)))).
    split.
    - intros r Hr.
      destruct (full_open_spec g (geom_wf f user td arr0 bl opaque Hdim Hopen) d HP HD Ht r Hr) as (m & E & _).
      exists m. split; auto. unfold full_open_log. rewrite full_domains_erase. unfold full_open in E. rewrite E. reflexivity.
    - cbv zeta.
      assert (flat_map (fun r => map rq_of (flat_map (fun j => ids d r j 0 (local_block_count d)) (seq 0 (d_domains d))))
                (seq 0 (d_ranks d)) = map rq_of (all_ids d)) as ->.
      { unfold all_ids. generalize (seq 0 (d_ranks d)) as l. induction l as [|r l IH]; cbn; auto.
        now rewrite IH, map_app. }
      split; [|split].
      + apply Forall_forall. intros q Hq. apply in_map_iff in Hq as (b & <- & Hb).
        apply all_ids_In in Hb; auto. rewrite Ht in Hb. destruct (rq_of_corner b Hb) as (ix & Hi & _ & ->).
        now apply block_rq.
      + intros ix Hi.
        assert (filter (fun q => covers q ix) (map rq_of (all_ids d)) =
                map rq_of (filter (Nat.eqb (block_by_coords bl ix)) (all_ids d))) as ->.
        { assert (Forall (fun b => b < b_total bl) (all_ids d)) as Hf.
          { apply Forall_forall. intros b Hb. rewrite <- Ht. apply all_ids_In; auto. }
          induction Hf as [|b l Hb Hf IH]; cbn [map filter]; auto.
          destruct (rq_of_corner b Hb) as (jx & Hj & Ej & E). destruct (block_rq jx Hj) as [_ Hc].
          specialize (Hc ix Hi). rewrite <- E, Ej in Hc.
          assert (covers (rq_of b) ix = Nat.eqb (block_by_coords bl ix) b) as ->.
          { apply eq_true_iff_eq. now rewrite Nat.eqb_eq. }
          destruct (Nat.eqb _ _); cbn [map]; now rewrite IH. }
        rewrite map_length. apply count_one; [now apply all_ids_NoDup|]. apply all_ids_In; auto. rewrite Ht.
        pose proof (proj1 (blocked_open_ok_iff _ _ _ _) (ex_intro _ bl Hopen)) as Hp.
        destruct (partition_spec _ user td arr0 Hp) as (bl' & E & H & _). rewrite Hopen in E. injection E as <-.
        now apply H.
      + rewrite map_length. rewrite <- (seq_length (b_total bl) 0).
        apply Nat.le_antisymm; apply NoDup_incl_length.
        * now apply all_ids_NoDup.
        * intros b Hb. apply in_seq. apply all_ids_In in Hb; auto. lia.
        * apply seq_NoDup.
        * intros b Hb. apply in_seq in Hb. apply all_ids_In; auto. lia.
  Qed.

  (** ** Cache *)
  Lemma load_corner_eq ix : load_corner g ix = corner_of (b_bs bl) ix.
  Proof.
    destruct rq_wf as [Hwf _]. pose proof (wf_bs_pos _ Hwf) as Hp. unfold load_corner, corner_of. cbn [g_bl g].
    revert ix; induction Hp as [|b bs Hb Hp IH]; intros [|i ix]; cbn [map2]; auto. rewrite IH. f_equal.
    pose proof (Nat.div_mod i b ltac:(lia)) as E. rewrite (Nat.mul_comm (i / b)). rewrite E at 1. apply Nat.add_sub.
  Qed.

  Definition cache_rq (ix : list nat) (o : nat * option nat) : list request :=
    if is_hit (block_by_coords bl ix) (snd o) then []
    else [block_request f (corner_of (b_bs bl) ix) (b_bs bl)].

  Lemma cache_get_erase s ix s' v : cache_get g s ix = Ok (s', v) ->
    exists i old, clist_request (cs_list s) (block_by_coords bl ix) = Ok (cs_list s', i, old) /\
      cache_get_log g s ix = Ok (s', v, cache_rq ix (i, old)) /\
      n_file (cs_cnt s') = n_file (cs_cnt s) + length (cache_rq ix (i, old)).
  Proof.
    unfold cache_get, cache_get_log, cache_rq. cbn [g_bl g snd].
    destruct (clist_request _ _) as [[[l slot] old]|]; [|discriminate]. cbn [obind].
    destruct (is_hit _ old) eqn:Eh.
    - cbn [obind]. destruct (mem_rd _ _); [|discriminate]. cbn [obind]. intros [= <- <-]. exists slot, old.
      rewrite Eh. split; [reflexivity|]. split; [reflexivity|]. cbn. lia.
    - unfold load_log. destruct (load g _ _ _); [|discriminate]. cbn [obind].
      destruct (mem_rd _ _); [|discriminate]. cbn [obind]. intros [= <- <-]. exists slot, old.
      rewrite Eh. split; [reflexivity|]. split; [now rewrite load_corner_eq|]. cbn. lia.
  Qed.

  Lemma cache_run_erase ixs : forall s s' vs, cache_run g s ixs = Ok (s', vs) ->
    exists c outs, clist_trace (cs_list s) (map (block_by_coords bl) ixs) = Ok (c, outs) /\
      cache_run_log g s ixs = Ok (s', vs, map2 cache_rq ixs outs) /\ length outs = length ixs /\
      n_file (cs_cnt s') = n_file (cs_cnt s) + length (concat (map2 cache_rq ixs outs)).
  Proof.
    induction ixs as [|ix ixs IH]; intros s s' vs; cbn [cache_run cache_run_log map clist_trace].
    - intros [= <- <-]. exists (cs_list s), []. repeat split; auto.
    - destruct (cache_get g s ix) as [[s1 v]|] eqn:E; [|discriminate]. cbn [obind].
      destruct (cache_run g s1 ixs) as [[s2 vs2]|] eqn:E2; [|discriminate]. cbn [obind]. intros [= <- <-].
      destruct (cache_get_erase s ix s1 v E) as (i & old & Er & El & En).
      destruct (IH s1 s2 vs2 E2) as (c & outs & Et & El2 & Hl & En2).
      exists c, ((i, old) :: outs). rewrite Er. cbn [obind]. rewrite Et. split; [reflexivity|].
      rewrite El. cbn [obind]. rewrite El2. split; [reflexivity|]. cbn [length]. split; [congruence|].
      cbn [map2 concat]. rewrite app_length. lia.
  Qed.

  Lemma map2_nth {A B C} (h : A -> B -> C) l : forall m j a, length m = length l -> nth_error l j = Some a ->
    exists b, nth_error m j = Some b /\ nth_error (map2 h l m) j = Some (h a b).
  Proof.
    induction l as [|x l IH]; intros [|y m] [|j] a Hl; try discriminate; cbn.
    - intros [= ->]. eauto.
    - intros H. apply IH; auto.
  Qed.

  Lemma map2_len {A B C} (h : A -> B -> C) l : forall m, length m = length l -> length (map2 h l m) = length l.
  Proof. induction l as [|x l IH]; intros [|y m] Hl; try discriminate; cbn; auto. Qed.

  Lemma is_hit_iff b old : is_hit b old = true <-> old = Some b.
  Proof.
    destruct old as [x|]; cbn; [|split; discriminate]. rewrite Nat.eqb_eq. split; [now intros ->|now intros [= ->]].
  Qed.

  Lemma cache_requests_facts n spread : 0 < n -> (spread < Z.of_nat n)%Z ->
    exists s0, cache_open g n spread = Ok s0 /\ cached (cs_list s0) = [] /\ n_file (cs_cnt s0) = 0 /\
    forall ixs, Forall (in_box (f_size f)) ixs ->
      let blk := block_by_coords bl in
      exists s' logs,
        cache_run g s0 ixs = Ok (s', map (fun ix => Some (f_val f ix)) ixs) /\
        cache_run_log g s0 ixs = Ok (s', map (fun ix => Some (f_val f ix)) ixs, logs) /\
        length logs = length ixs /\
        n_file (cs_cnt s') = length (concat logs) /\
        (forall j ix, nth_error ixs j = Some ix ->
           nth_error logs j = Some [] \/
           exists q, nth_error logs j = Some [q] /\ fine (f_size f) q /\
             forall jx, in_box (f_size f) jx -> (covers q jx = true <-> blk jx = blk ix)) /\
        (forall j ix, nth_error ixs j = Some ix -> nth_error logs j = Some [] ->
           In (blk ix) (map blk (firstn j ixs))) /\
        (forall j ix ix', nth_error ixs j = Some ix -> nth_error ixs (S j) = Some ix' -> blk ix = blk ix' ->
           nth_error logs (S j) = Some []) /\
        (length (nodup Nat.eq_dec (map blk ixs)) <= n ->
         forall j ix, nth_error ixs j = Some ix ->
           (nth_error logs j = Some [] <-> In (blk ix) (map blk (firstn j ixs)))).
  Proof.
    intros Hn Hs.
    destruct (cache_open_spec g n spread Hn (spread_ok n spread Hn Hs)) as (s0 & Eo & _ & Hcnt & _).
    assert (clist_init n spread = Ok (cs_list s0)) as Ei.
    { unfold cache_open in Eo. destruct (clist_init n spread); [|discriminate]. cbn in Eo. now injection Eo as <-. }
    exists s0. split; auto. split.
    { destruct (bookkeeping n spread [] Hn Hs) as (c1 & c2 & o2 & E1 & _ & Hc & _). rewrite Ei in E1.
      now injection E1 as <-. }
    split; [now rewrite Hcnt|]. intros ixs Hi blk.
    destruct (cache_facts f user td arr0 bl opaque n spread Hdim Hopen Hn Hs) as (s1 & Es1 & Hf).
    fold g in Es1. rewrite Eo in Es1. injection Es1 as <-.
    destruct (Hf ixs Hi) as (s' & Er & _). fold g in Er.
    destruct (cache_run_erase ixs s0 s' _ Er) as (c & outs & Et & El & Hl & En).
    exists s', (map2 cache_rq ixs outs). split; auto. split; auto.
    split; [now apply map2_len|]. split; [rewrite En, Hcnt; reflexivity|].
    fold blk in Et.
    assert (forall j ix, nth_error ixs j = Some ix -> exists i old, nth_error outs j = Some (i, old) /\
              nth_error (map2 cache_rq ixs outs) j = Some (cache_rq ix (i, old)) /\
              (nth_error (map2 cache_rq ixs outs) j = Some [] <-> old = Some (blk ix))) as Hnth.
    { intros j ix Hj. destruct (map2_nth cache_rq ixs outs j ix Hl Hj) as ([i old] & E1 & E2).
      exists i, old. split; auto. split; auto. rewrite E2. rewrite <- is_hit_iff. unfold cache_rq, blk. cbn [snd].
      destruct (is_hit _ old); split; auto; discriminate. }
    assert (forall j ix, nth_error ixs j = Some ix -> nth_error (map blk ixs) j = Some (blk ix)) as Hmap
      by (intros j ix Hj; now apply map_nth_error).
    assert (forall j ix, nth_error ixs j = Some ix -> nth_error (map2 cache_rq ixs outs) j = Some [] ->
              In (blk ix) (map blk (firstn j ixs))) as Hfirst.
    { intros j ix Hj Hh. destruct (Hnth j ix Hj) as (i & old & E1 & _ & H). apply H in Hh. rewrite <- firstn_map.
      eapply (trace_first n spread); eauto. }
    split; [|split; [exact Hfirst|split]].
    - intros j ix Hj. destruct (Hnth j ix Hj) as (i & old & _ & E & _). rewrite E. unfold cache_rq.
      destruct (is_hit _ _); [now left|right]. eexists. split; [reflexivity|]. apply block_rq.
      rewrite Forall_forall in Hi. apply Hi. eapply nth_error_In; eauto.
    - intros j ix ix' Hj Hj' Hb. destruct (Hnth (S j) ix' Hj') as (i & old & E1 & _ & H). apply H.
      apply (trace_again n spread (cs_list s0) (map blk ixs) c outs j _ i); auto.
      rewrite <- Hb. now apply Hmap.
    - intros Hd j ix Hj. split; [now apply Hfirst|]. intros Hin.
      destruct (first_lap_facts n spread (map blk ixs) Hn Hs Hd) as (c0 & c2 & outs2 & E1 & E2 & H).
      rewrite Ei in E1. injection E1 as <-. rewrite Et in E2. injection E2 as <- <-.
      destruct (H j (blk ix) (Hmap _ _ Hj)) as (i & Eo2).
      destruct (Hnth j ix Hj) as (i' & old & E3 & _ & H3). apply H3. rewrite Eo2 in E3. injection E3 as _ <-.
      rewrite <- firstn_map in Hin. destruct (in_dec _ _ _); [auto|contradiction].
  Qed.
End Geo.

(** ** Pass-through *)
Lemma ones_act size ix : in_box size ix -> act_size size ix (map (fun _ : nat => 1) size) = map (fun _ : nat => 1) size.
Proof.
  induction 1 as [|i s ix size Hi H IH]; cbn; auto. rewrite IH. destruct (Nat.ltb_spec s (i + 1)); auto. f_equal. lia.
Qed.

Lemma ones_covers size : forall ix jx, length ix = length size ->
  (covers (ix, map (fun _ : nat => 1) size) jx = true <-> jx = ix).
Proof.
  unfold covers. cbn [fst snd].
  induction size as [|s size IH]; intros [|i ix] jx Hl; try discriminate; cbn.
  - destruct jx; split; auto; discriminate.
  - destruct jx as [|j jx]; [split; discriminate|]. rewrite !andb_true_iff, Nat.leb_le, Nat.ltb_lt.
    rewrite IH by (cbn in Hl; lia). split.
    + intros [H ->]. f_equal. lia.
    + intros [= -> ->]. split; auto. lia.
Qed.

Lemma pass_erase {V} opaque (f : file V) rs : forall m c m' c' vs, pass_seq opaque f m c rs = Ok (m', c', vs) ->
  pass_seq_log opaque f m c rs =
    Ok (m', c', vs, map (fun '(_, ix) => [block_request f ix (map (fun _ => 1) (f_size f))]) rs) /\
  n_file c' = n_file c + length rs.
Proof.
  induction rs as [|[t ix] rs IH]; intros m c m' c' vs; cbn [pass_seq pass_seq_log map length].
  - intros [= <- <- <-]. split; auto.
  - unfold pass_get, pass_get_log. destruct (pass_load _ _ _ _ _) as [m1|]; [|discriminate]. cbn [obind].
    destruct (pass_read m1 t) as [v|]; [|discriminate]. cbn [obind].
    destruct (pass_seq opaque f m1 (inc_file (inc_access c)) rs) as [[[m2 c2] vs2]|] eqn:E; [|discriminate].
    cbn [obind]. intros [= <- <- <-]. destruct (IH _ _ _ _ _ E) as [-> Hn]. split; auto. cbn in Hn. lia.
Qed.

Lemma pass_requests_facts {V} opaque (f : file V) threads rs :
  f_size f <> [] -> Forall (fun '(t, ix) => t < threads /\ in_box (f_size f) ix) rs ->
  exists m' c logs,
    pass_seq opaque f (pass_open threads) counters0 rs =
      Ok (m', c, map (fun '(_, ix) => Some (f_val f ix)) rs) /\
    pass_seq_log opaque f (pass_open threads) counters0 rs =
      Ok (m', c, map (fun '(_, ix) => Some (f_val f ix)) rs, logs) /\
    length logs = length rs /\ n_file c = length (concat logs) /\
    forall j t ix, nth_error rs j = Some (t, ix) ->
      exists q, nth_error logs j = Some [q] /\ fine (f_size f) q /\
        forall jx, covers q jx = true <-> jx = ix.
Proof.
  intros Hd H. destruct (pass_facts opaque f threads rs Hd H) as (m' & c & E & _).
  destruct (pass_erase _ _ _ _ _ _ _ _ E) as [E2 Hn].
  exists m', c. eexists. split; [exact E|]. split; [exact E2|]. split; [apply map_length|]. split.
  - rewrite Hn. cbn. clear. induction rs as [|[t ix] rs IH]; cbn; auto.
  - intros j t ix Hj. eexists. split.
    + erewrite map_nth_error by exact Hj. reflexivity.
    + rewrite Forall_forall in H. destruct (H _ (nth_error_In _ _ Hj)) as [_ Hi].
      assert (length ix = length (f_size f)) as Hl by (clear -Hi; induction Hi; cbn; auto).
      unfold block_request. split.
      * apply act_fine; auto; [|now rewrite map_length]. clear. induction (f_size f); cbn; constructor; auto.
      * rewrite ones_act by auto. intros jx. now apply ones_covers.
Qed.

(** ** Full: the file is not needed after opening *)
Lemma full_get_no_file {V} bl (f f' : file V) o o' d base m ix :
  full_get (Geom bl f o) d base m ix = full_get (Geom bl f' o') d base m ix.
Proof. reflexivity. Qed.

Lemma numa_cache_no_file {V} bl (f f' : file V) o o' s r dom b k : forall i m base,
  numa_cache_transfer (Geom bl f o) s r dom b i k m base = numa_cache_transfer (Geom bl f' o') s r dom b i k m base.
Proof.
  induction k as [|k IH]; intros i m base; cbn [numa_cache_transfer]; auto.
  destruct (_ =? _); auto. destruct (clist_peek _ _); auto.
Qed.

Lemma fd_get_no_file {V} bl (f f' : file V) o o' p mp d s r dom ix :
  fd_get p mp (Geom bl f o) d s r dom ix = fd_get p mp (Geom bl f' o') d s r dom ix.
Proof.
  unfold fd_get. cbn [g_bl]. destruct (_ && _); [reflexivity|].
  destruct (clist_request _ _) as [[[l slot] old]|]; auto. cbn [obind].
  destruct (is_hit _ old); auto.
  unfold numa_transfer. destruct p; auto. rewrite (numa_cache_no_file bl f f' o o'). reflexivity.
Qed.

Lemma fd_run_no_file {V} bl (f f' : file V) o o' p mp d rs : forall s,
  fd_run p mp (Geom bl f o) d s rs = fd_run p mp (Geom bl f' o') d s rs.
Proof.
  induction rs as [|[[r dom] ix] rs IH]; intros s; cbn [fd_run]; auto.
  rewrite (fd_get_no_file bl f f' o o'). destruct (fd_get _ _ _ _ _ _ _ _) as [[s' v]|]; auto. cbn [obind].
  now rewrite IH.
Qed.

Lemma full_run_no_file {V} bl (f f' : file V) o o' d base m ixs : forall c,
  full_run (Geom bl f o) d base m c ixs = full_run (Geom bl f' o') d base m c ixs.
Proof.
  induction ixs as [|ix ixs IH]; intros c; cbn [full_run]; auto. unfold full_get_counted.
  rewrite (full_get_no_file bl f f' o o'). destruct (full_get _ _ _ _ _); auto. cbn [obind]. now rewrite IH.
Qed.

Lemma fd_get_count {V} p mp (g : geom V) d s r dom ix s' v : fd_get p mp g d s r dom ix = Ok (s', v) ->
  forall r' dom', n_file (fd_cnt s' r' dom') = n_file (fd_cnt s r' dom').
Proof.
  intros E r' dom'.
  assert (exists c, n_file c = n_file (fd_cnt s r dom) /\ fd_cnt s' = upd2 (fd_cnt s) r dom c) as (c & Hc & ->).
  { revert E. unfold fd_get. destruct (_ && _).
    - destruct (full_get _ _ _ _ _); [|discriminate]. cbn [obind]. intros [= <- _].
      eexists. split; [|reflexivity]. reflexivity.
    - destruct (clist_request _ _) as [[[l slot] old]|]; [|discriminate]. cbn [obind].
      destruct (is_hit _ old).
      + cbn [obind]. destruct (mem_rd _ _); [|discriminate]. cbn [obind]. intros [= <- _].
        eexists. split; [|reflexivity]. reflexivity.
      + destruct (numa_transfer _ _ _ _ _ _ _ _ _) as [[m'|]|]; [| |discriminate]; cbn [obind].
        * destruct (mem_rd _ _); [|discriminate]. cbn [obind]. intros [= <- _].
          eexists. split; [|reflexivity]. reflexivity.
        * destruct (mpi_full_transfer _ _ _ _ _ _ _) as [m'|]; [|discriminate]. cbn [obind].
          destruct (mem_rd _ _); [|discriminate]. cbn [obind]. intros [= <- _].
          eexists. split; [|reflexivity]. reflexivity. }
  unfold upd2. destruct (Nat.eqb_spec r' r) as [->|]; destruct (Nat.eqb_spec dom' dom) as [->|]; cbn; auto.
Qed.

Lemma fd_run_count {V} p mp (g : geom V) d rs : forall s s' vs, fd_run p mp g d s rs = Ok (s', vs) ->
  forall r' dom', n_file (fd_cnt s' r' dom') = n_file (fd_cnt s r' dom').
Proof.
  induction rs as [|[[r dom] ix] rs IH]; intros s s' vs; cbn [fd_run].
  - intros [= <- _]. auto.
  - destruct (fd_get p mp g d s r dom ix) as [[s1 v]|] eqn:E; [|discriminate]. cbn [obind].
    destruct (fd_run p mp g d s1 rs) as [[s2 vs2]|] eqn:E2; [|discriminate]. cbn [obind]. intros [= <- _] r' dom'.
    rewrite (IH _ _ _ E2). eapply fd_get_count; eauto.
Qed.

Lemma full_reads_facts {V} (f f' : file V) user td arr0 bl opaque opaque' mode P D p mp n spread :
  f_size f <> [] -> blocked_open (f_size f) user td arr0 = Ok bl ->
  0 < P -> 0 < D -> 0 < n -> (spread < Z.of_nat n)%Z ->
  (mp = PMpiNo -> p <> PNumaNo /\ P = 1) ->
  let d := Dist mode P D (b_total bl) in
  exists s, fd_open (Geom bl f opaque) d n spread = Ok s /\
    forall rs, Forall (fun '(r, dom, ix) => r < P /\ dom < D /\ in_box (f_size f) ix) rs ->
      exists s', fd_run p mp (Geom bl f' opaque') d s rs
                 = Ok (s', map (fun '(_, _, ix) => Some (f_val f ix)) rs) /\
        forall r dom, n_file (fd_cnt s' r dom) = 0.
Proof.
  intros Hd E HP HD Hn Hs Hmp d.
  destruct (fd_facts f user td arr0 bl opaque mode P D p mp n spread Hd E HP HD Hn Hs Hmp) as (s & Es & H).
  exists s. split; [exact Es|]. intros rs Hrs. destruct (H rs Hrs) as (s' & Er & _). exists s'.
  split; [rewrite (fd_run_no_file bl f' f opaque' opaque); exact Er|].
  intros r dom. rewrite (fd_run_count _ _ _ _ _ _ _ _ Er).
  unfold fd_open in Es. destruct (open_ranks _ _ _ _ _); [|discriminate]. cbn [obind] in Es.
  destruct (clist_init n spread); [|discriminate]. cbn [obind] in Es. injection Es as <-. reflexivity.
Qed.

Lemma full_single_facts {V} (f f' : file V) user td arr0 bl opaque opaque' mode :
  f_size f <> [] -> blocked_open (f_size f) user td arr0 = Ok bl ->
  let g := Geom bl f opaque in
  let d := Dist mode 1 1 (b_total bl) in
  exists m, full_open g d 0 = Ok m /\
    forall ixs, Forall (in_box (f_size f)) ixs ->
      exists c, full_run (Geom bl f' opaque') d (domain_base g d 0) m counters0 ixs
                = Ok (c, map (fun ix => Some (f_val f ix)) ixs) /\ n_file c = 0.
Proof.
  intros Hd E g d. destruct (full_facts f user td arr0 bl opaque mode Hd E) as (m & Em & H).
  exists m. split; auto. intros ixs Hi. destruct (H ixs Hi) as (c & Er & _). exists c.
  split; [rewrite (full_run_no_file bl f' f opaque' opaque); exact Er|].
  change (n_file c = n_file counters0). revert Er. fold g. fold d. clearbody g d. clear -m. generalize (map (fun ix => Some (f_val f ix)) ixs) as vs. generalize counters0 as c0.
  induction ixs as [|ix ixs IH]; intros c0 vs; cbn [full_run].
  - now intros [= <- _].
  - unfold full_get_counted. destruct (full_get _ _ _ _ _); [|discriminate]. cbn [obind].
    destruct (full_run g d _ m (inc_access c0) ixs) as [[c2 vs2]|] eqn:E2; [|discriminate]. cbn [obind].
    intros [= <- _]. now rewrite (IH _ _ E2).
Qed.
