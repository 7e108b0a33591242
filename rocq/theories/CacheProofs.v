(** * Proofs about the cache bookkeeping *)
From Verif Require Export NetCdfProofs CacheModel.

(** The distance of the two hands that [init] really uses. *)
Definition eff_spread (size : nat) (handDiff : Z) : nat :=
  if (handDiff <? 0)%Z then size / 2 else Z.to_nat handDiff.

(** [t] is the number of loop iterations executed since initialisation. *)
Record lru_inv (n h t : nat) (l : lru) : Prop := {
  li_n : 0 < n;
  li_h : h < n;
  li_size : l_size l = n;
  li_page : l_page l = (n - 1 + t) mod n;
  li_clear : l_clear l = (h + t) mod n;
  li_len : m_len (l_ref l) = n;
  li_init : forall i, i < n -> i < h + t -> exists b, m_at (l_ref l) i = Some b
}.

Lemma lru_clear_first_spec k n :
  k <= n ->
  exists m, lru_clear_first k (mem_new bool n) = Ok m /\ m_len m = n /\
    forall i, m_at m i = if i <? k then Some false else None.
Proof.
  induction k as [|k IH]; intros H.
  - exists (mem_new bool n). auto.
  - destruct (IH ltac:(lia)) as (m & E & Hl & Hm). cbn. rewrite E. cbn [obind].
    rewrite mem_wr_ok by lia. eexists. split; [reflexivity|]. split; auto. cbn. intros i.
    unfold upd. rewrite Hm. destruct (Nat.eqb_spec i k), (Nat.ltb_spec i k), (Nat.ltb_spec i (S k)); auto; lia.
Qed.

Lemma lru_init_spec n hd :
  0 < n -> eff_spread n hd < n ->
  exists l, lru_init n hd = Ok l /\ lru_inv n (eff_spread n hd) 0 l /\
    forall i, m_at (l_ref l) i <> Some true.
Proof.
  intros Hn Hh. unfold lru_init. fold (eff_spread n hd).
  destruct (lru_clear_first_spec (eff_spread n hd) n ltac:(lia)) as (m & E & Hl & Hm).
  rewrite E. cbn. eexists. split; [reflexivity|]. split.
  - constructor; cbn; auto.
    + rewrite Nat.add_0_r, Nat.mod_small; lia.
    + rewrite Nat.add_0_r, Nat.mod_small; lia.
    + intros i Hi Hi'. exists false. rewrite Hm. destruct (Nat.ltb_spec i (eff_spread n hd)); auto; lia.
  - cbn. intros i. rewrite Hm. destruct (i <? _); discriminate.
Qed.

(** With a spread of at least the cache size the very first initialisation or
    eviction leaves the flag array. *)
Lemma lru_clear_first_ub k n : n < k -> lru_clear_first k (mem_new bool n) = Ub.
Proof.
  intros H. replace k with (n + S (k - n - 1)) by lia. generalize (k - n - 1) as j. clear.
  intros j. induction j as [|j IH].
  - replace (n + 1) with (S n) by lia. cbn.
    destruct (lru_clear_first_spec n n ltac:(lia)) as (m & E & Hl & _). rewrite E. cbn.
    unfold mem_wr. destruct (Nat.ltb_spec n (m_len m)); auto; lia.
  - replace (n + S (S j)) with (S (n + S j)) by lia. cbn. rewrite IH. auto.
Qed.

Lemma mod_succ_add a n : 0 < n -> (a mod n + 1) mod n = (a + 1) mod n.
Proof. intros. rewrite Nat.add_mod_idemp_l; auto. lia. Qed.

Lemma lru_iter_spec n h t l :
  lru_inv n h t l ->
  exists l' b, lru_iter l = Ok (l', b) /\ lru_inv n h (t + 1) l' /\
    m_at (l_ref l') (l_page l') = Some b /\
    (forall i, m_at (l_ref l') i = if i =? l_clear l then Some false else m_at (l_ref l) i).
Proof.
  intros [Hn Hh Hs Hp Hc Hl Hi]. unfold lru_iter.
  assert (l_clear l < n) as Hcl by (rewrite Hc; apply Nat.mod_upper_bound; lia).
  rewrite mem_wr_ok by lia. cbn [obind]. rewrite Hs.
  destruct (Nat.eqb_spec n 0); [lia|].
  assert ((l_page l + 1) mod n = t mod n) as Ep.
  { rewrite Hp, mod_succ_add by lia. replace (n - 1 + t + 1) with (t + 1 * n) by lia.
    apply Nat.mod_add. lia. }
  rewrite Ep. assert (t mod n < n) by (apply Nat.mod_upper_bound; lia).
  rewrite mem_rd_ok by (cbn; lia). cbn [obind m_at].
  assert (forall i, i < n -> i < h + (t + 1) ->
            exists b, upd (m_at (l_ref l)) (l_clear l) (Some false) i = Some b) as Hi'.
  { intros i Hin Hit. unfold upd. destruct (Nat.eqb_spec i (l_clear l)) as [E|E]; [eauto|].
    apply Hi; auto. destruct (Nat.eq_dec i (h + t)); [|lia]. exfalso. apply E.
    rewrite Hc, Nat.mod_small; lia. }
  assert (t mod n <= t) by (apply Nat.mod_le; lia).
  destruct (Hi' (t mod n)) as [b Eb]; [lia|lia|]. rewrite Eb.
  eexists _, b. split; [reflexivity|]. split; [|split; [cbn; auto|cbn; reflexivity]].
  constructor; cbn; auto.
  - replace (n - 1 + (t + 1)) with (t + 1 * n) by lia. symmetry. apply Nat.mod_add. lia.
  - rewrite Hc, mod_succ_add by lia. f_equal. lia.
Qed.

Lemma lru_loop_spec n h t l :
  lru_inv n h t l ->
  exists l' j, lru_loop n l = Some (Ok l') /\ 1 <= j <= h + 1 /\ lru_inv n h (t + j) l' /\
    m_at (l_ref l') (l_page l') = Some false /\
    (forall i, m_at (l_ref l') i = m_at (l_ref l) i \/ m_at (l_ref l') i = Some false).
Proof.
  intros H0. pose proof (li_n _ _ _ _ H0) as Hn. pose proof (li_h _ _ _ _ H0) as Hh.
  assert (G : forall r j l1 fuel, r = h + 1 - j -> j <= h -> r <= fuel ->
    lru_inv n h (t + j) l1 ->
    (1 <= j -> m_at (l_ref l1) ((h + t) mod n) = Some false) ->
    exists l' j', lru_loop fuel l1 = Some (Ok l') /\ j < j' <= h + 1 /\ lru_inv n h (t + j') l' /\
      m_at (l_ref l') (l_page l') = Some false /\
      (forall i, m_at (l_ref l') i = m_at (l_ref l1) i \/ m_at (l_ref l') i = Some false)).
  { induction r as [|r IH]; intros j l1 fuel Er Hj Hf Hinv Hc; [lia|].
    destruct fuel as [|fuel]; [lia|]. cbn [lru_loop].
    destruct (lru_iter_spec n h (t + j) l1 Hinv) as (l2 & b & E & Hinv2 & Hb & Hm).
    rewrite E. replace (t + j + 1) with (t + (j + 1)) in Hinv2 by lia.
    assert (Hfalse : m_at (l_ref l2) ((h + t) mod n) = Some false).
    { rewrite Hm. destruct (Nat.eqb_spec ((h + t) mod n) (l_clear l1)) as [E1|E1]; auto.
      apply Hc. destruct j; [|lia]. exfalso. apply E1.
      rewrite (li_clear _ _ _ _ Hinv). f_equal. lia. }
    destruct b.
    - assert (j <> h) as Hjh.
      { intros ->. rewrite (li_page _ _ _ _ Hinv2) in Hb.
        replace (n - 1 + (t + (h + 1))) with (h + t + 1 * n) in Hb by lia.
        rewrite Nat.mod_add in Hb by lia. congruence. }
      destruct (IH (j + 1) l2 fuel) as (l' & j' & E' & Hj' & Hinv' & Hf' & Hm'); try lia; auto.
      exists l', j'. split; auto. split; [lia|]. split; auto. split; auto.
      intros i. destruct (Hm' i) as [Ei|Ei]; auto. rewrite Ei, Hm.
      destruct (i =? l_clear l1); auto.
    - exists l2, (j + 1). split; auto. split; [lia|]. split; auto. split; auto.
      intros i. rewrite Hm. destruct (i =? l_clear l1); auto. }
  destruct (G (h + 1) 0 l n) as (l' & j & E & Hj & Hinv & Hf & Hm); try lia.
  - now rewrite Nat.add_0_r.
  - exists l', j. split; [auto|]. split; [lia|]. auto.
Qed.

Lemma lru_access_spec n h t l i :
  lru_inv n h t l -> i < n ->
  exists l', lru_access l i = Ok l' /\ lru_inv n h t l' /\
    l' = Lru (l_size l) (l_page l) (l_clear l) (Mem n (upd (m_at (l_ref l)) i (Some true))).
Proof.
  intros H Hi. pose proof (li_len _ _ _ _ H) as Hl. unfold lru_access.
  rewrite mem_wr_ok by lia. cbn. rewrite Hl. eexists. split; [reflexivity|]. split; [|reflexivity].
  destruct H. constructor; cbn; auto.
  intros k Hk Hk'. unfold upd. destruct (k =? i); eauto.
Qed.


Lemma lru_get_free_spec n h t l :
  lru_inv n h t l ->
  exists l' i t', lru_get_free l = Ok (l', i) /\ i < n /\ t < t' /\ lru_inv n h t' l'.
Proof.
  intros H. unfold lru_get_free. rewrite (li_size _ _ _ _ H).
  destruct (lru_loop_spec n h t l H) as (l1 & j & E & Hj & H1 & Hf & Hm). rewrite E. cbn [obind].
  pose proof (li_n _ _ _ _ H) as Hn.
  assert (l_page l1 < n) as Hp by (rewrite (li_page _ _ _ _ H1); apply Nat.mod_upper_bound; lia).
  destruct (lru_access_spec n h (t + j) l1 (l_page l1) H1 Hp) as (l2 & E2 & H2 & _).
  rewrite E2. cbn [obind]. exists l2, (l_page l1), (t + j). split; [auto|]. split; [auto|]. split; [lia|auto].
Qed.

(** First lap: as long as [t < n] iterations were executed and no slot [>= t]
    was ever used, the next slot is [t] and one iteration is enough. *)
Lemma lru_get_free_first n h t l :
  lru_inv n h t l -> t < n ->
  (forall i, t <= i -> m_at (l_ref l) i <> Some true) ->
  exists l', lru_get_free l = Ok (l', t) /\ lru_inv n h (t + 1) l' /\
    (forall i, t + 1 <= i -> m_at (l_ref l') i <> Some true).
Proof.
  intros H Ht Hfresh. unfold lru_get_free. rewrite (li_size _ _ _ _ H).
  destruct (lru_iter_spec n h t l H) as (l1 & b & E & H1 & Hb & Hm).
  assert (l_page l1 = t) as Ep.
  { rewrite (li_page _ _ _ _ H1). replace (n - 1 + (t + 1)) with (t + 1 * n) by lia.
    rewrite Nat.mod_add by lia. apply Nat.mod_small; auto. }
  assert (b = false) as ->.
  { destruct b; auto. rewrite Ep, Hm in Hb. destruct (t =? l_clear l); [discriminate|].
    exfalso. apply (Hfresh t); auto. }
  assert (lru_loop n l = Some (Ok l1)) as El.
  { destruct n as [|n']; [lia|]. cbn [lru_loop]. now rewrite E. }
  rewrite El. cbn [obind].
  destruct (lru_access_spec n h (t + 1) l1 (l_page l1) H1 ltac:(lia)) as (l2 & E2 & H2 & Ed).
  rewrite E2. cbn [obind]. exists l2. rewrite Ep in *. split; auto. split; auto.
  intros i Hi. subst l2. cbn. rewrite upd_other by lia. rewrite Hm.
  destruct (i =? l_clear l); [discriminate|]. apply Hfresh. lia.
Qed.

(** ** CacheList *)
Record clist_inv (n h t : nat) (c : clist) : Prop := {
  ci_lru : lru_inv n h t (c_lru c);
  ci_len : m_len (c_i2b c) = n;
  ci_init : forall i, i < n -> exists o, m_at (c_i2b c) i = Some o;
  ci_inv : forall b i, c_b2i c b = Some i <-> i < n /\ m_at (c_i2b c) i = Some (Some b)
}.

Lemma clist_init_spec n hd :
  0 < n -> eff_spread n hd < n ->
  exists c, clist_init n hd = Ok c /\ clist_inv n (eff_spread n hd) 0 c /\
    (forall b, c_b2i c b = None) /\ (forall i, i < n -> m_at (c_i2b c) i = Some None) /\
    forall i, m_at (l_ref (c_lru c)) i <> Some true.
Proof.
  intros Hn Hh. unfold clist_init.
  destruct (lru_init_spec n hd Hn Hh) as (l & E & Hl & Hf). rewrite E. cbn [obind].
  eexists. split; [reflexivity|]. cbn. split; [|auto].
  constructor; cbn; eauto.
  intros b i. split; [discriminate|]. intros [_ ?]. discriminate.
Qed.

(** Effect of a request. *)
Definition request_effect (n : nat) (c c' : clist) (b i : nat) (old : option nat) : Prop :=
  i < n /\ m_at (c_i2b c') i = Some (Some b) /\ c_b2i c' b = Some i /\
  ((old = Some b /\ c_b2i c b = Some i /\ c_i2b c' = c_i2b c /\ c_b2i c' = c_b2i c) \/
   (c_b2i c b = None /\ m_at (c_i2b c) i = Some old /\ old <> Some b /\
    (forall k, k <> i -> m_at (c_i2b c') k = m_at (c_i2b c) k) /\
    (forall b', b' <> b -> c_b2i c' b' = match old with
       | Some ob => if b' =? ob then None else c_b2i c b' | None => c_b2i c b' end))).

Lemma clist_request_spec n h t c b :
  clist_inv n h t c ->
  exists c' i old t', clist_request c b = Ok (c', i, old) /\ t <= t' /\ clist_inv n h t' c' /\
    request_effect n c c' b i old.
Proof.
  intros [Hlru Hlen Hinit Hinv]. unfold clist_request, clist_get_index, request_effect.
  destruct (c_b2i c b) as [i|] eqn:Eb.
  - apply Hinv in Eb as Hx. destruct Hx as [Hi Hx].
    destruct (lru_access_spec n h t (c_lru c) i Hlru Hi) as (l' & E & Hl' & _).
    rewrite E. cbn [obind].
    exists (CList l' (c_i2b c) (c_b2i c)), i, (Some b), t. split; [reflexivity|].
    split; [lia|]. split; [constructor; cbn; auto|]. cbn. repeat split; auto.
  - cbn [obind]. unfold clist_get_free.
    destruct (lru_get_free_spec n h t (c_lru c) Hlru) as (l' & i & t' & E & Hi & Ht & Hl').
    rewrite E. cbn [obind]. rewrite mem_rd_ok by lia. cbn [obind].
    destruct (Hinit i Hi) as [old Eo]. rewrite Eo.
    rewrite mem_wr_ok by lia. cbn [obind].
    assert (old <> Some b) as Hob.
    { intros ->. assert (c_b2i c b = Some i) by (apply Hinv; auto). congruence. }
    eexists _, i, old, t'. split; [reflexivity|]. split; [lia|]. split.
    + constructor; cbn; auto.
      * intros k Hk. unfold upd. destruct (k =? i); eauto.
      * intros b' k. unfold upd.
        destruct (Nat.eqb_spec b' b) as [->|Hb'], (Nat.eqb_spec k i) as [->|Hk].
        -- split; auto.
        -- split; [congruence|]. intros [Hkn Hkb]. exfalso.
           assert (c_b2i c b = Some k) by (apply Hinv; auto). congruence.
        -- split.
           ++ intros Hx. exfalso. destruct old as [ob|].
              ** destruct (Nat.eqb_spec b' ob); [discriminate|]. apply Hinv in Hx as [_ Hx]. congruence.
              ** apply Hinv in Hx as [_ Hx]. congruence.
           ++ intros [_ Hx]. congruence.
        -- destruct old as [ob|]; [|apply Hinv].
           destruct (Nat.eqb_spec b' ob) as [->|Hbo]; [|apply Hinv].
           split; [discriminate|]. intros [Hkn Hkb].
           assert (c_b2i c ob = Some k) by (apply Hinv; auto).
           assert (c_b2i c ob = Some i) by (apply Hinv; auto). congruence.
    + cbn. rewrite upd_same, Nat.eqb_refl. repeat split; auto. right. repeat split; auto.
      * intros k Hk. apply upd_other; auto.
      * intros b' Hb'. destruct (Nat.eqb_spec b' b); [congruence|]. destruct old; auto.
Qed.

Lemma clist_trace_inv n h t c bs :
  clist_inv n h t c ->
  exists c' outs t', clist_trace c bs = Ok (c', outs) /\ length outs = length bs /\ clist_inv n h t' c'.
Proof.
  revert c t; induction bs as [|b bs IH]; intros c t H; cbn.
  - exists c, [], t. auto.
  - destruct (clist_request_spec n h t c b H) as (c1 & i & old & t1 & E & _ & H1 & _).
    rewrite E. cbn [obind]. destruct (IH c1 t1 H1) as (c2 & outs & t2 & E2 & Hl & H2).
    rewrite E2. cbn [obind]. exists c2, ((i, old) :: outs), t2. cbn; auto.
Qed.

(** The blocks which are in the cache. *)
Definition cached (c : clist) : list nat :=
  flat_map (fun i => match m_at (c_i2b c) i with Some (Some b) => [b] | _ => [] end)
           (seq 0 (m_len (c_i2b c))).

Lemma cached_In n h t c b : clist_inv n h t c -> In b (cached c) <-> c_b2i c b <> None.
Proof.
  intros [Hlru Hlen Hinit Hinv]. unfold cached. rewrite in_flat_map. split.
  - intros (i & Hi & Hb). apply in_seq in Hi.
    destruct (m_at (c_i2b c) i) as [[b'|]|] eqn:E; cbn in Hb; try tauto.
    destruct Hb as [->|[]]. assert (c_b2i c b = Some i) by (apply Hinv; split; auto; lia). congruence.
  - intros Hb. destruct (c_b2i c b) as [i|] eqn:E; [|congruence]. apply Hinv in E as [Hi E].
    exists i. rewrite E. split; [apply in_seq; lia|now left].
Qed.

Lemma cached_NoDup n h t c : clist_inv n h t c -> NoDup (cached c).
Proof.
  intros [Hlru Hlen Hinit Hinv]. unfold cached. rewrite Hlen.
  assert (G : forall k, k <= n -> forall s, s + k <= n ->
    NoDup (flat_map (fun i => match m_at (c_i2b c) i with Some (Some b) => [b] | _ => [] end) (seq s k))).
  { induction k as [|k IH]; intros Hk s Hs; cbn; [constructor|].
    specialize (IH ltac:(lia) (S s) ltac:(lia)).
    destruct (m_at (c_i2b c) s) as [[b|]|] eqn:E; cbn; auto. constructor; auto.
    intros Hin. apply in_flat_map in Hin as (i & Hi & Hb). apply in_seq in Hi.
    destruct (m_at (c_i2b c) i) as [[b'|]|] eqn:E'; cbn in Hb; try tauto.
    destruct Hb as [->|[]].
    assert (c_b2i c b = Some s) by (apply Hinv; split; auto; lia).
    assert (c_b2i c b = Some i) by (apply Hinv; split; auto; lia). assert (s = i) by congruence. lia. }
  apply G; lia.
Qed.

Lemma cached_length n h t c : clist_inv n h t c -> length (cached c) <= n.
Proof.
  intros [_ Hlen _ _]. unfold cached. rewrite Hlen. clear.
  assert (G : forall k s, length (flat_map (fun i => match m_at (c_i2b c) i with
     Some (Some b) => [b] | _ => [] end) (seq s k)) <= k).
  { induction k as [|k IH]; intros s; cbn; auto. rewrite app_length. specialize (IH (S s)).
    destruct (m_at (c_i2b c) s) as [[b|]|]; cbn; lia. }
  apply G.
Qed.

(** ** First lap: no eviction while the working set fits *)
Definition seen_before (bs : list nat) (k : nat) (b : nat) : bool :=
  existsb (Nat.eqb b) (firstn k bs).

Record first_lap (n h : nat) (seen : list nat) (c : clist) : Prop := {
  fl_inv : clist_inv n h (length seen) c;
  fl_nodup : NoDup seen;
  fl_fresh : forall i, length seen <= i -> m_at (l_ref (c_lru c)) i <> Some true;
  fl_empty : forall i, length seen <= i < n -> m_at (c_i2b c) i = Some None;
  fl_seen : forall b, In b seen <-> c_b2i c b <> None
}.

Lemma first_lap_request n h seen c b :
  first_lap n h seen c ->
  (In b seen \/ length seen < n) ->
  exists c' i old, clist_request c b = Ok (c', i, old) /\
    (In b seen -> old = Some b /\ first_lap n h seen c') /\
    (~ In b seen -> old = None /\ first_lap n h (b :: seen) c').
Proof.
  intros [Hinv Hnd Hfr He Hs] Hfit.
  destruct (in_dec Nat.eq_dec b seen) as [Hin|Hin].
  - destruct (clist_request_spec n h _ c b Hinv) as (c' & i & old & t' & E & _ & H' & Heff).
    exists c', i, old. split; auto. split; [intros _|tauto].
    destruct Heff as (Hi & _ & _ & [(Ho & Hb & Hi2b & Hb2i)|(Hb & _)]).
    + split; auto. revert E. unfold clist_request, clist_get_index. rewrite Hb.
      destruct Hinv as [Hl Hlen Hini Hmap].
      destruct (lru_access_spec n h _ (c_lru c) i Hl Hi) as (l' & E' & Hl' & Ed).
      rewrite E'. cbn [obind]. intros [= <- <-]. constructor; cbn; auto.
      * constructor; auto.
      * intros k Hk. subst l'. cbn. rewrite upd_other; auto.
        apply Hmap in Hb as [_ Hb]. intros ->. rewrite He in Hb by lia. discriminate.
    + exfalso. apply Hs in Hin. congruence.
  - destruct Hfit as [?|Hfit]; [tauto|].
    assert (c_b2i c b = None) as Hb.
    { destruct (c_b2i c b) eqn:E; auto. exfalso. apply Hin, Hs. congruence. }
    destruct Hinv as [Hl Hlen Hini Hmap].
    destruct (lru_get_free_first n h (length seen) (c_lru c) Hl Hfit Hfr) as (l' & E & Hl' & Hfr').
    assert (clist_inv n h (length seen) c) as Hinv by (constructor; auto).
    destruct (clist_request_spec n h _ c b Hinv) as (c' & i & old & t' & E' & _ & H' & Heff).
    exists c', i, old. split; auto. split; [tauto|intros _].
    assert (Hc : c' = CList l' (Mem n (upd (m_at (c_i2b c)) (length seen) (Some (Some b))))
                   (fun b' => if b' =? b then Some (length seen) else c_b2i c b')
                 /\ i = length seen /\ old = None).
    { revert E'. unfold clist_request, clist_get_index. rewrite Hb. cbn [obind].
      unfold clist_get_free. rewrite E. cbn [obind]. rewrite mem_rd_ok by lia. cbn [obind].
      rewrite He by lia. rewrite mem_wr_ok by lia. cbn [obind]. intros [= <- <- <-].
      rewrite Hlen. auto. }
    destruct Hc as (-> & -> & ->). split; auto. constructor; cbn; auto.
    + destruct H' as [_ A B C]. replace (S (length seen)) with (length seen + 1) by lia.
      constructor; auto.
    + constructor; auto.
    + intros k Hk. apply Hfr'. lia.
    + intros k Hk. rewrite upd_other by lia. apply He. lia.
    + intros b'. destruct (Nat.eqb_spec b' b) as [->|Hne].
      * split; [congruence|auto].
      * rewrite <- Hs. split; [intros [?|?]; auto; congruence|auto].
Qed.

Lemma first_lap_trace n h seen c bs :
  first_lap n h seen c ->
  length (nodup Nat.eq_dec (bs ++ seen)) <= n ->
  exists c' outs, clist_trace c bs = Ok (c', outs) /\
    forall k b, nth_error bs k = Some b ->
      exists i, nth_error outs k =
        Some (i, if in_dec Nat.eq_dec b (firstn k bs ++ seen) then Some b else None).
Proof.
  revert seen c; induction bs as [|b bs IH]; intros seen c Hfl Hn; cbn [clist_trace].
  - exists c, []. split; auto. intros [|k] b0; discriminate.
  - assert (Hsub : forall l l' : list nat, incl l l' ->
              length (nodup Nat.eq_dec l) <= length (nodup Nat.eq_dec l')).
    { intros l l' Hi. apply NoDup_incl_length; [apply NoDup_nodup|].
      intros x Hx. apply nodup_In in Hx. apply nodup_In. auto. }
    assert (Hfit : In b seen \/ length seen < n).
    { destruct (in_dec Nat.eq_dec b seen); auto. right.
      pose proof (fl_nodup _ _ _ _ Hfl) as Hnd.
      assert (length (b :: seen) <= length (nodup Nat.eq_dec ((b :: bs) ++ seen))) as Hx.
      { apply NoDup_incl_length; [constructor; auto|]. intros x Hx. apply nodup_In.
        cbn. rewrite in_app_iff. destruct Hx; auto. }
      cbn [length] in Hx. lia. }
    destruct (first_lap_request n h seen c b Hfl Hfit) as (c1 & i & old & E & Hhit & Hmiss).
    rewrite E. cbn [obind].
    destruct (in_dec Nat.eq_dec b seen) as [Hin|Hin].
    + destruct (Hhit Hin) as [-> Hfl1].
      destruct (IH seen c1 Hfl1) as (c2 & outs & E2 & Hk).
      { eapply Nat.le_trans; [|exact Hn]. apply Hsub. intros x Hx. now right. }
      rewrite E2. cbn [obind]. exists c2, ((i, Some b) :: outs). split; auto.
      intros [|k] b0; cbn [nth_error firstn app].
      * intros [= <-]. exists i. destruct (in_dec Nat.eq_dec b seen); reflexivity || tauto.
      * intros Hb0. destruct (Hk k b0 Hb0) as [j Ej]. exists j. rewrite Ej. do 2 f_equal.
        destruct (in_dec Nat.eq_dec b0 (firstn k bs ++ seen)) as [Hx|Hx],
          (in_dec Nat.eq_dec b0 (b :: firstn k bs ++ seen)) as [Hy|Hy]; auto.
        -- exfalso. apply Hy. now right.
        -- exfalso. destruct Hy as [<-|Hy]; auto. apply Hx, in_app_iff; auto.
    + destruct (Hmiss Hin) as [-> Hfl1].
      destruct (IH (b :: seen) c1 Hfl1) as (c2 & outs & E2 & Hk).
      { eapply Nat.le_trans; [|exact Hn]. apply Hsub. intros x Hx.
        cbn. rewrite !in_app_iff in *. cbn in Hx. tauto. }
      rewrite E2. cbn [obind]. exists c2, ((i, None) :: outs). split; auto.
      intros [|k] b0; cbn [nth_error firstn app].
      * intros [= <-]. exists i. destruct (in_dec Nat.eq_dec b seen); reflexivity || tauto.
      * intros Hb0. destruct (Hk k b0 Hb0) as [j Ej]. exists j. rewrite Ej. do 2 f_equal.
        destruct (in_dec Nat.eq_dec b0 (firstn k bs ++ b :: seen)) as [Hx|Hx],
          (in_dec Nat.eq_dec b0 (b :: firstn k bs ++ seen)) as [Hy|Hy]; auto.
        -- exfalso. apply Hy. cbn. rewrite in_app_iff in *. cbn in Hx. tauto.
        -- exfalso. apply Hx. cbn in Hy. rewrite in_app_iff in *. cbn. tauto.
Qed.

Lemma first_lap_init n hd :
  0 < n -> eff_spread n hd < n ->
  exists c, clist_init n hd = Ok c /\ first_lap n (eff_spread n hd) [] c.
Proof.
  intros Hn Hh. destruct (clist_init_spec n hd Hn Hh) as (c & E & Hinv & Hb & Hi & Hf).
  exists c. split; auto. constructor; cbn; auto.
  - constructor.
  - intros i [_ H]. auto.
  - intros b. rewrite Hb. tauto.
Qed.
