(** * Proofs about the hand spread *)
From Verif Require Export SpreadSpec CacheFacts.

Lemma spread_lt n spread : 0 < n -> (spread < Z.of_nat n)%Z -> spread_of n spread < n.
Proof. exact (spread_ok n spread). Qed.

(** ** When things happen *)

(** [t] hand moves were made before the events [es]. *)
Fixpoint timed (n h t : nat) (es : list lru_event) : Prop :=
  match es with
  | [] => True
  | EUse _ :: es' => timed n h t es'
  | EClear i :: es' => i = (h + t) mod n /\ timed n h (t + 1) es'
  | EPick i :: es' => i = (n - 1 + t) mod n /\ timed n h t es'
  end.

Lemma moves_app a b : moves (a ++ b) = moves a + moves b.
Proof. unfold moves. now rewrite filter_app, app_length. Qed.
Lemma moves_cons e a : moves (e :: a) = moves [e] + moves a.
Proof. exact (moves_app [e] a). Qed.

Lemma timed_app n h a : forall t b, timed n h t (a ++ b) <-> timed n h t a /\ timed n h (t + moves a) b.
Proof.
  induction a as [|e a IH]; intros t b; cbn [app timed].
  - change (moves []) with 0. rewrite Nat.add_0_r. tauto.
  - rewrite (moves_cons e a). destruct e as [i|i|i].
    + change (moves [EUse i]) with 0. apply IH.
    + change (moves [EClear i]) with 1. rewrite IH. rewrite Nat.add_assoc. tauto.
    + change (moves [EPick i]) with 0. rewrite IH. rewrite Nat.add_0_l. tauto.
Qed.

Lemma loop_timed n h fuel : forall t l l' es, lru_inv n h t l -> lru_loop_ev fuel l = Some (Ok (l', es)) ->
  timed n h t es /\ lru_inv n h (t + moves es) l' /\ moves es = length es.
Proof.
  induction fuel as [|fuel IH]; intros t l l' es Hi; cbn [lru_loop_ev]; [discriminate|].
  destruct (lru_iter_spec n h t l Hi) as (l1 & b & E & Hi1 & _ & _). rewrite E.
  pose proof (li_clear _ _ _ _ Hi) as Hc. destruct b.
  - destruct (lru_loop_ev fuel l1) as [[[l2 es2]|]|] eqn:E2; try discriminate. cbn [obind]. intros [= <- <-].
    destruct (IH _ _ _ _ Hi1 E2) as (A & B & C). cbn [timed]. rewrite (moves_cons _ es2). change (moves [EClear (l_clear l)]) with 1.
    rewrite Nat.add_assoc. cbn [length]. rewrite C. rewrite C in B. auto.
  - intros [= <- <-]. cbn. auto.
Qed.

Lemma step_timed n h t l o : lru_inv n h t l -> op_ok n o ->
  exists l' es, lru_step_ev l o = Ok (l', es) /\ timed n h t es /\ lru_inv n h (t + moves es) l' /\ moves es <= h + 1.
Proof.
  intros Hi Ho. destruct o as [i|]; cbn [op_ok lru_step_ev] in *.
  - destruct (lru_access_spec n h t l i Hi Ho) as (l' & E & Hi' & _). rewrite E. cbn [obind].
    exists l', [EUse i]. split; [reflexivity|]. split; [exact Logic.I|]. change (moves [EUse i]) with 0. rewrite Nat.add_0_r.
    split; [exact Hi'|lia].
  - destruct (lru_loop_spec n h t l Hi) as (l1 & j & E & Hj & Hi1 & Hf & Hm).
    rewrite (li_size _ _ _ _ Hi). rewrite lru_loop_ev_erase in E.
    destruct (lru_loop_ev n l) as [[[l1' es]|]|] eqn:Ee; cbn in E; try discriminate. injection E as ->. cbn [obind].
    destruct (loop_timed n h n t l l1 es Hi Ee) as (A & B & C).
    assert (Hp : l_page l1 < n).
    { rewrite (li_page _ _ _ _ B). apply Nat.mod_upper_bound. pose proof (li_n _ _ _ _ Hi). lia. }
    destruct (lru_access_spec n h (t + moves es) l1 (l_page l1) B Hp) as (l2 & E2 & Hi2 & _).
    rewrite E2. cbn [obind]. exists l2, (es ++ [EPick (l_page l1); EUse (l_page l1)]). split; [reflexivity|].
    rewrite moves_app. change (moves [EPick _; EUse _]) with 0. rewrite Nat.add_0_r.
    split; [|split; [exact Hi2|]].
    + apply timed_app. split; [exact A|]. cbn [timed]. split; [exact (li_page _ _ _ _ B)|exact Logic.I].
    + (* the slot cleared first is found after [h] more moves *)
      assert (G : forall fuel t1 l0 l0' es0, lru_inv n h t1 l0 -> lru_loop_ev fuel l0 = Some (Ok (l0', es0)) ->
        forall k, m_at (l_ref l0) ((t1 + k) mod n) = Some false -> moves es0 <= k + 1).
      { clear - n. induction fuel as [|fuel IH]; intros t1 l0 l0' es0 H0; cbn [lru_loop_ev]; [discriminate|].
        destruct (lru_iter_spec n h t1 l0 H0) as (l3 & b & E & H3 & Hb & Hm). rewrite E. intros Er k Hfl.
        destruct b; [|injection Er as <- <-; cbn; lia].
        destruct (lru_loop_ev fuel l3) as [[[l4 es4]|]|] eqn:E4; try discriminate. cbn [obind] in Er. injection Er as <- <-.
        destruct k as [|k].
        - exfalso. rewrite (li_page _ _ _ _ H3) in Hb. replace (n - 1 + (t1 + 1)) with (t1 + 1 * n) in Hb by (pose proof (li_n _ _ _ _ H0); lia).
          rewrite Nat.mod_add in Hb by (pose proof (li_n _ _ _ _ H0); lia). rewrite Hm in Hb.
          destruct (_ =? _); [discriminate|]. rewrite Nat.add_0_r in Hfl. rewrite Hfl in Hb. discriminate.
        - rewrite moves_cons. change (moves [EClear _]) with 1.
          assert (moves es4 <= k + 1); [|lia].
          eapply (IH (t1 + 1) l3 l4 es4 H3 E4 k).
          replace (t1 + 1 + k) with (t1 + S k) by lia. rewrite Hm. destruct (_ =? _); auto. }
      destruct (Nat.eq_dec (moves es) 0) as [->|Hne]; [lia|].
      pose proof (li_n _ _ _ _ Hi) as Hn. destruct n as [|n']; [lia|].
      cbn [lru_loop_ev] in Ee. destruct (lru_iter_spec _ h t l Hi) as (l3 & b & E3 & H3 & Hb3 & Hm3). rewrite E3 in Ee.
      destruct b; [|injection Ee as <- <-; cbn; lia].
      destruct (lru_loop_ev n' l3) as [[[l4 es4]|]|] eqn:E4; try discriminate. cbn [obind] in Ee. injection Ee as <- <-.
      rewrite moves_cons. change (moves [EClear _]) with 1.
      destruct h as [|h'].
      * exfalso. rewrite (li_page _ _ _ _ H3) in Hb3. replace (S n' - 1 + (t + 1)) with (t + 1 * S n') in Hb3 by lia.
        rewrite Nat.mod_add in Hb3 by lia. rewrite Hm3, (li_clear _ _ _ _ Hi) in Hb3. cbn [Nat.add] in Hb3.
        rewrite Nat.eqb_refl in Hb3. discriminate.
      * assert (moves es4 <= h' + 1); [|lia].
        eapply (G n' (t + 1) l3 l4 es4 H3 E4 h').
        rewrite Hm3, (li_clear _ _ _ _ Hi). replace (t + 1 + h') with (S h' + t) by lia. now rewrite Nat.eqb_refl.
Qed.

Lemma run_timed n h ops : Forall (op_ok n) ops -> forall t l, lru_inv n h t l ->
  exists l' ess, lru_run_ev l ops = Ok (l', ess) /\ timed n h t (concat ess) /\
    lru_inv n h (t + moves (concat ess)) l' /\ Forall (fun es => moves es <= h + 1) ess.
Proof.
  intros H. induction H as [|o ops Ho H IH]; intros t l Hi; cbn [lru_run_ev].
  - exists l, []. cbn. rewrite Nat.add_0_r. auto.
  - destruct (step_timed n h t l o Hi Ho) as (l1 & es & E & A & B & C). rewrite E. cbn [obind].
    destruct (IH _ _ B) as (l2 & ess & E2 & A2 & B2 & C2). rewrite E2. cbn [obind].
    exists l2, (es :: ess). split; [reflexivity|]. cbn [concat]. rewrite moves_app, Nat.add_assoc. split; [|auto].
    apply timed_app. auto.
Qed.

(** The [k]-th clearing of a trace. *)
Lemma kth_clear es : forall k, k < moves es -> exists a i b, es = a ++ EClear i :: b /\ moves a = k.
Proof.
  induction es as [|e es IH]; intros k Hk; [cbn in Hk; lia|]. rewrite moves_cons in Hk.
  destruct e as [i|i|i].
  - destruct (IH k Hk) as (a & j & b & -> & Ha). exists (EUse i :: a), j, b. now rewrite moves_cons.
  - destruct k as [|k]; [now exists [], i, es|]. change (moves [EClear i]) with 1 in Hk.
    destruct (IH k ltac:(lia)) as (a & j & b & -> & Ha). exists (EClear i :: a), j, b. split; [reflexivity|].
    rewrite moves_cons, Ha. reflexivity.
  - destruct (IH k Hk) as (a & j & b & -> & Ha). exists (EPick i :: a), j, b. now rewrite moves_cons.
Qed.

Lemma clear_time n h es i : In (EClear i) es -> forall t, timed n h t es -> exists k, k < moves es /\ i = (h + t + k) mod n.
Proof.
  induction es as [|e es IH]; intros Hin t Ht; [destruct Hin|]. rewrite moves_cons. destruct Hin as [->|Hin].
  - exists 0. change (moves [EClear i]) with 1. rewrite Nat.add_0_r. cbn [timed] in Ht. split; [lia|tauto].
  - destruct e as [j|j|j]; cbn [timed] in Ht.
    + destruct (IH Hin t Ht) as (k & Hk & E). exists k. cbn. auto.
    + destruct Ht as [_ Ht]. destruct (IH Hin _ Ht) as (k & Hk & E). exists (S k). change (moves [EClear j]) with 1.
      split; [lia|]. rewrite E. f_equal. lia.
    + destruct Ht as [_ Ht]. destruct (IH Hin t Ht) as (k & Hk & E). exists k. cbn. auto.
Qed.

Lemma recent_no_use es past i : recent (rev es ++ past) i = false -> ~ In (EClear i) es -> ~ In (EUse i) es.
Proof.
  intros Hr Hc Hu. rewrite in_rev in Hc, Hu. induction (rev es) as [|e m IH]; [destruct Hu|]. cbn in Hr.
  destruct e as [j|j|j].
  - destruct (Nat.eqb_spec j i) as [->|N]; [discriminate|]. apply IH; auto; [intros X; apply Hc; now right|].
    destruct Hu as [[= ->]|Hu]; [congruence|auto].
  - destruct (Nat.eqb_spec j i) as [->|N]; [apply Hc; now left|]. apply IH; auto; [intros X; apply Hc; now right|].
    destruct Hu as [?|Hu]; [discriminate|auto].
  - apply IH; auto; [intros X; apply Hc; now right|]. destruct Hu as [?|Hu]; [discriminate|auto].
Qed.

Lemma mod_far n a b : a < b -> b < a + n -> a mod n = b mod n -> False.
Proof.
  intros H1 H2 E. assert (n <> 0) by lia. pose proof (Nat.div_mod a n H). pose proof (Nat.div_mod b n H). rewrite E in *.
  assert (a / n < b / n) by nia. nia.
Qed.

Section Window.
Variables n : nat.
Variable spread : Z.
Hypothesis Hn : 0 < n.
Hypothesis Hs : (spread < Z.of_nat n)%Z.
Local Notation h := (spread_of n spread).

Lemma from_init ops : Forall (op_ok n) ops ->
  exists l l' ess, lru_init n spread = Ok l /\ lru_run_ev l ops = Ok (l', ess) /\ length ess = length ops /\
    timed n h 0 (concat ess) /\ lru_inv n h (moves (concat ess)) l' /\ Forall (fun es => moves es <= h + 1) ess /\
    second_chance (rev (concat ess)).
Proof.
  intros Ho. destruct (lru_init_spec n spread Hn (spread_lt n spread Hn Hs)) as (l & E & Hi & _).
  change (eff_spread n spread) with h in Hi. destruct (run_timed n h ops Ho 0 l Hi) as (l' & ess & Er & A & B & C).
  destruct (lru_run_ev_spec n _ 0 l [] ops Hi) as (l1 & ess1 & E1 & Hl & Hsc & _); auto.
  { intros k. discriminate. }
  { exact Logic.I. }
  rewrite E1 in Er. injection Er as -> ->. rewrite app_nil_r in Hsc. exists l, l', ess. auto 10.
Qed.

Lemma search_bound ops : Forall (op_ok n) ops ->
  exists l l' ess, lru_init n spread = Ok l /\ lru_run_ev l ops = Ok (l', ess) /\ length ess = length ops /\
    Forall (fun es => moves es <= h + 1) ess.
Proof. intros Ho. destruct (from_init ops Ho) as (l & l' & ess & A & B & C & _ & _ & D & _). exists l, l', ess. auto. Qed.

Lemma window es : timed n h 0 es -> second_chance (rev es) -> forall pre i post, es = pre ++ EPick i :: post ->
  (moves pre <= h /\ ~ In (EUse i) pre) \/
  (exists a b, pre = a ++ EClear i :: b /\ moves b = h /\ ~ In (EUse i) b).
Proof.
  intros Ht Hsc pre i post ->. pose proof (spread_lt n spread Hn Hs) as Hh. apply timed_app in Ht. destruct Ht as [Hp Ht].
  cbn [timed] in Ht. destruct Ht as [Ei _]. cbn [Nat.add] in Ei.
  rewrite rev_app_distr in Hsc. cbn [rev] in Hsc. rewrite <- app_assoc in Hsc. apply second_chance_app in Hsc.
  cbn in Hsc. destruct Hsc as [Hr _].
  destruct (Nat.le_gt_cases (moves pre) h) as [Hle|Hgt].
  - left. split; [exact Hle|]. rewrite <- (app_nil_r (rev pre)) in Hr. apply (recent_no_use _ _ _ Hr).
    intros Hc. destruct (clear_time n h pre i Hc 0 Hp) as (k & Hk & E). rewrite Nat.add_0_r in E.
    assert (Ep : i = (moves pre - 1) mod n).
    { rewrite Ei. replace (n - 1 + moves pre) with (moves pre - 1 + 1 * n) by lia. apply Nat.mod_add. lia. }
    apply (mod_far n (moves pre - 1) (h + k)); [lia|lia|]. congruence.
  - right. destruct (kth_clear pre (moves pre - 1 - h) ltac:(lia)) as (a & j & b & E & Ha).
    rewrite E in Hp, Hr, Ei, Hgt, Ha |- *. clear E pre. rewrite moves_app, moves_cons in Ei, Hgt, Ha.
    change (moves [EClear j]) with 1 in Ei, Hgt, Ha. apply timed_app in Hp. destruct Hp as [_ Hp]. cbn [timed Nat.add] in Hp.
    destruct Hp as [Ej Hb]. assert (Hmb : moves b = h) by lia.
    assert (i = j) as ->.
    { rewrite Ei, Ej, Hmb. replace (n - 1 + (moves a + (1 + h))) with (h + moves a + 1 * n) by lia. apply Nat.mod_add. lia. }
    exists a, b. split; [reflexivity|]. split; [exact Hmb|].
    rewrite rev_app_distr in Hr. cbn [rev] in Hr. rewrite <- !app_assoc in Hr. apply (recent_no_use _ _ _ Hr).
    intros Hc. destruct (clear_time n h b j Hc _ Hb) as (k & Hk & E).
    apply (mod_far n (h + moves a) (h + (moves a + 1) + k)); [lia|lia|]. congruence.
Qed.

Lemma window_facts ops : Forall (op_ok n) ops ->
  exists l l' ess, lru_init n spread = Ok l /\ lru_run_ev l ops = Ok (l', ess) /\ length ess = length ops /\
    forall pre i post, concat ess = pre ++ EPick i :: post ->
      (moves pre <= h /\ ~ In (EUse i) pre) \/
      (exists a b, pre = a ++ EClear i :: b /\ moves b = h /\ ~ In (EUse i) b).
Proof.
  intros Ho. destruct (from_init ops Ho) as (l & l' & ess & A & B & C & D & _ & _ & E). exists l, l', ess.
  split; [exact A|]. split; [exact B|]. split; [exact C|]. now apply window.
Qed.

Lemma kept_facts ops : Forall (op_ok n) ops ->
  exists l l' ess, lru_init n spread = Ok l /\ lru_run_ev l ops = Ok (l', ess) /\ length ess = length ops /\
    forall pre i mid post, concat ess = pre ++ EUse i :: mid ++ EPick i :: post -> h < moves mid.
Proof.
  intros Ho. destruct (from_init ops Ho) as (l & l' & ess & A & B & C & D & _ & _ & E). exists l, l', ess.
  split; [exact A|]. split; [exact B|]. split; [exact C|]. intros pre i mid post Ec.
  destruct (window _ D E (pre ++ EUse i :: mid) i post) as [[_ H]|(a & b & H1 & H2 & H3)].
  - rewrite Ec, <- app_assoc. reflexivity.
  - exfalso. apply H, in_app_iff. right. now left.
  - clear Ec. revert pre a H1 H3. clear - H2. intros pre. induction pre as [|e pre IH]; intros a H1 H3.
    + destruct a as [|e a]; [discriminate|]. cbn [app] in H1. injection H1 as <- H1. rewrite H1, moves_app, moves_cons.
      change (moves [EClear i]) with 1. lia.
    + destruct a as [|e' a]; cbn [app] in H1.
      * injection H1 as -> <-. exfalso. apply H3, in_app_iff. right. now left.
      * injection H1 as <- H1. now apply (IH a).
Qed.
End Window.

(** ** Blocks *)
Lemma get_free_time n h t l : lru_inv n h t l ->
  exists l' i t', lru_get_free l = Ok (l', i) /\ lru_inv n h t' l' /\ t < t' <= t + h + 1 /\ i = (n - 1 + t') mod n.
Proof.
  intros Hi. unfold lru_get_free. rewrite (li_size _ _ _ _ Hi).
  destruct (lru_loop_spec n h t l Hi) as (l1 & j & E & Hj & H1 & _ & _). rewrite E. cbn [obind].
  pose proof (li_n _ _ _ _ Hi) as Hn.
  assert (Hp : l_page l1 < n) by (rewrite (li_page _ _ _ _ H1); apply Nat.mod_upper_bound; lia).
  destruct (lru_access_spec n h (t + j) l1 (l_page l1) H1 Hp) as (l2 & E2 & H2 & _).
  rewrite E2. cbn [obind]. exists l2, (l_page l1), (t + j). split; [reflexivity|]. split; [exact H2|]. split; [lia|].
  exact (li_page _ _ _ _ H1).
Qed.

Lemma request_time n h t c b : clist_inv n h t c ->
  exists c' i old t', clist_request c b = Ok (c', i, old) /\ clist_inv n h t' c' /\ request_effect n c c' b i old /\
    ((old = Some b /\ t' = t) \/ (old <> Some b /\ t < t' <= t + h + 1 /\ i = (n - 1 + t') mod n)).
Proof.
  intros Hi. destruct (clist_request_spec n h t c b Hi) as (c' & i & old & t1 & E & _ & H1 & He).
  destruct Hi as [Hlru Hlen Hini Hinv]. pose proof E as E'. revert E'. unfold clist_request, clist_get_index.
  destruct (c_b2i c b) as [k|] eqn:Eb.
  - pose proof (proj1 (Hinv b k) Eb) as [Hk _].
    destruct (lru_access_spec n h t (c_lru c) k Hlru Hk) as (l' & El & Hl' & _). rewrite El. cbn [obind].
    intros [= <- <- <-]. exists (CList l' (c_i2b c) (c_b2i c)), k, (Some b), t. split; [reflexivity|]. split; [|auto].
    destruct H1. constructor; auto.
  - cbn [obind]. unfold clist_get_free. destruct (get_free_time n h t (c_lru c) Hlru) as (l' & k & t' & El & Hl' & Ht & Ek).
    rewrite El. cbn [obind]. destruct (mem_rd _ _) as [[o|]|]; cbn [obind]; try discriminate.
    destruct (mem_wr _ _ _) as [m|]; cbn [obind]; try discriminate. intros [= <- <- <-].
    eexists _, k, o, t'. split; [reflexivity|]. split; [destruct H1; constructor; auto|]. split; [exact He|]. right.
    destruct He as (_ & _ & _ & [(_ & He & _)|(_ & _ & He & _)]); [congruence|]. auto.
Qed.

(** A block which is in the cache since time [t0] and the request which removes it. *)
Lemma lifetime n h x bs : forall t c t0 i, clist_inv n h t c -> c_b2i c x = Some i -> i = (n - 1 + t0) mod n -> t0 <= t ->
  forall b outs c' c'' j, clist_trace c bs = Ok (c', outs) -> clist_request c' b = Ok (c'', j, Some x) -> b <> x ->
  (forall k b' o, nth_error bs k = Some b' -> nth_error outs k = Some o -> snd o = Some x -> b' = x) ->
  n + t0 <= t + (h + 1) * (1 + misses bs outs).
Proof.
  induction bs as [|b1 bs IH]; intros t c t0 i Hi Hx Ei Ht b outs c' c'' j Et Er Hne Hno.
  - cbn [clist_trace] in Et. injection Et as <- <-.
    destruct (request_time n h t c b Hi) as (c2 & i2 & o2 & t2 & E2 & _ & He & Htime). rewrite E2 in Er. injection Er as -> -> ->.
    destruct Htime as [[Eo _]|(_ & Ht2 & Ei2)]; [congruence|].
    destruct He as (Hj & _ & _ & [(Eo & _)|(_ & Hm & _)]); [congruence|].
    assert (c_b2i c x = Some j) as Hj' by (apply (ci_inv _ _ _ _ Hi); auto).
    assert (i = j) by congruence. cbn [misses].
    destruct (Nat.le_gt_cases (n + t0) t2) as [|Hlt]; [lia|]. exfalso.
    apply (mod_far n (n - 1 + t0) (n - 1 + t2)); [lia|lia|]. congruence.
  - cbn [clist_trace] in Et. destruct (request_time n h t c b1 Hi) as (c2 & i2 & o2 & t2 & E2 & Hi2 & He & Htime).
    rewrite E2 in Et. cbn [obind] in Et. destruct (clist_trace c2 bs) as [[c3 outs3]|] eqn:E3; [|discriminate].
    cbn [obind] in Et. injection Et as -> <-.
    assert (Hx2 : c_b2i c2 x = Some i).
    { destruct He as (_ & _ & Hb1 & [(_ & _ & _ & Eb)|(Hb & _ & _ & _ & Hb')]); [now rewrite Eb|].
      destruct (Nat.eq_dec x b1) as [->|N]; [congruence|]. rewrite Hb' by exact N. destruct o2 as [ob|]; [|exact Hx].
      destruct (Nat.eqb_spec x ob) as [->|_]; [|exact Hx]. exfalso. apply N. symmetry. now apply (Hno 0 b1 (i2, Some ob)). }
    specialize (IH t2 c2 t0 i Hi2 Hx2 Ei ltac:(lia) b outs3 c' c'' j E3 Er Hne). cbn [misses].
    assert (Hno' : forall k b' o, nth_error bs k = Some b' -> nth_error outs3 k = Some o -> snd o = Some x -> b' = x).
    { intros k. exact (Hno (S k)). }
    specialize (IH Hno'). destruct Htime as [[-> ->]|(Ho & Ht2 & _)].
    + rewrite Nat.eqb_refl. cbn [Nat.add]. exact IH.
    + assert (E1 : (match o2 with Some b' => if b' =? b1 then 0 else 1 | None => 1 end) = 1).
      { destruct o2 as [ob|]; [|reflexivity]. destruct (Nat.eqb_spec ob b1); [congruence|reflexivity]. }
      rewrite E1. nia.
Qed.

Lemma trace_app bs1 : forall bs2 c, clist_trace c (bs1 ++ bs2) =
  (do r <- clist_trace c bs1; let '(c1, o1) := r in
   do r' <- clist_trace c1 bs2; let '(c2, o2) := r' in Ok (c2, o1 ++ o2)).
Proof.
  induction bs1 as [|b bs1 IH]; intros bs2 c; cbn [app clist_trace].
  - cbn [obind]. now destruct (clist_trace c bs2) as [[? ?]|].
  - destruct (clist_request c b) as [[[c1 i] old]|]; cbn [obind]; [|reflexivity]. rewrite IH.
    destruct (clist_trace c1 bs1) as [[c2 o2]|]; cbn [obind]; [|reflexivity].
    destruct (clist_trace c2 bs2) as [[c3 o3]|]; reflexivity.
Qed.

Lemma lifetime_facts n spread bs1 x bs2 b : 0 < n -> (spread < Z.of_nat n)%Z -> b <> x ->
  exists c0 c1 c2 c3 c4 outs1 i1 old1 outs2 i2 old2,
    clist_init n spread = Ok c0 /\ clist_trace c0 bs1 = Ok (c1, outs1) /\
    clist_request c1 x = Ok (c2, i1, old1) /\ clist_trace c2 bs2 = Ok (c3, outs2) /\
    clist_request c3 b = Ok (c4, i2, old2) /\
    (old1 <> Some x -> old2 = Some x ->
     (forall k b' o, nth_error bs2 k = Some b' -> nth_error outs2 k = Some o -> snd o = Some x -> b' = x) ->
     n <= (spread_of n spread + 1) * (1 + misses bs2 outs2)).
Proof.
  intros Hn Hs Hne. pose proof (spread_lt n spread Hn Hs) as Hh.
  destruct (clist_init_spec n spread Hn Hh) as (c0 & E0 & Hi0 & _). change (eff_spread n spread) with (spread_of n spread) in Hi0.
  destruct (clist_trace_inv _ _ _ c0 bs1 Hi0) as (c1 & outs1 & t1 & E1 & _ & Hi1).
  destruct (request_time _ _ _ c1 x Hi1) as (c2 & i1 & old1 & t2 & E2 & Hi2 & He & Htime).
  destruct (clist_trace_inv _ _ _ c2 bs2 Hi2) as (c3 & outs2 & t3 & E3 & _ & Hi3).
  destruct (request_time _ _ _ c3 b Hi3) as (c4 & i2 & old2 & t4 & E4 & _).
  exists c0, c1, c2, c3, c4, outs1, i1, old1, outs2, i2, old2. repeat (split; [assumption|]).
  intros Ho1 -> Hno. destruct Htime as [[? _]|(_ & _ & Ei)]; [congruence|].
  destruct He as (_ & _ & Hx & _).
  pose proof (lifetime n _ x bs2 t2 c2 t2 i1 Hi2 Hx Ei (le_n _) b outs2 c3 c4 i2 E3 E4 Hne Hno). lia.
Qed.

(** ** Spread 0 *)
Record queue (n t : nat) (q : list nat) (c : clist) : Prop := {
  qu_inv : clist_inv n 0 t c;
  qu_len : length q = Nat.min t n;
  qu_at : forall j, j < length q -> m_at (c_i2b c) ((n - 1 + t - j) mod n) = Some (nth_error q j);
  qu_new : forall i, t <= i < n -> m_at (c_i2b c) i = Some None;
  qu_in : forall b, In b q <-> c_b2i c b <> None
}.

Lemma mod_near n a b : 0 < n -> a mod n = b mod n -> a <= b -> b < a + n -> a = b.
Proof. intros Hn E H1 H2. destruct (Nat.eq_dec a b) as [|N]; [assumption|]. exfalso. apply (mod_far n a b); auto; lia. Qed.

Lemma fifo_run n bs : forall t q c, 0 < n -> queue n t q c ->
  exists c' outs, clist_trace c bs = Ok (c', outs) /\ map snd outs = fifo n q bs.
Proof.
  induction bs as [|b bs IH]; intros t q c Hn Hq; cbn [clist_trace fifo]; [now exists c, []|].
  destruct Hq as [Hi Hlen Hat Hnew Hin].
  destruct (request_time n 0 t c b Hi) as (c1 & i & old & t1 & E & Hi1 & He & Htime). rewrite E. cbn [obind].
  destruct He as (Hil & Hat1 & Hb1 & He).
  destruct (in_dec Nat.eq_dec b q) as [Hbq|Hbq].
  - destruct He as [(-> & Hb & Ei & Eb)|(Hb & _)]; [|exfalso; apply Hin in Hbq; congruence].
    destruct Htime as [[_ ->]|[? _]]; [|congruence].
    destruct (IH t q c1 Hn) as (c2 & outs & E2 & Eo).
    { constructor; auto; rewrite ?Ei; auto. now rewrite Eb. }
    rewrite E2. cbn [obind]. exists c2, ((i, Some b) :: outs). split; [reflexivity|]. cbn [map snd]. now rewrite Eo.
  - destruct He as [(_ & Hb & _)|(Hb & Hold & Hne & Hother & Hb')]; [exfalso; apply Hbq, Hin; congruence|].
    destruct Htime as [[? _]|(_ & Ht1 & Ei)]; [congruence|]. assert (t1 = t + 1) as -> by lia. clear Ht1.
    assert (Ei' : i = t mod n).
    { rewrite Ei. replace (n - 1 + (t + 1)) with (t + 1 * n) by lia. apply Nat.mod_add. lia. }
    assert (Eold : old = nth_error q (n - 1)).
    { destruct (Nat.lt_ge_cases t n) as [Hlt|Hge].
      - rewrite (proj2 (nth_error_None q (n - 1))) by lia. rewrite Ei', Nat.mod_small in Hold by exact Hlt.
        rewrite Hnew in Hold by lia. congruence.
      - specialize (Hat (n - 1) ltac:(lia)). replace (n - 1 + t - (n - 1)) with t in Hat by lia. rewrite <- Ei' in Hat. congruence. }
    rewrite <- Eold.
    assert (Hq' : queue n (t + 1) (b :: firstn (n - 1) q) c1).
    { constructor; auto.
      - cbn [length]. rewrite firstn_length. lia.
      - cbn [length]. rewrite firstn_length. intros [|j] Hj.
        + rewrite Nat.sub_0_r, <- Ei. exact Hat1.
        + cbn [nth_error]. replace (n - 1 + (t + 1) - S j) with (n - 1 + t - j) by lia.
          rewrite Hother.
          * rewrite Hat by lia. f_equal. symmetry. rewrite <- (firstn_skipn (n - 1) q) at 2.
            rewrite nth_error_app1; [reflexivity|]. rewrite firstn_length. lia.
          * intros Ex. rewrite Ei' in Ex.
            assert (t <> n - 1 + t - j).
            { intros X. assert (j = n - 1) as -> by lia. lia. }
            apply (mod_far n t (n - 1 + t - j)); [lia|lia|congruence].
      - intros k Hk. rewrite Hother; [apply Hnew; lia|]. rewrite Ei', Nat.mod_small by lia. lia.
      - intros b'. cbn [In]. destruct (Nat.eq_dec b' b) as [->|N]; [rewrite Hb1; split; [discriminate|auto]|].
        rewrite Hb' by exact N.
        assert (Hdup : forall j j' y, nth_error q j = Some y -> nth_error q j' = Some y -> j = j').
        { intros j j' y H1 H2. assert (j < length q) by (apply nth_error_Some; congruence).
          assert (j' < length q) by (apply nth_error_Some; congruence).
          assert (A : forall k, k < length q -> nth_error q k = Some y -> c_b2i c y = Some ((n - 1 + t - k) mod n)).
          { intros k Hk Ek. apply (ci_inv _ _ _ _ Hi). split; [apply Nat.mod_upper_bound; lia|]. rewrite Hat, Ek; auto. }
          pose proof (A j ltac:(lia) H1) as A1. pose proof (A j' ltac:(lia) H2) as A2. rewrite A1 in A2. injection A2 as A2.
          destruct (Nat.lt_trichotomy j j') as [L|[L|L]]; [|exact L|]; exfalso.
          - apply (mod_far n (n - 1 + t - j') (n - 1 + t - j)); [lia|lia|congruence].
          - apply (mod_far n (n - 1 + t - j) (n - 1 + t - j')); [lia|lia|congruence]. }
        assert (Hcut : In b' (firstn (n - 1) q) <-> In b' q /\ nth_error q (n - 1) <> Some b').
        { split.
          - intros H. split; [rewrite <- (firstn_skipn (n - 1) q); apply in_app_iff; auto|].
            intros H2. apply In_nth_error in H. destruct H as (j & Ej).
            assert (Hj : j < length (firstn (n - 1) q)) by (apply nth_error_Some; congruence). rewrite firstn_length in Hj.
            assert (nth_error q j = Some b').
            { rewrite <- (firstn_skipn (n - 1) q), nth_error_app1; [exact Ej|]. rewrite firstn_length. lia. }
            pose proof (Hdup j (n - 1) b' H H2). lia.
          - intros [H H2]. apply In_nth_error in H. destruct H as (j & Ej).
            assert (Hj : j < length q) by (apply nth_error_Some; congruence).
            assert (j <> n - 1) by (intros ->; congruence).
            apply (nth_error_In _ j). rewrite <- Ej. rewrite <- (firstn_skipn (n - 1) q) at 2.
            rewrite nth_error_app1; [reflexivity|]. rewrite firstn_length. lia. }
        rewrite Hcut, <- Eold, (Hin b'). destruct old as [ob|].
        + destruct (Nat.eqb_spec b' ob) as [->|No]; [|intuition congruence]. split; [|intros X; exfalso; now apply X].
          intros [X|[_ X]]; [congruence|]. now exfalso.
        + intuition congruence. }
    destruct (IH (t + 1) (b :: firstn (n - 1) q) c1 Hn Hq') as (c2 & outs & E2 & Eo).
    rewrite E2. cbn [obind]. exists c2, ((i, old) :: outs). split; [reflexivity|]. cbn [map snd]. now rewrite Eo.
Qed.

Lemma fifo_facts n bs : 0 < n ->
  exists c0 c outs, clist_init n 0 = Ok c0 /\ clist_trace c0 bs = Ok (c, outs) /\ map snd outs = fifo n [] bs.
Proof.
  intros Hn. destruct (clist_init_spec n 0 Hn Hn) as (c0 & E0 & Hi0 & Hb & Hi & _).
  destruct (fifo_run n bs 0 [] c0 Hn) as (c & outs & E & Eo).
  { constructor; [exact Hi0|reflexivity|cbn; lia|intros i [_ H]; auto|intros b; rewrite Hb; cbn; tauto]. }
  exists c0, c, outs. auto.
Qed.

(** ** All slots in use *)
Lemma all_used_loop n h fuel : forall r t j l, lru_inv n h (t + j) l -> r = h - j -> j <= h -> r < fuel ->
  (forall i, i < n -> (forall k, k < j -> i <> (h + t + k) mod n) -> m_at (l_ref l) i = Some true) ->
  (0 < j -> m_at (l_ref l) ((h + t) mod n) = Some false) ->
  exists l' es, lru_loop_ev fuel l = Some (Ok (l', es)) /\ moves es = r + 1 /\ l_page l' = (h + t) mod n.
Proof.
  induction fuel as [|fuel IH]; intros r t j l Hi Er Hj Hf Hused Hclr; [lia|]. cbn [lru_loop_ev].
  pose proof (li_n _ _ _ _ Hi) as Hn. pose proof (li_h _ _ _ _ Hi) as Hh.
  destruct (lru_iter_spec n h (t + j) l Hi) as (l1 & b & E & Hi1 & Hb & Hm). rewrite E.
  assert (Ep : l_page l1 = (t + j) mod n).
  { rewrite (li_page _ _ _ _ Hi1). replace (n - 1 + (t + j + 1)) with (t + j + 1 * n) by lia. apply Nat.mod_add. lia. }
  pose proof (li_clear _ _ _ _ Hi) as Hc. rewrite Nat.add_assoc in Hc.
  assert (Hclr1 : m_at (l_ref l1) ((h + t) mod n) = Some false).
  { rewrite Hm. destruct (Nat.eqb_spec ((h + t) mod n) (l_clear l)) as [|N]; [reflexivity|]. apply Hclr.
    destruct j; [|lia]. exfalso. apply N. rewrite Hc. f_equal. lia. }
  rewrite Ep in Hb. destruct (Nat.eq_dec j h) as [->|Nj].
  - rewrite (Nat.add_comm t h) in Hb. rewrite Hclr1 in Hb. injection Hb as <-. exists l1, [EClear (l_clear l)].
    split; [reflexivity|]. split; [cbn; lia|]. rewrite Ep. f_equal. lia.
  - assert (Hfar : forall k, k <= j -> (t + j) mod n <> (h + t + k) mod n).
    { intros k Hk Ex. apply (mod_far n (t + j) (h + t + k)); [lia|lia|exact Ex]. }
    rewrite Hm in Hb. destruct (Nat.eqb_spec ((t + j) mod n) (l_clear l)) as [Ex|_].
    { exfalso. rewrite Hc in Ex. apply (Hfar j); [lia|exact Ex]. }
    rewrite Hused in Hb; [|apply Nat.mod_upper_bound; lia|intros k Hk; apply Hfar; lia]. injection Hb as <-.
    replace (t + j + 1) with (t + S j) in Hi1 by lia.
    destruct (IH (r - 1) t (S j) l1 Hi1) as (l' & es & E' & Emv & Epg); try lia.
    + intros i Hin Hk. rewrite Hm. destruct (Nat.eqb_spec i (l_clear l)) as [Ex|_].
      * exfalso. rewrite Hc in Ex. apply (Hk j); [lia|exact Ex].
      * apply Hused; [exact Hin|]. intros k Hkj. apply Hk. lia.
    + intros _. exact Hclr1.
    + rewrite E'. cbn [obind]. eexists _, _. split; [reflexivity|]. split; [|exact Epg]. rewrite moves_cons, Emv. cbn. lia.
Qed.

Lemma all_used_free n h t l : lru_inv n h t l -> (forall i, i < n -> m_at (l_ref l) i = Some true) ->
  exists l' es, lru_step_ev l OpFree = Ok (l', es ++ [EPick ((h + t) mod n); EUse ((h + t) mod n)]) /\ moves es = h + 1.
Proof.
  intros Hi Hu. pose proof (li_n _ _ _ _ Hi) as Hn. pose proof (li_h _ _ _ _ Hi) as Hh.
  destruct (all_used_loop n h n h t 0 l) as (l1 & es & E & Em & Ep); try lia.
  { now rewrite Nat.add_0_r. }
  { intros i Hin _. auto. }
  cbn [lru_step_ev]. rewrite (li_size _ _ _ _ Hi), E. cbn [obind].
  destruct (loop_timed n h n t l l1 es Hi E) as (_ & B & _).
  assert (Hp : l_page l1 < n) by (rewrite Ep; apply Nat.mod_upper_bound; lia).
  destruct (lru_access_spec n h _ l1 (l_page l1) B Hp) as (l2 & E2 & _). rewrite E2. cbn [obind].
  exists l2, es. rewrite Ep. auto.
Qed.

Lemma use_run n h t is : Forall (fun i => i < n) is -> forall l, lru_inv n h t l ->
  exists l' ess, lru_run_ev l (map OpUse is) = Ok (l', ess) /\ lru_inv n h t l' /\
    forall i, m_at (l_ref l') i = if in_dec Nat.eq_dec i is then Some true else m_at (l_ref l) i.
Proof.
  intros H. induction H as [|i is Hlt H IH]; intros l Hi; cbn [map lru_run_ev].
  - exists l, []. split; [reflexivity|]. split; [exact Hi|]. intros i. now destruct (in_dec _ _ _).
  - cbn [lru_step_ev]. destruct (lru_access_spec n h t l i Hi Hlt) as (l1 & E & Hi1 & Ed). rewrite E. cbn [obind].
    destruct (IH l1 Hi1) as (l2 & ess & E2 & Hi2 & Hm). rewrite E2. cbn [obind]. exists l2, ([EUse i] :: ess).
    split; [reflexivity|]. split; [exact Hi2|]. intros k. rewrite Hm. rewrite Ed. cbn [l_ref m_at].
    destruct (in_dec Nat.eq_dec k is) as [A|A], (in_dec Nat.eq_dec k (i :: is)) as [B|B]; auto.
    + exfalso. apply B. now right.
    + destruct B as [->|B]; [now rewrite upd_same|tauto].
    + rewrite upd_other; [reflexivity|]. intros ->. apply B. now left.
Qed.

Lemma run_app ops1 : forall ops2 l, lru_run_ev l (ops1 ++ ops2) =
  (do x <- lru_run_ev l ops1; let '(l1, e1) := x in
   do y <- lru_run_ev l1 ops2; let '(l2, e2) := y in Ok (l2, e1 ++ e2)).
Proof.
  induction ops1 as [|o ops1 IH]; intros ops2 l; cbn [app lru_run_ev].
  - cbn [obind]. now destruct (lru_run_ev l ops2) as [[? ?]|].
  - destruct (lru_step_ev l o) as [[l1 es]|]; cbn [obind]; [|reflexivity]. rewrite IH.
    destruct (lru_run_ev l1 ops1) as [[l2 e2]|]; cbn [obind]; [|reflexivity].
    destruct (lru_run_ev l2 ops2) as [[l3 e3]|]; reflexivity.
Qed.

Lemma search_exact n spread ops : 0 < n -> (spread < Z.of_nat n)%Z -> Forall (op_ok n) ops ->
  exists l l1 ess l2 es, lru_init n spread = Ok l /\ lru_run_ev l (ops ++ map OpUse (seq 0 n)) = Ok (l1, ess) /\
    lru_step_ev l1 OpFree = Ok (l2, es) /\ moves es = spread_of n spread + 1.
Proof.
  intros Hn Hs Ho. destruct (from_init n spread Hn Hs ops Ho) as (l & l0 & ess0 & E & Er & _ & _ & Hi & _).
  destruct (use_run n (spread_of n spread) (moves (concat ess0)) (seq 0 n)) with (l := l0) as (l1 & ess1 & E1 & Hi1 & Hm).
  { apply Forall_forall. intros i Hin. apply in_seq in Hin. lia. }
  { exact Hi. }
  destruct (all_used_free n _ _ l1 Hi1) as (l2 & es & E2 & Em).
  { intros i Hin. rewrite Hm. destruct (in_dec Nat.eq_dec i (seq 0 n)) as [|N]; [reflexivity|]. exfalso. apply N, in_seq. lia. }
  exists l, l1, (ess0 ++ ess1), l2. eexists. split; [exact E|]. split; [|split; [exact E2|]].
  - rewrite run_app, Er. cbn [obind]. rewrite E1. reflexivity.
  - rewrite moves_app, Em. cbn. lia.
Qed.

Lemma all_used_get n h t l : lru_inv n h t l -> (forall i, i < n -> m_at (l_ref l) i = Some true) ->
  exists l', lru_get_free l = Ok (l', (h + t) mod n).
Proof.
  intros Hi Hu. pose proof (lru_step_ev_free l) as F. destruct (all_used_free n h t l Hi Hu) as (l' & es & E & _).
  rewrite E in F. cbn [omap] in F. destruct (lru_get_free l) as [[l2 i]|]; [|discriminate F]. cbn [omap fst snd] in F.
  injection F as E1 E2. rewrite filter_app in E2. cbn [filter] in E2. exists l2. do 2 f_equal.
  assert (In (EPick ((h + t) mod n)) [EPick i]) as [[= ->]|[]]; [|reflexivity]. rewrite <- E2. apply in_app_iff. right. now left.
Qed.

(** The blocks [0 .. m-1] were loaded into the slots [0 .. m-1]. *)
Record filled (n h m : nat) (c : clist) : Prop := {
  fi_inv : clist_inv n h m c;
  fi_new : forall i, m <= i -> m_at (l_ref (c_lru c)) i <> Some true;
  fi_none : forall i, m <= i < n -> m_at (c_i2b c) i = Some None;
  fi_b2i : forall b, c_b2i c b = if b <? m then Some b else None
}.

Lemma fill_one n h m c : filled n h m c -> m < n ->
  exists c', clist_request c m = Ok (c', m, None) /\ filled n h (m + 1) c'.
Proof.
  intros [Hi Hnew Hnone Hb] Hm. destruct (clist_request_spec n h m c m Hi) as (c' & i & old & t' & E & _ & H' & He).
  destruct Hi as [Hl Hlen Hini Hmap]. destruct (lru_get_free_first n h m (c_lru c) Hl Hm Hnew) as (l' & El & Hl' & Hnew').
  assert (Hc : c' = CList l' (Mem n (upd (m_at (c_i2b c)) m (Some (Some m)))) (fun b' => if b' =? m then Some m else c_b2i c b')
               /\ i = m /\ old = None).
  { pose proof E as E'. revert E'. unfold clist_request, clist_get_index. rewrite Hb, Nat.ltb_irrefl. cbn [obind].
    unfold clist_get_free. rewrite El. cbn [obind]. rewrite mem_rd_ok by lia. cbn [obind].
    rewrite Hnone by lia. rewrite mem_wr_ok by lia. cbn [obind]. intros [= <- <- <-]. rewrite Hlen. auto. }
  destruct Hc as (-> & -> & ->). eexists. split; [exact E|]. destruct H' as [_ A B C]. constructor; cbn [c_lru c_i2b c_b2i m_at] in *.
  - constructor; auto.
  - exact Hnew'.
  - intros k Hk. rewrite upd_other by lia. apply Hnone. lia.
  - intros b. rewrite Hb. destruct (Nat.eqb_spec b m), (Nat.ltb_spec b m), (Nat.ltb_spec b (m + 1)); subst; auto; lia.
Qed.

Lemma fill n h k : forall m c, filled n h m c -> m + k <= n ->
  exists c' outs, clist_trace c (seq m k) = Ok (c', outs) /\ filled n h (m + k) c'.
Proof.
  induction k as [|k IH]; intros m c Hf Hk; cbn [seq clist_trace].
  - exists c, []. rewrite Nat.add_0_r. auto.
  - destruct (fill_one n h m c Hf ltac:(lia)) as (c1 & E & H1). rewrite E. cbn [obind].
    replace (m + 1) with (S m) in H1 by lia. destruct (IH (S m) c1 H1 ltac:(lia)) as (c2 & outs & E2 & H2).
    rewrite E2. cbn [obind]. exists c2, ((m, None) :: outs). replace (m + S k) with (S m + k) by lia. auto.
Qed.

(** Requests for blocks which are there. *)
Lemma again n h t bs : forall c, clist_inv n h t c -> (forall b, c_b2i c b = if b <? n then Some b else None) ->
  Forall (fun b => b < n) bs ->
  exists c' outs, clist_trace c bs = Ok (c', outs) /\ clist_inv n h t c' /\ (forall b, c_b2i c' b = c_b2i c b) /\
    forall i, m_at (l_ref (c_lru c')) i = if in_dec Nat.eq_dec i bs then Some true else m_at (l_ref (c_lru c)) i.
Proof.
  induction bs as [|b bs IH]; intros c Hi Hb Hf; cbn [clist_trace].
  - exists c, []. split; [reflexivity|]. split; [exact Hi|]. split; [reflexivity|]. intros i. now destruct (in_dec _ _ _).
  - apply Forall_cons_iff in Hf. destruct Hf as [Hlt Hf].
    assert (Eb : c_b2i c b = Some b) by (rewrite Hb; destruct (Nat.ltb_spec b n); [reflexivity|lia]).
    unfold clist_request, clist_get_index. rewrite Eb. destruct Hi as [Hl Hlen Hini Hmap].
    destruct (lru_access_spec n h t (c_lru c) b Hl Hlt) as (l' & El & Hl' & Ed). rewrite El. cbn [obind].
    destruct (IH (CList l' (c_i2b c) (c_b2i c))) as (c2 & outs & E2 & H2 & Hb2 & Hm2); auto.
    { constructor; auto. }
    rewrite E2. cbn [obind]. exists c2, ((b, Some b) :: outs). split; [reflexivity|]. split; [exact H2|]. split; [exact Hb2|].
    intros k. rewrite Hm2. cbn [c_lru]. rewrite Ed. cbn [l_ref m_at].
    destruct (in_dec Nat.eq_dec k bs) as [A|A], (in_dec Nat.eq_dec k (b :: bs)) as [B|B]; auto.
    + exfalso. apply B. now right.
    + destruct B as [->|B]; [now rewrite upd_same|tauto].
    + rewrite upd_other; [reflexivity|]. intros ->. apply B. now left.
Qed.

Lemma last_used n spread : 0 < n -> (spread < Z.of_nat n)%Z -> let h := spread_of n spread in
  exists c0 c outs c' i, clist_init n spread = Ok c0 /\ clist_trace c0 (seq 0 n ++ seq 0 n ++ [h]) = Ok (c, outs) /\
    clist_request c n = Ok (c', i, Some h).
Proof.
  intros Hn Hs h. pose proof (spread_lt n spread Hn Hs) as Hh. fold h in Hh.
  destruct (clist_init_spec n spread Hn Hh) as (c0 & E0 & Hi0 & Hb0 & Hn0 & Hf0). change (eff_spread n spread) with h in Hi0.
  destruct (fill n h n 0 c0) as (c1 & outs1 & E1 & H1); [|lia|].
  { constructor; [exact Hi0|intros i _; apply Hf0|intros i [_ H]; auto|intros b; rewrite Hb0; now destruct b]. }
  cbn [Nat.add] in H1. destruct H1 as [Hi1 _ _ Hb1].
  destruct (again n h n (seq 0 n ++ [h]) c1 Hi1 Hb1) as (c2 & outs2 & E2 & Hi2 & Hb2 & Hm2).
  { apply Forall_forall. intros b Hin. apply in_app_iff in Hin. destruct Hin as [Hin|[<-|[]]]; [apply in_seq in Hin; lia|exact Hh]. }
  destruct (clist_request_spec n h n c2 n Hi2) as (c3 & i & old & t3 & E3 & _ & _ & He).
  assert (Hbn : c_b2i c2 n = None) by (rewrite Hb2, Hb1, Nat.ltb_irrefl; reflexivity).
  assert (Ei : i = h /\ old = Some h).
  { pose proof E3 as E'. revert E'. unfold clist_request, clist_get_index. rewrite Hbn. cbn [obind]. unfold clist_get_free.
    destruct (all_used_get n h n (c_lru c2)) as (l' & El).
    { exact (ci_lru _ _ _ _ Hi2). }
    { intros k Hk. rewrite Hm2. destruct (in_dec Nat.eq_dec k (seq 0 n ++ [h])) as [|N]; [reflexivity|].
      exfalso. apply N, in_app_iff. left. apply in_seq. lia. }
    rewrite El. cbn [obind]. replace ((h + n) mod n) with h.
    2:{ replace (h + n) with (h + 1 * n) by lia. rewrite Nat.mod_add by lia. symmetry. now apply Nat.mod_small. }
    pose proof (ci_len _ _ _ _ Hi2) as Hlen. rewrite mem_rd_ok by lia. cbn [obind].
    assert (Eh : m_at (c_i2b c2) h = Some (Some h)).
    { apply (ci_inv _ _ _ _ Hi2). rewrite Hb2, Hb1. destruct (Nat.ltb_spec h n); [reflexivity|lia]. }
    rewrite Eh. rewrite mem_wr_ok by lia. cbn [obind]. intros [= _ <- <-]. auto. }
  destruct Ei as [-> ->]. exists c0, c2, (outs1 ++ outs2), c3, h. split; [exact E0|]. split; [|exact E3].
  rewrite trace_app, E1. cbn [obind]. rewrite E2. reflexivity.
Qed.
