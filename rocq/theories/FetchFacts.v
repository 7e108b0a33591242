(** * Proofs: where a block comes from *)
From Verif Require Export FetchSpec CacheProofs DictProofs.

Section Facts.
Context (c : fcfg) (spread : Z).
Local Notation n := (fc_size c).
Local Notation D := (fc_doms c).
Local Notation P := (fc_ranks c).
Hypothesis Hn : 0 < n.
Hypothesis Hs : (spread < Z.of_nat n)%Z.

Lemma f_spread_ok : eff_spread n spread < n.
Proof. unfold eff_spread. destruct (Z.ltb_spec spread 0); [apply Nat.div_lt; lia|lia]. Qed.

(** The location of a slot. *)
Definition slot_loc (r d i : nat) : nat := floc c r (i + n * d).

Lemma slot_loc_inj r d i r' d' i' : d < D -> d' < D -> i < n -> i' < n ->
  slot_loc r d i = slot_loc r' d' i' -> r = r' /\ d = d' /\ i = i'.
Proof.
  unfold slot_loc, floc. intros Hd Hd' Hi Hi' E.
  assert (i + n * d < n * D) as H1 by nia. assert (i' + n * d' < n * D) as H2 by nia.
  assert (r = r') as ->.
  { assert ((r * (n * D) + (i + n * d)) / (n * D) = (r' * (n * D) + (i' + n * d')) / (n * D)) as E' by now rewrite E.
    rewrite !Nat.div_add_l, !Nat.div_small in E' by nia. lia. }
  assert (i + n * d = i' + n * d') as E2 by lia.
  assert (d = d') as ->.
  { assert ((d * n + i) / n = (d' * n + i') / n) as E' by (f_equal; lia).
    rewrite !Nat.div_add_l, !Nat.div_small in E' by lia. lia. }
  lia.
Qed.

Lemma slot_loc_div r d i : d < D -> i < n ->
  slot_loc r d i / (n * D) = r /\ slot_loc r d i mod (n * D) = i + n * d.
Proof.
  intros Hd Hi. unfold slot_loc, floc. assert (i + n * d < n * D) as H1 by nia. split.
  - rewrite Nat.div_add_l by nia. rewrite Nat.div_small; lia.
  - rewrite Nat.add_comm, Nat.mod_add by nia. apply Nat.mod_small; auto.
Qed.

(** The entry lists slots which hold the block. *)
Definition entry_true (s : fstate) (b : nat) (l : list nat) : Prop :=
  fs_dict s b = rep l /\ length l <= 4 /\ NoDup l /\
  forall e, In e l -> exists r d i, in_slot c s r d i b /\ e = slot_loc r d i.

Definition lists_ok (s : fstate) : Prop :=
  forall r d, r < P -> d < D -> exists t, clist_inv n (eff_spread n spread) t (fs_list s r d).

Record finv (s : fstate) : Prop := {
  fi_lists : lists_ok s;
  fi_dict : forall b, exists l, entry_true s b l;
  fi_no : fc_tr c = TNo -> forall b, fs_dict s b = dict_init
}.

Lemma no_entries s b : fs_dict s b = dict_init -> entry_true s b [].
Proof.
  intros E. split; [exact E|]. split; [cbn; lia|]. split; [constructor|]. intros e [].
Qed.

(** The entry lists all slots which hold the block. *)
Definition complete (s : fstate) (b : nat) : Prop :=
  forall r d i, in_slot c s r d i b -> In (Some (slot_loc r d i)) (fs_dict s b).

Lemma rep_In_iff l x : In (Some x) (rep l) <-> In x l.
Proof.
  unfold rep. rewrite in_app_iff, in_map_iff. split; [|eauto].
  intros [(y & Hy & ?)|H]; [congruence|]. apply repeat_spec in H. discriminate.
Qed.

Lemma slot_unique s r d i i' b : lists_ok s -> in_slot c s r d i b -> in_slot c s r d i' b -> i = i'.
Proof.
  intros Hl (Hr & Hd & Hi & E) (_ & _ & Hi' & E'). destruct (Hl r d Hr Hd) as (t & Hci).
  assert (c_b2i (fs_list s r d) b = Some i) by (apply (ci_inv _ _ _ _ Hci); auto).
  assert (c_b2i (fs_list s r d) b = Some i') by (apply (ci_inv _ _ _ _ Hci); auto). congruence.
Qed.

Lemma peek_slot s r d b : lists_ok s -> r < P -> d < D ->
  forall i, clist_peek (fs_list s r d) b = Some i <-> in_slot c s r d i b.
Proof.
  intros Hl Hr Hd i. destruct (Hl r d Hr Hd) as (t & Hci). unfold clist_peek, in_slot.
  rewrite (ci_inv _ _ _ _ Hci). tauto.
Qed.

Lemma peek_none s r d b : lists_ok s -> r < P -> d < D ->
  clist_peek (fs_list s r d) b = None <-> ~ holds_block c s r d b.
Proof.
  intros Hl Hr Hd. split.
  - intros E (i & H). apply (peek_slot s r d b Hl Hr Hd) in H. congruence.
  - intros H. destruct (clist_peek _ _) as [i|] eqn:E; auto. exfalso. apply H.
    exists i. now apply (peek_slot s r d b Hl Hr Hd).
Qed.

Lemma fset_dict_list s b e : fs_list (fset_dict s b e) = fs_list s.
Proof. reflexivity. Qed.

Lemma in_slot_dict s b e r d i b' : in_slot c (fset_dict s b e) r d i b' <-> in_slot c s r d i b'.
Proof. reflexivity. Qed.

(** ** Steps of a read *)
Section Read.
Variables (s : fstate) (r d b : nat) (l : clist) (i : nat) (old : option nat).
Hypothesis Hinv : finv s.
Hypothesis Hr : r < P.
Hypothesis Hd : d < D.
Hypothesis Hq : clist_request (fs_list s r d) b = Ok (l, i, old).
Hypothesis Hold : old <> Some b.

Local Notation s1 := (fset_list s r d l).
Local Notation e0 := (slot_loc r d i).

Lemma req_facts : i < n /\ (exists t, clist_inv n (eff_spread n spread) t l) /\
  m_at (c_i2b l) i = Some (Some b) /\ c_b2i (fs_list s r d) b = None /\
  m_at (c_i2b (fs_list s r d)) i = Some old /\
  (forall k, k <> i -> m_at (c_i2b l) k = m_at (c_i2b (fs_list s r d)) k).
Proof.
  destruct (fi_lists s Hinv r d Hr Hd) as (t & Hci).
  destruct (clist_request_spec n _ t (fs_list s r d) b Hci) as (l' & i' & old' & t' & E & _ & H' & Hi & Hb & _ & He).
  rewrite Hq in E. injection E as <- <- <-.
  destruct He as [(? & _)|(H1 & H2 & _ & H3 & _)]; [congruence|]. eauto 10.
Qed.

Lemma s1_lists : lists_ok s1.
Proof.
  intros r' d' Hr' Hd'. cbn. destruct (Nat.eqb_spec r' r), (Nat.eqb_spec d' d); cbn; try now apply (fi_lists s Hinv).
  apply req_facts.
Qed.

Lemma s1_slot r' d' i' b' : in_slot c s1 r' d' i' b' <->
  (r' = r /\ d' = d /\ i' = i /\ b' = b) \/ ((r', d', i') <> (r, d, i) /\ in_slot c s r' d' i' b').
Proof.
  destruct req_facts as (Hi & _ & H1 & _ & _ & H3). unfold in_slot. cbn.
  destruct (Nat.eqb_spec r' r) as [->|]; [destruct (Nat.eqb_spec d' d) as [->|]|]; cbn.
  - destruct (Nat.eq_dec i' i) as [->|Hne].
    + rewrite H1. split; [intros (_ & _ & _ & [= <-]); left; auto|].
      intros [(_ & _ & _ & ->)|(Hx & _)]; [auto|congruence].
    + rewrite H3 by auto. split; [intros H; right; split; [congruence|auto]|].
      intros [(_ & _ & -> & _)|(_ & H)]; [congruence|auto].
  - split; [intros H; right; split; [congruence|auto]|].
    intros [(_ & -> & _)|(_ & H)]; [congruence|auto].
  - split; [intros H; right; split; [congruence|auto]|].
    intros [(-> & _)|(_ & H)]; [congruence|auto].
Qed.

(** The cache did not hold the block; the slot did not hold another copy of it. *)
Lemma own_miss i' : ~ in_slot c s r d i' b.
Proof.
  intros H. destruct req_facts as (_ & _ & _ & H2 & _).
  apply (peek_slot s r d b (fi_lists s Hinv) Hr Hd) in H. unfold clist_peek in H. congruence.
Qed.

Lemma s1_slot_other r' d' i' b' : b' <> b -> old <> Some b' ->
  in_slot c s1 r' d' i' b' <-> in_slot c s r' d' i' b'.
Proof.
  intros Hb Ho. rewrite s1_slot. split; [intros [(_ & _ & _ & ->)|[_ H]]; [congruence|auto]|].
  intros H. right. split; auto. intros [= -> -> ->].
  destruct req_facts as (_ & _ & _ & _ & H5 & _). destruct H as (_ & _ & _ & H). congruence.
Qed.

Lemma s1_slot_b r' d' i' : in_slot c s1 r' d' i' b <->
  (r' = r /\ d' = d /\ i' = i) \/ in_slot c s r' d' i' b.
Proof.
  rewrite s1_slot. split; [tauto|]. intros [?|H]; [tauto|]. right. split; auto.
  intros [= -> -> ->]. now apply (own_miss i) in H.
Qed.

Lemma s1_slot_old ob r' d' i' : old = Some ob -> in_slot c s1 r' d' i' ob <->
  (r', d', i') <> (r, d, i) /\ in_slot c s r' d' i' ob.
Proof. intros E. rewrite s1_slot. split; [|tauto]. intros [(_ & _ & _ & ->)|?]; [congruence|auto]. Qed.

(** After [deleteBlock]: the entries are right for what the caches hold, but the
    entry of [b] does not list the new slot yet. *)
Definition before_add (s2 : fstate) : Prop :=
  fs_list s2 = fs_list s1 /\
  (forall b', b' <> b -> exists l', entry_true s2 b' l') /\
  fs_dict s2 b = fs_dict s b /\
  (old = None -> fs_dict s2 = fs_dict s) /\
  (fc_tr c = TNo -> fs_dict s2 = fs_dict s) /\
  (fc_tr c <> TNo -> forall b', b' <> b -> complete s b' -> complete s2 b').

Lemma del_old : exists s2,
  match old with Some ob => fdelete c s1 r (i + n * d) ob | None => Ok s1 end = Ok s2 /\ before_add s2.
Proof.
  destruct req_facts as (Hi & _ & _ & _ & Hat & _).
  assert ((exists ob, old = Some ob) \/ old = None) as [(ob & Eo)|Eo] by (clear; destruct old; eauto); rewrite Eo.
  - assert (ob <> b) as Hob by congruence. unfold fdelete.
    assert (in_slot c s r d i ob) as Hold' by (unfold in_slot; rewrite Hat, Eo; auto).
    assert (forall b' l', b' <> b -> b' <> ob -> entry_true s b' l' -> entry_true s1 b' l') as Hkeep.
    { intros b' l' Hb Hbo (E & H1 & H2 & H3). split; [exact E|]. split; [auto|]. split; [auto|].
      intros e He. destruct (H3 e He) as (r' & d' & i' & Hx & ->). exists r', d', i'. split; auto.
      apply s1_slot_other; auto. rewrite Eo. congruence. }
    destruct (fi_dict s Hinv ob) as (lo & Elo & Hlen & Hnd & Htrue).
    assert (TDEL : fc_tr c <> TNo -> exists s2, (do e <- delete_block_info (fs_dict s1 ob) e0; Ok (fset_dict s1 ob e)) = Ok s2 /\
      before_add s2).
    { intros Ht. change (fs_dict s1 ob) with (fs_dict s ob). rewrite Elo, delete_rep by auto. cbn [obind].
      eexists. split; [reflexivity|]. split; [reflexivity|].
      split; [|split; [|split; [congruence|split; [congruence|]]]].
      - intros b' Hb. destruct (Nat.eq_dec b' ob) as [->|Hbo].
        + exists (del_list lo e0). split; [cbn; now rewrite upd_same|]. split; [now apply del_list_length|].
          split; [eapply subseq_NoDup; [apply subseq_del|auto]|].
          intros e He. pose proof (subseq_In _ _ e (subseq_del lo e0) He) as He'.
          destruct (Htrue e He') as (r' & d' & i' & Hx & ->). exists r', d', i'. split; auto.
          rewrite in_slot_dict. apply (s1_slot_old ob r' d' i' Eo). split; auto.
          intros [= -> -> ->]. revert He. now apply del_list_not_In.
        + destruct (fi_dict s Hinv b') as (l' & Hl'). exists l'.
          destruct (Hkeep b' l' Hb Hbo Hl') as (E & H1 & H2 & H3).
          split; [cbn; rewrite upd_other by auto; exact E|]. auto.
      - cbn. now rewrite upd_other by congruence.
      - intros _ b' Hb Hc r' d' i' Hx. rewrite in_slot_dict in Hx.
        destruct (Nat.eq_dec b' ob) as [->|Hbo].
        + cbn. rewrite upd_same. apply (s1_slot_old ob r' d' i' Eo) in Hx as [Hne Hx].
          assert (Hin := Hc _ _ _ Hx). assert (Hin0 := Hc _ _ _ Hold'). rewrite Elo in Hin, Hin0.
          apply rep_In_iff in Hin, Hin0. apply rep_In_iff, del_list_other; auto.
          intros Ee. apply Hne. destruct Hx as (_ & Hd' & Hi' & _).
          apply slot_loc_inj in Ee as (-> & -> & ->); auto.
        + cbn. rewrite upd_other by auto. apply Hc. apply s1_slot_other in Hx; auto. rewrite Eo. congruence. }
    destruct (fc_tr c) eqn:Et; [|apply TDEL; discriminate|apply TDEL; discriminate].
    (* without dictionary: nothing is listed *)
    exists s1. split; [reflexivity|]. split; [reflexivity|]. split; [|split; [reflexivity|split; [reflexivity|split; [reflexivity|congruence]]]].
    intros b' Hb. exists []. apply no_entries. apply (fi_no s Hinv Et b').
  - exists s1. split; [reflexivity|]. split; [reflexivity|].
    split; [|split; [reflexivity|split; [reflexivity|split; [reflexivity|]]]].
    + intros b' Hb. destruct (fi_dict s Hinv b') as (l' & E & H1 & H2 & H3). exists l'. split; [exact E|].
      split; [auto|]. split; [auto|]. intros e He. destruct (H3 e He) as (r' & d' & i' & Hx & ->).
      exists r', d', i'. split; auto. apply s1_slot_other; auto. rewrite Eo. discriminate.
    + intros _ b' Hb Hc r' d' i' Hx. apply Hc. apply s1_slot_other in Hx; auto. rewrite Eo. discriminate.
Qed.

(** ** Recording the new slot *)
Lemma old_other r' d' i' : in_slot c s r' d' i' b -> (r', d') <> (r, d).
Proof. intros H [= -> ->]. now apply (own_miss i') in H. Qed.

Lemma added s2 lb : before_add s2 -> entry_true s b lb -> fc_tr c <> TNo ->
  let s3 := fset_dict s2 b (rep (firstn dict_size (e0 :: lb))) in
  finv s3 /\ fs_list s3 = fs_list s1 /\ fs_dict s3 b <> dict_init /\
  (old = None -> forall b', b' <> b -> fs_dict s3 b' = fs_dict s b') /\
  (forall b', complete s b' -> few_holders c s3 b' -> complete s3 b').
Proof.
  intros (El & Hother & Eb & Hnone & _ & Hcomp) (Elb & Hlen & Hnd & Htrue) Ht s3.
  destruct req_facts as (Hi & _).
  assert (Hsl : forall r' d' i' b', in_slot c s3 r' d' i' b' <-> in_slot c s1 r' d' i' b').
  { intros. unfold in_slot, s3. cbn [fset_dict fs_list]. rewrite El. reflexivity. }
  assert (~ In e0 lb) as Hnew.
  { intros Hin. destruct (Htrue _ Hin) as (r' & d' & i' & Hx & E).
    pose proof Hx as (_ & Hd' & Hi' & _). apply slot_loc_inj in E as (<- & <- & <-); auto.
    now apply (own_miss i) in Hx. }
  assert (Hnd1 : NoDup (e0 :: lb)) by (constructor; auto).
  assert (Hsub : subseq (firstn dict_size (e0 :: lb)) (e0 :: lb)) by apply subseq_firstn.
  assert (Hl1 : forall e, In e (e0 :: lb) -> exists r' d' i', in_slot c s3 r' d' i' b /\ e = slot_loc r' d' i').
  { intros e [<-|He].
    - exists r, d, i. split; auto. apply Hsl, s1_slot_b. now left.
    - destruct (Htrue e He) as (r' & d' & i' & Hx & ->). exists r', d', i'. split; auto.
      apply Hsl, s1_slot_b. now right. }
  split; [|split; [|split; [|split]]].
  - constructor.
    + intros r' d' Hr' Hd'. unfold s3. cbn [fset_dict fs_list]. rewrite El. now apply s1_lists.
    + intros b'. destruct (Nat.eq_dec b' b) as [->|Hb].
      * exists (firstn dict_size (e0 :: lb)). split; [unfold s3; cbn; now rewrite upd_same|].
        split; [rewrite firstn_length; unfold dict_size; lia|]. split; [eapply subseq_NoDup; eauto|].
        intros e He. apply Hl1. eapply subseq_In; eauto.
      * destruct (Hother b' Hb) as (l' & E & H1 & H2 & H3). exists l'.
        split; [unfold s3; cbn [fset_dict fs_dict]; rewrite upd_other by auto; exact E|].
        split; [auto|]. split; [auto|]. exact H3.
    + congruence.
  - exact El.
  - unfold s3. cbn [fset_dict fs_dict]. rewrite upd_same. discriminate.
  - intros Eo b' Hb. unfold s3. cbn [fset_dict fs_dict]. rewrite upd_other by auto. now rewrite Hnone.
  - intros b' Hc Hfew. destruct (Nat.eq_dec b' b) as [->|Hb].
    + assert (length (e0 :: lb) <= dict_size) as Hle.
      { destruct Hfew as (L & HL & HinL).
        assert (Hli : lists_ok s3).
        { intros r' d' Hr' Hd'. unfold s3. cbn [fset_dict fs_list]. rewrite El. now apply s1_lists. }
        assert (G : forall ls, NoDup ls -> incl ls (e0 :: lb) ->
          exists ps, length ps = length ls /\ NoDup ps /\ incl ps L /\
            forall p, In p ps -> exists i', i' < n /\ snd p < D /\ In (slot_loc (fst p) (snd p) i') ls).
        { induction ls as [|e ls IH]; intros Hn1 Hi1.
          - exists []. cbn. split; auto. split; [constructor|]. split; [intros x []|intros p []].
          - inversion Hn1; subst. destruct IH as (ps & E1 & E2 & E3 & E4); auto.
            { intros x Hx. apply Hi1. now right. }
            destruct (Hl1 e ltac:(apply Hi1; now left)) as (r' & d' & i' & Hx & ->).
            exists ((r', d') :: ps). cbn. split; [auto|]. split; [|split].
            + constructor; auto. intros Hin. destruct (E4 _ Hin) as (i2 & Hi2 & Hd2 & Hin2). cbn in Hin2.
              destruct (Hl1 _ ltac:(apply Hi1; right; eauto)) as (r3 & d3 & i3 & Hx3 & E5).
              pose proof Hx as (_ & Hd' & Hi' & _). pose proof Hx3 as (_ & Hd3 & Hi3 & _).
              cbn in Hd2. apply slot_loc_inj in E5 as (<- & <- & <-); auto.
              assert (i2 = i') as -> by (eapply slot_unique; eauto). tauto.
            + intros p [<-|Hp]; auto. apply HinL. exists i'. auto.
            + intros p [<-|Hp]; cbn.
              * pose proof Hx as (_ & Hd' & Hi' & _). exists i'. auto.
              * destruct (E4 p Hp) as (i2 & ? & ? & ?). exists i2. auto. }
        destruct (G (e0 :: lb) Hnd1 (incl_refl _)) as (ps & E1 & E2 & E3 & _).
        rewrite <- E1. unfold dict_size. transitivity (length L); auto. now apply NoDup_incl_length. }
      intros r' d' i' Hx. apply Hsl, s1_slot_b in Hx. unfold s3. cbn [fset_dict fs_dict]. rewrite upd_same.
      apply rep_In_iff. rewrite firstn_all2 by auto. destruct Hx as [(-> & -> & ->)|Hx]; [now left|right].
      apply rep_In_iff. rewrite <- Elb. now apply Hc.
    + intros r' d' i' Hx. unfold s3. cbn [fset_dict fs_dict]. rewrite upd_other by auto.
      apply (Hcomp Ht b' Hb Hc). unfold in_slot. rewrite El. now apply Hsl in Hx.
Qed.

(** Without dictionary. *)
Lemma not_added s2 : before_add s2 -> fc_tr c = TNo ->
  finv s2 /\ fs_list s2 = fs_list s1.
Proof.
  intros (El & Hother & Eb & _ & Hno & _) Ht. split; auto. constructor.
  - intros r' d' Hr' Hd'. rewrite El. now apply s1_lists.
  - intros b'. exists []. apply no_entries. rewrite (Hno Ht). now apply (fi_no s Hinv).
  - intros _ b'. rewrite (Hno Ht). now apply (fi_no s Hinv).
Qed.

(** ** The searches *)
Lemma s2_peek s2 r' d' i' : before_add s2 -> r' < P -> d' < D -> (r', d') <> (r, d) ->
  clist_peek (fs_list s2 r' d') b = Some i' <-> in_slot c s r' d' i' b.
Proof.
  intros (El & _) Hr' Hd' Hne. rewrite El. rewrite (peek_slot s1 r' d' b s1_lists Hr' Hd').
  rewrite s1_slot_b. split; [intros [(-> & -> & _)|?]; [congruence|auto]|auto].
Qed.

Lemma fnuma_spec s2 m : before_add s2 -> forall k, k + m = D ->
  match fnuma s2 r d b k m with
  | Some k' => k' <> d /\ holds_block c s r k' b
  | None => forall k', k <= k' < D -> ~ holds_block c s r k' b
  end.
Proof.
  intros Hb. induction m as [|m IH]; intros k Hk; cbn [fnuma].
  - intros. lia.
  - destruct (Nat.eqb_spec k d) as [->|Hkd].
    + specialize (IH (S d) ltac:(lia)). destruct (fnuma _ _ _ _ _ _); auto.
      intros k' Hk'. destruct (Nat.eq_dec k' d) as [->|]; [|apply IH; lia].
      intros (i' & Hx). now apply (own_miss i').
    + destruct (clist_peek (fs_list s2 r k) b) as [j|] eqn:E.
      * split; auto. exists j. apply (s2_peek s2 r k j Hb Hr); auto; [lia|congruence].
      * specialize (IH (S k) ltac:(lia)). destruct (fnuma _ _ _ _ _ _); auto.
        intros k' Hk'. destruct (Nat.eq_dec k' k) as [->|]; [|apply IH; lia].
        intros (i' & Hx). apply (s2_peek s2 r k i' Hb Hr ltac:(lia)) in Hx; congruence.
Qed.

Lemma fserve_spec s2 q m : before_add s2 -> q < P -> forall k, k + m = D ->
  match fserve c s2 q r d b k m with
  | Some off => exists d' j, (q, d') <> (r, d) /\ in_slot c s q d' j b /\ off = j + n * d'
  | None => forall d', k <= d' < D -> (q, d') <> (r, d) -> ~ holds_block c s q d' b
  end.
Proof.
  intros Hb Hq'. induction m as [|m IH]; intros k Hk; cbn [fserve].
  - intros. lia.
  - assert (G : (q, k) <> (r, d) -> clist_peek (fs_list s2 q k) b = None -> ~ holds_block c s q k b).
    { intros Hne E (i' & Hx). apply (s2_peek s2 q k i' Hb Hq' ltac:(lia) Hne) in Hx. congruence. }
    specialize (IH (S k) ltac:(lia)).
    assert (G2 : match fserve c s2 q r d b (S k) m with
      | Some off => exists d' j, (q, d') <> (r, d) /\ in_slot c s q d' j b /\ off = j + n * d'
      | None => ((q, k) <> (r, d) -> ~ holds_block c s q k b) ->
          forall d', k <= d' < D -> (q, d') <> (r, d) -> ~ holds_block c s q d' b
      end).
    { destruct (fserve c s2 q r d b (S k) m); auto. intros Hk0 d' Hd' Hne.
      destruct (Nat.eq_dec d' k) as [->|]; [auto|apply IH; auto; lia]. }
    destruct (clist_peek (fs_list s2 q k) b) as [j|] eqn:E.
    + destruct (Nat.eqb_spec q r) as [->|]; [destruct (Nat.eqb_spec k d) as [->|]|]; cbn [andb].
      * destruct (fserve _ _ _ _ _ _ _ _); auto.
      * exists k, j. split; [congruence|]. split; auto. apply (s2_peek s2 r k j Hb); auto; [lia|congruence].
      * exists k, j. split; [congruence|]. split; auto. apply (s2_peek s2 q k j Hb); auto; [lia|congruence].
    + destruct (fserve _ _ _ _ _ _ _ _); auto.
Qed.

Lemma fask_spec s2 lb rnds : before_add s2 -> entry_true s b lb -> rnds <> [] ->
  exists x, fask c s2 r d b rnds = Ok x /\
    match x with
    | Some (q, off) => exists d' j, (q, d') <> (r, d) /\ in_slot c s q d' j b /\ off = j + n * d'
    | None => lb = []
    end.
Proof.
  intros Hb (Elb & Hlen & Hnd & Htrue) Hr0. destruct rnds as [|x rnds]; [congruence|]. cbn [fask].
  replace (fs_dict s2 b) with (rep lb) by (rewrite <- Elb; symmetry; apply Hb).
  destruct (fetch_rep lb x Hlen) as (e & E & _ & H1 & H2). rewrite E. cbn [obind fst].
  destruct e as [e|].
  - destruct (Htrue e (H2 e eq_refl)) as (r' & d' & i' & Hx & ->).
    pose proof Hx as (Hr' & Hd' & Hi' & _). destruct (slot_loc_div r' d' i' Hd' Hi') as [-> _].
    pose proof (fserve_spec s2 r' D Hb Hr' 0 ltac:(lia)) as Hf.
    destruct (fserve c s2 r' r d b 0 D) as [off|]; [eauto|].
    exfalso. apply (Hf d' ltac:(lia)); [eapply old_other; eauto|exists i'; auto].
  - exists None. split; auto. now apply H1.
Qed.

(** ** The whole read after a miss *)
Definition fill_of (rnds : list nat) : outcome (fstate * source) :=
  do s <- match old with Some ob => fdelete c s1 r (i + n * d) ob | None => Ok s1 end;
  match (if fc_numa c then fnuma s r d b 0 D else None) with
  | Some k => do s <- fadd c s r (i + n * d) b (hd 0 rnds); Ok (s, SNuma k)
  | None =>
      do sx <- fstart c s r d (i + n * d) b rnds;
      do s <- fend c (fst sx) r (i + n * d) b;
      Ok (s, match snd sx with Some (q, o) => SMpi q o | None => SFile end)
  end.

Lemma fill_spec rnds : rnds <> [] ->
  exists s' src, fill_of rnds = Ok (s', src) /\ finv s' /\ fs_list s' = fs_list s1 /\
    src <> SHit /\ source_true c s (r, d, b, rnds) src /\
    (fc_numa c = true -> (forall k, src <> SNuma k) -> forall k, ~ holds_block c s r k b) /\
    (src = SFile -> fs_dict s b = dict_init) /\
    (fc_tr c <> TNo -> fs_dict s' b <> dict_init /\
       (old = None -> forall b', b' <> b -> fs_dict s' b' = fs_dict s b') /\
       (forall b', complete s b' -> few_holders c s' b' -> complete s' b')).
Proof.
  intros Hrnd. destruct del_old as (s2 & E2 & Hb2).
  destruct (fi_dict s Hinv b) as (lb & Hlb). pose proof Hlb as (Elb & Hlen & Hnd & Htrue).
  assert (Eb2 : fs_dict s2 b = rep lb) by (rewrite <- Elb; apply Hb2).
  unfold fill_of. rewrite E2. cbn [obind].
  assert (Hnum : match (if fc_numa c then fnuma s2 r d b 0 D else None) with
    | Some k => k <> d /\ holds_block c s r k b
    | None => fc_numa c = true -> forall k, ~ holds_block c s r k b end).
  { destruct (fc_numa c); [|discriminate]. pose proof (fnuma_spec s2 D Hb2 0 eq_refl) as Hf.
    destruct (fnuma s2 r d b 0 D); auto. intros _ k (j & Hx). apply (Hf k); [|exists j; auto].
    destruct Hx as (_ & ? & _). lia. }
  destruct (if fc_numa c then _ else None) as [k|].
  - (* from another domain *)
    destruct Hnum as [Hk Hhk].
    assert (Hst : source_true c s (r, d, b, rnds) (SNuma k)) by (split; auto).
    unfold fadd. destruct (fc_tr c) eqn:Et.
    + destruct (not_added s2 Hb2 Et) as (Hi2 & El2). exists s2, (SNuma k).
      split; [reflexivity|]. split; [auto|]. split; [auto|]. split; [discriminate|]. split; [auto|].
      split; [intros _ Hx; now destruct (Hx k)|]. split; [discriminate|congruence].
    + rewrite Eb2. destruct (fetch_update_rep lb (hd 0 rnds) (floc c r (i + n * d)) Hlen) as (x & Ex & _).
      rewrite Ex. cbn [obind snd]. assert (Hne : fc_tr c <> TNo) by (rewrite Et; discriminate).
      destruct (added s2 lb Hb2 Hlb Hne) as (H1 & H2 & H3 & H4 & H5).
      eexists _, (SNuma k). split; [reflexivity|]. split; [exact H1|]. split; [exact H2|]. split; [discriminate|].
      split; [auto|]. split; [intros _ Hx; now destruct (Hx k)|]. split; [discriminate|]. intros _.
      split; [exact H3|]. split; [exact H4|exact H5].
    + rewrite Eb2, update_rep by auto. cbn [obind snd]. assert (Hne : fc_tr c <> TNo) by (rewrite Et; discriminate).
      destruct (added s2 lb Hb2 Hlb Hne) as (H1 & H2 & H3 & H4 & H5).
      eexists _, (SNuma k). split; [reflexivity|]. split; [exact H1|]. split; [exact H2|]. split; [discriminate|].
      split; [auto|]. split; [intros _ Hx; now destruct (Hx k)|]. split; [discriminate|]. intros _.
      split; [exact H3|]. split; [exact H4|exact H5].
  - unfold fstart, fend. destruct (fc_tr c) eqn:Et.
    + cbn [obind fst snd]. destruct (not_added s2 Hb2 Et) as (Hi2 & El2). exists s2, SFile.
      split; [reflexivity|]. split; [auto|]. split; [auto|]. split; [discriminate|]. split; [exact Logic.I|].
      split; [auto|]. split; [|congruence]. intros _. now apply (fi_no s Hinv).
    + rewrite Eb2. destruct (fetch_update_rep lb (hd 0 rnds) (floc c r (i + n * d)) Hlen) as (x & Ex & Hx1 & Hx2).
      rewrite Ex. cbn [obind fst snd]. assert (Hne : fc_tr c <> TNo) by (rewrite Et; discriminate).
      destruct (added s2 lb Hb2 Hlb Hne) as (H1 & H2 & H3 & H4 & H5).
      eexists _, _. split; [reflexivity|]. split; [exact H1|]. split; [exact H2|].
      destruct x as [e|]; cbn [source_true].
      * destruct (Htrue e (Hx2 e eq_refl)) as (r' & d' & i' & Hs' & ->).
        pose proof Hs' as (_ & Hd' & Hi' & _). destruct (slot_loc_div r' d' i' Hd' Hi') as [-> ->].
        split; [discriminate|]. split; [exists d', i'; split; [eapply old_other; eauto|auto]|].
        split; [auto|]. split; [discriminate|]. intros _. split; [exact H3|]. split; [exact H4|exact H5].
      * split; [discriminate|]. split; [exact Logic.I|]. split; [auto|]. split.
        -- intros _. rewrite Elb. now rewrite (proj1 Hx1 eq_refl).
        -- intros _. split; [exact H3|]. split; [exact H4|exact H5].
    + destruct (fask_spec s2 lb rnds Hb2 Hlb Hrnd) as (x & Ex & Hx). rewrite Ex. cbn [obind fst snd].
      rewrite Eb2, update_rep by auto. cbn [obind]. assert (Hne : fc_tr c <> TNo) by (rewrite Et; discriminate).
      destruct (added s2 lb Hb2 Hlb Hne) as (H1 & H2 & H3 & H4 & H5).
      eexists _, _. split; [reflexivity|]. split; [exact H1|]. split; [exact H2|].
      destruct x as [[q off]|].
      * split; [discriminate|]. split; [exact Hx|].
        split; [auto|]. split; [discriminate|]. intros _. split; [exact H3|]. split; [exact H4|exact H5].
      * split; [discriminate|]. split; [exact Logic.I|]. split; [auto|]. split.
        -- intros _. rewrite Elb. now rewrite Hx.
        -- intros _. split; [exact H3|]. split; [exact H4|exact H5].
Qed.

End Read.

(** ** One read *)
Lemma fread_spec s q : finv s -> req_ok c q ->
  exists s' src, fread c s q = Ok (s', src) /\ finv s' /\ source_true c s q src /\
    (holds_block c s (req_rank q) (req_dom q) (req_block q) -> src = SHit) /\
    (fc_numa c = true -> src <> SHit -> (forall k, src <> SNuma k) ->
       forall k, ~ holds_block c s (req_rank q) k (req_block q)) /\
    (src = SFile -> fs_dict s (req_block q) = dict_init) /\
    (fc_tr c <> TNo -> forall b', complete s b' -> few_holders c s' b' -> complete s' b').
Proof.
  destruct q as [[[r d] b] rnds]. intros Hinv (Hr & Hd & Hrnd).
  unfold req_rank, req_dom, req_block. cbn [fst snd].
  destruct (fi_lists s Hinv r d Hr Hd) as (t & Hci).
  destruct (clist_request_spec n _ t (fs_list s r d) b Hci) as (l & i & old & t' & E & _ & Hci' & Hi & Hb & Hbi & He).
  assert ((old = Some b /\ c_b2i (fs_list s r d) b = Some i /\ c_i2b l = c_i2b (fs_list s r d)) \/
          (old <> Some b /\ c_b2i (fs_list s r d) b = None)) as [(Ho & Hbs & Hsame)|(Ho & Hbs)].
  { destruct He as [(? & ? & ? & _)|(? & _ & ? & _)]; auto. }
  - (* hit *)
    assert (Hfr : fread c s (r, d, b, rnds) = Ok (fset_list s r d l, SHit)).
    { unfold fread. rewrite E. cbn [obind]. rewrite Ho, Nat.eqb_refl. reflexivity. }
    assert (Hsl : forall r' d' i' b', in_slot c (fset_list s r d l) r' d' i' b' <-> in_slot c s r' d' i' b').
    { intros. unfold in_slot. cbn. destruct (Nat.eqb_spec r' r) as [->|]; [destruct (Nat.eqb_spec d' d) as [->|]|]; cbn;
        [rewrite Hsame|..]; reflexivity. }
    exists (fset_list s r d l), SHit. split; [exact Hfr|]. split.
    { constructor.
      - intros r' d' Hr' Hd'. cbn. destruct (Nat.eqb_spec r' r), (Nat.eqb_spec d' d); cbn;
          try (now apply (fi_lists s Hinv)). eauto.
      - intros b'. destruct (fi_dict s Hinv b') as (l' & E' & H1 & H2 & H3). exists l'.
        split; [exact E'|]. split; [auto|]. split; [auto|]. intros e Hin.
        destruct (H3 e Hin) as (r' & d' & i' & Hx & ->). exists r', d', i'. split; [now apply Hsl|auto].
      - apply (fi_no s Hinv). }
    split; [exists i; now apply (peek_slot s r d b (fi_lists s Hinv) Hr Hd)|].
    split; [auto|]. split; [congruence|]. split; [discriminate|].
    intros _ b' Hc _ r' d' i' Hx. apply Hc. now apply Hsl.
  - destruct (fill_spec s r d b l i old Hinv Hr Hd E Ho rnds Hrnd)
      as (s' & src & Ef & H1 & _ & H3 & H4 & H5 & H6 & H7).
    exists s', src. split; [|split; [exact H1|split; [exact H4|split; [|split; [auto|split; [exact H6|]]]]]].
    + unfold fread. rewrite E. cbn [obind]. unfold fill_of in Ef. destruct old as [ob|]; [|exact Ef].
      destruct (Nat.eqb_spec ob b); [congruence|]. exact Ef.
    + intros (j & Hx). apply (peek_slot s r d b (fi_lists s Hinv) Hr Hd) in Hx. unfold clist_peek in Hx. congruence.
    + intros Ht. apply (H7 Ht).
Qed.

(** ** Histories *)
Lemma finit_spec : exists s0, finit c spread = Ok s0 /\ finv s0 /\
  (forall b, fs_dict s0 b = dict_init) /\ forall r d b, ~ holds_block c s0 r d b.
Proof.
  destruct (clist_init_spec n spread Hn f_spread_ok) as (l & E & H1 & H2 & H3 & _).
  unfold finit. rewrite E. cbn [obind]. eexists. split; [reflexivity|]. split; [|split; [auto|]].
  - constructor.
    + intros r d Hr Hd. exists 0. exact H1.
    + intros b. exists []. now apply no_entries.
    + auto.
  - intros r d b (i & _ & _ & Hi & Hx). cbn in Hx. rewrite H3 in Hx by auto. discriminate.
Qed.

Lemma frun_inv qs : forall s, finv s -> Forall (req_ok c) qs ->
  exists s' outs, frun c s qs = Ok (s', outs) /\ finv s' /\ length outs = length qs.
Proof.
  induction qs as [|q qs IH]; intros s Hi Hq; cbn [frun].
  - exists s, []. auto.
  - apply Forall_cons_iff in Hq as [Hq0 Hq']. destruct (fread_spec s q Hi) as (s1 & src & E & H1 & _); auto.
    rewrite E. cbn [obind fst snd]. destruct (IH s1 H1) as (s2 & outs & E2 & H2 & Hl); auto.
    rewrite E2. cbn [obind fst snd]. exists s2, (src :: outs). cbn. auto.
Qed.

Lemma frun_app qs1 qs2 s : frun c s (qs1 ++ qs2) =
  (do x <- frun c s qs1; do y <- frun c (fst x) qs2; Ok (fst y, snd x ++ snd y)).
Proof.
  revert s. induction qs1 as [|q qs1 IH]; intros s; cbn [frun app].
  - cbn [obind fst snd]. destruct (frun c s qs2) as [[? ?]|]; reflexivity.
  - destruct (fread c s q) as [[s1 src]|]; cbn [obind fst snd]; [|reflexivity]. rewrite IH.
    destruct (frun c s1 qs1) as [[s2 o2]|]; cbn [obind fst snd]; [|reflexivity].
    destruct (frun c s2 qs2) as [[s3 o3]|]; reflexivity.
Qed.

Lemma frun_complete s0 qs b : finv s0 -> complete s0 b -> Forall (req_ok c) qs -> fc_tr c <> TNo ->
  (forall pre post s outs, qs = pre ++ post -> frun c s0 pre = Ok (s, outs) -> few_holders c s b) ->
  forall s outs, frun c s0 qs = Ok (s, outs) -> finv s /\ complete s b.
Proof.
  revert s0. induction qs as [|q qs IH]; intros s0 Hi Hc Hq Ht Hfew s outs E.
  - cbn in E. injection E as <- _. auto.
  - apply Forall_cons_iff in Hq as [Hq0 Hq']. destruct (fread_spec s0 q Hi) as (s1 & src & E1 & H1 & _ & _ & _ & _ & H6); auto.
    cbn [frun] in E. rewrite E1 in E. cbn [obind fst snd] in E.
    destruct (frun c s1 qs) as [[s2 o2]|] eqn:E2; cbn [obind fst snd] in E; [|discriminate]. injection E as <- _.
    apply (IH s1 H1) with (outs := o2); auto.
    + apply H6; auto. apply (Hfew [q] qs s1 [src]); auto. cbn [frun]. rewrite E1. reflexivity.
    + intros pre post s outs' -> E3. apply (Hfew (q :: pre) post s (src :: outs')); auto.
      cbn [frun]. rewrite E1. cbn [obind fst snd]. rewrite E3. reflexivity.
Qed.

(** The source always is what it says; with NUMA transfers nothing is fetched from
    outside of the process while a domain of the process holds it. *)
Lemma source_facts qs q :
  Forall (req_ok c) (qs ++ [q]) ->
  exists s0 s outs s' src, finit c spread = Ok s0 /\ frun c s0 qs = Ok (s, outs) /\
    fread c s q = Ok (s', src) /\ source_true c s q src /\
    (src = SHit <-> holds_block c s (req_rank q) (req_dom q) (req_block q)) /\
    (fc_numa c = true ->
       ((exists r off, src = SMpi r off) \/ src = SFile) ->
       forall k, ~ holds_block c s (req_rank q) k (req_block q)).
Proof.
  intros Hq. apply Forall_app in Hq as [Hqs Hq]. apply Forall_cons_iff in Hq as [Hq0 Hq'].
  destruct finit_spec as (s0 & E0 & Hi0 & _). destruct (frun_inv qs s0 Hi0 Hqs) as (s & outs & E & Hi & _).
  destruct (fread_spec s q Hi) as (s' & src & Er & _ & H4 & H5 & H6 & _); auto.
  exists s0, s, outs, s', src. do 4 (split; [auto|]). split.
  - split; auto. intros ->. exact H4.
  - intros Hnu Hsrc. apply H6; auto; destruct Hsrc as [(? & ? & ->)| ->]; discriminate.
Qed.

(** With a dictionary and never more than four holders of the block. *)
Lemma four_facts qs q :
  fc_tr c <> TNo -> Forall (req_ok c) (qs ++ [q]) ->
  (forall pre post s0 s outs, qs = pre ++ post -> finit c spread = Ok s0 -> frun c s0 pre = Ok (s, outs) ->
     few_holders c s (req_block q)) ->
  exists s0 s outs s' src, finit c spread = Ok s0 /\ frun c s0 qs = Ok (s, outs) /\
    fread c s q = Ok (s', src) /\ source_true c s q src /\
    (src = SFile <-> forall r d, ~ holds_block c s r d (req_block q)).
Proof.
  intros Ht Hq Hfew. apply Forall_app in Hq as [Hqs Hq]. apply Forall_cons_iff in Hq as [Hq0 Hq'].
  destruct finit_spec as (s0 & E0 & Hi0 & Hd0 & Hno).
  destruct (frun_inv qs s0 Hi0 Hqs) as (s & outs & E & Hi & _).
  assert (complete s0 (req_block q)) as Hc0.
  { intros r d i Hx. exfalso. apply (Hno r d (req_block q)). exists i. auto. }
  destruct (frun_complete s0 qs (req_block q) Hi0 Hc0 Hqs Ht) with (s := s) (outs := outs) as (_ & Hc); auto.
  { intros pre post s1 outs1 -> E1. eapply Hfew; eauto. }
  destruct (fread_spec s q Hi) as (s' & src & Er & _ & H4 & _ & _ & H7 & _); auto.
  exists s0, s, outs, s', src. do 4 (split; [auto|]). split.
  - intros Ef r d (i & Hx). specialize (Hc r d i Hx). rewrite (H7 Ef) in Hc.
    apply (rep_In_iff [] _) in Hc. destruct Hc.
  - intros Hnone. destruct src as [|k|r off|]; auto; exfalso.
    + apply (Hnone _ _ H4).
    + apply (Hnone _ _ (proj2 H4)).
    + destruct H4 as (d & i & _ & Hx & _). apply (Hnone r d). exists i. auto.
Qed.

(** Few caches. *)
Lemma few_caches s b : P * D <= 4 -> few_holders c s b.
Proof.
  intros H. exists (list_prod (seq 0 P) (seq 0 D)). split; [rewrite prod_length, !seq_length; lia|].
  intros r d (i & Hr & Hd & _). apply in_prod; apply in_seq; lia.
Qed.

Lemma small_facts qs q :
  fc_tr c <> TNo -> P * D <= 4 -> Forall (req_ok c) (qs ++ [q]) ->
  exists s0 s outs s' src, finit c spread = Ok s0 /\ frun c s0 qs = Ok (s, outs) /\
    fread c s q = Ok (s', src) /\ source_true c s q src /\
    (src = SFile <-> forall r d, ~ holds_block c s r d (req_block q)).
Proof. intros Ht Hsmall Hq. apply four_facts; auto. intros. now apply few_caches. Qed.

(** ** No eviction *)
Definition laps (s : fstate) (seen : nat -> nat -> list nat) : Prop :=
  forall r d, r < P -> d < D -> first_lap n (eff_spread n spread) (seen r d) (fs_list s r d).

(** Every block asked for somewhere has an entry. *)
Definition recorded (s : fstate) (seen : nat -> nat -> list nat) : Prop :=
  forall b, (exists r d, r < P /\ d < D /\ In b (seen r d)) <-> fs_dict s b <> dict_init.

Lemma lap_step s seen q : finv s -> laps s seen -> recorded s seen -> req_ok c q -> fc_tr c <> TNo ->
  (In (req_block q) (seen (req_rank q) (req_dom q)) \/ length (seen (req_rank q) (req_dom q)) < n) ->
  exists s' src seen', fread c s q = Ok (s', src) /\ finv s' /\ laps s' seen' /\ recorded s' seen' /\
    (src = SFile <-> forall r d, r < P -> d < D -> ~ In (req_block q) (seen r d)) /\
    (forall r d b, In b (seen' r d) <-> (r = req_rank q /\ d = req_dom q /\ b = req_block q) \/ In b (seen r d)).
Proof.
  destruct q as [[[r d] b] rnds]. unfold req_rank, req_dom, req_block. cbn [fst snd].
  intros Hinv Hlap Hrec (Hr & Hd & Hrnd) Ht Hfit.
  destruct (first_lap_request n _ (seen r d) (fs_list s r d) b (Hlap r d Hr Hd) Hfit) as (l & i & old & E & H1 & H2).
  destruct (in_dec Nat.eq_dec b (seen r d)) as [Hin|Hin].
  - destruct (H1 Hin) as (Ho & Hl).
    destruct (fread_spec s (r, d, b, rnds) Hinv) as (s' & src & Er & Hi' & _); [split; auto|].
    assert (s' = fset_list s r d l /\ src = SHit) as [Es Esrc].
    { unfold fread in Er. rewrite E in Er. cbn [obind] in Er. rewrite Ho, Nat.eqb_refl in Er. now inversion Er. }
    exists s', src, seen. split; [auto|]. split; [auto|]. split; [|split; [|split]].
    + intros r' d' Hr' Hd'. rewrite Es. cbn. destruct (Nat.eqb_spec r' r) as [->|]; [destruct (Nat.eqb_spec d' d) as [->|]|];
        cbn; auto.
    + rewrite Es. exact Hrec.
    + rewrite Esrc. split; [discriminate|]. intros Hx. now destruct (Hx r d Hr Hd).
    + intros r' d' b'. split; [auto|]. intros [(-> & -> & ->)|?]; auto.
  - destruct (H2 Hin) as (Ho & Hl). subst old.
    destruct (fill_spec s r d b l i None Hinv Hr Hd E ltac:(discriminate) rnds Hrnd)
      as (s' & src & Ef & Hi' & El & Hns & Hsrc & _ & Hfile & Hrest).
    destruct (Hrest Ht) as (Hdb & Hdo & _).
    exists s', src, (fun r' d' => if ((r' =? r) && (d' =? d))%bool then b :: seen r d else seen r' d').
    split; [|split; [auto|split; [|split; [|split]]]].
    + unfold fread. rewrite E. cbn [obind]. exact Ef.
    + intros r' d' Hr' Hd'. rewrite El. cbn.
      destruct (Nat.eqb_spec r' r) as [->|]; [destruct (Nat.eqb_spec d' d) as [->|]|]; cbn; auto.
    + intros b'. destruct (Nat.eq_dec b' b) as [->|Hb].
      * split; [auto|]. intros _. exists r, d. rewrite !Nat.eqb_refl. cbn. auto.
      * rewrite (Hdo eq_refl b' Hb), <- (Hrec b'). split.
        -- intros (r' & d' & Hr' & Hd' & Hx). revert Hx.
           destruct (Nat.eqb_spec r' r) as [->|]; [destruct (Nat.eqb_spec d' d) as [->|]|]; cbn; eauto.
           intros [Hx|Hx]; [congruence|eauto].
        -- intros (r' & d' & Hr' & Hd' & Hx). exists r', d'. split; [auto|]. split; [auto|].
           destruct (Nat.eqb_spec r' r) as [->|]; [destruct (Nat.eqb_spec d' d) as [->|]|]; cbn; auto.
    + split.
      * intros Ef' r' d' Hr' Hd' Hx. apply (proj1 (Hrec b)); [eauto|auto].
      * intros Hx. destruct src as [|k|q off|]; auto; exfalso; [congruence|..].
        -- destruct Hsrc as (_ & (j & Hs')). unfold req_rank, req_block in Hs'. cbn [fst snd] in Hs'.
           pose proof Hs' as (Hr' & Hd' & _).
           apply (Hx r k Hr' Hd'). apply (fl_seen _ _ _ _ (Hlap r k Hr' Hd')).
           apply (peek_slot s r k b (fi_lists s Hinv) Hr' Hd') in Hs'. unfold clist_peek in Hs'. congruence.
        -- destruct Hsrc as (d' & j & _ & Hs' & _). unfold req_block in Hs'. cbn [fst snd] in Hs'.
           pose proof Hs' as (Hr' & Hd' & _).
           apply (Hx q d' Hr' Hd'). apply (fl_seen _ _ _ _ (Hlap q d' Hr' Hd')).
           apply (peek_slot s q d' b (fi_lists s Hinv) Hr' Hd') in Hs'. unfold clist_peek in Hs'. congruence.
    + intros r' d' b'. destruct (Nat.eqb_spec r' r) as [->|]; [destruct (Nat.eqb_spec d' d) as [->|]|]; cbn.
      * split; [intros [<-|?]; auto|intros [(_ & _ & ->)|?]; auto].
      * split; [auto|]. intros [(_ & ? & _)|?]; [congruence|auto].
      * split; [auto|]. intros [(? & _)|?]; [congruence|auto].
Qed.

Lemma asked_In r d b qs : In b (asked r d qs) <->
  exists q, In q qs /\ req_rank q = r /\ req_dom q = d /\ req_block q = b.
Proof.
  unfold asked. rewrite in_map_iff. split.
  - intros (q & E & Hx). apply filter_In in Hx as [Hx H]. apply andb_prop in H as [H1 H2].
    apply Nat.eqb_eq in H1, H2. eauto.
  - intros (q & Hx & <- & <- & E). exists q. split; auto. apply filter_In. split; auto. now rewrite !Nat.eqb_refl.
Qed.

Lemma lap_run qs : forall ps s seen, finv s -> laps s seen -> recorded s seen ->
  Forall (req_ok c) (ps ++ qs) -> fc_tr c <> TNo ->
  (forall r d b, In b (seen r d) <-> In b (asked r d ps)) ->
  (forall r d, length (nodup Nat.eq_dec (asked r d (ps ++ qs))) <= n) ->
  exists s' outs, frun c s qs = Ok (s', outs) /\ length outs = length qs /\
    forall k q, nth_error qs k = Some q ->
      (nth_error outs k = Some SFile <-> ~ In (req_block q) (map req_block (ps ++ firstn k qs))).
Proof.
  induction qs as [|q qs IH]; intros ps s seen Hinv Hlap Hrec Hok Ht Hseen Hfit.
  - exists s, []. cbn. split; [auto|]. split; auto. intros [|k] q; discriminate.
  - assert (Hq0 : req_ok c q) by (apply Forall_app in Hok as [_ Hok]; now inversion Hok).
    assert (Hqr : req_rank q < P /\ req_dom q < D) by (destruct q as [[[? ?] ?] ?]; split; apply Hq0).
    destruct Hqr as [Hqr Hqd].
    destruct (lap_step s seen q Hinv Hlap Hrec Hq0 Ht) as (s1 & src & seen1 & E1 & Hi1 & Hl1 & Hr1 & Hsrc & Hs1).
    { destruct (in_dec Nat.eq_dec (req_block q) (seen (req_rank q) (req_dom q))) as [|Hnin]; [now left|right].
      specialize (Hfit (req_rank q) (req_dom q)).
      assert (length (req_block q :: seen (req_rank q) (req_dom q)) <=
              length (nodup Nat.eq_dec (asked (req_rank q) (req_dom q) (ps ++ q :: qs)))) as Hle.
      { apply NoDup_incl_length.
        - constructor; auto. apply (fl_nodup _ _ _ _ (Hlap _ _ Hqr Hqd)).
        - intros x Hx. apply nodup_In, asked_In. destruct Hx as [<-|Hx].
          + exists q. rewrite in_app_iff. cbn. auto.
          + apply Hseen, asked_In in Hx as (q' & Hx & Hq'). exists q'. rewrite in_app_iff. auto. }
      cbn in Hle. lia. }
    assert (Hpq : ps ++ q :: qs = (ps ++ [q]) ++ qs) by (rewrite <- app_assoc; reflexivity).
    destruct (IH (ps ++ [q]) s1 seen1) as (s2 & outs & E2 & Hlen & Hall); auto.
    + now rewrite <- Hpq.
    + intros r d b. rewrite Hs1, Hseen, !asked_In. split.
      * intros [(-> & -> & ->)|(q' & Hx & Hy)]; [exists q|exists q']; rewrite in_app_iff; cbn; auto.
      * intros (q' & Hx & <- & <- & <-). apply in_app_or in Hx as [Hx|[<-|[]]]; [right; eauto|left; auto].
    + intros r d. rewrite <- Hpq. apply Hfit.
    + exists s2, (src :: outs). cbn [frun]. rewrite E1. cbn [obind fst snd]. rewrite E2. cbn [obind fst snd].
      split; [reflexivity|]. split; [cbn; auto|]. intros [|k] q' Hk; cbn [nth_error firstn] in *.
      * injection Hk as <-. rewrite app_nil_r. split.
        -- intros [= Es]. rewrite Hsrc in Es. intros Hx. apply in_map_iff in Hx as (q' & Eb & Hx).
           assert (req_ok c q') as Hok'.
           { apply Forall_app in Hok as [Hok _]. rewrite Forall_forall in Hok. auto. }
           apply (Es (req_rank q') (req_dom q')); [destruct q' as [[[? ?] ?] ?]; apply Hok'..|].
           apply Hseen, asked_In. exists q'. auto.
        -- intros Hx. f_equal. apply Hsrc. intros r d Hr Hd Hin. apply Hx.
           apply Hseen, asked_In in Hin as (q' & Hin & _ & _ & <-). now apply in_map.
      * rewrite (Hall k q' Hk). rewrite <- app_assoc. reflexivity.
Qed.

(** Every block is fetched from the file once, by whoever asks first. *)
Lemma once_facts qs :
  fc_tr c <> TNo -> Forall (req_ok c) qs ->
  (forall r d, length (nodup Nat.eq_dec (asked r d qs)) <= n) ->
  exists s0 s outs, finit c spread = Ok s0 /\ frun c s0 qs = Ok (s, outs) /\ length outs = length qs /\
    forall k q, nth_error qs k = Some q ->
      (nth_error outs k = Some SFile <-> ~ In (req_block q) (map req_block (firstn k qs))).
Proof.
  intros Ht Hok Hfit. destruct finit_spec as (s0 & E0 & Hi0 & Hd0 & Hno).
  destruct (lap_run qs [] s0 (fun _ _ => [])) as (s & outs & E & Hl & Hall); auto.
  - intros r d Hr Hd. unfold finit in E0.
    destruct (first_lap_init n spread Hn f_spread_ok) as (l & El & Hl). rewrite El in E0.
    cbn [obind] in E0. injection E0 as <-. exact Hl.
  - intros b. split; [intros (r & d & _ & _ & [])|]. intros H. now rewrite Hd0 in H.
  - cbn. tauto.
  - exists s0, s, outs. auto.
Qed.
End Facts.

(** ** More than four caches *)
Definition six (t : transport) : fcfg := FCfg t true 6 1 1.
Definition six_reads : list freq :=
  map (fun rb => (fst rb, 0, snd rb, [0]))
    [(0, 0); (1, 0); (2, 0); (3, 0); (4, 0); (0, 1); (4, 1); (3, 1); (2, 1)].

Lemma five_refuted t : t <> TNo ->
  Forall (req_ok (six t)) (six_reads ++ [(5, 0, 0, [0])]) /\
  exists s0 s outs s', finit (six t) (-1) = Ok s0 /\ frun (six t) s0 six_reads = Ok (s, outs) /\
    fread (six t) s (5, 0, 0, [0]) = Ok (s', SFile) /\ holds_block (six t) s 1 0 0.
Proof.
  intros Ht. split; [repeat constructor; discriminate|].
  destruct (finit (six t) (-1)) as [s0|] eqn:E0; [|discriminate].
  destruct (frun (six t) s0 six_reads) as [[s outs]|] eqn:E.
  2:{ exfalso. injection E0 as <-. destruct t; [congruence|vm_compute in E; discriminate..]. }
  assert (H : exists s', fread (six t) s (5, 0, 0, [0]) = Ok (s', SFile)).
  { destruct t; [congruence|..]; vm_compute in E0; injection E0 as <-; vm_compute in E; injection E as <- <-;
      eexists; vm_compute; reflexivity. }
  assert (H2 : m_at (c_i2b (fs_list s 1 0)) 0 = Some (Some 0)).
  { destruct t; [congruence|..]; vm_compute in E0; injection E0 as <-; vm_compute in E; injection E as <- <-; reflexivity. }
  destruct H as (s' & H). exists s0, s, outs, s'. do 3 (split; [auto|]).
  exists 0. unfold in_slot. cbn [six fc_ranks fc_doms fc_size]. do 3 (split; [lia|]). exact H2.
Qed.
