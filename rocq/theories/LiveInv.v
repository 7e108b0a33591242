(** * The dictionary of the communication threads: what is listed is cached *)
From Verif Require Export LiveModel LiveFacts.
Require Import Bool.

Section Live.
Context {V : Type} (c : cfg V).
Local Notation n := (cf_size c).
Local Notation D := (cf_doms c).
Local Notation K := (cf_cells c).
Local Notation P := (cf_ranks c).
Hypothesis Hwf : wf_cfg c.
Hypothesis Hm : cf_mode c = MThread.

(** Block for which the own slot was added to the dictionary (or the message was sent). *)
Definition pc_adv (x : thr V) : option nat :=
  match t_pc x with
  | PGetBoth _ old | PHave _ old => old
  | PDel _ ob => Some ob
  | PReady _ | PRelease _ _ => Some (req x)
  | _ => None
  end.
Definition adv (s : st V) (b e : nat) : bool :=
  match view c pc_adv s (e_rank c e) (e_dom c e) (e_slot c e) with
  | Some b' => b' =? b
  | None => false
  end.

(** Messages about block [b] in location [e], the youngest first. *)
Definition about (b e : nat) (m : bool * nat * nat) : bool := (snd (fst m) =? b) && (snd m =? e).
Definition kinds (l : list (bool * nat * nat)) (b e : nat) : list bool :=
  map (fun m => fst (fst m)) (filter (about b e) l).

Fixpoint agree (a : bool) (p : list bool) (ls : Prop) : Prop :=
  match p with
  | [] => ls -> a = true
  | x :: p' => a = x /\ agree (negb x) p' ls
  end.

Lemma agree_mono a p (ls ls' : Prop) : (ls' -> ls) -> agree a p ls -> agree a p ls'.
Proof. intros Hl. revert a. induction p as [|x p IH]; cbn; intros a H; [auto|]. destruct H; auto. Qed.

Lemma agree_last a p x (ls ls' : Prop) : (ls' -> x = true) -> agree a (p ++ [x]) ls -> agree a p ls'.
Proof.
  revert a. induction p as [|y p IH]; cbn; intros a Hl H.
  - destruct H as [-> _]. exact Hl.
  - destruct H; auto.
Qed.

Lemma agree_first a p x ls : agree a (p ++ [x]) ls -> ls -> x = false.
Proof.
  revert a. induction p as [|y p IH]; cbn; intros a H Hl; [|destruct H; eauto].
  destruct H as [_ H]. apply H in Hl. now destruct x.
Qed.

Record dsync (s : st V) : Prop := {
  d_nodup : forall b, exists l, s_dict s b = rep l /\ NoDup l;
  d_home : forall r m, In m (s_upd s r) -> cf_home c (snd (fst m)) = r /\ e_rank c (snd m) <> r;
  d_agree : forall b e, e < locations c ->
    agree (adv s b e) (kinds (s_upd s (cf_home c b)) b e) (listed s b e)
}.

Lemma kinds_none s b e : dsync s -> e_rank c e = cf_home c b -> kinds (s_upd s (cf_home c b)) b e = [].
Proof.
  intros Hd Hr. unfold kinds.
  destruct (filter (about b e) (s_upd s (cf_home c b))) as [|m l] eqn:E; auto. exfalso.
  assert (In m (filter (about b e) (s_upd s (cf_home c b)))) as Hin by (rewrite E; now left).
  apply filter_In in Hin as [Hin Ha]. apply (d_home s Hd) in Hin as [_ Hne].
  unfold about in Ha. apply andb_true_iff in Ha as [_ Ha]. apply Nat.eqb_eq in Ha. congruence.
Qed.

(** Operations on an entry. *)
Lemma nodup_add l e x' : NoDup l -> length l <= dict_size -> ~ In e l -> update_block_info (rep l) e = Ok x' ->
  (exists l', x' = rep l' /\ NoDup l') /\ forall e', In (Some e') x' -> e' = e \/ In e' l.
Proof.
  intros Hn Hl He E. rewrite update_rep in E by auto.
  assert (x' = rep (firstn dict_size (e :: l))) as -> by congruence. split.
  - eexists. split; [reflexivity|]. eapply subseq_NoDup; [apply subseq_firstn|]. constructor; auto.
  - intros e' Hin. apply rep_In in Hin. apply (subseq_In _ (e :: l)) in Hin; [|apply subseq_firstn].
    destruct Hin; auto.
Qed.
Lemma nodup_del l e x' : NoDup l -> length l <= dict_size -> delete_block_info (rep l) e = Ok x' ->
  (exists l', x' = rep l' /\ NoDup l') /\ forall e', In (Some e') x' -> e' <> e /\ In e' l.
Proof.
  intros Hn Hl E. rewrite delete_rep in E by auto.
  assert (x' = rep (del_list l e)) as -> by congruence. split.
  - eexists. split; [reflexivity|]. eapply subseq_NoDup; [apply subseq_del|]. auto.
  - intros e' Hin. apply rep_In in Hin. split; [|apply (subseq_In _ l) in Hin; auto; apply subseq_del].
    intros ->. revert Hin. apply del_list_not_In; auto.
Qed.

(** ** Steps of threads *)
Lemma adv_view s t ch s' : inv1 c s -> inv2 c s -> step_thr c s t ch = Some s' ->
  forall r d i, i < n ->
  view c pc_adv s' r d i = view c pc_adv s r d i \/
  r = cf_rank c t /\ d = cf_dom c t /\ pc_own (t_pc (s_thr s t)) = Some i /\ pc_own (t_pc (s_thr s' t)) = Some i /\
  view c pc_adv s r d i = pc_adv (s_thr s t) /\ view c pc_adv s' r d i = pc_adv (s_thr s' t).
Proof.
  intros Hi Hj H r d i Hin.
  pose proof (inv1_thr c Hwf s t ch s' Hi H) as Hi'.
  destruct (Nat.eq_dec r (cf_rank c t)) as [->|Hr]; cycle 1.
  { left. apply (view_thr c Hwf _ s t ch s' Hi H); auto. intros; tauto. }
  destruct (Nat.eq_dec d (cf_dom c t)) as [->|Hd]; cycle 1.
  { left. apply (view_thr c Hwf _ s t ch s' Hi H); auto. intros; tauto. }
  destruct (odec (pc_own (t_pc (s_thr s' t))) (Some i)) as [Eo'|Eo'].
  - destruct (own_before c pc_adv s t ch s' i Hi H Eo') as [Eo|(old & E1 & E2 & E3)].
    + right. repeat (split; auto); apply view_own; auto.
    + left. rewrite E3, (view_own c pc_adv s' t i Hi' Eo'). unfold pc_adv. now rewrite E2.
  - left. destruct (odec (pc_own (t_pc (s_thr s t))) (Some i)) as [Eo|Eo].
    + rewrite (view_own c pc_adv s t i Hi Eo).
      destruct (phys_thr c s t ch s' Hi H (cf_rank c t) (cf_dom c t) i Hin) as [Hph|(old & E1 & _)]; [|rewrite E1 in Eo; discriminate].
      pose proof (j_thr c s Hj t) as (Hp & _). specialize (Hp i Eo).
      assert (view c pc_adv s' (cf_rank c t) (cf_dom c t) i = phys s' (cf_rank c t) (cf_dom c t) i) as Hv'.
      { unfold view. destruct (s_lock s' _) as [[t'|]|] eqn:El; auto. destruct (Nat.eqb_spec (cf_dom c t') (cf_dom c t)); auto.
        destruct (Nat.eq_dec t' t) as [->|Hne].
        - apply (lock_slot c s' t _ _ Hi') in El as (_ & [(i0 & E1 & E2)|(k & j & E1 & E2)]).
          + exfalso. apply (node_off_inj c Hwf) in E2; auto; [|eapply own_lt; eauto]. destruct E2; subst. tauto.
          + exfalso. destruct (for_lt c s' t k j Hi' E1) as (? & ? & ?). apply (node_off_inj c Hwf) in E2; auto. destruct E2. congruence.
        - exfalso. apply (held_own c s t i Hi) in Eo. apply (lock_iff c s' _ _ Hi') in El. cbn in El.
          destruct (frame_thr c Hwf s t ch s' Hi H) as (_ & Ho & _). rewrite Ho in El by auto.
          assert (s_lock s (LSlot (cf_rank c t) (node_off c (cf_dom c t) i)) = Some (Usr t')) by (apply (lock_iff c s _ _ Hi); auto).
          congruence. }
      rewrite Hv', Hph, Hp.
      assert (exists v, t_pc (s_thr s t) = PRelease i v) as [v Er].
      { destruct (s_thr s t) as [p todo dn] eqn:Et. open_step H. rewrite Et in H. cbn [t_pc t_todo t_done] in *.
        repeat break; proj; rewrite upd_eq in Eo'; rewrite ?Et in Eo'; cbn [t_pc pc_own] in *; try congruence.
        injection Eo as ->. eauto. }
      unfold pc_adv; now rewrite Er.
    + apply (view_thr c Hwf _ s t ch s' Hi H); auto. intros i' [E|E] (_ & _ & ->); tauto.
Qed.

Lemma thr_effect s t ch s' : inv1 c s -> step_thr c s t ch = Some s' ->
  let e0 i := loc c (cf_rank c t) (node_off c (cf_dom c t) i) in
  (s_dict s' = s_dict s /\ s_upd s' = s_upd s /\
    forall i, pc_own (t_pc (s_thr s t)) = Some i -> pc_own (t_pc (s_thr s' t)) = Some i ->
      pc_adv (s_thr s' t) = pc_adv (s_thr s t)) \/
  (exists i (add : bool) b s0, pc_own (t_pc (s_thr s t)) = Some i /\ pc_own (t_pc (s_thr s' t)) = Some i /\
     thread_update c s (cf_rank c t) add b (e0 i) = Some s0 /\ s_dict s' = s_dict s0 /\ s_upd s' = s_upd s0 /\
     pc_adv (s_thr s t) = (if add then None else Some b) /\
     pc_adv (s_thr s' t) = (if add then Some b else None)).
Proof.
  intros Hi H e0. pose proof (i_thr c s Hi t) as (_ & _ & _ & Hp).
  destruct (s_thr s t) as [p todo dn] eqn:Et. unfold step_thr in H. rewrite Et in H. cbn [t_pc t_todo t_done] in *.
  destruct todo as [|[b cell] todo]; [discriminate|].
  assert (forall s0 add b0 e, thread_update c s (cf_rank c t) add b0 e = Some s0 -> s_thr s0 = s_thr s) as Hu.
  { intros s0 add b0 e E. unfold thread_update in E. repeat break; reflexivity. }
  destruct p; cbn [t_pc pc_own] in *; rewrite ?Hm in H;
  try (exfalso; destruct Hp; congruence); try (exfalso; congruence).
  all: try match type of H with option_map _ (thread_update _ _ _ ?add ?b0 _) = _ =>
    destruct (thread_update _ _ _ _ _ _) as [s0|] eqn:E; [|discriminate H]; injection H as <-;
    right; exists i, add, b0, s0; cbn [goto set_thr s_thr s_dict s_upd]; rewrite upd_eq, (Hu _ _ _ _ E), Et;
    unfold pc_adv; cbn [t_pc pc_own t_todo req]; repeat (split; [auto; fail|]); auto end.
  all: left; open_step H.
  all: repeat break.
  all: proj.
  all: split; [reflexivity|split; [reflexivity|]].
  all: rewrite ?upd_eq, ?Et; cbn [t_pc pc_own pc_adv t_todo req]; intros i0 Ei Ei'; try discriminate; auto.
  match goal with E : (_ =? _) = true |- _ => apply Nat.eqb_eq in E; now subst end.
Qed.

Lemma own_at t i e : i < n -> e_rank c e = cf_rank c t -> e_dom c e = cf_dom c t -> e_slot c e = i ->
  e = loc c (cf_rank c t) (node_off c (cf_dom c t) i).
Proof. intros Hi <- <- <-. symmetry. apply (e_loc c Hwf). apply (d_pos c Hwf). Qed.

Lemma adv_keep s t ch s' b e : inv1 c s -> inv2 c s -> step_thr c s t ch = Some s' ->
  (forall i, pc_own (t_pc (s_thr s t)) = Some i -> pc_own (t_pc (s_thr s' t)) = Some i ->
    e = loc c (cf_rank c t) (node_off c (cf_dom c t) i) ->
    (pc_adv (s_thr s' t) = Some b <-> pc_adv (s_thr s t) = Some b)) ->
  adv s' b e = adv s b e.
Proof.
  intros Hi Hj H Hk. unfold adv.
  destruct (adv_view s t ch s' Hi Hj H (e_rank c e) (e_dom c e) (e_slot c e) (e_slot_lt c Hwf e)) as [->|(E1 & E2 & E3 & E4 & -> & ->)]; auto.
  specialize (Hk _ E3 E4 (own_at t _ e (e_slot_lt c Hwf e) E1 E2 eq_refl)).
  destruct (pc_adv (s_thr s' t)) as [x|], (pc_adv (s_thr s t)) as [y|]; auto.
  - destruct (Nat.eqb_spec x b) as [->|], (Nat.eqb_spec y b) as [->|]; auto.
    + destruct Hk as [Hk _]. specialize (Hk eq_refl). congruence.
    + destruct Hk as [_ Hk]. specialize (Hk eq_refl). congruence.
  - destruct (Nat.eqb_spec x b) as [->|]; auto. destruct Hk as [Hk _]. specialize (Hk eq_refl). congruence.
  - destruct (Nat.eqb_spec y b) as [->|]; auto. destruct Hk as [_ Hk]. specialize (Hk eq_refl). congruence.
Qed.

Lemma kinds_other m l b e : ~ (snd (fst m) = b /\ snd m = e) -> kinds (m :: l) b e = kinds l b e.
Proof.
  intros H. unfold kinds. cbn [filter]. unfold about at 1.
  destruct (Nat.eqb_spec (snd (fst m)) b), (Nat.eqb_spec (snd m) e); cbn; auto. tauto.
Qed.
Lemma kinds_this m l : kinds (m :: l) (snd (fst m)) (snd m) = fst (fst m) :: kinds l (snd (fst m)) (snd m).
Proof. unfold kinds. cbn [filter]. unfold about at 1. now rewrite !Nat.eqb_refl. Qed.

Lemma dsync_thr s t ch s' : inv1 c s -> inv2 c s -> dsync s -> step_thr c s t ch = Some s' -> dsync s'.
Proof.
  intros Hi Hj Hd H.
  destruct (thr_effect s t ch s' Hi H) as [(Ed & Eu & Ha)|(i & add & b0 & s0 & Eo & Eo' & Et & Ed & Eu & Ea & Ea')].
  - constructor.
    + rewrite Ed. apply Hd.
    + rewrite Eu. apply Hd.
    + intros b e He. unfold listed. rewrite Ed, Eu.
      rewrite (adv_keep s t ch s' b e Hi Hj H); [apply Hd; auto|].
      intros i E1 E2 _. rewrite (Ha i E1 E2). tauto.
  - set (e0 := loc c (cf_rank c t) (node_off c (cf_dom c t) i)) in *. cbn zeta in *.
    assert (i < n) as Hin by (eapply own_lt; eauto).
    destruct (loc_e c (cf_rank c t) (cf_dom c t) i Hin (wc_dom c Hwf t)) as (R1 & R2 & R3). fold e0 in R1, R2, R3.
    assert (e0 < locations c) as He0.
    { apply loc_lt; [apply Hwf|]. apply node_off_lt; [auto|apply Hwf]. }
    assert (adv s b0 e0 = negb add /\ adv s' b0 e0 = add) as [Ab Ab'].
    { unfold adv. rewrite R1, R2, R3, (view_own c _ s t i Hi Eo), (view_own c _ s' t i (inv1_thr c Hwf s t ch s' Hi H) Eo'), Ea, Ea'.
      destruct add; cbn; rewrite ?Nat.eqb_refl; auto. }
    assert (forall b e, ~ (b = b0 /\ e = e0) -> adv s' b e = adv s b e) as Hk.
    { intros b e Hne. apply (adv_keep s t ch s' b e Hi Hj H). intros i1 E1 _ E2.
      rewrite Eo in E1. injection E1 as <-. rewrite Ea, Ea'.
      assert (b <> b0) by tauto. destruct add; split; congruence. }
    assert (forall e, listed s b0 e <-> exists l, s_dict s b0 = rep l /\ In e l) as Hls.
    { intros e. destruct (d_nodup s Hd b0) as (l & El & _). unfold listed. rewrite El. split.
      - intros Hin'. apply rep_In in Hin'. eauto.
      - intros (l' & E & Hin'). rewrite E. now apply rep_In. }
    unfold thread_update in Et. destruct (Nat.eqb_spec (cf_home c b0) (cf_rank c t)) as [Eh|Eh].
    + destruct (d_nodup s Hd b0) as (l & El & Hn). destruct (i_dict c s Hi b0) as (l2 & El2 & Hl2 & _).
      assert (length l <= dict_size) as Hlen by (apply (rep_len l l2); congruence).
      assert (kinds (s_upd s (cf_home c b0)) b0 e0 = []) as Hk0 by (apply kinds_none; auto; congruence).
      pose proof (d_agree s Hd b0 e0 He0) as Hag. rewrite Hk0, Ab in Hag. cbn in Hag.
      assert (exists x, (if add then update_block_info (s_dict s b0) e0 else delete_block_info (s_dict s b0) e0) = Ok x /\
        s0 = set_dict s b0 x) as (x & Ex & ->).
      { destruct (if add then _ else _) as [x|]; [|discriminate]. injection Et as <-. eauto. }
      cbn in Ed, Eu. rewrite El in Ex.
      assert ((exists l', x = rep l' /\ NoDup l') /\
        forall e, In (Some e) x -> (e = e0 -> add = true) /\ (e <> e0 -> In e l)) as [Hx1 Hx2].
      { destruct add.
        - apply nodup_add in Ex as [? Hx]; auto.
          + split; auto. intros e Hin'. split; auto. intros Hne. destruct (Hx e Hin'); tauto.
          + intros Hin'. specialize (Hag (proj2 (Hls e0) (ex_intro _ l (conj El Hin')))). discriminate.
        - apply nodup_del in Ex as [? Hx]; auto. split; auto. intros e Hin'. destruct (Hx e Hin'); tauto. }
      constructor.
      * intros b. rewrite Ed. destruct (Nat.eq_dec b b0) as [->|Hb]; [rewrite upd_eq; auto|rewrite upd_ne by auto; apply Hd].
      * rewrite Eu. apply Hd.
      * intros b e He. rewrite Eu. unfold listed. rewrite Ed.
        destruct (Nat.eq_dec b b0) as [->|Hb].
        -- rewrite upd_eq. destruct (Nat.eq_dec e e0) as [->|Hee].
           ++ rewrite Hk0, Ab'. cbn. intros Hin'. now apply (Hx2 _ Hin').
           ++ rewrite Hk by tauto. apply (agree_mono _ _ (listed s b0 e)); [|apply Hd; auto].
              intros Hin'. apply Hls. exists l. split; auto. now apply (Hx2 _ Hin').
        -- rewrite upd_ne, Hk by tauto. apply Hd; auto.
    + injection Et as <-. cbn in Ed, Eu. constructor.
      * rewrite Ed. apply Hd.
      * intros r m Hin'. rewrite Eu in Hin'. destruct (Nat.eq_dec r (cf_home c b0)) as [->|Hr].
        -- rewrite upd_eq in Hin'. destruct Hin' as [<-|Hin']; [|apply (d_home s Hd); auto]. cbn. split; auto. congruence.
        -- rewrite upd_ne in Hin' by auto. apply (d_home s Hd); auto.
      * intros b e He. rewrite Eu. unfold listed. rewrite Ed.
        destruct (Nat.eq_dec (cf_home c b) (cf_home c b0)) as [Eb|Eb].
        -- rewrite Eb, upd_eq, <- Eb. destruct (Nat.eq_dec b b0) as [->|Hb], (Nat.eq_dec e e0) as [->|Hee].
           2,3,4: rewrite kinds_other, Hk by (cbn; intuition congruence); apply Hd; auto.
           pose proof (kinds_this (add, b0, e0) (s_upd s (cf_home c b0))) as Hkt. cbn [fst snd] in Hkt. rewrite Hkt.
           cbn. split; auto. rewrite <- Ab. apply Hd; auto.
        -- rewrite upd_ne by auto. rewrite Hk by (intros [-> _]; congruence). apply Hd; auto.
Qed.

(** ** Steps of communication threads *)
Lemma filter_all_false {A} f (l : list A) : (forall x, In x l -> f x = false) -> filter f l = [].
Proof.
  induction l as [|a l IH]; cbn; auto. intros H. rewrite (H a (or_introl eq_refl)). apply IH. auto.
Qed.

Lemma kinds_app l l' b e : kinds (l ++ l') b e = kinds l b e ++ kinds l' b e.
Proof. unfold kinds. now rewrite filter_app, map_app. Qed.

Lemma dsync_com s r ch s' : inv1 c s -> inv2 c s -> dsync s -> in_order s (ACom r ch) = true ->
  step_com c s r ch = Some s' -> dsync s'.
Proof.
  intros Hi Hj Hd Ho H.
  assert (forall b e, adv s' b e = adv s b e) as Ha.
  { intros b e. unfold adv. now rewrite (view_com c pc_adv s r ch s' Hi H). }
  assert ((s_dict s' = s_dict s /\ s_upd s' = s_upd s) \/
    exists add b0 e0 x, nth_error (s_upd s r) (ch_src ch) = Some (add, b0, e0) /\
      (if (add : bool) then update_block_info (s_dict s b0) e0 else delete_block_info (s_dict s b0) e0) = Ok x /\
      s_upd s' = upd (s_upd s) r (firstn (ch_src ch) (s_upd s r) ++ skipn (S (ch_src ch)) (s_upd s r)) /\
      s_dict s' = upd (s_dict s) b0 x /\ s_com s r = CIdle /\ exists k, ch_kind ch = S (S k)) as [[Ed Eu]|Hcase].
  { unfold step_com in H. destruct (s_com s r) eqn:Ec; cbn in H.
    1: destruct (ch_kind ch) as [|[|k]] eqn:Ek.
    3:{ right. destruct (nth_error (s_upd s r) (ch_src ch)) as [[[add b0] e0]|] eqn:En; [|discriminate].
        destruct (if add then _ else _) as [x|] eqn:Ex; [|discriminate]. injection H as <-.
        exists add, b0, e0, x. cbn [s_upd s_dict set_upd set_dict]. repeat (split; auto). eauto. }
    all: left; unfold try_lock, acquire in H; repeat break; proj; auto. }
  - constructor.
    + rewrite Ed. apply Hd.
    + rewrite Eu. apply Hd.
    + intros b e He. unfold listed. rewrite Ed, Eu, Ha. apply Hd; auto.
  - destruct Hcase as (add & b0 & e0 & x & En & Ex & Eu & Ed & Ec & k & Ek).
    set (l := s_upd s r) in *. set (p := ch_src ch) in *.
    assert (l = firstn p l ++ (add, b0, e0) :: skipn (S p) l) as El.
    { clear - En. clearbody l p. revert l En. induction p; intros [|y l] En; cbn in *; try discriminate; [congruence|]. f_equal. now apply IHp. }
    assert (In (add, b0, e0) l) as Hin by (rewrite El; apply in_app_iff; right; now left).
    destruct (d_home s Hd r _ Hin) as [Hh Hr]. cbn in Hh, Hr.
    assert (e0 < locations c) as He0.
    { pose proof (i_upd c s Hi r) as Hs. rewrite Forall_forall in Hs. apply (Hs _ Hin). }
    assert (kinds (skipn (S p) l) b0 e0 = []) as Hk0.
    { unfold in_order in Ho. rewrite Ec, Ek in Ho. fold l p in Ho. rewrite En in Ho. rewrite forallb_forall in Ho.
      unfold kinds. rewrite filter_all_false; auto. intros m Hm'. specialize (Ho m Hm').
      apply negb_true_iff, Nat.eqb_neq in Ho. unfold about. destruct (Nat.eqb_spec (snd m) e0) as [E|]; [|apply andb_false_r].
      exfalso. apply Ho. exact E. }
    assert (kinds l b0 e0 = kinds (firstn p l) b0 e0 ++ [add]) as Hkl.
    { rewrite El at 1. rewrite kinds_app. f_equal.
      pose proof (kinds_this (add, b0, e0) (skipn (S p) l)) as E. cbn [fst snd] in E. now rewrite E, Hk0. }
    pose proof (d_agree s Hd b0 e0 He0) as Hag. rewrite Hh in Hag. fold l in Hag. rewrite Hkl in Hag.
    destruct (d_nodup s Hd b0) as (d0 & El0 & Hn). destruct (i_dict c s Hi b0) as (l2 & El2 & Hl2 & _).
    assert (length d0 <= dict_size) as Hlen by (apply (rep_len d0 l2); congruence).
    rewrite El0 in Ex.
    assert (forall e, In e d0 <-> listed s b0 e) as Hls by (intros e; unfold listed; rewrite El0; symmetry; apply rep_In).
    assert ((exists l', x = rep l' /\ NoDup l') /\
        forall e, In (Some e) x -> (e = e0 -> add = true) /\ (e <> e0 -> In e d0)) as [Hx1 Hx2].
    { destruct add.
      - apply nodup_add in Ex as [? Hx]; auto.
        + split; auto. intros e Hin'. split; auto. intros Hne. destruct (Hx e Hin'); tauto.
        + intros Hin'. apply Hls in Hin'. specialize (agree_first _ _ _ _ Hag Hin'). discriminate.
      - apply nodup_del in Ex as [? Hx]; auto. split; auto. intros e Hin'. destruct (Hx e Hin'); tauto. }
    constructor.
    + intros b. rewrite Ed. destruct (Nat.eq_dec b b0) as [->|Hb]; [rewrite upd_eq; auto|rewrite upd_ne by auto; apply Hd].
    + intros r' m Hm'. rewrite Eu in Hm'. destruct (Nat.eq_dec r' r) as [->|Hr'].
      * rewrite upd_eq in Hm'. apply (d_home s Hd). fold l. apply in_app_iff in Hm' as [Hm'|Hm'];
          [eapply in_firstn; eauto|apply (in_skipn (S p)); auto].
      * rewrite upd_ne in Hm' by auto. apply (d_home s Hd); auto.
    + intros b e He. unfold listed. rewrite Ha, Eu, Ed.
      assert (~ (b = b0 /\ e = e0) -> kinds (upd (s_upd s) r (firstn p l ++ skipn (S p) l) (cf_home c b)) b e =
        kinds (s_upd s (cf_home c b)) b e) as Hko.
      { intros Hne. destruct (Nat.eq_dec (cf_home c b) r) as [E|E]; [|now rewrite upd_ne by auto].
        rewrite E, upd_eq. fold l. rewrite El at 3. rewrite !kinds_app. f_equal. symmetry. apply kinds_other. cbn. intuition. }
      destruct (Nat.eq_dec b b0) as [->|Hb].
      * rewrite upd_eq. destruct (Nat.eq_dec e e0) as [->|Hee].
        -- rewrite Hh, upd_eq, kinds_app, Hk0, app_nil_r. eapply agree_last; [|exact Hag].
           intros Hin'. now apply (Hx2 _ Hin').
        -- rewrite Hko by tauto. apply (agree_mono _ _ (listed s b0 e)); [|apply Hd; auto].
           intros Hin'. apply Hls. now apply (Hx2 _ Hin').
      * rewrite Hko, upd_ne by tauto. apply Hd; auto.
Qed.

(** ** Reachable states *)
Definition ordered_reachable (s : st V) : Prop :=
  exists l0 acts, clist_init n (cf_spread c) = Ok l0 /\ ordered_run c (init c l0) acts = Some s.

Lemma ordered_run_run acts : forall s s', ordered_run c s acts = Some s' -> run c s acts = Some s'.
Proof.
  induction acts as [|a acts IH]; cbn; intros s s' H; auto. unfold ordered_step in H.
  destruct (in_order s a); [|discriminate]. destruct (step c s a); [|discriminate]. auto.
Qed.
Lemma ordered_reach s : ordered_reachable s -> reachable c s.
Proof. intros (l0 & acts & E & H). exists l0, acts. split; auto. now apply ordered_run_run. Qed.

Lemma dsync_step s a s' : inv c s -> dsync s -> ordered_step c s a = Some s' -> dsync s'.
Proof.
  intros [Hi Hj] Hd H. unfold ordered_step in H. destruct (in_order s a) eqn:Ho; [|discriminate].
  destruct a as [t ch|r ch]; cbn in H.
  - eapply dsync_thr; eauto.
  - rewrite Hm in H. destruct (r <? P); [|discriminate]. eapply dsync_com; eauto.
Qed.

Hypothesis Hd0 : forall b, cf_dict c b = [].

Lemma dsync_init l0 : (forall i, i < n -> m_at (c_i2b l0) i = Some None) -> dsync (init c l0).
Proof.
  intros Hl. constructor.
  - intros b. exists []. split; [|constructor]. cbn [s_dict init]. now rewrite Hd0.
  - cbn. intros r m [].
  - intros b e He. cbn [s_upd init kinds filter map agree]. unfold listed. cbn [s_dict init]. rewrite Hd0.
    intros Hin. cbn [map app] in Hin. apply repeat_spec in Hin. discriminate.
Qed.

Lemma ordered_dsync s : ordered_reachable s -> inv c s /\ dsync s.
Proof.
  intros (l0 & acts & E & H).
  destruct (inv1_init c Hwf) as (l1 & E1 & Hi & Hb). assert (l1 = l0) as -> by congruence.
  assert (inv c (init c l0)) as H0 by (split; [auto|apply inv2_init; auto]).
  assert (dsync (init c l0)) as H1 by (apply dsync_init; auto).
  revert H0 H1 H. generalize (init c l0). induction acts as [|a acts IH]; cbn; intros s0 H0 H1 H.
  - injection H as <-. auto.
  - destruct (ordered_step c s0 a) as [s1|] eqn:E0; [|discriminate]. apply (IH s1); auto.
    + apply (inv_step c Hwf s0 a s1); auto. unfold ordered_step in E0. destruct (in_order s0 a); [auto|discriminate].
    + eapply dsync_step; eauto.
Qed.
End Live.
