(** * Proofs: how often blocks are loaded *)
From Verif Require Export SoleSpec.

(** ** The first place of an entry *)
Definition vacant (d : dentry) : Prop := dget d 0 = Ok None.

Lemma dset_first d e d' : dset d 0 (Some e) = Ok d' -> ~ vacant d'.
Proof. unfold vacant. destruct d; cbn; [discriminate|]. intros [= <-]. discriminate. Qed.

Lemma update_counted_first d e k d' : update_counted d e k = Ok d' -> ~ vacant d'.
Proof.
  unfold update_counted. destruct (shift_up _ d) as [x|]; cbn [obind]; [apply dset_first|discriminate].
Qed.

Lemma dcount_some d i k m : dcount d i k = Ok m -> forall j, i <= j < m -> exists x, dget d j = Ok (Some x).
Proof.
  revert i. induction k as [|k IH]; intros i; cbn [dcount].
  - intros [= <-] j Hj. lia.
  - destruct (dget d i) as [[x|]|] eqn:E; cbn [obind]; [|intros [= <-]; lia|discriminate].
    intros H j Hj. destruct (Nat.eq_dec j i) as [->|]; [eauto|]. apply (IH (S i) H). lia.
Qed.

Lemma dcount_zero d k : dcount d 0 k = Ok 0 -> 0 < k -> vacant d.
Proof.
  unfold vacant. destruct k as [|k]; [lia|]. cbn [dcount]. destruct (dget d 0) as [[x|]|]; cbn [obind]; auto; [|discriminate].
  intros H _. exfalso. assert (G : forall k i m, dcount d i k = Ok m -> i <= m).
  { clear. induction k as [|k IH]; intros i m; cbn [dcount]; [intros [= <-]; lia|].
    destruct (dget d i) as [[x|]|]; cbn [obind]; [|intros [= <-]; lia|discriminate]. intros H. apply IH in H. lia. }
  apply G in H. lia.
Qed.

Lemma fetch_none d r e x : fetch_and_update d r e = Ok (None, x) -> vacant d.
Proof.
  unfold fetch_and_update, fetch_block_info.
  destruct (dcount d 0 dict_size) as [m|] eqn:E; cbn [obind]; [|discriminate].
  destruct (Nat.eqb_spec m 0) as [->|Hm].
  - intros _. eapply dcount_zero; [exact E|]. unfold dict_size. lia.
  - destruct (dcount_some d 0 dict_size m E (r mod m)) as (y & Ey).
    { pose proof (Nat.mod_upper_bound r m Hm). lia. }
    rewrite Ey. cbn [obind]. destruct (update_counted d e m); discriminate.
Qed.

Lemma fetch_first d r e y x : fetch_and_update d r e = Ok (y, x) -> ~ vacant x.
Proof.
  unfold fetch_and_update. destruct (fetch_block_info d r) as [[z k]|]; cbn [obind]; [|discriminate].
  destruct (update_counted d e k) as [d'|] eqn:E; cbn [obind]; [|discriminate].
  intros [= _ <-]. eapply update_counted_first; eauto.
Qed.

Section Facts.
Context {V : Type} (c : cfg V).
Local Notation n := (cf_size c).

(** What [get] found in the slot. *)
Definition old_of (p : pc V) : option (option nat) :=
  match p with PGetSlot _ o | PGetBoth _ o | PHave _ o => Some o | _ => None end.
Definition deleting (p : pc V) : bool :=
  match p with PDel _ _ | PDelHold _ _ | PDelRel _ _ => true | _ => false end.
(** A miss which may still end in a load. *)
Definition pending (p : pc V) : bool :=
  match p with
  | PGetSlot _ None | PGetBoth _ None | PHave _ None
  | PSearch _ _ | PTryLocked _ _ | PTryMiss _ _ | PTryFound _ _ _ | PStart _ | PStartHold _
  | PAskInfo _ | PWaitInfo _ | PAskBlk _ _ | PSendBlk _ _ | PWaitBlk _ _ | PFill _ => true
  | _ => false
  end.
(** Pending with communication threads only. *)
Definition remote (p : pc V) : bool :=
  match p with PAskInfo _ | PWaitInfo _ | PAskBlk _ _ | PSendBlk _ _ | PWaitBlk _ _ => true | _ => false end.
Definition filling (p : pc V) : bool := match p with PFill _ => true | _ => false end.

(** What a step of thread [t] changes. *)
Record shape (s s' : st V) (t b cell : nat) (todo : list (nat * nat)) (x : thr V) : Prop := {
  sh_thr : s_thr s' = upd (s_thr s) t x;
  sh_todo : t_todo x = (b, cell) :: todo \/ t_todo x = todo /\ t_pc x = PIdle;
  sh_list : s_list s' = s_list s /\ (forall o, old_of (t_pc x) = Some o -> old_of (t_pc (s_thr s t)) = Some o) \/
    exists l i old, clist_request (s_list s (cf_rank c t) (cf_dom c t)) b = Ok (l, i, old) /\
      s_list s' = updp (s_list s) (cf_rank c t) (cf_dom c t) l /\ t_pc x = PGetSlot i old;
  sh_del : deleting (t_pc x) = true -> deleting (t_pc (s_thr s t)) = true \/
    exists ob, old_of (t_pc (s_thr s t)) = Some (Some ob) /\ ob <> b;
  sh_pend : pending (t_pc x) = true -> pending (t_pc (s_thr s t)) = true \/ deleting (t_pc (s_thr s t)) = true \/
    (exists ob, old_of (t_pc (s_thr s t)) = Some (Some ob) /\ ob <> b) \/
    exists l i, clist_request (s_list s (cf_rank c t) (cf_dom c t)) b = Ok (l, i, None) /\
      s_list s' = updp (s_list s) (cf_rank c t) (cf_dom c t) l;
  sh_fill : filling (t_pc (s_thr s t)) = true -> pending (t_pc x) = false;
  sh_rem : cf_mode c = MWin -> remote (t_pc x) = true -> remote (t_pc (s_thr s t)) = true;
  sh_win : cf_mode c = MWin -> filling (t_pc x) = true -> remote (t_pc (s_thr s t)) = true \/ vacant (s_dict s b) /\ ~ vacant (s_dict s' b);
  sh_dict : cf_mode c = MWin -> s_dict s' = s_dict s \/ deleting (t_pc (s_thr s t)) = true \/
    exists e, s_dict s' = upd (s_dict s) b e /\ ~ vacant e
}.

Lemma step_shape s t ch s' : step_thr c s t ch = Some s' ->
  exists b cell todo x, t_todo (s_thr s t) = (b, cell) :: todo /\ shape s s' t b cell todo x.
Proof.
  intros H. destruct (s_thr s t) as [p todo dn] eqn:Et.
  open_step H. rewrite Et in H. cbn [t_pc t_todo t_done] in H.
  destruct todo as [|[b cell] todo]; [discriminate|]. exists b, cell, todo.
  destruct p.
  all: repeat break.
  all: eexists; split; [reflexivity|]; constructor; [reflexivity|..]; rewrite ?Et; cbn [t_pc t_todo s_list s_dict s_thr old_of deleting pending filling remote];
    rewrite ?Et; cbn [t_pc t_todo].
  all: try solve [auto | discriminate | congruence | intros; congruence | left; split; [reflexivity|intros; discriminate]].
  all: try solve [right; eauto 8].
  all: try solve [intros _; right; right; eexists; split; [reflexivity|]; eapply fetch_first; eauto].
  all: try solve [intros _; right; eexists; split; [reflexivity|]; apply Nat.eqb_neq; assumption].
  all: try solve [intros _; right; right; left; eexists; split; [reflexivity|]; apply Nat.eqb_neq; assumption].
  all: try solve [intros _ _; right; rewrite upd_eq; split; [eapply fetch_none; eauto|eapply fetch_first; eauto]].
  all: try solve [intros Ho; right; right; right; destruct o; [discriminate|eauto]].
Qed.

Lemma com_shape s r ch s' : step_com c s r ch = Some s' -> s_thr s' = s_thr s /\ s_list s' = s_list s.
Proof. intros H. open_step H. repeat break. all: auto. Qed.

Hypothesis Hroom : roomy c.

(** ** Nothing is ever replaced *)
Record kept (s : st V) : Prop := {
  k_todo : forall t, incl (t_todo (s_thr s t)) (cf_prog c t);
  k_list : forall r d, exists L h seen, length L <= n /\
    (forall t b cell, cf_rank c t = r -> cf_dom c t = d -> In (b, cell) (cf_prog c t) -> In b L) /\
    first_lap n h seen (s_list s r d) /\ incl seen L;
  k_old : forall t b cell todo ob, t_todo (s_thr s t) = (b, cell) :: todo ->
    old_of (t_pc (s_thr s t)) = Some (Some ob) -> ob = b;
  k_del : forall t, deleting (t_pc (s_thr s t)) = false;
  k_rem : cf_mode c = MWin -> forall t, remote (t_pc (s_thr s t)) = false
}.

Lemma kept_init l0 : 0 < n -> (cf_spread c < Z.of_nat n)%Z -> clist_init n (cf_spread c) = Ok l0 -> kept (init c l0).
Proof.
  intros Hn Hsp E. constructor; try discriminate; cbn; auto.
  - intros t x Hx. exact Hx.
  - intros r d. destruct (Hroom r d) as (L & HL & Hc).
    destruct (first_lap_init n (cf_spread c) Hn) as (l & E' & Hf).
    { unfold eff_spread. destruct (Z.ltb_spec (cf_spread c) 0); [apply Nat.div_lt; lia|lia]. }
    replace l0 with l by congruence. exists L, (eff_spread n (cf_spread c)), []. split; [exact HL|]. split; [exact Hc|]. split; [exact Hf|]. intros x [].
Qed.

(** The request of a thread. *)
Lemma kept_request s t b cell todo : kept s -> t_todo (s_thr s t) = (b, cell) :: todo ->
  exists L h seen l i old, length L <= n /\
    (forall t' b cell, cf_rank c t' = cf_rank c t -> cf_dom c t' = cf_dom c t -> In (b, cell) (cf_prog c t') -> In b L) /\
    clist_request (s_list s (cf_rank c t) (cf_dom c t)) b = Ok (l, i, old) /\
    (forall ob, old = Some ob -> ob = b) /\
    (old = None <-> c_b2i (s_list s (cf_rank c t) (cf_dom c t)) b = None) /\
    first_lap n h seen l /\ incl seen L /\
    (forall b', c_b2i l b' = None <-> c_b2i (s_list s (cf_rank c t) (cf_dom c t)) b' = None /\ b' <> b).
Proof.
  intros [Kt Kl Ko Kd Kr] Et. destruct (Kl (cf_rank c t) (cf_dom c t)) as (L & h & seen & HL & Hc & Hf & Hi).
  assert (HbL : In b L). { apply (Hc t b cell); auto. apply Kt. rewrite Et. now left. }
  assert (Hfit : In b seen \/ length seen < n).
  { destruct (in_dec Nat.eq_dec b seen) as [|Hb]; auto. right.
    assert (length (b :: seen) <= length L) as Hx; [|cbn in Hx; lia].
    apply NoDup_incl_length; [constructor; auto; apply Hf|]. intros x [<-|Hx]; auto. }
  destruct (first_lap_request n h seen _ b Hf Hfit) as (l & i & old & E & Hin & Hout).
  assert (S1 : forall b', c_b2i (s_list s (cf_rank c t) (cf_dom c t)) b' = None <-> ~ In b' seen).
  { intros b'. rewrite (fl_seen _ _ _ _ Hf). destruct (c_b2i _ b'); split; intros; try congruence. exfalso. apply H. congruence. }
  destruct (in_dec Nat.eq_dec b seen) as [Hb|Hb].
  - destruct (Hin Hb) as [-> Hf']. exists L, h, seen, l, i, (Some b).
    assert (S2 : forall b', c_b2i l b' = None <-> ~ In b' seen).
    { intros b'. rewrite (fl_seen _ _ _ _ Hf'). destruct (c_b2i l b'); split; intros; try congruence. exfalso. apply H. congruence. }
    split; [exact HL|]. split; [exact Hc|]. split; [exact E|]. split; [congruence|].
    split; [split; [discriminate|]; intros H; apply S1 in H; tauto|]. split; [exact Hf'|]. split; [exact Hi|].
    intros b'. rewrite S1, S2. split; [|tauto]. intros H. split; auto. congruence.
  - destruct (Hout Hb) as [-> Hf']. exists L, h, (b :: seen), l, i, None.
    assert (S2 : forall b', c_b2i l b' = None <-> ~ In b' (b :: seen)).
    { intros b'. rewrite (fl_seen _ _ _ _ Hf'). destruct (c_b2i l b'); split; intros; try congruence. exfalso. apply H. congruence. }
    split; [exact HL|]. split; [exact Hc|]. split; [exact E|]. split; [discriminate|].
    split; [split; auto; intros _; now apply S1|]. split; [exact Hf'|].
    split; [intros x [<-|Hx]; auto|].
    intros b'. rewrite S1, S2. cbn. intuition.
Qed.

Lemma kept_step s a s' : kept s -> step c s a = Some s' -> kept s'.
Proof.
  intros K. destruct a as [t ch|r ch]; cbn [step].
  - intros H. destruct (step_shape s t ch s' H) as (b & cell & todo & x & Et & Sh).
    destruct (kept_request s t b cell todo K Et) as (L & h & seen & l & i & old & HL & Hc & Er & Ho & Hn & Hf & Hi & Hl).
    destruct K as [Kt Kl Ko Kd Kr]. destruct Sh as [S1 S2 S3 S4 S5 S6 S7 S8 S9].
    constructor.
    + intros t'. rewrite S1. unfold upd. destruct (Nat.eqb_spec t' t) as [->|]; auto.
      intros q Hq. apply Kt. rewrite Et. destruct S2 as [S2|[S2 _]]; rewrite S2 in Hq; auto. now right.
    + intros r d. destruct S3 as [[-> _]|(l' & i' & old' & Er' & -> & _)]; auto.
      destruct (updp_cases (s_list s) (cf_rank c t) (cf_dom c t) l' r d) as [(-> & -> & ->)|[_ ->]]; auto.
      replace l' with l by congruence. exists L, h, seen. auto.
    + intros t' b' cell' todo' ob. rewrite S1. unfold upd. destruct (Nat.eqb_spec t' t) as [->|]; eauto.
      intros Ex Eo. destruct S2 as [S2|[S2 S2']]; [|rewrite S2' in Eo; discriminate].
      rewrite S2 in Ex. injection Ex as <- <- <-.
      destruct S3 as [[_ S3]|(l' & i' & old' & Er' & _ & Ep)].
      * apply S3 in Eo. eauto.
      * rewrite Ep in Eo. injection Eo as ->. apply Ho. congruence.
    + intros t'. rewrite S1. unfold upd. destruct (Nat.eqb_spec t' t) as [->|]; auto.
      destruct (deleting (t_pc x)) eqn:Ed; auto. destruct (S4 eq_refl) as [S|(ob & S & Hne)]; [rewrite Kd in S; discriminate|].
      exfalso. apply Hne. eauto.
    + intros Em t'. rewrite S1. unfold upd. destruct (Nat.eqb_spec t' t) as [->|]; auto.
      destruct (remote (t_pc x)) eqn:Ed; auto. pose proof (S7 Em eq_refl) as Hr. rewrite Kr in Hr; auto.
  - destruct (cf_mode c) eqn:Em; try discriminate. destruct (r <? cf_ranks c); [|discriminate].
    intros H. apply com_shape in H as [H1 H2]. destruct K as [Kt Kl Ko Kd Kr]. constructor; rewrite ?H1, ?H2; auto.
Qed.

(** ** One load over all caches, with windows *)
Definition fills (s : st V) (t b : nat) : Prop :=
  filling (t_pc (s_thr s t)) = true /\ exists cell todo, t_todo (s_thr s t) = (b, cell) :: todo.

Record once_all (s : st V) (b k : nat) : Prop := {
  oa_le : k <= 1;
  oa_vac : vacant (s_dict s b) -> k = 0 /\ forall t, ~ fills s t b;
  oa_one : k = 1 -> forall t, ~ fills s t b;
  oa_same : forall t t', fills s t b -> fills s t' b -> t = t'
}.

Lemma starts_fills s b t ch : starts_load everybody b s (AThr t ch) = true <-> fills s t b.
Proof.
  unfold starts_load, fills, everybody. destruct (t_pc (s_thr s t)); cbn [filling]; try (split; [discriminate|intros [? _]; discriminate]).
  destruct (t_todo (s_thr s t)) as [|[b' cell] todo].
  - split; [discriminate|]. intros (_ & cell & todo & ?). discriminate.
  - cbn [andb]. rewrite Nat.eqb_eq. split; [intros ->; eauto|]. intros (_ & cell' & todo' & [= -> _ _]). auto.
Qed.

Lemma once_all_step s a s' b k : cf_mode c = MWin -> kept s -> once_all s b k -> step c s a = Some s' ->
  once_all s' b (k + if starts_load everybody b s a then 1 else 0).
Proof.
  intros Em K [O1 O2 O3 O4]. destruct a as [t ch|r ch]; cbn [step]; [|rewrite Em; discriminate].
  intros H. destruct (step_shape s t ch s' H) as (b0 & cell & todo & x & Et & Sh).
  destruct Sh as [S1 S2 S3 S4 S5 S6 S7 S8 S9]. specialize (S7 Em). specialize (S8 Em). specialize (S9 Em).
  destruct K as [Kt Kl Ko Kd Kr].
  assert (F : forall t', fills s' t' b -> t' <> t /\ fills s t' b \/ t' = t /\ b = b0 /\ vacant (s_dict s b) /\ ~ vacant (s_dict s' b)).
  { intros t'. unfold fills. rewrite S1. unfold upd. destruct (Nat.eqb_spec t' t) as [->|]; auto.
    intros (Hf & cell' & todo' & Ex). right. destruct S2 as [S2|[_ S2]]; [|rewrite S2 in Hf; discriminate].
    rewrite S2 in Ex. injection Ex as -> _ _. destruct (S8 Hf) as [Hr|Hv]; [rewrite Kr in Hr by auto; discriminate|auto]. }
  assert (Hv : vacant (s_dict s' b) -> vacant (s_dict s b)).
  { destruct S9 as [-> | [Hd | (e & -> & He)]]; auto; [rewrite Kd in Hd; discriminate|].
    unfold upd. destruct (Nat.eqb_spec b b0); auto. tauto. }
  destruct (starts_load everybody b s (AThr t ch)) eqn:Es.
  - apply starts_fills in Es. assert (Hv0 : ~ vacant (s_dict s b)).
    { intros Hx. apply O2 in Hx as [_ Hx]. exact (Hx _ Es). }
    assert (Hk : k = 0). { destruct k as [|[|k]]; auto; [exfalso; exact (O3 eq_refl _ Es)|lia]. }
    assert (N : forall t', ~ fills s' t' b).
    { intros t' Hf. apply F in Hf as [[Hne Hf]|(_ & _ & Hx & _)]; [|tauto]. apply Hne, (O4 t' t); auto. }
    subst k. constructor; auto.
    + intros Hx. apply Hv in Hx. tauto.
    + intros t1 t2 Hf. exfalso. exact (N _ Hf).
  - rewrite Nat.add_0_r. constructor; auto.
    + intros Hx. split; [apply O2; auto|]. intros t' Hf. apply F in Hf as [[_ Hf]|(_ & _ & _ & Hy)]; [|tauto].
      apply Hv, O2 in Hx as [_ Hx]. exact (Hx _ Hf).
    + intros Hk t' Hf. apply F in Hf as [[_ Hf]|(_ & _ & Hx & _)]; [exact (O3 Hk _ Hf)|]. apply O2 in Hx. lia.
    + intros t1 t2 H1 H2. apply F in H1 as [[N1 H1]|(-> & _ & Hx & _)]; apply F in H2 as [[N2 H2]|(-> & _ & Hy & _)]; auto.
      * apply O2 in Hy as [_ Hy]. exfalso. exact (Hy _ H1).
      * apply O2 in Hx as [_ Hx]. exfalso. exact (Hx _ H2).
Qed.

Lemma once_all_run acts : forall s b k, cf_mode c = MWin -> kept s -> once_all s b k -> k + loads c everybody b s acts <= 1.
Proof.
  induction acts as [|a acts IH]; intros s b k Em K O; cbn [loads]; [destruct O; lia|].
  destruct (step c s a) as [s'|] eqn:E.
  - pose proof (IH s' b _ Em (kept_step _ _ _ K E) (once_all_step _ _ _ _ _ Em K O E)). lia.
  - destruct (starts_load everybody b s a) eqn:Es; [|destruct O; lia].
    destruct a as [t ch|]; [|discriminate]. apply starts_fills in Es. destruct O as [O1 _ O3 _].
    destruct k as [|k]; [lia|]. assert (k = 0) by lia. subst k. exfalso. exact (O3 eq_refl _ Es).
Qed.

(** ** One load per cache, in every build *)
Definition misses (s : st V) (r d t b : nat) : Prop :=
  of_cache c r d t = true /\ pending (t_pc (s_thr s t)) = true /\ exists cell todo, t_todo (s_thr s t) = (b, cell) :: todo.

Record once_cache (s : st V) (r d b k : nat) : Prop := {
  oc_le : k <= 1;
  oc_vac : c_b2i (s_list s r d) b = None -> k = 0 /\ forall t, ~ misses s r d t b;
  oc_one : k = 1 -> forall t, ~ misses s r d t b;
  oc_same : forall t t', misses s r d t b -> misses s r d t' b -> t = t'
}.

Lemma starts_misses s r d b t ch : starts_load (of_cache c r d) b s (AThr t ch) = true ->
  misses s r d t b /\ filling (t_pc (s_thr s t)) = true.
Proof.
  unfold starts_load, misses. destruct (t_pc (s_thr s t)); cbn [filling pending]; try discriminate.
  destruct (t_todo (s_thr s t)) as [|[b' cell] todo]; [discriminate|].
  intros H. apply andb_prop in H as [H1 H2]. apply Nat.eqb_eq in H2. subst b'. eauto 8.
Qed.

Lemma once_cache_step s a s' r d b k : kept s -> once_cache s r d b k -> step c s a = Some s' ->
  once_cache s' r d b (k + if starts_load (of_cache c r d) b s a then 1 else 0).
Proof.
  intros K [O1 O2 O3 O4]. destruct a as [t ch|r' ch]; cbn [step].
  2:{ destruct (cf_mode c) eqn:Em; try discriminate. destruct (r' <? cf_ranks c); [|discriminate].
      intros H. apply com_shape in H as [H1 H2]. cbn [starts_load]. rewrite Nat.add_0_r.
      constructor; unfold misses in *; rewrite ?H1, ?H2; auto. }
  intros H. destruct (step_shape s t ch s' H) as (b0 & cell & todo & x & Et & Sh).
  destruct (kept_request s t b0 cell todo K Et) as (L & h & seen & l & i & old & HL & Hc & Er & Ho & Hn & Hf & Hi & Hl).
  destruct Sh as [S1 S2 S3 S4 S5 S6 S7 S8 S9].
  destruct K as [Kt Kl Ko Kd Kr].
  assert (F : forall t', misses s' r d t' b -> (misses s r d t' b /\ (t' = t -> filling (t_pc (s_thr s t)) = false)) \/
    t' = t /\ c_b2i (s_list s r d) b = None /\ c_b2i (s_list s' r d) b <> None).
  { intros t'. unfold misses. rewrite S1. unfold upd. destruct (Nat.eqb_spec t' t) as [->|]; [|intros ?; left; split; [assumption|tauto]].
    intros (Ho' & Hp & cell' & todo' & Ex). destruct S2 as [S2|[_ S2]]; [|rewrite S2 in Hp; discriminate].
    rewrite S2 in Ex. injection Ex as -> _ _.
    destruct (S5 Hp) as [Hq|[Hq|[(ob & Hq & Hne)|(l' & i' & Er' & El)]]].
    - left. split; [repeat split; eauto|]. intros _. destruct (filling (t_pc (s_thr s t))) eqn:Ef; auto. rewrite S6 in Hp; auto.
    - rewrite Kd in Hq. discriminate.
    - exfalso. apply Hne. eauto.
    - right. split; auto. unfold of_cache in Ho'. apply andb_prop in Ho' as [Hr Hd].
      apply Nat.eqb_eq in Hr, Hd. rewrite El, <- Hr, <- Hd, updp_eq. replace old with (@None nat) in * by congruence.
      replace l' with l by congruence. split; [now apply Hn|]. intros Hx. apply Hl in Hx. tauto. }
  assert (Hv : c_b2i (s_list s' r d) b = None -> c_b2i (s_list s r d) b = None).
  { destruct S3 as [[-> _]|(l' & i' & old' & Er' & -> & _)]; auto.
    destruct (updp_cases (s_list s) (cf_rank c t) (cf_dom c t) l' r d) as [(-> & -> & ->)|[_ ->]]; auto.
    replace l' with l by congruence. intros Hx. now apply Hl in Hx. }
  destruct (starts_load (of_cache c r d) b s (AThr t ch)) eqn:Es.
  - apply starts_misses in Es as [Es Efl]. assert (Hv0 : c_b2i (s_list s r d) b <> None).
    { intros Hx. apply O2 in Hx as [_ Hx]. exact (Hx _ Es). }
    assert (Hk : k = 0). { destruct k as [|[|k]]; auto; [exfalso; exact (O3 eq_refl _ Es)|lia]. }
    assert (N : forall t', ~ misses s' r d t' b).
    { intros t' Hm. apply F in Hm as [[Hm Ht]|(_ & Hx & _)]; [|tauto].
      assert (t' = t) by (apply O4; auto). rewrite Ht in Efl; auto. discriminate. }
    subst k. constructor; auto.
    + intros Hx. apply Hv in Hx. tauto.
    + intros t1 t2 Hm. exfalso. exact (N _ Hm).
  - rewrite Nat.add_0_r. constructor; auto.
    + intros Hx. split; [apply O2; auto|]. intros t' Hm. apply F in Hm as [[Hm _]|(_ & _ & Hy)]; [|tauto].
      apply Hv, O2 in Hx as [_ Hx]. exact (Hx _ Hm).
    + intros Hk t' Hm. apply F in Hm as [[Hm _]|(_ & Hx & _)]; [exact (O3 Hk _ Hm)|]. apply O2 in Hx. lia.
    + intros t1 t2 H1 H2. apply F in H1 as [[H1 _]|(-> & Hx & _)]; apply F in H2 as [[H2 _]|(-> & Hy & _)]; auto.
      * apply O2 in Hy as [_ Hy]. exfalso. exact (Hy _ H1).
      * apply O2 in Hx as [_ Hx]. exfalso. exact (Hx _ H2).
Qed.

Lemma once_cache_run acts : forall s r d b k, kept s -> once_cache s r d b k -> k + loads c (of_cache c r d) b s acts <= 1.
Proof.
  induction acts as [|a acts IH]; intros s r d b k K O; cbn [loads]; [destruct O; lia|].
  destruct (step c s a) as [s'|] eqn:E.
  - pose proof (IH s' r d b _ (kept_step _ _ _ K E) (once_cache_step _ _ _ _ _ _ _ K O E)). lia.
  - destruct (starts_load (of_cache c r d) b s a) eqn:Es; [|destruct O; lia].
    destruct a as [t ch|]; [|discriminate]. apply starts_misses in Es as [Es _]. destruct O as [O1 _ O3 _].
    destruct k as [|k]; [lia|]. assert (k = 0) by lia. subst k. exfalso. exact (O3 eq_refl _ Es).
Qed.
End Facts.

Theorem once_win {V} (c : cfg V) : wf_cfg c -> cf_mode c = MWin -> roomy c ->
  forall l0 acts b, clist_init (cf_size c) (cf_spread c) = Ok l0 -> loads c everybody b (init c l0) acts <= 1.
Proof.
  intros W Em R l0 acts b E.
  apply (once_all_run c acts (init c l0) b 0 Em).
  - apply kept_init; auto; apply W.
  - constructor; auto; try discriminate; unfold fills; cbn.
    + intros _. split; auto. intros t [? _]. discriminate.
    + intros t t' [? _]. discriminate.
Qed.

Theorem once_per_cache {V} (c : cfg V) : wf_cfg c -> roomy c ->
  forall l0 acts r d b, clist_init (cf_size c) (cf_spread c) = Ok l0 -> loads c (of_cache c r d) b (init c l0) acts <= 1.
Proof.
  intros W R l0 acts r d b E.
  apply (once_cache_run c acts (init c l0) r d b 0).
  - apply kept_init; auto; apply W.
  - constructor; auto; try discriminate; unfold misses; cbn.
    + intros _. split; auto. intros t (_ & ? & _). discriminate.
    + intros t t' (_ & ? & _). discriminate.
Qed.

(** ** Only one thread at a time loads a block, with windows *)
Theorem sole_loader {V} (c : cfg V) : wf_cfg c -> cf_mode c = MWin ->
  forall s t t' b, reachable c s -> loading s t b -> loading s t' b -> t = t'.
Proof.
  intros W Em s t t' b Hr H1 H2. apply reach_inv in Hr as [[Hl Ht _ _ _ _ _ _] _]; auto.
  assert (G : forall t, loading s t b -> s_lock s (LDict b) = Some (Usr t)).
  { clear - Hl Em. intros t (i & cell & todo & Et & Hp). apply Hl. cbn [held]. unfold thr_locks, req. rewrite Et.
    destruct Hp as [-> | ->]; cbn [pc_own pc_for pc_cm pc_dl pc_msg option_map olist fst app]; rewrite Em; cbn; auto. }
  pose proof (G _ H1). pose proof (G _ H2). congruence.
Qed.

(** ** Two readers of one block *)
Definition pair (m : mode) (ranks doms : nat) : cfg nat :=
  Cfg m ranks doms 2 0 1 (fun t => t mod ranks) (fun t => if ranks =? 1 then t mod doms else 0) (fun _ => 0)
    (fun b x => b + x) (fun _ => []) (fun t => if t <? 2 then [(7, 0)] else []).

Definition usr (t : nat) : @act nat := AThr t (Choice false 0 (fun _ => None) 0 0).
(** Communication thread of rank 0: answer rank 1 ([kind] 0), or treat the first update ([kind] 2). *)
Definition com (kind src : nat) : @act nat := ACom 0 (Choice false 0 (fun _ => None) kind src).

Definition opened (m : mode) (ranks doms : nat) : option (st nat) :=
  match clist_init 2 0 with Ok l0 => Some (init (pair m ranks doms) l0) | Ub => None end.

(** Loads of block 7, and the values read. *)
Definition report (m : mode) (ranks doms : nat) (acts : list act) : option (nat * list (list (nat * nat * option nat)) * list nat) :=
  match opened m ranks doms with
  | Some s0 =>
      match run (pair m ranks doms) s0 acts with
      | Some s => Some (loads (pair m ranks doms) everybody 7 s0 acts, map (fun t => t_done (s_thr s t)) [0; 1],
                        map (fun t => length (t_todo (s_thr s t))) [0; 1])
      | None => None
      end
  | None => None
  end.

Fixpoint alone (t k : nat) : list (@act nat) := match k with 0 => [] | S k' => usr t :: alone t k' end.

Lemma pair_wf m ranks doms : 0 < ranks -> 0 < doms -> wf_cfg (pair m ranks doms).
Proof.
  intros Hr Hd. constructor; cbn [cf_size cf_spread cf_rank cf_dom cf_home cf_dict cf_prog cf_cells cf_ranks cf_doms pair].
  - lia.
  - lia.
  - intros t. apply Nat.mod_upper_bound. lia.
  - intros t. destruct (ranks =? 1); [apply Nat.mod_upper_bound; lia|exact Hd].
  - intros b. exact Hr.
  - intros b. split; [cbn; unfold dict_size; lia|constructor].
  - auto.
  - intros t. destruct (t <? 2); repeat constructor.
Qed.

Lemma pair_roomy m ranks doms : roomy (pair m ranks doms).
Proof.
  intros r d. exists [7]. split; [cbn; lia|]. intros t b cell _ _. cbn. destruct (t <? 2); cbn; [|tauto].
  intros [[= <- _]|[]]. auto.
Qed.
Fixpoint both (k : nat) : list (@act nat) := match k with 0 => [] | S k' => usr 0 :: usr 1 :: both k' end.

Definition race_numa : list act := both 17.
Definition race_thread : list act := alone 0 7 ++ alone 1 9 ++ com 0 1 :: alone 0 6 ++ alone 1 6.
Definition race_win : list act := alone 0 9 ++ alone 1 7 ++ alone 0 5 ++ alone 1 7.

Definition loads_it_twice (c : cfg nat) : Prop :=
  exists l0 s acts, clist_init (cf_size c) (cf_spread c) = Ok l0 /\ run c (init c l0) acts = Some s /\
    loads c everybody 7 (init c l0) acts = 2.

Lemma twice m ranks doms acts :
  option_map (fun x => fst (fst x)) (report m ranks doms acts) = Some 2 -> loads_it_twice (pair m ranks doms).
Proof.
  unfold report, opened. intros H. destruct (clist_init 2 0) as [l0|] eqn:E0; [|discriminate].
  destruct (run (pair m ranks doms) (init (pair m ranks doms) l0) acts) as [s|] eqn:E; [|discriminate].
  cbn [option_map fst] in H. exists l0, s, acts. split; [exact E0|]. split; [exact E|]. congruence.
Qed.

Theorem twice_numa : loads_it_twice (pair MNo 1 2).
Proof. apply (twice MNo 1 2 race_numa). vm_compute. reflexivity. Qed.
Theorem twice_thread : loads_it_twice (pair MThread 2 1).
Proof. apply (twice MThread 2 1 race_thread). vm_compute. reflexivity. Qed.
