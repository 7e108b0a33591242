(** * Proofs: store buffers *)
From Verif Require Export BufSpec ConcFacts.

(** ** The theorem for all programs *)
Section Sim.
Context {A K W L C : Type}.
Variable aeq : A -> A -> bool.
Variable keq : K -> K -> bool.
Hypothesis aeq_ok : forall a b, aeq a b = true <-> a = b.
Hypothesis keq_ok : forall a b, keq a b = true <-> a = b.
Variable prog : nat -> L -> C -> option (instr A K W L).
Variable guard : A -> K.
Local Notation bst := (bst A K W L).
Local Notation sst := (sst A K W L).
Local Notation bview := (BufModel.bview aeq).

Definition pending (b : bst) (t : nat) (a : A) : Prop := In a (map fst (b_buf b t)).

Record like (b : bst) (s : sst) : Prop := {
  lk_lock : b_lock b = m_lock s;
  lk_loc : b_loc b = m_loc s;
  lk_guard : forall t a, pending b t a -> b_lock b (guard a) = Some t;
  lk_buf : forall t a, pending b t a -> m_mem s a = bview (b_buf b t) (b_mem b) a;
  lk_mem : forall a, (forall t, ~ pending b t a) -> m_mem s a = b_mem b a
}.

Lemma aeq_refl (a : A) : aeq a a = true.
Proof. now apply aeq_ok. Qed.
Lemma aeq_ne (a b : A) : a <> b -> aeq a b = false.
Proof. intros H. destruct (aeq a b) eqn:E; auto. apply aeq_ok in E. tauto. Qed.

Lemma bview_ext buf : forall (m m' : A -> W) a, m a = m' a -> bview buf m a = bview buf m' a.
Proof.
  induction buf as [|[a' w] buf IH]; cbn; auto. intros m m' a H. apply IH. destruct (aeq a' a); auto.
Qed.
Lemma bview_put ws : forall (m : A -> W) a, put aeq ws m a = bview ws m a.
Proof. induction ws as [|[a' w] ws IH]; cbn; auto. Qed.
Lemma bview_app b1 b2 : forall (m : A -> W) a, bview (b1 ++ b2) m a = bview b2 (bview b1 m) a.
Proof.
  induction b1 as [|[a' w] b1 IH]; cbn; intros; auto.
Qed.
Lemma bview_not buf : forall (m : A -> W) a, ~ In a (map fst buf) -> bview buf m a = m a.
Proof.
  induction buf as [|[a' w] buf IH]; cbn; auto. intros m a H. rewrite IH by tauto.
  rewrite aeq_ne; auto.
Qed.
Lemma bview_in buf : forall (m m' : A -> W) a, In a (map fst buf) -> bview buf m a = bview buf m' a.
Proof.
  induction buf as [|[a' w] buf IH]; cbn; [tauto|]. intros m m' a H.
  destruct (aeq a' a) eqn:E; [apply bview_ext; now rewrite E|]. apply IH. destruct H; auto. subst. rewrite aeq_refl in E. discriminate.
Qed.

(** A thread which holds the mutex sees the value of the one memory. *)
Lemma like_view b s t a : like b s -> m_lock s (guard a) = Some t -> bview (b_buf b t) (b_mem b) a = m_mem s a.
Proof.
  intros [H1 H2 H3 H4 H5] Hg. destruct (in_dec (fun x y => ltac:(destruct (aeq x y) eqn:E; [left; now apply aeq_ok|right; intros ->; rewrite aeq_refl in E; discriminate])) a (map fst (b_buf b t))) as [Hi|Hi].
  - symmetry. now apply H4.
  - rewrite bview_not by auto. symmetry. apply H5. intros t' Hp. assert (t' = t) by (apply H3 in Hp; congruence). subst. tauto.
Qed.

Lemma like_step b s t ch b' : like b s -> orderly prog guard s -> bstep_thr aeq keq prog b t ch = Some b' ->
  exists s', sstep aeq keq prog s t ch = Some s' /\ like b' s'.
Proof.
  intros Hk Ho H. specialize (Ho t ch). unfold bstep_thr in H. unfold sstep. rewrite (lk_loc _ _ Hk) in H.
  destruct (prog t (m_loc s t) ch) as [[k l|k y no|k l|f]|]; try discriminate.
  - rewrite (lk_lock _ _ Hk) in H. destruct (m_lock s k) eqn:Ek; [discriminate|]. injection H as <-.
    eexists. split; [reflexivity|]. destruct Hk as [H1 H2 H3 H4 H5]. constructor; cbn; auto; try congruence.
    intros t' a Hp. specialize (H3 t' a Hp). unfold updk. destruct (keq (guard a) k) eqn:E; [|congruence].
    apply keq_ok in E. congruence.
  - rewrite (lk_lock _ _ Hk) in H. destruct (m_lock s k) eqn:Ek; injection H as <-; (eexists; split; [reflexivity|]);
      destruct Hk as [H1 H2 H3 H4 H5]; constructor; cbn; auto; try congruence.
    + intros t' a Hp. specialize (H3 t' a Hp). congruence.
    + intros t' a Hp. specialize (H3 t' a Hp). unfold updk. destruct (keq (guard a) k) eqn:E; [|congruence].
      apply keq_ok in E. congruence.
  - destruct (b_buf b t) eqn:Eb; [|discriminate]. injection H as <-. eexists. split; [reflexivity|].
    destruct Hk as [H1 H2 H3 H4 H5]. constructor; cbn; auto; try congruence.
    intros t' a Hp. specialize (H3 t' a Hp). unfold updk. destruct (keq (guard a) k) eqn:E; [|congruence].
    apply keq_ok in E. subst k. unfold pending in Hp. cbn in Hp. assert (t' = t) by congruence. subst. rewrite Eb in Hp. destruct Hp.
  - destruct Ho as [Hr Hw]. rewrite (Hr _ (m_mem s)) in H.
    2:{ intros a Ha. now apply like_view. }
    destruct (f (m_mem s)) as [[ws l]|] eqn:Ef; [|discriminate]. injection H as <-. eexists. split; [reflexivity|].
    specialize (Hw _ _ _ Ef).
    pose proof (fun a => like_view b s t a Hk) as Hv. destruct Hk as [H1 H2 H3 H4 H5]. constructor; cbn; auto; try congruence.
    + intros t' a. unfold pending. cbn. unfold upd. destruct (Nat.eqb_spec t' t) as [->|]; [|intros; now apply H3].
      rewrite map_app, in_app_iff. intros [Hp|Hp]; [now apply H3|]. rewrite H1. now apply Hw.
    + intros t' a. unfold pending. cbn. unfold upd. destruct (Nat.eqb_spec t' t) as [->|Hne].
      * intros Hp. rewrite bview_put, bview_app. apply bview_ext. symmetry. apply Hv. rewrite map_app, in_app_iff in Hp.
        destruct Hp as [Hp|Hp]; [rewrite <- H1; now apply H3|now apply Hw].
      * intros Hp. rewrite bview_put, bview_not; [now apply H4|]. intros Hi. apply Hw in Hi. apply H3 in Hp. congruence.
    + intros a Hp. rewrite bview_put, bview_not.
      * apply H5. intros t' Hq. apply (Hp t'). unfold pending in *. cbn. unfold upd. destruct (Nat.eqb_spec t' t) as [->|]; auto.
        rewrite map_app, in_app_iff. auto.
      * intros Hi. apply (Hp t). unfold pending. cbn. rewrite upd_eq, map_app, in_app_iff. auto.
Qed.

Lemma split_nth {X} (l : list X) i x : nth_error l i = Some x -> l = firstn i l ++ x :: skipn (S i) l.
Proof.
  revert l. induction i as [|i IH]; intros [|y l]; cbn [nth_error]; try discriminate.
  - intros [= ->]. reflexivity.
  - intros H. change (y :: l = y :: (firstn i l ++ x :: skipn (S i) l)). f_equal. now apply IH.
Qed.

Lemma like_commit fifo b s t i b' : like b s -> bcommit aeq fifo b t i = Some b' -> like b' s.
Proof.
  intros Hk. unfold bcommit. destruct (nth_error (b_buf b t) i) as [[a w]|] eqn:En; [|discriminate].
  match goal with |- (if ?x then _ else _) = _ -> _ => destruct x eqn:Ec; [|discriminate] end.
  intros [= <-]. pose proof (split_nth _ _ _ En) as Es. unfold without. set (pre := firstn i (b_buf b t)) in *. set (post := skipn (S i) (b_buf b t)) in *.
  assert (Hpre : ~ In a (map fst pre)).
  { destruct fifo.
    - apply Nat.eqb_eq in Ec. subst i. cbn in *. tauto.
    - apply negb_true_iff in Ec. intros Hin. apply in_map_iff in Hin as ([a' w'] & <- & Hin). cbn in Ec.
      assert (existsb (fun e => aeq (fst e) a') pre = true); [|congruence]. apply existsb_exists. exists (a', w'). split; auto. cbn. apply aeq_refl. }
  clearbody pre post. destruct Hk as [H1 H2 H3 H4 H5].
  assert (Hpa : pending b t a). { unfold pending. rewrite Es, map_app, in_app_iff. cbn. auto. }
  assert (Hsub : forall t' x, pending (BSt (fun x => if aeq a x then w else b_mem b x) (upd (b_buf b) t (pre ++ post)) (b_lock b) (b_loc b)) t' x -> pending b t' x).
  { intros t' x. unfold pending. cbn. unfold upd. destruct (Nat.eqb_spec t' t) as [->|]; auto.
    rewrite Es, !map_app, !in_app_iff. cbn. tauto. }
  assert (Hview : forall x, bview (pre ++ post) (fun x => if aeq a x then w else b_mem b x) x = bview (b_buf b t) (b_mem b) x).
  { intros x. rewrite Es, !bview_app. cbn [BufModel.bview]. apply bview_ext.
    destruct (aeq a x) eqn:E.
    - apply aeq_ok in E. subst x. rewrite bview_not by auto. now rewrite aeq_refl.
    - apply bview_ext. now rewrite E. }
  constructor; cbn [b_lock b_loc b_mem b_buf]; auto.
  - intros t' x Hp. rewrite (H4 t' x (Hsub _ _ Hp)). unfold upd. destruct (Nat.eqb_spec t' t) as [->|Hne]; [now rewrite Hview|].
    apply bview_ext. rewrite aeq_ne; auto. intros <-. apply Hsub, H3 in Hp. apply H3 in Hpa. congruence.
  - intros x Hp. destruct (aeq a x) eqn:E.
    + apply aeq_ok in E. subst x. rewrite (H4 t a Hpa), <- Hview, bview_not; [now rewrite aeq_refl|].
      intros Hi. apply (Hp t). unfold pending. cbn. now rewrite upd_eq.
    + apply H5. intros t' Hq. apply (Hp t'). unfold pending in *. cbn. unfold upd. destruct (Nat.eqb_spec t' t) as [->|]; auto.
      rewrite Es in Hq. rewrite map_app, in_app_iff in *. destruct Hq as [Hq|[Hq|Hq]]; auto.
      cbn in Hq. subst x. rewrite aeq_refl in E. discriminate.
Qed.

Lemma srun_app acts acts' : forall s s', srun aeq keq prog s acts = Some s' ->
  srun aeq keq prog s (acts ++ acts') = srun aeq keq prog s' acts'.
Proof.
  induction acts as [|[t ch] acts IH]; cbn; intros s s' H; [congruence|].
  destruct (sstep aeq keq prog s t ch); [auto|discriminate].
Qed.

Theorem buffers_invisible m0 l0 fifo acts b :
  (forall acts' s, srun aeq keq prog (SSt m0 (fun _ => None) l0) acts' = Some s -> orderly prog guard s) ->
  brun aeq keq prog fifo (BSt m0 (fun _ => []) (fun _ => None) l0) acts = Some b ->
  exists acts' s, srun aeq keq prog (SSt m0 (fun _ => None) l0) acts' = Some s /\ like b s.
Proof.
  intros Ho. set (s0 := SSt m0 (fun _ => None) l0) in *.
  assert (G : forall acts b0 acts0 s, srun aeq keq prog s0 acts0 = Some s -> like b0 s -> brun aeq keq prog fifo b0 acts = Some b ->
    exists acts' s', srun aeq keq prog s0 acts' = Some s' /\ like b s').
  { clear acts. induction acts as [|a acts IH]; cbn [brun]; intros b0 acts0 s Hr Hk H.
    - injection H as <-. eauto.
    - destruct (bstep aeq keq prog fifo b0 a) as [b1|] eqn:Eb; [|discriminate]. destruct a as [t ch|t i]; cbn [bstep] in Eb.
      + destruct (like_step _ _ _ _ _ Hk (Ho _ _ Hr) Eb) as (s1 & Es & Hk1).
        apply (IH b1 (acts0 ++ [(t, ch)]) s1); auto. rewrite (srun_app _ _ _ _ Hr). cbn [srun]. now rewrite Es.
      + apply (IH b1 acts0 s); auto. eapply like_commit; eauto. }
  intros H. refine (G acts _ [] s0 eq_refl _ H). subst s0. constructor; cbn; auto; unfold pending; cbn; tauto.
Qed.
End Sim.

(** ** Reads of a cache *)
Lemma caddr_eq_ok a b : caddr_eq a b = true <-> a = b.
Proof.
  destruct a as [r d|r o x], b as [r' d'|r' o' x']; cbn; try (split; discriminate);
    rewrite ?andb_true_iff, ?Nat.eqb_eq; intuition congruence.
Qed.
Lemma lock_eq_ok a b : lock_eq a b = true <-> a = b.
Proof.
  destruct a, b; cbn; try (split; discriminate); rewrite ?andb_true_iff, ?Nat.eqb_eq; intuition congruence.
Qed.

Section Cache.
Context {V : Type} (c : cfg V).
Hypothesis Hwf : wf_cfg c.
Hypothesis Hno : cf_mode c = MNo.
Local Notation sst := (sst caddr lock (cword V) (thr V)).

Record crel (s : sst) (z : st V) : Prop := {
  cr_loc : m_loc s = s_thr z;
  cr_lock : forall k, s_lock z k = option_map Usr (m_lock s k);
  cr_list : forall r d, m_mem s (AList r d) = WList (s_list z r d);
  cr_data : forall r o x, x < cf_cells c -> m_mem s (ACell r o x) = WCell (s_data z r o x)
}.

Lemma put_stores_list r o f l : forall m r' d', put caddr_eq (map (fun x => (ACell r o x, WCell (V := V) (f x))) l) m (AList r' d') = m (AList r' d').
Proof. induction l as [|x l IH]; cbn; intros; auto. now rewrite IH. Qed.
Lemma put_stores_cell r o f l : forall m r' o' x,
  put caddr_eq (map (fun x => (ACell r o x, WCell (V := V) (f x))) l) m (ACell r' o' x) =
  if ((r =? r') && (o =? o') && existsb (Nat.eqb x) l)%bool then WCell (f x) else m (ACell r' o' x).
Proof.
  induction l as [|y l IH]; cbn [map put existsb]; intros m r' o' x.
  - now rewrite andb_false_r.
  - rewrite IH. cbn [caddr_eq]. destruct (r =? r'), (o =? o'); cbn [andb]; auto.
    rewrite (Nat.eqb_sym y x). destruct (Nat.eqb_spec x y) as [->|]; cbn [orb]; auto. destruct (existsb _ l); auto.
Qed.
Lemma existsb_seq x k : x < k -> existsb (Nat.eqb x) (seq 0 k) = true.
Proof. intros H. apply existsb_exists. exists x. split; [apply in_seq; lia|apply Nat.eqb_refl]. Qed.

Lemma cr_only s z t l : crel s z -> crel (SSt (m_mem s) (m_lock s) (upd (s_thr z) t l)) (set_thr z t l).
Proof. intros [R1 R2 R3 R4]. constructor; cbn; auto. Qed.
Lemma cr_acq s z t k l : crel s z ->
  crel (SSt (m_mem s) (updk lock_eq (m_lock s) k (Some t)) (upd (s_thr z) t l)) (set_thr (set_lock z k (Some (Usr t))) t l).
Proof. intros [R1 R2 R3 R4]. constructor; cbn; auto. intros k'. unfold updk. destruct (lock_eq k' k); auto. Qed.
Lemma cr_rel s z t k l : crel s z ->
  crel (SSt (m_mem s) (updk lock_eq (m_lock s) k None) (upd (s_thr z) t l)) (set_thr (set_lock z k None) t l).
Proof. intros [R1 R2 R3 R4]. constructor; cbn; auto. intros k'. unfold updk. destruct (lock_eq k' k); auto. Qed.
Lemma cr_setl s z t r d w l : crel s z ->
  crel (SSt (put caddr_eq [(AList r d, WList w)] (m_mem s)) (m_lock s) (upd (s_thr z) t l)) (set_thr (set_list z r d w) t l).
Proof.
  intros [R1 R2 R3 R4]. constructor; cbn; auto. intros r' d'. unfold updp.
  rewrite (Nat.eqb_sym r' r), (Nat.eqb_sym d' d). destruct ((r =? r') && (d =? d'))%bool; auto.
Qed.
Lemma cr_setc s z t r o y v l : crel s z -> 
  crel (SSt (put caddr_eq [(ACell r o y, WCell v)] (m_mem s)) (m_lock s) (upd (s_thr z) t l))
       (set_thr (set_data z r o (upd (s_data z r o) y v)) t l).
Proof.
  intros [R1 R2 R3 R4]. constructor; cbn; auto. intros r' o' x Hx. unfold updp, upd.
  rewrite (Nat.eqb_sym r' r), (Nat.eqb_sym o' o).
  destruct (Nat.eqb_spec r r') as [<-|], (Nat.eqb_spec o o') as [<-|]; cbn [andb]; auto.
  rewrite (Nat.eqb_sym x y). destruct (Nat.eqb_spec y x) as [<-|]; auto.
Qed.
Lemma cr_setb s z t r o f l : crel s z ->
  crel (SSt (put caddr_eq (stores c r o f) (m_mem s)) (m_lock s) (upd (s_thr z) t l)) (set_thr (set_data z r o f) t l).
Proof.
  intros [R1 R2 R3 R4]. constructor; cbn; auto; unfold stores.
  - intros. now rewrite put_stores_list.
  - intros r' o' x Hx. rewrite put_stores_cell, existsb_seq by auto. rewrite andb_true_r. unfold updp.
    rewrite (Nat.eqb_sym r' r), (Nat.eqb_sym o' o). destruct ((r =? r') && (o =? o'))%bool; auto.
Qed.

Lemma csim s z t ch s' : crel s z -> inv1 c z -> sstep caddr_eq lock_eq (cprog c) s t ch = Some s' ->
  exists z', step_thr c z t ch = Some z' /\ crel s' z'.
Proof.
  intros R I H. pose proof (i_thr c z I t) as Ht. pose proof R as [R1 R2 R3 R4].
  unfold sstep in H. rewrite R1 in H. unfold cprog in H. unfold step_thr.
  destruct (t_todo (s_thr z t)) as [|[b cell] todo] eqn:Et; [discriminate|].
  assert (Hcell : cell < cf_cells c).
  { destruct Ht as (_ & _ & Hf & _). rewrite Et in Hf. apply Forall_cons_iff in Hf as [Hf _]. exact Hf. }
  clear Ht.
  destruct (t_pc (s_thr z t)) eqn:Ep; try discriminate H.
  - unfold acquire. rewrite R2. destruct (m_lock s _); [discriminate|]. injection H as <-.
    eexists. split; [reflexivity|]. apply cr_acq; auto.
  - rewrite (R3 (cf_rank c t) (cf_dom c t)) in H. destruct (clist_request _ b) as [[[l' i] old]|]; [|discriminate].
    injection H as <-. eexists. split; [reflexivity|]. apply cr_setl; auto.
  - unfold acquire. rewrite R2. destruct (m_lock s _); [discriminate|]. injection H as <-.
    eexists. split; [reflexivity|]. apply cr_acq; auto.
  - injection H as <-. eexists. split; [reflexivity|]. apply cr_rel; auto.
  - destruct old as [ob|]; [destruct (ob =? b)|]; cbn [only] in H; injection H as <-; rewrite ?Hno; (eexists; split; [reflexivity|]);
      apply cr_only; auto.
  - destruct (k <? cf_doms c); [destruct (k =? cf_dom c t)|]; cbn [only] in H; try (injection H as <-; eexists; split; [reflexivity|];
      apply cr_only; auto).
    unfold try_lock, acquire. rewrite R2.
    destruct (ch_fail ch); cbn [only] in H; [injection H as <-; eexists; split; [reflexivity|]; apply cr_only; auto|].
    destruct (m_lock s _); cbn [option_map]; injection H as <-; (eexists; split; [reflexivity|]); [apply cr_only|apply cr_acq]; auto.
  - rewrite (R3 (cf_rank c t) k) in H. destruct (clist_peek _ b); injection H as <-; (eexists; split; [reflexivity|]); apply cr_only; auto.
  - injection H as <-. eexists. split; [reflexivity|]. apply cr_rel; auto.
  - unfold try_lock, acquire. rewrite R2.
    destruct (ch_fail ch); cbn [only] in H; [injection H as <-; eexists; split; [reflexivity|]; apply cr_only; auto|].
    destruct (m_lock s _); cbn [option_map]; injection H as <-; (eexists; split; [reflexivity|]); [apply cr_only|apply cr_acq]; auto.
  - injection H as <-. eexists. split; [reflexivity|]. apply cr_rel; auto.
  - rename c0 into y. destruct (Nat.ltb_spec y (cf_cells c)) as [Hy|]; cbn [only] in H; [rewrite (R4 _ _ y Hy) in H|];
      injection H as <-; (eexists; split; [reflexivity|]); [apply cr_setc|apply cr_only]; auto.
  - injection H as <-. eexists. split; [reflexivity|]. apply cr_rel; auto.
  - cbn [only] in H. injection H as <-. rewrite Hno. eexists. split; [reflexivity|]. apply cr_only; auto.
  - cbn [only] in H. injection H as <-. rewrite Hno. eexists. split; [reflexivity|]. apply cr_only; auto.
  - injection H as <-. eexists. split; [reflexivity|]. apply cr_setb; auto.
  - injection H as <-. eexists. split; [reflexivity|]. apply cr_setb; auto.
  - cbn [only] in H. injection H as <-. rewrite Hno. eexists. split; [reflexivity|]. apply cr_only; auto.
  - rewrite (R4 _ _ cell Hcell) in H. injection H as <-. eexists. split; [reflexivity|]. apply cr_only; auto.
  - injection H as <-. eexists. split; [reflexivity|]. apply cr_rel; auto.
Qed.

(** The mutex of a location. *)
Definition cguard (a : caddr) : lock := match a with AList r d => LCache r d | ACell r o _ => LSlot r o end.

Lemma cr_held s z t k : crel s z -> inv1 c z -> In k (thr_locks c t (s_thr z t)) -> m_lock s k = Some t.
Proof.
  intros R I Hk. assert (H : s_lock z k = Some (Usr t)) by (apply (i_locks c z I); exact Hk).
  rewrite (cr_lock _ _ R) in H. destruct (m_lock s k); cbn in H; congruence.
Qed.

Lemma within_only (x : thr V) p on : within (A := caddr) (W := cword V) (fun _ => Some ([], at_pc x p)) on.
Proof. split; auto. intros m ws l [= <- _] a []. Qed.
Lemma within_stores r o f l (on : caddr -> Prop) : (forall y, on (ACell r o y)) ->
  within (L := thr V) (fun _ => Some (stores c r o f, l)) on.
Proof.
  intros H. split; auto. intros m ws l' [= <- _] a. unfold stores. rewrite map_map. intros Ha.
  apply in_map_iff in Ha as (y & <- & _). apply H.
Qed.

Lemma corderly s z : crel s z -> inv1 c z -> orderly (cprog c) cguard s.
Proof.
  intros R I t ch. pose proof (fun k => cr_held s z t k R I) as Hh. rewrite (cr_loc _ _ R).
  unfold cprog. destruct (t_todo (s_thr z t)) as [|[b cell] todo] eqn:Et; [exact Logic.I|].
  unfold thr_locks in Hh.
  destruct (t_pc (s_thr z t)) eqn:Ep; cbn [pc_own pc_for pc_cm pc_dl pc_msg option_map olist fst snd app] in Hh; try exact Logic.I.
  all: try solve [apply within_only | apply Hh; cbn; auto].
  - assert (Hl : m_lock s (LCache (cf_rank c t) (cf_dom c t)) = Some t) by (apply Hh; cbn; auto). split.
    + intros m m' E. rewrite (E (AList (cf_rank c t) (cf_dom c t)) Hl). reflexivity.
    + intros m ws l. destruct (m _) as [w|]; [|discriminate]. destruct (clist_request w b) as [[[l' i] old]|]; [|discriminate].
      intros [= <- _] a [<-|[]]. exact Hl.
  - destruct old as [ob|]; [destruct (ob =? b)|]; apply within_only.
  - destruct (k <? cf_doms c); [destruct (k =? cf_dom c t); [|destruct (ch_fail ch)]|]; try exact Logic.I; apply within_only.
  - assert (Hl : m_lock s (LCache (cf_rank c t) k) = Some t) by (apply Hh; cbn; auto). split.
    + intros m m' E. rewrite (E (AList (cf_rank c t) k) Hl). reflexivity.
    + intros m ws l. destruct (m _) as [w|]; [|discriminate]. destruct (clist_peek w b); intros [= <- _] a [].
  - destruct (ch_fail ch); [apply within_only|exact Logic.I].
  - destruct (c0 <? cf_cells c); [|apply within_only].
    assert (H1 : m_lock s (LSlot (cf_rank c t) (node_off c (cf_dom c t) i)) = Some t) by (apply Hh; cbn; auto).
    assert (H2 : m_lock s (LSlot (cf_rank c t) (node_off c k j)) = Some t) by (apply Hh; cbn; auto).
    split.
    + intros m m' E. rewrite (E (ACell (cf_rank c t) (node_off c k j) c0) H2). reflexivity.
    + intros m ws l [= <- _] a [<-|[]]. exact H1.
  - apply within_stores. intros y. apply Hh. cbn. auto.
  - apply within_stores. intros y. apply Hh. cbn. auto.
  - assert (H1 : m_lock s (LSlot (cf_rank c t) (node_off c (cf_dom c t) i)) = Some t) by (apply Hh; cbn; auto). split.
    + intros m m' E. rewrite (E (ACell (cf_rank c t) (node_off c (cf_dom c t) i) cell) H1). reflexivity.
    + intros m ws l. destruct (m _); [discriminate|]. intros [= <- _] a [].
Qed.

Lemma crel_init l0 : crel (SSt (b_mem (cbinit c l0)) (fun _ => None) (b_loc (cbinit c l0))) (init c l0).
Proof. constructor; cbn; auto. Qed.

Lemma crel_run l0 acts : clist_init (cf_size c) (cf_spread c) = Ok l0 -> forall s,
  srun caddr_eq lock_eq (cprog c) (SSt (b_mem (cbinit c l0)) (fun _ => None) (b_loc (cbinit c l0))) acts = Some s ->
  exists z, reachable c z /\ crel s z.
Proof.
  intros E. assert (G : forall acts s0 z s, reachable c z -> crel s0 z -> srun caddr_eq lock_eq (cprog c) s0 acts = Some s ->
    exists z', reachable c z' /\ crel s z').
  { clear acts. induction acts as [|[t ch] acts IH]; cbn [srun]; intros s0 z s Hz R H; [injection H as <-; eauto|].
    destruct (sstep caddr_eq lock_eq (cprog c) s0 t ch) as [s1|] eqn:Es; [|discriminate].
    destruct (csim s0 z t ch s1 R) as (z1 & Ez & R1); auto. { apply reach_inv in Hz as [Hz _]; auto. }
    apply (IH s1 z1 s); auto. apply (reach_step c z (AThr t ch) z1); auto. }
  intros s H. refine (G acts _ (init c l0) s _ (crel_init l0) H).
  exists l0, []. auto.
Qed.

(** Every execution with buffers leads to a state of ConcModel.v, seen by the threads. *)
Theorem cache_buffers l0 fifo acts b : clist_init (cf_size c) (cf_spread c) = Ok l0 ->
  brun caddr_eq lock_eq (cprog c) fifo (cbinit c l0) acts = Some b ->
  exists s z, reachable c z /\ crel s z /\ like caddr_eq cguard b s.
Proof.
  intros E H.
  destruct (buffers_invisible caddr_eq lock_eq caddr_eq_ok lock_eq_ok (cprog c) cguard (b_mem (cbinit c l0)) (b_loc (cbinit c l0)) fifo acts b) with (2 := H) as (acts' & s & Hs & Hk).
  - intros acts' s Hs. destruct (crel_run l0 acts' E s Hs) as (z & Hz & R). apply (corderly s z R).
    apply reach_inv in Hz as [Hz _]; auto.
  - destruct (crel_run l0 acts' E s Hs) as (z & Hz & R). eauto.
Qed.

(** The program counters of this transport. *)
Definition plain (p : pc V) : bool :=
  match p with
  | PDel _ _ | PDelHold _ _ | PDelRel _ _ | PAddHold _ | PAddRel _ | PStartHold _ | PXfer _ _ _ | PAskInfo _ | PWaitInfo _
  | PAskBlk _ _ | PSendBlk _ _ | PWaitBlk _ _ => false
  | _ => true
  end.

Lemma plain_step s t ch s' : (forall u, plain (t_pc (m_loc s u)) = true) ->
  sstep caddr_eq lock_eq (cprog c) s t ch = Some s' -> forall u, plain (t_pc (m_loc s' u)) = true.
Proof.
  intros Hp H u. specialize (Hp u). unfold sstep in H.
  assert (G : exists l, m_loc s' = upd (m_loc s) t l /\ plain (t_pc l) = true).
  { unfold cprog, only in H. destruct (t_todo (m_loc s t)) as [|[b cell] todo]; [discriminate|].
    destruct (t_pc (m_loc s t)); try discriminate H;
    repeat match type of H with context [match ?x with _ => _ end] => lazymatch x with context [match _ with _ => _ end] => fail | _ => destruct x; try discriminate H end end;
    injection H as <-; eexists; (split; [reflexivity|]); reflexivity. }
  destruct G as (l & -> & Hl). unfold upd. destruct (u =? t); auto.
Qed.

Lemma csim_back s z t ch z' : crel s z -> inv1 c z -> plain (t_pc (m_loc s t)) = true ->
  step_thr c z t ch = Some z' -> exists s', sstep caddr_eq lock_eq (cprog c) s t ch = Some s'.
Proof.
  intros R I Hp H. pose proof (i_thr c z I t) as Ht. pose proof R as [R1 R2 R3 R4]. rewrite R1 in Hp.
  unfold sstep. rewrite R1. unfold cprog, only. unfold step_thr in H.
  destruct (t_todo (s_thr z t)) as [|[b cell] todo] eqn:Et; [discriminate|].
  assert (Hcell : cell < cf_cells c).
  { destruct Ht as (_ & _ & Hf & _). rewrite Et in Hf. apply Forall_cons_iff in Hf as [Hf _]. exact Hf. }
  clear Ht.
  destruct (t_pc (s_thr z t)) eqn:Ep; try discriminate Hp; try solve [eexists; reflexivity].
  - unfold acquire in H. rewrite R2 in H. destruct (m_lock s _); [discriminate H|]. eexists; reflexivity.
  - rewrite (R3 (cf_rank c t) (cf_dom c t)). destruct (clist_request _ b) as [[[l' i] old]|]; [|discriminate]. eexists; reflexivity.
  - unfold acquire in H. rewrite R2 in H. destruct (m_lock s _); [discriminate H|]. eexists; reflexivity.
  - destruct old as [ob|]; [destruct (ob =? b)|]; eexists; reflexivity.
  - destruct (k <? cf_doms c); [destruct (k =? cf_dom c t); [|destruct (ch_fail ch); [|destruct (m_lock s _)]]|]; eexists; reflexivity.
  - rewrite (R3 (cf_rank c t) k). destruct (clist_peek _ b); eexists; reflexivity.
  - destruct (ch_fail ch); [|destruct (m_lock s _)]; eexists; reflexivity.
  - destruct (_ <? _); eexists; reflexivity.
  - rewrite (R4 _ _ cell Hcell). eexists; reflexivity.
Qed.

Lemma like_back b s t ch s' : like caddr_eq cguard b s -> orderly (cprog c) cguard s -> b_buf b t = [] ->
  sstep caddr_eq lock_eq (cprog c) s t ch = Some s' -> exists b', bstep_thr caddr_eq lock_eq (cprog c) b t ch = Some b'.
Proof.
  intros Hk Ho Hb H. specialize (Ho t ch). pose proof (fun a => like_view caddr_eq caddr_eq_ok (cprog c) cguard b s t a Hk) as Hv.
  unfold sstep in H. unfold bstep_thr. rewrite (lk_loc _ _ _ _ Hk), (lk_lock _ _ _ _ Hk).
  destruct (cprog c t (m_loc s t) ch) as [[k l|k y no|k l|f]|]; try discriminate.
  - destruct (m_lock s k); [discriminate|eauto].
  - destruct (m_lock s k); eauto.
  - rewrite Hb. eauto.
  - destruct Ho as [Hr _]. rewrite (Hr _ (m_mem s)) by auto. destruct (f (m_mem s)) as [[ws l]|]; [eauto|discriminate].
Qed.

Lemma crel_plain l0 acts s :
  srun caddr_eq lock_eq (cprog c) (SSt (b_mem (cbinit c l0)) (fun _ => None) (b_loc (cbinit c l0))) acts = Some s ->
  forall u, plain (t_pc (m_loc s u)) = true.
Proof.
  assert (G : forall acts s0, (forall u, plain (t_pc (m_loc s0 u)) = true) -> srun caddr_eq lock_eq (cprog c) s0 acts = Some s ->
    forall u, plain (t_pc (m_loc s u)) = true).
  { clear acts. induction acts as [|[t ch] acts IH]; cbn [srun]; intros s0 H0 H; [injection H as <-; auto|].
    destruct (sstep caddr_eq lock_eq (cprog c) s0 t ch) as [s1|] eqn:Es; [|discriminate].
    apply (IH s1); auto. eapply plain_step; eauto. }
  apply G. reflexivity.
Qed.

(** With buffers, too, somebody can go on while reads are left. *)
Theorem cache_buffers_go l0 fifo acts b t : clist_init (cf_size c) (cf_spread c) = Ok l0 ->
  brun caddr_eq lock_eq (cprog c) fifo (cbinit c l0) acts = Some b -> t_todo (b_loc b t) <> [] ->
  exists a b', bstep caddr_eq lock_eq (cprog c) fifo b a = Some b'.
Proof.
  intros E H Ht.
  destruct (buffers_invisible caddr_eq lock_eq caddr_eq_ok lock_eq_ok (cprog c) cguard (b_mem (cbinit c l0)) (b_loc (cbinit c l0)) fifo acts b) with (2 := H) as (acts' & s & Hs & Hk).
  - intros acts' s Hs. destruct (crel_run l0 acts' E s Hs) as (z & Hz & R). apply (corderly s z R).
    apply reach_inv in Hz as [Hz _]; auto.
  - pose proof (crel_plain _ _ _ Hs) as Hp. destruct (crel_run l0 acts' E s Hs) as (z & Hz & R).
    assert (Hi : inv1 c z) by (apply reach_inv in Hz as [Hz' _]; auto).
    rewrite (lk_loc _ _ _ _ Hk), (cr_loc _ _ R) in Ht.
    destruct (no_deadlock c Hwf z t Hz Ht) as ([u ch|u ch] & z' & Hstep); cbn [step] in Hstep.
    + destruct (b_buf b u) as [|[a w] buf] eqn:Eb.
      * destruct (csim_back s z u ch z' R Hi (Hp u) Hstep) as (s' & Es).
        destruct (like_back b s u ch s' Hk (corderly s z R Hi) Eb Es) as (b' & Eb'). exists (BRun u ch), b'. exact Eb'.
      * exists (BCommit u 0). cbn [bstep]. unfold bcommit. rewrite Eb. cbn [nth_error firstn existsb]. destruct fifo; cbn [Nat.eqb negb]; eexists; reflexivity.
    + rewrite Hno in Hstep. discriminate.
Qed.
End Cache.

Section CacheValues.
Context {V : Type}.
Theorem buffered_values (f : file V) bl opaque dm0 P D n spread rk dm dict ixs l0 fifo acts b :
  setting MNo f bl P D n spread rk dm dict ixs ->
  let c := readers MNo f bl opaque dm0 P D n spread rk dm dict ixs in
  clist_init n spread = Ok l0 ->
  brun caddr_eq lock_eq (cprog c) fifo (cbinit c l0) acts = Some b ->
  (forall t, exists k,
    map snd (t_done (b_loc b t)) = map (fun ix => Some (Some (f_val f ix))) (firstn k (ixs t)) /\
    length (t_todo (b_loc b t)) = length (ixs t) - k) /\
  (forall t, t_todo (b_loc b t) <> [] -> exists a b', bstep caddr_eq lock_eq (cprog c) fifo b a = Some b').
Proof.
  intros Hs c E H. destruct (readers_wf MNo f bl opaque dm0 P D n spread rk dm dict ixs Hs) as [Hwf _]. split.
  - intros t. destruct (cache_buffers c Hwf eq_refl l0 fifo acts b E H) as (s & z & Hz & R & Hk).
    rewrite (lk_loc _ _ _ _ Hk), (cr_loc _ _ _ R).
    exact (readers_values MNo f bl opaque dm0 P D n spread rk dm dict ixs z Hs Hz t).
  - intros t. apply (cache_buffers_go c Hwf eq_refl l0 fifo acts b t E H).
Qed.
End CacheValues.

(** ** One-time initialisation *)
Section Once.
Variables (w : nat) (val : nat -> nat) (fast fifo : bool).
Local Notation bst := (bst nat unit nat oth).
Local Notation prog := (oprog w val fast).
Local Notation buffer := (list (nat * nat)).

Definition inside (p : opc) : bool := match p with OTest | OFunc _ | OSet | OLeave => true | _ => false end.
Definition covered (m : nat -> nat) (buf : buffer) (j : nat) : Prop := m (S j) = val j \/ In (S j, val j) buf.
Definition unset (m : nat -> nat) (buf : buffer) : Prop := m 0 <> 1 /\ ~ In (0, 1) buf.
Definition entry (e : nat * nat) : Prop := e = (0, 1) \/ exists j, j < w /\ e = (S j, val j).
Definition pcok (m : nat -> nat) (buf : buffer) (p : opc) : Prop :=
  match p with
  | OTest => buf = []
  | OFunc i => i <= w /\ unset m buf /\ forall j, j < i -> covered m buf j
  | OSet => unset m buf /\ forall j, j < w -> covered m buf j
  | OLeave => (m 0 = 1 \/ In (0, 1) buf)
  | OBack => m 0 = 1
  | _ => True
  end.

Record obase (b : bst) : Prop := {
  ob_in : forall t, inside (ot_pc (b_loc b t)) = true <-> b_lock b tt = Some t;
  ob_out : forall t, b_lock b tt <> Some t -> b_buf b t = [];
  ob_ent : forall t e, In e (b_buf b t) -> entry e;
  ob_pc : forall t, pcok (b_mem b) (b_buf b t) (ot_pc (b_loc b t))
}.

Lemma ob_init calls : obase (obinit calls).
Proof. constructor; cbn; intros; auto; try tauto. split; discriminate. Qed.

Lemma in_without {X} i (l : list X) x e : nth_error l i = Some e -> In x l <-> x = e \/ In x (without i l).
Proof.
  intros H. unfold without. rewrite (split_nth l i e H) at 1. rewrite !in_app_iff. cbn. intuition.
Qed.

Definition set1 (e : nat * nat) (m : nat -> nat) : nat -> nat := fun x => if fst e =? x then snd e else m x.
Lemma set1_flag e m : entry e -> m 0 = 1 -> set1 e m 0 = 1.
Proof. intros [->|(j & _ & ->)] H; cbn; auto. Qed.
Lemma set1_data e m j : entry e -> m (S j) = val j -> set1 e m (S j) = val j.
Proof. intros [->|(k & _ & ->)] H; unfold set1; cbn [fst snd]; [exact H|]. destruct (Nat.eqb_spec (S k) (S j)) as [E|]; auto. Qed.

Lemma covered_commit m buf i e j : nth_error buf i = Some e -> entry e -> covered m buf j -> covered (set1 e m) (without i buf) j.
Proof.
  intros En He [H|H].
  - left. now apply set1_data.
  - apply (in_without i _ _ _ En) in H as [<-|H]; [left; unfold set1; cbn; now rewrite Nat.eqb_refl|now right].
Qed.

Lemma pcok_commit m buf i e p : nth_error buf i = Some e -> entry e -> pcok m buf p -> pcok (set1 e m) (without i buf) p.
Proof.
  intros En He. pose proof (nth_error_In _ _ En) as Hin.
  assert (Hu : unset m buf -> unset (set1 e m) (without i buf)).
  { intros [U1 U2]. split; [|intros H; apply U2, (in_without i _ _ _ En); auto].
    destruct He as [->|(k & _ & ->)]; [tauto|exact U1]. }
  destruct p; cbn [pcok]; auto.
  - intros ->. destruct Hin.
  - intros (Hi & U & Hc). split; [auto|split; [auto|]]. intros j Hj. apply covered_commit; auto.
  - intros (U & Hc). split; [auto|]. intros j Hj. apply covered_commit; auto.
  - intros [H|H]; [left; now apply set1_flag|]. apply (in_without i _ _ _ En) in H as [<-|H]; [now left|now right].
  - now apply set1_flag.
Qed.

(** What a commit does. *)
Lemma commit_inv b t i b' : bcommit (L := oth) (K := unit) Nat.eqb fifo b t i = Some b' ->
  exists e, nth_error (b_buf b t) i = Some e /\ (fifo = true -> i = 0) /\
    b' = BSt (set1 e (b_mem b)) (upd (b_buf b) t (without i (b_buf b t))) (b_lock b) (b_loc b).
Proof.
  unfold bcommit. destruct (nth_error (b_buf b t) i) as [[a v]|] eqn:En; [|discriminate].
  match goal with |- (if ?x then _ else _) = _ -> _ => destruct x eqn:Ec; [|discriminate] end.
  intros [= <-]. exists (a, v). repeat split. intros ->. now apply Nat.eqb_eq in Ec.
Qed.

Lemma holder b t e : obase b -> In e (b_buf b t) -> b_lock b tt = Some t.
Proof.
  intros [H1 H2 H3 H4] Hin. destruct (b_lock b tt) as [t'|] eqn:El.
  - destruct (Nat.eq_dec t' t) as [->|Hne]; auto. rewrite (H2 t) in Hin by congruence. destruct Hin.
  - rewrite (H2 t) in Hin by congruence. destruct Hin.
Qed.
Lemma not_holder b t u : obase b -> b_lock b tt = Some t -> u <> t ->
  b_buf b u = [] /\ inside (ot_pc (b_loc b u)) = false.
Proof.
  intros [H1 H2 H3 H4] Hl Hne. split; [apply H2; congruence|].
  destruct (inside (ot_pc (b_loc b u))) eqn:E; auto. apply H1 in E. congruence.
Qed.

Lemma ob_commit b t i b' : obase b -> bcommit Nat.eqb fifo b t i = Some b' -> obase b'.
Proof.
  intros Hb H. apply commit_inv in H as (e & En & _ & ->). pose proof (nth_error_In _ _ En) as Hin.
  pose proof (holder b t e Hb Hin) as Hl. pose proof (ob_ent _ Hb t e Hin) as He.
  pose proof Hb as [H1 H2 H3 H4]. constructor; cbn [b_mem b_buf b_lock b_loc]; auto.
  - intros u Hu. unfold upd. destruct (Nat.eqb_spec u t) as [->|]; [congruence|auto].
  - intros u x. unfold upd. destruct (Nat.eqb_spec u t) as [->|]; [|apply H3]. intros Hx. apply (H3 t). apply (in_without i _ x e En). auto.
  - intros u. unfold upd. destruct (Nat.eqb_spec u t) as [->|Hne]; [now apply pcok_commit|].
    destruct (not_holder b t u Hb Hl Hne) as [Eb Ho]. specialize (H4 u).
    destruct (ot_pc (b_loc b u)); try discriminate Ho; cbn [pcok] in *; auto. now apply set1_flag.
Qed.

Lemma ob_move b t lk l buf' : obase b ->
  (forall u, u <> t -> buf' u = b_buf b u) ->
  (inside (ot_pc l) = true <-> lk tt = Some t) ->
  (forall u, u <> t -> (lk tt = Some u <-> b_lock b tt = Some u)) ->
  (lk tt <> Some t -> buf' t = []) ->
  (forall e, In e (buf' t) -> entry e) ->
  pcok (b_mem b) (buf' t) (ot_pc l) ->
  obase (BSt (b_mem b) buf' lk (upd (b_loc b) t l)).
Proof.
  intros [H1 H2 H3 H4] E1 E2 E3 E4 E5 E6. constructor; cbn [b_mem b_buf b_lock b_loc].
  - intros u. unfold upd. destruct (Nat.eqb_spec u t) as [->|]; auto. rewrite E3 by auto. apply H1.
  - intros u Hu. destruct (Nat.eq_dec u t) as [->|Hne]; auto. rewrite E1 by auto. apply H2. now rewrite <- E3.
  - intros u e. destruct (Nat.eq_dec u t) as [->|Hne]; auto. rewrite E1 by auto. apply H3.
  - intros u. unfold upd. destruct (Nat.eqb_spec u t) as [->|Hne]; auto. rewrite E1 by auto. apply H4.
Qed.

Lemma pcok_app m buf ws p : (forall e, In e ws -> e <> (0, 1)) -> p <> OTest -> pcok m buf p -> pcok m (buf ++ ws) p.
Proof.
  intros Hw Hp. assert (Hu : unset m buf -> unset m (buf ++ ws)).
  { intros [U1 U2]. split; auto. rewrite in_app_iff. intros [H|H]; [tauto|now apply Hw in H]. }
  assert (Hc : forall j, covered m buf j -> covered m (buf ++ ws) j).
  { intros j [H|H]; [now left|right; rewrite in_app_iff; auto]. }
  destruct p; cbn [pcok]; auto; try tauto.
  - intros (? & ? & ?). auto.
  - intros (? & ?). auto.
  - intros [H|H]; [auto|right; rewrite in_app_iff; auto].
Qed.

Lemma ob_step b t ch b' : obase b -> bstep_thr Nat.eqb unit_eq prog b t ch = Some b' -> obase b'.
Proof.
  intros Hb. pose proof Hb as [H1 H2 H3 H4]. unfold bstep_thr, oprog. pose proof (H1 t) as Ht. pose proof (H4 t) as Hp. pose proof (H3 t) as He.
  destruct (ot_pc (b_loc b t)) as [| | |i| | |] eqn:Ep; cbn [inside pcok] in *.
  - destruct (ot_left (b_loc b t)); [discriminate|]. intros [= <-]. assert (Hn : b_lock b tt <> Some t) by (intros H; apply Ht in H; discriminate).
    rewrite (H2 t Hn), app_nil_r. cbn [bview].
    apply ob_move; auto; rewrite ?upd_eq; auto; try (intros; now rewrite upd_ne by auto); try tauto.
    + cbn [ot_at ot_pc]. destruct (fast && _)%bool; cbn; tauto.
    + intros e [].
    + cbn [ot_at ot_pc]. destruct (fast && _)%bool eqn:Ef; cbn; auto. apply andb_true_iff in Ef as [_ Ef]. now apply Nat.eqb_eq.
  - destruct (b_lock b tt) eqn:El; [discriminate|]. intros [= <-]. assert (Hn : b_lock b tt <> Some t) by congruence.
    apply ob_move; auto; unfold updk, unit_eq; cbn; rewrite ?El; try tauto; try congruence.
    + intros u Hu. split; congruence.
    + apply H2. congruence.
  - intros [= <-]. rewrite Hp. rewrite app_nil_r. cbn [bview].
    apply ob_move; auto; rewrite ?upd_eq; auto; try (intros; now rewrite upd_ne by auto); try tauto.
    + cbn [ot_at ot_pc]. destruct (_ =? 1); cbn; tauto.
    + intros e [].
    + cbn [ot_at ot_pc]. destruct (Nat.eqb_spec (b_mem b 0) 1) as [Ef|Ef]; cbn [pcok]; auto.
      split; [lia|]. split; [split; auto|]. intros; lia.
  - destruct Hp as (Hi & U & Hc). destruct (Nat.ltb_spec i w) as [Hlt|Hge]; intros [= <-].
    + apply ob_move; auto; rewrite ?upd_eq; auto; try (intros; now rewrite upd_ne by auto); try tauto.
      * intros e. rewrite in_app_iff. cbn. intros [H|[<-|[]]]; auto. right. eauto.
      * cbn [ot_at ot_pc pcok]. split; [lia|].
        assert (P : pcok (b_mem b) (b_buf b t ++ [(S i, val i)]) (OFunc i)).
        { apply pcok_app; [|discriminate|cbn; auto]. intros e [<-|[]]. discriminate. }
        destruct P as (_ & P1 & P2). split; auto. intros j Hj. destruct (Nat.eq_dec j i) as [->|].
        -- right. rewrite in_app_iff. cbn. auto.
        -- apply P2. lia.
    + apply ob_move; auto; rewrite ?upd_eq; rewrite ?app_nil_r; auto; try (intros; now rewrite upd_ne by auto); try tauto.
      cbn [ot_at ot_pc pcok]. split; auto. intros j Hj. apply Hc. lia.
  - destruct Hp as (U & Hc). intros [= <-].
    apply ob_move; auto; rewrite ?upd_eq; auto; try (intros; now rewrite upd_ne by auto); try tauto.
    + intros e. rewrite in_app_iff. cbn. intros [H|[<-|[]]]; auto. now left.
    + cbn [ot_at ot_pc pcok]. right. rewrite in_app_iff. cbn. auto.
  - destruct (b_buf b t) eqn:Eb; [|discriminate]. intros [= <-]. destruct Hp as [Hp|[]].
    apply ob_move; auto; unfold updk, unit_eq; cbn; rewrite ?Eb; try tauto; try congruence.
    + split; discriminate.
    + intros u Hu. assert (b_lock b tt = Some t) by tauto. split; congruence.
  - assert (Hn : b_lock b tt <> Some t) by (intros H; apply Ht in H; discriminate).
    destruct (ch <? w); intros [= <-]; rewrite (H2 t Hn); cbn [app].
    + apply ob_move; auto; rewrite ?upd_eq; auto; try (intros; now rewrite upd_ne by auto); try tauto.
      intros e [].
    + apply ob_move; auto; rewrite ?upd_eq; auto; try (intros; now rewrite upd_ne by auto); try tauto.
      all: cbn; tauto.
Qed.

Lemma ob_bstep b a b' : obase b -> bstep Nat.eqb unit_eq prog fifo b a = Some b' -> obase b'.
Proof. destruct a; cbn [bstep]; intros; [eapply ob_step|eapply ob_commit]; eauto. Qed.

Lemma ob_run acts : forall b b', obase b -> brun Nat.eqb unit_eq prog fifo b acts = Some b' -> obase b'.
Proof.
  induction acts as [|a acts IH]; cbn [brun]; intros b b' Hb H; [now injection H as <-|].
  destruct (bstep Nat.eqb unit_eq prog fifo b a) as [b1|] eqn:E; [|discriminate]. apply (IH b1); auto. eapply ob_bstep; eauto.
Qed.

(** The function has started. *)
Definition begun (b : bst) : Prop :=
  b_mem b 0 = 1 \/ exists t, match ot_pc (b_loc b t) with OFunc _ | OSet => True | _ => In (0, 1) (b_buf b t) end.

Lemma begun_commit b t i b' : obase b -> begun b -> bcommit Nat.eqb fifo b t i = Some b' -> begun b'.
Proof.
  intros Hb Hg H. apply commit_inv in H as (e & En & _ & ->). pose proof (nth_error_In _ _ En) as Hin.
  pose proof (ob_ent _ Hb t e Hin) as He. destruct Hg as [Hm|(u & Hu)]; [left; now apply set1_flag|].
  cbn [b_mem b_buf b_loc].
  assert (G : In (0, 1) (b_buf b u) -> set1 e (b_mem b) 0 = 1 \/ In (0, 1) (upd (b_buf b) t (without i (b_buf b t)) u)).
  { unfold upd. destruct (Nat.eqb_spec u t) as [->|]; auto. intros H. apply (in_without i _ _ _ En) in H as [<-|H]; auto. }
  unfold begun. cbn [b_mem b_buf b_loc].
  destruct (ot_pc (b_loc b u)) eqn:Ep; try (destruct (G Hu); [now left|right; exists u; now rewrite Ep]);
    right; exists u; now rewrite Ep.
Qed.

(** The steps of a thread. *)
Inductive move (b : bst) (t : nat) (x x' : oth) : buffer -> Prop :=
| mv_fast : fast = true -> ot_pc x = OCall -> ot_pc x' = OBack -> ot_seen x' = ot_seen x -> b_mem b 0 = 1 -> move b t x x' []
| mv_slow : ot_pc x = OCall -> ot_pc x' = OWait -> ot_seen x' = ot_seen x -> move b t x x' []
| mv_lock : ot_pc x = OWait -> ot_pc x' = OTest -> ot_seen x' = ot_seen x -> move b t x x' []
| mv_done : ot_pc x = OTest -> ot_pc x' = OLeave -> ot_seen x' = ot_seen x -> b_mem b 0 = 1 -> move b t x x' []
| mv_begin : ot_pc x = OTest -> ot_pc x' = OFunc 0 -> ot_seen x' = ot_seen x -> b_mem b 0 <> 1 -> move b t x x' []
| mv_store i : i < w -> ot_pc x = OFunc i -> ot_pc x' = OFunc (S i) -> ot_seen x' = ot_seen x -> move b t x x' [(S i, val i)]
| mv_end i : w <= i -> ot_pc x = OFunc i -> ot_pc x' = OSet -> ot_seen x' = ot_seen x -> move b t x x' []
| mv_set : ot_pc x = OSet -> ot_pc x' = OLeave -> ot_seen x' = ot_seen x -> move b t x x' [(0, 1)]
| mv_unlock : ot_pc x = OLeave -> ot_pc x' = OBack -> ot_seen x' = ot_seen x -> b_buf b t = [] -> move b t x x' []
| mv_read j : j < w -> ot_pc x = OBack -> ot_pc x' = OBack -> ot_seen x' = (j, b_mem b (S j)) :: ot_seen x -> move b t x x' []
| mv_next : ot_pc x = OBack -> ot_pc x' = OCall -> ot_seen x' = ot_seen x -> move b t x x' [].

Lemma step_move b t ch b' : obase b -> bstep_thr Nat.eqb unit_eq prog b t ch = Some b' ->
  exists ws, b_mem b' = b_mem b /\ (forall u, u <> t -> b_buf b' u = b_buf b u /\ b_loc b' u = b_loc b u) /\
    b_buf b' t = b_buf b t ++ ws /\ move b t (b_loc b t) (b_loc b' t) ws.
Proof.
  intros Hb. pose proof Hb as [H1 H2 H3 H4]. unfold bstep_thr, oprog. pose proof (H1 t) as Ht. pose proof (H4 t) as Hp.
  destruct (ot_pc (b_loc b t)) as [| | |i| | |] eqn:Ep; cbn [inside pcok] in *.
  - destruct (ot_left (b_loc b t)); [discriminate|]. intros [= <-]. assert (Hn : b_lock b tt <> Some t) by (intros H; apply Ht in H; discriminate).
    exists []. cbn [b_mem b_buf b_loc]. rewrite !upd_eq. repeat split; auto; try (now rewrite upd_ne by auto).
    rewrite (H2 t Hn). cbn [bview]. destruct fast eqn:Ef; cbn [andb]; [destruct (Nat.eqb_spec (b_mem b 0) 1)|].
    + apply mv_fast; auto.
    + apply mv_slow; auto.
    + apply mv_slow; auto.
  - destruct (b_lock b tt) eqn:El; [discriminate|]. intros [= <-]. exists []. cbn [b_mem b_buf b_loc]. rewrite !upd_eq, app_nil_r.
    repeat split; auto; try (now rewrite upd_ne by auto). apply mv_lock; auto.
  - intros [= <-]. exists []. cbn [b_mem b_buf b_loc]. rewrite !upd_eq. repeat split; auto; try (now rewrite upd_ne by auto).
    rewrite Hp. cbn [bview]. destruct (Nat.eqb_spec (b_mem b 0) 1); [apply mv_done|apply mv_begin]; auto.
  - destruct (Nat.ltb_spec i w) as [Hlt|Hge]; intros [= <-]; eexists; cbn [b_mem b_buf b_loc]; rewrite !upd_eq;
      repeat split; auto; try (now rewrite upd_ne by auto); [apply mv_store|apply (mv_end b t _ _ i)]; auto.
  - intros [= <-]; eexists; cbn [b_mem b_buf b_loc]; rewrite !upd_eq;
      repeat split; auto; try (now rewrite upd_ne by auto). apply mv_set; auto.
  - destruct (b_buf b t) eqn:Eb; [|discriminate]. intros [= <-]. exists []. cbn [b_mem b_buf b_loc]. rewrite !upd_eq, app_nil_r.
    repeat split; auto; try (now rewrite upd_ne by auto). apply mv_unlock; auto.
  - assert (Hn : b_lock b tt <> Some t) by (intros H; apply Ht in H; discriminate).
    destruct (Nat.ltb_spec ch w) as [Hlt|Hge]; intros [= <-]; exists []; cbn [b_mem b_buf b_loc]; rewrite !upd_eq;
      repeat split; auto; try (now rewrite upd_ne by auto); [apply (mv_read b t _ _ ch)|apply mv_next]; auto.
    rewrite (H2 t Hn). reflexivity.
Qed.

Lemma begun_step b t ch b' : obase b -> bstep_thr Nat.eqb unit_eq prog b t ch = Some b' ->
  (begun b -> begun b' /\ starts1 b b' (BRun t ch) = 0) /\ (starts1 b b' (BRun t ch) <= 1) /\ (starts1 b b' (BRun t ch) = 1 -> begun b').
Proof.
  intros Hb H. destruct (step_move b t ch b' Hb H) as (ws & Em & Eo & Eb & M). pose proof (ob_pc _ Hb t) as Hp.
  unfold starts1.
  assert (Hd : begun b -> begun b' \/ (b_mem b 0 <> 1 /\ match ot_pc (b_loc b t) with OFunc _ | OSet => True | _ => In (0, 1) (b_buf b t) end)).
  { intros [Hm|(u & Hu)]; [left; left; congruence|]. destruct (Nat.eq_dec (b_mem b 0) 1); [left; left; congruence|].
    destruct (Nat.eq_dec u t) as [->|Hne]; [auto|]. left. right. exists u. destruct (Eo u Hne) as [-> ->]. exact Hu. }
  inversion M as [? E E' ? ?|E E' ?|E E' ?|E E' ? ?|E E' ? ?|i ? E E' ?|i ? E E' ?|E E' ?|E E' ? ?|j ? E E' ?|E E' ?]; subst ws;
    rewrite E in *; cbn [pcok] in Hp; rewrite ?E'; (split; [intros Hg; split; [|try reflexivity]|split; [lia|try discriminate]]);
    try (destruct (Hd Hg) as [Hx|[Hm Hx]]; [exact Hx|]; right; exists t; rewrite E'; first [exact Logic.I | rewrite Eb, in_app_iff; cbn; tauto]).
  - exfalso. destruct Hg as [Hm|(u & Hu)]; [congruence|]. destruct (Nat.eq_dec u t) as [->|Hne].
    + rewrite E, Hp in Hu. destruct Hu.
    + assert (Hl : b_lock b tt = Some t) by (apply (ob_in _ Hb); now rewrite E). destruct (not_holder b t u Hb Hl Hne) as [Ex Ho]. rewrite Ex in Hu.
      destruct (ot_pc (b_loc b u)); try discriminate Ho; destruct Hu.
  - intros _. right. exists t. now rewrite E'.
Qed.

Lemma starts_le acts : forall b, obase b -> starts w val fast fifo b acts <= 1 /\ (begun b -> starts w val fast fifo b acts = 0).
Proof.
  induction acts as [|a acts IH]; cbn [starts]; intros b Hb; [auto|].
  destruct (bstep Nat.eqb unit_eq prog fifo b a) as [b1|] eqn:E; [|auto]. pose proof (ob_bstep b a b1 Hb E) as Hb1.
  destruct (IH b1 Hb1) as [I1 I2]. destruct a as [t ch|t i]; cbn [bstep] in E.
  - destruct (begun_step b t ch b1 Hb E) as (G1 & G2 & G3). split.
    + destruct (starts1 b b1 (BRun t ch)) as [|[|]] eqn:Es; [lia| |lia]. rewrite I2; [lia|auto].
    + intros Hg. destruct (G1 Hg) as [Hg1 ->]. rewrite I2; auto.
  - cbn [starts1]. split; [lia|]. intros Hg. rewrite I2; [lia|]. exact (begun_commit b t i b1 Hb Hg E).
Qed.

Theorem once_starts calls acts : starts w val fast fifo (obinit calls) acts <= 1.
Proof. apply starts_le, ob_init. Qed.

(** *** What the function stored is visible *)
Hypothesis Hok : fifo = true \/ fast = false.
Definition data (m : nat -> nat) : Prop := forall j, j < w -> m (S j) = val j.

Record ofull (b : bst) : Prop := {
  of_flag : b_mem b 0 = 1 -> data (b_mem b) \/ fifo = false /\ exists t, ot_pc (b_loc b t) = OLeave;
  of_leave : forall t, ot_pc (b_loc b t) = OLeave -> forall j, j < w -> covered (b_mem b) (b_buf b t) j;
  of_last : fifo = true -> forall t, In (0, 1) (b_buf b t) -> exists pre, b_buf b t = pre ++ [(0, 1)] /\ ~ In (0, 1) pre;
  of_back : forall t, ot_pc (b_loc b t) = OBack -> data (b_mem b);
  of_seen : forall t j v, In (j, v) (ot_seen (b_loc b t)) -> v = val j
}.

Lemma of_init calls : ofull (obinit calls).
Proof. constructor; cbn; try discriminate; try tauto. Qed.

Lemma of_commit b t i b' : obase b -> ofull b -> bcommit Nat.eqb fifo b t i = Some b' -> ofull b'.
Proof.
  intros Hb [F1 F2 F3 F4 F5] H. apply commit_inv in H as (e & En & Hi & ->). pose proof (nth_error_In _ _ En) as Hin.
  pose proof (holder b t e Hb Hin) as Hl. pose proof (ob_ent _ Hb t e Hin) as He. pose proof (ob_pc _ Hb t) as Hp.
  assert (Hdata : data (b_mem b) -> data (set1 e (b_mem b))) by (intros D j Hj; apply set1_data; auto).
  constructor; cbn [b_mem b_buf b_lock b_loc]; auto.
  - intros Hm. destruct He as [->|(k & Hk & ->)].
    + assert (Ep : ot_pc (b_loc b t) = OLeave).
      { apply (ob_in _ Hb) in Hl. destruct (ot_pc (b_loc b t)); try discriminate Hl; auto; cbn [pcok] in Hp.
        - rewrite Hp in Hin. destruct Hin.
        - destruct Hp as (_ & [_ U] & _). tauto.
        - destruct Hp as ([_ U] & _). tauto. }
      destruct fifo eqn:Ef; [left|right; eauto].
      rewrite (Hi eq_refl) in En. destruct (F3 eq_refl t Hin) as (pre & Epre & Hpre).
      destruct pre as [|x pre].
      * intros j Hj. destruct (F2 t Ep j Hj) as [Hc|Hc]; [exact Hc|]. rewrite Epre in Hc. destruct Hc as [[=]|[]].
      * rewrite Epre in En. cbn in En. injection En as ->. exfalso. apply Hpre. now left.
    + destruct (F1 Hm) as [D|D]; auto.
  - intros u Eu j Hj. assert (u = t) as ->.
    { assert (Hx : b_lock b tt = Some u) by (apply (ob_in _ Hb); now rewrite Eu). congruence. }
    rewrite upd_eq. apply covered_commit; auto.
  - intros Ef u. unfold upd. destruct (Nat.eqb_spec u t) as [->|]; [|apply F3; auto].
    intros Hu. rewrite (Hi Ef) in *. destruct (F3 Ef t) as (pre & Epre & Hpre). { apply (in_without 0 _ _ _ En). auto. }
    rewrite Epre in *. destruct pre as [|x pre]; [destruct Hu|]. exists pre. split; [reflexivity|]. intros Hx. apply Hpre. now right.
  - intros u Eu. apply Hdata. eauto.
Qed.

Lemma of_step b t ch b' : obase b -> ofull b -> bstep_thr Nat.eqb unit_eq prog b t ch = Some b' -> ofull b'.
Proof.
  intros Hb [F1 F2 F3 F4 F5] H. destruct (step_move b t ch b' Hb H) as (ws & Em & Eo & Eb & M).
  pose proof (ob_pc _ Hb t) as Hp. pose proof (ob_out _ Hb t) as Hout. pose proof (ob_in _ Hb t) as Hlock.
  pose proof (not_holder b t) as Hnh.
  assert (Hback : b_mem b 0 = 1 -> fast = true -> data (b_mem b)).
  { intros Hm Hf. destruct (F1 Hm) as [D|[Ef _]]; auto. destruct Hok; congruence. }
  assert (Hun : ot_pc (b_loc b t) = OLeave -> b_buf b t = [] -> data (b_mem b)).
  { intros E Ee j Hj. destruct (F2 t E j Hj) as [Hc|Hc]; auto. rewrite Ee in Hc. destruct Hc. }
  assert (Hdone : ot_pc (b_loc b t) = OTest -> b_mem b 0 = 1 -> data (b_mem b)).
  { intros E Hm. destruct (F1 Hm) as [D|[_ (u & Eu)]]; auto. exfalso.
    rewrite E in Hlock. assert (Hl : b_lock b tt = Some t) by now apply Hlock.
    destruct (Nat.eq_dec u t) as [->|Hne]; [congruence|]. destruct (Hnh u Hb Hl Hne) as [_ Hx]. rewrite Eu in Hx. discriminate. }
  constructor; rewrite ?Em.
  - intros Hm. destruct (F1 Hm) as [D|[Ef (u & Eu)]]; auto. destruct (Nat.eq_dec u t) as [->|Hne].
    + inversion M; try congruence. left. auto.
    + right. split; auto. exists u. now rewrite (proj2 (Eo u Hne)).
  - intros u Eu j Hj. destruct (Nat.eq_dec u t) as [->|Hne].
    + rewrite Eb. inversion M; try congruence; subst ws.
      * left. apply Hdone; auto.
      * match goal with E : ot_pc (b_loc b t) = OSet |- _ => rewrite E in Hp end. destruct Hp as (_ & Hp).
        destruct (Hp j Hj) as [Hc|Hc]; [now left|right; rewrite in_app_iff; auto].
    + destruct (Eo u Hne) as [-> El]. rewrite El in Eu. apply F2; auto.
  - intros Ef u. destruct (Nat.eq_dec u t) as [->|Hne].
    + rewrite Eb. inversion M; subst ws; rewrite ?app_nil_r; auto.
      * match goal with E : ot_pc (b_loc b t) = OFunc _ |- _ => rewrite E in Hp end. destruct Hp as (_ & [_ U] & _).
        rewrite in_app_iff. intros [Hx|[[=]|[]]]. tauto.
      * match goal with E : ot_pc (b_loc b t) = OSet |- _ => rewrite E in Hp end. destruct Hp as ([_ U] & _).
        intros _. exists (b_buf b t). auto.
    + destruct (Eo u Hne) as [-> El]. apply F3; auto.
  - intros u Eu. destruct (Nat.eq_dec u t) as [->|Hne].
    + inversion M; try congruence; auto. apply (F4 t). auto.
    + destruct (Eo u Hne) as [_ El]. rewrite El in Eu. eauto.
  - intros u j v. destruct (Nat.eq_dec u t) as [->|Hne].
    + inversion M; match goal with E : ot_seen (b_loc b' t) = _ |- _ => rewrite E end; try apply F5.
      intros [[= <- <-]|Hx]; [|now apply (F5 t)]. apply (F4 t); auto.
    + destruct (Eo u Hne) as [_ ->]. apply F5.
Qed.

Theorem once_visible calls acts b t : brun Nat.eqb unit_eq prog fifo (obinit calls) acts = Some b ->
  (forall j v, In (j, v) (ot_seen (b_loc b t)) -> v = val j) /\
  (ot_pc (b_loc b t) = OBack -> data (b_mem b)).
Proof.
  assert (G : forall acts b0, obase b0 -> ofull b0 -> brun Nat.eqb unit_eq prog fifo b0 acts = Some b -> ofull b).
  { clear acts. induction acts as [|a acts IH]; cbn [brun]; intros b0 Hb Hf H; [now injection H as <-|].
    destruct (bstep Nat.eqb unit_eq prog fifo b0 a) as [b1|] eqn:E; [|discriminate].
    apply (IH b1); auto; [eapply ob_bstep; eauto|]. destruct a; cbn [bstep] in E; [eapply of_step|eapply of_commit]; eauto. }
  intros H. destruct (G acts (obinit calls) (ob_init calls) (of_init calls) H) as [F1 F2 F3 F4 F5]. split; [apply F5|apply F4].
Qed.
End Once.

(** Without order between the stores: the second thread sees [m_state], not the containers. *)
Definition reorder : list (bact nat) :=
  [BRun 0 0; BRun 0 0; BRun 0 0; BRun 0 0; BRun 0 0; BRun 0 0; BCommit 0 1; BRun 1 0; BRun 1 0].
Theorem once_reordered : exists b, brun Nat.eqb unit_eq (oprog 1 (fun _ => 7) true) false (obinit (fun _ => 1)) reorder = Some b /\
  ot_pc (b_loc b 1) = OBack /\ ot_seen (b_loc b 1) = [(0, 0)].
Proof.
  assert (E : option_map (fun b => (ot_pc (b_loc b 1), ot_seen (b_loc b 1)))
    (brun Nat.eqb unit_eq (oprog 1 (fun _ => 7) true) false (obinit (fun _ => 1)) reorder) = Some (OBack, [(0, 0)])) by (vm_compute; reflexivity).
  destruct (brun _ _ _ _ _ _) as [b|]; [|discriminate]. injection E as E1 E2. eauto.
Qed.

(** ** Executions for the examples: stores become visible as late as possible, the newest first *)
Section Lazy.
Context {V : Type} (c : cfg V).
Local Notation bst := (bst caddr lock (cword V) (thr V)).
Definition lazy1 (fifo : bool) (b : bst) (t : nat) : bst :=
  let go a := bstep caddr_eq lock_eq (cprog c) fifo b a in
  match go (BRun t (Choice false 0 (fun _ => None) 0 0)) with
  | Some b' => b'
  | None =>
      match go (BCommit t (length (b_buf b t) - 1)) with
      | Some b' => b'
      | None => match go (BCommit t 0) with Some b' => b' | None => b end
      end
  end.
(** The final state and the largest number of stores which were waiting in a buffer. *)
Fixpoint lazyrun (fifo : bool) (fuel T : nat) (b : bst) (most : nat) : bst * nat :=
  match fuel with
  | 0 => (b, most)
  | S fuel' =>
      let b' := lazy1 fifo b (fuel' mod T) in
      lazyrun fifo fuel' T b' (Nat.max most (length (b_buf b' (fuel' mod T))))
  end.
End Lazy.

Definition buf_file : file nat := File [2; 2] (fun ix => match ix with [i; j] => 10 * i + j + 1 | _ => 0 end).
Definition buf_bl : blocked := Blocked [2; 2] [1; 2] [2; 1] 2 2.
Definition buf_ixs (t : nat) : list (list nat) :=
  match t with 0 => [[0; 0]; [1; 1]; [0; 1]] | 1 => [[1; 0]; [1; 1]; [0; 0]] | _ => [] end.
Definition buf_cfg : cfg (option nat) :=
  readers MNo buf_file buf_bl true Contiguous 1 2 1 0 (fun _ => 0) (fun t => t mod 2) (fun _ => []) buf_ixs.
Definition buf_report (fifo : bool) :=
  match clist_init 1 0 with
  | Ok l0 => let (b, most) := lazyrun buf_cfg fifo 400 2 (cbinit buf_cfg l0) 0 in
             Some (map (fun t => map snd (t_done (b_loc b t))) [0; 1], most)
  | Ub => None
  end.

Theorem guarded_buffers (A K W L C : Type) (aeq : A -> A -> bool) (keq : K -> K -> bool) (prog : nat -> L -> C -> option (instr A K W L))
    (guard : A -> K) m0 l0 fifo acts b :
  (forall a a', aeq a a' = true <-> a = a') -> (forall k k', keq k k' = true <-> k = k') ->
  (forall acts' s, srun aeq keq prog (SSt m0 (fun _ => None) l0) acts' = Some s -> orderly prog guard s) ->
  brun aeq keq prog fifo (BSt m0 (fun _ => []) (fun _ => None) l0) acts = Some b ->
  exists acts' s, srun aeq keq prog (SSt m0 (fun _ => None) l0) acts' = Some s /\
    b_loc b = m_loc s /\ b_lock b = m_lock s /\
    (forall t a, b_lock b (guard a) = Some t -> bview aeq (b_buf b t) (b_mem b) a = m_mem s a) /\
    (forall a, b_lock b (guard a) = None -> b_mem b a = m_mem s a).
Proof.
  intros Ha Hk Ho H. destruct (buffers_invisible aeq keq Ha Hk prog guard m0 l0 fifo acts b Ho H) as (acts' & s & Hs & Hl).
  exists acts', s. split; [exact Hs|]. split; [apply Hl|]. split; [apply Hl|]. split.
  - intros t a Hg. rewrite (lk_lock _ _ _ _ Hl) in Hg. exact (like_view aeq Ha prog guard b s t a Hl Hg).
  - intros a Hg. symmetry. apply (lk_mem _ _ _ _ Hl). intros t Hp. apply (lk_guard _ _ _ _ Hl) in Hp. congruence.
Qed.

Lemma buf_setting :
  setting MNo buf_file buf_bl 1 2 1 0 (fun _ => 0) (fun t => t mod 2) (fun _ => []) buf_ixs /\ clist_init 1 0 <> Ub.
Proof.
  split; [|vm_compute; discriminate]. split; [discriminate|].
  split; [exists (fun n => nth n [2; 1]%Z 0%Z), (-1)%Z, (fun _ => 0); reflexivity|].
  split; [lia|]. split; [lia|]. split; [intros; lia|]. split; [intros t; apply Nat.mod_upper_bound; lia|].
  split; [intros b; cbn; split; [lia|constructor]|]. split; [discriminate|].
  intros [|[|t]]; cbn; repeat constructor.
Qed.
