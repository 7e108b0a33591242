(** * Proofs: stores which become visible in any order *)
From Verif Require Export LateSpec BufFacts SyncFacts.
From Verif Require NumaFacts.
Import BufModel.

(** ** Locations which are stored to under their mutex only *)
Section Inv.
Context {A K W : Type}.
Variable aeq : A -> A -> bool.
Variable keq : K -> K -> bool.
Hypothesis aeq_ok : forall a b, aeq a b = true <-> a = b.
Hypothesis keq_ok : forall a b, keq a b = true <-> a = b.
Variable guard : A -> K.
Local Notation vmem := (vmem A K W).

(** [top]: the newest stores. *)
Record vinv (m : vmem) (lk : K -> option nat) (top : A -> nat) : Prop := {
  vi_top : forall a, v_msg m a (top a) <> None;
  vi_above : forall a ts, top a < ts -> v_msg m a ts = None;
  vi_view : forall t a, v_view m t a <= top a /\ v_msg m a (v_view m t a) <> None;
  vi_kview : forall k a, v_kview m k a <= top a /\ v_msg m a (v_kview m k a) <> None;
  vi_with : forall a' ts a, v_with m a' ts a <= top a /\ v_msg m a (v_with m a' ts a) <> None;
  vi_zero : forall a, v_msg m a 0 <> None;
  vi_held : forall a t, lk (guard a) = Some t -> v_view m t a = top a;
  vi_free : forall a, lk (guard a) = None -> v_kview m (guard a) a = top a
}.

Lemma vinv0 m0 : vinv (vmem0 m0) (fun _ => None) (fun _ => 0).
Proof.
  constructor; cbn; intros; try split; auto; try discriminate. destruct (Nat.eqb_spec ts 0); [lia|reflexivity].
Qed.

Lemma join_ok (P : A -> nat -> Prop) (f g : A -> nat) : (forall a, P a (f a)) -> (forall a, P a (g a)) -> forall a, P a (join f g a).
Proof. intros Hf Hg a. unfold join. destruct (Nat.max_spec (f a) (g a)) as [[_ ->]|[_ ->]]; auto. Qed.

Lemma vi_know m lk top t f : vinv m lk top -> (forall a, f a <= top a /\ v_msg m a (f a) <> None) -> vinv (vknow m t f) lk top.
Proof.
  intros [H1 H2 H3 H4 H5 H6 H7 H8] Hf. constructor; cbn; auto.
  - intros u a. unfold upd. destruct (Nat.eqb_spec u t) as [->|]; auto.
    apply (join_ok (fun a n => n <= top a /\ v_msg m a n <> None)); auto.
  - intros a u Hl. unfold upd. destruct (Nat.eqb_spec u t) as [->|]; auto. unfold join.
    rewrite (H7 _ _ Hl). destruct (Hf a). lia.
Qed.

Lemma vi_acquire m lk top t rd a : vinv m lk top -> vinv (vacquire m t rd a) lk top.
Proof. intros H. apply vi_know; auto. intros x. apply (vi_with _ _ _ H). Qed.

Lemma updk_eq {X} (f : K -> X) k x : updk keq f k x k = x.
Proof. unfold updk. now rewrite (proj2 (keq_ok k k) eq_refl). Qed.
Lemma updk_ne {X} (f : K -> X) k x k' : k' <> k -> updk keq f k x k' = f k'.
Proof. unfold updk. intros H. destruct (keq k' k) eqn:E; auto. apply keq_ok in E. tauto. Qed.
Lemma keq_dec (k k' : K) : {k = k'} + {k <> k'}.
Proof. destruct (keq k k') eqn:E; [left; now apply keq_ok|right; intros H; apply keq_ok in H; congruence]. Qed.
Lemma aeq_dec (a a' : A) : {a = a'} + {a <> a'}.
Proof. destruct (aeq a a') eqn:E; [left; now apply aeq_ok|right; intros H; apply aeq_ok in H; congruence]. Qed.

Lemma vi_lock m lk top t k : vinv m lk top -> lk k = None -> vinv (vlock m t k) (updk keq lk k (Some t)) top.
Proof.
  intros H Hk. pose proof (vi_know m lk top t (v_kview m k) H (vi_kview _ _ _ H k)) as G.
  destruct G as [H1 H2 H3 H4 H5 H6 H7 H8]. constructor; auto.
  - intros a u Hl. destruct (keq_dec (guard a) k) as [E|E].
    + rewrite E, updk_eq in Hl. injection Hl as <-. unfold vlock, vknow. cbn. rewrite upd_eq. unfold join.
      rewrite <- E in Hk |- *. rewrite (vi_free _ _ _ H a Hk). destruct (vi_view _ _ _ H t a). lia.
    + rewrite updk_ne in Hl by auto. apply (H7 a u Hl).
  - intros a Hl. destruct (keq_dec (guard a) k) as [E|E]; [rewrite E, updk_eq in Hl; discriminate|].
    rewrite updk_ne in Hl by auto. apply (H8 a Hl).
Qed.

Lemma vi_unlock m lk top t k : vinv m lk top -> lk k = Some t -> vinv (vunlock keq m t k) (updk keq lk k None) top.
Proof.
  intros [H1 H2 H3 H4 H5 H6 H7 H8] Hk. constructor; cbn; auto.
  - intros k' a. destruct (keq_dec k' k) as [->|E]; [rewrite updk_eq|rewrite updk_ne by auto]; auto.
  - intros a u Hl. destruct (keq_dec (guard a) k) as [E|E]; [rewrite E, updk_eq in Hl; discriminate|].
    rewrite updk_ne in Hl by auto. auto.
  - intros a Hl. destruct (keq_dec (guard a) k) as [E|E].
    + rewrite E, updk_eq. rewrite <- E in Hk. auto.
    + rewrite updk_ne in Hl by auto. rewrite updk_ne by auto. auto.
Qed.

Lemma vstore_inv at_ (m : vmem) t a w ts m' : vstore aeq at_ m t a w ts = Some m' ->
  v_view m t a < ts /\ v_msg m a ts = None /\
  m' = VMem (v_first m)
            (fun a' ts' => if (aeq a a' && (ts =? ts'))%bool then Some w else v_msg m a' ts')
            (fun a' ts' => if (aeq a a' && (ts =? ts'))%bool then (if at_ then (fun x => if aeq a x then ts else v_view m t x) else fun _ => 0) else v_with m a' ts')
            (upd (v_view m) t (fun x => if aeq a x then ts else v_view m t x)) (v_kview m).
Proof.
  unfold vstore. destruct (Nat.ltb_spec (v_view m t a) ts); [|discriminate].
  destruct (v_msg m a ts) eqn:E; [discriminate|]. intros [= <-]. auto.
Qed.

Lemma aeq_false a b : a <> b -> aeq a b = false.
Proof. intros H. destruct (aeq a b) eqn:E; auto. apply aeq_ok in E. tauto. Qed.

Lemma vi_store at_ (m : vmem) lk top t a w ts m' : vinv m lk top -> lk (guard a) = Some t -> vstore aeq at_ m t a w ts = Some m' ->
  vinv m' lk (fun x => if aeq a x then ts else top x).
Proof.
  intros [H1 H2 H3 H4 H5 H6 H7 H8] Hl E. apply vstore_inv in E as (Hlt & Hn & ->). rewrite (H7 _ _ Hl) in Hlt.
  assert (Hmsg : forall x n, v_msg m x n <> None -> (if (aeq a x && (ts =? n))%bool then Some w else v_msg m x n) <> None).
  { intros x n Hx. destruct (aeq a x && (ts =? n))%bool; auto; discriminate. }
  assert (Hold : forall x n, n <= top x /\ v_msg m x n <> None ->
    n <= (if aeq a x then ts else top x) /\ (if (aeq a x && (ts =? n))%bool then Some w else v_msg m x n) <> None).
  { intros x n [Hx Hy]. split; auto. destruct (aeq a x) eqn:Ex; auto. apply aeq_ok in Ex as <-. lia. }
  assert (Hnew : forall x, (if aeq a x then ts else v_view m t x) <= (if aeq a x then ts else top x) /\
    (if (aeq a x && (ts =? (if aeq a x then ts else v_view m t x)))%bool then Some w else v_msg m x (if aeq a x then ts else v_view m t x)) <> None).
  { intros x. destruct (aeq a x) eqn:Ex.
    - rewrite Nat.eqb_refl. cbn. split; auto. discriminate.
    - cbn. apply H3. }
  assert (Hzero : forall x, 0 <= (if aeq a x then ts else top x) /\ (if (aeq a x && (ts =? 0))%bool then Some w else v_msg m x 0) <> None).
  { intros x. apply Hold. split; auto. lia. }
  constructor; cbn; auto.
  - intros x. destruct (aeq a x) eqn:Ex; cbn; auto. rewrite Nat.eqb_refl. discriminate.
  - intros x n. destruct (aeq a x) eqn:Ex; cbn; auto. intros Hx. apply aeq_ok in Ex as <-.
    destruct (Nat.eqb_spec ts n); [lia|]. apply H2. lia.
  - intros u x. unfold upd. destruct (Nat.eqb_spec u t) as [->|]; auto.
  - intros a' n x. destruct (aeq a a' && (ts =? n))%bool; auto. destruct at_; auto.
  - intros x u Hx. unfold upd. destruct (Nat.eqb_spec u t) as [->|Hne].
    + destruct (aeq a x); auto.
    + destruct (aeq a x) eqn:Ex; auto. apply aeq_ok in Ex as <-. congruence.
  - intros x Hx. destruct (aeq a x) eqn:Ex; auto. apply aeq_ok in Ex as <-. congruence.
Qed.

Lemma vi_store_go at_ (m : vmem) lk top t a w : vinv m lk top -> exists m', vstore aeq at_ m t a w (S (top a)) = Some m'.
Proof.
  intros H. unfold vstore. destruct (vi_view _ _ _ H t a) as [Hv _]. destruct (Nat.ltb_spec (v_view m t a) (S (top a))); [|lia].
  rewrite (vi_above _ _ _ H a (S (top a))) by lia. eauto.
Qed.

(** What a load may return. *)
Lemma stamp_real m lk top t rd a : vinv m lk top ->
  v_view m t a <= vstamp m t rd a /\ vstamp m t rd a <= top a /\ v_msg m a (vstamp m t rd a) <> None.
Proof.
  intros H. destruct (vi_view _ _ _ H t a) as [H1 H2]. unfold vstamp. destruct (Nat.leb_spec (v_view m t a) (rd a)); auto.
  destruct (v_msg m a (rd a)) eqn:E; auto. repeat split; auto; [|congruence].
  destruct (Nat.le_gt_cases (rd a) (top a)); auto. rewrite (vi_above _ _ _ H a (rd a)) in E by auto. discriminate.
Qed.
Lemma stamp_held m lk top t rd a : vinv m lk top -> lk (guard a) = Some t -> vstamp m t rd a = top a.
Proof.
  intros H Hl. destruct (stamp_real m lk top t rd a H) as (H1 & H2 & _). rewrite (vi_held _ _ _ H a t Hl) in H1. lia.
Qed.
End Inv.

(** ** The theorem for all programs *)
Section Sim.
Context {A K W L C : Type}.
Variable aeq : A -> A -> bool.
Variable keq : K -> K -> bool.
Hypothesis aeq_ok : forall a b, aeq a b = true <-> a = b.
Hypothesis keq_ok : forall a b, keq a b = true <-> a = b.
Variable prog : nat -> L -> C -> option (instr A K W L).
Variable sync : nat -> L -> option A.
Variable guard : A -> K.
Local Notation vst := (vst A K W L).
Local Notation sst := (sst A K W L).

Record vlike (v : vst) (s : sst) : Prop := {
  vl_lock : v_lock v = m_lock s;
  vl_loc : v_loc v = m_loc s;
  vl_top : exists top, vinv guard (v_mem v) (v_lock v) top /\ forall a, v_msg (v_mem v) a (top a) = Some (m_mem s a)
}.

Lemma load_held v s t rd a : vlike v s -> m_lock s (guard a) = Some t -> vload (v_mem v) t rd a = m_mem s a.
Proof.
  intros [H1 H2 (top & Hi & Hm)] Hl. rewrite <- H1 in Hl. unfold vload.
  rewrite (stamp_held aeq aeq_ok guard (v_mem v) (v_lock v) top t rd a Hi Hl), (Hm a). reflexivity.
Qed.

Lemma stores_like sy (ws : list (A * W)) lk t : (forall a, In a (map fst ws) -> lk (guard a) = Some t) -> forall (m : vmem A K W) top mm tss m',
  vinv guard m lk top -> (forall a, v_msg m a (top a) = Some (mm a)) -> vstores aeq sy m t ws tss = Some m' ->
  exists top', vinv guard m' lk top' /\ forall a, v_msg m' a (top' a) = Some (put aeq ws mm a).
Proof.
  induction ws as [|[a w] ws IH]; intros Hg m top mm tss m' Hi Hm H; destruct tss as [|ts tss]; cbn [vstores] in H; try discriminate.
  - injection H as <-. eauto.
  - destruct (vstore aeq _ m t a w ts) as [m1|] eqn:E; [|discriminate].
    pose proof (vi_store aeq aeq_ok guard _ _ _ _ _ _ _ _ _ Hi (Hg a (or_introl eq_refl)) E) as Hi1.
    refine (IH _ m1 _ (fun x => if aeq a x then w else mm x) tss m' Hi1 _ H); [intros x Hx; apply Hg; now right|].
    apply vstore_inv in E as (_ & _ & ->). intros x. cbn. destruct (aeq a x) eqn:Ex; cbn; auto. now rewrite Nat.eqb_refl.
Qed.

Lemma stores_go sy (ws : list (A * W)) lk t : (forall a, In a (map fst ws) -> lk (guard a) = Some t) -> forall m top,
  vinv guard m lk top -> exists tss m', vstores aeq sy m t ws tss = Some m'.
Proof.
  induction ws as [|[a w] ws IH]; intros Hg m top Hi.
  - exists [], m. reflexivity.
  - destruct (vi_store_go aeq aeq_ok guard (match sy with Some a' => aeq a' a | None => false end) m lk top t a w Hi) as [m1 E].
    pose proof (vi_store aeq aeq_ok guard _ _ _ _ _ _ _ _ _ Hi (Hg a (or_introl eq_refl)) E) as Hi1.
    destruct (IH (fun x Hx => Hg x (or_intror Hx)) m1 _ Hi1) as (tss & m' & E').
    exists (S (top a) :: tss), m'. cbn [vstores]. now rewrite E.
Qed.

Lemma acq_inv sy (m : vmem A K W) lk top t rd : vinv guard m lk top ->
  vinv guard (match sy with Some a => vacquire m t rd a | None => m end) lk top.
Proof. destruct sy; auto. apply (vi_acquire aeq aeq_ok). Qed.
Lemma acq_msg sy (m : vmem A K W) t rd : v_msg (match sy with Some a => vacquire m t rd a | None => m end) = v_msg m.
Proof. destruct sy; auto. Qed.

Lemma vlike_step v s x v' : vlike v s -> orderly prog guard s -> vstep aeq keq prog sync v x = Some v' ->
  exists s', sstep aeq keq prog s (va_thr x) (va_ch x) = Some s' /\ vlike v' s'.
Proof.
  intros Hk Ho H. specialize (Ho (va_thr x) (va_ch x)). unfold vstep in H. unfold sstep. rewrite (vl_loc _ _ Hk) in H.
  set (t := va_thr x) in *. pose proof (fun a => load_held v s t (va_rd x) a Hk) as Hv. destruct Hk as [H1 H2 (top & Hi & Hm)].
  destruct (prog t (m_loc s t) (va_ch x)) as [[k l|k y no|k l|f]|]; try discriminate.
  - rewrite H1 in H. destruct (m_lock s k) eqn:Ek; [discriminate|]. injection H as <-.
    eexists. split; [reflexivity|]. constructor; cbn; auto. exists top. split; auto. rewrite <- H1 in *. now apply (vi_lock aeq keq aeq_ok keq_ok).
  - rewrite H1 in H. destruct (m_lock s k) eqn:Ek; injection H as <-; (eexists; split; [reflexivity|]).
    + constructor; cbn; auto. exists top. split; auto. now rewrite <- H1.
    + constructor; cbn; auto. exists top. split; auto. rewrite <- H1 in *. now apply (vi_lock aeq keq aeq_ok keq_ok).
  - injection H as <-. eexists. split; [reflexivity|]. constructor; cbn; auto; try congruence. exists top. split; auto.
    apply (vi_unlock keq keq_ok); auto. congruence.
  - destruct Ho as [Hr Hw]. rewrite (Hr _ (m_mem s)) in H by auto.
    destruct (f (m_mem s)) as [[ws l]|] eqn:Ef; [|discriminate].
    destruct (vstores aeq (sync t (m_loc s t)) _ t ws (va_ts x)) as [m'|] eqn:Es; [|discriminate]. injection H as <-.
    eexists. split; [reflexivity|]. constructor; cbn; auto; try congruence.
    refine (stores_like _ ws (v_lock v) t _ _ top (m_mem s) _ m' _ _ Es).
    + intros a Ha. rewrite H1. exact (Hw _ _ _ Ef a Ha).
    + apply acq_inv. exact Hi.
    + intros a. rewrite acq_msg. apply Hm.
Qed.

Lemma vlike_back v s t ch s' : vlike v s -> orderly prog guard s -> sstep aeq keq prog s t ch = Some s' ->
  exists x v', vstep aeq keq prog sync v x = Some v'.
Proof.
  intros Hk Ho H. specialize (Ho t ch). pose proof (fun rd a => load_held v s t rd a Hk) as Hv. unfold sstep in H.
  destruct Hk as [H1 H2 (top & Hi & Hm)].
  assert (G : forall tss, exists x : vact A C, va_thr x = t /\ va_ch x = ch /\ va_rd x = (fun _ => 0) /\ va_ts x = tss).
  { intros tss. exists (VAct t ch (fun _ => 0) tss). auto. }
  destruct (prog t (m_loc s t) ch) as [[k l|k y no|k l|f]|] eqn:Ep; try discriminate.
  1-3: destruct (G []) as (x & E1 & E2 & _); exists x; unfold vstep; rewrite E1, E2, H2, Ep, ?H1.
  - destruct (m_lock s k); [discriminate|eauto].
  - destruct (m_lock s k); eauto.
  - eauto.
  - destruct Ho as [Hr Hw]. destruct (f (m_mem s)) as [[ws l]|] eqn:Ef; [|discriminate].
    destruct (stores_go (sync t (m_loc s t)) ws (v_lock v) t) with
      (m := match sync t (m_loc s t) with Some a => vacquire (v_mem v) t (fun _ => 0) a | None => v_mem v end) (top := top) as (tss & m' & Es).
    + intros a Ha. rewrite H1. exact (Hw _ _ _ Ef a Ha).
    + apply acq_inv. exact Hi.
    + destruct (G tss) as (x & E1 & E2 & E3 & E4). exists x. unfold vstep. rewrite E1, E2, E3, E4, H2, Ep.
      rewrite (Hr _ (m_mem s)) by auto. rewrite Ef. cbv zeta. rewrite Es. eauto.
Qed.

Theorem late_like m0 l0 xs v :
  (forall acts' s, srun aeq keq prog (SSt m0 (fun _ => None) l0) acts' = Some s -> orderly prog guard s) ->
  vrun aeq keq prog sync (vinit m0 l0) xs = Some v ->
  exists acts' s, srun aeq keq prog (SSt m0 (fun _ => None) l0) acts' = Some s /\ vlike v s.
Proof.
  intros Ho. set (s0 := SSt m0 (fun _ => None) l0) in *.
  assert (G : forall xs v0 acts0 s, srun aeq keq prog s0 acts0 = Some s -> vlike v0 s -> vrun aeq keq prog sync v0 xs = Some v ->
    exists acts' s', srun aeq keq prog s0 acts' = Some s' /\ vlike v s').
  { clear xs. induction xs as [|x xs IH]; cbn [vrun]; intros v0 acts0 s Hr Hk H.
    - injection H as <-. eauto.
    - destruct (vstep aeq keq prog sync v0 x) as [v1|] eqn:Ev; [|discriminate].
      destruct (vlike_step _ _ _ _ Hk (Ho _ _ Hr) Ev) as (s1 & Es & Hk1).
      apply (IH v1 (acts0 ++ [(va_thr x, va_ch x)]) s1); auto.
      rewrite (srun_app aeq keq prog _ _ _ _ Hr). cbn [srun]. now rewrite Es. }
  intros H. refine (G xs _ [] s0 eq_refl _ H). subst s0. constructor; cbn; auto.
  exists (fun _ => 0). split; [apply (vinv0 aeq keq); auto|reflexivity].
Qed.
End Sim.

Theorem guarded_late {A K W L C : Type} aeq keq (prog : nat -> L -> C -> option (instr A K W L)) sync guard m0 l0 xs v :
  (forall a a' : A, aeq a a' = true <-> a = a') -> (forall k k' : K, keq k k' = true <-> k = k') ->
  (forall acts' s, srun aeq keq prog (SSt m0 (fun _ => None) l0) acts' = Some s -> orderly prog guard s) ->
  vrun aeq keq prog sync (vinit m0 l0) xs = Some v ->
  exists acts' s, srun aeq keq prog (SSt m0 (fun _ => None) l0) acts' = Some s /\
    v_loc v = m_loc s /\ v_lock v = m_lock s /\
    (forall t a rd, v_lock v (guard a) = Some t -> vload (v_mem v) t rd a = m_mem s a) /\
    (forall t a rd, v_lock v (guard a) = None -> vload (vlock (v_mem v) t (guard a)) t rd a = m_mem s a).
Proof.
  intros Ha Hkq Ho H. destruct (late_like aeq keq Ha Hkq prog sync guard m0 l0 xs v Ho H) as (acts & s & Hs & Hk).
  exists acts, s. split; auto. split; [apply (vl_loc _ _ _ Hk)|]. split; [apply (vl_lock _ _ _ Hk)|]. split.
  - intros t a rd Hl. apply (load_held aeq Ha guard v s t rd a Hk). now rewrite <- (vl_lock _ _ _ Hk).
  - intros t a rd Hl. destruct Hk as [H1 H2 (top & Hi & Hm)].
    pose proof (vi_lock aeq keq Ha Hkq guard _ _ _ t _ Hi Hl) as Hi'. unfold vload.
    rewrite (stamp_held aeq Ha guard _ _ top t rd a Hi') by (apply (updk_eq keq Hkq)). cbn. now rewrite (Hm a).
Qed.

(** ** Reads of a cache *)
Section CacheValues.
Context {V : Type}.
Theorem late_values (f : file V) bl opaque dm0 P D n spread rk dm dict ixs l0 xs v :
  setting MNo f bl P D n spread rk dm dict ixs ->
  let c := readers MNo f bl opaque dm0 P D n spread rk dm dict ixs in
  clist_init n spread = Ok l0 ->
  vrun caddr_eq lock_eq (cprog c) plain_access (vinit (b_mem (cbinit c l0)) (b_loc (cbinit c l0))) xs = Some v ->
  (forall t, exists k,
    map snd (t_done (v_loc v t)) = map (fun ix => Some (Some (f_val f ix))) (firstn k (ixs t)) /\
    length (t_todo (v_loc v t)) = length (ixs t) - k) /\
  (forall t, t_todo (v_loc v t) <> [] -> exists x v', vstep caddr_eq lock_eq (cprog c) plain_access v x = Some v').
Proof.
  intros Hs c E H. destruct (readers_wf MNo f bl opaque dm0 P D n spread rk dm dict ixs Hs) as [Hwf _].
  destruct (late_like caddr_eq lock_eq caddr_eq_ok lock_eq_ok (cprog c) plain_access cguard (b_mem (cbinit c l0)) (b_loc (cbinit c l0)) xs v) with (2 := H) as (acts & s & Hr & Hk).
  { intros acts s Hr. destruct (crel_run c Hwf eq_refl l0 acts E s Hr) as (z & Hz & R). apply (corderly c s z R).
    apply reach_inv in Hz as [Hz _]; auto. }
  destruct (crel_run c Hwf eq_refl l0 acts E s Hr) as (z & Hz & R). rewrite (vl_loc _ _ _ Hk). split.
  - intros t. rewrite (cr_loc _ _ _ R). exact (readers_values MNo f bl opaque dm0 P D n spread rk dm dict ixs z Hs Hz t).
  - intros t Ht. pose proof (crel_plain c _ _ _ Hr) as Hp.
    assert (Hi : inv1 c z) by (apply reach_inv in Hz as [Hz' _]; auto).
    rewrite (cr_loc _ _ _ R) in Ht.
    destruct (no_deadlock c Hwf z t Hz Ht) as ([u ch|u ch] & z' & Hstep); cbn [step] in Hstep; [|discriminate].
    destruct (csim_back c s z u ch z' R Hi (Hp u) Hstep) as (s' & Es).
    exact (vlike_back caddr_eq lock_eq caddr_eq_ok (cprog c) plain_access cguard v s u ch s' Hk (corderly c s z R Hi) Es).
Qed.
End CacheValues.

(** ** Barriers *)
Section Barrier.
Context {V A W : Type}.
Variable aeq : A -> A -> bool.
Hypothesis aeq_ok : forall a b, aeq a b = true <-> a = b.
Variable c : ycfg V.
Hypothesis Hwf : wf_ycfg c.
Hypothesis Hsp : y_spurious c = false.
Local Notation zst := (zst V A W).
Local Notation zrun := (zrun aeq c).
Local Notation zstep := (zstep aeq c).

Lemma zstep_sync (s : zst) x s' : zstep s x = Some s' ->
  match x with
  | ZSync t => ystep c (z_sync s) (YStep t) = Some (Ok (z_sync s'))
  | ZStore _ _ _ _ => z_sync s' = z_sync s
  end.
Proof.
  destruct x as [t|t a w ts]; cbn [LateModel.zstep].
  - destruct (ystep c (z_sync s) (YStep t)) as [[y|]|] eqn:E; try discriminate. intros [= <-]. reflexivity.
  - destruct (vstore aeq false (z_mem s) t a w ts); [|discriminate]. intros [= <-]. reflexivity.
Qed.

Lemma yrun_snoc l : forall s a s1 s2, yrun c s l = Some (Ok s1) -> ystep c s1 a = Some (Ok s2) -> yrun c s (l ++ [a]) = Some (Ok s2).
Proof.
  induction l as [|x l IH]; cbn [yrun app]; intros s a s1 s2 H1 H2.
  - injection H1 as ->. now rewrite H2.
  - destruct (ystep c s x) as [[y|]|]; try discriminate. eauto.
Qed.

Lemma zstate_step (s : zst) x s' : ystate c (z_sync s) -> zstep s x = Some s' -> ystate c (z_sync s').
Proof.
  intros [l Hl] H. apply zstep_sync in H. destruct x as [t|t a w ts].
  - exists (l ++ [YStep t]). eapply yrun_snoc; eauto.
  - rewrite H. exists l. exact Hl.
Qed.
Lemma zstate_run xs : forall s s' : zst, ystate c (z_sync s) -> zrun s xs = Some s' -> ystate c (z_sync s').
Proof.
  induction xs as [|x xs IH]; cbn [LateModel.zrun]; intros s s' Hs H; [now injection H as <-|].
  destruct (zstep s x) as [s1|] eqn:E; [|discriminate]. apply (IH s1); auto. eapply zstate_step; eauto.
Qed.

(** What has to be known are stores. *)
Definition zreal (m : vmem A unit W) : Prop :=
  (forall t a, v_msg m a (v_view m t a) <> None) /\ (forall k a, v_msg m a (v_kview m k a) <> None).
Lemma zreal0 m0 : zreal (vmem0 m0).
Proof. split; cbn; discriminate. Qed.
Lemma zreal_step (s : zst) x s' : zreal (z_mem s) -> zstep s x = Some s' -> zreal (z_mem s').
Proof.
  intros [H1 H2] H. destruct x as [t|t a w ts]; cbn [LateModel.zstep] in H.
  - destruct (ystep c (z_sync s) (YStep t)) as [[y|]|]; try discriminate. cbv zeta in H. injection H as <-. cbn [z_mem].
    set (m1 := if z_takes _ then _ else _). assert (M : zreal m1).
    { subst m1. destruct (z_takes _); [|split; auto]. split; cbn; auto. intros v x. unfold upd. destruct (v =? t); auto.
      apply (join_ok (fun a n => v_msg (z_mem s) a n <> None)); auto. }
    destruct M as [M1 M2]. destruct (y_mutex y); split; cbn; auto.
  - destruct (vstore aeq false (z_mem s) t a w ts) as [m|] eqn:E; [|discriminate]. injection H as <-. cbn [z_mem].
    apply vstore_inv in E as (_ & _ & ->). split; cbn.
    + intros v x. unfold upd. destruct (v =? t).
      * destruct (aeq a x) eqn:E; cbn; [rewrite Nat.eqb_refl; discriminate|apply H1].
      * destruct (_ && _)%bool; [discriminate|apply H1].
    + intros k x. destruct (_ && _)%bool; [discriminate|apply H2].
Qed.
Lemma zreal_run xs : forall s s' : zst, zreal (z_mem s) -> zrun s xs = Some s' -> zreal (z_mem s').
Proof.
  induction xs as [|x xs IH]; cbn [LateModel.zrun]; intros s s' Hs H; [now injection H as <-|].
  destruct (zstep s x) as [s1|] eqn:E; [|discriminate]. apply (IH s1); auto. eapply zreal_step; eauto.
Qed.

(** The store with stamp [ts] to [a], done by [u] before its call [k]. *)
Section One.
Variables (u k : nat) (a : A) (w : W) (ts : nat).
Hypothesis Hu : u < y_n c.

Record kept (s : zst) : Prop := {
  kp_msg : v_msg (z_mem s) a ts = Some w;
  kp_own : ts <= v_view (z_mem s) u a;
  kp_free : arrived (z_sync s) u k -> y_mutex (z_sync s) = None -> ts <= v_kview (z_mem s) tt a;
  kp_held : arrived (z_sync s) u k -> forall t, y_mutex (z_sync s) = Some t -> ts <= v_view (z_mem s) t a;
  kp_pass : forall t, t < y_n c -> passed (z_sync s) t k -> ts <= v_view (z_mem s) t a
}.

Lemma step_mutex (s : yst V) t s' : ystep c s (YStep t) = Some (Ok s') ->
  (z_takes (y_pc (y_thr s t)) = true /\ y_mutex s = None \/ z_takes (y_pc (y_thr s t)) = false /\ y_holds (y_pc (y_thr s t)) = true) /\
  (y_mutex s = None \/ y_mutex s = Some t -> y_mutex s' = None \/ y_mutex s' = Some t) /\
  (forall v, v <> t -> passed s' v k -> passed s v k).
Proof.
  assert (Hw : forall (x : yst V) p p' v, passed (y_wake x p p') v k -> p' = YWakeC \/ p' = YWakeF \/ p' = YWakeL -> passed x v k).
  { intros x p p' v. unfold passed, y_wake. cbn [y_thr]. destruct (ypc_eq (y_pc (y_thr x v)) p); cbn; auto.
    intros [H|(_ & [H|H])] Hp; auto; subst; intuition discriminate. }
  assert (Hg : forall (x y : yst V) p v, v <> t -> (forall v, v <> t -> y_thr x v = y_thr y v) -> passed (y_goto x t p) v k -> passed y v k).
  { intros x y p v Hv E. unfold passed, y_goto, y_set. cbn [y_thr]. rewrite upd_ne by auto. now rewrite E. }
  cbn [ystep]. destruct (t <? y_n c); [|discriminate]. unfold ystep_thr. cbv zeta.
  destruct (y_pc (y_thr s t)) eqn:Ep; try discriminate; intros H; cbn [z_takes y_holds].
  - destruct (_ <? _); [|discriminate]. destruct (y_mutex s); [discriminate|]. injection H as <-.
    cbn [y_lock y_fin]. destruct (y_fin s); (split; [auto|]); (split; [cbn; auto|]); intros v Hv; apply Hg; auto.
  - destruct (y_mutex s); [discriminate|]. injection H as <-. split; [auto|]. split; [cbn; auto|]. intros v Hv; apply Hg; auto.
  - split; [auto|]. destruct (_ =? _); injection H as <-; (split; [cbn; auto|]); intros v Hv.
    + intros Hp. unfold passed, y_goto, y_set in Hp. cbn [y_thr y_wake] in Hp. rewrite upd_ne in Hp by auto.
      apply (Hw s YSleepC YWakeC v); [|auto]. unfold passed. cbn [y_thr y_wake]. rewrite upd_ne in Hp by auto. exact Hp.
    + apply Hg; auto. intros v' Hv'. cbn. now rewrite upd_ne by auto.
  - destruct (y_mutex s); [discriminate|]. injection H as <-. split; [auto|]. split; [cbn; auto|]. intros v Hv; apply Hg; auto.
  - split; [auto|]. destruct (_ && _)%bool; injection H as <-; (split; [cbn; tauto|]); intros v Hv; apply Hg; auto.
  - destruct (y_mutex s); [discriminate|]. injection H as <-. split; [auto|]. split; [cbn; auto|]. intros v Hv; apply Hg; auto.
  - split; [auto|]. injection H as <-. split.
    + cbn. repeat match goal with |- context [if ?b then _ else _] => destruct b end; cbn; auto.
    + intros v Hv Hp.
      set (s2 := if (_ && _)%bool then _ else _) in Hp.
      assert (H2 : passed s2 v k -> passed s v k).
      { subst s2. destruct (_ && _)%bool; [|auto]. intros H. apply Hw in H; auto. }
      apply H2. destruct (y_synced s2 =? 0); apply (Hg _ _ _ _ Hv (fun _ _ => eq_refl)) in Hp; auto.
      apply Hw in Hp; auto.
  - split; [auto|]. destruct (y_root c _).
    + destruct (y_data s) as [[r k']|]; [|discriminate]. destruct (_ =? _); [|discriminate]. injection H as <-.
      split; [cbn; auto|]. intros v Hv. unfold passed, y_set. cbn [y_thr]. now rewrite upd_ne by auto.
    + injection H as <-. split; [cbn; auto|]. intros v Hv; apply Hg; auto.
  - split; [auto|]. injection H as <-. split; [cbn; auto|]. intros v Hv. unfold passed, y_set, y_lock. cbn [y_thr]. now rewrite upd_ne by auto.
Qed.

Lemma store_more at_ (m : vmem A unit W) t a' w' ts' m' : vstore aeq at_ m t a' w' ts' = Some m' ->
  v_kview m' = v_kview m /\ (forall v x, v_view m v x <= v_view m' v x) /\
  (forall x n w'', v_msg m x n = Some w'' -> v_msg m' x n = Some w'').
Proof.
  intros H. apply vstore_inv in H as (H1 & H2 & ->). cbn. split; auto. split.
  - intros v x. unfold upd. destruct (Nat.eqb_spec v t) as [->|]; auto. destruct (aeq a' x) eqn:E; auto. apply aeq_ok in E as <-. lia.
  - intros x n w'' Hx. destruct (aeq a' x) eqn:E; cbn; auto. apply aeq_ok in E as <-. destruct (Nat.eqb_spec ts' n) as [<-|]; auto. congruence.
Qed.

Lemma kept_step (s : zst) x s' : ystate c (z_sync s) -> kept s -> zstep s x = Some s' -> kept s'.
Proof.
  intros Hy Hk H. pose proof (zstate_step s x s' Hy H) as Hy'. pose proof (zstep_sync s x s' H) as Hs. destruct x as [t|t a' w' ts'].
  - destruct (step_mutex _ _ _ Hs) as (H1 & H2 & H3).
    assert (Ht : t < y_n c) by (cbn [ystep] in Hs; destruct (Nat.ltb_spec t (y_n c)); [auto|discriminate]).
    destruct (ystate_inv c Hwf Hsp _ Hy) as [K I]. pose proof (to_mutex _ _ _ _ _ (yi_thr _ _ _ I t Ht)) as Hm.
    assert (Hmx : y_mutex (z_sync s) = None \/ y_mutex (z_sync s) = Some t) by tauto.
    pose proof (NumaFacts.arrived_step c (fun _ => 0) _ _ _ u k Hs) as Har.
    cbn [LateModel.zstep] in H. rewrite Hs in H. cbv zeta in H. set (y := z_sync s') in *. clearbody y. injection H as <-.
    set (m1 := if z_takes (y_pc (y_thr (z_sync s) t)) then _ else _).
    destruct Hk as [K1 K2 K3 K4 K5].
    assert (M1 : v_msg m1 = v_msg (z_mem s)) by (subst m1; destruct (z_takes _); reflexivity).
    assert (M2 : forall v, v <> t -> v_view m1 v a = v_view (z_mem s) v a).
    { intros v Hv. subst m1. destruct (z_takes _); auto. cbn. now rewrite upd_ne by auto. }
    assert (M3 : v_view (z_mem s) t a <= v_view m1 t a).
    { subst m1. destruct (z_takes _); auto. cbn. rewrite upd_eq. unfold join. lia. }
    assert (M4 : arrived y u k -> ts <= v_view m1 t a).
    { intros Ha. apply Har in Ha as [Ha|(E & Ep & _)].
      - destruct H1 as [[E1 E2]|[E1 E2]]; subst m1; rewrite E1.
        + cbn. rewrite upd_eq. unfold join. specialize (K3 Ha E2). lia.
        + apply K4; auto. now apply Hm.
      - injection E as ->. etransitivity; eauto. }
    assert (M5 : forall v, v <> t -> v_view m1 v a = v_view (z_mem s) v a) by exact M2.
    set (m2 := match y_mutex y with Some _ => _ | None => _ end).
    assert (N1 : v_msg m2 = v_msg m1 /\ v_view m2 = v_view m1) by (subst m2; destruct (y_mutex y); auto). destruct N1 as [N1 N2].
    constructor; cbn [z_sync z_mem].
    + rewrite N1, M1. exact K1.
    + rewrite N2. destruct (Nat.eq_dec u t) as [->|Hne]; [lia|]. now rewrite M2.
    + intros Ha En. subst m2. rewrite En. cbn. auto.
    + intros Ha v Ev. rewrite N2. destruct (H2 Hmx) as [E|E]; [congruence|]. assert (v = t) by congruence. subst v. auto.
    + intros v Hv Hp. rewrite N2. destruct (Nat.eq_dec v t) as [->|Hne].
      * apply M4. apply (sync_barrier c Hwf Hsp y t u k); auto.
      * rewrite M2 by auto. apply K5; auto.
  - cbn [LateModel.zstep] in H. destruct (vstore aeq false (z_mem s) t a' w' ts') as [m|] eqn:E; [|discriminate]. injection H as <-.
    destruct (store_more _ _ _ _ _ _ _ E) as (E1 & E2 & E3). destruct Hk as [K1 K2 K3 K4 K5]. constructor; cbn [z_sync z_mem] in *; auto.
    + etransitivity; eauto.
    + rewrite E1. auto.
    + intros Ha v Hv. etransitivity; [apply K4|]; eauto.
    + intros v Hv Hp. etransitivity; [apply K5|]; eauto.
Qed.
Lemma kept_run xs : forall s s' : zst, ystate c (z_sync s) -> kept s -> zrun s xs = Some s' -> kept s'.
Proof.
  induction xs as [|x xs IH]; cbn [LateModel.zrun]; intros s s' Hs Hk H; [now injection H as <-|].
  destruct (zstep s x) as [s1|] eqn:E; [|discriminate]. apply (IH s1); auto; [eapply zstate_step; eauto|eapply kept_step; eauto].
Qed.
End One.

Theorem barrier_publishes m0 xs (s : zst) u a w ts s1 xs' s2 t k rd :
  zrun (zinit c m0) xs = Some s -> u < y_n c -> t < y_n c ->
  ~ arrived (z_sync s) u k -> zstep s (ZStore u a w ts) = Some s1 -> zrun s1 xs' = Some s2 ->
  passed (z_sync s2) t k ->
  ts <= vstamp (z_mem s2) t rd a /\
  ((forall ts', ts < ts' -> v_msg (z_mem s2) a ts' = None) -> vload (z_mem s2) t rd a = w).
Proof.
  intros H1 Hu Ht Hn H2 H3 Hp.
  assert (Y0 : ystate c (z_sync s)) by (apply (zstate_run xs (zinit c m0)); auto; exists []; reflexivity).
  pose proof (zstate_step _ _ _ Y0 H2) as Y1. pose proof (zstep_sync _ _ _ H2) as E. cbn in E.
  assert (Hk : kept u k a w ts s1).
  { cbn [LateModel.zstep] in H2. destruct (vstore aeq false (z_mem s) u a w ts) as [m|] eqn:Em; [|discriminate]. injection H2 as <-.
    apply vstore_inv in Em as (_ & _ & ->). cbn in E. constructor; cbn [z_sync z_mem v_msg v_view v_kview].
    - rewrite (proj2 (aeq_ok a a) eq_refl), Nat.eqb_refl. reflexivity.
    - rewrite upd_eq, (proj2 (aeq_ok a a) eq_refl). auto.
    - tauto.
    - tauto.
    - intros v Hv Hq. destruct Hn. apply (sync_barrier c Hwf Hsp _ v u k Y0); auto. }
  pose proof (kept_run u k a w ts Hu xs' s1 s2 Y1 Hk H3) as [K1 K2 K3 K4 K5]. specialize (K5 t Ht Hp).
  assert (Hs : ts <= vstamp (z_mem s2) t rd a).
  { unfold vstamp. destruct (Nat.leb_spec (v_view (z_mem s2) t a) (rd a)); auto. destruct (v_msg (z_mem s2) a (rd a)); lia. }
  split; auto. intros Hlast. unfold vload. destruct (Nat.eq_dec (vstamp (z_mem s2) t rd a) ts) as [->|Hne]; [now rewrite K1|].
  exfalso. assert (Hr : zreal (z_mem s2)).
  { apply (zreal_run xs' s1); auto. apply (zreal_step s (ZStore u a w ts)); auto. apply (zreal_run xs (zinit c m0)); auto. apply zreal0. }
  assert (Hx : v_msg (z_mem s2) a (vstamp (z_mem s2) t rd a) <> None).
  { unfold vstamp. destruct (v_view (z_mem s2) t a <=? rd a); [destruct (v_msg (z_mem s2) a (rd a)) eqn:Er; [congruence|]|]; apply Hr. }
  apply Hx. apply Hlast. lia.
Qed.
End Barrier.

(** ** One-time initialisation *)
Section Once.
Variables (w : nat) (val : nat -> nat) (fast atomic : bool).
Local Notation vst := (vst nat unit nat oth).
Local Notation vonce := (vonce w val fast atomic).
Local Notation inv := (vinv (A := nat) (K := unit) (W := nat) (fun _ => tt)).

Lemma nat_ok : forall a b, (a =? b) = true <-> a = b.
Proof. intros. apply Nat.eqb_eq. Qed.
Lemma unit_ok : forall a b : unit, unit_eq a b = true <-> a = b.
Proof. intros [] []. split; auto. Qed.

Definition opcok (top : nat -> nat) (p : opc) : Prop :=
  match p with
  | OFunc i => i <= w /\ top 0 = 0 /\ forall j, j < i -> 0 < top (S j)
  | OSet => top 0 = 0 /\ forall j, j < w -> 0 < top (S j)
  | OLeave => 0 < top 0
  | _ => True
  end.

Record oinv (v : vst) (top : nat -> nat) : Prop := {
  oi_mem : inv (v_mem v) (v_lock v) top;
  oi_flag : forall ts x, v_msg (v_mem v) 0 ts = Some x -> x = if ts =? 0 then 0 else 1;
  oi_word : forall j ts x, 0 < ts -> v_msg (v_mem v) (S j) ts = Some x -> x = val j;
  oi_lock : forall t, BufFacts.inside (ot_pc (v_loc v t)) = true <-> v_lock v tt = Some t;
  oi_pc : forall t, opcok top (ot_pc (v_loc v t));
  oi_done : 0 < top 0 -> forall j, j < w -> 0 < top (S j);
  oi_with : atomic = true -> forall ts, 0 < ts -> v_msg (v_mem v) 0 ts <> None -> forall j, j < w -> 0 < v_with (v_mem v) 0 ts (S j);
  oi_back : fast = false \/ atomic = true -> forall t, ot_pc (v_loc v t) = OBack -> forall j, j < w -> 0 < v_view (v_mem v) t (S j);
  oi_seen : fast = false \/ atomic = true -> forall t j x, In (j, x) (ot_seen (v_loc v t)) -> x = val j
}.

Lemma oinv_init calls : oinv (voinit calls) (fun _ => 0).
Proof.
  constructor; cbn; auto; try tauto; try discriminate; try lia.
  - apply (vinv0 Nat.eqb unit_eq); [apply nat_ok|apply unit_ok].
  - intros ts x. destruct (ts =? 0); congruence.
  - intros j ts x Hts. destruct (Nat.eqb_spec ts 0); [lia|discriminate].
  - intros t. split; discriminate.
  - intros _ ts Hts Hx. destruct (Nat.eqb_spec ts 0); [lia|tauto].
Qed.

Lemma oload_flag v top t rd : oinv v top -> v_lock v tt = Some t -> vload (v_mem v) t rd 0 = if top 0 =? 0 then 0 else 1.
Proof.
  intros H Hl. unfold vload. rewrite (stamp_held Nat.eqb nat_ok (fun _ => tt) _ _ top t rd 0 (oi_mem _ _ H) Hl).
  destruct (v_msg (v_mem v) 0 (top 0)) eqn:E; [now apply (oi_flag _ _ H) in E|]. destruct (vi_top _ _ _ _ (oi_mem _ _ H) 0 E).
Qed.

(** A step which only moves thread [t]. *)
Lemma oi_move v top t m' p left seen :
  oinv v top -> inv m' (v_lock v) top -> v_msg m' = v_msg (v_mem v) -> v_with m' = v_with (v_mem v) ->
  (forall u j, v_view (v_mem v) u j <= v_view m' u j) ->
  BufFacts.inside p = BufFacts.inside (ot_pc (v_loc v t)) -> opcok top p ->
  (fast = false \/ atomic = true -> p = OBack -> forall j, j < w -> 0 < v_view m' t (S j)) ->
  (fast = false \/ atomic = true -> forall j x, In (j, x) seen -> x = val j) ->
  oinv (VSt m' (v_lock v) (upd (v_loc v) t (OTh p left seen))) top.
Proof.
  intros [H1 H2 H3 H4 H5 H6 H7 H8 H9] G1 G2 G3 G4 G5 G6 G7 G8. constructor; cbn [v_mem v_lock v_loc]; rewrite ?G2, ?G3; auto.
  - intros u. unfold upd. destruct (Nat.eqb_spec u t) as [->|]; cbn; [rewrite G5|]; apply H4.
  - intros u. unfold upd. destruct (u =? t); cbn; auto.
  - intros Ho u. unfold upd. destruct (Nat.eqb_spec u t) as [->|]; cbn; [apply G7; auto|].
    intros E j Hj. specialize (H8 Ho u E j Hj). specialize (G4 u (S j)). lia.
  - intros Ho u. unfold upd. destruct (u =? t); cbn; eauto.
Qed.

Lemma know_more (m : vmem nat unit nat) t f u j : v_view m u j <= v_view (vknow m t f) u j.
Proof. cbn. unfold upd. destruct (Nat.eqb_spec u t) as [->|]; auto. unfold join. lia. Qed.

Lemma oi_access v top t rd sy : oinv v top ->
  let m := match sy with Some a => vacquire (v_mem v) t rd a | None => v_mem v end in
  inv m (v_lock v) top /\ v_msg m = v_msg (v_mem v) /\ v_with m = v_with (v_mem v) /\ (forall u j, v_view (v_mem v) u j <= v_view m u j).
Proof.
  intros H m. subst m. destruct sy as [a|]; [|repeat split; auto; apply (oi_mem _ _ H)].
  split; [apply (vi_acquire Nat.eqb nat_ok), (oi_mem _ _ H)|]. repeat split. intros u j. apply know_more.
Qed.

Lemma oi_step v top x v' : oinv v top -> vonce v x = Some v' -> exists top', oinv v' top' /\
  (begins v v' (va_thr x) = true -> top 0 = 0 /\ v_lock v tt = Some (va_thr x) /\ ot_pc (v_loc v (va_thr x)) = OTest) /\
  (0 < top 0 -> 0 < top' 0).
Proof.
  intros Hi H. unfold LateSpec.vonce, vstep in H. set (t := va_thr x) in *. unfold oprog in H. unfold begins.
  pose proof (oi_pc _ _ Hi t) as Hpc. pose proof (oi_lock _ _ Hi t) as Hlk. pose proof (oi_mem _ _ Hi) as Hm.
  pose proof (fun rd => oload_flag v top t rd Hi) as Hld. pose proof (fun Ho => oi_seen _ _ Hi Ho t) as Hse.
  destruct (ot_pc (v_loc v t)) eqn:Ep; cbn [BufFacts.inside] in Hlk.
  - destruct (ot_left (v_loc v t)) eqn:El; [discriminate|]. cbv zeta in H.
    destruct (oi_access v top t (va_rd x) (once_access atomic t (v_loc v t)) Hi) as (A1 & A2 & A3 & A4).
    destruct (va_ts x); [|discriminate H]. cbn [vstores] in H. injection H as <-. exists top. split; [|split; [discriminate|auto]].
    set (b := (fast && _)%bool). unfold ot_at. apply oi_move; auto.
    + rewrite Ep. destruct b; reflexivity.
    + destruct b; exact Logic.I.
    + intros Ho Eb j Hj. destruct b eqn:Ebb; [|discriminate]. subst b. apply andb_true_iff in Ebb as [Ef Ev]. apply Nat.eqb_eq in Ev.
      destruct Ho as [Ho|Ho]; [congruence|]. unfold once_access. rewrite Ho, Ep. cbn. rewrite upd_eq. unfold join.
      destruct (stamp_real (fun _ => tt) _ _ top t (va_rd x) 0 Hm) as (S1 & S2 & S3).
      enough (0 < v_with (v_mem v) 0 (vstamp (v_mem v) t (va_rd x) 0) (S j)) by lia. apply (oi_with _ _ Hi Ho); auto.
      unfold vload in Ev. destruct (v_msg (v_mem v) 0 _) as [y|] eqn:Ey; [|tauto]. apply (oi_flag _ _ Hi) in Ey.
      destruct (Nat.eqb_spec (vstamp (v_mem v) t (va_rd x) 0) 0); lia.
  - destruct (v_lock v tt) eqn:El; [discriminate|]. injection H as <-. exists top. split; [|split; [discriminate|auto]].
    pose proof (vi_lock Nat.eqb unit_eq nat_ok unit_ok (fun _ => tt) _ _ _ t tt Hm El) as Hm'.
    destruct Hi as [H1 H2 H3 H4 H5 H6 H7 H8 H9]. constructor; cbn [v_mem v_lock v_loc]; auto.
    + intros u. unfold updk. cbn. unfold upd. destruct (Nat.eqb_spec u t) as [->|Hne]; cbn; [tauto|].
      split; [|congruence]. intros Hu. apply H4 in Hu. congruence.
    + intros u. unfold upd. destruct (u =? t); cbn; auto.
    + intros Ho u. unfold upd at 1. destruct (Nat.eqb_spec u t) as [->|]; cbn [ot_pc ot_at]; [discriminate|].
      intros E j Hj. specialize (H8 Ho u E j Hj). pose proof (know_more (v_mem v) t (v_kview (v_mem v) tt) u (S j)). unfold vlock. lia.
    + intros Ho u. unfold upd. destruct (u =? t); cbn; eauto.
  - cbv zeta in H. destruct (oi_access v top t (va_rd x) (once_access atomic t (v_loc v t)) Hi) as (A1 & A2 & A3 & A4).
    destruct (va_ts x); [|discriminate H]. cbn [vstores] in H. injection H as <-.
    assert (Hl : v_lock v tt = Some t) by tauto. rewrite (Hld _ Hl).
    exists top. split; [|split].
    + unfold ot_at. apply oi_move; auto.
      * rewrite Ep. destruct (top 0 =? 0); reflexivity.
      * destruct (Nat.eqb_spec (top 0) 0); hnf; [repeat split; auto; intros; lia|lia].
      * destruct (top 0 =? 0); discriminate.
    + cbn [v_loc]. rewrite upd_eq. cbn. destruct (Nat.eqb_spec (top 0) 0); cbn; [auto|discriminate].
    + auto.
  - assert (Hl : v_lock v tt = Some t) by tauto. unfold once_access in H. rewrite Ep in H. destruct Hpc as (P1 & P2 & P3).
    destruct (Nat.ltb_spec i w) as [Hiw|Hiw]; cbv zeta in H.
    + replace (if atomic then None else None) with (@None nat) in H by (destruct atomic; reflexivity).
      destruct (va_ts x) as [|ts [|? ?]]; try discriminate H; cbn [vstores] in H; [|destruct (vstore _ _ _ _ _ _ _); discriminate H].
      destruct (vstore Nat.eqb false (v_mem v) t (S i) (val i) ts) as [m'|] eqn:Es; [|discriminate]. injection H as <-.
      pose proof (vi_store Nat.eqb nat_ok (fun _ => tt) _ _ _ _ _ _ _ _ _ Hm Hl Es) as Hm'.
      destruct (vstore_inv Nat.eqb _ _ _ _ _ _ _ Es) as (V1 & V2 & V3).
      assert (Hts : 0 < ts) by lia.
      exists (fun y => if S i =? y then ts else top y). split; [|split; [discriminate|hnf; lia]].
      destruct Hi as [H1 H2 H3 H4 H5 H6 H7 H8 H9]. constructor; cbn [v_mem v_lock v_loc]; auto.
      * subst m'. cbn. auto.
      * subst m'. cbn [v_msg]. intros j n y Hn. destruct (Nat.eqb_spec (S i) (S j)) as [E|]; cbn [andb]; [|eauto].
        injection E as <-. destruct (ts =? n); [congruence|eauto].
      * intros u. unfold upd. destruct (Nat.eqb_spec u t) as [->|]; cbn; [tauto|apply H4].
      * intros u. unfold upd. destruct (Nat.eqb_spec u t) as [->|Hne]; cbn [ot_pc ot_at].
        -- cbn [opcok]. repeat split; auto. intros j Hj. destruct (Nat.eqb_spec (S i) (S j)); [lia|]. apply P3. lia.
        -- specialize (H5 u). assert (Hn : BufFacts.inside (ot_pc (v_loc v u)) = false).
           { destruct (BufFacts.inside (ot_pc (v_loc v u))) eqn:E; auto. apply H4 in E. congruence. }
           destruct (ot_pc (v_loc v u)); try discriminate Hn; exact Logic.I.
      * destruct (Nat.eqb_spec (S i) 0); [discriminate|]. lia.
      * subst m'. cbn. auto.
      * subst m'. intros Ho u. unfold upd at 1. destruct (Nat.eqb_spec u t) as [->|Hne]; cbn [ot_pc ot_at]; [discriminate|].
        intros E j Hj. cbn. rewrite upd_ne by auto. eauto.
      * intros Ho u. unfold upd. destruct (u =? t); cbn; eauto.
    + destruct (va_ts x); [|discriminate H]. cbn [vstores] in H. injection H as <-. exists top. split; [|split; [discriminate|auto]].
      destruct (oi_access v top t (va_rd x) (if atomic then None else None) Hi) as (A1 & A2 & A3 & A4).
      unfold ot_at. apply oi_move; auto; [now rewrite Ep| |discriminate]. cbn. split; auto. intros j Hj. apply P3. lia.
  - assert (Hl : v_lock v tt = Some t) by tauto. cbv zeta in H. destruct Hpc as (P2 & P3).
    destruct (oi_access v top t (va_rd x) (once_access atomic t (v_loc v t)) Hi) as (A1 & A2 & A3 & A4).
    set (m := match once_access atomic t (v_loc v t) with Some a => _ | None => _ end) in *.
    destruct (va_ts x) as [|ts [|? ?]]; try discriminate H; cbn [vstores] in H; [|destruct (vstore _ _ _ _ _ _ _); discriminate H].
    set (at_ := match once_access atomic t (v_loc v t) with Some a' => a' =? 0 | None => false end) in *. clearbody m.
    assert (Eat : at_ = atomic) by (subst at_; unfold once_access; rewrite Ep; destruct atomic; reflexivity).
    destruct (vstore Nat.eqb at_ m t 0 1 ts) as [m'|] eqn:Es; [|discriminate]. injection H as <-.
    pose proof (vi_store Nat.eqb nat_ok (fun _ => tt) _ _ _ _ _ _ _ _ _ A1 Hl Es) as Hm'.
    destruct (vstore_inv Nat.eqb _ _ _ _ _ _ _ Es) as (V1 & V2 & V3).
    assert (Hts : 0 < ts) by lia.
    exists (fun y => if 0 =? y then ts else top y). split; [|split; [discriminate|hnf; lia]].
    destruct Hi as [H1 H2 H3 H4 H5 H6 H7 H8 H9]. constructor; cbn [v_mem v_lock v_loc]; auto.
    * subst m'. cbn [v_msg]. rewrite A2. cbn. intros n y. destruct (Nat.eqb_spec ts n) as [<-|]; [|eauto].
      intros [= <-]. destruct (Nat.eqb_spec ts 0); [lia|auto].
    * subst m'. cbn [v_msg]. rewrite A2. cbn. eauto.
    * intros u. unfold upd. destruct (Nat.eqb_spec u t) as [->|]; cbn; [tauto|apply H4].
    * intros u. unfold upd. destruct (Nat.eqb_spec u t) as [->|Hne]; cbn [ot_pc ot_at].
      -- exact Hts.
      -- specialize (H5 u). assert (Hn : BufFacts.inside (ot_pc (v_loc v u)) = false).
         { destruct (BufFacts.inside (ot_pc (v_loc v u))) eqn:E; auto. apply H4 in E. congruence. }
         destruct (ot_pc (v_loc v u)); try discriminate Hn; exact Logic.I.
    * subst m'. cbn [v_msg v_with]. rewrite A2, A3, Eat. intros Ha n Hn. rewrite Ha. rewrite Nat.eqb_refl. cbn [andb]. destruct (Nat.eqb_spec ts n) as [<-|]; [|eauto].
      intros _ j Hj. cbv beta iota. destruct (Nat.eqb_spec 0 (S j)); [discriminate|]. rewrite (vi_held _ _ _ _ A1 (S j) t Hl). auto.
    * subst m'. intros Ho u. unfold upd at 1. destruct (Nat.eqb_spec u t) as [->|Hne]; cbn [ot_pc ot_at]; [discriminate|].
      intros E j Hj. cbn. rewrite upd_ne by auto. specialize (A4 u (S j)). specialize (H8 Ho u E j Hj). lia.
    * intros Ho u. unfold upd. destruct (u =? t); cbn; eauto.
  - assert (Hl : v_lock v tt = Some t) by tauto. injection H as <-. exists top. split; [|split; [discriminate|auto]].
    pose proof (vi_unlock unit_eq unit_ok (fun _ => tt) _ _ _ t tt Hm Hl) as Hm'. cbn in Hpc.
    destruct Hi as [H1 H2 H3 H4 H5 H6 H7 H8 H9]. constructor; cbn [v_mem v_lock v_loc]; auto.
    + intros u. unfold updk. cbn. unfold upd. destruct (Nat.eqb_spec u t) as [->|Hne]; cbn; [split; discriminate|].
      split; [|discriminate]. intros Hu. apply H4 in Hu. congruence.
    + intros u. unfold upd. destruct (u =? t); cbn; auto.
    + intros Ho u. unfold upd at 1. destruct (Nat.eqb_spec u t) as [->|]; cbn [ot_pc ot_at].
      * intros _ j Hj. cbn. rewrite (vi_held _ _ _ _ Hm (S j) t Hl). auto.
      * intros E j Hj. cbn. eauto.
    + intros Ho u. unfold upd. destruct (u =? t); cbn; eauto.
  - unfold once_access in H. rewrite Ep in H.
    replace (if atomic then None else None) with (@None nat) in H by (destruct atomic; reflexivity).
    destruct (Nat.ltb_spec (va_ch x) w) as [Hc|Hc]; cbv zeta in H;
      (destruct (va_ts x); [|discriminate H]); cbn [vstores] in H; injection H as <-;
      exists top; (split; [|split; [discriminate|auto]]); apply oi_move; auto; try (now rewrite Ep); try discriminate; try exact Logic.I.
    + intros Ho _ j Hj. apply (oi_back _ _ Hi Ho t Ep j Hj).
    + intros Ho j y [E|E]; [|eapply Hse; eauto]. injection E as <- <-.
      pose proof (oi_back _ _ Hi Ho t Ep _ Hc) as Hb.
      destruct (stamp_real (fun _ => tt) _ _ top t (va_rd x) (S (va_ch x)) Hm) as (S1 & S2 & S3).
      unfold vload. destruct (v_msg (v_mem v) (S (va_ch x)) _) as [y|] eqn:Ey; [|tauto]. apply (oi_word _ _ Hi) in Ey; auto. lia.
Qed.

Lemma oi_run xs : forall v top v', oinv v top -> vrun Nat.eqb unit_eq (oprog w val fast) (once_access atomic) v xs = Some v' ->
  exists top', oinv v' top'.
Proof.
  induction xs as [|x xs IH]; cbn [vrun]; intros v top v' Hi H; [injection H as <-; eauto|].
  destruct (vstep _ _ _ _ v x) as [v1|] eqn:E; [|discriminate].
  destruct (oi_step v top x v1 Hi E) as (top1 & Hi1 & _). eauto.
Qed.

(** After the function was started it is not started again. *)
Definition running (p : opc) : bool := match p with OFunc _ | OSet => true | _ => false end.
Definition vbegun (v : vst) (top : nat -> nat) : Prop := 0 < top 0 \/ exists t, running (ot_pc (v_loc v t)) = true.

Lemma vonce_loc v x v' : vonce v x = Some v' -> exists l, v_loc v' = upd (v_loc v) (va_thr x) l /\
  (running (ot_pc (v_loc v (va_thr x))) = true -> running (ot_pc l) = true \/ ot_pc l = OLeave).
Proof.
  unfold LateSpec.vonce, vstep, oprog. set (t := va_thr x). intros H.
  destruct (ot_pc (v_loc v t)) eqn:Ep; cbv zeta in H; try discriminate H;
  repeat match type of H with context [match ?x with _ => _ end] => lazymatch x with context [match _ with _ => _ end] => fail | _ => destruct x; try discriminate H end end;
  injection H as <-; cbn [v_loc]; eexists; (split; [reflexivity|]); cbn; auto; discriminate.
Qed.

Lemma vstarts_le xs : forall v top, oinv v top -> vstarts w val fast atomic v xs <= 1 /\ (vbegun v top -> vstarts w val fast atomic v xs = 0).
Proof.
  induction xs as [|x xs IH]; cbn [vstarts]; intros v top Hi; [auto|].
  destruct (vonce v x) as [v1|] eqn:E; [|auto]. destruct (oi_step v top x v1 Hi E) as (top1 & Hi1 & Hb & Hu).
  destruct (IH v1 top1 Hi1) as [I1 I2]. destruct (vonce_loc v x v1 E) as (l & El & Hl). set (t := va_thr x) in *.
  assert (G : vbegun v top -> vbegun v1 top1).
  { intros [Hg|(u & Hg)]; [left; auto|]. destruct (Nat.eq_dec u t) as [->|Hne].
    - pose proof (oi_pc _ _ Hi1 t) as Hp. rewrite El, upd_eq in Hp. destruct (Hl Hg) as [Hr|Hr].
      + right. exists t. now rewrite El, upd_eq.
      + rewrite Hr in Hp. left. exact Hp.
    - right. exists u. now rewrite El, upd_ne. }
  destruct (begins v v1 t) eqn:Eb; [|split; [lia|intros Hg; rewrite I2; auto]].
  destruct (Hb eq_refl) as (B1 & B2 & B3). split.
  - rewrite I2; auto. right. exists t. unfold begins in Eb. rewrite B3 in Eb. destruct (ot_pc (v_loc v1 t)); auto; discriminate.
  - intros [Hg|(u & Hg)]; [lia|]. assert (Hlu : v_lock v tt = Some u).
    { apply (oi_lock _ _ Hi). destruct (ot_pc (v_loc v u)); auto; discriminate. }
    assert (u = t) by congruence. subst u. rewrite B3 in Hg. discriminate.
Qed.

Theorem late_once_starts calls xs : vstarts w val fast atomic (voinit calls) xs <= 1.
Proof. apply (vstarts_le xs _ _ (oinv_init calls)). Qed.

Theorem late_once_visible calls xs v t : fast = false \/ atomic = true ->
  vrun Nat.eqb unit_eq (oprog w val fast) (once_access atomic) (voinit calls) xs = Some v ->
  forall j y, In (j, y) (ot_seen (v_loc v t)) -> y = val j.
Proof. intros Ho H. destruct (oi_run xs _ _ _ (oinv_init calls) H) as (top & Hi). apply (oi_seen _ _ Hi Ho). Qed.
End Once.

(** A schedule with the code as it is: thread 0 runs the function, thread 1 sees the flag, but not the word. *)
Definition late_sched (rd : nat -> nat) : list (vact nat nat) :=
  map (fun e : nat * list nat => VAct (fst e) 0 rd (snd e))
    [(0, []); (0, []); (0, []); (0, [1]); (0, []); (0, [1]); (0, []); (1, []); (1, [])].
Theorem late_once_stale : exists v,
  vrun Nat.eqb unit_eq (oprog 1 (fun _ => 7) true) (once_access false) (voinit (fun _ => 1))
    (late_sched (fun a => if a =? 0 then 1 else 0)) = Some v /\
  ot_pc (v_loc v 1) = OBack /\ ot_seen (v_loc v 1) = [(0, 0)].
Proof.
  assert (H : option_map (fun v => (ot_pc (v_loc v 1), ot_seen (v_loc v 1)))
    (vrun Nat.eqb unit_eq (oprog 1 (fun _ => 7) true) (once_access false) (voinit (fun _ => 1))
      (late_sched (fun a => if a =? 0 then 1 else 0))) = Some (OBack, [(0, 0)])) by (vm_compute; reflexivity).
  destruct (vrun _ _ _ _ _ _) as [v|]; [|discriminate]. exists v. cbn in H. injection H as -> ->. auto.
Qed.

(** ** Examples *)
(** Every load returns the oldest store allowed, every store gets the next stamp but one. *)
Definition next_stamps {A W : Type} (aeq : A -> A -> bool) (view : A -> nat) (ws : list (A * W)) : list nat :=
  snd (fold_left (fun '(f, l) '(a, _) => (fun x => if aeq a x then 2 + f x else f x, l ++ [2 + f a])) ws (view, [])).
Definition oldest {V : Type} (c : cfg V) (v : vst caddr lock (cword V) (thr V)) (t : nat) : option (vst caddr lock (cword V) (thr V)) :=
  let ch := Choice false 0 (fun _ => None) 0 0 in
  let tss := match cprog c t (v_loc v t) ch with
             | Some (IMem f) => match f (vload (v_mem v) t (fun _ => 0)) with
                                | Some (ws, _) => next_stamps caddr_eq (v_view (v_mem v) t) ws
                                | None => [] end
             | _ => [] end in
  vstep caddr_eq lock_eq (cprog c) plain_access v (VAct t ch (fun _ => 0) tss).
Fixpoint oldrun {V : Type} (c : cfg V) (fuel T : nat) (v : vst caddr lock (cword V) (thr V)) : vst caddr lock (cword V) (thr V) :=
  match fuel with
  | 0 => v
  | S fuel' => oldrun c fuel' T (match oldest c v (fuel' mod T) with Some v' => v' | None => v end)
  end.
(** The results, and for each cell the stamp which thread 0 and thread 1 have to know. *)
Definition late_report :=
  match clist_init 1 0 with
  | Ok l0 => let v := oldrun buf_cfg 200 2 (vinit (b_mem (cbinit buf_cfg l0)) (b_loc (cbinit buf_cfg l0))) in
             Some (map (fun t => map snd (t_done (v_loc v t))) [0; 1], 
                   map (fun t => map (fun o => v_view (v_mem v) t (ACell 0 o 0)) [0; 1]) [0; 1])
  | Ub => None
  end.

(** A barrier of two threads; thread 0 stores 7 before. *)
Definition bar_cfg : ycfg nat := YCfg 2 1 (fun _ => None) (fun _ _ => 0) false.
Definition bar_store : zact nat nat := ZStore 0 3 7 5.
Definition bar_sched : list (zact nat nat) := [ZSync 0; ZSync 0; ZSync 1; ZSync 1; ZSync 1; ZSync 1; ZSync 1; ZSync 1].
