(** * Facts about the MPI datatype of array and struct cells *)
From Verif Require Export DatatypeModel.
Require Import Bool.

(** ** Specification: the outcome for each level depends only on the sizes *)
Definition fits (el sz : nat) : bool := sz mod el =? 0.
Definition expected (el : nat) (sizes : list nat) : list opened :=
  map (fun sz =>
    if fits el sz then
      match find (fits el) sizes with
      | Some f => if sz =? f then KTook (Some (f / el, true)) else KWrong
      | None => KWrong
      end
    else KInvalid) sizes.

Definition kreachable (D el : nat) (sizes : list nat) (s : kst) : Prop :=
  exists l, krun D el sizes kinit l = Some s.

Lemma upd_eq {A} (f : nat -> A) i a : upd f i a i = a.
Proof. unfold upd. now rewrite Nat.eqb_refl. Qed.
Lemma upd_ne {A} (f : nat -> A) i j a : j <> i -> upd f i a j = f j.
Proof. unfold upd. destruct (Nat.eqb_spec j i); congruence. Qed.

Section Datatype.
Variables (D el : nat) (sizes : list nat).
Hypothesis Hel : 0 < el.
Hypothesis Hpos : Forall (fun sz => 0 < sz) sizes.

Definition no_fit (k : nat) : Prop := forall j sz, j < k -> nth_error sizes j = Some sz -> fits el sz = false.

Lemma no_fit_find k sz : no_fit k -> nth_error sizes k = Some sz -> fits el sz = true -> find (fits el) sizes = Some sz.
Proof.
  unfold no_fit. revert k. induction sizes as [|x l IH]; intros k Hk E Hf; [destruct k; discriminate|].
  cbn. destruct k as [|k].
  - cbn in E. injection E as ->. now rewrite Hf.
  - rewrite (Hk 0 x) by (auto; lia). apply (IH (Forall_inv_tail Hpos) k); auto.
    intros j s Hj Ej. apply (Hk (S j)); auto. lia.
Qed.
Lemma no_fit_same k k' sz sz' : no_fit k -> no_fit k' -> nth_error sizes k = Some sz -> nth_error sizes k' = Some sz' ->
  fits el sz = true -> fits el sz' = true -> k = k'.
Proof.
  intros H H' E E' F F'. destruct (lt_eq_lt_dec k k') as [[Hl|]|Hl]; auto; exfalso.
  - rewrite (H' k sz) in F; auto. discriminate.
  - rewrite (H k' sz') in F'; auto. discriminate.
Qed.
Lemma find_fits f : find (fits el) sizes = Some f -> fits el f = true /\ 0 < f.
Proof. intros H. apply find_some in H as [H1 H2]. rewrite Forall_forall in Hpos. auto. Qed.
Lemma fits_count sz : fits el sz = true -> sz = el * (sz / el).
Proof. unfold fits. intros H. apply Nat.eqb_eq in H. pose proof (Nat.div_mod sz el). lia. Qed.

Definition early (p : kpc) : Prop := p = KStart \/ p = KLocked.
Definition making (p : kpc) : Prop := p = KCreate \/ p = KCommit.

Definition phase_a (s : kst) : Prop :=
  k_size s = 0 /\ k_type s = None /\ k_made s = 0 /\
  forall t, early (k_pc (k_thr s t)) /\ no_fit (k_level (k_thr s t)).
Definition phase_b (s : kst) : Prop :=
  exists f c, find (fits el) sizes = Some f /\ k_size s = f / el /\
  ((k_pc (k_thr s c) = KCreate /\ k_type s = None /\ k_made s = 0) \/
   (k_pc (k_thr s c) = KCommit /\ k_type s = Some (f / el, false) /\ k_made s = 1)) /\
  forall t, no_fit (k_level (k_thr s t)) /\ k_pc (k_thr s t) <> KUse /\
            (t <> c -> ~ making (k_pc (k_thr s t))).
Definition phase_c (s : kst) : Prop :=
  exists f, find (fits el) sizes = Some f /\ k_size s = f / el /\
  k_type s = Some (f / el, true) /\ k_made s = 1 /\
  forall t, ~ making (k_pc (k_thr s t)).

Record kinv (s : kst) : Prop := {
  ki_lock : forall t, k_lock s = Some t <-> k_pc (k_thr s t) = KLocked;
  ki_out : forall t, k_out (k_thr s t) = firstn (k_level (k_thr s t)) (expected el sizes);
  ki_pc : forall t, k_pc (k_thr s t) <> KStart ->
     t < D /\ exists sz, nth_error sizes (k_level (k_thr s t)) = Some sz /\ fits el sz = true /\
       (k_pc (k_thr s t) <> KLocked -> find (fits el) sizes = Some sz);
  ki_phase : phase_a s \/ phase_b s \/ phase_c s
}.

Lemma kinv_init : kinv kinit.
Proof.
  constructor.
  - intros t. cbn. split; discriminate.
  - reflexivity.
  - intros t H. now destruct H.
  - left. split; [|split; [|split]]; auto. intros t. split; [now left|]. intros j sz Hj. cbn in Hj. lia.
Qed.

Lemma out_next (o : list opened) k x : o = firstn k (expected el sizes) -> length o = k ->
  nth_error (expected el sizes) k = Some x -> o ++ [x] = firstn (S k) (expected el sizes).
Proof.
  intros -> Hl E. generalize dependent k. induction (expected el sizes) as [|y l IH]; intros [|k] Hl E; cbn in *; try discriminate.
  - injection E as ->. reflexivity.
  - f_equal. apply IH; auto.
Qed.
Lemma nth_expected k sz : nth_error sizes k = Some sz ->
  nth_error (expected el sizes) k = Some (if fits el sz then
      match find (fits el) sizes with
      | Some f => if sz =? f then KTook (Some (f / el, true)) else KWrong
      | None => KWrong
      end else KInvalid).
Proof. intros E. unfold expected. now rewrite (map_nth_error _ _ _ E). Qed.

Lemma lock_goto s t p (Hi : kinv s) : p <> KLocked -> k_pc (k_thr s t) <> KLocked ->
  forall x, k_pc x = p -> forall t', k_lock s = Some t' <-> k_pc (upd (k_thr s) t x t') = KLocked.
Proof.
  intros Hp Hq x Ex t'. rewrite (ki_lock s Hi t'). destruct (Nat.eq_dec t' t) as [->|].
  - rewrite upd_eq, Ex. tauto.
  - rewrite upd_ne by auto. tauto.
Qed.
Lemma lock_free s t p (Hi : kinv s) : p <> KLocked -> k_pc (k_thr s t) = KLocked ->
  forall x, k_pc x = p -> forall t', None = Some t' <-> k_pc (upd (k_thr s) t x t') = KLocked.
Proof.
  intros Hp Hq x Ex t'. split; [discriminate|]. destruct (Nat.eq_dec t' t) as [->|].
  - rewrite upd_eq, Ex. tauto.
  - rewrite upd_ne by auto. intros H. apply (ki_lock s Hi) in H, Hq. congruence.
Qed.

Lemma kinv_step s t s' : kinv s -> kstep D el sizes s t = Some s' -> kinv s'.
Proof.
  intros Hi H. unfold kstep in H. destruct (Nat.leb_spec D t) as [|Ht]; [discriminate|].
  pose proof (ki_out s Hi t) as Ho.
  destruct (nth_error sizes (k_level (k_thr s t))) as [sz|] eqn:E; [|discriminate].
  pose proof (nth_expected _ _ E) as Ex.
  assert (forall x, nth_error (expected el sizes) (k_level (k_thr s t)) = Some x ->
    k_out (k_thr s t) ++ [x] = firstn (S (k_level (k_thr s t))) (expected el sizes)) as Hnext
    by (intros; apply out_next; auto).
  assert (forall x, k_level (KThr KStart (k_out (k_thr s t) ++ [x])) = S (k_level (k_thr s t))) as Hlev.
  { intros. unfold k_level. cbn. rewrite app_length. cbn. lia. }
  assert (forall p, k_level (KThr p (k_out (k_thr s t))) = k_level (k_thr s t)) as Hlev' by reflexivity.
  (* the outcomes *)
  assert (forall x t', nth_error (expected el sizes) (k_level (k_thr s t)) = Some x ->
    k_out (upd (k_thr s) t (KThr KStart (k_out (k_thr s t) ++ [x])) t') =
    firstn (k_level (upd (k_thr s) t (KThr KStart (k_out (k_thr s t) ++ [x])) t')) (expected el sizes)) as Hout.
  { intros x t' E'. destruct (Nat.eq_dec t' t) as [->|].
    - rewrite !upd_eq, Hlev. cbn [k_out]. auto.
    - rewrite !upd_ne by auto. apply Hi. }
  assert (forall p t', k_out (upd (k_thr s) t (KThr p (k_out (k_thr s t))) t') =
    firstn (k_level (upd (k_thr s) t (KThr p (k_out (k_thr s t))) t')) (expected el sizes)) as Hout'.
  { intros p t'. destruct (Nat.eq_dec t' t) as [->|]; [rewrite !upd_eq|rewrite !upd_ne by auto; apply Hi].
    rewrite Hlev'. exact Ho. }
  (* the other threads' program counters *)
  assert (forall x t', (t' = t -> k_pc x <> KStart -> exists sz, nth_error sizes (k_level x) = Some sz /\ fits el sz = true /\
            (k_pc x <> KLocked -> find (fits el) sizes = Some sz)) ->
    k_pc (upd (k_thr s) t x t') <> KStart ->
    t' < D /\ exists sz, nth_error sizes (k_level (upd (k_thr s) t x t')) = Some sz /\ fits el sz = true /\
       (k_pc (upd (k_thr s) t x t') <> KLocked -> find (fits el) sizes = Some sz)) as Hpc.
  { intros x t' Hx. destruct (Nat.eq_dec t' t) as [->|]; [rewrite !upd_eq|rewrite !upd_ne by auto; apply Hi]. auto. }
  destruct (k_pc (k_thr s t)) eqn:Ep.
  - (* KStart *)
    fold (fits el sz) in H. destruct (fits el sz) eqn:Ef; cbn [negb] in H.
    + destruct (k_lock s) as [|] eqn:El; [discriminate|]. injection H as <-.
      constructor; unfold k_go, k_put, k_set_lock; cbn [k_thr k_lock k_size k_type k_made].
      * intros t'. destruct (Nat.eq_dec t' t) as [->|]; [rewrite upd_eq; cbn; tauto|]. rewrite upd_ne by auto.
        split; [congruence|]. intros H. apply (ki_lock s Hi) in H. congruence.
      * intros t'. apply Hout'.
      * intros t'. apply Hpc. intros _ _. cbn [k_pc]. exists sz. rewrite Hlev'. repeat (split; auto). congruence.
      * destruct (ki_phase s Hi) as [(P1 & P2 & P3 & P4)|[(f & c & P1 & P2 & P3 & P4)|(f & P1 & P2 & P3 & P4 & P5)]].
        -- left. repeat (split; auto); cbn [k_thr]; destruct (Nat.eq_dec t0 t) as [->|]; rewrite ?upd_eq, ?upd_ne by auto; try apply P4.
           right. reflexivity.
        -- right; left. assert (t <> c) as Hc by (intros ->; rewrite Ep in P3; destruct P3 as [[? _]|[? _]]; discriminate).
           exists f, c. cbn [k_thr k_size k_type k_made]. rewrite (upd_ne _ t c) by auto.
           repeat (split; auto); destruct (Nat.eq_dec t0 t) as [->|]; rewrite ?upd_eq, ?upd_ne by auto; try apply P4; cbn; try discriminate.
           intros _ [?|?]; discriminate.
        -- right; right. exists f. cbn [k_thr k_size k_type k_made]. repeat (split; auto).
           intros t0. destruct (Nat.eq_dec t0 t) as [->|]; rewrite ?upd_eq, ?upd_ne by auto; auto. intros [?|?]; discriminate.
    + injection H as <-.
      constructor; unfold k_ret, k_put; cbn [k_thr k_lock k_size k_type k_made].
      * apply (lock_goto s t KStart Hi); auto; congruence.
      * intros t'. now apply Hout.
      * intros t'. apply Hpc. intros _ Hn. now destruct Hn.
      * assert (no_fit (k_level (k_thr s t)) -> no_fit (S (k_level (k_thr s t)))) as Hnf.
        { intros H j sz' Hj Ej. destruct (Nat.eq_dec j (k_level (k_thr s t))) as [->|]; [congruence|]. apply (H j); auto. lia. }
        destruct (ki_phase s Hi) as [(P1 & P2 & P3 & P4)|[(f & c & P1 & P2 & P3 & P4)|(f & P1 & P2 & P3 & P4 & P5)]].
        -- left. repeat (split; auto); cbn [k_thr]; destruct (Nat.eq_dec t0 t) as [->|]; rewrite ?upd_eq, ?upd_ne by auto; try apply P4.
           ++ left. reflexivity.
           ++ rewrite Hlev. apply Hnf, P4.
        -- right; left. assert (t <> c) as Hc by (intros ->; rewrite Ep in P3; destruct P3 as [[? _]|[? _]]; discriminate).
           exists f, c. cbn [k_thr k_size k_type k_made]. rewrite (upd_ne _ t c) by auto.
           repeat (split; auto); destruct (Nat.eq_dec t0 t) as [->|]; rewrite ?upd_eq, ?upd_ne by auto; try apply P4; cbn [k_pc]; try discriminate.
           ++ rewrite Hlev. apply Hnf, P4.
           ++ intros _ [?|?]; discriminate.
        -- right; right. exists f. cbn [k_thr k_size k_type k_made]. repeat (split; auto).
           intros t0. destruct (Nat.eq_dec t0 t) as [->|]; rewrite ?upd_eq, ?upd_ne by auto; auto. intros [?|?]; discriminate.
  - (* KLocked *)
    destruct (ki_pc s Hi t) as [_ (sz' & E' & Ef & _)]; [congruence|]. rewrite E in E'. injection E' as <-. rewrite Ef in Ex.
    destruct (Nat.eqb_spec (k_size s) 0) as [Ez|Ez].
    + injection H as <-.
      destruct (ki_phase s Hi) as [(P1 & P2 & P3 & P4)|Hbc]; cycle 1.
      { exfalso. assert (exists f, find (fits el) sizes = Some f /\ k_size s = f / el) as (f & F1 & F2).
        { destruct Hbc as [(f & c & P1 & P2 & _)|(f & P1 & P2 & _)]; eauto. }
        destruct (find_fits f F1) as [F3 F4]. apply fits_count in F3. rewrite <- F2, Ez in F3. lia. }
      pose proof (proj2 (P4 t)) as Hnf. pose proof (no_fit_find _ _ Hnf E Ef) as Hfind.
      constructor; unfold k_go, k_put; cbn [k_thr k_lock k_size k_type k_made].
      * apply (lock_free s t KCreate Hi); auto; congruence.
      * intros t'. apply Hout'.
      * intros t'. apply Hpc. intros _ _. cbn [k_pc]. exists sz. rewrite Hlev'. auto.
      * right; left. exists sz, t. cbn [k_thr k_size k_type k_made]. rewrite upd_eq. cbn [k_pc].
        split; auto. split; auto. split; [left; auto|].
        intros t0. destruct (Nat.eq_dec t0 t) as [->|]; rewrite ?upd_eq, ?upd_ne by auto.
        -- rewrite Hlev'. repeat (split; auto); cbn; discriminate || congruence.
        -- destruct (P4 t0) as [[Q|Q] Q']; rewrite Q; repeat (split; auto); try discriminate; intros _ [?|?]; discriminate.
    + destruct (negb (sz / el =? k_size s)) eqn:Eq; injection H as <-.
      * (* another size *)
        apply negb_true_iff, Nat.eqb_neq in Eq.
        destruct (ki_phase s Hi) as [(P1 & _)|Hbc]; [congruence|].
        assert (exists f, find (fits el) sizes = Some f /\ k_size s = f / el) as (f & F1 & F2).
        { destruct Hbc as [(f & c & P1 & P2 & _)|(f & P1 & P2 & _)]; eauto. }
        rewrite F1 in Ex. assert (sz <> f) as Hne by congruence. rewrite (proj2 (Nat.eqb_neq sz f) Hne) in Ex.
        constructor; unfold k_ret, k_put, k_set_lock; cbn [k_thr k_lock k_size k_type k_made].
        -- apply (lock_free s t KStart Hi); auto; congruence.
        -- intros t'. now apply Hout.
        -- intros t'. apply Hpc. intros _ Hn. now destruct Hn.
        -- destruct Hbc as [(f' & c & P1 & P2 & P3 & P4)|(f' & P1 & P2 & P3 & P4 & P5)].
           ++ exfalso. pose proof (no_fit_find _ _ (proj1 (P4 t)) E Ef). congruence.
           ++ right; right. exists f'. cbn [k_thr k_size k_type k_made]. repeat (split; auto).
              intros t0. destruct (Nat.eq_dec t0 t) as [->|]; rewrite ?upd_eq, ?upd_ne by auto; auto. intros [?|?]; discriminate.
      * (* the same size *)
        apply negb_false_iff, Nat.eqb_eq in Eq.
        destruct (ki_phase s Hi) as [(P1 & _)|Hbc]; [congruence|].
        assert (exists f, find (fits el) sizes = Some f /\ k_size s = f / el) as (f & F1 & F2).
        { destruct Hbc as [(f & c & P1 & P2 & _)|(f & P1 & P2 & _)]; eauto. }
        assert (sz = f) as ->.
        { rewrite (fits_count sz Ef), (fits_count f (proj1 (find_fits f F1))). congruence. }
        constructor; unfold k_go, k_put, k_set_lock; cbn [k_thr k_lock k_size k_type k_made].
        -- apply (lock_free s t KBarrier Hi); auto; congruence.
        -- intros t'. apply Hout'.
        -- intros t'. apply Hpc. intros _ _. exists f. rewrite Hlev'. auto.
        -- destruct Hbc as [(f' & c & P1 & P2 & P3 & P4)|(f' & P1 & P2 & P3 & P4 & P5)].
           ++ right; left. assert (t <> c) as Hc by (intros ->; rewrite Ep in P3; destruct P3 as [[? _]|[? _]]; discriminate).
              exists f', c. cbn [k_thr k_size k_type k_made]. rewrite (upd_ne _ t c) by auto.
              repeat (split; auto); destruct (Nat.eq_dec t0 t) as [->|]; rewrite ?upd_eq, ?upd_ne by auto; try apply P4; cbn [k_pc]; try discriminate.
              intros _ [?|?]; discriminate.
           ++ right; right. exists f'. cbn [k_thr k_size k_type k_made]. repeat (split; auto).
              intros t0. destruct (Nat.eq_dec t0 t) as [->|]; rewrite ?upd_eq, ?upd_ne by auto; auto. intros [?|?]; discriminate.
  - (* KCreate *)
    injection H as <-. destruct (ki_pc s Hi t) as [_ (sz' & E' & Ef & Efind)]; [congruence|].
    constructor; unfold k_go, k_put; cbn [k_thr k_lock k_size k_type k_made].
    + apply (lock_goto s t KCommit Hi); auto; congruence.
    + intros t'. apply Hout'.
    + intros t'. apply Hpc. intros _ _. exists sz'. rewrite Hlev'. cbn. repeat (split; auto). intros _. apply Efind. congruence.
    + right; left. destruct (ki_phase s Hi) as [(P1 & P2 & P3 & P4)|[(f & c & P1 & P2 & P3 & P4)|(f & P1 & P2 & P3 & P4 & P5)]].
      * exfalso. destruct (P4 t) as [[Q|Q] _]; congruence.
      * destruct (Nat.eq_dec t c) as [->|Hc]; [|exfalso; apply (proj2 (proj2 (P4 t)) Hc); now left].
        destruct P3 as [(_ & Q1 & Q2)|(Q & _)]; [|congruence].
        exists f, c. cbn [k_thr k_size k_type k_made]. rewrite upd_eq. cbn [k_pc]. rewrite P2, Q2.
        repeat (split; auto).
        all: try (destruct (Nat.eq_dec t c) as [->|]; rewrite ?upd_eq, ?upd_ne by auto; try apply P4; auto).
        cbn. discriminate.
      * exfalso. apply (P5 t). now left.
  - (* KCommit *)
    injection H as <-. destruct (ki_pc s Hi t) as [_ (sz' & E' & Ef & Efind)]; [congruence|].
    constructor; unfold k_go, k_put; cbn [k_thr k_lock k_size k_type k_made].
    + apply (lock_goto s t KBarrier Hi); auto; congruence.
    + intros t'. apply Hout'.
    + intros t'. apply Hpc. intros _ _. exists sz'. rewrite Hlev'. cbn. repeat (split; auto). intros _. apply Efind. congruence.
    + right; right. destruct (ki_phase s Hi) as [(P1 & P2 & P3 & P4)|[(f & c & P1 & P2 & P3 & P4)|(f & P1 & P2 & P3 & P4 & P5)]].
      * exfalso. destruct (P4 t) as [[Q|Q] _]; congruence.
      * destruct (Nat.eq_dec t c) as [->|Hc]; [|exfalso; apply (proj2 (proj2 (P4 t)) Hc); now right].
        destruct P3 as [(Q & _)|(_ & Q1 & Q2)]; [congruence|].
        exists f. cbn [k_thr k_size k_type k_made]. rewrite Q1.
        repeat (split; auto). intros t0. destruct (Nat.eq_dec t0 c) as [->|]; rewrite ?upd_eq, ?upd_ne by auto.
        -- intros [?|?]; discriminate.
        -- now apply P4.
      * exfalso. apply (P5 t). now right.
  - (* KBarrier *)
    destruct (forallb _ _) eqn:Eb; [|discriminate]. injection H as <-.
    destruct (ki_pc s Hi t) as [_ (sz' & E' & Ef & Efind)]; [congruence|].
    assert (sz' = sz) as -> by congruence.
    constructor; unfold k_go, k_put; cbn [k_thr k_lock k_size k_type k_made].
    + apply (lock_goto s t KUse Hi); auto; congruence.
    + intros t'. apply Hout'.
    + intros t'. apply Hpc. intros _ _. exists sz. rewrite Hlev'. cbn. repeat (split; auto). intros _. apply Efind. congruence.
    + destruct (ki_phase s Hi) as [(P1 & P2 & P3 & P4)|[(f & c & P1 & P2 & P3 & P4)|(f & P1 & P2 & P3 & P4 & P5)]].
      * exfalso. destruct (P4 t) as [[Q|Q] _]; congruence.
      * exfalso. assert (k_pc (k_thr s c) = KCreate \/ k_pc (k_thr s c) = KCommit) as Hc by tauto.
        destruct (ki_pc s Hi c) as [Hcd (sc & Ec & Fc & _)]; [destruct Hc as [Q|Q]; rewrite Q; discriminate|].
        pose proof (no_fit_same _ _ _ _ (proj1 (P4 t)) (proj1 (P4 c)) E Ec Ef Fc) as Hk.
        rewrite forallb_forall in Eb. specialize (Eb c). rewrite in_seq in Eb. specialize (Eb ltac:(lia)).
        unfold entered in Eb. rewrite Hk, Nat.ltb_irrefl, Nat.eqb_refl in Eb.
        destruct Hc as [Q|Q]; rewrite Q in Eb; discriminate.
      * right; right. exists f. cbn [k_thr k_size k_type k_made]. repeat (split; auto).
        intros t0. destruct (Nat.eq_dec t0 t) as [->|]; rewrite ?upd_eq, ?upd_ne by auto; auto. intros [?|?]; discriminate.
  - (* KUse *)
    injection H as <-. destruct (ki_pc s Hi t) as [_ (sz' & E' & Ef & Efind)]; [congruence|].
    assert (sz' = sz) as -> by congruence. rewrite Ef, Efind, Nat.eqb_refl in Ex by congruence.
    destruct (ki_phase s Hi) as [(P1 & P2 & P3 & P4)|[(f & c & P1 & P2 & P3 & P4)|(f & P1 & P2 & P3 & P4 & P5)]].
    + exfalso. destruct (P4 t) as [[Q|Q] _]; congruence.
    + exfalso. apply (proj1 (proj2 (P4 t))). auto.
    + assert (f = sz) as -> by (rewrite Efind in P1 by congruence; congruence).
      constructor; unfold k_ret, k_put; cbn [k_thr k_lock k_size k_type k_made].
      * apply (lock_goto s t KStart Hi); auto; congruence.
      * intros t'. rewrite P3. now apply Hout.
      * intros t'. apply Hpc. intros _ Hn. now destruct Hn.
      * right; right. exists sz. cbn [k_thr k_size k_type k_made]. repeat (split; auto).
        intros t0. destruct (Nat.eq_dec t0 t) as [->|]; rewrite ?upd_eq, ?upd_ne by auto; auto. intros [?|?]; discriminate.
Qed.

Lemma kinv_reach s : kreachable D el sizes s -> kinv s.
Proof.
  intros [l H]. revert H. generalize kinit, kinv_init.
  induction l as [|t l IH]; intros s0 H0 H; cbn in H; [congruence|].
  destruct (kstep D el sizes s0 t) as [s1|] eqn:E; [|discriminate]. apply (IH s1); auto. eapply kinv_step; eauto.
Qed.

Lemma datatype_outcomes s t : kreachable D el sizes s ->
  k_out (k_thr s t) = firstn (length (k_out (k_thr s t))) (expected el sizes).
Proof. intros H. apply (ki_out s (kinv_reach s H)). Qed.

Lemma datatype_once s : kreachable D el sizes s -> k_made s <= 1.
Proof.
  intros H. destruct (ki_phase s (kinv_reach s H)) as [(_ & _ & -> & _)|[(f & c & _ & _ & [(_ & _ & ->)|(_ & _ & ->)] & _)|(f & _ & _ & _ & -> & _)]]; lia.
Qed.

Lemma datatype_progress s t : kreachable D el sizes s -> t < D -> length (k_out (k_thr s t)) < length sizes ->
  exists t' s', kstep D el sizes s t' = Some s'.
Proof.
  intros Hr Ht Hl. pose proof (kinv_reach s Hr) as Hi.
  assert (forall t', t' < D -> k_level (k_thr s t') < length sizes -> exists sz, nth_error sizes (k_level (k_thr s t')) = Some sz) as Hsz.
  { intros t' _ H. apply nth_error_Some in H. destruct (nth_error sizes _); [eauto|congruence]. }
  destruct (k_lock s) as [h|] eqn:El.
  { pose proof (proj1 (ki_lock s Hi h) El) as Ep. destruct (ki_pc s Hi h) as [Hh (sz & E & _)]; [congruence|].
    exists h. unfold kstep. rewrite (proj2 (Nat.leb_gt D h) Hh), E, Ep.
    destruct (k_size s =? 0); [eauto|]. destruct (negb _); eauto. }
  (* somebody who is not in the barrier *)
  destruct (find (fun t' => (k_level (k_thr s t') <? length sizes) && match k_pc (k_thr s t') with KBarrier => false | _ => true end) (seq 0 D)) as [t'|] eqn:Ef.
  { apply find_some in Ef as [Hin Hb]. apply in_seq in Hin. apply andb_true_iff in Hb as [Hb1 Hb2]. apply Nat.ltb_lt in Hb1.
    destruct (Hsz t' ltac:(lia) Hb1) as [sz E]. exists t'. unfold kstep. rewrite (proj2 (Nat.leb_gt D t')), E by lia.
    destruct (k_pc (k_thr s t')) eqn:Ep; try discriminate; eauto.
    - rewrite El. destruct (negb _); eauto.
    - destruct (k_size s =? 0); [eauto|]. destruct (negb _); eauto. }
  assert (forall t', t' < D -> k_level (k_thr s t') < length sizes -> k_pc (k_thr s t') = KBarrier) as Hbar.
  { intros t' Ht' Hl'. assert (In t' (seq 0 D)) as Hin by (apply in_seq; lia).
    pose proof (find_none _ _ Ef _ Hin) as Hn. cbv beta in Hn. rewrite (proj2 (Nat.ltb_lt _ _) Hl') in Hn. cbn [andb] in Hn.
    destruct (k_pc (k_thr s t')); try discriminate; auto. }
  (* the slowest one *)
  assert (exists t', t' < D /\ k_level (k_thr s t') < length sizes /\ forall t'', t'' < D -> k_level (k_thr s t') <= k_level (k_thr s t'')) as (t' & H1 & H2 & H3).
  { clear - Ht Hl. remember (k_level (k_thr s t)) as k eqn:Ek. revert t Ht Hl Ek. induction k as [k IH] using lt_wf_ind.
    intros t Ht Hl ->. destruct (find (fun t'' => k_level (k_thr s t'') <? k_level (k_thr s t)) (seq 0 D)) as [t''|] eqn:E.
    - apply find_some in E as [Hin Hb]. apply in_seq in Hin. apply Nat.ltb_lt in Hb.
      apply (IH _ Hb t''); auto; unfold k_level in *; lia.
    - exists t. split; auto. split; auto. intros t'' H''. assert (In t'' (seq 0 D)) as Hin by (apply in_seq; lia).
      pose proof (find_none _ _ E _ Hin) as Hn. cbv beta in Hn. now apply Nat.ltb_ge in Hn. }
  destruct (Hsz t' H1 H2) as [sz E]. exists t'. unfold kstep. rewrite (proj2 (Nat.leb_gt D t')), E by lia. rewrite (Hbar t' H1 H2).
  replace (forallb _ _) with true; [eauto|]. symmetry. apply forallb_forall. intros t'' Hin. apply in_seq in Hin.
  unfold entered. specialize (H3 t'' ltac:(lia)).
  destruct (Nat.ltb_spec (k_level (k_thr s t')) (k_level (k_thr s t''))); auto. cbn [orb].
  assert (k_level (k_thr s t') = k_level (k_thr s t'')) as Eq by lia. rewrite Eq, Nat.eqb_refl, Hbar by (lia || congruence). reflexivity.
Qed.

End Datatype.

(** ** Example: three domains, integer arrays, four levels *)
Definition three_sizes : list nat := [12; 7; 8; 12].
(** Tries the domains in turn. *)
Fixpoint kturns (fuel t : nat) (s : kst) : list nat * kst :=
  match fuel with
  | 0 => ([], s)
  | S fuel' => match kstep 3 4 three_sizes s (t mod 3) with
               | Some s' => let (l, s'') := kturns fuel' (S t) s' in (t mod 3 :: l, s'')
               | None => kturns fuel' (S t) s
               end
  end.
Lemma kturns_run fuel t s : krun 3 4 three_sizes s (fst (kturns fuel t s)) = Some (snd (kturns fuel t s)).
Proof.
  revert t s. induction fuel as [|fuel IH]; intros t s; cbn [kturns]; auto.
  destruct (kstep 3 4 three_sizes s (t mod 3)) as [s'|] eqn:E; auto.
  specialize (IH (S t) s'). destruct (kturns fuel (S t) s') as [l s'']. cbn [fst snd krun] in *. now rewrite E.
Qed.

(** [check] has returned SUCCESS in domain 1, but the datatype does not exist yet. *)
Lemma check_alone : exists s, kreachable 3 4 three_sizes s /\ k_pc (k_thr s 1) = KBarrier /\ k_type s = None.
Proof.
  destruct (krun 3 4 three_sizes kinit [0; 0; 1; 1]) as [s|] eqn:E; [|discriminate E].
  exists s. split; [exists [0; 0; 1; 1]; auto|]. vm_compute in E. injection E as <-. auto.
Qed.
