(** * Collective calls under the lock: invariant, progress, end *)
From Verif Require Export CollModel.

Section Facts.
Variable lib : bool.
Variables P T : nat.
Variable prog : nat -> list call.
Notation step := (lstep lib P T).
Notation reach := (lreach lib P T prog).

Definition colls (l : list call) : nat := list_sum (map k_colls l).
(** Collective calls which a thread has not entered. *)
Definition rest_of (l : list call) (ph : phase) : nat :=
  match l with
  | [] => 0
  | k :: l' => colls l' + match ph with Ready => k_colls k | In_ j => j | Arr j => j end
  end.
Lemma colls_cons k l : colls (k :: l) = k_colls k + colls l.
Proof. reflexivity. Qed.
Definition fits (l : list call) (ph : phase) : Prop :=
  match ph, l with
  | Ready, _ => True
  | In_ j, k :: _ => j <= k_colls k
  | Arr j, k :: _ => j < k_colls k
  | _, [] => False
  end.
(** Between locking and unlocking [mpiLock]. *)
Definition locked (s : lst) (p t : nat) : Prop :=
  exists k rest, l_todo s p t = k :: rest /\ k_lock k = true /\ l_ph s p t <> Ready.

Record linv (s : lst) : Prop := {
  li_arr : forall p t, l_arr s p t + rest_of (l_todo s p t) (l_ph s p t) = colls (prog t);
  li_fits : forall p t, fits (l_todo s p t) (l_ph s p t);
  li_suf : forall p t, exists k, l_todo s p t = skipn k (prog t);
  li_lock : lib = true -> forall p t, locked s p t -> l_lock s p = Some t;
  li_held : forall p t, l_lock s p = Some t -> lib = true /\ locked s p t
}.

Lemma set2_eq {A} (f : nat -> nat -> A) p t x : set2 f p t x p t = x.
Proof. unfold set2. now rewrite !Nat.eqb_refl. Qed.
Lemma set2_ne {A} (f : nat -> nat -> A) p t x p' t' : p' <> p \/ t' <> t -> set2 f p t x p' t' = f p' t'.
Proof. unfold set2. destruct (Nat.eqb_spec p' p), (Nat.eqb_spec t' t); cbn; tauto. Qed.
Lemma upd_eq' {A} (f : nat -> A) i x : upd f i x i = x.
Proof. unfold upd. now rewrite Nat.eqb_refl. Qed.
Lemma upd_ne' {A} (f : nat -> A) i x j : j <> i -> upd f i x j = f j.
Proof. unfold upd. intros H. apply Nat.eqb_neq in H. now rewrite H. Qed.

Lemma linv_init : linv (linit prog).
Proof.
  constructor; cbn.
  - intros p t. destruct (prog t) as [|k l]; [reflexivity|]. rewrite colls_cons. cbn [rest_of]. lia.
  - auto.
  - intros p t. exists 0. auto.
  - intros _ p t (k & rest & _ & _ & H). cbn in H. congruence.
  - discriminate.
Qed.

Lemma linv_step s p t s' : linv s -> step s p t = Some s' -> linv s'.
Proof.
  intros Hi H. unfold lstep in H. destruct ((p <? P) && (t <? T)); [|discriminate].
  destruct (l_todo s p t) as [|[lk n] rest] eqn:Et; [discriminate|].
  pose proof (li_arr s Hi p t) as Ha. pose proof (li_fits s Hi p t) as Hf. pose proof (li_suf s Hi p t) as Hsuf.
  rewrite Et in Ha, Hf, Hsuf. cbn [rest_of] in Ha.
  (* locked of the other threads *)
  assert (forall s', (forall p' t', p' <> p \/ t' <> t -> l_todo s' p' t' = l_todo s p' t' /\ l_ph s' p' t' = l_ph s p' t') ->
    forall p' t', p' <> p \/ t' <> t -> locked s' p' t' <-> locked s p' t') as Hloc.
  { intros s2 Ho p' t' Hne. unfold locked. destruct (Ho p' t' Hne) as [-> ->]. tauto. }
  destruct (l_ph s p t) as [|j|j] eqn:Ep.
  - (* Ready *)
    assert (exists lo, s' = LSt (l_todo s) (set2 (l_ph s) p t (In_ n)) (l_arr s) lo /\
      (lib && lk = true /\ l_lock s p = None /\ lo = upd (l_lock s) p (Some t) \/ lib && lk = false /\ lo = l_lock s)) as (lo & -> & Hlo).
    { destruct (lib && lk).
      - destruct (l_lock s p) eqn:El; [discriminate|]. injection H as <-. eauto 6.
      - injection H as <-. eauto 6. }
    clear H. specialize (Hloc (LSt (l_todo s) (set2 (l_ph s) p t (In_ n)) (l_arr s) lo)
      ltac:(intros p' t' Hne; cbn; rewrite set2_ne by auto; auto)).
    assert (forall p' t', {p' = p /\ t' = t} + {p' <> p \/ t' <> t}) as dec.
    { intros p' t'. destruct (Nat.eq_dec p' p), (Nat.eq_dec t' t); auto. }
    constructor; cbn [l_todo l_ph l_arr l_lock].
    + intros p' t'. destruct (dec p' t') as [[-> ->]|Hne]; [|rewrite set2_ne by auto; apply (li_arr s Hi)].
      rewrite set2_eq, Et. exact Ha.
    + intros p' t'. destruct (dec p' t') as [[-> ->]|Hne]; [|rewrite set2_ne by auto; apply (li_fits s Hi)].
      rewrite set2_eq, Et. cbn. auto.
    + apply (li_suf s Hi).
    + intros Hl p' t' Hk. destruct (dec p' t') as [[-> ->]|Hne].
      * destruct Hk as (k & r & E & Ek & _). cbn in E. rewrite Et in E. injection E as <- <-. cbn in Ek. subst lk.
        destruct Hlo as [(_ & _ & ->)|(E & _)]; [apply upd_eq'|]. rewrite Hl in E. discriminate.
      * apply Hloc in Hk; auto. pose proof (li_lock s Hi Hl p' t' Hk) as E. destruct Hlo as [(_ & El & ->)|(_ & ->)]; auto.
        unfold upd. destruct (Nat.eqb_spec p' p); [|auto]. subst. congruence.
    + intros p' t' E. destruct Hlo as [(E1 & El & ->)|(E1 & ->)].
      * apply andb_true_iff in E1 as [Hl ->]. unfold upd in E. destruct (Nat.eqb_spec p' p) as [->|Hne].
        -- injection E as <-. split; auto. exists (Call true n), rest. cbn. rewrite set2_eq. repeat split; auto. discriminate.
        -- destruct (li_held s Hi p' t' E) as [_ Hk]. split; auto. apply Hloc; auto.
      * destruct (li_held s Hi p' t' E) as [Hl Hk]. split; auto. destruct (dec p' t') as [[-> ->]|Hne]; [|apply Hloc; auto].
        exfalso. destruct Hk as (k & r & _ & _ & H). congruence.
  - assert (forall p' t', {p' = p /\ t' = t} + {p' <> p \/ t' <> t}) as dec.
    { intros p' t'. destruct (Nat.eq_dec p' p), (Nat.eq_dec t' t); auto. }
    destruct j as [|j]; injection H as <-.
    + specialize (Hloc (LSt (set2 (l_todo s) p t rest) (set2 (l_ph s) p t Ready) (l_arr s) (if lib && lk then upd (l_lock s) p None else l_lock s))
        ltac:(intros p' t' Hne; cbn; rewrite !set2_ne by auto; auto)).
      assert (lib && lk = true -> l_lock s p = Some t) as Hown.
      { intros E. apply andb_true_iff in E as [El ->]. apply (li_lock s Hi El). exists (Call true n), rest. rewrite Ep. repeat split; auto; discriminate. }
      constructor; cbn [l_todo l_ph l_arr l_lock].
      * intros p' t'. destruct (dec p' t') as [[-> ->]|Hne]; [|rewrite !set2_ne by auto; apply (li_arr s Hi)].
        rewrite !set2_eq. rewrite <- Ha. destruct rest as [|k l]; [cbn; lia|]. rewrite colls_cons. cbn [rest_of]. lia.
      * intros p' t'. destruct (dec p' t') as [[-> ->]|Hne]; [|rewrite !set2_ne by auto; apply (li_fits s Hi)].
        rewrite !set2_eq. exact I.
      * intros p' t'. destruct (dec p' t') as [[-> ->]|Hne]; [|rewrite !set2_ne by auto; apply (li_suf s Hi)].
        rewrite set2_eq. destruct Hsuf as (k & E). exists (S k). clear - E. revert E. generalize (prog t).
        induction k; intros l E; [cbn in E; now subst|]. destruct l; [discriminate|]. cbn in E. exact (IHk l E).
      * intros Hl p' t' Hk. destruct (dec p' t') as [[-> ->]|Hne].
        { destruct Hk as (k & r & _ & _ & H). cbn in H. rewrite set2_eq in H. congruence. }
        apply Hloc in Hk; auto. pose proof (li_lock s Hi Hl p' t' Hk) as E. destruct (lib && lk); auto.
        unfold upd. destruct (Nat.eqb_spec p' p) as [->|]; auto. specialize (Hown eq_refl). rewrite E in Hown. injection Hown as ->.
        destruct Hne; congruence.
      * intros p' t' E.
        assert (l_lock s p' = Some t' /\ (lib && lk = true -> p' <> p)) as [E' Hp].
        { destruct (lib && lk); [|split; auto; discriminate]. unfold upd in E. destruct (Nat.eqb_spec p' p); [discriminate|auto]. }
        destruct (li_held s Hi p' t' E') as [Hl Hk]. split; auto. destruct (dec p' t') as [[-> ->]|Hne]; [|apply Hloc; auto].
        exfalso. destruct Hk as (k & r & Ek & Ek' & _). rewrite Et in Ek. injection Ek as <- <-. cbn in Ek'. subst lk. rewrite Hl in Hp. now apply Hp.
    + specialize (Hloc (LSt (l_todo s) (set2 (l_ph s) p t (Arr j)) (set2 (l_arr s) p t (S (l_arr s p t))) (l_lock s))
        ltac:(intros p' t' Hne; cbn; rewrite !set2_ne by auto; auto)).
      constructor; cbn [l_todo l_ph l_arr l_lock].
      * intros p' t'. destruct (dec p' t') as [[-> ->]|Hne]; [|rewrite !set2_ne by auto; apply (li_arr s Hi)].
        rewrite !set2_eq, Et. cbn [rest_of]. lia.
      * intros p' t'. destruct (dec p' t') as [[-> ->]|Hne]; [|rewrite !set2_ne by auto; apply (li_fits s Hi)].
        rewrite !set2_eq, Et. cbn in *. lia.
      * apply (li_suf s Hi).
      * intros Hl p' t' Hk. apply (li_lock s Hi Hl). destruct (dec p' t') as [[-> ->]|Hne]; [|apply Hloc; auto].
        destruct Hk as (k & r & E & Ek & _). exists k, r. rewrite Ep. repeat split; auto. discriminate.
      * intros p' t' E. destruct (li_held s Hi p' t' E) as [Hl Hk]. split; auto. destruct (dec p' t') as [[-> ->]|Hne]; [|apply Hloc; auto].
        destruct Hk as (k & r & Ek & Ek' & _). exists k, r. cbn. rewrite set2_eq. repeat split; auto. discriminate.
  - assert (forall p' t', {p' = p /\ t' = t} + {p' <> p \/ t' <> t}) as dec.
    { intros p' t'. destruct (Nat.eq_dec p' p), (Nat.eq_dec t' t); auto. }
    destruct (forallb _ _); [|discriminate]. injection H as <-.
    specialize (Hloc (LSt (l_todo s) (set2 (l_ph s) p t (In_ j)) (l_arr s) (l_lock s))
        ltac:(intros p' t' Hne; cbn; rewrite !set2_ne by auto; auto)).
    constructor; cbn [l_todo l_ph l_arr l_lock].
    + intros p' t'. destruct (dec p' t') as [[-> ->]|Hne]; [|rewrite !set2_ne by auto; apply (li_arr s Hi)].
      rewrite !set2_eq, Et. exact Ha.
    + intros p' t'. destruct (dec p' t') as [[-> ->]|Hne]; [|rewrite !set2_ne by auto; apply (li_fits s Hi)].
      rewrite !set2_eq, Et. cbn in *. lia.
    + apply (li_suf s Hi).
    + intros Hl p' t' Hk. apply (li_lock s Hi Hl). destruct (dec p' t') as [[-> ->]|Hne]; [|apply Hloc; auto].
      destruct Hk as (k & r & E & Ek & _). exists k, r. rewrite Ep. repeat split; auto. discriminate.
    + intros p' t' E. destruct (li_held s Hi p' t' E) as [Hl Hk]. split; auto. destruct (dec p' t') as [[-> ->]|Hne]; [|apply Hloc; auto].
      destruct Hk as (k & r & Ek & Ek' & _). exists k, r. cbn. rewrite set2_eq. repeat split; auto. discriminate.
Qed.

Lemma linv_run acts : forall s s', linv s -> lrun lib P T s acts = Some s' -> linv s'.
Proof.
  induction acts as [|[p t] acts IH]; cbn; intros s s' Hi H; [now injection H as <-|].
  destruct (step s p t) as [s1|] eqn:E; [|discriminate]. exact (IH s1 s' (linv_step s p t s1 Hi E) H).
Qed.
Lemma lreach_inv s : reach s -> linv s.
Proof. intros (acts & H). eapply linv_run; [apply linv_init|exact H]. Qed.

(** A thread which is in a region without collective calls can go on. *)
Lemma in_moves s p t : linv s -> p < P -> t < T -> locked s p t ->
  (forall k rest, l_todo s p t = k :: rest -> k_colls k = 0) -> exists s', step s p t = Some s'.
Proof.
  intros Hi Hp Ht (k & rest & E & _ & Hr) H0. unfold lstep. apply Nat.ltb_lt in Hp, Ht. rewrite Hp, Ht. cbn [andb].
  pose proof (li_fits s Hi p t) as Hf. specialize (H0 k rest E). rewrite E in *. destruct k as [lk n]. cbn in H0. subst n.
  destruct (l_ph s p t) as [|j|j]; [congruence| |cbn in Hf; lia]. cbn in Hf. assert (j = 0) as -> by lia. eauto.
Qed.

(** Of a thread which has not finished on all processes: on one of them it can go on, or waits for the lock. *)
Lemma thread_moves s p t : linv s -> p < P -> t < T -> l_todo s p t <> [] ->
  exists p', p' < P /\ ((exists s', step s p' t = Some s') \/
    exists k rest o, l_todo s p' t = k :: rest /\ l_ph s p' t = Ready /\ lib = true /\ k_lock k = true /\ l_lock s p' = Some o).
Proof.
  intros Hi Hp Ht Hne.
  (* one that is not in a collective call, or the last of those in one *)
  assert (forall n, n <= P -> (exists q, q < n /\ l_todo s q t <> []) ->
    exists q, q < n /\ l_todo s q t <> [] /\
      ((match l_ph s q t with Arr _ => False | _ => True end) \/
       forall q', q' < n -> l_arr s q t <= l_arr s q' t)) as Hmin.
  { induction n as [|n IH]; intros Hn (q0 & Hq0 & Hne0); [lia|].
    destruct (l_todo s n t) as [|k l] eqn:En.
    - assert (q0 <> n) by congruence. destruct IH as (q & Hq & Hqn & Hc); [lia|exists q0; split; auto; lia|].
      exists q. split; [lia|]. split; auto. destruct Hc as [Hc|Hc]; auto. right. intros q' Hq'.
      destruct (Nat.eq_dec q' n) as [->|]; [|apply Hc; lia].
      pose proof (li_arr s Hi n t) as E1. pose proof (li_arr s Hi q t) as E2. rewrite En in E1. cbn in E1. lia.
    - destruct (l_ph s n t) as [|j|j] eqn:Eph.
      + exists n. split; [lia|]. split; [congruence|]. left. now rewrite Eph.
      + exists n. split; [lia|]. split; [congruence|]. left. now rewrite Eph.
      + assert ({exists q, q < n /\ l_todo s q t <> []} + {forall q, q < n -> l_todo s q t = []}) as [Hex|Hall].
        { clear. induction n; [right; lia|]. destruct IHn as [H|H].
          - left. destruct H as (q & H1 & H2). exists q. split; auto.
          - destruct (l_todo s n t) eqn:E; [right; intros q Hq; destruct (Nat.eq_dec q n) as [->|]; auto; apply H; lia|].
            left. exists n. split; auto. congruence. }
        * destruct IH as (q & Hq & Hqn & Hc); [lia|auto|]. destruct Hc as [Hc|Hc].
          { exists q. split; [lia|]. auto. }
          destruct (le_lt_dec (l_arr s q t) (l_arr s n t)) as [Hle|Hlt].
          -- exists q. split; [lia|]. split; auto. right. intros q' Hq'. destruct (Nat.eq_dec q' n) as [->|]; auto. apply Hc. lia.
          -- exists n. split; [lia|]. split; [congruence|]. right. intros q' Hq'. destruct (Nat.eq_dec q' n) as [->|]; auto.
             specialize (Hc q' ltac:(lia)). lia.
        * exists n. split; [lia|]. split; [congruence|]. right. intros q' Hq'. destruct (Nat.eq_dec q' n) as [->|]; auto.
          pose proof (li_arr s Hi n t) as E1. pose proof (li_arr s Hi q' t) as E2. rewrite (Hall q') in E2 by lia. cbn in E2. lia. }
  destruct (Hmin P (le_n P)) as (q & Hq & Hqn & Hc); [eauto|]. clear Hmin. exists q. split; auto.
  destruct (l_todo s q t) as [|[lk n] rest] eqn:Eq; [congruence|].
  assert ((q <? P) && (t <? T) = true) as Eb by (apply andb_true_iff; split; now apply Nat.ltb_lt).
  destruct (l_ph s q t) as [|j|j] eqn:Eph.
  - destruct (lib && lk) eqn:El.
    + destruct (l_lock s q) as [o|] eqn:Eo.
      * right. apply andb_true_iff in El as [-> ->]. exists (Call true n), rest, o. auto.
      * left. unfold lstep. rewrite Eb, Eq, Eph, El, Eo. eauto.
    + left. unfold lstep. rewrite Eb, Eq, Eph, El. eauto.
  - left. unfold lstep. rewrite Eb, Eq, Eph. destruct j; eauto.
  - destruct Hc as [[]|Hc]. left. unfold lstep. rewrite Eb, Eq, Eph.
    assert (forallb (fun q' => l_arr s q t <=? l_arr s q' t) (seq 0 P) = true) as ->; [|eauto].
    apply forallb_forall. intros q' Hin. apply in_seq in Hin. apply Nat.leb_le. apply Hc. lia.
Qed.

(** Only thread [t0] makes collective calls under the lock. *)
Definition one_opener (t0 : nat) : Prop :=
  forall t, t < T -> t <> t0 -> Forall (fun k => k_lock k = true -> k_colls k = 0) (prog t).

Lemma l_progress s : (lib = true -> exists t0, one_opener t0) -> reach s ->
  forall p t, p < P -> t < T -> l_todo s p t <> [] -> exists p' t' s', step s p' t' = Some s'.
Proof.
  intros Hone Hr p t Hp Ht Hne. pose proof (lreach_inv s Hr) as Hi.
  destruct (thread_moves s p t Hi Hp Ht Hne) as (q & Hq & [(s' & E)|(k & rest & o & E1 & E2 & El & E3 & E4)]); [eauto|].
  destruct (Hone El) as (t0 & H0).
  (* held by another thread than t0 *)
  assert (forall q o, q < P -> o < T -> l_lock s q = Some o -> o <> t0 -> exists p' t' s', step s p' t' = Some s') as Hother.
  { intros q' o' Hq' Ho' Eo Hne0. destruct (li_held s Hi q' o' Eo) as [_ Hk].
    destruct (in_moves s q' o' Hi Hq' Ho' Hk) as (s' & E); [|eauto].
    intros k' rest' E'. destruct (li_suf s Hi q' o') as (i & Es). pose proof (H0 o' Ho' Hne0) as Hf. rewrite Forall_forall in Hf.
    apply Hf; [|destruct Hk as (k2 & r2 & E5 & E6 & _); congruence].
    rewrite <- (firstn_skipn i (prog o')). apply in_or_app. right. rewrite <- Es, E'. now left. }
  assert (forall q o, l_lock s q = Some o -> o < T) as HoT.
  { clear - Hr. destruct Hr as (acts & H). assert (forall q o, l_lock (linit prog) q = Some o -> o < T) as H0 by (cbn; discriminate).
    revert H0 H. generalize (linit prog). induction acts as [|[a b] acts IH]; cbn; intros s0 H0 H; [now injection H as <-|].
    destruct (step s0 a b) as [s1|] eqn:E; [|discriminate]. refine (IH s1 _ H). clear - H0 E. unfold lstep in E.
    destruct (Nat.ltb_spec a P); [|discriminate]. destruct (Nat.ltb_spec b T); [|discriminate]. cbn [andb] in E.
    destruct (l_todo s0 a b) as [|[lk n] rest]; [discriminate|]. destruct (l_ph s0 a b) as [|[|j]|j].
    - destruct (lib && lk).
      + destruct (l_lock s0 a); [discriminate|]. injection E as <-. cbn. intros q o. unfold upd. destruct (q =? a); [|apply H0]. congruence.
      + now injection E as <-.
    - injection E as <-. cbn. intros q o. destruct (lib && lk); [|apply H0]. unfold upd. destruct (q =? a); [discriminate|apply H0].
    - now injection E as <-.
    - destruct (forallb _ _); [|discriminate]. now injection E as <-. }
  destruct (Nat.eq_dec o t0) as [->|Hno]; [|eapply (Hother q o); eauto].
  (* t0 has not finished *)
  destruct (li_held s Hi q t0 E4) as [_ Hk].
  destruct (thread_moves s q t0 Hi Hq (HoT q t0 E4)) as (q2 & Hq2 & [(s' & E)|(k2 & rest2 & o2 & F1 & F2 & _ & F3 & F4)]).
  - destruct Hk as (k2 & r2 & E5 & _). congruence.
  - eauto.
  - apply (Hother q2 o2 Hq2 (HoT q2 o2 F4) F4). intros ->. destruct (li_held s Hi q2 t0 F4) as [_ (k3 & r3 & _ & _ & Hx)]. congruence.
Qed.

(** ** The end *)
Definition weight (l : list call) (ph : phase) : nat :=
  match l with
  | [] => 0
  | k :: l' => list_sum (map (fun k => 2 * k_colls k + 2) l') +
      match ph with Ready => 2 * k_colls k + 2 | In_ j => 2 * j + 1 | Arr j => 2 * j + 2 end
  end.
Definition total2 (s : lst) : nat :=
  list_sum (map (fun p => list_sum (map (fun t => weight (l_todo s p t) (l_ph s p t)) (seq 0 T))) (seq 0 P)).

Lemma sum_lt2 (f g : nat -> nat) l j : In j l -> f j < g j -> (forall i, f i <= g i) ->
  list_sum (map f l) < list_sum (map g l).
Proof.
  intros Hin Hlt Ho. assert (forall l, list_sum (map f l) <= list_sum (map g l)) as Hle.
  { induction l0 as [|a l0 IH]; cbn [map list_sum fold_right]; auto. specialize (Ho a). unfold list_sum in *. cbn. lia. }
  induction l as [|a l IH]; [destruct Hin|]. unfold list_sum in *. cbn. destruct Hin as [->|Hin].
  - specialize (Hle l). lia.
  - specialize (IH Hin). specialize (Ho a). lia.
Qed.

Lemma total2_step s p t s' : step s p t = Some s' -> total2 s' < total2 s.
Proof.
  intros H. assert (p < P /\ t < T /\
    weight (l_todo s' p t) (l_ph s' p t) < weight (l_todo s p t) (l_ph s p t) /\
    forall p' t', p' <> p \/ t' <> t -> weight (l_todo s' p' t') (l_ph s' p' t') = weight (l_todo s p' t') (l_ph s p' t')) as (Hp & Ht & Hlt & Ho).
  { unfold lstep in H. destruct (Nat.ltb_spec p P); [|discriminate]. destruct (Nat.ltb_spec t T); [|discriminate]. cbn [andb] in H.
    destruct (l_todo s p t) as [|[lk n] rest] eqn:Et; [discriminate|]. split; auto. split; auto.
    assert (weight rest Ready = list_sum (map (fun k => 2 * k_colls k + 2) rest)) as Ew by (destruct rest as [|k l]; cbn; [auto|unfold list_sum; lia]).
    destruct (l_ph s p t) as [|[|j]|j] eqn:Ep.
    - assert (exists lo, s' = LSt (l_todo s) (set2 (l_ph s) p t (In_ n)) (l_arr s) lo) as (lo & ->).
      { destruct (lib && lk); [destruct (l_lock s p); [discriminate|]|]; injection H as <-; eauto. }
      cbn. rewrite set2_eq, Et. split; [cbn; lia|]. intros p' t' Hne. now rewrite set2_ne.
    - injection H as <-. cbn [l_todo l_ph]. rewrite !set2_eq. split; [rewrite Ew; cbn; lia|]. intros p' t' Hne. now rewrite !set2_ne.
    - injection H as <-. cbn [l_todo l_ph]. rewrite !set2_eq, Et. split; [cbn; lia|]. intros p' t' Hne. now rewrite !set2_ne.
    - destruct (forallb _ _); [|discriminate]. injection H as <-. cbn [l_todo l_ph]. rewrite !set2_eq, Et. split; [cbn; lia|].
      intros p' t' Hne. now rewrite !set2_ne. }
  unfold total2. apply sum_lt2 with (j := p); [apply in_seq; lia| |].
  - apply sum_lt2 with (j := t); [apply in_seq; lia|auto|]. intros i. destruct (Nat.eq_dec i t) as [->|]; [lia|]. rewrite Ho; auto.
  - intros q. destruct (Nat.eq_dec q p) as [->|Hne].
    + induction (seq 0 T) as [|a l IH]; [cbn; lia|]. unfold list_sum in *. cbn.
      assert (weight (l_todo s' p a) (l_ph s' p a) <= weight (l_todo s p a) (l_ph s p a)); [|lia].
      destruct (Nat.eq_dec a t) as [->|]; [lia|]. rewrite Ho; auto.
    + induction (seq 0 T) as [|a l IH]; [cbn; lia|]. unfold list_sum in *. cbn. rewrite Ho by auto. lia.
Qed.

Lemma l_bounded acts s : lrun lib P T (linit prog) acts = Some s ->
  length acts <= P * list_sum (map (fun t => list_sum (map (fun k => 2 * k_colls k + 2) (prog t))) (seq 0 T)).
Proof.
  intros H. assert (total2 s + length acts <= total2 (linit prog)) as Hb.
  { revert H. generalize (linit prog). induction acts as [|[p t] acts IH]; cbn [lrun length]; intros s0 H; [injection H as ->; lia|].
    destruct (step s0 p t) as [s1|] eqn:E; [|discriminate]. specialize (IH s1 H). pose proof (total2_step s0 p t s1 E). lia. }
  assert (total2 (linit prog) = P * list_sum (map (fun t => list_sum (map (fun k => 2 * k_colls k + 2) (prog t))) (seq 0 T))) as E; [|lia].
  unfold total2. cbn [linit l_todo l_ph].
  assert (forall t, weight (prog t) Ready = list_sum (map (fun k => 2 * k_colls k + 2) (prog t))) as Ew.
  { intros t. destruct (prog t) as [|k l]; cbn; [auto|unfold list_sum; lia]. }
  rewrite (map_ext (fun t => weight (prog t) Ready) _ Ew). generalize (list_sum (map (fun t => list_sum (map (fun k => 2 * k_colls k + 2) (prog t))) (seq 0 T))).
  intros m. clear. generalize 0. induction P as [|n IH]; intros a; cbn; auto.
Qed.

Lemma l_finishes acts s : (lib = true -> exists t0, one_opener t0) -> lrun lib P T (linit prog) acts = Some s ->
  (forall p t, step s p t = None) -> forall p t, p < P -> t < T -> l_todo s p t = [].
Proof.
  intros Hone H Hst p t Hp Ht. destruct (l_todo s p t) eqn:E; auto. exfalso.
  destruct (l_progress s Hone ltac:(exists acts; auto) p t Hp Ht ltac:(congruence)) as (p' & t' & s' & Es). congruence.
Qed.

(** ** One thread in MPI *)
(** Thread [t] of process [p] is in a region. *)
Definition in_mpi (s : lst) (p t : nat) : Prop := l_ph s p t <> Ready.

Lemma l_exclusive s p t t' : lib = true -> reach s -> locked s p t -> locked s p t' -> t = t'.
Proof.
  intros El Hr H H'. pose proof (lreach_inv s Hr) as Hi.
  pose proof (li_lock s Hi El p t H). pose proof (li_lock s Hi El p t' H'). congruence.
Qed.

Lemma l_one_in_mpi s p t t' : lib = true -> (forall t, Forall (fun k => k_lock k = true) (prog t)) -> reach s ->
  in_mpi s p t -> in_mpi s p t' -> t = t'.
Proof.
  intros El Hall Hr H H'. pose proof (lreach_inv s Hr) as Hi.
  assert (forall x, in_mpi s p x -> locked s p x) as Hk; [|eapply l_exclusive; eauto].
  intros x Hx. pose proof (li_fits s Hi p x) as Hf. destruct (l_todo s p x) as [|k rest] eqn:E.
  - unfold in_mpi in Hx. destruct (l_ph s p x); cbn in Hf; tauto.
  - exists k, rest. split; auto. split; auto. pose proof (Hall x) as Ha. rewrite Forall_forall in Ha. apply Ha.
    destruct (li_suf s Hi p x) as (i & Es). rewrite <- (firstn_skipn i (prog x)). apply in_or_app. right. rewrite <- Es, E. now left.
Qed.
End Facts.

(** ** Witnesses *)
Lemma witness lib P T prog acts (chk : lst -> bool) :
  match lrun lib P T (linit prog) acts with Some s => chk s | None => false end = true ->
  exists s, lreach lib P T prog s /\ chk s = true.
Proof. destruct (lrun lib P T (linit prog) acts) as [s|] eqn:E; [|discriminate]. intros H. exists s. split; auto. now exists acts. Qed.

Definition stuck (lib : bool) (P T : nat) (s : lst) : bool :=
  forallb (fun a => match lstep lib P T s (fst a) (snd a) with None => true | Some _ => false end) (list_prod (seq 0 P) (seq 0 T)).
Lemma stuck_none lib P T s : stuck lib P T s = true -> forall p t, lstep lib P T s p t = None.
Proof.
  intros H p t. unfold stuck in H. rewrite forallb_forall in H. destruct (Nat.ltb_spec p P) as [Hp|Hp].
  - destruct (Nat.ltb_spec t T) as [Ht|Ht].
    + assert (In (p, t) (list_prod (seq 0 P) (seq 0 T))) as Hin by (apply in_prod; apply in_seq; lia).
      specialize (H (p, t) Hin). cbn [fst snd] in H. destruct (lstep lib P T s p t); [discriminate|auto].
    + unfold lstep. apply Nat.ltb_ge in Ht. now rewrite Ht, andb_false_r.
  - unfold lstep. apply Nat.ltb_ge in Hp. now rewrite Hp.
Qed.
Definition all_left (P T k : nat) (s : lst) : bool :=
  forallb (fun a => length (l_todo s (fst a) (snd a)) =? k) (list_prod (seq 0 P) (seq 0 T)).
Lemma all_left_spec P T k s : all_left P T k s = true -> forall p t, p < P -> t < T -> length (l_todo s p t) = k.
Proof.
  intros H p t Hp Ht. unfold all_left in H. rewrite forallb_forall in H. specialize (H (p, t)). cbn [fst snd] in H. apply Nat.eqb_eq, H.
  apply in_prod; apply in_seq; lia.
Qed.
Definition busy (s : lst) (p t : nat) : bool := match l_ph s p t with Ready => false | _ => true end.
Lemma busy_in s p t : busy s p t = true -> in_mpi s p t.
Proof. unfold busy, in_mpi. destruct (l_ph s p t); congruence. Qed.

Definition both (k t : nat) : list (nat * nat) := flat_map (fun _ => [(0, t); (1, t)]) (seq 0 k).
Definition crossed : list (nat * nat) := [(0, 0); (1, 1); (0, 0); (1, 1)].

Lemma open_blocked : exists s, lreach true 2 2 (fun _ => full_open) s /\ (forall p t, lstep true 2 2 s p t = None) /\
  forall p t, p < 2 -> t < 2 -> length (l_todo s p t) = length full_open.
Proof.
  destruct (witness true 2 2 (fun _ => full_open) crossed (fun s => stuck true 2 2 s && all_left 2 2 4 s)) as (s & Hr & H).
  { vm_compute. reflexivity. }
  apply andb_true_iff in H as [H1 H2]. exists s. split; auto. split; [now apply stuck_none|]. now apply all_left_spec.
Qed.

Lemma close_blocked : exists s, lreach true 2 2 (fun _ => full_open ++ full_close) s /\ (forall p t, lstep true 2 2 s p t = None) /\
  forall p t, p < 2 -> t < 2 -> length (l_todo s p t) = 3.
Proof.
  destruct (witness true 2 2 (fun _ => full_open ++ full_close) (both 18 0 ++ both 18 1 ++ crossed)
    (fun s => stuck true 2 2 s && all_left 2 2 3 s)) as (s & Hr & H).
  { vm_compute. reflexivity. }
  apply andb_true_iff in H as [H1 H2]. exists s. split; auto. split; [now apply stuck_none|]. now apply all_left_spec.
Qed.

Lemma barrier_overlap : exists prog s, prog 0 = full_open ++ full_close /\ prog 1 = [full_read] /\
  lreach true 2 2 prog s /\ in_mpi s 0 0 /\ in_mpi s 0 1.
Proof.
  exists (fun t => match t with 0 => full_open ++ full_close | _ => [full_read] end).
  destruct (witness true 2 2 (fun t => match t with 0 => full_open ++ full_close | _ => [full_read] end)
    (both 12 0 ++ [(0, 0); (0, 0); (0, 1)]) (fun s => busy s 0 0 && busy s 0 1)) as (s & Hr & H).
  { vm_compute. reflexivity. }
  apply andb_true_iff in H as [H1 H2]. exists s. repeat split; auto using busy_in.
Qed.

Lemma types_overlap : exists prog s, prog 0 = comm_init :: type_create :: tl full_open /\ prog 1 = full_open /\
  lreach true 1 2 prog s /\ in_mpi s 0 0 /\ in_mpi s 0 1.
Proof.
  exists (fun t => match t with 0 => comm_init :: type_create :: tl full_open | _ => full_open end).
  destruct (witness true 1 2 (fun t => match t with 0 => comm_init :: type_create :: tl full_open | _ => full_open end)
    [(0, 0); (0, 0); (0, 0); (0, 0); (0, 0); (0, 1)] (fun s => busy s 0 0 && busy s 0 1)) as (s & Hr & H).
  { vm_compute. reflexivity. }
  apply andb_true_iff in H as [H1 H2]. exists s. repeat split; auto using busy_in.
Qed.
