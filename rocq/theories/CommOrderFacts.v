(** * Concurrent registrations: facts *)
From Coq Require Import Lia Permutation.
From Verif Require Import CommThreadModel CommThreadFacts.
Local Open Scope Z_scope.

(** Every process registers in the order of the numbers: before [g] all smaller
    registrations it belongs to. *)
Definition in_order (grp : nat -> list nat) (l : list kact) : Prop :=
  forall l1 r g l2, l = l1 ++ KEnter r g :: l2 ->
  forall g', (g' < g)%nat -> In r (grp g') -> In (KEnter r g') l1.

Section Order.
Variable grp : nat -> list nat.

Ltac open_k H :=
  cbn [kstep] in H; cbn zeta in H;
  repeat match type of H with
  | Some (Ok _) = Some (Ok _) => injection H as <-
  | None = Some _ => discriminate H
  | Some Ub = Some (Ok _) => discriminate H
  | match ?x with _ => _ end = Some (Ok _) => destruct x eqn:?
  end.

(** Effects of the steps on the registrations. *)
Lemma other_step s a s' : kstep grp s a = Some (Ok s') ->
  (forall r g, a <> KEnter r g) -> ks_in s' = ks_in s.
Proof.
  intros H N. destruct a as [r0 g0|r0 g0|r0 g0|r0 g0 k d|r0 src];
    [exfalso; exact (N r0 g0 eq_refl)| | | |]; open_k H; reflexivity.
Qed.
Lemma enter_step s r g s' : kstep grp s (KEnter r g) = Some (Ok s') ->
  kp_lock (ks_proc s r) = KFree /\ ks_in s g r = None /\ In r (grp g) /\
  ks_in s' = upd2 (ks_in s) g r (Some (kp_next (ks_proc s r))) /\ ks_tag s' = ks_tag s.
Proof. intros H. open_k H. repeat split; auto. apply existsb_eqb. assumption. Qed.

(** The participants of a run. *)
Lemma in_run l s g r : krun grp kinit l = Some (Ok s) -> ks_in s g r <> None -> In (KEnter r g) l.
Proof.
  revert s. induction l as [|a l IH] using rev_ind; intros s H X.
  - cbn in H. injection H as <-. cbn in X. contradiction.
  - rewrite krun_app in H. destruct (krun grp kinit l) as [[s0|]|] eqn:E; try discriminate H.
    cbn [krun] in H. destruct (kstep grp s0 a) as [[s1|]|] eqn:E1; try discriminate H. injection H as ->.
    apply in_or_app.
    destruct a as [r0 g0|r0 g0|r0 g0|r0 g0 k d|r0 src];
      [|left; apply (IH s0 eq_refl); rewrite <- (other_step _ _ _ E1) by discriminate; exact X ..].
    destruct (enter_step _ _ _ _ E1) as (_ & _ & _ & EI & _). rewrite EI in X.
    destruct (upd2_cases (ks_in s0) g0 r0 (Some (kp_next (ks_proc s0 r0))) g r) as [(-> & -> & _)|(_ & Y)].
    + right. left. reflexivity.
    + left. apply (IH s0 eq_refl). rewrite <- Y. exact X.
Qed.

(** Runs that register in order, with registrations below [n]. *)
Definition oreach (n : nat) (s : kst) : Prop :=
  exists l, krun grp kinit l = Some (Ok s) /\ in_order grp l /\ (forall r g, In (KEnter r g) l -> (g < n)%nat).

Lemma oreach_reach n s : oreach n s -> kreachable grp s.
Proof. intros (l & H & _). exists l. exact H. Qed.
Lemma oreach_small n s : Z.of_nat n <= 32766 -> oreach n s -> small s.
Proof.
  intros N (l & H & _ & B) r g t T. pose proof (tag_bound grp n l s r g t H B T). unfold UNREG_TAG. lia.
Qed.

Lemma in_order_pre l1 l2 : in_order grp (l1 ++ l2) -> in_order grp l1.
Proof.
  intros O a r g b E. apply (O a r g (b ++ l2)). rewrite E, <- app_assoc. reflexivity.
Qed.
Lemma in_order_snoc l a : in_order grp l ->
  (forall r g, a = KEnter r g -> forall g', (g' < g)%nat -> In r (grp g') -> In (KEnter r g') l) ->
  in_order grp (l ++ [a]).
Proof.
  intros O N l1 r g l2 E g' L I.
  destruct (exists_last (l := KEnter r g :: l2)) as (m & z & EZ); [discriminate|].
  rewrite EZ, app_assoc in E. apply app_inj_tail in E. destruct E as [E ->].
  destruct m as [|y m]; cbn [app] in EZ.
  - injection EZ as E1 E2. rewrite app_nil_r in E. subst. eapply N; eauto.
  - injection EZ as E1 E2. subst. eapply O; eauto.
Qed.

Lemma oreach_other n s a s' : oreach n s -> kstep grp s a = Some (Ok s') -> (forall r g, a <> KEnter r g) -> oreach n s'.
Proof.
  intros (l & H & O & B) E N. exists (l ++ [a]). split; [rewrite krun_app, H; cbn [krun]; rewrite E; reflexivity|]. split.
  - apply in_order_snoc; [exact O|]. intros r g ->. exfalso. exact (N r g eq_refl).
  - intros r g I. apply in_app_or in I. destruct I as [I|[->|[]]]; [exact (B _ _ I)|exfalso; exact (N r g eq_refl)].
Qed.
Lemma oreach_enter n s r g s' : oreach n s -> kstep grp s (KEnter r g) = Some (Ok s') -> (g < n)%nat ->
  (forall g', (g' < g)%nat -> In r (grp g') -> ks_in s g' r <> None) -> oreach n s'.
Proof.
  intros (l & H & O & B) E N F. exists (l ++ [KEnter r g]). split; [rewrite krun_app, H; cbn [krun]; rewrite E; reflexivity|]. split.
  - apply in_order_snoc; [exact O|]. intros r0 g0 E0 g' L I. injection E0 as <- <-.
    apply (in_run l s); [exact H|]. apply F; assumption.
  - intros r0 g0 I. apply in_app_or in I. destruct I as [I|[E0|[]]]; [exact (B _ _ I)|injection E0 as <- <-; exact N].
Qed.

(** A process that takes part in [g] has finished the smaller ones. *)
Lemma finished_before n s r g g' : oreach n s -> ks_in s g r <> None -> (g' < g)%nat -> In r (grp g') -> ks_tag s r g' <> None.
Proof.
  intros (l & H & O & _). revert s H O g g'.
  induction l as [|a l IH] using rev_ind; intros s H O g g' X L M.
  - cbn in H. injection H as <-. cbn in X. contradiction.
  - rewrite krun_app in H. destruct (krun grp kinit l) as [[s0|]|] eqn:E; try discriminate H.
    cbn [krun] in H. destruct (kstep grp s0 a) as [[s1|]|] eqn:E1; try discriminate H. injection H as ->.
    assert (R0 : kreachable grp s0) by (exists l; exact E). pose proof (kinv1_reachable grp s0 R0) as I0.
    assert (K : ks_tag s0 r g' <> None -> ks_tag s r g' <> None).
    { intros T. destruct (ks_tag s0 r g') as [t|] eqn:ET; [|contradiction].
      rewrite (tag_kept grp s0 a s r g' t E1 I0 ET). discriminate. }
    apply K. pose proof (in_order_pre _ _ O) as O0.
    destruct a as [r0 g0|r0 g0|r0 g0|r0 g0 k d|r0 src];
      [|apply (IH s0 eq_refl O0 g g'); auto; rewrite <- (other_step _ _ _ E1) by discriminate; exact X ..].
    destruct (enter_step _ _ _ _ E1) as (FR & _ & _ & EI & _). rewrite EI in X.
    destruct (upd2_cases (ks_in s0) g0 r0 (Some (kp_next (ks_proc s0 r0))) g r) as [(-> & -> & _)|(_ & Y)].
    + assert (I1 : In (KEnter r0 g') l) by exact (O l r0 g0 [] eq_refl g' L M).
      assert (P : ks_in s0 g' r0 <> None).
      { clear - I1 E. revert s0 E I1. induction l as [|a l IH] using rev_ind; intros s0 E I1; [contradiction|].
        rewrite krun_app in E. destruct (krun grp kinit l) as [[s1|]|] eqn:E0; try discriminate E.
        cbn [krun] in E. destruct (kstep grp s1 a) as [[s2|]|] eqn:E1; try discriminate E. injection E as ->.
        apply in_app_or in I1. destruct I1 as [I1|[->|[]]].
        - specialize (IH s1 eq_refl I1). destruct a as [r0' g0|r0' g0|r0' g0|r0' g0 k d|r0' src];
            [|rewrite (other_step _ _ _ E1) by discriminate; exact IH ..].
          destruct (enter_step _ _ _ _ E1) as (_ & _ & _ & EI & _). rewrite EI.
          destruct (upd2_cases (ks_in s1) g0 r0' (Some (kp_next (ks_proc s1 r0'))) g' r0) as [(_ & _ & ->)|(_ & ->)]; [discriminate|exact IH].
        - destruct (enter_step _ _ _ _ E1) as (_ & _ & _ & EI & _). rewrite EI, upd2_eq. discriminate. }
      intros T. destruct (ks_in s0 g' r0) as [x|] eqn:EX; [|contradiction].
      pose proof (k_pend grp s0 I0 _ _ _ EX T). congruence.
    + apply (IH s0 eq_refl O0 g g'); auto. rewrite <- Y. exact X.
Qed.

(** A waiting unregisterReceiver has its message in flight. *)
Definition del_sent (s : kst) : Prop :=
  forall r, kp_lock (ks_proc s r) = KDel -> exists m, In m (ks_net s) /\ km_id m = None /\ km_dst m = r /\ km_src m = r.
Lemma del_step s a s' : kreachable grp s -> small s -> del_sent s -> kstep grp s a = Some (Ok s') -> del_sent s'.
Proof.
  intros R SM D H r L. pose proof (kinv2_reachable grp s R SM) as J.
  destruct a as [r0 g0|r0 g0|r0 g0|r0 g0 k d|r0 src].
  - open_k H. cbn [ks_proc ks_net] in *. destruct (Nat.eq_dec r r0) as [->|N]; [rewrite upd_eq in L; discriminate L|].
    rewrite upd_ne in L by exact N. exact (D r L).
  - open_k H. cbn [ks_proc ks_net] in *. destruct (Nat.eq_dec r r0) as [->|N]; [rewrite upd_eq in L; discriminate L|].
    rewrite upd_ne in L by exact N. exact (D r L).
  - open_k H. cbn [ks_proc ks_net] in *. destruct (Nat.eq_dec r r0) as [->|N].
    + eexists. split; [apply in_or_app; right; left; reflexivity|]. auto.
    + rewrite upd_ne in L by exact N. destruct (D r L) as (m & M & X). exists m. split; [apply in_or_app; left; exact M|exact X].
  - open_k H; cbn [ks_proc ks_net] in *; destruct (D r L) as (m & M & X); exists m; (split; [|exact X]); try exact M.
    apply in_or_app; left; exact M.
  - cbn [kstep] in H. rewrite (k_run grp s J r0) in H.
    destruct (ktake src r0 (ks_net s)) as [[m net]|] eqn:TAKE; [|discriminate H]. cbn zeta in H.
    apply ktake_perm in TAKE. destruct TAKE as (PERM & MS & MD).
    assert (MIN : In m (ks_net s)) by (rewrite PERM; left; reflexivity).
    pose proof (k_msg grp s J m MIN) as MOK. unfold msg_ok in MOK.
    assert (G : ks_net s' = net /\ (kp_lock (ks_proc s' r) = KDel -> kp_lock (ks_proc s r) = KDel /\ (km_id m <> None \/ km_dst m <> r))).
    { destruct (km_id m) as [id|] eqn:EID.
      - destruct MOK as (g & k & _ & T & _). pose proof (SM _ _ _ T) as LT.
        destruct (Z.eqb_spec (km_tag m) EXIT_TAG) as [E|_]; [unfold EXIT_TAG, UNREG_TAG in *; lia|].
        destruct (Z.eqb_spec (km_tag m) UNREG_TAG) as [E|_]; [lia|].
        destruct (kp_map (ks_proc s r0) (km_tag m)) as [e|];
          [destruct (index_of (km_src m) (ke_group e)) as [kk|]; [|discriminate H]|]; injection H as <-; cbn [ks_net ks_proc];
          (split; [reflexivity|]); intros Z; (split; [|left; discriminate]);
          (destruct (Nat.eq_dec r r0) as [->|N]; [rewrite upd_eq in Z; exact Z|rewrite upd_ne in Z by exact N; exact Z]).
      - destruct MOK as (TG & SD & LK & _). rewrite TG in H.
        change (UNREG_TAG =? EXIT_TAG) with false in H. change (UNREG_TAG =? UNREG_TAG) with true in H. cbn match in H.
        destruct (kp_lock (ks_proc s r0)) eqn:LKR; try discriminate H. injection H as <-. cbn [ks_net ks_proc].
        split; [reflexivity|]. intros Z.
        destruct (Nat.eq_dec r r0) as [->|N]; [rewrite upd_eq in Z; discriminate Z|]. rewrite upd_ne in Z by exact N.
        split; [exact Z|]. right. congruence. }
    destruct G as (EN & G). destruct (G L) as (L0 & NM). destruct (D r L0) as (m0 & M0 & I0 & D0 & S0).
    rewrite PERM in M0. destruct M0 as [->|M0]; [destruct NM; contradiction|].
    exists m0. rewrite EN. auto.
Qed.
Lemma small_back s a s' : kinv1 grp s -> kstep grp s a = Some (Ok s') -> small s' -> small s.
Proof. intros I H S r g t T. exact (S r g t (tag_kept grp s a s' r g t H I T)). Qed.
Lemma del_reachable s : kreachable grp s -> small s -> del_sent s.
Proof.
  intros R. revert s R. apply (kreach_ind grp (fun s => small s -> del_sent s)).
  - intros _ r L. discriminate L.
  - intros s a s' R IH H SM. pose proof (small_back _ _ _ (kinv1_reachable grp s R) H SM) as S0.
    eapply del_step; eauto.
Qed.

(** The handler of [r] releases the lock: only messages are handled, nothing else changes. *)
Definition kept (r : nat) (s s' : kst) : Prop :=
  ks_in s' = ks_in s /\ ks_tag s' = ks_tag s /\ forall r', r' <> r -> kp_lock (ks_proc s' r') = kp_lock (ks_proc s r').
Lemma handle_effect s r s' : kreachable grp s -> small s -> kstep grp s (KHandle r r) = Some (Ok s') ->
  kept r s s' /\ (length (ks_net s') < length (ks_net s))%nat /\
  (kp_lock (ks_proc s' r) = kp_lock (ks_proc s r) \/ kp_lock (ks_proc s' r) = KFree).
Proof.
  intros R SM H. pose proof (kinv2_reachable grp s R SM) as J.
  cbn [kstep] in H. rewrite (k_run grp s J r) in H.
  destruct (ktake r r (ks_net s)) as [[m net]|] eqn:TAKE; [|discriminate H]. cbn zeta in H.
  apply ktake_perm in TAKE. destruct TAKE as (PERM & _ & _).
  assert (LEN : (length net < length (ks_net s))%nat) by (rewrite (Permutation_length PERM); cbn; lia).
  assert (OT : forall p r', r' <> r -> kp_lock (upd (ks_proc s) r p r') = kp_lock (ks_proc s r')) by (intros; rewrite upd_ne by assumption; reflexivity).
  repeat match type of H with
  | Some (Ok _) = Some (Ok _) => injection H as <-
  | None = Some _ => discriminate H
  | Some Ub = Some (Ok _) => discriminate H
  | match ?x with _ => _ end = Some (Ok _) => destruct x eqn:?
  end; cbn [ks_net ks_proc]; (split; [split; [reflexivity|split; [reflexivity|apply OT]]|]); (split; [exact LEN|]);
    rewrite upd_eq; cbn [kp_lock]; auto.
Qed.
Lemma release n s r : Z.of_nat n <= 32766 -> oreach n s -> kp_lock (ks_proc s r) = KDel ->
  exists l s', krun grp s l = Some (Ok s') /\ oreach n s' /\ kp_lock (ks_proc s' r) = KFree /\ kept r s s'.
Proof.
  intros NB. remember (length (ks_net s)) as k eqn:EK. revert s EK.
  induction k as [k IH] using lt_wf_ind; intros s EK O L.
  pose proof (oreach_reach n s O) as R. pose proof (oreach_small n s NB O) as SM.
  destruct (del_reachable s R SM r L) as (m & M & _ & MD & MS).
  destruct (handle_enabled grp s m R SM M) as (s1 & H). rewrite MD, MS in H.
  destruct (handle_effect s r s1 R SM H) as ((KI & KT & KL) & LEN & LK).
  assert (O1 : oreach n s1) by (eapply oreach_other; [exact O|exact H|discriminate]).
  assert (LK1 : kp_lock (ks_proc s1 r) = KFree \/ kp_lock (ks_proc s1 r) = KDel) by (destruct LK as [E|E]; [right; congruence|left; exact E]).
  destruct LK1 as [F|F].
  - exists [KHandle r r], s1. cbn [krun]. rewrite H. repeat split; auto.
  - destruct (IH (length (ks_net s1)) ltac:(lia) s1 eq_refl O1 F) as (l & s2 & R2 & O2 & F2 & KI2 & KT2 & KL2).
    exists (KHandle r r :: l), s2. cbn [krun]. rewrite H. split; [exact R2|]. split; [exact O2|]. split; [exact F2|].
    split; [congruence|]. split; [congruence|]. intros r' N. rewrite KL2, KL by exact N. reflexivity.
Qed.

(** What can be achieved from a state. *)
Definition can (n : nat) (s : kst) (Q : kst -> Prop) : Prop :=
  exists l s', krun grp s l = Some (Ok s') /\ oreach n s' /\ Q s'.
Lemma can_now n s (Q : kst -> Prop) : oreach n s -> Q s -> can n s Q.
Proof. intros O q. exists [], s. auto. Qed.
Lemma can_bind n s (P Q : kst -> Prop) : can n s P -> (forall s', oreach n s' -> P s' -> can n s' Q) -> can n s Q.
Proof.
  intros (l & s1 & R & O & p) F. destruct (F s1 O p) as (l2 & s2 & R2 & O2 & q).
  exists (l ++ l2), s2. rewrite krun_app, R. auto.
Qed.
Lemma can_step n s a s' (Q : kst -> Prop) : kstep grp s a = Some (Ok s') -> oreach n s' -> Q s' -> can n s Q.
Proof. intros H O q. exists [a], s'. cbn [krun]. rewrite H. auto. Qed.

(** All registrations below [g] are finished. *)
Definition done (s : kst) (g : nat) : Prop := forall g' r, (g' < g)%nat -> In r (grp g') -> ks_tag s r g' <> None.
Definition entered (s : kst) (g : nat) (l : list nat) : Prop := forall r, In r l -> ks_in s g r <> None.

Lemma enter_one n s g r : Z.of_nat n <= 32766 -> oreach n s -> (g < n)%nat -> done s g -> In r (grp g) ->
  can n s (fun s' => ks_in s' g r <> None /\ done s' g /\ forall r', ks_in s g r' <> None -> ks_in s' g r' <> None).
Proof.
  intros NB O GN D M. destruct (ks_in s g r) as [x|] eqn:EI.
  - apply can_now; [exact O|]. rewrite EI. split; [discriminate|]. split; [exact D|auto].
  - pose proof (oreach_reach n s O) as R. pose proof (kinv1_reachable grp s R) as I.
    assert (IN : forall s0, oreach n s0 -> done s0 g -> forall g', (g' < g)%nat -> In r (grp g') -> ks_in s0 g' r <> None).
    { intros s0 O0 D0 g' L M'. pose proof (D0 g' r L M') as T. destruct (ks_tag s0 r g') as [t|] eqn:ET; [|contradiction].
      exact (proj1 (k_tag grp s0 (kinv1_reachable grp s0 (oreach_reach n s0 O0)) _ _ _ ET)). }
    assert (FREE : forall s0, oreach n s0 -> done s0 g -> ks_in s0 g r = None -> kp_lock (ks_proc s0 r) = KFree ->
      can n s0 (fun s' => ks_in s' g r <> None /\ done s' g /\ forall r', ks_in s0 g r' <> None -> ks_in s' g r' <> None)).
    { intros s0 O0 D0 E0 L0.
      assert (H : exists s1, kstep grp s0 (KEnter r g) = Some (Ok s1)).
      { cbn [kstep]. rewrite L0, E0. replace (existsb (Nat.eqb r) (grp g)) with true; [eexists; reflexivity|].
        symmetry. apply existsb_exists. exists r. split; [exact M|apply Nat.eqb_refl]. }
      destruct H as [s1 H]. destruct (enter_step _ _ _ _ H) as (_ & _ & _ & EI1 & ET1).
      apply (can_step n s0 (KEnter r g) s1); [exact H| |].
      - eapply oreach_enter; eauto.
      - rewrite EI1. split; [rewrite upd2_eq; discriminate|]. split; [intros g' r' L M'; rewrite ET1; apply D0; assumption|].
        intros r' X. destruct (upd2_cases (ks_in s0) g r (Some (kp_next (ks_proc s0 r))) g r') as [(_ & _ & ->)|(_ & ->)]; [discriminate|exact X]. }
    destruct (kp_lock (ks_proc s r)) as [|g''|] eqn:L.
    + apply FREE; auto.
    + exfalso. destruct (k_lock grp s I r g'' L) as (E1 & E2). destruct (lt_eq_lt_dec g'' g) as [[LT|EQ]|GT].
      * apply (D g'' r LT); [|exact E2]. exact (proj2 (k_in grp s I _ _ _ E1)).
      * subst g''. congruence.
      * assert (X : ks_in s g'' r <> None) by congruence. pose proof (finished_before n s r g'' g O X GT M) as T.
        destruct (ks_tag s r g) as [t|] eqn:ET; [|contradiction]. exact (proj1 (k_tag grp s I _ _ _ ET) EI).
    + destruct (release n s r NB O L) as (l & s1 & R1 & O1 & F1 & KI & KT & _).
      apply (can_bind n s (fun s' => s' = s1)); [exists l, s1; auto|]. intros s' O' ->.
      rewrite <- KI. apply FREE; auto; [intros g' r' L' M'; rewrite KT; apply D; assumption|rewrite KI; exact EI].
Qed.
Lemma enter_all n g : Z.of_nat n <= 32766 -> (g < n)%nat -> forall l s, incl l (grp g) -> oreach n s -> done s g ->
  can n s (fun s' => entered s' g l /\ done s' g).
Proof.
  intros NB GN. induction l as [|r l IH]; intros s IC O D.
  - apply can_now; [exact O|]. split; [intros r []|exact D].
  - apply (can_bind n s _ _ (IH s (fun x X => IC x (or_intror X)) O D)). intros s1 O1 (E1 & D1).
    apply (can_bind n s1 _ _ (enter_one n s1 g r NB O1 GN D1 (IC r (or_introl eq_refl)))).
    intros s2 O2 (X & D2 & K). apply can_now; [exact O2|]. split; [|exact D2].
    intros r' [<-|I]; [exact X|]. apply K, E1, I.
Qed.

Lemma kmax_all f l : (forall r, In r l -> f r <> None) -> exists t, kmax f l = Some t.
Proof.
  induction l as [|r l IH]; intros F; [exists 0; reflexivity|]. cbn [kmax].
  destruct (IH (fun x X => F x (or_intror X))) as [t ->].
  pose proof (F r (or_introl eq_refl)). destruct (f r); [eexists; reflexivity|contradiction].
Qed.
Lemma return_one n s g r : oreach n s -> (g < n)%nat -> done s g -> entered s g (grp g) -> In r (grp g) ->
  can n s (fun s' => ks_tag s' r g <> None /\ done s' g /\ entered s' g (grp g) /\
    forall r', ks_tag s r' g <> None -> ks_tag s' r' g <> None).
Proof.
  intros O GN D E M. destruct (ks_tag s r g) as [t|] eqn:ET.
  - apply can_now; [exact O|]. rewrite ET. split; [discriminate|auto].
  - pose proof (oreach_reach n s O) as R. pose proof (kinv1_reachable grp s R) as I.
    pose proof (E r M) as X. destruct (ks_in s g r) as [x|] eqn:EI; [|contradiction].
    pose proof (k_pend grp s I _ _ _ EI ET) as L. destruct (kmax_all (ks_in s g) (grp g) E) as [t EM].
    assert (H : exists s1, kstep grp s (KReturn r g) = Some (Ok s1) /\ ks_tag s1 = upd2 (ks_tag s) r g (Some t) /\ ks_in s1 = ks_in s).
    { cbn [kstep]. rewrite L, Nat.eqb_refl, EM. eexists. split; [reflexivity|]. split; reflexivity. }
    destruct H as (s1 & H & T1 & I1). apply (can_step n s (KReturn r g) s1); [exact H| |].
    + eapply oreach_other; [exact O|exact H|discriminate].
    + assert (KT : forall r' g', ks_tag s r' g' <> None -> ks_tag s1 r' g' <> None).
      { intros r' g' T. rewrite T1. destruct (upd2_cases (ks_tag s) r g (Some t) r' g') as [(_ & _ & ->)|(_ & ->)]; [discriminate|exact T]. }
      split; [rewrite T1, upd2_eq; discriminate|]. split; [intros g' r' L' M'; apply KT, D; assumption|].
      split; [intros r' M'; rewrite I1; apply E, M'|]. intros r'. apply KT.
Qed.
Lemma return_all n g : (g < n)%nat -> forall l s, incl l (grp g) -> oreach n s -> done s g -> entered s g (grp g) ->
  can n s (fun s' => (forall r, In r l -> ks_tag s' r g <> None) /\ done s' g /\ entered s' g (grp g)).
Proof.
  intros GN. induction l as [|r l IH]; intros s IC O D E.
  - apply can_now; [exact O|]. split; [intros r []|split; assumption].
  - apply (can_bind n s _ _ (IH s (fun x X => IC x (or_intror X)) O D E)). intros s1 O1 (T1 & D1 & E1).
    apply (can_bind n s1 _ _ (return_one n s1 g r O1 GN D1 E1 (IC r (or_introl eq_refl)))).
    intros s2 O2 (X & D2 & E2 & K). apply can_now; [exact O2|]. split; [|split; assumption].
    intros r' [<-|I]; [exact X|]. apply K, T1, I.
Qed.

Lemma finish n s : Z.of_nat n <= 32766 -> oreach n s -> forall g, (g <= n)%nat -> can n s (fun s' => done s' g).
Proof.
  intros NB O. induction g as [|g IH]; intros GN.
  - apply can_now; [exact O|]. intros g' r L. lia.
  - apply (can_bind n s _ _ (IH ltac:(lia))). intros s1 O1 D1.
    apply (can_bind n s1 _ _ (enter_all n g NB ltac:(lia) (grp g) s1 (incl_refl _) O1 D1)). intros s2 O2 (E2 & D2).
    apply (can_bind n s2 _ _ (return_all n g ltac:(lia) (grp g) s2 (incl_refl _) O2 D2 E2)). intros s3 O3 (T3 & D3 & _).
    apply can_now; [exact O3|]. intros g' r L M. destruct (Nat.eq_dec g' g) as [->|N]; [apply T3, M|apply D3; [lia|exact M]].
Qed.
End Order.

Lemma can_finish grp n l s : Z.of_nat n <= 32766 -> krun grp kinit l = Some (Ok s) -> in_order grp l ->
  (forall r g, In (KEnter r g) l -> (g < n)%nat) ->
  exists l' s', krun grp s l' = Some (Ok s') /\ forall g r, (g < n)%nat -> In r (grp g) -> ks_tag s' r g <> None.
Proof.
  intros NB R O B. destruct (finish grp n s NB (ex_intro _ l (conj R (conj O B))) n (le_n n)) as (l' & s' & R' & _ & D).
  exists l', s'. split; [exact R'|]. intros g r L M. apply D; assumption.
Qed.

(** Two threads per process open two grids, in different orders. *)
Lemma stuck_step s a : krun both kinit [KEnter 0 0; KEnter 1 1]%nat = Some (Ok s) -> kstep both s a = None.
Proof.
  intros E. vm_compute in E. injection E as <-.
  destruct a as [r g|r g|r g|r g k d|r src]; cbn [kstep ks_proc ks_in ks_tag ks_closed ks_net ktake].
  - destruct r as [|[|r]]; cbn [kp_lock]; try reflexivity.
    destruct g as [|[|g]]; reflexivity.
  - destruct r as [|[|r]]; cbn [kp_lock]; try reflexivity; destruct g as [|[|g]]; reflexivity.
  - destruct r as [|[|r]]; cbn [kp_lock]; reflexivity.
  - reflexivity.
  - destruct (kp_run _); reflexivity.
Qed.
