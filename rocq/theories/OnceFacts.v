(** * Facts about [Once] *)
From Verif Require Export SyncModel.
Require Import Lia.

Definition o_in (p : opc) : bool :=
  match p with ORecheck | OExec | OExecEnd | OSet | OUnlock _ => true | _ => false end.

Definition ocount (p : opc) : nat * nat :=
  match p with OExecEnd => (1, 0) | OSet => (1, 1) | _ => (0, 0) end.

Record oinv (calls : nat -> nat) (s : ost) : Prop := {
  oi_lock : forall t, o_in (o_pc (o_thr s t)) = true <-> o_mutex s = Some t;
  oi_state : o_state s = true -> o_started s = 1 /\ o_ended s = 1 /\
             forall t, o_pc (o_thr s t) <> OExec /\ o_pc (o_thr s t) <> OExecEnd /\ o_pc (o_thr s t) <> OSet;
  oi_not : o_state s = false ->
             (forall t, o_mutex s = Some t -> (o_started s, o_ended s) = ocount (o_pc (o_thr s t))) /\
             (o_mutex s = None -> o_started s = 0 /\ o_ended s = 0);
  oi_done : forall t, (o_pc (o_thr s t) = OReturn \/ (exists r, o_pc (o_thr s t) = OUnlock r) \/
                       o_left (o_thr s t) < calls t) -> o_state s = true;
  oi_left : forall t, o_left (o_thr s t) <= calls t /\ (o_pc (o_thr s t) <> ORead -> 0 < o_left (o_thr s t))
}.

Lemma oinv_init : forall calls, oinv calls (oinit calls).
Proof.
  intros calls. split; cbn.
  - intros t. split; discriminate.
  - discriminate.
  - split; [discriminate|auto].
  - intros t [H|[[r H]|H]]; try discriminate. lia.
  - intros t. split; [lia|congruence].
Qed.

Lemma oupd_eq : forall {A} (f : nat -> A) t x, upd f t x t = x.
Proof. intros. unfold upd. rewrite Nat.eqb_refl. reflexivity. Qed.
Lemma oupd_ne : forall {A} (f : nat -> A) t x u, u <> t -> upd f t x u = f u.
Proof. intros. unfold upd. destruct (Nat.eqb_spec u t); [contradiction|reflexivity]. Qed.

Lemma oinv_step : forall calls s t s', oinv calls s -> ostep s t = Some s' -> oinv calls s'.
Proof.
  intros calls s t s' I E. destruct I as [A1 A2 A3 A4 A5].
  pose proof (A1 t) as B1. pose proof (A4 t) as B4. pose proof (A5 t) as [B5 B5'].
  assert (Ex : forall u, u <> t -> o_mutex s = Some t -> o_in (o_pc (o_thr s u)) = false).
  { intros u Hu Hm. destruct (o_in (o_pc (o_thr s u))) eqn:X; [|reflexivity]. apply A1 in X. congruence. }
  unfold ostep in E. cbv zeta in E.
  destruct (o_pc (o_thr s t)) eqn:Hp; cbn in B1.
  - (* ORead *)
    destruct (o_left (o_thr s t)) as [|n] eqn:Hl; [discriminate|]. injection E as <-.
    assert (Hm : o_mutex s <> Some t) by (intros X; apply B1 in X; discriminate).
    split; cbn.
    + intros u. destruct (Nat.eq_dec u t) as [->|Hu]; [rewrite oupd_eq|rewrite oupd_ne by assumption; apply A1].
      destruct (o_state s); cbn; (split; [discriminate|congruence]).
    + intros Hs. destruct (A2 Hs) as (C1 & C2 & C3). split; [assumption|]. split; [assumption|].
      intros u. destruct (Nat.eq_dec u t) as [->|Hu]; [rewrite oupd_eq|rewrite oupd_ne by assumption; apply C3].
      rewrite Hs. cbn. repeat split; discriminate.
    + intros Hs. destruct (A3 Hs) as (C1 & C2). split; [|assumption]. intros u Hu.
      destruct (Nat.eq_dec u t) as [->|Hne]; [contradiction|rewrite oupd_ne by assumption; auto].
    + intros u. destruct (Nat.eq_dec u t) as [->|Hne]; [rewrite oupd_eq|rewrite oupd_ne by assumption; apply A4].
      cbn. destruct (o_state s) eqn:Hs; [auto|]. intros [H|[[r H]|H]]; try discriminate. apply (A4 t). right; right; lia.
    + intros u. destruct (Nat.eq_dec u t) as [->|Hne]; [rewrite oupd_eq|rewrite oupd_ne by assumption; apply A5].
      cbn. split; [lia|]. lia.
  - (* OWant *)
    destruct (o_mutex s) eqn:Hm; [discriminate|]. injection E as <-. split; cbn.
    + intros u. destruct (Nat.eq_dec u t) as [->|Hu]; [rewrite oupd_eq; cbn; intuition|].
      rewrite oupd_ne by assumption. rewrite A1. split; congruence.
    + intros Hs. destruct (A2 Hs) as (C1 & C2 & C3). split; [assumption|]. split; [assumption|].
      intros u. destruct (Nat.eq_dec u t) as [->|Hu]; [rewrite oupd_eq|rewrite oupd_ne by assumption; apply C3].
      cbn. repeat split; discriminate.
    + intros Hs. destruct (A3 Hs) as (C1 & C2). destruct (C2 eq_refl) as [D1 D2]. split; [|discriminate].
      intros u Hu. injection Hu as <-. rewrite oupd_eq, D1, D2. reflexivity.
    + intros u. destruct (Nat.eq_dec u t) as [->|Hne]; [rewrite oupd_eq|rewrite oupd_ne by assumption; apply A4].
      cbn. intros [H|[[r H]|H]]; try discriminate. apply B4. auto.
    + intros u. destruct (Nat.eq_dec u t) as [->|Hne]; [rewrite oupd_eq|rewrite oupd_ne by assumption; apply A5].
      cbn. split; [assumption|]. intros _. apply B5'. discriminate.
  - (* ORecheck *)
    assert (Hm : o_mutex s = Some t) by (apply B1; reflexivity). injection E as <-. split; cbn.
    + intros u. destruct (Nat.eq_dec u t) as [->|Hu]; [rewrite oupd_eq|rewrite oupd_ne by assumption; apply A1].
      destruct (o_state s); cbn; tauto.
    + intros Hs. destruct (A2 Hs) as (C1 & C2 & C3). split; [assumption|]. split; [assumption|].
      intros u. destruct (Nat.eq_dec u t) as [->|Hu]; [rewrite oupd_eq|rewrite oupd_ne by assumption; apply C3].
      rewrite Hs. cbn. repeat split; discriminate.
    + intros Hs. destruct (A3 Hs) as (C1 & C2). split; [|assumption]. intros u Hu.
      assert (u = t) by congruence. subst u. rewrite oupd_eq. cbn. rewrite Hs. cbn. specialize (C1 t Hm). rewrite Hp in C1. exact C1.
    + intros u. destruct (Nat.eq_dec u t) as [->|Hne]; [rewrite oupd_eq|rewrite oupd_ne by assumption; apply A4].
      cbn. destruct (o_state s) eqn:Hs; [auto|]. intros [H|[[r H]|H]]; try discriminate. apply B4. auto.
    + intros u. destruct (Nat.eq_dec u t) as [->|Hne]; [rewrite oupd_eq|rewrite oupd_ne by assumption; apply A5].
      cbn. split; [assumption|]. intros _. apply B5'. discriminate.
  - (* OExec *)
    assert (Hm : o_mutex s = Some t) by (apply B1; reflexivity). injection E as <-.
    assert (Hs : o_state s = false).
    { destruct (o_state s) eqn:Hs; [|reflexivity]. destruct (A2 eq_refl) as (_ & _ & C3). destruct (C3 t) as (X & _). congruence. }
    destruct (A3 Hs) as (C1 & C2). specialize (C1 t Hm). rewrite Hp in C1. cbn in C1.
    split; cbn.
    + intros u. destruct (Nat.eq_dec u t) as [->|Hu]; [rewrite oupd_eq|rewrite oupd_ne by assumption; apply A1]. cbn; tauto.
    + congruence.
    + intros _. split; [|congruence]. intros u Hu. assert (u = t) by congruence. subst u. rewrite oupd_eq. cbn. congruence.
    + intros u. destruct (Nat.eq_dec u t) as [->|Hne]; [rewrite oupd_eq|rewrite oupd_ne by assumption; apply A4].
      cbn. intros [H|[[r H]|H]]; try discriminate. apply B4. auto.
    + intros u. destruct (Nat.eq_dec u t) as [->|Hne]; [rewrite oupd_eq|rewrite oupd_ne by assumption; apply A5].
      cbn. split; [assumption|]. intros _. apply B5'. discriminate.
  - (* OExecEnd *)
    assert (Hm : o_mutex s = Some t) by (apply B1; reflexivity). injection E as <-.
    assert (Hs : o_state s = false).
    { destruct (o_state s) eqn:Hs; [|reflexivity]. destruct (A2 eq_refl) as (_ & _ & C3). destruct (C3 t) as (_ & X & _). congruence. }
    destruct (A3 Hs) as (C1 & C2). specialize (C1 t Hm). rewrite Hp in C1. cbn in C1.
    split; cbn.
    + intros u. destruct (Nat.eq_dec u t) as [->|Hu]; [rewrite oupd_eq|rewrite oupd_ne by assumption; apply A1]. cbn; tauto.
    + congruence.
    + intros _. split; [|congruence]. intros u Hu. assert (u = t) by congruence. subst u. rewrite oupd_eq. cbn. congruence.
    + intros u. destruct (Nat.eq_dec u t) as [->|Hne]; [rewrite oupd_eq|rewrite oupd_ne by assumption; apply A4].
      cbn. intros [H|[[r H]|H]]; try discriminate. apply B4. auto.
    + intros u. destruct (Nat.eq_dec u t) as [->|Hne]; [rewrite oupd_eq|rewrite oupd_ne by assumption; apply A5].
      cbn. split; [assumption|]. intros _. apply B5'. discriminate.
  - (* OSet *)
    assert (Hm : o_mutex s = Some t) by (apply B1; reflexivity). injection E as <-.
    assert (Hs : o_state s = false).
    { destruct (o_state s) eqn:Hs; [|reflexivity]. destruct (A2 eq_refl) as (_ & _ & C3). destruct (C3 t) as (_ & _ & X). congruence. }
    destruct (A3 Hs) as (C1 & C2). specialize (C1 t Hm). rewrite Hp in C1. cbn in C1. injection C1 as D1 D2.
    split; cbn.
    + intros u. destruct (Nat.eq_dec u t) as [->|Hu]; [rewrite oupd_eq|rewrite oupd_ne by assumption; apply A1]. cbn; tauto.
    + intros _. split; [assumption|]. split; [assumption|]. intros u.
      destruct (Nat.eq_dec u t) as [->|Hu]; [rewrite oupd_eq; cbn; repeat split; discriminate|].
      rewrite oupd_ne by assumption. specialize (Ex u Hu Hm).
      destruct (o_pc (o_thr s u)); try discriminate Ex; repeat split; discriminate.
    + discriminate.
    + reflexivity.
    + intros u. destruct (Nat.eq_dec u t) as [->|Hne]; [rewrite oupd_eq|rewrite oupd_ne by assumption; apply A5].
      cbn. split; [assumption|]. intros _. apply B5'. discriminate.
  - (* OUnlock *)
    assert (Hm : o_mutex s = Some t) by (apply B1; reflexivity). injection E as <-.
    assert (Hs : o_state s = true) by (apply B4; eauto).
    destruct (A2 Hs) as (C1 & C2 & C3).
    split; cbn.
    + intros u. destruct (Nat.eq_dec u t) as [->|Hu]; [rewrite oupd_eq; cbn; split; discriminate|].
      rewrite oupd_ne by assumption. rewrite (Ex u Hu Hm). split; discriminate.
    + intros _. split; [assumption|]. split; [assumption|]. intros u.
      destruct (Nat.eq_dec u t) as [->|Hu]; [rewrite oupd_eq; cbn; repeat split; discriminate|].
      rewrite oupd_ne by assumption. apply C3.
    + congruence.
    + auto.
    + intros u. destruct (Nat.eq_dec u t) as [->|Hne]; [rewrite oupd_eq|rewrite oupd_ne by assumption; apply A5].
      cbn. split; [assumption|]. intros _. apply B5'. discriminate.
  - (* OReturn *)
    injection E as <-.
    assert (Hs : o_state s = true) by (apply B4; eauto).
    assert (Hm : o_mutex s <> Some t) by (intros X; apply B1 in X; discriminate).
    destruct (A2 Hs) as (C1 & C2 & C3).
    split; cbn.
    + intros u. destruct (Nat.eq_dec u t) as [->|Hu]; [rewrite oupd_eq; cbn; split; [discriminate|congruence]|].
      rewrite oupd_ne by assumption. apply A1.
    + intros _. split; [assumption|]. split; [assumption|]. intros u.
      destruct (Nat.eq_dec u t) as [->|Hu]; [rewrite oupd_eq; cbn; repeat split; discriminate|].
      rewrite oupd_ne by assumption. apply C3.
    + congruence.
    + auto.
    + intros u. destruct (Nat.eq_dec u t) as [->|Hne]; [rewrite oupd_eq|rewrite oupd_ne by assumption; apply A5].
      cbn. split; [lia|congruence].
Qed.

Lemma oinv_run : forall calls l s s', oinv calls s -> orun s l = Some s' -> oinv calls s'.
Proof.
  intros calls; induction l as [|t l IH]; intros s s' I E; cbn in E.
  - injection E as <-. exact I.
  - destruct (ostep s t) as [s1|] eqn:X; [|discriminate]. eapply IH; [|exact E]. eapply oinv_step; eauto.
Qed.

Section Once.
Variable calls : nat -> nat.
Definition ostate (s : ost) : Prop := exists l, orun (oinit calls) l = Some s.

Lemma ostate_inv : forall s, ostate s -> oinv calls s.
Proof. intros s [l E]. eapply oinv_run; [apply oinv_init|exact E]. Qed.

(** A call of [saveExec] by thread [t] has returned. *)
Definition oreturned (s : ost) (t : nat) : Prop :=
  o_pc (o_thr s t) = OReturn \/ o_left (o_thr s t) < calls t.

Theorem once_at_most : forall s, ostate s -> o_started s <= 1 /\ o_ended s <= o_started s.
Proof.
  intros s E. destruct (ostate_inv s E) as [A1 A2 A3 A4 A5]. destruct (o_state s).
  - destruct (A2 eq_refl) as (C1 & C2 & _). lia.
  - destruct (A3 eq_refl) as (C1 & C2). destruct (o_mutex s) as [t|].
    + specialize (C1 t eq_refl). destruct (o_pc (o_thr s t)); cbn in C1; injection C1; lia.
    + destruct (C2 eq_refl). lia.
Qed.

Theorem once_done : forall s t, ostate s -> oreturned s t -> o_started s = 1 /\ o_ended s = 1.
Proof.
  intros s t E H. destruct (ostate_inv s E) as [A1 A2 A3 A4 A5].
  assert (Hs : o_state s = true) by (apply (A4 t); destruct H; auto).
  destruct (A2 Hs) as (C1 & C2 & _). auto.
Qed.

(** No thread blocks for ever: unless all are done somebody can go on ... *)
Theorem once_progress : forall s t, ostate s -> o_left (o_thr s t) <> 0 -> exists u s', ostep s u = Some s'.
Proof.
  intros s t E Ht. pose proof (ostate_inv s E) as I. destruct (o_mutex s) as [u|] eqn:Hm.
  - exists u. pose proof (proj2 (oi_lock _ _ I u) Hm) as H. unfold ostep. cbv zeta.
    destruct (o_pc (o_thr s u)); try discriminate H; eauto.
  - exists t. unfold ostep. cbv zeta. rewrite Hm. destruct (o_pc (o_thr s t)); eauto.
    destruct (o_left (o_thr s t)); [congruence|eauto].
Qed.

(** ... and the number of steps is bounded. *)
Definition orank (p : opc) : nat :=
  match p with ORead => 8 | OWant => 7 | ORecheck => 6 | OExec => 5 | OExecEnd => 4 | OSet => 3 | OUnlock _ => 2 | OReturn => 1 end.
Definition oleft (x : othr) : nat :=
  match o_left x with 0 => 0 | S n => 8 * n + orank (o_pc x) end.
Fixpoint osum (f : nat -> nat) (n : nat) : nat := match n with 0 => 0 | S m => f m + osum f m end.
Lemma osum_upd : forall (f g : nat -> nat) n t, (forall u, u <> t -> g u = f u) ->
  osum g n + (if t <? n then f t else 0) = osum f n + (if t <? n then g t else 0).
Proof.
  intros f g n t H. induction n as [|n IH]; [reflexivity|]. cbn [osum].
  destruct (Nat.eq_dec n t) as [->|Hne].
  - destruct (Nat.ltb_spec t (S t)); [|lia]. destruct (Nat.ltb_spec t t); [lia|]. lia.
  - rewrite (H n Hne). destruct (Nat.ltb_spec t (S n)), (Nat.ltb_spec t n); lia.
Qed.

Lemma ostep_left : forall s t s', oinv calls s -> ostep s t = Some s' ->
  (forall u, u <> t -> o_thr s' u = o_thr s u) /\ oleft (o_thr s' t) < oleft (o_thr s t).
Proof.
  intros s t s' I E. pose proof (proj2 (oi_left _ _ I t)) as L. unfold ostep in E. cbv zeta in E.
  assert (G : forall p p' n, o_thr s t = OThr p n -> 0 < n -> orank p' < orank p ->
     (forall u, u <> t -> upd (o_thr s) t (OThr p' n) u = o_thr s u) /\
     oleft (upd (o_thr s) t (OThr p' n) t) < oleft (o_thr s t)).
  { intros p p' n Hx Hn Hr. split; [intros; apply oupd_ne; assumption|]. rewrite oupd_eq, Hx.
    unfold oleft; cbn. destruct n; [lia|]. lia. }
  destruct (o_thr s t) as [p n] eqn:Hx. cbn [o_pc o_left] in *.
  destruct p.
  - destruct n as [|n]; [discriminate E|]. injection E as <-. cbn [o_thr].
    destruct (o_state s); eapply G; eauto; try (apply L; discriminate); cbn; lia.
  - destruct (o_mutex s); [discriminate E|]. injection E as <-. cbn [o_thr].
    eapply G; eauto; try (apply L; discriminate); cbn; lia.
  - injection E as <-. cbn [o_thr]. destruct (o_state s); eapply G; eauto; try (apply L; discriminate); cbn; lia.
  - injection E as <-. cbn [o_thr]. eapply G; eauto; try (apply L; discriminate); cbn; lia.
  - injection E as <-. cbn [o_thr]. eapply G; eauto; try (apply L; discriminate); cbn; lia.
  - injection E as <-. cbn [o_thr]. eapply G; eauto; try (apply L; discriminate); cbn; lia.
  - injection E as <-. cbn [o_thr]. eapply G; eauto; try (apply L; discriminate); cbn; lia.
  - specialize (L ltac:(discriminate)). destruct n; [lia|]. injection E as <-. cbn [o_thr].
    split; [intros; apply oupd_ne; assumption|]. rewrite oupd_eq. unfold oleft. cbn [o_left o_pc orank].
    replace (S n - 1) with n by lia. destruct n; cbn -[Nat.mul]; lia.
Qed.

Theorem once_terminates : forall n l s, (forall t, n <= t -> calls t = 0) ->
  orun (oinit calls) l = Some s -> length l <= 8 * osum calls n.
Proof.
  intros n l s Hn E.
  assert (G : forall l s s', oinv calls s -> orun s l = Some s' ->
     length l + osum (fun t => oleft (o_thr s' t)) n <= osum (fun t => oleft (o_thr s t)) n).
  { clear l s E. induction l as [|t l IH]; intros s s' I E; cbn in E.
    - injection E as <-. cbn. lia.
    - destruct (ostep s t) as [s1|] eqn:X; [|discriminate].
      pose proof (IH s1 s' (oinv_step _ _ _ _ I X) E) as Y.
      destruct (ostep_left s t s1 I X) as [Z1 Z2].
      assert (Ht : t < n).
      { destruct (le_lt_dec n t) as [H|]; [|assumption]. exfalso.
        pose proof (proj1 (oi_left _ _ I t)) as L. rewrite (Hn t H) in L. unfold oleft in Z2.
        destruct (o_left (o_thr s t)); lia. }
      pose proof (osum_upd (fun t => oleft (o_thr s t)) (fun t => oleft (o_thr s1 t)) n t) as Q.
      cbv beta in Q. specialize (Q ltac:(intros u Hu; rewrite (Z1 u Hu); reflexivity)).
      destruct (Nat.ltb_spec t n); [|lia]. cbn [length]. lia. }
  pose proof (G l _ _ (oinv_init calls) E) as A.
  assert (B : osum (fun t => oleft (o_thr (oinit calls) t)) n = 8 * osum calls n).
  { clear. induction n; cbn [osum]; [reflexivity|]. rewrite IHn. unfold oleft. cbn.
    destruct (calls n); cbn [orank]; lia. }
  lia.
Qed.
End Once.
