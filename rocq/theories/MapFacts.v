(** * The table of receivers: facts *)
From Coq Require Import Lia.
From Verif Require Import MapModel.

Definition mreach (s : mst) : Prop := exists l, mrun false minit l = Some (Ok s).

(** Who accesses the table at the moment. *)
Inductive agent := Thread (t : nat) | Comm.
Definition writes (s : mst) (x : agent) : Prop :=
  match x with
  | Thread t => exists tag, m_user s t = UStore tag
  | Comm => exists t tag, m_com s = CErase t tag
  end.
Definition reads (s : mst) (x : agent) : Prop :=
  match x with
  | Thread t => exists tag, m_user s t = UFind tag
  | Comm => exists tag, m_com s = CFind tag
  end.

Lemma mrun_app b l1 l2 s : mrun b s (l1 ++ l2) = match mrun b s l1 with Some (Ok s') => mrun b s' l2 | x => x end.
Proof.
  revert s. induction l1 as [|a l1 IH]; intros s; cbn [mrun app]; [reflexivity|].
  destruct (mstep b s a) as [[s'|]|]; auto.
Qed.
Lemma mreach_ind (P : mst -> Prop) : P minit ->
  (forall s a s', P s -> mstep false s a = Some (Ok s') -> P s') -> forall s, mreach s -> P s.
Proof.
  intros P0 PS s [l H]. revert s H. induction l as [|a l IH] using rev_ind; intros s H.
  - cbn in H. injection H as <-. exact P0.
  - rewrite mrun_app in H. destruct (mrun false minit l) as [[s0|]|] eqn:E; try discriminate H.
    cbn [mrun] in H. destruct (mstep false s0 a) as [[s1|]|] eqn:E1; try discriminate H. injection H as <-. eauto.
Qed.
Lemma upd_same {A} (f : nat -> A) i a : upd f i a i = a.
Proof. unfold upd. rewrite Nat.eqb_refl. reflexivity. Qed.
Lemma upd_other {A} (f : nat -> A) i a j : j <> i -> upd f i a j = f j.
Proof. intros N. unfold upd. destruct (Nat.eqb_spec j i); [contradiction|reflexivity]. Qed.

(** Threads that hold the lock themselves. *)
Definition holds (p : upc) : Prop := p = UReg \/ exists tag, p = UStore tag.

Definition not_erasing (s : mst) : Prop := forall t tag, m_com s <> CErase t tag.

(** The four phases of the lock. *)
Inductive phase (s : mst) : Prop :=
| PFree : m_lock s = None -> (forall t, ~ holds (m_user s t)) -> m_q s = [] -> not_erasing s -> phase s
| PHold t : m_lock s = Some t -> holds (m_user s t) -> (forall t', holds (m_user s t') -> t' = t) -> m_q s = [] ->
    not_erasing s -> phase s
| PSent t tag : m_lock s = Some t -> m_user s t = UUnreg tag -> (forall t', ~ holds (m_user s t')) -> m_q s = [(t, tag)] ->
    not_erasing s -> phase s
| PErase t tag : m_lock s = Some t -> (forall t', ~ holds (m_user s t')) -> m_q s = [] -> m_com s = CErase t tag ->
    m_open s tag = false -> tag < m_next s -> phase s.

(** The life of a tag. *)
Record tags (s : mst) : Prop := Tags {
  tg_store : forall t tag, m_user s t = UStore tag ->
    tag < m_next s /\ m_map s tag = false /\ m_gone s tag = false /\ m_open s tag = false /\ forall t', m_user s t' <> UUnreg tag;
  tg_map : forall tag, m_map s tag = true -> tag < m_next s;
  tg_open : forall tag, m_open s tag = true -> tag < m_next s /\ m_gone s tag = false;
  tg_unreg : forall t tag, m_user s t = UUnreg tag -> tag < m_next s /\ m_open s tag = false /\ m_gone s tag = false;
  tg_uniq : forall t t' tag, m_user s t = UUnreg tag -> m_user s t' = UUnreg tag -> t = t';
  tg_pend : forall t tag, m_user s t = UUnreg tag -> In (t, tag) (m_q s) \/ m_com s = CErase t tag \/ m_map s tag = false;
  tg_gone : forall tag, m_gone s tag = true -> tag < m_next s /\ (m_map s tag = false \/ exists t, m_com s = CErase t tag);
  tg_call : forall tag, m_com s = CCall tag -> m_map s tag = true
}.
Definition minv (s : mst) : Prop := phase s /\ tags s.

Lemma minv_init : minv minit.
Proof.
  split.
  - apply PFree; cbn; auto; [intros t [H|[tag H]]; discriminate H|intros t tag; discriminate].
  - constructor; cbn; intros; discriminate.
Qed.

Ltac open_m H :=
  cbn [mstep] in H;
  repeat match type of H with
  | Some (Ok _) = Some (Ok _) => injection H as <-
  | None = Some _ => discriminate H
  | Some Ub = Some (Ok _) => discriminate H
  | match ?x with _ => _ end = Some (Ok _) => destruct x eqn:?
  end.
Ltac cases_upd :=
  repeat match goal with
  | H : context [upd ?f ?i ?a ?j] |- _ =>
      let E := fresh in destruct (Nat.eq_dec j i) as [E|E];
      [subst; rewrite upd_same in H|rewrite (upd_other f i a j E) in H]
  | |- context [upd ?f ?i ?a ?j] =>
      let E := fresh in destruct (Nat.eq_dec j i) as [E|E];
      [subst; rewrite upd_same|rewrite (upd_other f i a j E)]
  end.
Ltac low := cbn [m_lock m_next m_map m_user m_com m_q m_open m_gone] in *; unfold set_user in *.


Ltac no_hold := let X := fresh in intros X; destruct X as [X|[? X]]; discriminate X.
(** [U : forall t, ~ holds (m_user s t)]: close a goal with a thread that holds the lock; or show the same after an update. *)
Ltac nobody U :=
  first
  [ exfalso; match goal with H : m_user _ ?t = UReg |- _ => apply (U t); left; exact H
                           | H : m_user _ ?t = UStore _ |- _ => apply (U t); right; eexists; exact H end
  | let t := fresh in intros t; cases_upd; [no_hold|apply U]
  | exact U ].
Ltac com_case :=
  match goal with
  | |- not_erasing _ => intros ? ?; low; try discriminate; try (destruct (m_map _ _); discriminate); try congruence
  end.

Lemma phase_step s a s' : minv s -> mstep false s a = Some (Ok s') -> phase s'.
Proof.
  intros [P T] H.
  destruct P as [L U Q C|t0 L U X Q C|t0 tag0 L UU U Q C|t0 tag0 L U Q C O B]; destruct a; open_m H; low; try congruence;
    try (nobody U; fail);
    try (exfalso; match goal with E : m_com s = CErase _ _ |- _ => exact (C _ _ E) end).
  (* free *)
  - apply (PHold _ t); low; [reflexivity|rewrite upd_same; left; reflexivity| |exact Q|exact C].
    intros t'. cases_upd; [reflexivity|]. intros Y. exfalso. exact (U _ Y).
  - apply (PSent _ t tag); low; [reflexivity|apply upd_same|nobody U|rewrite Q; reflexivity|exact C].
  - apply PFree; low; [exact L|nobody U|exact Q|exact C].
  - apply PFree; low; [exact L|nobody U|exact Q|exact C].
  - apply PFree; low; [exact L|nobody U|exact Q|exact C].
  - apply PFree; low; [exact L|nobody U|exact Q|com_case].
  - apply PFree; low; [exact L|nobody U|exact Q|com_case].
  - apply PFree; low; [exact L|nobody U|exact Q|com_case].
  (* held *)
  - assert (t = t0) by (apply X; left; assumption). subst t.
    apply (PHold _ t0); low; [exact L|rewrite upd_same; right; eexists; reflexivity| |exact Q|exact C].
    intros t'. cases_upd; auto.
  - assert (t = t0) by (apply X; right; eexists; eassumption). subst t.
    apply PFree; low; [reflexivity| |exact Q|exact C].
    intros t'. cases_upd; [no_hold|]. intros Y. apply X in Y. contradiction.
  - apply (PHold _ t0); low; [exact L| | |exact Q|exact C].
    + cases_upd; [exfalso; destruct U as [U|[? U]]; congruence|exact U].
    + intros t'. cases_upd; [no_hold|apply X].
  - apply (PHold _ t0); low; [exact L| | |exact Q|exact C].
    + cases_upd; [exfalso; destruct U as [U|[? U]]; congruence|exact U].
    + intros t'. cases_upd; [no_hold|apply X].
  - apply (PHold _ t0); low; [exact L| | |exact Q|exact C].
    + cases_upd; [exfalso; destruct U as [U|[? U]]; congruence|exact U].
    + intros t'. cases_upd; [no_hold|apply X].
  - apply (PHold _ t0); low; [exact L|exact U|exact X|exact Q|com_case].
  - apply (PHold _ t0); low; [exact L|exact U|exact X|exact Q|com_case].
  - apply (PHold _ t0); low; [exact L|exact U|exact X|exact Q|com_case].
  (* sent *)
  - apply (PSent _ t0 tag0); low; [exact L| |nobody U|exact Q|exact C].
    rewrite upd_other; [exact UU|]. intros ->.
    match goal with E : m_user s t = UUnreg ?x, F : existsb _ _ = false |- _ =>
      rewrite UU in E; injection E as <-; rewrite Q in F; cbn in F; rewrite Nat.eqb_refl in F; discriminate F end.
  - apply (PSent _ t0 tag0); low; [exact L| |nobody U|exact Q|exact C].
    rewrite upd_other; [exact UU|congruence].
  - apply (PSent _ t0 tag0); low; [exact L| |nobody U|exact Q|exact C].
    rewrite upd_other; [exact UU|congruence].
  - apply (PSent _ t0 tag0); low; [exact L|exact UU|exact U|exact Q|com_case].
  - apply (PSent _ t0 tag0); low; [exact L|exact UU|exact U|exact Q|com_case].
  - apply (PSent _ t0 tag0); low; [exact L|exact UU|exact U|exact Q|com_case].
  - injection Q as -> -> ->.
    destruct (tg_unreg s T _ _ UU) as (A & B & _).
    apply (PErase _ t0 tag0); low; [exact L|exact U|reflexivity|reflexivity|exact B|exact A].
  (* erase *)
  - apply (PErase _ t0 tag0); low; [exact L|nobody U|exact Q|exact C|exact O|exact B].
  - apply (PErase _ t0 tag0); low; [exact L|nobody U|exact Q|exact C|exact O|exact B].
  - apply (PErase _ t0 tag0); low; [exact L|nobody U|exact Q|exact C|exact O|exact B].
  - apply PFree; low; [reflexivity|exact U|exact Q|com_case].
Qed.

Lemma one_holder s t t' : phase s -> holds (m_user s t) -> holds (m_user s t') -> t = t'.
Proof.
  intros P A B. destruct P as [L U Q C|t0 L U Z Q C|t0 tag0 L UU U Q C|t0 tag0 L U Q C O D];
    try (exfalso; exact (U _ A)). rewrite (Z _ A), (Z _ B). reflexivity.
Qed.

Lemma tags_step s a s' : minv s -> mstep false s a = Some (Ok s') -> tags s'.
Proof.
  intros [P T] H. pose proof T as [ST MP OP UN UQ PE GO CA].
  destruct a; open_m H; constructor; low; intros; cases_upd; try discriminate; try congruence; try solve [eauto 3];
    repeat match goal with
    | H : m_user s _ = UStore _ |- _ => let Q := fresh in pose proof (ST _ _ H) as Q; decompose [and] Q; clear Q; revert H
    | H : m_user s _ = UUnreg _ |- _ =>
        let Q := fresh in pose proof (UN _ _ H) as Q; decompose [and] Q; clear Q; pose proof (PE _ _ H); revert H
    | H : m_open s _ = true |- _ => destruct (OP _ H); revert H
    | H : m_gone s _ = true |- _ => destruct (GO _ H); revert H
    | H : m_map s _ = true |- _ => pose proof (MP _ H); revert H
    | H : (_ <=? _) = true |- _ => apply Nat.leb_le in H
    end; intros.
  all: try solve [repeat match goal with |- _ /\ _ => split end; intros; cases_upd; try lia; try congruence; eauto 3; intuition congruence].
  - match goal with H : UStore _ = UStore _ |- _ => injection H as -> end. split; [lia|].
    split; [destruct (m_map s tag0) eqn:E; [apply MP in E; lia|reflexivity]|].
    split; [destruct (m_gone s tag0) eqn:E; [apply GO in E; lia|reflexivity]|].
    split; [destruct (m_open s tag0) eqn:E; [apply OP in E; lia|reflexivity]|].
    intros t'. cases_upd; [discriminate|]. intros E. apply UN in E. lia.
  - exfalso. match goal with A : m_user s ?x = UStore _, B : m_user s t = UStore _, N : ?x <> t |- _ =>
      apply N; apply (one_holder s _ _ P); right; eexists; eassumption end.
  - match goal with H : UUnreg _ = UUnreg _ |- _ => injection H as -> end. left. apply in_or_app. right. left. reflexivity.
  - match goal with H : _ \/ _ |- _ => destruct H as [Y|Y] end; [left; apply in_or_app; left; exact Y|right; exact Y].
  - exfalso. match goal with A : m_user s ?x = UUnreg _, B : m_user s t = UUnreg _, N : ?x <> t |- _ => exact (N (UQ _ _ _ A B)) end.
  - split; [assumption|]. match goal with H : _ \/ _ |- _ => destruct H as [Y|[Y|Y]] end; [|right; eexists; exact Y|left; exact Y].
    exfalso. match goal with F : existsb ?f ?q = false |- _ =>
      assert (existsb f q = true) by (apply existsb_exists; eexists; split; [exact Y|apply Nat.eqb_refl]); congruence end.
  - split; [assumption|left]. match goal with H : _ \/ _ |- _ => destruct H as [Y|[? Y]] end; [exact Y|congruence].
  - split; [assumption|left]. match goal with H : _ \/ _ |- _ => destruct H as [Y|[? Y]] end; [exact Y|congruence].
  - destruct (m_map s tag) eqn:E; [|discriminate]. congruence.
  - split; [assumption|left]. match goal with H : _ \/ _ |- _ => destruct H as [Y|[? Y]] end; [exact Y|congruence].
  - match goal with H : _ \/ _ |- _ => destruct H as [[Y|Y]|[Y|Y]] end; [injection Y as -> ->; auto|auto|congruence|auto].
  - split; [assumption|left]. match goal with H : _ \/ _ |- _ => destruct H as [Y|[? Y]] end; [exact Y|congruence].
  - split; [assumption|left]. match goal with H : _ \/ _ |- _ => destruct H as [Y|[? Y]] end; [exact Y|congruence].
Qed.

Lemma minv_reach s : mreach s -> minv s.
Proof.
  apply mreach_ind; [exact minv_init|]. intros s0 a s1 I H. split; [eapply phase_step|eapply tags_step]; eauto.
Qed.

(** Writing accesses exclude each other. *)
Lemma writes_exclusive s x y : mreach s -> writes s x -> writes s y -> x = y.
Proof.
  intros R X Y. destruct (minv_reach s R) as [P _]. destruct x as [t|], y as [t'|]; cbn [writes] in X, Y; [| | |reflexivity].
  - f_equal. apply (one_holder s _ _ P); right; assumption.
  - exfalso. destruct Y as (t' & tag & Y). destruct P as [L U Q C|t0 L U Z Q C|t0 tag0 L UU U Q C|t0 tag0 L U Q C O B]; try exact (C _ _ Y).
    apply (U t). right. exact X.
  - exfalso. destruct X as (t'' & tag & X). destruct P as [L U Q C|t0 L U Z Q C|t0 tag0 L UU U Q C|t0 tag0 L U Q C O B]; try exact (C _ _ X).
    apply (U t'). right. exact Y.
Qed.

(** A receiver is not called after unregisterReceiver has returned. *)
Lemma call_alive s tag : mreach s -> m_com s = CCall tag -> m_gone s tag = false.
Proof.
  intros R C. destruct (minv_reach s R) as [_ T]. destruct (m_gone s tag) eqn:E; [|reflexivity].
  destruct (tg_gone s T tag E) as (_ & [M|[t M]]); [|congruence]. pose proof (tg_call s T tag C). congruence.
Qed.

(** The lock is always released again. *)
Lemma lock_released s : mreach s -> exists l s', mrun false s l = Some (Ok s') /\ m_lock s' = None.
Proof.
  intros R. destruct (minv_reach s R) as [P T]. destruct P as [L U Q C|t0 L U Z Q C|t0 tag0 L UU U Q C|t0 tag0 L U Q C O B].
  - exists [], s. auto.
  - destruct U as [U|[tag U]].
    + exists [AReduced t0 (m_next s); AStored t0]. cbn [mrun mstep]. rewrite U, Nat.leb_refl. cbn [m_user].
      unfold set_user at 1. rewrite upd_same. eexists. split; reflexivity.
    + exists [AStored t0]. cbn [mrun mstep]. rewrite U. eexists. split; reflexivity.
  - assert (IDLE : forall s1, m_com s1 = CIdle -> m_q s1 = [(t0, tag0)] -> exists l s', mrun false s1 l = Some (Ok s') /\ m_lock s' = None).
    { intros s1 C1 Q1. exists [CUnreg; CErased]. cbn [mrun mstep]. rewrite C1, Q1. cbn [m_com]. eexists. split; reflexivity. }
    assert (CALL : forall s1 tag, m_com s1 = CCall tag -> m_q s1 = [(t0, tag0)] -> exists l s', mrun false s1 l = Some (Ok s') /\ m_lock s' = None).
    { intros s1 tag C1 Q1. destruct (IDLE (MSt (m_lock s1) (m_next s1) (m_map s1) (m_user s1) CIdle (m_q s1) (m_open s1) (m_gone s1)))
        as (l & s' & R' & L'); [reflexivity|exact Q1|]. exists (CCalled :: l), s'. cbn [mrun mstep]. rewrite C1. auto. }
    destruct (m_com s) as [|t tag|tag|tag] eqn:E.
    + apply IDLE; auto.
    + exfalso. exact (C _ _ E).
    + destruct (m_map s tag) eqn:M.
      * destruct (CALL (MSt (m_lock s) (m_next s) (m_map s) (m_user s) (CCall tag) (m_q s) (m_open s) (m_gone s)) tag)
          as (l & s' & R' & L'); [reflexivity|exact Q|]. exists (CFound :: l), s'. cbn [mrun mstep]. rewrite E, M. auto.
      * destruct (IDLE (MSt (m_lock s) (m_next s) (m_map s) (m_user s) CIdle (m_q s) (m_open s) (m_gone s)))
          as (l & s' & R' & L'); [reflexivity|exact Q|]. exists (CFound :: l), s'. cbn [mrun mstep]. rewrite E, M. auto.
    + eapply CALL; eauto.
  - exists [CErased]. cbn [mrun mstep]. rewrite C. eexists. split; reflexivity.
Qed.

(** The lock that the communication thread releases belongs to the caller of unregisterReceiver. *)
Lemma erase_owner s t tag : mreach s -> m_com s = CErase t tag -> m_lock s = Some t.
Proof.
  intros R X. destruct (minv_reach s R) as [P _].
  destruct P as [L U Q C|t0 L U Z Q C|t0 tag0 L UU U Q C|t0 tag0 L U Q C O B]; try (exfalso; exact (C _ _ X)). congruence.
Qed.
