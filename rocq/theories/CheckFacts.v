(** * Concurrent size checks of array and struct grids *)
From Coq Require Import List Bool Arith Lia.
From Verif Require Import Base TypesModel.
Import ListNotations.

(** ** Specification: what a check of a file with cell size [sz] must answer,
    if the grid's cell size is (or becomes) [size]. *)
Definition verdict (k : kind) (e : elem) (size sz : nat) : err :=
  if match k with KArray => negb (sz mod sizeof e =? 0) | _ => false end then EInvalid
  else if sz =? size then ESuccess else EWrong.
Definition reachable_check (k : kind) (e : elem) (todo : nat -> list nat) (s : cstate) : Prop :=
  exists l, crun k e (cinit todo) l = Some s.
Definition requested (todo : nat -> list nat) (sz : nat) : Prop := exists t, In sz (todo t).

Lemma upd_same {A} (f : nat -> A) i a : upd f i a i = a.
Proof. unfold upd. rewrite Nat.eqb_refl. reflexivity. Qed.
Lemma upd_other {A} (f : nat -> A) i j a : j <> i -> upd f i a j = f j.
Proof. intros H. unfold upd. apply Nat.eqb_neq in H. rewrite H. reflexivity. Qed.

Lemma mod_unit k e sz : match k with KArray => negb (sz mod sizeof e =? 0) | _ => false end
  = negb (sz mod unit_of k e =? 0).
Proof. destruct k; auto. Qed.

Section Check.
  Variable k : kind.
  Variable e : elem.
  Variable todo : nat -> list nat.
  Hypothesis positive : forall t sz, In sz (todo t) -> sz > 0.
  Let u := unit_of k e.

  Lemma unit_pos : u > 0.
  Proof. unfold u, unit_of. destruct k, e; cbn; lia. Qed.

  Definition cur (p : cpc) : list nat :=
    match p with
    | CIdle => []
    | CLock sz | CTest sz | CSet sz | CUnlock sz _ => [sz]
    end.
  Definition locked (p : cpc) : Prop :=
    match p with CTest _ | CSet _ | CUnlock _ _ => True | _ => False end.
  Definition answer (size sz : nat) : err := if sz / u =? size then ESuccess else EWrong.

  Record cinv (s : cstate) : Prop := {
    ci_lock : forall t, locked (c_pc (c_thr s t)) <-> c_lock s = Some t;
    ci_hist : forall t, todo t = map fst (c_log (c_thr s t)) ++ cur (c_pc (c_thr s t)) ++ c_todo (c_thr s t);
    ci_cur : forall t sz, In sz (cur (c_pc (c_thr s t))) -> sz mod u = 0;
    ci_set : forall t sz, c_pc (c_thr s t) = CSet sz -> c_size s = 0;
    ci_unl : forall t sz r, c_pc (c_thr s t) = CUnlock sz r -> c_size s <> 0 /\ r = answer (c_size s) sz;
    ci_log : forall t sz r, In (sz, r) (c_log (c_thr s t)) ->
      (sz mod u <> 0 /\ r = EInvalid) \/
      (sz mod u = 0 /\ c_size s <> 0 /\ r = answer (c_size s) sz);
    ci_req : c_size s <> 0 -> requested todo (c_size s * u)
  }.

  Lemma cinv_init : cinv (cinit todo).
  Proof.
    constructor; cbn; try (intros; discriminate || contradiction); auto.
    intros t; split; [contradiction|discriminate].
  Qed.

  Lemma requested_pos t sz : In sz (todo t) -> sz > 0.
  Proof. apply positive. Qed.

  Ltac upds := repeat match goal with
    | |- context [upd _ ?a _ ?b] => destruct (Nat.eq_dec b a) as [->|]; [rewrite upd_same in *|rewrite upd_other in * by assumption]
    | H : context [upd _ ?a _ ?b] |- _ => destruct (Nat.eq_dec b a) as [->|]; [rewrite upd_same in *|rewrite upd_other in * by assumption]
    end.

  Lemma cur_todo s t sz : cinv s -> In sz (cur (c_pc (c_thr s t))) -> sz > 0.
  Proof.
    intros I H. apply (positive t). rewrite (ci_hist s I t). apply in_or_app. right. apply in_or_app. auto.
  Qed.

  Ltac fin := try discriminate; try contradiction; try tauto;
    try solve [match goal with H : _ |- _ => now apply H end]; eauto.

  Lemma cinv_step s t s' : cinv s -> cstep k e s t = Some s' ->
    cinv s' /\ (c_size s <> 0 -> c_size s' = c_size s).
  Proof.
    intros I H. pose proof unit_pos as U. unfold cstep in H. fold u in H.
    pose proof (ci_lock s I) as IL. pose proof (ci_hist s I) as IH. pose proof (ci_cur s I) as IC.
    pose proof (ci_set s I) as IS. pose proof (ci_unl s I) as IU. pose proof (ci_log s I) as IG.
    pose proof (ci_req s I) as IR.
    destruct (c_pc (c_thr s t)) as [|sz|sz|sz|sz r] eqn:P.
    - destruct (c_todo (c_thr s t)) as [|sz rest] eqn:T; [discriminate H|].
      destruct (Nat.eqb_spec (sz mod u) 0) as [M|M]; cbn [negb] in H; injection H as <-;
      (split; [|cbn; auto]).
      + constructor; cbn [c_size c_lock c_thr]; intros; upds; cbn [c_pc c_todo c_log cur locked] in *; auto; fin.
        * rewrite <- IL, P. cbn. tauto.
        * rewrite IH, P, T. cbn. reflexivity.
        * destruct H as [<-|[]]. exact M.
      + constructor; cbn [c_size c_lock c_thr]; intros; upds; cbn [c_pc c_todo c_log cur locked] in *; auto; fin.
        * rewrite <- IL, P. cbn. tauto.
        * rewrite IH, P, T, map_app, <- !app_assoc. cbn. reflexivity.
        * apply in_app_or in H as [H|[H|[]]]; [eapply IG; exact H|]. injection H as <- <-. left. auto.
    - destruct (c_lock s) as [|] eqn:L; [discriminate H|]. injection H as <-. split; [|cbn; auto].
      constructor; cbn [c_size c_lock c_thr]; intros; upds; cbn [c_pc c_todo c_log cur locked] in *; auto; fin.
      * rewrite IL. split; intros X; congruence.
      * rewrite IH, P. reflexivity.
      * eapply (IC t). rewrite P. exact H.
    - assert (LK : c_lock s = Some t) by (apply IL; rewrite P; exact Logic.I).
      assert (ONE : forall v, locked (c_pc (c_thr s v)) -> v = t).
      { intros v V. apply IL in V. congruence. }
      destruct (Nat.eqb_spec (c_size s) 0) as [Z|Z]; injection H as <-; (split; [|cbn; auto]).
      + constructor; cbn [c_size c_lock c_thr]; intros; upds; cbn [c_pc c_todo c_log cur locked] in *; auto; fin.
        * rewrite IH, P. reflexivity.
        * eapply (IC t). rewrite P. exact H.
      + constructor; cbn [c_size c_lock c_thr]; intros; upds; cbn [c_pc c_todo c_log cur locked] in *; auto; fin.
        * rewrite IH, P. reflexivity.
        * eapply (IC t). rewrite P. exact H.
        * injection H as <- <-. split; [exact Z|reflexivity].
    - assert (LK : c_lock s = Some t) by (apply IL; rewrite P; exact Logic.I).
      assert (ONE : forall v, locked (c_pc (c_thr s v)) -> v = t).
      { intros v V. apply IL in V. congruence. }
      assert (Z : c_size s = 0) by (eapply IS; exact P).
      assert (M : sz mod u = 0) by (apply (IC t); rewrite P; left; reflexivity).
      assert (SP : sz > 0) by (apply (cur_todo s t); [exact I|rewrite P; left; reflexivity]).
      assert (D : sz / u <> 0).
      { intros Q. apply Nat.div_small_iff in Q; [|lia]. rewrite Nat.mod_small in M by exact Q. lia. }
      assert (E : sz / u * u = sz).
      { rewrite Nat.mul_comm. pose proof (Nat.div_mod sz u ltac:(lia)). lia. }
      injection H as <-. split; [|cbn; congruence].
      constructor; cbn [c_size c_lock c_thr]; intros; upds; cbn [c_pc c_todo c_log cur locked] in *; auto; fin.
      * rewrite IH, P. reflexivity.
      * eapply (IC t). rewrite P. exact H.
      * exfalso. apply n. apply ONE. rewrite H. exact Logic.I.
      * injection H as <- <-. split; [exact D|]. unfold answer. rewrite Nat.eqb_refl. reflexivity.
      * exfalso. apply n. apply ONE. rewrite H. exact Logic.I.
      * destruct (IG t sz0 r H) as [X|(X & Y & W)]; [left; exact X|congruence].
      * destruct (IG t0 sz0 r H) as [X|(X & Y & W)]; [left; exact X|congruence].
      * rewrite E. exists t. rewrite IH, P. apply in_or_app. right. left. reflexivity.
    - assert (LK : c_lock s = Some t) by (apply IL; rewrite P; exact Logic.I).
      assert (ONE : forall v, locked (c_pc (c_thr s v)) -> v = t).
      { intros v V. apply IL in V. congruence. }
      destruct (IU t sz r P) as [Z A].
      assert (M : sz mod u = 0) by (apply (IC t); rewrite P; left; reflexivity).
      injection H as <-. split; [|cbn; auto].
      constructor; cbn [c_size c_lock c_thr]; intros; upds; cbn [c_pc c_todo c_log cur locked] in *; auto; fin.
      * split; [contradiction|discriminate].
      * split; [|discriminate]. intros V. exfalso. apply n, ONE, V.
      * rewrite IH, P, map_app, <- !app_assoc. reflexivity.
      * apply in_app_or in H as [H|[H|[]]]; [eapply IG; exact H|]. injection H as <- <-.
        right. repeat split; assumption.
  Qed.

  Lemma crun_inv l : forall s s', cinv s -> crun k e s l = Some s' ->
    cinv s' /\ (c_size s <> 0 -> c_size s' = c_size s).
  Proof.
    induction l as [|t l IHl]; intros s s' I H; cbn in H.
    - injection H as <-. auto.
    - destruct (cstep k e s t) as [s1|] eqn:E; [|discriminate H].
      destruct (cinv_step s t s1 I E) as [I1 S1]. destruct (IHl s1 s' I1 H) as [I2 S2].
      split; [exact I2|]. intros Z. rewrite S2; auto. rewrite S1; auto.
  Qed.
  Lemma reach_inv s : reachable_check k e todo s -> cinv s.
  Proof. intros [l H]. eapply crun_inv; [apply cinv_init|exact H]. Qed.

  Lemma log_positive s t sz r : cinv s -> In (sz, r) (c_log (c_thr s t)) -> In sz (todo t).
  Proof.
    intros I H. rewrite (ci_hist s I t). apply in_or_app. left.
    apply in_map with (f := fst) in H. exact H.
  Qed.

  Lemma check_verdict s t sz r : reachable_check k e todo s -> In (sz, r) (c_log (c_thr s t)) ->
    r = verdict k e (csize k e s) sz.
  Proof.
    intros R H. pose proof (reach_inv s R) as I. pose proof unit_pos as U.
    unfold verdict, csize. fold u.
    assert (M : match k with KArray => negb (sz mod sizeof e =? 0) | _ => false end
                = negb (sz mod u =? 0)).
    { apply mod_unit. }
    rewrite M. destruct (ci_log s I t sz r H) as [[N ->]|(N & Z & ->)].
    - apply Nat.eqb_neq in N. rewrite N. reflexivity.
    - rewrite N. cbn [Nat.eqb negb]. unfold answer.
      assert (E : sz = sz / u * u).
      { rewrite Nat.mul_comm. pose proof (Nat.div_mod sz u ltac:(lia)). lia. }
      destruct (Nat.eqb_spec (sz / u) (c_size s)) as [A|A].
      + rewrite <- A, <- E, Nat.eqb_refl. reflexivity.
      + destruct (Nat.eqb_spec sz (c_size s * u)) as [B|B]; [|reflexivity].
        exfalso. apply A. rewrite B. apply Nat.div_mul. lia.
  Qed.

  Lemma check_size_requested s : reachable_check k e todo s -> csize k e s <> 0 ->
    requested todo (csize k e s).
  Proof.
    intros R H. apply (ci_req s (reach_inv s R)). intros Z. apply H. unfold csize. rewrite Z. reflexivity.
  Qed.
  Lemma check_size_stable s l s' : reachable_check k e todo s -> crun k e s l = Some s' ->
    csize k e s <> 0 -> csize k e s' = csize k e s.
  Proof.
    intros R H Z. destruct (crun_inv l s s' (reach_inv s R) H) as [_ S].
    unfold csize. rewrite S; [reflexivity|]. intros Q. apply Z. unfold csize. rewrite Q. reflexivity.
  Qed.
  (** A check that was not rejected as invalid fixes the size. *)
  Lemma check_fixed s t sz r : reachable_check k e todo s -> In (sz, r) (c_log (c_thr s t)) ->
    r <> EInvalid -> csize k e s <> 0.
  Proof.
    intros R H N. destruct (ci_log s (reach_inv s R) t sz r H) as [[_ X]|(_ & Z & _)]; [congruence|].
    unfold csize. fold u. pose proof unit_pos. nia.
  Qed.
  (** Nobody waits for ever: somebody can go on as long as a check is not finished. *)
  Lemma check_progress s t : reachable_check k e todo s ->
    map fst (c_log (c_thr s t)) <> todo t -> exists v s', cstep k e s v = Some s'.
  Proof.
    intros R H. pose proof (reach_inv s R) as I.
    assert (G : forall v, locked (c_pc (c_thr s v)) -> exists s', cstep k e s v = Some s').
    { intros v L. unfold cstep. destruct (c_pc (c_thr s v)); try contradiction.
      - destruct (c_size s =? 0); eexists; reflexivity.
      - eexists; reflexivity.
      - eexists; reflexivity. }
    destruct (c_lock s) as [v|] eqn:L.
    - exists v. apply G. apply (ci_lock s I). exact L.
    - exists t. unfold cstep. destruct (c_pc (c_thr s t)) eqn:P.
      + rewrite (ci_hist s I t), P in H. cbn in H.
        destruct (c_todo (c_thr s t)) as [|sz rr]; [rewrite app_nil_r in H; congruence|].
        destruct (negb _); eexists; reflexivity.
      + rewrite L. eexists; reflexivity.
      + destruct (c_size s =? 0); eexists; reflexivity.
      + eexists; reflexivity.
      + eexists; reflexivity.
  Qed.
End Check.
