(** * The unit test of the communication thread: lemmas *)
From Verif Require Import SyncFacts UnitModel UnitFacts.
Require Import Lia.

Definition mine (net : list kmsg) (r : nat) : list kmsg :=
  filter (fun m => (Nat.eqb (km_src m) r && Nat.eqb (km_dst m) r)%bool) net.
Arguments mine : simpl never.

Section Test.
Variable n : nat.

Notation E := (Some (KEntry 0 (seq 0 n))).

Inductive wok (r : nat) : nat -> klock -> bool -> option kentry -> option Z -> option Z -> bool -> list kmsg -> Z -> Prop :=
| W0 rv : wok r 0 KFree true None None None false [] rv
| W1 rv : wok r 1 (KReg 0) true None (Some 0%Z) None false [] rv
| W2 p rv : p = 2 \/ p = 3 -> wok r p KFree true E (Some 0%Z) (Some 0%Z) false [] rv
| W4 p i rv : p = 4 \/ p = 5 -> wok r p KFree true E (Some 0%Z) (Some 0%Z) false [KMsg r r 0 42 (Some i)] rv
| W4r p : p = 4 \/ p = 5 -> wok r p KFree true E (Some 0%Z) (Some 0%Z) false [] 42
| W6 i rv : wok r 6 KDel true E (Some 0%Z) (Some 0%Z) true [KMsg r r 0 42 (Some i); KMsg r r UNREG_TAG 0 None] rv
| W6r : wok r 6 KDel true E (Some 0%Z) (Some 0%Z) true [KMsg r r UNREG_TAG 0 None] 42
| W6u : wok r 6 KFree true None (Some 0%Z) (Some 0%Z) true [] 42
| W7 : wok r 7 KFree true None (Some 0%Z) (Some 0%Z) true [] 42
| W8 : wok r 8 KFree true None (Some 0%Z) (Some 0%Z) true [KMsg r r EXIT_TAG 0 None] 42
| W9 p : 8 <= p <= 10 -> wok r p KFree false None (Some 0%Z) (Some 0%Z) true [] 42.

Definition rank_ok (s : wst) (r : nat) : Prop :=
  wok r (w_pos s r) (kp_lock (ks_proc (w_k s) r)) (kp_run (ks_proc (w_k s) r)) (kp_map (ks_proc (w_k s) r) 0%Z)
      (ks_in (w_k s) 0 r) (ks_tag (w_k s) r 0) (ks_closed (w_k s) r 0) (mine (ks_net (w_k s)) r) (w_recv s r).

Record winv (s : wst) : Prop := {
  wi_rank : forall r, r < n -> rank_ok s r;
  wi_next : forall r, r < n -> w_pos s r = 0 -> kp_next (ks_proc (w_k s) r) = 0%Z;
  wi_self : forall m, In m (ks_net (w_k s)) -> km_src m = km_dst m;
  wi_ok : w_ok s = true
}.

Lemma winv_init : winv w_init.
Proof. constructor; cbn; try tauto. intros r H. apply W0. Qed.

(** Steps done by process [r]: statements and handled messages. *)
Definition w_sent (p : nat) : nat := if p <=? 3 then 0 else if p <=? 5 then 1 else if p <=? 7 then 2 else 3.
Definition w_meas (s : wst) (r : nat) : nat := w_pos s r + w_sent (w_pos s r) - length (mine (ks_net (w_k s)) r).

Lemma mine_app : forall l m r, mine (l ++ [m]) r = mine l r ++ (if (Nat.eqb (km_src m) r && Nat.eqb (km_dst m) r)%bool then [m] else []).
Proof. intros l m r. unfold mine. rewrite filter_app. cbn. destruct (_ && _)%bool; reflexivity. Qed.

Lemma ktake_mine : forall r l m l', ktake r r l = Some (m, l') ->
  mine l r = m :: mine l' r /\ (forall q, q <> r -> mine l' q = mine l q) /\ (forall m', In m' l' -> In m' l).
Proof.
  induction l as [|x l IH]; intros m l' H; cbn in H; [discriminate|]. unfold mine. cbn [filter]. fold (mine l r).
  destruct (Nat.eqb (km_src x) r && Nat.eqb (km_dst x) r)%bool eqn:B.
  - injection H as <- <-. split; [reflexivity|]. split; [|intros; right; assumption].
    intros q N. cbn. apply andb_prop in B as [B _]. apply Nat.eqb_eq in B. rewrite B.
    destruct (Nat.eqb_spec r q); [congruence|]. reflexivity.
  - destruct (ktake r r l) as [[m' l'']|] eqn:K; [|discriminate]. injection H as <- <-.
    destruct (IH _ _ eq_refl) as (A1 & A2 & A3). fold (mine l r). split; [|split].
    + rewrite A1. f_equal. unfold mine. cbn [filter]. rewrite B. reflexivity.
    + intros q N. unfold mine. cbn [filter]. fold (mine l'' q) (mine l q). rewrite (A2 q N). reflexivity.
    + intros y [<-|Y]; [left; reflexivity|right; auto].
Qed.

Lemma ktake_none : forall r l, ktake r r l = None -> mine l r = [].
Proof.
  induction l as [|x l IH]; intros H; cbn in H; [reflexivity|]. unfold mine. cbn [filter].
  destruct (_ && _)%bool; [discriminate|]. destruct (ktake r r l) as [[? ?]|]; [discriminate|]. apply IH. reflexivity.
Qed.

Lemma ktake_in : forall src r l m l', ktake src r l = Some (m, l') -> In m l /\ km_src m = src /\ km_dst m = r.
Proof.
  induction l as [|x l IH]; intros m l' H; cbn in H; [discriminate|].
  destruct (Nat.eqb_spec (km_src x) src) as [e|]; destruct (Nat.eqb_spec (km_dst x) r) as [e'|]; cbn in H.
  1: injection H as <- <-; split; [left; reflexivity|auto].
  all: destruct (ktake src r l) as [[m' l'']|]; [|discriminate]; injection H as <- <-;
       destruct (IH _ _ eq_refl) as (A & B); split; [right; assumption|exact B].
Qed.

Lemma existsb_mine : forall f l r,
  existsb (fun m => (Nat.eqb (km_src m) r && Nat.eqb (km_dst m) r && f m)%bool) l = existsb f (mine l r).
Proof.
  induction l as [|x l IH]; intros r; cbn; [reflexivity|]. rewrite IH. unfold mine. cbn [filter].
  destruct (Nat.eqb (km_src x) r && Nat.eqb (km_dst x) r)%bool; reflexivity.
Qed.

Lemma kmax_zero : forall f l z, (forall q, In q l -> f q = None \/ f q = Some 0%Z) -> kmax f l = Some z -> z = 0%Z.
Proof.
  induction l as [|q l IH]; intros z H K; cbn in K; [congruence|].
  destruct (H q (or_introl eq_refl)) as [e|e]; rewrite e in K; [discriminate|].
  destruct (kmax f l) as [y|]; [|discriminate]. rewrite (IH y) in K; [|intros; apply H; right; assumption|reflexivity].
  cbn in K. congruence.
Qed.

Lemma kmax_some : forall f l, (forall q, In q l -> f q <> None) -> kmax f l <> None.
Proof.
  induction l as [|q l IH]; intros H; cbn; [discriminate|]. specialize (H q (or_introl eq_refl)) as Hq.
  destruct (f q); [|congruence]. destruct (kmax f l); [discriminate|]. intros _. apply IH; auto.
  intros; apply H; right; assumption.
Qed.

Lemma index_seq : forall m i r, r < m -> index_of (i + r) (seq i m) = Some r.
Proof.
  induction m as [|m IH]; intros i r H; [lia|]. cbn [seq index_of]. destruct r as [|r].
  - rewrite Nat.add_0_r, Nat.eqb_refl. reflexivity.
  - destruct (Nat.eqb_spec i (i + S r)); [lia|]. rewrite <- Nat.add_succ_comm, IH by lia. reflexivity.
Qed.

Lemma in_ranks : forall r, r < n -> existsb (Nat.eqb r) (w_grp n 0) = true.
Proof. intros r H. apply existsb_exists. exists r. split; [apply in_seq; lia|apply Nat.eqb_refl]. Qed.

Lemma nth_ranks : forall r, r < n -> nth_error (seq 0 n) r = Some r.
Proof. intros r H. rewrite (nth_error_nth' _ 0) by (rewrite seq_length; exact H). rewrite seq_nth by exact H. reflexivity. Qed.

Lemma upd2_other : forall {A} (f : nat -> nat -> A) i j a i' j', i' <> i \/ j' <> j -> upd2 f i j a i' j' = f i' j'.
Proof. intros A f i j a i' j' H. unfold upd2. destruct (Nat.eqb_spec i' i), (Nat.eqb_spec j' j); try reflexivity. lia. Qed.
Lemma upd2_same : forall {A} (f : nat -> nat -> A) i j a, upd2 f i j a i j = a.
Proof. intros. unfold upd2. rewrite !Nat.eqb_refl. reflexivity. Qed.

Ltac other Nq := rewrite ?(upd_other _ _ _ _ Nq), ?upd2_other by (auto; lia).
Ltac own := rewrite ?upd_same, ?upd2_same.

(** One step: never undefined, keeps the invariant and counts. *)
Definition outcome_ok (s : wst) (r : nat) (o : option (outcome wst)) : Prop :=
  match o with
  | None => True
  | Some Ub => False
  | Some (Ok s') => winv s' /\ (forall q, q <> r -> w_meas s' q = w_meas s q) /\ w_meas s' r = S (w_meas s r)
  end.

(** Only rank [r] changed. *)
Lemma local_step : forall s s' r, winv s -> r < n ->
  rank_ok s' r -> (w_pos s' r = 0 -> kp_next (ks_proc (w_k s') r) = 0%Z) ->
  (forall m, In m (ks_net (w_k s')) -> km_src m = km_dst m) -> w_ok s' = true ->
  w_meas s' r = S (w_meas s r) ->
  (forall q, q <> r -> w_pos s' q = w_pos s q /\ ks_proc (w_k s') q = ks_proc (w_k s) q /\ ks_in (w_k s') 0 q = ks_in (w_k s) 0 q /\
     ks_tag (w_k s') q 0 = ks_tag (w_k s) q 0 /\ ks_closed (w_k s') q 0 = ks_closed (w_k s) q 0 /\
     mine (ks_net (w_k s')) q = mine (ks_net (w_k s)) q /\ w_recv s' q = w_recv s q) ->
  outcome_ok s r (Some (Ok s')).
Proof.
  intros s s' r I R A B C D M O. cbn. split; [|split; [|exact M]].
  - constructor; auto.
    + intros q Q. destruct (Nat.eq_dec q r) as [->|Nq]; [exact A|]. destruct (O q Nq) as (O1 & O2 & O3 & O4 & O5 & O6 & O7).
      unfold rank_ok. rewrite O1, O2, O3, O4, O5, O6, O7. apply (wi_rank s I q Q).
    + intros q Q. destruct (Nat.eq_dec q r) as [->|Nq]; [exact B|]. destruct (O q Nq) as (O1 & O2 & _).
      rewrite O1, O2. apply (wi_next s I q Q).
  - intros q Nq. destruct (O q Nq) as (O1 & _ & _ & _ & _ & O6 & _). unfold w_meas. rewrite O1, O6. reflexivity.
Qed.

Lemma w_step_main : forall s r, winv s -> outcome_ok s r (w_step n s (WMain r)).
Proof.
  intros s r I. unfold w_step. destruct (Nat.ltb_spec r n) as [R|]; [|exact Logic.I].
  pose proof (wi_rank s I r R) as K. pose proof (wi_self s I) as Self. pose proof (wi_ok s I) as OK.
  unfold rank_ok in K.
  destruct (w_pos s r) as [|[|[|[|[|[|[|[|[|[|p]]]]]]]]]] eqn:P.
  - (* enter *)
    cbn [kstep]. destruct (kp_lock (ks_proc (w_k s) r)) eqn:L; try exact Logic.I.
    destruct (ks_in (w_k s) 0 r) eqn:In0; [exact Logic.I|]. rewrite (in_ranks r R). cbn [w_lift].
    apply local_step; auto; unfold rank_ok, w_meas; cbn; own; rewrite ?P; cbn.
    + inversion K; subst; try lia. rewrite (wi_next s I r R P). apply W1.
    + discriminate.
    + inversion K; subst; try lia. cbn. reflexivity.
    + intros q Nq. other Nq. repeat split; reflexivity.
  - (* return *)
    cbn [kstep]. destruct (kp_lock (ks_proc (w_k s) r)) as [|g|] eqn:L; try exact Logic.I.
    destruct (Nat.eqb_spec g 0) as [->|]; [|exact Logic.I].
    destruct (kmax (ks_in (w_k s) 0) (w_grp n 0)) as [tag|] eqn:M; [|exact Logic.I]. cbn [w_lift].
    assert (tag = 0%Z); [|subst tag].
    { eapply kmax_zero; [|exact M]. intros q Hq. apply in_seq in Hq.
      pose proof (wi_rank s I q ltac:(lia)) as Kq. unfold rank_ok in Kq. inversion Kq; auto. }
    apply local_step; auto; unfold rank_ok, w_meas; cbn; own; rewrite ?P; cbn.
    + inversion K; subst; try lia. apply W2. auto.
    + discriminate.
    + inversion K; subst; try lia. cbn. reflexivity.
    + intros q Nq. other Nq. repeat split; reflexivity.
  - (* received = -1 *)
    apply local_step; auto; unfold rank_ok, w_meas; cbn; own; rewrite ?P; cbn.
    + inversion K; subst; try lia. apply W2. auto.
    + discriminate.
    + inversion K; subst; try lia. cbn. reflexivity.
    + intros q Nq. other Nq. repeat split; reflexivity.
  - (* send *)
    cbn [kstep].
    assert (Kt : ks_tag (w_k s) r 0 = Some 0%Z) by (inversion K; subst; auto; lia).
    assert (Kc : ks_closed (w_k s) r 0 = false) by (inversion K; subst; auto; lia).
    assert (Km : kp_map (ks_proc (w_k s) r) 0%Z = E) by (inversion K; subst; auto; lia).
    rewrite Kt, Kc, Km. cbn [ke_group]. rewrite (nth_ranks r R). cbn [w_lift].
    apply local_step; auto; unfold rank_ok, w_meas; cbn [w_pos w_k w_recv ks_proc ks_in ks_tag ks_closed ks_net w_ok];
      rewrite ?mine_app; cbn [km_src km_dst]; own; rewrite ?P, ?Nat.eqb_refl; cbn [andb].
    + inversion K; subst; try lia. cbn [app]. apply W4. auto.
    + discriminate.
    + intros m Hm. apply in_app_iff in Hm as [Hm|[<-|[]]]; [auto|reflexivity].
    + inversion K; subst; try lia. cbn. reflexivity.
    + intros q Nq. rewrite ?mine_app. cbn [km_src km_dst]. other Nq. destruct (Nat.eqb_spec r q); [congruence|].
      cbn [andb]. rewrite app_nil_r. repeat split; reflexivity.
  - (* barrier *)
    destruct (forallb _ _); [|exact Logic.I].
    apply local_step; auto; unfold rank_ok, w_meas; cbn; own; rewrite ?P; cbn.
    + inversion K; subst; try lia; [apply W4|apply W4r]; auto.
    + discriminate.
    + inversion K; subst; try lia; cbn; reflexivity.
    + intros q Nq. other Nq. repeat split; reflexivity.
  - (* unregister *)
    cbn [kstep]. destruct (kp_lock (ks_proc (w_k s) r)) eqn:L; try exact Logic.I.
    assert (Kt : ks_tag (w_k s) r 0 = Some 0%Z) by (inversion K; subst; auto; lia).
    assert (Kc : ks_closed (w_k s) r 0 = false) by (inversion K; subst; auto; lia).
    rewrite Kt, Kc. cbn [w_lift].
    apply local_step; auto; unfold rank_ok, w_meas; cbn [w_pos w_k w_recv ks_proc ks_in ks_tag ks_closed ks_net w_ok];
      rewrite ?mine_app; cbn [km_src km_dst]; own; rewrite ?P, ?Nat.eqb_refl; cbn [andb kp_lock kp_run kp_map kp_next].
    + inversion K; subst; try lia; cbn [app]; [apply W6|apply W6r].
    + discriminate.
    + intros m Hm. apply in_app_iff in Hm as [Hm|[<-|[]]]; [auto|reflexivity].
    + inversion K; subst; try lia; cbn; reflexivity.
    + intros q Nq. rewrite ?mine_app. cbn [km_src km_dst]. other Nq. destruct (Nat.eqb_spec r q); [congruence|].
      cbn [andb]. rewrite app_nil_r. repeat split; reflexivity.
  - (* the unregister message is received *)
    rewrite (existsb_mine (fun m => (km_tag m =? UNREG_TAG)%Z)).
    destruct (existsb _ _) eqn:X; [exact Logic.I|].
    apply local_step; auto; unfold rank_ok, w_meas; cbn; own; rewrite ?P; cbn.
    + inversion K as [ | |? ? [|] |? ? ? [|] |? [|] | | | | | | ]; subst; try lia;
        try (match goal with H : _ = mine _ r |- _ => rewrite <- H in X; discriminate X end). apply W7.
    + discriminate.
    + inversion K as [ | |? ? [|] |? ? ? [|] |? [|] | | | | | | ]; subst; try lia;
        try (match goal with H : _ = mine _ r |- _ => rewrite <- H in X; discriminate X end). cbn. reflexivity.
    + intros q Nq. other Nq. repeat split; reflexivity.
  - (* exit message *)
    destruct (is_free _); [|exact Logic.I]. cbn [w_lift]. unfold w_exit.
    apply local_step; auto; unfold rank_ok, w_meas; cbn [w_pos w_k w_recv ks_proc ks_in ks_tag ks_closed ks_net w_ok];
      rewrite ?mine_app; cbn [km_src km_dst]; own; rewrite ?P, ?Nat.eqb_refl; cbn [andb].
    + inversion K; subst; try lia; cbn [app]. apply W8.
    + discriminate.
    + intros m Hm. apply in_app_iff in Hm as [Hm|[<-|[]]]; [auto|reflexivity].
    + inversion K; subst; try lia; cbn; reflexivity.
    + intros q Nq. rewrite ?mine_app. cbn [km_src km_dst]. other Nq. destruct (Nat.eqb_spec r q); [congruence|].
      cbn [andb]. rewrite app_nil_r. repeat split; reflexivity.
  - (* join *)
    destruct (kp_run _) eqn:Ru; [exact Logic.I|].
    apply local_step; auto; unfold rank_ok, w_meas; cbn; own; rewrite ?P, ?Ru; cbn.
    + inversion K; subst; try lia; try congruence. apply W9. lia.
    + discriminate.
    + inversion K; subst; try lia; try congruence. cbn. reflexivity.
    + intros q Nq. other Nq. repeat split; reflexivity.
  - (* check *)
    assert (Rv : w_recv s r = 42%Z) by (inversion K; subst; auto; lia).
    apply local_step; auto; unfold rank_ok, w_meas; cbn; own; rewrite ?P; cbn.
    + inversion K; subst; try lia. apply W9. lia.
    + discriminate.
    + rewrite OK, Rv. reflexivity.
    + inversion K; subst; try lia. cbn. reflexivity.
    + intros q Nq. other Nq. repeat split; reflexivity.
  - exact Logic.I.
Qed.

Lemma w_step_handle : forall s r src, winv s -> outcome_ok s r (w_step n s (WHandle r src)).
Proof.
  intros s r src I. unfold w_step. destruct (Nat.ltb_spec r n) as [R|]; [|exact Logic.I].
  pose proof (wi_rank s I r R) as K. pose proof (wi_self s I) as Self. pose proof (wi_ok s I) as OK.
  unfold rank_ok in K. cbn [kstep].
  destruct (kp_run (ks_proc (w_k s) r)) eqn:Ru; [|exact Logic.I].
  destruct (ktake src r (ks_net (w_k s))) as [[m net]|] eqn:T; [|exact Logic.I].
  destruct (ktake_in _ _ _ _ _ T) as (Im & Es & Ed). pose proof (Self m Im) as Sm. assert (src = r) by congruence. clear Es Ed Sm. subst src.
  destruct (ktake_mine _ _ _ _ T) as (M1 & M2 & M3). rewrite M1 in K.
  assert (G : forall s', w_pos s' = w_pos s -> (forall q, q <> r -> ks_proc (w_k s') q = ks_proc (w_k s) q) ->
     ks_in (w_k s') = ks_in (w_k s) -> ks_tag (w_k s') = ks_tag (w_k s) -> ks_closed (w_k s') = ks_closed (w_k s) ->
     ks_net (w_k s') = net -> (forall q, q <> r -> w_recv s' q = w_recv s q) -> w_ok s' = w_ok s -> rank_ok s' r ->
     outcome_ok s r (Some (Ok s'))).
  { intros s' A1 A2 A3 A4 A5 A6 A7 A8 A9. apply local_step; auto.
    - rewrite A1. intros Z. rewrite Z in K. inversion K; lia.
    - rewrite A6. intros m' Hm. apply Self. auto.
    - congruence.
    - unfold w_meas. rewrite A1, A6, M1. cbn [length]. 
      inversion K; subst; cbn in *; try match goal with H : _ \/ _ |- _ => destruct H end; subst; cbn in *; try lia;
      match goal with H : w_pos s r = _ |- _ => rewrite H | H : _ = w_pos s r |- _ => rewrite <- H end; cbn; lia.
    - intros q Nq. rewrite A1, A3, A4, A5, A6, (A2 q Nq), (A7 q Nq), (M2 q Nq). repeat split; reflexivity. }
  inversion K; subst.
  - (* 42 *)
    cbn [km_tag].
    match goal with H : E = _ |- _ => rewrite <- H end. cbn [km_id km_src ke_group km_data ke_reg].
    pose proof (index_seq n 0 r R) as IX. cbn [Nat.add] in IX.
    change (0 =? EXIT_TAG)%Z with false. change (0 =? UNREG_TAG)%Z with false. cbn iota. rewrite IX.
    cbn [ks_log length]. destruct (Nat.eqb_spec (S (length (ks_log (w_k s)))) (length (ks_log (w_k s)))); [lia|].
    apply G; cbn; auto.
    + intros q Nq. other Nq. reflexivity.
    + intros q Nq. other Nq. reflexivity.
    + unfold rank_ok. cbn. own.
      rewrite ?Ru. clear OK Ru. repeat match goal with H : _ = ?x |- context [?x] => rewrite <- H end. apply W4r. assumption.
  - change (0 =? EXIT_TAG)%Z with false. change (0 =? UNREG_TAG)%Z with false. cbn iota.
    cbn [km_tag]. change (0 =? EXIT_TAG)%Z with false. change (0 =? UNREG_TAG)%Z with false. cbn iota.
    match goal with H : E = _ |- _ => rewrite <- H end. cbn [km_id km_src ke_group km_data ke_reg].
    pose proof (index_seq n 0 r R) as IX. cbn [Nat.add] in IX. rewrite IX.
    cbn [ks_log length]. destruct (Nat.eqb_spec (S (length (ks_log (w_k s)))) (length (ks_log (w_k s)))); [lia|].
    apply G; cbn; auto.
    + intros q Nq. other Nq. reflexivity.
    + intros q Nq. other Nq. reflexivity.
    + unfold rank_ok. cbn. own.
      rewrite ?Ru. clear OK Ru. repeat match goal with H : _ = ?x |- context [?x] => rewrite <- H end. apply W6r.
  - cbn [km_tag]. change (UNREG_TAG =? EXIT_TAG)%Z with false. change (UNREG_TAG =? UNREG_TAG)%Z with true. cbn iota.
    cbn [ks_log]. rewrite Nat.eqb_refl.
    apply G; cbn; auto.
    + intros q Nq. other Nq. reflexivity.
    + unfold rank_ok. cbn. own. cbn.
      rewrite ?Ru. clear OK Ru. repeat match goal with H : _ = ?x |- context [?x] => rewrite <- H end. apply W6u.
  - cbn [km_tag]. change (EXIT_TAG =? EXIT_TAG)%Z with true. cbn iota. cbn [ks_log]. rewrite Nat.eqb_refl.
    apply G; cbn; auto.
    + intros q Nq. other Nq. reflexivity.
    + unfold rank_ok. cbn. own. cbn.
      rewrite ?Ru. clear OK Ru. repeat match goal with H : _ = ?x |- context [?x] => rewrite <- H end. apply W9. lia.
Qed.

Definition w_rank (a : wact) : nat := match a with WMain r => r | WHandle r _ => r end.
Lemma w_step_ok : forall s a, winv s -> outcome_ok s (w_rank a) (w_step n s a).
Proof. intros s [r|r src] I; [apply w_step_main|apply w_step_handle]; exact I. Qed.

Definition wstate (s : wst) : Prop := exists l, w_run n w_init l = Some (Ok s).

Lemma w_run_inv : forall l s s', winv s -> w_run n s l = Some (Ok s') -> winv s'.
Proof.
  induction l as [|a l IH]; intros s s' I H; cbn in H; [injection H as <-; exact I|].
  pose proof (w_step_ok s a I) as O. destruct (w_step n s a) as [[s1|]|]; try discriminate. eapply IH; [apply O|exact H].
Qed.
Lemma wstate_inv : forall s, wstate s -> winv s.
Proof. intros s [l H]. eapply w_run_inv; [apply winv_init|exact H]. Qed.

Theorem comm_test_ok : forall s, wstate s -> w_ok s = true.
Proof. intros s S. apply (wi_ok s (wstate_inv s S)). Qed.

Theorem comm_test_received : forall s r, wstate s -> r < n -> 6 < w_pos s r -> w_recv s r = 42%Z.
Proof.
  intros s r S R P. pose proof (wi_rank s (wstate_inv s S) r R) as K. unfold rank_ok in K.
  inversion K; try reflexivity; lia.
Qed.

Theorem comm_test_defined : forall l, w_run n w_init l <> Some Ub.
Proof.
  intros l. generalize winv_init. generalize w_init as s. induction l as [|a l IH]; intros s I E; cbn in E; [discriminate|].
  pose proof (w_step_ok s a I) as O. destruct (w_step n s a) as [[s1|]|]; try discriminate; [|exact O].
  apply (IH s1); [apply O|exact E].
Qed.

Theorem comm_test_finite : forall l s, w_run n w_init l = Some (Ok s) -> length l <= 13 * n.
Proof.
  assert (G : forall l s s', winv s -> w_run n s l = Some (Ok s') -> ysum (w_meas s) n + length l <= ysum (w_meas s') n).
  { induction l as [|a l IH]; intros s s' I H; cbn in H; [injection H as <-; cbn; lia|].
    pose proof (w_step_ok s a I) as O. destruct (w_step n s a) as [[s1|]|] eqn:Q; try discriminate.
    destruct O as (I1 & M1 & M2). pose proof (IH s1 s' I1 H). cbn [length].
    assert (R : w_rank a < n).
    { unfold w_step in Q. destruct a as [r|r src]; cbn; destruct (Nat.ltb_spec r n); try assumption; discriminate. }
    pose proof (ysum_lt n (w_meas s) (w_meas s1) (w_rank a) R) as L.
    assert (ysum (w_meas s) n < ysum (w_meas s1) n); [|lia].
    apply L; [|lia]. intros t _. destruct (Nat.eq_dec t (w_rank a)) as [->|Nt]; [lia|]. rewrite (M1 t Nt). lia. }
  intros l s H. pose proof (G l w_init s winv_init H) as L. pose proof (w_run_inv l _ _ winv_init H) as I.
  assert (B : ysum (w_meas s) n <= ysum (fun _ => 13) n).
  { apply ysum_le. intros r R. pose proof (wi_rank s I r R) as K. unfold rank_ok in K. unfold w_meas.
    inversion K; subst; try match goal with X : _ \/ _ |- _ => destruct X as [X|X] end;
      repeat match goal with X : _ = w_pos s r |- _ => rewrite <- X in * | X : w_pos s r = _ |- _ => rewrite X in * end;
      cbn; try lia.
    assert (w_sent (w_pos s r) <= 3) by (unfold w_sent; repeat destruct (_ <=? _); lia). lia. }
  rewrite ysum_const in B. lia.
Qed.

Theorem comm_test_progress : forall s, wstate s -> (exists r, r < n /\ w_pos s r < 10) ->
  exists a s', w_step n s a = Some (Ok s').
Proof.
  intros s S (r0 & R0 & P0). pose proof (wstate_inv s S) as I.
  assert (Go : forall a, w_step n s a <> None -> exists a s', w_step n s a = Some (Ok s')).
  { intros a H. pose proof (w_step_ok s a I) as O. destruct (w_step n s a) as [[s'|]|] eqn:E; [eauto|contradiction|congruence]. }
  (* somebody has not called registerReceiver *)
  assert (Low : forall k, (exists r, r < n /\ w_pos s r < k) \/ (forall r, r < n -> k <= w_pos s r)).
  { clear. intros k. induction n as [|m [(r & A & B)|IH]].
    - right. intros; lia.
    - left. exists r. split; [lia|exact B].
    - destruct (Nat.lt_ge_cases (w_pos s m) k) as [L|L]; [left; exists m; split; [lia|exact L]|].
      right. intros r A. destruct (Nat.eq_dec r m) as [->|]; [exact L|apply IH; lia]. }
  destruct (Low 1) as [(r & R & P)|L1].
  { apply (Go (WMain r)). unfold w_step. rewrite (proj2 (Nat.ltb_lt r n) R). replace (w_pos s r) with 0 by lia.
    pose proof (wi_rank s I r R) as K. unfold rank_ok in K. cbn [kstep].
    inversion K; try lia. rewrite (in_ranks r R). discriminate. }
  destruct (Low 4) as [(r & R & P)|L4].
  { apply (Go (WMain r)). unfold w_step. rewrite (proj2 (Nat.ltb_lt r n) R).
    pose proof (wi_rank s I r R) as K. unfold rank_ok in K. pose proof (L1 r R).
    destruct (w_pos s r) as [|[|[|[|p]]]] eqn:Ep; try lia.
    - cbn [kstep]. inversion K; subst; try lia. cbn [Nat.eqb].
      pose proof (kmax_some (ks_in (w_k s) 0) (w_grp n 0)) as M.
      destruct (kmax (ks_in (w_k s) 0) (w_grp n 0)); [discriminate|]. exfalso. apply M; [|reflexivity].
      intros q Hq. apply in_seq in Hq. pose proof (wi_rank s I q ltac:(lia)) as Kq. unfold rank_ok in Kq. pose proof (L1 q ltac:(lia)).
      inversion Kq; try discriminate. lia.
    - discriminate.
    - cbn [kstep]. inversion K; subst; try lia.
      match goal with X : E = _ |- _ => rewrite <- X end. cbn [ke_group]. rewrite (nth_ranks r R). discriminate. }
  pose proof (wi_rank s I r0 R0) as K. unfold rank_ok in K. pose proof (L4 r0 R0).
  assert (Hh : kp_run (ks_proc (w_k s) r0) = true -> mine (ks_net (w_k s)) r0 <> [] -> exists a s', w_step n s a = Some (Ok s')).
  { intros A B. apply (Go (WHandle r0 r0)). unfold w_step. rewrite (proj2 (Nat.ltb_lt r0 n) R0). cbn [kstep]. rewrite A.
    destruct (ktake r0 r0 (ks_net (w_k s))) as [[m net]|] eqn:T; [|apply ktake_none in T; congruence].
    destruct (km_tag m =? EXIT_TAG)%Z; [discriminate|]. destruct (km_tag m =? UNREG_TAG)%Z.
    - destruct (kp_lock _); discriminate.
    - destruct (kp_map (ks_proc (w_k s) r0) (km_tag m)) as [e|], (km_id m); try discriminate.
      destruct (index_of (km_src m) (ke_group e)); discriminate. }
  destruct (w_pos s r0) as [|[|[|[|[|[|[|[|[|[|p]]]]]]]]]] eqn:Ep; try lia.
  - apply (Go (WMain r0)). unfold w_step. rewrite (proj2 (Nat.ltb_lt r0 n) R0), Ep.
    replace (forallb (fun q => 4 <=? w_pos s q) (seq 0 n)) with true; [discriminate|].
    symmetry. apply forallb_forall. intros q Hq. apply in_seq in Hq. apply Nat.leb_le, L4. lia.
  - apply (Go (WMain r0)). unfold w_step. rewrite (proj2 (Nat.ltb_lt r0 n) R0), Ep. cbn [kstep].
    inversion K; subst; try lia; discriminate.
  - inversion K; subst; try lia.
    + apply Hh; congruence.
    + apply Hh; congruence.
    + apply (Go (WMain r0)). unfold w_step. rewrite (proj2 (Nat.ltb_lt r0 n) R0), Ep.
      rewrite (existsb_mine (fun m => (km_tag m =? UNREG_TAG)%Z)).
      match goal with X : [] = mine _ _ |- _ => rewrite <- X end. discriminate.
  - apply (Go (WMain r0)). unfold w_step. rewrite (proj2 (Nat.ltb_lt r0 n) R0), Ep.
    inversion K; subst; try lia. discriminate.
  - inversion K; subst; try lia.
    + apply Hh; congruence.
    + apply (Go (WMain r0)). unfold w_step. rewrite (proj2 (Nat.ltb_lt r0 n) R0), Ep.
      match goal with X : false = kp_run _ |- _ => rewrite <- X end. discriminate.
  - apply (Go (WMain r0)). unfold w_step. rewrite (proj2 (Nat.ltb_lt r0 n) R0), Ep. discriminate.
Qed.
End Test.

Theorem comm_test_all : forall n l,
  w_run n w_init l <> Some Ub /\
  forall s, w_run n w_init l = Some (Ok s) ->
    w_ok s = true /\ length l <= 13 * n /\
    (forall r, r < n -> w_pos s r = 10 -> w_recv s r = 42%Z) /\
    ((exists r, r < n /\ w_pos s r < 10) -> exists a s', w_step n s a = Some (Ok s')).
Proof.
  intros n l. split; [apply comm_test_defined|]. intros s H. assert (S : wstate n s) by (exists l; exact H).
  split; [apply (comm_test_ok n s S)|]. split; [apply (comm_test_finite n l s H)|]. split.
  - intros r R P. apply (comm_test_received n s r S R). lia.
  - apply (comm_test_progress n s S).
Qed.
