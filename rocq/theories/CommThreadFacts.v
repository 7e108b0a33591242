(** * Facts about the communication thread *)
From Coq Require Import Lia Permutation.
From Verif Require Import CommThreadModel.
Local Open Scope Z_scope.

Definition kreachable (grp : nat -> list nat) (s : kst) : Prop :=
  exists l, krun grp kinit l = Some (Ok s).

Lemma krun_app grp l1 l2 s : krun grp s (l1 ++ l2) =
  match krun grp s l1 with Some (Ok s') => krun grp s' l2 | x => x end.
Proof.
  revert s. induction l1 as [|a l1 IH]; intros s; cbn [krun app]; [reflexivity|].
  destruct (kstep grp s a) as [[s'|]|]; auto.
Qed.

Lemma kreach_ind grp (P : kst -> Prop) : P kinit ->
  (forall s a s', kreachable grp s -> P s -> kstep grp s a = Some (Ok s') -> P s') ->
  forall s, kreachable grp s -> P s.
Proof.
  intros P0 PS s [l H]. revert s H. induction l as [|a l IH] using rev_ind; intros s H.
  - cbn in H. injection H as <-. exact P0.
  - rewrite krun_app in H. destruct (krun grp kinit l) as [[s0|]|] eqn:E; try discriminate H.
    cbn [krun] in H. destruct (kstep grp s0 a) as [[s1|]|] eqn:E1; try discriminate H.
    injection H as <-. eapply PS; [exists l; exact E|apply IH; reflexivity|exact E1].
Qed.
Lemma kreach_step grp s a s' : kreachable grp s -> kstep grp s a = Some (Ok s') -> kreachable grp s'.
Proof.
  intros [l H] E. exists (l ++ [a]). rewrite krun_app, H. cbn [krun]. rewrite E. reflexivity.
Qed.

(** ** Lists *)
Lemma upd_eq {A} (f : nat -> A) i a : upd f i a i = a.
Proof. unfold upd. rewrite Nat.eqb_refl. reflexivity. Qed.
Lemma upd_ne {A} (f : nat -> A) i a j : j <> i -> upd f i a j = f j.
Proof. intros H. unfold upd. destruct (Nat.eqb_spec j i); [contradiction|reflexivity]. Qed.
Lemma upd2_eq {A} (f : nat -> nat -> A) i j a : upd2 f i j a i j = a.
Proof. unfold upd2. rewrite !Nat.eqb_refl. reflexivity. Qed.
Lemma upd2_ne {A} (f : nat -> nat -> A) i j a i' j' : i' <> i \/ j' <> j -> upd2 f i j a i' j' = f i' j'.
Proof.
  intros H. unfold upd2. destruct (Nat.eqb_spec i' i); destruct (Nat.eqb_spec j' j); cbn; try reflexivity.
  destruct H; contradiction.
Qed.
Lemma upd2_cases {A} (f : nat -> nat -> A) i j a i' j' :
  (i' = i /\ j' = j /\ upd2 f i j a i' j' = a) \/ ((i' <> i \/ j' <> j) /\ upd2 f i j a i' j' = f i' j').
Proof.
  destruct (Nat.eq_dec i' i) as [->|H]; [destruct (Nat.eq_dec j' j) as [->|H']|].
  - left. rewrite upd2_eq. auto.
  - right. rewrite upd2_ne by auto. auto.
  - right. rewrite upd2_ne by auto. auto.
Qed.
Lemma upd_cases {A} (f : nat -> A) i a j : (j = i /\ upd f i a j = a) \/ (j <> i /\ upd f i a j = f j).
Proof.
  destruct (Nat.eq_dec j i) as [->|H]; [left; rewrite upd_eq; auto|right; rewrite upd_ne by auto; auto].
Qed.

Lemma kmax_in f l t r : kmax f l = Some t -> In r l -> exists a, f r = Some a /\ a <= t.
Proof.
  revert t. induction l as [|x l IH]; intros t H I; [contradiction|]. cbn [kmax] in H.
  destruct (f x) as [a|] eqn:E; [|discriminate H]. destruct (kmax f l) as [b|]; [|discriminate H].
  injection H as <-. destruct I as [->|I].
  - exists a. split; [exact E|lia].
  - destruct (IH b eq_refl I) as (c & C & L). exists c. split; [exact C|lia].
Qed.
Lemma kmax_ext f f' l : (forall r, In r l -> f' r = f r) -> kmax f' l = kmax f l.
Proof.
  induction l as [|x l IH]; intros H; [reflexivity|]. cbn [kmax].
  rewrite (H x (or_introl eq_refl)), IH; [reflexivity|]. intros r I. apply H. right. exact I.
Qed.
Lemma kmax_attained f l t : kmax f l = Some t -> t = 0 \/ exists r, In r l /\ f r = Some t.
Proof.
  revert t. induction l as [|x l IH]; intros t H; cbn [kmax] in H.
  - injection H as <-. left. reflexivity.
  - destruct (f x) as [a|] eqn:E; [|discriminate H]. destruct (kmax f l) as [b|] eqn:B; [|discriminate H].
    injection H as <-. destruct (Z.max_spec a b) as [[L ->]|[L ->]].
    + destruct (IH b eq_refl) as [->|(r & I & R)]; [left; reflexivity|]. right. exists r. split; [right; exact I|exact R].
    + right. exists x. split; [left; reflexivity|exact E].
Qed.
Lemma kmax_pos f l t : kmax f l = Some t -> 0 <= t.
Proof.
  revert t. induction l as [|x l IH]; intros t H; cbn [kmax] in H.
  - injection H as <-. lia.
  - destruct (f x); [|discriminate H]. destruct (kmax f l) as [b|]; [|discriminate H].
    injection H as <-. specialize (IH b eq_refl). lia.
Qed.
Lemma existsb_eqb r l : existsb (Nat.eqb r) l = true -> In r l.
Proof. intros H. apply existsb_exists in H. destruct H as (x & I & E). apply Nat.eqb_eq in E. subst x. exact I. Qed.

Lemma index_of_nth r l k : index_of r l = Some k -> nth_error l k = Some r.
Proof.
  revert k. induction l as [|x l IH]; intros k H; cbn [index_of] in H; [discriminate H|].
  destruct (Nat.eqb_spec x r) as [->|N]; [injection H as <-; reflexivity|].
  destruct (index_of r l) as [j|]; [|discriminate H]. injection H as <-. cbn. apply IH. reflexivity.
Qed.
Lemma index_of_in r l : In r l -> index_of r l <> None.
Proof.
  induction l as [|x l IH]; intros I; [contradiction|]. cbn [index_of].
  destruct (Nat.eqb_spec x r) as [->|N]; [discriminate|]. destruct I as [->|I]; [contradiction|].
  specialize (IH I). destruct (index_of r l); [discriminate|contradiction].
Qed.

Lemma ktake_perm src r l m l' : ktake src r l = Some (m, l') ->
  Permutation l (m :: l') /\ km_src m = src /\ km_dst m = r.
Proof.
  revert m l'. induction l as [|x l IH]; intros m l' H; cbn [ktake] in H; [discriminate H|].
  destruct (Nat.eqb_spec (km_src x) src) as [A|A]; destruct (Nat.eqb_spec (km_dst x) r) as [B|B]; cbn [andb] in H.
  1: injection H as <- <-; auto.
  all: destruct (ktake src r l) as [[m' l'']|]; [|discriminate H]; injection H as <- <-;
    destruct (IH m' l'' eq_refl) as (P & S & D); split; [|auto];
    rewrite P; apply perm_swap.
Qed.
(** The message taken is the oldest one between the two processes. *)
Lemma ktake_oldest src r l m l' : ktake src r l = Some (m, l') ->
  exists a b, l = a ++ m :: b /\ l' = a ++ b /\
    (forall x, In x a -> ~ (km_src x = src /\ km_dst x = r)).
Proof.
  revert m l'. induction l as [|x l IH]; intros m l' H; cbn [ktake] in H; [discriminate H|].
  destruct (Nat.eqb_spec (km_src x) src) as [A|A]; destruct (Nat.eqb_spec (km_dst x) r) as [B|B]; cbn [andb] in H.
  1: injection H as <- <-; exists [], l; repeat split; intros y [].
  all: destruct (ktake src r l) as [[m' l'']|]; [|discriminate H]; injection H as <- <-;
    destruct (IH m' l'' eq_refl) as (a & b & -> & -> & F); exists (x :: a), b; repeat split;
    intros y [<-|I]; [tauto|apply F; exact I].
Qed.

(** ** Tags *)
Section Tags.
Variable grp : nat -> list nat.

Record kinv1 (s : kst) : Prop := KInv1 {
  k_next : forall r, 0 <= kp_next (ks_proc s r);
  k_in : forall g r a, ks_in s g r = Some a -> 0 <= a /\ In r (grp g);
  k_lock : forall r g, kp_lock (ks_proc s r) = KReg g ->
    ks_in s g r = Some (kp_next (ks_proc s r)) /\ ks_tag s r g = None;
  k_tag : forall r g t, ks_tag s r g = Some t ->
    ks_in s g r <> None /\ kmax (ks_in s g) (grp g) = Some t /\ t < kp_next (ks_proc s r);
  k_pend : forall g r a, ks_in s g r = Some a -> ks_tag s r g = None -> kp_lock (ks_proc s r) = KReg g;
  k_uniq : forall r g g' t, ks_tag s r g = Some t -> ks_tag s r g' = Some t -> g = g'
}.

Lemma kinv1_proc s s' : kinv1 s ->
  (forall r, kp_next (ks_proc s' r) = kp_next (ks_proc s r)) ->
  (forall r g, kp_lock (ks_proc s' r) = KReg g <-> kp_lock (ks_proc s r) = KReg g) ->
  ks_in s' = ks_in s -> ks_tag s' = ks_tag s -> kinv1 s'.
Proof.
  intros [A B C D E F] N L I T. constructor.
  - intros r. rewrite N. apply A.
  - rewrite I. exact B.
  - intros r g H. apply L in H. rewrite N, I, T. apply C. exact H.
  - intros r g t. rewrite I, T, N. apply D.
  - intros g r a. rewrite I, T. intros X Y. apply L. exact (E g r a X Y).
  - rewrite T. exact F.
Qed.

Lemma kinv1_step s a s' : kinv1 s -> kstep grp s a = Some (Ok s') -> kinv1 s'.
Proof.
  intros I H. destruct a as [r g|r g|r g|r g k d|r src]; cbn [kstep] in H.
  - (* enter *)
    destruct (kp_lock (ks_proc s r)) eqn:L; try discriminate H.
    destruct (ks_in s g r) eqn:Q; [discriminate H|].
    destruct (existsb (Nat.eqb r) (grp g)) eqn:M; [|discriminate H]. apply existsb_eqb in M.
    injection H as <-.
    assert (KM : forall g0 t, kmax (ks_in s g0) (grp g0) = Some t ->
      kmax (upd2 (ks_in s) g r (Some (kp_next (ks_proc s r))) g0) (grp g0) = Some t).
    { intros g0 t K. rewrite <- K. apply kmax_ext. intros x X.
      destruct (upd2_cases (ks_in s) g r (Some (kp_next (ks_proc s r))) g0 x) as [(-> & -> & _)|(_ & ->)]; [|reflexivity].
      destruct (kmax_in _ _ _ _ K X) as (c & C & _). congruence. }
    constructor; cbn [ks_proc ks_in ks_tag].
    + intros x. destruct (upd_cases (ks_proc s) r (KProc (kp_next (ks_proc s r)) (kp_map (ks_proc s r)) (KReg g) (kp_run (ks_proc s r))) x) as [(-> & ->)|(_ & ->)]; cbn; apply (k_next s I).
    + intros g0 x b. destruct (upd2_cases (ks_in s) g r (Some (kp_next (ks_proc s r))) g0 x) as [(-> & -> & ->)|(_ & ->)].
      * intros X. injection X as <-. split; [apply (k_next s I)|exact M].
      * apply (k_in s I).
    + intros x g0. destruct (upd_cases (ks_proc s) r (KProc (kp_next (ks_proc s r)) (kp_map (ks_proc s r)) (KReg g) (kp_run (ks_proc s r))) x) as [(-> & ->)|(N & ->)]; cbn [kp_lock kp_next].
      * intros X. injection X as <-. rewrite upd2_eq. split; [reflexivity|].
        destruct (ks_tag s r g) eqn:T; [|reflexivity]. destruct (k_tag s I r g z T) as (X & _). contradiction.
      * rewrite upd2_ne by auto. apply (k_lock s I).
    + intros x g0 t T. destruct (k_tag s I x g0 t T) as (A & B & C). split; [|split].
      * destruct (upd2_cases (ks_in s) g r (Some (kp_next (ks_proc s r))) g0 x) as [(-> & -> & ->)|(_ & ->)]; [discriminate|exact A].
      * apply KM. exact B.
      * destruct (upd_cases (ks_proc s) r (KProc (kp_next (ks_proc s r)) (kp_map (ks_proc s r)) (KReg g) (kp_run (ks_proc s r))) x) as [(-> & ->)|(N & ->)]; exact C.
    + intros g0 x b. destruct (upd2_cases (ks_in s) g r (Some (kp_next (ks_proc s r))) g0 x) as [(-> & -> & ->)|(N & ->)].
      * intros _ _. rewrite upd_eq. reflexivity.
      * intros X Y. pose proof (k_pend s I _ _ _ X Y) as Z.
        destruct (Nat.eq_dec x r) as [->|NE]; [congruence|]. rewrite upd_ne by exact NE. exact Z.
    + exact (k_uniq s I).
  - (* return *)
    destruct (kp_lock (ks_proc s r)) as [|g'|] eqn:L; try discriminate H.
    destruct (Nat.eqb_spec g' g) as [->|]; [|discriminate H].
    destruct (kmax (ks_in s g) (grp g)) as [tag|] eqn:K; [|discriminate H]. injection H as <-.
    destruct (k_lock s I r g L) as (LI & LT).
    assert (LE : kp_next (ks_proc s r) <= tag).
    { destruct (k_in s I _ _ _ LI) as (_ & IN). destruct (kmax_in _ _ _ _ K IN) as (c & C & D). congruence || (rewrite LI in C; injection C as <-; exact D). }
    constructor; cbn [ks_proc ks_in ks_tag].
    + intros x. destruct (Nat.eq_dec x r) as [->|NE].
      * rewrite upd_eq. cbn. pose proof (k_next s I r). lia.
      * rewrite upd_ne by exact NE. apply (k_next s I).
    + exact (k_in s I).
    + intros x g0. destruct (Nat.eq_dec x r) as [->|NE].
      * rewrite upd_eq. cbn. discriminate.
      * rewrite upd_ne by exact NE. rewrite upd2_ne by auto. apply (k_lock s I).
    + intros x g0 t. destruct (upd2_cases (ks_tag s) r g (Some tag) x g0) as [(-> & -> & ->)|(N & ->)].
      * intros X. injection X as <-. rewrite upd_eq. cbn. split; [congruence|split; [exact K|lia]].
      * intros T. destruct (k_tag s I x g0 t T) as (A & B & C). split; [exact A|split; [exact B|]].
        destruct (Nat.eq_dec x r) as [->|NE]; [rewrite upd_eq; cbn; lia|rewrite upd_ne by exact NE; exact C].
    + intros g0 x b X. destruct (upd2_cases (ks_tag s) r g (Some tag) x g0) as [(-> & -> & ->)|(N & ->)]; [discriminate|].
      intros Y. pose proof (k_pend s I _ _ _ X Y) as Z.
      destruct (Nat.eq_dec x r) as [->|NE]; [|rewrite upd_ne by exact NE; exact Z].
      rewrite L in Z. injection Z as ->. destruct N; contradiction.
    + intros x g0 g1 t.
      destruct (upd2_cases (ks_tag s) r g (Some tag) x g0) as [(-> & -> & ->)|(N & ->)];
      [destruct (upd2_cases (ks_tag s) r g (Some tag) r g1) as [(_ & -> & ->)|(N' & ->)]
      |destruct (upd2_cases (ks_tag s) r g (Some tag) x g1) as [(-> & -> & ->)|(N' & ->)]].
      * reflexivity.
      * intros A B. injection A as <-. destruct (k_tag s I _ _ _ B) as (_ & _ & C). lia.
      * intros A B. injection B as <-. destruct (k_tag s I _ _ _ A) as (_ & _ & C). lia.
      * apply (k_uniq s I).
  - (* unregister *)
    destruct (kp_lock (ks_proc s r)) eqn:L; try discriminate H.
    destruct (ks_tag s r g) as [tag|]; [|discriminate H].
    destruct (ks_closed s r g); [discriminate H|]. injection H as <-.
    eapply kinv1_proc; [exact I| | |reflexivity|reflexivity]; cbn [ks_proc]; intros x.
    + destruct (Nat.eq_dec x r) as [->|NE]; [rewrite upd_eq|rewrite upd_ne by exact NE]; reflexivity.
    + intros g0. destruct (Nat.eq_dec x r) as [->|NE]; [rewrite upd_eq, L; cbn; split; discriminate|rewrite upd_ne by exact NE; reflexivity].
  - (* send *)
    destruct (ks_tag s r g) as [tag|] eqn:T; [|discriminate H].
    destruct (ks_closed s r g); [discriminate H|].
    destruct (kp_map (ks_proc s r) tag) as [e|]; [|injection H as <-; exact I].
    destruct (nth_error (ke_group e) k); [|discriminate H]. injection H as <-.
    eapply kinv1_proc; [exact I| | |reflexivity|reflexivity]; cbn [ks_proc]; tauto || reflexivity.
  - (* handle *)
    destruct (kp_run (ks_proc s r)); [|discriminate H].
    destruct (ktake src r (ks_net s)) as [[m net]|]; [|discriminate H].
    assert (SAME : forall p' log, kp_next p' = kp_next (ks_proc s r) ->
      (forall g, kp_lock p' = KReg g <-> kp_lock (ks_proc s r) = KReg g) ->
      kinv1 (KSt (upd (ks_proc s) r p') (ks_in s) (ks_tag s) (ks_closed s) net (ks_sent s) log)).
    { intros p' log N LK. eapply kinv1_proc; [exact I| | |reflexivity|reflexivity]; cbn [ks_proc]; intros x.
      - destruct (Nat.eq_dec x r) as [->|NE]; [rewrite upd_eq; exact N|rewrite upd_ne by exact NE; reflexivity].
      - intros g0. destruct (Nat.eq_dec x r) as [->|NE]; [rewrite upd_eq; apply LK|rewrite upd_ne by exact NE; reflexivity]. }
    cbn zeta in H.
    destruct (km_tag m =? EXIT_TAG); [injection H as <-; apply SAME; cbn; reflexivity|].
    destruct (km_tag m =? UNREG_TAG).
    { destruct (kp_lock (ks_proc s r)) eqn:L; try discriminate H. injection H as <-.
      apply SAME; cbn; [reflexivity|]. intros g0. split; discriminate. }
    destruct (kp_map (ks_proc s r) (km_tag m)) as [e|]; destruct (km_id m) as [id|].
    + destruct (index_of (km_src m) (ke_group e)); [|discriminate H]. injection H as <-. apply SAME; reflexivity.
    + injection H as <-. apply SAME; reflexivity.
    + injection H as <-. apply SAME; reflexivity.
    + injection H as <-. apply SAME; reflexivity.
Qed.

Lemma kinv1_init : kinv1 kinit.
Proof. constructor; cbn; intros; try discriminate; try lia; contradiction. Qed.

Lemma kinv1_reachable s : kreachable grp s -> kinv1 s.
Proof. apply kreach_ind; [exact kinv1_init|]. intros s0 a s1 _. apply kinv1_step. Qed.

(** Same tag on all processes of a registration. *)
Lemma tag_same s r r' g t t' : kreachable grp s ->
  ks_tag s r g = Some t -> ks_tag s r' g = Some t' -> t = t'.
Proof.
  intros R A B. apply kinv1_reachable in R.
  destruct (k_tag s R _ _ _ A) as (_ & X & _). destruct (k_tag s R _ _ _ B) as (_ & Y & _). congruence.
Qed.
(** Registrations with a common process have different tags. *)
Lemma tag_unique s r g g' t : kreachable grp s ->
  ks_tag s r g = Some t -> ks_tag s r g' = Some t -> g = g'.
Proof. intros R. apply kinv1_reachable in R. apply (k_uniq s R). Qed.

(** ** Tags are smaller than the number of registrations *)
Definition decided (s : kst) (g : nat) : Prop :=
  (exists t, kmax (ks_in s g) (grp g) = Some t) /\ exists r, ks_in s g r <> None.
Definition decided_list (s : kst) (D : list nat) : Prop := NoDup D /\ forall g, In g D -> decided s g.

Record kcount (s : kst) : Prop := KCount {
  kc_next : forall r, exists D, decided_list s D /\ kp_next (ks_proc s r) <= Z.of_nat (length D);
  kc_in : forall g r a, ks_in s g r = Some a ->
    exists D, decided_list s D /\ ~ In g D /\ a <= Z.of_nat (length D)
}.
Lemma decided_mono s a s' g : kinv1 s -> kstep grp s a = Some (Ok s') -> decided s g -> decided s' g.
Proof.
  intros I H [[t K] [r0 C]].
  assert (EX : (forall x b, ks_in s g x = Some b -> ks_in s' g x = Some b)).
  { intros x b X. destruct a as [r g0|r g0|r g0|r g0 k d|r src]; cbn [kstep] in H.
    - destruct (kp_lock (ks_proc s r)); try discriminate H.
      destruct (ks_in s g0 r) eqn:Q; [discriminate H|]. destruct (existsb (Nat.eqb r) (grp g0)); [|discriminate H].
      injection H as <-. cbn [ks_in].
      destruct (upd2_cases (ks_in s) g0 r (Some (kp_next (ks_proc s r))) g x) as [(-> & -> & _)|(_ & ->)]; congruence.
    - destruct (kp_lock (ks_proc s r)) as [|g'|]; try discriminate H.
      destruct (Nat.eqb g' g0); [|discriminate H]. destruct (kmax (ks_in s g0) (grp g0)); [|discriminate H].
      injection H as <-. exact X.
    - destruct (kp_lock (ks_proc s r)); try discriminate H. destruct (ks_tag s r g0); [|discriminate H].
      destruct (ks_closed s r g0); [discriminate H|]. injection H as <-. exact X.
    - destruct (ks_tag s r g0) as [tag|]; [|discriminate H]. destruct (ks_closed s r g0); [discriminate H|].
      destruct (kp_map (ks_proc s r) tag) as [e|]; [|injection H as <-; exact X].
      destruct (nth_error (ke_group e) k); [|discriminate H]. injection H as <-. exact X.
    - destruct (kp_run (ks_proc s r)); [|discriminate H].
      destruct (ktake src r (ks_net s)) as [[m net]|]; [|discriminate H]. cbn zeta in H.
      destruct (km_tag m =? EXIT_TAG); [injection H as <-; exact X|].
      destruct (km_tag m =? UNREG_TAG); [destruct (kp_lock (ks_proc s r)); try discriminate H; injection H as <-; exact X|].
      destruct (kp_map (ks_proc s r) (km_tag m)) as [e|]; destruct (km_id m);
        [destruct (index_of (km_src m) (ke_group e)); [|discriminate H]| | |]; injection H as <-; exact X. }
  split.
  - exists t. rewrite <- K. apply kmax_ext. intros x X. destruct (kmax_in _ _ _ _ K X) as (b & B & _).
    rewrite (EX x b B), B. reflexivity.
  - exists r0. destruct (ks_in s g r0) as [b|] eqn:B; [|contradiction]. rewrite (EX r0 b B). discriminate.
Qed.

Lemma dlist_mono s a s' D : kinv1 s -> kstep grp s a = Some (Ok s') -> decided_list s D -> decided_list s' D.
Proof. intros I H [N F]. split; [exact N|]. intros g X. eapply decided_mono; eauto. Qed.

Lemma kcount_step s a s' : kinv1 s -> kcount s -> kstep grp s a = Some (Ok s') -> kcount s'.
Proof.
  intros I [CN CI] H.
  assert (OLD : (forall r, kp_next (ks_proc s' r) = kp_next (ks_proc s r)) -> ks_in s' = ks_in s -> kcount s').
  { intros N IN. constructor.
    - intros r. destruct (CN r) as (D & A & B). exists D. rewrite N. split; [eapply dlist_mono; eauto|exact B].
    - intros g r b. rewrite IN. intros X. destruct (CI g r b X) as (D & A & B & C). exists D.
      split; [eapply dlist_mono; eauto|auto]. }
  pose proof H as H0.
  destruct a as [r g|r g|r g|r g k d|r src]; cbn [kstep] in H.
  - destruct (kp_lock (ks_proc s r)) eqn:L; try discriminate H.
    destruct (ks_in s g r) eqn:Q; [discriminate H|]. destruct (existsb (Nat.eqb r) (grp g)) eqn:M; [|discriminate H].
    apply existsb_eqb in M. injection H as <-. constructor; cbn [ks_proc ks_in].
    + intros x. destruct (CN x) as (D & A & B). exists D. split; [eapply dlist_mono; eauto|].
      destruct (Nat.eq_dec x r) as [->|NE]; [rewrite upd_eq|rewrite upd_ne by exact NE]; exact B.
    + intros g0 x b. destruct (upd2_cases (ks_in s) g r (Some (kp_next (ks_proc s r))) g0 x) as [(-> & -> & ->)|(N & ->)].
      * intros X. injection X as <-. destruct (CN r) as (D & A & B). exists D. split; [eapply dlist_mono; eauto|].
        split; [|exact B]. intros IND. destruct A as [_ A]. destruct (A g IND) as [[t K] _].
        destruct (kmax_in _ _ _ _ K M) as (c & C & _). congruence.
      * intros X. destruct (CI g0 x b X) as (D & A & B & C). exists D. split; [eapply dlist_mono; eauto|auto].
  - destruct (kp_lock (ks_proc s r)) as [|g'|] eqn:L; try discriminate H.
    destruct (Nat.eqb_spec g' g) as [->|]; [|discriminate H].
    destruct (kmax (ks_in s g) (grp g)) as [tag|] eqn:K; [|discriminate H]. injection H as <-.
    destruct (k_lock s I r g L) as (LI & _).
    constructor; cbn [ks_proc ks_in].
    + intros x. destruct (Nat.eq_dec x r) as [->|NE].
      * rewrite upd_eq. cbn [kp_next].
        assert (T : exists D, decided_list s D /\ ~ In g D /\ tag <= Z.of_nat (length D)).
        { destruct (kmax_attained _ _ _ K) as [->|(y & _ & Y)].
          - exists []. split; [split; [constructor|intros y []]|]. split; [intros []|cbn; lia].
          - exact (CI g y tag Y). }
        destruct T as (D & A & B & C). exists (g :: D). split; [eapply dlist_mono; eauto|cbn [length]; lia].
        destruct A as [N F]. split; [constructor; assumption|]. intros g0 [<-|X]; [|auto].
        split; [exists tag; exact K|exists r; congruence].
      * rewrite upd_ne by exact NE. destruct (CN x) as (D & A & B). exists D. split; [eapply dlist_mono; eauto|exact B].
    + intros g0 x b X. destruct (CI g0 x b X) as (D & A & B & C). exists D. split; [eapply dlist_mono; eauto|auto].
  - destruct (kp_lock (ks_proc s r)); try discriminate H. destruct (ks_tag s r g); [|discriminate H].
    destruct (ks_closed s r g); [discriminate H|]. injection H as <-. apply OLD; [|reflexivity]. intros x. cbn [ks_proc].
    destruct (Nat.eq_dec x r) as [->|NE]; [rewrite upd_eq|rewrite upd_ne by exact NE]; reflexivity.
  - destruct (ks_tag s r g) as [tag|]; [|discriminate H]. destruct (ks_closed s r g); [discriminate H|].
    destruct (kp_map (ks_proc s r) tag) as [e|]; [|injection H as <-; constructor; assumption].
    destruct (nth_error (ke_group e) k); [|discriminate H]. injection H as <-. apply OLD; reflexivity.
  - destruct (kp_run (ks_proc s r)); [|discriminate H].
    destruct (ktake src r (ks_net s)) as [[m net]|]; [|discriminate H]. cbn zeta in H.
    assert (U : forall p' x, kp_next p' = kp_next (ks_proc s r) -> kp_next (upd (ks_proc s) r p' x) = kp_next (ks_proc s x)).
    { intros p' x N. destruct (Nat.eq_dec x r) as [->|NE]; [rewrite upd_eq; exact N|rewrite upd_ne by exact NE; reflexivity]. }
    destruct (km_tag m =? EXIT_TAG); [injection H as <-; apply OLD; [|reflexivity]; intros x; apply U; reflexivity|].
    destruct (km_tag m =? UNREG_TAG).
    { destruct (kp_lock (ks_proc s r)); try discriminate H. injection H as <-. apply OLD; [|reflexivity]; intros x; apply U; reflexivity. }
    destruct (kp_map (ks_proc s r) (km_tag m)) as [e|]; destruct (km_id m);
      [destruct (index_of (km_src m) (ke_group e)); [|discriminate H]| | |]; injection H as <-;
      (apply OLD; [|reflexivity]; intros x; apply U; reflexivity).
Qed.

Lemma kcount_reachable s : kreachable grp s -> kcount s.
Proof.
  apply kreach_ind.
  - constructor; cbn; [|intros; discriminate]. intros _. exists []. split; [split; [constructor|intros g []]|cbn; lia].
  - intros s0 a s1 R C H. eapply kcount_step; eauto. apply kinv1_reachable. exact R.
Qed.

(** Who took part: only registrations that occur in the run. *)
Lemma in_only (P : nat -> Prop) l s : krun grp kinit l = Some (Ok s) ->
  (forall r g, In (KEnter r g) l -> P g) -> forall g r, ks_in s g r <> None -> P g.
Proof.
  revert s. induction l as [|a l IH] using rev_ind; intros s H F g r X.
  - cbn in H. injection H as <-. cbn in X. contradiction.
  - rewrite krun_app in H. destruct (krun grp kinit l) as [[s0|]|] eqn:E; try discriminate H.
    cbn [krun] in H. destruct (kstep grp s0 a) as [[s1|]|] eqn:E1; try discriminate H. injection H as ->.
    assert (IH0 : forall g r, ks_in s0 g r <> None -> P g).
    { apply (IH s0 eq_refl). intros r0 g0 I0. apply (F r0 g0). apply in_or_app. left. exact I0. }
    clear IH. destruct a as [r0 g0|r0 g0|r0 g0|r0 g0 k d|r0 src]; cbn [kstep] in E1.
    + destruct (kp_lock (ks_proc s0 r0)); try discriminate E1.
      destruct (ks_in s0 g0 r0) eqn:Q; [discriminate E1|]. destruct (existsb (Nat.eqb r0) (grp g0)); [|discriminate E1].
      injection E1 as <-. cbn [ks_in] in X.
      destruct (upd2_cases (ks_in s0) g0 r0 (Some (kp_next (ks_proc s0 r0))) g r) as [(-> & -> & _)|(_ & Y)].
      * apply (F r0). apply in_or_app. right. left. reflexivity.
      * rewrite Y in X. eapply IH0. exact X.
    + destruct (kp_lock (ks_proc s0 r0)) as [|g'|]; try discriminate E1.
      destruct (Nat.eqb g' g0); [|discriminate E1]. destruct (kmax (ks_in s0 g0) (grp g0)); [|discriminate E1].
      injection E1 as <-. eapply IH0; exact X.
    + destruct (kp_lock (ks_proc s0 r0)); try discriminate E1. destruct (ks_tag s0 r0 g0); [|discriminate E1].
      destruct (ks_closed s0 r0 g0); [discriminate E1|]. injection E1 as <-. eapply IH0; exact X.
    + destruct (ks_tag s0 r0 g0) as [tag|]; [|discriminate E1]. destruct (ks_closed s0 r0 g0); [discriminate E1|].
      destruct (kp_map (ks_proc s0 r0) tag) as [e|]; [|injection E1 as <-; eapply IH0; exact X].
      destruct (nth_error (ke_group e) k); [|discriminate E1]. injection E1 as <-. eapply IH0; exact X.
    + destruct (kp_run (ks_proc s0 r0)); [|discriminate E1].
      destruct (ktake src r0 (ks_net s0)) as [[m net]|]; [|discriminate E1]. cbn zeta in E1.
      destruct (km_tag m =? EXIT_TAG); [injection E1 as <-; eapply IH0; exact X|].
      destruct (km_tag m =? UNREG_TAG); [destruct (kp_lock (ks_proc s0 r0)); try discriminate E1; injection E1 as <-; eapply IH0; exact X|].
      destruct (kp_map (ks_proc s0 r0) (km_tag m)) as [e|]; destruct (km_id m);
        [destruct (index_of (km_src m) (ke_group e)); [|discriminate E1]| | |]; injection E1 as <-; eapply IH0; exact X.
Qed.

Lemma tag_bound n l s r g t : krun grp kinit l = Some (Ok s) ->
  (forall r g, In (KEnter r g) l -> (g < n)%nat) ->
  ks_tag s r g = Some t -> 0 <= t < Z.of_nat n.
Proof.
  intros H F T. assert (R : kreachable grp s) by (exists l; exact H).
  pose proof (kinv1_reachable s R) as I. pose proof (kcount_reachable s R) as C.
  destruct (k_tag s I _ _ _ T) as (X & K & _).
  assert (D0 : exists D, decided_list s D /\ ~ In g D /\ t <= Z.of_nat (length D)).
  { destruct (kmax_attained _ _ _ K) as [->|(y & _ & Y)].
    - exists []. split; [split; [constructor|intros y []]|]. split; [intros []|cbn; lia].
    - exact (kc_in s C g y t Y). }
  destruct D0 as (D & [N DF] & NI & LE). split; [exact (kmax_pos _ _ _ K)|].
  assert (LEN : (length (g :: D) <= length (seq 0 n))%nat).
  { apply NoDup_incl_length; [constructor; assumption|].
    intros g0 I0. apply in_seq. split; [lia|]. cbn [Nat.add].
    assert (E : exists r0, ks_in s g0 r0 <> None).
    { destruct I0 as [<-|I0]; [exists r; exact X|]. destruct (DF g0 I0) as [_ E]. exact E. }
    destruct E as [r0 E]. exact (in_only (fun g => (g < n)%nat) l s H F g0 r0 E). }
  rewrite seq_length in LEN. cbn [length] in LEN. lia.
Qed.

(** ** Messages *)
(** No receiver has got a control tag so far. *)
Definition small (s : kst) : Prop := forall r g t, ks_tag s r g = Some t -> t < UNREG_TAG.

Lemma tag_kept s a s' r g t : kstep grp s a = Some (Ok s') -> kinv1 s -> ks_tag s r g = Some t -> ks_tag s' r g = Some t.
Proof.
  intros H I T. destruct a as [r0 g0|r0 g0|r0 g0|r0 g0 k d|r0 src]; cbn [kstep] in H.
  - destruct (kp_lock (ks_proc s r0)); try discriminate H.
    destruct (ks_in s g0 r0) eqn:Q; [discriminate H|]. destruct (existsb (Nat.eqb r0) (grp g0)); [|discriminate H].
    injection H as <-. exact T.
  - destruct (kp_lock (ks_proc s r0)) as [|g'|] eqn:L; try discriminate H.
    destruct (Nat.eqb_spec g' g0) as [->|]; [|discriminate H]. destruct (kmax (ks_in s g0) (grp g0)) as [tag|]; [|discriminate H].
    injection H as <-. cbn [ks_tag]. destruct (upd2_cases (ks_tag s) r0 g0 (Some tag) r g) as [(-> & -> & _)|(_ & ->)]; [|exact T].
    destruct (k_lock s I r0 g0 L). congruence.
  - destruct (kp_lock (ks_proc s r0)); try discriminate H. destruct (ks_tag s r0 g0); [|discriminate H].
    destruct (ks_closed s r0 g0); [discriminate H|]. injection H as <-. exact T.
  - destruct (ks_tag s r0 g0) as [tag|]; [|discriminate H]. destruct (ks_closed s r0 g0); [discriminate H|].
    destruct (kp_map (ks_proc s r0) tag) as [e|]; [|injection H as <-; exact T].
    destruct (nth_error (ke_group e) k); [|discriminate H]. injection H as <-. exact T.
  - destruct (kp_run (ks_proc s r0)); [|discriminate H].
    destruct (ktake src r0 (ks_net s)) as [[m net]|]; [|discriminate H]. cbn zeta in H.
    destruct (km_tag m =? EXIT_TAG); [injection H as <-; exact T|].
    destruct (km_tag m =? UNREG_TAG); [destruct (kp_lock (ks_proc s r0)); try discriminate H; injection H as <-; exact T|].
    destruct (kp_map (ks_proc s r0) (km_tag m)) as [e|]; destruct (km_id m);
      [destruct (index_of (km_src m) (ke_group e)); [|discriminate H]| | |]; injection H as <-; exact T.
Qed.

Definition log_ids (l : list kevent) : list nat := map (fun e => match e with KGot id _ _ _ _ => id | KDrop id _ => id end) l.
Fixpoint net_ids (l : list kmsg) : list nat :=
  match l with [] => [] | m :: l' => match km_id m with Some id => id :: net_ids l' | None => net_ids l' end end.
Fixpoint ctrl (l : list kmsg) : list nat :=
  match l with [] => [] | m :: l' => match km_id m with Some _ => ctrl l' | None => km_dst m :: ctrl l' end end.

Definition msg_ok (s : kst) (m : kmsg) : Prop :=
  match km_id m with
  | Some id => exists g k, nth_error (ks_sent s) id = Some (km_src m, g, k, km_data m) /\
      ks_tag s (km_src m) g = Some (km_tag m) /\ nth_error (grp g) k = Some (km_dst m)
  | None => km_tag m = UNREG_TAG /\ km_src m = km_dst m /\ kp_lock (ks_proc s (km_dst m)) = KDel /\
      exists g, ks_tag s (km_dst m) g = Some (km_data m) /\ ks_closed s (km_dst m) g = true
  end.
Definition event_ok (s : kst) (e : kevent) : Prop :=
  match e with
  | KGot id p g sender d => exists src k, nth_error (ks_sent s) id = Some (src, g, k, d) /\
      nth_error (grp g) k = Some p /\ nth_error (grp g) sender = Some src
  | KDrop id p => (id < length (ks_sent s))%nat
  end.

Record kinv2 (s : kst) : Prop := KInv2 {
  k_map : forall r t e, kp_map (ks_proc s r) t = Some e ->
    ks_tag s r (ke_reg e) = Some t /\ ke_group e = grp (ke_reg e);
  k_live : forall r g t, ks_tag s r g = Some t -> ks_closed s r g = false ->
    kp_map (ks_proc s r) t = Some (KEntry g (grp g));
  k_run : forall r, kp_run (ks_proc s r) = true;
  k_msg : forall m, In m (ks_net s) -> msg_ok s m;
  k_ctrl : NoDup (ctrl (ks_net s));
  k_ids : NoDup (net_ids (ks_net s) ++ log_ids (ks_log s));
  k_log : forall e, In e (ks_log s) -> event_ok s e
}.

Lemma net_ids_app a b : net_ids (a ++ b) = net_ids a ++ net_ids b.
Proof. induction a as [|m a IH]; [reflexivity|]. cbn [app net_ids]. destruct (km_id m); rewrite IH; reflexivity. Qed.
Lemma ctrl_app a b : ctrl (a ++ b) = ctrl a ++ ctrl b.
Proof. induction a as [|m a IH]; [reflexivity|]. cbn [app ctrl]. destruct (km_id m); rewrite IH; reflexivity. Qed.
Lemma net_ids_perm a b : Permutation a b -> Permutation (net_ids a) (net_ids b).
Proof.
  induction 1 as [|x a b P IH|x y a|a b c P1 IH1 P2 IH2]; cbn [net_ids].
  - constructor.
  - destruct (km_id x); [constructor|]; exact IH.
  - destruct (km_id x), (km_id y); try reflexivity. apply perm_swap.
  - etransitivity; eassumption.
Qed.
Lemma ctrl_perm a b : Permutation a b -> Permutation (ctrl a) (ctrl b).
Proof.
  induction 1 as [|x a b P IH|x y a|a b c P1 IH1 P2 IH2]; cbn [ctrl].
  - constructor.
  - destruct (km_id x); [|constructor]; exact IH.
  - destruct (km_id x), (km_id y); try reflexivity. apply perm_swap.
  - etransitivity; eassumption.
Qed.
Lemma in_net_ids m id l : In m l -> km_id m = Some id -> In id (net_ids l).
Proof.
  induction l as [|x l IH]; intros I E; [contradiction|]. cbn [net_ids]. destruct I as [->|I].
  - rewrite E. left. reflexivity.
  - destruct (km_id x); [right|]; auto.
Qed.
Lemma net_ids_in id l : In id (net_ids l) -> exists m, In m l /\ km_id m = Some id.
Proof.
  induction l as [|x l IH]; intros I; [contradiction|]. cbn [net_ids] in I.
  destruct (km_id x) as [j|] eqn:E; [destruct I as [<-|I]|].
  - exists x. split; [left; reflexivity|exact E].
  - destruct (IH I) as (m & A & B). exists m. split; [right; exact A|exact B].
  - destruct (IH I) as (m & A & B). exists m. split; [right; exact A|exact B].
Qed.
Lemma ctrl_in r l : In r (ctrl l) -> exists m, In m l /\ km_id m = None /\ km_dst m = r.
Proof.
  induction l as [|x l IH]; intros I; [contradiction|]. cbn [ctrl] in I.
  destruct (km_id x) as [j|] eqn:E; [|destruct I as [<-|I]].
  - destruct (IH I) as (m & A & B). exists m. split; [right; exact A|exact B].
  - exists x. repeat split; [left; reflexivity|exact E].
  - destruct (IH I) as (m & A & B). exists m. split; [right; exact A|exact B].
Qed.
Lemma in_ctrl m l : In m l -> km_id m = None -> In (km_dst m) (ctrl l).
Proof.
  induction l as [|x l IH]; intros I E; [contradiction|]. cbn [ctrl]. destruct I as [->|I].
  - rewrite E. left. reflexivity.
  - destruct (km_id x); [|right]; auto.
Qed.

Lemma kset_cases f t e t' : (t' = t /\ kset f t e t' = e) \/ (t' <> t /\ kset f t e t' = f t').
Proof. unfold kset. destruct (Z.eqb_spec t' t) as [->|N]; auto. Qed.

(** A message for [r] that finds a receiver finds the right one. *)
Lemma lookup_right s r src g t e : kinv1 s -> kinv2 s ->
  ks_tag s src g = Some t -> In r (grp g) -> kp_map (ks_proc s r) t = Some e -> ke_reg e = g.
Proof.
  intros I J T IN M. destruct (k_map s J _ _ _ M) as (E & _).
  destruct (k_tag s I _ _ _ T) as (_ & K & _).
  destruct (ks_tag s r g) as [t'|] eqn:T'.
  - destruct (k_tag s I _ _ _ T') as (_ & K' & _). assert (t' = t) by congruence. subst t'.
    exact (k_uniq s I _ _ _ _ E T').
  - destruct (kmax_in _ _ _ _ K IN) as (a & A & LE).
    pose proof (k_pend s I _ _ _ A T') as L. destruct (k_lock s I _ _ L) as (A' & _).
    destruct (k_tag s I _ _ _ E) as (_ & _ & LT). rewrite A in A'. injection A' as ->. lia.
Qed.

(** The messages and the log survive a step that only adds. *)
Lemma msg_mono s s' m : msg_ok s m ->
  (exists x, ks_sent s' = ks_sent s ++ x) ->
  (forall r g t, ks_tag s r g = Some t -> ks_tag s' r g = Some t) ->
  (forall r g, ks_closed s r g = true -> ks_closed s' r g = true) ->
  (km_id m = None -> kp_lock (ks_proc s (km_dst m)) = KDel -> kp_lock (ks_proc s' (km_dst m)) = KDel) ->
  msg_ok s' m.
Proof.
  unfold msg_ok. intros H [x X] T C L. destruct (km_id m) as [id|].
  - destruct H as (g & k & A & B & D). exists g, k. split; [|split; [apply T; exact B|exact D]].
    rewrite X, nth_error_app1; [exact A|]. apply nth_error_Some. congruence.
  - destruct H as (A & B & D & g & E & F). split; [exact A|]. split; [exact B|]. split; [apply L; auto|].
    exists g. split; [apply T; exact E|apply C; exact F].
Qed.
Lemma event_mono s s' e : event_ok s e -> (exists x, ks_sent s' = ks_sent s ++ x) -> event_ok s' e.
Proof.
  intros H [x X]. destruct e as [id p g k d|id p]; cbn [event_ok] in *.
  - destruct H as (src & k' & A & B & C). exists src, k'. split; [|auto].
    rewrite X, nth_error_app1; [exact A|]. apply nth_error_Some. congruence.
  - rewrite X, app_length. lia.
Qed.

Lemma kinv2_step s a s' : kinv1 s -> kinv2 s -> small s -> kstep grp s a = Some (Ok s') -> kinv2 s'.
Proof.
  intros I J SM H. pose proof H as H0.
  assert (TK : forall r g t, ks_tag s r g = Some t -> ks_tag s' r g = Some t)
    by (intros r g t; apply (tag_kept s a s' r g t H0 I)).
  destruct a as [r g|r g|r g|r g k d|r src]; cbn [kstep] in H.
  - (* enter *)
    destruct (kp_lock (ks_proc s r)) eqn:L; try discriminate H.
    destruct (ks_in s g r) eqn:Q; [discriminate H|]. destruct (existsb (Nat.eqb r) (grp g)); [|discriminate H].
    injection H as <-. constructor; cbn [ks_proc ks_tag ks_closed ks_net ks_log].
    + intros x t e. destruct (upd_cases (ks_proc s) r (KProc (kp_next (ks_proc s r)) (kp_map (ks_proc s r)) (KReg g) (kp_run (ks_proc s r))) x) as [(-> & ->)|(_ & ->)]; apply (k_map s J).
    + intros x g0 t. destruct (upd_cases (ks_proc s) r (KProc (kp_next (ks_proc s r)) (kp_map (ks_proc s r)) (KReg g) (kp_run (ks_proc s r))) x) as [(-> & ->)|(_ & ->)]; apply (k_live s J).
    + intros x. destruct (upd_cases (ks_proc s) r (KProc (kp_next (ks_proc s r)) (kp_map (ks_proc s r)) (KReg g) (kp_run (ks_proc s r))) x) as [(-> & ->)|(_ & ->)]; apply (k_run s J).
    + intros m M. eapply msg_mono; [exact (k_msg s J m M)|exists []; rewrite app_nil_r; reflexivity|exact TK|tauto|].
      cbn [ks_proc]. intros _ LK. destruct (Nat.eq_dec (km_dst m) r) as [E|NE]; [rewrite E in LK; congruence|].
      rewrite upd_ne by exact NE. exact LK.
    + exact (k_ctrl s J).
    + exact (k_ids s J).
    + exact (k_log s J).
  - (* return *)
    destruct (kp_lock (ks_proc s r)) as [|g'|] eqn:L; try discriminate H.
    destruct (Nat.eqb_spec g' g) as [->|]; [|discriminate H].
    destruct (kmax (ks_in s g) (grp g)) as [tag|] eqn:K; [|discriminate H]. injection H as <-.
    destruct (k_lock s I r g L) as (LI & LT).
    assert (FRESH : kp_next (ks_proc s r) <= tag).
    { destruct (k_in s I _ _ _ LI) as (_ & IN). destruct (kmax_in _ _ _ _ K IN) as (c & C & D).
      rewrite LI in C. injection C as <-. exact D. }
    constructor; cbn [ks_proc ks_tag ks_closed ks_net ks_log].
    + intros x t e. destruct (Nat.eq_dec x r) as [->|NE].
      * rewrite upd_eq. cbn [kp_map]. destruct (kset_cases (kp_map (ks_proc s r)) tag (Some (KEntry g (grp g))) t) as [(-> & ->)|(N & ->)].
        -- intros X. injection X as <-. cbn [ke_reg ke_group]. rewrite upd2_eq. auto.
        -- intros X. destruct (k_map s J _ _ _ X) as (A & B). split; [|exact B]. apply TK in A. exact A.
      * rewrite upd_ne by exact NE. rewrite upd2_ne by auto. apply (k_map s J).
    + intros x g0 t. destruct (upd2_cases (ks_tag s) r g (Some tag) x g0) as [(-> & -> & ->)|(N & ->)].
      * intros X _. injection X as <-. rewrite upd_eq. cbn [kp_map]. unfold kset. rewrite Z.eqb_refl. reflexivity.
      * intros X Y. pose proof (k_live s J _ _ _ X Y) as Z. destruct (Nat.eq_dec x r) as [->|NE].
        -- rewrite upd_eq. cbn [kp_map]. destruct (k_tag s I _ _ _ X) as (_ & _ & LT').
           destruct (kset_cases (kp_map (ks_proc s r)) tag (Some (KEntry g (grp g))) t) as [(-> & _)|(_ & ->)]; [lia|exact Z].
        -- rewrite upd_ne by exact NE. exact Z.
    + intros x. destruct (Nat.eq_dec x r) as [->|NE]; [rewrite upd_eq; apply (k_run s J)|rewrite upd_ne by exact NE; apply (k_run s J)].
    + intros m M. eapply msg_mono; [exact (k_msg s J m M)|exists []; rewrite app_nil_r; reflexivity|exact TK|tauto|].
      cbn [ks_proc]. intros _ LK. destruct (Nat.eq_dec (km_dst m) r) as [E|NE]; [rewrite E in LK; congruence|].
      rewrite upd_ne by exact NE. exact LK.
    + exact (k_ctrl s J).
    + exact (k_ids s J).
    + exact (k_log s J).
  - (* unregister *)
    destruct (kp_lock (ks_proc s r)) eqn:L; try discriminate H.
    destruct (ks_tag s r g) as [tag|] eqn:T; [|discriminate H].
    destruct (ks_closed s r g) eqn:CL; [discriminate H|]. injection H as <-.
    constructor; cbn [ks_proc ks_tag ks_closed ks_net ks_log].
    + intros x t e. destruct (upd_cases (ks_proc s) r (KProc (kp_next (ks_proc s r)) (kp_map (ks_proc s r)) KDel (kp_run (ks_proc s r))) x) as [(-> & ->)|(_ & ->)]; apply (k_map s J).
    + intros x g0 t X. destruct (upd2_cases (ks_closed s) r g true x g0) as [(-> & -> & ->)|(_ & ->)]; [discriminate|].
      intros Y. pose proof (k_live s J _ _ _ X Y) as Z.
      destruct (Nat.eq_dec x r) as [->|NE]; [rewrite upd_eq|rewrite upd_ne by exact NE]; exact Z.
    + intros x. destruct (Nat.eq_dec x r) as [->|NE]; [rewrite upd_eq; apply (k_run s J)|rewrite upd_ne by exact NE; apply (k_run s J)].
    + intros m M. apply in_app_or in M. destruct M as [M|[<-|[]]].
      * eapply msg_mono; [exact (k_msg s J m M)|exists []; rewrite app_nil_r; reflexivity|exact TK| |].
        -- intros x g0 X. cbn [ks_closed]. destruct (upd2_cases (ks_closed s) r g true x g0) as [(_ & _ & ->)|(_ & ->)]; [reflexivity|exact X].
        -- cbn [ks_proc]. intros _ LK. destruct (Nat.eq_dec (km_dst m) r) as [->|NE]; [rewrite upd_eq; reflexivity|rewrite upd_ne by exact NE; exact LK].
      * unfold msg_ok. cbn [km_id km_tag km_src km_dst km_data ks_proc ks_tag ks_closed]. rewrite upd_eq. repeat split.
        exists g. rewrite upd2_eq. split; [exact T|reflexivity].
    + rewrite ctrl_app. cbn [ctrl km_id km_dst]. apply NoDup_Add with (a := r) (l := ctrl (ks_net s)).
      * rewrite <- (app_nil_r (ctrl (ks_net s))) at 1. apply Add_app.
      * split; [exact (k_ctrl s J)|]. intros X. apply ctrl_in in X. destruct X as (m & A & B & C).
        pose proof (k_msg s J m A) as M. unfold msg_ok in M. rewrite B in M. destruct M as (_ & _ & M & _).
        rewrite C in M. congruence.
    + rewrite net_ids_app. cbn [net_ids km_id]. rewrite app_nil_r. exact (k_ids s J).
    + exact (k_log s J).
  - (* send *)
    destruct (ks_tag s r g) as [tag|] eqn:T; [|discriminate H].
    destruct (ks_closed s r g) eqn:CL; [discriminate H|].
    rewrite (k_live s J _ _ _ T CL) in H. cbn [ke_group] in H.
    destruct (nth_error (grp g) k) as [dst|] eqn:N; [|discriminate H]. injection H as <-.
    constructor; cbn [ks_proc ks_tag ks_closed ks_net ks_log].
    + exact (k_map s J).
    + exact (k_live s J).
    + exact (k_run s J).
    + intros m M. apply in_app_or in M. destruct M as [M|[<-|[]]].
      * eapply msg_mono; [exact (k_msg s J m M)|eexists; reflexivity|exact TK|tauto|tauto].
      * unfold msg_ok. cbn [km_id km_tag km_src km_dst km_data ks_sent ks_tag]. exists g, k.
        rewrite nth_error_app2, Nat.sub_diag by lia. auto.
    + rewrite ctrl_app. cbn [ctrl km_id]. rewrite app_nil_r. exact (k_ctrl s J).
    + rewrite net_ids_app. cbn [net_ids km_id]. rewrite <- app_assoc. cbn [app].
      apply NoDup_Add with (a := length (ks_sent s)) (l := net_ids (ks_net s) ++ log_ids (ks_log s)); [apply Add_app|].
      split; [exact (k_ids s J)|]. intros X. apply in_app_or in X. destruct X as [X|X].
      * apply net_ids_in in X. destruct X as (m & A & B). pose proof (k_msg s J m A) as M. unfold msg_ok in M. rewrite B in M.
        destruct M as (g0 & k0 & M & _). assert (length (ks_sent s) < length (ks_sent s))%nat by (apply nth_error_Some; congruence). lia.
      * unfold log_ids in X. apply in_map_iff in X. destruct X as (e & E & X). pose proof (k_log s J e X) as EO.
        destruct e as [id p g0 k0 d0|id p]; cbn [event_ok] in EO; subst id; [|lia].
        destruct EO as (src & k1 & EO & _). assert (length (ks_sent s) < length (ks_sent s))%nat by (apply nth_error_Some; congruence). lia.
    + intros e E. eapply event_mono; [exact (k_log s J e E)|eexists; reflexivity].
  - (* handle *)
    rewrite (k_run s J r) in H.
    destruct (ktake src r (ks_net s)) as [[m net]|] eqn:TAKE; [|discriminate H]. cbn zeta in H.
    apply ktake_perm in TAKE. destruct TAKE as (PERM & MS & MD).
    assert (MIN : In m (ks_net s)) by (rewrite PERM; left; reflexivity).
    assert (NIN : forall x, In x net -> In x (ks_net s)) by (intros x X; rewrite PERM; right; exact X).
    pose proof (k_msg s J m MIN) as MOK.
    assert (CP := ctrl_perm _ _ PERM). assert (IP := net_ids_perm _ _ PERM).
    assert (NC : NoDup (ctrl (m :: net))) by (rewrite <- CP; exact (k_ctrl s J)).
    assert (NI : NoDup (net_ids (m :: net) ++ log_ids (ks_log s))) by (rewrite <- IP; exact (k_ids s J)).
    unfold msg_ok in MOK. destruct (km_id m) as [id|] eqn:ID.
    + (* a normal message *)
      destruct MOK as (g & k & SENT & T & DST).
      pose proof (SM _ _ _ T) as LT.
      destruct (Z.eqb_spec (km_tag m) EXIT_TAG) as [E|_]; [unfold EXIT_TAG, UNREG_TAG in *; lia|].
      destruct (Z.eqb_spec (km_tag m) UNREG_TAG) as [E|_]; [lia|].
      cbn [ctrl] in NC. rewrite ID in NC. cbn [net_ids] in NI. rewrite ID in NI.
      assert (GEN : forall e, (match e with KGot i _ _ _ _ => i | KDrop i _ => i end) = id -> event_ok s e ->
        kinv2 (KSt (upd (ks_proc s) r (ks_proc s r)) (ks_in s) (ks_tag s) (ks_closed s) net (ks_sent s) (e :: ks_log s))).
      { intros e EI EO. assert (UP : forall x, upd (ks_proc s) r (ks_proc s r) x = ks_proc s x)
          by (intros x; destruct (upd_cases (ks_proc s) r (ks_proc s r) x) as [(-> & ->)|(_ & ->)]; reflexivity).
        constructor; cbn [ks_proc ks_tag ks_closed ks_net ks_log].
        - intros x t e0. rewrite UP. apply (k_map s J).
        - intros x g0 t. rewrite UP. apply (k_live s J).
        - intros x. rewrite UP. apply (k_run s J).
        - intros x X. eapply msg_mono; [exact (k_msg s J x (NIN x X))|exists []; rewrite app_nil_r; reflexivity|tauto|tauto|].
          cbn [ks_proc]. rewrite UP. tauto.
        - exact NC.
        - cbn [log_ids map]. rewrite EI. apply NoDup_Add with (a := id) (l := net_ids net ++ log_ids (ks_log s)); [apply Add_app|].
          inversion NI; subst. split; assumption.
        - intros x [<-|X]; [exact EO|exact (k_log s J x X)]. }
      destruct (kp_map (ks_proc s r) (km_tag m)) as [e|] eqn:MAP.
      * destruct (index_of (km_src m) (ke_group e)) as [kk|] eqn:IX; [|discriminate H]. injection H as <-.
        assert (RG : ke_reg e = g).
        { eapply lookup_right; eauto. apply nth_error_In with k. rewrite DST, MD. reflexivity. }
        destruct (k_map s J _ _ _ MAP) as (_ & EG). apply index_of_nth in IX. rewrite EG, RG in IX.
        apply GEN; [reflexivity|]. cbn [event_ok]. exists (km_src m), k. rewrite RG.
        split; [exact SENT|]. split; [rewrite DST, MD; reflexivity|exact IX].
      * injection H as <-. apply GEN; [reflexivity|]. cbn [event_ok]. apply nth_error_Some. congruence.
    + (* unregister message *)
      destruct MOK as (TG & SD & LK & g & T & CL). rewrite MD in *.
      rewrite TG in H. change (UNREG_TAG =? EXIT_TAG) with false in H. change (UNREG_TAG =? UNREG_TAG) with true in H.
      cbn match in H. rewrite LK in H. injection H as <-.
      cbn [ctrl] in NC. rewrite ID, MD in NC. cbn [net_ids] in NI. rewrite ID in NI.
      constructor; cbn [ks_proc ks_tag ks_closed ks_net ks_log].
      * intros x t e. destruct (Nat.eq_dec x r) as [->|NE].
        -- rewrite upd_eq. cbn [kp_map]. destruct (kset_cases (kp_map (ks_proc s r)) (km_data m) None t) as [(-> & ->)|(_ & ->)]; [discriminate|].
           apply (k_map s J).
        -- rewrite upd_ne by exact NE. apply (k_map s J).
      * intros x g0 t X Y. pose proof (k_live s J _ _ _ X Y) as Z. destruct (Nat.eq_dec x r) as [->|NE].
        -- rewrite upd_eq. cbn [kp_map]. destruct (kset_cases (kp_map (ks_proc s r)) (km_data m) None t) as [(-> & _)|(_ & ->)]; [|exact Z].
           rewrite (k_uniq s I _ _ _ _ X T) in Y. congruence.
        -- rewrite upd_ne by exact NE. exact Z.
      * intros x. destruct (Nat.eq_dec x r) as [->|NE]; [rewrite upd_eq; reflexivity|rewrite upd_ne by exact NE; apply (k_run s J)].
      * intros x X. eapply msg_mono; [exact (k_msg s J x (NIN x X))|exists []; rewrite app_nil_r; reflexivity|tauto|tauto|].
        cbn [ks_proc]. intros IDX LX. destruct (Nat.eq_dec (km_dst x) r) as [E|NE].
        -- exfalso. inversion NC; subst. match goal with H : ~ In _ (ctrl net) |- _ => apply H end.
           rewrite <- E. apply in_ctrl; assumption.
        -- rewrite upd_ne by exact NE. exact LX.
      * inversion NC; assumption.
      * exact NI.
      * exact (k_log s J).
Qed.

Lemma kinv2_reachable s : kreachable grp s -> small s -> kinv2 s.
Proof.
  revert s. apply (kreach_ind grp (fun s => small s -> kinv2 s)).
  - intros _. constructor; cbn; intros; try discriminate; try contradiction; try reflexivity; constructor.
  - intros s a s' R IH H SM. pose proof (kinv1_reachable s R) as I.
    assert (SM0 : small s) by (intros r g t T; eapply SM; eapply tag_kept; eauto).
    eapply kinv2_step; eauto.
Qed.

(** ** Consequences *)
Lemma delivery s id p g sender d : kreachable grp s -> small s ->
  In (KGot id p g sender d) (ks_log s) ->
  exists src k, nth_error (ks_sent s) id = Some (src, g, k, d) /\
    nth_error (grp g) k = Some p /\ nth_error (grp g) sender = Some src.
Proof. intros R SM H. exact (k_log s (kinv2_reachable s R SM) _ H). Qed.

Lemma handled_once s : kreachable grp s -> small s -> NoDup (log_ids (ks_log s)).
Proof.
  intros R SM. pose proof (k_ids s (kinv2_reachable s R SM)) as N.
  induction (net_ids (ks_net s)) as [|x l IH]; [exact N|]. apply IH. inversion N. assumption.
Qed.

Lemma not_lost s r src s' id : kreachable grp s -> small s ->
  kstep grp s (KHandle r src) = Some (Ok s') -> ks_log s' = KDrop id r :: ks_log s ->
  exists g k d, nth_error (ks_sent s) id = Some (src, g, k, d) /\ (ks_tag s r g = None \/ ks_closed s r g = true).
Proof.
  intros R SM H LOG. pose proof (kinv1_reachable s R) as I. pose proof (kinv2_reachable s R SM) as J.
  cbn [kstep] in H. rewrite (k_run s J r) in H.
  destruct (ktake src r (ks_net s)) as [[m net]|] eqn:TAKE; [|discriminate H]. cbn zeta in H.
  apply ktake_perm in TAKE. destruct TAKE as (PERM & MS & MD).
  assert (MIN : In m (ks_net s)) by (rewrite PERM; left; reflexivity).
  pose proof (k_msg s J m MIN) as MOK. unfold msg_ok in MOK.
  assert (NX : forall (x : kevent) l, l <> x :: l).
  { intros x l X. apply (f_equal (@length _)) in X. cbn in X. lia. }
  destruct (km_tag m =? EXIT_TAG); [injection H as <-; cbn in LOG; destruct (NX _ _ LOG)|].
  destruct (km_tag m =? UNREG_TAG); [destruct (kp_lock (ks_proc s r)); try discriminate H; injection H as <-; cbn in LOG; destruct (NX _ _ LOG)|].
  destruct (km_id m) as [i|].
  - destruct MOK as (g & k & SENT & T & DST).
    destruct (kp_map (ks_proc s r) (km_tag m)) as [e|] eqn:MAP.
    + destruct (index_of (km_src m) (ke_group e)); [|discriminate H]. injection H as <-. cbn in LOG. discriminate LOG.
    + injection H as <-. cbn in LOG. injection LOG as ->. exists g, k, (km_data m). rewrite MS in SENT, T. split; [exact SENT|].
      destruct (ks_tag s r g) as [t|] eqn:TR; [|left; reflexivity]. right.
      destruct (ks_closed s r g) eqn:CL; [reflexivity|].
      pose proof (k_live s J _ _ _ TR CL) as LV. rewrite (tag_same s r src g t (km_tag m) R TR T) in LV. congruence.
  - destruct (kp_map (ks_proc s r) (km_tag m)) as [e|]; injection H as <-; cbn in LOG; destruct (NX _ _ LOG).
Qed.

(** Every send is in flight or was handled. *)
Definition all_ids (s : kst) : Prop := forall id, (id < length (ks_sent s))%nat ->
  In id (net_ids (ks_net s)) \/ In id (log_ids (ks_log s)).
Lemma all_ids_step s a s' : kinv1 s -> kinv2 s -> small s -> all_ids s -> kstep grp s a = Some (Ok s') -> all_ids s'.
Proof.
  intros I J SM A H. destruct a as [r g|r g|r g|r g k d|r src]; cbn [kstep] in H.
  - destruct (kp_lock (ks_proc s r)); try discriminate H.
    destruct (ks_in s g r); [discriminate H|]. destruct (existsb (Nat.eqb r) (grp g)); [|discriminate H].
    injection H as <-. exact A.
  - destruct (kp_lock (ks_proc s r)) as [|g'|]; try discriminate H.
    destruct (Nat.eqb g' g); [|discriminate H]. destruct (kmax (ks_in s g) (grp g)); [|discriminate H].
    injection H as <-. exact A.
  - destruct (kp_lock (ks_proc s r)); try discriminate H. destruct (ks_tag s r g); [|discriminate H].
    destruct (ks_closed s r g); [discriminate H|]. injection H as <-. intros id L. cbn [ks_sent ks_net ks_log] in *.
    rewrite net_ids_app. cbn. rewrite app_nil_r. exact (A id L).
  - destruct (ks_tag s r g) as [tag|]; [|discriminate H]. destruct (ks_closed s r g); [discriminate H|].
    destruct (kp_map (ks_proc s r) tag) as [e|]; [|injection H as <-; exact A].
    destruct (nth_error (ke_group e) k); [|discriminate H]. injection H as <-. intros id L. cbn [ks_sent ks_net ks_log] in *.
    rewrite net_ids_app. cbn. rewrite app_length in L. cbn in L.
    destruct (Nat.eq_dec id (length (ks_sent s))) as [->|N].
    + left. apply in_or_app. right. left. reflexivity.
    + destruct (A id ltac:(lia)) as [X|X]; [left; apply in_or_app; left; exact X|right; exact X].
  - rewrite (k_run s J r) in H.
    destruct (ktake src r (ks_net s)) as [[m net]|] eqn:TAKE; [|discriminate H]. cbn zeta in H.
    apply ktake_perm in TAKE. destruct TAKE as (PERM & MS & MD).
    assert (MIN : In m (ks_net s)) by (rewrite PERM; left; reflexivity).
    pose proof (k_msg s J m MIN) as MOK. unfold msg_ok in MOK. assert (IP := net_ids_perm _ _ PERM).
    cbn [net_ids] in IP. destruct (km_id m) as [i|].
    + destruct MOK as (g & k & SENT & T & DST). pose proof (SM _ _ _ T) as LT.
      destruct (Z.eqb_spec (km_tag m) EXIT_TAG) as [E|_]; [unfold EXIT_TAG, UNREG_TAG in *; lia|].
      destruct (Z.eqb_spec (km_tag m) UNREG_TAG) as [E|_]; [lia|].
      assert (G : forall p e, (match e with KGot i _ _ _ _ => i | KDrop i _ => i end) = i ->
        all_ids (KSt p (ks_in s) (ks_tag s) (ks_closed s) net (ks_sent s) (e :: ks_log s))).
      { intros p e EI id L. cbn [ks_sent ks_net ks_log log_ids map] in *. rewrite EI.
        destruct (A id L) as [X|X]; [rewrite IP in X; destruct X as [X|X]; [right; left; exact X|left; exact X]|right; right; exact X]. }
      destruct (kp_map (ks_proc s r) (km_tag m)) as [e|].
      * destruct (index_of (km_src m) (ke_group e)); [|discriminate H]. injection H as <-. apply G. reflexivity.
      * injection H as <-. apply G. reflexivity.
    + assert (G : forall p, all_ids (KSt p (ks_in s) (ks_tag s) (ks_closed s) net (ks_sent s) (ks_log s))).
      { intros p id L. cbn [ks_sent ks_net ks_log] in *. rewrite <- IP. exact (A id L). }
      destruct MOK as (TG & SD & LK & _). rewrite MD in LK. rewrite TG in H.
      change (UNREG_TAG =? EXIT_TAG) with false in H. change (UNREG_TAG =? UNREG_TAG) with true in H. cbn match in H.
      rewrite LK in H. injection H as <-. apply G.
Qed.
Lemma all_ids_reachable s : kreachable grp s -> small s -> all_ids s.
Proof.
  revert s. apply (kreach_ind grp (fun s => small s -> all_ids s)).
  - intros _ id L. cbn in L. lia.
  - intros s a s' R IH H SM. pose proof (kinv1_reachable s R) as I.
    assert (SM0 : small s) by (intros r g t T; eapply SM; eapply tag_kept; eauto).
    pose proof (kinv2_reachable s R SM0) as J. eapply all_ids_step; eauto.
Qed.

(** Every message in flight can be handled (after the older ones of the same pair), and
    nothing undefined happens unless the caller passes an invalid rank. *)
Lemma ktake_some src r l : (exists m, In m l /\ km_src m = src /\ km_dst m = r) -> ktake src r l <> None.
Proof.
  induction l as [|x l IH]; intros (m & I & S & D); [contradiction|]. cbn [ktake].
  destruct (Nat.eqb_spec (km_src x) src) as [A|A]; destruct (Nat.eqb_spec (km_dst x) r) as [B|B]; cbn [andb]; [discriminate| | |];
    (destruct I as [->|I]; [contradiction|]; specialize (IH (ex_intro _ m (conj I (conj S D))));
     destruct (ktake src r l) as [[? ?]|]; [discriminate|contradiction]).
Qed.
Lemma handle_defined s r src : kreachable grp s -> small s -> kstep grp s (KHandle r src) <> Some Ub.
Proof.
  intros R SM H. pose proof (kinv1_reachable s R) as I. pose proof (kinv2_reachable s R SM) as J.
  cbn [kstep] in H. rewrite (k_run s J r) in H.
  destruct (ktake src r (ks_net s)) as [[m net]|] eqn:TAKE; [|discriminate H]. cbn zeta in H.
  apply ktake_perm in TAKE. destruct TAKE as (PERM & MS & MD).
  assert (MIN : In m (ks_net s)) by (rewrite PERM; left; reflexivity).
  pose proof (k_msg s J m MIN) as MOK. unfold msg_ok in MOK. destruct (km_id m) as [id|].
  - destruct MOK as (g & k & SENT & T & DST). pose proof (SM _ _ _ T) as LT.
    destruct (Z.eqb_spec (km_tag m) EXIT_TAG) as [E|_]; [unfold EXIT_TAG, UNREG_TAG in *; lia|].
    destruct (Z.eqb_spec (km_tag m) UNREG_TAG) as [E|_]; [lia|].
    destruct (kp_map (ks_proc s r) (km_tag m)) as [e|] eqn:MAP; [|discriminate H].
    destruct (index_of (km_src m) (ke_group e)) as [kk|] eqn:IX; [discriminate H|].
    assert (RG : ke_reg e = g).
    { eapply lookup_right; eauto. apply nth_error_In with k. rewrite DST, MD. reflexivity. }
    destruct (k_map s J _ _ _ MAP) as (_ & EG). revert IX. rewrite EG, RG. apply index_of_in.
    destruct (k_tag s I _ _ _ T) as (IN & _). destruct (ks_in s g (km_src m)) as [a|] eqn:A; [|contradiction].
    apply (k_in s I _ _ _ A).
  - destruct MOK as (TG & SD & LK & _). rewrite MD in LK. rewrite TG in H.
    change (UNREG_TAG =? EXIT_TAG) with false in H. change (UNREG_TAG =? UNREG_TAG) with true in H. cbn match in H.
    rewrite LK in H. discriminate H.
Qed.
Lemma handle_enabled s m : kreachable grp s -> small s -> In m (ks_net s) ->
  exists s', kstep grp s (KHandle (km_dst m) (km_src m)) = Some (Ok s').
Proof.
  intros R SM M. destruct (kstep grp s (KHandle (km_dst m) (km_src m))) as [[s'|]|] eqn:E.
  - exists s'. reflexivity.
  - exfalso. eapply handle_defined; eauto.
  - exfalso. pose proof (kinv2_reachable s R SM) as J. cbn [kstep] in E. rewrite (k_run s J) in E.
    assert (TS := ktake_some (km_src m) (km_dst m) (ks_net s) (ex_intro _ m (conj M (conj eq_refl eq_refl)))).
    destruct (ktake (km_src m) (km_dst m) (ks_net s)) as [[m' net]|]; [|contradiction]. cbn zeta in E.
    destruct (km_tag m' =? EXIT_TAG); [discriminate E|].
    destruct (km_tag m' =? UNREG_TAG); [destruct (kp_lock (ks_proc s (km_dst m))); discriminate E|].
    destruct (kp_map (ks_proc s (km_dst m)) (km_tag m')) as [e|]; destruct (km_id m'); try discriminate E.
    destruct (index_of (km_src m') (ke_group e)); discriminate E.
Qed.
End Tags.

(** ** Many registrations, one after the other *)
Definition both : nat -> list nat := fun _ => [0%nat; 1%nat].
(** Two processes open a grid with one receiver and close it. *)
Definition open_close (g : nat) : list kact :=
  [KEnter 0 g; KEnter 1 g; KReturn 0 g; KReturn 1 g; KUnreg 0 g; KHandle 0 0; KUnreg 1 g; KHandle 1 1].
Definition only_open (g : nat) : list kact := [KEnter 0 g; KEnter 1 g; KReturn 0 g; KReturn 1 g].
Definition cycles (n : nat) : list kact := flat_map open_close (seq 0 n).

Record quiet (n : nat) (s : kst) : Prop := Quiet {
  q_next : forall r, (r < 2)%nat -> kp_next (ks_proc s r) = Z.of_nat n;
  q_lock : forall r, (r < 2)%nat -> kp_lock (ks_proc s r) = KFree;
  q_run : forall r, (r < 2)%nat -> kp_run (ks_proc s r) = true;
  q_net : ks_net s = [];
  q_in : forall g r, (n <= g)%nat -> ks_in s g r = None;
  q_tag : forall g r, (n <= g)%nat -> ks_tag s r g = None;
  q_cl : forall g r, (n <= g)%nat -> ks_closed s r g = false;
  q_all : forall g r, (g < n)%nat -> (r < 2)%nat -> ks_closed s r g = true;
  q_sent : ks_sent s = []
}.
(** The two processes after both have registered [n]. *)
Record opened_like (n : nat) (s s' : kst) : Prop := OpenedLike {
  ol_0 : ks_proc s' 0 = KProc (Z.of_nat n + 1) (kset (kp_map (ks_proc s 0)) (Z.of_nat n) (Some (KEntry n [0;1]%nat))) KFree true;
  ol_1 : ks_proc s' 1 = KProc (Z.of_nat n + 1) (kset (kp_map (ks_proc s 1)) (Z.of_nat n) (Some (KEntry n [0;1]%nat))) KFree true;
  ol_in : forall g r, g <> n -> ks_in s' g r = ks_in s g r;
  ol_tag : forall g r, g <> n -> ks_tag s' r g = ks_tag s r g;
  ol_t0 : ks_tag s' 0 n = Some (Z.of_nat n);
  ol_t1 : ks_tag s' 1 n = Some (Z.of_nat n);
  ol_cl : ks_closed s' = ks_closed s;
  ol_net : ks_net s' = [];
  ol_sent : ks_sent s' = []
}.

Lemma open_run n s : quiet n s -> exists s', krun both s (only_open n) = Some (Ok s') /\ opened_like n s s'.
Proof.
  intros [QN QL QR QE QI QT QC QA QS].
  assert (L01 : (0 < 2)%nat) by lia. assert (L11 : (1 < 2)%nat) by lia.
  unfold only_open. cbn [krun kstep].
  rewrite (QL 0%nat L01), (QI n 0%nat (le_n n)). cbn [both existsb Nat.eqb orb]. cbn [ks_proc ks_in ks_tag ks_closed ks_net ks_sent ks_log].
  rewrite (upd_ne (ks_proc s) 0) by discriminate. rewrite (QL 1%nat L11).
  rewrite upd2_ne by (right; discriminate). rewrite (QI n 1%nat (le_n n)). cbn [both existsb Nat.eqb orb].
  cbn [ks_proc ks_in ks_tag ks_closed ks_net ks_sent ks_log].
  rewrite (upd_ne _ 1%nat _ 0%nat) by discriminate. rewrite upd_eq. cbn [kp_lock kp_next kp_map kp_run]. rewrite Nat.eqb_refl.
  cbn [both kmax]. rewrite upd2_eq. rewrite (upd2_ne _ n 1%nat _ n 0%nat) by (right; discriminate). rewrite upd2_eq.
  rewrite (QN 0%nat L01), (QN 1%nat L11).
  assert (MX : Z.max (Z.of_nat n) (Z.max (Z.of_nat n) 0) = Z.of_nat n) by lia. rewrite MX.
  cbn [ks_proc ks_in ks_tag ks_closed ks_net ks_sent ks_log].
  rewrite (upd_ne _ 0%nat _ 1%nat) by discriminate. rewrite upd_eq. cbn [kp_lock kp_next kp_map kp_run]. rewrite Nat.eqb_refl.
  cbn [kmax]. rewrite upd2_eq. rewrite (upd2_ne _ n 1%nat _ n 0%nat) by (right; discriminate). rewrite upd2_eq. rewrite MX.
  eexists. split; [reflexivity|]. constructor; cbn [ks_proc ks_in ks_tag ks_closed ks_net ks_sent ks_log].
  - rewrite (upd_ne _ 1%nat _ 0%nat) by discriminate. rewrite upd_eq. rewrite (QR 0%nat L01). reflexivity.
  - rewrite upd_eq. rewrite (QR 1%nat L11). reflexivity.
  - intros g r N. rewrite !upd2_ne by (left; exact N). reflexivity.
  - intros g r N. rewrite !upd2_ne by (right; exact N). reflexivity.
  - rewrite upd2_ne by (left; discriminate). apply upd2_eq.
  - apply upd2_eq.
  - reflexivity.
  - exact QE.
  - exact QS.
Qed.

Lemma cycle_run n s : quiet n s -> exists s', krun both s (open_close n) = Some (Ok s') /\ quiet (S n) s'.
Proof.
  intros Q. destruct (open_run n s Q) as (s1 & R & [O0 O1 OI OT OT0 OT1 OC ON OS]).
  destruct Q as [QN QL QR QE QI QT QC QA QS].
  change (open_close n) with (only_open n ++ [KUnreg 0 n; KHandle 0 0; KUnreg 1 n; KHandle 1 1]).
  rewrite krun_app, R. cbn [krun kstep].
  rewrite O0. cbn [kp_lock kp_next kp_map kp_run]. rewrite OT0, OC, (QC n 0%nat (le_n n)), ON, OS.
  cbn [ks_proc ks_in ks_tag ks_closed ks_net ks_sent ks_log app]. rewrite upd_eq. cbn [kp_lock kp_next kp_map kp_run].
  cbn [ktake km_src km_dst Nat.eqb andb km_tag km_id km_data].
  change (UNREG_TAG =? EXIT_TAG) with false. change (UNREG_TAG =? UNREG_TAG) with true. cbn match.
  cbn [ks_proc ks_in ks_tag ks_closed ks_net ks_sent ks_log app].
  rewrite !(upd_ne _ 0%nat _ 1%nat) by discriminate. rewrite O1. cbn [kp_lock kp_next kp_map kp_run].
  rewrite OT1. rewrite upd2_ne by (left; discriminate). rewrite (QC n 1%nat (le_n n)).
  cbn [ks_proc ks_in ks_tag ks_closed ks_net ks_sent ks_log app]. rewrite upd_eq. cbn [kp_lock kp_next kp_map kp_run].
  cbn [ktake km_src km_dst Nat.eqb andb km_tag km_id km_data].
  change (UNREG_TAG =? EXIT_TAG) with false. change (UNREG_TAG =? UNREG_TAG) with true. cbn match.
  eexists. split; [reflexivity|].
  assert (C2 : forall r : nat, (r < 2)%nat -> r = 0%nat \/ r = 1%nat) by (intros; lia).
  constructor; cbn [ks_proc ks_in ks_tag ks_closed ks_net ks_sent ks_log].
  - intros r L. destruct (C2 r L) as [->| ->].
    + rewrite !(upd_ne _ 1%nat _ 0%nat) by discriminate. rewrite upd_eq. cbn. lia.
    + rewrite upd_eq. cbn. lia.
  - intros r L. destruct (C2 r L) as [->| ->].
    + rewrite !(upd_ne _ 1%nat _ 0%nat) by discriminate. rewrite upd_eq. reflexivity.
    + rewrite upd_eq. reflexivity.
  - intros r L. destruct (C2 r L) as [->| ->].
    + rewrite !(upd_ne _ 1%nat _ 0%nat) by discriminate. rewrite upd_eq. reflexivity.
    + rewrite upd_eq. reflexivity.
  - reflexivity.
  - intros g r L. rewrite OI by lia. apply QI. lia.
  - intros g r L. rewrite OT by lia. apply QT. lia.
  - intros g r L. rewrite !upd2_ne by (right; lia). apply QC. lia.
  - intros g r L LR. destruct (Nat.eq_dec g n) as [->|N].
    + destruct (C2 r LR) as [->| ->]; [|apply upd2_eq]. rewrite upd2_ne by (left; discriminate). apply upd2_eq.
    + rewrite !upd2_ne by (right; exact N). apply QA; lia.
  - reflexivity.
Qed.

Lemma cycles_run n : exists s, krun both kinit (cycles n) = Some (Ok s) /\ quiet n s.
Proof.
  induction n as [|n (s & R & Q)].
  - exists kinit. split; [reflexivity|]. constructor; intros; reflexivity || (cbn; lia) || (exfalso; lia).
  - destruct (cycle_run n s Q) as (s' & R' & Q'). exists s'. split; [|exact Q'].
    unfold cycles. rewrite seq_S, flat_map_app, krun_app. fold (cycles n). rewrite R. cbn [flat_map Nat.add].
    rewrite app_nil_r. exact R'.
Qed.

(** After [n] grids were opened and closed, the next one gets the tag [n]; all others are closed. *)
Lemma tag_grows n : exists s, krun both kinit (cycles n ++ only_open n) = Some (Ok s) /\
  ks_tag s 0 n = Some (Z.of_nat n) /\ ks_tag s 1 n = Some (Z.of_nat n) /\
  (forall g r, (g < n)%nat -> (r < 2)%nat -> ks_closed s r g = true) /\
  ks_closed s 0 n = false /\ ks_closed s 1 n = false /\ ks_net s = [] /\
  kp_lock (ks_proc s 1) = KFree /\ kp_run (ks_proc s 1) = true /\
  kp_map (ks_proc s 0) (Z.of_nat n) = Some (KEntry n [0;1]%nat).
Proof.
  destruct (cycles_run n) as (s & R & Q). destruct (open_run n s Q) as (s1 & R1 & [O0 O1 OI OT OT0 OT1 OC ON OS]).
  exists s1. rewrite krun_app, R. split; [exact R1|]. split; [exact OT0|]. split; [exact OT1|].
  rewrite OC, O1, O0. cbn. unfold kset. rewrite Z.eqb_refl.
  split; [intros g r A B; apply (q_all n s Q); assumption|].
  rewrite !(q_cl n s Q) by lia. repeat split; assumption || reflexivity.
Qed.

(** The message sent through the receiver with the tag UNREG_TAG unlocks a mutex which is not locked. *)
Lemma unreg_collision d : exists n, krun both kinit (cycles n ++ only_open n ++ [KSend 0 n 1 d; KHandle 1 0]) = Some Ub.
Proof.
  exists (Z.to_nat UNREG_TAG).
  set (n := Z.to_nat UNREG_TAG). assert (ZN : Z.of_nat n = UNREG_TAG) by (unfold n; rewrite Z2Nat.id; unfold UNREG_TAG; lia).
  destruct (tag_grows n) as (s & R & T0 & T1 & _ & C0 & C1 & N & L & RN & M).
  rewrite app_assoc, krun_app, R. cbn [krun kstep]. rewrite T0, C0, M. cbn [ke_group nth_error].
  cbn [ks_proc ks_in ks_tag ks_closed ks_net ks_sent ks_log]. rewrite RN, N. cbn [app ktake km_src km_dst Nat.eqb andb km_tag].
  rewrite ZN. change (UNREG_TAG =? EXIT_TAG) with false. change (UNREG_TAG =? UNREG_TAG) with true. cbn match. rewrite L. reflexivity.
Qed.
(** The message sent through the receiver with the tag EXIT_TAG ends the communication thread. *)
Lemma exit_collision d : exists n s, krun both kinit (cycles n ++ only_open n ++ [KSend 0 n 1 d; KHandle 1 0]) = Some (Ok s) /\
  kp_run (ks_proc s 1) = false /\ ks_closed s 1 n = false.
Proof.
  exists (Z.to_nat EXIT_TAG).
  set (n := Z.to_nat EXIT_TAG). assert (ZN : Z.of_nat n = EXIT_TAG) by (unfold n; rewrite Z2Nat.id; unfold EXIT_TAG; lia).
  destruct (tag_grows n) as (s & R & T0 & T1 & _ & C0 & C1 & N & L & RN & M).
  rewrite app_assoc, krun_app, R. cbn [krun kstep]. rewrite T0, C0, M. cbn [ke_group nth_error].
  cbn [ks_proc ks_in ks_tag ks_closed ks_net ks_sent ks_log]. rewrite RN, N. cbn [app ktake km_src km_dst Nat.eqb andb km_tag].
  rewrite ZN. change (EXIT_TAG =? EXIT_TAG) with true. cbn match.
  eexists. split; [reflexivity|]. cbn [ks_proc ks_closed]. rewrite upd_eq. split; [reflexivity|exact C1].
Qed.

(** ** Pinning *)
Lemma pin_nonneg n c : 0 <= n < 2 ^ 31 -> 0 <= c < 2 ^ 31 -> pin n c = Ok (if c <? n then Some c else None).
Proof.
  intros N C. unfold pin. destruct (Z.ltb_spec c n); [|reflexivity].
  unfold int_ok. destruct (Z.leb_spec (- 2 ^ 31) (- c)); [|lia]. destruct (Z.ltb_spec (- c) (2 ^ 31)); [|lia]. cbn [andb obind].
  destruct (Z.leb_spec (- c) n); [|lia]. destruct (Z.leb_spec 0 c); [reflexivity|lia].
Qed.
Lemma pin_negative n c x : 0 <= n -> c < 0 -> pin n c = Ok (Some x) -> n < x.
Proof.
  intros N C. unfold pin. destruct (Z.ltb_spec c n); [|discriminate].
  unfold int_ok at 1. destruct ((- 2 ^ 31 <=? - c) && (- c <? 2 ^ 31)); cbn [obind]; [|discriminate].
  destruct (Z.leb_spec (- c) n); [|discriminate]. destruct (Z.leb_spec 0 c); [lia|].
  unfold int_ok. destruct ((- 2 ^ 31 <=? n - c) && (n - c <? 2 ^ 31)); cbn [obind]; [|discriminate].
  intros E. injection E as <-. lia.
Qed.
Lemma pin_negative_used n c : 0 <= n < 2 ^ 30 -> - n <= c < 0 -> pin n c = Ok (Some (n - c)).
Proof.
  intros N C. unfold pin, int_ok. destruct (Z.ltb_spec c n); [|lia].
  destruct (Z.leb_spec (- 2 ^ 31) (- c)); [|lia]. destruct (Z.ltb_spec (- c) (2 ^ 31)); [|lia]. cbn [andb obind].
  destruct (Z.leb_spec (- c) n); [|lia]. destruct (Z.leb_spec 0 c); [lia|].
  destruct (Z.leb_spec (- 2 ^ 31) (n - c)); [|lia]. destruct (Z.ltb_spec (n - c) (2 ^ 31)); [|lia]. reflexivity.
Qed.
Lemma pin_invalid n c : 0 <= n < 2 ^ 31 -> - 2 ^ 31 < c < 2 ^ 31 -> n <= c \/ c < - n -> pin n c = Ok None.
Proof.
  intros N C D. unfold pin, int_ok. destruct (Z.ltb_spec c n); [|reflexivity].
  destruct (Z.leb_spec (- 2 ^ 31) (- c)); [|lia]. destruct (Z.ltb_spec (- c) (2 ^ 31)); [|lia]. cbn [andb obind].
  destruct (Z.leb_spec (- c) n); [lia|reflexivity].
Qed.
