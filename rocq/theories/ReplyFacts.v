(** * Facts about requests and replies *)
From Coq Require Import Lia.
From Verif Require Import ReplyModel.

Definition rreachable (tg : rtags) (prog : nat -> list rq) (s : rst) : Prop :=
  exists l, rrun tg (rinit prog) l = Some s.

(** Two requests are of the same exchange (they use the same mutex). *)
Definition same_exchange (r r' : rq) : Prop := rq_level r = rq_level r' /\ rq_kind r = rq_kind r'.

(** The tags are good enough for the program: a waiting thread cannot take the reply to a request of another exchange by
    another thread, and it waits for the tags its replies have. *)
Definition no_steal (tg : rtags) (prog : nat -> list rq) : Prop :=
  forall t t' r r' ok, t <> t' -> In r (prog t) -> In r' (prog t') -> rq_to r = rq_to r' ->
    ~ same_exchange r r' -> ~ In (rt_send tg (rq_level r') (rq_kind r') ok) (rt_recv tg (rq_level r) (rq_kind r)).
Definition answered (tg : rtags) (prog : nat -> list rq) : Prop :=
  forall t r ok, In r (prog t) -> In (rt_send tg (rq_level r) (rq_kind r) ok) (rt_recv tg (rq_level r) (rq_kind r)).

(** The answers a thread should have got for its first [n] requests. *)
Definition own_replies (t n : nat) : list (nat * nat) := map (fun i => (t, i)) (seq 0 n).

Lemma rrun_app tg l1 l2 s : rrun tg s (l1 ++ l2) = match rrun tg s l1 with Some s' => rrun tg s' l2 | None => None end.
Proof. revert s. induction l1 as [|a l1 IH]; intros s; cbn; [reflexivity|]. destruct (rstep tg s a); auto. Qed.

Lemma upd_cases {A} (f : nat -> A) i a j : (j = i /\ upd f i a j = a) \/ (j <> i /\ upd f i a j = f j).
Proof. unfold upd. destruct (Nat.eqb_spec j i); auto. Qed.
Lemma upd_eq {A} (f : nat -> A) i a : upd f i a i = a.
Proof. unfold upd. rewrite Nat.eqb_refl. reflexivity. Qed.
Lemma upd_ne {A} (f : nat -> A) i a j : j <> i -> upd f i a j = f j.
Proof. unfold upd. destruct (Nat.eqb_spec j i); [contradiction|reflexivity]. Qed.

Lemma rkind_eqb_eq a b : rkind_eqb a b = true <-> a = b.
Proof. destruct a, b; cbn; split; intros H; reflexivity || discriminate. Qed.
Lemma set_mutex_cases m l k o l' k' :
  (l' = l /\ k' = k /\ set_mutex m l k o l' k' = o) \/ (~ (l' = l /\ k' = k) /\ set_mutex m l k o l' k' = m l' k').
Proof.
  unfold set_mutex. destruct (Nat.eqb_spec l' l); cbn [andb].
  - destruct (rkind_eqb k' k) eqn:E.
    + apply rkind_eqb_eq in E. auto.
    + right. split; [|reflexivity]. intros (_ & F). apply rkind_eqb_eq in F. congruence.
  - right. split; [tauto|reflexivity].
Qed.

Lemma take_tag_split tags l id rest : take_tag tags l = Some (id, rest) ->
  exists a tag b, l = a ++ (tag, id) :: b /\ rest = a ++ b /\ In tag tags.
Proof.
  revert id rest. induction l as [|[tag i] l IH]; intros id rest H; cbn in H; [discriminate H|].
  destruct (existsb (Nat.eqb tag) tags) eqn:E.
  - injection H as <- <-. exists [], tag, l. repeat split. apply existsb_exists in E.
    destruct E as (x & X & Y). apply Nat.eqb_eq in Y. congruence.
  - destruct (take_tag tags l) as [[id' l'']|]; [|discriminate H]. injection H as <- <-.
    destruct (IH id' l'' eq_refl) as (a & tg' & b & -> & -> & I). exists ((tag, i) :: a), tg', b. auto.
Qed.
Lemma take_tag_some tags l tag id : In (tag, id) l -> In tag tags -> take_tag tags l <> None.
Proof.
  induction l as [|[tg' i] l IH]; intros I J; [contradiction|]. cbn.
  destruct (existsb (Nat.eqb tg') tags) eqn:E; [discriminate|].
  destruct I as [X|I].
  - injection X as -> ->. exfalso. assert (existsb (Nat.eqb tag) tags = true); [|congruence].
    apply existsb_exists. exists tag. split; [exact J|apply Nat.eqb_refl].
  - specialize (IH I J). destruct (take_tag tags l) as [[? ?]|]; [discriminate|contradiction].
Qed.

Section Inv.
Variables (tg : rtags) (prog : nat -> list rq).

(** Thread [t] waits for the reply to its [d]-th request, [r]. *)
Definition waits (s : rst) (t : nat) (r : rq) (d : nat) : Prop :=
  r_wait (rs_thr s t) = true /\ r_done (rs_thr s t) = d /\ exists todo, r_todo (rs_thr s t) = r :: todo.
Definition owners (s : rst) (q : nat) : list nat :=
  map (fun x => fst (snd x)) (rs_req s q) ++ map (fun x => fst (snd x)) (rs_rep s q).

Record rinv (s : rst) : Prop := RInv {
  r_req : forall q r t d, In (r, (t, d)) (rs_req s q) -> waits s t r d /\ rq_to r = q;
  r_rep : forall q tag t d, In (tag, (t, d)) (rs_rep s q) ->
    exists r ok, waits s t r d /\ rq_to r = q /\ tag = rt_send tg (rq_level r) (rq_kind r) ok;
  r_msg : forall t r d, waits s t r d -> In t (owners s (rq_to r));
  r_once : forall q, NoDup (owners s q);
  r_mut : forall l k t, rs_mutex s l k = Some t <-> exists r d, waits s t r d /\ rq_level r = l /\ rq_kind r = k;
  r_prog : forall t, exists before, prog t = before ++ r_todo (rs_thr s t) /\ length before = r_done (rs_thr s t);
  r_ok : forall t, r_got (rs_thr s t) = own_replies t (r_done (rs_thr s t));
  r_idle : forall t, r_todo (rs_thr s t) = [] -> r_wait (rs_thr s t) = false
}.

Lemma waits_fun s t r d r' d' : waits s t r d -> waits s t r' d' -> r = r' /\ d = d'.
Proof. intros (_ & A & x & B) (_ & C & y & D). rewrite B in D. injection D as -> _. split; congruence. Qed.

Lemma in_owner_req s q x : In x (rs_req s q) -> In (fst (snd x)) (owners s q).
Proof. intros I. apply in_or_app. left. apply (in_map (fun x : rq * (nat * nat) => fst (snd x))). exact I. Qed.
Lemma in_owner_rep s q x : In x (rs_rep s q) -> In (fst (snd x)) (owners s q).
Proof. intros I. apply in_or_app. right. apply (in_map (fun x : nat * (nat * nat) => fst (snd x))). exact I. Qed.

Lemma rinv_init : rinv (rinit prog).
Proof.
  constructor; cbn; intros; try contradiction.
  - destruct H as (H & _). discriminate H.
  - constructor.
  - split; [discriminate|]. intros (r & d & (H & _) & _). discriminate H.
  - exists []. split; reflexivity.
  - reflexivity.
  - reflexivity.
Qed.

Lemma rinv_step s a s' : no_steal tg prog -> rinv s -> rstep tg s a = Some s' -> rinv s'.
Proof.
  intros NS I H. destruct a as [t|q ok|t]; cbn [rstep] in H.
  - (* call *)
    destruct (r_todo (rs_thr s t)) as [|r todo] eqn:TD; [discriminate H|].
    destruct (r_wait (rs_thr s t)) eqn:W; [discriminate H|].
    destruct (rs_mutex s (rq_level r) (rq_kind r)) eqn:M; [discriminate H|]. injection H as <-.
    set (d := r_done (rs_thr s t)).
    set (x' := RThr (r :: todo) true d (r_got (rs_thr s t))).
    assert (WT : forall u r0 d0, waits (RSt (upd (rs_thr s) t x') (set_mutex (rs_mutex s) (rq_level r) (rq_kind r) (Some t))
        (upd (rs_req s) (rq_to r) (rs_req s (rq_to r) ++ [(r, (t, d))])) (rs_rep s)) u r0 d0 <->
      (u = t /\ r0 = r /\ d0 = d) \/ (u <> t /\ waits s u r0 d0)).
    { intros u r0 d0. unfold waits. cbn [rs_thr]. destruct (upd_cases (rs_thr s) t x' u) as [(-> & ->)|(N & ->)].
      - cbn. split.
        + intros (_ & <- & y & Y). injection Y as <- _. left. auto.
        + intros [(_ & -> & ->)|(N & _)]; [|contradiction]. repeat split. exists todo. reflexivity.
      - split; [intros X; right; auto|]. intros [(-> & _)|(_ & X)]; [contradiction|exact X]. }
    assert (OLDW : forall u r0 d0, waits s u r0 d0 -> u <> t).
    { intros u r0 d0 (X & _) ->. congruence. }
    assert (NEWT : forall q, ~ In t (owners s q)).
    { intros q X. apply in_app_or in X. destruct X as [X|X]; apply in_map_iff in X.
      - destruct X as ((r0 & (u & d0)) & E & X). cbn in E. subst u. destruct (r_req s I _ _ _ _ X) as (Y & _). exact (OLDW _ _ _ Y eq_refl).
      - destruct X as ((tag & (u & d0)) & E & X). cbn in E. subst u. destruct (r_rep s I _ _ _ _ X) as (r0 & o & Y & _). exact (OLDW _ _ _ Y eq_refl). }
    constructor.
    + intros q r0 u d0. cbn [rs_req]. intros X. rewrite WT.
      assert (OR : In (r0, (u, d0)) (rs_req s q) \/ (q = rq_to r /\ (r0, (u, d0)) = (r, (t, d)))).
      { destruct (upd_cases (rs_req s) (rq_to r) (rs_req s (rq_to r) ++ [(r, (t, d))]) q) as [(-> & E)|(N & E)]; rewrite E in X; [|left; exact X].
        apply in_app_or in X. destruct X as [X|[X|[]]]; [left; exact X|right; split; [reflexivity|congruence]]. }
      destruct OR as [X'|(-> & X')].
      * destruct (r_req s I _ _ _ _ X') as (Y & Z). split; [right; split; [exact (OLDW _ _ _ Y)|exact Y]|exact Z].
      * injection X' as -> -> ->. split; [left; auto|reflexivity].
    + intros q tag u d0 X. cbn [rs_rep] in X. destruct (r_rep s I _ _ _ _ X) as (r0 & o & Y & Z).
      exists r0, o. rewrite WT. split; [right; split; [exact (OLDW _ _ _ Y)|exact Y]|exact Z].
    + intros u r0 d0. rewrite WT. unfold owners. cbn [rs_req rs_rep]. intros [(-> & -> & ->)|(N & Y)].
      * rewrite upd_eq. rewrite map_app. apply in_or_app. left. apply in_or_app. right. left. reflexivity.
      * pose proof (r_msg s I _ _ _ Y) as Z. unfold owners in Z.
        destruct (upd_cases (rs_req s) (rq_to r) (rs_req s (rq_to r) ++ [(r, (t, d))]) (rq_to r0)) as [(E & ->)|(_ & ->)]; [|exact Z].
        rewrite E in Z. rewrite map_app. apply in_app_or in Z. apply in_or_app. rewrite E. destruct Z as [Z|Z]; [left; apply in_or_app; left; exact Z|right; exact Z].
    + intros q. unfold owners. cbn [rs_req rs_rep].
      destruct (upd_cases (rs_req s) (rq_to r) (rs_req s (rq_to r) ++ [(r, (t, d))]) q) as [(-> & ->)|(_ & ->)]; [|exact (r_once s I q)].
      rewrite map_app, <- app_assoc. cbn [map app fst snd].
      eapply NoDup_Add; [apply Add_app|]. split; [exact (r_once s I (rq_to r))|apply NEWT].
    + intros l k u. cbn [rs_mutex]. split.
      * destruct (set_mutex_cases (rs_mutex s) (rq_level r) (rq_kind r) (Some t) l k) as [(-> & -> & ->)|(N & ->)].
        -- intros X. injection X as <-. exists r, d. rewrite WT. auto.
        -- intros X. apply (r_mut s I) in X. destruct X as (r0 & d0 & Y & Z). exists r0, d0. rewrite WT.
           split; [right; split; [exact (OLDW _ _ _ Y)|exact Y]|exact Z].
      * intros (r0 & d0 & Y & <- & <-). rewrite WT in Y. destruct Y as [(-> & -> & _)|(N & Y)].
        -- destruct (set_mutex_cases (rs_mutex s) (rq_level r) (rq_kind r) (Some t) (rq_level r) (rq_kind r)) as [(_ & _ & ->)|(N & _)]; [reflexivity|tauto].
        -- assert (Z : rs_mutex s (rq_level r0) (rq_kind r0) = Some u) by (apply (r_mut s I); exists r0, d0; auto).
           destruct (set_mutex_cases (rs_mutex s) (rq_level r) (rq_kind r) (Some t) (rq_level r0) (rq_kind r0)) as [(E & F & _)|(_ & ->)]; [|exact Z].
           rewrite E, F in Z. congruence.
    + intros u. cbn [rs_thr]. destruct (upd_cases (rs_thr s) t x' u) as [(-> & ->)|(_ & ->)]; [|apply (r_prog s I)].
      cbn. rewrite <- TD. apply (r_prog s I).
    + intros u. cbn [rs_thr]. destruct (upd_cases (rs_thr s) t x' u) as [(-> & ->)|(_ & ->)]; [|apply (r_ok s I)].
      cbn. apply (r_ok s I).
    + intros u. cbn [rs_thr]. destruct (upd_cases (rs_thr s) t x' u) as [(-> & ->)|(_ & ->)]; [|apply (r_idle s I)].
      cbn. discriminate.
  - (* serve *)
    destruct (rs_req s q) as [|[r [t d]] rest] eqn:RQ; [discriminate H|]. injection H as <-.
    assert (HD : waits s t r d /\ rq_to r = q) by (apply (r_req s I q); rewrite RQ; left; reflexivity).
    assert (OWN : forall q0, owners (RSt (rs_thr s) (rs_mutex s) (upd (rs_req s) q rest)
        (upd (rs_rep s) q (rs_rep s q ++ [(rt_send tg (rq_level r) (rq_kind r) ok, (t, d))]))) q0 =
      if q0 =? q then map (fun x => fst (snd x)) rest ++ map (fun x => fst (snd x)) (rs_rep s q) ++ [t] else owners s q0).
    { intros q0. unfold owners. cbn [rs_req rs_rep]. unfold upd. destruct (q0 =? q); [|reflexivity]. rewrite map_app. reflexivity. }
    assert (OQ : owners s q = t :: map (fun x => fst (snd x)) rest ++ map (fun x => fst (snd x)) (rs_rep s q)).
    { unfold owners. rewrite RQ. reflexivity. }
    constructor.
    + intros q0 r0 u d0. cbn [rs_req]. destruct (upd_cases (rs_req s) q rest q0) as [(-> & ->)|(_ & ->)]; [|apply (r_req s I)].
      intros X. apply (r_req s I). rewrite RQ. right. exact X.
    + intros q0 tag u d0. cbn [rs_rep].
      destruct (upd_cases (rs_rep s) q (rs_rep s q ++ [(rt_send tg (rq_level r) (rq_kind r) ok, (t, d))]) q0) as [(-> & ->)|(_ & ->)]; [|apply (r_rep s I)].
      intros X. apply in_app_or in X. destruct X as [X|[X|[]]]; [exact (r_rep s I _ _ _ _ X)|].
      injection X as <- <- <-. exists r, ok. tauto.
    + intros u r0 d0 X. rewrite OWN. pose proof (r_msg s I u r0 d0 X) as Y. destruct (Nat.eqb_spec (rq_to r0) q) as [E|_]; [|exact Y].
      rewrite E, OQ in Y. cbn in Y. rewrite !in_app_iff in *. cbn. tauto.
    + intros q0. rewrite OWN. destruct (Nat.eqb q0 q); [|apply (r_once s I)].
      pose proof (r_once s I q) as N. rewrite OQ in N. rewrite app_assoc.
      pose proof (Add_app t (map (fun x : rq * (nat * nat) => fst (snd x)) rest ++ map (fun x : nat * (nat * nat) => fst (snd x)) (rs_rep s q)) []) as AD.
      rewrite app_nil_r in AD. apply (NoDup_Add AD).
      apply NoDup_cons_iff in N. tauto.
    + exact (r_mut s I).
    + exact (r_prog s I).
    + exact (r_ok s I).
    + exact (r_idle s I).
  - (* return *)
    destruct (r_todo (rs_thr s t)) as [|r todo] eqn:TD; [discriminate H|].
    destruct (r_wait (rs_thr s t)) eqn:W; [|discriminate H].
    destruct (take_tag (rt_recv tg (rq_level r) (rq_kind r)) (rs_rep s (rq_to r))) as [[[t' d'] rest]|] eqn:TK; [|discriminate H].
    injection H as <-. set (d := r_done (rs_thr s t)).
    assert (WME : waits s t r d) by (repeat split; [exact W|exists todo; exact TD]).
    apply take_tag_split in TK. destruct TK as (ra & tag & rb & RP & -> & TAG).
    assert (IN : In (tag, (t', d')) (rs_rep s (rq_to r))) by (rewrite RP; apply in_or_app; right; left; reflexivity).
    destruct (r_rep s I _ _ _ _ IN) as (r' & ok & WT' & TO & TE).
    assert (IP : forall u r0 d0, waits s u r0 d0 -> In r0 (prog u)).
    { intros u r0 d0 (_ & _ & y & Y). destruct (r_prog s I u) as (b & B & _). rewrite B, Y. apply in_or_app. right. left. reflexivity. }
    assert (ME : t' = t).
    { destruct (Nat.eq_dec t' t) as [E|N]; [exact E|exfalso].
      apply (NS t t' r r' ok); auto; [exact (IP _ _ _ WME)|exact (IP _ _ _ WT')| |rewrite <- TE; exact TAG].
      intros (SL & SK). apply N.
      assert (A : rs_mutex s (rq_level r) (rq_kind r) = Some t) by (apply (r_mut s I); exists r, d; auto).
      assert (B : rs_mutex s (rq_level r) (rq_kind r) = Some t') by (apply (r_mut s I); exists r', d'; auto).
      congruence. }
    subst t'. destruct (waits_fun _ _ _ _ _ _ WT' WME) as (-> & ->).
    set (x' := RThr todo false (S d) (r_got (rs_thr s t) ++ [(t, d)])).
    set (s' := RSt (upd (rs_thr s) t x') (set_mutex (rs_mutex s) (rq_level r) (rq_kind r) None) (rs_req s) (upd (rs_rep s) (rq_to r) (ra ++ rb))).
    assert (WT : forall u r0 d0, waits s' u r0 d0 <-> u <> t /\ waits s u r0 d0).
    { intros u r0 d0. unfold waits, s'. cbn [rs_thr]. destruct (upd_cases (rs_thr s) t x' u) as [(-> & ->)|(N & ->)]; [|tauto].
      cbn. split; [intros (X & _); discriminate X|tauto]. }
    pose proof (r_once s I (rq_to r)) as ND.
    assert (OQ : owners s (rq_to r) = map (fun x => fst (snd x)) (rs_req s (rq_to r)) ++ map (fun x => fst (snd x)) ra ++ t :: map (fun x => fst (snd x)) rb).
    { unfold owners. rewrite RP, map_app. reflexivity. }
    assert (OWN : forall q, owners s' q = if q =? rq_to r then map (fun x => fst (snd x)) (rs_req s (rq_to r)) ++ map (fun x => fst (snd x)) ra ++ map (fun x => fst (snd x)) rb else owners s q).
    { intros q. unfold owners, s'. cbn [rs_req rs_rep]. unfold upd. destruct (Nat.eqb_spec q (rq_to r)) as [->|]; [|reflexivity]. rewrite map_app. reflexivity. }
    rewrite OQ, app_assoc in ND. destruct (NoDup_remove _ _ _ ND) as (ND' & NI'). rewrite <- app_assoc in ND', NI'.
    assert (NT : forall q, ~ In t (owners s' q)).
    { intros q. rewrite OWN. destruct (Nat.eqb_spec q (rq_to r)) as [->|N]; [exact NI'|].
      intros X. apply in_app_or in X. destruct X as [X|X]; apply in_map_iff in X.
      - destruct X as ((r0 & (u & d0)) & E & X). cbn in E. subst u. destruct (r_req s I _ _ _ _ X) as (Y & Z).
        destruct (waits_fun _ _ _ _ _ _ Y WME) as (-> & _). congruence.
      - destruct X as ((tg0 & (u & d0)) & E & X). cbn in E. subst u. destruct (r_rep s I _ _ _ _ X) as (r0 & o & Y & Z & _).
        destruct (waits_fun _ _ _ _ _ _ Y WME) as (-> & _). congruence. }
    constructor.
    + intros q r0 u d0 X. rewrite WT. assert (u <> t).
      { intros ->. apply (NT q). exact (in_owner_req s' q _ X). }
      destruct (r_req s I q r0 u d0 X). tauto.
    + intros q tg0 u d0 X. assert (NE : u <> t).
      { intros ->. apply (NT q). exact (in_owner_rep s' q _ X). }
      assert (X' : In (tg0, (u, d0)) (rs_rep s q)).
      { unfold s' in X. cbn [rs_rep] in X. destruct (upd_cases (rs_rep s) (rq_to r) (ra ++ rb) q) as [(-> & E)|(_ & E)]; rewrite E in X; [|exact X].
        rewrite RP. apply in_app_or in X. apply in_or_app. destruct X as [X|X]; [left; exact X|right; right; exact X]. }
      destruct (r_rep s I _ _ _ _ X') as (r0 & o & Y & Z). exists r0, o. rewrite WT. tauto.
    + intros u r0 d0. rewrite WT, OWN. intros (NE & X). pose proof (r_msg s I _ _ _ X) as Y.
      destruct (Nat.eqb_spec (rq_to r0) (rq_to r)) as [E|_]; [|exact Y]. rewrite E, OQ in Y.
      rewrite !in_app_iff in *. cbn in Y. destruct Y as [Y|[Y|[Y|Y]]]; try tauto. congruence.
    + intros q. rewrite OWN. destruct (Nat.eqb q (rq_to r)); [exact ND'|apply (r_once s I)].
    + intros l k u. unfold s' at 1. cbn [rs_mutex]. split.
      * destruct (set_mutex_cases (rs_mutex s) (rq_level r) (rq_kind r) None l k) as [(_ & _ & ->)|(N & ->)]; [discriminate|].
        intros X. pose proof X as X0. apply (r_mut s I) in X. destruct X as (r0 & d0 & Y & Z1 & Z2). exists r0, d0. rewrite WT.
        split; [|auto]. split; [|exact Y]. intros ->. destruct (waits_fun _ _ _ _ _ _ Y WME) as (-> & _). apply N. auto.
      * intros (r0 & d0 & Y & <- & <-). rewrite WT in Y. destruct Y as (NE & Y).
        assert (Z : rs_mutex s (rq_level r0) (rq_kind r0) = Some u) by (apply (r_mut s I); exists r0, d0; auto).
        destruct (set_mutex_cases (rs_mutex s) (rq_level r) (rq_kind r) None (rq_level r0) (rq_kind r0)) as [(E & F & _)|(_ & ->)]; [|exact Z].
        exfalso. rewrite E, F in Z. assert (A : rs_mutex s (rq_level r) (rq_kind r) = Some t) by (apply (r_mut s I); exists r, d; auto). congruence.
    + intros u. unfold s'. cbn [rs_thr]. destruct (upd_cases (rs_thr s) t x' u) as [(-> & ->)|(_ & ->)]; [|apply (r_prog s I)].
      cbn. destruct (r_prog s I t) as (b & B & L). exists (b ++ [r]). rewrite <- app_assoc. cbn. rewrite TD in B. split; [exact B|].
      rewrite app_length. cbn. fold d in L. lia.
    + intros u. unfold s'. cbn [rs_thr]. destruct (upd_cases (rs_thr s) t x' u) as [(-> & ->)|(_ & ->)]; [|apply (r_ok s I)].
      cbn [r_got r_done x']. rewrite (r_ok s I t). unfold own_replies. rewrite seq_S, map_app. reflexivity.
    + intros u. unfold s'. cbn [rs_thr]. destruct (upd_cases (rs_thr s) t x' u) as [(-> & ->)|(_ & ->)]; [|apply (r_idle s I)].
      reflexivity.
Qed.

Lemma rinv_reachable s : no_steal tg prog -> rreachable tg prog s -> rinv s.
Proof.
  intros NS [l H]. revert s H. induction l as [|a l IH] using rev_ind; intros s H.
  - cbn in H. injection H as <-. apply rinv_init.
  - rewrite rrun_app in H. destruct (rrun tg (rinit prog) l) as [s0|]; [|discriminate H].
    cbn in H. destruct (rstep tg s0 a) as [s1|] eqn:E; [|discriminate H]. injection H as <-.
    eapply rinv_step; eauto.
Qed.

(** Every thread gets the replies to its own requests, in order. *)
Lemma replies_right s t : no_steal tg prog -> rreachable tg prog s ->
  r_got (rs_thr s t) = own_replies t (r_done (rs_thr s t)).
Proof. intros NS R. apply (r_ok s (rinv_reachable s NS R)). Qed.

(** A waiting thread gets its reply if the communication thread works on. *)
Lemma serve_all s t r d : no_steal tg prog -> answered tg prog -> rinv s -> waits s t r d ->
  exists l s', rrun tg s l = Some s' /\ rinv s' /\
    r_todo (rs_thr s t) = r :: r_todo (rs_thr s' t) /\
    forall u, u <> t -> rs_thr s' u = rs_thr s u.
Proof.
  intros NS AN. remember (length (rs_req s (rq_to r))) as n eqn:LN. revert s LN.
  induction n as [n IH] using (well_founded_induction Wf_nat.lt_wf). intros s LN I WT.
  pose proof (r_msg s I _ _ _ WT) as IN. apply in_app_or in IN. destruct IN as [IN|IN].
  - (* still a request: the server works *)
    destruct (rs_req s (rq_to r)) as [|[r0 id] rest] eqn:RQ; [contradiction|].
    assert (ST : exists s1, rstep tg s (RServe (rq_to r) true) = Some s1 /\ rs_req s1 (rq_to r) = rest /\ rs_thr s1 = rs_thr s).
    { eexists. cbn [rstep]. rewrite RQ. split; [reflexivity|]. cbn. rewrite upd_eq. auto. }
    destruct ST as (s1 & ST & R1 & T1).
    assert (I1 : rinv s1) by (eapply rinv_step; eauto).
    cbn in LN. destruct (IH (length rest)) with (s := s1) as (l & s' & RR & I' & TD & OT); auto; try lia.
    { rewrite R1. reflexivity. }
    { unfold waits. rewrite T1. exact WT. }
    exists (RServe (rq_to r) true :: l), s'. rewrite T1 in TD, OT. split; [cbn [rrun]; rewrite ST; exact RR|auto].
  - (* the reply is there *)
    apply in_map_iff in IN. destruct IN as ((tag & (u & d0)) & E & IN). cbn in E. subst u.
    destruct (r_rep s I _ _ _ _ IN) as (r0 & ok & WT0 & _ & TE). destruct (waits_fun _ _ _ _ _ _ WT0 WT) as (-> & ->).
    destruct WT as (W & D & todo & TD).
    assert (IP : In r (prog t)).
    { destruct (r_prog s I t) as (b & B & _). rewrite B, TD. apply in_or_app. right. left. reflexivity. }
    pose proof (take_tag_some (rt_recv tg (rq_level r) (rq_kind r)) _ _ _ IN) as TK.
    rewrite TE in TK at 1. specialize (TK (AN t r ok IP)).
    destruct (take_tag (rt_recv tg (rq_level r) (rq_kind r)) (rs_rep s (rq_to r))) as [[id rest]|] eqn:TT; [|contradiction].
    assert (ST : exists s1, rstep tg s (RReturn t) = Some s1 /\ r_todo (rs_thr s1 t) = todo /\ (forall u, u <> t -> rs_thr s1 u = rs_thr s u)).
    { eexists. cbn [rstep]. rewrite TD, W, TT. split; [reflexivity|]. cbn. split; [rewrite upd_eq; reflexivity|].
      intros u N. apply upd_ne. exact N. }
    destruct ST as (s1 & ST & T1 & OT). exists [RReturn t], s1. cbn [rrun]. rewrite ST. split; [reflexivity|].
    split; [eapply rinv_step; eauto|]. rewrite T1. auto.
Qed.

(** From every reachable state, all requests of a thread can be completed: nothing hangs. *)
Lemma thread_completes s t : no_steal tg prog -> answered tg prog -> rinv s ->
  exists l s', rrun tg s l = Some s' /\ rinv s' /\ r_todo (rs_thr s' t) = [].
Proof.
  intros NS AN. remember (length (r_todo (rs_thr s t))) as n eqn:LN. revert s LN. induction n as [|n IH]; intros s LN I.
  - exists [], s. split; [reflexivity|]. split; [exact I|]. destruct (r_todo (rs_thr s t)); [reflexivity|discriminate LN].
  - destruct (r_todo (rs_thr s t)) as [|r todo] eqn:TD; [discriminate LN|]. cbn in LN. injection LN as LN.
    assert (GO : exists l s1, rrun tg s l = Some s1 /\ rinv s1 /\ r_todo (rs_thr s1 t) = r :: todo /\ r_wait (rs_thr s1 t) = true).
    { destruct (r_wait (rs_thr s t)) eqn:W; [exists [], s; auto|].
      (* get the mutex: its owner, if any, completes first *)
      assert (FREE : exists l s1, rrun tg s l = Some s1 /\ rinv s1 /\ rs_thr s1 t = rs_thr s t /\ rs_mutex s1 (rq_level r) (rq_kind r) = None).
      { destruct (rs_mutex s (rq_level r) (rq_kind r)) as [u|] eqn:M; [|exists [], s; auto].
        apply (r_mut s I) in M. destruct M as (r0 & d0 & WU & EL & EK).
        assert (UT : u <> t) by (intros ->; destruct WU as (X & _); congruence).
        (* run until just after the owner has returned *)
        assert (SV : exists l s1, rrun tg s l = Some s1 /\ rinv s1 /\ (forall v, v <> u -> rs_thr s1 v = rs_thr s v) /\
                     r_wait (rs_thr s1 u) = false).
        { clear - NS AN I WU. remember (length (rs_req s (rq_to r0))) as n eqn:LN. revert s LN I WU.
          induction n as [n IH] using (well_founded_induction Wf_nat.lt_wf). intros s LN I WT.
          pose proof (r_msg s I _ _ _ WT) as IN. apply in_app_or in IN. destruct IN as [IN|IN].
          - destruct (rs_req s (rq_to r0)) as [|[r1 id] rest] eqn:RQ; [contradiction|].
            assert (ST : exists s1, rstep tg s (RServe (rq_to r0) true) = Some s1 /\ rs_req s1 (rq_to r0) = rest /\ rs_thr s1 = rs_thr s).
            { eexists. cbn [rstep]. rewrite RQ. split; [reflexivity|]. cbn. rewrite upd_eq. auto. }
            destruct ST as (s1 & ST & R1 & T1).
            assert (I1 : rinv s1) by (eapply rinv_step; eauto).
            cbn in LN. destruct (IH (length rest)) with (s := s1) as (l & s' & RR & I' & OT & F); auto; try lia.
            { rewrite R1. reflexivity. }
            { unfold waits. rewrite T1. exact WT. }
            exists (RServe (rq_to r0) true :: l), s'. rewrite T1 in OT. split; [cbn [rrun]; rewrite ST; exact RR|auto].
          - apply in_map_iff in IN. destruct IN as ((tag & (u' & d1)) & E & IN). cbn in E. subst u'.
            destruct (r_rep s I _ _ _ _ IN) as (r1 & ok & WT0 & _ & TE). destruct (waits_fun _ _ _ _ _ _ WT0 WT) as (-> & ->).
            destruct WT as (W & D & todo & TD).
            assert (IP : In r0 (prog u)).
            { destruct (r_prog s I u) as (b & B & _). rewrite B, TD. apply in_or_app. right. left. reflexivity. }
            pose proof (take_tag_some (rt_recv tg (rq_level r0) (rq_kind r0)) _ _ _ IN) as TK.
            rewrite TE in TK at 1. specialize (TK (AN u r0 ok IP)).
            destruct (take_tag (rt_recv tg (rq_level r0) (rq_kind r0)) (rs_rep s (rq_to r0))) as [[id rest]|] eqn:TT; [|contradiction].
            assert (ST : exists s1, rstep tg s (RReturn u) = Some s1 /\ r_wait (rs_thr s1 u) = false /\ (forall v, v <> u -> rs_thr s1 v = rs_thr s v)).
            { eexists. cbn [rstep]. rewrite TD, W, TT. split; [reflexivity|]. cbn. split; [rewrite upd_eq; reflexivity|].
              intros v N. apply upd_ne. exact N. }
            destruct ST as (s1 & ST & T1 & OT). exists [RReturn u], s1. cbn [rrun]. rewrite ST. split; [reflexivity|].
            split; [eapply rinv_step; eauto|auto]. }
        destruct SV as (l & s1 & RR & I1 & OT & F). exists l, s1. split; [exact RR|]. split; [exact I1|]. split; [apply OT; auto|].
        destruct (rs_mutex s1 (rq_level r) (rq_kind r)) as [v|] eqn:M1; [|reflexivity]. exfalso.
        apply (r_mut s1 I1) in M1. destruct M1 as (r1 & d1 & WV & EL1 & EK1).
        destruct (Nat.eq_dec v u) as [->|NV]; [destruct WV as (X & _); congruence|].
        assert (WV0 : waits s v r1 d1) by (unfold waits in *; rewrite (OT v NV) in WV; exact WV).
        assert (A : rs_mutex s (rq_level r) (rq_kind r) = Some v) by (apply (r_mut s I); exists r1, d1; auto).
        assert (B : rs_mutex s (rq_level r) (rq_kind r) = Some u) by (apply (r_mut s I); exists r0, d0; auto).
        congruence. }
      destruct FREE as (l & s1 & RR & I1 & T1 & M1).
      assert (ST : exists s2, rstep tg s1 (RCall t) = Some s2 /\ r_todo (rs_thr s2 t) = r :: todo /\ r_wait (rs_thr s2 t) = true).
      { eexists. cbn [rstep]. rewrite T1, TD, W, M1. split; [reflexivity|]. cbn. rewrite upd_eq. auto. }
      destruct ST as (s2 & ST & T2 & W2). exists (l ++ [RCall t]), s2. rewrite rrun_app, RR. cbn [rrun]. rewrite ST.
      split; [reflexivity|]. split; [eapply rinv_step; eauto|auto]. }
    destruct GO as (l1 & s1 & R1 & I1 & T1 & W1).
    destruct (serve_all s1 t r (r_done (rs_thr s1 t)) NS AN I1) as (l2 & s2 & R2 & I2 & T2 & _).
    { repeat split; [exact W1|exists todo; exact T1]. }
    rewrite T1 in T2. injection T2 as T2.
    destruct (IH s2) as (l3 & s3 & R3 & I3 & T3); [congruence|exact I2|].
    exists (l1 ++ l2 ++ l3), s3. rewrite rrun_app, R1, rrun_app, R2. auto.
Qed.
Lemma completes s t : no_steal tg prog -> answered tg prog -> rreachable tg prog s ->
  exists l s', rrun tg s l = Some s' /\ r_todo (rs_thr s' t) = [].
Proof.
  intros NS AN R. destruct (thread_completes s t NS AN (rinv_reachable s NS R)) as (l & s' & A & _ & B). eauto.
Qed.
End Inv.

(** ** The code *)
Lemma cache_tags prog : (forall t r, In r (prog t) -> rq_kind r <> RFull /\ (rq_kind r = RInfo -> rq_level r = 0)) ->
  no_steal code_tags prog /\ answered code_tags prog.
Proof.
  intros L. split.
  - intros t t' r r' ok _ A B _ NX. destruct (L t r A) as (K1 & L1). destruct (L t' r' B) as (K2 & L2).
    destruct r as [l k q], r' as [l' k' q']. cbn [rq_kind rq_level rq_to] in *.
    destruct k, k'; try contradiction; cbn [rt_send rt_recv code_tags].
    + exfalso. apply NX. rewrite (L1 eq_refl), (L2 eq_refl). split; reflexivity.
    + rewrite ?(L1 eq_refl), ?(L2 eq_refl). destruct ok; unfold tag_offset, TRANSFER_TAG, TRANSFER_FAIL_TAG, ENTRY_TAG; cbn [In]; lia.
    + rewrite ?(L1 eq_refl), ?(L2 eq_refl). destruct ok; unfold tag_offset, TRANSFER_TAG, TRANSFER_FAIL_TAG, ENTRY_TAG; cbn [In]; lia.
    + assert (l <> l') by (intros ->; apply NX; split; reflexivity).
      destruct ok; unfold tag_offset, TRANSFER_TAG, TRANSFER_FAIL_TAG; cbn [In]; lia.
  - intros t r ok A. destruct (L t r A) as (K1 & L1). destruct r as [l k q]. cbn [rq_kind rq_level rq_to] in *.
    destruct k; try contradiction; cbn [rt_send rt_recv code_tags]; [rewrite (L1 eq_refl); left; reflexivity|destruct ok; cbn; tauto].
Qed.
Lemma full_one_level prog : (forall t r, In r (prog t) -> rq_kind r = RFull) ->
  (forall t t' r r', t <> t' -> In r (prog t) -> In r' (prog t') -> rq_to r = rq_to r' -> rq_level r = rq_level r') ->
  no_steal code_tags prog /\ answered code_tags prog.
Proof.
  intros K L. split.
  - intros t t' r r' ok N A B Q NX. exfalso. apply NX. split; [exact (L t t' r r' N A B Q)|].
    rewrite (K t r A), (K t' r' B). reflexivity.
  - intros t r ok A. rewrite (K t r A). cbn. left. reflexivity.
Qed.
Lemma repaired_all prog : (forall t r, In r (prog t) -> rq_kind r = RFull) \/ (forall t r, In r (prog t) -> rq_kind r <> RFull) ->
  no_steal repaired_tags prog /\ answered repaired_tags prog.
Proof.
  intros K. split.
  - intros t t' r r' ok _ A B _ NX. destruct r as [l k q], r' as [l' k' q']. cbn in *.
    assert (KK : (k = RFull /\ k' = RFull) \/ (k <> RFull /\ k' <> RFull)).
    { destruct K as [K|K]; [left|right]; split; [exact (K _ _ A)|exact (K _ _ B)|exact (K _ _ A)|exact (K _ _ B)]. }
    assert (LK : ~ (l = l' /\ k = k')) by exact NX. unfold tag_offset, ENTRY_TAG, TRANSFER_TAG, TRANSFER_FAIL_TAG.
    destruct KK as [(-> & ->)|(K1 & K2)].
    + cbn [In]. intros [E|[]]. apply LK. split; [lia|reflexivity].
    + destruct k; try contradiction; destruct k'; try contradiction; try destruct ok; cbn [In]; intros X;
        (assert (l = l' \/ l <> l') as [->|NE] by (destruct (Nat.eq_dec l l'); auto); [try (apply LK; split; reflexivity)|]); lia.
  - intros t r ok A. destruct r as [l k q]. unfold repaired_tags, tag_offset, ENTRY_TAG, TRANSFER_TAG, TRANSFER_FAIL_TAG. cbn.
    destruct k; cbn; try destruct ok; lia.
Qed.

(** A dictionary request on a level other than the first is never answered. *)
Lemma info_hangs prog t level q s : level > 0 -> prog t = [Rq level RInfo q] -> (forall u, u <> t -> prog u = []) ->
  rreachable code_tags prog s -> r_done (rs_thr s t) = 0 /\ r_todo (rs_thr s t) = [Rq level RInfo q].
Proof.
  intros LV PT PO [l H].
  set (J := fun s => (r_done (rs_thr s t) = 0 /\ r_todo (rs_thr s t) = [Rq level RInfo q]) /\
    (forall u, u <> t -> r_todo (rs_thr s u) = []) /\
    (forall p x, In x (rs_req s p) -> fst x = Rq level RInfo q) /\
    (forall p x, In x (rs_rep s p) -> fst x = 3 * level)).
  assert (JS : J s); [|exact (proj1 JS)].
  revert s H. induction l as [|a l IH] using rev_ind; intros s H.
  - cbn in H. injection H as <-. unfold J. cbn. repeat split; try contradiction; try reflexivity; [exact PT|exact PO].
  - rewrite rrun_app in H. destruct (rrun code_tags (rinit prog) l) as [s0|]; [|discriminate H].
    cbn [rrun] in H. destruct (rstep code_tags s0 a) as [s1|] eqn:E; [|discriminate H]. injection H as <-.
    destruct (IH s0 eq_refl) as ((D & T) & O & RQ & RP). clear IH.
    assert (TT : forall u r todo, r_todo (rs_thr s0 u) = r :: todo -> u = t /\ r = Rq level RInfo q /\ todo = []).
    { intros u r todo U. destruct (Nat.eq_dec u t) as [->|N]; [rewrite T in U; injection U as <- <-; auto|].
      rewrite (O u N) in U. discriminate U. }
    destruct a as [u|p ok|u]; cbn [rstep] in E.
    + destruct (r_todo (rs_thr s0 u)) as [|r todo] eqn:TD; [discriminate E|].
      destruct (TT _ _ _ TD) as (-> & -> & ->). destruct (r_wait (rs_thr s0 t)); [discriminate E|].
      destruct (rs_mutex s0 _ _); [discriminate E|]. injection E as <-. unfold J. cbn [rs_thr rs_req rs_rep].
      rewrite upd_eq. cbn [r_done r_todo]. split; [auto|]. split; [intros v N; rewrite upd_ne by exact N; auto|]. split; [|exact RP].
      intros p x. cbn [rq_to]. destruct (upd_cases (rs_req s0) q (rs_req s0 q ++ [(Rq level RInfo q, (t, r_done (rs_thr s0 t)))]) p) as [(-> & ->)|(_ & ->)]; [|apply RQ].
      intros X. apply in_app_or in X. destruct X as [X|[<-|[]]]; [exact (RQ _ _ X)|reflexivity].
    + destruct (rs_req s0 p) as [|[r id] rest] eqn:RE; [discriminate E|]. injection E as <-.
      assert (ER : r = Rq level RInfo q) by (apply (RQ p (r, id)); rewrite RE; left; reflexivity). subst r.
      unfold J. cbn [rs_thr rs_req rs_rep]. split; [auto|]. split; [exact O|]. split.
      * intros p0 x. destruct (upd_cases (rs_req s0) p rest p0) as [(-> & ->)|(_ & ->)]; [|apply RQ].
        intros X. apply (RQ p). rewrite RE. right. exact X.
      * intros p0 x. match goal with |- In _ (upd _ _ ?v _) -> _ => destruct (upd_cases (rs_rep s0) p v p0) as [(-> & ->)|(_ & ->)] end; [|apply RP].
        intros X. apply in_app_or in X. destruct X as [X|[<-|[]]]; [exact (RP _ _ X)|]. cbn. unfold tag_offset, ENTRY_TAG. lia.
    + destruct (r_todo (rs_thr s0 u)) as [|r todo] eqn:TD; [discriminate E|].
      destruct (TT _ _ _ TD) as (-> & -> & ->). destruct (r_wait (rs_thr s0 t)); [|discriminate E].
      cbn [rq_level rq_kind rq_to] in E.
      destruct (take_tag (rt_recv code_tags level RInfo) (rs_rep s0 q)) as [[id rest]|] eqn:TK; [|discriminate E]. exfalso.
      apply take_tag_split in TK. destruct TK as (a & tag & b & EQ & _ & IN).
      assert (X : fst (tag, id) = 3 * level) by (apply (RP q); rewrite EQ; apply in_or_app; right; left; reflexivity).
      cbn in X, IN. unfold ENTRY_TAG in IN. lia.
Qed.
