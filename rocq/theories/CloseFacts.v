(** * Facts about closing grids *)
From Verif Require Import CloseModel.

Lemma upd_eq {A} (f : nat -> A) i a : upd f i a i = a.
Proof. unfold upd. now rewrite Nat.eqb_refl. Qed.
Lemma upd_ne {A} (f : nat -> A) i j a : j <> i -> upd f i a j = f j.
Proof. unfold upd. intros H. apply Nat.eqb_neq in H. now rewrite H. Qed.

Fixpoint qsum (f : nat -> nat) (k : nat) : nat := match k with 0 => 0 | S k' => qsum f k' + f k' end.
Lemma qsum_ext f g k : (forall i, i < k -> f i = g i) -> qsum f k = qsum g k.
Proof. induction k; cbn; auto. intros H. rewrite IHk, H by auto. reflexivity. Qed.
Lemma qsum_upd f g k t : t < k -> (forall i, i < k -> i <> t -> f i = g i) -> qsum f k + g t = qsum g k + f t.
Proof.
  induction k; [lia|]. intros L E. cbn. destruct (Nat.eq_dec t k) as [->|N].
  - rewrite (qsum_ext f g k) by (intros; apply E; lia). lia.
  - rewrite (E k) by lia. assert (t < k) by lia. specialize (IHk H (fun i Hi => E i (Nat.lt_lt_succ_r _ _ Hi))). lia.
Qed.
Lemma qsum_le f k i : i < k -> f i <= qsum f k.
Proof. induction k; [lia|]. intros L. cbn. destruct (Nat.eq_dec i k) as [->|N]; [lia|]. specialize (IHk ltac:(lia)). lia. Qed.
Lemma qsum_zero f k : (forall i, i < k -> f i = 0) -> qsum f k = 0.
Proof. induction k; cbn; auto. intros H. rewrite IHk, H by auto. reflexivity. Qed.

(** ** Specification: what is accessed after a reply, or without one, is freed after unregistering. *)
Definition ordered (pr : proto) : Prop :=
  forall pre r post, p_close pr = pre ++ CFree r :: post -> forall k,
  In r (p_after pr k) \/ (p_oneway pr k = true /\ In r (p_before pr k)) -> In (CUnreg k) pre.

Section Facts.
Variables (P U : nat) (pr : proto).
Hypothesis ord : ordered pr.
Hypothesis once : NoDup (p_close pr).

Local Notation step := (cstep P U pr).
Local Notation run := (crun P U pr).

Definition is_req (p u : nat) (m : cmsg) : nat :=
  if negb (p_oneway pr (cm_kind m)) && (cm_src m =? p) && (cm_thr m =? u) then 1 else 0.
Fixpoint cnt (l : list cmsg) (p u : nat) : nat := match l with [] => 0 | m :: l' => is_req p u m + cnt l' p u end.
Definition hold (c : ccom) (p u : nat) : nat := match c with QFind m | QBefore m => is_req p u m | _ => 0 end.
Definition waits (x : user) : nat := match x with UWait => 1 | _ => 0 end.

Lemma cnt_app l1 l2 p u : cnt (l1 ++ l2) p u = cnt l1 p u + cnt l2 p u.
Proof. induction l1; cbn; auto. rewrite IHl1. lia. Qed.
Lemma cnt_remove l : forall i m p u, nth_error l i = Some m -> cnt l p u = is_req p u m + cnt (remove_nth i l) p u.
Proof.
  induction l as [|a l IH]; intros [|i] m p u; cbn; try discriminate.
  - intros [= ->]. reflexivity.
  - intros H. rewrite (IH i m p u H). lia.
Qed.
Lemma in_remove {A} (l : list A) : forall i x, In x (remove_nth i l) -> In x l.
Proof. induction l as [|a l IH]; intros [|i] x; cbn; auto. intros [->|H]; auto. right. eapply IH, H. Qed.
Lemma length_remove {A} (l : list A) : forall i m, nth_error l i = Some m -> length l = S (length (remove_nth i l)).
Proof. induction l as [|a l IH]; intros [|i] m; cbn; try discriminate; auto. intros H. f_equal. eapply IH, H. Qed.

Definition gone (x : cproc) (k : nat) : Prop :=
  (c_map x k = false \/ c_com x = QErase k) /\ forall m, cm_kind m = k -> c_com x <> QBefore m /\ c_com x <> QAfter m.
Definition phase_ok (x : cproc) : Prop :=
  match c_phase x with
  | PClose todo w =>
      exists pre, p_close pr = pre ++ todo /\ (forall r, c_freed x r = true <-> In (CFree r) pre) /\
        (forall k, In (CUnreg k) pre -> gone x k) /\
        (w = WMatched -> forall k t, todo = CUnreg k :: t -> gone x k) /\
        (w <> WNone -> exists k t, todo = CUnreg k :: t)
  | _ => (forall r, c_freed x r = false) /\ (forall k, c_map x k = true) /\ (forall k, c_com x <> QErase k)
  end.
Definition lock_ok (x : cproc) : Prop :=
  c_lock x = true -> (exists todo, c_phase x = PClose todo WSent) \/ exists k, c_com x = QErase k.
Definition msg_ok (m : cmsg) : Prop := cm_src m < P /\ cm_thr m < U /\ cm_dst m < P.
Definition com_ok (c : ccom) : Prop := match c with QFind m | QBefore m => msg_ok m | _ => True end.
Definition closing (x : cproc) : Prop := exists todo w, c_phase x = PClose todo w.

Record cinv (s : cst) : Prop := {
  i_phase : forall p, phase_ok (cs_proc s p);
  i_lock : forall p, lock_ok (cs_proc s p);
  i_user : forall p u, c_phase (cs_proc s p) <> PUse -> u < U -> c_user (cs_proc s p) u = UFree;
  i_all : forall p, closing (cs_proc s p) -> forall q, q < P -> c_phase (cs_proc s q) <> PUse;
  i_net : forall m, In m (cs_net s) -> msg_ok m;
  i_com : forall p, com_ok (c_com (cs_proc s p));
  i_out : forall p, P <= p -> c_phase (cs_proc s p) = PUse /\ c_com (cs_proc s p) = QIdle;
  i_cnt : forall p u, cnt (cs_net s) p u + qsum (fun q => hold (c_com (cs_proc s q)) p u) P = waits (c_user (cs_proc s p) u)
}.

Lemma init_inv : cinv cinit.
Proof.
  constructor; cbn; intros; try tauto.
  - unfold phase_ok. cbn. split; [auto|]. split; [auto|discriminate].
  - unfold lock_ok. cbn. discriminate.
  - destruct H as (todo & w & E). cbn in E. discriminate.
  - apply qsum_zero. reflexivity.
Qed.

(** A step which changes neither threads nor requests. *)
Lemma inv_set s p x : cinv s ->
  phase_ok x -> lock_ok x -> c_user x = c_user (cs_proc s p) ->
  (c_phase (cs_proc s p) = PUse -> c_phase x = PUse) -> (c_phase x = PUse -> c_phase (cs_proc s p) = PUse) ->
  (closing x -> forall q, q < P -> c_phase (cs_proc s q) <> PUse) ->
  com_ok (c_com x) -> (P <= p -> c_com x = QIdle) ->
  (forall a u, hold (c_com x) a u = hold (c_com (cs_proc s p)) a u) ->
  cinv (set_proc s p x).
Proof.
  intros I A B C D D' E F G H. constructor; cbn [set_proc cs_proc cs_net].
  - intros q. destruct (Nat.eq_dec q p) as [->|N]; [rewrite upd_eq; exact A|rewrite upd_ne by exact N; apply (i_phase s I)].
  - intros q. destruct (Nat.eq_dec q p) as [->|N]; [rewrite upd_eq; exact B|rewrite upd_ne by exact N; apply (i_lock s I)].
  - intros q u. destruct (Nat.eq_dec q p) as [->|N]; [rewrite upd_eq|rewrite upd_ne by exact N; apply (i_user s I)].
    intros X. rewrite C. apply (i_user s I). tauto.
  - assert (Z : forall q, q < P -> c_phase (cs_proc s q) <> PUse -> c_phase (upd (cs_proc s) p x q) <> PUse).
    { intros q L X. destruct (Nat.eq_dec q p) as [->|N]; [rewrite upd_eq; tauto|rewrite upd_ne by exact N; exact X]. }
    intros q. destruct (Nat.eq_dec q p) as [->|N]; [rewrite upd_eq|rewrite upd_ne by exact N]; intros X r L; apply Z; auto.
    exact (i_all s I q X r L).
  - apply (i_net s I).
  - intros q. destruct (Nat.eq_dec q p) as [->|N]; [rewrite upd_eq; exact F|rewrite upd_ne by exact N; apply (i_com s I)].
  - intros q L. destruct (Nat.eq_dec q p) as [->|N]; [rewrite upd_eq|rewrite upd_ne by exact N; apply (i_out s I), L].
    split; [apply D, (i_out s I), L|apply G, L].
  - intros a u.
    replace (qsum (fun q => hold (c_com (upd (cs_proc s) p x q)) a u) P) with (qsum (fun q => hold (c_com (cs_proc s q)) a u) P).
    + rewrite (i_cnt s I a u). destruct (Nat.eq_dec a p) as [->|N]; [rewrite upd_eq, C|rewrite upd_ne by exact N]; reflexivity.
    + apply qsum_ext. intros q _. destruct (Nat.eq_dec q p) as [->|N]; [rewrite upd_eq, H|rewrite upd_ne by exact N]; reflexivity.
Qed.

(** A step of the communication thread which is not about unregistering keeps the rest. *)
Lemma phase_com x c : phase_ok x -> (forall k, c <> QErase k) -> (forall k, c_com x <> QErase k) ->
  (forall m, c = QBefore m \/ c = QAfter m -> c_com x = QBefore m \/ c_com x = QAfter m \/ c_map x (cm_kind m) = true) ->
  phase_ok (CProc (c_phase x) (c_user x) c (c_map x) (c_freed x) (c_lock x)).
Proof.
  unfold phase_ok. cbn [c_phase c_freed c_map c_com]. intros H A A' B.
  assert (G : forall k, gone x k -> gone (CProc (c_phase x) (c_user x) c (c_map x) (c_freed x) (c_lock x)) k).
  { intros k (X & Y). assert (X' : c_map x k = false) by (destruct X as [X|X]; [exact X|destruct (A' _ X)]).
    split; cbn; [left; exact X'|]. intros m E. destruct (Y m E) as (Y1 & Y2). 
    split; intros Z; (destruct (B m) as [Q|[Q|Q]]; [auto|auto|auto|]); try tauto; rewrite E in Q; congruence. }
  destruct (c_phase x) as [| |todo w].
  - destruct H as (F & M & _). auto.
  - destruct H as (F & M & _). auto.
  - destruct H as (pre & E & F & J & K & L). exists pre. split; [exact E|]. split; [exact F|]. split; [intros k Hk; apply G, J, Hk|].
    split; [intros W k t Et; apply G; exact (K W k t Et)|exact L].
Qed.
Lemma lock_com x c : lock_ok x -> (forall k, c_com x <> QErase k) ->
  lock_ok (CProc (c_phase x) (c_user x) c (c_map x) (c_freed x) (c_lock x)).
Proof. unfold lock_ok. cbn. intros H A L. destruct (H L) as [X|(k & X)]; [left; exact X|destruct (A _ X)]. Qed.

Lemma waiting_uses s p u : cinv s -> u < U -> c_user (cs_proc s p) u <> UFree -> c_phase (cs_proc s p) = PUse.
Proof.
  intros I L H. destruct (c_phase (cs_proc s p)) eqn:E; auto; exfalso; apply H, (i_user s I); auto; congruence.
Qed.
(** While a request is pending no process closes. *)
Lemma pending_open s q m : cinv s -> q < P -> c_com (cs_proc s q) = QFind m \/ c_com (cs_proc s q) = QBefore m ->
  p_oneway pr (cm_kind m) = false -> c_user (cs_proc s (cm_src m)) (cm_thr m) = UWait /\ forall p, ~ closing (cs_proc s p).
Proof.
  intros I Lq H O.
  assert (M : msg_ok m). { pose proof (i_com s I q) as X. destruct H as [H|H]; rewrite H in X; exact X. }
  destruct M as (M1 & M2 & M3).
  assert (W : c_user (cs_proc s (cm_src m)) (cm_thr m) = UWait).
  { pose proof (i_cnt s I (cm_src m) (cm_thr m)) as X.
    pose proof (qsum_le (fun q => hold (c_com (cs_proc s q)) (cm_src m) (cm_thr m)) P q Lq) as Y. cbv beta in Y.
    assert (Z : hold (c_com (cs_proc s q)) (cm_src m) (cm_thr m) = 1).
    { destruct H as [H|H]; rewrite H; cbn; unfold is_req; rewrite O, !Nat.eqb_refl; reflexivity. }
    destruct (c_user (cs_proc s (cm_src m)) (cm_thr m)); cbn in X; auto; lia. }
  split; [exact W|]. intros p C. apply (i_all s I p C (cm_src m) M1).
  apply (waiting_uses s (cm_src m) (cm_thr m) I M2). congruence.
Qed.
Lemma com_dom s p : cinv s -> c_com (cs_proc s p) <> QIdle -> p < P.
Proof. intros I H. destruct (Nat.lt_ge_cases p P) as [L|L]; auto. exfalso. apply H, (i_out s I), L. Qed.

Lemma not_freed s p : cinv s -> ~ closing (cs_proc s p) -> forall r, c_freed (cs_proc s p) r = false.
Proof.
  intros I H. pose proof (i_phase s I p) as X. unfold phase_ok in X. destruct (c_phase (cs_proc s p)) as [| |todo w] eqn:E; try tauto.
  exfalso. apply H. exists todo, w. exact E.
Qed.
Lemma touches_ok x l : (forall r, In r l -> c_freed x r = false) -> touches x l = true.
Proof. intros H. apply forallb_forall. intros r Hr. rewrite (H r Hr). reflexivity. Qed.
Lemma still_there s p k r : cinv s -> (exists m, cm_kind m = k /\ (c_com (cs_proc s p) = QBefore m \/ c_com (cs_proc s p) = QAfter m)) ->
  In r (p_after pr k) \/ (p_oneway pr k = true /\ In r (p_before pr k)) -> c_freed (cs_proc s p) r = false.
Proof.
  intros I (m & Em & C) H. destruct (c_freed (cs_proc s p) r) eqn:F; auto. exfalso.
  pose proof (i_phase s I p) as X. unfold phase_ok in X. destruct (c_phase (cs_proc s p)) as [| |todo w] eqn:E.
  - destruct X as (X & _). congruence.
  - destruct X as (X & _). congruence.
  - destruct X as (pre & Ep & Fr & G & _ & _). apply Fr in F. apply in_split in F. destruct F as (l1 & l2 & F).
    assert (In (CUnreg k) l1).
    { apply (ord l1 r (l2 ++ todo)); [|exact H]. rewrite Ep, F, <- app_assoc. reflexivity. }
    assert (Q : gone (cs_proc s p) k) by (apply G; rewrite F; apply in_or_app; left; exact H0).
    destruct Q as (_ & Q). destruct (Q m Em). tauto.
Qed.

Lemma no_ub s a : cinv s -> step s a <> Some Ub.
Proof.
  intros I. destruct a; cbn; try (repeat match goal with |- context [match ?x with _ => _ end] => destruct x end; discriminate).
  - destruct (c_phase (cs_proc s p)) as [| |[|[r|k] todo] []] eqn:Ph; try discriminate; [|destruct (c_lock (cs_proc s p)); discriminate].
    destruct (c_freed (cs_proc s p) r) eqn:Fr; [|discriminate]. exfalso.
    pose proof (i_phase s I p) as X. unfold phase_ok in X. rewrite Ph in X. destruct X as (pre & Ep & F & _).
    apply F in Fr. pose proof once as N. rewrite Ep in N. apply NoDup_remove_2 in N. apply N. apply in_or_app. left. exact Fr.
  - destruct (c_com (cs_proc s p)) as [|m|m|m|k] eqn:E; try discriminate.
    rewrite touches_ok; [destruct (p_oneway pr (cm_kind m)); discriminate|]. intros r Hr.
    assert (Lp : p < P) by (apply (com_dom s); [exact I|congruence]).
    destruct (p_oneway pr (cm_kind m)) eqn:O.
    + apply (still_there s p (cm_kind m)); auto. exists m. auto.
    + destruct (pending_open s p m I Lp (or_intror E) O) as (_ & Q). apply not_freed; auto.
  - destruct (c_com (cs_proc s p)) as [|m|m|m|k] eqn:E; try discriminate.
    rewrite touches_ok; [discriminate|]. intros r Hr. apply (still_there s p (cm_kind m)); auto. exists m. auto.
Qed.

Lemma step_inv s a s' : cinv s -> step s a = Some (Ok s') -> cinv s'.
Proof.
  intros I. destruct a as [p u q k|p u|p|p|p|p|p i|p|p|p|p|p]; cbn [cstep]; intros H.
  - (* USend *)
    destruct (c_phase (cs_proc s p)) eqn:Ph; try discriminate. destruct (c_user (cs_proc s p) u) eqn:Us; try discriminate.
    destruct ((p <? P) && (u <? U) && (q <? P)) eqn:G; [|discriminate]. apply andb_prop in G. destruct G as (G & Lq). apply andb_prop in G. destruct G as (Lp & Lu).
    apply Nat.ltb_lt in Lp, Lu, Lq. injection H as <-. destruct (p_oneway pr k) eqn:O.
    + constructor; cbn [cs_proc cs_net]; try apply I.
      * intros m Hm. apply in_app_or in Hm. destruct Hm as [Hm|[<-|[]]]; [apply (i_net s I), Hm|]. repeat split; assumption.
      * intros a v. rewrite cnt_app. cbn. unfold is_req at 1. cbn. rewrite O. cbn. rewrite !Nat.add_0_r. apply (i_cnt s I).
    + set (x := CProc _ _ _ _ _ _).
      constructor; cbn [cs_proc cs_net].
      * intros r. destruct (Nat.eq_dec r p) as [->|N]; [rewrite upd_eq|rewrite upd_ne by exact N; apply (i_phase s I)].
        pose proof (i_phase s I p) as X. unfold phase_ok in *. rewrite Ph in X. exact X.
      * intros r. destruct (Nat.eq_dec r p) as [->|N]; [rewrite upd_eq|rewrite upd_ne by exact N; apply (i_lock s I)].
        pose proof (i_lock s I p) as X. unfold lock_ok in *. rewrite Ph in X. exact X.
      * intros r v. destruct (Nat.eq_dec r p) as [->|N]; [rewrite upd_eq; cbn; congruence|rewrite upd_ne by exact N; apply (i_user s I)].
      * intros r C t Lt. destruct (Nat.eq_dec r p) as [->|N].
        { rewrite upd_eq in C. destruct C as (? & ? & C). discriminate. }
        rewrite upd_ne in C by exact N. exfalso. apply (i_all s I r C p Lp Ph).
      * intros m Hm. apply in_app_or in Hm. destruct Hm as [Hm|[<-|[]]]; [apply (i_net s I), Hm|]. repeat split; assumption.
      * intros r. destruct (Nat.eq_dec r p) as [->|N]; [rewrite upd_eq|rewrite upd_ne by exact N]; apply (i_com s I).
      * intros r L. destruct (Nat.eq_dec r p) as [->|N]; [lia|rewrite upd_ne by exact N; apply (i_out s I), L].
      * intros a v. rewrite cnt_app. cbn [cnt]. rewrite Nat.add_0_r.
        replace (qsum (fun q0 => hold (c_com (upd (cs_proc s) p x q0)) a v) P) with (qsum (fun q => hold (c_com (cs_proc s q)) a v) P).
        2:{ apply qsum_ext. intros r _. destruct (Nat.eq_dec r p) as [->|N]; [rewrite upd_eq|rewrite upd_ne by exact N]; reflexivity. }
        pose proof (i_cnt s I a v) as C. unfold is_req. cbn. rewrite O. cbn.
        destruct (Nat.eqb_spec p a) as [<-|Na]; cbn.
        -- rewrite upd_eq. cbn. destruct (Nat.eqb_spec u v) as [<-|Nv].
           ++ rewrite upd_eq. cbn. rewrite Us in C. cbn in C. lia.
           ++ rewrite upd_ne by auto. lia.
        -- rewrite upd_ne by auto. lia.
  - (* UGet *)
    destruct (c_user (cs_proc s p) u) eqn:Us; try discriminate. destruct ((p <? P) && (u <? U)); [|discriminate]. injection H as <-.
    constructor; cbn [set_proc cs_proc cs_net]; try apply I.
    + intros r. destruct (Nat.eq_dec r p) as [->|N]; [rewrite upd_eq; apply (i_phase s I p)|rewrite upd_ne by exact N; apply (i_phase s I)].
    + intros r. destruct (Nat.eq_dec r p) as [->|N]; [rewrite upd_eq; apply (i_lock s I p)|rewrite upd_ne by exact N; apply (i_lock s I)].
    + intros r v. destruct (Nat.eq_dec r p) as [->|N]; [rewrite upd_eq; cbn|rewrite upd_ne by exact N; apply (i_user s I)].
      intros Ph L. destruct (Nat.eq_dec v u) as [->|Nu]; [apply upd_eq|rewrite upd_ne by exact Nu; apply (i_user s I); auto].
    + assert (Z : forall r, c_phase (upd (cs_proc s) p (CProc (c_phase (cs_proc s p)) (upd (c_user (cs_proc s p)) u UFree) (c_com (cs_proc s p))
                       (c_map (cs_proc s p)) (c_freed (cs_proc s p)) (c_lock (cs_proc s p))) r) = c_phase (cs_proc s r)).
      { intros r. destruct (Nat.eq_dec r p) as [->|N]; [rewrite upd_eq|rewrite upd_ne by exact N]; reflexivity. }
      intros r C t Lt. rewrite Z. destruct C as (todo & w & C). rewrite Z in C. apply (i_all s I r); auto. exists todo, w. exact C.
    + intros r. destruct (Nat.eq_dec r p) as [->|N]; [rewrite upd_eq|rewrite upd_ne by exact N]; apply (i_com s I).
    + intros r L. destruct (Nat.eq_dec r p) as [->|N]; [rewrite upd_eq|rewrite upd_ne by exact N]; apply (i_out s I), L.
    + intros a v. match goal with |- _ + qsum (fun q => hold (c_com (upd _ _ ?x q)) _ _) _ = _ => set (X := x) end.
      replace (qsum (fun q0 => hold (c_com (upd (cs_proc s) p X q0)) a v) P) with (qsum (fun q => hold (c_com (cs_proc s q)) a v) P).
      2:{ apply qsum_ext. intros r _. destruct (Nat.eq_dec r p) as [->|N]; [rewrite upd_eq|rewrite upd_ne by exact N]; reflexivity. }
      rewrite (i_cnt s I a v). destruct (Nat.eq_dec a p) as [->|N]; [rewrite upd_eq|rewrite upd_ne by exact N; reflexivity].
      cbn. destruct (Nat.eq_dec v u) as [->|Nv]; [rewrite upd_eq, Us; reflexivity|rewrite upd_ne by exact Nv; reflexivity].
  - (* PEnter *)
    destruct (c_phase (cs_proc s p)) eqn:Ph; try discriminate. destruct ((p <? P) && all_idle U (cs_proc s p)) eqn:G; [|discriminate].
    apply andb_prop in G. destruct G as (Lp & G). apply Nat.ltb_lt in Lp. unfold all_idle in G. rewrite forallb_forall in G.
    injection H as <-. set (x := CProc _ _ _ _ _ _).
    constructor; cbn [set_proc cs_proc cs_net]; try apply I.
    + intros r. destruct (Nat.eq_dec r p) as [->|N]; [rewrite upd_eq|rewrite upd_ne by exact N; apply (i_phase s I)].
      pose proof (i_phase s I p) as X. unfold phase_ok in *. rewrite Ph in X. exact X.
    + intros r. destruct (Nat.eq_dec r p) as [->|N]; [rewrite upd_eq|rewrite upd_ne by exact N; apply (i_lock s I)].
      pose proof (i_lock s I p) as X. unfold lock_ok in *. rewrite Ph in X. intros L. destruct (X L) as [(t & Y)|Y]; [discriminate|right; exact Y].
    + intros r v. destruct (Nat.eq_dec r p) as [->|N]; [rewrite upd_eq; cbn|rewrite upd_ne by exact N; apply (i_user s I)].
      intros _ L. specialize (G v ltac:(apply in_seq; lia)). destruct (c_user (cs_proc s p) v); auto; discriminate.
    + intros r C t Lt. destruct (Nat.eq_dec r p) as [->|N].
      { rewrite upd_eq in C. destruct C as (? & ? & C). discriminate. }
      rewrite upd_ne in C by exact N. exfalso. apply (i_all s I r C p Lp Ph).
    + intros r. destruct (Nat.eq_dec r p) as [->|N]; [rewrite upd_eq|rewrite upd_ne by exact N]; apply (i_com s I).
    + intros r L. destruct (Nat.eq_dec r p) as [->|N]; [lia|rewrite upd_ne by exact N; apply (i_out s I), L].
    + intros a v.
      replace (qsum (fun q0 => hold (c_com (upd (cs_proc s) p x q0)) a v) P) with (qsum (fun q => hold (c_com (cs_proc s q)) a v) P).
      2:{ apply qsum_ext. intros r _. destruct (Nat.eq_dec r p) as [->|N]; [rewrite upd_eq|rewrite upd_ne by exact N]; reflexivity. }
      rewrite (i_cnt s I a v). destruct (Nat.eq_dec a p) as [->|N]; [rewrite upd_eq|rewrite upd_ne by exact N]; reflexivity.
  - (* PLeave *)
    destruct (c_phase (cs_proc s p)) eqn:Ph; try discriminate. destruct (all_there P s) eqn:G; [|discriminate]. injection H as <-.
    unfold all_there in G. rewrite forallb_forall in G.
    pose proof (i_phase s I p) as X. unfold phase_ok in X. rewrite Ph in X. destruct X as (X1 & X2 & X3).
    pose proof (i_lock s I p) as Y. unfold lock_ok in Y. rewrite Ph in Y.
    apply inv_set; auto; cbn; try congruence.
    + unfold phase_ok. cbn. exists []. split; [reflexivity|]. split; [intros r; rewrite X1; split; [discriminate|intros []]|].
      split; [intros k []|]. split; [discriminate|intros Z; destruct (Z eq_refl)].
    + unfold lock_ok. cbn. intros L. destruct (Y L) as [(t & Z)|Z]; [discriminate|right; exact Z].
    + intros _ q Lq E. specialize (G q ltac:(apply in_seq; lia)). rewrite E in G. discriminate.
    + apply (i_com s I p).
    + intros L. apply (i_out s I p L).
  - (* PStep *)
    destruct (c_phase (cs_proc s p)) as [| |[|[r|k] todo] []] eqn:Ph; try discriminate.
    + destruct (c_freed (cs_proc s p) r) eqn:Fr; [discriminate|].
      injection H as <-. pose proof (i_phase s I p) as X. unfold phase_ok in X. rewrite Ph in X. destruct X as (pre & Ep & F & G & _ & _).
      pose proof (i_lock s I p) as Y. unfold lock_ok in Y. rewrite Ph in Y.
      apply inv_set; auto; cbn; try congruence.
      * unfold phase_ok. cbn. exists (pre ++ [CFree r]). split; [rewrite <- app_assoc; exact Ep|].
        split.
        { intros t. rewrite in_app_iff. cbn [In]. destruct (Nat.eq_dec t r) as [->|N]; [rewrite upd_eq; tauto|rewrite upd_ne by exact N].
          rewrite (F t). split; [tauto|]. intros [Z|[Z|[]]]; [exact Z|congruence]. }
        split.
        { intros j Hj. apply in_app_or in Hj. destruct Hj as [Hj|[Hj|[]]]; [exact (G j Hj)|discriminate]. }
        split; [discriminate|intros Z; destruct (Z eq_refl)].
      * unfold lock_ok. cbn. intros L. destruct (Y L) as [(t & Z)|Z]; [discriminate|right; exact Z].
      * intros _. apply (i_all s I p). exists (CFree r :: todo), WNone. exact Ph.
      * apply (i_com s I p).
      * intros L. apply (i_out s I p L).
    + destruct (c_lock (cs_proc s p)) eqn:Lk; [discriminate|]. injection H as <-.
      pose proof (i_phase s I p) as X. unfold phase_ok in X. rewrite Ph in X. destruct X as (pre & Ep & F & G & _ & _).
      apply inv_set; auto; cbn; try congruence.
      * unfold phase_ok. cbn. exists pre. split; [exact Ep|]. split; [exact F|]. split; [exact G|]. split; [discriminate|]. intros _. exists k, todo. reflexivity.
      * unfold lock_ok. cbn. intros _. left. exists (CUnreg k :: todo). reflexivity.
      * intros _. apply (i_all s I p). exists (CUnreg k :: todo), WNone. exact Ph.
      * apply (i_com s I p).
      * intros L. apply (i_out s I p L).
  - (* PSent *)
    destruct (c_phase (cs_proc s p)) as [| |[|o todo] []] eqn:Ph; try discriminate. injection H as <-.
    pose proof (i_phase s I p) as X. unfold phase_ok in X. rewrite Ph in X. destruct X as (pre & Ep & F & G & K & W).
    pose proof (i_lock s I p) as Y. unfold lock_ok in Y. rewrite Ph in Y.
    destruct (W ltac:(discriminate)) as (k & t & E). injection E as -> <-.
    apply inv_set; auto; cbn; try congruence.
    + unfold phase_ok. cbn. exists (pre ++ [CUnreg k]). split; [rewrite <- app_assoc; exact Ep|].
      split; [intros r; rewrite (F r), in_app_iff; cbn [In]; split; [tauto|]; intros [Z|[Z|[]]]; [exact Z|discriminate]|].
      split.
      { intros j Hj. apply in_app_or in Hj. destruct Hj as [Hj|[Hj|[]]]; [exact (G j Hj)|]. injection Hj as <-. exact (K eq_refl k todo eq_refl). }
      split; [discriminate|intros Z; destruct (Z eq_refl)].
    + unfold lock_ok. cbn. intros L. destruct (Y L) as [(t & Z)|Z]; [discriminate|right; exact Z].
    + intros _. apply (i_all s I p). eexists. eexists. exact Ph.
    + apply (i_com s I p).
    + intros L. apply (i_out s I p L).
  - (* QRecv *)
    destruct (c_com (cs_proc s p)) eqn:Co; try discriminate. destruct (nth_error (cs_net s) i) as [m|] eqn:Nt; [|discriminate].
    destruct (Nat.eqb_spec (cm_dst m) p) as [Ed|]; [|discriminate]. injection H as <-.
    assert (M : msg_ok m) by (apply (i_net s I), (nth_error_In _ _ Nt)). assert (Lp : p < P) by (destruct M as (_ & _ & M); lia).
    set (x := CProc _ _ _ _ _ _).
    assert (Z : forall r, c_phase (upd (cs_proc s) p x r) = c_phase (cs_proc s r) /\ c_user (upd (cs_proc s) p x r) = c_user (cs_proc s r)).
    { intros r. destruct (Nat.eq_dec r p) as [->|N]; [rewrite upd_eq|rewrite upd_ne by exact N]; split; reflexivity. }
    constructor; cbn [cs_proc cs_net].
    + intros r. destruct (Nat.eq_dec r p) as [->|N]; [rewrite upd_eq|rewrite upd_ne by exact N; apply (i_phase s I)].
      apply phase_com; [apply (i_phase s I)|discriminate|rewrite Co; discriminate|intros ? [|]; discriminate].
    + intros r. destruct (Nat.eq_dec r p) as [->|N]; [rewrite upd_eq|rewrite upd_ne by exact N; apply (i_lock s I)].
      apply lock_com; [apply (i_lock s I)|rewrite Co; discriminate].
    + intros r v. destruct (Z r) as (-> & ->). apply (i_user s I).
    + intros r (todo & w & C) t Lt. destruct (Z r) as (Zr & _). destruct (Z t) as (-> & _). rewrite Zr in C. apply (i_all s I r); auto. exists todo, w. exact C.
    + intros m' Hm. apply (i_net s I). eapply in_remove, Hm.
    + intros r. destruct (Nat.eq_dec r p) as [->|N]; [rewrite upd_eq; exact M|rewrite upd_ne by exact N; apply (i_com s I)].
    + intros r L. destruct (Nat.eq_dec r p) as [->|N]; [lia|rewrite upd_ne by exact N; apply (i_out s I), L].
    + intros a v. destruct (Z a) as (_ & ->). rewrite <- (i_cnt s I a v). rewrite (cnt_remove _ _ _ a v Nt).
      pose proof (qsum_upd (fun q0 => hold (c_com (upd (cs_proc s) p x q0)) a v) (fun q0 => hold (c_com (cs_proc s q0)) a v) P p Lp) as Q.
      cbv beta in Q. rewrite upd_eq, Co in Q. cbn in Q.
      rewrite Nat.add_0_r in Q. rewrite Q; [lia|]. intros r _ N. rewrite upd_ne by exact N. reflexivity.
  - (* QLook *)
    destruct (c_com (cs_proc s p)) as [|m|m|m|k] eqn:Co; try discriminate. injection H as <-.
    assert (Lp : p < P) by (apply (com_dom s); [exact I|congruence]).
    destruct (c_map (cs_proc s p) (cm_kind m)) eqn:Mp.
    + apply inv_set; auto; cbn; auto.
      * apply phase_com; [apply (i_phase s I)|discriminate|rewrite Co; discriminate|].
        intros m' [E|E]; [injection E as <-; auto|discriminate].
      * apply lock_com; [apply (i_lock s I)|rewrite Co; discriminate].
      * intros C. exact (i_all s I p C).
      * pose proof (i_com s I p) as X. rewrite Co in X. exact X.
      * lia.
      * rewrite Co. reflexivity.
    + assert (O : p_oneway pr (cm_kind m) = true).
      { destruct (p_oneway pr (cm_kind m)) eqn:O; auto. exfalso.
        destruct (pending_open s p m I Lp (or_introl Co) O) as (_ & Q).
        pose proof (i_phase s I p) as X. unfold phase_ok in X. destruct (c_phase (cs_proc s p)) as [| |todo w] eqn:E.
        - destruct X as (_ & X & _). congruence.
        - destruct X as (_ & X & _). congruence.
        - apply (Q p). exists todo, w. exact E. }
      apply inv_set; auto; cbn; auto.
      * apply phase_com; [apply (i_phase s I)|discriminate|rewrite Co; discriminate|intros ? [|]; discriminate].
      * apply lock_com; [apply (i_lock s I)|rewrite Co; discriminate].
      * intros C. exact (i_all s I p C).
      * rewrite Co. cbn. unfold is_req. rewrite O. reflexivity.
  - (* QReply *)
    destruct (c_com (cs_proc s p)) as [|m|m|m|k] eqn:Co; try discriminate.
    destruct (touches _ _); [|discriminate].
    assert (Lp : p < P) by (apply (com_dom s); [exact I|congruence]).
    assert (PH : phase_ok (CProc (c_phase (cs_proc s p)) (c_user (cs_proc s p)) (QAfter m) (c_map (cs_proc s p)) (c_freed (cs_proc s p)) (c_lock (cs_proc s p)))).
    { apply phase_com; [apply (i_phase s I)|discriminate|rewrite Co; discriminate|]. intros m' [E|E]; [discriminate|injection E as <-]. auto. }
    assert (LK : lock_ok (CProc (c_phase (cs_proc s p)) (c_user (cs_proc s p)) (QAfter m) (c_map (cs_proc s p)) (c_freed (cs_proc s p)) (c_lock (cs_proc s p)))).
    { apply lock_com; [apply (i_lock s I)|rewrite Co; discriminate]. }
    destruct (p_oneway pr (cm_kind m)) eqn:O.
    + injection H as <-. apply inv_set; auto; cbn; auto.
      * intros C. exact (i_all s I p C).
      * lia.
      * rewrite Co. cbn. unfold is_req. rewrite O. reflexivity.
    + injection H as <-.
      destruct (pending_open s p m I Lp (or_intror Co) O) as (W & Q).
      pose proof (i_com s I p) as M. rewrite Co in M. destruct M as (M1 & M2 & M3).
      set (s1 := set_proc s p (CProc (c_phase (cs_proc s p)) (c_user (cs_proc s p)) (QAfter m) (c_map (cs_proc s p)) (c_freed (cs_proc s p)) (c_lock (cs_proc s p)))).
      change (upd (cs_proc s) p (CProc (c_phase (cs_proc s p)) (c_user (cs_proc s p)) (QAfter m) (c_map (cs_proc s p)) (c_freed (cs_proc s p)) (c_lock (cs_proc s p)))) with (cs_proc s1).
      assert (S1 : forall r, c_phase (cs_proc s1 r) = c_phase (cs_proc s r) /\ c_user (cs_proc s1 r) = c_user (cs_proc s r) /\
                             phase_ok (cs_proc s1 r) /\ lock_ok (cs_proc s1 r) /\ com_ok (c_com (cs_proc s1 r))).
      { intros r. unfold s1. cbn [set_proc cs_proc]. destruct (Nat.eq_dec r p) as [->|N]; [rewrite upd_eq|rewrite upd_ne by exact N].
        - cbn [c_phase c_user c_com]. repeat split; auto.
        - repeat split; auto; [apply (i_phase s I)|apply (i_lock s I)|apply (i_com s I)]. }
      assert (N1 : cs_net s1 = cs_net s) by reflexivity.
      assert (C1 : forall r, r <> p -> c_com (cs_proc s1 r) = c_com (cs_proc s r)).
      { intros r N. unfold s1. cbn [set_proc cs_proc]. rewrite upd_ne by exact N. reflexivity. }
      assert (C1p : c_com (cs_proc s1 p) = QAfter m).
      { unfold s1. cbn [set_proc cs_proc]. rewrite upd_eq. reflexivity. }
      clearbody s1. set (q := cm_src m) in *. set (x := CProc _ _ _ _ _ _).
      assert (Z : forall r, c_phase (upd (cs_proc s1) q x r) = c_phase (cs_proc s r) /\ c_com (upd (cs_proc s1) q x r) = c_com (cs_proc s1 r)).
      { intros r. destruct (S1 r) as (A & _). destruct (Nat.eq_dec r q) as [->|N]; [rewrite upd_eq|rewrite upd_ne by exact N]; split; auto. }
      constructor; cbn [set_proc cs_proc cs_net].
      * intros r. destruct (S1 r) as (_ & _ & A & _). destruct (Nat.eq_dec r q) as [->|N]; [rewrite upd_eq; exact A|rewrite upd_ne by exact N; exact A].
      * intros r. destruct (S1 r) as (_ & _ & _ & A & _). destruct (Nat.eq_dec r q) as [->|N]; [rewrite upd_eq; exact A|rewrite upd_ne by exact N; exact A].
      * intros r v. destruct (Z r) as (-> & _). destruct (S1 r) as (_ & A & _).
        destruct (Nat.eq_dec r q) as [->|N]; [rewrite upd_eq|rewrite upd_ne by exact N; rewrite A; apply (i_user s I)].
        intros Ph. exfalso. apply Ph. apply (waiting_uses s q (cm_thr m) I M2). rewrite W. discriminate.
      * intros r (todo & w & C). destruct (Z r) as (Zr & _). rewrite Zr in C. exfalso. apply (Q r). exists todo, w. exact C.
      * rewrite N1. apply (i_net s I).
      * intros r. destruct (Z r) as (_ & ->). apply S1.
      * intros r L. destruct (Z r) as (-> & ->). rewrite C1 by lia. apply (i_out s I), L.
      * intros a v. rewrite N1.
        replace (qsum (fun q0 => hold (c_com (upd (cs_proc s1) q x q0)) a v) P) with (qsum (fun q0 => hold (c_com (cs_proc s1 q0)) a v) P).
        2:{ apply qsum_ext. intros r _. destruct (Z r) as (_ & ->). reflexivity. }
        pose proof (qsum_upd (fun q0 => hold (c_com (cs_proc s1 q0)) a v) (fun q0 => hold (c_com (cs_proc s q0)) a v) P p Lp) as Y.
        cbv beta in Y. rewrite C1p, Co in Y. cbn [hold] in Y.
        assert (Y' : forall r, r < P -> r <> p -> hold (c_com (cs_proc s1 r)) a v = hold (c_com (cs_proc s r)) a v) by (intros r _ N; rewrite C1 by exact N; reflexivity).
        specialize (Y Y'). pose proof (i_cnt s I a v) as X.
        unfold is_req in Y. rewrite O in Y. cbn in Y. fold q in Y.
        destruct (Nat.eq_dec a q) as [->|Na].
        -- rewrite upd_eq. cbn. rewrite Nat.eqb_refl in Y. cbn in Y. destruct (Nat.eqb_spec (cm_thr m) v) as [<-|Nv].
           ++ rewrite upd_eq. cbn. rewrite W in X. cbn in X. lia.
           ++ rewrite upd_ne by auto. destruct (S1 q) as (_ & -> & _). lia.
        -- rewrite upd_ne by exact Na. destruct (S1 a) as (_ & -> & _). destruct (Nat.eqb_spec q a) as [E|_]; [congruence|]. cbn in Y. lia.
  - (* QDone *)
    destruct (c_com (cs_proc s p)) as [|m|m|m|k] eqn:Co; try discriminate.
    destruct (touches _ _); [|discriminate]. injection H as <-.
    apply inv_set; auto; cbn; auto.
    + apply phase_com; [apply (i_phase s I)|discriminate|rewrite Co; discriminate|intros ? [|]; discriminate].
    + apply lock_com; [apply (i_lock s I)|rewrite Co; discriminate].
    + intros C. exact (i_all s I p C).
    + rewrite Co. reflexivity.
  - (* QUnreg *)
    destruct (c_phase (cs_proc s p)) as [| |[|[r|k] todo] []] eqn:Ph; try discriminate.
    destruct (c_com (cs_proc s p)) eqn:Co; try discriminate. injection H as <-.
    pose proof (i_phase s I p) as X. unfold phase_ok in X. rewrite Ph in X. destruct X as (pre & Ep & F & G & _ & _).
    assert (Lp : p < P). { destruct (Nat.lt_ge_cases p P) as [L|L]; auto. destruct (i_out s I p L) as (A & _). congruence. }
    apply inv_set; auto; cbn; try congruence.
    + unfold phase_ok. cbn. exists pre. split; [exact Ep|]. split; [exact F|]. split.
      { intros j Hj. destruct (G j Hj) as ([A|A] & _); [|congruence]. split; cbn; [left; exact A|split; discriminate]. }
      split; [|intros _; exists k, todo; reflexivity].
      intros _ j t E. injection E as <- <-. split; cbn; [right; reflexivity|split; discriminate].
    + unfold lock_ok. cbn. intros _. right. exists k. reflexivity.
    + intros _. apply (i_all s I p). eexists. eexists. exact Ph.
    + trivial.
    + lia.
    + rewrite Co. reflexivity.
  - (* QErased *)
    destruct (c_com (cs_proc s p)) as [|m|m|m|k] eqn:Co; try discriminate. injection H as <-.
    pose proof (i_phase s I p) as X. unfold phase_ok in X.
    apply inv_set; auto; cbn; auto.
    + unfold phase_ok. cbn. destruct (c_phase (cs_proc s p)) as [| |todo w].
      * destruct X as (_ & _ & X). destruct (X k Co).
      * destruct X as (_ & _ & X). destruct (X k Co).
      * destruct X as (pre & Ep & F & G & K & W). exists pre. split; [exact Ep|]. split; [exact F|].
        assert (Z : forall j, gone (cs_proc s p) j -> gone (CProc (PClose todo w) (c_user (cs_proc s p)) QIdle (upd (c_map (cs_proc s p)) k false) (c_freed (cs_proc s p)) false) j).
        { intros j (A & _). split; cbn; [left|split; discriminate].
          destruct (Nat.eq_dec j k) as [->|N]; [apply upd_eq|rewrite upd_ne by exact N]. destruct A as [A|A]; [exact A|congruence]. }
        split; [intros j Hj; apply Z, G, Hj|]. split; [|exact W]. intros Ew j t E. apply Z. exact (K Ew j t E).
    + unfold lock_ok. cbn. discriminate.
    + intros C. exact (i_all s I p C).
    + rewrite Co. reflexivity.
Qed.
Lemma run_inv l : forall s s', cinv s -> run s l = Some (Ok s') -> cinv s'.
Proof.
  induction l as [|a l IH]; cbn; intros s s' I H; [injection H as <-; exact I|].
  destruct (step s a) as [[s1|]|] eqn:E; try discriminate. exact (IH _ _ (step_inv _ _ _ I E) H).
Qed.
Lemma run_no_ub l : forall s, cinv s -> run s l <> Some Ub.
Proof.
  induction l as [|a l IH]; cbn; intros s I; [discriminate|].
  destruct (step s a) as [[s1|]|] eqn:E; [|destruct (no_ub s a I E)|discriminate].
  apply IH. exact (step_inv _ _ _ I E).
Qed.

(** ** Closing comes to an end *)
Definition wphase (f : cphase) : nat :=
  match f with
  | PUse => 4 * length (p_close pr) + 2
  | PBar => 4 * length (p_close pr) + 1
  | PClose todo WNone => 4 * length todo
  | PClose todo WSent => 4 * length todo - 1
  | PClose todo WMatched => 4 * length todo - 3
  end.
Definition wcom (c : ccom) : nat := match c with QIdle => 0 | QFind _ => 3 | QBefore _ => 2 | QAfter _ => 1 | QErase _ => 1 end.
Definition wuser (x : user) : nat := match x with UFree => 0 | _ => 1 end.
Definition wproc (x : cproc) : nat := wphase (c_phase x) + wcom (c_com x) + qsum (fun u => wuser (c_user x u)) U.
Definition weight (s : cst) : nat := 4 * length (cs_net s) + qsum (fun p => wproc (cs_proc s p)) P.

Lemma weight_set s p x : p < P -> weight (set_proc s p x) + wproc (cs_proc s p) = weight s + wproc x.
Proof.
  intros L. unfold weight. cbn [set_proc cs_net cs_proc].
  pose proof (qsum_upd (fun q => wproc (upd (cs_proc s) p x q)) (fun q => wproc (cs_proc s q)) P p L) as H. cbv beta in H. rewrite upd_eq in H.
  assert (E : forall i, i < P -> i <> p -> wproc (upd (cs_proc s) p x i) = wproc (cs_proc s i)) by (intros i _ N; rewrite upd_ne by exact N; reflexivity).
  specialize (H E). lia.
Qed.
Lemma users_upd f u v : u < U -> qsum (fun i => wuser (upd f u v i)) U + wuser (f u) = qsum (fun i => wuser (f i)) U + wuser v.
Proof.
  intros L. pose proof (qsum_upd (fun i => wuser (upd f u v i)) (fun i => wuser (f i)) U u L) as H. cbv beta in H. rewrite upd_eq in H.
  apply H. intros i _ N. rewrite upd_ne by exact N. reflexivity.
Qed.

(** Steps other than sending a new message. *)
Definition drains (a : cact) : bool := match a with USend _ _ _ _ => false | _ => true end.

Lemma phase_dom s p : cinv s -> c_phase (cs_proc s p) <> PUse -> p < P.
Proof. intros I H. destruct (Nat.lt_ge_cases p P) as [L|L]; auto. exfalso. apply H, (i_out s I), L. Qed.

Lemma step_weight s a s' : cinv s -> drains a = true -> step s a = Some (Ok s') -> S (weight s') <= weight s.
Proof.
  intros I Dr. destruct a as [p u q k|p u|p|p|p|p|p i|p|p|p|p|p]; cbn [cstep]; intros H; try discriminate.
  - destruct (c_user (cs_proc s p) u) eqn:Us; try discriminate. destruct ((p <? P) && (u <? U)) eqn:G; [|discriminate]. injection H as <-.
    apply andb_prop in G. destruct G as (Lp & Lu). apply Nat.ltb_lt in Lp, Lu.
    match goal with |- context [set_proc s p ?x] => pose proof (weight_set s p x Lp) as W end.
    unfold wproc in W. cbn [c_phase c_com c_user] in W. pose proof (users_upd (c_user (cs_proc s p)) u UFree Lu) as Y. rewrite Us in Y. cbn [wuser] in Y. lia.
  - destruct (c_phase (cs_proc s p)) eqn:Ph; try discriminate. destruct ((p <? P) && all_idle U (cs_proc s p)) eqn:G; [|discriminate]. injection H as <-.
    apply andb_prop in G. destruct G as (Lp & _). apply Nat.ltb_lt in Lp.
    match goal with |- context [set_proc s p ?x] => pose proof (weight_set s p x Lp) as W end.
    unfold wproc in W. rewrite Ph in W. cbn [c_phase c_com c_user wphase wcom wuser] in W. lia.
  - destruct (c_phase (cs_proc s p)) eqn:Ph; try discriminate. destruct (all_there P s); [|discriminate]. injection H as <-.
    assert (Lp : p < P) by (apply (phase_dom s); [exact I|congruence]).
    match goal with |- context [set_proc s p ?x] => pose proof (weight_set s p x Lp) as W end.
    unfold wproc in W. rewrite Ph in W. cbn [c_phase c_com c_user wphase wcom wuser] in W. lia.
  - destruct (c_phase (cs_proc s p)) as [| |[|[r|k] todo] []] eqn:Ph; try discriminate;
      assert (Lp : p < P) by (apply (phase_dom s); [exact I|congruence]).
    + destruct (c_freed (cs_proc s p) r); [discriminate|]. injection H as <-. match goal with |- context [set_proc s p ?x] => pose proof (weight_set s p x Lp) as W end.
      unfold wproc in W. rewrite Ph in W. cbn [c_phase c_com c_user wphase wcom wuser length] in W. lia.
    + destruct (c_lock (cs_proc s p)); [discriminate|]. injection H as <-.
      match goal with |- context [set_proc s p ?x] => pose proof (weight_set s p x Lp) as W end.
      unfold wproc in W. rewrite Ph in W. cbn [c_phase c_com c_user wphase wcom wuser length] in W. lia.
  - destruct (c_phase (cs_proc s p)) as [| |[|o todo] []] eqn:Ph; try discriminate. injection H as <-.
    assert (Lp : p < P) by (apply (phase_dom s); [exact I|congruence]).
    match goal with |- context [set_proc s p ?x] => pose proof (weight_set s p x Lp) as W end.
    unfold wproc in W. rewrite Ph in W. cbn [c_phase c_com c_user wphase wcom wuser length] in W. lia.
  - destruct (c_com (cs_proc s p)) eqn:Co; try discriminate. destruct (nth_error (cs_net s) i) as [m|] eqn:Nt; [|discriminate].
    destruct (Nat.eqb_spec (cm_dst m) p) as [Ed|]; [|discriminate]. injection H as <-.
    assert (M : msg_ok m) by (apply (i_net s I), (nth_error_In _ _ Nt)). assert (Lp : p < P) by (destruct M as (_ & _ & M); lia).
    match goal with |- context [upd (cs_proc s) p ?x] => pose proof (weight_set s p x Lp) as W end.
    unfold wproc in W. rewrite Co in W. cbn [c_phase c_com c_user wphase wcom wuser length] in W.
    unfold weight in *. cbn [set_proc cs_net cs_proc] in *. rewrite (length_remove _ _ _ Nt) in *. unfold wproc in *. lia.
  - destruct (c_com (cs_proc s p)) as [|m|m|m|k] eqn:Co; try discriminate. injection H as <-.
    assert (Lp : p < P) by (apply (com_dom s); [exact I|congruence]).
    match goal with |- context [set_proc s p ?x] => pose proof (weight_set s p x Lp) as W end.
    unfold wproc in W. rewrite Co in W. cbn [c_phase c_com c_user] in W. destruct (c_map (cs_proc s p) (cm_kind m)); cbn [wcom] in W; lia.
  - destruct (c_com (cs_proc s p)) as [|m|m|m|k] eqn:Co; try discriminate. destruct (touches _ _); [|discriminate].
    assert (Lp : p < P) by (apply (com_dom s); [exact I|congruence]).
    pose proof (weight_set s p (CProc (c_phase (cs_proc s p)) (c_user (cs_proc s p)) (QAfter m) (c_map (cs_proc s p)) (c_freed (cs_proc s p)) (c_lock (cs_proc s p))) Lp) as W.
    unfold wproc in W. rewrite Co in W. cbn [c_phase c_com c_user wcom] in W.
    destruct (p_oneway pr (cm_kind m)) eqn:O; injection H as <-; [lia|].
    destruct (pending_open s p m I Lp (or_intror Co) O) as (Wt & _).
    pose proof (i_com s I p) as M. rewrite Co in M. destruct M as (M1 & M2 & M3).
    match goal with |- context [set_proc ?t (cm_src m) ?x] => pose proof (weight_set t (cm_src m) x M1) as W2; set (s1 := t) in * end.
    assert (Us : c_user (cs_proc s1 (cm_src m)) = c_user (cs_proc s (cm_src m))).
    { unfold s1. cbn [set_proc cs_proc]. destruct (Nat.eq_dec (cm_src m) p) as [->|N]; [rewrite upd_eq|rewrite upd_ne by exact N]; reflexivity. }
    match type of W2 with context [upd (cs_proc s) p ?x (cm_src m)] => change (upd (cs_proc s) p x) with (cs_proc s1) in * end.
    clearbody s1.
    unfold wproc in W2. cbn [c_phase c_com c_user] in W2. pose proof (users_upd (c_user (cs_proc s1 (cm_src m))) (cm_thr m) UReply M2) as Y.
    rewrite Us, Wt in Y. cbn [wuser] in Y. rewrite Us in W2.
    rewrite Us. lia.
  - destruct (c_com (cs_proc s p)) as [|m|m|m|k] eqn:Co; try discriminate. destruct (touches _ _); [|discriminate]. injection H as <-.
    assert (Lp : p < P) by (apply (com_dom s); [exact I|congruence]).
    match goal with |- context [set_proc s p ?x] => pose proof (weight_set s p x Lp) as W end.
    unfold wproc in W. rewrite Co in W. cbn [c_phase c_com c_user wcom] in W. lia.
  - destruct (c_phase (cs_proc s p)) as [| |[|[r|k] todo] []] eqn:Ph; try discriminate.
    destruct (c_com (cs_proc s p)) eqn:Co; try discriminate. injection H as <-.
    assert (Lp : p < P) by (apply (phase_dom s); [exact I|congruence]).
    match goal with |- context [set_proc s p ?x] => pose proof (weight_set s p x Lp) as W end.
    unfold wproc in W. rewrite Ph, Co in W. cbn [c_phase c_com c_user wphase wcom wuser length] in W. lia.
  - destruct (c_com (cs_proc s p)) as [|m|m|m|k] eqn:Co; try discriminate. injection H as <-.
    assert (Lp : p < P) by (apply (com_dom s); [exact I|congruence]).
    match goal with |- context [set_proc s p ?x] => pose proof (weight_set s p x Lp) as W end.
    unfold wproc in W. rewrite Co in W. cbn [c_phase c_com c_user wcom] in W. lia.
Qed.

Definition closed (s : cst) : Prop :=
  cs_net s = [] /\ forall p, p < P -> c_phase (cs_proc s p) = PClose [] WNone /\ c_com (cs_proc s p) = QIdle.

Lemma first_or {A} (f : nat -> option A) n : (exists i a, i < n /\ f i = Some a) \/ (forall i, i < n -> f i = None).
Proof.
  induction n as [|n [(i & a & L & E)|H]]; [right; lia|left; exists i, a; split; [lia|exact E]|].
  destruct (f n) as [a|] eqn:E; [left; exists n, a; split; [lia|exact E]|right].
  intros i L. destruct (Nat.eq_dec i n) as [->|N]; [exact E|apply H; lia].
Qed.

Lemma progress s : cinv s -> closed s \/ exists a s', drains a = true /\ step s a = Some (Ok s').
Proof.
  intros I.
  assert (G : forall a, drains a = true -> step s a <> None -> exists a s', drains a = true /\ step s a = Some (Ok s')).
  { intros a Da H. exists a. destruct (step s a) as [[s'|]|] eqn:E; [exists s'; auto|destruct (no_ub s a I E)|tauto]. }
  (* communication threads *)
  destruct (first_or (fun p => match c_com (cs_proc s p) with QIdle => None | c => Some c end) P) as [(p & c & Lp & E)|Idle].
  { right. destruct (c_com (cs_proc s p)) as [|m|m|m|k] eqn:Co; try discriminate.
    - apply (G (QLook p) eq_refl). cbn. rewrite Co. discriminate.
    - apply (G (QReply p) eq_refl). cbn. rewrite Co. destruct (touches _ _); [destruct (p_oneway pr (cm_kind m))|]; discriminate.
    - apply (G (QDone p) eq_refl). cbn. rewrite Co. destruct (touches _ _); discriminate.
    - apply (G (QErased p) eq_refl). cbn. rewrite Co. discriminate. }
  assert (Id : forall p, p < P -> c_com (cs_proc s p) = QIdle).
  { intros p L. specialize (Idle p L). cbv beta in Idle. destruct (c_com (cs_proc s p)); auto; discriminate. }
  (* messages *)
  destruct (cs_net s) as [|m net] eqn:Net.
  2:{ right. assert (M : msg_ok m) by (apply (i_net s I); rewrite Net; left; reflexivity). destruct M as (_ & _ & M).
      apply (G (QRecv (cm_dst m) 0) eq_refl). cbn. rewrite (Id _ M), Net. cbn. rewrite Nat.eqb_refl. discriminate. }
  (* threads *)
  destruct (existsb (fun p => existsb (fun u => match c_user (cs_proc s p) u with UReply => true | _ => false end) (seq 0 U)) (seq 0 P)) eqn:Ex.
  { right. apply existsb_exists in Ex. destruct Ex as (p & Hp & Ex). apply existsb_exists in Ex. destruct Ex as (u & Hu & Ex).
    apply in_seq in Hp, Hu. apply (G (UGet p u) eq_refl). cbn [cstep]. destruct (c_user (cs_proc s p) u); try discriminate.
    destruct (Nat.ltb_spec p P); [|lia]. destruct (Nat.ltb_spec u U); [|lia]. discriminate. }
  assert (Fr : forall p u, p < P -> u < U -> c_user (cs_proc s p) u = UFree).
  { intros p u Lp Lu. pose proof (i_cnt s I p u) as C. rewrite Net in C. cbn in C.
    rewrite qsum_zero in C by (intros q Lq; rewrite (Id q Lq); reflexivity).
    destruct (c_user (cs_proc s p) u) eqn:Us; [reflexivity|discriminate|]. exfalso. rewrite <- not_true_iff_false in Ex. apply Ex.
    apply existsb_exists. exists p. split; [apply in_seq; lia|]. apply existsb_exists. exists u. split; [apply in_seq; lia|]. rewrite Us. reflexivity. }
  (* before the barrier *)
  destruct (first_or (fun p => match c_phase (cs_proc s p) with PUse => Some tt | _ => None end) P) as [(p & c & Lp & E)|NU].
  { right. apply (G (PEnter p) eq_refl). cbn [cstep]. destruct (c_phase (cs_proc s p)); try discriminate.
    destruct (Nat.ltb_spec p P); [|lia]. cbn [andb]. replace (all_idle U (cs_proc s p)) with true; [discriminate|].
    symmetry. apply forallb_forall. intros u Hu. apply in_seq in Hu. rewrite (Fr p u) by lia. reflexivity. }
  (* in the barrier *)
  destruct (first_or (fun p => match c_phase (cs_proc s p) with PBar => Some tt | _ => None end) P) as [(p & c & Lp & E)|NB].
  { right. apply (G (PLeave p) eq_refl). cbn [cstep]. destruct (c_phase (cs_proc s p)); try discriminate.
    replace (all_there P s) with true; [discriminate|]. symmetry. apply forallb_forall. intros q Hq. apply in_seq in Hq.
    specialize (NU q ltac:(lia)). cbv beta in NU. destruct (c_phase (cs_proc s q)); auto; discriminate. }
  (* closing *)
  destruct (first_or (fun p => match c_phase (cs_proc s p) with PClose [] WNone => None | f => Some f end) P) as [(p & f & Lp & E)|NC].
  { right. pose proof (i_phase s I p) as X. unfold phase_ok in X. pose proof (i_lock s I p) as Y. unfold lock_ok in Y.
    specialize (NU p Lp). specialize (NB p Lp). cbv beta in NU, NB. destruct (c_phase (cs_proc s p)) as [| |todo w] eqn:Ph; try discriminate.
    destruct X as (pre & _ & _ & _ & _ & W). destruct w.
    - destruct todo as [|[r|k] todo]; [discriminate|..].
      + apply (G (PStep p) eq_refl). cbn [cstep]. rewrite Ph. destruct (c_freed (cs_proc s p) r); discriminate.
      + apply (G (PStep p) eq_refl). cbn [cstep]. rewrite Ph. destruct (c_lock (cs_proc s p)); [|discriminate].
        destruct (Y eq_refl) as [(t & Z)|(j & Z)]; [discriminate|rewrite (Id p Lp) in Z; discriminate].
    - destruct (W ltac:(discriminate)) as (k & t & ->). apply (G (QUnreg p) eq_refl). cbn [cstep]. rewrite Ph, (Id p Lp). discriminate.
    - destruct (W ltac:(discriminate)) as (k & t & ->). apply (G (PSent p) eq_refl). cbn [cstep]. rewrite Ph. discriminate. }
  left. split; [exact Net|]. intros p Lp. split; [|apply Id, Lp]. specialize (NC p Lp). cbv beta in NC.
  destruct (c_phase (cs_proc s p)) as [| |[|] []]; try discriminate. reflexivity.
Qed.

Lemma closed_freed s : cinv s -> closed s -> forall p, p < P ->
  (forall r, In (CFree r) (p_close pr) -> c_freed (cs_proc s p) r = true) /\
  (forall k, In (CUnreg k) (p_close pr) -> c_map (cs_proc s p) k = false).
Proof.
  intros I (_ & C) p Lp. destruct (C p Lp) as (Ph & Co). pose proof (i_phase s I p) as X. unfold phase_ok in X. rewrite Ph in X.
  destruct X as (pre & Ep & F & G & _). rewrite app_nil_r in Ep. rewrite Ep. split.
  - intros r. apply F.
  - intros k Hk. destruct (G k Hk) as ([A|A] & _); [exact A|congruence].
Qed.

Lemma drain_run l : forall s s', cinv s -> forallb drains l = true -> run s l = Some (Ok s') -> length l + weight s' <= weight s.
Proof.
  induction l as [|a l IH]; cbn [length crun forallb]; intros s s' I D H; [injection H as <-; lia|].
  apply andb_prop in D. destruct D as (Da & D). destruct (step s a) as [[s1|]|] eqn:E; try discriminate.
  pose proof (step_weight _ _ _ I Da E). specialize (IH _ _ (step_inv _ _ _ I E) D H). lia.
Qed.

Lemma safe l : run cinit l <> Some Ub.
Proof. apply run_no_ub, init_inv. Qed.
Lemma completes l s : run cinit l = Some (Ok s) ->
  exists n, forall l' s', forallb drains l' = true -> run s l' = Some (Ok s') ->
  length l' <= n /\
  ((closed s' /\ forall p, p < P -> (forall r, In (CFree r) (p_close pr) -> c_freed (cs_proc s' p) r = true) /\
                                    (forall k, In (CUnreg k) (p_close pr) -> c_map (cs_proc s' p) k = false)) \/ exists a s'', drains a = true /\ step s' a = Some (Ok s'')).
Proof.
  intros R. pose proof (run_inv _ _ _ init_inv R) as I. exists (weight s). intros l' s' D R'.
  split; [pose proof (drain_run _ _ _ I D R'); lia|]. pose proof (run_inv _ _ _ I R') as I'.
  destruct (progress s' I') as [C|C]; [left; split; [exact C|apply closed_freed; [exact I'|exact C]]|right; exact C].
Qed.
End Facts.

Lemma cache_ordered : ordered cache_proto.
Proof.
  intros pre r post E k H. unfold cache_proto in E, H. cbn [p_close p_after p_before p_oneway app] in E, H.
  destruct (k =? TRANSFER) eqn:K1.
  { apply Nat.eqb_eq in K1. subst k. cbn in H.
    destruct H as [H|(H & _)]; [|discriminate].
    do 4 (destruct pre as [|? pre]; cbn in E; [inversion E; subst; cbn in H; intuition discriminate|]; injection E as <- E).
    cbn. tauto. }
  destruct ((k =? ADD) || (k =? DEL)) eqn:K2.
  { destruct H as [[]|(_ & H)].
    assert (H' : In r [R_RECV; R_MUTEXES; R_DICT]) by (destruct (k =? BLOCK_INFO); exact H). clear H.
    apply orb_prop in K2.
    do 6 (destruct pre as [|? pre]; cbn in E; [inversion E; subst; cbn in H'; intuition discriminate|]; injection E as <- E).
    cbn. destruct K2 as [K2|K2]; apply Nat.eqb_eq in K2; subst k; tauto. }
  destruct H as [[]|(H & _)]; discriminate.
Qed.
Lemma full_ordered : ordered full_proto.
Proof. intros pre r post E k [[]|(H & _)]; discriminate. Qed.
Lemma cache_once : NoDup (p_close cache_proto).
Proof. cbn. repeat (constructor; [cbn; intuition discriminate|]). constructor. Qed.
Lemma full_once : NoDup (p_close full_proto).
Proof. cbn. repeat (constructor; [cbn; intuition discriminate|]). constructor. Qed.

(** Everything which receivers access or which belongs to the transfer is freed, every kind is unregistered. *)
Lemma cache_complete P U l s : crun P U cache_proto cinit l = Some (Ok s) ->
  exists n, forall l' s', forallb drains l' = true -> crun P U cache_proto s l' = Some (Ok s') ->
  length l' <= n /\
  ((closed P s' /\ forall p, p < P ->
      (forall r, r <= R_OBJ -> c_freed (cs_proc s' p) r = true) /\
      (forall k, k <= DEL -> c_map (cs_proc s' p) k = false)) \/
   exists a s'', drains a = true /\ cstep P U cache_proto s' a = Some (Ok s'')).
Proof.
  intros H. destruct (completes P U cache_proto cache_ordered cache_once l s H) as (n & Hn). exists n.
  intros l' s' Hd Hr. destruct (Hn l' s' Hd Hr) as (L & [[Hc Hall]|Hs]); split; auto. left. split; auto.
  intros p Hp. destruct (Hall p Hp) as [H1 H2]. split.
  - intros r Hle. apply H1. unfold R_OBJ in Hle. do 9 (destruct r as [|r]; [cbn; tauto|]). lia.
  - intros k Hle. apply H2. unfold DEL in Hle. do 4 (destruct k as [|k]; [cbn; tauto|]). lia.
Qed.
Lemma full_complete P U l s : crun P U full_proto cinit l = Some (Ok s) ->
  exists n, forall l' s', forallb drains l' = true -> crun P U full_proto s l' = Some (Ok s') ->
  length l' <= n /\
  ((closed P s' /\ forall p, p < P ->
      (forall r, r <= F_DATA -> c_freed (cs_proc s' p) r = true) /\ c_map (cs_proc s' p) 0 = false) \/
   exists a s'', drains a = true /\ cstep P U full_proto s' a = Some (Ok s'')).
Proof.
  intros H. destruct (completes P U full_proto full_ordered full_once l s H) as (n & Hn). exists n.
  intros l' s' Hd Hr. destruct (Hn l' s' Hd Hr) as (L & [[Hc Hall]|Hs]); split; auto. left. split; auto.
  intros p Hp. destruct (Hall p Hp) as [H1 H2]. split.
  - intros r Hle. apply H1. unfold F_DATA in Hle. do 6 (destruct r as [|r]; [cbn; tauto|]). lia.
  - apply H2. cbn. tauto.
Qed.
