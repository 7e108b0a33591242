(** * Proofs about the MPI mutex *)
From Verif Require Export MpiMutexModel.

(** ** Specification: a FIFO lock *)

(** Queue of a lock, and the thread which is inside. *)
Record fifo := Fifo { f_queue : nat -> list nat; f_in : nat -> option nat }.

(** [EQueue]: append.  [EEnter]: only the first of the queue, only if nobody is inside.  [ELeave]: only the
    thread which is inside. *)
Definition fifo_step (f : fifo) (e : mev) : option fifo :=
  match e with
  | EQueue m t => Some (Fifo (upd (f_queue f) m (f_queue f m ++ [t])) (f_in f))
  | EEnter m t =>
      match f_queue f m, f_in f m with
      | h :: _, None => if h =? t then Some (Fifo (f_queue f) (upd (f_in f) m (Some t))) else None
      | _, _ => None
      end
  | ELeave m t =>
      match f_queue f m, f_in f m with
      | _ :: l, Some h => if h =? t then Some (Fifo (upd (f_queue f) m l) (upd (f_in f) m None)) else None
      | _, _ => None
      end
  end.
Fixpoint fifo_run (f : fifo) (es : list mev) : option fifo :=
  match es with
  | [] => Some f
  | e :: es' => match fifo_step f e with Some f' => fifo_run f' es' | None => None end
  end.
Definition fifo0 : fifo := Fifo (fun _ => []) (fun _ => None).

Lemma fifo_run_app f es es' f' : fifo_run f es = Some f' -> fifo_run f (es ++ es') = fifo_run f' es'.
Proof.
  revert f. induction es as [|e es IH]; cbn; intros f H; [congruence|].
  destruct (fifo_step f e); [|discriminate]. auto.
Qed.

(** Programs which hold at most one mutex at a time and release what they acquire. *)
Fixpoint simple (h : list nat) (l : list mop) : Prop :=
  match l with
  | [] => h = []
  | OAcq m :: l' => h = [] /\ simple [m] l'
  | ORel m :: l' => h = [m] /\ simple [] l'
  | ODel m :: l' => h = [] /\ simple [] l'
  end.

Record wf_mcfg (c : mcfg) : Prop := {
  wm_tid : forall t, x_tid c t < x_threads c;
  wm_inj : forall t t', x_rank c t = x_rank c t' -> x_tid c t = x_tid c t' -> t = t';
  wm_prog : forall t, simple [] (x_prog c t)
}.

(** ** Locks as functions of the program counters *)
Definition tracks (own lk : nat -> option nat) : Prop := forall r t, lk r = Some t <-> own t = Some r.

Lemma tracks_ext own own' lk lk' : tracks own lk -> (forall t, own' t = own t) -> (forall r, lk' r = lk r) -> tracks own' lk'.
Proof. intros H H1 H2 r t. rewrite H1, H2. apply H. Qed.

Lemma tracks_acq own own' lk r t : tracks own lk -> lk r = None -> own t = None ->
  own' t = Some r -> (forall t', t' <> t -> own' t' = own t') -> tracks own' (upd lk r (Some t)).
Proof.
  unfold tracks. intros H Hl Ho Ho' Hf r' t'. unfold upd. destruct (Nat.eqb_spec r' r) as [->|Hr].
  - destruct (Nat.eq_dec t' t) as [->|Ht]; [split; auto|].
    rewrite Hf by auto. split; [congruence|]. intros E. apply H in E. congruence.
  - rewrite H. destruct (Nat.eq_dec t' t) as [->|Ht]; [|now rewrite Hf].
    rewrite Ho, Ho'. split; congruence.
Qed.

Lemma tracks_rel own own' lk r t : tracks own lk -> own t = Some r ->
  own' t = None -> (forall t', t' <> t -> own' t' = own t') -> tracks own' (upd lk r None).
Proof.
  unfold tracks. intros H Ho Ho' Hf r' t'. unfold upd. destruct (Nat.eqb_spec r' r) as [->|Hr].
  - split; [congruence|]. destruct (Nat.eq_dec t' t) as [->|Ht]; [congruence|].
    rewrite Hf by auto. intros E. apply H in E. apply H in Ho. congruence.
  - rewrite H. destruct (Nat.eq_dec t' t) as [->|Ht]; [|now rewrite Hf].
    rewrite Ho, Ho'. split; congruence.
Qed.

Lemma NoDup_app_tail {A} (l : list A) a : NoDup l -> ~ In a l -> NoDup (l ++ [a]).
Proof.
  intros H Hn. apply NoDup_rev in H. rewrite <- (rev_involutive (l ++ [a])). apply NoDup_rev.
  rewrite rev_app_distr. cbn. constructor; auto. now rewrite <- in_rev.
Qed.

Section Proofs.
Context (c : mcfg) (Hwf : wf_mcfg c).

Definition wait_of (p : mpc) : option (nat * Z) :=
  match p with QUnwin m o | QUnproc m o | QSend m o => Some (m, o) | _ => None end.
Definition win_of (p : mpc) : option nat :=
  match p with
  | QSwap m | QUnwin m _ | QGot m | QOut m | QCas m | QRecv m | QDrop m => Some m
  | _ => None
  end.
Definition has_proc (x : mthr) : bool :=
  match h_pc x with
  | QProc _ => false
  | QRun => match h_held x with [] => false | _ => x_lib c end
  | QSend _ _ | QProc2 _ | QRel _ => x_lib c
  | _ => true
  end.
Definition own_proc (s : mst) (t : nat) : option nat := if has_proc (x_thr s t) then Some (x_rank c t) else None.
Definition own_win (s : mst) (t : nat) : option nat := option_map (x_home c) (win_of (h_pc (x_thr s t))).

(** The operation in progress. *)
Definition starting (l : list mop) (m : nat) : Prop :=
  exists l', (l = OAcq m :: l' /\ simple [m] l') \/ (l = ODel m :: l' /\ simple [] l').
Definition ending (l : list mop) (m : nat) : Prop :=
  exists l', (l = ORel m :: l' \/ l = ODel m :: l') /\ simple [] l'.
Definition ok_thr (x : mthr) : Prop :=
  match h_pc x with
  | QRun => simple (h_held x) (h_todo x)
  | QProc m | QWin m | QSwap m | QUnwin m _ | QUnproc m _ | QSend m _ =>
      h_held x = [] /\ starting (h_todo x) m
  | QProc2 m | QWin2 m | QGot m => h_held x = [m] /\ starting (h_todo x) m
  | QOut m | QOut2 m => h_held x = [m] /\ exists l, h_todo x = OAcq m :: l /\ simple [m] l
  | QRel m | QRelWin m => h_held x = [m] /\ exists l, h_todo x = ORel m :: l /\ simple [] l
  | QCas m | QRecv m => h_held x = [m] /\ ending (h_todo x) m
  | QDrop m | QDrop2 m => h_held x = [] /\ ending (h_todo x) m
  end.

Definition last_id (l : list nat) : Z := last (map (lock_id c) l) unlocked.

Fixpoint chain (s : mst) (m a : nat) (l : list nat) : Prop :=
  match l with
  | [] => True
  | b :: l' => wait_of (h_pc (x_thr s b)) = Some (m, lock_id c a) /\ chain s m b l'
  end.

Record minv (q : nat -> list nat) (s : mst) : Prop := {
  v_thr : forall t, ok_thr (x_thr s t);
  v_proc : tracks (own_proc s) (x_proc s);
  v_win : tracks (own_win s) (x_win s);
  v_nodup : forall m, NoDup (q m);
  v_mem : forall m t, In t (q m) <->
            In m (h_held (x_thr s t)) \/ exists o, wait_of (h_pc (x_thr s t)) = Some (m, o);
  v_word : forall m, x_word s m = last_id (q m);
  v_chain : forall m, match q m with
                      | [] => True
                      | h :: l => In m (h_held (x_thr s h)) /\ chain s m h l
                      end;
  v_recv : forall t m, h_pc (x_thr s t) = QRecv m -> q m <> [t]
}.

Lemma id_inj t t' : lock_id c t = lock_id c t' -> t = t'.
Proof.
  unfold lock_id. intros E. pose proof (wm_tid c Hwf t). pose proof (wm_tid c Hwf t').
  assert (x_rank c t = x_rank c t' /\ x_tid c t = x_tid c t') as [E1 E2].
  { assert (x_tid c t + x_rank c t * x_threads c = x_tid c t' + x_rank c t' * x_threads c) as E' by nia.
    assert (x_rank c t = x_rank c t') as Er.
    { apply (f_equal (fun z => z / x_threads c)) in E'.
      rewrite !Nat.div_add, !Nat.div_small in E' by lia. lia. }
    rewrite Er in E'. lia. }
  now apply (wm_inj c Hwf).
Qed.

Lemma id_nonneg t : (0 <= lock_id c t)%Z.
Proof. unfold lock_id. lia. Qed.

Lemma id_dec t : Z.quot (lock_id c t) (Z.of_nat (x_threads c)) = Z.of_nat (x_rank c t) /\
  Z.rem (lock_id c t) (Z.of_nat (x_threads c)) = Z.of_nat (x_tid c t).
Proof.
  pose proof (wm_tid c Hwf t). pose proof (id_nonneg t). unfold lock_id in *.
  rewrite Z.quot_div_nonneg, Z.rem_mod_nonneg by lia.
  rewrite Z.add_comm, Z.div_add, Z.mod_add by lia.
  rewrite Z.div_small, Z.mod_small by lia. lia.
Qed.

Lemma last_id_app l t : last_id (l ++ [t]) = lock_id c t.
Proof. unfold last_id. rewrite map_app. cbn. apply last_last. Qed.

Lemma last_id_neg l : (last_id l < 0)%Z <-> l = [].
Proof.
  destruct l as [|a l] using rev_ind; [split; auto; intros; reflexivity|].
  rewrite last_id_app. pose proof (id_nonneg a). split; [lia|]. intros E. destruct l; discriminate.
Qed.

Lemma chain_ext s s' m a l :
  (forall b, In b l -> wait_of (h_pc (x_thr s' b)) = wait_of (h_pc (x_thr s b))) -> chain s m a l -> chain s' m a l.
Proof.
  revert a. induction l as [|b l IH]; cbn; intros a H; auto. intros [H1 H2]. split; [rewrite H; auto|].
  apply IH; auto.
Qed.

Lemma chain_app s m a l t :
  chain s m a l -> wait_of (h_pc (x_thr s t)) = Some (m, last (map (lock_id c) (a :: l)) unlocked) ->
  chain s m a (l ++ [t]).
Proof.
  revert a. induction l as [|b l IH]; intros a Hc Hw; [cbn in *; auto|].
  destruct Hc as [H1 H2]. change (chain s m a ((b :: l) ++ [t])) with
    (wait_of (h_pc (x_thr s b)) = Some (m, lock_id c a) /\ chain s m b (l ++ [t])).
  split; auto.
Qed.

Lemma upd_eq {A} (f : nat -> A) i a : upd f i a i = a.
Proof. unfold upd. now rewrite Nat.eqb_refl. Qed.
Lemma upd_ne {A} (f : nat -> A) i j a : j <> i -> upd f i a j = f j.
Proof. unfold upd. destruct (Nat.eqb_spec j i); congruence. Qed.

(** A step of [t] which changes neither the queues nor the words. *)
Lemma inv_local q s s' t :
  minv q s -> (forall t', t' <> t -> x_thr s' t' = x_thr s t') -> ok_thr (x_thr s' t) ->
  h_held (x_thr s' t) = h_held (x_thr s t) ->
  wait_of (h_pc (x_thr s' t)) = wait_of (h_pc (x_thr s t)) ->
  (forall m, x_word s' m = x_word s m) ->
  tracks (own_proc s') (x_proc s') -> tracks (own_win s') (x_win s') ->
  (forall m, h_pc (x_thr s' t) = QRecv m -> q m <> [t]) -> minv q s'.
Proof.
  intros Hi Hf Hok Hh Hw Hx Hp Hn Hrv.
  assert (forall t', h_held (x_thr s' t') = h_held (x_thr s t')) as Hh'
    by (intros t'; destruct (Nat.eq_dec t' t) as [->|]; auto; now rewrite Hf).
  assert (forall t', wait_of (h_pc (x_thr s' t')) = wait_of (h_pc (x_thr s t'))) as Hw'
    by (intros t'; destruct (Nat.eq_dec t' t) as [->|]; auto; now rewrite Hf).
  constructor; auto.
  - intros t'. destruct (Nat.eq_dec t' t) as [->|]; auto. rewrite Hf by auto. apply Hi.
  - apply Hi.
  - intros m t'. rewrite (v_mem q s Hi), Hh', Hw'. reflexivity.
  - intros m. rewrite Hx. apply Hi.
  - intros m. pose proof (v_chain q s Hi m) as H. destruct (q m) as [|h l]; auto. rewrite Hh'. split; [apply H|].
    eapply chain_ext; [|apply H]. intros. apply Hw'.
  - intros t' m. destruct (Nat.eq_dec t' t) as [->|]; auto. rewrite Hf by auto. apply Hi.
Qed.

Lemma not_wait q s m t : minv q s -> In m (h_held (x_thr s t)) -> wait_of (h_pc (x_thr s t)) = None.
Proof.
  intros Hi Hm. pose proof (v_thr q s Hi t) as H. unfold ok_thr in H.
  destruct (h_pc (x_thr s t)); auto; destruct H as [H _]; rewrite H in Hm; destruct Hm.
Qed.

Lemma chain_waits s m a l b : chain s m a l -> In b l -> exists a', wait_of (h_pc (x_thr s b)) = Some (m, lock_id c a') /\ In a' (a :: l).
Proof.
  revert a. induction l as [|x l IH]; intros a H Hb; [destruct Hb|].
  destruct H as [H1 H2]. destruct Hb as [->|Hb]; [exists a; cbn; auto|].
  destruct (IH x H2 Hb) as (a' & E & Hin). exists a'. split; auto. right. exact Hin.
Qed.

Lemma head_of q s m t : minv q s -> In m (h_held (x_thr s t)) -> exists l, q m = t :: l.
Proof.
  intros Hi Hm. assert (In t (q m)) as Hin by (apply (v_mem q s Hi); auto).
  pose proof (v_chain q s Hi m) as Hc. destruct (q m) as [|h l]; [destruct Hin|].
  destruct Hin as [->|Hin]; [eauto|]. destruct (chain_waits s m h l t (proj2 Hc) Hin) as (a & E & _).
  rewrite (not_wait q s m t Hi Hm) in E. discriminate.
Qed.

Lemma minv_init : minv (fun _ => []) (minit c).
Proof.
  constructor; cbn; auto.
  - intros t. apply (wm_prog c Hwf).
  - intros r t. split; discriminate.
  - intros r t. split; discriminate.
  - constructor.
  - intros m t. split; [intros []|]. intros [[]|[o H]]; discriminate.
  - discriminate.
Qed.


(** How a step of [t] treats the locks. *)
Section Frame.
  Context (q : nat -> list nat) (s s' : mst) (t : nat) (Hi : minv q s)
          (Hf : forall t', t' <> t -> x_thr s' t' = x_thr s t').
  Lemma proc_same lk : has_proc (x_thr s' t) = has_proc (x_thr s t) -> lk = x_proc s ->
    tracks (own_proc s') lk.
  Proof.
    intros E ->. eapply tracks_ext; [apply Hi| |reflexivity]. intros t'. unfold own_proc.
    destruct (Nat.eq_dec t' t) as [->|]; [now rewrite E|now rewrite Hf].
  Qed.
  Lemma proc_acq lk : x_proc s (x_rank c t) = None -> has_proc (x_thr s t) = false -> has_proc (x_thr s' t) = true ->
    lk = upd (x_proc s) (x_rank c t) (Some t) -> tracks (own_proc s') lk.
  Proof.
    intros H1 H2 H3 ->. eapply tracks_acq; [apply Hi|auto| | |]; unfold own_proc; rewrite ?H2, ?H3; auto.
    intros t' Ht. now rewrite Hf.
  Qed.
  Lemma proc_rel lk : has_proc (x_thr s t) = true -> has_proc (x_thr s' t) = false ->
    lk = upd (x_proc s) (x_rank c t) None -> tracks (own_proc s') lk.
  Proof.
    intros H2 H3 ->. eapply tracks_rel; [apply Hi| | |]; unfold own_proc; [rewrite H2; reflexivity|now rewrite H3|].
    intros t' Ht. now rewrite Hf.
  Qed.
  Lemma win_same lk : win_of (h_pc (x_thr s' t)) = win_of (h_pc (x_thr s t)) -> lk = x_win s ->
    tracks (own_win s') lk.
  Proof.
    intros E ->. eapply tracks_ext; [apply (v_win q s Hi)| |reflexivity]. intros t'. unfold own_win.
    destruct (Nat.eq_dec t' t) as [->|]; [now rewrite E|now rewrite Hf].
  Qed.
  Lemma win_acq m lk : x_win s (x_home c m) = None -> win_of (h_pc (x_thr s t)) = None ->
    win_of (h_pc (x_thr s' t)) = Some m ->
    lk = upd (x_win s) (x_home c m) (Some t) -> tracks (own_win s') lk.
  Proof.
    intros H1 H2 H3 ->. eapply tracks_acq; [apply (v_win q s Hi)|auto| | |]; unfold own_win; rewrite ?H2, ?H3; auto.
    intros t' Ht. now rewrite Hf.
  Qed.
  Lemma win_rel m lk : win_of (h_pc (x_thr s t)) = Some m -> win_of (h_pc (x_thr s' t)) = None ->
    lk = upd (x_win s) (x_home c m) None -> tracks (own_win s') lk.
  Proof.
    intros H2 H3 ->. eapply tracks_rel; [apply (v_win q s Hi)| | |]; unfold own_win; [rewrite H2; reflexivity|now rewrite H3|].
    intros t' Ht. now rewrite Hf.
  Qed.
End Frame.

(** The abstract lock which belongs to a state. *)
Definition agree (f : fifo) (s : mst) : Prop :=
  minv (f_queue f) s /\ forall m, f_in f m = hd_error (f_queue f m).

Lemma step_keep f s s' t :
  agree f s -> (forall t', t' <> t -> x_thr s' t' = x_thr s t') -> ok_thr (x_thr s' t) ->
  h_held (x_thr s' t) = h_held (x_thr s t) ->
  wait_of (h_pc (x_thr s' t)) = wait_of (h_pc (x_thr s t)) ->
  (forall m, x_word s' m = x_word s m) ->
  tracks (own_proc s') (x_proc s') -> tracks (own_win s') (x_win s') ->
  (forall m, h_pc (x_thr s' t) = QRecv m -> f_queue f m <> [t]) ->
  exists f', fifo_run f [] = Some f' /\ agree f' s'.
Proof.
  intros [Hi Hf] H1 H2 H3 H4 H5 H6 H7 H8. exists f. split; auto. split; auto. eapply inv_local; eauto.
Qed.

Ltac simp := unfold finish, set_pc, set_held, set_mthr, set_word, set_proc, set_win in *;
  cbn [x_thr x_proc x_win x_word h_pc h_held h_todo tl] in *; rewrite ?upd_eq in *.

(** Solves the obligations of [step_keep] for a step of [t]. *)
Ltac keep Ha Hi Et t :=
  apply (step_keep _ _ _ t Ha); simp; rewrite ?Et; cbn [h_pc h_held h_todo tl];
  [ intros; now rewrite upd_ne by auto
  | unfold ok_thr; cbn [h_pc h_held h_todo]
  | auto
  | auto
  | auto
  | first [ eapply (proc_same _ _ _ t Hi); [intros; simp; now rewrite upd_ne by auto | simp; rewrite Et; unfold has_proc; cbn; auto; fail | reflexivity]
          | eapply (proc_acq _ _ _ t Hi); [intros; simp; now rewrite upd_ne by auto | auto | rewrite Et; unfold has_proc; cbn; auto | simp; unfold has_proc; cbn; auto; fail | reflexivity]
          | eapply (proc_rel _ _ _ t Hi); [intros; simp; now rewrite upd_ne by auto | rewrite Et; unfold has_proc; cbn; auto; fail | simp; unfold has_proc; cbn; auto; fail | reflexivity]
          | idtac ]
  | first [ eapply (win_same _ _ _ t Hi); [intros; simp; now rewrite upd_ne by auto | simp; rewrite Et; cbn; auto; fail | reflexivity]
          | eapply (win_acq _ _ _ t Hi); [intros; simp; now rewrite upd_ne by auto | eassumption | rewrite Et; cbn; auto | simp; reflexivity | reflexivity]
          | eapply (win_rel _ _ _ t Hi); [intros; simp; now rewrite upd_ne by auto | rewrite Et; reflexivity | simp; reflexivity | reflexivity]
          | idtac ]
  | try discriminate ].

(** Changes of one queue [m] by a step of [t], which is in no other queue. *)
Lemma inv_queue q s s' t m l :
  minv q s -> (forall t', t' <> t -> x_thr s' t' = x_thr s t') -> ok_thr (x_thr s' t) ->
  tracks (own_proc s') (x_proc s') -> tracks (own_win s') (x_win s') ->
  (forall m', m' <> m -> ~ In t (q m')) ->
  (forall m', m' <> m -> ~ In m' (h_held (x_thr s' t))) ->
  (forall m' o, wait_of (h_pc (x_thr s' t)) = Some (m', o) -> m' = m) ->
  (forall m', m' <> m -> x_word s' m' = x_word s m') ->
  NoDup l ->
  (forall t', In t' l <-> In m (h_held (x_thr s' t')) \/ exists o, wait_of (h_pc (x_thr s' t')) = Some (m, o)) ->
  x_word s' m = last_id l ->
  match l with [] => True | h :: l' => In m (h_held (x_thr s' h)) /\ chain s' m h l' end ->
  (forall m', h_pc (x_thr s' t) <> QRecv m') ->
  (forall t', t' <> t -> In t' (q m) -> l <> [t']) ->
  minv (upd q m l) s'.
Proof.
  intros Hi Hf Hok Hp Hw Hq Hh Hwt Hx Hnd Hmem Hword Hch Hr1 Hr2. constructor; auto.
  - intros t'. destruct (Nat.eq_dec t' t) as [->|]; auto. rewrite Hf by auto. apply Hi.
  - intros m'. unfold upd. destruct (Nat.eqb_spec m' m); auto. apply Hi.
  - intros m' t'. unfold upd. destruct (Nat.eqb_spec m' m) as [->|Hm]; auto.
    destruct (Nat.eq_dec t' t) as [->|Ht].
    + split; [intros H; exfalso; eapply Hq; eauto|]. intros [H|[o H]]; exfalso; [eapply Hh; eauto|eauto].
    + rewrite Hf by auto. apply Hi.
  - intros m'. unfold upd. destruct (Nat.eqb_spec m' m) as [->|Hm]; auto. rewrite Hx by auto. apply Hi.
  - intros m'. unfold upd. destruct (Nat.eqb_spec m' m) as [->|Hm]; auto.
    pose proof (v_chain q s Hi m') as Hc. specialize (Hq m' Hm). destruct (q m') as [|h l']; auto.
    assert (forall b, In b (h :: l') -> b <> t) as Hne by (intros b Hb ->; auto).
    rewrite Hf by (apply Hne; left; auto). split; [apply Hc|].
    eapply chain_ext; [|apply Hc]. intros b Hb. rewrite Hf; auto. apply Hne. right. auto.
  - intros t' m' E. assert (t' <> t) as Ht by (intros ->; eapply Hr1; eauto). rewrite Hf in E by auto.
    unfold upd. destruct (Nat.eqb_spec m' m) as [->|Hm]; [|apply (v_recv q s Hi); auto].
    apply Hr2; auto. apply (v_mem q s Hi). left. pose proof (v_thr q s Hi t') as Ho. unfold ok_thr in Ho.
    rewrite E in Ho. destruct Ho as [-> _]. left. auto.
Qed.

Lemma no_queue q s t : minv q s -> h_held (x_thr s t) = [] -> wait_of (h_pc (x_thr s t)) = None -> forall m, ~ In t (q m).
Proof.
  intros Hi H1 H2 m H. apply (v_mem q s Hi) in H. rewrite H1, H2 in H. destruct H as [[]|[o H]]. discriminate.
Qed.

Lemma mstep_thr_inv f s t s' es :
  agree f s -> mstep_thr c s t = Some (s', es) -> exists f', fifo_run f es = Some f' /\ agree f' s'.
Proof.
  intros Ha H. pose proof Ha as [Hi Hin]. pose proof (v_thr _ _ Hi t) as Hok. unfold ok_thr in Hok.
  unfold mstep_thr in H.
  destruct (x_thr s t) as [p h todo] eqn:Et. cbn [h_pc h_held h_todo] in *.
  destruct p.
  - (* QRun *)
    destruct todo as [|[m|m|m] l]; [discriminate| | |]; injection H as <- <-; cbn in Hok; destruct Hok as [-> Hok];
    keep Ha Hi Et t.
    + split; auto. exists l. auto.
    + split; auto. eauto.
    + split; auto. exists l. auto.
  - destruct (x_proc s (x_rank c t)) eqn:E; [discriminate|]. injection H as <- <-. keep Ha Hi Et t. auto.
  - destruct (x_win s (x_home c m)) eqn:E; [discriminate|]. injection H as <- <-. keep Ha Hi Et t. auto.
  - (* QSwap *)
    destruct Hok as [-> Hst].
    assert (forall m', ~ In t (f_queue f m')) as Hnq by (apply (no_queue _ s); auto; now rewrite Et).
    pose proof (v_word _ _ Hi m) as Hword. pose proof (last_id_neg (f_queue f m)) as Hneg. rewrite <- Hword in Hneg.
    pose proof (v_mem _ _ Hi m) as Hmem. pose proof (v_chain _ _ Hi m) as Hch. pose proof (v_nodup _ _ Hi m) as Hnd.
    destruct (Z.ltb_spec (x_word s m) 0) as [Hlt|Hge]; injection H as <- <-.
    + apply Hneg in Hlt. rewrite Hlt in *.
      exists (Fifo (upd (f_queue f) m [t]) (upd (f_in f) m (Some t))). split.
      { cbn. rewrite upd_eq, Hin, Hlt. cbn. now rewrite Nat.eqb_refl. }
      split.
      2:{ intros m'. cbn. unfold upd. destruct (Nat.eqb_spec m' m) as [->|]; auto. }
      cbn [f_queue]. apply (inv_queue _ s _ t m [t] Hi); simp; auto.
      * intros. now rewrite upd_ne.
      * unfold ok_thr. cbn. rewrite Et. auto.
      * eapply (proc_same _ _ _ t Hi); [intros; simp; now rewrite upd_ne by auto|simp; now rewrite Et|reflexivity].
      * eapply (win_same _ _ _ t Hi); [intros; simp; now rewrite upd_ne by auto|simp; now rewrite Et|reflexivity].
      * intros m' Hm' [E|[]]. auto.
      * discriminate.
      * intros m' Hm'. now rewrite upd_ne.
      * repeat constructor. intros [].
      * intros t'. destruct (Nat.eq_dec t' t) as [->|Ht].
        -- simp. cbn. split; auto.
        -- rewrite !upd_ne by auto. rewrite <- Hmem. cbn. intuition.
      * split; [cbn; auto|exact I].
      * discriminate.
      * intros t' Ht' Hin'. rewrite Hlt in Hin'. destruct Hin'.
    + assert (f_queue f m <> []) as Hne by (intros E; apply Hneg in E; lia).
      exists (Fifo (upd (f_queue f) m (f_queue f m ++ [t])) (f_in f)). split; [reflexivity|]. split.
      2:{ intros m'. cbn. unfold upd. destruct (Nat.eqb_spec m' m) as [->|]; auto. rewrite Hin. destruct (f_queue f m); auto. congruence. }
      cbn [f_queue]. apply (inv_queue _ s _ t m _ Hi); simp; auto.
      * intros. now rewrite upd_ne.
      * unfold ok_thr. cbn. rewrite Et. auto.
      * eapply (proc_same _ _ _ t Hi); [intros; simp; now rewrite upd_ne by auto|simp; now rewrite Et|reflexivity].
      * eapply (win_same _ _ _ t Hi); [intros; simp; now rewrite upd_ne by auto|simp; now rewrite Et|reflexivity].
      * rewrite Et. intros m' Hm' [].
      * cbn. congruence.
      * intros m' Hm'. now rewrite upd_ne.
      * apply NoDup_app_tail; auto.
      * intros t'. rewrite in_app_iff. destruct (Nat.eq_dec t' t) as [->|Ht].
        -- simp. cbn. split; eauto.
        -- rewrite !upd_ne by auto. rewrite <- Hmem. cbn. intuition congruence.
      * symmetry. apply last_id_app.
      * assert (forall b, In b (f_queue f m) -> b <> t) as Hbt by (intros b Hb ->; now apply (Hnq m)).
        destruct (f_queue f m) as [|h l] eqn:Eq; [congruence|]. cbn [app]. split.
        -- rewrite upd_ne by (apply Hbt; left; auto). apply Hch.
        -- apply chain_app.
           ++ eapply chain_ext; [|apply Hch]. intros b Hb. simp. now rewrite upd_ne by (apply Hbt; right; auto).
           ++ simp. cbn [wait_of]. rewrite Hword. reflexivity.
      * discriminate.
      * intros t' Ht' Hin' E. destruct (f_queue f m) as [|x [|y k]]; [congruence|discriminate|discriminate].
  - injection H as <- <-. keep Ha Hi Et t. auto.
  - injection H as <- <-. destruct (x_lib c) eqn:El; keep Ha Hi Et t; auto.
  - discriminate.
  - destruct (x_lib c) eqn:El; [|destruct (x_proc s (x_rank c t)) eqn:E; [discriminate|]]; injection H as <- <-; keep Ha Hi Et t; auto.
  - destruct (x_win s (x_home c m)) eqn:E; [discriminate|]. injection H as <- <-. keep Ha Hi Et t; auto.
  - destruct Hok as (-> & l & [(-> & Hl)|(-> & Hl)]); injection H as <- <-; keep Ha Hi Et t.
    + eauto.
    + split; auto. exists l. auto.
  - injection H as <- <-. keep Ha Hi Et t. auto.
  - injection H as <- <-. destruct Hok as (-> & l & -> & Hl). destruct (x_lib c) eqn:El; keep Ha Hi Et t; auto.
  - destruct Hok as (-> & l & -> & Hl). destruct (x_lib c) eqn:El; [|destruct (x_proc s (x_rank c t)) eqn:E; [discriminate|]]; injection H as <- <-; keep Ha Hi Et t; eauto.
  - destruct Hok as (-> & l & -> & Hl). destruct (x_win s (x_home c m)) eqn:E; [discriminate|]. injection H as <- <-. keep Ha Hi Et t; auto.
    split; auto. exists l. auto.
  - (* QCas *)
    destruct Hok as [-> Hend]. rewrite (v_word _ _ Hi m) in H.
    destruct (head_of _ _ m t Hi) as (l & Eq); [rewrite Et; left; auto|].
    pose proof (v_mem _ _ Hi m) as Hmem. pose proof (v_chain _ _ Hi m) as Hch. pose proof (v_nodup _ _ Hi m) as Hnd.
    destruct (Z.eqb_spec (last_id (f_queue f m)) (lock_id c t)) as [El|El]; injection H as <- <-;
      [|keep Ha Hi Et t; auto; intros m' E E'; injection E as <-; apply El; rewrite E'; reflexivity].
    rewrite Eq in *. assert (l = []) as ->.
    { destruct l as [|x l _] using rev_ind; auto. exfalso. change (t :: l ++ [x]) with ((t :: l) ++ [x]) in *.
      rewrite last_id_app in El. apply id_inj in El. subst x. cbn in Hnd. inversion Hnd as [|? ? Hn _]. apply Hn, in_app_iff. cbn; auto. }
    exists (Fifo (upd (f_queue f) m []) (upd (f_in f) m None)). split.
    { cbn. rewrite Eq, Hin, Eq. cbn. now rewrite Nat.eqb_refl. }
    split.
    2:{ intros m'. cbn. unfold upd. destruct (Nat.eqb_spec m' m) as [->|]; auto. }
    cbn [f_queue]. apply (inv_queue _ s _ t m [] Hi); simp; auto.
    * intros. now rewrite upd_ne.
    * unfold ok_thr. cbn. destruct (Nat.eq_dec m m); [|congruence]. rewrite Et. auto.
    * eapply (proc_same _ _ _ t Hi); [intros; simp; now rewrite upd_ne by auto|simp; now rewrite Et|reflexivity].
    * eapply (win_same _ _ _ t Hi); [intros; simp; now rewrite upd_ne by auto|simp; now rewrite Et|reflexivity].
    * intros m' Hm' H. apply (v_mem _ _ Hi) in H. rewrite Et in H. destruct H as [[E|[]]|[o H]]; [auto|discriminate].
    * intros m' Hm'. cbn. destruct (Nat.eq_dec m m); [|congruence]. intros [].
    * discriminate.
    * intros m' Hm'. now rewrite upd_ne.
    * constructor.
    * intros t'. destruct (Nat.eq_dec t' t) as [->|Ht].
      -- simp. cbn. destruct (Nat.eq_dec m m); [|congruence]. split; [intros []|]. intros [[]|[o H]]. discriminate.
      -- rewrite !upd_ne by auto. rewrite <- Hmem. cbn. intuition.
    * discriminate.
    * discriminate.
  - discriminate.
  - injection H as <- <-. keep Ha Hi Et t. auto.
  - injection H as <- <-. destruct Hok as (-> & l & [-> | ->] & Hl);  keep Ha Hi Et t; auto.
Qed.

Lemma remove_single m : remove Nat.eq_dec m [m] = [].
Proof. cbn. destruct (Nat.eq_dec m m); congruence. Qed.

(** The rendezvous happens between a releasing thread and the next one in the same queue. *)
Lemma msg_next q s a b m old m' : minv q s -> h_pc (x_thr s a) = QSend m old -> h_pc (x_thr s b) = QRecv m' ->
  Z.quot old (Z.of_nat (x_threads c)) = Z.of_nat (x_rank c b) ->
  Z.rem old (Z.of_nat (x_threads c)) = Z.of_nat (x_tid c b) ->
  m' = m /\ old = lock_id c b /\ exists l, q m = b :: a :: l.
Proof.
  intros Hi Ea Eb H1 H2.
  assert (In a (q m)) as Hin by (apply (v_mem _ _ Hi); rewrite Ea; cbn; eauto).
  pose proof (v_chain _ _ Hi m) as Hch. pose proof (v_mem _ _ Hi m) as Hmem. destruct (q m) as [|h l] eqn:Eq; [destruct Hin|].
  destruct Hin as [->|Hin].
  { pose proof (not_wait _ _ m a Hi (proj1 Hch)) as E. rewrite Ea in E. discriminate. }
  destruct (chain_waits s m h l a (proj2 Hch) Hin) as (p & Ep & Hp). rewrite Ea in Ep. cbn in Ep.
  assert (old = lock_id c p) as -> by congruence. destruct (id_dec p) as [D1 D2].
  assert (p = b) as -> by (apply (wm_inj c Hwf); lia).
  pose proof (v_thr _ _ Hi b) as Hok. unfold ok_thr in Hok. rewrite Eb in Hok. destruct Hok as [Hh _].
  assert (m' = m) as ->.
  { apply Hmem in Hp. rewrite Eb, Hh in Hp. destruct Hp as [[E|[]]|[o E]]; [auto|discriminate]. }
  split; auto. split; auto.
  assert (In m (h_held (x_thr s b))) as Hb by (rewrite Hh; left; auto).
  destruct (head_of _ _ m b Hi Hb) as (l' & El). assert (h = b) as -> by congruence. exists (tl l).
  rewrite <- Eq. assert (forall x l, chain s m x l -> In a l -> ~ In b l -> x = b -> exists l', l = a :: l') as Hgo.
  { intros x [|y k] Hc Ha Hn ->; [destruct Ha|]. destruct Ha as [->|Ha]; [eauto|]. exfalso.
    destruct Hc as [_ Hc]. destruct (chain_waits s m y k a Hc Ha) as (z & Ez & Hz). rewrite Ea in Ez. cbn in Ez.
    assert (lock_id c b = lock_id c z) as E by congruence. apply id_inj in E. subst z. auto. }
  pose proof (v_nodup _ _ Hi m) as Hnd. rewrite Eq in Hnd. inversion Hnd; subst.
  destruct (Hgo b l (proj2 Hch) Hin ltac:(auto) eq_refl) as (l2 & ->). rewrite Eq. reflexivity.
Qed.

Lemma mstep_msg_inv f s a b s' es :
  agree f s -> mstep_msg c s a b = Some (s', es) -> exists f', fifo_run f es = Some f' /\ agree f' s'.
Proof.
  intros Ha H. pose proof Ha as [Hi Hin]. unfold mstep_msg in H.
  pose proof (v_thr _ _ Hi a) as Hoka. pose proof (v_thr _ _ Hi b) as Hokb. unfold ok_thr in Hoka, Hokb.
  destruct (h_pc (x_thr s a)) as [| | | | | |m old| | | | | | | | | | |] eqn:Ea; try discriminate.
  destruct (h_pc (x_thr s b)) as [| | | | | | | | | | | | | | |m'| |] eqn:Eb; try discriminate.
  destruct (Z.eqb_spec (Z.quot old (Z.of_nat (x_threads c))) (Z.of_nat (x_rank c b))) as [H1|]; [|discriminate].
  destruct (Z.eqb_spec (Z.rem old (Z.of_nat (x_threads c))) (Z.of_nat (x_tid c b))) as [H2|]; [|discriminate].
  cbn [andb] in H.
  destruct (msg_next _ _ a b m old m' Hi Ea Eb H1 H2) as (-> & -> & l & Eq).
  destruct Hoka as [Hha Hsa], Hokb as [Hhb Hsb].
  assert (a <> b) as Hab by (intros ->; congruence).
  rewrite Hhb, remove_single in H.
  assert (es = [ELeave m b; EEnter m a]) as -> by congruence.
  assert (s' = set_held (set_held s b (QDrop m) []) a (QProc2 m) [m]) as ->.
  { injection H as <-. now rewrite Hha. }
  clear H.
  pose proof (v_mem _ _ Hi m) as Hmem. pose proof (v_chain _ _ Hi m) as Hch. pose proof (v_nodup _ _ Hi m) as Hnd.
  rewrite Eq in Hmem, Hch, Hnd.
  exists (Fifo (upd (f_queue f) m (a :: l)) (upd (upd (f_in f) m None) m (Some a))). split.
  { cbn. rewrite Eq, Hin, Eq. cbn. rewrite Nat.eqb_refl. cbn. now rewrite !upd_eq, Nat.eqb_refl. }
  split.
  2:{ intros m'. cbn. unfold upd. destruct (Nat.eqb_spec m' m) as [->|]; auto. }
  cbn [f_queue].
  set (s' := set_held (set_held s b (QDrop m) []) a (QProc2 m) [m]).
  assert (x_thr s' a = MThr (QProc2 m) [m] (h_todo (x_thr s a))) as Ea'
    by (unfold s', set_held, set_mthr; cbn; now rewrite upd_eq, upd_ne by auto).
  assert (x_thr s' b = MThr (QDrop m) [] (h_todo (x_thr s b))) as Eb'
    by (unfold s', set_held, set_mthr; cbn; now rewrite upd_ne, upd_eq by auto).
  assert (forall t, t <> a -> t <> b -> x_thr s' t = x_thr s t) as Ef
    by (intros t Ht1 Ht2; unfold s', set_held, set_mthr; cbn; now rewrite !upd_ne by auto).
  assert (forall t m', In t (f_queue f m') -> m' <> m -> t <> a /\ t <> b) as Hno.
  { intros t m' Ht Hm. apply (v_mem _ _ Hi) in Ht. split; intros ->.
    - rewrite Ea, Hha in Ht. destruct Ht as [[]|[o E]]. cbn in E. congruence.
    - rewrite Eb, Hhb in Ht. destruct Ht as [[E|[]]|[o E]]; [auto|discriminate]. }
  constructor.
  - intros t. destruct (Nat.eq_dec t a) as [->|H3]; [rewrite Ea'; unfold ok_thr; cbn; auto|].
    destruct (Nat.eq_dec t b) as [->|H4]; [rewrite Eb'; unfold ok_thr; cbn; auto|]. rewrite Ef by auto. apply Hi.
  - eapply tracks_ext; [apply (v_proc _ _ Hi)| |reflexivity]. intros t. unfold own_proc.
    destruct (Nat.eq_dec t a) as [->|H3]; [rewrite Ea'; unfold has_proc; rewrite Ea; reflexivity|].
    destruct (Nat.eq_dec t b) as [->|H4]; [rewrite Eb'; unfold has_proc; rewrite Eb; reflexivity|]. now rewrite Ef by auto.
  - eapply tracks_ext; [apply (v_win _ _ Hi)| |reflexivity]. intros t. unfold own_win.
    destruct (Nat.eq_dec t a) as [->|H3]; [rewrite Ea', Ea; reflexivity|].
    destruct (Nat.eq_dec t b) as [->|H4]; [rewrite Eb', Eb; reflexivity|]. now rewrite Ef by auto.
  - intros m'. unfold upd. destruct (Nat.eqb_spec m' m) as [->|]; [now inversion Hnd|apply Hi].
  - intros m' t. unfold upd. destruct (Nat.eqb_spec m' m) as [->|Hm].
    + destruct (Nat.eq_dec t a) as [->|H3]; [rewrite Ea'; cbn; split; auto|].
      destruct (Nat.eq_dec t b) as [->|H4].
      * rewrite Eb'. cbn [h_held h_pc wait_of]. inversion Hnd; subst. split; [contradiction|]. intros [[]|[o E]]; discriminate.
      * rewrite Ef by auto. rewrite <- Hmem. cbn. intuition congruence.
    + destruct (Nat.eq_dec t a) as [->|H3].
      { rewrite Ea'. split; [intros H; destruct (Hno a m' H Hm); congruence|]. cbn. intros [[E|[]]|[o E]]; [congruence|discriminate]. }
      destruct (Nat.eq_dec t b) as [->|H4].
      { rewrite Eb'. split; [intros H; destruct (Hno b m' H Hm); congruence|]. cbn. intros [[]|[o E]]; discriminate. }
      rewrite Ef by auto. apply Hi.
  - intros m'. change (x_word s' m') with (x_word s m'). rewrite (v_word _ _ Hi). unfold upd.
    destruct (Nat.eqb_spec m' m) as [->|]; auto. rewrite Eq. unfold last_id. cbn [map].
    destruct (map (lock_id c) (a :: l)) eqn:E; [discriminate|]. cbn [map] in E. rewrite E. reflexivity.
  - intros m'. unfold upd. destruct (Nat.eqb_spec m' m) as [->|Hm].
    + rewrite Ea'. split; [cbn; auto|]. destruct Hch as (_ & _ & Hch). eapply chain_ext; [|exact Hch].
      intros x Hx. inversion Hnd as [|? ? Hn1 Hn2]; subst. inversion Hn2 as [|? ? Hn3 _]; subst.
      rewrite Ef; auto; intros ->; auto. apply Hn1. right. auto.
    + pose proof (v_chain _ _ Hi m') as Hc. destruct (f_queue f m') as [|h k] eqn:Ek; auto.
      assert (forall x, In x (h :: k) -> x_thr s' x = x_thr s x) as Hx.
      { intros x Hx. rewrite <- Ek in Hx. destruct (Hno x m' Hx Hm). apply Ef; auto. }
      rewrite Hx by (left; auto). split; [apply Hc|]. eapply chain_ext; [|apply Hc]. intros x Hk. rewrite Hx by (right; auto). auto.
  - intros t m' E. destruct (Nat.eq_dec t a) as [->|H3]; [rewrite Ea' in E; discriminate|].
    destruct (Nat.eq_dec t b) as [->|H4]; [rewrite Eb' in E; discriminate|]. rewrite Ef in E by auto.
    unfold upd. destruct (Nat.eqb_spec m' m) as [->|Hm]; [|now apply (v_recv _ _ Hi)]. congruence.
Qed.

Lemma mrun_agree xs f s s' es : agree f s -> mrun c s xs = Some (s', es) ->
  exists f', fifo_run f es = Some f' /\ agree f' s'.
Proof.
  revert f s es. induction xs as [|x xs IH]; cbn; intros f s es Ha H.
  - injection H as <- <-. exists f. auto.
  - destruct (mstep c s x) as [[s1 e1]|] eqn:E; [|discriminate].
    destruct (mrun c s1 xs) as [[s2 e2]|] eqn:E2; [|discriminate]. injection H as <- <-.
    assert (exists f1, fifo_run f e1 = Some f1 /\ agree f1 s1) as (f1 & F1 & A1)
      by (destruct x; [eapply mstep_thr_inv|eapply mstep_msg_inv]; eauto).
    destruct (IH f1 s1 e2 A1 E2) as (f2 & F2 & A2). exists f2. split; auto. now rewrite (fifo_run_app _ _ _ f1).
Qed.

Lemma agree_init : agree fifo0 (minit c).
Proof. split; [exact minv_init|reflexivity]. Qed.

Lemma mreach xs s es : mrun c (minit c) xs = Some (s, es) -> exists f, fifo_run fifo0 es = Some f /\ agree f s.
Proof. apply mrun_agree, agree_init. Qed.

End Proofs.
