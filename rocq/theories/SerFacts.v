(** * Proofs: MPI calls of one thread at a time *)
From Coq Require Import Lia.
From Verif Require Export SerSpec.

Lemma upd_eq {A} (f : nat -> A) i a : upd f i a i = a.
Proof. unfold upd. now rewrite Nat.eqb_refl. Qed.
Lemma upd_ne {A} (f : nat -> A) i j a : j <> i -> upd f i a j = f j.
Proof. unfold upd. intros H. destruct (Nat.eqb_spec j i); congruence. Qed.

(** MPI calls only with [LMpi]; [b]: it is held. *)
Fixpoint mok (b : bool) (k : code) : Prop :=
  match k with
  | Done => True
  | Lock l k => mok (match l with LMpi => true | _ => b end) k
  | Unlock l k => mok (match l with LMpi => false | _ => b end) k
  | Try l yes no => mok (match l with LMpi => true | _ => b end) yes /\ mok b no
  | Mpi k => b = true /\ mok b k
  | Nc k | Bar k | HandOver k => mok b k
  end.

Section Calls.
Variable cn : bool.
Notation c := (Cfg true true cn).

Lemma mok_times b f n : (forall k, mok b k -> mok b (f k)) -> forall k, mok b k -> mok b (times n f k).
Proof. intros H. induction n; cbn; auto. Qed.
Lemma mok_inc b g d n k : mok b k -> mok b (inc c g d n k).
Proof. unfold inc. cbn. destruct cn; auto. Qed.
Lemma mok_reader_open b o k e : mok b k -> mok b e -> mok b (reader_open c o k e).
Proof. intros. destruct o; cbn; auto. apply mok_times; cbn; auto. Qed.
Lemma mok_reader_close b f k : mok b k -> mok b (reader_close c f k).
Proof. destruct f; cbn; auto. Qed.
Lemma mok_block b k : mok b k -> mok b (get_block c k).
Proof. cbn. auto. Qed.
Lemma mok_dim b x k : mok b k -> mok b (get_offset c x (get_scaling c x k)).
Proof. unfold get_offset, get_scaling, within. cbn. destruct (d_var x), (d_one x); cbn; auto. Qed.
Lemma mok_try b g d a y n : (forall i, mok b (y i)) -> mok b n -> mok b (cm_try c g d a y n).
Proof. intros. destruct a; cbn; auto. Qed.
Lemma mok_numa_cache b g d at_ ds y n : mok b y -> mok b n -> mok b (numa_cache c g d at_ ds y n).
Proof.
  intros Hy Hn. induction ds as [|i ds IH]; cbn [numa_cache]; auto. destruct (i =? d); auto.
  apply mok_try; auto.
Qed.
Lemma mok_win_start g w k : mok true k -> mok false (win_start c g w k).
Proof. intros. destruct w; cbn; auto. Qed.
Lemma mok_win_transfer g r k : mok true k -> mok true (win_transfer c g r k).
Proof. intros. destruct r; cbn; auto. Qed.
Lemma mok_win_end g k : mok false k -> mok true (win_end c g k).
Proof. cbn. auto. Qed.
Lemma mok_win_add g w k : mok false k -> mok false (win_add c g w k).
Proof. intros. apply mok_win_start, mok_win_end, H. Qed.
Lemma mok_win_delete g o w k : mok false k -> mok false (win_delete c g o w k).
Proof. intros. destruct o, w; cbn; auto. Qed.
Lemma mok_load b r k : mok b k -> mok b (load c r k).
Proof. intros. apply mok_inc. cbn. auto. Qed.

Lemma mok_get kd r k : no_comm_thread kd -> mok false k -> mok false (get c kd r k).
Proof.
  intros Hk H. assert (Hf : mok false (cm_unlock c (r_g r) (r_d r) (r_slot r) k)) by (cbn; auto).
  destruct kd as [|m nf nc| |m nc|]; cbn [get].
  - now apply mok_inc.
  - unfold fulldist_get. destruct (r_local r); [now apply mok_inc|]. apply mok_inc. cbn [mok cm_get lock_ unlock_ real thr lib andb].
    destruct (r_hit r); [exact Hf|].
    assert (Hm : mok false (inc c (r_g r) (r_d r) MPI (match m with MNo => cm_unlock c (r_g r) (r_d r) (r_slot r) k
       | MThread => thread_full_transfer c (r_g r) (cm_unlock c (r_g r) (r_d r) (r_slot r) k)
       | MWin => win_full_transfer c (r_g r) (cm_unlock c (r_g r) (r_d r) (r_slot r) k) end))).
    { apply mok_inc. destruct m; [exact Hf|destruct Hk|cbn; auto]. }
    unfold numa_full. destruct (nf && r_near r); [now apply mok_inc|]. destruct nc; auto.
    apply mok_numa_cache; auto. now apply mok_inc.
  - apply mok_inc. cbn [mok cm_get lock_ unlock_ real thr lib andb]. destruct (r_hit r); [exact Hf|]. now apply mok_load.
  - unfold cachedist_get. apply mok_inc. cbn [mok cm_get lock_ unlock_ real thr lib andb]. destruct (r_hit r); [exact Hf|].
    assert (G : forall y n, mok false y -> mok false n ->
      mok false (if nc then numa_cache c (r_g r) (r_d r) (r_at r) (seq 0 (r_doms r)) y n else n)).
    { intros. destruct nc; auto. now apply mok_numa_cache. }
    destruct m; [|destruct Hk|].
    + apply G; [now apply mok_inc|now apply mok_load].
    + apply mok_win_delete, G; [now apply mok_inc, mok_win_add|]. apply mok_win_start, mok_win_transfer.
      destruct (r_found r); [apply mok_inc|apply mok_load]; now apply mok_win_end.
  - apply mok_inc, mok_inc. cbn. auto.
Qed.

Lemma mok_chk b f i k e : mok b k -> mok b e -> mok b (chk f i k e).
Proof. unfold chk. destruct (f i); auto. Qed.
Lemma mok_share b f i k e : mok b k -> mok b e -> mok b (share f i k e).
Proof. intros. unfold share. cbn [mok]. now apply mok_chk. Qed.
Lemma mok_shares b f n : forall i k e, mok b k -> mok b e -> mok b (shares f i n k e).
Proof. induction n; cbn [shares]; intros; auto. apply mok_share; auto. Qed.
Lemma mok_level_open a k e : (a_basic a = true \/ a_first a = false) -> mok false k -> mok false e -> mok false (level_open c a k e).
Proof.
  intros Ha Hk He. unfold level_open. apply mok_chk; auto. apply mok_reader_open; auto.
  induction (a_dims a) as [|x l IH]; cbn [fold_right]; [|now apply mok_dim].
  unfold type_check. destruct (a_basic a); [now apply mok_chk|]. destruct Ha as [Ha|Ha]; [discriminate|]. rewrite Ha. cbn [mok lock_ unlock_ real thr lib andb].
  now apply mok_chk.
Qed.
Lemma mok_alloc m f i k e : mok false k -> mok false e -> mok false (alloc c m f i k e).
Proof. intros. unfold alloc. destruct m; [cbn [within mok lock_ unlock_ real thr lib andb]; split; auto|]; now apply mok_chk. Qed.
Lemma mok_numa_alloc m d f i k e : mok false k -> mok false e -> mok false (numa_alloc c m d f i k e).
Proof. intros. unfold numa_alloc. destruct (d =? 0); [apply mok_alloc; auto|]; now apply mok_share. Qed.
Lemma mok_dict_init m d f k : mok false k -> mok false (dict_init c m d f k).
Proof. intros. unfold dict_init. destruct (d =? 0); [apply mok_alloc|]; now apply mok_share. Qed.
Lemma mok_full_open m a k e : (a_basic a = true \/ a_first a = false) -> mok false k -> mok false e -> mok false (full_open c m a k e).
Proof.
  intros. unfold full_open. apply mok_level_open; auto. apply mok_numa_alloc; auto. apply mok_times; [apply mok_block|]. now apply mok_reader_close.
Qed.
Lemma mok_kind_open kd a k e : no_comm_thread kd -> (a_basic a = true \/ a_first a = false) -> mok false k -> mok false e ->
  mok false (kind_open c kd a k e).
Proof.
  intros Hk Ha H1 H2.
  assert (Hn : forall nc : bool, mok false (if nc then numa_cache_init (a_fail a) k e else k)).
  { intros []; auto. now apply mok_share. }
  destruct kd as [|m nf nc| |m nc|]; cbn [kind_open].
  - now apply mok_full_open.
  - apply mok_full_open; auto. apply mok_alloc; auto. destruct m; [apply Hn|destruct Hk|].
    unfold win_full_init. destruct (a_d a =? 0); [|apply mok_shares; auto]. cbn [within mok lock_ unlock_ real thr lib andb].
    split; auto. apply mok_chk; auto. apply mok_shares; auto.
  - apply mok_level_open; auto. now apply mok_numa_alloc.
  - apply mok_level_open; auto. apply mok_numa_alloc; auto. destruct m; [apply Hn|destruct Hk|].
    unfold win_cache_init. apply mok_share; auto. apply mok_dict_init.
    destruct (a_d a =? 0); [|apply mok_shares; auto]. cbn [mok lock_ unlock_ real thr lib andb]. split; auto.
    destruct (a_fail a 21); [cbn; auto|]. cbn [mok]. split; auto. destruct (a_fail a 22); [cbn; auto|]. cbn [mok]. apply mok_shares; auto.
  - now apply mok_level_open.
Qed.
Lemma mok_open kd a k : no_comm_thread kd -> (a_basic a = true \/ a_first a = false) -> mok false k -> mok false (open c kd a k).
Proof.
  intros Hk Ha H. unfold open.
  assert (G : mok false (if a_master a then once c (a_gr a) (a_once a) (a_self a) (times (a_resize a) Bar (kind_open c kd a (Bar k) (Bar k))) else Bar k)).
  { destruct (a_master a); [|exact H].
    assert (mok false (times (a_resize a) Bar (kind_open c kd a (Bar k) (Bar k)))).
    { apply mok_times; auto. now apply mok_kind_open. }
    unfold once. destruct (a_once a) as [|[|]]; auto. destruct (a_self a); cbn; auto. }
  destruct (a_init a); auto.
Qed.

Lemma mok_program p : Forall kept p -> mok false (program c p).
Proof.
  induction p as [|x p IH]; intros H; [exact Logic.I|]. apply Forall_cons_iff in H as [Hx H]. specialize (IH H).
  change (mok false (call_code c x (program c p))).
  destruct x; cbn [kept] in Hx; try destruct Hx; cbn [call_code]; [cbn; auto|cbn; auto|apply mok_open; auto|].
  now apply mok_get.
Qed.

(** *** All executions *)
Variables (N : nat) (p : nat -> list call).
Definition ser (s : st) : Prop :=
  forall t, exists b, mok b (s_code s t) /\ (b = true -> s_owner s LMpi = Some (Thr t)).

Lemma ser_step s a s' : ser s -> step N s a = Go s' -> ser s'.
Proof.
  intros I H. destruct a as [t|]; cbn [step] in H.
  2:{ destruct (s_owner s LReg) as [[]|]; try discriminate. injection H as <-. intros t. destruct (I t) as (b & B1 & B2).
      exists b. split; auto. }
  destruct (t <? N); [|discriminate]. destruct (I t) as (b & B1 & B2).
  assert (Hoth : forall u k o, u <> t -> (o LMpi = s_owner s LMpi \/ s_owner s LMpi = None \/ s_owner s LMpi = Some (Thr t)) ->
    exists b, mok b (upd (s_code s) t k u) /\ (b = true -> o LMpi = Some (Thr u))).
  { intros u k o Hne Ho. rewrite upd_ne by auto. destruct (I u) as (b' & C1 & C2). exists b'. split; auto. intros E. specialize (C2 E).
    destruct Ho as [->|[Ho|Ho]]; congruence. }
  assert (Hset : forall l o, set_owner (s_owner s) l o LMpi = match l with LMpi => o | _ => s_owner s LMpi end).
  { intros l o. unfold set_owner. destruct (lock_dec LMpi l) as [<-|Hn]; auto. destruct l; congruence. }
  assert (Hown : forall l, owns s l t = true -> s_owner s l = Some (Thr t)).
  { intros l. unfold owns. destruct (s_owner s l) as [[u|]|]; try discriminate. intros E%Nat.eqb_eq. now subst. }
  destruct (s_code s t) as [|l k|l k|l y n|k|k|k|k] eqn:Ec; cbn [mok] in B1; try discriminate.
  - destruct (s_owner s l) eqn:Eo; [destruct (owns s l t); discriminate|]. injection H as <-. intros u. cbn [s_code s_owner].
    destruct (Nat.eq_dec u t) as [->|Hne].
    + rewrite upd_eq. eexists. split; [exact B1|]. rewrite Hset. destruct l; auto.
    + apply Hoth; auto. rewrite Hset. destruct l; auto.
  - destruct (owns s l t) eqn:Eo; [|discriminate]. apply Hown in Eo. injection H as <-. intros u. cbn [s_code s_owner].
    destruct (Nat.eq_dec u t) as [->|Hne].
    + rewrite upd_eq. eexists. split; [exact B1|]. rewrite Hset. destruct l; auto. discriminate.
    + apply Hoth; auto. rewrite Hset. destruct l; auto.
  - destruct B1 as [By Bn]. destruct (s_owner s l) eqn:Eo; [destruct (owns s l t); [discriminate|]|]; injection H as <-; intros u; cbn [s_code s_owner];
      (destruct (Nat.eq_dec u t) as [->|Hne]; [rewrite upd_eq|apply Hoth; auto]).
    + eauto.
    + eexists. split; [exact By|]. rewrite Hset. destruct l; auto.
    + rewrite Hset. destruct l; auto.
  - injection H as <-. intros u. cbn [s_code s_owner]. destruct (Nat.eq_dec u t) as [->|Hne]; [rewrite upd_eq; eauto|apply Hoth; auto].
  - injection H as <-. intros u. cbn [s_code s_owner]. destruct (Nat.eq_dec u t) as [->|Hne]; [rewrite upd_eq; exists b; tauto|apply Hoth; auto].
  - injection H as <-. intros u. cbn [s_code s_owner]. destruct (Nat.eq_dec u t) as [->|Hne]; [rewrite upd_eq; eauto|apply Hoth; auto].
  - destruct (owns s LReg t); [|discriminate]. injection H as <-. intros u. cbn [s_code s_owner].
    destruct (Nat.eq_dec u t) as [->|Hne]; [rewrite upd_eq; exists b; split; auto|apply Hoth; auto].
Qed.

Theorem one_in_mpi : (forall t, Forall kept (p t)) ->
  forall s t u, reach N c p s -> in_mpi s t -> in_mpi s u -> t = u /\ holds s t LMpi.
Proof.
  intros Hp s t u (l & Hl) (k & Ek) (k' & Ek').
  assert (I : ser s).
  { assert (I0 : ser (LockModel.init c p)) by (intros v; exists false; split; [now apply mok_program|discriminate]).
    revert I0 Hl. generalize (LockModel.init c p). induction l as [|a l IH]; cbn [run]; intros s0 I0 Hl; [now injection Hl as <-|].
    destruct (step N s0 a) as [s1| |] eqn:E; try discriminate. apply (IH s1); auto. eapply ser_step; eauto. }
  destruct (I t) as (b & B1 & B2), (I u) as (b' & C1 & C2). rewrite Ek in B1. rewrite Ek' in C1. cbn in B1, C1.
  destruct B1 as [B1 _], C1 as [C1 _]. specialize (B2 B1). specialize (C2 C1). unfold holds. split; congruence.
Qed.
End Calls.
