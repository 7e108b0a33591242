From Coq Require Import Lia.
From Verif Require Import LockModel LockSpec.

(** The order in which mutexes may be taken. *)
Definition rank (l : lock) : nat :=
  match l with
  | LOnce _ => 0 | LCache _ _ => 1 | LSlot _ _ _ => 2 | LMpi => 3
  | LDictWin _ | LCacheWin _ | LWin _ | LInfo _ | LBlock _ | LSend _ => 4
  | LEntry _ _ | LReg | LType _ => 5 | LNc => 6 | LCount _ _ _ => 7 | LPtr => 8
  end.
Definition calm (h : list lock) : Prop := Forall (fun x => ~ brief x) h.

Section Ok.
Variable c : cfg.
(** [ok h k]: a thread that holds the mutexes [h] may do [k]. *)
Fixpoint ok (h : list lock) (k : code) : Prop :=
  match k with
  | Done => h = []
  | Lock l k => Forall (fun x => rank x < rank l) h /\ ok (l :: h) k
  | Unlock l k => exists h1 h2, h = h1 ++ l :: h2 /\ ok (h1 ++ h2) k
  | Try l y n => ~ In l h /\ ok (l :: h) y /\ ok h n
  | Nc k => (thr c = true -> In LNc h) /\ calm h /\ ok h k
  | Mpi k => calm h /\ ok h k
  | Bar k => h = [] /\ ok h k
  | HandOver k => exists h1 h2, h = h1 ++ LReg :: h2 /\ ok (h1 ++ h2) k
  end.
End Ok.

Fixpoint size (k : code) : nat :=
  match k with
  | Done => 0
  | Lock _ k | Unlock _ k | Nc k | Mpi k | Bar k => S (size k)
  | HandOver k => S (S (size k))
  | Try _ y n => S (size y + size n)
  end.

(** ** Every function is in order *)
Ltac below := repeat constructor; cbn; lia.
Ltac pos := first
  [ exists []; eexists; split; [reflexivity | cbn [app]]
  | eexists [_]; eexists; split; [reflexivity | cbn [app]]
  | eexists [_; _]; eexists; split; [reflexivity | cbn [app]] ].
Ltac calm_ := repeat constructor; cbn; intros []; fail.
Ltac one :=
  match goal with
  | H : ok _ ?h ?k |- ok _ ?h ?k => exact H
  | |- ok _ _ (Lock _ _) => split; [below | ]
  | |- ok _ _ (Unlock _ _) => pos
  | |- ok _ _ (HandOver _) => pos
  | |- ok _ _ (Nc _) => split; [first [discriminate | intros _; cbn; tauto] | split; [calm_ | ]]
  | |- ok _ _ (Mpi _) => split; [calm_ | ]
  | |- ok _ _ (Bar _) => split; [reflexivity | ]
  | |- ok _ _ (if ?b then _ else _) => destruct b
  | |- ok _ _ (match ?b with _ => _ end) => destruct b
  end.
Ltac unf := unfold inc, get_block, dict_local, alloc, free, share, chk, within, wlock, wunlock, lock_, unlock_, try_, real in *; cbn [thr lib cnt andb] in *.
Definition hold (c : cfg) (l : list lock) : list lock := filter (real c) l.

Lemma times_nc : forall c n h k, (thr c = true -> In LNc h) -> calm h -> ok c h k -> ok c h (times n Nc k).
Proof. intros c n h k A B C. induction n as [|n IH]; cbn [times]; [exact C | split; [exact A | split; assumption]]. Qed.
Lemma times_bar : forall c n k, ok c [] k -> ok c [] (times n Bar k).
Proof. intros c n k C. induction n as [|n IH]; cbn [times]; [exact C | split; [reflexivity | exact IH]]. Qed.
Lemma calm_nc : calm [LNc]. Proof. calm_. Qed.
Lemma calm_nil : calm []. Proof. constructor. Qed.

Lemma ok_reader_open : forall c o k e, ok c [] k -> ok c [] e -> ok c [] (reader_open c o k e).
Proof.
  intros [[] lb cn] o k e K E; destruct o; unfold reader_open; unf; cbn [times]; repeat one.
  1: apply times_nc; [intros _; cbn; tauto | apply calm_nc | ]. 2: apply times_nc; [discriminate | apply calm_nil | ].
  all: repeat one.
Qed.
Lemma ok_reader_close : forall c b k, ok c [] k -> ok c [] (reader_close c b k).
Proof. intros [[] lb cn] b k K; unfold reader_close; unf; repeat one. Qed.
Lemma ok_offset : forall c x k, ok c [] k -> ok c [] (get_offset c x k).
Proof. intros [[] lb cn] x k K; unfold get_offset; unf; repeat one. Qed.
Lemma ok_scaling : forall c x k, ok c [] k -> ok c [] (get_scaling c x k).
Proof. intros [[] lb cn] x k K; unfold get_scaling; unf; repeat one. Qed.
Lemma ok_block : forall c k, ok c [] k -> ok c [] (get_block c k).
Proof. intros [[] lb cn] k K; unf; repeat one. Qed.
Lemma ok_blocks : forall c n k, ok c [] k -> ok c [] (times n (get_block c) k).
Proof. intros c n k K. induction n as [|n IH]; cbn [times]; [exact K | apply ok_block, IH]. Qed.

(** Copying between domains: the thread holds its slot. *)
Lemma ok_numa_cache : forall c g d i at_ ds y n, let h := hold c [LSlot g d i] in
  ok c h y -> ok c h n -> ok c h (numa_cache c g d at_ ds y n).
Proof.
  intros [[] lb cn] g d i at_ ds y n h Y N; unfold h, hold in *; cbn [filter real thr lib andb] in *;
    induction ds as [|j ds IH]; cbn [numa_cache]; try exact N; destruct (Nat.eqb_spec j d) as [E|E]; try exact IH;
    unfold cm_try, cm_unlock; unf; try exact IH.
  split; [intros [A|[]]; discriminate | split; [ | exact IH]].
  destruct (at_ j) as [q|].
  - split; [intros [A|[A|[]]]; congruence | split].
    + pos. pos. exact Y.
    + pos. exact IH.
  - pos. exact IH.
Qed.

Ltac hd := unfold hold in *; cbn [filter real thr lib andb] in *.
Lemma ok_win_start : forall c g d i g' w k,
  ok c (hold c [LMpi; LSlot g d i]) k -> ok c (hold c [LSlot g d i]) (win_start c g' w k).
Proof. intros [[] [] cn] g d i g' w k K; hd; unfold win_start, dict_acquire; unf; repeat one. Qed.
Lemma ok_win_end : forall c g d i g' k,
  ok c (hold c [LSlot g d i]) k -> ok c (hold c [LMpi; LSlot g d i]) (win_end c g' k).
Proof. intros [[] [] cn] g d i g' k K; hd; unfold win_end; unf; repeat one. Qed.
Lemma ok_win_transfer : forall c g d i g' b k,
  ok c (hold c [LMpi; LSlot g d i]) k -> ok c (hold c [LMpi; LSlot g d i]) (win_transfer c g' b k).
Proof. intros [[] [] cn] g d i g' b k K; hd; unfold win_transfer; unf; repeat one. Qed.
Lemma ok_win_delete : forall c g d i g' b w k,
  ok c (hold c [LSlot g d i]) k -> ok c (hold c [LSlot g d i]) (win_delete c g' b w k).
Proof. intros [[] [] cn] g d i g' b w k K; hd; unfold win_delete, dict_acquire; unf; repeat one. Qed.
Lemma ok_inc : forall c l g d n k, rank l < 7 -> ok c (hold c [l]) k -> ok c (hold c [l]) (inc c g d n k).
Proof. intros [[] [] []] l g d n k L K; unf; hd; destruct l; cbn in L; try lia; repeat one. Qed.
Lemma ok_inc0 : forall c g d n k, ok c [] k -> ok c [] (inc c g d n k).
Proof. intros [[] [] []] g d n k K; unf; repeat one. Qed.
Lemma ok_inc2 : forall c g d i g' d' n k,
  ok c (hold c [LMpi; LSlot g d i]) k -> ok c (hold c [LMpi; LSlot g d i]) (inc c g' d' n k).
Proof. intros [[] [] []] g d i g' d' n k K; unf; hd; repeat one. Qed.
Lemma ok_load : forall c g d i r k, ok c (hold c [LSlot g d i]) k -> ok c (hold c [LSlot g d i]) (load c r k).
Proof. intros [[] [] []] g d i r k K; unfold load; unf; hd; repeat one. Qed.
Lemma ok_load2 : forall c g d i r k, ok c (hold c [LMpi; LSlot g d i]) k -> ok c (hold c [LMpi; LSlot g d i]) (load c r k).
Proof. intros [[] [] []] g d i r k K; unfold load; unf; hd; repeat one. Qed.
Lemma ok_thread_start : forall c g d i g' e k, ok c (hold c [LSlot g d i]) k -> ok c (hold c [LSlot g d i]) (thread_start c g' e k).
Proof. intros [[] lb cn] g d i g' e k K; hd; unfold thread_start; unf; repeat one. Qed.
Lemma ok_thread_transfer : forall c g d i g' k, ok c (hold c [LSlot g d i]) k -> ok c (hold c [LSlot g d i]) (thread_transfer c g' k).
Proof. intros [[] lb cn] g d i g' k K; hd; unfold thread_transfer; unf; repeat one. Qed.
Lemma ok_thread_update : forall c g d i g' e k, ok c (hold c [LSlot g d i]) k -> ok c (hold c [LSlot g d i]) (thread_update c g' e k).
Proof. intros [[] lb cn] g d i g' e k K; hd; unfold thread_update; unf; repeat one. Qed.
Lemma ok_thread_loop : forall c g d i g' d' e n b y k,
  ok c (hold c [LSlot g d i]) y -> ok c (hold c [LSlot g d i]) k -> ok c (hold c [LSlot g d i]) (thread_loop c g' d' e n b y k).
Proof.
  intros c g d i g' d' e n b y k Y K. induction n as [|n IH]; cbn [thread_loop]; apply ok_thread_start.
  - destruct b; [apply ok_thread_transfer, ok_inc; [cbn; lia | exact Y] | exact K].
  - apply ok_thread_transfer, IH.
Qed.
Lemma ok_win_full : forall c g d i g' k, ok c (hold c [LSlot g d i]) k -> ok c (hold c [LSlot g d i]) (win_full_transfer c g' k).
Proof. intros [[] [] cn] g d i g' k K; hd; unfold win_full_transfer; unf; repeat one. Qed.
Lemma ok_thread_full : forall c g d i g' k, ok c (hold c [LSlot g d i]) k -> ok c (hold c [LSlot g d i]) (thread_full_transfer c g' k).
Proof. intros [[] lb cn] g d i g' k K; hd; unfold thread_full_transfer; unf; repeat one. Qed.
Lemma ok_get_slot : forall c g d i k, ok c (hold c [LSlot g d i]) k -> ok c [] (cm_get c g d i k).
Proof. intros [[] lb cn] g d i k K; hd; unfold cm_get; unf; repeat one. Qed.
Lemma ok_unlock_slot : forall c g d i k, ok c [] k -> ok c (hold c [LSlot g d i]) (cm_unlock c g d i k).
Proof. intros [[] lb cn] g d i k K; hd; unfold cm_unlock; unf; repeat one. Qed.

Lemma ok_get : forall c kd r k, ok c [] k -> ok c [] (get c kd r k).
Proof.
  intros c kd r k K. pose proof (fun g d i => ok_unlock_slot c g d i k K) as F.
  destruct kd as [|m nf nc| |m nc|]; cbn [get].
  - apply ok_inc0, K.
  - unfold fulldist_get. cbv zeta. destruct (r_local r); [apply ok_inc0, K | ]. apply ok_inc0, ok_get_slot.
    destruct (r_hit r); [apply F | ].
    assert (A : ok c (hold c [LSlot (r_g r) (r_d r) (r_slot r)]) (inc c (r_g r) (r_d r) NUMA (cm_unlock c (r_g r) (r_d r) (r_slot r) k)))
      by (apply ok_inc; [cbn; lia | apply F]).
    assert (B : ok c (hold c [LSlot (r_g r) (r_d r) (r_slot r)]) (inc c (r_g r) (r_d r) MPI
      match m with
      | MNo => cm_unlock c (r_g r) (r_d r) (r_slot r) k
      | MThread => thread_full_transfer c (r_g r) (cm_unlock c (r_g r) (r_d r) (r_slot r) k)
      | MWin => win_full_transfer c (r_g r) (cm_unlock c (r_g r) (r_d r) (r_slot r) k)
      end)).
    { apply ok_inc; [cbn; lia | ]. destruct m; [apply F | apply ok_thread_full, F | apply ok_win_full, F]. }
    unfold numa_full. destruct (nf && r_near r); [exact A | ]. destruct nc; [apply ok_numa_cache; assumption | exact B].
  - unfold cache_get. cbv zeta. apply ok_inc0, ok_get_slot. destruct (r_hit r); [apply F | apply ok_load, F].
  - unfold cachedist_get. cbv zeta. apply ok_inc0, ok_get_slot. destruct (r_hit r); [apply F | ].
    destruct m.
    + destruct nc; [apply ok_numa_cache; [apply ok_inc; [cbn; lia | apply F] | ] | ]; apply ok_load, F.
    + assert (U : ok c (hold c [LSlot (r_g r) (r_d r) (r_slot r)]) (thread_update c (r_g r) (r_new r) (cm_unlock c (r_g r) (r_d r) (r_slot r) k)))
        by apply ok_thread_update, F.
      assert (A : ok c (hold c [LSlot (r_g r) (r_d r) (r_slot r)])
        (thread_loop c (r_g r) (r_d r) (r_new r) (r_retry r) (r_found r)
           (thread_update c (r_g r) (r_new r) (cm_unlock c (r_g r) (r_d r) (r_slot r) k))
           (load c r (thread_update c (r_g r) (r_new r) (cm_unlock c (r_g r) (r_d r) (r_slot r) k)))))
        by (apply ok_thread_loop; [exact U | apply ok_load, U]).
      destruct (r_old r); [apply ok_thread_update | ];
        (destruct nc; [apply ok_numa_cache; [apply ok_inc; [cbn; lia | exact U] | exact A] | exact A]).
    + assert (A : ok c (hold c [LSlot (r_g r) (r_d r) (r_slot r)])
        (win_start c (r_g r) (r_w1 r) (win_transfer c (r_g r) (r_found r && r_remote r)
           (if r_found r then inc c (r_g r) (r_d r) MPI (win_end c (r_g r) (cm_unlock c (r_g r) (r_d r) (r_slot r) k))
            else load c r (win_end c (r_g r) (cm_unlock c (r_g r) (r_d r) (r_slot r) k)))))).
      { apply ok_win_start, ok_win_transfer. destruct (r_found r); [apply ok_inc2 | apply ok_load2]; apply ok_win_end, F. }
      apply ok_win_delete. destruct nc; [apply ok_numa_cache; [ | exact A] | exact A].
      apply ok_inc; [cbn; lia | ]. unfold win_add. apply ok_win_start, ok_win_end, F.
  - unfold pass_get. apply ok_inc0, ok_inc0, ok_block, K.
Qed.

(** ** Opening and closing *)
Lemma ok_type_check : forall c gr b fi f i k e, ok c [] k -> ok c [] e -> ok c [] (type_check c gr b fi f i k e).
Proof. intros [[] lb cn] gr b fi f i k e K E; unfold type_check; unf; repeat one. Qed.
Lemma ok_level_open : forall c a k e, ok c [] k -> ok c [] e -> ok c [] (level_open c a k e).
Proof.
  intros c a k e K E. unfold level_open, chk at 1. destruct (a_fail a 0); [exact E | ].
  apply ok_reader_open; [ | exact E]. induction (a_dims a) as [|x ds IH]; cbn [fold_right].
  - apply ok_type_check; assumption.
  - apply ok_offset, ok_scaling, IH.
Qed.
Lemma ok_alloc : forall c b f i k e, ok c [] k -> ok c [] e -> ok c [] (alloc c b f i k e).
Proof. intros [[] [] cn] b f i k e K E; unf; repeat one. Qed.
Lemma ok_free : forall c b k, ok c [] k -> ok c [] (free c b k).
Proof. intros [[] [] cn] b k K; unf; repeat one. Qed.
Lemma ok_share : forall c f i k e, ok c [] k -> ok c [] e -> ok c [] (share f i k e).
Proof. intros c f i k e K E. unf. repeat one. Qed.
Lemma ok_shares : forall c f n i k e, ok c [] k -> ok c [] e -> ok c [] (shares f i n k e).
Proof. intros c f n. induction n as [|n IH]; intros i k e K E; cbn [shares]; [exact K | apply ok_share; [apply IH; assumption | exact E]]. Qed.
Lemma ok_numa_alloc : forall c b d f i k e, ok c [] k -> ok c [] e -> ok c [] (numa_alloc c b d f i k e).
Proof.
  intros c b d f i k e K E. unfold numa_alloc. pose proof (ok_share c f (S i) k e K E).
  destruct (d =? 0); [apply ok_alloc; assumption | assumption].
Qed.
Lemma ok_dict_init : forall c b d f k, ok c [] k -> ok c [] (dict_init c b d f k).
Proof.
  intros c b d f k K. unfold dict_init. pose proof (ok_share c f 11 k k K K). destruct (d =? 0); [apply ok_alloc; assumption | assumption].
Qed.
Lemma ok_register : forall c f i k e, ok c [] k -> ok c [] e -> ok c [] (register c f i k e).
Proof. intros [[] lb cn] f i k e K E; unfold register; unf; repeat one. Qed.
Lemma ok_comm_init : forall c k, ok c [] k -> ok c [] (comm_init c k).
Proof. intros [[] [] cn] k K; unfold comm_init; unf; repeat one. Qed.
Lemma ok_kind_open : forall c kd a k e, ok c [] k -> ok c [] e -> ok c [] (kind_open c kd a k e).
Proof.
  intros c kd a k e K E.
  assert (FO : forall b k, ok c [] k -> ok c [] (full_open c b a k e)).
  { intros b k' K'. unfold full_open. apply ok_level_open; [ | exact E]. apply ok_numa_alloc; [ | exact E].
    apply ok_blocks, ok_reader_close, K'. }
  assert (CO : forall b k, ok c [] k -> ok c [] (cache_open c b a k e)).
  { intros b k' K'. unfold cache_open. apply ok_level_open; [ | exact E]. apply ok_numa_alloc; assumption. }
  assert (NU : forall b : bool, ok c [] (if b then numa_cache_init (a_fail a) k e else k)).
  { intros []; [apply ok_share; assumption | exact K]. }
  unfold kind_open. cbv zeta. destruct kd as [|m nf nc| |m nc|]; cbv beta.
  - apply FO, K.
  - apply FO, ok_alloc; [ | exact E]. destruct m; [apply NU | | ].
    + unfold thread_full_init. cbv zeta. destruct (a_d a =? 0); [apply ok_register; [ | exact E] | ]; apply ok_shares; auto.
    + unfold win_full_init. cbv zeta. pose proof (ok_shares c (a_fail a) 2 21 _ e (NU nc) E) as R.
      destruct (a_d a =? 0); [ | exact R]. revert R. generalize (shares (a_fail a) 21 2 (if nc then numa_cache_init (a_fail a) k e else k) e).
      intros x R. destruct c as [[] [] cn]; unf; repeat one.
  - apply CO, K.
  - apply CO. destruct m; [apply NU | | ].
    + unfold thread_cache_init. cbv zeta. apply ok_dict_init. destruct (a_d a =? 0); [ | apply ok_shares; auto].
      repeat (apply ok_register; [ | exact E]). apply ok_shares; auto.
    + unfold win_cache_init. cbv zeta. apply ok_share; [ | exact E]. apply ok_dict_init.
      pose proof (ok_shares c (a_fail a) 5 23 _ e (NU nc) E) as R. destruct (a_d a =? 0); [ | exact R]. revert R.
      generalize (shares (a_fail a) 23 5 (if nc then numa_cache_init (a_fail a) k e else k) e).
      intros x R. destruct c as [[] [] cn]; unf; repeat one.
  - apply ok_level_open; assumption.
Qed.
Lemma ok_open : forall c kd a k, ok c [] k -> ok c [] (open c kd a k).
Proof.
  intros c kd a k K. unfold open. cbv zeta.
  assert (B : ok c [] (Bar k)) by (split; [reflexivity | exact K]).
  assert (G : ok c [] (if a_master a then once c (a_gr a) (a_once a) (a_self a) (times (a_resize a) Bar (kind_open c kd a (Bar k) (Bar k))) else Bar k)).
  { destruct (a_master a); [ | exact B].
    assert (R : ok c [] (times (a_resize a) Bar (kind_open c kd a (Bar k) (Bar k)))) by (apply times_bar, ok_kind_open; exact B).
    revert R. generalize (times (a_resize a) Bar (kind_open c kd a (Bar k) (Bar k))). intros x R.
    unfold once. destruct c as [[] [] cn]; destruct (a_once a) as [|[|n]]; unfold comm_init; unf; repeat one. }
  destruct (a_init a); [exact G | split; [reflexivity | exact G]].
Qed.
Lemma ok_unregister : forall c k, ok c [] k -> ok c [] (unregister c k).
Proof. intros [[] lb cn] k K; unfold unregister; unf; repeat one. Qed.
Lemma ok_within_mpi : forall c (b : bool) k, ok c [] k -> ok c [] (within c LMpi (fun k => if b then Mpi k else k) k).
Proof. intros [[] [] cn] b k K; unf; repeat one. Qed.
Lemma ok_within_mpi1 : forall c k, ok c [] k -> ok c [] (within c LMpi Mpi k).
Proof. intros [[] [] cn] k K; unf; repeat one. Qed.
Lemma ok_level_close : forall c kd d z k, ok c [] k -> ok c [] (level_close c kd d z k).
Proof.
  intros c kd d z k K. pose proof (ok_reader_close c (z_reader z) k K) as R.
  assert (FC : forall b, ok c [] (full_close c b d z k)).
  { intros b. unfold full_close. cbv zeta. destruct ((d =? 0) && z_data z); [apply ok_free, R | exact R]. }
  destruct kd as [|m nf nc| |m nc|]; cbn [level_close]; auto.
  - cbv zeta. assert (A : ok c [] (trans_full_close c m d z (full_close c (is_mpi m) d z k))).
    { unfold trans_full_close. destruct m; auto.
      - destruct ((d =? 0) && z_tag z); [apply ok_unregister | ]; auto.
      - destruct ((d =? 0) && z_win z); [apply ok_within_mpi1 | ]; auto. }
    destruct (z_cache z); [apply ok_free, A | exact A].
  - cbv zeta. assert (A : ok c [] (if (d =? 0) && z_data z then free c (is_mpi m) (reader_close c (z_reader z) k) else reader_close c (z_reader z) k)).
    { destruct ((d =? 0) && z_data z); [apply ok_free, R | exact R]. }
    unfold trans_cache_close. destruct m; auto.
    + destruct ((d =? 0) && z_tag z); auto. cbn [times]. repeat apply ok_unregister. exact A.
    + cbv zeta. assert (D : forall x, ok c [] x -> ok c [] (if (d =? 0) && z_dict z then free c true x else x)).
      { intros x X. destruct ((d =? 0) && z_dict z); [apply ok_free, X | exact X]. }
      destruct (d =? 0) eqn:Z; [apply ok_within_mpi | ]; apply D, A.
Qed.
Lemma ok_close : forall c kd lv k, ok c [] k -> ok c [] (close c kd lv k).
Proof.
  intros c kd lv k K. unfold close. split; [apply calm_nil | split; [apply calm_nil | ]].
  induction lv as [|x lv IH]; cbn [fold_right]; [apply ok_within_mpi1, K | apply ok_level_close, IH].
Qed.
Lemma ok_on_transfer : forall c g at_ ds k, ok c [] k -> ok c [] (on_transfer c g at_ ds k).
Proof.
  intros [[] lb cn] g at_ ds k K; (induction ds as [|i ds IH]; cbn [on_transfer]; [repeat one | ]);
    unfold cm_try, cm_unlock; unf; [ | exact IH].
  split; [intros [] | split; [ | exact IH]]. destruct (at_ i) as [j|]; [ | pos; exact IH].
  split; [intros [A|[]]; discriminate | split; [pos | pos; exact IH]]. repeat one.
Qed.
Lemma ok_call : forall c x k, ok c [] k -> ok c [] (call_code c x k).
Proof.
  intros c x k K. destruct x; cbn [call_code].
  - destruct c as [[] lb cn]; unf; repeat one.
  - apply ok_comm_init, K.
  - apply ok_open, K.
  - apply ok_get, K.
  - apply ok_close, K.
  - destruct c as [[] lb cn]; unfold comm_start; unf; repeat one.
  - destruct c as [[] lb cn]; unfold comm_stop; unf; repeat one.
  - destruct c as [[] lb cn]; unfold on_info; unf; repeat one.
  - apply ok_on_transfer, K.
  - destruct c as [[] lb cn]; unfold on_update; unf; repeat one.
  - repeat one.
Qed.
Lemma ok_program : forall c p, ok c [] (program c p).
Proof. intros c p. induction p as [|x p IH]; cbn [program fold_right]; [reflexivity | apply ok_call, IH]. Qed.

(** ** Running *)
Section Run.
Variable c : cfg.
Variable N : nat.
Variable p : nat -> list call.
Definition inv (s : st) : Prop := exists hs : nat -> list lock,
  (forall t, ok c (hs t) (s_code s t) /\ NoDup (hs t) /\ (forall l, s_owner s l = Some (Thr t) <-> In l (hs t)) /\ (N <= t -> hs t = [])) /\
  (forall l, s_owner s l = Some CommThr -> l = LReg).

Lemma inv_init : inv (init c p).
Proof.
  exists (fun _ => []). split; [ | discriminate]. intros t. cbn.
  split; [apply ok_program | split; [constructor | split; [ | reflexivity]]]. split; [discriminate | intros []].
Qed.
Lemma owns_true : forall s l t, owns s l t = true -> s_owner s l = Some (Thr t).
Proof. intros s l t H. unfold owns in H. destruct (s_owner s l) as [[u|]|]; try discriminate. apply Nat.eqb_eq in H. congruence. Qed.
Lemma owns_false : forall s l t, owns s l t = false -> s_owner s l <> Some (Thr t).
Proof. intros s l t H E. unfold owns in H. rewrite E, Nat.eqb_refl in H. discriminate. Qed.
Lemma above_notin : forall l h, Forall (fun x => rank x < rank l) h -> ~ In l h.
Proof. intros l h F I. rewrite Forall_forall in F. specialize (F l I). lia. Qed.

(** Thread [t] takes [l]. *)
Lemma inv_take : forall s hs t l k, t < N -> s_owner s l = None ->
  (forall t, ok c (hs t) (s_code s t) /\ NoDup (hs t) /\ (forall l, s_owner s l = Some (Thr t) <-> In l (hs t)) /\ (N <= t -> hs t = [])) ->
  (forall l, s_owner s l = Some CommThr -> l = LReg) -> ok c (l :: hs t) k ->
  inv (St (upd (s_code s) t k) (set_owner (s_owner s) l (Some (Thr t)))).
Proof.
  intros s hs t l k T O A B K. exists (upd hs t (l :: hs t)). split; cbn [s_code s_owner].
  - intros u. destruct (A u) as [A1 [A2 [A3 A4]]]. unfold upd. destruct (Nat.eqb_spec u t) as [->|E].
    + split; [exact K | split; [ | split; [ | intros; lia]]].
      * constructor; [rewrite <- A3, O; discriminate | exact A2].
      * intros x. unfold set_owner. destruct (lock_dec x l) as [->|X]; [split; [left; reflexivity | reflexivity] | ].
        rewrite A3. cbn. split; [tauto | intros [Y|Y]; [congruence | exact Y]].
    + split; [exact A1 | split; [exact A2 | split; [ | exact A4]]].
      intros x. unfold set_owner. destruct (lock_dec x l) as [->|X]; [ | apply A3].
      rewrite <- A3, O. split; [intros Y; congruence | discriminate].
  - intros x. unfold set_owner. destruct (lock_dec x l); [discriminate | apply B].
Qed.
(** Thread [t] gives [l] away. *)
Lemma inv_give : forall s hs t l k h1 h2 o, t < N -> (o = None \/ o = Some CommThr /\ l = LReg) -> hs t = h1 ++ l :: h2 ->
  (forall t, ok c (hs t) (s_code s t) /\ NoDup (hs t) /\ (forall l, s_owner s l = Some (Thr t) <-> In l (hs t)) /\ (N <= t -> hs t = [])) ->
  (forall l, s_owner s l = Some CommThr -> l = LReg) -> ok c (h1 ++ h2) k ->
  inv (St (upd (s_code s) t k) (set_owner (s_owner s) l o)).
Proof.
  intros s hs t l k h1 h2 o T O H A B K. exists (upd hs t (h1 ++ h2)). split; cbn [s_code s_owner].
  - intros u. destruct (A u) as [A1 [A2 [A3 A4]]]. unfold upd. destruct (Nat.eqb_spec u t) as [->|E].
    + rewrite H in A2. split; [exact K | split; [apply NoDup_remove_1 in A2; exact A2 | split; [ | intros; lia]]].
      intros x. unfold set_owner. destruct (lock_dec x l) as [->|X].
      * split; [destruct O as [-> | [-> _]]; discriminate | intros Y; exfalso; revert Y; apply NoDup_remove_2, A2].
      * rewrite A3, H, !in_app_iff. cbn. split; [intros [Y|[Y|Y]]; auto; congruence | tauto].
    + split; [exact A1 | split; [exact A2 | split; [ | exact A4]]].
      intros x. unfold set_owner. destruct (lock_dec x l) as [->|X]; [ | apply A3].
      assert (Y : s_owner s l = Some (Thr t)) by (apply A; rewrite H; apply in_or_app; right; left; reflexivity).
      rewrite <- A3, Y. split; [destruct O as [-> | [-> _]]; discriminate | congruence].
  - intros x. unfold set_owner. destruct (lock_dec x l) as [->|X]; [ | apply B].
    destruct O as [-> | [-> ->]]; [discriminate | reflexivity].
Qed.
Lemma inv_pass : forall s hs t k, t < N ->
  (forall t, ok c (hs t) (s_code s t) /\ NoDup (hs t) /\ (forall l, s_owner s l = Some (Thr t) <-> In l (hs t)) /\ (N <= t -> hs t = [])) ->
  (forall l, s_owner s l = Some CommThr -> l = LReg) -> ok c (hs t) k -> inv (St (upd (s_code s) t k) (s_owner s)).
Proof.
  intros s hs t k T A B K. exists hs. split; [ | exact B]. intros u. destruct (A u) as [A1 A2]. split; [ | exact A2].
  cbn [s_code]. unfold upd. destruct (Nat.eqb_spec u t) as [->|E]; assumption.
Qed.

Lemma inv_step : forall s a, inv s -> match step N s a with Go s' => inv s' | Wait => True | Bad => False end.
Proof.
  intros s a [hs [A B]]. destruct a as [t|]; cbn [step].
  - destruct (Nat.ltb_spec t N) as [T|T]; [ | exact Logic.I]. destruct (A t) as [O [ND [OW _]]].
    destruct (s_code s t) as [|l k|l k|l y n|k|k|k|k] eqn:E; cbn [ok] in O; try exact Logic.I.
    + destruct O as [R O]. destruct (s_owner s l) as [w|] eqn:W.
      * destruct (owns s l t) eqn:Q; [ | exact Logic.I]. apply owns_true, OW in Q. exact (above_notin _ _ R Q).
      * apply (inv_take s hs t l k T W A B O).
    + destruct O as [h1 [h2 [H O]]]. destruct (owns s l t) eqn:Q.
      * apply (inv_give s hs t l k h1 h2 None T (or_introl eq_refl) H A B O).
      * apply owns_false in Q. apply Q, OW. rewrite H. apply in_or_app. right. left. reflexivity.
    + destruct O as [R [O1 O2]]. destruct (s_owner s l) as [w|] eqn:W.
      * destruct (owns s l t) eqn:Q; [apply R, OW, owns_true, Q | apply (inv_pass s hs t n T A B O2)].
      * apply (inv_take s hs t l y T W A B O1).
    + apply (inv_pass s hs t k T A B), O.
    + apply (inv_pass s hs t k T A B), O.
    + apply (inv_pass s hs t k T A B), O.
    + destruct O as [h1 [h2 [H O]]]. destruct (owns s LReg t) eqn:Q.
      * apply (inv_give s hs t LReg k h1 h2 (Some CommThr) T (or_intror (conj eq_refl eq_refl)) H A B O).
      * apply owns_false in Q. apply Q, OW. rewrite H. apply in_or_app. right. left. reflexivity.
  - destruct (s_owner s LReg) as [[u|]|] eqn:W; try exact Logic.I. exists hs. split; cbn [s_code s_owner].
    + intros t. destruct (A t) as [A1 [A2 [A3 A4]]]. repeat split; auto.
      * unfold set_owner. destruct (lock_dec l LReg); [discriminate | apply A3].
      * unfold set_owner. destruct (lock_dec l LReg) as [->|X]; [intros Y; apply A3 in Y; congruence | apply A3].
    + intros l. unfold set_owner. destruct (lock_dec l LReg); [discriminate | apply B].
Qed.
Lemma inv_run : forall l s, inv s -> match run N s l with Go s' => inv s' | Wait => True | Bad => False end.
Proof.
  induction l as [|a l IH]; intros s I; cbn [run]; [exact I | ]. pose proof (inv_step s a I) as J.
  destruct (step N s a); [apply IH, J | exact Logic.I | exact J].
Qed.
Lemma reach_inv : forall s, reach N c p s -> inv s.
Proof. intros s [l R]. pose proof (inv_run l _ inv_init) as J. rewrite R in J. exact J. Qed.

Lemma never_bad : forall l, run N (init c p) l <> Bad.
Proof. intros l E. pose proof (inv_run l _ inv_init) as J. rewrite E in J. exact J. Qed.

Lemma one_reader : forall s t u, thr c = true -> reach N c p s -> in_netcdf s t -> in_netcdf s u -> t = u.
Proof.
  intros s t u TH R [k E] [k' E']. apply reach_inv in R. destruct R as [hs [A _]].
  destruct (A t) as [O [_ [W _]]]. rewrite E in O. destruct (A u) as [O' [_ [W' _]]]. rewrite E' in O'.
  pose proof (proj2 (W LNc) (proj1 O TH)). pose proof (proj2 (W' LNc) (proj1 O' TH)). congruence.
Qed.
Lemma outside_calm : forall s t l, reach N c p s -> in_netcdf s t \/ in_mpi s t -> holds s t l -> ~ brief l.
Proof.
  intros s t l R X Hd. apply reach_inv in R. destruct R as [hs [A _]]. destruct (A t) as [O [_ [W _]]].
  apply W in Hd. assert (C : calm (hs t)).
  { destruct X as [[k E]|[k E]]; rewrite E in O; cbn [ok] in O; apply O. }
  unfold calm in C. rewrite Forall_forall in C. exact (C l Hd).
Qed.
Lemma barrier_free : forall s t l, reach N c p s -> in_barrier s t -> ~ holds s t l.
Proof.
  intros s t l R [k E] Hd. apply reach_inv in R. destruct R as [hs [A _]]. destruct (A t) as [O [_ [W _]]].
  apply W in Hd. rewrite E in O. destruct O as [O _]. rewrite O in Hd. exact Hd.
Qed.

(** ** Progress *)
Lemma enabled_or_lock : forall s hs t, t < N ->
  (forall t, ok c (hs t) (s_code s t) /\ NoDup (hs t) /\ (forall l, s_owner s l = Some (Thr t) <-> In l (hs t)) /\ (N <= t -> hs t = [])) ->
  s_code s t = Done \/ (exists s', step N s (AThr t) = Go s') \/ exists l k, s_code s t = Lock l k /\ s_owner s l <> None.
Proof.
  intros s hs t T A. destruct (A t) as [O [_ [W _]]]. cbn [step]. destruct (Nat.ltb_spec t N) as [_|X]; [ | lia].
  destruct (s_code s t) as [|l k|l k|l y n|k|k|k|k] eqn:E; cbn [ok] in O; try (left; reflexivity); right; try (left; eexists; reflexivity).
  - destruct (s_owner s l) as [w|] eqn:Q; [right; exists l, k; rewrite Q; split; [reflexivity | discriminate] | left; eexists; reflexivity].
  - destruct O as [h1 [h2 [H _]]]. left. destruct (owns s l t) eqn:Q; [eexists; reflexivity | exfalso].
    apply owns_false in Q. apply Q, W. rewrite H. apply in_or_app. right. left. reflexivity.
  - destruct O as [R _]. left. destruct (s_owner s l) as [w|]; [ | eexists; reflexivity].
    destruct (owns s l t) eqn:Q; [exfalso; apply R, W, owns_true, Q | eexists; reflexivity].
  - destruct O as [h1 [h2 [H _]]]. left. destruct (owns s LReg t) eqn:Q; [eexists; reflexivity | exfalso].
    apply owns_false in Q. apply Q, W. rewrite H. apply in_or_app. right. left. reflexivity.
Qed.
Lemma some_step : forall s, inv s -> (exists t, t < N /\ s_code s t <> Done) \/ (exists l, s_owner s l <> None) ->
  exists a s', step N s a = Go s'.
Proof.
  intros s [hs [A B]] X.
  assert (CM : s_owner s LReg = Some CommThr -> exists a s', step N s a = Go s').
  { intros Q. exists AComm. cbn. rewrite Q. eexists. reflexivity. }
  assert (L : forall n t l k, 9 - rank l <= n -> t < N -> s_code s t = Lock l k -> s_owner s l <> None -> exists a s', step N s a = Go s').
  { induction n as [|n IH]; intros t l k R T E O.
    - destruct l; cbn in R; lia.
    - destruct (s_owner s l) as [[u|]|] eqn:Q; [ | | congruence].
      + destruct (A u) as [OK [_ [W Z]]]. apply W in Q. assert (U : u < N).
        { destruct (Nat.lt_ge_cases u N) as [U|U]; [exact U | rewrite (Z U) in Q; destruct Q]. }
        destruct (enabled_or_lock s hs u U A) as [D|[[s' D]|[l' [k' [D D']]]]].
        * rewrite D in OK. cbn in OK. rewrite OK in Q. destruct Q.
        * exists (AThr u), s'. exact D.
        * rewrite D in OK. cbn [ok] in OK. destruct OK as [F _]. rewrite Forall_forall in F. specialize (F l Q).
          apply (IH u l' k'); auto. lia.
      + pose proof (B l Q). subst l. apply CM, Q. }
  assert (T : forall t, t < N -> s_code s t <> Done -> exists a s', step N s a = Go s').
  { intros t T D. destruct (enabled_or_lock s hs t T A) as [E|[[s' E]|[l [k [E E']]]]]; [congruence | exists (AThr t), s'; exact E | ].
    apply (L _ t l k (Nat.le_refl _) T E E'). }
  destruct X as [[t [H D]]|[l O]]; [apply (T t H D) | ].
  destruct (s_owner s l) as [[u|]|] eqn:Q; [ | apply CM; rewrite <- (B l Q); exact Q | congruence].
  destruct (A u) as [OK [_ [W Z]]]. apply W in Q.
  assert (U : u < N). { destruct (Nat.lt_ge_cases u N) as [U|U]; [exact U | rewrite (Z U) in Q; destruct Q]. }
  apply (T u U). intros D. rewrite D in OK. cbn in OK. rewrite OK in Q. destruct Q.
Qed.
(** ** Every run ends *)
Fixpoint sum (n : nat) (f : nat -> code) : nat := match n with O => 0 | S n' => sum n' f + size (f n') end.
Lemma sum_upd : forall n f t k, t < n -> sum n (upd f t k) + size (f t) = sum n f + size k.
Proof.
  induction n as [|n IH]; intros f t k T; [lia | ]. cbn [sum]. destruct (Nat.eq_dec t n) as [->|E].
  - assert (X : forall m, m <= n -> sum m (upd f n k) = sum m f).
    { induction m as [|m IHm]; intros L; [reflexivity | ]. cbn [sum]. rewrite IHm by lia. unfold upd at 1.
      destruct (Nat.eqb_spec m n); [lia | reflexivity]. }
    rewrite X by lia. unfold upd. rewrite Nat.eqb_refl. lia.
  - specialize (IH f t k ltac:(lia)). unfold upd at 2. destruct (Nat.eqb_spec n t); [lia | ]. lia.
Qed.
Definition weight (s : st) : nat := sum N (s_code s) + match s_owner s LReg with Some CommThr => 1 | _ => 0 end.
Lemma reg_other : forall o l a, (a = None \/ exists t, a = Some (Thr t)) ->
  match set_owner o l a LReg with Some CommThr => 1 | _ => 0 end <= match o LReg with Some CommThr => 1 | _ => 0 end.
Proof.
  intros o l a X. unfold set_owner. destruct (lock_dec LReg l); [ | lia].
  destruct X as [->|[t ->]]; lia.
Qed.
Lemma step_weight : forall s a s', step N s a = Go s' -> weight s' < weight s.
Proof.
  intros s a s' E. destruct a as [t|]; cbn [step] in E.
  - destruct (Nat.ltb_spec t N) as [T|T]; [ | discriminate].
    destruct (s_code s t) as [|l k|l k|l y n|k|k|k|k] eqn:C; try discriminate.
    + destruct (s_owner s l); [destruct (owns s l t); discriminate | ]. injection E as <-. unfold weight. cbn [s_code s_owner].
      pose proof (sum_upd N (s_code s) t k T) as S1. rewrite C in S1. cbn [size] in S1.
      pose proof (reg_other (s_owner s) l (Some (Thr t)) (or_intror (ex_intro _ t eq_refl))). lia.
    + destruct (owns s l t); [ | discriminate]. injection E as <-. unfold weight. cbn [s_code s_owner].
      pose proof (sum_upd N (s_code s) t k T) as S1. rewrite C in S1. cbn [size] in S1.
      pose proof (reg_other (s_owner s) l None (or_introl eq_refl)). lia.
    + destruct (s_owner s l).
      * destruct (owns s l t); [discriminate | ]. injection E as <-. unfold weight. cbn [s_code s_owner].
        pose proof (sum_upd N (s_code s) t n T) as S1. rewrite C in S1. cbn [size] in S1. lia.
      * injection E as <-. unfold weight. cbn [s_code s_owner].
        pose proof (sum_upd N (s_code s) t y T) as S1. rewrite C in S1. cbn [size] in S1.
        pose proof (reg_other (s_owner s) l (Some (Thr t)) (or_intror (ex_intro _ t eq_refl))). lia.
    + injection E as <-. unfold weight. cbn [s_code s_owner]. pose proof (sum_upd N (s_code s) t k T) as S1. rewrite C in S1. cbn [size] in S1. lia.
    + injection E as <-. unfold weight. cbn [s_code s_owner]. pose proof (sum_upd N (s_code s) t k T) as S1. rewrite C in S1. cbn [size] in S1. lia.
    + injection E as <-. unfold weight. cbn [s_code s_owner]. pose proof (sum_upd N (s_code s) t k T) as S1. rewrite C in S1. cbn [size] in S1. lia.
    + destruct (owns s LReg t); [ | discriminate]. injection E as <-. unfold weight. cbn [s_code s_owner].
      pose proof (sum_upd N (s_code s) t k T) as S1. rewrite C in S1. cbn [size] in S1.
      unfold set_owner. destruct (lock_dec LReg LReg) as [_|X]; [ | congruence]. lia.
  - destruct (s_owner s LReg) as [[u|]|] eqn:Q; try discriminate. injection E as <-. unfold weight. cbn [s_code s_owner].
    rewrite Q. unfold set_owner. destruct (lock_dec LReg LReg) as [_|X]; [lia | congruence].
Qed.
Lemma run_weight : forall l s s', run N s l = Go s' -> length l + weight s' <= weight s.
Proof.
  induction l as [|a l IH]; intros s s' E; cbn [run] in E.
  - injection E as <-. cbn. lia.
  - destruct (step N s a) as [s1| |] eqn:S1; try discriminate. apply IH in E. apply step_weight in S1. cbn [length]. lia.
Qed.
Lemma bounded : exists n, forall l s, run N (init c p) l = Go s -> length l <= n.
Proof. exists (weight (init c p)). intros l s E. pose proof (run_weight l _ _ E). lia. Qed.
Lemma stuck_finished : forall s, reach N c p s -> stuck N s <-> finished N s.
Proof.
  intros s R. split.
  - intros S1. apply reach_inv in R as I. destruct I as [hs [A B]].
    assert (X : forall t, t < N -> s_code s t = Done).
    { intros t T. destruct (s_code s t) eqn:Q; [reflexivity | exfalso ..].
      all: destruct (some_step s (reach_inv s R)) as [a [s' E]]; [left; exists t; split; [exact T | congruence] | exact (S1 a s' E)]. }
    split; [exact X | ]. intros l. destruct (s_owner s l) eqn:Q; [exfalso | reflexivity].
    destruct (some_step s (reach_inv s R)) as [a' [s' E]]; [right; exists l; congruence | exact (S1 a' s' E)].
  - intros [D F] a s' E. destruct a as [t|]; cbn [step] in E.
    + destruct (Nat.ltb_spec t N) as [T|T]; [ | discriminate]. rewrite (D t T) in E. discriminate.
    + rewrite F in E. discriminate.
Qed.
End Run.
