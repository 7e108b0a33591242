(** * Proofs about [Sync]: invariant *)
From Verif Require Export SyncModel.
Require Import Lia.

(** ** Counting threads *)
Fixpoint cnt (p : nat -> bool) (n : nat) : nat :=
  match n with 0 => 0 | S m => (if p m then 1 else 0) + cnt p m end.

Lemma cnt_ext : forall n p q, (forall t, t < n -> p t = q t) -> cnt p n = cnt q n.
Proof.
  induction n; intros p q H; cbn; [reflexivity|].
  rewrite (H n) by lia. rewrite (IHn p q); [reflexivity|]. intros; apply H; lia.
Qed.
Lemma cnt_le : forall n p, cnt p n <= n.
Proof. induction n; intros p; cbn; [lia|]. specialize (IHn p). destruct (p n); lia. Qed.
Lemma cnt_full : forall n p, cnt p n = n -> forall t, t < n -> p t = true.
Proof.
  induction n; intros p H t Ht; [lia|]. cbn in H. pose proof (cnt_le n p).
  destruct (p n) eqn:E; [|lia].
  destruct (Nat.eq_dec t n); [subst; exact E|]. apply IHn; lia.
Qed.
Lemma cnt_all : forall n p, (forall t, t < n -> p t = true) -> cnt p n = n.
Proof.
  induction n; intros p H; cbn; [reflexivity|]. rewrite H by lia. rewrite IHn; [lia|]. auto.
Qed.
Lemma cnt_add : forall n p q t, t < n -> p t = false -> q t = true ->
  (forall u, u < n -> u <> t -> q u = p u) -> cnt q n = S (cnt p n).
Proof.
  induction n; intros p q t Ht Hp Hq H; [lia|]. cbn.
  destruct (Nat.eq_dec t n) as [->|Hn].
  - rewrite Hp, Hq. rewrite (cnt_ext n q p); [reflexivity|]. intros; apply H; lia.
  - rewrite (H n) by lia. rewrite (IHn p q t); try assumption; try lia. intros; apply H; lia.
Qed.
Lemma cnt_pos : forall n p t, t < n -> p t = true -> 0 < cnt p n.
Proof.
  induction n; intros p t Ht Hp; [lia|]. cbn.
  destruct (Nat.eq_dec t n) as [->|]; [rewrite Hp; lia|].
  assert (0 < cnt p n) by (eapply IHn; [|exact Hp]; lia). lia.
Qed.
Lemma cnt_ex : forall n p, 0 < cnt p n -> exists t, t < n /\ p t = true.
Proof.
  induction n; intros p H; cbn in H; [lia|].
  destruct (p n) eqn:E; [exists n; auto with arith|].
  destruct (IHn p) as (t & Ht & Hp); [lia|]. exists t; auto with arith.
Qed.
Lemma cnt_two : forall n p t u, t < n -> u < n -> t <> u -> p t = true -> p u = true -> 1 < cnt p n.
Proof.
  intros n p t u Ht Hu Hn Hp Hq.
  rewrite (cnt_add n (fun x => if x =? t then false else p x) p t); try assumption.
  - assert (0 < cnt (fun x => if x =? t then false else p x) n); [|lia].
    apply (cnt_pos n _ u); [assumption|]. destruct (Nat.eqb_spec u t); [lia|assumption].
  - rewrite Nat.eqb_refl; reflexivity.
  - intros v _ Hv. destruct (Nat.eqb_spec v t); [lia|reflexivity].
Qed.
Lemma cnt_more : forall n p t, 1 < cnt p n -> exists u, u < n /\ u <> t /\ p u = true.
Proof.
  intros n p t H.
  destruct (cnt_ex n (fun x => if x =? t then false else p x)) as (u & Hu & Hp).
  - destruct (le_lt_dec n t).
    + rewrite (cnt_ext n _ p); [lia|]. intros x Hx. destruct (Nat.eqb_spec x t); [lia|reflexivity].
    + destruct (p t) eqn:E.
      * rewrite (cnt_add n (fun x => if x =? t then false else p x) p t) in H; try assumption; [lia| |].
        -- rewrite Nat.eqb_refl; reflexivity.
        -- intros v _ Hv. destruct (Nat.eqb_spec v t); [lia|reflexivity].
      * rewrite (cnt_ext n _ p); [lia|]. intros x Hx. destruct (Nat.eqb_spec x t); [subst; auto|reflexivity].
  - exists u. cbn in Hp. destruct (Nat.eqb_spec u t); [discriminate|]. auto.
Qed.

(** ** The invariant *)
(** Counted by [m_syncedThreads]. *)
Definition in_s (p : ypc) : bool :=
  match p with YSleepC | YWakeC | YCheck | YSleepL | YWakeL | YLeave => true | _ => false end.
(** Has the mutex. *)
Definition y_holds (p : ypc) : bool :=
  match p with YIn | YCheck | YLeave | YCopy | YEnd => true | _ => false end.
(** Has entered the barrier of the current call. *)
Definition entered (p : ypc) : bool :=
  match p with YOut | YSleepF | YWakeF | YIn => false | _ => true end.

Definition okpc (K : nat) (fin : bool) (p : ypc) (k : nat) : Prop :=
  if fin then
    match p with
    | YWakeC | YCheck | YSleepL | YWakeL | YLeave | YCopy | YEnd => k = K
    | YOut | YSleepF => k = S K
    | _ => False
    end
  else
    match p with
    | YOut | YWakeF | YIn | YSleepC => k = K
    | YCopy | YEnd => S k = K
    | _ => False
    end.

Section Inv.
Context {V : Type} (c : ycfg V).
Notation N := (y_n c).

(** What a thread gets from call [k]. *)
Definition result (t k : nat) : V :=
  match y_root c k with Some r => y_init c r k | None => y_init c t k end.

(** [v]: the value of [waiting()] which thread [x] saw in call [k]. *)
Definition saw (x : ythr V) (k v : nat) : Prop :=
  (k = y_round x /\ entered (y_pc x) = true /\ v = y_num x) \/
  (k < y_round x /\ option_map fst (nth_error (y_out x) k) = Some v).

Record thr_ok (K : nat) (s : yst V) (t : nat) (x : ythr V) : Prop := {
  to_mutex : y_holds (y_pc x) = true <-> y_mutex s = Some t;
  to_phase : okpc K (y_fin s) (y_pc x) (y_round x);
  to_last : y_pc x = YSleepL \/ y_pc x = YWakeL -> y_root c K = Some t;
  to_sleepl : y_pc x = YSleepL -> 1 < y_synced s;
  to_alone : y_pc x = YWakeL \/ (y_pc x = YLeave /\ y_root c K = Some t) -> y_synced s = 1;
  to_copy : y_fin s = false -> y_pc x = YCopy \/ y_pc x = YEnd ->
            forall r, y_root c (y_round x) = Some r -> r = t /\ y_data s = Some (t, y_round x);
  to_data : y_root c K = Some t -> in_s (y_pc x) = true -> y_data s = Some (t, K);
  to_root : y_fin s = true -> y_root c K = Some t -> in_s (y_pc x) = true;
  to_var : y_var x = if match y_pc x with YEnd => true | _ => false end
                     then result t (y_round x) else y_init c t (y_round x);
  to_out : map snd (y_out x) = map (result t) (seq 0 (y_round x));
  to_bound : forall k v, saw x k v -> v < N;
  to_fill : y_fin s = false -> forall v, saw x K v -> v < y_synced s;
  to_rounds : (y_pc x = YOut -> y_round x <= y_rounds c) /\ (y_pc x <> YOut -> y_round x < y_rounds c)
}.

Record yinv (K : nat) (s : yst V) : Prop := {
  yi_thr : forall t, t < N -> thr_ok K s t (y_thr s t);
  yi_own : forall t, y_mutex s = Some t -> t < N;
  yi_synced : y_synced s = cnt (fun t => in_s (y_pc (y_thr s t))) N;
  yi_last : y_last s = match y_root c K with Some r => b2n (in_s (y_pc (y_thr s r))) | None => 0 end;
  yi_fin : if y_fin s then 0 < y_synced s else y_synced s < N;
  yi_nums : forall t u k v, t < N -> u < N -> t <> u -> saw (y_thr s t) k v -> saw (y_thr s u) k v -> False
}.

Definition wf_ycfg : Prop := 0 < N /\ (forall k r, y_root c k = Some r -> r < N).

Lemma yinv_init : wf_ycfg -> yinv 0 (yinit c).
Proof.
  intros [Hn Hr]. split; cbn.
  - intros t Ht. split; cbn; try discriminate; try reflexivity.
    + split; discriminate.
    + intros [H|H]; discriminate.
    + intros [H|[H _]]; discriminate.
    + intros _ [H|H]; discriminate.
    + intros k v [(_ & H & _)|(H & _)]; [discriminate|cbn in H; lia].
    + intros _ v [(_ & H & _)|(H & _)]; [discriminate|cbn in H; lia].
    + split; [intros _; lia|congruence].
  - discriminate.
  - symmetry. clear. induction (y_n c); cbn; auto.
  - destruct (y_root c 0); reflexivity.
  - exact Hn.
  - intros t u k v _ _ _ [(_ & H & _)|(H & _)]; [discriminate|cbn in H; lia].
Qed.

(** ** Elementary steps *)
Lemma saw_same : forall (x x' : ythr V) k v,
  y_round x' = y_round x -> y_num x' = y_num x -> y_out x' = y_out x ->
  (entered (y_pc x') = true -> entered (y_pc x) = true) ->
  saw x' k v -> saw x k v.
Proof.
  intros x x' k v H1 H2 H3 H4 [(A & B & C)|(A & B)]; [left|right]; rewrite ?H1, ?H2, ?H3 in *; auto.
Qed.

(** Thread [t] moves to [p']; the object is not changed apart from the mutex. *)
Lemma yinv_move : forall K s t p' v' m',
  yinv K s -> t < N ->
  let x := y_thr s t in
  let x' := YThr p' (y_round x) v' (y_num x) (y_out x) in
  (y_mutex s = None \/ y_mutex s = Some t) -> m' = (if y_holds p' then Some t else None) ->
  in_s p' = in_s (y_pc x) ->
  (entered p' = true -> entered (y_pc x) = true) ->
  okpc K (y_fin s) p' (y_round x) ->
  (p' = YSleepL \/ p' = YWakeL -> y_root c K = Some t) ->
  (p' = YSleepL -> 1 < y_synced s) ->
  (p' = YWakeL \/ (p' = YLeave /\ y_root c K = Some t) -> y_synced s = 1) ->
  (p' = YCopy \/ p' = YEnd -> y_pc x = YCopy \/ y_pc x = YEnd) ->
  v' = (if match p' with YEnd => true | _ => false end then result t (y_round x) else y_init c t (y_round x)) ->
  p' <> YOut -> y_round x < y_rounds c ->
  yinv K (YSt m' (y_synced s) (y_last s) (y_fin s) (y_data s) (upd (y_thr s) t x')).
Proof.
  intros K s t p' v' m' I Ht x x' Hm -> Hs He Hok H1 H2 H3 H4 Hv Hp Hk.
  pose proof (yi_thr _ _ I t Ht) as O. fold x in O.
  assert (Hsaw : forall u k v, saw (upd (y_thr s) t x' u) k v -> saw (y_thr s u) k v).
  { intros u k v. unfold upd. destruct (Nat.eqb_spec u t) as [->|]; [|auto].
    apply saw_same; auto. }
  assert (Hins : forall u, in_s (y_pc (upd (y_thr s) t x' u)) = in_s (y_pc (y_thr s u))).
  { intros u. unfold upd. destruct (Nat.eqb_spec u t) as [->|]; [exact Hs|reflexivity]. }
  split; cbn [y_thr y_mutex y_synced y_last y_fin y_data].
  - intros u Hu. destruct (Nat.eq_dec u t) as [->|Hne].
    + assert (E : upd (y_thr s) t x' t = x') by (unfold upd; rewrite Nat.eqb_refl; reflexivity).
      rewrite E. split; cbn [y_pc y_round y_var y_num y_out y_mutex y_synced y_fin y_data x']; auto.
      * destruct (y_holds p'); split; congruence.
      * intros Hf Hc. apply (to_copy _ _ _ _ O Hf (H4 Hc)).
      * rewrite Hs. apply (to_data _ _ _ _ O).
      * intros A B. rewrite Hs. apply (to_root _ _ _ _ O A B).
      * apply (to_out _ _ _ _ O).
      * intros k v Hw. rewrite <- E in Hw. apply Hsaw in Hw. apply (to_bound _ _ _ _ O k v Hw).
      * intros Hf v Hw. rewrite <- E in Hw. apply Hsaw in Hw. apply (to_fill _ _ _ _ O Hf v Hw).
      * split; congruence.
    + unfold upd. destruct (Nat.eqb_spec u t) as [E|_]; [contradiction|].
      destruct (yi_thr _ _ I u Hu) as [A1 A2 A3 A4 A5 A6 A7 A8 A9 A10 A11 A12 A13].
      split; cbn [y_mutex y_synced y_fin y_data]; auto.
      rewrite A1. destruct Hm as [Hm|Hm]; rewrite Hm; destruct (y_holds p'); split; congruence.
  - intros u Hu. destruct (y_holds p'); congruence.
  - rewrite (yi_synced _ _ I). apply cnt_ext. intros u _. symmetry. apply Hins.
  - rewrite (yi_last _ _ I). destruct (y_root c K); [|reflexivity]. rewrite Hins. reflexivity.
  - apply (yi_fin _ _ I).
  - intros a b k v Ha Hb Hab Wa Wb. apply (yi_nums _ _ I a b k v Ha Hb Hab); apply Hsaw; assumption.
Qed.

Lemma upd_eq : forall {A} (f : nat -> A) t x, upd f t x t = x.
Proof. intros. unfold upd. rewrite Nat.eqb_refl. reflexivity. Qed.
Lemma upd_ne : forall {A} (f : nat -> A) t x u, u <> t -> upd f t x u = f u.
Proof. intros. unfold upd. destruct (Nat.eqb_spec u t); [contradiction|reflexivity]. Qed.

(** Entering, not the last one. *)
Lemma yinv_enter : forall K s t,
  yinv K s -> t < N -> y_pc (y_thr s t) = YIn -> S (y_synced s) < N ->
  let x := y_thr s t in
  yinv K (YSt None (S (y_synced s)) (y_last s + b2n (is_last c t (y_round x))) (y_fin s)
              (if is_last c t (y_round x) then Some (t, y_round x) else y_data s)
              (upd (y_thr s) t (YThr YSleepC (y_round x) (y_var x) (y_synced s) (y_out x)))).
Proof.
  intros K s t I Ht Hp Hn x.
  pose proof (yi_thr _ _ I t Ht) as O. fold x in O, Hp.
  pose proof (to_phase _ _ _ _ O) as Hok. rewrite Hp in Hok. cbn in Hok.
  destruct (y_fin s) eqn:Hf; [contradiction|].
  assert (Hown : y_mutex s = Some t) by (apply (to_mutex _ _ _ _ O); rewrite Hp; reflexivity).
  set (x' := YThr YSleepC (y_round x) (y_var x) (y_synced s) (y_out x)).
  assert (Hsaw : forall u k v, saw (upd (y_thr s) t x' u) k v ->
            saw (y_thr s u) k v \/ (u = t /\ k = K /\ v = y_synced s)).
  { intros u k v. destruct (Nat.eq_dec u t) as [->|]; [|rewrite upd_ne by assumption; auto].
    rewrite upd_eq. intros [(A & B & C)|(A & B)]; cbn in *; [right; split; [reflexivity|]; lia|].
    left. right. fold x. auto. }
  assert (Hrk : y_root c K = Some t -> is_last c t (y_round x) = true).
  { intros E. unfold is_last. rewrite Hok, E. apply Nat.eqb_refl. }
  assert (Hrk' : is_last c t (y_round x) = true -> y_root c K = Some t).
  { unfold is_last. rewrite Hok. destruct (y_root c K) as [r|]; [|discriminate].
    intros E. apply Nat.eqb_eq in E. congruence. }
  split; cbn [y_thr y_mutex y_synced y_last y_fin y_data].
  - intros u Hu. destruct (Nat.eq_dec u t) as [->|Hne].
    + rewrite upd_eq. split; cbn [y_pc y_round y_var y_num y_out y_mutex y_synced y_fin y_data x'];
        try (intuition discriminate).
      * intros E _. rewrite (Hrk E), Hok. reflexivity.
      * pose proof (to_var _ _ _ _ O) as A. rewrite Hp in A. exact A.
      * apply (to_out _ _ _ _ O).
      * intros k v W. rewrite <- (upd_eq (y_thr s) t x') in W. apply Hsaw in W.
        destruct W as [W|(_ & _ & ->)]; [apply (to_bound _ _ _ _ O k v W)|lia].
      * intros _ v W. rewrite <- (upd_eq (y_thr s) t x') in W. apply Hsaw in W.
        destruct W as [W|(_ & _ & ->)]; [|lia]. pose proof (to_fill _ _ _ _ O Hf v W). lia.
      * split; [discriminate|]. intros _. apply (to_rounds _ _ _ _ O). congruence.
    + rewrite upd_ne by assumption.
      destruct (yi_thr _ _ I u Hu) as [A1 A2 A3 A4 A5 A6 A7 A8 A9 A10 A11 A12 A13].
      assert (Hh : y_holds (y_pc (y_thr s u)) = false).
      { destruct (y_holds (y_pc (y_thr s u))); [|reflexivity].
        pose proof (proj1 A1 eq_refl). congruence. }
      split; cbn [y_mutex y_synced y_fin y_data]; auto.
      * rewrite Hh. split; discriminate.
      * rewrite Hf in A2. exact A2.
      * intros E. rewrite E in A2. rewrite Hf in A2. contradiction.
      * intros [E|[E _]]; rewrite E, Hf in A2; contradiction.
      * intros _ [E|E]; rewrite E in Hh; discriminate.
      * intros E B. destruct (is_last c t (y_round x)) eqn:L; [|apply A7; assumption].
        specialize (Hrk' eq_refl). congruence.
      * discriminate.
      * intros _ v W. pose proof (A12 Hf v W). lia.
  - discriminate.
  - rewrite (yi_synced _ _ I). symmetry. apply (cnt_add _ _ _ t Ht).
    + fold x. rewrite Hp. reflexivity.
    + rewrite upd_eq. reflexivity.
    + intros u _ Hu. rewrite upd_ne by assumption. reflexivity.
  - rewrite (yi_last _ _ I). destruct (y_root c K) as [r|] eqn:R.
    + destruct (Nat.eq_dec r t) as [->|Hne].
      * rewrite upd_eq, (Hrk eq_refl). fold x. rewrite Hp. reflexivity.
      * rewrite upd_ne by assumption. destruct (is_last c t (y_round x)) eqn:L.
        -- specialize (Hrk' eq_refl). congruence.
        -- cbn. lia.
    + destruct (is_last c t (y_round x)) eqn:L; [specialize (Hrk' eq_refl); congruence|reflexivity].
  - lia.
  - intros a b k v Ha Hb Hab Wa Wb. apply Hsaw in Wa, Wb.
    destruct Wa as [Wa|(-> & -> & ->)], Wb as [Wb|(-> & E & E')].
    + apply (yi_nums _ _ I a b k v Ha Hb Hab Wa Wb).
    + subst k v. pose proof (to_fill _ _ _ _ (yi_thr _ _ I a Ha) Hf _ Wa). lia.
    + pose proof (to_fill _ _ _ _ (yi_thr _ _ I b Hb) Hf _ Wb). lia.
    + congruence.
Qed.

(** Entering as the last one. *)
Definition wake_c (x : ythr V) : ythr V :=
  if ypc_eq (y_pc x) YSleepC then YThr YWakeC (y_round x) (y_var x) (y_num x) (y_out x) else x.

Lemma yinv_full : forall K s t,
  wf_ycfg -> yinv K s -> t < N -> y_pc (y_thr s t) = YIn -> S (y_synced s) = N ->
  forall f, let x := y_thr s t in
  (f t = YThr YCheck (y_round x) (y_var x) (y_synced s) (y_out x)) ->
  (forall u, u <> t -> f u = wake_c (y_thr s u)) ->
  yinv K (YSt (y_mutex s) (S (y_synced s)) (y_last s + b2n (is_last c t (y_round x))) true
              (if is_last c t (y_round x) then Some (t, y_round x) else y_data s) f).
Proof.
  intros K s t [W0 W] I Ht Hp Hn f x Hft Hfu.
  pose proof (yi_thr _ _ I t Ht) as O. fold x in O, Hp.
  pose proof (to_phase _ _ _ _ O) as Hok. rewrite Hp in Hok. cbn in Hok.
  destruct (y_fin s) eqn:Hf; [contradiction|].
  assert (Hown : y_mutex s = Some t) by (apply (to_mutex _ _ _ _ O); rewrite Hp; reflexivity).
  (* all others sleep at m_condition *)
  assert (Hall : forall u, u < N -> u <> t -> y_pc (y_thr s u) = YSleepC /\ y_round (y_thr s u) = K).
  { intros u Hu Hne.
    assert (A : cnt (fun u => if u =? t then true else in_s (y_pc (y_thr s u))) N = N).
    { rewrite (cnt_add _ (fun u => in_s (y_pc (y_thr s u))) _ t Ht).
      - rewrite <- (yi_synced _ _ I). exact Hn.
      - fold x. rewrite Hp. reflexivity.
      - rewrite Nat.eqb_refl. reflexivity.
      - intros v _ Hv. destruct (Nat.eqb_spec v t); [contradiction|reflexivity]. }
    pose proof (cnt_full _ _ A u Hu) as B. cbn in B.
    destruct (Nat.eqb_spec u t); [contradiction|].
    pose proof (to_phase _ _ _ _ (yi_thr _ _ I u Hu)) as C. rewrite Hf in C.
    destruct (y_pc (y_thr s u)); try discriminate B; cbn in C; try contradiction. auto. }
  assert (Hfu' : forall u, u < N -> u <> t -> f u =
      let y := y_thr s u in YThr YWakeC (y_round y) (y_var y) (y_num y) (y_out y)).
  { intros u Hu Hne. rewrite Hfu by assumption. unfold wake_c.
    rewrite (proj1 (Hall u Hu Hne)). reflexivity. }
  assert (Hsaw : forall u k v, u < N -> saw (f u) k v ->
            saw (y_thr s u) k v \/ (u = t /\ k = K /\ v = y_synced s)).
  { intros u k v Hu. destruct (Nat.eq_dec u t) as [->|Hne].
    - rewrite Hft. intros [(A & B & C)|(A & B)]; cbn in *; [right; split; [reflexivity|]; lia|].
      left. right. fold x. auto.
    - rewrite (Hfu' u Hu Hne). intros A. left. revert A. apply saw_same; cbn; auto.
      rewrite (proj1 (Hall u Hu Hne)). reflexivity. }
  assert (Hrk : y_root c K = Some t -> is_last c t (y_round x) = true).
  { intros E. unfold is_last. rewrite Hok, E. apply Nat.eqb_refl. }
  assert (Hrk' : is_last c t (y_round x) = true -> y_root c K = Some t).
  { unfold is_last. rewrite Hok. destruct (y_root c K) as [r|]; [|discriminate].
    intros E. apply Nat.eqb_eq in E. congruence. }
  split; cbn [y_thr y_mutex y_synced y_last y_fin y_data].
  - intros u Hu. destruct (Nat.eq_dec u t) as [->|Hne].
    + rewrite Hft. split; cbn [y_pc y_round y_var y_num y_out y_mutex y_synced y_fin y_data];
        try (intuition discriminate).
      * intros E _. rewrite (Hrk E), Hok. reflexivity.
      * pose proof (to_var _ _ _ _ O) as A. rewrite Hp in A. exact A.
      * apply (to_out _ _ _ _ O).
      * intros k v Q. rewrite <- Hft in Q. apply Hsaw in Q; [|assumption].
        destruct Q as [Q|(_ & _ & ->)]; [apply (to_bound _ _ _ _ O k v Q)|lia].
      * split; [discriminate|]. intros _. apply (to_rounds _ _ _ _ O). congruence.
    + destruct (Hall u Hu Hne) as [Hpu Hru].
      destruct (yi_thr _ _ I u Hu) as [A1 A2 A3 A4 A5 A6 A7 A8 A9 A10 A11 A12 A13].
      rewrite (Hfu' u Hu Hne).
      split; cbn [y_pc y_round y_var y_num y_out y_mutex y_synced y_fin y_data];
        try (intuition discriminate); auto.
      * rewrite Hown. split; [discriminate|congruence].
      * intros E _. destruct (is_last c t (y_round x)) eqn:L.
        -- specialize (Hrk' eq_refl). congruence.
        -- apply A7; [assumption|]. rewrite Hpu. reflexivity.
      * rewrite Hpu in A9. exact A9.
      * intros k v Q. pose proof (Hfu' u Hu Hne) as E. cbn zeta in E. rewrite <- E in Q.
        apply Hsaw in Q; [|assumption].
        destruct Q as [Q|(_ & _ & ->)]; [apply (A11 k v Q)|lia].
      * split; [discriminate|]. intros _. apply (proj2 A13). congruence.
  - apply (yi_own _ _ I).
  - rewrite Hn. symmetry. apply cnt_all. intros u Hu.
    destruct (Nat.eq_dec u t) as [->|Hne]; [rewrite Hft; reflexivity|].
    rewrite (Hfu' u Hu Hne). reflexivity.
  - rewrite (yi_last _ _ I). destruct (y_root c K) as [r|] eqn:R.
    + destruct (Nat.eq_dec r t) as [->|Hne].
      * rewrite Hft, (Hrk eq_refl). fold x. rewrite Hp. reflexivity.
      * rewrite (Hfu' r (W _ _ R) Hne). rewrite (proj1 (Hall r (W _ _ R) Hne)).
        destruct (is_last c t (y_round x)) eqn:L.
        -- specialize (Hrk' eq_refl). congruence.
        -- reflexivity.
    + destruct (is_last c t (y_round x)) eqn:L; [specialize (Hrk' eq_refl); congruence|reflexivity].
  - lia.
  - intros a b k v Ha Hb Hab Wa Wb. apply Hsaw in Wa, Wb; try assumption.
    destruct Wa as [Wa|(-> & -> & ->)], Wb as [Wb|(-> & E & E')].
    + apply (yi_nums _ _ I a b k v Ha Hb Hab Wa Wb).
    + subst k v. pose proof (to_fill _ _ _ _ (yi_thr _ _ I a Ha) Hf _ Wa). lia.
    + pose proof (to_fill _ _ _ _ (yi_thr _ _ I b Hb) Hf _ Wb). lia.
    + congruence.
Qed.

Definition wake_f (x : ythr V) : ythr V :=
  if ypc_eq (y_pc x) YSleepF then YThr YWakeF (y_round x) (y_var x) (y_num x) (y_out x) else x.
Definition wake_l (x : ythr V) : ythr V :=
  if ypc_eq (y_pc x) YSleepL then YThr YWakeL (y_round x) (y_var x) (y_num x) (y_out x) else x.

Lemma holder_only : forall K s t u, yinv K s -> t < N -> u < N -> u <> t ->
  y_holds (y_pc (y_thr s t)) = true -> y_holds (y_pc (y_thr s u)) = false.
Proof.
  intros K s t u I Ht Hu Hne Hh.
  apply (to_mutex _ _ _ _ (yi_thr _ _ I t Ht)) in Hh.
  pose proof (to_mutex _ _ _ _ (yi_thr _ _ I u Hu)) as A.
  destruct (y_holds (y_pc (y_thr s u))); [|reflexivity].
  pose proof (proj1 A eq_refl). congruence.
Qed.

(** The root of a call does not leave before all others. *)
Lemma leave_root : forall K s t, wf_ycfg -> yinv K s -> t < N ->
  y_pc (y_thr s t) = YLeave -> y_synced s = 1 ->
  (forall r, y_root c K = Some r -> r = t).
Proof.
  intros K s t [_ W] I Ht Hp H1 r R. destruct (Nat.eq_dec r t) as [|Hne]; [assumption|exfalso].
  pose proof (to_phase _ _ _ _ (yi_thr _ _ I t Ht)) as Hok. rewrite Hp in Hok.
  destruct (y_fin s) eqn:Hf; [|contradiction].
  pose proof (to_root _ _ _ _ (yi_thr _ _ I r (W _ _ R)) Hf R) as A.
  assert (1 < cnt (fun t => in_s (y_pc (y_thr s t))) N).
  { apply (cnt_two _ _ t r); auto; try (apply (W _ _ R)). rewrite Hp. reflexivity. }
  rewrite <- (yi_synced _ _ I) in H. lia.
Qed.

Lemma yinv_leave_end : forall K s t,
  wf_ycfg -> yinv K s -> t < N -> y_pc (y_thr s t) = YLeave -> y_synced s = 1 ->
  forall f, let x := y_thr s t in
  (f t = YThr YCopy (y_round x) (y_var x) (y_num x) (y_out x)) ->
  (forall u, u < N -> u <> t -> f u = wake_f (y_thr s u)) ->
  yinv (S K) (YSt (y_mutex s) 0 0 false (y_data s) f).
Proof.
  intros K s t W I Ht Hp H1 f x Hft Hfu.
  pose proof (leave_root K s t W I Ht Hp H1) as Hroot. destruct W as [W0 W].
  pose proof (yi_thr _ _ I t Ht) as O. fold x in O, Hp.
  pose proof (to_phase _ _ _ _ O) as Hok. rewrite Hp in Hok.
  destruct (y_fin s) eqn:Hf; [|contradiction]. cbn in Hok.
  assert (Hown : y_mutex s = Some t) by (apply (to_mutex _ _ _ _ O); rewrite Hp; reflexivity).
  assert (Hall : forall u, u < N -> u <> t ->
    y_round (y_thr s u) = S K /\ (y_pc (y_thr s u) = YOut \/ y_pc (y_thr s u) = YSleepF)).
  { intros u Hu Hne.
    assert (A : in_s (y_pc (y_thr s u)) = false).
    { destruct (in_s (y_pc (y_thr s u))) eqn:E; [|reflexivity].
      assert (1 < cnt (fun t => in_s (y_pc (y_thr s t))) N).
      { apply (cnt_two _ _ t u); auto. fold x. rewrite Hp. reflexivity. }
      rewrite <- (yi_synced _ _ I) in H. lia. }
    pose proof (holder_only K s t u I Ht Hu Hne) as B. fold x in B. rewrite Hp in B. specialize (B eq_refl).
    pose proof (to_phase _ _ _ _ (yi_thr _ _ I u Hu)) as C. rewrite Hf in C.
    destruct (y_pc (y_thr s u)); cbn in A, B, C; try discriminate; try contradiction; auto. }
  assert (Hfu' : forall u, u < N -> u <> t -> exists p,
      (p = YOut \/ p = YWakeF) /\ (p = YOut -> y_pc (y_thr s u) = YOut) /\ (p = YWakeF -> y_pc (y_thr s u) = YSleepF) /\
      f u = let y := y_thr s u in YThr p (y_round y) (y_var y) (y_num y) (y_out y)).
  { intros u Hu Hne. rewrite Hfu by assumption. unfold wake_f.
    destruct (Hall u Hu Hne) as [_ [E|E]]; rewrite E; cbn; [exists YOut|exists YWakeF];
      repeat split; auto; try discriminate.
    destruct (y_thr s u); cbn in *; subst; reflexivity. }
  assert (Hsaw : forall u k v, u < N -> saw (f u) k v -> saw (y_thr s u) k v /\ k <> S K).
  { intros u k v Hu. destruct (Nat.eq_dec u t) as [->|Hne].
    - rewrite Hft. intros A. split; [revert A; apply saw_same; cbn; auto; fold x; rewrite Hp; reflexivity|].
      destruct A as [(A & _)|(A & _)]; cbn in A; lia.
    - destruct (Hfu' u Hu Hne) as (p & P & _ & _ & ->). destruct (Hall u Hu Hne) as [E _].
      intros A. split.
      + revert A. apply saw_same; cbn; auto. destruct P; subst p; discriminate.
      + destruct A as [(A & B & _)|(A & _)]; cbn in A; [|lia].
        cbn in B. destruct P; subst p; discriminate. }
  split; cbn [y_thr y_mutex y_synced y_last y_fin y_data].
  - intros u Hu. destruct (Nat.eq_dec u t) as [->|Hne].
    + rewrite Hft. split; cbn [y_pc y_round y_var y_num y_out y_mutex y_synced y_fin y_data].
      * split; [intros _; exact Hown|reflexivity].
      * cbn. lia.
      * intros [E|E]; discriminate.
      * discriminate.
      * intros [E|[E _]]; discriminate.
      * intros _ _ r R. rewrite Hok in R |- *. pose proof (Hroot r R) as E. subst r. split; [reflexivity|].
        apply (to_data _ _ _ _ O R). rewrite Hp. reflexivity.
      * discriminate.
      * discriminate.
      * pose proof (to_var _ _ _ _ O) as A. rewrite Hp in A. exact A.
      * apply (to_out _ _ _ _ O).
      * intros k v Q. rewrite <- Hft in Q. apply Hsaw in Q; [|assumption].
        apply (to_bound _ _ _ _ O k v (proj1 Q)).
      * intros _ v Q. rewrite <- Hft in Q. apply Hsaw in Q; [|assumption]. destruct Q. congruence.
      * split; [discriminate|]. intros _. apply (to_rounds _ _ _ _ O). congruence.
    + destruct (Hall u Hu Hne) as [Hru Hpu].
      destruct (yi_thr _ _ I u Hu) as [A1 A2 A3 A4 A5 A6 A7 A8 A9 A10 A11 A12 A13].
      destruct (Hfu' u Hu Hne) as (p & P & P1 & P2 & E). rewrite E. cbn zeta in E.
      split; cbn [y_pc y_round y_var y_num y_out y_mutex y_synced y_fin y_data].
      * rewrite Hown. destruct P; subst p; (split; [discriminate|congruence]).
      * rewrite Hru. destruct P; subst p; reflexivity.
      * intros [X|X]; destruct P; congruence.
      * intros X; destruct P; congruence.
      * intros [X|[X _]]; destruct P; congruence.
      * intros _ [X|X]; destruct P; congruence.
      * intros _ X. destruct P; subst p; discriminate.
      * discriminate.
      * rewrite A9. destruct P as [->| ->]; [rewrite (P1 eq_refl)|rewrite (P2 eq_refl)]; reflexivity.
      * exact A10.
      * intros k v Q. rewrite <- E in Q. apply Hsaw in Q; [|assumption]. apply (A11 k v (proj1 Q)).
      * intros _ v Q. rewrite <- E in Q. apply Hsaw in Q; [|assumption]. destruct Q. congruence.
      * destruct A13 as [B1 B2]. split; intros X.
        -- apply B1. auto.
        -- apply B2. destruct P; [contradiction|]. rewrite (P2 H). discriminate.
  - apply (yi_own _ _ I).
  - symmetry. destruct (cnt (fun u => in_s (y_pc (f u))) N) eqn:E; [reflexivity|].
    destruct (cnt_ex N (fun u => in_s (y_pc (f u)))) as (u & Hu & B); [lia|]. cbn in B.
    destruct (Nat.eq_dec u t) as [->|Hne]; [rewrite Hft in B; discriminate|].
    destruct (Hfu' u Hu Hne) as (p & P & _ & _ & Q). rewrite Q in B. destruct P; subst p; discriminate.
  - destruct (y_root c (S K)) as [r|] eqn:R; [|reflexivity]. pose proof (W _ _ R) as Hr.
    destruct (Nat.eq_dec r t) as [->|Hne]; [rewrite Hft; reflexivity|].
    destruct (Hfu' r Hr Hne) as (p & P & _ & _ & ->). destruct P; subst p; reflexivity.
  - exact W0.
  - intros a b k v Ha Hb Hab Wa Wb. apply Hsaw in Wa, Wb; try assumption.
    apply (yi_nums _ _ I a b k v Ha Hb Hab); tauto.
Qed.

Lemma yinv_leave : forall K s t,
  wf_ycfg -> yinv K s -> t < N -> y_pc (y_thr s t) = YLeave -> 1 < y_synced s ->
  is_last c t (y_round (y_thr s t)) = false /\
  forall f, let x := y_thr s t in
  (f t = YThr YCopy (y_round x) (y_var x) (y_num x) (y_out x)) ->
  (forall u, u < N -> u <> t -> f u = if y_synced s - 1 =? y_last s then wake_l (y_thr s u) else y_thr s u) ->
  yinv K (YSt (y_mutex s) (y_synced s - 1) (y_last s) (y_fin s) (y_data s) f).
Proof.
  intros K s t [W0 W] I Ht Hp H1.
  pose proof (yi_thr _ _ I t Ht) as O. set (x := y_thr s t) in *.
  pose proof (to_phase _ _ _ _ O) as Hok. rewrite Hp in Hok.
  destruct (y_fin s) eqn:Hf; [|contradiction]. cbn in Hok.
  assert (Hown : y_mutex s = Some t) by (apply (to_mutex _ _ _ _ O); rewrite Hp; reflexivity).
  assert (Hnr : y_root c K <> Some t).
  { intros R. pose proof (to_alone _ _ _ _ O (or_intror (conj Hp R))). lia. }
  split.
  { unfold is_last. rewrite Hok. destruct (y_root c K) as [r|]; [|reflexivity].
    apply Nat.eqb_neq. congruence. }
  intros f x0 Hft Hfu. subst x0.
  assert (Hlast : forall u, u < N -> y_root c K = Some u -> y_last s = 1).
  { intros u Hu R. rewrite (yi_last _ _ I), R.
    rewrite (to_root _ _ _ _ (yi_thr _ _ I u Hu) Hf R). reflexivity. }
  assert (Hfu' : forall u, u < N -> u <> t -> exists p,
      f u = (let y := y_thr s u in YThr p (y_round y) (y_var y) (y_num y) (y_out y)) /\
      (p = y_pc (y_thr s u) /\ p <> YSleepL \/
       y_pc (y_thr s u) = YSleepL /\ p = (if y_synced s - 1 =? y_last s then YWakeL else YSleepL))).
  { intros u Hu Hne. rewrite Hfu by assumption. unfold wake_l.
    destruct (y_synced s - 1 =? y_last s) eqn:E.
    - destruct (y_thr s u) as [p k v n o]; cbn. destruct p; cbn;
      (eexists; split; [reflexivity|]); first [left; split; [reflexivity|discriminate]|right; split; reflexivity].
    - exists (y_pc (y_thr s u)). destruct (y_thr s u) as [p k v n o]; cbn. split; [reflexivity|].
      destruct p; first [left; split; [reflexivity|discriminate]|right; split; reflexivity]. }
  assert (Hins : forall u, u < N -> u <> t -> in_s (y_pc (f u)) = in_s (y_pc (y_thr s u))).
  { intros u Hu Hne. destruct (Hfu' u Hu Hne) as (p & -> & [[P _]|[P Q]]); cbn; [congruence|].
    rewrite P, Q. destruct (y_synced s - 1 =? y_last s); reflexivity. }
  assert (Hsaw : forall u k v, u < N -> saw (f u) k v -> saw (y_thr s u) k v).
  { intros u k v Hu. destruct (Nat.eq_dec u t) as [->|Hne].
    - rewrite Hft. apply saw_same; cbn; auto; fold x; rewrite Hp; reflexivity.
    - destruct (Hfu' u Hu Hne) as (p & -> & P). apply saw_same; cbn; auto.
      destruct P as [[-> _]|[-> _]]; auto. }
  split; cbn [y_thr y_mutex y_synced y_last y_fin y_data].
  - intros u Hu. destruct (Nat.eq_dec u t) as [->|Hne].
    + rewrite Hft. split; cbn [y_pc y_round y_var y_num y_out y_mutex y_synced y_fin y_data].
      * split; [intros _; exact Hown|reflexivity].
      * exact Hok.
      * intros [E|E]; discriminate.
      * discriminate.
      * intros [E|[E _]]; discriminate.
      * discriminate.
      * discriminate.
      * congruence.
      * pose proof (to_var _ _ _ _ O) as A. rewrite Hp in A. exact A.
      * apply (to_out _ _ _ _ O).
      * intros k v Q. rewrite <- Hft in Q. apply Hsaw in Q; [|assumption].
        apply (to_bound _ _ _ _ O k v Q).
      * discriminate.
      * split; [discriminate|]. intros _. apply (to_rounds _ _ _ _ O). congruence.
    + pose proof (Hins u Hu Hne) as Hi.
      destruct (yi_thr _ _ I u Hu) as [A1 A2 A3 A4 A5 A6 A7 A8 A9 A10 A11 A12 A13].
      assert (Htwo : y_pc (y_thr s u) = YSleepL -> y_synced s - 1 = y_last s \/ 1 < y_synced s - 1).
      { intros E. pose proof (Hlast u Hu (A3 (or_introl E))). lia. }
      destruct (Hfu' u Hu Hne) as (p & E & P). rewrite E in Hi |- *. cbn zeta in E. cbn in Hi.
      split; cbn [y_pc y_round y_var y_num y_out y_mutex y_synced y_fin y_data].
      * rewrite <- A1. destruct P as [[-> _]|[-> ->]]; [reflexivity|].
        destruct (y_synced s - 1 =? y_last s); reflexivity.
      * rewrite Hf in A2. destruct P as [[-> _]|[Q ->]]; [exact A2|]. rewrite Q in A2.
        destruct (y_synced s - 1 =? y_last s); exact A2.
      * intros X. apply A3. destruct P as [[-> _]|[Q ->]]; auto.
      * intros X. destruct P as [[_ P]|[Q ->]]; [contradiction|]. specialize (Htwo Q).
        destruct (Nat.eqb_spec (y_synced s - 1) (y_last s)); [discriminate|lia].
      * intros X. destruct P as [[-> _]|[Q ->]].
        -- pose proof (A5 X). lia.
        -- pose proof (Hlast u Hu (A3 (or_introl Q))).
           destruct (Nat.eqb_spec (y_synced s - 1) (y_last s)); [lia|].
           destruct X as [X|[X _]]; discriminate.
      * discriminate.
      * intros R X. apply A7; [exact R|congruence].
      * intros _ R. rewrite Hi. apply A8; [exact Hf|exact R].
      * rewrite A9. destruct P as [[-> _]|[Q ->]]; [reflexivity|]. rewrite Q.
        destruct (y_synced s - 1 =? y_last s); reflexivity.
      * exact A10.
      * intros k v Q. rewrite <- E in Q. apply Hsaw in Q; [|assumption]. apply (A11 k v Q).
      * discriminate.
      * destruct A13 as [B1 B2]. destruct P as [[-> _]|[Q ->]]; [split; assumption|].
        split; [destruct (y_synced s - 1 =? y_last s); discriminate|].
        intros _. apply B2. congruence.
  - apply (yi_own _ _ I).
  - rewrite (yi_synced _ _ I).
    rewrite (cnt_add N (fun u => in_s (y_pc (f u))) (fun u => in_s (y_pc (y_thr s u))) t Ht).
    + lia.
    + rewrite Hft. reflexivity.
    + fold x. rewrite Hp. reflexivity.
    + intros u Hu Hne. symmetry. apply Hins; assumption.
  - rewrite (yi_last _ _ I). destruct (y_root c K) as [r|] eqn:R; [|reflexivity].
    rewrite (Hins r); [reflexivity|apply (W _ _ R)|congruence].
  - lia.
  - intros a b k v Ha Hb Hab Wa Wb. apply Hsaw in Wa, Wb; try assumption.
    apply (yi_nums _ _ I a b k v Ha Hb Hab Wa Wb).
Qed.

(** Leaving the call. *)
Lemma yinv_end : forall K s t,
  yinv K s -> t < N -> y_pc (y_thr s t) = YEnd ->
  let x := y_thr s t in
  yinv K (YSt None (y_synced s) (y_last s) (y_fin s) (y_data s)
     (upd (y_thr s) t (YThr YOut (S (y_round x)) (y_init c t (S (y_round x))) 0 (y_out x ++ [(y_num x, y_var x)])))).
Proof.
  intros K s t I Ht Hp x.
  pose proof (yi_thr _ _ I t Ht) as O. fold x in O, Hp.
  pose proof (to_phase _ _ _ _ O) as Hok. rewrite Hp in Hok.
  assert (Hown : y_mutex s = Some t) by (apply (to_mutex _ _ _ _ O); rewrite Hp; reflexivity).
  set (x' := YThr YOut _ _ _ _).
  assert (Hlen : length (y_out x) = y_round x).
  { pose proof (to_out _ _ _ _ O) as A. apply (f_equal (@length _)) in A.
    rewrite !map_length, seq_length in A. exact A. }
  assert (Hsaw : forall u k v, saw (upd (y_thr s) t x' u) k v -> saw (y_thr s u) k v).
  { intros u k v. destruct (Nat.eq_dec u t) as [->|]; [|rewrite upd_ne by assumption; auto].
    rewrite upd_eq. fold x. intros [(A & B & _)|(A & B)]; [discriminate|]. cbn in A, B.
    destruct (Nat.eq_dec k (y_round x)) as [->|Hk].
    - left. rewrite Hp. split; [reflexivity|]. split; [reflexivity|].
      rewrite nth_error_app2 in B by lia. rewrite Hlen, Nat.sub_diag in B. cbn in B. congruence.
    - right. split; [lia|]. rewrite nth_error_app1 in B by lia. exact B. }
  assert (Hins : forall u, in_s (y_pc (upd (y_thr s) t x' u)) = in_s (y_pc (y_thr s u))).
  { intros u. destruct (Nat.eq_dec u t) as [->|]; [|rewrite upd_ne by assumption; auto].
    rewrite upd_eq. fold x. rewrite Hp. reflexivity. }
  split; cbn [y_thr y_mutex y_synced y_last y_fin y_data].
  - intros u Hu. destruct (Nat.eq_dec u t) as [->|Hne].
    + rewrite upd_eq. split; cbn [y_pc y_round y_var y_num y_out y_mutex y_synced y_fin y_data x'].
      * split; discriminate.
      * cbn in Hok |- *. destruct (y_fin s); cbn in Hok |- *; lia.
      * intros [E|E]; discriminate.
      * discriminate.
      * intros [E|[E _]]; discriminate.
      * intros _ [E|E]; discriminate.
      * discriminate.
      * intros A B. pose proof (to_root _ _ _ _ O A B) as C. rewrite Hp in C. discriminate.
      * reflexivity.
      * rewrite seq_S, !map_app, (to_out _ _ _ _ O). cbn [map snd Nat.add].
        pose proof (to_var _ _ _ _ O) as A. rewrite Hp in A. rewrite A. reflexivity.
      * intros k v Q. rewrite <- (upd_eq (y_thr s) t x') in Q. apply Hsaw in Q. apply (to_bound _ _ _ _ O k v Q).
      * intros Hf v Q. rewrite <- (upd_eq (y_thr s) t x') in Q. apply Hsaw in Q. apply (to_fill _ _ _ _ O Hf v Q).
      * split; [|congruence]. intros _. assert (y_round x < y_rounds c); [|lia].
        apply (to_rounds _ _ _ _ O). congruence.
    + rewrite upd_ne by assumption.
      pose proof (holder_only K s t u I Ht Hu Hne) as B. fold x in B. rewrite Hp in B. specialize (B eq_refl).
      destruct (yi_thr _ _ I u Hu) as [A1 A2 A3 A4 A5 A6 A7 A8 A9 A10 A11 A12 A13].
      split; cbn [y_mutex y_synced y_fin y_data]; auto.
      rewrite B. split; discriminate.
  - discriminate.
  - rewrite (yi_synced _ _ I). apply cnt_ext. intros u _. symmetry. apply Hins.
  - rewrite (yi_last _ _ I). destruct (y_root c K); [|reflexivity]. rewrite Hins. reflexivity.
  - apply (yi_fin _ _ I).
  - intros a b k v Ha Hb Hab Wa Wb. apply (yi_nums _ _ I a b k v Ha Hb Hab); apply Hsaw; assumption.
Qed.

End Inv.
