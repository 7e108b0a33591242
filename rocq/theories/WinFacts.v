From Coq Require Import Lia.
From Verif Require Import WinModel WinSpec.

Lemma upd_same {A} (f : nat -> A) i a : upd f i a i = a.
Proof. unfold upd. rewrite Nat.eqb_refl. reflexivity. Qed.
Lemma upd_other {A} (f : nat -> A) i j a : j <> i -> upd f i a j = f j.
Proof. unfold upd. intros H. destruct (Nat.eqb_spec j i); [contradiction|reflexivity]. Qed.
Lemma setw_mem s t x w t' x' : WinModel.mem (setw s t x w) t' x' = if (t' =? t) && (x' =? x) then w else WinModel.mem s t' x'.
Proof.
  unfold setw, upd. cbn. destruct (Nat.eqb_spec t' t) as [->|]; cbn; [destruct (x' =? x)|]; reflexivity.
Qed.
Lemma one_set (m : nat -> nat -> Z) t x v t' x' : upd m t (upd (m t) x v) t' x' = if (t' =? t) && (x' =? x) then v else m t' x'.
Proof. unfold upd. destruct (Nat.eqb_spec t' t) as [->|]; cbn; [destruct (x' =? x)|]; reflexivity. Qed.

Section Inv.
Variable unified : bool.
(** One step of the whole system preserves [I], with defined and expected replies. *)
Variable I : (nat -> nat -> Z) -> sys -> Prop.
Hypothesis I_run : forall m s p a r w o, I m s -> s_prog s p = a :: r -> step unified (s_win s) a = Some (w, o) ->
  r_ok o = true /\ r_val o = one_val m a /\ I (one_mem m a) (Sys w (upd (s_prog s) p r)).
Hypothesis I_flow : forall m s t x, I m s -> I m (Sys (setw (s_win s) t x (to_prv (to_pub (WinModel.mem (s_win s) t x)))) (s_prog s)).
Lemma coherent_run es : forall m s s' tr, I m s -> run unified s es = Some (s', tr) -> coherent m tr.
Proof.
  induction es as [|e es IH]; intros m s s' tr H R; cbn [run] in R.
  - injection R as <- <-. exact Logic.I.
  - destruct e as [p|t x]; cbn [next] in R.
    + destruct (s_prog s p) as [|a r] eqn:P; [discriminate|]. destruct (step unified (s_win s) a) as [[w o]|] eqn:E; [|discriminate].
      destruct (run unified (Sys w (upd (s_prog s) p r)) es) as [[s2 t2]|] eqn:R2; [|discriminate]. injection R as <- <-. cbn [app coherent].
      destruct (I_run m s p a r w o H P E) as (A & B & C). split; [exact A|]. split; [exact B|]. exact (IH _ _ _ _ C R2).
    + match type of R with match run _ ?q _ with _ => _ end = _ => destruct (run unified q es) as [[s2 t2]|] eqn:R2; [|discriminate] end.
      injection R as <- <-. exact (IH _ _ _ _ (I_flow m s t x H) R2).
Qed.
End Inv.

(** ** One memory: nothing to prove about the programs *)
Definition flat (m : nat -> nat -> Z) (s : sys) : Prop := forall t x, WinModel.mem (s_win s) t x = Word (m t x) (m t x) Same.
Lemma flat_set m w h t x v t' x' : (forall t x, WinModel.mem w t x = Word (m t x) (m t x) Same) ->
  WinModel.mem (Win (WinModel.mem (setw w t x (Word v v Same))) h) t' x' = Word (upd m t (upd (m t) x v) t' x') (upd m t (upd (m t) x v) t' x') Same.
Proof. intros H. cbn [WinModel.mem]. rewrite setw_mem, one_set. destruct ((t' =? t) && (x' =? x)); [reflexivity|apply H]. Qed.
Lemma unified_all m0 prog es s tr : run true (Sys (created m0) prog) es = Some (s, tr) -> coherent m0 tr.
Proof.
  apply (coherent_run true flat); [| |intros t x; reflexivity].
  - intros m [w q] p a r w' o H P E. cbn [s_win s_prog] in *. unfold flat in H. cbn in H.
    destruct a as [p0 x v|p0 x|p0 t ex|p0 t|p0 t x|p0 t x v|p0 t x v|p0 t x old v]; cbn [step] in E.
    + injection E as <- <-. rewrite H. split; [reflexivity|]. split; [reflexivity|]. intros t' x'. exact (flat_set m w (holders w) p0 x v t' x' H).
    + injection E as <- <-. rewrite H. split; [reflexivity|]. split; [reflexivity|]. exact H.
    + destruct (holds w p0 t); [discriminate|]. destruct (ex && _); [discriminate|]. destruct (existsb snd (holders w t)); [discriminate|]. injection E as <- <-.
      split; [reflexivity|]. split; [reflexivity|]. intros t' x'. cbn. destruct (p0 =? t); [|apply H]. unfold sync, upd. destruct (Nat.eqb_spec t' t) as [->|]; [|apply H]. rewrite H. reflexivity.
    + destruct (holds w p0 t); [|discriminate]. injection E as <- <-.
      split; [reflexivity|]. split; [reflexivity|]. intros t' x'. cbn. destruct (p0 =? t); [|apply H]. unfold sync, upd. destruct (Nat.eqb_spec t' t) as [->|]; [|apply H]. rewrite H. reflexivity.
    + destruct (holds w p0 t); [|discriminate]. injection E as <- <-. rewrite H. split; [reflexivity|]. split; [reflexivity|]. exact H.
    + destruct (holds w p0 t); [|discriminate]. injection E as <- <-. rewrite H. split; [reflexivity|]. split; [reflexivity|]. intros t' x'. exact (flat_set m w (holders w) t x v t' x' H).
    + destruct (holds w p0 t); [|discriminate]. injection E as <- <-. rewrite H. split; [reflexivity|]. split; [reflexivity|]. intros t' x'. exact (flat_set m w (holders w) t x v t' x' H).
    + destruct (holds w p0 t); [|discriminate]. rewrite H in E. cbn [w_pub w_new] in E. injection E as <- <-. split; [reflexivity|]. split; [reflexivity|]. intros t' x'. cbn [one_mem s_win].
      destruct (m t x =? old)%Z; [exact (flat_set m w (holders w) t x v t' x' H)|apply H].
  - intros m [w q] t x H t' x'. cbn [s_win]. rewrite setw_mem. unfold flat in H. cbn in H. destruct (_ && _) eqn:E; [|apply H].
    apply andb_prop in E. destruct E as [E1 E2]. apply Nat.eqb_eq in E1. apply Nat.eqb_eq in E2. subst. rewrite H. reflexivity.
Qed.

(** ** Windows that are only read *)
Definition reads (a : act) : Prop := match a with Load _ _ | Lock _ _ _ | Unlock _ _ | Get _ _ _ => True | _ => False end.
Lemma read_only unified m0 prog es s tr : (forall p a, In a (prog p) -> reads a) -> run unified (Sys (created m0) prog) es = Some (s, tr) -> coherent m0 tr.
Proof.
  intros R. apply (coherent_run unified (fun m s => flat m s /\ forall p a, In a (s_prog s p) -> reads a)); [| |split; [intros t x; reflexivity|exact R]].
  - intros m [w q] p a r w' o [H Q] P E. cbn [s_win s_prog] in *. unfold flat in H. cbn in H.
    assert (Q' : forall p0 a0, In a0 (upd q p r p0) -> reads a0).
    { intros p0 a0 X. unfold upd in X. destruct (Nat.eqb_spec p0 p) as [->|]; [|exact (Q _ _ X)]. apply (Q p). rewrite P. right. exact X. }
    assert (Ra : reads a) by (apply (Q p); rewrite P; left; reflexivity).
    destruct a as [p0 x v|p0 x|p0 t ex|p0 t|p0 t x|p0 t x v|p0 t x v|p0 t x old v]; cbn [step] in E; try (destruct Ra; fail).
    + injection E as <- <-. rewrite H. split; [reflexivity|]. split; [reflexivity|]. split; [exact H|exact Q'].
    + destruct (holds w p0 t); [discriminate|]. destruct (ex && _); [discriminate|]. destruct (existsb snd (holders w t)); [discriminate|]. injection E as <- <-.
      split; [reflexivity|]. split; [reflexivity|]. split; [|exact Q']. intros t' x'. cbn. destruct (p0 =? t); [|apply H]. unfold sync, upd. destruct (Nat.eqb_spec t' t) as [->|]; [|apply H]. rewrite H. reflexivity.
    + destruct (holds w p0 t); [|discriminate]. injection E as <- <-.
      split; [reflexivity|]. split; [reflexivity|]. split; [|exact Q']. intros t' x'. cbn. destruct (p0 =? t); [|apply H]. unfold sync, upd. destruct (Nat.eqb_spec t' t) as [->|]; [|apply H]. rewrite H. reflexivity.
    + destruct (holds w p0 t); [|discriminate]. injection E as <- <-. rewrite H. split; [reflexivity|]. split; [reflexivity|]. split; [exact H|exact Q'].
  - intros m [w q] t x [H Q]. split; [|exact Q]. intros t' x'. cbn [s_win]. rewrite setw_mem. unfold flat in H. cbn in H. destruct (_ && _) eqn:E; [|apply H].
    apply andb_prop in E. destruct E as [E1 E2]. apply Nat.eqb_eq in E1. apply Nat.eqb_eq in E2. subst. rewrite H. reflexivity.
Qed.

Lemma full_blocks unified m ops es s tr : (forall p x v, ~ In (Fill x v) (ops p)) -> run unified (Sys (created m) (block_prog ops)) es = Some (s, tr) -> coherent m tr.
Proof.
  intros H. apply read_only. intros p a A. apply in_flat_map in A. destruct A as (b & B & A). destruct b as [x v|t x|x]; [destruct (H p x v B)| |].
  - destruct A as [<-|[<-|[<-|[]]]]; exact Logic.I.
  - destruct A as [<-|[]]. exact Logic.I.
Qed.

(** ** The dictionary *)
Definition is_mutex (x : nat) : bool := x mod 5 =? 4.
Lemma mutex_is o : is_mutex (mutex o) = true.
Proof. unfold is_mutex, mutex. replace (5 * o + 4) with (4 + o * 5) by lia. rewrite Nat.mod_add by lia. reflexivity. Qed.
Lemma entry_not o x : In x (entry o) -> is_mutex x = false.
Proof.
  unfold entry, is_mutex. intros [<-|[<-|[<-|[<-|[]]]]].
  - replace (5 * o) with (0 + o * 5) by lia. rewrite Nat.mod_add by lia. reflexivity.
  - replace (5 * o + 1) with (1 + o * 5) by lia. rewrite Nat.mod_add by lia. reflexivity.
  - replace (5 * o + 2) with (2 + o * 5) by lia. rewrite Nat.mod_add by lia. reflexivity.
  - replace (5 * o + 3) with (3 + o * 5) by lia. rewrite Nat.mod_add by lia. reflexivity.
Qed.
(** What process [p] may do while it holds the lock of [t]. *)
Definition inner (p t : nat) (a : act) : Prop :=
  match a with
  | Store q x _ | Load q x => q = p /\ p = t /\ is_mutex x = false
  | Get q t' x | Put q t' x _ => q = p /\ t' = t /\ p <> t /\ is_mutex x = false
  | Swap q t' x _ | Cas q t' x _ _ => q = p /\ t' = t /\ is_mutex x = true
  | Lock _ _ _ | Unlock _ _ => False
  end.
(** Remaining programs outside and inside of an epoch. *)
Inductive outside (p : nat) : list act -> Prop :=
| out_nil : outside p []
| out_lock t r : inside p t r -> outside p (Lock p t true :: r)
with inside (p : nat) : nat -> list act -> Prop :=
| in_act t a r : inner p t a -> inside p t r -> inside p t (a :: r)
| in_unlock t r : outside p r -> inside p t (Unlock p t :: r).
Lemma inside_app p t l r : (forall a, In a l -> inner p t a) -> inside p t r -> inside p t (l ++ r).
Proof.
  induction l as [|a l IH]; intros H R; [exact R|]. cbn. apply in_act; [apply H; left; reflexivity|]. apply IH; [|exact R]. intros b B. apply H. right. exact B.
Qed.
Lemma remote_inner p t o a : In a (remote_read p t o) -> inner p t a.
Proof.
  unfold remote_read. destruct (Nat.eqb_spec p t) as [|N]; [intros []|]. intros H. apply in_map_iff in H. destruct H as (x & <- & X). exact (conj eq_refl (conj eq_refl (conj N (entry_not _ _ X)))).
Qed.
Lemma local_inner p t o a : In a (local_read p t o) -> inner p t a.
Proof.
  unfold local_read. destruct (Nat.eqb_spec p t) as [N|]; [|intros []]. intros H. apply in_map_iff in H. destruct H as (x & <- & X). exact (conj eq_refl (conj N (entry_not _ _ X))).
Qed.
Lemma write_inner p t o vs a : In a (write p t o vs) -> inner p t a.
Proof.
  unfold write. intros H. apply in_map_iff in H. destruct H as (x & <- & X). destruct (Nat.eqb_spec p t) as [N|N].
  - exact (conj eq_refl (conj N (entry_not _ _ X))).
  - exact (conj eq_refl (conj eq_refl (conj N (entry_not _ _ X)))).
Qed.
Lemma acquire_inner p t o id a : In a (acquire p t o id) -> inner p t a.
Proof. intros [<-|[]]. exact (conj eq_refl (conj eq_refl (mutex_is o))). Qed.
Lemma release_inner p t o id a : In a (release p t o id) -> inner p t a.
Proof. intros [<-|[]]. exact (conj eq_refl (conj eq_refl (mutex_is o))). Qed.
Lemma epochs_outside p es : outside p (flat_map (dict_acts p) es).
Proof.
  induction es as [|e es IH]; [constructor|]. cbn [flat_map].
  destruct e as [t o id vs|t o id|t o vs|t o id|t o id vs|t o id vs]; cbn [dict_acts]; rewrite <- ?app_assoc; cbn [app]; apply out_lock;
    repeat (apply inside_app; [solve [apply remote_inner|apply local_inner|apply write_inner|apply acquire_inner|apply release_inner]|]); apply in_unlock; exact IH.
Qed.

Definition sane (unified : bool) (m : Z) (own : bool) (mtx : bool) (w : word) : Prop :=
  (unified = true -> w = Word m m Same) /\
  (if own && negb mtx then w_prv w = m /\ w_new w <> Pub else w_pub w = m /\ w_new w <> Prv) /\
  (w_new w = Same -> w_prv w = w_pub w).
Record good (unified : bool) (m : nat -> nat -> Z) (s : sys) : Prop := {
  g_held : forall t, holders (s_win s) t = [] \/ exists p, holders (s_win s) t = [(p, true)] /\ inside p t (s_prog s p);
  g_out : forall p, outside p (s_prog s p) \/ exists t, holders (s_win s) t = [(p, true)] /\ inside p t (s_prog s p);
  g_mem : forall t x, sane unified (m t x) (match holders (s_win s) t with [(p, _)] => p =? t | _ => false end) (is_mutex x) (WinModel.mem (s_win s) t x) }.

Lemma inside_lock p t q t' ex r : ~ inside p t (Lock q t' ex :: r).
Proof. intros H. inversion H as [? ? ? A B|]. exact A. Qed.
Lemma holds_one s t p q : holders s t = [(q, true)] -> holds s p t = (q =? p).
Proof. intros H. unfold holds. rewrite H. cbn. apply orb_false_r. Qed.
Lemma sane_sync_lock unified m w mtx : sane unified m false mtx w -> sane unified m true mtx (to_prv w).
Proof.
  intros (A & B & C). unfold sane, to_prv. cbn in B. destruct B as [B1 B2]. split; [|split].
  - intros U. rewrite (A U). reflexivity.
  - destruct mtx; cbn; destruct (w_new w) eqn:E; cbn; try rewrite E; try congruence; split; try assumption; try congruence. rewrite C by reflexivity. exact B1.
  - destruct (w_new w) eqn:E; cbn; try reflexivity; rewrite E; exact C.
Qed.
Lemma sane_sync_unlock unified m w mtx : sane unified m true mtx w -> sane unified m false mtx (to_pub w).
Proof.
  intros (A & B & C). unfold sane, to_pub. split; [|split].
  - intros U. rewrite (A U). reflexivity.
  - destruct mtx; cbn in B; destruct B as [B1 B2]; cbn; destruct (w_new w) eqn:E; cbn; try rewrite E; try congruence; split; try assumption; try congruence. rewrite <- C by reflexivity. exact B1.
  - destruct (w_new w) eqn:E; cbn; try reflexivity; rewrite E; exact C.
Qed.
Lemma sane_flow unified m own mtx w : sane unified m own mtx w -> sane unified m own mtx (to_prv (to_pub w)).
Proof.
  intros (A & B & C). unfold sane. split; [|split].
  - intros U. rewrite (A U). reflexivity.
  - unfold to_prv, to_pub. destruct (own && negb mtx); destruct B as [B1 B2]; destruct (w_new w) eqn:E; cbn; rewrite ?E; cbn; split; try congruence; try assumption; rewrite ?E; congruence.
  - intros _. unfold to_prv, to_pub. destruct (w_new w) eqn:E; cbn; rewrite ?E; cbn; auto.
Qed.
Lemma sane_store unified m w v : sane unified m true false w -> negb (is_pub (w_new w)) = true /\ w_prv w = m /\ sane unified v true false (store unified w v).
Proof.
  intros (A & [B1 B2] & C). split; [destruct (w_new w); [reflexivity|reflexivity|congruence]|]. split; [exact B1|]. unfold sane, store. destruct unified; cbn; repeat split; congruence.
Qed.
Lemma sane_rma unified m own mtx w v : own && negb mtx = false -> sane unified m own mtx w ->
  negb (is_prv (w_new w)) = true /\ w_pub w = m /\ sane unified v own mtx (rma unified w v).
Proof.
  intros O (A & B & C). rewrite O in B. destruct B as [B1 B2]. split; [destruct (w_new w); [reflexivity|congruence|reflexivity]|]. split; [exact B1|]. unfold sane, rma. rewrite O. destruct unified; cbn; repeat split; congruence.
Qed.

Section Dict.
Variable unified : bool.
(** Only a word changes, and the program of [p] gets shorter. *)
Lemma good_set m s p t a r tx x v w : good unified m s -> holders (s_win s) t = [(p, true)] -> s_prog s p = a :: r -> inside p t r -> tx = t ->
  sane unified v (p =? t) (is_mutex x) w -> good unified (upd m tx (upd (m tx) x v)) (Sys (setw (s_win s) tx x w) (upd (s_prog s) p r)).
Proof.
  intros G H P R -> W. constructor; cbn [s_win s_prog].
  - intros t'. cbn [setw holders]. destruct (g_held _ _ _ G t') as [E|(q & E & Q)]; [left; exact E|]. right. exists q. split; [exact E|].
    unfold upd. destruct (Nat.eqb_spec q p) as [->|]; [|exact Q]. destruct (Nat.eq_dec t' t) as [->|N]; [exact R|]. exfalso. rewrite P in Q.
    destruct (g_out _ _ _ G p) as [O|(t2 & E2 & O)].
    + rewrite P in O. inversion O as [|t3 r3 O1 O2]; subst. exact (inside_lock _ _ _ _ _ _ Q).
    + clear -Q R N G H P E. pose proof (g_held _ _ _ G t) as X. destruct X as [X|(q & X & Y)]; [congruence|]. rewrite H in X. injection X as <-. rewrite P in Y.
      inversion Q as [? ? ? A B|]; subst; inversion Y as [? ? ? A2 B2|]; subst; try contradiction; try congruence.
      all: destruct a; cbn in A, A2; intuition congruence.
  - intros q. destruct (Nat.eq_dec q p) as [->|N].
    + right. exists t. rewrite upd_same. split; [exact H|exact R].
    + rewrite upd_other by exact N. exact (g_out _ _ _ G q).
  - intros t' x'. rewrite setw_mem, one_set. cbn [setw holders]. destruct ((t' =? t) && (x' =? x)) eqn:E; [|exact (g_mem _ _ _ G t' x')].
    apply andb_prop in E. destruct E as [E1 E2]. apply Nat.eqb_eq in E1. apply Nat.eqb_eq in E2. subst. rewrite H. exact W.
Qed.
Lemma good_keep m s p t a r : good unified m s -> holders (s_win s) t = [(p, true)] -> s_prog s p = a :: r -> inside p t r -> good unified m (Sys (s_win s) (upd (s_prog s) p r)).
Proof.
  intros G H P R. pose proof (good_set m s p t a r t 0 (m t 0) (WinModel.mem (s_win s) t 0) G H P R eq_refl) as X.
  assert (W : sane unified (m t 0) (p =? t) (is_mutex 0) (WinModel.mem (s_win s) t 0)) by (pose proof (g_mem _ _ _ G t 0) as Y; rewrite H in Y; exact Y).
  specialize (X W). destruct X as [X1 X2 X3]. constructor; [exact X1|exact X2|]. intros t' x'. cbn [s_win] in *. exact (g_mem _ _ _ G t' x').
Qed.
Lemma dict_step m s p a r w o : good unified m s -> s_prog s p = a :: r -> step unified (s_win s) a = Some (w, o) ->
  r_ok o = true /\ r_val o = one_val m a /\ good unified (one_mem m a) (Sys w (upd (s_prog s) p r)).
Proof.
  intros G P E. destruct (g_out _ _ _ G p) as [O|(t & H & O)]; rewrite P in O.
  - inversion O as [|t r0 R E1]; subst. cbn [step] in E. destruct (holds (s_win s) p t); [discriminate|].
    destruct (holders (s_win s) t) as [|h l] eqn:H; cbn [negb andb existsb] in E; [|discriminate]. injection E as <- <-.
    split; [reflexivity|]. split; [reflexivity|]. constructor; cbn [s_win s_prog holders WinModel.mem one_mem].
    + intros t'. destruct (Nat.eq_dec t' t) as [->|N].
      * right. exists p. rewrite !upd_same. auto.
      * rewrite (upd_other (holders _)) by exact N. destruct (g_held _ _ _ G t') as [E|(q & E & Q)]; [left; exact E|]. right. exists q. split; [exact E|].
        destruct (Nat.eq_dec q p) as [->|N2]; [|rewrite upd_other by exact N2; exact Q]. rewrite P in Q. destruct (inside_lock _ _ _ _ _ _ Q).
    + intros q. destruct (Nat.eq_dec q p) as [->|N].
      * right. exists t. rewrite !upd_same. auto.
      * rewrite (upd_other (s_prog s)) by exact N. destruct (g_out _ _ _ G q) as [O2|(t2 & H2 & O2)]; [left; exact O2|]. right. exists t2. split; [|exact O2].
        rewrite upd_other; [exact H2|]. intros ->. congruence.
    + intros t' x'. pose proof (g_mem _ _ _ G t' x') as M. destruct (Nat.eq_dec t' t) as [->|N].
      * rewrite upd_same, H in *. destruct (Nat.eqb_spec p t) as [->|N]; [|exact M]. unfold sync. rewrite upd_same. exact (sane_sync_lock _ _ _ _ M).
      * rewrite upd_other by exact N. destruct (p =? t); [unfold sync; rewrite upd_other by exact N|]; exact M.
  - inversion O as [t0 a0 r0 A R E1|t0 r0 R E1]; subst.
    + pose proof (holds_one _ t p p H) as HH. rewrite Nat.eqb_refl in HH.
      destruct a as [p0 x v|p0 x|p0 t0 ex|p0 t0|p0 t0 x|p0 t0 x v|p0 t0 x v|p0 t0 x old v]; cbn [step] in E; cbn [inner] in A; try contradiction.
      * destruct A as (-> & -> & A). injection E as <- <-. pose proof (g_mem _ _ _ G t x) as M. rewrite H, Nat.eqb_refl, A in M.
        destruct (sane_store _ _ _ v M) as (X & Y & Z). split; [exact X|]. split; [reflexivity|]. cbn [one_mem].
        apply (good_set m s t t _ r t x v _ G H P R eq_refl). rewrite Nat.eqb_refl, A. exact Z.
      * destruct A as (-> & -> & A). injection E as <- <-. pose proof (g_mem _ _ _ G t x) as M. rewrite H, Nat.eqb_refl, A in M.
        destruct (sane_store _ _ _ 0%Z M) as (X & Y & _). split; [exact X|]. split; [cbn; rewrite Y; reflexivity|]. exact (good_keep m s t t _ r G H P R).
      * destruct A as (-> & -> & N & A). rewrite HH in E. injection E as <- <-. pose proof (g_mem _ _ _ G t x) as M. rewrite H in M.
        assert (F : (p =? t) && negb (is_mutex x) = false) by (apply Nat.eqb_neq in N; rewrite N; reflexivity). destruct (sane_rma _ _ _ _ _ 0%Z F M) as (X & Y & _). split; [exact X|]. split; [cbn; rewrite Y; reflexivity|].
        exact (good_keep m s p t _ r G H P R).
      * destruct A as (-> & -> & N & A). rewrite HH in E. injection E as <- <-. pose proof (g_mem _ _ _ G t x) as M. rewrite H in M.
        assert (F : (p =? t) && negb (is_mutex x) = false) by (apply Nat.eqb_neq in N; rewrite N; reflexivity). destruct (sane_rma _ _ _ _ _ v F M) as (X & Y & Z). split; [exact X|]. split; [reflexivity|].
        exact (good_set m s p t _ r t x v _ G H P R eq_refl Z).
      * destruct A as (-> & -> & A). rewrite HH in E. injection E as <- <-. pose proof (g_mem _ _ _ G t x) as M. rewrite H in M.
        assert (F : (p =? t) && negb (is_mutex x) = false) by (rewrite A; apply andb_false_r). destruct (sane_rma _ _ _ _ _ v F M) as (X & Y & Z). split; [exact X|]. split; [cbn; rewrite Y; reflexivity|].
        exact (good_set m s p t _ r t x v _ G H P R eq_refl Z).
      * destruct A as (-> & -> & A). rewrite HH in E. pose proof (g_mem _ _ _ G t x) as M. rewrite H in M.
        assert (F : (p =? t) && negb (is_mutex x) = false) by (rewrite A; apply andb_false_r). destruct (sane_rma _ _ _ _ _ v F M) as (X & Y & Z). cbn [one_mem one_val]. rewrite Y in E.
        injection E as <- <-. split; [exact X|]. split; [reflexivity|]. destruct (m t x =? old)%Z; [|exact (good_keep m s p t _ r G H P R)].
        exact (good_set m s p t _ r t x v _ G H P R eq_refl Z).
    + cbn [step] in E. pose proof (holds_one _ t p p H) as HH. rewrite Nat.eqb_refl in HH. rewrite HH, H in E. cbn [filter fst] in E. rewrite Nat.eqb_refl in E. cbn [negb] in E.
      injection E as <- <-. split; [reflexivity|]. split; [reflexivity|]. constructor; cbn [s_win s_prog holders WinModel.mem one_mem].
      * intros t'. destruct (Nat.eq_dec t' t) as [->|N]; [left; apply upd_same|]. rewrite (upd_other (holders _)) by exact N.
        destruct (g_held _ _ _ G t') as [E|(q & E & Q)]; [left; exact E|]. right. exists q. split; [exact E|].
        destruct (Nat.eq_dec q p) as [->|N2]; [|rewrite upd_other by exact N2; exact Q]. rewrite P in Q. inversion Q as [? ? ? A B|]; [destruct A|congruence].
      * intros q. destruct (Nat.eq_dec q p) as [->|N]; [left; rewrite upd_same; exact R|]. rewrite (upd_other (s_prog s)) by exact N.
        destruct (g_out _ _ _ G q) as [O2|(t2 & H2 & O2)]; [left; exact O2|]. right. exists t2. split; [|exact O2]. rewrite upd_other; [exact H2|]. intros ->. congruence.
      * intros t' x'. pose proof (g_mem _ _ _ G t' x') as M. destruct (Nat.eq_dec t' t) as [->|N].
        -- rewrite upd_same, H in *. destruct (Nat.eqb_spec p t) as [->|N]; [|exact M]. unfold sync. rewrite upd_same. exact (sane_sync_unlock _ _ _ _ M).
        -- rewrite upd_other by exact N. destruct (p =? t); [unfold sync; rewrite upd_other by exact N|]; exact M.
Qed.
Lemma dictionary m0 epochs es s tr : run unified (Sys (created m0) (dict_prog epochs)) es = Some (s, tr) -> coherent m0 tr.
Proof.
  apply (coherent_run unified (good unified)).
  - intros m s0 p a r w o. apply dict_step.
  - intros m s0 t x G. constructor; cbn [s_win s_prog setw holders]; [exact (g_held _ _ _ G)|exact (g_out _ _ _ G)|]. intros t' x'. fold (setw (s_win s0) t x (to_prv (to_pub (WinModel.mem (s_win s0) t x)))).
    rewrite setw_mem. pose proof (g_mem _ _ _ G t' x') as M. destruct ((t' =? t) && (x' =? x)) eqn:E; [|exact M].
    apply andb_prop in E. destruct E as [E1 E2]. apply Nat.eqb_eq in E1. apply Nat.eqb_eq in E2. subst. exact (sane_flow _ _ _ _ _ M).
  - constructor; cbn [s_win s_prog created holders WinModel.mem].
    + left. reflexivity.
    + intros p. left. apply epochs_outside.
    + intros t x. unfold sane. cbn. repeat split; congruence.
Qed.
End Dict.

(** ** The separate model *)
Lemma run_app unified es : forall s s1 t1 es2 s2 t2, run unified s es = Some (s1, t1) -> run unified s1 es2 = Some (s2, t2) -> run unified s (es ++ es2) = Some (s2, t1 ++ t2).
Proof.
  induction es as [|e es IH]; intros s s1 t1 es2 s2 t2 R1 R2; cbn [run app] in *.
  - injection R1 as <- <-. exact R2.
  - destruct (next unified s e) as [[s' t]|]; [|discriminate]. destruct (run unified s' es) as [[s'' t']|] eqn:E; [|discriminate]. injection R1 as <- <-.
    rewrite (IH _ _ _ _ _ _ E R2), <- app_assoc. reflexivity.
Qed.
Lemma loads unified k : forall w q r, q 0 = repeat (Load 0 3) k ++ r ->
  exists tr q', run unified (Sys w q) (repeat (Run 0) k) = Some (Sys w q', tr) /\ q' 0 = r /\ forall p, p <> 0 -> q' p = q p.
Proof.
  induction k as [|k IH]; intros w q r Q; cbn [repeat run].
  - exists [], q. split; [reflexivity|]. split; [exact Q|]. reflexivity.
  - cbn [next s_prog]. rewrite Q. cbn [repeat app step s_win]. destruct (IH w (upd q 0 (repeat (Load 0 3) k ++ r)) r (upd_same _ _ _)) as (tr & q' & H & A & B).
    rewrite H. eexists. exists q'. split; [reflexivity|]. split; [exact A|]. intros p P. rewrite (B p P). apply upd_other. exact P.
Qed.
Local Open Scope Z_scope.
Lemma coherent_in m tr a r : coherent m tr -> In (a, r) tr -> r_ok r = true.
Proof.
  revert m. induction tr as [|[b q] t IH]; intros m H I; [destruct I|]. destruct H as (A & _ & C). destruct I as [E|I]; [injection E as <- <-; exact A|exact (IH _ C I)].
Qed.
Lemma block_undefined wait : exists ops es s tr, (forall p, (1 < p)%nat -> ops p = []) /\
  es = repeat (Run 0) (1 + wait) ++ repeat (Run 1) 2 /\ run false (Sys (created (fun _ _ => 0)) (block_prog ops)) es = Some (s, tr) /\
  In (Store 0 3 7, Reply None true) tr /\ In (Get 1 0 3, Reply (Some 0) false) tr /\ ~ coherent (fun _ _ => 0) tr.
Proof.
  set (ops := fun p => match p with 0%nat => Fill 3 7 :: repeat (Use 3) wait | 1%nat => [Fetch 0 3] | _ => [] end).
  assert (P0 : block_prog ops 0 = Store 0 3 7 :: repeat (Load 0 3) wait ++ []).
  { unfold block_prog, ops. cbn [flat_map block_acts app]. f_equal. rewrite app_nil_r. clear. induction wait as [|k IH]; [reflexivity|]. cbn [repeat flat_map block_acts app]. rewrite IH. reflexivity. }
  set (w1 := setw (created (fun _ _ => 0)) 0 3 (Word 7 0 Prv)). set (q1 := upd (block_prog ops) 0 (repeat (Load 0 3) wait ++ [])).
  assert (R1 : run false (Sys (created (fun _ _ => 0)) (block_prog ops)) [Run 0] = Some (Sys w1 q1, [(Store 0 3 7, Reply None true)])).
  { cbn [run next s_prog]. rewrite P0. reflexivity. }
  assert (exists q2 t2, run false (Sys w1 q1) (repeat (Run 0) wait) = Some (Sys w1 q2, t2) /\ q2 1%nat = [Lock 1 0 false; Get 1 0 3; Unlock 1 0]) as (q2 & t2 & R2 & Q2).
  { destruct (loads false wait w1 q1 [] (upd_same _ _ _)) as (tr & q' & H & A & B). exists q', tr. split; [exact H|]. rewrite B by discriminate. reflexivity. }
  set (w3 := Win (WinModel.mem w1) (upd (holders w1) 0 [(1%nat, false)])). set (q3 := upd (upd q2 1 [Get 1 0 3; Unlock 1 0]) 1 [Unlock 1 0]).
  assert (R3 : run false (Sys w1 q2) (repeat (Run 1) 2) = Some (Sys w3 q3, [(Lock 1 0 false, Reply None true); (Get 1 0 3, Reply (Some 0) false)])).
  { cbn [repeat run next s_prog]. rewrite Q2. cbn [step s_win]. reflexivity. }
  exists ops, (repeat (Run 0) (1 + wait) ++ repeat (Run 1) 2). eexists. eexists. split; [intros [|[|p]] P; [inversion P|inversion P; inversion H0|reflexivity]|]. split; [reflexivity|].
  assert (G : In (Get 1 0 3, Reply (Some 0) false) ([(Store 0 3 7, Reply None true)] ++ t2 ++ [(Lock 1 0 false, Reply None true); (Get 1 0 3, Reply (Some 0) false)])).
  { apply in_or_app. right. apply in_or_app. right. right. left. reflexivity. }
  split; [|split; [|split; [exact G|]]].
  - change (repeat (Run 0) (1 + wait)) with ([Run 0] ++ repeat (Run 0) wait). rewrite <- app_assoc. apply (run_app _ _ _ _ _ _ _ _ R1). apply (run_app _ _ _ _ _ _ _ _ R2). exact R3.
  - left. reflexivity.
  - intros C. pose proof (coherent_in _ _ _ _ C G) as X. discriminate X.
Qed.
Lemma mutex_undefined : exists epochs es s tr,
  run false (Sys (created (fun _ _ => -1)) (fun p => (if p =? 0 then init_mutexes 0 1 else []) ++ dict_prog epochs p)%nat) es = Some (s, tr) /\
  (exists tr', tr = (Store 0 (mutex 0) unlocked, Reply None true) :: tr' /\ forall a r, In (a, r) tr' -> forall x v, a <> Store 0 (mutex x) v) /\
  In (Swap 1 0 (mutex 0) 1, Reply (Some (-1)) false) tr /\ ~ coherent (fun _ _ => -1) tr.
Proof.
  exists (fun p => if (p =? 1)%nat then [StartNow 0 0 1 (fun _ => 3)] else []), (Run 0 :: repeat (Run 1) 6). eexists. eexists.
  split; [vm_compute; reflexivity|]. split; [eexists; split; [reflexivity|]; intros a r I x v; cbn in I; repeat destruct I as [I|I]; try contradiction; injection I as <- <-; discriminate|].
  assert (forall l : list (act * reply), In (Swap 1 0 (mutex 0) 1, Reply (Some (-1)) false) l -> In (Swap 1 0 (mutex 0) 1, Reply (Some (-1)) false) l /\ ~ coherent (fun _ _ => -1) l) as X.
  { intros l I. split; [exact I|]. intros C. pose proof (coherent_in _ _ _ _ C I) as Y. discriminate Y. }
  apply X. cbn. auto 20.
Qed.
