(** * Facts about errors in open *)
From Verif Require Import OpenErrModel.

Lemma upd_eq {A} (f : nat -> A) i a : upd f i a i = a.
Proof. unfold upd. now rewrite Nat.eqb_refl. Qed.
Lemma upd_ne {A} (f : nat -> A) i j a : j <> i -> upd f i a j = f j.
Proof. unfold upd. intros H. apply Nat.eqb_neq in H. now rewrite H. Qed.

(** ** Sums *)
Fixpoint esum (f : nat -> nat) (k : nat) : nat := match k with 0 => 0 | S k' => esum f k' + f k' end.
Lemma esum_ext f g k : (forall i, i < k -> f i = g i) -> esum f k = esum g k.
Proof. induction k; cbn; auto. intros H. rewrite IHk, H by auto. reflexivity. Qed.
Lemma esum_upd f g k t : t < k -> (forall i, i <> t -> f i = g i) -> esum f k + g t = esum g k + f t.
Proof.
  induction k; [lia|]. intros L E. cbn. destruct (Nat.eq_dec t k) as [->|N].
  - rewrite (esum_ext f g k) by (intros; apply E; lia). lia.
  - rewrite (E k) by lia. assert (t < k) by lia. specialize (IHk H E). lia.
Qed.
Lemma esum_le f k c : (forall i, i < k -> f i <= c) -> esum f k <= k * c.
Proof. induction k; cbn; [lia|]. intros H. specialize (H k) as Hk. assert (esum f k <= k * c) by (apply IHk; auto). lia. Qed.
Lemma esum_full f k : (forall i, i < k -> f i <= 1) -> k <= esum f k -> forall i, i < k -> f i = 1.
Proof.
  induction k; [lia|]. cbn. intros H L i Li.
  assert (f k <= 1) by auto.
  assert (esum f k <= k * 1) by (apply esum_le; auto).
  destruct (Nat.eq_dec i k) as [->|N]; [lia|]. apply IHk; auto; lia.
Qed.
Lemma esum_one f k : (forall i, i < k -> f i = 1) -> esum f k = k.
Proof. induction k; cbn; auto. intros H. rewrite IHk, H by auto. lia. Qed.

(** ** Specification *)
(** The collective calls the master of domain [d] gets to. *)
Fixpoint meets (bad : nat -> nat -> bool) (prog : list oop) (d : nat) : nat :=
  match prog with
  | [] => 0
  | ODo k :: r => if bad d k then 0 else meets bad r d
  | ORoot k :: r => if (d =? 0) && bad d k then 0 else meets bad r d
  | OAll :: r => S (meets bad r d)
  end.
(** No step of domain [d] fails. *)
Definition fine (bad : nat -> nat -> bool) (prog : list oop) (d : nat) : bool :=
  forallb (fun o => match o with ODo k => negb (bad d k) | ORoot k => negb ((d =? 0) && bad d k) | OAll => true end) prog.

Section Facts.
Variables (D T : nat) (prog : list oop) (bad : nat -> nat -> bool).
Hypothesis D0 : 0 < D.
Hypothesis DT : D <= T.

Local Notation step := (ostep D T bad).
Local Notation run := (orun D T bad).
Local Notation meets := (meets bad).
Local Notation fine := (fine bad).

Definition oreachable (s : ost) : Prop := exists l, run (oinit D prog) l = Some s.

Definition left (x : othr) : nat :=
  match x with
  | OIn [] _ => 3
  | OIn todo w => 2 * length todo + (if w then 2 else 3)
  | OEnd _ false => 2
  | OEnd _ true => 1
  | ORet _ => 0
  end.
Definition ended (x : othr) : nat := match x with OEnd _ true | ORet _ => 1 | _ => 0 end.

Lemma esum_decreases (f g : nat -> nat) t : t < T -> g t < f t -> (forall i, i <> t -> g i = f i) -> S (esum g T) <= esum f T.
Proof. intros L H E. pose proof (esum_upd g f T t L E). lia. Qed.

Lemma step_left s t s' : step s t = Some s' ->
  S (esum (fun t => left (o_thr s' t)) T) <= esum (fun t => left (o_thr s t)) T.
Proof.
  unfold ostep. destruct (Nat.ltb_spec t T) as [L|]; [|discriminate].
  intros H.
  assert (X : exists x, (forall i, i <> t -> o_thr s' i = o_thr s i) /\ o_thr s' t = x /\ left x < left (o_thr s t)).
  { destruct (o_thr s t) as [[|[k|k|] todo] w|ok [|]|ok] eqn:E.
    - injection H as <-. eexists. split; [intros; apply upd_ne; auto|]. split; [apply upd_eq|]. destruct w; cbn; lia.
    - destruct (bad t k); injection H as <-; eexists; (split; [intros; apply upd_ne; auto|]); (split; [apply upd_eq|]); destruct w, todo; cbn; lia.
    - destruct ((t =? 0) && bad t k); injection H as <-; eexists; (split; [intros; apply upd_ne; auto|]); (split; [apply upd_eq|]); destruct w, todo; cbn; lia.
    - destruct w.
      + destruct (forallb _ _); [|discriminate]. injection H as <-. eexists. split; [intros; apply upd_ne; auto|]. split; [apply upd_eq|]. destruct todo; cbn; lia.
      + injection H as <-. eexists. split; [intros; apply upd_ne; auto|]. split; [apply upd_eq|]. cbn; lia.
    - destruct (T <=? o_end s); [|discriminate]. injection H as <-. eexists. split; [intros; apply upd_ne; auto|]. split; [apply upd_eq|]. cbn; lia.
    - injection H as <-. eexists. split; [intros; apply upd_ne; auto|]. split; [apply upd_eq|]. cbn; lia.
    - discriminate. }
  destruct X as (x & A & B & C). apply (esum_decreases _ _ t L).
  - rewrite B. exact C.
  - intros i N. rewrite A; auto.
Qed.
Lemma run_left l : forall s s', run s l = Some s' ->
  length l + esum (fun t => left (o_thr s' t)) T <= esum (fun t => left (o_thr s t)) T.
Proof.
  induction l as [|t l IH]; cbn; intros s s' H; [injection H as <-; lia|].
  destruct (step s t) as [s1|] eqn:E; [|discriminate].
  apply step_left in E. apply IH in H. lia.
Qed.
Lemma bounded_open l s : run (oinit D prog) l = Some s -> length l <= T * (2 * length prog + 3).
Proof.
  intros H. apply run_left in H.
  assert (esum (fun t => left (o_thr (oinit D prog) t)) T <= T * (2 * length prog + 3)).
  { apply esum_le. intros i _. cbn [o_thr oinit]. destruct (i <? D); [destruct prog|]; cbn; lia. }
  lia.
Qed.

(** ** Invariant *)
Definition thr_ok (s : ost) (t : nat) : Prop :=
  match o_thr s t with
  | OIn todo w =>
      t < D /\ fine todo t = fine prog t /\
      if w then
        exists r, todo = OAll :: r /\ o_all s t + meets r t = meets prog t /\
          forall d, d < D -> o_all s t <= S (o_all s d)
      else o_all s t + meets todo t = meets prog t /\ forall d, d < D -> o_all s t <= o_all s d
  | OEnd ok w =>
      t < D -> o_all s t = meets prog t /\ ok = fine prog t /\ forall d, d < D -> o_all s t <= o_all s d
  | ORet ok =>
      ok = fine prog 0 /\ T <= o_end s /\ (t < D -> o_all s t = meets prog t /\ forall d, d < D -> o_all s t <= o_all s d)
  end.
Definition oinv (s : ost) : Prop :=
  (forall t, t < T -> thr_ok s t) /\ o_end s = esum (fun t => ended (o_thr s t)) T /\
  (ended (o_thr s 0) = 1 -> o_val s = fine prog 0).

Lemma thr_ok_mono s s' t : o_thr s' t = o_thr s t -> o_all s' t = o_all s t -> (forall d, o_all s d <= o_all s' d) ->
  o_end s <= o_end s' -> thr_ok s t -> thr_ok s' t.
Proof.
  intros A B M E. unfold thr_ok. rewrite A, B.
  assert (LE : forall n, (forall d, d < D -> n <= o_all s d) -> forall d, d < D -> n <= o_all s' d).
  { intros n H d L. specialize (H d L). specialize (M d). lia. }
  destruct (o_thr s t) as [todo [|]|ok w|ok].
  - intros (L & F & r & P & Q & R). split; [exact L|]. split; [exact F|]. exists r. split; [exact P|]. split; [exact Q|].
    intros d Ld. specialize (R d Ld). specialize (M d). lia.
  - intros (L & F & P & Q). split; [exact L|]. split; [exact F|]. split; [exact P|]. apply LE, Q.
  - intros H L. destruct (H L) as (P & Q & R). split; [exact P|]. split; [exact Q|]. apply LE, R.
  - intros (O & N & H). split; [exact O|]. split; [lia|]. intros L. destruct (H L) as (P & R). split; [exact P|]. apply LE, R.
Qed.

Lemma end_same s t x : t < T -> ended x = ended (o_thr s t) ->
  esum (fun i => ended (upd (o_thr s) t x i)) T = esum (fun i => ended (o_thr s i)) T.
Proof.
  intros L H. apply esum_ext. intros i _. destruct (Nat.eq_dec i t) as [->|N]; [rewrite upd_eq; exact H|rewrite upd_ne by exact N; reflexivity].
Qed.

Lemma step_set s t x : oinv s -> t < T -> ended x = ended (o_thr s t) -> thr_ok (set_othr s t x) t -> oinv (set_othr s t x).
Proof.
  intros (I & J & V) L E K. split; [|split].
  - intros i Li. destruct (Nat.eq_dec i t) as [->|N]; [exact K|].
    apply (thr_ok_mono s); cbn; auto. apply upd_ne, N.
  - cbn. rewrite J. symmetry. apply end_same; auto.
  - cbn. intros X. apply V. destruct (Nat.eq_dec t 0) as [->|N]; [rewrite upd_eq in X; congruence|rewrite upd_ne in X; auto].
Qed.

Lemma init_inv : oinv (oinit D prog).
Proof.
  split; [|split].
  - intros t L. unfold thr_ok. cbn [o_thr oinit o_all]. destruct (Nat.ltb_spec t D) as [K|K]; [|lia].
    split; [exact K|]. split; [reflexivity|]. split; [reflexivity|]. lia.
  - cbn [o_thr o_end oinit]. assert (Z : forall k, esum (fun t => ended (if t <? D then OIn prog false else OEnd true false)) k = 0).
    { induction k; [reflexivity|]. cbn [esum]. rewrite IHk. destruct (k <? D); reflexivity. }
    now rewrite Z.
  - cbn [o_thr oinit]. destruct (0 <? D); discriminate.
Qed.

Lemma step_inv s t s' : oinv s -> step s t = Some s' -> oinv s'.
Proof.
  intros I H. pose proof I as (A & B & C). unfold ostep in H. destruct (Nat.ltb_spec t T) as [L|]; [|discriminate].
  pose proof (A t L) as K. unfold thr_ok in K.
  destruct (o_thr s t) as [[|[k|k|] todo] w|ok w|ok] eqn:E.
  - (* the end of the program *)
    injection H as <-. apply step_set; [exact I|exact L|rewrite E; reflexivity|].
    unfold thr_ok. cbn. rewrite upd_eq. intros Ld. destruct K as (_ & F & K).
    destruct w; [destruct K as (r & X & _); discriminate|]. destruct K as (P & Q). cbn in P, F. split; [lia|].
    split; [exact F|exact Q].
  - assert (W : w = false) by (destruct w; [destruct K as (_ & _ & r & X & _); discriminate|reflexivity]). subst w.
    destruct K as (Ld & F & P & Q). cbn in P, F.
    destruct (bad t k); injection H as <-; (apply step_set; [exact I|exact L|rewrite E; reflexivity|]); unfold thr_ok; cbn; rewrite upd_eq.
    + intros _. split; [lia|]. split; [exact F|exact Q].
    + split; [exact Ld|]. split; [exact F|]. split; [exact P|exact Q].
  - assert (W : w = false) by (destruct w; [destruct K as (_ & _ & r & X & _); discriminate|reflexivity]). subst w.
    destruct K as (Ld & F & P & Q). cbn in P, F.
    destruct ((t =? 0) && bad t k); injection H as <-; (apply step_set; [exact I|exact L|rewrite E; reflexivity|]); unfold thr_ok; cbn; rewrite upd_eq.
    + intros _. split; [lia|]. split; [exact F|exact Q].
    + split; [exact Ld|]. split; [exact F|]. split; [exact P|exact Q].
  - destruct w.
    + destruct (forallb _ _) eqn:FA; [|discriminate]. injection H as <-.
      destruct K as (Ld & F & r & X & P & _). injection X as <-.
      apply step_set; [exact I|exact L|rewrite E; reflexivity|]. unfold thr_ok. cbn. rewrite upd_eq.
      split; [exact Ld|]. split; [exact F|]. split; [exact P|].
      rewrite forallb_forall in FA. intros d Hd. apply Nat.leb_le, FA, in_seq. lia.
    + injection H as <-. destruct K as (Ld & F & P & Q). cbn in P, F. split; [|split].
      * intros i Li. destruct (Nat.eq_dec i t) as [->|N].
        -- unfold thr_ok. cbn. rewrite !upd_eq. split; [exact Ld|]. split; [exact F|]. exists todo. split; [reflexivity|].
           split; [lia|]. intros d Hd. destruct (Nat.eq_dec d t) as [->|Nd]; [rewrite upd_eq; lia|].
           rewrite upd_ne by exact Nd. specialize (Q d Hd). lia.
        -- apply (thr_ok_mono s); cbn; auto; [apply upd_ne, N|apply upd_ne, N|].
           intros d. destruct (Nat.eq_dec d t) as [->|Nd]; [rewrite upd_eq; lia|rewrite upd_ne by exact Nd; lia].
      * cbn. rewrite B. symmetry. apply end_same; [exact L|rewrite E; reflexivity].
      * cbn. intros X. apply C. destruct (Nat.eq_dec t 0) as [->|N]; [rewrite upd_eq in X; discriminate|rewrite upd_ne in X; auto].
  - destruct w.
    + destruct (Nat.leb_spec T (o_end s)) as [LT|]; [|discriminate]. injection H as <-.
      apply step_set; [exact I|exact L|rewrite E; reflexivity|].
      unfold thr_ok. cbn. rewrite upd_eq. split.
      * apply C. assert (F : forall i, i < T -> ended (o_thr s i) = 1).
        { apply esum_full; [intros i _; destruct (o_thr s i) as [? ?|? []|?]; cbn; lia|lia]. }
        apply F. lia.
      * split; [exact LT|]. intros Ld. destruct (K Ld) as (P & _ & Q). split; [exact P|exact Q].
    + injection H as <-. split; [|split].
      * intros i Li. destruct (Nat.eq_dec i t) as [->|N].
        -- unfold thr_ok. cbn. rewrite upd_eq. exact K.
        -- apply (thr_ok_mono s); cbn; auto. apply upd_ne, N.
      * cbn. rewrite B. pose proof (esum_upd (fun i => ended (upd (o_thr s) t (OEnd ok true) i)) (fun i => ended (o_thr s i)) T t L) as S.
        cbv beta in S. rewrite upd_eq, E in S. cbn in S.
        assert (forall i, i <> t -> ended (upd (o_thr s) t (OEnd ok true) i) = ended (o_thr s i)) by (intros; rewrite upd_ne; auto).
        specialize (S H). lia.
      * cbn. intros X. destruct (Nat.eqb_spec t 0) as [->|N].
        -- apply K in D0. tauto.
        -- apply C. rewrite upd_ne in X; auto.
  - discriminate.
Qed.
Lemma run_inv l : forall s s', oinv s -> run s l = Some s' -> oinv s'.
Proof.
  induction l as [|t l IH]; cbn; intros s s' I H; [injection H as <-; exact I|].
  destruct (step s t) as [s1|] eqn:E; [|discriminate]. exact (IH _ _ (step_inv _ _ _ I E) H).
Qed.
Lemma reach_inv s : oreachable s -> oinv s.
Proof. intros (l & H). exact (run_inv _ _ _ init_inv H). Qed.

(** ** Somebody waits for ever *)
Lemma nobody_returns d0 d1 : d0 < D -> d1 < D -> meets prog d0 < meets prog d1 ->
  forall s t ok, oreachable s -> t < T -> o_thr s t <> ORet ok.
Proof.
  intros L0 L1 LT s t ok R Lt E. apply reach_inv in R. destruct R as (A & B & _).
  pose proof (A t Lt) as K. unfold thr_ok in K. rewrite E in K. destruct K as (_ & G & _).
  assert (F : forall i, i < T -> ended (o_thr s i) = 1).
  { apply esum_full; [intros i _; destruct (o_thr s i) as [? ?|? []|?]; cbn; lia|lia]. }
  assert (X : forall d, d < D -> o_all s d = meets prog d /\ forall d', d' < D -> o_all s d <= o_all s d').
  { intros d Ld. pose proof (F d ltac:(lia)) as Fd. pose proof (A d ltac:(lia)) as K. unfold thr_ok in K.
    destruct (o_thr s d) as [? ?|? []|?]; try discriminate; [apply K in Ld|apply (proj2 (proj2 K)) in Ld]; tauto. }
  destruct (X d0 L0) as (P & _). destruct (X d1 L1) as (P1 & Q1). specialize (Q1 d0 L0). lia.
Qed.

(** ** Nobody waits for ever *)
Lemma max_of (f : nat -> nat) (p : nat -> bool) k : (exists i, i < k /\ p i = true) ->
  exists i, i < k /\ p i = true /\ forall j, j < k -> p j = true -> f i <= f j.
Proof.
  induction k; [intros (i & L & _); lia|]. intros (i & L & H).
  destruct (existsb p (seq 0 k)) eqn:E.
  - apply existsb_exists in E. destruct E as (x & Hx & Px). apply in_seq in Hx.
    destruct IHk as (m & Lm & Pm & M); [exists x; split; [lia|exact Px]|].
    destruct (p k) eqn:Pk; [destruct (Nat.le_gt_cases (f m) (f k)) as [C|C]|].
    + exists m. split; [lia|]. split; [exact Pm|]. intros j Lj Pj. destruct (Nat.eq_dec j k) as [->|N]; [exact C|apply M; auto; lia].
    + exists k. split; [lia|]. split; [exact Pk|]. intros j Lj Pj. destruct (Nat.eq_dec j k) as [->|N]; [lia|].
      specialize (M j ltac:(lia) Pj). lia.
    + exists m. split; [lia|]. split; [exact Pm|]. intros j Lj Pj. destruct (Nat.eq_dec j k) as [->|N]; [congruence|apply M; auto; lia].
  - assert (i = k).
    { destruct (Nat.eq_dec i k); auto. exfalso. assert (existsb p (seq 0 k) = true); [|congruence].
      apply existsb_exists. exists i. split; [apply in_seq; lia|exact H]. }
    subst i. exists k. split; [lia|]. split; [exact H|]. intros j Lj Pj. destruct (Nat.eq_dec j k) as [->|N]; [lia|].
    exfalso. assert (existsb p (seq 0 k) = true); [|congruence]. apply existsb_exists. exists j. split; [apply in_seq; lia|exact Pj].
Qed.

Lemma can_step m : (forall d, d < D -> meets prog d = m) -> forall s t, oreachable s -> t < T ->
  (exists ok, o_thr s t = ORet ok) \/ exists t' s', step s t' = Some s'.
Proof.
  intros M s t R Lt. apply reach_inv in R. destruct R as (A & B & _).
  destruct (existsb (fun i => match o_thr s i with OIn (OAll :: _) true => true | _ => false end) (seq 0 T)) eqn:E.
  - (* somebody waits in a collective call: take the one which is furthest behind *)
    right. apply existsb_exists in E. destruct E as (x & Hx & Wx). apply in_seq in Hx.
    destruct (max_of (o_all s) (fun i => match o_thr s i with OIn (OAll :: _) true => true | _ => false end) T) as (i & Li & Wi & Mi).
    { exists x. split; [lia|exact Wx]. }
    destruct (o_thr s i) as [[|[k|k|] todo] []|? ?|?] eqn:Ei; try discriminate.
    destruct (forallb (fun d => o_all s i <=? o_all s d) (seq 0 D)) eqn:FA.
    + exists i. eexists. unfold ostep. destruct (Nat.ltb_spec i T); [|lia]. rewrite Ei, FA. reflexivity.
    + assert (Bad : exists d, d < D /\ o_all s d < o_all s i).
      { assert (X : existsb (fun d => o_all s d <? o_all s i) (seq 0 D) = true).
        { destruct (existsb _ (seq 0 D)) eqn:Y; [reflexivity|]. exfalso. rewrite <- not_true_iff_false in FA, Y. apply FA.
          apply forallb_forall. intros d Hd. apply Nat.leb_le. destruct (Nat.le_gt_cases (o_all s i) (o_all s d)); auto.
          exfalso. apply Y. apply existsb_exists. exists d. split; [exact Hd|apply Nat.ltb_lt; lia]. }
        apply existsb_exists in X. destruct X as (d & Hd & C). apply in_seq in Hd. apply Nat.ltb_lt in C. exists d. lia. }
      destruct Bad as (d & Ld & C). exists d.
      pose proof (A d ltac:(lia)) as K. pose proof (A i Li) as Ki. unfold thr_ok in K, Ki. rewrite Ei in Ki.
      destruct Ki as (Lid & Fi & r & X & Pi & _). injection X as <-.
      destruct (o_thr s d) as [todo' w|ok w|ok] eqn:Ed.
      * destruct w.
        -- destruct K as (_ & _ & r & X & Pd & _). subst todo'. exfalso. specialize (Mi d ltac:(lia)). rewrite Ed in Mi. specialize (Mi eq_refl). lia.
        -- unfold ostep. destruct (Nat.ltb_spec d T); [|lia]. rewrite Ed. destruct todo' as [|[k|k|] todo'].
           ++ eexists; reflexivity.
           ++ destruct (bad d k); eexists; reflexivity.
           ++ destruct ((d =? 0) && bad d k); eexists; reflexivity.
           ++ eexists; reflexivity.
      * exfalso. destruct (K Ld) as (Pd & _ & _). rewrite (M d Ld) in Pd. rewrite (M i Lid) in Pi. lia.
      * exfalso. destruct (proj2 (proj2 K) Ld) as (Pd & _). rewrite (M d Ld) in Pd. rewrite (M i Lid) in Pi. lia.
  - assert (NW : forall i todo, i < T -> o_thr s i <> OIn (OAll :: todo) true).
    { intros i todo Li X. rewrite <- not_true_iff_false in E. apply E. apply existsb_exists. exists i. split; [apply in_seq; lia|].
      rewrite X. reflexivity. }
    destruct (existsb (fun i => match ended (o_thr s i) with 0 => true | _ => false end) (seq 0 T)) eqn:E2.
    + right. apply existsb_exists in E2. destruct E2 as (x & Hx & Wx). apply in_seq in Hx. exists x. unfold ostep.
      destruct (Nat.ltb_spec x T); [|lia].
      destruct (o_thr s x) as [[|[k|k|] todo] w|ok []|ok] eqn:Ex; try discriminate.
      * eexists; reflexivity.
      * destruct (bad x k); eexists; reflexivity.
      * destruct ((x =? 0) && bad x k); eexists; reflexivity.
      * destruct w; [exfalso; exact (NW x todo ltac:(lia) Ex)|eexists; reflexivity].
      * eexists; reflexivity.
    + assert (F : forall i, i < T -> ended (o_thr s i) = 1).
      { intros i Li. destruct (ended (o_thr s i)) as [|[|]] eqn:Y; auto.
        - exfalso. rewrite <- not_true_iff_false in E2. apply E2. apply existsb_exists. exists i. split; [apply in_seq; lia|]. rewrite Y; reflexivity.
        - destruct (o_thr s i) as [? ?|? []|?]; cbn in Y; lia. }
      rewrite (esum_one _ _ F) in B. pose proof (F t Lt) as Ft.
      destruct (o_thr s t) as [? ?|ok []|ok] eqn:Et; try discriminate.
      * right. exists t. eexists. unfold ostep. destruct (Nat.ltb_spec t T); [|lia]. rewrite Et, B, Nat.leb_refl. reflexivity.
      * left. exists ok. reflexivity.
Qed.

Lemma orun_app l1 : forall l2 s, run s (l1 ++ l2) = match run s l1 with Some s' => run s' l2 | None => None end.
Proof. induction l1 as [|t l1 IH]; cbn; intros; auto. destruct (step s t); auto. Qed.

Lemma all_return m : (forall d, d < D -> meets prog d = m) -> forall s, oreachable s ->
  exists l s', run s l = Some s' /\ forall t, t < T -> exists ok, o_thr s' t = ORet ok.
Proof.
  intros M s. remember (esum (fun t => left (o_thr s t)) T) as n eqn:En. revert s En.
  induction n as [n IH] using lt_wf_ind. intros s En R.
  destruct (existsb (fun i => match o_thr s i with ORet _ => false | _ => true end) (seq 0 T)) eqn:E.
  - apply existsb_exists in E. destruct E as (x & Hx & Wx). apply in_seq in Hx.
    destruct (can_step m M s x R ltac:(lia)) as [(ok & X)|(t & s1 & X)]; [rewrite X in Wx; discriminate|].
    pose proof (step_left _ _ _ X) as L. destruct R as (l0 & R).
    assert (R1 : oreachable s1). { exists (l0 ++ [t]). rewrite orun_app, R. cbn. rewrite X. reflexivity. }
    destruct (IH (esum (fun t => left (o_thr s1 t)) T) ltac:(lia) s1 eq_refl R1) as (l & s' & Q & Z). exists (t :: l), s'. split; [cbn; rewrite X; exact Q|exact Z].
  - exists [], s. split; [reflexivity|]. intros t Lt. destruct (o_thr s t) as [? ?|? ?|ok] eqn:Et; [..|exists ok; reflexivity];
      exfalso; rewrite <- not_true_iff_false in E; apply E; apply existsb_exists; exists t; (split; [apply in_seq; lia|]); rewrite Et; reflexivity.
Qed.

Lemma result s t ok : oreachable s -> t < T -> o_thr s t = ORet ok -> ok = fine prog 0.
Proof.
  intros R L E. apply reach_inv in R. destruct R as (A & _). pose proof (A t L) as K. unfold thr_ok in K. rewrite E in K. tauto.
Qed.

Lemma every_run m : (forall d, d < D -> meets prog d = m) -> forall l s, run (oinit D prog) l = Some s ->
  length l <= T * (2 * length prog + 3) /\
  ((forall t, t < T -> o_thr s t = ORet (fine prog 0)) \/ exists t s', step s t = Some s').
Proof.
  intros M l s R. split; [exact (bounded_open _ _ R)|].
  assert (Rs : oreachable s) by (exists l; exact R).
  destruct (existsb (fun i => match o_thr s i with ORet _ => false | _ => true end) (seq 0 T)) eqn:E.
  - right. apply existsb_exists in E. destruct E as (x & Hx & Wx). apply in_seq in Hx.
    destruct (can_step m M s x Rs ltac:(lia)) as [(ok & X)|X]; [rewrite X in Wx; discriminate|exact X].
  - left. intros t Lt. destruct (o_thr s t) as [? ?|? ?|ok] eqn:Et; [..|f_equal; exact (result s t ok Rs Lt Et)];
      exfalso; rewrite <- not_true_iff_false in E; apply E; apply existsb_exists; exists t; (split; [apply in_seq; lia|]); rewrite Et; reflexivity.
Qed.
End Facts.

(** ** The levels *)
Lemma meets_app bad p q d : meets bad (p ++ q) d = if fine bad p d then meets bad p d + meets bad q d else meets bad p d.
Proof.
  induction p as [|[k|k|] p IH]; cbn; auto.
  - destruct (bad d k); cbn; auto.
  - destruct ((d =? 0) && bad d k); cbn; auto.
  - rewrite IH. unfold fine. destruct (forallb _ p); reflexivity.
Qed.
Lemma meets_same bad prog d : (forall k, In (ODo k) prog -> bad d k = bad 0 k) -> (forall k, In (ORoot k) prog -> bad 0 k = false) ->
  meets bad prog d = meets bad prog 0.
Proof.
  induction prog as [|[k|k|] p IH]; cbn [meets]; intros A B; auto.
  - rewrite (A k) by (left; reflexivity). destruct (bad 0 k); auto. apply IH; intros; [apply A|apply B]; right; assumption.
  - rewrite (B k) by (left; reflexivity). rewrite andb_false_r.
    assert (X : (d =? 0) && bad d k = false).
    { destruct (Nat.eqb_spec d 0) as [->|]; [apply B; left; reflexivity|reflexivity]. }
    rewrite X. apply IH; intros; [apply A|apply B]; right; assumption.
  - f_equal. apply IH; intros; [apply A|apply B]; right; assumption.
Qed.
Definition is_all (o : oop) : bool := match o with OAll => true | _ => false end.
(** After each step of domain 0 alone there is a collective call. *)
Fixpoint followed (prog : list oop) : bool :=
  match prog with
  | [] => true
  | ORoot _ :: r => existsb is_all r && followed r
  | _ :: r => followed r
  end.
Lemma meets_pos bad q : existsb is_all q = true -> (forall j, In (ODo j) q -> bad 1 j = false) -> 0 < meets bad q 1.
Proof.
  induction q as [|[j|j|] q IH]; cbn; intros H A; [discriminate|..|lia].
  - rewrite (A j) by (left; reflexivity). apply IH; [exact H|]. intros; apply A; right; assumption.
  - apply IH; [exact H|]. intros; apply A; right; assumption.
Qed.
Lemma meets_less bad prog : followed prog = true -> (forall j, In (ODo j) prog -> bad 0 j = false /\ bad 1 j = false) ->
  (exists k, In (ORoot k) prog /\ bad 0 k = true) -> meets bad prog 0 < meets bad prog 1.
Proof.
  induction prog as [|[j|j|] p IH]; cbn [meets followed]; intros F A (k & K & B).
  - destruct K.
  - destruct (A j) as (-> & ->); [left; reflexivity|]. apply IH; [exact F|intros; apply A; right; assumption|].
    exists k. split; [destruct K as [K|K]; [discriminate|exact K]|exact B].
  - apply andb_prop in F. destruct F as (F1 & F2). cbn. destruct (bad 0 j) eqn:J.
    + apply meets_pos; [exact F1|]. intros; apply A; right; assumption.
    + apply IH; [exact F2|intros; apply A; right; assumption|].
      exists k. split; [destruct K as [K|K]; [congruence|exact K]|exact B].
  - apply -> Nat.succ_lt_mono. apply IH; [exact F|intros; apply A; right; assumption|].
    exists k. split; [destruct K as [K|K]; [discriminate|exact K]|exact B].
Qed.
Lemma followed_init k copies : followed (container_init k copies) = true.
Proof.
  unfold container_init, make_level. cbn [alls app followed]. induction copies; cbn [alls app followed]; [|exact IHcopies].
  destruct k as [|[] []| |[] []|]; reflexivity.
Qed.

Lemma uniform_returns D T k copies bad : 0 < D -> D <= T ->
  (forall d j, d < D -> In (ODo j) (container_init k copies) -> bad d j = bad 0 j) ->
  (forall j, In (ORoot j) (container_init k copies) -> bad 0 j = false) ->
  forall l s, orun D T bad (oinit D (container_init k copies)) l = Some s ->
  length l <= T * (2 * length (container_init k copies) + 3) /\
  ((forall t, t < T -> o_thr s t = ORet (fine bad (container_init k copies) 0)) \/ exists t s', ostep D T bad s t = Some s').
Proof.
  intros H L A B. apply (every_run D T _ bad H L (meets bad (container_init k copies) 0)).
  intros d Ld. apply meets_same; auto.
Qed.
Lemma one_domain_returns T k copies bad : 0 < T -> 
  forall l s, orun 1 T bad (oinit 1 (container_init k copies)) l = Some s ->
  length l <= T * (2 * length (container_init k copies) + 3) /\
  ((forall t, t < T -> o_thr s t = ORet (fine bad (container_init k copies) 0)) \/ exists t s', ostep 1 T bad s t = Some s').
Proof.
  intros L. apply (every_run 1 T _ bad ltac:(lia) L (meets bad (container_init k copies) 0)).
  intros d Ld. assert (d = 0) by lia. subst; reflexivity.
Qed.
Lemma root_failure D T k copies bad : 2 <= D -> D <= T ->
  (forall d j, In (ODo j) (container_init k copies) -> bad d j = false) ->
  (exists j, In (ORoot j) (container_init k copies) /\ bad 0 j = true) ->
  forall l s t ok, orun D T bad (oinit D (container_init k copies)) l = Some s -> t < T -> o_thr s t <> ORet ok.
Proof.
  intros H L A B l s t ok R Lt. apply (nobody_returns D T (container_init k copies) bad) with (d0 := 0) (d1 := 1); try lia.
  - apply meets_less; [apply followed_init| |exact B]. intros j Hj. split; apply A; exact Hj.
  - exists l. exact R.
Qed.
