(** * Facts about the metadata of a grid *)
From Coq Require Import Lia.
From Verif Require Import ContModel ContSpec.

Section Facts.
Variable D : Type.
Variable maxd : nat.
Variable grow : nat -> nat -> nat.
Notation init := (init D grow). Notation opens := (opens D grow). Notation resize := (resize D grow).

Lemma opens_snoc : forall h o, opens (h ++ [o]) = init (opens h) o.
Proof. intros h o. unfold ContModel.opens. rewrite fold_left_app. reflexivity. Qed.
Lemma opens_app : forall h1 h2, opens (h1 ++ h2) = fold_left init h2 (opens h1).
Proof. intros h1 h2. unfold ContModel.opens. apply fold_left_app. Qed.

Lemma resize_keeps : forall s n, c_dims D (resize s n) = c_dims D s /\ c_min D (resize s n) = c_min D s /\ c_max D (resize s n) = c_max D s.
Proof. intros s n. unfold ContModel.resize. destruct (n <=? c_count D s); [auto|]. destruct (n <=? c_cap D s); auto. Qed.

(** Opens that are not successful opens of level 0 leave the container's data. *)
Lemma init_keeps : forall s o, (forall m, o <> (0, Good m)) -> c_dims D (init s o) = c_dims D s /\ c_min D (init s o) = c_min D s /\ c_max D (init s o) = c_max D s.
Proof.
  intros s [i r] N. destruct (resize_keeps s (i + 1)) as (A & B & C). unfold ContModel.init.
  destruct (level_open D (c_lv D (resize s (i + 1)) i) r) as [l ok] eqn:E.
  assert (Q : ok && (i =? 0) = false).
  { destruct r; cbn in E; injection E as <- <-; try reflexivity. cbn. destruct (i =? 0) eqn:Z; [|reflexivity]. apply Nat.eqb_eq in Z. subst. destruct (N m). reflexivity. }
  rewrite Q. cbn. auto.
Qed.
Lemma inits_keep : forall h s, (forall m, ~ In (0, Good m) h) ->
  c_dims D (fold_left init h s) = c_dims D s /\ c_min D (fold_left init h s) = c_min D s /\ c_max D (fold_left init h s) = c_max D s.
Proof.
  induction h as [|o h IH]; intros s N; [auto|]. cbn [fold_left].
  destruct (IH (init s o)) as (A & B & C); [intros m I; apply (N m); right; exact I|].
  destruct (init_keeps s o) as (A' & B' & C'); [intros m ->; apply (N m); left; reflexivity|].
  rewrite A, B, C. auto.
Qed.

Lemma at_fill : forall l m n, at_dim D (fill D l m) n = if n <? List.length m then Ok (nth_error m (List.length m - n - 1)) else Ub.
Proof.
  intros l m n. unfold at_dim, fill. cbn [v_dims v_arr]. destruct (n <? List.length m) eqn:L; [|reflexivity]. apply Nat.ltb_lt in L.
  destruct (nth_error m (List.length m - n - 1)) eqn:E; [reflexivity|]. apply nth_error_None in E. lia.
Qed.

Lemma range : forall h m, opened D h 0 m -> List.length m <= maxd ->
  get_dims D (opens h) = List.length m /\
  forall n e, axis D m n e -> get_min D maxd (opens h) n = Ok (Some (e_min e)) /\ get_max D maxd (opens h) n = Ok (Some (e_max e)).
Proof.
  intros h m (h1 & h2 & -> & N) LM. rewrite opens_app. cbn [fold_left].
  destruct (inits_keep h2 (init (opens h1) (0, Good m)) N) as (A & B & C). unfold get_dims, get_min, get_max. rewrite A, B, C.
  set (s := opens h1). unfold ContModel.init. cbn [level_open]. cbn [andb Nat.eqb c_dims c_min c_max].
  split; [reflexivity|]. intros n e (L & E). assert (LN : n <? maxd = true) by (apply Nat.ltb_lt; lia). rewrite LN.
  unfold entry. change (v_dims D (fill D _ m)) with (List.length m). rewrite at_fill. apply Nat.ltb_lt in L. rewrite L, E. auto.
Qed.

(** ** The levels themselves, while the vector does not grow *)
Lemma lv_init : forall s i r j, i + 1 <= c_count D s \/ i + 1 <= c_cap D s ->
  c_lv D (init s (i, r)) j = if j =? i then fst (level_open D (c_lv D s i) r) else c_lv D s j.
Proof.
  intros s i r j C. unfold ContModel.init. assert (E : c_lv D (resize s (i + 1)) = c_lv D s).
  { unfold ContModel.resize. destruct (i + 1 <=? c_count D s) eqn:X; [reflexivity|]. destruct (i + 1 <=? c_cap D s) eqn:Y; [reflexivity|].
    apply Nat.leb_gt in X, Y. lia. }
  rewrite E. destruct (level_open D (c_lv D s i) r) as [l ok]. destruct (ok && (i =? 0)); cbn; unfold upd; destruct (j =? i); reflexivity.
Qed.
Lemma count_init : forall s i r, i < c_count D (init s (i, r)) /\ c_count D s <= c_count D (init s (i, r)).
Proof.
  intros s i r. unfold ContModel.init. destruct (level_open D (c_lv D (resize s (i + 1)) i) r) as [l ok].
  assert (X : i < c_count D (resize s (i + 1)) /\ c_count D s <= c_count D (resize s (i + 1))).
  { unfold ContModel.resize. destruct (i + 1 <=? c_count D s) eqn:X; [apply Nat.leb_le in X; lia|]. apply Nat.leb_gt in X.
    destruct (i + 1 <=? c_cap D s); cbn; lia. }
  destruct (ok && (i =? 0)); exact X.
Qed.
Lemma cap_init : forall s i r, i + 1 <= c_cap D s -> c_cap D (init s (i, r)) = c_cap D s.
Proof.
  intros s i r C. unfold ContModel.init. destruct (level_open D (c_lv D (resize s (i + 1)) i) r) as [l ok].
  assert (X : c_cap D (resize s (i + 1)) = c_cap D s).
  { unfold ContModel.resize. destruct (i + 1 <=? c_count D s); [reflexivity|]. destruct (i + 1 <=? c_cap D s) eqn:X; [reflexivity|]. apply Nat.leb_gt in X. lia. }
  destruct (ok && (i =? 0)); exact X.
Qed.
Lemma count_mono : forall h s, c_count D s <= c_count D (fold_left init h s).
Proof. induction h as [|[i r] h IH]; intros s; [auto|]. cbn [fold_left]. pose proof (IH (init s (i, r))). pose proof (count_init s i r). lia. Qed.

Lemma lv_inits : forall h s N j, N <= c_cap D s -> (forall x, In x h -> fst x < N) -> (forall r, In (j, r) h -> r = NoFile) ->
  c_lv D (fold_left init h s) j = c_lv D s j.
Proof.
  induction h as [|[i r] h IH]; intros s N j C L NF; [reflexivity|]. cbn [fold_left].
  assert (LI : i < N) by exact (L _ (or_introl eq_refl)).
  rewrite (IH _ N); [|rewrite cap_init by lia; exact C|intros x I; apply L; right; exact I|intros r' I; apply NF; right; exact I].
  rewrite lv_init by lia. destruct (j =? i) eqn:J; [|reflexivity]. apply Nat.eqb_eq in J. subst j.
  rewrite (NF r (or_introl eq_refl)). reflexivity.
Qed.

Lemma cap_inits : forall h s N, N <= c_cap D s -> (forall x, In x h -> fst x < N) -> c_cap D (fold_left init h s) = c_cap D s.
Proof.
  induction h as [|[i r] h IH]; intros s N C L; [reflexivity|]. cbn [fold_left].
  assert (LI : i < N) by exact (L _ (or_introl eq_refl)).
  rewrite (IH _ N); [apply cap_init; lia|rewrite cap_init by lia; exact C|intros x I; apply L; right; exact I].
Qed.

Lemma lv_last : forall s i r m, (r = Good m \/ r = Bad m) ->
  exists l, c_lv D (init s (i, r)) i = fill D l m.
Proof.
  intros s i r m R. unfold ContModel.init. destruct R as [->| ->]; cbn [level_open]; [destruct (true && (i =? 0))|cbn [andb]]; cbn; unfold upd; rewrite Nat.eqb_refl; eauto.
Qed.

Lemma delta : forall h i m, (forall c n, n <= grow c n) -> largest_first D h -> seen D h i m -> List.length m <= maxd ->
  forall n e, axis D m n e -> get_delta D maxd (opens h) n i = Ok (Some (e_delta e)).
Proof.
  intros h i m G LF (h1 & h2 & r & -> & R & NF) LM n e (L & E). rewrite opens_app. cbn [fold_left]. set (s := opens h1).
  assert (X : exists N, N <= c_cap D (init s (i, r)) /\ forall x, In x h2 -> fst x < N).
  { destruct h1 as [|[i0 r0] h1].
    - exists (i + 1). split.
      + unfold s, ContModel.opens, ContModel.init. cbn [fold_left]. destruct (level_open D _ r) as [l ok].
        assert (Q : i + 1 <= c_cap D (resize (cont0 D) (i + 1))) by (unfold ContModel.resize; cbn [cont0 c_count c_cap]; destruct (i + 1 <=? 0) eqn:Z; [apply Nat.leb_le in Z; lia|]; cbn; apply G).
        destruct (ok && (i =? 0)); exact Q.
      + intros x I. cbn in LF. specialize (LF x I). cbn in LF. lia.
    - exists (i0 + 1). cbn [app] in LF.
      assert (LT : forall x, In x (h1 ++ (i, r) :: h2) -> fst x < i0 + 1) by (intros x I; specialize (LF x I); cbn in LF; lia).
      assert (C0 : i0 + 1 <= c_cap D (init (cont0 D) (i0, r0))).
      { unfold ContModel.init. destruct (level_open D _ r0) as [l ok].
        assert (Q : i0 + 1 <= c_cap D (resize (cont0 D) (i0 + 1))) by (unfold ContModel.resize; cbn [cont0 c_count c_cap]; destruct (i0 + 1 <=? 0) eqn:Z; [apply Nat.leb_le in Z; lia|]; cbn; apply G).
        destruct (ok && (i0 =? 0)); exact Q. }
      assert (CS : i0 + 1 <= c_cap D s).
      { unfold s, ContModel.opens. cbn [fold_left]. rewrite (cap_inits h1 _ (i0 + 1)); [exact C0|exact C0|].
        intros x I. apply LT. apply in_app_iff. auto. }
      split.
      + rewrite cap_init; [exact CS|]. assert (i < i0 + 1) by (apply (LT (i, r)); apply in_app_iff; right; left; reflexivity). lia.
      + intros x I. apply LT. apply in_app_iff. right. right. exact I. }
  destruct X as (N & CN & LN). unfold get_delta.
  assert (LM' : n <? maxd = true) by (apply Nat.ltb_lt; lia). rewrite LM'.
  assert (CT : i <? c_count D (fold_left init h2 (init s (i, r))) = true).
  { apply Nat.ltb_lt. pose proof (count_mono h2 (init s (i, r))). pose proof (count_init s i r). lia. }
  rewrite CT. cbn [andb]. rewrite (lv_inits h2 _ N i CN LN NF). destruct (lv_last s i r m R) as (l & ->).
  rewrite at_fill. apply Nat.ltb_lt in L. rewrite L, E. reflexivity.
Qed.

(** ** The vector grows *)
Lemma grown : forall m, (forall c n, n <= grow c n) -> 0 < List.length m <= maxd ->
  let h := [(0, Good m); (grow 0 1, Good m)] in
  all_good D h /\ forall n, n < List.length m -> get_delta D maxd (opens h) n 0 = Ok None.
Proof.
  intros m G LM h. pose proof (G 0 1). split.
  - intros i r [E|[E|[]]]; injection E as <- <-; eauto.
  - intros n L. unfold get_delta. assert (LN : n <? maxd = true) by (apply Nat.ltb_lt; lia). rewrite LN.
    assert (CT : 0 <? c_count D (opens h) = true).
    { apply Nat.ltb_lt. unfold ContModel.opens, h. cbn [fold_left]. pose proof (count_init (init (cont0 D) (0, Good m)) (grow 0 1) (Good m)). lia. }
    rewrite CT. cbn [andb]. assert (X : c_lv D (opens h) 0 = copy D (fill D (lev0 D) m)).
    { unfold ContModel.opens, h. cbn [fold_left]. set (s := init (cont0 D) (0, Good m)).
      assert (S1 : c_count D s = 1 /\ c_cap D s = grow 0 1 /\ c_lv D s 0 = fill D (lev0 D) m) by (split; [reflexivity|]; split; reflexivity).
      destruct S1 as (S1 & S2 & S3). unfold ContModel.init. cbn [level_open andb].
      assert (Z : grow 0 1 =? 0 = false) by (apply Nat.eqb_neq; lia). rewrite Z. cbn [c_lv]. unfold upd. rewrite Nat.eqb_sym, Z.
      unfold ContModel.resize. rewrite S1, S2. destruct (grow 0 1 + 1 <=? 1) eqn:A; [apply Nat.leb_le in A; lia|].
      destruct (grow 0 1 + 1 <=? grow 0 1) eqn:B; [apply Nat.leb_le in B; lia|]. cbn [c_lv Nat.ltb Nat.leb]. rewrite S3. reflexivity. }
    rewrite X. unfold at_dim, copy. cbn [v_dims v_arr fill]. apply Nat.ltb_lt in L. rewrite L. reflexivity.
Qed.
End Facts.
