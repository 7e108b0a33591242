(** * Facts about the specification vocabulary *)
From Verif Require Export Spec.
From Coq Require Export Bool ZifyBool ZifyNat FinFun.
Ltac Zify.zify_post_hook ::= Z.div_mod_to_equations.
Global Arguments Nat.ltb : simpl never.
Global Arguments Nat.leb : simpl never.
Global Arguments Nat.eqb : simpl never.
Global Arguments Nat.div : simpl never.
Global Arguments Nat.modulo : simpl never.

Lemma in_box_nil : in_box [] [].
Proof. constructor. Qed.

Lemma in_box_cons d ds i ix : in_box (d :: ds) (i :: ix) <-> i < d /\ in_box ds ix.
Proof. split; [inversion 1; subst; auto | intros [H1 H2]; constructor; auto]. Qed.

Lemma in_box_length ds ix : in_box ds ix -> length ix = length ds.
Proof. induction 1; cbn; auto. Qed.

Lemma in_box_inv_cons d ds ix : in_box (d :: ds) ix ->
  exists i ix', ix = i :: ix' /\ i < d /\ in_box ds ix'.
Proof. inversion 1; subst; eauto 6. Qed.

Lemma in_box_inv_nil ix : in_box [] ix -> ix = [].
Proof. inversion 1; auto. Qed.

Lemma volume_pos ds : Forall (fun d => 0 < d) ds -> 0 < volume ds.
Proof. induction 1; cbn; nia. Qed.

Lemma in_box_pos ds ix : in_box ds ix -> Forall (fun d => 0 < d) ds.
Proof. induction 1; constructor; auto; lia. Qed.

Lemma row_major_lt ds ix : in_box ds ix -> row_major ds ix < volume ds.
Proof.
  induction 1 as [|i d ix ds Hi H IH]; cbn; [lia|].
  assert (i * volume ds + volume ds <= d * volume ds) by nia. lia.
Qed.

Lemma row_major_inj ds ix jx :
  in_box ds ix -> in_box ds jx -> row_major ds ix = row_major ds jx -> ix = jx.
Proof.
  intros Hi; revert jx; induction Hi as [|i d ix ds Hid Hi IH]; intros jx Hj E.
  - inversion Hj; auto.
  - apply in_box_inv_cons in Hj as (j & jx' & -> & Hj1 & Hj2). cbn in E.
    pose proof (row_major_lt _ _ Hi). pose proof (row_major_lt _ _ Hj2).
    assert (i = j) as -> by nia.
    f_equal. apply IH; auto. lia.
Qed.

Lemma map2_length {A B C} (f : A -> B -> C) l m :
  length l = length m -> length (map2 f l m) = length l.
Proof. revert m; induction l as [|a l IH]; intros [|b m]; cbn; auto; congruence || (intros; f_equal; auto). Qed.

Lemma in_box_In ds ix : in_box ds ix <-> In ix (box ds).
Proof.
  revert ix; induction ds as [|d ds IH]; intros ix; cbn.
  - split; [intros H; apply in_box_inv_nil in H; auto | intros [<-|[]]; constructor].
  - rewrite in_flat_map. split.
    + intros H; apply in_box_inv_cons in H as (i & ix' & -> & Hi & H).
      exists i. rewrite in_seq, in_map_iff. split; [lia|]. exists ix'. split; auto. apply IH; auto.
    + intros (i & Hi & Hx). apply in_seq in Hi. apply in_map_iff in Hx as (ix' & <- & Hx).
      apply in_box_cons. split; [lia|]. apply IH; auto.
Qed.

Lemma flat_map_const_length {A B} (f : A -> list B) l n :
  (forall a, In a l -> length (f a) = n) -> length (flat_map f l) = length l * n.
Proof.
  induction l as [|a l IH]; cbn; intros H; auto.
  rewrite app_length, H by auto. rewrite IH; auto.
Qed.

Lemma box_length ds : length (box ds) = volume ds.
Proof.
  induction ds as [|d ds IH]; cbn; auto.
  rewrite flat_map_const_length with (n := volume ds), seq_length; auto.
  intros; rewrite map_length; auto.
Qed.

Lemma nth_error_flat_map_const {A B} (f : A -> list B) l n k r :
  (forall a, In a l -> length (f a) = n) -> r < n ->
  nth_error (flat_map f l) (k * n + r) =
  match nth_error l k with Some a => nth_error (f a) r | None => None end.
Proof.
  revert k; induction l as [|a l IH]; intros k H Hr; cbn.
  - destruct (k * n + r), k; auto.
  - destruct k as [|k]; cbn.
    + rewrite nth_error_app1; auto. rewrite H; auto. now left.
    + rewrite nth_error_app2, H by (rewrite ?H by (now left); lia || now left).
      replace (n + k * n + r - n) with (k * n + r) by lia. apply IH; auto.
      intros; apply H; now right.
Qed.

(** The enumeration lists the multi-indices at their row-major position. *)
Lemma box_nth ds ix : in_box ds ix -> nth_error (box ds) (row_major ds ix) = Some ix.
Proof.
  induction 1 as [|i d ix ds Hi H IH]; cbn; auto.
  rewrite nth_error_flat_map_const with (n := volume ds).
  - rewrite nth_error_nth' with (d := 0) by (rewrite seq_length; auto).
    rewrite seq_nth by auto. cbn. rewrite nth_error_map, IH. auto.
  - intros; rewrite map_length, box_length; auto.
  - apply row_major_lt; auto.
Qed.

Lemma box_nth_inv ds n ix :
  nth_error (box ds) n = Some ix -> in_box ds ix /\ row_major ds ix = n.
Proof.
  intros H.
  assert (Hb : in_box ds ix) by (apply in_box_In, nth_error_In with n; auto).
  split; auto.
  assert (NoDup (box ds)) as Hnd.
  { clear. induction ds as [|d ds IH]; cbn; [repeat constructor; auto|].
    generalize (seq_NoDup d 0). induction (seq 0 d) as [|i l IHl]; cbn; [constructor|].
    inversion 1; subst.
    assert (forall x, In x (map (cons i) (box ds)) ->
              ~ In x (flat_map (fun i => map (cons i) (box ds)) l)) as Hdis.
    { intros x Hx Hy. apply in_map_iff in Hx as (y & <- & _).
      apply in_flat_map in Hy as (j & Hj & Hy). apply in_map_iff in Hy as (z & E & _).
      inversion E; subst. auto. }
    assert (NoDup (map (cons i) (box ds))) as Hm.
    { apply FinFun.Injective_map_NoDup; auto. intros x y E; now inversion E. }
    specialize (IHl ltac:(auto)). revert Hm Hdis IHl.
    generalize (map (cons i) (box ds)) as l1.
    generalize (flat_map (fun i0 => map (cons i0) (box ds)) l) as l2.
    clear. intros l2 l1 Hm Hd H2. induction l1 as [|a l1 IH]; cbn; auto.
    inversion Hm; subst. constructor.
    - rewrite in_app_iff. intros [?|?]; auto. eapply Hd; eauto. now left.
    - apply IH; auto. intros; apply Hd; now right. }
  pose proof (box_nth _ _ Hb) as E.
  apply (proj1 (NoDup_nth_error (box ds))); auto.
  - apply nth_error_Some. congruence.
  - congruence.
Qed.
