(** * Opens in which nothing fails *)
From Coq Require Import Lia.
From Verif Require Import LedgerModel LedgerSpec LedgerFacts.

Inductive stat := SFirst | SShared | SOwn.
Definition amap := field -> option stat.
Definition aset (a : amap) (f : field) (v : option stat) : amap := fun g => if field_dec g f then v else a g.
Definition astep (c : cmd) (a : amap) : amap :=
  match c with
  | New First f _ => aset a f (Some SFirst)
  | New Each f _ => aset a f (Some SOwn)
  | Share f _ => match a f with Some SFirst | Some SShared => aset a f (Some SShared) | _ => aset a f None end
  | Drop f => aset a f None
  | _ => a
  end.
Fixpoint arun (cs : list cmd) (a : amap) : amap := match cs with [] => a | c :: r => arun r (astep c a) end.

Section N.
Variable n : nat.
Hypothesis pos : 0 < n.
Definition means (o : nat -> obj) (f : field) (t : stat) : Prop :=
  match t with
  | SFirst => exists x, o_ptr (o 0) f = Some x
  | SShared => exists x, forall d, d < n -> o_ptr (o d) f = Some x
  | SOwn => forall d, d < n -> exists x, o_ptr (o d) f = Some x /\ forall d', d' < n -> d' <> d -> o_ptr (o d') f <> Some x
  end.
Record calm_ok (a : amap) (s : st) : Prop := {
  co_run : forall d, s_run s d = true;
  co_means : forall f t, a f = Some t -> means (s_obj s) f t
}.
Lemma means_ext o o' f t : (forall d, o_ptr (o' d) f = o_ptr (o d) f) -> means o f t -> means o' f t.
Proof.
  intros E M. destruct t; cbn in *.
  - destruct M as [x M]. exists x. rewrite E. exact M.
  - destruct M as [x M]. exists x. intros d D. rewrite E. auto.
  - intros d D. destruct (M d D) as (x & A & B). exists x. rewrite E. split; [exact A|]. intros d' D' X. rewrite E. auto.
Qed.
Definition nope (i d : nat) : bool := false.

Lemma each_run m f s : (forall d t, s_run (f d t) = s_run t) -> s_run (each m f s) = s_run s.
Proof. intros E. induction m; cbn; [reflexivity|]. destruct (s_run (each m f s) m); rewrite ?E; exact IHm. Qed.
Lemma each_other m f s g : (forall d t d', o_ptr (s_obj (f d t) d') g = o_ptr (s_obj t d') g) -> forall d', o_ptr (s_obj (each m f s) d') g = o_ptr (s_obj s d') g.
Proof. intros E d'. induction m; cbn; [reflexivity|]. destruct (s_run (each m f s) m); rewrite ?E; exact IHm. Qed.
Lemma do_new_run i f m d s : s_run (do_new nope i f m d s) = s_run s.
Proof. destruct m; reflexivity. Qed.
Lemma do_new_obj i f m d s : s_obj (do_new nope i f m d s) = upd (s_obj s) d (set_ptr (s_obj s d) f (Some (h_next (s_heap s)))) /\ h_next (s_heap (do_new nope i f m d s)) = S (h_next (s_heap s)).
Proof. destruct m; split; reflexivity. Qed.
Lemma ptr_upd o d f v d' g : o_ptr (upd o d (set_ptr (o d) f v) d') g = if (d' =? d) then (if field_dec g f then v else o_ptr (o d') g) else o_ptr (o d') g.
Proof. unfold upd. destruct (Nat.eqb_spec d' d) as [->|]; reflexivity. Qed.
Lemma ptr_other o d f v d' g : g <> f -> o_ptr (upd o d (set_ptr (o d) f v) d') g = o_ptr (o d') g.
Proof. intros G. rewrite ptr_upd. destruct (field_dec g f); [contradiction|]. destruct (d' =? d); reflexivity. Qed.
Lemma do_share_obj i f m d s : do_share nope nope i f m d s = put s d f (o_ptr (s_obj s 0) f).
Proof. destruct m; reflexivity. Qed.

Lemma each_new m i f md s : (forall d, s_run s d = true) -> let s' := each m (do_new nope i f md) s in
  h_next (s_heap s') = h_next (s_heap s) + m /\ forall d, d < m -> o_ptr (s_obj s' d) f = Some (h_next (s_heap s) + d).
Proof.
  intros R. induction m; cbn [each]; [split; [lia|intros; lia]|]. cbv zeta in *.
  rewrite (each_run m) by (intros; apply do_new_run). rewrite R. destruct IHm as [A B].
  destruct (do_new_obj i f md m (each m (do_new nope i f md) s)) as [O H]. rewrite O, H. split; [lia|].
  intros d D. rewrite ptr_upd. destruct (Nat.eqb_spec d m) as [->|N]; [destruct (field_dec f f); [f_equal; lia|contradiction]|apply B; lia].
Qed.
Lemma each_share m i f md s x : (forall d, s_run s d = true) -> o_ptr (s_obj s 0) f = Some x -> let s' := each m (do_share nope nope i f md) s in
  o_ptr (s_obj s' 0) f = Some x /\ forall d, d < m -> o_ptr (s_obj s' d) f = Some x.
Proof.
  intros R X. induction m; cbn [each]; [split; [exact X|intros; lia]|]. cbv zeta in *.
  rewrite (each_run m) by (intros; rewrite do_share_obj; reflexivity). rewrite R. destruct IHm as [A B].
  rewrite do_share_obj. cbn [put s_obj]. rewrite A. split.
  - rewrite ptr_upd. destruct (0 =? m); [destruct (field_dec f f); [reflexivity|contradiction]|exact A].
  - intros d D. rewrite ptr_upd. destruct (Nat.eqb_spec d m) as [->|N]; [destruct (field_dec f f); [reflexivity|contradiction]|apply B; lia].
Qed.

Lemma calm_step i c a s : calm_ok a s -> exists s', step n nope nope i c s = Go s' /\ calm_ok (astep c a) s'.
Proof.
  intros [R M]. destruct c as [p|[] f md|f md| |f]; cbn [step astep].
  - eexists. split; [reflexivity|]. split.
    + intros d. rewrite each_run by reflexivity. apply R.
    + intros g t G. refine (means_ext _ _ _ _ _ (M g t G)). intros d. apply each_other. intros e u d'. cbn. unfold upd. destruct (Nat.eqb_spec d' e) as [->|]; reflexivity.
  - rewrite R. exists (do_new nope i f md 0 s). split; [destruct md; reflexivity|]. split; [intros d; rewrite do_new_run; apply R|].
    destruct (do_new_obj i f md 0 s) as [O _]. intros g t G. rewrite O. unfold aset in G. destruct (field_dec g f) as [->|N].
    + injection G as <-. exists (h_next (s_heap s)). rewrite ptr_upd. cbn. destruct (field_dec f f); [reflexivity|contradiction].
    + refine (means_ext _ _ _ _ _ (M g t G)). intros d. apply ptr_other. exact N.
  - eexists. split; [reflexivity|]. split; [intros d; rewrite each_run by (intros; apply do_new_run); apply R|].
    intros g t G. unfold aset in G. destruct (field_dec g f) as [->|N].
    + injection G as <-. destruct (each_new n i f md s R) as [_ B]. intros d D. exists (h_next (s_heap s) + d). split; [apply B; exact D|].
      intros d' D' X. rewrite (B d' D'). intros E. injection E as E. lia.
    + refine (means_ext _ _ _ _ _ (M g t G)). intros d. apply each_other. intros e u d'. destruct (do_new_obj i f md e u) as [O _]. rewrite O. apply ptr_other. exact N.
  - replace (forallb (s_run s) (seq 0 n)) with true by (symmetry; apply forallb_forall; auto). eexists. split; [reflexivity|].
    split; [intros d; rewrite each_run by (intros; rewrite do_share_obj; reflexivity); apply R|].
    intros g t G. destruct (field_dec g f) as [->|N].
    + assert (X : exists x, o_ptr (s_obj s 0) f = Some x /\ t = SShared).
      { destruct (a f) as [[]|] eqn:E; unfold aset in G; destruct (field_dec f f); try contradiction; try discriminate; injection G as <-.
        - destruct (M f _ E) as [x X]. eauto.
        - destruct (M f _ E) as [x X]. exists x. auto. }
      destruct X as (x & X & ->). exists x. exact (proj2 (each_share n i f md s x R X)).
    + assert (G' : a g = Some t) by (destruct (a f) as [[]|]; unfold aset in G; destruct (field_dec g f); try contradiction; exact G).
      refine (means_ext _ _ _ _ _ (M g t G')). intros d. apply each_other. intros e u d'. rewrite do_share_obj. apply ptr_other. exact N.
  - eexists. split; [reflexivity|]. split; [intros d; rewrite each_run by reflexivity; apply R|].
    intros g t G. refine (means_ext _ _ _ _ _ (M g t G)). intros d. apply each_other. reflexivity.
  - eexists. split; [reflexivity|]. split; [intros d; rewrite each_run by reflexivity; apply R|].
    intros g t G. unfold aset in G. destruct (field_dec g f) as [->|N]; [discriminate|].
    refine (means_ext _ _ _ _ _ (M g t G)). intros d. apply each_other. intros e u d'. apply ptr_other. exact N.
Qed.
Lemma calm_steps cs : forall i a s, calm_ok a s -> exists s', steps n nope nope i cs s = Go s' /\ calm_ok (arun cs a) s'.
Proof.
  induction cs as [|c r IH]; intros i a s C; cbn [steps arun]; [eauto|]. destruct (calm_step i c a s C) as (s1 & E & C1). rewrite E. exact (IH (S i) _ s1 C1).
Qed.
End N.

Definition used (k : kind) : bool :=
  forallb (fun e => match arun (init k) (fun _ => None) (fst e), snd e with Some SShared, true => true | Some SOwn, false => true | _, _ => false end) (uses k).
Lemma used_all k : used k = true.
Proof. destruct k as [|[] []| |[] []|]; vm_compute; reflexivity. Qed.

Lemma completed n k grow s l : 0 < n -> exists s', open n k grow s (calm l) = Go s' /\ complete n k s' l.
Proof.
  intros P. unfold open. cbn [calm q_level q_fail q_late]. set (s1 := resize n k grow s (l + 1)).
  destruct (calm_steps n P (init k) 0 (fun _ => None) (St (c_heap s1) (c_lv s1 l) (fun _ => true))) as (r & E & C); [split; [reflexivity|discriminate]|].
  unfold nope in E. rewrite E. eexists. split; [reflexivity|]. intros f b d F D. cbn [c_lv].
  assert (U := used_all k). unfold used in U. rewrite forallb_forall in U. specialize (U _ F). cbn [fst snd] in U.
  unfold upd. rewrite Nat.eqb_refl.
  destruct (arun (init k) (fun _ => None) f) as [[]|] eqn:A; [discriminate| | |discriminate]; assert (M := co_means _ _ _ C f _ A); destruct b; try discriminate; cbn in M.
  - destruct M as [x M]. exists x. split; [auto|]. intros d' D' N. split; auto.
  - destruct (M d D) as (x & X & Y). exists x. split; [exact X|]. intros d' D' N. split; [|discriminate]. intros Z. destruct (Y d' D' N Z).
Qed.
Lemma calm_opens n k grow ls : 0 < n -> forall s, exists s', opens n k grow s (map calm ls) = Go s'.
Proof.
  intros P. induction ls as [|l r IH]; intros s; cbn [map opens]; [eauto|]. destruct (completed n k grow s l P) as (s1 & E & _). rewrite E. apply IH.
Qed.

Lemma open_frame n k grow s q s' : open n k grow s q = Go s' -> c_count s' = Nat.max (c_count s) (q_level q + 1) /\
  (q_level q < c_count s -> forall l, l <> q_level q -> c_lv s' l = c_lv s l).
Proof.
  unfold open. intros E.
  assert (C : c_count (resize n k grow s (q_level q + 1)) = Nat.max (c_count s) (q_level q + 1)).
  { unfold resize. destruct (Nat.leb_spec (q_level q + 1) (c_count s)); [lia|].
    destruct (construct (c_heap s)) as [h0 tmp]. destruct (fresh (c_count s) (q_level q + 1 - c_count s) h0 (c_lv s)) as [h1 lv1].
    destruct (q_level q + 1 <=? c_cap s); [cbn; lia|]. destruct (copies (c_count s) h1 lv1) as [h2 lv2]. cbn. lia. }
  destruct (steps n (q_fail q) (q_late q) 0 (init k) _) as [r| |]; try discriminate. injection E as <-. cbn [c_count c_lv]. split; [exact C|].
  intros L l N. unfold upd. destruct (Nat.eqb_spec l (q_level q)); [contradiction|]. unfold resize. destruct (Nat.leb_spec (q_level q + 1) (c_count s)); [reflexivity|lia].
Qed.
Lemma opens_app n k grow h t : forall s s', opens n k grow s (h ++ t) = Go s' -> exists s1, opens n k grow s h = Go s1 /\ opens n k grow s1 t = Go s'.
Proof.
  induction h as [|q r IH]; intros s s' E; cbn [app opens] in *; [eauto|]. destruct (open n k grow s q) as [s1| |]; try discriminate. exact (IH _ _ E).
Qed.
Lemma opens_count n k grow h : forall s s', opens n k grow s h = Go s' -> c_count s <= c_count s'.
Proof.
  induction h as [|q r IH]; intros s s' E; cbn [opens] in E; [injection E as <-; lia|]. destruct (open n k grow s q) as [s1| |] eqn:O; try discriminate.
  destruct (open_frame _ _ _ _ _ _ O) as [C _]. specialize (IH _ _ E). lia.
Qed.
Lemma opens_frame n k grow t l : forall s s', opens n k grow s t = Go s' -> (forall q, In q t -> q_level q < c_count s /\ q_level q <> l) -> c_lv s' l = c_lv s l.
Proof.
  induction t as [|q r IH]; intros s s' E H; cbn [opens] in E; [injection E as <-; reflexivity|]. destruct (open n k grow s q) as [s1| |] eqn:O; try discriminate.
  destruct (open_frame _ _ _ _ _ _ O) as [C F]. destruct (H q (or_introl eq_refl)) as [L N]. rewrite (IH s1 s' E).
  - apply F; [exact L|auto].
  - intros q' Q. destruct (H q' (or_intror Q)) as [L' N']. split; [lia|exact N'].
Qed.
Lemma stays_complete n k grow h l t s : 0 < n -> largest_first (h ++ calm l :: t) -> no_reopen (h ++ calm l :: t) ->
  opens n k grow cst0 (h ++ calm l :: t) = Go s -> complete n k s l.
Proof.
  intros P LF NR E. destruct (opens_app _ _ _ _ _ _ _ E) as (s1 & E1 & E2). cbn [opens] in E2.
  destruct (completed n k grow s1 l P) as (s2 & O & C). rewrite O in E2.
  assert (F : c_lv s l = c_lv s2 l).
  { apply (opens_frame n k grow t l s2 s E2). intros q Q. split.
    - destruct (open_frame _ _ _ _ _ _ O) as [K _]. cbn [calm q_level] in K. destruct h as [|q0 r]; cbn [app largest_first] in LF; [specialize (LF q Q); cbn in LF; lia|].
      assert (L : q_level q <= q_level q0) by (apply LF; apply in_or_app; right; right; exact Q). cbn [opens] in E1.
      destruct (open n k grow cst0 q0) as [s0| |] eqn:O0; try discriminate. destruct (open_frame _ _ _ _ _ _ O0) as [K0 _]. assert (K1 := opens_count _ _ _ _ _ _ E1). lia.
    - intros X. unfold no_reopen in NR. rewrite map_app in NR. cbn [map calm q_level] in NR. apply NoDup_remove_2 in NR. apply NR. apply in_or_app. right. rewrite <- X. apply in_map. exact Q. }
  intros f b d U D. destruct (C f b d U D) as (x & X & Y). exists x. rewrite F. split; [exact X|exact Y].
Qed.
