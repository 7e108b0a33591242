(** * Facts about NoiseModel: several octaves in three dimensions *)
From Coq Require Import Lia Lqa Setoid Morphisms Qabs.
From Verif Require Import NoiseModel NoiseFacts NoiseThree.
Local Open Scope Q_scope.

(** The distance of two places. *)
Fixpoint dist (l l' : list Q) : Q :=
  match l, l' with x :: t, x' :: t' => Qabs (x - x') + dist t t' | _, _ => 0 end.
Lemma dist_nonneg l : forall l', 0 <= dist l l'.
Proof. induction l as [|x l IH]; intros [|x' l']; cbn [dist]; try lra. pose proof (Qabs_nonneg (x - x')). pose proof (IH l'). lra. Qed.
Lemma dist_double l : forall l', dist (map (fun x => x * 2) l) (map (fun x => x * 2) l') == 2 * dist l l'.
Proof.
  induction l as [|x l IH]; intros [|x' l']; cbn [dist map]; try reflexivity.
  rewrite IH. setoid_replace (x * 2 - x' * 2) with (2 * (x - x')) by ring. rewrite Qabs_Qmult. change (Qabs 2) with 2. ring.
Qed.

Section Oct.
Variables (pn : list Q -> outcome Q) (arity : nat) (L : Q).
Hypothesis L0 : 0 <= L.
Hypothesis near : forall l l' v v', List.length l = arity -> List.length l' = arity -> pn l = Ok v -> pn l' = Ok v' -> Qabs (v - v') <= L * dist l l'.
Lemma oct_step r M : 0 <= r -> forall k l l' f n n' s v v',
  List.length l = arity -> List.length l' = arity ->
  0 <= f -> 0 <= s -> 0 < (match k with O => 0 | S _ => f end) + s -> Qabs (n - n') <= M * s ->
  L * inject_Z (2 ^ Z.of_nat k) * dist l l' <= M ->
  octaves pn k l f n s r = Ok v -> octaves pn k l' f n' s r = Ok v' -> Qabs (v - v') <= M.
Proof.
  intros R. induction k as [|k IH]; intros l l' f n n' s v v' A A' F0 S0 P N D H H'; cbn [octaves] in H, H'.
  - rewrite sum_nonzero in H, H' by lra. injection H as <-. injection H' as <-.
    setoid_replace (n / s - n' / s) with ((n - n') / s) by (field; lra). apply div_bound; lra.
  - destruct (pn l) as [w|] eqn:E; [|discriminate]. destruct (pn l') as [w'|] eqn:E'; [|discriminate]. cbn [obind] in H, H'.
    destruct (two_pow k) as [P1 P2]. rewrite P2 in D. pose proof (dist_nonneg l l') as E0.
    refine (IH _ _ _ _ _ _ _ _ _ _ _ _ _ _ _ H H').
    + now rewrite map_length.
    + now rewrite map_length.
    + now apply Qmult_le_0_compat.
    + lra.
    + assert (0 <= f * r) by now apply Qmult_le_0_compat. destruct k; lra.
    + setoid_replace (n + f * w - (n' + f * w')) with ((n - n') + f * (w - w')) by ring.
      eapply Qle_trans; [apply Qabs_triangle|]. rewrite Qabs_Qmult, (Qabs_pos f) by lra.
      pose proof (near l l' w w' A A' E E') as T. set (e := dist l l') in *. clearbody e. set (q := inject_Z (2 ^ Z.of_nat k)) in *. clearbody q.
      assert (L * e <= M).
      { eapply Qle_trans; [|exact D]. apply Qmult_le_compat_r; [|exact E0].
        setoid_replace L with (L * 1) at 1 by ring. rewrite !(Qmult_comm L). apply Qmult_le_compat_r; [lra|exact L0]. }
      assert (f * Qabs (w - w') <= f * M) by (rewrite !(Qmult_comm f); apply Qmult_le_compat_r; [lra|exact F0]).
      lra.
    + rewrite dist_double. setoid_replace (L * inject_Z (2 ^ Z.of_nat k) * (2 * dist l l')) with (L * (2 * inject_Z (2 ^ Z.of_nat k)) * dist l l') by ring.
      exact D.
Qed.
End Oct.

Definition triple_noise (l : list Q) : outcome Q := match l with [x; y; z] => pnoise3D x y z | _ => Ub end.
Lemma triple_fine : fine triple_noise 3 (3 # 2).
Proof.
  intros [|x [|y [|z [|t l]]]] L; try discriminate L. exists (noise3 x y z). split; [apply pnoise3D_noise|apply noise3_bound].
Qed.
Lemma noise3D_fine x y z depth r : 0 <= r -> exists v, noise3D x y z depth r = Ok v /\ Qabs v <= 3 # 2.
Proof.
  intros R. apply (octaves_fine triple_noise 3 (3 # 2) r triple_fine R); try reflexivity; try (cbn; lra). all: vm_compute; discriminate.
Qed.
Lemma triple_near l l' v v' : List.length l = 3%nat -> List.length l' = 3%nat -> triple_noise l = Ok v -> triple_noise l' = Ok v' ->
  Qabs (v - v') <= 361 * dist l l'.
Proof.
  destruct l as [|x [|y [|z [|t l]]]]; try discriminate. destruct l' as [|x' [|y' [|z' [|t' l']]]]; try discriminate. intros _ _.
  cbn [triple_noise dist]. rewrite !pnoise3D_noise. intros H H'. injection H as <-. injection H' as <-.
  eapply Qle_trans; [apply noise3_step|]. lra.
Qed.
Lemma noise3D_step depth r : 0 <= r -> exists K, 0 < K /\ forall x y z x' y' z' v v',
  noise3D x y z depth r = Ok v -> noise3D x' y' z' depth r = Ok v' ->
  Qabs (v - v') <= K * (Qabs (x - x') + Qabs (y - y') + Qabs (z - z')).
Proof.
  intros R. exists (361 * inject_Z (2 ^ Z.of_nat (S depth))). split; [destruct (two_pow (S depth)); lra|]. intros x y z x' y' z' v v' H H'.
  refine (oct_step triple_noise 3 361 _ triple_near r _ R (S depth) [x; y; z] [x'; y'; z'] 1 0 0 0 v v' eq_refl eq_refl _ _ _ _ _ H H'); try lra.
  - setoid_replace (0 - 0) with 0 by ring. change (Qabs 0) with 0. lra.
  - cbn [dist]. setoid_replace (Qabs (x - x') + (Qabs (y - y') + (Qabs (z - z') + 0))) with (Qabs (x - x') + Qabs (y - y') + Qabs (z - z')) by ring. lra.
Qed.
Lemma pnoise3D_step x y z x' y' z' v v' : pnoise3D x y z = Ok v -> pnoise3D x' y' z' = Ok v' ->
  Qabs (v - v') <= 361 * (Qabs (x - x') + Qabs (y - y') + Qabs (z - z')).
Proof. rewrite !pnoise3D_noise. intros H H'. injection H as <-. injection H' as <-. apply noise3_step. Qed.
Lemma pnoise3D_lattice X Y V v : pnoise3D (inject_Z X) (inject_Z Y) (inject_Z V) = Ok v -> v == 0.
Proof. rewrite pnoise3D_noise. intros H. injection H as <-. apply noise3_lattice. Qed.
Lemma pnoise3D_periodic x y z k l m v v' : pnoise3D x y z = Ok v ->
  pnoise3D (x + inject_Z (k * 256)) (y + inject_Z (l * 256)) (z + inject_Z (m * 256)) = Ok v' -> v' == v.
Proof. rewrite !pnoise3D_noise. intros H H'. injection H as <-. injection H' as <-. apply noise3_periodic. Qed.
Lemma beyond_one : exists x y z v, pnoise3D x y z = Ok v /\ 1 < Qabs v.
Proof.
  exists (223 + (7 # 20)), (61 + (1 # 2)), (233 + (1 # 2)).
  assert (match pnoise3D (223 + (7 # 20)) (61 + (1 # 2)) (233 + (1 # 2)) with Ok v => Qle_bool (Qabs v) 1 | Ub => true end = false) as H
    by (vm_compute; reflexivity).
  destruct (pnoise3D _ _ _) as [v|]; [|discriminate]. exists v. split; [reflexivity|].
  apply Qnot_le_lt. intros K. apply Qle_bool_iff in K. congruence.
Qed.
