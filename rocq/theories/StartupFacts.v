(** * Proofs about opening a level on several ranks *)
From Verif Require Export StartupModel.
Require Import Bool Lia.

Lemma count_app i l l' : count i (l ++ l') = count i l + count i l'.
Proof. unfold count. now rewrite filter_app, app_length. Qed.

Lemma count_firstn_le i l : forall p q, p <= q -> count i (firstn p l) <= count i (firstn q l).
Proof.
  induction l as [|x l IH]; intros p q H; [now rewrite !firstn_nil|].
  destruct p as [|p]; [cbn; lia|]. destruct q as [|q]; [lia|]. cbn [firstn].
  change (x :: firstn p l) with ([x] ++ firstn p l). change (x :: firstn q l) with ([x] ++ firstn q l).
  rewrite !count_app. specialize (IH p q ltac:(lia)). lia.
Qed.

Lemma firstn_nth {A} (l : list A) : forall p x, nth_error l p = Some x -> firstn (S p) l = firstn p l ++ [x].
Proof.
  induction l as [|y l IH]; intros [|p] x H; cbn in *; try discriminate; [congruence|].
  f_equal. apply IH. auto.
Qed.

(** A master which has called as many operations as there are is behind everything that
    precedes the last of them. *)
Lemma last_call i pre post p : count i pre < count i (firstn (S p) (pre ++ post)) -> length pre <= p.
Proof.
  intros H. destruct (Nat.le_gt_cases (length pre) p) as [?|Hp]; auto. exfalso.
  rewrite firstn_app in H. replace (S p - length pre) with 0 in H by lia. rewrite firstn_O, app_nil_r in H.
  assert (count i (firstn (S p) pre) <= count i (firstn (length pre) pre)) by (apply count_firstn_le; lia).
  rewrite firstn_all in H0. lia.
Qed.

Lemma all_below_spec n p : all_below n p = true <-> forall k, k < n -> p k = true.
Proof.
  unfold all_below. rewrite forallb_forall. split; intros H k Hk.
  - apply H, in_seq. lia.
  - apply in_seq in Hk. apply H. lia.
Qed.

Lemma item_eqb_spec x y : reflect (x = y) (item_eqb x y).
Proof.
  destruct x as [k|k|k|k], y as [l|l|l|l]; cbn; try (constructor; congruence);
    destruct (Nat.eqb_spec k l); constructor; congruence.
Qed.

Section Startup.
Variable u : setup.
Local Notation P := (u_ranks u).
Local Notation D := (u_doms u).

Definition is_lock (x : item) : bool := match x with Lock _ => true | _ => false end.

(** Executed instructions. *)
Definition executed (s : ost) (r d : nat) (i : instr) : Prop :=
  exists k, k < o_pos s r d /\ nth_error (prog u r d) k = Some i.

Record oinv (s : ost) : Prop := {
  oi_bcast : forall r d d', r < P -> d < D -> d' < D -> returned u s Bcast r d <= called u s Bcast r d';
  oi_coll : forall r r', 0 < D -> r < P -> r' < P -> returned u s Coll r 0 <= called u s Coll r' 0;
  oi_mem : forall r d x, executed s r d (Write x) -> is_lock x = false -> o_mem s r d x = Some (value u r d x);
  oi_lock : forall r d k, executed s r d (Write (Lock k)) -> o_mem s r d (Lock k) <> None
}.

Lemma oinv_start : oinv ostart.
Proof.
  constructor; cbn.
  - intros. unfold returned. cbn. lia.
  - intros. unfold returned. cbn. lia.
  - intros r d x (k & Hk & _). cbn in Hk. lia.
  - intros r d k (j & Hk & _). cbn in Hk. lia.
Qed.

Lemma pos_advance s r d m r' d' : o_pos (advance s r d m) r' d' = if ((r' =? r) && (d' =? d))%bool then S (o_pos s r d) else o_pos s r' d'.
Proof. reflexivity. Qed.

Lemma called_advance s r d m i r' d' : called u s i r' d' <= called u (advance s r d m) i r' d'.
Proof.
  unfold called. rewrite pos_advance. apply count_firstn_le.
  destruct (Nat.eqb_spec r' r) as [->|]; destruct (Nat.eqb_spec d' d) as [->|]; cbn; lia.
Qed.

Lemma returned_other s r d m i r' d' : ~ (r' = r /\ d' = d) -> returned u (advance s r d m) i r' d' = returned u s i r' d'.
Proof.
  intros H. unfold returned. rewrite pos_advance.
  destruct (Nat.eqb_spec r' r) as [->|]; destruct (Nat.eqb_spec d' d) as [->|]; cbn; auto. tauto.
Qed.

Lemma returned_self s r d m i : returned u (advance s r d m) i r d = called u s i r d.
Proof. unfold returned, called. rewrite pos_advance, !Nat.eqb_refl. reflexivity. Qed.

Lemma called_step s i j r d : nth_error (prog u r d) (o_pos s r d) = Some j ->
  called u s i r d = returned u s i r d + count i [j].
Proof. intros H. unfold called, returned. rewrite (firstn_nth _ _ _ H). apply count_app. Qed.

Lemma returned_le_called s i r d : returned u s i r d <= called u s i r d.
Proof. apply count_firstn_le. lia. Qed.

(** Synchronising operations. *)
Lemma sync_step s r d j m : oinv s -> r < P -> d < D -> nth_error (prog u r d) (o_pos s r d) = Some j ->
  (j = Bcast -> forall d', d' < D -> returned u s Bcast r d < called u s Bcast r d') ->
  (j = Coll -> forall r', r' < P -> returned u s Coll r d < called u s Coll r' 0) ->
  (forall r1 d1 d2, r1 < P -> d1 < D -> d2 < D ->
     returned u (advance s r d m) Bcast r1 d1 <= called u (advance s r d m) Bcast r1 d2) /\
  (forall r1 r2, 0 < D -> r1 < P -> r2 < P ->
     returned u (advance s r d m) Coll r1 0 <= called u (advance s r d m) Coll r2 0).
Proof.
  intros [H1 H2 _ _] Hr Hd Ej Hb Hc. split.
  - intros r1 d1 d2 Hr1 Hd1 Hd2. etransitivity; [|apply called_advance].
    destruct (Nat.eq_dec r1 r) as [->|Hn]; [|rewrite returned_other by tauto; auto].
    destruct (Nat.eq_dec d1 d) as [->|Hn]; [|rewrite returned_other by tauto; auto].
    rewrite returned_self, (called_step _ _ _ _ _ Ej). destruct j as [| |x].
    + specialize (Hb eq_refl d2 Hd2). change (count Bcast [Bcast]) with 1. lia.
    + specialize (H1 r d d2 Hr Hd Hd2). change (count Bcast [Coll]) with 0. lia.
    + specialize (H1 r d d2 Hr Hd Hd2). change (count Bcast [Write x]) with 0. lia.
  - intros r1 r2 H0 Hr1 Hr2. etransitivity; [|apply called_advance].
    destruct (Nat.eq_dec r1 r) as [->|Hn]; [|rewrite returned_other by (intros [? ?]; congruence); auto].
    destruct (Nat.eq_dec d 0) as [->|Hn]; [|rewrite returned_other by (intros [? ?]; congruence); auto].
    rewrite returned_self, (called_step _ _ _ _ _ Ej). destruct j as [| |x].
    + specialize (H2 r r2 H0 Hr Hr2). change (count Coll [Bcast]) with 0. lia.
    + specialize (Hc eq_refl r2 Hr2). change (count Coll [Coll]) with 1. lia.
    + specialize (H2 r r2 H0 Hr Hr2). change (count Coll [Write x]) with 0. lia.
Qed.

Lemma executed_advance s r d m j r' d' i : nth_error (prog u r d) (o_pos s r d) = Some j ->
  executed (advance s r d m) r' d' i -> executed s r' d' i \/ (r' = r /\ d' = d /\ i = j).
Proof.
  intros Ej (k & Hk & E). rewrite pos_advance in Hk.
  destruct (Nat.eqb_spec r' r) as [->|]; destruct (Nat.eqb_spec d' d) as [->|]; cbn in Hk; try (left; exists k; auto; fail).
  destruct (Nat.eq_dec k (o_pos s r d)) as [->|]; [right; split; auto; split; auto; congruence|].
  left. exists k. split; auto. lia.
Qed.

Lemma set_mem_same m r d x v : set_mem m r d x v r d x = Some v.
Proof. unfold set_mem. rewrite !Nat.eqb_refl. destruct (item_eqb_spec x x); cbn; congruence. Qed.

Lemma oinv_step s a s' : oinv s -> ostep u s a = Some s' -> oinv s'.
Proof.
  intros Hi H. destruct a as [r d|q r d k]; cbn [ostep] in H.
  - destruct (Nat.ltb_spec r P) as [Hr|]; [|discriminate]. destruct (Nat.ltb_spec d D) as [Hd|]; [|discriminate].
    cbn [andb] in H. destruct (nth_error (prog u r d) (o_pos s r d)) as [j|] eqn:Ej; [|discriminate].
    assert (forall m, s' = advance s r d m ->
      (j = Bcast -> forall d', d' < D -> returned u s Bcast r d < called u s Bcast r d') ->
      (j = Coll -> forall r', r' < P -> returned u s Coll r d < called u s Coll r' 0) ->
      (forall x, j = Write x -> m = set_mem (o_mem s) r d x (value u r d x)) ->
      ((forall x, j <> Write x) -> m = o_mem s) -> oinv s') as G.
    { intros m -> Hb Hc Hw Hn. destruct (sync_step s r d j m Hi Hr Hd Ej Hb Hc) as [G1 G2].
      constructor; auto.
      - intros r' d' x He Hx. cbn [o_mem advance].
        destruct (executed_advance _ _ _ _ _ _ _ _ Ej He) as [He'|(-> & -> & <-)].
        + destruct j as [| |y]; [rewrite Hn by congruence; apply Hi; auto..|].
          rewrite (Hw y eq_refl). unfold set_mem.
          destruct (Nat.eqb_spec r' r) as [->|]; destruct (Nat.eqb_spec d' d) as [->|]; cbn; try (apply Hi; auto; fail).
          destruct (item_eqb_spec x y) as [->|]; auto. apply Hi; auto.
        + rewrite (Hw x eq_refl). apply set_mem_same.
      - intros r' d' k He. cbn [o_mem advance].
        destruct (executed_advance _ _ _ _ _ _ _ _ Ej He) as [He'|(-> & -> & <-)].
        + destruct j as [| |y]; [rewrite Hn by congruence; apply (oi_lock _ Hi); auto..|].
          rewrite (Hw y eq_refl). unfold set_mem.
          destruct ((r' =? r) && (d' =? d) && item_eqb (Lock k) y)%bool; [discriminate|]. apply (oi_lock _ Hi); auto.
        + rewrite (Hw _ eq_refl), set_mem_same. discriminate. }
    destruct j as [| |x].
    + destruct (all_below D _) eqn:E; [|discriminate]. injection H as H.
      apply (G (o_mem s)); try congruence. intros _ d' Hd'.
      apply Nat.ltb_lt. revert d' Hd'. apply all_below_spec. exact E.
    + destruct (all_below P _) eqn:E; [|discriminate]. injection H as H.
      apply (G (o_mem s)); try congruence. intros _ r' Hr'.
      apply Nat.ltb_lt. revert r' Hr'. apply all_below_spec. exact E.
    + injection H as H. apply (G _ (eq_sym H)); try congruence.
  - destruct (_ && _)%bool; [|discriminate]. destruct (u_var u); try discriminate. injection H as <-.
    destruct Hi as [H1 H2 H3 H4]. constructor; auto; cbn [o_mem].
    + intros r' d' x He Hx. unfold set_mem. destruct (item_eqb_spec x (Lock k)) as [->|]; [discriminate|].
      rewrite Bool.andb_false_r. auto.
    + intros r' d' k' He. unfold set_mem. destruct ((r' =? r) && (d' =? d) && item_eqb (Lock k') (Lock k))%bool; [discriminate|]. auto.
Qed.

Lemma oinv_reach s : oreach u s -> oinv s.
Proof.
  intros (acts & H). revert H. generalize oinv_start. generalize ostart.
  induction acts as [|a acts IH]; cbn; intros s0 H0 H; [congruence|].
  destruct (ostep u s0 a) as [s1|] eqn:E; [|discriminate]. apply (IH s1); auto. eapply oinv_step; eauto.
Qed.

(** ** Consequences *)

Lemma count_each i r d x : count i (each u r d x) = 0.
Proof.
  unfold each. generalize (seq 0 (u_blocks u r d)). intros l.
  induction l as [|k l IH]; cbn; auto. destruct i; auto.
Qed.

(** The instructions before the last broadcast, and before the last collective operation. *)
Definition before_end (r d : nat) : list instr := firstn (length (prog u r d) - 1) (prog u r d).

Lemma prog_end r d : exists l, prog u r d = l ++ [Bcast].
Proof.
  unfold prog, finish. destruct (u_var u); eexists.
  all: rewrite !app_assoc; reflexivity.
Qed.

Lemma count_prog r d : count Bcast (prog u r d) = count Bcast (prog u r 0).
Proof.
  unfold prog, master. destruct (u_var u); rewrite !count_app, !count_each; destruct (d =? 0); reflexivity.
Qed.

Lemma done_arrived s q d d' : oinv s -> q < P -> d < D -> d' < D -> done_at u s q d = true ->
  length (prog u q d') <= S (o_pos s q d').
Proof.
  intros Hi Hq Hd Hd' Hdone. apply Nat.eqb_eq in Hdone.
  pose proof (oi_bcast s Hi q d d' Hq Hd Hd') as H. unfold returned, called in H. rewrite Hdone, firstn_all in H.
  destruct (prog_end q d') as [l El]. pose proof (count_prog q d) as Ec. rewrite <- (count_prog q d') in Ec.
  rewrite Ec in H. rewrite El in *. rewrite count_app in H. change (count Bcast [Bcast]) with 1 in H.
  rewrite app_length. cbn. enough (length l <= o_pos s q d') by lia.
  apply (last_call Bcast l [Bcast]). lia.
Qed.

Lemma executed_prefix s r d l l' i : prog u r d = l ++ l' -> length l <= o_pos s r d -> In i l -> executed s r d i.
Proof.
  intros E Hl Hin. apply In_nth_error in Hin as [k Hk].
  assert (k < length l) by (apply nth_error_Some; congruence).
  exists k. split; [lia|]. rewrite E, nth_error_app1; auto.
Qed.

Lemma done_executed s q d d' x : oinv s -> q < P -> d < D -> d' < D -> done_at u s q d = true ->
  In (Write x) (prog u q d') -> executed s q d' (Write x).
Proof.
  intros Hi Hq Hd Hd' Hdone Hin. pose proof (done_arrived s q d d' Hi Hq Hd Hd' Hdone) as H.
  destruct (prog_end q d') as [l El]. rewrite El, app_length in H. cbn in H.
  eapply executed_prefix; [exact El|lia|]. rewrite El in Hin. apply in_app_iff in Hin as [?|[?|[]]]; auto. discriminate.
Qed.

Definition has (r d : nat) (x : item) : Prop := In (Write x) (prog u r d).

Lemma in_each r d (f : nat -> item) k : k < u_blocks u r d -> In (Write (f k)) (each u r d f).
Proof. intros H. unfold each. apply (in_map (fun k => Write (f k))), in_seq. lia. Qed.

(** Before its last collective operation the master of domain 0 has written [l]. *)
Definition coll_split (r : nat) (l : list instr) : Prop :=
  exists l', prog u r 0 = l ++ Coll :: l' /\ count Coll l' = 0 /\ S (count Coll l) = count Coll (prog u r 0).

Lemma returned_coll s q d r l : oinv s -> q < P -> d < D -> r < P -> done_at u s q d = true ->
  count Coll (prog u r 0) = count Coll (prog u q 0) -> coll_split r l -> length l <= o_pos s r 0.
Proof.
  intros Hi Hq Hd Hr Hdone Ec (l' & El & E0 & E1).
  assert (D0 : 0 < D) by lia.
  pose proof (done_arrived s q d 0 Hi Hq Hd D0 Hdone) as Ha.
  pose proof (oi_coll s Hi q r D0 Hq Hr) as H. unfold returned, called in H.
  destruct (prog_end q 0) as [m Em]. rewrite Em, app_length in Ha. cbn in Ha.
  assert (count Coll (prog u q 0) <= count Coll (firstn (o_pos s q 0) (prog u q 0))) as Hq0.
  { rewrite Em, count_app. change (count Coll [Bcast]) with 0. rewrite Nat.add_0_r.
    rewrite <- (firstn_all m) at 1. rewrite <- (app_nil_r (firstn (length m) m)).
    replace (firstn (length m) m ++ []) with (firstn (length m) (m ++ [Bcast])).
    - apply count_firstn_le. lia.
    - rewrite firstn_app, Nat.sub_diag. reflexivity. }
  apply (last_call Coll l (Coll :: l')). rewrite <- El. lia.
Qed.

Definition is_full : Prop := u_var u = FullWin \/ u_var u = FullThread.
Definition is_cache : Prop := u_var u = CacheWin \/ u_var u = CacheThread.

Lemma count_coll_eq r q : count Coll (prog u r 0) = count Coll (prog u q 0).
Proof. unfold prog. destruct (u_var u); rewrite !count_app, !count_each; reflexivity. Qed.

Lemma split_full r : is_full -> coll_split r ([Bcast] ++ each u r 0 Data).
Proof.
  intros [E|E]; unfold coll_split, prog; rewrite E; cbn [master Nat.eqb].
  - exists ([Bcast; Bcast] ++ finish u). rewrite <- !app_assoc. split; [reflexivity|].
    rewrite !count_app, !count_each. unfold finish. destruct (u_numa u); split; reflexivity.
  - exists ([Write (Recv 0)] ++ [Bcast; Bcast] ++ finish u). rewrite <- !app_assoc. split; [reflexivity|].
    rewrite !count_app, !count_each. unfold finish. destruct (u_numa u); split; reflexivity.
Qed.

Lemma split_cache r : is_cache -> exists l, coll_split r l /\
  forall k, k < u_blocks u r 0 -> In (Write (Entry k)) l.
Proof.
  intros [E|E]; unfold coll_split, prog; rewrite E; cbn [master Nat.eqb].
  - exists ([Bcast; Bcast; Bcast] ++ each u r 0 Lock ++ each u r 0 Entry ++ [Coll]). split.
    + exists ([Bcast; Bcast; Bcast; Bcast; Bcast] ++ each u r 0 Lock ++ finish u). rewrite <- !app_assoc. split; [reflexivity|].
      rewrite !count_app, !count_each. unfold finish. destruct (u_numa u); split; reflexivity.
    + intros k Hk. rewrite !in_app_iff. right. right. left. apply in_each; auto.
  - exists ([Bcast; Bcast] ++ each u r 0 Entry ++
      [Coll; Write (Recv 0); Coll; Write (Recv 1); Coll; Write (Recv 2)]). split.
    + eexists. rewrite <- !app_assoc. split; [reflexivity|].
      rewrite !count_app, !count_each. unfold finish. destruct (u_numa u); split; reflexivity.
    + intros k Hk. rewrite !in_app_iff. right. left. apply in_each; auto.
Qed.

Lemma remote_blocks s q d r k : oreach u s -> is_full -> q < P -> d < D -> r < P -> done_at u s q d = true ->
  k < u_blocks u r 0 -> o_mem s r 0 (Data k) = Some (u_content u r 0 k).
Proof.
  intros Hr Hf Hq Hd Hr' Hdone Hk. apply oinv_reach in Hr as Hi.
  pose proof (split_full r Hf) as Hs.
  pose proof (returned_coll s q d r _ Hi Hq Hd Hr' Hdone (count_coll_eq r q) Hs) as Hl.
  destruct Hs as (l' & El & _).
  apply (oi_mem s Hi r 0 (Data k)); auto. eapply executed_prefix; [exact El|exact Hl|].
  apply in_app_iff. right. apply in_each; auto.
Qed.

Lemma remote_entries s q d r k : oreach u s -> is_cache -> q < P -> d < D -> r < P -> done_at u s q d = true ->
  k < u_blocks u r 0 -> o_mem s r 0 (Entry k) = Some (-1)%Z.
Proof.
  intros Hr Hf Hq Hd Hr' Hdone Hk. apply oinv_reach in Hr as Hi.
  destruct (split_cache r Hf) as (l & Hs & Hin).
  pose proof (returned_coll s q d r _ Hi Hq Hd Hr' Hdone (count_coll_eq r q) Hs) as Hl.
  destruct Hs as (l' & El & _).
  apply (oi_mem s Hi r 0 (Entry k)); auto. eapply executed_prefix; [exact El|exact Hl|]. auto.
Qed.

Lemma own_blocks s q d d' k : oreach u s -> is_full -> q < P -> d < D -> d' < D -> done_at u s q d = true ->
  k < u_blocks u q d' -> o_mem s q d' (Data k) = Some (u_content u q d' k).
Proof.
  intros Hr Hf Hq Hd Hd' Hdone Hk. apply oinv_reach in Hr as Hi.
  apply (oi_mem s Hi q d' (Data k)); auto. apply (done_executed s q d d'); auto.
  unfold prog. destruct Hf as [-> | ->]; rewrite !in_app_iff; right; left; apply in_each; auto.
Qed.

Lemma own_entries s q d d' k : oreach u s -> is_cache -> q < P -> d < D -> d' < D -> done_at u s q d = true ->
  k < u_blocks u q d' -> o_mem s q d' (Entry k) = Some (-1)%Z /\ (u_var u = CacheWin -> o_mem s q d' (Lock k) <> None).
Proof.
  intros Hr Hf Hq Hd Hd' Hdone Hk. apply oinv_reach in Hr as Hi. split.
  - apply (oi_mem s Hi q d' (Entry k)); auto. apply (done_executed s q d d'); auto.
    unfold prog. destruct Hf as [-> | ->]; rewrite !in_app_iff; right.
    + right. left. apply in_each; auto.
    + left. apply in_each; auto.
  - intros E. apply (oi_lock s Hi). apply (done_executed s q d d'); auto.
    unfold prog. rewrite E, !in_app_iff. right. left. apply in_each; auto.
Qed.

End Startup.

(** ** Witnesses *)

Definition two (v : variant) (D : nat) : setup := Setup v 2 D (fun _ _ => 1) (fun r d k => Z.of_nat (100 * r + 10 * d + k)) false.

(** Runs of the masters of rank 0, with rank 1 before its last write. *)
Definition both (k : nat) : list oact := concat (repeat [ORun 0 0; ORun 0 1] k).

Definition full_acts : list oact :=
  [ORun 1 0; ORun 1 0] ++ both 2 ++ [ORun 0 0] ++ both 3.

Lemma full_witness : exists s, oreach (two FullWin 2) s /\ (forall d, d < 2 -> done_at (two FullWin 2) s 0 d = true) /\
  o_mem s 1 1 (Data 0) = None.
Proof.
  destruct (orun (two FullWin 2) ostart full_acts) as [s|] eqn:E; [|vm_compute in E; discriminate].
  exists s. split; [exists full_acts; auto|]. vm_compute in E. injection E as <-.
  split; [intros [|[|d]] H; [reflexivity|reflexivity|lia]|reflexivity].
Qed.

Definition run0 (r d k : nat) : list oact := repeat (ORun r d) k.

Definition recv_acts : list oact := run0 1 0 2 ++ run0 0 0 7.

Lemma recv_witness : exists s, oreach (two FullThread 1) s /\ done_at (two FullThread 1) s 0 0 = true /\
  o_mem s 1 0 (Recv 0) = None.
Proof.
  destruct (orun (two FullThread 1) ostart recv_acts) as [s|] eqn:E; [|vm_compute in E; discriminate].
  exists s. split; [exists recv_acts; auto|]. vm_compute in E. injection E as <-. split; reflexivity.
Qed.

(** Dictionary of domain 1 on rank 1 not initialised. *)
Definition entry_acts : list oact :=
  [ORun 1 0; ORun 1 1; ORun 1 0; ORun 1 1; ORun 1 0; ORun 1 0; ORun 1 0] ++
  both 5 ++ [ORun 0 0; ORun 1 0; ORun 0 0] ++ both 7.

Lemma entry_witness : exists s, oreach (two CacheWin 2) s /\ (forall d, d < 2 -> done_at (two CacheWin 2) s 0 d = true) /\
  o_mem s 1 1 (Entry 0) = None /\ o_mem s 1 1 (Lock 0) = None.
Proof.
  destruct (orun (two CacheWin 2) ostart entry_acts) as [s|] eqn:E; [|vm_compute in E; discriminate].
  exists s. split; [exists entry_acts; auto|]. vm_compute in E. injection E as <-.
  split; [intros [|[|d]] H; [reflexivity|reflexivity|lia]|split; reflexivity].
Qed.

Definition thread_acts : list oact :=
  [ORun 1 0; ORun 1 1; ORun 1 0; ORun 1 0] ++ both 3 ++
  [ORun 0 0; ORun 0 0; ORun 1 0; ORun 1 0; ORun 0 0; ORun 0 0; ORun 1 0; ORun 1 0; ORun 0 0; ORun 0 0; ORun 1 0; ORun 1 0; ORun 0 0; ORun 0 0] ++
  both 10.

Lemma thread_witness : exists s, oreach (two CacheThread 2) s /\ (forall d, d < 2 -> done_at (two CacheThread 2) s 0 d = true) /\
  o_mem s 1 1 (Entry 0) = None /\ o_mem s 1 0 (Recv 3) = None.
Proof.
  destruct (orun (two CacheThread 2) ostart thread_acts) as [s|] eqn:E; [|vm_compute in E; discriminate].
  exists s. split; [exists thread_acts; auto|]. vm_compute in E. injection E as <-.
  split; [intros [|[|d]] H; [reflexivity|reflexivity|lia]|split; reflexivity].
Qed.

(** The late initialisation releases a lock which rank 0 holds. *)
Definition lock_acts : list oact :=
  run0 1 0 5 ++ run0 0 0 6 ++ run0 1 0 1 ++ run0 0 0 8 ++ [OLock 0 1 0 0] ++ run0 1 0 8 ++ [OLock 1 1 0 0].

Lemma lock_witness : exists s, oreach (two CacheWin 1) s /\ In (0, (1, 0, 0)) (o_hold s) /\ In (1, (1, 0, 0)) (o_hold s).
Proof.
  destruct (orun (two CacheWin 1) ostart lock_acts) as [s|] eqn:E; [|vm_compute in E; discriminate].
  exists s. split; [exists lock_acts; auto|]. vm_compute in E. injection E as <-. cbn. auto.
Qed.

(** ** If nobody reads before open has returned everywhere *)

Section Late.
Variable u : setup.
Local Notation P := (u_ranks u).
Local Notation D := (u_doms u).

Definition runs (a : oact) : Prop := match a with ORun _ _ => True | OLock _ _ _ _ => False end.
Definition locks (a : oact) : Prop := match a with ORun _ _ => False | OLock _ _ _ _ => True end.

Lemma run_only s a s' : ostep u s a = Some s' -> runs a ->
  (o_hold s = [] -> o_hold s' = []) /\
  ((forall r d k, o_mem s r d (Lock k) = None \/ o_mem s r d (Lock k) = Some (-1)%Z) ->
   forall r d k, o_mem s' r d (Lock k) = None \/ o_mem s' r d (Lock k) = Some (-1)%Z).
Proof.
  destruct a as [r d|]; cbn [runs]; [intros H _|tauto]. cbn [ostep] in H.
  destruct (_ && _)%bool; [|discriminate]. destruct (nth_error _ _) as [[| |x]|]; [..|discriminate].
  - destruct (all_below _ _); [|discriminate]. injection H as <-. cbn. auto.
  - destruct (all_below _ _); [|discriminate]. injection H as <-. cbn. auto.
  - injection H as <-. cbn. split; auto. intros Hm r' d' k. unfold set_mem.
    destruct (Nat.eqb_spec r' r); destruct (Nat.eqb_spec d' d); cbn [andb]; auto.
    destruct (item_eqb_spec (Lock k) x) as [<-|]; auto.
Qed.

Lemma run_only_all acts : forall s s', orun u s acts = Some s' -> Forall runs acts -> o_hold s = [] ->
  (forall r d k, o_mem s r d (Lock k) = None \/ o_mem s r d (Lock k) = Some (-1)%Z) ->
  o_hold s' = [] /\ forall r d k, o_mem s' r d (Lock k) = None \/ o_mem s' r d (Lock k) = Some (-1)%Z.
Proof.
  induction acts as [|a acts IH]; cbn; intros s s' H Hf H1 H2; [injection H as <-; auto|].
  inversion Hf; subst. destruct (ostep u s a) as [s1|] eqn:E; [|discriminate].
  destruct (run_only s a s1 E) as [G1 G2]; auto. eapply IH; eauto.
Qed.

(** One holder at most, who is registered in the mutex memory. *)
Definition held_once (s : ost) : Prop :=
  forall q q' a, In (q, a) (o_hold s) -> In (q', a) (o_hold s) -> q = q'.
Definition held_marked (s : ost) : Prop :=
  forall q r d k, In (q, (r, d, k)) (o_hold s) -> o_mem s r d (Lock k) <> Some (-1)%Z.

Lemma lock_only s a s' : ostep u s a = Some s' -> locks a -> held_once s -> held_marked s ->
  held_once s' /\ held_marked s'.
Proof.
  destruct a as [|q r d k]; cbn [locks]; [tauto|intros H _ H1 H2]. cbn [ostep] in H.
  destruct (_ && _)%bool; [|discriminate]. destruct (u_var u); try discriminate. injection H as <-.
  assert (Hmark : forall q0 r0 d0 k0, In (q0, (r0, d0, k0)) (o_hold s) ->
    set_mem (o_mem s) r d (Lock k) (Z.of_nat q) r0 d0 (Lock k0) <> Some (-1)%Z).
  { intros q0 r0 d0 k0 Hin. unfold set_mem. destruct (_ && _)%bool; [intros [= E]; lia|]. eapply H2; eauto. }
  assert (Hself : forall q0, set_mem (o_mem s) r d (Lock k) (Z.of_nat q0) r d (Lock k) <> Some (-1)%Z).
  { intros q0. rewrite set_mem_same. intros [= E]. lia. }
  destruct (o_mem s r d (Lock k)) as [v|] eqn:Em; [|split; intros ? ? ?; cbn; eauto].
  assert (v = (-1)%Z \/ v <> (-1)%Z) as [->|Hv] by lia.
  - split.
    + intros q1 q2 a. cbn [o_hold]. intros [E1|E1] [E2|E2]; try congruence.
      * injection E1 as <- <-. exfalso. eapply H2; eauto.
      * injection E2 as <- <-. exfalso. eapply H2; eauto.
      * eauto.
    + intros q1 r1 d1 k1. cbn [o_hold o_mem]. intros [E1|E1]; [injection E1 as <- <- <- <-; apply Hself|eauto].
  - assert (o_hold s = match v with (-1)%Z => (q, (r, d, k)) :: o_hold s | _ => o_hold s end) as E.
    { destruct v as [| |[| |]]; auto. congruence. }
    rewrite <- E. split; intros ? ? ?; cbn; eauto.
Qed.

Lemma lock_only_all acts : forall s s', orun u s acts = Some s' -> Forall locks acts -> held_once s -> held_marked s ->
  held_once s'.
Proof.
  induction acts as [|a acts IH]; cbn; intros s s' H Hf H1 H2; [injection H as <-; auto|].
  inversion Hf; subst. destruct (ostep u s a) as [s1|] eqn:E; [|discriminate].
  destruct (lock_only s a s1 E) as [G1 G2]; auto. eapply IH; eauto.
Qed.

Lemma late_locks acts1 acts2 s1 s2 : orun u ostart acts1 = Some s1 -> Forall runs acts1 ->
  orun u s1 acts2 = Some s2 -> Forall locks acts2 -> held_once s2.
Proof.
  intros E1 F1 E2 F2. destruct (run_only_all acts1 ostart s1) as [H1 H2]; auto.
  eapply lock_only_all; eauto.
  - intros q q' a. rewrite H1. intros [].
  - intros q r d k. rewrite H1. intros [].
Qed.

(** The first to ask for a lock gets it. *)
Lemma late_first acts1 s1 q r d k s2 : orun u ostart acts1 = Some s1 -> Forall runs acts1 ->
  (forall r d, r < P -> d < D -> done_at u s1 r d = true) ->
  ostep u s1 (OLock q r d k) = Some s2 -> In (q, (r, d, k)) (o_hold s2).
Proof.
  intros E1 F1 Hdone E. destruct (run_only_all acts1 ostart s1) as [H1 H2]; auto.
  cbn [ostep] in E. destruct (Nat.ltb_spec q P); [|discriminate]. destruct (Nat.ltb_spec r P) as [Hr|]; [|discriminate].
  destruct (Nat.ltb_spec d D) as [Hd|]; [|discriminate]. destruct (Nat.ltb_spec k (u_blocks u r d)) as [Hk|]; [|discriminate].
  destruct (all_below D (done_at u s1 q)); [|discriminate]. cbn [andb] in E.
  destruct (u_var u) eqn:Ev; try discriminate.
  assert (o_mem s1 r d (Lock k) <> None) as Hn.
  { apply (own_entries u s1 r d d k); auto; [exists acts1; auto|left; auto]. }
  destruct (H2 r d k) as [E2|E2]; [congruence|]. rewrite E2 in E. injection E as <-. cbn. auto.
Qed.

End Late.
