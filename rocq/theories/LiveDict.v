(** * What the dictionary of the communication threads lists *)
From Verif Require Export LiveFinish.

Section Live.
Context {V : Type} (c : cfg V).
Hypothesis Hwf : wf_cfg c.
Hypothesis Hm : cf_mode c = MThread.
Hypothesis Hd0 : forall b, cf_dict c b = [].

(** Location [e] holds block [b]: domain and slot in the cache of a rank. *)
Definition holds (s : st V) (e b : nat) : Prop :=
  exists r d i, e = r * (cf_size c * cf_doms c) + (i + cf_size c * d) /\ i < cf_size c /\ d < cf_doms c /\
  clist_peek (s_list s r d) b = Some i /\
  forall x, x < cf_cells c -> s_data s r (i + cf_size c * d) x = Some (cf_file c b x).

(** Nobody works on location [e]: the mutexes of its slot and its cache manager are free. *)
Definition idle (s : st V) (e : nat) : Prop :=
  let w := cf_size c * cf_doms c in
  s_lock s (LSlot (e / w) (e mod w)) = None /\ s_lock s (LCache (e / w) (e mod w / cf_size c)) = None.

Lemma e_parts e : node_off c (e_dom c e) (e_slot c e) = e mod (cf_size c * cf_doms c).
Proof.
  unfold node_off, e_dom, e_slot. pose proof (wc_n c Hwf).
  rewrite (Nat.div_mod (e mod (cf_size c * cf_doms c)) (cf_size c)) at 3 by lia. lia.
Qed.

Lemma dom_of e : e_dom c e < cf_doms c.
Proof.
  unfold e_dom. pose proof (wc_n c Hwf). pose proof (wc_dom c Hwf 0).
  apply Nat.div_lt_upper_bound; [lia|]. apply Nat.mod_upper_bound. nia.
Qed.

Lemma listed_cached s b e : ordered_reachable c s -> listed s b e -> idle s e ->
  holds s e b \/ In (false, b, e) (s_upd s (cf_home c b)).
Proof.
  intros Hs Hl [H1 H2]. destruct (ordered_dsync c Hwf Hm Hd0 s Hs) as [[Hi Hj] Hd].
  assert (e < locations c) as He.
  { destruct (i_dict c s Hi b) as (l & E & _ & Hf). unfold listed in Hl. rewrite E in Hl. apply rep_In in Hl.
    rewrite Forall_forall in Hf. auto. }
  pose proof (d_agree c s Hd b e He) as Ha.
  destruct (kinds (s_upd s (cf_home c b)) b e) as [|k0 p0] eqn:Ek.
  - left. cbn in Ha. specialize (Ha Hl). pose proof (e_slot_lt c Hwf e) as Hsl.
    rewrite <- e_parts in H1. unfold e_rank in *.
    assert (phys s (e_rank c e) (e_dom c e) (e_slot c e) = i2b s (e_rank c e) (e_dom c e) (e_slot c e)) as Hp.
    { unfold phys, e_rank, e_dom in *. now rewrite H2. }
    unfold adv, view in Ha. unfold e_rank in Ha, Hp. rewrite H1, Hp in Ha.
    fold (e_rank c e) in *.
    destruct (i2b s (e_rank c e) (e_dom c e) (e_slot c e)) as [b'|] eqn:Eb; [|discriminate].
    apply Nat.eqb_eq in Ha. subst b'.
    exists (e_rank c e), (e_dom c e), (e_slot c e). split; [|split; [auto|split; [apply dom_of|split]]].
    + change (e_slot c e + cf_size c * e_dom c e) with (node_off c (e_dom c e) (e_slot c e)). rewrite e_parts.
      unfold e_rank. pose proof (wc_n c Hwf). rewrite (Nat.mul_comm (e / _)). apply Nat.div_mod.
      pose proof (dom_of e). nia.
    + destruct (i_list c s Hi (e_rank c e) (e_dom c e)) as (h & tt & Hci). apply (ci_inv _ _ _ _ Hci).
      split; auto. unfold i2b in Eb. destruct (m_at _ _) as [o|]; [congruence|discriminate].
    + apply (j_good c s Hj (e_rank c e) (e_dom c e) (e_slot c e) b); auto. unfold view. rewrite H1. now rewrite Hp.
  - right. assert (exists p x, k0 :: p0 = p ++ [x]) as (p & x & Ep).
    { destruct (exists_last (l := k0 :: p0)) as (p & x & E); [discriminate|]. eauto. }
    rewrite Ep in Ha. pose proof (agree_first _ _ _ _ Ha Hl) as ->.
    assert (In false (kinds (s_upd s (cf_home c b)) b e)) as Hin by (rewrite Ek, Ep; apply in_or_app; right; now left).
    unfold kinds in Hin. apply in_map_iff in Hin as (((a & b') & e') & Ea & Hin).
    apply filter_In in Hin as [Hin Hab]. unfold about in Hab. cbn in *. apply andb_true_iff in Hab as [E1 E2].
    apply Nat.eqb_eq in E1, E2. subst. auto.
Qed.

Lemma listed_single s b e : ordered_reachable c s -> listed s b e -> count_occ oeq_dec (s_dict s b) (Some e) = 1.
Proof.
  intros Hs Hl. destruct (ordered_dsync c Hwf Hm Hd0 s Hs) as [_ Hd].
  destruct (d_nodup c s Hd b) as (l & E & Hn). unfold listed in Hl. rewrite E in *. apply rep_In in Hl.
  unfold rep. rewrite count_occ_app.
  assert (count_occ oeq_dec (map Some l) (Some e) = count_occ Nat.eq_dec l e) as ->.
  { clear. induction l as [|x l IH]; cbn [map count_occ]; auto. destruct (oeq_dec (Some x) (Some e)), (Nat.eq_dec x e); congruence. }
  rewrite (proj1 (NoDup_count_occ' Nat.eq_dec l) Hn e Hl).
  assert (count_occ oeq_dec (repeat None (dict_size - length l)) (Some e) = 0) as ->; auto.
  apply count_occ_not_In. intros H. apply repeat_spec in H. discriminate.
Qed.

End Live.

(** ** Example

    Two ranks with one thread each and caches of one block.  The dictionary entry of block 8 is
    on rank 1.  Thread 0 (rank 0) reads block 8, then block 0; thread 1 (rank 1) reads block 8. *)
Definition lone_ixs (t : nat) : list (list nat) :=
  match t with 0 => [[4; 6]; [0; 0]] | 1 => [[4; 6]] | _ => [] end.
Definition lone_cfg : cfg (option nat) :=
  readers MThread trap_file trap_bl true Contiguous 2 1 1 0 (fun t => t mod 2) zero (fun _ => []) lone_ixs.
Lemma lone_setting :
  setting MThread trap_file trap_bl 2 1 1 0 (fun t => t mod 2) zero (fun _ => []) lone_ixs.
Proof.
  split; [discriminate|].
  split; [exists (fun n => nth n [3; 2]%Z 0%Z), (-1)%Z, (fun _ => 0); reflexivity|].
  split; [lia|]. split; [lia|].
  split; [intros; apply Nat.mod_upper_bound; lia|]. split; [unfold zero; lia|].
  split; [intros b; split; [cbn; unfold dict_size; lia|constructor]|].
  split; auto. intros [|[|t]]; repeat constructor.
Qed.
Definition lone_first := moves 0 9 ++ deliver 1 0 ++ moves 0 6.
Definition oldest : list (act (V := option nat)) := [ACom 1 (Choice false 0 (fun _ => None) 2 1)].

(** The first read is over and its message has arrived. *)
Lemma lone_listed : exists s, ordered_reachable lone_cfg s /\ listed s 8 0 /\ idle lone_cfg s 0 /\ s_upd s 1 = [].
Proof.
  destruct (clist_init 1 0) as [l0|] eqn:E0; [|discriminate].
  destruct (ordered_run lone_cfg (init lone_cfg l0) (lone_first ++ deliver 1 2)) as [s|] eqn:E.
  2:{ exfalso. revert E. vm_compute in E0. injection E0 as <-. vm_compute. discriminate. }
  exists s. split; [exists l0, (lone_first ++ deliver 1 2); auto|].
  vm_compute in E0. injection E0 as <-. vm_compute in E. injection E as <-.
  unfold listed, idle. cbn. auto.
Qed.
(** Both reads are over, the deletion is under way. *)
Lemma lone_stale : exists s, ordered_reachable lone_cfg s /\ listed s 8 0 /\ idle lone_cfg s 0 /\
  clist_peek (s_list s 0 0) 8 = None /\ s_upd s 1 = [(false, 8, 0)].
Proof.
  destruct (clist_init 1 0) as [l0|] eqn:E0; [|discriminate].
  destruct (ordered_run lone_cfg (init lone_cfg l0) (lone_first ++ moves 0 14 ++ oldest)) as [s|] eqn:E.
  2:{ exfalso. revert E. vm_compute in E0. injection E0 as <-. vm_compute. discriminate. }
  exists s. split; [exists l0, (lone_first ++ moves 0 14 ++ oldest); auto|].
  vm_compute in E0. injection E0 as <-. vm_compute in E. injection E as <-.
  unfold listed, idle. cbn. auto.
Qed.
(** If the deletion overtook the addition, the entry would stay wrong. *)
Lemma lone_overtaken : exists s, reachable lone_cfg s /\ listed s 8 0 /\ idle lone_cfg s 0 /\
  clist_peek (s_list s 0 0) 8 = None /\ s_upd s 0 = [] /\ s_upd s 1 = [].
Proof.
  destruct (clist_init 1 0) as [l0|] eqn:E0; [|discriminate].
  destruct (run lone_cfg (init lone_cfg l0) (lone_first ++ moves 0 14 ++ deliver 1 2 ++ deliver 1 2)) as [s|] eqn:E.
  2:{ exfalso. revert E. vm_compute in E0. injection E0 as <-. vm_compute. discriminate. }
  exists s. split; [exists l0, (lone_first ++ moves 0 14 ++ deliver 1 2 ++ deliver 1 2); auto|].
  vm_compute in E0. injection E0 as <-. vm_compute in E. injection E as <-.
  unfold listed, idle. cbn. auto 10.
Qed.

(** Two ranks with two threads on the first and one on the second one.  Thread 1 waits for the slot in
    which thread 0 wants to have block 8, and has locked the cache manager of rank 0. *)
Definition crowd_ixs (t : nat) : list (list nat) :=
  match t with 0 => [[0; 0]; [4; 6]] | 1 => [[4; 6]] | 2 => [[4; 6]; [0; 0]] | _ => [] end.
Definition crowd_cfg : cfg (option nat) :=
  readers MThread trap_file trap_bl true Contiguous 2 1 2 0 half zero (fun _ => []) crowd_ixs.
Lemma crowd_setting :
  setting MThread trap_file trap_bl 2 1 2 0 half zero (fun _ => []) crowd_ixs.
Proof.
  split; [discriminate|].
  split; [exists (fun n => nth n [3; 2]%Z 0%Z), (-1)%Z, (fun _ => 0); reflexivity|].
  split; [lia|]. split; [lia|].
  split; [apply half_lt|]. split; [unfold zero; lia|].
  split; [intros b; split; [cbn; unfold dict_size; lia|constructor]|].
  split; auto. intros [|[|[|t]]]; repeat constructor.
Qed.
Definition crowd_acts := moves 0 13 ++ moves 2 13 ++ moves 0 7 ++ moves 2 7 ++ moves 1 2.
Lemma crowd_waits : exists s, ordered_reachable crowd_cfg s /\
  (exists i old, t_pc (s_thr s 1) = PGetSlot i old /\ t_pc (s_thr s 0) = PStart i) /\
  s_lock s (LCache 0 0) = Some (Usr 1) /\ forall t, t < 3 -> t_todo (s_thr s t) <> [].
Proof.
  destruct (clist_init 2 0) as [l0|] eqn:E0; [|discriminate].
  destruct (ordered_run crowd_cfg (init crowd_cfg l0) crowd_acts) as [s|] eqn:E.
  2:{ exfalso. revert E. vm_compute in E0. injection E0 as <-. vm_compute. discriminate. }
  exists s. split; [exists l0, crowd_acts; auto|].
  vm_compute in E0. injection E0 as <-. vm_compute in E. injection E as <-.
  split; [do 2 eexists; split; reflexivity|]. split; [reflexivity|].
  intros [|[|[|t]]] Ht; cbn; try discriminate; lia.
Qed.

(** The same with two threads on the second rank as well, one of which has not started to read. *)
Lemma ranks_crowd : exists s, ordered_reachable ranks_cfg s /\ together ranks_cfg s 0 1 /\
  (forall t t', together ranks_cfg s t t' -> cf_rank ranks_cfg t = 0 /\ cf_dom ranks_cfg t = 0) /\
  s_lock s (LCache 0 0) = Some (Usr 1) /\ forall t, t < 4 -> t_todo (s_thr s t) <> [].
Proof.
  destruct (clist_init 2 0) as [l0|] eqn:E0; [|discriminate].
  destruct (ordered_run ranks_cfg (init ranks_cfg l0) crowd_acts) as [s|] eqn:E.
  2:{ exfalso. revert E. vm_compute in E0. injection E0 as <-. vm_compute. discriminate. }
  exists s. split; [exists l0, crowd_acts; auto|].
  vm_compute in E0. injection E0 as <-. vm_compute in E. injection E as <-.
  split; [split; [discriminate|]; split; [discriminate|]; split; [discriminate|]; split; reflexivity|].
  split.
  { intros t t' (H1 & H2 & H3 & H4 & _).
    destruct t as [|[|[|[|t]]]]; try (split; reflexivity); [|now destruct H2|now destruct H2].
    destruct t' as [|[|[|[|t']]]]; try discriminate H4; [now destruct H1|now destruct H3|now destruct H3]. }
  split; [reflexivity|]. intros [|[|[|[|t]]]] Ht; cbn; try discriminate; lia.
Qed.
