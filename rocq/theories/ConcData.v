(** * Concurrent caches: contents of the slots *)
From Verif Require Export ConcInv1.

Section Conc.
Context {V : Type} (c : cfg V).
Local Notation n := (cf_size c).
Local Notation D := (cf_doms c).
Local Notation K := (cf_cells c).
Local Notation P := (cf_ranks c).

(** Block recorded for a slot. *)
Definition i2b (s : st V) (r d i : nat) : option nat :=
  match m_at (c_i2b (s_list s r d)) i with Some o => o | None => None end.

(** Block for which the slot was locked last: the list is ahead while a thread
    waits for the slot mutex. *)
Definition phys (s : st V) (r d i : nat) : option nat :=
  match s_lock s (LCache r d) with
  | Some (Usr t) =>
      match t_pc (s_thr s t) with
      | PGetSlot i' old => if i' =? i then old else i2b s r d i
      | _ => i2b s r d i
      end
  | _ => i2b s r d i
  end.

(** Block which may be listed in the dictionary for the own slot. *)
Definition pc_lst (x : thr V) : option nat :=
  match t_pc x with
  | PGetBoth _ old | PHave _ old => old
  | PDel _ ob | PDelHold _ ob => Some ob
  | PAddRel _ | PXfer _ _ _ | PFill _ | PFilling _ | PEnd _ | PReady _ | PRelease _ _ => Some (req x)
  | _ => None
  end.

(** Block whose content is completely in the own slot. *)
Definition pc_stb (x : thr V) : option nat :=
  match t_pc x with
  | PGetBoth _ old | PHave _ old => old
  | PDel _ ob | PDelHold _ ob => Some ob
  | PCopyDone _ _ _ | PAdd _ | PAddHold _ | PAddRel _ | PEnd _ | PReady _ | PRelease _ _ => Some (req x)
  | _ => None
  end.

Definition view (f : thr V -> option nat) (s : st V) (r d i : nat) : option nat :=
  match s_lock s (LSlot r (node_off c d i)) with
  | Some (Usr t) => if cf_dom c t =? d then f (s_thr s t) else phys s r d i
  | _ => phys s r d i
  end.

Definition good (s : st V) (r o b : nat) : Prop :=
  forall x, x < K -> s_data s r o x = Some (cf_file c b x).

Definition thr_data (s : st V) (t : nat) (x : thr V) : Prop :=
  let r := cf_rank c t in
  let d := cf_dom c t in
  (forall i, pc_own (t_pc x) = Some i -> phys s r d i = Some (req x)) /\
  (forall k j, pc_for (t_pc x) = Some (k, j) -> phys s r k j = Some (req x)) /\
  (match t_pc x with
   | PGetSlot i _ => i2b s r d i = Some (req x)
   | PTryFound i k j => i2b s r k j = Some (req x)
   | PCopy i _ _ y | PXfer i _ y =>
       forall z, z < y -> z < K -> s_data s r (node_off c d i) z = Some (cf_file c (req x) z)
   | PRelease i v => exists b cell todo, t_todo x = (b, cell) :: todo /\ v = Some (cf_file c b cell)
   | _ => True
   end) /\
  Forall (fun a => snd a = Some (cf_file c (fst (fst a)) (snd (fst a)))) (t_done x) /\
  map fst (t_done x) ++ t_todo x = cf_prog c t.

Definition com_data (s : st V) (r : nat) (p : cpc V) : Prop :=
  match p with
  | CTryFound _ b k j => i2b s r k j = Some b
  | CTryBoth _ b k j => phys s r k j = Some b
  | CSend _ b k j y buf => phys s r k j = Some b /\ forall z, z < y -> z < K -> buf z = Some (cf_file c b z)
  | _ => True
  end.

(** While a block is transferred through the window, its source holds it. *)
Definition xfer_ok (s : st V) : Prop :=
  forall t i e y, t_pc (s_thr s t) = PXfer i e y ->
  let so := e mod (n * D) in
  view pc_lst s (e / (n * D)) (so / n) (so mod n) = Some (req (s_thr s t)) /\
  view pc_stb s (e / (n * D)) (so / n) (so mod n) = Some (req (s_thr s t)).

Definition dict_ok (s : st V) : Prop :=
  cf_mode c = MWin ->
  forall b, exists l, s_dict s b = rep l /\ NoDup l /\
    forall e, In e l -> let so := e mod (n * D) in
      view pc_lst s (e / (n * D)) (so / n) (so mod n) = Some b.

(** Replies with data carry the block. *)
Definition bufs_ok (s : st V) : Prop :=
  forall r q, Forall (fun m => forall buf, snd m = Some buf -> forall z, z < K -> buf z = Some (cf_file c (fst m) z))
    (s_brep s r q).

(** Block of the request of rank [src] that the communication thread is serving. *)
Definition busy (p : cpc V) : option (nat * nat) :=
  match p with
  | CTry src b _ | CTryLocked src b _ | CTryMiss src b _ | CTryFound src b _ _
  | CTryBoth src b _ _ | CSend src b _ _ _ _ => Some (src, b)
  | _ => None
  end.
Definition serving (s : st V) (src dst : nat) : list nat :=
  match busy (s_com s dst) with
  | Some (src', b) => if src' =? src then [b] else []
  | None => []
  end.

(** Blocks asked by [src] from [dst] and not yet answered/received. *)
Definition blk_tokens (s : st V) (src dst : nat) : list nat :=
  s_breq s src dst ++ serving s src dst ++ map fst (s_brep s src dst).
Definition info_tokens (s : st V) (src dst : nat) : list nat :=
  s_ireq s src dst ++ map fst (s_irep s src dst).

Definition blk_expected (s : st V) (src dst : nat) : list nat :=
  match s_lock s (LBlk src) with
  | Some (Usr t) => match t_pc (s_thr s t) with
                    | PWaitBlk _ dst' => if dst' =? dst then [req (s_thr s t)] else []
                    | _ => []
                    end
  | _ => []
  end.
Definition info_expected (s : st V) (src dst : nat) : list nat :=
  match s_lock s (LInfo src) with
  | Some (Usr t) => match t_pc (s_thr s t) with
                    | PWaitInfo _ => if cf_home c (req (s_thr s t)) =? dst then [req (s_thr s t)] else []
                    | _ => []
                    end
  | _ => []
  end.

Record inv2 (s : st V) : Prop := {
  j_thr : forall t, thr_data s t (s_thr s t);
  j_com : forall r, com_data s r (s_com s r);
  j_good : forall r d i b, i < n -> view pc_stb s r d i = Some b -> good s r (node_off c d i) b;
  j_xfer : xfer_ok s;
  j_dict : dict_ok s;
  j_bufs : bufs_ok s;
  j_blk : forall src dst, blk_tokens s src dst = blk_expected s src dst;
  j_info : forall src dst, info_tokens s src dst = info_expected s src dst
}.

Hypothesis Hwf : wf_cfg c.

(** ** Locks and program counters *)
Lemma held_own s t i : inv1 c s -> pc_own (t_pc (s_thr s t)) = Some i ->
  s_lock s (LSlot (cf_rank c t) (node_off c (cf_dom c t) i)) = Some (Usr t).
Proof.
  intros Hi E. apply (i_locks c s Hi). cbn. unfold thr_locks. rewrite E. cbn. auto.
Qed.

Lemma held_for s t k j : inv1 c s -> pc_for (t_pc (s_thr s t)) = Some (k, j) ->
  s_lock s (LSlot (cf_rank c t) (node_off c k j)) = Some (Usr t).
Proof.
  intros Hi E. apply (i_locks c s Hi). cbn. unfold thr_locks. rewrite E. cbn.
  apply in_app_iff. right. cbn. auto.
Qed.

Lemma held_cm s t k : inv1 c s -> pc_cm (cf_dom c t) (t_pc (s_thr s t)) = Some k ->
  s_lock s (LCache (cf_rank c t) k) = Some (Usr t).
Proof.
  intros Hi E. apply (i_locks c s Hi). cbn. unfold thr_locks. rewrite E. cbn.
  rewrite !in_app_iff. right. right. left. cbn. auto.
Qed.

Lemma held_dl s t b : inv1 c s -> pc_dl c (req (s_thr s t)) (t_pc (s_thr s t)) = Some b ->
  s_lock s (LDict b) = Some (Usr t).
Proof.
  intros Hi E. apply (i_locks c s Hi). cbn. unfold thr_locks. rewrite E. cbn.
  rewrite !in_app_iff. right. right. right. left. cbn. auto.
Qed.

Lemma held_msg s t k : inv1 c s -> pc_msg (cf_rank c t) (t_pc (s_thr s t)) = Some k ->
  s_lock s k = Some (Usr t).
Proof.
  intros Hi E. apply (i_locks c s Hi). cbn. unfold thr_locks. rewrite E. cbn.
  rewrite !in_app_iff. right. right. right. right. cbn. auto.
Qed.

Lemma held_ccm s r k : inv1 c s -> com_cm (s_com s r) = Some k ->
  s_lock s (LCache r k) = Some (Com r).
Proof.
  intros Hi E. apply (i_locks c s Hi). cbn. unfold com_locks. rewrite E. cbn.
  rewrite !in_app_iff. right. cbn. auto.
Qed.

Lemma held_cfor s r k j : inv1 c s -> com_for (s_com s r) = Some (k, j) ->
  s_lock s (LSlot r (node_off c k j)) = Some (Com r).
Proof.
  intros Hi E. apply (i_locks c s Hi). cbn. unfold com_locks. rewrite E. cbn. auto.
Qed.

Lemma olist_In {A} (o : option A) x : In x (olist o) <-> o = Some x.
Proof. destruct o; cbn; intuition congruence. Qed.

Lemma thr_locks_slot t (x : thr V) r o :
  In (LSlot r o) (thr_locks c t x) ->
  r = cf_rank c t /\ ((exists i, pc_own (t_pc x) = Some i /\ o = node_off c (cf_dom c t) i) \/
    (exists k j, pc_for (t_pc x) = Some (k, j) /\ o = node_off c k j)).
Proof.
  unfold thr_locks. rewrite !in_app_iff, !olist_In.
  destruct (pc_own (t_pc x)) as [i|], (pc_for (t_pc x)) as [[k j]|], (pc_cm _ (t_pc x)), (pc_dl _ _ (t_pc x));
    cbn [option_map fst snd]; destruct (t_pc x); cbn; intuition (try discriminate);
    match goal with H : Some _ = Some _ |- _ => injection H as <- <- end; eauto 6.
Qed.

Lemma thr_locks_cm t (x : thr V) r k :
  In (LCache r k) (thr_locks c t x) -> r = cf_rank c t /\ pc_cm (cf_dom c t) (t_pc x) = Some k.
Proof.
  unfold thr_locks. rewrite !in_app_iff, !olist_In.
  destruct (pc_own (t_pc x)) as [i|], (pc_for (t_pc x)) as [[k' j]|], (pc_cm _ (t_pc x)), (pc_dl _ _ (t_pc x));
    cbn [option_map fst snd]; destruct (t_pc x); cbn; intuition (try discriminate); congruence.
Qed.

Lemma lock_cm s t r k : inv1 c s -> s_lock s (LCache r k) = Some (Usr t) ->
  r = cf_rank c t /\ pc_cm (cf_dom c t) (t_pc (s_thr s t)) = Some k.
Proof. intros Hi E. apply (i_locks c s Hi) in E. apply thr_locks_cm in E. auto. Qed.

Lemma lock_slot s t r o : inv1 c s -> s_lock s (LSlot r o) = Some (Usr t) ->
  r = cf_rank c t /\ ((exists i, pc_own (t_pc (s_thr s t)) = Some i /\ o = node_off c (cf_dom c t) i) \/
    (exists k j, pc_for (t_pc (s_thr s t)) = Some (k, j) /\ o = node_off c k j)).
Proof. intros Hi E. apply (i_locks c s Hi) in E. apply thr_locks_slot in E. auto. Qed.

Lemma own_lt s t i : inv1 c s -> pc_own (t_pc (s_thr s t)) = Some i -> i < n.
Proof. intros Hi E. destruct (i_thr c s Hi t) as (_ & H & _). auto. Qed.

Lemma for_lt s t k j : inv1 c s -> pc_for (t_pc (s_thr s t)) = Some (k, j) -> k < D /\ k <> cf_dom c t /\ j < n.
Proof.
  intros Hi E. destruct (i_thr c s Hi t) as (_ & _ & _ & H).
  destruct (t_pc (s_thr s t)); cbn in E; try discriminate; injection E as <- <-; tauto.
Qed.

Lemma view_own f s t i : inv1 c s -> pc_own (t_pc (s_thr s t)) = Some i ->
  view f s (cf_rank c t) (cf_dom c t) i = f (s_thr s t).
Proof.
  intros Hi E. unfold view. rewrite (held_own _ _ _ Hi E), Nat.eqb_refl. auto.
Qed.

(** Two owners of a slot are the same. *)
Lemma own_unique s t t' i i' : inv1 c s ->
  pc_own (t_pc (s_thr s t)) = Some i -> pc_own (t_pc (s_thr s t')) = Some i' ->
  cf_rank c t = cf_rank c t' -> cf_dom c t = cf_dom c t' -> i = i' -> t = t'.
Proof.
  intros Hi E E' H1 H2 ->. apply (held_own _ _ _ Hi) in E, E'. rewrite H1, H2 in E. congruence.
Qed.

End Conc.
