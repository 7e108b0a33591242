(** * Concurrent caches: locks and well-formedness *)
From Verif Require Export ConcModel CacheProofs DictProofs.

Lemma lock_eq_spec k l : Bool.reflect (k = l) (lock_eq k l).
Proof.
  destruct k, l; cbn; try (constructor; congruence);
  repeat match goal with |- context [?a =? ?b] => destruct (Nat.eqb_spec a b) end; cbn; constructor; congruence.
Qed.

Lemma owner_dec (o p : owner) : {o = p} + {o <> p}.
Proof. decide equality; apply Nat.eq_dec. Qed.

(** ** Generic lock table *)
Definition updl (lk : lock -> option owner) k o : lock -> option owner :=
  fun k' => if lock_eq k' k then o else lk k'.
Definition locks_ok (lk : lock -> option owner) (hd : owner -> list lock) : Prop :=
  forall k o, lk k = Some o <-> In k (hd o).

Lemma lock_keep lk hd hd' o0 :
  locks_ok lk hd -> (forall o, o <> o0 -> hd' o = hd o) ->
  (forall k, In k (hd' o0) <-> In k (hd o0)) -> locks_ok lk hd'.
Proof.
  intros H H1 H2 k o. destruct (owner_dec o o0) as [->|Hne].
  - rewrite H2. apply H.
  - rewrite H1 by auto. apply H.
Qed.

Lemma lock_acq lk hd hd' o0 k0 :
  locks_ok lk hd -> lk k0 = None -> (forall o, o <> o0 -> hd' o = hd o) ->
  (forall k, In k (hd' o0) <-> k = k0 \/ In k (hd o0)) -> locks_ok (updl lk k0 (Some o0)) hd'.
Proof.
  intros H Hf H1 H2 k o. unfold updl. destruct (lock_eq_spec k k0) as [->|Hk].
  - destruct (owner_dec o o0) as [->|Hne].
    + rewrite H2. intuition.
    + rewrite H1 by auto. split; [congruence|]. intros Hin. apply H in Hin. congruence.
  - destruct (owner_dec o o0) as [->|Hne].
    + rewrite H2. rewrite (H k o0). intuition congruence.
    + rewrite H1 by auto. apply H.
Qed.

Lemma lock_rel lk hd hd' o0 k0 :
  locks_ok lk hd -> In k0 (hd o0) -> (forall o, o <> o0 -> hd' o = hd o) ->
  (forall k, In k (hd' o0) <-> In k (hd o0) /\ k <> k0) -> locks_ok (updl lk k0 None) hd'.
Proof.
  intros H Hf H1 H2 k o. apply H in Hf. unfold updl. destruct (lock_eq_spec k k0) as [->|Hk].
  - destruct (owner_dec o o0) as [->|Hne].
    + rewrite H2. intuition congruence.
    + rewrite H1 by auto. split; [discriminate|]. intros Hin. apply H in Hin. congruence.
  - destruct (owner_dec o o0) as [->|Hne].
    + rewrite H2. rewrite (H k o0). intuition congruence.
    + rewrite H1 by auto. apply H.
Qed.

Section Conc.
Context {V : Type} (c : cfg V).
Local Notation n := (cf_size c).
Local Notation D := (cf_doms c).
Local Notation K := (cf_cells c).
Local Notation P := (cf_ranks c).

Definition locations : nat := P * (n * D).

(** What is assumed about a system. *)
Record wf_cfg : Prop := {
  wc_n : 0 < n;
  wc_spread : (cf_spread c < Z.of_nat n)%Z;
  wc_rank : forall t, cf_rank c t < P;
  wc_dom : forall t, cf_dom c t < D;
  wc_home : forall b, cf_home c b < P;
  wc_dict : forall b, length (cf_dict c b) <= dict_size /\ Forall (fun e => e < locations) (cf_dict c b);
  wc_dict_win : cf_mode c = MWin -> forall b, cf_dict c b = [];
  wc_prog : forall t, Forall (fun q => snd q < K) (cf_prog c t)
}.

(** The requested block. *)
Definition req (x : thr V) : nat := match t_todo x with (b, _) :: _ => b | [] => 0 end.

(** The own slot, while it is locked. *)
Definition pc_own (p : pc V) : option nat :=
  match p with
  | PIdle | PGetLocked | PGetSlot _ _ => None
  | PGetBoth i _ | PHave i _ | PDel i _ | PDelHold i _ | PDelRel i _ | PSearch i _
  | PTryLocked i _ | PTryMiss i _ | PTryFound i _ _ | PTryBoth i _ _ | PCopy i _ _ _
  | PCopyDone i _ _ | PAdd i | PAddHold i | PAddRel i | PStart i | PStartHold i | PXfer i _ _
  | PAskInfo i | PWaitInfo i | PAskBlk i _ | PSendBlk i _ | PWaitBlk i _ | PFill i
  | PFilling i | PEnd i | PReady i | PRelease i _ => Some i
  end.

(** A locked slot of another domain. *)
Definition pc_for (p : pc V) : option (nat * nat) :=
  match p with
  | PTryBoth _ k j | PCopy _ k j _ | PCopyDone _ k j => Some (k, j)
  | _ => None
  end.

(** The locked cache manager. *)
Definition pc_cm (d : nat) (p : pc V) : option nat :=
  match p with
  | PGetLocked | PGetSlot _ _ | PGetBoth _ _ => Some d
  | PTryLocked _ k | PTryMiss _ k | PTryFound _ k _ | PTryBoth _ k _ => Some k
  | _ => None
  end.

(** The locked dictionary entry. *)
Definition pc_dl (b : nat) (p : pc V) : option nat :=
  match p with
  | PDelHold _ ob | PDelRel _ ob => Some ob
  | PAddHold _ | PAddRel _ | PStartHold _ | PXfer _ _ _ => Some b
  | PFill _ | PFilling _ | PEnd _ => match cf_mode c with MWin => Some b | _ => None end
  | _ => None
  end.

Definition pc_msg (r : nat) (p : pc V) : option lock :=
  match p with
  | PAskInfo _ | PWaitInfo _ => Some (LInfo r)
  | PSendBlk _ _ | PWaitBlk _ _ => Some (LBlk r)
  | _ => None
  end.

Definition olist {A} (o : option A) : list A := match o with Some a => [a] | None => [] end.

Definition thr_locks (t : nat) (x : thr V) : list lock :=
  let r := cf_rank c t in
  let d := cf_dom c t in
  let p := t_pc x in
  olist (option_map (fun i => LSlot r (node_off c d i)) (pc_own p)) ++
  olist (option_map (fun kj => LSlot r (node_off c (fst kj) (snd kj))) (pc_for p)) ++
  olist (option_map (LCache r) (pc_cm d p)) ++
  olist (option_map LDict (pc_dl (req x) p)) ++
  olist (pc_msg r p).

Definition com_for (p : cpc V) : option (nat * nat) :=
  match p with
  | CTryBoth _ _ k j | CSend _ _ k j _ _ | CSendDone k j => Some (k, j)
  | _ => None
  end.
Definition com_cm (p : cpc V) : option nat :=
  match p with
  | CTryLocked _ _ k | CTryMiss _ _ k | CTryFound _ _ k _ | CTryBoth _ _ k _ => Some k
  | _ => None
  end.
Definition com_locks (r : nat) (p : cpc V) : list lock :=
  olist (option_map (fun kj => LSlot r (node_off c (fst kj) (snd kj))) (com_for p)) ++
  olist (option_map (LCache r) (com_cm p)).

Definition held (s : st V) (o : owner) : list lock :=
  match o with
  | Usr t => thr_locks t (s_thr s t)
  | Com r => com_locks r (s_com s r)
  end.

(** ** Well-formed program counters *)
Definition wf_thr (t : nat) (x : thr V) : Prop :=
  let d := cf_dom c t in
  let r := cf_rank c t in
  let m := cf_mode c in
  (t_pc x <> PIdle -> t_todo x <> []) /\
  (forall i, pc_own (t_pc x) = Some i -> i < n) /\
  Forall (fun q => snd q < K) (t_todo x) /\
  match t_pc x with
  | PGetSlot i _ => i < n
  | PDel i ob => m <> MNo /\ ob <> req x
  | PDelHold i ob | PDelRel i ob => m = MWin /\ ob <> req x
  | PTryLocked i k | PTryMiss i k => k < D /\ k <> d
  | PTryFound i k j | PTryBoth i k j | PCopyDone i k j | PCopy i k j _ => k < D /\ k <> d /\ j < n
  | PAddHold i | PAddRel i | PStartHold i => m = MWin
  | PXfer i e _ => m = MWin /\ e < locations
  | PAskInfo i | PWaitInfo i => m = MThread /\ cf_home c (req x) <> r
  | PAskBlk i dst | PSendBlk i dst | PWaitBlk i dst => m = MThread /\ dst < P
  | _ => True
  end.

Definition wf_com (p : cpc V) : Prop :=
  match p with
  | CIdle => True
  | CTry src b k => src < P
  | CTryLocked src b k | CTryMiss src b k => src < P /\ k < D
  | CTryFound src b k j | CTryBoth src b k j | CSend src b k j _ _ => src < P /\ k < D /\ j < n
  | CSendDone k j => k < D /\ j < n
  end.

(** ** Dictionary: shape *)
Definition dict_shape (s : st V) : Prop :=
  forall b, exists l, s_dict s b = rep l /\ length l <= dict_size /\ Forall (fun e => e < locations) l.
Definition upd_shape (s : st V) : Prop :=
  forall r, Forall (fun m => snd m < locations) (s_upd s r).
Definition rep_shape (s : st V) : Prop :=
  forall r q, Forall (fun m => forall e, snd m = Some e -> e < locations) (s_irep s r q).
Definition src_shape (s : st V) : Prop :=
  forall r q, s_ireq s r q <> [] \/ s_breq s r q <> [] -> r < P.

Record inv1 (s : st V) : Prop := {
  i_locks : locks_ok (s_lock s) (held s);
  i_thr : forall t, wf_thr t (s_thr s t);
  i_com : forall r, wf_com (s_com s r);
  i_list : forall r d, exists h tt, clist_inv n h tt (s_list s r d);
  i_dict : dict_shape s;
  i_upd : upd_shape s;
  i_rep : rep_shape s;
  i_src : src_shape s
}.

Hypothesis Hwf : wf_cfg.

Lemma node_off_inj d i d' i' : i < n -> i' < n -> node_off c d i = node_off c d' i' -> d = d' /\ i = i'.
Proof.
  unfold node_off. intros Hi Hi' E. pose proof (wc_n Hwf).
  assert (d = d').
  { destruct (lt_eq_lt_dec d d') as [[H1|H1]|H1]; auto.
    - assert (n * S d <= n * d') by (apply Nat.mul_le_mono_l; lia). lia.
    - assert (n * S d' <= n * d) by (apply Nat.mul_le_mono_l; lia). lia. }
  subst. split; auto. lia.
Qed.

Lemma node_off_lt d i : i < n -> d < D -> node_off c d i < n * D.
Proof.
  unfold node_off. intros. assert (n * S d <= n * D) by (apply Nat.mul_le_mono_l; lia). lia.
Qed.

Lemma loc_lt r o : r < P -> o < n * D -> loc c r o < locations.
Proof.
  unfold loc, locations. intros. assert (S r * (n * D) <= P * (n * D)) by (apply Nat.mul_le_mono_r; lia). lia.
Qed.

Lemma loc_div r o : o < n * D -> loc c r o / (n * D) = r.
Proof. intros. unfold loc. rewrite Nat.add_comm, Nat.div_add by lia. rewrite Nat.div_small; lia. Qed.
Lemma loc_mod r o : o < n * D -> loc c r o mod (n * D) = o.
Proof. intros. unfold loc. rewrite Nat.add_comm, Nat.mod_add by lia. apply Nat.mod_small; lia. Qed.

Lemma loc_rank_lt e : e < locations -> e / (n * D) < P.
Proof.
  unfold locations. intros H. apply Nat.div_lt_upper_bound; [|lia].
  intros E. rewrite E in H. lia.
Qed.

Lemma own_loc_lt t i : i < n -> loc c (cf_rank c t) (node_off c (cf_dom c t) i) < locations.
Proof. intros. apply loc_lt; [apply Hwf|]. apply node_off_lt; auto. apply Hwf. Qed.

End Conc.

(** Splitting a step into its cases. *)
Ltac break :=
  match goal with
  | H : Some _ = Some _ |- _ => injection H as H; try subst
  | H : None = Some _ |- _ => discriminate H
  | H : option_map _ ?x = Some _ |- _ => destruct x eqn:?; cbn [option_map] in H
  | H : match ?x with _ => _ end = Some _ |- _ => destruct x eqn:?
  | H : (let '(_, _) := ?x in _) = Some _ |- _ => destruct x eqn:?
  end.
