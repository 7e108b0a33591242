(** * Proofs about communicators and keys *)
From Verif Require Export CommSpec.

Section Comm.
Variable group : comm -> nat * nat.

Fixpoint rest (n : nat) (cs : list comm) (others : bool) : list call :=
  match cs with
  | [] => (if others then [KBarrier (CDup n)] else []) ++ [KFree n]
  | c :: cs' => KFree n :: KDup c (S n) :: rest (S n) cs' others
  end.
Lemma history_rest cs others : forall i c, history i (c :: cs) others = KDup c i :: rest i cs others.
Proof. induction cs as [|c' cs IH]; intros i c; [reflexivity|]. cbn [rest]. rewrite <- IH. reflexivity. Qed.

Lemma free_dup n rk sz tg K :
  free_comm (Mc (CDup n) rk sz tg (S n) [n] K) = Ok (Mc CNull rk sz tg (S n) [] (K ++ [KFree n])).
Proof.
  unfold free_comm. cbn [c_comm c_live c_rank c_size c_tag c_next c_calls].
  destruct (in_dec Nat.eq_dec n [n]) as [_|H]; [|exfalso; apply H; now left].
  cbn [remove]. now destruct (Nat.eq_dec n n).
Qed.

Lemma from_dup l : forall n rk sz tg K, (forall o, In o l -> dup_fails o = false) ->
  exists s s', mc_ops group (Mc (CDup n) rk sz tg (S n) [n] K) l = Ok s /\ mc_close s = Ok s' /\ c_live s' = [] /\
    c_size s = snd (taken group sz l) /\
    c_calls s' = K ++ rest n (fst (taken group sz l)) (1 <? snd (taken group sz l)).
Proof.
  induction l as [|o l IH]; intros n rk sz tg K Hl.
  - cbn [taken fst snd rest mc_ops]. destruct (1 <? sz) eqn:E1; eexists _, _; (split; [reflexivity|]); unfold mc_close;
      cbn [c_size c_comm c_rank c_tag c_next c_live c_calls]; rewrite E1; cbn [obind]; rewrite free_dup;
      (split; [reflexivity|]); (split; [reflexivity|]); (split; [reflexivity|]); cbn [c_calls app]; now rewrite <- ?app_assoc.
  - pose proof (Hl o (or_introl eq_refl)) as Ho.
    assert (Hl' : forall o, In o l -> dup_fails o = false) by (intros; apply Hl; now right).
    cbn [mc_ops].
    assert (Hset : forall c r, r <> RDup -> exists s s',
      (do s0 <- mc_init group (Mc (CDup n) rk sz tg (S n) [n] K) c r; mc_ops group s0 l) = Ok s /\ mc_close s = Ok s' /\ c_live s' = [] /\
      let z := match r with ROk => snd (group c) | _ => sz end in
      c_size s = snd (taken group z l) /\
      c_calls s' = K ++ KFree n :: KDup c (S n) :: rest (S n) (fst (taken group z l)) (1 <? snd (taken group z l))).
    { intros c r Hr. unfold mc_init. rewrite free_dup. cbn [obind].
      assert (forall rk' z, exists s s',
        mc_ops group (Mc (CDup (S n)) rk' z tg (S (S n)) [S n] ((K ++ [KFree n]) ++ [KDup c (S n)])) l = Ok s /\ mc_close s = Ok s' /\ c_live s' = [] /\
        c_size s = snd (taken group z l) /\
        c_calls s' = K ++ KFree n :: KDup c (S n) :: rest (S n) (fst (taken group z l)) (1 <? snd (taken group z l))) as Hgo.
      { intros rk' z. destruct (IH (S n) rk' z tg ((K ++ [KFree n]) ++ [KDup c (S n)]) Hl') as (s & s' & A & B & C & D & E).
        exists s, s'. repeat (split; [assumption|]). rewrite E, <- !app_assoc. reflexivity. }
      destruct r; [congruence| | |]; cbn [obind c_rank c_size c_tag c_next c_live c_calls c_comm]; apply Hgo. }
    destruct o as [c r|r|m]; cbn [mc_op].
    + destruct r; [discriminate Ho|destruct (Hset c RRank)|destruct (Hset c RSize)|destruct (Hset c ROk)]; try discriminate;
        (destruct H as (s' & A & B & C & D & E); exists x, s'; repeat (split; [assumption|]); cbn [taken];
         destruct (taken group _ l) as (cs, z); split; assumption).
    + cbn [c_size taken]. destruct (sz =? 1).
      * cbn [obind]. now apply IH.
      * destruct r; [discriminate Ho|destruct (Hset CSelf RRank)|destruct (Hset CSelf RSize)|destruct (Hset CSelf ROk)]; try discriminate;
        (destruct H as (s' & A & B & C & D & E); exists x, s'; repeat (split; [assumption|]);
         destruct (taken group _ l) as (cs, z); split; assumption).
    + cbn [obind taken]. unfold mc_reserve. cbn [c_rank c_size c_tag c_next c_live c_calls c_comm]. now apply IH.
Qed.

Lemma safe_tail o l : safe (o :: l) -> safe l.
Proof.
  intros H a o' b E F. pose proof (H (o :: a) o' b ltac:(cbn; now rewrite E) F) as G. cbn in G.
  now apply Bool.orb_false_iff in G.
Qed.
Lemma safe_made o l : safe (o :: l) -> makes o = true -> forall o', In o' l -> dup_fails o' = false.
Proof.
  intros H M o' Hi. destruct (dup_fails o') eqn:E; [|reflexivity].
  apply in_split in Hi. destruct Hi as (a & b & ->). pose proof (H (o :: a) o' b eq_refl E) as G. cbn in G.
  rewrite M in G. discriminate.
Qed.

Lemma life_from l : forall tg, safe l ->
  exists s s', mc_ops group (Mc CSelf 0 1 tg 0 [] []) l = Ok s /\ mc_close s = Ok s' /\ c_live s' = [] /\
    c_calls s' = history 0 (fst (taken group 1 l)) (1 <? snd (taken group 1 l)).
Proof.
  induction l as [|o l IH]; intros tg Hs.
  - eexists _, _. split; [reflexivity|]. split; [reflexivity|]. split; reflexivity.
  - cbn [mc_ops]. destruct o as [c r|r|m]; cbn [mc_op].
    + assert (Hgo : r <> RDup -> forall rk z, exists s s',
        mc_ops group (Mc (CDup 0) rk z tg 1 [0] [KDup c 0]) l = Ok s /\ mc_close s = Ok s' /\ c_live s' = [] /\
        c_calls s' = history 0 (c :: fst (taken group z l)) (1 <? snd (taken group z l))).
      { intros Hr rk z. assert (makes (OSet c r) = true) as M by (destruct r; [congruence|reflexivity ..]).
        destruct (from_dup l 0 rk z tg [KDup c 0] (safe_made _ _ Hs M)) as (s & s' & A & B & C & _ & E).
        exists s, s'. repeat (split; [assumption|]). rewrite history_rest. exact E. }
      destruct r; cbn [mc_init free_comm c_comm obind c_rank c_size c_tag c_next c_live c_calls app].
      * cbn [taken]. apply IH. now apply safe_tail in Hs.
      * destruct (Hgo ltac:(discriminate) 0 1) as (s & s' & A & B & C & E). exists s, s'. cbn [taken].
        destruct (taken group 1 l). auto.
      * destruct (Hgo ltac:(discriminate) (fst (group c)) 1) as (s & s' & A & B & C & E). exists s, s'. cbn [taken].
        destruct (taken group 1 l). auto.
      * destruct (Hgo ltac:(discriminate) (fst (group c)) (snd (group c))) as (s & s' & A & B & C & E). exists s, s'. cbn [taken].
        destruct (taken group (snd (group c)) l). auto.
    + cbn [c_size Nat.eqb obind taken]. apply IH. now apply safe_tail in Hs.
    + cbn [obind taken]. unfold mc_reserve. cbn [c_rank c_size c_tag c_next c_live c_calls c_comm]. apply IH. now apply safe_tail in Hs.
Qed.

Lemma life_ok l : safe l -> exists s, life group l = Ok s /\ c_live s = [] /\
  c_calls s = history 0 (fst (taken group 1 l)) (1 <? snd (taken group 1 l)).
Proof.
  intros H. destruct (life_from l 0 H) as (s & s' & A & B & C & E). exists s'. unfold life. unfold mc_new. rewrite A. auto.
Qed.

(** ** A late failure *)
Lemma null_ub l : forall s, c_comm s = CNull -> (do s' <- mc_ops group s l; mc_close s') = Ub.
Proof.
  induction l as [|o l IH]; intros s Hs; cbn [mc_ops obind].
  - unfold mc_close. rewrite Hs. destruct (1 <? c_size s); [reflexivity|]. cbn [obind]. unfold free_comm. now rewrite Hs.
  - destruct o as [c r|r|m]; cbn [mc_op].
    + unfold mc_init, free_comm. now rewrite Hs.
    + destruct (c_size s =? 1); [cbn [obind]; now apply IH|]. unfold mc_init, free_comm. now rewrite Hs.
    + cbn [obind]. now apply IH.
Qed.

Lemma ops_app a b : forall s, mc_ops group s (a ++ b) = do s' <- mc_ops group s a; mc_ops group s' b.
Proof.
  induction a as [|o a IH]; intros s; [reflexivity|]. cbn [app mc_ops].
  destruct (mc_op group s o); cbn [obind]; [apply IH|reflexivity].
Qed.

(** Once something was made there is a communicator which is not [MPI_COMM_SELF], or an error already. *)
Lemma not_self l : forall s s', c_comm s <> CSelf -> mc_ops group s l = Ok s' -> c_comm s' <> CSelf.
Proof.
  assert (Hi : forall s c r s', c_comm s <> CSelf -> mc_init group s c r = Ok s' -> c_comm s' <> CSelf).
  { intros s c r s' Hs E. unfold mc_init, free_comm in E.
    destruct (c_comm s) as [| |u|n]; [congruence|discriminate E ..|].
    destruct (in_dec Nat.eq_dec n (c_live s)); [|discriminate E]. cbn [obind] in E.
    destruct r; injection E as <-; discriminate. }
  induction l as [|o l IH]; intros s s' Hs E; cbn [mc_ops] in E; [now injection E as <-|].
  destruct (mc_op group s o) as [s1|] eqn:E1; [|discriminate E]. cbn [obind] in E. refine (IH s1 s' _ E).
  destruct o as [c r|r|m]; cbn [mc_op] in E1.
  - now apply Hi in E1.
  - destruct (c_size s =? 1); [now injection E1 as <-|]. now apply Hi in E1.
  - injection E1 as <-. exact Hs.
Qed.

Lemma made l : forall s s', existsb makes l = true -> mc_ops group s l = Ok s' -> c_comm s' <> CSelf.
Proof.
  induction l as [|o l IH]; intros s s' M E; [discriminate M|]. cbn [existsb mc_ops] in M, E.
  destruct (mc_op group s o) as [s1|] eqn:E1; [|discriminate E]. cbn [obind] in E.
  destruct (makes o) eqn:Mo; [|now apply (IH s1)].
  apply (not_self l s1); [|exact E]. destruct o as [c r|r|m]; [|discriminate Mo ..]. cbn [mc_op] in E1. unfold mc_init in E1.
  destruct (free_comm s) as [s2|]; [|discriminate E1]. cbn [obind] in E1.
  destruct r; [discriminate Mo| | |]; injection E1 as <-; discriminate.
Qed.

Lemma late_failure a c b : existsb makes a = true -> life group (a ++ OSet c RDup :: b) = Ub.
Proof.
  intros M. unfold life. rewrite ops_app. destruct (mc_ops group mc_new a) as [s|] eqn:E; [|reflexivity]. cbn [obind mc_ops mc_op].
  pose proof (made a _ _ M E) as Hs.
  assert (mc_init group s c RDup = Ub \/ exists s', mc_init group s c RDup = Ok s' /\ c_comm s' = CNull) as [->|(s' & -> & Hn)].
  { unfold mc_init, free_comm. destruct (c_comm s) as [| |u|n]; [congruence|now left ..|].
    destruct (in_dec Nat.eq_dec n (c_live s)); [|now left]. right. eexists. split; reflexivity. }
  - reflexivity.
  - cbn [obind]. now apply null_ub.
Qed.

(** ** Rank and size *)
Lemma calm_values l : group CSelf = (0, 1) -> forall s s' c, (c_rank s, c_size s) = group c ->
  calm l -> mc_ops group s l = Ok s' ->
  (c_rank s', c_size s') = group (last (fst (taken group (c_size s) l)) c).
Proof.
  intros HS. induction l as [|o l IH]; intros s s' c Hc Hl E; cbn [mc_ops] in E; [now injection E as <-|].
  pose proof (Hl o (or_introl eq_refl)) as Ho.
  assert (Hl' : calm l) by (intros o' Hi; apply Hl; now right).
  destruct (mc_op group s o) as [s1|] eqn:E1; [|discriminate E]. cbn [obind] in E.
  assert (Hset : forall c', mc_init group s c' ROk = Ok s1 ->
    (c_rank s', c_size s') = group (last (c' :: fst (taken group (snd (group c')) l)) c)).
  { intros c' Hi. unfold mc_init in Hi. destruct (free_comm s) as [s2|]; [|discriminate Hi]. cbn [obind] in Hi.
    assert ((c_rank s1, c_size s1) = group c') as Hg by (injection Hi as <-; cbn; now destruct (group c')).
    rewrite (IH s1 s' c' Hg Hl' E). replace (c_size s1) with (snd (group c')) by (now rewrite <- Hg).
    set (cs := fst (taken group (snd (group c')) l)). clearbody cs. clear. f_equal. destruct cs as [|x cs]; [reflexivity|].
    change (last (c' :: x :: cs) c) with (last (x :: cs) c). clear. revert x; induction cs as [|y cs IH]; intros x; [reflexivity|].
    change (last (x :: y :: cs) c') with (last (y :: cs) c'). change (last (x :: y :: cs) c) with (last (y :: cs) c). apply IH. }
  destruct o as [c' r|r|m]; cbn [mc_op] in E1.
  - subst r. rewrite (Hset c' E1). cbn [taken]. now destruct (taken group (snd (group c')) l).
  - subst r. cbn [taken]. destruct (c_size s =? 1) eqn:Es.
    + injection E1 as <-. now apply IH.
    + rewrite (Hset CSelf E1). now destruct (taken group (snd (group CSelf)) l).
  - injection E1 as <-. cbn [taken]. now apply (IH (mc_reserve s m)).
Qed.

Lemma calm_safe l : calm l -> safe l.
Proof.
  intros H a o b -> F. pose proof (H o ltac:(apply in_or_app; right; now left)) as Ho.
  destruct o as [c r|r|m]; [subst r; discriminate F ..|discriminate F].
Qed.

Lemma values l : group CSelf = (0, 1) -> calm l ->
  exists s, mc_ops group mc_new l = Ok s /\ (c_rank s, c_size s) = group (last (fst (taken group 1 l)) CSelf).
Proof.
  intros HS Hl. destruct (life_from l 0 (calm_safe l Hl)) as (s & _ & E & _). exists s. split; [exact E|].
  exact (calm_values l HS mc_new s CSelf (eq_sym HS) Hl E).
Qed.
End Comm.

(** ** Keys *)
Section Keys.
Variable kmax : nat.

Definition kinv (p : proc) (open : list nat) (f : nat -> nat -> nat * nat) : Prop :=
  NoDup open /\
  (forall g, In g open <-> p_grid p g <> None) /\
  (forall g m, p_grid p g = Some m -> n_error m = false /\ n_key m < kmax /\ y_used (p_keys p) (n_key m) = true /\
     forall t, f g t = match y_val (p_keys p) (n_key m) t with Some v => v | None => (0, 0) end) /\
  (forall g g' m m', p_grid p g = Some m -> p_grid p g' = Some m' -> n_key m = n_key m' -> g = g') /\
  (forall i, y_used (p_keys p) i = true -> exists g m, p_grid p g = Some m /\ n_key m = i) /\
  (forall g, p_grid p g = None -> forall t, f g t = (0, 0)).

Lemma pigeon p open f : kinv p open f -> length open < kmax ->
  exists i, find (fun i => negb (y_used (p_keys p) i)) (seq 0 kmax) = Some i /\ i < kmax /\ y_used (p_keys p) i = false.
Proof.
  intros (Hnd & Ho & Hm & _ & Hu & _) Hlen.
  destruct (find _ _) as [i|] eqn:E.
  - exists i. apply find_some in E. destruct E as (Hi & E). apply in_seq in Hi. split; [reflexivity|]. split; [lia|].
    now apply Bool.negb_true_iff in E.
  - exfalso. assert (Hall : forall i, i < kmax -> y_used (p_keys p) i = true).
    { intros i Hi. eapply find_none in E; [|apply in_seq; split; [apply Nat.le_0_l|exact Hi]].
      now apply Bool.negb_false_iff in E. }
    set (key g := match p_grid p g with Some m => n_key m | None => 0 end).
    assert (incl (seq 0 kmax) (map key open)) as Hincl.
    { intros i Hi. apply in_seq in Hi. destruct (Hu i (Hall i ltac:(lia))) as (g & m & Eg & Ek).
      apply in_map_iff. exists g. split; [unfold key; now rewrite Eg|]. apply Ho. now rewrite Eg. }
    apply NoDup_incl_length in Hincl; [|apply seq_NoDup]. rewrite seq_length, map_length in Hincl. lia.
Qed.

Lemma upd_at A (f : nat -> A) i a : upd f i a i = a.
Proof. unfold upd. now rewrite Nat.eqb_refl. Qed.
Lemma upd_off A (f : nat -> A) i j a : j <> i -> upd f i a j = f j.
Proof. intros H. unfold upd. now apply Nat.eqb_neq in H as ->. Qed.

Lemma krun_from l : forall p open f, kinv p open f -> proper kmax open l ->
  kinv (fold_left (kstep kmax) l p) (opens open l) (fun g t => stored l g t (f g t)).
Proof.
  induction l as [|o l IH]; intros p open f Hi Hp; [exact Hi|].
  pose proof Hi as (Hnd & Ho & Hm & Hinj & Hu & Hz). cbn [fold_left].
  destruct o as [g junk|g t ids|g]; cbn [proper] in Hp; cbn [kstep].
  - destruct Hp as (Hg & Hlen & Hp). destruct (p_grid p g) as [m|] eqn:Eg; [exfalso; apply Hg, Ho; congruence|].
    destruct (pigeon p open f Hi Hlen) as (i & Ef & Hik & Hi0). unfold numa_new. rewrite Ef. apply (IH _ (g :: open)); [|exact Hp].
    assert (Hne : forall g' m, p_grid p g' = Some m -> n_key m <> i).
    { intros g' m E F. destruct (Hm g' m E) as (_ & _ & U & _). congruence. }
    split; [now constructor|]. cbn [p_grid p_keys y_used y_val]. split.
    { intros g'. destruct (Nat.eq_dec g' g) as [->|N]; [rewrite upd_at; split; [discriminate|now left]|].
      rewrite upd_off by assumption. cbn [In]. rewrite Ho. intuition congruence. }
    split.
    { intros g' m. destruct (Nat.eq_dec g' g) as [->|N].
      - rewrite upd_at. intros [= <-]. cbn [n_error n_key]. rewrite !upd_at. repeat (split; [auto|]). intros t. now apply Hz.
      - rewrite upd_off by assumption. intros E. destruct (Hm g' m E) as (A & B & C & D).
        rewrite !upd_off by (now apply (Hne g')). auto. }
    split.
    { intros g1 g2 m1 m2. destruct (Nat.eq_dec g1 g) as [->|N1], (Nat.eq_dec g2 g) as [->|N2];
        rewrite ?upd_at, ?upd_off by assumption; auto.
      - intros [= <-] E K. cbn in K. exfalso. apply (Hne g2 m2 E). congruence.
      - intros E [= <-] K. cbn in K. exfalso. now apply (Hne g1 m1 E).
      - apply Hinj. }
    split.
    { intros j. destruct (Nat.eq_dec j i) as [->|N].
      - intros _. exists g, (Numa i false). now rewrite upd_at.
      - rewrite upd_off by assumption. intros U. destruct (Hu j U) as (g' & m & E & K). exists g', m.
        rewrite upd_off; [auto|]. congruence. }
    { intros g'. destruct (Nat.eq_dec g' g) as [->|N]; [rewrite upd_at; discriminate|]. rewrite upd_off by assumption. apply Hz. }
  - destruct Hp as (Hg & Hp). apply Ho in Hg. destruct (p_grid p g) as [m|] eqn:Eg; [|congruence].
    destruct (Hm g m Eg) as (A & B & C & D). unfold numa_register. rewrite A, C. cbn [fst].
    apply (IH _ open (fun g' t' => if ((g =? g') && (t =? t'))%bool then ids else f g' t')); [|exact Hp].
    split; [exact Hnd|]. cbn [p_grid p_keys y_used y_val]. split; [exact Ho|]. split.
    { intros g' m' E. destruct (Hm g' m' E) as (A' & B' & C' & D'). repeat (split; [assumption|]). intros t'.
      destruct (Nat.eqb_spec g g') as [<-|N]; cbn [andb].
      - assert (m' = m) as -> by congruence. rewrite upd_at. unfold upd. rewrite (Nat.eqb_sym t' t). destruct (t =? t'); [reflexivity|apply D].
      - rewrite upd_off; [apply D'|]. intros K. apply N. symmetry. now apply (Hinj g' g m' m). }
    split; [exact Hinj|]. split; [exact Hu|]. intros g' E t'. destruct (Nat.eqb_spec g g') as [<-|N]; [congruence|]. now apply Hz.
  - destruct Hp as (Hg & Hp). apply Ho in Hg. destruct (p_grid p g) as [m|] eqn:Eg; [|congruence].
    destruct (Hm g m Eg) as (A & B & C & D).
    apply (IH _ (remove Nat.eq_dec g open) (fun g' t' => if g =? g' then (0, 0) else f g' t')); [|exact Hp].
    assert (Hne : forall g' m', g' <> g -> p_grid p g' = Some m' -> n_key m' <> n_key m).
    { intros g' m' N E K. apply N. now apply (Hinj g' g m' m). }
    unfold numa_delete. split; [|cbn [p_grid p_keys y_used y_val]; split; [|split; [|split; [|split]]]].
    + clear -Hnd. induction Hnd as [|x l Hx Hn IH]; cbn; [constructor|]. destruct (Nat.eq_dec g x); [exact IH|].
      constructor; [|exact IH]. intros Hin. apply in_remove in Hin. tauto.
    + intros g'. destruct (Nat.eq_dec g' g) as [->|N].
      * rewrite upd_at. split; [|congruence]. intros Hin. now apply remove_In in Hin.
      * rewrite upd_off by assumption. rewrite <- Ho. split; [intros Hin; now apply in_remove in Hin|intros Hin; now apply in_in_remove].
    + intros g' m'. destruct (Nat.eq_dec g' g) as [->|N]; [rewrite upd_at; discriminate|]. rewrite upd_off by assumption.
      intros E. destruct (Hm g' m' E) as (A' & B' & C' & D'). rewrite upd_off by (now apply (Hne g')).
      repeat (split; [assumption|]). intros t'. destruct (Nat.eqb_spec g g'); [congruence|]. apply D'.
    + intros g1 g2 m1 m2. destruct (Nat.eq_dec g1 g) as [->|N1]; [rewrite upd_at; discriminate|].
      destruct (Nat.eq_dec g2 g) as [->|N2]; [rewrite upd_at; discriminate|]. rewrite !upd_off by assumption. apply Hinj.
    + intros i. destruct (Nat.eq_dec i (n_key m)) as [->|N]; [rewrite upd_at; discriminate|]. rewrite upd_off by assumption.
      intros U. destruct (Hu i U) as (g' & m' & E & K). exists g', m'. rewrite upd_off; [auto|]. intros ->. congruence.
    + intros g' E t'. destruct (Nat.eqb_spec g g') as [<-|N]; [reflexivity|]. rewrite upd_off in E by congruence. now apply Hz.
Qed.

Lemma krun_inv l : proper kmax [] l -> kinv (krun kmax l) (opens [] l) (fun g t => stored l g t (0, 0)).
Proof.
  intros Hp. apply (krun_from l _ [] (fun _ _ => (0, 0))); [|exact Hp].
  split; [constructor|]. split; [split; [intros []|now intros []]|]. split; [discriminate|]. split; [discriminate|].
  split; [discriminate|]. reflexivity.
Qed.

Lemma ids_ok l g t : proper kmax [] l -> p_grid (krun kmax l) g <> None ->
  kids (krun kmax l) g t = Ok (stored l g t (0, 0)).
Proof.
  intros Hp Hg. destruct (krun_inv l Hp) as (_ & _ & Hm & _).
  unfold kids. destruct (p_grid (krun kmax l) g) as [m|] eqn:E; [|congruence]. destruct (Hm g m E) as (_ & _ & C & D).
  unfold numa_ids. rewrite C. now rewrite <- D.
Qed.

Lemma reg_ok l g t ids : proper kmax [] l -> In g (opens [] l) -> kreg (krun kmax l) g t ids = true.
Proof.
  intros Hp Hg. destruct (krun_inv l Hp) as (_ & Ho & Hm & _). apply Ho in Hg.
  unfold kreg. destruct (p_grid (krun kmax l) g) as [m|] eqn:E; [|congruence]. destruct (Hm g m E) as (A & _ & C & _).
  unfold numa_register. now rewrite A, C.
Qed.

(** All keys are in use: their number is the number of open grids. *)
Lemma all_used p open f : kinv p open f -> kmax <= length open -> find (fun i => negb (y_used (p_keys p) i)) (seq 0 kmax) = None.
Proof.
  intros (Hnd & Ho & Hm & Hinj & _) Hlen. destruct (find _ _) as [i|] eqn:E; [exfalso|reflexivity].
  apply find_some in E. destruct E as (Hi & E). apply in_seq in Hi. apply Bool.negb_true_iff in E.
  set (key g := match p_grid p g with Some m => n_key m | None => 0 end).
  assert (Hk : forall g, In g open -> exists m, p_grid p g = Some m /\ key g = n_key m).
  { intros g Hg. apply Ho in Hg. unfold key. destruct (p_grid p g) as [m|]; [now exists m|congruence]. }
  assert (Hn : NoDup (i :: map key open)).
  { constructor.
    - intros Hin. apply in_map_iff in Hin. destruct Hin as (g & K & Hg). destruct (Hk g Hg) as (m & Eg & Em).
      destruct (Hm g m Eg) as (_ & _ & U & _). congruence.
    - clear - Hnd Hk Hinj. induction Hnd as [|x l Hx Hn IH]; cbn; constructor.
      + intros Hin. apply in_map_iff in Hin. destruct Hin as (g & K & Hg).
        destruct (Hk g (or_intror Hg)) as (m & Eg & Em), (Hk x (or_introl eq_refl)) as (m' & Eg' & Em').
        apply Hx. rewrite (Hinj x g m' m Eg' Eg); [exact Hg|congruence].
      + apply IH. intros g Hg. apply Hk. now right. }
  assert (Hincl : incl (i :: map key open) (seq 0 kmax)).
  { intros j [<-|Hj]; apply in_seq; [lia|]. apply in_map_iff in Hj. destruct Hj as (g & K & Hg).
    destruct (Hk g Hg) as (m & Eg & Em). destruct (Hm g m Eg) as (_ & B & _). lia. }
  apply NoDup_incl_length in Hincl; [|exact Hn]. cbn [length] in Hincl. rewrite seq_length, map_length in Hincl. lia.
Qed.

Lemma krun_snoc l o : krun kmax (l ++ [o]) = kstep kmax (krun kmax l) o.
Proof. unfold krun. now rewrite fold_left_app. Qed.

Lemma refused l g junk : proper kmax [] l -> kmax <= length (opens [] l) -> ~ In g (opens [] l) ->
  let p := krun kmax (l ++ [PNew g junk]) in
  (forall t ids, kreg p g t ids = false) /\
  (forall t ids g' t', In g' (opens [] l) -> kids (kstep kmax p (PReg g t ids)) g' t' = kids (krun kmax l) g' t').
Proof.
  intros Hp Hlen Hg p. pose proof (krun_inv l Hp) as Hi. pose proof Hi as (_ & Ho & _).
  assert (Eg : p_grid (krun kmax l) g = None).
  { destruct (p_grid (krun kmax l) g) as [m|] eqn:E; [|reflexivity]. exfalso. apply Hg, Ho. congruence. }
  assert (Ep : p = Proc (p_keys (krun kmax l)) (upd (p_grid (krun kmax l)) g (Some (Numa junk true)))).
  { unfold p. rewrite krun_snoc. cbn [kstep]. rewrite Eg. unfold numa_new. now rewrite (all_used _ _ _ Hi Hlen). }
  split.
  - intros t ids. rewrite Ep. unfold kreg. cbn [p_grid p_keys]. now rewrite upd_at.
  - intros t ids g' t' Hg'. rewrite Ep. cbn [kstep p_grid p_keys]. rewrite upd_at. unfold numa_register. cbn [n_error fst].
    unfold kids. cbn [p_grid p_keys]. rewrite upd_off; [reflexivity|]. intros ->. now apply Hg.
Qed.
End Keys.

(** ** One grid too many *)
Lemma find_first used m n : m <= n -> (forall i, used i = true <-> i < m) ->
  find (fun i => negb (used i)) (seq 0 n) = if m =? n then None else Some m.
Proof.
  intros Hm Hu. assert (forall k s, s + k = n -> s <= m -> find (fun i => negb (used i)) (seq s k) = if m =? n then None else Some m) as H.
  { induction k as [|k IH]; intros s Hs Hle.
    - cbn. assert (m = n) as -> by lia. now rewrite Nat.eqb_refl.
    - cbn [seq find]. destruct (used s) eqn:E; cbn [negb].
      + apply Hu in E. apply IH; lia.
      + assert (~ s < m) by (rewrite <- Hu; congruence). assert (s = m) as -> by lia.
        destruct (Nat.eqb_spec m n); [lia|reflexivity]. }
  apply (H n 0); lia.
Qed.

Lemma opened kmax m : m <= kmax -> let p := krun kmax (map (fun g => PNew g 0) (seq 0 m)) in
  (forall i, y_used (p_keys p) i = true <-> i < m) /\
  (forall g, p_grid p g = if g <? m then Some (Numa g false) else None).
Proof.
  induction m as [|m IH]; intros Hm p.
  - split; [intros i; cbn; split; [discriminate|lia]|reflexivity].
  - unfold p. rewrite seq_S, map_app. unfold krun. rewrite fold_left_app. cbn [map fold_left Nat.add].
    destruct (IH ltac:(lia)) as (Hu & Hg). unfold krun in Hu, Hg.
    set (q := fold_left _ _ _) in *. cbn [kstep]. rewrite Hg, Nat.ltb_irrefl. unfold numa_new.
    rewrite (find_first _ m kmax ltac:(lia) Hu). destruct (Nat.eqb_spec m kmax); [lia|]. cbn [p_keys p_grid y_used]. split.
    + intros i. unfold upd. destruct (Nat.eqb_spec i m); [split; [lia|reflexivity]|]. rewrite Hu. lia.
    + intros g. unfold upd. destruct (Nat.eqb_spec g m) as [->|N].
      * now replace (m <? S m) with true by (symmetry; apply Nat.ltb_lt; lia).
      * rewrite Hg. destruct (Nat.ltb_spec g m), (Nat.ltb_spec g (S m)); try lia; reflexivity.
Qed.

(** All keys are in use, one more grid is created and closed. *)
Definition too_many (kmax g : nat) : list kop := map (fun g => PNew g 0) (seq 0 kmax) ++ [PNew kmax g; PClose kmax].

Lemma too_many_state kmax g : g < kmax -> let p := krun kmax (too_many kmax g) in
  (forall i, y_used (p_keys p) i = true <-> i < kmax /\ i <> g) /\
  (forall h, p_grid p h = if h <? kmax then Some (Numa h false) else None).
Proof.
  intros Hlt p. destruct (opened kmax kmax (le_n _)) as (Hu & Hg). unfold p, too_many, krun. rewrite fold_left_app.
  unfold krun in Hu, Hg. set (q := fold_left _ (map _ _) _) in *. cbn [fold_left kstep].
  rewrite Hg, Nat.ltb_irrefl. unfold numa_new. rewrite (find_first _ kmax kmax (le_n _) Hu), Nat.eqb_refl.
  cbn [p_grid p_keys]. rewrite upd_at. unfold numa_delete. cbn [n_key p_keys p_grid y_used]. split.
  - intros i. unfold upd. destruct (Nat.eqb_spec i g); [split; [discriminate|lia]|]. rewrite Hu. tauto.
  - intros h. unfold upd. destruct (Nat.eqb_spec h kmax) as [->|N]; [now rewrite Nat.ltb_irrefl|apply Hg].
Qed.

Lemma too_many_ub kmax g t : g < kmax -> kids (krun kmax (too_many kmax g)) g t = Ub.
Proof.
  intros Hlt. destruct (too_many_state kmax g Hlt) as (Hu & Hg). unfold kids. rewrite Hg.
  replace (g <? kmax) with true by (symmetry; now apply Nat.ltb_lt). unfold numa_ids. cbn [n_key].
  destruct (y_used _ g) eqn:E; [|reflexivity]. apply Hu in E. lia.
Qed.

(** The next grid gets the same key: what a thread registers there replaces what it sees here. *)
Lemma too_many_shared kmax g t ids : g < kmax ->
  kids (krun kmax (too_many kmax g ++ [PNew kmax 0; PReg kmax t ids])) g t = Ok ids.
Proof.
  intros Hlt. destruct (too_many_state kmax g Hlt) as (Hu & Hg). unfold krun in *. rewrite fold_left_app.
  set (p := fold_left _ (too_many _ _) _) in *. cbn [fold_left kstep]. rewrite Hg, Nat.ltb_irrefl. unfold numa_new.
  assert (find (fun i => negb (y_used (p_keys p) i)) (seq 0 kmax) = Some g) as ->.
  { destruct (find _ _) as [i|] eqn:E.
    - apply find_some in E. destruct E as (Hi & E). apply in_seq in Hi. apply Bool.negb_true_iff in E.
      destruct (Nat.eq_dec i g) as [->|N]; [reflexivity|].
      assert (y_used (p_keys p) i = true) by (apply Hu; lia). congruence.
    - exfalso. eapply find_none in E; [|apply in_seq; split; [apply Nat.le_0_l|exact Hlt]].
      apply Bool.negb_false_iff in E. apply Hu in E. lia. }
  cbn [p_grid p_keys]. rewrite upd_at. unfold numa_register. cbn [n_error n_key y_used]. rewrite upd_at.
  unfold kids. cbn [fst p_grid p_keys]. rewrite upd_off by lia. rewrite Hg.
  replace (g <? kmax) with true by (symmetry; now apply Nat.ltb_lt).
  unfold numa_ids. cbn [n_key y_used y_val]. now rewrite !upd_at.
Qed.
