(** * Facts about thread registration and NUMA memory *)
From Verif Require Export NumaModel SyncFacts.
Require Import Lia Bool NArith ZArith.

(** ** Sequential part *)
Lemma nfind_app : forall l l' x,
  nfind (l ++ l') x = match nfind l x with Some v => Some v | None => nfind l' x end.
Proof.
  induction l as [|[y v] l IH]; intros l' x; cbn; [reflexivity|]. destruct (y =? x); auto.
Qed.
Lemma nfind_none : forall l x, nfind l x = None <-> ~ In x (map fst l).
Proof.
  induction l as [|[y v] l IH]; intros x; cbn; [tauto|].
  destruct (Nat.eqb_spec y x) as [->|]; [intuition discriminate|]. rewrite IH. tauto.
Qed.
(** The domain ids are the positions in the table. *)
Lemma nfind_nth : forall l k x, map snd l = seq k (length l) -> NoDup (map fst l) ->
  forall v, nfind l x = Some v <-> (k <= v /\ nth_error (map fst l) (v - k) = Some x).
Proof.
  induction l as [|[y v0] l IH]; intros k x Hs Hd v; cbn in *.
  - split; [discriminate|]. intros [_ H]. destruct (v - k); discriminate.
  - injection Hs as -> Hs. inversion Hd as [|? ? Hy Hd']; subst. destruct (Nat.eqb_spec y x) as [->|Hne].
    + split.
      * injection 1 as ->. rewrite Nat.sub_diag. auto.
      * intros [Hk Hn]. destruct (v - k) as [|m] eqn:E; [f_equal; lia|].
        cbn in Hn. apply nth_error_In in Hn. contradiction.
    + rewrite (IH (S k) x Hs Hd' v). split; intros [Hk Hn].
      * split; [lia|]. replace (v - k) with (S (v - S k)) by lia. exact Hn.
      * destruct (v - k) as [|m] eqn:E.
        -- cbn in Hn. congruence.
        -- split; [lia|]. replace (v - S k) with m by lia. exact Hn.
Qed.

Lemma nodup_snoc : forall (l : list nat) t, NoDup l -> ~ In t l -> NoDup (l ++ [t]).
Proof.
  intros l t H H'. apply (NoDup_Add (a := t) (l := l)); [|auto].
  pose proof (Add_app t l []) as X. rewrite app_nil_r in X. exact X.
Qed.
Lemma nset_length : forall l i, length (nset l i) = length l.
Proof. induction l; destruct i; cbn; auto. Qed.
Lemma nset_nth : forall l i j, nth_error (nset l i) j = if j =? i then option_map (fun _ => true) (nth_error l j) else nth_error l j.
Proof.
  induction l as [|b l IH]; intros i j; cbn.
  - destruct j; cbn; [destruct i; reflexivity|]. destruct i; [reflexivity|]. destruct (j =? i); reflexivity.
  - destruct i, j; cbn; auto.
Qed.
Lemma nresize_one : forall l, nresize l (length l + 1) = l ++ [false].
Proof.
  intros l. unfold nresize. destruct (Nat.ltb_spec (length l) (length l + 1)); [|lia].
  replace (length l + 1 - length l) with 1 by lia. reflexivity.
Qed.

Section Seq.
Variable total : nat.
Variable detect : bool.
Variable node : nat -> nat.
Definition eff (t : nat) : nat := if detect then node t else 0.

Record ninv (arr : list nat) (s : nst) (reg : nat -> option nreg) : Prop := {
  ni_len : length (n_masters s) = length arr;
  ni_snd : map snd (n_domains s) = seq 0 (length (n_domains s));
  ni_fst : NoDup (map fst (n_domains s));
  ni_in : forall x, In x (map fst (n_domains s)) <-> exists t, In t arr /\ eff t = x;
  ni_reg : forall i t, nth_error arr i = Some t -> exists r, reg t = Some r /\ r_tid r = i /\
           nfind (n_domains s) (eff t) = Some (r_dom r) /\
           nth_error (n_masters s) i = Some (r_master r) /\
           (r_master r = true <-> forall j u, j < i -> nth_error arr j = Some u -> eff u <> eff t);
  ni_ready : n_ready s = true <-> total <= length arr;
  ni_nodup : NoDup arr;
  ni_none : forall t, ~ In t arr -> reg t = None;
  ni_first : forall t, nth_error arr 0 = Some t -> nth_error (map fst (n_domains s)) 0 = Some (eff t)
}.

Lemma ninv_init : 0 < total -> ninv [] ninit (fun _ => None).
Proof.
  intros Ht. split; cbn; auto.
  - constructor.
  - intros x. split; [tauto|]. intros (t & [] & _).
  - intros i t H. destruct i; discriminate.
  - split; [discriminate|lia].
  - constructor.
  - discriminate.
Qed.

Lemma ninv_step : forall arr s reg t, ninv arr s reg -> ~ In t arr -> 0 < total ->
  ninv (arr ++ [t]) (fst (nregister total detect s (length arr) (node t)))
       (upd reg t (Some (snd (nregister total detect s (length arr) (node t))))).
Proof.
  intros arr s reg t I Hin Htot. destruct I as [A1 A2 A3 A4 A5 A6 A7 A8 A9].
  unfold nregister. cbv zeta. fold (eff t). rewrite <- A1, nresize_one, A1.
  assert (Hready : (if total - 1 <=? length arr then true else n_ready s) = true <-> total <= length (arr ++ [t])).
  { rewrite app_length. cbn. destruct (Nat.leb_spec (total - 1) (length arr)).
    - split; [lia|auto].
    - rewrite A6. lia. }
  assert (Hnd : NoDup (arr ++ [t])).
  { apply nodup_snoc; assumption. }
  assert (Hnth : forall i u, nth_error (arr ++ [t]) i = Some u ->
            (nth_error arr i = Some u /\ i < length arr /\ u <> t) \/ (i = length arr /\ u = t)).
  { intros i u H. destruct (le_lt_dec (length arr) i) as [Hi|Hi].
    - right. rewrite nth_error_app2 in H by assumption.
      destruct (i - length arr) as [|m] eqn:E; cbn in H; [injection H as ->; split; [lia|reflexivity]|].
      destruct m; discriminate.
    - left. rewrite nth_error_app1 in H by assumption. split; [assumption|]. split; [assumption|].
      intros ->. apply Hin. eapply nth_error_In; eauto. }
  assert (Hold : forall j u, j < length arr -> nth_error (arr ++ [t]) j = Some u <-> nth_error arr j = Some u).
  { intros j u Hj. rewrite nth_error_app1 by assumption. reflexivity. }
  destruct (nfind (n_domains s) (eff t)) as [d|] eqn:F; cbn [fst snd].
  - (* known node *)
    assert (Hk : In (eff t) (map fst (n_domains s))).
    { destruct (in_dec Nat.eq_dec (eff t) (map fst (n_domains s))) as [|H]; [assumption|].
      apply nfind_none in H. congruence. }
    split; cbn [n_masters n_domains n_ready]; auto.
    + rewrite !app_length, A1. reflexivity.
    + intros x. rewrite A4. split.
      * intros (u & Hu & E). exists u. split; [apply in_or_app; auto|assumption].
      * intros (u & Hu & E). apply in_app_or in Hu. destruct Hu as [Hu|[<-|[]]]; [eauto|].
        subst x. apply A4. assumption.
    + intros i u H. destruct (Hnth i u H) as [(H1 & Hi & Hu)|(-> & ->)].
      * destruct (A5 i u H1) as (r & B1 & B2 & B3 & B4 & B5). exists r.
        rewrite upd_ne by assumption. split; [assumption|]. split; [assumption|]. split; [assumption|].
        split; [rewrite nth_error_app1 by lia; assumption|].
        rewrite B5. split; intros G j v Hj Hv; apply (G j v Hj); apply Hold; auto; lia.
      * rewrite upd_eq. eexists; split; [reflexivity|]. cbn. split; [reflexivity|]. split; [assumption|].
        split; [rewrite nth_error_app2 by lia; replace (length arr - length (n_masters s)) with 0 by lia; reflexivity|].
        split; [discriminate|]. intros G. exfalso.
        apply A4 in Hk. destruct Hk as (v & Hv & E). apply In_nth_error in Hv. destruct Hv as [j Hj].
        assert (j < length arr) by (apply nth_error_Some; congruence).
        apply (G j v); auto. apply Hold; auto.
    + intros u Hu. rewrite upd_ne; [apply A8; intros X; apply Hu, in_or_app; auto|].
      intros ->. apply Hu, in_or_app. cbn; auto.
    + intros u Hu. destruct (Hnth 0 u Hu) as [(H1 & _)|(H1 & ->)]; [apply A9; assumption|].
      destruct arr; [|discriminate]. apply A4 in Hk. destruct Hk as (? & [] & _).
  - (* new node *)
    assert (Hk : ~ In (eff t) (map fst (n_domains s))) by (apply nfind_none; assumption).
    split; cbn [n_masters n_domains n_ready]; auto.
    + rewrite nset_length, !app_length, A1. reflexivity.
    + rewrite map_app, A2, app_length, seq_app. reflexivity.
    + rewrite map_app. cbn [map fst]. apply nodup_snoc; assumption.
    + intros x. rewrite map_app, in_app_iff. cbn [map fst In]. rewrite A4. split.
      * intros [(u & Hu & E)|[<-|[]]]; [exists u|exists t]; (split; [apply in_or_app; cbn; auto|auto]).
      * intros (u & Hu & E). apply in_app_or in Hu. destruct Hu as [Hu|[<-|[]]]; eauto.
    + intros i u H. destruct (Hnth i u H) as [(H1 & Hi & Hu)|(-> & ->)].
      * destruct (A5 i u H1) as (r & B1 & B2 & B3 & B4 & B5). exists r.
        rewrite upd_ne by assumption. split; [assumption|]. split; [assumption|].
        split; [rewrite nfind_app, B3; reflexivity|].
        split.
        { rewrite nset_nth. destruct (Nat.eqb_spec i (length arr)); [lia|].
          rewrite nth_error_app1 by lia; assumption. }
        rewrite B5. split; intros G j v Hj Hv; apply (G j v Hj); apply Hold; auto; lia.
      * rewrite upd_eq. eexists; split; [reflexivity|]. cbn [r_tid r_dom r_master]. split; [reflexivity|].
        split; [rewrite nfind_app, F; cbn; rewrite Nat.eqb_refl; reflexivity|].
        split.
        { rewrite nset_nth, Nat.eqb_refl, nth_error_app2 by lia.
          replace (length arr - length (n_masters s)) with 0 by lia. reflexivity. }
        split; [|reflexivity]. intros _ j v Hj Hv E. apply Hk. rewrite <- E. apply A4. exists v.
        split; [|reflexivity]. apply Hold in Hv; [|assumption]. eapply nth_error_In; eauto.
    + intros u Hu. rewrite upd_ne; [apply A8; intros X; apply Hu, in_or_app; auto|].
      intros ->. apply Hu, in_or_app. cbn; auto.
    + intros u Hu. rewrite map_app. destruct (Hnth 0 u Hu) as [(H1 & _)|(H1 & ->)].
      * specialize (A9 u H1). destruct (map fst (n_domains s)); [discriminate|exact A9].
      * destruct arr; [|discriminate]. destruct (map fst (n_domains s)) as [|x l] eqn:X; [reflexivity|].
        exfalso. destruct (proj1 (A4 x) (or_introl eq_refl)) as (? & [] & _).
Qed.
End Seq.

(** ** Concurrent part *)
Section Conc.
Context {V : Type} (c : ycfg V) (detect : bool) (node : nat -> nat).
Notation N := (y_n c).

Definition arrivedb (s : yst V) (k t : nat) : bool :=
  (k <? y_round (y_thr s t)) || ((k =? y_round (y_thr s t)) && entered (y_pc (y_thr s t))).
Lemma arrivedb_spec : forall s k t, arrivedb s k t = true <-> arrived s t k.
Proof.
  intros s k t. unfold arrivedb, arrived. rewrite orb_true_iff, andb_true_iff, Nat.ltb_lt, Nat.eqb_eq. tauto.
Qed.

(** Only the step which calls [waitBarrier] makes a thread arrive. *)
Lemma arrived_wake : forall (p p' : ypc) k (x : ythr V), entered p' = entered p -> (p = YSleepF \/ p = YSleepC \/ p = YSleepL) ->
  let x' := if ypc_eq (y_pc x) p then YThr p' (y_round x) (y_var x) (y_num x) (y_out x) else x in
  (k < y_round x' \/ (k = y_round x' /\ entered (y_pc x') = true)) <->
  (k < y_round x \/ (k = y_round x /\ entered (y_pc x) = true)).
Proof.
  intros p p' k x H Hp x'. subst x'. destruct (ypc_eq (y_pc x) p) eqn:E; [|tauto].
  assert (y_pc x = p) by (destruct (y_pc x), Hp as [->|[->| ->]]; try discriminate; reflexivity).
  cbn. subst p. rewrite H. tauto.
Qed.

Lemma wake_round : forall (s : yst V) p p' t, y_round (y_thr (y_wake s p p') t) = y_round (y_thr s t).
Proof. intros. cbn [y_thr y_wake]. destruct (ypc_eq _ _); reflexivity. Qed.

Lemma arrived_step : forall s a s' u k, ystep c s a = Some (Ok s') ->
  (arrived s' u k <-> arrived s u k \/
   (a = YStep u /\ y_pc (y_thr s u) = YIn /\ y_round (y_thr s u) = k)).
Proof.
  assert (G : forall (s : yst V) (f : nat -> ythr V) t x' u k m n l i d a,
     a <> YStep t \/ y_pc (y_thr s t) <> YIn ->
     (a = YStep u -> u = t) ->
     ((k < y_round x' \/ (k = y_round x' /\ entered (y_pc x') = true)) <->
      (k < y_round (y_thr s t) \/ (k = y_round (y_thr s t) /\ entered (y_pc (y_thr s t)) = true))) ->
     (forall v, v <> t -> ((k < y_round (f v) \/ (k = y_round (f v) /\ entered (y_pc (f v)) = true)) <->
      (k < y_round (y_thr s v) \/ (k = y_round (y_thr s v) /\ entered (y_pc (y_thr s v)) = true)))) ->
     (arrived (YSt m n l i d (upd f t x')) u k <-> arrived s u k \/
      (a = YStep u /\ y_pc (y_thr s u) = YIn /\ y_round (y_thr s u) = k))).
  { intros s f t x' u k m n l i d a Ha Hau H H'. unfold arrived. cbn [y_thr].
    destruct (Nat.eq_dec u t) as [->|Hne].
    - rewrite upd_eq, H. intuition congruence.
    - rewrite upd_ne by assumption. rewrite (H' u Hne). intuition congruence. }
  intros s a s' u k E. destruct a as [t|t]; cbn [ystep] in E; (destruct (Nat.ltb_spec t N) as [Ht|]; [|discriminate]).
  - unfold ystep_thr in E. cbv zeta in E. destruct (y_pc (y_thr s t)) eqn:Hp; try discriminate E.
    + destruct (_ <? _); [|discriminate]. destruct (y_mutex s); [discriminate|]. injection E as <-.
      cbn [y_fin y_lock]. destruct (y_fin s); apply G; try (right; congruence); try congruence; try tauto;
      cbn; rewrite Hp; cbn; tauto.
    + destruct (y_mutex s); [discriminate|]. injection E as <-.
      apply G; try (right; congruence); try congruence; try tauto; cbn; rewrite Hp; cbn; tauto.
    + (* YIn *)
      assert (X : y_round (y_thr s' t) = y_round (y_thr s t) /\ entered (y_pc (y_thr s' t)) = true /\
              forall v, v <> t -> (arrived s' v k <-> arrived s v k)).
      { destruct (_ =? _); injection E as <-.
        - unfold y_goto, y_set, y_wake, arrived; cbn [y_thr]. rewrite upd_eq. cbn [y_round y_pc]. rewrite upd_eq.
          cbn [y_pc ypc_eq y_round]. split; [reflexivity|]. split; [reflexivity|].
          intros v Hv. rewrite !upd_ne by assumption. apply arrived_wake; auto.
        - unfold y_goto, y_set, y_lock, arrived; cbn [y_thr]. rewrite upd_eq. cbn [y_round y_pc]. rewrite upd_eq.
          cbn [y_pc ypc_eq y_round]. split; [reflexivity|]. split; [reflexivity|].
          intros v Hv. rewrite !upd_ne by assumption. tauto. }
      destruct X as (X1 & X2 & X3). destruct (Nat.eq_dec u t) as [->|Hne].
      * unfold arrived. rewrite X1, X2, Hp. cbn. intuition.
      * rewrite (X3 u Hne). intuition congruence.
    + destruct (y_mutex s); [discriminate|]. injection E as <-.
      apply G; try (right; congruence); try congruence; try tauto; cbn; rewrite Hp; cbn; tauto.
    + destruct (_ && _)%bool; injection E as <-;
      apply G; try (right; congruence); try congruence; try tauto; cbn; rewrite Hp; cbn; tauto.
    + destruct (y_mutex s); [discriminate|]. injection E as <-.
      apply G; try (right; congruence); try congruence; try tauto; cbn; rewrite Hp; cbn; tauto.
    + injection E as <-. set (s1 := YSt _ _ _ _ _ _). set (b := andb _ _).
      set (s2 := if b then y_wake s1 YSleepL YWakeL else s1).
      assert (A2 : forall v, arrived s2 v k <-> arrived s v k).
      { intros v. subst s2. destruct b; unfold arrived; cbn [y_thr y_wake s1]; [|tauto]. apply arrived_wake; auto. }
      set (s3 := if y_synced s2 =? 0 then _ else s2).
      assert (A3 : forall v, arrived s3 v k <-> arrived s v k).
      { intros v. rewrite <- A2. subst s3. destruct (y_synced s2 =? 0); unfold arrived; cbn [y_thr y_wake]; [|tauto].
        apply arrived_wake; auto. }
      assert (A4 : y_round (y_thr s3 t) = y_round (y_thr s t)).
      { subst s3. destruct (y_synced s2 =? 0); rewrite ?wake_round; cbn [y_thr];
        subst s2; destruct b; rewrite ?wake_round; reflexivity. }
      apply G; try (right; congruence); try congruence.
      * cbn [y_round y_pc]. rewrite A4, Hp. cbn. tauto.
      * intros v Hv. apply A3.
    + destruct (y_root c _).
      * destruct (y_data s) as [[r k']|]; [|discriminate]. destruct (_ =? _); [|discriminate].
        injection E as <-. apply G; try (right; congruence); try congruence; try tauto; cbn; rewrite Hp; cbn; tauto.
      * injection E as <-. apply G; try (right; congruence); try congruence; try tauto; cbn; rewrite Hp; cbn; tauto.
    + injection E as <-. apply G; try (right; congruence); try congruence; try tauto. cbn [y_round y_pc]. rewrite Hp. cbn.
      split; [|lia]. intros [H|(_ & H)]; [lia|discriminate].
  - unfold ystep_spur in E. destruct (y_spurious c); [|discriminate].
    destruct (y_pc (y_thr s t)) eqn:Hp; try discriminate E; injection E as <-;
    apply G; try (left; discriminate); try congruence; try tauto; cbn; rewrite Hp; cbn; tauto.
Qed.

Lemma count_nodup : forall n l p, NoDup l -> (forall t, In t l <-> t < n /\ p t = true) -> length l = cnt p n.
Proof.
  intros n l p Hd H.
  assert (A : length l = length (filter p (seq 0 n))).
  { apply Nat.le_antisymm; apply NoDup_incl_length.
    - exact Hd.
    - intros t Ht. apply filter_In. rewrite in_seq. apply H in Ht. intuition lia.
    - apply NoDup_filter, seq_NoDup.
    - intros t Ht. apply filter_In in Ht. rewrite in_seq in Ht. apply H. intuition lia. }
  rewrite A. clear. induction n; [reflexivity|].
  rewrite seq_S, filter_app, app_length. cbn. destruct (p n); cbn; lia.
Qed.

Definition nstate (s : nsys V) : Prop := exists l, nrun c detect node (nsys_init c) l = Some (Ok s).

Lemma nrun_sync : forall l s s', nrun c detect node s l = Some (Ok s') -> yrun c (ns_sync s) l = Some (Ok (ns_sync s')).
Proof.
  induction l as [|a l IH]; intros s s' E; cbn in E |- *; [congruence|].
  unfold nstep in E. destruct (ystep c (ns_sync s) a) as [[y|]|]; try discriminate.
  destruct a as [t|t].
  - destruct (y_pc (y_thr (ns_sync s) t)); try (apply (IH _ _ E)).
    destruct (y_round (y_thr (ns_sync s) t)); try (apply (IH _ _ E)).
    destruct (nregister _ _ _ _ _). apply (IH _ _ E).
  - apply (IH _ _ E).
Qed.
(** Registration does not restrict the schedules. *)
Lemma nrun_of_sync : forall l s y, yrun c (ns_sync s) l = Some (Ok y) ->
  exists s', nrun c detect node s l = Some (Ok s') /\ ns_sync s' = y.
Proof.
  induction l as [|a l IH]; intros s y E; cbn in E |- *; [injection E as <-; eauto|].
  unfold nstep. destruct (ystep c (ns_sync s) a) as [[y1|]|] eqn:Ea; try discriminate.
  destruct a as [t|t].
  - destruct (y_pc (y_thr (ns_sync s) t)); try (apply IH; exact E).
    destruct (y_round (y_thr (ns_sync s) t)); try (apply IH; exact E).
    destruct (nregister _ _ _ _ _). apply IH; exact E.
  - apply IH; exact E.
Qed.

Section Safe.
Hypothesis W : wf_ycfg c.
Hypothesis Hsp : y_spurious c = false.

Definition nlink (arr : list nat) (s : nsys V) : Prop :=
  ninv N detect node arr (ns_numa s) (ns_reg s) /\
  (forall t, In t arr <-> t < N /\ arrived (ns_sync s) t 0).

Lemma nlink_step : forall arr s a s' K, yinv c K (ns_sync s) -> nlink arr s ->
  nstep c detect node s a = Some (Ok s') -> exists arr', nlink arr' s'.
Proof.
  intros arr s a s' K I [L1 L2] E. unfold nstep in E.
  destruct (ystep c (ns_sync s) a) as [[y|]|] eqn:Ea; try discriminate.
  pose proof (fun u => arrived_step (ns_sync s) a y u 0 Ea) as A.
  assert (Skip : (forall u, ~ (a = YStep u /\ y_pc (y_thr (ns_sync s) u) = YIn /\ y_round (y_thr (ns_sync s) u) = 0)) ->
                 nlink arr (NSys y (ns_numa s) (ns_reg s))).
  { intros H. split; [exact L1|]. intros u. cbn. rewrite (A u), L2. pose proof (H u). tauto. }
  destruct a as [t|t].
  - destruct (y_pc (y_thr (ns_sync s) t)) eqn:Hp;
      try (injection E as <-; exists arr; apply Skip; intros u (X & Y & _); congruence).
    destruct (y_round (y_thr (ns_sync s) t)) eqn:Hr;
      try (injection E as <-; exists arr; apply Skip; intros u (X & _ & Y); congruence).
    assert (Ht : t < N).
    { cbn [ystep] in Ea. destruct (Nat.ltb_spec t N); [assumption|discriminate]. }
    assert (Hna : ~ arrived (ns_sync s) t 0).
    { unfold arrived. rewrite Hr, Hp. intros [X|[_ X]]; [lia|discriminate]. }
    assert (Hin : ~ In t arr) by (rewrite L2; tauto).
    (* the number of arrived threads *)
    pose proof (to_phase _ _ _ _ _ (yi_thr _ _ _ I t Ht)) as Hok. rewrite Hp, Hr in Hok.
    destruct (y_fin (ns_sync s)) eqn:Hf; [contradiction|]. cbn in Hok. subst K.
    assert (Hlen : length arr = y_synced (ns_sync s)).
    { rewrite (yi_synced _ _ _ I). apply count_nodup; [apply L1|].
      intros u. rewrite L2. split; intros [Hu X]; (split; [assumption|]).
      - pose proof (to_phase _ _ _ _ _ (yi_thr _ _ _ I u Hu)) as Y. rewrite Hf in Y.
        unfold arrived in X. destruct (y_pc (y_thr (ns_sync s) u)); cbn in Y, X; try contradiction;
          destruct X as [X|[_ X]]; try discriminate; try lia; reflexivity.
      - pose proof (to_phase _ _ _ _ _ (yi_thr _ _ _ I u Hu)) as Y. rewrite Hf in Y.
        unfold arrived. destruct (y_pc (y_thr (ns_sync s) u)); cbn in Y, X; try contradiction; try discriminate.
        right. auto. }
    rewrite <- Hlen in E.
    pose proof (ninv_step N detect node arr _ _ t L1 Hin (proj1 W)) as M.
    destruct (nregister N detect (ns_numa s) (length arr) (node t)) as [n' r]. cbn [fst snd] in M.
    injection E as <-. exists (arr ++ [t]). split; [exact M|]. cbn.
    intros u. rewrite in_app_iff, (A u), L2. cbn [In]. split.
    + intros [[X Y]|[<-|[]]]; [tauto|]. split; [assumption|]. right. auto.
    + intros [X [Y|(Y & _)]]; [tauto|]. right. left. congruence.
  - injection E as <-. exists arr. apply Skip. intros u (X & _). discriminate.
Qed.

Lemma nlink_run : forall l s s' arr K, yinv c K (ns_sync s) -> nlink arr s ->
  nrun c detect node s l = Some (Ok s') -> exists arr', nlink arr' s'.
Proof.
  induction l as [|a l IH]; intros s s' arr K I L E; cbn in E.
  - injection E as <-. eauto.
  - destruct (nstep c detect node s a) as [[s1|]|] eqn:Ea; try discriminate.
    destruct (nlink_step arr s a s1 K I L Ea) as [arr1 L1].
    assert (Y : ystep c (ns_sync s) a = Some (Ok (ns_sync s1))).
    { pose proof (nrun_sync [a] s s1) as X. cbn in X. rewrite Ea in X. specialize (X eq_refl).
      destruct (ystep c (ns_sync s) a) as [[?|]|]; congruence. }
    destruct (yinv_step c K _ a _ W Hsp I Y) as (y' & K' & Q & I').
    injection Q as <-. eapply IH; eauto.
Qed.

Lemma nstate_link : forall s, nstate s -> exists arr, nlink arr s.
Proof.
  intros s [l E]. apply (nlink_run l (nsys_init c) s [] 0); auto.
  - apply yinv_init, W.
  - split; [apply ninv_init, W|]. cbn. intros t. split; [tauto|].
    intros (_ & [X|[_ X]]); cbn in X; [lia|discriminate].
Qed.

(** All threads have returned from the registration. *)
Definition all_registered (s : nsys V) : Prop := forall t, t < N -> returned (ns_sync s) t 0.

Lemma all_arrived : forall s arr, nlink arr s -> all_registered s ->
  (forall t, In t arr <-> t < N) /\ length arr = N.
Proof.
  intros s arr [L1 L2] H.
  assert (A : forall t, In t arr <-> t < N).
  { intros t. rewrite L2. split; [tauto|]. intros X. split; [assumption|]. left. apply (H t X). }
  split; [exact A|].
  rewrite (count_nodup N arr (fun _ => true)); [|apply L1|].
  - apply cnt_all. auto.
  - intros t. rewrite A. tauto.
Qed.

Lemma link_reg : forall s arr t, nlink arr s -> all_registered s -> t < N ->
  exists i r, nth_error arr i = Some t /\ ns_reg s t = Some r /\ r_tid r = i.
Proof.
  intros s arr t L H Ht. destruct (all_arrived s arr L H) as [A _].
  apply A in Ht. apply In_nth_error in Ht. destruct Ht as [i Hi].
  destruct L as [L1 _]. destruct (ni_reg _ _ _ _ _ _ L1 i t Hi) as (r & B1 & B2 & _). eauto.
Qed.

Theorem reg_ids : forall s, nstate s -> all_registered s ->
  (forall t, t < N -> exists r, ns_reg s t = Some r /\ r_tid r < N) /\
  (forall i, i < N -> exists t r, t < N /\ ns_reg s t = Some r /\ r_tid r = i) /\
  (forall t u r r', t < N -> u < N -> ns_reg s t = Some r -> ns_reg s u = Some r' -> r_tid r = r_tid r' -> t = u).
Proof.
  intros s E H. destruct (nstate_link s E) as [arr L]. destruct (all_arrived s arr L H) as [A Len].
  split; [|split].
  - intros t Ht. destruct (link_reg s arr t L H Ht) as (i & r & Hi & Hr & <-). exists r. split; [assumption|].
    rewrite <- Len. apply nth_error_Some. congruence.
  - intros i Hi. rewrite <- Len in Hi. apply nth_error_Some in Hi.
    destruct (nth_error arr i) as [t|] eqn:X; [|congruence].
    destruct (ni_reg _ _ _ _ _ _ (proj1 L) i t X) as (r & B1 & B2 & _).
    exists t, r. split; [apply A; eapply nth_error_In; eauto|auto].
  - intros t u r r' Ht Hu Hr Hr' Eq.
    destruct (link_reg s arr t L H Ht) as (i & r1 & Hi & Hr1 & <-).
    destruct (link_reg s arr u L H Hu) as (j & r2 & Hj & Hr2 & <-).
    assert (r1 = r) by congruence. assert (r2 = r') by congruence. subst. congruence.
Qed.

Theorem reg_domains : forall s, nstate s -> all_registered s ->
  let D := length (n_domains (ns_numa s)) in
  (forall t r, t < N -> ns_reg s t = Some r -> r_dom r < D) /\
  (forall d, d < D -> exists t r, t < N /\ ns_reg s t = Some r /\ r_dom r = d) /\
  (forall t u r r', t < N -> u < N -> ns_reg s t = Some r -> ns_reg s u = Some r' ->
     (r_dom r = r_dom r' <-> eff detect node t = eff detect node u)).
Proof.
  intros s E H D. destruct (nstate_link s E) as [arr L]. destruct (all_arrived s arr L H) as [A Len].
  assert (R : forall t r, t < N -> ns_reg s t = Some r ->
     nth_error (map fst (n_domains (ns_numa s))) (r_dom r) = Some (eff detect node t)).
  { intros t r Ht Hr. destruct (link_reg s arr t L H Ht) as (i & r1 & Hi & Hr1 & Ei).
    destruct L as [L1 L2]. destruct (ni_reg _ _ _ _ _ _ L1 i t Hi) as (r2 & B1 & _ & B3 & _).
    assert (r2 = r) by congruence. subst r2.
    apply (nfind_nth _ 0) in B3; [|apply (ni_snd _ _ _ _ _ _ L1)|apply (ni_fst _ _ _ _ _ _ L1)].
    rewrite Nat.sub_0_r in B3. apply B3. }
  split; [|split].
  - intros t r Ht Hr. subst D. rewrite <- (map_length fst). apply nth_error_Some. rewrite (R t r Ht Hr). discriminate.
  - intros d Hd. subst D. rewrite <- (map_length fst) in Hd. apply nth_error_Some in Hd.
    destruct (nth_error (map fst (n_domains (ns_numa s))) d) as [x|] eqn:X; [|congruence].
    pose proof (nth_error_In _ _ X) as Hx. apply (ni_in _ _ _ _ _ _ (proj1 L)) in Hx.
    destruct Hx as (t & Ht & <-). apply A in Ht. destruct (link_reg s arr t L H Ht) as (i & r & Hi & Hr & Ei).
    exists t, r. split; [assumption|]. split; [assumption|].
    pose proof (R t r Ht Hr) as Y. rewrite <- X in Y.
    apply (proj1 (NoDup_nth_error _) (ni_fst _ _ _ _ _ _ (proj1 L))); [|exact Y].
    apply nth_error_Some. rewrite Y, X. discriminate.
  - intros t u r r' Ht Hu Hr Hr'. pose proof (R t r Ht Hr) as Y. pose proof (R u r' Hu Hr') as Y'. split; intros Eq.
    + rewrite Eq in Y. congruence.
    + rewrite <- Eq in Y'. rewrite <- Y in Y'. symmetry.
      apply (proj1 (NoDup_nth_error _) (ni_fst _ _ _ _ _ _ (proj1 L))); [|exact Y'].
      apply nth_error_Some. rewrite Y', Y. discriminate.
Qed.

Theorem reg_masters : forall s, nstate s -> all_registered s ->
  (forall t, t < N -> exists u r, u < N /\ ns_reg s u = Some r /\ r_master r = true /\ eff detect node u = eff detect node t) /\
  (forall t u r r', t < N -> u < N -> ns_reg s t = Some r -> ns_reg s u = Some r' ->
     r_master r = true -> r_master r' = true -> eff detect node t = eff detect node u -> t = u) /\
  (forall t r, t < N -> ns_reg s t = Some r -> r_tid r = 0 -> r_master r = true /\ r_dom r = 0) /\
  (forall t r, t < N -> ns_reg s t = Some r -> nagain (ns_numa s) (r_tid r) = Some (r_master r)).
Proof.
  intros s E H. destruct (nstate_link s E) as [arr L]. destruct (all_arrived s arr L H) as [A Len].
  assert (R : forall t r, t < N -> ns_reg s t = Some r ->
     nth_error arr (r_tid r) = Some t /\ nth_error (n_masters (ns_numa s)) (r_tid r) = Some (r_master r) /\
     nfind (n_domains (ns_numa s)) (eff detect node t) = Some (r_dom r) /\
     (r_master r = true <-> forall j u, j < r_tid r -> nth_error arr j = Some u -> eff detect node u <> eff detect node t)).
  { intros t r Ht Hr. destruct (link_reg s arr t L H Ht) as (i & r1 & Hi & Hr1 & Ei).
    destruct L as [L1 L2]. destruct (ni_reg _ _ _ _ _ _ L1 i t Hi) as (r2 & B1 & B2 & B3 & B4 & B5).
    assert (r2 = r) by congruence. assert (r1 = r) by congruence. subst r2 r1 i. auto. }
  split; [|split; [|split]].
  - intros t Ht. destruct (link_reg s arr t L H Ht) as (i & r & Hi & _ & _). clear r.
    (* the first thread with the same node *)
    assert (F : forall n, (forall j u, j < n -> nth_error arr j = Some u -> eff detect node u <> eff detect node t) \/
              exists j u, j < n /\ nth_error arr j = Some u /\ eff detect node u = eff detect node t /\
                 forall j' u', j' < j -> nth_error arr j' = Some u' -> eff detect node u' <> eff detect node u).
    { induction n as [|n [IH|IH]].
      - left. intros; lia.
      - destruct (nth_error arr n) as [u|] eqn:X.
        + destruct (Nat.eq_dec (eff detect node u) (eff detect node t)) as [Y|Y].
          * right. exists n, u. split; [lia|]. split; [assumption|]. split; [assumption|].
            intros j' u' Hj Hu. rewrite Y. apply (IH j' u' Hj Hu).
          * left. intros j v Hj Hv. destruct (Nat.eq_dec j n) as [->|]; [congruence|]. apply (IH j v); [lia|assumption].
        + left. intros j v Hj Hv. destruct (Nat.eq_dec j n) as [->|]; [congruence|]. apply (IH j v); [lia|assumption].
      - right. destruct IH as (j & u & Hj & X). exists j, u. split; [lia|exact X]. }
    destruct (F (S i)) as [F'|(j & u & Hj & Hu & Eq & Hfirst)].
    + exfalso. apply (F' i t); auto with arith.
    + assert (Hun : u < N) by (apply A; eapply nth_error_In; eauto).
      destruct (link_reg s arr u L H Hun) as (j' & r & Hj' & Hr & Ej').
      exists u, r. split; [assumption|]. split; [assumption|]. split; [|assumption].
      destruct (R u r Hun Hr) as (R1 & R2 & R3 & R4). apply R4.
      assert (r_tid r = j).
      { apply (proj1 (NoDup_nth_error _) (ni_nodup _ _ _ _ _ _ (proj1 L))).
        - apply nth_error_Some. congruence.
        - congruence. }
      subst j. exact Hfirst.
  - intros t u r r' Ht Hu Hr Hr' M M' Eq.
    destruct (R t r Ht Hr) as (R1 & _ & _ & R4). destruct (R u r' Hu Hr') as (R1' & _ & _ & R4').
    destruct (lt_eq_lt_dec (r_tid r) (r_tid r')) as [[X|X]|X].
    + exfalso. apply (proj1 R4' M' (r_tid r) t X R1 Eq).
    + congruence.
    + exfalso. apply (proj1 R4 M (r_tid r') u X R1'). congruence.
  - intros t r Ht Hr E0. destruct (R t r Ht Hr) as (R1 & R2 & R3 & R4).
    split; [apply R4; intros; lia|].
    assert (M : r_master r = true) by (apply R4; intros; lia).
    rewrite E0 in R1. pose proof (ni_first _ _ _ _ _ _ (proj1 L) t R1) as F.
    apply (nfind_nth _ 0) in R3; [|apply (ni_snd _ _ _ _ _ _ (proj1 L))|apply (ni_fst _ _ _ _ _ _ (proj1 L))].
    rewrite Nat.sub_0_r in R3. destruct R3 as [_ R3]. rewrite <- F in R3.
    apply (proj1 (NoDup_nth_error _) (ni_fst _ _ _ _ _ _ (proj1 L))); [|exact R3].
    apply nth_error_Some. rewrite R3, F. discriminate.
  - intros t r Ht Hr. apply (R t r Ht Hr).
Qed.

(** Without detection there is one domain. *)
Theorem reg_off : forall s, nstate s -> all_registered s -> detect = false ->
  length (n_domains (ns_numa s)) = 1.
Proof.
  intros s E H Hd. destruct (reg_domains s E H) as (Q1 & Q2 & Q3).
  pose proof (proj1 W) as HN. destruct (reg_ids s E H) as (P1 & _ & _).
  destruct (P1 0 HN) as (r & Hr & _). pose proof (Q1 0 r HN Hr) as A.
  destruct (length (n_domains (ns_numa s))) as [|[|n]] eqn:X; [lia|reflexivity|exfalso].
  destruct (Q2 0 ltac:(lia)) as (t & rt & Ht & Hrt & D0).
  destruct (Q2 1 ltac:(lia)) as (u & ru & Hu & Hru & D1).
  pose proof (proj2 (Q3 t u rt ru Ht Hu Hrt Hru)) as Y. unfold eff in Y. rewrite Hd in Y.
  specialize (Y eq_refl). lia.
Qed.

(** The unlocked test of [m_initialized]: a thread which has not registered yet never takes the
    path of a later call; after the registration every thread does. *)
Theorem reg_first : forall s t, nstate s -> t < N -> ~ arrived (ns_sync s) t 0 -> n_ready (ns_numa s) = false.
Proof.
  intros s t E Ht Hna. destruct (nstate_link s E) as [arr [L1 L2]].
  destruct (n_ready (ns_numa s)) eqn:X; [|reflexivity]. exfalso.
  apply (ni_ready _ _ _ _ _ _ L1) in X.
  assert (B : length arr <= length (filter (fun u => negb (u =? t)) (seq 0 N))).
  { apply NoDup_incl_length; [apply L1|]. intros u Hu. apply L2 in Hu. apply filter_In. rewrite in_seq.
    split; [lia|]. destruct (Nat.eqb_spec u t) as [->|]; [tauto|reflexivity]. }
  assert (C : length (filter (fun u => negb (u =? t)) (seq 0 N)) < N).
  { assert (Q : length (filter (fun u => negb (u =? t)) (seq 0 N)) = cnt (fun u => negb (u =? t)) N).
    { apply count_nodup; [apply NoDup_filter, seq_NoDup|]. intros u. rewrite filter_In, in_seq. intuition lia. }
    rewrite Q. pose proof (cnt_le N (fun u => negb (u =? t))).
    destruct (Nat.eq_dec (cnt (fun u => negb (u =? t)) N) N) as [Y|]; [|lia].
    pose proof (cnt_full _ _ Y t Ht) as Z. cbn in Z. rewrite Nat.eqb_refl in Z. discriminate. }
  lia.
Qed.
Theorem reg_later : forall s t, nstate s -> t < N -> returned (ns_sync s) t 0 -> n_ready (ns_numa s) = true.
Proof.
  intros s t E Ht Hr. destruct (nstate_link s E) as [arr [L1 L2]].
  apply (ni_ready _ _ _ _ _ _ L1).
  assert (A : forall u, u < N -> arrived (ns_sync s) u 0).
  { intros u Hu. destruct E as [l E].
    apply (sync_barrier c W Hsp (ns_sync s) t u 0); auto.
    - exists l. apply (nrun_sync l _ _ E).
    - left. exact Hr. }
  rewrite (count_nodup N arr (fun _ => true)); [rewrite cnt_all; auto|apply L1|].
  intros u. rewrite L2. pose proof (A u). tauto.
Qed.
End Safe.
End Conc.

(** ** The word with both ids *)
Theorem pack_ids : forall w tid dom, (tid < 2 ^ w -> dom < 2 ^ w ->
  nthread_id w (npack w tid dom) = tid /\ ndomain_id w (npack w tid dom) = dom)%N.
Proof.
  intros w tid dom Ht Hd. unfold npack, nthread_id, ndomain_id.
  assert (P : (2 ^ w <> 0)%N) by (apply N.pow_nonzero; lia).
  assert (E : (N.shiftl tid w mod 2 ^ (2 * w) = N.shiftl tid w)%N).
  { apply N.mod_small. rewrite N.shiftl_mul_pow2. replace (2 * w)%N with (w + w)%N by lia.
    rewrite N.pow_add_r. apply N.mul_lt_mono_pos_r; lia. }
  rewrite E.
  assert (Hs : (N.shiftr dom w = 0)%N).
  { rewrite N.shiftr_div_pow2. apply N.div_small. assumption. }
  split.
  - rewrite N.shiftr_lor, Hs, N.lor_0_r. rewrite N.shiftr_shiftl_l by lia. rewrite N.sub_diag. apply N.shiftl_0_r.
  - rewrite N.shiftl_1_l. replace (2 ^ w - 1)%N with (N.ones w) by (rewrite N.ones_equiv; lia).
    rewrite N.land_ones. apply N.bits_inj. intros i. destruct (N.lt_ge_cases i w) as [Hi|Hi].
    + rewrite N.mod_pow2_bits_low by assumption. rewrite N.lor_spec, N.shiftl_spec_low by assumption. reflexivity.
    + rewrite N.mod_pow2_bits_high by assumption. symmetry.
      rewrite <- (N.mod_small dom (2 ^ w)) by assumption. apply N.mod_pow2_bits_high. assumption.
Qed.

(** ** Slices *)
Theorem slices_disjoint : forall base size d e i j, (0 <= size)%Z -> d <> e ->
  (0 <= i < size)%Z -> (0 <= j < size)%Z -> (nslice base size d + i <> nslice base size e + j)%Z.
Proof. intros base size d e i j H Hd Hi Hj E. unfold nslice in E. nia. Qed.
Theorem slices_inside : forall base size D d i, d < D -> (0 <= i < size)%Z ->
  (base <= nslice base size d + i < base + nalloc_total size (Z.of_nat D))%Z.
Proof. intros base size D d i Hd Hi. unfold nslice, nalloc_total. nia. Qed.
Theorem slices_cover : forall base size D a, (base <= a < base + nalloc_total size (Z.of_nat D))%Z -> (0 <= size)%Z ->
  exists d i, d < D /\ (0 <= i < size)%Z /\ a = (nslice base size d + i)%Z.
Proof.
  intros base size D a Ha Hs. unfold nalloc_total in Ha. assert (size <> 0)%Z by nia.
  pose proof (Z.div_mod (a - base) size H) as E.
  pose proof (Z.mod_pos_bound (a - base) size ltac:(lia)) as M.
  assert (0 <= (a - base) / size)%Z by (apply Z.div_pos; lia).
  exists (Z.to_nat ((a - base) / size)), ((a - base) mod size)%Z. unfold nslice.
  rewrite Z2Nat.id by assumption. split; [|split; [assumption|lia]].
  assert ((a - base) / size < Z.of_nat D)%Z by (apply Z.div_lt_upper_bound; lia). lia.
Qed.
(** A block of domain [dom], as seen from any domain [d], lies where the owner sees it. *)
Theorem slices_agree : forall base blockSize blockCount d dom off,
  let size := (blockSize * blockCount)%Z in
  nfull_addr (nfull_start (nslice base size d) blockSize blockCount d) blockSize blockCount dom off
  = (nslice base size dom + blockSize * Z.of_nat off)%Z.
Proof. intros. unfold nfull_addr, nfull_start, nslice, size. nia. Qed.

(** The pointers which the domains get: the collective call [k] is the broadcast of line 142. *)
Theorem alloc_slices : forall (c : ycfg Z) k, wf_ycfg c -> y_spurious c = false -> y_root c k = Some 0 ->
  forall s d w p, ystate c s -> d < y_n c -> nth_error (y_out (y_thr s d)) k = Some (w, p) -> p = y_init c 0 k.
Proof.
  intros c k W Hsp R s d w p E Hd H. pose proof (sync_values c W Hsp s d E Hd) as A.
  assert (L : k < y_round (y_thr s d)).
  { apply (f_equal (@length _)) in A. rewrite !map_length, seq_length in A. rewrite <- A.
    apply nth_error_Some. congruence. }
  apply (map_nth_error snd) in H. rewrite A in H. cbn in H.
  rewrite (map_nth_error _ k (seq 0 (y_round (y_thr s d))) (d := k)) in H.
  - rewrite R in H. congruence.
  - rewrite (nth_error_nth' _ 0) by (rewrite seq_length; exact L). rewrite seq_nth by exact L. reflexivity.
Qed.

(** ** Drivers for examples *)
Fixpoint ydrive {V} (c : ycfg V) (s : yst V) (l : list yact) : yst V * list yact :=
  match l with
  | [] => (s, [])
  | a :: l' => match ystep c s a with
               | Some (Ok s') => let '(r, xs) := ydrive c s' l' in (r, a :: xs)
               | _ => ydrive c s l'
               end
  end.
Lemma ydrive_run : forall {V} (c : ycfg V) l s, yrun c s (snd (ydrive c s l)) = Some (Ok (fst (ydrive c s l))).
Proof.
  intros V c. induction l as [|a l IH]; intros s; cbn; [reflexivity|].
  destruct (ystep c s a) as [[s'|]|] eqn:E; auto.
  specialize (IH s'). destruct (ydrive c s' l) as [r xs]. cbn in *. rewrite E. exact IH.
Qed.
