(** * Several grids: invariant, progress, termination *)
From Verif Require Export GridsModel FullConcFacts.

(** ** One grid *)
Section One.
Context {V : Type}.
Implicit Types (gc : gcfg V) (gs : gst V).

Definition gwf gc : Prop := match gc with GC c => wf_cfg c | GF c => wf_fcfg c end.
Definition greach gc gs : Prop :=
  match gc, gs with GC c, SC s => reachable c s | GF c, SF s => ureach c s | _, _ => False end.
Definition gidle gs (t : nat) : bool :=
  match gs with
  | SC s => match t_pc (s_thr s t) with PIdle => true | _ => false end
  | SF s => match q_pc (u_thr s t) with QIdle => true | _ => false end
  end.
(** Between locking and unlocking [mpiLock]. *)
Definition inside gc gs (t : nat) : bool :=
  match gc, gs with
  | GC c, SC s =>
      match cf_mode c with
      | MWin => match t_pc (s_thr s t) with
                | PDelHold _ _ | PDelRel _ _ | PAddHold _ | PAddRel _ | PStartHold _ | PXfer _ _ _ | PFill _ | PFilling _
                | PEnd _ => true
                | _ => false
                end
      | _ => false
      end
  | GF c, SF s =>
      match fc_mpi c with XWin => match q_pc (u_thr s t) with QGet _ _ => true | _ => false end | _ => false end
  | _, _ => false
  end.

Definition same gs gs' (t : nat) : Prop :=
  match gs, gs' with
  | SC s, SC s' => s_thr s' t = s_thr s t
  | SF s, SF s' => u_thr s' t = u_thr s t
  | _, _ => False
  end.

Lemma same_all gc gs gs' t : same gs gs' t ->
  needs gc gs' t = needs gc gs t /\ inside gc gs' t = inside gc gs t /\ gidle gs' t = gidle gs t /\ gtodo gs' t = gtodo gs t.
Proof.
  destruct gs, gs'; cbn; try tauto; intros E; unfold needs, inside, gidle, gtodo; rewrite E; destruct gc; auto.
Qed.

Lemma greach_step gc gs gs' : greach gc gs ->
  (exists t ch, gstep_thr gc gs t ch = Some gs') \/ (exists r ch, gstep_com gc gs r ch = Some gs') -> greach gc gs'.
Proof.
  destruct gc as [c|c], gs as [s|s]; cbn; try tauto; intros Hr [(t & ch & H)|(r & ch & H)].
  - destruct (step_thr c s t ch) as [s'|] eqn:E; [|discriminate]. injection H as <-. eapply (reach_step c s (AThr t ch)); eauto.
  - destruct (step c s (ACom r ch)) as [s'|] eqn:E; cbn in E; rewrite E in H; [|discriminate]. injection H as <-. eapply (reach_step c s (ACom r ch)); eauto.
  - destruct (ustep_thr c s t (ch_fail ch)) as [s'|] eqn:E; [|discriminate]. injection H as <-.
    destruct Hr as (l0 & acts & E0 & E1). exists l0, (acts ++ [UThr t (ch_fail ch)]). split; auto.
    clear E0. revert E1. generalize (uinit c l0). induction acts; cbn; intros s0 E1.
    + injection E1 as ->. now rewrite E.
    + destruct (ustep c s0 a); [|discriminate]. auto.
  - destruct (ustep c s (UCom r (ch_src ch))) as [s'|] eqn:E; cbn in E; rewrite E in H; [|discriminate]. injection H as <-.
    destruct Hr as (l0 & acts & E0 & E1). exists l0, (acts ++ [UCom r (ch_src ch)]). split; auto.
    clear E0. revert E1. generalize (uinit c l0). induction acts; cbn; intros s0 E1.
    + injection E1 as ->. now rewrite E.
    + destruct (ustep c s0 a); [|discriminate]. auto.
Qed.

Lemma ginit_reach gc l0 : clist_init (gsize gc) (gspread gc) = Ok l0 -> greach gc (ginit gc l0).
Proof. destruct gc; cbn; intros E; exists l0, []; auto. Qed.

Lemma g_thr gc gs t ch gs' : gwf gc -> greach gc gs -> gstep_thr gc gs t ch = Some gs' ->
  (forall t', t' <> t -> same gs gs' t') /\
  (forall r, com_busy gs' r = com_busy gs r) /\
  0 < gtodo gs t /\
  (gtodo gs' t = gtodo gs t \/ S (gtodo gs' t) = gtodo gs t /\ gidle gs' t = true) /\
  (inside gc gs' t = true -> needs gc gs t = true \/ (inside gc gs t = true /\ frees gc gs t = false)) /\
  (needs gc gs t = true -> inside gc gs' t = true) /\
  (inside gc gs t = true -> frees gc gs t = false -> inside gc gs' t = true) /\
  (frees gc gs t = true -> inside gc gs t = true).
Proof.
  intros Hw Hr H. destruct gc as [c|c], gs as [s|s]; cbn in Hr; try tauto; cbn in Hw, H.
  - destruct (step_thr c s t ch) as [s'|] eqn:E; [|discriminate]. injection H as <-.
    destruct (reach_inv c Hw s Hr) as [Hi _]. destruct (frame_thr c Hw s t ch s' Hi E) as (Ec & Eo & _).
    split; [exact Eo|]. split; [intros r; cbn; now rewrite Ec|].
    split; [pose proof (step_todo c s t ch s' E); cbn; destruct (t_todo (s_thr s t)); [congruence|cbn; lia]|].
    split.
    + clear Eo Ec. destruct (s_thr s t) as [p todo dn] eqn:Et. cbn. rewrite Et. open_step E. rewrite Et in E. cbn [t_pc t_todo t_done] in *.
      repeat break; proj; rewrite ?upd_eq, ?Et; cbn [t_pc t_todo t_done length]; auto.
    + unfold inside, needs, frees. destruct (cf_mode c) eqn:Em; try (repeat split; discriminate).
      pose proof (i_thr c s Hi t) as (_ & _ & _ & Hwt).
      clear Eo Ec. destruct (s_thr s t) as [p todo dn] eqn:Et. open_step E. rewrite Et, ?Em in E. cbn [t_pc t_todo t_done] in *.
      repeat break; proj; rewrite ?upd_eq, ?Et; cbn [t_pc]; try congruence; repeat split; try discriminate; auto;
        try (destruct Hwt; congruence).
  - destruct (ustep_thr c s t (ch_fail ch)) as [s'|] eqn:E; [|discriminate]. injection H as <-.
    split; [intros t' Hne; exact (u_frame c s t (ch_fail ch) s' E t' Hne)|]. split; [reflexivity|].
    split; [pose proof (u_works c s t (ch_fail ch) s' E); cbn; destruct (q_todo (u_thr s t)); [congruence|cbn; lia]|].
    split.
    + destruct (u_thr s t) as [p todo dn] eqn:Et. cbn. rewrite Et. uopen E. rewrite Et in E. cbn [q_pc q_todo q_done] in *.
      repeat break; uproj; rewrite ?upd_eq, ?Et; cbn [q_pc q_todo q_done length]; auto.
    + unfold inside, needs, frees. destruct (fc_mpi c) eqn:Em; try (repeat split; discriminate).
      destruct (u_thr s t) as [p todo dn] eqn:Et. uopen E. rewrite Et, ?Em in E. cbn [q_pc q_todo q_done] in *.
      repeat break; uproj; rewrite ?upd_eq, ?Et; cbn [q_pc]; try congruence; repeat split; try discriminate; auto.
      all: cbn; congruence.
Qed.

Lemma g_com gc gs r ch gs' : greach gc gs -> gstep_com gc gs r ch = Some gs' ->
  (forall t, same gs gs' t) /\ (forall r', r' <> r -> com_busy gs' r' = com_busy gs r').
Proof.
  intros Hr H. destruct gc as [c|c], gs as [s|s]; cbn in Hr; try tauto; unfold gstep_com in H.
  - destruct (step c s (ACom r ch)) as [s'|] eqn:E; [|discriminate]. injection H as <-. cbn in E.
    destruct (cf_mode c); try discriminate. destruct (r <? cf_ranks c); [|discriminate].
    destruct (frame_com c _ _ _ _ E) as (E1 & _ & _ & E2 & _). cbn. split; intros.
    + now rewrite E1.
    + now rewrite E2.
  - destruct (ustep c s (UCom r (ch_src ch))) as [s'|] eqn:E; [|discriminate]. injection H as <-. cbn in E.
    destruct (fc_mpi c); try discriminate. destruct (_ <? _); [|discriminate].
    destruct (com_frame c s r (ch_src ch) s' E) as (_ & _ & _ & E1). cbn. split; auto. intros t. now rewrite E1.
Qed.

Lemma g_busy_com gc gs r : gwf gc -> greach gc gs -> com_busy gs r = true ->
  exists ch gs', gstep_com gc gs r ch = Some gs'.
Proof.
  intros Hw Hr H. destruct gc as [c|c], gs as [s|s]; cbn in Hr; try tauto; [|discriminate].
  cbn in H. assert (s_com s r <> CIdle) as Hb by (destruct (s_com s r); congruence).
  destruct (reach_com_idle c s Hr r Hb) as [Hlt Hm].
  exists ch0. unfold gstep_com, step. rewrite Hm. apply Nat.ltb_lt in Hlt. rewrite Hlt. unfold step_com.
  destruct (s_com s r); try congruence; clear;
    repeat match goal with |- context [match ?x with _ => _ end] => destruct x end; cbn [option_map]; eauto.
Qed.

Lemma g_progress gc gs t : gwf gc -> greach gc gs -> 0 < gtodo gs t ->
  (exists t' ch gs', gstep_thr gc gs t' ch = Some gs' /\ (t' = t \/ gidle gs t' = false)) \/
  (exists r ch gs', gstep_com gc gs r ch = Some gs').
Proof.
  intros Hw Hr Ht. destruct gc as [c|c], gs as [s|s]; cbn in Hr; try tauto; cbn in Ht.
  - assert (works s t) as Hwk by (unfold works; destruct (t_todo (s_thr s t)); [cbn in Ht; lia|discriminate]).
    destruct (progress c Hw t s Hr Hwk) as ([t' ch|r ch] & s' & E & Hb).
    + left. exists t', ch, (SC s'). cbn in E |- *. rewrite E. split; auto. destruct Hb; auto. right. destruct (t_pc (s_thr s t')); congruence.
    + right. exists r, ch, (SC s'). unfold gstep_com. now rewrite E.
  - assert (q_todo (u_thr s t) <> []) as Hwk by (destruct (q_todo (u_thr s t)); [cbn in Ht; lia|discriminate]).
    destruct (u_progress c Hw s t Hr Hwk) as ([t' f|r src] & s' & E & Hb).
    + left. exists t', (Choice f 0 (fun _ => None) 0 0), (SF s'). cbn in E |- *. rewrite E. split; auto.
      destruct Hb; auto. right. destruct (q_pc (u_thr s t')); congruence.
    + right. exists r, (Choice false 0 (fun _ => None) 0 src), (SF s'). unfold gstep_com. cbn [ch_src]. now rewrite E.
Qed.

Lemma g_busy gc gs t : gwf gc -> greach gc gs -> needs gc gs t = true \/ inside gc gs t = true ->
  0 < gtodo gs t /\ gidle gs t = false.
Proof.
  intros Hw Hr Ht. destruct gc as [c|c], gs as [s|s]; cbn in Hr; try tauto; try (cbn in Ht; intuition discriminate).
  - destruct (reach_inv c Hw s Hr) as [Hi _]. unfold needs, inside in Ht. destruct (cf_mode c); try (intuition discriminate).
    assert (t_pc (s_thr s t) <> PIdle) as Hp by (intros E; rewrite E in Ht; intuition discriminate).
    pose proof (works_pc c s t Hi Hp) as Hk. unfold works in Hk. cbn. split.
    + destruct (t_todo (s_thr s t)); [congruence|cbn; lia].
    + destruct (t_pc (s_thr s t)); congruence.
  - destruct (ureach_inv c Hw s Hr) as (Hl & _). unfold needs, inside in Ht. destruct (fc_mpi c); try (intuition discriminate).
    assert (q_pc (u_thr s t) <> QIdle) as Hp by (intros E; rewrite E in Ht; intuition discriminate).
    pose proof (busy_works c s Hl t Hp) as Hk. cbn. split.
    + destruct (q_todo (u_thr s t)); [congruence|cbn; lia].
    + destruct (q_pc (u_thr s t)); congruence.
Qed.

Lemma g_inside gc gs t : gwf gc -> greach gc gs -> inside gc gs t = true ->
  needs gc gs t = false /\ exists ch gs', gstep_thr gc gs t ch = Some gs'.
Proof.
  intros Hw Hr Ht. destruct (g_busy gc gs t Hw Hr (or_intror Ht)) as [Hk _].
  destruct gc as [c|c], gs as [s|s]; cbn in Hr; try tauto; try (cbn in Ht; discriminate).
  - destruct (reach_inv c Hw s Hr) as [Hi _]. unfold needs, inside in *. destruct (cf_mode c) eqn:Em; try discriminate.
    split; [destruct (t_pc (s_thr s t)); congruence|].
    exists ch0. cbn. destruct (step_thr c s t ch0) eqn:E; cbn; eauto. exfalso.
    assert (t_todo (s_thr s t) <> []) as Hne by (cbn in Hk; destruct (t_todo (s_thr s t)); [cbn in Hk; lia|discriminate]).
    destruct (step_blocked c s t ch0 Hi Hne E) as (w & Ew & _). unfold waits in Ew.
    destruct (t_pc (s_thr s t)); try discriminate.
  - unfold needs, inside in *. destruct (fc_mpi c) eqn:Em; try discriminate.
    split; [destruct (q_pc (u_thr s t)); congruence|].
    exists ch0. cbn. unfold ustep_thr. cbn in Hk. destruct (q_todo (u_thr s t)) as [|[b cell] todo]; [cbn in Hk; lia|].
    destruct (q_pc (u_thr s t)); try discriminate. destruct (_ <? _); cbn; eauto.
Qed.

Lemma g_needs gc gs t : gwf gc -> greach gc gs -> needs gc gs t = true ->
  exists t' ch gs', gstep_thr gc gs t' ch = Some gs' /\ (t' = t \/ inside gc gs t' = true).
Proof.
  intros Hw Hr Ht. destruct (g_busy gc gs t Hw Hr (or_introl Ht)) as [Hk _].
  destruct gc as [c|c], gs as [s|s]; cbn in Hr; try tauto; try (cbn in Ht; discriminate).
  - destruct (reach_inv c Hw s Hr) as [Hi _]. destruct (step_thr c s t ch0) as [s'|] eqn:E; [exists t, ch0, (SC s'); cbn; now rewrite E; auto|].
    assert (t_todo (s_thr s t) <> []) as Hne by (cbn in Hk; destruct (t_todo (s_thr s t)); [cbn in Hk; lia|discriminate]).
    destruct (step_blocked c s t ch0 Hi Hne E) as (w & Ew & Es). unfold needs in Ht. destruct (cf_mode c) eqn:Em; try discriminate.
    assert (exists b, w = WLock (LDict b)) as [b ->].
    { unfold waits in Ew. rewrite Em in Ew. destruct (t_pc (s_thr s t)); try discriminate; injection Ew as <-; eauto. }
    cbn in Es. destruct (s_lock s (LDict b)) as [[t'|r]|] eqn:El; [| |congruence].
    + assert (inside (GC c) (SC s) t' = true) as Hin.
      { apply (lock_iff c s _ _ Hi) in El. cbn in El. unfold thr_locks in El. rewrite !in_app_iff, !olist_In in El.
        unfold inside. rewrite Em. destruct (t_pc (s_thr s t')); cbn in El; rewrite ?Em in El; cbn in El;
          intuition (try discriminate; auto). }
      destruct (g_inside (GC c) (SC s) t' Hw Hr Hin) as (_ & ch & gs' & Eg). exists t', ch, gs'. auto.
    + exfalso. apply (lock_iff c s _ _ Hi) in El. cbn in El. unfold com_locks in El. rewrite in_app_iff, !olist_In in El.
      destruct (com_for (s_com s r)), (com_cm (s_com s r)); cbn in El; intuition discriminate.
  - unfold needs in Ht. destruct (fc_mpi c) eqn:Em; try discriminate.
    destruct (q_pc (u_thr s t)) eqn:Ep; try discriminate. destruct (ureach_inv c Hw s Hr) as (Hl & _).
    destruct (u_lock s (LInfo (fc_rank c t))) as [t'|] eqn:El.
    + apply (li_win _ _ Hl) in El as (_ & i' & x & Ep'). assert (inside (GF c) (SF s) t' = true) as Hin by (unfold inside; now rewrite Em, Ep').
      destruct (g_inside (GF c) (SF s) t' Hw Hr Hin) as (_ & ch & gs' & Eg). exists t', ch, gs'. auto.
    + exists t, ch0. cbn. unfold ustep_thr. cbn in Hk. destruct (q_todo (u_thr s t)) as [|[b cell] todo]; [cbn in Hk; lia|].
      rewrite Ep, Em. unfold uacquire. rewrite El. cbn. eauto.
Qed.

End One.

(** ** The world *)
Section World.
Context {V : Type}.
Variable lib : bool.
Variable G : nat.
Variable rk : nat -> nat.
Variable cfgs : nat -> gcfg V.
Variable order : nat -> list nat.

Definition gprog (gc : gcfg V) (t : nat) : nat :=
  match gc with GC c => length (cf_prog c t) | GF c => length (fc_prog c t) end.

(** What is assumed: every grid is as in the theorems for one grid; the program of a thread contains as many reads of a grid
    as the grid is asked for. *)
Definition wf_world : Prop :=
  (forall g, gwf (cfgs g)) /\ (forall t, Forall (fun g => g < G) (order t)) /\
  (forall t g, count_occ Nat.eq_dec (order t) g = gprog (cfgs g) t).

Hypothesis Hwf : wf_world.
Notation wst := (wstep lib G rk cfgs).
Notation reach := (wreach lib G rk cfgs order).

Record winv (w : world V) : Prop := {
  wi_reach : forall g, greach (cfgs g) (w_grid w g);
  wi_cur : forall g t, gidle (w_grid w g) t = false -> exists rest, w_order w t = g :: rest;
  wi_cnt : forall t g, count_occ Nat.eq_dec (w_order w t) g = gtodo (w_grid w g) t;
  wi_ord : forall t, Forall (fun g => g < G) (w_order w t);
  wi_lib : forall p t, w_lib w p = Some t -> lib = true /\ rk t = p /\ exists g,
    needs (cfgs g) (w_grid w g) t = true \/ inside (cfgs g) (w_grid w g) t = true;
  wi_in : forall t g, lib = true -> inside (cfgs g) (w_grid w g) t = true -> w_lib w (rk t) = Some t;
  wi_com : forall g r, com_busy (w_grid w g) r = true -> g < G /\
    forall g', g' < G -> com_busy (w_grid w g') r = true -> g' = g
}.

Lemma winv_init l0 : (forall g, clist_init (gsize (cfgs g)) (gspread (cfgs g)) = Ok (l0 g)) -> winv (winit cfgs order l0).
Proof.
  intros E. constructor; cbn.
  - intros g. apply ginit_reach. auto.
  - intros g t. destruct (cfgs g); discriminate.
  - intros t g. destruct Hwf as (_ & _ & ->). destruct (cfgs g); reflexivity.
  - apply Hwf.
  - discriminate.
  - intros t g _. unfold inside. destruct (cfgs g) as [c|c]; cbn; [destruct (cf_mode c)|destruct (fc_mpi c)]; discriminate.
  - intros g r. destruct (cfgs g); discriminate.
Qed.

(** A thread is in one grid. *)
Lemma one_grid w g g' t : winv w -> gidle (w_grid w g) t = false -> gidle (w_grid w g') t = false -> g = g'.
Proof. intros Hi H H'. destruct (wi_cur w Hi g t H) as (r & E). destruct (wi_cur w Hi g' t H') as (r' & E'). congruence. Qed.

Lemma in_lib w t g : winv w -> (needs (cfgs g) (w_grid w g) t = true \/ inside (cfgs g) (w_grid w g) t = true) ->
  gidle (w_grid w g) t = false.
Proof. intros Hi H. apply (g_busy (cfgs g)); auto. apply Hwf. apply (wi_reach w Hi). Qed.

Lemma winv_thr w t ch w' : winv w -> wstep_thr lib rk cfgs w t ch = Some w' -> winv w'.
Proof.
  intros Hi H. unfold wstep_thr in H. destruct (w_order w t) as [|g rest] eqn:Eo; [discriminate|].
  destruct (lib && needs (cfgs g) (w_grid w g) t && negb (holds_lib rk w t)) eqn:Ea.
  - apply andb_true_iff in Ea as [Ea _]. apply andb_true_iff in Ea as [El En].
    destruct (w_lib w (rk t)) eqn:Eb; [discriminate|]. injection H as <-. destruct Hi as [H1 H2 H3 H3' H4 H5 H6].
    constructor; cbn; auto.
    + intros p t'. unfold upd. destruct (Nat.eqb_spec p (rk t)) as [->|]; [|apply H4]. intros E. injection E as <-.
      split; auto. split; auto. exists g. auto.
    + intros t' g' El' Hin. pose proof (H5 t' g' El' Hin) as E. rewrite upd_ne; auto. intros E'. congruence.
  - destruct (gstep_thr (cfgs g) (w_grid w g) t ch) as [gs'|] eqn:Es; [|discriminate]. injection H as <-.
    assert (gwf (cfgs g)) as Hw by apply Hwf. pose proof (wi_reach w Hi g) as Hr.
    destruct (g_thr _ _ _ _ _ Hw Hr Es) as (Ho & Hc & Hpos & Htd & Hin & Hne & Hst & Hfr).
    pose proof (fun x Hx => same_all (cfgs g) _ _ x (Ho x Hx)) as Hsame. clear Ho.
    assert (forall g' x, x <> t \/ g' <> g ->
      needs (cfgs g') (upd (w_grid w) g gs' g') x = needs (cfgs g') (w_grid w g') x /\
      inside (cfgs g') (upd (w_grid w) g gs' g') x = inside (cfgs g') (w_grid w g') x /\
      gidle (upd (w_grid w) g gs' g') x = gidle (w_grid w g') x /\
      gtodo (upd (w_grid w) g gs' g') x = gtodo (w_grid w g') x) as Hs.
    { intros g' x Hx. unfold upd. destruct (Nat.eqb_spec g' g) as [->|]; auto. apply Hsame. tauto. }
    assert (forall x, x <> t -> (if gtodo gs' t <? gtodo (w_grid w g) t then upd (w_order w) t rest else w_order w) x = w_order w x) as Hox.
    { intros x Hx. destruct (_ <? _); auto. now rewrite upd_ne. }
    assert (lib = true -> inside (cfgs g) (w_grid w g) t = true \/ needs (cfgs g) (w_grid w g) t = true -> w_lib w (rk t) = Some t) as Hlk.
    { intros El [H|H]; [apply (wi_in w Hi t g El H)|]. rewrite El, H in Ea. cbn in Ea. unfold holds_lib in Ea.
      destruct (w_lib w (rk t)) as [t'|]; [|discriminate]. destruct (Nat.eqb_spec t' t); [congruence|discriminate]. }
    constructor; cbn.
    + intros g'. unfold upd. destruct (Nat.eqb_spec g' g) as [->|]; [|apply (wi_reach w Hi)]. eapply greach_step; eauto.
    + intros g' t' Hid. destruct (Nat.eq_dec t' t) as [->|Hnt].
      * destruct (Nat.eq_dec g' g) as [->|Hng].
        -- rewrite upd_eq in Hid. destruct Htd as [E|[E Hid']]; [|congruence]. rewrite E, Nat.ltb_irrefl. eauto.
        -- destruct (Hs g' t (or_intror Hng)) as (_ & _ & E & _). rewrite E in Hid.
           destruct (wi_cur w Hi g' t Hid) as (r' & E'). congruence.
      * destruct (Hs g' t' (or_introl Hnt)) as (_ & _ & E & _). rewrite E in Hid. rewrite Hox by auto. apply (wi_cur w Hi g' t' Hid).
    + intros t' g'. destruct (Nat.eq_dec t' t) as [->|Hnt].
      * pose proof (wi_cnt w Hi t g') as Hcnt. rewrite Eo in Hcnt.
        destruct (Nat.eq_dec g' g) as [->|Hng].
        -- rewrite upd_eq. rewrite count_occ_cons_eq in Hcnt by auto. destruct Htd as [E|[E _]].
           ++ rewrite E, Nat.ltb_irrefl, Eo. rewrite count_occ_cons_eq by auto. lia.
           ++ destruct (Nat.ltb_spec (gtodo gs' t) (gtodo (w_grid w g) t)); [|lia]. rewrite upd_eq. lia.
        -- destruct (Hs g' t (or_intror Hng)) as (_ & _ & _ & E). rewrite E. rewrite count_occ_cons_neq in Hcnt by auto.
           destruct (_ <? _); [now rewrite upd_eq|]. rewrite Eo. rewrite count_occ_cons_neq by auto. auto.
      * destruct (Hs g' t' (or_introl Hnt)) as (_ & _ & _ & E). rewrite E, Hox by auto. apply (wi_cnt w Hi).
    + intros t'. pose proof (wi_ord w Hi t') as Hf. destruct (_ <? _); auto. unfold upd. destruct (Nat.eqb_spec t' t) as [->|]; auto.
      rewrite Eo in Hf. now inversion Hf.
    + intros p t' Hp.
      assert (w_lib w p = Some t' /\ (lib && frees (cfgs g) (w_grid w g) t = true -> p <> rk t)) as [Hp' Hfree].
      { destruct (lib && frees (cfgs g) (w_grid w g) t); [|split; auto; discriminate]. unfold upd in Hp.
        destruct (Nat.eqb_spec p (rk t)); [discriminate|auto]. }
      destruct (wi_lib w Hi p t' Hp') as (El & Er & g' & Hg). split; auto. split; auto. exists g'.
      destruct (Nat.eq_dec t' t) as [->|Hnt].
      * destruct (Nat.eq_dec g' g) as [->|Hng].
        -- rewrite upd_eq. right. destruct Hg as [Hg|Hg]; [auto|]. apply Hst; auto.
           destruct (frees _ _ t) eqn:Ef; auto. rewrite El in Hfree. exfalso. apply Hfree; auto.
        -- destruct (Hs g' t (or_intror Hng)) as (E1 & E2 & _). now rewrite E1, E2.
      * destruct (Hs g' t' (or_introl Hnt)) as (E1 & E2 & _). now rewrite E1, E2.
    + intros t' g' El Hins.
      assert (w_lib w (rk t') = Some t' /\ (lib && frees (cfgs g) (w_grid w g) t = true -> rk t' <> rk t)) as [E1 E2].
      { destruct (Nat.eq_dec t' t) as [->|Hnt].
        - destruct (Nat.eq_dec g' g) as [->|Hng].
          + rewrite upd_eq in Hins. destruct (Hin Hins) as [Hn|[Hn Hf]].
            * split; [auto|]. intros Hf. apply andb_true_iff in Hf as [_ Hf]. exfalso.
              pose proof (Hfr Hf) as Hin'. destruct (g_inside _ _ _ Hw Hr Hin') as [Hn' _]. congruence.
            * split; [auto|]. rewrite Hf, andb_false_r. discriminate.
          + exfalso. destruct (Hs g' t (or_intror Hng)) as (_ & E & _). rewrite E in Hins.
            destruct (wi_cur w Hi g' t (in_lib w t g' Hi (or_intror Hins))) as (r' & E'). congruence.
        - destruct (Hs g' t' (or_introl Hnt)) as (_ & E & _). rewrite E in Hins. pose proof (wi_in w Hi t' g' El Hins) as E1.
          split; auto. intros Hf Err. apply andb_true_iff in Hf as [_ Hf]. pose proof (Hlk El (or_introl (Hfr Hf))). congruence. }
      destruct (lib && frees (cfgs g) (w_grid w g) t); auto. rewrite upd_ne; auto.
    + intros g' r Hb. assert (forall x, com_busy (upd (w_grid w) g gs' x) r = com_busy (w_grid w x) r) as E.
      { intros x. unfold upd. destruct (Nat.eqb_spec x g) as [->|]; auto. }
      rewrite E in Hb. destruct (wi_com w Hi g' r Hb) as [H1 H2]. split; auto. intros x Hx. rewrite E. auto.
Qed.

Lemma winv_com w g r ch w' : winv w -> wstep_com G cfgs w g r ch = Some w' -> winv w'.
Proof.
  intros Hi H. unfold wstep_com in H. destruct (Nat.ltb_spec g G) as [Hg|]; [|discriminate]. cbn [andb] in H.
  destruct (existsb _ _) eqn:Ee; [discriminate|]. cbn [negb] in H.
  destruct (gstep_com (cfgs g) (w_grid w g) r ch) as [gs'|] eqn:Es; [|discriminate]. injection H as <-.
  destruct (g_com _ _ _ _ _ (wi_reach w Hi g) Es) as [Hs Hc].
  assert (forall g' x,
    needs (cfgs g') (upd (w_grid w) g gs' g') x = needs (cfgs g') (w_grid w g') x /\
    inside (cfgs g') (upd (w_grid w) g gs' g') x = inside (cfgs g') (w_grid w g') x /\
    gidle (upd (w_grid w) g gs' g') x = gidle (w_grid w g') x /\
    gtodo (upd (w_grid w) g gs' g') x = gtodo (w_grid w g') x) as Ho.
  { intros g' x. unfold upd. destruct (Nat.eqb_spec g' g) as [->|]; auto. apply same_all. auto. }
  constructor; cbn.
  - intros g'. unfold upd. destruct (Nat.eqb_spec g' g) as [->|]; [|apply (wi_reach w Hi)].
    eapply greach_step; [apply (wi_reach w Hi)|eauto].
  - intros g' t H. destruct (Ho g' t) as (_ & _ & E & _). rewrite E in H. apply (wi_cur w Hi g' t H).
  - intros t g'. destruct (Ho g' t) as (_ & _ & _ & E). rewrite E. apply (wi_cnt w Hi).
  - apply (wi_ord w Hi).
  - intros p t H. destruct (wi_lib w Hi p t H) as (H1 & H2 & g' & H3). split; auto. split; auto. exists g'.
    destruct (Ho g' t) as (E1 & E2 & _). now rewrite E1, E2.
  - intros t g' El H. destruct (Ho g' t) as (_ & E & _). rewrite E in H. apply (wi_in w Hi t g' El H).
  - assert (forall x, x < G -> x <> g -> com_busy (w_grid w x) r = false) as Hid.
    { intros x Hx Hne. destruct (com_busy (w_grid w x) r) eqn:E; auto. exfalso.
      assert (existsb (fun g' => negb (g' =? g) && com_busy (w_grid w g') r) (seq 0 G) = true); [|congruence].
      apply existsb_exists. exists x. split; [apply in_seq; lia|]. rewrite E. apply Nat.eqb_neq in Hne. now rewrite Hne. }
    intros g' r' Hb. destruct (Nat.eq_dec r' r) as [->|Hnr].
    + destruct (Nat.eq_dec g' g) as [->|Hng].
      * split; auto. intros x Hx Hxb. destruct (Nat.eq_dec x g); auto. rewrite upd_ne in Hxb by auto. rewrite Hid in Hxb by auto. discriminate.
      * rewrite upd_ne in Hb by auto. destruct (wi_com w Hi g' r Hb) as [H1 _]. rewrite Hid in Hb by auto. discriminate.
    + assert (forall x, com_busy (upd (w_grid w) g gs' x) r' = com_busy (w_grid w x) r') as E.
      { intros x. unfold upd. destruct (Nat.eqb_spec x g) as [->|]; auto. }
      rewrite E in Hb. destruct (wi_com w Hi g' r' Hb) as [H1 H2]. split; auto. intros x Hx. rewrite E. auto.
Qed.

Lemma winv_step w a w' : winv w -> wst w a = Some w' -> winv w'.
Proof. destruct a; cbn; intros; [eapply winv_thr|eapply winv_com]; eauto. Qed.

Lemma winv_run acts : forall w w', winv w -> wrun lib G rk cfgs w acts = Some w' -> winv w'.
Proof.
  induction acts as [|a acts IH]; cbn [wrun]; intros w w' Hi H; [congruence|].
  destruct (wst w a) as [w1|] eqn:E; [|discriminate]. exact (IH w1 w' (winv_step w a w1 Hi E) H).
Qed.

Lemma wreach_inv w : reach w -> winv w.
Proof. intros (l0 & acts & E & H). eapply winv_run; [|exact H]. now apply winv_init. Qed.

(** ** No deadlock *)
Lemma can_thr w t g rest ch gs' : w_order w t = g :: rest -> gstep_thr (cfgs g) (w_grid w g) t ch = Some gs' ->
  lib && needs (cfgs g) (w_grid w g) t && negb (holds_lib rk w t) = false -> exists a w', wst w a = Some w'.
Proof. intros Eo Es E. exists (WThr t ch). cbn. unfold wstep_thr. rewrite Eo, E, Es. eauto. Qed.

(** The holder of [mpiLock], or a thread it waits for, can move. *)
Lemma holder_moves w p t : winv w -> w_lib w p = Some t -> exists a w', wst w a = Some w'.
Proof.
  intros Hi E. destruct (wi_lib w Hi p t E) as (El & Er & g & Hg).
  destruct (wi_cur w Hi g t (in_lib w t g Hi Hg)) as (rest & Eo).
  assert (gwf (cfgs g)) as Hw by apply Hwf. pose proof (wi_reach w Hi g) as Hr.
  assert (forall t', inside (cfgs g) (w_grid w g) t' = true -> exists a w', wst w a = Some w') as Hins.
  { intros t' Hin. destruct (g_inside _ _ _ Hw Hr Hin) as (Hn & ch & gs' & Es).
    destruct (wi_cur w Hi g t' (in_lib w t' g Hi (or_intror Hin))) as (rest' & Eo').
    eapply can_thr; eauto. now rewrite Hn, andb_false_r. }
  destruct Hg as [Hn|Hin]; [|eauto].
  destruct (g_needs _ _ _ Hw Hr Hn) as (t' & ch & gs' & Es & [->|Hin]); [|eauto].
  eapply can_thr; eauto. unfold holds_lib. rewrite Er, E, Nat.eqb_refl. apply andb_false_r.
Qed.

Lemma w_progress w t : winv w -> w_order w t <> [] -> exists a w', wst w a = Some w'.
Proof.
  intros Hi Hne. destruct (w_order w t) as [|g rest] eqn:Eo; [congruence|].
  assert (gwf (cfgs g)) as Hw by apply Hwf. pose proof (wi_reach w Hi g) as Hr.
  assert (0 < gtodo (w_grid w g) t) as Ht.
  { rewrite <- (wi_cnt w Hi), Eo. rewrite count_occ_cons_eq by auto. lia. }
  destruct (g_progress _ _ t Hw Hr Ht) as [(t' & ch & gs' & Es & Hb)|(r & ch & gs' & Es)].
  - assert (exists rest', w_order w t' = g :: rest') as (rest' & Eo').
    { destruct Hb as [->|Hb]; [eauto|]. apply (wi_cur w Hi g t' Hb). }
    destruct (lib && needs (cfgs g) (w_grid w g) t' && negb (holds_lib rk w t')) eqn:Ea; [|eapply can_thr; eauto].
    destruct (w_lib w (rk t')) as [t''|] eqn:El; [eapply holder_moves; eauto|].
    exists (WThr t' ch). cbn. unfold wstep_thr. rewrite Eo', Ea, El. eauto.
  - assert (g < G) as Hg.
    { pose proof (wi_ord w Hi t) as Hf. rewrite Eo in Hf. now inversion Hf. }
    destruct (existsb (fun g' => negb (g' =? g) && com_busy (w_grid w g') r) (seq 0 G)) eqn:Ee.
    + apply existsb_exists in Ee as (g' & Hin & Hb). apply andb_true_iff in Hb as [_ Hb].
      destruct (wi_com w Hi g' r Hb) as [Hg' Huni].
      destruct (g_busy_com _ _ r (proj1 Hwf g') (wi_reach w Hi g') Hb) as (ch' & gs2 & Es2).
      exists (WCom g' r ch'). cbn. unfold wstep_com. apply Nat.ltb_lt in Hg'. rewrite Hg'.
      destruct (existsb (fun g0 => negb (g0 =? g') && com_busy (w_grid w g0) r) (seq 0 G)) eqn:Ee2.
      * exfalso. apply existsb_exists in Ee2 as (x & Hx & Hxb). apply andb_true_iff in Hxb as [Hxn Hxb].
        apply in_seq in Hx. rewrite (Huni x ltac:(lia) Hxb), Nat.eqb_refl in Hxn. discriminate.
      * cbn. rewrite Es2. eauto.
    + exists (WCom g r ch). cbn. unfold wstep_com. apply Nat.ltb_lt in Hg. rewrite Hg, Ee. cbn. rewrite Es. eauto.
Qed.

(** ** Exclusion *)
Lemma w_exclusive w g g' t t' : lib = true -> reach w -> rk t = rk t' ->
  inside (cfgs g) (w_grid w g) t = true -> inside (cfgs g') (w_grid w g') t' = true -> t = t' /\ g = g'.
Proof.
  intros El Hr E H H'. pose proof (wreach_inv w Hr) as Hi.
  pose proof (wi_in w Hi t g El H) as E1. pose proof (wi_in w Hi t' g' El H') as E2. rewrite <- E, E1 in E2. injection E2 as ->.
  split; auto. eapply one_grid; [exact Hi|apply in_lib; eauto|apply in_lib; eauto].
Qed.

(** ** The reads of a thread are done in order *)
Lemma w_suffix w t : reach w -> exists k, w_order w t = skipn k (order t).
Proof.
  intros (l0 & acts & _ & H). assert (exists k, w_order (winit cfgs order l0) t = skipn k (order t)) as H0 by (exists 0; auto).
  revert H0 H. generalize (winit cfgs order l0). induction acts as [|a acts IH]; cbn [wrun]; intros w0 H0 H; [now injection H as <-|].
  destruct (wst w0 a) as [w1|] eqn:E; [|discriminate]. refine (IH w1 _ H). clear - H0 E.
  destruct a as [t' ch|g r ch]; cbn in E.
  - unfold wstep_thr in E. destruct (w_order w0 t') as [|g rest] eqn:Eo; [discriminate|].
    destruct (lib && _ && _). { destruct (w_lib w0 (rk t')); [discriminate|]. now injection E as <-. }
    destruct (gstep_thr _ _ t' ch) as [gs'|]; [|discriminate]. injection E as <-. cbn. destruct (_ <? _); auto.
    unfold upd. destruct (Nat.eqb_spec t t') as [->|]; auto. destruct H0 as (k & E). exists (S k).
    rewrite Eo in E. clear - E. revert E. generalize (order t'). induction k; intros l E; [cbn in E; now subst|].
    destruct l; [discriminate|]. cbn in E. exact (IHk l E).
  - unfold wstep_com in E. destruct (_ && _); [|discriminate]. destruct (gstep_com _ _ r ch); [|discriminate]. now injection E as <-.
Qed.

(** ** Termination *)
Definition gtotal (N : nat) (gc : gcfg V) (gs : gst V) : nat :=
  match gc, gs with GC c, SC s => total c N s | GF c, SF s => utotal c N s | _, _ => 0 end.
Definition gcost (gc : gcfg V) : nat :=
  match gc with GC c => cf_cells c + 5 * cf_doms c + 17 | GF c => fc_cells c + 5 * d_domains (fc_dist c) + 13 end.
Definition polls (gc : gcfg V) : Prop := match gc with GC c => cf_mode c = MThread | GF _ => False end.

Lemma gtotal_step N gc gs gs' : gwf gc -> greach gc gs -> ~ polls gc -> (forall t, N <= t -> gtodo gs t = 0) ->
  (exists t ch, gstep_thr gc gs t ch = Some gs') \/ (exists r ch, gstep_com gc gs r ch = Some gs') ->
  gtotal N gc gs' < gtotal N gc gs.
Proof.
  intros Hw Hr Hm HN H. destruct gc as [c|c], gs as [s|s]; cbn in Hr; try tauto.
  - assert (exists a s', step c s a = Some s' /\ gs' = SC s') as (a & s' & E & ->).
    { destruct H as [(t & ch & H)|(r & ch & H)]; cbn [gstep_thr gstep_com] in H.
      - destruct (step_thr c s t ch) as [s'|] eqn:E; [|discriminate]. injection H as <-. exists (AThr t ch), s'. auto.
      - destruct (step c s (ACom r ch)) as [s'|] eqn:E; [|discriminate]. injection H as <-. exists (ACom r ch), s'. auto. }
    cbn [gtotal]. pose proof (run_bound c Hw N [a] Hm s s' (reach_inv c Hw s Hr)) as Hb. cbn [length] in Hb.
    assert (total c N s' + 1 <= total c N s); [|lia]. apply Hb.
    + intros t Ht. specialize (HN t Ht). cbn in HN. now destruct (t_todo (s_thr s t)).
    + cbn [run]. now rewrite E.
  - assert (exists a s', ustep c s a = Some s' /\ gs' = SF s') as (a & s' & E & ->).
    { destruct H as [(t & ch & H)|(r & ch & H)]; cbn [gstep_thr gstep_com] in H.
      - destruct (ustep_thr c s t (ch_fail ch)) as [s'|] eqn:E; [|discriminate]. injection H as <-. exists (UThr t (ch_fail ch)), s'. auto.
      - destruct (ustep c s (UCom r (ch_src ch))) as [s'|] eqn:E; [|discriminate]. injection H as <-. exists (UCom r (ch_src ch)), s'. auto. }
    cbn [gtotal]. apply (utotal_step c Hw N s a s' (ureach_inv c Hw s Hr)); auto.
    intros t Ht. specialize (HN t Ht). cbn in HN. now destruct (q_todo (u_thr s t)).
Qed.

Lemma gtotal_init N gc l0 : gtotal N gc (ginit gc l0) = sum (fun t => gcost gc * gprog gc t) N.
Proof. destruct gc as [c|c]; cbn [gtotal ginit gcost gprog]; [apply total_init|apply utotal_init]. Qed.

(** Steps in the grids count twice: one of them may unlock [mpiLock], so that it is locked again. *)
Definition pot (N : nat) (w : world V) : nat :=
  2 * sum (fun g => gtotal N (cfgs g) (w_grid w g)) G + sum (fun t => if holds_lib rk w t then 0 else 1) N.

Lemma pot_step N w a w' : (forall g, g < G -> ~ polls (cfgs g)) -> winv w -> (forall t, N <= t -> w_order w t = []) ->
  wst w a = Some w' -> pot N w' < pot N w /\ forall t, N <= t -> w_order w' t = [].
Proof.
  intros Hm Hi HN H.
  assert (forall g t, N <= t -> gtodo (w_grid w g) t = 0) as HN'.
  { intros g t Ht. rewrite <- (wi_cnt w Hi), HN; auto. }
  destruct a as [t ch|g r ch]; cbn in H.
  - unfold wstep_thr in H. destruct (w_order w t) as [|g rest] eqn:Eo; [discriminate|].
    assert (t < N) as Ht. { destruct (lt_dec t N); auto. rewrite HN in Eo by lia. discriminate. }
    assert (g < G) as Hg. { pose proof (wi_ord w Hi t) as Hf. rewrite Eo in Hf. now inversion Hf. }
    destruct (lib && needs (cfgs g) (w_grid w g) t && negb (holds_lib rk w t)) eqn:Ea.
    + destruct (w_lib w (rk t)) eqn:Eb; [discriminate|]. injection H as <-. split; [|exact HN].
      unfold pot. cbn [w_grid]. apply Nat.add_lt_mono_l. apply sum_lt with (j := t); auto.
      * unfold holds_lib. cbn [w_lib]. rewrite upd_eq, Eb, Nat.eqb_refl. lia.
      * intros i Hne. unfold holds_lib. cbn [w_lib]. unfold upd. destruct (Nat.eqb_spec (rk i) (rk t)) as [E|]; auto.
        rewrite E, Eb. destruct (Nat.eqb_spec t i); [congruence|reflexivity].
    + destruct (gstep_thr (cfgs g) (w_grid w g) t ch) as [gs'|] eqn:Es; [|discriminate]. injection H as <-.
      assert (gwf (cfgs g)) as Hw by apply Hwf. pose proof (wi_reach w Hi g) as Hr. split.
      2:{ cbn. intros t' Ht'. destruct (_ <? _); auto. rewrite upd_ne by lia. auto. }
      pose proof (gtotal_step N _ _ gs' Hw Hr (Hm g Hg) (HN' g) (or_introl (ex_intro _ t (ex_intro _ ch Es)))) as Hlt.
      unfold pot. cbn [w_grid].
      assert (sum (fun x => gtotal N (cfgs x) (upd (w_grid w) g gs' x)) G < sum (fun x => gtotal N (cfgs x) (w_grid w x)) G) as Hs.
      { apply sum_lt with (j := g); auto; [now rewrite upd_eq|]. intros i Hne. now rewrite upd_ne. }
      assert (sum (fun x => if holds_lib rk (World (upd (w_grid w) g gs')
          (if lib && frees (cfgs g) (w_grid w g) t then upd (w_lib w) (rk t) None else w_lib w)
          (if gtodo gs' t <? gtodo (w_grid w g) t then upd (w_order w) t rest else w_order w)) x then 0 else 1) N
        <= 1 + sum (fun x => if holds_lib rk w x then 0 else 1) N) as Hl; [|lia].
      destruct (lib && frees (cfgs g) (w_grid w g) t) eqn:Ef.
      * apply andb_true_iff in Ef as [El Ef]. pose proof (g_thr _ _ _ _ _ Hw Hr Es) as (_ & _ & _ & _ & _ & _ & _ & Hfr).
        pose proof (wi_in w Hi t g El (Hfr Ef)) as Elk.
        pose proof (sum_at (fun x => if holds_lib rk (World (upd (w_grid w) g gs') (upd (w_lib w) (rk t) None)
          (if gtodo gs' t <? gtodo (w_grid w g) t then upd (w_order w) t rest else w_order w)) x then 0 else 1)
          (fun x => if holds_lib rk w x then 0 else 1) N t Ht) as Hsum. cbv beta in Hsum.
        assert (forall (b : bool), (if b then 0 else 1) <= 1) as Hb1 by (intros []; lia).
        match type of Hsum with ?A -> _ => assert A as Hoth end.
        { intros i Hne. unfold holds_lib. cbn [w_lib]. unfold upd. destruct (Nat.eqb_spec (rk i) (rk t)) as [E|]; auto.
          rewrite E, Elk. destruct (Nat.eqb_spec t i); [congruence|reflexivity]. }
        specialize (Hsum Hoth). clear Hoth.
        match type of Hsum with _ = _ + ?b => assert (b <= 1) by apply Hb1 end. lia.
      * unfold holds_lib. cbn [w_lib]. lia.
  - unfold wstep_com in H. destruct (Nat.ltb_spec g G) as [Hg|]; [|discriminate]. destruct (_ && _); [|discriminate].
    destruct (gstep_com (cfgs g) (w_grid w g) r ch) as [gs'|] eqn:Es; [|discriminate]. injection H as <-. split; [|exact HN].
    pose proof (gtotal_step N _ _ gs' (proj1 Hwf g) (wi_reach w Hi g) (Hm g Hg) (HN' g) (or_intror (ex_intro _ r (ex_intro _ ch Es)))) as Hlt.
    unfold pot. cbn [w_grid].
    assert (sum (fun x => gtotal N (cfgs x) (upd (w_grid w) g gs' x)) G < sum (fun x => gtotal N (cfgs x) (w_grid w x)) G) as Hs.
    { apply sum_lt with (j := g); auto; [now rewrite upd_eq|]. intros i Hne. now rewrite upd_ne. }
    unfold holds_lib. cbn [w_lib]. lia.
Qed.

Lemma pot_run N acts : (forall g, g < G -> ~ polls (cfgs g)) -> forall w w', winv w -> (forall t, N <= t -> w_order w t = []) ->
  wrun lib G rk cfgs w acts = Some w' -> pot N w' + length acts <= pot N w.
Proof.
  intros Hm. induction acts as [|a acts IH]; cbn [wrun]; intros w w' Hi HN H; [injection H as ->; cbn; lia|].
  destruct (wst w a) as [w1|] eqn:E; [|discriminate].
  destruct (pot_step N w a w1 Hm Hi HN E) as [H1 H2]. pose proof (IH w1 w' (winv_step w a w1 Hi E) H2 H). cbn [length]. lia.
Qed.

Lemma w_bounded N l0 acts w : (forall g, g < G -> ~ polls (cfgs g)) -> (forall t, N <= t -> order t = []) ->
  (forall g, clist_init (gsize (cfgs g)) (gspread (cfgs g)) = Ok (l0 g)) -> wrun lib G rk cfgs (winit cfgs order l0) acts = Some w ->
  length acts <= 2 * sum (fun g => sum (fun t => gcost (cfgs g) * gprog (cfgs g) t) N) G + N.
Proof.
  intros Hm HN E H. pose proof (pot_run N acts Hm (winit cfgs order l0) w (winv_init l0 E) HN H) as Hb.
  assert (pot N (winit cfgs order l0) = 2 * sum (fun g => sum (fun t => gcost (cfgs g) * gprog (cfgs g) t) N) G + N) as Ep; [|lia].
  unfold pot. f_equal.
  - f_equal. apply sum_ext. intros g. apply gtotal_init.
  - unfold holds_lib. cbn [w_lib winit]. clear. induction N; cbn [sum]; lia.
Qed.

Lemma w_no_deadlock w t : reach w -> w_order w t <> [] -> exists a w', wst w a = Some w'.
Proof. intros Hr. apply w_progress. now apply wreach_inv. Qed.

Lemma w_alone w : reach w -> forall g, greach (cfgs g) (w_grid w g).
Proof. intros Hr. apply (wi_reach w (wreach_inv w Hr)). Qed.

Lemma w_left w : reach w -> forall t g, count_occ Nat.eq_dec (w_order w t) g = gtodo (w_grid w g) t.
Proof. intros Hr. apply (wi_cnt w (wreach_inv w Hr)). Qed.
End World.

(** ** Grids of files *)
Section Kinds.
Context {V : Type}.

(** A grid: its file, its blocks and the settings of its caches. *)
Inductive kind :=
  | KCache (m : mode) (f : file V) (bl : blocked) (opaque : bool) (dm0 : dist_mode) (D n : nat) (spread : Z)
           (dm : nat -> nat) (dict : nat -> list nat)
  | KFull (m : mpi_kind) (p : numa_policy) (f : file V) (bl : blocked) (opaque : bool) (dm0 : dist_mode) (D n : nat) (spread : Z)
          (dm : nat -> nat).

Definition kfile (k : kind) : file V := match k with KCache _ f _ _ _ _ _ _ _ _ => f | KFull _ _ f _ _ _ _ _ _ _ => f end.
Definition kcells (k : kind) : nat :=
  match k with KCache _ _ bl _ _ _ _ _ _ _ => b_tbs bl | KFull _ _ _ bl _ _ _ _ _ _ => b_tbs bl end.
Definition kdoms (k : kind) : nat := match k with KCache _ _ _ _ _ D _ _ _ _ => D | KFull _ _ _ _ _ _ D _ _ _ => D end.
(** Cached grid whose blocks are exchanged by the communication thread: its readers may poll for ever (C61). *)
Definition kpolls (k : kind) : bool := match k with KCache MThread _ _ _ _ _ _ _ _ _ => true | _ => false end.

Definition kset (P : nat) (rk : nat -> nat) (k : kind) (ixs : nat -> list (list nat)) : Prop :=
  match k with
  | KCache m f bl _ _ D n spread dm dict => setting m f bl P D n spread rk dm dict ixs
  | KFull m p f bl _ _ D n spread dm => full_setting m p f bl P D n spread rk dm ixs
  end.

(** The state of the grid after [open] on all ranks. *)
Definition kcfg (P : nat) (rk : nat -> nat) (k : kind) (ixs : nat -> list (list nat)) : gcfg (option V) :=
  match k with
  | KCache m f bl opaque dm0 D n spread dm dict => GC (readers m f bl opaque dm0 P D n spread rk dm dict ixs)
  | KFull m p f bl opaque dm0 D n spread dm =>
      let d := Dist dm0 P D (b_total bl) in
      GF (full_readers m p bl d n spread rk dm
            (match fd_open (Geom bl f opaque) d n spread with Ok s0 => fd_store s0 | Ub => fun _ => mem_new V 0 end) ixs)
  end.

(** Values returned by the reads of thread [t] from one grid. *)
Definition gdone {W} (gs : gst W) (t : nat) : list (option W) :=
  match gs with SC s => map snd (t_done (s_thr s t)) | SF s => map snd (q_done (u_thr s t)) end.

Lemma kset_wf P rk k ixs : kset P rk k ixs -> gwf (kcfg P rk k ixs) /\
  (forall t, gprog (kcfg P rk k ixs) t = length (ixs t)) /\
  (exists l0, clist_init (gsize (kcfg P rk k ixs)) (gspread (kcfg P rk k ixs)) = Ok l0) /\
  forall gs, greach (kcfg P rk k ixs) gs -> forall t, exists j,
    gdone gs t = map (fun ix => Some (Some (f_val (kfile k) ix))) (firstn j (ixs t)) /\ gtodo gs t = length (ixs t) - j.
Proof.
  assert (forall n spread, 0 < n -> (spread < Z.of_nat n)%Z -> exists l0, clist_init n spread = Ok l0) as Hci.
  { intros n spread Hn Hs. assert (eff_spread n spread < n) as Hh.
    { unfold eff_spread. destruct (Z.ltb_spec spread 0); [apply Nat.div_lt; lia|lia]. }
    destruct (clist_init_spec n spread Hn Hh) as (l & El2 & _). eauto. }
  destruct k as [m f bl opaque dm0 D n spread dm dict|m p f bl opaque dm0 D n spread dm]; cbn [kset kcfg kfile]; intros H.
  - split; [exact (proj1 (readers_wf m f bl opaque dm0 P D n spread rk dm dict ixs H))|].
    split; [intros t; cbn; apply map_length|].
    split; [destruct H as (_ & _ & Hn & Hs & _); exact (Hci n spread Hn Hs)|].
    intros [s|s] Hr; cbn in Hr; try tauto. exact (readers_values m f bl opaque dm0 P D n spread rk dm dict ixs s H Hr).
  - destruct (full_values m p f bl opaque dm0 P D n spread rk dm ixs H) as (s0 & E & Hc & Hv). rewrite E.
    split; [exact Hc|]. split; [intros t; cbn; apply map_length|].
    split; [destruct H as (_ & _ & Hn & Hs & _); exact (Hci n spread Hn Hs)|].
    intros [s|s] Hr; cbn in Hr; try tauto. exact (Hv s Hr).
Qed.

Variable lib : bool.
Variables G P : nat.
Variable rk : nat -> nat.
Variable kinds : nat -> kind.
(** The reads of a thread: grid and position. *)
Variable reads : nat -> list (nat * list nat).

Definition of_grid (g : nat) (l : list (nat * list nat)) : list (list nat) := map snd (filter (fun x => fst x =? g) l).
Definition kcfgs (g : nat) : gcfg (option V) := kcfg P rk (kinds g) (fun t => of_grid g (reads t)).
Definition korder (t : nat) : list nat := map fst (reads t).

Definition all_set : Prop :=
  (forall g, kset P rk (kinds g) (fun t => of_grid g (reads t))) /\ forall t, Forall (fun x => fst x < G) (reads t).

Lemma count_of_grid g l : count_occ Nat.eq_dec (map fst l) g = length (of_grid g l).
Proof.
  unfold of_grid. rewrite map_length. induction l as [|[a ix] l IH]; cbn [map filter fst]; auto.
  destruct (Nat.eqb_spec a g) as [->|Hne]; [rewrite (count_occ_cons_eq Nat.eq_dec) by auto|rewrite (count_occ_cons_neq Nat.eq_dec) by auto]; cbn; auto.
Qed.

Lemma k_wf : all_set -> wf_world G kcfgs korder.
Proof.
  intros [H1 H2]. split; [|split].
  - intros g. apply (kset_wf P rk _ _ (H1 g)).
  - intros t. unfold korder. apply Forall_map. apply H2.
  - intros t g. unfold korder, kcfgs. rewrite count_of_grid. destruct (kset_wf P rk _ _ (H1 g)) as (_ & E & _). now rewrite E.
Qed.

Lemma k_starts : all_set -> exists l0, forall g, clist_init (gsize (kcfgs g)) (gspread (kcfgs g)) = Ok (l0 g).
Proof.
  intros [H1 _]. assert (forall g, exists l0, clist_init (gsize (kcfgs g)) (gspread (kcfgs g)) = Ok l0) as H.
  { intros g. apply (kset_wf P rk _ _ (H1 g)). }
  destruct (H 0) as (d & _). exists (fun g => match clist_init (gsize (kcfgs g)) (gspread (kcfgs g)) with Ok l => l | Ub => d end).
  intros g. destruct (H g) as (l & E). now rewrite E.
Qed.

(** The completed reads of a thread are the first ones of its program, and returned the values of the files. *)
Lemma k_values : all_set -> forall w, wreach lib G rk kcfgs korder w -> forall t, exists n,
  w_order w t = map fst (skipn n (reads t)) /\
  forall g, gdone (w_grid w g) t = map (fun ix => Some (Some (f_val (kfile (kinds g)) ix))) (of_grid g (firstn n (reads t))).
Proof.
  intros Hs w Hr t. pose proof (k_wf Hs) as Hw. destruct (w_suffix lib G rk kcfgs korder w t Hr) as (n & En).
  exists n. split.
  { rewrite En. unfold korder. apply skipn_map. }
  intros g. destruct (kset_wf P rk _ _ (proj1 Hs g)) as (_ & _ & _ & Hv).
  destruct (Hv _ (w_alone lib G rk kcfgs korder Hw w Hr g) t) as (j & E1 & E2). rewrite E1.
  rewrite <- (w_left lib G rk kcfgs korder Hw w Hr t g), En in E2. unfold korder in E2. rewrite skipn_map, count_of_grid in E2.
  f_equal. assert (of_grid g (reads t) = of_grid g (firstn n (reads t)) ++ of_grid g (skipn n (reads t))) as E.
  { rewrite <- (firstn_skipn n (reads t)) at 1. unfold of_grid. now rewrite filter_app, map_app. }
  rewrite E in *. rewrite app_length in E2. rewrite firstn_app.
  destruct (le_lt_dec j (length (of_grid g (firstn n (reads t))))) as [Hle|Hlt].
  - assert (j = length (of_grid g (firstn n (reads t)))) as -> by lia. rewrite Nat.sub_diag. cbn. now rewrite app_nil_r, firstn_all.
  - assert (length (of_grid g (skipn n (reads t))) = 0) as E0 by lia. destruct (of_grid g (skipn n (reads t))); [|discriminate].
    rewrite firstn_nil, app_nil_r. apply firstn_all2. lia.
Qed.

Lemma k_finishes N : all_set -> (forall g, g < G -> kpolls (kinds g) = false) -> (forall t, N <= t -> reads t = []) ->
  forall l0 acts w, (forall g, clist_init (gsize (kcfgs g)) (gspread (kcfgs g)) = Ok (l0 g)) ->
  wrun lib G rk kcfgs (winit kcfgs korder l0) acts = Some w ->
  length acts <= 2 * sum (fun g => sum (fun t => (kcells (kinds g) + 5 * kdoms (kinds g) + 17) * length (of_grid g (reads t))) N) G + N /\
  ((forall a, wstep lib G rk kcfgs w a = None) ->
   forall t g, gdone (w_grid w g) t = map (fun ix => Some (Some (f_val (kfile (kinds g)) ix))) (of_grid g (reads t))).
Proof.
  intros Hs Hp HN l0 acts w E H. pose proof (k_wf Hs) as Hw. split.
  - assert (forall g, g < G -> ~ polls (kcfgs g)) as Hm.
    { intros g Hg. specialize (Hp g Hg). unfold kcfgs. destruct (kinds g) as [m ? ? ? ? ? ? ? ? ?|]; cbn in *; [|tauto].
      destruct m; congruence. }
    assert (forall t, N <= t -> korder t = []) as HN' by (intros t Ht; unfold korder; now rewrite HN).
    pose proof (w_bounded lib G rk kcfgs korder Hw N l0 acts w Hm HN' E H) as Hb.
    etransitivity; [exact Hb|]. apply Nat.add_le_mono_r. apply Nat.mul_le_mono_l. apply sum_le. intros g _. apply sum_le. intros t _.
    unfold kcfgs. destruct (kset_wf P rk _ _ (proj1 Hs g)) as (_ & Eg & _). rewrite Eg. apply Nat.mul_le_mono_r.
    destruct (kinds g); cbn [kcfg gcost kcells kdoms]; cbn; lia.
  - intros Hst t g. assert (wreach lib G rk kcfgs korder w) as Hr by (exists l0, acts; auto).
    destruct (k_values Hs w Hr t) as (n & En & Ev). rewrite Ev. f_equal. f_equal. 
    assert (w_order w t = []) as E0.
    { destruct (w_order w t) eqn:Eo; auto. exfalso.
      destruct (w_no_deadlock lib G rk kcfgs korder Hw w t Hr) as (a & w' & Ha); congruence. }
    rewrite E0 in En. apply firstn_all2. symmetry in En. apply map_eq_nil in En.
    destruct (le_lt_dec (length (reads t)) n); auto. exfalso. apply (f_equal (@length _)) in En. rewrite skipn_length in En. cbn in En. lia.
Qed.
End Kinds.

(** ** A scheduler for the examples *)
Section WSched.
Context {V : Type} (lib : bool) (G : nat) (rk : nat -> nat) (cfgs : nat -> gcfg V).

Definition w_act (N P : nat) (z : Z) : wact (V := V) :=
  let z1 := rnd z in let z2 := rnd z1 in let z3 := rnd z2 in
  let ch := Choice (pick z1 4 =? 0) (pick z2 5) (fun _ => None) (pick z1 3) (pick z2 P) in
  let x := pick z3 (N + P) in
  if x <? N then WThr x ch else WCom (pick z1 G) (x - N) ch.

Fixpoint wplan (fuel N P : nat) (z : Z) (w : world V) : list (wact (V := V)) * world V :=
  match fuel with
  | 0 => ([], w)
  | S fuel' =>
      match wstep lib G rk cfgs w (w_act N P z) with
      | Some w' => let (l, w'') := wplan fuel' N P (rnd (rnd z)) w' in (w_act N P z :: l, w'')
      | None => wplan fuel' N P (rnd (rnd z)) w
      end
  end.

Lemma wplan_run fuel N P z w : wrun lib G rk cfgs w (fst (wplan fuel N P z w)) = Some (snd (wplan fuel N P z w)).
Proof.
  revert z w. induction fuel as [|fuel IH]; intros z w; cbn [wplan]; auto.
  destruct (wstep lib G rk cfgs w (w_act N P z)) as [w'|] eqn:E; auto.
  specialize (IH (rnd (rnd z)) w'). destruct (wplan fuel N P (rnd (rnd z)) w') as [l w''].
  cbn [fst snd wrun] in *. now rewrite E.
Qed.
End WSched.
