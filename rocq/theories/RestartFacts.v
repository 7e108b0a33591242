(** * Facts about starting and stopping the communication thread *)
From Coq Require Import Bool Lia.
From Verif Require Import RestartModel RestartSpec.

Definition about (e : ev) : nat :=
  match e with EvStart r _ | EvStop r | EvReg r _ | EvNoReg r _ | EvUnreg r _ => r end.

(** ** Events of other processes *)
Lemma other_events r es tr :
  Forall (fun e => about e <> r) es ->
  running r (es ++ tr) = running r tr /\ (forall t, in_use r (es ++ tr) t <-> in_use r tr t) /\
  starts r (es ++ tr) = starts r tr /\ regs r (es ++ tr) = regs r tr.
Proof.
  induction 1 as [|e es He _ IH]; [cbn; tauto|]. destruct IH as (R & U & S & G).
  unfold starts, regs in *. cbn [app].
  destruct e as [r' e'|r'|r' t'|r' e'|r' t']; cbn [about] in He;
    assert (E : (r =? r') = false) by (apply Nat.eqb_neq; lia).
  - destruct e'; cbn [running in_use filter is_start is_reg]; rewrite ?E; cbn; auto.
  - cbn [running in_use filter is_start is_reg]. rewrite E. cbn. split; [exact R|]. split; [|split; auto].
    intro t. rewrite U. intuition congruence.
  - cbn [running in_use filter is_start is_reg]. rewrite E. cbn. split; [exact R|]. split; [|split; auto].
    intro t. rewrite U. intuition congruence.
  - cbn [running in_use filter is_start is_reg]. auto.
  - cbn [running in_use filter is_start is_reg]. split; [exact R|]. split; [|split; auto].
    intro t. rewrite U. intuition congruence.
Qed.

Lemma one_event (g : nat -> ev) l r tr :
  (forall x, about (g x) = x) -> NoDup l -> In r l ->
  exists es1 es2, rev (map g l) ++ tr = es1 ++ g r :: (es2 ++ tr) /\
    Forall (fun e => about e <> r) es1 /\ Forall (fun e => about e <> r) es2.
Proof.
  intros Hg Hnd Hin. apply in_split in Hin. destruct Hin as (l1 & l2 & ->).
  exists (rev (map g l2)), (rev (map g l1)). split; [|split].
  - rewrite map_app, rev_app_distr. cbn. rewrite <- !app_assoc. reflexivity.
  - apply Forall_forall. intros e He. apply in_rev in He. apply in_map_iff in He. destruct He as (x & <- & Hx).
    rewrite Hg. intros ->. apply NoDup_remove_2 in Hnd. apply Hnd. apply in_or_app. now right.
  - apply Forall_forall. intros e He. apply in_rev in He. apply in_map_iff in He. destruct He as (x & <- & Hx).
    rewrite Hg. intros ->. apply NoDup_remove_2 in Hnd. apply Hnd. apply in_or_app. now left.
Qed.

Lemma no_event (g : nat -> ev) l r :
  (forall x, about (g x) = x) -> ~ In r l -> Forall (fun e => about e <> r) (rev (map g l)).
Proof.
  intros Hg Hn. apply Forall_forall. intros e He. apply in_rev in He. apply in_map_iff in He.
  destruct He as (x & <- & Hx). rewrite Hg. congruence.
Qed.

Lemma member_In l r : member l r = true <-> In r l.
Proof.
  unfold member. rewrite existsb_exists. split.
  - intros (x & Hx & E). apply Nat.eqb_eq in E. now subst.
  - intro H. exists r. split; [exact H|]. apply Nat.eqb_refl.
Qed.

(** ** The state of a process from what it has seen *)
Definition good (p : proc) (run : bool) (use : nat -> Prop) (n : nat) : Prop :=
  (if run then exists c, p_comm p = Some c /\ p_run p = Some c /\ p_live p = [c]
   else p_comm p = None /\ p_run p = None /\ p_live p = [] /\ p_next p = 0 /\ p_tags p = []) /\
  p_groups p = n /\ (forall t, In t (p_tags p) <-> use t) /\ (forall t, In t (p_tags p) -> t < p_next p).
Definition inv (s : sys) (tr : list ev) : Prop :=
  forall r, good (s r) (running r tr) (in_use r tr) (starts r tr + regs r tr).

Lemma good_iff p b u v n : (forall t, u t <-> v t) -> good p b u n -> good p b v n.
Proof. intros H (A & B & C & D). repeat split; auto; intros; [apply H, C|apply C, H]; auto. Qed.

Lemma inv_other s tr es r p :
  inv s tr -> Forall (fun e => about e <> r) es -> p = s r ->
  good p (running r (es ++ tr)) (in_use r (es ++ tr)) (starts r (es ++ tr) + regs r (es ++ tr)).
Proof.
  intros Hi He ->. destruct (other_events r es tr He) as (R & U & S & G). rewrite R, S, G.
  apply good_iff with (u := in_use r tr); [intro t; symmetry; apply U|]. apply Hi.
Qed.

Lemma inv_init : inv sys0 [].
Proof. intro r. cbn. repeat split; auto; try contradiction. Qed.

Lemma initialized_running s tr r : inv s tr -> initialized (s r) = running r tr.
Proof.
  intro Hi. destruct (Hi r) as (A & _). unfold initialized. destruct (running r tr).
  - destruct A as (c & -> & _). reflexivity.
  - destruct A as (-> & _). reflexivity.
Qed.
Lemma any_running s tr l : inv s tr ->
  existsb (fun r => initialized (s r)) l = existsb (fun r => running r tr) l.
Proof.
  intro Hi. induction l as [|x l IH]; cbn; [reflexivity|]. now rewrite IH, (initialized_running s tr x Hi).
Qed.
Lemma all_running s tr l : inv s tr ->
  forallb (fun r => initialized (s r)) l = forallb (fun r => running r tr) l.
Proof.
  intro Hi. induction l as [|x l IH]; cbn; [reflexivity|]. now rewrite IH, (initialized_running s tr x Hi).
Qed.
Lemma receives_running s tr r : inv s tr -> receives (s r) = running r tr.
Proof.
  intro Hi. destruct (Hi r) as (A & _). unfold receives. destruct (running r tr).
  - destruct A as (c & -> & -> & _). apply Nat.eqb_refl.
  - destruct A as (-> & _). reflexivity.
Qed.

Lemma next_tag_ge s l r : In r l -> p_next (s r) <= next_tag s l.
Proof.
  unfold next_tag. induction l as [|x l IH]; cbn; [easy|]. intros [->|H]; [lia|]. specialize (IH H). lia.
Qed.

(** ** One step *)
Lemma start_events s tr l f : inv s tr ->
  step s (Start l f) =
    Done (at_all l (fun r p => snd (init (existsb (fun r => running r tr) l) (f r) p)) s,
          map (fun r => EvStart r (report (existsb (fun r => running r tr) l) (f r))) l).
Proof.
  intros Hi. cbn [step]. rewrite (any_running s tr l Hi). f_equal. f_equal.
  apply map_ext. intros r. unfold init. now destruct (f r), (existsb _ l).
Qed.

Lemma existsb_false_In {A} (f : A -> bool) l x : existsb f l = false -> In x l -> f x = false.
Proof.
  intros H Hx. destruct (f x) eqn:E; [|reflexivity]. exfalso. rewrite <- not_true_iff_false in H. apply H.
  apply existsb_exists. eauto.
Qed.

Lemma step_inv s tr o s' es : inv s tr -> mild o -> step s o = Done (s', es) -> inv s' (rev es ++ tr).
Proof.
  intros Hi Hc Hs. destruct o as [l f|r0|l f|r0 t0].
  - rewrite (start_events s tr l f Hi) in Hs. destruct Hc as (Hnd & Hf).
    injection Hs as <- <-. intro r. unfold at_all.
    destruct (member l r) eqn:Em.
    + apply member_In in Em.
      set (g := fun r => EvStart r (report (existsb (fun r => running r tr) l) (f r))).
      destruct (one_event g l r tr) as (es1 & es2 & -> & H1 & H2); [reflexivity|exact Hnd|exact Em|].
      destruct (other_events r es1 (g r :: es2 ++ tr) H1) as (R1 & U1 & S1 & G1).
      destruct (other_events r es2 tr H2) as (R2 & U2 & S2 & G2).
      rewrite R1, S1, G1. apply good_iff with (u := in_use r (g r :: es2 ++ tr)); [intro t; symmetry; apply U1|].
      assert (Same : forall e, e <> ESuccess ->
        good (s r) (running r (EvStart r e :: es2 ++ tr)) (in_use r (EvStart r e :: es2 ++ tr))
             (starts r (EvStart r e :: es2 ++ tr) + regs r (EvStart r e :: es2 ++ tr))).
      { intros e He. unfold starts, regs in *. destruct e; [congruence| | | |];
          cbn [running in_use filter is_start is_reg]; rewrite R2, S2, G2;
          (apply good_iff with (u := in_use r tr); [intro t; symmetry; apply U2|]; apply Hi). }
      unfold g. destruct (existsb (fun r => running r tr) l) eqn:Ea.
      * destruct (Hf r Em) as [F|[F|F]]; rewrite F; cbn [init snd report]; apply Same; discriminate.
      * destruct (Hf r Em) as [F|[F|F]]; rewrite F; cbn [report];
          [|cbn [init snd]; apply Same; discriminate|cbn [init snd]; apply Same; discriminate].
        clear Same. pose proof (existsb_false_In _ l r Ea Em) as Er. cbn beta in Er.
        destruct (Hi r) as (A & B & C & D). rewrite Er in A. destruct A as (A1 & A2 & A3 & A4 & A5).
        unfold starts, regs in *. cbn [init snd running in_use filter is_start is_reg].
        rewrite Nat.eqb_refl. cbn [orb length]. rewrite S2, G2.
        unfold good. cbn [create group dup p_comm p_run p_live p_next p_tags p_groups]. split; [|split; [|split]].
        -- exists (p_made (s r)). rewrite A3. auto.
        -- rewrite B. lia.
        -- intro t. rewrite U2. apply C.
        -- exact D.
    + assert (Hn : ~ In r l) by (rewrite <- member_In; congruence).
      apply (inv_other s); [exact Hi| |reflexivity]. apply no_event; [reflexivity|exact Hn].
  - cbn [step] in Hs. unfold finalize in Hs. rewrite (receives_running s tr r0 Hi) in Hs.
    destruct (Hi r0) as (A & B & C & D).
    destruct (p_comm (s r0)) as [c|] eqn:Ec; [|discriminate].
    destruct (running r0 tr) eqn:Er; [|discriminate]. injection Hs as <- <-.
    destruct A as (c' & A1 & A2 & A3). injection A1 as <-.
    intro r. cbn [rev app]. unfold upd. destruct (Nat.eqb_spec r r0) as [->|Hne].
    + unfold starts, regs in *. cbn [running in_use filter is_start is_reg]. rewrite Nat.eqb_refl. cbn [negb andb].
      unfold good. cbn [p_comm p_run p_live p_next p_tags p_groups].
      split; [rewrite A3; cbn; destruct (Nat.eq_dec c c); [auto|congruence]|].
      split; [exact B|]. split; [|easy]. intro t. cbn. tauto.
    + apply (inv_other s tr [EvStop r0]); [exact Hi| |reflexivity]. repeat constructor. cbn. congruence.
  - cbn [step] in Hs. rewrite (all_running s tr l Hi), (any_running s tr l Hi) in Hs. rename Hc into Hnd; cbn [mild] in Hnd.
    destruct (forallb (fun r => running r tr) l) eqn:Ea.
    + injection Hs as <- <-. intro r. unfold at_all.
      set (g := fun r => reg_event r (next_tag s l) (fst (register (f r) (next_tag s l) (s r)))).
      assert (Hg : forall x, about (g x) = x).
      { intro x. unfold g, register. destruct (f x); reflexivity. }
      destruct (member l r) eqn:Em.
      * apply member_In in Em.
        destruct (one_event g l r tr) as (es1 & es2 & -> & H1 & H2); [exact Hg|exact Hnd|exact Em|].
        destruct (other_events r es1 (g r :: es2 ++ tr) H1) as (R1 & U1 & S1 & G1).
        destruct (other_events r es2 tr H2) as (R2 & U2 & S2 & G2).
        rewrite R1, S1, G1. apply good_iff with (u := in_use r (g r :: es2 ++ tr)); [intro t; symmetry; apply U1|].
        unfold g. destruct (f r); cbn [register fst snd reg_event].
        { unfold starts, regs in *. cbn [running in_use filter is_start is_reg]. rewrite R2, S2, G2.
          apply good_iff with (u := in_use r tr); [intro t; symmetry; apply U2|]. apply Hi. }
        destruct (Hi r) as (A & B & C & D).
        assert (Er : running r tr = true) by (rewrite forallb_forall in Ea; now apply Ea).
        rewrite Er in A. destruct A as (c & A1 & A2 & A3).
        unfold starts, regs in *. cbn [running in_use filter is_start is_reg]. rewrite Nat.eqb_refl. cbn [length].
        rewrite R2, S2, G2, Er. unfold good. cbn [p_comm p_run p_live p_next p_tags p_groups].
        split; [eauto|]. split; [rewrite B; lia|].
        pose proof (next_tag_ge s l r Em) as Hge.
        split.
        -- intro t. rewrite U2. rewrite <- C. cbn [In]. split.
           ++ intros [<-|Ht]; [now left|]. apply in_remove in Ht. right. apply Ht.
           ++ intros [(_ & ->)|Ht]; [now left|]. right. apply in_in_remove; [|exact Ht].
              specialize (D t Ht). lia.
        -- intros t [<-|Ht]; [lia|]. apply in_remove in Ht. destruct Ht as (Ht & _). specialize (D t Ht). lia.
      * assert (Hn : ~ In r l) by (rewrite <- member_In; congruence).
        apply (inv_other s); [exact Hi| |reflexivity]. apply no_event; [exact Hg|exact Hn].
    + destruct (existsb (fun r => running r tr) l); [discriminate|]. injection Hs as <- <-.
      intro r. set (es := rev (map (fun r => EvNoReg r ENotInit) l)).
      assert (H : forall tr, running r (es ++ tr) = running r tr /\ (forall t, in_use r (es ++ tr) t <-> in_use r tr t) /\
                  starts r (es ++ tr) = starts r tr /\ regs r (es ++ tr) = regs r tr).
      { intro tr0. unfold es. clear. rewrite <- map_rev. induction (rev l) as [|x l' IH]; cbn; [tauto|]. exact IH. }
      destruct (H tr) as (R & U & S & G). rewrite R, S, G.
      apply good_iff with (u := in_use r tr); [intro t; symmetry; apply U|]. apply Hi.
  - cbn [step] in Hs. unfold unregister in Hs. rewrite (receives_running s tr r0 Hi) in Hs.
    destruct (Hi r0) as (A & B & C & D).
    destruct (p_comm (s r0)) as [c|] eqn:Ec; [|discriminate].
    destruct (running r0 tr) eqn:Er; [|discriminate]. injection Hs as <- <-.
    intro r. cbn [rev app]. unfold upd. destruct (Nat.eqb_spec r r0) as [->|Hne].
    + unfold starts, regs in *. cbn [running in_use filter is_start is_reg]. rewrite Er.
      unfold good. cbn [p_comm p_run p_live p_next p_tags p_groups]. split; [exact A|]. split; [exact B|]. split.
      * intro t. rewrite <- C. split.
        -- intro Ht. apply in_remove in Ht. destruct Ht as (Ht & Hne). split; [|exact Ht]. intros (_ & E). congruence.
        -- intros (Hne & Ht). apply in_in_remove; [|exact Ht]. intros ->. auto.
      * intros t Ht. apply in_remove in Ht. apply D, Ht.
    + apply (inv_other s tr [EvUnreg r0 t0]); [exact Hi| |reflexivity]. repeat constructor. cbn. congruence.
Qed.

Lemma run_inv os : forall s tr s' tr', inv s tr -> Forall mild os -> run s tr os = Done (s', tr') -> inv s' tr'.
Proof.
  induction os as [|o os IH]; intros s tr s' tr' Hi Hc Hr; cbn [run] in Hr.
  - injection Hr as <- <-. exact Hi.
  - apply Forall_cons_iff in Hc. destruct Hc as (Ho & Hos).
    destruct (step s o) as [(s1, es)| |] eqn:E; try discriminate.
    eapply IH; [|exact Hos|exact Hr]. eapply step_inv; eauto.
Qed.

(** ** Without failures *)
Definition reached (os : list op) (s : sys) (tr : list ev) : Prop :=
  Forall mild os /\ run sys0 [] os = Done (s, tr).
Lemma reached_inv os s tr : reached os s tr -> inv s tr.
Proof. intros (Hc & Hr). eapply run_inv; [apply inv_init|exact Hc|exact Hr]. Qed.

Lemma start_fact os s tr l f : Forall mild os -> run sys0 [] os = Done (s, tr) ->
  exists s', step s (Start l f) =
    Done (s', map (fun r => EvStart r (report (existsb (fun r => running r tr) l) (f r))) l) /\
    (forall r, ~ In r l -> s' r = s r) /\
    (forall r, In r l -> existsb (fun r => running r tr) l = true \/ f r = FReduce \/ f r = FDup -> s' r = s r).
Proof.
  intros Hc Hr. pose proof (reached_inv os s tr (conj Hc Hr)) as Hi.
  rewrite (start_events s tr l f Hi). eexists. split; [reflexivity|]. unfold at_all. split; intros r Hin.
  - assert (E : member l r = false) by (rewrite <- not_true_iff_false, member_In; exact Hin). now rewrite E.
  - intros H. apply member_In in Hin. rewrite Hin. unfold init.
    destruct H as [H|[H|H]]; rewrite ?H; [now destruct (f r)|reflexivity|].
    now destruct (existsb _ l).
Qed.

Lemma stop_fact os s tr r : Forall mild os -> run sys0 [] os = Done (s, tr) ->
  if running r tr
  then exists s', step s (Stop r) = Done (s', [EvStop r]) /\
       (forall r', r' <> r -> s' r' = s r') /\
       p_comm (s' r) = None /\ p_run (s' r) = None /\ p_live (s' r) = [] /\ p_next (s' r) = 0 /\ p_tags (s' r) = []
  else step s (Stop r) = Undef.
Proof.
  intros Hc Hr. pose proof (reached_inv os s tr (conj Hc Hr)) as Hi.
  cbn [step]. unfold finalize. rewrite (receives_running s tr r Hi). destruct (Hi r) as (A & _).
  destruct (running r tr).
  - destruct A as (c & -> & _ & ->). eexists. split; [reflexivity|]. split.
    + intros r' Hne. unfold upd. apply Nat.eqb_neq in Hne. now rewrite Hne.
    + unfold upd. rewrite Nat.eqb_refl. cbn. destruct (Nat.eq_dec c c); [auto|congruence].
  - destruct A as (-> & _). reflexivity.
Qed.

Lemma register_fact os s tr l f : Forall mild os -> run sys0 [] os = Done (s, tr) ->
  (forallb (fun r => running r tr) l = true ->
     exists s' t,
       step s (Register l f) = Done (s', map (fun r => if f r then EvNoReg r EMpi else EvReg r t) l) /\
       (forall r, In r l -> ~ in_use r tr t) /\
       (forall r, ~ In r l \/ f r = true -> s' r = s r)) /\
  (existsb (fun r => running r tr) l = true -> forallb (fun r => running r tr) l = false ->
     step s (Register l f) = Hang) /\
  (existsb (fun r => running r tr) l = false -> l <> [] ->
     step s (Register l f) = Done (s, map (fun r => EvNoReg r ENotInit) l)).
Proof.
  intros Hc Hr. pose proof (reached_inv os s tr (conj Hc Hr)) as Hi.
  cbn [step]. rewrite (all_running s tr l Hi), (any_running s tr l Hi). split; [|split].
  - intro Ha. rewrite Ha. eexists. exists (next_tag s l). split; [|split].
    + f_equal. f_equal. apply map_ext. intros r. unfold register. now destruct (f r).
    + intros r Hr' Hu. destruct (Hi r) as (_ & _ & C & D). apply C in Hu. apply D in Hu.
      pose proof (next_tag_ge s l r Hr'). lia.
    + intros r H. unfold at_all. destruct (member l r) eqn:Em; [|reflexivity]. apply member_In in Em.
      destruct H as [H|H]; [contradiction|]. unfold register. now rewrite H.
  - intros He Ha. now rewrite Ha, He.
  - intros He Hne. destruct l as [|x l]; [congruence|]. cbn [existsb forallb] in *.
    apply orb_false_iff in He. destruct He as (Hx & He). rewrite Hx, He. reflexivity.
Qed.

Lemma unregister_fact os s tr r t : Forall mild os -> run sys0 [] os = Done (s, tr) ->
  if running r tr
  then exists s', step s (Unregister r t) = Done (s', [EvUnreg r t]) /\
       forall r' t', In t' (p_tags (s' r')) <-> In t' (p_tags (s r')) /\ ~ (r' = r /\ t' = t)
  else step s (Unregister r t) = Undef.
Proof.
  intros Hc Hr. pose proof (reached_inv os s tr (conj Hc Hr)) as Hi.
  cbn [step]. unfold unregister. rewrite (receives_running s tr r Hi). destruct (Hi r) as (A & _).
  destruct (running r tr).
  - destruct A as (c & -> & _). eexists. split; [reflexivity|]. intros r' t'. unfold upd.
    destruct (Nat.eqb_spec r' r) as [->|Hne]; cbn [p_tags].
    + split.
      * intro H. apply in_remove in H. destruct H as (H & Hne). split; [exact H|]. intros (_ & E). congruence.
      * intros (H & Hne). apply in_in_remove; [|exact H]. intros ->. auto.
    + split; [|tauto]. intro H. split; [exact H|]. intros (E & _). congruence.
  - destruct A as (-> & _). reflexivity.
Qed.

Lemma objects_fact os s tr r : Forall mild os -> run sys0 [] os = Done (s, tr) ->
  (forall c, In c (p_live (s r)) <-> p_comm (s r) = Some c) /\
  length (p_live (s r)) = (if running r tr then 1 else 0) /\
  p_run (s r) = p_comm (s r) /\
  (forall t, In t (p_tags (s r)) <-> in_use r tr t) /\
  p_groups (s r) = starts r tr + regs r tr.
Proof.
  intros Hc Hr. pose proof (reached_inv os s tr (conj Hc Hr)) as Hi. destruct (Hi r) as (A & B & C & _).
  destruct (running r tr).
  - destruct A as (c & -> & -> & ->). cbn. repeat split; auto.
    + intros [->|[]]; auto.
    + intro E. injection E as ->. auto.
    + apply C.
    + apply C.
  - destruct A as (-> & -> & -> & _). cbn. repeat split; auto; try easy; apply C.
Qed.

(** ** With failures *)
Lemma errors_fact s l f : NoDup l ->
  exists s' es, step s (Start l f) = Done (s', es) /\
    forall r, In r l -> exists e, In (EvStart r e) es /\
      (e = ESuccess <-> f r = FNone /\ forall q, In q l -> p_comm (s q) = None) /\
      (e = EThread <-> f r = FCreate /\ forall q, In q l -> p_comm (s q) = None) /\
      (e = EAlready <-> f r <> FReduce /\ exists q, In q l /\ p_comm (s q) <> None) /\
      (e = ESuccess -> p_comm (s' r) = Some (p_made (s r)) /\ p_run (s' r) = p_comm (s' r)) /\
      (e <> ESuccess -> p_run (s' r) = p_run (s r)) /\
      (f r = FReduce \/ f r = FDup -> s' r = s r).
Proof.
  intros Hnd. cbn [step]. eexists. eexists. split; [reflexivity|]. intros r Hr.
  exists (fst (init (existsb (fun q => initialized (s q)) l) (f r) (s r))). split.
  { apply in_map_iff. exists r. auto. }
  unfold at_all. apply member_In in Hr. rewrite Hr.
  destruct (existsb (fun q => initialized (s q)) l) eqn:Ea.
  - assert (H : exists q, In q l /\ p_comm (s q) <> None).
    { apply existsb_exists in Ea. destruct Ea as (q & Hq & E). exists q. split; [exact Hq|].
      unfold initialized in E. intros N. rewrite N in E. discriminate. }
    assert (N : ~ forall q, In q l -> p_comm (s q) = None).
    { intro Hall. destruct H as (q & Hq & E). auto. }
    unfold init. destruct (f r) eqn:Ef; cbn [fst snd]; intuition congruence.
  - assert (H : forall q, In q l -> p_comm (s q) = None).
    { intros q Hq. pose proof (existsb_false_In _ l q Ea Hq) as E. cbn beta in E. unfold initialized in E.
      destruct (p_comm (s q)); [discriminate|reflexivity]. }
    assert (N : ~ exists q, In q l /\ p_comm (s q) <> None).
    { intros (q & Hq & E). auto. }
    unfold init. destruct (f r) eqn:Ef; cbn [fst snd create group dup p_comm p_run]; intuition congruence.
Qed.

(** A process whose start failed after line 145 has a communicator and no thread. *)
Definition stuck (p : proc) : Prop := p_comm p <> None /\ p_run p = None.

Lemma stuck_step s r o s' es : stuck (s r) -> step s o = Done (s', es) ->
  stuck (s' r) /\ ~ In (EvStart r ESuccess) es /\ o <> Stop r /\ forall t, o <> Unregister r t.
Proof.
  intros (Hc & Hr) Hs. destruct o as [l f|r0|l f|r0 t0]; cbn [step] in Hs.
  - injection Hs as <- <-. split; [|split; [|split; [congruence|intro t; congruence]]].
    + unfold at_all. destruct (member l r) eqn:Em; [|now split]. apply member_In in Em.
      assert (Ea : existsb (fun q => initialized (s q)) l = true).
      { apply existsb_exists. exists r. split; [exact Em|]. unfold initialized. destruct (p_comm (s r)); congruence. }
      rewrite Ea. unfold init. destruct (f r); cbn; now split.
    + intro H. apply in_map_iff in H. destruct H as (q & E & Hq). injection E as -> E.
      assert (Ea : existsb (fun q => initialized (s q)) l = true).
      { apply existsb_exists. exists r. split; [exact Hq|]. unfold initialized. destruct (p_comm (s r)); congruence. }
      rewrite Ea in E. unfold init in E. destruct (f r); cbn in E; discriminate.
  - unfold finalize in Hs. destruct (Nat.eq_dec r0 r) as [->|Hne].
    + destruct (p_comm (s r)) as [c|] eqn:Ec; [|congruence]. unfold receives in Hs. rewrite Ec, Hr in Hs. discriminate.
    + destruct (p_comm (s r0)); [|discriminate]. destruct (receives (s r0)); [|discriminate]. injection Hs as <- <-.
      unfold upd. destruct (Nat.eqb_spec r r0); [congruence|]. repeat split; auto; try congruence.
      intros [E|[]]. discriminate.
  - destruct (forallb _ l); [|destruct (existsb _ l); [discriminate|]]; injection Hs as <- <-.
    + split; [|split; [|split; [congruence|intro t; congruence]]].
      * unfold at_all. destruct (member l r); [|now split]. unfold register. destruct (f r); cbn; now split.
      * intro H. apply in_map_iff in H. destruct H as (q & E & _). unfold register in E. destruct (f q); discriminate.
    + split; [now split|]. split; [|split; [congruence|intro t; congruence]].
      intro H. apply in_map_iff in H. destruct H as (q & E & _). discriminate.
  - unfold unregister in Hs. destruct (Nat.eq_dec r0 r) as [->|Hne].
    + destruct (p_comm (s r)) as [c|] eqn:Ec; [|congruence]. unfold receives in Hs. rewrite Ec, Hr in Hs. discriminate.
    + destruct (p_comm (s r0)); [|discriminate]. destruct (receives (s r0)); [|discriminate]. injection Hs as <- <-.
      unfold upd. destruct (Nat.eqb_spec r r0); [congruence|]. repeat split; auto; try congruence.
      intros [E|[]]. discriminate.
Qed.

Lemma stuck_run os : forall s tr s' tr' r, stuck (s r) -> run s tr os = Done (s', tr') ->
  stuck (s' r) /\ (In (EvStart r ESuccess) tr' -> In (EvStart r ESuccess) tr) /\
  Forall (fun o => o <> Stop r /\ forall t, o <> Unregister r t) os.
Proof.
  induction os as [|o os IH]; intros s tr s' tr' r Hst Hr; cbn [run] in Hr.
  - injection Hr as <- <-. auto.
  - destruct (step s o) as [(s1, es)| |] eqn:E; try discriminate.
    destruct (stuck_step s r o s1 es Hst E) as (A & B & C & D).
    destruct (IH s1 (rev es ++ tr) s' tr' r A Hr) as (A' & B' & C'). split; [exact A'|]. split.
    + intro H. apply B' in H. apply in_app_or in H. destruct H as [H|H]; [|exact H]. apply in_rev in H. contradiction.
    + constructor; [split; assumption|exact C'].
Qed.

Lemma stuck_fact os s tr l f r :
  Forall mild os -> run sys0 [] os = Done (s, tr) -> existsb (fun q => running q tr) l = false ->
  In r l -> f r = FGroup \/ f r = FRank \/ f r = FCreate ->
  forall os' s' tr', run s tr (Start l f :: os') = Done (s', tr') ->
    (In (EvStart r ESuccess) tr' -> In (EvStart r ESuccess) tr) /\
    p_run (s' r) = None /\ p_live (s' r) <> [] /\
    Forall (fun o => o <> Stop r /\ forall t, o <> Unregister r t) os'.
Proof.
  intros Hc Hr Ha Hin Hf os' s' tr' H. pose proof (reached_inv os s tr (conj Hc Hr)) as Hi.
  cbn [run] in H. destruct (step s (Start l f)) as [(s1, es)| |] eqn:E; try discriminate.
  pose proof E as E'. cbn [step] in E'. rewrite (any_running s tr l Hi), Ha in E'. injection E' as <- <-.
  pose proof (existsb_false_In _ l r Ha Hin) as Er. cbn beta in Er.
  destruct (Hi r) as (A & _). rewrite Er in A. destruct A as (A1 & A2 & A3 & _).
  set (s1 := at_all l (fun r p => snd (init false (f r) p)) s) in *.
  assert (Hst : stuck (s1 r) /\ p_live (s1 r) <> []).
  { unfold s1, at_all. apply member_In in Hin. rewrite Hin.
    unfold stuck. destruct Hf as [-> | [-> | ->]]; cbn; (split; [split; [discriminate|exact A2]|discriminate]). }
  destruct Hst as (Hst & Hl1).
  destruct (stuck_run os' s1 _ s' tr' r Hst H) as (B & C & D). split; [|split; [apply B|split; [|exact D]]].
  - intro Hs. apply C in Hs. apply in_app_or in Hs. destruct Hs as [Hs|Hs]; [|exact Hs]. exfalso.
    apply in_rev in Hs. apply in_map_iff in Hs. destruct Hs as (q & Eq & _). injection Eq as -> Eq.
    destruct Hf as [F | [F | F]]; rewrite F in Eq; discriminate.
  - clear - H Hst Hl1. revert H. generalize dependent s1.
    generalize (rev (map (fun r => EvStart r (fst (init false (f r) (s r)))) l) ++ tr).
    induction os' as [|o os' IH]; intros tr1 s1 Hst Hl H; cbn [run] in H.
    + injection H as <- <-. exact Hl.
    + destruct (step s1 o) as [(s2, es)| |] eqn:E; try discriminate.
      destruct (stuck_step s1 r o s2 es Hst E) as (Hst2 & _ & HS & HU).
      apply (IH _ s2 Hst2) in H; [exact H|]. destruct Hst as (Hc & _).
      destruct o as [l' f'|r0|l' f'|r0 t0]; cbn [step] in E.
      * injection E as <- <-. unfold at_all. destruct (member l' r); [|exact Hl].
        unfold init. destruct (f' r), (existsb _ l'); cbn; try exact Hl; discriminate.
      * destruct (finalize (s1 r0)); try discriminate. injection E as <- <-. unfold upd.
        destruct (Nat.eqb_spec r r0); [congruence|exact Hl].
      * destruct (forallb _ l'); [|destruct (existsb _ l'); [discriminate|]]; injection E as <- <-; [|exact Hl].
        unfold at_all. destruct (member l' r); [|exact Hl]. unfold register. destruct (f' r); cbn; exact Hl.
      * destruct (unregister t0 (s1 r0)); try discriminate. injection E as <- <-. unfold upd.
        destruct (Nat.eqb_spec r r0); [subst; exfalso; now apply (HU t0)|exact Hl].
Qed.
