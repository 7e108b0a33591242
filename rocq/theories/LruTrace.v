(** * Event traces of the two-handed clock *)
From Verif Require Export CacheProofs.

(** What happens to slots: used, reference bit cleared by the hand, picked as
    victim. *)
Inductive lru_event := EUse (i : nat) | EClear (i : nat) | EPick (i : nat).

(** The two public operations of cache/lru.h. *)
Inductive lru_op := OpUse (i : nat) | OpFree.

(** [lru_loop] which also reports the slots cleared. *)
Fixpoint lru_loop_ev (fuel : nat) (l : lru) : option (outcome (lru * list lru_event)) :=
  match fuel with
  | 0 => None
  | S fuel' =>
      match lru_iter l with
      | Ub => Some Ub
      | Ok (l', true) =>
          match lru_loop_ev fuel' l' with
          | None => None
          | Some r => Some (do x <- r; let '(l'', es) := x in Ok (l'', EClear (l_clear l) :: es))
          end
      | Ok (l', false) => Some (Ok (l', [EClear (l_clear l)]))
      end
  end.

(** It is the same loop. *)
Lemma lru_loop_ev_erase fuel l :
  lru_loop fuel l = match lru_loop_ev fuel l with
                    | None => None
                    | Some r => Some (omap fst r)
                    end.
Proof.
  revert l; induction fuel as [|fuel IH]; intros l; cbn; auto.
  destruct (lru_iter l) as [[l' []]|]; auto.
  rewrite IH. destruct (lru_loop_ev fuel l') as [[[l'' es]|]|]; auto.
Qed.

Definition lru_step_ev (l : lru) (o : lru_op) : outcome (lru * list lru_event) :=
  match o with
  | OpUse i => do l' <- lru_access l i; Ok (l', [EUse i])
  | OpFree =>
      match lru_loop_ev (l_size l) l with
      | None => Ub
      | Some r =>
          do x <- r;
          let '(l', es) := x in
          do l'' <- lru_access l' (l_page l');
          Ok (l'', es ++ [EPick (l_page l'); EUse (l_page l')])
      end
  end.

Fixpoint lru_run_ev (l : lru) (ops : list lru_op) : outcome (lru * list (list lru_event)) :=
  match ops with
  | [] => Ok (l, [])
  | o :: ops' =>
      do x <- lru_step_ev l o;
      let '(l', es) := x in
      do y <- lru_run_ev l' ops';
      let '(l'', ess) := y in Ok (l'', es :: ess)
  end.

(** The picked slot of an operation agrees with [lru_get_free]. *)
Lemma lru_step_ev_free l :
  omap (fun x => (fst x, filter (fun e => match e with EPick _ => true | _ => false end) (snd x)))
       (lru_step_ev l OpFree)
  = omap (fun x => (fst x, [EPick (snd x)])) (lru_get_free l).
Proof.
  cbn. unfold lru_get_free. rewrite lru_loop_ev_erase.
  assert (G : forall fuel l l' es, lru_loop_ev fuel l = Some (Ok (l', es)) ->
            filter (fun e => match e with EPick _ => true | _ => false end) es = []).
  { induction fuel as [|fuel IH]; intros l0 l' es; cbn; [discriminate|].
    destruct (lru_iter l0) as [[l1 []]|]; [| |discriminate].
    - destruct (lru_loop_ev fuel l1) as [[[l2 es2]|]|] eqn:E; try discriminate.
      cbn. intros [= <- <-]. cbn. eapply IH; eauto.
    - intros [= <- <-]. auto. }
  destruct (lru_loop_ev (l_size l) l) as [[[l' es]|]|] eqn:E; cbn; auto.
  destruct (lru_access l' (l_page l')) as [l''|]; cbn; auto.
  rewrite filter_app, (G _ _ _ _ E). reflexivity.
Qed.

(** [recent past i]: slot [i] was used and not cleared since ([past] is in
    reverse order). *)
Fixpoint recent (past : list lru_event) (i : nat) : bool :=
  match past with
  | [] => false
  | EUse j :: past' => if j =? i then true else recent past' i
  | EClear j :: past' => if j =? i then false else recent past' i
  | EPick _ :: past' => recent past' i
  end.

(** No pick of a recently used slot, [past] reversed. *)
Fixpoint second_chance (past : list lru_event) : Prop :=
  match past with
  | [] => True
  | EPick i :: past' => recent past' i = false /\ second_chance past'
  | _ :: past' => second_chance past'
  end.

Definition tracks (past : list lru_event) (l : lru) : Prop :=
  forall i, recent past i = true -> m_at (l_ref l) i = Some true.

Lemma lru_loop_ev_spec n h t l past fuel l' es :
  lru_inv n h t l -> tracks past l -> second_chance past ->
  lru_loop_ev fuel l = Some (Ok (l', es)) ->
  tracks (rev es ++ past) l' /\ second_chance (rev es ++ past) /\
  m_at (l_ref l') (l_page l') = Some false /\ Forall (fun e => exists i, e = EClear i) es /\
  length es <= fuel.
Proof.
  revert t l past es; induction fuel as [|fuel IH]; intros t l past es Hinv Htr Hsc; cbn; [discriminate|].
  destruct (lru_iter_spec n h t l Hinv) as (l1 & b & E & Hinv1 & Hb & Hm). rewrite E.
  assert (tracks (EClear (l_clear l) :: past) l1) as Htr1.
  { intros i. cbn. rewrite Hm. rewrite Nat.eqb_sym.
    destruct (Nat.eqb_spec i (l_clear l)); [discriminate|]. apply Htr. }
  destruct b.
  - destruct (lru_loop_ev fuel l1) as [[[l2 es2]|]|] eqn:E2; try discriminate. cbn. intros [= <- <-].
    destruct (IH _ l1 (EClear (l_clear l) :: past) es2 Hinv1 Htr1 Hsc E2) as (A & B & C & D & F).
    cbn [rev]. rewrite <- app_assoc. cbn [app length]. repeat split; auto; [|lia].
    constructor; eauto.
  - intros [= <- <-]. cbn. repeat split; auto; [|lia]. constructor; eauto.
Qed.

(** Number of hand movements of an operation. *)
Definition moves (es : list lru_event) : nat :=
  length (filter (fun e => match e with EClear _ => true | _ => false end) es).

Definition op_ok (n : nat) (o : lru_op) : Prop :=
  match o with OpUse i => i < n | OpFree => True end.

Lemma lru_step_ev_spec n h t l past o :
  lru_inv n h t l -> tracks past l -> second_chance past -> op_ok n o ->
  exists l' es t', lru_step_ev l o = Ok (l', es) /\ lru_inv n h t' l' /\
    tracks (rev es ++ past) l' /\ second_chance (rev es ++ past) /\ moves es <= n /\
    (forall i, In (EPick i) es -> i < n).
Proof.
  intros Hinv Htr Hsc Ho. destruct o as [i|]; cbn in Ho |- *.
  - destruct (lru_access_spec n h t l i Hinv Ho) as (l' & E & Hinv' & El). rewrite E. cbn [obind].
    exists l', [EUse i], t. split; auto. split; auto. cbn. split; [|split; [auto|]].
    + intros k. cbn. subst l'. cbn. unfold upd. rewrite Nat.eqb_sym.
      destruct (Nat.eqb_spec k i); auto.
    + split; [lia|]. intros k [?|[]]; discriminate.
  - destruct (lru_loop_spec n h t l Hinv) as (l1 & j & E & Hj & Hinv1 & Hf & Hm).
    rewrite (li_size _ _ _ _ Hinv). rewrite lru_loop_ev_erase in E.
    destruct (lru_loop_ev n l) as [[[l1' es]|]|] eqn:Ee; cbn in E; try discriminate.
    injection E as ->. cbn [obind].
    destruct (lru_loop_ev_spec n h t l past n l1 es Hinv Htr Hsc Ee) as (A & B & C & D & F).
    assert (l_page l1 < n) as Hp.
    { rewrite (li_page _ _ _ _ Hinv1). apply Nat.mod_upper_bound. pose proof (li_n _ _ _ _ Hinv). lia. }
    destruct (lru_access_spec n h (t + j) l1 (l_page l1) Hinv1 Hp) as (l2 & E2 & Hinv2 & El).
    rewrite E2. cbn [obind]. exists l2, (es ++ [EPick (l_page l1); EUse (l_page l1)]), (t + j).
    split; auto. split; auto. rewrite rev_app_distr. cbn [rev app]. split; [|split; [|split]].
    + intros k. cbn. subst l2. cbn. unfold upd. rewrite Nat.eqb_sym.
      destruct (Nat.eqb_spec k (l_page l1)); auto.
    + cbn. split; auto. destruct (recent (rev es ++ past) (l_page l1)) eqn:Er; auto.
      apply A in Er. congruence.
    + unfold moves. rewrite filter_app, app_length. cbn. rewrite Nat.add_0_r.
      eapply Nat.le_trans; [|exact F]. clear. induction es as [|[] es IH]; cbn; lia.
    + intros k Hk. apply in_app_iff in Hk as [Hk|Hk].
      * rewrite Forall_forall in D. destruct (D _ Hk) as [? ?]. discriminate.
      * cbn in Hk. destruct Hk as [[= <-]|[?|[]]]; [auto|discriminate].
Qed.

Lemma lru_run_ev_spec n h t l past ops :
  lru_inv n h t l -> tracks past l -> second_chance past -> Forall (op_ok n) ops ->
  exists l' ess, lru_run_ev l ops = Ok (l', ess) /\ length ess = length ops /\
    second_chance (rev (concat ess) ++ past) /\
    Forall (fun es => moves es <= n /\ forall i, In (EPick i) es -> i < n) ess.
Proof.
  intros Hinv Htr Hsc H; revert t l past Hinv Htr Hsc; induction H as [|o ops Ho H IH];
    intros t l past Hinv Htr Hsc; cbn.
  - exists l, []. cbn. auto.
  - destruct (lru_step_ev_spec n h t l past o Hinv Htr Hsc Ho) as (l1 & es & t1 & E & Hinv1 & A & B & C & D).
    rewrite E. cbn [obind]. destruct (IH t1 l1 (rev es ++ past) Hinv1 A B) as (l2 & ess & E2 & Hl & Hs & Hf).
    rewrite E2. cbn [obind]. exists l2, (es :: ess). cbn [length concat]. repeat split; auto.
    rewrite rev_app_distr, <- app_assoc. exact Hs.
Qed.

(** Readable form: between a use of a slot and a later pick of it the hand has
    cleared it. *)
Lemma recent_use mid pre i :
  recent (rev mid ++ EUse i :: pre) i = false -> In (EClear i) mid.
Proof.
  intros H. rewrite in_rev. induction (rev mid) as [|e m IH]; cbn in H.
  - rewrite Nat.eqb_refl in H. discriminate.
  - destruct e as [j|j|j]; cbn in H.
    + destruct (j =? i); [discriminate|]. right; auto.
    + destruct (Nat.eqb_spec j i) as [->|]; [now left|right; auto].
    + right; auto.
Qed.

Lemma second_chance_app a b : second_chance (a ++ b) -> second_chance b.
Proof. induction a as [|[] a IH]; cbn; auto. tauto. Qed.

Lemma second_chance_use tr pre i mid post :
  second_chance (rev tr) -> tr = pre ++ EUse i :: mid ++ EPick i :: post -> In (EClear i) mid.
Proof.
  intros H ->. rewrite rev_app_distr in H. cbn [rev] in H. rewrite rev_app_distr in H.
  cbn [rev] in H. rewrite <- !app_assoc in H. cbn [app] in H.
  apply second_chance_app in H. cbn in H. destruct H as [H _].
  eapply recent_use, H.
Qed.

Lemma second_chance_run n hd l ops l' ess :
  0 < n -> eff_spread n hd < n -> lru_init n hd = Ok l -> Forall (op_ok n) ops ->
  lru_run_ev l ops = Ok (l', ess) ->
  forall pre i mid post, concat ess = pre ++ EUse i :: mid ++ EPick i :: post -> In (EClear i) mid.
Proof.
  intros Hn Hh E Ho Er pre i mid post Et.
  destruct (lru_init_spec n hd Hn Hh) as (l0 & E0 & Hinv & _). assert (l0 = l) by congruence. subst l0.
  destruct (lru_run_ev_spec n _ 0 l [] ops Hinv) as (l1 & ess1 & E1 & _ & Hs & _); auto.
  { intros k. discriminate. }
  { exact I. }
  assert (ess1 = ess) by congruence. subst ess1. rewrite app_nil_r in Hs.
  eapply second_chance_use; eauto.
Qed.
