(** * Facts about counters used by several threads *)
From Coq Require Import List Arith ZArith Lia Bool.
From Verif Require Import LevelsModel CounterProofs CountModel.
Import ListNotations.

(** ** Specification *)

Definition kind_of (a : answer) : read_kind :=
  match a with AHit => KHit | ANuma => KNuma | AMpi => KMpi | AFile => KFile end.

(** The reads of a program, in order. *)
Fixpoint reads_of (p : list op) : list read_kind :=
  match p with
  | [] => []
  | Read a :: p' => kind_of a :: reads_of p'
  | Query _ :: p' => reads_of p'
  end.

(** The reads of threads 0..T-1. *)
Definition all_reads (T : nat) (prog : nat -> list op) : list read_kind :=
  flat_map (fun t => reads_of (prog t)) (seq 0 T).

Definition one_reader (prog : nat -> list op) : Prop :=
  exists w, forall t, t <> w -> reads_of (prog t) = [].

Definition finished (s : st) (t : nat) : Prop :=
  t_pc (s_thr s t) = CIdle /\ t_ops (s_thr s t) = [].

Definition occ (n : native) (l : list native) : nat := length (filter (native_eqb n) l).

Fixpoint sumn (T : nat) (f : nat -> nat) : nat :=
  match T with 0 => 0 | S T' => f T' + sumn T' f end.

(** Increments of counter [n] executed up to state [s] by threads 0..T-1. *)
Definition executed (T : nat) (s : st) (n : native) : nat :=
  sumn T (fun t => occ n (t_log (s_thr s t))).

(** The true value of a counter that is a sum of native counters. *)
Definition true_sum (T : nat) (s : st) (c : counter_type) : option nat :=
  match c with
  | CAccess => Some (executed T s NAccess)
  | CNuma => Some (executed T s NNuma)
  | CMpi => Some (executed T s NMpi)
  | CFile => Some (executed T s NFile)
  | CMiss => Some (executed T s NNuma + executed T s NMpi + executed T s NFile)
  | _ => None
  end.

(** The value of each counter type for given numbers of accesses, NUMA transfers, MPI transfers and file accesses
    (perf/counter.h lines 73-89), as an integer before it is stored in 64 bits. *)
Definition formula (f : native -> nat) (c : counter_type) : Z :=
  match c with
  | CAccess => Z.of_nat (f NAccess)
  | CNuma => Z.of_nat (f NNuma)
  | CMpi => Z.of_nat (f NMpi)
  | CFile => Z.of_nat (f NFile)
  | CHit => Z.of_nat (f NAccess) - Z.of_nat (f NNuma + f NMpi + f NFile)
  | CNodeHit => Z.of_nat (f NAccess) - Z.of_nat (f NMpi + f NFile)
  | CMiss => Z.of_nat (f NNuma + f NMpi + f NFile)
  | CInvalid => 0
  end.

(** ** Basics *)

Lemma native_eqb_spec a b : reflect (a = b) (native_eqb a b).
Proof. destruct a, b; constructor; congruence. Qed.

Lemma native_eqb_refl a : native_eqb a a = true.
Proof. now destruct a. Qed.

Lemma updt_same f t a : updt f t a t = a.
Proof. unfold updt. now rewrite Nat.eqb_refl. Qed.
Lemma updt_other f t a u : u <> t -> updt f t a u = f u.
Proof. intros H. unfold updt. apply Nat.eqb_neq in H. now rewrite H. Qed.
Lemma updn_same {A} (f : native -> A) n a : updn f n a n = a.
Proof. unfold updn. now rewrite native_eqb_refl. Qed.
Lemma updn_other {A} (f : native -> A) n a m : m <> n -> updn f n a m = f m.
Proof. intros H. unfold updn. now destruct (native_eqb_spec m n). Qed.

Lemma sumn_ext T f g : (forall t, t < T -> f t = g t) -> sumn T f = sumn T g.
Proof.
  induction T as [|T IH]; intros H; cbn; [reflexivity|].
  rewrite IH by (intros; apply H; lia). rewrite (H T) by lia. reflexivity.
Qed.

Lemma sumn_le T f g : (forall t, t < T -> f t <= g t) -> sumn T f <= sumn T g.
Proof.
  induction T as [|T IH]; intros H; cbn; [lia|].
  pose proof (H T ltac:(lia)). assert (forall t, t < T -> f t <= g t) by (intros; apply H; lia).
  specialize (IH H1). lia.
Qed.

Lemma sumn_one T f g t : t < T -> (forall u, u <> t -> f u = g u) ->
  sumn T f + g t = sumn T g + f t.
Proof.
  induction T as [|T IH]; intros Ht H; [lia|]. cbn.
  destruct (Nat.eq_dec t T) as [->|Hne].
  - rewrite (sumn_ext T f g) by (intros u Hu; apply H; lia). lia.
  - specialize (IH ltac:(lia) H). rewrite (H T) by lia. lia.
Qed.

Lemma occ_cons n m l : occ n (m :: l) = (if native_eqb n m then 1 else 0) + occ n l.
Proof. unfold occ. cbn. now destruct (native_eqb n m). Qed.

Lemma occ_app n l l' : occ n (l ++ l') = occ n l + occ n l'.
Proof. unfold occ. now rewrite filter_app, app_length. Qed.

Lemma occ_rev n l : occ n (rev l) = occ n l.
Proof.
  induction l as [|a l IH]; [reflexivity|]. cbn [rev]. rewrite occ_app, IH.
  rewrite (occ_cons n a l). rewrite occ_cons. change (occ n []) with 0. lia.
Qed.

(** Increments of a list of steps. *)
Fixpoint incs (l : list mop) : list native :=
  match l with
  | [] => []
  | MInc n :: l' => n :: incs l'
  | MGet _ :: l' => incs l'
  end.

Lemma incs_app l l' : incs (l ++ l') = incs l ++ incs l'.
Proof. induction l as [|[n|c] l IH]; cbn; [reflexivity| |]; now rewrite ?IH. Qed.

Definition occ_kind (n : native) (ks : list read_kind) : nat :=
  match n with
  | NAccess => length ks
  | NNuma => count KNuma ks
  | NMpi => count KMpi ks
  | NFile => count KFile ks
  end.

Lemma occ_reads n p : occ n (incs (flat_map mops p)) = occ_kind n (reads_of p).
Proof.
  induction p as [|[a|c] p IH]; [now destruct n| |]; cbn [flat_map].
  - rewrite incs_app, occ_app, IH. destruct a, n; reflexivity.
  - exact IH.
Qed.

Lemma occ_kind_app n k k' : occ_kind n (k ++ k') = occ_kind n k + occ_kind n k'.
Proof. destruct n; cbn; unfold count; now rewrite ?filter_app, app_length. Qed.

Lemma occ_all n T prog :
  occ_kind n (all_reads T prog) = sumn T (fun t => occ n (incs (flat_map mops (prog t)))).
Proof.
  induction T as [|T IH]; [now destruct n|].
  unfold all_reads in *. rewrite seq_S, flat_map_app, occ_kind_app, IH. cbn.
  rewrite app_nil_r, occ_reads. lia.
Qed.

Lemma no_reads_no_incs p : reads_of p = [] -> incs (flat_map mops p) = [].
Proof.
  intros H. induction p as [|[a|c] p IH]; [reflexivity|discriminate|].
  cbn in *. now apply IH.
Qed.

(** ** Shape of the threads *)

Definition holds (p : pc) (n : native) : Prop :=
  match p with
  | CHeld m | CLoaded m _ | CStored m => m = n
  | _ => False
  end.

Definition head_ok (ts : bool) (th : thread) : Prop :=
  match t_pc th with
  | CIdle => True
  | CHeld n => ts = true /\ exists r, t_ops th = MInc n :: r
  | CLoaded n _ => exists r, t_ops th = MInc n :: r
  | CStored _ => ts = true
  | CGet c l => exists r, t_ops th = MGet c :: r
  end.

Record shape (ts : bool) (prog : nat -> list op) (s : st) : Prop := Shape {
  sh_head : forall t, head_ok ts (s_thr s t);
  sh_log : forall t, rev (t_log (s_thr s t)) ++ incs (t_ops (s_thr s t)) = incs (flat_map mops (prog t));
  sh_lock : ts = true -> forall n t, s_lock s n = Some t <-> holds (t_pc (s_thr s t)) n
}.

Lemma shape_init ts prog : shape ts prog (init prog).
Proof.
  split; cbn; intros; [exact I|reflexivity|]. split; [discriminate|intros []].
Qed.

Ltac inv_step H :=
  unfold step in H;
  repeat match type of H with
  | context [match ?x with _ => _ end] => destruct x eqn:?; try discriminate H
  end;
  injection H as <-.

Lemma shape_step ts prog s t ch s' : shape ts prog s -> step ts s t ch = Some s' -> shape ts prog s'.
Proof.
  intros [Hh Hl Hk] H. pose proof (Hh t) as Ht. pose proof (Hl t) as Hlt.
  pose proof (fun E n => Hk E n t) as Hkt.
  unfold head_ok in Ht. unfold step in H.
  destruct (t_pc (s_thr s t)) as [|n|n v|n|c l] eqn:Epc.
  - destruct (t_ops (s_thr s t)) as [|[n|c] r] eqn:Eops; [discriminate| |].
    + destruct ts.
      * destruct (s_lock s n) eqn:El; [discriminate|]. injection H as <-.
        split; cbn [s_thr s_lock s_val].
        -- intros u. destruct (Nat.eq_dec u t) as [->|Hne]; [rewrite updt_same|rewrite updt_other by easy; apply Hh].
           unfold head_ok; cbn. split; [reflexivity|]. eauto.
        -- intros u. destruct (Nat.eq_dec u t) as [->|Hne]; [rewrite updt_same|rewrite updt_other by easy; apply Hl].
           exact Hlt.
        -- intros _ m u. destruct (Nat.eq_dec u t) as [->|Hne].
           ++ rewrite updt_same; cbn. destruct (native_eqb_spec m n) as [->|Hmn].
              ** rewrite updn_same. tauto.
              ** rewrite updn_other by easy. rewrite (Hkt eq_refl m). cbn. intuition congruence.
           ++ rewrite updt_other by easy. destruct (native_eqb_spec m n) as [->|Hmn].
              ** rewrite updn_same. split; [congruence|]. intros Hu. apply (Hk eq_refl) in Hu. congruence.
              ** rewrite updn_other by easy. apply (Hk eq_refl).
      * injection H as <-. split; cbn [s_thr s_lock s_val].
        -- intros u. destruct (Nat.eq_dec u t) as [->|Hne]; [rewrite updt_same|rewrite updt_other by easy; apply Hh].
           unfold head_ok; cbn. eauto.
        -- intros u. destruct (Nat.eq_dec u t) as [->|Hne]; [rewrite updt_same|rewrite updt_other by easy; apply Hl].
           exact Hlt.
        -- discriminate.
    + injection H as <-. split; cbn [s_thr s_lock s_val].
      * intros u. destruct (Nat.eq_dec u t) as [->|Hne]; [rewrite updt_same|rewrite updt_other by easy; apply Hh].
        unfold head_ok; cbn. eauto.
      * intros u. destruct (Nat.eq_dec u t) as [->|Hne]; [rewrite updt_same|rewrite updt_other by easy; apply Hl].
        exact Hlt.
      * intros E m u. destruct (Nat.eq_dec u t) as [->|Hne]; [rewrite updt_same|rewrite updt_other by easy; now apply Hk].
        cbn. exact (Hkt E m).
  - injection H as <-. split; cbn [s_thr s_lock s_val].
    + intros u. destruct (Nat.eq_dec u t) as [->|Hne]; [rewrite updt_same|rewrite updt_other by easy; apply Hh].
      unfold head_ok; cbn. now destruct Ht.
    + intros u. destruct (Nat.eq_dec u t) as [->|Hne]; [rewrite updt_same|rewrite updt_other by easy; apply Hl].
      exact Hlt.
    + intros E m u. destruct (Nat.eq_dec u t) as [->|Hne]; [rewrite updt_same|rewrite updt_other by easy; now apply Hk].
      cbn. exact (Hkt E m).
  - destruct Ht as [r Hr]. injection H as <-. split; cbn [s_thr s_lock s_val].
    + intros u. destruct (Nat.eq_dec u t) as [->|Hne]; [rewrite updt_same|rewrite updt_other by easy; apply Hh].
      unfold head_ok; cbn. now destruct ts.
    + intros u. destruct (Nat.eq_dec u t) as [->|Hne]; [rewrite updt_same|rewrite updt_other by easy; apply Hl].
      rewrite Hr in *. cbn in *. rewrite <- app_assoc. exact Hlt.
    + intros E m u. destruct (Nat.eq_dec u t) as [->|Hne]; [rewrite updt_same|rewrite updt_other by easy; now apply Hk].
      cbn. rewrite E. exact (Hkt E m).
  - injection H as <-. split; cbn [s_thr s_lock s_val].
    + intros u. destruct (Nat.eq_dec u t) as [->|Hne]; [rewrite updt_same|rewrite updt_other by easy; apply Hh].
      exact I.
    + intros u. destruct (Nat.eq_dec u t) as [->|Hne]; [rewrite updt_same|rewrite updt_other by easy; apply Hl].
      exact Hlt.
    + intros E m u. destruct (Nat.eq_dec u t) as [->|Hne].
      * rewrite updt_same; cbn. destruct (native_eqb_spec m n) as [->|Hmn].
        -- rewrite updn_same. split; [discriminate|intros []].
        -- rewrite updn_other by easy. rewrite (Hkt E m). cbn. intuition congruence.
      * rewrite updt_other by easy. destruct (native_eqb_spec m n) as [->|Hmn].
        -- rewrite updn_same. split; [discriminate|]. intros Hu. apply (Hk E) in Hu.
           assert (s_lock s n = Some t) by (apply (Hkt E n); reflexivity). congruence.
        -- rewrite updn_other by easy. now apply Hk.
  - destruct Ht as [r Hr].
    destruct (forallb (loaded l) (needed c)).
    + injection H as <-. split; cbn [s_thr s_lock s_val].
      * intros u. destruct (Nat.eq_dec u t) as [->|Hne]; [rewrite updt_same|rewrite updt_other by easy; apply Hh].
        exact I.
      * intros u. destruct (Nat.eq_dec u t) as [->|Hne]; [rewrite updt_same|rewrite updt_other by easy; apply Hl].
        rewrite Hr in *. exact Hlt.
      * intros E m u. destruct (Nat.eq_dec u t) as [->|Hne]; [rewrite updt_same|rewrite updt_other by easy; now apply Hk].
        cbn. exact (Hkt E m).
    + destruct (existsb (native_eqb ch) (needed c) && negb (loaded l ch)); [|discriminate].
      injection H as <-. split; cbn [s_thr s_lock s_val].
      * intros u. destruct (Nat.eq_dec u t) as [->|Hne]; [rewrite updt_same|rewrite updt_other by easy; apply Hh].
        unfold head_ok; cbn. eauto.
      * intros u. destruct (Nat.eq_dec u t) as [->|Hne]; [rewrite updt_same|rewrite updt_other by easy; apply Hl].
        exact Hlt.
      * intros E m u. destruct (Nat.eq_dec u t) as [->|Hne]; [rewrite updt_same|rewrite updt_other by easy; now apply Hk].
        cbn. exact (Hkt E m).
Qed.

Lemma run_inv ts (P : st -> Prop) :
  (forall s t ch s', P s -> step ts s t ch = Some s' -> P s') ->
  forall sch s s', P s -> run ts s sch = Some s' -> P s'.
Proof.
  intros HP sch. induction sch as [|[t ch] sch IH]; intros s s' Hs H; cbn in H.
  - now injection H as <-.
  - destruct (step ts s t ch) as [s1|] eqn:E; [|discriminate]. eauto.
Qed.

Lemma shape_run ts prog sch s : run ts (init prog) sch = Some s -> shape ts prog s.
Proof.
  apply (run_inv ts (shape ts prog)); [|apply shape_init].
  intros s0 t ch s' Hs E. exact (shape_step _ _ _ _ _ _ Hs E).
Qed.

(** A step changes the counters only when a thread stores. *)
Definition stores (s : st) (t : nat) : option (native * nat) :=
  match t_pc (s_thr s t) with CLoaded n v => Some (n, v) | _ => None end.

Lemma step_effect ts s t ch s' : step ts s t ch = Some s' ->
  (forall u, u <> t -> s_thr s' u = s_thr s u) /\
  match stores s t with
  | Some (n, v) => s_val s' = updn (s_val s) n (S v) /\ t_log (s_thr s' t) = n :: t_log (s_thr s t) /\
                   (forall m w, t_pc (s_thr s' t) <> CLoaded m w)
  | None => s_val s' = s_val s /\ t_log (s_thr s' t) = t_log (s_thr s t) /\
            (forall m w, t_pc (s_thr s' t) = CLoaded m w -> w = s_val s m)
  end.
Proof.
  intros H. unfold stores, step in *.
  destruct (t_pc (s_thr s t)) as [|n|n v|n|c l] eqn:Epc.
  - destruct (t_ops (s_thr s t)) as [|[n|c] r] eqn:Eops; [discriminate| |].
    + destruct ts; [destruct (s_lock s n); [discriminate|]|]; injection H as <-; cbn;
        (split; [intros u Hu; now rewrite updt_other|]); rewrite updt_same; cbn;
        repeat split; congruence.
    + injection H as <-; cbn. split; [intros u Hu; now rewrite updt_other|]; rewrite updt_same; cbn;
        repeat split; congruence.
  - injection H as <-; cbn. split; [intros u Hu; now rewrite updt_other|]; rewrite updt_same; cbn;
        repeat split; congruence.
  - injection H as <-; cbn. split; [intros u Hu; now rewrite updt_other|]; rewrite updt_same; cbn.
    repeat split; destruct ts; congruence.
  - injection H as <-; cbn. split; [intros u Hu; now rewrite updt_other|]; rewrite updt_same; cbn;
        repeat split; congruence.
  - destruct (forallb (loaded l) (needed c));
      [|destruct (existsb (native_eqb ch) (needed c) && negb (loaded l ch)); [|discriminate]];
      injection H as <-; cbn; (split; [intros u Hu; now rewrite updt_other|]); rewrite updt_same; cbn;
        repeat split; congruence.
Qed.

(** Threads without program never move. *)
Definition bounded_by (T : nat) (prog : nat -> list op) : Prop := forall t, T <= t -> prog t = [].

Lemma log_small ts prog s T t : bounded_by T prog -> shape ts prog s -> T <= t ->
  t_log (s_thr s t) = [] /\ incs (t_ops (s_thr s t)) = [].
Proof.
  intros HT Hs Ht. pose proof (sh_log _ _ _ Hs t) as H. rewrite (HT t Ht) in H. cbn in H.
  apply app_eq_nil in H. destruct H as [H1 H2]. split; [|exact H2].
  destruct (t_log (s_thr s t)) as [|a l]; [reflexivity|]. cbn in H1.
  apply app_eq_nil in H1. now destruct H1.
Qed.

Lemma stores_head ts prog s t n v : shape ts prog s -> stores s t = Some (n, v) ->
  exists r, t_ops (s_thr s t) = MInc n :: r.
Proof.
  intros Hs H. pose proof (sh_head _ _ _ Hs t) as Hh. unfold stores, head_ok in *.
  destruct (t_pc (s_thr s t)); try discriminate. injection H as -> ->. exact Hh.
Qed.

Lemma executed_step ts prog T s t ch s' m : bounded_by T prog -> shape ts prog s ->
  step ts s t ch = Some s' ->
  executed T s' m =
  executed T s m + match stores s t with Some (n, _) => if native_eqb m n then 1 else 0 | None => 0 end.
Proof.
  intros HT Hs H. destruct (step_effect _ _ _ _ _ H) as [Ho He].
  unfold executed.
  destruct (stores s t) as [[n v]|] eqn:E.
  - destruct He as (_ & Hlog & _).
    assert (Ht : t < T).
    { destruct (lt_dec t T) as [|Hge]; [assumption|exfalso].
      destruct (stores_head _ _ _ _ _ _ Hs E) as [r Hr].
      destruct (log_small _ _ _ _ t HT Hs ltac:(lia)) as [_ Hi]. now rewrite Hr in Hi. }
    pose proof (sumn_one T (fun u => occ m (t_log (s_thr s' u))) (fun u => occ m (t_log (s_thr s u))) t Ht) as Hsum.
    cbn beta in Hsum. rewrite Hlog, occ_cons in Hsum.
    specialize (Hsum (fun u Hu => f_equal (fun th => occ m (t_log th)) (Ho u Hu))). lia.
  - destruct He as (_ & Hlog & _). rewrite Nat.add_0_r. apply sumn_ext. intros u _.
    destruct (Nat.eq_dec u t) as [->|Hne]; [now rewrite Hlog|now rewrite Ho].
Qed.

(** ** Exact counters *)

Definition exact (T : nat) (s : st) : Prop :=
  (forall n, s_val s n = executed T s n) /\
  (forall t n v, t_pc (s_thr s t) = CLoaded n v -> v = s_val s n).

Definition safe (ts : bool) (prog : nat -> list op) : Prop := ts = true \/ one_reader prog.

Lemma one_loaded ts prog s t u n v w : safe ts prog -> shape ts prog s ->
  t_pc (s_thr s t) = CLoaded n v -> t_pc (s_thr s u) = CLoaded n w -> t = u.
Proof.
  intros [->|[k Hk]] Hs Ht Hu.
  - pose proof (proj2 (sh_lock _ _ _ Hs eq_refl n t)) as H1.
    pose proof (proj2 (sh_lock _ _ _ Hs eq_refl n u)) as H2.
    rewrite Ht in H1. rewrite Hu in H2. specialize (H1 eq_refl). specialize (H2 eq_refl). congruence.
  - assert (Hw : forall x n' v', t_pc (s_thr s x) = CLoaded n' v' -> x = k).
    { intros x n' v' Hx. destruct (Nat.eq_dec x k) as [|Hne]; [assumption|exfalso].
      pose proof (sh_head _ _ _ Hs x) as Hh. unfold head_ok in Hh. rewrite Hx in Hh.
      destruct Hh as [r Hr]. pose proof (sh_log _ _ _ Hs x) as Hl.
      rewrite Hr, (no_reads_no_incs _ (Hk x Hne)) in Hl. cbn in Hl.
      apply app_eq_nil in Hl. now destruct Hl. }
    rewrite (Hw _ _ _ Ht), (Hw _ _ _ Hu). reflexivity.
Qed.

Lemma exact_init T prog : exact T (init prog).
Proof.
  split; cbn; [|congruence]. intros n. unfold executed. cbn.
  induction T as [|T IH]; cbn; [reflexivity|]. exact IH.
Qed.

Lemma exact_step ts prog T s t ch s' : safe ts prog -> bounded_by T prog -> shape ts prog s ->
  exact T s -> step ts s t ch = Some s' -> exact T s'.
Proof.
  intros Hsafe HT Hs [Hv Hl] H.
  destruct (step_effect _ _ _ _ _ H) as [Ho He].
  pose proof (fun m => executed_step _ _ _ _ _ _ _ m HT Hs H) as Hex.
  destruct (stores s t) as [[n v]|] eqn:E.
  - destruct He as (Hval & _ & Hnl).
    assert (Epc : t_pc (s_thr s t) = CLoaded n v).
    { unfold stores in E. destruct (t_pc (s_thr s t)); try discriminate. congruence. }
    pose proof (Hl t n v Epc) as Hvn.
    split.
    + intros m. rewrite Hex, Hval, <- Hv. unfold updn.
      destruct (native_eqb_spec m n) as [->|Hmn]; [rewrite Hvn|]; lia.
    + intros u m w Hu. destruct (Nat.eq_dec u t) as [->|Hne]; [exfalso; exact (Hnl _ _ Hu)|].
      rewrite Ho in Hu by easy. rewrite Hval. unfold updn.
      destruct (native_eqb_spec m n) as [->|Hmn]; [|now apply (Hl u)].
      exfalso. apply Hne. exact (one_loaded _ _ _ _ _ _ _ _ Hsafe Hs Hu Epc).
  - destruct He as (Hval & _ & Hnl). split.
    + intros m. rewrite Hex, Hval, <- Hv. lia.
    + intros u m w Hu. rewrite Hval. destruct (Nat.eq_dec u t) as [->|Hne]; [now apply Hnl|].
      rewrite Ho in Hu by easy. now apply (Hl u).
Qed.

Lemma exact_run ts prog T sch s : safe ts prog -> bounded_by T prog ->
  run ts (init prog) sch = Some s -> shape ts prog s /\ exact T s.
Proof.
  intros Hsafe HT. apply (run_inv ts (fun s => shape ts prog s /\ exact T s)).
  - intros s0 t ch s' [Hs He] H. split; [exact (shape_step _ _ _ _ _ _ Hs H)|].
    exact (exact_step _ _ _ _ _ _ _ Hsafe HT Hs He H).
  - split; [apply shape_init|apply exact_init].
Qed.

Lemma executed_finished ts prog T s n : shape ts prog s -> (forall t, finished s t) ->
  executed T s n = occ_kind n (all_reads T prog).
Proof.
  intros Hs Hf. rewrite occ_all. unfold executed. apply sumn_ext. intros t _.
  rewrite <- (sh_log _ _ _ Hs t). destruct (Hf t) as [_ ->]. cbn.
  now rewrite app_nil_r, occ_rev.
Qed.

Lemma reported_of ks f : (forall n, f n = occ_kind n ks) -> (Z.of_nat (length ks) < 2 ^ 64)%Z ->
  reported (as_counters f) ks.
Proof.
  intros Hf Hl. replace (as_counters f) with (count_all ks counters0).
  - now apply reported_count_all.
  - rewrite count_all_spec. unfold as_counters. rewrite !Hf. reflexivity.
Qed.

Lemma final_exact ts prog T sch s : safe ts prog -> bounded_by T prog ->
  run ts (init prog) sch = Some s -> (forall t, finished s t) ->
  (Z.of_nat (length (all_reads T prog)) < 2 ^ 64)%Z ->
  reported (as_counters (s_val s)) (all_reads T prog).
Proof.
  intros Hsafe HT H Hf Hl. destruct (exact_run _ _ _ _ _ Hsafe HT H) as [Hs [Hv _]].
  apply reported_of; [|assumption]. intros n. rewrite Hv. exact (executed_finished _ _ _ _ _ Hs Hf).
Qed.

(** ** Never too large *)

Definition below (T : nat) (s : st) : Prop :=
  (forall n, s_val s n <= executed T s n) /\
  (forall n, 1 <= executed T s n -> 1 <= s_val s n) /\
  (forall t n v, t_pc (s_thr s t) = CLoaded n v -> v <= executed T s n).

Lemma below_step ts prog T s t ch s' : bounded_by T prog -> shape ts prog s ->
  below T s -> step ts s t ch = Some s' -> below T s'.
Proof.
  intros HT Hs (Hv & H1 & Hl) H.
  destruct (step_effect _ _ _ _ _ H) as [Ho He].
  pose proof (fun m => executed_step _ _ _ _ _ _ _ m HT Hs H) as Hex.
  destruct (stores s t) as [[n v]|] eqn:E.
  - destruct He as (Hval & _ & Hnl).
    assert (Epc : t_pc (s_thr s t) = CLoaded n v).
    { unfold stores in E. destruct (t_pc (s_thr s t)); try discriminate. congruence. }
    pose proof (Hl t n v Epc) as Hvn.
    split; [|split].
    + intros m. rewrite Hex, Hval. unfold updn. specialize (Hv m).
      destruct (native_eqb_spec m n) as [->|Hmn]; lia.
    + intros m. rewrite Hex, Hval. unfold updn. specialize (H1 m).
      destruct (native_eqb_spec m n) as [->|Hmn]; lia.
    + intros u m w Hu. destruct (Nat.eq_dec u t) as [->|Hne]; [exfalso; exact (Hnl _ _ Hu)|].
      rewrite Ho in Hu by easy. rewrite Hex. specialize (Hl _ _ _ Hu). lia.
  - destruct He as (Hval & _ & Hnl). split; [|split].
    + intros m. rewrite Hex, Hval. specialize (Hv m). lia.
    + intros m. rewrite Hex, Hval. specialize (H1 m). lia.
    + intros u m w Hu. rewrite Hex. destruct (Nat.eq_dec u t) as [->|Hne].
      * apply Hnl in Hu. specialize (Hv m). lia.
      * rewrite Ho in Hu by easy. specialize (Hl _ _ _ Hu). lia.
Qed.

Lemma below_run ts prog T sch s : bounded_by T prog ->
  run ts (init prog) sch = Some s -> shape ts prog s /\ below T s.
Proof.
  intros HT. apply (run_inv ts (fun s => shape ts prog s /\ below T s)).
  - intros s0 t ch s' [Hs He] H. split; [exact (shape_step _ _ _ _ _ _ Hs H)|].
    exact (below_step _ _ _ _ _ _ _ HT Hs He H).
  - split; [apply shape_init|].
    destruct (exact_init T prog) as [Hv _]. split; [|split].
    + intros n. rewrite Hv. lia.
    + intros n. rewrite Hv. lia.
    + cbn. congruence.
Qed.

Lemma final_below ts prog T sch s n : bounded_by T prog ->
  run ts (init prog) sch = Some s -> (forall t, finished s t) ->
  s_val s n <= occ_kind n (all_reads T prog) /\
  (1 <= occ_kind n (all_reads T prog) -> 1 <= s_val s n).
Proof.
  intros HT H Hf. destruct (below_run _ _ _ _ _ HT H) as [Hs (Hv & H1 & _)].
  rewrite <- (executed_finished _ _ T _ n Hs Hf). auto.
Qed.

(** ** Queries while other threads read *)

Lemma executed_mono ts prog T s t ch s' m : bounded_by T prog -> shape ts prog s ->
  step ts s t ch = Some s' -> executed T s m <= executed T s' m.
Proof. intros HT Hs H. rewrite (executed_step _ _ _ _ _ _ _ m HT Hs H). lia. Qed.

(** What thread [t] loaded since state [s0]. *)
Definition fresh (T : nat) (s0 s : st) (t : nat) : Prop :=
  (forall n, executed T s0 n <= executed T s n) /\
  (match t_pc (s_thr s t) with
   | CGet c l => forall n v, In (n, v) l -> executed T s0 n <= v <= executed T s n
   | _ => True
   end) /\
  exists new, t_got (s_thr s t) = new ++ t_got (s_thr s0 t) /\
    forall c z, In (c, z) new ->
      exists f, (forall n, executed T s0 n <= f n <= executed T s n) /\ z = wrap64 (formula f c).

Lemma load_of_in l n : loaded l n = true -> In (n, load_of l n) l.
Proof.
  induction l as [|[m v] l IH]; cbn; [discriminate|]. intros H.
  destruct (native_eqb_spec m n) as [->|Hmn]; [now left|right]. now apply IH.
Qed.

Lemma fresh_step ts prog T s0 s t u ch s' : bounded_by T prog -> shape ts prog s ->
  exact T s -> fresh T s0 s t -> step ts s u ch = Some s' -> fresh T s0 s' t.
Proof.
  intros HT Hs [Hv _] (Hm & Hp & new & Hg & Hn) H.
  pose proof (fun m => executed_mono _ _ _ _ _ _ _ m HT Hs H) as Hmono.
  assert (Hm' : forall n, executed T s0 n <= executed T s' n) by (intros n; specialize (Hm n); specialize (Hmono n); lia).
  assert (Hn' : forall c z, In (c, z) new ->
      exists f, (forall n, executed T s0 n <= f n <= executed T s' n) /\ z = wrap64 (formula f c)).
  { intros c z Hin. destruct (Hn c z Hin) as (f & Hf & Hz). exists f. split; [|exact Hz].
    intros n. specialize (Hf n). specialize (Hmono n). lia. }
  split; [exact Hm'|].
  destruct (Nat.eq_dec t u) as [<-|Hne].
  2: { destruct (step_effect _ _ _ _ _ H) as [Ho _]. rewrite (Ho t Hne). split.
       - destruct (t_pc (s_thr s t)) as [| | | |c l]; auto. intros n v Hin.
         specialize (Hp n v Hin). specialize (Hmono n). lia.
       - exists new. split; [exact Hg|exact Hn']. }
  unfold step in H.
  destruct (t_pc (s_thr s t)) as [|n|n v|n|c l] eqn:Epc.
  - destruct (t_ops (s_thr s t)) as [|[n|c] r] eqn:Eops; [discriminate| |].
    + destruct ts; [destruct (s_lock s n); [discriminate|]|]; injection H as <-; cbn [s_thr] in *;
        rewrite updt_same in *; cbn; (split; [exact I|]); exists new; split; [exact Hg|exact Hn'| |];
        [exact Hg|exact Hn'].
    + injection H as <-; cbn [s_thr] in *; rewrite updt_same in *; cbn; split; [intros ? ? []|].
      exists new; split; [exact Hg|exact Hn'].
  - injection H as <-; cbn [s_thr] in *; rewrite updt_same in *; cbn; split; [exact I|].
    exists new; split; [exact Hg|exact Hn'].
  - injection H as <-; cbn [s_thr] in *; rewrite updt_same in *; cbn; split; [now destruct ts|].
    exists new; split; [exact Hg|exact Hn'].
  - injection H as <-; cbn [s_thr] in *; rewrite updt_same in *; cbn; split; [exact I|].
    exists new; split; [exact Hg|exact Hn'].
  - destruct (forallb (loaded l) (needed c)) eqn:Eall.
    + injection H as <-; cbn [s_thr] in *; rewrite updt_same in *; cbn; split; [exact I|].
      exists ((c, counter_get (as_counters (load_of l)) c) :: new). split; [cbn; now rewrite Hg|].
      intros c' z [[= <- <-]|Hin]; [|exact (Hn' c' z Hin)].
      exists (fun n => if existsb (native_eqb n) (needed c) then load_of l n else executed T s0 n). split.
      * intros n. specialize (Hmono n). specialize (Hm' n). destruct (existsb (native_eqb n) (needed c)) eqn:En; [|lia].
        apply existsb_exists in En. destruct En as (n' & Hin & En). destruct (native_eqb_spec n n') as [<-|]; [|discriminate En].
        assert (Hld : executed T s0 n <= load_of l n <= executed T s n).
        { apply Hp. apply load_of_in. rewrite forallb_forall in Eall. now apply Eall. }
        lia.
      * unfold counter_get, as_counters. destruct c; cbn; f_equal; lia.
    + destruct (existsb (native_eqb ch) (needed c) && negb (loaded l ch)); [|discriminate].
      injection H as <-; cbn [s_thr] in *; rewrite updt_same in *; cbn [t_pc t_got]. split.
      * intros n v [[= -> <-]|Hin].
        -- specialize (Hmono n). specialize (Hm n). pose proof (Hv n). lia.
        -- specialize (Hmono n). specialize (Hp n v Hin). lia.
      * exists new; split; [exact Hg|exact Hn'].
Qed.

Definition not_querying (s : st) (t : nat) : Prop :=
  forall c l, t_pc (s_thr s t) <> CGet c l.

Lemma queries_all ts prog T sch1 sch2 s1 s2 t : safe ts prog -> bounded_by T prog ->
  run ts (init prog) sch1 = Some s1 -> run ts s1 sch2 = Some s2 -> not_querying s1 t ->
  exists new, t_got (s_thr s2 t) = new ++ t_got (s_thr s1 t) /\
    forall c z, In (c, z) new ->
      exists f, (forall n, executed T s1 n <= f n <= executed T s2 n) /\ z = wrap64 (formula f c).
Proof.
  intros Hsafe HT H1 H2 Hq. destruct (exact_run _ _ _ _ _ Hsafe HT H1) as [Hs1 He1].
  assert (HP : shape ts prog s2 /\ exact T s2 /\ fresh T s1 s2 t).
  { apply (run_inv ts (fun s => shape ts prog s /\ exact T s /\ fresh T s1 s t)) with (sch := sch2) (s := s1).
    - intros s u ch s' (Hs & He & Hf) H. split; [exact (shape_step _ _ _ _ _ _ Hs H)|].
      split; [exact (exact_step _ _ _ _ _ _ _ Hsafe HT Hs He H)|].
      exact (fresh_step _ _ _ _ _ _ _ _ _ HT Hs He Hf H).
    - split; [assumption|]. split; [assumption|]. split; [intros n; lia|]. split.
      + specialize (Hq). destruct (t_pc (s_thr s1 t)) as [| | | |c l] eqn:E; auto. now destruct (Hq c l).
      + exists []. split; [reflexivity|]. intros c z [].
    - exact H2. }
  destruct HP as (_ & _ & _ & _ & Hnew). exact Hnew.
Qed.

Lemma queries ts prog T sch1 sch2 s1 s2 t : safe ts prog -> bounded_by T prog ->
  run ts (init prog) sch1 = Some s1 -> run ts s1 sch2 = Some s2 -> not_querying s1 t ->
  exists new, t_got (s_thr s2 t) = new ++ t_got (s_thr s1 t) /\
    forall c z, In (c, z) new ->
      forall lo hi, true_sum T s1 c = Some lo -> true_sum T s2 c = Some hi ->
      exists k, lo <= k <= hi /\ z = wrap64 (Z.of_nat k).
Proof.
  intros Hsafe HT H1 H2 Hq. destruct (queries_all _ _ _ _ _ _ _ _ Hsafe HT H1 H2 Hq) as (new & Hg & Hn).
  exists new. split; [exact Hg|]. intros c z Hin lo hi Hlo Hhi. destruct (Hn c z Hin) as (f & Hf & ->).
  pose proof (Hf NAccess). pose proof (Hf NNuma). pose proof (Hf NMpi). pose proof (Hf NFile).
  destruct c; cbn in Hlo, Hhi; try discriminate Hlo; injection Hlo as <-; injection Hhi as <-; cbn [formula];
    eexists; (split; [|reflexivity]); lia.
Qed.

Lemma queries_quiet ts prog T sch1 sch2 s1 s2 t : safe ts prog -> bounded_by T prog ->
  run ts (init prog) sch1 = Some s1 -> run ts s1 sch2 = Some s2 -> not_querying s1 t ->
  (forall n, executed T s2 n = executed T s1 n) ->
  exists new, t_got (s_thr s2 t) = new ++ t_got (s_thr s1 t) /\
    forall c z, In (c, z) new -> z = wrap64 (formula (executed T s1) c).
Proof.
  intros Hsafe HT H1 H2 Hq He. destruct (queries_all _ _ _ _ _ _ _ _ Hsafe HT H1 H2 Hq) as (new & Hg & Hn).
  exists new. split; [exact Hg|]. intros c z Hin. destruct (Hn c z Hin) as (f & Hf & ->).
  assert (E : forall n, f n = executed T s1 n) by (intros n; specialize (Hf n); specialize (He n); lia).
  destruct c; cbn [formula]; rewrite ?E; reflexivity.
Qed.

(** ** No thread waits for ever *)

Lemma can_step ts prog sch s t : run ts (init prog) sch = Some s -> ~ finished s t ->
  exists u ch s', step ts s u ch = Some s'.
Proof.
  intros H Hnf. pose proof (shape_run _ _ _ _ H) as Hs.
  assert (Hfree : forall u, t_pc (s_thr s u) <> CIdle -> exists ch s', step ts s u ch = Some s').
  { intros u Hu. unfold step. destruct (t_pc (s_thr s u)) as [|n|n v|n|c l] eqn:E; [congruence| | | |].
    1-3: exists NAccess; eauto.
    destruct (forallb (loaded l) (needed c)) eqn:Ea; [exists NAccess; eauto|].
    assert (Hex : exists n, In n (needed c) /\ loaded l n = false).
    { clear -Ea. induction (needed c) as [|a r IH]; cbn in *; [discriminate|].
      destruct (loaded l a) eqn:El; [|eauto]. cbn in Ea. destruct (IH Ea) as (n & Hin & Hl). eauto. }
    destruct Hex as (n & Hin & Hl). exists n.
    assert (Hb : existsb (native_eqb n) (needed c) = true).
    { apply existsb_exists. exists n. split; [assumption|apply native_eqb_refl]. }
    rewrite Hb, Hl. cbn. eauto. }
  destruct (t_pc (s_thr s t)) as [|n|n v|n|c l] eqn:E.
  2-5: exists t; apply Hfree; congruence.
  unfold finished in Hnf. destruct (t_ops (s_thr s t)) as [|[n|c] r] eqn:Eo; [tauto| |].
  - destruct ts.
    + destruct (s_lock s n) as [u|] eqn:El.
      * apply (sh_lock _ _ _ Hs eq_refl) in El. exists u. apply Hfree. intros Eu. rewrite Eu in El. exact El.
      * exists t, NAccess. unfold step. rewrite E, Eo, El. eauto.
    + exists t, NAccess. unfold step. rewrite E, Eo. eauto.
  - exists t, NAccess. unfold step. rewrite E, Eo. eauto.
Qed.

(** ** Witnesses *)

Definition idleb (th : thread) : bool :=
  match t_pc th, t_ops th with CIdle, [] => true | _, _ => false end.

(** All of threads 0..T-1 are done and [f] holds. *)
Definition ends (ts : bool) (prog : nat -> list op) (T : nat) (sch : list (nat * native))
    (f : st -> bool) : bool :=
  match run ts (init prog) sch with
  | Some s => forallb (fun t => idleb (s_thr s t)) (seq 0 T) && f s
  | None => false
  end.

Lemma ends_ok ts prog T sch f : bounded_by T prog -> ends ts prog T sch f = true ->
  exists s, run ts (init prog) sch = Some s /\ (forall t, finished s t) /\ f s = true.
Proof.
  intros HT H. unfold ends in H. destruct (run ts (init prog) sch) as [s|] eqn:E; [|discriminate].
  apply andb_true_iff in H. destruct H as [H Hf]. exists s. split; [reflexivity|]. split; [|assumption].
  assert (Hbig : forall t, T <= t -> finished s t).
  { revert E. apply (run_inv ts (fun s => forall t, T <= t -> finished s t)).
    - intros s0 t ch s' Hs H0 u Hu. destruct (step_effect _ _ _ _ _ H0) as [Ho _].
      destruct (Nat.eq_dec u t) as [->|Hne].
      + destruct (Hs t Hu) as [H1 H2]. unfold step in H0. rewrite H1, H2 in H0. discriminate.
      + unfold finished. rewrite (Ho u Hne). now apply Hs.
    - intros t Ht. unfold finished, init. cbn. now rewrite (HT t Ht). }
  intros t. destruct (le_lt_dec T t) as [Hge|Hlt]; [now apply Hbig|].
  rewrite forallb_forall in H. specialize (H t ltac:(apply in_seq; lia)).
  unfold idleb in H. unfold finished.
  destruct (t_pc (s_thr s t)); try discriminate. destruct (t_ops (s_thr s t)); [auto|discriminate].
Qed.
