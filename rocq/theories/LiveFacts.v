(** * Reads that cannot be completed with the communication thread *)
From Verif Require Export ConcFacts.

Section Live.
Context {V : Type} (c : cfg V).
Local Notation n := (cf_size c).
Local Notation D := (cf_doms c).
Local Notation P := (cf_ranks c).

(** No message is under way and no communication thread is busy. *)
Definition quiet (s : st V) : Prop :=
  (forall r q, s_ireq s r q = [] /\ s_irep s r q = [] /\ s_breq s r q = [] /\ s_brep s r q = []) /\
  (forall r, s_upd s r = [] /\ s_com s r = CIdle).

(** Every thread is done, about to call [CacheManager::get], inside of it waiting for a locked
    slot, or about to ask where its block is cached (some rank is listed); all cache
    managers are locked. *)
Definition trapped (s : st V) : Prop :=
  (forall t, t_todo (s_thr s t) = [] \/ t_pc (s_thr s t) = PIdle \/
     (exists i old, t_pc (s_thr s t) = PGetSlot i old /\
        s_lock s (LSlot (cf_rank c t) (node_off c (cf_dom c t) i)) <> None) \/
     (exists i e, t_pc (s_thr s t) = PStart i /\ listed s (req (s_thr s t)) e)) /\
  (forall r d, r < P -> d < D -> s_lock s (LCache r d) <> None) /\
  quiet s.

(** The same while the blocks are asked for again and again. *)
Definition asking (p : pc V) : Prop :=
  match p with
  | PStart _ | PAskInfo _ | PWaitInfo _ | PAskBlk _ _ | PSendBlk _ _ | PWaitBlk _ _ => True
  | _ => False
  end.

Record trap (s0 s : st V) : Prop := {
  p_prog : forall t, t_todo (s_thr s t) = t_todo (s_thr s0 t) /\ t_done (s_thr s t) = t_done (s_thr s0 t);
  p_pc : forall t, t_todo (s_thr s t) = [] \/ t_pc (s_thr s t) = PIdle \/
     (exists i old, t_pc (s_thr s t) = PGetSlot i old /\
        s_lock s (LSlot (cf_rank c t) (node_off c (cf_dom c t) i)) <> None) \/
     (asking (t_pc (s_thr s t)) /\ exists e, listed s (req (s_thr s t)) e);
  p_lock : forall r d, r < P -> d < D -> s_lock s (LCache r d) <> None;
  p_upd : forall r, s_upd s r = [];
  p_ireq : forall r q, Forall (fun b => exists e, listed s b e) (s_ireq s r q);
  p_irep : forall r q, Forall (fun m => snd m <> None) (s_irep s r q);
  p_brep : forall r q, Forall (fun m => snd m = None) (s_brep s r q);
  p_com : forall r, match s_com s r with CIdle => True | CTry _ _ k => r < P | _ => False end
}.

Hypothesis Hwf : wf_cfg c.
Hypothesis Hm : cf_mode c = MThread.

Lemma listed_fetch s b r : inv1 c s -> (exists e, listed s b e) ->
  exists e k, fetch_block_info (s_dict s b) r = Ok (Some e, k).
Proof.
  intros Hi (e & He). destruct (i_dict c s Hi b) as (l & E & Hl & _). unfold listed in He. rewrite E in *.
  apply rep_In in He. destruct (fetch_rep l r Hl) as (x & Ex & _ & Hn & _). rewrite Ex.
  destruct x; eauto. exfalso. rewrite (proj1 Hn eq_refl) in He. destruct He.
Qed.

Lemma all_updp {A} (Q : A -> Prop) (f : nat -> nat -> list A) i j l :
  (forall r q, Forall Q (f r q)) -> Forall Q l -> forall r q, Forall Q (updp f i j l r q).
Proof. intros H1 H2 r q. unfold updp. destruct ((r =? i) && (q =? j))%bool; auto. Qed.

Lemma trap_thr s0 s t ch s' : inv1 c s -> trap s0 s -> step_thr c s t ch = Some s' -> trap s0 s'.
Proof.
  intros Hi [H1 H2 H3 H4 H5 H6 H7 H8] H.
  pose proof (H2 t) as Ht. pose proof (H1 t) as Hp.
  pose proof (H3 _ _ (wc_rank c Hwf t) (wc_dom c Hwf t)) as Hc.
  destruct (s_thr s t) as [p todo dn] eqn:Et. cbn [t_pc t_todo t_done] in *.
  open_step H. rewrite Et in H. cbn [t_pc t_todo t_done] in H. rewrite Hm in H.
  destruct todo as [|[b cell] rest]; [discriminate|]. cbn [req t_todo] in Ht.
  destruct Ht as [?|[->|[(i & old & -> & Hl)|[Ha Hb]]]]; [discriminate| | |].
  - destruct (s_lock s (LCache _ _)); [discriminate|congruence].
  - destruct (s_lock s (LSlot _ _)); [discriminate|congruence].
  - assert (Hother : forall p' lk, (forall k, (forall q, k <> LInfo q /\ k <> LBlk q) -> lk k = s_lock s k) ->
      asking p' -> forall t', t_todo (upd (s_thr s) t (Thr p' ((b, cell) :: rest) dn) t') = [] \/
        t_pc (upd (s_thr s) t (Thr p' ((b, cell) :: rest) dn) t') = PIdle \/
       (exists i old, t_pc (upd (s_thr s) t (Thr p' ((b, cell) :: rest) dn) t') = PGetSlot i old /\
        lk (LSlot (cf_rank c t') (node_off c (cf_dom c t') i)) <> None) \/
       (asking (t_pc (upd (s_thr s) t (Thr p' ((b, cell) :: rest) dn) t')) /\
        exists e, listed s (req (upd (s_thr s) t (Thr p' ((b, cell) :: rest) dn) t')) e)).
    { intros p' lk Hlk Hp' t'. destruct (Nat.eq_dec t' t) as [->|Hne].
      - rewrite upd_eq. cbn [t_pc t_todo req]. auto.
      - rewrite upd_ne by auto. destruct (H2 t') as [?|[?|[(i & old & E & Hl)|?]]]; auto.
        right. right. left. exists i, old. split; auto. rewrite Hlk; auto. intros; split; discriminate. }
    assert (Hprog : forall p' t', t_todo (upd (s_thr s) t (Thr p' ((b, cell) :: rest) dn) t') = t_todo (s_thr s0 t') /\
      t_done (upd (s_thr s) t (Thr p' ((b, cell) :: rest) dn) t') = t_done (s_thr s0 t')).
    { intros p' t'. destruct (Nat.eq_dec t' t) as [->|Hne]; [rewrite upd_eq; auto|rewrite upd_ne by auto; apply H1]. }
    destruct (listed_fetch s b (ch_rand ch) Hi Hb) as (e & k & Ef).
    destruct p; cbn [asking] in Ha; try tauto; rewrite ?Ef in H.
    all: repeat break; proj; rewrite ?Et; proj.
    all: try (exfalso; match goal with E : s_irep _ _ _ = _, H : forall r q, Forall _ (s_irep _ _ _) |- _ =>
      pose proof (H (cf_rank c t) (cf_home c b)) as Hf; rewrite E in Hf; inversion Hf; cbn in *; congruence end).
    all: try (exfalso; match goal with E : s_brep _ _ _ = _, H : forall r q, Forall _ (s_brep _ _ _) |- _ =>
      pose proof (H (cf_rank c t) dst) as Hf; rewrite E in Hf; inversion Hf; cbn in *; congruence end).
    all: constructor; proj; auto; try (apply Hother; [intros [] Hk; cbn; auto|exact I]).
    all: try (match goal with |- context [?a =? ?b] => destruct (Nat.eqb_spec a b) as [Eq|]; auto; exfalso; destruct (Hk b); subst; congruence end).
    all: apply all_updp; auto.
    + apply Forall_app. auto.
    + match goal with E : s_irep _ ?r ?q = _ |- _ => pose proof (H6 r q) as Hf; rewrite E in Hf end. now inversion Hf.
    + match goal with E : s_brep _ ?r ?q = _ |- _ => pose proof (H7 r q) as Hf; rewrite E in Hf end. now inversion Hf.
Qed.

Lemma trap_com s0 s r ch s' : inv1 c s -> trap s0 s -> r < P -> step_com c s r ch = Some s' -> trap s0 s'.
Proof.
  intros Hi [H1 H2 H3 H4 H5 H6 H7 H8] Hr H. pose proof (H8 r) as Hc.
  assert (Hcom : forall x, match x with CIdle => True | CTry _ _ k => r < P | _ => False end -> forall q,
    match upd (s_com s) r x q with CIdle => True | CTry _ _ _ => q < P | _ => False end).
  { intros x Hx q. unfold upd. destruct (Nat.eqb_spec q r) as [->|]; [exact Hx|apply H8]. }
  open_step H. destruct (s_com s r) eqn:Ec; try tauto.
  - destruct (ch_kind ch) as [|[|]].
    + repeat break; proj. pose proof (H5 (ch_src ch) r) as Hf. rewrite Heql in Hf. inversion Hf; subst.
      constructor; proj; auto; apply all_updp; auto. apply Forall_app. split; auto. constructor; auto. cbn.
      match goal with E : fetch_block_info (s_dict s ?b) _ = _, Hb : exists e, listed s ?b e |- _ =>
        destruct (listed_fetch s b (ch_rand ch) Hi Hb) as (e & k & E'); congruence end.
    + repeat break; proj. constructor; proj; auto.
      all: try (apply (Hcom (CTry _ _ _)); exact Hr).
    + rewrite H4 in H. destruct (ch_src ch); discriminate.
  - repeat break; proj.
    + exfalso. apply Nat.ltb_lt in Heqb0. apply (H3 r k); auto.
    + constructor; proj; auto. apply (Hcom (CTry _ _ _)); exact Hr.
    + constructor; proj; auto; [|apply (Hcom CIdle); exact I]. apply all_updp; auto. apply Forall_app; auto.
Qed.

Lemma trap_run s0 acts : forall s s', inv1 c s -> trap s0 s -> run c s acts = Some s' -> trap s0 s'.
Proof.
  induction acts as [|a acts IH]; cbn; intros s s' Hi Ht H; [congruence|].
  destruct (step c s a) as [s1|] eqn:E; [|discriminate].
  apply (IH s1); auto; [eapply inv1_step; eauto|]. destruct a as [t ch|r ch]; cbn in E.
  - eapply trap_thr; eauto.
  - rewrite Hm in E. destruct (Nat.ltb_spec r P); [|discriminate]. eapply trap_com; eauto.
Qed.

Lemma trapped_trap s : trapped s -> trap s s.
Proof.
  intros (H1 & H2 & Hq & Hu). constructor; auto.
  - intros t. destruct (H1 t) as [?|[?|[?|(i & e & E & He)]]]; auto.
    right. right. right. rewrite E. cbn. eauto.
  - apply Hu.
  - intros r q. rewrite (proj1 (Hq r q)). constructor.
  - intros r q. rewrite (proj1 (proj2 (Hq r q))). constructor.
  - intros r q. rewrite (proj2 (proj2 (proj2 (Hq r q)))). constructor.
  - intros r. rewrite (proj2 (Hu r)). exact I.
Qed.

Lemma trapped_forever s acts s' : reachable c s -> trapped s -> run c s acts = Some s' ->
  forall t, t_todo (s_thr s' t) = t_todo (s_thr s t) /\ t_done (s_thr s' t) = t_done (s_thr s t).
Proof.
  intros Hr Ht H. apply (p_prog s s'). eapply trap_run; [|apply trapped_trap; exact Ht|exact H].
  apply (reach_inv c Hwf s Hr).
Qed.

End Live.

(** ** Two ranks with two threads each *)
Definition trap_file : file nat := File [5; 7] (fun ix => match ix with [i; j] => 10 * i + j | _ => 999 end).
Definition trap_bl : blocked := Blocked [5; 7] [2; 3] [3; 3] 6 9.
(** Threads 0 and 2 have read one block each; then threads 0 and 1 want the block of thread 2
    and threads 2 and 3 want the block of thread 0. *)
Definition trap_ixs (t : nat) : list (list nat) :=
  match t with 0 => [[0; 0]; [4; 6]] | 1 => [[4; 6]] | 2 => [[4; 6]; [0; 0]] | 3 => [[0; 0]] | _ => [] end.
Definition trap_cfg (P D : nat) (rk dm : nat -> nat) : cfg (option nat) :=
  readers MThread trap_file trap_bl true Contiguous P D 2 0 rk dm (fun _ => []) trap_ixs.
Definition half (t : nat) : nat := t / 2 mod 2.
Definition zero (t : nat) : nat := 0.
Lemma trap_setting P D rk dm : (forall t, rk t < P) -> (forall t, dm t < D) ->
  setting MThread trap_file trap_bl P D 2 0 rk dm (fun _ => []) trap_ixs.
Proof.
  intros Hr Hd. split; [discriminate|].
  split; [exists (fun n => nth n [3; 2]%Z 0%Z), (-1)%Z, (fun _ => 0); reflexivity|].
  split; [lia|]. split; [lia|]. split; [exact Hr|]. split; [exact Hd|].
  split; [intros b; split; [cbn; unfold dict_size; lia|constructor]|].
  split; auto. intros [|[|[|[|t]]]]; repeat constructor.
Qed.
Definition moves (t k : nat) : list (act (V := option nat)) := repeat (AThr t ch0) k.
Definition deliver (r kind : nat) : list (act (V := option nat)) := [ACom r (Choice false 0 (fun _ => None) kind 0)].

Definition ranks_cfg : cfg (option nat) := trap_cfg 2 1 half zero.
Definition ranks_acts := moves 0 13 ++ moves 2 13 ++ moves 0 7 ++ moves 2 7 ++ moves 1 2 ++ moves 3 2.

(** ** One rank with two domains and two threads in each of them *)
Definition domains_cfg : cfg (option nat) := trap_cfg 1 2 zero half.
Definition domains_acts := moves 0 16 ++ moves 2 16 ++ moves 0 5 ++ moves 2 5 ++ moves 1 2 ++ moves 3 2 ++ moves 0 3 ++ moves 2 3.

Lemma half_lt t : half t < 2.
Proof. apply Nat.mod_upper_bound. lia. Qed.

Lemma ranks_trapped : exists s, reachable ranks_cfg s /\ trapped ranks_cfg s /\
  forall t, t < 4 -> t_todo (s_thr s t) <> [].
Proof.
  destruct (clist_init 2 0) as [l0|] eqn:E0; [|discriminate].
  destruct (run ranks_cfg (init ranks_cfg l0) ranks_acts) as [s|] eqn:E.
  2:{ exfalso. revert E. vm_compute in E0. injection E0 as <-. vm_compute. discriminate. }
  exists s. split; [exists l0, ranks_acts; auto|].
  vm_compute in E0. injection E0 as <-. vm_compute in E. injection E as <-.
  split; [split; [|split; [|split]]|].
  - intros [|[|[|[|t]]]]; cbn; auto; right; right.
    + right. exists 1, 2. unfold listed. cbn. auto.
    + left. exists 1, (Some 8). cbn. split; [reflexivity|discriminate].
    + right. exists 1, 0. unfold listed. cbn. auto.
    + left. exists 1, (Some 0). cbn. split; [reflexivity|discriminate].
  - intros [|[|r]] [|d] Hr Hd; cbn in Hr, Hd; try lia; cbn; discriminate.
  - intros r q. cbn. auto.
  - intros r. cbn. auto.
  - intros [|[|[|[|t]]]] Ht; try lia; cbn; discriminate.
Qed.

Lemma domains_trapped : exists s, reachable domains_cfg s /\ trapped domains_cfg s /\
  forall t, t < 4 -> t_todo (s_thr s t) <> [].
Proof.
  destruct (clist_init 2 0) as [l0|] eqn:E0; [|discriminate].
  destruct (run domains_cfg (init domains_cfg l0) domains_acts) as [s|] eqn:E.
  2:{ exfalso. revert E. vm_compute in E0. injection E0 as <-. vm_compute. discriminate. }
  exists s. split; [exists l0, domains_acts; auto|].
  vm_compute in E0. injection E0 as <-. vm_compute in E. injection E as <-.
  split; [split; [|split; [|split]]|].
  - intros [|[|[|[|t]]]]; cbn; auto; right; right.
    + right. exists 1, 2. unfold listed. cbn. auto.
    + left. exists 1, (Some 8). cbn. split; [reflexivity|discriminate].
    + right. exists 1, 0. unfold listed. cbn. auto.
    + left. exists 1, (Some 0). cbn. split; [reflexivity|discriminate].
  - intros [|r] [|[|d]] Hr Hd; cbn in Hr, Hd; try lia; cbn; discriminate.
  - intros r q. cbn. auto.
  - intros r. cbn. auto.
  - intros [|[|[|[|t]]]] Ht; try lia; cbn; discriminate.
Qed.

Lemma two_ranks_stuck :
  exists s, reachable ranks_cfg s /\
  forall acts s', run ranks_cfg s acts = Some s' -> forall t, t < 4 -> t_todo (s_thr s' t) <> [].
Proof.
  destruct ranks_trapped as (s & Hr & Ht & Hw). exists s. split; auto. intros acts s' H t Hlt.
  assert (wf_cfg ranks_cfg) as Hwf by (apply readers_wf, trap_setting; [apply half_lt|unfold zero; lia]).
  destruct (trapped_forever ranks_cfg Hwf eq_refl s acts s' Hr Ht H t) as [-> _]. auto.
Qed.
Lemma two_domains_stuck :
  exists s, reachable domains_cfg s /\
  forall acts s', run domains_cfg s acts = Some s' -> forall t, t < 4 -> t_todo (s_thr s' t) <> [].
Proof.
  destruct domains_trapped as (s & Hr & Ht & Hw). exists s. split; auto. intros acts s' H t Hlt.
  assert (wf_cfg domains_cfg) as Hwf by (apply readers_wf, trap_setting; [unfold zero; lia|apply half_lt]).
  destruct (trapped_forever domains_cfg Hwf eq_refl s acts s' Hr Ht H t) as [-> _]. auto.
Qed.
