(** * Proofs about builds without thread safety *)
From Verif Require Export NoopModel ConcFacts.
From Verif Require Import ConcInv1 ConcInv2.

Ltac eqs :=
  repeat match goal with
  | E : (_ =? _) = false |- _ => apply Nat.eqb_neq in E
  | E : (_ =? _) = true |- _ => apply Nat.eqb_eq in E
  end.

Section Noop.
Context {V : Type} (c : cfg V).

Local Notation n := (cf_size c).
Local Notation D := (cf_doms c).

(** ** Shape of lists and dictionary entries *)

Definition lists_ok (s : st V) : Prop := forall r d, exists h tt, clist_inv n h tt (s_list s r d).
Definition entries_ok (s : st V) : Prop := forall b, exists l, s_dict s b = rep l /\ length l <= dict_size.

Lemma entry_update x e x' : (exists l, x = rep l /\ length l <= dict_size) -> update_block_info x e = Ok x' ->
  exists l, x' = rep l /\ length l <= dict_size.
Proof.
  intros (l & -> & Hl) E. rewrite update_rep in E by auto. exists (firstn dict_size (e :: l)).
  split; [congruence|]. rewrite firstn_length. lia.
Qed.
Lemma entry_delete x e x' : (exists l, x = rep l /\ length l <= dict_size) -> delete_block_info x e = Ok x' ->
  exists l, x' = rep l /\ length l <= dict_size.
Proof.
  intros (l & -> & Hl) E. rewrite delete_rep in E by auto. exists (del_list l e).
  split; [congruence|]. apply del_list_length; auto.
Qed.
Lemma entry_fetch_update x r e y x' : (exists l, x = rep l /\ length l <= dict_size) ->
  fetch_and_update x r e = Ok (y, x') -> exists l, x' = rep l /\ length l <= dict_size.
Proof.
  intros (l & -> & Hl) E. destruct (fetch_update_rep l r e Hl) as (y' & E' & _ & _).
  rewrite E in E'. exists (firstn dict_size (e :: l)). split; [congruence|]. rewrite firstn_length. lia.
Qed.

Lemma shape_step s a s' : lists_ok s -> entries_ok s -> step c s a = Some s' -> lists_ok s' /\ entries_ok s'.
Proof.
  intros Hl He H. destruct a as [t ch|r ch]; cbn [step] in H.
  - open_step H. repeat break; proj; split; auto.
    all: try (intros bb; cbn [s_dict]; unfold upd; destruct (bb =? _); [|apply He];
      first [eapply entry_update; eauto; fail | eapply entry_delete; eauto; fail | eapply entry_fetch_update; eauto; fail]).
    intros r d. cbn [s_list]. unfold updp. destruct ((r =? cf_rank c t) && (d =? cf_dom c t))%bool; [|apply Hl].
    eapply request_inv in Heqo; [|exact Hl]. apply Heqo.
  - destruct (cf_mode c); try discriminate. destruct (r <? cf_ranks c); [|discriminate].
    open_step H. repeat break; proj; split; auto.
    intros bb; cbn [s_dict]; unfold upd; destruct (bb =? _); [|apply He].
    destruct b; [eapply entry_update|eapply entry_delete]; eauto.
Qed.

Lemma noop_as_step s a s' : noop_step c s a = Some s' ->
  exists a', step c (unlocked s) a' = Some s' /\
    match a' with AThr _ ch | ACom _ ch => ch_fail ch = true end.
Proof. destruct a; intros H; eexists; split; try exact H; reflexivity. Qed.

Lemma shape_run acts : forall s s', lists_ok s -> entries_ok s -> noop_run c s acts = Some s' ->
  lists_ok s' /\ entries_ok s'.
Proof.
  induction acts as [|a acts IH]; cbn; intros s s' Hl He H; [injection H as <-; auto|].
  destruct (noop_step c s a) as [s1|] eqn:E; [|discriminate].
  apply noop_as_step in E as (a' & E & _).
  destruct (shape_step (unlocked s) a' s1) as [Hl' He']; eauto.
Qed.

Lemma shape_reach s : wf_cfg c -> noop_reachable c s -> lists_ok s /\ entries_ok s.
Proof.
  intros Hwf (l0 & acts & E & H). destruct (inv1_init c Hwf) as (l1 & E1 & Hi & Hb).
  assert (l0 = l1) by congruence. subst l1. eapply shape_run; [| |exact H].
  - intros r d. apply (i_list c _ Hi).
  - intros b. destruct (i_dict c _ Hi b) as (l & H1 & H2 & _). eauto.
Qed.

(** ** The endless read *)

(** Nobody else reads and no message is under way. *)
Definition calm (s : st V) (t : nat) : Prop :=
  (forall t', t' <> t -> t_todo (s_thr s t') = []) /\
  (forall r q, s_ireq s r q = [] /\ s_irep s r q = [] /\ s_breq s r q = [] /\ s_brep s r q = []) /\
  (forall r, s_upd s r = [] /\ s_com s r = CIdle).

(** Steps of the read which are visited again and again. *)
Definition seeking (b : nat) (p : pc V) : Prop :=
  match p with
  | PIdle | PGetLocked | PSearch _ _ | PStart _ | PAskInfo _ | PWaitInfo _ | PAskBlk _ _ | PSendBlk _ _
  | PWaitBlk _ _ => True
  | PGetSlot _ old | PGetBoth _ old | PHave _ old => old <> Some b
  | PDel _ ob => ob <> b
  | _ => False
  end.

Record endless (t b cell : nat) (rest : list (nat * nat)) (dn : list (nat * nat * option V)) (s : st V) : Prop := {
  n_alone : forall t', t' <> t -> t_todo (s_thr s t') = [];
  n_todo : t_todo (s_thr s t) = (b, cell) :: rest;
  n_done : t_done (s_thr s t) = dn;
  n_pc : seeking b (t_pc (s_thr s t));
  n_miss : t_pc (s_thr s t) = PIdle \/ t_pc (s_thr s t) = PGetLocked ->
           c_b2i (s_list s (cf_rank c t) (cf_dom c t)) b = None;
  n_dict : exists l, s_dict s b = rep l /\ l <> [] /\ length l <= dict_size;
  n_upd : forall r m, In m (s_upd s r) -> snd (fst m) = b -> fst (fst m) = true;
  n_ireq : forall r q, Forall (eq b) (s_ireq s r q);
  n_irep : forall r q, Forall (fun m => snd m <> None) (s_irep s r q);
  n_brep : forall r q, Forall (fun m => snd m = None) (s_brep s r q);
  n_com : forall r, match s_com s r with CIdle | CTry _ _ _ => True | _ => False end
}.

Lemma fetch_some (s : st V) b r : (exists l, s_dict s b = rep l /\ l <> [] /\ length l <= dict_size) ->
  exists e k, fetch_block_info (s_dict s b) r = Ok (Some e, k).
Proof.
  intros (l & -> & Hn & Hl). destruct (fetch_rep l r Hl) as (x & E & _ & H & _). rewrite E.
  destruct x; eauto. destruct Hn. apply H. auto.
Qed.

Lemma Forall_updp {A} (Q : A -> Prop) (f : nat -> nat -> list A) i j l :
  (forall r q, Forall Q (f r q)) -> Forall Q l -> forall r q, Forall Q (updp f i j l r q).
Proof. intros H1 H2 r q. unfold updp. destruct ((r =? i) && (q =? j))%bool; auto. Qed.

Lemma Forall_tail {A} (Q : A -> Prop) l x l' : l = x :: l' -> Forall Q l -> Forall Q l' /\ Q x.
Proof. intros -> H. inversion H; auto. Qed.

Lemma endless_thr t b cell rest dn s t' ch s' : cf_mode c = MThread -> lists_ok s -> endless t b cell rest dn s ->
  ch_fail ch = true -> step_thr c s t' ch = Some s' -> endless t b cell rest dn s'.
Proof.
  intros Hm Hl He Hf H. destruct (Nat.eq_dec t' t) as [->|Ht].
  2:{ unfold step_thr in H. rewrite (n_alone _ _ _ _ _ _ He t' Ht) in H. discriminate. }
  destruct He as [H1 H2 H3 H4 H5 H6 H7 H8 H9 H10 H11].
  destruct (s_thr s t) as [p todo dn'] eqn:Et. cbn [t_pc t_todo t_done] in *. subst todo dn'.
  assert (Hal : forall x, forall t', t' <> t -> t_todo (upd (s_thr s) t x t') = []).
  { intros x t' Ht. rewrite upd_ne by auto. auto. }
  open_step H. rewrite Et in H. cbn [t_pc t_todo t_done] in H. rewrite Hm, Hf in H.
  destruct p; cbn [seeking] in H4; try tauto.
  all: repeat break; proj; rewrite ?Et; proj.
  all: try (constructor; proj; rewrite ?upd_eq; proj; cbn [seeking]; auto; try (intros [?|?]; discriminate); fail).
  all: eqs; subst.
  - (* the block was not in the cache *)
    destruct (request_inv c s _ _ _ _ _ _ Hl Heqo) as [(_ & _ & _ & [(_ & E & _)|(_ & _ & Hne & _)]) _].
    { rewrite H5 in E; auto. discriminate. }
    constructor; proj; rewrite ?upd_eq; proj; cbn [seeking]; auto. intros [?|?]; discriminate.
  - tauto.
  - (* local deletion of another block *)
    constructor; proj; rewrite ?upd_eq; proj; cbn [seeking]; auto; [intros [?|?]; discriminate|].
    rewrite upd_ne by auto. auto.
  - constructor; proj; rewrite ?upd_eq; proj; cbn [seeking]; auto; [intros [?|?]; discriminate|].
    intros r m. unfold upd. destruct (Nat.eqb_spec r (cf_home c ob)) as [->|Hr]; [|apply H7].
    intros [<-|Hin]; [cbn; congruence|]. apply (H7 _ _ Hin).
  - destruct (fetch_some s b (ch_rand ch) H6) as (e & k & E). congruence.
  - constructor; proj; rewrite ?upd_eq; proj; cbn [seeking]; auto; [intros [?|?]; discriminate|].
    apply Forall_updp; auto. apply Forall_app. auto.
  - constructor; proj; rewrite ?upd_eq; proj; cbn [seeking]; auto; [intros [?|?]; discriminate|].
    apply Forall_updp; auto. eapply (Forall_tail _ _ _ _ Heql). apply H9.
  - exfalso. apply (proj2 (Forall_tail _ _ _ _ Heql (H9 _ _))). reflexivity.
  - exfalso. pose proof (proj2 (Forall_tail _ _ _ _ Heql (H10 _ _))) as E. discriminate.
  - constructor; proj; rewrite ?upd_eq; proj; cbn [seeking]; auto; [intros [?|?]; discriminate|].
    apply Forall_updp; auto. eapply (Forall_tail _ _ _ _ Heql). apply H10.
Qed.

Lemma endless_com t b cell rest dn s r ch s' : lists_ok s -> entries_ok s -> endless t b cell rest dn s ->
  ch_fail ch = true -> step_com c s r ch = Some s' -> endless t b cell rest dn s'.
Proof.
  intros Hl He [H1 H2 H3 H4 H5 H6 H7 H8 H9 H10 H11] Hf H. pose proof (H11 r) as Hc.
  assert (Hcom : forall x, match x with CIdle | CTry _ _ _ => True | _ => False end -> forall q,
    match upd (s_com s) r x q with CIdle | CTry _ _ _ => True | _ => False end).
  { intros x Hx q. unfold upd. destruct (q =? r); [exact Hx|apply H11]. }
  open_step H. rewrite Hf in H. destruct (s_com s r) eqn:Ec; try tauto.
  all: repeat break; proj.
  all: try (constructor; proj; auto; try (apply Hcom; exact I); fail).
  - (* information *)
    destruct (Forall_tail _ _ _ _ Heql (H8 _ _)) as [Hq <-].
    constructor; proj; auto.
    + apply Forall_updp; auto.
    + apply Forall_updp; auto. apply Forall_app. split; auto. constructor; auto. cbn.
      destruct (fetch_some s b (ch_rand ch) H6) as (e & k & E). congruence.
  - (* addition or deletion *)
    pose proof (nth_error_In _ _ Heqo) as Hin. constructor; proj; auto.
    + destruct H6 as (l & E & Hn & Hlen). unfold upd. destruct (Nat.eqb_spec b n2) as [<-|Hb]; [|eauto].
      pose proof (H7 _ _ Hin eq_refl) as Ha. cbn in Ha. rewrite Ha in Heqo0. rewrite E, update_rep in Heqo0 by auto.
      exists (firstn dict_size (n1 :: l)). split; [congruence|]. split; [discriminate|]. rewrite firstn_length. lia.
    + intros q m. unfold upd. destruct (Nat.eqb_spec q r) as [->|Hq]; [|apply H7].
      intros Hm. apply H7 with (r := r). apply in_app_iff in Hm as [Hm|Hm].
      * revert Hm. clear. intros Hm. rewrite <- (firstn_skipn (ch_src ch)). apply in_app_iff. auto.
      * rewrite <- (firstn_skipn (S (ch_src ch)) (s_upd s r)). apply in_app_iff. auto.
  - constructor; proj; auto; [apply Forall_updp; auto; apply Forall_app; auto|apply Hcom; exact I].
Qed.

Lemma endless_step t b cell rest dn s a s' : cf_mode c = MThread -> lists_ok s -> entries_ok s ->
  endless t b cell rest dn s -> noop_step c s a = Some s' ->
  lists_ok s' /\ entries_ok s' /\ endless t b cell rest dn s'.
Proof.
  intros Hm Hl Hd He H. apply noop_as_step in H as (a' & H & Hf).
  assert (endless t b cell rest dn (unlocked s)) as He' by (destruct He; constructor; auto).
  destruct (shape_step (unlocked s) a' s') as [Hl' Hd']; auto. split; auto. split; auto.
  destruct a' as [t' ch|r ch]; cbn [step] in H.
  - exact (endless_thr t b cell rest dn (unlocked s) t' ch s' Hm Hl He' Hf H).
  - rewrite Hm in H. destruct (r <? cf_ranks c); [|discriminate]. exact (endless_com t b cell rest dn (unlocked s) r ch s' Hl Hd He' Hf H).
Qed.

Lemma endless_run acts t b cell rest dn : cf_mode c = MThread -> forall s s', lists_ok s -> entries_ok s ->
  endless t b cell rest dn s -> noop_run c s acts = Some s' -> endless t b cell rest dn s'.
Proof.
  intros Hm. induction acts as [|a acts IH]; cbn; intros s s' Hl Hd He H; [congruence|].
  destruct (noop_step c s a) as [s1|] eqn:E; [|discriminate].
  destruct (endless_step t b cell rest dn s a s1) as (? & ? & ?); eauto.
Qed.

Lemma endless_start s t b cell rest : entries_ok s -> calm s t -> t_pc (s_thr s t) = PIdle ->
  t_todo (s_thr s t) = (b, cell) :: rest -> clist_peek (s_list s (cf_rank c t) (cf_dom c t)) b = None ->
  (exists e, listed s b e) -> endless t b cell rest (t_done (s_thr s t)) s.
Proof.
  intros Hd (Ha & Hq & Hu) Hp Ht Hc (e & Hin). constructor; auto.
  - rewrite Hp. exact I.
  - destruct (Hd b) as (l & E & Hl). exists l. split; auto. split; auto. intros ->.
    unfold listed in Hin. rewrite E in Hin. apply rep_In in Hin. auto.
  - intros r m. rewrite (proj1 (Hu r)). intros [].
  - intros r q. rewrite (proj1 (Hq r q)). constructor.
  - intros r q. rewrite (proj1 (proj2 (Hq r q))). constructor.
  - intros r q. rewrite (proj2 (proj2 (proj2 (Hq r q)))). constructor.
  - intros r. rewrite (proj2 (Hu r)). exact I.
Qed.

(** Whatever happens, the read is not answered. *)
Lemma never_answered s t b cell rest acts s' : wf_cfg c -> cf_mode c = MThread -> noop_reachable c s ->
  calm s t -> t_pc (s_thr s t) = PIdle -> t_todo (s_thr s t) = (b, cell) :: rest ->
  clist_peek (s_list s (cf_rank c t) (cf_dom c t)) b = None -> (exists e, listed s b e) ->
  noop_run c s acts = Some s' ->
  t_todo (s_thr s' t) = (b, cell) :: rest /\ t_done (s_thr s' t) = t_done (s_thr s t).
Proof.
  intros Hwf Hm Hr Hc Hp Ht Hb Hl H. destruct (shape_reach s Hwf Hr) as [H1 H2].
  pose proof (endless_start s t b cell rest H2 Hc Hp Ht Hb Hl) as He.
  eapply endless_run in H; eauto. split; [apply (n_todo _ _ _ _ _ _ H)|apply (n_done _ _ _ _ _ _ H)].
Qed.

(** ** Reads of blocks which no rank has cached *)

Definition can (s : st V) (Q : st V -> Prop) : Prop := exists acts s', noop_run c s acts = Some s' /\ Q s'.

Lemma can_step s a s1 Q : noop_step c s a = Some s1 -> can s1 Q -> can s Q.
Proof. intros E (acts & s' & H & HQ). exists (a :: acts), s'. cbn. rewrite E. auto. Qed.
Lemma can_now (s : st V) (Q : st V -> Prop) : Q s -> can s Q.
Proof. intros. exists [], s. auto. Qed.

Definition ch0 : choice V := Choice true 0 (fun _ => None) 0 0.

Section Read.
Variables (t b cell : nat) (rest : list (nat * nat)) (dn : list (nat * nat * option V)).
Hypothesis Hm : cf_mode c = MThread.
Hypothesis Hwf : wf_cfg c.
Local Notation r := (cf_rank c t).
Local Notation d := (cf_dom c t).
Local Notation h := (cf_home c b).

(** What the rest of the read needs. *)
Record ready (p : pc V) (s : st V) : Prop := {
  y_thr : s_thr s t = Thr p ((b, cell) :: rest) dn;
  y_ent : entries_ok s;
  y_dict : s_dict s b = rep [];
  y_ireq : s_ireq s r h = [];
  y_irep : s_irep s r h = [];
  y_com : s_com s h = CIdle
}.

Definition served (s : st V) : Prop :=
  t_todo (s_thr s t) = rest /\ t_done (s_thr s t) = dn ++ [(b, cell, Some (cf_file c b cell))].

(** One step of the reading thread. *)
Lemma can_thr s s1 p ch Q : s_thr s t = Thr p ((b, cell) :: rest) dn ->
  step_thr c (unlocked s) t (refuse ch) = Some s1 -> can s1 Q -> can s Q.
Proof. intros _ H. exact (can_step s (AThr t ch) s1 Q H). Qed.

Ltac go Ht := eapply (can_thr _ _ _ ch0 _ Ht);
  [unfold step_thr, unlocked, refuse, thread_update, acquire, try_lock, ch0; proj; rewrite Ht; proj; cbn [ch_fail ch_rand ch_junk ch_kind ch_src]|].
Ltac st := unfold goto, release, set_lock, set_list, set_data, set_dict, set_ireq, set_irep, set_upd, set_thr, set_com in *; proj.

Lemma can_ready i s : s_thr s t = Thr (PReady i) ((b, cell) :: rest) dn ->
  s_data s r (node_off c d i) cell = Some (cf_file c b cell) -> can s served.
Proof.
  intros Ht Hd. go Ht; [reflexivity|]. st. rewrite Ht. st.
  match goal with |- can ?s2 _ => assert (Ht2 : s_thr s2 t = Thr (PRelease i (Some (cf_file c b cell))) ((b, cell) :: rest) dn) end.
  { proj. rewrite upd_eq. now rewrite Hd. }
  go Ht2; [reflexivity|]. st.
  apply can_now. split; proj; rewrite !upd_eq; proj; auto.
Qed.

Lemma update_ok s x e : entries_ok s -> exists z, update_block_info (s_dict s x) e = Ok z.
Proof. intros H. destruct (H x) as (l & -> & Hl). rewrite update_rep by auto. eauto. Qed.
Lemma delete_ok s x e : entries_ok s -> exists z, delete_block_info (s_dict s x) e = Ok z.
Proof. intros H. destruct (H x) as (l & -> & Hl). rewrite delete_rep by auto. eauto. Qed.

Lemma can_end i s : s_thr s t = Thr (PEnd i) ((b, cell) :: rest) dn -> entries_ok s ->
  s_data s r (node_off c d i) cell = Some (cf_file c b cell) -> can s served.
Proof.
  intros Ht He Hd. destruct (update_ok s b (loc c r (node_off c d i)) He) as [z Ez].
  destruct (cf_home c b =? r) eqn:Eh.
  - go Ht; [rewrite Hm, Eh, Ez; reflexivity|]. st. rewrite Ht. st.
    apply (can_ready i); proj; auto. now rewrite upd_eq.
  - go Ht; [rewrite Hm, Eh; reflexivity|]. st. rewrite Ht. st.
    apply (can_ready i); proj; auto. now rewrite upd_eq.
Qed.

Lemma can_fill i s : s_thr s t = Thr (PFill i) ((b, cell) :: rest) dn -> entries_ok s -> can s served.
Proof.
  intros Ht He. go Ht; [reflexivity|]. st. rewrite Ht. st.
  match goal with |- can ?s2 _ => assert (Ht2 : s_thr s2 t = Thr (PFilling i) ((b, cell) :: rest) dn) end.
  { proj. now rewrite upd_eq. }
  go Ht2; [reflexivity|]. st. rewrite upd_eq. st.
  apply (can_end i); proj; auto; [now rewrite upd_eq|]. now rewrite updp_eq.
Qed.

Lemma fetch_none k : fetch_block_info (rep []) k = Ok (None, 0).
Proof. reflexivity. Qed.

Lemma can_start i s : ready (PStart i) s -> can s served.
Proof.
  intros [Ht He Hd H1 H2 H3]. destruct (cf_home c b =? r) eqn:Eh.
  - go Ht; [rewrite Hm, Eh, Hd, fetch_none; reflexivity|]. st. rewrite Ht. st.
    apply (can_fill i); proj; auto. now rewrite upd_eq.
  - go Ht; [rewrite Hm, Eh; reflexivity|]. st. rewrite Ht. st.
    match goal with |- can ?s2 _ => assert (Ht2 : s_thr s2 t = Thr (PAskInfo i) ((b, cell) :: rest) dn) end.
    { proj. now rewrite upd_eq. }
    go Ht2; [reflexivity|]. st. rewrite upd_eq. st.
    eapply (can_step _ (ACom h (Choice true 0 (fun _ => None) 0 r))).
    { unfold noop_step, step. rewrite Hm. pose proof (wc_home c Hwf b) as Hh. apply Nat.ltb_lt in Hh. rewrite Hh.
      unfold step_com, unlocked. proj. rewrite H3. cbn [refuse ch_kind ch_src ch_rand].
      rewrite updp_eq, H1. cbn [app]. rewrite Hd, fetch_none. reflexivity. }
    st. rewrite H2. cbn [app].
    match goal with |- can ?s2 _ => assert (Ht3 : s_thr s2 t = Thr (PWaitInfo i) ((b, cell) :: rest) dn) end.
    { proj. now rewrite upd_eq. }
    go Ht3; [rewrite updp_eq; reflexivity|]. st. rewrite upd_eq. st.
    apply (can_fill i); proj; auto. now rewrite upd_eq.
Qed.

Lemma ready_thr p p' s lk li da th : ready p s -> th t = Thr p' ((b, cell) :: rest) dn ->
  ready p' (St lk li da (s_dict s) (s_ireq s) (s_irep s) (s_breq s) (s_brep s) (s_upd s) th (s_com s)).
Proof. intros [? ? ? ? ? ?] Ht. constructor; proj; auto. Qed.

Lemma can_search i : forall k j s, k + j = D -> ready (PSearch i k) s -> can s served.
Proof.
  intros k j. revert k. induction j as [|j IH]; intros k s Hk Hr; pose proof (y_thr _ _ Hr) as Ht.
  - go Ht; [replace (k <? D) with false by (symmetry; apply Nat.ltb_ge; lia); reflexivity|].
    st. rewrite Ht. st. apply (can_start i). eapply ready_thr; [exact Hr|]. now rewrite upd_eq.
  - assert (E : k <? D = true) by (apply Nat.ltb_lt; lia).
    go Ht; [rewrite E; destruct (k =? d); reflexivity|].
    st. rewrite Ht. st. apply (IH (S k)); [lia|]. eapply ready_thr; [exact Hr|]. now rewrite upd_eq.
Qed.

Lemma can_have i old s : ready (PHave i old) s -> old <> Some b -> can s served.
Proof.
  intros Hr Ho. pose proof (y_thr _ _ Hr) as Ht. destruct old as [ob|].
  - assert (Hob : ob <> b) by congruence. apply Nat.eqb_neq in Hob as Eob.
    go Ht; [rewrite Eob, Hm; reflexivity|]. st. rewrite Ht. st.
    match goal with |- can ?s2 _ => assert (Hr2 : ready (PDel i ob) s2) end.
    { eapply ready_thr; [exact Hr|]. now rewrite upd_eq. }
    pose proof (y_thr _ _ Hr2) as Ht2.
    destruct (delete_ok s ob (loc c r (node_off c d i)) (y_ent _ _ Hr)) as [z Ez].
    destruct (cf_home c ob =? r) eqn:Eh.
    + go Ht2; [rewrite Hm, Eh; proj; rewrite Ez; reflexivity|]. st. rewrite !upd_eq. st.
      apply (can_search i 0 D); auto. destruct Hr as [? He Hd ? ? ?]. constructor; proj; auto.
      * now rewrite upd_eq.
      * intros x. proj. unfold upd. destruct (Nat.eqb_spec x ob); [|apply He]. eapply entry_delete; [apply (He ob)|exact Ez].
      * rewrite upd_ne; auto.
    + go Ht2; [rewrite Hm, Eh; reflexivity|]. st. rewrite !upd_eq. st.
      apply (can_search i 0 D); auto. destruct Hr as [? He Hd ? ? ?]. constructor; proj; auto. now rewrite upd_eq.
  - go Ht; [reflexivity|]. st. rewrite Ht. st. apply (can_search i 0 D); auto.
    eapply ready_thr; [exact Hr|]. now rewrite upd_eq.
Qed.

Lemma can_idle s : ready PIdle s -> lists_ok s -> c_b2i (s_list s r d) b = None -> can s served.
Proof.
  intros Hr Hl Hb. pose proof (y_thr _ _ Hr) as Ht.
  go Ht; [reflexivity|]. st. rewrite Ht. st.
  match goal with |- can ?s2 _ => assert (Hr2 : ready PGetLocked s2) end.
  { eapply ready_thr; [exact Hr|]. now rewrite upd_eq. }
  pose proof (y_thr _ _ Hr2) as Ht2.
  destruct (Hl r d) as (hh & tt & Hi). destruct (clist_request_spec n hh tt _ b Hi) as (l' & i & old & t' & E & _ & _ & He).
  destruct He as (_ & _ & _ & [(_ & E' & _)|(_ & _ & Ho & _)]); [congruence|].
  go Ht2; [proj; rewrite E; reflexivity|]. st. rewrite !upd_eq. st.
  match goal with |- can ?s2 _ => assert (Hr3 : ready (PGetSlot i old) s2) end.
  { eapply ready_thr; [exact Hr|]. now rewrite upd_eq. }
  pose proof (y_thr _ _ Hr3) as Ht3. go Ht3; [reflexivity|]. st. rewrite !upd_eq. st.
  match goal with |- can ?s2 _ => assert (Hr4 : ready (PGetBoth i old) s2) end.
  { eapply ready_thr; [exact Hr|]. now rewrite upd_eq. }
  pose proof (y_thr _ _ Hr4) as Ht4. go Ht4; [reflexivity|]. st. rewrite !upd_eq. st.
  apply (can_have i old); auto. eapply ready_thr; [exact Hr|]. now rewrite upd_eq.
Qed.

End Read.

Lemma unlisted_served s t b cell rest : wf_cfg c -> cf_mode c = MThread -> noop_reachable c s ->
  calm s t -> t_pc (s_thr s t) = PIdle -> t_todo (s_thr s t) = (b, cell) :: rest ->
  clist_peek (s_list s (cf_rank c t) (cf_dom c t)) b = None -> (forall e, ~ listed s b e) ->
  exists acts s', noop_run c s acts = Some s' /\ t_todo (s_thr s' t) = rest /\
    t_done (s_thr s' t) = t_done (s_thr s t) ++ [(b, cell, Some (cf_file c b cell))].
Proof.
  intros Hwf Hm Hr (Ha & Hq & Hu) Hp Ht Hb Hl. destruct (shape_reach s Hwf Hr) as [H1 H2].
  apply (can_idle t b cell rest (t_done (s_thr s t)) Hm Hwf); auto.
  constructor; auto.
  - destruct (s_thr s t); cbn in *; congruence.
  - destruct (H2 b) as (l & E & _). destruct l as [|e l]; auto. exfalso. apply (Hl e). unfold listed. rewrite E. now left.
  - apply Hq.
  - apply Hq.
  - apply Hu.
Qed.

End Noop.

(** ** Example

    Two ranks with one thread each.  Thread 0 reads (0,0), then thread 1 reads (0,1),
    which is in the same block. *)
Definition pair_file : file nat := File [5; 7] (fun ix => match ix with [i; j] => 10 * i + j | _ => 999 end).
Definition pair_bl : blocked := Blocked [5; 7] [2; 3] [3; 3] 6 9.
Definition pair_ixs (t : nat) : list (list nat) := match t with 0 => [[0; 0]] | 1 => [[0; 1]] | _ => [] end.
Definition pair_cfg : cfg (option nat) :=
  readers MThread pair_file pair_bl true Contiguous 2 1 1 0 (fun t => t mod 2) (fun _ => 0) (fun _ => []) pair_ixs.
Lemma pair_setting :
  setting MThread pair_file pair_bl 2 1 1 0 (fun t => t mod 2) (fun _ => 0) (fun _ => []) pair_ixs.
Proof.
  split; [discriminate|].
  split; [exists (fun n => nth n [3; 2]%Z 0%Z), (-1)%Z, (fun _ => 0); reflexivity|].
  split; [lia|]. split; [lia|].
  split; [intros; apply Nat.mod_upper_bound; lia|]. split; [lia|].
  split; [intros b; split; [cbn; unfold dict_size; lia|constructor]|].
  split; auto. intros [|[|t]]; repeat constructor.
Qed.
Definition first_read : list (act (V := option nat)) := repeat (AThr 0 ch0) 13.


Lemma read_lost :
  exists (c : cfg (option nat)) s, wf_cfg c /\ cf_mode c = MThread /\ noop_reachable c s /\ calm s 1 /\
  map snd (t_done (s_thr s 0)) = [Some (Some 0)] /\ t_todo (s_thr s 1) <> [] /\
  forall acts s', noop_run c s acts = Some s' -> t_done (s_thr s' 1) = [] /\ t_todo (s_thr s' 1) <> [].
Proof.
  exists pair_cfg.
  assert (Hwf : wf_cfg pair_cfg) by (apply readers_wf, pair_setting).
  destruct (clist_init 1 0) as [l0|] eqn:E0; [|discriminate].
  destruct (noop_run pair_cfg (init pair_cfg l0) first_read) as [s|] eqn:E.
  2:{ exfalso. revert E. vm_compute in E0. injection E0 as <-. vm_compute. discriminate. }
  exists s. assert (Hr : noop_reachable pair_cfg s) by (exists l0, first_read; auto).
  assert (calm s 1 /\ map snd (t_done (s_thr s 0)) = [Some (Some 0)] /\ s_thr s 1 = Thr PIdle [(0, 1)] [] /\
    clist_peek (s_list s 1 0) 0 = None /\ listed s 0 0) as (Hc & H1 & H2 & H3 & H4).
  { vm_compute in E0. injection E0 as <-. vm_compute in E. injection E as <-. split.
    - split; [intros [|[|t]]; cbn; auto; congruence|]. split; intros; cbn; auto.
    - cbn. unfold listed. cbn. auto 10. }
  split; auto. split; [reflexivity|]. split; auto. split; auto. split; auto. rewrite H2.
  split; [discriminate|]. intros acts s' Hs.
  apply (never_answered pair_cfg s 1 0 1 []) in Hs; auto; try reflexivity.
  - rewrite H2 in Hs. destruct Hs as [-> ->]. split; [auto|discriminate].
  - now rewrite H2.
  - now rewrite H2.
  - eauto.
Qed.

Lemma first_read_open : exists s, noop_reachable pair_cfg s /\ t_todo (s_thr s 0) = [(0, 0)] /\
  t_pc (s_thr s 0) = PIdle /\ clist_peek (s_list s 0 0) 0 = None /\ s_dict s 0 = dict_init.
Proof.
  destruct (clist_init 1 0) as [l0|] eqn:E0; [|discriminate].
  exists (init pair_cfg l0). split; [exists l0, []; auto|].
  vm_compute in E0. injection E0 as <-. vm_compute. auto.
Qed.
