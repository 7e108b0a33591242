(** * Proofs about races *)
From Coq Require Import Lia.
From Verif Require Import RaceModel RaceSpec.

Section F.
Context {V : Type} (c : cfg V).
Local Notation n := (cf_size c).
Local Notation D := (cf_doms c).
Local Notation K := (cf_cells c).

(** ** Steps do not read or write anything else *)
Lemma sb_refl p (s : st V) : same_but p s s.
Proof. split; reflexivity. Qed.
Variable p : place.
Implicit Types s : st V.
Lemma sb_set_lock s1 s2 k o : same_but p s1 s2 -> same_but p (set_lock s1 k o) (set_lock s2 k o).
Proof. intros []. split; cbn; auto. intros k'. destruct (lock_eq k' k); auto. Qed.
Lemma updp_same {A} (f g : nat -> nat -> A) i j a (P : nat -> nat -> Prop) : (forall r d, P r d -> g r d = f r d) -> forall r d, P r d -> updp g i j a r d = updp f i j a r d.
Proof. intros E r d H. unfold updp. destruct ((r =? i) && (d =? j)); auto. Qed.
Lemma sb_set_list s1 s2 r d l : same_but p s1 s2 -> same_but p (set_list s1 r d l) (set_list s2 r d l).
Proof. intros []. split; cbn; auto. intros r' d' H. unfold updp. destruct ((r' =? r) && (d' =? d)); auto. Qed.
Lemma sb_set_data s1 s2 r o f1 f2 : same_but p s1 s2 -> (p <> Block r o -> forall x, f2 x = f1 x) -> same_but p (set_data s1 r o f1) (set_data s2 r o f2).
Proof.
  intros [] E. split; cbn; auto. intros r' o' x H. unfold updp. destruct (Nat.eqb_spec r' r) as [->|]; cbn [andb]; auto. destruct (Nat.eqb_spec o' o) as [->|]; auto.
Qed.
Lemma sb_set_dict s1 s2 b e : same_but p s1 s2 -> same_but p (set_dict s1 b e) (set_dict s2 b e).
Proof. intros []. split; cbn; auto. intros b' H. unfold upd. destruct (b' =? b); auto. Qed.
Ltac easy_set := intros []; split; cbn; auto; intros; unfold updp, upd; match goal with |- context [if ?x then _ else _] => destruct x end; auto.
Lemma sb_set_ireq s1 s2 r q l : same_but p s1 s2 -> same_but p (set_ireq s1 r q l) (set_ireq s2 r q l).
Proof. easy_set. Qed.
Lemma sb_set_irep s1 s2 r q l : same_but p s1 s2 -> same_but p (set_irep s1 r q l) (set_irep s2 r q l).
Proof. easy_set. Qed.
Lemma sb_set_breq s1 s2 r q l : same_but p s1 s2 -> same_but p (set_breq s1 r q l) (set_breq s2 r q l).
Proof. easy_set. Qed.
Lemma sb_set_brep s1 s2 r q l : same_but p s1 s2 -> same_but p (set_brep s1 r q l) (set_brep s2 r q l).
Proof. easy_set. Qed.
Lemma sb_set_upd s1 s2 r l : same_but p s1 s2 -> same_but p (set_upd s1 r l) (set_upd s2 r l).
Proof. easy_set. Qed.
Lemma sb_set_thr s1 s2 t x : same_but p s1 s2 -> same_but p (set_thr s1 t x) (set_thr s2 t x).
Proof. easy_set. Qed.
Lemma sb_set_com s1 s2 r x : same_but p s1 s2 -> same_but p (set_com s1 r x) (set_com s2 r x).
Proof. easy_set. Qed.
Lemma sb_goto s1 s2 t q : same_but p s1 s2 -> same_but p (goto s1 t q) (goto s2 t q).
Proof. intros S. unfold goto. rewrite (sb_thr _ _ _ S). apply sb_set_thr. exact S. Qed.
Lemma sb_release s1 s2 k : same_but p s1 s2 -> same_but p (release s1 k) (release s2 k).
Proof. apply sb_set_lock. Qed.

Definition orel (x y : option (st V)) : Prop := match x, y with Some s1, Some s2 => same_but p s1 s2 | None, None => True | _, _ => False end.
Lemma orel_acquire s1 s2 k o (f : st V -> st V) (g : st V -> st V) : same_but p s1 s2 -> (forall a b, same_but p a b -> same_but p (f a) (g b)) ->
  orel (option_map f (acquire s1 k o)) (option_map g (acquire s2 k o)).
Proof. intros S F. unfold acquire. rewrite (sb_lock _ _ _ S). destruct (s_lock s1 k); cbn; [trivial|]. apply F, sb_set_lock, S. Qed.
Lemma orel_try s1 s2 ch k o (f1 f2 : st V -> option (st V)) x1 x2 : same_but p s1 s2 -> (forall a b, same_but p a b -> orel (f1 a) (f2 b)) -> orel x1 x2 ->
  orel (match try_lock s1 ch k o with Some a => f1 a | None => x1 end) (match try_lock s2 ch k o with Some a => f2 a | None => x2 end).
Proof.
  intros S F X. unfold try_lock, acquire. destruct (ch_fail ch); [exact X|]. rewrite (sb_lock _ _ _ S). destruct (s_lock s1 k); [exact X|]. apply F, sb_set_lock, S.
Qed.
Lemma orel_update s1 s2 r add b e (f g : st V -> st V) : same_but p s1 s2 -> ~ In p (map fst (about_update c r b)) -> (forall a b, same_but p a b -> same_but p (f a) (g b)) ->
  orel (option_map f (thread_update c s1 r add b e)) (option_map g (thread_update c s2 r add b e)).
Proof.
  intros S N F. unfold thread_update, about_update in *. destruct (cf_home c b =? r).
  - rewrite (sb_dict _ _ _ S) by (intros ->; apply N; left; reflexivity).
    destruct (if add then update_block_info (s_dict s1 b) e else delete_block_info (s_dict s1 b) e); cbn; [|trivial]. apply F, sb_set_dict, S.
  - cbn. rewrite (sb_upd _ _ _ S). apply F, sb_set_upd, S.
Qed.

Ltac fin S := repeat first [ exact S | apply sb_goto | apply sb_release | apply sb_set_lock | apply sb_set_list | apply sb_set_dict | apply sb_set_ireq
  | apply sb_set_irep | apply sb_set_breq | apply sb_set_brep | apply sb_set_upd | apply sb_set_thr | apply sb_set_com ].
Lemma reads_thr s1 s2 t ch : same_but p s1 s2 -> ~ In p (map fst (about_thr c s1 t)) -> orel (step_thr c s1 t ch) (step_thr c s2 t ch).
Proof.
  intros S N. unfold step_thr. unfold about_thr in N. rewrite (sb_thr _ _ _ S). destruct (t_todo (s_thr s1 t)) as [|[b cell] todo]; [exact Logic.I|].
  destruct (t_pc (s_thr s1 t)) eqn:E; cbv beta iota zeta in *.
  - apply orel_acquire; [exact S|]. intros; fin H.
  - rewrite (sb_list _ _ _ S) by (intros ->; apply N; left; reflexivity). destruct (clist_request _ b) as [[[l i] old]|]; cbn; [fin S|trivial].
  - apply orel_acquire; [exact S|]. intros; fin H.
  - cbn; fin S.
  - destruct old as [ob|]; [destruct (ob =? b); [|destruct (cf_mode c)]|]; cbn; fin S.
  - destruct (cf_mode c); [exact Logic.I|apply orel_acquire; [exact S|]; intros; fin H|]. apply orel_update; [exact S|exact N|]. intros; fin H.
  - rewrite (sb_dict _ _ _ S) by (intros ->; apply N; left; reflexivity). destruct (delete_block_info _ _); cbn; [fin S|trivial].
  - cbn; fin S.
  - destruct (k <? D); [|cbn; fin S]. destruct (k =? cf_dom c t); [cbn; fin S|]. apply orel_try; [exact S| |cbn; fin S]. intros; cbn; fin H.
  - rewrite (sb_list _ _ _ S) by (intros ->; apply N; left; reflexivity). destruct (clist_peek _ b); cbn; fin S.
  - cbn; fin S.
  - apply orel_try; [exact S| |cbn; fin S]. intros; cbn; fin H.
  - cbn; fin S.
  - destruct (c0 <? K) eqn:L; [|cbn; fin S]. cbn. apply sb_goto. apply sb_set_data; [exact S|]. intros Q x. unfold upd.
    destruct (x =? c0); [|apply (sb_data _ _ _ S); exact Q]. apply (sb_data _ _ _ S). intros ->. apply N. right. left. reflexivity.
  - cbn; fin S.
  - destruct (cf_mode c); [cbn; fin S|apply orel_acquire; [exact S|]; intros; fin H|]. apply orel_update; [exact S|exact N|]. intros; fin H.
  - rewrite (sb_dict _ _ _ S) by (intros ->; apply N; left; reflexivity). destruct (fetch_and_update _ _ _) as [[? ?]|]; cbn; [fin S|trivial].
  - cbn; fin S.
  - destruct (cf_mode c); [cbn; fin S|apply orel_acquire; [exact S|]; intros; fin H|]. unfold about_update in N. destruct (cf_home c b =? cf_rank c t).
    + rewrite (sb_dict _ _ _ S) by (intros ->; apply N; left; reflexivity). destruct (fetch_block_info _ _) as [[[e|] ?]|]; cbn; [fin S|fin S|trivial].
    + apply orel_acquire; [exact S|]. intros; fin H.
  - rewrite (sb_dict _ _ _ S) by (intros ->; apply N; left; reflexivity). destruct (fetch_and_update _ _ _) as [[[e|] ?]|]; cbn; [fin S|fin S|trivial].
  - destruct (c0 <? K) eqn:L; [|cbn; fin S]. cbn. apply sb_goto. apply sb_set_data; [exact S|]. intros Q x. unfold upd.
    destruct (x =? c0); [|apply (sb_data _ _ _ S); exact Q]. apply (sb_data _ _ _ S). intros ->. apply N. right. left. reflexivity.
  - rewrite (sb_ireq _ _ _ S). cbn. fin S.
  - rewrite (sb_irep _ _ _ S). destruct (s_irep s1 _ _) as [|[? [e|]] q]; cbn; [trivial|fin S|fin S].
  - apply orel_acquire; [exact S|]. intros; fin H.
  - rewrite (sb_breq _ _ _ S). cbn. fin S.
  - rewrite (sb_brep _ _ _ S). destruct (s_brep s1 _ _) as [|[? [buf|]] q]; cbn; [trivial| |fin S]. apply sb_goto. apply sb_set_data; [fin S|]. reflexivity.
  - cbn. apply sb_goto. apply sb_set_data; [exact S|]. reflexivity.
  - cbn. apply sb_goto. apply sb_set_data; [exact S|]. reflexivity.
  - destruct (cf_mode c); [cbn; fin S|cbn; fin S|]. apply orel_update; [exact S|exact N|]. intros; fin H.
  - cbn. rewrite (sb_data _ _ _ S) by (intros ->; apply N; left; reflexivity). fin S.
  - cbn. fin S.
Qed.
Lemma reads_com s1 s2 r ch : same_but p s1 s2 -> ~ In p (map fst (about_com c s1 r ch)) -> orel (step_com c s1 r ch) (step_com c s2 r ch).
Proof.
  intros S N. unfold step_com. unfold about_com in N. rewrite (sb_com _ _ _ S). destruct (s_com s1 r) eqn:E; cbv beta iota zeta in *.
  - destruct (ch_kind ch) as [|[|k]].
    + rewrite (sb_ireq _ _ _ S). destruct (s_ireq s1 (ch_src ch) r) as [|b q]; [exact Logic.I|]. rewrite (sb_dict _ _ _ S) by (intros ->; apply N; left; reflexivity).
      destruct (fetch_block_info _ _) as [[x ?]|]; cbn; [|trivial]. rewrite (sb_irep _ _ _ S). fin S.
    + rewrite (sb_breq _ _ _ S). destruct (s_breq s1 (ch_src ch) r) as [|b q]; cbn; [trivial|fin S].
    + rewrite (sb_upd _ _ _ S). destruct (nth_error (s_upd s1 r) (ch_src ch)) as [[[add b] e]|]; [|exact Logic.I].
      rewrite (sb_dict _ _ _ S) by (intros ->; apply N; left; reflexivity).
      destruct (if add then update_block_info (s_dict s1 b) e else delete_block_info (s_dict s1 b) e); cbn; [|trivial]. fin S.
  - destruct (k <? D).
    + apply orel_try; [exact S| |cbn; fin S]. intros; cbn; fin H.
    + cbn. rewrite (sb_brep _ _ _ S). fin S.
  - rewrite (sb_list _ _ _ S) by (intros ->; apply N; left; reflexivity). destruct (clist_peek _ b); cbn; fin S.
  - cbn; fin S.
  - apply orel_try; [exact S| |cbn; fin S]. intros; cbn; fin H.
  - cbn; fin S.
  - destruct (c0 <? K) eqn:L.
    + cbn. rewrite (sb_data _ _ _ S) by (intros ->; apply N; left; reflexivity). fin S.
    + cbn. rewrite (sb_brep _ _ _ S). fin S.
  - cbn; fin S.
Qed.
Lemma reads_step s1 s2 a : same_but p s1 s2 -> ~ In p (map fst (about c s1 a)) -> orel (step c s1 a) (step c s2 a).
Proof.
  intros S N. destruct a as [t ch|r ch]; cbn [step about] in *; [apply reads_thr; assumption|].
  destruct (cf_mode c); try exact Logic.I. destruct (r <? cf_ranks c); [|exact Logic.I]. apply reads_com; assumption.
Qed.

(** ** Steps write nothing else *)
Implicit Types x : st V.
Lemma un_lock s x k o : unchanged p s x -> unchanged p s (set_lock x k o).
Proof. destruct p; exact (fun H => H). Qed.
Lemma un_release s x k : unchanged p s x -> unchanged p s (release x k).
Proof. destruct p; exact (fun H => H). Qed.
Lemma un_list s x r d l : unchanged p s x -> p <> Index r d -> unchanged p s (set_list x r d l).
Proof.
  destruct p as [|r' d'|]; try exact (fun H _ => H). cbn. intros H N. unfold updp. destruct (Nat.eqb_spec r' r) as [->|]; cbn [andb]; [|exact H].
  destruct (Nat.eqb_spec d' d) as [->|]; [contradiction N; reflexivity|exact H].
Qed.
Lemma un_data s x r o f : unchanged p s x -> p <> Block r o -> unchanged p s (set_data x r o f).
Proof.
  destruct p as [r' d'| |]; try exact (fun H _ => H). cbn. intros H N y. unfold updp. destruct (Nat.eqb_spec r' r) as [->|]; cbn [andb]; [|apply H].
  destruct (Nat.eqb_spec d' o) as [->|]; [contradiction N; reflexivity|apply H].
Qed.
Lemma un_dict s x b e : unchanged p s x -> p <> Entry b -> unchanged p s (set_dict x b e).
Proof.
  destruct p as [| |b']; try exact (fun H _ => H). cbn. intros H N. unfold upd. destruct (Nat.eqb_spec b' b) as [->|]; [contradiction N; reflexivity|exact H].
Qed.
Lemma un_ireq s x r q l : unchanged p s x -> unchanged p s (set_ireq x r q l).
Proof. destruct p; exact (fun H => H). Qed.
Lemma un_irep s x r q l : unchanged p s x -> unchanged p s (set_irep x r q l).
Proof. destruct p; exact (fun H => H). Qed.
Lemma un_breq s x r q l : unchanged p s x -> unchanged p s (set_breq x r q l).
Proof. destruct p; exact (fun H => H). Qed.
Lemma un_brep s x r q l : unchanged p s x -> unchanged p s (set_brep x r q l).
Proof. destruct p; exact (fun H => H). Qed.
Lemma un_upd s x r l : unchanged p s x -> unchanged p s (set_upd x r l).
Proof. destruct p; exact (fun H => H). Qed.
Lemma un_thr s x t y : unchanged p s x -> unchanged p s (set_thr x t y).
Proof. destruct p; exact (fun H => H). Qed.
Lemma un_goto s x t q : unchanged p s x -> unchanged p s (goto x t q).
Proof. apply un_thr. Qed.
Lemma un_com s x r y : unchanged p s x -> unchanged p s (set_com x r y).
Proof. destruct p; exact (fun H => H). Qed.
Lemma un_refl s : unchanged p s s.
Proof. destruct p; cbn; reflexivity. Qed.
Ltac un N := repeat first [ apply un_refl | apply un_goto | apply un_release | apply un_lock | apply un_ireq | apply un_irep | apply un_breq | apply un_brep
  | apply un_upd | apply un_thr | apply un_com
  | apply un_list; [|intros ->; specialize (N _ (or_introl eq_refl)); discriminate N]
  | apply un_data; [|intros ->; specialize (N _ (or_introl eq_refl)); discriminate N]
  | apply un_dict; [|intros ->; specialize (N _ (or_introl eq_refl)); discriminate N] ].
Lemma writes_thr s t ch s' : step_thr c s t ch = Some s' -> (forall m, In (p, m) (about_thr c s t) -> m = Rd) -> unchanged p s s'.
Proof.
  unfold step_thr, about_thr, thread_update, about_update, try_lock, acquire. intros E N. destruct (t_todo (s_thr s t)) as [|[b cell] todo]; [discriminate|].
  destruct (t_pc (s_thr s t)); cbv beta iota zeta in *;
  repeat match type of E with
  | option_map _ (match ?y with _ => _ end) = _ => destruct y; cbv beta iota zeta in *
  | match (match ?y with _ => _ end) with _ => _ end = _ => destruct y; cbv beta iota zeta in *
  | match ?y with _ => _ end = _ => destruct y; cbv beta iota zeta in *
  end; cbn [option_map] in E; try discriminate E; injection E as <-; un N.
Qed.
Lemma writes_com s r ch s' : step_com c s r ch = Some s' -> (forall m, In (p, m) (about_com c s r ch) -> m = Rd) -> unchanged p s s'.
Proof.
  unfold step_com, about_com, try_lock, acquire. intros E N. destruct (s_com s r); cbv beta iota zeta in *;
  repeat match type of E with
  | match (match ?y with _ => _ end) with _ => _ end = _ => destruct y; cbv beta iota zeta in *
  | match ?y with _ => _ end = _ => destruct y; cbv beta iota zeta in *
  end; try discriminate E; injection E as <-; un N.
Qed.
Lemma writes_step s a s' : step c s a = Some s' -> (forall m, In (p, m) (about c s a) -> m = Rd) -> unchanged p s s'.
Proof.
  destruct a as [t ch|r ch]; cbn [step about]; [apply writes_thr|]. destruct (cf_mode c); try discriminate. destruct (r <? cf_ranks c); [|discriminate]. apply writes_com.
Qed.
End F.

(** ** No races *)
Section R.
Context {V : Type} (c : cfg V).
Hypothesis Hwf : wf_cfg c.
Local Notation n := (cf_size c).
Local Notation D := (cf_doms c).

(** What protects an access. *)
Lemma block_rw s a r o m : In (Block r o, m) (about c s a) ->
  (m = Wr /\ exists t, actor a = Usr t /\ writes c s t = Some (r, o)) \/ (m = Rd /\ reads c s (actor a) = Some (r, o)).
Proof.
  destruct a as [t ch|q ch]; cbn [about actor].
  - unfold about_thr, writes, reads, about_update. destruct (t_todo (s_thr s t)) as [|[b cell] todo]; [intros []|].
    destruct (t_pc (s_thr s t)) eqn:E; cbn [In]; intros H; try contradiction;
    repeat match type of H with
    | context [match cf_mode c with _ => _ end] => destruct (cf_mode c); cbn [In] in H; try contradiction
    | context [if ?y then _ else _] => destruct y; cbn [In] in H; try contradiction
    end; repeat destruct H as [H|H]; try contradiction; try discriminate H; injection H as <- <- <-;
    first [ right; split; reflexivity | left; split; [reflexivity|]; exists t; rewrite E; split; reflexivity ].
  - destruct (cf_mode c); try intros []. unfold about_com, reads. destruct (s_com s q); cbn [In]; intros H; try contradiction.
    + destruct (ch_kind ch) as [|[|]]; cbn [In] in H; [destruct (s_ireq s (ch_src ch) q)| |destruct (nth_error (s_upd s q) (ch_src ch)) as [[[? ?] ?]|]]; cbn [In] in H;
      repeat destruct H as [H|H]; try contradiction; discriminate H.
    + destruct H as [H|[]]; discriminate H.
    + destruct (_ <? _); cbn [In] in H; repeat destruct H as [H|H]; try contradiction. injection H as <- <- <-. auto.
Qed.
Lemma index_lock s a r d m : inv1 c s -> In (Index r d, m) (about c s a) -> s_lock s (LCache r d) = Some (actor a).
Proof.
  intros Hi. destruct a as [t ch|q ch]; cbn [about actor].
  - unfold about_thr, about_update. destruct (t_todo (s_thr s t)) as [|[b cell] todo]; [intros []|].
    destruct (t_pc (s_thr s t)) eqn:E; cbn [In]; intros H; try contradiction;
    repeat match type of H with
    | context [match cf_mode c with _ => _ end] => destruct (cf_mode c); cbn [In] in H; try contradiction
    | context [if ?y then _ else _] => destruct y; cbn [In] in H; try contradiction
    end; repeat destruct H as [H|H]; try contradiction; try discriminate H; injection H as <- <- <-;
    apply (held_cm c s t); auto; rewrite E; reflexivity.
  - destruct (cf_mode c); try intros []. unfold about_com. destruct (s_com s q) eqn:E; cbn [In]; intros H; try contradiction.
    + destruct (ch_kind ch) as [|[|]]; cbn [In] in H; [destruct (s_ireq s (ch_src ch) q)| |destruct (nth_error (s_upd s q) (ch_src ch)) as [[[? ?] ?]|]]; cbn [In] in H;
      repeat destruct H as [H|H]; try contradiction; discriminate H.
    + destruct H as [H|[]]. injection H as <- <- <-. apply (held_ccm c s); auto. rewrite E. reflexivity.
    + destruct (_ <? _); cbn [In] in H; repeat destruct H as [H|H]; try contradiction; discriminate H.
Qed.
Lemma entry_lock s a b m : inv1 c s -> In (Entry b, m) (about c s a) ->
  (cf_mode c = MThread /\ m = Inside) \/ (cf_mode c <> MThread /\ s_lock s (LDict b) = Some (actor a)).
Proof.
  intros Hi. destruct a as [t ch|q ch]; cbn [about actor].
  - unfold about_thr, about_update. assert (W := i_thr c s Hi t). unfold wf_thr in W. assert (HD := fun b => held_dl c s t b Hi).
    destruct (t_todo (s_thr s t)) as [|[b0 cell] todo] eqn:T; [intros []|]. unfold req in HD. rewrite T in HD.
    destruct (t_pc (s_thr s t)) eqn:E; cbn [In]; intros H; try contradiction;
    repeat match type of H with
    | context [match cf_mode c with _ => _ end] => destruct (cf_mode c) eqn:Em; cbn [In] in H; try contradiction
    | context [if ?y then _ else _] => destruct y; cbn [In] in H; try contradiction
    end; repeat destruct H as [H|H]; try contradiction; try discriminate H; injection H as <- <-; first [ left; split; reflexivity | right; split; [|apply HD; reflexivity] ];
    destruct W as (_ & _ & _ & W); try rewrite E in W; first [ congruence | destruct W as [W _]; congruence ].
  - destruct (cf_mode c) eqn:Em; try intros []. unfold about_com. destruct (s_com s q); cbn [In]; intros H; try contradiction.
    + destruct (ch_kind ch) as [|[|]]; cbn [In] in H; [destruct (s_ireq s (ch_src ch) q)| |destruct (nth_error (s_upd s q) (ch_src ch)) as [[[? ?] ?]|]]; cbn [In] in H;
      repeat destruct H as [H|H]; try contradiction; injection H as <- <-; auto.
    + destruct H as [H|[]]; discriminate H.
    + destruct (_ <? _); cbn [In] in H; repeat destruct H as [H|H]; try contradiction; discriminate H.
Qed.
Lemma race_free s a b : reachable c s -> ~ race c s a b.
Proof.
  intros Hr [N ([pl m] & [pl' m'] & A & B & E & C)]. cbn [fst snd] in *. subst pl'. destruct (reach_inv c Hwf s Hr) as [Hi _].
  destruct pl as [r o|r d|b0].
  - apply block_rw in A. apply block_rw in B. destruct A as [[-> (t & At & Wt)]|[-> R1]].
    + assert (X : actor b = Usr t). { apply (no_race c Hwf s t (actor b) (r, o) Hr Wt). destruct B as [[-> (t' & Bt & Wt')]|[-> R2]]; [right; eauto|left; exact R2]. }
      congruence.
    + destruct B as [[-> (t & Bt & Wt)]|[-> R2]]; [|exact C]. apply N. rewrite Bt. apply (no_race c Hwf s t (actor a) (r, o) Hr Wt). auto.
  - apply index_lock in A; auto. apply index_lock in B; auto. congruence.
  - apply entry_lock in A; auto. apply entry_lock in B; auto. destruct A as [[M1 ->]|[M1 L1]], B as [[M2 ->]|[M2 L2]]; try contradiction. congruence.
Qed.
End R.
