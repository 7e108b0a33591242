(** * Proofs about races in full grids, [Once] and the counters *)
From Coq Require Import Lia.
From Verif Require Import CountModel CountFacts OnceFacts.
From Verif Require Import FullConcFacts RaceModel RaceSpec.

Section F.
Context {W : Type} (c : fcfg W).
Local Notation D := (d_domains (fc_dist c)).
Local Notation K := (fc_cells c).
Local Notation d_ := (fc_dist c).

Section P.
Variable p : place.
Implicit Types s : fst_ W.
Lemma ub_set_lock s1 s2 k o : usame_but p s1 s2 -> usame_but p (uset_lock s1 k o) (uset_lock s2 k o).
Proof. intros []. split; cbn; auto. intros k'. destruct (lock_eq k' k); auto. Qed.
Lemma ub_set_list s1 s2 r d l : usame_but p s1 s2 -> usame_but p (uset_list s1 r d l) (uset_list s2 r d l).
Proof. intros []. split; cbn; auto. intros r' d' H. unfold updp. destruct ((r' =? r) && (d' =? d)); auto. Qed.
Lemma ub_set_data s1 s2 r o f1 f2 : usame_but p s1 s2 -> (p <> Block r o -> forall x, f2 x = f1 x) -> usame_but p (uset_data s1 r o f1) (uset_data s2 r o f2).
Proof.
  intros [] E. split; cbn; auto. intros r' o' x H. unfold updp. destruct (Nat.eqb_spec r' r) as [->|]; cbn [andb]; auto. destruct (Nat.eqb_spec o' o) as [->|]; auto.
Qed.
Ltac easy_set := intros []; split; cbn; auto; intros; unfold updp, upd; match goal with |- context [if ?x then _ else _] => destruct x end; auto.
Lemma ub_set_req s1 s2 r q l : usame_but p s1 s2 -> usame_but p (uset_req s1 r q l) (uset_req s2 r q l).
Proof. easy_set. Qed.
Lemma ub_set_rep s1 s2 r q l : usame_but p s1 s2 -> usame_but p (uset_rep s1 r q l) (uset_rep s2 r q l).
Proof. easy_set. Qed.
Lemma ub_set_thr s1 s2 t x : usame_but p s1 s2 -> usame_but p (uset_thr s1 t x) (uset_thr s2 t x).
Proof. easy_set. Qed.
Lemma ub_goto s1 s2 t q : usame_but p s1 s2 -> usame_but p (ugoto s1 t q) (ugoto s2 t q).
Proof. intros S. unfold ugoto. rewrite (ub_thr _ _ _ S). apply ub_set_thr. exact S. Qed.
Lemma ub_release s1 s2 k : usame_but p s1 s2 -> usame_but p (urelease s1 k) (urelease s2 k).
Proof. apply ub_set_lock. Qed.

Definition uorel (x y : option (fst_ W)) : Prop := match x, y with Some s1, Some s2 => usame_but p s1 s2 | None, None => True | _, _ => False end.
Lemma uorel_acquire s1 s2 k o (f g : fst_ W -> fst_ W) : usame_but p s1 s2 -> (forall a b, usame_but p a b -> usame_but p (f a) (g b)) ->
  uorel (option_map f (uacquire s1 k o)) (option_map g (uacquire s2 k o)).
Proof. intros S F. unfold uacquire. rewrite (ub_lock _ _ _ S). destruct (u_lock s1 k); cbn; [trivial|]. apply F, ub_set_lock, S. Qed.
Lemma uorel_try s1 s2 fl k o (f1 f2 : fst_ W -> option (fst_ W)) x1 x2 : usame_but p s1 s2 -> (forall a b, usame_but p a b -> uorel (f1 a) (f2 b)) -> uorel x1 x2 ->
  uorel (match utry s1 fl k o with Some a => f1 a | None => x1 end) (match utry s2 fl k o with Some a => f2 a | None => x2 end).
Proof.
  intros S F X. unfold utry, uacquire. destruct fl; [exact X|]. rewrite (ub_lock _ _ _ S). destruct (u_lock s1 k); [exact X|]. apply F, ub_set_lock, S.
Qed.

Ltac fin S := repeat first [ exact S | apply ub_goto | apply ub_release | apply ub_set_lock | apply ub_set_list | apply ub_set_req
  | apply ub_set_rep | apply ub_set_thr ].
Ltac own_data S N := cbn; apply ub_goto; apply ub_set_data; [exact S|]; let Q := fresh in let x := fresh in intros Q x; unfold upd;
  match goal with |- context [if ?y then _ else _] => destruct y end; [|apply (ub_data _ _ _ S); exact Q]; try reflexivity; apply (ub_data _ _ _ S); intros ->; apply N; right; left; reflexivity.
Lemma ureads_thr s1 s2 t fl : usame_but p s1 s2 -> ~ In p (map fst (uabout c s1 t)) -> uorel (ustep_thr c s1 t fl) (ustep_thr c s2 t fl).
Proof.
  intros S N. unfold ustep_thr. unfold uabout in N. rewrite (ub_thr _ _ _ S). destruct (q_todo (u_thr s1 t)) as [|[b cell] todo]; [exact Logic.I|].
  destruct (q_pc (u_thr s1 t)) eqn:E; cbv beta iota zeta in *.
  - destruct ((_ =? _) && _); [cbn; fin S|]. apply uorel_acquire; [exact S|]. intros; fin H.
  - rewrite (ub_list _ _ _ S) by (intros ->; apply N; left; reflexivity). destruct (clist_request _ b) as [[[l i] old]|]; cbn; [fin S|trivial].
  - apply uorel_acquire; [exact S|]. intros; fin H.
  - cbn; fin S.
  - destruct (is_hit b old); cbn; fin S.
  - destruct (fc_numa c); [|destruct (_ =? _)..]; cbn; fin S.
  - destruct (x <? K) eqn:L; [|cbn; fin S]. own_data S N.
  - destruct (k <? D); [|cbn; fin S]. destruct (k =? fc_dom c t); [cbn; fin S|]. apply uorel_try; [exact S| |cbn; fin S]. intros; cbn; fin H.
  - rewrite (ub_list _ _ _ S) by (intros ->; apply N; left; reflexivity). destruct (clist_peek _ b); cbn; fin S.
  - cbn; fin S.
  - apply uorel_try; [exact S| |cbn; fin S]. intros; cbn; fin H.
  - cbn; fin S.
  - destruct (x <? K) eqn:L; [|cbn; fin S]. own_data S N.
  - cbn; fin S.
  - destruct (fc_mpi c); [cbn; fin S| |]; apply uorel_acquire; try exact S; intros; fin H.
  - destruct (x <? K) eqn:L; [|cbn; fin S]. own_data S N.
  - cbn. rewrite (ub_req _ _ _ S). fin S.
  - rewrite (ub_rep _ _ _ S). destruct (u_rep s1 _ _) as [|m q]; cbn; [trivial|]. apply ub_goto, ub_release, ub_set_data; [fin S|].
    intros Q x. destruct (x <? K); [reflexivity|]. apply (ub_data _ _ _ S). exact Q.
  - cbn. rewrite (ub_data _ _ _ S) by (intros ->; apply N; left; reflexivity). fin S.
  - cbn. fin S.
Qed.
Lemma ureads_step s1 s2 a : usame_but p s1 s2 -> ~ In p (map fst (uabout_act c s1 a)) -> uorel (ustep c s1 a) (ustep c s2 a).
Proof.
  intros S N. destruct a as [t fl|r src]; cbn [ustep uabout_act] in *; [apply ureads_thr; assumption|].
  destruct (fc_mpi c); try exact Logic.I. destruct (r <? _); [|exact Logic.I]. unfold ustep_com. rewrite (ub_req _ _ _ S), (ub_rep _ _ _ S).
  destruct (u_req s1 src r); [exact Logic.I|]. cbn. fin S.
Qed.

Implicit Types x : fst_ W.
Lemma uu_lock s x k o : uunchanged p s x -> uunchanged p s (uset_lock x k o).
Proof. destruct p; exact (fun H => H). Qed.
Lemma uu_release s x k : uunchanged p s x -> uunchanged p s (urelease x k).
Proof. destruct p; exact (fun H => H). Qed.
Lemma uu_list s x r d l : uunchanged p s x -> p <> Index r d -> uunchanged p s (uset_list x r d l).
Proof.
  destruct p as [|r' d'|]; try exact (fun H _ => H). cbn. intros H N. unfold updp. destruct (Nat.eqb_spec r' r) as [->|]; cbn [andb]; [|exact H].
  destruct (Nat.eqb_spec d' d) as [->|]; [contradiction N; reflexivity|exact H].
Qed.
Lemma uu_data s x r o f : uunchanged p s x -> p <> Block r o -> uunchanged p s (uset_data x r o f).
Proof.
  destruct p as [r' d'| |]; try exact (fun H _ => H). cbn. intros H N y. unfold updp. destruct (Nat.eqb_spec r' r) as [->|]; cbn [andb]; [|apply H].
  destruct (Nat.eqb_spec d' o) as [->|]; [contradiction N; reflexivity|apply H].
Qed.
Lemma uu_req s x r q l : uunchanged p s x -> uunchanged p s (uset_req x r q l).
Proof. destruct p; exact (fun H => H). Qed.
Lemma uu_rep s x r q l : uunchanged p s x -> uunchanged p s (uset_rep x r q l).
Proof. destruct p; exact (fun H => H). Qed.
Lemma uu_thr s x t y : uunchanged p s x -> uunchanged p s (uset_thr x t y).
Proof. destruct p; exact (fun H => H). Qed.
Lemma uu_goto s x t q : uunchanged p s x -> uunchanged p s (ugoto x t q).
Proof. apply uu_thr. Qed.
Lemma uu_refl s : uunchanged p s s.
Proof. destruct p; cbn; reflexivity || trivial. Qed.
Ltac un N := repeat first [ apply uu_refl | apply uu_goto | apply uu_release | apply uu_lock | apply uu_req | apply uu_rep | apply uu_thr
  | apply uu_list; [|intros ->; specialize (N _ (or_introl eq_refl)); discriminate N]
  | apply uu_data; [|intros ->; specialize (N _ (or_introl eq_refl)); discriminate N] ].
Lemma uwrites_step s a s' : ustep c s a = Some s' -> (forall m, In (p, m) (uabout_act c s a) -> m = Rd) -> uunchanged p s s'.
Proof.
  destruct a as [t fl|r src]; cbn [ustep uabout_act]; intros E N.
  - unfold ustep_thr, uabout, utry, uacquire in *. destruct (q_todo (u_thr s t)) as [|[b cell] todo]; [discriminate|].
    destruct (q_pc (u_thr s t)); cbv beta iota zeta in *;
    repeat match type of E with
    | option_map _ (match ?y with _ => _ end) = _ => destruct y; cbv beta iota zeta in *
    | match (match ?y with _ => _ end) with _ => _ end = _ => destruct y; cbv beta iota zeta in *
    | match ?y with _ => _ end = _ => destruct y; cbv beta iota zeta in *
    end; cbn [option_map] in E; try discriminate E; injection E as <-; un N.
  - destruct (fc_mpi c); try discriminate E. destruct (r <? _); [|discriminate E]. unfold ustep_com in E. destruct (u_req s src r); [discriminate E|]. injection E as <-. un N.
Qed.
End P.

(** ** No races *)
Hypothesis Hc : wf_fcfg c.
Lemma ublock_lock s t r o m : ureach c s -> In (Block r o, m) (uabout c s t) -> u_lock s (LSlot r o) = Some t.
Proof.
  intros Hr. unfold uabout. destruct (q_todo (u_thr s t)) as [|[b cell] todo]; [intros []|].
  assert (U := fun d i => q_uses_lock c Hc s t (fc_rank c t) d i Hr). unfold q_uses in U.
  destruct (q_pc (u_thr s t)) eqn:E; cbn [In]; intros H; try contradiction;
  repeat match type of H with context [if ?y then _ else _] => destruct y; cbn [In] in H; try contradiction end;
  repeat destruct H as [H|H]; try contradiction; try discriminate H; injection H as <- <- <-; apply U; split; auto.
Qed.
Lemma uindex_lock s t r d m : ureach c s -> In (Index r d, m) (uabout c s t) -> u_lock s (LCache r d) = Some t.
Proof.
  intros Hr. destruct (ureach_inv c Hc s Hr) as (Hl & z & Hs & Hz). pose proof (reach_inv _ (cc_wf c Hc) z Hz) as [Hi _].
  unfold uabout. destruct (q_todo (u_thr s t)) as [|[b cell] todo]; [intros []|].
  assert (U : forall k, pc_cm (fc_dom c t) (abs_pc (q_pc (u_thr s t))) = Some k -> u_lock s (LCache (fc_rank c t) k) = Some t).
  { intros k E. assert (X : s_lock z (LCache (fc_rank c t) k) = Some (Usr t)). { apply (held_cm (cc c) z t); [exact Hi|]. rewrite (m_thr _ _ _ Hs). exact E. }
    rewrite (m_cache _ _ _ Hs) in X. destruct (u_lock s _); cbn in X; congruence. }
  destruct (q_pc (u_thr s t)) eqn:E; cbn [In]; intros H; try contradiction;
  repeat match type of H with context [if ?y then _ else _] => destruct y; cbn [In] in H; try contradiction end;
  repeat destruct H as [H|H]; try contradiction; try discriminate H; injection H as <- <- <-; apply U; reflexivity.
Qed.
Lemma urace_free s t u : ureach c s -> ~ urace c s t u.
Proof.
  intros Hr [N ([pl m] & [pl' m'] & A & B & E & C)]. cbn [fst snd] in *. subst pl'. destruct pl as [r o|r d|b].
  - apply ublock_lock in A; auto. apply ublock_lock in B; auto. congruence.
  - apply uindex_lock in A; auto. apply uindex_lock in B; auto. congruence.
  - clear B. unfold uabout in A. destruct (q_todo (u_thr s t)) as [|[]]; [contradiction|]. destruct (q_pc (u_thr s t)); cbn [In] in A; try contradiction;
    repeat match type of A with context [if ?y then _ else _] => destruct y; cbn [In] in A; try contradiction end;
    repeat destruct A as [A|A]; try contradiction; discriminate A.
Qed.
End F.

(** ** [Once] *)
Lemma once_races calls s t u : ostate calls s -> orace s t u -> o_pc (o_thr s u) = ORead /\ o_mutex s = Some t.
Proof.
  intros Hs (N & A & B). assert (I := ostate_inv calls s Hs). assert (L := oi_lock _ _ I). unfold oabout in *.
  assert (T := L t). assert (U := L u). destruct (o_pc (o_thr s t)); try discriminate A; [destruct (o_left _); discriminate A|]. cbn [o_in] in T.
  destruct T as [T _]. specialize (T eq_refl). split; [|exact T]. destruct (o_pc (o_thr s u)); try contradiction; try reflexivity; destruct U as [U _]; specialize (U eq_refl); congruence.
Qed.

(** ** Counters *)
Lemma no_query prog sch s : only_reads prog -> CountModel.run true (CountModel.init prog) sch = Some s -> forall t c, ~ In (MGet c) (CountModel.t_ops (CountModel.s_thr s t)).
Proof.
  intros Hp. apply (run_inv true (fun s => forall t c, ~ In (MGet c) (CountModel.t_ops (CountModel.s_thr s t)))).
  - intros s0 t ch s' H E u c0. assert (Hu := H u c0). assert (Ht := H t c0).
    assert (X : forall y, In y (tl (CountModel.t_ops (CountModel.s_thr s0 t))) -> In y (CountModel.t_ops (CountModel.s_thr s0 t))) by (intros y; destruct (CountModel.t_ops (CountModel.s_thr s0 t)); [exact (fun Z => Z)|right; assumption]).
    unfold CountModel.step in E. repeat match type of E with context [match ?x with _ => _ end] => destruct x eqn:?; try discriminate E end; injection E as <-; cbn;
    unfold updt; destruct (Nat.eqb_spec u t) as [->|]; cbn; auto; first [ intros Z; apply Ht, X, Z | congruence | idtac ].
  - intros t c. cbn. intros H. apply in_flat_map in H as (o & Ho & H). destruct o as [[]|]; cbn in H; repeat destruct H as [H|H]; try contradiction; try discriminate H.
    injection H as ->. exact (Hp t c Ho).
Qed.
Lemma counter_race_free prog sch s t u : only_reads prog -> CountModel.run true (CountModel.init prog) sch = Some s -> ~ nrace true s t u.
Proof.
  intros Hp Hr (N & ch & ch' & n & w & A & B). assert (S := shape_run _ _ _ _ Hr). assert (L := sh_lock _ _ _ S eq_refl n). assert (Q := no_query _ _ _ Hp Hr u).
  assert (Lt := proj2 (L t)). assert (Lu := proj2 (L u)). assert (Hh := sh_head _ _ _ S u). unfold head_ok in Hh.
  unfold nabout in *. destruct (CountModel.t_pc (CountModel.s_thr s t)) eqn:E; try discriminate A.
  - destruct (CountModel.t_ops _) as [|[]]; discriminate A.
  - injection A as ->. specialize (Lt eq_refl). destruct (CountModel.t_pc (CountModel.s_thr s u)) eqn:E'; try discriminate B.
    + destruct (CountModel.t_ops (CountModel.s_thr s u)) as [|[]]; discriminate B.
    + injection B as -> <-. specialize (Lu eq_refl). congruence.
    + injection B as -> <-. specialize (Lu eq_refl). congruence.
    + destruct Hh as [r Hh]. apply (Q c). rewrite Hh. left. reflexivity.
  - destruct (existsb _ _ && _); discriminate A.
Qed.
