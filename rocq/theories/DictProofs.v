(** * Proofs about the dictionary entries *)
From Verif Require Export DictModel.

(** The array holding the locations [l]. *)
Definition rep (l : list nat) : dentry := map Some l ++ repeat None (dict_size - length l).

Definition del_list (l : list nat) (e : nat) : list nat :=
  if in_dec Nat.eq_dec e l then
    (fix rem l := match l with
                  | [] => []
                  | x :: l' => if x =? e then l' else x :: rem l'
                  end) l
  else firstn (dict_size - 1) l.

Lemma rep_init : dict_init = rep [].
Proof. reflexivity. Qed.

Lemma rep_length l : length l <= dict_size -> length (rep l) = dict_size.
Proof. intros. unfold rep. rewrite app_length, map_length, repeat_length. lia. Qed.

Ltac small_list l :=
  destruct l as [|? l]; [|destruct l as [|? l]; [|destruct l as [|? l]; [|destruct l as [|? l]; [|destruct l as [|? l];
    [|cbn in *; unfold dict_size in *; lia]]]]].

Lemma update_rep l e : length l <= dict_size ->
  update_block_info (rep l) e = Ok (rep (firstn dict_size (e :: l))).
Proof. intros H. small_list l; reflexivity. Qed.

Lemma fetch_rep l r : length l <= dict_size ->
  exists x, fetch_block_info (rep l) r = Ok (x, length l) /\
    x = match l with [] => None | _ => nth_error l (r mod length l) end /\
    (x = None <-> l = []) /\ (forall e, x = Some e -> In e l).
Proof.
  intros H. eexists. split; [|split; [reflexivity|]].
  - unfold fetch_block_info.
    assert (dcount (rep l) 0 dict_size = Ok (length l)) as -> by (small_list l; reflexivity).
    cbn [obind]. destruct l as [|a l']; [reflexivity|].
    destruct (Nat.eqb_spec (length (a :: l')) 0) as [E|_]; [discriminate|].
    assert (r mod length (a :: l') < length (a :: l')) as Hm by (apply Nat.mod_upper_bound; discriminate).
    unfold dget, rep. rewrite nth_error_app1 by (rewrite map_length; auto).
    rewrite nth_error_map. destruct (nth_error (a :: l') (r mod length (a :: l'))) eqn:E; cbn [option_map]; auto.
    apply nth_error_None in E. lia.
  - destruct l as [|a l']; [split; [tauto|discriminate]|].
    assert (r mod length (a :: l') < length (a :: l')) as Hm by (apply Nat.mod_upper_bound; discriminate).
    split.
    + split; [|discriminate]. intros E. apply nth_error_None in E. lia.
    + intros e E. eapply nth_error_In; eauto.
Qed.

Lemma dcount_rep l : length l <= dict_size -> dcount (rep l) 0 dict_size = Ok (length l).
Proof. intros H. small_list l; reflexivity. Qed.

Lemma fetch_update_rep l r e : length l <= dict_size ->
  exists x, fetch_and_update (rep l) r e = Ok (x, rep (firstn dict_size (e :: l))) /\
    (x = None <-> l = []) /\ (forall e, x = Some e -> In e l).
Proof.
  intros H. destruct (fetch_rep l r H) as (x & E & _ & H1 & H2). exists x. split; auto.
  unfold fetch_and_update. rewrite E. cbn [obind].
  pose proof (update_rep l e H) as Hu. unfold update_block_info in Hu. rewrite dcount_rep in Hu by auto.
  cbn [obind] in Hu. rewrite Hu. reflexivity.
Qed.

Lemma delete_rep l e : length l <= dict_size ->
  delete_block_info (rep l) e = Ok (rep (del_list l e)).
Proof.
  intros H. unfold del_list. destruct (in_dec Nat.eq_dec e l) as [Hin|Hnin].
  - unfold delete_block_info.
    small_list l; unfold dict_size; cbn -[Nat.eqb] in *;
    repeat (match goal with |- context [?a =? e] => destruct (Nat.eqb_spec a e) end; cbn -[Nat.eqb]); try reflexivity; exfalso; intuition.
  - unfold delete_block_info.
    small_list l; unfold dict_size; cbn -[Nat.eqb] in *;
    repeat (match goal with |- context [?a =? e] => destruct (Nat.eqb_spec a e); [exfalso; intuition|] end; cbn -[Nat.eqb]); reflexivity.
Qed.

Lemma del_list_length l e : length l <= dict_size -> length (del_list l e) <= dict_size.
Proof.
  intros H. unfold del_list. destruct (in_dec Nat.eq_dec e l).
  - transitivity (length l); auto. clear. induction l as [|x l IH]; cbn; auto.
    destruct (x =? e); cbn; lia.
  - rewrite firstn_length. unfold dict_size in *. lia.
Qed.

(** [s] arises from [l] by leaving out elements. *)
Inductive subseq {A} : list A -> list A -> Prop :=
| sub_nil : forall l, subseq [] l
| sub_keep : forall x s l, subseq s l -> subseq (x :: s) (x :: l)
| sub_skip : forall x s l, subseq s l -> subseq s (x :: l).

Lemma subseq_refl {A} (l : list A) : subseq l l.
Proof. induction l; constructor; auto. Qed.
Lemma subseq_In {A} (s l : list A) x : subseq s l -> In x s -> In x l.
Proof. induction 1; cbn; intros; tauto. Qed.
Lemma subseq_NoDup {A} (s l : list A) : subseq s l -> NoDup l -> NoDup s.
Proof.
  induction 1; intros Hn; [constructor| |]; inversion Hn; subst; auto.
  constructor; auto. intros Hx. eauto using subseq_In.
Qed.
Lemma subseq_trans {A} (a b c : list A) : subseq a b -> subseq b c -> subseq a c.
Proof.
  intros H1 H2. revert a H1. induction H2; intros a H1.
  - inversion H1; subst; constructor.
  - inversion H1; subst; constructor; auto.
  - constructor. auto.
Qed.
Lemma subseq_firstn {A} k (l : list A) : subseq (firstn k l) l.
Proof. revert k; induction l; intros [|k]; cbn; constructor; auto. Qed.
Lemma subseq_del l e : subseq (del_list l e) l.
Proof.
  unfold del_list. destruct (in_dec Nat.eq_dec e l); [|apply subseq_firstn].
  clear. induction l as [|x l IH]; cbn; [constructor|].
  destruct (x =? e); [apply sub_skip, subseq_refl|constructor; auto].
Qed.

Lemma del_list_not_In l e : NoDup l -> ~ In e (del_list l e).
Proof.
  intros Hn. unfold del_list. destruct (in_dec Nat.eq_dec e l) as [Hi|Hi].
  - clear Hi. induction Hn as [|x l Hx Hn IH]; cbn; [tauto|].
    destruct (Nat.eqb_spec x e) as [->|]; auto. cbn. intuition.
  - intros H. apply Hi. eapply subseq_In; [apply subseq_firstn|eauto].
Qed.

Lemma del_list_other l e x : In e l -> x <> e -> In x l -> In x (del_list l e).
Proof.
  intros He Hx Hin. unfold del_list. destruct (in_dec Nat.eq_dec e l); [|tauto].
  clear He i. induction l as [|y l IH]; cbn in *; [tauto|].
  destruct (Nat.eqb_spec y e) as [->|]; cbn; intuition. subst. tauto.
Qed.

(** ** Histories *)

(** The location added by an operation. *)
Definition adds (o : dop) : option nat :=
  match o with DAdd e | DFetchAdd _ e => Some e | DDel _ => None end.

(** Locations added and not deleted since, most recent first. *)
Fixpoint live (os : list dop) (acc : list nat) : list nat :=
  match os with
  | [] => acc
  | DAdd e :: os' | DFetchAdd _ e :: os' => live os' (e :: acc)
  | DDel e :: os' => live os' (remove Nat.eq_dec e acc)
  end.

(** A location is not added again while it is live. *)
Fixpoint legal (os : list dop) (acc : list nat) : Prop :=
  match os with
  | [] => True
  | DAdd e :: os' | DFetchAdd _ e :: os' => ~ In e acc /\ legal os' (e :: acc)
  | DDel e :: os' => legal os' (remove Nat.eq_dec e acc)
  end.

Lemma remove_subseq_NoDup e l : NoDup l -> NoDup (remove Nat.eq_dec e l).
Proof.
  intros H. induction H as [|x l Hx Hn IH]; cbn; [constructor|].
  destruct (Nat.eq_dec e x); auto. constructor; auto. intros Hin. apply in_remove in Hin. tauto.
Qed.

Lemma subseq_remove l acc e : subseq l acc -> ~ In e l -> subseq l (remove Nat.eq_dec e acc).
Proof.
  induction 1; cbn; intros He; [constructor| |].
  - destruct (Nat.eq_dec e x) as [->|]; [cbn in He; tauto|]. constructor. apply IHsubseq. cbn in He. tauto.
  - destruct (Nat.eq_dec e x); auto. constructor. auto.
Qed.

Lemma subseq_add (l acc : list nat) e : subseq l acc -> subseq (firstn dict_size (e :: l)) (e :: acc).
Proof. intros H. eapply subseq_trans; [apply subseq_firstn|]. constructor; auto. Qed.

Lemma drun_spec os : forall l acc,
  length l <= dict_size -> subseq l acc -> NoDup acc -> legal os acc ->
  exists l', drun (rep l) os = Ok (rep l') /\ length l' <= dict_size /\
    subseq l' (live os acc) /\ NoDup (live os acc).
Proof.
  induction os as [|o os IH]; intros l acc Hl Hs Hn Hg.
  { exists l. auto. }
  cbn [drun]. destruct o as [e|e|r e]; cbn [dstep live legal] in *.
  - rewrite update_rep by auto. cbn [obind]. destruct Hg as [Hg Hg'].
    apply IH; auto; [rewrite firstn_length; lia|apply subseq_add; auto|constructor; auto].
  - rewrite delete_rep by auto. cbn [obind].
    apply IH; auto; [apply del_list_length; auto| |apply remove_subseq_NoDup; auto].
    apply subseq_remove; [eapply subseq_trans; [apply subseq_del|auto]|].
    apply del_list_not_In. eapply subseq_NoDup; eauto.
  - destruct (fetch_update_rep l r e Hl) as (x & E & _). rewrite E. cbn [obind snd]. destruct Hg as [Hg Hg'].
    apply IH; auto; [rewrite firstn_length; lia|apply subseq_add; auto|constructor; auto].
Qed.
