(** * Proofs about LedgerModel *)
From Coq Require Import Lia.
From Verif Require Import LedgerModel LedgerSpec.

(** ** Histories *)
Lemma free_list_next h l : h_next (free_list h l) = h_next h.
Proof. revert h; induction l; intros h; cbn; [reflexivity|]. rewrite IHl. reflexivity. Qed.
Lemma free_list_alloc h l x : In (Alloc x) (h_log (free_list h l)) <-> In (Alloc x) (h_log h).
Proof.
  revert h; induction l as [|a l IH]; intros h; cbn [free_list]; [tauto|]. rewrite IH. cbn. split; [intros [E|E]; [discriminate|auto]|auto].
Qed.
Lemma free_list_free h l x : In (Free x) (h_log (free_list h l)) <-> In x l \/ In (Free x) (h_log h).
Proof.
  revert h; induction l as [|a l IH]; intros h; cbn [free_list]; [cbn; tauto|]. rewrite IH. cbn. split.
  - intros [A|[E|A]]; auto. injection E as ->. auto.
  - intros [[->|A]|A]; auto.
Qed.
Lemma free_list_live h l x : live x (h_log (free_list h l)) <-> live x (h_log h) /\ ~ In x l.
Proof. unfold live. rewrite free_list_alloc, free_list_free. tauto. Qed.
Lemma free_list_proper h l : proper (h_log h) -> NoDup l -> (forall x, In x l -> live x (h_log h)) -> proper (h_log (free_list h l)).
Proof.
  revert h; induction l as [|a l IH]; intros h P N L; cbn [free_list]; [exact P|]. inversion N as [|? ? Na Nl]; subst.
  destruct (L a (or_introl eq_refl)) as [A B].
  apply IH; [cbn; constructor; assumption|exact Nl|]. intros x X. destruct (L x (or_intror X)) as [C D]. split; cbn; [auto|].
  intros [E|E]; [injection E as ->; contradiction|contradiction].
Qed.

Definition bound (h : heap) : Prop := forall x, In (Alloc x) (h_log h) -> x < h_next h.
Lemma proper_free_alloc log x : proper log -> In (Free x) log -> In (Alloc x) log.
Proof. intros P. induction P; cbn; [tauto| |]; intros [E|E]; try discriminate; auto. injection E as ->. auto. Qed.
Lemma alloc_log h : proper (h_log h) -> bound h -> forall y, live y (Alloc (h_next h) :: h_log h) <-> y = h_next h \/ live y (h_log h).
Proof.
  intros P B y. unfold live. cbn. split.
  - intros [[E|A] C]; [injection E as ->; auto|]. right. split; [exact A|]. intros D. apply C. auto.
  - intros [->|[A C]].
    + split; [auto|]. intros [E|D]; [discriminate|]. apply proper_free_alloc in D; [|exact P]. apply B in D. lia.
    + split; [auto|]. intros [E|D]; [discriminate|contradiction].
Qed.
Lemma alloc_proper h : proper (h_log h) -> bound h -> proper (Alloc (h_next h) :: h_log h).
Proof. intros P B. constructor; [exact P|]. intros A. apply B in A. lia. Qed.
Lemma alloc_bound h : bound h -> bound (fst (alloc h)).
Proof. intros B x [E|A]; cbn; [injection E as <-; lia|]. apply B in A. lia. Qed.
Lemma free_bound h l : bound h -> bound (free_list h l).
Proof. intros B x A. rewrite free_list_next. apply B. rewrite free_list_alloc in A. exact A. Qed.

Section K.
Variables (n : nat) (k : kind).
Hypothesis n_pos : 0 < n.

(** ** Ownership *)
Definition news (cs : list cmd) : list field := flat_map (fun c => match c with New _ f _ => [f] | _ => [] end) cs.
Definition whose (f : field) : option who :=
  if field_dec f FComm then Some First
  else match find (fun c => match c with New _ g _ => if field_dec f g then true else false | _ => false end) (init k) with
       | Some (New w _ _) => Some w
       | _ => None
       end.
Definition owns (d : nat) (f : field) : Prop := whose f = Some Each \/ (whose f = Some First /\ d = 0).
Definition guard_part (g : guard) : part := match g with Always => PLevel | Zero p => p | ZeroSet p _ => p end.
Definition part_of (f : field) : part :=
  match find (fun e => if field_dec f (snd e) then true else false) (dels k) with Some e => guard_part (fst e) | None => PLevel end.

Record shape (o : nat -> obj) : Prop := {
  sh_share : forall d f x, d < n -> o_ptr (o d) f = Some x -> owns d f \/ (whose f = Some First /\ o_ptr (o 0) f = Some x);
  sh_dom : forall d f x, d < n -> d <> 0 -> o_ptr (o d) f = Some x -> whose f = Some First -> o_dom (o d) (part_of f) = d;
  sh_dom0 : forall p, o_dom (o 0) p = 0 }.
Record loc (fr : nat -> Prop) (h : heap) (o : nat -> obj) : Prop := {
  l_proper : proper (h_log h);
  l_bound : bound h;
  l_live : forall x, live x (h_log h) <-> fr x \/ exists d f, d < n /\ owns d f /\ o_ptr (o d) f = Some x;
  l_apart : forall x d f, fr x -> d < n -> owns d f -> o_ptr (o d) f = Some x -> False;
  l_inj : forall d f d' f' x, d < n -> d' < n -> owns d f -> owns d' f' -> o_ptr (o d) f = Some x -> o_ptr (o d') f' = Some x -> d = d' /\ f = f';
  l_shape : shape o }.

Lemma ptr_set o d f v d' g : o_ptr (upd o d (set_ptr (o d) f v) d') g = if (d' =? d) then (if field_dec g f then v else o_ptr (o d') g) else o_ptr (o d') g.
Proof. unfold upd. destruct (Nat.eqb_spec d' d) as [->|]; [reflexivity|reflexivity]. Qed.
Lemma dom_set o d f v d' p : o_dom (upd o d (set_ptr (o d) f v) d') p = o_dom (o d') p.
Proof. unfold upd. destruct (Nat.eqb_spec d' d) as [->|]; reflexivity. Qed.

Lemma live_old fr h o x : loc fr h o -> live x (h_log h) -> x < h_next h.
Proof. intros L [A _]. exact (l_bound _ _ _ L x A). Qed.

Lemma loc_new fr h o d f : loc fr h o -> d < n -> owns d f -> o_ptr (o d) f = None ->
  (whose f = Some First -> forall d', d' < n -> o_ptr (o d') f = None) ->
  loc fr (fst (alloc h)) (upd o d (set_ptr (o d) f (Some (h_next h)))).
Proof.
  intros L D O N NF.
  assert (OLD : forall x d' g, d' < n -> o_ptr (o d') g = Some x -> x < h_next h).
  { intros x d' g D' E. destruct (sh_share _ (l_shape _ _ _ L) d' g x D' E) as [A|[A B]].
    - apply (live_old _ _ _ _ L). apply (l_live _ _ _ L). right. exists d', g. auto.
    - apply (live_old _ _ _ _ L). apply (l_live _ _ _ L). right. exists 0, g. split; [exact n_pos|]. split; [right; auto|exact B]. }
  split.
  - cbn. apply alloc_proper; [exact (l_proper _ _ _ L)|exact (l_bound _ _ _ L)].
  - apply alloc_bound. exact (l_bound _ _ _ L).
  - intros x. cbn [alloc fst h_log]. rewrite (alloc_log h (l_proper _ _ _ L) (l_bound _ _ _ L)). rewrite (l_live _ _ _ L). split.
    + intros [->|[F|(d' & g & D' & O' & E)]].
      * right. exists d, f. split; [exact D|]. split; [exact O|]. rewrite ptr_set, Nat.eqb_refl. destruct (field_dec f f); [reflexivity|contradiction].
      * auto.
      * right. exists d', g. split; [exact D'|]. split; [exact O'|]. rewrite ptr_set. destruct (Nat.eqb_spec d' d) as [->|]; [|exact E].
        destruct (field_dec g f) as [->|]; [congruence|exact E].
    + intros [F|(d' & g & D' & O' & E)]; [auto|]. rewrite ptr_set in E. destruct (Nat.eqb_spec d' d) as [->|].
      * destruct (field_dec g f) as [->|]; [injection E as <-; auto|]. right. right. exists d, g. auto.
      * right. right. exists d', g. auto.
  - intros x d' g F D' O' E. rewrite ptr_set in E.
    assert (X : x = h_next h \/ o_ptr (o d') g = Some x) by (destruct (d' =? d); [destruct (field_dec g f); [injection E as <-; auto|auto]|auto]).
    destruct X as [->|X].
    + assert (Lv : live (h_next h) (h_log h)) by (apply (l_live _ _ _ L); auto). apply (live_old _ _ _ _ L) in Lv. lia.
    + exact (l_apart _ _ _ L x d' g F D' O' X).
  - assert (W : forall d' g x, d' < n -> o_ptr (upd o d (set_ptr (o d) f (Some (h_next h))) d') g = Some x ->
      (d' = d /\ g = f /\ x = h_next h) \/ (o_ptr (o d') g = Some x /\ x < h_next h)).
    { intros d' g x D' E. rewrite ptr_set in E. destruct (Nat.eqb_spec d' d) as [->|].
      - destruct (field_dec g f) as [->|]; [injection E as <-; auto|]. right. split; [exact E|]. exact (OLD _ _ _ D' E).
      - right. split; [exact E|]. exact (OLD _ _ _ D' E). }
    intros d1 f1 d2 f2 x D1 D2 O1 O2 E1 E2. apply W in E1; [|exact D1]. apply W in E2; [|exact D2].
    destruct E1 as [(-> & -> & ->)|[E1 L1]], E2 as [(-> & -> & X)|[E2 L2]]; subst; auto; try lia.
    exact (l_inj _ _ _ L d1 f1 d2 f2 x D1 D2 O1 O2 E1 E2).
  - destruct (l_shape _ _ _ L) as [S1 S2 S3]. split.
    + intros d' g x D' E. rewrite ptr_set in E. rewrite ptr_set. destruct (Nat.eqb_spec d' d) as [->|Dd].
      * destruct (field_dec g f) as [->|Gf]; [auto|]. destruct (S1 d g x D' E) as [A|[A B]]; [auto|right]. split; [exact A|].
        destruct (0 =? d); exact B.
      * destruct (S1 d' g x D' E) as [A|[A B]]; [auto|right]. split; [exact A|].
        destruct (Nat.eqb_spec 0 d) as [<-|]; [|exact B]. destruct (field_dec g f) as [->|]; [|exact B].
        rewrite (NF A d' D') in E. discriminate.
    + intros d' g x D' Dz E W. rewrite dom_set. rewrite ptr_set in E. destruct (Nat.eqb_spec d' d) as [->|Dd].
      * destruct (field_dec g f) as [->|Gf]; [|exact (S2 d g x D' Dz E W)]. destruct O as [O|[_ O]]; [congruence|contradiction].
      * exact (S2 d' g x D' Dz E W).
    + intros p. rewrite dom_set. apply S3.
Qed.

Lemma loc_share fr h o d f : loc fr h o -> d < n -> whose f <> Some Each ->
  (whose f = Some First -> d <> 0 -> o_dom (o d) (part_of f) = d) ->
  loc fr h (upd o d (set_ptr (o d) f (o_ptr (o 0) f))).
Proof.
  intros L D NE PD. set (o' := upd o d (set_ptr (o d) f (o_ptr (o 0) f))).
  assert (Z : forall g, o_ptr (o' 0) g = o_ptr (o 0) g).
  { intros g. unfold o'. rewrite ptr_set. destruct (Nat.eqb_spec 0 d); [|reflexivity]. destruct (field_dec g f) as [->|]; reflexivity. }
  assert (OW : forall d' g, owns d' g -> o_ptr (o' d') g = o_ptr (o d') g).
  { intros d' g [W|[W ->]]; [|apply Z]. unfold o'. rewrite ptr_set. destruct (d' =? d); [|reflexivity].
    destruct (field_dec g f) as [->|]; [contradiction|reflexivity]. }
  destruct L as [P B LV AP IN [S1 S2 S3]]. split; [exact P|exact B| | | |split].
  - intros x. rewrite LV. split; (intros [F|(d' & g & D' & O' & E)]; [auto|right; exists d', g; split; [exact D'|split; [exact O'|]]]).
    + rewrite OW; assumption.
    + rewrite <- (OW _ _ O'). exact E.
  - intros x d' g F D' O' E. rewrite OW in E by exact O'. exact (AP x d' g F D' O' E).
  - intros d1 f1 d2 f2 x D1 D2 O1 O2 E1 E2. rewrite OW in E1 by exact O1. rewrite OW in E2 by exact O2. exact (IN d1 f1 d2 f2 x D1 D2 O1 O2 E1 E2).
  - intros d' g x D' E. rewrite Z. unfold o' in E. rewrite ptr_set in E. destruct (Nat.eqb_spec d' d) as [->|]; [|exact (S1 _ _ _ D' E)].
    destruct (field_dec g f) as [->|]; [|exact (S1 _ _ _ D' E)]. destruct (S1 0 f x n_pos E) as [[W|[W _]]|[W _]]; [contradiction|auto|auto].
  - intros d' g x D' Dz E W. unfold o' in *. rewrite dom_set. rewrite ptr_set in E. destruct (Nat.eqb_spec d' d) as [->|]; [|exact (S2 _ _ _ D' Dz E W)].
    destruct (field_dec g f) as [->|]; [|exact (S2 _ _ _ D' Dz E W)]. exact (PD W Dz).
  - intros p. unfold o'. rewrite dom_set. apply S3.
Qed.

Lemma loc_drop fr h o d f : loc fr h o -> d < n -> whose f = Some Each ->
  loc fr (match o_ptr (o d) f with Some x => free_list h [x] | None => h end) (upd o d (set_ptr (o d) f None)).
Proof.
  intros L D WE. set (h' := match o_ptr (o d) f with Some x => free_list h [x] | None => h end). set (o' := upd o d (set_ptr (o d) f None)).
  destruct L as [P B LV AP IN [S1 S2 S3]].
  assert (LF : forall x, live x (h_log h') <-> live x (h_log h) /\ o_ptr (o d) f <> Some x).
  { intros x. unfold h'. destruct (o_ptr (o d) f) as [y|]; [|split; [intros A; split; [exact A|discriminate]|intros [A _]; exact A]].
    rewrite free_list_live. cbn. split; intros [A C]; (split; [exact A|]); intros E; apply C; [injection E as ->; auto|destruct E as [->|[]]; reflexivity]. }
  assert (PT : forall d' g x, o_ptr (o' d') g = Some x <-> o_ptr (o d') g = Some x /\ ~ (d' = d /\ g = f)).
  { intros d' g x. unfold o'. rewrite ptr_set. destruct (Nat.eqb_spec d' d) as [->|]; [destruct (field_dec g f) as [->|]|]; split; try tauto; try discriminate.
    all: intros E; split; [exact E|]; intros [A C]; contradiction. }
  split; [| | | | |split].
  - unfold h'. destruct (o_ptr (o d) f) as [y|] eqn:E; [|exact P]. apply free_list_proper; [exact P|repeat constructor; auto|].
    intros x [<-|[]]. apply LV. right. exists d, f. unfold owns. auto.
  - unfold h'. destruct (o_ptr (o d) f); [apply free_bound|]; exact B.
  - intros x. rewrite LF, LV. split.
    + intros [[F|(d' & g & D' & O' & E)] NX]; [auto|]. right. exists d', g. split; [exact D'|]. split; [exact O'|]. apply PT. split; [exact E|].
      intros [-> ->]. contradiction.
    + intros [F|(d' & g & D' & O' & E)].
      * split; [auto|]. intros E. exact (AP x d f F D (or_introl WE) E).
      * apply PT in E. destruct E as [E NE]. split; [right; exists d', g; auto|]. intros E'.
        apply NE. exact (IN d' g d f x D' D O' (or_introl WE) E E').
  - intros x d' g F D' O' E. apply PT in E. exact (AP x d' g F D' O' (proj1 E)).
  - intros d1 f1 d2 f2 x D1 D2 O1 O2 E1 E2. apply PT in E1. apply PT in E2. exact (IN d1 f1 d2 f2 x D1 D2 O1 O2 (proj1 E1) (proj1 E2)).
  - intros d' g x D' E. apply PT in E. destruct E as [E NE]. destruct (S1 d' g x D' E) as [A|[A C]]; [auto|right]. split; [exact A|].
    apply PT. split; [exact C|]. intros [_ ->]. congruence.
  - intros d' g x D' Dz E W. apply PT in E. unfold o'. rewrite dom_set. exact (S2 d' g x D' Dz (proj1 E) W).
  - intros p. unfold o'. rewrite dom_set. apply S3.
Qed.

Lemma loc_ident fr h o d p : loc fr h o -> loc fr h (upd o d (set_dom (o d) p d)).
Proof.
  intros L. set (o' := upd o d (set_dom (o d) p d)).
  assert (PT : forall d' g, o_ptr (o' d') g = o_ptr (o d') g).
  { intros d' g. unfold o', upd. destruct (Nat.eqb_spec d' d) as [->|]; reflexivity. }
  destruct L as [P B LV AP IN [S1 S2 S3]]. split; [exact P|exact B| | | |split].
  - intros x. rewrite LV. split; (intros [F|(d' & g & D' & O' & E)]; [auto|right; exists d', g; rewrite PT in *; auto]).
  - intros x d' g F D' O' E. rewrite PT in E. exact (AP x d' g F D' O' E).
  - intros d1 f1 d2 f2 x D1 D2 O1 O2 E1 E2. rewrite PT in E1. rewrite PT in E2. exact (IN d1 f1 d2 f2 x D1 D2 O1 O2 E1 E2).
  - intros d' g x D' E. rewrite PT in E. rewrite PT. exact (S1 d' g x D' E).
  - intros d' g x D' Dz E W. rewrite PT in E. pose proof (S2 d' g x D' Dz E W) as X. unfold o', upd. destruct (Nat.eqb_spec d' d) as [->|]; [|exact X].
    cbn. destruct (part_dec (part_of g) p); [reflexivity|exact X].
  - intros q. unfold o', upd. destruct (Nat.eqb_spec 0 d) as [<-|]; [cbn; destruct (part_dec q p); [reflexivity|]|]; apply S3.
Qed.

(** ** The check of the lists of commands *)
Definition memf (f : field) (l : list field) : bool := existsb (fun g => if field_dec f g then true else false) l.
Definition memp (p : part) (l : list part) : bool := existsb (fun q => if part_dec p q then true else false) l.
Lemma memf_in f l : memf f l = true <-> In f l.
Proof.
  unfold memf. rewrite existsb_exists. split; [intros (g & A & E); destruct (field_dec f g); [subst; exact A|discriminate]|].
  intros A. exists f. split; [exact A|]. destruct (field_dec f f); [reflexivity|contradiction].
Qed.
Lemma memp_in p l : memp p l = true <-> In p l.
Proof.
  unfold memp. rewrite existsb_exists. split; [intros (g & A & E); destruct (part_dec p g); [subst; exact A|discriminate]|].
  intros A. exists p. split; [exact A|]. destruct (part_dec p p); [reflexivity|contradiction].
Qed.
(** These calls do not fail on domain 0 under [lucky]. *)
Definition spared (c : cmd) : bool := match c with New First FWin _ | New First FTag1 _ => true | _ => false end.
Definition safe (c : cmd) : bool := match c with Ident _ => true | New First _ Sure => true | _ => spared c end.
(** [f] will be set before anything can fail on domain 0. *)
Fixpoint soon (r : list cmd) (f : field) : bool :=
  match r with
  | [] => false
  | c :: r' => safe c && (match c with New First g _ => if field_dec f g then true else soon r' f | _ => soon r' f end)
  end.
Definition whose_eqb (a : option who) (b : who) : bool :=
  match a, b with Some First, First => true | Some Each, Each => true | _, _ => false end.
Lemma whose_eqb_eq a b : whose_eqb a b = true <-> a = Some b.
Proof. destruct a as [[]|], b; cbn; split; congruence. Qed.
Fixpoint checks (seen : list part) (done : list field) (r : list cmd) : bool :=
  match r with
  | [] => true
  | Ident p :: r' => checks (p :: seen) done r'
  | New w f m :: r' =>
      negb (memf f (news r')) && whose_eqb (whose f) w
      && (match w with
          | First => forallb (fun e => match fst e with ZeroSet _ f' => negb (if field_dec f (snd e) then true else false) || memf f' (f :: done) || soon r' f' | _ => true end) (dels k)
          | Each => true
          end)
      && checks seen (match w with First => f :: done | Each => done end) r'
  | Share f _ :: r' => negb (whose_eqb (whose f) Each) && (negb (whose_eqb (whose f) First) || memp (part_of f) seen) && checks seen done r'
  | Test :: r' => checks seen done r'
  | Drop f :: r' => whose_eqb (whose f) Each && checks seen done r'
  end.
Definition del_ok (e : guard * field) : bool :=
  match whose (snd e), fst e with
  | Some Each, Always => true
  | Some First, Zero _ => true
  | Some First, ZeroSet _ f' => whose_eqb (whose f') First
  | _, _ => false
  end.
Fixpoint nodupf (l : list field) : bool := match l with [] => true | f :: r => negb (memf f r) && nodupf r end.
Definition dels_ok : bool := forallb del_ok (dels k) && nodupf (map snd (dels k)) && forallb (fun f => memf f (map snd (dels k))) (FComm :: news (init k)).

Variables (fail late : nat -> nat -> bool).
Hypothesis spare : forall i c, nth_error (init k) i = Some c -> spared c = true -> fail i 0 = false.

Hypothesis good_dels : dels_ok = true.
Lemma del_ok_in e : In e (dels k) -> del_ok e = true.
Proof. intros A. unfold dels_ok in good_dels. apply andb_prop in good_dels. destruct good_dels as [B _]. apply andb_prop in B. destruct B as [B _]. rewrite forallb_forall in B. exact (B e A). Qed.
Lemma zeroset_first p f' f : In (ZeroSet p f', f) (dels k) -> whose f = Some First /\ whose f' = Some First.
Proof.
  intros A. pose proof (del_ok_in _ A) as B. unfold del_ok in B. cbn [fst snd] in B. destruct (whose f) as [[]|]; try discriminate.
  split; [reflexivity|]. apply whose_eqb_eq. exact B.
Qed.

Record wf (fr : nat -> Prop) (seen : list part) (done : list field) (r : list cmd) (s : st) : Prop := {
  w_loc : loc fr (s_heap s) (s_obj s);
  w_todo : forall f d, In f (news r) -> d < n -> o_ptr (s_obj s d) f = None;
  w_seen : forall d p, d < n -> s_run s d = true -> In p seen -> o_dom (s_obj s d) p = d;
  w_done : s_run s 0 = true -> forall f, In f done -> o_ptr (s_obj s 0) f <> None /\ whose f = Some First }.
Definition guarded (r : list cmd) (s : st) : Prop := forall p f' f, In (ZeroSet p f', f) (dels k) -> o_ptr (s_obj s 0) f <> None ->
  o_ptr (s_obj s 0) f' <> None \/ (s_run s 0 = true /\ soon r f' = true).
Definition strict (s : st) : Prop := forall p f' f, In (ZeroSet p f', f) (dels k) -> o_ptr (s_obj s 0) f <> None -> o_ptr (s_obj s 0) f' <> None.
Lemma strict_guarded r s : strict s -> guarded r s.
Proof. intros S p f' f A B. left. exact (S p f' f A B). Qed.
Lemma guarded_strict c r s : guarded (c :: r) s -> safe c = false -> strict s.
Proof. intros G F p f' f A B. destruct (G p f' f A B) as [C|[_ C]]; [exact C|]. cbn [soon] in C. rewrite F in C. discriminate. Qed.

Lemma each_ind (P : nat -> st -> Prop) m f s : P 0 s ->
  (forall j t, j < m -> P j t -> s_run t j = true -> P (S j) (f j t)) ->
  (forall j t, j < m -> P j t -> s_run t j = false -> P (S j) t) -> P m (each m f s).
Proof.
  intros P0 P1 P2. induction m as [|m IH]; cbn [each]; [exact P0|].
  assert (A : P m (each m f s)) by (apply IH; intros; [apply P1|apply P2]; auto).
  destruct (s_run (each m f s) m) eqn:E; [apply P1|apply P2]; auto.
Qed.

Lemma wf_quit fr seen done r s d : wf fr seen done r s -> wf fr seen done r (quit s d).
Proof.
  intros [L T S D]. split; cbn; [exact L|exact T| |].
  - intros d' p D' R. unfold upd in R. destruct (d' =? d); [discriminate|]. exact (S d' p D' R).
  - intros R. unfold upd in R. destruct (0 =? d); [discriminate|]. exact (D R).
Qed.
Lemma wf_new fr seen done r s d f : wf fr seen done r s -> d < n -> owns d f -> o_ptr (s_obj s d) f = None ->
  (whose f = Some First -> forall d', d' < n -> o_ptr (s_obj s d') f = None) -> ~ In f (news r) ->
  wf fr seen done r (put (St (fst (alloc (s_heap s))) (s_obj s) (s_run s)) d f (Some (h_next (s_heap s)))).
Proof.
  intros [L T S D] Dn O N NF NI. split; cbn [put s_heap s_obj s_run].
  - apply loc_new; assumption.
  - intros g d' A D'. rewrite ptr_set. destruct (d' =? d); [|exact (T g d' A D')]. destruct (field_dec g f) as [->|]; [contradiction|exact (T g d' A D')].
  - intros d' p D' R A. rewrite dom_set. exact (S d' p D' R A).
  - intros R g A. rewrite ptr_set. destruct (D R g A) as [B C]. split; [|exact C]. destruct (0 =? d); [|exact B]. destruct (field_dec g f); [discriminate|exact B].
Qed.
Lemma wf_share fr seen done r s d f : wf fr seen done r s -> d < n -> s_run s d = true -> whose f <> Some Each ->
  (whose f = Some First -> In (part_of f) seen) -> ~ In f (news r) \/ o_ptr (s_obj s 0) f = None ->
  wf fr seen done r (put s d f (o_ptr (s_obj s 0) f)).
Proof.
  intros [L T S D] Dn R NE PS NI. split; cbn [put s_heap s_obj s_run].
  - apply loc_share; [exact L|exact Dn|exact NE|]. intros W _. exact (S d _ Dn R (PS W)).
  - intros g d' A D'. rewrite ptr_set. destruct (d' =? d); [|exact (T g d' A D')]. destruct (field_dec g f) as [->|]; [|exact (T g d' A D')].
    destruct NI as [NI|NI]; [contradiction|exact NI].
  - intros d' p D' R' A. rewrite dom_set. exact (S d' p D' R' A).
  - intros R' g A. rewrite ptr_set. destruct (D R' g A) as [B C]. split; [|exact C]. destruct (0 =? d); [|exact B]. destruct (field_dec g f) as [->|]; exact B.
Qed.
Lemma wf_drop fr seen done r s d f : wf fr seen done r s -> d < n -> whose f = Some Each -> wf fr seen done r (do_drop f d s).
Proof.
  intros [L T S D] Dn WE. unfold do_drop. split; cbn [put s_heap s_obj s_run].
  - apply loc_drop; assumption.
  - intros g d' A D'. rewrite ptr_set. destruct (d' =? d); [|exact (T g d' A D')]. destruct (field_dec g f) as [->|]; [reflexivity|exact (T g d' A D')].
  - intros d' p D' R' A. rewrite dom_set. exact (S d' p D' R' A).
  - intros R' g A. rewrite ptr_set. destruct (D R' g A) as [B C]. split; [|exact C]. destruct (0 =? d); [|exact B]. destruct (field_dec g f) as [->|]; [congruence|exact B].
Qed.
Lemma wf_tail fr seen done c r s : wf fr seen done (c :: r) s -> wf fr seen done r s.
Proof. intros [L T S D]. split; auto. intros f d A. apply T. unfold news. cbn [flat_map]. apply in_or_app. right. exact A. Qed.

Lemma ident_wf fr seen done r s p : wf fr seen done r s -> guarded (Ident p :: r) s ->
  let s' := each n (fun d s => St (s_heap s) (upd (s_obj s) d (set_dom (s_obj s d) p d)) (s_run s)) s in
  wf fr (p :: seen) done r s' /\ guarded r s'.
Proof.
  intros W G s'.
  assert (A : wf fr seen done r s' /\ (forall d, d < n -> s_run s' d = true -> o_dom (s_obj s' d) p = d) /\ guarded r s').
  { unfold s'. apply (each_ind (fun j t => wf fr seen done r t /\ (forall d, d < j -> s_run t d = true -> o_dom (s_obj t d) p = d) /\ guarded r t)).
    - split; [exact W|]. split; [intros d D; lia|]. intros q f' f A B. destruct (G q f' f A B) as [X|[R X]]; [auto|]. right. split; [exact R|exact X].
    - intros j t J ([L T S D] & DJ & GJ) R. split; [split; cbn [s_heap s_obj s_run]|split].
      + apply loc_ident. exact L.
      + intros f d A D'. replace (o_ptr _ f) with (o_ptr (s_obj t d) f); [exact (T f d A D')|]. unfold upd. destruct (Nat.eqb_spec d j) as [->|]; reflexivity.
      + intros d q D' R' A. unfold upd. destruct (Nat.eqb_spec d j) as [->|]; [|exact (S d q D' R' A)]. cbn. destruct (part_dec q p); [reflexivity|exact (S j q D' R' A)].
      + intros R' f A. replace (o_ptr _ f) with (o_ptr (s_obj t 0) f); [exact (D R' f A)|]. unfold upd. destruct (Nat.eqb_spec 0 j) as [<-|]; reflexivity.
      + cbn [s_obj s_run]. intros d D' R'. unfold upd. destruct (Nat.eqb_spec d j) as [->|]; [cbn; destruct (part_dec p p); [reflexivity|contradiction]|]. apply DJ; [lia|exact R'].
      + intros q f' f A. cbn [s_obj s_run]. assert (X : forall g, o_ptr (upd (s_obj t) j (set_dom (s_obj t j) p j) 0) g = o_ptr (s_obj t 0) g) by (intros g; unfold upd; destruct (Nat.eqb_spec 0 j) as [<-|]; reflexivity).
        rewrite !X. exact (GJ q f' f A).
    - intros j t J (WJ & DJ & GJ) R. split; [exact WJ|]. split; [|exact GJ]. intros d D' R'. destruct (Nat.eq_dec d j) as [->|]; [congruence|]. apply DJ; [lia|exact R']. }
  destruct A as ([L T S D] & DJ & GJ). split; [|exact GJ]. split; auto. intros d q D' R' [<-|A]; [exact (DJ d D' R')|exact (S d q D' R' A)].
Qed.
Lemma each_new_wf fr seen done r s i f m : wf fr seen done r s -> strict s -> whose f = Some Each -> ~ In f (news r) ->
  (forall d, d < n -> o_ptr (s_obj s d) f = None) -> let s' := each n (do_new fail i f m) s in wf fr seen done r s' /\ strict s'.
Proof.
  intros W G WE NI N s'.
  assert (A : wf fr seen done r s' /\ (forall d, n <= d -> d < n -> o_ptr (s_obj s' d) f = None) /\ strict s').
  { unfold s'. apply (each_ind (fun j t => wf fr seen done r t /\ (forall d, j <= d -> d < n -> o_ptr (s_obj t d) f = None) /\ strict t)).
    - split; [exact W|]. split; [intros d _ D; exact (N d D)|exact G].
    - intros j t J (WJ & NJ & GJ) R.
      assert (Q : wf fr seen done r (quit t j) /\ (forall d, S j <= d -> d < n -> o_ptr (s_obj (quit t j) d) f = None) /\ strict (quit t j)).
      { split; [apply wf_quit; exact WJ|]. split; [intros d D D'; cbn; apply NJ; lia|exact GJ]. }
      assert (P : let t' := put (St (fst (alloc (s_heap t))) (s_obj t) (s_run t)) j f (Some (h_next (s_heap t))) in
        wf fr seen done r t' /\ (forall d, S j <= d -> d < n -> o_ptr (s_obj t' d) f = None) /\ strict t').
      { cbv zeta. split; [|split].
        - apply wf_new; [exact WJ|exact J|left; exact WE|apply NJ; lia|rewrite WE; discriminate|exact NI].
        - intros d D D'. cbn [put s_obj]. rewrite ptr_set. destruct (Nat.eqb_spec d j); [lia|]. apply NJ; lia.
        - intros p f' g A. destruct (zeroset_first p f' g A) as [F1 F2]. cbn [put s_obj]. rewrite !ptr_set.
          destruct (0 =? j); [|exact (GJ p f' g A)]. destruct (field_dec g f) as [->|]; [congruence|]. destruct (field_dec f' f) as [->|]; [congruence|exact (GJ p f' g A)]. }
      unfold do_new. destruct m; [exact P| |]; (destruct (fail i j); [exact Q|exact P]).
    - intros j t J (WJ & NJ & GJ) R. split; [exact WJ|]. split; [intros d D D'; apply NJ; lia|exact GJ]. }
  destruct A as (A & _ & B). auto.
Qed.
Lemma share_wf fr seen done r s i f m : wf fr seen done r s -> strict s -> whose f <> Some Each -> (whose f = Some First -> In (part_of f) seen) ->
  let s' := each n (do_share fail late i f m) s in wf fr seen done r s' /\ strict s'.
Proof.
  intros W G NE PS s'. unfold s'. apply (each_ind (fun _ t => wf fr seen done r t /\ strict t)); [auto| |auto].
  intros j t J [WJ GJ] R. unfold do_share.
  assert (A : let t1 := if fail i j && negb (late i j) then t else put t j f (o_ptr (s_obj t 0) f) in wf fr seen done r t1 /\ strict t1).
  { cbv zeta. destruct (fail i j && negb (late i j)); [auto|]. split.
    - apply wf_share; [exact WJ|exact J|exact R|exact NE|exact PS|]. destruct (memf f (news r)) eqn:M; [right|left; intros X; apply memf_in in X; congruence].
      apply memf_in in M. exact (w_todo _ _ _ _ _ WJ f 0 M n_pos).
    - intros p f' g A B. cbn [put s_obj] in *.
      assert (X : forall h, o_ptr (upd (s_obj t) j (set_ptr (s_obj t j) f (o_ptr (s_obj t 0) f)) 0) h = o_ptr (s_obj t 0) h).
      { intros h. rewrite ptr_set. destruct (0 =? j); [|reflexivity]. destruct (field_dec h f) as [->|]; reflexivity. }
      rewrite X in *. exact (GJ p f' g A B). }
  cbv zeta in A. destruct A as [A B]. destruct m; [auto| |auto]. destruct (fail i j); [|auto]. split; [apply wf_quit; exact A|exact B].
Qed.
Lemma first_new_wf fr seen done r s i f m : wf fr seen done r s -> guarded (New First f m :: r) s -> s_run s 0 = true ->
  whose f = Some First -> ~ In f (news r) -> (forall d, d < n -> o_ptr (s_obj s d) f = None) ->
  (forall p f', In (ZeroSet p f', f) (dels k) -> In f' (f :: done) \/ soon r f' = true) -> nth_error (init k) i = Some (New First f m) ->
  let s' := do_new fail i f m 0 s in wf fr seen (f :: done) r s' /\ guarded r s'.
Proof.
  intros W G R WF NI N Z NT s'.
  assert (P : let t := put (St (fst (alloc (s_heap s))) (s_obj s) (s_run s)) 0 f (Some (h_next (s_heap s))) in wf fr seen (f :: done) r t /\ guarded r t).
  { cbv zeta.
    assert (W' : wf fr seen done r (put (St (fst (alloc (s_heap s))) (s_obj s) (s_run s)) 0 f (Some (h_next (s_heap s))))).
    { apply wf_new; [exact W|exact n_pos|right; auto|apply N; exact n_pos|intros _; exact N|exact NI]. }
    split.
    - destruct W' as [L T S D]. split; [exact L|exact T|exact S|]. intros R' g [<-|A]; [|exact (D R' g A)]. split; [|exact WF].
      cbn [put s_obj]. rewrite ptr_set. cbn. destruct (field_dec f f); [discriminate|contradiction].
    - intros p f' g A B. cbn [put s_obj s_run] in *. rewrite ptr_set in *. cbn [Nat.eqb] in *.
      destruct (field_dec g f) as [->|Gf].
      + destruct (Z p f' A) as [[->|X]|X]; [| |auto].
        * left. destruct (field_dec f' f'); [discriminate|contradiction].
        * left. destruct (field_dec f' f); [discriminate|]. exact (proj1 (w_done _ _ _ _ _ W R f' X)).
      + destruct (G p f' g A B) as [X|[_ X]]; [left; destruct (field_dec f' f); [discriminate|exact X]|].
        cbn [soon] in X. apply andb_prop in X. destruct X as [_ X]. destruct (field_dec f' f); [left; discriminate|]. right. auto. }
  assert (Q : m <> Sure -> fail i 0 = true -> wf fr seen (f :: done) r (quit s 0) /\ guarded r (quit s 0)).
  { intros M F. split.
    - destruct (wf_quit _ _ _ _ _ 0 W) as [L T S D]. split; [exact L|exact T|exact S|]. cbn. intros R'. discriminate.
    - intros p f' g A B. cbn [quit s_obj s_run] in *. destruct (G p f' g A B) as [X|[_ X]]; [auto|]. exfalso.
      cbn [soon] in X. apply andb_prop in X. destruct X as [X _].
      assert (Sp : spared (New First f m) = true) by (destruct m; [contradiction| |]; exact X). pose proof (spare i _ NT Sp). congruence. }
  cbv zeta in P. unfold s', do_new. destruct m; [exact P| |]; (destruct (fail i 0) eqn:F; [apply Q; [discriminate|reflexivity]|exact P]).
Qed.

Lemma step_wf fr i seen done c r s s' : wf fr seen done (c :: r) s -> guarded (c :: r) s -> checks seen done (c :: r) = true ->
  nth_error (init k) i = Some c -> step n fail late i c s = Go s' ->
  exists seen' done', wf fr seen' done' r s' /\ guarded r s' /\ checks seen' done' r = true.
Proof.
  intros W G C NI E. pose proof (wf_tail _ _ _ _ _ _ W) as W'. destruct c as [p|w f m|f m| |f]; cbn [step] in E; cbn [checks] in C.
  - injection E as <-. exists (p :: seen), done. destruct (ident_wf _ _ _ _ _ _ W' G) as [A B]. auto.
  - apply andb_prop in C. destruct C as [C C4]. apply andb_prop in C. destruct C as [C C3]. apply andb_prop in C. destruct C as [C1 C2].
    apply whose_eqb_eq in C2. assert (N1 : ~ In f (news r)) by (intros X; apply memf_in in X; rewrite X in C1; discriminate).
    assert (N0 : forall d, d < n -> o_ptr (s_obj s d) f = None) by (intros d D; apply (w_todo _ _ _ _ _ W); [left; reflexivity|exact D]).
    destruct w.
    + destruct (s_run s 0) eqn:R.
      * assert (Z : forall p f', In (ZeroSet p f', f) (dels k) -> In f' (f :: done) \/ soon r f' = true).
        { intros p f' A. rewrite forallb_forall in C3. specialize (C3 _ A). cbn [fst snd] in C3. destruct (field_dec f f); [|contradiction].
          cbn [negb] in C3. rewrite orb_false_l in C3. apply orb_prop in C3. destruct C3 as [C3|C3]; [left; apply memf_in; exact C3|auto]. }
        exists seen, (f :: done). destruct (first_new_wf fr seen done r s i f m W' G R C2 N1 N0 Z NI) as [A B].
        assert (X : s' = do_new fail i f m 0 s) by (destruct m; [|destruct (fail i 0) eqn:F|destruct (fail i 0) eqn:F]; try discriminate E; injection E as <-; reflexivity).
        subst s'. auto.
      * injection E as <-. exists seen, (f :: done). split; [|split; [|exact C4]].
        -- destruct W' as [L T S D]. split; [exact L|exact T|exact S|]. intros R'. congruence.
        -- intros p f' g A B. destruct (G p f' g A B) as [X|[X _]]; [auto|congruence].
    + injection E as <-. exists seen, done. assert (St' : strict s) by (apply (guarded_strict _ _ _ G); reflexivity).
      destruct (each_new_wf fr seen done r s i f m W' St' C2 N1 N0) as [A B]. split; [exact A|]. split; [apply strict_guarded; exact B|exact C4].
  - apply andb_prop in C. destruct C as [C C3]. apply andb_prop in C. destruct C as [C1 C2].
    assert (NE : whose f <> Some Each) by (intros X; rewrite X in C1; discriminate).
    assert (PS : whose f = Some First -> In (part_of f) seen) by (intros X; rewrite X in C2; apply memp_in; exact C2).
    assert (St' : strict s) by (apply (guarded_strict _ _ _ G); reflexivity). exists seen, done.
    destruct (forallb (s_run s) (seq 0 n)); [|destruct (existsb (s_run s) (seq 0 n)); [discriminate|]]; injection E as <-.
    + destruct (share_wf fr seen done r s i f m W' St' NE PS) as [A B]. split; [exact A|]. split; [apply strict_guarded; exact B|exact C3].
    + split; [exact W'|]. split; [apply strict_guarded; exact St'|exact C3].
  - injection E as <-. assert (St' : strict s) by (apply (guarded_strict _ _ _ G); reflexivity). exists seen, done.
    assert (A : let s' := each n (fun d s => if fail i d then quit s d else s) s in wf fr seen done r s' /\ strict s').
    { apply (each_ind (fun _ t => wf fr seen done r t /\ strict t)); [auto| |auto]. intros j t J [A B] R. destruct (fail i j); [|auto]. split; [apply wf_quit; exact A|exact B]. }
    destruct A as [A B]. split; [exact A|]. split; [apply strict_guarded; exact B|exact C].
  - apply andb_prop in C. destruct C as [C1 C2]. apply whose_eqb_eq in C1. injection E as <-. assert (St' : strict s) by (apply (guarded_strict _ _ _ G); reflexivity).
    exists seen, done.
    assert (A : let s' := each n (do_drop f) s in wf fr seen done r s' /\ strict s').
    { apply (each_ind (fun _ t => wf fr seen done r t /\ strict t)); [auto| |auto]. intros j t J [A B] R. split; [apply wf_drop; assumption|].
      intros p f' g X. destruct (zeroset_first p f' g X) as [F1 F2]. unfold do_drop. cbn [put s_obj]. rewrite !ptr_set.
      destruct (0 =? j); [|exact (B p f' g X)]. destruct (field_dec g f) as [->|]; [congruence|]. destruct (field_dec f' f) as [->|]; [congruence|exact (B p f' g X)]. }
    destruct A as [A B]. split; [exact A|]. split; [apply strict_guarded; exact B|exact C2].
Qed.
Lemma steps_wf fr pre cs seen done s s' : init k = pre ++ cs -> wf fr seen done cs s -> guarded cs s -> checks seen done cs = true ->
  steps n fail late (List.length pre) cs s = Go s' -> loc fr (s_heap s') (s_obj s') /\ strict s'.
Proof.
  revert pre seen done s. induction cs as [|c r IH]; intros pre seen done s I W G C E; cbn [steps] in E.
  - injection E as <-. split; [exact (w_loc _ _ _ _ _ W)|]. intros p f' f A B. destruct (G p f' f A B) as [X|[_ X]]; [exact X|discriminate].
  - destruct (step n fail late (List.length pre) c s) as [s1| |] eqn:S1; try discriminate.
    assert (NI : nth_error (init k) (List.length pre) = Some c) by (rewrite I, nth_error_app2, Nat.sub_diag by lia; reflexivity).
    destruct (step_wf fr _ seen done c r s s1 W G C NI S1) as (seen' & done' & W1 & G1 & C1).
    apply (IH (pre ++ [c]) seen' done' s1); [rewrite <- app_assoc; exact I|exact W1|exact G1|exact C1|].
    rewrite app_length. cbn. rewrite Nat.add_1_r. exact E.
Qed.
End K.

(** ** All levels of all domains *)
Lemma nodup_flat_map {A B} (f : A -> list B) l : NoDup l -> (forall a, In a l -> NoDup (f a)) ->
  (forall a b x, In a l -> In b l -> In x (f a) -> In x (f b) -> a = b) -> NoDup (flat_map f l).
Proof.
  intros N F D. induction l as [|a l IH]; cbn; [constructor|]. inversion N as [|? ? Na Nl]; subst.
  assert (APP : forall (u v : list B), NoDup u -> NoDup v -> (forall x, In x u -> In x v -> False) -> NoDup (u ++ v)).
  { intros u v Nu Nv Dj. induction u as [|y u IHu]; cbn; [exact Nv|]. inversion Nu; subst. constructor.
    - intros X. apply in_app_or in X. destruct X as [X|X]; [contradiction|]. exact (Dj y (or_introl eq_refl) X).
    - apply IHu; [assumption|]. intros x X Y. exact (Dj x (or_intror X) Y). }
  apply APP.
  - apply F. left. reflexivity.
  - apply IH; [exact Nl|intros b X; apply F; right; exact X|]. intros b c x X Y. apply D; right; assumption.
  - intros x X Y. apply in_flat_map in Y. destruct Y as (b & Y & Z). assert (a = b) by (apply (D a b x); [left; reflexivity|right; exact Y|exact X|exact Z]). subst b. contradiction.
Qed.

Section Global.
Variables (n : nat) (k : kind).
Hypothesis n_pos : 0 < n.
Definition kind_ok : bool := checks k [PLevel] [FComm] (init k) && dels_ok k && negb (memf FComm (news (init k)))
  && forallb (fun e => match fst e with ZeroSet _ _ => negb (if field_dec FComm (snd e) then true else false) | _ => true end) (dels k).
Hypothesis ok : kind_ok = true.
Lemma ok_checks : checks k [PLevel] [FComm] (init k) = true.
Proof. unfold kind_ok in ok. apply andb_prop in ok; destruct ok as [A _]. apply andb_prop in A; destruct A as [A _]. apply andb_prop in A; destruct A as [A _]. exact A. Qed.
Lemma ok_dels : dels_ok k = true.
Proof. unfold kind_ok in ok. apply andb_prop in ok; destruct ok as [A _]. apply andb_prop in A; destruct A as [A _]. apply andb_prop in A; destruct A as [_ A]. exact A. Qed.
Lemma ok_comm : ~ In FComm (news (init k)).
Proof. unfold kind_ok in ok. apply andb_prop in ok; destruct ok as [A _]. apply andb_prop in A; destruct A as [_ A]. intros X. apply memf_in in X. rewrite X in A. discriminate. Qed.
Lemma ok_zero p f' : ~ In (ZeroSet p f', FComm) (dels k).
Proof.
  unfold kind_ok in ok. apply andb_prop in ok; destruct ok as [_ A]. intros X. rewrite forallb_forall in A. specialize (A _ X). cbn [fst snd] in A.
  destruct (field_dec FComm FComm); [discriminate|contradiction].
Qed.

Definition strict_obj (o : nat -> obj) : Prop := forall p f' f, In (ZeroSet p f', f) (dels k) -> o_ptr (o 0) f <> None -> o_ptr (o 0) f' <> None.

Lemma nodupf_spec l : nodupf l = true -> NoDup l.
Proof.
  induction l as [|f l IH]; cbn; [constructor|]. intros A. apply andb_prop in A. destruct A as [A B]. constructor; [|exact (IH B)].
  intros X. apply memf_in in X. rewrite X in A. discriminate.
Qed.
Lemma dels_nodup : NoDup (map snd (dels k)).
Proof. pose proof ok_dels as A. unfold dels_ok in A. apply andb_prop in A. destruct A as [A _]. apply andb_prop in A. destruct A as [_ A]. exact (nodupf_spec _ A). Qed.
Lemma find_part ds g f : NoDup (map snd ds) -> In (g, f) ds -> find (fun e : guard * field => if field_dec f (snd e) then true else false) ds = Some (g, f).
Proof.
  induction ds as [|[g' f'] ds IH]; cbn [map snd find In]; [tauto|]. intros N A. inversion N as [|? ? Na Nl]; subst. destruct (field_dec f f') as [->|F].
  - destruct A as [A|A]; [rewrite A; reflexivity|]. exfalso. apply Na. change f' with (snd (g, f')). apply in_map. exact A.
  - destruct A as [A|A]; [injection A as _ A; congruence|exact (IH Nl A)].
Qed.
Lemma part_of_in g f : In (g, f) (dels k) -> part_of k f = guard_part g.
Proof. intros A. unfold part_of. rewrite (find_part _ _ _ dels_nodup A). reflexivity. Qed.
Lemma whose_in f w : whose k f = Some w -> exists g, In (g, f) (dels k).
Proof.
  intros W. assert (A : In f (FComm :: news (init k))).
  { unfold whose in W. destruct (field_dec f FComm) as [->|F]; [left; reflexivity|right].
    destruct (find _ (init k)) as [c|] eqn:E; [|discriminate]. apply find_some in E. destruct E as [E1 E2]. destruct c as [|w' g m| | |]; try discriminate.
    destruct (field_dec f g) as [->|]; [|discriminate]. unfold news. apply in_flat_map. exists (New w' g m). split; [exact E1|left; reflexivity]. }
  pose proof ok_dels as B. unfold dels_ok in B. apply andb_prop in B. destruct B as [_ B]. rewrite forallb_forall in B. specialize (B f A).
  apply memf_in in B. apply in_map_iff in B. destruct B as ([g f'] & E & B). cbn in E. subst f'. exists g. exact B.
Qed.
Lemma released o d g f x : shape n k o -> d < n -> In (g, f) (dels k) -> passes (o d) g = true -> o_ptr (o d) f = Some x -> owns k d f.
Proof.
  intros [S1 S2 S3] D A P E. pose proof (del_ok_in k ok_dels _ A) as B. unfold del_ok in B. cbn [fst snd] in B.
  destruct (whose k f) as [[]|] eqn:W; [|left; exact W|discriminate]. right. split; [exact W|]. destruct (Nat.eq_dec d 0) as [|Dz]; [assumption|exfalso].
  pose proof (S2 d f x D Dz E W) as Q. rewrite (part_of_in g f A) in Q.
  destruct g as [|p|p f']; [discriminate| |]; cbn [guard_part passes] in *.
  - apply Nat.eqb_eq in P. congruence.
  - apply andb_prop in P. destruct P as [P _]. apply Nat.eqb_eq in P. congruence.
Qed.
Lemma release_in o d x : shape n k o -> strict_obj o -> d < n ->
  (In x (release (dels k) (o d)) <-> exists f, owns k d f /\ o_ptr (o d) f = Some x).
Proof.
  intros Sh St D. unfold release. rewrite in_flat_map. split.
  - intros ([g f] & A & B). cbn [fst snd] in B. destruct (passes (o d) g) eqn:P; [|destruct B]. destruct (o_ptr (o d) f) as [y|] eqn:E; [|destruct B].
    destruct B as [->|[]]. exists f. split; [exact (released o d g f x Sh D A P E)|exact E].
  - intros (f & O & E). assert (W : exists w, whose k f = Some w) by (destruct O as [O|[O _]]; eauto). destruct W as [w W]. destruct (whose_in f w W) as [g A].
    exists (g, f). split; [exact A|]. cbn [fst snd]. rewrite E. pose proof (del_ok_in k ok_dels _ A) as B. unfold del_ok in B. cbn [fst snd] in B.
    replace (passes (o d) g) with true; [left; reflexivity|]. symmetry. destruct O as [O|[O ->]]; rewrite O in B.
    + destruct g; try discriminate. reflexivity.
    + destruct Sh as [_ _ S3]. destruct g as [|p|p f']; [reflexivity| |]; cbn [passes]; rewrite S3; cbn [Nat.eqb andb]; [reflexivity|].
      destruct (o_ptr (o 0) f') eqn:E'; [reflexivity|]. exfalso. apply (St p f' f A); [congruence|exact E'].
Qed.
Lemma release_nodup o d : shape n k o -> d < n ->
  (forall f f' x, owns k d f -> owns k d f' -> o_ptr (o d) f = Some x -> o_ptr (o d) f' = Some x -> f = f') -> NoDup (release (dels k) (o d)).
Proof.
  intros Sh D I. unfold release. pose proof dels_nodup as N. apply nodup_flat_map.
  - apply (NoDup_map_inv snd). exact N.
  - intros e _. destruct (passes (o d) (fst e)); [|constructor]. destruct (o_ptr (o d) (snd e)); repeat constructor. auto.
  - intros [g f] [g' f'] x A A'. cbn [fst snd]. destruct (passes (o d) g) eqn:P; [|intros []]. destruct (o_ptr (o d) f) as [y|] eqn:E; [|intros []]. intros [->|[]].
    destruct (passes (o d) g') eqn:P'; [|intros []]. destruct (o_ptr (o d) f') as [y'|] eqn:E'; [|intros []]. intros [->|[]].
    assert (f = f') by (apply (I f f' x); [exact (released o d g f x Sh D A P E)|exact (released o d g' f' x Sh D A' P' E')|exact E|exact E']). subst f'.
    pose proof (find_part _ _ _ N A) as X. pose proof (find_part _ _ _ N A') as X'. congruence.
Qed.

Record glob (fr : nat -> Prop) (h : heap) (lv : nat -> nat -> obj) (c : nat) : Prop := {
  g_proper : proper (h_log h);
  g_bound : bound h;
  g_live : forall x, live x (h_log h) <-> fr x \/ exists l d f, l < c /\ d < n /\ owns k d f /\ o_ptr (lv l d) f = Some x;
  g_apart : forall x l d f, fr x -> l < c -> d < n -> owns k d f -> o_ptr (lv l d) f = Some x -> False;
  g_inj : forall l d f l' d' f' x, l < c -> l' < c -> d < n -> d' < n -> owns k d f -> owns k d' f' ->
    o_ptr (lv l d) f = Some x -> o_ptr (lv l' d') f' = Some x -> l = l' /\ d = d' /\ f = f';
  g_shape : forall l, l < c -> shape n k (lv l) /\ strict_obj (lv l) }.

Lemma glob_loc fr h lv c l : glob fr h lv c -> l < c ->
  loc n k (fun x => fr x \/ exists l' d f, l' < c /\ l' <> l /\ d < n /\ owns k d f /\ o_ptr (lv l' d) f = Some x) h (lv l).
Proof.
  intros [P B L A I S] Lc. split; [exact P|exact B| | | |exact (proj1 (S l Lc))].
  - intros x. rewrite L. split.
    + intros [F|(l' & d & f & L' & D & O & E)]; [auto|]. destruct (Nat.eq_dec l' l) as [->|NE]; [right; exists d, f; auto|left; right; exists l', d, f; auto 6].
    + intros [[F|(l' & d & f & L' & NE & D & O & E)]|(d & f & D & O & E)]; [auto|right; exists l', d, f; auto|right; exists l, d, f; auto].
  - intros x d f [F|(l' & d' & f' & L' & NE & D' & O' & E')] D O E; [exact (A x l d f F Lc D O E)|].
    destruct (I l d f l' d' f' x Lc L' D D' O O' E E') as [X _]. congruence.
  - intros d f d' f' x D D' O O' E E'. exact (proj2 (I l d f l d' f' x Lc Lc D D' O O' E E')).
Qed.
Lemma loc_glob fr h lv c l h' o' : glob fr h lv c -> l < c ->
  loc n k (fun x => fr x \/ exists l' d f, l' < c /\ l' <> l /\ d < n /\ owns k d f /\ o_ptr (lv l' d) f = Some x) h' o' -> strict_obj o' ->
  glob fr h' (upd lv l o') c.
Proof.
  intros G Lc [P B L A I S] St.
  assert (U : forall l' d f x, o_ptr (upd lv l o' l' d) f = Some x -> (l' = l /\ o_ptr (o' d) f = Some x) \/ (l' <> l /\ o_ptr (lv l' d) f = Some x)).
  { intros l' d f x E. unfold upd in E. destruct (Nat.eqb_spec l' l); auto. }
  split; [exact P|exact B| | | |].
  - intros x. rewrite L. split.
    + intros [[F|(l' & d & f & L' & NE & D & O & E)]|(d & f & D & O & E)]; [auto| |]; right.
      * exists l', d, f. split; [exact L'|]. split; [exact D|]. split; [exact O|]. unfold upd. destruct (Nat.eqb_spec l' l); [contradiction|exact E].
      * exists l, d, f. split; [exact Lc|]. split; [exact D|]. split; [exact O|]. unfold upd. rewrite Nat.eqb_refl. exact E.
    + intros [F|(l' & d & f & L' & D & O & E)]; [auto|]. apply U in E. destruct E as [[-> E]|[NE E]]; [right; exists d, f; auto|left; right; exists l', d, f; auto 6].
  - intros x l' d f F L' D O E. apply U in E. destruct E as [[-> E]|[NE E]]; [exact (A x d f (or_introl F) D O E)|exact (g_apart _ _ _ _ G x l' d f F L' D O E)].
  - intros l1 d1 f1 l2 d2 f2 x L1 L2 D1 D2 O1 O2 E1 E2. apply U in E1. apply U in E2. destruct E1 as [[-> E1]|[N1 E1]], E2 as [[-> E2]|[N2 E2]].
    + split; [reflexivity|]. exact (I d1 f1 d2 f2 x D1 D2 O1 O2 E1 E2).
    + exfalso. apply (A x d1 f1); [right; exists l2, d2, f2; auto 6|exact D1|exact O1|exact E1].
    + exfalso. apply (A x d2 f2); [right; exists l1, d1, f1; auto 6|exact D2|exact O2|exact E2].
    + exact (g_inj _ _ _ _ G l1 d1 f1 l2 d2 f2 x L1 L2 D1 D2 O1 O2 E1 E2).
  - intros l' L'. unfold upd. destruct (Nat.eqb_spec l' l); [auto|exact (g_shape _ _ _ _ G l' L')].
Qed.

(** New levels. *)
Definition virgin (o : nat -> obj) : Prop := (exists x, forall d f, o_ptr (o d) f = if field_dec f FComm then Some x else None) /\
  forall d p, o_dom (o d) p = if part_dec p PLevel then d else 0.
Lemma construct_virgin h : virgin (snd (construct h)).
Proof. unfold construct. cbn. split; [eexists; intros; reflexivity|reflexivity]. Qed.
Lemma comm_first : whose k FComm = Some First.
Proof. unfold whose. destruct (field_dec FComm FComm); [reflexivity|contradiction]. Qed.
Lemma comm_part : part_of k FComm = PLevel.
Proof.
  destruct (whose_in FComm First comm_first) as [g A]. rewrite (part_of_in g _ A).
  assert (B : forallb (fun e => match guard_part (fst e) with PLevel => true | _ => match snd e with FComm => false | _ => true end end) (dels k) = true)
    by (clear; destruct k as [|[] []| |[] []|]; reflexivity).
  rewrite forallb_forall in B. specialize (B _ A). cbn [fst snd] in B. destruct (guard_part g); congruence.
Qed.
Lemma virgin_shape o : virgin o -> shape n k o /\ strict_obj o.
Proof.
  intros [[x V] D]. split; [split|].
  - intros d f y Dn E. rewrite V in E. destruct (field_dec f FComm) as [->|]; [|discriminate]. right. split; [exact comm_first|]. rewrite V. destruct (field_dec FComm FComm); [exact E|contradiction].
  - intros d f y Dn Dz E W. rewrite V in E. destruct (field_dec f FComm) as [->|]; [|discriminate]. rewrite comm_part, D. reflexivity.
  - intros p. rewrite D. destruct (part_dec p PLevel); reflexivity.
  - intros p f' f A B. rewrite V in B. destruct (field_dec f FComm) as [->|]; [|contradiction]. exfalso. exact (ok_zero p f' A).
Qed.
Lemma glob_construct fr h lv c : glob fr h lv c -> glob fr (fst (construct h)) (upd lv c (snd (construct h))) (S c).
Proof.
  intros [P B L A I S]. set (o := snd (construct h)). pose proof (construct_virgin h) as V. fold o in V.
  assert (X : forall d f, o_ptr (o d) f = if field_dec f FComm then Some (h_next h) else None) by reflexivity.
  assert (U : forall l d f x, l < Datatypes.S c -> owns k d f -> o_ptr (upd lv c o l d) f = Some x -> (l = c /\ f = FComm /\ d = 0 /\ x = h_next h) \/ (l < c /\ o_ptr (lv l d) f = Some x)).
  { intros l d f x Lc O E. unfold upd in E. destruct (Nat.eqb_spec l c) as [->|]; [|right; split; [lia|exact E]]. rewrite X in E. destruct (field_dec f FComm) as [->|]; [|discriminate].
    injection E as <-. left. destruct O as [O|[_ O]]; [rewrite comm_first in O; discriminate|auto]. }
  assert (OLD : forall x, live x (h_log h) -> x < h_next h) by (intros x [Q _]; exact (B x Q)).
  split.
  - apply alloc_proper; assumption.
  - apply alloc_bound. exact B.
  - intros x. unfold construct. cbn [alloc fst h_log]. rewrite alloc_log by assumption. rewrite L. split.
    + intros [->|[F|(l & d & f & Lc & D & O & E)]]; [|auto|]; right.
      * exists c, 0, FComm. split; [lia|]. split; [exact n_pos|]. split; [right; split; [exact comm_first|reflexivity]|]. unfold upd. rewrite Nat.eqb_refl. rewrite X. reflexivity.
      * exists l, d, f. split; [lia|]. split; [exact D|]. split; [exact O|]. unfold upd. destruct (Nat.eqb_spec l c); [lia|exact E].
    + intros [F|(l & d & f & Lc & D & O & E)]; [auto|]. apply U in E; [|exact Lc|exact O]. destruct E as [(-> & -> & -> & ->)|[L' E]]; [auto|]. right. right. exists l, d, f. auto.
  - intros x l d f F Lc D O E. apply U in E; [|exact Lc|exact O]. destruct E as [(-> & -> & -> & ->)|[L' E]]; [|exact (A x l d f F L' D O E)].
    assert (Q : live (h_next h) (h_log h)) by (apply L; auto). apply OLD in Q. lia.
  - intros l1 d1 f1 l2 d2 f2 x L1 L2 D1 D2 O1 O2 E1 E2. apply U in E1; [|exact L1|exact O1]. apply U in E2; [|exact L2|exact O2].
    assert (LT : forall l d f, l < c -> d < n -> owns k d f -> o_ptr (lv l d) f = Some x -> x < h_next h) by (intros l d f Q1 Q2 Q3 Q4; apply OLD; apply L; right; exists l, d, f; auto).
    destruct E1 as [(-> & -> & -> & ->)|[L1' E1]], E2 as [(-> & -> & -> & Q)|[L2' E2]]; auto.
    + pose proof (LT l2 d2 f2 L2' D2 O2 E2). lia.
    + subst x. pose proof (LT l1 d1 f1 L1' D1 O1 E1). lia.
    + exact (I l1 d1 f1 l2 d2 f2 x L1' L2' D1 D2 O1 O2 E1 E2).
  - intros l Lc. unfold upd. destruct (Nat.eqb_spec l c); [exact (virgin_shape o V)|apply S; lia].
Qed.
Lemma glob_fresh fr j : forall h lv c, glob fr h lv c ->
  let r := fresh c j h lv in glob fr (fst r) (snd r) (c + j) /\ (forall l, l < c -> snd r l = lv l) /\ (forall l, c <= l < c + j -> virgin (snd r l)).
Proof.
  induction j as [|j IH]; intros h lv c G; cbn [fresh].
  - cbn. rewrite Nat.add_0_r. split; [exact G|]. split; [reflexivity|]. intros l Lc. lia.
  - destruct (IH h lv c G) as (A & B & C). destruct (fresh c j h lv) as [h1 lv1]. cbn [fst snd] in *. destruct (construct h1) as [h2 o] eqn:E. cbn [fst snd].
    pose proof (glob_construct fr h1 lv1 (c + j) A) as G2. pose proof (construct_virgin h1) as V. rewrite E in *. cbn [fst snd] in *.
    replace (c + S j) with (S (c + j)) by lia. split; [exact G2|]. split; intros l Lc; unfold upd; destruct (Nat.eqb_spec l (c + j)) as [->|]; try lia.
    + exact (B l Lc).
    + exact V.
    + apply C. lia.
Qed.
Lemma virgin_release o d x : virgin o -> d < n -> o_ptr (o 0) FComm = Some x -> release (dels k) (o d) = if d =? 0 then [x] else [].
Proof.
  intros V D E. destruct (virgin_shape o V) as [Sh St]. pose proof V as [[y Vp] _].
  assert (y = x) by (rewrite Vp in E; destruct (field_dec FComm FComm); [congruence|contradiction]). subst y.
  assert (IN : forall z, In z (release (dels k) (o d)) <-> d = 0 /\ z = x).
  { intros z. rewrite (release_in o d z Sh St D). split.
    - intros (f & O & E'). rewrite Vp in E'. destruct (field_dec f FComm) as [->|]; [|discriminate]. injection E' as <-. destruct O as [O|[_ O]]; [rewrite comm_first in O; discriminate|auto].
    - intros [-> ->]. exists FComm. split; [right; split; [exact comm_first|reflexivity]|exact E]. }
  assert (N : NoDup (release (dels k) (o d))).
  { apply release_nodup; [exact Sh|exact D|]. intros f f' z _ _ E1 E2. rewrite Vp in E1, E2. destruct (field_dec f FComm), (field_dec f' FComm); congruence. }
  destruct (Nat.eqb_spec d 0) as [->|Dz].
  - destruct (release (dels k) (o 0)) as [|a r]; [exfalso; apply (proj2 (IN x)); auto|]. assert (a = x) by (apply IN; left; reflexivity). subst a.
    destruct r as [|b r]; [reflexivity|]. assert (b = x) by (apply IN; right; left; reflexivity). subst b. inversion N as [|? ? Q _]. exfalso. apply Q. left. reflexivity.
  - destruct (release (dels k) (o d)) as [|a r]; [reflexivity|]. exfalso. apply Dz. apply (proj1 (IN a)). left. reflexivity.
Qed.
Lemma virgin_all o x : virgin o -> o_ptr (o 0) FComm = Some x -> flat_map (fun d => release (dels k) (o d)) (seq 0 n) = [x].
Proof.
  intros V E. destruct n as [|n'] eqn:EN; [lia|]. cbn [seq flat_map]. rewrite (virgin_release o 0 x V) by (try lia; exact E). cbn [Nat.eqb app].
  f_equal. assert (A : forall l, (forall d, In d l -> d <> 0 /\ d < n) -> flat_map (fun d => release (dels k) (o d)) l = []).
  { induction l as [|d l IH]; intros Q; cbn; [reflexivity|]. destruct (Q d (or_introl eq_refl)) as [Q1 Q2]. rewrite EN in Q2.
    rewrite (virgin_release o d x V) by (try lia; exact E). destruct (Nat.eqb_spec d 0); [contradiction|]. cbn. apply IH. intros d' X. apply Q. right. exact X. }
  apply A. intros d X. apply in_seq in X. rewrite EN. lia.
Qed.

(** All that is left is released by closing. *)
Lemma close_ok h lv c : glob (fun _ => False) h lv c -> let log := h_log (free_list h (all_released n k lv c)) in proper log /\ all_freed log.
Proof.
  intros G log. assert (IN : forall x, In x (all_released n k lv c) <-> live x (h_log h)).
  { intros x. rewrite (g_live _ _ _ _ G). unfold all_released. rewrite in_flat_map. split.
    - intros (d & D & X). apply in_flat_map in X. destruct X as (l & L & X). apply in_seq in D. apply in_seq in L.
      destruct (g_shape _ _ _ _ G l) as [Sh St]; [lia|]. apply (release_in _ _ _ Sh St) in X; [|lia]. destruct X as (f & O & E). right. exists l, d, f. repeat split; auto; lia.
    - intros [[]|(l & d & f & L & D & O & E)]. exists d. split; [apply in_seq; lia|]. apply in_flat_map. exists l. split; [apply in_seq; lia|].
      destruct (g_shape _ _ _ _ G l L) as [Sh St]. apply (release_in _ _ _ Sh St D). exists f. auto. }
  assert (N : NoDup (all_released n k lv c)).
  { assert (OW : forall l d x, In l (seq 0 c) -> In d (seq 0 n) -> In x (release (dels k) (lv l d)) -> l < c /\ d < n /\ exists f, owns k d f /\ o_ptr (lv l d) f = Some x).
    { intros l d x L D X. apply in_seq in L. apply in_seq in D. destruct (g_shape _ _ _ _ G l) as [Sh St]; [lia|]. apply (release_in _ _ _ Sh St) in X; [|lia]. split; [lia|]. split; [lia|exact X]. }
    unfold all_released. apply nodup_flat_map; [apply seq_NoDup| |].
    - intros d D. apply nodup_flat_map; [apply seq_NoDup| |].
      + intros l L. apply in_seq in L. apply in_seq in D. destruct (g_shape _ _ _ _ G l) as [Sh St]; [lia|]. apply release_nodup; [exact Sh|lia|].
        intros f f' x O O' E E'. apply (g_inj _ _ _ _ G l d f l d f' x); auto; lia.
      + intros l l' x L L' X X'. apply OW in X; [|exact L|exact D]. apply OW in X'; [|exact L'|exact D]. destruct X as (Q1 & Q2 & f & O & E), X' as (Q1' & Q2' & f' & O' & E').
        exact (proj1 (g_inj _ _ _ _ G l d f l' d f' x Q1 Q1' Q2 Q2' O O' E E')).
    - intros d d' x D D' X X'. apply in_flat_map in X. apply in_flat_map in X'. destruct X as (l & L & X), X' as (l' & L' & X').
      apply OW in X; [|exact L|exact D]. apply OW in X'; [|exact L'|exact D']. destruct X as (Q1 & Q2 & f & O & E), X' as (Q1' & Q2' & f' & O' & E').
      exact (proj1 (proj2 (g_inj _ _ _ _ G l d f l' d' f' x Q1 Q1' Q2 Q2' O O' E E'))). }
  split.
  - apply free_list_proper; [exact (g_proper _ _ _ _ G)|exact N|]. intros x X. apply IN. exact X.
  - intros x A. unfold log in *. rewrite free_list_alloc in A. rewrite free_list_free.
    destruct (in_dec Nat.eq_dec x (all_released n k lv c)) as [|NI]; [auto|]. right.
    destruct (in_dec (fun a b : ev => ltac:(decide equality; apply Nat.eq_dec)) (Free x) (h_log h)) as [|NF]; [assumption|]. exfalso. apply NI. apply IN. split; assumption.
Qed.

(** ** Histories *)
Variable grow : nat -> nat -> nat.
Definition opened (s : cst) (ls : list nat) : Prop := glob (fun _ => False) (c_heap s) (c_lv s) (c_count s) /\ forall l, l < c_count s -> ~ In l ls -> virgin (c_lv s l).
Lemma resize_first m : 0 < m -> let s := resize n k grow cst0 m in opened s [] /\ c_count s = m.
Proof.
  intros M. unfold resize. cbn [cst0 c_count c_cap c_heap c_lv]. destruct (Nat.leb_spec m 0); [lia|]. rewrite Nat.sub_0_r. destruct (construct (Heap 0 [])) as [h0 tmp] eqn:E0.
  set (lv0 := fun _ _ : nat => Obj (fun _ => None) (fun _ => 0)).
  assert (G0 : glob (fun x => x = 0) h0 lv0 0).
  { unfold construct in E0. cbn in E0. injection E0 as <- _. split.
    - repeat constructor. cbn. tauto.
    - intros x [X|[]]. injection X as <-. cbn. lia.
    - intros x. unfold live. cbn. split; [intros [[X|[]] _]; injection X as <-; auto|]. intros [->|(l & d & f & L & _)]; [split; [auto|intros [X|[]]; discriminate]|lia].
    - intros; lia.
    - intros; lia.
    - intros; lia. }
  destruct (glob_fresh _ m h0 lv0 0 G0) as (G1 & _ & V). destruct (fresh 0 m h0 lv0) as [h1 lv1]. cbn [fst snd Nat.add] in *. destruct (Nat.leb_spec m 0); [lia|]. cbn [copies all_released].
  assert (R : flat_map (fun d => release (dels k) (tmp d)) (seq 0 n) = [0]).
  { apply virgin_all; unfold construct in E0; cbn in E0; injection E0 as _ <-; [split; [eexists; intros; reflexivity|reflexivity]|reflexivity]. }
  rewrite R. cbn [c_heap c_lv c_count]. split; [|reflexivity]. unfold opened. cbn [c_heap c_lv c_count]. split; [|intros l L _; apply V; lia].
  assert (NIL : all_released n k lv0 0 = []) by (unfold all_released; cbn [seq flat_map]; clear; induction (seq 0 n); cbn; auto).
  change (free_list h1 (flat_map _ (seq 0 n))) with (free_list h1 (all_released n k lv0 0)). rewrite NIL. cbn [free_list].
  destruct G1 as [P B L A I S]. split.
  - apply (free_list_proper h1 [0]); [exact P|repeat constructor; auto|]. intros x [<-|[]]. apply L. auto.
  - apply (free_bound h1 [0]). exact B.
  - intros x. change (live x (h_log (free_list h1 [0])) <-> False \/ (exists l d f, l < m /\ d < n /\ owns k d f /\ o_ptr (lv1 l d) f = Some x)).
    rewrite free_list_live, L. cbn. split.
    + intros [[->|Q] N]; [exfalso; auto|auto].
    + intros [[]|(l & d & f & Lm & D & O & E)]. split; [right; exists l, d, f; auto|]. intros [<-|[]]. exact (A 0 l d f eq_refl Lm D O E).
  - intros x l d f [].
  - exact I.
  - exact S.
Qed.
Lemma open_steps s q ls s' : opened s ls -> q_level q < c_count s -> ~ In (q_level q) ls -> lucky k q -> open n k grow s q = Go s' ->
  opened s' (q_level q :: ls) /\ c_count s' = c_count s.
Proof.
  intros [G V] L NI LU E. unfold open in E. unfold resize in E. destruct (Nat.leb_spec (q_level q + 1) (c_count s)); [|lia].
  destruct (steps n (q_fail q) (q_late q) 0 (init k) _) as [r| |] eqn:S; try discriminate. injection E as <-. unfold opened. cbn [c_count c_heap c_lv]. split; [|reflexivity].
  split; [|intros l Lc NIl; unfold upd; destruct (Nat.eqb_spec l (q_level q)) as [->|]; [exfalso; apply NIl; left; reflexivity|apply V; [exact Lc|]; intros X; apply NIl; right; exact X]].
  destruct (V (q_level q) L NI) as [[x Vp] Vd].
  assert (SP : forall i c, nth_error (init k) i = Some c -> spared c = true -> q_fail q i 0 = false).
  { intros i c NT Sp. apply LU. destruct c as [|[] f m| | |]; try discriminate. destruct f; try discriminate; exists m; auto. }
  pose proof (glob_loc _ _ _ _ _ G L) as LO.
  set (fr := fun x => (fun _ : nat => False) x \/ exists l' d f, l' < c_count s /\ l' <> q_level q /\ d < n /\ owns k d f /\ o_ptr (c_lv s l' d) f = Some x) in *.
  assert (W : wf n k fr [PLevel] [FComm] (init k) (St (c_heap s) (c_lv s (q_level q)) (fun _ => true))).
  { split; cbn [s_heap s_obj s_run].
    - exact LO.
    - intros f d A D. rewrite Vp. destruct (field_dec f FComm) as [->|]; [exfalso; exact (ok_comm A)|reflexivity].
    - intros d p D _ [<-|[]]. rewrite Vd. reflexivity.
    - intros _ f [<-|[]]. rewrite Vp. split; [discriminate|exact comm_first]. }
  assert (GU : guarded k (init k) (St (c_heap s) (c_lv s (q_level q)) (fun _ => true))).
  { intros p f' f A B. cbn [s_obj] in B. rewrite Vp in B. destruct (field_dec f FComm) as [->|]; [exfalso; exact (ok_zero p f' A)|contradiction]. }
  destruct (steps_wf n k n_pos (q_fail q) (q_late q) SP ok_dels fr [] (init k) [PLevel] [FComm] _ r eq_refl W GU ok_checks S) as [LR SR].
  exact (loc_glob _ _ _ _ _ _ _ G L LR SR).
Qed.
Lemma opens_ok h : forall s ls s', opened s ls -> (forall q, In q h -> q_level q < c_count s /\ lucky k q) -> NoDup (map q_level h) ->
  (forall q, In q h -> ~ In (q_level q) ls) -> opens n k grow s h = Go s' -> exists ls', opened s' ls'.
Proof.
  induction h as [|q h IH]; intros s ls s' O A N D E; cbn [opens] in E.
  - injection E as <-. exists ls. exact O.
  - destruct (open n k grow s q) as [s1| |] eqn:E1; try discriminate. destruct (A q (or_introl eq_refl)) as [L LU]. cbn in N. inversion N as [|? ? Nq Nh]; subst.
    destruct (open_steps s q ls s1 O L (D q (or_introl eq_refl)) LU E1) as [O1 C1]. apply (IH s1 (q_level q :: ls) s' O1); [|exact Nh| |exact E].
    + intros q' X. rewrite C1. apply A. right. exact X.
    + intros q' X [Q|Q]; [|exact (D q' (or_intror X) Q)]. apply Nq. rewrite Q. apply in_map. exact X.
Qed.
Lemma history h s : largest_first h -> no_reopen h -> (forall q, In q h -> lucky k q) -> opens n k grow cst0 h = Go s -> glob (fun _ => False) (c_heap s) (c_lv s) (c_count s).
Proof.
  intros LF NR LU E. destruct h as [|q h].
  - cbn in E. injection E as <-. cbn. split; cbn; try (intros; lia).
    + constructor.
    + intros x [].
    + intros x. split; [intros [[] _]|]. intros [[]|(l & d & f & L & _)]. lia.
  - destruct (resize_first (q_level q + 1)) as [O C]; [lia|]. set (s0 := resize n k grow cst0 (q_level q + 1)) in *.
    assert (E' : opens n k grow s0 (q :: h) = Go s).
    { rewrite <- E. cbn [opens]. replace (open n k grow s0 q) with (open n k grow cst0 q); [reflexivity|]. unfold open. fold s0.
      replace (resize n k grow s0 (q_level q + 1)) with s0; [reflexivity|]. unfold resize. destruct (Nat.leb_spec (q_level q + 1) (c_count s0)); [reflexivity|lia]. }
    destruct (opens_ok (q :: h) s0 [] s O) as [ls' [G _]]; [|exact NR|intros q' _ []|exact E'|exact G].
    intros q' X. split; [|apply LU; exact X]. rewrite C. destruct X as [<-|X]; [lia|]. cbn in LF. specialize (LF q' X). lia.
Qed.
End Global.
Lemma kinds_ok k : kind_ok k = true.
Proof. destruct k as [|[] []| |[] []|]; vm_compute; reflexivity. Qed.
Lemma exactly_once n k grow h s : 0 < n -> largest_first h -> no_reopen h -> (forall q, In q h -> lucky k q) -> opens n k grow cst0 h = Go s ->
  proper (close n k s) /\ all_freed (close n k s).
Proof. intros N LF NR LU E. exact (close_ok n k N (kinds_ok k) _ _ _ (history n k N (kinds_ok k) grow h s LF NR LU E)). Qed.
Lemma usable n k grow h s x : 0 < n -> largest_first h -> no_reopen h -> (forall q, In q h -> lucky k q) -> opens n k grow cst0 h = Go s ->
  held n s x -> live x (h_log (c_heap s)).
Proof.
  intros N LF NR LU E (l & d & f & L & D & X). pose proof (history n k N (kinds_ok k) grow h s LF NR LU E) as G. apply (g_live _ _ _ _ _ _ G). right.
  destruct (g_shape _ _ _ _ _ _ G l L) as [Sh _]. destruct (sh_share _ _ _ Sh d f x D X) as [O|[O Y]].
  - exists l, d, f. auto.
  - exists l, 0, f. split; [exact L|]. split; [exact N|]. split; [right; auto|exact Y].
Qed.

(** ** Deciding *)
Definition ev_dec (a b : ev) : {a = b} + {a <> b}.
Proof. decide equality; apply Nat.eq_dec. Defined.
Definition leaks (log : list ev) : bool := existsb (fun e => match e with Alloc x => if in_dec ev_dec (Free x) log then false else true | _ => false end) log.
Definition twice (log : list ev) : bool := existsb (fun e => match e with Free x => 1 <? count_occ ev_dec log (Free x) | _ => false end) log.
Lemma leaks_spec log : leaks log = true -> ~ all_freed log.
Proof.
  unfold leaks. rewrite existsb_exists. intros ([x|x] & A & B) F; [|discriminate]. destruct (in_dec ev_dec (Free x) log) as [|N]; [discriminate|]. exact (N (F x A)).
Qed.
Lemma proper_once log x : proper log -> count_occ ev_dec log (Free x) <= 1.
Proof.
  intros P. induction P as [|y t P IH N|y t P IH A N]; cbn [count_occ]; [lia| |].
  - destruct (ev_dec (Alloc y) (Free x)); [discriminate|exact IH].
  - destruct (ev_dec (Free y) (Free x)) as [E|]; [|exact IH]. injection E as ->. apply (count_occ_not_In ev_dec) in N. lia.
Qed.
Lemma twice_spec log : twice log = true -> ~ proper log.
Proof.
  unfold twice. rewrite existsb_exists. intros ([x|x] & A & B) P; [discriminate|]. apply Nat.ltb_lt in B. pose proof (proper_once log x P). lia.
Qed.
Definition ends {A} (r : res A) (f : A -> bool) : bool := match r with Go a => f a | _ => false end.
Lemma ends_spec {A} (r : res A) f : ends r f = true -> exists a, r = Go a /\ f a = true.
Proof. destruct r as [a| |]; try discriminate. intros E. exists a. auto. Qed.
