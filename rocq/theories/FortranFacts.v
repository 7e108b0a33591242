(** * Facts about the Fortran interface *)
From Coq Require Import Lia.
From Verif Require Import GridModel ParamModel ParamFacts FortranModel FortranSpec.

(** ** Strings *)
Lemma chars_list : forall s, chars s = list_ascii_of_string s.
Proof. induction s as [|c r IH]; [reflexivity|]. cbn. rewrite IH. reflexivity. Qed.

Fixpoint blanks (n : nat) : string := match n with O => EmptyString | S n' => String " " (blanks n') end.

Lemma fill_blanks : forall n, fill n [] = chars (blanks n).
Proof. induction n as [|n IH]; [reflexivity|]. cbn. rewrite IH. reflexivity. Qed.

Lemma fill_long : forall s n, String.length s <= n -> fill n (chars s) = chars (s ++ blanks (n - String.length s)).
Proof.
  induction s as [|c r IH]; intros n H; cbn [chars String.length String.append].
  - rewrite Nat.sub_0_r. apply fill_blanks.
  - cbn in H. destruct n as [|n]; [lia|]. cbn. rewrite IH by lia. reflexivity.
Qed.

Lemma c_read_chars : forall s, ~ In NUL (chars s) -> c_read (chars s ++ [NUL]) = Some s.
Proof.
  induction s as [|c r IH]; intros H; cbn [chars app c_read].
  - reflexivity.
  - cbn [chars In] in H. destruct (Ascii.eqb c NUL) eqn:E.
    + apply Ascii.eqb_eq in E. exfalso. apply H. left. exact E.
    + rewrite IH by tauto. reflexivity.
Qed.

Lemma chars_app : forall a b, chars (a ++ b) = (chars a ++ chars b)%list.
Proof. induction a as [|c r IH]; intros b; cbn; [reflexivity|]. rewrite IH. reflexivity. Qed.

Lemma no_nul_blanks : forall n, ~ In NUL (chars (blanks n)).
Proof. induction n as [|n IH]; cbn; [tauto|]. intros [H|H]; [discriminate H|tauto]. Qed.

(** What arrives of a string: its text and the blanks behind it. *)
Lemma arrives : forall s, String.length (f_text s) <= f_len s -> ~ In NUL (list_ascii_of_string (f_text s)) ->
  c_read (terminated s) = Some (f_text s ++ blanks (f_len s - String.length (f_text s)))%string.
Proof.
  intros [n t] L N. unfold terminated, f_chars. cbn [f_len f_text] in *.
  rewrite fill_long by exact L. apply c_read_chars. rewrite chars_app. intros H.
  apply in_app_or in H. rewrite chars_list in H. destruct H as [H|H]; [tauto|]. exact (no_nul_blanks _ H).
Qed.

Lemma snug_arrives : forall s, snug s -> c_read (terminated s) = Some (f_text s).
Proof.
  intros s [L N]. rewrite arrives; [|lia|exact N]. rewrite L, Nat.sub_diag. cbn. f_equal.
  clear. generalize (f_text s). induction s0 as [|c r IH]; cbn; [reflexivity|]. rewrite IH. reflexivity.
Qed.

Lemma snug_cstr : forall A s (k : string -> outcome A), snug s -> cstr (terminated s) k = k (f_text s).
Proof. intros A s k H. unfold cstr. rewrite (snug_arrives s H). reflexivity. Qed.

(** ** Conversions *)
Lemma level_u32 : forall l, u32 (or_0 l) = meant_level l.
Proof. intros [l|]; reflexivity. Qed.

Lemma i32_seen : forall u, (0 <= u < 2 ^ 32)%Z -> (- 2 ^ 31 <= i32 u < 2 ^ 31)%Z /\ (i32 u mod 2 ^ 32 = u)%Z.
Proof.
  intros u H. unfold i32. change (2 ^ 32)%Z with 4294967296%Z in *. change (2 ^ 31)%Z with 2147483648%Z.
  destruct (u <? 2147483648)%Z eqn:E.
  - apply Z.ltb_lt in E. split; [lia|]. apply Z.mod_small. lia.
  - apply Z.ltb_ge in E. split; [lia|].
    replace (u - 4294967296)%Z with (u + (-1) * 4294967296)%Z by lia. rewrite Z_mod_plus_full. apply Z.mod_small. lia.
Qed.

(** ** The table *)
Lemma put_eq : forall A (l : list A) i x, i < List.length l -> nth_error (put l i x) i = Some x.
Proof. induction l as [|y r IH]; intros i x H; cbn in *; [lia|]. destruct i as [|i]; [reflexivity|]. apply IH. lia. Qed.
Lemma put_neq : forall A (l : list A) i j x, i <> j -> nth_error (put l i x) j = nth_error l j.
Proof.
  induction l as [|y r IH]; intros i j x H; cbn; [reflexivity|].
  destruct i as [|i], j as [|j]; cbn; try reflexivity; [congruence|]. apply IH. congruence.
Qed.
Lemma clear_neq : forall P (l : list (option P)) i j, i <> j -> nth_error (pa_clear l i) j = nth_error l j.
Proof.
  induction l as [|y r IH]; intros i j H; cbn; [reflexivity|].
  destruct i as [|i], j as [|j]; cbn; try reflexivity; [congruence|]. apply IH. congruence.
Qed.
Lemma nth_some_lt : forall A (l : list A) i x, nth_error l i = Some x -> i < List.length l.
Proof. intros A l i x H. apply nth_error_Some. congruence. Qed.

Section Sim.
  Variables R S P B C : Type.
  Notation fcall := (fcall P). Notation ccall := (ccall P C). Notation result := (result R S B).
  Notation fmem := (fmem P C).
  Variable obey : ctor -> list ccall -> ccall -> outcome result.
  Variable serve : list (scall C) -> scall C -> outcome result.
  Variable nompi : bool.
  Variable f2c : Z -> C.

  (** The handle in variable [v] leads to the grid of [v]. *)
  Definition leads (m : fmem) (h : Z) (k : ctor) (hist : list ccall) : Prop :=
    exists i p, h = Z.of_nat i /\ nth_error (m_ptrs P C m) i = Some (Some p) /\
                nth_error (m_objs P C m) p = Some (Some (i, k, hist)).
  Record sim (m : fmem) (e : nat -> Z) (g : nat -> grid P C) (h : list (scall C)) : Prop := {
    sim_leads : forall v k hist, g v = Some (k, hist) -> leads m (e v) k hist;
    sim_apart : forall v w x y, g v = Some x -> g w = Some y -> e v = e w -> v = w;
    sim_stat : m_stat P C m = h
  }.

  Lemma resolve_ok : forall m i p, nth_error (m_ptrs P C m) i = Some (Some p) -> resolve P C m (Z.of_nat i) = Ok p.
  Proof.
    intros m i p H. unfold resolve. replace (Z.of_nat i <? 0)%Z with false by (symmetry; apply Z.ltb_ge; lia).
    rewrite Nat2Z.id. unfold pa_get. rewrite H. reflexivity.
  Qed.

  Lemma sim_call : forall m e g h v k hist cc r,
    sim m e g h -> g v = Some (k, hist) -> obey k hist cc = Ok r ->
    exists p m', resolve P C m (e v) = Ok p /\ call R S P B C obey m p cc = Ok (m', r) /\
                 sim m' e (setv g v (Some (k, hist ++ [cc])%list)) h.
  Proof.
    intros m e g h v k hist cc r SM G O. destruct (sim_leads _ _ _ _ SM v k hist G) as (i & p & E & HP & HO).
    exists p. eexists. split; [rewrite E; apply resolve_ok; exact HP|]. split.
    - unfold call. rewrite HO, O. cbn. reflexivity.
    - constructor.
      + intros w k' h' H. unfold setv in H. destruct (w =? v) eqn:W.
        * apply Nat.eqb_eq in W. subst w. injection H as <- <-. exists i, p. cbn. split; [exact E|]. split; [exact HP|].
          apply put_eq. eapply nth_some_lt; eauto.
        * apply Nat.eqb_neq in W. destruct (sim_leads _ _ _ _ SM w k' h' H) as (j & q & E' & HP' & HO').
          exists j, q. cbn. split; [exact E'|]. split; [exact HP'|]. rewrite put_neq; [exact HO'|].
          intros EQ. subst q. rewrite HO in HO'. injection HO' as EI _ _. apply W.
          refine (sim_apart _ _ _ _ SM w v _ _ H G _). rewrite E, E', EI. reflexivity.
      + intros w u x y Hw Hu EQ. unfold setv in Hw, Hu.
        assert (exists x', g w = Some x') as [x' Gw].
        { destruct (w =? v) eqn:W; [apply Nat.eqb_eq in W; subst; eauto|eauto]. }
        assert (exists y', g u = Some y') as [y' Gu].
        { destruct (u =? v) eqn:W; [apply Nat.eqb_eq in W; subst; eauto|eauto]. }
        exact (sim_apart _ _ _ _ SM w u x' y' Gw Gu EQ).
      + cbn. exact (sim_stat _ _ _ _ SM).
  Qed.

  Lemma sim_new : forall m e g h v c, sim m e g h ->
    sim (fst (new_grid P C m c)) (setv e v (Z.of_nat (snd (snd (new_grid P C m c))))) (setv g v (Some (c, []))) h.
  Proof.
    intros m e g h v c SM.
    assert (L : forall ps : list (option nat), List.length (ps ++ [Some (List.length (m_objs P C m))]) - 1 = List.length ps).
    { intros ps. rewrite app_length. cbn. lia. }
    constructor.
    - intros w k hist H. unfold setv in *. destruct (w =? v).
      + injection H as <- <-. exists (List.length (m_ptrs P C m)), (List.length (m_objs P C m)). cbn.
        rewrite L. split; [reflexivity|]. split; rewrite nth_error_app2, Nat.sub_diag by lia; reflexivity.
      + destruct (sim_leads _ _ _ _ SM w k hist H) as (i & p & E & HP & HO). exists i, p. cbn.
        split; [exact E|]. split; rewrite nth_error_app1; eauto using nth_some_lt.
    - intros w u x y Hw Hu. unfold setv in *.
      destruct (w =? v) eqn:W, (u =? v) eqn:U; try (apply Nat.eqb_eq in W); try (apply Nat.eqb_eq in U); intros EQ.
      + congruence.
      + destruct y as [k hist]. destruct (sim_leads _ _ _ _ SM u k hist Hu) as (i & p & E & HP & HO).
        apply nth_some_lt in HP. cbn in EQ. rewrite L in EQ. lia.
      + destruct x as [k hist]. destruct (sim_leads _ _ _ _ SM w k hist Hw) as (i & p & E & HP & HO).
        apply nth_some_lt in HP. cbn in EQ. rewrite L in EQ. lia.
      + exact (sim_apart _ _ _ _ SM w u x y Hw Hu EQ).
    - cbn. exact (sim_stat _ _ _ _ SM).
  Qed.

  Lemma sim_native : forall m e g h c, sim m e g h -> sim (fst (new_grid P C m c)) e g h.
  Proof.
    intros m e g h c SM. constructor.
    - intros w k hist H. destruct (sim_leads _ _ _ _ SM w k hist H) as (i & p & E & HP & HO). exists i, p. cbn.
      split; [exact E|]. split; rewrite nth_error_app1; eauto using nth_some_lt.
    - exact (sim_apart _ _ _ _ SM).
    - cbn. exact (sim_stat _ _ _ _ SM).
  Qed.

  Lemma sim_close : forall m e g h v x, sim m e g h -> g v = Some x ->
    exists m', f90_close P C m (e v) = Ok m' /\ sim m' e (setv g v None) h.
  Proof.
    intros m e g h v [k hist] SM G. destruct (sim_leads _ _ _ _ SM v k hist G) as (i & p & E & HP & HO).
    unfold f90_close. rewrite E. replace (Z.of_nat i <? 0)%Z with false by (symmetry; apply Z.ltb_ge; lia).
    rewrite Nat2Z.id. unfold pa_get. rewrite HP. cbn. unfold delete_grid. rewrite HO. unfold pa_remove.
    assert (LT := nth_some_lt _ _ _ _ HP). apply Nat.ltb_lt in LT. rewrite LT. cbn. eexists. split; [reflexivity|].
    constructor.
    - intros w k' h' H. unfold setv in H. destruct (w =? v) eqn:W; [discriminate H|]. apply Nat.eqb_neq in W.
      destruct (sim_leads _ _ _ _ SM w k' h' H) as (j & q & E' & HP' & HO').
      assert (j <> i).
      { intros ->. apply W. refine (sim_apart _ _ _ _ SM w v _ _ H G _). congruence. }
      exists j, q. cbn. split; [exact E'|]. split.
      + rewrite clear_neq; [exact HP'|congruence].
      + rewrite put_neq; [exact HO'|]. intros EQ. subst q. rewrite HO in HO'. injection HO' as EI _ _. congruence.
    - intros w u x y Hw Hu EQ. unfold setv in *. destruct (w =? v); [discriminate Hw|]. destruct (u =? v); [discriminate Hu|].
      exact (sim_apart _ _ _ _ SM w u x y Hw Hu EQ).
    - cbn. exact (sim_stat _ _ _ _ SM).
  Qed.

  Lemma new_as : forall m c, fortran_new P C m c =
    (fst (new_grid P C m (meant_ctor c)), Z.of_nat (snd (snd (new_grid P C m (meant_ctor c))))).
  Proof.
    intros m [[t|]|[t|]|n bl ds ts]; reflexivity.
  Qed.

  Lemma call_as : forall m e g h v c cc k hist r,
    sim m e g h -> (forall s, In s (call_strings c) -> snug s) ->
    meant P C nompi f2c c = Some cc -> g v = Some (k, hist) -> obey k hist cc = Ok r ->
    exists m' f, fortran_call R S P B C obey nompi f2c m (e v) c = Ok (m', f) /\ seen R S P B c r f /\
                 sim m' e (setv g v (Some (k, hist ++ [cc])%list)) h.
  Proof.
    intros m e g h v c cc k hist r SM ST M G O.
    destruct (sim_call m e g h v k hist cc r SM G O) as (p & m' & RE & CA & SM').
    destruct c; cbn in M; try (destruct nompi eqn:NM; [discriminate M|]); injection M as <-;
      unfold fortran_call, f90_call; try rewrite NM; rewrite RE; cbn [obind].
    1-2: (rewrite CA || (unfold u32; rewrite CA)); cbn; exists m'; eexists; split; [reflexivity|]; split; [reflexivity|exact SM'].
    - rewrite !snug_cstr by (apply ST; cbn; tauto). rewrite level_u32, CA. cbn. exists m'. eexists. split; [reflexivity|]. split; [reflexivity|exact SM'].
    - rewrite !snug_cstr by (apply ST; cbn; tauto). rewrite level_u32, CA. exists m', r. split; [reflexivity|]. split; [reflexivity|exact SM'].
    - rewrite CA. cbn. exists m'. eexists. split; [reflexivity|]. split; [|exact SM'].
      destruct r; try reflexivity. intros H. exists (i32 i). split; [reflexivity|]. apply i32_seen. exact H.
    - unfold u32. rewrite CA. exists m', r. split; [reflexivity|]. split; [reflexivity|exact SM'].
    - unfold u32. rewrite CA. exists m', r. split; [reflexivity|]. split; [reflexivity|exact SM'].
    - rewrite level_u32; unfold u32; rewrite CA. exists m', r. split; [reflexivity|]. split; [reflexivity|exact SM'].
    - rewrite CA. cbn. exists m'. eexists. split; [reflexivity|]. split; [|exact SM'].
      destruct r; try reflexivity. intros H. exists (i32 i). split; [reflexivity|]. apply i32_seen. exact H.
    - rewrite level_u32, CA. exists m', r. split; [reflexivity|]. split; [reflexivity|exact SM'].
    - rewrite level_u32, CA. exists m', r. split; [reflexivity|]. split; [reflexivity|exact SM'].
    - rewrite level_u32, CA. exists m', r. split; [reflexivity|]. split; [reflexivity|exact SM'].
    - rewrite level_u32, CA. exists m', r. split; [reflexivity|]. split; [reflexivity|exact SM'].
    - rewrite level_u32, CA. exists m', r. split; [reflexivity|]. split; [reflexivity|exact SM'].
    - rewrite level_u32, CA. exists m', r. split; [reflexivity|]. split; [reflexivity|exact SM'].
  Qed.

  Lemma run_as : forall l m e g h ps,
    sim m e g h -> (forall o s, In o l -> In s (op_strings o) -> snug s) ->
    meant_run R S P B C obey serve nompi f2c g h l = Ok ps ->
    exists rs, fortran_run R S P B C obey serve nompi f2c m e l = Ok rs /\ Forall2 (fun (p : result -> Prop) r => p r) ps rs.
  Proof.
    induction l as [|o l IH]; intros m e g h ps SM ST H; cbn [meant_run] in H.
    - injection H as <-. exists []. split; [reflexivity|constructor].
    - assert (ST' : forall o s, In o l -> In s (op_strings o) -> snug s) by (intros o' s I1 I2; eapply ST; [right; exact I1|exact I2]).
      destruct o as [v c|v c|v|c|c]; cbn [fortran_run].
      + rewrite new_as. refine (IH _ _ _ _ _ _ ST' H). apply sim_new. exact SM.
      + destruct (meant P C nompi f2c c) as [cc|] eqn:M.
        * destruct (g v) as [[k hist]|] eqn:G; [|discriminate H].
          destruct (obey k hist cc) as [r|] eqn:O; [|discriminate H]. cbn [obind] in H.
          destruct (meant_run R S P B C obey serve nompi f2c (setv g v (Some (k, hist ++ [cc])%list)) h l) as [ps'|] eqn:N; [|discriminate H].
          injection H as <-.
          destruct (call_as m e g h v c cc k hist r SM (fun s I => ST _ s (or_introl eq_refl) I) M G O) as (m' & f & FC & SE & SM').
          destruct (IH m' e _ h ps' SM' ST' N) as (rs & FR & FO). exists (f :: rs). rewrite FC. cbn. rewrite FR. cbn.
          split; [reflexivity|]. constructor; assumption.
        * destruct (meant_run R S P B C obey serve nompi f2c g h l) as [ps'|] eqn:N; [|discriminate H]. injection H as <-.
          destruct (IH m e g h ps' SM ST' N) as (rs & FR & FO).
          destruct c; cbn in M; try discriminate M. destruct nompi eqn:NM; [|discriminate M].
          unfold fortran_call, f90_call. cbn. rewrite FR. cbn. eexists. split; [reflexivity|]. constructor; [reflexivity|exact FO].
      + destruct (g v) as [x|] eqn:G; [|discriminate H]. destruct (sim_close m e g h v x SM G) as (m' & FC & SM').
        rewrite FC. cbn [obind]. exact (IH m' e _ h ps SM' ST' H).
      + unfold meant_static in H. unfold f90_static, static. destruct nompi eqn:NM.
        * destruct (meant_run R S P B C obey serve true f2c g h l) as [ps'|] eqn:N; [|discriminate H]. injection H as <-.
          destruct (IH m e g h ps' SM ST' N) as (rs & FR & FO).
          destruct c; cbn; rewrite FR; cbn; eexists; (split; [reflexivity|]); (constructor; [reflexivity|exact FO]).
        * rewrite (sim_stat _ _ _ _ SM).
          assert (SMS : forall sc, sim (FMem P C (m_objs P C m) (h ++ [sc])%list (m_ptrs P C m)) e g (h ++ [sc])%list).
          { intros sc. constructor; [exact (sim_leads _ _ _ _ SM)|exact (sim_apart _ _ _ _ SM)|reflexivity]. }
          destruct c; cbn [obind] in *;
          match type of H with (do _ <- serve h ?sc; _) = _ => destruct (serve h sc) as [x|] eqn:SE; [|discriminate H]; cbn [obind] in *;
            destruct (meant_run R S P B C obey serve false f2c g (h ++ [sc])%list l) as [ps'|] eqn:N; [|discriminate H];
            injection H as <-; destruct (IH _ e g _ ps' (SMS sc) ST' N) as (rs & FR & FO)
          end; cbn [fst snd]; rewrite FR; cbn; eexists; (split; [reflexivity|]); (constructor; [reflexivity|exact FO]).
      + refine (IH _ _ _ _ _ _ ST' H). apply sim_native. exact SM.
  Qed.

  Lemma results_as : forall l ps,
    (forall o s, In o l -> In s (op_strings o) -> snug s) ->
    meant_results R S P B C obey serve nompi f2c l = Ok ps ->
    exists rs, fortran_results R S P B C obey serve nompi f2c l = Ok rs /\ Forall2 (fun (p : result -> Prop) r => p r) ps rs.
  Proof.
    intros l ps ST H. refine (run_as l _ _ _ _ _ _ ST H). constructor; [discriminate|discriminate|reflexivity].
  Qed.
End Sim.

(** ** [setParam] *)
Lemma set_param_u_ok : forall ps name value level, (0 <= level < 2 ^ 32 - 1)%Z ->
  set_param_u ps name value level = Ok (set_param ps name value (Z.to_nat level)).
Proof.
  intros ps name value level H. change (2 ^ 32 - 1)%Z with 4294967295%Z in H. unfold set_param_u, set_param.
  assert (E : (if (Z.of_nat (List.length ps) <=? level)%Z then vec_resize ps (Z.to_nat (u32 (level + 1))) else ps)
              = resize ps (Z.to_nat level)).
  { unfold resize. destruct (Z.of_nat (List.length ps) <=? level)%Z eqn:L.
    - apply Z.leb_le in L. destruct (List.length ps <=? Z.to_nat level) eqn:L'; [|apply Nat.leb_gt in L'; lia].
      unfold vec_resize, u32. rewrite Z.mod_small by lia. rewrite firstn_all2 by lia.
      replace (Z.to_nat (level + 1)) with (Z.to_nat level + 1) by lia. reflexivity.
    - apply Z.leb_gt in L. destruct (List.length ps <=? Z.to_nat level) eqn:L'; [apply Nat.leb_le in L'; lia|]. reflexivity. }
  cbv zeta. rewrite E.
  assert (LT : (level <? Z.of_nat (List.length (resize ps (Z.to_nat level))))%Z = true).
  { apply Z.ltb_lt. unfold resize. destruct (List.length ps <=? Z.to_nat level) eqn:L'.
    - apply Nat.leb_le in L'. rewrite app_length, repeat_length. lia.
    - apply Nat.leb_gt in L'. lia. }
  rewrite LT. reflexivity.
Qed.

Lemma map_string_app : forall f a b, map_string f (a ++ b) = (map_string f a ++ map_string f b)%string.
Proof. intros f. induction a as [|c r IH]; intros b; [reflexivity|]. cbn. rewrite IH. reflexivity. Qed.

Lemma blanks_end : forall n, blanks (S n) = (blanks n ++ " ")%string.
Proof. induction n as [|n IH]; [reflexivity|]. cbn [blanks] in *. rewrite IH at 1. reflexivity. Qed.

Lemma app_assoc_s : forall a b c : string, (a ++ (b ++ c) = (a ++ b) ++ c)%string.
Proof. induction a as [|x r IH]; intros b c; cbn; [reflexivity|]. rewrite IH. reflexivity. Qed.

Lemma norm_blank : forall n j, exists r, norm_name (n ++ blanks (S j)) = (r ++ " ")%string.
Proof.
  intros n j. unfold norm_name, dashes, to_upper. rewrite blanks_end, app_assoc_s, !map_string_app.
  eexists. reflexivity.
Qed.

(** A name with a blank at the end is not one that is looked up. *)
Lemma blank_name_unseen : forall ps n j v l k i, (forall r, k <> (r ++ " ")%string) ->
  param_raw (set_param ps (n ++ blanks (S j)) v l) k i = param_raw ps k i.
Proof.
  intros ps n j v l k i H. rewrite set_param_raw. destruct (norm_blank n j) as [r E]. rewrite E.
  destruct (String.eqb k (r ++ " ")) eqn:Q.
  - apply String.eqb_eq in Q. destruct (H r Q).
  - rewrite Bool.andb_false_r. reflexivity.
Qed.

Lemma set_param_u_top : forall ps name value, (Z.of_nat (List.length ps) < 2 ^ 32)%Z ->
  set_param_u ps name value (2 ^ 32 - 1) = Ub.
Proof.
  intros ps name value H. change (2 ^ 32)%Z with 4294967296%Z in *. unfold set_param_u.
  replace (Z.of_nat (List.length ps) <=? 4294967296 - 1)%Z with true by (symmetry; apply Z.leb_le; lia). reflexivity.
Qed.
