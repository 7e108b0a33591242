(** * Facts about opening, levels and handles *)
From Coq Require Import List Arith Bool Lia.
From Verif Require Import SyncFacts GridModel.
Import ListNotations.

(** ** Open *)
Lemma open_cfg_wf o : o_threads o > 0 -> wf_ycfg (open_cfg o).
Proof.
  intros H. split; [exact H|]. intros k r E. cbn in E. injection E as <-. exact H.
Qed.

Lemma open_result_root o : o_threads o > 0 ->
  forall s t, ystate (open_cfg o) s -> t < o_threads o ->
  open_results s t = map (fun k => local_err o 0 k) (seq 0 (y_round (y_thr s t))).
Proof.
  intros H s t R T. unfold open_results.
  rewrite (sync_values (open_cfg o) (open_cfg_wf o H) eq_refl s t R T). reflexivity.
Qed.

Lemma open_reports_first o : o_threads o > 0 -> o_mast o 0 = true ->
  forall s t k r, ystate (open_cfg o) s -> t < o_threads o ->
  nth_error (open_results s t) k = Some r -> r = o_init o (o_dom o 0) k.
Proof.
  intros H M s t k r R T E. rewrite (open_result_root o H s t R T) in E.
  rewrite nth_error_map in E. destruct (nth_error (seq _ _) k) as [j|] eqn:J; [|discriminate E].
  injection E as <-.
  assert (B : k < y_round (y_thr s t)).
  { assert (N : nth_error (seq 0 (y_round (y_thr s t))) k <> None) by congruence.
    apply nth_error_Some in N. rewrite seq_length in N. exact N. }
  assert (J' : j = k).
  { apply (nth_error_nth _ _ 0) in J. rewrite seq_nth in J by exact B. lia. }
  subst j. unfold local_err. rewrite M. reflexivity.
Qed.

(** ** Levels *)
Section Levels.
  Context {F : Type} (grow : nat -> nat -> nat).

  Lemma vset_length (l : list (lv F)) i x : length (vset l i x) = length l.
  Proof. revert i; induction l; intros [|i]; cbn; auto. Qed.
  Lemma vset_same (l : list (lv F)) i x : i < length l -> nth_error (vset l i x) i = Some x.
  Proof. revert i; induction l; intros [|i] H; cbn in *; try lia; auto. apply IHl; lia. Qed.
  Lemma vset_other (l : list (lv F)) i j x : i <> j -> nth_error (vset l i x) j = nth_error l j.
  Proof. revert i j; induction l; intros [|i] [|j] H; cbn; auto; try lia. Qed.

  Lemma open_small (v : lvec F) level (f : F) : level < length (v_levels v) ->
    length (v_levels (open_level grow v level f)) = length (v_levels v) /\
    read_level (open_level grow v level f) level = Ok f /\
    (forall l g, l <> level -> read_level v l = Ok g -> read_level (open_level grow v level f) l = Ok g).
  Proof.
    intros H. unfold open_level. destruct (Nat.leb_spec (length (v_levels v)) level) as [C|_]; [lia|].
    split; [apply vset_length|]. split.
    - unfold read_level. cbn [v_levels v_heap]. rewrite vset_same by exact H.
      rewrite nth_error_app2, Nat.sub_diag by lia. reflexivity.
    - intros l g N. unfold read_level. cbn [v_levels v_heap]. rewrite vset_other by congruence.
      destruct (nth_error (v_levels v) l) as [[[m|] [a|]]|]; try discriminate.
      destruct (nth_error (v_heap v) a) as [x|] eqn:A; [|discriminate].
      rewrite nth_error_app1; [rewrite A; auto|]. apply nth_error_Some. congruence.
  Qed.

  Lemma opens_small rest : forall (v : lvec F) l (g : F),
    (forall p, In p rest -> fst p < length (v_levels v)) ->
    (forall p, In p rest -> fst p <> l) -> read_level v l = Ok g ->
    read_level (open_levels grow v rest) l = Ok g.
  Proof.
    induction rest as [|[lev f] rest IH]; intros v l g B N R; [exact R|].
    cbn. destruct (open_small v lev f) as (L & _ & O); [apply (B (lev, f)); left; reflexivity|].
    apply IH.
    - intros p P. rewrite L. apply B. right; exact P.
    - intros p P. apply N. right; exact P.
    - apply O; [|exact R]. intros ->. apply (N (lev, f)); [left; reflexivity|reflexivity].
  Qed.
  Lemma opens_length rest : forall (v : lvec F), (forall p, In p rest -> fst p < length (v_levels v)) ->
    length (v_levels (open_levels grow v rest)) = length (v_levels v).
  Proof.
    induction rest as [|[lev f] rest IH]; intros v B; [reflexivity|].
    cbn. destruct (open_small v lev f) as (L & _); [apply (B (lev, f)); left; reflexivity|].
    fold (open_levels grow (open_level grow v lev f) rest).
    rewrite IH; [exact L|]. intros p P. rewrite L. apply B. right; exact P.
  Qed.

  Lemma open_first m (f : F) : let v := open_level grow lvec0 m f in
    length (v_levels v) = m + 1 /\ read_level v m = Ok f.
  Proof.
    cbn. unfold open_level, vresize. cbn [lvec0 v_levels length v_cap v_heap Nat.leb].
    replace (0 <=? m) with true by reflexivity.
    set (v1 := if m + 1 <=? 0 then _ else _).
    assert (E : v_levels v1 = repeat lv_new (m + 1)).
    { unfold v1. replace (m + 1 <=? 0) with false by (destruct m; reflexivity). cbn.
      rewrite Nat.sub_0_r. reflexivity. }
    split.
    - cbn. rewrite vset_length. fold v1. rewrite E. apply repeat_length.
    - unfold read_level. cbn [v_levels v_heap]. rewrite E, vset_same by (rewrite repeat_length; lia).
      rewrite nth_error_app2, Nat.sub_diag by lia. reflexivity.
  Qed.

  Lemma open_levels_app (v : lvec F) a b : open_levels grow v (a ++ b) = open_levels grow (open_levels grow v a) b.
  Proof. unfold open_levels. apply fold_left_app. Qed.

  Lemma largest_first m (f0 : F) rest before l f after :
    (forall p, In p rest -> fst p <= m) ->
    (m, f0) :: rest = before ++ (l, f) :: after ->
    (forall p, In p after -> fst p <> l) ->
    read_level (open_levels grow lvec0 ((m, f0) :: rest)) l = Ok f.
  Proof.
    intros B E N. destruct (open_first m f0) as [L R]. cbv zeta in L, R.
    destruct before as [|q before].
    - injection E as -> -> ->. cbn. apply opens_small; [|exact N|exact R].
      intros p P. rewrite L. specialize (B p P). lia.
    - injection E as <- ->. cbn. fold (open_levels grow (open_level grow lvec0 m f0) (before ++ (l, f) :: after)).
      rewrite open_levels_app. set (v := open_levels grow _ before).
      assert (LV : length (v_levels v) = m + 1).
      { unfold v. rewrite opens_length; [exact L|]. intros p P. rewrite L.
        specialize (B p (in_or_app _ _ _ (or_introl P))). lia. }
      cbn. assert (BL : l < length (v_levels v)).
      { rewrite LV. assert (Q : In (l, f) (before ++ (l, f) :: after)) by (apply in_or_app; right; left; reflexivity).
        specialize (B (l, f) Q). cbn in B. lia. }
      destruct (open_small v l f BL) as (L2 & R2 & _). apply opens_small; [|exact N|exact R2].
      intros p P. rewrite L2, LV.
      assert (Q : In p (before ++ (l, f) :: after)) by (apply in_or_app; right; right; exact P).
      specialize (B p Q). lia.
  Qed.

  (** As long as the capacity suffices nothing is moved. *)
  Lemma open_fits (v : lvec F) level (f : F) : level < v_cap v -> length (v_levels v) <= v_cap v ->
    v_cap (open_level grow v level f) = v_cap v /\
    length (v_levels (open_level grow v level f)) <= v_cap v /\
    read_level (open_level grow v level f) level = Ok f /\
    (forall l g, l <> level -> read_level v l = Ok g -> read_level (open_level grow v level f) l = Ok g).
  Proof.
    intros H LE. destruct (Nat.lt_ge_cases level (length (v_levels v))) as [S|S].
    - destruct (open_small v level f S) as (A & B & C). rewrite A. split; [|auto].
      unfold open_level. destruct (Nat.leb_spec (length (v_levels v)) level); [lia|reflexivity].
    - unfold open_level. destruct (Nat.leb_spec (length (v_levels v)) level) as [_|]; [|lia].
      unfold vresize. destruct (Nat.leb_spec (level + 1) (v_cap v)) as [_|]; [|lia].
      cbn [v_levels v_cap v_heap]. split; [reflexivity|].
      assert (LEN : length (v_levels v ++ repeat (@lv_new F) (level + 1 - length (v_levels v))) = level + 1)
        by (rewrite app_length, repeat_length; lia).
      split; [rewrite vset_length, LEN; lia|]. split.
      + unfold read_level. cbn [v_levels v_heap]. rewrite vset_same by lia.
        rewrite nth_error_app2, Nat.sub_diag by lia. reflexivity.
      + intros l g N. unfold read_level. cbn [v_levels v_heap]. rewrite vset_other by congruence.
        destruct (nth_error (v_levels v) l) as [x|] eqn:X; [|discriminate].
        rewrite nth_error_app1 by (apply nth_error_Some; congruence). rewrite X.
        destruct x as [[m|] [a|]]; try discriminate.
        destruct (nth_error (v_heap v) a) as [y|] eqn:A; [|discriminate].
        rewrite nth_error_app1; [rewrite A; auto|]. apply nth_error_Some. congruence.
  Qed.
  Lemma opens_fit rest : forall (v : lvec F), (forall p, In p rest -> fst p < v_cap v) -> length (v_levels v) <= v_cap v ->
    v_cap (open_levels grow v rest) = v_cap v /\ length (v_levels (open_levels grow v rest)) <= v_cap v /\
    forall l g, (forall p, In p rest -> fst p <> l) -> read_level v l = Ok g -> read_level (open_levels grow v rest) l = Ok g.
  Proof.
    induction rest as [|[lev f] rest IH]; intros v B LE; [cbn; auto|].
    cbn. destruct (open_fits v lev f) as (C & L & _ & O); [apply (B (lev, f)); left; reflexivity|exact LE|].
    fold (open_levels grow (open_level grow v lev f) rest).
    destruct (IH (open_level grow v lev f)) as (C2 & L2 & O2).
    - intros p P. rewrite C. apply B. right; exact P.
    - rewrite C. exact L.
    - rewrite C in *. split; [exact C2|]. split; [exact L2|]. intros l g N R. apply O2; [intros p P; apply N; right; exact P|].
      apply O; [|exact R]. intros ->. apply (N (lev, f)); [left; reflexivity|reflexivity].
  Qed.
  Lemma within_capacity m (f0 : F) rest before l f after : m + 1 <= grow 0 (m + 1) ->
    (forall p, In p rest -> fst p < grow 0 (m + 1)) ->
    (m, f0) :: rest = before ++ (l, f) :: after ->
    (forall p, In p after -> fst p <> l) ->
    read_level (open_levels grow lvec0 ((m, f0) :: rest)) l = Ok f.
  Proof.
    intros G B E N. destruct (open_first m f0) as [L R]. cbv zeta in L, R.
    assert (C : v_cap (open_level grow lvec0 m f0) = grow 0 (m + 1)).
    { unfold open_level, vresize. cbn [lvec0 v_levels length v_cap v_heap]. replace (0 <=? m) with true by reflexivity.
      replace (m + 1 <=? 0) with false by (destruct m; reflexivity). reflexivity. }
    assert (LE : length (v_levels (open_level grow lvec0 m f0)) <= v_cap (open_level grow lvec0 m f0)) by (rewrite L, C; exact G).
    destruct before as [|q before].
    - injection E as -> -> ->. cbn. apply opens_fit; [|exact LE|exact N|exact R].
      intros p P. rewrite C. exact (B p P).
    - injection E as <- ->. cbn. fold (open_levels grow (open_level grow lvec0 m f0) (before ++ (l, f) :: after)).
      rewrite open_levels_app.
      destruct (opens_fit before (open_level grow lvec0 m f0)) as (C2 & L2 & _); [|exact LE|].
      { intros p P. rewrite C. apply B. apply in_or_app. left. exact P. }
      set (v := open_levels grow (open_level grow lvec0 m f0) before) in *. rewrite C in *. cbn.
      assert (BL : l < v_cap v).
      { rewrite C2. apply (B (l, f)). apply in_or_app. right. left. reflexivity. }
      destruct (open_fits v l f BL) as (C3 & L3 & R3 & _); [lia|].
      apply opens_fit; [|rewrite C3; exact L3|exact N|exact R3].
      intros p P. rewrite C3, C2. apply B. apply in_or_app. right. right. exact P.
  Qed.

  (** However the vector grows, some ascending order breaks level 0. *)
  Lemma ascending_breaks (f0 f1 : F) : (forall s n, n <= grow s n) ->
    exists m, 0 < m /\ read_level (open_levels grow lvec0 [(0, f0); (m, f1)]) 0 = Ub.
  Proof.
    intros G. exists (grow 0 1). pose proof (G 0 1) as H. split; [lia|].
    destruct (grow 0 1) as [|c] eqn:E; [lia|].
    cbn [open_levels fold_left fst snd].
    replace (open_level grow lvec0 0 f0) with (LVec [LV (Some f0) (Some 0)] (S c) [Some f0])
      by (unfold open_level, vresize; cbn; rewrite E; reflexivity).
    unfold open_level. cbn [v_levels length Nat.leb].
    unfold vresize. cbn [v_levels length v_cap v_heap].
    replace (S c + 1 <=? S c) with false by (symmetry; apply Nat.leb_gt; lia).
    unfold read_level. cbn [v_levels v_heap map app]. rewrite vset_other by discriminate. reflexivity.
  Qed.
End Levels.

(** ** Handles *)
Section Pointers.
  Context {P : Type}.
  Definition creates (l : list (pa_op P)) : nat :=
    length (filter (fun o => match o with PCreate _ => true | _ => false end) l).

  Lemma pa_clear_length (s : pointers P) i : length (pa_clear s i) = length s.
  Proof. revert i; induction s; intros [|i]; cbn; auto. Qed.
  Lemma pa_clear_same (s : pointers P) i : i < length s -> nth_error (pa_clear s i) i = Some None.
  Proof. revert i; induction s; intros [|i] H; cbn in *; try lia; auto. apply IHs; lia. Qed.
  Lemma pa_clear_other (s : pointers P) i j : i <> j -> nth_error (pa_clear s i) j = nth_error s j.
  Proof. revert i j; induction s; intros [|i] [|j] H; cbn; auto; try lia. Qed.

  Lemma pa_add_handle (s : pointers P) p : snd (pa_add s p) = length s.
  Proof. cbn. rewrite app_length. cbn. lia. Qed.

  Lemma pa_run_handles l : forall (s s' : pointers P) hs, pa_run s l = Ok (s', hs) ->
    hs = seq (length s) (creates l) /\ length s' = length s + creates l.
  Proof.
    induction l as [|[p|i] l IH]; intros s s' hs H; cbn [pa_run] in H.
    - injection H as <- <-. unfold creates. cbn. split; [reflexivity|lia].
    - unfold pa_add in H. rewrite app_length in H. cbn [length] in H.
      replace (length s + 1 - 1) with (length s) in H by lia.
      destruct (pa_run (s ++ [Some p]) l) as [[s2 h2]|] eqn:E; [|discriminate H].
      cbn in H. injection H as <- <-. apply IH in E as [E1 E2]. rewrite app_length in E1, E2.
      cbn [length] in E1, E2. unfold creates in *. cbn. split; [|lia].
      rewrite E1. f_equal. f_equal. lia.
    - unfold pa_remove in H. destruct (Nat.ltb_spec i (length s)) as [L|L]; [|discriminate H].
      cbn [obind] in H. apply IH in H. rewrite pa_clear_length in H. exact H.
  Qed.

  Lemma pa_run_keeps l : forall (s s' : pointers P) hs i x, pa_run s l = Ok (s', hs) ->
    ~ In (PClose i) l -> nth_error s i = Some x -> nth_error s' i = Some x.
  Proof.
    induction l as [|[p|j] l IH]; intros s s' hs i x H N E; cbn [pa_run] in H.
    - injection H as <- _. exact E.
    - unfold pa_add in H. destruct (pa_run (s ++ [Some p]) l) as [[s2 h2]|] eqn:R; [|discriminate H].
      cbn in H. injection H as <- _. eapply IH; [exact R| |].
      + intros C. apply N. right; exact C.
      + rewrite nth_error_app1; [exact E|]. apply nth_error_Some. congruence.
    - unfold pa_remove in H. destruct (Nat.ltb_spec j (length s)) as [L|L]; [|discriminate H].
      cbn [obind] in H. eapply IH; [exact H| |].
      + intros C. apply N. right; exact C.
      + rewrite pa_clear_other; [exact E|]. intros ->. apply N. left; reflexivity.
  Qed.

  Lemma pa_run_closed l : forall (s s' : pointers P) hs i, pa_run s l = Ok (s', hs) ->
    nth_error s i = Some None -> nth_error s' i = Some None.
  Proof.
    induction l as [|[p|j] l IH]; intros s s' hs i H E; cbn [pa_run] in H.
    - injection H as <- _. exact E.
    - unfold pa_add in H. destruct (pa_run (s ++ [Some p]) l) as [[s2 h2]|] eqn:R; [|discriminate H].
      cbn in H. injection H as <- _. eapply IH; [exact R|].
      rewrite nth_error_app1; [exact E|]. apply nth_error_Some. congruence.
    - unfold pa_remove in H. destruct (Nat.ltb_spec j (length s)) as [L|L]; [|discriminate H].
      cbn [obind] in H. eapply IH; [exact H|].
      destruct (Nat.eq_dec j i) as [->|D].
      + apply pa_clear_same. exact L.
      + rewrite pa_clear_other by exact D. exact E.
  Qed.

  Lemma pa_run_app a : forall b (s s' : pointers P) hs, pa_run s (a ++ b) = Ok (s', hs) ->
    exists s1 h1 h2, pa_run s a = Ok (s1, h1) /\ pa_run s1 b = Ok (s', h2) /\ hs = h1 ++ h2.
  Proof.
    induction a as [|[p|i] a IH]; intros b s s' hs H; cbn [app pa_run] in *.
    - exists s, [], hs. repeat split. exact H.
    - unfold pa_add in *. destruct (pa_run (s ++ [Some p]) (a ++ b)) as [[s2 h2]|] eqn:R; [|discriminate H].
      cbn in H. injection H as <- <-. apply IH in R as (s1 & ha & hb & R1 & R2 & ->).
      exists s1, (length (s ++ [Some p]) - 1 :: ha), hb. rewrite R1. repeat split. exact R2.
    - destruct (pa_remove s i) as [s1|]; [|discriminate H]. cbn [obind] in *. apply IH. exact H.
  Qed.

  (** No handle is handed out twice. *)
  Lemma handles_unique l (s : pointers P) hs : pa_run [] l = Ok (s, hs) ->
    NoDup hs /\ length hs = creates l.
  Proof.
    intros H. apply pa_run_handles in H as [-> _]. split; [apply seq_NoDup|apply seq_length].
  Qed.
  (** A handle resolves to its grid until it is closed. *)
  Lemma handle_resolves before p after (s : pointers P) hs h :
    pa_run [] (before ++ PCreate p :: after) = Ok (s, hs) ->
    nth_error hs (creates before) = Some h -> ~ In (PClose h) after ->
    pa_get s h = Ok (Some p).
  Proof.
    intros H E N. apply pa_run_app in H as (s1 & h1 & h2 & R1 & R2 & ->).
    apply pa_run_handles in R1 as [-> L1]. cbn [length] in *.
    rewrite nth_error_app2 in E by (rewrite seq_length; lia). rewrite seq_length, Nat.sub_diag in E.
    cbn [pa_run] in R2. unfold pa_add in R2. rewrite app_length in R2. cbn [length] in R2.
    replace (length s1 + 1 - 1) with (length s1) in R2 by lia.
    destruct (pa_run (s1 ++ [Some p]) after) as [[s2 h3]|] eqn:R; [|discriminate R2].
    cbn in R2. injection R2 as <- <-. cbn in E. injection E as <-.
    unfold pa_get. rewrite (pa_run_keeps after _ _ _ (length s1) (Some p) R N); [reflexivity|].
    rewrite nth_error_app2, Nat.sub_diag by lia. reflexivity.
  Qed.
  (** ... and to nothing afterwards. *)
  Lemma handle_closed before h after (s : pointers P) hs :
    pa_run [] (before ++ PClose h :: after) = Ok (s, hs) -> pa_get s h = Ok None.
  Proof.
    intros H. apply pa_run_app in H as (s1 & h1 & h2 & R1 & R2 & ->).
    cbn [pa_run] in R2. unfold pa_remove in R2.
    destruct (Nat.ltb_spec h (length s1)) as [L|L]; [|discriminate R2]. cbn [obind] in R2.
    unfold pa_get. rewrite (pa_run_closed after _ _ _ h R2); [reflexivity|].
    apply pa_clear_same. exact L.
  Qed.
  (** Programs that only close handles they got are defined. *)
  Lemma handles_defined l : forall (s : pointers P),
    (forall before h after, l = before ++ PClose h :: after -> h < length s + creates before) ->
    exists r, pa_run s l = Ok r.
  Proof.
    induction l as [|[p|i] l IH]; intros s H; cbn [pa_run].
    - eexists; reflexivity.
    - unfold pa_add. destruct (IH (s ++ [Some p])) as [r ->]; [|eexists; reflexivity].
      intros b h a E. rewrite app_length. cbn [length].
      specialize (H (PCreate p :: b) h a). rewrite E in H. specialize (H eq_refl).
      unfold creates in *. cbn in H. lia.
    - unfold pa_remove. pose proof (H [] i l eq_refl) as L. unfold creates in L. cbn in L.
      rewrite (proj2 (Nat.ltb_lt _ _)) by lia. cbn [obind]. apply IH.
      intros b h a E. rewrite pa_clear_length. specialize (H (PClose i :: b) h a). rewrite E in H.
      specialize (H eq_refl). unfold creates in *. cbn in H. exact H.
  Qed.
End Pointers.

Lemma largest_first' grow F m (f0 : F) rest before l f after :
  (forall p, In p rest -> fst p <= m) ->
  (m, f0) :: rest = before ++ (l, f) :: after ->
  (forall p, In p after -> fst p <> l) ->
  read_level (open_levels grow lvec0 ((m, f0) :: rest)) l = Ok f.
Proof. apply largest_first. Qed.

Lemma within_capacity' grow F m (f0 : F) rest before l f after : m + 1 <= grow 0 (m + 1) ->
  (forall p, In p rest -> fst p < grow 0 (m + 1)) ->
  (m, f0) :: rest = before ++ (l, f) :: after ->
  (forall p, In p after -> fst p <> l) ->
  read_level (open_levels grow lvec0 ((m, f0) :: rest)) l = Ok f.
Proof. apply within_capacity. Qed.

(** ** Concurrent lookups without reallocation *)
Lemma lookup_no_realloc before tab after p i x l g :
  nth_error tab i = Some x ->
  forall cap, length tab < cap ->
  pa_conc (CVec (length before) (length tab) cap (before ++ Some tab :: after)) AStart GStart p i l = Some g ->
  g = Ok GStart \/ g = Ok (GRead (length before)) \/ g = Ok (GDone (Some x)).
Proof.
  intros X cap C. set (b := length before).
  assert (NB : forall t, nth_error (before ++ Some t :: after) b = Some (Some t)).
  { intros t. rewrite nth_error_app2; unfold b; [|lia]. rewrite Nat.sub_diag. reflexivity. }
  (* the state before the creation: the table; afterwards: the table with one more entry *)
  set (v0 := CVec b (length tab) cap (before ++ Some tab :: after)).
  set (v1 := CVec b (S (length tab)) cap (before ++ Some (tab ++ [p]) :: after)).
  assert (A0 : add_step v0 AStart p = Some (v1, ADone)).
  { unfold add_step, v0. cbn [cv_heap cv_buf cv_size cv_cap]. rewrite NB.
    rewrite (proj2 (Nat.ltb_lt _ _) C). unfold v1. f_equal. f_equal. f_equal.
    unfold b. rewrite firstn_app, firstn_all, Nat.sub_diag. cbn [firstn]. rewrite app_nil_r.
    rewrite skipn_app, skipn_all2 by lia.
    replace (S (length before) - length before) with 1 by lia. reflexivity. }
  assert (G0 : forall v, v = v0 \/ v = v1 -> get_step v (GRead b) i = Some (Ok (GDone (Some x)))).
  { intros v [->| ->]; unfold get_step, v0, v1; cbn [cv_heap]; rewrite NB; [rewrite X; reflexivity|].
    rewrite nth_error_app1; [rewrite X; reflexivity|]. apply nth_error_Some. congruence. }
  assert (GB : forall v, v = v0 \/ v = v1 -> cv_buf v = b) by (intros v [->| ->]; reflexivity).
  assert (MAIN : forall l v a q g,
    ((v = v0 /\ a = AStart) \/ (v = v1 /\ a = ADone)) ->
    q = GStart \/ q = GRead b \/ q = GDone (Some x) ->
    pa_conc v a q p i l = Some g ->
    g = Ok GStart \/ g = Ok (GRead b) \/ g = Ok (GDone (Some x))).
  { clear g l. induction l as [|[] l IH]; intros v a q g V Q H; cbn [pa_conc] in H.
    - injection H as <-. destruct Q as [->|[->| ->]]; auto.
    - destruct V as [[-> ->]|[-> ->]].
      + rewrite A0 in H. eapply IH; [right; split; reflexivity|exact Q|exact H].
      + discriminate H.
    - assert (V' : v = v0 \/ v = v1) by tauto.
      destruct Q as [->|[->| ->]].
      + cbn [get_step] in H. rewrite (GB v V') in H. eapply IH; [exact V| |exact H]. auto.
      + rewrite (G0 v V') in H. eapply IH; [exact V| |exact H]. auto.
      + discriminate H. }
  intros H. eapply MAIN; [left; split; reflexivity|left; reflexivity|exact H].
Qed.
