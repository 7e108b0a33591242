(** * Facts about create_noise_grid.py *)
From Coq Require Import Lia Lqa Setoid Morphisms Qabs.
From Verif Require Import FileModel NoiseModel NoiseSpec NoiseFacts.
Local Open Scope Q_scope.

(** ** Loops *)
Lemma for_inv {A} (I : nat -> A -> Prop) body n a : I O a ->
  (forall i s, (i < n)%nat -> I i s -> exists s', body i s = Ok s' /\ I (S i) s') -> exists s, for_ n body a = Ok s /\ I n s.
Proof.
  intros H0. induction n as [|n IH]; intros St; [exists a; split; [reflexivity|exact H0]|].
  destruct IH as (s & E & P); [intros i s L; apply St; lia|]. cbn [for_]. rewrite E. cbn [obind]. now apply St; [lia|].
Qed.
Lemma for_fails {A} body n (a : A) i : (i < n)%nat -> (forall s, body i s = Ub) -> for_ n body a = Ub.
Proof.
  intros L B. induction n as [|n IH]; [lia|]. cbn [for_]. destruct (Nat.eq_dec i n) as [->|N].
  - destruct (for_ n body a); [apply B|reflexivity].
  - rewrite IH by lia. reflexivity.
Qed.

Section Grid.
Variables (f4 : Q -> Q) (fill : Q) (ilog : nat -> nat) (nc : bool) (width height : nat) (roughness : Q).
Hypothesis Hr : 0 <= roughness.
Notation field := (field ilog height roughness).
Notation stored := (stored f4 nc).
Notation xs := (nc_x f4 nc width height).
Notation ys := (nc_y f4 nc height).
Notation compute := (compute f4 ilog nc width height roughness).
Notation set_value := (set_value f4 nc width height).
Notation get_value := (get_value fill nc width height).
Notation vtk_lines := (vtk_lines fill nc width height).
Notation create := (create_grid f4 fill ilog nc width height roughness).

Lemma field_ok x y : exists v, field x y = Ok v.
Proof. unfold NoiseModel.field. destruct (noise2D_fine (10 * x - 2) (10 * y) (ilog height) roughness Hr) as (v & -> & _). eexists. reflexivity. Qed.

(** After some rounds of the loops. *)
Definition known (d : values) (a b : nat) : Prop := exists v, field (xs b) (ys a) = Ok v /\ d a b = Some (stored v).
Definition upto (j i : nat) (d : values) : Prop :=
  forall a b, if ((a <? j) || ((a =? j) && (b <? i)))%bool then known d a b else d a b = None.

Lemma compute_ok : (nc = true -> width = height) -> exists d, compute = Ok d /\
  forall a b, if ((a <? height) && (b <? width))%nat%bool then known d a b else d a b = None.
Proof.
  intros Sq. unfold NoiseModel.compute.
  apply (for_inv (fun j d => forall a b, if ((a <? j) && (b <? width))%nat%bool then known d a b else d a b = None)); [reflexivity|].
  intros j d Lj H.
  destruct (for_inv (fun i d' => forall a b, if ((a <? j) && (b <? width) || (a =? j) && (b <? i))%nat%bool then known d' a b else d' a b = None)
              (fun i d' => do v <- field (xs i) (ys j); set_value j i v d') width d) as (d' & E & P).
  - intros a b. specialize (H a b). replace (b <? 0)%nat with false by reflexivity. now rewrite andb_false_r, orb_false_r.
  - intros i d' Li P. destruct (field_ok (xs i) (ys j)) as (v & Ev). rewrite Ev. cbn [obind]. unfold NoiseModel.set_value.
    assert ((nc && negb ((j <? width)%nat && (i <? height)%nat))%bool = false) as ->.
    { destruct nc; [|reflexivity]. specialize (Sq eq_refl). cbn [andb].
      destruct (Nat.ltb_spec j width), (Nat.ltb_spec i height); cbn; lia || reflexivity. }
    eexists. split; [reflexivity|]. intros a b. specialize (P a b).
    destruct (Nat.eqb_spec a j) as [->|Na].
    + rewrite (Nat.ltb_irrefl j) in *. cbn [andb orb] in *. destruct (Nat.eqb_spec b i) as [->|Nb].
      * destruct (Nat.ltb_spec i (S i)); [|lia]. exists v. rewrite !Nat.eqb_refl. now split.
      * destruct (Nat.ltb_spec b i), (Nat.ltb_spec b (S i)); try lia; unfold known in *; cbv beta;
          (destruct (Nat.eqb_spec b i); [contradiction|]); rewrite andb_false_r; exact P.
    + cbn [andb] in *. rewrite orb_false_r in *. unfold known in *. destruct (Nat.eqb_spec a j); [contradiction|]. exact P.
  - exists d'. split; [exact E|]. intros a b. specialize (P a b).
    destruct (Nat.ltb_spec a j), (Nat.ltb_spec b width), (Nat.eqb_spec a j), (Nat.ltb_spec a (S j)); cbn [andb orb] in *; try lia; exact P.
Qed.
Lemma compute_fails : nc = true -> (0 < width)%nat -> (0 < height)%nat -> width <> height -> compute = Ub.
Proof.
  intros N W H D. unfold NoiseModel.compute. destruct (Nat.lt_ge_cases width height) as [L|L].
  - apply for_fails with (i := width); [exact L|]. intros d. apply for_fails with (i := O); [exact W|]. intros d'.
    destruct (field_ok (xs 0) (ys width)) as (v & ->). cbn [obind]. unfold NoiseModel.set_value. now rewrite N, Nat.ltb_irrefl.
  - apply for_fails with (i := O); [exact H|]. intros d. apply for_fails with (i := height); [lia|]. intros d'.
    destruct (field_ok (xs height) (ys 0)) as (v & ->). cbn [obind]. unfold NoiseModel.set_value. now rewrite N, Nat.ltb_irrefl, andb_false_r.
Qed.
Lemma vtk_ok d : (forall i j, (i < width)%nat -> (j < height)%nat -> exists v, get_value i j d = Ok v) ->
  exists l, vtk_lines d = Ok l /\ List.length l = (width * height)%nat /\
  forall i j, (i < width)%nat -> (j < height)%nat -> exists v, get_value i j d = Ok v /\ nth_error l (j * width + i) = Some v.
Proof.
  intros G. unfold NoiseModel.vtk_lines.
  destruct (for_inv (fun j l => List.length l = (width * j)%nat /\
      forall i j', (i < width)%nat -> (j' < j)%nat -> exists v, get_value i j' d = Ok v /\ nth_error l (j' * width + i) = Some v)
    (fun j => for_ width (fun i l => do v <- get_value i j d; Ok (l ++ [v]))) height []) as (l & E & P); [split; [cbn; lia|intros; lia]| |exists l; split; [exact E|exact P]].
  intros j l Lj [Len P].
  destruct (for_inv (fun k l' => exists m, l' = l ++ m /\ List.length m = k /\
       forall i, (i < k)%nat -> exists v, get_value i j d = Ok v /\ nth_error m i = Some v)
    (fun i l' => do v <- get_value i j d; Ok (l' ++ [v])) width l) as (l' & E & m & -> & Lm & Pm).
  - exists []. rewrite app_nil_r. split; [reflexivity|]. split; [reflexivity|intros; lia].
  - intros k l' Lk (m & -> & Lm & Pm). destruct (G k j Lk Lj) as (v & Ev). rewrite Ev. cbn [obind]. eexists. split; [reflexivity|].
    exists (m ++ [v]). split; [now rewrite app_assoc|]. split; [rewrite app_length; cbn; lia|]. intros i Li.
    destruct (Nat.eq_dec i k) as [->|Ni].
    + exists v. split; [exact Ev|]. rewrite nth_error_app2 by lia. now rewrite Lm, Nat.sub_diag.
    + destruct (Pm i ltac:(lia)) as (u & Eu & Nu). exists u. split; [exact Eu|]. rewrite nth_error_app1; [exact Nu|lia].
  - exists (l ++ m). split; [exact E|]. split; [rewrite app_length, Len, Lm; lia|]. intros i j' Li Lj'. destruct (Nat.eq_dec j' j) as [->|Nj].
    + destruct (Pm i Li) as (v & Ev & Nv). exists v. split; [exact Ev|]. rewrite nth_error_app2 by (rewrite Len; lia).
      rewrite Len. now replace (j * width + i - width * j)%nat with i by lia.
    + destruct (P i j' Li ltac:(lia)) as (v & Ev & Nv). exists v. split; [exact Ev|]. rewrite nth_error_app1; [exact Nv|].
      rewrite Len. nia.
Qed.
Lemma vtk_fails d i j : (i < width)%nat -> (j < height)%nat -> get_value i j d = Ub -> vtk_lines d = Ub.
Proof.
  intros I J G. unfold NoiseModel.vtk_lines. apply for_fails with (i := j); [exact J|]. intros l. apply for_fails with (i := i); [exact I|].
  intros l'. now rewrite G.
Qed.

(** ** Success *)
Lemma create_iff vtk : (0 < width)%nat -> (0 < height)%nat ->
  ((exists r, create vtk = Ok r) <-> width = height \/ (nc = false /\ vtk = false)).
Proof.
  intros W H. unfold create_grid. destruct (Nat.eq_dec width height) as [E|NE].
  - split; [auto|]. intros _. destruct (compute_ok (fun _ => E)) as (d & -> & P). cbn [obind]. destruct vtk; [|eexists; reflexivity].
    destruct (vtk_ok d) as (l & -> & _); [|eexists; reflexivity]. intros i j I J. specialize (P i j).
    destruct (Nat.ltb_spec i height), (Nat.ltb_spec j width); try lia. cbn [andb] in P. destruct P as (v & _ & D).
    unfold NoiseModel.get_value. destruct nc; [|rewrite D; eauto].
    destruct (Nat.ltb_spec i width), (Nat.ltb_spec j height); try lia. cbn. eauto.
  - destruct (Bool.bool_dec nc true) as [N|N].
    + rewrite (compute_fails N W H NE). split; [intros [r R]; discriminate R|]. intros [?|[? _]]; [contradiction|congruence].
    + apply not_true_is_false in N. destruct (compute_ok ltac:(congruence)) as (d & -> & P). cbn [obind]. destruct vtk.
      * split; [|intros [?|[_ ?]]; [contradiction|discriminate]]. intros [r R]. exfalso.
        assert (vtk_lines d = Ub) as F; [|rewrite F in R; discriminate R].
        destruct (Nat.lt_ge_cases width height) as [L|L].
        -- apply (vtk_fails d 0 width W L). unfold NoiseModel.get_value. rewrite N. specialize (P 0%nat width). rewrite Nat.ltb_irrefl, andb_false_r in P. now rewrite P.
        -- apply (vtk_fails d height 0); [lia|exact H|]. unfold NoiseModel.get_value. rewrite N. specialize (P height 0%nat). rewrite Nat.ltb_irrefl in P. cbn [andb] in P. now rewrite P.
      * split; [auto|]. intros _. eexists. reflexivity.
Qed.
End Grid.

(** ** Square grids *)
Lemma Qmax_eq a b c d : a == c -> b == d -> Qmax a b == Qmax c d.
Proof. intros E F. now rewrite E, F. Qed.
Lemma field_eq ilog h r x y x' y' v v' : 0 <= r -> x == x' -> y == y' -> field ilog h r x y = Ok v -> field ilog h r x' y' = Ok v' -> v == v'.
Proof.
  intros R EX EY H H'. unfold field in *.
  destruct (noise2D (10 * x - 2) (10 * y) (ilog h) r) as [n|] eqn:E; [|discriminate H]. destruct (noise2D (10 * x' - 2) (10 * y') (ilog h) r) as [n'|] eqn:E'; [|discriminate H'].
  cbn [obind] in H, H'. injection H as <-. injection H' as <-.
  destruct (noise2D_step (ilog h) r R) as (K & _ & L). specialize (L _ _ _ _ _ _ E E').
  assert (Qabs ((10 * x - 2) - (10 * x' - 2)) == 0) as Z1 by (setoid_replace (10 * x - 2 - (10 * x' - 2)) with 0 by (rewrite EX; ring); reflexivity).
  assert (Qabs (10 * y - 10 * y') == 0) as Z2 by (setoid_replace (10 * y - 10 * y') with 0 by (rewrite EY; ring); reflexivity).
  rewrite Z1, Z2 in L. assert (Qabs (n - n') <= 0) as L0 by (setoid_replace 0 with (K * (0 + 0)) by ring; exact L). apply abs_cond in L0. destruct L0 as [L0 L1].
  assert (n == n') as E0 by lra. apply Qmax_eq; [reflexivity|]. now rewrite E0, EY.
Qed.
Section Square.
Variables (f4 : Q -> Q) (fill : Q) (ilog : nat -> nat) (nc : bool) (n : nat) (roughness : Q).
Hypotheses (Hr : 0 <= roughness) (Hf : forall a b, a == b -> f4 a == f4 b) (Hn : (0 < n)%nat).
Notation xs := (nc_x f4 nc n n).
Notation ys := (nc_y f4 nc n).
Notation F := (field ilog n roughness).
Notation st := (stored f4 nc).
Lemma same_axes i : xs i == ys i.
Proof.
  assert (~ Qn n == 0) as Nz.
  { unfold Qn. change 0 with (inject_Z 0). intros E. apply (proj1 (inject_Z_injective (Z.of_nat n) 0)) in E. clear -E Hn. lia. }
  assert (linspace ((1 # 2) / Qn n) ((Qn n - (1 # 2)) / Qn n) n i == linspace ((1 # 2) / Qn n) (1 - (1 # 2) / Qn n) n i) as E.
  { unfold linspace. destruct (n <=? 1)%nat; [reflexivity|]. setoid_replace ((Qn n - (1 # 2)) / Qn n) with (1 - (1 # 2) / Qn n) by (field; exact Nz). reflexivity. }
  unfold nc_x, nc_y, stored. destruct nc; [now apply Hf|exact E].
Qed.
Lemma stored_eq a b : a == b -> st a == st b.
Proof. unfold stored. destruct nc; auto. Qed.
Lemma square_file d : (forall a b, if ((a <? n) && (b <? n))%nat%bool then known f4 ilog nc n n roughness d a b else d a b = None) ->
  by_asagi F st (the_file f4 fill nc n n d) n n.
Proof.
  intros P a b c0 c1 A B EY EX. cbn in EY, EX. injection EY as <-. injection EX as <-.
  specialize (P a b). destruct (Nat.ltb_spec a n), (Nat.ltb_spec b n); try lia. cbn [andb] in P. destruct P as (v & Ev & D).
  destruct (field_ok ilog n roughness Hr (ys b) (xs a)) as (u & Eu). exists u, (st v). split; [exact Eu|]. split; [cbn; now rewrite D|].
  apply stored_eq. exact (field_eq _ _ _ _ _ _ _ _ _ Hr (same_axes b) (Qeq_sym _ _ (same_axes a)) Ev Eu).
Qed.
Lemma square_create vtk : exists f l, create_grid f4 fill ilog nc n n roughness vtk = Ok (f, l) /\
  (nc = true -> exists file, f = Some file /\ has_size file n n /\ by_asagi F st file n n) /\
  (vtk = true -> exists l', l = Some l' /\ by_vtk (fun x y => F y x) st xs ys l' n n).
Proof.
  destruct (compute_ok f4 ilog nc n n roughness Hr (fun _ => eq_refl)) as (d & E & P). unfold create_grid. rewrite E. cbn [obind].
  assert (forall i j, (i < n)%nat -> (j < n)%nat -> exists v, F (xs j) (ys i) = Ok v /\ get_value fill nc n n i j d = Ok (st v)) as G.
  { intros i j I J. specialize (P i j). destruct (Nat.ltb_spec i n), (Nat.ltb_spec j n); try lia. cbn [andb] in P. destruct P as (v & Ev & D).
    exists v. split; [exact Ev|]. unfold get_value. destruct nc; [|now rewrite D].
    destruct (Nat.ltb_spec i n), (Nat.ltb_spec j n); try lia. cbn. now rewrite D. }
  destruct (vtk_ok fill nc n n d) as (l & El & Ll & Pl); [intros i j I J; destruct (G i j I J) as (v & _ & Ev); eauto|].
  assert (forall f, nc = true -> f = the_file f4 fill nc n n d -> exists file, (if nc then Some f else None) = Some file /\ has_size file n n /\ by_asagi F st file n n) as Hfile.
  { intros f N ->. exists (the_file f4 fill nc n n d). split; [now destruct nc|]. split; [reflexivity|now apply square_file]. }
  destruct vtk.
  - rewrite El. cbn [omap obind]. do 2 eexists. split; [reflexivity|]. split; [intros N; exact (Hfile _ N eq_refl)|]. intros _. exists l. split; [reflexivity|]. split; [exact Ll|].
    intros i j I J. destruct (Pl i j I J) as (z & Ez & Nz). destruct (G i j I J) as (v & Ev & E'). rewrite Ez in E'. injection E' as ->.
    destruct (field_ok ilog n roughness Hr (ys j) (xs i)) as (u & Eu). exists u, (st v). split; [exact Eu|]. split; [exact Nz|].
    apply stored_eq. exact (field_eq _ _ _ _ _ _ _ _ _ Hr (same_axes j) (Qeq_sym _ _ (same_axes i)) Ev Eu).
  - cbn [obind]. do 2 eexists. split; [reflexivity|]. split; [intros N; exact (Hfile _ N eq_refl)|]. discriminate.
Qed.
End Square.

(** ** Opening the file; what is wrong *)
Lemma file_opens fill ilog n r file l : 0 <= r -> (1 < n)%nat ->
  create_grid (fun x => x) fill ilog true n n r false = Ok (Some file, l) ->
  exists ox oy sx sy hd lv m, level_open Q 4 0 1 0 Qminus (fun a k => a / Qn k) (GBasic 4)
    (fun s => if String.eqb s "noise.nc" then Some file else None) [] 0 "noise.nc" "z" = Ok (hd, m, lv, SUCCESS) /\
  l_offset Q lv = [Some ox; Some oy] /\ l_scaling Q lv = [Some sx; Some sy] /\
  ox == (1 # 2) / Qn n /\ oy == (1 # 2) / Qn n /\ sx == 1 / Qn n /\ sy == 1 / Qn n.
Proof.
  intros R N H. unfold create_grid in H.
  destruct (compute (fun x => x) ilog true n n r) as [d|]; [|discriminate H]. cbn [obind] in H. injection H as <- _.
  set (X := nc_x (fun x => x) true n n). set (Y := nc_y (fun x => x) true n).
  exists (X 0%nat), (Y 0%nat), ((X (n - 1)%nat - X 0%nat) / Qn (n - 1)), ((Y (n - 1)%nat - Y 0%nat) / Qn (n - 1)).
  assert ((0 <? n)%nat = true) as L0 by (apply Nat.ltb_lt; lia). assert ((n - 1 <? n)%nat = true) as L1 by (apply Nat.ltb_lt; lia).
  assert ((n =? 1)%nat = false) as E1 by (apply Nat.eqb_neq; lia). assert ((n =? 0)%nat = false) as E0 by (apply Nat.eqb_neq; lia).
  do 3 eexists. split.
  { unfold level_open, reader_open, nc_open, obind.
    cbn [String.eqb Ascii.eqb Bool.eqb nth_error app List.length nc_inq_varid the_file f_vars find v_name v_dims Nat.ltb Nat.leb map
         nc_inq_dim f_dims nth fst snd err_eqb r_size r_file r_names collect get_offset get_scaling file_of v_type tsize obind].
    unfold nc_get_var1.
    cbn [String.eqb Ascii.eqb Bool.eqb nth_error app List.length nc_inq_varid the_file f_vars find v_name v_dims map
         nc_inq_dim f_dims nth fst snd err_eqb r_size r_file r_names collect get_offset get_scaling file_of v_type tsize obind v_data numeric andb hd].
    rewrite L0, L1, E1, E0. cbn [andb obind nth r_size snd]. fold X Y. cbn [check]. reflexivity. }
  split; [reflexivity|]. split; [reflexivity|].
  assert (forall k, ~ (k = 0)%nat -> ~ Qn k == 0) as Nz.
  { intros k K E. unfold Qn in E. change 0 with (inject_Z 0) in E. apply (proj1 (inject_Z_injective (Z.of_nat k) 0)) in E. clear -E K. lia. }
  assert ((n <=? 1)%nat = false) as Le by (apply Nat.leb_gt; lia).
  assert (inject_Z (Z.of_nat n - 1) == Qn n - 1) as Em by (unfold Qn, Z.sub; rewrite inject_Z_plus; reflexivity).
  assert (Qn (n - 1) == Qn n - 1) as Es by (unfold Qn; rewrite Nat2Z.inj_sub by lia; exact Em).
  pose proof (Nz n ltac:(lia)) as Z0. pose proof (Nz (n - 1)%nat ltac:(lia)) as Z1. rewrite Es in Z1.
  unfold X, Y, nc_x, nc_y, stored, linspace. rewrite Le. fold (Qn 0) (Qn (n - 1)). change (Qn 0) with 0. rewrite Es, Em.
  split; [ring|]. split; [ring|]. split; field; split; assumption.
Qed.
Lemma not_square : exists w h, (0 < w)%nat /\ (0 < h)%nat /\ forall f4 fill ilog r vtk, 0 <= r -> create_grid f4 fill ilog true w h r vtk = Ub.
Proof.
  exists 2%nat, 1%nat. split; [lia|]. split; [lia|]. intros f4 fill ilog r vtk R. unfold create_grid.
  rewrite (compute_fails f4 ilog true 2 1 r R) by (reflexivity || lia). reflexivity.
Qed.
(** The natural logarithm, rounded down, of 1 to 7. *)
Definition demo_log (n : nat) : nat := if (n <=? 2)%nat then 0%nat else 1%nat.
Lemma vtk_transposed : exists n r f l, create_grid (fun x => x) 0 demo_log true n n r true = Ok (f, Some l) /\
  ~ by_vtk (field demo_log n r) (fun x => x) (nc_x (fun x => x) true n n) (nc_y (fun x => x) true n) l n n.
Proof.
  exists 3%nat, (1 # 5).
  assert (match create_grid (fun x => x) 0 demo_log true 3 3 (1 # 5) true with
          | Ok (_, Some l) => match nth_error l 1 with Some z => Qeq_bool z 0 | None => true end | _ => true end = false) as E by (vm_compute; reflexivity).
  assert (match field demo_log 3 (1 # 5) (nc_x (fun x => x) true 3 3 1) (nc_y (fun x => x) true 3 0) with
          | Ok v => Qeq_bool v 0 | Ub => false end = true) as G by (vm_compute; reflexivity).
  destruct (create_grid (fun x => x) 0 demo_log true 3 3 (1 # 5) true) as [[f [l|]]|]; [|discriminate E|discriminate E].
  exists f, l. split; [reflexivity|]. intros [_ H]. specialize (H 1%nat 0%nat ltac:(lia) ltac:(lia)). destruct H as (v & z & Ev & Ez & EQ).
  rewrite Ev in G. change (0 * 3 + 1)%nat with 1%nat in Ez. rewrite Ez in E. apply Qeq_bool_iff in G. apply Qeq_bool_neq in E.
  apply E. now rewrite EQ, G.
Qed.
Lemma names_transposed : exists n r file l, create_grid (fun x => x) 0 demo_log true n n r false = Ok (Some file, l) /\
  ~ by_name (field demo_log n r) (fun x => x) file n n.
Proof.
  exists 3%nat, (1 # 5).
  assert (match create_grid (fun x => x) 0 demo_log true 3 3 (1 # 5) false with
          | Ok (Some f, _) => match var_at f "z" [1; 0]%nat, var_at f "x" [1%nat], var_at f "y" [0%nat] with
                 | Some z, Some x, Some y => match field demo_log 3 (1 # 5) x y with Ok v => Qeq_bool z v | Ub => true end
                 | _, _, _ => true end | _ => true end = false) as E by (vm_compute; reflexivity).
  destruct (create_grid (fun x => x) 0 demo_log true 3 3 (1 # 5) false) as [[[f|] l]|]; [|discriminate E|discriminate E].
  exists f, l. split; [reflexivity|]. intros H.
  destruct (var_at f "z" [1; 0]%nat) as [z|] eqn:Ez; [|discriminate E]. destruct (var_at f "x" [1%nat]) as [x|] eqn:Ex; [|discriminate E].
  destruct (var_at f "y" [0%nat]) as [y|] eqn:Ey; [|discriminate E].
  destruct (H 1%nat 0%nat x y ltac:(lia) ltac:(lia) Ex Ey) as (v & z' & Ev & Ez' & EQ). rewrite Ez in Ez'. injection Ez' as <-.
  rewrite Ev in E. apply Qeq_bool_neq in E. contradiction.
Qed.
