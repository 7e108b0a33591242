(** * C77-C79: opening levels *)
From Coq Require Import Lia.
From Verif Require Import NetCdfModel FileModel FileSpec FileFacts.

(** ** C77: a level opens exactly if its variable can be read as cells of the grid *)
Theorem C77_verdict_partial : forall D maxd zero one inf sub div g (k : disk D) w m name var w1 m1 lv e,
  named_once D k -> sized g -> (forall f v, k name = Some f -> In v (f_vars D f) -> 0 < tsize (v_type D v)) ->
  level_open D maxd zero one inf sub div g k w m name var = Ok (w1, m1, lv, e) ->
  (e = NOT_OPEN <-> k name = None) /\
  (e = VAR_NOT_FOUND <-> (exists f, k name = Some f) /\ forall v, ~ is_var D k name var v) /\
  (e = UNSUPPORTED_DIMENSIONS <-> exists v, is_var D k name var v /\ maxd < List.length (v_dims D v)) /\
  (e = INVALID_VAR_SIZE <-> exists v el, is_var D k name var v /\ List.length (v_dims D v) <= maxd /\ g = GArray el /\ ~ exists n, tsize (v_type D v) = n * el) /\
  (e = WRONG_SIZE <-> exists v, is_var D k name var v /\ List.length (v_dims D v) <= maxd /\ (forall el, g <> GBasic el) /\
     (forall el, g = GArray el -> exists n, tsize (v_type D v) = n * el) /\ cell_size g m <> 0 /\ tsize (v_type D v) <> cell_size g m).
Proof. exact verdicts. Qed.

Theorem C77_success_partial : forall D maxd zero one inf sub div g (k : disk D) w m name var w1 m1 lv e,
  named_once D k -> sized g -> (forall f v, k name = Some f -> In v (f_vars D f) -> 0 < tsize (v_type D v)) ->
  level_open D maxd zero one inf sub div g k w m name var = Ok (w1, m1, lv, e) ->
  (e = SUCCESS <-> exists v, is_var D k name var v /\ List.length (v_dims D v) <= maxd /\
     (forall el, g = GArray el -> exists n, tsize (v_type D v) = n * el) /\
     ((forall el, g <> GBasic el) -> cell_size g m = 0 \/ tsize (v_type D v) = cell_size g m)).
Proof. exact success_iff. Qed.

(** The size of a cell in memory is then the one in the file (array and struct). *)
Theorem C77_cell_size : forall D maxd zero one inf sub div g (k : disk D) w m name var w1 m1 lv v,
  named_once D k -> sized g -> is_var D k name var v -> (forall el, g <> GBasic el) ->
  level_open D maxd zero one inf sub div g k w m name var = Ok (w1, m1, lv, SUCCESS) -> cell_size g m1 = tsize (v_type D v).
Proof. exact success_size. Qed.

Theorem C77_array : forall D maxd zero one inf sub div el (k : disk D) w m name var w1 m1 lv v,
  named_once D k -> 0 < el -> is_var D k name var v ->
  level_open D maxd zero one inf sub div (GArray el) k w m name var = Ok (w1, m1, lv, SUCCESS) -> readable (GArray el) (v_type D v).
Proof. exact array_readable. Qed.

(** A transfer of [n] cells stays in the memory of [n] cells: always for plain types and arrays, for structs exactly if
    the struct is readable. *)
Theorem C77_plain_transfer : forall g m n b, (forall fs, g <> GStruct fs) -> In b (touched g m n) -> b < n * cell_size g m.
Proof. exact plain_transfer. Qed.
Theorem C77_struct_transfer : forall fs m n, 0 < n -> (forall d l, In (d, l) fs -> 0 < l) ->
  ((forall b, In b (touched (GStruct fs) m n) -> b < n * m) <-> forall d l, In (d, l) fs -> d + l <= m).
Proof. exact struct_transfer. Qed.

Open Scope string_scope.
Definition vx : ncvar nat := Var nat "x" (TNum 8) [1] (fun ix => 10 + 2 * hd 0 ix).
Definition vz : ncvar nat := Var nat "z" (TNum 4) [0; 1] (fun _ => 7).
Definition vc : ncvar nat := Var nat "c" TChar [0] (fun _ => 65).
Definition vp : ncvar nat := Var nat "p" (TUser 12) [0; 1] (fun _ => 0).
Definition v5 : ncvar nat := Var nat "big" (TNum 4) [0; 1; 0; 1; 0] (fun _ => 0).
Definition sample : ncfile nat := NcFile nat [("y", 3); ("x", 5)] [vx; vz; vc; vp; v5].
Definition kd : disk nat := fun s => if String.eqb s "f.nc" then Some sample else None.
Notation op := (level_open nat 4 0 1 1000 Nat.sub Nat.div).
Definition verdict (o : outcome (handles nat * nat * level nat * err)) : option err := match o with Ok (_, _, _, e) => Some e | _ => None end.

Lemma kd_once : named_once nat kd.
Proof.
  intros name f H. unfold kd in H. destruct (String.eqb name "f.nc"); [injection H as <-|discriminate H].
  cbn. repeat constructor; cbn; intuition discriminate.
Qed.
Lemma kd_sizes : forall name f v, kd name = Some f -> In v (f_vars nat f) -> 0 < tsize (v_type nat v).
Proof.
  intros name f v H I. unfold kd in H. destruct (String.eqb name "f.nc"); [injection H as <-|discriminate H].
  cbn in I. destruct I as [<-|[<-|[<-|[<-|[<-|[]]]]]]; cbn; lia.
Qed.
(** All six verdicts occur. *)
Example C77_ex : map verdict
  [op (GBasic 4) kd [] 0 "f.nc" "z"; op (GBasic 4) kd [] 0 "g.nc" "z"; op (GBasic 4) kd [] 0 "f.nc" "q"; op (GBasic 4) kd [] 0 "f.nc" "big";
   op (GArray 8) kd [] 0 "f.nc" "p"; op (GArray 4) kd [] 0 "f.nc" "p"; op (GArray 4) kd [] 5 "f.nc" "p"; op (GStruct [(0, 4); (8, 4)]) kd [] 16 "f.nc" "p";
   op (GStruct [(0, 4); (8, 4)]) kd [] 0 "f.nc" "p"] =
  [Some SUCCESS; Some NOT_OPEN; Some VAR_NOT_FOUND; Some UNSUPPORTED_DIMENSIONS; Some INVALID_VAR_SIZE; Some SUCCESS; Some WRONG_SIZE; Some WRONG_SIZE; Some SUCCESS].
Proof. reflexivity. Qed.
Example C77_ex_use : forall w1 m1 lv e, op (GArray 8) kd [] 0 "f.nc" "p" = Ok (w1, m1, lv, e) -> e <> SUCCESS.
Proof.
  intros w1 m1 lv e H E.
  destruct (proj1 (C77_success_partial nat 4 0 1 1000 Nat.sub Nat.div (GArray 8) kd [] 0 "f.nc" "p" w1 m1 lv e kd_once ltac:(cbn; lia) (kd_sizes "f.nc") H) E)
    as (v & (f & K & I & N) & _ & DV & _).
  destruct (DV 8 eq_refl) as [n EN]. cbn in K. injection K as <-. cbn in I.
  destruct I as [<-|[<-|[<-|[<-|[<-|[]]]]]]; cbn in N, EN; try discriminate N; lia.
Qed.
Example C77_ex_transfer : touched (GStruct [(0, 2); (4, 1)]) 6 2 = [0; 1; 4; 6; 7; 10].
Proof. reflexivity. Qed.

(** Refuted for plain types: the check accepts every variable.  The characters of [c] (or the cells of [p]) cannot be read as
    numbers; the error is ignored, so the blocks keep what the memory contained. *)
Theorem C77_plain_refuted : exists (k : disk nat) var v w1 lv,
  named_once nat k /\ is_var nat k "f.nc" var v /\ op (GBasic 4) k [] 0 "f.nc" var = Ok (w1, 0, lv, SUCCESS) /\
  ~ readable (GBasic 4) (v_type nat v) /\
  forall V (f : NetCdfModel.file V) off size base m, load (GBasic 4) (v_type nat v) f off size base m = Ok m.
Proof.
  exists kd, "c", vc, [Some sample]. eexists. split; [exact kd_once|]. split; [exists sample; cbn; auto 8|]. split; [reflexivity|].
  split; [intros [n E]; discriminate E|reflexivity].
Qed.
(** Refuted for structs: one that is larger than the file's cell is accepted, and a transfer of one cell leaves its memory. *)
Theorem C77_struct_refuted : exists (k : disk nat) fs var v w1 m1 lv,
  named_once nat k /\ is_var nat k "f.nc" var v /\ op (GStruct fs) k [] 0 "f.nc" var = Ok (w1, m1, lv, SUCCESS) /\
  ~ readable (GStruct fs) (v_type nat v) /\ exists b, In b (touched (GStruct fs) m1 1) /\ cell_size (GStruct fs) m1 <= b.
Proof.
  exists kd, [(0, 8); (8, 8)], "p", vp, [Some sample], 12. eexists. split; [exact kd_once|]. split; [exists sample; cbn; auto 8|].
  split; [reflexivity|]. split.
  - intros H. specialize (H 8 8 (or_intror (or_introl eq_refl))). cbn in H. lia.
  - exists 15. split; [vm_compute; auto 20|cbn; lia].
Qed.

(** ** C78: each opened file is closed, once *)
(** Levels opened once each, the largest first, whatever fails. *)
Theorem C78_all_closed_partial : forall D maxd zero one inf sub div grow full g (k : disk D) w0 l,
  (forall c n, n <= grow c n) -> first_largest l -> NoDup (map level_of l) -> named_once D k -> all_usable k l ->
  exists s w, open_all D maxd zero one inf sub div grow full g k (gst0 D w0) l = Ok s /\ delete_all D s = Ok w /\ only w0 w.
Proof. exact all_closed. Qed.
(** Levels opened repeatedly, the largest first: never a file or a reader twice, and never a file of somebody else. *)
Theorem C78_never_twice_partial : forall D maxd zero one inf sub div grow full g (k : disk D) w0 l,
  (forall c n, n <= grow c n) -> first_largest l -> named_once D k -> all_usable k l ->
  exists s w, open_all D maxd zero one inf sub div grow full g k (gst0 D w0) l = Ok s /\ delete_all D s = Ok w /\
    forall h, h < List.length w0 -> nth_error w h = nth_error w0 h.
Proof. exact never_twice. Qed.
(** Full grids: in any order and also repeatedly, if the opens succeed; the files are closed before the grid is. *)
Theorem C78_full_partial : forall D maxd zero one inf sub div grow g (k : disk D) w0 l c,
  named_once D k -> sized g -> (forall name f v, k name = Some f -> In v (f_vars D f) -> 0 < tsize (v_type D v)) ->
  all_usable k l -> fitting maxd g k c l ->
  exists s, open_all D maxd zero one inf sub div grow true g k (gst0 D w0) l = Ok s /\ g_log D s = repeat SUCCESS (List.length l) /\
    delete_all D s = Ok (g_open D s) /\ only w0 (g_open D s).
Proof. exact full_all. Qed.

Definition hist : list (nat * string * string * bool) :=
  [(3, "f.nc", "z", true); (2, "f.nc", "q", true); (1, "f.nc", "p", true); (0, "g.nc", "z", true)].
Definition stat {D} (w : handles D) : list bool := map (fun o => match o with Some _ => true | None => false end) w.
Definition dbl (c n : nat) : nat := c + Nat.max c (n - c).
Notation run grow full := (open_all nat 4 0 1 1000 Nat.sub Nat.div grow full (GArray 4) kd (gst0 nat [Some sample])).
Example C78_ex : exists s w, run dbl false hist = Ok s /\ g_log nat s = [SUCCESS; VAR_NOT_FOUND; WRONG_SIZE; NOT_OPEN] /\
  stat (g_open nat s) = [true; true; false; true] /\ delete_all nat s = Ok w /\ stat w = [true; false; false; false].
Proof. eexists. eexists. vm_compute. repeat split. Qed.
Example C78_ex_first : first_largest hist /\ NoDup (map level_of hist) /\ all_usable kd hist.
Proof.
  split; [|split].
  - cbn. intros y [<-|[<-|[<-|[]]]]; cbn; lia.
  - cbn. repeat constructor; cbn; lia.
  - intros i name var rest [E|[E|[E|[E|[]]]]]; injection E as <- <- <- <-; intros f v K I N; cbn in K; try discriminate K; injection K as <-;
      cbn in I; repeat (destruct I as [<-|I]; [try discriminate N|]); try destruct I; clear; split.
    all: cbn; intros d; intros H; repeat (destruct H as [<-|H]); try destruct H; cbn; try lia.
    all: try (right; intros x [<-|[<-|[<-|[<-|[<-|[]]]]]]; discriminate).
    all: left; exists vx; split; [cbn; auto|]; split; [reflexivity|]; split; [exists 8; reflexivity|reflexivity].
Qed.
Definition hist2 : list (nat * string * string * bool) := [(0, "f.nc", "z", true); (1, "f.nc", "z", true); (0, "f.nc", "z", true)].
Example C78_ex_full : fitting 4 (GArray 4) kd 4 hist2 /\ exists s, run dbl true hist2 = Ok s /\ stat (g_open nat s) = [true; false; false; false].
Proof.
  split.
  - intros i name var rest [E|[E|[E|[]]]]; injection E as <- <- <- <-; (split; [reflexivity|]); exists vz; (split; [exists sample; cbn; auto 8|]);
      (split; [cbn; lia|]); (split; [intros el E; injection E as <-; exists 1; reflexivity|reflexivity]).
  - eexists. vm_compute. split; reflexivity.
Qed.
(** Refuted when a level is opened again, for example after an error of the first attempt: the first reader is overwritten. *)
Definition hist3 : list (nat * string * string * bool) := [(1, "f.nc", "z", true); (0, "f.nc", "p", true); (0, "f.nc", "z", true)].
Theorem C78_reopen_refuted : forall full, first_largest hist3 /\ exists s w, run dbl full hist3 = Ok s /\ g_log nat s = [SUCCESS; WRONG_SIZE; SUCCESS] /\
  delete_all nat s = Ok w /\ exists h f, 1 <= h /\ nth_error w h = Some (Some f).
Proof.
  intros full. split; [cbn; intros y [<-|[<-|[]]]; cbn; lia|].
  assert (E : match run dbl full hist3 with
              | Ok s => match delete_all nat s with Ok w => Some (g_log nat s, stat w) | Ub => None end
              | Ub => None
              end = Some ([SUCCESS; WRONG_SIZE; SUCCESS], [true; false; true; false])) by (destruct full; vm_compute; reflexivity).
  destruct (run dbl full hist3) as [s|]; [|discriminate E]. destruct (delete_all nat s) as [w|] eqn:DA; [|discriminate E].
  injection E as EL EW. exists s, w. split; [reflexivity|]. split; [exact EL|]. split; [exact DA|].
  destruct w as [|a [|b [|[f|] r]]]; try discriminate EW. exists 2, f. split; [lia|reflexivity].
Qed.
(** Refuted when the vector of levels grows: the copies of the levels delete the same readers again, and close their files
    again, for every policy of growing.  Full grids only after a failure. *)
Theorem C78_grow_refuted : forall grow, (forall c n, n <= grow c n) -> exists l s,
  NoDup (map level_of l) /\ run grow false l = Ok s /\ g_log nat s = [SUCCESS; SUCCESS] /\ delete_all nat s = Ub.
Proof.
  intros grow G. assert (O1 : exists w1 lv1, op (GArray 4) kd [Some sample] 0 "f.nc" "z" = Ok (w1, 1, lv1, SUCCESS)) by (eexists; eexists; reflexivity).
  destruct O1 as (w1 & lv1 & O1).
  destruct (grow_twice nat 4 0 1 1000 Nat.sub Nat.div grow false (GArray 4) kd [Some sample] "f.nc" "z" "f.nc" "z" w1 1 lv1 SUCCESS SUCCESS G O1) as (N & s & E & L & U);
    [auto|intros w|].
  2: exists [(0, "f.nc", "z", true); (grow 0 1, "f.nc", "z", true)], s; split; [exact N|split; [exact E|split; [exact L|exact U]]].
  destruct (usable_defined nat 4 0 1 1000 Nat.sub Nat.div (GArray 4) kd hist kd_once (proj2 (proj2 C78_ex_first)) 3 "f.nc" "z" true w 1) as [[[[w2 m2] lv2] e2] O]; [cbn; auto|].
  exists w2, m2, lv2. rewrite O. repeat f_equal.
  apply (proj2 (success_iff nat 4 0 1 1000 Nat.sub Nat.div (GArray 4) kd _ _ "f.nc" "z" _ _ _ _ kd_once (Nat.lt_0_succ 3) (kd_sizes "f.nc") O)).
  exists vz. split; [exists sample; cbn; auto 8|]. split; [cbn; lia|]. split; [intros el E; injection E as <-; exists 1; reflexivity|]. intros _. right. reflexivity.
Qed.
Theorem C78_grow_full_refuted : forall grow, (forall c n, n <= grow c n) -> exists l s,
  NoDup (map level_of l) /\ run grow true l = Ok s /\ g_log nat s = [VAR_NOT_FOUND; SUCCESS] /\ delete_all nat s = Ub.
Proof.
  intros grow G. assert (O1 : exists w1 lv1, op (GArray 4) kd [Some sample] 0 "f.nc" "q" = Ok (w1, 0, lv1, VAR_NOT_FOUND)) by (eexists; eexists; reflexivity).
  destruct O1 as (w1 & lv1 & O1).
  destruct (grow_twice nat 4 0 1 1000 Nat.sub Nat.div grow true (GArray 4) kd [Some sample] "f.nc" "q" "f.nc" "z" w1 0 lv1 VAR_NOT_FOUND SUCCESS G O1) as (N & s & E & L & U);
    [right; discriminate|intros w|].
  2: exists [(0, "f.nc", "q", true); (grow 0 1, "f.nc", "z", true)], s; split; [exact N|split; [exact E|split; [exact L|exact U]]].
  destruct (usable_defined nat 4 0 1 1000 Nat.sub Nat.div (GArray 4) kd hist kd_once (proj2 (proj2 C78_ex_first)) 3 "f.nc" "z" true w 0) as [[[[w2 m2] lv2] e2] O]; [cbn; auto|].
  exists w2, m2, lv2. rewrite O. repeat f_equal.
  apply (proj2 (success_iff nat 4 0 1 1000 Nat.sub Nat.div (GArray 4) kd _ _ "f.nc" "z" _ _ _ _ kd_once (Nat.lt_0_succ 3) (kd_sizes "f.nc") O)).
  exists vz. split; [exists sample; cbn; auto 8|]. split; [cbn; lia|]. split; [intros el E; injection E as <-; exists 1; reflexivity|]. intros _. left. reflexivity.
Qed.

(** ** C79: offset and scaling come from the coordinate variables *)
Theorem C79_axes_partial : forall D maxd zero one inf sub div g (k : disk D) w m name var f v,
  named_once D k -> k name = Some f -> In v (f_vars D f) -> v_name D v = var -> List.length (v_dims D v) <= maxd ->
  good_axes D f v -> (forall d, In d (v_dims D v) -> 0 < snd (nc_inq_dim D f d)) ->
  exists w1 m1 lv e, level_open D maxd zero one inf sub div g k w m name var = Ok (w1, m1, lv, e) /\
    List.length (l_offset D lv) = List.length (v_dims D v) /\ List.length (l_scaling D lv) = List.length (v_dims D v) /\
    forall i d, nth_error (v_dims D v) i = Some d ->
      (exists o, nth_error (l_offset D lv) i = Some (Some o) /\ origin D zero f d o) /\
      (exists c, nth_error (l_scaling D lv) i = Some (Some c) /\ spacing D one inf sub div f d c).
Proof. exact axes_ok. Qed.

Example C79_ex : exists w1 lv, op (GBasic 4) kd [] 0 "f.nc" "z" = Ok (w1, 0, lv, SUCCESS) /\
  l_offset nat lv = [Some 0; Some 10] /\ l_scaling nat lv = [Some 1; Some 2].
Proof. eexists. eexists. split; [reflexivity|]. split; reflexivity. Qed.
Example C79_ex_good : good_axes nat sample vz.
Proof.
  intros d [<-|[<-|[]]].
  - right. cbn. intros x [<-|[<-|[<-|[<-|[<-|[]]]]]]; discriminate.
  - left. exists vx. split; [cbn; auto|]. split; [reflexivity|]. split; [exists 8; reflexivity|reflexivity].
Qed.

(** Refuted: a coordinate variable of characters.  The level opens, but its offset and scaling are never set. *)
Theorem C79_text_refuted : exists (f : ncfile nat) v w1 lv, In v (f_vars nat f) /\ NoDup (map (v_name nat) (f_vars nat f)) /\
  op (GBasic 4) (fun _ => Some f) [] 0 "f.nc" (v_name nat v) = Ok (w1, 0, lv, SUCCESS) /\
  l_offset nat lv = [None] /\ l_scaling nat lv = [None].
Proof.
  exists (NcFile nat [("t", 3)] [Var nat "t" TChar [0] (fun _ => 65); Var nat "z" (TNum 4) [0] (fun _ => 7)]), (Var nat "z" (TNum 4) [0] (fun _ => 7)).
  eexists. eexists. split; [cbn; auto|]. split; [cbn; repeat constructor; cbn; intuition discriminate|]. split; [reflexivity|]. split; reflexivity.
Qed.
(** Refuted: a variable with the name of a dimension and two dimensions, e.g. [lon(y, lon)].  The library reads two indices
    where the reader has one. *)
Theorem C79_curvilinear_refuted : exists (f : ncfile nat) v, In v (f_vars nat f) /\ NoDup (map (v_name nat) (f_vars nat f)) /\
  op (GBasic 4) (fun _ => Some f) [] 0 "f.nc" (v_name nat v) = Ub.
Proof.
  exists (NcFile nat [("y", 3); ("lon", 5)] [Var nat "lon" (TNum 8) [0; 1] (fun _ => 65); Var nat "z" (TNum 4) [0; 1] (fun _ => 7)]), (Var nat "z" (TNum 4) [0; 1] (fun _ => 7)).
  split; [cbn; auto|]. split; [cbn; repeat constructor; cbn; intuition discriminate|]. reflexivity.
Qed.

Print Assumptions C77_verdict_partial.
Print Assumptions C77_success_partial.
Print Assumptions C77_cell_size.
Print Assumptions C77_array.
Print Assumptions C77_plain_transfer.
Print Assumptions C77_struct_transfer.
Print Assumptions C77_plain_refuted.
Print Assumptions C77_struct_refuted.
Print Assumptions C78_all_closed_partial.
Print Assumptions C78_never_twice_partial.
Print Assumptions C78_full_partial.
Print Assumptions C78_grow_refuted.
Print Assumptions C78_grow_full_refuted.
Print Assumptions C78_reopen_refuted.
Print Assumptions C79_axes_partial.
Print Assumptions C79_text_refuted.
Print Assumptions C79_curvilinear_refuted.
