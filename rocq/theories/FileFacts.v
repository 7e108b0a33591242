(** * Facts about opening levels *)
From Coq Require Import Lia.
From Verif Require Import FileModel FileSpec.

Section Facts.
Variable D : Type.
Variable maxd : nat.
Variables (zero one inf : D) (sub : D -> D -> D) (div : D -> nat -> D).
Notation handles := (handles D). Notation disk := (disk D).
Notation origin := (origin D zero). Notation spacing := (spacing D one inf sub div).
Notation lopen := (level_open D maxd zero one inf sub div).

(** ** Looking up variables *)
Lemma varid_some : forall f name v, nc_inq_varid D f name = Some v -> In v (f_vars D f) /\ v_name D v = name.
Proof.
  intros f name v H. apply find_some in H. destruct H as [I E]. apply String.eqb_eq in E. auto.
Qed.
Lemma varid_none : forall f name, nc_inq_varid D f name = None <-> forall v, In v (f_vars D f) -> v_name D v <> name.
Proof.
  intros f name. split.
  - intros H v I E. apply (find_none _ _ H) in I. cbn in I. apply String.eqb_neq in I. auto.
  - intros H. destruct (nc_inq_varid D f name) as [v|] eqn:E; [|reflexivity].
    destruct (varid_some _ _ _ E) as [I N]. destruct (H v I N).
Qed.
Lemma names_inj : forall (l : list (ncvar D)) v w, NoDup (map (v_name D) l) -> In v l -> In w l -> v_name D v = v_name D w -> v = w.
Proof.
  induction l as [|x l IH]; intros v w N V W E; [destruct V|]. cbn in N. inversion N as [|? ? N1 N2]; subst.
  destruct V as [<-|V], W as [<-|W]; auto.
  - destruct N1. rewrite E. apply in_map. exact W.
  - destruct N1. rewrite <- E. apply in_map. exact V.
Qed.
Lemma varid_is : forall f v, NoDup (map (v_name D) (f_vars D f)) -> In v (f_vars D f) -> nc_inq_varid D f (v_name D v) = Some v.
Proof.
  intros f v N I. destruct (nc_inq_varid D f (v_name D v)) as [w|] eqn:E.
  - destruct (varid_some _ _ _ E) as [J F]. f_equal. exact (names_inj _ w v N J I F).
  - apply varid_none with (v := v) in E; [|exact I]. destruct E. reflexivity.
Qed.

(** ** The table of open files *)
Lemma close_eq : forall (w : handles) i x, nth_error w i = Some x -> nth_error (close_at D w i) i = Some None.
Proof. induction w as [|y r IH]; intros [|i] x H; cbn in *; try discriminate; [reflexivity|]. eapply IH. exact H. Qed.
Lemma close_neq : forall (w : handles) i j, i <> j -> nth_error (close_at D w i) j = nth_error w j.
Proof. induction w as [|y r IH]; intros [|i] [|j] H; cbn; try reflexivity; [congruence|]. apply IH. congruence. Qed.
Lemma close_len : forall (w : handles) i, List.length (close_at D w i) = List.length w.
Proof. induction w as [|y r IH]; intros [|i]; cbn; try reflexivity. rewrite IH. reflexivity. Qed.
Lemma close_last : forall (w : handles) x, close_at D (w ++ [x]) (List.length w) = w ++ [None].
Proof. induction w as [|y r IH]; intros x; cbn; [reflexivity|]. rewrite IH. reflexivity. Qed.
Lemma nth_last : forall A (l : list A) x, nth_error (l ++ [x]) (List.length l) = Some x.
Proof. intros A l x. rewrite nth_error_app2, Nat.sub_diag by lia. reflexivity. Qed.

(** What the reader does. *)
Lemma reader_cases : forall k w name var,
  match k name with
  | None => reader_open D maxd k w name var = Ok (w, reader0, NOT_OPEN)
  | Some f =>
      match nc_inq_varid D f var with
      | None => reader_open D maxd k w name var = Ok (w ++ [None], reader0, VAR_NOT_FOUND)
      | Some v => if maxd <? List.length (v_dims D v)
                  then reader_open D maxd k w name var = Ok (w ++ [None], reader0, UNSUPPORTED_DIMENSIONS)
                  else reader_open D maxd k w name var =
                    Ok (w ++ [Some f], Reader (Some (List.length w)) (map (fun d => fst (nc_inq_dim D f d)) (v_dims D v))
                          (map (fun d => snd (nc_inq_dim D f d)) (v_dims D v)) (tsize (v_type D v)), SUCCESS)
      end
  end.
Proof.
  intros k w name var. unfold reader_open, nc_open. destruct (k name) as [f|]; [|reflexivity].
  rewrite nth_last. destruct (nc_inq_varid D f var) as [v|].
  - destruct (maxd <? List.length (v_dims D v)); [|reflexivity]. unfold nc_close. rewrite nth_last, close_last. reflexivity.
  - unfold nc_close. rewrite nth_last, close_last. reflexivity.
Qed.

(** ** The verdict *)
Lemma check_err : forall g m sz m1 e, check g m sz = (m1, e) -> e = SUCCESS \/ e = INVALID_VAR_SIZE \/ e = WRONG_SIZE.
Proof.
  intros g m sz m1 e H. unfold check in H. destruct g.
  - injection H as <- <-. auto.
  - destruct (negb (sz mod el =? 0)); [injection H as <- <-; auto|]. destruct (m =? 0); injection H as <- <-; auto.
    destruct (sz / el =? m); auto.
  - destruct (m =? 0); injection H as <- <-; auto. destruct (sz =? m); auto.
Qed.

Lemma open_cases : forall g k w m name var w1 m1 lv e, lopen g k w m name var = Ok (w1, m1, lv, e) ->
  (k name = None /\ e = NOT_OPEN /\ w1 = w /\ m1 = m /\ lv = Level D (Some reader0) [] []) \/
  exists f, k name = Some f /\
    ((nc_inq_varid D f var = None /\ e = VAR_NOT_FOUND /\ w1 = w ++ [None] /\ m1 = m /\ lv = Level D (Some reader0) [] []) \/
     exists v, nc_inq_varid D f var = Some v /\
       ((maxd < List.length (v_dims D v) /\ e = UNSUPPORTED_DIMENSIONS /\ w1 = w ++ [None] /\ m1 = m /\ lv = Level D (Some reader0) [] []) \/
        (List.length (v_dims D v) <= maxd /\ check g m (tsize (v_type D v)) = (m1, e) /\ w1 = w ++ [Some f] /\
         exists r os ss, lv = Level D (Some r) os ss /\ r_file r = Some (List.length w) /\
           r_names r = map (fun d => fst (nc_inq_dim D f d)) (v_dims D v) /\ r_size r = map (fun d => snd (nc_inq_dim D f d)) (v_dims D v) /\
           collect (List.length (v_dims D v)) (get_offset D zero w1 r) = Ok os /\
           collect (List.length (v_dims D v)) (get_scaling D one inf sub div w1 r) = Ok ss))).
Proof.
  intros g k w m name var w1 m1 lv e H. unfold level_open in H. pose proof (reader_cases k w name var) as RC.
  destruct (k name) as [f|].
  - right. exists f. split; [reflexivity|]. destruct (nc_inq_varid D f var) as [v|].
    + right. exists v. split; [reflexivity|]. destruct (maxd <? List.length (v_dims D v)) eqn:L.
      * left. rewrite RC in H. cbn in H. injection H as <- <- <- <-. apply Nat.ltb_lt in L. auto.
      * right. apply Nat.ltb_ge in L. split; [exact L|]. rewrite RC in H. cbn [obind err_eqb] in H.
        remember (Reader (Some (List.length w)) (map (fun d => fst (nc_inq_dim D f d)) (v_dims D v))
                          (map (fun d => snd (nc_inq_dim D f d)) (v_dims D v)) (tsize (v_type D v))) as r eqn:R.
        assert (RL : List.length (r_size r) = List.length (v_dims D v)) by (subst r; apply map_length).
        rewrite RL in H.
        destruct (collect (List.length (v_dims D v)) (get_offset D zero (w ++ [Some f]) r)) as [os|] eqn:OS; [|discriminate H]. cbn [obind] in H.
        destruct (collect (List.length (v_dims D v)) (get_scaling D one inf sub div (w ++ [Some f]) r)) as [ss|] eqn:SS; [|discriminate H]. cbn [obind] in H.
        assert (RV : r_varsize r = tsize (v_type D v)) by (subst r; reflexivity). rewrite RV in H.
        destruct (check g m (tsize (v_type D v))) as [m' e'] eqn:CH. injection H as <- <- <- <-.
        split; [reflexivity|]. split; [reflexivity|]. exists r, os, ss. subst r. repeat split; assumption.
    + left. rewrite RC in H. cbn in H. injection H as <- <- <- <-. auto.
  - left. rewrite RC in H. cbn in H. injection H as <- <- <- <-. auto.
Qed.

Lemma check_invalid : forall g m sz m1 e, check g m sz = (m1, e) -> sized g ->
  (e = INVALID_VAR_SIZE <-> exists el, g = GArray el /\ ~ exists n, sz = n * el).
Proof.
  intros g m sz m1 e H S. unfold check in H. destruct g as [el|el|fs]; cbn in S.
  - injection H as <- <-. split; [discriminate|]. intros (el' & E & _). discriminate E.
  - destruct (sz mod el =? 0) eqn:Q; cbn in H.
    + apply Nat.eqb_eq in Q. split.
      * intros ->. destruct (m =? 0); [discriminate H|]. destruct (sz / el =? m); discriminate H.
      * intros (el' & E & N). injection E as <-. destruct N. exists (sz / el). rewrite (Nat.div_mod sz el) at 1 by lia. lia.
    + injection H as <- <-. apply Nat.eqb_neq in Q. split; [intros _|reflexivity].
      exists el. split; [reflexivity|]. intros [n E]. subst sz. apply Q. apply Nat.mod_mul. lia.
  - split; [|intros (el' & E & _); discriminate E]. intros ->. destruct (m =? 0); [discriminate H|]. destruct (sz =? m); discriminate H.
Qed.

Lemma check_wrong : forall g m sz m1 e, check g m sz = (m1, e) -> sized g -> 0 < sz ->
  (e = WRONG_SIZE <-> (forall el, g <> GBasic el) /\ e <> INVALID_VAR_SIZE /\ cell_size g m <> 0 /\ sz <> cell_size g m).
Proof.
  intros g m sz m1 e H S P. unfold check in H. destruct g as [el|el|fs]; cbn in S; cbn [cell_size].
  - injection H as <- <-. split; [discriminate|]. intros (E & _). destruct (E el). reflexivity.
  - destruct (sz mod el =? 0) eqn:Q; cbn in H.
    + apply Nat.eqb_eq in Q. assert (SZ : sz = sz / el * el) by (rewrite (Nat.div_mod sz el) at 1 by lia; lia).
      destruct (m =? 0) eqn:M; [apply Nat.eqb_eq in M|apply Nat.eqb_neq in M].
      * injection H as <- <-. subst m. split; [discriminate|]. intros (_ & _ & E & _). lia.
      * injection H as <- <-. destruct (sz / el =? m) eqn:V; [apply Nat.eqb_eq in V|apply Nat.eqb_neq in V].
        -- split; [discriminate|]. intros (_ & _ & _ & E). subst m. lia.
        -- split; [|reflexivity]. intros _. split; [discriminate|]. split; [discriminate|]. split; [nia|]. intros E. apply V. rewrite E. apply Nat.div_mul. lia.
    + injection H as <- <-. split; [discriminate|]. intros (_ & E & _). congruence.
  - destruct (m =? 0) eqn:M; [apply Nat.eqb_eq in M|apply Nat.eqb_neq in M].
    + injection H as <- <-. split; [discriminate|]. intros (_ & _ & E & _). lia.
    + injection H as <- <-. destruct (sz =? m) eqn:V; [apply Nat.eqb_eq in V|apply Nat.eqb_neq in V].
      * split; [discriminate|]. intros (_ & _ & _ & E). lia.
      * split; [|reflexivity]. intros _. repeat split; try discriminate; assumption.
Qed.

(** All six verdicts. *)
Lemma verdicts : forall g k w m name var w1 m1 lv e, named_once D k -> sized g ->
  (forall f v, k name = Some f -> In v (f_vars D f) -> 0 < tsize (v_type D v)) ->
  lopen g k w m name var = Ok (w1, m1, lv, e) ->
  (e = NOT_OPEN <-> k name = None) /\
  (e = VAR_NOT_FOUND <-> (exists f, k name = Some f) /\ forall v, ~ is_var D k name var v) /\
  (e = UNSUPPORTED_DIMENSIONS <-> exists v, is_var D k name var v /\ maxd < List.length (v_dims D v)) /\
  (e = INVALID_VAR_SIZE <-> exists v el, is_var D k name var v /\ List.length (v_dims D v) <= maxd /\ g = GArray el /\ ~ exists n, tsize (v_type D v) = n * el) /\
  (e = WRONG_SIZE <-> exists v, is_var D k name var v /\ List.length (v_dims D v) <= maxd /\ (forall el, g <> GBasic el) /\
     (forall el, g = GArray el -> exists n, tsize (v_type D v) = n * el) /\ cell_size g m <> 0 /\ tsize (v_type D v) <> cell_size g m).
Proof.
  intros g k w m name var w1 m1 lv e NO SG PO H.
  assert (VU : forall f v v', k name = Some f -> nc_inq_varid D f var = Some v -> is_var D k name var v' -> v' = v).
  { intros f v v' K V (f' & K' & I & N). rewrite K in K'. injection K' as <-. destruct (varid_some _ _ _ V) as [I1 N1].
    refine (names_inj _ _ _ (NO _ _ K) I I1 _). congruence. }
  destruct (open_cases _ _ _ _ _ _ _ _ _ _ H) as [(K & -> & _)|(f & K & [(V & -> & _)|(v & V & [(L & -> & _)|(L & CH & _)])])].
  - assert (NV : forall v, ~ is_var D k name var v) by (intros v (f & K' & _); congruence).
    split; [tauto|]. split; [split; [discriminate|]; intros [[f K'] _]; congruence|].
    split; [split; [discriminate|]; intros (v & I & _); destruct (NV v I)|].
    split; [split; [discriminate|]; intros (v & el & I & _); destruct (NV v I)|].
    split; [discriminate|]; intros (v & I & _); destruct (NV v I).
  - assert (NV : forall v, ~ is_var D k name var v).
    { intros v (f' & K' & I & N). rewrite K in K'. injection K' as <-. exact (proj1 (varid_none _ _) V v I N). }
    split; [split; [discriminate|congruence]|]. split; [split; [intros _; split; [eauto|exact NV]|reflexivity]|].
    split; [split; [discriminate|]; intros (v & I & _); destruct (NV v I)|].
    split; [split; [discriminate|]; intros (v & el & I & _); destruct (NV v I)|].
    split; [discriminate|]; intros (v & I & _); destruct (NV v I).
  - assert (IV : is_var D k name var v) by (exists f; split; [exact K|]; exact (varid_some _ _ _ V)).
    split; [split; [discriminate|congruence]|]. split; [split; [discriminate|]; intros [_ N]; destruct (N v IV)|].
    split; [split; [intros _; eauto|reflexivity]|].
    split; [split; [discriminate|]; intros (v' & el & I & L' & _); rewrite (VU f v v' K V I) in L'; lia|].
    split; [discriminate|]; intros (v' & I & L' & _); rewrite (VU f v v' K V I) in L'; lia.
  - assert (IV : is_var D k name var v) by (exists f; split; [exact K|]; exact (varid_some _ _ _ V)).
    pose proof (check_err _ _ _ _ _ CH) as CE. pose proof (check_invalid _ _ _ _ _ CH SG) as CI.
    pose proof (check_wrong _ _ _ _ _ CH SG (PO _ _ K (proj1 (varid_some _ _ _ V)))) as CW.
    split; [split; [intros ->; destruct CE as [CE|[CE|CE]]; discriminate CE|congruence]|].
    split; [split; [intros ->; destruct CE as [CE|[CE|CE]]; discriminate CE|]; intros [_ N]; destruct (N v IV)|].
    split; [split; [intros ->; destruct CE as [CE|[CE|CE]]; discriminate CE|]; intros (v' & I & L'); rewrite (VU f v v' K V I) in L'; lia|].
    split; [rewrite CI; split|rewrite CW; split].
    + intros (el & G & N). exists v, el. auto.
    + intros (v' & el & I & _ & G & N). rewrite (VU f v v' K V I) in N. eauto.
    + intros (GB & EI & C0 & C1). exists v. split; [exact IV|]. split; [exact L|]. split; [exact GB|]. split; [|split; assumption].
      intros el G. destruct (Nat.eq_dec (tsize (v_type D v) mod el) 0) as [Q|Q].
      * exists (tsize (v_type D v) / el). subst g. cbn in SG. rewrite (Nat.div_mod (tsize (v_type D v)) el) at 1 by lia. lia.
      * destruct EI. apply CI. exists el. split; [exact G|]. intros [n E]. apply Q. rewrite E. subst g. cbn in SG. apply Nat.mod_mul. lia.
    + intros (v' & I & _ & GB & GA & C0 & C1). rewrite (VU f v v' K V I) in *. split; [exact GB|]. split; [|split; assumption].
      rewrite CI. intros (el & G & N). destruct N. exact (GA el G).
Qed.

(** ** Readable *)
Lemma array_readable : forall el k w m name var w1 m1 lv v, named_once D k -> 0 < el -> is_var D k name var v ->
  lopen (GArray el) k w m name var = Ok (w1, m1, lv, SUCCESS) -> readable (GArray el) (v_type D v).
Proof.
  intros el k w m name var w1 m1 lv v NO EL (f & K & I & N) H.
  destruct (open_cases _ _ _ _ _ _ _ _ _ _ H) as [(K' & E & _)|(f' & K' & [(V & E & _)|(v' & V & [(L & E & _)|(L & CH & _)])])];
    try discriminate E.
  rewrite K in K'. injection K' as <-. destruct (varid_some _ _ _ V) as [I1 N1].
  assert (v = v') by (apply (names_inj _ v v' (NO _ _ K) I I1); congruence). subst v'.
  cbn. cbn in CH. destruct (tsize (v_type D v) mod el =? 0) eqn:Q; [|discriminate CH]. apply Nat.eqb_eq in Q.
  exists (tsize (v_type D v) / el). rewrite (Nat.div_mod (tsize (v_type D v)) el) at 1 by lia. lia.
Qed.

Lemma success_iff : forall g k w m name var w1 m1 lv e, named_once D k -> sized g ->
  (forall f v, k name = Some f -> In v (f_vars D f) -> 0 < tsize (v_type D v)) ->
  lopen g k w m name var = Ok (w1, m1, lv, e) ->
  (e = SUCCESS <-> exists v, is_var D k name var v /\ List.length (v_dims D v) <= maxd /\
     (forall el, g = GArray el -> exists n, tsize (v_type D v) = n * el) /\
     ((forall el, g <> GBasic el) -> cell_size g m = 0 \/ tsize (v_type D v) = cell_size g m)).
Proof.
  intros g k w m name var w1 m1 lv e NO SG PO H. destruct (verdicts _ _ _ _ _ _ _ _ _ _ NO SG PO H) as (V1 & V2 & V3 & V4 & V5).
  split.
  - intros ->.
    destruct (open_cases _ _ _ _ _ _ _ _ _ _ H) as [(K' & E & _)|(f' & K' & [(V & E & _)|(v & V & [(L & E & _)|(L & CH & _)])])];
      try discriminate E.
    assert (IV : is_var D k name var v) by (exists f'; split; [exact K'|]; exact (varid_some _ _ _ V)).
    exists v. split; [exact IV|]. split; [exact L|].
    assert (DV : forall el, g = GArray el -> exists n, tsize (v_type D v) = n * el).
    { intros el ->. exact (array_readable el k w m name var w1 m1 lv v NO SG IV H). }
    split; [exact DV|]. intros GB. destruct (Nat.eq_dec (cell_size g m) 0) as [Z|Z]; [auto|].
    destruct (Nat.eq_dec (tsize (v_type D v)) (cell_size g m)) as [E|E]; [auto|].
    assert (SUCCESS = WRONG_SIZE) as X; [|discriminate X]. apply V5. exact (ex_intro _ v (conj IV (conj L (conj GB (conj DV (conj Z E)))))).
  - intros (v & IV & L & DV & CS). assert (UQ : forall v', is_var D k name var v' -> v' = v).
    { intros v' (f' & K' & I' & N'). destruct IV as (f & K & I & N). rewrite K in K'. injection K' as <-.
      apply (names_inj _ v' v (NO _ _ K) I' I). congruence. }
    destruct e; [reflexivity| | | | |].
    + destruct IV as (f & K & _). rewrite (proj1 V1 eq_refl) in K. discriminate K.
    + destruct (proj1 V2 eq_refl) as [_ N]. destruct (N v IV).
    + destruct (proj1 V3 eq_refl) as (v' & I & L'). rewrite (UQ v' I) in L'. lia.
    + destruct (proj1 V4 eq_refl) as (v' & el & I & _ & G & N). rewrite (UQ v' I) in N. destruct (N (DV el G)).
    + destruct (proj1 V5 eq_refl) as (v' & I & _ & GB & _ & C0 & C1). rewrite (UQ v' I) in C1. destruct (CS GB); contradiction.
Qed.

Lemma success_size : forall g k w m name var w1 m1 lv v, named_once D k -> sized g -> is_var D k name var v ->
  (forall el, g <> GBasic el) -> lopen g k w m name var = Ok (w1, m1, lv, SUCCESS) -> cell_size g m1 = tsize (v_type D v).
Proof.
  intros g k w m name var w1 m1 lv v NO SG (f & K & I & N) GB H.
  destruct (open_cases _ _ _ _ _ _ _ _ _ _ H) as [(K' & E & _)|(f' & K' & [(V & E & _)|(v' & V & [(L & E & _)|(L & CH & _)])])];
    try discriminate E.
  rewrite K in K'. injection K' as <-. destruct (varid_some _ _ _ V) as [I1 N1].
  assert (v = v') by (apply (names_inj _ v v' (NO _ _ K) I I1); congruence). subst v'.
  destruct g as [el|el|fs]; [destruct (GB el); reflexivity| |]; cbn in CH, SG; cbn.
  - destruct (tsize (v_type D v) mod el =? 0) eqn:Q; [|discriminate CH]. apply Nat.eqb_eq in Q. cbn in CH.
    assert (tsize (v_type D v) = tsize (v_type D v) / el * el) by (rewrite (Nat.div_mod (tsize (v_type D v)) el) at 1 by lia; lia).
    destruct (m =? 0); [injection CH as <-; lia|]. destruct (tsize (v_type D v) / el =? m) eqn:M; [|discriminate CH].
    apply Nat.eqb_eq in M. injection CH as <-. subst m. lia.
  - destruct (m =? 0); [injection CH as <-; reflexivity|]. destruct (tsize (v_type D v) =? m) eqn:M; [|discriminate CH].
    apply Nat.eqb_eq in M. injection CH as <-. lia.
Qed.

Lemma in_touched : forall g m n b, In b (touched g m n) <-> exists c o, c < n /\ In o (type_map g m) /\ b = c * cell_size g m + o.
Proof.
  intros g m n b. unfold touched. rewrite in_flat_map. split.
  - intros (c & I & J). apply in_seq in I. apply in_map_iff in J. destruct J as (o & E & J). exists c, o. split; [lia|]. split; [exact J|]. symmetry. exact E.
  - intros (c & o & L & J & E). exists c. split; [apply in_seq; lia|]. apply in_map_iff. exists o. auto.
Qed.

(** A transfer of [n > 0] cells stays in a buffer of [n] cells exactly if all fields are inside of the cell. *)
Lemma struct_transfer : forall fs m n, 0 < n -> (forall d l, In (d, l) fs -> 0 < l) ->
  ((forall b, In b (touched (GStruct fs) m n) -> b < n * m) <-> forall d l, In (d, l) fs -> d + l <= m).
Proof.
  intros fs m n N P. split.
  - intros H d l I. specialize (P d l I). assert (B := H ((n - 1) * m + (d + l - 1))).
    assert (X : (n - 1) * m + (d + l - 1) < n * m).
    { apply B. apply in_touched. exists (n - 1), (d + l - 1). split; [lia|]. split; [|reflexivity].
      cbn. apply in_flat_map. exists (d, l). split; [exact I|]. apply in_seq. cbn. lia. }
    assert (n * m = (n - 1) * m + m) by (replace n with (n - 1 + 1) at 1 by lia; lia). lia.
  - intros H b I. apply in_touched in I. destruct I as (c & o & L & J & ->). cbn in J |- *. apply in_flat_map in J.
    destruct J as ([d l] & J & K). apply in_seq in K. cbn in K. specialize (H d l J).
    assert (c * m + m <= n * m) by (replace (c * m + m) with ((c + 1) * m) by lia; apply Nat.mul_le_mono_r; lia). lia.
Qed.

Lemma plain_transfer : forall g m n b, (forall fs, g <> GStruct fs) -> In b (touched g m n) -> b < n * cell_size g m.
Proof.
  intros g m n b NS I. apply in_touched in I. destruct I as (c & o & L & J & ->).
  assert (o < cell_size g m) by (destruct g; [| |destruct (NS fields); reflexivity]; cbn in J; apply in_seq in J; cbn; lia).
  assert (c * cell_size g m + cell_size g m <= n * cell_size g m).
  { replace (c * cell_size g m + cell_size g m) with ((c + 1) * cell_size g m) by lia. apply Nat.mul_le_mono_r. lia. }
  lia.
Qed.

(** ** Coordinates *)
Lemma collect_ok : forall A n (f : nat -> outcome A), (forall i, i < n -> exists x, f i = Ok x) -> exists l, collect n f = Ok l.
Proof.
  induction n as [|n IH]; intros f H; cbn; [eauto|]. destruct (IH f) as [l E]; [intros i L; apply H; lia|].
  destruct (H n) as [x X]; [lia|]. rewrite E. cbn. rewrite X. cbn. eauto.
Qed.
Lemma collect_len : forall A n (f : nat -> outcome A) l, collect n f = Ok l -> List.length l = n.
Proof.
  induction n as [|n IH]; intros f l H; cbn in H; [injection H as <-; reflexivity|].
  destruct (collect n f) as [l'|] eqn:E; [|discriminate H]. cbn in H. destruct (f n); [|discriminate H]. cbn in H.
  injection H as <-. rewrite app_length, (IH _ _ E). cbn. lia.
Qed.
Lemma collect_nth : forall A n (f : nat -> outcome A) l i, collect n f = Ok l -> i < n -> exists x, f i = Ok x /\ nth_error l i = Some x.
Proof.
  induction n as [|n IH]; intros f l i H L; cbn in H; [lia|].
  destruct (collect n f) as [l'|] eqn:E; [|discriminate H]. cbn in H. destruct (f n) as [x|] eqn:X; [|discriminate H]. cbn in H.
  injection H as <-. pose proof (collect_len _ _ _ _ E) as LE. destruct (Nat.eq_dec i n) as [->|N].
  - exists x. split; [exact X|]. rewrite <- LE. apply nth_last.
  - destruct (IH f l' i E) as (y & Y & Z); [lia|]. exists y. split; [exact Y|]. rewrite nth_error_app1 by lia. exact Z.
Qed.
Lemma nth_map_dims : forall B (g : nat -> B) (l : list nat) i d b, nth_error l i = Some d -> nth i (map g l) b = g d.
Proof.
  induction l as [|x l IH]; intros [|i] d b H; cbn in *; try discriminate; [congruence|]. exact (IH i d b H).
Qed.

Lemma axis : forall w r h f v i d, NoDup (map (v_name D) (f_vars D f)) ->
  r_file r = Some h -> nth_error w h = Some (Some f) ->
  r_names r = map (fun d => fst (nc_inq_dim D f d)) (v_dims D v) -> r_size r = map (fun d => snd (nc_inq_dim D f d)) (v_dims D v) ->
  nth_error (v_dims D v) i = Some d -> 0 < snd (nc_inq_dim D f d) ->
  (exists x, coordinates D f d x) \/ (forall x, In x (f_vars D f) -> v_name D x <> fst (nc_inq_dim D f d)) ->
  (exists o, get_offset D zero w r i = Ok (Some o) /\ origin f d o) /\
  (exists c, get_scaling D one inf sub div w r i = Ok (Some c) /\ spacing f d c).
Proof.
  intros w r h f v i d ND RF W RN RS I P GA.
  unfold get_offset, get_scaling, file_of. rewrite RF, W. cbn [obind]. rewrite RN, RS, !(nth_map_dims _ _ _ _ _ _ I).
  cbv zeta. unfold FileSpec.origin, FileSpec.spacing. cbv zeta.
  destruct GA as [(x & CX)|N].
  - assert (CX' := CX). destruct CX' as (IX & NX & (b & TX) & DX). rewrite <- NX, (varid_is _ _ ND IX).
    unfold nc_get_var1. rewrite DX, TX. cbn [numeric andb].
    assert (P0 : (0 <? snd (nc_inq_dim D f d)) = true) by (apply Nat.ltb_lt; exact P). rewrite P0.
    split.
    + eexists. split; [reflexivity|]. left. exists x. auto.
    + destruct (snd (nc_inq_dim D f d) =? 1) eqn:E1; [apply Nat.eqb_eq in E1|apply Nat.eqb_neq in E1].
      * eexists. split; [reflexivity|]. left. auto.
      * assert (E0 : (snd (nc_inq_dim D f d) =? 0) = false) by (apply Nat.eqb_neq; lia). rewrite E0.
        assert (EL : (snd (nc_inq_dim D f d) - 1 <? snd (nc_inq_dim D f d)) = true) by (apply Nat.ltb_lt; lia). cbn [obind]. rewrite EL. cbn [obind].
        eexists. split; [reflexivity|]. right. split; [exact E1|]. left. exists x. auto.
  - assert (E : nc_inq_varid D f (fst (nc_inq_dim D f d)) = None) by (apply varid_none; exact N). rewrite E.
    split.
    + eexists. split; [reflexivity|]. right. auto.
    + destruct (snd (nc_inq_dim D f d) =? 1) eqn:E1; [apply Nat.eqb_eq in E1|apply Nat.eqb_neq in E1].
      * eexists. split; [reflexivity|]. left. auto.
      * eexists. split; [reflexivity|]. right. split; [exact E1|]. right. auto.
Qed.

Lemma axes_ok : forall g k w m name var f v, named_once D k -> k name = Some f -> In v (f_vars D f) -> v_name D v = var ->
  List.length (v_dims D v) <= maxd -> good_axes D f v -> (forall d, In d (v_dims D v) -> 0 < snd (nc_inq_dim D f d)) ->
  exists w1 m1 lv e, lopen g k w m name var = Ok (w1, m1, lv, e) /\
    List.length (l_offset D lv) = List.length (v_dims D v) /\ List.length (l_scaling D lv) = List.length (v_dims D v) /\
    forall i d, nth_error (v_dims D v) i = Some d ->
      (exists o, nth_error (l_offset D lv) i = Some (Some o) /\ origin f d o) /\
      (exists c, nth_error (l_scaling D lv) i = Some (Some c) /\ spacing f d c).
Proof.
  intros g k w m name var f v NO K I N L GA P. unfold level_open. pose proof (reader_cases k w name var) as RC. rewrite K in RC.
  assert (VI : nc_inq_varid D f var = Some v) by (rewrite <- N; exact (varid_is _ _ (NO _ _ K) I)). rewrite VI in RC.
  assert (L' : (maxd <? List.length (v_dims D v)) = false) by (apply Nat.ltb_ge; exact L). rewrite L' in RC. rewrite RC. cbn [obind err_eqb].
  remember (Reader (Some (List.length w)) (map (fun d => fst (nc_inq_dim D f d)) (v_dims D v))
                          (map (fun d => snd (nc_inq_dim D f d)) (v_dims D v)) (tsize (v_type D v))) as r eqn:R.
  assert (RL : List.length (r_size r) = List.length (v_dims D v)) by (subst r; apply map_length). rewrite RL.
  assert (AX : forall i d, nth_error (v_dims D v) i = Some d ->
     (exists o, get_offset D zero (w ++ [Some f]) r i = Ok (Some o) /\ origin f d o) /\
     (exists c, get_scaling D one inf sub div (w ++ [Some f]) r i = Ok (Some c) /\ spacing f d c)).
  { intros i d E. assert (ID : In d (v_dims D v)) by (eapply nth_error_In; exact E).
    apply (axis _ r (List.length w) f v i d (NO _ _ K)); try (subst r; reflexivity).
    - apply nth_last. - exact E. - exact (P d ID). - exact (GA d ID). }
  assert (SM : forall i, i < List.length (v_dims D v) -> exists d, nth_error (v_dims D v) i = Some d).
  { intros i H. destruct (nth_error (v_dims D v) i) eqn:E; [eauto|]. apply nth_error_None in E. lia. }
  destruct (collect_ok _ (List.length (v_dims D v)) (get_offset D zero (w ++ [Some f]) r)) as [os OS].
  { intros i H. destruct (SM i H) as [d E]. destruct (AX i d E) as [(o & O & _) _]. eauto. }
  destruct (collect_ok _ (List.length (v_dims D v)) (get_scaling D one inf sub div (w ++ [Some f]) r)) as [ss SS].
  { intros i H. destruct (SM i H) as [d E]. destruct (AX i d E) as [_ (o & O & _)]. eauto. }
  rewrite OS. cbn [obind]. rewrite SS. cbn [obind]. destruct (check g m (r_varsize r)) as [m1 e].
  exists (w ++ [Some f]), m1, (Level D (Some r) os ss), e. split; [reflexivity|].
  split; [exact (collect_len _ _ _ _ OS)|]. split; [exact (collect_len _ _ _ _ SS)|].
  intros i d E. assert (H : i < List.length (v_dims D v)) by (apply nth_error_Some; congruence).
  destruct (AX i d E) as [(o & O & O') (c & C & C')].
  destruct (collect_nth _ _ _ _ i OS H) as (x & X & X'). destruct (collect_nth _ _ _ _ i SS H) as (y & Y & Y').
  cbn. split; [exists o|exists c]; (split; [congruence|assumption]).
Qed.

(** ** Files are closed *)
Variable grow : nat -> nat -> nat.
Notation oall := (open_all D maxd zero one inf sub div grow).
Notation oone := (open_one D maxd zero one inf sub div grow).
Definition holds (s : gst D) (i h : nat) : Prop := exists r, l_file D (g_levels D s i) = Some r /\ r_file r = Some h.
Definition has (s : gst D) (i : nat) : Prop := l_file D (g_levels D s i) <> None.
Record tidy (w0 : handles) (s : gst D) : Prop := {
  t_len : List.length w0 <= List.length (g_open D s);
  t_old : forall h, h < List.length w0 -> nth_error (g_open D s) h = nth_error w0 h;
  t_mine : forall i h, holds s i h -> List.length w0 <= h /\ exists f, nth_error (g_open D s) h = Some (Some f);
  t_apart : forall i j h, holds s i h -> holds s j h -> i = j;
  t_live : forall i, has s i -> ~ In (g_obj D s i) (g_dead D s) /\ g_obj D s i < List.length (g_log D s);
  t_inj : forall i j, has s i -> has s j -> g_obj D s i = g_obj D s j -> i = j;
  t_dead : forall x, In x (g_dead D s) -> x < List.length (g_log D s);
  t_count : forall i, g_count D s <= i -> ~ has s i
}.
Definition neat (w0 : handles) (s : gst D) : Prop :=
  forall h f, List.length w0 <= h -> nth_error (g_open D s) h = Some (Some f) -> exists i, holds s i h.

Lemma tidy0 : forall w0, tidy w0 (gst0 D w0).
Proof.
  intros w0. constructor; cbn; auto.
  - intros i h (r & R & _). discriminate R.
  - intros i j h (r & R & _). discriminate R.
  - intros i H. destruct H. reflexivity.
  - intros i j H. destruct H. reflexivity.
  - intros x [].
Qed.
Lemma holds_has : forall s i h, holds s i h -> has s i.
Proof. intros s i h (r & R & _) E. congruence. Qed.
Lemma existsb_in : forall x l, existsb (Nat.eqb x) l = true <-> In x l.
Proof.
  intros x l. rewrite existsb_exists. split.
  - intros (y & I & E). apply Nat.eqb_eq in E. subst. exact I.
  - intros I. exists x. split; [exact I|apply Nat.eqb_refl].
Qed.

(** Destroying levels: their files are closed, the others are not touched. *)
Lemma destroy_ok : forall w0 s n, tidy w0 s -> exists w d, destroy_all D n s = Ok (w, d) /\ List.length w = List.length (g_open D s) /\
  (forall h, (exists i, i < n /\ holds s i h) -> nth_error w h = Some None) /\
  (forall h, ~ (exists i, i < n /\ holds s i h) -> nth_error w h = nth_error (g_open D s) h) /\
  (forall x, In x d -> In x (g_dead D s) \/ exists i, i < n /\ has s i /\ g_obj D s i = x).
Proof.
  intros w0 s n T. induction n as [|n IH].
  - exists (g_open D s), (g_dead D s). cbn. split; [reflexivity|]. split; [reflexivity|]. split; [intros h (i & L & _); lia|]. split; auto.
  - destruct IH as (w & d & E & LE & CL & KE & DE). cbn [destroy_all]. rewrite E. cbn [obind]. unfold destroy. cbn [fst snd].
    assert (UP : forall h, (exists i, i < n /\ holds s i h) -> exists i, i < S n /\ holds s i h) by (intros h (i & L & Q); exists i; auto).
    destruct (l_file D (g_levels D s n)) as [r|] eqn:LF.
    + assert (HN : has s n) by (unfold has; congruence).
      assert (ND : existsb (Nat.eqb (g_obj D s n)) d = false).
      { destruct (existsb (Nat.eqb (g_obj D s n)) d) eqn:X; [|reflexivity]. apply existsb_in in X. destruct (DE _ X) as [Q|(i & L & HI & Q)].
        - destruct (t_live _ _ T n HN). contradiction.
        - assert (i = n) by exact (t_inj _ _ T i n HI HN Q). lia. }
      rewrite ND. unfold reader_delete. destruct (r_file r) as [h|] eqn:RF.
      * assert (HH : holds s n h) by (exists r; auto).
        destruct (t_mine _ _ T n h HH) as (_ & f & F).
        assert (NN : ~ exists i, i < n /\ holds s i h) by (intros (i & L & Q); assert (i = n) by exact (t_apart _ _ T i n h Q HH); lia).
        unfold nc_close. rewrite (KE h NN), F. cbn [obind]. exists (close_at D w h), (g_obj D s n :: d). split; [reflexivity|].
        split; [rewrite close_len; exact LE|]. split; [|split].
        -- intros h' (i & L & Q). destruct (Nat.eq_dec h h') as [<-|NE].
           ++ eapply close_eq. rewrite (KE h NN). exact F.
           ++ rewrite close_neq by exact NE. apply CL. exists i. split; [|exact Q].
              assert (i <> n). { intros ->. destruct Q as (r' & R' & F'). rewrite LF in R'. injection R' as <-. congruence. } lia.
        -- intros h' NQ. assert (h <> h') by (intros <-; apply NQ; exists n; split; [lia|exact HH]).
           rewrite close_neq by assumption. apply KE. intros Q. apply NQ. exact (UP _ Q).
        -- intros x [<-|I]; [right; exists n; auto|]. destruct (DE x I) as [Q|(i & L & Q)]; [auto|right; exists i; split; [lia|exact Q]].
      * cbn [obind]. exists w, (g_obj D s n :: d). split; [reflexivity|]. split; [exact LE|]. split; [|split].
        -- intros h (i & L & Q). apply CL. exists i. split; [|exact Q].
           assert (i <> n). { intros ->. destruct Q as (r' & R' & F'). rewrite LF in R'. injection R' as <-. congruence. } lia.
        -- intros h NQ. apply KE. intros Q. apply NQ. exact (UP _ Q).
        -- intros x [<-|I]; [right; exists n; auto|]. destruct (DE x I) as [Q|(i & L & Q)]; [auto|right; exists i; split; [lia|exact Q]].
    + exists w, d. split; [reflexivity|]. split; [exact LE|]. split; [|split].
      * intros h (i & L & Q). apply CL. exists i. split; [|exact Q].
        assert (i <> n). { intros ->. destruct Q as (r' & R' & F'). congruence. } lia.
      * intros h NQ. apply KE. intros Q. apply NQ. exact (UP _ Q).
      * intros x I. destruct (DE x I) as [Q|(i & L & Q)]; [auto|right; exists i; split; [lia|exact Q]].
Qed.

(** The vector has room, or nothing in it. *)
Definition room (s : gst D) (n : nat) : Prop := n <= g_cap D s \/ g_count D s = 0.
Lemma resize_ok : forall w0 s i, (forall c n, n <= grow c n) -> tidy w0 s -> room s (i + 1) -> exists s1, resize D grow s (i + 1) = Ok s1 /\ tidy w0 s1 /\
  g_open D s1 = g_open D s /\ g_size D s1 = g_size D s /\ g_levels D s1 = g_levels D s /\ g_obj D s1 = g_obj D s /\ g_dead D s1 = g_dead D s /\
  g_log D s1 = g_log D s /\ i < g_count D s1 /\ (i + 1 <= g_cap D s1 \/ i < g_count D s) /\ (g_cap D s <= g_cap D s1 \/ g_count D s = 0).
Proof.
  intros w0 s i G T R. unfold resize.
  assert (X : forall c cap, g_count D s <= c -> tidy w0 (GSt D (g_open D s) (g_size D s) (g_levels D s) (g_obj D s) (g_dead D s) c cap (g_log D s))).
  { intros c cap L. destruct T as [T1 T2 T3 T4 T5 T6 T7 T8]. constructor; cbn; auto. intros j J. apply T8. lia. }
  destruct (i + 1 <=? g_count D s) eqn:C; [apply Nat.leb_le in C|apply Nat.leb_gt in C].
  - exists s. split; [reflexivity|]. split; [exact T|]. do 6 (split; [reflexivity|]). split; [lia|]. split; [right; lia|left; lia].
  - destruct (i + 1 <=? g_cap D s) eqn:P; [apply Nat.leb_le in P|apply Nat.leb_gt in P].
    + eexists. split; [reflexivity|]. split; [apply X; lia|]. cbn. do 6 (split; [reflexivity|]). lia.
    + destruct R as [R|R]; [lia|]. rewrite R. cbn [destroy_all obind fst snd].
      eexists. split; [reflexivity|]. split; [apply X; lia|]. cbn. pose proof (G 0 (i + 1)). do 6 (split; [reflexivity|]). lia.
Qed.

Lemma tidy_open : forall g k w0 s i name var w1 m1 lv e, tidy w0 s -> i < g_count D s ->
  lopen g k (g_open D s) (g_size D s) name var = Ok (w1, m1, lv, e) ->
  let s2 := GSt D w1 m1 (upd (g_levels D s) i lv) (upd (g_obj D s) i (List.length (g_log D s))) (g_dead D s) (g_count D s) (g_cap D s) (g_log D s ++ [e]) in
  tidy w0 s2 /\
  exists ex, w1 = g_open D s ++ ex /\ (forall h, holds s2 i h <-> h = List.length (g_open D s) /\ exists f, ex = [Some f]) /\
    (ex = [] \/ ex = [None] \/ exists f, ex = [Some f]).
Proof.
  intros g k w0 s i name var w1 m1 lv e T IC H s2.
  assert (A : exists ex, w1 = g_open D s ++ ex /\ (ex = [] \/ ex = [None] \/ exists f, ex = [Some f]) /\
     forall h, (exists r, l_file D lv = Some r /\ r_file r = Some h) <-> h = List.length (g_open D s) /\ exists f, ex = [Some f]).
  { destruct (open_cases _ _ _ _ _ _ _ _ _ _ H) as [(K & _ & -> & _ & ->)|(f & K & [(V & _ & -> & _ & ->)|(v & V & [(L & _ & -> & _ & ->)|(L & CH & W & r & os & ss & -> & RF & _)])])].
    - exists []. rewrite app_nil_r. split; [reflexivity|]. split; [auto|]. intros h. cbn. split.
      + intros (r & R & F). injection R as <-. discriminate F.
      + intros (_ & f & E). discriminate E.
    - exists [None]. split; [reflexivity|]. split; [auto|]. intros h. cbn. split.
      + intros (r & R & F). injection R as <-. discriminate F.
      + intros (_ & f' & E). discriminate E.
    - exists [None]. split; [reflexivity|]. split; [auto|]. intros h. cbn. split.
      + intros (r & R & F). injection R as <-. discriminate F.
      + intros (_ & f' & E). discriminate E.
    - exists [Some f]. split; [exact W|]. split; [eauto|]. intros h. cbn. split.
      + intros (r' & R & F). injection R as <-. rewrite RF in F. injection F as <-. eauto.
      + intros (-> & _). eauto. }
  destruct A as (ex & W & SH & HO).
  assert (HU : forall j h, holds s2 j h <-> if j =? i then h = List.length (g_open D s) /\ exists f, ex = [Some f] else holds s j h).
  { intros j h. unfold holds, s2. cbn [g_levels]. unfold upd. destruct (j =? i); [apply HO|reflexivity]. }
  assert (HA : forall j, j <> i -> (has s2 j <-> has s j)).
  { intros j J. unfold has, s2. cbn [g_levels]. unfold upd. apply Nat.eqb_neq in J. rewrite J. reflexivity. }
  assert (OB : forall j, g_obj D s2 j = if j =? i then List.length (g_log D s) else g_obj D s j) by reflexivity.
  split.
  - constructor.
    + cbn. subst w1. rewrite app_length. pose proof (t_len _ _ T). lia.
    + intros h L. cbn. subst w1. rewrite nth_error_app1 by (pose proof (t_len _ _ T); lia). exact (t_old _ _ T h L).
    + intros j h HH. apply HU in HH. cbn. subst w1. destruct (j =? i).
      * destruct HH as (-> & f & ->). split; [exact (t_len _ _ T)|]. exists f. apply nth_last.
      * destruct (t_mine _ _ T j h HH) as (L & f & F). split; [exact L|]. exists f. rewrite nth_error_app1; [exact F|].
        apply nth_error_Some. congruence.
    + intros j j' h H1 H2. apply HU in H1. apply HU in H2.
      assert (FR : forall q, holds s q (List.length (g_open D s)) -> False).
      { intros q Q. destruct (t_mine _ _ T q _ Q) as (_ & f & F). assert (nth_error (g_open D s) (List.length (g_open D s)) <> None) by congruence.
        apply nth_error_Some in H0. lia. }
      destruct (j =? i) eqn:J, (j' =? i) eqn:J'; try apply Nat.eqb_eq in J; try apply Nat.eqb_eq in J'.
      * congruence.
      * destruct H1 as (-> & _). destruct (FR _ H2).
      * destruct H2 as (-> & _). destruct (FR _ H1).
      * exact (t_apart _ _ T j j' h H1 H2).
    + intros j HJ. rewrite OB. cbn [g_dead g_log s2]. rewrite app_length. cbn. destruct (j =? i) eqn:J.
      * split; [|lia]. intros I. pose proof (t_dead _ _ T _ I). lia.
      * apply Nat.eqb_neq in J. apply HA in HJ; [|exact J]. destruct (t_live _ _ T j HJ). split; [assumption|lia].
    + intros j j' H1 H2 E. rewrite !OB in E. destruct (Nat.eqb_spec j i) as [J|J], (Nat.eqb_spec j' i) as [J'|J'].
      * congruence.
      * apply HA in H2; [|exact J']. destruct (t_live _ _ T j' H2). lia.
      * apply HA in H1; [|exact J]. destruct (t_live _ _ T j H1). lia.
      * apply HA in H1; [|exact J]. apply HA in H2; [|exact J']. exact (t_inj _ _ T j j' H1 H2 E).
    + intros x I. cbn in I |- *. rewrite app_length. pose proof (t_dead _ _ T x I). lia.
    + intros j J. cbn in J. intros HJ. apply HA in HJ; [|lia]. exact (t_count _ _ T j J HJ).
  - exists ex. split; [exact W|]. split; [|exact SH]. intros h. rewrite HU, Nat.eqb_refl. reflexivity.
Qed.

Lemma tidy_close : forall w0 s i, tidy w0 s -> exists s', close_input D s i = Ok s' /\ tidy w0 s' /\
  (forall j h, holds s' j h <-> j <> i /\ holds s j h) /\ ~ has s' i /\
  (forall h, holds s i h -> nth_error (g_open D s') h = Some None) /\ (forall h, ~ holds s i h -> nth_error (g_open D s') h = nth_error (g_open D s) h) /\
  List.length (g_open D s') = List.length (g_open D s) /\ g_log D s' = g_log D s /\ g_count D s' = g_count D s /\ g_cap D s' = g_cap D s.
Proof.
  intros w0 s i T. unfold close_input.
  assert (A : exists w d, destroy D s i (g_open D s, g_dead D s) = Ok (w, d) /\ List.length w = List.length (g_open D s) /\
    (forall h, holds s i h -> nth_error w h = Some None) /\ (forall h, ~ holds s i h -> nth_error w h = nth_error (g_open D s) h) /\
    (forall x, In x d -> In x (g_dead D s) \/ has s i /\ x = g_obj D s i)).
  { unfold destroy. cbn [fst snd]. destruct (l_file D (g_levels D s i)) as [r|] eqn:LF.
    - assert (HN : has s i) by (unfold has; congruence). destruct (t_live _ _ T i HN) as [ND _].
      destruct (existsb (Nat.eqb (g_obj D s i)) (g_dead D s)) eqn:X; [apply existsb_in in X; contradiction|].
      unfold reader_delete. destruct (r_file r) as [h|] eqn:RF.
      + assert (HH : holds s i h) by (exists r; auto). destruct (t_mine _ _ T i h HH) as (_ & f & F).
        unfold nc_close. rewrite F. cbn [obind]. eexists. eexists. split; [reflexivity|]. split; [apply close_len|]. split; [|split].
        * intros h' (r' & R' & F'). rewrite LF in R'. injection R' as <-. assert (h = h') by congruence. subst h'. eapply close_eq. exact F.
        * intros h' N. apply close_neq. intros <-. exact (N HH).
        * intros x [<-|I]; auto.
      + cbn [obind]. eexists. eexists. split; [reflexivity|]. split; [reflexivity|]. split; [|split].
        * intros h' (r' & R' & F'). rewrite LF in R'. injection R' as <-. congruence.
        * reflexivity.
        * intros x [<-|I]; auto.
    - eexists. eexists. split; [reflexivity|]. split; [reflexivity|]. split; [|split].
      + intros h' (r' & R' & F'). congruence.
      + reflexivity.
      + auto. }
  destruct A as (w & d & E & LE & CL & KE & DE). rewrite E. cbn [obind fst snd]. eexists. split; [reflexivity|].
  set (s' := GSt D w _ _ _ _ _ _ _).
  assert (HU : forall j h, holds s' j h <-> j <> i /\ holds s j h).
  { intros j h. unfold holds, s'. cbn [g_levels]. unfold upd. destruct (j =? i) eqn:J.
    - apply Nat.eqb_eq in J. cbn. split; [intros (r & R & _); discriminate R|intros [N _]; contradiction].
    - apply Nat.eqb_neq in J. tauto. }
  assert (HA : forall j, has s' j -> j <> i /\ has s j).
  { intros j. unfold has, s'. cbn [g_levels]. unfold upd. destruct (j =? i) eqn:J; cbn.
    - congruence.
    - apply Nat.eqb_neq in J. tauto. }
  assert (OB : forall j, g_obj D s' j = g_obj D s j) by reflexivity.
  split; [|split; [exact HU|split; [intros Q; apply HA in Q; tauto|split; [exact CL|split; [exact KE|cbn; auto]]]]].
  constructor.
  - cbn. rewrite LE. exact (t_len _ _ T).
  - intros h L. cbn. rewrite KE; [exact (t_old _ _ T h L)|]. intros Q. destruct (t_mine _ _ T i h Q). lia.
  - intros j h Q. apply HU in Q. destruct Q as [N Q]. destruct (t_mine _ _ T j h Q) as (L & f & F). split; [exact L|]. exists f. cbn.
    rewrite KE; [exact F|]. intros P. exact (N (t_apart _ _ T j i h Q P)).
  - intros j j' h H1 H2. apply HU in H1. apply HU in H2. exact (t_apart _ _ T j j' h (proj2 H1) (proj2 H2)).
  - intros j Q. destruct (HA j Q) as [N P]. rewrite OB. destruct (t_live _ _ T j P) as [A B]. split; [|exact B]. cbn. intros I.
    destruct (DE _ I) as [X|[HI X]]; [exact (A X)|]. exact (N (t_inj _ _ T j i P HI X)).
  - intros j j' Q Q' E'. apply (t_inj _ _ T j j'); [apply HA; exact Q|apply HA; exact Q'|exact E'].
  - intros x I. cbn in I |- *. destruct (DE x I) as [X|[HI ->]]; [exact (t_dead _ _ T x X)|exact (proj2 (t_live _ _ T i HI))].
  - intros j J Q. exact (t_count _ _ T j J (proj2 (HA j Q))).
Qed.

(** [Level::open] is defined for all of them. *)
Definition defined (g : gkind) (k : disk) (l : list (nat * string * string * bool)) : Prop :=
  forall i name var rest w m, In (i, name, var, rest) l -> exists r, lopen g k w m name var = Ok r.

Lemma usable_defined : forall g k l, named_once D k -> all_usable k l -> defined g k l.
Proof.
  intros g k l NO U i name var rest w m I. specialize (U i name var rest I).
  destruct (k name) as [f|] eqn:K.
  - destruct (nc_inq_varid D f var) as [v|] eqn:V.
    + destruct (varid_some _ _ _ V) as [J N]. destruct (U f v K J N) as [GA PO].
      destruct (Nat.le_gt_cases (List.length (v_dims D v)) maxd) as [L|L].
      * destruct (axes_ok g k w m name var f v NO K J N L GA PO) as (w1 & m1 & lv & e & E & _). eauto.
      * unfold level_open, reader_open, nc_open. rewrite K, nth_last, V. apply Nat.ltb_lt in L. rewrite L.
        unfold nc_close. rewrite nth_last. cbn. eauto.
    + unfold level_open, reader_open, nc_open. rewrite K, nth_last, V. unfold nc_close. rewrite nth_last. cbn. eauto.
  - unfold level_open, reader_open, nc_open. rewrite K. cbn. eauto.
Qed.

Lemma one_ok : forall full g k w0 s i name var rest, (forall c n, n <= grow c n) -> tidy w0 s -> room s (i + 1) ->
  (exists r, lopen g k (g_open D s) (g_size D s) name var = Ok r) ->
  exists s', oone full g k s (i, name, var, rest) = Ok s' /\ tidy w0 s' /\
    (forall j h, holds s' j h -> j = i \/ holds s j h) /\
    (neat w0 s -> (forall h, ~ holds s i h) -> neat w0 s') /\
    (g_cap D s <= g_cap D s' \/ g_count D s = 0) /\ (i + 1 <= g_cap D s' \/ i < g_count D s).
Proof.
  intros full g k w0 s i name var rest G T R [[[[w1 m1] lv] e] O].
  destruct (resize_ok w0 s i G T R) as (s1 & E1 & T1 & EO & ES & EL & EB & ED & EG & IC & CA & CB).
  unfold open_one. rewrite E1. cbn [obind]. rewrite EO, ES, O. cbn [obind].
  rewrite <- EO, <- ES in O. destruct (tidy_open g k w0 s1 i name var w1 m1 lv e T1 IC O) as [T2 (ex & W & HI & SH)].
  rewrite EO in W, HI. set (s2 := GSt D w1 m1 _ _ _ _ _ _) in *.
  assert (HS : forall j h, holds s1 j h <-> holds s j h) by (intros; unfold holds; rewrite EL; reflexivity).
  assert (HJ : forall j h, j <> i -> (holds s2 j h <-> holds s j h)).
  { intros j h J. rewrite <- HS. unfold holds, s2. cbn [g_levels]. unfold upd. apply Nat.eqb_neq in J. rewrite J. reflexivity. }
  assert (N2 : neat w0 s -> (forall h, ~ holds s i h) -> neat w0 s2).
  { intros N NI h f L F. cbn in F. subst w1. destruct (Nat.lt_ge_cases h (List.length (g_open D s))) as [LT|GE].
    - rewrite nth_error_app1 in F by exact LT. destruct (N h f L F) as (j & Q). exists j. apply HJ; [|exact Q]. intros ->. exact (NI h Q).
    - rewrite nth_error_app2 in F by exact GE. exists i. apply HI.
      destruct SH as [->|[->|[f' ->]]].
      + destruct (h - List.length (g_open D s)); discriminate F.
      + destruct (h - List.length (g_open D s)) as [|q] eqn:Q; [discriminate F|destruct q; discriminate F].
      + destruct (h - List.length (g_open D s)) as [|q] eqn:Q; [|destruct q; discriminate F]. split; [lia|eauto]. }
  destruct (full && err_eqb e SUCCESS && rest).
  - destruct (tidy_close w0 s2 i T2) as (s3 & E3 & T3 & HU & _ & CL & KE & LN & LG & EC & EP). exists s3. split; [exact E3|]. split; [exact T3|].
    split; [|split; [|rewrite EP; cbn; auto]].
    + intros j h Q. apply HU in Q. destruct Q as [J Q]. right. apply HJ; assumption.
    + intros N NI h f L F. assert (Q : ~ holds s2 i h) by (intros Q; rewrite (CL h Q) in F; discriminate F).
      rewrite (KE h Q) in F. destruct (N2 N NI h f L F) as (j & P). exists j. apply HU. split; [|exact P]. intros ->. exact (Q P).
  - exists s2. split; [reflexivity|]. split; [exact T2|]. split; [|split; [exact N2|cbn; auto]].
    intros j h Q. destruct (Nat.eq_dec j i) as [E|J]; [auto|]. right. apply HJ; assumption.
Qed.

(** Histories in which the first level is the largest. *)
Lemma run_ok : forall full g k w0 l s N, (forall c n, n <= grow c n) -> tidy w0 s -> N <= g_cap D s -> defined g k l ->
  (forall x, In x l -> level_of x < N) ->
  exists s', oall full g k s l = Ok s' /\ tidy w0 s' /\
    (neat w0 s -> NoDup (map level_of l) -> (forall x h, In x l -> ~ holds s (level_of x) h) -> neat w0 s').
Proof.
  intros full g k w0. induction l as [|[[[i name] var] rest] l IH]; intros s N G T C DE LT.
  - exists s. cbn. auto.
  - cbn [open_all]. assert (LI : i < N) by exact (LT _ (or_introl eq_refl)).
    destruct (one_ok full g k w0 s i name var rest G T) as (s1 & E1 & T1 & H1 & N1 & CB & CA);
      [left; lia|apply (DE i name var rest); left; reflexivity|].
    assert (C1 : N <= g_cap D s1).
    { destruct CB as [CB|CB]; [lia|]. unfold open_one in E1. unfold resize in E1. rewrite CB in E1.
      destruct (i + 1 <=? 0) eqn:Z; [apply Nat.leb_le in Z; lia|].
      destruct (i + 1 <=? g_cap D s) eqn:P; [|apply Nat.leb_gt in P; lia]. cbn [obind] in E1.
      destruct (lopen g k _ _ name var) as [[[[w1 m1] lv] e]|] eqn:O; [|discriminate E1]. cbn [obind] in E1.
      destruct (full && err_eqb e SUCCESS && rest).
      - unfold close_input in E1. destruct (destroy _ _ _ _); [|discriminate E1]. injection E1 as <-. cbn. exact C.
      - injection E1 as <-. cbn. exact C. }
    destruct (IH s1 N G T1 C1) as (s' & E' & T' & N').
    { intros i' name' var' rest' w m I. apply (DE i' name' var' rest'). right. exact I. }
    { intros x I. apply LT. right. exact I. }
    exists s'. rewrite E1. cbn [obind]. split; [exact E'|]. split; [exact T'|]. intros NE ND NH.
    cbn in ND. inversion ND as [|? ? A B]; subst. apply N'; [|exact B|].
    + apply N1; [exact NE|]. intros h. exact (NH _ h (or_introl eq_refl)).
    + intros x h I Q. destruct (H1 _ _ Q) as [X|X].
      * apply A. apply in_map_iff. exists x. split; [exact X|exact I].
      * exact (NH x h (or_intror I) X).
Qed.

Lemma history : forall full g k w0 l, (forall c n, n <= grow c n) -> first_largest l -> defined g k l ->
  exists s, oall full g k (gst0 D w0) l = Ok s /\ tidy w0 s /\ (NoDup (map level_of l) -> neat w0 s).
Proof.
  intros full g k w0 l G F DE.
  assert (NH : forall i h, ~ holds (gst0 D w0) i h) by (intros i h (r & R & _); discriminate R).
  assert (N0 : neat w0 (gst0 D w0)).
  { cbn. intros h f L Q. assert (nth_error w0 h <> None) by (cbn in Q; congruence). apply nth_error_Some in H. lia. }
  destruct l as [|[[[i name] var] rest] l].
  - exists (gst0 D w0). split; [reflexivity|]. split; [apply tidy0|]. intros _. exact N0.
  - destruct (one_ok full g k w0 (gst0 D w0) i name var rest G (tidy0 w0)) as (s1 & E1 & T1 & H1 & N1 & _ & CA);
      [right; reflexivity|apply (DE i name var rest); left; reflexivity|]. cbn in CA.
    destruct (run_ok full g k w0 l s1 (i + 1) G T1) as (s' & E' & T' & N').
    { lia. }
    { intros i' name' var' rest' w m I. apply (DE i' name' var' rest'). right. exact I. }
    { intros x I. pose proof (F x I). unfold level_of in *. cbn in *. lia. }
    exists s'. cbn [open_all]. rewrite E1. cbn [obind]. split; [exact E'|]. split; [exact T'|]. intros ND.
    cbn in ND. inversion ND as [|? ? A B]; subst. apply N'; [|exact B|].
    + apply N1; [exact N0|]. intros h. apply NH.
    + intros x h I Q. destruct (H1 _ _ Q) as [X|X]; [|exact (NH _ _ X)]. apply A. apply in_map_iff. exists x. split; [exact X|exact I].
Qed.

Lemma all_closed : forall full g k w0 l, (forall c n, n <= grow c n) -> first_largest l -> NoDup (map level_of l) -> named_once D k -> all_usable k l ->
  exists s w, oall full g k (gst0 D w0) l = Ok s /\ delete_all D s = Ok w /\ only w0 w.
Proof.
  intros full g k w0 l G F ND NO U. pose proof (usable_defined g k l NO U) as DE. destruct (history full g k w0 l G F DE) as (s & E & T & N). specialize (N ND).
  destruct (destroy_ok w0 s (g_count D s) T) as (w & d & ED & LE & CL & KE & _). exists s, w. split; [exact E|].
  unfold delete_all. rewrite ED. split; [reflexivity|]. intros h.
  destruct (h <? List.length w0) eqn:HL; [apply Nat.ltb_lt in HL|apply Nat.ltb_ge in HL].
  - rewrite KE; [exact (t_old _ _ T h HL)|]. intros (i & _ & Q). destruct (t_mine _ _ T i h Q). lia.
  - destruct (h <? List.length w) eqn:HW; [apply Nat.ltb_lt in HW|apply Nat.ltb_ge in HW; apply nth_error_None; exact HW].
    destruct (nth_error (g_open D s) h) as [[f|]|] eqn:Q.
    + destruct (N h f HL Q) as (i & P). apply CL. exists i. split; [|exact P].
      destruct (Nat.lt_ge_cases i (g_count D s)) as [L|L]; [exact L|]. destruct (t_count _ _ T i L (holds_has _ _ _ P)).
    + rewrite KE; [exact Q|]. intros (i & _ & P). destruct (t_mine _ _ T i h P) as (_ & f & F'). congruence.
    + apply nth_error_None in Q. lia.
Qed.

(** Levels may be opened several times: no file is closed twice, the files of others are not touched. *)
Lemma never_twice : forall full g k w0 l, (forall c n, n <= grow c n) -> first_largest l -> named_once D k -> all_usable k l ->
  exists s w, oall full g k (gst0 D w0) l = Ok s /\ delete_all D s = Ok w /\ forall h, h < List.length w0 -> nth_error w h = nth_error w0 h.
Proof.
  intros full g k w0 l G F NO U. pose proof (usable_defined g k l NO U) as DE. destruct (history full g k w0 l G F DE) as (s & E & T & _).
  destruct (destroy_ok w0 s (g_count D s) T) as (w & d & ED & LE & CL & KE & _). exists s, w. split; [exact E|].
  unfold delete_all. rewrite ED. split; [reflexivity|]. intros h HL.
  rewrite KE; [exact (t_old _ _ T h HL)|]. intros (i & _ & Q). destruct (t_mine _ _ T i h Q). lia.
Qed.

(** Full grids whose opens succeed: in any order, also repeatedly. *)
Definition bare (w0 : handles) (s : gst D) : Prop :=
  (forall i, ~ has s i) /\ forall h, nth_error (g_open D s) h = if h <? List.length w0 then nth_error w0 h else if h <? List.length (g_open D s) then Some None else None.
Lemma bare_destroy : forall s n, (forall i, ~ has s i) -> destroy_all D n s = Ok (g_open D s, g_dead D s).
Proof.
  intros s n B. induction n as [|n IH]; [reflexivity|]. cbn [destroy_all]. rewrite IH. cbn [obind]. unfold destroy.
  destruct (l_file D (g_levels D s n)) eqn:E; [|reflexivity]. destruct (B n). unfold has. congruence.
Qed.
Lemma full_one : forall g k w0 s i name var s', bare w0 s -> (forall x, In x (g_dead D s) -> x < List.length (g_log D s)) ->
  oone true g k s (i, name, var, true) = Ok s' -> (exists e, g_log D s' = g_log D s ++ [e]) /\
  (g_log D s' = g_log D s ++ [SUCCESS] -> bare w0 s' /\ forall x, In x (g_dead D s') -> x < List.length (g_log D s')).
Proof.
  intros g k w0 s i name var s' [B1 B2] DL H. unfold open_one in H.
  assert (R : exists c cap, resize D grow s (i + 1) = Ok (GSt D (g_open D s) (g_size D s) (g_levels D s) (g_obj D s) (g_dead D s) c cap (g_log D s))).
  { unfold resize. destruct (i + 1 <=? g_count D s); [exists (g_count D s), (g_cap D s); destruct s; reflexivity|].
    destruct (i + 1 <=? g_cap D s); [eauto|]. rewrite bare_destroy by exact B1. cbn. eauto. }
  destruct R as (c & cap & R). rewrite R in H. cbn [obind g_open g_size g_levels g_obj g_dead g_count g_cap g_log] in H.
  destruct (lopen g k (g_open D s) (g_size D s) name var) as [[[[w1 m1] lv] e]|] eqn:O; [|discriminate H]. cbn [obind] in H.
  destruct (err_eqb e SUCCESS) eqn:EE.
  - assert (e = SUCCESS) as -> by (destruct e; [reflexivity|discriminate EE..]). cbn [andb] in H. unfold close_input in H.
    destruct (open_cases _ _ _ _ _ _ _ _ _ _ O) as [(K & E & _)|(f & K & [(V & E & _)|(v & V & [(L & E & _)|(L & CH & W & r & os & ss & LV & RF & _)])])]; try discriminate E.
    subst lv. unfold destroy in H. cbn [g_levels g_obj g_open g_dead fst snd] in H. unfold upd in H at 1 2 3. rewrite !Nat.eqb_refl in H. cbn [l_file] in H.
    destruct (existsb (Nat.eqb (List.length (g_log D s))) (g_dead D s)) eqn:X.
    { apply existsb_in in X. apply DL in X. lia. }
    unfold reader_delete in H. rewrite RF in H. unfold nc_close in H. rewrite W, nth_last in H. cbn [obind fst snd] in H. injection H as <-.
    cbn [g_log g_open g_dead]. split; [eauto|]. intros _. split; [split|].
    + intros j. unfold has. cbn [g_levels]. unfold upd. destruct (j =? i); cbn; [congruence|]. exact (B1 j).
    + intros h. cbn [g_open]. rewrite close_len, app_length. cbn [List.length].
      destruct (Nat.eq_dec h (List.length (g_open D s))) as [->|NE].
      * rewrite (close_eq _ _ _ (nth_last _ _ _)). assert (LW : List.length w0 <= List.length (g_open D s)).
        { destruct (Nat.le_gt_cases (List.length w0) (List.length (g_open D s))) as [LE|GT]; [exact LE|].
          specialize (B2 (List.length (g_open D s))). apply Nat.ltb_lt in GT as GT'. rewrite GT' in B2.
          assert (nth_error w0 (List.length (g_open D s)) = None) by (rewrite <- B2; apply nth_error_None; lia).
          apply nth_error_None in H. lia. }
        destruct (List.length (g_open D s) <? List.length w0) eqn:A; [apply Nat.ltb_lt in A; lia|].
        destruct (List.length (g_open D s) <? List.length (g_open D s) + 1) eqn:A'; [reflexivity|apply Nat.ltb_ge in A'; lia].
      * rewrite close_neq by congruence.
        destruct (Nat.lt_ge_cases h (List.length (g_open D s))) as [LT|GE].
        -- rewrite nth_error_app1 by exact LT. rewrite B2. apply Nat.ltb_lt in LT as LT'. rewrite LT'.
           destruct (h <? List.length (g_open D s) + 1) eqn:A; [reflexivity|apply Nat.ltb_ge in A; lia].
        -- assert (N : nth_error (g_open D s ++ [Some f]) h = None) by (apply nth_error_None; rewrite app_length; cbn; lia). rewrite N.
           assert (N' : nth_error (g_open D s) h = None) by (apply nth_error_None; lia). specialize (B2 h). rewrite N' in B2.
           destruct (h <? List.length w0); [exact B2|]. destruct (h <? List.length (g_open D s) + 1) eqn:A; [apply Nat.ltb_lt in A; lia|reflexivity].
    + intros x [<-|I]; rewrite app_length; cbn; [lia|]. apply DL in I. lia.
  - assert (e <> SUCCESS) by (intros ->; discriminate EE). cbn [andb] in H. injection H as <-. cbn [g_log]. split; [eauto|]. intros Q.
    apply app_inv_head in Q. injection Q as Q. contradiction.
Qed.

Lemma log_grows : forall full g k l s s', oall full g k s l = Ok s' -> exists es, g_log D s' = g_log D s ++ es /\ List.length es = List.length l.
Proof.
  intros full g k. induction l as [|[[[i name] var] rest] l IH]; intros s s' H; cbn [open_all] in H.
  - injection H as <-. exists []. rewrite app_nil_r. auto.
  - destruct (oone full g k s (i, name, var, rest)) as [s1|] eqn:O; [|discriminate H]. cbn [obind] in H.
    assert (exists e, g_log D s1 = g_log D s ++ [e]) as [e E].
    { unfold open_one in O. destruct (resize D grow s (i + 1)) as [s2|] eqn:R; [|discriminate O]. cbn [obind] in O.
      assert (LG : g_log D s2 = g_log D s).
      { unfold resize in R. destruct (_ <=? _); [injection R as <-; reflexivity|]. destruct (_ <=? _); [injection R as <-; reflexivity|].
        destruct (destroy_all _ _ _); [|discriminate R]. injection R as <-. reflexivity. }
      destruct (lopen g k _ _ name var) as [[[[w1 m1] lv] e]|]; [|discriminate O]. cbn [obind] in O. exists e.
      destruct (full && err_eqb e SUCCESS && rest).
      - unfold close_input in O. destruct (destroy _ _ _ _); [|discriminate O]. injection O as <-. cbn. rewrite LG. reflexivity.
      - injection O as <-. cbn. rewrite LG. reflexivity. }
    destruct (IH _ _ H) as (es & F & L). exists (e :: es). rewrite F, E, <- app_assoc. cbn. auto.
Qed.

Lemma full_step_ok : forall g k w0 s i name var w1 m1 lv, bare w0 s -> (forall x, In x (g_dead D s) -> x < List.length (g_log D s)) ->
  lopen g k (g_open D s) (g_size D s) name var = Ok (w1, m1, lv, SUCCESS) ->
  exists s', oone true g k s (i, name, var, true) = Ok s' /\ g_log D s' = g_log D s ++ [SUCCESS] /\ g_size D s' = m1.
Proof.
  intros g k w0 s i name var w1 m1 lv [B1 B2] DL O. unfold open_one.
  assert (R : exists c cap, resize D grow s (i + 1) = Ok (GSt D (g_open D s) (g_size D s) (g_levels D s) (g_obj D s) (g_dead D s) c cap (g_log D s))).
  { unfold resize. destruct (i + 1 <=? g_count D s); [exists (g_count D s), (g_cap D s); destruct s; reflexivity|].
    destruct (i + 1 <=? g_cap D s); [eauto|]. rewrite bare_destroy by exact B1. cbn. eauto. }
  destruct R as (c & cap & R). rewrite R. cbn [obind g_open g_size g_levels g_obj g_dead g_count g_cap g_log]. rewrite O. cbn [obind err_eqb andb].
  unfold close_input, destroy. cbn [g_levels g_obj g_open g_dead fst snd]. unfold upd at 1 2 3. rewrite !Nat.eqb_refl.
  destruct (open_cases _ _ _ _ _ _ _ _ _ _ O) as [(K & E & _)|(f & K & [(V & E & _)|(v & V & [(L & E & _)|(L & CH & W & r & os & ss & LV & RF & _)])])]; try discriminate E.
  subst lv. cbn [l_file]. destruct (existsb (Nat.eqb (List.length (g_log D s))) (g_dead D s)) eqn:X.
  { apply existsb_in in X. apply DL in X. lia. }
  unfold reader_delete. rewrite RF. unfold nc_close. rewrite W, nth_last. cbn [obind fst snd]. eexists. split; [reflexivity|]. cbn. auto.
Qed.

Lemma full_all : forall g k w0 l c, named_once D k -> sized g -> (forall name f v, k name = Some f -> In v (f_vars D f) -> 0 < tsize (v_type D v)) ->
  all_usable k l -> fitting maxd g k c l ->
  exists s, oall true g k (gst0 D w0) l = Ok s /\ g_log D s = repeat SUCCESS (List.length l) /\ delete_all D s = Ok (g_open D s) /\ only w0 (g_open D s).
Proof.
  intros g k w0 l c NO SG PO U FI.
  assert (A : forall l s, all_usable k l -> fitting maxd g k c l -> bare w0 s -> (forall x, In x (g_dead D s) -> x < List.length (g_log D s)) ->
    ((forall el, g <> GBasic el) -> cell_size g (g_size D s) = 0 \/ cell_size g (g_size D s) = c) ->
    exists s', oall true g k s l = Ok s' /\ g_log D s' = g_log D s ++ repeat SUCCESS (List.length l) /\ bare w0 s').
  { clear l U FI. induction l as [|[[[i name] var] rest] l IH]; intros s U FI B DL CS.
    - exists s. cbn. rewrite app_nil_r. auto.
    - destruct (FI i name var rest (or_introl eq_refl)) as (-> & v & IV & L & DV & SC).
      destruct (usable_defined g k _ NO U i name var true (g_open D s) (g_size D s) (or_introl eq_refl)) as [[[[w1 m1] lv] e] O].
      assert (e = SUCCESS).
      { apply (success_iff _ _ _ _ _ _ _ _ _ _ NO SG (PO name) O). exists v. split; [exact IV|]. split; [exact L|]. split; [exact DV|].
        intros GB. rewrite (SC GB). destruct (CS GB); auto. }
      subst e. destruct (full_step_ok g k w0 s i name var w1 m1 lv B DL O) as (s1 & E1 & L1 & Z1).
      destruct (full_one g k w0 s i name var s1 B DL E1) as [_ N]. destruct (N L1) as [B1 D1].
      destruct (IH s1) as (s' & E' & LG & B').
      + intros i' n' v' r' I. apply (U i' n' v' r'). right. exact I.
      + intros i' n' v' r' I. apply (FI i' n' v' r'). right. exact I.
      + exact B1.
      + exact D1.
      + intros GB. right. rewrite Z1, <- (SC GB). exact (success_size _ _ _ _ _ _ _ _ _ _ NO SG IV GB O).
      + exists s'. cbn [open_all]. rewrite E1. cbn [obind]. split; [exact E'|]. split; [|exact B'].
        rewrite LG, L1, <- app_assoc. reflexivity. }
  destruct (A l (gst0 D w0) U FI) as (s & E & LG & [B1 B2]).
  - split; [intros i Q; apply Q; reflexivity|]. cbn [g_open gst0]. intros h. destruct (h <? List.length w0) eqn:L; [reflexivity|].
    apply Nat.ltb_ge in L. apply nth_error_None. exact L.
  - intros x [].
  - intros GB. left. destruct g as [el|el|fs]; [destruct (GB el); reflexivity|reflexivity..].
  - exists s. split; [exact E|]. split; [exact LG|]. split; [|exact B2]. unfold delete_all. rewrite bare_destroy by exact B1. reflexivity.
Qed.

(** A reader that was deleted when the vector grew is deleted again at the end. *)
Lemma dead_twice : forall s, 0 < g_count D s -> has s 0 -> In (g_obj D s 0) (g_dead D s) -> delete_all D s = Ub.
Proof.
  intros s C H I. unfold delete_all.
  assert (A : forall n, 0 < n -> destroy_all D n s = Ub).
  { induction n as [|n IH]; intros L; [lia|]. cbn [destroy_all]. destruct n as [|n].
    - cbn. unfold destroy. cbn [snd]. apply existsb_in in I. unfold has in H. destruct (l_file D (g_levels D s 0)) as [r|]; [|congruence]. rewrite I. reflexivity.
    - rewrite IH by lia. reflexivity. }
  rewrite A by exact C. reflexivity.
Qed.

Lemma open_has : forall g k w m name var w1 m1 lv e, lopen g k w m name var = Ok (w1, m1, lv, e) -> l_file D lv <> None.
Proof.
  intros g k w m name var w1 m1 lv e O.
  destruct (open_cases _ _ _ _ _ _ _ _ _ _ O) as [(_ & _ & _ & _ & ->)|(f & _ & [(_ & _ & _ & _ & ->)|(v & _ & [(_ & _ & _ & _ & ->)|(_ & _ & _ & r & os & ss & -> & _)])])]; discriminate.
Qed.
Lemma grow_twice : forall full g k w0 n1 v1 n2 v2 w1 m1 lv1 e1 e2, (forall c n, n <= grow c n) ->
  lopen g k w0 0 n1 v1 = Ok (w1, m1, lv1, e1) -> (full = false \/ e1 <> SUCCESS) ->
  (forall w, exists w2 m2 lv2, lopen g k w m1 n2 v2 = Ok (w2, m2, lv2, e2)) ->
  let l := [(0, n1, v1, true); (grow 0 1, n2, v2, true)] in
  NoDup (map level_of l) /\ exists s, oall full g k (gst0 D w0) l = Ok s /\ g_log D s = [e1; e2] /\ delete_all D s = Ub.
Proof.
  intros full g k w0 n1 v1 n2 v2 w1 m1 lv1 e1 e2 G O1 FE O2 l. pose proof (G 0 1) as G1.
  split; [cbn; constructor; [cbn; lia|constructor; [auto|constructor]]|].
  set (s1 := GSt D w1 m1 (upd (fun _ => level0 D) 0 lv1) (upd (fun _ => 0) 0 0) [] 1 (grow 0 1) [e1]).
  assert (E1 : oone full g k (gst0 D w0) (0, n1, v1, true) = Ok s1).
  { unfold open_one. cbn [Nat.add]. unfold resize. cbn [gst0 g_count g_cap Nat.leb destroy_all obind fst snd g_open g_dead g_size g_levels g_obj g_log].
    rewrite O1. cbn [obind]. assert (full && err_eqb e1 SUCCESS && true = false) as ->; [|reflexivity].
    destruct FE as [->|N]; [reflexivity|]. destruct e1; [contradiction|rewrite andb_false_r; reflexivity..]. }
  assert (T1 : tidy w0 s1).
  { destruct (one_ok full g k w0 (gst0 D w0) 0 n1 v1 true G (tidy0 w0)) as (s' & E' & T' & _); [right; reflexivity|eauto|].
    rewrite E1 in E'. injection E' as <-. exact T'. }
  destruct (destroy_ok w0 s1 1 T1) as (w & d & ED & _).
  assert (DE : d = [0]).
  { cbn [destroy_all obind] in ED. unfold destroy in ED. cbn [s1 g_levels g_obj g_open g_dead fst snd] in ED. change (upd (fun _ => level0 D) 0 lv1 0) with lv1 in ED.
    destruct (l_file D lv1) as [r|] eqn:LF; [|destruct (open_has _ _ _ _ _ _ _ _ _ _ O1 LF)].
    cbn [existsb] in ED. destruct (reader_delete D w1 r); [|discriminate ED]. cbn in ED. injection ED as _ <-. reflexivity. }
  subst d. destruct (O2 w) as (w2 & m2 & lv2 & O).
  unfold l. cbn [open_all]. rewrite E1. cbn [obind]. unfold open_one at 1. unfold resize. cbn [s1 g_count g_cap].
  destruct (grow 0 1 + 1 <=? 1) eqn:C; [apply Nat.leb_le in C; lia|].
  destruct (grow 0 1 + 1 <=? grow 0 1) eqn:C2; [apply Nat.leb_le in C2; lia|].
  fold s1. change (g_count D s1) with 1. rewrite ED. cbn [obind fst snd g_open g_size g_levels g_obj g_dead g_count g_cap g_log s1]. rewrite O. cbn [obind].
  set (s2 := GSt D w2 m2 _ _ _ _ _ _).
  assert (NE : 0 =? grow 0 1 = false) by (apply Nat.eqb_neq; lia).
  assert (H0 : has s2 0).
  { unfold has, s2. cbn [g_levels]. unfold upd at 1. rewrite NE. cbn. exact (open_has _ _ _ _ _ _ _ _ _ _ O1). }
  assert (OB : g_obj D s2 0 = 0) by (unfold s2; cbn [g_obj]; unfold upd at 1; rewrite NE; reflexivity).
  destruct (full && err_eqb e2 SUCCESS && true).
  - assert (CI : exists w3 x, close_input D s2 (grow 0 1) = Ok (GSt D w3 m2 (upd (g_levels D s2) (grow 0 1) (Level D None (l_offset D (g_levels D s2 (grow 0 1))) (l_scaling D (g_levels D s2 (grow 0 1))))) (g_obj D s2) (x :: [0]) (grow 0 1 + 1) (grow 1 (grow 0 1 + 1)) [e1; e2])).
    { unfold close_input, destroy. cbn [s2 g_levels g_obj g_open g_dead fst snd]. unfold upd at 1 3 5. rewrite Nat.eqb_refl.
      destruct (l_file D lv2) as [r|] eqn:LF; [|destruct (open_has _ _ _ _ _ _ _ _ _ _ O LF)].
      cbn [existsb List.length Nat.eqb orb]. unfold reader_delete.
      destruct (open_cases _ _ _ _ _ _ _ _ _ _ O) as [(_ & _ & _ & _ & ->)|(f & _ & [(_ & _ & _ & _ & ->)|(v & _ & [(_ & _ & _ & _ & ->)|(_ & _ & W & r' & os & ss & -> & RF & _)])])]; cbn [l_file] in LF; injection LF as <-.
      1-3: cbn [reader0 r_file obind fst snd]; eexists; eexists; reflexivity.
      rewrite RF. unfold nc_close. rewrite W, nth_last. cbn [obind fst snd]. eexists. eexists. reflexivity. }
    destruct CI as (w3 & x & CI). rewrite CI. cbn [obind]. eexists. split; [reflexivity|]. split; [reflexivity|]. apply dead_twice.
    + cbn. lia.
    + unfold has. cbn [g_levels]. unfold upd at 1. rewrite NE. exact H0.
    + cbn [g_obj g_dead]. rewrite OB. cbn. auto.
  - cbn [obind]. exists s2. split; [reflexivity|]. split; [reflexivity|]. apply dead_twice; [cbn; lia|exact H0|]. rewrite OB. cbn. auto.
Qed.
End Facts.
