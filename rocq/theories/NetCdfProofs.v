(** * Correctness of block loading *)
From Verif Require Export SpecProofs NetCdfModel.

Lemma upd_same {A} (f : nat -> A) i a : upd f i a i = a.
Proof. unfold upd. now rewrite Nat.eqb_refl. Qed.
Lemma upd_other {A} (f : nat -> A) i a j : j <> i -> upd f i a j = f j.
Proof. unfold upd. intros. now destruct (Nat.eqb_spec j i). Qed.

Lemma mem_wr_ok {V} (m : mem V) i v : i < m_len m ->
  mem_wr m i v = Ok (Mem (m_len m) (upd (m_at m) i v)).
Proof. unfold mem_wr. intros. now destruct (Nat.ltb_spec i (m_len m)); [|lia]. Qed.
Lemma mem_rd_ok {V} (m : mem V) i : i < m_len m -> mem_rd m i = Ok (m_at m i).
Proof. unfold mem_rd. intros. now destruct (Nat.ltb_spec i (m_len m)); [|lia]. Qed.

Section Proofs.
  Context {V : Type}.

  (** ** Strided writes *)
  Lemma apply_writes_spec (ws : list (nat * V)) (m : mem V) :
    Forall (fun w => fst w < m_len m) ws -> NoDup (map fst ws) ->
    exists m', apply_writes m ws = Ok m' /\ m_len m' = m_len m /\
      (forall p v, In (p, v) ws -> m_at m' p = Some v) /\
      (forall p, ~ In p (map fst ws) -> m_at m' p = m_at m p).
  Proof.
    revert m; induction ws as [|[p v] ws IH]; intros m Hb Hnd; cbn.
    - exists m. repeat split; auto. intros ? ? [].
    - inversion Hb; inversion Hnd; subst; cbn in *.
      rewrite mem_wr_ok by auto. cbn.
      destruct (IH (Mem (m_len m) (upd (m_at m) p (Some v)))) as (m' & E & Hl & Hin & Hout); auto.
      exists m'. rewrite E. repeat split; auto.
      + intros p' v' [[= <- <-]|Hi]; auto.
        rewrite Hout by auto. apply upd_same.
      + intros p' Hp'. rewrite Hout by tauto. apply upd_other. intros ->; tauto.
  Qed.

  Lemma imap_of_cons s s1 size :
    imap_of (s :: s1 :: size) =
    match imap_of (s1 :: size) with
    | m1 :: _ => m1 * s1 :: imap_of (s1 :: size)
    | [] => [1]
    end.
  Proof. reflexivity. Qed.

  Lemma imap_of_length size : length (imap_of size) = length size.
  Proof.
    induction size as [|s [|s1 size] IH]; auto. rewrite imap_of_cons.
    destruct (imap_of (s1 :: size)); cbn in *; lia.
  Qed.

  Lemma dot_imap size k : length k = length size -> dot (imap_of size) k = row_major size k.
  Proof.
    assert (H : forall s size, exists m, imap_of (s :: size) = volume size :: m).
    { intros s0 size0; revert s0. induction size0 as [|s1 size0 IH]; intros s0.
      - cbn. eauto.
      - destruct (IH s1) as [m E]. rewrite imap_of_cons, E. cbn [volume].
        eexists. f_equal. lia. }
    revert k; induction size as [|s size IH]; intros [|i k] Hl; cbn in Hl; try discriminate; auto.
    destruct (H s size) as [m E]. pose proof E as E'.
    destruct size as [|s1 size].
    - destruct k; [|discriminate]. cbn. lia.
    - rewrite imap_of_cons in E'. rewrite E.
      destruct (imap_of (s1 :: size)) as [|m1 ms] eqn:E1.
      + pose proof (imap_of_length (s1 :: size)) as HL. rewrite E1 in HL. discriminate.
      + injection E' as _ Em. subst m.
        change (volume (s1 :: size) * i + dot (m1 :: ms) k =
                i * volume (s1 :: size) + row_major (s1 :: size) k).
        rewrite IH by (cbn in *; lia). lia.
  Qed.

  Lemma in_box_le act bs k : Forall2 le act bs -> in_box act k -> in_box bs k.
  Proof.
    intros Hle; revert k; induction Hle as [|a b act bs Hab Hle IH]; intros k Hk; auto.
    apply in_box_inv_cons in Hk as (? & ? & -> & ? & ?). apply in_box_cons. split; auto. lia.
  Qed.

  Lemma row_major_mono_box act bs k k' :
    Forall2 le act bs -> in_box act k -> in_box act k' ->
    row_major act k < row_major act k' -> row_major bs k < row_major bs k'.
  Proof.
    intros Hle; revert k k'; induction Hle as [|a b act bs Hab Hle IH]; intros k k' Hk Hk'.
    - apply in_box_inv_nil in Hk as ->. apply in_box_inv_nil in Hk' as ->. cbn. lia.
    - apply in_box_inv_cons in Hk as (i & ks & -> & Hi & Hk).
      apply in_box_inv_cons in Hk' as (j & ks' & -> & Hj & Hk'). cbn. intros H.
      pose proof (row_major_lt _ _ Hk). pose proof (row_major_lt _ _ Hk').
      pose proof (row_major_lt _ _ (in_box_le _ _ _ Hle Hk)).
      pose proof (row_major_lt _ _ (in_box_le _ _ _ Hle Hk')).
      destruct (lt_eq_lt_dec i j) as [[Hij|Hij]|Hij].
      + assert ((i + 1) * volume bs <= j * volume bs) by (apply Nat.mul_le_mono_r; lia). lia.
      + subst j. specialize (IH _ _ Hk Hk'). lia.
      + assert ((j + 1) * volume act <= i * volume act) by (apply Nat.mul_le_mono_r; lia). lia.
  Qed.

  Lemma slab_ok_act fsize off bs :
    in_box fsize off -> length bs = length fsize ->
    slab_ok fsize off (act_size fsize off bs) = true /\
    Forall2 le (act_size fsize off bs) bs.
  Proof.
    intros H; revert bs; induction H as [|o s off fsize Ho H IH]; intros [|b bs] Hl;
      cbn in Hl; try discriminate; cbn.
    - split; auto.
    - destruct (IH bs ltac:(lia)) as [E Hle]. rewrite E.
      rewrite andb_true_r. destruct (Nat.ltb_spec s (o + b)); split;
        try (apply Nat.leb_le; lia); constructor; auto; lia.
  Qed.

  Lemma act_size_length fsize off bs :
    length off = length fsize -> length bs = length fsize ->
    length (act_size fsize off bs) = length fsize.
  Proof.
    revert off bs; induction fsize as [|s fsize IH]; intros [|o off] [|b bs];
      cbn; intros; try discriminate; auto.
  Qed.

  (** In-range cells of the block: exactly the in-block indices whose cell is
      inside the variable. *)
  Lemma act_box fsize off bs k :
    in_box fsize off -> length bs = length fsize ->
    (in_box (act_size fsize off bs) k <->
     in_box bs k /\ in_box fsize (ix_add off k)).
  Proof.
    intros H; revert bs k; induction H as [|o s off fsize Ho H IH]; intros [|b bs] k Hl;
      cbn in Hl; try discriminate; cbn.
    - split.
      + intros Hk. apply in_box_inv_nil in Hk as ->. split; constructor.
      + intros [Hk _]; auto.
    - split.
      + intros Hk. apply in_box_inv_cons in Hk as (i & ks & -> & Hi & Hk).
        apply IH in Hk as [H1 H2]; [|lia]. cbn. rewrite !in_box_cons.
        destruct (Nat.ltb_spec s (o + b)); repeat split; auto; lia.
      + intros [Hk Hf]. apply in_box_inv_cons in Hk as (i & ks & -> & Hi & Hk).
        cbn in Hf. apply in_box_cons in Hf as [Hf1 Hf]. apply in_box_cons. split.
        * destruct (Nat.ltb_spec s (o + b)); lia.
        * apply IH; auto; lia.
  Qed.

  (** What loading a block is supposed to do. *)
  Definition block_loaded (f : file V) (off bs : list nat) (base : nat) (m m' : mem V) : Prop :=
    m_len m' = m_len m /\
    (forall k, in_box bs k -> in_box (f_size f) (ix_add off k) ->
       m_at m' (base + row_major bs k) = Some (f_val f (ix_add off k))) /\
    (forall p, p < base \/ base + volume bs <= p -> m_at m' p = m_at m p).

  Lemma NoDup_map_inj {A B} (g : A -> B) l :
    NoDup l -> (forall x y, In x l -> In y l -> g x = g y -> x = y) -> NoDup (map g l).
  Proof.
    induction 1 as [|a l Ha Hn IH]; cbn; intros Hi; constructor.
    - rewrite in_map_iff. intros (x & E & Hx). apply Hi in E; subst; auto.
    - apply IH; auto.
  Qed.

  Lemma box_NoDup ds : NoDup (box ds).
  Proof.
    apply NoDup_nth_error. intros i j Hi E.
    destruct (nth_error (box ds) i) as [x|] eqn:Ei.
    - symmetry in E. apply box_nth_inv in Ei as [_ <-]. apply box_nth_inv in E as [_ <-]. auto.
    - apply nth_error_None in Ei. lia.
  Qed.

  Lemma get_block_builtin f off bs base m :
    f_size f <> [] ->
    in_box (f_size f) off -> length bs = length (f_size f) ->
    base + volume bs <= m_len m ->
    exists m', get_block false f off bs base m = Ok m' /\ block_loaded f off bs base m m'.
  Proof.
    intros Hne Hoff Hl Hb. unfold get_block.
    destruct (f_size f) as [|s0 fs0] eqn:Ef; [congruence|]. rewrite <- Ef in *.
    unfold nc_get_varm.
    destruct (slab_ok_act (f_size f) off bs Hoff Hl) as [Es Hle]. rewrite Es.
    set (act := act_size (f_size f) off bs) in *.
    assert (forall k, in_box act k -> dot (imap_of bs) k = row_major bs k /\ row_major bs k < volume bs) as Hd.
    { intros k Hk. pose proof (in_box_le _ _ _ Hle Hk) as Hk'. split.
      - apply dot_imap. apply in_box_length; auto.
      - apply row_major_lt; auto. }
    match goal with |- context [apply_writes _ ?w] => set (ws := w) end.
    destruct (apply_writes_spec ws m) as (m' & E & Hlen & Hin & Hout).
    - subst ws. apply Forall_map, Forall_forall. intros k Hk. cbn.
      apply in_box_In in Hk. destruct (Hd k Hk). lia.
    - subst ws. rewrite map_map. cbn. apply NoDup_map_inj; [apply box_NoDup|].
      intros x y Hx Hy Exy. apply in_box_In in Hx, Hy.
      destruct (Hd x Hx) as [Ex _], (Hd y Hy) as [Ey _].
      apply row_major_inj with bs; eauto using in_box_le. lia.
    - exists m'. split; auto. split; [auto|split].
      + intros k Hk Hf. assert (in_box act k) as Hka by (apply act_box; auto).
        destruct (Hd k Hka) as [Ek _]. apply Hin. subst ws. apply in_map_iff.
        exists k. split; [congruence|]. apply in_box_In; auto.
      + intros p Hp. apply Hout. subst ws. rewrite map_map. cbn. intros Hp'.
        apply in_map_iff in Hp' as (k & <- & Hk). apply in_box_In in Hk.
        destruct (Hd k Hk). lia.
  Qed.

  (** ** The in-place expansion *)
  Fixpoint linr (rsize : list nat) (rpos : list Z) : Z :=
    match rsize, rpos with
    | s :: rs, p :: rp => (p + Z.of_nat s * linr rs rp)%Z
    | _, _ => 0%Z
    end.
  Fixpoint dotz (rimap : list nat) (rpos : list Z) : Z :=
    match rimap, rpos with
    | a :: l, p :: rp => (Z.of_nat a * p + dotz l rp)%Z
    | _, _ => 0%Z
    end.
  Definition inr (rsize : list nat) (rpos : list Z) : Prop :=
    Forall2 (fun p s => 0 <= p < Z.of_nat s)%Z rpos rsize.

  Lemma linr_nonneg rsize rpos : inr rsize rpos -> (0 <= linr rsize rpos)%Z.
  Proof. induction 1; cbn [linr]; nia. Qed.

  Lemma linr_inj rsize x y : inr rsize x -> inr rsize y -> linr rsize x = linr rsize y -> x = y.
  Proof.
    intros Hx; revert y; induction Hx as [|p s x rs Hp Hx IH]; intros y Hy E.
    - inversion Hy; auto.
    - inversion Hy as [|q t y' rs' Hq Hy']; subst. cbn [linr] in E.
      assert (p = q).
      { destruct (Z.lt_trichotomy (linr rs x) (linr rs y')) as [H|[H|H]]; nia. }
      subst. f_equal. apply IH; auto. nia.
  Qed.

  Lemma carry_cons2 s rsize mi mj rimap p q rp ib :
    carry (s :: rsize) (mi :: mj :: rimap) (p :: q :: rp) ib =
    if (p <? 0)%Z then
      let '(tl', ib') := carry rsize (mj :: rimap) (q - 1 :: rp)%Z
                           (ib - Z.of_nat mj + Z.of_nat mi * Z.of_nat s)%Z in
      ((Z.of_nat s - 1)%Z :: tl', ib')
    else (p :: q :: rp, ib).
  Proof. reflexivity. Qed.

  Lemma carry_spec rsize rimap p rp ib rpos' ib' :
    length rimap = length rsize ->
    carry rsize rimap (p :: rp) ib = (rpos', ib') ->
    ib = dotz rimap (p :: rp) ->
    match rsize with
    | s :: rs => (-1 <= p < Z.of_nat s)%Z /\ (0 < s) /\ inr rs rp
    | [] => False
    end ->
    (0 <= linr rsize (p :: rp))%Z ->
    inr rsize rpos' /\ linr rsize rpos' = linr rsize (p :: rp) /\ ib' = dotz rimap rpos'.
  Proof.
    revert rimap p rp ib rpos' ib'.
    induction rsize as [|s rsize IH]; intros rimap p rp ib rpos' ib' Hl E Hib Hr Hpos; [tauto|].
    destruct Hr as (Hp & Hs & Hr).
    destruct rimap as [|mi rimap]; [discriminate|].
    assert (Hstop : (0 <= p)%Z -> (p :: rp, ib) = (rpos', ib') ->
      inr (s :: rsize) rpos' /\ linr (s :: rsize) rpos' = linr (s :: rsize) (p :: rp) /\
      ib' = dotz (mi :: rimap) rpos').
    { intros Hp0 [= <- <-]. repeat split; auto. constructor; auto. lia. }
    destruct rp as [|q rp].
    - assert (carry (s :: rsize) (mi :: rimap) [p] ib = ([p], ib)) as Ec
        by (cbn; destruct rimap; auto).
      rewrite Ec in E. apply Hstop; auto. inversion Hr; subst. cbn in Hpos. lia.
    - destruct rsize as [|s1 rsize]; [inversion Hr|].
      destruct rimap as [|mj rimap]; [discriminate|].
      inversion Hr as [|? ? ? ? Hq Hr']; subst.
      rewrite carry_cons2 in E.
      destruct (Z.ltb_spec p 0) as [Hneg|Hge]; [|apply Hstop; auto; lia].
      assert (p = -1)%Z as -> by lia.
      destruct (carry (s1 :: rsize) (mj :: rimap) ((q - 1)%Z :: rp)
        (dotz (mi :: mj :: rimap) (-1 :: q :: rp)%Z - Z.of_nat mj + Z.of_nat mi * Z.of_nat s)%Z)
        as [tl' ib2] eqn:Ec.
      (* the recursive call runs on ib + mi*(s-1) shifted; generalise *)
      injection E as <- <-.
      assert (forall rs im pos a c r b, carry rs im pos a = (r, b) ->
                carry rs im pos (a + c)%Z = (r, (b + c)%Z)) as Hshift.
      { clear. induction rs as [|s rs IH]; intros im pos a c r b; cbn.
        - intros [= <- <-]; auto.
        - destruct im as [|mi [|mj im]], pos as [|p [|q pos]]; intros H;
            try (injection H as <- <-; auto; fail).
          destruct (p <? 0)%Z; [|injection H as <- <-; auto].
          destruct (carry rs (mj :: im) ((q - 1)%Z :: pos)
            (a - Z.of_nat mj + Z.of_nat mi * Z.of_nat s)%Z) as [t b0] eqn:E.
          injection H as <- <-.
          replace (a + c - Z.of_nat mj + Z.of_nat mi * Z.of_nat s)%Z
            with ((a - Z.of_nat mj + Z.of_nat mi * Z.of_nat s) + c)%Z by lia.
          rewrite (IH _ _ _ c _ _ E). auto. }
      apply (Hshift _ _ _ _ (- (Z.of_nat mi * (Z.of_nat s - 1)))%Z) in Ec.
      apply IH in Ec as (I1 & I2 & I3).
      + repeat split.
        * constructor; auto. lia.
        * cbn [linr] in I2 |- *. rewrite I2. lia.
        * cbn [dotz] in I3 |- *. lia.
      + cbn in Hl |- *. lia.
      + cbn [dotz]. lia.
      + split; [lia|]. split; [lia|]. auto.
      + cbn [linr] in Hpos |- *. nia.
  Qed.

  Definition zs (k : list nat) : list Z := rev (map Z.of_nat k).

  Lemma inr_app rs rp s p : inr rs rp -> (0 <= p < Z.of_nat s)%Z -> inr (rs ++ [s]) (rp ++ [p]).
  Proof. intros. apply Forall2_app; auto. Qed.

  Lemma inr_zs ds k : in_box ds k -> inr (rev ds) (zs k).
  Proof.
    unfold zs. induction 1 as [|i d k ds Hi H IH]; cbn; [constructor|].
    apply inr_app; auto. lia.
  Qed.

  Lemma linr_app rs rp s p : length rs = length rp ->
    linr (rs ++ [s]) (rp ++ [p]) = (linr rs rp + Z.of_nat (volume rs) * p)%Z.
  Proof.
    revert rp; induction rs as [|a rs IH]; intros [|b rp] Hl; cbn in Hl; try discriminate.
    - cbn [app linr volume]. lia.
    - cbn [app linr volume]. rewrite IH by lia. nia.
  Qed.

  Lemma volume_rev ds : volume (rev ds) = volume ds.
  Proof.
    induction ds as [|d ds IH]; auto. cbn [rev volume].
    assert (forall a b, volume (a ++ b) = volume a * volume b) as Ha
      by (intros a b; induction a; cbn; lia).
    rewrite Ha, IH. cbn. lia.
  Qed.

  Lemma linr_zs ds k : in_box ds k -> linr (rev ds) (zs k) = Z.of_nat (row_major ds k).
  Proof.
    unfold zs. induction 1 as [|i d k ds Hi H IH]; auto.
    cbn [rev map row_major]. rewrite linr_app.
    - rewrite IH, volume_rev. lia.
    - rewrite !rev_length, map_length. symmetry. apply in_box_length; auto.
  Qed.

  Lemma dotz_app l m a p : length l = length m ->
    dotz (l ++ [a]) (m ++ [p]) = (dotz l m + Z.of_nat a * p)%Z.
  Proof.
    revert m; induction l as [|x l IH]; intros [|y m] Hl; cbn in Hl; try discriminate.
    - cbn [app dotz]. lia.
    - cbn [app dotz]. rewrite IH by lia. lia.
  Qed.

  Lemma dotz_zs im k : length im = length k -> dotz (rev im) (zs k) = Z.of_nat (dot im k).
  Proof.
    unfold zs. revert k; induction im as [|a im IH]; intros [|b k] Hl; cbn in Hl; try discriminate; auto.
    cbn [rev map dot]. rewrite dotz_app by (rewrite !rev_length, map_length; lia).
    rewrite IH by lia. lia.
  Qed.

  (** Step of the outer loop on multi-indices. *)
  Lemma step_spec act bs k k' p rp :
    Forall2 le act bs -> in_box act k -> in_box act k' ->
    row_major act k = S (row_major act k') -> zs k = p :: rp ->
    carry (rev act) (rev (imap_of bs)) ((p - 1)%Z :: rp)
      (Z.of_nat (row_major bs k) - 1)%Z = (zs k', Z.of_nat (row_major bs k')).
  Proof.
    intros Hle Hk Hk' Hs Ez.
    assert (length bs = length act) as Hlen.
    { clear -Hle; induction Hle; cbn; auto. }
    pose proof (in_box_length _ _ Hk) as Lk. pose proof (in_box_length _ _ Hk') as Lk'.
    destruct act as [|a0 act0] eqn:Eact.
    { apply in_box_inv_nil in Hk as ->. discriminate. }
    rewrite <- Eact in *. clear a0 act0 Eact.
    destruct (carry (rev act) (rev (imap_of bs)) ((p - 1)%Z :: rp)
      (Z.of_nat (row_major bs k) - 1)%Z) as [r b] eqn:Ec.
    pose proof (inr_zs _ _ Hk) as Hin. rewrite Ez in Hin.
    pose proof (linr_zs _ _ Hk) as Hlin. rewrite Ez in Hlin.
    pose proof (dotz_zs (imap_of bs) k ltac:(rewrite imap_of_length; lia)) as Hdz. rewrite Ez in Hdz.
    rewrite dot_imap in Hdz by lia.
    assert (exists mim, rev (imap_of bs) = 1 :: mim) as [mim Em].
    { clear -Hlen Hk Hs. assert (bs <> []).
      { intros ->. destruct act; [apply in_box_inv_nil in Hk as ->; discriminate|discriminate]. }
      clear -H. induction bs as [|s bs IH]; [congruence|].
      destruct bs as [|s1 bs]; [cbn; eauto|]. rewrite imap_of_cons.
      destruct (imap_of (s1 :: bs)) eqn:E.
      - pose proof (imap_of_length (s1 :: bs)) as Hx. rewrite E in Hx. discriminate.
      - destruct IH as [mm Em]; [discriminate|]. cbn [rev] in *. rewrite Em. cbn. eauto. }
    apply carry_spec in Ec as (I1 & I2 & I3).
    - assert (r = zs k') as ->.
      { apply linr_inj with (rev act); auto using inr_zs.
        rewrite I2, (linr_zs act k') by auto.
        destruct (rev act) as [|s rs]; [cbn in Hlin; lia|]. cbn [linr] in Hlin |- *. lia. }
      rewrite I3. f_equal. rewrite dotz_zs by (rewrite imap_of_length; lia).
      rewrite dot_imap by lia. auto.
    - rewrite !rev_length, imap_of_length. auto.
    - rewrite Em in Hdz |- *. cbn [dotz] in Hdz |- *. lia.
    - inversion Hin; subst. split; [lia|]. split; [lia|]. auto.
    - destruct (rev act) as [|s rs]; [cbn in Hlin; lia|]. cbn [linr] in Hlin |- *. lia.
  Qed.

  Lemma last_index act : Forall (fun a => 0 < a) act ->
    in_box act (map (fun s => s - 1) act) /\
    S (row_major act (map (fun s => s - 1) act)) = volume act.
  Proof.
    induction 1 as [|a act Ha H [IH1 IH2]]; cbn; [split; auto; constructor|].
    split; [apply in_box_cons; split; auto; lia|]. nia.
  Qed.

  Lemma index_buf_loop_spec acc act bs :
    Forall (fun a => 0 < a) act -> length act = length bs ->
    index_buf_loop acc act bs =
    (acc * Z.of_nat (volume bs) + Z.of_nat (row_major bs (map (fun s => (s - 1)%nat) act)))%Z.
  Proof.
    intros H; revert acc bs; induction H as [|a act Ha H IH]; intros acc [|b bs] Hl;
      cbn in Hl; try discriminate; cbn [index_buf_loop volume map row_major].
    - lia.
    - rewrite IH by lia. nia.
  Qed.

  Section Expand.
    Context (f : file V) (act bs : list nat) (base : nat) (val : nat -> V).
    Context (Hle : Forall2 le act bs).
    (** [buf n]: destination of the [n]-th element *)
    Let idx n := nth n (box act) [].
    Let buf n := row_major bs (idx n).
    Let N := volume act.

    Lemma idx_spec n : n < N -> in_box act (idx n) /\ row_major act (idx n) = n.
    Proof.
      intros H. apply box_nth_inv. unfold idx. apply nth_error_nth'. now rewrite box_length.
    Qed.

    Lemma buf_mono n n' : n < n' -> n' < N -> buf n < buf n'.
    Proof.
      intros H H'. destruct (idx_spec n ltac:(lia)) as [A B], (idx_spec n' H') as [A' B'].
      apply row_major_mono_box with act; auto. lia.
    Qed.

    Lemma buf_gap n n' : n <= n' -> n' < N -> buf n + (n' - n) <= buf n'.
    Proof.
      intros H; induction H as [|n' H IH]; intros H'; [lia|].
      specialize (IH ltac:(lia)). pose proof (buf_mono n' (S n') ltac:(lia) H'). lia.
    Qed.

    Lemma buf_ge n : n < N -> n <= buf n.
    Proof. intros H. pose proof (buf_gap 0 n ltac:(lia) H). lia. Qed.

    Lemma buf_lt n : n < N -> buf n < volume bs.
    Proof. intros H. apply row_major_lt, in_box_le with act; auto. apply idx_spec; auto. Qed.

    (** Loop invariant. *)
    Definition exp_inv (n : nat) (m0 m : mem V) : Prop :=
      m_len m = m_len m0 /\
      (forall i, i < n -> m_at m (base + i) = Some (val i)) /\
      (forall i, n <= i < N -> m_at m (base + buf i) = Some (val i)) /\
      (forall p, p < base \/ base + volume bs <= p -> m_at m p = m_at m0 p).

    Lemma mapping_loop_spec n m0 m :
      n <= N -> base + volume bs <= m_len m0 -> exp_inv n m0 m ->
      exists m',
        mapping_loop (rev act) (rev (imap_of bs)) base n
          (match n with 0 => 0%Z | S i => Z.of_nat (buf i) end)
          (match n with 0 => [] | S i => zs (idx i) end) m = Ok m' /\ exp_inv 0 m0 m'.
    Proof.
      revert m; induction n as [|fi IH]; intros m Hn Hb Hinv.
      - exists m. split; auto.
      - cbn [mapping_loop]. destruct Hinv as (Hl & Hsrc & Hdst & Hout).
        destruct (idx_spec fi ltac:(lia)) as [Hbx Hrm].
        pose proof (buf_ge fi ltac:(lia)) as Hge. pose proof (buf_lt fi ltac:(lia)) as Hlt.
        destruct (Z.ltb_spec (Z.of_nat fi) (Z.of_nat (buf fi))) as [Hc|Hc].
        + rewrite mem_rd_ok by lia. cbn [obind]. rewrite Nat2Z.id, mem_wr_ok by lia. cbn [obind].
          set (m1 := Mem _ _).
          assert (Hinv1 : exp_inv fi m0 m1).
          { subst m1. repeat split; cbn; auto.
            - intros i Hi. rewrite upd_other by lia. apply Hsrc; lia.
            - intros i [Hi1 Hi2]. destruct (Nat.eq_dec i fi) as [->|Hne].
              + rewrite upd_same. apply Hsrc; lia.
              + pose proof (buf_mono fi i ltac:(lia) Hi2). rewrite upd_other by lia.
                apply Hdst; lia.
            - intros p Hp. rewrite upd_other by lia. auto. }
          destruct (IH m1 ltac:(lia) Hb Hinv1) as (m' & E & Hfin).
          assert (exists p rp, zs (idx fi) = p :: rp) as (p & rp & Ez).
          { destruct (zs (idx fi)) as [|p rp] eqn:Ez; [|eauto].
            assert (idx fi = []) as Ex.
            { unfold zs in Ez. destruct (idx fi) as [|x l]; auto.
              cbn in Ez. now destruct (rev (map Z.of_nat l)). }
            exfalso. unfold buf in Hc. rewrite Ex in Hc. clear -Hc.
            destruct bs; cbn in Hc; lia. }
          rewrite Ez. destruct fi as [|fi'].
          * (* last element: whatever the carry does, the loop ends *)
            destruct (carry _ _ _ _) as [r b]. cbn [mapping_loop] in E |- *.
            exists m1. split; auto.
          * destruct (idx_spec fi' ltac:(lia)) as [Hbx' Hrm'].
            change (buf (S fi')) with (row_major bs (idx (S fi'))).
            rewrite (step_spec act bs (idx (S fi')) (idx fi') p rp) by (auto; lia).
            exists m'. split; auto.
        + exists m. split; auto. assert (buf fi = fi) as Eb by lia.
          split; [auto|split; [intros; lia|split; [|auto]]]. intros i [_ Hi].
          destruct (le_lt_dec (S fi) i) as [Hx|Hx]; [apply Hdst; lia|].
          pose proof (buf_gap i fi ltac:(lia) ltac:(lia)). pose proof (buf_ge i Hi).
          assert (buf i = i) as -> by lia. apply Hsrc. lia.
    Qed.
  End Expand.

  Lemma lists_eqb_eq l m : lists_eqb l m = true -> l = m.
  Proof.
    revert m; induction l as [|a l IH]; intros [|b m]; cbn; try discriminate; auto.
    destruct (Nat.eqb_spec a b); cbn; try discriminate. intros; subst; f_equal; auto.
  Qed.

  Lemma act_size_pos fsize off bs :
    in_box fsize off -> length bs = length fsize -> Forall (fun b => 0 < b) bs ->
    Forall (fun a => 0 < a) (act_size fsize off bs).
  Proof.
    intros H; revert bs; induction H as [|o s off fsize Ho H IH]; intros [|b bs] Hl Hp;
      cbn in Hl; try discriminate; cbn; constructor.
    - inversion Hp; subst. destruct (Nat.ltb_spec s (o + b)); lia.
    - apply IH; try lia. inversion Hp; auto.
  Qed.

  Lemma get_block_opaque f off bs base m :
    f_size f <> [] ->
    in_box (f_size f) off -> length bs = length (f_size f) -> Forall (fun b => 0 < b) bs ->
    base + volume bs <= m_len m ->
    exists m', get_block true f off bs base m = Ok m' /\ block_loaded f off bs base m m'.
  Proof.
    intros Hne Hoff Hl Hpos Hb. unfold get_block.
    destruct (f_size f) as [|s0 fs0] eqn:Ef; [congruence|]. rewrite <- Ef in *.
    unfold get_var_void, nc_get_vara.
    destruct (slab_ok_act (f_size f) off bs Hoff Hl) as [Es Hle]. rewrite Es.
    pose proof (act_size_pos _ _ _ Hoff Hl Hpos) as Hap.
    pose proof (fun k => act_box (f_size f) off bs k Hoff Hl) as Hact.
    pose proof (act_size_length (f_size f) off bs ltac:(apply in_box_length; auto) Hl) as Hal.
    set (act := act_size (f_size f) off bs) in *.
    set (idx n := nth n (box act) []).
    set (val n := f_val f (ix_add off (idx n))).
    match goal with |- context [apply_writes _ ?w] => set (ws := w) end.
    assert (forall n, n < volume act -> row_major bs (idx n) < volume bs) as Hbuf.
    { intros n Hn. apply (buf_lt act bs Hle n Hn). }
    assert (volume act <= volume bs) as Hvol.
    { clear -Hle. induction Hle; cbn; auto. nia. }
    assert (Hws : forall p v, In (p, v) ws <-> exists n, n < volume act /\ p = base + n /\ v = val n).
    { intros p v. subst ws. rewrite in_map_iff. split.
      - intros ([j k] & [= <- <-] & Hi). apply (In_nth _ _ (0, [])) in Hi as (n & Hn & E).
        rewrite combine_length, seq_length, box_length in Hn.
        rewrite combine_nth in E by (rewrite seq_length; auto).
        rewrite seq_nth in E by (rewrite box_length; lia). injection E as <- <-.
        exists n. repeat split; lia.
      - intros (n & Hn & -> & ->). exists (n, idx n). split; auto.
        replace (n, idx n) with (nth n (combine (seq 0 (length (box act))) (box act)) (0, [])).
        + apply nth_In. rewrite combine_length, seq_length, box_length. lia.
        + rewrite combine_nth by (rewrite seq_length; auto).
          rewrite seq_nth by (rewrite box_length; lia). auto. }
    assert (map fst ws = map (fun j => base + j) (seq 0 (volume act))) as Hfst.
    { subst ws. rewrite map_map. rewrite <- box_length. generalize (box act) as l. intros l.
      generalize 0 at 1 2. induction l; intros; cbn; f_equal; auto. }
    destruct (apply_writes_spec ws m) as (m1 & E1 & Hlen & Hin & Hout).
    { apply Forall_forall. intros [p v] Hp. apply Hws in Hp as (n & Hn & -> & _). cbn. lia. }
    { rewrite Hfst. apply Injective_map_NoDup; [intros x y; lia|apply seq_NoDup]. }
    rewrite E1. cbn [obind].
    assert (Hinv : exp_inv act bs base val (volume act) m m1).
    { repeat split; auto.
      - intros i Hi. apply Hin, Hws. eauto.
      - intros i Hi. lia.
      - intros p Hp. apply Hout. rewrite Hfst. intros Hx. apply in_map_iff in Hx as (j & <- & Hj).
        apply in_seq in Hj. lia. }
    assert (Hdone : forall m', exp_inv act bs base val 0 m m' -> block_loaded f off bs base m m').
    { intros m' (L & _ & D & O). split; [auto|split]; auto.
      intros k Hk Hf. assert (in_box act k) as Hka by (apply Hact; auto).
      pose proof (row_major_lt _ _ Hka) as Hlt.
      specialize (D (row_major act k) ltac:(lia)).
      assert (idx (row_major act k) = k) as Ei.
      { unfold idx. apply nth_error_nth with (d := []) . apply box_nth; auto. }
      fold (idx (row_major act k)) in D. rewrite Ei in D. rewrite D. unfold val. now rewrite Ei. }
    destruct (do_mapping act bs) eqn:Edm.
    - destruct (last_index act Hap) as [Hlb Hlr].
      assert (Hlast : idx (volume act - 1) = map (fun s => s - 1) act).
      { unfold idx. apply nth_error_nth. rewrite <- Hlr. cbn. rewrite Nat.sub_0_r. apply box_nth; auto. }
      destruct (mapping_loop_spec act bs base val Hle (volume act) m m1 ltac:(lia) Hb Hinv) as (m' & E & Hf).
      exists m'. split; [|auto]. rewrite <- E.
      assert (exists v, volume act = S v) as [v Ev] by (exists (volume act - 1); pose proof (volume_pos _ Hap); lia).
      assert (v = volume act - 1) as Ev' by lia.
      f_equal; (rewrite Ev; cbv beta; fold (idx v); rewrite Ev', Hlast).
      + unfold index_buf_init. destruct act as [|a0 act']; [cbn in Hal; rewrite Ef in Hal; discriminate|].
        destruct bs as [|b0 bs']; [rewrite Ef in Hl; discriminate|].
        inversion Hap; subst. cbn [tl map row_major]. rewrite index_buf_loop_spec; auto.
        * nia.
        * cbn in Hal, Hl. lia.
      + unfold zs. f_equal. rewrite map_map. apply map_ext_in. intros a Ha.
        rewrite Forall_forall in Hap. specialize (Hap a Ha). lia.
    - exists m1. split; auto. apply Hdone. destruct Hinv as (L & S & D & O).
      split; [auto|split; [intros; lia|split; [|auto]]]. intros i [_ Hi].
      assert (row_major bs (idx i) = i) as Eid.
      { destruct (idx_spec act i Hi) as [A B]. fold (idx i) in A, B.
        unfold do_mapping in Edm. apply negb_false_iff, lists_eqb_eq in Edm.
        destruct act as [|a0 act'], bs as [|b0 bs'];
          try (rewrite Ef in *; discriminate). cbn in Edm. subst act'.
        rewrite <- B. rewrite B at 1. destruct (idx i); cbn in *; auto. }
      fold (idx i). rewrite Eid. auto.
  Qed.

  Theorem get_block_spec opaque f off bs base m :
    f_size f <> [] ->
    in_box (f_size f) off -> length bs = length (f_size f) -> Forall (fun b => 0 < b) bs ->
    base + volume bs <= m_len m ->
    exists m', get_block opaque f off bs base m = Ok m' /\ block_loaded f off bs base m m'.
  Proof. destruct opaque; [apply get_block_opaque | intros; apply get_block_builtin; auto]. Qed.
End Proofs.
