(** * No wrap-around: proofs *)
From Coq Require Import ZArith Bool Lia.
From Verif Require Import WrapModel BlockedProofs BlockedFacts.
Local Open Scope Z_scope.

Notation Zs := (map Z.of_nat).
Notation "# n" := (Z.of_nat n) (at level 0, n at level 0, format "# n").

(** ** The checking mode decides whether the hardware result is the exact one *)

Lemma fit_agree m x v : fit Checking m x = Val v -> fit Wrapping m x = Val v.
Proof.
  unfold fit. destruct (Z.leb_spec 0 x), (Z.ltb_spec x m); cbn [andb]; try discriminate.
  intros [= <-]. now rewrite Z.mod_small.
Qed.
Lemma sfit_agree h x v : sfit Checking h x = Val v -> sfit Wrapping h x = Val v.
Proof.
  unfold sfit. destruct (Z.leb_spec (- h) x), (Z.ltb_spec x h); cbn [andb]; try discriminate.
  intros [= <-]. rewrite Z.mod_small by lia. f_equal. lia.
Qed.

(** [f] computes the same in both modes as soon as the checking mode accepts. *)
Definition agrees {A} (f : wmode -> res A) : Prop :=
  forall v, f Checking = Val v -> f Wrapping = Val v.

Lemma agrees_const {A} (x : res A) : agrees (fun _ => x).
Proof. intros v; auto. Qed.
Lemma agrees_bind {A B} (e : wmode -> res A) (k : wmode -> A -> res B) :
  agrees e -> (forall a, agrees (fun md => k md a)) -> agrees (fun md => rbind (e md) (k md)).
Proof.
  intros He Hk v. unfold rbind. destruct (e Checking) as [a| |] eqn:E; try discriminate.
  rewrite (He a E). apply Hk.
Qed.
Lemma agrees_u64 x : agrees (fun md => u64 md x).
Proof. intros v; apply fit_agree. Qed.
Lemma agrees_u32 x : agrees (fun md => u32 md x).
Proof. intros v; apply fit_agree. Qed.
Lemma agrees_i32 x : agrees (fun md => i32 md x).
Proof. intros v; apply sfit_agree. Qed.
Lemma agrees_i64 x : agrees (fun md => i64 md x).
Proof. intros v; apply sfit_agree. Qed.

#[export] Hint Resolve agrees_const agrees_u64 agrees_u32 agrees_i32 agrees_i64 : agr.
Ltac agr := repeat first
  [ progress auto with agr
  | apply (agrees_bind _ _); [|intros ?]
  | match goal with |- agrees (fun md => rbind (?e md) (?k)) =>
      apply (agrees_bind e (fun _ => k)); [|intros ?] end
  | match goal with |- agrees (fun md => rbind ?e (@?k md)) =>
      apply (agrees_bind (fun _ => e) k); [|intros ?] end ].

Lemma a_lbc P D tb : agrees (fun md => w_local_block_count md P D tb).
Proof. unfold w_local_block_count. agr. Qed.
#[export] Hint Resolve a_lbc : agr.
Lemma a_nbc P D tb : agrees (fun md => w_node_block_count md P D tb).
Proof. unfold w_node_block_count. agr. Qed.
#[export] Hint Resolve a_nbc : agr.
Lemma a_open dims b : agrees (fun md => w_open_loop md dims b).
Proof.
  revert b; induction dims as [|[req size] dims IH]; intros b; cbn; agr.
Qed.
Lemma a_block id blocks bs ix : agrees (fun md => w_block_loop md id blocks bs ix).
Proof.
  revert id bs ix; induction blocks as [|n blocks IH]; intros id [|s bs] [|i ix]; cbn; agr.
Qed.
Lemma a_offset off bs ix : agrees (fun md => w_offset_loop md off bs ix).
Proof. revert off ix; induction bs as [|s bs IH]; intros off [|i ix]; cbn; agr. Qed.
Lemma a_rank m P D tb id : agrees (fun md => w_block_rank md m P D tb id).
Proof. unfold w_block_rank; destruct m; agr. Qed.
Lemma a_domain m P D tb id : agrees (fun md => w_block_domain md m P D tb id).
Proof. unfold w_block_domain; destruct m; agr. Qed.
Lemma a_boff m P D tb id : agrees (fun md => w_block_offset md m P D tb id).
Proof. unfold w_block_offset; destruct m; agr. Qed.
#[export] Hint Resolve a_open a_block a_offset a_rank a_domain a_boff : agr.
Lemma a_noff m P D tb id : agrees (fun md => w_block_node_offset md m P D tb id).
Proof. unfold w_block_node_offset; agr. Qed.
Lemma a_l2g m P D tb r dom id : agrees (fun md => w_local2global md m P D tb r dom id).
Proof. unfold w_local2global; destruct m; agr. Qed.
Lemma a_bytes ts tbs : agrees (fun md => w_block_bytes md ts tbs).
Proof. unfold w_block_bytes; agr. Qed.
#[export] Hint Resolve a_noff a_l2g a_bytes : agr.
Lemma a_alloc P D ts tbs tb : agrees (fun md => w_full_alloc md P D ts tbs tb).
Proof. unfold w_full_alloc; agr. Qed.
Lemma a_start P D ts tbs tb dom : agrees (fun md => w_domain_start md P D ts tbs tb dom).
Proof. unfold w_domain_start; agr. Qed.
Lemma a_load ts tbs i : agrees (fun md => w_load_addr md ts tbs i).
Proof. unfold w_load_addr; agr. Qed.
Lemma a_full m P D ts b ix : agrees (fun md => w_full_addr md m P D ts b ix).
Proof. unfold w_full_addr; agr. Qed.
Lemma a_numa m P D ts b id : agrees (fun md => w_numa_addr md m P D ts b id).
Proof. unfold w_numa_addr; agr. Qed.
Lemma a_get m P D b id : agrees (fun md => w_mpi_get md m P D b id).
Proof. unfold w_mpi_get; agr. Qed.
Lemma a_slot cs dom off : agrees (fun md => w_slot md cs dom off).
Proof. unfold w_slot; agr. Qed.
Lemma a_rcs cs D : agrees (fun md => w_rank_cache_size md cs D).
Proof. unfold w_rank_cache_size; agr. Qed.
#[export] Hint Resolve a_rcs : agr.
Lemma a_entry cs D r slot : agrees (fun md => w_entry md cs D r slot).
Proof. unfold w_entry; agr. Qed.
Lemma a_decode cs D e : agrees (fun md => w_decode md cs D e).
Proof. unfold w_decode; agr. Qed.
Lemma a_cache cs ts tbs dom off v : agrees (fun md => w_cache_addr md cs ts tbs dom off v).
Proof. unfold w_cache_addr; agr. Qed.
Lemma a_slot_addr ts tbs off : agrees (fun md => w_slot_addr md ts tbs off).
Proof. unfold w_slot_addr; agr. Qed.
Lemma a_dict P D tb tde : agrees (fun md => w_dict_bytes md P D tb tde).
Proof. unfold w_dict_bytes; agr. Qed.
Lemma a_dict_index tde o k : agrees (fun md => w_dict_index md tde o k).
Proof. unfold w_dict_index; agr. Qed.
Lemma a_message cs D o s : agrees (fun md => w_message md cs D o s).
Proof. unfold w_message; agr. Qed.
Lemma a_unpack cs D d : agrees (fun md => w_unpack md cs D d).
Proof. unfold w_unpack; agr. Qed.

(** ** Single operations *)

Lemma pow64 : 2 ^ 64 = 18446744073709551616. Proof. reflexivity. Qed.
Lemma pow63 : 2 ^ 63 = 9223372036854775808. Proof. reflexivity. Qed.
Lemma pow32 : 2 ^ 32 = 4294967296. Proof. reflexivity. Qed.
Lemma pow31 : 2 ^ 31 = 2147483648. Proof. reflexivity. Qed.

Lemma fit_ok m x : 0 <= x < m -> fit Checking m x = Val x.
Proof. unfold fit. destruct (Z.leb_spec 0 x), (Z.ltb_spec x m); cbn [andb]; auto; lia. Qed.
Lemma sfit_ok h x : - h <= x < h -> sfit Checking h x = Val x.
Proof. unfold sfit. destruct (Z.leb_spec (- h) x), (Z.ltb_spec x h); cbn [andb]; auto; lia. Qed.

Lemma u64_mul a b : #(a * b) < 2 ^ 64 -> u64 Checking (#a * #b) = Val #(a * b).
Proof. intros. rewrite <- Nat2Z.inj_mul. apply fit_ok. lia. Qed.
Lemma u64_add a b : #(a + b) < 2 ^ 64 -> u64 Checking (#a + #b) = Val #(a + b).
Proof. intros. rewrite <- Nat2Z.inj_add. apply fit_ok. lia. Qed.
Lemma u64_pred a : (0 < a)%nat -> #a < 2 ^ 64 -> u64 Checking (#a - 1) = Val #(a - 1).
Proof. intros. replace (#a - 1) with #(a - 1) by lia. apply fit_ok. lia. Qed.
Lemma u32_mul a b : #(a * b) < 2 ^ 32 -> u32 Checking (#a * #b) = Val #(a * b).
Proof. intros. rewrite <- Nat2Z.inj_mul. apply fit_ok. lia. Qed.
Lemma u32_add a b : #(a + b) < 2 ^ 32 -> u32 Checking (#a + #b) = Val #(a + b).
Proof. intros. rewrite <- Nat2Z.inj_add. apply fit_ok. lia. Qed.
Lemma u32_id a : #a < 2 ^ 32 -> u32 Checking #a = Val #a.
Proof. intros. apply fit_ok. lia. Qed.
Lemma u64_id a : #a < 2 ^ 64 -> u64 Checking #a = Val #a.
Proof. intros. apply fit_ok. lia. Qed.
Lemma i32_id a : #a < 2 ^ 31 -> i32 Checking #a = Val #a.
Proof. intros. apply sfit_ok. lia. Qed.
Lemma i64_id a : #a < 2 ^ 63 -> i64 Checking #a = Val #a.
Proof. intros. apply sfit_ok. lia. Qed.
Lemma udiv_ok a b : (0 < b)%nat -> udiv #a #b = Val #(a / b).
Proof.
  intros. unfold udiv. destruct (Z.eqb_spec #b 0); [lia|]. now rewrite Nat2Z.inj_div.
Qed.
Lemma umod_ok a b : (0 < b)%nat -> umod #a #b = Val #(a mod b).
Proof.
  intros. unfold umod. destruct (Z.eqb_spec #b 0); [lia|]. now rewrite Nat2Z.inj_mod.
Qed.

(** ** Opening *)

Lemma w_block_size_ok req size : w_block_size req #size = #(loop_block_size req size).
Proof.
  unfold w_block_size, loop_block_size.
  destruct (Z.eqb_spec req 0).
  - destruct (Z.ltb_spec #size 64), (Nat.ltb_spec size 64); lia.
  - destruct (Z.ltb_spec req 0).
    + destruct (Z.ltb_spec #size #size), (Nat.ltb_spec size size); lia.
    + destruct (Z.ltb_spec #size req), (Nat.ltb_spec size (Z.to_nat req)); lia.
Qed.

Lemma le_mul_r a b : (0 < b -> a <= a * b)%nat. Proof. nia. Qed.
Lemma le_mul_l a b : (0 < b -> a <= b * a)%nat. Proof. nia. Qed.

(** The dimensions as they reach the loop: request and extent, file order. *)
Definition dims_from (reqs : nat -> Z) (i : nat) (sizes : list nat) : list (Z * Z) :=
  combine (map reqs (seq i (length sizes))) (Zs sizes).
Definition dims_of (user : nat -> Z) (sizes : list nat) : list (Z * Z) :=
  dims_from (fun i => user (length sizes - i - 1)%nat) 0 sizes.

Lemma vol_pos l : Forall (fun b => 0 < b)%nat l -> (0 < volume l)%nat.
Proof. induction 1; cbn; nia. Qed.

Lemma w_open_loop_ok reqs i sizes bs0 bl0 tbs0 tb0 :
  Forall (fun s => 0 < s)%nat sizes -> (0 < tbs0)%nat -> (0 < tb0)%nat ->
  let bs := eff_sizes reqs i sizes in
  let blocks := map2 ceil_div sizes bs in
  #((tb0 * volume blocks) * (tbs0 * volume bs)) < 2 ^ 63 ->
  w_open_loop Checking (dims_from reqs i sizes) (WBlk (Zs bs0) (Zs bl0) #tbs0 #tb0) =
  Val (WBlk (Zs (bs0 ++ bs)) (Zs (bl0 ++ blocks)) #(tbs0 * volume bs) #(tb0 * volume blocks)).
Proof.
  intros Hp. revert i bs0 bl0 tbs0 tb0.
  induction Hp as [|s sizes Hs Hp IH]; intros i bs0 bl0 tbs0 tb0 Ht Hb bs blocks Hl.
  - subst bs blocks. cbn. rewrite !app_nil_r, !Nat.mul_1_r. reflexivity.
  - subst bs blocks.
    change (dims_from reqs i (s :: sizes)) with ((reqs i, #s) :: dims_from reqs (S i) sizes).
    cbn [eff_sizes map2 volume] in *.
    set (b := loop_block_size (reqs i) s) in *.
    set (bs := eff_sizes reqs (S i) sizes) in *.
    set (blocks := map2 ceil_div sizes bs) in *.
    assert (Hb0 : (0 < b)%nat) by (now apply loop_block_size_pos).
    assert (Hbs : (b <= s)%nat) by apply loop_block_size_le.
    assert (Hn : (0 < ceil_div s b)%nat) by (apply (Nat.le_lt_trans _ (0 / b)%nat); [apply Nat.le_0_l|]; now apply ceil_div_gt).
    assert (Hns : (s <= ceil_div s b * b)%nat) by (unfold ceil_div; nia).
    assert (V1 : (0 < volume bs)%nat).
    { apply vol_pos. subst bs. clear -Hp. revert i; induction Hp as [|x l Hx Hp IHp]; intros i; cbn; constructor.
      - now apply loop_block_size_pos.
      - apply (IHp (S i)). }
    assert (V2 : (0 < volume blocks)%nat).
    { apply vol_pos. subst blocks bs. clear -Hp. revert i; induction Hp as [|x l Hx Hp IHp]; intros i; cbn; constructor.
      - pose proof (loop_block_size_pos (reqs (S i)) x Hx).
        apply (Nat.le_lt_trans _ (0 / loop_block_size (reqs (S i)) x)%nat); [apply Nat.le_0_l|]. now apply ceil_div_gt.
      - apply (IHp (S i)). }
    set (n := ceil_div s b) in *.
    assert (L : (tb0 * (n * volume blocks) * (tbs0 * (b * volume bs)) =
                 (n * b) * ((tb0 * tbs0) * (volume blocks * volume bs)))%nat) by ring.
    assert (L1 : (n * b <= tb0 * (n * volume blocks) * (tbs0 * (b * volume bs)))%nat).
    { rewrite L. apply le_mul_r. repeat apply Nat.mul_pos_pos; auto. }
    assert (L2 : (tbs0 * b <= tb0 * (n * volume blocks) * (tbs0 * (b * volume bs)))%nat).
    { replace (tb0 * (n * volume blocks) * (tbs0 * (b * volume bs)))%nat
        with (tbs0 * b * (tb0 * n * (volume blocks * volume bs)))%nat by ring.
      apply le_mul_r. repeat apply Nat.mul_pos_pos; auto. }
    assert (L3 : (tb0 * n <= tb0 * (n * volume blocks) * (tbs0 * (b * volume bs)))%nat).
    { replace (tb0 * (n * volume blocks) * (tbs0 * (b * volume bs)))%nat
        with (tb0 * n * (tbs0 * b * (volume blocks * volume bs)))%nat by ring.
      apply le_mul_r. repeat apply Nat.mul_pos_pos; auto. }
    set (T := (tb0 * (n * volume blocks) * (tbs0 * (b * volume bs)))%nat) in *.
    cbn [w_open_loop w_tbs w_tb w_bs w_blocks]. rewrite w_block_size_ok. fold b.
    rewrite pow63 in Hl. pose proof pow64.
    rewrite u64_mul by lia. cbn [rbind].
    rewrite u64_add by lia. cbn [rbind].
    rewrite u64_pred by lia. cbn [rbind].
    rewrite udiv_ok by lia. cbn [rbind].
    change ((s + b - 1) / b)%nat with n.
    rewrite u64_mul by lia. cbn [rbind].
    replace (Zs bs0 ++ [#b]) with (Zs (bs0 ++ [b])) by (now rewrite map_app).
    replace (Zs bl0 ++ [#n]) with (Zs (bl0 ++ [n])) by (now rewrite map_app).
    rewrite IH; fold bs; fold blocks.
    + rewrite <- !app_assoc. cbn [app]. now rewrite !Nat.mul_assoc.
    + nia.
    + nia.
    + rewrite pow63. replace (tb0 * n * volume blocks * (tbs0 * b * volume bs))%nat with T
        by (subst T; ring). lia.
Qed.

Definition wz (bl : blocked) : wblk :=
  WBlk (Zs (b_bs bl)) (Zs (b_blocks bl)) #(b_tbs bl) #(b_total bl).

Lemma w_open_ok sizes user td arr0 bl :
  blocked_open sizes user td arr0 = Ok bl ->
  #(b_total bl * b_tbs bl) < 2 ^ 63 ->
  w_open Checking (dims_of user sizes) = Val (wz bl).
Proof.
  intros E H. destruct (blocked_open_spec _ _ _ _ _ E) as [W [E1 E2]].
  pose proof (proj1 (blocked_open_ok_iff sizes user td arr0) (ex_intro _ bl E)) as Hp.
  destruct W as [? ? ? Wb Wt WT]. unfold w_open, dims_of, wz.
  pose proof (w_open_loop_ok (fun i => user (length sizes - i - 1)%nat) 0 sizes [] [] 1 1 Hp) as Q.
  cbn [map app] in Q. cbv zeta in Q. rewrite <- E2 in Q.
  change #1%nat with 1 in Q.
  rewrite Q; try lia.
  - rewrite Wt, WT, !Nat.mul_1_l. rewrite Wb, E1. reflexivity.
  - rewrite WT, Wt, Wb, E1 in H. rewrite !Nat.mul_1_l. exact H.
Qed.

(** ** Indices *)

Lemma w_block_loop_ok id K blocks bs ix :
  Forall2 (fun i s => 0 < s)%nat ix bs ->
  Forall2 (fun i n => i < n)%nat (map2 Nat.div ix bs) blocks ->
  (id < K)%nat -> #(K * volume blocks) < 2 ^ 64 ->
  w_block_loop Checking #id (Zs blocks) (Zs bs) (Zs ix) = Val #(block_loop id blocks bs ix).
Proof.
  intros H. revert id K blocks; induction H as [|i s ix bs Hs H IH];
    intros id K blocks Hb Hid HK; cbn [map2] in Hb; inversion Hb; subst; [reflexivity|].
  cbn [map w_block_loop block_loop]. cbn [volume] in HK.
  rename y into n, l' into blocks.
  match goal with HF : Forall2 _ (map2 _ ix bs) blocks |- _ => pose proof HF as HB end.
  assert (V : (0 < volume blocks)%nat).
  { clear -HB. remember (map2 Nat.div ix bs) as q. clear Heqq. induction HB; cbn; nia. }
  assert (B1 : (id * n + i / s < K * n)%nat) by nia.
  pose proof (Nat.le_0_l (i / s)) as Q0.
  assert (B2 : (K * n <= K * (n * volume blocks))%nat) by nia.
  rewrite u64_mul by lia. cbn [rbind]. rewrite udiv_ok by auto. cbn [rbind].
  rewrite u64_add by lia. cbn [rbind].
  apply (IH _ (K * n)%nat); auto. rewrite <- Nat.mul_assoc. exact HK.
Qed.

Lemma w_offset_loop_ok off K bs ix :
  Forall2 (fun i s => 0 < s)%nat ix bs ->
  (off < K)%nat -> #(K * volume bs) < 2 ^ 64 ->
  w_offset_loop Checking #off (Zs bs) (Zs ix) = Val #(offset_loop off bs ix).
Proof.
  intros H. revert off K; induction H as [|i s ix bs Hs H IH]; intros off K Ho HK; [reflexivity|].
  cbn [map w_offset_loop offset_loop]. cbn [volume] in HK.
  assert (V : (0 < volume bs)%nat) by (clear -H; induction H; cbn; nia).
  pose proof (Nat.mod_upper_bound i s ltac:(lia)) as M.
  assert (B1 : (off * s + i mod s < K * s)%nat) by nia.
  pose proof (Nat.le_0_l (i mod s)) as Q0.
  assert (B2 : (K * s <= K * (s * volume bs))%nat) by nia.
  rewrite u64_mul by lia. cbn [rbind]. rewrite umod_ok by auto. cbn [rbind].
  rewrite u64_add by lia. cbn [rbind].
  apply (IH _ (K * s)%nat); auto. rewrite <- Nat.mul_assoc. exact HK.
Qed.

Lemma w_cbp_ok blocks b :
  Forall (fun n => 0 < n)%nat blocks ->
  w_cbp (Zs blocks) #b = Val (Zs (fst (cbp blocks b)), #(snd (cbp blocks b))).
Proof.
  induction 1 as [|n blocks Hn H IH]; [reflexivity|].
  cbn [map w_cbp cbp]. rewrite IH. cbn [rbind].
  destruct (cbp blocks b) as [pos rest]. cbn [fst snd].
  rewrite umod_ok by auto. cbn [rbind]. rewrite udiv_ok by auto. reflexivity.
Qed.

(** ** Distribution *)

(** The numbers of ranks and domains fit their types and the storage of the
    grid, padded to the same number of whole blocks in every domain, is smaller
    than [2^63] bytes. *)
Record fits (d : dist) (tbs ts : nat) : Prop := {
  f_P : (0 < d_ranks d)%nat;
  f_P31 : #(d_ranks d) < 2 ^ 31;
  f_D : (0 < d_domains d)%nat;
  f_cores : #(d_domains d * d_ranks d) < 2 ^ 32;
  f_tbs : (0 < tbs)%nat;
  f_ts : (0 < ts)%nat;
  f_total : (0 < d_total d)%nat;
  f_bytes : #(local_block_count d * (d_domains d * d_ranks d) * (tbs * ts)) < 2 ^ 63
}.

Section Fits.
Variables (d : dist) (tbs ts : nat).
Hypothesis F : fits d tbs ts.
Let P := d_ranks d.
Let D := d_domains d.
Let m := d_mode d.
Let tb := d_total d.
Let L := local_block_count d.

Let pP : (0 < P)%nat := f_P _ _ _ F.
Let pD : (0 < D)%nat := f_D _ _ _ F.

Lemma lbc_bounds : (0 < L /\ tb <= L * (D * P))%nat.
Proof.
  pose proof (f_total _ _ _ F) as T. fold tb in T.
  assert (C : (0 < D * P)%nat) by nia.
  unfold L, local_block_count. fold D P tb. set (c := (D * P)%nat) in *. clearbody c.
  assert (tb <= (tb + c - 1) / c * c)%nat by nia. nia.
Qed.

Lemma blocks_lt : #(L * (D * P) * (tbs * ts)) < 2 ^ 63.
Proof. exact (f_bytes _ _ _ F). Qed.

Lemma w_lbc_ok : w_local_block_count Checking #P #D #tb = Val #L.
Proof.
  destruct lbc_bounds as [L0 Lt]. pose proof blocks_lt as B.
  pose proof (f_cores _ _ _ F) as C. fold D P in C.
  pose proof (f_tbs _ _ _ F). pose proof (f_ts _ _ _ F).
  assert ((L * (D * P) <= L * (D * P) * (tbs * ts))%nat) by (apply le_mul_r; nia).
  assert (C0 : (0 < D * P)%nat) by nia.
  unfold w_local_block_count. rewrite pow63 in B. pose proof pow64. rewrite pow32 in C.
  rewrite u32_mul by (rewrite pow32; lia). cbn [rbind].
  rewrite u64_add by lia. cbn [rbind]. rewrite u64_pred by lia. cbn [rbind].
  rewrite udiv_ok by lia. reflexivity.
Qed.

Lemma nbc_bounds : (0 < L * D /\ L * D <= L * (D * P) * (tbs * ts))%nat.
Proof.
  destruct lbc_bounds as [L0 _]. pose proof (f_tbs _ _ _ F). pose proof (f_ts _ _ _ F).
  split; [nia|].
  replace (L * (D * P) * (tbs * ts))%nat with (L * D * (P * (tbs * ts)))%nat by ring.
  apply le_mul_r. nia.
Qed.

Lemma w_nbc_ok : w_node_block_count Checking #P #D #tb = Val #(node_block_count d).
Proof.
  unfold w_node_block_count. rewrite w_lbc_ok. cbn [rbind].
  destruct nbc_bounds. pose proof blocks_lt as B. rewrite pow63 in B. pose proof pow64.
  rewrite u64_mul by lia. reflexivity.
Qed.

Lemma home_bounds id : (id < tb)%nat ->
  (block_rank d id < P /\ block_domain d id < D /\ block_offset d id < L)%nat.
Proof. intros H. destruct (proj1 (one_home d pP pD) id H) as [A [B [C _]]]. auto. Qed.

Lemma w_rank_ok id : (id < tb)%nat ->
  w_block_rank Checking m #P #D #tb #id = Val #(block_rank d id).
Proof.
  intros H. destruct (home_bounds id H) as [HR _]. pose proof (f_P31 _ _ _ F) as P31. fold P in P31.
  unfold w_block_rank, block_rank in *. unfold m. destruct (d_mode d); cbn [rbind] in *.
  - fold P in HR |- *. rewrite umod_ok by auto. cbn [rbind]. apply i32_id. lia.
  - rewrite w_nbc_ok. cbn [rbind]. destruct nbc_bounds.
    rewrite udiv_ok by (unfold node_block_count; fold L D; auto). cbn [rbind]. apply i32_id. lia.
Qed.

Lemma w_domain_ok id : (id < tb)%nat ->
  w_block_domain Checking m #P #D #tb #id = Val #(block_domain d id).
Proof.
  intros H. destruct (home_bounds id H) as [_ [HD _]]. pose proof (f_cores _ _ _ F) as C. fold P D in C.
  assert (D32 : #(D) < 2 ^ 32) by nia. destruct lbc_bounds.
  unfold w_block_domain, block_domain in *. unfold m. destruct (d_mode d); cbn [rbind] in *.
  - fold P D in HD |- *. rewrite udiv_ok by auto. cbn [rbind]. rewrite umod_ok by auto. cbn [rbind].
    apply u32_id. lia.
  - rewrite w_lbc_ok. cbn [rbind]. fold L D in HD |- *. rewrite udiv_ok by auto. cbn [rbind].
    rewrite umod_ok by auto. cbn [rbind]. apply u32_id. lia.
Qed.

Lemma w_boff_ok id : (id < tb)%nat ->
  w_block_offset Checking m #P #D #tb #id = Val #(block_offset d id).
Proof.
  intros H. destruct lbc_bounds.
  unfold w_block_offset, block_offset. unfold m. destruct (d_mode d); cbn [rbind].
  - fold P D. rewrite udiv_ok by auto. cbn [rbind]. now rewrite udiv_ok.
  - rewrite w_lbc_ok. cbn [rbind]. fold L. now rewrite umod_ok.
Qed.

Lemma noff_bound id : (id < tb)%nat -> (block_node_offset d id < L * D)%nat.
Proof.
  intros H. destruct (home_bounds id H) as [_ [HD HO]]. unfold block_node_offset. fold L. nia.
Qed.

Lemma w_noff_ok id : (id < tb)%nat ->
  w_block_node_offset Checking m #P #D #tb #id = Val #(block_node_offset d id).
Proof.
  intros H. pose proof (noff_bound id H) as N. destruct nbc_bounds. pose proof blocks_lt as B.
  unfold w_block_node_offset. rewrite w_boff_ok, w_domain_ok, w_lbc_ok by auto. cbn [rbind].
  unfold block_node_offset in *. fold L in N |- *. rewrite pow63 in B. pose proof pow64.
  rewrite u64_mul by lia. cbn [rbind]. now rewrite u64_add by lia.
Qed.

Lemma w_l2g_ok r dom k : (r < P)%nat -> (dom < D)%nat -> (k < L)%nat ->
  w_local2global Checking m #P #D #tb #r #dom #k = Val #(local2global d r dom k).
Proof.
  intros Hr Hd Hk. pose proof blocks_lt as B. pose proof (f_cores _ _ _ F) as C. fold P D in C.
  pose proof (f_tbs _ _ _ F). pose proof (f_ts _ _ _ F).
  assert (LL : (L * (D * P) <= L * (D * P) * (tbs * ts))%nat) by (apply le_mul_r; nia).
  assert (LU : #(L * (D * P)) < 2 ^ 63) by lia. rewrite pow63 in LU. pose proof pow64 as P64.
  unfold w_local2global, local2global. unfold m. destruct (d_mode d); cbn [rbind]; fold P D L.
  - assert ((k * D + dom < L * D)%nat) by nia.
    assert (((k * D + dom) * P + r < L * D * P)%nat) by nia.
    assert ((L * (D * P) = L * D * P)%nat) by ring.
    assert ((L * D <= L * D * P)%nat) by (apply le_mul_r; auto).
    rewrite u64_mul by lia. cbn [rbind]. rewrite u64_add by lia. cbn [rbind].
    rewrite u64_mul by lia. cbn [rbind]. now rewrite u64_add by lia.
  - assert ((dom + r * D < D * P)%nat) by nia.
    assert ((k + (dom + r * D) * L < L * (D * P))%nat) by nia.
    rewrite pow32 in C.
    rewrite u32_mul by (rewrite pow32; lia). cbn [rbind].
    rewrite u32_add by (rewrite pow32; lia). cbn [rbind]. rewrite w_lbc_ok. cbn [rbind].
    rewrite u64_mul by lia. cbn [rbind]. now rewrite u64_add by lia.
Qed.

(** ** Byte offsets of the static storage *)

Lemma node_bytes : (L * D * (tbs * ts) <= L * (D * P) * (tbs * ts))%nat.
Proof.
  replace (L * (D * P) * (tbs * ts))%nat with (L * D * (tbs * ts) * P)%nat by ring.
  now apply le_mul_r.
Qed.
Lemma one_block : (tbs * ts <= L * D * (tbs * ts))%nat.
Proof. destruct nbc_bounds. now apply le_mul_l. Qed.

Lemma w_bytes_ok : w_block_bytes Checking #ts #tbs = Val #(tbs * ts).
Proof.
  pose proof blocks_lt as B. pose proof node_bytes. pose proof one_block.
  unfold w_block_bytes. rewrite (Nat.mul_comm tbs ts) in *. rewrite pow63 in B. pose proof pow64.
  apply u64_mul. lia.
Qed.

Lemma w_alloc_ok : w_full_alloc Checking #P #D #ts #tbs #tb = Val #(L * D * (tbs * ts)).
Proof.
  pose proof blocks_lt as B. pose proof node_bytes as NB. unfold w_full_alloc.
  rewrite w_bytes_ok, w_lbc_ok. cbn [rbind]. rewrite pow63 in B. pose proof pow64.
  replace (L * D * (tbs * ts))%nat with (tbs * ts * L * D)%nat in * by ring.
  assert ((tbs * ts * L <= tbs * ts * L * D)%nat) by (apply le_mul_r; auto).
  rewrite u64_mul by lia. cbn [rbind]. apply u64_mul. lia.
Qed.

Lemma w_start_ok dom : (dom < D)%nat ->
  w_domain_start Checking #P #D #ts #tbs #tb #dom = Val #(dom * L * (tbs * ts)).
Proof.
  intros Hd. pose proof blocks_lt as B. pose proof node_bytes as NB. unfold w_domain_start.
  rewrite w_bytes_ok, w_lbc_ok. cbn [rbind]. rewrite pow63 in B. pose proof pow64.
  replace (dom * L * (tbs * ts))%nat with (tbs * ts * L * dom)%nat by ring.
  replace (L * D * (tbs * ts))%nat with (tbs * ts * L * D)%nat in * by ring.
  assert ((tbs * ts * L <= tbs * ts * L * D)%nat) by (apply le_mul_r; auto).
  assert ((tbs * ts * L * dom <= tbs * ts * L * D)%nat) by (apply Nat.mul_le_mono_l; lia).
  rewrite u64_mul by lia. cbn [rbind]. apply u64_mul. lia.
Qed.

Lemma w_load_ok i : (i < L)%nat -> w_load_addr Checking #ts #tbs #i = Val #(i * (tbs * ts)).
Proof.
  intros Hi. pose proof blocks_lt as B. pose proof node_bytes as NB. unfold w_load_addr.
  rewrite w_bytes_ok. cbn [rbind]. rewrite pow63 in B. pose proof pow64.
  rewrite (Nat.mul_comm i).
  assert ((tbs * ts * i <= L * D * (tbs * ts))%nat).
  { rewrite (Nat.mul_comm (L * D)). apply Nat.mul_le_mono_l. nia. }
  apply u64_mul. lia.
Qed.

End Fits.

(** ** Reads *)

Section Reads.
Variables (sizes : list nat) (user : nat -> Z) (td : Z) (arr0 : nat -> nat) (bl : blocked).
Hypothesis E : blocked_open sizes user td arr0 = Ok bl.
Variables (d : dist) (ts : nat).
Hypothesis Ed : d_total d = b_total bl.
Hypothesis F : fits d (b_tbs bl) ts.

Lemma open_bound : #(b_total bl * b_tbs bl) < 2 ^ 63.
Proof.
  pose proof (blocks_lt _ _ _ F) as B. destruct (lbc_bounds _ _ _ F) as [_ LT].
  pose proof (f_ts _ _ _ F). rewrite Ed in LT. rewrite pow63 in *.
  set (C := (local_block_count d * (d_domains d * d_ranks d))%nat) in *.
  assert ((b_total bl * b_tbs bl <= C * b_tbs bl)%nat) by (apply Nat.mul_le_mono_r; auto).
  assert ((C * b_tbs bl <= C * b_tbs bl * ts)%nat) by (apply le_mul_r; auto).
  rewrite Nat.mul_assoc in B. lia.
Qed.

Lemma open_exact : w_open Checking (dims_of user sizes) = Val (wz bl).
Proof. exact (w_open_ok _ _ _ _ _ E open_bound). Qed.

Lemma wfb : wf_blocked bl.
Proof. exact (proj1 (blocked_open_spec _ _ _ _ _ E)). Qed.

Lemma bsz : b_size bl = sizes.
Proof. exact (proj1 (proj2 (blocked_open_spec _ _ _ _ _ E))). Qed.

Lemma ix_pos ix : in_box sizes ix -> Forall2 (fun _ s => 0 < s)%nat ix (b_bs bl).
Proof.
  intros H. destruct wfb as [Wl Wp _ _ _ _]. rewrite bsz in Wl.
  revert Wl Wp. generalize (b_bs bl). clear - H.
  induction H as [|i s ix sizes Hi H IH]; intros [|b bs] Wl Wp; cbn in Wl; try discriminate;
    constructor; inversion Wp; subst; auto.
Qed.

Lemma ix_blocks ix : in_box sizes ix ->
  Forall2 (fun i n => i < n)%nat (map2 Nat.div ix (b_bs bl)) (b_blocks bl).
Proof.
  intros H. destruct wfb as [Wl Wp _ Wb _ _]. rewrite bsz in *. rewrite Wb.
  revert Wl Wp. generalize (b_bs bl). clear - H.
  induction H as [|i s ix sizes Hi H IH]; intros [|b bs] Wl Wp; cbn in Wl; try discriminate;
    cbn [map2]; constructor; inversion Wp; subst; auto.
  now apply ceil_div_gt.
Qed.

Lemma id_exact ix : in_box sizes ix ->
  w_block_loop Checking 0 (w_blocks (wz bl)) (w_bs (wz bl)) (Zs ix) = Val #(block_by_coords bl ix).
Proof.
  intros H. destruct wfb as [_ _ _ _ _ WT]. cbn [wz w_blocks w_bs]. change 0 with #0%nat.
  apply (w_block_loop_ok 0 1); auto using ix_pos, ix_blocks.
  rewrite Nat.mul_1_l, <- WT. pose proof open_bound as O. pose proof (f_tbs _ _ _ F).
  assert ((b_total bl <= b_total bl * b_tbs bl)%nat) by (apply le_mul_r; auto).
  rewrite pow63 in O. pose proof pow64. lia.
Qed.

Lemma off_exact ix : in_box sizes ix ->
  w_offset_loop Checking 0 (w_bs (wz bl)) (Zs ix) = Val #(calc_offset_in_block bl ix).
Proof.
  intros H. destruct wfb as [_ _ _ _ Wt _]. cbn [wz w_bs]. change 0 with #0%nat.
  apply (w_offset_loop_ok 0 1); auto using ix_pos.
  rewrite Nat.mul_1_l, <- Wt. pose proof open_bound as O. pose proof (f_total _ _ _ F) as T.
  rewrite Ed in T.
  assert ((b_tbs bl <= b_total bl * b_tbs bl)%nat) by (apply le_mul_l; auto).
  rewrite pow63 in O. pose proof pow64. lia.
Qed.

Lemma coords_bounds ix : in_box sizes ix ->
  (block_by_coords bl ix < d_total d)%nat /\ (calc_offset_in_block bl ix < b_tbs bl)%nat.
Proof.
  intros H. rewrite Ed.
  destruct (partition_spec sizes user td arr0
    (proj1 (blocked_open_ok_iff sizes user td arr0) (ex_intro _ bl E))) as [bl' [E' [Q _]]].
  rewrite E in E'. injection E' as <-. destruct (Q ix H) as [A [B _]]. auto.
Qed.

Lemma full_exact ix : in_box sizes ix ->
  w_full_addr Checking (d_mode d) #(d_ranks d) #(d_domains d) #ts (wz bl) (Zs ix) =
  Val #((block_offset d (block_by_coords bl ix) * b_tbs bl + calc_offset_in_block bl ix) * ts).
Proof.
  intros H. destruct (coords_bounds ix H) as [B O].
  destruct (home_bounds _ _ _ F _ B) as [_ [_ HO]].
  unfold w_full_addr. rewrite id_exact by auto. cbn [rbind].
  cbn [wz w_tb w_tbs]. rewrite <- Ed. rewrite (w_boff_ok _ _ _ F) by auto. cbn [rbind].
  change (Zs (b_bs bl)) with (w_bs (wz bl)). rewrite off_exact by auto. cbn [rbind].
  pose proof (blocks_lt _ _ _ F) as BL. pose proof (node_bytes _ _ _ F) as NB.
  pose proof (f_D _ _ _ F). pose proof (f_ts _ _ _ F).
  set (o := block_offset d (block_by_coords bl ix)) in *.
  set (v := calc_offset_in_block bl ix) in *. set (t := b_tbs bl) in *.
  set (L := local_block_count d) in *.
  assert (A1 : (o * t + v < L * t)%nat) by nia.
  assert (A2 : ((o * t + v) * ts <= L * t * ts)%nat) by nia.
  assert (A3 : (L * t * ts <= L * d_domains d * (t * ts))%nat).
  { replace (L * d_domains d * (t * ts))%nat with (L * t * ts * d_domains d)%nat by ring.
    now apply le_mul_r. }
  assert (A4 : (o * t + v <= (o * t + v) * ts)%nat) by (now apply le_mul_r).
  rewrite pow63 in BL. pose proof pow64.
  rewrite u64_mul by lia. cbn [rbind]. rewrite u64_add by lia. cbn [rbind].
  rewrite (Nat.mul_comm _ ts) in *. apply u64_mul. lia.
Qed.

Lemma numa_exact id : (id < d_total d)%nat ->
  w_numa_addr Checking (d_mode d) #(d_ranks d) #(d_domains d) #ts (wz bl) #id =
  Val #(block_node_offset d id * (b_tbs bl * ts)).
Proof.
  intros B. pose proof (noff_bound _ _ _ F id B) as N.
  unfold w_numa_addr. cbn [wz w_tb w_tbs]. rewrite <- Ed.
  rewrite (w_lbc_ok _ _ _ F), (w_domain_ok _ _ _ F), (w_boff_ok _ _ _ F) by auto. cbn [rbind].
  pose proof (blocks_lt _ _ _ F) as BL. pose proof (node_bytes _ _ _ F) as NB.
  pose proof (one_block _ _ _ F) as OB. pose proof (nbc_bounds _ _ _ F) as [_ NN].
  rewrite pow63 in BL. pose proof pow64.
  rewrite u64_mul by lia. cbn [rbind].
  unfold block_node_offset in *. set (L := local_block_count d) in *.
  rewrite (Nat.mul_comm (block_domain d id)) in *.
  rewrite u64_mul by lia. cbn [rbind]. rewrite u64_add by lia. cbn [rbind].
  rewrite (Nat.add_comm (L * _)). apply u64_mul.
  assert (((block_offset d id + L * block_domain d id) * (b_tbs bl * ts)
      <= L * d_domains d * (b_tbs bl * ts))%nat) by (apply Nat.mul_le_mono_r; lia).
  lia.
Qed.

Lemma get_exact id : (id < d_total d)%nat -> #(b_tbs bl) < 2 ^ 31 ->
  w_mpi_get Checking (d_mode d) #(d_ranks d) #(d_domains d) (wz bl) #id =
  Val (#(block_node_offset d id * b_tbs bl), #(b_tbs bl)).
Proof.
  intros B C. pose proof (noff_bound _ _ _ F id B) as N.
  unfold w_mpi_get. cbn [wz w_tb w_tbs]. rewrite <- Ed.
  rewrite (w_noff_ok _ _ _ F) by auto. cbn [rbind].
  pose proof (blocks_lt _ _ _ F) as BL. pose proof (node_bytes _ _ _ F) as NB.
  pose proof (f_ts _ _ _ F).
  assert (A : (block_node_offset d id * b_tbs bl <= local_block_count d * d_domains d * (b_tbs bl * ts))%nat).
  { transitivity (local_block_count d * d_domains d * b_tbs bl)%nat; [apply Nat.mul_le_mono_r; lia|].
    rewrite Nat.mul_assoc. now apply le_mul_r. }
  rewrite u64_mul by (rewrite pow63 in BL; pose proof pow64; lia). cbn [rbind].
  rewrite i64_id by lia. cbn [rbind]. rewrite i32_id by auto. reflexivity.
Qed.

End Reads.

(** ** Caches *)

(** Conditions on the size of a cache with [cs] blocks per domain. *)
Record cache_fits (P D cs tbs ts : nat) : Prop := {
  cf_P31 : #(P) < 2 ^ 31;
  cf_slots : #(cs * D) < 2 ^ 32;
  cf_bytes : #(cs * D * (tbs * ts)) < 2 ^ 64
}.

Section Cache.
Variables P D cs tbs ts : nat.
Hypothesis C : cache_fits P D cs tbs ts.
Variables r dom off : nat.
Hypothesis Hr : (r < P)%nat.
Hypothesis Hdom : (dom < D)%nat.
Hypothesis Hoff : (off < cs)%nat.

Lemma slot_bound : (off + cs * dom < cs * D)%nat.
Proof. clear Hr. nia. Qed.

Lemma slot_exact : w_slot Checking #cs #dom #off = Val #(off + cs * dom).
Proof.
  pose proof slot_bound as S. pose proof (cf_slots _ _ _ _ _ C) as S32. rewrite pow32 in S32.
  pose proof pow64. unfold w_slot. rewrite u32_mul by (rewrite pow32; lia). cbn [rbind].
  apply u64_add. lia.
Qed.

Lemma rcs_exact : w_rank_cache_size Checking #cs #D = Val #(cs * D).
Proof. apply u32_mul, (cf_slots _ _ _ _ _ C). Qed.

Lemma entry_bound : #(r * (cs * D) + (off + cs * dom)) < 2 ^ 63.
Proof.
  pose proof slot_bound as S. pose proof (cf_slots _ _ _ _ _ C) as S32.
  pose proof (cf_P31 _ _ _ _ _ C) as P31. rewrite pow32 in S32. rewrite pow31 in P31. rewrite pow63.
  set (R := (cs * D)%nat) in *. set (s := (off + cs * dom)%nat) in *.
  assert (A : ((r + 1) * R <= P * R)%nat) by (apply Nat.mul_le_mono_r; lia).
  assert (A2 : #P * #R <= 2147483647 * 4294967295) by (apply Z.mul_le_mono_nonneg; lia).
  lia.
Qed.

Lemma entry_exact :
  w_entry Checking #cs #D #r #(off + cs * dom) = Val #(r * (cs * D) + (off + cs * dom)).
Proof.
  pose proof entry_bound as B. unfold w_entry. rewrite rcs_exact. cbn [rbind].
  assert (B' : #(r * (cs * D) + (off + cs * dom)) < 2 ^ 64)
    by (rewrite pow63 in B; pose proof pow64; lia).
  rewrite u64_mul by lia. cbn [rbind]. rewrite u64_add by exact B'. cbn [rbind].
  now apply i64_id.
Qed.

Lemma decode_exact :
  w_decode Checking #cs #D #(r * (cs * D) + (off + cs * dom)) = Val (#r, #(off + cs * dom)).
Proof.
  pose proof entry_bound as B. pose proof slot_bound as S.
  unfold w_decode. rewrite rcs_exact. cbn [rbind].
  rewrite u64_id by (rewrite pow63 in B; pose proof pow64; lia). cbn [rbind].
  assert (R0 : (0 < cs * D)%nat) by lia.
  rewrite udiv_ok by auto. cbn [rbind].
  assert (D1 : ((r * (cs * D) + (off + cs * dom)) / (cs * D) = r)%nat).
  { rewrite Nat.div_add_l by lia. rewrite Nat.div_small by auto. lia. }
  assert (D2 : ((r * (cs * D) + (off + cs * dom)) mod (cs * D) = off + cs * dom)%nat).
  { rewrite Nat.add_comm, Nat.mod_add by lia. now apply Nat.mod_small. }
  rewrite D1. rewrite i32_id by (pose proof (cf_P31 _ _ _ _ _ C); lia). cbn [rbind].
  rewrite umod_ok by auto. cbn [rbind]. now rewrite D2.
Qed.

Lemma cache_addr_exact v : (v < tbs)%nat -> (0 < ts)%nat ->
  w_cache_addr Checking #cs #ts #tbs #dom #off #v =
  Val #((off + cs * dom) * (tbs * ts) + ts * v).
Proof.
  intros Hv Hts. pose proof slot_bound as S. pose proof (cf_bytes _ _ _ _ _ C) as B.
  assert (T0 : (0 < tbs * ts)%nat) by nia.
  assert (A1 : (ts * v < tbs * ts)%nat) by nia.
  set (bb := (tbs * ts)%nat) in *. set (q := (ts * v)%nat) in *.
  assert (A2 : ((off + cs * dom) * bb + q < cs * D * bb)%nat) by nia.
  assert (A3 : (bb <= cs * D * bb)%nat) by (apply le_mul_l; lia).
  assert (A4 : (bb * cs <= cs * D * bb)%nat) by nia.
  assert (A5 : ((off + cs * dom) * bb = off * bb + bb * cs * dom)%nat) by ring.
  unfold w_cache_addr, w_block_bytes.
  rewrite u64_mul by (rewrite Nat.mul_comm; fold bb; lia). cbn [rbind].
  rewrite (Nat.mul_comm ts tbs). fold bb.
  rewrite u64_mul by lia. cbn [rbind]. rewrite u64_mul by lia. cbn [rbind].
  rewrite u64_mul by lia. cbn [rbind]. rewrite u64_mul by (fold q; lia). cbn [rbind]. fold q.
  rewrite u64_add by lia. cbn [rbind]. rewrite u64_add by lia. do 2 f_equal. lia.
Qed.

Lemma slot_addr_exact : (0 < tbs)%nat -> (0 < ts)%nat ->
  w_slot_addr Checking #ts #tbs #(off + cs * dom) = Val #((off + cs * dom) * (tbs * ts)).
Proof.
  intros Ht Hts. pose proof slot_bound as S. pose proof (cf_bytes _ _ _ _ _ C) as B.
  set (s := (off + cs * dom)%nat) in *.
  assert (A1 : (s * (tbs * ts) <= cs * D * (tbs * ts))%nat) by (apply Nat.mul_le_mono_r; lia).
  assert (A2 : (s * tbs <= s * tbs * ts)%nat) by (apply le_mul_r; auto).
  unfold w_slot_addr. rewrite Nat.mul_assoc in *.
  rewrite u64_mul by lia. cbn [rbind]. apply u64_mul. lia.
Qed.

(** Requests of the communication thread: the packed dictionary offset and slot
    of a rank with [n] dictionary entries. *)
Lemma message_exact n o : (o < n)%nat -> #(n * (cs * D)) < 2 ^ 64 ->
  w_message Checking #cs #D #o #(off + cs * dom) = Val #(o * (cs * D) + (off + cs * dom)) /\
  w_unpack Checking #cs #D #(o * (cs * D) + (off + cs * dom)) = Val (#o, #(off + cs * dom)).
Proof.
  clear Hr. intros Ho B. pose proof slot_bound as S.
  assert (A : (o * (cs * D) + (off + cs * dom) < n * (cs * D))%nat) by nia.
  split.
  - unfold w_message. rewrite rcs_exact. cbn [rbind].
    rewrite u64_mul by lia. cbn [rbind]. apply u64_add. lia.
  - unfold w_unpack. rewrite rcs_exact. cbn [rbind].
    rewrite udiv_ok by lia. cbn [rbind]. rewrite umod_ok by lia. cbn [rbind].
    do 2 f_equal; f_equal.
    + rewrite Nat.div_add_l by lia. rewrite Nat.div_small by auto. lia.
    + rewrite Nat.add_comm, Nat.mod_add by lia. now apply Nat.mod_small.
Qed.

End Cache.

(** Dictionaries with [tde] words per block. *)
Lemma dict_exact d tbs ts tde :
  fits d tbs ts -> #(8 * (node_block_count d * tde)) < 2 ^ 64 ->
  w_dict_bytes Checking #(d_ranks d) #(d_domains d) #(d_total d) #tde =
    Val #(8 * (node_block_count d * tde)) /\
  forall id k, (id < d_total d)%nat -> (k < tde)%nat ->
    w_dict_index Checking #tde #(block_node_offset d id) #k =
    Val #(block_node_offset d id * tde + k) /\
    (block_node_offset d id * tde + k < node_block_count d * tde)%nat.
Proof.
  intros F B. split.
  - unfold w_dict_bytes. rewrite (w_lbc_ok _ _ _ F). cbn [rbind]. unfold node_block_count in *.
    pose proof (f_D _ _ _ F).
    set (L := local_block_count d) in *.
    replace (L * d_domains d * tde)%nat with (L * tde * d_domains d)%nat in * by ring.
    assert ((L * tde <= L * tde * d_domains d)%nat) by (apply le_mul_r; auto).
    rewrite u64_mul by lia. cbn [rbind]. rewrite u64_mul by lia. cbn [rbind].
    change 8 with #8%nat. apply u64_mul. exact B.
  - intros id k Hid Hk. pose proof (noff_bound _ _ _ F id Hid) as N. fold (node_block_count d) in N.
    set (o := block_node_offset d id) in *. set (n := node_block_count d) in *.
    assert (A : (o * tde + k < n * tde)%nat) by nia. split; auto.
    unfold w_dict_index. rewrite u64_mul by lia. cbn [rbind]. apply u64_add. lia.
Qed.

(** ** Witnesses *)

(** [2^64 - 1] cells of one byte in a single block: the rounding up in
    [Blocked::open] wraps and the grid has no blocks at all. *)
Lemma rounding_wraps :
  exists size, size * 1 < 2 ^ 64 /\ w_open Wrapping [(-1, size)] = Val (WBlk [size] [0] size 0).
Proof. exists (2 ^ 64 - 1). split; vm_compute; reflexivity. Qed.

(** [2^64 - 1] blocks of one byte and two ranks: the rounding up in
    [localBlockCount] wraps, the count is 0 and [blockOffset] divides by it. *)
Lemma local_count_wraps :
  exists tb P D, tb * 1 < 2 ^ 64 /\
    w_local_block_count Wrapping P D tb = Val 0 /\
    w_block_offset Wrapping Contiguous P D tb 5 = DivZero.
Proof. exists (2 ^ 64 - 1), 2, 1. repeat split; vm_compute; reflexivity. Qed.

(** A cache of [2^31] blocks in each of two domains: [m_rankCacheSize] is 0, so
    that decoding a dictionary entry divides by zero. *)
Lemma rank_cache_wraps :
  exists cs D, cs < 2 ^ 32 /\
    w_rank_cache_size Wrapping cs D = Val 0 /\
    forall e, w_decode Wrapping cs D e = DivZero.
Proof. exists (2 ^ 31), 2. repeat split; vm_compute; reflexivity. Qed.

(** ... and with four domains the slots of the third one are those of the
    first. *)
Lemma slots_collide :
  exists cs off dom dom', cs < 2 ^ 32 /\ dom <> dom' /\
    w_slot Wrapping cs dom off = w_slot Wrapping cs dom' off.
Proof. exists (2 ^ 31), 7, 0, 2. repeat split; vm_compute; try discriminate; reflexivity. Qed.

(** A block of [2^31] values: the count given to [MPI_Get] is negative. *)
Lemma count_wraps :
  exists tbs, tbs * 4 < 2 ^ 64 /\
    exists disp, w_mpi_get Wrapping Contiguous 2 1 (WBlk [tbs] [2] tbs 2) 1 = Val (disp, - tbs).
Proof. exists (2 ^ 31). split; [vm_compute; reflexivity|]. eexists. vm_compute. reflexivity. Qed.

(** ** The statements of the property file *)

(** No operation of [f] leaves its type and the hardware computes [v]. *)
Definition exactly {A} (f : wmode -> res A) (v : A) : Prop :=
  f Checking = Val v /\ f Wrapping = Val v.

Lemma exactly_intro {A} (f : wmode -> res A) v : agrees f -> f Checking = Val v -> exactly f v.
Proof. intros H E. split; auto. Qed.

(** The grid has [total] blocks of [tbs] values of [ts] bytes and is
    distributed over [P] ranks with [D] domains each: the whole grid and one more
    block for every domain take less than [2^63] bytes. *)
Record small_grid (P D total tbs ts : nat) : Prop := {
  sg_P : (0 < P)%nat;
  sg_P31 : #(P) < 2 ^ 31;
  sg_D : (0 < D)%nat;
  sg_cores : #(D * P) < 2 ^ 32;
  sg_ts : (0 < ts)%nat;
  sg_bytes : #((total + D * P) * (tbs * ts)) <= 2 ^ 63
}.

Lemma fits_intro d tbs ts :
  small_grid (d_ranks d) (d_domains d) (d_total d) tbs ts -> (0 < tbs)%nat -> (0 < d_total d)%nat ->
  fits d tbs ts.
Proof.
  intros [p p31 pd c t b] T TT. constructor; auto.
  assert (C0 : (0 < d_domains d * d_ranks d)%nat) by nia.
  unfold local_block_count. set (k := (d_domains d * d_ranks d)%nat) in *. clearbody k.
  set (n := d_total d) in *. clearbody n.
  assert (A : ((n + k - 1) / k * k < n + k)%nat) by nia.
  assert (A2 : ((n + k - 1) / k * k * (tbs * ts) < (n + k) * (tbs * ts))%nat).
  { apply Nat.mul_lt_mono_pos_r; nia. }
  lia.
Qed.

Section Final.
Variables (sizes : list nat) (user : nat -> Z) (td : Z) (arr0 : nat -> nat) (bl : blocked).
Hypothesis E : blocked_open sizes user td arr0 = Ok bl.
Variables (m : dist_mode) (P D ts : nat).
Hypothesis G : small_grid P D (b_total bl) (b_tbs bl) ts.
Let d := Dist m P D (b_total bl).

Lemma final_fits : fits d (b_tbs bl) ts.
Proof.
  pose proof (wfb _ _ _ _ _ E) as [_ Wp _ Wb Wt WT].
  apply fits_intro; [exact G| |].
  - rewrite Wt. now apply vol_pos.
  - cbn [d d_total]. rewrite WT. apply vol_pos. rewrite Wb.
    pose proof (proj1 (blocked_open_ok_iff sizes user td arr0) (ex_intro _ bl E)) as Hp.
    rewrite (bsz _ _ _ _ _ E). revert Wp. generalize (b_bs bl). clear -Hp.
    induction Hp as [|s sizes Hs Hp IH]; intros [|b bs] W; cbn [map2]; constructor; inversion W; subst; auto.
    apply (Nat.le_lt_trans _ (0 / b)%nat); [apply Nat.le_0_l|]. now apply ceil_div_gt.
Qed.

Lemma open_final : exactly (fun md => w_open md (dims_of user sizes)) (wz bl).
Proof.
  apply exactly_intro; [apply a_open|]. exact (open_exact _ _ _ _ _ E d ts eq_refl final_fits).
Qed.

Lemma full_final ix : in_box sizes ix ->
  exactly (fun md => w_block_loop md 0 (w_blocks (wz bl)) (w_bs (wz bl)) (Zs ix)) #(block_by_coords bl ix) /\
  exactly (fun md => w_full_addr md m #P #D #ts (wz bl) (Zs ix))
    #((block_offset d (block_by_coords bl ix) * b_tbs bl + calc_offset_in_block bl ix) * ts).
Proof.
  intros H. split; apply exactly_intro; [apply a_block| |apply a_full|].
  - exact (id_exact _ _ _ _ _ E d ts eq_refl final_fits ix H).
  - exact (full_exact _ _ _ _ _ E d ts eq_refl final_fits ix H).
Qed.

Lemma storage_final :
  exactly (fun md => w_full_alloc md #P #D #ts #(b_tbs bl) #(b_total bl))
    #(node_block_count d * (b_tbs bl * ts)) /\
  (forall dom, (dom < D)%nat ->
    exactly (fun md => w_domain_start md #P #D #ts #(b_tbs bl) #(b_total bl) #dom)
      #(dom * local_block_count d * (b_tbs bl * ts))) /\
  (forall r dom k, (r < P)%nat -> (dom < D)%nat -> (k < local_block_count d)%nat ->
    exactly (fun md => w_local2global md m #P #D #(b_total bl) #r #dom #k) #(local2global d r dom k) /\
    exactly (fun md => w_load_addr md #ts #(b_tbs bl) #k) #(k * (b_tbs bl * ts))).
Proof.
  pose proof final_fits as F. split; [|split].
  - apply exactly_intro; [apply a_alloc|exact (w_alloc_ok _ _ _ F)].
  - intros dom Hd. apply exactly_intro; [apply a_start|exact (w_start_ok _ _ _ F dom Hd)].
  - intros r dom k Hr Hd Hk. split; apply exactly_intro; [apply a_l2g| |apply a_load|].
    + exact (w_l2g_ok _ _ _ F r dom k Hr Hd Hk).
    + exact (w_load_ok _ _ _ F k Hk).
Qed.

Lemma remote_final id : (id < b_total bl)%nat ->
  exactly (fun md => w_block_rank md m #P #D #(b_total bl) #id) #(block_rank d id) /\
  exactly (fun md => w_block_domain md m #P #D #(b_total bl) #id) #(block_domain d id) /\
  exactly (fun md => w_block_node_offset md m #P #D #(b_total bl) #id) #(block_node_offset d id) /\
  exactly (fun md => w_numa_addr md m #P #D #ts (wz bl) #id) #(block_node_offset d id * (b_tbs bl * ts)) /\
  (#(b_tbs bl) < 2 ^ 31 ->
   exactly (fun md => w_mpi_get md m #P #D (wz bl) #id) (#(block_node_offset d id * b_tbs bl), #(b_tbs bl))).
Proof.
  intros H. pose proof final_fits as F.
  split; [|split; [|split; [|split]]]; try (intros C31); apply exactly_intro.
  - apply a_rank.
  - exact (w_rank_ok _ _ _ F id H).
  - apply a_domain.
  - exact (w_domain_ok _ _ _ F id H).
  - apply a_noff.
  - exact (w_noff_ok _ _ _ F id H).
  - apply a_numa.
  - exact (numa_exact bl d ts eq_refl F id H).
  - apply a_get.
  - exact (get_exact bl d ts eq_refl F id H C31).
Qed.

Lemma dict_final tde :
  #(8 * (node_block_count d * tde)) < 2 ^ 64 ->
  exactly (fun md => w_dict_bytes md #P #D #(b_total bl) #tde) #(8 * (node_block_count d * tde)) /\
  forall id k, (id < b_total bl)%nat -> (k < tde)%nat ->
    exactly (fun md => w_dict_index md #tde #(block_node_offset d id) #k)
      #(block_node_offset d id * tde + k) /\
    (block_node_offset d id * tde + k < node_block_count d * tde)%nat.
Proof.
  intros B. destruct (dict_exact d _ _ tde final_fits B) as [X Y]. split.
  - apply exactly_intro; [apply a_dict|exact X].
  - intros id k Hi Hk. destruct (Y id k Hi Hk) as [Y1 Y2]. split; auto.
    apply exactly_intro; [apply a_dict_index|exact Y1].
Qed.

End Final.

Lemma cache_final P D cs tbs ts r dom off v :
  cache_fits P D cs tbs ts -> (0 < ts)%nat ->
  (r < P)%nat -> (dom < D)%nat -> (off < cs)%nat -> (v < tbs)%nat ->
  let slot := (off + cs * dom)%nat in
  let entry := (r * (cs * D) + slot)%nat in
  exactly (fun md => w_slot md #cs #dom #off) #slot /\
  exactly (fun md => w_entry md #cs #D #r #slot) #entry /\
  exactly (fun md => w_decode md #cs #D #entry) (#r, #slot) /\
  exactly (fun md => w_cache_addr md #cs #ts #tbs #dom #off #v) #(slot * (tbs * ts) + ts * v) /\
  exactly (fun md => w_slot_addr md #ts #tbs #slot) #(slot * (tbs * ts)).
Proof.
  intros C Hts Hr Hd Ho Hv slot entry.
  split; [|split; [|split; [|split]]]; apply exactly_intro.
  - apply a_slot.
  - eapply slot_exact; eauto.
  - apply a_entry.
  - eapply entry_exact; eauto.
  - apply a_decode.
  - eapply decode_exact; eauto.
  - apply a_cache.
  - eapply cache_addr_exact; eauto.
  - apply a_slot_addr.
  - eapply slot_addr_exact; eauto; lia.
Qed.

Lemma message_final P D cs tbs ts dom off n o :
  cache_fits P D cs tbs ts -> (dom < D)%nat -> (off < cs)%nat -> (o < n)%nat ->
  #(n * (cs * D)) < 2 ^ 64 ->
  let slot := (off + cs * dom)%nat in
  exactly (fun md => w_message md #cs #D #o #slot) #(o * (cs * D) + slot) /\
  exactly (fun md => w_unpack md #cs #D #(o * (cs * D) + slot)) (#o, #slot).
Proof.
  intros C Hd Ho Hn B slot. destruct (message_exact _ _ _ _ _ C _ _ Hd Ho n o Hn B) as [X Y].
  split; apply exactly_intro; auto using a_message, a_unpack.
Qed.
