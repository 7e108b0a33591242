(** * Windows and receivers end before the memory they give access to *)
From Coq Require Import Lia.
From Verif Require Import LedgerModel LedgerSpec LedgerFacts.

Lemma free_list_log h l : h_log (free_list h l) = rev (map Free l) ++ h_log h.
Proof.
  revert h. induction l as [|x r IH]; intros h; [reflexivity|]. cbn [free_list map rev]. rewrite IH. cbn [h_log]. rewrite <- app_assoc. reflexivity.
Qed.
Definition ahead {A} (x y : A) (l : list A) : Prop := exists a b c, l = a ++ x :: b ++ y :: c.
Lemma ahead_left {A} (x y : A) l r : ahead x y l -> ahead x y (l ++ r).
Proof. intros (a & b & c & ->). exists a, b, (c ++ r). rewrite <- !app_assoc. cbn. rewrite <- !app_assoc. reflexivity. Qed.
Lemma ahead_right {A} (x y : A) l r : ahead x y l -> ahead x y (r ++ l).
Proof. intros (a & b & c & ->). exists (r ++ a), b, c. rewrite <- !app_assoc. reflexivity. Qed.
Lemma ahead_flat {A B} (f : A -> list B) l x y a : In a l -> ahead x y (f a) -> ahead x y (flat_map f l).
Proof.
  intros I H. induction l as [|e r IH]; [destruct I|]. cbn [flat_map]. destruct I as [->|I]; [apply ahead_left; exact H|apply ahead_right; exact (IH I)].
Qed.
Lemma ahead_two {A B} (f : A -> list B) l x y e e' : ahead e e' l -> f e = [x] -> f e' = [y] -> ahead x y (flat_map f l).
Proof.
  intros (a & b & c & ->) E E'. exists (flat_map f a), (flat_map f b), (flat_map f c). rewrite flat_map_app. cbn [flat_map]. rewrite E, flat_map_app. cbn [flat_map].
  rewrite E'. reflexivity.
Qed.
Lemma ahead_freed x y h l : ahead x y l -> freed_before x y (h_log (free_list h l)).
Proof.
  intros (a & b & c & ->). exists (rev (map Free c)), (rev (map Free b)), (rev (map Free a) ++ h_log h). rewrite free_list_log.
  rewrite map_app, rev_app_distr. cbn [map rev]. rewrite map_app, rev_app_distr. cbn [map rev]. repeat (rewrite <- app_assoc; cbn [app]). reflexivity.
Qed.

(** In each list of destructors: position of the first member of a field. *)
Lemma dels_order k w f : In (w, f) (exposes k) -> exists gw gf, ahead (gw, w) (gf, f) (dels k) /\
  (forall o x, (forall p, o_dom o p = 0) -> o_ptr o w = Some x -> o_ptr o f <> None -> (w = FTag2 \/ w = FTag3 \/ w = FTag4 -> o_ptr o FTag1 <> None) -> passes o gw = true /\ passes o gf = true) /\
  whose k w = Some First /\ whose k f = Some First.
Proof.
  destruct k as [|[] nc| |[] nc|]; intros I; try (destruct I; fail).
  - destruct I as [E|[]]. injection E as <- <-. exists (ZeroSet PMpi FTag), (Zero PLevel). split; [|split; [|split; destruct nc; vm_compute; reflexivity]].
    + destruct nc; [exists [(Always, FCache); (Zero PNuma, FNumaMgrs)]|exists [(Always, FCache)]]; exists [(ZeroSet PMpi FTag, FSendRecv); (Always, FLocks); (Always, FIndex); (Always, FRef)], del_level; reflexivity.
    + intros o x D X Y _. cbn. rewrite !D, X. auto.
  - destruct I as [E|[]]. injection E as <- <-. exists (ZeroSet PMpi FWin), (Zero PLevel). split; [|split; [|split; destruct nc; vm_compute; reflexivity]].
    + destruct nc; [exists [(Always, FCache); (Zero PNuma, FNumaMgrs); (ZeroSet PMpi FWin, FWinMutex)]|exists [(Always, FCache); (ZeroSet PMpi FWin, FWinMutex)]]; exists [(Always, FLocks); (Always, FIndex); (Always, FRef)], del_level; reflexivity.
    + intros o x D X Y _. cbn. rewrite !D, X. auto.
  - cbn in I. set (g := ZeroSet PMpi FTag1).
    assert (Q : forall o x, (forall p, o_dom o p = 0) -> o_ptr o w = Some x -> (w = FTag2 \/ w = FTag3 \/ w = FTag4 -> o_ptr o FTag1 <> None) -> passes o g = true).
    { intros o x D X H. unfold g. cbn. rewrite !D. cbn. destruct (o_ptr o FTag1) eqn:Z; [reflexivity|]. destruct I as [E|[E|[E|[E|[]]]]]; injection E as <- <-; try (exfalso; apply H; auto; fail). congruence. }
    exists g, (if field_dec f FDict then Zero PDict else Zero PLevel).
    split; [|split].
    + destruct I as [E|[E|[E|[E|[]]]]]; injection E as <- <-.
      * destruct nc; [exists [(Zero PNuma, FNumaMgrs); (g, FMgrs)]|exists [(g, FMgrs)]]; exists [(g, FTag2); (g, FTag3); (g, FTag4); (g, FMutexes); (g, FInfo); (g, FBlock)]; eexists; reflexivity.
      * destruct nc; [exists [(Zero PNuma, FNumaMgrs); (g, FMgrs); (g, FTag1)]|exists [(g, FMgrs); (g, FTag1)]]; exists [(g, FTag3); (g, FTag4); (g, FMutexes); (g, FInfo); (g, FBlock); (Zero PDict, FDict)]; eexists; reflexivity.
      * destruct nc; [exists [(Zero PNuma, FNumaMgrs); (g, FMgrs); (g, FTag1); (g, FTag2)]|exists [(g, FMgrs); (g, FTag1); (g, FTag2)]]; exists [(g, FTag4); (g, FMutexes); (g, FInfo); (g, FBlock)]; eexists; reflexivity.
      * destruct nc; [exists [(Zero PNuma, FNumaMgrs); (g, FMgrs); (g, FTag1); (g, FTag2); (g, FTag3)]|exists [(g, FMgrs); (g, FTag1); (g, FTag2); (g, FTag3)]]; exists [(g, FMutexes); (g, FInfo); (g, FBlock)]; eexists; reflexivity.
    + intros o x D X Y H. split; [exact (Q o x D X H)|]. destruct (field_dec f FDict); cbn; rewrite D; reflexivity.
    + destruct I as [E|[E|[E|[E|[]]]]]; injection E as <- <-; destruct nc; vm_compute; auto.
  - exists (Zero PMpi), (if field_dec f FDict then Zero PDict else Zero PLevel). split; [|split].
    + destruct I as [E|[E|[]]]; injection E as <- <-.
      * destruct nc; [exists [(Zero PNuma, FNumaMgrs); (Zero PMpi, FMpiMutex); (Zero PMpi, FDictWinMutex); (Zero PMpi, FCacheWinMutex)]|exists [(Zero PMpi, FMpiMutex); (Zero PMpi, FDictWinMutex); (Zero PMpi, FCacheWinMutex)]];
          exists [(Zero PMpi, FCacheWin)]; eexists; reflexivity.
      * destruct nc; [exists [(Zero PNuma, FNumaMgrs); (Zero PMpi, FMpiMutex); (Zero PMpi, FDictWinMutex); (Zero PMpi, FCacheWinMutex); (Zero PMpi, FDictWin)]|exists [(Zero PMpi, FMpiMutex); (Zero PMpi, FDictWinMutex); (Zero PMpi, FCacheWinMutex); (Zero PMpi, FDictWin)]];
          exists [(Zero PDict, FDict)]; eexists; reflexivity.
    + intros o x D X Y _. destruct (field_dec f FDict); cbn; rewrite !D; auto.
    + destruct I as [E|[E|[]]]; injection E as <- <-; destruct nc; vm_compute; auto.
Qed.
Lemma order n k grow h s l d d' w f x y : 0 < n -> largest_first h -> no_reopen h -> (forall q, In q h -> lucky k q) -> opens n k grow cst0 h = Go s ->
  In (w, f) (exposes k) -> l < c_count s -> d < n -> d' < n -> o_ptr (c_lv s l d) w = Some x -> o_ptr (c_lv s l d') f = Some y ->
  freed_before x y (close n k s).
Proof.
  intros N LF NR LU E I L D D' X Y. pose proof (history n k N (kinds_ok k) grow h s LF NR LU E) as G.
  destruct (g_shape _ _ _ _ _ _ G l L) as [Sh St]. destruct (dels_order k w f I) as (gw & gf & A & P & Ow & Of).
  assert (S0 : forall d f x, d < n -> o_ptr (c_lv s l d) f = Some x -> whose k f = Some First -> o_ptr (c_lv s l 0) f = Some x).
  { intros e g z De Z O. destruct (sh_share _ _ _ Sh e g z De Z) as [[Q|[_ Q]]|[_ Q]]; [congruence|subst e; exact Z|exact Q]. }
  apply (S0 _ _ _ D X) in Ow. apply (S0 _ _ _ D' Y) in Of. unfold close. apply ahead_freed. unfold all_released.
  apply (ahead_flat _ _ x y 0); [apply in_seq; lia|]. apply (ahead_flat _ _ x y l); [apply in_seq; lia|]. unfold release.
  destruct (P (c_lv s l 0) x (sh_dom0 _ _ _ Sh) Ow) as [P1 P2]; [congruence| |].
  - intros W. assert (exists nc, k = KCacheDist MThread nc) as [nc K].
    { destruct k as [|[] nc| |[] nc|]; cbn in I; repeat match goal with H : _ \/ _ |- _ => destruct H | H : (_, _) = (_, _) |- _ => injection H as <- <- end; try contradiction; try discriminate; eauto. }
    subst k. apply (St PMpi FTag1 w); [|congruence]. destruct W as [-> | [-> | ->]]; destruct nc; cbn; auto 20.
  - apply (ahead_two _ _ x y (gw, w) (gf, f) A); cbn [fst snd]; [rewrite P1, Ow|rewrite P2, Of]; reflexivity.
Qed.
