(** * C82: memory, windows and receivers of a grid are released exactly once *)
From Verif Require Import LedgerModel LedgerSpec LedgerFacts LedgerCalm LedgerOrder.

(** For every kind of level, any number of domains and levels, wherever the opens fail: if no level is opened twice, the largest is
    opened first and the critical calls succeed, closing the grid frees everything that was ever allocated, once. *)
Theorem C82_exactly_once_partial : forall n k grow h s, 0 < n -> largest_first h -> no_reopen h -> (forall q, In q h -> lucky k q) ->
  opens n k grow cst0 h = Go s -> proper (close n k s) /\ all_freed (close n k s).
Proof. exact exactly_once. Qed.
(** Until then nothing that a domain can reach has been freed. *)
Theorem C82_usable_partial : forall n k grow h s x, 0 < n -> largest_first h -> no_reopen h -> (forall q, In q h -> lucky k q) ->
  opens n k grow cst0 h = Go s -> held n s x -> live x (h_log (c_heap s)).
Proof. exact usable. Qed.

(** Opens without failures return, in every state. *)
Theorem C82_returns : forall n k grow s ls, 0 < n -> exists s', opens n k grow s (map calm ls) = Go s'.
Proof. intros n k grow s ls P. exact (calm_opens n k grow ls P s). Qed.
(** A level whose open did not fail has on every domain everything that its readers use, shared or one for each domain as it has to be,
    whatever happens to the other levels. *)
Theorem C82_complete_partial : forall n k grow h l t s, 0 < n -> largest_first (h ++ calm l :: t) -> no_reopen (h ++ calm l :: t) ->
  opens n k grow cst0 (h ++ calm l :: t) = Go s -> complete n k s l.
Proof. exact stays_complete. Qed.

(** Windows and receivers end before the memory which they give other processes access to. *)
Theorem C82_order_partial : forall n k grow h s l d d' w f x y, 0 < n -> largest_first h -> no_reopen h -> (forall q, In q h -> lucky k q) ->
  opens n k grow cst0 h = Go s -> In (w, f) (exposes k) -> l < c_count s -> d < n -> d' < n ->
  o_ptr (c_lv s l d) w = Some x -> o_ptr (c_lv s l d') f = Some y -> freed_before x y (close n k s).
Proof. exact order. Qed.

(** Two domains, a distributed cache with receivers.  Level 1 is opened; the open of level 0 fails in the first broadcast, on domain 1
    after it has got the pointer, on domain 0 before. *)
Definition dbl (c m : nat) : nat := c + Nat.max c (m - c).
Definition unlucky_call : call := Call 0 (fun i _ => i =? 4) (fun _ d => d =? 1).
Definition same (a b : option nat) : bool := match a, b with Some x, Some y => x =? y | _, _ => false end.
Example C82_ex : largest_first [calm 1; unlucky_call] /\ no_reopen [calm 1; unlucky_call] /\ (forall q, In q [calm 1; unlucky_call] -> lucky (KCacheDist MThread true) q) /\
  ends (opens 2 (KCacheDist MThread true) dbl cst0 [calm 1; unlucky_call]) (fun s =>
    (List.length (h_log (c_heap s)) =? 26) && (List.length (close 2 (KCacheDist MThread true) s) =? 50)
    && same (o_ptr (c_lv s 0 1) FCache) (o_ptr (c_lv s 0 0) FCache) && same (o_ptr (c_lv s 1 1) FTag1) (o_ptr (c_lv s 1 0) FTag1)) = true.
Proof.
  split; [cbn; intros q [<-|[]]; cbn; auto|]. split; [repeat constructor; cbn; intuition discriminate|]. split.
  - intros q [<-|[<-|[]]] i C; [reflexivity|]. cbn. destruct (Nat.eqb_spec i 4) as [->|]; [|reflexivity]. destruct C as [m [C|C]]; discriminate C.
  - vm_compute. reflexivity.
Qed.

(** Both windows of level 1 of a cache with two domains: what they expose is freed later. *)
Fixpoint when (x : nat) (log : list ev) : nat :=
  match log with Free y :: r => if x =? y then List.length r else when x r | _ :: r => when x r | [] => 0 end.
Example C82_order_ex :
  ends (opens 2 (KCacheDist MWin false) dbl cst0 [calm 1; calm 0]) (fun s =>
    forallb (fun e => match o_ptr (c_lv s 1 1) (fst e), o_ptr (c_lv s 1 0) (snd e) with
                      | Some x, Some y => when x (close 2 (KCacheDist MWin false) s) <? when y (close 2 (KCacheDist MWin false) s)
                      | _, _ => false
                      end) (exposes (KCacheDist MWin false))) = true.
Proof. vm_compute. reflexivity. Qed.

(** Refuted, for every kind of level: a level that is opened twice leaks what the first open has allocated. *)
Theorem C82_reopen_refuted : forall k, exists h s, (forall q, In q h -> q = calm 0) /\ opens 1 k dbl cst0 h = Go s /\ ~ all_freed (close 1 k s).
Proof.
  intros k. exists [calm 0; calm 0].
  assert (A : ends (opens 1 k dbl cst0 [calm 0; calm 0]) (fun s => leaks (close 1 k s)) = true) by (destruct k as [|[] []| |[] []|]; vm_compute; reflexivity).
  apply ends_spec in A. destruct A as (s & E & L). exists s. split; [intros q [<-|[<-|[]]]; reflexivity|]. split; [exact E|exact (leaks_spec _ L)].
Qed.
(** Refuted, for every kind of level: with the levels in ascending order, all of them opened once and successfully, memory is freed
    twice; the level that is copied is left with freed memory. *)
Theorem C82_grow_refuted : forall k, exists h s x, no_reopen h /\ (forall q, In q h -> exists l, q = calm l) /\ opens 1 k dbl cst0 h = Go s /\
  ~ proper (close 1 k s) /\ held 1 s x /\ In (Free x) (h_log (c_heap s)).
Proof.
  intros k. exists [calm 0; calm 1].
  assert (A : exists f, ends (opens 1 k dbl cst0 [calm 0; calm 1]) (fun s => twice (close 1 k s) && (0 <? c_count s) &&
    match o_ptr (c_lv s 0 0) f with Some x => if in_dec ev_dec (Free x) (h_log (c_heap s)) then true else false | None => false end) = true).
  { destruct k as [|m nc| |m nc|]; [exists FData|exists FCache|exists FCache|exists FCache|exists FBuf]; try destruct m, nc; vm_compute; reflexivity. }
  destruct A as [f A]. apply ends_spec in A. destruct A as (s & E & L). apply andb_prop in L. destruct L as [L H]. apply andb_prop in L. destruct L as [L C].
  destruct (o_ptr (c_lv s 0 0) f) as [x|] eqn:P; [|discriminate]. destruct (in_dec ev_dec (Free x) (h_log (c_heap s))) as [X|]; [|discriminate]. exists s, x.
  split; [repeat constructor; cbn; intuition discriminate|]. split; [intros q [<-|[<-|[]]]; eauto|]. split; [exact E|]. split; [exact (twice_spec _ L)|]. split; [|exact X].
  exists 0, 0, f. split; [apply Nat.ltb_lt; exact C|]. split; [repeat constructor|exact P].
Qed.
(** Refuted: a cache whose first receiver cannot be registered (the communication thread has not been started) leaks its arrays. *)
Theorem C82_receiver_refuted : forall nc, exists q s, critical (KCacheDist MThread nc) 14 /\ (forall i d, q_fail q i d = (i =? 14)) /\
  opens 1 (KCacheDist MThread nc) dbl cst0 [q] = Go s /\ ~ all_freed (close 1 (KCacheDist MThread nc) s).
Proof.
  intros nc. exists (Call 0 (fun i _ => i =? 14) (fun _ _ => false)).
  assert (A : ends (opens 1 (KCacheDist MThread nc) dbl cst0 [Call 0 (fun i _ => i =? 14) (fun _ _ => false)]) (fun s => leaks (close 1 (KCacheDist MThread nc) s)) = true) by (destruct nc; vm_compute; reflexivity).
  apply ends_spec in A. destruct A as (s & E & L). exists s. split; [exists Checked; destruct nc; auto|]. split; [reflexivity|]. split; [exact E|exact (leaks_spec _ L)].
Qed.
(** Refuted: a full grid whose window cannot be created leaks the mutex of the window. *)
Theorem C82_window_refuted : forall nc, exists q s, critical (KFullDist MWin nc) 12 /\ (forall i d, q_fail q i d = (i =? 12)) /\
  opens 1 (KFullDist MWin nc) dbl cst0 [q] = Go s /\ ~ all_freed (close 1 (KFullDist MWin nc) s).
Proof.
  intros nc. exists (Call 0 (fun i _ => i =? 12) (fun _ _ => false)).
  assert (A : ends (opens 1 (KFullDist MWin nc) dbl cst0 [Call 0 (fun i _ => i =? 12) (fun _ _ => false)]) (fun s => leaks (close 1 (KFullDist MWin nc) s)) = true) by (destruct nc; vm_compute; reflexivity).
  apply ends_spec in A. destruct A as (s & E & L). exists s. split; [exists Checked; destruct nc; auto|]. split; [reflexivity|]. split; [exact E|exact (leaks_spec _ L)].
Qed.

Print Assumptions C82_exactly_once_partial.
Print Assumptions C82_usable_partial.
Print Assumptions C82_returns.
Print Assumptions C82_complete_partial.
Print Assumptions C82_order_partial.
Print Assumptions C82_reopen_refuted.
Print Assumptions C82_grow_refuted.
Print Assumptions C82_receiver_refuted.
Print Assumptions C82_window_refuted.
