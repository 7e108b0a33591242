(** * C81: dimensions, range and spacing of a grid with several levels *)
From Coq Require Import Lia.
From Verif Require Import ContModel ContSpec ContFacts.

(** Dimensions and range are those of the last successful open of level 0, whatever else is opened in between or fails. *)
Theorem C81_range : forall D maxd grow h m, opened D h 0 m -> List.length m <= maxd ->
  get_dims D (opens D grow h) = List.length m /\
  forall n e, axis D m n e ->
    get_min D maxd (opens D grow h) n = Ok (Some (e_min e)) /\ get_max D maxd (opens D grow h) n = Ok (Some (e_max e)).
Proof. exact range. Qed.

(** The spacing of a level is that of its last open, if the largest level is opened first. *)
Theorem C81_delta_partial : forall D maxd grow h i m, (forall c n, n <= grow c n) -> largest_first D h -> seen D h i m -> List.length m <= maxd ->
  forall n e, axis D m n e -> get_delta D maxd (opens D grow h) n i = Ok (Some (e_delta e)).
Proof. exact delta. Qed.

Definition ax (a : nat) : meta nat := Meta a (a + 10) (a + 20).
Definition dbl (c n : nat) : nat := c + Nat.max c (n - c).
Definition hist : list (nat * result nat) := [(2, Good [ax 7]); (0, Good [ax 1; ax 2]); (1, Bad [ax 3]); (0, NoFile)].
Example C81_ex : opened nat hist 0 [ax 1; ax 2] /\ largest_first nat hist /\ seen nat hist 2 [ax 7] /\ axis nat [ax 1; ax 2] 0 (ax 2) /\
  get_dims nat (opens nat dbl hist) = 2 /\ get_min nat 4 (opens nat dbl hist) 0 = Ok (Some 2) /\ get_max nat 4 (opens nat dbl hist) 1 = Ok (Some 11) /\
  get_delta nat 4 (opens nat dbl hist) 0 2 = Ok (Some 27) /\ get_delta nat 4 (opens nat dbl hist) 0 0 = Ok (Some 22).
Proof.
  split; [exists [(2, Good [ax 7])], [(1, Bad [ax 3]); (0, NoFile)]; split; [reflexivity|]; intros m' [E|[E|[]]]; discriminate E|].
  split; [cbn; intros y [<-|[<-|[<-|[]]]]; cbn; lia|].
  split; [exists [], [(0, Good [ax 1; ax 2]); (1, Bad [ax 3]); (0, NoFile)], (Good [ax 7]); split; [reflexivity|]; split; [auto|]; intros r' [E|[E|[E|[]]]]; discriminate E|].
  split; [split; [cbn; lia|reflexivity]|]. repeat split; reflexivity.
Qed.

(** Refuted: with the levels in ascending order the spacing of level 0 is not initialised any more, for every policy of growing. *)
Theorem C81_order_refuted : forall grow, (forall c n, n <= grow c n) -> exists h m, all_good nat h /\ opened nat h 0 m /\ seen nat h 0 m /\
  forall n, n < List.length m -> get_delta nat 4 (opens nat grow h) n 0 = Ok None.
Proof.
  intros grow G. destruct (grown nat 4 grow [ax 1; ax 2] G) as [A B]; [cbn; lia|]. pose proof (G 0 1) as G1.
  exists [(0, Good [ax 1; ax 2]); (grow 0 1, Good [ax 1; ax 2])], [ax 1; ax 2]. split; [exact A|].
  split; [exists [], [(grow 0 1, Good [ax 1; ax 2])]; split; [reflexivity|]; intros m' [E|[]]; injection E as E _; lia|].
  split; [exists [], [(grow 0 1, Good [ax 1; ax 2])], (Good [ax 1; ax 2]); split; [reflexivity|]; split; [auto|]; intros r' [E|[]]; injection E as E _; lia|].
  exact B.
Qed.
(** Refuted: a grid whose level 0 is not opened (yet) has no dimensions and no range. *)
Theorem C81_missing_refuted : exists h m, all_good nat h /\ opened nat h 1 m /\ List.length m = 2 /\ get_dims nat (opens nat dbl h) = 0 /\
  get_min nat 4 (opens nat dbl h) 0 = Ok None /\ coordinates_used nat (opens nat dbl h) 1 = 2.
Proof.
  exists [(1, Good [ax 1; ax 2])], [ax 1; ax 2]. split; [intros i r [E|[]]; injection E as <- <-; eauto|].
  split; [exists [], []; split; [reflexivity|]; intros m' []|]. repeat split; reflexivity.
Qed.
(** Refuted: levels may have different numbers of dimensions; a read of level 1 with as many coordinates as the grid has dimensions
    looks at one more. *)
Theorem C81_dims_refuted : exists h, all_good nat h /\ largest_first nat h /\ get_dims nat (opens nat dbl h) = 2 /\ coordinates_used nat (opens nat dbl h) 1 = 3.
Proof.
  exists [(1, Good [ax 1; ax 2; ax 3]); (0, Good [ax 1; ax 2])]. split; [intros i r [E|[E|[]]]; injection E as <- <-; eauto|].
  split; [cbn; intros y [<-|[]]; cbn; lia|]. split; reflexivity.
Qed.
(** Refuted: after a second open of level 0 that fails, range and spacing are those of different files. *)
Theorem C81_stale_refuted : exists h, largest_first nat h /\ opened nat h 0 [ax 1] /\ seen nat h 0 [ax 2] /\
  get_min nat 4 (opens nat dbl h) 0 = Ok (Some (e_min (ax 1))) /\ get_delta nat 4 (opens nat dbl h) 0 0 = Ok (Some (e_delta (ax 2))).
Proof.
  exists [(0, Good [ax 1]); (0, Bad [ax 2])]. split; [cbn; intros y [<-|[]]; cbn; lia|].
  split; [exists [], [(0, Bad [ax 2])]; split; [reflexivity|]; intros m' [E|[]]; discriminate E|].
  split; [exists [(0, Good [ax 1])], [], (Bad [ax 2]); split; [reflexivity|]; split; [auto|]; intros r' []|]. split; reflexivity.
Qed.

Print Assumptions C81_range.
Print Assumptions C81_delta_partial.
Print Assumptions C81_order_refuted.
Print Assumptions C81_missing_refuted.
Print Assumptions C81_dims_refuted.
Print Assumptions C81_stale_refuted.
