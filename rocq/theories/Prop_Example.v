(** * C102: the example programs; C103: tools/pinning_test *)
From Coq Require Import List Arith Bool ZArith Reals Lia Lra String.
From Coq Require Sorting.Sorted.
From Flocq Require Import Core.Core IEEE754.BinarySingleNaN.
From Verif Require Import Base BlockedModel LevelsModel ParamModel TypesModel CoordModel EndModel EndFacts SuiteModel SuiteFacts
  ExampleModel ExampleFacts.
Import ListNotations.
Local Open Scope string_scope.
Local Open Scope nat_scope.

(** C102.  In every execution of an example (any build and parameters, any number of processes and NUMA domains, any
    interleaving of the processes), each value shown so far is the one of the cell with the position, converted without error:
    [5 * L + 10] for (5, 10) and (5, 10.1), also where 10.1 is a single precision literal, [L + 50] for (1, 50.3), and the value
    of the first cell, 0, for the positions (-1, -15.32) and (-1, -5005.32) outside of the grid. *)
Theorem C102_values : forall W L e want (s : session ieee) answers,
  example_sizes W L -> In (e, want) (examples L) -> opened_example W L e s ->
  session_run s (example_prog e s) answers ->
  forall t, t < n_threads s -> exists k, Forall2 (fun P a => P a) (firstn k (want (n_rk s t))) (answers t).
Proof. exact (fun W L e want s answers Hs He Ho => example_run W L e want s Hs He Ho answers). Qed.
Print Assumptions C102_values.

(** All values can be reached. *)
Theorem C102_complete : forall W L e want (s : session ieee),
  example_sizes W L -> In (e, want) (examples L) -> opened_example W L e s ->
  exists answers, session_run s (example_prog e s) answers /\
    forall t, t < n_threads s -> Forall2 (fun P a => P a) (want (n_rk s t)) (answers t).
Proof. exact example_complete. Qed.
Print Assumptions C102_complete.

(** The ranges shown with six digits are -0.5 to W - 0.5 (X) and -0.5 to L - 0.5 (Y); x is dimension 0. *)
Theorem C102_ranges : forall W L e (s : session ieee),
  example_sizes W L -> opened_example W L e s -> value_position s = CellCentered ->
  let '(x0, x1) := example_range s 0 in let '(y0, y1) := example_range s 1 in
  printed x0 (- (1 / 2)) /\ printed x1 (IZR (Z.of_nat W) - 1 / 2) /\ printed y0 (- (1 / 2)) /\ printed y1 (IZR (Z.of_nat L) - 1 / 2).
Proof. exact example_printed. Qed.
Print Assumptions C102_ranges.

(** The variable size shown by array.cpp, and the one of all other examples, is that of a float. *)
Example C102_size : map (fun e => example_size (fst e)) (examples 70) = [4; 4; 4; 4; 4].
Proof. reflexivity. Qed.

(** The file of the repository, three processes, no parameters. *)
Definition three (e : example) : session ieee :=
  @Session ieee (Build false false) [] 3 1 3 (fun t => t mod 3) (fun _ => 0) RoundRobin (e_type e) 0 [plain 70; plain 70] (cells_2d 70).
Lemma three_opened e want : In (e, want) (examples 70) -> opened_example 70 70 e (three e).
Proof.
  intros He. split; [|split; [reflexivity|split; [reflexivity|reflexivity]]].
  split; [discriminate|]. split; [repeat constructor; cbn; discriminate|].
  assert (cache_size (three e) = 128) as Hc by (vm_compute; reflexivity).
  split; [rewrite Hc; lia|]. split; [rewrite Hc; vm_compute; reflexivity|].
  split; intros t; cbn [n_rk n_dm n_ranks n_domains three]; [apply Nat.mod_upper_bound; lia|lia].
Qed.
Example C102_example : forall e want, In (e, want) (examples 70) ->
  class_ (three e) = (SFull, MPIWin, NumaNo) /\ value_position (three e) = CellCentered /\
  exists answers, session_run (three e) (example_prog e (three e)) answers /\
    forall t, t < 3 -> Forall2 (fun P a => P a) (want (t mod 3)) (answers t).
Proof.
  intros e want He. split; [vm_compute; reflexivity|]. split; [vm_compute; reflexivity|].
  apply (C102_complete 70 70 e want (three e)); [unfold example_sizes; lia|exact He|apply (three_opened e want He)].
Qed.
Example C102_shown : nth 1 (map snd (examples 70)) (fun _ => []) 2 = [shows_float 360; shows_float 0].
Proof. reflexivity. Qed.

(** C103.  pinning_test ends after at most as many rounds as a mask has bits, and prints the number of the CPUs
    in the affinity mask and all of them in ascending order, for every mask. *)
Theorem C103_pinning : forall size mask rank thread, exists l,
  Sorted.StronglySorted lt l /\ (forall c, In c l <-> c < size /\ mask c = true) /\
  forall fuel, size <= fuel -> pin_test fuel size mask rank thread =
    Some ("Found " ++ decimal (List.length l) ++ " CPUs on rank " ++ decimal rank ++ ", thread " ++ decimal thread ++ pin_text l).
Proof. exact pin_all. Qed.
Print Assumptions C103_pinning.

Example C103_example : pin_test 1024 1024 (fun c => (c =? 2) || (c =? 3) || (c =? 17)) 1 4 =
  Some "Found 3 CPUs on rank 1, thread 4: 2, 3, 17".
Proof. vm_compute. reflexivity. Qed.
