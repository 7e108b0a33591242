(** * C63: the MPI datatype of array and struct cells is ready when it is used

    Model: DatatypeModel.v (types/arraytype.h, types/structtype.h). *)
From Verif Require Import DatatypeFacts.

(** For every interleaving of the domains: what each domain has got so far for the levels which it
    has opened depends on the sizes of the cells alone ([expected], DatatypeFacts.v).  The
    first size that is a multiple of the element size counts; every later level of this size
    gets the committed datatype with the right number of elements, the others an error. *)
Theorem C63_outcomes :
  forall D el sizes, 0 < el -> Forall (fun sz => 0 < sz) sizes ->
  forall s t, kreachable D el sizes s ->
  k_out (k_thr s t) = firstn (length (k_out (k_thr s t))) (expected el sizes).
Proof. exact datatype_outcomes. Qed.
Print Assumptions C63_outcomes.

(** The datatype is created at most once. *)
Theorem C63_created_once :
  forall D el sizes, 0 < el -> Forall (fun sz => 0 < sz) sizes ->
  forall s, kreachable D el sizes s -> k_made s <= 1.
Proof. exact datatype_once. Qed.
Print Assumptions C63_created_once.

(** As long as a domain has levels to open, some domain can continue. *)
Theorem C63_progress :
  forall D el sizes, 0 < el -> Forall (fun sz => 0 < sz) sizes ->
  forall s t, kreachable D el sizes s -> t < D -> length (k_out (k_thr s t)) < length sizes ->
  exists t' s', kstep D el sizes s t' = Some s'.
Proof. exact datatype_progress. Qed.
Print Assumptions C63_progress.

(** Three domains, elements of 4 bytes, cells of 12, 7, 8 and 12 bytes. *)
Example C63_example :
  exists s, kreachable 3 4 three_sizes s /\ k_made s = 1 /\
  map (fun t => k_out (k_thr s t)) [0; 1; 2] =
    repeat [KTook (Some (3, true)); KInvalid; KWrong; KTook (Some (3, true))] 3.
Proof.
  exists (snd (kturns 200 0 kinit)). split; [exists (fst (kturns 200 0 kinit)); apply kturns_run|].
  vm_compute. auto.
Qed.
Example C63_expected :
  expected 4 three_sizes = [KTook (Some (3, true)); KInvalid; KWrong; KTook (Some (3, true))].
Proof. reflexivity. Qed.
(** A successful [check] is not enough: the datatype is ready only because all domains meet in
    [NumaComm::allocate] before they use it. *)
Example C63_check_alone : exists s, kreachable 3 4 three_sizes s /\ k_pc (k_thr s 1) = KBarrier /\ k_type s = None.
Proof. exact check_alone. Qed.
