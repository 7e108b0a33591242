(** * C86, C87: the communicator of a grid and its thread-specific key *)
From Verif Require Import CommFacts.

(** ** C86 *)

(** If no [MPI_Comm_dup] fails after one succeeded, each communicator handed over is duplicated once, each duplicate is
    freed once (before the next one is made or at the end), a barrier is made at the end exactly if there are other
    processes, on the last duplicate, and nothing else is freed. *)
Theorem C86_calls_partial group l : safe l ->
  exists s, life group l = Ok s /\ c_live s = [] /\
    c_calls s = history 0 (fst (taken group 1 l)) (1 <? snd (taken group 1 l)).
Proof. exact (life_ok group l). Qed.

(** If nothing fails the grid has the rank and the size of the communicator it took over last, of [MPI_COMM_SELF] if there
    is none. *)
Theorem C86_values_partial group l : group CSelf = (0, 1) -> calm l ->
  exists s, mc_ops group mc_new l = Ok s /\ (c_rank s, c_size s) = group (last (fst (taken group 1 l)) CSelf).
Proof. exact (values group l). Qed.

(** A later [MPI_Comm_dup] which fails leaves a freed handle behind: whatever the grid does then, it ends with a barrier on
    or the release of [MPI_COMM_NULL]. *)
Theorem C86_late_failure_refuted group a c b : existsb makes a = true -> life group (a ++ OSet c RDup :: b) = Ub.
Proof. exact (late_failure group a c b). Qed.

Definition world (c : comm) : nat * nat := match c with CUser n => (1, n) | _ => (0, 1) end.

Example C86_ex :
  let l := [OSet (CUser 3) RDup; OSet (CUser 2) ROk; OTags 5; OSet (CUser 4) RRank; OOff ROk; OOff RSize; OSet (CUser 3) ROk] in
  safe l /\
  match life world l with
  | Ok s => c_calls s = [KDup (CUser 2) 0; KFree 0; KDup (CUser 4) 1; KFree 1; KDup CSelf 2; KFree 2; KDup (CUser 3) 3;
                         KBarrier (CDup 3); KFree 3] /\ c_tag s = 5
  | Ub => False
  end.
Proof.
  cbv zeta. split; [|vm_compute; auto].
  intros a o b E F. repeat (destruct a as [|? a]; cbn in E; [injection E as <- <-; cbn in *; congruence|]; injection E as <- E).
  destruct a; discriminate E.
Qed.

Example C86_ex_off : (* MPI communication is off: no barrier with the other processes *)
  calm [OSet (CUser 3) ROk; OOff ROk] /\
  match life world [OSet (CUser 3) ROk; OOff ROk] with
  | Ok s => c_calls s = [KDup (CUser 3) 0; KFree 0; KDup CSelf 1; KFree 1] /\ (c_rank s, c_size s) = (0, 1)
  | Ub => False
  end.
Proof. split; [|vm_compute; auto]. intros o [<-|[<-|[]]]; reflexivity. Qed.

Example C86_ex_late : existsb makes [OSet (CUser 3) ROk] = true /\ life world [OSet (CUser 3) ROk; OSet (CUser 4) RDup] = Ub.
Proof. vm_compute. auto. Qed.

(** ** C87 *)

(** As long as there are no more grids than keys, each thread sees in each grid what it registered there (0 and 0 if
    nothing), however many grids are created, used and closed in whatever order. *)
Theorem C87_ids_partial kmax l g t : proper kmax [] l -> p_grid (krun kmax l) g <> None ->
  kids (krun kmax l) g t = Ok (stored l g t (0, 0)).
Proof. exact (ids_ok kmax l g t). Qed.

(** Registering then works in every open grid ([registerThread] returns no error) .. *)
Theorem C87_register_partial kmax l g t ids : proper kmax [] l -> In g (opens [] l) -> kreg (krun kmax l) g t ids = true.
Proof. exact (reg_ok kmax l g t ids). Qed.

(** .. and fails in a grid created while all keys are in use, which leaves the identifiers in the other grids alone. *)
Theorem C87_refused_partial kmax l g junk : proper kmax [] l -> kmax <= length (opens [] l) -> ~ In g (opens [] l) ->
  let p := krun kmax (l ++ [PNew g junk]) in
  (forall t ids, kreg p g t ids = false) /\
  (forall t ids g' t', In g' (opens [] l) -> kids (kstep kmax p (PReg g t ids)) g' t' = kids (krun kmax l) g' t').
Proof. exact (refused kmax l g junk). Qed.

(** One grid too many deletes a key it never got: if the memory of [m_ptkey] holds the key of an open grid, the
    identifiers of all threads in that grid are gone .. *)
Theorem C87_deleted_refuted kmax g t : g < kmax -> kids (krun kmax (too_many kmax g)) g t = Ub.
Proof. exact (too_many_ub kmax g t). Qed.

(** .. and the next grid shares its key: threads registering there change their identifiers in the first grid. *)
Theorem C87_shared_refuted kmax g t ids : g < kmax ->
  kids (krun kmax (too_many kmax g ++ [PNew kmax 0; PReg kmax t ids])) g t = Ok ids.
Proof. exact (too_many_shared kmax g t ids). Qed.

Example C87_ex :
  let l := [PNew 0 9; PNew 1 9; PReg 0 7 (3, 1); PReg 1 7 (2, 0); PReg 1 8 (4, 1); PClose 0; PNew 2 9; PReg 2 8 (5, 2)] in
  proper 2 [] l /\ kids (krun 2 l) 1 7 = Ok (2, 0) /\ kids (krun 2 l) 1 8 = Ok (4, 1) /\ kids (krun 2 l) 2 8 = Ok (5, 2) /\
  kids (krun 2 l) 2 7 = Ok (0, 0).
Proof. split; [|vm_compute; auto]. cbn. intuition (try discriminate; lia). Qed.

Example C87_ex_refused :
  let l := [PNew 0 9; PNew 1 9; PReg 0 7 (3, 1)] in
  let p := krun 2 (l ++ [PNew 5 0]) in
  proper 2 [] l /\ opens [] l = [1; 0] /\ kreg (krun 2 l) 1 7 (4, 0) = true /\ kreg p 5 7 (6, 0) = false /\
  kids (kstep 2 p (PReg 5 7 (6, 0))) 0 7 = Ok (3, 1).
Proof. split; [|vm_compute; auto]. cbn. intuition (try discriminate; lia). Qed.

Example C87_ex_shared : (* thread 7 is thread 3 of domain 1 in grid 0, until it registers in the last grid *)
  kids (krun 2 ([PNew 0 0; PReg 0 7 (3, 1); PNew 1 0; PNew 2 0; PClose 2] ++ [PNew 3 0; PReg 3 7 (5, 0)])) 0 7 = Ok (5, 0).
Proof. reflexivity. Qed.

Print Assumptions C86_calls_partial.
Print Assumptions C86_values_partial.
Print Assumptions C86_late_failure_refuted.
Print Assumptions C87_ids_partial.
Print Assumptions C87_deleted_refuted.
Print Assumptions C87_shared_refuted.
Print Assumptions C87_register_partial.
Print Assumptions C87_refused_partial.
