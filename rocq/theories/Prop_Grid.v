(** * C41, C43, C44, C60: opening grids, levels, Fortran handles *)
From Verif Require Import SyncFacts NumaModel GridModel GridFacts.

(** ** C41: errors of open *)
(** Every thread reports, for every open, the error of the domain whose master
    has thread id 0.  (So a failure there is reported by all threads.)  Missing:
    failures of the other domains, refuted below. *)
Theorem C41_first_domain_partial : forall o, o_threads o > 0 -> o_mast o 0 = true ->
  forall s t k r, ystate (open_cfg o) s -> t < o_threads o ->
  nth_error (open_results s t) k = Some r -> r = o_init o (o_dom o 0) k.
Proof. exact open_reports_first. Qed.
Print Assumptions C41_first_domain_partial.
(** Thread 0 is a master (the registration of the first thread). *)
Example C41_thread0_is_master : forall total detect node,
  snd (nregister total detect ninit 0 node) = NReg 0 0 true.
Proof. intros total detect node. unfold nregister. cbn. reflexivity. Qed.
(** Two domains with one thread each; opening fails in domain 1 with error 8
    (NOT_OPEN).  Both threads return success, also the one whose init failed. *)
Theorem C41_refuted : exists o s,
  o_threads o = 2 /\ o_mast o 0 = true /\ o_mast o 1 = true /\
  o_init o (o_dom o 1) 0 <> 0 /\ ystate (open_cfg o) s /\
  open_results s 0 = [0] /\ open_results s 1 = [0].
Proof.
  exists (Opens 2 1 (fun t => t) (fun _ => true) (fun d _ => match d with 1 => 8 | _ => 0 end)).
  eexists. repeat split; [cbn; discriminate| | |].
  - exists [YStep 0; YStep 0; YStep 1; YStep 1; YStep 1; YStep 1; YStep 1; YStep 1; YStep 0; YStep 0; YStep 0; YStep 0; YStep 0].
    vm_compute. reflexivity.
  - vm_compute. reflexivity.
  - vm_compute. reflexivity.
Qed.
Print Assumptions C41_refuted.

(** ** C43: order of opening *)
(** However [std::vector] grows, opening a finer level after level 0 can destroy
    level 0. *)
Theorem C43_refuted : forall grow, (forall s n, n <= grow s n) -> forall F (f0 f1 : F),
  exists m, 0 < m /\ read_level (open_levels grow lvec0 [(0, f0); (m, f1)]) 0 = Ub.
Proof. exact (fun grow G F f0 f1 => ascending_breaks grow f0 f1 G). Qed.
Print Assumptions C43_refuted.
(** With libstdc++ this happens for level 1 already. *)
Example C43_refuted_gnu :
  read_level (open_levels grow_gnu lvec0 [(0, 100); (1, 101)]) 0 = Ub /\
  (forall s n, n <= grow_gnu s n).
Proof. split; [reflexivity|]. intros s n. unfold grow_gnu. lia. Qed.
(** If the largest level is opened first, any order of the others works, also
    opening a level again. *)
Theorem C43_largest_first_partial : forall grow F m (f0 : F) rest before l f after,
  (forall p, In p rest -> fst p <= m) ->
  (m, f0) :: rest = before ++ (l, f) :: after ->
  (forall p, In p after -> fst p <> l) ->
  read_level (open_levels grow lvec0 ((m, f0) :: rest)) l = Ok f.
Proof. exact @largest_first'. Qed.
Print Assumptions C43_largest_first_partial.
(** More generally: all levels that fit into the first capacity of the vector can be opened in any order, also
    if the vector gets longer. *)
Theorem C43_within_capacity_partial : forall grow F m (f0 : F) rest before l f after,
  m + 1 <= grow 0 (m + 1) -> (forall p, In p rest -> fst p < grow 0 (m + 1)) ->
  (m, f0) :: rest = before ++ (l, f) :: after ->
  (forall p, In p after -> fst p <> l) ->
  read_level (open_levels grow lvec0 ((m, f0) :: rest)) l = Ok f.
Proof. exact @within_capacity'. Qed.
Print Assumptions C43_within_capacity_partial.
(** A vector that starts with four elements: ascending order. *)
Example C43_used_capacity :
  map (read_level (open_levels (fun s n => Nat.max 4 (grow_gnu s n)) lvec0 [(0, 100); (1, 101); (2, 102); (1, 103)])) [0; 1; 2] = [Ok 100; Ok 103; Ok 102].
Proof. reflexivity. Qed.
Example C43_used :
  map (read_level (open_levels grow_gnu lvec0 [(2, 102); (0, 100); (1, 101)])) [0; 1; 2] = [Ok 100; Ok 101; Ok 102].
Proof. reflexivity. Qed.

(** ** C44: Fortran handles, sequential use *)
Theorem C44_unique : forall P l (s : pointers P) hs, pa_run [] l = Ok (s, hs) ->
  NoDup hs /\ length hs = creates l.
Proof. exact @handles_unique. Qed.
Print Assumptions C44_unique.
Theorem C44_resolves : forall P before p after (s : pointers P) hs h,
  pa_run [] (before ++ PCreate p :: after) = Ok (s, hs) ->
  nth_error hs (creates before) = Some h -> ~ In (PClose h) after ->
  pa_get s h = Ok (Some p).
Proof. exact @handle_resolves. Qed.
Print Assumptions C44_resolves.
Theorem C44_closed : forall P before h after (s : pointers P) hs,
  pa_run [] (before ++ PClose h :: after) = Ok (s, hs) -> pa_get s h = Ok None.
Proof. exact @handle_closed. Qed.
Print Assumptions C44_closed.
Theorem C44_defined : forall P l (s : pointers P),
  (forall before h after, l = before ++ PClose h :: after -> h < length s + creates before) ->
  exists r, pa_run s l = Ok r.
Proof. exact @handles_defined. Qed.
Print Assumptions C44_defined.
Example C44_used : exists s,
  pa_run [] [PCreate 10; PCreate 11; PClose 0; PCreate 12] = Ok (s, [0; 1; 2]) /\
  map (pa_get s) [0; 1; 2; 3] = [Ok None; Ok (Some 11); Ok (Some 12); Ub].
Proof. eexists. split; reflexivity. Qed.

(** ** C60: lookups concurrent with creations *)
(** The lookup does not lock: it can read the old table after it was freed. *)
Theorem C60_refuted : exists v p i l,
  nth_error [7] i = Some 7 /\ cv_heap v = [Some [7]] /\
  pa_conc v AStart GStart p i l = Some Ub.
Proof. exists (CVec 0 1 1 [Some [7]]), 8, 0, [false; true; true; false]. repeat split. Qed.
Print Assumptions C60_refuted.
(** It is safe if no reallocation is necessary, in every interleaving. *)
Theorem C60_no_reallocation_partial : forall before tab after p i x l g,
  nth_error tab i = Some x ->
  forall cap, length tab < cap ->
  pa_conc (CVec (length before) (length tab) cap (before ++ Some tab :: after)) AStart GStart p i l = Some g ->
  g = Ok GStart \/ g = Ok (GRead (length before)) \/ g = Ok (GDone (Some x)).
Proof. exact lookup_no_realloc. Qed.
Print Assumptions C60_no_reallocation_partial.
Example C60_used : pa_conc (CVec 0 1 2 [Some [7]]) AStart GStart 8 0 [false; true; false] = Some (Ok (GDone (Some 7))).
Proof. reflexivity. Qed.
