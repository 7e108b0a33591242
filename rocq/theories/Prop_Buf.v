(** * C92: store buffers of the processors

    The machine of BufModel.v: the stores of a thread wait in its buffer and become visible later, in order ([fifo], x86) or for
    different locations in any order; unlocking a mutex waits until the buffer is empty, locking does not. *)
From Verif Require Import BufFacts.

(** Every program in which each location is touched only by the holder of its mutex: whatever happens with the buffers, there is an
    execution without buffers with the same threads and mutexes in which the holder of a mutex sees the same values, and
    the memory is the same where nobody holds the mutex. *)
Theorem C92_guarded_partial :
  forall (A K W L C : Type) (aeq : A -> A -> bool) (keq : K -> K -> bool) (prog : nat -> L -> C -> option (instr A K W L))
    (guard : A -> K) m0 l0 fifo acts b,
  (forall a a', aeq a a' = true <-> a = a') -> (forall k k', keq k k' = true <-> k = k') ->
  (forall acts' s, srun aeq keq prog (SSt m0 (fun _ => None) l0) acts' = Some s -> orderly prog guard s) ->
  brun aeq keq prog fifo (BSt m0 (fun _ => []) (fun _ => None) l0) acts = Some b ->
  exists acts' s, srun aeq keq prog (SSt m0 (fun _ => None) l0) acts' = Some s /\
    b_loc b = m_loc s /\ b_lock b = m_lock s /\
    (forall t a, b_lock b (guard a) = Some t -> bview aeq (b_buf b t) (b_mem b) a = m_mem s a) /\
    (forall a, b_lock b (guard a) = None -> b_mem b a = m_mem s a).
Proof. exact guarded_buffers. Qed.
Print Assumptions C92_guarded_partial.

(** Reads of the caches of one process, several domains: with every kind of buffers the completed reads returned the
    values of the file, in order, the others are still to do, and while some are left the machine can move. *)
Theorem C92_cache_partial :
  forall (V : Type) (f : file V) bl opaque dm0 P D n spread rk dm dict ixs l0 fifo acts b,
  setting MNo f bl P D n spread rk dm dict ixs ->
  let c := readers MNo f bl opaque dm0 P D n spread rk dm dict ixs in
  clist_init n spread = Ok l0 ->
  brun caddr_eq lock_eq (cprog c) fifo (cbinit c l0) acts = Some b ->
  (forall t, exists k,
    map snd (t_done (b_loc b t)) = map (fun ix => Some (Some (f_val f ix))) (firstn k (ixs t)) /\
    length (t_todo (b_loc b t)) = length (ixs t) - k) /\
  (forall t, t_todo (b_loc b t) <> [] -> exists a b', bstep caddr_eq lock_eq (cprog c) fifo b a = Some b').
Proof. exact (fun V => @buffered_values V). Qed.
Print Assumptions C92_cache_partial.

(** threads/once.h: the function starts at most once, with every kind of buffers. *)
Theorem C92_once_partial :
  forall w val fast fifo calls acts, starts w val fast fifo (obinit calls) acts <= 1.
Proof. exact once_starts. Qed.
Print Assumptions C92_once_partial.

(** With stores in order, or without the test in front of the lock, everybody who returned sees what the function
    stored. *)
Theorem C92_once_visible_partial :
  forall w val fast fifo, fifo = true \/ fast = false ->
  forall calls acts b t, brun Nat.eqb unit_eq (oprog w val fast) fifo (obinit calls) acts = Some b ->
  (forall j v, In (j, v) (ot_seen (b_loc b t)) -> v = val j) /\
  (ot_pc (b_loc b t) = OBack -> forall j, j < w -> b_mem b (S j) = val j).
Proof. exact once_visible. Qed.
Print Assumptions C92_once_visible_partial.

(** As the code is, with reordered stores: thread 1 returns from [saveExec] and reads the 0 of the time before the
    function instead of the 7 it stored. *)
Theorem C92_once_refuted :
  exists acts b, brun Nat.eqb unit_eq (oprog 1 (fun _ => 7) true) false (obinit (fun _ => 1)) acts = Some b /\
  ot_pc (b_loc b 1) = OBack /\ ot_seen (b_loc b 1) = [(0, 0)].
Proof. exact (ex_intro _ reorder once_reordered). Qed.
Print Assumptions C92_once_refuted.

(** Two readers in two domains, copying from each other, stores visible as late as possible (up to 4 in a buffer). *)
Example C92_example_setting :
  setting MNo buf_file buf_bl 1 2 1 0 (fun _ => 0) (fun t => t mod 2) (fun _ => []) buf_ixs /\ clist_init 1 0 <> Ub.
Proof. exact buf_setting. Qed.
Example C92_example :
  let answer := Some ([[Some (Some 1); Some (Some 12); Some (Some 2)]; [Some (Some 11); Some (Some 12); Some (Some 1)]], 4) in
  buf_report true = answer /\ buf_report false = answer.
Proof. vm_compute. split; reflexivity. Qed.
Example C92_example_once :
  option_map (fun b => (ot_pc (b_loc b 1), ot_seen (b_loc b 1)))
    (brun Nat.eqb unit_eq (oprog 1 (fun _ => 7) true) true (obinit (fun _ => 1))
      [BRun 0 0; BRun 0 0; BRun 0 0; BRun 0 0; BRun 0 0; BRun 0 0; BCommit 0 0; BCommit 0 0; BRun 1 0; BRun 1 0]) =
  Some (OBack, [(0, 7)]).
Proof. vm_compute. reflexivity. Qed.
