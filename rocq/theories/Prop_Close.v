(** * C68: closing grids which use the communication thread *)
From Verif Require Import CloseModel CloseFacts.

(** No step accesses something freed or frees something twice: caches. *)
Theorem C68_cache_safe : forall P U l, crun P U cache_proto cinit l <> Some Ub.
Proof. exact (fun P U => safe P U cache_proto cache_ordered cache_once). Qed.
(** Full grids. *)
Theorem C68_full_safe : forall P U l, crun P U full_proto cinit l <> Some Ub.
Proof. exact (fun P U => safe P U full_proto full_ordered full_once). Qed.
(** Any order of the steps in which everything that is accessed after the reply, or by messages without reply, is freed after
    unregistering the receiver ([ordered], CloseFacts.v), and nothing is freed twice. *)
Theorem C68_any_order : forall P U pr, ordered pr -> NoDup (p_close pr) -> forall l, crun P U pr cinit l <> Some Ub.
Proof. exact safe. Qed.

(** Once no new messages are sent, every run ends, and it ends only when all processes have closed the grid, all messages have
    been received, everything is freed and nothing is registered. *)
Theorem C68_cache_completes : forall P U l s, crun P U cache_proto cinit l = Some (Ok s) ->
  exists n, forall l' s', forallb drains l' = true -> crun P U cache_proto s l' = Some (Ok s') ->
  length l' <= n /\
  ((closed P s' /\ forall p, p < P ->
      (forall r, r <= R_OBJ -> c_freed (cs_proc s' p) r = true) /\
      (forall k, k <= DEL -> c_map (cs_proc s' p) k = false)) \/
   exists a s'', drains a = true /\ cstep P U cache_proto s' a = Some (Ok s'')).
Proof. exact cache_complete. Qed.
Theorem C68_full_completes : forall P U l s, crun P U full_proto cinit l = Some (Ok s) ->
  exists n, forall l' s', forallb drains l' = true -> crun P U full_proto s l' = Some (Ok s') ->
  length l' <= n /\
  ((closed P s' /\ forall p, p < P ->
      (forall r, r <= F_DATA -> c_freed (cs_proc s' p) r = true) /\ c_map (cs_proc s' p) 0 = false) \/
   exists a s'', drains a = true /\ cstep P U full_proto s' a = Some (Ok s'')).
Proof. exact full_complete. Qed.

(** ** Examples *)
(** Two processes.  A block is requested and added; the message about the new block arrives
    while process 1 is closing and is still handled. *)
Definition ex_use : list cact :=
  [USend 0 0 1 TRANSFER; QRecv 1 0; QLook 1; QReply 1; UGet 0 0; USend 0 0 1 ADD; PEnter 0; PEnter 1; PLeave 1; PLeave 0].
Example C68_late_message : exists s,
  crun 2 1 cache_proto cinit (ex_use ++ [PStep 1; PStep 1; QDone 1; PStep 1; QRecv 1 0; QLook 1; QReply 1; QDone 1; QUnreg 1]) = Some (Ok s) /\
  c_freed (cs_proc s 1) R_MANAGERS = true /\ c_freed (cs_proc s 1) R_DICT = false /\ c_com (cs_proc s 1) = QErase BLOCK_INFO.
Proof. eexists. split; [vm_compute; reflexivity|]. repeat split. Qed.
(** The same message arrives after the receiver was removed: it is dropped. *)
Definition unreg (p : nat) : list cact := [PStep p; QUnreg p; QErased p; PSent p].
Example C68_dropped : exists s,
  crun 2 1 cache_proto cinit (ex_use ++ [QDone 1; PStep 1; PStep 1] ++ unreg 1 ++ unreg 1 ++ unreg 1 ++ unreg 1 ++ repeat (PStep 1) 7 ++ [QRecv 1 0; QLook 1]) = Some (Ok s) /\
  c_phase (cs_proc s 1) = PClose [] WNone /\ c_com (cs_proc s 1) = QIdle /\ c_freed (cs_proc s 1) R_DICT = true /\ cs_net s = [].
Proof. eexists. split; [vm_compute; reflexivity|]. repeat split. Qed.
(** Wrong orders are undefined: the dictionary freed before the receivers are removed; the cache freed before the answer is done. *)
Definition bad_dict : proto :=
  Proto (p_oneway cache_proto) (p_before cache_proto) (p_after cache_proto) (CFree R_DICT :: p_close cache_proto).
Example C68_bad_dict : crun 2 1 bad_dict cinit (ex_use ++ [PStep 1; QDone 1; QRecv 1 0; QLook 1; QReply 1]) = Some Ub.
Proof. vm_compute. reflexivity. Qed.
Definition bad_cache : proto :=
  Proto (p_oneway cache_proto) (p_before cache_proto) (p_after cache_proto) (CFree R_CACHE :: p_close cache_proto).
Example C68_bad_cache : crun 2 1 bad_cache cinit (ex_use ++ [PStep 1; QDone 1]) = Some Ub.
Proof. vm_compute. reflexivity. Qed.
(** A full grid. *)
Example C68_full_run : exists s,
  crun 2 1 full_proto cinit ([USend 0 0 1 0; QRecv 1 0; QLook 1; QReply 1; UGet 0 0; PEnter 1; PEnter 0; PLeave 0; PLeave 1;
    PStep 1; PStep 1; QDone 1] ++ unreg 1 ++ repeat (PStep 1) 4 ++ [PStep 0; PStep 0] ++ unreg 0 ++ repeat (PStep 0) 4) = Some (Ok s) /\ closed 2 s.
Proof.
  eexists. split; [vm_compute; reflexivity|]. split; [reflexivity|].
  intros p L. destruct p as [|[|p]]; [split; reflexivity|split; reflexivity|lia].
Qed.

Print Assumptions C68_cache_safe.
Print Assumptions C68_full_safe.
Print Assumptions C68_any_order.
Print Assumptions C68_cache_completes.
Print Assumptions C68_full_completes.
