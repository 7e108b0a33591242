(** * C53: several levels and the communication thread *)
From Coq Require Import Lia.
From Verif Require Import ReplyModel ReplyFacts.

(** Cache grids, dictionary requests of the first level and block requests of all levels: every thread
    gets the replies to its own requests, for every number of threads,
    processes and requests, in every schedule; and everything can be completed.
    Missing: the dictionary requests of the other levels (refuted below). *)
Theorem C53_cache_partial : forall prog,
  (forall t r, In r (prog t) -> rq_kind r <> RFull /\ (rq_kind r = RInfo -> rq_level r = 0)) ->
  forall s t, rreachable code_tags prog s ->
  r_got (rs_thr s t) = own_replies t (r_done (rs_thr s t)) /\
  exists l s', rrun code_tags s l = Some s' /\ r_todo (rs_thr s' t) = [].
Proof.
  exact (fun prog L s t R => conj (replies_right _ prog s t (proj1 (cache_tags prog L)) R)
    (completes _ prog s t (proj1 (cache_tags prog L)) (proj2 (cache_tags prog L)) R)).
Qed.
Print Assumptions C53_cache_partial.
(** Full grids, any number of levels, if different threads do not use different levels with the same process
    (for example only one thread per process). *)
Theorem C53_full_partial : forall prog,
  (forall t r, In r (prog t) -> rq_kind r = RFull) ->
  (forall t t' r r', t <> t' -> In r (prog t) -> In r' (prog t') -> rq_to r = rq_to r' -> rq_level r = rq_level r') ->
  forall s t, rreachable code_tags prog s ->
  r_got (rs_thr s t) = own_replies t (r_done (rs_thr s t)) /\
  exists l s', rrun code_tags s l = Some s' /\ r_todo (rs_thr s' t) = [].
Proof.
  exact (fun prog K L s t R => conj (replies_right _ prog s t (proj1 (full_one_level prog K L)) R)
    (completes _ prog s t (proj1 (full_one_level prog K L)) (proj2 (full_one_level prog K L)) R)).
Qed.
Print Assumptions C53_full_partial.
Example C53_used : exists s,
  rrun code_tags (rinit (fun t => match t with 0 => [Rq 0 RInfo 1; Rq 0 RBlock 2] | 1 => [Rq 3 RBlock 1; Rq 0 RInfo 1] | _ => [] end))
    [RCall 0; RCall 1; RServe 1 true; RServe 1 false; RReturn 1; RReturn 0; RCall 1; RCall 0; RServe 2 true; RServe 1 true; RReturn 1; RReturn 0] = Some s /\
  r_got (rs_thr s 0) = [(0, 0); (0, 1)] /\ r_got (rs_thr s 1) = [(1, 0); (1, 1)].
Proof. eexists. split; [vm_compute; reflexivity|]. split; reflexivity. Qed.

(** Every dictionary request of a cache grid on a later level waits for ever. *)
Theorem C53_cache_hang_refuted : forall prog t level q s, level > 0 ->
  prog t = [Rq level RInfo q] -> (forall u, u <> t -> prog u = []) ->
  rreachable code_tags prog s -> r_done (rs_thr s t) = 0 /\ r_todo (rs_thr s t) = [Rq level RInfo q].
Proof. exact info_hangs. Qed.
Print Assumptions C53_cache_hang_refuted.
(** Or it takes the reply for the first level. *)
Theorem C53_cache_mixed_refuted : exists prog s,
  (forall t r, In r (prog t) -> rq_kind r = RInfo) /\ rreachable code_tags prog s /\ r_got (rs_thr s 1) = [(0, 0)].
Proof.
  exists (fun t => match t with 0 => [Rq 0 RInfo 5] | 1 => [Rq 1 RInfo 5] | _ => [] end). eexists. split; [|split].
  - intros [|[|t]] r I; cbn in I; [destruct I as [<-|[]]; reflexivity|destruct I as [<-|[]]; reflexivity|contradiction].
  - exists [RCall 0; RCall 1; RServe 5 true; RReturn 1]. vm_compute. reflexivity.
  - reflexivity.
Qed.
Print Assumptions C53_cache_mixed_refuted.
(** Full grids: two threads reading from two levels get each other's block. *)
Theorem C53_full_refuted : exists prog s,
  (forall t r, In r (prog t) -> rq_kind r = RFull) /\ rreachable code_tags prog s /\
  r_got (rs_thr s 0) = [(1, 0)] /\ r_got (rs_thr s 1) = [(0, 0)].
Proof.
  exists (fun t => match t with 0 => [Rq 0 RFull 5] | 1 => [Rq 1 RFull 5] | _ => [] end). eexists. split; [|split].
  - intros [|[|t]] r I; cbn in I; [destruct I as [<-|[]]; reflexivity|destruct I as [<-|[]]; reflexivity|contradiction].
  - exists [RCall 0; RCall 1; RServe 5 true; RServe 5 true; RReturn 1; RReturn 0]. vm_compute. reflexivity.
  - split; reflexivity.
Qed.
Print Assumptions C53_full_refuted.
(** With the tag offset of the level added in all places the property would hold. *)
Theorem C53_with_offsets : forall prog,
  (forall t r, In r (prog t) -> rq_kind r = RFull) \/ (forall t r, In r (prog t) -> rq_kind r <> RFull) ->
  forall s t, rreachable repaired_tags prog s ->
  r_got (rs_thr s t) = own_replies t (r_done (rs_thr s t)) /\
  exists l s', rrun repaired_tags s l = Some s' /\ r_todo (rs_thr s' t) = [].
Proof.
  exact (fun prog K s t R => conj (replies_right _ prog s t (proj1 (repaired_all prog K)) R)
    (completes _ prog s t (proj1 (repaired_all prog K)) (proj2 (repaired_all prog K)) R)).
Qed.
Print Assumptions C53_with_offsets.
