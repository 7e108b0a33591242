(** * Accesses of shared memory

    Which shared data the next step of a thread reads or writes, for the systems of ConcModel.v ([Cache] and [CacheDist]) and FullConcModel.v ([FullDist]).  The places:
    the memory of a block in the cache of a rank, the list of a cache manager (cache/cachelist.h and lru.h), the dictionary entry of a
    block (transfer/mpicache.h).  Simplified: a place is one object, whatever part of it is accessed. *)
From Verif Require CountModel SyncModel.
From Verif Require Import CountModel SyncModel.
From Verif Require Export ConcModel FullConcModel.

Inductive place := Block (r o : nat) | Index (r d : nat) | Entry (b : nat).
(** [Inside]: read or written while the step holds the mutex of this entry, transfer/mpithreadcache.h lines 613-648. *)
Inductive manner := Rd | Wr | Inside.

Section About.
Context {V : Type} (c : cfg V).
Local Notation n := (cf_size c).
Local Notation D := (cf_doms c).
Local Notation K := (cf_cells c).

(** [addBlock]/[deleteBlock], transfer/mpithreadcache.h lines 564-603: only entries of the own rank. *)
Definition about_update (r b : nat) : list (place * manner) := if cf_home c b =? r then [(Entry b, Inside)] else [].
(** The lines are those of [step_thr] in ConcModel.v. *)
Definition about_thr (s : st V) (t : nat) : list (place * manner) :=
  let r := cf_rank c t in
  let d := cf_dom c t in
  let own i := Block r (node_off c d i) in
  match t_todo (s_thr s t) with
  | [] => []
  | (b, _) :: _ =>
    match t_pc (s_thr s t) with
    | PGetLocked => [(Index r d, Wr)]                          (* cachemanager.h lines 123-127 *)
    | PDel _ ob => match cf_mode c with MThread => about_update r ob | _ => [] end
    | PDelHold _ ob => [(Entry ob, Wr)]                        (* mpiwincache.h lines 544-561 *)
    | PTryLocked _ k => [(Index r k, Rd)]                      (* cachemanager.h line 156 *)
    | PCopy i k j x => if x <? K then [(own i, Wr); (Block r (node_off c k j), Rd)] else []   (* numacache.h line 124 *)
    | PAdd _ => match cf_mode c with MThread => about_update r b | _ => [] end
    | PAddHold _ => [(Entry b, Wr)]                            (* mpiwincache.h lines 450-455 *)
    | PStart _ => match cf_mode c with MThread => about_update r b | _ => [] end
    | PStartHold _ => [(Entry b, Wr)]                          (* mpiwincache.h lines 316-343 *)
    | PXfer i e x => if x <? K then [(own i, Wr); (Block (e / (n * D)) (e mod (n * D)), Rd)] else []   (* mpiwincache.h lines 363-402 *)
    | PWaitBlk i _ => [(own i, Wr)]                            (* mpithreadcache.h line 527 *)
    | PFill i | PFilling i => [(own i, Wr)]                    (* cache.h lines 157-171 *)
    | PEnd _ => match cf_mode c with MThread => about_update r b | _ => [] end
    | PReady i => [(own i, Rd)]                                (* cachedist.h lines 205-210 *)
    | _ => []
    end
  end.
(** The communication thread of rank [r]; which message it receives next is a choice. *)
Definition about_com (s : st V) (r : nat) (ch : choice V) : list (place * manner) :=
  match s_com s r with
  | CIdle =>
      match ch_kind ch with
      | 0 => match s_ireq s (ch_src ch) r with b :: _ => [(Entry b, Inside)] | [] => [] end        (* mpithreadcache.h lines 94-113 *)
      | 1 => []
      | _ => match nth_error (s_upd s r) (ch_src ch) with Some (_, b, _) => [(Entry b, Inside)] | None => [] end   (* lines 210-252 *)
      end
  | CTryLocked _ _ k => [(Index r k, Rd)]
  | CSend _ _ k j x _ => if x <? K then [(Block r (node_off c k j), Rd)] else []                (* lines 153-167 *)
  | _ => []
  end.
Definition about (s : st V) (a : act) : list (place * manner) :=
  match a with
  | AThr t _ => about_thr s t
  | ACom r ch => match cf_mode c with MThread => about_com s r ch | _ => [] end
  end.
End About.

(** ** [FullDist]: the lines are those of [ustep_thr] in FullConcModel.v.  The storage of a full grid is written by [open] only and left out, as
    are the communication threads, which only read it (mpithreadfull.h lines 182-191). *)
Section UAbout.
Context {W : Type} (c : fcfg W).
Local Notation K := (fc_cells c).
Definition uabout (s : fst_ W) (t : nat) : list (place * manner) :=
  let r := fc_rank c t in
  let d := fc_dom c t in
  let own i := Block r (uoff c d i) in
  match q_todo (u_thr s t) with
  | [] => []
  | (b, _) :: _ =>
    match q_pc (u_thr s t) with
    | QGetLocked => [(Index r d, Wr)]                          (* cachemanager.h lines 123-127 *)
    | QMem i x => if x <? K then [(own i, Wr)] else []         (* numafull.h lines 115-116 *)
    | QTryLocked _ k => [(Index r k, Rd)]                      (* cachemanager.h line 156 *)
    | QCopy i k j x => if x <? K then [(own i, Wr); (Block r (uoff c k j), Rd)] else []   (* numacache.h line 125 *)
    | QGet i x => if x <? K then [(own i, Wr)] else []         (* mpiwinfull.h lines 175-191 *)
    | QWait i => [(own i, Wr)]                                 (* mpithreadfull.h lines 178-180 *)
    | QReady i => [(own i, Rd)]                                (* fulldist.h lines 190-195 *)
    | _ => []
    end
  end.
End UAbout.

(** ** The flag of threads/once.h: read without the mutex (line 73), read and written with it (lines 78, 85).  [true]: a write. *)
Definition oabout (s : ost) (t : nat) : option bool :=
  match o_pc (o_thr s t) with
  | ORead => match o_left (o_thr s t) with 0 => None | S _ => Some false end
  | ORecheck => Some false
  | OSet => Some true
  | _ => None
  end.

(** ** The counters of perf/counter.h: which one the next step of a thread accesses, [true]: a write.  Without THREADSAFE_COUNTER [inc] loads
    in its first step. *)
Definition nabout (ts : bool) (s : CountModel.st) (t : nat) (ch : native) : option (native * bool) :=
  let th := CountModel.s_thr s t in
  match CountModel.t_pc th with
  | CountModel.CIdle => match CountModel.t_ops th with MInc n :: _ => if ts then None else Some (n, false) | _ => None end
  | CountModel.CHeld n => Some (n, false)
  | CountModel.CLoaded n _ => Some (n, true)
  | CountModel.CStored _ => None
  | CountModel.CGet cc l => if existsb (native_eqb ch) (needed cc) && negb (loaded l ch) then Some (ch, false) else None
  end.
