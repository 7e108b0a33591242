(** * Reads on machines on which stores become visible in any order

    BufModel.v delays stores.  Here the loads may be early, too (ARM, POWER, reordering by compilers): all
    stores to a location remain, each with a stamp, and a load returns any of them, unless the thread has to
    know a newer one.  What a thread has to know comes from its own stores, from the mutexes it locks
    and from atomic loads.  (A later load may even return an older store than an earlier load of the same location;
    processors do not do that.  Not modelled: stores which take part in the loads they depend on.) *)
From Verif Require Export BufModel SyncModel.

(** ** The machine *)
Section Memory.
Context {A K W : Type}.
Variable aeq : A -> A -> bool.
Variable keq : K -> K -> bool.

Record vmem := VMem {
  v_first : A -> W;                    (* the values at the beginning *)
  v_msg : A -> nat -> option W;        (* location, stamp: the value stored *)
  v_with : A -> nat -> A -> nat;       (* what a store tells those who load it (atomic stores) *)
  v_view : nat -> A -> nat;            (* thread: the stamp of the newest store it has to know *)
  v_kview : K -> A -> nat              (* mutex: what the last holder had to know *)
}.

Definition join (f g : A -> nat) : A -> nat := fun a => Nat.max (f a) (g a).

(** The store which a load of [a] returns: the one with stamp [rd a], if the thread may return it. *)
Definition vstamp (m : vmem) (t : nat) (rd : A -> nat) (a : A) : nat :=
  if v_view m t a <=? rd a then match v_msg m a (rd a) with Some _ => rd a | None => v_view m t a end else v_view m t a.
Definition vload (m : vmem) (t : nat) (rd : A -> nat) (a : A) : W :=
  match v_msg m a (vstamp m t rd a) with Some w => w | None => v_first m a end.

Definition vknow (m : vmem) (t : nat) (f : A -> nat) : vmem :=
  VMem (v_first m) (v_msg m) (v_with m) (upd (v_view m) t (join (v_view m t) f)) (v_kview m).
(** An atomic load of [a]. *)
Definition vacquire (m : vmem) (t : nat) (rd : A -> nat) (a : A) : vmem := vknow m t (v_with m a (vstamp m t rd a)).

(** A store, newer than everything the thread has to know about [a]; atomic or not. *)
Definition vstore (atomic : bool) (m : vmem) (t : nat) (a : A) (w : W) (ts : nat) : option vmem :=
  match (if v_view m t a <? ts then v_msg m a ts else Some w) with
  | Some _ => None
  | None =>
      let view := fun x => if aeq a x then ts else v_view m t x in
      Some (VMem (v_first m)
                 (fun a' ts' => if (aeq a a' && (ts =? ts'))%bool then Some w else v_msg m a' ts')
                 (fun a' ts' => if (aeq a a' && (ts =? ts'))%bool then (if atomic then view else fun _ => 0) else v_with m a' ts')
                 (upd (v_view m) t view) (v_kview m))
  end.

(** Mutexes (threads/pthreadmutex.h, cxxmutex.h): who locks one has to know what was known when it was unlocked. *)
Definition vlock (m : vmem) (t : nat) (k : K) : vmem := vknow m t (v_kview m k).
Definition vunlock (m : vmem) (t : nat) (k : K) : vmem :=
  VMem (v_first m) (v_msg m) (v_with m) (v_view m) (updk keq (v_kview m) k (v_view m t)).

Definition vmem0 (m0 : A -> W) : vmem :=
  VMem m0 (fun a ts => if ts =? 0 then Some (m0 a) else None) (fun _ _ _ => 0) (fun _ _ => 0) (fun _ _ => 0).
End Memory.
Arguments vmem : clear implicits.

Section Machine.
Context {A K W L C : Type}.
Variable aeq : A -> A -> bool.
Variable keq : K -> K -> bool.
Variable prog : nat -> L -> C -> option (instr A K W L).
(** The location which the next loads and stores of a thread access atomically (acquire, release). *)
Variable sync : nat -> L -> option A.

Record vst := VSt { v_mem : vmem A K W; v_lock : K -> option nat; v_loc : nat -> L }.

(** The stores of an instruction, with stamps [tss]. *)
Fixpoint vstores (sy : option A) (m : vmem A K W) (t : nat) (ws : list (A * W)) (tss : list nat) : option (vmem A K W) :=
  match ws, tss with
  | [], [] => Some m
  | (a, w) :: ws', ts :: tss' =>
      match vstore aeq (match sy with Some a' => aeq a' a | None => false end) m t a w ts with
      | Some m' => vstores sy m' t ws' tss'
      | None => None
      end
  | _, _ => None
  end.

(** Thread [t] executes its next instruction; [rd]: what its loads return, [tss]: the stamps of its stores. *)
Record vact := VAct { va_thr : nat; va_ch : C; va_rd : A -> nat; va_ts : list nat }.
Definition vstep (s : vst) (x : vact) : option vst :=
  let t := va_thr x in
  match prog t (v_loc s t) (va_ch x) with
  | None => None
  | Some (ILock k l) =>
      match v_lock s k with
      | None => Some (VSt (vlock (v_mem s) t k) (updk keq (v_lock s) k (Some t)) (upd (v_loc s) t l))
      | Some _ => None
      end
  | Some (ITry k yes no) =>
      match v_lock s k with
      | None => Some (VSt (vlock (v_mem s) t k) (updk keq (v_lock s) k (Some t)) (upd (v_loc s) t yes))
      | Some _ => Some (VSt (v_mem s) (v_lock s) (upd (v_loc s) t no))
      end
  | Some (IUnlock k l) =>
      Some (VSt (vunlock keq (v_mem s) t k) (updk keq (v_lock s) k None) (upd (v_loc s) t l))
  | Some (IMem f) =>
      match f (vload (v_mem s) t (va_rd x)) with
      | Some (ws, l) =>
          let sy := sync t (v_loc s t) in
          let m := match sy with Some a => vacquire (v_mem s) t (va_rd x) a | None => v_mem s end in
          match vstores sy m t ws (va_ts x) with
          | Some m' => Some (VSt m' (v_lock s) (upd (v_loc s) t l))
          | None => None
          end
      | None => None
      end
  end.
Fixpoint vrun (s : vst) (xs : list vact) : option vst :=
  match xs with
  | [] => Some s
  | x :: xs' => match vstep s x with Some s' => vrun s' xs' | None => None end
  end.

Definition vinit (m0 : A -> W) (l0 : nat -> L) : vst := VSt (vmem0 m0) (fun _ => None) l0.
End Machine.
Arguments vst : clear implicits. Arguments vact : clear implicits.

(** Reads of a cache: [cprog] of BufModel.v, no atomic accesses. *)
Definition plain_access {A L : Type} (t : nat) (x : L) : option A := None.

(** threads/once.h: [oprog] of BufModel.v; [m_state] (line 49) is a plain [bool]; with [atomic] it would be an
    [std::atomic<bool>]. *)
Definition once_access (atomic : bool) (t : nat) (x : oth) : option nat :=
  if atomic then match BufModel.ot_pc x with BufModel.OCall | OTest | BufModel.OSet => Some 0 | _ => None end else None.

(** ** Barriers and broadcasts, threads/sync.h

    The threads of SyncModel.v, with a memory: outside of the calls, or while they hold the mutex, they load and store.  A step
    of SyncModel.v in which the thread gets the mutex (or returns from [pthread_cond_wait]) locks it, one after which
    the thread no longer has it unlocks it. *)
Section Barrier.
Context {V A W : Type}.
Variable aeq : A -> A -> bool.
Variable c : ycfg V.

Record zst := ZSt { z_sync : yst V; z_mem : vmem A unit W }.
Inductive zact :=
| ZSync (t : nat)
| ZStore (t : nat) (a : A) (w : W) (ts : nat).

Definition z_takes (p : ypc) : bool := match p with YOut | YWakeF | YWakeC | YWakeL => true | _ => false end.

Definition zstep (s : zst) (x : zact) : option zst :=
  match x with
  | ZSync t =>
      match ystep c (z_sync s) (YStep t) with
      | Some (Ok y) =>
          let m := if z_takes (y_pc (y_thr (z_sync s) t)) then vlock (z_mem s) t tt else z_mem s in
          Some (ZSt y (match y_mutex y with None => vunlock unit_eq m t tt | Some _ => m end))
      | _ => None
      end
  | ZStore t a w ts =>
      match vstore aeq false (z_mem s) t a w ts with
      | Some m => Some (ZSt (z_sync s) m)
      | None => None
      end
  end.
Fixpoint zrun (s : zst) (xs : list zact) : option zst :=
  match xs with
  | [] => Some s
  | x :: xs' => match zstep s x with Some s' => zrun s' xs' | None => None end
  end.
Definition zinit (m0 : A -> W) : zst := ZSt (yinit c) (vmem0 m0).
End Barrier.
Arguments zst : clear implicits. Arguments zact : clear implicits.
