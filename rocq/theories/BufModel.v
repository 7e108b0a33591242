(** * Reads on machines with store buffers

    Processors do not execute the interleavings of ConcModel.v and OnceModel.v literally: stores wait in
    a buffer of the processor and become visible later, in order (x86) or, for different
    locations, in any order (SPARC PSO; reordering by the compiler looks the same).  The machine
    below has these buffers; two programs of the library run on it. *)
From Verif Require Export ConcModel.

(** ** The machine *)
Section Machine.
Context {A K W L C : Type}.          (* locations, mutexes, values, thread state, choices *)
Variable aeq : A -> A -> bool.
Variable keq : K -> K -> bool.

(** What a thread does next.  [IMem f]: loads and stores; [f] gets the values and returns the stores in
    their order. *)
Inductive instr :=
| ILock (k : K) (l : L)
| ITry (k : K) (yes no : L)
| IUnlock (k : K) (l : L)
| IMem (f : (A -> W) -> option (list (A * W) * L)).

Variable prog : nat -> L -> C -> option instr.

Record bst := BSt {
  b_mem : A -> W;
  b_buf : nat -> list (A * W);       (* stores of a thread which are not visible yet, oldest first *)
  b_lock : K -> option nat;
  b_loc : nat -> L
}.

(** A thread sees its own stores. *)
Fixpoint bview (buf : list (A * W)) (m : A -> W) (a : A) : W :=
  match buf with
  | [] => m a
  | (a', w) :: buf' => bview buf' (fun x => if aeq a' x then w else m x) a
  end.

Definition updk {X} (f : K -> X) (k : K) (x : X) : K -> X := fun k' => if keq k' k then x else f k'.

(** Taking and giving back a mutex (threads/pthreadmutex.h, cxxmutex.h): [lock] and [try_lock] are
    acquire operations, they need not wait for the buffer; [unlock] is a release operation, everything
    stored before is visible. *)
Definition bstep_thr (s : bst) (t : nat) (ch : C) : option bst :=
  match prog t (b_loc s t) ch with
  | None => None
  | Some (ILock k l) =>
      match b_lock s k with
      | None => Some (BSt (b_mem s) (b_buf s) (updk (b_lock s) k (Some t)) (upd (b_loc s) t l))
      | Some _ => None
      end
  | Some (ITry k yes no) =>
      match b_lock s k with
      | None => Some (BSt (b_mem s) (b_buf s) (updk (b_lock s) k (Some t)) (upd (b_loc s) t yes))
      | Some _ => Some (BSt (b_mem s) (b_buf s) (b_lock s) (upd (b_loc s) t no))
      end
  | Some (IUnlock k l) =>
      match b_buf s t with
      | [] => Some (BSt (b_mem s) (b_buf s) (updk (b_lock s) k None) (upd (b_loc s) t l))
      | _ :: _ => None
      end
  | Some (IMem f) =>
      match f (bview (b_buf s t) (b_mem s)) with
      | Some (ws, l) => Some (BSt (b_mem s) (upd (b_buf s) t (b_buf s t ++ ws)) (b_lock s) (upd (b_loc s) t l))
      | None => None
      end
  end.

(** A list without its [i]-th element. *)
Definition without {X} (i : nat) (l : list X) : list X := firstn i l ++ skipn (S i) l.

(** The [i]-th store of thread [t] becomes visible.  In order ([fifo]), or before
    older stores to other locations. *)
Definition bcommit (fifo : bool) (s : bst) (t i : nat) : option bst :=
  match nth_error (b_buf s t) i with
  | None => None
  | Some (a, w) =>
      if (if fifo then i =? 0 else negb (existsb (fun e => aeq (fst e) a) (firstn i (b_buf s t)))) then
        Some (BSt (fun x => if aeq a x then w else b_mem s x)
                  (upd (b_buf s) t (without i (b_buf s t))) (b_lock s) (b_loc s))
      else None
  end.

Inductive bact := BRun (t : nat) (ch : C) | BCommit (t i : nat).
Definition bstep (fifo : bool) (s : bst) (a : bact) : option bst :=
  match a with BRun t ch => bstep_thr s t ch | BCommit t i => bcommit fifo s t i end.
Fixpoint brun (fifo : bool) (s : bst) (acts : list bact) : option bst :=
  match acts with
  | [] => Some s
  | a :: acts' => match bstep fifo s a with Some s' => brun fifo s' acts' | None => None end
  end.

End Machine.
Arguments instr : clear implicits. Arguments bst : clear implicits. Arguments bact : clear implicits.

(** ** Reads of a cache (grid/level/cachedist.h lines 134-214 with transfer/mpino.h; mode [MNo] of ConcModel.v)

    The operations of [step_thr] with explicit loads and stores.  Simplified: the list of a cache with its
    map is one location, a cell is one location. *)
Inductive caddr := AList (r d : nat) | ACell (r o x : nat).
Definition caddr_eq (a b : caddr) : bool :=
  match a, b with
  | AList r d, AList r' d' => (r =? r') && (d =? d')
  | ACell r o x, ACell r' o' x' => (r =? r') && (o =? o') && (x =? x')
  | _, _ => false
  end.
Inductive cword (V : Type) := WList (l : clist) | WCell (v : option V).
Arguments WList {V}. Arguments WCell {V}.

Section Cache.
Context {V : Type} (c : cfg V).
Local Notation instr := (instr caddr lock (cword V) (thr V)).

Definition at_pc (x : thr V) (p : pc V) : thr V := Thr p (t_todo x) (t_done x).
Definition only (x : thr V) (p : pc V) : instr := IMem (fun _ => Some ([], at_pc x p)).
(** Stores to all cells of a block. *)
Definition stores (r o : nat) (f : nat -> option V) : list (caddr * cword V) :=
  map (fun x => (ACell r o x, WCell (f x))) (seq 0 (cf_cells c)).

Definition cprog (t : nat) (x : thr V) (ch : choice V) : option instr :=
  let r := cf_rank c t in
  let d := cf_dom c t in
  match t_todo x with
  | [] => None
  | (b, cell) :: todo =>
    let own i := node_off c d i in
    match t_pc x with
    (* cachemanager.h line 121 *)
    | PIdle => Some (ILock (LCache r d) (at_pc x PGetLocked))
    (* cachemanager.h lines 123-127 *)
    | PGetLocked => Some (IMem (fun m =>
        match m (AList r d) with
        | WList l => match clist_request l b with
                     | Ok (l', i, old) => Some ([(AList r d, WList l')], at_pc x (PGetSlot i old))
                     | Ub => None
                     end
        | WCell _ => None
        end))
    (* cachemanager.h lines 130, 131 *)
    | PGetSlot i old => Some (ILock (LSlot r (own i)) (at_pc x (PGetBoth i old)))
    | PGetBoth i old => Some (IUnlock (LCache r d) (at_pc x (PHave i old)))
    (* cachedist.h lines 151-161 *)
    | PHave i old =>
        match old with
        | Some ob => if ob =? b then Some (only x (PReady i)) else Some (only x (PSearch i 0))
        | None => Some (only x (PSearch i 0))
        end
    (* numacache.h lines 117-120; cachemanager.h lines 152-167 *)
    | PSearch i k =>
        if k <? cf_doms c then
          if k =? d then Some (only x (PSearch i (S k)))
          else if ch_fail ch then Some (only x (PSearch i (S k)))
          else Some (ITry (LCache r k) (at_pc x (PTryLocked i k)) (at_pc x (PSearch i (S k))))
        else Some (only x (PStart i))
    | PTryLocked i k => Some (IMem (fun m =>
        match m (AList r k) with
        | WList l => match clist_peek l b with
                     | Some j => Some ([], at_pc x (PTryFound i k j))
                     | None => Some ([], at_pc x (PTryMiss i k))
                     end
        | WCell _ => None
        end))
    | PTryMiss i k => Some (IUnlock (LCache r k) (at_pc x (PSearch i (S k))))
    | PTryFound i k j =>
        if ch_fail ch then Some (only x (PTryMiss i k))
        else Some (ITry (LSlot r (node_off c k j)) (at_pc x (PTryBoth i k j)) (at_pc x (PTryMiss i k)))
    | PTryBoth i k j => Some (IUnlock (LCache r k) (at_pc x (PCopy i k j 0)))
    (* numacache.h lines 124, 125 *)
    | PCopy i k j y =>
        if y <? cf_cells c then Some (IMem (fun m =>
          Some ([(ACell r (own i) y, m (ACell r (node_off c k j) y))], at_pc x (PCopy i k j (S y)))))
        else Some (only x (PCopyDone i k j))
    | PCopyDone i k j => Some (IUnlock (LSlot r (node_off c k j)) (at_pc x (PAdd i)))
    | PAdd i => Some (only x (PReady i))
    (* cachedist.h line 194, cache.h lines 157-171 *)
    | PStart i => Some (only x (PFill i))
    | PFill i => Some (IMem (fun _ => Some (stores r (own i) (ch_junk ch), at_pc x (PFilling i))))
    | PFilling i => Some (IMem (fun _ => Some (stores r (own i) (fun y => Some (cf_file c b y)), at_pc x (PEnd i))))
    | PEnd i => Some (only x (PReady i))
    (* cachedist.h lines 205-213 *)
    | PReady i => Some (IMem (fun m =>
        match m (ACell r (own i) cell) with
        | WCell v => Some ([], at_pc x (PRelease i v))
        | WList _ => None
        end))
    | PRelease i v => Some (IUnlock (LSlot r (own i)) (Thr PIdle todo (t_done x ++ [(b, cell, v)])))
    (* steps of the MPI transports *)
    | _ => None
    end
  end.

(** After [open]. *)
Definition cbinit (l0 : clist) : bst caddr lock (cword V) (thr V) :=
  BSt (fun a => match a with AList _ _ => WList l0 | ACell _ _ _ => WCell None end) (fun _ => []) (fun _ => None)
      (fun t => Thr PIdle (cf_prog c t) []).
End Cache.

(** ** One-time initialisation, threads/once.h lines 69-86, as used in grid.cpp line 224

    Location 0: [m_state]; locations 1..[w]: what [initContainers] writes ([val]). *)
Inductive opc :=
| OCall                              (* line 73 *)
| OWait                              (* line 77 *)
| OTest                              (* line 78 *)
| OFunc (i : nat)                    (* line 83: the function has stored [i] words *)
| OSet                               (* line 85 *)
| OLeave                             (* destructor of the lock guard *)
| OBack.                             (* saveExec has returned; grid.cpp line 235 *)
Record oth := OTh { ot_pc : opc; ot_left : nat; ot_seen : list (nat * nat) }.

Section Once.
(** [fast]: with the test in front of the lock, as in the code. *)
Variables (w : nat) (val : nat -> nat) (fast : bool).

Definition ot_at (x : oth) (p : opc) : oth := OTh p (ot_left x) (ot_seen x).

(** The choice: which word is read after the return, or (from [w] on) go to the next call. *)
Definition oprog (t : nat) (x : oth) (ch : nat) : option (instr nat unit nat oth) :=
  match ot_pc x with
  | OCall =>
      match ot_left x with
      | 0 => None
      | S _ => Some (IMem (fun m => Some ([], ot_at x (if (fast && (m 0 =? 1))%bool then OBack else OWait))))
      end
  | OWait => Some (ILock tt (ot_at x OTest))
  | OTest => Some (IMem (fun m => Some ([], ot_at x (if m 0 =? 1 then OLeave else OFunc 0))))
  | OFunc i =>
      if i <? w then Some (IMem (fun _ => Some ([(S i, val i)], ot_at x (OFunc (S i)))))
      else Some (IMem (fun _ => Some ([], ot_at x OSet)))
  | OSet => Some (IMem (fun _ => Some ([(0, 1)], ot_at x OLeave)))
  | OLeave => Some (IUnlock tt (ot_at x OBack))
  | OBack =>
      if ch <? w then Some (IMem (fun m => Some ([], OTh OBack (ot_left x) ((ch, m (S ch)) :: ot_seen x))))
      else Some (IMem (fun _ => Some ([], OTh OCall (pred (ot_left x)) (ot_seen x))))
  end.

(** Thread [t] calls [saveExec] [calls t] times. *)
Definition obinit (calls : nat -> nat) : bst nat unit nat oth :=
  BSt (fun _ => 0) (fun _ => []) (fun _ => None) (fun t => OTh OCall (calls t) []).
End Once.
Definition unit_eq (a b : unit) : bool := true.
