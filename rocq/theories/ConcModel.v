(** * Concurrent cache grids

    Interleaving semantics of any number of threads on any number of ranks and
    NUMA domains reading through [Cache] (grid/level/cache.h) or [CacheDist]
    (grid/level/cachedist.h) with one of the MPI policies
    - [MNo]: transfer/mpino.h,
    - [MWin]: transfer/mpiwincache.h,
    - [MThread]: transfer/mpithreadcache.h with mpi/commthread.h.
    [Cache::getAt] is the case of one rank, one domain and [MNo].

    Simplifications: memory is sequentially consistent; code that runs under a
    lock and touches only the data of that lock is one step; positions are
    already converted to (block, cell); performance counters are left out;
    dictionary entries are addressed by the block they belong to (the address
    (blockRank, blockNodeOffset) determines the block, theorem C02).  The MPI
    mutex of a block is an atomic lock here (the queue lock that implements it
    is modelled in MpiMutexModel.v).  The library-wide lock [mpiLock] is left
    out. *)
From Verif Require Export CacheModel DictModel.

Inductive mode := MNo | MWin | MThread.

(** Threads and, with [MThread], the communication thread of each rank. *)
Inductive owner := Usr (t : nat) | Com (r : nat).

(** All locks of the system.
    - [LCache r d]: [m_cacheMutex] of the cache manager of domain [d] on rank [r]
    - [LSlot r o]: the element of [m_blockMutexes] which protects the block with
      offset [o] in the cache memory of rank [r]
      ([o = cacheOffset + cacheSize * domain])
    - [LDict b]: the MPI mutex of the dictionary entry of block [b]
    - [LInfo r], [LBlk r]: [m_infoMutex], [m_blockMutex] of mpithreadcache.h *)
Inductive lock :=
| LCache (r d : nat)
| LSlot (r o : nat)
| LDict (b : nat)
| LInfo (r : nat)
| LBlk (r : nat).

Definition lock_eq (k l : lock) : bool :=
  match k, l with
  | LCache r d, LCache r' d' => (r =? r') && (d =? d')
  | LSlot r o, LSlot r' o' => (r =? r') && (o =? o')
  | LDict b, LDict b' => b =? b'
  | LInfo r, LInfo r' => r =? r'
  | LBlk r, LBlk r' => r =? r'
  | _, _ => false
  end.

(** Program counter of a thread in [getAt].  [i] is the slot of the own cache
    which was assigned to the request. *)
Inductive pc (V : Type) :=
| PIdle                               (* before m_cacheMutex.lock() *)
| PGetLocked                          (* inside get: list not yet consulted *)
| PGetSlot (i : nat) (old : option nat)   (* waiting for the slot mutex *)
| PGetBoth (i : nat) (old : option nat)   (* both locked *)
| PHave (i : nat) (old : option nat)      (* get returned *)
| PDel (i ob : nat)                   (* deleteBlock called *)
| PDelHold (i ob : nat)               (* dictionary entry of ob locked *)
| PDelRel (i ob : nat)                (* location deleted *)
| PSearch (i k : nat)                 (* NumaCache::transfer, next domain k *)
| PTryLocked (i k : nat)              (* tryGet of domain k, manager locked *)
| PTryMiss (i k : nat)                (* tryGet fails *)
| PTryFound (i k j : nat)             (* block found in slot j *)
| PTryBoth (i k j : nat)              (* slot j locked *)
| PCopy (i k j c : nat)               (* memcpy, next cell c *)
| PCopyDone (i k j : nat)
| PAdd (i : nat)                      (* addBlock called *)
| PAddHold (i : nat)
| PAddRel (i : nat)
| PStart (i : nat)                    (* startTransfer called *)
| PStartHold (i : nat)                (* MWin: dictionary entry locked *)
| PXfer (i e c : nat)                 (* MWin: transfer from location e *)
| PAskInfo (i : nat)                  (* MThread: m_infoMutex locked *)
| PWaitInfo (i : nat)
| PAskBlk (i dst : nat)               (* MThread: transfer from rank dst *)
| PSendBlk (i dst : nat)              (* m_blockMutex locked *)
| PWaitBlk (i dst : nat)
| PFill (i : nat)                     (* loadBlock called *)
| PFilling (i : nat)                  (* slot contains garbage *)
| PEnd (i : nat)                      (* endTransfer called *)
| PReady (i : nat)                    (* slot contains the block *)
| PRelease (i : nat) (v : option V).  (* value converted, unlock the slot *)
Arguments PIdle {V}. Arguments PGetLocked {V}. Arguments PGetSlot {V}.
Arguments PGetBoth {V}. Arguments PHave {V}. Arguments PDel {V}. Arguments PDelHold {V}.
Arguments PDelRel {V}. Arguments PSearch {V}. Arguments PTryLocked {V}. Arguments PTryMiss {V}.
Arguments PTryFound {V}. Arguments PTryBoth {V}. Arguments PCopy {V}. Arguments PCopyDone {V}.
Arguments PAdd {V}. Arguments PAddHold {V}. Arguments PAddRel {V}. Arguments PStart {V}.
Arguments PStartHold {V}. Arguments PXfer {V}. Arguments PAskInfo {V}. Arguments PWaitInfo {V}.
Arguments PAskBlk {V}. Arguments PSendBlk {V}. Arguments PWaitBlk {V}. Arguments PFill {V}.
Arguments PFilling {V}. Arguments PEnd {V}. Arguments PReady {V}. Arguments PRelease {V}.

(** Program counter of the communication thread, serving a block request of rank
    [src] ([BlockTransferer::recv], mpithreadcache.h lines 136-183). *)
Inductive cpc (V : Type) :=
| CIdle                               (* MPI_Recv, commthread.h line 286 *)
| CTry (src b k : nat)                (* next domain k *)
| CTryLocked (src b k : nat)
| CTryMiss (src b k : nat)
| CTryFound (src b k j : nat)
| CTryBoth (src b k j : nat)
| CSend (src b k j c : nat) (buf : nat -> option V)   (* MPI_Isend reads cell c *)
| CSendDone (k j : nat).              (* unlock the slot *)
Arguments CIdle {V}. Arguments CTry {V}. Arguments CTryLocked {V}. Arguments CTryMiss {V}.
Arguments CTryFound {V}. Arguments CTryBoth {V}. Arguments CSend {V}. Arguments CSendDone {V}.

(** A thread: program counter, remaining requests (block, cell), answers. *)
Record thr (V : Type) := Thr {
  t_pc : pc V;
  t_todo : list (nat * nat);
  t_done : list (nat * nat * option V)
}.
Arguments Thr {V}. Arguments t_pc {V}. Arguments t_todo {V}. Arguments t_done {V}.

(** The parameters of a system. *)
Record cfg (V : Type) := Cfg {
  cf_mode : mode;
  cf_ranks : nat;                    (* ranks *)
  cf_doms : nat;                     (* NUMA domains per rank *)
  cf_size : nat;                     (* slots per domain *)
  cf_spread : Z;                     (* CACHE_HAND_SPREAD *)
  cf_cells : nat;                    (* cells per block *)
  cf_rank : nat -> nat;              (* rank of a thread *)
  cf_dom : nat -> nat;               (* domain of a thread *)
  cf_home : nat -> nat;              (* blockRank *)
  cf_file : nat -> nat -> V;         (* block, cell: what loadBlock stores *)
  cf_dict : nat -> list nat;         (* dictionary at the start *)
  cf_prog : nat -> list (nat * nat)  (* requests of a thread *)
}.
Arguments Cfg {V}. Arguments cf_mode {V}. Arguments cf_ranks {V}. Arguments cf_doms {V}.
Arguments cf_size {V}. Arguments cf_spread {V}. Arguments cf_cells {V}. Arguments cf_rank {V}.
Arguments cf_dom {V}. Arguments cf_home {V}. Arguments cf_file {V}. Arguments cf_dict {V}.
Arguments cf_prog {V}.

(** The state of the system.  In the replies, the block of the request is a ghost
    component (it is not part of the message). *)
Record st (V : Type) := St {
  s_lock : lock -> option owner;
  s_list : nat -> nat -> clist;                  (* rank, domain *)
  s_data : nat -> nat -> nat -> option V;        (* rank, offset, cell *)
  s_dict : nat -> dentry;
  s_ireq : nat -> nat -> list nat;               (* from rank, to rank *)
  s_irep : nat -> nat -> list (nat * option nat);   (* to rank, from rank *)
  s_breq : nat -> nat -> list nat;
  s_brep : nat -> nat -> list (nat * option (nat -> option V));
  s_upd : nat -> list (bool * nat * nat);        (* to rank: (add?, block, location) *)
  s_thr : nat -> thr V;
  s_com : nat -> cpc V
}.
Arguments St {V}. Arguments s_lock {V}. Arguments s_list {V}. Arguments s_data {V}.
Arguments s_dict {V}. Arguments s_ireq {V}. Arguments s_irep {V}. Arguments s_breq {V}.
Arguments s_brep {V}. Arguments s_upd {V}. Arguments s_thr {V}. Arguments s_com {V}.

(** Sources of nondeterminism of one step besides the schedule. *)
Record choice (V : Type) := Choice {
  ch_fail : bool;                    (* try_lock fails spuriously *)
  ch_rand : nat;                     (* rand() *)
  ch_junk : nat -> option V;         (* memory while a block is being loaded *)
  ch_kind : nat;                     (* message kind the communication thread receives *)
  ch_src : nat                       (* its sender / position *)
}.
Arguments Choice {V}. Arguments ch_fail {V}. Arguments ch_rand {V}. Arguments ch_junk {V}.
Arguments ch_kind {V}. Arguments ch_src {V}.

Section Step.
Context {V : Type} (c : cfg V).

Local Notation n := (cf_size c).
Local Notation D := (cf_doms c).
Local Notation K := (cf_cells c).

Definition updp {A} (f : nat -> nat -> A) (i j : nat) (a : A) : nat -> nat -> A :=
  fun i' j' => if ((i' =? i) && (j' =? j))%bool then a else f i' j'.

Definition set_lock (s : st V) (k : lock) (o : option owner) : st V :=
  St (fun k' => if lock_eq k' k then o else s_lock s k') (s_list s) (s_data s) (s_dict s)
     (s_ireq s) (s_irep s) (s_breq s) (s_brep s) (s_upd s) (s_thr s) (s_com s).
Definition set_list (s : st V) (r d : nat) (l : clist) : st V :=
  St (s_lock s) (updp (s_list s) r d l) (s_data s) (s_dict s)
     (s_ireq s) (s_irep s) (s_breq s) (s_brep s) (s_upd s) (s_thr s) (s_com s).
Definition set_data (s : st V) (r o : nat) (f : nat -> option V) : st V :=
  St (s_lock s) (s_list s) (updp (s_data s) r o f) (s_dict s)
     (s_ireq s) (s_irep s) (s_breq s) (s_brep s) (s_upd s) (s_thr s) (s_com s).
Definition set_dict (s : st V) (b : nat) (e : dentry) : st V :=
  St (s_lock s) (s_list s) (s_data s) (upd (s_dict s) b e)
     (s_ireq s) (s_irep s) (s_breq s) (s_brep s) (s_upd s) (s_thr s) (s_com s).
Definition set_ireq (s : st V) (r q : nat) (l : list nat) : st V :=
  St (s_lock s) (s_list s) (s_data s) (s_dict s)
     (updp (s_ireq s) r q l) (s_irep s) (s_breq s) (s_brep s) (s_upd s) (s_thr s) (s_com s).
Definition set_irep (s : st V) (r q : nat) (l : list (nat * option nat)) : st V :=
  St (s_lock s) (s_list s) (s_data s) (s_dict s)
     (s_ireq s) (updp (s_irep s) r q l) (s_breq s) (s_brep s) (s_upd s) (s_thr s) (s_com s).
Definition set_breq (s : st V) (r q : nat) (l : list nat) : st V :=
  St (s_lock s) (s_list s) (s_data s) (s_dict s)
     (s_ireq s) (s_irep s) (updp (s_breq s) r q l) (s_brep s) (s_upd s) (s_thr s) (s_com s).
Definition set_brep (s : st V) (r q : nat) (l : list (nat * option (nat -> option V))) : st V :=
  St (s_lock s) (s_list s) (s_data s) (s_dict s)
     (s_ireq s) (s_irep s) (s_breq s) (updp (s_brep s) r q l) (s_upd s) (s_thr s) (s_com s).
Definition set_upd (s : st V) (r : nat) (l : list (bool * nat * nat)) : st V :=
  St (s_lock s) (s_list s) (s_data s) (s_dict s)
     (s_ireq s) (s_irep s) (s_breq s) (s_brep s) (upd (s_upd s) r l) (s_thr s) (s_com s).
Definition set_thr (s : st V) (t : nat) (x : thr V) : st V :=
  St (s_lock s) (s_list s) (s_data s) (s_dict s)
     (s_ireq s) (s_irep s) (s_breq s) (s_brep s) (s_upd s) (upd (s_thr s) t x) (s_com s).
Definition set_com (s : st V) (r : nat) (x : cpc V) : st V :=
  St (s_lock s) (s_list s) (s_data s) (s_dict s)
     (s_ireq s) (s_irep s) (s_breq s) (s_brep s) (s_upd s) (s_thr s) (upd (s_com s) r x).

Definition goto (s : st V) (t : nat) (p : pc V) : st V :=
  set_thr s t (Thr p (t_todo (s_thr s t)) (t_done (s_thr s t))).

(** Blocking lock. *)
Definition acquire (s : st V) (k : lock) (o : owner) : option (st V) :=
  match s_lock s k with None => Some (set_lock s k (Some o)) | Some _ => None end.
(** [try_lock]: may also fail although the lock is free. *)
Definition try_lock (s : st V) (ch : choice V) (k : lock) (o : owner) : option (st V) :=
  if ch_fail ch then None else acquire s k o.
Definition release (s : st V) (k : lock) : st V := set_lock s k None.

(** Offset of a slot in the cache memory of the rank and global location. *)
Definition node_off (d i : nat) : nat := i + n * d.
Definition loc (r o : nat) : nat := r * (n * D) + o.

(** [addBlock]/[deleteBlock] of mpithreadcache.h, lines 564-577 and 588-603: local
    dictionary (under the mutex of the entry) or message to the home rank. *)
Definition thread_update (s : st V) (r : nat) (add : bool) (b e : nat) : option (st V) :=
  if cf_home c b =? r then
    match (if add then update_block_info (s_dict s b) e else delete_block_info (s_dict s b) e) with
    | Ok x => Some (set_dict s b x)
    | Ub => None
    end
  else Some (set_upd s (cf_home c b) ((add, b, e) :: s_upd s (cf_home c b))).

(** One step of thread [t]; [None]: not possible.  The comments name the lines
    of grid/level/cachedist.h unless another file is given. *)
Definition step_thr (s : st V) (t : nat) (ch : choice V) : option (st V) :=
  let r := cf_rank c t in
  let d := cf_dom c t in
  let me := Usr t in
  match t_todo (s_thr s t) with
  | [] => None
  | (b, cell) :: todo =>
    let own i := node_off d i in
    match t_pc (s_thr s t) with
    (* line 150; cachemanager.h line 121 *)
    | PIdle => option_map (fun s => goto s t PGetLocked) (acquire s (LCache r d) me)
    (* cachemanager.h lines 123-127 *)
    | PGetLocked =>
        match clist_request (s_list s r d) b with
        | Ok (l, i, old) => Some (goto (set_list s r d l) t (PGetSlot i old))
        | Ub => None
        end
    (* cachemanager.h line 130 *)
    | PGetSlot i old => option_map (fun s => goto s t (PGetBoth i old)) (acquire s (LSlot r (own i)) me)
    (* cachemanager.h line 131 *)
    | PGetBoth i old => Some (goto (release s (LCache r d)) t (PHave i old))
    (* line 154, and deleteBlock: mpino.h does nothing, the others return for
       a negative block id *)
    | PHave i old =>
        match old with
        | Some ob =>
            if ob =? b then Some (goto s t (PReady i))
            else match cf_mode c with
                 | MNo => Some (goto s t (PSearch i 0))
                 | _ => Some (goto s t (PDel i ob))
                 end
        | None => Some (goto s t (PSearch i 0))
        end
    (* lines 156-159; mpiwincache.h lines 474-530, mpithreadcache.h lines 588-603 *)
    | PDel i ob =>
        match cf_mode c with
        | MNo => None
        | MWin => option_map (fun s => goto s t (PDelHold i ob)) (acquire s (LDict ob) me)
        | MThread => option_map (fun s => goto s t (PSearch i 0)) (thread_update s r false ob (loc r (own i)))
        end
    (* mpiwincache.h lines 544-561 *)
    | PDelHold i ob =>
        match delete_block_info (s_dict s ob) (loc r (own i)) with
        | Ok x => Some (goto (set_dict s ob x) t (PDelRel i ob))
        | Ub => None
        end
    (* mpiwincache.h lines 563-571 *)
    | PDelRel i ob => Some (goto (release s (LDict ob)) t (PSearch i 0))
    (* numacache.h lines 117-120; cachemanager.h line 152 *)
    | PSearch i k =>
        if k <? D then
          if k =? d then Some (goto s t (PSearch i (S k)))
          else match try_lock s ch (LCache r k) me with
               | Some s' => Some (goto s' t (PTryLocked i k))
               | None => Some (goto s t (PSearch i (S k)))
               end
        else Some (goto s t (PStart i))
    (* cachemanager.h line 156 *)
    | PTryLocked i k =>
        match clist_peek (s_list s r k) b with
        | Some j => Some (goto s t (PTryFound i k j))
        | None => Some (goto s t (PTryMiss i k))
        end
    (* cachemanager.h lines 157, 164 *)
    | PTryMiss i k => Some (goto (release s (LCache r k)) t (PSearch i (S k)))
    (* cachemanager.h line 163 *)
    | PTryFound i k j =>
        match try_lock s ch (LSlot r (node_off k j)) me with
        | Some s' => Some (goto s' t (PTryBoth i k j))
        | None => Some (goto s t (PTryMiss i k))
        end
    (* cachemanager.h line 167 *)
    | PTryBoth i k j => Some (goto (release s (LCache r k)) t (PCopy i k j 0))
    (* numacache.h line 124 *)
    | PCopy i k j x =>
        if x <? K then
          Some (goto (set_data s r (own i) (upd (s_data s r (own i)) x (s_data s r (node_off k j) x)))
                     t (PCopy i k j (S x)))
        else Some (goto s t (PCopyDone i k j))
    (* numacache.h line 125 *)
    | PCopyDone i k j => Some (goto (release s (LSlot r (node_off k j))) t (PAdd i))
    (* lines 163-166; mpiwincache.h lines 450-455 *)
    | PAdd i =>
        match cf_mode c with
        | MNo => Some (goto s t (PReady i))
        | MWin => option_map (fun s => goto s t (PAddHold i)) (acquire s (LDict b) me)
        | MThread => option_map (fun s => goto s t (PReady i)) (thread_update s r true b (loc r (own i)))
        end
    | PAddHold i =>
        match fetch_and_update (s_dict s b) (ch_rand ch) (loc r (own i)) with
        | Ok (_, x) => Some (goto (set_dict s b x) t (PAddRel i))
        | Ub => None
        end
    | PAddRel i => Some (goto (release s (LDict b)) t (PReady i))
    (* lines 181-184; mpiwincache.h lines 246-314, mpithreadcache.h lines 458-477 *)
    | PStart i =>
        match cf_mode c with
        | MNo => Some (goto s t (PFill i))
        | MWin => option_map (fun s => goto s t (PStartHold i)) (acquire s (LDict b) me)
        | MThread =>
            if cf_home c b =? r then
              match fetch_block_info (s_dict s b) (ch_rand ch) with
              | Ok (Some e, _) => Some (goto s t (PAskBlk i (e / (n * D))))
              | Ok (None, _) => Some (goto s t (PFill i))
              | Ub => None
              end
            else option_map (fun s => goto s t (PAskInfo i)) (acquire s (LInfo r) me)
        end
    (* mpiwincache.h lines 316-343 *)
    | PStartHold i =>
        match fetch_and_update (s_dict s b) (ch_rand ch) (loc r (own i)) with
        | Ok (Some e, x) => Some (goto (set_dict s b x) t (PXfer i e 0))
        | Ok (None, x) => Some (goto (set_dict s b x) t (PFill i))
        | Ub => None
        end
    (* mpiwincache.h lines 363-402 *)
    | PXfer i e x =>
        if x <? K then
          Some (goto (set_data s r (own i) (upd (s_data s r (own i)) x
                        (s_data s (e / (n * D)) (e mod (n * D)) x)))
                     t (PXfer i e (S x)))
        else Some (goto s t (PEnd i))
    (* mpithreadcache.h line 469 *)
    | PAskInfo i =>
        Some (goto (set_ireq s r (cf_home c b) (s_ireq s r (cf_home c b) ++ [b])) t (PWaitInfo i))
    (* mpithreadcache.h lines 471-477, 491-496 *)
    | PWaitInfo i =>
        match s_irep s r (cf_home c b) with
        | [] => None
        | (_, x) :: q =>
            let s' := release (set_irep s r (cf_home c b) q) (LInfo r) in
            match x with
            | Some e => Some (goto s' t (PAskBlk i (e / (n * D))))
            | None => Some (goto s' t (PFill i))
            end
        end
    (* mpithreadcache.h line 500 *)
    | PAskBlk i dst => option_map (fun s => goto s t (PSendBlk i dst)) (acquire s (LBlk r) me)
    (* mpithreadcache.h line 503 *)
    | PSendBlk i dst => Some (goto (set_breq s r dst (s_breq s r dst ++ [b])) t (PWaitBlk i dst))
    (* mpithreadcache.h lines 505-539: success, or retry *)
    | PWaitBlk i dst =>
        match s_brep s r dst with
        | [] => None
        | (_, x) :: q =>
            let s' := release (set_brep s r dst q) (LBlk r) in
            match x with
            | Some buf => Some (goto (set_data s' r (own i) buf) t (PEnd i))
            | None => Some (goto s' t (PStart i))
            end
        end
    (* line 194; cache.h lines 157-171 *)
    | PFill i => Some (goto (set_data s r (own i) (ch_junk ch)) t (PFilling i))
    | PFilling i => Some (goto (set_data s r (own i) (fun x => Some (cf_file c b x))) t (PEnd i))
    (* lines 197-200 *)
    | PEnd i =>
        match cf_mode c with
        | MNo => Some (goto s t (PReady i))
        | MWin => Some (goto (release s (LDict b)) t (PReady i))
        | MThread => option_map (fun s => goto s t (PReady i)) (thread_update s r true b (loc r (own i)))
        end
    (* lines 205-210 *)
    | PReady i => Some (goto s t (PRelease i (s_data s r (own i) cell)))
    (* line 213 *)
    | PRelease i v =>
        Some (set_thr (release s (LSlot r (own i))) t
                (Thr PIdle todo (t_done (s_thr s t) ++ [(b, cell, v)])))
    end
  end.

(** One step of the communication thread of rank [r], commthread.h lines 280-315
    and the receivers of mpithreadcache.h. *)
Definition step_com (s : st V) (r : nat) (ch : choice V) : option (st V) :=
  let me := Com r in
  match s_com s r with
  | CIdle =>
      match ch_kind ch with
      | 0 => (* BlockInfoResponder, lines 94-113 *)
          let src := ch_src ch in
          match s_ireq s src r with
          | [] => None
          | b :: q =>
              match fetch_block_info (s_dict s b) (ch_rand ch) with
              | Ok (x, _) => Some (set_irep (set_ireq s src r q) src r (s_irep s src r ++ [(b, x)]))
              | Ub => None
              end
          end
      | 1 => (* BlockTransferer *)
          let src := ch_src ch in
          match s_breq s src r with
          | [] => None
          | b :: q => Some (set_com (set_breq s src r q) r (CTry src b 0))
          end
      | _ => (* Adder and Deleter, lines 210-219 and 243-252; the network may
                deliver messages of different senders in any order *)
          match nth_error (s_upd s r) (ch_src ch) with
          | None => None
          | Some (add, b, e) =>
              match (if add then update_block_info (s_dict s b) e else delete_block_info (s_dict s b) e) with
              | Ok x => Some (set_dict (set_upd s r (firstn (ch_src ch) (s_upd s r) ++ skipn (S (ch_src ch)) (s_upd s r))) b x)
              | Ub => None
              end
          end
      end
  (* BlockTransferer::recv, lines 146-151; tryGet as above *)
  | CTry src b k =>
      if k <? D then
        match try_lock s ch (LCache r k) me with
        | Some s' => Some (set_com s' r (CTryLocked src b k))
        | None => Some (set_com s r (CTry src b (S k)))
        end
      else (* lines 171-182 *)
        Some (set_com (set_brep s src r (s_brep s src r ++ [(b, None)])) r CIdle)
  | CTryLocked src b k =>
      match clist_peek (s_list s r k) b with
      | Some j => Some (set_com s r (CTryFound src b k j))
      | None => Some (set_com s r (CTryMiss src b k))
      end
  | CTryMiss src b k => Some (set_com (release s (LCache r k)) r (CTry src b (S k)))
  | CTryFound src b k j =>
      match try_lock s ch (LSlot r (node_off k j)) me with
      | Some s' => Some (set_com s' r (CTryBoth src b k j))
      | None => Some (set_com s r (CTryMiss src b k))
      end
  | CTryBoth src b k j => Some (set_com (release s (LCache r k)) r (CSend src b k j 0 (fun _ => None)))
  (* lines 153-167 *)
  | CSend src b k j x buf =>
      if x <? K then Some (set_com s r (CSend src b k j (S x) (upd buf x (s_data s r (node_off k j) x))))
      else Some (set_com (set_brep s src r (s_brep s src r ++ [(b, Some buf)])) r (CSendDone k j))
  (* line 169 *)
  | CSendDone k j => Some (set_com (release s (LSlot r (node_off k j))) r CIdle)
  end.

(** A scheduled step.  Communication threads exist only with [MThread]. *)
Inductive act := AThr (t : nat) (ch : choice V) | ACom (r : nat) (ch : choice V).

Definition step (s : st V) (a : act) : option (st V) :=
  match a with
  | AThr t ch => step_thr s t ch
  | ACom r ch =>
      match cf_mode c with
      | MThread => if r <? cf_ranks c then step_com s r ch else None
      | _ => None
      end
  end.

Fixpoint run (s : st V) (acts : list act) : option (st V) :=
  match acts with
  | [] => Some s
  | a :: acts' => match step s a with Some s' => run s' acts' | None => None end
  end.

(** After [open] on all ranks. *)
Definition init (l0 : clist) : st V :=
  St (fun _ => None) (fun _ _ => l0) (fun _ _ _ => None)
     (fun b => map Some (cf_dict c b) ++ repeat None (dict_size - length (cf_dict c b)))
     (fun _ _ => []) (fun _ _ => []) (fun _ _ => []) (fun _ _ => []) (fun _ => [])
     (fun t => Thr PIdle (cf_prog c t) []) (fun _ => CIdle).

End Step.
