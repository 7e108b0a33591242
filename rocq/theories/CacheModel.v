(** * Cache bookkeeping: cache/lru.h, cache/cachelist.h *)
From Verif Require Export Base.

(** ** Two-handed clock, cache/lru.h *)

(** Members of [LRU], lines 48-60.  [l_ref] is the array [m_referenced]; cells
    which were not yet written are [None]. *)
Record lru := Lru {
  l_size : nat;             (* m_size *)
  l_page : nat;             (* m_nextPage *)
  l_clear : nat;            (* m_nextClear *)
  l_ref : mem bool          (* m_referenced *)
}.

(** [m_referenced[i] = false] for [i < n], lines 88-90. *)
Fixpoint lru_clear_first (n : nat) (m : mem bool) : outcome (mem bool) :=
  match n with
  | 0 => Ok m
  | S n' => do m' <- lru_clear_first n' m; mem_wr m' n' (Some false)
  end.

(** [LRU::init], lines 77-91.  For [size = 0] the member [m_nextPage] wraps
    around; the model stores 0, any later use is undefined anyway. *)
Definition lru_init (size : nat) (handDiff : Z) : outcome lru :=
  let c := if (handDiff <? 0)%Z then size / 2 else Z.to_nat handDiff in
  do m <- lru_clear_first c (mem_new bool size);
  Ok (Lru size (size - 1) c m).

(** [LRU::access], lines 96-99. *)
Definition lru_access (l : lru) (i : nat) : outcome lru :=
  do m <- mem_wr (l_ref l) i (Some true);
  Ok (Lru (l_size l) (l_page l) (l_clear l) m).

(** One iteration of the loop in [getFree], lines 107-112: the new state and the
    loop condition.  Reading a flag which was never written is undefined. *)
Definition lru_iter (l : lru) : outcome (lru * bool) :=
  do m <- mem_wr (l_ref l) (l_clear l) (Some false);
  if l_size l =? 0 then Ub else
  let p := (l_page l + 1) mod l_size l in
  let c := (l_clear l + 1) mod l_size l in
  do r <- mem_rd m p;
  match r with
  | None => Ub
  | Some b => Ok (Lru (l_size l) p c m, b)
  end.

(** The do-while loop with fuel; [None]: fuel exhausted. *)
Fixpoint lru_loop (fuel : nat) (l : lru) : option (outcome lru) :=
  match fuel with
  | 0 => None
  | S fuel' =>
      match lru_iter l with
      | Ub => Some Ub
      | Ok (l', true) => lru_loop fuel' l'
      | Ok (l', false) => Some (Ok l')
      end
  end.

(** [LRU::getFree], lines 104-119.  The fuel is the number of slots; running out
    of it counts as undefined behaviour (and is proved impossible). *)
Definition lru_get_free (l : lru) : outcome (lru * nat) :=
  match lru_loop (l_size l) l with
  | None => Ub
  | Some r =>
      do l' <- r;
      do l'' <- lru_access l' (l_page l');
      Ok (l'', l_page l')
  end.

(** ** Block list, cache/cachelist.h *)

(** Members of [CacheList], lines 57-70.  [-1] in [m_indexToBlock] is [None]. *)
Record clist := CList {
  c_lru : lru;
  c_i2b : mem (option nat);       (* m_indexToBlock *)
  c_b2i : nat -> option nat       (* m_blockToIndex *)
}.

(** [CacheList::init], lines 87-94. *)
Definition clist_init (size : nat) (handDiff : Z) : outcome clist :=
  do l <- lru_init size handDiff;
  Ok (CList l (Mem size (fun _ => Some None)) (fun _ => None)).

(** [getIndex(block, index, access = true)], lines 103-116. *)
Definition clist_get_index (c : clist) (block : nat) : outcome (clist * option nat) :=
  match c_b2i c block with
  | None => Ok (c, None)
  | Some i =>
      do l <- lru_access (c_lru c) i;
      Ok (CList l (c_i2b c) (c_b2i c), Some i)
  end.

(** [getIndex(block, index, access = false)], lines 103-116. *)
Definition clist_peek (c : clist) (block : nat) : option nat := c_b2i c block.

(** [getFreeIndex], lines 123-139; the result is (index, old block). *)
Definition clist_get_free (c : clist) (block : nat) : outcome (clist * nat * option nat) :=
  do li <- lru_get_free (c_lru c);
  let '(l, i) := li in
  do o <- mem_rd (c_i2b c) i;
  match o with
  | None => Ub
  | Some old =>
      let b2i := match old with
                 | Some ob => fun b => if b =? ob then None else c_b2i c b
                 | None => c_b2i c
                 end in
      do i2b <- mem_wr (c_i2b c) i (Some (Some block));
      Ok (CList l i2b (fun b => if b =? block then Some i else b2i b), i, old)
  end.

(** The list part of [CacheManager::get], cache/cachemanager.h lines 123-127:
    (new state, slot, block found in that slot). *)
Definition clist_request (c : clist) (block : nat) : outcome (clist * nat * option nat) :=
  do r <- clist_get_index c block;
  match r with
  | (c', Some i) => Ok (c', i, Some block)
  | (c', None) => clist_get_free c' block
  end.

(** A history of requests with the outputs (slot, block found there). *)
Fixpoint clist_trace (c : clist) (bs : list nat) : outcome (clist * list (nat * option nat)) :=
  match bs with
  | [] => Ok (c, [])
  | b :: bs' =>
      do r <- clist_request c b;
      let '(c', i, old) := r in
      do r' <- clist_trace c' bs';
      let '(c'', outs) := r' in Ok (c'', (i, old) :: outs)
  end.
