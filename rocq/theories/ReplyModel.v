(** * Requests to communication threads and their replies
      (transfer/mpithreadfull.h, transfer/mpithreadcache.h)

    The threads of one process send requests to the communication threads of other processes and
    wait for the replies, which are sent in the communicator of the grid.  Replies to
    other processes have another destination and do not matter.

    Simplifications: receivers are registered everywhere (C45); message contents are reduced to the number of the
    request (the contents are in the cache models); a reply is sent in one step; messages of a pair of
    processes do not overtake each other, i.e. a receive gets the oldest message that matches. *)
From Coq Require Export Bool.
From Verif Require Export Base.

(** The three request-reply exchanges: MPIThreadFull::transfer (lines 168-177), MPIThreadCache::startTransfer
    (lines 458-477) and MPIThreadCache::transfer (lines 489-539). *)
Inductive rkind := RFull | RInfo | RBlock.

(** A request: level of the grid, kind, process it is sent to. *)
Record rq := Rq { rq_level : nat; rq_kind : rkind; rq_to : nat }.

Definition rkind_eqb (a b : rkind) : bool :=
  match a, b with RFull, RFull | RInfo, RInfo | RBlock, RBlock => true | _, _ => false end.

(** Tags: of the reply (success or not, only blocks may fail), and those the thread waits for. *)
Record rtags := RTags { rt_send : nat -> rkind -> bool -> nat; rt_recv : nat -> rkind -> list nat }.

(** mpithreadcache.h, lines 650-656, ENTRY_TAG, TRANSFER_TAG, TRANSFER_FAIL_TAG. *)
Definition ENTRY_TAG := 0.
Definition TRANSFER_TAG := 1.
Definition TRANSFER_FAIL_TAG := 2.
(** reserveTags(3) in mpicomm.h 159-164: the n-th level that is opened (counted from 0) gets 3n. *)
Definition tag_offset (level : nat) : nat := 3 * level.

(** The code: mpithreadfull.h lines 178 and 188 (tag 0); mpithreadcache.h line 103 (send), 472 (receive without
    offset), 159 and 175 (send), 510-533 (receive). *)
Definition code_tags : rtags := RTags
  (fun level k ok =>
     match k with
     | RFull => 0
     | RInfo => tag_offset level + ENTRY_TAG
     | RBlock => tag_offset level + (if ok then TRANSFER_TAG else TRANSFER_FAIL_TAG)
     end)
  (fun level k =>
     match k with
     | RFull => [0]
     | RInfo => [ENTRY_TAG]
     | RBlock => [tag_offset level + TRANSFER_TAG; tag_offset level + TRANSFER_FAIL_TAG]
     end).

(** A thread: the requests still to be made, whether the first of them is sent and waits for its reply, number of
    requests done, and for each of them the (thread, number) of the request whose reply it got. *)
Record rthr := RThr { r_todo : list rq; r_wait : bool; r_done : nat; r_got : list (nat * nat) }.

(** The system: threads, owner of the mutex of a level and kind (m_sendRecvMutex, m_infoMutex, m_blockMutex), requests
    under way to a process, replies under way from a process (oldest first). *)
Record rst := RSt {
  rs_thr : nat -> rthr;
  rs_mutex : nat -> rkind -> option nat;
  rs_req : nat -> list (rq * (nat * nat));
  rs_rep : nat -> list (nat * (nat * nat))
}.

Definition rinit (prog : nat -> list rq) : rst :=
  RSt (fun t => RThr (prog t) false 0 []) (fun _ _ => None) (fun _ => []) (fun _ => []).

Inductive ract :=
| RCall (t : nat)             (* lock the mutex and send the request *)
| RServe (q : nat) (ok : bool) (* the communication thread of q answers its oldest request *)
| RReturn (t : nat).          (* receive a reply and unlock *)

(** MPI_Recv from a given process: the oldest message with one of the tags. *)
Fixpoint take_tag (tags : list nat) (l : list (nat * (nat * nat))) : option ((nat * nat) * list (nat * (nat * nat))) :=
  match l with
  | [] => None
  | (tag, id) :: l' =>
      if existsb (Nat.eqb tag) tags then Some (id, l')
      else match take_tag tags l' with Some (id', l'') => Some (id', (tag, id) :: l'') | None => None end
  end.

Definition set_mutex (m : nat -> rkind -> option nat) (l : nat) (k : rkind) (o : option nat) : nat -> rkind -> option nat :=
  fun l' k' => if (l' =? l) && rkind_eqb k' k then o else m l' k'.

Section Reply.
Variable tg : rtags.

Definition rstep (s : rst) (a : ract) : option rst :=
  match a with
  | RCall t =>
      let x := rs_thr s t in
      match r_todo x, r_wait x with
      | r :: _, false =>
          match rs_mutex s (rq_level r) (rq_kind r) with
          | Some _ => None
          | None =>
              Some (RSt (upd (rs_thr s) t (RThr (r_todo x) true (r_done x) (r_got x)))
                        (set_mutex (rs_mutex s) (rq_level r) (rq_kind r) (Some t))
                        (upd (rs_req s) (rq_to r) (rs_req s (rq_to r) ++ [(r, (t, r_done x))]))
                        (rs_rep s))
          end
      | _, _ => None
      end
  | RServe q ok =>
      match rs_req s q with
      | [] => None
      | (r, id) :: rest =>
          Some (RSt (rs_thr s) (rs_mutex s) (upd (rs_req s) q rest)
                    (upd (rs_rep s) q (rs_rep s q ++ [(rt_send tg (rq_level r) (rq_kind r) ok, id)])))
      end
  | RReturn t =>
      let x := rs_thr s t in
      match r_todo x, r_wait x with
      | r :: todo, true =>
          match take_tag (rt_recv tg (rq_level r) (rq_kind r)) (rs_rep s (rq_to r)) with
          | None => None
          | Some (id, rest) =>
              Some (RSt (upd (rs_thr s) t (RThr todo false (S (r_done x)) (r_got x ++ [id])))
                        (set_mutex (rs_mutex s) (rq_level r) (rq_kind r) None)
                        (rs_req s) (upd (rs_rep s) (rq_to r) rest))
          end
      | _, _ => None
      end
  end.

Fixpoint rrun (s : rst) (l : list ract) : option rst :=
  match l with
  | [] => Some s
  | a :: l' => match rstep s a with Some s' => rrun s' l' | None => None end
  end.
End Reply.

(** The code with the tag offset in all places. *)
Definition repaired_tags : rtags := RTags
  (fun level k ok =>
     tag_offset level + match k with RFull => 0 | RInfo => ENTRY_TAG | RBlock => if ok then TRANSFER_TAG else TRANSFER_FAIL_TAG end)
  (fun level k =>
     match k with
     | RFull => [tag_offset level]
     | RInfo => [tag_offset level + ENTRY_TAG]
     | RBlock => [tag_offset level + TRANSFER_TAG; tag_offset level + TRANSFER_FAIL_TAG]
     end).
