(** * Order of the messages to the communication thread

    ConcModel.v lets the additions and deletions of dictionary entries
    ([MPIThreadCache::addBlock], [deleteBlock], transfer/mpithreadcache.h lines 564-603) arrive in
    any order.  MPI does not let two messages overtake each other if one was sent before the other.
    The messages about one location (slot of a domain) are sent by threads which hold the mutex of
    the slot; here they arrive in the order in which they were sent.  Other messages may overtake
    each other. *)
From Verif Require Export ConcModel.

Section Order.
Context {V : Type} (c : cfg V).

(** The step does not let a message overtake an older one about the same location; [s_upd] starts with
    the youngest message. *)
Definition in_order (s : st V) (a : act (V := V)) : bool :=
  match a with
  | AThr _ _ => true
  | ACom r ch =>
      match s_com s r, ch_kind ch with
      | CIdle, S (S _) =>
          match nth_error (s_upd s r) (ch_src ch) with
          | Some m => forallb (fun m' => negb (snd m' =? snd m)) (skipn (S (ch_src ch)) (s_upd s r))
          | None => true
          end
      | _, _ => true
      end
  end.

Definition ordered_step (s : st V) (a : act (V := V)) : option (st V) :=
  if in_order s a then step c s a else None.
Fixpoint ordered_run (s : st V) (acts : list (act (V := V))) : option (st V) :=
  match acts with
  | [] => Some s
  | a :: acts' => match ordered_step s a with Some s' => ordered_run s' acts' | None => None end
  end.

(** The same if no message overtakes another one at all. *)
Definition oldest_first (s : st V) (a : act (V := V)) : bool :=
  match a with
  | AThr _ _ => true
  | ACom r ch =>
      match s_com s r, ch_kind ch with
      | CIdle, S (S _) => S (ch_src ch) =? length (s_upd s r)
      | _, _ => true
      end
  end.
Definition fifo_step (s : st V) (a : act (V := V)) : option (st V) :=
  if oldest_first s a then step c s a else None.
Fixpoint fifo_run (s : st V) (acts : list (act (V := V))) : option (st V) :=
  match acts with
  | [] => Some s
  | a :: acts' => match fifo_step s a with Some s' => fifo_run s' acts' | None => None end
  end.

End Order.
