(** * What the hand spread of the two-handed clock means *)
From Verif Require Export LruTrace.

(** The documented distance of the hands; a negative parameter selects half of the cache. *)
Definition spread_of (n : nat) (spread : Z) : nat := if (spread <? 0)%Z then n / 2 else Z.to_nat spread.

(** The requests of [bs] which were not answered from the cache. *)
Fixpoint misses (bs : list nat) (outs : list (nat * option nat)) : nat :=
  match bs, outs with
  | b :: bs', (_, old) :: outs' =>
      (match old with Some b' => if b' =? b then 0 else 1 | None => 1 end) + misses bs' outs'
  | _, _ => 0
  end.

(** First in, first out: [q] are the cached blocks, the last one loaded first.  For each request the block found in its
    place: itself, the one loaded first if the cache is full, none otherwise. *)
Fixpoint fifo (n : nat) (q bs : list nat) : list (option nat) :=
  match bs with
  | [] => []
  | b :: bs' =>
      if in_dec Nat.eq_dec b q then Some b :: fifo n q bs'
      else nth_error q (n - 1) :: fifo n (b :: firstn (n - 1) q) bs'
  end.
