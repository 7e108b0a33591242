(** * How often blocks are loaded from the file by simultaneous readers

    Counted along the executions of ConcModel.v. *)
From Verif Require Export ConcInv5.

Section Spec.
Context {V : Type} (c : cfg V).

(** This step starts [loadBlock] for block [b] (grid/level/cachedist.h line 194,
    grid/level/cache.h line 150), by a thread in the set [who]. *)
Definition starts_load (who : nat -> bool) (b : nat) (s : st V) (a : @act V) : bool :=
  match a with
  | AThr t _ =>
      match t_pc (s_thr s t), t_todo (s_thr s t) with
      | PFill _, (b', _) :: _ => (who t && (b' =? b))%bool
      | _, _ => false
      end
  | ACom _ _ => false
  end.

(** Number of such steps in an execution. *)
Fixpoint loads (who : nat -> bool) (b : nat) (s : st V) (acts : list (@act V)) : nat :=
  match acts with
  | [] => 0
  | a :: acts' =>
      (if starts_load who b s a then 1 else 0) +
      match step c s a with Some s' => loads who b s' acts' | None => 0 end
  end.

Definition everybody (t : nat) : bool := true.
(** The threads of domain [d] on rank [r]. *)
Definition of_cache (r d t : nat) : bool := ((cf_rank c t =? r) && (cf_dom c t =? d))%bool.

(** Thread [t] is loading block [b]. *)
Definition loading (s : st V) (t b : nat) : Prop :=
  exists i cell todo, t_todo (s_thr s t) = (b, cell) :: todo /\
    (t_pc (s_thr s t) = PFill i \/ t_pc (s_thr s t) = PFilling i).

(** Every cache has room for all blocks its threads ask for. *)
Definition roomy : Prop :=
  forall r d, exists L, length L <= cf_size c /\
    forall t b cell, cf_rank c t = r -> cf_dom c t = d -> In (b, cell) (cf_prog c t) -> In b L.
End Spec.
