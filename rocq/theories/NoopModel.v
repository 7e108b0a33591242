(** * Builds without thread safety

    Without THREADSAFE, threads/mutex.h lines 62-70 make [threads::Mutex] the
    class [NoopMutex] of threads/noopmutex.h lines 48-71: [lock()] and
    [unlock()] do nothing, and [try_lock()] returns false.  [unlocked] makes
    every [lock()] of the next step succeed at once, [refuse] makes every
    [try_lock()] fail.  Everything else is ConcModel.v. *)
From Verif Require Export ConcModel.

Section Noop.
Context {V : Type} (c : cfg V).

(** threads/noopmutex.h lines 54-56 and 69-71: no lock is ever held. *)
Definition unlocked (s : st V) : st V :=
  St (fun _ => None) (s_list s) (s_data s) (s_dict s) (s_ireq s) (s_irep s) (s_breq s) (s_brep s)
     (s_upd s) (s_thr s) (s_com s).

(** threads/noopmutex.h lines 61-64. *)
Definition refuse (ch : choice V) : choice V :=
  Choice true (ch_rand ch) (ch_junk ch) (ch_kind ch) (ch_src ch).

(** A step of a thread or communication thread in such a build. *)
Definition noop_step (s : st V) (a : act (V := V)) : option (st V) :=
  match a with
  | AThr t ch => step c (unlocked s) (AThr t (refuse ch))
  | ACom r ch => step c (unlocked s) (ACom r (refuse ch))
  end.

Fixpoint noop_run (s : st V) (acts : list (act (V := V))) : option (st V) :=
  match acts with
  | [] => Some s
  | a :: acts' => match noop_step s a with Some s' => noop_run s' acts' | None => None end
  end.

(** After some steps from the state after [open]. *)
Definition noop_reachable (s : st V) : Prop :=
  exists l0 acts, clist_init (cf_size c) (cf_spread c) = Ok l0 /\ noop_run (init c l0) acts = Some s.

End Noop.
