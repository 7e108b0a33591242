(** * Registration with any number of calling threads: numa/numa.cpp lines 75-154, numa/numa.h lines 108-125

    [setThreads(T)] sets the number of threads, without any test; [N] threads call
    [registerThread] (through [Grid::open]).  [NumaModel] is about [N = T]; here both are
    arbitrary.  As there: sequentially consistent memory, pthread functions do not fail, the
    code between two waits is one or two steps, no spurious wake-ups. *)
From Verif Require Export NumaModel.
Require Import ZArith.

(** A calling thread: before the test of [m_initialized] (line 77, without lock), after it, and
    returned, with the ids which [threadId()] and [domainId()] give from then on and the master
    flag. *)
Inductive gpc := GNew | GSync | GRet (r : nreg).

Record gst := GSt {
  g_sync : yst unit;               (* m_syncThreads, lines 97-143 *)
  g_numa : nst;                    (* m_masterThreads, m_domains, m_initialized *)
  g_reg : nat -> option nreg;      (* local variables threadId, domainId, masterThread *)
  g_pc : nat -> gpc
}.

(** [m_totalThreads-1], an unsigned int, line 134. *)
Definition before_last (T : nat) : Z := ((Z.of_nat T - 1) mod 2 ^ 32)%Z.

(** Lines 100-135, as [nregister] but with the comparison of line 134 for every [T]. *)
Definition gregister (T : nat) (detect : bool) (s : nst) (waiting node : nat) : nst * nreg :=
  let '(n', r) := nregister T detect s waiting node in
  (NSt (n_masters n') (n_domains n')
       (if (before_last T <=? Z.of_nat waiting)%Z then true else n_ready s), r).

(** The barrier which the registration is part of. *)
Definition g_cfg (T : nat) : ycfg unit := YCfg T 1 (fun _ => None) (fun _ _ => tt) false.

Section Callers.
Variables (T N : nat) (detect : bool) (node : nat -> nat).

Definition gstep (s : gst) (t : nat) : option (outcome gst) :=
  if t <? N then
    match g_pc s t with
    | GNew =>
        if n_ready (g_numa s) then
          (* lines 78-79; nothing has been stored for the thread: [pthread_getspecific] returns NULL,
             both ids are 0 *)
          match nagain (g_numa s) 0 with
          | Some m => Some (Ok (GSt (g_sync s) (g_numa s) (g_reg s) (upd (g_pc s) t (GRet (NReg 0 0 m)))))
          | None => Some Ub        (* m_masterThreads is empty *)
          end
        else Some (Ok (GSt (g_sync s) (g_numa s) (g_reg s) (upd (g_pc s) t GSync)))
    | GSync =>
        match ystep_thr (g_cfg T) (g_sync s) t with
        | Some (Ok y') =>
            match y_pc (y_thr (g_sync s) t) with
            | YIn => (* lines 100-135 *)
                let '(n', r) := gregister T detect (g_numa s) (y_synced (g_sync s)) (node t) in
                Some (Ok (GSt y' n' (upd (g_reg s) t (Some r)) (g_pc s)))
            | YEnd => (* lines 140-153 *)
                match g_reg s t with
                | Some r => Some (Ok (GSt y' (g_numa s) (g_reg s) (upd (g_pc s) t (GRet r))))
                | None => Some Ub
                end
            | _ => Some (Ok (GSt y' (g_numa s) (g_reg s) (g_pc s)))
            end
        | Some Ub => Some Ub
        | None => None
        end
    | GRet _ => None
    end
  else None.

Fixpoint grun (s : gst) (l : list nat) : option (outcome gst) :=
  match l with
  | [] => Some (Ok s)
  | t :: l' => match gstep s t with
               | Some (Ok s') => grun s' l'
               | x => x
               end
  end.

Definition ginit : gst := GSt (yinit (g_cfg T)) ninit (fun _ => None) (fun _ => GNew).
End Callers.
