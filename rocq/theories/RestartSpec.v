(** * Specification: what processes may expect of the communication thread

    From what the processes have seen only (the last first). *)
From Verif Require Import RestartModel.

(** A process has a communication thread if a start succeeded after its last stop. *)
Fixpoint running (r : nat) (tr : list ev) : bool :=
  match tr with
  | [] => false
  | EvStart r' ESuccess :: tr' => (r =? r') || running r tr'
  | EvStop r' :: tr' => negb (r =? r') && running r tr'
  | _ :: tr' => running r tr'
  end%bool.

(** The tags in use at a process: given out and not given back since the last stop. *)
Fixpoint in_use (r : nat) (tr : list ev) (t : nat) : Prop :=
  match tr with
  | [] => False
  | EvReg r' t' :: tr' => (r = r' /\ t = t') \/ in_use r tr' t
  | EvUnreg r' t' :: tr' => ~ (r = r' /\ t = t') /\ in_use r tr' t
  | EvStop r' :: tr' => r <> r' /\ in_use r tr' t
  | _ :: tr' => in_use r tr' t
  end.

(** How often a process started its thread, and how often it registered a receiver. *)
Definition is_start (r : nat) (e : ev) : bool := match e with EvStart r' ESuccess => r =? r' | _ => false end.
Definition is_reg (r : nat) (e : ev) : bool := match e with EvReg r' _ => r =? r' | _ => false end.
Definition starts (r : nat) (tr : list ev) : nat := length (filter (is_start r) tr).
Definition regs (r : nat) (tr : list ev) : nat := length (filter (is_reg r) tr).

(** The processes of a communicator are different, and the calls that fail, if any, are the reductions (lines 137 and 229)
    and the duplication (line 145), at any of the processes. *)
Definition mild (o : op) : Prop :=
  match o with
  | Start l f => NoDup l /\ forall r, In r l -> f r = FNone \/ f r = FReduce \/ f r = FDup
  | Register l _ => NoDup l
  | _ => True
  end.

(** What a start should report: [busy], a process of the communicator has a thread. *)
Definition report (busy : bool) (f : failing) : err :=
  match f, busy with
  | FReduce, _ => EMpi
  | _, true => EAlready
  | FDup, false => EMpi
  | FGroup, false | FRank, false => EMpi
  | FCreate, false => EThread
  | FNone, false => ESuccess
  end.
