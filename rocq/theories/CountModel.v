(** * Performance counters used by several threads (perf/counter.h, perf/counter.cpp)

    One [perf::Counter] object of a level, used by any number of threads of the
    process.  The rest of [getAt] is left out: a read is the increments it
    executes, a query is the loads of [Counter::get].  Loads and stores of one
    counter are single steps; in C++ the unlocked ones are data races, the model
    gives them the behaviour of a machine with atomic word accesses (the
    "inaccurate" counters of documentation/user/02_usage.h lines 317-318).  The
    counters are unbounded here and wrapped when reported ([counter_get] of
    LevelsModel.v): [unsigned long] additions wrap, so the reported values are
    the same. *)
From Coq Require Import List Arith.
From Verif Require Import LevelsModel.
Import ListNotations.

(** Native counters, perf/counter.h lines 74-83. *)
Inductive native := NAccess | NNuma | NMpi | NFile.

Definition native_eqb (a b : native) : bool :=
  match a, b with
  | NAccess, NAccess | NNuma, NNuma | NMpi, NMpi | NFile, NFile => true
  | _, _ => false
  end.

(** How a read is answered: without transfer, by a NUMA transfer, by an MPI
    transfer or by a file access. *)
Inductive answer := AHit | ANuma | AMpi | AFile.

(** What a thread does with the counter: a read or [Counter::get]. *)
Inductive op := Read (a : answer) | Query (c : counter_type).

(** Steps on the counter: [Counter::inc] and [Counter::get]. *)
Inductive mop := MInc (n : native) | MGet (c : counter_type).

(** The increments of one [getAt], in program order: [ACCESS] first
    (grid/level/cachedist.h line 137, fulldist.h line 166, full.h line 139,
    cache.h line 122, passthrough.h line 107), then the counter of the transfer
    (cachedist.h lines 161, 188, fulldist.h lines 179, 181, cache.h line 159,
    passthrough.h line 108). *)
Definition mops (o : op) : list mop :=
  match o with
  | Read AHit => [MInc NAccess]
  | Read ANuma => [MInc NAccess; MInc NNuma]
  | Read AMpi => [MInc NAccess; MInc NMpi]
  | Read AFile => [MInc NAccess; MInc NFile]
  | Query c => [MGet c]
  end.

(** The counters a query loads, perf/counter.cpp lines 58-75. *)
Definition needed (c : counter_type) : list native :=
  match c with
  | CAccess => [NAccess]
  | CNuma => [NNuma]
  | CMpi => [NMpi]
  | CFile => [NFile]
  | CHit => [NAccess; NNuma; NMpi; NFile]
  | CNodeHit => [NAccess; NMpi; NFile]
  | CMiss => [NNuma; NMpi; NFile]
  | CInvalid => []
  end.

(** Inside of [inc] (perf/counter.h lines 125-135): the mutex of the counter is
    held ([CHeld]), the old value is loaded ([CLoaded]), the new one is stored
    and the mutex not yet released ([CStored]).  Inside of [get]: the loaded
    counters ([CGet]). *)
Inductive pc :=
| CIdle
| CHeld (n : native)
| CLoaded (n : native) (v : nat)
| CStored (n : native)
| CGet (c : counter_type) (l : list (native * nat)).

(** A thread: program counter, steps left, increments stored so far, values
    returned by its queries (newest first). *)
Record thread := Thr { t_pc : pc; t_ops : list mop; t_log : list native;
                       t_got : list (counter_type * BinNums.Z) }.

(** [m_counter] (perf/counter.h line 117), [m_mutex] (line 69), the threads. *)
Record st := St { s_val : native -> nat; s_lock : native -> option nat; s_thr : nat -> thread }.

Definition updn {A} (f : native -> A) (n : native) (a : A) : native -> A :=
  fun m => if native_eqb m n then a else f m.
Definition updt (f : nat -> thread) (t : nat) (a : thread) : nat -> thread :=
  fun u => if Nat.eqb u t then a else f u.

Definition loaded (l : list (native * nat)) (n : native) : bool :=
  existsb (fun p => native_eqb (fst p) n) l.
Fixpoint load_of (l : list (native * nat)) (n : native) : nat :=
  match l with
  | [] => 0
  | (m, v) :: l' => if native_eqb m n then v else load_of l' n
  end.
Definition as_counters (f : native -> nat) : counters :=
  Counters (f NAccess) (f NNuma) (f NMpi) (f NFile).

(** [ts]: compiled with THREADSAFE_COUNTER (CMakeLists.txt lines 51, 146-148;
    off by default).  One step of thread [t]; [ch] is the counter a query loads
    next (C++ does not fix the order of the operands of [-] and [+]). *)
Definition step (ts : bool) (s : st) (t : nat) (ch : native) : option st :=
  let th := s_thr s t in
  let go v l th' := Some (St v l (updt (s_thr s) t th')) in
  match t_pc th with
  | CIdle =>
      match t_ops th with
      | [] => None
      | MInc n :: _ =>
          (* counter.h lines 130-132 *)
          if ts then
            match s_lock s n with
            | None => go (s_val s) (updn (s_lock s) n (Some t))
                         (Thr (CHeld n) (t_ops th) (t_log th) (t_got th))
            | Some _ => None
            end
          else go (s_val s) (s_lock s) (Thr (CLoaded n (s_val s n)) (t_ops th) (t_log th) (t_got th))
      | MGet c :: _ =>
          (* counter.cpp line 58: no mutex, whatever the build *)
          go (s_val s) (s_lock s) (Thr (CGet c []) (t_ops th) (t_log th) (t_got th))
      end
  | CHeld n =>
      go (s_val s) (s_lock s) (Thr (CLoaded n (s_val s n)) (t_ops th) (t_log th) (t_got th))
  | CLoaded n v =>
      (* counter.h line 134 *)
      go (updn (s_val s) n (S v)) (s_lock s)
         (Thr (if ts then CStored n else CIdle) (tl (t_ops th)) (n :: t_log th) (t_got th))
  | CStored n =>
      go (s_val s) (updn (s_lock s) n None) (Thr CIdle (t_ops th) (t_log th) (t_got th))
  | CGet c l =>
      if forallb (loaded l) (needed c) then
        go (s_val s) (s_lock s)
           (Thr CIdle (tl (t_ops th)) (t_log th)
                ((c, counter_get (as_counters (load_of l)) c) :: t_got th))
      else if existsb (native_eqb ch) (needed c) && negb (loaded l ch) then
        go (s_val s) (s_lock s)
           (Thr (CGet c ((ch, s_val s ch) :: l)) (t_ops th) (t_log th) (t_got th))
      else None
  end.

Fixpoint run (ts : bool) (s : st) (sch : list (nat * native)) : option st :=
  match sch with
  | [] => Some s
  | (t, ch) :: sch' =>
      match step ts s t ch with
      | Some s' => run ts s' sch'
      | None => None
      end
  end.

(** [Counter::Counter], perf/counter.cpp lines 45-48; thread [t] runs [prog t]. *)
Definition init (prog : nat -> list op) : st :=
  St (fun _ => 0) (fun _ => None) (fun t => Thr CIdle (flat_map mops (prog t)) [] []).
