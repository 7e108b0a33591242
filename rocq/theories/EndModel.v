(** * From parameters, file and coordinates to the value a getter returns

    Puts the parts together: the parameter store and container selection
    ([ParamModel]), [Level::open] and [pos2index] ([CoordModel]), the block
    layout ([BlockedModel]), the level classes with several threads
    ([LevelsModel], [ConcModel], [FullConcModel]) and the conversion of the
    cell to the type of the getter ([TypesModel]). *)
From Coq Require Import List Arith Bool ZArith String DecimalString.
From Verif Require Import ConcModel ConcFacts FullConcModel FullConcFacts
  Base BlockedModel LevelsModel ParamModel TypesModel CoordModel.
Import ListNotations.
Local Open Scope string_scope.
Local Open Scope nat_scope.

(** ** A grid and the program's environment *)
(** The calls of [setParam] (before the first [open]), the build, the number of
    processes in the communicator and of NUMA domains per process which the
    threads are found on, the process and the domain of each thread, the block
    distribution (macro ROUND_ROBIN), the grid's type object (with the size that
    [check] has stored), the level number, and the opened file: one axis per
    dimension of the variable, and the bytes of each cell. *)
Record session (A : arith) := Session {
  n_build : build;
  n_calls : list set_call;
  n_ranks : nat;
  n_domains : nat;
  n_threads : nat;
  n_rk : nat -> nat;
  n_dm : nat -> nat;
  n_mode : dist_mode;
  n_type : ctype;
  n_level : nat;
  n_axes : list (axis A);
  n_cell : list nat -> list Z
}.
Arguments Session {A}. Arguments n_build {A}. Arguments n_calls {A}. Arguments n_ranks {A}.
Arguments n_domains {A}. Arguments n_threads {A}. Arguments n_rk {A}. Arguments n_dm {A}.
Arguments n_mode {A}. Arguments n_type {A}. Arguments n_level {A}. Arguments n_axes {A}.
Arguments n_cell {A}.

Section End_.
Context {A : arith} (s : session A).

Definition stored : params := set_params [] (n_calls s).

(** [param<std::string>("NUMA_COMMUNICATION", "ON") != "OFF"] in [Grid::open],
    grid/grid.cpp lines 217-218, is the argument [detectNumaDomains] of
    [registerThread]; without detection and in builds with ASAGI_NONUMA all
    threads are in domain 0 (numa/numa.cpp lines 84-91, 107-109). *)
Definition detect : bool :=
  negb (String.eqb (param (fun v => v) stored "NUMA_COMMUNICATION" "ON" 0) "OFF").
Definition domains : nat := if detect && negb (b_nonuma (n_build s)) then n_domains s else 1.
Definition domain_of (t : nat) : nat :=
  if detect && negb (b_nonuma (n_build s)) then n_dm s t else 0.

(** The communicator: reset to MPI_COMM_SELF if MPI communication is switched
    off (grid/grid.cpp lines 324-329).  The processes are then independent of
    each other, and what follows describes one of them. *)
Definition ranks : nat := selected_ranks (n_build s) stored (n_ranks s).
Definition rank_of (t : nat) : nat := if ranks =? 1 then 0 else n_rk s t.

(** The level class, [initContainers]. *)
Definition class_ : storage * mpi_trans * numa_trans :=
  level_class (init_containers (n_build s) stored (n_ranks s) domains).

(** The arguments of [Container::init]: grid/grid.cpp lines 69-84 (of the
    whole grid) and 229-243 (per level).  [utils::StringUtils::toString] is
    the decimal representation.  Numbers which do not fit into [int] or
    [unsigned int] are not modelled. *)
Definition time_dim : Z := param parse_int stored "TIME_DIMENSION" (-1)%Z 0.
Definition value_position : value_pos :=
  if String.eqb (param (fun v => v) stored "VALUE_POSITION" "CELL_CENTERED" 0) "VERTEX_CENTERED"
  then VertexCentered else CellCentered.
Definition block_size (i : nat) : Z :=
  param parse_int stored ("BLOCK_SIZE_" ++ NilZero.string_of_uint (Nat.to_uint i)) 0%Z (n_level s).
Definition cache_size : nat := Z.to_nat (param parse_int stored "CACHE_SIZE" 128%Z (n_level s)).
Definition hand_spread : Z := param parse_int stored "CACHE_HAND_SPREAD" (-1)%Z (n_level s).

(** The variable of the file. *)
Definition variable : file (list Z) :=
  File (map (fun ax => Z.to_nat (x_size ax)) (n_axes s)) (n_cell s).
(** Arrays and structs are read with the untyped netCDF functions. *)
Definition opaque : bool := match ct_kind (n_type s) with KBasic => false | _ => true end.

(** [Blocked::open]; [arr0]: the content of the uninitialised member. *)
Definition blocks (arr0 : nat -> nat) : outcome blocked :=
  blocked_open (f_size variable) block_size time_dim arr0.

(** ** Reads *)
(** [pos2index] at the beginning of [getAt] (e.g. grid/level/full.h lines
    137-140, cachedist.h lines 140-141): the local array [index] is
    uninitialised, [init] is its content. *)
Definition index_of (pos : nat -> num A) (init : nat -> Z) : outcome (list nat) :=
  do r <- pos2index A (level_open A value_position (n_axes s)) pos init;
  let '(idx, _) := r in
  Ok (map (fun i => Z.to_nat (idx i)) (seq 0 (List.length (n_axes s)))).

(** A call of [getByte], ..., [getDouble] (the getter's type), or of [getBuf]
    with a buffer of [len] bytes; include/asagi.h, grid/grid.h lines 149-192. *)
Inductive getter := GetScalar (b : elem) | GetBuf (len : nat).
Record request := Request { q_pos : nat -> num A; q_getter : getter }.

Inductive answer := AScalar (v : outcome cval) | ABuf (b : outcome buffer).

(** [type().convert(cell, buf)] on the cell which the level has found; [None]:
    the cell has never been written, or no cell was found. *)
Definition answer_of (g : getter) (cell : option (option (list Z))) : answer :=
  let c := match cell with Some (Some c) => Ok c | _ => Ub end in
  match g with
  | GetScalar b => AScalar (do c <- c; get_scalar (n_type s) b c)
  | GetBuf len => ABuf (do c <- c; get_buf (n_type s) c (repeat None len))
  end.

(** ** What the threads have read at some moment of an execution

    [ixs t]: the indices at which thread [t] reads, in order; [cells t]: the
    cells it has been given so far. *)
(** PassThrough: thread [t]'s part of an interleaving. *)
Fixpoint pass_prog (t : nat) (ixs : list (list nat)) : list pass_op :=
  match ixs with
  | [] => []
  | ix :: r => PLoad t ix :: PRead t :: pass_prog t r
  end.
Definition part_of (t : nat) (ops : list pass_op) : list pass_op :=
  filter (fun o => pass_tid o =? t) ops.

Definition observed (bl : blocked) (ixs : nat -> list (list nat))
    (cells : nat -> list (option (option (list Z)))) : Prop :=
  let g := Geom bl variable opaque in
  let d := Dist (n_mode s) ranks domains (b_total bl) in
  let conc m :=
    exists st, reachable (readers m variable bl opaque (n_mode s) ranks domains cache_size hand_spread
                            rank_of domain_of (fun _ => []) ixs) st /\
      forall t, cells t = map snd (t_done (s_thr st t)) in
  let full m p :=
    exists s0 st, fd_open g d cache_size hand_spread = Ok s0 /\
      ureach (full_readers m p bl d cache_size hand_spread rank_of domain_of (fd_store s0) ixs) st /\
      forall t, cells t = map snd (q_done (u_thr st t)) in
  match class_ with
  (* grid/level/full.h: the memory is only read after [open], each thread
     reads for itself *)
  | (SFull, MPINo, NumaNo) =>
      exists m, full_open g d 0 = Ok m /\
        forall t, exists k c vs,
          full_run g d (domain_base g d 0) m counters0 (firstn k (ixs t)) = Ok (c, vs) /\
          cells t = map Some vs
  | (SFull, MPINo, NumaExchange) => full XNo PNumaFull
  | (SFull, MPINo, NumaExchangeCache) => full XNo PNumaFullCache
  | (SFull, MPIThread, NumaNo) => full XThread PNumaNo
  | (SFull, MPIThread, NumaExchange) => full XThread PNumaFull
  | (SFull, MPIThread, NumaExchangeCache) => full XThread PNumaFullCache
  | (SFull, MPIWin, NumaNo) => full XWin PNumaNo
  | (SFull, MPIWin, NumaExchange) => full XWin PNumaFull
  | (SFull, MPIWin, NumaExchangeCache) => full XWin PNumaFullCache
  (* grid/level/cache.h: one cache per domain, without any exchange; the
     domains behave like processes without MPI *)
  | (SCache, MPINo, NumaNo) =>
      exists st, reachable (readers MNo variable bl opaque (n_mode s) domains 1 cache_size hand_spread
                              domain_of (fun _ => 0) (fun _ => []) ixs) st /\
        forall t, cells t = map snd (t_done (s_thr st t))
  | (SCache, MPINo, _) => conc MNo
  | (SCache, MPIThread, _) => conc MThread
  | (SCache, MPIWin, _) => conc MWin
  | (SPass, _, _) =>
      exists ops m vs,
        pass_run opaque variable (pass_open (n_threads s)) ops = Ok (m, vs) /\
        (forall t, exists k, part_of t ops = firstn k (pass_prog t (ixs t))) /\
        forall t, cells t = map Some (map snd (filter (fun r => fst r =? t) vs))
  end.

(** The threads run the programs [prog] on the opened grid; [answers t] are the
    answers thread [t] has at that moment. *)
Definition session_run (prog : nat -> list request) (answers : nat -> list answer) : Prop :=
  exists arr0 bl ixs cells,
    blocks arr0 = Ok bl /\
    (forall t, Forall2 (fun r ix => exists init, index_of (q_pos r) init = Ok ix) (prog t) (ixs t)) /\
    observed bl ixs cells /\
    forall t, answers t = map (fun rc => answer_of (q_getter (fst rc)) (snd rc)) (combine (prog t) (cells t)).

End End_.
Arguments Request {A}. Arguments q_pos {A}. Arguments q_getter {A}.
