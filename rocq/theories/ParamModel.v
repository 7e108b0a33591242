(** * Parameter store, grid selection, counters, error codes (grid/grid.cpp) *)
From Coq Require Import List Arith Bool ZArith Ascii String.
From Verif Require Import Base LevelsModel.
Import ListNotations.
Local Open Scope string_scope.

(** ** Strings

    [utils::StringUtils] is a submodule that is not part of the repository;
    its [toUpper] is taken to be the C locale's [std::toupper] on every
    character, [startsWith] the obvious prefix test. *)
Definition is_lower (c : ascii) : bool :=
  let n := nat_of_ascii c in (97 <=? n)%nat && (n <=? 122)%nat.
Definition up_char (c : ascii) : ascii :=
  if is_lower c then ascii_of_nat (nat_of_ascii c - 32) else c.
Fixpoint map_string (f : ascii -> ascii) (s : string) : string :=
  match s with
  | EmptyString => EmptyString
  | String c r => String (f c) (map_string f r)
  end.
Definition to_upper : string -> string := map_string up_char.
(** [std::replace(s.begin(), s.end(), '-', '_')], grid/grid.cpp lines 201, 208. *)
Definition dash_char (c : ascii) : ascii := if Ascii.eqb c "-" then "_"%char else c.
Definition dashes : string -> string := map_string dash_char.
Fixpoint starts_with (s pre : string) : bool :=
  match pre, s with
  | EmptyString, _ => true
  | String a p, String b r => Ascii.eqb a b && starts_with r p
  | _, EmptyString => false
  end.

(** ** The parameter store [m_params], one map per level (grid/grid.h lines
    84-85).  A map is a function from names; "not in the map" is [None]. *)
Definition pmap := string -> option string.
Definition pmap0 : pmap := fun _ => None.
Definition pmap_set (m : pmap) (n v : string) : pmap :=
  fun k => if String.eqb k n then Some v else m k.
Definition params := list pmap.

Fixpoint set_nth {A} (l : list A) (i : nat) (x : A) : list A :=
  match l, i with
  | nil, _ => nil
  | _ :: r, O => x :: r
  | y :: r, S i' => y :: set_nth r i' x
  end.

(** [Grid::setParam], grid/grid.cpp lines 193-212. *)
Definition norm_name (name : string) : string := dashes (to_upper name).
Definition norm_value (n value : string) : string :=
  if negb (String.eqb n "VARIABLE") && negb (starts_with n "BLOCK_SIZE_")
  then dashes (to_upper value) else value.
Definition resize (ps : params) (level : nat) : params :=
  if (List.length ps <=? level)%nat
  then app ps (repeat pmap0 (level + 1 - List.length ps)) else ps.
Definition set_param (ps : params) (name value : string) (level : nat) : params :=
  let ps1 := resize ps level in
  let n := norm_name name in
  let v := norm_value n value in
  set_nth ps1 level (pmap_set (nth level ps1 pmap0) n v).

(** The lookup part of [Grid::param], grid/grid.cpp lines 463-474: the string
    that is handed to [parse<T>]; [None] = the default value is returned. *)
Definition param_raw (ps : params) (name : string) (level : nat) : option string :=
  match nth_error ps level with
  | None => None
  | Some m => m name
  end.
(** [Grid::param] with the parser of the value's type. *)
Definition param {T} (parse : string -> T) (ps : params) (name : string) (dflt : T) (level : nat) : T :=
  match param_raw ps name level with
  | None => dflt
  | Some v => parse v
  end.

(** A sequence of [setParam] calls on a new grid. *)
Definition set_call := (string * string * nat)%type.
Definition set_params (ps : params) (calls : list set_call) : params :=
  fold_left (fun ps c => match c with (n, v, l) => set_param ps n v l end) calls ps.

(** [utils::StringUtils::parse<int>] (not in the repository): a stream
    extraction [>>] of the string's beginning: an optional sign and decimal
    digits; 0 if there is no number.  Leading white space is not modelled. *)
Definition digit (c : ascii) : option Z :=
  let n := nat_of_ascii c in
  if (48 <=? n)%nat && (n <=? 57)%nat then Some (Z.of_nat (n - 48)) else None.
Fixpoint parse_digits (acc : Z) (s : string) : Z :=
  match s with
  | EmptyString => acc
  | String c r => match digit c with
                  | Some d => parse_digits (10 * acc + d) r
                  | None => acc
                  end
  end.
Definition parse_int (s : string) : Z :=
  match s with
  | String "-" r => (- parse_digits 0 r)%Z
  | String "+" r => parse_digits 0 r
  | _ => parse_digits 0 s
  end.

(** ** Container selection, [Grid::initContainers], grid/grid.cpp lines 278-457 *)
Inductive container_type :=
| CACHE | CACHE_NUMA | CACHE_MPITHREAD | CACHE_MPIWIN | CACHE_MPITHREAD_NUMA
| CACHE_MPIWIN_NUMA | FULL | FULL_NUMA | FULL_MPITHREAD | FULL_MPIWIN
| FULL_MPITHREAD_NUMA | FULL_MPIWIN_NUMA | FULL_MPITHREAD_NUMACACHE
| FULL_MPIWIN_NUMACACHE | PASS_THROUGH.

(** Compile time switches: [THREADSAFE_MPI] (CMakeLists.txt), [ASAGI_NONUMA]. *)
Record build := Build { b_threadsafe_mpi : bool; b_nonuma : bool }.

(** Lines 317-331.  The reset of the communicator to [MPI_COMM_SELF] in the
    OFF case is [selected_ranks]. *)
Definition sel_mpi (b : build) (ps : params) (ranks : nat) : string :=
  let t := param (fun s => s) ps "MPI_COMMUNICATION" "WINDOW" 0 in
  let t := if b_threadsafe_mpi b && String.eqb t "THREAD" then "WINDOW" else t in
  if (ranks =? 1)%nat then "OFF" else t.
(** The number of ranks in the communicator afterwards (lines 324-329). *)
Definition selected_ranks (b : build) (ps : params) (ranks : nat) : nat :=
  if (ranks =? 1)%nat then ranks
  else if String.eqb (sel_mpi b ps ranks) "OFF" then 1 else ranks.
(** Lines 333-343. *)
Definition sel_numa (b : build) (ps : params) (domains : nat) : string :=
  let t := param (fun s => s) ps "NUMA_COMMUNICATION" (if b_nonuma b then "OFF" else "ON") 0 in
  if (domains =? 1)%nat then "OFF" else t.
(** Lines 345-390. *)
Definition select (gridType mpiType numaType : string) : container_type :=
  if String.eqb gridType "CACHE" then
    if String.eqb mpiType "OFF" then
      if String.eqb numaType "OFF" then CACHE_NUMA else CACHE
    else if String.eqb mpiType "THREAD" then
      if String.eqb numaType "OFF" then CACHE_MPITHREAD else CACHE_MPITHREAD_NUMA
    else
      if String.eqb numaType "OFF" then CACHE_MPIWIN else CACHE_MPIWIN_NUMA
  else if String.eqb gridType "PASS_THROUGH" then PASS_THROUGH
  else
    if String.eqb mpiType "OFF" then
      if String.eqb numaType "OFF" then FULL else FULL_NUMA
    else if String.eqb mpiType "THREAD" then
      if String.eqb numaType "OFF" then FULL_MPITHREAD
      else if String.eqb numaType "CACHE" then FULL_MPITHREAD_NUMACACHE
      else FULL_MPITHREAD_NUMA
    else
      if String.eqb numaType "OFF" then FULL_MPIWIN
      else if String.eqb numaType "CACHE" then FULL_MPIWIN_NUMACACHE
      else FULL_MPIWIN_NUMA.

(** The template arguments of the level class: the switch of lines 396-455
    with the aliases of grid/level/full.h 175-177, fulldist.h 202-228,
    cache.h 191-193, cachedist.h 217-239.  (The [logError] for CACHE_MPIWIN
    in builds without [USE_MPI3] is not modelled.) *)
Inductive storage := SFull | SCache | SPass.
Inductive mpi_trans := MPINo | MPIThread | MPIWin.
Inductive numa_trans := NumaNo | NumaExchange | NumaExchangeCache.
Definition level_class (c : container_type) : storage * mpi_trans * numa_trans :=
  match c with
  | CACHE => (SCache, MPINo, NumaNo)
  | CACHE_NUMA => (SCache, MPINo, NumaExchange)
  | CACHE_MPITHREAD => (SCache, MPIThread, NumaNo)
  | CACHE_MPIWIN => (SCache, MPIWin, NumaNo)
  | CACHE_MPITHREAD_NUMA => (SCache, MPIThread, NumaExchange)
  | CACHE_MPIWIN_NUMA => (SCache, MPIWin, NumaExchange)
  | FULL => (SFull, MPINo, NumaNo)
  | FULL_NUMA => (SFull, MPINo, NumaExchange)
  | FULL_MPITHREAD => (SFull, MPIThread, NumaNo)
  | FULL_MPIWIN => (SFull, MPIWin, NumaNo)
  | FULL_MPITHREAD_NUMA => (SFull, MPIThread, NumaExchange)
  | FULL_MPIWIN_NUMA => (SFull, MPIWin, NumaExchange)
  | FULL_MPITHREAD_NUMACACHE => (SFull, MPIThread, NumaExchangeCache)
  | FULL_MPIWIN_NUMACACHE => (SFull, MPIWin, NumaExchangeCache)
  | PASS_THROUGH => (SPass, MPINo, NumaNo)
  end.

Definition init_containers (b : build) (ps : params) (ranks domains : nat) : container_type :=
  select (param (fun s => s) ps "GRID" "FULL" 0) (sel_mpi b ps ranks) (sel_numa b ps domains).

(** ** Counters: [Counter::name2type], perf/counter.cpp lines 83-93 with the
    table of perf/counter.h lines 100-108. *)
Definition name2type (name : string) : counter_type :=
  if String.eqb name "accesses" then CAccess
  else if String.eqb name "numa_transfers" then CNuma
  else if String.eqb name "mpi_transfers" then CMpi
  else if String.eqb name "file_loads" then CFile
  else if String.eqb name "local_hits" then CHit
  else if String.eqb name "node_hits" then CNodeHit
  else if String.eqb name "local_misses" then CMiss
  else CInvalid.

(** [SimpleContainer::getCounter], grid/simplecontainer.h lines 137-143: the
    counters of one domain's levels; the vector is indexed with [operator[]]
    (outside: undefined behaviour). *)
Definition container_counter (levels : list counters) (t : counter_type) (level : nat) : outcome Z :=
  match nth_error levels level with
  | Some c => Ok (counter_get c t)
  | None => Ub
  end.
(** [Grid::getCounter], grid/grid.cpp lines 251-263.  The call
    [( *it)->getCounter(type)] leaves the container's level argument at its
    default 0 (grid/container.h). *)
Fixpoint sum_counters (containers : list (list counters)) (t : counter_type) (level : nat) (acc : Z) : outcome Z :=
  match containers with
  | nil => Ok acc
  | l :: r => do x <- container_counter l t level;
              sum_counters r t level (wrap64 (acc + x))
  end.
Definition grid_counter (containers : list (list counters)) (name : string) (level : nat) : outcome Z :=
  sum_counters containers (name2type name) 0 0%Z.

(** ** Error codes: the enumerators in declaration order; the value of an
    enumerator is its position (no explicit values except the first, 0). *)
(** [asagi::Grid::Error], include/asagi.h lines 92-119. *)
Definition errors_cpp : list string :=
  [ "SUCCESS"; "MPI_ERROR"; "THREAD_ERROR"; "NUMA_ERROR"; "UNKNOWN_PARAM"; "INVALID_VALUE";
    "NOT_INITIALIZED"; "ALREADY_INITIALIZED"; "NOT_OPEN"; "VAR_NOT_FOUND"; "WRONG_SIZE";
    "UNSUPPORTED_DIMENSIONS"; "INVALID_VAR_SIZE" ].
(** [asagi_error], include/asagi.h lines 428-443 (without the ASAGI_ prefix). *)
Definition errors_c : list string :=
  [ "SUCCESS"; "MPI_ERROR"; "THREAD_ERROR"; "NUMA_ERROR"; "UNKNOWN_PARAM"; "INVALID_VALUE";
    "NOT_INITIALIZED"; "ALREADY_INITIALIZED"; "NOT_OPEN"; "VAR_NOT_FOUND"; "WRONG_SIZE";
    "UNSUPPORTED_DIMENSIONS"; "MULTIPLE_TOPGRIDS"; "INVALID_VAR_SIZE" ].
(** include/asagi.f90 lines 63-79 (without the ASAGI_ prefix). *)
Definition errors_f90 : list string :=
  [ "SUCCESS"; "MPI_ERROR"; "THREAD_ERROR"; "NUMA_ERROR"; "UNKNOWN_PARAM"; "INVALID_VALUE";
    "NOT_INITIALIZED"; "ALREADY_INITIALIZED"; "NOT_OPEN"; "VAR_NOT_FOUND"; "WRONG_SIZE";
    "UNSUPPORTED_DIMENSIONS"; "INVALID_VAR_SIZE" ].
Fixpoint enum_value (l : list string) (name : string) : option nat :=
  match l with
  | nil => None
  | n :: r => if String.eqb n name then Some 0 else option_map S (enum_value r name)
  end.
