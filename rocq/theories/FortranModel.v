(** * The Fortran interface: include/asagi.f90, asagi_f90.h, asagi_f90.cpp, with the handles of fortran/pointerarray.h

    A Fortran program holds integer handles, an optional argument may be left out, a character variable has a fixed
    length and is filled with blanks.  The module of include/asagi.f90 fills in the optional arguments and
    terminates the strings, the functions of asagi_f90.cpp translate the handle and call the C++ class.

    Simplifications: the class [grid::Grid] is a parameter here ([obey]): the outcome of a call is a function of how
    the object was created and of the calls made on it before (this leaves out that the outcome of a call depends on
    other processes and other threads; one thread calls).  The default [integer] of Fortran is taken to be C's [int],
    default [real] to be [float], the default [character] to be [char] (include/asagi.f90 mixes them with [c_int],
    [c_float] and [c_char]). *)
From Coq Require Export List Arith Bool ZArith Ascii String.
From Verif Require Export Base.
From Verif Require Import GridModel ParamModel.
Export ListNotations.

(** ** Conversions of C.  [int] to [unsigned int], [long] to [unsigned long]; [unsigned int] to [int] (implementation
    defined before C++20; gcc reduces modulo 2^32). *)
Definition u32 (i : Z) : Z := (i mod 4294967296)%Z.
Definition u64 (i : Z) : Z := (i mod 18446744073709551616)%Z.
Definition i32 (u : Z) : Z := if (u <? 2147483648)%Z then u else (u - 4294967296)%Z.

(** ** Strings.  A null character; a C string in memory ends at the first one ([std::string(const char* )] in
    [Grid::setParam], grid/grid.cpp lines 199 and 204; [nc_open] for the file name). *)
Definition NUL : ascii := ascii_of_nat 0.
Fixpoint c_read (s : list ascii) : option string :=
  match s with
  | [] => None
  | c :: r => if Ascii.eqb c NUL then Some EmptyString
              else match c_read r with Some t => Some (String c t) | None => None end
  end.
Fixpoint chars (s : string) : list ascii :=
  match s with EmptyString => [] | String c r => c :: chars r end.
(** The value of a variable [character(len=n)] after assigning [s] to it: cut or filled with blanks.
    A literal has the length of its text. *)
Fixpoint fill (n : nat) (s : list ascii) : list ascii :=
  match n, s with
  | O, _ => []
  | S n', [] => " "%char :: fill n' []
  | S n', c :: r => c :: fill n' r
  end.
Record fstring := FStr { f_len : nat; f_text : string }.
Definition f_chars (s : fstring) : list ascii := fill (f_len s) (chars (f_text s)).

Section Calls.
  (** [R], [S]: the values of [double] and [float]; [P]: the positions; [B]: what [getBuf] writes; [C]: communicators. *)
  Variables R S P B C : Type.

  (** ** The C++ class, include/asagi.h lines 64-330 *)
  (** [create], [createArray], [createStruct]. *)
  Inductive ctor :=
  | CreateOne (t : Z)
  | CreateArray (t : Z)
  | CreateStruct (count : Z) (lengths displacements types : list Z).
  Inductive ccall :=
  | CSetComm (c : C) | CSetThreads (n : Z) | CSetParam (name value : string) (level : Z)
  | COpen (file : string) (level : Z)
  | CDimensions | CMin (n : Z) | CMax (n : Z) | CDelta (n level : Z) | CVarSize
  | CGetByte (p : P) (level : Z) | CGetInt (p : P) (level : Z) | CGetLong (p : P) (level : Z)
  | CGetFloat (p : P) (level : Z) | CGetDouble (p : P) (level : Z) | CGetBuf (p : P) (level : Z).
  (** What a call returns; [RErr] an error code, [RInt], [RByte], [RLong] integers. *)
  Inductive result :=
  | RNothing | RErr (e : Z) | RInt (i : Z) | RLong (i : Z) | RByte (b : ascii)
  | RFloat (x : S) | RDouble (x : R) | RBuf (b : B).
  (** The static functions [startCommThread], [stopCommThread], [nodeLocalRank]. *)
  Inductive scall := SStart (cpu : Z) (c : C) | SStop | SLocalRank (c : C).

  (** The class and the static functions (any behaviour). *)
  Variable obey : ctor -> list ccall -> ccall -> outcome result.
  Variable serve : list scall -> scall -> outcome result.
  (** [ASAGI_NOMPI]; [MPI_Comm_f2c]. *)
  Variable nompi : bool.
  Variable f2c : Z -> C.

  (** ** The memory: the grid objects (a pointer is a position in the list; [None] a deleted object; otherwise [m_id],
      how it was created, the calls made on it), the calls of the static functions, and the table of handles. *)
  Record fmem := FMem {
    m_objs : list (option (nat * ctor * list ccall));
    m_stat : list scall;
    m_ptrs : list (option nat)
  }.
  Definition mem0 : fmem := FMem [] [] [].
  Fixpoint put {A} (l : list A) (i : nat) (x : A) : list A :=
    match l, i with
    | [], _ => []
    | _ :: r, O => x :: r
    | y :: r, Datatypes.S i' => y :: put r i' x
    end.

  (** [new grid::Grid(...)], asagi.cpp lines 51-65, with [Grid::init], grid/grid.cpp lines 269-273: the pointer and
      the id [m_id] of the object, which is also its handle. *)
  Definition new_grid (m : fmem) (c : ctor) : fmem * (nat * nat) :=
    let (ps, h) := pa_add (m_ptrs m) (List.length (m_objs m)) in
    (FMem (m_objs m ++ [Some (h, c, [])])%list (m_stat m) ps, (List.length (m_objs m), h)).
  (** A call on an object; on a deleted one: undefined. *)
  Definition call (m : fmem) (p : nat) (c : ccall) : outcome (fmem * result) :=
    match nth_error (m_objs m) p with
    | Some (Some (id, k, h)) =>
        do r <- obey k h c; Ok (FMem (put (m_objs m) p (Some (id, k, h ++ [c])))%list (m_stat m) (m_ptrs m), r)
    | _ => Ub
    end.
  (** [delete]: the destructor, grid/grid.cpp lines 177-191, removes the id from the table. *)
  Definition delete_grid (m : fmem) (p : nat) : outcome fmem :=
    match nth_error (m_objs m) p with
    | Some (Some (id, _, _)) => do ps <- pa_remove (m_ptrs m) id; Ok (FMem (put (m_objs m) p None) (m_stat m) ps)
    | _ => Ub
    end.
  Definition static (m : fmem) (c : scall) : outcome (fmem * result) :=
    do r <- serve (m_stat m) c; Ok (FMem (m_objs m) (m_stat m ++ [c])%list (m_ptrs m), r).

  (** ** asagi_f90.cpp *)
  (** [Grid::f2c], grid/grid.h lines 222-225, and the use of the pointer: a null pointer is undefined, so is a handle
      outside the table ([get] asserts; a negative [int] is outside). *)
  Definition resolve (m : fmem) (id : Z) : outcome nat :=
    if (id <? 0)%Z then Ub
    else do x <- pa_get (m_ptrs m) (Z.to_nat id);
         match x with Some p => Ok p | None => Ub end.

  (** The arguments as they arrive in asagi_f90.cpp: C integers and characters in memory. *)
  Inductive bcall :=
  | BSetComm (comm : Z) | BSetThreads (n : Z) | BSetParam (name value : list ascii) (level : Z)
  | BOpen (file : list ascii) (level : Z)
  | BDimensions | BMin (n : Z) | BMax (n : Z) | BDelta (n level : Z) | BVarSize
  | BGetByte (p : P) (level : Z) | BGetInt (p : P) (level : Z) | BGetLong (p : P) (level : Z)
  | BGetFloat (p : P) (level : Z) | BGetDouble (p : P) (level : Z) | BGetBuf (p : P) (level : Z).
  Definition cstr {A} (s : list ascii) (k : string -> outcome A) : outcome A :=
    match c_read s with Some t => k t | None => Ub end.
  Definition no_result (x : fmem * result) : fmem * result := (fst x, RNothing).
  Definition as_int (x : fmem * result) : fmem * result :=
    (fst x, match snd x with RInt u => RInt (i32 u) | r => r end).

  (** [f90asagi_grid_set_comm] to [f90asagi_grid_get_buf], asagi_f90.cpp lines 80-201.  The results of [setComm] and
      [setThreads] are dropped. *)
  Definition f90_call (m : fmem) (id : Z) (c : bcall) : outcome (fmem * result) :=
    match c with
    | BSetComm comm =>
        if nompi then Ok (m, RNothing)
        else do p <- resolve m id; do x <- call m p (CSetComm (f2c comm)); Ok (no_result x)
    | BSetThreads n => do p <- resolve m id; do x <- call m p (CSetThreads (u32 n)); Ok (no_result x)
    | BSetParam name value level =>
        do p <- resolve m id;
        cstr name (fun n => cstr value (fun v => do x <- call m p (CSetParam n v (u32 level)); Ok (no_result x)))
    | BOpen file level => do p <- resolve m id; cstr file (fun f => call m p (COpen f (u32 level)))
    | BDimensions => do p <- resolve m id; do x <- call m p CDimensions; Ok (as_int x)
    | BMin n => do p <- resolve m id; call m p (CMin (u32 n))
    | BMax n => do p <- resolve m id; call m p (CMax (u32 n))
    | BDelta n level => do p <- resolve m id; call m p (CDelta (u32 n) (u32 level))
    | BVarSize => do p <- resolve m id; do x <- call m p CVarSize; Ok (as_int x)
    | BGetByte q level => do p <- resolve m id; call m p (CGetByte q (u32 level))
    | BGetInt q level => do p <- resolve m id; call m p (CGetInt q (u32 level))
    | BGetLong q level => do p <- resolve m id; call m p (CGetLong q (u32 level))
    | BGetFloat q level => do p <- resolve m id; call m p (CGetFloat q (u32 level))
    | BGetDouble q level => do p <- resolve m id; call m p (CGetDouble q (u32 level))
    | BGetBuf q level => do p <- resolve m id; call m p (CGetBuf q (u32 level))
    end.
  (** [f90asagi_grid_create], [_array], [_struct], asagi_f90.cpp lines 46-75: the handle is [c2f()] of the new grid. *)
  Definition f90_create (m : fmem) (t : Z) : fmem * Z :=
    let (m', ph) := new_grid m (CreateOne t) in (m', Z.of_nat (snd ph)).
  Definition f90_create_array (m : fmem) (t : Z) : fmem * Z :=
    let (m', ph) := new_grid m (CreateArray t) in (m', Z.of_nat (snd ph)).
  Definition f90_create_struct (m : fmem) (count : Z) (bl ds ts : list Z) : fmem * Z :=
    let (m', ph) := new_grid m (CreateStruct (u32 count) (map u32 bl) (map u64 ds) ts) in (m', Z.of_nat (snd ph)).
  (** [f90asagi_grid_close], asagi_f90.cpp lines 208-211.  [delete] of a null pointer does nothing. *)
  Definition f90_close (m : fmem) (id : Z) : outcome fmem :=
    if (id <? 0)%Z then Ub
    else do x <- pa_get (m_ptrs m) (Z.to_nat id);
         match x with Some p => delete_grid m p | None => Ok m end.
  (** [f90asagi_start_comm_thread], [_stop_], [_node_local_rank], asagi_f90.cpp lines 218-247. *)
  Inductive fstat := FStart (cpu comm : Z) | FStop | FLocalRank (comm : Z).
  Definition f90_static (m : fmem) (c : fstat) : outcome (fmem * result) :=
    match c with
    | FStart cpu comm => if nompi then Ok (m, RErr 0) else static m (SStart cpu (f2c comm))
    | FStop => if nompi then Ok (m, RNothing) else static m SStop
    | FLocalRank comm => if nompi then Ok (m, RInt 0) else static m (SLocalRank (f2c comm))
    end.

  (** ** include/asagi.f90: the calls as a Fortran program makes them *)
  Inductive fnew :=
  | FOne (t : option Z) | FArray (t : option Z) | FStruct (count : Z) (bl ds ts : list Z).
  Inductive fcall :=
  | FSetComm (comm : Z) | FSetThreads (n : Z) | FSetParam (name value : fstring) (level : option Z)
  | FOpen (file : fstring) (level : option Z)
  | FDimensions | FMin (n : Z) | FMax (n : Z) | FDelta (n : Z) (level : option Z) | FVarSize
  | FGetByte (p : P) (level : option Z) | FGetInt (p : P) (level : option Z) | FGetLong (p : P) (level : option Z)
  | FGetFloat (p : P) (level : option Z) | FGetDouble (p : P) (level : option Z) | FGetBuf (p : P) (level : option Z).
  (** The enumeration of lines 48-50. *)
  Definition ASAGI_FLOAT : Z := 3.
  (** Lines 288-321. *)
  Definition fortran_new (m : fmem) (c : fnew) : fmem * Z :=
    match c with
    | FOne t => f90_create m (match t with Some t => t | None => ASAGI_FLOAT end)
    | FArray t => f90_create_array m (match t with Some t => t | None => ASAGI_FLOAT end)
    | FStruct n bl ds ts => f90_create_struct m n bl ds ts
    end.
  (** [if( present( level ) )], e.g. lines 335-339. *)
  Definition or_0 (l : option Z) : Z := match l with Some l => l | None => 0%Z end.
  (** [name // c_null_char], lines 341, 342 and 364. *)
  Definition terminated (s : fstring) : list ascii := (f_chars s ++ [NUL])%list.
  (** Lines 326-511. *)
  Definition fortran_call (m : fmem) (id : Z) (c : fcall) : outcome (fmem * result) :=
    f90_call m id
      (match c with
       | FSetComm comm => BSetComm comm
       | FSetThreads n => BSetThreads n
       | FSetParam n v l => BSetParam (terminated n) (terminated v) (or_0 l)
       | FOpen f l => BOpen (terminated f) (or_0 l)
       | FDimensions => BDimensions
       | FMin n => BMin n
       | FMax n => BMax n
       | FDelta n l => BDelta n (or_0 l)
       | FVarSize => BVarSize
       | FGetByte p l => BGetByte p (or_0 l)
       | FGetInt p l => BGetInt p (or_0 l)
       | FGetLong p l => BGetLong p (or_0 l)
       | FGetFloat p l => BGetFloat p (or_0 l)
       | FGetDouble p l => BGetDouble p (or_0 l)
       | FGetBuf p l => BGetBuf p (or_0 l)
       end).

  (** ** Programs.  Variables are numbered; [v] holds a handle.  [ONative]: a grid created by C++ code of the same
      program (it takes a place in the table). *)
  Inductive op :=
  | ONew (v : nat) (c : fnew) | OCall (v : nat) (c : fcall) | OClose (v : nat)
  | OStatic (c : fstat) | ONative (c : ctor).
  Definition fenv := nat -> Z.
  Definition setv {A} (e : nat -> A) (v : nat) (x : A) : nat -> A := fun w => if w =? v then x else e w.
  Fixpoint fortran_run (m : fmem) (e : fenv) (l : list op) : outcome (list result) :=
    match l with
    | [] => Ok []
    | ONew v c :: r => let (m', h) := fortran_new m c in fortran_run m' (setv e v h) r
    | OCall v c :: r =>
        do x <- fortran_call m (e v) c; do rs <- fortran_run (fst x) e r; Ok (snd x :: rs)
    | OClose v :: r => do m' <- f90_close m (e v); fortran_run m' e r
    | OStatic c :: r => do x <- f90_static m c; do rs <- fortran_run (fst x) e r; Ok (snd x :: rs)
    | ONative c :: r => fortran_run (fst (new_grid m c)) e r
    end.
  (** Variables hold any value (-1 here) before a grid is assigned to them. *)
  Definition fortran_results (l : list op) : outcome (list result) := fortran_run mem0 (fun _ => (-1)%Z) l.
End Calls.

(** ** [Grid::setParam], grid/grid.cpp lines 193-212, with the 32 bit level of the declaration (ParamModel has a natural
    number there): [level+1] is computed in [unsigned int]; [m_params[level]] outside of the vector is undefined. *)
Definition vec_resize (ps : params) (n : nat) : params :=
  (firstn n ps ++ repeat pmap0 (n - List.length ps))%list.
Definition set_param_u (ps : params) (name value : string) (level : Z) : outcome params :=
  let ps1 := if (Z.of_nat (List.length ps) <=? level)%Z then vec_resize ps (Z.to_nat (u32 (level + 1))) else ps in
  if (level <? Z.of_nat (List.length ps1))%Z
  then let n := norm_name name in
       Ok (set_nth ps1 (Z.to_nat level) (pmap_set (nth (Z.to_nat level) ps1 pmap0) n (norm_value n value)))
  else Ub.
