(** * What a Fortran program is meant to do: the C++ program with the same calls

    Here a variable holds a grid itself (how it was created and the calls made on it), there are no handles.  Optional
    arguments have the default values of the declarations in include/asagi.h (lines 149-330): level 0, type [FLOAT].
    A string is its text. *)
From Verif Require Import FortranModel.
Local Open Scope Z_scope.

Section Meaning.
  Variables R S P B C : Type.
  Notation fcall := (fcall P). Notation ccall := (ccall P C). Notation result := (result R S B).
  Variable obey : ctor -> list ccall -> ccall -> outcome result.
  Variable serve : list (scall C) -> scall C -> outcome result.
  Variable nompi : bool.
  Variable f2c : Z -> C.

  (** [asagi::Grid::FLOAT]. *)
  Definition meant_ctor (c : fnew) : ctor :=
    match c with
    | FOne (Some t) => CreateOne t
    | FOne None => CreateOne 3
    | FArray (Some t) => CreateArray t
    | FArray None => CreateArray 3
    | FStruct n bl ds ts => CreateStruct (n mod 2 ^ 32) (map (fun x => x mod 2 ^ 32) bl) (map (fun x => x mod 2 ^ 64) ds) ts
    end.
  Definition meant_level (l : option Z) : Z := match l with None => 0 | Some l => l mod 2 ^ 32 end.
  (** [None]: no call (a build without MPI has no [setComm]). *)
  Definition meant (c : fcall) : option ccall :=
    match c with
    | FSetComm _ x => if nompi then None else Some (CSetComm P C (f2c x))
    | FSetThreads _ n => Some (CSetThreads P C (n mod 2 ^ 32))
    | FSetParam _ n v l => Some (CSetParam P C (f_text n) (f_text v) (meant_level l))
    | FOpen _ f l => Some (COpen P C (f_text f) (meant_level l))
    | FDimensions _ => Some (CDimensions P C)
    | FMin _ n => Some (CMin P C (n mod 2 ^ 32))
    | FMax _ n => Some (CMax P C (n mod 2 ^ 32))
    | FDelta _ n l => Some (CDelta P C (n mod 2 ^ 32) (meant_level l))
    | FVarSize _ => Some (CVarSize P C)
    | FGetByte _ p l => Some (CGetByte P C p (meant_level l))
    | FGetInt _ p l => Some (CGetInt P C p (meant_level l))
    | FGetLong _ p l => Some (CGetLong P C p (meant_level l))
    | FGetFloat _ p l => Some (CGetFloat P C p (meant_level l))
    | FGetDouble _ p l => Some (CGetDouble P C p (meant_level l))
    | FGetBuf _ p l => Some (CGetBuf P C p (meant_level l))
    end.
  Definition meant_static (c : fstat) : option (scall C) :=
    if nompi then None
    else Some (match c with FStart cpu x => SStart C cpu (f2c x) | FStop => SStop C | FLocalRank x => SLocalRank C (f2c x) end).
  (** Without MPI: success, nothing, rank 0. *)
  Definition without_mpi (c : fstat) : result :=
    match c with FStart _ _ => RErr R S B 0 | FStop => RNothing R S B | FLocalRank _ => RInt R S B 0 end.

  (** What the program sees of the result [r] of the C++ call.  [set_comm], [set_threads] and [set_param] are
      subroutines; an unsigned number is seen as the [int] with the same value modulo 2^32. *)
  Definition seen (c : fcall) (r f : result) : Prop :=
    match c with
    | FSetComm _ _ | FSetThreads _ _ | FSetParam _ _ _ _ => f = RNothing R S B
    | FDimensions _ | FVarSize _ =>
        match r with
        | RInt _ _ _ u => (0 <= u < 2 ^ 32) -> exists i, f = RInt R S B i /\ - 2 ^ 31 <= i < 2 ^ 31 /\ i mod 2 ^ 32 = u
        | _ => f = r
        end
    | _ => f = r
    end.

  Definition grid := option (ctor * list ccall).
  (** The run of the C++ program: for each call of the program what it may see. *)
  Fixpoint meant_run (e : nat -> grid) (h : list (scall C)) (l : list (op P)) : outcome (list (result -> Prop)) :=
    match l with
    | [] => Ok []
    | ONew _ v c :: r => meant_run (setv e v (Some (meant_ctor c, []))) h r
    | OCall _ v c :: r =>
        match meant c with
        | None => do rs <- meant_run e h r; Ok ((fun f => f = RNothing R S B) :: rs)
        | Some cc =>
            match e v with
            | Some (k, hist) =>
                do x <- obey k hist cc;
                do rs <- meant_run (setv e v (Some (k, hist ++ [cc])%list)) h r; Ok (seen c x :: rs)
            | None => Ub
            end
        end
    | OClose _ v :: r => match e v with Some _ => meant_run (setv e v None) h r | None => Ub end
    | OStatic _ c :: r =>
        match meant_static c with
        | None => do rs <- meant_run e h r; Ok ((fun f => f = without_mpi c) :: rs)
        | Some sc => do x <- serve h sc; do rs <- meant_run e (h ++ [sc])%list r; Ok ((fun f => f = x) :: rs)
        end
    | ONative _ _ :: r => meant_run e h r
    end.
  Definition meant_results (l : list (op P)) := meant_run (fun _ => None) [] l.
End Meaning.

(** A string in a variable of exactly its length, without null characters. *)
Definition snug (s : fstring) : Prop := f_len s = String.length (f_text s) /\ ~ In NUL (list_ascii_of_string (f_text s)).
Definition call_strings {P} (c : fcall P) : list fstring :=
  match c with FSetParam _ n v _ => [n; v] | FOpen _ f _ => [f] | _ => [] end.
Definition op_strings {P} (o : op P) : list fstring :=
  match o with OCall _ _ c => call_strings c | _ => [] end.
