(** * C75, C76: the Fortran interface *)
From Coq Require Import Lia.
From Verif Require Import GridModel ParamModel ParamFacts FortranModel FortranSpec FortranFacts.

(** C75 in full: whenever the C++ program with the same calls is defined, the Fortran program is, and sees the same
    results -- for strings in character variables of any length that holds them.  This is refuted below, so: *)
Definition fits (s : fstring) : Prop := String.length (f_text s) <= f_len s /\ ~ In NUL (list_ascii_of_string (f_text s)).

(** C75, for strings whose variables are exactly as long as their text (missing: longer variables). *)
Theorem C75_same_results_partial : forall R S P B C obey serve nompi f2c (l : list (op P)) ps,
  (forall o s, In o l -> In s (op_strings o) -> snug s) ->
  meant_results R S P B C obey serve nompi f2c l = Ok ps ->
  exists rs, fortran_results R S P B C obey serve nompi f2c l = Ok rs /\ Forall2 (fun p r => p r) ps rs.
Proof. exact results_as. Qed.

(** What arrives of a string in general: the blanks behind it arrive, too. *)
Theorem C75_arrives : forall s, fits s ->
  c_read (terminated s) = Some (f_text s ++ blanks (f_len s - String.length (f_text s)))%string.
Proof. intros s [L N]. exact (arrives s L N). Qed.

(** A file system with the file grid.nc: any other name gives [NOT_OPEN] (8).  Reading tells which class stores the
    grid (for two processes and one domain). *)
Definition param_of (ps : params) (c : ccall unit unit) : params :=
  match c with CSetParam _ _ n v l => set_param ps n v (Z.to_nat l) | _ => ps end.
Definition small (k : ctor) (h : list (ccall unit unit)) (c : ccall unit unit) : outcome (result unit unit container_type) :=
  match c with
  | COpen _ _ f _ => Ok (RErr _ _ _ (if String.eqb f "grid.nc" then 0%Z else 8%Z))
  | CGetBuf _ _ _ _ => Ok (RBuf _ _ _ (init_containers (Build false false) (fold_left param_of h []) 2 1))
  | CVarSize _ _ => Ok (RInt _ _ _ 4294967295%Z)
  | _ => Ok (RNothing _ _ _)
  end.
Definition small_fortran := fortran_results unit unit unit container_type unit small (fun _ _ => Ub) false (fun _ => tt).
Definition small_meant := meant_results unit unit unit container_type unit small (fun _ _ => Ub) false (fun _ => tt).

(** A file name in a variable of length 20: the file is not found. *)
Theorem C75_file_refuted : exists l ps,
  (forall o s, In o l -> In s (op_strings o) -> fits s) /\ small_meant l = Ok ps /\
  ~ exists rs, small_fortran l = Ok rs /\ Forall2 (fun p r => p r) ps rs.
Proof.
  exists [ONew _ 0 (FOne None); OCall _ 0 (FOpen _ (FStr 20 "grid.nc") None)]. eexists. split; [|split].
  - cbn. intros o s [<-|[<-|[]]]; cbn; [tauto|]. intros [<-|[]]. split; [cbn; lia|].
    cbn. intros H. repeat (destruct H as [H|H]; [discriminate H|]). exact H.
  - reflexivity.
  - intros (rs & E & F). vm_compute in E. injection E as <-. inversion F as [|? ? ? ? H]. discriminate H.
Qed.

(** A parameter whose name is in a longer variable has no effect on any parameter without a blank at the end of its
    name, i.e. on none that ASAGI looks up. *)
Theorem C75_name_refuted : forall s ps t v l k i, fits s -> String.length (f_text s) < f_len s ->
  c_read (terminated s) = Some t -> (forall r, k <> (r ++ " ")%string) ->
  param_raw (set_param ps t v l) k i = param_raw ps k i.
Proof.
  intros s ps t v l k i [L N] LT A H. rewrite (arrives s L N) in A. injection A as <-.
  destruct (f_len s - String.length (f_text s)) as [|j] eqn:E; [lia|]. exact (blank_name_unseen ps _ j v l k i H).
Qed.

(** C76 in full: [setParam] is defined for every level an [unsigned int] can hold and stores the value.  Missing: the
    last level. *)
Theorem C76_set_param_partial : forall ps name value level, (0 <= level < 2 ^ 32 - 1)%Z ->
  exists ps', set_param_u ps name value level = Ok ps' /\
    forall k l, param_raw ps' k l =
      if (l =? Z.to_nat level) && String.eqb k (norm_name name)
      then Some (norm_value (norm_name name) value) else param_raw ps k l.
Proof.
  intros ps name value level H. eexists. split; [exact (set_param_u_ok ps name value level H)|].
  intros k l. exact (set_param_raw ps name value (Z.to_nat level) k l).
Qed.

(** The last level (-1 of a Fortran program): undefined behaviour, whatever was set before. *)
Theorem C76_last_level_refuted : forall ps name value, (Z.of_nat (List.length ps) < 2 ^ 32)%Z ->
  set_param_u ps name value (u32 (-1)) = Ub.
Proof. exact set_param_u_top. Qed.

(** Examples.  Two grids, one of them closed and its variable used again, a grid of C++ code in between; the second
    grid's parameter makes it a cache, [var_size] is 2^32 - 1. *)
Definition lit (s : string) : fstring := FStr (String.length s) s.
Definition ex_prog : list (op unit) :=
  [ONew _ 0 (FOne None); ONative _ (CreateOne 1); ONew _ 1 (FArray (Some 2%Z));
   OCall _ 1 (FSetParam _ (lit "grid") (lit "cache") None); OCall _ 0 (FSetThreads _ 4%Z);
   OCall _ 1 (FOpen _ (lit "grid.nc") (Some 0%Z)); OCall _ 1 (FGetBuf _ tt None); OClose _ 0;
   ONew _ 0 (FStruct 2 [1; 1]%Z [0; 4]%Z [1; 3]%Z); OCall _ 0 (FGetBuf _ tt None); OCall _ 0 (FVarSize _);
   OCall _ 0 (FOpen _ (lit "other") None); OClose _ 1; OClose _ 0].
Example C75_ex : small_fortran ex_prog =
  Ok [RNothing _ _ _; RNothing _ _ _; RErr _ _ _ 0%Z; RBuf _ _ _ CACHE_MPIWIN; RBuf _ _ _ FULL_MPIWIN; RInt _ _ _ (-1)%Z;
      RErr _ _ _ 8%Z].
Proof. vm_compute. reflexivity. Qed.
Example C75_ex_hyps : (forall o s, In o ex_prog -> In s (op_strings o) -> snug s) /\ exists ps, small_meant ex_prog = Ok ps.
Proof.
  split.
  - cbn. intros o s H. repeat (destruct H as [<-|H]; [cbn; intros K; repeat (destruct K as [<-|K]; [split; [reflexivity|];
      cbn; intros Q; repeat (destruct Q as [Q|Q]; [discriminate Q|]); exact Q|]); destruct K|]). destruct H.
  - eexists. reflexivity.
Qed.
(** The same parameter in variables of length 8: a full grid. *)
Example C75_ex_name : small_fortran
  [ONew _ 0 (FOne None); OCall _ 0 (FSetParam _ (FStr 8 "grid") (lit "cache") None); OCall _ 0 (FGetBuf _ tt None)] =
  Ok [RNothing _ _ _; RBuf _ _ _ FULL_MPIWIN].
Proof. vm_compute. reflexivity. Qed.
(** A handle used after the grid was closed, or never assigned: undefined. *)
Example C75_ex_closed :
  small_fortran [ONew _ 0 (FOne None); OClose _ 0; OCall _ 0 (FVarSize _)] = Ub /\ small_fortran [OCall _ 0 (FVarSize _)] = Ub.
Proof. split; vm_compute; reflexivity. Qed.
Example C76_ex : exists ps, set_param_u [] "cache-size" "5" 1 = Ok ps /\ param_raw ps "CACHE_SIZE" 1 = Some "5"%string /\
  param_raw ps "CACHE_SIZE" 0 = None.
Proof. eexists. split; [vm_compute; reflexivity|]. split; reflexivity. Qed.

Print Assumptions C75_same_results_partial.
Print Assumptions C75_arrives.
Print Assumptions C75_file_refuted.
Print Assumptions C75_name_refuted.
Print Assumptions C76_set_param_partial.
Print Assumptions C76_last_level_refuted.
