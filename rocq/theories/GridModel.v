(** * Grid level objects: error broadcast of open, the vector of levels,
    Fortran handles (grid/grid.cpp, grid/simplecontainer.h, grid/level/level.h,
    fortran/pointerarray.h) *)
From Verif Require Export SyncModel.

(** ** [Grid::open], grid/grid.cpp lines 214-249

    All threads (numbered by their thread id) execute the same sequence of
    opens.  The domain masters execute the container's [init]; its error code
    for open [k] in domain [d] is [o_init d k] (0: success).  Registration and
    [initContainers] are taken to succeed.  The final broadcast (line 244) is
    the [k]-th collective call on [m_syncThreads], with root 0 (numa/numa.h line
    167); its error is taken to be SUCCESS (line 245: pthread functions do not
    fail). *)
Record opens := Opens {
  o_threads : nat;
  o_count : nat;                     (* number of open calls *)
  o_dom : nat -> nat;                (* domain of a thread *)
  o_mast : nat -> bool;              (* the thread is the master of its domain *)
  o_init : nat -> nat -> nat         (* domain, open: error of the container's init *)
}.
(** The variable [err] at line 244. *)
Definition local_err (o : opens) (t k : nat) : nat :=
  if o_mast o t then o_init o (o_dom o t) k else 0.
Definition open_cfg (o : opens) : ycfg nat :=
  YCfg (o_threads o) (o_count o) (fun _ => Some 0) (local_err o) false.
(** The results of the opens that thread [t] has finished: the variable after
    the broadcast is returned (line 248). *)
Definition open_results (s : yst nat) (t : nat) : list nat := map snd (y_out (y_thr s t)).

(** ** The vector of levels, grid/simplecontainer.h lines 78-112

    A level is described by the members that matter here: the metadata (sizes,
    offsets, scalings; [None] = not initialised) and the pointer to its data.
    [F]: what has been opened (file and variable). *)
Section Levels.
  Variable F : Type.
  Record lv := LV { l_meta : option F; l_data : option nat }.
  (** [Level::Level(comm, numa, type)], grid/level/level.h lines 137-145. *)
  Definition lv_new : lv := LV None None.
  (** The copy constructor, level.h lines 125-132, with the implicit ones of the
      derived classes: the arrays are not copied, pointers are. *)
  Definition lv_copy (l : lv) : lv := LV None (l_data l).

  (** Data blocks by address; [None] = freed. *)
  Definition heap := list (option F).
  Fixpoint free (h : heap) (i : nat) : heap :=
    match h, i with
    | [], _ => []
    | _ :: r, 0 => None :: r
    | x :: r, S i' => x :: free r i'
    end.
  (** The destructors: grid/level/full.h lines 77-81, level.h lines 147-152. *)
  Definition destroy (h : heap) (l : lv) : heap :=
    match l_data l with Some a => free h a | None => h end.

  Record lvec := LVec { v_levels : list lv; v_cap : nat; v_heap : heap }.
  Definition lvec0 : lvec := LVec [] 0 [].

  (** [grow size needed]: the new capacity of [std::vector] if [needed]
      elements do not fit. *)
  Variable grow : nat -> nat -> nat.
  (** [m_levels.resize(n, Level(...))]: if the capacity suffices the new elements
      are appended, otherwise all elements are copied and the old ones destroyed. *)
  Definition vresize (v : lvec) (n : nat) : lvec :=
    let size := length (v_levels v) in
    if n <=? v_cap v then LVec (v_levels v ++ repeat lv_new (n - size)) (v_cap v) (v_heap v)
    else LVec (map lv_copy (v_levels v) ++ repeat lv_new (n - size)) (grow size n)
              (fold_left destroy (v_levels v) (v_heap v)).
  Fixpoint vset (l : list lv) (i : nat) (x : lv) : list lv :=
    match l, i with
    | [], _ => []
    | _ :: r, 0 => x :: r
    | y :: r, S i' => y :: vset r i' x
    end.
  (** [SimpleContainer::init] (successful): resize if necessary, then open. *)
  Definition open_level (v : lvec) (level : nat) (f : F) : lvec :=
    let v1 := if length (v_levels v) <=? level then vresize v (level + 1) else v in
    LVec (vset (v_levels v1) level (LV (Some f) (Some (length (v_heap v1))))) (v_cap v1)
         (v_heap v1 ++ [Some f]).
  (** Reading from a level ([SimpleContainer::getAt], lines 129-135): what the
      values come from; undefined without metadata or with freed data. *)
  Definition read_level (v : lvec) (level : nat) : outcome F :=
    match nth_error (v_levels v) level with
    | Some (LV (Some f) (Some a)) =>
        match nth_error (v_heap v) a with Some (Some f') => Ok f' | _ => Ub end
    | _ => Ub
    end.
  Definition open_levels (v : lvec) (l : list (nat * F)) : lvec :=
    fold_left (fun v p => open_level v (fst p) (snd p)) l v.
End Levels.
Arguments LV {F}. Arguments l_meta {F}. Arguments l_data {F}. Arguments lv_new {F}.
Arguments lv_copy {F}. Arguments free {F}. Arguments destroy {F}.
Arguments LVec {F}. Arguments v_levels {F}. Arguments v_cap {F}. Arguments v_heap {F}. Arguments lvec0 {F}.
Arguments vresize {F}. Arguments vset {F}. Arguments open_level {F}. Arguments read_level {F}.
Arguments open_levels {F}.
(** libstdc++: double the size, or as much as needed ([_M_check_len]). *)
Definition grow_gnu (size needed : nat) : nat := size + Nat.max size (needed - size).

(** ** Fortran handles, fortran/pointerarray.h

    [P]: pointers to grids.  Handles are natural numbers (the [int] of the code
    overflows after 2^31 grids, not modelled). *)
Section Pointers.
  Variable P : Type.
  Definition pointers := list (option P).
  (** [add], lines 73-81 (the grid's constructor). *)
  Definition pa_add (s : pointers) (p : P) : pointers * nat := (s ++ [Some p], length (s ++ [Some p]) - 1).
  (** [get], lines 86-92, without the assertion. *)
  Definition pa_get (s : pointers) (i : nat) : outcome (option P) :=
    match nth_error s i with Some x => Ok x | None => Ub end.
  (** [remove], lines 97-103 (the grid's destructor). *)
  Fixpoint pa_clear (s : pointers) (i : nat) : pointers :=
    match s, i with
    | [], _ => []
    | _ :: r, 0 => None :: r
    | x :: r, S i' => x :: pa_clear r i'
    end.
  Definition pa_remove (s : pointers) (i : nat) : outcome pointers :=
    if i <? length s then Ok (pa_clear s i) else Ub.
  Inductive pa_op := PCreate (p : P) | PClose (i : nat).
  (** A program: creations and closings; the handles handed out are collected. *)
  Fixpoint pa_run (s : pointers) (l : list pa_op) : outcome (pointers * list nat) :=
    match l with
    | [] => Ok (s, [])
    | PCreate p :: r =>
        let (s', h) := pa_add s p in
        do x <- pa_run s' r; Ok (fst x, h :: snd x)
    | PClose i :: r => do s' <- pa_remove s i; pa_run s' r
    end.
End Pointers.
Arguments pa_add {P}. Arguments pa_get {P}. Arguments pa_clear {P}. Arguments pa_remove {P}.
Arguments PCreate {P}. Arguments PClose {P}. Arguments pa_run {P}.

(** ** The same with threads: [add] locks, [get] does not

    The vector's storage: a buffer address and the buffers ([None] = freed). *)
Inductive gpc := GStart | GRead (buf : nat) | GDone (r : option nat).
Inductive apc := AStart | AFilled (buf : nat) | ADone.
Record cvec := CVec {
  cv_buf : nat;                              (* begin pointer *)
  cv_size : nat;
  cv_cap : nat;
  cv_heap : list (option (list nat))         (* buffers *)
}.
Fixpoint cfree (h : list (option (list nat))) (i : nat) : list (option (list nat)) :=
  match h, i with
  | [], _ => []
  | _ :: r, 0 => None :: r
  | x :: r, S i' => x :: cfree r i'
  end.
(** [push_back(p)] of one thread, in two steps: if the buffer is full, a bigger
    one is filled and made current; the old one is freed. *)
Definition add_step (v : cvec) (a : apc) (p : nat) : option (cvec * apc) :=
  match a with
  | AStart =>
      match nth_error (cv_heap v) (cv_buf v) with
      | Some (Some l) =>
          if cv_size v <? cv_cap v
          then Some (CVec (cv_buf v) (S (cv_size v)) (cv_cap v)
                       (firstn (cv_buf v) (cv_heap v) ++ [Some (l ++ [p])] ++ skipn (S (cv_buf v)) (cv_heap v)),
                     ADone)
          else Some (CVec (length (cv_heap v)) (S (cv_size v)) (2 * cv_cap v)
                       (cv_heap v ++ [Some (l ++ [p])]), AFilled (cv_buf v))
      | _ => None
      end
  | AFilled old => Some (CVec (cv_buf v) (cv_size v) (cv_cap v) (cfree (cv_heap v) old), ADone)
  | ADone => None
  end.
(** [get(i)] of another thread: read the begin pointer, then the element. *)
Definition get_step (v : cvec) (g : gpc) (i : nat) : option (outcome gpc) :=
  match g with
  | GStart => Some (Ok (GRead (cv_buf v)))
  | GRead b =>
      match nth_error (cv_heap v) b with
      | Some (Some l) => Some (Ok (GDone (nth_error l i)))
      | _ => Some Ub
      end
  | GDone _ => None
  end.
(** Interleavings of one [add(p)] and one [get(i)]; true = a step of [add]. *)
Fixpoint pa_conc (v : cvec) (a : apc) (g : gpc) (p i : nat) (l : list bool) : option (outcome gpc) :=
  match l with
  | [] => Some (Ok g)
  | true :: r => match add_step v a p with Some (v', a') => pa_conc v' a' g p i r | None => None end
  | false :: r => match get_step v g i with
                  | Some (Ok g') => pa_conc v a g' p i r
                  | x => x
                  end
  end.
