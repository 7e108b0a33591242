(** * Metadata of a grid with several levels: grid/container.h, grid/simplecontainer.h, the getters of grid/grid.h

    [D]: numbers; an entry that nobody has written is [None].  What a file's axes give ([Level::open], grid/level/level.h
    lines 226-261) is in CoordModel and FileModel; here it is one [meta] per dimension, in the file's order.  One NUMA domain:
    grid/grid.h lines 124-142 ask the container of domain 0. *)
From Coq Require Export List Arith Bool.
From Verif Require Export Base.
Export ListNotations.

Section Cont.
Variable D : Type.
Variable maxd : nat.   (* MAX_DIMENSIONS *)
Record meta := Meta { e_min : D; e_max : D; e_delta : D }.

(** How an open of a level ends: before line 226 of level.h (the file or the variable does not exist, ...); with an error
    afterwards (the type does not fit, no memory, ...); with SUCCESS. *)
Inductive result := NoFile | Bad (m : list meta) | Good (m : list meta).

(** ** Levels: [m_dims]; [m_min], [m_max] and [m_scaling] *)
Record lev := Lev { v_dims : nat; v_arr : nat -> option meta }.
(** [Level::Level], grid/level/level.h lines 137-145. *)
Definition lev0 : lev := Lev 0 (fun _ => None).
(** The copy constructor, grid/level/level.h lines 125-132: the arrays are not copied. *)
Definition copy (l : lev) : lev := Lev (v_dims l) (fun _ => None).
Definition fill (l : lev) (m : list meta) : lev :=
  Lev (List.length m) (fun i => match nth_error m i with Some x => Some x | None => v_arr l i end).
(** [Level::open] and the rest of the derived classes' [open]; true: SUCCESS. *)
Definition level_open (l : lev) (r : result) : lev * bool :=
  match r with NoFile => (l, false) | Bad m => (fill l m, false) | Good m => (fill l m, true) end.
(** [min], [max], [delta], grid/level/level.h lines 175-206: the entry of dimension [n] in the order of the interface.  The
    assertion is off in releases; the access is then outside of the array or of the dimensions. *)
Definition at_dim (l : lev) (n : nat) : outcome (option meta) :=
  if n <? v_dims l then Ok (v_arr l (v_dims l - n - 1)) else Ub.

(** ** The container: [m_dimensions], [m_min], [m_max], [m_levels] with its capacity *)
Record cont := Cont { c_dims : nat; c_min : nat -> option D; c_max : nat -> option D; c_lv : nat -> lev; c_count : nat; c_cap : nat }.
(** grid/container.h lines 84-92. *)
Definition cont0 : cont := Cont 0 (fun _ => None) (fun _ => None) (fun _ => lev0) 0 0.
Variable grow : nat -> nat -> nat.
(** [m_levels.resize], grid/simplecontainer.h lines 85-87; see [vresize] of GridModel. *)
Definition resize (s : cont) (n : nat) : cont :=
  if n <=? c_count s then s
  else if n <=? c_cap s then Cont (c_dims s) (c_min s) (c_max s) (c_lv s) n (c_cap s)
  else Cont (c_dims s) (c_min s) (c_max s) (fun i => if i <? c_count s then copy (c_lv s i) else lev0) n (grow (c_count s) n).
(** The loop of lines 105-108: entry [i] of [m_min] and [m_max]. *)
Definition entry (f : meta -> D) (l : lev) (old : nat -> option D) (i : nat) : option D :=
  if i <? v_dims l then match at_dim l i with Ok (Some e) => Some (f e) | _ => None end else old i.
(** [init], grid/simplecontainer.h lines 78-112. *)
Definition init (s : cont) (o : nat * result) : cont :=
  let (i, r) := o in
  let s1 := resize s (i + 1) in
  let (l, ok) := level_open (c_lv s1 i) r in
  if ok && (i =? 0)
  then Cont (v_dims l) (entry e_min l (c_min s1)) (entry e_max l (c_max s1)) (upd (c_lv s1) i l) (c_count s1) (c_cap s1)
  else Cont (c_dims s1) (c_min s1) (c_max s1) (upd (c_lv s1) i l) (c_count s1) (c_cap s1).
Definition opens (h : list (nat * result)) : cont := fold_left init h cont0.

(** ** Queries: grid/container.h lines 119-145, grid/simplecontainer.h lines 114-120 *)
Definition get_dims (s : cont) : nat := c_dims s.
Definition get_min (s : cont) (n : nat) : outcome (option D) := if n <? maxd then Ok (c_min s n) else Ub.
Definition get_max (s : cont) (n : nat) : outcome (option D) := if n <? maxd then Ok (c_max s n) else Ub.
Definition get_delta (s : cont) (n level : nat) : outcome (option D) :=
  if (n <? maxd) && (level <? c_count s) then
    do x <- at_dim (c_lv s level) n; Ok (option_map e_delta x)
  else Ub.
(** The coordinates that a read of this level looks at: [pos2index], grid/level/level.h lines 356-371. *)
Definition coordinates_used (s : cont) (level : nat) : nat := v_dims (c_lv s level).
End Cont.
Arguments Meta {D}. Arguments e_min {D}. Arguments e_max {D}. Arguments e_delta {D}.
Arguments NoFile {D}. Arguments Bad {D}. Arguments Good {D}.
