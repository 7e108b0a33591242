(** * Opening a level: io/netcdfreader.cpp, io/netcdfreader.h, [Level::open] of grid/level/level.h, [check] of types/

    A netCDF file has dimensions and variables of any type; the reader looks up the variable, the level reads the
    coordinate variables, the type of the grid compares the size of a cell.

    Simplifications: the netCDF library is a table of open files, it fails for the reasons listed here only; a coordinate
    variable's values are already converted to [double] ([D], with its operations); one thread opens (C35 and C63 have
    several), with the files of the other NUMA domains among the ones open before. *)
From Coq Require Export List Arith Bool String.
From Verif Require Export Base.
From Verif Require Import NetCdfModel.
Export ListNotations.

(** ** Files *)
(** Types of variables: numbers of 1 to 8 bytes, NC_CHAR, NC_STRING, and user-defined types of a size.  The library
    converts between numbers only (NC_ECHAR, NC_EBADTYPE otherwise). *)
Inductive nctype := TNum (size : nat) | TChar | TString | TUser (size : nat).
(** [nc_inq_type]; a string is a pointer. *)
Definition tsize (t : nctype) : nat := match t with TNum n => n | TChar => 1 | TString => 8 | TUser n => n end.
Definition numeric (t : nctype) : bool := match t with TNum _ => true | _ => false end.

Section Open.
Variable D : Type.
(** Dimensions of a variable are positions in the file's list of dimensions. *)
Record ncvar := Var { v_name : string; v_type : nctype; v_dims : list nat; v_data : list nat -> D }.
Record ncfile := NcFile { f_dims : list (string * nat); f_vars : list ncvar }.
Definition disk := string -> option ncfile.
(** The files which the library has opened; [None]: closed again. *)
Definition handles := list (option ncfile).

Definition nc_open (k : disk) (w : handles) (name : string) : option (handles * nat) :=
  match k name with
  | Some f => Some (w ++ [Some f], List.length w)
  | None => None
  end.
Fixpoint close_at (w : handles) (i : nat) : handles :=
  match w, i with
  | [], _ => []
  | _ :: r, O => None :: r
  | x :: r, S i' => x :: close_at r i'
  end.
(** Closing a file which is not open is an error that nobody sees (NC_EBADID, or another file with the same id); [Ub] here. *)
Definition nc_close (w : handles) (i : nat) : outcome handles :=
  match nth_error w i with Some (Some _) => Ok (close_at w i) | _ => Ub end.
Definition nc_inq_varid (f : ncfile) (name : string) : option ncvar :=
  find (fun v => String.eqb (v_name v) name) (f_vars f).
Definition nc_inq_dim (f : ncfile) (d : nat) : string * nat := nth d (f_dims f) (EmptyString, 0).
(** [nc_get_var1_double(file, x, &index, &result)] with one index: [Ok None] is an error, nothing is written; for a
    variable with several dimensions the library reads behind [index]. *)
Definition nc_get_var1 (f : ncfile) (v : ncvar) (index : nat) : outcome (option D) :=
  match v_dims v with
  | [] => Ok (if numeric (v_type v) then Some (v_data v []) else None)
  | [d] => Ok (if numeric (v_type v) && (index <? snd (nc_inq_dim f d)) then Some (v_data v [index]) else None)
  | _ => Ub
  end.

(** ** The reader *)
Inductive err := SUCCESS | NOT_OPEN | VAR_NOT_FOUND | UNSUPPORTED_DIMENSIONS | INVALID_VAR_SIZE | WRONG_SIZE.
Definition err_eqb (a b : err) : bool :=
  match a, b with
  | SUCCESS, SUCCESS | NOT_OPEN, NOT_OPEN | VAR_NOT_FOUND, VAR_NOT_FOUND | UNSUPPORTED_DIMENSIONS, UNSUPPORTED_DIMENSIONS
  | INVALID_VAR_SIZE, INVALID_VAR_SIZE | WRONG_SIZE, WRONG_SIZE => true
  | _, _ => false
  end.
(** [m_file] ([None] is -1), [m_names] and [m_size] (C order), [m_varSize]; io/netcdfreader.h lines 79-102. *)
Record reader := Reader { r_file : option nat; r_names : list string; r_size : list nat; r_varsize : nat }.
(** io/netcdfreader.cpp lines 46-54. *)
Definition reader0 : reader := Reader None [] [] 0.

Variable maxd : nat.   (* MAX_DIMENSIONS *)

(** [NetCdfReader::open], io/netcdfreader.cpp lines 73-128. *)
Definition reader_open (k : disk) (w : handles) (name var : string) : outcome (handles * reader * err) :=
  match nc_open k w name with
  | None => Ok (w, reader0, NOT_OPEN)
  | Some (w1, h) =>
      match nth_error w1 h with
      | Some (Some f) =>
          match nc_inq_varid f var with
          | None => do w2 <- nc_close w1 h; Ok (w2, reader0, VAR_NOT_FOUND)
          | Some v =>
              if maxd <? List.length (v_dims v) then
                do w2 <- nc_close w1 h; Ok (w2, reader0, UNSUPPORTED_DIMENSIONS)
              else
                Ok (w1, Reader (Some h) (map (fun d => fst (nc_inq_dim f d)) (v_dims v))
                                        (map (fun d => snd (nc_inq_dim f d)) (v_dims v)) (tsize (v_type v)), SUCCESS)
          end
      | _ => Ub
      end
  end.
(** The destructor, io/netcdfreader.cpp lines 56-65. *)
Definition reader_delete (w : handles) (r : reader) : outcome handles :=
  match r_file r with Some h => nc_close w h | None => Ok w end.

(** ** Coordinates *)
Variables (zero one inf : D) (sub : D -> D -> D) (div : D -> nat -> D).
Definition file_of (w : handles) (r : reader) : outcome ncfile :=
  match r_file r with
  | Some h => match nth_error w h with Some (Some f) => Ok f | _ => Ub end
  | None => Ub
  end.
(** [getOffset], io/netcdfreader.h lines 142-156, for [i] below the number of dimensions; [None]: the uninitialised [result]. *)
Definition get_offset (w : handles) (r : reader) (i : nat) : outcome (option D) :=
  do f <- file_of w r;
  match nc_inq_varid f (nth i (r_names r) EmptyString) with
  | None => Ok (Some zero)
  | Some x => nc_get_var1 f x 0
  end.
(** [getScaling], io/netcdfreader.h lines 162-183.  ([size - 1] of an empty dimension is a huge index, see C27.) *)
Definition get_scaling (w : handles) (r : reader) (i : nat) : outcome (option D) :=
  do f <- file_of w r;
  let size := nth i (r_size r) 0 in
  if size =? 1 then Ok (Some inf)
  else match nc_inq_varid f (nth i (r_names r) EmptyString) with
  | None => Ok (Some one)
  | Some x =>
      do a <- nc_get_var1 f x 0;
      do b <- (if size =? 0 then Ok None else nc_get_var1 f x (size - 1));
      Ok (match a, b with Some a, Some b => Some (div (sub b a) (size - 1)) | _, _ => None end)
  end.
Fixpoint collect {A} (n : nat) (f : nat -> outcome A) : outcome (list A) :=
  match n with
  | O => Ok []
  | S n' => do l <- collect n' f; do x <- f n'; Ok (l ++ [x])
  end.

(** ** The grid's type: plain with an element size; array with an element size; struct with the fields' displacements
    and lengths in bytes.  [m_arraySize], [m_size]: 0 before the first check. *)
Inductive gkind := GBasic (el : nat) | GArray (el : nat) | GStruct (fields : list (nat * nat)).
(** [check]: types/basictype.h lines 55-58 (plain types: nothing is checked), types/arraytype.h lines 90-121, types/structtype.h
    lines 143-192. *)
Definition check (g : gkind) (m : nat) (varsize : nat) : nat * err :=
  match g with
  | GBasic _ => (m, SUCCESS)
  | GArray el =>
      if negb (varsize mod el =? 0) then (m, INVALID_VAR_SIZE)
      else if m =? 0 then (varsize / el, SUCCESS)
      else (m, if varsize / el =? m then SUCCESS else WRONG_SIZE)
  | GStruct _ => if m =? 0 then (varsize, SUCCESS) else (m, if varsize =? m then SUCCESS else WRONG_SIZE)
  end.
(** [size()]: bytes of a cell in memory; types/basictype.h line 60, arraytype.h line 123, structtype.h line 194. *)
Definition cell_size (g : gkind) (m : nat) : nat :=
  match g with GBasic el => el | GArray el => m * el | GStruct _ => m end.
(** The bytes an MPI transfer of [n] cells reads or writes: the datatype of types/structtype.h lines 154-173 (the fields, then
    resized to the cell size), of arraytype.h lines 105-112 (contiguous), or the plain one. *)
Definition type_map (g : gkind) (m : nat) : list nat :=
  match g with
  | GStruct fs => flat_map (fun dl => seq (fst dl) (snd dl)) fs
  | _ => seq 0 (cell_size g m)
  end.
Definition touched (g : gkind) (m n : nat) : list nat :=
  flat_map (fun c => map (fun b => c * cell_size g m + b) (type_map g m)) (seq 0 n).

(** [load], types/basictype.h lines 68-74, arraytype.h lines 138-144, structtype.h lines 209-215, for a variable of type [t].  Plain
    types use the converting functions; if there is no conversion these return an error, which is ignored, and write
    nothing. *)
Definition load {V} (g : gkind) (t : nctype) (f : NetCdfModel.file V) (off size : list nat) (base : nat) (m : mem V) : outcome (mem V) :=
  match g with
  | GBasic _ => if numeric t then get_block false f off size base m else Ok m
  | _ => get_block true f off size base m
  end.

(** ** Levels: [m_inputFile] (0L: none), [m_offset], [m_scaling] *)
Record level := Level { l_file : option reader; l_offset : list (option D); l_scaling : list (option D) }.
Definition level0 : level := Level None [] [].
(** [Level::open], grid/level/level.h lines 210-271.  The reader of an earlier [open] is overwritten (line 222).  The limits of
    lines 239-261 are in CoordModel. *)
Definition level_open (g : gkind) (k : disk) (w : handles) (m : nat) (name var : string) : outcome (handles * nat * level * err) :=
  do x <- reader_open k w name var;
  let '(w1, r, e) := x in
  if err_eqb e SUCCESS then
    do os <- collect (List.length (r_size r)) (get_offset w1 r);
    do ss <- collect (List.length (r_size r)) (get_scaling w1 r);
    let (m1, e1) := check g m (r_varsize r) in
    Ok (w1, m1, Level (Some r) os ss, e1)
  else Ok (w1, m, Level (Some r) [] [], e).

(** ** The levels of a container: opened in any order, deleted together at the end

    [m_levels] of grid/simplecontainer.h line 58: [g_levels], of which [g_count] exist, with the capacity [g_cap].  A reader is an
    object on the heap: [g_obj] is the address of the level's reader (the number of the open that created it), [g_dead] are the
    addresses deleted so far. *)
Record gst := GSt { g_open : handles; g_size : nat; g_levels : nat -> level; g_obj : nat -> nat; g_dead : list nat;
                    g_count : nat; g_cap : nat; g_log : list err }.
Definition gst0 (w : handles) : gst := GSt w 0 (fun _ => level0) (fun _ => 0) [] 0 0 [].
(** [delete m_inputFile], in the destructor (grid/level/level.h lines 147-152) and in [closeInputFile].  Deleting an object twice is
    undefined. *)
Definition destroy (s : gst) (i : nat) (x : handles * list nat) : outcome (handles * list nat) :=
  match l_file (g_levels s i) with
  | None => Ok x
  | Some r =>
      if existsb (Nat.eqb (g_obj s i)) (snd x) then Ub
      else do w <- reader_delete (fst x) r; Ok (w, g_obj s i :: snd x)
  end.
Fixpoint destroy_all (n : nat) (s : gst) : outcome (handles * list nat) :=
  match n with
  | O => Ok (g_open s, g_dead s)
  | S n' => do x <- destroy_all n' s; destroy s n' x
  end.
(** [m_levels.resize(n, Level(...))], grid/simplecontainer.h lines 85-87.  New elements have no reader.  If the capacity does not
    suffice, all levels are copied by the copy constructor (grid/level/level.h lines 125-132, which copies the pointer to the
    reader) and the old ones are destroyed.  [grow size needed]: the new capacity. *)
Variable grow : nat -> nat -> nat.
Definition resize (s : gst) (n : nat) : outcome gst :=
  if n <=? g_count s then Ok s
  else if n <=? g_cap s then Ok (GSt (g_open s) (g_size s) (g_levels s) (g_obj s) (g_dead s) n (g_cap s) (g_log s))
  else do x <- destroy_all (g_count s) s;
       Ok (GSt (fst x) (g_size s) (g_levels s) (g_obj s) (snd x) n (grow (g_count s) n) (g_log s)).
(** [closeInputFile], grid/level/level.h lines 376-380. *)
Definition close_input (s : gst) (i : nat) : outcome gst :=
  do x <- destroy s i (g_open s, g_dead s);
  Ok (GSt (fst x) (g_size s) (upd (g_levels s) i (Level None (l_offset (g_levels s i)) (l_scaling (g_levels s i)))) (g_obj s) (snd x)
          (g_count s) (g_cap s) (g_log s)).
(** One [init] of grid/simplecontainer.h lines 78-112.  [full]: the levels are full grids, which close the file after loading
    (grid/level/full.h line 127).  [rest]: the steps between [Level::open] and this line succeed. *)
Definition open_one (full : bool) (g : gkind) (k : disk) (s : gst) (o : nat * string * string * bool) : outcome gst :=
  let '(i, name, var, rest) := o in
  do s1 <- resize s (i + 1);
  do x <- level_open g k (g_open s1) (g_size s1) name var;
  let '(w, m, lv, e) := x in
  let s2 := GSt w m (upd (g_levels s1) i lv) (upd (g_obj s1) i (List.length (g_log s1))) (g_dead s1) (g_count s1) (g_cap s1) (g_log s1 ++ [e]) in
  if full && err_eqb e SUCCESS && rest then close_input s2 i else Ok s2.
Fixpoint open_all (full : bool) (g : gkind) (k : disk) (s : gst) (l : list (nat * string * string * bool)) : outcome gst :=
  match l with
  | [] => Ok s
  | o :: r => do s1 <- open_one full g k s o; open_all full g k s1 r
  end.
(** The container's destructor: grid/simplecontainer.h lines 73-76. *)
Definition delete_all (s : gst) : outcome handles := do x <- destroy_all (g_count s) s; Ok (fst x).
End Open.
