(** * Cell types: types/basictype.h, types/arraytype.h, types/structtype.h,
    the type selection of grid/grid.cpp and the scalar getters of grid/grid.h *)
From Coq Require Import ZArith List Bool Arith.
From Flocq Require Import Core.Core IEEE754.BinarySingleNaN IEEE754.Bits.
From Flocq Require IEEE754.Binary.
From Verif Require Import Base.
Import ListNotations.
Local Open Scope Z_scope.

(** ** The primitive types (LP64): unsigned char, int, long, float, double *)
Inductive elem := UChar | Int | Long | Float | Double.
Definition elem_eqb (a b : elem) : bool :=
  match a, b with
  | UChar, UChar | Int, Int | Long, Long | Float, Float | Double, Double => true
  | _, _ => false
  end.
(** [sizeof] *)
Definition sizeof (t : elem) : nat :=
  match t with UChar => 1 | Int => 4 | Long => 8 | Float => 4 | Double => 8 end%nat.

Notation f32 := (binary_float 24 128).
Notation f64 := (binary_float 53 1024).
(** Values of the primitive types. *)
Inductive cval := VI (z : Z) | VF (f : f32) | VD (f : f64).

(** Memory is a list of bytes (values 0..255), little endian. *)
Fixpoint le (bs : list Z) : Z :=
  match bs with
  | nil => 0
  | b :: r => b + 256 * le r
  end.
(** Two's complement reading of [n] bits. *)
Definition signed (bits z : Z) : Z :=
  let m := z mod 2 ^ bits in if m <? 2 ^ (bits - 1) then m else m - 2 ^ bits.

(** The value of an object of type [t] whose bytes are [bs].  Different NaNs
    are not distinguished. *)
Definition decode (t : elem) (bs : list Z) : cval :=
  match t with
  | UChar => VI (le bs mod 2 ^ 8)
  | Int => VI (signed 32 (le bs))
  | Long => VI (signed 64 (le bs))
  | Float => VF (Binary.B2BSN 24 128 (b32_of_bits (le bs mod 2 ^ 32)))
  | Double => VD (Binary.B2BSN 53 1024 (b64_of_bits (le bs mod 2 ^ 64)))
  end.
Fixpoint le_bytes (n : nat) (z : Z) : list Z :=
  match n with
  | O => nil
  | S n' => z mod 256 :: le_bytes n' (z / 256)
  end.

(** ** C++ conversions between the primitive types

    Integer to integer: modulo the width (for signed targets implementation
    defined until C++20, and this everywhere).  Floating to integer: truncation,
    undefined if the result does not fit.  To floating: round to nearest even. *)
Definition int_range (t : elem) : Z * Z :=
  match t with
  | UChar => (0, 255)
  | Int => (- 2 ^ 31, 2 ^ 31 - 1)
  | Long => (- 2 ^ 63, 2 ^ 63 - 1)
  | _ => (1, 0)
  end.
Definition fits (t : elem) (z : Z) : bool := (fst (int_range t) <=? z) && (z <=? snd (int_range t)).
Definition wrap (t : elem) (z : Z) : Z :=
  match t with
  | UChar => z mod 2 ^ 8
  | Int => signed 32 z
  | _ => signed 64 z
  end.
Definition prec32 : Prec_gt_0 24 := eq_refl.
Definition prec32' : Prec_lt_emax 24 128 := eq_refl.
Definition prec64 : Prec_gt_0 53 := eq_refl.
Definition prec64' : Prec_lt_emax 53 1024 := eq_refl.
Definition z_f32 (z : Z) : f32 := binary_normalize 24 128 prec32 prec32' mode_NE z 0 false.
Definition z_f64 (z : Z) : f64 := binary_normalize 53 1024 prec64 prec64' mode_NE z 0 false.
Definition f32_f64 (f : f32) : f64 :=
  match f with
  | B754_zero s => B754_zero s
  | B754_infinity s => B754_infinity s
  | B754_nan => B754_nan
  | B754_finite s m e _ => binary_normalize 53 1024 prec64 prec64' mode_NE (cond_Zopp s (Zpos m)) e s
  end.
Definition f64_f32 (f : f64) : f32 :=
  match f with
  | B754_zero s => B754_zero s
  | B754_infinity s => B754_infinity s
  | B754_nan => B754_nan
  | B754_finite s m e _ => binary_normalize 24 128 prec32 prec32' mode_NE (cond_Zopp s (Zpos m)) e s
  end.
Definition to_int (t : elem) (finite : bool) (z : Z) : outcome cval :=
  if finite && fits t z then Ok (VI z) else Ub.

(** [*buf = *data] where [buf] has type [t]. *)
Definition conv (t : elem) (v : cval) : outcome cval :=
  match t, v with
  | (UChar | Int | Long), VI z => Ok (VI (wrap t z))
  | (UChar | Int | Long), VF f => to_int t (is_finite f) (Btrunc f)
  | (UChar | Int | Long), VD f => to_int t (is_finite f) (Btrunc f)
  | Float, VI z => Ok (VF (z_f32 z))
  | Float, VF f => Ok (VF f)
  | Float, VD f => Ok (VF (f64_f32 f))
  | Double, VI z => Ok (VD (z_f64 z))
  | Double, VF f => Ok (VD (f32_f64 f))
  | Double, VD f => Ok (VD f)
  end.

(** ** Type objects *)
(** The state of a type object: the class, the element type, and
    [m_arraySize] (types/arraytype.h line 60) resp. [m_size]
    (types/structtype.h line 64).  The MPI data types are not modelled. *)
Inductive kind := KBasic | KArray | KStruct.
Record ctype := CType { ct_kind : kind; ct_elem : elem; ct_n : nat }.

(** [size()], types/basictype.h line 60, arraytype.h line 123, structtype.h line 194. *)
Definition type_size (t : ctype) : nat :=
  match ct_kind t with
  | KBasic => sizeof (ct_elem t)
  | KArray => ct_n t * sizeof (ct_elem t)
  | KStruct => ct_n t
  end.

(** Memory for results: a byte that was never written is [None]. *)
Definition buffer := list (option Z).
(** [Type::copy] ([memcpy]), types/type.h: [n] bytes from [data] to the start
    of [buf]; outside of either object: undefined. *)
Definition copy (data : list Z) (buf : buffer) (n : nat) : outcome buffer :=
  if (n <=? length data)%nat && (n <=? length buf)%nat
  then Ok (map Some (firstn n data) ++ skipn n buf)
  else Ub.
(** Reading an object of type [t] from a buffer; uninitialised bytes: undefined. *)
Fixpoint all_some (b : buffer) : option (list Z) :=
  match b with
  | nil => Some nil
  | Some x :: r => option_map (cons x) (all_some r)
  | None :: _ => None
  end.
Definition read_var (t : elem) (b : buffer) : outcome cval :=
  match all_some (firstn (sizeof t) b) with
  | Some bs => Ok (decode t bs)
  | None => Ub
  end.

(** [convert(const void*, void* )]: basictype.h lines 93-96, arraytype.h lines
    149-152, structtype.h lines 220-223; [data] are the bytes from the cell on. *)
Definition convert_raw (t : ctype) (data : list Z) (buf : buffer) : outcome buffer :=
  copy data buf (type_size t).

(** A scalar getter of grid/grid.h lines 149-187 with the level's
    [type().convert(cell, buf)]: a local variable [buf] of type [b], the
    conversion, and the variable's value.  For [BasicType] overload resolution
    picks the template [convert<B>] of basictype.h lines 84-88.  The classes
    [ArrayType] and [StructType] declare a [convert(const void*, void* )] which
    hides the inherited template, so there the raw copy is called. *)
Definition get_scalar (t : ctype) (b : elem) (cell : list Z) : outcome cval :=
  match ct_kind t with
  | KBasic => conv b (decode (ct_elem t) (firstn (sizeof (ct_elem t)) cell))
  | KArray | KStruct =>
      do buf <- convert_raw t cell (repeat None (sizeof b));
      read_var b buf
  end.
(** [getBuf], grid/grid.h lines 189-192. *)
Definition get_buf (t : ctype) (cell : list Z) (buf : buffer) : outcome buffer := convert_raw t cell buf.

(** ** [check], as executed concurrently by the domains' masters

    types/arraytype.h lines 90-121 and structtype.h lines 143-192, without
    the creation of the MPI data type (which is assumed to succeed). *)
Inductive err := ESuccess | EInvalid | EWrong.
Inductive cpc :=
| CIdle                   (* between two checks *)
| CLock (sz : nat)        (* about to lock *)
| CTest (sz : nat)        (* locked, about to read m_arraySize *)
| CSet (sz : nat)         (* read 0, about to write *)
| CUnlock (sz : nat) (r : err).
Record cthread := CThread { c_todo : list nat; c_pc : cpc; c_log : list (nat * err) }.
Record cstate := CState { c_size : nat; c_lock : option nat; c_thr : nat -> cthread }.

(** The size that is stored: number of elements for arrays, bytes for structs. *)
Definition unit_of (k : kind) (e : elem) : nat :=
  match k with KArray => sizeof e | _ => 1 end.
Definition cstep (k : kind) (e : elem) (s : cstate) (t : nat) : option cstate :=
  let th := c_thr s t in
  let u := unit_of k e in
  let go sz lk th' := Some (CState sz lk (upd (c_thr s) t th')) in
  match c_pc th with
  | CIdle =>
      match c_todo th with
      | nil => None
      | sz :: r =>
          if negb (sz mod u =? 0)%nat
          then go (c_size s) (c_lock s) (CThread r CIdle (c_log th ++ [(sz, EInvalid)]))
          else go (c_size s) (c_lock s) (CThread r (CLock sz) (c_log th))
      end
  | CLock sz =>
      match c_lock s with
      | Some _ => None
      | None => go (c_size s) (Some t) (CThread (c_todo th) (CTest sz) (c_log th))
      end
  | CTest sz =>
      if (c_size s =? 0)%nat then go (c_size s) (c_lock s) (CThread (c_todo th) (CSet sz) (c_log th))
      else go (c_size s) (c_lock s)
             (CThread (c_todo th)
                (CUnlock sz (if (sz / u =? c_size s)%nat then ESuccess else EWrong)) (c_log th))
  | CSet sz => go (sz / u)%nat (c_lock s) (CThread (c_todo th) (CUnlock sz ESuccess) (c_log th))
  | CUnlock sz r => go (c_size s) None (CThread (c_todo th) CIdle (c_log th ++ [(sz, r)]))
  end.
Definition cinit (todo : nat -> list nat) : cstate :=
  CState 0 None (fun t => CThread (todo t) CIdle nil).
Fixpoint crun (k : kind) (e : elem) (s : cstate) (l : list nat) : option cstate :=
  match l with
  | nil => Some s
  | t :: r => match cstep k e s t with Some s' => crun k e s' r | None => None end
  end.
(** [size()] at that moment. *)
Definition csize (k : kind) (e : elem) (s : cstate) : nat := c_size s * unit_of k e.

(** ** Type selection *)
(** [asagi::Grid::Type], include/asagi.h lines 66-85. *)
Inductive atype := BYTE | INT | LONG | FLOAT | DOUBLE.
(** The element type for a requested type: the switches of grid/grid.cpp
    lines 113-155 and types/structtype.cpp lines 55-70. *)
Definition elem_of (a : atype) : elem :=
  match a with BYTE => UChar | INT => Int | LONG => Long | FLOAT => Float | DOUBLE => Double end.
(** [Grid::Grid(type, isArray)], grid/grid.cpp lines 108-157. *)
Definition new_grid (a : atype) (isArray : bool) : ctype :=
  if isArray then CType KArray (elem_of a) 0 else CType KBasic (elem_of a) 0.
(** [Grid::Grid(count, ...)], lines 165-174, [createStruct],
    types/structtype.cpp lines 45-75 (by the type of the first member). *)
Definition new_struct (types : list atype) : outcome ctype :=
  match types with
  | nil => Ub
  | a :: _ => Ok (CType KStruct (elem_of a) 0)
  end.
(** [dynamic_cast<Head*>(grid.m_type)] succeeds: the object's class is [Head]
    or derived from it (ArrayType<T> and StructType<T> derive from BasicType<T>:
    types/arraytype.h line 56, structtype.h line 55). *)
Definition is_a (t : ctype) (h : kind * elem) : bool :=
  let (k, e) := h in
  elem_eqb (ct_elem t) e &&
  match k, ct_kind t with
  | KBasic, _ => true
  | KArray, KArray => true
  | KStruct, KStruct => true
  | _, _ => false
  end.
(** [TypeSelector::createContainer], grid/grid.cpp lines 61-101: the first type
    of the list for which the cast succeeds; [None]: the [NullType] end. *)
Fixpoint select_type (l : list (kind * elem)) (t : ctype) : option (kind * elem) :=
  match l with
  | nil => None
  | h :: r => if is_a t h then Some h else select_type r t
  end.
(** grid/grid.cpp lines 299-315. *)
Definition typelist : list (kind * elem) :=
  [ (KArray, UChar); (KArray, Int); (KArray, Long); (KArray, Float); (KArray, Double);
    (KStruct, UChar); (KStruct, Int); (KStruct, Long); (KStruct, Float); (KStruct, Double);
    (KBasic, UChar); (KBasic, Int); (KBasic, Long); (KBasic, Float); (KBasic, Double) ].

(** ** Loading bytes: [nc_get_varm_uchar] (io/netcdfreader.h, [getVar] for
    unsigned char) on a variable of netCDF type NC_BYTE with value [v]
    (-128..127): the netCDF library copies the eight bits. *)
Definition load_byte (v : Z) : list Z := [v mod 256].
