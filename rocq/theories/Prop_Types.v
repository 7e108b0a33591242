(** * C33-C35, C58, C59: cell types *)
From Coq Require Import ZArith Reals List Bool Arith Lia.
From Flocq Require Import Core.Core IEEE754.BinarySingleNaN IEEE754.Bits.
From Flocq Require IEEE754.Binary.
From Verif Require Import Base TypesModel TypesFacts CheckFacts.
Import ListNotations.
Local Open Scope Z_scope.

(** ** C33: plain grids *)
(** [getBuf] copies exactly the bytes of the cell and nothing else. *)
Theorem C33_raw : forall t cell buf,
  (type_size t <= length cell)%nat -> (type_size t <= length buf)%nat ->
  exists buf', get_buf t cell buf = Ok buf' /\ length buf' = length buf /\
    (forall i, (i < type_size t)%nat -> nth_error buf' i = option_map Some (nth_error cell i)) /\
    (forall i, (type_size t <= i)%nat -> nth_error buf' i = nth_error buf i).
Proof. exact get_buf_spec. Qed.
Print Assumptions C33_raw.

(** Bytes represent values: each value is read back from its representation. *)
Theorem C33_representation :
  (forall t z, is_int t -> in_type t z -> decode t (le_bytes (sizeof t) z) = VI z) /\
  (forall f, decode Float (le_bytes 4 (bits_of_b32 f)) = VF (Binary.B2BSN 24 128 f)) /\
  (forall f, decode Double (le_bytes 8 (bits_of_b64 f)) = VD (Binary.B2BSN 53 1024 f)).
Proof. exact (conj decode_int (conj decode_f32 decode_f64)). Qed.
Print Assumptions C33_representation.

(** An integer value (stored in any of the five types) that fits the requested
    integer type is returned exactly. *)
Theorem C33_exact_if_fits : forall e n b cell z, is_int b ->
  has_value (decode e (firstn (sizeof e) cell)) (IZR z) -> in_type b z ->
  get_scalar (CType KBasic e n) b cell = Ok (VI z).
Proof. exact basic_exact. Qed.
Print Assumptions C33_exact_if_fits.

(** Between integer types: the value modulo the width of the requested type. *)
Theorem C33_modulo_width : forall e n b cell, is_int e -> is_int b ->
  exists z r, decode e (firstn (sizeof e) cell) = VI z /\ in_type e z /\
    get_scalar (CType KBasic e n) b cell = Ok (VI r) /\ in_type b r /\ (2 ^ bits_of b | r - z).
Proof. exact basic_modulo. Qed.
Print Assumptions C33_modulo_width.

(** As [double]: the nearest double, which is the value itself for byte, int,
    float and double cells and for long cells up to 2^53. *)
Theorem C33_double_nearest : forall e n cell x,
  has_value (decode e (firstn (sizeof e) cell)) x ->
  exists f, get_scalar (CType KBasic e n) Double cell = Ok (VD f) /\ is_finite f = true /\
    B2R f = rnd64 x /\
    (e <> Long \/ (Rabs x <= IZR (2 ^ 53))%R -> B2R f = x).
Proof. exact basic_double. Qed.
Print Assumptions C33_double_nearest.
Theorem C33_float_nearest : forall e n cell x,
  has_value (decode e (firstn (sizeof e) cell)) x -> (Rabs (rnd32 x) < bpow radix2 128)%R ->
  exists f, get_scalar (CType KBasic e n) Float cell = Ok (VF f) /\ is_finite f = true /\
    B2R f = rnd32 x /\ (e = Float \/ e = UChar -> B2R f = x).
Proof. exact basic_float. Qed.
Print Assumptions C33_float_nearest.

(** The int -2 read as byte, long and int; the long 2^40+5 read as int. *)
Example C33_used :
  map (fun b => get_scalar (CType KBasic Int 0) b [254; 255; 255; 255]) [UChar; Int; Long]
    = [Ok (VI 254); Ok (VI (-2)); Ok (VI (-2))] /\
  get_scalar (CType KBasic Long 0) Int [5; 0; 0; 0; 0; 1; 0; 0] = Ok (VI 5) /\
  get_buf (CType KBasic Int 0) [1; 2; 3; 4] [None; None; None; None; Some 9]
    = Ok [Some 1; Some 2; Some 3; Some 4; Some 9].
Proof. vm_compute. repeat split. Qed.

(** ** C34: array and struct grids *)
(** The first element should be returned, converted to the requested type.
    An array of two ints (7, 8) read as int: undefined (the getter's variable is
    overrun).  An array of one float (1.0) read as int: 1065353216. *)
Theorem C34_refuted :
  (exists t b cell, length cell = type_size t /\
     conv b (decode (ct_elem t) (firstn (sizeof (ct_elem t)) cell)) = Ok (VI 7) /\
     get_scalar t b cell = Ub) /\
  (exists t b cell, length cell = type_size t /\
     has_value (decode (ct_elem t) (firstn (sizeof (ct_elem t)) cell)) (IZR 1) /\
     conv b (decode (ct_elem t) (firstn (sizeof (ct_elem t)) cell)) = Ok (VI 1) /\
     get_scalar t b cell = Ok (VI 1065353216)).
Proof. exact array_scalar_witness. Qed.
Print Assumptions C34_refuted.
(** In general: a scalar read is undefined unless the cell happens to be as
    large as the requested type; then its raw bytes are reinterpreted. *)
Theorem C34_what_happens : forall t b cell, ct_kind t <> KBasic -> length cell = type_size t ->
  get_scalar t b cell = if (type_size t =? sizeof b)%nat then Ok (decode b cell) else Ub.
Proof. exact array_scalar. Qed.
Print Assumptions C34_what_happens.
(** What remains: cells of exactly one element, read as the element type. *)
Theorem C34_single_element_partial : forall t cell, ct_kind t <> KBasic ->
  type_size t = sizeof (ct_elem t) -> length cell = type_size t ->
  get_scalar t (ct_elem t) cell = conv (ct_elem t) (decode (ct_elem t) (firstn (sizeof (ct_elem t)) cell)).
Proof. exact array_single. Qed.
Print Assumptions C34_single_element_partial.
Example C34_single_used :
  get_scalar (CType KArray Int 1) Int [7; 0; 0; 0] = conv Int (decode Int [7; 0; 0; 0]).
Proof. apply (C34_single_element_partial (CType KArray Int 1)); [discriminate|reflexivity|reflexivity]. Qed.

(** ** C35: size checks; [k] array or struct, any threads, any sequence of
    files per thread, any interleaving *)
Theorem C35_verdicts : forall k e todo, (forall t sz, In sz (todo t) -> (sz > 0)%nat) ->
  forall s t sz r, reachable_check k e todo s -> In (sz, r) (c_log (c_thr s t)) ->
  r = verdict k e (csize k e s) sz.
Proof. exact check_verdict. Qed.
Print Assumptions C35_verdicts.
Theorem C35_size_fixed_by_first : forall k e todo, (forall t sz, In sz (todo t) -> (sz > 0)%nat) ->
  forall s t sz r, reachable_check k e todo s -> In (sz, r) (c_log (c_thr s t)) ->
  r <> EInvalid -> csize k e s <> 0%nat.
Proof. exact check_fixed. Qed.
Print Assumptions C35_size_fixed_by_first.
Theorem C35_size_is_requested : forall k e todo, (forall t sz, In sz (todo t) -> (sz > 0)%nat) ->
  forall s, reachable_check k e todo s -> csize k e s <> 0%nat -> requested todo (csize k e s).
Proof. exact check_size_requested. Qed.
Print Assumptions C35_size_is_requested.
Theorem C35_size_never_changes : forall k e todo, (forall t sz, In sz (todo t) -> (sz > 0)%nat) ->
  forall s l s', reachable_check k e todo s -> crun k e s l = Some s' ->
  csize k e s <> 0%nat -> csize k e s' = csize k e s.
Proof. exact check_size_stable. Qed.
Print Assumptions C35_size_never_changes.
Theorem C35_no_deadlock : forall k e todo, (forall t sz, In sz (todo t) -> (sz > 0)%nat) ->
  forall s t, reachable_check k e todo s -> map fst (c_log (c_thr s t)) <> todo t ->
  exists v s', cstep k e s v = Some s'.
Proof. exact check_progress. Qed.
Print Assumptions C35_no_deadlock.
(** Two domains race with 8 and 12 bytes for an int array; 6 bytes are invalid. *)
Example C35_used : exists s,
  crun KArray Int (cinit (fun t => match t with 0%nat => [8; 6]%nat | 1%nat => [12; 8]%nat | _ => nil end))
    [0; 1; 1; 1; 1; 1; 0; 0; 0; 0; 1; 1; 1; 1]%nat = Some s /\
  csize KArray Int s = 12%nat /\
  c_log (c_thr s 0%nat) = [(8%nat, EWrong); (6%nat, EInvalid)] /\
  c_log (c_thr s 1%nat) = [(12%nat, ESuccess); (8%nat, EWrong)].
Proof. eexists. split; [vm_compute; reflexivity|]. vm_compute. repeat split. Qed.

(** ** C58: bytes are unsigned *)
Theorem C58_refuted : forall n v, -128 <= v < 0 ->
  get_scalar (new_grid BYTE false) Int (load_byte v) = Ok (VI (v + 256)) /\
  get_scalar (CType KBasic UChar n) UChar (load_byte v) = Ok (VI (v + 256)).
Proof. exact byte_negative. Qed.
Print Assumptions C58_refuted.
Theorem C58_nonnegative_partial : forall v b, 0 <= v < 128 -> is_int b ->
  get_scalar (new_grid BYTE false) b (load_byte v) = Ok (VI v).
Proof. exact byte_nonnegative. Qed.
Print Assumptions C58_nonnegative_partial.
Example C58_used : get_scalar (new_grid BYTE false) Int (load_byte (-1)) = Ok (VI 255) /\
  get_scalar (new_grid BYTE false) Long (load_byte 100) = Ok (VI 100).
Proof. vm_compute. split; reflexivity. Qed.

(** ** C59: the implementation class *)
(** The C type the user's choice stands for (asagi.h, [ASAGI_Type]). *)
Inductive stands_for : atype -> elem -> Prop :=
| Sf_byte : stands_for BYTE UChar
| Sf_int : stands_for INT Int
| Sf_long : stands_for LONG Long
| Sf_float : stands_for FLOAT Float
| Sf_double : stands_for DOUBLE Double.
Theorem C59_elements : forall a e, stands_for a e ->
  (forall isArray, select_type typelist (new_grid a isArray) = Some (if isArray then KArray else KBasic, e)) /\
  forall rest, exists t, new_struct (a :: rest) = Ok t /\ select_type typelist t = Some (KStruct, e).
Proof.
  intros a e H. destruct H; (split; [intros isArray; exact (grid_class _ isArray)|intros rest; exact (struct_class _ rest)]).
Qed.
Print Assumptions C59_elements.
Example C59_all : forall a, exists e, stands_for a e.
Proof. destruct a; eexists; constructor. Qed.
Theorem C59_plain_and_array : forall a isArray,
  select_type typelist (new_grid a isArray) = Some (if isArray then KArray else KBasic, elem_of a).
Proof. exact grid_class. Qed.
Print Assumptions C59_plain_and_array.
Theorem C59_struct : forall a rest, exists t, new_struct (a :: rest) = Ok t /\
  select_type typelist t = Some (KStruct, elem_of a).
Proof. exact struct_class. Qed.
Print Assumptions C59_struct.
(** Array types are also plain types: with the plain types first the wrong
    class would be chosen. *)
Example C59_order_matters :
  is_a (new_grid INT true) (KBasic, Int) = true /\
  select_type (rev typelist) (new_grid INT true) = Some (KBasic, Int).
Proof. split; reflexivity. Qed.
