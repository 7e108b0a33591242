(** * Coordinates: grid/level/level.h and the metadata part of io/netcdfreader.h

    The functions are written once over an abstract record of number
    operations ([arith]) and used with two instances: exact real arithmetic
    (extended by infinities and NaN, [exact]) and IEEE-754 binary64 ([ieee],
    Flocq's executable definitions, round to nearest even).  The latter is what
    [double] means on the supported platforms. *)
From Coq Require Import ZArith Reals Bool List.
From Flocq Require Import Core.Core IEEE754.BinarySingleNaN.
From Verif Require Import Base.
Import ListNotations.
Local Open Scope Z_scope.

(** The operations on [double] which the code uses. *)
Record arith := Arith {
  num : Type;
  a_add : num -> num -> num;
  a_sub : num -> num -> num;
  a_mul : num -> num -> num;
  a_div : num -> num -> num;
  a_floor : num -> num;           (* std::floor *)
  a_abs : num -> num;             (* std::abs *)
  a_ltb : num -> num -> bool;     (* < (false if one side is NaN) *)
  a_leb : num -> num -> bool;     (* <= *)
  a_eqb : num -> num -> bool;     (* == *)
  a_isinf : num -> bool;          (* std::isinf *)
  a_ofZ : Z -> num;               (* conversion from unsigned long or int *)
  a_half : num;                   (* 0.5 *)
  a_prec : num;                   (* NUMERIC_PRECISION = 1e-10, level.h line 390 *)
  a_inf : bool -> num;            (* infinity; true: negative *)
  a_toZ : num -> option Z         (* conversion to size_t; None: undefined *)
}.

(** Values representable in [size_t] and [unsigned long]. *)
Definition size_max : Z := 2 ^ 64.

(** ** One coordinate variable of the file

    What [nc_inq_varid] and [nc_get_var1_double] see of dimension [i]: its
    extent and the values of the variable with the name of the dimension, if
    there is one.  Errors of [nc_get_var1_double] (which the code ignores) are
    not modelled. *)
Record axis (A : arith) := Axis {
  x_size : Z;
  x_var : option (Z -> num A)
}.
Arguments Axis {A} x_size x_var.
Arguments x_size {A} a.
Arguments x_var {A} a.

Inductive value_pos := CellCentered | VertexCentered.

(** The members of [Level] for one dimension, grid/level/level.h lines 66-100. *)
Record dimmeta (A : arith) := DimMeta {
  dm_size : Z;
  dm_off : num A;
  dm_scal : num A;
  dm_sinv : num A;
  dm_min : num A;
  dm_max : num A
}.
Arguments DimMeta {A} dm_size dm_off dm_scal dm_sinv dm_min dm_max.
Arguments dm_size {A} d.
Arguments dm_off {A} d.
Arguments dm_scal {A} d.
Arguments dm_sinv {A} d.
Arguments dm_min {A} d.
Arguments dm_max {A} d.

Section Generic.
  Context (A : arith).

  (** [getOffset], io/netcdfreader.h lines 142-156 (for an existing
      dimension). *)
  Definition get_offset (ax : axis A) : num A :=
    match x_var ax with
    | None => a_ofZ A 0
    | Some f => f 0
    end.

  (** [getScaling], io/netcdfreader.h lines 162-183 (for an existing
      dimension). *)
  Definition get_scaling (ax : axis A) : num A :=
    if x_size ax =? 1 then a_inf A false
    else
      match x_var ax with
      | None => a_ofZ A 1
      | Some f =>
          a_div A (a_sub A (f (x_size ax - 1)) (f 0)) (a_ofZ A (x_size ax - 1))
      end.

  (** [getInvScaling], grid/level/level.h lines 398-404. *)
  Definition inv_scaling (s : num A) : num A :=
    if a_eqb A s (a_ofZ A 0) || a_isinf A s then a_ofZ A 0
    else a_div A (a_ofZ A 1) s.

  (** [round], grid/level/level.h lines 409-412. *)
  Definition c_round (v : num A) : num A := a_floor A (a_add A v (a_half A)).

  (** [std::min] and [std::max] on [double]. *)
  Definition std_min (a b : num A) : num A := if a_ltb A b a then b else a.
  Definition std_max (a b : num A) : num A := if a_ltb A a b then b else a.

  (** The body of the two loops of [Level::open] for one dimension,
      grid/level/level.h lines 227-262. *)
  Definition open_dim (vp : value_pos) (ax : axis A) : dimmeta A :=
    let size := x_size ax in
    let off := get_offset ax in
    let s := get_scaling ax in
    let sinv := inv_scaling s in
    if a_isinf A s then
      DimMeta size off s sinv (a_inf A true) (a_inf A false)
    else
      let mn := off in
      let mx := a_add A off (a_mul A s (a_ofZ A (size - 1))) in
      let h := a_mul A s (a_sub A (a_half A) (a_prec A)) in
      let mn' := match vp with CellCentered => a_sub A mn h | VertexCentered => mn end in
      let mx' := match vp with CellCentered => a_add A mx h | VertexCentered => mx end in
      DimMeta size off (a_abs A s) sinv (std_min mn' mx') (std_max mn' mx').

  (** [Level::open] for all dimensions. *)
  Definition level_open (vp : value_pos) (axes : list (axis A)) : list (dimmeta A) :=
    map (open_dim vp) axes.

  (** The body of the loop of [pos2index], grid/level/level.h lines 358-370:
      the index and whether the "out of range" warning was logged. *)
  Definition pos2index_dim (off sinv : num A) (size : Z) (pos : num A)
    : outcome (Z * bool) :=
    let x := c_round (a_mul A (a_sub A pos off) sinv) in
    let out := a_ltb A x (a_ofZ A 0) || a_leb A (a_ofZ A size) x in
    let x' :=
      if out then
        if a_ltb A x (a_ofZ A 0) then a_ofZ A 0 else a_ofZ A (size - 1)
      else x in
    match a_toZ A x' with
    | Some i => Ok (i, out)
    | None => Ub
    end.

  (** [pos2index], grid/level/level.h lines 356-371: the loop for
      [i = k-1, ..., 0].  [pos] is the argument array, [index] the output
      array. *)
  Fixpoint pos2index_loop (metas : nat -> dimmeta A) (dims : nat) (k : nat)
      (pos : nat -> num A) (index : nat -> Z) (warned : bool)
    : outcome ((nat -> Z) * bool) :=
    match k with
    | O => Ok (index, warned)
    | S i =>
        let m := metas i in
        do r <- pos2index_dim (dm_off m) (dm_sinv m) (dm_size m)
                  (pos (dims - i - 1)%nat);
        let '(x, w) := r in
        pos2index_loop metas dims i pos (upd index i x) (warned || w)
    end.

  (** Reading past the end of a member array does not happen: all indices are
      below [m_dims]. *)
  Definition dummy_meta : dimmeta A :=
    DimMeta 1 (a_ofZ A 0) (a_ofZ A 0) (a_ofZ A 0) (a_ofZ A 0) (a_ofZ A 0).
  Definition meta (lv : list (dimmeta A)) (i : nat) : dimmeta A :=
    nth i lv dummy_meta.

  (** [index] starts uninitialised; [init] is its content. *)
  Definition pos2index (lv : list (dimmeta A)) (pos : nat -> num A)
      (init : nat -> Z) : outcome ((nat -> Z) * bool) :=
    pos2index_loop (meta lv) (length lv) (length lv) pos init false.

  (** [min], [max] and [delta], grid/level/level.h lines 175-204. *)
  Definition level_min (lv : list (dimmeta A)) (n : nat) : num A :=
    dm_min (meta lv (length lv - n - 1)).
  Definition level_max (lv : list (dimmeta A)) (n : nat) : num A :=
    dm_max (meta lv (length lv - n - 1)).
  Definition level_delta (lv : list (dimmeta A)) (n : nat) : num A :=
    dm_scal (meta lv (length lv - n - 1)).
End Generic.

(** ** Exact arithmetic *)

(** Reals extended by infinities ([true]: negative) and NaN. *)
Inductive xreal := XFin (r : R) | XInf (neg : bool) | XNan.

Definition xneg (a : xreal) : xreal :=
  match a with
  | XFin r => XFin (- r)
  | XInf s => XInf (negb s)
  | XNan => XNan
  end.
Definition xadd (a b : xreal) : xreal :=
  match a, b with
  | XFin r, XFin q => XFin (r + q)
  | XInf s, XFin _ | XFin _, XInf s => XInf s
  | XInf s, XInf t => if Bool.eqb s t then XInf s else XNan
  | _, _ => XNan
  end.
(** Sign of a real (only used for non-zero ones). *)
Definition rneg (r : R) : bool := if Rlt_dec r 0 then true else false.
Definition rzero (r : R) : bool := if Req_EM_T r 0 then true else false.
Definition xmul (a b : xreal) : xreal :=
  match a, b with
  | XFin r, XFin q => XFin (r * q)
  | XInf s, XFin q | XFin q, XInf s =>
      if rzero q then XNan else XInf (xorb s (rneg q))
  | XInf s, XInf t => XInf (xorb s t)
  | _, _ => XNan
  end.
Definition xdiv (a b : xreal) : xreal :=
  match a, b with
  | XFin r, XFin q =>
      if rzero q then (if rzero r then XNan else XInf (rneg r)) else XFin (r / q)
  | XInf s, XFin q => XInf (xorb s (rneg q))
  | XFin _, XInf _ => XFin 0
  | _, _ => XNan
  end.
Definition xfloor (a : xreal) : xreal :=
  match a with XFin r => XFin (IZR (Zfloor r)) | _ => a end.
Definition xabs (a : xreal) : xreal :=
  match a with XFin r => XFin (Rabs r) | XInf _ => XInf false | XNan => XNan end.
Definition xltb (a b : xreal) : bool :=
  match a, b with
  | XFin r, XFin q => if Rlt_dec r q then true else false
  | XInf true, XFin _ => true
  | XFin _, XInf false => true
  | XInf true, XInf false => true
  | _, _ => false
  end.
Definition xleb (a b : xreal) : bool :=
  match a, b with
  | XFin r, XFin q => if Rle_dec r q then true else false
  | XInf s, XInf t => s || negb t
  | XInf true, XFin _ => true
  | XFin _, XInf false => true
  | _, _ => false
  end.
Definition xeqb (a b : xreal) : bool :=
  match a, b with
  | XFin r, XFin q => rzero (r - q)
  | XInf s, XInf t => Bool.eqb s t
  | _, _ => false
  end.
(** Conversion to [size_t] truncates; it is undefined for NaN, infinities and
    values out of range. *)
Definition xtoZ (a : xreal) : option Z :=
  match a with
  | XFin r =>
      let z := Ztrunc r in
      if (0 <=? z) && (z <? size_max) then Some z else None
  | _ => None
  end.

Definition exact : arith := {|
  num := xreal;
  a_add := xadd;
  a_sub := fun a b => xadd a (xneg b);
  a_mul := xmul;
  a_div := xdiv;
  a_floor := xfloor;
  a_abs := xabs;
  a_ltb := xltb;
  a_leb := xleb;
  a_eqb := xeqb;
  a_isinf := fun a => match a with XInf _ => true | _ => false end;
  a_ofZ := fun z => XFin (IZR z);
  a_half := XFin (1 / 2);
  a_prec := XFin (1 / 10000000000);
  a_inf := XInf;
  a_toZ := xtoZ
|}.

(** ** IEEE-754 binary64 *)

Definition f64 := binary_float 53 1024.
Definition Hprec53 : FLX.Prec_gt_0 53 := eq_refl.
Definition Hmax1024 : Prec_lt_emax 53 1024 := eq_refl.
#[global] Existing Instance Hprec53.
#[global] Existing Instance Hmax1024.

(** A double from mantissa and exponent, rounded to nearest even. *)
Definition fnum (m e : Z) : f64 := binary_normalize 53 1024 _ _ mode_NE m e false.

Definition f_toZ (a : f64) : option Z :=
  if is_finite a then
    let z := Btrunc a in
    if (0 <=? z) && (z <? size_max) then Some z else None
  else None.

Definition ieee : arith := {|
  num := f64;
  a_add := Bplus mode_NE;
  a_sub := Bminus mode_NE;
  a_mul := Bmult mode_NE;
  a_div := Bdiv mode_NE;
  a_floor := Bnearbyint mode_DN;
  a_abs := @Babs 53 1024;
  a_ltb := @Bltb 53 1024;
  a_leb := @Bleb 53 1024;
  a_eqb := @Beqb 53 1024;
  a_isinf := fun a => match a with B754_infinity _ => true | _ => false end;
  a_ofZ := fun z => fnum z 0;
  a_half := fnum 1 (-1);
  (* 1e-10 is 0x1.b7cdfd9d7bdbbp-34 *)
  a_prec := fnum 0x1b7cdfd9d7bdbb (-86);
  a_inf := @B754_infinity 53 1024;
  a_toZ := f_toZ
|}.
