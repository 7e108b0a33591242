(** * C88: every coordinate selects a cell *)
From Coq Require Import ZArith Reals Bool List Lia Lra.
From Flocq Require Import Core.Core IEEE754.BinarySingleNaN.
From Verif Require Import Base CoordModel CoordFacts NanFacts.
Import ListNotations.
Local Open Scope R_scope.

(** Any doubles as coordinates, any doubles as first coordinate and spacing (whatever the file contains), any number of
    dimensions: the conversion to indices is undefined exactly if in one dimension the coordinate is lost: it, the first coordinate or
    the spacing is NaN; coordinate and first coordinate are the same infinity; their difference is infinite and the
    spacing zero or infinite (a single cell); they are equal and the spacing is not zero but at most 2^-1024.  Otherwise all
    indices are in range. *)
Theorem C88_exact_partial :
  forall vp (axes : list (axis ieee)) (pos : nat -> f64) init,
  (forall ax, In ax axes -> (1 <= x_size ax <= 2 ^ 53)%Z) ->
  (pos2index ieee (level_open ieee vp axes) pos init = Ub <->
   exists i ax, nth_error axes i = Some ax /\
     lost (get_offset ieee ax) (get_scaling ieee ax) (pos (user_dim (length axes) i))) /\
  (forall idx w, pos2index ieee (level_open ieee vp axes) pos init = Ok (idx, w) ->
   forall i ax, nth_error axes i = Some ax -> (0 <= idx i < x_size ax)%Z).
Proof. exact level_lost. Qed.
Print Assumptions C88_exact_partial.

(** A coordinate that is NaN is never corrected, in no file. *)
Theorem C88_nan_refuted :
  forall vp (axes : list (axis ieee)) (pos : nat -> f64) init i,
  (forall ax, In ax axes -> (1 <= x_size ax <= 2 ^ 53)%Z) -> (i < length axes)%nat ->
  is_nan (pos (user_dim (length axes) i)) = true ->
  pos2index ieee (level_open ieee vp axes) pos init = Ub.
Proof.
  exact (fun vp axes pos init i H L N => nan_lost vp axes pos init i H L N).
Qed.
Print Assumptions C88_nan_refuted.

(** Two cells, 0 and 2^-1074: both ends of the reported range are finite, the centre of the first cell cannot be read. *)
Theorem C88_tiny_refuted :
  let lv := level_open ieee VertexCentered [tiny_axis] in
  is_finite (level_min ieee lv 0) = true /\ is_finite (level_max ieee lv 0) = true /\
  pos2index ieee lv (fun _ => level_min ieee lv 0) (fun _ => 0%Z) = Ub.
Proof. vm_compute. auto. Qed.
Print Assumptions C88_tiny_refuted.

(** Infinities are corrected to the ends of an ordinary dimension, also on a falling axis; 2^-1022 is a possible spacing. *)
Example C88_example :
  let up := @Axis ieee 5 (Some (fun k => fnum k 0)) in
  let down := @Axis ieee 5 (Some (fun k => fnum (- k) (-1022))) in
  let read p := match pos2index ieee (level_open ieee CellCentered [up; down]) (fun _ => p) (fun _ => 9%Z) with
                | Ok (idx, w) => Some (idx 0%nat, idx 1%nat, w) | Ub => None end in
  read (B754_infinity false) = Some (4%Z, 0%Z, true) /\ read (B754_infinity true) = Some (0%Z, 4%Z, true) /\
  read (fnum 0 0) = Some (0%Z, 0%Z, false) /\ read B754_nan = None.
Proof. vm_compute. auto. Qed.
