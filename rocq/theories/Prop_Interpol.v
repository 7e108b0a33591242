(** * C101: preprocess/interpol_time/interpol_time.py *)
From Coq Require Import ZArith Reals List String.
From Flocq Require Import Core.Core IEEE754.BinarySingleNaN.
From Verif Require Import Base TypesModel CoordModel InterpolModel InterpolFacts.
Import ListNotations.

(** ** The new file

    Its dimensions are the old ones and "time"; coordinate variables are unchanged; every other variable has the additional
    first dimension, and step [i] has [i / 600] of the old values: integers rounded towards zero if the product does not
    overflow, floating-point numbers with a relative error of three roundings; nothing else is in the file. *)
Theorem C101_file_partial : forall f g, interpol f = Written g ->
  (forall n k, In (n, k) (i_dim g) <-> In (n, k) (i_dim f) \/ n = "time"%string /\ k = 600) /\
  (forall w, In w (i_vars g) -> w = time_var \/
     exists v, In v (i_vars f) /\ i_name w = i_name v /\
       (dim_name f (i_name v) /\ w = v \/
        ~ dim_name f (i_name v) /\ i_dims w = "time"%string :: i_dims v /\ shares (List.length (i_dims v)) (i_data v) (i_data w))) /\
  (forall v, In v (i_vars f) -> exists w, In w (i_vars g) /\ i_name w = i_name v) /\ In time_var (i_vars g) /\
  (NoDup (map i_name (i_vars f)) -> NoDup (map i_name (i_vars g))).
Proof. exact written_spec. Qed.
Print Assumptions C101_file_partial.

(** A file with a coordinate variable, a map of 2-byte integers and a profile of doubles. *)
Definition demo_file : ifile :=
  IFile [("y"%string, 3); ("x"%string, 2)]
    [IVar "x" ["x"%string] (CInt W4 (fun ix => Z.of_nat (hd 0%nat ix)));
     IVar "z" ["y"%string; "x"%string] (CInt W2 (fun ix => (Z.of_nat (nth 0%nat ix 0%nat) * 20 - 40 + Z.of_nat (nth 1%nat ix 0%nat))%Z));
     IVar "p" ["x"%string] (CInt W2 (fun ix => (10000 * (1 + Z.of_nat (hd 0%nat ix)))%Z))].
Example C101_file_demo :
  match interpol demo_file with
  | Written g =>
      map (fun d => snd d) (i_dim g) = [3; 2; 600] /\ map i_name (i_vars g) = ["x"; "time"; "z"; "p"]%string /\
      map (fun v => match i_data v with CInt _ d => d [300; 1; 1] | _ => 0%Z end) (i_vars g) = [300; 0; -9; 10000]%Z
  | _ => False
  end /\
  no_overflow W2 2 300 (-19) /\ no_overflow W2 1 300 20000.
Proof.
  split; [vm_compute; auto|]. split.
  - right. vm_compute. split; congruence.
  - left. reflexivity.
Qed.

Theorem C101_written_partial : forall f, (exists g, interpol f = Written g) <->
  modelled f /\ ~ dim_name f "time" /\ ~ exists v, In v (i_vars f) /\ i_name v = "time"%string.
Proof. exact written_iff. Qed.
Print Assumptions C101_written_partial.

(** ** Exceptions: "time" is a name of the file already. *)
Theorem C101_raised_partial : forall f, interpol f = Raised <->
  dim_name f "time" \/ modelled f /\ exists v, In v (i_vars f) /\ i_name v = "time"%string.
Proof. exact raised_iff. Qed.
Print Assumptions C101_raised_partial.
Example C101_raised_demo : interpol (IFile [("time"%string, 5)] []) = Raised /\ modelled demo_file /\
  interpol (IFile [("x"%string, 5)] [IVar "time" ["x"%string] (CInt W4 (fun _ => 0%Z))]) = Raised.
Proof. split; [reflexivity|]. split; [|reflexivity]. apply modelled_spec. split; reflexivity. Qed.

(** ** The time axis: half a second per step, exactly; ASAGI uses step [k] for a read at [k / 2] seconds. *)
Theorem C101_time_partial : (i_name time_var = "time"%string /\ i_dims time_var = ["time"%string] /\
    exists d, i_data time_var = CSingle d /\ forall k, d [k] = time_value (Z.of_nat k)) /\
  forall k, (0 <= k < 600)%Z ->
  is_finite (time_value k) = true /\ B2R (time_value k) = (IZR k / 2)%R /\
  forall vp, let m := open_dim ieee vp time_axis in
  exists w, pos2index_dim ieee (dm_off m) (dm_sinv m) (dm_size m) (fnum k (-1)) = Ok (k, w).
Proof. exact time_spec. Qed.
Print Assumptions C101_time_partial.

(** ** Findings *)
(** A product which does not fit into the type of the variable: 400 * 100 in 2 bytes; the result is negative. *)
Theorem C101_overflow_refuted : exists w i v, (0 <= i < 600)%Z /\ in_bits (bits w) v /\
  step_int w false i v <> Z.quot (i * v) 600 /\ (0 < v)%Z /\ (step_int w false i v < 0)%Z.
Proof. exact int_wraps. Qed.
Print Assumptions C101_overflow_refuted.
(** A large single becomes infinite. *)
Theorem C101_infinite_refuted : exists i v, (0 <= i < 600)%Z /\ is_finite v = true /\ is_finite (step_single false i v) = false.
Proof. exact single_inf. Qed.
Print Assumptions C101_infinite_refuted.
(** The attribute actual_range of "time" says 600 (the number of steps), the values end before 300. *)
Theorem C101_range_refuted : forall k, (0 <= k < 600)%Z -> (B2R (time_value k) <= 299.5 < IZR (snd actual_range))%R.
Proof. exact range_wrong. Qed.
Print Assumptions C101_range_refuted.
