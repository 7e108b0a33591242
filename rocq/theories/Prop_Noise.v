(** * C98, C99: the noise generator *)
From Coq Require Import Qabs Lia.
From Verif Require Import FileModel NoiseModel NoiseSpec NoiseFacts NoiseGrid NoiseThree NoiseOct.
Local Open Scope Q_scope.

(** ** C98: the noise has a value everywhere, within [-1, 1], without jumps *)
Theorem C98_value_partial : forall x y, exists v, pnoise2D x y = Ok v /\ Qabs v <= 1.
Proof. exact (fun x y => ex_intro _ (noise x y) (conj (pnoise2D_noise x y) (noise_bound x y))). Qed.
(** No jumps, also not between the cells. *)
Theorem C98_continuous_partial : forall x y x' y' v v', pnoise2D x y = Ok v -> pnoise2D x' y' = Ok v' ->
  Qabs (v - v') <= 241 * (Qabs (x - x') + Qabs (y - y')).
Proof. exact pnoise2D_step. Qed.
Theorem C98_lattice_partial : forall X Y v, pnoise2D (inject_Z X) (inject_Z Y) = Ok v -> v == 0.
Proof. exact pnoise2D_lattice. Qed.
Theorem C98_periodic_partial : forall x y k l v v',
  pnoise2D x y = Ok v -> pnoise2D (x + inject_Z (k * 256)) (y + inject_Z (l * 256)) = Ok v' -> v' == v.
Proof. exact pnoise2D_periodic. Qed.
(** The sum of several octaves. *)
Theorem C98_octaves_partial : forall x y depth r, 0 <= r -> exists v, noise2D x y depth r = Ok v /\ Qabs v <= 1.
Proof. exact noise2D_fine. Qed.
Theorem C98_octaves_continuous_partial : forall depth r, 0 <= r -> exists K, 0 < K /\ forall x y x' y' v v',
  noise2D x y depth r = Ok v -> noise2D x' y' depth r = Ok v' -> Qabs (v - v') <= K * (Qabs (x - x') + Qabs (y - y')).
Proof. exact noise2D_step. Qed.
(** Three dimensions: everything but the bound 1. *)
Theorem C98_three_partial : forall x y z, exists v, pnoise3D x y z = Ok v /\ Qabs v <= 3 # 2.
Proof. exact (fun x y z => ex_intro _ (noise3 x y z) (conj (pnoise3D_noise x y z) (noise3_bound x y z))). Qed.
Theorem C98_three_continuous_partial : forall x y z x' y' z' v v', pnoise3D x y z = Ok v -> pnoise3D x' y' z' = Ok v' ->
  Qabs (v - v') <= 361 * (Qabs (x - x') + Qabs (y - y') + Qabs (z - z')).
Proof. exact pnoise3D_step. Qed.
Theorem C98_three_lattice_partial : forall X Y V v, pnoise3D (inject_Z X) (inject_Z Y) (inject_Z V) = Ok v -> v == 0.
Proof. exact pnoise3D_lattice. Qed.
Theorem C98_three_periodic_partial : forall x y z k l m v v', pnoise3D x y z = Ok v ->
  pnoise3D (x + inject_Z (k * 256)) (y + inject_Z (l * 256)) (z + inject_Z (m * 256)) = Ok v' -> v' == v.
Proof. exact pnoise3D_periodic. Qed.
Theorem C98_three_octaves_partial : forall x y z depth r, 0 <= r -> exists v, noise3D x y z depth r = Ok v /\ Qabs v <= 3 # 2.
Proof. exact noise3D_fine. Qed.
Theorem C98_three_octaves_continuous_partial : forall depth r, 0 <= r -> exists K, 0 < K /\ forall x y z x' y' z' v v',
  noise3D x y z depth r = Ok v -> noise3D x' y' z' depth r = Ok v' ->
  Qabs (v - v') <= K * (Qabs (x - x') + Qabs (y - y') + Qabs (z - z')).
Proof. exact noise3D_step. Qed.
(** Refuted: in three dimensions values beyond 1 occur. *)
Theorem C98_three_refuted : exists x y z v, pnoise3D x y z = Ok v /\ 1 < Qabs v.
Proof. exact beyond_one. Qed.
(** Refuted: in one dimension there is never a value, as [pnoise1D] is called with one argument but has two parameters. *)
Theorem C98_one_refuted : (forall x y, exists v, pnoise1D [x; y] = Ok v) /\ forall x depth r, noise1D x depth r = Ub.
Proof. exact (conj pnoise1D_ok noise1D_fails). Qed.

(** The bound is attained; an edge between cells, where the numbers of both sides are used. *)
Example C98_sharp : match pnoise2D (5 # 2) (145 # 2) with Ok v => Qeq_bool v (-1) | Ub => false end = true.
Proof. vm_compute. reflexivity. Qed.
Example C98_some : match pnoise2D (1 # 3) (-1 # 5) with Ok v => Qeq_bool v 0 | Ub => true end = false.
Proof. vm_compute. reflexivity. Qed.
Example C98_edge : match pnoise2D (255 + (999 # 1000)) (1 # 3), pnoise2D 256 (1 # 3) with
  | Ok v, Ok w => Qeq_bool v w = false /\ Qeq_bool w 0 = false /\ Qle_bool (Qabs (v - w)) (1 # 100) = true | _, _ => False end.
Proof. vm_compute. auto. Qed.
(** Three dimensions: a border between cells, and several octaves. *)
Example C98_three_edge : match pnoise3D (255 + (999 # 1000)) (1 # 3) (-1 # 5), pnoise3D 256 (1 # 3) (-1 # 5) with
  | Ok v, Ok w => Qeq_bool v w = false /\ Qeq_bool w 0 = false /\ Qle_bool (Qabs (v - w)) (1 # 100) = true | _, _ => False end.
Proof. vm_compute. auto. Qed.
Example C98_three_some : match noise3D (1 # 3) (-1 # 5) (7 # 2) 2 (1 # 2) with Ok v => Qeq_bool v 0 | Ub => true end = false.
Proof. vm_compute. reflexivity. Qed.
(** A roughness below 0, which the program accepts: division by zero. *)
Example C98_negative : noise2D 0 0 1 (-1) = Ub.
Proof. vm_compute. reflexivity. Qed.

(** ** C99: the files show the noise *)
(** Which calls succeed: square grids only, unless nothing is written. *)
Theorem C99_square_partial : forall f4 fill ilog nc w h r vtk, 0 <= r -> (0 < w)%nat -> (0 < h)%nat ->
  ((exists res, create_grid f4 fill ilog nc w h r vtk = Ok res) <-> w = h \/ (nc = false /\ vtk = false)).
Proof. exact (fun f4 fill ilog nc w h r vtk R => create_iff f4 fill ilog nc w h r R vtk). Qed.
(** Square grids: ASAGI finds the noise at (x, y); the VTK file shows it at (y, x). *)
Theorem C99_files_partial : forall f4 fill ilog nc n r, 0 <= r -> (forall a b, a == b -> f4 a == f4 b) -> (0 < n)%nat ->
  forall vtk, exists f l, create_grid f4 fill ilog nc n n r vtk = Ok (f, l) /\
  (nc = true -> exists file, f = Some file /\ has_size file n n /\ by_asagi (field ilog n r) (stored f4 nc) file n n) /\
  (vtk = true -> exists l', l = Some l' /\ by_vtk (fun x y => field ilog n r y x) (stored f4 nc) (nc_x f4 nc n n) (nc_y f4 nc n) l' n n).
Proof. exact square_create. Qed.
(** The file can be opened by ASAGI; the coordinates are the centers of the cells of [0, 1] x [0, 1]. *)
Theorem C99_opens_partial : forall fill ilog n r file l, 0 <= r -> (1 < n)%nat ->
  create_grid (fun x => x) fill ilog true n n r false = Ok (Some file, l) ->
  exists ox oy sx sy hd lv m, level_open Q 4 0 1 0 Qminus (fun a k => a / Qn k) (GBasic 4)
    (fun s => if String.eqb s "noise.nc" then Some file else None) [] 0 "noise.nc" "z" = Ok (hd, m, lv, SUCCESS) /\
  l_offset Q lv = [Some ox; Some oy] /\ l_scaling Q lv = [Some sx; Some sy] /\
  ox == (1 # 2) / Qn n /\ oy == (1 # 2) / Qn n /\ sx == 1 / Qn n /\ sy == 1 / Qn n.
Proof. exact file_opens. Qed.
(** Refuted: other grids. *)
Theorem C99_shape_refuted : exists w h, (0 < w)%nat /\ (0 < h)%nat /\ forall f4 fill ilog r vtk, 0 <= r -> create_grid f4 fill ilog true w h r vtk = Ub.
Proof. exact not_square. Qed.
(** Refuted: a VTK file, and the file as the names of its dimensions say; both are transposed. *)
Theorem C99_vtk_refuted : exists n r f l, create_grid (fun x => x) 0 demo_log true n n r true = Ok (f, Some l) /\
  ~ by_vtk (field demo_log n r) (fun x => x) (nc_x (fun x => x) true n n) (nc_y (fun x => x) true n) l n n.
Proof. exact vtk_transposed. Qed.
Theorem C99_names_refuted : exists n r file l, create_grid (fun x => x) 0 demo_log true n n r false = Ok (Some file, l) /\
  ~ by_name (field demo_log n r) (fun x => x) file n n.
Proof. exact names_transposed. Qed.

(** The VTK file of a grid of 3 x 3 cells. *)
Example C99_demo : match create_grid (fun x => x) 0 demo_log true 3 3 (1 # 5) true with
  | Ok (Some _, Some l) => map Qred l = [0; 1 # 100000000; 0; 0; 1 # 100000000; 0; 0; 451 # 182250000000; 0] | _ => False end.
Proof. vm_compute. reflexivity. Qed.

Print Assumptions C98_value_partial.
Print Assumptions C98_continuous_partial.
Print Assumptions C98_lattice_partial.
Print Assumptions C98_periodic_partial.
Print Assumptions C98_octaves_partial.
Print Assumptions C98_octaves_continuous_partial.
Print Assumptions C98_three_partial.
Print Assumptions C98_three_continuous_partial.
Print Assumptions C98_three_lattice_partial.
Print Assumptions C98_three_periodic_partial.
Print Assumptions C98_three_octaves_partial.
Print Assumptions C98_three_octaves_continuous_partial.
Print Assumptions C98_three_refuted.
Print Assumptions C98_one_refuted.
Print Assumptions C99_square_partial.
Print Assumptions C99_files_partial.
Print Assumptions C99_opens_partial.
Print Assumptions C99_shape_refuted.
Print Assumptions C99_vtk_refuted.
Print Assumptions C99_names_refuted.
