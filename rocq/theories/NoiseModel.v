(** * The noise generator: preprocess/gen_noise/pnoise.py and create_noise_grid.py

    Python's numbers are rational numbers here (simplified: no rounding); an exception is [Ub]. *)
From Coq Require Export QArith Qround Qminmax ZArith List Bool String Arith.
From Verif Require Export Base.
From Verif Require Import FileModel.
Export ListNotations.
Local Open Scope bool_scope.

(** ** preprocess/gen_noise/pnoise.py *)
(** [p], lines 2-30. *)
Definition perm : list Z :=
 ([151; 160; 137; 91; 90; 15; 131; 13; 201; 95; 96; 53; 194; 233; 7; 225; 140; 36; 103; 30; 69; 142; 8; 99; 37; 240; 21; 10; 23; 190; 6; 148;
   247; 120; 234; 75; 0; 26; 197; 62; 94; 252; 219; 203; 117; 35; 11; 32; 57; 177; 33; 88; 237; 149; 56; 87; 174; 20; 125; 136; 171; 168; 68; 175;
   74; 165; 71; 134; 139; 48; 27; 166; 77; 146; 158; 231; 83; 111; 229; 122; 60; 211; 133; 230; 220; 105; 92; 41; 55; 46; 245; 40; 244; 102; 143; 54;
   65; 25; 63; 161; 1; 216; 80; 73; 209; 76; 132; 187; 208; 89; 18; 169; 200; 196; 135; 130; 116; 188; 159; 86; 164; 100; 109; 198; 173; 186; 3; 64;
   52; 217; 226; 250; 124; 123; 5; 202; 38; 147; 118; 126; 255; 82; 85; 212; 207; 206; 59; 227; 47; 16; 58; 17; 182; 189; 28; 42; 223; 183; 170; 213;
   119; 248; 152; 2; 44; 154; 163; 70; 221; 153; 101; 155; 167; 43; 172; 9; 129; 22; 39; 253; 19; 98; 108; 110; 79; 113; 224; 232; 178; 185; 112; 104;
   218; 246; 97; 228; 251; 34; 242; 193; 238; 210; 144; 12; 191; 179; 162; 241; 81; 51; 145; 235; 249; 14; 239; 107; 49; 192; 214; 31; 181; 199; 106; 157;
   184; 84; 204; 176; 115; 121; 50; 45; 127; 4; 150; 254; 138; 236; 205; 93; 222; 114; 67; 29; 24; 72; 243; 141; 128; 195; 78; 66; 215; 61; 156; 180;
   151; 160; 137; 91; 90; 15; 131; 13; 201; 95; 96; 53; 194; 233; 7; 225; 140; 36; 103; 30; 69; 142; 8; 99; 37; 240; 21; 10; 23; 190; 6; 148;
   247; 120; 234; 75; 0; 26; 197; 62; 94; 252; 219; 203; 117; 35; 11; 32; 57; 177; 33; 88; 237; 149; 56; 87; 174; 20; 125; 136; 171; 168; 68; 175;
   74; 165; 71; 134; 139; 48; 27; 166; 77; 146; 158; 231; 83; 111; 229; 122; 60; 211; 133; 230; 220; 105; 92; 41; 55; 46; 245; 40; 244; 102; 143; 54;
   65; 25; 63; 161; 1; 216; 80; 73; 209; 76; 132; 187; 208; 89; 18; 169; 200; 196; 135; 130; 116; 188; 159; 86; 164; 100; 109; 198; 173; 186; 3; 64;
   52; 217; 226; 250; 124; 123; 5; 202; 38; 147; 118; 126; 255; 82; 85; 212; 207; 206; 59; 227; 47; 16; 58; 17; 182; 189; 28; 42; 223; 183; 170; 213;
   119; 248; 152; 2; 44; 154; 163; 70; 221; 153; 101; 155; 167; 43; 172; 9; 129; 22; 39; 253; 19; 98; 108; 110; 79; 113; 224; 232; 178; 185; 112; 104;
   218; 246; 97; 228; 251; 34; 242; 193; 238; 210; 144; 12; 191; 179; 162; 241; 81; 51; 145; 235; 249; 14; 239; 107; 49; 192; 214; 31; 181; 199; 106; 157;
   184; 84; 204; 176; 115; 121; 50; 45; 127; 4; 150; 254; 138; 236; 205; 93; 222; 114; 67; 29; 24; 72; 243; 141; 128; 195; 78; 66; 215; 61; 156; 180])%Z.
(** [p[i]].  (Python counts negative indices from the end; they do not occur, and are [Ub] here.) *)
Definition get (i : Z) : outcome Z :=
  if (i <? 0)%Z then Ub else match nth_error perm (Z.to_nat i) with Some v => Ok v | None => Ub end.

Local Open Scope Q_scope.
(** lines 32-33 *)
Definition lerp (t a b : Q) : Q := a + t * (b - a).
(** lines 35-36 *)
Definition fade (t : Q) : Q := t * t * t * (t * (t * 6 - 15) + 10).

(** The last lines of the three functions: lines 50-54, 68-72, 86-90 ([h & 1 != 0] is [(h & 1) != 0] in Python). *)
Definition signs (h : Z) (u v : Q) : Q :=
  (if (Z.land h 1 =? 0)%Z then u else - u) + (if (Z.land h 2 =? 0)%Z then v else - v).
(** lines 38-54 *)
Definition grad1D (hash : Z) (x : Q) : Q :=
  let h := Z.land hash 15 in
  signs h (if (h <? 8)%Z then x else 0) (if (h <? 4)%Z then 0 else if (h =? 12)%Z || (h =? 14)%Z then x else 0).
(** lines 56-72 *)
Definition grad2D (hash : Z) (x y : Q) : Q :=
  let h := Z.land hash 15 in
  signs h (if (h <? 8)%Z then x else y) (if (h <? 4)%Z then y else if (h =? 12)%Z || (h =? 14)%Z then x else 0).
(** lines 74-90 *)
Definition grad3D (hash : Z) (x y z : Q) : Q :=
  let h := Z.land hash 15 in
  signs h (if (h <? 8)%Z then x else y) (if (h <? 4)%Z then y else if (h =? 12)%Z || (h =? 14)%Z then x else z).

(** [x - math.floor(x)] *)
Definition frac (x : Q) : Q := x - inject_Z (Qfloor x).
(** [int(math.floor(x)) & 255] *)
Definition cell (x : Q) : Z := Z.land (Qfloor x) 255.

(** [pnoise1D], lines 92-107.  The function has two parameters ([y] is not used); another number of arguments is an exception
    (TypeError). *)
Definition pnoise1D (args : list Q) : outcome Q :=
  match args with
  | [x; y] =>
      let X := cell x in
      let x := frac x in
      do A <- get X;
      do B <- get (Z.land (X + 1) 255);
      Ok (lerp (fade x) (grad1D A x) (grad1D B (x - 1)))
  | _ => Ub
  end.

(** [pnoise2D], lines 109-131. *)
Definition pnoise2D (x y : Q) : outcome Q :=
  let X := cell x in
  let Y := cell y in
  let x := frac x in
  let y := frac y in
  let u := fade x in
  let v := fade y in
  do pa <- get X;
  let A := (pa + Y)%Z in
  do pb <- get (Z.land (X + 1) 255);
  let B := (pb + Y)%Z in
  do AA <- get A;
  do AB <- get (Z.land (A + 1) 255);
  do BA <- get B;
  do BB <- get (Z.land (B + 1) 255);
  let gradAA := grad2D AA x y in
  let gradBA := grad2D BA (x - 1) y in
  let gradAB := grad2D AB x (y - 1) in
  let gradBB := grad2D BB (x - 1) (y - 1) in
  Ok (lerp v (lerp u gradAA gradBA) (lerp u gradAB gradBB)).

(** [pnoise3D], lines 133-173. *)
Definition pnoise3D (x y z : Q) : outcome Q :=
  let X := cell x in
  let Y := cell y in
  let Z := cell z in
  let x := frac x in
  let y := frac y in
  let z := frac z in
  let u := fade x in
  let v := fade y in
  let w := fade z in
  do pa <- get X;
  let A := (pa + Y)%Z in
  do pb <- get (Z.land (X + 1) 255);
  let B := (pb + Y)%Z in
  do pAA <- get A;
  let AA := (pAA + Z)%Z in
  do pAB <- get (Z.land (A + 1) 255);
  let AB := (pAB + Z)%Z in
  do pBA <- get B;
  let BA := (pBA + Z)%Z in
  do pBB <- get (Z.land (B + 1) 255);
  let BB := (pBB + Z)%Z in
  do AAA <- get AA;
  do ABA <- get AB;
  do BAA <- get BA;
  do BBA <- get BB;
  do AAB <- get (AA + 1);
  do BAB <- get (BA + 1);
  do ABB <- get (AB + 1);
  do BBB <- get (BB + 1);
  let gradAAA := grad3D AAA x y z in
  let gradBAA := grad3D BAA (x - 1) y z in
  let gradABA := grad3D ABA x (y - 1) z in
  let gradBBA := grad3D BBA (x - 1) (y - 1) z in
  let gradAAB := grad3D AAB x y (z - 1) in
  let gradBAB := grad3D BAB (x - 1) y (z - 1) in
  let gradABB := grad3D ABB x (y - 1) (z - 1) in
  let gradBBB := grad3D BBB (x - 1) (y - 1) (z - 1) in
  Ok (lerp w (lerp v (lerp u gradAAA gradBAA) (lerp u gradABA gradBBA))
             (lerp v (lerp u gradAAB gradBAB) (lerp u gradABB gradBBB))).

(** The loop of [noise1D], [noise2D] and [noise3D] (lines 175-215): [k] more rounds; the coordinates are doubled in each of them.
    The final division by zero is an exception. *)
Fixpoint octaves (pn : list Q -> outcome Q) (k : nat) (at_ : list Q) (f n sum_f roughness : Q) : outcome Q :=
  match k with
  | O => if Qeq_bool sum_f 0 then Ub else Ok (n / sum_f)
  | S k' => do v <- pn at_; octaves pn k' (map (fun x => x * 2) at_) (f * roughness) (n + f * v) (sum_f + f) roughness
  end.
(** lines 175-186: [pnoise1D] is called with one argument. *)
Definition noise1D (x : Q) (depth : nat) (roughness : Q) : outcome Q := octaves pnoise1D (S depth) [x] 1 0 0 roughness.
(** lines 188-200 *)
Definition noise2D (x y : Q) (depth : nat) (roughness : Q) : outcome Q :=
  octaves (fun l => match l with [x; y] => pnoise2D x y | _ => Ub end) (S depth) [x; y] 1 0 0 roughness.
(** lines 202-215 *)
Definition noise3D (x y z : Q) (depth : nat) (roughness : Q) : outcome Q :=
  octaves (fun l => match l with [x; y; z] => pnoise3D x y z | _ => Ub end) (S depth) [x; y; z] 1 0 0 roughness.

(** ** preprocess/gen_noise/create_noise_grid.py *)
(** [for i in range(0, n)] *)
Fixpoint for_ {A} (n : nat) (body : nat -> A -> outcome A) (a : A) : outcome A :=
  match n with O => Ok a | S n' => do a' <- for_ n' body a; body n' a' end.
(** [numpy.linspace(a, b, n)[i]] *)
Definition linspace (a b : Q) (n i : nat) : Q :=
  if (n <=? 1)%nat then a else a + inject_Z (Z.of_nat i) * ((b - a) / inject_Z (Z.of_nat n - 1)).
Definition Qn (n : nat) : Q := inject_Z (Z.of_nat n).

Section Grid.
(** [f4]: rounding of a number stored in a variable of type f4.  [fill]: what an element contains that was never stored.  [ilog n]:
    [int(math.log(n))]. *)
Variables (f4 : Q -> Q) (fill : Q) (ilog : nat -> nat).
(** [nc]: a netCDF file is written ([nc_file] is given and the module exists); otherwise [nc_x] and [nc_y] are lists and
    [nc_values] is a dictionary.  (Simplified: width and height are at least 1.  netCDF takes a dimension of size 0 as unlimited.) *)
Variables (nc : bool) (width height : nat) (roughness : Q).
Definition stored (v : Q) : Q := if nc then f4 v else v.
(** lines 56-57 *)
Definition nc_x (i : nat) : Q := stored (linspace ((1 # 2) / Qn height) ((Qn width - (1 # 2)) / Qn height) width i).
Definition nc_y (j : nat) : Q := stored (linspace ((1 # 2) / Qn height) (1 - (1 # 2) / Qn height) height j).
(** lines 68-69, [depth] of line 60 *)
Definition field (x y : Q) : outcome Q :=
  do v <- noise2D (10 * x - 2) (10 * y) (ilog height) roughness;
  let out := - (7 # 100000000) * (v + (7 # 10) - 4 * y * (1 - y)) + (1 # 200000000) in
  Ok (Qmax 0 (Qmin (1 # 100000000) out)).
(** [nc_values]: created in line 25 with the dimensions x and y, or line 12; [None] if nothing was stored. *)
Definition values := nat -> nat -> option Q.
(** [nc_values[a, b] = v]: IndexError outside of the variable. *)
Definition set_value (a b : nat) (v : Q) (d : values) : outcome values :=
  if nc && negb ((a <? width)%nat && (b <? height)%nat) then Ub
  else Ok (fun a' b' => if (a' =? a)%nat && (b' =? b)%nat then Some (stored v) else d a' b').
(** [nc_values[a, b]]: IndexError outside of the variable, KeyError of the dictionary. *)
Definition get_value (a b : nat) (d : values) : outcome Q :=
  if nc then if (a <? width)%nat && (b <? height)%nat then Ok (match d a b with Some v => v | None => fill end) else Ub
  else match d a b with Some v => Ok v | None => Ub end.
(** lines 62-71 *)
Definition compute : outcome values :=
  for_ height (fun j => for_ width (fun i d => do v <- field (nc_x i) (nc_y j); set_value j i v d)) (fun _ _ => None).
(** lines 73-77: the numbers written to the VTK file *)
Definition vtk_lines (d : values) : outcome (list Q) :=
  for_ height (fun j => for_ width (fun i l => do v <- get_value i j d; Ok (l ++ [v]))) [].
(** [create_grid], lines 8-80, without the header of the VTK file.  The files, if they are written; [Ub]: an exception. *)
Definition the_file (d : values) : ncfile Q :=
  NcFile Q [("x", width); ("y", height)]%string
    [Var Q "x" (TNum 4) [0]%nat (fun ix => nc_x (hd 0%nat ix)); Var Q "y" (TNum 4) [1]%nat (fun ix => nc_y (hd 0%nat ix));
     Var Q "z" (TNum 4) [0; 1]%nat (fun ix => match d (nth 0 ix 0%nat) (nth 1 ix 0%nat) with Some v => v | None => fill end)].
Definition create_grid (vtk : bool) : outcome (option (ncfile Q) * option (list Q)) :=
  do d <- compute;
  do l <- (if vtk then omap Some (vtk_lines d) else Ok None);
  Ok (if nc then Some (the_file d) else None, l).
End Grid.
