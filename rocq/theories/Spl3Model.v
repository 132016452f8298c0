(** Model of src/spline/interp3Dcomp.c.  The expressions are the ones of the
    source, in the same order. *)
From Coq Require Import Reals List Arith ZArith Bool.
From Verif Require Import AxisModel SplineModel Spl2Model.
Import ListNotations.
Local Open Scope R_scope.

Record interp3D := I3 { i3x : axis; i3y : axis; i3z : axis; i3c : arr }.
(** interp3Dcomp.c:37-180, 203-240 and 259-272; f[i_z*n_y*n_x + i_y*n_x + i_x] *)
Definition interp3Dcomp_setup (junk f : nat -> R) (nx ny nz : nat) (bcx bcy bcz : Z)
    (xmn xmx ymn ymx zmn zmx : R) : res interp3D :=
  if (valid_bc bcx && valid_bc bcy && valid_bc bcz)%bool then
    let xg := grid_step (Z.of_nat nx) bcx xmn xmx in
    let yg := grid_step (Z.of_nat ny) bcy ymn ymx in
    let zg := grid_step (Z.of_nat nz) bcz zmn zmx in
    if (complete (splinecomp junk f nx bcx) && complete (splinecomp junk f ny bcy) && complete (splinecomp junk f nz bcz))%bool then
      let c0 ix iy iz := f (iz * ny * nx + iy * nx + ix)%nat in
      let c1 ix iy iz := curv junk (fun k => c0 k iy iz) nx bcx ix / (xg * xg) in
      let c2 ix iy iz := curv junk (fun k => c0 ix k iz) ny bcy iy / (yg * yg) in
      let c4 ix iy iz := curv junk (fun k => c1 ix k iz) ny bcy iy / (yg * yg) in
      let c3 ix iy iz := curv junk (fun k => c0 ix iy k) nz bcz iz / (zg * zg) in
      let c5 ix iy iz := curv junk (fun k => c1 ix iy k) nz bcz iz / (zg * zg) in
      let c6 ix iy iz := curv junk (fun k => c2 ix iy k) nz bcz iz / (zg * zg) in
      let c7 ix iy iz := curv junk (fun k => c4 ix iy k) nz bcz iz / (zg * zg) in
      Val (I3 (mk_axis (Z.of_nat nx) bcx xmn xmx) (mk_axis (Z.of_nat ny) bcy ymn ymx) (mk_axis (Z.of_nat nz) bcz zmn zmx)
        (Arr (Z.of_nat nz * Z.of_nat ny * Z.of_nat nx * 8) (fun m =>
           let iz := Z.to_nat (m / (Z.of_nat ny * Z.of_nat nx * 8)) in
           let iy := Z.to_nat ((m / (Z.of_nat nx * 8)) mod Z.of_nat ny) in
           let ix := Z.to_nat ((m / 8) mod Z.of_nat nx) in
           let k := (m mod 8)%Z in
           if (k =? 0)%Z then c0 ix iy iz else if (k =? 1)%Z then c1 ix iy iz else if (k =? 2)%Z then c2 ix iy iz
           else if (k =? 3)%Z then c3 ix iy iz else if (k =? 4)%Z then c4 ix iy iz else if (k =? 5)%Z then c5 ix iy iz
           else if (k =? 6)%Z then c6 ix iy iz else c7 ix iy iz)))
    else Oob
  else Err.

(** interp3Dcomp.c:288-425 *)
Definition interp3Dcomp_eval_f (s : interp3D) (x0 y0 z0 : R) : res R :=
  let c := aget (i3c s) in
  let x := wrap (i3x s) x0 in
  let y := wrap (i3y s) y0 in
  let z := wrap (i3z s) z0 in
  let ix := index_spl (i3x s) x in
  let dx := frac (i3x s) x ix in
  let dxi := 1 - dx in
  let dx3 := dx * dx * dx - dx in
  let dxi3 := (1 - dx) * (1 - dx) * (1 - dx) - (1 - dx) in
  let xg2 := agrid (i3x s) * agrid (i3x s) in
  let iy := index_spl (i3y s) y in
  let dy := frac (i3y s) y iy in
  let dyi := 1 - dy in
  let dy3 := dy * dy * dy - dy in
  let dyi3 := (1 - dy) * (1 - dy) * (1 - dy) - (1 - dy) in
  let yg2 := agrid (i3y s) * agrid (i3y s) in
  let iz := index_spl (i3z s) z in
  let dz := frac (i3z s) z iz in
  let dzi := 1 - dz in
  let dz3 := dz * dz * dz - dz in
  let dzi3 := (1 - dz) * (1 - dz) * (1 - dz) - (1 - dz) in
  let zg2 := agrid (i3z s) * agrid (i3z s) in
  let n := (iz * an (i3y s) * an (i3x s) * 8 + iy * an (i3x s) * 8 + ix * 8)%Z in
  let x1 := jump (i3x s) ix 8 in
  let y1 := jump (i3y s) iy (an (i3x s) * 8) in
  let z1 := jump (i3z s) iz (an (i3y s) * an (i3x s) * 8) in
  if (outside (i3x s) x ix || outside (i3y s) y iy || outside (i3z s) z iz)%bool then Err else
  reading (i3c s)
    [n + 0; n + y1 + 0; n + x1 + 0; n + y1 + x1 + 0; n + z1 + 0; n + y1 + z1 + 0; n + x1 + z1 + 0; n + y1 + z1 +
    x1 + 0; n + 1; n + y1 + 1; n + x1 + 1; n + y1 + x1 + 1; n + z1 + 1; n + y1 + z1 + 1; n + x1 + z1 + 1; n + y1 +
    z1 + x1 + 1; n + 2; n + y1 + 2; n + x1 + 2; n + y1 + x1 + 2; n + z1 + 2; n + y1 + z1 + 2; n + x1 + z1 + 2; n +
    y1 + z1 + x1 + 2; n + 3; n + y1 + 3; n + x1 + 3; n + y1 + x1 + 3; n + z1 + 3; n + y1 + z1 + 3; n + x1 + z1 +
    3; n + y1 + z1 + x1 + 3; n + 4; n + y1 + 4; n + x1 + 4; n + y1 + x1 + 4; n + z1 + 4; n + y1 + z1 + 4; n + x1 +
    z1 + 4; n + y1 + z1 + x1 + 4; n + 5; n + y1 + 5; n + x1 + 5; n + y1 + x1 + 5; n + z1 + 5; n + y1 + z1 + 5; n +
    x1 + z1 + 5; n + y1 + z1 + x1 + 5; n + 6; n + y1 + 6; n + x1 + 6; n + y1 + x1 + 6; n + z1 + 6; n + y1 + z1 +
    6; n + x1 + z1 + 6; n + y1 + z1 + x1 + 6; n + 7; n + y1 + 7; n + x1 + 7; n + y1 + x1 + 7; n + z1 + 7; n + y1 +
    z1 + 7; n + x1 + z1 + 7; n + y1 + z1 + x1 + 7]%Z
    ((dzi * (dxi * (dyi * c (n + 0)%Z + dy * c (n + y1 + 0)%Z) + dx * (dyi * c (n + x1 + 0)%Z + dy * c (n + y1 + x1
     + 0)%Z)) + dz * (dxi * (dyi * c (n + z1 + 0)%Z + dy * c (n + y1 + z1 + 0)%Z) + dx * (dyi * c (n + x1 + z1 +
     0)%Z + dy * c (n + y1 + z1 + x1 + 0)%Z))) + xg2 / 6 * (dzi * (dxi3 * (dyi * c (n + 1)%Z + dy * c (n + y1 +
     1)%Z) + dx3 * (dyi * c (n + x1 + 1)%Z + dy * c (n + y1 + x1 + 1)%Z)) + dz * (dxi3 * (dyi * c (n + z1 + 1)%Z +
     dy * c (n + y1 + z1 + 1)%Z) + dx3 * (dyi * c (n + x1 + z1 + 1)%Z + dy * c (n + y1 + z1 + x1 + 1)%Z))) + yg2 /
     6 * (dzi * (dxi * (dyi3 * c (n + 2)%Z + dy3 * c (n + y1 + 2)%Z) + dx * (dyi3 * c (n + x1 + 2)%Z + dy3 * c (n +
     y1 + x1 + 2)%Z)) + dz * (dxi * (dyi3 * c (n + z1 + 2)%Z + dy3 * c (n + y1 + z1 + 2)%Z) + dx * (dyi3 * c (n +
     x1 + z1 + 2)%Z + dy3 * c (n + y1 + z1 + x1 + 2)%Z))) + zg2 / 6 * (dzi3 * (dxi * (dyi * c (n + 3)%Z + dy * c (n
     + y1 + 3)%Z) + dx * (dyi * c (n + x1 + 3)%Z + dy * c (n + y1 + x1 + 3)%Z)) + dz3 * (dxi * (dyi * c (n + z1 +
     3)%Z + dy * c (n + y1 + z1 + 3)%Z) + dx * (dyi * c (n + x1 + z1 + 3)%Z + dy * c (n + y1 + z1 + x1 + 3)%Z))) +
     xg2 * yg2 / 36 * (dzi * (dxi3 * (dyi3 * c (n + 4)%Z + dy3 * c (n + y1 + 4)%Z) + dx3 * (dyi3 * c (n + x1 + 4)%Z
     + dy3 * c (n + y1 + x1 + 4)%Z)) + dz * (dxi3 * (dyi3 * c (n + z1 + 4)%Z + dy3 * c (n + y1 + z1 + 4)%Z) + dx3 *
     (dyi3 * c (n + x1 + z1 + 4)%Z + dy3 * c (n + y1 + z1 + x1 + 4)%Z))) + xg2 * zg2 / 36 * (dzi3 * (dxi3 * (dyi *
     c (n + 5)%Z + dy * c (n + y1 + 5)%Z) + dx3 * (dyi * c (n + x1 + 5)%Z + dy * c (n + y1 + x1 + 5)%Z)) + dz3 *
     (dxi3 * (dyi * c (n + z1 + 5)%Z + dy * c (n + y1 + z1 + 5)%Z) + dx3 * (dyi * c (n + x1 + z1 + 5)%Z + dy * c (n
     + y1 + z1 + x1 + 5)%Z))) + yg2 * zg2 / 36 * (dzi3 * (dxi * (dyi3 * c (n + 6)%Z + dy3 * c (n + y1 + 6)%Z) + dx
     * (dyi3 * c (n + x1 + 6)%Z + dy3 * c (n + y1 + x1 + 6)%Z)) + dz3 * (dxi * (dyi3 * c (n + z1 + 6)%Z + dy3 * c
     (n + y1 + z1 + 6)%Z) + dx * (dyi3 * c (n + x1 + z1 + 6)%Z + dy3 * c (n + y1 + z1 + x1 + 6)%Z))) + xg2 * yg2 *
     zg2 / 216 * (dzi3 * (dxi3 * (dyi3 * c (n + 7)%Z + dy3 * c (n + y1 + 7)%Z) + dx3 * (dyi3 * c (n + x1 + 7)%Z +
     dy3 * c (n + y1 + x1 + 7)%Z)) + dz3 * (dxi3 * (dyi3 * c (n + z1 + 7)%Z + dy3 * c (n + y1 + z1 + 7)%Z) + dx3 *
     (dyi3 * c (n + x1 + z1 + 7)%Z + dy3 * c (n + y1 + z1 + x1 + 7)%Z)))).

(** interp3Dcomp.c:454-1120 *)
Definition interp3Dcomp_eval_df (s : interp3D) (x0 y0 z0 : R) : res (R * R * R * R * R * R * R * R * R * R) :=
  let c := aget (i3c s) in
  let x := wrap (i3x s) x0 in
  let y := wrap (i3y s) y0 in
  let z := wrap (i3z s) z0 in
  let ix := index_spl (i3x s) x in
  let dx := frac (i3x s) x ix in
  let dx3 := dx * dx * dx - dx in
  let dx3dx := 3 * dx * dx - 1 in
  let dxi := 1 - dx in
  let dxi3 := dxi * dxi * dxi - dxi in
  let dxi3dx := -3 * dxi * dxi + 1 in
  let xg := agrid (i3x s) in
  let xg2 := xg * xg in
  let xgi := 1 / xg in
  let iy := index_spl (i3y s) y in
  let dy := frac (i3y s) y iy in
  let dy3 := dy * dy * dy - dy in
  let dy3dy := 3 * dy * dy - 1 in
  let dyi := 1 - dy in
  let dyi3 := dyi * dyi * dyi - dyi in
  let dyi3dy := -3 * dyi * dyi + 1 in
  let yg := agrid (i3y s) in
  let yg2 := yg * yg in
  let ygi := 1 / yg in
  let iz := index_spl (i3z s) z in
  let dz := frac (i3z s) z iz in
  let dz3 := dz * dz * dz - dz in
  let dz3dz := 3 * dz * dz - 1 in
  let dzi := 1 - dz in
  let dzi3 := dzi * dzi * dzi - dzi in
  let dzi3dz := -3 * dzi * dzi + 1 in
  let zg := agrid (i3z s) in
  let zg2 := zg * zg in
  let zgi := 1 / zg in
  let n := (iz * an (i3y s) * an (i3x s) * 8 + iy * an (i3x s) * 8 + ix * 8)%Z in
  let x1 := jump (i3x s) ix 8 in
  let y1 := jump (i3y s) iy (an (i3x s) * 8) in
  let z1 := jump (i3z s) iz (an (i3y s) * an (i3x s) * 8) in
  if (outside (i3x s) x ix || outside (i3y s) y iy || outside (i3z s) z iz)%bool then Err else
  let c0000 := c (n + 0)%Z in
  let c0001 := c (n + 1)%Z in
  let c0002 := c (n + 2)%Z in
  let c0003 := c (n + 3)%Z in
  let c0004 := c (n + 4)%Z in
  let c0005 := c (n + 5)%Z in
  let c0006 := c (n + 6)%Z in
  let c0007 := c (n + 7)%Z in
  let c0010 := c (n + x1 + 0)%Z in
  let c0011 := c (n + x1 + 1)%Z in
  let c0012 := c (n + x1 + 2)%Z in
  let c0013 := c (n + x1 + 3)%Z in
  let c0014 := c (n + x1 + 4)%Z in
  let c0015 := c (n + x1 + 5)%Z in
  let c0016 := c (n + x1 + 6)%Z in
  let c0017 := c (n + x1 + 7)%Z in
  let c0100 := c (n + y1 + 0)%Z in
  let c0101 := c (n + y1 + 1)%Z in
  let c0102 := c (n + y1 + 2)%Z in
  let c0103 := c (n + y1 + 3)%Z in
  let c0104 := c (n + y1 + 4)%Z in
  let c0105 := c (n + y1 + 5)%Z in
  let c0106 := c (n + y1 + 6)%Z in
  let c0107 := c (n + y1 + 7)%Z in
  let c1000 := c (n + z1 + 0)%Z in
  let c1001 := c (n + z1 + 1)%Z in
  let c1002 := c (n + z1 + 2)%Z in
  let c1003 := c (n + z1 + 3)%Z in
  let c1004 := c (n + z1 + 4)%Z in
  let c1005 := c (n + z1 + 5)%Z in
  let c1006 := c (n + z1 + 6)%Z in
  let c1007 := c (n + z1 + 7)%Z in
  let c0110 := c (n + y1 + x1 + 0)%Z in
  let c0111 := c (n + y1 + x1 + 1)%Z in
  let c0112 := c (n + y1 + x1 + 2)%Z in
  let c0113 := c (n + y1 + x1 + 3)%Z in
  let c0114 := c (n + y1 + x1 + 4)%Z in
  let c0115 := c (n + y1 + x1 + 5)%Z in
  let c0116 := c (n + y1 + x1 + 6)%Z in
  let c0117 := c (n + y1 + x1 + 7)%Z in
  let c1010 := c (n + z1 + x1 + 0)%Z in
  let c1011 := c (n + z1 + x1 + 1)%Z in
  let c1012 := c (n + z1 + x1 + 2)%Z in
  let c1013 := c (n + z1 + x1 + 3)%Z in
  let c1014 := c (n + z1 + x1 + 4)%Z in
  let c1015 := c (n + z1 + x1 + 5)%Z in
  let c1016 := c (n + z1 + x1 + 6)%Z in
  let c1017 := c (n + z1 + x1 + 7)%Z in
  let c1100 := c (n + z1 + y1 + 0)%Z in
  let c1101 := c (n + z1 + y1 + 1)%Z in
  let c1102 := c (n + z1 + y1 + 2)%Z in
  let c1103 := c (n + z1 + y1 + 3)%Z in
  let c1104 := c (n + z1 + y1 + 4)%Z in
  let c1105 := c (n + z1 + y1 + 5)%Z in
  let c1106 := c (n + z1 + y1 + 6)%Z in
  let c1107 := c (n + z1 + y1 + 7)%Z in
  let c1110 := c (n + z1 + y1 + x1 + 0)%Z in
  let c1111 := c (n + z1 + y1 + x1 + 1)%Z in
  let c1112 := c (n + z1 + y1 + x1 + 2)%Z in
  let c1113 := c (n + z1 + y1 + x1 + 3)%Z in
  let c1114 := c (n + z1 + y1 + x1 + 4)%Z in
  let c1115 := c (n + z1 + y1 + x1 + 5)%Z in
  let c1116 := c (n + z1 + y1 + x1 + 6)%Z in
  let c1117 := c (n + z1 + y1 + x1 + 7)%Z in
  reading (i3c s)
    [n + 0; n + 1; n + 2; n + 3; n + 4; n + 5; n + 6; n + 7; n + x1 + 0; n + x1 + 1; n + x1 + 2; n + x1 + 3; n +
    x1 + 4; n + x1 + 5; n + x1 + 6; n + x1 + 7; n + y1 + 0; n + y1 + 1; n + y1 + 2; n + y1 + 3; n + y1 + 4; n + y1
    + 5; n + y1 + 6; n + y1 + 7; n + z1 + 0; n + z1 + 1; n + z1 + 2; n + z1 + 3; n + z1 + 4; n + z1 + 5; n + z1 +
    6; n + z1 + 7; n + y1 + x1 + 0; n + y1 + x1 + 1; n + y1 + x1 + 2; n + y1 + x1 + 3; n + y1 + x1 + 4; n + y1 +
    x1 + 5; n + y1 + x1 + 6; n + y1 + x1 + 7; n + z1 + x1 + 0; n + z1 + x1 + 1; n + z1 + x1 + 2; n + z1 + x1 + 3;
    n + z1 + x1 + 4; n + z1 + x1 + 5; n + z1 + x1 + 6; n + z1 + x1 + 7; n + z1 + y1 + 0; n + z1 + y1 + 1; n + z1 +
    y1 + 2; n + z1 + y1 + 3; n + z1 + y1 + 4; n + z1 + y1 + 5; n + z1 + y1 + 6; n + z1 + y1 + 7; n + z1 + y1 + x1
    + 0; n + z1 + y1 + x1 + 1; n + z1 + y1 + x1 + 2; n + z1 + y1 + x1 + 3; n + z1 + y1 + x1 + 4; n + z1 + y1 + x1
    + 5; n + z1 + y1 + x1 + 6; n + z1 + y1 + x1 + 7]%Z
    ((dzi * (dxi * (dyi * c0000 + dy * c0100) + dx * (dyi * c0010 + dy * c0110)) + dz * (dxi * (dyi * c1000 + dy *
     c1100) + dx * (dyi * c1010 + dy * c1110))) + xg2 / 6 * (dzi * (dxi3 * (dyi * c0001 + dy * c0101) + dx3 * (dyi
     * c0011 + dy * c0111)) + dz * (dxi3 * (dyi * c1001 + dy * c1101) + dx3 * (dyi * c1011 + dy * c1111))) + yg2 /
     6 * (dzi * (dxi * (dyi3 * c0002 + dy3 * c0102) + dx * (dyi3 * c0012 + dy3 * c0112)) + dz * (dxi * (dyi3 *
     c1002 + dy3 * c1102) + dx * (dyi3 * c1012 + dy3 * c1112))) + zg2 / 6 * (dzi3 * (dxi * (dyi * c0003 + dy *
     c0103) + dx * (dyi * c0013 + dy * c0113)) + dz3 * (dxi * (dyi * c1003 + dy * c1103) + dx * (dyi * c1013 + dy *
     c1113))) + xg2 * yg2 / 36 * (dzi * (dxi3 * (dyi3 * c0004 + dy3 * c0104) + dx3 * (dyi3 * c0014 + dy3 * c0114))
     + dz * (dxi3 * (dyi3 * c1004 + dy3 * c1104) + dx3 * (dyi3 * c1014 + dy3 * c1114))) + xg2 * zg2 / 36 * (dzi3 *
     (dxi3 * (dyi * c0005 + dy * c0105) + dx3 * (dyi * c0015 + dy * c0115)) + dz3 * (dxi3 * (dyi * c1005 + dy *
     c1105) + dx3 * (dyi * c1015 + dy * c1115))) + yg2 * zg2 / 36 * (dzi3 * (dxi * (dyi3 * c0006 + dy3 * c0106) +
     dx * (dyi3 * c0016 + dy3 * c0116)) + dz3 * (dxi * (dyi3 * c1006 + dy3 * c1106) + dx * (dyi3 * c1016 + dy3 *
     c1116))) + xg2 * yg2 * zg2 / 216 * (dzi3 * (dxi3 * (dyi3 * c0007 + dy3 * c0107) + dx3 * (dyi3 * c0017 + dy3 *
     c0117)) + dz3 * (dxi3 * (dyi3 * c1007 + dy3 * c1107) + dx3 * (dyi3 * c1017 + dy3 * c1117))),
     xgi * (dzi * (-(dyi * c0000 + dy * c0100) + (dyi * c0010 + dy * c0110)) + dz * (-(dyi * c1000 + dy * c1100) +
     (dyi * c1010 + dy * c1110))) + xg / 6 * (dzi * (dxi3dx * (dyi * c0001 + dy * c0101) + dx3dx * (dyi * c0011 +
     dy * c0111)) + dz * (dxi3dx * (dyi * c1001 + dy * c1101) + dx3dx * (dyi * c1011 + dy * c1111))) + xgi * yg2 /
     6 * (dzi * (-(dyi3 * c0002 + dy3 * c0102) + (dyi3 * c0012 + dy3 * c0112)) + dz * (-(dyi3 * c1002 + dy3 *
     c1102) + (dyi3 * c1012 + dy3 * c1112))) + xgi * zg2 / 6 * (dzi3 * (-(dyi * c0003 + dy * c0103) + (dyi * c0013
     + dy * c0113)) + dz3 * (-(dyi * c1003 + dy * c1103) + (dyi * c1013 + dy * c1113))) + xg * yg2 / 36 * (dzi *
     (dxi3dx * (dyi3 * c0004 + dy3 * c0104) + dx3dx * (dyi3 * c0014 + dy3 * c0114)) + dz * (dxi3dx * (dyi3 * c1004
     + dy3 * c1104) + dx3dx * (dyi3 * c1014 + dy3 * c1114))) + xg * zg2 / 36 * (dzi3 * (dxi3dx * (dyi * c0005 + dy
     * c0105) + dx3dx * (dyi * c0015 + dy * c0115)) + dz3 * (dxi3dx * (dyi * c1005 + dy * c1105) + dx3dx * (dyi *
     c1015 + dy * c1115))) + xgi * yg2 * zg2 / 36 * (dzi3 * (-(dyi3 * c0006 + dy3 * c0106) + (dyi3 * c0016 + dy3 *
     c0116)) + dz3 * (-(dyi3 * c1006 + dy3 * c1106) + (dyi3 * c1016 + dy3 * c1116))) + xg * yg2 * zg2 / 216 * (dzi3
     * (dxi3dx * (dyi3 * c0007 + dy3 * c0107) + dx3dx * (dyi3 * c0017 + dy3 * c0117)) + dz3 * (dxi3dx * (dyi3 *
     c1007 + dy3 * c1107) + dx3dx * (dyi3 * c1017 + dy3 * c1117))),
     ygi * (dzi * (dxi * (-c0000 + c0100) + dx * (-c0010 + c0110)) + dz * (dxi * (-c1000 + c1100) + dx * (-c1010 +
     c1110))) + ygi * xg2 / 6 * (dzi * (dxi3 * (-c0001 + c0101) + dx3 * (-c0011 + c0111)) + dz * (dxi3 * (-c1001 +
     c1101) + dx3 * (-c1011 + c1111))) + yg / 6 * (dzi * (dxi * (dyi3dy * c0002 + dy3dy * c0102) + dx * (dyi3dy *
     c0012 + dy3dy * c0112)) + dz * (dxi * (dyi3dy * c1002 + dy3dy * c1102) + dx * (dyi3dy * c1012 + dy3dy *
     c1112))) + ygi * zg2 / 6 * (dzi3 * (dxi * (-c0003 + c0103) + dx * (-c0013 + c0113)) + dz3 * (dxi * (-c1003 +
     c1103) + dx * (-c1013 + c1113))) + xg2 * yg / 36 * (dzi * (dxi3 * (dyi3dy * c0004 + dy3dy * c0104) + dx3 *
     (dyi3dy * c0014 + dy3dy * c0114)) + dz * (dxi3 * (dyi3dy * c1004 + dy3dy * c1104) + dx3 * (dyi3dy * c1014 +
     dy3dy * c1114))) + ygi * xg2 * zg2 / 36 * (dzi3 * (dxi3 * (-c0005 + c0105) + dx3 * (-c0015 + c0115)) + dz3 *
     (dxi3 * (-c1005 + c1105) + dx3 * (-c1015 + c1115))) + yg * zg2 / 36 * (dzi3 * (dxi * (dyi3dy * c0006 + dy3dy *
     c0106) + dx * (dyi3dy * c0016 + dy3dy * c0116)) + dz3 * (dxi * (dyi3dy * c1006 + dy3dy * c1106) + dx * (dyi3dy
     * c1016 + dy3dy * c1116))) + xg2 * yg * zg2 / 216 * (dzi3 * (dxi3 * (dyi3dy * c0007 + dy3dy * c0107) + dx3 *
     (dyi3dy * c0017 + dy3dy * c0117)) + dz3 * (dxi3 * (dyi3dy * c1007 + dy3dy * c1107) + dx3 * (dyi3dy * c1017 +
     dy3dy * c1117))),
     zgi * (-(dxi * (dyi * c0000 + dy * c0100) + dx * (dyi * c0010 + dy * c0110)) + (dxi * (dyi * c1000 + dy *
     c1100) + dx * (dyi * c1010 + dy * c1110))) + xg2 * zgi / 6 * (-(dxi3 * (dyi * c0001 + dy * c0101) + dx3 * (dyi
     * c0011 + dy * c0111)) + (dxi3 * (dyi * c1001 + dy * c1101) + dx3 * (dyi * c1011 + dy * c1111))) + yg2 * zgi /
     6 * (-(dxi * (dyi3 * c0002 + dy3 * c0102) + dx * (dyi3 * c0012 + dy3 * c0112)) + (dxi * (dyi3 * c1002 + dy3 *
     c1102) + dx * (dyi3 * c1012 + dy3 * c1112))) + zg / 6 * (dzi3dz * (dxi * (dyi * c0003 + dy * c0103) + dx *
     (dyi * c0013 + dy * c0113)) + dz3dz * (dxi * (dyi * c1003 + dy * c1103) + dx * (dyi * c1013 + dy * c1113))) +
     xg2 * yg2 * zgi / 36 * (-(dxi3 * (dyi3 * c0004 + dy3 * c0104) + dx3 * (dyi3 * c0014 + dy3 * c0114)) + (dxi3 *
     (dyi3 * c1004 + dy3 * c1104) + dx3 * (dyi3 * c1014 + dy3 * c1114))) + xg2 * zg / 36 * (dzi3dz * (dxi3 * (dyi *
     c0005 + dy * c0105) + dx3 * (dyi * c0015 + dy * c0115)) + dz3dz * (dxi3 * (dyi * c1005 + dy * c1105) + dx3 *
     (dyi * c1015 + dy * c1115))) + yg2 * zg / 36 * (dzi3dz * (dxi * (dyi3 * c0006 + dy3 * c0106) + dx * (dyi3 *
     c0016 + dy3 * c0116)) + dz3dz * (dxi * (dyi3 * c1006 + dy3 * c1106) + dx * (dyi3 * c1016 + dy3 * c1116))) +
     xg2 * yg2 * zg / 216 * (dzi3dz * (dxi3 * (dyi3 * c0007 + dy3 * c0107) + dx3 * (dyi3 * c0017 + dy3 * c0117)) +
     dz3dz * (dxi3 * (dyi3 * c1007 + dy3 * c1107) + dx3 * (dyi3 * c1017 + dy3 * c1117))),
     (dzi * (dxi * (dyi * c0001 + dy * c0101) + dx * (dyi * c0011 + dy * c0111)) + dz * (dxi * (dyi * c1001 + dy *
     c1101) + dx * (dyi * c1011 + dy * c1111))) + yg2 / 6 * (dzi * (dxi * (dyi3 * c0004 + dy3 * c0104) + dx * (dyi3
     * c0014 + dy3 * c0114)) + dz * (dxi * (dyi3 * c1004 + dy3 * c1104) + dx * (dyi3 * c1014 + dy3 * c1114))) + zg2
     / 6 * (dzi3 * (dxi * (dyi * c0005 + dy * c0105) + dx * (dyi * c0015 + dy * c0115)) + dz3 * (dxi * (dyi * c1005
     + dy * c1105) + dx * (dyi * c1015 + dy * c1115))) + yg2 * zg2 / 36 * (dzi3 * (dxi * (dyi3 * c0007 + dy3 *
     c0107) + dx * (dyi3 * c0017 + dy3 * c0117)) + dz3 * (dxi * (dyi3 * c1007 + dy3 * c1107) + dx * (dyi3 * c1017 +
     dy3 * c1117))),
     (dzi * (dxi * (dyi * c0002 + dy * c0102) + dx * (dyi * c0012 + dy * c0112)) + dz * (dxi * (dyi * c1002 + dy *
     c1102) + dx * (dyi * c1012 + dy * c1112))) + xg2 / 6 * (dzi * (dxi3 * (dyi * c0004 + dy * c0104) + dx3 * (dyi
     * c0014 + dy * c0114)) + dz * (dxi3 * (dyi * c1004 + dy * c1104) + dx3 * (dyi * c1014 + dy * c1114))) + zg2 /
     6 * (dzi3 * (dxi * (dyi * c0006 + dy * c0106) + dx * (dyi * c0016 + dy * c0116)) + dz3 * (dxi * (dyi * c1006 +
     dy * c1106) + dx * (dyi * c1016 + dy * c1116))) + xg2 * zg2 / 36 * (dzi3 * (dxi3 * (dyi * c0007 + dy * c0107)
     + dx3 * (dyi * c0017 + dy * c0117)) + dz3 * (dxi3 * (dyi * c1007 + dy * c1107) + dx3 * (dyi * c1017 + dy *
     c1117))),
     (dzi * (dxi * (dyi * c0003 + dy * c0103) + dx * (dyi * c0013 + dy * c0113)) + dz * (dxi * (dyi * c1003 + dy *
     c1103) + dx * (dyi * c1013 + dy * c1113))) + xg2 / 6 * (dzi * (dxi3 * (dyi * c0005 + dy * c0105) + dx3 * (dyi
     * c0015 + dy * c0115)) + dz * (dxi3 * (dyi * c1005 + dy * c1105) + dx3 * (dyi * c1015 + dy * c1115))) + yg2 /
     6 * (dzi * (dxi * (dyi3 * c0006 + dy3 * c0106) + dx * (dyi3 * c0016 + dy3 * c0116)) + dz * (dxi * (dyi3 *
     c1006 + dy3 * c1106) + dx * (dyi3 * c1016 + dy3 * c1116))) + xg2 * yg2 / 36 * (dzi * (dxi3 * (dyi3 * c0007 +
     dy3 * c0107) + dx3 * (dyi3 * c0017 + dy3 * c0117)) + dz * (dxi3 * (dyi3 * c1007 + dy3 * c1107) + dx3 * (dyi3 *
     c1017 + dy3 * c1117))),
     xgi * ygi * (dzi * ((c0000 - c0100) - (c0010 - c0110)) + dz * ((c1000 - c1100) - (c1010 - c1110))) + ygi * xg
     / 6 * (dzi * (dxi3dx * (-c0001 + c0101) + dx3dx * (-c0011 + c0111)) + dz * (dxi3dx * (-c1001 + c1101) + dx3dx
     * (-c1011 + c1111))) + xgi * yg / 6 * (dzi * (-(dyi3dy * c0002 + dy3dy * c0102) + (dyi3dy * c0012 + dy3dy *
     c0112)) + dz * (-(dyi3dy * c1002 + dy3dy * c1102) + (dyi3dy * c1012 + dy3dy * c1112))) + xgi * ygi * zg2 / 6 *
     (dzi3 * ((c0003 - c0103) - (c0013 - c0113)) + dz3 * ((c1003 - c1103) - (c1013 - c1113))) + xg * yg / 36 * (dzi
     * (dxi3dx * (dyi3dy * c0004 + dy3dy * c0104) + dx3dx * (dyi3dy * c0014 + dy3dy * c0114)) + dz * (dxi3dx *
     (dyi3dy * c1004 + dy3dy * c1104) + dx3dx * (dyi3dy * c1014 + dy3dy * c1114))) + ygi * xg * zg2 / 36 * (dzi3 *
     (dxi3dx * (-c0005 + c0105) + dx3dx * (-c0015 + c0115)) + dz3 * (dxi3dx * (-c1005 + c1105) + dx3dx * (-c1015 +
     c1115))) + xgi * yg * zg2 / 36 * (dzi3 * (-(dyi3dy * c0006 + dy3dy * c0106) + (dyi3dy * c0016 + dy3dy *
     c0116)) + dz3 * (-(dyi3dy * c1006 + dy3dy * c1106) + (dyi3dy * c1016 + dy3dy * c1116))) + xg * yg * zg2 / 216
     * (dzi3 * (dxi3dx * (dyi3dy * c0007 + dy3dy * c0107) + dx3dx * (dyi3dy * c0017 + dy3dy * c0117)) + dz3 *
     (dxi3dx * (dyi3dy * c1007 + dy3dy * c1107) + dx3dx * (dyi3dy * c1017 + dy3dy * c1117))),
     xgi * zgi * (((dyi * c0000 + dy * c0100) - (dyi * c0010 + dy * c0110)) - ((dyi * c1000 + dy * c1100) - (dyi *
     c1010 + dy * c1110))) + xg * zgi / 6 * (-(dxi3dx * (dyi * c0001 + dy * c0101) + dx3dx * (dyi * c0011 + dy *
     c0111)) + (dxi3dx * (dyi * c1001 + dy * c1101) + dx3dx * (dyi * c1011 + dy * c1111))) + xgi * yg2 * zgi / 6 *
     (((dyi3 * c0002 + dy3 * c0102) - (dyi3 * c0012 + dy3 * c0112)) - ((dyi3 * c1002 + dy3 * c1102) - (dyi3 * c1012
     + dy3 * c1112))) + xgi * zg / 6 * (dzi3dz * (-(dyi * c0003 + dy * c0103) + (dyi * c0013 + dy * c0113)) + dz3dz
     * (-(dyi * c1003 + dy * c1103) + (dyi * c1013 + dy * c1113))) + xg * yg2 * zgi / 36 * (-(dxi3dx * (dyi3 *
     c0004 + dy3 * c0104) + dx3dx * (dyi3 * c0014 + dy3 * c0114)) + (dxi3dx * (dyi3 * c1004 + dy3 * c1104) + dx3dx
     * (dyi3 * c1014 + dy3 * c1114))) + xg * zg / 36 * (dzi3dz * (dxi3dx * (dyi * c0005 + dy * c0105) + dx3dx *
     (dyi * c0015 + dy * c0115)) + dz3dz * (dxi3dx * (dyi * c1005 + dy * c1105) + dx3dx * (dyi * c1015 + dy *
     c1115))) + xgi * yg2 * zg / 36 * (dzi3dz * (-(dyi3 * c0006 + dy3 * c0106) + (dyi3 * c0016 + dy3 * c0116)) +
     dz3dz * (-(dyi3 * c1006 + dy3 * c1106) + (dyi3 * c1016 + dy3 * c1116))) + xg * yg2 * zg / 216 * (dzi3dz *
     (dxi3dx * (dyi3 * c0007 + dy3 * c0107) + dx3dx * (dyi3 * c0017 + dy3 * c0117)) + dz3dz * (dxi3dx * (dyi3 *
     c1007 + dy3 * c1107) + dx3dx * (dyi3 * c1017 + dy3 * c1117))),
     ygi * zgi * ((dxi * (c0000 - c0100) + dx * (c0010 - c0110)) - (dxi * (c1000 - c1100) + dx * (c1010 - c1110)))
     + ygi * xg2 * zgi / 6 * ((dxi3 * (c0001 - c0101) + dx3 * (c0011 - c0111)) - (dxi3 * (c1001 - c1101) + dx3 *
     (c1011 - c1111))) + yg * zgi / 6 * (-(dxi * (dyi3dy * c0002 + dy3dy * c0102) + dx * (dyi3dy * c0012 + dy3dy *
     c0112)) + (dxi * (dyi3dy * c1002 + dy3dy * c1102) + dx * (dyi3dy * c1012 + dy3dy * c1112))) + ygi * zg / 6 *
     (dzi3dz * (dxi * (-c0003 + c0103) + dx * (-c0013 + c0113)) + dz3dz * (dxi * (-c1003 + c1103) + dx * (-c1013 +
     c1113))) + xg2 * yg * zgi / 36 * (-(dxi3 * (dyi3dy * c0004 + dy3dy * c0104) + dx3 * (dyi3dy * c0014 + dy3dy *
     c0114)) + (dxi3 * (dyi3dy * c1004 + dy3dy * c1104) + dx3 * (dyi3dy * c1014 + dy3dy * c1114))) + ygi * xg2 * zg
     / 36 * (dzi3dz * (dxi3 * (-c0005 + c0105) + dx3 * (-c0015 + c0115)) + dz3dz * (dxi3 * (-c1005 + c1105) + dx3 *
     (-c1015 + c1115))) + yg * zg / 36 * (dzi3dz * (dxi * (dyi3dy * c0006 + dy3dy * c0106) + dx * (dyi3dy * c0016 +
     dy3dy * c0116)) + dz3dz * (dxi * (dyi3dy * c1006 + dy3dy * c1106) + dx * (dyi3dy * c1016 + dy3dy * c1116))) +
     xg2 * yg * zg / 216 * (dzi3dz * (dxi3 * (dyi3dy * c0007 + dy3dy * c0107) + dx3 * (dyi3dy * c0017 + dy3dy *
     c0117)) + dz3dz * (dxi3 * (dyi3dy * c1007 + dy3dy * c1107) + dx3 * (dyi3dy * c1017 + dy3dy * c1117)))).
