(** Model of src/linint/: linear, bilinear and trilinear interpolation. *)
From Coq Require Import Reals List ZArith Bool.
From Verif Require Import AxisModel.
Import ListNotations.
Local Open Scope R_scope.

(** linint1D.c:22-33 and 47-76 *)
Record linint1D := L1 { l1x : axis; l1c : arr }.
Definition linint1D_init (c : arr) (n bc : Z) (mn mx : R) : linint1D := L1 (mk_axis n bc mn mx) c.
Definition linint1D_eval_f (s : linint1D) (x0 : R) : res R :=
  let c := aget (l1c s) in
  let x := wrap (l1x s) x0 in
  let ix := index_lin (l1x s) x in
  let dx := frac (l1x s) x ix in
  let x1 := jump (l1x s) ix 1 in
  if outside (l1x s) x ix then Err else
  reading (l1c s) [ix; ix + x1]%Z (c ix * (1 - dx) + c (ix + x1)%Z * dx).

(** linint2D.c:25-43: the boundary conditions bc_x and bc_y are not stored, the
    fields keep whatever they held before *)
Record linint2D := L2 { l2x : axis; l2y : axis; l2c : arr }.
Definition linint2D_init (old_bcx old_bcy : Z) (c : arr) (nx ny bcx bcy : Z) (xmn xmx ymn ymx : R) : linint2D :=
  L2 (Axis nx old_bcx xmn xmx (grid_step nx bcx xmn xmx)) (Axis ny old_bcy ymn ymx (grid_step ny bcy ymn ymx)) c.
(** linint2D.c:58-116 *)
Definition linint2D_eval_f (s : linint2D) (x0 y0 : R) : res R :=
  let c := aget (l2c s) in
  let x := wrap (l2x s) x0 in let y := wrap (l2y s) y0 in
  let ix := index_lin (l2x s) x in let dx := frac (l2x s) x ix in
  let iy := index_lin (l2y s) y in let dy := frac (l2y s) y iy in
  let n := (iy * an (l2x s) + ix)%Z in
  let x1 := jump (l2x s) ix 1 in
  let y1 := jump (l2y s) iy (an (l2x s)) in
  if (outside (l2x s) x ix || outside (l2y s) y iy)%bool then Err else
  let c00 := c n in let c10 := c (n + x1)%Z in
  let c01 := c (n + y1)%Z in let c11 := c (n + y1 + x1)%Z in
  let c0 := c00 * (1 - dx) + c10 * dx in
  let c1 := c01 * (1 - dx) + c11 * dx in
  reading (l2c s) [n; n + x1; n + y1; n + y1 + x1]%Z (c0 * (1 - dy) + c1 * dy).

(** linint3D.c:29-56 and 70-154 *)
Record linint3D := L3 { l3x : axis; l3y : axis; l3z : axis; l3c : arr }.
Definition linint3D_init (c : arr) (nx ny nz bcx bcy bcz : Z) (xmn xmx ymn ymx zmn zmx : R) : linint3D :=
  L3 (mk_axis nx bcx xmn xmx) (mk_axis ny bcy ymn ymx) (mk_axis nz bcz zmn zmx) c.
Definition linint3D_eval_f (s : linint3D) (x0 y0 z0 : R) : res R :=
  let c := aget (l3c s) in
  let x := wrap (l3x s) x0 in let y := wrap (l3y s) y0 in let z := wrap (l3z s) z0 in
  let ix := index_lin (l3x s) x in let dx := frac (l3x s) x ix in
  let iy := index_lin (l3y s) y in let dy := frac (l3y s) y iy in
  let iz := index_lin (l3z s) z in let dz := frac (l3z s) z iz in
  let nx := an (l3x s) in let nz := an (l3z s) in
  let n := (iy * nz * nx + iz * nx + ix)%Z in
  let x1 := jump (l3x s) ix 1 in
  let y1 := jump (l3y s) iy (nz * nx) in
  let z1 := jump (l3z s) iz nx in
  if (outside (l3x s) x ix || outside (l3y s) y iy || outside (l3z s) z iz)%bool then Err else
  let c000 := c n in let c100 := c (n + x1)%Z in
  let c001 := c (n + y1)%Z in let c101 := c (n + y1 + x1)%Z in
  let c010 := c (n + z1)%Z in let c110 := c (n + z1 + x1)%Z in
  let c011 := c (n + y1 + z1)%Z in let c111 := c (n + y1 + z1 + x1)%Z in
  let c00 := c000 * (1 - dx) + c100 * dx in
  let c01 := c001 * (1 - dx) + c101 * dx in
  let c10 := c010 * (1 - dx) + c110 * dx in
  let c11 := c011 * (1 - dx) + c111 * dx in
  let c0 := c00 * (1 - dz) + c10 * dz in
  let c1 := c01 * (1 - dz) + c11 * dz in
  reading (l3c s) [n; n + x1; n + y1; n + y1 + x1; n + z1; n + z1 + x1; n + y1 + z1; n + y1 + z1 + x1]%Z
    (c0 * (1 - dy) + c1 * dy).
