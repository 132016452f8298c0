(** Model of src/spline/interp2Dcomp.c.  The expressions are the ones of the
    source, in the same order. *)
From Coq Require Import Reals List Arith ZArith Bool.
From Verif Require Import AxisModel SplineModel.
Import ListNotations.
Local Open Scope R_scope.

Record interp2D := I2 { i2x : axis; i2y : axis; i2c : arr }.
(** what splinecomp leaves in c[2*i+1] *)
Definition curv (junk f : nat -> R) (n : nat) (bc : Z) (i : nat) : R :=
  match splinecomp junk f n bc with Val d => d i | _ => 0 end.
Definition complete {A} (r : res A) : bool := match r with Val _ => true | _ => false end.
(** interp2Dcomp.c:33-110, 130-160 and 174-186; f[i_y*n_x + i_x].  The x splines of every
    row first, then the y splines of every column. *)
Definition interp2Dcomp_setup (junk f : nat -> R) (nx ny : nat) (bcx bcy : Z) (xmn xmx ymn ymx : R) : res interp2D :=
  if (valid_bc bcx && valid_bc bcy)%bool then
    let xg := grid_step (Z.of_nat nx) bcx xmn xmx in
    let yg := grid_step (Z.of_nat ny) bcy ymn ymx in
    if (complete (splinecomp junk f nx bcx) && complete (splinecomp junk f ny bcy))%bool then
      let c0 ix iy := f (iy * nx + ix)%nat in
      let c1 ix iy := curv junk (fun k => c0 k iy) nx bcx ix / (xg * xg) in
      let c2 ix iy := curv junk (fun k => c0 ix k) ny bcy iy / (yg * yg) in
      let c3 ix iy := curv junk (fun k => c1 ix k) ny bcy iy / (yg * yg) in
      Val (I2 (mk_axis (Z.of_nat nx) bcx xmn xmx) (mk_axis (Z.of_nat ny) bcy ymn ymx)
        (Arr (Z.of_nat ny * Z.of_nat nx * 4) (fun m =>
           let iy := Z.to_nat (m / (Z.of_nat nx * 4)) in
           let ix := Z.to_nat ((m / 4) mod Z.of_nat nx) in
           let k := (m mod 4)%Z in
           if (k =? 0)%Z then c0 ix iy else if (k =? 1)%Z then c1 ix iy
           else if (k =? 2)%Z then c2 ix iy else c3 ix iy)))
    else Oob
  else Err.

(** interp2Dcomp.c:201-269 *)
Definition interp2Dcomp_eval_f (s : interp2D) (x0 y0 : R) : res R :=
  let c := aget (i2c s) in
  let x := wrap (i2x s) x0 in
  let y := wrap (i2y s) y0 in
  let ix := index_spl (i2x s) x in
  let dx := frac (i2x s) x ix in
  let dx3 := dx * (dx * dx - 1) in
  let dxi := 1 - dx in
  let dxi3 := dxi * (dxi * dxi - 1) in
  let xg2 := agrid (i2x s) * agrid (i2x s) in
  let iy := index_spl (i2y s) y in
  let dy := frac (i2y s) y iy in
  let dy3 := dy * (dy * dy - 1) in
  let dyi := 1 - dy in
  let dyi3 := dyi * (dyi * dyi - 1) in
  let yg2 := agrid (i2y s) * agrid (i2y s) in
  let n := (iy * an (i2x s) * 4 + ix * 4)%Z in
  let x1 := jump (i2x s) ix 4 in
  let y1 := jump (i2y s) iy (an (i2x s) * 4) in
  if (outside (i2x s) x ix || outside (i2y s) y iy)%bool then Err else
  reading (i2c s)
    [n; n + y1; n + x1; n + y1 + x1; n + 1; n + y1 + 1; n + x1 + 1; n + y1 + x1 + 1; n + 2; n + y1 + 2; n + x1 +
    2; n + y1 + x1 + 2; n + 3; n + y1 + 3; n + x1 + 3; n + y1 + x1 + 3]%Z
    ((dxi * (dyi * c n + dy * c (n + y1)%Z) + dx * (dyi * c (n + x1)%Z + dy * c (n + y1 + x1)%Z)) + (xg2 / 6) *
     (dxi3 * (dyi * c (n + 1)%Z + dy * c (n + y1 + 1)%Z) + dx3 * (dyi * c (n + x1 + 1)%Z + dy * c (n + y1 + x1 +
     1)%Z)) + (yg2 / 6) * (dxi * (dyi3 * c (n + 2)%Z + dy3 * c (n + y1 + 2)%Z) + dx * (dyi3 * c (n + x1 + 2)%Z +
     dy3 * c (n + y1 + x1 + 2)%Z)) + (xg2 * yg2 / 36) * (dxi3 * (dyi3 * c (n + 3)%Z + dy3 * c (n + y1 + 3)%Z) + dx3
     * (dyi3 * c (n + x1 + 3)%Z + dy3 * c (n + y1 + x1 + 3)%Z))).

(** interp2Dcomp.c:293-428 *)
Definition interp2Dcomp_eval_df (s : interp2D) (x0 y0 : R) : res (R * R * R * R * R * R) :=
  let c := aget (i2c s) in
  let x := wrap (i2x s) x0 in
  let y := wrap (i2y s) y0 in
  let ix := index_spl (i2x s) x in
  let dx := frac (i2x s) x ix in
  let dx3 := dx * (dx * dx - 1) in
  let dx3dx := 3 * dx * dx - 1 in
  let dxi := 1 - dx in
  let dxi3 := dxi * (dxi * dxi - 1) in
  let dxi3dx := -3 * dxi * dxi + 1 in
  let xg := agrid (i2x s) in
  let xg2 := xg * xg in
  let xgi := 1 / xg in
  let iy := index_spl (i2y s) y in
  let dy := frac (i2y s) y iy in
  let dy3 := dy * (dy * dy - 1) in
  let dy3dy := 3 * dy * dy - 1 in
  let dyi := 1 - dy in
  let dyi3 := dyi * (dyi * dyi - 1) in
  let dyi3dy := -3 * dyi * dyi + 1 in
  let yg := agrid (i2y s) in
  let yg2 := yg * yg in
  let ygi := 1 / yg in
  let n := (iy * an (i2x s) * 4 + ix * 4)%Z in
  let x1 := jump (i2x s) ix 4 in
  let y1 := jump (i2y s) iy (an (i2x s) * 4) in
  if (outside (i2x s) x ix || outside (i2y s) y iy)%bool then Err else
  reading (i2c s)
    [n; n + y1; n + x1; n + y1 + x1; n + 1; n + y1 + 1; n + x1 + 1; n + y1 + x1 + 1; n + 2; n + y1 + 2; n + x1 +
    2; n + y1 + x1 + 2; n + 3; n + y1 + 3; n + x1 + 3; n + y1 + x1 + 3]%Z
    ((dxi * (dyi * c n + dy * c (n + y1)%Z) + dx * (dyi * c (n + x1)%Z + dy * c (n + y1 + x1)%Z)) + (xg2 / 6) *
     (dxi3 * (dyi * c (n + 1)%Z + dy * c (n + y1 + 1)%Z) + dx3 * (dyi * c (n + x1 + 1)%Z + dy * c (n + y1 + x1 +
     1)%Z)) + (yg2 / 6) * (dxi * (dyi3 * c (n + 2)%Z + dy3 * c (n + y1 + 2)%Z) + dx * (dyi3 * c (n + x1 + 2)%Z +
     dy3 * c (n + y1 + x1 + 2)%Z)) + (xg2 * yg2 / 36) * (dxi3 * (dyi3 * c (n + 3)%Z + dy3 * c (n + y1 + 3)%Z) + dx3
     * (dyi3 * c (n + x1 + 3)%Z + dy3 * c (n + y1 + x1 + 3)%Z)),
     xgi * (-(dyi * c n + dy * c (n + y1)%Z) + (dyi * c (n + x1)%Z + dy * c (n + y1 + x1)%Z)) + (xg / 6) * (dxi3dx
     * (dyi * c (n + 1)%Z + dy * c (n + y1 + 1)%Z) + dx3dx * (dyi * c (n + x1 + 1)%Z + dy * c (n + y1 + x1 + 1)%Z))
     + (xgi * yg2 / 6) * (-(dyi3 * c (n + 2)%Z + dy3 * c (n + y1 + 2)%Z) + (dyi3 * c (n + x1 + 2)%Z + dy3 * c (n +
     y1 + x1 + 2)%Z)) + (xg * yg2 / 36) * (dxi3dx * (dyi3 * c (n + 3)%Z + dy3 * c (n + y1 + 3)%Z) + dx3dx * (dyi3 *
     c (n + x1 + 3)%Z + dy3 * c (n + y1 + x1 + 3)%Z)),
     ygi * (dxi * (-c n + c (n + y1)%Z) + dx * (-c (n + x1)%Z + c (n + y1 + x1)%Z)) + (xg2 * ygi / 6) * (dxi3 * (-c
     (n + 1)%Z + c (n + y1 + 1)%Z) + dx3 * (-c (n + x1 + 1)%Z + c (n + y1 + x1 + 1)%Z)) + (yg / 6) * (dxi * (dyi3dy
     * c (n + 2)%Z + dy3dy * c (n + y1 + 2)%Z) + dx * (dyi3dy * c (n + x1 + 2)%Z + dy3dy * c (n + y1 + x1 + 2)%Z))
     + (xg2 * yg / 36) * (dxi3 * (dyi3dy * c (n + 3)%Z + dy3dy * c (n + y1 + 3)%Z) + dx3 * (dyi3dy * c (n + x1 +
     3)%Z + dy3dy * c (n + y1 + x1 + 3)%Z)),
     (dxi * (dyi * c (n + 1)%Z + dy * c (n + y1 + 1)%Z) + dx * (dyi * c (n + x1 + 1)%Z + dy * c (n + y1 + x1 +
     1)%Z)) + (yg2 / 6) * (dxi * (dyi3 * c (n + 3)%Z + dy3 * c (n + y1 + 3)%Z) + dx * (dyi3 * c (n + x1 + 3)%Z +
     dy3 * c (n + y1 + x1 + 3)%Z)),
     (dxi * (dyi * c (n + 2)%Z + dy * c (n + y1 + 2)%Z) + dx * (dyi * c (n + x1 + 2)%Z + dy * c (n + y1 + x1 +
     2)%Z)) + xg2 / 6 * (dxi3 * (dyi * c (n + 3)%Z + dy * c (n + y1 + 3)%Z) + dx3 * (dyi * c (n + x1 + 3)%Z + dy *
     c (n + y1 + x1 + 3)%Z)),
     xgi * ygi * (c n - c (n + y1)%Z - c (n + x1)%Z + c (n + y1 + x1)%Z) + (xg / 6 * ygi) * (dxi3dx * (-c (n + 1)%Z
     + c (n + y1 + 1)%Z) + dx3dx * (-c (n + x1 + 1)%Z + c (n + y1 + x1 + 1)%Z)) + (xgi / 6 * yg) * (-(dyi3dy * c (n
     + 2)%Z + dy3dy * c (n + y1 + 2)%Z) + (dyi3dy * c (n + x1 + 2)%Z + dy3dy * c (n + y1 + x1 + 2)%Z)) + (xg * yg /
     36) * (dxi3dx * (dyi3dy * c (n + 3)%Z + dy3dy * c (n + y1 + 3)%Z) + dx3dx * (dyi3dy * c (n + x1 + 3)%Z + dy3dy
     * c (n + y1 + x1 + 3)%Z))).
