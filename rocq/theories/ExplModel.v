(** Model of src/spline/interp2Dexpl.c and interp3Dexpl.c: splines stored as the
    coefficients of the cell polynomials.  The expressions are the ones of the
    source, in the same order.  The loops that fill c write every element at most
    twice and read it only in between; the array is given here by its final
    contents, with [left] for an element that is never written. *)
From Coq Require Import Reals List Arith ZArith Bool.
From Verif Require Import AxisModel SplineModel Spl2Model Spl3Model.
Import ListNotations.
Local Open Scope R_scope.

(** element 4*i+k of the array filled by splineexpl *)
Definition poly (junkd : nat -> R) (junk : Z -> R) (f : nat -> R) (n : nat) (bc : Z) (i : nat) (k : Z) : R :=
  match splineexpl junkd junk f n bc with Val c => c (Z.of_nat i * 4 + k)%Z | _ => 0 end.

(** interp2Dexpl.c:33-91 and 108-133; f[i_y*n_x + i_x].  Both loops over the cells
    stop at n - 1 whatever the boundary condition is (lines 58, 70, 76). *)
Definition interp2Dexpl_setup (junkd : nat -> R) (junk left : Z -> R) (f : nat -> R) (nx ny : nat) (bcx bcy : Z)
    (xmn xmx ymn ymx : R) : res interp2D :=
  if (complete (splineexpl junkd junk f nx bcx) && complete (splineexpl junkd junk f ny bcy))%bool then
    let c1 m ix iy is := if (ix <? nx - 1)%nat then poly junkd junk (fun k => f (iy * nx + k)%nat) nx bcx ix is else left m in
    let pos ix iy k := (Z.of_nat iy * Z.of_nat nx * 16 + Z.of_nat ix * 16 + k)%Z in
    Val (I2 (mk_axis (Z.of_nat nx) bcx xmn xmx) (mk_axis (Z.of_nat ny) bcy ymn ymx)
      (Arr (Z.of_nat ny * Z.of_nat nx * 16) (fun m =>
         let iy := Z.to_nat (m / (Z.of_nat nx * 16)) in
         let ix := Z.to_nat ((m / 16) mod Z.of_nat nx) in
         let is := (m mod 4)%Z in
         let ict := ((m / 4) mod 4)%Z in
         if ((ix <? nx - 1)%nat && (iy <? ny - 1)%nat)%bool
         then poly junkd junk (fun j => c1 (pos ix j is) ix j is) ny bcy iy ict
         else if (ict =? 0)%Z then c1 m ix iy is
         else left m)))
  else Oob.

(** interp2Dexpl.c:146-201 *)
Definition interp2Dexpl_eval_f (s : interp2D) (x0 y0 : R) : res R :=
  let x := wrap (i2x s) x0 in
  let y := wrap (i2y s) y0 in
  let ix := index_spl (i2x s) x in
  let dx := frac (i2x s) x ix in
  let dx2 := dx * dx in
  let dx3 := dx2 * dx in
  let iy := index_spl (i2y s) y in
  let dy := frac (i2y s) y iy in
  let dy2 := dy * dy in
  let dy3 := dy2 * dy in
  let n := (iy * an (i2x s) * 16 + ix * 16)%Z in
  let cc k := aget (i2c s) (n + k)%Z in
  if (outside_e (i2x s) x || outside_e (i2y s) y)%bool then Err else
  reading (i2c s) (map (fun k => n + Z.of_nat k)%Z (seq 0 16))
    (cc 0%Z + dx * cc 1%Z + dx2 * cc 2%Z + dx3 * cc 3%Z + dy * (cc 4%Z + dx * cc 5%Z + dx2 * cc 6%Z + dx3 * cc 7%Z) +
     dy2 * (cc 8%Z + dx * cc 9%Z + dx2 * cc 10%Z + dx3 * cc 11%Z) + dy3 * (cc 12%Z + dx * cc 13%Z + dx2 * cc 14%Z +
     dx3 * cc 15%Z)).

(** interp2Dexpl.c:220-318 *)
Definition interp2Dexpl_eval_df (s : interp2D) (x0 y0 : R) : res (R * R * R * R * R * R) :=
  let x := wrap (i2x s) x0 in
  let y := wrap (i2y s) y0 in
  let ix := index_spl (i2x s) x in
  let dx := frac (i2x s) x ix in
  let dx2 := dx * dx in
  let dx3 := dx2 * dx in
  let xgi := 1 / agrid (i2x s) in
  let iy := index_spl (i2y s) y in
  let dy := frac (i2y s) y iy in
  let dy2 := dy * dy in
  let dy3 := dy2 * dy in
  let ygi := 1 / agrid (i2y s) in
  let n := (iy * an (i2x s) * 16 + ix * 16)%Z in
  let cc k := aget (i2c s) (n + k)%Z in
  if (outside_e (i2x s) x || outside_e (i2y s) y)%bool then Err else
  reading (i2c s) (map (fun k => n + Z.of_nat k)%Z (seq 0 16))
    (cc 0%Z + dx * cc 1%Z + dx2 * cc 2%Z + dx3 * cc 3%Z + dy * (cc 4%Z + dx * cc 5%Z + dx2 * cc 6%Z + dx3 * cc 7%Z) +
     dy2 * (cc 8%Z + dx * cc 9%Z + dx2 * cc 10%Z + dx3 * cc 11%Z) + dy3 * (cc 12%Z + dx * cc 13%Z + dx2 * cc 14%Z +
     dx3 * cc 15%Z),
     xgi * (cc 1%Z + 2 * dx * cc 2%Z + 3 * dx2 * cc 3%Z + dy * (cc 5%Z + 2 * dx * cc 6%Z + 3 * dx2 * cc 7%Z) + dy2 *
     (cc 9%Z + 2 * dx * cc 10%Z + 3 * dx2 * cc 11%Z) + dy3 * (cc 13%Z + 2 * dx * cc 14%Z + 3 * dx2 * cc 15%Z)),
     ygi * (cc 4%Z + dx * cc 5%Z + dx2 * cc 6%Z + dx3 * cc 7%Z + 2 * dy * (cc 8%Z + dx * cc 9%Z + dx2 * cc 10%Z + dx3
     * cc 11%Z) + 3 * dy2 * (cc 12%Z + dx * cc 13%Z + dx2 * cc 14%Z + dx3 * cc 15%Z)),
     xgi * xgi * (2 * cc 2%Z + 6 * dx * cc 3%Z + dy * (2 * cc 6%Z + 6 * dx * cc 7%Z) + dy2 * (2 * cc 10%Z + 6 * dx *
     cc 11%Z) + dy3 * (2 * cc 14%Z + 6 * dx * cc 15%Z)),
     ygi * ygi * (2 * (cc 8%Z + dx * cc 9%Z + dx2 * cc 10%Z + dx3 * cc 11%Z) + 6 * dy * (cc 12%Z + dx * cc 13%Z + dx2
     * cc 14%Z + dx3 * cc 15%Z)),
     xgi * ygi * (cc 5%Z + 2 * dx * cc 6%Z + 3 * dx2 * cc 7%Z + 2 * dy * (cc 9%Z + 2 * dx * cc 10%Z + 3 * dx2 * cc
     11%Z) + 3 * dy2 * (cc 13%Z + 2 * dx * cc 14%Z + 3 * dx2 * cc 15%Z))).

(** interp3Dexpl.c:37-134 and 153-187; f[i_z*n_y*n_x + i_y*n_x + i_x].  Here the
    loops over the cells run to n for a periodic direction. *)
Definition interp3Dexpl_setup (junkd : nat -> R) (junk left : Z -> R) (f : nat -> R) (nx ny nz : nat) (bcx bcy bcz : Z)
    (xmn xmx ymn ymx zmn zmx : R) : res interp3D :=
  if (complete (splineexpl junkd junk f nx bcx) && complete (splineexpl junkd junk f ny bcy) &&
      complete (splineexpl junkd junk f nz bcz))%bool then
    let in_x ix := (Z.of_nat ix <? ncell (Z.of_nat nx) bcx)%Z in
    let in_y iy := (Z.of_nat iy <? ncell (Z.of_nat ny) bcy)%Z in
    let in_z iz := (Z.of_nat iz <? ncell (Z.of_nat nz) bcz)%Z in
    let pos ix iy iz k := (Z.of_nat iz * Z.of_nat ny * Z.of_nat nx * 64 + Z.of_nat iy * Z.of_nat nx * 64 + Z.of_nat ix * 64 + k)%Z in
    (* lines 69-84: element is < 4 of every cell *)
    let c1 ix iy iz is := if in_x ix then poly junkd junk (fun q => f (iz * ny * nx + iy * nx + q)%nat) nx bcx ix is
                          else left (pos ix iy iz is) in
    (* lines 86-104: element k < 16 of every cell *)
    let c2 ix iy iz k :=
      if (in_x ix && in_y iy)%bool then poly junkd junk (fun q => c1 ix q iz (k mod 4)%Z) ny bcy iy (k / 4)%Z
      else if (k <? 4)%Z then c1 ix iy iz k else left (pos ix iy iz k) in
    (* lines 107-131: element k < 64 of every cell *)
    let c3 ix iy iz k :=
      if (in_x ix && in_y iy && in_z iz)%bool then poly junkd junk (fun q => c2 ix iy q (k mod 16)%Z) nz bcz iz (k / 16)%Z
      else if (k <? 16)%Z then c2 ix iy iz k else left (pos ix iy iz k) in
    Val (I3 (mk_axis (Z.of_nat nx) bcx xmn xmx) (mk_axis (Z.of_nat ny) bcy ymn ymx) (mk_axis (Z.of_nat nz) bcz zmn zmx)
      (Arr (Z.of_nat nz * Z.of_nat ny * Z.of_nat nx * 64) (fun m =>
         let iz := Z.to_nat (m / (Z.of_nat ny * Z.of_nat nx * 64)) in
         let iy := Z.to_nat ((m / (Z.of_nat nx * 64)) mod Z.of_nat ny) in
         let ix := Z.to_nat ((m / 64) mod Z.of_nat nx) in
         c3 ix iy iz (m mod 64)%Z)))
  else Oob.

(** interp3Dexpl.c:200-310 *)
Definition interp3Dexpl_eval_f (s : interp3D) (x0 y0 z0 : R) : res R :=
  let x := wrap (i3x s) x0 in
  let y := wrap (i3y s) y0 in
  let z := wrap (i3z s) z0 in
  let ix := index_spl (i3x s) x in
  let dx := frac (i3x s) x ix in
  let dx2 := dx * dx in
  let dx3 := dx2 * dx in
  let iy := index_spl (i3y s) y in
  let dy := frac (i3y s) y iy in
  let dy2 := dy * dy in
  let dy3 := dy2 * dy in
  let iz := index_spl (i3z s) z in
  let dz := frac (i3z s) z iz in
  let dz2 := dz * dz in
  let dz3 := dz2 * dz in
  let n := (iz * an (i3y s) * an (i3x s) * 64 + iy * an (i3x s) * 64 + ix * 64)%Z in
  let cc k := aget (i3c s) (n + k)%Z in
  if (outside_e (i3x s) x || outside_e (i3y s) y || outside_e (i3z s) z)%bool then Err else
  reading (i3c s) (map (fun k => n + Z.of_nat k)%Z (seq 0 64))
    ((cc 0%Z + dx * cc 1%Z + dx2 * cc 2%Z + dx3 * cc 3%Z + dy * (cc 4%Z + dx * cc 5%Z + dx2 * cc 6%Z + dx3 * cc 7%Z)
     + dy2 * (cc 8%Z + dx * cc 9%Z + dx2 * cc 10%Z + dx3 * cc 11%Z) + dy3 * (cc 12%Z + dx * cc 13%Z + dx2 * cc 14%Z +
     dx3 * cc 15%Z)) + dz * (cc 16%Z + dx * cc 17%Z + dx2 * cc 18%Z + dx3 * cc 19%Z + dy * (cc 20%Z + dx * cc 21%Z +
     dx2 * cc 22%Z + dx3 * cc 23%Z) + dy2 * (cc 24%Z + dx * cc 25%Z + dx2 * cc 26%Z + dx3 * cc 27%Z) + dy3 * (cc 28%Z
     + dx * cc 29%Z + dx2 * cc 30%Z + dx3 * cc 31%Z)) + dz2 * (cc 32%Z + dx * cc 33%Z + dx2 * cc 34%Z + dx3 * cc 35%Z
     + dy * (cc 36%Z + dx * cc 37%Z + dx2 * cc 38%Z + dx3 * cc 39%Z) + dy2 * (cc 40%Z + dx * cc 41%Z + dx2 * cc 42%Z
     + dx3 * cc 43%Z) + dy3 * (cc 44%Z + dx * cc 45%Z + dx2 * cc 46%Z + dx3 * cc 47%Z)) + dz3 * (cc 48%Z + dx * cc
     49%Z + dx2 * cc 50%Z + dx3 * cc 51%Z + dy * (cc 52%Z + dx * cc 53%Z + dx2 * cc 54%Z + dx3 * cc 55%Z) + dy2 * (cc
     56%Z + dx * cc 57%Z + dx2 * cc 58%Z + dx3 * cc 59%Z) + dy3 * (cc 60%Z + dx * cc 61%Z + dx2 * cc 62%Z + dx3 * cc
     63%Z))).

(** interp3Dexpl.c:340-667 *)
Definition interp3Dexpl_eval_df (s : interp3D) (x0 y0 z0 : R) : res (R * R * R * R * R * R * R * R * R * R) :=
  let x := wrap (i3x s) x0 in
  let y := wrap (i3y s) y0 in
  let z := wrap (i3z s) z0 in
  let ix := index_spl (i3x s) x in
  let dx := frac (i3x s) x ix in
  let dx2 := dx * dx in
  let dx3 := dx2 * dx in
  let xgi := 1 / agrid (i3x s) in
  let iy := index_spl (i3y s) y in
  let dy := frac (i3y s) y iy in
  let dy2 := dy * dy in
  let dy3 := dy2 * dy in
  let ygi := 1 / agrid (i3y s) in
  let iz := index_spl (i3z s) z in
  let dz := frac (i3z s) z iz in
  let dz2 := dz * dz in
  let dz3 := dz2 * dz in
  let zgi := 1 / agrid (i3z s) in
  let n := (iz * an (i3y s) * an (i3x s) * 64 + iy * an (i3x s) * 64 + ix * 64)%Z in
  let cc k := aget (i3c s) (n + k)%Z in
  if (outside_e (i3x s) x || outside_e (i3y s) y || outside_e (i3z s) z)%bool then Err else
  reading (i3c s) (map (fun k => n + Z.of_nat k)%Z (seq 0 64))
    ((cc 0%Z + dx * cc 1%Z + dx2 * cc 2%Z + dx3 * cc 3%Z + dy * (cc 4%Z + dx * cc 5%Z + dx2 * cc 6%Z + dx3 * cc 7%Z)
     + dy2 * (cc 8%Z + dx * cc 9%Z + dx2 * cc 10%Z + dx3 * cc 11%Z) + dy3 * (cc 12%Z + dx * cc 13%Z + dx2 * cc 14%Z +
     dx3 * cc 15%Z)) + dz * (cc 16%Z + dx * cc 17%Z + dx2 * cc 18%Z + dx3 * cc 19%Z + dy * (cc 20%Z + dx * cc 21%Z +
     dx2 * cc 22%Z + dx3 * cc 23%Z) + dy2 * (cc 24%Z + dx * cc 25%Z + dx2 * cc 26%Z + dx3 * cc 27%Z) + dy3 * (cc 28%Z
     + dx * cc 29%Z + dx2 * cc 30%Z + dx3 * cc 31%Z)) + dz2 * (cc 32%Z + dx * cc 33%Z + dx2 * cc 34%Z + dx3 * cc 35%Z
     + dy * (cc 36%Z + dx * cc 37%Z + dx2 * cc 38%Z + dx3 * cc 39%Z) + dy2 * (cc 40%Z + dx * cc 41%Z + dx2 * cc 42%Z
     + dx3 * cc 43%Z) + dy3 * (cc 44%Z + dx * cc 45%Z + dx2 * cc 46%Z + dx3 * cc 47%Z)) + dz3 * (cc 48%Z + dx * cc
     49%Z + dx2 * cc 50%Z + dx3 * cc 51%Z + dy * (cc 52%Z + dx * cc 53%Z + dx2 * cc 54%Z + dx3 * cc 55%Z) + dy2 * (cc
     56%Z + dx * cc 57%Z + dx2 * cc 58%Z + dx3 * cc 59%Z) + dy3 * (cc 60%Z + dx * cc 61%Z + dx2 * cc 62%Z + dx3 * cc
     63%Z)),
     xgi * ((cc 1%Z + 2 * dx * cc 2%Z + 3 * dx2 * cc 3%Z + dy * (cc 5%Z + 2 * dx * cc 6%Z + 3 * dx2 * cc 7%Z) + dy2 *
     (cc 9%Z + 2 * dx * cc 10%Z + 3 * dx2 * cc 11%Z) + dy3 * (cc 13%Z + 2 * dx * cc 14%Z + 3 * dx2 * cc 15%Z)) + dz *
     (cc 17%Z + 2 * dx * cc 18%Z + 3 * dx2 * cc 19%Z + dy * (cc 21%Z + 2 * dx * cc 22%Z + 3 * dx2 * cc 23%Z) + dy2 *
     (cc 25%Z + 2 * dx * cc 26%Z + 3 * dx2 * cc 27%Z) + dy3 * (cc 29%Z + 2 * dx * cc 30%Z + 3 * dx2 * cc 31%Z)) + dz2
     * (cc 33%Z + 2 * dx * cc 34%Z + 3 * dx2 * cc 35%Z + dy * (cc 37%Z + 2 * dx * cc 38%Z + 3 * dx2 * cc 39%Z) + dy2
     * (cc 41%Z + 2 * dx * cc 42%Z + 3 * dx2 * cc 43%Z) + dy3 * (cc 45%Z + 2 * dx * cc 46%Z + 3 * dx2 * cc 47%Z)) +
     dz3 * (cc 49%Z + 2 * dx * cc 50%Z + 3 * dx2 * cc 51%Z + dy * (cc 53%Z + 2 * dx * cc 54%Z + 3 * dx2 * cc 55%Z) +
     dy2 * (cc 57%Z + 2 * dx * cc 58%Z + 3 * dx2 * cc 59%Z) + dy3 * (cc 61%Z + 2 * dx * cc 62%Z + 3 * dx2 * cc
     63%Z))),
     ygi * ((cc 4%Z + dx * cc 5%Z + dx2 * cc 6%Z + dx3 * cc 7%Z + 2 * dy * (cc 8%Z + dx * cc 9%Z + dx2 * cc 10%Z +
     dx3 * cc 11%Z) + 3 * dy2 * (cc 12%Z + dx * cc 13%Z + dx2 * cc 14%Z + dx3 * cc 15%Z)) + dz * (cc 20%Z + dx * cc
     21%Z + dx2 * cc 22%Z + dx3 * cc 23%Z + 2 * dy * (cc 24%Z + dx * cc 25%Z + dx2 * cc 26%Z + dx3 * cc 27%Z) + 3 *
     dy2 * (cc 28%Z + dx * cc 29%Z + dx2 * cc 30%Z + dx3 * cc 31%Z)) + dz2 * (cc 36%Z + dx * cc 37%Z + dx2 * cc 38%Z
     + dx3 * cc 39%Z + 2 * dy * (cc 40%Z + dx * cc 41%Z + dx2 * cc 42%Z + dx3 * cc 43%Z) + 3 * dy2 * (cc 44%Z + dx *
     cc 45%Z + dx2 * cc 46%Z + dx3 * cc 47%Z)) + dz3 * (cc 52%Z + dx * cc 53%Z + dx2 * cc 54%Z + dx3 * cc 55%Z + 2 *
     dy * (cc 56%Z + dx * cc 57%Z + dx2 * cc 58%Z + dx3 * cc 59%Z) + 3 * dy2 * (cc 60%Z + dx * cc 61%Z + dx2 * cc
     62%Z + dx3 * cc 63%Z))),
     zgi * ((cc 16%Z + dx * cc 17%Z + dx2 * cc 18%Z + dx3 * cc 19%Z + dy * (cc 20%Z + dx * cc 21%Z + dx2 * cc 22%Z +
     dx3 * cc 23%Z) + dy2 * (cc 24%Z + dx * cc 25%Z + dx2 * cc 26%Z + dx3 * cc 27%Z) + dy3 * (cc 28%Z + dx * cc 29%Z
     + dx2 * cc 30%Z + dx3 * cc 31%Z)) + 2 * dz * (cc 32%Z + dx * cc 33%Z + dx2 * cc 34%Z + dx3 * cc 35%Z + dy * (cc
     36%Z + dx * cc 37%Z + dx2 * cc 38%Z + dx3 * cc 39%Z) + dy2 * (cc 40%Z + dx * cc 41%Z + dx2 * cc 42%Z + dx3 * cc
     43%Z) + dy3 * (cc 44%Z + dx * cc 45%Z + dx2 * cc 46%Z + dx3 * cc 47%Z)) + 3 * dz2 * (cc 48%Z + dx * cc 49%Z +
     dx2 * cc 50%Z + dx3 * cc 51%Z + dy * (cc 52%Z + dx * cc 53%Z + dx2 * cc 54%Z + dx3 * cc 55%Z) + dy2 * (cc 56%Z +
     dx * cc 57%Z + dx2 * cc 58%Z + dx3 * cc 59%Z) + dy3 * (cc 60%Z + dx * cc 61%Z + dx2 * cc 62%Z + dx3 * cc 63%Z))),
     xgi * xgi * ((2 * cc 2%Z + 6 * dx * cc 3%Z + dy * (2 * cc 6%Z + 6 * dx * cc 7%Z) + dy2 * (2 * cc 10%Z + 6 * dx *
     cc 11%Z) + dy3 * (2 * cc 14%Z + 6 * dx * cc 15%Z)) + dz * (2 * cc 18%Z + 6 * dx * cc 19%Z + dy * (2 * cc 22%Z +
     6 * dx * cc 23%Z) + dy2 * (2 * cc 26%Z + 6 * dx * cc 27%Z) + dy3 * (2 * cc 30%Z + 6 * dx * cc 31%Z)) + dz2 * (2
     * cc 34%Z + 6 * dx * cc 35%Z + dy * (2 * cc 38%Z + 6 * dx * cc 39%Z) + dy2 * (2 * cc 42%Z + 6 * dx * cc 43%Z) +
     dy3 * (2 * cc 46%Z + 6 * dx * cc 47%Z)) + dz3 * (2 * cc 50%Z + 6 * dx * cc 51%Z + dy * (2 * cc 54%Z + 6 * dx *
     cc 55%Z) + dy2 * (2 * cc 58%Z + 6 * dx * cc 59%Z) + dy3 * (2 * cc 62%Z + 6 * dx * cc 63%Z))),
     ygi * ygi * ((2 * (cc 8%Z + dx * cc 9%Z + dx2 * cc 10%Z + dx3 * cc 11%Z) + 6 * dy * (cc 12%Z + dx * cc 13%Z +
     dx2 * cc 14%Z + dx3 * cc 15%Z)) + dz * (2 * (cc 24%Z + dx * cc 25%Z + dx2 * cc 26%Z + dx3 * cc 27%Z) + 6 * dy *
     (cc 28%Z + dx * cc 29%Z + dx2 * cc 30%Z + dx3 * cc 31%Z)) + dz2 * (2 * (cc 40%Z + dx * cc 41%Z + dx2 * cc 42%Z +
     dx3 * cc 43%Z) + 6 * dy * (cc 44%Z + dx * cc 45%Z + dx2 * cc 46%Z + dx3 * cc 47%Z)) + dz3 * (2 * (cc 56%Z + dx *
     cc 57%Z + dx2 * cc 58%Z + dx3 * cc 59%Z) + 6 * dy * (cc 60%Z + dx * cc 61%Z + dx2 * cc 62%Z + dx3 * cc 63%Z))),
     zgi * zgi * (2 * (cc 32%Z + dx * cc 33%Z + dx2 * cc 34%Z + dx3 * cc 35%Z + dy * (cc 36%Z + dx * cc 37%Z + dx2 *
     cc 38%Z + dx3 * cc 39%Z) + dy2 * (cc 40%Z + dx * cc 41%Z + dx2 * cc 42%Z + dx3 * cc 43%Z) + dy3 * (cc 44%Z + dx
     * cc 45%Z + dx2 * cc 46%Z + dx3 * cc 47%Z)) + 6 * dz * (cc 48%Z + dx * cc 49%Z + dx2 * cc 50%Z + dx3 * cc 51%Z +
     dy * (cc 52%Z + dx * cc 53%Z + dx2 * cc 54%Z + dx3 * cc 55%Z) + dy2 * (cc 56%Z + dx * cc 57%Z + dx2 * cc 58%Z +
     dx3 * cc 59%Z) + dy3 * (cc 60%Z + dx * cc 61%Z + dx2 * cc 62%Z + dx3 * cc 63%Z))),
     xgi * ygi * ((cc 5%Z + 2 * dx * cc 6%Z + 3 * dx2 * cc 7%Z + 2 * dy * (cc 9%Z + 2 * dx * cc 10%Z + 3 * dx2 * cc
     11%Z) + 3 * dy2 * (cc 13%Z + 2 * dx * cc 14%Z + 3 * dx2 * cc 15%Z)) + dz * (cc 21%Z + 2 * dx * cc 22%Z + 3 * dx2
     * cc 23%Z + 2 * dy * (cc 25%Z + 2 * dx * cc 26%Z + 3 * dx2 * cc 27%Z) + 3 * dy2 * (cc 29%Z + 2 * dx * cc 30%Z +
     3 * dx2 * cc 31%Z)) + dz2 * (cc 37%Z + 2 * dx * cc 38%Z + 3 * dx2 * cc 39%Z + 2 * dy * (cc 41%Z + 2 * dx * cc
     42%Z + 3 * dx2 * cc 43%Z) + 3 * dy2 * (cc 45%Z + 2 * dx * cc 46%Z + 3 * dx2 * cc 47%Z)) + dz3 * (cc 53%Z + 2 *
     dx * cc 54%Z + 3 * dx2 * cc 55%Z + 2 * dy * (cc 57%Z + 2 * dx * cc 58%Z + 3 * dx2 * cc 59%Z) + 3 * dy2 * (cc
     61%Z + 2 * dx * cc 62%Z + 3 * dx2 * cc 63%Z))),
     xgi * zgi * ((cc 17%Z + 2 * dx * cc 18%Z + 3 * dx2 * cc 19%Z + dy * (cc 21%Z + 2 * dx * cc 22%Z + 3 * dx2 * cc
     23%Z) + dy2 * (cc 25%Z + 2 * dx * cc 26%Z + 3 * dx2 * cc 27%Z) + dy3 * (cc 29%Z + 2 * dx * cc 30%Z + 3 * dx2 *
     cc 31%Z)) + 2 * dz * (cc 33%Z + 2 * dx * cc 34%Z + 3 * dx2 * cc 35%Z + dy * (cc 37%Z + 2 * dx * cc 38%Z + 3 *
     dx2 * cc 39%Z) + dy2 * (cc 41%Z + 2 * dx * cc 42%Z + 3 * dx2 * cc 43%Z) + dy3 * (cc 45%Z + 2 * dx * cc 46%Z + 3
     * dx2 * cc 47%Z)) + 3 * dz2 * (cc 49%Z + 2 * dx * cc 50%Z + 3 * dx2 * cc 51%Z + dy * (cc 53%Z + 2 * dx * cc 54%Z
     + 3 * dx2 * cc 55%Z) + dy2 * (cc 57%Z + 2 * dx * cc 58%Z + 3 * dx2 * cc 59%Z) + dy3 * (cc 61%Z + 2 * dx * cc
     62%Z + 3 * dx2 * cc 63%Z))),
     ygi * zgi * ((cc 20%Z + dx * cc 21%Z + dx2 * cc 22%Z + dx3 * cc 23%Z + 2 * dy * (cc 24%Z + dx * cc 25%Z + dx2 *
     cc 26%Z + dx3 * cc 27%Z) + 3 * dy2 * (cc 28%Z + dx * cc 29%Z + dx2 * cc 30%Z + dx3 * cc 31%Z)) + 2 * dz * (cc
     36%Z + dx * cc 37%Z + dx2 * cc 38%Z + dx3 * cc 39%Z + 2 * dy * (cc 40%Z + dx * cc 41%Z + dx2 * cc 42%Z + dx3 *
     cc 43%Z) + 3 * dy2 * (cc 44%Z + dx * cc 45%Z + dx2 * cc 46%Z + dx3 * cc 47%Z)) + 3 * dz2 * (cc 52%Z + dx * cc
     53%Z + dx2 * cc 54%Z + dx3 * cc 55%Z + 2 * dy * (cc 56%Z + dx * cc 57%Z + dx2 * cc 58%Z + dx3 * cc 59%Z) + 3 *
     dy2 * (cc 60%Z + dx * cc 61%Z + dx2 * cc 62%Z + dx3 * cc 63%Z)))).
