(** Model of src/Bfield/B_GS.c: the analytic tokamak equilibrium.

    Exact arithmetic; log is [ln] and pow x a is [cpow] (the value 0 at x = 0, which is what
    pow returns for a > 0).  The printout of the initialisation is left out: the struct is
    the argument list. *)
From Coq Require Import Reals List ZArith Bool.
From Verif Require Import Vec ErrorModel.
Local Open Scope R_scope.

Record gs := GS { gR0 : R; gz0 : R; graxis : R; gzaxis : R; gBphi0 : R; gpsi0 : R; gpsi1 : R; gmult : R; gc : nat -> R;
                  gN : Z; ga0 : R; galpha : R; gdelta : R }.
Definition cpow (x a : R) : R := if Req_EM_T x 0 then 0 else Rpower x a.

(** B_GS.c:174-214 *)
Definition B_GS_eval_psi (g : gs) (r z : R) : R :=
  let C := gc g in
  let z := z - gz0 g in let r := r / gR0 g in let z := z / gR0 g in
  let r2 := r * r in let r3 := r2 * r in let r4 := r3 * r in let r5 := r4 * r in let r6 := r5 * r in
  let z2 := z * z in let z3 := z2 * z in let z4 := z3 * z in let z5 := z4 * z in let z6 := z5 * z in
  let logr := ln r in
  gmult g * (
    (1 - C 12%nat) * (r4 / 8)
    + C 12%nat * (r2 * logr / 2)
    + C 0%nat * 1
    + C 1%nat * r2
    + C 2%nat * (r2 * logr - z2)
    + C 3%nat * (r4 - 4 * r2 * z2)
    + C 4%nat * (3 * r4 * logr - 9 * r2 * z2 - 12 * r2 * logr * z2 + 2 * z4)
    + C 5%nat * (r6 - 12 * r4 * z2 + 8 * r2 * z4)
    + C 6%nat * (8 * z6 - 140 * r2 * z4 - 120 * r2 * logr * z4 + 180 * r4 * logr * z2 + 75 * r4 * z2 - 15 * r6 * logr)
    + C 7%nat * z
    + C 8%nat * (z * r2)
    + C 9%nat * (z3 - 3 * z * r2 * logr)
    + C 10%nat * (3 * z * r4 - 4 * z3 * r2)
    + C 11%nat * (8 * z5 - 45 * z * r4 - 80 * z3 * r2 * logr + 60 * z * r4 * logr)).

(** the two polynomials of B_GS.c:252-264 = 365-377 and of 270-280 = 348-358, in the
    normalised coordinates *)
Definition poly_r (C : nat -> R) (r z : R) : R :=
  let r2 := r * r in let r3 := r2 * r in let r4 := r3 * r in let r5 := r4 * r in
  let z2 := z * z in let z3 := z2 * z in let z4 := z3 * z in let z5 := z4 * z in
  let logr := ln r in
  (1 - C 12%nat) * (r3 / 2)
  + C 12%nat * (r / 2 + r * logr)
  + C 1%nat * (2 * r)
  + C 2%nat * (2 * r * logr + r)
  + C 3%nat * (4 * r3 - 8 * r * z2)
  + C 4%nat * (12 * r3 * logr + 3 * r3 - 30 * r * z2 - 24 * r * logr * z2)
  + C 5%nat * (6 * r5 - 48 * r3 * z2 + 16 * r * z4)
  + C 6%nat * (-400 * r * z4 - 240 * r * logr * z4 + 720 * r3 * logr * z2 + 480 * r3 * z2 - 90 * r5 * logr - 15 * r5)
  + C 8%nat * (2 * z * r)
  + C 9%nat * (-6 * z * r * logr - 3 * z * r)
  + C 10%nat * (12 * z * r3 - 8 * z3 * r)
  + C 11%nat * (-120 * z * r3 - 160 * z3 * r * logr - 80 * z3 * r + 240 * z * r3 * logr).
Definition poly_z (C : nat -> R) (r z : R) : R :=
  let r2 := r * r in let r3 := r2 * r in let r4 := r3 * r in let r5 := r4 * r in
  let z2 := z * z in let z3 := z2 * z in let z4 := z3 * z in let z5 := z4 * z in
  let logr := ln r in
  C 2%nat * (-2 * z)
  + C 3%nat * (-8 * r2 * z)
  + C 4%nat * (-18 * r2 * z - 24 * r2 * logr * z + 8 * z3)
  + C 5%nat * (-24 * r4 * z + 32 * r2 * z3)
  + C 6%nat * (48 * z5 - 560 * r2 * z3 - 480 * r2 * logr * z3 + 360 * r4 * logr * z + 150 * r4 * z)
  + C 7%nat * 1
  + C 8%nat * r2
  + C 9%nat * (3 * z2 - 3 * r2 * logr)
  + C 10%nat * (3 * r4 - 12 * z2 * r2)
  + C 11%nat * (40 * z4 - 45 * r4 - 240 * z2 * r2 * logr + 60 * r4 * logr).

(** B_GS.c:227-283: value and derivatives (R, phi, z) *)
Definition B_GS_eval_psi_dpsi (g : gs) (r z : R) : R * vec :=
  let psi := B_GS_eval_psi g r z in
  let z := z - gz0 g in let r := r / gR0 g in let z := z / gR0 g in
  (psi, V (gmult g / (r * gR0 g) * poly_r (gc g) r z) 0 (gmult g / (r * gR0 g) * poly_z (gc g) r z)).

(** B_GS.c:380-390 (same code 507-512); phi is the toroidal angle *)
Definition ripple_delta (g : gs) (r z : R) : R * R * R :=
  let radius := sqrt ((r - gR0 g) * (r - gR0 g) + (z - gz0 g) * (z - gz0 g)) in
  let theta := atan2 (z - gz0 g) (r - gR0 g) in
  (radius, theta, gdelta g * exp (-0.5 * theta * theta) * cpow (radius / ga0 g) (galpha g)).
(** B_GS.c:327-393 *)
Definition B_GS_eval_B (g : gs) (r phi z : R) : vec :=
  let z := z - gz0 g in let r := r / gR0 g in let z := z / gR0 g in
  let B0 := poly_z (gc g) r z * (- gmult g / (r * gR0 g * gR0 g)) in
  let B1 := gBphi0 g / r in
  let B2 := poly_r (gc g) r z * (gmult g / (r * gR0 g * gR0 g)) in
  if (0 <? gN g)%Z then
    let r := r * gR0 g in let z := z * gR0 g in
    let '(_, _, delta) := ripple_delta g r z in
    V B0 (B1 * (1 + delta * cos (IZR (gN g) * phi))) B2
  else V B0 B1 B2.

(** B_GS.c:406-547 *)
Definition B_GS_eval_B_dB (g : gs) (r phi z0 : R) : nat -> R :=
  let C := gc g in
  let z := z0 - gz0 g in let R0 := gR0 g in let B_phi0 := gBphi0 g in let psi_mult := gmult g in
  let r2 := r * r in let r3 := r2 * r in let r4 := r3 * r in let r5 := r4 * r in
  let z2 := z * z in let z3 := z2 * z in let z4 := z3 * z in let z5 := z4 * z in
  let logr := ln (r / R0) in
  let R02 := R0 * R0 in let R03 := R02 * R0 in let R04 := R03 * R0 in let R05 := R04 * R0 in let R06 := R05 * R0 in
  let B0 := C 2%nat * (-2 * z) / R02
    + C 3%nat * (-8 * r2 * z) / R04
    + C 4%nat * (-18 * r2 * z - 24 * r2 * logr * z + 8 * z3) / R04
    + C 5%nat * (-24 * r4 * z + 32 * r2 * z3) / R06
    + C 6%nat * (48 * z5 - 560 * r2 * z3 - 480 * r2 * logr * z3 + 360 * r4 * logr * z + 150 * r4 * z) / R06
    + C 7%nat * 1 / R0
    + C 8%nat * r2 / R03
    + C 9%nat * (3 * z2 - 3 * r2 * logr) / R03
    + C 10%nat * (3 * r4 - 12 * z2 * r2) / R05
    + C 11%nat * (40 * z4 - 45 * r4 - 240 * z2 * r2 * logr + 60 * r4 * logr) / R05 in
  let B0 := B0 * (- psi_mult / r) in
  let B1 := C 3%nat * (-16 * r * z) / R04
    + C 4%nat * (-60 * r * z - 48 * r * logr * z) / R04
    + C 5%nat * (-96 * r3 * z + 64 * r * z3) / R06
    + C 6%nat * (-1600 * r * z3 - 960 * r * logr * z3 + 1440 * r3 * logr * z + 960 * r3 * z) / R06
    + C 8%nat * (2 * r) / R03
    + C 9%nat * (-6 * r * logr - 3 * r) / R03
    + C 10%nat * (12 * r3 - 24 * z2 * r) / R05
    + C 11%nat * (-120 * r3 - 480 * z2 * r * logr - 240 * z2 * r + 240 * r3 * logr) / R05 in
  let B1 := - B0 / r - B1 * psi_mult / r in
  let B3 := C 2%nat * (-2) / R02
    + C 3%nat * (-8 * r2) / R04
    + C 4%nat * (-18 * r2 - 24 * r2 * logr + 24 * z2) / R04
    + C 5%nat * (-24 * r4 + 96 * r2 * z2) / R06
    + C 6%nat * (240 * z4 - 1680 * r2 * z2 - 1440 * r2 * logr * z2 + 360 * r4 * logr + 150 * r4) / R06
    + C 9%nat * (6 * z) / R03
    + C 10%nat * (-24 * z * r2) / R05
    + C 11%nat * (160 * z3 - 480 * z * r2 * logr) / R05 in
  let B3 := B3 * (- psi_mult / r) in
  let B4 := B_phi0 * R0 / r in
  let B5 := - B_phi0 * R0 / r2 in
  let B8 := (1 - C 12%nat) * (r3 / 2) / R04
    + C 12%nat * (r / 2 + r * logr) / R02
    + C 1%nat * (2 * r) / R02
    + C 2%nat * (2 * r * logr + r) / R02
    + C 3%nat * (4 * r3 - 8 * r * z2) / R04
    + C 4%nat * (12 * r3 * logr + 3 * r3 - 30 * r * z2 - 24 * r * logr * z2) / R04
    + C 5%nat * (6 * r5 - 48 * r3 * z2 + 16 * r * z4) / R06
    + C 6%nat * (-400 * r * z4 - 240 * r * logr * z4 + 720 * r3 * logr * z2 + 480 * r3 * z2 - 90 * r5 * logr - 15 * r5) / R06
    + C 8%nat * (2 * z * r) / R03
    + C 9%nat * (-6 * z * r * logr - 3 * z * r) / R03
    + C 10%nat * (12 * z * r3 - 8 * z3 * r) / R05
    + C 11%nat * (-120 * z * r3 - 160 * z3 * r * logr - 80 * z3 * r + 240 * z * r3 * logr) / R05 in
  let B8 := B8 * (psi_mult / r) in
  let B9 := (1 - C 12%nat) * (3 * r2 / 2) / R04
    + C 12%nat * (1.5 + logr) / R02
    + C 1%nat * 2 / R02
    + C 2%nat * (2 * logr + 3) / R02
    + C 3%nat * (12 * r2 - 8 * z2) / R04
    + C 4%nat * (36 * r2 * logr + 21 * r2 - 54 * z2 - 24 * logr * z2) / R04
    + C 5%nat * (30 * r4 - 144 * r2 * z2 + 16 * z4) / R06
    + C 6%nat * (-640 * z4 - 240 * logr * z4 + 2160 * r2 * logr * z2 + 2160 * r2 * z2 - 450 * r4 * logr - 165 * r4) / R06
    + C 8%nat * (2 * z) / R03
    + C 9%nat * (-6 * z * logr - 9 * z) / R03
    + C 10%nat * (36 * z * r2 - 8 * z3) / R05
    + C 11%nat * (-120 * z * r2 - 160 * z3 * logr - 240 * z3 + 720 * z * r2 * logr) / R05 in
  let B9 := B9 * psi_mult / r - B8 / r in
  let B11 := - B1 - B0 / r in
  let '(radius, theta, delta) := ripple_delta g r z in
  let N := IZR (gN g) in
  let Bphi := B4 in
  let Bpert := Bphi * delta * cos (N * phi) in
  let rz := gz0 g in
  let dBpertdR := Bpert * ((r - R0) / radius * (galpha g / radius) + (z - rz) / (radius * radius) * theta) in
  let dBpertdz := Bpert * ((z - rz) / radius * (galpha g / radius) - (r - R0) / (radius * radius) * theta) in
  let rip := (0 <? gN g)%Z in
  fun k => match k with
  | 0%nat => B0 | 1%nat => B1 | 2%nat => 0 | 3%nat => B3
  | 4%nat => if rip then B4 + Bpert else B4
  | 5%nat => if rip then B5 + (B5 * Bpert / Bphi + dBpertdR) else B5
  | 6%nat => if rip then 0 + - Bphi * delta * N * sin (N * phi) else 0
  | 7%nat => if rip then 0 + dBpertdz else 0
  | 8%nat => B8 | 9%nat => B9 | 10%nat => 0 | 11%nat => B11
  | _ => 0
  end.

(** B_GS.c:296-314; [None] stands for the error of line 305.  The two divisions by the
    square root are evaluated in R: at rho = 0 the code produces a NaN or an infinity. *)
Definition B_GS_eval_rho_drho (g : gs) (r z : R) : option (R * vec) :=
  let '(psi, d) := B_GS_eval_psi_dpsi g r z in
  let delta := gpsi1 g - gpsi0 g in
  if Rlt_dec ((psi - gpsi0 g) / delta) 0 then None
  else let rho := sqrt ((psi - gpsi0 g) / delta) in
       Some (rho, V (vx d / (2 * delta * rho)) 0 (vz d / (2 * delta * rho))).
(** B_GS.c:557-562 *)
Definition B_GS_get_axis_rz (g : gs) : R * R := (graxis g, gzaxis g).
