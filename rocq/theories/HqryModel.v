(** From the file to the evaluation, continued: the remaining calls at the end of the readers. *)
From Coq Require Import Reals ZArith List String.
Import ListNotations.
From Verif Require Import Vec AxisModel LintModel GsModel BfModel PlasmaModel NeutralModel Wall3Model HinModel HuseModel.
Local Open Scope string_scope.

(** hdf5_bfield.c:310-313 *)
Definition call_B_3DS (junk : nat -> R) (a : params) : init b3ds :=
  B_3DS_init junk (pn a "p_n_r") (px a "p_r_min") (px a "p_r_max") (pn a "p_n_z") (px a "p_z_min") (px a "p_z_max")
    (pn a "b_n_r") (px a "b_r_min") (px a "b_r_max") (pn a "b_n_phi") (px a "b_phi_min") (px a "b_phi_max") (pn a "b_n_z") (px a "b_z_min") (px a "b_z_max")
    (px a "axis_r") (px a "axis_z") (px a "psi0") (px a "psi1") (tabN a "psi") (tabN a "B_r") (tabN a "B_phi") (tabN a "B_z").
(** hdf5_bfield.c:537 with B_TC.c:49-58 *)
Definition call_B_TC (a : params) : btc :=
  BT (px a "axisr") (px a "axisz") (px a "psival") (px a "rhoval") (V (tabN a "B" 0) (tabN a "B" 1) (tabN a "B" 2)) (tabN a "dB").
(** hdf5_bfield.c:604-605 with B_GS.c:103-119 *)
Definition call_B_GS (a : params) : gs :=
  GS (px a "R0") (px a "z0") (px a "raxis") (px a "zaxis") (px a "B_phi0") (px a "psi0") (px a "psi1") (px a "psi_mult") (tabN a "c")
     (pz a "Nripple") (px a "a0") (px a "alpha0") (px a "delta0").
(** hdf5_efield.c:98 *)
Definition call_E_1DS (junk : nat -> R) (a : params) := E_1DS_init junk (pn a "nrho") (px a "rhomin") (px a "rhomax") (px a "reff") (tabN a "dvdrho").
(** hdf5_efield.c:127 with E_TC.c:33-37 *)
Definition call_E_TC (a : params) : vec := V (tabN a "exyz" 0) (tabN a "exyz" 1) (tabN a "exyz" 2).
(** hdf5_plasma.c:299-301; the densities of species j start at ni + j*nrho (plasma_1DS.c:70-72, 116) *)
Definition call_plasma_1DS (junk : nat -> R) (a : params) : option p1s :=
  plasma_1DS_init junk (pn a "nrho") (px a "rhomin") (px a "rhomax") (pn a "nion") (tabN a "Te") (tabN a "Ti") (tabN a "ne")
    (fun j i => tabN a "ni" (j * pn a "nrho" + i)) (tabN a "vtor").
(** hdf5_neutral.c:182-184 *)
Definition call_N0_3D (a : params) : n3d :=
  N0_3D_init (pz a "n_r") (px a "r_min") (px a "r_max") (pz a "n_phi") (px a "phi_min") (px a "phi_max") (pz a "n_z") (px a "z_min") (px a "z_max")
    (pn a "n_species") (tabZ a "density") (tabZ a "temperature").
(** hdf5_wall.c:85 with wall_2d.c:31-39 *)
Definition call_wall_2d (a : params) : list (R * R) := map (fun i => (tabN a "r" i, tabN a "z" i)) (seq 0 (pn a "nelements")).
(** hdf5_wall.c:125 with wall_3d.c:56-61: the triangles, nine numbers each, before they go to the octree *)
Definition call_wall_3d (a : params) : list tri :=
  map (fun i => let v j := V (tabN a "x1x2x3" (3 * i + j)) (tabN a "y1y2y3" (3 * i + j)) (tabN a "z1z2z3" (3 * i + j)) in T (v 0%nat) (v 1%nat) (v 2%nat))
    (seq 0 (pn a "nelements")).
