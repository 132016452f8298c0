(** From the file to the evaluation: the calls at the end of the readers, applied to the values that were read.
    The integers that C passes as int are passed as they are; a length is a natural number. *)
From Coq Require Import Reals ZArith List String.
Import ListNotations.
From Verif Require Import AxisModel LintModel BfModel PlasmaModel NeutralModel HinModel.
Local Open Scope string_scope.

Definition params := list (string * (list Z * list R)).
Fixpoint get (res : params) (p : string) : list Z * list R :=
  match res with [] => ([], []) | (q, x) :: t => if String.eqb q p then x else get t p end.
Definition pz (res : params) (p : string) : Z := nth 0 (fst (get res p)) 0%Z.
Definition pn (res : params) (p : string) : nat := Z.to_nat (pz res p).
Definition px (res : params) (p : string) : R := nth 0 (snd (get res p)) 0%R.
Definition tabZ (res : params) (p : string) (i : Z) : R := nth (Z.to_nat i) (snd (get res p)) 0%R.
Definition tabN (res : params) (p : string) (i : nat) : R := nth i (snd (get res p)) 0%R.

(** hdf5_plasma.c:127-128 *)
Definition call_plasma_1D (a : params) : p1d :=
  plasma_1D_init (pz a "nrho") (pz a "nion") (tabZ a "rho") (tabZ a "Te") (tabZ a "Ti") (tabZ a "ne") (tabZ a "ni") (tabZ a "vtor").
(** hdf5_neutral.c:105-106 *)
Definition call_N0_1D (a : params) : n1d :=
  N0_1D_init (pz a "n_rho") (px a "rho_min") (px a "rho_max") (pn a "n_species") (tabZ a "density") (tabZ a "temperature").
(** hdf5_bfield.c:181-182 *)
Definition call_B_2DS (junk : nat -> R) (a : params) : init b2ds :=
  B_2DS_init junk (pn a "n_r") (px a "r_min") (px a "r_max") (pn a "n_z") (px a "z_min") (px a "z_max")
    (px a "axis_r") (px a "axis_z") (px a "psi0") (px a "psi1") (tabN a "psi") (tabN a "B_r") (tabN a "B_phi") (tabN a "B_z").
(** hdf5_bfield.c:476-481 *)
Definition call_B_STS (junk : nat -> R) (a : params) : init bsts :=
  B_STS_init junk (pn a "p_n_r") (px a "p_r_min") (px a "p_r_max") (pn a "p_n_phi") (px a "p_phi_min") (px a "p_phi_max") (pn a "p_n_z") (px a "p_z_min") (px a "p_z_max")
    (pn a "b_n_r") (px a "b_r_min") (px a "b_r_max") (pn a "b_n_phi") (px a "b_phi_min") (px a "b_phi_max") (pn a "b_n_z") (px a "b_z_min") (px a "b_z_max")
    (pz a "naxis") (px a "axis_min") (px a "axis_max") (Arr (pz a "naxis") (tabZ a "axis_r")) (Arr (pz a "naxis") (tabZ a "axis_z"))
    (px a "psi0") (px a "psi1") (tabN a "psi") (tabN a "B_r") (tabN a "B_phi") (tabN a "B_z").
