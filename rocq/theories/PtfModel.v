(** From the file to the evaluation: time-dependent plasma profiles. *)
From Coq Require Import Reals ZArith List String.
Import ListNotations.
From Verif Require Import AxisModel LintModel PlasmaModel HinModel HuseModel.
Local Open Scope string_scope.

(** hdf5_plasma.c:215-216 *)
Definition call_plasma_1Dt (a : params) : p1t :=
  plasma_1Dt_init (pz a "nrho") (pz a "ntime") (pz a "nion") (tabZ a "rho") (tabZ a "time") (tabZ a "Te") (tabZ a "Ti") (tabZ a "ne") (tabZ a "ni") (tabZ a "vtor").
