(** Atomic reactions from the file. *)
From Coq Require Import Reals ZArith List String Arith.
Import ListNotations.
From Verif Require Import AxisModel SplineModel Spl2Model Spl3Model AtomModel HinModel HuseModel LwModel.
Local Open Scope string_scope.

(** entry [i] of the integers of a parameter *)
Definition pzi (a : params) (p : string) (i : nat) : Z := nth i (fst (get a p)) 0%Z.
(** asigma_loc.c:29-33 for what the reader passes (hdf5_asigma.c:115-117): reaction [i] *)
Definition rdef_of (a : params) (i : nat) : rdef :=
  RD (pzi a "z1" i) (pzi a "a1" i) (pzi a "z2" i) (pzi a "a2" i) (pzi a "reactype" i)
     (Z.to_nat (pzi a "ne" i)) (tabN a "emin" i) (tabN a "emax" i)
     (Z.to_nat (pzi a "nn" i)) (tabN a "nmin" i) (tabN a "nmax" i)
     (Z.to_nat (pzi a "nT" i)) (tabN a "Tmin" i) (tabN a "Tmax" i).
Definition call_asigma (junk : nat -> R) (a : params) : list reac * bool :=
  asigma_loc_init junk (tabN a "sigma") (map (rdef_of a) (seq 0 (pn a "nreac"))).
