(** Waves from the file: Boozer coordinates and modes with a time-dependent amplitude. *)
From Coq Require Import Reals ZArith List String Arith.
Import ListNotations.
From Verif Require Import MathModel AxisModel SplineModel Spl2Model MhdModel HinModel HuseModel LwModel.
Local Open Scope string_scope.

(** interp2Dcomp_eval_df; an evaluation that fails writes nothing, the zeros stand for what was there *)
Definition surf (c : interp2D) : neig := fun x y =>
  match interp2Dcomp_eval_df c x y with
  | Val (f, fx, fy, fxx, fyy, fxy) => (false, fun k => nth k [f; fx; fy; fxx; fyy; fxy] 0%R)
  | _ => (true, fun _ => 0%R)
  end.

(** boozer.c:38-72 for what the reader passes (hdf5_boozer.c:70-71); [None] = a spline cannot be set up *)
Record bdata := BD { bd_psimin : R; bd_psimax : R; bd_nu : neig; bd_theta : neig; bd_contour : list (R * R) }.
Definition call_boozer (junk : nat -> R) (a : params) : option bdata :=
  let npsi := pn a "npsi" in
  let pad := padding (IZR (pz a "nthetag")) in
  match interp2Dcomp_setup junk (tabN a "nu") npsi (pn a "ntheta") NATURALBC PERIODICBC (px a "psi_min") (px a "psi_max") 0 (2 * PI),
        interp2Dcomp_setup junk (tabN a "theta") npsi (pn a "nthetag") NATURALBC NATURALBC (px a "psi_min") (px a "psi_max") (0 - pad) (2 * PI + pad) with
  | Val nu, Val th => Some (BD (px a "psi_min") (px a "psi_max") (surf nu) (surf th) (map (fun i => (tabN a "rs" i, tabN a "zs" i)) (seq 0 (pn a "nrzs"))))
  | _, _ => None
  end.
(** boozer.c:124-209 with this data *)
Definition boozer_at (d : bdata) (evalpsi : R -> R -> R -> R -> Z * arr) (evalrho : R -> Z * arr) (axis : R -> Z * arr) : arr -> R -> R -> R -> option (Z * bool * arr) :=
  boozer_eval (fun r z => negb (Nat.eqb (point_in_polygon r z (bd_contour d)) 0)) evalpsi evalrho axis (bd_theta d) (bd_nu d) (bd_psimin d) (bd_psimax d).

(** mhd_nonstat.c:23-62 for what the reader passes (hdf5_mhd.c:164-166) *)
Definition nonstat_mode_of (junk : nat -> R) (a : params) (i : nat) : option (mode neig) :=
  let nrho := pn a "nrho" in
  let ntime := pn a "ntime" in
  let spl p := interp2Dcomp_setup junk (fun j => tabN a p (i * nrho * ntime + j)) nrho ntime NATURALBC NATURALBC (px a "rhomin") (px a "rhomax") (px a "tmin") (px a "tmax") in
  match spl "alpha", spl "phi" with
  | Val al, Val ph => Some (Mode (nth i (fst (get a "moden")) 0%Z) (nth i (fst (get a "modem")) 0%Z)
      (tabN a "amplitude_nm" i) (tabN a "omega_nm" i) (tabN a "phase_nm" i) (surf al) (surf ph))
  | _, _ => None
  end.
Definition nonstat_modes (junk : nat -> R) (a : params) : option (list (mode neig)) :=
  all_some (map (nonstat_mode_of junk a) (seq 0 (pn a "nmode"))).
(** mhd_nonstat.c:139-235 *)
Definition waves_at (d : bdata) (evalpsi : R -> R -> R -> R -> Z * arr) (evalrho : R -> Z * arr) (axis : R -> Z * arr) : arr -> arr -> list (mode neig) -> R -> R -> R -> R -> Z -> option (Z * arr) :=
  mhd_nonstat_eval (fun r z => negb (Nat.eqb (point_in_polygon r z (bd_contour d)) 0)) evalpsi evalrho axis (bd_theta d) (bd_nu d) (bd_psimin d) (bd_psimax d).
