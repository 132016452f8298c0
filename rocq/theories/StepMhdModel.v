(** Model of the steps with MHD perturbations that differ from the plain ones:
    src/simulate/step/step_fo_vpa.c:234-413 and src/simulate/step/step_ml_cashkarp.c:265-517.
    The guiding-centre steps with perturbations are in GcModel.v.  One marker. *)
From Coq Require Import Reals ZArith Bool.
From Verif Require Import Vec PhysModel StepFoModel GcModel.
Local Open Scope R_scope.

Section fo.
(** err, B, E at (r, phi, z, t): StepFoModel.mhd_fields *)
Variable fields : R -> R -> R -> R -> Z * vec * vec.
Variable evalBdB : R -> R -> R -> R -> Z * (nat -> R).
Variable evalPsi : R -> R -> R -> R -> Z * R.
Variable evalRho : R -> Z * R.
Variable evalAxis : R -> Z * (R * R).
(** step_fo_vpa.c:234-413; the argument aldforce is not used in the function *)
Definition fo_step_mhd (h aldforce : R) (p : fom) : fom :=
  if frun p then
    let pxyz := to_xyz (fp p) (fphi p) in
    let x0 := pos_xyz (fr p) (fphi p) (fz p) in
    let x1 := drift (fmass p) h pxyz x0 in
    let phi1 := atan2 (vy x1) (vx x1) in
    let '(err, Brpz, Erpz) := fields (sqrt (vx x1 * vx x1 + vy x1 * vy x1)) phi1 (vz x1) (ftime p + h / 2) in
    let pxyz' := if (err =? 0)%Z then boris (fcharge p) (fmass p) h (to_xyz Erpz phi1) (to_xyz Brpz phi1) pxyz else pxyz in
    let x2 := drift (fmass p) h pxyz' x1 in
    let q1 := if (err =? 0)%Z then
        let phi := fphi p + atan2 (vx x0 * vy x2 - vy x0 * vx x2) (vx x0 * vx x2 + vy x0 * vy x2) in
        Fom (sqrt (vx x2 * vx x2 + vy x2 * vy x2)) phi (vz x2) (ftime p) (fmass p) (fcharge p)
            (V (vx pxyz' * cos phi + vy pxyz' * sin phi) (- vx pxyz' * sin phi + vy pxyz' * cos phi) (vz pxyz'))
            (fB p) (frho p) (ftheta p) (ferr p) (frun p)
      else p in
    let '(err1, BdB) := if (err =? 0)%Z then evalBdB (fr q1) (fphi q1) (fz q1) (ftime p + h) else (err, fun _ => 0) in
    let '(err2, psi) := if (err1 =? 0)%Z then evalPsi (fr q1) (fphi q1) (fz q1) (ftime p + h) else (err1, 0) in
    let '(err3, rho) := if (err2 =? 0)%Z then evalRho psi else (err2, 0) in
    let '(err4, q2) := if (err3 =? 0)%Z then
        let '(e, (ar, az)) := evalAxis (fphi q1) in
        (e, Fom (fr q1) (fphi q1) (fz q1) (ftime q1) (fmass q1) (fcharge q1) (fp q1) BdB rho
              (ftheta q1 + atan2 ((fr p - ar) * (fz q1 - az) - (fz p - az) * (fr q1 - ar))
                                 ((fr p - ar) * (fr q1 - ar) + (fz p - az) * (fz q1 - az)))
              (ferr q1) (frun q1))
      else (err3, q1) in
    Fom (fr q2) (fphi q2) (fz q2) (ftime q2) (fmass q2) (fcharge q2) (fp q2) (fB q2) (frho q2) (ftheta q2)
        (if (err4 =? 0)%Z then ferr q2 else err4) (if (err4 =? 0)%Z then frun q2 else false)
  else p.
End fo.

Section ml.
(** err and total magnetic field of mhd_perturbations with pertonly = 0; on an error the
    array keeps whatever the evaluation left there *)
Variable pert : R -> R -> R -> R -> Z * vec.
Variable evalBdB : R -> R -> R -> R -> Z * (nat -> R).
Variable evalPsi : R -> R -> R -> R -> Z * R.
Variable evalRho : R -> Z * R.
Variable evalAxis : R -> Z * (R * R).
Variable junk : nat -> R.
(** one evaluation; a skipped one leaves the array of the previous stage *)
Definition mhd_stage (dir t : R) (s : Z * vec) (y : nat -> R) : Z * vec * (nat -> R) :=
  let '(e, B) := if (fst s =? 0)%Z then pert (y 0%nat) (y 1%nat) (y 2%nat) t else s in
  (e, B, ml_k dir (y 0%nat) B).
(** step_ml_cashkarp.c:265-517 *)
Definition ml_step_mhd (h tol : R) (p : mlm) (hnext : ext) : mlm * ext :=
  if mrun p then
    let dir := direction (mpitch p) in
    let y := my p in
    let t0 := mtime p in
    let '(e1, B1, k1) := mhd_stage dir t0 (0%Z, V (junk 0%nat) (junk 1%nat) (junk 2%nat)) y in
    let '(e2, B2, k2) := mhd_stage dir t0 (e1, B1) (fun j => y j + h * ((1 / 5) * k1 j)) in
    let '(e3, B3, k3) := mhd_stage dir t0 (e2, B2) (fun j => y j + h * ((3 / 40) * k1 j + (9 / 40) * k2 j)) in
    let '(e4, B4, k4) := mhd_stage dir t0 (e3, B3) (fun j => y j + h * ((3 / 10) * k1 j + (-9 / 10) * k2 j + (6 / 5) * k3 j)) in
    let '(e5, B5, k5) := mhd_stage dir t0 (e4, B4) (fun j => y j + h * ((-11 / 54) * k1 j + (5 / 2) * k2 j + (-70 / 27) * k3 j + (35 / 27) * k4 j)) in
    let '(e6, B6, k6) := mhd_stage dir t0 (e5, B5)
        (fun j => y j + h * ((1631 / 55296) * k1 j + (175 / 512) * k2 j + (575 / 13824) * k3 j + (44275 / 110592) * k4 j + (253 / 4096) * k5 j)) in
    let rk5 := fun j => y j + h * ((37 / 378) * k1 j + (250 / 621) * k3 j + (125 / 594) * k4 j + (512 / 1771) * k6 j) in
    let rk4 := fun j => y j + h * ((2825 / 27648) * k1 j + (18575 / 48384) * k3 j + (13525 / 55296) * k4 j + (277 / 14336) * k5 j + (1 / 4) * k6 j) in
    let hn := ml_hnext h (ml_err h y k1 rk5 rk4) tol in
    let '(e7, D) := if (e6 =? 0)%Z then evalBdB (rk5 0%nat) (rk5 1%nat) (rk5 2%nat) (t0 + h) else (e6, junk) in
    let '(e8, psi) := if (e7 =? 0)%Z then evalPsi (rk5 0%nat) (rk5 1%nat) (rk5 2%nat) (t0 + h) else (e7, junk 0%nat) in
    let '(e9, rho) := if (e8 =? 0)%Z then evalRho psi else (e8, junk 0%nat) in
    let '(_, (ar, az)) := evalAxis (rk5 1%nat) in
    (Mlm rk5 t0 (mpitch p) D rho
       (mtheta p + atan2 ((y 0%nat - ar) * (rk5 2%nat - az) - (y 2%nat - az) * (rk5 0%nat - ar))
                         ((y 0%nat - ar) * (rk5 0%nat - ar) + (y 2%nat - az) * (rk5 2%nat - az)))
       (merr p) (mrun p), hn)
  else (p, hnext).
End ml.
