(** Model of src/simulate/step/step_fo_vpa.c: the full-orbit step.  One marker; the C
    loop treats the markers independently. *)
From Coq Require Import Reals ZArith Bool.
From Verif Require Import Vec Math2Model PhysModel.
Local Open Scope R_scope.

(** the fields of particle_simd_fo the step reads or writes; [fB] holds B_r, B_r_dr,
    B_r_dphi, B_r_dz, B_phi, ... as in the array of B_field_eval_B_dB *)
Record fom := Fom { fr : R; fphi : R; fz : R; ftime : R; fmass : R; fcharge : R; fp : vec; fB : nat -> R;
                    frho : R; ftheta : R; ferr : Z; frun : bool }.

(** math.h:87-90 *)
Definition to_xyz (v : vec) (phi : R) : vec := V (vx v * cos phi - vy v * sin phi) (vx v * sin phi + vy v * cos phi) (vz v).
(** math.h:82-83 *)
Definition pos_xyz (r phi z : R) : vec := V (r * cos phi) (r * sin phi) z.
Definition list3 (v : vec) (i : nat) : R := match i with 0%nat => vx v | 1%nat => vy v | _ => vz v end.

(** step_fo_vpa.c:92-123: momentum update by the fields E and B over the time h *)
Definition boris (q m h : R) (E B p : vec) : vec :=
  let sigma := q * h / (2 * m * CONST_C) in
  let pminus := V (vx p / (m * CONST_C) + sigma * vx E) (vy p / (m * CONST_C) + sigma * vy E) (vz p / (m * CONST_C) + sigma * vz E) in
  let d := (q * h / (2 * m)) / sqrt (1 + dot pminus pminus) in
  let d2 := d * d in
  let Bhat := fun i : nat => match i with
    | 0%nat => 0 | 1%nat => vz B | 2%nat => - vy B | 3%nat => - vz B | 4%nat => 0 | 5%nat => vx B | 6%nat => vy B | 7%nat => - vx B | _ => 0 end in
  let Bhat2 := matmul Bhat Bhat 3 3 3 (fun _ => 0) in
  let B2 := vx B * vx B + vy B * vy B + vz B * vz B in
  let A := fun j => (Bhat j + d * Bhat2 j) * (2 * d / (1 + d2 * B2)) in
  let pplus := matmul (list3 pminus) A 1 3 3 (fun _ => 0) in
  let pfinal := V (vx pminus + pplus 0%nat + sigma * vx E) (vy pminus + pplus 1%nat + sigma * vy E) (vz pminus + pplus 2%nat + sigma * vz E) in
  V (vx pfinal * m * CONST_C) (vy pfinal * m * CONST_C) (vz pfinal * m * CONST_C).
(** step_fo_vpa.c:59-62 and 126-129: half a step with the velocity of momentum p *)
Definition drift (m h : R) (p x : vec) : vec :=
  let gamma := gamma_pnorm m (norm p) in
  V (vx x + vx p * h / (2 * gamma * m)) (vy x + vy p * h / (2 * gamma * m)) (vz x + vz p * h / (2 * gamma * m)).

(** step_fo_vpa.c:193-209, the radiation reaction; [None] when the division in
    pparbhatperB is 0/0, which makes all momentum components not-a-number whatever
    aldforce is *)
Definition ald (ald : R) (q m gamma : R) (B p : vec) : option vec :=
  let Bnorm := norm B in
  let pnorm := norm p in
  let t := ald_force_chartime q m Bnorm gamma * ald in
  if Req_EM_T (Bnorm * Bnorm * pnorm) 0 then None else
  let k := (vx p * vx B + vy p * vy B + vz p * vz B) / (Bnorm * Bnorm * pnorm) in
  let perp := V (vx p - k * vx B) (vy p - k * vy B) (vz p - k * vz B) in
  let C := dot perp perp / (m * m * CONST_C2) in
  Some (V (vx p - t * (vx perp + C * vx p)) (vy p - t * (vy perp + C * vy p)) (vz p - t * (vz perp + C * vz p))).

Section step.
(** err, B, E at (r, phi, z, t) *)
Variable fields : R -> R -> R -> R -> Z * vec * vec.
Variable evalBdB : R -> R -> R -> R -> Z * (nat -> R).
Variable evalPsi : R -> R -> R -> R -> Z * R.
Variable evalRho : R -> Z * R.
Variable evalAxis : R -> Z * (R * R).
(** step_fo_vpa.c:39-217 *)
Definition fo_step (h aldforce : R) (p : fom) : option fom :=
  if frun p then
    let pxyz := to_xyz (fp p) (fphi p) in
    let x0 := pos_xyz (fr p) (fphi p) (fz p) in
    let x1 := drift (fmass p) h pxyz x0 in
    let phi1 := atan2 (vy x1) (vx x1) in
    let '(err, Brpz, Erpz) := fields (sqrt (vx x1 * vx x1 + vy x1 * vy x1)) phi1 (vz x1) (ftime p + h / 2) in
    let pxyz' := if (err =? 0)%Z then boris (fcharge p) (fmass p) h (to_xyz Erpz phi1) (to_xyz Brpz phi1) pxyz else pxyz in
    let gamma := gamma_pnorm (fmass p) (norm pxyz') in
    let x2 := drift (fmass p) h pxyz' x1 in
    let q1 := if (err =? 0)%Z then
        let phi := fphi p + atan2 (vx x0 * vy x2 - vy x0 * vx x2) (vx x0 * vx x2 + vy x0 * vy x2) in
        Fom (sqrt (vx x2 * vx x2 + vy x2 * vy x2)) phi (vz x2) (ftime p) (fmass p) (fcharge p)
            (V (vx pxyz' * cos phi + vy pxyz' * sin phi) (- vx pxyz' * sin phi + vy pxyz' * cos phi) (vz pxyz'))
            (fB p) (frho p) (ftheta p) (ferr p) (frun p)
      else p in
    let '(err1, BdB) := if (err =? 0)%Z then evalBdB (fr q1) (fphi q1) (fz q1) (ftime p + h) else (err, fun _ => 0) in
    let '(err2, psi) := if (err1 =? 0)%Z then evalPsi (fr q1) (fphi q1) (fz q1) (ftime p + h) else (err1, 0) in
    let '(err3, rho) := if (err2 =? 0)%Z then evalRho psi else (err2, 0) in
    let '(err4, q2) := if (err3 =? 0)%Z then
        let '(e, (ar, az)) := evalAxis (fphi q1) in
        (e, Fom (fr q1) (fphi q1) (fz q1) (ftime q1) (fmass q1) (fcharge q1) (fp q1) BdB rho
              (ftheta q1 + atan2 ((fr p - ar) * (fz q1 - az) - (fz p - az) * (fr q1 - ar))
                                 ((fr p - ar) * (fr q1 - ar) + (fz p - az) * (fz q1 - az)))
              (ferr q1) (frun q1))
      else (err3, q1) in
    match ald aldforce (fcharge p) (fmass p) gamma (V (fB q2 0%nat) (fB q2 4%nat) (fB q2 8%nat)) (fp q2) with
    | None => None
    | Some p' =>
      Some (Fom (fr q2) (fphi q2) (fz q2) (ftime q2) (fmass q2) (fcharge q2) p' (fB q2) (frho q2) (ftheta q2)
             (if (err4 =? 0)%Z then ferr q2 else err4) (if (err4 =? 0)%Z then frun q2 else false))
    end
  else Some p.
End step.

(** the fields of step_fo_vpa.c:66-75 and of the variant with MHD perturbations
    (step_fo_vpa.c:269-293), where pert = (B including the perturbation, E of the
    perturbation) *)
Definition plain_fields (evalB evalE : R -> R -> R -> R -> Z * vec) (r phi z t : R) : Z * vec * vec :=
  let '(e, B) := evalB r phi z t in
  if (e =? 0)%Z then let '(e', E) := evalE r phi z t in (e', B, E) else (e, B, vzero).
Definition mhd_fields (evalB evalE : R -> R -> R -> R -> Z * vec) (pert : R -> R -> R -> R -> Z * vec * vec) (r phi z t : R) : Z * vec * vec :=
  let '(e, _) := evalB r phi z t in
  if (e =? 0)%Z then
    let '(e', E) := evalE r phi z t in
    if (e' =? 0)%Z then let '(e'', B'', E'') := pert r phi z t in (e'', B'', vadd E E'') else (e', vzero, vzero)
  else (e, vzero, vzero).
