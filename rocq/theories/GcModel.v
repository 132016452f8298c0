(** Model of src/simulate/step/step_gceom.h, step_gceom_mhd.h, step_gc_rk4.c,
    step_gc_cashkarp.c and step_ml_cashkarp.c: equations of motion of guiding centres
    and field lines and their integrators.  One marker; the C loops treat the markers
    independently.  Arrays are functions of the index. *)
From Coq Require Import Reals ZArith Bool.
From Verif Require Import ErrorModel AxisModel Vec PhysModel.
Local Open Scope R_scope.

(** ** Equations of motion *)
(** step_gceom.h:31-53 *)
Definition Bvec (D : nat -> R) : vec := V (D 0%nat) (D 4%nat) (D 8%nat).
Definition gradB (D : nat -> R) (r : R) : vec :=
  let B := Bvec D in
  let normB := sqrt (dot B B) in
  V ((vx B * D 1%nat + vy B * D 5%nat + vz B * D 9%nat) / normB)
    ((vx B * D 2%nat + vy B * D 6%nat + vz B * D 10%nat) / (normB * r))
    ((vx B * D 3%nat + vy B * D 7%nat + vz B * D 11%nat) / normB).
Definition curlB (D : nat -> R) (r : R) : vec :=
  V (D 10%nat / r - D 7%nat) (D 3%nat - D 9%nat) ((D 4%nat - D 2%nat) / r + D 5%nat).
(** step_gceom.h:55-61 *)
Definition Bstar (q ppar : R) (D : nat -> R) (r : R) : vec :=
  let B := Bvec D in
  let normB := sqrt (dot B B) in
  let c := curlB D r in
  let g := cross (gradB D r) B in
  V (vx B + (ppar / q) * (vx c / normB - vx g / (normB * normB)))
    (vy B + (ppar / q) * (vy c / normB - vy g / (normB * normB)))
    (vz B + (ppar / q) * (vz c / normB - vz g / (normB * normB))).
(** step_gceom.h:63-66 *)
Definition Estar (q mu gamma : R) (E : vec) (D : nat -> R) (r : R) : vec :=
  let g := gradB D r in
  V (vx E - mu * vx g / (q * gamma)) (vy E - mu * vy g / (q * gamma)) (vz E - mu * vz g / (q * gamma)).
(** step_gceom.h:68-93, the same in step_gceom_mhd.h:74-99 *)
Definition eom (m q : R) (D : nat -> R) (Bs Es : vec) (ald : R) (y : nat -> R) (i : nat) : R :=
  let B := Bvec D in
  let normB := sqrt (dot B B) in
  let gamma := gamma_ppar m (y 4%nat) (y 3%nat) normB in
  let Bhat := V (vx B / normB) (vy B / normB) (vz B / normB) in
  let BhatDotBstar := dot Bhat Bs in
  let X := cross Es Bhat in
  let t_ald := ald_force_chartime q m normB gamma * ald in
  let C := 2 * y 4%nat * normB / (m * CONST_C2) in
  match i with
  | 0%nat => (y 3%nat * vx Bs / (gamma * m) + vx X) / BhatDotBstar
  | 1%nat => (y 3%nat * vy Bs / (gamma * m) + vy X) / (y 0%nat * BhatDotBstar)
  | 2%nat => (y 3%nat * vz Bs / (gamma * m) + vz X) / BhatDotBstar
  | 3%nat => q * dot Bs Es / BhatDotBstar + - t_ald * y 3%nat * C
  | 4%nat => 0 + - 2 * t_ald * y 4%nat * (1 + C)
  | _ => q * normB / (gamma * m)
  end.
(** step_gceom.h:28-94 *)
Definition gceom (m q : R) (D : nat -> R) (E : vec) (ald : R) (y : nat -> R) : nat -> R :=
  let gamma := gamma_ppar m (y 4%nat) (y 3%nat) (sqrt (dot (Bvec D) (Bvec D))) in
  eom m q D (Bstar q (y 3%nat) D (y 0%nat)) (Estar q (y 4%nat) gamma E D (y 0%nat)) ald y.

(** step_gceom_mhd.h:55-86; M is the array of mhd_eval: alpha, dalpha/dt, grad alpha,
    Phi, dPhi/dt, grad Phi *)
Definition Bstar_mhd (q ppar : R) (D M : nat -> R) (r : R) : vec :=
  let B := Bvec D in
  let normB := sqrt (dot B B) in
  let c := curlB D r in
  let g := cross (gradB D r) B in
  let a := cross (V (M 2%nat) (M 3%nat) (M 4%nat)) B in
  V (vx B + vx a + M 0%nat * vx c + (ppar / q) * (vx c / normB - vx g / (normB * normB)))
    (vy B + vy a + M 0%nat * vy c + (ppar / q) * (vy c / normB - vx g / (normB * normB)))
    (vz B + vz a + M 0%nat * vz c + (ppar / q) * (vz c / normB - vz g / (normB * normB))).
Definition Estar_mhd (q mu gamma : R) (E : vec) (D M : nat -> R) (r : R) : vec :=
  let g := gradB D r in
  let B := Bvec D in
  V (vx E - M 7%nat - mu * vx g / (q * gamma) - vx B * M 1%nat)
    (vy E - M 8%nat - mu * vy g / (q * gamma) - vy B * M 1%nat)
    (vz E - M 9%nat - mu * vz g / (q * gamma) - vz B * M 1%nat).
Definition gceom_mhd (m q : R) (D : nat -> R) (E : vec) (M : nat -> R) (ald : R) (y : nat -> R) : nat -> R :=
  let gamma := gamma_ppar m (y 4%nat) (y 3%nat) (sqrt (dot (Bvec D) (Bvec D))) in
  eom m q D (Bstar_mhd q (y 3%nat) D M (y 0%nat)) (Estar_mhd q (y 4%nat) gamma E D M (y 0%nat)) ald y.

(** ** Runge-Kutta stages.  [f] returns an error code and the right-hand side; after an
    error nothing more is evaluated.  [f0] is the first stage (at the marker, where the
    field is already known) *)
Definition rhs := R -> (nat -> R) -> Z * (nat -> R).
Definition next (e : Z) (f : Z * (nat -> R)) : Z * (nat -> R) := if (e =? 0)%Z then f else (e, fun _ => 0).
(** step_gc_rk4.c:88-145 *)
Definition rk4 (f0 : Z * (nat -> R)) (f : rhs) (t0 h : R) (y : nat -> R) : Z * (nat -> R) :=
  let '(e1, k1) := f0 in
  let '(e2, k2) := next e1 (f (t0 + h / 2) (fun j => y j + h * k1 j / 2)) in
  let '(e3, k3) := next e2 (f (t0 + h / 2) (fun j => y j + h * k2 j / 2)) in
  let '(e4, k4) := next e3 (f (t0 + h) (fun j => y j + h * k3 j)) in
  (e4, fun j => y j + h / 6 * (k1 j + 2 * k2 j + 2 * k3 j + k4 j)).
(** step_gc_cashkarp.c:85-208; the result is (error, k1, fifth order, fourth order) *)
Definition cashkarp (f0 : Z * (nat -> R)) (f : rhs) (t0 h : R) (y : nat -> R) : Z * (nat -> R) * (nat -> R) * (nat -> R) :=
  let '(e1, k1) := f0 in
  let '(e2, k2) := next e1 (f (t0 + (1 / 5) * h) (fun j => y j + h * ((1 / 5) * k1 j))) in
  let '(e3, k3) := next e2 (f (t0 + (3 / 10) * h) (fun j => y j + h * ((3 / 40) * k1 j + (9 / 40) * k2 j))) in
  let '(e4, k4) := next e3 (f (t0 + (3 / 5) * h) (fun j => y j + h * ((3 / 10) * k1 j + (-9 / 10) * k2 j + (6 / 5) * k3 j))) in
  let '(e5, k5) := next e4 (f (t0 + h) (fun j => y j + h * ((-11 / 54) * k1 j + (5 / 2) * k2 j + (-70 / 27) * k3 j + (35 / 27) * k4 j))) in
  let '(e6, k6) := next e5 (f (t0 + (7 / 8) * h)
        (fun j => y j + h * ((1631 / 55296) * k1 j + (175 / 512) * k2 j + (575 / 13824) * k3 j + (44275 / 110592) * k4 j + (253 / 4096) * k5 j))) in
  (e6, k1,
   fun j => y j + h * ((37 / 378) * k1 j + (250 / 621) * k3 j + (125 / 594) * k4 j + (512 / 1771) * k6 j),
   fun j => y j + h * ((2825 / 27648) * k1 j + (18575 / 48384) * k3 j + (13525 / 55296) * k4 j + (277 / 14336) * k5 j + (1 / 4) * k6 j)).

(** ** Step control *)
Inductive ext := Fin (r : R) | PInf | MInf | NaN.
(** pow (x, a) for x >= 0 and a < 0 *)
Definition pow_neg (x a : R) : ext := if Req_EM_T x 0 then PInf else Fin (Rpower x a).
Definition emul (r : R) (x : ext) : ext :=
  match x with
  | Fin s => Fin (r * s)
  | NaN => NaN
  | PInf => if Rlt_dec 0 r then PInf else if Rlt_dec r 0 then MInf else NaN
  | MInf => if Rlt_dec 0 r then MInf else if Rlt_dec r 0 then PInf else NaN
  end.
Definition egt (x : ext) (r : R) : bool :=
  match x with Fin s => if Rlt_dec r s then true else false | PInf => true | MInf | NaN => false end.
Definition eneg (x : ext) : bool := match x with Fin s => if Rlt_dec s 0 then true else false | MInf => true | PInf | NaN => false end.
Definition esmall (x : ext) (r : R) : bool := match x with Fin s => if Rlt_dec (Rabs s) r then true else false | _ => false end.
Definition DBL_EPSILON : R := / 2 ^ 52.
Definition SMALL_TIMESTEP : R := 1e-12.
(** step_gc_cashkarp.c:209-230: error estimate *)
Definition gc_err (h : R) (y k1 rk5 rk4 : nat -> R) : R :=
  let k0 := k1 0%nat * h in let k1' := k1 1%nat * h in let k2 := k1 2%nat * h in
  let yerr := rk5 0%nat * rk5 0%nat + rk4 0%nat * rk4 0%nat - 2 * rk5 0%nat * rk4 0%nat * cos (rk5 1%nat - rk4 1%nat)
              + (rk5 2%nat - rk4 2%nat) * (rk5 2%nat - rk4 2%nat) in
  let ytol := y 0%nat * y 0%nat + k0 * k0 - 2 * y 0%nat * k0 * cos (y 1%nat - k1') + (y 2%nat - k2) * (y 2%nat - k2) + DBL_EPSILON in
  let e1 := Rmax 0 (sqrt (yerr / ytol)) in
  Rmax e1 (Rabs (rk5 3%nat - rk4 3%nat) / (Rabs (y 3%nat) + Rabs (k1 3%nat * h) + DBL_EPSILON)).
(** step_gc_cashkarp.c:232-247 *)
Definition gc_hnext (h err tol : R) : ext :=
  let err := err / tol in
  if Rle_dec err 1 then
    let hn := emul (0.85 * h) (pow_neg err (- 0.2)) in
    if egt hn (1.5 * h) then Fin (1.5 * h) else hn
  else emul (- 0.85 * h) (pow_neg err (- 0.25)).
(** step_ml_cashkarp.c:180-200 *)
Definition ml_err (h : R) (y k1 rk5 rk4 : nat -> R) : R :=
  let t j := Rabs (rk5 j - rk4 j) / (Rabs (y j) + Rabs (k1 j * h) + DBL_EPSILON) in
  Rmax (Rmax (Rmax 0 (t 0%nat)) (t 1%nat)) (t 2%nat).
Definition ml_hnext (h err tol : R) : ext :=
  let err := err / tol in
  if Rle_dec err 1 then emul (0.85 * h) (pow_neg err (- 0.2)) else emul (- 0.85 * h) (pow_neg err (- 0.25)).

(** ** Guiding-centre steps *)
(** [gy] holds r, phi, z, ppar, mu, zeta *)
Record gcm := Gcm { gy : nat -> R; gtime : R; gmass : R; gcharge : R; gB : nat -> R; grho : R; gtheta : R; gerr : Z; grun : bool }.
(** step_gc_rk4.c:163-166 *)
Definition wrap_zeta (z : R) : R := let x := cfmod z (2 * PI) in if Rlt_dec x 0 then 2 * PI + x else x.
Definition set_y (p : gcm) (y : nat -> R) : gcm :=
  Gcm (fun j => if Nat.eqb j 5 then wrap_zeta (y 5%nat) else y j) (gtime p) (gmass p) (gcharge p) (gB p) (grho p) (gtheta p) (gerr p) (grun p).
Section gc.
Variable evalBdB : R -> R -> R -> R -> Z * (nat -> R).
Variable evalE : R -> R -> R -> R -> Z * vec.
Variable evalMhd : R -> R -> R -> R -> Z * (nat -> R).
Variable evalPsi : R -> R -> R -> R -> Z * R.
Variable evalRho : R -> Z * R.
Variable evalAxis : R -> Z * (R * R).
(** value of a variable that is not initialised *)
Variable junk : R.
(** the evaluations before each stage (step_gc_rk4.c:100-111; 325-337 with MHD) *)
Definition eval_E (m q ald : R) (D : nat -> R) (t : R) (y : nat -> R) : Z * (nat -> R) :=
  let '(e, E) := evalE (y 0%nat) (y 1%nat) (y 2%nat) t in next e (0%Z, gceom m q D E ald y).
Definition eval_E_mhd (m q ald : R) (D : nat -> R) (t : R) (y : nat -> R) : Z * (nat -> R) :=
  let '(e, E) := evalE (y 0%nat) (y 1%nat) (y 2%nat) t in
  next e (let '(e', M) := evalMhd (y 0%nat) (y 1%nat) (y 2%nat) t in next e' (0%Z, gceom_mhd m q D E M ald y)).
Definition eval_E' (mhd : bool) := if mhd then eval_E_mhd else eval_E.
Definition gc_rhs (mhd : bool) (m q ald : R) : rhs := fun t y =>
  let '(e, D) := evalBdB (y 0%nat) (y 1%nat) (y 2%nat) t in next e (eval_E' mhd m q ald D t y).
(** step_gc_rk4.c:170-218, step_gc_cashkarp.c:277-320: fields and rho at the new position,
    cumulative poloidal angle, error flag.  [e] is the error so far, [p] the marker, [q]
    the marker with its new phase-space position *)
Definition gc_finish (h : R) (p q : gcm) (e : Z) : gcm :=
  let r' := gy q 0%nat in let phi' := gy q 1%nat in let z' := gy q 2%nat in
  let '(e1, D) := next e (evalBdB r' phi' z' (gtime p + h)) in
  let '(e2, psi) := if (e1 =? 0)%Z then evalPsi r' phi' z' (gtime p + h) else (e1, 0) in
  let '(e3, rho) := if (e2 =? 0)%Z then evalRho psi else (e2, 0) in
  let '(e4, q) := if (e3 =? 0)%Z then
      let '(e', (ar, az)) := evalAxis phi' in
      (e', Gcm (gy q) (gtime q) (gmass q) (gcharge q) D rho
            (gtheta q + atan2 ((gy p 0%nat - ar) * (z' - az) - (gy p 2%nat - az) * (r' - ar))
                              ((gy p 0%nat - ar) * (r' - ar) + (gy p 2%nat - az) * (z' - az)))
            (gerr q) (grun q))
    else (e3, q) in
  Gcm (gy q) (gtime q) (gmass q) (gcharge q) (gB q) (grho q) (gtheta q)
      (if (e4 =? 0)%Z then gerr q else e4) (if (e4 =? 0)%Z then grun q else false).
(** the code reads whether an error was raised off the final flag *)
Definition failed (p q : gcm) : bool := negb (grun q).
(** step_gc_rk4.c:34-218, with MHD 233-440 *)
Definition gc_rk4 (mhd : bool) (h ald : R) (p : gcm) : gcm :=
  if grun p then
    let f := gc_rhs mhd (gmass p) (gcharge p) ald in
    let '(e, y) := rk4 (eval_E' mhd (gmass p) (gcharge p) ald (gB p) (gtime p) (gy p)) f (gtime p) h (gy p) in
    let e :=
      if mhd then
        if negb (e =? 0)%Z then e
        else if Rle_dec (y 0%nat) 0 then error_raise ERR_INTEGRATION 370 EF_STEP_GC_RK4
        else if Rle_dec CONST_C (Rabs (y 4%nat)) then error_raise ERR_INTEGRATION 373 EF_STEP_GC_RK4
        else if Rlt_dec (y 4%nat) 0 then error_raise ERR_INTEGRATION 376 EF_STEP_GC_RK4 else e
      else
        if negb (e =? 0)%Z then e
        else if Rle_dec (y 0%nat) 0 then error_raise ERR_INTEGRATION 150 EF_STEP_GC_RK4
        else if Rlt_dec (y 4%nat) 0 then error_raise ERR_INTEGRATION 153 EF_STEP_GC_RK4 else e in
    gc_finish h p (if (e =? 0)%Z then set_y p y else p) e
  else p.
(** step_gc_cashkarp.c:36-323, with MHD 349-660; with MHD the loop over the components
    stops at 5, so the last component of rk5 is not initialised, and the result is not
    checked *)
Definition gc_cashkarp (mhd : bool) (h tol ald : R) (p : gcm) (hnext : ext) : gcm * ext :=
  if grun p then
    let f := gc_rhs mhd (gmass p) (gcharge p) ald in
    let '(e, k1, rk5, rk4) := cashkarp (eval_E' mhd (gmass p) (gcharge p) ald (gB p) (gtime p) (gy p)) f (gtime p) h (gy p) in
    let rk5 := if mhd then fun j => if Nat.eqb j 5 then junk else rk5 j else rk5 in
    let hn := if (e =? 0)%Z then gc_hnext h (gc_err h (gy p) k1 rk5 rk4) tol else hnext in
    let e :=
      if mhd then e
      else if negb (e =? 0)%Z then e
      else if esmall hn SMALL_TIMESTEP then error_raise ERR_INVALID_TIMESTEP 254 EF_STEP_GC_CASHKARP
      else if Rle_dec (rk5 0%nat) 0 then error_raise ERR_INTEGRATION 258 EF_STEP_GC_CASHKARP
      else if Rlt_dec (rk5 4%nat) 0 then error_raise ERR_INTEGRATION 262 EF_STEP_GC_CASHKARP else e in
    let q := gc_finish h p (if (e =? 0)%Z then set_y p rk5 else p) e in
    (q, if failed p q then Fin h else hn)
  else (p, hnext).
End gc.

(** ** Field-line step (step_ml_cashkarp.c:32-245) *)
Record mlm := Mlm { my : nat -> R; mtime : R; mpitch : R; mB : nat -> R; mrho : R; mtheta : R; merr : Z; mrun : bool }.
Section ml.
Variable evalB : R -> R -> R -> R -> Z * vec.
Variable evalBdB : R -> R -> R -> R -> Z * (nat -> R).
Variable evalPsi : R -> R -> R -> R -> Z * R.
Variable evalRho : R -> Z * R.
Variable evalAxis : R -> Z * (R * R).
(** contents of a local array that was not assigned *)
Variable junk : nat -> R.
Definition direction (pitch : R) : R := if Rlt_dec pitch 0 then -1 else 1.
(** normalisation of the field (step_ml_cashkarp.c:65-69) *)
Definition ml_k (dir r : R) (B : vec) (i : nat) : R :=
  let n := norm B * dir in match i with 0%nat => vx B / n | 1%nat => vy B / n / r | _ => vz B / n end.
(** an evaluation that is skipped leaves the array unassigned, and one that fails leaves
    whatever the evaluation stored; both are normalised and used *)
Definition ml_eval (dir : R) (e : Z) (t : R) (y : nat -> R) : Z * (nat -> R) :=
  let '(e', B) := if (e =? 0)%Z then evalB (y 0%nat) (y 1%nat) (y 2%nat) t else (e, V (junk 0%nat) (junk 1%nat) (junk 2%nat)) in
  (e', ml_k dir (y 0%nat) B).
Definition ml_step (h tol : R) (p : mlm) (hnext : ext) : mlm * ext :=
  if mrun p then
    let dir := direction (mpitch p) in
    let y := my p in
    let t0 := mtime p in
    let k1 := ml_k dir (y 0%nat) (V (mB p 0%nat) (mB p 4%nat) (mB p 8%nat)) in
    let '(e2, k2) := ml_eval dir 0 (t0 + (1 / 5) * h) (fun j => y j + h * ((1 / 5) * k1 j)) in
    let '(e3, k3) := ml_eval dir e2 (t0 + (3 / 10) * h) (fun j => y j + h * ((3 / 40) * k1 j + (9 / 40) * k2 j)) in
    let '(e4, k4) := ml_eval dir e3 (t0 + (3 / 5) * h) (fun j => y j + h * ((3 / 10) * k1 j + (-9 / 10) * k2 j + (6 / 5) * k3 j)) in
    let '(e5, k5) := ml_eval dir e4 (t0 + h) (fun j => y j + h * ((-11 / 54) * k1 j + (5 / 2) * k2 j + (-70 / 27) * k3 j + (35 / 27) * k4 j)) in
    let '(e6, k6) := ml_eval dir e5 (t0 + (7 / 8) * h)
        (fun j => y j + h * ((1631 / 55296) * k1 j + (175 / 512) * k2 j + (575 / 13824) * k3 j + (44275 / 110592) * k4 j + (253 / 4096) * k5 j)) in
    let rk5 := fun j => y j + h * ((37 / 378) * k1 j + (250 / 621) * k3 j + (125 / 594) * k4 j + (512 / 1771) * k6 j) in
    let rk4 := fun j => y j + h * ((2825 / 27648) * k1 j + (18575 / 48384) * k3 j + (13525 / 55296) * k4 j + (277 / 14336) * k5 j + (1 / 4) * k6 j) in
    let hn := ml_hnext h (ml_err h y k1 rk5 rk4) tol in
    let '(e7, D) := if (e6 =? 0)%Z then evalBdB (rk5 0%nat) (rk5 1%nat) (rk5 2%nat) (t0 + h) else (e6, junk) in
    let '(e8, psi) := if (e7 =? 0)%Z then evalPsi (rk5 0%nat) (rk5 1%nat) (rk5 2%nat) (t0 + h) else (e7, junk 0%nat) in
    let '(e9, rho) := if (e8 =? 0)%Z then evalRho psi else (e8, junk 0%nat) in
    let '(_, (ar, az)) := evalAxis (rk5 1%nat) in
    (Mlm rk5 t0 (mpitch p) D rho
       (mtheta p + atan2 ((y 0%nat - ar) * (rk5 2%nat - az) - (y 2%nat - az) * (rk5 0%nat - ar))
                         ((y 0%nat - ar) * (rk5 0%nat - ar) + (y 2%nat - az) * (rk5 2%nat - az)))
       (merr p) (mrun p), hn)
  else (p, hnext).
End ml.
