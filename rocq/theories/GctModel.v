(** Model of src/gctransform.c.  Real arithmetic is exact; CONST_2PI is 2 pi and fmod is the
    one of math.c.  A quantity that the C code gets from a division by zero or from the root
    of a negative number (and everything computed from it) is [None].  The array B_dB is a
    function of the index.  The two transformations repeat the same block of field
    quantities and first order terms; the block is written once here. *)
From Coq Require Import Reals List Bool.
From Verif Require Import Vec MathModel Math2Model StepFoModel.
Local Open Scope R_scope.

(** gctransform.c:96, 110 and 335, 346 *)
Definition bnorm (B : nat -> R) : R := sqrt (B 0%nat * B 0%nat + B 4%nat * B 4%nat + B 8%nat * B 8%nat).
Definition bhat (bn : R) (X : nat -> R) : vec := V (X 0%nat / bn) (X 4%nat / bn) (X 8%nat / bn).
(** gctransform.c:113-116, 349-352 *)
Definition gradB (bn : R) (X : nat -> R) : vec :=
  let b := bhat bn X in
  V (vx b * X 1%nat + vy b * X 5%nat + vz b * X 9%nat)
    (vx b * X 2%nat + vy b * X 6%nat + vz b * X 10%nat)
    (vx b * X 3%nat + vy b * X 7%nat + vz b * X 11%nat).
(** gctransform.c:119-126, 355-362 *)
Definition curlB (X : nat -> R) : vec := V (X 10%nat - X 7%nat) (X 3%nat - X 9%nat) (X 5%nat - X 2%nat).
Definition tau (bn : R) (X : nat -> R) : R := dot (bhat bn X) (curlB X) / bn.
(** gctransform.c:129-138, 365-374 *)
Definition nablab (bn : R) (X : nat -> R) : nat -> R :=
  let b := bhat bn X in let g := gradB bn X in
  fun k => match k with
  | 0%nat => (X 1%nat - vx g * vx b) / bn
  | 1%nat => (X 2%nat - vx g * vy b) / bn
  | 2%nat => (X 3%nat - vx g * vz b) / bn
  | 3%nat => (X 5%nat - vy g * vx b) / bn
  | 4%nat => (X 6%nat - vy g * vy b) / bn
  | 5%nat => (X 7%nat - vy g * vz b) / bn
  | 6%nat => (X 9%nat - vz g * vx b) / bn
  | 7%nat => (X 10%nat - vz g * vy b) / bn
  | 8%nat => (X 11%nat - vz g * vz b) / bn
  | _ => 0
  end.
(** gctransform.c:142-154, 378-390 *)
Definition kappa (bn : R) (X : nat -> R) : vec :=
  let b := bhat bn X in let g := gradB bn X in
  V ((vx b * X 1%nat + vy b * X 5%nat + vz b * X 9%nat - dot b g * vx b) / bn)
    ((vx b * X 2%nat + vy b * X 6%nat + vz b * X 10%nat - dot b g * vy b) / bn)
    ((vx b * X 3%nat + vy b * X 7%nat + vz b * X 11%nat - dot b g * vz b) / bn).
(** gctransform.c:177-186, 421-430 *)
Definition a1ddotgradb (rho p : vec) (n : nat -> R) : R :=
  - 0.5 * (2 * (vx rho * vx p * n 0%nat + vy rho * vy p * n 4%nat + vz rho * vz p * n 8%nat) +
           (vx rho * vy p + vy rho * vx p) * (n 1%nat + n 3%nat) +
           (vx rho * vz p + vz rho * vx p) * (n 2%nat + n 6%nat) +
           (vy rho * vz p + vz rho * vy p) * (n 5%nat + n 7%nat)).
(** gctransform.c:190-212, 434-456 *)
Definition a2ddotgradb (rho p : vec) (n : nat -> R) : R :=
  0.25 * (vx p * vx p * n 0%nat + vy p * vx p * n 3%nat + vz p * vx p * n 6%nat +
          vx p * vy p * n 1%nat + vy p * vy p * n 4%nat + vz p * vy p * n 7%nat +
          vx p * vz p * n 2%nat + vy p * vz p * n 5%nat + vz p * vz p * n 8%nat)
  - 0.25 * (vx rho * vx rho * n 0%nat + vx rho * vy rho * n 3%nat + vx rho * vz rho * n 6%nat +
          vy rho * vx rho * n 1%nat + vy rho * vy rho * n 4%nat + vy rho * vz rho * n 7%nat +
          vz rho * vx rho * n 2%nat + vz rho * vy rho * n 5%nat + vz rho * vz rho * n 8%nat).
(** gctransform.c:215-219, 393-397, 567-571 *)
Definition e1 (b : vec) : vec := unit (cross b (V 0 0 1)).
Definition e2 (b : vec) : vec := cross b (e1 b).
(** gctransform.c:222-225, 400-403 *)
Definition gyrolen (m q bn mu : R) : R := if neqb0 q then sqrt (2 * m * mu / bn) / Rabs q else 0.
(** gctransform.c:245-249, 459-463 *)
Definition ppar1 (m q bn : R) (X : nat -> R) (ppar mu : R) (rho p : vec) : R :=
  if neqb0 q then - ppar * gyrolen m q bn mu * dot rho (kappa bn X) + (m * mu / q) * (tau bn X + a1ddotgradb rho p (nablab bn X)) else 0.
(** gctransform.c:251-260, 465-475 *)
Definition mu1 (m q bn : R) (X : nat -> R) (ppar mu : R) (rho p : vec) : R :=
  let g := gradB bn X in let k := kappa bn X in let ppar2 := ppar * ppar in
  let temp := V (mu * vx g + ppar2 * vx k / m) (mu * vy g + ppar2 * vy k / m) (mu * vz g + ppar2 * vz k / m) in
  if neqb0 q then (gyrolen m q bn mu / bn) * dot rho temp - (ppar * mu / (q * bn)) * (tau bn X + a1ddotgradb rho p (nablab bn X)) else 0.
(** gctransform.c:263-277, 482-496 *)
Definition Rvec (b : vec) (n : nat -> R) : vec :=
  let h := vx b * vx b + vy b * vy b in
  let b1x := - vx b * vz b / h in let b2x := - vy b / (h * h) in
  let b1y := - vy b * vz b / h in let b2y := - vx b / (h * h) in
  V (b1x * (n 1%nat + b2x * (n 0%nat + n 1%nat)) + b1y * (n 0%nat + b2y * (n 0%nat + n 1%nat)))
    (b1x * (n 4%nat + b2x * (n 3%nat + n 4%nat)) + b1y * (n 3%nat + b2y * (n 3%nat + n 4%nat)))
    (b1x * (n 7%nat + b2x * (n 6%nat + n 7%nat)) + b1y * (n 6%nat + b2y * (n 6%nat + n 7%nat))).
(** gctransform.c:279-287, 477-479 and 497-502 (kappa * ppar2 / (2 * mass * mu) there) *)
Definition zeta1 (m q bn : R) (X : nat -> R) (ppar mu : R) (rho p : vec) : R :=
  let g := gradB bn X in let k := kappa bn X in let ppar2 := ppar * ppar in
  let temp := V (vx g + vx k * (ppar2 / m) / (2 * mu)) (vy g + vy k * (ppar2 / m) / (2 * mu)) (vz g + vz k * (ppar2 / m) / (2 * mu)) in
  if neqb0 q then - gyrolen m q bn mu * dot rho (Rvec (bhat bn X) (nablab bn X)) + (ppar / (q * bn)) * a2ddotgradb rho p (nablab bn X)
                  + (gyrolen m q bn mu / bn) * dot p temp else 0.

(** [R, Phi, Z], ppar, mu, zeta as written to the output pointers *)
Record gcout := GCO { o_pos : option vec; o_ppar : option R; o_mu : option R; o_zeta : option R }.
Definition guard {A} (c : bool) (x : A) : option A := if c then Some x else None.
Definition nonvertical (b : vec) : bool := neqb0 (vx b * vx b + vy b * vy b).

(** gctransform.c:90-303; the order is a file scope variable (44-55, 62-64) *)
Definition p2g (order : bool) (m q : R) (B : nat -> R) (r phi z pr pphi pz : R) : gcout :=
  let bn := bnorm B in
  let xyz := rpz2xyz (V r phi z) in
  let p := to_xyz (V pr pphi pz) phi in
  let X := jac_rpz2xyz B r phi in
  let b := bhat bn X in
  let ppar0 := vx p * vx b + vy p * vy b + vz p * vz b in
  let pperp := V (vx p - ppar0 * vx b) (vy p - ppar0 * vy b) (vz p - ppar0 * vz b) in
  let mu0 := dot pperp pperp / (2 * m * bn) in
  let perphat := let u := unit pperp in if Rlt_dec q 0 then V (- vx u) (- vy u) (- vz u) else u in
  let rhohat := cross b perphat in
  let rho0 := gyrolen m q bn mu0 in
  let XYZ := V (vx xyz - rho0 * vx rhohat) (vy xyz - rho0 * vy rhohat) (vz xyz - rho0 * vz rhohat) in
  let zeta0 := atan2 (- dot rhohat (e2 b)) (dot rhohat (e1 b)) in
  let ppar := if order then ppar0 + ppar1 m q bn X ppar0 mu0 rhohat perphat else ppar0 in
  let mu := if order then Rabs (mu0 + mu1 m q bn X ppar0 mu0 rhohat perphat) else mu0 in
  let zeta := if order then zeta0 + zeta1 m q bn X ppar0 mu0 rhohat perphat else zeta0 in
  let okB := neqb0 bn in let okP := neqb0 (norm pperp) in let okV := nonvertical b in
  let first := (order && neqb0 q)%bool in let okR := neqb0 r in
  GCO (guard (okB && okP) (xyz2rpz XYZ))
      (guard (okB && (negb first || okP && okR)) ppar)
      (guard (okB && (negb first || okP && okR)) mu)
      (guard (okB && okP && okV && (negb first || okR)) (fmod (2 * PI + zeta) (2 * PI))).

(** gctransform.c:329-535 *)
Definition rhov (b : vec) (zeta : R) : vec :=
  let c := cos zeta in let s := sin zeta in
  V (c * vx (e1 b) - s * vx (e2 b)) (c * vy (e1 b) - s * vy (e2 b)) (c * vz (e1 b) - s * vz (e2 b)).
Definition perpv (b : vec) (zeta : R) : vec :=
  let c := cos zeta in let s := sin zeta in
  V (- s * vx (e1 b) - c * vx (e2 b)) (- s * vy (e1 b) - c * vy (e2 b)) (- s * vz (e1 b) - c * vz (e2 b)).
Definition g2p (order : bool) (m q : R) (B : nat -> R) (r phi z ppar mu zeta : R) : gcout :=
  let bn := bnorm B in
  let XYZ := rpz2xyz (V r phi z) in
  let X := jac_rpz2xyz B r phi in
  let b := bhat bn X in
  let rho0 := gyrolen m q bn mu in
  let rhohat := rhov b zeta in let perphat := perpv b zeta in
  let mu' := if order then Rabs (Rabs (mu - mu1 m q bn X ppar mu rhohat perphat)) else mu in
  let ppar' := if order then ppar - ppar1 m q bn X ppar mu rhohat perphat else ppar in
  let zeta' := if order then zeta - zeta1 m q bn X ppar mu rhohat perphat else zeta in
  let rhohat' := if order then rhov b zeta' else rhohat in
  let xyz := V (vx XYZ + rho0 * vx rhohat') (vy XYZ + rho0 * vy rhohat') (vz XYZ + rho0 * vz rhohat') in
  let okB := neqb0 bn in let okV := nonvertical b in let okM := if Rlt_dec mu 0 then false else true in
  let first := (order && neqb0 q)%bool in let okR := neqb0 r in
  let ok1 := (negb first || okB && okV && okR && okM)%bool in
  GCO (guard (okB && okV && (negb (neqb0 q) || okM) && ok1 && (negb first || neqb0 mu)) (xyz2rpz xyz))
      (guard ok1 ppar') (guard ok1 mu') (guard (ok1 && (negb first || neqb0 mu)) zeta').

(** gctransform.c:554-600 *)
Definition ppm2p (m q : R) (B : nat -> R) (phi ppar mu zeta : R) : option vec :=
  let Bxyz := to_xyz (V (B 0%nat) (B 4%nat) (B 8%nat)) phi in
  let b := unit Bxyz in
  let bn := norm Bxyz in
  let perphat := perpv b zeta in
  let pperp := sqrt (2 * m * bn * mu) in
  let pperp := if Rlt_dec q 0 then - pperp else pperp in
  let p := V (ppar * vx b + pperp * vx perphat) (ppar * vy b + pperp * vy perphat) (ppar * vz b + pperp * vz perphat) in
  guard (neqb0 bn && nonvertical b && (if Rlt_dec (2 * m * bn * mu) 0 then false else true))
    (V (vx p * cos phi + vy p * sin phi) (- vx p * sin phi + vy p * cos phi) (vz p)).
