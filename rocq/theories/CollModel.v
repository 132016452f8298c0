(** Model of the collision operator: src/simulate/mccc/mccc_coefs.h, mccc.c, mccc_fo_euler.c,
    mccc_gc_euler.c and mccc_gc_milstein.c.

    Exact arithmetic; CONST_PI and CONST_SQRTPI are taken to be pi and its square root, erf is
    the error function.  One marker; the loop treats markers independently.  Random numbers are
    arguments (the Wiener process itself is modelled in WienerModel).  Results that are not a
    number in C are [None]: a marker at rest in the plasma frame, a negative number under a
    root, a speed not below that of light.  Species have positive mass, density and temperature;
    the tabulated special functions are switched off in mccc_init and not written. *)
From Coq Require Import Reals ZArith List Bool.
From Verif Require Import Vec ErrorModel PhysModel StepFoModel GcModel Erf.
Import ListNotations.
Local Open Scope R_scope.

(** consts.h *)
Definition CONST_HBAR : R := 1.0546e-34.
(** mccc.h *)
Definition MCCC_CUTOFF : R := 0.1.

(** ** mccc_coefs.h *)
(** mccc_coefs.h:25-26 *)
Definition cab (qa qb nb clog : R) : R := nb * qa * qa * qb * qb * clog / (4 * PI * CONST_E0 * CONST_E0).
(** mccc_coefs.h:43-44 *)
Definition coef_Q (ma qa mb qb nb vb clog mu0 : R) : R := - cab qa qb nb clog * mu0 / (ma * mb * vb * vb).
(** mccc_coefs.h:61-62 *)
Definition coef_dQ (ma qa mb qb nb vb clog dmu0 : R) : R := - cab qa qb nb clog * dmu0 / (ma * mb * vb * vb * vb).
(** mccc_coefs.h:80-82 *)
Definition coef_F (ma qa mb qb nb vb clog mu0 : R) : R := - (1 / mb + 1 / ma) * cab qa qb nb clog * mu0 / (ma * vb * vb).
(** mccc_coefs.h:103-107 *)
Definition coef_Dpara (ma qa va qb nb vb clog mu0 : R) : R :=
  if Rlt_dec 0 va then cab qa qb nb clog * mu0 / (2 * ma * ma * va) else cab qa qb nb clog * 4 / (6 * sqrt PI * ma * ma * vb).
(** mccc_coefs.h:126-128 *)
Definition coef_dDpara (ma qa va qb nb vb clog mu0 dmu0 : R) : R := cab qa qb nb clog * (dmu0 / vb - mu0 / va) / (2 * ma * ma * va).
(** mccc_coefs.h:150-154 *)
Definition coef_Dperp (ma qa va qb nb vb clog mu1 : R) : R :=
  if Rlt_dec 0 va then cab qa qb nb clog * mu1 / (2 * ma * ma * va) else cab qa qb nb clog * 4 / (6 * sqrt PI * ma * ma * vb).
(** mccc_coefs.h:167-168 *)
Definition coef_K (va Dpara dDpara Q : R) : R := Q + dDpara + 2 * Dpara / va.
(** mccc_coefs.h:180-181 *)
Definition coef_nu (va Dperp : R) : R := 2 * Dperp / (va * va).
(** mccc_coefs.h:195-197 *)
Definition coef_DX (xi Dpara Dperp gyrofreq : R) : R := (0.5 * (Dpara - Dperp) * (1 - xi * xi) + Dperp) / (gyrofreq * gyrofreq).
(** species of the plasma: mass, charge, density, temperature *)
Record psp := PS { s_m : R; s_q : R; s_n : R; s_T : R }.
(** mccc_coefs.h:228-256 *)
Definition debye (sp : list psp) : R := sqrt (CONST_E0 / fold_left (fun a s => a + s_n s * s_q s * s_q s / s_T s) sp 0).
Definition bcl (ma qa va : R) (s : psp) : R :=
  Rabs (qa * s_q s / (4 * PI * CONST_E0 * (ma * s_m s / (ma + s_m s)) * (va * va + 2 * s_T s / s_m s))).
Definition bqm (ma va : R) (s : psp) : R := Rabs (CONST_HBAR / (2 * (ma * s_m s / (ma + s_m s)) * sqrt (va * va + 2 * s_T s / s_m s))).
Definition clog (sp : list psp) (ma qa va : R) (s : psp) : R :=
  if Rlt_dec (bqm ma va s) (bcl ma qa va s) then ln (debye sp / bcl ma qa va s) else ln (debye sp / bqm ma va s).
(** mccc_coefs.h:275-294 *)
Definition mufun (x : R) : R * R * R :=
  if Req_EM_T x 0 then (0, 0, 4 / (3 * sqrt PI))
  else
    let expm2x := exp (- x * x) in
    let erfx := erf x in
    let mu0 := (erfx - 2 * x * expm2x / sqrt PI) / (x * x) in
    (mu0, erfx - 0.5 * mu0, 4 * expm2x / sqrt PI - 2 * mu0 / x).
Definition mu0 (x : R) : R := fst (fst (mufun x)).
Definition mu1 (x : R) : R := snd (fst (mufun x)).
Definition dmu0 (x : R) : R := snd (mufun x).
(** mccc_fo_euler.c:84-100, mccc_gc_euler.c:79-107: one species at relative speed [v] *)
Definition vth (s : psp) : R := sqrt (2 * s_T s / s_m s).
Section coefs.
Variable ma qa : R.
Variable cl : psp -> R.
Definition F_of (v : R) (s : psp) : R := coef_F ma qa (s_m s) (s_q s) (s_n s) (vth s) (cl s) (mu0 (v / vth s)).
Definition Q_of (v : R) (s : psp) : R := coef_Q ma qa (s_m s) (s_q s) (s_n s) (vth s) (cl s) (mu0 (v / vth s)).
Definition dQ_of (v : R) (s : psp) : R := coef_dQ ma qa (s_m s) (s_q s) (s_n s) (vth s) (cl s) (dmu0 (v / vth s)).
Definition Dpara_of (v : R) (s : psp) : R := coef_Dpara ma qa v (s_q s) (s_n s) (vth s) (cl s) (mu0 (v / vth s)).
Definition Dperp_of (v : R) (s : psp) : R := coef_Dperp ma qa v (s_q s) (s_n s) (vth s) (cl s) (mu1 (v / vth s)).
Definition dDpara_of (v : R) (s : psp) : R := coef_dDpara ma qa v (s_q s) (s_n s) (vth s) (cl s) (mu0 (v / vth s)) (dmu0 (v / vth s)).
Definition K_of (v : R) (s : psp) : R := coef_K v (Dpara_of v s) (dDpara_of v s) (Q_of v s).
Definition nu_of (v : R) (s : psp) : R := coef_nu v (Dperp_of v s).
Definition DX_of (v xi gyrofreq : R) (s : psp) : R := coef_DX xi (Dpara_of v s) (Dperp_of v s) gyrofreq.
End coefs.
(** accumulation over the species *)
Definition acc (f : psp -> R) (sp : list psp) : R := fold_left (fun a s => a + f s) sp 0.

Definition le0 (x : R) : bool := if Rle_dec 0 x then true else false.
Definition below_c (v : R) : bool := if Rlt_dec (Rabs v) CONST_C then true else false.
Definition moving (v : R) : bool := if Req_EM_T v 0 then false else true.

(** ** mccc_fo_euler.c *)
(** lines 103-123: the velocity step in the plasma frame *)
Definition fo_kick (F Dpara Dperp h : R) (vin rnd : vec) : vec :=
  let sdt := sqrt h in
  let dW := V (sdt * vx rnd) (sdt * vy rnd) (sdt * vz rnd) in
  let vhat := unit vin in
  let t1 := dot vhat dW in
  let k1 := F * h in
  let k2 := sqrt (2 * Dpara) * t1 in
  let k3 := sqrt (2 * Dperp) in
  V (vx vin + k1 * vx vhat + k2 * vx vhat + k3 * (vx dW - t1 * vx vhat))
    (vy vin + k1 * vy vhat + k2 * vy vhat + k3 * (vy dW - t1 * vy vhat))
    (vz vin + k1 * vz vhat + k2 * vz vhat + k3 * (vz dW - t1 * vz vhat)).
Section fo.
(** plasma_eval_flow and plasma_eval_densandtemp at (rho, r, phi, z, t) *)
Variable evalFlow : R -> R -> R -> R -> R -> Z * R.
Variable evalPlasma : R -> R -> R -> R -> R -> Z * list psp.
(** lines 46-68: velocity relative to the flow, Cartesian *)
Definition fo_relative (p : fom) (vflow : R) : vec :=
  let gamma := gamma_pnorm (fmass p) (sqrt (vx (fp p) * vx (fp p) + vy (fp p) * vy (fp p) + vz (fp p) * vz (fp p))) in
  let bnorm := sqrt (fB p 0%nat * fB p 0%nat + fB p 4%nat * fB p 4%nat + fB p 8%nat * fB p 8%nat) in
  let ur := vx (fp p) / (gamma * fmass p) - vflow * fB p 0%nat / bnorm in
  let up := vy (fp p) / (gamma * fmass p) - vflow * fB p 4%nat / bnorm in
  V (ur * cos (fphi p) - up * sin (fphi p)) (ur * sin (fphi p) + up * cos (fphi p)) (vz (fp p) / (gamma * fmass p) - vflow * fB p 8%nat / bnorm).
(** lines 125-136: back to the laboratory *)
Definition fo_lab (p : fom) (vflow : R) (vout : vec) : vec :=
  let bnorm := sqrt (fB p 0%nat * fB p 0%nat + fB p 4%nat * fB p 4%nat + fB p 8%nat * fB p 8%nat) in
  V (vx vout * cos (fphi p) + vy vout * sin (fphi p) + vflow * fB p 0%nat / bnorm)
    (- vx vout * sin (fphi p) + vy vout * cos (fphi p) + vflow * fB p 4%nat / bnorm) (vz vout + vflow * fB p 8%nat / bnorm).
Definition fo_set (p : fom) (q : vec) (e : Z) (r : bool) : fom :=
  Fom (fr p) (fphi p) (fz p) (ftime p) (fmass p) (fcharge p) q (fB p) (frho p) (ftheta p) e r.
(** lines 27-146 *)
Definition mccc_fo_euler (h : R) (rnd : vec) (p : fom) : option fom :=
  if frun p then
    let '(e, vflow) := evalFlow (frho p) (fr p) (fphi p) (fz p) (ftime p) in
    let '(e, sp) := if (e =? 0)%Z then evalPlasma (frho p) (fr p) (fphi p) (fz p) (ftime p) else (e, []) in
    if (e =? 0)%Z then
      let vin_xyz := fo_relative p vflow in
      let vin := norm vin_xyz in
      let cl := clog sp (fmass p) (fcharge p) vin in
      let F := acc (F_of (fmass p) (fcharge p) cl vin) sp in
      let Dpara := acc (Dpara_of (fmass p) (fcharge p) cl vin) sp in
      let Dperp := acc (Dperp_of (fmass p) (fcharge p) cl vin) sp in
      let v := fo_lab p vflow (fo_kick F Dpara Dperp h vin_xyz rnd) in
      let gamma := gamma_vnorm (norm v) in
      if (moving vin && le0 h && le0 Dpara && le0 Dperp && below_c (norm v))%bool then
        Some (fo_set p (V (vx v * gamma * fmass p) (vy v * gamma * fmass p) (vz v * gamma * fmass p)) (ferr p) (frun p))
      else None
    else Some (fo_set p (fp p) e false)
  else Some p.
End fo.

(** ** mccc_gc_euler.c and mccc_gc_milstein.c *)
Record switches := SW { include_energy : bool; include_pitch : bool; include_gcdiff : bool }.
(** mccc_gc_euler.c:118-127: the displacement *)
Definition gc_shift (DX : R) (B x dW : vec) : vec :=
  let bhat := unit B in
  let k1 := sqrt (2 * DX) in
  let k2 := dot bhat dW in
  V (vx x + k1 * (vx dW - k2 * vx bhat)) (vy x + k1 * (vy dW - k2 * vy bhat)) (vz x + k1 * (vz dW - k2 * vz bhat)).
(** mccc_gc_euler.c:128-129 *)
Definition euler_v (v K Dpara h dW : R) : R := v + K * h + sqrt (2 * Dpara) * dW.
Definition euler_xi (xi nu h dW : R) : R := xi - xi * nu * h + sqrt ((1 - xi * xi) * nu) * dW.
(** mccc_gc_milstein.c:145-148, [h] the product of the time step and the acceleration *)
Definition milstein_v (v K Dpara dDpara h dW : R) : R := v + K * h + sqrt (2 * Dpara) * dW + 0.5 * dDpara * (dW * dW - h).
Definition milstein_xi (xi nu h dW : R) : R := xi - xi * nu * h + sqrt ((1 - xi * xi) * nu) * dW - 0.5 * xi * nu * (dW * dW - h).
(** mccc_gc_euler.c:131-140 *)
Definition reflect_v (cutoff v : R) : R := if Rlt_dec v cutoff then 2 * cutoff - v else v.
Definition sgn (x : R) : R := (if Rlt_dec 0 x then 1 else 0) - (if Rlt_dec x 0 then 1 else 0).
Definition reflect_xi (x : R) : R := if Rlt_dec 1 (Rabs x) then sgn x * (2 - Rabs x) else x.
(** mccc_gc_milstein.c:161-183: error estimates of the drift and of the two diffusions *)
Definition mil_v0 (v K Dpara h : R) : R := v + Rabs K * h + sqrt (2 * Dpara * h) + DBL_EPSILON.
Definition kappa_k (tol v K dQ Dpara xi nu h : R) : R :=
  let verr := Rabs (K * dQ) / (2 * tol * mil_v0 v K Dpara h) in
  let xierr := Rabs (xi * nu * nu) / (2 * tol) in
  (if Rlt_dec xierr verr then verr else xierr) * h * h.
Definition kappa_d0 (tol v K Dpara dDpara h dW : R) : R := Rabs (dW * dW * dW * dDpara * dDpara / sqrt Dpara) / (6 * tol * mil_v0 v K Dpara h).
Definition kappa_d1 (tol xi nu h dW : R) : R := sqrt (1 - xi * xi) * nu * sqrt nu * Rabs (dW + sqrt (h / 3)) * h / (2 * tol).
(** mccc_gc_milstein.c:271-293 *)
Definition eopp (x : ext) : ext := match x with Fin r => Fin (- r) | PInf => MInf | MInf => PInf | NaN => NaN end.
Definition ge (a b : R) : bool := if Rle_dec b a then true else false.
Definition gt1 (a : R) : bool := if Rlt_dec 1 a then true else false.
Definition milstein_hout (hin kk kd0 kd1 : R) : ext :=
  let h :=
    if (ge kk kd0 && ge kk kd1)%bool then (if Req_EM_T kk 0 then PInf else Fin (0.8 * hin / sqrt kk))
    else if (ge kd0 kk && ge kd0 kd1)%bool then emul (0.9 * hin) (pow_neg kd0 (-2 / 3))
    else emul (0.9 * hin) (pow_neg kd1 (-2 / 3)) in
  if (gt1 kk || gt1 kd0 || gt1 kd1)%bool then eopp h
  else if egt h (1.5 * hin) then Fin (1.5 * hin) else h.
Section gc.
Variable evalFlow : R -> R -> R -> R -> R -> Z * R.
Variable evalPlasma : R -> R -> R -> R -> R -> Z * list psp.
Variable evalBdB : R -> R -> R -> R -> Z * (nat -> R).
Variable evalPsi : R -> R -> R -> R -> Z * R.
Variable evalRho : R -> Z * R.
Variable evalAxis : R -> Z * (R * R).
Definition gc_set (p : gcm) (y : nat -> R) (D : nat -> R) (rho theta : R) : gcm :=
  Gcm y (gtime p) (gmass p) (gcharge p) D rho theta (gerr p) (grun p).
Definition gc_flag (p : gcm) (e : Z) : gcm :=
  Gcm (gy p) (gtime p) (gmass p) (gcharge p) (gB p) (grho p) (gtheta p) (if (e =? 0)%Z then gerr p else e) (if (e =? 0)%Z then grun p else false).
(** mccc_gc_euler.c:60-64 *)
Definition gc_ppar_flow (p : gcm) (vflow : R) : R :=
  gy p 3%nat - gamma_ppar (gmass p) (gy p 4%nat) (gy p 3%nat) (norm (Bvec (gB p))) * vflow * gmass p.
Definition gc_pin (p : gcm) (vflow : R) : R := gc_p (gmass p) (gy p 4%nat) (gc_ppar_flow p vflow) (norm (Bvec (gB p))).
Definition gc_xiin (p : gcm) (vflow : R) : R := gc_xi (gmass p) (gy p 4%nat) (gc_ppar_flow p vflow) (norm (Bvec (gB p))).
(** mccc_gc_euler.c:155-233, mccc_gc_milstein.c:198-269: new fields, momentum and angles *)
Definition gc_arrive (p : gcm) (h vflow vout xiout : R) (x0 x : vec) : gcm :=
  let r := sqrt (vx x * vx x + vy x * vy x) in
  let phi := atan2 (vy x) (vx x) in
  let '(e1, D) := evalBdB r phi (vz x) (gtime p + h) in
  let '(e2, psi) := if (e1 =? 0)%Z then evalPsi r phi (vz x) (gtime p + h) else (e1, 0) in
  let '(e3, rho) := if (e2 =? 0)%Z then evalRho psi else (e2, 0) in
  if (e3 =? 0)%Z then
    let pout := pnorm_vnorm (gmass p) vout in
    let mu := gc_mu (gmass p) pout xiout (norm (Bvec D)) in
    let dppar := gamma_pnorm (gmass p) pout * gmass p * vflow in
    let '(e4, (ar, az)) := evalAxis (gy p 1%nat) in
    let theta := gtheta p + atan2 ((gy p 0%nat - ar) * (vz x - az) - (gy p 2%nat - az) * (r - ar))
                                  ((gy p 0%nat - ar) * (r - ar) + (gy p 2%nat - az) * (vz x - az)) in
    let phi' := gy p 1%nat + atan2 (vx x0 * vy x - vy x0 * vx x) (vx x0 * vx x + vy x0 * vy x) in
    gc_flag (gc_set p (fun j => match j with 0%nat => r | 1%nat => phi' | 2%nat => vz x | 3%nat => gc_ppar pout xiout + dppar | 4%nat => mu | _ => gy p j end) D rho theta) e4
  else gc_flag p e3.
(** mccc_gc_euler.c:29-236 *)
Definition mccc_gc_euler (sw : switches) (h : R) (rnd : nat -> R) (p : gcm) : option gcm :=
  if grun p then
    let '(e, vflow) := evalFlow (grho p) (gy p 0%nat) (gy p 1%nat) (gy p 2%nat) (gtime p) in
    let '(e, sp) := if (e =? 0)%Z then evalPlasma (grho p) (gy p 0%nat) (gy p 1%nat) (gy p 2%nat) (gtime p) else (e, []) in
    if (e =? 0)%Z then
      let m := gmass p in let q := gcharge p in
      let B := to_xyz (Bvec (gB p)) (gy p 1%nat) in
      let x0 := pos_xyz (gy p 0%nat) (gy p 1%nat) (gy p 2%nat) in
      let pin := gc_pin p vflow in
      let xiin := gc_xiin p vflow in
      let vin := vnorm_pnorm m pin in
      let cl := clog sp m q vin in
      let gyrofreq := gyrofreq_pnorm m q pin (norm (Bvec (gB p))) in
      let K := acc (K_of m q cl vin) sp in
      let Dpara := acc (Dpara_of m q cl vin) sp in
      let nu := acc (nu_of m q cl vin) sp in
      let DX := acc (DX_of m q cl vin xiin gyrofreq) sp in
      let sdt := sqrt h in
      let x := gc_shift DX B x0 (V (sdt * rnd 0%nat) (sdt * rnd 1%nat) (sdt * rnd 2%nat)) in
      let cutoff := MCCC_CUTOFF * sqrt (match sp with s :: _ => s_T s | [] => 0 end / m) in
      let vout := reflect_v cutoff (euler_v vin K Dpara h (sdt * rnd 3%nat)) in
      let xiout := reflect_xi (euler_xi xiin nu h (sdt * rnd 4%nat)) in
      let vout := if include_energy sw then vout else vin in
      let xiout := if include_pitch sw then xiout else xiin in
      let x := if include_gcdiff sw then x else x0 in
      if (moving vin && le0 h && le0 Dpara && le0 ((1 - xiin * xiin) * nu) && le0 DX && below_c vout)%bool then Some (gc_arrive p h vflow vout xiout x0 x)
      else None
    else Some (gc_flag p e)
  else Some p.
(** mccc_gc_milstein.c:34-304; [dW] and the code [ew] come from the Wiener process, [ha] is the
    product of the time step [hin] and the acceleration *)
Definition mccc_gc_milstein (sw : switches) (hin ha tol : R) (ew : Z) (dW : nat -> R) (p : gcm) : option (gcm * ext * R) :=
  if grun p then
    let '(e, vflow) := evalFlow (grho p) (gy p 0%nat) (gy p 1%nat) (gy p 2%nat) (gtime p) in
    let '(e, sp) := if (e =? 0)%Z then evalPlasma (grho p) (gy p 0%nat) (gy p 1%nat) (gy p 2%nat) (gtime p) else (e, []) in
    let e := if (e =? 0)%Z then ew else e in
    if (e =? 0)%Z then
      let m := gmass p in let q := gcharge p in
      let B := to_xyz (Bvec (gB p)) (gy p 1%nat) in
      let x0 := pos_xyz (gy p 0%nat) (gy p 1%nat) (gy p 2%nat) in
      let pin := gc_pin p vflow in
      let xiin := gc_xiin p vflow in
      let vin := vnorm_pnorm m pin in
      let cl := clog sp m q vin in
      let gyrofreq := gyrofreq_pnorm m q pin (norm (Bvec (gB p))) in
      let K := acc (K_of m q cl vin) sp in
      let dQ := acc (dQ_of m q cl vin) sp in
      let Dpara := acc (Dpara_of m q cl vin) sp in
      let dDpara := acc (dDpara_of m q cl vin) sp in
      let nu := acc (nu_of m q cl vin) sp in
      let DX := acc (DX_of m q cl vin xiin gyrofreq) sp in
      let x := gc_shift DX B x0 (V (dW 0%nat) (dW 1%nat) (dW 2%nat)) in
      let cutoff := MCCC_CUTOFF * sqrt (match sp with s :: _ => s_T s | [] => 0 end / m) in
      let vout := reflect_v cutoff (milstein_v vin K Dpara dDpara ha (dW 3%nat)) in
      let xiout := reflect_xi (milstein_xi xiin nu ha (dW 4%nat)) in
      let hout := milstein_hout hin (kappa_k tol vin K dQ Dpara xiin nu ha) (kappa_d0 tol vin K Dpara dDpara ha (dW 3%nat)) (kappa_d1 tol xiin nu ha (dW 4%nat)) in
      let vout := if include_energy sw then vout else vin in
      let xiout := if include_pitch sw then xiout else xiin in
      let x := if include_gcdiff sw then x else x0 in
      if (moving vin && le0 ha && le0 Dpara && moving Dpara && le0 ((1 - xiin * xiin) * nu) && le0 (1 - xiin * xiin) && le0 DX && below_c vout)%bool then
        Some (gc_arrive p ha vflow vout xiout x0 x, hout, nu)
      else None
    else Some (gc_flag p e, NaN, 0)
  else Some (p, NaN, 0).
End gc.
