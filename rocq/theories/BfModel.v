(** Model of the magnetic field inputs src/Bfield/B_2DS.c, B_3DS.c, B_STS.c, B_TC.c, of the
    dispatcher src/B_field.c and of the electric field inputs src/Efield/E_1DS.c, E_TC.c with
    the dispatcher src/E_field.c.

    Exact arithmetic; printouts and offloading left out.  B_STS_CLAMP_RHO_NONNEGATIVE is not
    defined by the build.  A division by zero, which the code carries out without noticing,
    is the separate outcome [FDiv0]: the error code is 0 and the output holds an infinity or
    a NaN. *)
From Coq Require Import Reals List ZArith Bool.
From Verif Require Import Vec ErrorModel MathModel AxisModel LintModel SplineModel Spl2Model Spl3Model GsModel.
Local Open Scope R_scope.

Inductive fres (A : Type) := FVal (a : A) | FErr (e : Z) | FOob | FDiv0.
Arguments FVal {A}. Arguments FErr {A}. Arguments FOob {A}. Arguments FDiv0 {A}.

(** one interpolation, error [e] if it fails *)
Definition one {A B} (e : Z) (a : res A) (k : A -> fres B) : fres B :=
  match a with Val a => k a | Err => FErr e | Oob => FOob end.
(** three interpolations whose error flags are added up *)
Definition three {A B} (e : Z) (a b c : res A) (k : A -> A -> A -> fres B) : fres B :=
  match a, b, c with
  | Val a, Val b, Val c => k a b c
  | Oob, _, _ | _, Oob, _ | _, _, Oob => FOob
  | _, _, _ => FErr e
  end.
(** x / y as computed by the code, with the division by zero made visible *)
Definition divide {B} (y : R) (k : fres B) : fres B := if Req_EM_T y 0 then FDiv0 else k.

Definition no_field (a b c : R) : bool := if Req_EM_T (a * a + b * b + c * c) 0 then true else false.

(** ** B_2DS.c *)
Record b2ds := B2 { b2psi : interp2D; b2r : interp2D; b2phi : interp2D; b2z : interp2D; b2psi0 : R; b2psi1 : R; b2axr : R; b2axz : R }.
(** B_2DS.c:158-168 *)
Definition B_2DS_eval_psi (b : b2ds) (r z : R) : fres R :=
  one (error_raise ERR_INPUT_EVALUATION 165 EF_B_2DS) (interp2Dcomp_eval_f (b2psi b) r z) FVal.
(** B_2DS.c:181-199 *)
Definition B_2DS_eval_psi_dpsi (b : b2ds) (r z : R) : fres (R * vec) :=
  one (error_raise ERR_INPUT_EVALUATION 195 EF_B_2DS) (interp2Dcomp_eval_df (b2psi b) r z)
    (fun '(p, pr, pz, _, _, _) => FVal (p, V pr 0 pz)).
(** the normalisation common to B_2DS.c:224-236, B_3DS.c:290-303 (where the absolute value
    is that of a number already known not to be negative), B_STS.c:296-321 *)
Definition to_rho (psi0 psi1 : R) (bad : R -> bool) (e : Z) (psi : R) (d : vec) : fres (R * vec) :=
  let delta := psi1 - psi0 in
  divide delta (
    let u := (psi - psi0) / delta in
    if bad u then FErr e
    else let rho := sqrt u in
         divide rho (FVal (rho, V (vx d / (2 * delta * rho)) (vy d / (2 * delta * rho)) (vz d / (2 * delta * rho))))).
Definition negative (u : R) : bool := if Rlt_dec u 0 then true else false.
Definition nonpositive (u : R) : bool := if Rle_dec u 0 then true else false.
(** B_2DS.c:212-237 *)
Definition B_2DS_eval_rho_drho (b : b2ds) (r z : R) : fres (R * vec) :=
  one (error_raise ERR_INPUT_EVALUATION 221 EF_B_2DS) (interp2Dcomp_eval_df (b2psi b) r z)
    (fun '(p, pr, pz, _, _, _) => to_rho (b2psi0 b) (b2psi1 b) negative (error_raise ERR_INPUT_UNPHYSICAL 227 EF_B_2DS) p (V pr 0 pz)).
(** B_2DS.c:250-283 *)
Definition B_2DS_eval_B (b : b2ds) (r z : R) : fres vec :=
  three (error_raise ERR_INPUT_EVALUATION 260 EF_B_2DS)
    (interp2Dcomp_eval_f (b2r b) r z) (interp2Dcomp_eval_f (b2phi b) r z) (interp2Dcomp_eval_f (b2z b) r z)
    (fun br bp bz =>
       one (error_raise ERR_INPUT_EVALUATION 271 EF_B_2DS) (interp2Dcomp_eval_df (b2psi b) r z)
         (fun '(_, pr, pz, _, _, _) => divide r (
            let B0 := br - pz / r in
            let B2 := bz + pr / r in
            if no_field B0 bp B2 then FErr (error_raise ERR_INPUT_UNPHYSICAL 279 EF_B_2DS)
            else FVal (V B0 bp B2)))).
(** B_2DS.c:296-355 *)
Definition B_2DS_eval_B_dB (b : b2ds) (r z : R) : fres (nat -> R) :=
  three (error_raise ERR_INPUT_EVALUATION 325 EF_B_2DS)
    (interp2Dcomp_eval_df (b2r b) r z) (interp2Dcomp_eval_df (b2phi b) r z) (interp2Dcomp_eval_df (b2z b) r z)
    (fun '(r0, r1, r2, _, _, _) '(p0, p1, p2, _, _, _) '(z0, z1, z2, _, _, _) =>
       one (error_raise ERR_INPUT_EVALUATION 343 EF_B_2DS) (interp2Dcomp_eval_df (b2psi b) r z)
         (fun '(_, pr, pz, prr, pzz, prz) => divide r (
            let B0 := r0 - pz / r in
            let B8 := z0 + pr / r in
            if no_field B0 p0 B8 then FErr (error_raise ERR_INPUT_UNPHYSICAL 351 EF_B_2DS)
            else FVal (fun k => match k with
              | 0%nat => B0 | 1%nat => r1 + pz / (r * r) - prz / r | 2%nat => 0 | 3%nat => r2 - pzz / r
              | 4%nat => p0 | 5%nat => p1 | 6%nat => 0 | 7%nat => p2
              | 8%nat => B8 | 9%nat => z1 - pr / (r * r) + prr / r | 10%nat => 0 | 11%nat => z2 + prz / r
              | _ => 0 end)))).
Inductive init (A : Type) := IOk (a : A) | IFail (e : Z) | IBad.
Arguments IOk {A}. Arguments IFail {A}. Arguments IBad {A}.
(** B_2DS.c:55-118; the flux on the axis is evaluated too, but its error is overwritten *)
Definition B_2DS_init (junk : nat -> R) (n_r : nat) (r_min r_max : R) (n_z : nat) (z_min z_max : R)
    (axis_r axis_z psi0 psi1 : R) (psi B_r B_phi B_z : nat -> R) : init b2ds :=
  let setup f := interp2Dcomp_setup junk f n_r n_z NATURALBC NATURALBC r_min r_max z_min z_max in
  match setup psi, setup B_r, setup B_phi, setup B_z with
  | Val p, Val br, Val bp, Val bz =>
      let d := B2 p br bp bz psi0 psi1 axis_r axis_z in
      match B_2DS_eval_B d axis_r axis_z with
      | FErr e => IFail e
      | FOob => IBad
      | FVal _ | FDiv0 => IOk d
      end
  | Oob, _, _, _ | _, Oob, _, _ | _, _, Oob, _ | _, _, _, Oob => IBad
  | _, _, _, _ => IFail 1
  end.

(** ** B_3DS.c *)
Record b3ds := B3 { b3psi : interp2D; b3r : interp3D; b3phi : interp3D; b3z : interp3D; b3psi0 : R; b3psi1 : R; b3axr : R; b3axz : R }.
(** B_3DS.c:224-235 *)
Definition B_3DS_eval_psi (b : b3ds) (r z : R) : fres R :=
  one (error_raise ERR_INPUT_EVALUATION 231 EF_B_3DS) (interp2Dcomp_eval_f (b3psi b) r z) FVal.
(** B_3DS.c:248-266 *)
Definition B_3DS_eval_psi_dpsi (b : b3ds) (r z : R) : fres (R * vec) :=
  one (error_raise ERR_INPUT_EVALUATION 262 EF_B_3DS) (interp2Dcomp_eval_df (b3psi b) r z)
    (fun '(p, pr, pz, _, _, _) => FVal (p, V pr 0 pz)).
(** B_3DS.c:279-304 *)
Definition B_3DS_eval_rho_drho (b : b3ds) (r z : R) : fres (R * vec) :=
  one (error_raise ERR_INPUT_EVALUATION 287 EF_B_3DS) (interp2Dcomp_eval_df (b3psi b) r z)
    (fun '(p, pr, pz, _, _, _) => to_rho (b3psi0 b) (b3psi1 b) negative (error_raise ERR_INPUT_UNPHYSICAL 293 EF_B_3DS) p (V pr 0 pz)).
(** B_3DS.c:317-351 *)
Definition B_3DS_eval_B (b : b3ds) (r phi z : R) : fres vec :=
  three (error_raise ERR_INPUT_EVALUATION 327 EF_B_3DS)
    (interp3Dcomp_eval_f (b3r b) r phi z) (interp3Dcomp_eval_f (b3phi b) r phi z) (interp3Dcomp_eval_f (b3z b) r phi z)
    (fun br bp bz =>
       one (error_raise ERR_INPUT_EVALUATION 339 EF_B_3DS) (interp2Dcomp_eval_df (b3psi b) r z)
         (fun '(_, pr, pz, _, _, _) => divide r (
            let B0 := br - pz / r in
            let B2 := bz + pr / r in
            if no_field B0 bp B2 then FErr (error_raise ERR_INPUT_UNPHYSICAL 347 EF_B_3DS)
            else FVal (V B0 bp B2)))).
(** B_3DS.c:364-418 *)
Definition B_3DS_eval_B_dB (b : b3ds) (r phi z : R) : fres (nat -> R) :=
  three (error_raise ERR_INPUT_EVALUATION 390 EF_B_3DS)
    (interp3Dcomp_eval_df (b3r b) r phi z) (interp3Dcomp_eval_df (b3phi b) r phi z) (interp3Dcomp_eval_df (b3z b) r phi z)
    (fun '(r0, r1, r2, r3, _, _, _, _, _, _) '(p0, p1, p2, p3, _, _, _, _, _, _) '(z0, z1, z2, z3, _, _, _, _, _, _) =>
       one (error_raise ERR_INPUT_EVALUATION 406 EF_B_3DS) (interp2Dcomp_eval_df (b3psi b) r z)
         (fun '(_, pr, pz, prr, pzz, prz) => divide r (
            let B0 := r0 - pz / r in
            let B8 := z0 + pr / r in
            if no_field B0 p0 B8 then FErr (error_raise ERR_INPUT_UNPHYSICAL 414 EF_B_3DS)
            else FVal (fun k => match k with
              | 0%nat => B0 | 1%nat => r1 + pz / (r * r) - prz / r | 2%nat => r2 | 3%nat => r3 - pzz / r
              | 4%nat => p0 | 5%nat => p1 | 6%nat => p2 | 7%nat => p3
              | 8%nat => B8 | 9%nat => z1 - pr / (r * r) + prr / r | 10%nat => z2 | 11%nat => z3 + prz / r
              | _ => 0 end)))).
(** B_3DS.c:106-184 *)
Definition B_3DS_init (junk : nat -> R) (p_n_r : nat) (p_r_min p_r_max : R) (p_n_z : nat) (p_z_min p_z_max : R)
    (b_n_r : nat) (b_r_min b_r_max : R) (b_n_phi : nat) (b_phi_min b_phi_max : R) (b_n_z : nat) (b_z_min b_z_max : R)
    (axis_r axis_z psi0 psi1 : R) (psi B_r B_phi B_z : nat -> R) : init b3ds :=
  let setup f := interp3Dcomp_setup junk f b_n_r b_n_phi b_n_z NATURALBC PERIODICBC NATURALBC b_r_min b_r_max b_phi_min b_phi_max b_z_min b_z_max in
  match interp2Dcomp_setup junk psi p_n_r p_n_z NATURALBC NATURALBC p_r_min p_r_max p_z_min p_z_max, setup B_r, setup B_phi, setup B_z with
  | Val p, Val br, Val bp, Val bz =>
      let d := B3 p br bp bz psi0 psi1 axis_r axis_z in
      match B_3DS_eval_B d axis_r 0 axis_z with
      | FErr e => IFail e
      | FOob => IBad
      | FVal _ | FDiv0 => IOk d
      end
  | Oob, _, _, _ | _, Oob, _, _ | _, _, Oob, _ | _, _, _, Oob => IBad
  | _, _, _, _ => IFail 1
  end.

(** ** B_STS.c *)
Record bsts := BS { bspsi : interp3D; bsr : interp3D; bsphi : interp3D; bsz : interp3D; bspsi0 : R; bspsi1 : R; bsaxr : linint1D; bsaxz : linint1D }.
(** B_STS.c:212-231 *)
Definition B_STS_eval_psi (b : bsts) (r phi z : R) : fres R :=
  one (error_raise ERR_INPUT_EVALUATION 227 EF_B_STS) (interp3Dcomp_eval_f (bspsi b) r phi z) FVal.
(** B_STS.c:244-273 *)
Definition B_STS_eval_psi_dpsi (b : bsts) (r phi z : R) : fres (R * vec) :=
  one (error_raise ERR_INPUT_EVALUATION 269 EF_B_STS) (interp3Dcomp_eval_df (bspsi b) r phi z)
    (fun '(p, pr, pp, pz, _, _, _, _, _, _) => FVal (p, V pr pp pz)).
(** B_STS.c:286-322 *)
Definition B_STS_eval_rho_drho (b : bsts) (r phi z : R) : fres (R * vec) :=
  match B_STS_eval_psi_dpsi b r phi z with
  | FErr _ => FErr (error_raise ERR_INPUT_UNPHYSICAL 293 EF_B_STS)
  | FVal (p, d) => to_rho (bspsi0 b) (bspsi1 b) nonpositive (error_raise ERR_INPUT_UNPHYSICAL 310 EF_B_STS) p d
  | FOob => FOob
  | FDiv0 => FDiv0
  end.
(** B_STS.c:335-357 *)
Definition B_STS_eval_B (b : bsts) (r phi z : R) : fres vec :=
  three (error_raise ERR_INPUT_EVALUATION 345 EF_B_STS)
    (interp3Dcomp_eval_f (bsr b) r phi z) (interp3Dcomp_eval_f (bsphi b) r phi z) (interp3Dcomp_eval_f (bsz b) r phi z)
    (fun br bp bz => if no_field br bp bz then FErr (error_raise ERR_INPUT_UNPHYSICAL 352 EF_B_STS) else FVal (V br bp bz)).
(** B_STS.c:370-410 *)
Definition B_STS_eval_B_dB (b : bsts) (r phi z : R) : fres (nat -> R) :=
  three (error_raise ERR_INPUT_EVALUATION 399 EF_B_STS)
    (interp3Dcomp_eval_df (bsr b) r phi z) (interp3Dcomp_eval_df (bsphi b) r phi z) (interp3Dcomp_eval_df (bsz b) r phi z)
    (fun '(r0, r1, r2, r3, _, _, _, _, _, _) '(p0, p1, p2, p3, _, _, _, _, _, _) '(z0, z1, z2, z3, _, _, _, _, _, _) =>
       if no_field r0 p0 z0 then FErr (error_raise ERR_INPUT_UNPHYSICAL 406 EF_B_STS)
       else FVal (fun k => match k with
              | 0%nat => r0 | 1%nat => r1 | 2%nat => r2 | 3%nat => r3
              | 4%nat => p0 | 5%nat => p1 | 6%nat => p2 | 7%nat => p3
              | 8%nat => z0 | 9%nat => z1 | 10%nat => z2 | 11%nat => z3
              | _ => 0 end)).
(** B_STS.c:421-431 *)
Definition B_STS_get_axis_rz (b : bsts) (phi : R) : fres (R * R) :=
  match linint1D_eval_f (bsaxr b) phi, linint1D_eval_f (bsaxz b) phi with
  | Val r, Val z => FVal (r, z)
  | Oob, _ | _, Oob => FOob
  | _, _ => FErr (error_raise ERR_INPUT_EVALUATION 428 EF_B_STS)
  end.
(** B_STS.c:81-170; only the flux set-up is checked, and the errors of the three
    evaluations are added up.  An unchecked failure of a field set-up leaves a spline
    without coefficients behind ([IBad]). *)
Definition code {A} (x : fres A) : Z := match x with FErr e => e | _ => 0 end.
Definition B_STS_init (junk : nat -> R) (p_n_r : nat) (p_r_min p_r_max : R) (p_n_phi : nat) (p_phi_min p_phi_max : R) (p_n_z : nat) (p_z_min p_z_max : R)
    (b_n_r : nat) (b_r_min b_r_max : R) (b_n_phi : nat) (b_phi_min b_phi_max : R) (b_n_z : nat) (b_z_min b_z_max : R)
    (naxis : Z) (axis_min axis_max : R) (axis_r axis_z : arr) (psi0 psi1 : R) (psi B_r B_phi B_z : nat -> R) : init bsts :=
  let setup f := interp3Dcomp_setup junk f b_n_r b_n_phi b_n_z NATURALBC PERIODICBC NATURALBC b_r_min b_r_max b_phi_min b_phi_max b_z_min b_z_max in
  match interp3Dcomp_setup junk psi p_n_r p_n_phi p_n_z NATURALBC PERIODICBC NATURALBC p_r_min p_r_max p_phi_min p_phi_max p_z_min p_z_max with
  | Err => IFail 1
  | Oob => IBad
  | Val p =>
    match setup B_r, setup B_phi, setup B_z with
    | Val br, Val bp, Val bz =>
      let d := BS p br bp bz psi0 psi1 (linint1D_init axis_r naxis PERIODICBC axis_min axis_max) (linint1D_init axis_z naxis PERIODICBC axis_min axis_max) in
      match B_STS_get_axis_rz d 0 with
      | FVal (ar, az) =>
          match B_STS_eval_psi d ar 0 az, B_STS_eval_B d ar 0 az with
          | FOob, _ | _, FOob => IBad
          | a, b => let e := (code a + code b)%Z in if (e =? 0)%Z then IOk d else IFail e
          end
      | _ => IBad
      end
    | _, _, _ => IBad
    end
  end.

(** ** B_TC.c; [tcd] is the row-major Jacobian *)
Record btc := BT { tcaxr : R; tcaxz : R; tcpsi : R; tcrho : R; tcB : vec; tcd : nat -> R }.
Definition tc_xyz (b : btc) (r phi z : R) : vec :=
  let '(x, y, z) := pos_rpz2xyz (r, phi, z) in
  V (vx (tcB b) + tcd b 0%nat * x + tcd b 1%nat * y + tcd b 2%nat * z)
    (vy (tcB b) + tcd b 3%nat * x + tcd b 4%nat * y + tcd b 5%nat * z)
    (vz (tcB b) + tcd b 6%nat * x + tcd b 7%nat * y + tcd b 8%nat * z).
Definition tuple (v : vec) : R * R * R := (vx v, vy v, vz v).
Definition untuple (t : R * R * R) : vec := let '(a, b, c) := t in V a b c.
(** B_TC.c:168-187 *)
Definition B_TC_eval_B (b : btc) (r phi z : R) : vec := untuple (vec_xyz2rpz (tuple (tc_xyz b r phi z)) phi).
(** B_TC.c:200-229: entries 0, 4 and 8 set in 219-221 are overwritten by 226 *)
Definition B_TC_eval_B_dB (b : btc) (r phi z : R) : nat -> R :=
  jac_xyz2rpz (fun k => match k with
    | 0%nat => vx (tcB b) | 1%nat => tcd b 0%nat | 2%nat => tcd b 1%nat | 3%nat => tcd b 2%nat
    | 4%nat => vy (tcB b) | 5%nat => tcd b 3%nat | 6%nat => tcd b 4%nat | 7%nat => tcd b 5%nat
    | 8%nat => vz (tcB b) | 9%nat => tcd b 6%nat | 10%nat => tcd b 7%nat | 11%nat => tcd b 8%nat
    | _ => 0 end) r phi.

(** ** B_field.c: the output is the error code with the returned numbers *)
Inductive bfield := BF_GS (g : gs) | BF_2DS (b : b2ds) | BF_3DS (b : b3ds) | BF_STS (b : bsts) | BF_TC (b : btc) | BF_unknown.
Inductive out (A : Type) := Out (e : Z) (v : A) | OOob | ODiv0.
Arguments Out {A}. Arguments OOob {A}. Arguments ODiv0 {A}.
Definition wrapup {A} (def : A) (x : fres A) : out A :=
  match x with FVal v => Out 0 v | FErr e => Out e def | FOob => OOob | FDiv0 => ODiv0 end.
Definition unknown {A} (line : Z) : fres A := FErr (error_raise ERR_UNKNOWN_INPUT line EF_B_FIELD).
(** B_field.c:102-141 *)
Definition B_field_eval_psi (B : bfield) (r phi z : R) : out R :=
  wrapup 1 match B with
  | BF_GS g => FVal (B_GS_eval_psi g r z) | BF_2DS b => B_2DS_eval_psi b r z | BF_3DS b => B_3DS_eval_psi b r z
  | BF_STS b => B_STS_eval_psi b r phi z | BF_TC b => FVal (tcpsi b) | BF_unknown => unknown 129 end.
(** B_field.c:166-206; TC: B_TC.c:125-133 *)
Definition B_field_eval_psi_dpsi (B : bfield) (r phi z : R) : out (R * vec) :=
  wrapup (1, vzero) match B with
  | BF_GS g => FVal (B_GS_eval_psi_dpsi g r z) | BF_2DS b => B_2DS_eval_psi_dpsi b r z | BF_3DS b => B_3DS_eval_psi_dpsi b r z
  | BF_STS b => B_STS_eval_psi_dpsi b r phi z | BF_TC b => FVal (tcpsi b, vzero) | BF_unknown => unknown 193 end.
(** B_field.c:228-282: for an unknown type the error of line 261 is replaced by the one of
    line 267 when psi is negative *)
Definition psi_limits (B : bfield) : R * R :=
  match B with
  | BF_GS g => (gpsi0 g, gpsi1 g) | BF_2DS b => (b2psi0 b, b2psi1 b) | BF_3DS b => (b3psi0 b, b3psi1 b)
  | BF_STS b => (bspsi0 b, bspsi1 b)
  | BF_TC b => (tcpsi b - tcrho b * tcrho b, tcpsi b - tcrho b * tcrho b + 1)
  | BF_unknown => (0, 1) end.
Definition B_field_eval_rho (B : bfield) (psi : R) : out (R * R) :=
  let err := match B with BF_unknown => error_raise ERR_UNKNOWN_INPUT 261 EF_B_FIELD | _ => 0%Z end in
  let '(psi0, psi1) := psi_limits B in
  let delta := psi1 - psi0 in
  wrapup (1, 0) (divide delta (
    let u := (psi - psi0) / delta in
    if negative u then FErr (error_raise ERR_INPUT_UNPHYSICAL 267 EF_B_FIELD)
    else if (err =? 0)%Z then divide (sqrt u) (FVal (sqrt u, 1 / (2 * delta * sqrt u)))
    else FErr err)).
(** B_field.c:312-352; TC: B_TC.c:146-155 *)
Definition B_field_eval_rho_drho (B : bfield) (r phi z : R) : out (R * vec) :=
  wrapup (1, vzero) match B with
  | BF_GS g => let '(p, d) := B_GS_eval_psi_dpsi g r z in to_rho (gpsi0 g) (gpsi1 g) negative (error_raise ERR_INPUT_UNPHYSICAL 305 EF_B_GS) p d
  | BF_2DS b => B_2DS_eval_rho_drho b r z | BF_3DS b => B_3DS_eval_rho_drho b r z
  | BF_STS b => B_STS_eval_rho_drho b r phi z | BF_TC b => FVal (tcrho b, vzero) | BF_unknown => unknown 339 end.
(** B_field.c:374-414 *)
Definition B_field_eval_B (B : bfield) (r phi z : R) : out vec :=
  wrapup (V 1 0 0) match B with
  | BF_GS g => FVal (B_GS_eval_B g r phi z) | BF_2DS b => B_2DS_eval_B b r z | BF_3DS b => B_3DS_eval_B b r phi z
  | BF_STS b => B_STS_eval_B b r phi z | BF_TC b => FVal (B_TC_eval_B b r phi z) | BF_unknown => unknown 401 end.
(** B_field.c:449-489; the time derivatives (entries 12 to 14) are never set *)
Definition B_field_eval_B_dB (B : bfield) (r phi z : R) : out (nat -> R) :=
  wrapup (fun k => match k with 0%nat => 1 | _ => 0 end) match B with
  | BF_GS g => FVal (B_GS_eval_B_dB g r phi z) | BF_2DS b => B_2DS_eval_B_dB b r z | BF_3DS b => B_3DS_eval_B_dB b r phi z
  | BF_STS b => B_STS_eval_B_dB b r phi z | BF_TC b => FVal (B_TC_eval_B_dB b r phi z) | BF_unknown => unknown 476 end.
(** B_field.c:501-540 *)
Definition B_field_get_axis_rz (B : bfield) (phi : R) : out (R * R) :=
  wrapup (1, 0) match B with
  | BF_GS g => FVal (B_GS_get_axis_rz g) | BF_2DS b => FVal (b2axr b, b2axz b) | BF_3DS b => FVal (b3axr b, b3axz b)
  | BF_STS b => B_STS_get_axis_rz b phi | BF_TC b => FVal (tcaxr b, tcaxz b) | BF_unknown => unknown 527 end.

(** ** E_1DS.c, E_TC.c and E_field.c *)
Inductive efield := EF_TC (e : vec) | EF_1DS (dV : interp1D) | EF_unknown.
(** E_1DS.c:29-53: the scaled copy is made and thrown away *)
Definition E_1DS_init (junk : nat -> R) (nrho : nat) (rhomin rhomax reff : R) (dvdrho : nat -> R) : res interp1D :=
  let temp := fun i => reff * dvdrho i in
  let _ := temp in
  interp1Dcomp_setup junk dvdrho nrho NATURALBC rhomin rhomax.
(** E_1DS.c:89-119 *)
Definition E_1DS_eval_E (dV : interp1D) (B : bfield) (r phi z : R) : fres vec :=
  match B_field_eval_rho_drho B r phi z with
  | OOob => FOob
  | ODiv0 => FDiv0
  | Out e (rho, d) =>
    if negb (e =? 0)%Z then FErr (error_raise ERR_INPUT_EVALUATION 96 EF_E_1DS)
    else divide r (
      let d := V (vx d) (vy d / r) (vz d) in
      if (if Rlt_dec rho (amin (i1x dV)) then true else if Rlt_dec (amax (i1x dV)) rho then true else false) then FVal vzero
      else one (error_raise ERR_INPUT_EVALUATION 115 EF_E_1DS) (interp1Dcomp_eval_f dV rho)
             (fun v => FVal (V (- v * vx d) (- v * vy d) (- v * vz d))))
  end.
(** E_field.c:82-103, E_TC.c:70-75; no value is written for an unknown type or an error,
    unlike in B_field.c *)
Definition E_field_eval_E (E : efield) (B : bfield) (r phi z : R) : fres vec :=
  match E with
  | EF_1DS d => E_1DS_eval_E d B r phi z
  | EF_TC e => FVal (untuple (vec_xyz2rpz (tuple e) phi))
  | EF_unknown => FErr (error_raise ERR_UNKNOWN_INPUT 98 EF_E_FIELD)
  end.
