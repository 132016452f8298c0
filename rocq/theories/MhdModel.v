(** Model of src/boozer.c, src/mhd/mhd_stat.c, src/mhd/mhd_nonstat.c and the dispatcher
    src/mhd.c.

    Exact arithmetic; CONST_2PI is 2 pi and fmod is the function of src/math.c:22-24.  The
    splines, the flux, the normalised radius, the axis and the point-in-polygon test are
    functions given from outside (they are modelled in other files); a spline returns an error
    flag and an array.  Arrays that are not written keep the values [junk] had; a division by
    the zero distance from the axis makes the evaluation None.  Printouts and allocation left
    out. *)
From Coq Require Import Reals List ZArith Bool.
From Verif Require Import Vec ErrorModel MathModel.
Import ListNotations.
Local Open Scope R_scope.

Notation arr := (nat -> R).
Definition is0 (x : R) : bool := if Req_EM_T x 0 then true else false.
Definition ltb (x y : R) : bool := if Rlt_dec x y then true else false.

(** boozer.c:46: padding of the geometric angle grid *)
Definition padding (nthetag : R) : R := 4 * (2 * PI) / (nthetag - 2 * 4 - 1).
(** boozer.c:39-72: error flags of the two spline setups *)
Definition boozer_init_err (e_nu e_theta : Z) : Z :=
  let err := 0%Z in
  let err := e_nu in
  let err := e_theta in err.

Section boozer.
Variable inpoly : R -> R -> bool.
Variable evalpsi : R -> R -> R -> R -> Z * arr.
Variable evalrho : R -> Z * arr.
Variable axis : R -> Z * arr.
Variables thspl nuspl : R -> R -> bool * arr.
Variables psimin psimax : R.

(** boozer.c:165-198 *)
Definition ptz_of (psi theta nu : arr) (r phi z r0 z0 : R) (asq : R) : arr :=
  let dthgeo_dr := - (z - z0) / asq in
  let dthgeo_dz := (r - r0) / asq in
  let t5 := theta 1%nat * psi 1%nat + theta 2%nat * dthgeo_dr in
  let t7 := theta 1%nat * psi 3%nat + theta 2%nat * dthgeo_dz in
  fun k => match k with
  | 0%nat => psi 0%nat
  | 1%nat => psi 1%nat
  | 2%nat => 0
  | 3%nat => psi 3%nat
  | 4%nat => theta 0%nat
  | 5%nat => t5
  | 6%nat => 0
  | 7%nat => t7
  | 8%nat => fmod (fmod (phi + nu 0%nat) (2 * PI) + 2 * PI) (2 * PI)
  | 9%nat => nu 1%nat * psi 1%nat + nu 2%nat * t5
  | 10%nat => 1
  | 11%nat => nu 1%nat * psi 3%nat + nu 2%nat * t7
  | _ => 0
  end.

(** boozer.c:124-209: error, isinside, coordinates *)
Definition boozer_eval (junk : arr) (r phi z : R) : option (Z * bool * arr) :=
  if inpoly r z then
    let '(err, psi) := evalpsi r phi z 0 in
    let err := if (err =? 0)%Z then fst (evalrho (psi 0%nat)) else err in
    let '(err, rz) := if (err =? 0)%Z then axis phi else (err, junk) in
    let r0 := rz 0%nat in
    let z0 := rz 1%nat in
    if ((err =? 0)%Z && ltb (psi 0%nat) psimax && ltb psimin (psi 0%nat))%bool then
      let thgeo := fmod (atan2 (z - z0) (r - r0) + 2 * PI) (2 * PI) in
      let '(e1, theta) := thspl (psi 0%nat) thgeo in
      let '(e2, nu) := nuspl (psi 0%nat) (theta 0%nat) in
      let asq := (r - r0) * (r - r0) + (z - z0) * (z - z0) in
      if is0 asq then None else
      let err := if (e1 || e2)%bool then error_raise ERR_INPUT_EVALUATION 205 EF_BOOZER else err in
      Some (err, true, ptz_of psi theta nu r phi z r0 z0 asq)
    else Some (err, false, junk)
  else Some (0%Z, false, junk).

(** one mode; E is the type of its eigenfunctions *)
Record mode (E : Type) := Mode { mn : Z; mm : Z; mamp : R; momega : R; mphase : R; malpha : E; mphi : E }.
Arguments Mode {E}. Arguments mn {E}. Arguments mm {E}. Arguments mamp {E}. Arguments momega {E}. Arguments mphase {E}. Arguments malpha {E}. Arguments mphi {E}.

(** mhd_stat.c:174-179, mhd_nonstat.c:179-182 *)
Definition mhdarg {E} (d : mode E) (ptz : arr) (t : R) : R :=
  IZR (mn d) * ptz 8%nat - IZR (mm d) * ptz 4%nat - momega d * t + mphase d.
(** mhd_stat.c:194-218: one gradient component, without the factor in front *)
Definition grad1 {E} (d : mode E) (a a' : R) (ptz : arr) (k : nat) (s c : R) : R :=
  a' * ptz (1 + k)%nat * c + a * IZR (mm d) * ptz (5 + k)%nat * s - a * IZR (mn d) * ptz (9 + k)%nat * s.

(** mhd_stat.c:166-218: what one mode adds to the ten outputs *)
Definition stat_terms {E} (d : mode E) (a p : arr) (rho1 : R) (ptz : arr) (r t : R) : arr :=
  let a' := a 1%nat * rho1 in
  let p' := p 1%nat * rho1 in
  let s := sin (mhdarg d ptz t) in
  let c := cos (mhdarg d ptz t) in
  fun k => match k with
  | 0%nat => a 0%nat * mamp d * c
  | 5%nat => p 0%nat * mamp d * c
  | 1%nat => a 0%nat * mamp d * momega d * s
  | 6%nat => p 0%nat * mamp d * momega d * s
  | 2%nat => mamp d * grad1 d (a 0%nat) a' ptz 0 s c
  | 7%nat => mamp d * grad1 d (p 0%nat) p' ptz 0 s c
  | 3%nat => 1 / r * mamp d * grad1 d (a 0%nat) a' ptz 1 s c
  | 8%nat => 1 / r * mamp d * grad1 d (p 0%nat) p' ptz 1 s c
  | 4%nat => mamp d * grad1 d (a 0%nat) a' ptz 2 s c
  | 9%nat => mamp d * grad1 d (p 0%nat) p' ptz 2 s c
  | _ => 0
  end.
(** mhd_nonstat.c:173-225: the same, with the change of the amplitude in the time derivatives *)
Definition nonstat_terms {E} (d : mode E) (a p : arr) (rho1 : R) (ptz : arr) (r t : R) : arr :=
  let c := cos (mhdarg d ptz t) in
  let s := sin (mhdarg d ptz t) in
  fun k => match k with
  | 1%nat => a 0%nat * mamp d * momega d * s + a 2%nat * mamp d * c
  | 6%nat => p 0%nat * mamp d * momega d * s + p 2%nat * mamp d * c
  | _ => stat_terms d a p rho1 ptz r t k
  end.

Definition MHD_INCLUDE_ALL : Z := (-1)%Z.

(** mhd_stat.c:158-219, mhd_nonstat.c:164-226: the loop over the modes; [f] evaluates the
    eigenfunctions of a mode and gives its terms *)
Fixpoint modes_loop {E} (f : mode E -> bool * arr) (include : Z) (i : Z) (ds : list (mode E)) (acc : bool * arr) : bool * arr :=
  match ds with
  | [] => acc
  | d :: ds =>
    let acc := if (negb (include =? MHD_INCLUDE_ALL)%Z && negb (include =? i)%Z)%bool then acc else
      (fst acc || fst (f d), fun k => snd acc k + snd (f d) k)%bool in
    modes_loop f include (i + 1) ds acc
  end.

(** mhd_stat.c:139-227: error and the ten outputs *)
Definition mhd_eval_gen {E} (f : arr -> arr -> R -> R -> mode E -> bool * arr) (junk jrho : arr) (ds : list (mode E))
    (r phi z t : R) (include : Z) : option (Z * arr) :=
  match boozer_eval junk r phi z with
  | None => None
  | Some (err, isinside, ptz) =>
    let '(err, rho) := if ((err =? 0)%Z && isinside)%bool then evalrho (ptz 0%nat) else (err, jrho) in
    let '(interperr, out) := modes_loop (f ptz rho r t) include 0 ds (false, fun _ => 0) in
    Some (err, if (negb isinside || interperr)%bool then fun _ => 0 else out)
  end.

Definition seig := R -> bool * arr.
Definition neig := R -> R -> bool * arr.
Definition stat_mode (ptz rho : arr) (r t : R) (d : mode seig) : bool * arr :=
  let '(e1, a) := malpha d (rho 0%nat) in
  let '(e2, p) := mphi d (rho 0%nat) in
  ((e1 || e2)%bool, stat_terms d a p (rho 1%nat) ptz r t).
Definition nonstat_mode (ptz rho : arr) (r t : R) (d : mode neig) : bool * arr :=
  let '(e1, a) := malpha d (rho 0%nat) t in
  let '(e2, p) := mphi d (rho 0%nat) t in
  ((e1 || e2)%bool, nonstat_terms d a p (rho 1%nat) ptz r t).
Definition mhd_stat_eval := mhd_eval_gen stat_mode.
Definition mhd_nonstat_eval := mhd_eval_gen nonstat_mode.

(** mhd.c:92-115 *)
Inductive mhd_data := MStat (ds : list (mode seig)) | MNonstat (ds : list (mode neig)) | MOther.
Definition mhd_eval (junk jrho : arr) (out0 : arr) (m : mhd_data) (r phi z t : R) (include : Z) : option (Z * arr) :=
  match m with
  | MStat ds => mhd_stat_eval junk jrho ds r phi z t include
  | MNonstat ds => mhd_nonstat_eval junk jrho ds r phi z t include
  | MOther => Some (error_raise ERR_UNKNOWN_INPUT 110 EF_MHD, out0)
  end.
(** mhd.c:179-191 *)
Definition mhd_get_n_modes (m : mhd_data) : Z :=
  match m with MStat ds => Z.of_nat (length ds) | MNonstat ds => Z.of_nat (length ds) | MOther => 0%Z end.

(** mhd_stat.c:283-309, mhd_nonstat.c:293-319 *)
Definition pert_of (m B_dB : arr) (r : R) (pertonly : bool) : arr :=
  let B := V (B_dB 0%nat) (B_dB 4%nat) (B_dB 8%nat) in
  let curlB := V (B_dB 10%nat / r - B_dB 7%nat) (B_dB 3%nat - B_dB 9%nat) ((vy B - B_dB 2%nat) / r + B_dB 5%nat) in
  let ga := V (m 2%nat) (m 3%nat) (m 4%nat) in
  let gxB := cross ga B in
  fun k => match k with
  | 0%nat => m 0%nat * vx curlB + vx gxB + (if pertonly then 0 else vx B)
  | 1%nat => m 0%nat * vy curlB + vy gxB + (if pertonly then 0 else vy B)
  | 2%nat => m 0%nat * vz curlB + vz gxB + (if pertonly then 0 else vz B)
  | 3%nat => - m 7%nat - vx B * m 1%nat
  | 4%nat => - m 8%nat - vy B * m 1%nat
  | 5%nat => - m 9%nat - vz B * m 1%nat
  | 6%nat => m 5%nat
  | _ => 0
  end.

Variable evalBdB : R -> R -> R -> R -> Z * arr.
(** mhd_stat.c:260-313 after mhd.c:147-174; without perturbation data the error of line 169 *)
Definition mhd_perturbations (junk jrho out0 : arr) (m : mhd_data) (r phi z t : R) (pertonly : bool) (include : Z) : option (Z * arr) :=
  match m with
  | MOther => Some (error_raise ERR_UNKNOWN_INPUT 169 EF_MHD, out0)
  | _ =>
    match mhd_eval junk jrho out0 m r phi z t include with
    | None => None
    | Some (err, v) =>
      let '(err, b) := if (err =? 0)%Z then evalBdB r phi z t else (err, junk) in
      Some (err, if (err =? 0)%Z then pert_of v b r pertonly else out0)
    end
  end.
End boozer.
Arguments Mode {E}. Arguments mn {E}. Arguments mm {E}. Arguments mamp {E}. Arguments momega {E}. Arguments mphase {E}. Arguments malpha {E}. Arguments mphi {E}.
