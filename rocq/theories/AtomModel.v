(** Model of the atomic reactions: src/simulate/atomic.c, the atomic data src/asigma.c and
    src/asigma/asigma_loc.c, and the beam-stopping fit src/suzuki.c.

    Exact arithmetic; allocation, printouts and offloading left out.  The plasma and neutral
    evaluations feeding [atomic_fo] are arguments.  A read outside an array or of a spline
    that was never set up is the outcome [None] or [SzOob]. *)
From Coq Require Import Reals List ZArith Bool.
From Verif Require Import Vec ErrorModel AxisModel SplineModel Spl2Model Spl3Model PhysModel.
Import ListNotations.
Local Open Scope R_scope.

(** consts.h:35 *)
Definition CONST_E : R := 1.602176565e-19.

(** ** suzuki.c *)
(** suzuki.c:31-50 and 74-121 *)
Definition A_highE : list (list R) :=
  (12.7 :: 1.25 :: 0.452 :: 0.0105 :: 0.547 :: (-0.102) :: 0.360 :: (-0.0298) :: (-0.0959) :: 4.21e-3 :: nil) ::
  (14.1 :: 1.11 :: 0.408 :: 0.0105 :: 0.547 :: (-0.0403) :: 0.345 :: (-0.0288) :: (-0.0971) :: 4.74e-3 :: nil) ::
  (12.7 :: 1.26 :: 0.449 :: 0.0105 :: 0.547 :: (-0.00577) :: 0.336 :: (-0.0282) :: (-0.0974) :: 4.87e-3 :: nil) :: nil.
Definition A_lowE : list (list R) :=
  ((-52.9) :: (-1.36) :: 0.0719 :: 0.0137 :: 0.454 :: 0.403 :: (-0.220) :: 0.0666 :: (-0.0677) :: (-1.48e-3) :: nil) ::
  ((-67.9) :: (-1.22) :: 0.0814 :: 0.0139 :: 0.454 :: 0.465 :: (-0.273) :: 0.0751 :: (-0.0630) :: (-5.08e-4) :: nil) ::
  ((-74.2) :: (-1.18) :: 0.0843 :: 0.0139 :: 0.453 :: 0.491 :: (-0.294) :: 0.0788 :: (-0.0612) :: (-1.85e-4) :: nil) :: nil.
Definition B_highE : list (list R) :=
  (0.231 :: 0.343 :: (-0.185) :: (-0.162e-1) :: 0.105 :: (-0.703e-1) :: 0.531e-1 :: 0.342e-2 :: (-0.838e-2) :: 0.415e-2 :: (-0.335e-2) :: (-0.221e-3) :: nil) ::
  ((-0.101e1) :: (-0.865e-2) :: (-0.124) :: (-0.145e-1) :: 0.391 :: 0.161e-1 :: 0.298e-1 :: 0.332e-2 :: (-0.248e-1) :: (-0.104e-2) :: (-0.152e-2) :: (-0.189e-3) :: nil) ::
  ((-0.100e1) :: (-0.255e-1) :: (-0.125) :: (-0.142e-1) :: 0.388 :: 0.206e-1 :: 0.297e-1 :: 0.326e-2 :: (-0.246e-1) :: (-0.131e-2) :: (-0.148e-2) :: (-0.180e-3) :: nil) ::
  ((-0.613) :: 0.552e-1 :: (-0.167) :: (-0.159e-1) :: 0.304 :: 0.154e-2 :: 0.436e-1 :: 0.378e-2 :: (-0.201e-1) :: (-0.216e-3) :: (-0.251e-2) :: (-0.227e-3) :: nil) ::
  ((-0.102e1) :: (-0.148e-1) :: (-0.674e-1) :: (-0.917e-2) :: 0.359 :: 0.143e-1 :: 0.139e-1 :: 0.184e-2 :: (-0.209e-1) :: (-0.732e-3) :: (-0.502e-3) :: (-0.949e-4) :: nil) ::
  ((-0.102e1) :: (-0.139e-1) :: (-0.979e-1) :: (-0.117e-1) :: 0.375 :: 0.156e-1 :: 0.224e-1 :: 0.254e-2 :: (-0.226e-1) :: (-0.889e-3) :: (-0.104e-2) :: (-0.139e-3) :: nil) ::
  ((-0.441) :: 0.129 :: (-0.170) :: (-0.162e-1) :: 0.277 :: (-0.156e-1) :: 0.466e-1 :: 0.379e-2 :: (-0.193e-1) :: 0.753e-3 :: (-0.286e-2) :: (-0.239e-3) :: nil) ::
  ((-0.732) :: 0.183e-1 :: (-0.155) :: (-0.172e-1) :: 0.321 :: 0.946e-2 :: 0.397e-1 :: 0.420e-2 :: (-0.204e-1) :: (-0.619e-3) :: (-0.224e-2) :: (-0.254e-3) :: nil) ::
  ((-0.820) :: (-0.636e-2) :: 0.542e-1 :: 0.395e-2 :: 0.202 :: 0.806e-3 :: (-0.200e-2) :: (-0.178e-2) :: (-0.610e-2) :: 0.651e-3 :: 0.175e-2 :: 0.146e-3 :: nil) :: nil.
Definition B_lowE : list (list R) :=
  ((-0.792) :: 0.420e-1 :: 0.530e-1 :: (-0.139e-1) :: 0.301 :: (-0.264e-1) :: (-0.299e-1) :: 0.607e-2 :: 0.272e-3 :: 0.611e-2 :: 0.347e-2 :: (-0.919e-3) :: nil) ::
  (0.161 :: 0.598e-1 :: (-0.336e-2) :: (-0.426e-2) :: (-0.157) :: (-0.396e-1) :: 0.460e-2 :: 0.219e-2 :: 0.391e-1 :: 0.711e-2 :: (-0.144e-2) :: (-0.385e-3) :: nil) ::
  (0.158 :: 0.554e-1 :: (-0.431e-2) :: (-0.335e-2) :: (-0.155) :: (-0.374e-1) :: 0.537e-2 :: 0.174e-2 :: 0.388e-1 :: 0.683e-2 :: (-0.160e-2) :: (-0.322e-3) :: nil) ::
  (0.112 :: 0.495e-1 :: 0.116e-1 :: (-0.286e-2) :: (-0.149) :: (-0.331e-1) :: (-0.426e-2) :: 0.980e-3 :: 0.447e-1 :: 0.652e-2 :: (-0.356e-3) :: (-0.203e-3) :: nil) ::
  (0.111 :: 0.541e-1 :: (-0.346e-3) :: (-0.368e-2) :: (-0.108) :: (-0.347e-1) :: 0.193e-2 :: 0.181e-2 :: 0.280e-1 :: 0.604e-2 :: (-0.841e-3) :: (-0.317e-3) :: nil) ::
  (0.139 :: 0.606e-1 :: (-0.306e-2) :: (-0.455e-2) :: (-0.133) :: (-0.394e-1) :: 0.399e-2 :: 0.236e-2 :: 0.335e-1 :: 0.690e-2 :: (-0.124e-2) :: (-0.405e-3) :: nil) ::
  (0.112 :: 0.495e-1 :: 0.116e-1 :: (-0.286e-2) :: (-0.149) :: (-0.331e-1) :: (-0.426e-2) :: 0.980e-3 :: 0.447e-1 :: 0.652e-2 :: (-0.356e-3) :: (-0.203e-3) :: nil) ::
  (0.122 :: 0.527e-1 :: (-0.430e-3) :: (-0.318e-2) :: (-0.151) :: (-0.364e-1) :: 0.343e-2 :: 0.151e-2 :: 0.420e-1 :: 0.692e-2 :: (-0.141e-2) :: (-0.290e-3) :: nil) ::
  ((-0.110e-1) :: 0.202e-1 :: 0.946e-3 :: (-0.409e-2) :: (-0.666e-2) :: (-0.117e-1) :: (-0.236e-3) :: 0.202e-2 :: 0.408e-2 :: 0.185e-2 :: (-0.648e-4) :: (-0.313e-3) :: nil) :: nil.
(** suzuki.c:55-65: charge, least and greatest Zeff of the rows of the B tables *)
Definition impurities : list (Z * R * R) :=
  [(2%Z, 1, 2.1); (6%Z, 1, 5); (6%Z, 5, 6); (4%Z, 1, 4); (8%Z, 1, 5); (7%Z, 1, 5); (3%Z, 1, 3); (5%Z, 1, 5); (26%Z, 1, 5)].
(** an ion species: mass number, charge number, density *)
Definition ion : Type := (Z * Z * R)%type.
Definition anum (i : ion) : Z := fst (fst i).
Definition znum (i : ion) : Z := snd (fst i).
Definition dens (i : ion) : R := snd i.
Inductive sz := SzOk (v : R) | SzErr (e : Z) | SzOob.
Definition sumR (l : list R) : R := fold_right Rplus 0 l.
(** row [anum - 1] of a table of three rows *)
Definition row (A : list (list R)) (a : Z) : option (list R) := if (1 <=? a)%Z then nth_error A (Z.to_nat (a - 1)) else None.
Definition sum_opt {X} (f : X -> option R) (l : list X) : option R :=
  fold_right (fun i acc => match f i, acc with Some x, Some y => Some (x + y) | _, _ => None end) (Some 0) l.
(** suzuki.c:202-207 *)
Definition term_H (Aijk : list R) (E logE N U : R) : R :=
  let A k := nth k Aijk 0 in
  (A 0%nat * 1e-16 / E) * (1 + A 1%nat * logE + A 2%nat * logE * logE)
  * (1 + Rpower (1 - exp (- A 3%nat * N)) (A 4%nat) * (A 5%nat + A 6%nat * logE + A 7%nat * logE * logE))
  * (1 + A 8%nat * U + A 9%nat * U * U).
(** suzuki.c:226-237 *)
Definition term_Z (Bijk : list R) (logE logN U : R) : R :=
  let B k := nth k Bijk 0 in
  B 0%nat + B 1%nat * U + B 2%nat * logN + B 3%nat * logN * U
  + B 4%nat * logE + B 5%nat * logE * U + B 6%nat * logE * logN + B 7%nat * logE * logN * U
  + B 8%nat * logE * logE + B 9%nat * logE * logE * U + B 10%nat * logE * logE * logN + B 11%nat * logE * logE * logN * U.
(** suzuki.c:214-220, the last row that fits *)
Definition find_imp (z : Z) (Zeff : R) (B : list (list R)) : option (list R) :=
  fold_left (fun acc '((zi, lo, hi), b) =>
    if (zi =? z)%Z then (if Rlt_dec lo Zeff then if Rlt_dec Zeff hi then Some b else acc else acc) else acc) (combine impurities B) None.
Definition zeff (ions : list ion) : R :=
  sumR (map (fun i => dens i * IZR (znum i) * IZR (znum i)) ions) / sumR (map (fun i => dens i * IZR (znum i)) ions).
(** suzuki.c:139-247.  The index arrays hold three hydrogen species (146) and MAX_SPECIES
    impurities (148), the latter taken for granted.  A row that is not found is read at
    index -1 even though an error is raised. *)
Definition suzuki_sigmav (EperAmu vnorm ne te : R) (ions : list ion) : sz :=
  let E := EperAmu / (1e3 * CONST_E) in
  let te := te / CONST_E in
  let hyd := filter (fun i => (znum i =? 1)%Z) ions in
  let imp := filter (fun i => negb (znum i =? 1)%Z) ions in
  let dens_H := sumR (map dens hyd) in
  let Zeff := zeff ions in
  let err0 := match hyd with [] => error_raise ERR_INPUT_EVALUATION 173 EF_SUZUKI | _ => 0%Z end in
  let low := (if Rle_dec 9 E then if Rlt_dec E 100 then true else false else false) in
  let high := if Rlt_dec E 10000 then true else false in
  let A := if low then A_lowE else if high then A_highE else A_lowE in
  let B := if low then B_lowE else if high then B_highE else B_lowE in
  let err := if low then err0 else if high then err0 else error_raise ERR_INPUT_EVALUATION 189 EF_SUZUKI in
  let logE := ln E in
  let N := ne * 1e-19 in
  let logN := ln N in
  let U := ln (te * 1e-3) in
  if (length hyd <=? 3)%nat then
    match sum_opt (fun i => match row A (anum i) with Some a => Some (dens i * term_H a E logE N U) | None => None end) hyd,
          sum_opt (fun i => match find_imp (znum i) Zeff B with Some b => Some (dens i / ne * IZR (znum i) * term_Z b logE logN U) | None => None end) imp with
    | Some sH, Some sigma_Z =>
        let sigma_H := sH / dens_H in
        if (err =? 0)%Z then SzOk (sigma_H * (1 + (Zeff - 1) * sigma_Z) * 1e-4 * vnorm) else SzErr err
    | _, _ => SzOob
    end
  else SzOob.

(** ** asigma_loc.c *)
(** asigma.h:34-45 *)
Definition sigma_ioniz := 1%Z. Definition sigma_recomb := 2%Z. Definition sigma_CX := 3%Z.
Definition sigmav_ioniz := 4%Z. Definition sigmav_recomb := 5%Z. Definition sigmav_CX := 6%Z.
Definition sigmav_BMS := 7%Z.
(** the input of one reaction: reactants, type, and for each abscissa the number of points
    and its limits *)
Record rdef := RD { dz1 : Z; da1 : Z; dz2 : Z; da2 : Z; dtype : Z; dne : nat; demin : R; demax : R; dnn : nat; dnmin : R; dnmax : R; dnT : nat; dTmin : R; dTmax : R }.
(** a stored reaction; only the spline of the right dimension is ever set up, [Oob] stands
    for one that is not *)
Record reac := RC { z1 : Z; a1 : Z; z2 : Z; a2 : Z; rtype : Z; t1 : res interp1D; t2 : res interp2D; t3 : res interp3D }.
Definition table_size (d : rdef) : nat :=
  match ((if (1 <? dne d)%nat then 1 else 0) + (if (1 <? dnn d)%nat then 1 else 0) + (if (1 <? dnT d)%nat then 1 else 0))%nat with
  | 1%nat => dne d | 2%nat => (dne d * dnT d)%nat | 3%nat => (dne d * dnn d * dnT d)%nat | _ => 0%nat end.
Definition is_err {A} (x : res A) : bool := match x with Err => true | _ => false end.
(** asigma_loc.c:46-85: one reaction whose data start at [pos] *)
Definition init_reaction (junk : nat -> R) (pos : nat -> R) (d : rdef) : reac * bool :=
  let dim := ((if (1 <? dne d)%nat then 1 else 0) + (if (1 <? dnn d)%nat then 1 else 0) + (if (1 <? dnT d)%nat then 1 else 0))%nat in
  let s1 := interp1Dcomp_setup junk pos (dne d) NATURALBC (demin d) (demax d) in
  let s2 := interp2Dcomp_setup junk pos (dne d) (dnT d) NATURALBC NATURALBC (demin d) (demax d) (dTmin d) (dTmax d) in
  let s3 := interp3Dcomp_setup junk pos (dne d) (dnn d) (dnT d) NATURALBC NATURALBC NATURALBC (demin d) (demax d) (dnmin d) (dnmax d) (dTmin d) (dTmax d) in
  let mk := RC (dz1 d) (da1 d) (dz2 d) (da2 d) (dtype d) in
  match dim with
  | 1%nat => (mk s1 Oob Oob, is_err s1)
  | 2%nat => (mk Oob s2 Oob, is_err s2)
  | 3%nat => (mk Oob Oob s3, is_err s3)
  | _ => (mk Oob Oob Oob, true)
  end.
(** asigma_loc.c:29-107.  [pos] is declared inside the loop (55), so that every reaction
    reads its data from the start of [sigma]; the error is that of the last reaction. *)
Definition asigma_loc_init (junk : nat -> R) (sigma : nat -> R) (ds : list rdef) : list reac * bool :=
  let rs := map (init_reaction junk sigma) ds in
  (map fst rs, last (map snd rs) false).
Definition matches (zz1 aa1 zz2 aa2 t : Z) (r : reac) : bool :=
  ((zz1 =? z1 r) && (aa1 =? a1 r) && (zz2 =? z2 r) && (aa2 =? a2 r) && (t =? rtype r))%Z.
Definition matches_bms (zz1 zz2 t : Z) (r : reac) : bool := ((t =? sigmav_BMS) && (zz1 =? z1 r) && (zz2 =? z2 r) && (t =? rtype r))%Z.
(** the loops over all reactions keep the last match *)
Definition find_reac (p : reac -> bool) (rs : list reac) : option reac := fold_left (fun acc r => if p r then Some r else acc) rs None.
(** value, or error, or undefined behaviour; the value after an error is never set *)
Inductive look := LVal (v : R) | LErr (e : Z) | LOob.
Definition lookup (extrapolate : bool) (e : Z) (x : res R) : look :=
  match x with Val v => LVal v | Err => if extrapolate then LVal 0 else LErr e | Oob => LOob end.
Definition ev1 (t : res interp1D) (x : R) : res R := match t with Val s => interp1Dcomp_eval_f s x | _ => Oob end.
Definition ev2 (t : res interp2D) (x y : R) : res R := match t with Val s => interp2Dcomp_eval_f s x y | _ => Oob end.
Definition ev3 (t : res interp3D) (x y z : R) : res R := match t with Val s => interp3Dcomp_eval_f s x y z | _ => Oob end.
(** asigma_loc.c:166-214 *)
Definition asigma_loc_eval_sigma (zz1 aa1 zz2 aa2 : Z) (E : R) (t : Z) (extrapolate : bool) (rs : list reac) : look :=
  match find_reac (matches zz1 aa1 zz2 aa2 t) rs with
  | None => LErr (error_raise ERR_INPUT_EVALUATION 190 EF_ASIGMA_LOC)
  | Some r =>
    if ((rtype r =? sigma_ioniz) || (rtype r =? sigma_recomb) || (rtype r =? sigma_CX))%Z
    then lookup extrapolate (error_raise ERR_INPUT_EVALUATION 204 EF_ASIGMA_LOC) (ev1 (t1 r) E)
    else LErr (error_raise ERR_INPUT_EVALUATION 210 EF_ASIGMA_LOC)
  end.
(** asigma_loc.c:241-309; the beam-stopping table is read at E over the mass number of the
    bulk species *)
Definition asigma_loc_eval_sigmav (zz1 aa1 zz2 aa2 : Z) (E T_e T_0 n_i : R) (t : Z) (extrapolate : bool) (rs : list reac) : look :=
  let E := E / CONST_E in let T_e := T_e / CONST_E in let T_0 := T_0 / CONST_E in
  match find_reac (fun r => matches_bms zz1 zz2 t r || matches zz1 aa1 zz2 aa2 t r) rs with
  | None => LErr (error_raise ERR_INPUT_EVALUATION 273 EF_ASIGMA_LOC)
  | Some r =>
    if ((t =? sigmav_ioniz) || (t =? sigmav_recomb) || (t =? sigmav_CX))%Z
    then lookup extrapolate (error_raise ERR_INPUT_EVALUATION 285 EF_ASIGMA_LOC) (ev2 (t2 r) E T_0)
    else if (t =? sigmav_BMS)%Z
    then lookup extrapolate (error_raise ERR_INPUT_EVALUATION 297 EF_ASIGMA_LOC) (ev3 (t3 r) (E / IZR aa2) (IZR zz2 * n_i) T_e)
    else LErr (error_raise ERR_INPUT_EVALUATION 304 EF_ASIGMA_LOC)
  end.
(** error flag and value carried through a loop; [u] is the value left in the variable of a
    failed interpolation *)
Definition acc : Type := option (Z * R).
Definition add_term (u : R) (l : look) (w : R) (a : acc) : acc :=
  match a, l with
  | Some (e, s), LVal v => Some (e, s + v * w)
  | Some (e, s), LErr e' => Some (e', s + u * w)
  | _, _ => None
  end.
(** asigma_loc.c:334-381 *)
Definition cx_step (u : R) (zz1 aa1 : Z) (E T_0 : R) (extrapolate : bool) (rs : list reac) (a : acc) (sp : ion) : acc :=
  match find_reac (matches zz1 aa1 (znum sp) (anum sp) sigmav_CX) rs with
  | None => match a with Some (_, s) => Some (error_raise ERR_INPUT_EVALUATION 361 EF_ASIGMA_LOC, s) | None => None end
  | Some r => add_term u (lookup extrapolate (error_raise ERR_INPUT_EVALUATION 372 EF_ASIGMA_LOC) (ev2 (t2 r) E T_0)) (dens sp) a
  end.
Definition asigma_loc_eval_cx (u : R) (zz1 aa1 : Z) (E T_0 : R) (spec : list ion) (extrapolate : bool) (rs : list reac) : acc :=
  fold_left (cx_step u zz1 aa1 (E / CONST_E) (T_0 / CONST_E) extrapolate rs) spec (Some (0%Z, 0)).
(** asigma_loc.c:406-459; a division by n_e = 0 is an undefined outcome too, and so is the
    fit outside its tables *)
Definition bms_step (u : R) (zz1 aa1 : Z) (E_eV T_e : R) (extrapolate : bool) (rs : list reac) (st : acc * R * bool) (sp : ion) : acc * R * bool :=
  let '(a, n_e, found) := st in
  let n := IZR (znum sp) * dens sp in
  let '(a, found) := fold_left (fun '(a, found) r =>
       if ((z1 r =? zz1) && (z2 r =? znum sp) && (rtype r =? sigmav_BMS))%Z
       then (add_term u (lookup extrapolate (error_raise ERR_INPUT_EVALUATION 437 EF_ASIGMA_LOC) (ev3 (t3 r) (E_eV / IZR aa1) n T_e)) n a, true)
       else (a, found)) rs (a, found) in
  (a, n_e + n, found).
Definition asigma_loc_eval_bms (u : R) (zz1 aa1 : Z) (E mass T_e : R) (ions : list ion) (extrapolate : bool) (rs : list reac) : acc :=
  let '(a, n_e, found) := fold_left (bms_step u zz1 aa1 (E / CONST_E) (T_e / CONST_E) extrapolate rs) ions (Some (0%Z, 0), 0, false) in
  match a with
  | None => None
  | Some (e, s) =>
    if found then (if Req_EM_T n_e 0 then None else Some (e, s / n_e))
    else match suzuki_sigmav (E / IZR aa1) (vnorm_gamma (gamma_Ekin mass E)) n_e T_e ions with
         | SzOk v => Some (e, v)
         | SzErr _ => Some (error_raise ERR_INPUT_EVALUATION 454 EF_ASIGMA_LOC, 0)
         | SzOob => None
         end
  end.

(** ** asigma.c; [None] as data is an input of unknown type *)
Definition clean (a : acc) : acc :=
  match a with
  | Some (e, v) => if negb (e =? 0)%Z then Some (e, 0) else if Rlt_dec v 0 then Some (e, 0) else Some (e, v)
  | None => None
  end.
Definition of_look (u : R) (l : look) : acc := match l with LVal v => Some (0%Z, v) | LErr e => Some (e, u) | LOob => None end.
Definition asigma : Type := option (list reac).
(** asigma.c:95-119 *)
Definition asigma_eval_sigma (u : R) zz1 aa1 zz2 aa2 E t extrapolate (d : asigma) : acc :=
  clean match d with Some rs => of_look u (asigma_loc_eval_sigma zz1 aa1 zz2 aa2 E t extrapolate rs) | None => Some (error_raise ERR_UNKNOWN_INPUT 109 EF_ASIGMA, u) end.
(** asigma.c:145-170 *)
Definition asigma_eval_sigmav (u : R) zz1 aa1 zz2 aa2 E T_e T_0 n_i t extrapolate (d : asigma) : acc :=
  clean match d with Some rs => of_look u (asigma_loc_eval_sigmav zz1 aa1 zz2 aa2 E T_e T_0 n_i t extrapolate rs) | None => Some (error_raise ERR_UNKNOWN_INPUT 160 EF_ASIGMA, u) end.
(** asigma.c:191-216 *)
Definition asigma_eval_cx (u : R) zz1 aa1 E T_0 spec extrapolate (d : asigma) : acc :=
  clean match d with Some rs => asigma_loc_eval_cx u zz1 aa1 E T_0 spec extrapolate rs | None => Some (error_raise ERR_UNKNOWN_INPUT 206 EF_ASIGMA, u) end.
(** asigma.c:237-262 *)
Definition asigma_eval_bms (u : R) zz1 aa1 E mass T_e ions extrapolate (d : asigma) : acc :=
  clean match d with Some rs => asigma_loc_eval_bms u zz1 aa1 E mass T_e ions extrapolate rs | None => Some (error_raise ERR_UNKNOWN_INPUT 252 EF_ASIGMA, u) end.

(** ** atomic.c *)
(** atomic.c:224-235 *)
Definition prob (rate ri rr dt : R) : R := if Req_EM_T rate 0 then 0 else rate / (ri + rr) * (1 - exp (- (ri + rr) * dt)).
(** atomic.c:215-245 *)
Definition atomic_react (q : Z) (dt ri rr : R) (z : Z) (rnd : R) : Z :=
  let p_ion := prob ri ri rr dt in
  let p_rec := prob rr ri rr dt in
  if (q <? z)%Z && (if Rlt_dec rnd p_ion then true else false) then (q + 1)%Z
  else if (0 <? q)%Z && (if Rlt_dec rnd (p_ion + p_rec) then true else false) then (q - 1)%Z
  else q.
(** densities and temperatures at a point: electrons first in [n] and [T], then the ions;
    the species arrays of the plasma serve the neutrals as well *)
Record bulk := BULK { n_e : R; T_e : R; ions : list (Z * Z); n_i : list R; n_0 : list R; T_0 : R }.
Definition species (s : list (Z * Z)) (n : list R) : list ion := map (fun '(az, x) => (az, x)) (combine s n).
(** atomic.c:164-197: error, ionisation and recombination rate.  The neutrals are taken to
    be the first ones of the plasma ions (191 passes [z_2], [a_2] for both). *)
Definition atomic_rates (u : R) (zz1 aa1 : Z) (m : R) (d : asigma) (extrapolate : bool) (q : Z) (E : R) (b : bulk) : option (Z * R * R) :=
  if (q =? 1)%Z then
    match asigma_eval_cx u zz1 aa1 E (T_0 b) (species (ions b) (n_0 b)) extrapolate d with
    | Some (e, c) => Some (e, 0, 0 + c) | None => None end
  else if (q =? 0)%Z then
    match asigma_eval_bms u zz1 aa1 E m (T_e b) (species (ions b) (n_i b)) extrapolate d with
    | Some (e, c) => Some (e, 0 + c * n_e b, 0) | None => None end
  else Some (error_raise ERR_ATOMIC_EVALUATION 193 EF_ATOMIC, 0, 0).
(** round to the nearest integer, halves away from zero *)
Definition roundR (x : R) : Z := if Rle_dec 0 x then (up (x + / 2) - 1)%Z else (- (up (- x + / 2) - 1))%Z.
Record lane := LANE { running : bool; lerr : Z; charge : R; mass : R; lznum : Z; lanum : Z; pr : R; pphi : R; pz : R }.
(** atomic.c:70-133, one lane.  [bg] is the outcome of the plasma and neutral evaluations at
    the position of the marker. *)
Definition atomic_fo_lane (u : R) (d : asigma) (extrapolate : bool) (bg : Z + bulk) (h rnd : R) (p : lane) : option lane :=
  let fail e := LANE false e (charge p) (mass p) (lznum p) (lanum p) (pr p) (pphi p) (pz p) in
  if running p then
    let E := Ekin_pnorm (mass p) (norm (V (pr p) (pphi p) (pz p))) in
    match bg with
    | inl e => Some (fail e)
    | inr b =>
      let q := roundR (charge p / CONST_E) in
      match atomic_rates u (lznum p) (lanum p) (mass p) d extrapolate q E b with
      | None => None
      | Some (e, ri, rr) =>
        if (e =? 0)%Z then
          let q' := atomic_react q h ri rr (lznum p) rnd in
          Some (if (q' =? q)%Z then p else LANE true (lerr p) (IZR q' * CONST_E) (mass p) (lznum p) (lanum p) (pr p) (pphi p) (pz p))
        else Some (fail e)
      end
    end
  else Some p.
