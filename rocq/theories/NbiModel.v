(** Model of the beam injection: src/nbi.c and src/bbnbi5.c.

    Exact arithmetic; CONST_PI is taken to be pi, allocation, printouts and diagnostics are
    left out.  Random numbers are arguments.  Field, plasma, atomic and wall evaluations are
    arguments of the tracing step. *)
From Coq Require Import Reals List ZArith Bool.
From Verif Require Import Vec PhysModel StepFoModel EndcondModel AtomModel.
Import ListNotations.
Local Open Scope R_scope.

(** ** nbi.c *)
Record beamlets := BL { nbl : nat; bx : nat -> R; byy : nat -> R; bz : nat -> R; bdx : nat -> R; bdy : nat -> R; bdz : nat -> R }.
Record injector := INJ { ianum : Z; iznum : Z; imass : R; power : R; energy : R; ef0 : R; ef1 : R; ef2 : R;
                         div_h : R; div_v : R; halo_frac : R; halo_h : R; halo_v : R; ibl : beamlets }.
(** nbi.c:22-62: the beamlets, from the position [idx] of the data on *)
Fixpoint nbi_beamlets (xyz : nat -> R) (idx : nat) (ns : list nat) : list beamlets :=
  match ns with
  | [] => []
  | n :: ns => BL n (fun j => xyz (idx + 0 * n + j)%nat) (fun j => xyz (idx + 1 * n + j)%nat) (fun j => xyz (idx + 2 * n + j)%nat)
                  (fun j => xyz (idx + 3 * n + j)%nat) (fun j => xyz (idx + 4 * n + j)%nat) (fun j => xyz (idx + 5 * n + j)%nat)
               :: nbi_beamlets xyz (idx + 6 * n)%nat ns
  end.
(** nbi.c:80-86: no division by a zero halo divergence *)
Definition halo_default (i : injector) : injector :=
  if Req_EM_T (halo_frac i) 0 then
    INJ (ianum i) (iznum i) (imass i) (power i) (energy i) (ef0 i) (ef1 i) (ef2 i) (div_h i) (div_v i) (halo_frac i) 1e-10 1e-10 (ibl i)
  else i.
(** nbi.c:126-134 *)
Definition pick_energy (i : injector) (r : R) : R :=
  if Rlt_dec r (ef0 i) then energy i else if Rlt_dec r (ef0 i + ef1 i) then energy i / 2 else energy i / 3.
(** nbi.c:118-182; [u], [r], [s] are uniform, [g1], [g2] normal; [None] is a read outside
    the beamlet arrays *)
Definition nbi_inject (i : injector) (u r s g1 g2 : R) : option (vec * vec) :=
  let k := Int_part (u * INR (nbl (ibl i))) in
  if ((0 <=? k) && (k <? Z.of_nat (nbl (ibl i))))%Z then
    let k := Z.to_nat k in
    let b := ibl i in
    let xyz := V (bx b k) (byy b k) (bz b k) in
    let E := pick_energy i r in
    let dir := V (bdx b k) (bdy b k) (bdz b k) in
    let phi := atan2 (vy dir) (vx dir) in
    let theta := acos (vz dir) in
    let normalv := V (sin (theta + PI / 2) * cos phi) (sin (theta + PI / 2) * sin phi) (cos (theta + PI / 2)) in
    let normalh := unit (cross dir normalv) in
    let '(dh, dv) := if Rlt_dec s (halo_frac i) then (halo_h i * g1 / sqrt 2, halo_v i * g2 / sqrt 2)
                     else (div_h i * g1 / sqrt 2, div_v i * g2 / sqrt 2) in
    let c d nv nh := cos dh * (cos dv * d + sin dv * nv) + sin dh * nh in
    let dir := unit (V (c (vx dir) (vx normalv) (vx normalh)) (c (vy dir) (vy normalv) (vy normalh)) (c (vz dir) (vz normalv) (vz normalh))) in
    let gamma := gamma_Ekin (imass i) E in
    let absv := sqrt (1 - 1 / (gamma * gamma)) * CONST_C in
    Some (xyz, V (absv * vx dir) (absv * vy dir) (absv * vz dir))
  else None.

(** ** bbnbi5.c *)
(** conversion of a double to int: towards zero *)
Definition ctrunc (x : R) : Z := if Rle_dec 0 x then Int_part x else (- Int_part (- x))%Z.
(** bbnbi5.c:73-93, the markers of every injector *)
Fixpoint share_loop (total : R) (nprt generated : Z) (ps : list R) : list Z :=
  match ps with
  | [] => []
  | [_] => [(nprt - generated)%Z]
  | p :: ps => let k := ctrunc (p / total * IZR nprt) in k :: share_loop total nprt (generated + k) ps
  end.
(** bbnbi5.c:63-68; [None] for the division by zero *)
Definition shares (nprt : Z) (ps : list R) : option (list Z) :=
  let total := fold_left Rplus ps 0 in
  match ps with [] => Some [] | _ => if Req_EM_T total 0 then None else Some (share_loop total nprt 0 ps) end.
(** bbnbi5.c:187 over the injectors: ids of the markers in the order of the array *)
Fixpoint marker_ids (generated : Z) (ns : list Z) : list Z :=
  match ns with [] => [] | n :: ns => map (fun i => (generated + Z.of_nat i + 1)%Z) (seq 0 (Z.to_nat n)) ++ marker_ids (generated + n) ns end.
(** bbnbi5.c:138-140 *)
Definition weight (i : injector) (nprt : Z) : R :=
  let f := 1 * ef0 i + (1 / 2) * ef1 i + (1 / 3) * ef2 i in (power i / energy i) / (f * IZR nprt).
(** math.h:75-79 *)
Definition xyz2rpz (x : vec) : vec := V (sqrt (vx x * vx x + vy x * vy x)) (atan2 (vy x) (vx x)) (vz x).
(** math.h:91-94 *)
Definition vec_to_rpz (v : vec) (phi : R) : vec := V (vx v * cos phi + vy v * sin phi) (- vx v * sin phi + vy v * cos phi) (vz v).
Section inject.
(** whether B_field_eval_psi fails at a point and time *)
Variable fails : vec -> R -> bool.
(** bbnbi5.c:155-166; [None] when the loop is still going after [fuel] rounds *)
Fixpoint enter (fuel : nat) (x vhat : vec) (t : R) : option vec :=
  match fuel with
  | 0%nat => None
  | S fuel => if fails (xyz2rpz x) t then enter fuel (V (vx x + 1e-3 * vx vhat) (vy x + 1e-3 * vy vhat) (vz x + 1e-3 * vz vhat)) vhat t else Some x
  end.
Record beam_marker := BM { mrpz : vec; mp : vec; mmass : R; mcharge : R; manum : Z; mznum : Z; mweight : R; mtime : R; mmileage : R; mid : Z }.
(** bbnbi5.c:146-192, marker [j] of an injector with [nprt] markers; [ut] samples the time *)
Definition inject_marker (fuel : nat) (i : injector) (nprt generated : Z) (j : nat) (t0 t1 ut u r s g1 g2 : R) : option beam_marker :=
  let time := t0 + ut * (t1 - t0) in
  match nbi_inject i u r s g1 g2 with
  | None => None
  | Some (xyz, vxyz) =>
    match enter fuel xyz (unit vxyz) time with
    | None => None
    | Some xyz =>
      let rpz := xyz2rpz xyz in
      let vrpz := vec_to_rpz vxyz (vy rpz) in
      let gamma := gamma_vnorm (norm vrpz) in
      Some (BM rpz (V (vx vrpz * gamma * imass i) (vy vrpz * gamma * imass i) (vz vrpz * gamma * imass i)) (imass i) 0 (ianum i) (iznum i)
               (weight i nprt) time 0 (generated + Z.of_nat j + 1))
    end
  end.
End inject.
(** ascot5.h:104 and bbnbi5.c:222 *)
Definition NBI_MAX_DISTANCE : R := 1e-3.
Definition hin : R := 1e-10.
(** a marker in flight with the per-lane variables of the loop *)
Record flight := FL { fx : R; fphi : R; fz : R; fmom : vec; fmass : R; fmile : R; frho : R; ftime : R; fcharge : R; fend : Z; ftile : Z; frun : bool; ferr : Z;
                      remaining : R; threshold : R; shine : bool }.
Section trace.
(** radial coordinate, or an error, at a point *)
Variable rho_at : R -> R -> R -> Z + R.
(** electron density times stopping coefficient, or an error, at a point; bbnbi5.c:290-309 *)
Variable rate_at : R -> R -> R -> R -> Z + R.
(** tile (positive for a hit) and fraction of the step until the wall *)
Variable hit : R * R * R -> R * R * R -> Z * R.
(** radial coordinate left in the variable by a failing evaluation *)
Variable junk : R.
(** bbnbi5.c:237-345, a running lane *)
Definition trace_step (p : flight) : flight :=
  if frun p then
    let gamma := gamma_pnorm (fmass p) (norm (fmom p)) in
    let pxyz := to_xyz (fmom p) (fphi p) in
    let pos := pos_xyz (fx p) (fphi p) (fz p) in
    let fpos := V (vx pos + vx pxyz * hin / (gamma * fmass p)) (vy pos + vy pxyz * hin / (gamma * fmass p)) (vz pos + vz pxyz * hin / (gamma * fmass p)) in
    let r := sqrt (vx fpos * vx fpos + vy fpos * vy fpos) in
    let phi := fphi p + atan2 (vx pos * vy fpos - vy pos * vx fpos) (vx pos * vx fpos + vy pos * vy fpos) in
    let z := vz fpos in
    let mom := V (vx pxyz * cos phi + vy pxyz * sin phi) (- vx pxyz * sin phi + vy pxyz * cos phi) (vz pxyz) in
    let mile := fmile p + hin in
    match rho_at r phi z with
    | inl e => FL r phi z mom (fmass p) mile junk (ftime p) (fcharge p) (fend p) (ftile p) false e (remaining p * exp (- 0 * hin)) (threshold p) (shine p)
    | inr rho =>
      let sh := if Rle_dec (frho p) 1 then if Rlt_dec 1 rho then true else shine p else shine p in
      match rate_at r phi z rho with
      | inl e => FL r phi z mom (fmass p) mile rho (ftime p) (fcharge p) (fend p) (ftile p) false e (remaining p * exp (- 0 * hin)) (threshold p) sh
      | inr rate =>
        let rem := remaining p * exp (- rate * hin) in
        let '(tile, w) := if sh then hit (fx p, fphi p, fz p) (r, phi, z) else (0%Z, 0) in
        let wall := (0 <? tile)%Z in
        let far := if Rlt_dec NBI_MAX_DISTANCE mile then true else false in
        let ion := if Rlt_dec rem (threshold p) then true else false in
        let e0 := fend p in
        let e1 := if wall then Z.lor e0 endcond_wall else e0 in
        let e2 := if far then Z.lor e1 endcond_tlim else e1 in
        let e3 := if ion then Z.lor e2 endcond_ioniz else e2 in
        FL (if wall then fx p + w * (r - fx p) else r) (if wall then fphi p + w * (phi - fphi p) else phi) (if wall then fz p + w * (z - fz p) else z)
           mom (fmass p) mile rho (if wall then ftime p + w * (ftime p - ftime p) else ftime p) (if ion then 1 * CONST_E else fcharge p) e3
           (if wall then tile else ftile p) (negb (wall || far || ion)) (ferr p) rem (threshold p) sh
      end
    end
  else p.
Definition trace (n : nat) (p : flight) : flight := Nat.iter n trace_step p.
(** bbnbi5.c:353-354: time of a finished marker *)
Definition finish_time (p : flight) : R := ftime p + fmile p.
End trace.
