(** Model of particle_fo_to_gc, which turns the slot of a full-orbit bundle into
    the slot of a guiding-centre bundle (src/particle.c:1174-1292).  Conventions
    of ParticleModel; only the slot j of the bundle is written. *)
From Coq Require Import Reals ZArith List Bool.
From Verif Require Import Vec ParticleModel.
Import ListNotations.
Local Open Scope R_scope.

Section conv.
Context (eval_B : R -> R -> R -> R -> Z * (rf -> R)).
Context (eval_psi : R -> R -> R -> R -> Z * R).
Context (eval_rho : R -> Z * R).
Context (axis_rz : R -> Z * (R * R)).
Context (p2g : R -> R -> (rf -> R) -> R -> R -> R -> R -> R -> R -> R * R * R * R * R * R).
Context (unphys : Z).

(** particle.c:1281-1289 *)
Definition fogc_flag (g : bundle) (j : nat) (e : Z) : Z * bundle :=
  let g := bsetz g j err e in
  (e, if Z.eqb e 0 then g else bsetz (bsetz g j running 0) j endcond 0).
(** particle.c:1185-1292.  The axis is looked up at the toroidal angle the slot held before
    (line 1250); the returned flag is [err > 0] *)
Definition fo_to_gc (b : bundle) (j : nat) (g : bundle) : Z * bundle :=
  let g := bsetz (bsetz g j id (bze b id j)) j index (bze b index j) in
  if negb (Z.eqb (bze b err j) 0) then fogc_flag g j (bze b err j) else
  let g := copy_r b j j [mass; charge; weight; time; mileage] g in
  let g := copy_z b j j [endcond; running; walltile] g in
  let g := copy_r b j j [cputime] g in
  let '(gr, gphi, gz, gpp, gmu, gzeta) :=
    p2g (bre b mass j) (bre b charge j) (fun f => bre b f j) (bre b r j) (bre b phi j) (bre b z j)
        (bre b p_r j) (bre b p_phi j) (bre b p_z j) in
  if Rle_dec gr 0 then fogc_flag g j unphys else
  if Rlt_dec gmu 0 then fogc_flag g j unphys else
  let '(e1, B) := eval_B gr gphi gz (bre b time j) in
  if negb (Z.eqb e1 0) then fogc_flag g j e1 else
  let '(e2, psi) := eval_psi gr gphi gz (bre b time j) in
  if negb (Z.eqb e2 0) then fogc_flag g j e2 else
  let '(e3, rh) := eval_rho psi in
  if negb (Z.eqb e3 0) then fogc_flag g j e3 else
  let '(e4, (ar, az)) := axis_rz (bre g phi j) in
  if negb (Z.eqb e4 0) then fogc_flag g j e4 else
  let g := bsetr (bsetr (bsetr (bsetr (bsetr (bsetr (bsetr g j r gr) j phi gphi) j z gz) j mu gmu) j zeta gzeta) j ppar gpp) j rho rh in
  let g := bsetr g j theta (bre b theta j) in
  let g := bsetr g j theta (bre g theta j +
             atan2 ((bre b r j - ar) * (bre g z j - az) - (bre b z j - az) * (bre g r j - ar))
                   ((bre b r j - ar) * (bre g r j - ar) + (bre b z j - az) * (bre g z j - az))) in
  fogc_flag (bput g j B) j 0.
End conv.
