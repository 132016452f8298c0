(** Model of the record mode of the full-orbit loop: instead of the particles their guiding
    centres are handed to the diagnostics (src/simulate/simulate_fo_fixed.c:158-189).  The two
    guiding-centre bundles are local variables of the loop body and not initialised: [jf] and
    [ji] are what they hold.  How the diagnostics read a bundle is taken from
    diag_orb.c:412-613, dist_*_update_gc and diag_transcoef.c:90-118 (DgModel); a marker index
    is only meaningful when it is not negative. *)
From Coq Require Import Reals ZArith List Bool.
From Verif Require Import Vec ParticleModel FogcModel DgModel.
From Verif Require OrbModel DistModel TcModel.
Import ListNotations.
Local Open Scope R_scope.

(** the slot of a guiding-centre bundle as the distributions see it *)
Definition gc_view (g : bundle) (j : nat) : DistModel.gc :=
  DistModel.GCM (negb (Z.eqb (bze g running j) 0)) (bre g r j) (bre g phi j) (bre g z j) (bre g ppar j) (bre g mu j)
    (Verif.Vec.V (bre g B_r j) (bre g B_phi j) (bre g B_z j)) (bre g rho j) (bre g theta j) (bre g time j) (bre g charge j) (bre g mass j) (bre g weight j).
(** as the orbit collection sees it *)
Definition orb_view (g : bundle) (j : nat) : OrbModel.mk :=
  OrbModel.MK (bze g id j) (Z.to_nat (bze g index j)) (bze g endcond j) (fun f =>
    match f with
    | OrbModel.Fmil => bre g mileage j | OrbModel.Fr => bre g r j | OrbModel.Fphi => bre g phi j | OrbModel.Fz => bre g z j
    | OrbModel.Fppar => bre g ppar j | OrbModel.Fmu => bre g mu j | OrbModel.Fzeta => bre g zeta j | OrbModel.Fw => bre g weight j
    | OrbModel.Fq => bre g charge j | OrbModel.Frho => bre g rho j | OrbModel.Fth => bre g theta j
    | OrbModel.FBr => bre g B_r j | OrbModel.FBphi => bre g B_phi j | OrbModel.FBz => bre g B_z j | _ => 0
    end).
(** as the transport coefficients see it *)
Definition tc_view (gf gi : bundle) (j : nat) : TcModel.ev :=
  TcModel.Ev (Z.to_nat (bze gf index j)) (bze gf id j) (bze gf running j) (bre gf rho j) (bre gf r j) (bre gf ppar j)
    (bre gf mileage j) (bre gi mileage j) (bre gf theta j) (bre gi theta j).

Section record.
Context (eval_B : R -> R -> R -> R -> Z * (rf -> R)) (eval_psi : R -> R -> R -> R -> Z * R) (eval_rho : R -> Z * R) (axis_rz : R -> Z * (R * R))
  (p2g : R -> R -> (rf -> R) -> R -> R -> R -> R -> R -> R -> R * R * R * R * R * R) (unphys : Z).
Notation conv := (fo_to_gc eval_B eval_psi eval_rho axis_rz p2g unphys).

(** simulate_fo_fixed.c:174-180 and 181-187 *)
Definition rec_slot (b g : bundle) (j : nat) : bundle :=
  if Z.eqb (bze b running j) 0 then bsetz (bsetz g j id (bze b id j)) j running 0 else snd (conv b j g).
(** simulate_fo_fixed.c:172-188, [n] is p.n_mrk *)
Definition rec_bundle (n : nat) (b junk : bundle) : bundle := fold_left (fun g j => rec_slot b g j) (seq 0 n) junk.

(** simulate_fo_fixed.c:167-189: [p] after the step, [p0] before it *)
Context (E0 c0 : R) (psi : R -> R -> R -> R -> R) (mom : DistModel.gc -> R * R * R) (u : setup).
Definition rec_slots (n : nat) (p p0 jf ji : bundle) : list gc_slot :=
  let gf := rec_bundle n p jf in
  let gi := rec_bundle n p0 ji in
  map (fun j => SG (gc_view gf j, gc_view gi j) (orb_view gf j, orb_view gi j) (tc_view gf gi j)) (seq 0 n).
Definition rec_update (n : nat) (p p0 jf ji : bundle) (s : dg) : dg :=
  diag_update_gc E0 c0 psi mom u (rec_slots n p p0 jf ji) s.
End record.
