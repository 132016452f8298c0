(** Properties of the analytic equilibrium (src/Bfield/B_GS.c). *)
From Coq Require Import Reals Lra ZArith List.
From Verif Require Import Deriv Vec GsModel GsProofs.
Local Open Scope R_scope.

(** C71. *)
Theorem gs_field_from_flux : forall g r phi z, 0 < gR0 g -> 0 < r -> exists a b,
  Dx (fun t => B_GS_eval_psi g t z) r a /\ Dx (fun t => B_GS_eval_psi g r t) z b /\
  vx (B_GS_eval_B g r phi z) = - b / r /\ vz (B_GS_eval_B g r phi z) = a / r /\ ((gN g <= 0)%Z -> vy (B_GS_eval_B g r phi z) = gBphi0 g * gR0 g / r).
Proof. exact gs_flux_l. Qed.
Theorem gs_derivatives : forall g r phi z, 0 < gR0 g -> 0 < r -> ripple_smooth g r z -> jac_of (B_GS_eval_B g) r phi z (B_GS_eval_B_dB g r phi z).
Proof. exact gs_jacobian_l. Qed.
Theorem gs_divergence : forall g r phi z, 0 < gR0 g -> 0 < r -> divergence (B_GS_eval_B_dB g r phi z) r = B_GS_eval_B_dB g r phi z 6%nat / r.
Proof. exact gs_div_l. Qed.
Theorem gs_divergence_free : forall g r phi z, 0 < gR0 g -> 0 < r -> (gN g <= 0)%Z -> divergence (B_GS_eval_B_dB g r phi z) r = 0.
Proof. exact gs_div0_l. Qed.
(** toroidal component of curl B: a Solov'ev profile, linear in R and in 1/R *)
Theorem gs_toroidal_current : forall g r phi z, 0 < gR0 g -> 0 < r ->
  let D := B_GS_eval_B_dB g r phi z in
  D 3%nat - D 9%nat = - (gmult g / (gR0 g * gR0 g)) * ((1 - gc g 12%nat) / (gR0 g * gR0 g) * r + gc g 12%nat / r).
Proof. exact gs_current_l. Qed.
Theorem gs_rho : forall g r z, 0 < gR0 g -> 0 < r -> gpsi1 g <> gpsi0 g ->
  let u := fun r z => (B_GS_eval_psi g r z - gpsi0 g) / (gpsi1 g - gpsi0 g) in
  match B_GS_eval_rho_drho g r z with
  | None => u r z < 0
  | Some (rho, d) => 0 <= rho /\ rho * rho = u r z /\ vy d = 0 /\
      (0 < rho -> forall a b, Dx (fun t => sqrt (u t z)) r a -> Dx (fun t => sqrt (u r t)) z b -> vx d = gR0 g / r * a /\ vz d = gR0 g / r * b)
  end.
Proof. exact gs_rho_l. Qed.
(** the reported flux derivatives carry a spurious factor R0/R *)
Theorem gs_flux_derivatives_scaled : forall g r z a b, 0 < gR0 g -> 0 < r -> Dx (fun t => B_GS_eval_psi g t z) r a -> Dx (fun t => B_GS_eval_psi g r t) z b ->
  B_GS_eval_psi_dpsi g r z = (B_GS_eval_psi g r z, V (gR0 g / r * a) 0 (gR0 g / r * b)).
Proof. exact gs_dpsi_l. Qed.
Theorem gs_flux_derivatives_refuted : exists g r z a, 0 < gR0 g /\ 0 < r /\ Dx (fun t => B_GS_eval_psi g t z) r a /\ vx (snd (B_GS_eval_psi_dpsi g r z)) <> a.
Proof. exact gs_dpsi_refuted_l. Qed.
(** with ripple the reported field has a divergence, and its pattern is centred at 2 z0 *)
Theorem gs_ripple_divergence_refuted : exists g r phi z, 0 < gR0 g /\ 0 < r /\ ripple_smooth g r z /\ divergence (B_GS_eval_B_dB g r phi z) r <> 0.
Proof. exact gs_ripple_div_refuted_l. Qed.
Theorem gs_ripple_centre : forall g r phi d, 0 < gR0 g -> gR0 g < r -> vy (B_GS_eval_B g r phi (2 * gz0 g + d)) = vy (B_GS_eval_B g r phi (2 * gz0 g - d)).
Proof. exact gs_ripple_centre_l. Qed.
Theorem gs_ripple_midplane_refuted : exists g r phi d, 0 < gR0 g /\ gR0 g < r /\ 0 < ga0 g /\ vy (B_GS_eval_B g r phi (gz0 g + d)) <> vy (B_GS_eval_B g r phi (gz0 g - d)).
Proof. exact gs_ripple_midplane_refuted_l. Qed.

(** a concrete equilibrium: psi = R^4/8 + R^2, field at R = 2 *)
Example gs_example : vz (B_GS_eval_B gs_quad 2 0 0) = 4 /\ vx (B_GS_eval_B gs_quad 2 0 0) = 0 /\ vy (B_GS_eval_B gs_quad 2 0 0) = 1 / 2.
Proof.
  unfold B_GS_eval_B, gs_quad, poly_r, poly_z, one_coef. cbv zeta. cbn [gR0 gz0 gBphi0 gmult gc gN Nat.eqb vx vy vz]. change (0 <? 0)%Z with false. cbn [vx vy vz]. set (L := ln _). repeat split; field.
Qed.
Example gs_example_current : B_GS_eval_B_dB gs_quad 2 0 0 3%nat - B_GS_eval_B_dB gs_quad 2 0 0 9%nat = -2.
Proof. rewrite gs_toroidal_current by (cbn; lra). cbn. field. Qed.
Example gs_example_smooth : ripple_smooth (gs_rip 1) 2 2.
Proof. intros _. cbn. lra. Qed.
Example gs_example_rho : exists d, B_GS_eval_rho_drho gs_quad 2 0 = Some (sqrt 6, d).
Proof.
  unfold B_GS_eval_rho_drho, B_GS_eval_psi_dpsi. cbv zeta. rewrite gs_quad_psi. cbn [gpsi0 gpsi1 gs_quad]. replace ((2 * 2 * 2 * 2 / 8 + 2 * 2 - 0) / (1 - 0)) with 6 by field.
  destruct (Rlt_dec 6 0); [lra|]. eexists. reflexivity.
Qed.
Print Assumptions gs_field_from_flux.
Print Assumptions gs_derivatives.
Print Assumptions gs_divergence.
Print Assumptions gs_divergence_free.
Print Assumptions gs_toroidal_current.
Print Assumptions gs_rho.
Print Assumptions gs_flux_derivatives_scaled.
Print Assumptions gs_flux_derivatives_refuted.
Print Assumptions gs_ripple_divergence_refuted.
Print Assumptions gs_ripple_centre.
Print Assumptions gs_ripple_midplane_refuted.
