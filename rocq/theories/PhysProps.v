(** C54: the kinematic helpers of physlib.h. *)
From Coq Require Import Reals ZArith Lra Lia Psatz.
From Verif Require Import Vec PhysModel PhysProofs.
Local Open Scope R_scope.

(** speed and Lorentz factor *)
Theorem gamma_vnorm_lorentz : forall v, Rabs v < CONST_C ->
  0 < gamma_vnorm v /\ gamma_vnorm v * gamma_vnorm v * (CONST_C * CONST_C - v * v) = CONST_C * CONST_C.
Proof. intros. now apply lorentz_vnorm. Qed.
Print Assumptions gamma_vnorm_lorentz.
Theorem gamma_vnorm_inverse : forall g, 1 <= g -> gamma_vnorm (vnorm_gamma g) = g /\ 0 <= vnorm_gamma g < CONST_C.
Proof. intros. split; [now apply gamma_vnorm_inv | now apply vnorm_of_gamma]. Qed.
Print Assumptions gamma_vnorm_inverse.
Theorem vnorm_gamma_inverse : forall v, Rabs v < CONST_C -> vnorm_gamma (gamma_vnorm v) = Rabs v.
Proof. exact vnorm_gamma_inv. Qed.
Print Assumptions vnorm_gamma_inverse.
(** speed and momentum; the speed is below c and belongs to the same Lorentz factor *)
Theorem pnorm_vnorm_inverse : forall m p, 0 < m -> pnorm_vnorm m (vnorm_pnorm m p) = p /\ Rabs (vnorm_pnorm m p) < CONST_C /\
  gamma_vnorm (vnorm_pnorm m p) = gamma_pnorm m p.
Proof.
  intros m p M. pose proof (vnorm_pnorm_lorentz m p M) as L. pose proof (lorentz_below _ _ L) as V.
  split; [now apply pnorm_vnorm_inv|]. split; auto. eapply lorentz_unique; [apply lorentz_vnorm|]; eauto.
Qed.
Print Assumptions pnorm_vnorm_inverse.
Theorem vnorm_pnorm_inverse : forall m v, 0 < m -> Rabs v < CONST_C ->
  vnorm_pnorm m (pnorm_vnorm m v) = v /\ gamma_pnorm m (pnorm_vnorm m v) = gamma_vnorm v.
Proof. intros. split; [now apply vnorm_pnorm_inv | now apply pnorm_gamma]. Qed.
Print Assumptions vnorm_pnorm_inverse.
(** energy *)
Theorem energy_gamma_inverse : forall m, 0 < m ->
  (forall g, gamma_Ekin m (Ekin_gamma m g) = g) /\ (forall e, Ekin_gamma m (gamma_Ekin m e) = e).
Proof. exact energy_inv. Qed.
Print Assumptions energy_gamma_inverse.
Theorem Ekin_pnorm_increasing : forall m p p', 0 < m -> 0 <= p < p' -> 0 <= Ekin_pnorm m p < Ekin_pnorm m p'.
Proof. exact Ekin_mono. Qed.
Print Assumptions Ekin_pnorm_increasing.
(** guiding centre: magnetic moment and parallel momentum against momentum and pitch *)
Theorem gc_momentum_pitch_inverse : forall m p xi B, 0 < m -> 0 < p -> -1 <= xi <= 1 -> 0 < B ->
  gc_p m (gc_mu m p xi B) (gc_ppar p xi) B = p /\ gc_xi m (gc_mu m p xi B) (gc_ppar p xi) B = xi /\ 0 <= gc_mu m p xi B.
Proof.
  intros. split; [apply gc_p_inv; auto; lra|]. split; [now apply gc_xi_inv | now apply gc_mu_nonneg].
Qed.
Print Assumptions gc_momentum_pitch_inverse.
Theorem gc_mu_ppar_inverse : forall m mu ppar B, 0 < m -> 0 <= mu -> 0 < B -> gc_p m mu ppar B <> 0 ->
  gc_ppar (gc_p m mu ppar B) (gc_xi m mu ppar B) = ppar /\ gc_mu m (gc_p m mu ppar B) (gc_xi m mu ppar B) B = mu.
Proof. exact gc_mu_ppar_inv. Qed.
Print Assumptions gc_mu_ppar_inverse.
Theorem gc_momentum_decomposition : forall m mu ppar B, 0 < m -> 0 <= mu -> 0 <= B ->
  gc_p m mu ppar B * gc_p m mu ppar B = ppar * ppar + 2 * m * mu * B /\
  gamma_ppar m mu ppar B = gamma_pnorm m (gc_p m mu ppar B) /\
  gamma_vpar m mu (ppar / (m * gamma_ppar m mu ppar B)) B = gamma_ppar m mu ppar B.
Proof. intros. split; [now apply gc_p_sq|]. split; [now apply gamma_agree | now apply gamma_vpar_ok]. Qed.
Print Assumptions gc_momentum_decomposition.
(** the three ways back to the parallel momentum *)
Theorem ppar_recovered : forall m mu ppar B q, 0 < m -> 0 <= mu -> 0 < B -> q <> 0 ->
  ppar_Ekin m (Ekin_ppar m mu ppar B) mu B = Rabs ppar /\ ppar_mu m mu B q (gyrofreq_ppar m q mu ppar B) = Rabs ppar /\
  (forall Rr psi Bphi, Rr <> 0 -> Bphi <> 0 -> ppar_pphi B Rr Bphi (ptoroid_gc q Rr ppar psi B Bphi) q psi = ppar).
Proof.
  intros. split; [apply ppar_Ekin_inv; auto; lra|]. split; [now apply ppar_mu_inv|].
  intros. unfold ppar_pphi, ptoroid_gc. field. repeat split; auto. lra.
Qed.
Print Assumptions ppar_recovered.
(** the literals of consts.h: the square is within half a unit in the last place of a
    53-bit number, the cube is exact *)
Theorem c2_literal : (Z.abs (299792458 * 299792458 - CONST_C2_literal) <= 8 /\ 2 ^ 56 <= CONST_C2_literal < 2 ^ 57 /\ CONST_C2_literal mod 16 = 0)%Z /\
  (299792458 * 299792458 * 299792458 = CONST_C3_literal)%Z.
Proof. unfold CONST_C2_literal, CONST_C3_literal. repeat split; vm_compute; discriminate. Qed.
Print Assumptions c2_literal.
(** physlib_gyrolength_p takes the parallel momentum for the perpendicular one
    (it is not used in the code) *)
Theorem gyrolength_p_is_parallel : forall q (p B : vec), q <> 0 -> B <> vzero ->
  gyrolength_p q p B = dot p (unit B) / (Rabs q * norm B).
Proof. exact gyro_p_parallel. Qed.
Print Assumptions gyrolength_p_is_parallel.
(** phys_gyrolength_ppar is too large by the square root of the Lorentz factor (it is
    not used in the code): the perpendicular momentum is sqrt (2 m mu B) *)
Theorem gyrolength_ppar_factor : forall m q mu ppar B, 0 < m -> 0 <= mu -> 0 < B -> q <> 0 ->
  gyrolength_ppar m q mu ppar B = sqrt (gamma_ppar m mu ppar B) * (sqrt (2 * m * mu * B) / (Rabs q * B)).
Proof. exact gyro_ppar. Qed.
Print Assumptions gyrolength_ppar_factor.

(** v = 3/5 c has Lorentz factor 5/4; a unit mass then has momentum 3/4 c *)
Example three_fifths : gamma_vnorm (3 / 5 * CONST_C) = 5 / 4 /\ vnorm_gamma (5 / 4) = 3 / 5 * CONST_C /\
  pnorm_vnorm 1 (3 / 5 * CONST_C) = 3 / 4 * CONST_C /\ Ekin_gamma 2 (5 / 4) = CONST_C2 / 2.
Proof.
  pose proof C_pos. assert (G : gamma_vnorm (3 / 5 * CONST_C) = 5 / 4) by (unfold gamma_vnorm; apply sqrt_is; [lra|field; lra]).
  split; [exact G|]. split.
  - rewrite <- G, vnorm_gamma_inv; rewrite Rabs_right; lra.
  - split; [unfold pnorm_vnorm; rewrite G; field | unfold Ekin_gamma; field].
Qed.
(** mass 1, momentum 5, pitch 3/5, field 2: mu = 4, ppar = 3 *)
Example gc_345 : gc_mu 1 5 (3 / 5) 2 = 4 /\ gc_ppar 5 (3 / 5) = 3 /\ gc_p 1 4 3 2 = 5.
Proof.
  assert (M : gc_mu 1 5 (3 / 5) 2 = 4) by (unfold gc_mu; field). assert (P : gc_ppar 5 (3 / 5) = 3) by (unfold gc_ppar; field).
  split; auto. split; auto. assert (H : gc_p 1 (gc_mu 1 5 (3 / 5) 2) (gc_ppar 5 (3 / 5)) 2 = 5) by (apply gc_p_inv; lra). now rewrite M, P in H.
Qed.
(** a momentum perpendicular to the field has gyrolength zero in physlib_gyrolength_p *)
Example gyrolength_p_wrong : gyrolength_p 1 (V 1 0 0) (V 0 0 1) = 0.
Proof. unfold gyrolength_p, dot. cbn. field. rewrite Rabs_R1. lra. Qed.
