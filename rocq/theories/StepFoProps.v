(** C32: the full-orbit step. *)
From Coq Require Import Reals ZArith List Lra Lia Psatz.
From Verif Require Import Deriv Vec PhysModel PhysProofs StepFoModel StepFoProofs.
Local Open Scope R_scope.

(** ** The momentum update *)
Theorem boris_conserves_norm : forall q m h B p, 0 < m -> norm (boris q m h vzero B p) = norm p /\ dot (boris q m h vzero B p) B = dot p B.
Proof. intros q m h B p M. destruct (boris_noE q m h B p M). split; auto. now apply norm_eq. Qed.
Print Assumptions boris_conserves_norm.
Theorem boris_time_reversible : forall q m h E B p, 0 < m -> boris q m (- h) E B (boris q m h E B p) = p.
Proof. exact boris_reverse. Qed.
Print Assumptions boris_time_reversible.
(** the update is consistent with the Lorentz force qE + q (p / (gamma m)) x B *)
Theorem boris_lorentz_force : forall q m E B p, 0 < m ->
  let F := vadd (vscal q E) (vscal (q / (gamma_pnorm m (norm p) * m)) (cross p B)) in
  boris q m 0 E B p = p /\
  derivable_pt_lim (fun h => vx (boris q m h E B p)) 0 (vx F) /\ derivable_pt_lim (fun h => vy (boris q m h E B p)) 0 (vy F) /\
  derivable_pt_lim (fun h => vz (boris q m h E B p)) 0 (vz F).
Proof. intros q m E B p M F. split; [now apply boris_zero_step|]. now apply boris_force. Qed.
Print Assumptions boris_lorentz_force.
Theorem boris_neutral_constant : forall m h E B p, 0 < m -> boris 0 m h E B p = p.
Proof. exact boris_neutral. Qed.
Print Assumptions boris_neutral_constant.

(** ** The whole step, for arbitrary field evaluations *)
(** without radiation reaction the step is: half a step with the old velocity, momentum
    update with the fields there at half time, half a step with the new velocity; a field
    error leaves the phase-space position alone and ends the marker; the angle is
    cumulative *)
Theorem fo_step_is_drift_kick_drift : forall fields evalBdB evalPsi evalRho evalAxis h p q,
  frun p = true -> 0 < fr p -> 0 < fmass p -> fo_step fields evalBdB evalPsi evalRho evalAxis h 0 p = Some q ->
  exists r1 phi1 z1 e B E, pos_xyz r1 phi1 z1 = drift (fmass p) h (cart_p p) (cart_x p) /\ 0 <= r1 /\ - PI < phi1 <= PI /\
   fields r1 phi1 z1 (ftime p + h / 2) = (e, B, E) /\
   (e = 0%Z -> cart_p q = boris (fcharge p) (fmass p) h (to_xyz E phi1) (to_xyz B phi1) (cart_p p) /\
               cart_x q = drift (fmass p) h (cart_p q) (pos_xyz r1 phi1 z1) /\ Rabs (fphi q - fphi p) <= PI) /\
   (e <> 0%Z -> fr q = fr p /\ fphi q = fphi p /\ fz q = fz p /\ fp q = fp p /\ ferr q = e /\ frun q = false) /\
   ftime q = ftime p /\ fmass q = fmass p /\ fcharge q = fcharge p /\ 0 <= fr q.
Proof.
  intros fields evalBdB evalPsi evalRho evalAxis h p q A B C H.
  destruct (fo_cart fields evalBdB evalPsi evalRho evalAxis h p q A B C H) as (r1 & phi1 & z1 & e & Bv & E & X & Z).
  exists r1, phi1, z1, e, Bv, E. rewrite X. split; [reflexivity|exact Z].
Qed.
Print Assumptions fo_step_is_drift_kick_drift.
Theorem fo_step_conserves_momentum_norm : forall fields evalBdB evalPsi evalRho evalAxis hs p q,
  (forall r phi z t, snd (fields r phi z t) = vzero) -> 0 < fmass p -> 0 < fr p ->
  (forall hs' q', (exists hs'', hs = (hs' ++ hs'')%list) -> fo_steps fields evalBdB evalPsi evalRho evalAxis hs' p = Some q' -> fr q' <> 0) ->
  fo_steps fields evalBdB evalPsi evalRho evalAxis hs p = Some q ->
  norm (fp q) = norm (fp p) /\ Ekin_pnorm (fmass q) (norm (fp q)) = Ekin_pnorm (fmass p) (norm (fp p)).
Proof.
  intros fields evalBdB evalPsi evalRho evalAxis hs p q A B C D E. destruct (fo_energy_run fields evalBdB evalPsi evalRho evalAxis hs p q A B C D E) as [N M]. now rewrite N, M.
Qed.
Print Assumptions fo_step_conserves_momentum_norm.
Theorem fo_step_neutral_ballistic : forall fields evalBdB evalPsi evalRho evalAxis h p q,
  frun p = true -> fcharge p = 0 -> 0 < fr p -> 0 < fmass p -> fo_step fields evalBdB evalPsi evalRho evalAxis h 0 p = Some q ->
  (forall r phi z t, fst (fst (fields r phi z t)) = 0%Z) ->
  cart_p q = cart_p p /\
  cart_x q = vadd (cart_x p) (vscal (h / (gamma_pnorm (fmass p) (norm (fp p)) * fmass p)) (cart_p p)).
Proof. exact fo_neutral. Qed.
Print Assumptions fo_step_neutral_ballistic.
Theorem fo_step_idle : forall fields evalBdB evalPsi evalRho evalAxis h a p, frun p = false ->
  fo_step fields evalBdB evalPsi evalRho evalAxis h a p = Some p.
Proof. exact fo_idle. Qed.
Print Assumptions fo_step_idle.
Theorem fo_step_error_stops : forall fields evalBdB evalPsi evalRho evalAxis h a p q, frun p = true ->
  fo_step fields evalBdB evalPsi evalRho evalAxis h a p = Some q -> frun q = true -> ferr q = ferr p.
Proof. exact fo_error. Qed.
Print Assumptions fo_step_error_stops.

(** ** Findings on the radiation reaction *)
(** motion along the field must not radiate, but the code changes such a momentum *)
Theorem ald_parallel_motion_refuted : forall q m g B k, 0 < m -> k <> 0 -> 0 < norm B ->
  let p := vscal k B in let P := norm p in
  ald 1 q m g B p = Some (vscal (1 - ald_force_chartime q m (norm B) g * ((1 - 1 / P) + (P - 1) * (P - 1) / (m * m * CONST_C2))) p).
Proof. exact ald_parallel. Qed.
Print Assumptions ald_parallel_motion_refuted.
(** a marker at rest ends up with a momentum that is not a number, radiation reaction or not *)
Theorem fo_step_at_rest_refuted : forall a q m g B, ald a q m g B vzero = None.
Proof. exact ald_rest. Qed.
Print Assumptions fo_step_at_rest_refuted.
(** the change does not scale with the length of the step: a step of zero length applies it too *)
Theorem ald_ignores_step_length_refuted : forall fields evalBdB evalPsi evalRho evalAxis p B E BdB psi rho ax,
  frun p = true -> 0 < fr p -> 0 < fmass p ->
  (forall r phi z t, fields r phi z t = (0%Z, B, E)) -> (forall r phi z t, evalBdB r phi z t = (0%Z, BdB)) -> (forall r phi z t, evalPsi r phi z t = (0%Z, psi)) ->
  (forall s, evalRho s = (0%Z, rho)) -> (forall s, evalAxis s = (0%Z, ax)) ->
  forall a, option_map fp (fo_step fields evalBdB evalPsi evalRho evalAxis 0 a p) =
            ald a (fcharge p) (fmass p) (gamma_pnorm (fmass p) (norm (fp p))) (V (BdB 0%nat) (BdB 4%nat) (BdB 8%nat)) (fp p).
Proof. exact fo_zero_step. Qed.
Print Assumptions ald_ignores_step_length_refuted.

(** ** Examples *)
(** a rotation by a right angle: d |B| = 1 *)
Example boris_quarter_turn : forall m, 0 < m ->
  boris 1 m (2 * m * sqrt 2) vzero (V 0 0 1) (V (m * CONST_C) 0 0) = V 0 (- (m * CONST_C)) 0.
Proof.
  intros m M. pose proof (mc_pos m M). pose proof C_pos. rewrite boris_rot. cbv zeta. unfold kick. rewrite vscal_zero, !vadd_zero.
  replace (vscal (/ (m * CONST_C)) (V (m * CONST_C) 0 0)) with (V 1 0 0) by (unfold vscal; cbn [vx vy vz]; f_equal; field; nz).
  assert (A : angle 1 m (2 * m * sqrt 2) (V 1 0 0) = 1).
  { unfold angle, dot. cbn [vx vy vz]. replace (1 + (1 * 1 + 0 * 0 + 0 * 0)) with 2 by ring. pose proof (sqrt_lt_R0 2). field. split; lra. }
  rewrite A. unfold rot, cross, vadd, vscal, dot, vzero. cbn [vx vy vz]. f_equal; field.
Qed.
(** a running neutral marker really takes a step *)
Example fo_step_takes_a_step : exists q,
  fo_step (fun _ _ _ _ => (0%Z, V 0 0 1, vzero)) (fun _ _ _ _ => (0%Z, fun i => if Nat.eqb i 8 then 1 else 0)) (fun _ _ _ _ => (0%Z, 0)) (fun _ => (0%Z, 0)) (fun _ => (0%Z, (0, 0)))
    2 0 (Fom 1 0 0 0 1 0 (V 0 1 0) (fun _ => 0) 0 0 0 true) = Some q /\ frun q = true.
Proof.
  unfold fo_step. cbv zeta. cbn [frun fr fphi fz ftime fmass fcharge fp Z.eqb fB ferr frho ftheta]. unfold ald. cbv zeta.
  set (w := V (_ + _) _ _). destruct (Req_EM_T _ _) as [E|_].
  - exfalso. assert (N1 : norm (V ((fun i => if Nat.eqb i 8 then 1 else 0) 0%nat) ((fun i => if Nat.eqb i 8 then 1 else 0) 4%nat) ((fun i => if Nat.eqb i 8 then 1 else 0) 8%nat)) = 1).
    { unfold norm, dot. cbn. replace (0 * 0 + 0 * 0 + 1 * 1) with 1 by ring. apply sqrt_1. }
    cbn in N1. cbn in E. rewrite N1 in E. rewrite !Rmult_1_l in E. apply norm_zero in E.
    unfold w in E. rewrite boris_neutral in E by lra. unfold to_xyz, vzero in E. cbn [vx vy vz] in E. rewrite cos_0, sin_0 in E.
    injection E as E1 E2. match goal with H : context [sin ?x] |- _ => set (a := x) in * end. clearbody a. pose proof (trig1 a) as T. assert (sin a = 0) by lra. assert (cos a = 0) by lra. nra.
  - eexists. split; reflexivity.
Qed.
