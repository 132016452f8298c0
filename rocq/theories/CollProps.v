(** Properties of the collision coefficients and the particle step (src/simulate/mccc). *)
From Coq Require Import Reals Lra Lia ZArith List Bool.
From Verif Require Import Vec ErrorModel Deriv PhysModel PhysProofs StepFoModel StepFoProofs GcModel Erf CollModel CollProofs.
Import ListNotations.
Local Open Scope R_scope.

(** C49. *)
Theorem coll_special_function : forall x, x <> 0 -> Dx mu0 x (dmu0 x).
Proof. exact mu0_d. Qed.
Print Assumptions coll_special_function.
Theorem coll_special_small : forall x, 0 < x -> 0 <= 4 / (3 * sqrt PI) - mu0 x / x <= 4 * (x * x) / (5 * sqrt PI).
Proof. exact mu0_small. Qed.
Print Assumptions coll_special_small.
Section C49.
Variables (ma qa T : R) (cl : psp -> R) (sp : list psp).
Hypothesis M : 0 < ma.
Hypothesis ok : Forall (fun s => sp_ok s /\ s_T s = T) sp.
Notation Q v := (acc (Q_of ma qa cl v) sp). Notation F v := (acc (F_of ma qa cl v) sp). Notation K v := (acc (K_of ma qa cl v) sp).
Notation Dp v := (acc (Dpara_of ma qa cl v) sp). Notation Dt v := (acc (Dperp_of ma qa cl v) sp). Notation dDp v := (acc (dDpara_of ma qa cl v) sp).
Notation dQ v := (acc (dQ_of ma qa cl v) sp). Notation nu v := (acc (nu_of ma qa cl v) sp).
Notation maxwell_speed := (maxwell_speed ma T). Notation maxwell := (maxwell ma T).
Theorem coll_derivative_D : forall v, 0 < v -> Dx (fun u => Dp u) v (dDp v).
Proof. exact (sum_Dd ma qa T cl sp M ok). Qed.
Theorem coll_derivative_Q : forall v, 0 < v -> Dx (fun u => Q u) v (dQ v).
Proof. exact (sum_Qd ma qa T cl sp M ok). Qed.
Theorem coll_einstein : forall v, 0 < v -> Q v = - (ma * v / T) * Dp v.
Proof. exact (sum_Q ma qa T cl sp M ok). Qed.
Theorem coll_drag_particle : forall v, 0 < v -> F v = Q v + dDp v + 2 * (Dp v - Dt v) / v.
Proof. exact (sum_F ma qa T cl sp M ok). Qed.
Theorem coll_drag_centre : forall v, 0 < v -> K v = Q v + dDp v + 2 * Dp v / v.
Proof. exact (sum_K ma qa T cl sp ok). Qed.
Theorem coll_gc_stationary : forall v, 0 < v -> sp <> [] -> Dx (fun u => Dp u * maxwell_speed u) v (K v * maxwell_speed v).
Proof. exact (gc_stationary ma qa T cl sp M ok). Qed.
Theorem coll_pitch_stationary : forall v xi, Dx (fun y => (1 - y * y) * nu v / 2) xi (- xi * nu v).
Proof. exact (pitch_stationary ma qa cl sp). Qed.
Theorem coll_fo_stationary : forall u i, u <> vzero -> sp <> [] -> (i < 3)%nat ->
  divergence (fun j w => entry i j (Dp (norm w)) (Dt (norm w)) w * maxwell w) u (F (norm u) * (comp i u / norm u) * maxwell u).
Proof. exact (fo_stationary ma qa T cl sp M ok). Qed.
End C49.
Print Assumptions coll_derivative_D.
Print Assumptions coll_derivative_Q.
Print Assumptions coll_einstein.
Print Assumptions coll_drag_particle.
Print Assumptions coll_drag_centre.
Print Assumptions coll_gc_stationary.
Print Assumptions coll_pitch_stationary.
Print Assumptions coll_fo_stationary.
(** a Maxwellian of another temperature is not stationary: the flux has the sign of the difference *)
Theorem coll_other_temperature : forall ma qa T cl sp, 0 < ma -> Forall (fun s => sp_ok s /\ s_T s = T) sp -> forall T' v, 0 < v -> 0 < T' -> sp <> [] ->
  Dx (fun u => acc (Dpara_of ma qa cl u) sp * maxwell_speed ma T' u) v
     ((acc (K_of ma qa cl v) sp + acc (Dpara_of ma qa cl v) sp * (ma * v) * (1 / T - 1 / T')) * maxwell_speed ma T' v).
Proof. exact other_temperature. Qed.
Print Assumptions coll_other_temperature.
Section one.
Variables (ma qa : R) (cl : psp -> R).
Hypothesis M : 0 < ma.
Notation Q := (Q_of ma qa cl). Notation F := (F_of ma qa cl). Notation Dp := (Dpara_of ma qa cl). Notation Dt := (Dperp_of ma qa cl).
Theorem coll_signs : forall v s, sp_ok s -> 0 < v -> qa <> 0 -> s_q s <> 0 -> 0 < cl s -> F v s < 0 /\ Q v s < 0 /\ 0 < Dp v s /\ 0 < Dt v s /\ 0 < nu_of ma qa cl v s.
Proof. exact (coef_signs ma qa cl M). Qed.
Theorem coll_small_speed : forall v s, sp_ok s -> 0 < v ->
  Rabs (Dp v s - Dp 0 s) <= Rabs (cab qa (s_q s) (s_n s) (cl s)) / (2 * ma * ma * vth s) * (4 * ((v / vth s) * (v / vth s)) / (5 * sqrt PI)).
Proof. exact (Dpara_small ma qa cl M). Qed.
End one.
Print Assumptions coll_signs.
Print Assumptions coll_small_speed.
Theorem coll_logarithm : forall sp ma qa va s, 0 < debye sp -> 0 < ma -> sp_ok s ->
  clog sp ma qa va s = ln (debye sp / Rmax (bcl ma qa va s) (bqm ma va s)) /\ 0 < bqm ma va s /\
  (0 < clog sp ma qa va s <-> bcl ma qa va s < debye sp /\ bqm ma va s < debye sp).
Proof. exact clog_max. Qed.
Print Assumptions coll_logarithm.
Theorem coll_debye : forall sp, Forall sp_ok sp -> Exists (fun s => s_q s <> 0) sp -> 0 < debye sp.
Proof. exact debye_pos. Qed.
Print Assumptions coll_debye.
Theorem coll_impact : forall ma qa va s, 0 < ma -> sp_ok s -> let mr := / (/ ma + / s_m s) in let u := sqrt (va * va + 2 * s_T s / s_m s) in
  4 * PI * CONST_E0 * bcl ma qa va s * (mr * (u * u)) = Rabs (qa * s_q s) /\ 2 * (mr * u) * bqm ma va s = CONST_HBAR.
Proof. exact impact. Qed.
Print Assumptions coll_impact.
Theorem coll_spatial_diffusion : forall v xi zeta A B w, 0 < v -> -1 <= xi <= 1 -> w <> 0 ->
  let u z := V (v * sqrt (1 - xi * xi) * cos z) (v * sqrt (1 - xi * xi) * sin z) (v * xi) in
  coef_DX xi A B w * (w * w) = (entry 0 0 A B (u zeta) + entry 0 0 A B (u (zeta + PI / 2))) / 2.
Proof. exact DX_average. Qed.
Print Assumptions coll_spatial_diffusion.
(** deuterium-like ions and electrons of one temperature *)
Definition two := [PS 4 1 5 3; PS 1 (-1) 5 3].
Example two_stationary : forall v, 0 < v -> let cl := fun _ => 15 in
  Dx (fun u => acc (Dpara_of 2 7 cl u) two * maxwell_speed 2 3 u) v (acc (K_of 2 7 cl v) two * maxwell_speed 2 3 v) /\
  0 < acc (Dpara_of 2 7 cl v) two /\ acc (Q_of 2 7 cl v) two < 0.
Proof.
  intros v V cl. assert (O : Forall (fun s => sp_ok s /\ s_T s = 3) two) by (repeat constructor; cbn; lra).
  assert (D : 0 < acc (Dpara_of 2 7 cl v) two). { unfold two. rewrite !acc_cons, acc_nil. destruct (coef_signs 2 7 cl ltac:(lra) v (PS 4 1 5 3)) as (_ & _ & A & _); try (cbn; lra); try (unfold sp_ok; cbn; lra); try (unfold cl; lra); auto.
    destruct (coef_signs 2 7 cl ltac:(lra) v (PS 1 (-1) 5 3)) as (_ & _ & B & _); try (cbn; lra); try (unfold sp_ok; cbn; lra); try (unfold cl; lra); auto. }
  split; [|split; [exact D|]].
  - apply (coll_gc_stationary 2 7 3 cl two); auto; [lra|discriminate].
  - rewrite (coll_einstein 2 7 3 cl two ltac:(lra) O v V). assert (0 < 2 * v / 3) by lra. nra.
Qed.
(** at rest the particle coefficients are finite *)
Example rest : mu0 0 = 0 /\ Dpara_of 1 1 (fun _ => 1) 0 (PS 2 1 1 1) = cab 1 1 1 1 * 4 / (6 * sqrt PI * 1 * 1 * sqrt (2 * 1 / 2)).
Proof. split; [unfold mu0, mufun; destruct (Req_EM_T 0 0); [reflexivity|lra]|]. unfold Dpara_of, coef_Dpara, vth. cbn [s_q s_n s_T s_m]. destruct (Rlt_dec 0 0); [lra|reflexivity]. Qed.

(** C79. *)
Theorem coll_kick_law : forall F Dp Dt h u, 0 <= Dp -> 0 <= Dt -> 0 <= h -> u <> vzero ->
  exists W : vec -> vec,
    (forall rnd e, dot e (vsub (fo_kick F Dp Dt h u rnd) u) = F * h * dot e (unit u) + dot (W e) rnd) /\
    (forall e e', dot (W e) (W e') = 2 * h * (Dp * (dot e (unit u) * dot e' (unit u)) + Dt * (dot e e' - dot e (unit u) * dot e' (unit u)))).
Proof. exact kick_law. Qed.
Print Assumptions coll_kick_law.
Section C79.
Variables (evalFlow : R -> R -> R -> R -> R -> Z * R) (evalPlasma : R -> R -> R -> R -> R -> Z * list psp).
Notation stp := (mccc_fo_euler evalFlow evalPlasma).
Theorem coll_fo_idle : forall h rnd p, frun p = false -> stp h rnd p = Some p.
Proof. exact (fo_coll_idle evalFlow evalPlasma). Qed.
Theorem coll_fo_error : forall h rnd p e vf e' sp, frun p = true ->
  evalFlow (frho p) (fr p) (fphi p) (fz p) (ftime p) = (e, vf) -> evalPlasma (frho p) (fr p) (fphi p) (fz p) (ftime p) = (e', sp) -> e <> 0%Z \/ e' <> 0%Z ->
  exists q, stp h rnd p = Some q /\ mrest p q /\ fp q = fp p /\ frun q = false /\ ferr q = (if (e =? 0)%Z then e' else e).
Proof. exact (fo_coll_error evalFlow evalPlasma). Qed.
Theorem coll_fo_step : forall h rnd p q vf sp, frun p = true -> 0 < fmass p ->
  evalFlow (frho p) (fr p) (fphi p) (fz p) (ftime p) = (0%Z, vf) -> evalPlasma (frho p) (fr p) (fphi p) (fz p) (ftime p) = (0%Z, sp) ->
  stp h rnd p = Some q ->
  let u := vsub (vel p) (flow p vf) in let cl := clog sp (fmass p) (fcharge p) (norm u) in
  let F := acc (F_of (fmass p) (fcharge p) cl (norm u)) sp in let Dp := acc (Dpara_of (fmass p) (fcharge p) cl (norm u)) sp in let Dt := acc (Dperp_of (fmass p) (fcharge p) cl (norm u)) sp in
  u <> vzero /\ 0 <= h /\ 0 <= Dp /\ 0 <= Dt /\ mrest p q /\ ferr q = ferr p /\ frun q = true /\ norm (vel q) < CONST_C /\
  vsub (vel q) (flow q vf) = fo_kick F Dp Dt h u rnd.
Proof. exact (fo_coll_step evalFlow evalPlasma). Qed.
Theorem coll_fo_zero : forall rnd p q vf sp, frun p = true -> 0 < fmass p ->
  evalFlow (frho p) (fr p) (fphi p) (fz p) (ftime p) = (0%Z, vf) -> evalPlasma (frho p) (fr p) (fphi p) (fz p) (ftime p) = (0%Z, sp) ->
  stp 0 rnd p = Some q -> q = p.
Proof. exact (fo_coll_0 evalFlow evalPlasma). Qed.
Theorem coll_fo_fail : forall h rnd p vf sp, frun p = true -> 0 < fmass p -> fcharge p <> 0 ->
  evalFlow (frho p) (fr p) (fphi p) (fz p) (ftime p) = (0%Z, vf) -> evalPlasma (frho p) (fr p) (fphi p) (fz p) (ftime p) = (0%Z, sp) ->
  let u := vsub (vel p) (flow p vf) in let cl := clog sp (fmass p) (fcharge p) (norm u) in
  u <> vzero -> 0 <= h -> sp <> [] -> Forall (fun s => sp_ok s /\ s_q s <> 0 /\ 0 < cl s) sp ->
  let F := acc (F_of (fmass p) (fcharge p) cl (norm u)) sp in let Dp := acc (Dpara_of (fmass p) (fcharge p) cl (norm u)) sp in let Dt := acc (Dperp_of (fmass p) (fcharge p) cl (norm u)) sp in
  (stp h rnd p = None <-> CONST_C <= norm (vadd (fo_kick F Dp Dt h u rnd) (flow p vf))).
Proof. exact (fo_coll_fail evalFlow evalPlasma). Qed.
End C79.
Print Assumptions coll_fo_idle.
Print Assumptions coll_fo_error.
Print Assumptions coll_fo_step.
Print Assumptions coll_fo_zero.
Print Assumptions coll_fo_fail.
(** a marker moving along x, no flow: drag along x, parallel noise from the first number only *)
Example kick_example : forall F Dp Dt, fo_kick F Dp Dt 1 (V 2 0 0) (V 1 1 0) = V (2 + F + sqrt (2 * Dp)) (sqrt (2 * Dt)) 0.
Proof.
  intros F Dp Dt. assert (U : norm (V 2 0 0) = 2) by (unfold norm; cbn [vx vy vz]; replace (2 * 2 + 0 * 0 + 0 * 0) with (2 * 2) by ring; apply sqrt_square; lra).
  unfold fo_kick, unit. rewrite U, sqrt_1. unfold dot. cbn [vx vy vz]. apply f_equal3; field.
Qed.
(** the step runs: a marker at rest in the laboratory and a plasma flowing past it at 1 m/s *)
Definition gas := [PS 1 1 CONST_E0 1].
Definition still := Fom 1 0 0 0 1 CONST_E0 (V 0 0 0) (fun j => if Nat.eqb j 4 then 1 else 0) 0 0 0 true.
Example still_runs : exists q, mccc_fo_euler (fun _ _ _ _ _ => (0%Z, 1)) (fun _ _ _ _ _ => (0%Z, gas)) 0 (V 0 0 0) still = Some q /\ q = still.
Proof.
  set (ef := fun _ _ _ _ _ => (0%Z, 1)). set (ep := fun _ _ _ _ _ => (0%Z, gas)).
  assert (N1 : norm (Bvec (fB still)) = 1) by (unfold norm, Bvec, still; cbn; replace (0 * 0 + 1 * 1 + 0 * 0) with 1 by ring; apply sqrt_1).
  assert (U : vsub (vel still) (flow still 1) = V 0 (- (1)) 0).
  { unfold vel, flow, cart_p, unit, to_xyz. rewrite N1. unfold still, Bvec. cbn [fp fmass fphi fB vx vy vz Nat.eqb]. rewrite sin_0, cos_0. unfold vsub, vscal. cbn [vx vy vz]. apply f_equal3; field; pose proof (proj2 (gamma_pnorm_sq 1 (norm (V 0 0 0)) ltac:(lra))); unfold gam; cbn [fmass fp]; lra. }
  assert (NU : norm (V 0 (- (1)) 0) = 1) by (unfold norm; cbn [vx vy vz]; replace (0 * 0 + - (1) * - (1) + 0 * 0) with 1 by ring; apply sqrt_1).
  assert (D : debye gas = 1). { unfold debye, gas. cbn [fold_left s_n s_q s_T]. replace (CONST_E0 / (0 + CONST_E0 * 1 * 1 / 1)) with 1 by (field; unfold CONST_E0; lra). apply sqrt_1. }
  assert (E0 : CONST_E0 <> 0) by (unfold CONST_E0; lra). pose proof PI_RGT_0.
  destruct (mccc_fo_euler ef ep 0 (V 0 0 0) still) as [q|] eqn:H1.
  - exists q. split; [reflexivity|]. apply (coll_fo_zero ef ep (V 0 0 0) still q 1 gas); auto; cbn; lra.
  - exfalso. pose proof (coll_fo_fail ef ep 0 (V 0 0 0) still 1 gas eq_refl ltac:(cbn; lra) E0 eq_refl eq_refl) as X. cbv zeta in X. rewrite U, NU in X. apply X in H1; [| |lra|discriminate|].
    + rewrite kick_0 in H1. unfold flow, unit in H1. rewrite N1 in H1. unfold still, Bvec, to_xyz in H1. cbn [fB fphi vx vy vz Nat.eqb] in H1. rewrite sin_0, cos_0 in H1. unfold vadd, vscal in H1. cbn [vx vy vz] in H1. unfold norm in H1. cbn [vx vy vz] in H1.
      match type of H1 with _ <= sqrt ?a => replace a with 0 in H1 by field end. rewrite sqrt_0 in H1. pose proof C_pos. lra.
    + intros Z. injection Z. lra.
    + constructor; [|constructor]. split; [unfold sp_ok, CONST_E0; cbn; lra|]. split; [cbn; lra|]. apply clog_max; [rewrite D; lra|cbn; lra|unfold sp_ok, CONST_E0; cbn; lra|]. rewrite D. split.
      * unfold bcl, still. cbn [fmass fcharge s_q s_m s_T]. pose proof PI2_1 as P21. replace (CONST_E0 * 1 / (4 * PI * CONST_E0 * (1 * 1 / (1 + 1)) * (1 * 1 + 2 * 1 / 1))) with (/ (6 * PI)) by (field; repeat split; first [exact E0|lra]).
        rewrite Rabs_pos_eq by (left; apply Rinv_0_lt_compat; lra). rewrite <- Rinv_1. apply Rinv_lt_contravar; lra.
      * unfold bqm, still. cbn [fmass s_m s_T]. assert (S1 : 1 <= sqrt (1 * 1 + 2 * 1 / 1)) by (rewrite <- sqrt_1 at 1; apply sqrt_le_1_alt; lra). set (k := sqrt (1 * 1 + 2 * 1 / 1)) in *. clearbody k.
        replace (CONST_HBAR / (2 * (1 * 1 / (1 + 1)) * k)) with (CONST_HBAR * / k) by (field; lra). assert (0 < / k <= 1) by (split; [apply Rinv_0_lt_compat; lra|rewrite <- Rinv_1; apply Rinv_le_contravar; lra]).
        assert (0 < CONST_HBAR < / 2) by (unfold CONST_HBAR; lra). rewrite Rabs_pos_eq by nra. nra.
Qed.
