(** C33, C34, C35, C66: guiding-centre and field-line equations, integrators, step control. *)
From Coq Require Import Reals ZArith List Lra Lia Psatz FunctionalExtensionality.
From Verif Require Import Deriv MathModel MathProofs Vec PhysModel PhysProofs GcModel GcProofs RkProofs GcStepProofs.
Import ListNotations.
Local Open Scope R_scope.

(** ** C33: conservation laws of the equations of motion *)
(** [follows Y b t D yd]: at time t the trajectory Y moves with the derivatives yd, and the
    field b it sees is Bvec D, changing by the gradient in D along the motion *)
Theorem gc_energy_balance : forall m q D E ald Y b t,
  let n := norm (Bvec D) in let y := Y t in let yd := gceom m q D E ald y in
  let gamma := gamma_ppar m (y 4%nat) (y 3%nat) n in
  follows Y b t D yd -> 0 < m -> q <> 0 -> y 0%nat <> 0 -> 0 < n -> 0 <= y 4%nat ->
  dot (vscal (/ n) (Bvec D)) (Bstar q (y 3%nat) D (y 0%nat)) <> 0 ->
  derivable_pt_lim (fun s => Ekin_ppar m (Y s 4%nat) (Y s 3%nat) (norm (b s))) t
     (q * dot E (velocity (y 0%nat) yd) - ald * ald_force_chartime q m n gamma * (2 * y 4%nat * n / (m * CONST_C2)) * (gamma * m * CONST_C2)).
Proof. exact gceom_energy. Qed.
Print Assumptions gc_energy_balance.
Theorem gc_energy_conserved : forall m q D Y b t,
  let n := norm (Bvec D) in let y := Y t in
  follows Y b t D (gceom m q D vzero 0 y) -> 0 < m -> q <> 0 -> y 0%nat <> 0 -> 0 < n -> 0 <= y 4%nat ->
  dot (vscal (/ n) (Bvec D)) (Bstar q (y 3%nat) D (y 0%nat)) <> 0 ->
  derivable_pt_lim (fun s => Ekin_ppar m (Y s 4%nat) (Y s 3%nat) (norm (b s))) t 0.
Proof.
  intros m q D Y b t n y F M Q R0 N MU P. pose proof (gceom_energy m q D vzero 0 Y b t F M Q R0 N MU P) as H.
  eapply d_eq; [exact H|]. unfold dot, vzero. cbn [vx vy vz]. ring.
Qed.
Print Assumptions gc_energy_conserved.
Theorem gc_mhd_energy_balance : forall m q D E K ald Y b t,
  let n := norm (Bvec D) in let y := Y t in let yd := gceom_mhd m q D E K ald y in
  let gamma := gamma_ppar m (y 4%nat) (y 3%nat) n in
  let Et := vsub (vsub E (V (K 7%nat) (K 8%nat) (K 9%nat))) (vscal (K 1%nat) (Bvec D)) in
  follows Y b t D yd -> 0 < m -> q <> 0 -> y 0%nat <> 0 -> 0 < n -> 0 <= y 4%nat ->
  dot (vscal (/ n) (Bvec D)) (Bstar_mhd q (y 3%nat) D K (y 0%nat)) <> 0 ->
  derivable_pt_lim (fun s => Ekin_ppar m (Y s 4%nat) (Y s 3%nat) (norm (b s))) t
     (q * dot Et (velocity (y 0%nat) yd) - ald * ald_force_chartime q m n gamma * (2 * y 4%nat * n / (m * CONST_C2)) * (gamma * m * CONST_C2)).
Proof. exact gceom_mhd_energy. Qed.
Print Assumptions gc_mhd_energy_balance.
Theorem gc_mu_constant : forall m q D E K y, gceom m q D E 0 y 4%nat = 0 /\ gceom_mhd m q D E K 0 y 4%nat = 0.
Proof. intros. split; apply eom_4. Qed.
Print Assumptions gc_mu_constant.
Theorem gc_gyrophase_rate : forall m q D E ald y, gceom m q D E ald y 5%nat = q * norm (Bvec D) / (gamma_ppar m (y 4%nat) (y 3%nat) (norm (Bvec D)) * m).
Proof. reflexivity. Qed.
Print Assumptions gc_gyrophase_rate.
(** drifts in fields where they are known *)
Definition uniform_vertical (B : R) : nat -> R := fun i => if Nat.eqb i 8 then B else 0.
Theorem gc_ExB_drift : forall m q B E y, 0 < m -> q <> 0 -> 0 < B -> 0 < y 0%nat -> 0 <= y 4%nat ->
  let yd := gceom m q (uniform_vertical B) E 0 y in let gamma := gamma_ppar m (y 4%nat) (y 3%nat) B in
  velocity (y 0%nat) yd = vadd (V 0 0 (y 3%nat / (gamma * m))) (vscal (/ (B * B)) (cross E (V 0 0 B))) /\ yd 3%nat = q * vz E.
Proof.
  intros m q B E y M Q HB R0 MU yd gamma.
  assert (N : sqrt (dot (Bvec (uniform_vertical B)) (Bvec (uniform_vertical B))) = B).
  { unfold Bvec, uniform_vertical, dot. cbn. replace (0 * 0 + 0 * 0 + B * B) with (B * B) by ring. apply sqrt_square. lra. }
  assert (G : 0 < gamma) by (apply gc_gamma_pos; lra).
  assert (GB : gradB (uniform_vertical B) (y 0%nat) = vzero).
  { unfold gradB, vzero. cbv zeta. rewrite N. unfold Bvec, uniform_vertical. cbn. f_equal; field; lra. }
  unfold yd, gceom. rewrite N. fold gamma. unfold Estar, Bstar. rewrite GB, N. unfold velocity, eom. cbv zeta. rewrite N. fold gamma.
  unfold curlB, Bvec, uniform_vertical. cbn [Nat.eqb vx vy vz vzero]. unfold dot, cross, vadd, vscal, vzero. destruct E as [e1 e2 e3]. cbn [vx vy vz].
  assert (C2 : 0 < CONST_C2) by (pose proof C_pos; unfold CONST_C2; pos).
  split; [f_equal; field; repeat split; lra|]. field. repeat split; lra.
Qed.
Print Assumptions gc_ExB_drift.
(** vacuum toroidal field B_phi = F / r: vertical drift (m v_par^2 + mu B) / (q B r) *)
Definition vacuum_toroidal (F r : R) : nat -> R := fun i => match i with 4%nat => F / r | 5%nat => - F / (r * r) | _ => 0 end.
Theorem gc_toroidal_drift : forall m q F y, 0 < m -> q <> 0 -> 0 < F -> 0 < y 0%nat -> 0 <= y 4%nat ->
  let r := y 0%nat in let B := F / r in let yd := gceom m q (vacuum_toroidal F r) vzero 0 y in let gamma := gamma_ppar m (y 4%nat) (y 3%nat) B in
  yd 0%nat = 0 /\ yd 1%nat = y 3%nat / (gamma * m * r) /\ yd 2%nat = (y 3%nat * y 3%nat / m + y 4%nat * B) / (gamma * q * B * r) /\ yd 3%nat = 0 /\ yd 4%nat = 0.
Proof.
  intros m q F y M Q HF R0 MU r B yd gamma. fold r in R0.
  assert (BP : 0 < B) by (apply Rmult_lt_0_compat; [lra|now apply Rinv_0_lt_compat]).
  assert (N : sqrt (dot (Bvec (vacuum_toroidal F r)) (Bvec (vacuum_toroidal F r))) = B).
  { unfold Bvec, vacuum_toroidal, dot. cbn. fold B. replace (0 * 0 + B * B + 0 * 0) with (B * B) by ring. apply sqrt_square. lra. }
  assert (G : 0 < gamma) by (apply gc_gamma_pos; lra).
  unfold yd, gceom. rewrite N. fold r. fold gamma. unfold Estar, Bstar, gradB. rewrite N. unfold velocity, eom. cbv zeta. rewrite N. fold r. fold gamma.
  unfold curlB, Bvec, vacuum_toroidal. cbn [vx vy vz vzero]. unfold dot, cross, vadd, vscal, vzero. cbn [vx vy vz]. unfold B in *. clearbody gamma r.
  assert (C2 : 0 < CONST_C2) by (pose proof C_pos; unfold CONST_C2; pos).
  repeat split; try (field; repeat split; lra).
Qed.
Print Assumptions gc_toroidal_drift.
(** an explicit trajectory to which the conservation theorem applies *)
Definition toroidal_orbit (m q F r ppar mu : R) (s : R) : nat -> R :=
  let B := F / r in let gamma := gamma_ppar m mu ppar B in
  fun i => match i with 0%nat => r | 1%nat => ppar / (gamma * m * r) * s | 2%nat => (ppar * ppar / m + mu * B) / (gamma * q * B * r) * s | 3%nat => ppar | _ => mu end.
Example toroidal_orbit_follows : forall m q F r ppar mu t, 0 < m -> q <> 0 -> 0 < F -> 0 < r -> 0 <= mu ->
  let Y := toroidal_orbit m q F r ppar mu in
  follows Y (fun _ => V 0 (F / r) 0) t (vacuum_toroidal F r) (gceom m q (vacuum_toroidal F r) vzero 0 (Y t)) /\
  derivable_pt_lim (fun s => Ekin_ppar m (Y s 4%nat) (Y s 3%nat) (norm (V 0 (F / r) 0))) t 0.
Proof.
  intros m q F r ppar mu t M Q HF R0 MU Y.
  assert (FO : follows Y (fun _ => V 0 (F / r) 0) t (vacuum_toroidal F r) (gceom m q (vacuum_toroidal F r) vzero 0 (Y t))).
  { destruct (gc_toroidal_drift m q F (Y t) M Q HF R0 MU) as (D0 & D1 & D2 & D3 & D4).
    unfold Y, toroidal_orbit in D0, D1, D2, D3, D4. cbv zeta in D0, D1, D2, D3, D4.
    unfold follows. split; [|split; [reflexivity|]].
    - intros i L. destruct i as [|[|[|[|[|]]]]]; [| | | | |lia]; unfold Y, toroidal_orbit; cbv zeta.
      + rewrite D0. apply derivable_pt_lim_const.
      + rewrite D1. set (k := ppar / _). eapply d_eq; [apply derivable_pt_lim_scal, derivable_pt_lim_id|ring].
      + rewrite D2. set (k := _ / (_ * q * _ * _)). eapply d_eq; [apply derivable_pt_lim_scal, derivable_pt_lim_id|ring].
      + rewrite D3. apply derivable_pt_lim_const.
      + rewrite D4. apply derivable_pt_lim_const.
    - unfold Y, toroidal_orbit. cbv zeta. rewrite D0. unfold vacuum_toroidal at 1 2 3 4 6 7 8 9 11 12 13 14. cbn [vx vy vz].
      split; [|split]; (eapply d_eq; [apply derivable_pt_lim_const|ring]). }
  split; [exact FO|].
  assert (BP : 0 < F / r) by (apply Rmult_lt_0_compat; [lra|now apply Rinv_0_lt_compat]).
  assert (N : norm (Bvec (vacuum_toroidal F r)) = F / r).
  { unfold norm, Bvec, vacuum_toroidal, dot. cbn. replace (0 * 0 + F / r * (F / r) + 0 * 0) with (F / r * (F / r)) by ring. apply sqrt_square. lra. }
  apply (gc_energy_conserved m q (vacuum_toroidal F r) Y (fun _ => V 0 (F / r) 0) t FO M Q); unfold Y, toroidal_orbit; cbv zeta; try lra.
  rewrite N. unfold Bstar, gradB. change (sqrt (dot (Bvec (vacuum_toroidal F r)) (Bvec (vacuum_toroidal F r)))) with (norm (Bvec (vacuum_toroidal F r))). rewrite N.
  unfold curlB, Bvec, vacuum_toroidal, dot, vscal, cross. cbn [vx vy vz].
  match goal with |- ?x <> 0 => replace x with (F / r) by (field; lra) end. lra.
Qed.

(** ** C66: toroidal canonical momentum *)
Theorem gc_canonical_momentum_rate : forall m q D E Y b psi t psi_r psi_z,
  let n := norm (Bvec D) in let y := Y t in let yd := gceom m q D E 0 y in
  follows Y b t D yd -> derivable_pt_lim psi t (psi_r * yd 0%nat + psi_z * yd 2%nat) -> axisymmetric D (y 0%nat) psi_r psi_z ->
  0 < m -> q <> 0 -> y 0%nat <> 0 -> 0 < n -> 0 <= y 4%nat ->
  dot (vscal (/ n) (Bvec D)) (Bstar q (y 3%nat) D (y 0%nat)) <> 0 ->
  derivable_pt_lim (fun s => ptoroid_gc q (Y s 0%nat) (Y s 3%nat) (psi s) (norm (b s)) (vy (b s))) t (q * (y 0%nat * vy E)).
Proof. exact gceom_pphi. Qed.
Print Assumptions gc_canonical_momentum_rate.
Example gc_canonical_momentum_in_toroidal_field : forall m q F r ppar mu t, 0 < m -> q <> 0 -> 0 < F -> 0 < r -> 0 <= mu ->
  let Y := toroidal_orbit m q F r ppar mu in
  derivable_pt_lim (fun s => ptoroid_gc q (Y s 0%nat) (Y s 3%nat) 0 (norm (V 0 (F / r) 0)) (F / r)) t 0.
Proof.
  intros m q F r ppar mu t M Q HF R0 MU Y.
  destruct (toroidal_orbit_follows m q F r ppar mu t M Q HF R0 MU) as [FO _]. fold Y in FO.
  assert (BP : 0 < F / r) by (apply Rmult_lt_0_compat; [lra|now apply Rinv_0_lt_compat]).
  assert (N : norm (Bvec (vacuum_toroidal F r)) = F / r).
  { unfold norm, Bvec, vacuum_toroidal, dot. cbn. replace (0 * 0 + F / r * (F / r) + 0 * 0) with (F / r * (F / r)) by ring. apply sqrt_square. lra. }
  eapply d_eq; [apply (gc_canonical_momentum_rate m q (vacuum_toroidal F r) vzero Y (fun _ => V 0 (F / r) 0) (fun _ => 0) t 0 0 FO); auto|].
  - eapply d_eq; [apply derivable_pt_lim_const|ring].
  - unfold axisymmetric, vacuum_toroidal. repeat split; cbn; field; unfold Y, toroidal_orbit; cbv zeta; lra.
  - unfold Y, toroidal_orbit. cbv zeta. lra.
  - rewrite N. lra.
  - rewrite N. unfold Bstar, gradB. change (sqrt (dot (Bvec (vacuum_toroidal F r)) (Bvec (vacuum_toroidal F r)))) with (norm (Bvec (vacuum_toroidal F r))). rewrite N.
    unfold curlB, Bvec, vacuum_toroidal, dot, vscal, cross, Y, toroidal_orbit. cbn [vx vy vz].
    match goal with |- ?x <> 0 => replace x with (F / r) by (field; lra) end. lra.
  - unfold vzero. cbn. ring.
Qed.

(** ** The MHD version is not the same equation when there is no perturbation *)
Theorem gc_mhd_unperturbed_exact : forall q ppar D r, q <> 0 -> 0 < norm (Bvec D) ->
  (Bstar_mhd q ppar D (fun _ => 0) r = Bstar q ppar D r <-> ppar = 0 \/ vx (cross (gradB D r) (Bvec D)) = vy (cross (gradB D r) (Bvec D))) /\
  (forall mu gamma E, Estar_mhd q mu gamma E D (fun _ => 0) r = Estar q mu gamma E D r).
Proof.
  intros q ppar D r Q N. split.
  - unfold Bstar_mhd, Bstar. cbv zeta. change (sqrt (dot (Bvec D) (Bvec D))) with (norm (Bvec D)). set (n := norm (Bvec D)) in *.
    generalize (curlB D r). intros c. generalize (cross (gradB D r) (Bvec D)). intros g.
    assert (A : cross (V 0 0 0) (Bvec D) = vzero) by (unfold cross, vzero; cbn [vx vy vz]; f_equal; ring). rewrite A. clearbody n.
    destruct (Bvec D) as [b1 b2 b3], c as [c1 c2 c3], g as [g1 g2 g3]. unfold vzero. cbn [vx vy vz]. split.
    + intros H. injection H as _ H _. assert (K : ppar * (g2 - g1) / (q * (n * n)) = 0).
      { replace (ppar * (g2 - g1) / (q * (n * n))) with
          ((b2 + 0 + 0 * c2 + ppar / q * (c2 / n - g1 / (n * n))) - (b2 + ppar / q * (c2 / n - g2 / (n * n)))) by (field; lra). rewrite H. ring. }
      assert (K2 : ppar * (g2 - g1) = 0). { replace (ppar * (g2 - g1)) with (ppar * (g2 - g1) / (q * (n * n)) * (q * (n * n))) by (field; lra). rewrite K. ring. }
      apply Rmult_integral in K2. destruct K2; [left; auto|right; lra].
    + intros [->|E]; [|rewrite E]; f_equal; field; lra.
  - intros mu gamma E. unfold Estar_mhd, Estar. cbv zeta. f_equal; ring.
Qed.
Print Assumptions gc_mhd_unperturbed_exact.
(** field (0, 1, 1) growing towards larger r *)
Theorem gc_mhd_unperturbed_refuted : let D := fun i => match i with 4%nat => 1 | 8%nat => 1 | 5%nat => 1 | _ => 0 end in
  Bstar_mhd 1 1 D (fun _ => 0) 1 <> Bstar 1 1 D 1 /\ dot (Bvec D) (Bstar 1 1 D 1) <> 0.
Proof.
  intros D. assert (N : norm (Bvec D) = sqrt 2) by (unfold norm, Bvec, D, dot; cbn; f_equal; ring).
  assert (S2 : 0 < sqrt 2) by (apply sqrt_lt_R0; lra). assert (SS : sqrt 2 * sqrt 2 = 2) by (apply sqrt_sqrt; lra). split.
  - intros H. apply gc_mhd_unperturbed_exact in H; [|lra|lra]. destruct H as [H|H]; [lra|]. revert H. unfold gradB. change (sqrt (dot (Bvec D) (Bvec D))) with (norm (Bvec D)). rewrite N.
    unfold cross, Bvec, D. cbn. intros H. assert (1 / sqrt 2 = 0) by lra. assert (0 < 1 / sqrt 2) by (apply Rmult_lt_0_compat; [lra|now apply Rinv_0_lt_compat]). lra.
  - unfold Bstar, gradB. change (sqrt (dot (Bvec D) (Bvec D))) with (norm (Bvec D)). rewrite N. unfold curlB, cross, Bvec, D, dot. cbn. rewrite SS.
    match goal with |- ?x <> 0 => replace x with (2 + 2 / sqrt 2) by (field; lra) end. assert (0 < 2 / sqrt 2) by (apply Rmult_lt_0_compat; [lra|now apply Rinv_0_lt_compat]). lra.
Qed.

(** ** C34: order of the integrators *)
(** the stages in the code are the Runge-Kutta methods with these tableaux *)
Theorem rk_code_is_method : forall f t h y,
  rk4 (0%Z, f t y) (fun s z => (0%Z, f s z)) t h y = (0%Z, runge_kutta classical (tb classical) f t h y) /\
  cashkarp (0%Z, f t y) (fun s z => (0%Z, f s z)) t h y =
    (0%Z, f t y, runge_kutta cash_karp (tb cash_karp) f t h y, runge_kutta cash_karp cash_karp4 f t h y).
Proof. intros. split; [apply rk4_is|apply cashkarp_is]. Qed.
Print Assumptions rk_code_is_method.
Theorem rk_order_conditions :
  row_sums classical /\ order4 classical (tb classical) /\ row_sums cash_karp /\ order5 cash_karp (tb cash_karp) /\ order4 cash_karp cash_karp4.
Proof. exact (conj classical_rows (conj classical_order (conj cash_karp_rows (conj cash_karp_order5 cash_karp_order4)))). Qed.
Print Assumptions rk_order_conditions.
Theorem rk4_quadrature_exact : forall f t h y j a0 a1 a2 a3, (forall s z, f s z j = a0 + a1 * s + a2 * s ^ 2 + a3 * s ^ 3) ->
  let P := fun s => a0 * s + a1 * s ^ 2 / 2 + a2 * s ^ 3 / 3 + a3 * s ^ 4 / 4 in
  runge_kutta classical (tb classical) f t h y j = y j + P (t + h) - P t /\ runge_kutta cash_karp cash_karp4 f t h y j = y j + P (t + h) - P t.
Proof. intros. split; [now apply rk4_poly|now apply ck4_poly]. Qed.
Print Assumptions rk4_quadrature_exact.
Theorem cash_karp_quadrature_exact : forall f t h y j a0 a1 a2 a3 a4, (forall s z, f s z j = a0 + a1 * s + a2 * s ^ 2 + a3 * s ^ 3 + a4 * s ^ 4) ->
  let P := fun s => a0 * s + a1 * s ^ 2 / 2 + a2 * s ^ 3 / 3 + a3 * s ^ 4 / 4 + a4 * s ^ 5 / 5 in
  runge_kutta cash_karp (tb cash_karp) f t h y j = y j + P (t + h) - P t.
Proof. exact ck5_poly. Qed.
Print Assumptions cash_karp_quadrature_exact.
(** linear systems y' = L y: the exponential series up to the order *)
Theorem rk_linear_systems : forall L, (forall a u v, L (fun j : nat => u j + a * v j) = (fun j => L u j + a * L v j)) -> forall y t h j,
  runge_kutta classical (tb classical) (fun _ => L) t h y j = y j + h * L y j + h ^ 2 / 2 * L (L y) j + h ^ 3 / 6 * L (L (L y)) j + h ^ 4 / 24 * L (L (L (L y))) j /\
  runge_kutta cash_karp (tb cash_karp) (fun _ => L) t h y j =
    y j + h * L y j + h ^ 2 / 2 * L (L y) j + h ^ 3 / 6 * L (L (L y)) j + h ^ 4 / 24 * L (L (L (L y))) j + h ^ 5 / 120 * L (L (L (L (L y)))) j
    + h ^ 6 / 800 * L (L (L (L (L (L y))))) j.
Proof. intros L LIN y t h j. split; [now apply rk4_linear|now apply ck5_linear]. Qed.
Print Assumptions rk_linear_systems.
(** y' = y from 1 with step 1: 65/24 for the fixed step, 163/60 + 1/800 for the adaptive one *)
Example rk_exponential :
  runge_kutta classical (tb classical) (fun _ z => z) 0 1 (fun _ => 1) 0%nat = 65 / 24 /\
  runge_kutta cash_karp (tb cash_karp) (fun _ z => z) 0 1 (fun _ => 1) 0%nat = 163 / 60 + 1 / 800.
Proof.
  destruct (rk_linear_systems (fun z => z) (fun a u v => eq_refl) (fun _ => 1) 0 1 0%nat) as [A B]. rewrite A, B. split; field.
Qed.
(** the field-line step is the same method applied to motion along the field at unit speed *)
Theorem ml_step_is_cash_karp : forall evalB evalBdB evalPsi evalRho evalAxis junk B h tol p hn,
  (forall r phi z t, evalB r phi z t = (0%Z, B r phi z t)) -> mrun p = true ->
  V (mB p 0%nat) (mB p 4%nat) (mB p 8%nat) = B (my p 0%nat) (my p 1%nat) (my p 2%nat) (mtime p) ->
  let f := fun s (y : nat -> R) => ml_k (direction (mpitch p)) (y 0%nat) (B (y 0%nat) (y 1%nat) (y 2%nat) s) in
  let y5 := runge_kutta cash_karp (tb cash_karp) f (mtime p) h (my p) in let y4 := runge_kutta cash_karp cash_karp4 f (mtime p) h (my p) in
  my (fst (ml_step evalB evalBdB evalPsi evalRho evalAxis junk h tol p hn)) = y5 /\
  snd (ml_step evalB evalBdB evalPsi evalRho evalAxis junk h tol p hn) = ml_hnext h (ml_err h (my p) (f (mtime p) (my p)) y5 y4) tol.
Proof. exact ml_is_rk. Qed.
Print Assumptions ml_step_is_cash_karp.
Theorem ml_unit_speed_along_field : forall pitch r B, r <> 0 -> 0 < norm B ->
  let k := ml_k (direction pitch) r B in velocity r k = vscal (direction pitch) (unit B) /\ norm (velocity r k) = 1 /\ direction pitch = (if Rlt_dec pitch 0 then -1 else 1).
Proof.
  intros pitch r B R0 N k. destruct (ml_unit_speed (direction pitch) r B (direction_sq pitch) R0 N) as [A U]. split; [exact A|]. split; [exact U|reflexivity].
Qed.
Print Assumptions ml_unit_speed_along_field.
(** purely vertical field: the marker moves exactly h up *)
Example ml_vertical : forall evalBdB evalPsi evalRho evalAxis junk h tol, let p := Mlm (fun _ => 1) 0 1 (fun _ => 2) 0 0 0 true in
  let p' := Mlm (my p) 0 1 (fun i => if Nat.eqb i 8 then 2 else 0) 0 0 0 true in
  my (fst (ml_step (fun _ _ _ _ => (0%Z, V 0 0 2)) evalBdB evalPsi evalRho evalAxis junk h tol p' (Fin 0))) 2%nat = 1 + h.
Proof.
  intros. destruct (ml_step_is_cash_karp (fun _ _ _ _ => (0%Z, V 0 0 2)) evalBdB evalPsi evalRho evalAxis junk (fun _ _ _ _ => V 0 0 2) h tol p' (Fin 0)) as [A _]; auto.
  rewrite A. rewrite (ck5_poly _ _ _ _ 2%nat 1 0 0 0 0).
  - cbn. field.
  - intros s z. unfold ml_k, direction. cbn. destruct (Rlt_dec 1 0); [lra|]. replace (norm (V 0 0 2)) with 2. { field. }
    unfold norm, dot. cbn. replace (0 * 0 + 0 * 0 + 2 * 2) with (2 * 2) by ring. rewrite sqrt_square; lra.
Qed.

(** ** C35: step control (steps forward in time) *)
Theorem step_accepted_iff_within_tolerance : forall h err tol, 0 < h -> 0 < tol -> 0 <= err -> (eneg (gc_hnext h err tol) = false <-> err <= tol).
Proof. exact gc_accept_iff. Qed.
Print Assumptions step_accepted_iff_within_tolerance.
Theorem accepted_step_bounds : forall h err tol, 0 < h -> 0 < tol -> 0 <= err <= tol -> exists x, gc_hnext h err tol = Fin x /\ 0.85 * h <= x <= 1.5 * h /\
  (0 < err -> x = Rmin (1.5 * h) (0.85 * h * Rpower (err / tol) (- 0.2))) /\ (err = 0 -> x = 1.5 * h).
Proof. exact gc_accept. Qed.
Print Assumptions accepted_step_bounds.
Theorem rejected_step_shrinks : forall h err tol, 0 < h -> 0 < tol -> tol < err -> exists x, gc_hnext h err tol = Fin (- x) /\ 0 < x < 0.85 * h.
Proof. exact gc_reject. Qed.
Print Assumptions rejected_step_shrinks.
(** the error estimate compares the two solutions in position and parallel momentum *)
Theorem error_estimate_nonneg : forall h y k1 y5 y4, 0 <= gc_err h y k1 y5 y4 /\ 0 <= ml_err h y k1 y5 y4.
Proof.
  intros. unfold gc_err, ml_err. cbv zeta. split; repeat (apply Rle_trans with (2 := Rmax_l _ _)); lra.
Qed.
Print Assumptions error_estimate_nonneg.
(** backwards in time the 1.5 limit acts as a lower bound, and there is no upper one *)
Theorem reverse_time_step_cap_refuted : forall h err tol, h < 0 -> 0 < tol -> 0 <= err <= tol ->
  (gc_hnext h err tol = MInf \/ exists x, gc_hnext h err tol = Fin x /\ x <= 1.5 * h) /\ gc_hnext h 0 tol = MInf.
Proof.
  intros h err tol H T E. split; [now apply gc_accept_back|]. unfold gc_hnext, pow_neg. cbv zeta. replace (0 / tol) with 0 by (field; lra).
  destruct (Rle_dec 0 1); [|lra]. destruct (Req_EM_T 0 0); [|congruence]. cbn [emul]. destruct (Rlt_dec 0 (0.85 * h)); [lra|]. destruct (Rlt_dec (0.85 * h) 0); [|lra]. reflexivity.
Qed.
Print Assumptions reverse_time_step_cap_refuted.
(** the field-line step has no limit on growth *)
Theorem ml_step_growth_unbounded : forall h tol K, 0 < h -> 0 < tol -> 1 <= K -> exists err x, 0 < err <= tol /\ ml_hnext h err tol = Fin x /\ x = K * (0.85 * h).
Proof. exact ml_unbounded. Qed.
Print Assumptions ml_step_growth_unbounded.
Example step_control_values : gc_hnext 1 0 1 = Fin 1.5 /\ (exists x, gc_hnext 1 1 1 = Fin x /\ 0.85 <= x <= 1.5) /\ (exists x, gc_hnext 1 2 1 = Fin (- x) /\ 0 < x < 0.85).
Proof.
  split; [|split].
  - destruct (accepted_step_bounds 1 0 1) as (x & -> & _ & _ & X); try lra. rewrite X by reflexivity. f_equal. lra.
  - destruct (accepted_step_bounds 1 1 1) as (x & -> & X & _); try lra. exists x. split; auto. lra.
  - destruct (rejected_step_shrinks 1 2 1) as (x & -> & X); try lra. exists x. split; auto. lra.
Qed.

(** ** What the steps do to a marker, for arbitrary field evaluations *)
Theorem gc_fixed_step_effect : forall evalBdB evalE evalMhd evalPsi evalRho evalAxis mhd h ald p,
  let q := gc_rk4 evalBdB evalE evalMhd evalPsi evalRho evalAxis mhd h ald p in
  gtime q = gtime p /\ gmass q = gmass p /\ gcharge q = gcharge p /\
  (grun p = false -> q = p) /\ (ald = 0 -> gy q 4%nat = gy p 4%nat) /\ (grun p = true -> grun q = true -> gerr q = gerr p) /\
  (grun p = true ->
     let '(e, y) := rk4 (eval_E' evalE evalMhd mhd (gmass p) (gcharge p) ald (gB p) (gtime p) (gy p)) (gc_rhs evalBdB evalE evalMhd mhd (gmass p) (gcharge p) ald) (gtime p) h (gy p) in
     (e <> 0%Z -> gy q = gy p /\ gerr q = e /\ grun q = false) /\
     (grun q = true -> gy q = gy (set_y p y) /\ 0 < y 0%nat /\ 0 <= y 4%nat)).
Proof. exact rk4_step. Qed.
Print Assumptions gc_fixed_step_effect.
Theorem gc_adaptive_step_effect : forall evalBdB evalE evalMhd evalPsi evalRho evalAxis junk mhd h tol ald p hn0,
  let '(q, hn) := gc_cashkarp evalBdB evalE evalMhd evalPsi evalRho evalAxis junk mhd h tol ald p hn0 in
  gtime q = gtime p /\ gmass q = gmass p /\ gcharge q = gcharge p /\
  (grun p = false -> q = p /\ hn = hn0) /\ (ald = 0 -> gy q 4%nat = gy p 4%nat) /\ (grun p = true -> grun q = true -> gerr q = gerr p) /\
  (grun p = true -> grun q = false -> hn = Fin h) /\
  (grun p = true ->
     let '(e, k1, y5, y4) := cashkarp (eval_E' evalE evalMhd mhd (gmass p) (gcharge p) ald (gB p) (gtime p) (gy p)) (gc_rhs evalBdB evalE evalMhd mhd (gmass p) (gcharge p) ald) (gtime p) h (gy p) in
     (e <> 0%Z -> gy q = gy p /\ gerr q = e /\ grun q = false) /\
     (grun q = true -> hn = gc_hnext h (gc_err h (gy p) k1 y5 y4) tol /\
        (forall j, j <> 5%nat -> gy q j = y5 j) /\ gy q 5%nat = wrap_zeta (if mhd then junk else y5 5%nat) /\
        (mhd = false -> 0 < y5 0%nat /\ 0 <= y5 4%nat))).
Proof. exact ck_step. Qed.
Print Assumptions gc_adaptive_step_effect.
Theorem gyrophase_wrapped : forall z, 0 <= wrap_zeta z < 2 * PI /\ (exists k, wrap_zeta z = z + 2 * PI * IZR k) /\ wrap_zeta z = fmod z (2 * PI).
Proof. intros z. destruct (wrap_zeta_spec z) as [A B]. split; [exact A|]. split; [exact B|apply wrap_zeta_fmod]. Qed.
Print Assumptions gyrophase_wrapped.
(** errors while following a field line are never reported *)
Theorem ml_error_reported_refuted : forall evalB evalBdB evalPsi evalRho evalAxis junk h tol p hn,
  merr (fst (ml_step evalB evalBdB evalPsi evalRho evalAxis junk h tol p hn)) = merr p /\ mrun (fst (ml_step evalB evalBdB evalPsi evalRho evalAxis junk h tol p hn)) = mrun p.
Proof. exact ml_no_error. Qed.
Print Assumptions ml_error_reported_refuted.
(** a field that cannot be evaluated ends the guiding centre with that error, position kept *)
Example gc_failed_field : forall evalE evalMhd evalPsi evalRho evalAxis h, let p := Gcm (fun _ => 1) 0 1 1 (vacuum_toroidal 1 1) 0 0 0 true in
  (forall r phi z t, evalE r phi z t = (0%Z, vzero)) ->
  let q := gc_rk4 (fun _ _ _ _ => (7%Z, fun _ => 0)) evalE evalMhd evalPsi evalRho evalAxis false h 0 p in
  gy q = gy p /\ gerr q = 7%Z /\ grun q = false.
Proof.
  intros evalE evalMhd evalPsi evalRho evalAxis h p E q.
  destruct (gc_fixed_step_effect (fun _ _ _ _ => (7%Z, fun _ => 0)) evalE evalMhd evalPsi evalRho evalAxis false h 0 p) as (_ & _ & _ & _ & _ & _ & H).
  fold q in H. specialize (H eq_refl). unfold eval_E', eval_E, gc_rhs, rk4, next in H. rewrite E in H. cbn [Z.eqb] in H. cbn -[gceom] in H. destruct H as [H _]. apply H. discriminate.
Qed.
