(** Input queries of the external library (src/libascot.c). *)
From Coq Require Import Reals ZArith List Bool Lra Lia.
From Verif Require Import Vec LibModel Deriv MhdProofs LibProofs.
Import ListNotations.
Local Open Scope R_scope.

(** C89. Mapping (rho, theta) to (R, z). *)
Section mapping.
Variables (axis : R -> Z * (R * R)) (eval_rho : R -> R -> R -> Z * R).
Notation has_rho := (LibProofs.has_rho eval_rho).
Notation rho_at := (LibProofs.rho_at eval_rho).
(** every result lies on the ray from the axis, at most 5 m away, and has the wanted rho within the tolerance, unless the wanted rho is smaller than the one on the axis *)
Theorem rhotheta_sound : forall rh th ph maxiter tol x y, rhotheta1 axis eval_rho rh th ph maxiter tol = Some (x, y) ->
  exists ar az, axis ph = (0%Z, (ar, az)) /\ fst (eval_rho ar ph az) = 0%Z /\
  ((x = ar /\ y = az /\ rh < snd (eval_rho ar ph az)) \/
   (snd (eval_rho ar ph az) <= rh /\ exists c, 0 <= c <= 5 /\ x = ar + c * cos th /\ y = az + c * sin th /\
    0 <= x /\ fst (eval_rho x ph y) = 0%Z /\ Rabs (rh - snd (eval_rho x ph y)) < tol)).
Proof. exact (LibProofs.rt_sound axis eval_rho). Qed.
(** if rho grows along the ray, at most at the rate [K], and the point looked for is at least [delta] inside the region where rho is known, then it is found after log2(5/delta) and log2(5 K/tol) iterations *)
Theorem rhotheta_complete : forall rh th ph ar az L d K delta tol n,
  let has := has_rho ar az ph (cos th) (sin th) in let rho := rho_at ar az ph (cos th) (sin th) in
  axis ph = (0%Z, (ar, az)) -> (forall c, 0 <= c <= L -> has c) ->
  (forall c c', 0 <= c <= c' -> c' <= 5 -> has c -> has c' -> rho c <= rho c') ->
  (forall c c', 0 <= c <= c' -> c' <= L -> rho c' - rho c <= K * (c' - c)) ->
  0 <= K -> 0 < tol -> 0 < delta -> 0 <= d <= 5 -> d + delta <= L -> rho d = rh ->
  (1 <= n)%nat -> 5 <= delta * 2 ^ n -> K * 5 < tol * 2 ^ n ->
  exists x y, rhotheta1 axis eval_rho rh th ph n tol = Some (x, y).
Proof. exact (LibProofs.rt_complete axis eval_rho). Qed.
Theorem rhotheta_accurate : forall rh th ph ar az d g tol n x y,
  let has := has_rho ar az ph (cos th) (sin th) in let rho := rho_at ar az ph (cos th) (sin th) in
  axis ph = (0%Z, (ar, az)) -> 0 < g -> (forall c c', 0 <= c <= c' -> c' <= 5 -> has c -> has c' -> g * (c' - c) <= rho c' - rho c) ->
  has 0 -> has d -> 0 <= d <= 5 -> rho d = rh -> rhotheta1 axis eval_rho rh th ph n tol = Some (x, y) ->
  exists c, 0 <= c <= 5 /\ x = ar + c * cos th /\ y = az + c * sin th /\ g * Rabs (c - d) < tol.
Proof. exact (LibProofs.rt_accurate axis eval_rho). Qed.
(** each entry depends on its own query only, and a failed one keeps what was there *)
Theorem rhotheta_entries : forall n rho theta phi maxiter tol r z j,
  let '(r', z') := rhotheta2rz axis eval_rho n rho theta phi maxiter tol (r, z) in
  (r' j, z' j) = if Nat.ltb j n then match rhotheta1 axis eval_rho (rho j) (theta j) (phi j) maxiter tol with Some p => p | None => (r j, z j) end else (r j, z j).
Proof. exact (LibProofs.rt_array axis eval_rho). Qed.
End mapping.
Print Assumptions rhotheta_sound.
Print Assumptions rhotheta_complete.
Print Assumptions rhotheta_accurate.
Print Assumptions rhotheta_entries.
(** finding: a flux surface more than 5 m away from the axis is never found *)
Theorem rhotheta_far_refuted : exists axis eval_rho, eval_rho 16 0 0 = (0%Z, 1) /\ axis 0 = (0%Z, (10, 0)) /\
  (forall r p z, fst (eval_rho r p z) = 0%Z) /\ forall n, rhotheta1 axis eval_rho 1 0 0 n (1 / 10) = None.
Proof. exact rt_far. Qed.
Print Assumptions rhotheta_far_refuted.

(** rho = distance/5 around the axis (3, 0): the surface rho = 1/2 is 2.5 m away, the first point tried *)
Example rhotheta_ex : forall n, rhotheta1 (fun _ => (0%Z, (3, 0))) (fun r _ z => (0%Z, sqrt ((r - 3) * (r - 3) + z * z) / 5)) (1 / 2) 0 0 (S n) (1 / 100) = Some (3 + 1 / 2 * (0 + 5) * 1, 0 + 1 / 2 * (0 + 5) * 0).
Proof.
  intros n. unfold rhotheta1. cbn [Z.eqb negb]. replace ((3 - 3) * (3 - 3) + 0 * 0) with 0 by ring. rewrite sqrt_0. destruct (Rgt_dec (0 / 5) (1 / 2)); [lra|].
  cbn [bisect Z.eqb negb]. rewrite cos_0, sin_0. destruct (Rlt_dec (3 + 1 / 2 * (0 + 5) * 1) 0); [lra|].
  replace ((3 + 1 / 2 * (0 + 5) * 1 - 3) * (3 + 1 / 2 * (0 + 5) * 1 - 3) + (0 + 1 / 2 * (0 + 5) * 0) * (0 + 1 / 2 * (0 + 5) * 0)) with (5 / 2 * (5 / 2)) by field.
  rewrite sqrt_square by lra. destruct (Rlt_dec (Rabs (1 / 2 - 5 / 2 / 5)) (1 / 100)) as [|F]; [reflexivity|].
  exfalso. apply F. replace (1 / 2 - 5 / 2 / 5) with 0 by field. rewrite Rabs_R0. lra.
Qed.

(** C90. Search for the axis. *)
Section descent.
Variable eval_psi : R -> R -> R -> Z * (R * R * R * R).
(** it ends when the number of iterations is limited *)
Theorem descent_terminates : forall fuel ph step tol maxiter iter r z, (0 <= iter < maxiter)%Z -> (Z.to_nat (maxiter - iter) <= fuel)%nat ->
  descend eval_psi fuel ph step tol maxiter iter r z <> None.
Proof. exact (LibProofs.gd_terminates eval_psi). Qed.
(** a region in which psi and its gradient are known, and which the descent does not leave *)
Variables (ph : R) (D : R -> R -> Prop) (psi gr gz : R -> R -> R).
Hypothesis KNOWN : forall r z, D r z -> exists dp, eval_psi r ph z = (0%Z, (psi r z, gr r z, dp, gz r z)).
Hypothesis GRAD : forall r z, D r z -> diff2 psi r z (gr r z) (gz r z).
Variables (L step : R).
Hypothesis LIP : forall r z r' z', D r z -> D r' z' -> nrm2 (gr r' z' - gr r z) (gz r' z' - gz r z) <= L * nrm2 (r' - r) (z' - z).
Hypothesis STEP : 0 < step /\ 0 <= L /\ L * step <= 1.
Hypothesis STAY : forall r z t, D r z -> 0 <= t <= step -> D (r - t * gr r z) (z - t * gz r z).
Variables (m tol : R).
Hypothesis BELOW : forall r z, D r z -> m <= psi r z.
Hypothesis TOL : 0 < tol.
Notation settled := (LibProofs.settled D psi gr gz step tol).
(** it settles within 2 step (psi - min)/tol^2 iterations, at a point with a gradient below tol/step and a smaller psi *)
Theorem descent_converges : forall n r z maxiter iter, D r z -> 2 * step * (psi r z - m) < INR n * (tol * tol) -> (maxiter <= 0 \/ iter + Z.of_nat n <= maxiter)%Z -> (0 <= iter)%Z ->
  exists o, descend eval_psi n ph step tol maxiter iter r z = Some o /\ settled r z o.
Proof. exact (LibProofs.gd_converges eval_psi ph D psi gr gz KNOWN GRAD L step LIP STEP STAY m tol BELOW TOL). Qed.
(** where psi grows quadratically, that point is close to the axis *)
Theorem descent_near_axis : forall r0 z0 psi0 r z rx zx g, settled r0 z0 (psi0, (r, z)) -> 0 < g ->
  (forall r z, D r z -> g * (nrm2 (r - rx) (z - zx) * nrm2 (r - rx) (z - zx)) <= gr r z * (r - rx) + gz r z * (z - zx)) ->
  g * step * nrm2 (r - rx) (z - zx) < tol + g * step * tol.
Proof. exact (LibProofs.gd_near_axis D psi gr gz L step STEP tol). Qed.
End descent.
Print Assumptions descent_terminates.
Print Assumptions descent_converges.
Print Assumptions descent_near_axis.
(** climbing on psi is descending on -psi *)
Theorem ascent_mirrors_descent : forall eval_psi fuel r z ph step tol maxiter,
  gradient_descent eval_psi fuel r z ph step tol maxiter true = minus_result (gradient_descent (minus_psi eval_psi) fuel r z ph step tol maxiter false).
Proof. exact gd_ascent. Qed.
Print Assumptions ascent_mirrors_descent.
Theorem ascent_mirrors_descent_3d : forall eval_psi fuel r z ph a b step tol maxiter,
  gradient_descent_3d eval_psi fuel r z ph a b step tol maxiter true = minus_result (gradient_descent_3d (minus_psi eval_psi) fuel r z ph a b step tol maxiter false).
Proof. exact gd3_ascent. Qed.
Print Assumptions ascent_mirrors_descent_3d.
Theorem descent_3d_terminates : forall eval_psi fuel a b step tol maxiter iter r z ph, (0 <= iter < maxiter)%Z -> (Z.to_nat (maxiter - iter) <= fuel)%nat ->
  descend3 eval_psi fuel a b step tol maxiter iter r z ph <> None.
Proof. exact gd3_terminates. Qed.
Print Assumptions descent_3d_terminates.
(** the search stays in its sector *)
Theorem descent_3d_sector : forall eval_psi fuel a b step tol maxiter iter r z ph p r' z' ph', a <= b -> a <= ph <= b ->
  descend3 eval_psi fuel a b step tol maxiter iter r z ph = Some (p, (r', z', ph')) -> a <= ph' <= b.
Proof. exact gd3_sector. Qed.
Print Assumptions descent_3d_sector.
(** one iteration steps in R and z and cuts the step in phi off at the nearer end of the sector *)
Theorem descent_3d_step : forall (eval_psi : R -> R -> R -> Z * (R * R * R * R)) r ph z a b step tol p dr dp dz, a <= b -> eval_psi r ph z = (0%Z, (p, dr, dp, dz)) ->
  exists o, gradient_descent_3d eval_psi 1 r z ph a b step tol 1 false = Some (o, (r - step * dr, z - step * dz, Rmax a (Rmin b (ph - step / r * dp)))).
Proof. exact gd3_step. Qed.
Print Assumptions descent_3d_step.
(** finding: with a limit that is not positive the loop need not end *)
Theorem descent_endless_refuted : forall maxiter, (maxiter <= 0)%Z -> forall fuel,
  gradient_descent (fun r _ _ => (0%Z, (r, 1, 0, 0))) fuel 5 0 0 1 (1 / 2) maxiter false = None.
Proof. exact gd_endless. Qed.
Print Assumptions descent_endless_refuted.
(** finding: the padding has no definite sign *)
Theorem descent_padding_refuted : exists eval_psi, (forall r ph z, eval_psi r ph z = (0%Z, ((r - 2) * (r - 2) + z * z, 2 * (r - 2), 0, 2 * z))) /\
  exists r p r', gradient_descent eval_psi 1 r 0 0 (1 / 4) (1 / 10) 9 false = Some (Some p, r') /\ 0 < p /\
  exists r p r', gradient_descent eval_psi 1 r 0 0 (1 / 4) (1 / 10) 9 false = Some (Some p, r') /\ p < 0.
Proof. exact gd_padding. Qed.
Print Assumptions descent_padding_refuted.
(** finding: the 3D step does not follow the gradient *)
Theorem descent_3d_gradient_refuted : forall (eval_psi : R -> R -> R -> Z * (R * R * R * R)) r ph z a b step tol p dr dp dz, 0 < r -> step <> 0 -> eval_psi r ph z = (0%Z, (p, dr, dp, dz)) ->
  a <= ph - step / r * dp <= b ->
  exists o r' z' ph', gradient_descent_3d eval_psi 1 r z ph a b step tol 1 false = Some (o, (r', z', ph')) /\
  r' - r = - step * dr /\ z' - z = - step * dz /\ r * (ph' - ph) = - step * (dp / r) * r /\
  ((exists k, r' - r = k * dr /\ r * (ph' - ph) = k * (dp / r)) <-> dr = 0 \/ dp = 0 \/ r = 1).
Proof. exact gd3_direction. Qed.
Print Assumptions descent_3d_gradient_refuted.

(** psi = (R - 2)^2 + z^2, from anywhere within 10 m of the axis, with step 1/4 and tolerance 1/10: 5000 iterations are enough *)
Example quadratic : forall n r z, (r - 2) * (r - 2) + z * z <= 100 -> 5000 < INR n ->
  exists p r' z', gradient_descent (fun r _ z => (0%Z, ((r - 2) * (r - 2) + z * z, 2 * (r - 2), 0, 2 * z))) n r z 0 (1 / 4) (1 / 10) (Z.of_nat n) false = Some (Some p, (r', z')) /\ nrm2 (r' - 2) (z' - 0) < 3 / 10.
Proof.
  intros n r z B NN. set (psi := fun r z : R => (r - 2) * (r - 2) + z * z).
  assert (S : 0 < 1 / 4 /\ 0 <= 2 /\ 2 * (1 / 4) <= 1) by lra.
  destruct (descent_converges (fun r _ z => (0%Z, ((r - 2) * (r - 2) + z * z, 2 * (r - 2), 0, 2 * z))) 0 (fun _ _ => True) psi (fun r _ => 2 * (r - 2)) (fun _ z => 2 * z)) with (L := 2) (step := 1 / 4) (m := 0) (tol := 1 / 10) (n := n) (r := r) (z := z) (maxiter := Z.of_nat n) (iter := 0%Z) as (o & O & ST); auto.
  - intros. exists 0. reflexivity.
  - intros x y _ cx cy s x' y' <- <- HX HY. unfold psi. eapply d_eq; [apply d_plus; apply d_mult; try apply d_minus; eauto using d_const|]. cbv beta. ring.
  - intros x y x' y' _ _. replace (2 * (x' - 2) - 2 * (x - 2)) with (2 * (x' - x)) by ring. replace (2 * y' - 2 * y) with (2 * (y' - y)) by ring. rewrite nrm2_scal, Rabs_right by lra. lra.
  - intros x y _. unfold psi. pose proof (Rle_0_sqr (x - 2)). pose proof (Rle_0_sqr y). unfold Rsqr in *. lra.
  - lra.
  - unfold psi. lra.
  - lia.
  - lia.
  - destruct o as [p [r' z']]. pose proof ST as (r1 & z1 & _ & _ & _ & _ & _ & E). pose proof (f_equal fst E) as P. cbn [fst] in P. subst p. clear E.
    eexists. exists r', z'. split; [exact O|].
    pose proof (descent_near_axis (fun _ _ => True) psi (fun r _ => 2 * (r - 2)) (fun _ z => 2 * z) 2 (1 / 4) S (1 / 10) _ _ _ r' z' 2 0 2 ST ltac:(lra)) as N.
    assert (2 * (1 / 4) * nrm2 (r' - 2) (z' - 0) < 1 / 10 + 2 * (1 / 4) * (1 / 10)); [|lra].
    apply N. intros x y _. rewrite nrm2_sq. right. ring.
Qed.

(** C91. Derived quantities and array layouts. *)
(** if B = grad psi x grad (zeta - q theta), then q is recovered and the Jacobian belongs to (psi, theta, zeta) along B *)
Theorem boozer_safety_factor : forall ptz B r q, r <> 0 ->
  let gpsi := V (ptz 1%nat) (ptz 2%nat / r) (ptz 3%nat) in let gth := V (ptz 5%nat) (ptz 6%nat / r) (ptz 7%nat) in let gze := V (ptz 9%nat) (ptz 10%nat / r) (ptz 11%nat) in
  B = cross gpsi (vsub gze (vscal q gth)) -> vy (cross gpsi gth) <> 0 -> dot gpsi (cross gth gze) <> 0 ->
  let '(q', jac, jacB2) := boozer_fun ptz B r in
  q' = q /\ jac * dot B gth = 1 /\ jac * dot B gze = q /\ jacB2 = jac * dot B B.
Proof. exact boozer_fun_spec. Qed.
Print Assumptions boozer_safety_factor.
(** every element is the value of its own point and species, or what was there if the point failed *)
Theorem plasma_background_layout : forall eval e nspec neval d t,
  let '(d', t') := background eval e nspec neval (d, t) in
  forall k i, (k < neval)%nat -> (i < nspec)%nat ->
  d' (k + i * neval)%nat = (if (fst (eval k) =? 0)%Z then fst (snd (eval k) i) else d (k + i * neval)%nat) /\
  t' (k + i * neval)%nat = (if (fst (eval k) =? 0)%Z then snd (snd (eval k) i) / e else t (k + i * neval)%nat).
Proof. exact background_writes. Qed.
Print Assumptions plasma_background_layout.
Theorem collision_coefficient_layout : forall eval nspec nv neval out ib k iv, (ib < nspec)%nat -> (k < neval)%nat -> (iv < nv)%nat ->
  collcoefs eval nspec nv neval out (ib * nv * neval + nv * k + iv)%nat = if (fst (eval k) =? 0)%Z then snd (eval k) iv ib else out (ib * nv * neval + nv * k + iv)%nat.
Proof. exact collcoefs_writes. Qed.
Print Assumptions collision_coefficient_layout.
Theorem rate_coefficient_layout : forall eval nv neval out k j, (k < neval)%nat -> (j < nv)%nat ->
  ratecoeff eval nv neval out (nv * k + j)%nat = if (fst (eval k) =? 0)%Z && (fst (snd (eval k) j) =? 0)%Z then snd (snd (eval k) j) else out (nv * k + j)%nat.
Proof. exact ratecoeff_writes. Qed.
Print Assumptions rate_coefficient_layout.

Example boozer_ex : boozer_fun (fun i => match i with 1%nat => 1 | 7%nat => 1 | 10%nat => 2 | _ => 0 end) (V 0 3 1) 2 = (3, 1, 10).
Proof.
  unfold boozer_fun, cross, dot. cbn [vx vy vz]. rewrite (Rmult_assoc _ (norm _)). unfold norm. cbn [vx vy vz]. rewrite sqrt_sqrt by lra. f_equal; [f_equal|]; field.
Qed.
(** two points and two species, the first point fails *)
Example layout_ex : let '(d, _) := background (fun k => if Nat.eqb k 0 then (1%Z, fun _ => (9, 9)) else (0%Z, fun i => (INR i + 1, 4))) 2 2 2 (fun _ => 0, fun _ => 0) in
  d 0%nat = 0 /\ d 1%nat = 0 + 1 /\ d 2%nat = 0 /\ d 3%nat = 1 + 1.
Proof. cbv [background loop fold_left seq put Nat.eqb negb Z.eqb fst snd Nat.add Nat.mul INR]. repeat split. Qed.
