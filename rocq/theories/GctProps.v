(** Properties of the guiding-centre transformation (src/gctransform.c). *)
From Coq Require Import Reals Lra Lia ZArith List Bool.
From Verif Require Import Vec Deriv MathModel MathProofs Math2Model StepFoModel GsProofs BiosawProofs GctModel GctProofs.
Import ListNotations.
Local Open Scope R_scope.

(** C51: where the guiding centre is and the way back. *)
Theorem gct_position : forall order m q B r phi z pr pphi pz, 0 < m -> bnorm B <> 0 ->
  let p := to_xyz (V pr pphi pz) phi in let b := unit (bvec B phi) in
  match o_pos (p2g order m q B r phi z pr pphi pz) with
  | Some P => cross b p <> vzero /\ 0 <= vx P /\ - PI < vy P <= PI /\
              cart P = if neqb0 q then vsub (cart (V r phi z)) (vscal (/ (q * bnorm B)) (cross b p)) else cart (V r phi z)
  | None => cross b p = vzero
  end.
Proof. exact gc_position. Qed.
Print Assumptions gct_position.
Theorem gct_centre_drift : forall (x p : R -> vec) gm q B t, gm <> 0 -> q <> 0 -> B <> vzero ->
  vel x t (vscal (/ gm) (p t)) -> vel p t (vscal (q / gm) (cross (p t) B)) ->
  let b := unit B in vel (fun s => vsub (x s) (vscal (/ (q * norm B)) (cross b (p s)))) t (vscal (dot (p t) b / gm) b).
Proof. exact gc_centre_moves. Qed.
Print Assumptions gct_centre_drift.
Theorem gct_zeroth_round_trip : forall m q B r phi z pr pphi pz, 0 < m -> bnorm B <> 0 -> let b := unit (bvec B phi) in let p := to_xyz (V pr pphi pz) phi in
  flat b <> 0 -> cross b p <> vzero ->
  exists mu zeta, let g := p2g false m q B r phi z pr pphi pz in o_ppar g = Some (dot p b) /\ o_mu g = Some mu /\ o_zeta g = Some zeta /\
  0 < mu /\ 2 * m * bnorm B * mu = dot (cross b p) (cross b p) /\ 0 <= zeta < 2 * PI /\ ppm2p m q B phi (dot p b) mu zeta = Some (V pr pphi pz).
Proof. exact round_zero. Qed.
Print Assumptions gct_zeroth_round_trip.
Theorem gct_uniform_round_trip : forall order m q B r phi z pr pphi pz, 0 < m -> bnorm B <> 0 -> r <> 0 -> let b := unit (bvec B phi) in let p := to_xyz (V pr pphi pz) phi in
  flat b <> 0 -> cross b p <> vzero -> (order = true -> still (jac_rpz2xyz B r phi)) ->
  exists P mu zeta, p2g order m q B r phi z pr pphi pz = GCO (Some P) (Some (dot p b)) (Some mu) (Some zeta) /\ 0 < mu /\ 0 <= zeta < 2 * PI /\
  forall B', bvec B' (vy P) = bvec B phi -> vx P <> 0 -> (order = true -> still (jac_rpz2xyz B' (vx P) (vy P))) ->
  exists P2, g2p order m q B' (vx P) (vy P) (vz P) (dot p b) mu zeta = GCO (Some P2) (Some (dot p b)) (Some mu) (Some zeta) /\ cart P2 = cart (V r phi z) /\
  forall B2, bvec B2 (vy P2) = bvec B phi -> exists v, ppm2p m q B2 (vy P2) (dot p b) mu zeta = Some v /\ to_xyz v (vy P2) = p.
Proof. exact uniform_round. Qed.
Print Assumptions gct_uniform_round_trip.
(** a uniform field is seen as uniform just when its x component is zero (math_jac_rpz2xyz) *)
Theorem gct_uniform_seen : forall J r phi z K, r <> 0 -> still J -> cyl_jac J r phi z K -> (still (jac_rpz2xyz K r phi) <-> J 0%nat = 0).
Proof. exact uniform_still. Qed.
Print Assumptions gct_uniform_seen.
(** finding: in a uniform field the first order parallel momentum can be half the true one *)
Theorem gct_uniform_refuted : still J11 /\ cyl_jac J11 1 (PI / 2) 0 K11 /\ let p := to_xyz (V 1 (-1) 1) (PI / 2) in let b := unit (bvec K11 (PI / 2)) in
  p = V 1 1 1 /\ dot p b = sqrt 2 /\ o_ppar (p2g true 1 1 K11 1 (PI / 2) 0 1 (-1) 1) = Some (sqrt 2 / 2).
Proof. exact uniform_wrong. Qed.
Print Assumptions gct_uniform_refuted.
(** finding: a charged guiding centre without magnetic moment has no particle position in first order *)
Theorem gct_no_moment_undefined : forall m q B r phi z ppar zeta, q <> 0 -> o_pos (g2p true m q B r phi z ppar 0 zeta) = None /\ o_zeta (g2p true m q B r phi z ppar 0 zeta) = None.
Proof. exact g2p_no_moment. Qed.
Print Assumptions gct_no_moment_undefined.
Theorem gct_vertical_undefined : forall order m q B r phi z pr pphi pz ppar mu zeta, flat (bhat (bnorm B) (jac_rpz2xyz B r phi)) = 0 ->
  o_zeta (p2g order m q B r phi z pr pphi pz) = None /\ o_pos (g2p order m q B r phi z ppar mu zeta) = None /\ ppm2p m q B phi ppar mu zeta = None.
Proof. exact vertical_none. Qed.
Print Assumptions gct_vertical_undefined.
(** a particle along the field has no guiding centre position, even in zeroth order *)
Example parallel_undefined : forall order q, o_pos (p2g order 1 q (fun k => if Nat.eqb k 4 then 2 else 0) 3 0 0 0 5 0) = None.
Proof.
  intros order q. set (B := fun k => if Nat.eqb k 4 then 2 else 0). assert (N : bnorm B = 2) by (unfold bnorm, B; cbn [Nat.eqb]; replace (0 * 0 + 2 * 2 + 0 * 0) with (2 * 2) by ring; apply sqrt_square; lra).
  pose proof (gc_position order 1 q B 3 0 0 0 5 0 ltac:(lra) ltac:(rewrite N; lra)) as H. cbv zeta in H. destruct (o_pos (p2g order 1 q B 3 0 0 0 5 0)) as [P|]; [|reflexivity]. exfalso. destruct H as [H _]. apply H.
  unfold unit, bvec, to_xyz, cross, vzero. cbn [vx vy vz]. rewrite sin_0, cos_0. apply f_equal3; unfold B, Rdiv; cbn [Nat.eqb]; ring.
Qed.
(** a proton-like particle circling a toroidal field of 2: centre one gyroradius inside *)
Example circle_example : exists P, o_pos (p2g true 1 1 (fun k => if Nat.eqb k 4 then 2 else 0) 3 0 0 0 5 2) = Some P /\ cart P = V 2 0 0.
Proof.
  set (B := fun k => if Nat.eqb k 4 then 2 else 0). assert (N : bnorm B = 2) by (unfold bnorm, B; cbn [Nat.eqb]; replace (0 * 0 + 2 * 2 + 0 * 0) with (2 * 2) by ring; apply sqrt_square; lra).
  pose proof (gc_position true 1 1 B 3 0 0 0 5 2 ltac:(lra) ltac:(rewrite N; lra)) as H. cbv zeta in H.
  assert (E : cross (unit (bvec B 0)) (to_xyz (V 0 5 2) 0) = V 2 0 0).
  { rewrite unit_scal, <- bnorm_val, N. unfold bvec, to_xyz, cross, vscal, B. cbn [vx vy vz Nat.eqb]. rewrite sin_0, cos_0. apply f_equal3; lra. }
  rewrite E in H. destruct (o_pos (p2g true 1 1 B 3 0 0 0 5 2)) as [P|]; [|discriminate (f_equal (fun v => vx v) H) || (exfalso; pose proof (f_equal vx H) as K; cbn [vx vzero] in K; lra)].
  exists P. split; [reflexivity|]. destruct H as (_ & _ & _ & H). rewrite H. assert (Q : neqb0 1 = true) by (apply nzt; lra). rewrite Q, N. unfold cart, rpz2xyz, vsub, vscal. cbn [vx vy vz]. rewrite sin_0, cos_0. apply f_equal3; lra.
Qed.

(** C52: the field quantities and the first order terms. *)
(** the gradient of the unit vector enters through its torsion, divergence and two double products, which are right *)
Theorem gct_unit_field : forall X, let B0 := V (X 0%nat) (X 4%nat) (X 8%nat) in let bn := norm B0 in let b := bhat bn X in bn <> 0 -> exists gx gy gz, has_jacobian (fun y => unit (aff X y)) vzero gx gy gz /\
  let n u := V (dot gx u) (dot gy u) (dot gz u) in
  dot b (curl_of gx gy gz) = tau bn X /\
  kappa bn X = vsub (n b) (vscal (/ bn) (cross (curlB X) b)) /\
  (forall rho p, dot b rho = 0 -> dot b p = 0 ->
     a1ddotgradb rho p (nablab bn X) = - (1 / 2) * (dot rho (n p) + dot p (n rho)) /\
     a2ddotgradb rho p (nablab bn X) = 1 / 4 * (dot p (n p) - dot rho (n rho))) /\
  nablab bn X 0%nat + nablab bn X 4%nat + nablab bn X 8%nat = div_of gx gy gz.
Proof. exact unit_field. Qed.
Print Assumptions gct_unit_field.
Theorem gct_curvature_iff : forall X, let B0 := V (X 0%nat) (X 4%nat) (X 8%nat) in let bn := norm B0 in let b := bhat bn X in bn <> 0 -> forall k, vel (fun t => unit (aff X (vscal t b))) 0 k -> (kappa bn X = k <-> cross (curlB X) b = vzero).
Proof. exact curvature_iff. Qed.
Print Assumptions gct_curvature_iff.
(** along the exact orbit the first order magnetic moment changes only through div B and the current across the field *)
Theorem gct_moment_invariant : forall m q X ppar mu zeta, let B0 := V (X 0%nat) (X 4%nat) (X 8%nat) in let bn := norm B0 in let b := bhat bn X in bn <> 0 -> 0 < m -> q <> 0 -> flat b <> 0 -> 0 <= mu -> forall (y p : R -> vec) gm, gm <> 0 -> y 0 = vzero -> p 0 = momentum m q bn b ppar mu zeta ->
  vel y 0 (vscal (/ gm) (p 0)) -> vel p 0 (vscal (q / gm) (cross (p 0) B0)) ->
  exists d0 d1, Dx (fun t => mu_at m (aff X (y t)) (p t)) 0 d0 /\ Dx (fun s => mu1 m q bn X ppar mu (rhov b s) (perpv b s)) zeta d1 /\
  d0 + q * bn / gm * d1 = - / gm * (ppar * mu / bn * divB X + ppar * ppar / (m * (bn * bn)) * dot (across b (p 0)) (cross (curlB X) b)).
Proof. exact mu_invariant. Qed.
Print Assumptions gct_moment_invariant.
Theorem gct_energy_kept : forall m q X ppar mu zeta, let B0 := V (X 0%nat) (X 4%nat) (X 8%nat) in let bn := norm B0 in let b := bhat bn X in bn <> 0 -> 0 < m -> q <> 0 -> let n := perpv b zeta in let rho := rhov b zeta in exists dB, Dx (fun t => norm (aff X (vscal t (vscal (- gyrolen m q bn mu) rho)))) 0 dB /\
  ppar / m * ppar1 m q bn X ppar mu rho n + bn * mu1 m q bn X ppar mu rho n + mu * dB = 0.
Proof. exact energy_first. Qed.
Print Assumptions gct_energy_kept.
(** the first order gyroangle turns with the gyrofrequency at the guiding centre, up to terms that do not depend on the gyroangle, a current across the field, and the error of the gauge vector *)
Theorem gct_gyroangle_rate : forall m q X ppar mu zeta, let B0 := V (X 0%nat) (X 4%nat) (X 8%nat) in let bn := norm B0 in let b := bhat bn X in bn <> 0 -> 0 < m -> q <> 0 -> flat b <> 0 -> 0 < mu -> let n := perpv b zeta in let rho := rhov b zeta in let P := sqrt (2 * m * bn * mu) in forall (y p : R -> vec) (pp mm Z : R -> R) gm dz, gm <> 0 -> y 0 = vzero -> Z 0 = zeta -> p 0 = momentum m q bn b ppar mu zeta ->
  vel y 0 (vscal (/ gm) (p 0)) -> vel p 0 (vscal (q / gm) (cross (p 0) B0)) ->
  near 0 (fun t => p t = momentum m q (norm (aff X (y t))) (unit (aff X (y t))) (pp t) (mm t) (Z t)) -> Dx Z 0 dz ->
  exists d1, Dx (fun s => zeta1 m q bn X ppar mu (rhov b s) (perpv b s)) zeta d1 /\
  dz - q / gm * (bn - gyrolen m q bn mu * dot rho (gradB bn X)) + q * bn / gm * d1 =
  ppar / gm * (gauge X b + tau bn X / 2) + sgn q * P / gm * (gauge X n - dot n (Rvec b (nablab bn X))) + sgn q * (ppar * ppar) / (P * bn * gm) * dot rho (cross (curlB X) b).
Proof. exact zeta_rate. Qed.
Print Assumptions gct_gyroangle_rate.
Theorem gct_first_order_output : forall m q B r phi z pr pphi pz, 0 < m -> q <> 0 -> r <> 0 -> bnorm B <> 0 -> let b := unit (bvec B phi) in let p := to_xyz (V pr pphi pz) phi in
  let X := jac_rpz2xyz B r phi in let bn := bnorm B in flat b <> 0 -> cross b p <> vzero ->
  exists mu zeta, 0 < mu /\ p = momentum m q bn b (dot p b) mu zeta /\ let g := p2g true m q B r phi z pr pphi pz in
  o_ppar g = Some (dot p b + ppar1 m q bn X (dot p b) mu (rhov b zeta) (perpv b zeta)) /\
  o_mu g = Some (Rabs (mu + mu1 m q bn X (dot p b) mu (rhov b zeta) (perpv b zeta))) /\
  o_zeta g = Some (fmod (2 * PI + (zeta + zeta1 m q bn X (dot p b) mu (rhov b zeta) (perpv b zeta))) (2 * PI)) /\
  b = bhat (norm (V (X 0%nat) (X 4%nat) (X 8%nat))) X /\ bn = norm (V (X 0%nat) (X 4%nat) (X 8%nat)).
Proof. exact p2g_first. Qed.
Print Assumptions gct_first_order_output.
Theorem gct_gauge : forall X u, let B0 := V (X 0%nat) (X 4%nat) (X 8%nat) in let bn := norm B0 in let b := bhat bn X in bn <> 0 -> flat b <> 0 ->
  Dx (fun t => dot (e1 (unit (aff X (vscal t u)))) (e2 b)) 0 (vz b * (vx b * vy (jv X u) - vy b * vx (jv X u)) / (bn * flat b)).
Proof. exact gauge_true. Qed.
Print Assumptions gct_gauge.
(** finding: the gyrogauge vector has the wrong sign *)
Theorem gct_gauge_sign_refuted : forall X u, let B0 := V (X 0%nat) (X 4%nat) (X 8%nat) in let bn := norm B0 in let b := bhat bn X in bn <> 0 -> flat b <> 0 -> X 4%nat = 0 -> curlB X = vzero ->
  Dx (fun t => dot (e1 (unit (aff X (vscal t u)))) (e2 b)) 0 (- dot u (Rvec b (nablab bn X))).
Proof. exact gauge_minus. Qed.
Print Assumptions gct_gauge_sign_refuted.
Definition shear (k : nat) : R := match k with 0%nat => 3 | 8%nat => 4 | 2%nat => 1 | 5%nat => 1 | _ => 0 end.
(** a curl-free and divergence-free field where the gauge vector is not zero *)
Example gauge_example : let b := bhat 5 shear in divB shear = 0 /\ curlB shear = vzero /\ flat b <> 0 /\
  Dx (fun t => dot (e1 (unit (aff shear (vscal t (V 1 0 0))))) (e2 b)) 0 (4 / 15) /\ vx (Rvec b (nablab 5 shear)) = - (4 / 15).
Proof.
  assert (N : norm (V (shear 0%nat) (shear 4%nat) (shear 8%nat)) = 5) by (unfold norm, shear; cbn [vx vy vz]; replace (3 * 3 + 0 * 0 + 4 * 4) with (5 * 5) by ring; apply sqrt_square; lra).
  intros b. assert (F : flat b <> 0) by (unfold flat, b, bhat, shear; cbn [vx vy vz]; lra). pose proof (gauge_true shear (V 1 0 0)) as G. cbv zeta in G. rewrite N in G. specialize (G ltac:(lra) F). fold b in G.
  repeat split; auto; try (unfold divB, shear; ring).
  - unfold curlB, shear, vzero. f_equal; ring.
  - eapply d_eq; [exact G|]. unfold flat, b, bhat, jv, shear. cbn [vx vy vz]. field.
  - unfold Rvec, nablab, gradB, b, bhat, shear. cbn [vx vy vz]. field.
Qed.
(** the straight line tangent to an orbit meets the premises of [gct_moment_invariant] *)
Example orbit_exists : forall p0 B gm q, let y := fun t => vscal t (vscal (/ gm) p0) in let p := fun t => vadd p0 (vscal t (vscal (q / gm) (cross p0 B))) in
  y 0 = vzero /\ p 0 = p0 /\ vel y 0 (vscal (/ gm) p0) /\ vel p 0 (vscal (q / gm) (cross p0 B)).
Proof.
  intros p0 B gm q y p. set (c := vscal (q / gm) (cross p0 B)) in *. set (d := vscal (/ gm) p0) in *. clearbody c d. unfold y, p, vel, vadd, vscal, vzero. cbn [vx vy vz].
  split; [f_equal; ring|]. split; [destruct p0 as [a0 a1 a2]; cbn [vx vy vz]; f_equal; ring|]. repeat split; der; ring.
Qed.
(** a gyrating particle in a uniform field meets the premises of [gct_gyroangle_rate] *)
Definition flatx (k : nat) : R := match k with 0%nat => 1 | _ => 0 end.
Example gyration : forall m q ppar mu zeta gm, let b := V 1 0 0 in let p := fun t => momentum m q 1 b ppar mu (zeta + q / gm * t) in let y := fun t => vscal t (vscal (/ gm) (p 0)) in
  (forall t, aff flatx (y t) = V 1 0 0) /\ norm (V 1 0 0) = 1 /\ unit (V 1 0 0) = b /\ vel y 0 (vscal (/ gm) (p 0)) /\ vel p 0 (vscal (q / gm) (cross (p 0) (V 1 0 0))) /\ Dx (fun t => zeta + q / gm * t) 0 (q / gm).
Proof.
  intros m q ppar mu zeta gm b p y. assert (N : norm (V 1 0 0) = 1) by (unfold norm; cbn [vx vy vz]; replace (1 * 1 + 0 * 0 + 0 * 0) with 1 by ring; apply sqrt_1).
  split; [intros t; unfold aff, flatx; f_equal; ring|]. split; [exact N|]. split; [rewrite unit_scal, N; unfold vscal, b; cbn [vx vy vz]; f_equal; field|].
  split; [unfold y; set (d := vscal (/ gm) (p 0)); clearbody d; unfold vel, vscal; cbn [vx vy vz]; repeat split; der; ring|].
  split; [|der; ring].
  assert (E : e1 b = V 0 (-1) 0) by (rewrite e1_val; unfold flat, b; cbn [vx vy vz]; replace (1 * 1 + 0 * 0) with 1 by ring; rewrite sqrt_1; f_equal; field).
  unfold p, momentum. set (s := sgn q * sqrt (2 * m * 1 * mu)). clearbody s. unfold perpv, e2. rewrite E. unfold b, cross, vadd, vscal, vel. cbn [vx vy vz]. repeat split; der; rewrite ?Rmult_0_r, ?Rplus_0_r; ring.
Qed.
