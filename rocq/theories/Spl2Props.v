(** C30, C31: bicubic splines. *)
From Coq Require Import Reals List Arith ZArith Bool Lra Lia.
From Verif Require Import Deriv AxisModel AxisProofs LintProofs SplineModel SplineProofs SplineUniq TensorProofs Spl2Model Spl2Proofs Spl2Uniq.
Import ListNotations.
Local Open Scope R_scope.

Theorem interp2Dcomp_setup_ok : forall junk f nx ny bcx bcy xmn xmx ymn ymx, enough nx bcx -> enough ny bcy ->
  exists s, interp2Dcomp_setup junk f nx ny bcx bcy xmn xmx ymn ymx = Val s.
Proof.
  intros. unfold interp2Dcomp_setup. rewrite (enough_valid nx bcx), (enough_valid ny bcy), !splinecomp_val by auto. cbn [andb complete]. eauto.
Qed.
Print Assumptions interp2Dcomp_setup_ok.
(** the evaluation returns one function through the data which is a spline in each
    variable, with its partial derivatives; an error outside a natural axis *)
Theorem interp2Dcomp_is_spline : forall junk f nx ny bcx bcy xmn xmx ymn ymx s, enough nx bcx -> enough ny bcy -> xmn < xmx -> ymn < ymx ->
  interp2Dcomp_setup junk f nx ny bcx bcy xmn xmx ymn ymx = Val s ->
  exists F Fx Fy Fxx Fyy Fxy, surface_interpolant nx ny bcx bcy xmn xmx ymn ymx (fun i j => f (j * nx + i)%nat) F Fx Fy Fxx Fyy Fxy /\
    (forall x y, (bcx = NATURALBC -> xmn <= x <= xmx) -> (bcy = NATURALBC -> ymn <= y <= ymx) ->
       interp2Dcomp_eval_f s x y = Val (F x y) /\
       interp2Dcomp_eval_df s x y = Val (F x y, Fx x y, Fy x y, Fxx x y, Fyy x y, Fxy x y)) /\
    (forall x y, (bcx = NATURALBC /\ ~ (xmn <= x <= xmx)) \/ (bcy = NATURALBC /\ ~ (ymn <= y <= ymx)) ->
       interp2Dcomp_eval_f s x y = Err /\ interp2Dcomp_eval_df s x y = Err).
Proof.
  intros junk f nx ny bcx bcy xmn xmx ymn ymx s EX EY MX MY SET.
  do 6 eexists. split; [exact (spec2 f nx ny bcx bcy xmn xmx ymn ymx EX EY MX MY)|].
  split; [exact (eval2 junk f nx ny bcx bcy xmn xmx ymn ymx s EX EY MX MY SET) | exact (err2 junk f nx ny bcx bcy xmn xmx ymn ymx s EX EY MX MY SET)].
Qed.
Print Assumptions interp2Dcomp_is_spline.
Theorem spline_surface_unique : forall nx ny bcx bcy xmn xmx ymn ymx f F Fx Fy Fxx Fyy Fxy G Gx Gy Gxx Gyy Gxy,
  enough nx bcx -> enough ny bcy -> xmn < xmx -> ymn < ymx ->
  surface_interpolant nx ny bcx bcy xmn xmx ymn ymx f F Fx Fy Fxx Fyy Fxy ->
  surface_interpolant nx ny bcx bcy xmn xmx ymn ymx f G Gx Gy Gxx Gyy Gxy ->
  forall x y, xmn <= x <= xmx -> ymn <= y <= ymx -> F x y = G x y.
Proof. exact surface_unique. Qed.
Print Assumptions spline_surface_unique.

(** data taken from 1 + 2 x + 3 y + 4 x y on 3 by 2 nodes over [0,2] x [0,1]: the
    interpolation returns that function *)
Definition bilin (k : nat) : R := nth k [1; 3; 5; 4; 10; 16] 0.
Example bilin_exact : forall junk s, interp2Dcomp_setup junk bilin 3 2 NATURALBC NATURALBC 0 2 0 1 = Val s ->
  forall x y, 0 <= x <= 2 -> 0 <= y <= 1 -> interp2Dcomp_eval_f s x y = Val (1 + 2 * x + 3 * y + 4 * x * y).
Proof.
  intros junk s H x y X Y. assert (EX : enough 3 NATURALBC) by (left; auto). assert (EY : enough 2 NATURALBC) by (left; auto).
  destruct (interp2Dcomp_is_spline junk bilin 3 2 _ _ 0 2 0 1 s EX EY ltac:(lra) ltac:(lra) H) as (F & Fx & Fy & Fxx & Fyy & Fxy & S & V & _).
  destruct (V x y) as [-> _]; auto. f_equal.
  pose proof (bilinear_surface 3 2 0 2 0 1 1 2 3 4 ltac:(lia) ltac:(lia) ltac:(lra) ltac:(lra)) as B. cbv zeta in B.
  destruct B as (_ & B).
  assert (N : forall i j, (i < 3)%nat -> (j < 2)%nat ->
    (fun x y => 1 + 2 * x + 3 * y + 4 * x * y) (0 + INR i * step 3 NATURALBC 0 2) (0 + INR j * step 2 NATURALBC 0 1) = bilin (j * 3 + i)).
  { intros i j I J. unfold step, cells. cbn [Z.eqb NATURALBC Nat.sub].
    destruct i as [|[|[|i]]]; [| | |lia]; (destruct j as [|[|j]]; [| |lia]); cbn; lra. }
  exact (surface_unique 3 2 _ _ 0 2 0 1 _ _ _ _ _ _ _ _ _ _ _ _ _ EX EY ltac:(lra) ltac:(lra) S (conj N B) x y X Y).
Qed.
Example bilin_outside : forall junk s, interp2Dcomp_setup junk bilin 3 2 NATURALBC NATURALBC 0 2 0 1 = Val s ->
  interp2Dcomp_eval_f s 1 (-1) = Err /\ interp2Dcomp_eval_df s 3 (1 / 2) = Err.
Proof.
  intros junk s H. assert (EX : enough 3 NATURALBC) by (left; auto). assert (EY : enough 2 NATURALBC) by (left; auto).
  destruct (interp2Dcomp_is_spline junk bilin 3 2 _ _ 0 2 0 1 s EX EY ltac:(lra) ltac:(lra) H) as (F & Fx & Fy & Fxx & Fyy & Fxy & S & _ & V).
  split; apply V; [right|left]; split; auto; lra.
Qed.
