(** C30, C31: tricubic splines. *)
From Coq Require Import Reals List Arith ZArith Bool Lra Lia.
From Verif Require Import Deriv AxisModel AxisProofs LintProofs SplineModel SplineProofs SplineUniq TensorProofs Spl2Model Spl2Proofs Spl3Model Spl3Proofs Spl2Uniq.
Import ListNotations.
Local Open Scope R_scope.

Theorem interp3Dcomp_setup_ok : forall junk f nx ny nz bcx bcy bcz xmn xmx ymn ymx zmn zmx, enough nx bcx -> enough ny bcy -> enough nz bcz ->
  exists s, interp3Dcomp_setup junk f nx ny nz bcx bcy bcz xmn xmx ymn ymx zmn zmx = Val s.
Proof.
  intros. unfold interp3Dcomp_setup. rewrite (enough_valid nx bcx), (enough_valid ny bcy), (enough_valid nz bcz), !splinecomp_val by auto.
  cbn [andb complete]. eauto.
Qed.
Print Assumptions interp3Dcomp_setup_ok.
(** the evaluation returns one function through the data which is a spline in each
    variable, with its partial derivatives; an error outside a natural axis *)
Theorem interp3Dcomp_is_spline : forall junk f nx ny nz bcx bcy bcz xmn xmx ymn ymx zmn zmx s,
  enough nx bcx -> enough ny bcy -> enough nz bcz -> xmn < xmx -> ymn < ymx -> zmn < zmx ->
  interp3Dcomp_setup junk f nx ny nz bcx bcy bcz xmn xmx ymn ymx zmn zmx = Val s ->
  exists F Fx Fy Fz Fxx Fyy Fzz Fxy Fxz Fyz,
    volume_interpolant nx ny nz bcx bcy bcz xmn xmx ymn ymx zmn zmx (fun i j k => f (k * ny * nx + j * nx + i)%nat) F Fx Fy Fz Fxx Fyy Fzz Fxy Fxz Fyz /\
    (forall x y z, (bcx = NATURALBC -> xmn <= x <= xmx) -> (bcy = NATURALBC -> ymn <= y <= ymx) -> (bcz = NATURALBC -> zmn <= z <= zmx) ->
       interp3Dcomp_eval_f s x y z = Val (F x y z) /\
       interp3Dcomp_eval_df s x y z = Val (F x y z, Fx x y z, Fy x y z, Fz x y z, Fxx x y z, Fyy x y z, Fzz x y z, Fxy x y z, Fxz x y z, Fyz x y z)) /\
    (forall x y z, (bcx = NATURALBC /\ ~ (xmn <= x <= xmx)) \/ (bcy = NATURALBC /\ ~ (ymn <= y <= ymx)) \/ (bcz = NATURALBC /\ ~ (zmn <= z <= zmx)) ->
       interp3Dcomp_eval_f s x y z = Err /\ interp3Dcomp_eval_df s x y z = Err).
Proof.
  intros junk f nx ny nz bcx bcy bcz xmn xmx ymn ymx zmn zmx s EX EY EZ MX MY MZ SET.
  do 10 eexists. split; [exact (spec3 f nx ny nz bcx bcy bcz xmn xmx ymn ymx zmn zmx EX EY EZ MX MY MZ)|].
  split; [exact (eval3 junk f nx ny nz bcx bcy bcz xmn xmx ymn ymx zmn zmx s EX EY EZ MX MY MZ SET)
        | exact (err3 junk f nx ny nz bcx bcy bcz xmn xmx ymn ymx zmn zmx s EX EY EZ MX MY MZ SET)].
Qed.
Print Assumptions interp3Dcomp_is_spline.
Theorem spline_volume_unique : forall nx ny nz bcx bcy bcz xmn xmx ymn ymx zmn zmx f F Fx Fy Fz Fxx Fyy Fzz Fxy Fxz Fyz G Gx Gy Gz Gxx Gyy Gzz Gxy Gxz Gyz,
  enough nx bcx -> enough ny bcy -> enough nz bcz -> xmn < xmx -> ymn < ymx -> zmn < zmx ->
  volume_interpolant nx ny nz bcx bcy bcz xmn xmx ymn ymx zmn zmx f F Fx Fy Fz Fxx Fyy Fzz Fxy Fxz Fyz ->
  volume_interpolant nx ny nz bcx bcy bcz xmn xmx ymn ymx zmn zmx f G Gx Gy Gz Gxx Gyy Gzz Gxy Gxz Gyz ->
  forall x y z, xmn <= x <= xmx -> ymn <= y <= ymx -> zmn <= z <= zmx -> F x y z = G x y z.
Proof. exact volume_unique. Qed.
Print Assumptions spline_volume_unique.

(** the corners of the unit cube with 1 + 2 x y + 3 y z + 4 x y z *)
Definition trilin (k : nat) : R := nth k [1; 1; 1; 3; 1; 1; 4; 10] 0.
Example trilin_exact : forall junk s, interp3Dcomp_setup junk trilin 2 2 2 NATURALBC NATURALBC NATURALBC 0 1 0 1 0 1 = Val s ->
  forall x y z, 0 <= x <= 1 -> 0 <= y <= 1 -> 0 <= z <= 1 -> interp3Dcomp_eval_f s x y z = Val (1 + 2 * x * y + 3 * y * z + 4 * x * y * z).
Proof.
  intros junk s H x y z X Y Z. assert (E : enough 2 NATURALBC) by (left; auto).
  destruct (interp3Dcomp_is_spline junk trilin 2 2 2 _ _ _ 0 1 0 1 0 1 s E E E ltac:(lra) ltac:(lra) ltac:(lra) H)
    as (F & Fx & Fy & Fz & Fxx & Fyy & Fzz & Fxy & Fxz & Fyz & S & V & _).
  destruct (V x y z) as [-> _]; auto. f_equal.
  pose proof (trilinear_volume 2 2 2 0 1 0 1 0 1 1 2 3 4 ltac:(lia) ltac:(lia) ltac:(lia) ltac:(lra) ltac:(lra) ltac:(lra)) as B. cbv zeta in B.
  destruct B as (_ & B).
  assert (N : forall i j k, (i < 2)%nat -> (j < 2)%nat -> (k < 2)%nat ->
    (fun x y z => 1 + 2 * x * y + 3 * y * z + 4 * x * y * z) (0 + INR i * step 2 NATURALBC 0 1) (0 + INR j * step 2 NATURALBC 0 1)
      (0 + INR k * step 2 NATURALBC 0 1) = trilin (k * 2 * 2 + j * 2 + i)).
  { intros i j k I J K. unfold step, cells. cbn [Z.eqb NATURALBC Nat.sub].
    destruct i as [|[|i]]; [| |lia]; (destruct j as [|[|j]]; [| |lia]); (destruct k as [|[|k]]; [| |lia]); cbn; lra. }
  exact (volume_unique 2 2 2 _ _ _ 0 1 0 1 0 1 _ _ _ _ _ _ _ _ _ _ _ _ _ _ _ _ _ _ _ _ _ E E E ltac:(lra) ltac:(lra) ltac:(lra) S (conj N B) x y z X Y Z).
Qed.
Example trilin_outside : forall junk s, interp3Dcomp_setup junk trilin 2 2 2 NATURALBC NATURALBC NATURALBC 0 1 0 1 0 1 = Val s ->
  interp3Dcomp_eval_f s (1 / 2) (1 / 2) 2 = Err.
Proof.
  intros junk s H. assert (E : enough 2 NATURALBC) by (left; auto).
  destruct (interp3Dcomp_is_spline junk trilin 2 2 2 _ _ _ 0 1 0 1 0 1 s E E E ltac:(lra) ltac:(lra) ltac:(lra) H)
    as (F & Fx & Fy & Fz & Fxx & Fyy & Fzz & Fxy & Fxz & Fyz & S & _ & V).
  apply V. right; right; split; auto; lra.
Qed.
