(** Uniqueness of interpolating spline surfaces and volumes, and the functions they
    reproduce. *)
From Coq Require Import Reals Arith ZArith Lra Lia.
From Verif Require Import Deriv AxisModel AxisProofs SplineModel SplineProofs SplineUniq TensorProofs Spl2Proofs Spl3Proofs.
Local Open Scope R_scope.

Lemma node_in : forall n bc mn mx i, enough n bc -> mn < mx -> (i < n)%nat -> mn <= mn + INR i * step n bc mn mx <= mx.
Proof.
  intros n bc mn mx i EN M I. unfold step. assert (C : (i <= cells n bc)%nat /\ (0 < cells n bc)%nat).
  { unfold cells. destruct EN as [[-> EN]|[-> EN]]; cbn; lia. }
  destruct C as [C C']. apply le_INR in C. apply lt_INR in C'. cbn in C'. pose proof (pos_INR i).
  assert (0 <= INR i / INR (cells n bc) <= 1).
  { split; [apply Rmult_le_pos; [lra|left; now apply Rinv_0_lt_compat]|].
    apply (Rmult_le_reg_r (INR (cells n bc))); auto. unfold Rdiv. rewrite Rmult_assoc, Rinv_l by lra. lra. }
  replace (INR i * ((mx - mn) / INR (cells n bc))) with (INR i / INR (cells n bc) * (mx - mn)) by (field; lra).
  set (q := INR i / INR (cells n bc)) in *. split; nra.
Qed.
Lemma spline_move : forall n bc mn mx f g F F1 F2, (forall k, (k < n)%nat -> f k = g k) ->
  spline_interpolant n bc mn mx f F F1 F2 -> spline_interpolant n bc mn mx g F F1 F2.
Proof. intros n bc mn mx f g F F1 F2 E (A & B). split; auto. intros k K. rewrite <- E by auto. now apply A. Qed.

Lemma surface_unique : forall nx ny bcx bcy xmn xmx ymn ymx f F Fx Fy Fxx Fyy Fxy G Gx Gy Gxx Gyy Gxy,
  enough nx bcx -> enough ny bcy -> xmn < xmx -> ymn < ymx ->
  surface_interpolant nx ny bcx bcy xmn xmx ymn ymx f F Fx Fy Fxx Fyy Fxy ->
  surface_interpolant nx ny bcx bcy xmn xmx ymn ymx f G Gx Gy Gxx Gyy Gxy ->
  forall x y, xmn <= x <= xmx -> ymn <= y <= ymx -> F x y = G x y.
Proof.
  intros nx ny bcx bcy xmn xmx ymn ymx f F Fx Fy Fxx Fyy Fxy G Gx Gy Gxx Gyy Gxy EX EY MX MY (FN & FX & FY & _) (GN & GX & GY & _) x y X Y.
  assert (C : forall i, (i < nx)%nat -> F (xmn + INR i * step nx bcx xmn xmx) y = G (xmn + INR i * step nx bcx xmn xmx) y).
  { intros i I. eapply spline_unique; [exact EY|exact MY|apply FY| |exact Y]. eapply spline_move; [|apply GY].
    intros j J. cbv beta. rewrite FN, GN; auto. }
  eapply (spline_unique nx bcx xmn xmx _ (fun x => F x y) _ _ (fun x => G x y)); [exact EX|exact MX|apply FX| |exact X].
  eapply spline_move; [|apply GX]. intros i I. symmetry. auto.
Qed.
Lemma volume_unique : forall nx ny nz bcx bcy bcz xmn xmx ymn ymx zmn zmx f F Fx Fy Fz Fxx Fyy Fzz Fxy Fxz Fyz G Gx Gy Gz Gxx Gyy Gzz Gxy Gxz Gyz,
  enough nx bcx -> enough ny bcy -> enough nz bcz -> xmn < xmx -> ymn < ymx -> zmn < zmx ->
  volume_interpolant nx ny nz bcx bcy bcz xmn xmx ymn ymx zmn zmx f F Fx Fy Fz Fxx Fyy Fzz Fxy Fxz Fyz ->
  volume_interpolant nx ny nz bcx bcy bcz xmn xmx ymn ymx zmn zmx f G Gx Gy Gz Gxx Gyy Gzz Gxy Gxz Gyz ->
  forall x y z, xmn <= x <= xmx -> ymn <= y <= ymx -> zmn <= z <= zmx -> F x y z = G x y z.
Proof.
  intros nx ny nz bcx bcy bcz xmn xmx ymn ymx zmn zmx f F Fx Fy Fz Fxx Fyy Fzz Fxy Fxz Fyz G Gx Gy Gz Gxx Gyy Gzz Gxy Gxz Gyz
    EX EY EZ MX MY MZ (FN & FX & FY & FZ & _) (GN & GX & GY & GZ & _) x y z X Y Z.
  assert (C : forall i j, (i < nx)%nat -> (j < ny)%nat ->
     F (xmn + INR i * step nx bcx xmn xmx) (ymn + INR j * step ny bcy ymn ymx) z = G (xmn + INR i * step nx bcx xmn xmx) (ymn + INR j * step ny bcy ymn ymx) z).
  { intros i j I J. eapply spline_unique; [exact EZ|exact MZ|apply FZ| |exact Z]. eapply spline_move; [|apply GZ].
    intros k K. cbv beta. rewrite FN, GN; auto. }
  assert (C' : forall i, (i < nx)%nat -> F (xmn + INR i * step nx bcx xmn xmx) y z = G (xmn + INR i * step nx bcx xmn xmx) y z).
  { intros i I. eapply (spline_unique ny bcy ymn ymx _ (fun y => F _ y z) _ _ (fun y => G _ y z)); [exact EY|exact MY|apply FY| |exact Y].
    eapply spline_move; [|apply GY]. intros j J. symmetry. auto. }
  eapply (spline_unique nx bcx xmn xmx _ (fun x => F x y z) _ _ (fun x => G x y z)); [exact EX|exact MX|apply FX| |exact X].
  eapply spline_move; [|apply GX]. intros i I. symmetry. auto.
Qed.

(** straight lines are natural splines *)
Lemma line_spline : forall n mn mx a b (F F1 F2 : R -> R), (2 <= n)%nat -> mn < mx ->
  (forall x, F x = a + b * x) -> (forall x, F1 x = b) -> (forall x, F2 x = 0) ->
  spline_interpolant n NATURALBC mn mx (fun k => F (mn + INR k * step n NATURALBC mn mx)) F F1 F2.
Proof.
  intros n mn mx a b F F1 F2 N M E E1 E2.
  assert (P : step n NATURALBC mn mx <> 0).
  { unfold step. apply Rgt_not_eq, Rdiv_lt_0_compat; [lra|]. apply lt_0_INR. unfold cells. cbn. lia. }
  unfold spline_interpolant. cbv zeta. fold (step n NATURALBC mn mx). split; [reflexivity|]. set (h := step n NATURALBC mn mx) in *. split; [|split; [|split]].
  - intros k K. exists (a + b * (mn + INR k * h)), (b * h), 0, 0. intros t _. rewrite E, E1, E2. repeat split; [ring|field; auto|field; auto].
  - intros x _. rewrite E1, E2. split; [|split].
    + eapply d_ext; [symmetry; apply E|]. der; ring.
    + eapply d_ext; [symmetry; apply E1|]. apply d_const.
    + apply (derivable_continuous_pt F2). exists 0. eapply d_ext; [symmetry; apply E2|]. apply d_const.
  - intros _. now rewrite !E2.
  - discriminate.
Qed.
Lemma bilinear_surface : forall nx ny xmn xmx ymn ymx p q r s, (2 <= nx)%nat -> (2 <= ny)%nat -> xmn < xmx -> ymn < ymx ->
  let F x y := p + q * x + r * y + s * x * y in
  surface_interpolant nx ny NATURALBC NATURALBC xmn xmx ymn ymx
    (fun i j => F (xmn + INR i * step nx NATURALBC xmn xmx) (ymn + INR j * step ny NATURALBC ymn ymx))
    F (fun x y => q + s * y) (fun x y => r + s * x) (fun _ _ => 0) (fun _ _ => 0) (fun _ _ => s).
Proof.
  intros nx ny xmn xmx ymn ymx p q r s NX NY MX MY F. split; [|split; [|split; [|split]]].
  - reflexivity.
  - intros y. apply (line_spline nx xmn xmx (p + r * y) (q + s * y) (fun x => F x y)); auto. intros. unfold F. ring.
  - intros x. apply (line_spline ny ymn ymx (p + q * x) (r + s * x)); auto. intros. unfold F. ring.
  - intros x y _. cbv beta. der; ring.
  - intros x y _. cbv beta. der; ring.
Qed.
Lemma trilinear_volume : forall nx ny nz xmn xmx ymn ymx zmn zmx p q r s, (2 <= nx)%nat -> (2 <= ny)%nat -> (2 <= nz)%nat ->
  xmn < xmx -> ymn < ymx -> zmn < zmx ->
  let F x y z := p + q * x * y + r * y * z + s * x * y * z in
  volume_interpolant nx ny nz NATURALBC NATURALBC NATURALBC xmn xmx ymn ymx zmn zmx
    (fun i j k => F (xmn + INR i * step nx NATURALBC xmn xmx) (ymn + INR j * step ny NATURALBC ymn ymx) (zmn + INR k * step nz NATURALBC zmn zmx))
    F (fun x y z => q * y + s * y * z) (fun x y z => q * x + r * z + s * x * z) (fun x y z => r * y + s * x * y)
    (fun _ _ _ => 0) (fun _ _ _ => 0) (fun _ _ _ => 0) (fun x y z => q + s * z) (fun x y z => s * y) (fun x y z => r + s * x).
Proof.
  intros nx ny nz xmn xmx ymn ymx zmn zmx p q r s NX NY NZ MX MY MZ F. split; [|split; [|split; [|split; [|split; [|split]]]]].
  - reflexivity.
  - intros y z. apply (line_spline nx xmn xmx (p + r * y * z) (q * y + s * y * z) (fun x => F x y z)); auto. intros. unfold F. ring.
  - intros x z. apply (line_spline ny ymn ymx p (q * x + r * z + s * x * z) (fun y => F x y z)); auto. intros. unfold F. ring.
  - intros x y. apply (line_spline nz zmn zmx (p + q * x * y) (r * y + s * x * y)); auto. intros. unfold F. ring.
  - intros x y z _. split; cbv beta; (der; ring).
  - intros x y z _. split; cbv beta; (der; ring).
  - intros x y z _. split; cbv beta; (der; ring).
Qed.
