(** Splines stored as cell polynomials: the same functions as the compact ones *)
From Coq Require Import Reals ZArith List Bool Arith Lia Lra.
From Verif Require Import AxisModel AxisProofs LintProofs SplineModel SplineProofs Spl2Model Spl2Proofs Spl2Uniq Spl2Props Spl3Model Spl3Proofs ExplModel ExplProofs.
Import ListNotations.
Local Open Scope R_scope.

(** Surfaces *)
(** the setup stays inside its arrays *)
Theorem explicit2_setup_ok : forall junkd junk left f nx ny bcx bcy xmn xmx ymn ymx, enough nx bcx -> enough ny bcy ->
  exists s, interp2Dexpl_setup junkd junk left f nx ny bcx bcy xmn xmx ymn ymx = Val s.
Proof. exact expl2_defined. Qed.
Print Assumptions explicit2_setup_ok.
(** value, derivatives and refusals are those of the compact form, except in the closing cell of a periodic direction *)
Theorem explicit2_agrees : forall junkd junk left f nx ny bcx bcy xmn xmx ymn ymx, enough nx bcx -> enough ny bcy -> xmn < xmx -> ymn < ymx ->
  forall junk' s s' x y, interp2Dexpl_setup junkd junk left f nx ny bcx bcy xmn xmx ymn ymx = Val s ->
  interp2Dcomp_setup junk' f nx ny bcx bcy xmn xmx ymn ymx = Val s' -> ~ closing nx bcx xmn xmx x -> ~ closing ny bcy ymn ymx y ->
  interp2Dexpl_eval_f s x y = interp2Dcomp_eval_f s' x y /\ interp2Dexpl_eval_df s x y = interp2Dcomp_eval_df s' x y.
Proof. exact expl2_comp2. Qed.
Print Assumptions explicit2_agrees.
(** with natural conditions: the spline surface through the data and its derivatives *)
Theorem explicit2_natural_is_spline : forall junkd junk left f nx ny xmn xmx ymn ymx s, (2 <= nx)%nat -> (2 <= ny)%nat -> xmn < xmx -> ymn < ymx ->
  interp2Dexpl_setup junkd junk left f nx ny NATURALBC NATURALBC xmn xmx ymn ymx = Val s ->
  exists F Fx Fy Fxx Fyy Fxy,
    surface_interpolant nx ny NATURALBC NATURALBC xmn xmx ymn ymx (fun i j => f (j * nx + i)%nat) F Fx Fy Fxx Fyy Fxy /\
    forall x y, xmn <= x <= xmx -> ymn <= y <= ymx ->
      interp2Dexpl_eval_f s x y = Val (F x y) /\
      interp2Dexpl_eval_df s x y = Val (F x y, Fx x y, Fy x y, Fxx x y, Fyy x y, Fxy x y).
Proof. exact expl2_natural. Qed.
Print Assumptions explicit2_natural_is_spline.
(** finding: in the closing cell of a periodic x direction the value is whatever the coefficient array held before *)
Theorem explicit2_closing_x_refuted : forall junkd junk f nx ny bcx bcy xmn xmx ymn ymx x y v, enough nx bcx -> enough ny bcy -> xmn < xmx -> ymn < ymx ->
  closing nx bcx xmn xmx x -> covered bcy ymn ymx y ->
  exists left s, interp2Dexpl_setup junkd junk left f nx ny bcx bcy xmn xmx ymn ymx = Val s /\ interp2Dexpl_eval_f s x y = Val v.
Proof. exact expl2_closing_x. Qed.
Print Assumptions explicit2_closing_x_refuted.
(** finding: the same in y, except exactly on the last node *)
Theorem explicit2_closing_y_refuted : forall junkd junk f nx ny bcx bcy xmn xmx ymn ymx x y v, enough nx bcx -> enough ny bcy -> xmn < xmx -> ymn < ymx ->
  covered bcx xmn xmx x -> closing ny bcy ymn ymx y -> (forall k, y + IZR k * (ymx - ymn) <> ymx - step ny bcy ymn ymx) ->
  exists left s, interp2Dexpl_setup junkd junk left f nx ny bcx bcy xmn xmx ymn ymx = Val s /\ interp2Dexpl_eval_f s x y = Val v.
Proof. exact expl2_closing_y. Qed.
Print Assumptions explicit2_closing_y_refuted.
Example explicit_bilin : forall jd jk lf s, interp2Dexpl_setup jd jk lf bilin 3 2 NATURALBC NATURALBC 0 2 0 1 = Val s ->
  interp2Dexpl_eval_f s (1 / 2) (1 / 3) = Val (11 / 3) /\ interp2Dexpl_eval_f s 1 2 = Err.
Proof.
  intros jd jk lf s H. assert (EX : enough 3 NATURALBC) by (left; auto). assert (EY : enough 2 NATURALBC) by (left; auto).
  assert (NC : forall n mn mx x, ~ closing n NATURALBC mn mx x) by (intros n mn mx x [E _]; discriminate E).
  destruct (comp2_defined jd bilin 3 2 NATURALBC NATURALBC 0 2 0 1 EX EY) as [s' C]. split.
  - destruct (explicit2_agrees jd jk lf bilin 3 2 _ _ 0 2 0 1 EX EY ltac:(lra) ltac:(lra) jd s s' (1 / 2) (1 / 3) H C (NC _ _ _ _) (NC _ _ _ _)) as [-> _].
    rewrite (bilin_exact jd s' C) by lra. f_equal. field.
  - destruct (explicit2_agrees jd jk lf bilin 3 2 _ _ 0 2 0 1 EX EY ltac:(lra) ltac:(lra) jd s s' 1 2 H C (NC _ _ _ _) (NC _ _ _ _)) as [-> _].
    destruct (interp2Dcomp_is_spline jd bilin 3 2 _ _ 0 2 0 1 s' EX EY ltac:(lra) ltac:(lra) C) as (F & Fx & Fy & Fxx & Fyy & Fxy & S & _ & V).
    apply V. right. split; auto. lra.
Qed.
(** constant data on a periodic direction with three nodes, half way between the last
    node and the first: the interpolant is 1, the routine can return 7 *)
Example explicit_closing : exists lf s, interp2Dexpl_setup (fun _ => 0) (fun _ => 0) lf (fun _ => 1) 3 2 PERIODICBC NATURALBC 0 3 0 1 = Val s /\
  interp2Dexpl_eval_f s (5 / 2) (1 / 2) = Val 7.
Proof.
  apply explicit2_closing_x_refuted; try lra; [right; auto|left; auto| |].
  - split; [reflexivity|]. exists 0%Z. unfold step, cells. cbn [Z.eqb PERIODICBC NATURALBC]. cbn [INR]. lra.
  - intros _. lra.
Qed.

(** Volumes *)
(** the setup stays inside its arrays *)
Theorem explicit3_setup_ok : forall junkd junk left f nx ny nz bcx bcy bcz xmn xmx ymn ymx zmn zmx, enough nx bcx -> enough ny bcy -> enough nz bcz ->
  exists s, interp3Dexpl_setup junkd junk left f nx ny nz bcx bcy bcz xmn xmx ymn ymx zmn zmx = Val s.
Proof. exact expl3_defined. Qed.
Print Assumptions explicit3_setup_ok.
(** value, derivatives and refusals are those of the compact form, everywhere and for all boundary conditions *)
Theorem explicit3_agrees : forall junkd junk left f nx ny nz bcx bcy bcz xmn xmx ymn ymx zmn zmx, enough nx bcx -> enough ny bcy -> enough nz bcz -> xmn < xmx -> ymn < ymx -> zmn < zmx ->
  forall junk' s s' x y z, interp3Dexpl_setup junkd junk left f nx ny nz bcx bcy bcz xmn xmx ymn ymx zmn zmx = Val s ->
  interp3Dcomp_setup junk' f nx ny nz bcx bcy bcz xmn xmx ymn ymx zmn zmx = Val s' ->
  interp3Dexpl_eval_f s x y z = interp3Dcomp_eval_f s' x y z /\ interp3Dexpl_eval_df s x y z = interp3Dcomp_eval_df s' x y z.
Proof. exact expl3_comp3. Qed.
Print Assumptions explicit3_agrees.
(** the spline volume through the data and its derivatives *)
Theorem explicit3_is_spline : forall junkd junk left f nx ny nz bcx bcy bcz xmn xmx ymn ymx zmn zmx, enough nx bcx -> enough ny bcy -> enough nz bcz -> xmn < xmx -> ymn < ymx -> zmn < zmx ->
  forall s, interp3Dexpl_setup junkd junk left f nx ny nz bcx bcy bcz xmn xmx ymn ymx zmn zmx = Val s ->
  exists F Fx Fy Fz Fxx Fyy Fzz Fxy Fxz Fyz,
    volume_interpolant nx ny nz bcx bcy bcz xmn xmx ymn ymx zmn zmx (fun i j k => f (k * ny * nx + j * nx + i)%nat) F Fx Fy Fz Fxx Fyy Fzz Fxy Fxz Fyz /\
    forall x y z, covered bcx xmn xmx x -> covered bcy ymn ymx y -> covered bcz zmn zmx z ->
      interp3Dexpl_eval_f s x y z = Val (F x y z) /\
      interp3Dexpl_eval_df s x y z = Val (F x y z, Fx x y z, Fy x y z, Fz x y z, Fxx x y z, Fyy x y z, Fzz x y z, Fxy x y z, Fxz x y z, Fyz x y z).
Proof. exact expl3_spec. Qed.
Print Assumptions explicit3_is_spline.
Example explicit3_corner : forall jd jk lf f s, interp3Dexpl_setup jd jk lf f 3 2 4 PERIODICBC NATURALBC PERIODICBC 0 3 0 1 0 4 = Val s ->
  interp3Dexpl_eval_f s 2 1 3 = Val (f 23%nat) /\ interp3Dexpl_eval_f s 0 2 0 = Err.
Proof.
  intros jd jk lf f s H. assert (EX : enough 3 PERIODICBC) by (right; auto). assert (EY : enough 2 NATURALBC) by (left; auto). assert (EZ : enough 4 PERIODICBC) by (right; auto).
  destruct (explicit3_is_spline jd jk lf f 3 2 4 PERIODICBC NATURALBC PERIODICBC 0 3 0 1 0 4 EX EY EZ ltac:(lra) ltac:(lra) ltac:(lra) s H) as (F & Fx & Fy & Fz & Fxx & Fyy & Fzz & Fxy & Fxz & Fyz & S & V). split.
  - destruct (V 2 1 3) as [-> _]; [discriminate|intros _; lra|discriminate|]. f_equal. destruct S as [D _]. specialize (D 2%nat 1%nat 3%nat ltac:(lia) ltac:(lia) ltac:(lia)).
    unfold step, cells in D. cbn [Z.eqb PERIODICBC NATURALBC Nat.sub] in D.
    replace (0 + INR 2 * ((3 - 0) / INR 3)) with 2 in D by (cbn [INR]; field). replace (0 + INR 1 * ((1 - 0) / INR 1)) with 1 in D by (cbn [INR]; field).
    replace (0 + INR 3 * ((4 - 0) / INR 4)) with 3 in D by (cbn [INR]; field). exact D.
  - apply (expl3_err jd jk lf f 3 2 4 PERIODICBC NATURALBC PERIODICBC 0 3 0 1 0 4 s EX EY EZ H). right. left. split; [reflexivity|lra].
Qed.
