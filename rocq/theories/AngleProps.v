(** The cumulative poloidal angle of the orbit and collision steps (src/simulate/step/*.c, src/simulate/mccc/mccc_gc_*.c). *)
From Coq Require Import Reals ZArith List Bool Lra Lia.
From Verif Require Import Deriv Vec AxisModel PhysModel StepFoModel GcModel CollModel AngleProofs.
Import ListNotations.
Local Open Scope R_scope.

(** C87. *)
(** the continuous angle along a segment is determined by its start *)
Theorem poloidal_angle_lift_unique : forall ax r0 z0 r1 z1 L M, lift ax r0 z0 r1 z1 L -> lift ax r0 z0 r1 z1 M -> L 0 = M 0 -> L 1 = M 1.
Proof. exact lift_unique. Qed.
Print Assumptions poloidal_angle_lift_unique.
Section fo.
Variables (fields : R -> R -> R -> R -> Z * vec * vec) (evalBdB : R -> R -> R -> R -> Z * (nat -> R)) (evalPsi : R -> R -> R -> R -> Z * R)
          (evalRho : R -> Z * R) (evalAxis : R -> Z * (R * R)).
(** a completed full-orbit step turns the angle with the marker *)
Theorem fo_poloidal_angle : forall h a p q, frun p = true -> fo_step fields evalBdB evalPsi evalRho evalAxis h a p = Some q -> frun q = true ->
  exists ax, evalAxis (fphi q) = (0%Z, ax) /\ follows ax (fr p) (fz p) (ftheta p) (fr q) (fz q) (ftheta q).
Proof. exact (AngleProofs.fo_follows fields evalBdB evalPsi evalRho evalAxis). Qed.
End fo.
Print Assumptions fo_poloidal_angle.
Section gc.
Variables (evalBdB : R -> R -> R -> R -> Z * (nat -> R)) (evalE : R -> R -> R -> R -> Z * vec) (evalMhd : R -> R -> R -> R -> Z * (nat -> R))
          (evalPsi : R -> R -> R -> R -> Z * R) (evalRho : R -> Z * R) (evalAxis : R -> Z * (R * R)) (junk : R).
Variable evalFlow : R -> R -> R -> R -> R -> Z * R.
Variable evalPlasma : R -> R -> R -> R -> R -> Z * list psp.
Notation gfollows := (AngleProofs.gfollows evalAxis).
Notation gmove := (AngleProofs.gmove evalBdB evalE evalMhd evalPsi evalRho evalAxis junk evalFlow evalPlasma).
(** guiding-centre steps: the axis is that of the new toroidal angle *)
Theorem gc_rk4_poloidal_angle : forall mhd h ald p, let q := gc_rk4 evalBdB evalE evalMhd evalPsi evalRho evalAxis mhd h ald p in
  grun p = true -> grun q = true -> gfollows (gy q 1%nat) p q.
Proof. exact (AngleProofs.gc_rk4_follows evalBdB evalE evalMhd evalPsi evalRho evalAxis). Qed.
Theorem gc_cashkarp_poloidal_angle : forall mhd h tol ald p hn, let q := fst (gc_cashkarp evalBdB evalE evalMhd evalPsi evalRho evalAxis junk mhd h tol ald p hn) in
  grun p = true -> grun q = true -> gfollows (gy q 1%nat) p q.
Proof. exact (AngleProofs.gc_cashkarp_follows evalBdB evalE evalMhd evalPsi evalRho evalAxis junk). Qed.
(** collisions: the axis is that of the old toroidal angle *)
Theorem gc_euler_poloidal_angle : forall sw h rnd p q, grun p = true -> mccc_gc_euler evalFlow evalPlasma evalBdB evalPsi evalRho evalAxis sw h rnd p = Some q ->
  grun q = true -> gfollows (gy p 1%nat) p q.
Proof. exact (AngleProofs.euler_follows evalBdB evalPsi evalRho evalAxis evalFlow evalPlasma). Qed.
Theorem gc_milstein_poloidal_angle : forall sw hin ha tol ew dW p q ho nu, grun p = true ->
  mccc_gc_milstein evalFlow evalPlasma evalBdB evalPsi evalRho evalAxis sw hin ha tol ew dW p = Some (q, ho, nu) ->
  grun q = true -> gfollows (gy p 1%nat) p q.
Proof. exact (AngleProofs.milstein_follows evalBdB evalPsi evalRho evalAxis evalFlow evalPlasma). Qed.
(** over a whole execution about a fixed axis the angle is the continuous angle of the path through the positions, so it counts the turns *)
Theorem gc_poloidal_turns : forall ax (p : nat -> gcm) n, (forall phi, evalAxis phi = (0%Z, ax)) ->
  (forall k, (k < n)%nat -> gmove (p k) (p (S k)) /\ misses ax (gy (p k) 0%nat) (gy (p k) 2%nat) (gy (p (S k)) 0%nat) (gy (p (S k)) 2%nat)) ->
  (forall k, (k <= n)%nat -> grun (p k) = true) -> at_angle ax (gy (p 0%nat) 0%nat) (gy (p 0%nat) 2%nat) (gtheta (p 0%nat)) ->
  at_angle ax (gy (p n) 0%nat) (gy (p n) 2%nat) (gtheta (p n)) /\
  forall L, (forall k, (k < n)%nat -> lift ax (gy (p k) 0%nat) (gy (p k) 2%nat) (gy (p (S k)) 0%nat) (gy (p (S k)) 2%nat) (fun s => L (INR k + s))) ->
    L 0 = gtheta (p 0%nat) -> L (INR n) = gtheta (p n).
Proof. exact (AngleProofs.gc_turns evalBdB evalE evalMhd evalPsi evalRho evalAxis junk evalFlow evalPlasma). Qed.
End gc.
Print Assumptions gc_rk4_poloidal_angle.
Print Assumptions gc_cashkarp_poloidal_angle.
Print Assumptions gc_euler_poloidal_angle.
Print Assumptions gc_milstein_poloidal_angle.
Print Assumptions gc_poloidal_turns.
Section ml.
Variables (evalB : R -> R -> R -> R -> Z * vec) (evalBdB : R -> R -> R -> R -> Z * (nat -> R)) (evalPsi : R -> R -> R -> R -> Z * R)
          (evalRho : R -> Z * R) (evalAxis : R -> Z * (R * R)) (junk : nat -> R).
(** field lines: even when an evaluation failed *)
Theorem ml_poloidal_angle : forall h tol p hn, let q := fst (ml_step evalB evalBdB evalPsi evalRho evalAxis junk h tol p hn) in mrun p = true ->
  follows (snd (evalAxis (my q 1%nat))) (my p 0%nat) (my p 2%nat) (mtheta p) (my q 0%nat) (my q 2%nat) (mtheta q).
Proof. exact (AngleProofs.ml_follows evalB evalBdB evalPsi evalRho evalAxis junk). Qed.
End ml.
Print Assumptions ml_poloidal_angle.
(** finding: when the axis depends on the toroidal angle the cumulative angle is not the direction from the axis *)
Theorem poloidal_angle_geometric_refuted : exists evalB evalBdB evalPsi evalRho evalAxis junk h tol p hn,
  let q := fst (ml_step evalB evalBdB evalPsi evalRho evalAxis junk h tol p hn) in
  mrun p = true /\ mrun q = true /\ (forall phi, fst (evalAxis phi) = 0%Z) /\ at_angle (snd (evalAxis (my p 1%nat))) (my p 0%nat) (my p 2%nat) (mtheta p) /\
  ~ on_axis (snd (evalAxis (my q 1%nat))) (my q 0%nat) (my q 2%nat) /\
  ~ at_angle (snd (evalAxis (my q 1%nat))) (my q 0%nat) (my q 2%nat) (mtheta q).
Proof. exact moving_axis. Qed.
Print Assumptions poloidal_angle_geometric_refuted.

(** four quarter turns about the axis (3, 0) add one turn *)
Example one_turn : let x := fun k : nat => match k with 1%nat | 3%nat => 3 | 2%nat => 2 | _ => 4 end in
  let y := fun k : nat => match k with 1%nat => 1 | 3%nat => -1 | _ => 0 end in
  let th := fun k : nat => PI / 2 * INR k in
  (forall k, (k < 4)%nat -> misses (3, 0) (x k) (y k) (x (S k)) (y (S k))) /\
  (forall k, (k <= 4)%nat -> at_angle (3, 0) (x k) (y k) (th k)) /\
  forall k, (k < 4)%nat -> follows (3, 0) (x k) (y k) (th k) (x (S k)) (y (S k)) (th (S k)).
Proof.
  intros x y th.
  assert (A2 : atan2 1 0 = PI / 2) by (unfold atan2; destruct (Rlt_dec 0 0); [lra|]; destruct (Rlt_dec 0 1); lra).
  split; [|split].
  - intros k K s S [E F]. cbn [fst snd] in *. destruct k as [|[|[|[|k]]]]; [| | | |lia]; cbn [x y] in E, F; lra.
  - intros k K. exists 1. split; [lra|]. cbn [fst snd]. destruct k as [|[|[|[|[|k]]]]]; [| | | | |lia]; cbn [x y].
    + unfold th. cbn [INR]. rewrite Rmult_0_r, cos_0, sin_0. lra.
    + unfold th. cbn [INR]. rewrite Rmult_1_r, cos_PI2, sin_PI2. lra.
    + replace (th 2%nat) with PI by (unfold th; cbn [INR]; field). rewrite cos_PI, sin_PI. lra.
    + replace (th 3%nat) with (3 * (PI / 2)) by (unfold th; cbn [INR]; ring). rewrite cos_3PI2, sin_3PI2. lra.
    + replace (th 4%nat) with (2 * PI) by (unfold th; cbn [INR]; field). rewrite cos_2PI, sin_2PI. lra.
  - intros k K. replace (th (S k)) with (th k + atan2 ((x k - 3) * (y (S k) - 0) - (y k - 0) * (x (S k) - 3)) ((x k - 3) * (x (S k) - 3) + (y k - 0) * (y (S k) - 0))).
    + apply (follows_turn (3, 0)).
    + replace (th (S k)) with (th k + PI / 2) by (unfold th; rewrite S_INR; ring). f_equal. rewrite <- A2.
      destruct k as [|[|[|[|k]]]]; [| | | |lia]; cbn [x y]; f_equal; ring.
Qed.
