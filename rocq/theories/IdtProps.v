(** Initial time steps *)
From Coq Require Import Reals ZArith Bool List Lra Lia Psatz.
From Verif Require Import Vec PhysModel PhysProofs IdtModel IdtProofs.
Import ListNotations.
Local Open Scope R_scope.

(** Steps from the gyration *)

(** full orbit: so many steps as asked for are exactly the smallest period of the momentum of any charge that obeys the relativistic equation of motion *)
Theorem fo_step_divides_gyration : forall o m q B p, usrdef_use o = false -> (0 < gyrodef_nstep o)%Z -> 0 < m -> q <> 0 -> B <> vzero -> gyrates m q B p -> cross (p 0) B <> vzero ->
  exists h, fo_fixed_inidt o m q B (p 0) = Some h /\ period p (IZR (gyrodef_nstep o) * h).
Proof. exact fo_step. Qed.
Print Assumptions fo_step_divides_gyration.
(** guiding centre: the same for every particle with its magnetic moment and parallel momentum *)
Theorem gc_step_divides_gyration : forall o m q B p, usrdef_use o = false -> (0 < gyrodef_nstep o)%Z -> 0 < m -> q <> 0 -> B <> vzero -> gyrates m q B p -> cross (p 0) B <> vzero ->
  forall mu ppar, gc_of m B (p 0) mu ppar -> exists h, gc_fixed_inidt o m q mu ppar B = Some h /\ period p (IZR (gyrodef_nstep o) * h).
Proof. exact gc_step. Qed.
Print Assumptions gc_step_divides_gyration.
(** adaptive guiding centre: the least of one second, the gyration and, with collisions, a hundredth of a second *)
Theorem gc_adaptive_first_step : forall o m q B p mu ppar, usrdef_use o = false -> 0 < m -> q <> 0 -> B <> vzero -> gyrates m q B p -> cross (p 0) B <> vzero -> gc_of m B (p 0) mu ppar ->
  exists T, period p T /\ In (gc_adaptive_inidt o m q mu ppar B) (limits o T) /\ forall x, In x (limits o T) -> gc_adaptive_inidt o m q mu ppar B <= x.
Proof. exact gca_step. Qed.
Print Assumptions gc_adaptive_first_step.
(** a step given by the user is used as it is *)
Theorem user_step_wins : forall o m q B p mu ppar, usrdef_use o = true ->
  fo_fixed_inidt o m q B p = Some (usrdef_val o) /\ gc_fixed_inidt o m q mu ppar B = Some (usrdef_val o) /\ gc_adaptive_inidt o m q mu ppar B = usrdef_val o.
Proof. exact user_step. Qed.
Print Assumptions user_step_wins.

(** Where there is no such step *)
(** the full-orbit step is infinite exactly for neutrals, without a field and for a count of zero *)
Theorem fo_step_infinite_iff : forall o m q B p, usrdef_use o = false -> 0 < m -> fo_fixed_inidt o m q B p = None <-> q = 0 \/ B = vzero \/ gyrodef_nstep o = 0%Z.
Proof. exact fo_step_none. Qed.
Print Assumptions fo_step_infinite_iff.
(** the first step does not depend on the plasma: for any collision frequency above one it is more than the documented hundredth of the collision time *)
Theorem gc_adaptive_collision_step_refuted : forall m q B mu ppar nu, 1 < nu -> 1 / (100 * nu) < gc_adaptive_inidt (mkidt false 0 1 false true) m q mu ppar B.
Proof. exact gca_collisions. Qed.
Print Assumptions gc_adaptive_collision_step_refuted.

(** ** A gyrating particle: the theorems speak about something *)
Example demo_gyrates m q Bz a z : 0 < m -> gyrates m q (V 0 0 Bz) (helix (q * Bz / (m * lorentz_factor m (V a 0 z))) a z).
Proof. exact (helix_gyrates m q Bz a z). Qed.
Example demo_step : exists h, fo_fixed_inidt (mkidt false 0 20 true false) 1 (-1) (V 0 0 2) (V 3 0 1) = Some h /\ period (helix (-1 * 2 / (1 * lorentz_factor 1 (V 3 0 1))) 3 1) (20 * h).
Proof.
  pose proof (helix_gyrates 1 (-1) 2 3 1 ltac:(lra)) as G. set (p := helix _ 3 1) in *. assert (E : p 0 = V 3 0 1) by (unfold p, helix; rewrite Rmult_0_r, cos_0, sin_0; f_equal; ring).
  rewrite <- E. apply (fo_step_divides_gyration (mkidt false 0 20 true false) 1 (-1) (V 0 0 2) p); auto; try lra; try (cbn; lia).
  - intros H. injection H as H. lra.
  - rewrite E. unfold cross, vzero. cbn [vx vy vz]. intros H. injection H as H. lra.
Qed.
Example demo_neutral B p : fo_fixed_inidt (mkidt false 0 20 true false) 1 0 B p = None.
Proof. apply fo_step_infinite_iff; [reflexivity|lra|now left]. Qed.
Example demo_user m q B p : fo_fixed_inidt (mkidt true (1e-8) 20 true false) m q B p = Some (1e-8).
Proof. apply (user_step_wins (mkidt true (1e-8) 20 true false) m q B p 0 0 eq_refl). Qed.
