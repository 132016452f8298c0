(** Properties of the coil field (src/biosaw.c). *)
From Coq Require Import Reals Lra List.
From Verif Require Import Deriv Vec GsProofs BiosawModel BiosawProofs.
Import ListNotations.
Local Open Scope R_scope.

(** C48. *)
Theorem coil_biot_savart : forall x coil p, off_lines x p coil -> exists b, biosaw_calc_B x p coil = Some b /\ forall e, chain_integral x e p coil (dot e b).
Proof. exact calc_integral. Qed.
Print Assumptions coil_biot_savart.
Theorem coil_defined : forall x coil p, biosaw_calc_B x p coil <> None <-> off_lines x p coil.
Proof. exact calc_defined. Qed.
Print Assumptions coil_defined.
Theorem coil_split : forall x p0 c1 q c2 u, u <> 0 -> u <> 1 -> let p := last c1 p0 in
  biosaw_calc_B x p0 (c1 ++ at_t p q u :: q :: c2) = biosaw_calc_B x p0 (c1 ++ q :: c2).
Proof. exact calc_split. Qed.
Print Assumptions coil_split.
Theorem coil_reversed : forall p q x, segment q p x = match segment p q x with Some b => Some (vscal (-1) b) | None => None end.
Proof. exact segment_rev. Qed.
Print Assumptions coil_reversed.
Theorem coil_joined : forall x c1 p c2, biosaw_calc_B x p (c1 ++ c2) =
  match biosaw_calc_B x p c1, biosaw_calc_B x (last c1 p) c2 with Some a, Some b => Some (vadd a b) | _, _ => None end.
Proof. exact calc_app. Qed.
Print Assumptions coil_joined.
Theorem coil_maxwell_equations : forall coil p x, off_lines x p coil -> exists gx gy gz, has_jacobian (field p coil) x gx gy gz /\ div_of gx gy gz = 0 /\
  curl_of gx gy gz = vscal (CONST_MU0 / (4 * PI)) (vsub (coulomb (last coil p) x) (coulomb p x)).
Proof. exact coil_maxwell. Qed.
Print Assumptions coil_maxwell_equations.
Theorem coil_closed_curl_free : forall coil p x, off_lines x p coil -> last coil p = p -> exists gx gy gz, has_jacobian (field p coil) x gx gy gz /\ div_of gx gy gz = 0 /\ curl_of gx gy gz = vzero.
Proof. exact closed_coil. Qed.
Print Assumptions coil_closed_curl_free.
(** finding *)
Theorem coil_extension_refuted : forall p q u, p <> q -> u < 0 \/ 1 < u -> segment p q (at_t p q u) = None /\ forall e, integral_is (bs_integrand p q (at_t p q u) e) 0 1 0.
Proof. exact on_extension. Qed.
Print Assumptions coil_extension_refuted.
(** finding *)
Theorem coil_repeated_point : forall p x, segment p p x = None.
Proof. exact repeated_point. Qed.
Print Assumptions coil_repeated_point.
(** a unit distance from the middle of a segment of length two *)
Example segment_example : exists B, segment (V 0 0 (-1)) (V 0 0 1) (V 1 0 0) = Some B /\ vx B = 0 /\ vz B = 0 /\ vy B = CONST_MU0 / (4 * PI) * sqrt 2.
Proof.
  rewrite segment_closed. assert (E : nonzero (gram (vsub (V 0 0 1) (V 0 0 (-1))) (vsub (V 1 0 0) (V 0 0 (-1)))) = true).
  { apply nonzero_true. unfold gram, dot, vsub. cbn [vx vy vz]. lra. }
  rewrite E. eexists. split; [reflexivity|]. unfold bs_closed. set (k := CONST_MU0 / (4 * PI)). unfold vscal, cross, dot, vsub. cbn [vx vy vz].
  repeat match goal with |- context [sqrt ?x] => lazymatch x with 2 => fail | _ => replace x with 2 by ring end end.
  pose proof (sqrt_lt_R0 2 ltac:(lra)) as S. pose proof (sqrt_sqrt 2 ltac:(lra)) as Q. split; [ring|split; [ring|]].
  set (s := sqrt 2) in *. clearbody s k. apply (Rmult_eq_reg_r s); [|lra]. replace (k * s * s) with (k * 2) by (rewrite Rmult_assoc, Q; ring). field. lra.
Qed.
(** the triangle (0,0,0), (1,0,0), (0,1,0) is closed and (1,1,1) is off its lines *)
Example triangle_example : let c := [V 1 0 0; V 0 1 0; V 0 0 0] in last c (V 0 0 0) = V 0 0 0 /\ off_lines (V 1 1 1) (V 0 0 0) c.
Proof.
  split; [reflexivity|]. cbn [off_lines]. repeat split; rewrite <- gram_line; unfold gram, dot, vsub; cbn [vx vy vz]; lra.
Qed.
