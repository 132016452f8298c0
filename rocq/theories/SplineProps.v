(** C30, C31: cubic splines in one dimension, compact and explicit form. *)
From Coq Require Import Reals List Arith ZArith Bool Lra Lia.
From Verif Require Import Deriv AxisModel AxisProofs Glue LintProofs SplineModel SplineProofs SplineUniq.
Local Open Scope R_scope.

(** setup succeeds for enough data and refuses an unknown boundary condition *)
Theorem interp1Dcomp_setup_ok : forall junk f n bc mn mx, enough n bc -> exists s, interp1Dcomp_setup junk f n bc mn mx = Val s.
Proof.
  intros. unfold interp1Dcomp_setup. rewrite splinecomp_val by auto.
  replace (valid_bc bc) with true by (destruct H as [[-> _]|[-> _]]; auto). eauto.
Qed.
Print Assumptions interp1Dcomp_setup_ok.
Theorem interp1Dcomp_setup_refuses : forall junk f n bc mn mx, bc <> NATURALBC -> bc <> PERIODICBC ->
  interp1Dcomp_setup junk f n bc mn mx = Err.
Proof.
  intros junk f n bc mn mx A B. unfold interp1Dcomp_setup, valid_bc. apply Z.eqb_neq in A, B. now rewrite A, B.
Qed.
Print Assumptions interp1Dcomp_setup_refuses.
(** the evaluation returns an interpolating cubic spline and its first two
    derivatives, and an error outside a natural axis *)
Theorem interp1Dcomp_is_spline : forall junk f n bc mn mx s, enough n bc -> mn < mx ->
  interp1Dcomp_setup junk f n bc mn mx = Val s ->
  exists F F1 F2, spline_interpolant n bc mn mx f F F1 F2 /\
    (forall x, (bc = NATURALBC -> mn <= x <= mx) ->
       interp1Dcomp_eval_f s x = Val (F x) /\ interp1Dcomp_eval_df s x = Val (F x, F1 x, F2 x)) /\
    (forall x, bc = NATURALBC -> ~ (mn <= x <= mx) -> interp1Dcomp_eval_f s x = Err /\ interp1Dcomp_eval_df s x = Err).
Proof.
  intros junk f n bc mn mx s E M H. exists (cF f n bc mn mx), (cF1 f n bc mn mx), (cF2 f n bc mn mx).
  split; [|split]; [eapply comp_spec | eapply comp_eval | eapply comp_err]; eauto.
Qed.
Print Assumptions interp1Dcomp_is_spline.
Theorem interp1Dexpl_is_spline : forall junkd junk f n bc mn mx s, enough n bc -> mn < mx ->
  interp1Dexpl_setup junkd junk f n bc mn mx = Val s ->
  exists F F1 F2, spline_interpolant n bc mn mx f F F1 F2 /\
    (forall x, (bc = NATURALBC -> mn <= x <= mx) ->
       interp1Dexpl_eval_f s x = Val (F x) /\ interp1Dexpl_eval_df s x = Val (F x, F1 x, F2 x)) /\
    (forall x, bc = NATURALBC -> ~ (mn <= x <= mx) -> interp1Dexpl_eval_f s x = Err /\ interp1Dexpl_eval_df s x = Err).
Proof.
  intros junkd junk f n bc mn mx s E M H. exists (xF f n bc mn mx), (xF1 f n bc mn mx), (xF2 f n bc mn mx).
  split; [|split]; [eapply expl_spec | eapply expl_eval | eapply expl_err]; eauto.
Qed.
Print Assumptions interp1Dexpl_is_spline.
(** the specification leaves no freedom *)
Theorem spline_interpolant_unique : forall n bc mn mx f F F1 F2 G G1 G2, enough n bc -> mn < mx ->
  spline_interpolant n bc mn mx f F F1 F2 -> spline_interpolant n bc mn mx f G G1 G2 ->
  forall x, mn <= x <= mx -> F x = G x.
Proof. exact spline_unique. Qed.
Print Assumptions spline_interpolant_unique.
(** so both representations return the same number *)
Theorem compact_explicit_agree : forall junk1 junk2 junk3 f n bc mn mx s s' x, enough n bc -> mn < mx ->
  interp1Dcomp_setup junk1 f n bc mn mx = Val s -> interp1Dexpl_setup junk2 junk3 f n bc mn mx = Val s' ->
  mn <= x <= mx -> exists v, interp1Dcomp_eval_f s x = Val v /\ interp1Dexpl_eval_f s' x = Val v.
Proof.
  intros j1 j2 j3 f n bc mn mx s s' x E M S1 S2 X.
  destruct (interp1Dcomp_is_spline j1 f n bc mn mx s E M S1) as (F & F1 & F2 & A & B & _).
  destruct (interp1Dexpl_is_spline j2 j3 f n bc mn mx s' E M S2) as (G & G1 & G2 & A' & B' & _).
  exists (F x). split; [apply B; auto|]. destruct (B' x) as [-> _]; auto. f_equal. symmetry. eapply spline_unique; eauto.
Qed.
Print Assumptions compact_explicit_agree.

(** a hat through 0, 1, 0 at 0, 1, 2 with free ends: the curvature at the middle
    is -3 and the value half way up 11/16 *)
Definition hat (k : nat) : R := if (k =? 1)%nat then 1 else 0.
Example hat_mid : forall junk s, interp1Dcomp_setup junk hat 3 NATURALBC 0 2 = Val s ->
  interp1Dcomp_eval_f s 1 = Val 1 /\ interp1Dcomp_eval_df s (1 / 2) = Val (11 / 16, 9 / 8, - 3 / 2) /\
  interp1Dcomp_eval_f s 3 = Err.
Proof.
  intros junk s H. assert (EN : enough 3 NATURALBC) by (left; auto). assert (L : 0 < 2) by lra.
  assert (O : axis_ok (mk_axis (Z.of_nat 3) NATURALBC 0 2)) by (apply mk_axis_ok; [lra|left; split; [auto|lia]]).
  assert (G : agrid (mk_axis (Z.of_nat 3) NATURALBC 0 2) = 1) by (cbn; unfold grid_step; cbn; lra).
  destruct (second_spl _ hat 3 O eq_refl EN) as [SP _].
  assert (C : forall x i i' t, on_cell (mk_axis (Z.of_nat 3) NATURALBC 0 2) x i i' t ->
    cF hat 3 NATURALBC 0 2 x = WE E0 (mk_axis (Z.of_nat 3) NATURALBC 0 2) (zdata hat) (cg hat 3 NATURALBC 0 2) i i' t /\
    cF1 hat 3 NATURALBC 0 2 x = WE E1 (mk_axis (Z.of_nat 3) NATURALBC 0 2) (zdata hat) (cg hat 3 NATURALBC 0 2) i i' t /\
    cF2 hat 3 NATURALBC 0 2 x = WE E2 (mk_axis (Z.of_nat 3) NATURALBC 0 2) (zdata hat) (cg hat 3 NATURALBC 0 2) i i' t).
  { intros x i i' t OC. repeat split; apply ev_cells; auto using fits_E0, fits_E2, fits_E1. }
  assert (M : cg hat 3 NATURALBC 0 2 0 = 0 /\ cg hat 3 NATURALBC 0 2 1 = - 3).
  { unfold cg. rewrite G. cbn. change (Z.to_nat 0) with 0%nat. change (Z.to_nat 1) with 1%nat. unfold second, comp_rhs, hat. cbn. change (Pos.to_nat 1) with 1%nat. cbn. split; field. }
  assert (Z0 : zdata hat 0 = 0) by reflexivity. assert (Z1 : zdata hat 1 = 1) by reflexivity.
  destruct M as [M0 M1]. split; [|split].
  - destruct (comp_eval junk hat 3 NATURALBC 0 2 s EN L H 1) as [-> _]; [intros; lra|]. f_equal.
    destruct (C 1 0%Z 1%Z 1) as [-> _]; [split; [lra|]; left; repeat split; cbn; try lia; unfold grid_step; cbn; lra|].
    unfold WE, E0. rewrite G, M0, M1, Z0, Z1. lra.
  - destruct (comp_eval junk hat 3 NATURALBC 0 2 s EN L H (1 / 2)) as [_ ->]; [intros; lra|].
    destruct (C (1 / 2) 0%Z 1%Z (1 / 2)) as (-> & -> & ->); [split; [lra|]; left; repeat split; cbn; try lia; unfold grid_step; cbn; lra|].
    unfold WE, E0, E1, E2. rewrite G, M0, M1, Z0, Z1. apply (f_equal Val), pair_equal_spec; split; [apply pair_equal_spec; split|]; lra.
  - apply (comp_err junk hat 3 NATURALBC 0 2 s EN L H); auto. lra.
Qed.
(** the periodic closing cell: data 0, 1, 0 with period 3; the value at 3 is the
    one at 0 *)
Example hat_per : forall junk s, interp1Dcomp_setup junk hat 3 PERIODICBC 0 3 = Val s ->
  interp1Dcomp_eval_f s 3 = Val 0 /\ interp1Dcomp_eval_f s 4 = Val 1 /\ interp1Dcomp_eval_f s (- 1) = Val 0.
Proof.
  intros junk s H. assert (EN : enough 3 PERIODICBC) by (right; auto). assert (L : 0 < 3) by lra.
  destruct (interp1Dcomp_is_spline junk hat 3 PERIODICBC 0 3 s EN L H) as (F & F1 & F2 & (D & _ & _ & _ & P) & V & _).
  assert (X : forall x, interp1Dcomp_eval_f s x = Val (F x)) by (intros; apply V; discriminate). rewrite !X.
  assert (Q : forall x, F (x + 3) = F x). { intros x. destruct (P eq_refl x) as [Q _]. rewrite <- Q. f_equal. lra. }
  pose proof (D 0%nat ltac:(lia)) as D0. pose proof (D 1%nat ltac:(lia)) as D1. pose proof (D 2%nat ltac:(lia)) as D2. unfold cells in *. cbn in D0, D1, D2.
  repeat split; f_equal.
  - replace 3 with (0 + 3) by lra. rewrite Q, <- D0. f_equal. lra.
  - replace 4 with (1 + 3) by lra. rewrite Q, <- D1. f_equal. lra.
  - rewrite <- Q, <- D2. f_equal. lra.
Qed.
