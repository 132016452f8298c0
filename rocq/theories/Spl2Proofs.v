(** Proofs about bicubic splines. *)
From Coq Require Import Reals List Arith ZArith Bool Lra Lia.
From Verif Require Import Deriv AxisModel AxisProofs Glue LintProofs SplineModel SplineProofs TensorProofs Spl2Model.
Import ListNotations.
Local Open Scope R_scope.

(** ** Specification *)
Definition step (n : nat) (bc : Z) (mn mx : R) : R := (mx - mn) / INR (cells n bc).
Definition inner (bc : Z) (mn mx x : R) : Prop := bc = NATURALBC -> mn < x < mx.
Definition covered (bc : Z) (mn mx x : R) : Prop := bc = NATURALBC -> mn <= x <= mx.
(** F goes through the data, is a spline in each variable, Fx .. Fxy are its
    partial derivatives *)
Definition surface_interpolant (nx ny : nat) (bcx bcy : Z) (xmn xmx ymn ymx : R) (f : nat -> nat -> R)
    (F Fx Fy Fxx Fyy Fxy : R -> R -> R) : Prop :=
  (forall i j, (i < nx)%nat -> (j < ny)%nat -> F (xmn + INR i * step nx bcx xmn xmx) (ymn + INR j * step ny bcy ymn ymx) = f i j) /\
  (forall y, spline_interpolant nx bcx xmn xmx (fun i => F (xmn + INR i * step nx bcx xmn xmx) y)
               (fun x => F x y) (fun x => Fx x y) (fun x => Fxx x y)) /\
  (forall x, spline_interpolant ny bcy ymn ymx (fun j => F x (ymn + INR j * step ny bcy ymn ymx)) (F x) (Fy x) (Fyy x)) /\
  (forall x y, inner bcy ymn ymx y -> Dx (Fx x) y (Fxy x y)) /\
  (forall x y, inner bcx xmn xmx x -> Dx (fun x => Fy x y) x (Fxy x y)).

Lemma interpolant_self : forall n bc mn mx f F F1 F2, spline_interpolant n bc mn mx f F F1 F2 ->
  spline_interpolant n bc mn mx (fun k => F (mn + INR k * step n bc mn mx)) F F1 F2.
Proof. intros n bc mn mx f F F1 F2 (_ & H). split; auto. Qed.
Lemma curve_interpolant : forall n bc mn mx g G (F F1 F2 : R -> R), let a := mk_axis (Z.of_nat n) bc mn mx in
  axis_ok a -> curve a g G -> (forall x, F x = along a E0 g G x) -> (forall x, F1 x = along a E1 g G x) -> (forall x, F2 x = along a E2 g G x) ->
  spline_interpolant n bc mn mx (fun k => g (Z.of_nat k)) F F1 F2.
Proof.
  intros n bc mn mx g G F F1 F2 a O [S Z0] A B C.
  replace F with (along a E0 g G) by (apply FunctionalExtensionality.functional_extensionality; auto).
  replace F1 with (along a E1 g G) by (apply FunctionalExtensionality.functional_extensionality; auto).
  replace F2 with (along a E2 g G) by (apply FunctionalExtensionality.functional_extensionality; auto).
  now apply spl_interpolant.
Qed.

(** weights of the three cell forms *)
Lemma E0_w : forall h a b A B t, E0 h a b A B t = (1 - t) * a + t * b + h * h / 6 * ((1 - t) * ((1 - t) * (1 - t) - 1) * A + t * (t * t - 1) * B).
Proof. intros. unfold E0. field. Qed.
Lemma E1_w : forall h a b A B t, E1 h a b A B t = 1 / h * (b - a) + h / 6 * ((-3 * (1 - t) * (1 - t) + 1) * A + (3 * t * t - 1) * B).
Proof. intros. unfold E1, Rdiv. ring. Qed.

Lemma curv_second : forall junk f n bc i, enough n bc -> curv junk f n bc i = second f n bc i.
Proof. intros. unfold curv. now rewrite splinecomp_val. Qed.
Lemma second_ext : forall f g n bc i, (forall k, f k = g k) -> second f n bc i = second g n bc i.
Proof. intros. f_equal. now apply FunctionalExtensionality.functional_extensionality. Qed.
Lemma enough_axis : forall n bc mn mx, enough n bc -> mn < mx -> axis_ok (mk_axis (Z.of_nat n) bc mn mx).
Proof. intros n bc mn mx EN MM. apply mk_axis_ok; auto. destruct EN as [[-> ?]|[-> ?]]; [left|right]; split; auto; lia. Qed.
Lemma enough_valid : forall n bc, enough n bc -> valid_bc bc = true.
Proof. intros n bc [[-> _]|[-> _]]; auto. Qed.
Lemma enough_pos : forall n bc, enough n bc -> (2 <= n)%nat.
Proof. intros n bc [[_ H]|[_ H]]; lia. Qed.
Lemma grid_step_step : forall n bc mn mx, enough n bc -> grid_step (Z.of_nat n) bc mn mx = step n bc mn mx.
Proof.
  intros n bc mn mx [[-> ?]|[-> ?]]; unfold grid_step, step, cells; cbn [Z.eqb NATURALBC PERIODICBC].
  - rewrite Z.mul_1_l, minus_IZR, <- INR_IZR_INZ, minus_INR by lia. reflexivity.
  - rewrite Z.mul_0_r, Z.sub_0_r, <- INR_IZR_INZ. reflexivity.
Qed.

Section bicubic.
Variables (junk f : nat -> R) (nx ny : nat) (bcx bcy : Z) (xmn xmx ymn ymx : R) (s : interp2D).
Hypothesis ENX : enough nx bcx.
Hypothesis ENY : enough ny bcy.
Hypothesis MX : xmn < xmx.
Hypothesis MY : ymn < ymx.
Hypothesis SET : interp2Dcomp_setup junk f nx ny bcx bcy xmn xmx ymn ymx = Val s.
Let ax := mk_axis (Z.of_nat nx) bcx xmn xmx.
Let ay := mk_axis (Z.of_nat ny) bcy ymn ymx.
Let OX : axis_ok ax := enough_axis nx bcx xmn xmx ENX MX.
Let OY : axis_ok ay := enough_axis ny bcy ymn ymx ENY MY.
Definition k0 (i j : Z) : R := f (Z.to_nat j * nx + Z.to_nat i)%nat.
Definition k1 (i j : Z) : R := second (fun k => f (Z.to_nat j * nx + k)%nat) nx bcx (Z.to_nat i) / (agrid ax * agrid ax).
Definition k2 (i j : Z) : R := second (fun k => f (k * nx + Z.to_nat i)%nat) ny bcy (Z.to_nat j) / (agrid ay * agrid ay).
Definition k3 (i j : Z) : R :=
  second (fun k => second (fun k' => f (k * nx + k')%nat) nx bcx (Z.to_nat i) / (agrid ax * agrid ax)) ny bcy (Z.to_nat j) / (agrid ay * agrid ay).
Lemma sheet2 : sheet ax ay k0 k1 k2 k3.
Proof.
  split.
  - intros j. split.
    + apply (second_curve ax (fun k => f (Z.to_nat j * nx + k)%nat) nx); auto.
    + apply (transport ax (fun i k => f (k * nx + Z.to_nat i)%nat) (fun i k => second (fun k' => f (k * nx + k')%nat) nx bcx (Z.to_nat i) / (agrid ax * agrid ax))).
      intros k. apply (second_curve ax (fun k' => f (k * nx + k')%nat) nx); auto.
  - intros i. split.
    + apply (second_curve ay (fun k => f (k * nx + Z.to_nat i)%nat) ny); auto.
    + apply (second_curve ay (fun k => second (fun k' => f (k * nx + k')%nat) nx bcx (Z.to_nat i) / (agrid ax * agrid ax)) ny); auto.
Qed.
Lemma decode2 : forall i j m, (0 <= i < Z.of_nat nx)%Z -> (0 <= j)%Z -> (0 <= m < 4)%Z ->
  ((j * Z.of_nat nx * 4 + i * 4 + m) / (Z.of_nat nx * 4) = j /\ ((j * Z.of_nat nx * 4 + i * 4 + m) / 4) mod Z.of_nat nx = i /\
   (j * Z.of_nat nx * 4 + i * 4 + m) mod 4 = m)%Z.
Proof.
  intros i j m I J M. split; [|split]; symmetry.
  - apply (Z.div_unique_pos _ _ _ (i * 4 + m)); nia.
  - replace ((j * Z.of_nat nx * 4 + i * 4 + m) / 4)%Z with (j * Z.of_nat nx + i)%Z by (apply (Z.div_unique_pos _ _ _ m); lia).
    apply (Z.mod_unique_pos _ _ j); lia.
  - apply (Z.mod_unique_pos _ _ (j * Z.of_nat nx + i)); lia.
Qed.
Lemma state2 : i2x s = ax /\ i2y s = ay /\ asize (i2c s) = (Z.of_nat ny * Z.of_nat nx * 4)%Z /\
  (forall i j, (0 <= i < Z.of_nat nx)%Z -> (0 <= j < Z.of_nat ny)%Z -> let n := (j * Z.of_nat nx * 4 + i * 4)%Z in
     aget (i2c s) n = k0 i j /\ aget (i2c s) (n + 1)%Z = k1 i j /\ aget (i2c s) (n + 2)%Z = k2 i j /\ aget (i2c s) (n + 3)%Z = k3 i j).
Proof.
  revert SET. unfold interp2Dcomp_setup. rewrite (enough_valid nx bcx ENX), (enough_valid ny bcy ENY), !splinecomp_val by auto. cbn [andb complete].
  intros E. injection E as <-. cbn [i2x i2y i2c asize aget]. split; [|split; [|split]]; try reflexivity.
  intros i j I J.
  assert (D : forall m, (0 <= m < 4)%Z -> _) by (intros m M; exact (decode2 i j m I (proj1 J) M)).
  split; [|split; [|split]].
  - destruct (D 0%Z ltac:(lia)) as (A & B & C). rewrite Z.add_0_r in A, B, C. rewrite A, B, C. reflexivity.
  - destruct (D 1%Z ltac:(lia)) as (-> & -> & ->). cbn [Z.eqb Pos.eqb]. rewrite curv_second by auto. reflexivity.
  - destruct (D 2%Z ltac:(lia)) as (-> & -> & ->). cbn [Z.eqb Pos.eqb]. rewrite curv_second by auto. reflexivity.
  - destruct (D 3%Z ltac:(lia)) as (-> & -> & ->). cbn [Z.eqb Pos.eqb]. rewrite curv_second by auto. unfold k3. f_equal. apply second_ext. intros k.
    rewrite curv_second by auto. reflexivity.
Qed.
Definition t2 := T2 ax ay k0 k1 k2 k3.
Lemma eval2 : forall x y, covered bcx xmn xmx x -> covered bcy ymn ymx y ->
  interp2Dcomp_eval_f s x y = Val (t2 E0 E0 x y) /\
  interp2Dcomp_eval_df s x y = Val (t2 E0 E0 x y, t2 E1 E0 x y, t2 E0 E1 x y, t2 E2 E0 x y, t2 E0 E2 x y, t2 E1 E1 x y).
Proof.
  intros x y HX HY. destruct state2 as (X & Y & Z1 & C). pose proof (grid_pos ax OX) as GX. pose proof (grid_pos ay OY) as GY.
  destruct (eval_index ax x OX HX) as (Q & I & J). destruct (eval_index ay y OY HY) as (Q' & I' & J').
  unfold interp2Dcomp_eval_f, interp2Dcomp_eval_df. rewrite X, Y. cbv zeta. rewrite Q, Q'. cbn [orb].
  unfold t2, T2, along, ev. cbv zeta. set (i := index_spl ax (wrap ax x)) in *. set (t := frac ax (wrap ax x) i).
  set (j := index_spl ay (wrap ay y)) in *. set (u := frac ay (wrap ay y) j).
  change (an ax) with (Z.of_nat nx) in *. change (an ay) with (Z.of_nat ny) in *.
  rewrite (jump_stride ax i 4), (jump_stride ay j (Z.of_nat nx * 4)). set (p := jump ax i 1) in *. set (q := jump ay j 1) in *.
  destruct (C i j I I') as (A0 & A1 & A2 & A3). destruct (C (i + p) j J I')%Z as (B0 & B1 & B2 & B3).
  destruct (C i (j + q) I J')%Z as (D0 & D1 & D2 & D3). destruct (C (i + p) (j + q) J J')%Z as (F0 & F1 & F2 & F3). cbv zeta in *.
  set (n := (j * Z.of_nat nx * 4 + i * 4)%Z) in *.
  replace ((j + q) * Z.of_nat nx * 4 + (i + p) * 4)%Z with (n + Z.of_nat nx * 4 * q + 4 * p)%Z in * by (unfold n; ring).
  replace ((j + q) * Z.of_nat nx * 4 + i * 4)%Z with (n + Z.of_nat nx * 4 * q)%Z in * by (unfold n; ring).
  replace (j * Z.of_nat nx * 4 + (i + p) * 4)%Z with (n + 4 * p)%Z in * by (unfold n; ring).
  assert (R0 : forall a b m, (0 <= a < Z.of_nat nx -> 0 <= b < Z.of_nat ny -> 0 <= m < 4 -> 0 <= b * Z.of_nat nx * 4 + a * 4 + m < Z.of_nat ny * Z.of_nat nx * 4)%Z).
  { intros a b m A B M. split; [nia|]. assert (b * Z.of_nat nx <= (Z.of_nat ny - 1) * Z.of_nat nx)%Z by nia. lia. }
  rewrite !reading_ok.
  2, 3: rewrite Z1; intros k K; repeat (destruct K as [<-|K]); try destruct K;
    [ pose proof (R0 i j 0%Z I I' ltac:(lia)) | pose proof (R0 i (j + q)%Z 0%Z I J' ltac:(lia)) | pose proof (R0 (i + p)%Z j 0%Z J I' ltac:(lia)) | pose proof (R0 (i + p)%Z (j + q)%Z 0%Z J J' ltac:(lia))
    | pose proof (R0 i j 1%Z I I' ltac:(lia)) | pose proof (R0 i (j + q)%Z 1%Z I J' ltac:(lia)) | pose proof (R0 (i + p)%Z j 1%Z J I' ltac:(lia)) | pose proof (R0 (i + p)%Z (j + q)%Z 1%Z J J' ltac:(lia))
    | pose proof (R0 i j 2%Z I I' ltac:(lia)) | pose proof (R0 i (j + q)%Z 2%Z I J' ltac:(lia)) | pose proof (R0 (i + p)%Z j 2%Z J I' ltac:(lia)) | pose proof (R0 (i + p)%Z (j + q)%Z 2%Z J J' ltac:(lia))
    | pose proof (R0 i j 3%Z I I' ltac:(lia)) | pose proof (R0 i (j + q)%Z 3%Z I J' ltac:(lia)) | pose proof (R0 (i + p)%Z j 3%Z J I' ltac:(lia)) | pose proof (R0 (i + p)%Z (j + q)%Z 3%Z J J' ltac:(lia)) ]; unfold n; lia.
  rewrite A0, A1, A2, A3, B0, B1, B2, B3, D0, D1, D2, D3, F0, F1, F2, F3. unfold WE. rewrite !E0_w, !E1_w. unfold E2.
  split; apply (f_equal Val).
  - field.
  - repeat (apply pair_equal_spec; split); field; lra.
Qed.
Lemma err2 : forall x y, (bcx = NATURALBC /\ ~ (xmn <= x <= xmx)) \/ (bcy = NATURALBC /\ ~ (ymn <= y <= ymx)) ->
  interp2Dcomp_eval_f s x y = Err /\ interp2Dcomp_eval_df s x y = Err.
Proof.
  intros x y H. destruct state2 as (X & Y & _). unfold interp2Dcomp_eval_f, interp2Dcomp_eval_df. rewrite X, Y. cbv zeta.
  destruct H as [H|H].
  - pose proof (outside_true ax x (index_spl ax (wrap ax x)) OX) as [_ K]. rewrite K by exact H. auto.
  - pose proof (outside_true ay y (index_spl ay (wrap ay y)) OY) as [_ K]. rewrite K by exact H. rewrite orb_true_r. auto.
Qed.
Lemma spec2 : surface_interpolant nx ny bcx bcy xmn xmx ymn ymx (fun i j => f (j * nx + i)%nat)
  (t2 E0 E0) (t2 E1 E0) (t2 E0 E1) (t2 E2 E0) (t2 E0 E2) (t2 E1 E1).
Proof.
  pose proof sheet2 as SH. pose proof linear_E0 as L0. pose proof linear_E1 as L1. pose proof linear_E2 as L2.
  assert (SX : forall y, spline_interpolant nx bcx xmn xmx (fun k => along ay E0 (k0 (Z.of_nat k)) (k2 (Z.of_nat k)) y)
             (fun x => t2 E0 E0 x y) (fun x => t2 E1 E0 x y) (fun x => t2 E2 E0 x y)).
  { intros y. apply (curve_interpolant nx bcx xmn xmx (fun i => along ay E0 (k0 i) (k2 i) y) (fun i => along ay E0 (k1 i) (k3 i) y)); auto.
    apply (curve_x ax ay k0 k1 k2 k3); auto. }
  split; [|split; [|split; [|split]]].
  - intros i j I J. destruct (SX (ymn + INR j * step ny bcy ymn ymx)) as (D & _). cbv zeta in D. unfold step at 1. rewrite D by auto.
    destruct (proj2 SH (Z.of_nat i)) as [[S Z0] _].
    pose proof (spl_interpolant ny bcy ymn ymx (k0 (Z.of_nat i)) (k2 (Z.of_nat i)) OY S Z0) as (D' & _). cbv zeta in D'.
    unfold along. unfold step. rewrite D' by auto. unfold k0. now rewrite !Nat2Z.id.
  - intros y. eapply interpolant_self, SX.
  - intros x. eapply interpolant_self.
    apply (curve_interpolant ny bcy ymn ymx (fun j => along ax E0 (fun i => k0 i j) (fun i => k1 i j) x) (fun j => along ax E0 (fun i => k2 i j) (fun i => k3 i j) x)).
    + exact OY.
    + apply (curve_y ax ay k0 k1 k2 k3); auto.
    + intros y. apply (T2_swap ax ay k0 k1 k2 k3); auto.
    + intros y. apply (T2_swap ax ay k0 k1 k2 k3); auto.
    + intros y. apply (T2_swap ax ay k0 k1 k2 k3); auto.
  - intros x y H. destruct (along_deriv ay _ _ y OY (curve_y ax ay k0 k1 k2 k3 SH E1 x L1) H) as [D _].
    eapply d_ext; [|eapply d_eq; [exact D|]].
    + intros z. symmetry. apply (T2_swap ax ay k0 k1 k2 k3); auto.
    + symmetry. apply (T2_swap ax ay k0 k1 k2 k3); auto.
  - intros x y H. apply (along_deriv ax _ _ x OX (curve_x ax ay k0 k1 k2 k3 SH E1 y L1) H).
Qed.
End bicubic.
