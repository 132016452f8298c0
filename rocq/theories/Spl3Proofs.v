(** Proofs about tricubic splines. *)
From Coq Require Import Reals List Arith ZArith Bool Lra Lia.
From Verif Require Import Deriv AxisModel AxisProofs Glue LintProofs SplineModel SplineProofs TensorProofs Spl2Model Spl2Proofs Spl3Model.
Import ListNotations.
Local Open Scope R_scope.

(** F goes through the data, is a spline in each variable, and the others are its
    partial derivatives *)
Definition volume_interpolant (nx ny nz : nat) (bcx bcy bcz : Z) (xmn xmx ymn ymx zmn zmx : R) (f : nat -> nat -> nat -> R)
    (F Fx Fy Fz Fxx Fyy Fzz Fxy Fxz Fyz : R -> R -> R -> R) : Prop :=
  let hx := step nx bcx xmn xmx in let hy := step ny bcy ymn ymx in let hz := step nz bcz zmn zmx in
  (forall i j k, (i < nx)%nat -> (j < ny)%nat -> (k < nz)%nat -> F (xmn + INR i * hx) (ymn + INR j * hy) (zmn + INR k * hz) = f i j k) /\
  (forall y z, spline_interpolant nx bcx xmn xmx (fun i => F (xmn + INR i * hx) y z) (fun x => F x y z) (fun x => Fx x y z) (fun x => Fxx x y z)) /\
  (forall x z, spline_interpolant ny bcy ymn ymx (fun j => F x (ymn + INR j * hy) z) (fun y => F x y z) (fun y => Fy x y z) (fun y => Fyy x y z)) /\
  (forall x y, spline_interpolant nz bcz zmn zmx (fun k => F x y (zmn + INR k * hz)) (fun z => F x y z) (fun z => Fz x y z) (fun z => Fzz x y z)) /\
  (forall x y z, inner bcx xmn xmx x -> Dx (fun x => Fy x y z) x (Fxy x y z) /\ Dx (fun x => Fz x y z) x (Fxz x y z)) /\
  (forall x y z, inner bcy ymn ymx y -> Dx (fun y => Fx x y z) y (Fxy x y z) /\ Dx (fun y => Fz x y z) y (Fyz x y z)) /\
  (forall x y z, inner bcz zmn zmx z -> Dx (fun z => Fx x y z) z (Fxz x y z) /\ Dx (fun z => Fy x y z) z (Fyz x y z)).

Lemma E0_w3 : forall h a b A B t, E0 h a b A B t =
  (1 - t) * a + t * b + h * h / 6 * (((1 - t) * (1 - t) * (1 - t) - (1 - t)) * A + (t * t * t - t) * B).
Proof. intros. unfold E0. field. Qed.

Section tricubic.
Variables (junk f : nat -> R) (nx ny nz : nat) (bcx bcy bcz : Z) (xmn xmx ymn ymx zmn zmx : R) (s : interp3D).
Hypothesis ENX : enough nx bcx.
Hypothesis ENY : enough ny bcy.
Hypothesis ENZ : enough nz bcz.
Hypothesis MX : xmn < xmx.
Hypothesis MY : ymn < ymx.
Hypothesis MZ : zmn < zmx.
Hypothesis SET : interp3Dcomp_setup junk f nx ny nz bcx bcy bcz xmn xmx ymn ymx zmn zmx = Val s.
Let ax := mk_axis (Z.of_nat nx) bcx xmn xmx.
Let ay := mk_axis (Z.of_nat ny) bcy ymn ymx.
Let az := mk_axis (Z.of_nat nz) bcz zmn zmx.
Let OX : axis_ok ax := enough_axis nx bcx xmn xmx ENX MX.
Let OY : axis_ok ay := enough_axis ny bcy ymn ymx ENY MY.
Let OZ : axis_ok az := enough_axis nz bcz zmn zmx ENZ MZ.
Let sx := agrid ax * agrid ax.
Let sy := agrid ay * agrid ay.
Let sz := agrid az * agrid az.
Definition n0 (i j k : nat) : R := f (k * ny * nx + j * nx + i)%nat.
Definition n1 (i j k : nat) : R := second (fun m => n0 m j k) nx bcx i / sx.
Definition n2 (i j k : nat) : R := second (fun m => n0 i m k) ny bcy j / sy.
Definition n3 (i j k : nat) : R := second (fun m => n0 i j m) nz bcz k / sz.
Definition n4 (i j k : nat) : R := second (fun m => n1 i m k) ny bcy j / sy.
Definition n5 (i j k : nat) : R := second (fun m => n1 i j m) nz bcz k / sz.
Definition n6 (i j k : nat) : R := second (fun m => n2 i j m) nz bcz k / sz.
Definition n7 (i j k : nat) : R := second (fun m => n4 i j m) nz bcz k / sz.
Definition pick (m : Z) : nat -> nat -> nat -> R :=
  if (m =? 0)%Z then n0 else if (m =? 1)%Z then n1 else if (m =? 2)%Z then n2 else if (m =? 3)%Z then n3
  else if (m =? 4)%Z then n4 else if (m =? 5)%Z then n5 else if (m =? 6)%Z then n6 else n7.
Definition vv (m i j k : Z) : R := pick m (Z.to_nat i) (Z.to_nat j) (Z.to_nat k).
Lemma block3 : block ax ay az (vv 0) (vv 1) (vv 2) (vv 3) (vv 4) (vv 5) (vv 6) (vv 7).
Proof.
  assert (X01 : forall j k, curve ax (fun i => n0 (Z.to_nat i) j k) (fun i => n1 (Z.to_nat i) j k)).
  { intros. apply (second_curve ax (fun m => n0 m j k) nx); auto. }
  assert (Y02 : forall i k, curve ay (fun j => n0 i (Z.to_nat j) k) (fun j => n2 i (Z.to_nat j) k)).
  { intros. apply (second_curve ay (fun m => n0 i m k) ny); auto. }
  assert (Y14 : forall i k, curve ay (fun j => n1 i (Z.to_nat j) k) (fun j => n4 i (Z.to_nat j) k)).
  { intros. apply (second_curve ay (fun m => n1 i m k) ny); auto. }
  assert (X24 : forall j k, curve ax (fun i => n2 (Z.to_nat i) j k) (fun i => n4 (Z.to_nat i) j k)).
  { intros. apply (transport ax (fun i m => n0 (Z.to_nat i) m k) (fun i m => n1 (Z.to_nat i) m k)). intros. apply X01. }
  split; [|split].
  - intros j k. split; [apply X01|split; [apply X24|split]].
    + apply (transport ax (fun i m => n0 (Z.to_nat i) (Z.to_nat j) m) (fun i m => n1 (Z.to_nat i) (Z.to_nat j) m)). intros. apply X01.
    + apply (transport ax (fun i m => n2 (Z.to_nat i) (Z.to_nat j) m) (fun i m => n4 (Z.to_nat i) (Z.to_nat j) m)). intros. apply X24.
  - intros i k. split; [apply Y02|split; [apply Y14|split]].
    + apply (transport ay (fun j m => n0 (Z.to_nat i) (Z.to_nat j) m) (fun j m => n2 (Z.to_nat i) (Z.to_nat j) m)). intros. apply Y02.
    + apply (transport ay (fun j m => n1 (Z.to_nat i) (Z.to_nat j) m) (fun j m => n4 (Z.to_nat i) (Z.to_nat j) m)). intros. apply Y14.
  - intros i j. split; [|split; [|split]].
    + apply (second_curve az (fun m => n0 (Z.to_nat i) (Z.to_nat j) m) nz); auto.
    + apply (second_curve az (fun m => n1 (Z.to_nat i) (Z.to_nat j) m) nz); auto.
    + apply (second_curve az (fun m => n2 (Z.to_nat i) (Z.to_nat j) m) nz); auto.
    + apply (second_curve az (fun m => n4 (Z.to_nat i) (Z.to_nat j) m) nz); auto.
Qed.
Let NX := Z.of_nat nx.
Let NY := Z.of_nat ny.
Let NZ := Z.of_nat nz.
Lemma state3 : i3x s = ax /\ i3y s = ay /\ i3z s = az /\ asize (i3c s) = (NZ * NY * NX * 8)%Z /\
  (forall i j k m, (0 <= i < NX)%Z -> (0 <= j < NY)%Z -> (0 <= k < NZ)%Z -> (0 <= m < 8)%Z ->
     aget (i3c s) (k * NY * NX * 8 + j * NX * 8 + i * 8 + m)%Z = vv m i j k).
Proof.
  revert SET. unfold interp3Dcomp_setup. rewrite (enough_valid nx bcx ENX), (enough_valid ny bcy ENY), (enough_valid nz bcz ENZ), !splinecomp_val by auto. cbn [andb complete].
  intros E. injection E as <-. cbn [i3x i3y i3z i3c asize aget]. split; [|split; [|split; [|split]]]; try reflexivity.
  fold NX NY NZ. intros i j k m I J K M.
  assert (D1 : ((k * NY * NX * 8 + j * NX * 8 + i * 8 + m) / (NY * NX * 8) = k)%Z).
  { symmetry. apply (Z.div_unique_pos _ _ _ (j * NX * 8 + i * 8 + m)); [|ring].
    split; [nia|]. assert (j * NX <= (NY - 1) * NX)%Z by nia. nia. }
  assert (D2 : (((k * NY * NX * 8 + j * NX * 8 + i * 8 + m) / (NX * 8)) mod NY = j)%Z).
  { replace ((k * NY * NX * 8 + j * NX * 8 + i * 8 + m) / (NX * 8))%Z with (k * NY + j)%Z by (apply (Z.div_unique_pos _ _ _ (i * 8 + m)); [lia|ring]).
    symmetry. apply (Z.mod_unique_pos _ _ k); [lia|ring]. }
  assert (D3 : (((k * NY * NX * 8 + j * NX * 8 + i * 8 + m) / 8) mod NX = i)%Z).
  { replace ((k * NY * NX * 8 + j * NX * 8 + i * 8 + m) / 8)%Z with (k * NY * NX + j * NX + i)%Z by (apply (Z.div_unique_pos _ _ _ m); [lia|ring]).
    symmetry. apply (Z.mod_unique_pos _ _ (k * NY + j)); [lia|ring]. }
  assert (D4 : ((k * NY * NX * 8 + j * NX * 8 + i * 8 + m) mod 8 = m)%Z).
  { symmetry. apply (Z.mod_unique_pos _ _ (k * NY * NX + j * NX + i)); [lia|ring]. }
  rewrite D1, D2, D3, D4. clear D1 D2 D3 D4.
  assert (Q1 : forall a b c, curv junk (fun q => f (c * ny * nx + b * nx + q)%nat) nx bcx a / (grid_step (Z.of_nat nx) bcx xmn xmx * grid_step (Z.of_nat nx) bcx xmn xmx) = n1 a b c).
  { intros. rewrite curv_second by auto. reflexivity. }
  assert (Q2 : forall a b c, curv junk (fun q => f (c * ny * nx + q * nx + a)%nat) ny bcy b / (grid_step (Z.of_nat ny) bcy ymn ymx * grid_step (Z.of_nat ny) bcy ymn ymx) = n2 a b c).
  { intros. rewrite curv_second by auto. reflexivity. }
  assert (Q4 : forall a b c, curv junk (fun q => curv junk (fun q' => f (c * ny * nx + q * nx + q')%nat) nx bcx a / (grid_step (Z.of_nat nx) bcx xmn xmx * grid_step (Z.of_nat nx) bcx xmn xmx)) ny bcy b
     / (grid_step (Z.of_nat ny) bcy ymn ymx * grid_step (Z.of_nat ny) bcy ymn ymx) = n4 a b c).
  { intros. rewrite curv_second by auto. unfold n4. f_equal. apply second_ext. intros q. apply Q1. }
  unfold vv, pick. fold NX NY NZ.
  destruct (Z.eqb_spec m 0); [reflexivity|]. destruct (Z.eqb_spec m 1); [apply Q1|]. destruct (Z.eqb_spec m 2); [apply Q2|].
  destruct (Z.eqb_spec m 3); [rewrite curv_second by auto; reflexivity|]. destruct (Z.eqb_spec m 4); [apply Q4|].
  destruct (Z.eqb_spec m 5). { rewrite curv_second by auto. unfold n5. f_equal. apply second_ext. intros q. apply Q1. }
  destruct (Z.eqb_spec m 6). { rewrite curv_second by auto. unfold n6. f_equal. apply second_ext. intros q. apply Q2. }
  rewrite curv_second by auto. unfold n7. f_equal. apply second_ext. intros q. apply Q4.
Qed.
Definition t3 := T3 ax ay az (vv 0) (vv 1) (vv 2) (vv 3) (vv 4) (vv 5) (vv 6) (vv 7).
Lemma eval3 : forall x y z, covered bcx xmn xmx x -> covered bcy ymn ymx y -> covered bcz zmn zmx z ->
  interp3Dcomp_eval_f s x y z = Val (t3 E0 E0 E0 x y z) /\
  interp3Dcomp_eval_df s x y z = Val (t3 E0 E0 E0 x y z, t3 E1 E0 E0 x y z, t3 E0 E1 E0 x y z, t3 E0 E0 E1 x y z,
    t3 E2 E0 E0 x y z, t3 E0 E2 E0 x y z, t3 E0 E0 E2 x y z, t3 E1 E1 E0 x y z, t3 E1 E0 E1 x y z, t3 E0 E1 E1 x y z).
Proof.
  intros x y z HX HY HZ. destruct state3 as (X & Y & Zz & Z1 & C).
  destruct (eval_index ax x OX HX) as (Q & I & I'). destruct (eval_index ay y OY HY) as (Q' & J & J'). destruct (eval_index az z OZ HZ) as (Q'' & K & K').
  unfold interp3Dcomp_eval_f, interp3Dcomp_eval_df. rewrite X, Y, Zz. cbv zeta. rewrite Q, Q', Q''. cbn [orb].
  unfold t3, T3, T2, along, ev. cbv zeta. set (i := index_spl ax (wrap ax x)) in *. set (t := frac ax (wrap ax x) i).
  set (j := index_spl ay (wrap ay y)) in *. set (u := frac ay (wrap ay y) j). set (k := index_spl az (wrap az z)) in *. set (v := frac az (wrap az z) k).
  change (an ax) with NX in *. change (an ay) with NY in *. change (an az) with NZ in *.
  rewrite (jump_stride ax i 8), (jump_stride ay j (NX * 8)), (jump_stride az k (NY * NX * 8)).
  set (i' := (i + jump ax i 1)%Z) in *. set (j' := (j + jump ay j 1)%Z) in *. set (k' := (k + jump az k 1)%Z) in *.
  assert (PX : jump ax i 1 = (i' - i)%Z) by (unfold i'; ring). assert (PY : jump ay j 1 = (j' - j)%Z) by (unfold j'; ring). assert (PZ : jump az k 1 = (k' - k)%Z) by (unfold k'; ring).
  rewrite PX, PY, PZ. set (x1 := (8 * (i' - i))%Z). set (y1 := (NX * 8 * (j' - j))%Z). set (z1 := (NY * NX * 8 * (k' - k))%Z).
  clearbody i' j' k'. clear PX PY PZ. clearbody i j k. set (n := (k * NY * NX * 8 + j * NX * 8 + i * 8)%Z).
  assert (R0 : forall a b c m, (0 <= a < NX -> 0 <= b < NY -> 0 <= c < NZ -> 0 <= m < 8 -> 0 <= c * NY * NX * 8 + b * NX * 8 + a * 8 + m < NZ * NY * NX * 8)%Z).
  { intros a b c m A B D M. assert (0 <= c * NY * NX)%Z by nia. assert (0 <= b * NX)%Z by nia. split; [lia|].
    assert (b * NX <= (NY - 1) * NX)%Z by nia. assert (c * (NY * NX) <= (NZ - 1) * (NY * NX))%Z by nia. nia. }
  assert (G : forall a b c, (0 <= a < NX)%Z -> (0 <= b < NY)%Z -> (0 <= c < NZ)%Z -> forall e, e = (c * NY * NX * 8 + b * NX * 8 + a * 8)%Z ->
     forall m, (0 <= m < 8)%Z -> (0 <= e + m < asize (i3c s))%Z /\ aget (i3c s) (e + m)%Z = vv m a b c).
  { intros a b c A B D e -> m M. rewrite Z1. split; [apply R0; auto | apply C; auto]. }
  pose proof (G i j k I J K n ltac:(reflexivity)) as G000.
  pose proof (G i' j k I' J K (n + x1)%Z ltac:(unfold n, x1; ring)) as G001.
  pose proof (G i j' k I J' K (n + y1)%Z ltac:(unfold n, y1; ring)) as G010.
  pose proof (G i' j' k I' J' K (n + y1 + x1)%Z ltac:(unfold n, y1, x1; ring)) as G011.
  pose proof (G i j k' I J K' (n + z1)%Z ltac:(unfold n, z1; ring)) as G100.
  pose proof (G i' j k' I' J K' (n + x1 + z1)%Z ltac:(unfold n, z1, x1; ring)) as G101.
  pose proof (G i j' k' I J' K' (n + y1 + z1)%Z ltac:(unfold n, z1, y1; ring)) as G110.
  pose proof (G i' j' k' I' J' K' (n + y1 + z1 + x1)%Z ltac:(unfold n, z1, y1, x1; ring)) as G111.
  pose proof (G i' j k' I' J K' (n + z1 + x1)%Z ltac:(unfold n, z1, x1; ring)) as H101.
  pose proof (G i j' k' I J' K' (n + z1 + y1)%Z ltac:(unfold n, z1, y1; ring)) as H110.
  pose proof (G i' j' k' I' J' K' (n + z1 + y1 + x1)%Z ltac:(unfold n, z1, y1, x1; ring)) as H111.
  clear G C R0. clearbody n x1 y1 z1.
  rewrite !reading_ok by
    (intros e L; repeat (destruct L as [<-|L];
       [first [apply G000; lia | apply G001; lia | apply G010; lia | apply G011; lia | apply G100; lia | apply G101; lia | apply G110; lia | apply G111; lia
             | apply H101; lia | apply H110; lia | apply H111; lia]|]); destruct L).
  repeat match goal with
  | H : forall m, _ -> _ /\ aget _ (?e + m)%Z = _ |- _ => rewrite !(fun m M => proj2 (H m M)) by lia; clear H
  end.
  unfold WE. rewrite !E0_w3, !E1_w. unfold E2.
  clearbody t u v. change (agrid (mk_axis (Z.of_nat nx) bcx xmn xmx)) with (agrid ax). change (agrid (mk_axis (Z.of_nat ny) bcy ymn ymx)) with (agrid ay). change (agrid (mk_axis (Z.of_nat nz) bcz zmn zmx)) with (agrid az).
  generalize ((1 - t) * (1 - t) * (1 - t) - (1 - t)) (t * t * t - t) (-3 * (1 - t) * (1 - t) + 1) (3 * t * t - 1) (1 / agrid ax).
  generalize ((1 - u) * (1 - u) * (1 - u) - (1 - u)) (u * u * u - u) (-3 * (1 - u) * (1 - u) + 1) (3 * u * u - 1) (1 / agrid ay).
  generalize ((1 - v) * (1 - v) * (1 - v) - (1 - v)) (v * v * v - v) (-3 * (1 - v) * (1 - v) + 1) (3 * v * v - 1) (1 / agrid az).
  generalize (1 - t) (1 - u) (1 - v) (agrid ax) (agrid ay) (agrid az). intros.
  split; apply (f_equal Val); [field|].
  repeat (apply pair_equal_spec; split); field.
Qed.
Lemma err3 : forall x y z, (bcx = NATURALBC /\ ~ (xmn <= x <= xmx)) \/ (bcy = NATURALBC /\ ~ (ymn <= y <= ymx)) \/ (bcz = NATURALBC /\ ~ (zmn <= z <= zmx)) ->
  interp3Dcomp_eval_f s x y z = Err /\ interp3Dcomp_eval_df s x y z = Err.
Proof.
  intros x y z H. destruct state3 as (X & Y & Zz & _). unfold interp3Dcomp_eval_f, interp3Dcomp_eval_df. rewrite X, Y, Zz. cbv zeta.
  destruct H as [H|[H|H]].
  - pose proof (outside_true ax x (index_spl ax (wrap ax x)) OX) as [_ K]. rewrite K by exact H. auto.
  - pose proof (outside_true ay y (index_spl ay (wrap ay y)) OY) as [_ K]. rewrite K by exact H. rewrite orb_true_r. auto.
  - pose proof (outside_true az z (index_spl az (wrap az z)) OZ) as [_ K]. rewrite K by exact H. rewrite orb_true_r. auto.
Qed.
Lemma spec3 : volume_interpolant nx ny nz bcx bcy bcz xmn xmx ymn ymx zmn zmx (fun i j k => f (k * ny * nx + j * nx + i)%nat)
  (t3 E0 E0 E0) (t3 E1 E0 E0) (t3 E0 E1 E0) (t3 E0 E0 E1) (t3 E2 E0 E0) (t3 E0 E2 E0) (t3 E0 E0 E2) (t3 E1 E1 E0) (t3 E1 E0 E1) (t3 E0 E1 E1).
Proof.
  pose proof block3 as BL. pose proof linear_E0 as L0. pose proof linear_E1 as L1. pose proof linear_E2 as L2.
  pose proof (T3_y ax ay az (vv 0) (vv 1) (vv 2) (vv 3) (vv 4) (vv 5) (vv 6) (vv 7)) as TY.
  pose proof (T3_z ax ay az (vv 0) (vv 1) (vv 2) (vv 3) (vv 4) (vv 5) (vv 6) (vv 7)) as TZ.
  pose proof (curve_x3 _ _ _ _ _ _ _ _ _ _ _ BL) as CX. pose proof (curve_y3 _ _ _ _ _ _ _ _ _ _ _ BL) as CY. pose proof (curve_z3 _ _ _ _ _ _ _ _ _ _ _ BL) as CZ.
  assert (SX : forall y z, spline_interpolant nx bcx xmn xmx
    (fun m => T2 ay az (vv 0 (Z.of_nat m)) (vv 2 (Z.of_nat m)) (vv 3 (Z.of_nat m)) (vv 6 (Z.of_nat m)) E0 E0 y z) (fun x => t3 E0 E0 E0 x y z) (fun x => t3 E1 E0 E0 x y z) (fun x => t3 E2 E0 E0 x y z)).
  { intros y z. 
    apply (curve_interpolant nx bcx xmn xmx (fun i => T2 ay az (vv 0 i) (vv 2 i) (vv 3 i) (vv 6 i) E0 E0 y z) (fun i => T2 ay az (vv 1 i) (vv 4 i) (vv 5 i) (vv 7 i) E0 E0 y z));
      [exact OX | exact (CX E0 E0 y z L0 L0) | reflexivity | reflexivity | reflexivity]. }
  split; [|split; [|split; [|split; [|split; [|split]]]]].
  - intros i j k I J K. destruct (SX (ymn + INR j * step ny bcy ymn ymx) (zmn + INR k * step nz bcz zmn zmx)) as (D & _). cbv zeta in D. unfold step at 1. rewrite D by auto.
    assert (SH : sheet ay az (vv 0 (Z.of_nat i)) (vv 2 (Z.of_nat i)) (vv 3 (Z.of_nat i)) (vv 6 (Z.of_nat i))).
    { destruct BL as (_ & BY & BZ). split; intros m.
      - destruct (BY (Z.of_nat i) m) as (B1 & _ & B3 & _). exact (conj B1 B3).
      - destruct (BZ (Z.of_nat i) m) as (B1 & _ & B3 & _). exact (conj B1 B3). }
    pose proof (curve_x _ _ _ _ _ _ SH E0 (zmn + INR k * step nz bcz zmn zmx) L0) as [S Z0].
    pose proof (spl_interpolant ny bcy ymn ymx _ _ OY S Z0) as (D' & _). cbv zeta in D'. unfold T2, along at 1. unfold step at 1. unfold ay in D'. rewrite D' by auto.
    destruct SH as [_ SZ]. destruct (SZ (Z.of_nat j)) as [[S' Z0'] _].
    pose proof (spl_interpolant nz bcz zmn zmx _ _ OZ S' Z0') as (D'' & _). cbv zeta in D''. unfold along. unfold step. rewrite D'' by auto.
    unfold vv, pick, n0. cbn [Z.eqb]. now rewrite !Nat2Z.id.
  - intros y z. eapply interpolant_self, SX.
  - intros x z. eapply interpolant_self.
    apply (curve_interpolant ny bcy ymn ymx (gy ax az (vv 0) (vv 1) (vv 3) (vv 5) E0 E0 x z) (Gy ax az (vv 2) (vv 4) (vv 6) (vv 7) E0 E0 x z));
      [exact OY | exact (CY E0 E0 x z L0 L0) | | |]; intros y; apply TY; auto.
  - intros x y. eapply interpolant_self.
    apply (curve_interpolant nz bcz zmn zmx (gz ax ay (vv 0) (vv 1) (vv 2) (vv 4) E0 E0 x y) (Gz ax ay (vv 3) (vv 5) (vv 6) (vv 7) E0 E0 x y));
      [exact OZ | exact (CZ E0 E0 x y L0 L0) | | |]; intros z; apply TZ; auto.
  - intros x y z H. split; [apply (along_deriv ax _ _ x OX (CX E1 E0 y z L1 L0) H) | apply (along_deriv ax _ _ x OX (CX E0 E1 y z L0 L1) H)].
  - intros x y z H. split.
    + destruct (along_deriv ay _ _ y OY (CY E1 E0 x z L1 L0) H) as [D _]. eapply d_ext; [|eapply d_eq; [exact D|]].
      * intros w. symmetry. apply TY; auto.
      * symmetry. apply TY; auto.
    + destruct (along_deriv ay _ _ y OY (CY E0 E1 x z L0 L1) H) as [D _]. eapply d_ext; [|eapply d_eq; [exact D|]].
      * intros w. symmetry. apply TY; auto.
      * symmetry. apply TY; auto.
  - intros x y z H. split.
    + destruct (along_deriv az _ _ z OZ (CZ E1 E0 x y L1 L0) H) as [D _]. eapply d_ext; [|eapply d_eq; [exact D|]].
      * intros w. symmetry. apply TZ; auto.
      * symmetry. apply TZ; auto.
    + destruct (along_deriv az _ _ z OZ (CZ E0 E1 x y L0 L1) H) as [D _]. eapply d_ext; [|eapply d_eq; [exact D|]].
      * intros w. symmetry. apply TZ; auto.
      * symmetry. apply TZ; auto.
Qed.
End tricubic.
