(** Products of one-dimensional splines. *)
From Coq Require Import Reals List Arith ZArith Bool Lra Lia.
From Verif Require Import Deriv AxisModel AxisProofs Glue LintProofs SplineModel SplineProofs.
Local Open Scope R_scope.

Definition cellform := R -> R -> R -> R -> R -> R -> R.
(** a cell form that is linear in the node data *)
Definition linear (E : cellform) : Prop :=
  forall h t, exists w1 w2 w3 w4, forall a b A B, E h a b A B t = w1 * a + w2 * b + w3 * A + w4 * B.
Lemma linear_E0 : linear E0.
Proof. intros h t. exists (1 - t), t, (h * h / 6 * ((1 - t) ^ 3 - (1 - t))), (h * h / 6 * (t ^ 3 - t)). intros. unfold E0. ring. Qed.
Lemma linear_E1 : linear E1.
Proof. intros h t. exists (- (1 / h)), (1 / h), (h / 6 * (1 - 3 * (1 - t) ^ 2)), (h / 6 * (3 * t ^ 2 - 1)). intros. unfold E1, Rdiv. ring. Qed.
Lemma linear_E2 : linear E2.
Proof. intros h t. exists 0, 0, (1 - t), t. intros. unfold E2. ring. Qed.

(** evaluation along one axis *)
Definition along (a : axis) (E : cellform) (g G : Z -> R) (x : R) : R := ev a (WE E a g G) x.
Lemma along_lin : forall a E x, linear E -> exists i i' w1 w2 w3 w4, forall g G,
  along a E g G x = w1 * g i + w2 * g i' + w3 * G i + w4 * G i'.
Proof.
  intros a E x L. unfold along, ev, WE. cbv zeta. set (w := wrap a x). set (i := index_spl a w).
  destruct (L (agrid a) (frac a w i)) as (w1 & w2 & w3 & w4 & H). exists i, (i + jump a i 1)%Z, w1, w2, w3, w4. intros. apply H.
Qed.
Lemma along_sum : forall a E x, linear E -> forall w1 w2 w3 w4 g1 g2 g3 g4 G1 G2 G3 G4,
  along a E (fun i => w1 * g1 i + w2 * g2 i + w3 * g3 i + w4 * g4 i) (fun i => w1 * G1 i + w2 * G2 i + w3 * G3 i + w4 * G4 i) x =
  w1 * along a E g1 G1 x + w2 * along a E g2 G2 x + w3 * along a E g3 G3 x + w4 * along a E g4 G4 x.
Proof.
  intros a E x L. destruct (along_lin a E x L) as (i & i' & u1 & u2 & u3 & u4 & H). intros. rewrite !H. ring.
Qed.
Lemma along_ext : forall a E g g' G G' x, (forall i, g i = g' i) -> (forall i, G i = G' i) -> along a E g G x = along a E g' G' x.
Proof. intros a E g g' G G' x A B. unfold along, ev, WE. cbv zeta. now rewrite !A, !B. Qed.
Lemma spl_sum : forall a w1 w2 w3 w4 g1 g2 g3 g4 G1 G2 G3 G4, spl a g1 G1 -> spl a g2 G2 -> spl a g3 G3 -> spl a g4 G4 ->
  spl a (fun i => w1 * g1 i + w2 * g2 i + w3 * g3 i + w4 * g4 i) (fun i => w1 * G1 i + w2 * G2 i + w3 * G3 i + w4 * G4 i).
Proof.
  intros a w1 w2 w3 w4 g1 g2 g3 g4 G1 G2 G3 G4 S1 S2 S3 S4 i i' i'' C.
  specialize (S1 _ _ _ C). specialize (S2 _ _ _ C). specialize (S3 _ _ _ C). specialize (S4 _ _ _ C). cbv beta.
  set (q := 6 / (agrid a * agrid a)) in *.
  transitivity (w1 * (G1 i + 4 * G1 i' + G1 i'') + w2 * (G2 i + 4 * G2 i' + G2 i'') + w3 * (G3 i + 4 * G3 i' + G3 i'') + w4 * (G4 i + 4 * G4 i' + G4 i'')); [ring|].
  rewrite S1, S2, S3, S4. ring.
Qed.
Lemma ends_sum : forall a w1 w2 w3 w4 G1 G2 G3 G4, ends_zero a G1 -> ends_zero a G2 -> ends_zero a G3 -> ends_zero a G4 ->
  ends_zero a (fun i => w1 * G1 i + w2 * G2 i + w3 * G3 i + w4 * G4 i).
Proof.
  intros a w1 w2 w3 w4 G1 G2 G3 G4 S1 S2 S3 S4 B. destruct (S1 B) as [A1 B1]. destruct (S2 B) as [A2 B2]. destruct (S3 B) as [A3 B3]. destruct (S4 B) as [A4 B4].
  rewrite A1, A2, A3, A4, B1, B2, B3, B4. split; ring.
Qed.
Lemma spl_ext : forall a g g' G G', (forall i, g i = g' i) -> (forall i, G i = G' i) -> spl a g G -> spl a g' G'.
Proof. intros a g g' G G' A B S i i' i'' C. rewrite <- !A, <- !B. now apply S. Qed.
Lemma ends_ext : forall a G G', (forall i, G i = G' i) -> ends_zero a G -> ends_zero a G'.
Proof. intros a G G' B S C. rewrite <- !B. now apply S. Qed.

(** node values, second derivatives and free ends *)
Definition curve (a : axis) (g G : Z -> R) : Prop := spl a g G /\ ends_zero a G.
Lemma curve_sum : forall a w1 w2 w3 w4 g1 g2 g3 g4 G1 G2 G3 G4, curve a g1 G1 -> curve a g2 G2 -> curve a g3 G3 -> curve a g4 G4 ->
  curve a (fun i => w1 * g1 i + w2 * g2 i + w3 * g3 i + w4 * g4 i) (fun i => w1 * G1 i + w2 * G2 i + w3 * G3 i + w4 * G4 i).
Proof. intros a w1 w2 w3 w4 g1 g2 g3 g4 G1 G2 G3 G4 [? ?] [? ?] [? ?] [? ?]. split; auto using spl_sum, ends_sum. Qed.
Lemma curve_ext : forall a g g' G G', (forall i, g i = g' i) -> (forall i, G i = G' i) -> curve a g G -> curve a g' G'.
Proof. intros a g g' G G' A B [? ?]. split; eauto using spl_ext, ends_ext. Qed.
Lemma along_deriv : forall a g G x, axis_ok a -> curve a g G -> interior a x ->
  Dx (along a E0 g G) x (along a E1 g G x) /\ Dx (along a E1 g G) x (along a E2 g G x) /\ continuity_pt (along a E2 g G) x.
Proof.
  intros a g G x O [S _] I. pose proof (grid_pos a O). destruct (fits_WE a g G O S) as (F0 & F1 & F2).
  assert (K := fun i i' t => cubic_deriv a _ _ _ i i' t ltac:(lra) (cubic_E a g G ltac:(lra))). unfold along. split; [|split].
  - apply (cells_deriv a _ (ev a (WE E1 a g G)) (WE E0 a g G) (WE E1 a g G)); auto using ev_cells. intros. apply K.
  - apply (cells_deriv a _ (ev a (WE E2 a g G)) (WE E1 a g G) (WE E2 a g G)); auto using ev_cells. intros. apply K.
  - apply (cells_cont a _ (WE E2 a g G)); auto using ev_cells. intros. apply K.
Qed.

(** ** splinecomp carries linear relations along *)
Lemma second_zero : forall f n bc i, (forall k, f k = 0) -> second f n bc i = 0.
Proof.
  intros f n bc i H. replace f with (fun k => 0 * f k + 0 * f k). { rewrite second_lin. ring. }
  apply FunctionalExtensionality.functional_extensionality. intros k. rewrite H. ring.
Qed.
Lemma second_comb : forall a b c f g h n bc i, second (fun k => a * f k + b * g k + c * h k) n bc i =
  a * second f n bc i + b * second g n bc i + c * second h n bc i.
Proof.
  intros. transitivity (second (fun k => 1 * (a * f k + b * g k) + c * h k) n bc i).
  - f_equal. apply FunctionalExtensionality.functional_extensionality. intros. ring.
  - rewrite (second_lin 1 c), second_lin. ring.
Qed.
Lemma transport : forall a (g G : Z -> nat -> R) n bc j q, (forall k, curve a (fun i => g i k) (fun i => G i k)) ->
  curve a (fun i => second (g i) n bc j / q) (fun i => second (G i) n bc j / q).
Proof.
  intros a g G n bc j q H. split.
  - intros i i' i'' C. set (p := 6 / (agrid a * agrid a)).
    assert (K : second (fun k => 1 * G i k + 4 * G i' k + 1 * G i'' k) n bc j = second (fun k => p * g i'' k + (- 2 * p) * g i' k + p * g i k) n bc j).
    { f_equal. apply FunctionalExtensionality.functional_extensionality. intros k. destruct (H k) as [S _]. specialize (S i i' i'' C). cbv beta in S. fold p in S. lra. }
    rewrite !second_comb in K. unfold Rdiv.
    transitivity ((1 * second (G i) n bc j + 4 * second (G i') n bc j + 1 * second (G i'') n bc j) * / q); [ring|]. rewrite K. ring.
  - intros B. assert (Z : forall k, G 0%Z k = 0 /\ G (an a - 1)%Z k = 0) by (intros k; destruct (H k) as [_ E]; apply E; auto).
    rewrite !second_zero by (intros; apply Z). unfold Rdiv. split; ring.
Qed.
(** a row of data gives a curve *)
Lemma second_curve : forall a f n, axis_ok a -> an a = Z.of_nat n -> enough n (abc a) ->
  curve a (fun z => f (Z.to_nat z)) (fun z => second f n (abc a) (Z.to_nat z) / (agrid a * agrid a)).
Proof. intros. apply second_spl; auto. Qed.

(** ** Surfaces *)
Section surface.
Variables (ax ay : axis) (C0 C1 C2 C3 : Z -> Z -> R).
(** C1, C2 and C3 hold the second derivatives in x, in y and in both *)
Definition sheet : Prop :=
  (forall j, curve ax (fun i => C0 i j) (fun i => C1 i j) /\ curve ax (fun i => C2 i j) (fun i => C3 i j)) /\
  (forall i, curve ay (C0 i) (C2 i) /\ curve ay (C1 i) (C3 i)).
Definition T2 (Ex Ey : cellform) (x y : R) : R :=
  along ax Ex (fun i => along ay Ey (C0 i) (C2 i) y) (fun i => along ay Ey (C1 i) (C3 i) y) x.
Hypothesis SH : sheet.
Lemma T2_swap : forall Ex Ey x y, linear Ex -> linear Ey -> T2 Ex Ey x y =
  along ay Ey (fun j => along ax Ex (fun i => C0 i j) (fun i => C1 i j) x) (fun j => along ax Ex (fun i => C2 i j) (fun i => C3 i j) x) y.
Proof.
  intros Ex Ey x y LX LY. unfold T2. destruct (along_lin ax Ex x LX) as (i & i' & w1 & w2 & w3 & w4 & H).
  destruct (along_lin ay Ey y LY) as (j & j' & u1 & u2 & u3 & u4 & K). rewrite !H, !K, !H. ring.
Qed.
Lemma curve_x : forall Ey y, linear Ey -> curve ax (fun i => along ay Ey (C0 i) (C2 i) y) (fun i => along ay Ey (C1 i) (C3 i) y).
Proof.
  intros Ey y L. destruct (along_lin ay Ey y L) as (j & j' & u1 & u2 & u3 & u4 & K).
  apply (curve_ext ax (fun i => u1 * C0 i j + u2 * C0 i j' + u3 * C2 i j + u4 * C2 i j') _ (fun i => u1 * C1 i j + u2 * C1 i j' + u3 * C3 i j + u4 * C3 i j')); auto.
  destruct SH as [A _]. apply (curve_sum ax u1 u2 u3 u4 (fun i => C0 i j) (fun i => C0 i j') (fun i => C2 i j) (fun i => C2 i j')); apply A.
Qed.
Lemma curve_y : forall Ex x, linear Ex ->
  curve ay (fun j => along ax Ex (fun i => C0 i j) (fun i => C1 i j) x) (fun j => along ax Ex (fun i => C2 i j) (fun i => C3 i j) x).
Proof.
  intros Ex x L. destruct (along_lin ax Ex x L) as (i & i' & u1 & u2 & u3 & u4 & K).
  apply (curve_ext ay (fun j => u1 * C0 i j + u2 * C0 i' j + u3 * C1 i j + u4 * C1 i' j) _ (fun j => u1 * C2 i j + u2 * C2 i' j + u3 * C3 i j + u4 * C3 i' j)).
  - intros j. now rewrite K.
  - intros j. now rewrite K.
  - destruct SH as [_ A]. apply (curve_sum ay u1 u2 u3 u4 (C0 i) (C0 i') (C1 i) (C1 i')); apply A.
Qed.
End surface.

(** ** Volumes *)
Lemma curve_along : forall a c Ec (P P' Q Q' : Z -> Z -> R) z, linear Ec ->
  (forall k, curve a (fun i => P i k) (fun i => Q i k)) -> (forall k, curve a (fun i => P' i k) (fun i => Q' i k)) ->
  curve a (fun i => along c Ec (P i) (P' i) z) (fun i => along c Ec (Q i) (Q' i) z).
Proof.
  intros a c Ec P P' Q Q' z L H H'. destruct (along_lin c Ec z L) as (j & j' & u1 & u2 & u3 & u4 & K).
  apply (curve_ext a (fun i => u1 * P i j + u2 * P i j' + u3 * P' i j + u4 * P' i j') _ (fun i => u1 * Q i j + u2 * Q i j' + u3 * Q' i j + u4 * Q' i j')); auto.
  apply (curve_sum a u1 u2 u3 u4 (fun i => P i j) (fun i => P i j') (fun i => P' i j) (fun i => P' i j')); auto.
Qed.
Lemma curve_T2 : forall a b c Eb Ec (P0 P1 P2 P3 Q0 Q1 Q2 Q3 : Z -> Z -> Z -> R) y z, linear Eb -> linear Ec ->
  (forall j k, curve a (fun i => P0 i j k) (fun i => Q0 i j k)) -> (forall j k, curve a (fun i => P1 i j k) (fun i => Q1 i j k)) ->
  (forall j k, curve a (fun i => P2 i j k) (fun i => Q2 i j k)) -> (forall j k, curve a (fun i => P3 i j k) (fun i => Q3 i j k)) ->
  curve a (fun i => T2 b c (P0 i) (P1 i) (P2 i) (P3 i) Eb Ec y z) (fun i => T2 b c (Q0 i) (Q1 i) (Q2 i) (Q3 i) Eb Ec y z).
Proof.
  intros a b c Eb Ec P0 P1 P2 P3 Q0 Q1 Q2 Q3 y z LB LC H0 H1 H2 H3. unfold T2.
  apply (curve_along a b Eb (fun i j => along c Ec (P0 i j) (P2 i j) z) (fun i j => along c Ec (P1 i j) (P3 i j) z)
           (fun i j => along c Ec (Q0 i j) (Q2 i j) z) (fun i j => along c Ec (Q1 i j) (Q3 i j) z)); auto; intros j.
  - apply (curve_along a c Ec (fun i => P0 i j) (fun i => P2 i j) (fun i => Q0 i j) (fun i => Q2 i j)); auto.
  - apply (curve_along a c Ec (fun i => P1 i j) (fun i => P3 i j) (fun i => Q1 i j) (fun i => Q3 i j)); auto.
Qed.
Section volume.
Variables (ax ay az : axis) (C0 C1 C2 C3 C4 C5 C6 C7 : Z -> Z -> Z -> R).
(** values and second derivatives xx, yy, zz, xxyy, xxzz, yyzz, xxyyzz *)
Definition block : Prop :=
  (forall j k, curve ax (fun i => C0 i j k) (fun i => C1 i j k) /\ curve ax (fun i => C2 i j k) (fun i => C4 i j k) /\
               curve ax (fun i => C3 i j k) (fun i => C5 i j k) /\ curve ax (fun i => C6 i j k) (fun i => C7 i j k)) /\
  (forall i k, curve ay (fun j => C0 i j k) (fun j => C2 i j k) /\ curve ay (fun j => C1 i j k) (fun j => C4 i j k) /\
               curve ay (fun j => C3 i j k) (fun j => C6 i j k) /\ curve ay (fun j => C5 i j k) (fun j => C7 i j k)) /\
  (forall i j, curve az (fun k => C0 i j k) (fun k => C3 i j k) /\ curve az (fun k => C1 i j k) (fun k => C5 i j k) /\
               curve az (fun k => C2 i j k) (fun k => C6 i j k) /\ curve az (fun k => C4 i j k) (fun k => C7 i j k)).
Definition T3 (Ex Ey Ez : cellform) (x y z : R) : R :=
  along ax Ex (fun i => T2 ay az (C0 i) (C2 i) (C3 i) (C6 i) Ey Ez y z) (fun i => T2 ay az (C1 i) (C4 i) (C5 i) (C7 i) Ey Ez y z) x.
Definition gy Ex Ez x z := (fun j => T2 ax az (fun i k => C0 i j k) (fun i k => C1 i j k) (fun i k => C3 i j k) (fun i k => C5 i j k) Ex Ez x z).
Definition Gy Ex Ez x z := (fun j => T2 ax az (fun i k => C2 i j k) (fun i k => C4 i j k) (fun i k => C6 i j k) (fun i k => C7 i j k) Ex Ez x z).
Definition gz Ex Ey x y := (fun k => T2 ax ay (fun i j => C0 i j k) (fun i j => C1 i j k) (fun i j => C2 i j k) (fun i j => C4 i j k) Ex Ey x y).
Definition Gz Ex Ey x y := (fun k => T2 ax ay (fun i j => C3 i j k) (fun i j => C5 i j k) (fun i j => C6 i j k) (fun i j => C7 i j k) Ex Ey x y).
Lemma T3_y : forall Ex Ey Ez x y z, linear Ex -> linear Ey -> linear Ez -> T3 Ex Ey Ez x y z = along ay Ey (gy Ex Ez x z) (Gy Ex Ez x z) y.
Proof.
  intros Ex Ey Ez x y z LX LY LZ. unfold T3, gy, Gy, T2. destruct (along_lin ax Ex x LX) as (i & i' & w1 & w2 & w3 & w4 & H).
  destruct (along_lin ay Ey y LY) as (j & j' & u1 & u2 & u3 & u4 & K). destruct (along_lin az Ez z LZ) as (k & k' & v1 & v2 & v3 & v4 & L).
  rewrite !H, !K, !H, !L. ring.
Qed.
Lemma T3_z : forall Ex Ey Ez x y z, linear Ex -> linear Ey -> linear Ez -> T3 Ex Ey Ez x y z = along az Ez (gz Ex Ey x y) (Gz Ex Ey x y) z.
Proof.
  intros Ex Ey Ez x y z LX LY LZ. unfold T3, gz, Gz, T2. destruct (along_lin ax Ex x LX) as (i & i' & w1 & w2 & w3 & w4 & H).
  destruct (along_lin ay Ey y LY) as (j & j' & u1 & u2 & u3 & u4 & K). destruct (along_lin az Ez z LZ) as (k & k' & v1 & v2 & v3 & v4 & L).
  rewrite !H, !K, !L, !H, !K. ring.
Qed.
Hypothesis BL : block.
Lemma curve_x3 : forall Ey Ez y z, linear Ey -> linear Ez ->
  curve ax (fun i => T2 ay az (C0 i) (C2 i) (C3 i) (C6 i) Ey Ez y z) (fun i => T2 ay az (C1 i) (C4 i) (C5 i) (C7 i) Ey Ez y z).
Proof. intros. destruct BL as (B & _ & _). apply curve_T2; auto; apply B. Qed.
Lemma curve_y3 : forall Ex Ez x z, linear Ex -> linear Ez -> curve ay (gy Ex Ez x z) (Gy Ex Ez x z).
Proof.
  intros. destruct BL as (_ & B & _).
  apply (curve_T2 ay ax az Ex Ez (fun j i k => C0 i j k) (fun j i k => C1 i j k) (fun j i k => C3 i j k) (fun j i k => C5 i j k)
    (fun j i k => C2 i j k) (fun j i k => C4 i j k) (fun j i k => C6 i j k) (fun j i k => C7 i j k)); auto; intros; apply B.
Qed.
Lemma curve_z3 : forall Ex Ey x y, linear Ex -> linear Ey -> curve az (gz Ex Ey x y) (Gz Ex Ey x y).
Proof.
  intros. destruct BL as (_ & _ & B).
  apply (curve_T2 az ax ay Ex Ey (fun k i j => C0 i j k) (fun k i j => C1 i j k) (fun k i j => C2 i j k) (fun k i j => C4 i j k)
    (fun k i j => C3 i j k) (fun k i j => C5 i j k) (fun k i j => C6 i j k) (fun k i j => C7 i j k)); auto; intros; apply B.
Qed.
End volume.
