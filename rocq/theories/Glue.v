(** Functions given cell by cell on an axis: continuity and derivatives across
    the nodes. *)
From Coq Require Import Reals ZArith Lra Lia.
From Verif Require Import Deriv AxisModel AxisProofs.
Local Open Scope R_scope.

Lemma glue_deriv : forall (f g h : R -> R) x l d, 0 < d ->
  (forall s, x - d < s <= x -> f s = g s) -> (forall s, x <= s < x + d -> f s = h s) ->
  Dx g x l -> Dx h x l -> Dx f x l.
Proof.
  intros f g h x l d D A B G H e E. destruct (G e E) as [d1 G1]. destruct (H e E) as [d2 H1].
  assert (M : 0 < Rmin d (Rmin d1 d2)) by (repeat apply Rmin_pos; auto; apply cond_pos). exists (mkposreal _ M).
  intros u U0 U. cbn in U. assert (Rabs u < d /\ Rabs u < d1 /\ Rabs u < d2) as (U1 & U2 & U3).
  { pose proof (Rmin_l d (Rmin d1 d2)). pose proof (Rmin_r d (Rmin d1 d2)). pose proof (Rmin_l d1 d2). pose proof (Rmin_r d1 d2). lra. }
  apply Rabs_def2 in U1. destruct (Rle_lt_dec u 0).
  - rewrite (A (x + u)), (A x) by lra. now apply G1.
  - rewrite (B (x + u)), (B x) by lra. now apply H1.
Qed.
Lemma glue_cont : forall (f g h : R -> R) x d, 0 < d ->
  (forall s, x - d < s <= x -> f s = g s) -> (forall s, x <= s < x + d -> f s = h s) ->
  continuity_pt g x -> continuity_pt h x -> continuity_pt f x.
Proof.
  intros f g h x d D A B G H e E. destruct (G e E) as (d1 & P1 & G1). destruct (H e E) as (d2 & P2 & H1).
  assert (M : 0 < Rmin d (Rmin d1 d2)) by (repeat apply Rmin_pos; auto). exists (Rmin d (Rmin d1 d2)). split; auto.
  intros s [[_ NE] U]. cbn in *. unfold R_dist in *.
  assert (Rabs (s - x) < d /\ Rabs (s - x) < d1 /\ Rabs (s - x) < d2) as (U1 & U2 & U3).
  { pose proof (Rmin_l d (Rmin d1 d2)). pose proof (Rmin_r d (Rmin d1 d2)). pose proof (Rmin_l d1 d2). pose proof (Rmin_r d1 d2). lra. }
  apply Rabs_def2 in U1. destruct (Rle_lt_dec s x).
  - rewrite (A s), (A x) by lra. apply G1. repeat split; auto.
  - rewrite (B s), (B x) by lra. apply H1. repeat split; auto.
Qed.

Definition interior (a : axis) (x : R) : Prop := abc a = NATURALBC -> amin a < x < amax a.

(** the cells on the two sides of a point *)
Lemma cell_sides : forall a x, axis_ok a -> interior a x ->
  exists d il il' el ir ir' er, 0 < d /\
    (forall s, x - d < s <= x -> on_cell a s il il' ((s - el) / agrid a)) /\
    (forall s, x <= s < x + d -> on_cell a s ir ir' ((s - er) / agrid a)).
Proof.
  intros a x O H. pose proof (grid_pos a O) as G.
  assert (SC : forall k s, 0 <= s - (amin a + IZR k * agrid a) <= agrid a -> 0 <= (s - (amin a + IZR k * agrid a)) / agrid a <= 1).
  { intros k s [A B]. split; [apply Rle_mult_inv_pos; auto|]. apply Rmult_le_reg_r with (agrid a); auto.
    unfold Rdiv. rewrite Rmult_assoc, Rinv_l by lra. lra. }
  assert (K : exists k t, 0 <= t < 1 /\ x = amin a + (IZR k + t) * agrid a /\ (abc a = NATURALBC -> (0 <= k <= an a - 2)%Z /\ (t = 0 -> (1 <= k)%Z))).
  { destruct (on_cell_ex a x O) as (i & i' & t & T & C); [intros B; specialize (H B); lra|].
    destruct C as [(B & (I1 & I2 & I3) & X)|(B & k & _ & _ & X)].
    - destruct (axis_nat a O B) as (N & _ & M). specialize (H B). destruct (Req_dec t 1) as [->|NT].
      + exists (i + 1)%Z, 0. split; [lra|]. split; [rewrite plus_IZR; lra|]. intros _. split; [|intros; lia]. split; [lia|].
        assert (IZR (i + 1) < IZR (an a - 1)) by (rewrite plus_IZR, minus_IZR; nra). apply lt_IZR in H0. lia.
      + exists i, t. split; [lra|]. split; auto. intros _. split; [lia|]. intros ->.
        assert (0 < IZR i) by nra. apply lt_IZR in H0. lia.
    - destruct (Req_dec t 1) as [->|NT].
      + exists (k + 1)%Z, 0. split; [lra|]. split; [rewrite plus_IZR; lra|]. rewrite B. discriminate.
      + exists k, t. split; [lra|]. split; auto. rewrite B. discriminate. }
  destruct K as (k & t & T & X & KN).
  (* membership of a point of cell k *)
  assert (IN : forall k, (abc a = NATURALBC -> (0 <= k <= an a - 2)%Z) -> exists i i', forall s,
    0 <= s - (amin a + IZR k * agrid a) <= agrid a -> on_cell a s i i' ((s - (amin a + IZR k * agrid a)) / agrid a)).
  { intros j J. pose proof O as (_ & _ & [[B _]|[B _]]).
    - specialize (J B). exists j, (j + 1)%Z. intros s S. split; auto. left. split; auto. split; [lia|]. field. lra.
    - exists (j mod an a)%Z, ((j + 1) mod an a)%Z. intros s S. split; auto. right. split; auto. exists j. repeat split; auto. field. lra. }
  destruct (IN k) as (ir & ir' & Rr). { intros B; now destruct (KN B). }
  destruct (Req_dec t 0) as [->|NT].
  - destruct (IN (k - 1)%Z) as (il & il' & Ll). { intros B. destruct (KN B) as [A1 A2]. specialize (A2 eq_refl). lia. }
    exists (agrid a), il, il', (amin a + IZR (k - 1) * agrid a), ir, ir', (amin a + IZR k * agrid a).
    split; auto. split; intros s S; [apply Ll | apply Rr]; rewrite ?minus_IZR; lra.
  - exists (Rmin t (1 - t) * agrid a), ir, ir', (amin a + IZR k * agrid a), ir, ir', (amin a + IZR k * agrid a).
    assert (0 < Rmin t (1 - t)) by (apply Rmin_pos; lra). pose proof (Rmin_l t (1 - t)). pose proof (Rmin_r t (1 - t)).
    split; [apply Rmult_lt_0_compat; auto|]. split; intros s S; apply Rr; nra.
Qed.

(** a function given by phi on every closed cell *)
Definition by_cells (a : axis) (F : R -> R) (phi : Z -> Z -> R -> R) : Prop :=
  forall x i i' t, on_cell a x i i' t -> F x = phi i i' t.
Lemma cells_cont : forall a F phi x, axis_ok a -> by_cells a F phi -> (forall i i' t, continuity_pt (phi i i') t) ->
  interior a x -> continuity_pt F x.
Proof.
  intros a F phi x O C P H. destruct (cell_sides a x O H) as (d & il & il' & el & ir & ir' & er & D & A & B).
  pose proof (grid_pos a O).
  assert (Q : forall i i' e, continuity_pt (fun s => phi i i' ((s - e) / agrid a)) x).
  { intros i i' e. apply (continuity_pt_comp (fun s => (s - e) / agrid a) (phi i i')); [|apply P].
    apply derivable_continuous_pt. exists (/ agrid a). unfold Rdiv. der. ring. }
  apply (glue_cont F (fun s => phi il il' ((s - el) / agrid a)) (fun s => phi ir ir' ((s - er) / agrid a)) x d); auto;
    intros s S; apply C; auto.
Qed.
Lemma cells_deriv : forall a F F' phi psi x, axis_ok a -> by_cells a F phi -> by_cells a F' psi ->
  (forall i i' t, Dx (phi i i') t (agrid a * psi i i' t)) -> interior a x -> Dx F x (F' x).
Proof.
  intros a F F' phi psi x O C C' P H. destruct (cell_sides a x O H) as (d & il & il' & el & ir & ir' & er & D & A & B).
  pose proof (grid_pos a O).
  assert (Q : forall i i' e, Dx (fun s => phi i i' ((s - e) / agrid a)) x (psi i i' ((x - e) / agrid a))).
  { intros i i' e. eapply d_eq.
    - apply (d_comp (fun s => (s - e) / agrid a) (phi i i')); [|apply P]. unfold Rdiv. repeat der1.
    - cbv beta. unfold Rdiv. field. lra. }
  apply (glue_deriv F (fun s => phi il il' ((s - el) / agrid a)) (fun s => phi ir ir' ((s - er) / agrid a)) x (F' x) d); [exact D| | | |].
  - intros s S. apply C, A, S.
  - intros s S. apply C, B, S.
  - rewrite (C' x il il' ((x - el) / agrid a)); auto. apply A; lra.
  - rewrite (C' x ir ir' ((x - er) / agrid a)); auto. apply B; lra.
Qed.
