(** C29: linear interpolation. *)
From Coq Require Import Reals List ZArith Lra Lia.
From Verif Require Import AxisModel AxisProofs Glue LintModel LintProofs.
Import ListNotations.
Local Open Scope R_scope.

(** on every closed cell the result is the straight line between the two node
    values; a periodic axis has a cell for every integer *)
Theorem linint1D_on_cell : forall s, axis_ok (l1x s) -> asize (l1c s) = an (l1x s) -> forall x i i' t,
  on_cell (l1x s) x i i' t -> below (l1x s) x ->
  linint1D_eval_f s x = Val (line (aget (l1c s) i) (aget (l1c s) i') t).
Proof. exact lint1_cell. Qed.
Print Assumptions linint1D_on_cell.
Theorem linint1D_error : forall s, axis_ok (l1x s) -> forall x,
  linint1D_eval_f s x = Err <-> abc (l1x s) = NATURALBC /\ ~ (amin (l1x s) <= x <= amax (l1x s)).
Proof. exact lint1_err. Qed.
Print Assumptions linint1D_error.
Theorem linint1D_between : forall s, axis_ok (l1x s) -> asize (l1c s) = an (l1x s) -> forall lo hi x,
  (forall i, (0 <= i < an (l1x s))%Z -> between lo hi (aget (l1c s) i)) ->
  (abc (l1x s) = NATURALBC -> amin (l1x s) <= x < amax (l1x s)) ->
  exists v, linint1D_eval_f s x = Val v /\ between lo hi v.
Proof. exact lint1_between. Qed.
Print Assumptions linint1D_between.
Theorem linint1D_continuous : forall s, axis_ok (l1x s) -> asize (l1c s) = an (l1x s) -> forall x,
  interior (l1x s) x -> continuity_pt (fun u => val 0 (linint1D_eval_f s u)) x.
Proof. exact lint1_cont. Qed.
Print Assumptions linint1D_continuous.
(** finding: at the exact upper end the read is outside the table *)
Theorem linint1D_upper_end_refuted : forall s, axis_ok (l1x s) -> asize (l1c s) = an (l1x s) ->
  abc (l1x s) = NATURALBC -> linint1D_eval_f s (amax (l1x s)) = Oob.
Proof. exact lint1_end. Qed.
Print Assumptions linint1D_upper_end_refuted.

Theorem linint2D_on_cell : forall s, axis_ok (l2x s) -> axis_ok (l2y s) -> asize (l2c s) = (an (l2x s) * an (l2y s))%Z ->
  forall x y i i' t j j' u,
  on_cell (l2x s) x i i' t -> below (l2x s) x -> on_cell (l2y s) y j j' u -> below (l2y s) y ->
  linint2D_eval_f s x y = Val (line (line (c2 s i j) (c2 s i' j) t) (line (c2 s i j') (c2 s i' j') t) u).
Proof. exact lint2_cell. Qed.
Print Assumptions linint2D_on_cell.
Theorem linint2D_error : forall s, axis_ok (l2x s) -> axis_ok (l2y s) -> forall x y, linint2D_eval_f s x y = Err <->
  (abc (l2x s) = NATURALBC /\ ~ (amin (l2x s) <= x <= amax (l2x s))) \/ (abc (l2y s) = NATURALBC /\ ~ (amin (l2y s) <= y <= amax (l2y s))).
Proof. exact lint2_err. Qed.
Print Assumptions linint2D_error.

Theorem linint3D_on_cell : forall s, axis_ok (l3x s) -> axis_ok (l3y s) -> axis_ok (l3z s) ->
  asize (l3c s) = (an (l3x s) * an (l3y s) * an (l3z s))%Z -> forall x y z i i' t j j' u k k' v,
  on_cell (l3x s) x i i' t -> below (l3x s) x -> on_cell (l3y s) y j j' u -> below (l3y s) y ->
  on_cell (l3z s) z k k' v -> below (l3z s) z ->
  linint3D_eval_f s x y z =
    Val (line (line (line (c3 s i j k) (c3 s i' j k) t) (line (c3 s i j k') (c3 s i' j k') t) v)
              (line (line (c3 s i j' k) (c3 s i' j' k) t) (line (c3 s i j' k') (c3 s i' j' k') t) v) u).
Proof. exact lint3_cell. Qed.
Print Assumptions linint3D_on_cell.
Theorem linint3D_error : forall s, axis_ok (l3x s) -> axis_ok (l3y s) -> axis_ok (l3z s) -> forall x y z,
  linint3D_eval_f s x y z = Err <->
  (abc (l3x s) = NATURALBC /\ ~ (amin (l3x s) <= x <= amax (l3x s))) \/ (abc (l3y s) = NATURALBC /\ ~ (amin (l3y s) <= y <= amax (l3y s)))
  \/ (abc (l3z s) = NATURALBC /\ ~ (amin (l3z s) <= z <= amax (l3z s))).
Proof. exact lint3_err. Qed.
Print Assumptions linint3D_error.
(** finding: in the neutral tables (y periodic, z natural) the exact upper end
    of z overruns the table in the last toroidal cell *)
Theorem linint3D_upper_end_refuted : forall s, axis_ok (l3x s) -> axis_ok (l3y s) -> axis_ok (l3z s) ->
  asize (l3c s) = (an (l3x s) * an (l3y s) * an (l3z s))%Z -> forall x y t, t < 1 ->
  abc (l3z s) = NATURALBC -> abc (l3y s) = PERIODICBC ->
  on_cell (l3y s) y (an (l3y s) - 1) 0 t -> (abc (l3x s) = NATURALBC -> amin (l3x s) <= x <= amax (l3x s)) ->
  linint3D_eval_f s x y (amax (l3z s)) = Oob.
Proof. exact lint3_end. Qed.
Print Assumptions linint3D_upper_end_refuted.

(** ** Examples *)
Definition tab : arr := Arr 4 (fun i => IZR (i * i)).
Definition nat4 := linint1D_init tab 4 NATURALBC 0 6.
Definition per4 := linint1D_init tab 4 PERIODICBC 0 8.
Lemma nat4_ok : axis_ok (l1x nat4).
Proof. apply mk_axis_ok; [lra|]. left. split; [reflexivity|lia]. Qed.
Lemma per4_ok : axis_ok (l1x per4).
Proof. apply mk_axis_ok; [lra|]. right. split; [reflexivity|lia]. Qed.
Example linint1D_middle : linint1D_eval_f nat4 3 = Val (5 / 2).
Proof.
  rewrite (linint1D_on_cell nat4 nat4_ok eq_refl 3 1 2 (1 / 2)).
  - f_equal. unfold line. cbn. lra.
  - split; [lra|]. left. split; [reflexivity|]. split; [cbn; lia|]. unfold nat4, linint1D_init, mk_axis, grid_step. cbn. lra.
  - intros _. unfold nat4, linint1D_init, mk_axis. cbn. lra.
Qed.
(** 7 is between the last node and the first one of the next period; so is -1 *)
Example linint1D_wraps : linint1D_eval_f per4 7 = Val (9 / 2) /\ linint1D_eval_f per4 (-1) = Val (9 / 2).
Proof.
  split.
  - rewrite (linint1D_on_cell per4 per4_ok eq_refl 7 3 0 (1 / 2)).
    + f_equal. unfold line. cbn. lra.
    + split; [lra|]. right. split; [reflexivity|]. exists 3%Z. split; [reflexivity|]. split; [reflexivity|].
      unfold per4, linint1D_init, mk_axis, grid_step. cbn. lra.
    + intros K. discriminate.
  - rewrite (linint1D_on_cell per4 per4_ok eq_refl (-1) 3 0 (1 / 2)).
    + f_equal. unfold line. cbn. lra.
    + split; [lra|]. right. split; [reflexivity|]. exists (-1)%Z. split; [reflexivity|]. split; [reflexivity|].
      unfold per4, linint1D_init, mk_axis, grid_step. cbn. lra.
    + intros K. discriminate.
Qed.
Example linint1D_end_example : linint1D_eval_f nat4 6 = Oob /\ linint1D_eval_f nat4 7 = Err.
Proof.
  split; [exact (linint1D_upper_end_refuted nat4 nat4_ok eq_refl eq_refl)|].
  apply linint1D_error; [apply nat4_ok|]. split; [reflexivity|]. unfold nat4, linint1D_init, mk_axis. cbn. lra.
Qed.
(** finding: linint2D_init does not store the boundary conditions, so the same
    call gives a value or an error depending on what the struct held before *)
Definition tab2 : arr := Arr 4 (fun i => IZR i).
Example linint2D_bc_not_stored_refuted :
  let s old := linint2D_init old NATURALBC tab2 2 2 PERIODICBC NATURALBC 0 2 0 1 in
  linint2D_eval_f (s PERIODICBC) (5 / 2) (1 / 4) = Val 1 /\ linint2D_eval_f (s NATURALBC) (5 / 2) (1 / 4) = Err.
Proof.
  assert (OY : axis_ok (mk_axis 2 NATURALBC 0 1)) by (apply mk_axis_ok; [lra|]; left; split; [reflexivity|lia]).
  assert (OX : axis_ok (mk_axis 2 PERIODICBC 0 2)) by (apply mk_axis_ok; [lra|]; right; split; [reflexivity|lia]).
  split.
  - rewrite (linint2D_on_cell (linint2D_init PERIODICBC NATURALBC tab2 2 2 PERIODICBC NATURALBC 0 2 0 1) OX OY eq_refl _ _ 0 1 (1 / 2) 0 1 (1 / 4)).
    + f_equal. unfold line, c2. cbn. lra.
    + split; [lra|]. right. split; [reflexivity|]. exists 2%Z. split; [reflexivity|]. split; [reflexivity|]. cbn. unfold grid_step. cbn. lra.
    + intros K. discriminate.
    + split; [lra|]. left. split; [reflexivity|]. split; [cbn; lia|]. cbn. unfold grid_step. cbn. lra.
    + intros _. cbn. lra.
  - unfold linint2D_eval_f.
    assert (Q : forall i, outside (l2x (linint2D_init NATURALBC NATURALBC tab2 2 2 PERIODICBC NATURALBC 0 2 0 1))
       (wrap (l2x (linint2D_init NATURALBC NATURALBC tab2 2 2 PERIODICBC NATURALBC 0 2 0 1)) (5 / 2)) i = true).
    { intros i. unfold outside, wrap. cbn. destruct (Rle_dec 0 (5 / 2)); [|reflexivity]. destruct (Rle_dec (5 / 2) 2); [lra|reflexivity]. }
    rewrite Q. reflexivity.
Qed.
