(** Proofs about linear interpolation. *)
From Coq Require Import Reals List ZArith Bool Lra Lia.
From Verif Require Import Deriv AxisModel AxisProofs Glue LintModel.
Import ListNotations.
Local Open Scope R_scope.

(** ** Specification: straight line between two values *)
Definition line (a b t : R) : R := a + t * (b - a).
(** below the upper end of a natural axis *)
Definition below (a : axis) (x : R) : Prop := abc a = NATURALBC -> x < amax a.
Definition between (lo hi v : R) : Prop := lo <= v <= hi.

Lemma line_between : forall lo hi a b t, 0 <= t <= 1 -> between lo hi a -> between lo hi b -> between lo hi (line a b t).
Proof. unfold between, line. intros. nra. Qed.
Lemma inb_true : forall a i, (0 <= i < asize a)%Z -> inb a i = true.
Proof. intros. unfold inb. apply andb_true_intro. split; [apply Z.leb_le | apply Z.ltb_lt]; lia. Qed.
Lemma inb_false : forall a i, (asize a <= i)%Z -> inb a i = false.
Proof. intros. unfold inb. apply andb_false_intro2. apply Z.ltb_ge. lia. Qed.
Lemma reading_ok : forall A (a : arr) idx (v : A), (forall i, In i idx -> (0 <= i < asize a)%Z) -> reading a idx v = Val v.
Proof.
  intros A a idx v H. unfold reading. replace (forallb _ _) with true; auto. symmetry. apply forallb_forall.
  intros i I. apply inb_true. auto.
Qed.
Lemma reading_bad : forall A (a : arr) idx (v : A) i, In i idx -> (asize a <= i)%Z -> reading a idx v = Oob.
Proof.
  intros A a idx v i I H. unfold reading. destruct (forallb _ _) eqn:E; auto. rewrite forallb_forall in E.
  specialize (E i I). rewrite inb_false in E; auto. discriminate.
Qed.

Section L.
Variable s1 : linint1D.
Hypothesis O1 : axis_ok (l1x s1).
Hypothesis Z1 : asize (l1c s1) = an (l1x s1).
Theorem lint1_cell : forall x i i' t, on_cell (l1x s1) x i i' t -> below (l1x s1) x ->
  linint1D_eval_f s1 x = Val (line (aget (l1c s1) i) (aget (l1c s1) i') t).
Proof.
  intros x i i' t C B. destruct (lin_located _ _ _ _ _ O1 C B) as (Q & I & J & _ & L).
  unfold linint1D_eval_f. rewrite Q. rewrite reading_ok.
  - f_equal. unfold line. destruct L as [(-> & -> & ->)|(-> & -> & ->)]; ring.
  - rewrite Z1. intros k [<-|[<-|[]]]; auto.
Qed.
Theorem lint1_err : forall x, linint1D_eval_f s1 x = Err <-> abc (l1x s1) = NATURALBC /\ ~ (amin (l1x s1) <= x <= amax (l1x s1)).
Proof.
  intros x. unfold linint1D_eval_f. rewrite <- (outside_true _ _ (index_lin (l1x s1) (wrap (l1x s1) x)) O1).
  destruct (outside _ _ _); split; auto; [|discriminate]. unfold reading. now destruct (forallb _ _).
Qed.
Theorem lint1_end : abc (l1x s1) = NATURALBC -> linint1D_eval_f s1 (amax (l1x s1)) = Oob.
Proof.
  intros B. destruct (axis_nat _ O1 B) as (N & G & M). unfold linint1D_eval_f. rewrite wrap_nat by auto.
  destruct (outside _ _ _) eqn:E.
  - pose proof (outside_nat (l1x s1) (amax (l1x s1)) (index_lin (l1x s1) (amax (l1x s1))) B) as K.
    destruct K as [_ K]. rewrite K in E by (destruct O1; lra). discriminate.
  - apply reading_bad with (i := an (l1x s1)); [|lia]. right. left. rewrite jump_nat by auto. unfold index_lin. rewrite M.
    rewrite (trunc_unique _ (an (l1x s1) - 1)%Z); [lia| |];
      replace ((_ - _) / _) with (IZR (an (l1x s1)) - 1) by (field; lra); rewrite ?minus_IZR; try lra.
    assert (2 <= IZR (an (l1x s1))) by now apply IZR_le. lra.
Qed.
(** the value where there is one *)
Definition val {A} (d : A) (r : res A) : A := match r with Val v => v | _ => d end.
Theorem lint1_cont : forall x, interior (l1x s1) x -> continuity_pt (fun u => val 0 (linint1D_eval_f s1 u)) x.
Proof.
  intros x H. destruct (cell_sides _ x O1 H) as (d & il & il' & el & ir & ir' & er & D & A & B).
  assert (Q : forall i i' e, continuity_pt (fun s => line (aget (l1c s1) i) (aget (l1c s1) i') ((s - e) / agrid (l1x s1))) x).
  { intros. apply derivable_continuous_pt. unfold line, Rdiv. eexists. unfold derivable_pt_abs. repeat der1. }
  assert (D2 : exists d', 0 < d' <= d /\ forall s, s < x + d' -> below (l1x s1) s).
  { destruct (Z.eq_dec (abc (l1x s1)) NATURALBC) as [E|E].
    - specialize (H E). pose proof (Rmin_l d (amax (l1x s1) - x)). pose proof (Rmin_r d (amax (l1x s1) - x)).
      exists (Rmin d (amax (l1x s1) - x)). split; [split; [apply Rmin_pos|]; lra|]. intros s L _. lra.
    - exists d. split; [lra|]. intros s _ K. easy. }
  destruct D2 as (d' & Dd & Bl).
  eapply (glue_cont _ (fun s => line (aget (l1c s1) il) (aget (l1c s1) il') ((s - el) / agrid (l1x s1)))
                      (fun s => line (aget (l1c s1) ir) (aget (l1c s1) ir') ((s - er) / agrid (l1x s1))) x d'); auto; try lra.
  - intros s S. erewrite lint1_cell; [reflexivity | apply A; lra | apply Bl; lra].
  - intros s S. erewrite lint1_cell; [reflexivity | apply B; lra | apply Bl; lra].
Qed.

Variable s2 : linint2D.
Hypothesis O2x : axis_ok (l2x s2).
Hypothesis O2y : axis_ok (l2y s2).
Hypothesis Z2 : asize (l2c s2) = (an (l2x s2) * an (l2y s2))%Z.
Definition c2 i j := aget (l2c s2) (j * an (l2x s2) + i)%Z.
Theorem lint2_cell : forall x y i i' t j j' u,
  on_cell (l2x s2) x i i' t -> below (l2x s2) x -> on_cell (l2y s2) y j j' u -> below (l2y s2) y ->
  linint2D_eval_f s2 x y = Val (line (line (c2 i j) (c2 i' j) t) (line (c2 i j') (c2 i' j') t) u).
Proof.
  intros x y i i' t j j' u C B C' B'. destruct (lin_located _ _ _ _ _ O2x C B) as (Q & I & I' & _ & L).
  destruct (lin_located _ _ _ _ _ O2y C' B') as (Q' & J & J' & _ & L').
  unfold linint2D_eval_f. rewrite Q, Q'. cbn [orb]. rewrite (jump_stride (l2y s2)).
  set (ix := index_lin (l2x s2) _) in *. set (iy := index_lin (l2y s2) _) in *.
  set (nx := an (l2x s2)) in *. set (ny := an (l2y s2)) in *.
  set (ix' := (ix + jump (l2x s2) ix 1)%Z) in *. set (iy' := (iy + jump (l2y s2) iy 1)%Z) in *.
  replace (iy * nx + ix + jump (l2x s2) ix 1)%Z with (iy * nx + ix')%Z by (unfold ix'; ring).
  replace (iy * nx + ix + nx * jump (l2y s2) iy 1 + jump (l2x s2) ix 1)%Z with (iy' * nx + ix')%Z by (unfold ix', iy'; ring).
  replace (iy * nx + ix + nx * jump (l2y s2) iy 1)%Z with (iy' * nx + ix)%Z by (unfold iy'; ring).
  rewrite reading_ok.
  - f_equal. unfold line, c2. fold nx. destruct L as [(-> & -> & ->)|(-> & -> & ->)]; destruct L' as [(-> & -> & ->)|(-> & -> & ->)]; ring.
  - rewrite Z2. intros k [<-|[<-|[<-|[<-|[]]]]]; nia.
Qed.
Theorem lint2_err : forall x y, linint2D_eval_f s2 x y = Err <->
  (abc (l2x s2) = NATURALBC /\ ~ (amin (l2x s2) <= x <= amax (l2x s2))) \/ (abc (l2y s2) = NATURALBC /\ ~ (amin (l2y s2) <= y <= amax (l2y s2))).
Proof.
  intros x y. unfold linint2D_eval_f. rewrite <- (outside_true _ _ (index_lin (l2x s2) (wrap (l2x s2) x)) O2x).
  rewrite <- (outside_true _ _ (index_lin (l2y s2) (wrap (l2y s2) y)) O2y).
  destruct (outside (l2x s2) _ _), (outside (l2y s2) _ _); cbn [orb]; split; auto; try tauto; unfold reading; destruct (forallb _ _);
    try discriminate; intros [|]; discriminate.
Qed.

Variable s3 : linint3D.
Hypothesis O3x : axis_ok (l3x s3).
Hypothesis O3y : axis_ok (l3y s3).
Hypothesis O3z : axis_ok (l3z s3).
Hypothesis Z3 : asize (l3c s3) = (an (l3x s3) * an (l3y s3) * an (l3z s3))%Z.
(** the fastest index is x, then z, then y *)
Definition c3 i j k := aget (l3c s3) ((j * an (l3z s3) + k) * an (l3x s3) + i)%Z.
Theorem lint3_cell : forall x y z i i' t j j' u k k' v,
  on_cell (l3x s3) x i i' t -> below (l3x s3) x -> on_cell (l3y s3) y j j' u -> below (l3y s3) y ->
  on_cell (l3z s3) z k k' v -> below (l3z s3) z ->
  linint3D_eval_f s3 x y z =
    Val (line (line (line (c3 i j k) (c3 i' j k) t) (line (c3 i j k') (c3 i' j k') t) v)
              (line (line (c3 i j' k) (c3 i' j' k) t) (line (c3 i j' k') (c3 i' j' k') t) v) u).
Proof.
  intros x y z i i' t j j' u k k' v C B C' B' C'' B''. destruct (lin_located _ _ _ _ _ O3x C B) as (Q & I & I' & _ & L).
  destruct (lin_located _ _ _ _ _ O3y C' B') as (Q' & J & J' & _ & L').
  destruct (lin_located _ _ _ _ _ O3z C'' B'') as (Q'' & K & K' & _ & L'').
  unfold linint3D_eval_f. rewrite Q, Q', Q''. cbn [orb]. rewrite (jump_stride (l3y s3)), (jump_stride (l3z s3) _ (an (l3x s3))).
  set (ix := index_lin (l3x s3) _) in *. set (iy := index_lin (l3y s3) _) in *. set (iz := index_lin (l3z s3) _) in *.
  set (nx := an (l3x s3)) in *. set (ny := an (l3y s3)) in *. set (nz := an (l3z s3)) in *.
  set (ix' := (ix + jump (l3x s3) ix 1)%Z) in *. set (iy' := (iy + jump (l3y s3) iy 1)%Z) in *. set (iz' := (iz + jump (l3z s3) iz 1)%Z) in *.
  set (id i j k := ((j * nz + k) * nx + i)%Z).
  assert (PID : forall a b c, (0 <= a < nx)%Z -> (0 <= b < ny)%Z -> (0 <= c < nz)%Z -> (0 <= id a b c < nx * ny * nz)%Z).
  { intros a b c A1 B1 C1. unfold id. assert (0 <= b * nz + c)%Z by nia. assert (b * nz + c < ny * nz)%Z by nia. nia. }
  replace (iy * nz * nx + iz * nx + ix)%Z with (id ix iy iz) by (unfold id; ring).
  replace (id ix iy iz + jump (l3x s3) ix 1)%Z with (id ix' iy iz) by (unfold id, ix'; ring).
  replace (id ix iy iz + nz * nx * jump (l3y s3) iy 1)%Z with (id ix iy' iz) by (unfold id, iy'; ring).
  replace (id ix iy iz + nx * jump (l3z s3) iz 1)%Z with (id ix iy iz') by (unfold id, iz'; ring).
  replace (id ix iy' iz + jump (l3x s3) ix 1)%Z with (id ix' iy' iz) by (unfold id, ix'; ring).
  replace (id ix iy iz' + jump (l3x s3) ix 1)%Z with (id ix' iy iz') by (unfold id, ix'; ring).
  replace (id ix iy' iz + nx * jump (l3z s3) iz 1)%Z with (id ix iy' iz') by (unfold id, iz'; ring).
  replace (id ix iy' iz' + jump (l3x s3) ix 1)%Z with (id ix' iy' iz') by (unfold id, ix'; ring).
  rewrite reading_ok.
  - f_equal. unfold c3. fold nz nx. unfold line, id.
    destruct L as [(-> & -> & ->)|(-> & -> & ->)]; destruct L' as [(-> & -> & ->)|(-> & -> & ->)];
      destruct L'' as [(-> & -> & ->)|(-> & -> & ->)]; ring.
  - rewrite Z3. fold nx ny nz. intros m M. repeat (destruct M as [<-|M]; [apply PID; assumption|]). destruct M.
Qed.
Theorem lint3_err : forall x y z, linint3D_eval_f s3 x y z = Err <->
  (abc (l3x s3) = NATURALBC /\ ~ (amin (l3x s3) <= x <= amax (l3x s3))) \/ (abc (l3y s3) = NATURALBC /\ ~ (amin (l3y s3) <= y <= amax (l3y s3)))
  \/ (abc (l3z s3) = NATURALBC /\ ~ (amin (l3z s3) <= z <= amax (l3z s3))).
Proof.
  intros x y z. unfold linint3D_eval_f. rewrite <- (outside_true _ _ (index_lin (l3x s3) (wrap (l3x s3) x)) O3x).
  rewrite <- (outside_true _ _ (index_lin (l3y s3) (wrap (l3y s3) y)) O3y), <- (outside_true _ _ (index_lin (l3z s3) (wrap (l3z s3) z)) O3z).
  destruct (outside (l3x s3) _ _), (outside (l3y s3) _ _), (outside (l3z s3) _ _); cbn [orb]; split; auto; try tauto; unfold reading;
    destruct (forallb _ _); try discriminate; intros [|[|]]; discriminate.
Qed.
(** at the upper end of the slowest natural direction the table is overrun *)
Theorem lint3_end : forall x y t, t < 1 -> abc (l3z s3) = NATURALBC -> abc (l3y s3) = PERIODICBC ->
  on_cell (l3y s3) y (an (l3y s3) - 1) 0 t -> (abc (l3x s3) = NATURALBC -> amin (l3x s3) <= x <= amax (l3x s3)) ->
  linint3D_eval_f s3 x y (amax (l3z s3)) = Oob.
Proof.
  intros x y t T1 Bz By C X. destruct (axis_nat _ O3z Bz) as (N & G & M).
  destruct (lin_located _ _ _ _ _ O3y C) as (Q' & J & J' & _ & L'). { intros K. rewrite By in K. discriminate. }
  destruct L' as [(Ei & Ei' & _)|(T & _)]; [|lra].
  unfold linint3D_eval_f. rewrite Q', (wrap_nat (l3z s3)) by auto.
  assert (Q : forall i, outside (l3x s3) (wrap (l3x s3) x) i = false).
  { intros i. clear Q'. destruct (outside _ _ _) eqn:E; auto. apply (outside_true _ x i O3x) in E. destruct E as [E E']. elim E'. auto. }
  assert (Q2 : outside (l3z s3) (amax (l3z s3)) (index_lin (l3z s3) (amax (l3z s3))) = false).
  { apply outside_nat; auto. destruct O3z. lra. }
  rewrite Q, Q2. cbn [orb]. rewrite (jump_nat (l3z s3)) by auto.
  assert (EZ : index_lin (l3z s3) (amax (l3z s3)) = (an (l3z s3) - 1)%Z).
  { unfold index_lin. rewrite M. apply trunc_unique; replace ((_ - _) / _) with (IZR (an (l3z s3)) - 1) by (field; lra); rewrite ?minus_IZR; try lra.
    assert (2 <= IZR (an (l3z s3))) by now apply IZR_le. lra. }
  rewrite EZ, Ei. set (ix := index_lin (l3x s3) _).
  assert (IX : (0 <= ix)%Z).
  { unfold ix. pose proof O3x as (A1 & _ & [[A2 _]|[A2 _]]).
    - rewrite wrap_nat by auto. specialize (X A2). destruct (axis_nat _ O3x A2) as (_ & Gx & _). unfold index_lin.
      assert (0 <= (x - amin (l3x s3)) / agrid (l3x s3)) by (apply Rle_mult_inv_pos; lra). destruct (trunc_pos _ H) as [TT1 TT2].
      assert (-1 < IZR (trunc ((x - amin (l3x s3)) / agrid (l3x s3)))) by lra. apply lt_IZR in H0. lia.
    - destruct (wrap_per _ x O3x A2) as (m & _ & W & _). destruct (axis_per _ O3x A2) as (_ & Gx & _). unfold index_lin.
      assert (0 <= (wrap (l3x s3) x - amin (l3x s3)) / agrid (l3x s3)) by (apply Rle_mult_inv_pos; lra). destruct (trunc_pos _ H) as [TT1 TT2].
      assert (-1 < IZR (trunc ((wrap (l3x s3) x - amin (l3x s3)) / agrid (l3x s3)))) by lra. apply lt_IZR in H0. lia. }
  eapply reading_bad. { do 4 right. left. reflexivity. }
  rewrite Z3. assert (0 <= an (l3x s3))%Z by (destruct O3x as (_ & _ & [[_ A]|[_ A]]); lia). nia.
Qed.
End L.

(** corollaries in one dimension *)
Theorem lint1_between : forall s, axis_ok (l1x s) -> asize (l1c s) = an (l1x s) -> forall lo hi x,
  (forall i, (0 <= i < an (l1x s))%Z -> between lo hi (aget (l1c s) i)) ->
  (abc (l1x s) = NATURALBC -> amin (l1x s) <= x < amax (l1x s)) ->
  exists v, linint1D_eval_f s x = Val v /\ between lo hi v.
Proof.
  intros s O Z lo hi x D X. destruct (on_cell_ex _ x O) as (i & i' & t & C). { intros B; specialize (X B); lra. }
  eexists. split. { eapply lint1_cell; eauto. intros B; specialize (X B); lra. }
  destruct (lin_located _ _ _ _ _ O C) as (_ & I & J & _ & L). { intros B; specialize (X B); lra. }
  assert ((0 <= i < an (l1x s))%Z /\ (0 <= i' < an (l1x s))%Z) as [Ii Ii'].
  { destruct C as [T [(B & (I1 & I2 & I3) & _)|(B & k & -> & -> & _)]]; [lia|]. destruct (axis_per _ O B) as (N & _).
    pose proof (Z.mod_pos_bound k (an (l1x s)) ltac:(lia)). pose proof (Z.mod_pos_bound (k + 1) (an (l1x s)) ltac:(lia)). lia. }
  apply line_between; auto. apply C.
Qed.
