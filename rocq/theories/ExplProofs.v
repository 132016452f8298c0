(** Proofs about the splines stored as cell polynomials. *)
From Coq Require Import Reals List Arith ZArith Bool Lra Lia.
From Verif Require Import Deriv AxisModel AxisProofs Glue LintProofs SplineModel SplineProofs SplineUniq TensorProofs Spl2Model Spl2Proofs Spl3Model Spl3Proofs ExplModel.
Import ListNotations.
Local Open Scope R_scope.

(** ** The two forms of a row agree, cell by cell *)
Section row.
Variables (f : nat -> R) (n : nat) (bc : Z) (mn mx : R).
Hypothesis EN : enough n bc.
Hypothesis MM : mn < mx.
Let a := mk_axis (Z.of_nat n) bc mn mx.
Let O : axis_ok a := enough_axis n bc mn mx EN MM.
Let h := agrid a.
Let d := first f n bc.
Definition rc (z : Z) : R := second f n bc (Z.to_nat z) / (h * h).
Lemma row_values : forall x, mn <= x <= mx -> ev a (WH0 (zdata f) (zdata d)) x = ev a (WE E0 a (zdata f) rc) x.
Proof.
  intros x X.
  destruct (splineexpl (fun _ => 0) (fun _ => 0) f n bc) as [| |c] eqn:SE.
  1,2: unfold splineexpl in SE; rewrite splineexpl_d_val in SE by auto; discriminate.
  pose (s := I1 a (Arr (4 * Z.of_nat n) c)).
  assert (S1 : interp1Dexpl_setup (fun _ => 0) (fun _ => 0) f n bc mn mx = Val s) by (unfold interp1Dexpl_setup; rewrite SE; reflexivity).
  assert (S2 : exists s', interp1Dcomp_setup (fun _ => 0) f n bc mn mx = Val s').
  { unfold interp1Dcomp_setup. rewrite (enough_valid n bc EN), splinecomp_val by auto. eauto. }
  destruct S2 as [s' S2].
  eapply (spline_unique n bc mn mx f); [exact EN | exact MM | eapply expl_spec; eauto | eapply comp_spec; eauto | exact X].
Qed.
Lemma cell_rel : forall i, (0 <= i < Z.of_nat n)%Z -> (bc = NATURALBC -> i < Z.of_nat n - 1)%Z -> let i' := (i + jump a i 1)%Z in
  zdata d i = zdata f i' - zdata f i - h * h / 6 * (2 * rc i + rc i') /\
  zdata d i' = zdata f i' - zdata f i + h * h / 6 * (rc i + 2 * rc i').
Proof.
  intros i I B i'. pose proof (grid_pos a O) as G. fold h in G.
  destruct (first_espl a f n O eq_refl EN) as [S _]. change (espl a (zdata f) (zdata d)) in S.
  destruct (fits_H a (zdata f) (zdata d) ltac:(fold h; lra) S) as (FH & _).
  assert (P : forall t, 0 < t < 1 -> H0 (zdata f i) (zdata f i') (zdata d i) (zdata d i') t = E0 h (zdata f i) (zdata f i') (rc i) (rc i') t).
  { intros t T. assert (C : on_cell a (mn + (IZR i + t) * h) i i' t).
    { split; [lra|]. destruct EN as [[B0 N]|[B0 N]].
      - left. split; [exact B0|]. unfold i'. rewrite jump_nat by exact B0. specialize (B B0). split; [|reflexivity]. cbn [an a mk_axis]. lia.
      - right. split; [exact B0|]. exists i. split; [symmetry; apply Z.mod_small; exact I|]. split; [|reflexivity].
        unfold i', jump. cbn [abc an a mk_axis]. rewrite B0. cbn [Z.eqb PERIODICBC Pos.eqb andb].
        destruct (Z.eqb_spec i (Z.of_nat n - 1)).
        + subst i. replace (Z.of_nat n - 1 + 1)%Z with (Z.of_nat n) by ring. rewrite Z_mod_same_full. lia.
        + rewrite Z.mod_small by lia. reflexivity. }
    assert (X : mn <= mn + (IZR i + t) * h <= mx).
    { destruct I as [I1 I2]. apply IZR_le in I1. split; [nra|].
      destruct EN as [[B0 N]|[B0 N]].
      - destruct (axis_nat a O B0) as (_ & _ & M). fold h in M. cbn [amin amax an a mk_axis] in M. specialize (B B0).
        assert (IZR i + 1 <= IZR (Z.of_nat n) - 1) by (rewrite <- plus_IZR, <- minus_IZR; apply IZR_le; lia). rewrite M. assert ((IZR i + t) * h <= (IZR (Z.of_nat n) - 1) * h) by (apply Rmult_le_compat_r; lra). lra.
      - destruct (axis_per a O B0) as (_ & _ & M). fold h in M. cbn [amin amax an a mk_axis] in M.
        assert (IZR i + 1 <= IZR (Z.of_nat n)) by (rewrite <- plus_IZR; apply IZR_le; lia). rewrite M. assert ((IZR i + t) * h <= IZR (Z.of_nat n) * h) by (apply Rmult_le_compat_r; lra). lra. }
    pose proof (row_values _ X) as E. rewrite (ev_cells a _ O FH _ _ _ _ C), (ev_cells a _ O (fits_E0 a (zdata f) rc) _ _ _ _ C) in E. exact E. }
  pose proof (P (1 / 3) ltac:(lra)) as P1. pose proof (P (2 / 3) ltac:(lra)) as P2. unfold H0, E0 in P1, P2.
  set (q := h * h / 6) in *. clearbody q. set (u := zdata f i) in *. set (v := zdata f i') in *. set (D := zdata d i) in *. set (D' := zdata d i') in *.
  set (r := rc i) in *. set (r' := rc i') in *. clearbody u v D D' r r'. clear - P1 P2.
  set (w := q * r). set (w' := q * r'). 
  assert (Q1 : 4 * D - 2 * D' = 2 * (v - u) - 10 * w - 8 * w') by (unfold w, w'; lra).
  assert (Q2 : 2 * D - 4 * D' = -2 * (v - u) - 8 * w - 10 * w') by (unfold w, w'; lra).
  split; unfold w, w' in *; lra.
Qed.
End row.

(** ** Weights of the polynomial coefficients *)
Definition form (m : nat) : cellform := match m with O => E0 | S O => E1 | _ => E2 end.
Lemma linear_form : forall m, linear (form m).
Proof. intros [|[|m]]; [apply linear_E0|apply linear_E1|apply linear_E2]. Qed.
Definition wt (m : nat) (gi t : R) (k : nat) : R :=
  match m with
  | O => match k with 0%nat => 1 | 1%nat => t | 2%nat => t * t | _ => t * t * t end
  | S O => match k with 0%nat => 0 | 1%nat => gi | 2%nat => gi * (2 * t) | _ => gi * (3 * (t * t)) end
  | _ => match k with 0%nat => 0 | 1%nat => 0 | 2%nat => gi * gi * 2 | _ => gi * gi * (6 * t) end
  end.
Definition pol (w : nat -> R) (c : Z -> R) : R := w 0%nat * c 0%Z + w 1%nat * c 1%Z + w 2%nat * c 2%Z + w 3%nat * c 3%Z.
Lemma pol_swap : forall w w' c, pol w (fun p => pol w' (c p)) = pol w' (fun q => pol w (fun p => c p q)).
Proof. intros. unfold pol. ring. Qed.
Lemma pol_ext : forall w c c', (forall k, (0 <= k < 4)%Z -> c k = c' k) -> pol w c = pol w c'.
Proof. intros w c c' H. unfold pol. rewrite !H by lia. reflexivity. Qed.
Lemma second_pol : forall w (g : Z -> nat -> R) n bc i, second (fun k => pol w (fun s => g s k)) n bc i = pol w (fun s => second (g s) n bc i).
Proof.
  intros. unfold pol. transitivity (second (fun k => 1 * (w 0%nat * g 0%Z k + w 1%nat * g 1%Z k) + 1 * (w 2%nat * g 2%Z k + w 3%nat * g 3%Z k)) n bc i).
  - apply second_ext. intros. ring.
  - rewrite (second_lin 1 1), !second_lin. ring.
Qed.
Lemma along_pol : forall a E x, linear E -> forall w (g G : Z -> Z -> R),
  along a E (fun z => pol w (fun s => g s z)) (fun z => pol w (fun s => G s z)) x = pol w (fun s => along a E (g s) (G s) x).
Proof. intros a E x L w g G. destruct (along_lin a E x L) as (i & i' & u1 & u2 & u3 & u4 & H). unfold pol. rewrite !H. ring. Qed.

(** the curve through a row of data *)
Definition thru (a : axis) (n : nat) (f : nat -> R) (m : nat) (x : R) : R :=
  along a (form m) (fun z => f (Z.to_nat z)) (fun z => second f n (abc a) (Z.to_nat z) / (agrid a * agrid a)) x.
Lemma thru_ext : forall a n f g m x, (forall k, f k = g k) -> thru a n f m x = thru a n g m x.
Proof. intros. unfold thru. apply along_ext; intros; [auto|]. f_equal. apply second_ext. auto. Qed.
Lemma thru_pol : forall a n w (g : Z -> nat -> R) m x, thru a n (fun k => pol w (fun s => g s k)) m x = pol w (fun s => thru a n (g s) m x).
Proof.
  intros. unfold thru. rewrite <- along_pol by apply linear_form. apply along_ext; intros; [reflexivity|].
  rewrite second_pol. unfold pol, Rdiv. ring.
Qed.
(** the cell index and the position in the cell *)
Definition cix (a : axis) (x : R) : Z := index_spl a (wrap a x).
Definition cfr (a : axis) (x : R) : R := frac a (wrap a x) (cix a x).
Lemma row_along : forall f n bc mn mx m x, enough n bc -> mn < mx -> covered bc mn mx x -> let a := mk_axis (Z.of_nat n) bc mn mx in
  pol (wt m (1 / agrid a) (cfr a x)) (expl_coeff f (first f n bc) n (Z.to_nat (cix a x))) = thru a n f m x.
Proof.
  intros f n bc mn mx m x EN MM C a. pose proof (enough_axis n bc mn mx EN MM) as O. fold a in O. pose proof (grid_pos a O) as G.
  destruct (eval_index a x O C) as (_ & I & J). fold (cix a x) in I, J. change (an a) with (Z.of_nat n) in *.
  assert (IB : (bc = NATURALBC -> cix a x < Z.of_nat n - 1)%Z). { intros B. rewrite jump_nat in J by auto. lia. }
  destruct (cell_rel f n bc mn mx EN MM (cix a x) I IB) as [R1 R2]. cbv zeta in R1, R2. fold a in R1, R2.
  assert (NX : Z.to_nat (cix a x + jump a (cix a x) 1) = (if (Z.to_nat (cix a x) =? n - 1) then 0 else Z.to_nat (cix a x) + 1)%nat).
  { unfold jump. cbn [abc an a mk_axis]. fold a. destruct EN as [[B N]|[B N]]; rewrite B; cbn [Z.eqb PERIODICBC NATURALBC Pos.eqb andb].
    - specialize (IB B). destruct (Nat.eqb_spec (Z.to_nat (cix a x)) (n - 1)); lia.
    - destruct (Z.eqb_spec (cix a x) (Z.of_nat n - 1)), (Nat.eqb_spec (Z.to_nat (cix a x)) (n - 1)); lia. }
  unfold thru, along, ev. cbv zeta. fold (cix a x). fold (cfr a x). unfold WE. change (abc a) with bc. unfold pol, expl_coeff. cbn [Z.eqb Pos.eqb]. rewrite <- NX.
  set (i := cix a x) in *. set (i' := (i + jump a i 1)%Z) in *. set (t := cfr a x). unfold zdata in R1, R2. rewrite R1, R2. unfold rc.
  fold a. set (h := agrid a) in *. set (A := second f n bc (Z.to_nat i)). set (B := second f n bc (Z.to_nat i')). clearbody A B t h.
  destruct m as [|[|m]]; cbn [wt form]; unfold E0, E1, E2; field; lra.
Qed.
Lemma thru_comb : forall a n m x w1 w2 w3 w4 g1 g2 g3 g4,
  thru a n (fun k => w1 * g1 k + w2 * g2 k + w3 * g3 k + w4 * g4 k) m x =
  w1 * thru a n g1 m x + w2 * thru a n g2 m x + w3 * thru a n g3 m x + w4 * thru a n g4 m x.
Proof.
  intros. pose (w := fun k : nat => match k with 0%nat => w1 | 1%nat => w2 | 2%nat => w3 | _ => w4 end).
  pose (g := fun z : Z => if (z =? 0)%Z then g1 else if (z =? 1)%Z then g2 else if (z =? 2)%Z then g3 else g4).
  exact (thru_pol a n w g m x).
Qed.
Lemma thru_lin : forall a m x, exists i i' w1 w2 w3 w4, (forall g G, along a (form m) g G x = w1 * g i + w2 * g i' + w3 * G i + w4 * G i') /\
  forall n f, thru a n f m x = w1 * f (Z.to_nat i) + w2 * f (Z.to_nat i') +
    w3 * (second f n (abc a) (Z.to_nat i) / (agrid a * agrid a)) + w4 * (second f n (abc a) (Z.to_nat i') / (agrid a * agrid a)).
Proof.
  intros. destruct (along_lin a (form m) x (linear_form m)) as (i & i' & w1 & w2 & w3 & w4 & H). exists i, i', w1, w2, w3, w4. split; [exact H|]. intros. unfold thru. now rewrite H.
Qed.

(** ** The polynomial of a cell *)
Lemma splineexpl_complete : forall junkd junk f n bc, enough n bc -> complete (splineexpl junkd junk f n bc) = true.
Proof. intros. unfold splineexpl. now rewrite splineexpl_d_val. Qed.
Lemma poly_coeff : forall junkd junk f n bc i k, enough n bc -> (i < n)%nat -> (bc = NATURALBC -> i < n - 1)%nat -> (0 <= k < 4)%Z ->
  poly junkd junk f n bc i k = expl_coeff f (first f n bc) n i k.
Proof.
  intros junkd junk f n bc i k EN I B K. unfold poly, splineexpl. rewrite splineexpl_d_val by auto.
  rewrite Z.add_comm. rewrite Z_mod_plus_full, Z_div_plus_full by lia. rewrite (Z.div_small k), (Z.mod_small k) by lia. rewrite Z.add_0_l, Nat2Z.id.
  destruct (_ && _)%bool eqn:Q; auto. exfalso. apply andb_false_iff in Q. destruct Q as [Q|Q].
  - apply Z.leb_gt in Q. lia.
  - apply Z.ltb_ge in Q. destruct EN as [[-> _]|[-> _]]; cbn [Z.eqb NATURALBC PERIODICBC Pos.eqb] in Q; [specialize (B eq_refl)|]; lia.
Qed.
Lemma coeff_ext : forall f g n bc i k, (forall q, f q = g q) -> expl_coeff f (first f n bc) n i k = expl_coeff g (first g n bc) n i k.
Proof. intros f g n bc i k H. replace g with f; [reflexivity|]. now apply FunctionalExtensionality.functional_extensionality. Qed.
Lemma poly_ext : forall junkd junk f g n bc i k, (forall q, f q = g q) -> poly junkd junk f n bc i k = poly junkd junk g n bc i k.
Proof. intros jd jk f g n bc i k H. replace g with f; [reflexivity|]. now apply FunctionalExtensionality.functional_extensionality. Qed.

Lemma in_range : forall a x, axis_ok a -> covered (abc a) (amin a) (amax a) x -> outside_e a (wrap a x) = false.
Proof.
  intros a x O C. unfold outside_e. pose proof O as (_ & _ & [[B _]|[B _]]).
  - rewrite wrap_nat by auto. specialize (C B). destruct (Rle_dec (amin a) x); [|lra]. destruct (Rle_dec x (amax a)); [|lra]. apply andb_false_r.
  - rewrite B. reflexivity.
Qed.
Lemma out_of_range : forall a x, abc a = NATURALBC -> ~ (amin a <= x <= amax a) -> outside_e a (wrap a x) = true.
Proof.
  intros a x B H. unfold outside_e. rewrite wrap_nat by auto. rewrite B. cbn [Z.eqb NATURALBC andb].
  destruct (Rle_dec (amin a) x); auto. destruct (Rle_dec x (amax a)); auto; exfalso; lra.
Qed.

(** *** Positions whose cell is filled *)
(** x lies in the last cell of a period, between the last node and the first one
    of the next period *)
Definition closing (n : nat) (bc : Z) (mn mx x : R) : Prop :=
  bc = PERIODICBC /\ exists k, mx - step n bc mn mx <= x + IZR k * (mx - mn) < mx.
Lemma cix_range : forall n bc mn mx x, enough n bc -> mn < mx -> covered bc mn mx x -> let a := mk_axis (Z.of_nat n) bc mn mx in
  (0 <= cix a x < Z.of_nat n)%Z /\ (bc = NATURALBC -> cix a x < Z.of_nat n - 1)%Z /\ 0 <= cfr a x /\ outside_e a (wrap a x) = false.
Proof.
  intros n bc mn mx x EN MM C a. pose proof (enough_axis n bc mn mx EN MM) as O. fold a in O.
  destruct (eval_index a x O C) as (_ & I & J). fold (cix a x) in I, J. change (an a) with (Z.of_nat n) in *.
  split; [exact I|]. split; [intros B; rewrite jump_nat in J by auto; lia|]. split; [|apply in_range; auto].
  destruct (on_cell_ex a x O C) as (i & i' & t & CC). pose proof (spl_located a x i i' t O CC) as (_ & _ & _ & _ & L). fold (cix a x) in L. fold (cfr a x) in L.
  destruct CC as [T _]. destruct L as [(_ & _ & L)|(_ & _ & L)]; lra.
Qed.
Lemma closing_cix : forall n bc mn mx x, enough n bc -> mn < mx -> bc = PERIODICBC -> let a := mk_axis (Z.of_nat n) bc mn mx in
  closing n bc mn mx x <-> cix a x = (Z.of_nat n - 1)%Z.
Proof.
  intros n bc mn mx x EN MM B a. pose proof (enough_axis n bc mn mx EN MM) as O. fold a in O. pose proof (grid_pos a O) as G.
  destruct (wrap_per a x O B) as (m & W & R1 & R2). destruct (axis_per a O B) as (N & _ & M).
  assert (C : covered bc mn mx x) by (unfold covered; rewrite B; discriminate). destruct (cix_range n bc mn mx x EN MM C) as (I & _ & T & _). fold a in I, T.
  assert (H : step n bc mn mx = agrid a) by (symmetry; apply (grid_step_step n bc mn mx EN)).
  cbn [an amin amax a mk_axis] in *. fold a in W, R1, R2, M, G.
  assert (P : IZR (Z.of_nat n) * agrid a = mx - mn) by lra. rewrite P in W.
  assert (E : wrap a x = mn + (IZR (cix a x) + cfr a x) * agrid a). { unfold cfr, frac. cbn [amin a mk_axis]. fold a. field. lra. }
  unfold closing. rewrite H. split.
  - intros (_ & k & K1 & K2).
    assert (Q : (k = - m)%Z).
    { assert (D : wrap a x = x + IZR k * (mx - mn) - IZR (k + m) * (mx - mn)) by (rewrite plus_IZR, W; ring).
      assert (A1 : IZR (k + m) < 1). { apply Rnot_le_lt. intros L. apply (Rmult_le_compat_r (mx - mn)) in L; lra. }
      assert (A2 : -1 < IZR (k + m)). { apply Rnot_le_lt. intros L. apply (Rmult_le_compat_r (mx - mn)) in L; [|lra].
        assert (agrid a <= mx - mn) by (rewrite <- P; assert (1 <= IZR (Z.of_nat n)) by (apply IZR_le; lia); nra). lra. }
      apply lt_IZR in A1, A2. lia. }
    subst k. rewrite opp_IZR in K1, K2. unfold cix, index_spl. cbn [amin amax a mk_axis]. fold a. destruct (Req_EM_T _ _); [lra|].
    rewrite Rmult_0_r, Rminus_0_r.
    assert (F : (wrap a x - mn) / agrid a = IZR (Z.of_nat n) - (mx - wrap a x) / agrid a). { replace mx with (mn + IZR (Z.of_nat n) * agrid a) by lra. field. lra. }
    assert (0 < (mx - wrap a x) / agrid a) by (apply Rdiv_lt_0_compat; lra).
    assert ((mx - wrap a x) / agrid a <= 1). { apply Rmult_le_reg_r with (agrid a); [lra|]. unfold Rdiv. rewrite Rmult_assoc, Rinv_l by lra. lra. }
    assert (1 <= IZR (Z.of_nat n)) by (apply IZR_le; lia).
    apply trunc_unique; rewrite ?minus_IZR, F; lra.
  - intros K. split; [exact B|]. exists (- m)%Z. rewrite opp_IZR. rewrite K, minus_IZR in E. split; nra.
Qed.
(** a node of a periodic row: nothing but the node itself is read there *)
Lemma cfr_zero : forall n bc mn mx x, enough n bc -> mn < mx -> bc = PERIODICBC -> closing n bc mn mx x ->
  let a := mk_axis (Z.of_nat n) bc mn mx in cfr a x = 0 -> exists k, x + IZR k * (mx - mn) = mx - step n bc mn mx.
Proof.
  intros n bc mn mx x EN MM B CL a F. pose proof (enough_axis n bc mn mx EN MM) as O. fold a in O. pose proof (grid_pos a O) as G.
  destruct (wrap_per a x O B) as (m & W & R1 & R2). destruct (axis_per a O B) as (N & _ & M).
  apply (closing_cix n bc mn mx x EN MM B) in CL. fold a in CL.
  assert (H : step n bc mn mx = agrid a) by (symmetry; apply (grid_step_step n bc mn mx EN)).
  cbn [an amin amax a mk_axis] in *. fold a in W, R1, R2, M, G. rewrite H. exists (- m)%Z. rewrite opp_IZR.
  assert (E : wrap a x = mn + (IZR (cix a x) + cfr a x) * agrid a). { unfold cfr, frac. cbn [amin a mk_axis]. fold a. field. lra. }
  rewrite F, CL, minus_IZR in E. nra.
Qed.

(** ** Surfaces *)
Section expl2.
Variables (junkd : nat -> R) (junk left : Z -> R) (f : nat -> R) (nx ny : nat) (bcx bcy : Z) (xmn xmx ymn ymx : R) (s : interp2D).
Hypothesis ENX : enough nx bcx.
Hypothesis ENY : enough ny bcy.
Hypothesis MX : xmn < xmx.
Hypothesis MY : ymn < ymx.
Hypothesis SET : interp2Dexpl_setup junkd junk left f nx ny bcx bcy xmn xmx ymn ymx = Val s.
Let ax := mk_axis (Z.of_nat nx) bcx xmn xmx.
Let ay := mk_axis (Z.of_nat ny) bcy ymn ymx.
Definition xrow (k : nat) : nat -> R := fun q => f (k * nx + q)%nat.
Definition x1 (i : nat) (p : Z) (k : nat) : R := expl_coeff (xrow k) (first (xrow k) nx bcx) nx i p.
Definition e2 (i j : nat) (p q : Z) : R := expl_coeff (x1 i p) (first (x1 i p) ny bcy) ny j q.
Lemma decode16 : forall i j q p, (0 <= i < Z.of_nat nx)%Z -> (0 <= j)%Z -> (0 <= p < 4)%Z -> (0 <= q < 4)%Z ->
  let m := (j * Z.of_nat nx * 16 + i * 16 + (4 * q + p))%Z in
  (m / (Z.of_nat nx * 16) = j /\ (m / 16) mod Z.of_nat nx = i /\ m mod 4 = p /\ (m / 4) mod 4 = q)%Z.
Proof.
  intros i j q p I J P Q m. unfold m. repeat split; symmetry.
  - apply (Z.div_unique_pos _ _ _ (i * 16 + (4 * q + p))); nia.
  - replace ((j * Z.of_nat nx * 16 + i * 16 + (4 * q + p)) / 16)%Z with (j * Z.of_nat nx + i)%Z by (apply (Z.div_unique_pos _ _ _ (4 * q + p)); lia).
    apply (Z.mod_unique_pos _ _ j); lia.
  - apply (Z.mod_unique_pos _ _ (j * Z.of_nat nx * 4 + i * 4 + q)); lia.
  - replace ((j * Z.of_nat nx * 16 + i * 16 + (4 * q + p)) / 4)%Z with (j * Z.of_nat nx * 4 + i * 4 + q)%Z by (apply (Z.div_unique_pos _ _ _ p); lia).
    apply (Z.mod_unique_pos _ _ (j * Z.of_nat nx + i)); lia.
Qed.
Lemma estate2 : i2x s = ax /\ i2y s = ay /\ asize (i2c s) = (Z.of_nat ny * Z.of_nat nx * 16)%Z /\
  (forall i j p q, (0 <= i < Z.of_nat nx)%Z -> (0 <= j < Z.of_nat ny)%Z -> (0 <= p < 4)%Z -> (0 <= q < 4)%Z ->
    let m := (j * Z.of_nat nx * 16 + i * 16 + (4 * q + p))%Z in
    ((i < Z.of_nat nx - 1)%Z -> (j < Z.of_nat ny - 1)%Z -> aget (i2c s) m = e2 (Z.to_nat i) (Z.to_nat j) p q) /\
    ((i < Z.of_nat nx - 1)%Z -> (j = Z.of_nat ny - 1)%Z -> aget (i2c s) m = if (q =? 0)%Z then x1 (Z.to_nat i) p (Z.to_nat j) else left m) /\
    ((i = Z.of_nat nx - 1)%Z -> aget (i2c s) m = left m)).
Proof.
  revert SET. unfold interp2Dexpl_setup. rewrite !splineexpl_complete by auto. cbn [andb]. cbv iota zeta.
  intros E. injection E as <-. cbn [i2x i2y i2c asize aget]. split; [|split; [|split]]; try reflexivity.
  cbv zeta. intros i j p q I J P Q. set (m := (j * Z.of_nat nx * 16 + i * 16 + (4 * q + p))%Z). destruct (decode16 i j q p I (proj1 J) P Q) as (D1 & D2 & D3 & D4). fold m in D1, D2, D3, D4.
  rewrite D1, D2, D3, D4. split; [|split].
  - intros I' J'. destruct (Nat.ltb_spec (Z.to_nat i) (nx - 1)); [|lia]. destruct (Nat.ltb_spec (Z.to_nat j) (ny - 1)); [|lia]. cbn [andb].
    rewrite poly_coeff by (auto; lia). unfold e2. apply coeff_ext. intros k. apply poly_coeff; auto; lia.
  - intros I' J'. destruct (Nat.ltb_spec (Z.to_nat i) (nx - 1)); [|lia]. destruct (Nat.ltb_spec (Z.to_nat j) (ny - 1)); [lia|]. cbn [andb].
    destruct (Z.eqb_spec q 0); [|reflexivity]. unfold x1. apply poly_coeff; auto; lia.
  - intros I'. destruct (Nat.ltb_spec (Z.to_nat i) (nx - 1)); [lia|]. cbn [andb]. destruct (q =? 0)%Z; reflexivity.
Qed.
(** the polynomial of a cell with its coefficients in an array *)
Definition p2 (n : Z) (ma mb : nat) (x y : R) : R :=
  pol (wt mb (1 / agrid ay) (cfr ay y)) (fun q => pol (wt ma (1 / agrid ax) (cfr ax x)) (fun p => aget (i2c s) (n + (4 * q + p))%Z)).
Definition nn2 (x y : R) : Z := (cix ay y * Z.of_nat nx * 16 + cix ax x * 16)%Z.
Lemma peval2 : forall x y, covered bcx xmn xmx x -> covered bcy ymn ymx y -> let n := nn2 x y in
  interp2Dexpl_eval_f s x y = Val (p2 n 0 0 x y) /\
  interp2Dexpl_eval_df s x y = Val (p2 n 0 0 x y, p2 n 1 0 x y, p2 n 0 1 x y, p2 n 2 0 x y, p2 n 0 2 x y, p2 n 1 1 x y).
Proof.
  intros x y CX CY n. destruct estate2 as (X & Y & Z1 & _).
  destruct (cix_range nx bcx xmn xmx x ENX MX CX) as (I & _ & _ & OX). destruct (cix_range ny bcy ymn ymx y ENY MY CY) as (J & _ & _ & OY). fold ax in I, OX. fold ay in J, OY.
  unfold interp2Dexpl_eval_f, interp2Dexpl_eval_df. rewrite X, Y. cbv zeta. rewrite OX, OY. cbn [orb].
  fold (cix ax x) (cix ay y). fold (cfr ax x) (cfr ay y). change (an ax) with (Z.of_nat nx). fold (nn2 x y). fold n.
  rewrite !reading_ok.
  2, 3: rewrite Z1; intros e E; apply in_map_iff in E; destruct E as (k & <- & K); apply in_seq in K; unfold n, nn2;
        assert (cix ay y * Z.of_nat nx <= (Z.of_nat ny - 1) * Z.of_nat nx)%Z by nia; assert (0 <= cix ay y * Z.of_nat nx)%Z by nia; lia.
  unfold p2, pol, wt. cbn [Z.mul Z.add Pos.mul Pos.add]. clearbody n.
  generalize (1 / agrid ax) (1 / agrid ay) (cfr ax x) (cfr ay y). intros.
  split; apply (f_equal Val); [ring|]. repeat (apply pair_equal_spec; split); ring.
Qed.
Lemma esurf : forall ma mb x y, covered bcx xmn xmx x -> covered bcy ymn ymx y ->
  pol (wt mb (1 / agrid ay) (cfr ay y)) (fun q => pol (wt ma (1 / agrid ax) (cfr ax x)) (fun p => e2 (Z.to_nat (cix ax x)) (Z.to_nat (cix ay y)) p q)) =
  thru ay ny (fun k => thru ax nx (xrow k) ma x) mb y.
Proof.
  intros ma mb x y CX CY. rewrite pol_swap. unfold e2.
  transitivity (pol (wt ma (1 / agrid ax) (cfr ax x)) (fun p => thru ay ny (x1 (Z.to_nat (cix ax x)) p) mb y)).
  - apply pol_ext. intros p P. apply (row_along (x1 (Z.to_nat (cix ax x)) p) ny bcy ymn ymx mb y ENY MY CY).
  - rewrite <- thru_pol. apply thru_ext. intros k. apply (row_along (xrow k) nx bcx xmn xmx ma x ENX MX CX).
Qed.
End expl2.
Lemma t2_thru : forall f nx ny bcx bcy xmn xmx ymn ymx ma mb x y,
  t2 f nx ny bcx bcy xmn xmx ymn ymx (form ma) (form mb) x y =
  thru (mk_axis (Z.of_nat ny) bcy ymn ymx) ny (fun k => thru (mk_axis (Z.of_nat nx) bcx xmn xmx) nx (xrow f nx k) ma x) mb y.
Proof.
  intros. unfold t2, T2. set (ax := mk_axis (Z.of_nat nx) bcx xmn xmx). set (ay := mk_axis (Z.of_nat ny) bcy ymn ymx).
  destruct (thru_lin ax ma x) as (i & i' & w1 & w2 & w3 & w4 & HA & HX). destruct (thru_lin ay mb y) as (j & j' & u1 & u2 & u3 & u4 & KA & KY).
  rewrite HA, !KA.
  rewrite (thru_ext ay ny _ (fun k => w1 * xrow f nx k (Z.to_nat i) + w2 * xrow f nx k (Z.to_nat i') +
     w3 * (second (xrow f nx k) nx (abc ax) (Z.to_nat i) / (agrid ax * agrid ax)) + w4 * (second (xrow f nx k) nx (abc ax) (Z.to_nat i') / (agrid ax * agrid ax)))) by (intros; apply HX).
  rewrite (thru_comb ay ny mb y w1 w2 w3 w4 (fun k => xrow f nx k (Z.to_nat i)) (fun k => xrow f nx k (Z.to_nat i'))
     (fun k => second (xrow f nx k) nx (abc ax) (Z.to_nat i) / (agrid ax * agrid ax)) (fun k => second (xrow f nx k) nx (abc ax) (Z.to_nat i') / (agrid ax * agrid ax))).
  rewrite !KY. unfold k0, k1, k2, k3, xrow. cbn [abc ax ay mk_axis]. reflexivity.
Qed.
Lemma filled_cix : forall n bc mn mx x, enough n bc -> mn < mx -> covered bc mn mx x -> ~ closing n bc mn mx x ->
  (cix (mk_axis (Z.of_nat n) bc mn mx) x < Z.of_nat n - 1)%Z.
Proof.
  intros n bc mn mx x EN MM C NC. destruct (cix_range n bc mn mx x EN MM C) as (I & B & _). destruct EN as [[E N]|[E N]]; [auto|].
  pose proof (closing_cix n bc mn mx x (or_intror (conj E N)) MM E) as [_ K]. cbv zeta in K.
  destruct (Z.eq_dec (cix (mk_axis (Z.of_nat n) bc mn mx) x) (Z.of_nat n - 1)); [tauto|lia].
Qed.

Section expl2_spec.
Variables (junkd : nat -> R) (junk left : Z -> R) (f : nat -> R) (nx ny : nat) (bcx bcy : Z) (xmn xmx ymn ymx : R).
Hypothesis ENX : enough nx bcx.
Hypothesis ENY : enough ny bcy.
Hypothesis MX : xmn < xmx.
Hypothesis MY : ymn < ymx.
Let F := t2 f nx ny bcx bcy xmn xmx ymn ymx.
Lemma expl2_defined : exists s, interp2Dexpl_setup junkd junk left f nx ny bcx bcy xmn xmx ymn ymx = Val s.
Proof. unfold interp2Dexpl_setup. rewrite !splineexpl_complete by auto. cbn [andb]. eauto. Qed.
Lemma comp2_defined : exists s, interp2Dcomp_setup junkd f nx ny bcx bcy xmn xmx ymn ymx = Val s.
Proof. unfold interp2Dcomp_setup. rewrite (enough_valid nx bcx ENX), (enough_valid ny bcy ENY), !splinecomp_val by auto. cbn [andb complete]. eauto. Qed.
Lemma expl2_eval : forall s x y, interp2Dexpl_setup junkd junk left f nx ny bcx bcy xmn xmx ymn ymx = Val s ->
  covered bcx xmn xmx x -> covered bcy ymn ymx y -> ~ closing nx bcx xmn xmx x -> ~ closing ny bcy ymn ymx y ->
  interp2Dexpl_eval_f s x y = Val (F E0 E0 x y) /\
  interp2Dexpl_eval_df s x y = Val (F E0 E0 x y, F E1 E0 x y, F E0 E1 x y, F E2 E0 x y, F E0 E2 x y, F E1 E1 x y).
Proof.
  intros s x y SET CX CY NX NY.
  destruct (peval2 junkd junk left f nx ny bcx bcy xmn xmx ymn ymx s ENX ENY MX MY SET x y CX CY) as [-> ->].
  assert (K : forall ma mb, p2 nx ny bcx bcy xmn xmx ymn ymx s (nn2 nx ny bcx bcy xmn xmx ymn ymx x y) ma mb x y = F (form ma) (form mb) x y).
  { intros ma mb. unfold F. rewrite t2_thru, <- (esurf f nx ny bcx bcy xmn xmx ymn ymx) by auto. unfold p2. apply pol_ext. intros q Q. apply pol_ext. intros p P.
    destruct (estate2 junkd junk left f nx ny bcx bcy xmn xmx ymn ymx s ENX ENY SET) as (_ & _ & _ & H).
    destruct (cix_range nx bcx xmn xmx x ENX MX CX) as (I & _). destruct (cix_range ny bcy ymn ymx y ENY MY CY) as (J & _).
    destruct (H _ _ p q I J P Q) as (H' & _). unfold nn2. apply H'; apply filled_cix; auto. }
  rewrite !K. split; reflexivity.
Qed.
Lemma expl2_err : forall s x y, interp2Dexpl_setup junkd junk left f nx ny bcx bcy xmn xmx ymn ymx = Val s ->
  (bcx = NATURALBC /\ ~ (xmn <= x <= xmx)) \/ (bcy = NATURALBC /\ ~ (ymn <= y <= ymx)) ->
  interp2Dexpl_eval_f s x y = Err /\ interp2Dexpl_eval_df s x y = Err.
Proof.
  intros s x y SET H. destruct (estate2 junkd junk left f nx ny bcx bcy xmn xmx ymn ymx s ENX ENY SET) as (X & Y & _).
  unfold interp2Dexpl_eval_f, interp2Dexpl_eval_df. rewrite X, Y. cbv zeta. destruct H as [[B H]|[B H]].
  - rewrite (out_of_range _ x) by auto. auto.
  - rewrite (out_of_range (mk_axis (Z.of_nat ny) bcy ymn ymx) y) by auto. rewrite orb_true_r. auto.
Qed.
Lemma expl2_comp2 : forall junk' s s' x y, interp2Dexpl_setup junkd junk left f nx ny bcx bcy xmn xmx ymn ymx = Val s ->
  interp2Dcomp_setup junk' f nx ny bcx bcy xmn xmx ymn ymx = Val s' -> ~ closing nx bcx xmn xmx x -> ~ closing ny bcy ymn ymx y ->
  interp2Dexpl_eval_f s x y = interp2Dcomp_eval_f s' x y /\ interp2Dexpl_eval_df s x y = interp2Dcomp_eval_df s' x y.
Proof.
  intros junk' s s' x y SE SC NX NY.
  assert (D : forall bc mn mx v, covered bc mn mx v \/ (bc = NATURALBC /\ ~ (mn <= v <= mx))).
  { intros bc mn mx v. unfold covered. destruct (Z.eq_dec bc NATURALBC); [|left; tauto]. destruct (Rle_dec mn v); [|right; split; [auto|lra]].
    destruct (Rle_dec v mx); [left; auto|right; split; [auto|lra]]. }
  destruct (D bcx xmn xmx x) as [CX|CX]. 1: destruct (D bcy ymn ymx y) as [CY|CY].
  - destruct (expl2_eval s x y SE CX CY NX NY) as [-> ->]. destruct (eval2 junk' f nx ny bcx bcy xmn xmx ymn ymx s' ENX ENY MX MY SC x y CX CY) as [-> ->]. auto.
  - destruct (expl2_err s x y SE (or_intror CY)) as [-> ->]. destruct (err2 junk' f nx ny bcx bcy xmn xmx ymn ymx s' ENX ENY MX MY SC x y (or_intror CY)) as [-> ->]. auto.
  - destruct (expl2_err s x y SE (or_introl CX)) as [-> ->]. destruct (err2 junk' f nx ny bcx bcy xmn xmx ymn ymx s' ENX ENY MX MY SC x y (or_introl CX)) as [-> ->]. auto.
Qed.
End expl2_spec.

(** with natural conditions in both directions every cell is filled *)
Lemma expl2_natural : forall junkd junk left f nx ny xmn xmx ymn ymx s, (2 <= nx)%nat -> (2 <= ny)%nat -> xmn < xmx -> ymn < ymx ->
  interp2Dexpl_setup junkd junk left f nx ny NATURALBC NATURALBC xmn xmx ymn ymx = Val s ->
  exists F Fx Fy Fxx Fyy Fxy,
    surface_interpolant nx ny NATURALBC NATURALBC xmn xmx ymn ymx (fun i j => f (j * nx + i)%nat) F Fx Fy Fxx Fyy Fxy /\
    forall x y, xmn <= x <= xmx -> ymn <= y <= ymx ->
      interp2Dexpl_eval_f s x y = Val (F x y) /\
      interp2Dexpl_eval_df s x y = Val (F x y, Fx x y, Fy x y, Fxx x y, Fyy x y, Fxy x y).
Proof.
  intros junkd junk left f nx ny xmn xmx ymn ymx s NX NY MX MY SET.
  assert (EX : enough nx NATURALBC) by (left; auto). assert (EY : enough ny NATURALBC) by (left; auto).
  destruct (comp2_defined junkd f nx ny NATURALBC NATURALBC xmn xmx ymn ymx EX EY) as [s' SC].
  do 6 eexists. split; [exact (spec2 f nx ny NATURALBC NATURALBC xmn xmx ymn ymx EX EY MX MY)|].
  intros x y X Y. apply (expl2_eval junkd junk left f nx ny NATURALBC NATURALBC xmn xmx ymn ymx EX EY MX MY s x y SET).
  - intros _. exact X.
  - intros _. exact Y.
  - intros [H _]. discriminate H.
  - intros [H _]. discriminate H.
Qed.
(** in a closing cell the result is whatever the array held before *)
Lemma expl2_closing_x : forall junkd junk f nx ny bcx bcy xmn xmx ymn ymx x y v, enough nx bcx -> enough ny bcy -> xmn < xmx -> ymn < ymx ->
  closing nx bcx xmn xmx x -> covered bcy ymn ymx y ->
  exists left s, interp2Dexpl_setup junkd junk left f nx ny bcx bcy xmn xmx ymn ymx = Val s /\ interp2Dexpl_eval_f s x y = Val v.
Proof.
  intros junkd junk f nx ny bcx bcy xmn xmx ymn ymx x y v EX EY MX MY CL CY.
  assert (CX : covered bcx xmn xmx x) by (destruct CL as [-> _]; discriminate).
  set (n := nn2 nx ny bcx bcy xmn xmx ymn ymx x y). exists (fun m => if (m =? n)%Z then v else 0).
  destruct (expl2_defined junkd junk (fun m => if (m =? n)%Z then v else 0) f nx ny bcx bcy xmn xmx ymn ymx EX EY) as [s SET]. exists s. split; [exact SET|].
  destruct (peval2 _ _ _ f nx ny bcx bcy xmn xmx ymn ymx s EX EY MX MY SET x y CX CY) as [-> _]. fold n. f_equal.
  destruct (estate2 _ _ _ f nx ny bcx bcy xmn xmx ymn ymx s EX EY SET) as (_ & _ & _ & H).
  destruct (cix_range nx bcx xmn xmx x EX MX CX) as (I & _). destruct (cix_range ny bcy ymn ymx y EY MY CY) as (J & _).
  pose proof (proj1 (closing_cix nx bcx xmn xmx x EX MX (proj1 CL)) CL) as LX.
  assert (K : forall p q, (0 <= p < 4)%Z -> (0 <= q < 4)%Z -> aget (i2c s) (n + (4 * q + p))%Z = if (4 * q + p =? 0)%Z then v else 0).
  { intros p q P Q. destruct (H _ _ p q I J P Q) as (_ & _ & H'). unfold n at 1, nn2. rewrite H' by exact LX. fold (nn2 nx ny bcx bcy xmn xmx ymn ymx x y). fold n.
    destruct (Z.eqb_spec (n + (4 * q + p)) n), (Z.eqb_spec (4 * q + p) 0); auto; lia. }
  unfold p2, pol. rewrite !K by lia. cbn [Z.mul Z.add Z.eqb Pos.mul Pos.add]. unfold wt. ring.
Qed.
Lemma expl2_closing_y : forall junkd junk f nx ny bcx bcy xmn xmx ymn ymx x y v, enough nx bcx -> enough ny bcy -> xmn < xmx -> ymn < ymx ->
  covered bcx xmn xmx x -> closing ny bcy ymn ymx y -> (forall k, y + IZR k * (ymx - ymn) <> ymx - step ny bcy ymn ymx) ->
  exists left s, interp2Dexpl_setup junkd junk left f nx ny bcx bcy xmn xmx ymn ymx = Val s /\ interp2Dexpl_eval_f s x y = Val v.
Proof.
  intros junkd junk f nx ny bcx bcy xmn xmx ymn ymx x y v EX EY MX MY CX CL NN.
  assert (D : closing nx bcx xmn xmx x \/ ~ closing nx bcx xmn xmx x).
  { destruct (Z.eq_dec bcx PERIODICBC) as [B|B]; [|right; intros [E _]; auto].
    pose proof (closing_cix nx bcx xmn xmx x EX MX B) as K. cbv zeta in K.
    destruct (Z.eq_dec (cix (mk_axis (Z.of_nat nx) bcx xmn xmx) x) (Z.of_nat nx - 1)); [left|right]; tauto. }
  assert (CY : covered bcy ymn ymx y) by (destruct CL as [-> _]; discriminate).
  destruct D as [D|D]; [now apply expl2_closing_x|].
  set (n := nn2 nx ny bcx bcy xmn xmx ymn ymx x y).
  set (ax := mk_axis (Z.of_nat nx) bcx xmn xmx). set (ay := mk_axis (Z.of_nat ny) bcy ymn ymx).
  set (base := pol (wt 0 (1 / agrid ax) (cfr ax x)) (fun p => x1 f nx bcx (Z.to_nat (cix ax x)) p (Z.to_nat (cix ay y)))).
  assert (NZ : cfr ay y <> 0). { intros E. destruct (cfr_zero ny bcy ymn ymx y EY MY (proj1 CL) CL E) as [k K]. exact (NN k K). }
  pose (lf := fun m => if (m =? n + 4)%Z then (v - base) / cfr ay y else 0). exists lf.
  destruct (expl2_defined junkd junk lf f nx ny bcx bcy xmn xmx ymn ymx EX EY) as [s SET]. exists s. split; [exact SET|].
  destruct (peval2 _ _ _ f nx ny bcx bcy xmn xmx ymn ymx s EX EY MX MY SET x y CX CY) as [-> _]. fold n. f_equal.
  destruct (estate2 _ _ _ f nx ny bcx bcy xmn xmx ymn ymx s EX EY SET) as (_ & _ & _ & H).
  destruct (cix_range nx bcx xmn xmx x EX MX CX) as (I & _). destruct (cix_range ny bcy ymn ymx y EY MY CY) as (J & _).
  pose proof (proj1 (closing_cix ny bcy ymn ymx y EY MY (proj1 CL)) CL) as LY. pose proof (filled_cix nx bcx xmn xmx x EX MX CX D) as FX.
  assert (K : forall p q, (0 <= p < 4)%Z -> (0 <= q < 4)%Z -> aget (i2c s) (n + (4 * q + p))%Z =
     if (q =? 0)%Z then x1 f nx bcx (Z.to_nat (cix ax x)) p (Z.to_nat (cix ay y)) else if (4 * q + p =? 4)%Z then (v - base) / cfr ay y else 0).
  { intros p q P Q. destruct (H _ _ p q I J P Q) as (_ & H' & _). unfold n at 1, nn2. rewrite H' by auto. fold (nn2 nx ny bcx bcy xmn xmx ymn ymx x y). fold n.
    destruct (q =? 0)%Z; [reflexivity|]. unfold lf. destruct (Z.eqb_spec (n + (4 * q + p)) (n + 4)), (Z.eqb_spec (4 * q + p) 4); auto; lia. }
  unfold p2. fold ax ay. set (A := wt 0 (1 / agrid ax) (cfr ax x)).
  assert (Q0 : pol A (fun p => aget (i2c s) (n + (4 * 0 + p))%Z) = base).
  { unfold base. fold A. apply pol_ext. intros p P. now rewrite K by lia. }
  assert (Q1 : pol A (fun p => aget (i2c s) (n + (4 * 1 + p))%Z) = (v - base) / cfr ay y).
  { unfold pol. rewrite !K by lia. cbn [Z.mul Z.add Z.eqb Pos.mul Pos.add Pos.eqb]. unfold A, wt. ring. }
  assert (Q23 : forall q, (2 <= q < 4)%Z -> pol A (fun p => aget (i2c s) (n + (4 * q + p))%Z) = 0).
  { intros q Q. unfold pol. rewrite !K by lia. destruct (Z.eqb_spec q 0); [lia|].
    repeat (match goal with |- context [(?e =? 4)%Z] => destruct (Z.eqb_spec e 4); [lia|] end). ring. }
  unfold pol at 1. rewrite Q0, Q1, !Q23 by lia. unfold wt. field. exact NZ.
Qed.

(** ** Volumes *)
Section expl3.
Variables (junkd : nat -> R) (junk left : Z -> R) (f : nat -> R) (nx ny nz : nat) (bcx bcy bcz : Z) (xmn xmx ymn ymx zmn zmx : R) (s : interp3D).
Hypothesis ENX : enough nx bcx.
Hypothesis ENY : enough ny bcy.
Hypothesis ENZ : enough nz bcz.
Hypothesis MX : xmn < xmx.
Hypothesis MY : ymn < ymx.
Hypothesis MZ : zmn < zmx.
Hypothesis SET : interp3Dexpl_setup junkd junk left f nx ny nz bcx bcy bcz xmn xmx ymn ymx zmn zmx = Val s.
Let ax := mk_axis (Z.of_nat nx) bcx xmn xmx.
Let ay := mk_axis (Z.of_nat ny) bcy ymn ymx.
Let az := mk_axis (Z.of_nat nz) bcz zmn zmx.
Definition xrow3 (j k : nat) : nat -> R := fun q => f (k * ny * nx + j * nx + q)%nat.
Definition y1 (i : nat) (p : Z) (k j : nat) : R := expl_coeff (xrow3 j k) (first (xrow3 j k) nx bcx) nx i p.
Definition z1 (i j : nat) (p q : Z) (k : nat) : R := expl_coeff (y1 i p k) (first (y1 i p k) ny bcy) ny j q.
Definition e3 (i j k : nat) (p q r : Z) : R := expl_coeff (z1 i j p q) (first (z1 i j p q) nz bcz) nz k r.
Lemma ncell_in : forall n bc i, enough n bc -> (0 <= i < Z.of_nat n)%Z -> (bc = NATURALBC -> i < Z.of_nat n - 1)%Z ->
  (Z.of_nat (Z.to_nat i) <? ncell (Z.of_nat n) bc)%Z = true.
Proof.
  intros n bc i EN I B. apply Z.ltb_lt. rewrite Z2Nat.id by lia. unfold ncell. destruct EN as [[-> _]|[-> _]]; cbn [Z.eqb NATURALBC PERIODICBC]; [specialize (B eq_refl)|]; lia.
Qed.
Lemma estate3 : i3x s = ax /\ i3y s = ay /\ i3z s = az /\ asize (i3c s) = (Z.of_nat nz * Z.of_nat ny * Z.of_nat nx * 64)%Z /\
  (forall i j k p q r, (0 <= i < Z.of_nat nx)%Z -> (0 <= j < Z.of_nat ny)%Z -> (0 <= k < Z.of_nat nz)%Z ->
    (bcx = NATURALBC -> i < Z.of_nat nx - 1)%Z -> (bcy = NATURALBC -> j < Z.of_nat ny - 1)%Z -> (bcz = NATURALBC -> k < Z.of_nat nz - 1)%Z ->
    (0 <= p < 4)%Z -> (0 <= q < 4)%Z -> (0 <= r < 4)%Z ->
    aget (i3c s) (k * Z.of_nat ny * Z.of_nat nx * 64 + j * Z.of_nat nx * 64 + i * 64 + (16 * r + (4 * q + p)))%Z = e3 (Z.to_nat i) (Z.to_nat j) (Z.to_nat k) p q r).
Proof.
  revert SET. unfold interp3Dexpl_setup. rewrite !splineexpl_complete by auto. cbn [andb]. cbv iota zeta.
  intros E. injection E as <-. cbn [i3x i3y i3z i3c asize aget]. split; [|split; [|split; [|split]]]; try reflexivity.
  intros i j k p q r I J K BX BY BZ P Q R.
  set (NX := Z.of_nat nx) in *. set (NY := Z.of_nat ny) in *. set (NZ := Z.of_nat nz) in *.
  set (e := (16 * r + (4 * q + p))%Z). assert (E : (0 <= e < 64)%Z) by (unfold e; lia).
  set (m := (k * NY * NX * 64 + j * NX * 64 + i * 64 + e)%Z).
  assert (D1 : (m / (NY * NX * 64) = k)%Z).
  { symmetry. apply (Z.div_unique_pos _ _ _ (j * NX * 64 + i * 64 + e)); [|unfold m; ring].
    split; [nia|]. assert (j * NX <= (NY - 1) * NX)%Z by nia. nia. }
  assert (D2 : ((m / (NX * 64)) mod NY = j)%Z).
  { replace (m / (NX * 64))%Z with (k * NY + j)%Z by (apply (Z.div_unique_pos _ _ _ (i * 64 + e)); [lia|unfold m; ring]).
    symmetry. apply (Z.mod_unique_pos _ _ k); [lia|ring]. }
  assert (D3 : ((m / 64) mod NX = i)%Z).
  { replace (m / 64)%Z with (k * NY * NX + j * NX + i)%Z by (apply (Z.div_unique_pos _ _ _ e); [lia|unfold m; ring]).
    symmetry. apply (Z.mod_unique_pos _ _ (k * NY + j)); [lia|ring]. }
  assert (D4 : (m mod 64 = e)%Z) by (symmetry; apply (Z.mod_unique_pos _ _ (k * NY * NX + j * NX + i)); [lia|unfold m; ring]).
  rewrite D1, D2, D3, D4. clear D1 D2 D3 D4 m.
  assert (D5 : (e mod 16 = 4 * q + p)%Z) by (symmetry; apply (Z.mod_unique_pos _ _ r); unfold e; lia).
  assert (D6 : (e / 16 = r)%Z) by (symmetry; apply (Z.div_unique_pos _ _ _ (4 * q + p)); unfold e; lia).
  assert (D7 : ((4 * q + p) mod 4 = p)%Z) by (symmetry; apply (Z.mod_unique_pos _ _ q); lia).
  assert (D8 : ((4 * q + p) / 4 = q)%Z) by (symmetry; apply (Z.div_unique_pos _ _ _ p); lia).
  rewrite D5, D6, D7, D8.
  pose proof (ncell_in nx bcx i ENX I BX) as CX. pose proof (ncell_in ny bcy j ENY J BY) as CY. pose proof (ncell_in nz bcz k ENZ K BZ) as CZ.
  unfold NX, NY, NZ in *. rewrite CX, CY, CZ. cbn [andb].
  rewrite poly_coeff by (auto; lia). unfold e3. apply coeff_ext. intros k'. rewrite poly_coeff by (auto; lia). unfold z1. apply coeff_ext. intros j'.
  rewrite poly_coeff by (auto; lia). reflexivity.
Qed.
Definition p3 (n : Z) (ma mb mc : nat) (x y z : R) : R :=
  pol (wt mc (1 / agrid az) (cfr az z)) (fun r => pol (wt mb (1 / agrid ay) (cfr ay y)) (fun q =>
    pol (wt ma (1 / agrid ax) (cfr ax x)) (fun p => aget (i3c s) (n + (16 * r + (4 * q + p)))%Z))).
Definition nn3 (x y z : R) : Z := (cix az z * Z.of_nat ny * Z.of_nat nx * 64 + cix ay y * Z.of_nat nx * 64 + cix ax x * 64)%Z.
Lemma peval3 : forall x y z, covered bcx xmn xmx x -> covered bcy ymn ymx y -> covered bcz zmn zmx z -> let n := nn3 x y z in
  interp3Dexpl_eval_f s x y z = Val (p3 n 0 0 0 x y z) /\
  interp3Dexpl_eval_df s x y z = Val (p3 n 0 0 0 x y z, p3 n 1 0 0 x y z, p3 n 0 1 0 x y z, p3 n 0 0 1 x y z,
    p3 n 2 0 0 x y z, p3 n 0 2 0 x y z, p3 n 0 0 2 x y z, p3 n 1 1 0 x y z, p3 n 1 0 1 x y z, p3 n 0 1 1 x y z).
Proof.
  intros x y z CX CY CZ n. destruct estate3 as (X & Y & Zz & Z1 & _).
  destruct (cix_range nx bcx xmn xmx x ENX MX CX) as (I & _ & _ & OX). destruct (cix_range ny bcy ymn ymx y ENY MY CY) as (J & _ & _ & OY).
  destruct (cix_range nz bcz zmn zmx z ENZ MZ CZ) as (K & _ & _ & OZ). fold ax in I, OX. fold ay in J, OY. fold az in K, OZ.
  unfold interp3Dexpl_eval_f, interp3Dexpl_eval_df. rewrite X, Y, Zz. cbv zeta. rewrite OX, OY, OZ. cbn [orb].
  fold (cix ax x) (cix ay y) (cix az z). fold (cfr ax x) (cfr ay y) (cfr az z). change (an ax) with (Z.of_nat nx). change (an ay) with (Z.of_nat ny). fold (nn3 x y z). fold n.
  assert (R0 : forall k, In k (map (fun k => n + Z.of_nat k)%Z (seq 0 64)) -> (0 <= k < asize (i3c s))%Z).
  { rewrite Z1. intros e E. apply in_map_iff in E. destruct E as (k & <- & E). apply in_seq in E. unfold n, nn3.
    set (i := cix ax x) in *. set (j := cix ay y) in *. set (l := cix az z) in *. clearbody i j l. set (NX := Z.of_nat nx) in *. set (NY := Z.of_nat ny) in *. set (NZ := Z.of_nat nz) in *.
    assert (0 <= l * NY * NX)%Z by nia. assert (0 <= j * NX)%Z by nia.
    assert (j * NX <= (NY - 1) * NX)%Z by nia. assert (l * (NY * NX) <= (NZ - 1) * (NY * NX))%Z by nia. split; [lia|]. nia. }
  rewrite !reading_ok by exact R0. clear R0.
  unfold p3, pol, wt. cbn [Z.mul Z.add Pos.mul Pos.add Pos.succ]. clearbody n.
  generalize (1 / agrid ax) (1 / agrid ay) (1 / agrid az) (cfr ax x) (cfr ay y) (cfr az z). intros.
  split; apply (f_equal Val); [ring|]. repeat (apply pair_equal_spec; split); ring.
Qed.
Lemma evol : forall ma mb mc x y z, covered bcx xmn xmx x -> covered bcy ymn ymx y -> covered bcz zmn zmx z ->
  p3 (nn3 x y z) ma mb mc x y z = thru az nz (fun k => thru ay ny (fun j => thru ax nx (xrow3 j k) ma x) mb y) mc z.
Proof.
  intros ma mb mc x y z CX CY CZ. destruct estate3 as (_ & _ & _ & _ & H).
  destruct (cix_range nx bcx xmn xmx x ENX MX CX) as (I & BX & _). destruct (cix_range ny bcy ymn ymx y ENY MY CY) as (J & BY & _).
  destruct (cix_range nz bcz zmn zmx z ENZ MZ CZ) as (K & BZ & _). fold ax in I, BX. fold ay in J, BY. fold az in K, BZ.
  unfold p3. set (wa := wt ma (1 / agrid ax) (cfr ax x)). set (wb := wt mb (1 / agrid ay) (cfr ay y)). set (wc := wt mc (1 / agrid az) (cfr az z)).
  set (i := Z.to_nat (cix ax x)). set (j := Z.to_nat (cix ay y)). set (k := Z.to_nat (cix az z)).
  transitivity (pol wb (fun q => pol wa (fun p => pol wc (fun r => e3 i j k p q r)))).
  { transitivity (pol wc (fun r => pol wb (fun q => pol wa (fun p => e3 i j k p q r)))).
    - apply pol_ext. intros r R. apply pol_ext. intros q Q. apply pol_ext. intros p P. unfold nn3. apply H; auto.
    - unfold pol. ring. }
  transitivity (pol wb (fun q => pol wa (fun p => thru az nz (z1 i j p q) mc z))).
  { apply pol_ext. intros q Q. apply pol_ext. intros p P. apply (row_along (z1 i j p q) nz bcz zmn zmx mc z ENZ MZ CZ). }
  transitivity (thru az nz (fun k => pol wb (fun q => pol wa (fun p => z1 i j p q k))) mc z).
  { rewrite (thru_pol az nz wb (fun q k => pol wa (fun p => z1 i j p q k))). apply pol_ext. intros q Q. symmetry. apply (thru_pol az nz wa (fun p => z1 i j p q)). }
  apply thru_ext. intros l. rewrite pol_swap.
  transitivity (pol wa (fun p => thru ay ny (y1 i p l) mb y)).
  { apply pol_ext. intros p P. apply (row_along (y1 i p l) ny bcy ymn ymx mb y ENY MY CY). }
  rewrite <- thru_pol. apply thru_ext. intros j'. apply (row_along (xrow3 j' l) nx bcx xmn xmx ma x ENX MX CX).
Qed.
Lemma expl3_err : forall x y z, (bcx = NATURALBC /\ ~ (xmn <= x <= xmx)) \/ (bcy = NATURALBC /\ ~ (ymn <= y <= ymx)) \/ (bcz = NATURALBC /\ ~ (zmn <= z <= zmx)) ->
  interp3Dexpl_eval_f s x y z = Err /\ interp3Dexpl_eval_df s x y z = Err.
Proof.
  intros x y z H. destruct estate3 as (X & Y & Zz & _). unfold interp3Dexpl_eval_f, interp3Dexpl_eval_df. rewrite X, Y, Zz. cbv zeta.
  destruct H as [[B H]|[[B H]|[B H]]].
  - rewrite (out_of_range ax x) by auto. auto.
  - rewrite (out_of_range ay y) by auto. rewrite orb_true_r. auto.
  - rewrite (out_of_range az z) by auto. rewrite !orb_true_r. auto.
Qed.
End expl3.
Lemma t3_thru : forall f nx ny nz bcx bcy bcz xmn xmx ymn ymx zmn zmx ma mb mc x y z,
  t3 f nx ny nz bcx bcy bcz xmn xmx ymn ymx zmn zmx (form ma) (form mb) (form mc) x y z =
  thru (mk_axis (Z.of_nat nz) bcz zmn zmx) nz (fun k => thru (mk_axis (Z.of_nat ny) bcy ymn ymx) ny (fun j =>
    thru (mk_axis (Z.of_nat nx) bcx xmn xmx) nx (xrow3 f nx ny j k) ma x) mb y) mc z.
Proof.
  intros. unfold t3, T3, T2. set (ax := mk_axis (Z.of_nat nx) bcx xmn xmx). set (ay := mk_axis (Z.of_nat ny) bcy ymn ymx). set (az := mk_axis (Z.of_nat nz) bcz zmn zmx).
  destruct (thru_lin ax ma x) as (i & i' & w1 & w2 & w3 & w4 & HA & HX). destruct (thru_lin ay mb y) as (j & j' & u1 & u2 & u3 & u4 & KA & KY).
  destruct (thru_lin az mc z) as (k & k' & v1 & v2 & v3 & v4 & LA & LZ).
  rewrite HA, !KA, !LA.
  set (I := Z.to_nat i). set (I' := Z.to_nat i'). set (J := Z.to_nat j). set (J' := Z.to_nat j').
  set (N0 := n0 f nx ny). set (N1 := n1 f nx ny bcx xmn xmx). set (N2 := n2 f nx ny bcy ymn ymx). set (N4 := n4 f nx ny bcx bcy xmn xmx ymn ymx).
  assert (SX : forall b c, thru ax nx (xrow3 f nx ny b c) ma x = w1 * N0 I b c + w2 * N0 I' b c + w3 * N1 I b c + w4 * N1 I' b c) by (intros; rewrite HX; reflexivity).
  assert (SY0 : forall a c, thru ay ny (fun b => N0 a b c) mb y = u1 * N0 a J c + u2 * N0 a J' c + u3 * N2 a J c + u4 * N2 a J' c) by (intros; rewrite KY; reflexivity).
  assert (SY1 : forall a c, thru ay ny (fun b => N1 a b c) mb y = u1 * N1 a J c + u2 * N1 a J' c + u3 * N4 a J c + u4 * N4 a J' c) by (intros; rewrite KY; reflexivity).
  assert (SY : forall c, thru ay ny (fun b => thru ax nx (xrow3 f nx ny b c) ma x) mb y =
    w1 * (u1 * N0 I J c + u2 * N0 I J' c + u3 * N2 I J c + u4 * N2 I J' c) + w2 * (u1 * N0 I' J c + u2 * N0 I' J' c + u3 * N2 I' J c + u4 * N2 I' J' c) +
    w3 * (u1 * N1 I J c + u2 * N1 I J' c + u3 * N4 I J c + u4 * N4 I J' c) + w4 * (u1 * N1 I' J c + u2 * N1 I' J' c + u3 * N4 I' J c + u4 * N4 I' J' c)).
  { intros c. rewrite (thru_ext ay ny _ _ mb y (fun b => SX b c)).
    rewrite (thru_comb ay ny mb y w1 w2 w3 w4 (fun b => N0 I b c) (fun b => N0 I' b c) (fun b => N1 I b c) (fun b => N1 I' b c)). now rewrite !SY0, !SY1. }
  rewrite (thru_ext az nz _ _ mc z SY).
  rewrite (thru_comb az nz mc z w1 w2 w3 w4 (fun c => u1 * N0 I J c + u2 * N0 I J' c + u3 * N2 I J c + u4 * N2 I J' c) (fun c => u1 * N0 I' J c + u2 * N0 I' J' c + u3 * N2 I' J c + u4 * N2 I' J' c)
    (fun c => u1 * N1 I J c + u2 * N1 I J' c + u3 * N4 I J c + u4 * N4 I J' c) (fun c => u1 * N1 I' J c + u2 * N1 I' J' c + u3 * N4 I' J c + u4 * N4 I' J' c)).
  rewrite (thru_comb az nz mc z u1 u2 u3 u4 (N0 I J) (N0 I J') (N2 I J) (N2 I J')), (thru_comb az nz mc z u1 u2 u3 u4 (N0 I' J) (N0 I' J') (N2 I' J) (N2 I' J')),
    (thru_comb az nz mc z u1 u2 u3 u4 (N1 I J) (N1 I J') (N4 I J) (N4 I J')), (thru_comb az nz mc z u1 u2 u3 u4 (N1 I' J) (N1 I' J') (N4 I' J) (N4 I' J')).
  rewrite !LZ. unfold vv, pick. cbn [Z.eqb Pos.eqb]. unfold n3, n5, n6, n7. fold I I' J J'.
  fold N0 N1 N2 N4. reflexivity.
Qed.
Section expl3_spec.
Variables (junkd : nat -> R) (junk left : Z -> R) (f : nat -> R) (nx ny nz : nat) (bcx bcy bcz : Z) (xmn xmx ymn ymx zmn zmx : R).
Hypothesis ENX : enough nx bcx.
Hypothesis ENY : enough ny bcy.
Hypothesis ENZ : enough nz bcz.
Hypothesis MX : xmn < xmx.
Hypothesis MY : ymn < ymx.
Hypothesis MZ : zmn < zmx.
Let F := t3 f nx ny nz bcx bcy bcz xmn xmx ymn ymx zmn zmx.
Lemma expl3_defined : exists s, interp3Dexpl_setup junkd junk left f nx ny nz bcx bcy bcz xmn xmx ymn ymx zmn zmx = Val s.
Proof. unfold interp3Dexpl_setup. rewrite !splineexpl_complete by auto. cbn [andb]. eauto. Qed.
Lemma expl3_eval : forall s x y z, interp3Dexpl_setup junkd junk left f nx ny nz bcx bcy bcz xmn xmx ymn ymx zmn zmx = Val s ->
  covered bcx xmn xmx x -> covered bcy ymn ymx y -> covered bcz zmn zmx z ->
  interp3Dexpl_eval_f s x y z = Val (F E0 E0 E0 x y z) /\
  interp3Dexpl_eval_df s x y z = Val (F E0 E0 E0 x y z, F E1 E0 E0 x y z, F E0 E1 E0 x y z, F E0 E0 E1 x y z,
    F E2 E0 E0 x y z, F E0 E2 E0 x y z, F E0 E0 E2 x y z, F E1 E1 E0 x y z, F E1 E0 E1 x y z, F E0 E1 E1 x y z).
Proof.
  intros s x y z SET CX CY CZ.
  destruct (peval3 junkd junk left f nx ny nz bcx bcy bcz xmn xmx ymn ymx zmn zmx s ENX ENY ENZ MX MY MZ SET x y z CX CY CZ) as [-> ->].
  assert (K : forall ma mb mc, p3 nx ny nz bcx bcy bcz xmn xmx ymn ymx zmn zmx s (nn3 nx ny nz bcx bcy bcz xmn xmx ymn ymx zmn zmx x y z) ma mb mc x y z = F (form ma) (form mb) (form mc) x y z).
  { intros ma mb mc. rewrite (evol junkd junk left f nx ny nz bcx bcy bcz xmn xmx ymn ymx zmn zmx s ENX ENY ENZ MX MY MZ SET) by auto. symmetry. apply t3_thru. }
  rewrite !K. split; reflexivity.
Qed.
Lemma expl3_comp3 : forall junk' s s' x y z, interp3Dexpl_setup junkd junk left f nx ny nz bcx bcy bcz xmn xmx ymn ymx zmn zmx = Val s ->
  interp3Dcomp_setup junk' f nx ny nz bcx bcy bcz xmn xmx ymn ymx zmn zmx = Val s' ->
  interp3Dexpl_eval_f s x y z = interp3Dcomp_eval_f s' x y z /\ interp3Dexpl_eval_df s x y z = interp3Dcomp_eval_df s' x y z.
Proof.
  intros junk' s s' x y z SE SC.
  assert (D : forall bc mn mx v, covered bc mn mx v \/ (bc = NATURALBC /\ ~ (mn <= v <= mx))).
  { intros bc mn mx v. unfold covered. destruct (Z.eq_dec bc NATURALBC); [|left; tauto]. destruct (Rle_dec mn v); [|right; split; [auto|lra]].
    destruct (Rle_dec v mx); [left; auto|right; split; [auto|lra]]. }
  destruct (D bcx xmn xmx x) as [CX|CX]. 1: destruct (D bcy ymn ymx y) as [CY|CY]. 1: destruct (D bcz zmn zmx z) as [CZ|CZ].
  1: destruct (expl3_eval s x y z SE CX CY CZ) as [-> ->]; destruct (eval3 junk' f nx ny nz bcx bcy bcz xmn xmx ymn ymx zmn zmx s' ENX ENY ENZ MX MY MZ SC x y z CX CY CZ) as [-> ->]; auto.
  all: destruct (expl3_err junkd junk left f nx ny nz bcx bcy bcz xmn xmx ymn ymx zmn zmx s ENX ENY ENZ SE x y z ltac:(tauto)) as [-> ->];
       destruct (err3 junk' f nx ny nz bcx bcy bcz xmn xmx ymn ymx zmn zmx s' ENX ENY ENZ MX MY MZ SC x y z ltac:(tauto)) as [-> ->]; auto.
Qed.
Lemma expl3_spec : forall s, interp3Dexpl_setup junkd junk left f nx ny nz bcx bcy bcz xmn xmx ymn ymx zmn zmx = Val s ->
  exists F Fx Fy Fz Fxx Fyy Fzz Fxy Fxz Fyz,
    volume_interpolant nx ny nz bcx bcy bcz xmn xmx ymn ymx zmn zmx (fun i j k => f (k * ny * nx + j * nx + i)%nat) F Fx Fy Fz Fxx Fyy Fzz Fxy Fxz Fyz /\
    forall x y z, covered bcx xmn xmx x -> covered bcy ymn ymx y -> covered bcz zmn zmx z ->
      interp3Dexpl_eval_f s x y z = Val (F x y z) /\
      interp3Dexpl_eval_df s x y z = Val (F x y z, Fx x y z, Fy x y z, Fz x y z, Fxx x y z, Fyy x y z, Fzz x y z, Fxy x y z, Fxz x y z, Fyz x y z).
Proof.
  intros s SET. do 10 eexists. split; [exact (spec3 f nx ny nz bcx bcy bcz xmn xmx ymn ymx zmn zmx ENX ENY ENZ MX MY MZ)|].
  intros x y z CX CY CZ. exact (expl3_eval s x y z SET CX CY CZ).
Qed.
End expl3_spec.
