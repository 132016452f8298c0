(** Proofs about spline construction and evaluation in one dimension. *)
From Coq Require Import Reals List Arith ZArith Bool Lra Lia.
From Verif Require Import Deriv AxisModel AxisProofs Glue LintProofs SplineModel.
Import ListNotations.
Local Open Scope R_scope.

(** ** The tridiagonal systems are solved *)
Section thomas.
Variables (rhs : nat -> R) (n : nat) (p0 y0 last : R).
Hypothesis P0 : 0 <= p0 <= 1 / 2.
Notation p := (tp p0).
Notation y := (ty rhs p0 y0).
Definition td (i : nat) := tback rhs n p0 y0 last (n - 1 - i).
Lemma tp_bound : forall i, 0 <= p i <= 1 / 2.
Proof.
  induction i; cbn [tp]; [lra|]. split.
  - apply Rlt_le, Rdiv_lt_0_compat; lra.
  - apply Rmult_le_reg_r with (4 - p i); [lra|]. unfold Rdiv at 1. rewrite Rmult_assoc, Rinv_l by lra. lra.
Qed.
Lemma td_last : (1 <= n)%nat -> td (n - 1) = last.
Proof. intros. unfold td. now rewrite Nat.sub_diag. Qed.
Lemma td_step : forall i, (i + 1 < n)%nat -> td i = y i - p i * td (i + 1).
Proof.
  intros i H. unfold td. replace (n - 1 - i)%nat with (S (n - 1 - (i + 1))) by lia. cbn [tback].
  replace (n - 1 - S (n - 1 - (i + 1)))%nat with i by lia. reflexivity.
Qed.
Lemma td_row : forall i, (1 <= i)%nat -> (i + 1 < n)%nat -> td (i - 1) + 4 * td i + td (i + 1) = rhs i.
Proof.
  intros i A B. destruct i as [|j]; [lia|]. replace (S j - 1)%nat with j by lia.
  rewrite (td_step j) by lia. replace (j + 1)%nat with (S j) by lia. rewrite (td_step (S j)) by lia. cbn [tp ty].
  pose proof (tp_bound j). field. lra.
Qed.
Lemma td_first : (2 <= n)%nat -> td 0 = y0 - p0 * td 1.
Proof. intros H. now rewrite (td_step 0) by lia. Qed.
End thomas.

Section cyclic.
Variables (rhs : nat -> R) (n : nat).
Hypothesis N : (3 <= n)%nat.
Notation s := (psweep rhs n).
Notation dl := (dlast rhs n).
Definition cd (i : nat) := periodic_solution rhs n i.
Lemma ps_bound : forall i, 1 / 4 <= pp (s i) <= 1 / 3 /\ pr (s i) = pl (s i) * pp (s i) /\
  (pl (s i)) ^ 2 <= 1 /\ 4 - 3 / 8 * (1 - (pl (s i)) ^ 2) <= pd (s i).
Proof.
  induction i; cbn [psweep pp pr pl pd]; [lra|]. destruct IHi as (P & R' & L & D).
  set (q := pp (s i)) in *. set (l := pl (s i)) in *.
  assert (Q : 1 / 4 <= 1 / (4 - q) <= 1 / 3).
  { split; (apply Rmult_le_reg_r with (4 - q); [lra|]); unfold Rdiv; rewrite ?Rmult_assoc, ?Rinv_l by lra; lra. }
  split; auto. split; [rewrite R'; field; lra|].
  assert (0 <= l ^ 2) by apply pow2_ge_0. assert (q * q <= 1 / 9) by nra.
  split; [nra|]. rewrite R'. replace (l * (l * q)) with (l ^ 2 * q) by ring. replace ((- l * q) ^ 2) with (l ^ 2 * (q * q)) by ring. nra.
Qed.
Lemma den_pos : 0 < pdlast rhs n - pblast rhs n * pp2 rhs n.
Proof.
  unfold pdlast, pblast, pp2, pfin. destruct (ps_bound (n - 3)) as (P & R' & L & D).
  set (q := pp (s (n - 3))) in *. set (l := pl (s (n - 3))) in *. rewrite R'.
  replace (l * (l * q)) with (l ^ 2 * q) by ring.
  replace ((1 - l * q) * ((1 - l * q) / (4 - q))) with ((1 - l * q) ^ 2 / (4 - q)) by (field; lra).
  assert (B : -1 <= l <= 1). { split; apply Rnot_lt_le; intros K; nra. }
  assert (E : (1 - l * q) ^ 2 <= 16 / 9) by (assert (-1 / 3 <= l * q <= 1 / 3) by nra; nra).
  assert ((1 - l * q) ^ 2 / (4 - q) <= 1).
  { apply Rmult_le_reg_r with (4 - q); [lra|]. unfold Rdiv. rewrite Rmult_assoc, Rinv_l by lra. lra. }
  assert (0 <= l ^ 2) by apply pow2_ge_0. nra.
Qed.
Lemma cd_last : cd (n - 1) = dl.
Proof. unfold cd, periodic_solution. now rewrite Nat.eqb_refl. Qed.
Lemma cd_last2 : cd (n - 2) = dlast2 rhs n.
Proof. unfold cd, periodic_solution. destruct (Nat.eqb_spec (n - 2) (n - 1)); [lia|]. now rewrite Nat.sub_diag. Qed.
Lemma cd_step : forall i, (i + 2 < n)%nat -> cd i = py (s i) - pp (s i) * cd (i + 1) - pr (s i) * dl.
Proof.
  intros i H. unfold cd, periodic_solution. destruct (Nat.eqb_spec i (n - 1)); [lia|]. destruct (Nat.eqb_spec (i + 1) (n - 1)); [lia|].
  replace (n - 2 - i)%nat with (S (n - 2 - (i + 1))) by lia. cbn [pback].
  replace (n - 2 - S (n - 2 - (i + 1)))%nat with i by lia. reflexivity.
Qed.
Lemma cd_row0 : cd (n - 1) + 4 * cd 0 + cd 1 = rhs 0%nat.
Proof. rewrite (cd_step 0) by lia. rewrite cd_last. cbn [psweep pp pr py]. change (0 + 1)%nat with 1%nat. field. Qed.
Lemma cd_row : forall i, (1 <= i)%nat -> (i + 1 < n)%nat -> cd (i - 1) + 4 * cd i + cd (i + 1) = rhs i.
Proof.
  intros i A B. destruct (Nat.eq_dec i (n - 2)) as [->|NE].
  - replace (n - 2 + 1)%nat with (n - 1)%nat by lia. replace (n - 2 - 1)%nat with (n - 3)%nat by lia.
    rewrite (cd_step (n - 3)) by lia. replace (n - 3 + 1)%nat with (n - 2)%nat by lia. rewrite cd_last2, cd_last.
    unfold dlast2, py2, pp2, pfin. destruct (ps_bound (n - 3)) as (P & _). field. lra.
  - destruct i as [|j]; [lia|]. replace (S j - 1)%nat with j by lia. rewrite (cd_step j) by lia.
    replace (j + 1)%nat with (S j) by lia. rewrite (cd_step (S j)) by lia. cbn [psweep pp pr py].
    destruct (ps_bound j) as (P & _). field. lra.
Qed.
Lemma cd_inv : forall k, (k <= n - 3)%nat ->
  let i := (n - 3 - k)%nat in pl (s i) * cd i + cd (n - 2) + pd (s i) * dl = pyl (s i).
Proof.
  induction k; intros H i.
  - unfold i. rewrite Nat.sub_0_r. rewrite (cd_step (n - 3)) by lia. replace (n - 3 + 1)%nat with (n - 2)%nat by lia.
    rewrite cd_last2. unfold dlast2, dlast, pylast, pblast, py2. pose proof den_pos as D. unfold pdlast, pblast, pp2 in *. unfold pfin in *.
    destruct (ps_bound (n - 3)) as (P & _). field. split; [lra|]. intros K. revert D.
    match goal with |- 0 < ?a -> _ => assert (E : a * (4 - pp (s (n - 3))) = 0) by (rewrite <- K; field; lra) end.
    intros D. apply Rmult_integral in E. lra.
  - specialize (IHk ltac:(lia)). cbv zeta in IHk. unfold i in *. set (j := (n - 3 - S k)%nat) in *.
    replace (n - 3 - k)%nat with (S j) in IHk by lia. rewrite (cd_step j) by lia. replace (j + 1)%nat with (S j) by lia.
    cbn [psweep pl pd pyl] in IHk. lra.
Qed.
Lemma cd_rowlast : cd (n - 2) + 4 * cd (n - 1) + cd 0 = rhs (n - 1)%nat.
Proof. pose proof (cd_inv (n - 3) (le_n _)) as H. rewrite Nat.sub_diag in H. cbn [psweep pl pd pyl] in H. rewrite cd_last. lra. Qed.
End cyclic.

(** ** Linearity of the construction *)
Lemma ty_lin : forall p0 a b r1 r2 y1 y2 i, ty (fun k => a * r1 k + b * r2 k) p0 (a * y1 + b * y2) i = a * ty r1 p0 y1 i + b * ty r2 p0 y2 i.
Proof. induction i; cbn [ty]; auto. rewrite IHi. unfold Rdiv. ring. Qed.
Lemma tback_lin : forall n p0 a b r1 r2 y1 y2 l1 l2 k,
  tback (fun k => a * r1 k + b * r2 k) n p0 (a * y1 + b * y2) (a * l1 + b * l2) k = a * tback r1 n p0 y1 l1 k + b * tback r2 n p0 y2 l2 k.
Proof. induction k; cbn [tback]; auto. rewrite IHk, ty_lin. ring. Qed.
Lemma ps_lin : forall n a b r1 r2 i, let s := psweep (fun k => a * r1 k + b * r2 k) n i in let s1 := psweep r1 n i in let s2 := psweep r2 n i in
  pp s = pp s1 /\ pp s = pp s2 /\ pr s = pr s1 /\ pr s = pr s2 /\ pl s = pl s1 /\ pl s = pl s2 /\ pd s = pd s1 /\ pd s = pd s2 /\
  py s = a * py s1 + b * py s2 /\ pyl s = a * pyl s1 + b * pyl s2.
Proof.
  induction i; cbn [psweep pp pr pl pd py pyl].
  - cbv zeta. cbn [pp pr pl pd py pyl]. repeat split; unfold Rdiv; ring.
  - cbv zeta in *. destruct IHi as (A1 & A2 & B1 & B2 & C1 & C2 & D1 & D2 & E & F). cbn [pp pr pl pd py pyl].
    rewrite <- A1, <- A2, <- B1, <- B2, <- C1, <- C2, <- D1, <- D2, E, F. repeat split; unfold Rdiv; ring.
Qed.
Lemma per_lin : forall n a b r1 r2 i,
  periodic_solution (fun k => a * r1 k + b * r2 k) n i = a * periodic_solution r1 n i + b * periodic_solution r2 n i.
Proof.
  intros n a b r1 r2.
  assert (L : dlast (fun k => a * r1 k + b * r2 k) n = a * dlast r1 n + b * dlast r2 n /\
             dlast2 (fun k => a * r1 k + b * r2 k) n = a * dlast2 r1 n + b * dlast2 r2 n).
  { unfold dlast2, dlast, pylast, pblast, pdlast, pp2, py2, pfin.
    destruct (ps_lin n a b r1 r2 (n - 3)) as (A1 & A2 & B1 & B2 & C1 & C2 & D1 & D2 & E & F). cbv zeta in *.
    rewrite <- A1, <- A2, <- B1, <- B2, <- C1, <- C2, <- D1, <- D2, E, F. split; unfold Rdiv; ring. }
  destruct L as [L1 L2].
  assert (B : forall k, pback (fun k => a * r1 k + b * r2 k) n k = a * pback r1 n k + b * pback r2 n k).
  { induction k; cbn [pback]; auto. rewrite IHk, L1. destruct (ps_lin n a b r1 r2 (n - 2 - S k)) as (A1 & A2 & B1 & B2 & _ & _ & _ & _ & E & _).
    cbv zeta in *. rewrite <- A1, <- A2, <- B1, <- B2, E. ring. }
  intros i. unfold periodic_solution. destruct (i =? n - 1)%nat; auto.
Qed.

(** the second derivatives computed by splinecomp, as a total function *)
Definition second (f : nat -> R) (n : nat) (bc : Z) : nat -> R :=
  if (bc =? NATURALBC)%Z then (fun i => tback (comp_rhs f) n 0 (0 / 2) 0 (n - 1 - i))
  else periodic_solution (comp_rhs_per f n) n.
(** enough data for the boundary condition *)
Definition enough (n : nat) (bc : Z) : Prop := (bc = NATURALBC /\ (2 <= n)%nat) \/ (bc = PERIODICBC /\ (3 <= n)%nat).
Lemma splinecomp_val : forall junk f n bc, enough n bc -> splinecomp junk f n bc = Val (second f n bc).
Proof.
  intros junk f n bc [[-> H]|[-> H]]; unfold splinecomp, second; cbn [Z.eqb NATURALBC PERIODICBC Pos.eqb];
    [destruct (Nat.ltb_spec n 2) | destruct (Nat.ltb_spec n 3)]; auto; lia.
Qed.
Lemma second_lin : forall a b f g n bc i,
  second (fun k => a * f k + b * g k) n bc i = a * second f n bc i + b * second g n bc i.
Proof.
  intros a b f g n bc i. unfold second. destruct (bc =? NATURALBC)%Z.
  - rewrite <- tback_lin. replace (a * (0 / 2) + b * (0 / 2)) with (0 / 2) by field. replace (a * 0 + b * 0) with 0 by ring.
    f_equal. apply FunctionalExtensionality.functional_extensionality. intros k. unfold comp_rhs. ring.
  - rewrite <- per_lin. f_equal. apply FunctionalExtensionality.functional_extensionality. intros k. unfold comp_rhs_per, comp_rhs.
    destruct (k =? 0)%nat; [ring|]. destruct (k =? n - 1)%nat; ring.
Qed.

(** ** Consecutive nodes and the spline relation *)
Definition consec (a : axis) (i i' i'' : Z) : Prop :=
  (abc a = NATURALBC /\ (0 <= i /\ i' = i + 1 /\ i'' = i + 2 /\ i'' < an a)%Z) \/
  (abc a = PERIODICBC /\ exists k, i = (k mod an a)%Z /\ i' = ((k + 1) mod an a)%Z /\ i'' = ((k + 2) mod an a)%Z).
(** node values g and second derivatives G of a cubic spline *)
Definition spl (a : axis) (g G : Z -> R) : Prop :=
  forall i i' i'', consec a i i' i'' ->
    G i + 4 * G i' + G i'' = 6 / (agrid a * agrid a) * (g i'' - 2 * g i' + g i).
(** boundary condition of a natural spline *)
Definition ends_zero (a : axis) (G : Z -> R) : Prop := abc a = NATURALBC -> G 0%Z = 0 /\ G (an a - 1)%Z = 0.
Definition zdata (f : nat -> R) (z : Z) : R := f (Z.to_nat z).

Lemma second_rows : forall f n, (3 <= n)%nat ->
  let D := second f n PERIODICBC in
  forall i i' i'', (i < n)%nat -> i' = (if i =? n - 1 then 0 else i + 1)%nat -> i'' = (if i' =? n - 1 then 0 else i' + 1)%nat ->
  D i + 4 * D i' + D i'' = 6 * (f i'' - 2 * f i' + f i).
Proof.
  intros f n N D i i' i'' I E E'. unfold D, second. cbn [Z.eqb NATURALBC PERIODICBC].
  change (periodic_solution (comp_rhs_per f n) n) with (cd (comp_rhs_per f n) n).
  destruct (Nat.eqb_spec i (n - 1)).
  - subst i i'. destruct (Nat.eqb_spec 0 (n - 1)); [lia|]. cbn in E'. subst i''. rewrite cd_row0 by auto.
    unfold comp_rhs_per. cbn [Nat.eqb]. ring.
  - subst i'. destruct (Nat.eqb_spec (i + 1) (n - 1)).
    + subst i''. replace i with (n - 2)%nat by lia. replace (n - 2 + 1)%nat with (n - 1)%nat by lia. rewrite cd_rowlast by auto.
      unfold comp_rhs_per. destruct (Nat.eqb_spec (n - 1) 0); [lia|]. rewrite Nat.eqb_refl. ring.
    + subst i''. replace (cd (comp_rhs_per f n) n i) with (cd (comp_rhs_per f n) n (i + 1 - 1)) by (f_equal; lia).
      rewrite cd_row by (auto; lia). unfold comp_rhs_per, comp_rhs. destruct (Nat.eqb_spec (i + 1) 0); [lia|].
      destruct (Nat.eqb_spec (i + 1) (n - 1)); [lia|]. replace (i + 1 - 1)%nat with i by lia. ring.
Qed.
Lemma mod_next : forall k n, (1 <= n)%Z -> ((k + 1) mod n = if k mod n =? n - 1 then 0 else k mod n + 1)%Z.
Proof.
  intros k n N. pose proof (Z.mod_pos_bound k n ltac:(lia)) as P. pose proof (Z.div_mod k n ltac:(lia)) as D.
  destruct (Z.eqb_spec (k mod n) (n - 1)) as [Q|Q]; symmetry.
  - apply (Z.mod_unique_pos _ _ (k / n + 1)); nia.
  - apply (Z.mod_unique_pos _ _ (k / n)); lia.
Qed.
Lemma nat_next : forall i n, (0 <= i)%Z -> Z.to_nat (if i =? Z.of_nat n - 1 then 0 else i + 1)%Z = (if Z.to_nat i =? n - 1 then 0 else Z.to_nat i + 1)%nat \/ n = 0%nat.
Proof.
  intros i n H. destruct n; [now right|]. left. destruct (Z.eqb_spec i (Z.of_nat (S n) - 1)), (Nat.eqb_spec (Z.to_nat i) (S n - 1)); lia.
Qed.
Lemma consec_nat : forall a n i i' i'', an a = Z.of_nat n -> (1 <= n)%nat -> abc a = PERIODICBC -> consec a i i' i'' ->
  (Z.to_nat i < n)%nat /\ Z.to_nat i' = (if Z.to_nat i =? n - 1 then 0 else Z.to_nat i + 1)%nat /\
  Z.to_nat i'' = (if Z.to_nat i' =? n - 1 then 0 else Z.to_nat i' + 1)%nat.
Proof.
  intros a n i i' i'' A N B [[C _]|(_ & k & -> & -> & ->)]; [rewrite B in C; discriminate|]. rewrite A.
  pose proof (Z.mod_pos_bound k (Z.of_nat n) ltac:(lia)). pose proof (Z.mod_pos_bound (k + 1) (Z.of_nat n) ltac:(lia)).
  split; [lia|]. split.
  - rewrite mod_next by lia. destruct (nat_next (k mod Z.of_nat n) n); [lia|auto|lia].
  - replace (k + 2)%Z with (k + 1 + 1)%Z by lia. rewrite (mod_next (k + 1)) by lia.
    destruct (nat_next ((k + 1) mod Z.of_nat n) n); [lia|auto|lia].
Qed.
Theorem second_spl : forall a f n, axis_ok a -> an a = Z.of_nat n -> enough n (abc a) ->
  spl a (zdata f) (fun z => second f n (abc a) (Z.to_nat z) / (agrid a * agrid a)) /\
  ends_zero a (fun z => second f n (abc a) (Z.to_nat z) / (agrid a * agrid a)).
Proof.
  intros a f n O A E. pose proof (grid_pos a O) as G. split.
  - intros i i' i'' C.
    assert (K : second f n (abc a) (Z.to_nat i) + 4 * second f n (abc a) (Z.to_nat i') + second f n (abc a) (Z.to_nat i'') =
                6 * (zdata f i'' - 2 * zdata f i' + zdata f i)).
    { destruct E as [[B N]|[B N]].
      - destruct C as [(_ & I1 & I2 & I3 & I4)|(B' & _)]; [|rewrite B in B'; discriminate].
        rewrite B. assert (Q : forall j, second f n NATURALBC j = td (comp_rhs f) n 0 (0 / 2) 0 j) by reflexivity. rewrite !Q.
        unfold zdata. replace (Z.to_nat i) with (Z.to_nat i' - 1)%nat by lia. replace (Z.to_nat i'') with (Z.to_nat i' + 1)%nat by lia.
        rewrite td_row by (lra || lia). reflexivity.
      - rewrite B in *. destruct (consec_nat a n i i' i'' A ltac:(lia) B C) as (H1 & H2 & H3). unfold zdata. eapply second_rows; eauto. }
    transitivity (6 * (zdata f i'' - 2 * zdata f i' + zdata f i) / (agrid a * agrid a)); [rewrite <- K|]; field; lra.
  - intros B. rewrite B in *. destruct E as [[_ N]|[B' N]]; [|discriminate]. 
    assert (Q : forall j, second f n NATURALBC j = td (comp_rhs f) n 0 (0 / 2) 0 j) by reflexivity. rewrite !Q.
    replace (Z.to_nat 0) with 0%nat by reflexivity. replace (Z.to_nat (an a - 1)) with (n - 1)%nat by lia.
    rewrite td_first, td_last by lia. split; field; lra.
Qed.

(** ** Cell functions of a compact spline *)
Definition E0 (h a b A B t : R) : R := (1 - t) * a + t * b + h * h / 6 * (((1 - t) ^ 3 - (1 - t)) * A + (t ^ 3 - t) * B).
Definition E1 (h a b A B t : R) : R := (b - a) / h + h / 6 * ((1 - 3 * (1 - t) ^ 2) * A + (3 * t ^ 2 - 1) * B).
Definition E2 (h a b A B t : R) : R := (1 - t) * A + t * B.
Lemma E0_deriv : forall h a b A B t, h <> 0 -> Dx (E0 h a b A B) t (h * E1 h a b A B t).
Proof. intros. unfold E0, E1. der. cbn [INR pred]. field. auto. Qed.
Lemma E1_deriv : forall h a b A B t, h <> 0 -> Dx (E1 h a b A B) t (h * E2 h a b A B t).
Proof. intros. unfold E1, E2. eapply d_eq. { repeat der1; auto. } cbv beta. cbn [INR pred]. field; auto. Qed.
Lemma E2_cont : forall h a b A B t, continuity_pt (E2 h a b A B) t.
Proof. intros. apply derivable_continuous_pt. unfold E2. eexists. unfold derivable_pt_abs. repeat der1. Qed.

(** value of a cell function at a coordinate, located as the code does *)
Definition ev (a : axis) (W : Z -> Z -> R -> R) (x : R) : R :=
  let w := wrap a x in let i := index_spl a w in W i (i + jump a i 1)%Z (frac a w i).
Definition fits (a : axis) (W : Z -> Z -> R -> R) : Prop :=
  forall i i' i'', consec a i i' i'' -> W i i' 1 = W i' i'' 0.
Lemma ev_cells : forall a W, axis_ok a -> fits a W -> by_cells a (ev a W) W.
Proof.
  intros a W O F x i i' t C. unfold ev. pose proof (spl_located a x i i' t O C) as (_ & I & J & _ & L). cbv zeta.
  set (i0 := index_spl a (wrap a x)) in *.
  destruct L as [(-> & -> & ->)|(-> & -> & ->)]; auto. symmetry. apply F. destruct C as [_ [(B & (C1 & C2 & C3) & _)|(B & k & C1 & C2 & _)]].
  - left. rewrite jump_nat in * by auto. split; auto. lia.
  - right. split; auto. exists k. repeat split; auto. rewrite C2, jump_per; auto; [f_equal; lia|].
    destruct (axis_per a O B); lia.
Qed.
Definition WE (E : R -> R -> R -> R -> R -> R -> R) (a : axis) (g G : Z -> R) (i i' : Z) (t : R) : R :=
  E (agrid a) (g i) (g i') (G i) (G i') t.
Lemma fits_E0 : forall a g G, fits a (WE E0 a g G).
Proof. intros a g G i i' i'' _. unfold WE, E0. field. Qed.
Lemma fits_E1 : forall a g G, axis_ok a -> spl a g G -> fits a (WE E1 a g G).
Proof.
  intros a g G O S i i' i'' C. pose proof (grid_pos a O). unfold WE, E1. specialize (S i i' i'' C).
  assert (K : G i'' = 6 / (agrid a * agrid a) * (g i'' - 2 * g i' + g i) - G i - 4 * G i') by lra. rewrite K. field. lra.
Qed.
Lemma fits_E2 : forall a g G, fits a (WE E2 a g G).
Proof. intros a g G i i' i'' _. unfold WE, E2. ring. Qed.

(** ** Specification: a cubic spline through the data with its derivatives *)
Definition cells (n : nat) (bc : Z) : nat := if (bc =? NATURALBC)%Z then (n - 1)%nat else n.
Definition spline_interpolant (n : nat) (bc : Z) (mn mx : R) (f : nat -> R) (F F1 F2 : R -> R) : Prop :=
  let h := (mx - mn) / INR (cells n bc) in
  (* the data are met *)
  (forall k, (k < n)%nat -> F (mn + INR k * h) = f k) /\
  (* one cubic in every closed cell, with F1 and F2 its derivatives *)
  (forall k, (k < cells n bc)%nat -> exists c0 c1 c2 c3, forall t, 0 <= t <= 1 ->
     F (mn + (INR k + t) * h) = c0 + c1 * t + c2 * t ^ 2 + c3 * t ^ 3 /\
     F1 (mn + (INR k + t) * h) = (c1 + 2 * c2 * t + 3 * c3 * t ^ 2) / h /\
     F2 (mn + (INR k + t) * h) = (2 * c2 + 6 * c3 * t) / (h * h)) /\
  (* twice continuously differentiable *)
  (forall x, (bc = NATURALBC -> mn < x < mx) -> Dx F x (F1 x) /\ Dx F1 x (F2 x) /\ continuity_pt F2 x) /\
  (* boundary conditions *)
  (bc = NATURALBC -> F2 mn = 0 /\ F2 mx = 0) /\
  (bc = PERIODICBC -> forall x, F (x + (mx - mn)) = F x /\ F1 (x + (mx - mn)) = F1 x /\ F2 (x + (mx - mn)) = F2 x).

Definition cubic (a : axis) (W W1 W2 : Z -> Z -> R -> R) : Prop :=
  forall i i', exists c0 c1 c2 c3, forall t,
    W i i' t = c0 + c1 * t + c2 * t ^ 2 + c3 * t ^ 3 /\ W1 i i' t = (c1 + 2 * c2 * t + 3 * c3 * t ^ 2) / agrid a /\
    W2 i i' t = (2 * c2 + 6 * c3 * t) / (agrid a * agrid a).
Lemma cubic_deriv : forall a W W1 W2 i i' t, agrid a <> 0 -> cubic a W W1 W2 ->
  Dx (W i i') t (agrid a * W1 i i' t) /\ Dx (W1 i i') t (agrid a * W2 i i' t) /\ continuity_pt (W2 i i') t.
Proof.
  intros a W W1 W2 i i' t G C. destruct (C i i') as (c0 & c1 & c2 & c3 & H). split; [|split].
  - eapply (d_ext (fun t => c0 + c1 * t + c2 * t ^ 2 + c3 * t ^ 3)); [intros; symmetry; apply H|]. eapply d_eq; [repeat der1|].
    destruct (H t) as (_ & -> & _). cbn [INR pred]. field. auto.
  - eapply (d_ext (fun t => (c1 + 2 * c2 * t + 3 * c3 * t ^ 2) / agrid a)); [intros; symmetry; apply H|]. eapply d_eq; [repeat der1; auto|].
    destruct (H t) as (_ & _ & ->). cbn [INR pred]. field. auto.
  - apply derivable_continuous_pt. exists (6 * c3 / (agrid a * agrid a)). unfold derivable_pt_abs.
    eapply (d_ext (fun t => (2 * c2 + 6 * c3 * t) / (agrid a * agrid a))); [intros; symmetry; apply H|].
    unfold Rdiv. der. ring.
Qed.
(** node values *)
Lemma node_cell : forall a k, axis_ok a -> (0 <= k < an a)%Z -> exists i i' t, on_cell a (amin a + IZR k * agrid a) i i' t /\
  ((i = k /\ t = 0) \/ (i' = k /\ t = 1)).
Proof.
  intros a k O K. pose proof O as (_ & _ & [[B N]|[B N]]).
  - destruct (Z.eq_dec k (an a - 1)) as [->|NE].
    + exists (an a - 2)%Z, (an a - 1)%Z, 1. split; [|auto]. split; [lra|]. left. split; auto. split; [lia|]. rewrite !minus_IZR. ring.
    + exists k, (k + 1)%Z, 0. split; [|auto]. split; [lra|]. left. split; auto. split; [lia|]. ring.
  - exists (k mod an a)%Z, ((k + 1) mod an a)%Z, 0. split; [|left; rewrite Z.mod_small by lia; auto]. split; [lra|]. right. split; auto.
    exists k. repeat split; auto. ring.
Qed.
(** periodicity *)
Lemma ev_period : forall a W x, axis_ok a -> fits a W -> abc a = PERIODICBC -> ev a W (x + (amax a - amin a)) = ev a W x.
Proof.
  intros a W x O F B. destruct (on_cell_ex a x O) as (i & i' & t & C). { rewrite B. discriminate. }
  rewrite (ev_cells a W O F _ _ _ _ C). apply (ev_cells a W O F).
  destruct C as [T [(B' & _)|(_ & k & -> & -> & X)]]; [rewrite B in B'; discriminate|]. split; auto. right. split; auto.
  destruct (axis_per a O B) as (N & G & M). exists (k + an a)%Z. rewrite plus_IZR.
  rewrite !(Z.add_comm k), <- !Z.add_assoc. rewrite Z.add_comm, (Z.add_comm (an a) (k + 1)).
  rewrite <- (Z.mul_1_l (an a)) at 2 5. rewrite !Z_mod_plus_full. repeat split; auto. { f_equal; lia. } rewrite X, M. ring.
Qed.

(** cell functions that fit together make a spline interpolant *)
Lemma interpolant_of : forall n bc mn mx f W W1 W2, let a := mk_axis (Z.of_nat n) bc mn mx in
  axis_ok a -> fits a W -> fits a W1 -> fits a W2 -> cubic a W W1 W2 ->
  (forall i i', ((0 <= i)%Z -> W i i' 0 = zdata f i) /\ ((0 <= i')%Z -> W i i' 1 = zdata f i')) ->
  (bc = NATURALBC -> W2 0%Z 1%Z 0 = 0 /\ W2 (Z.of_nat n - 2)%Z (Z.of_nat n - 1)%Z 1 = 0) ->
  spline_interpolant n bc mn mx f (ev a W) (ev a W1) (ev a W2).
Proof.
  intros n bc mn mx f W W1 W2 a O F0 F1 F2 C D B. pose proof (grid_pos a O) as G.
  assert (H : (mx - mn) / INR (cells n bc) = agrid a /\ mx = mn + INR (cells n bc) * agrid a).
  { pose proof O as (_ & _ & [[Q N]|[Q N]]); cbn in Q, N; unfold a; subst bc.
    - unfold cells. cbn [Z.eqb NATURALBC].
      cbn [agrid mk_axis]. unfold grid_step. cbn [Z.eqb NATURALBC]. rewrite Z.mul_1_l, minus_IZR, <- INR_IZR_INZ.
      rewrite minus_INR by lia. cbn [INR]. split; [reflexivity|]. field. assert (2 <= INR n) by (change 2 with (INR 2); apply le_INR; lia). lra.
    - unfold cells. cbn [Z.eqb NATURALBC PERIODICBC agrid mk_axis]. unfold grid_step. cbn [Z.eqb NATURALBC PERIODICBC]. rewrite Z.mul_0_r, Z.sub_0_r, <- INR_IZR_INZ.
      split; [reflexivity|]. field. assert (1 <= INR n) by (change 1 with (INR 1); apply le_INR; lia). lra. }
  destruct H as [H M]. unfold spline_interpolant. cbv zeta. rewrite H.
  assert (CE : forall k, (k < cells n bc)%nat -> exists i i', forall t, 0 <= t <= 1 -> on_cell a (mn + (INR k + t) * agrid a) i i' t).
  { intros k K. unfold cells in K. pose proof O as (_ & _ & [[Q N]|[Q N]]); cbn in Q, N; subst bc; cbn in K.
    - exists (Z.of_nat k), (Z.of_nat k + 1)%Z. intros t T. split; auto. left. split; auto. split; [cbn; lia|]. now rewrite <- INR_IZR_INZ.
    - eexists _, _. intros t T. split; auto. right. split; auto. exists (Z.of_nat k). repeat split; auto. now rewrite <- INR_IZR_INZ. }
  split; [|split; [|split; [|split]]].
  - intros k K. destruct (node_cell a (Z.of_nat k) O) as (i & i' & t & OC & E); [cbn; lia|]. rewrite <- INR_IZR_INZ in OC.
    change (amin a) with mn in OC. rewrite (ev_cells a W O F0 _ _ _ _ OC).
    replace (f k) with (zdata f (Z.of_nat k)) by (unfold zdata; now rewrite Nat2Z.id).
    destruct E as [[-> ->]|[-> ->]]; apply D; lia.
  - intros k K. destruct (CE k K) as (i & i' & E). destruct (C i i') as (c0 & c1 & c2 & c3 & P). exists c0, c1, c2, c3.
    intros t T. specialize (E t T). specialize (P t). rewrite (ev_cells a W O F0 _ _ _ _ E), (ev_cells a W1 O F1 _ _ _ _ E), (ev_cells a W2 O F2 _ _ _ _ E). exact P.
  - intros x I. assert (I' : interior a x) by exact I.
    assert (K := fun i i' t => cubic_deriv a W W1 W2 i i' t ltac:(lra) C). split; [|split].
    + apply (cells_deriv a _ (ev a W1) W W1); auto using ev_cells. intros. apply K.
    + apply (cells_deriv a _ (ev a W2) W1 W2); auto using ev_cells. intros. apply K.
    + apply (cells_cont a _ W2); auto using ev_cells. intros. apply K.
  - intros Q. destruct (B Q) as [B1 B2]. destruct (axis_nat a O Q) as (N & _ & M'). cbn in N, M'. split.
    + rewrite (ev_cells a W2 O F2 mn 0%Z 1%Z 0); auto. split; [lra|]. left. split; auto. split; [cbn; lia|]. cbn [amin a mk_axis]. ring.
    + rewrite (ev_cells a W2 O F2 mx (Z.of_nat n - 2)%Z (Z.of_nat n - 1)%Z 1); auto. split; [lra|]. left. split; auto. split; [cbn; lia|].
      rewrite minus_IZR. cbn [amin a mk_axis]. cbn [agrid a mk_axis]. rewrite M' at 1. ring.
  - intros Q x. cbn [amin amax a mk_axis]. repeat split; apply (ev_period a); auto.
Qed.

(** ** The compact form *)
Lemma fits_WE : forall a g G, axis_ok a -> spl a g G -> fits a (WE E0 a g G) /\ fits a (WE E1 a g G) /\ fits a (WE E2 a g G).
Proof. auto using fits_E0, fits_E1, fits_E2. Qed.
Lemma cubic_E : forall a g G, agrid a <> 0 -> cubic a (WE E0 a g G) (WE E1 a g G) (WE E2 a g G).
Proof.
  intros a g G H i i'. unfold WE, E0, E1, E2. set (h := agrid a) in *.
  exists (g i), (g i' - g i - h * h / 6 * (2 * G i + G i')), (h * h / 2 * G i), (h * h / 6 * (G i' - G i)).
  intros t. split; [|split]; field; auto.
Qed.
(** node values and second derivatives related in the right way make a spline interpolant *)
Lemma spl_interpolant : forall n bc mn mx g G, let a := mk_axis (Z.of_nat n) bc mn mx in
  axis_ok a -> spl a g G -> ends_zero a G ->
  spline_interpolant n bc mn mx (fun k => g (Z.of_nat k)) (ev a (WE E0 a g G)) (ev a (WE E1 a g G)) (ev a (WE E2 a g G)).
Proof.
  intros n bc mn mx g G a O S Z0. pose proof (grid_pos a O) as P. apply interpolant_of; auto using fits_E0, fits_E1, fits_E2.
  - apply cubic_E. lra.
  - intros. unfold WE, E0, zdata. split; intros; rewrite Z2Nat.id by auto; field.
  - intros B. destruct (Z0 B) as [Z1 Z2]. change (an a) with (Z.of_nat n) in Z2. unfold WE, E2. rewrite Z1, Z2. split; ring.
Qed.
Lemma eval_index : forall a x, axis_ok a -> (abc a = NATURALBC -> amin a <= x <= amax a) -> let w := wrap a x in let i := index_spl a w in
  outside a w i = false /\ (0 <= i < an a)%Z /\ (0 <= i + jump a i 1 < an a)%Z.
Proof.
  intros a x O H. destruct (on_cell_ex a x O H) as (i & i' & t & C). cbv zeta.
  pose proof (spl_located a x i i' t O C) as (A & I & J & _). auto.
Qed.
Section compact.
Variables (junk : nat -> R) (f : nat -> R) (n : nat) (bc : Z) (mn mx : R) (s : interp1D).
Hypothesis EN : enough n bc.
Hypothesis MM : mn < mx.
Hypothesis SET : interp1Dcomp_setup junk f n bc mn mx = Val s.
Let a := mk_axis (Z.of_nat n) bc mn mx.
Lemma comp_axis : axis_ok a.
Proof. apply mk_axis_ok; auto. destruct EN as [[-> ?]|[-> ?]]; [left|right]; split; auto; lia. Qed.
Definition cg (z : Z) := second f n bc (Z.to_nat z) / (agrid a * agrid a).
Lemma comp_s : i1x s = a /\ asize (i1c s) = (2 * Z.of_nat n)%Z /\
  (forall i, aget (i1c s) (i * 2)%Z = zdata f i /\ aget (i1c s) (i * 2 + 1)%Z = cg i).
Proof.
  revert SET. unfold interp1Dcomp_setup. rewrite splinecomp_val by auto.
  replace (valid_bc bc) with true by (destruct EN as [[-> _]|[-> _]]; auto). intros E. inversion E. cbn. split; [|split]; auto.
  intros i. split.
  - rewrite Z.mod_mul, Z.div_mul by lia. reflexivity.
  - replace ((i * 2 + 1) mod 2)%Z with 1%Z by (symmetry; rewrite Z.add_comm, Z_mod_plus_full; reflexivity).
    replace ((i * 2 + 1) / 2)%Z with i by (symmetry; rewrite Z.add_comm, Z_div_plus_full by lia; cbn; lia). reflexivity.
Qed.
Definition cF := ev a (WE E0 a (zdata f) cg).
Definition cF1 := ev a (WE E1 a (zdata f) cg).
Definition cF2 := ev a (WE E2 a (zdata f) cg).
Lemma comp_eval : forall x, (bc = NATURALBC -> mn <= x <= mx) ->
  interp1Dcomp_eval_f s x = Val (cF x) /\ interp1Dcomp_eval_df s x = Val (cF x, cF1 x, cF2 x).
Proof.
  intros x H. destruct comp_s as (X & Z1 & C). pose proof comp_axis as O. pose proof (grid_pos a O) as G.
  destruct (eval_index a x O H) as (Q & I & J). unfold interp1Dcomp_eval_f, interp1Dcomp_eval_df. rewrite X. cbv zeta. rewrite Q.
  unfold cF, cF1, cF2, ev. cbv zeta. set (i := index_spl a (wrap a x)) in *. set (t := frac a (wrap a x) i).
  rewrite (jump_stride a i 2). set (j := jump a i 1) in *.
  assert (R1 : forall k, In k [i * 2 + 0; i * 2 + 2 * j + 0; i * 2 + 1; i * 2 + 2 * j + 1]%Z -> (0 <= k < asize (i1c s))%Z).
  { rewrite Z1. change (an a) with (Z.of_nat n) in *. intros k [<-|[<-|[<-|[<-|[]]]]]; lia. }
  rewrite !reading_ok by exact R1. rewrite !Z.add_0_r. replace (i * 2 + 2 * j)%Z with ((i + j) * 2)%Z by ring.
  destruct (C i) as [-> ->]. destruct (C (i + j)%Z) as [-> ->]. unfold WE, E0, E1, E2. split; f_equal.
  - field.
  - apply pair_equal_spec; split; [apply pair_equal_spec; split|]; field; lra.
Qed.
Lemma comp_err : forall x, bc = NATURALBC -> ~ (mn <= x <= mx) -> interp1Dcomp_eval_f s x = Err /\ interp1Dcomp_eval_df s x = Err.
Proof.
  intros x B H. destruct comp_s as (X & _). unfold interp1Dcomp_eval_f, interp1Dcomp_eval_df. rewrite X. cbv zeta.
  pose proof (outside_true a x (index_spl a (wrap a x)) comp_axis) as [_ K]. rewrite K by (split; auto). auto.
Qed.
Lemma comp_spec : spline_interpolant n bc mn mx f cF cF1 cF2.
Proof.
  pose proof comp_axis as O. destruct (second_spl a f n O eq_refl EN) as [S Z0].
  pose proof (spl_interpolant n bc mn mx (zdata f) cg O S Z0) as H.
  replace (fun k => zdata f (Z.of_nat k)) with f in H; [exact H|].
  apply FunctionalExtensionality.functional_extensionality. intros k. unfold zdata. now rewrite Nat2Z.id.
Qed.
End compact.

(** ** The explicit form *)
Definition H0 (a b d e t : R) : R := a + t * d + t * t * (3 * (b - a) - 2 * d - e) + t * t * t * (2 * (a - b) + d + e).
Definition H1 (h a b d e t : R) : R := (d + 2 * t * (3 * (b - a) - 2 * d - e) + 3 * (t * t) * (2 * (a - b) + d + e)) / h.
Definition H2 (h a b d e t : R) : R := (2 * (3 * (b - a) - 2 * d - e) + 6 * t * (2 * (a - b) + d + e)) / (h * h).
Definition WH0 (g D : Z -> R) (i i' : Z) (t : R) := H0 (g i) (g i') (D i) (D i') t.
Definition WH1 a (g D : Z -> R) (i i' : Z) (t : R) := H1 (agrid a) (g i) (g i') (D i) (D i') t.
Definition WH2 a (g D : Z -> R) (i i' : Z) (t : R) := H2 (agrid a) (g i) (g i') (D i) (D i') t.
Lemma cubic_H : forall a g D, agrid a <> 0 -> cubic a (WH0 g D) (WH1 a g D) (WH2 a g D).
Proof.
  intros a g D H i i'. unfold WH0, WH1, WH2, H0, H1, H2.
  exists (g i), (D i), (3 * (g i' - g i) - 2 * D i - D i'), (2 * (g i - g i') + D i + D i'). intros t. split; [|split]; field; auto.
Qed.
Definition espl (a : axis) (g D : Z -> R) : Prop :=
  forall i i' i'', consec a i i' i'' -> D i + 4 * D i' + D i'' = 3 * (g i'' - g i).
Lemma fits_H : forall a g D, agrid a <> 0 -> espl a g D -> fits a (WH0 g D) /\ fits a (WH1 a g D) /\ fits a (WH2 a g D).
Proof.
  intros a g D H S. unfold fits, WH0, WH1, WH2, H0, H1, H2. split; [|split]; intros i i' i'' C.
  - ring.
  - field. auto.
  - specialize (S i i' i'' C). replace (D i'') with (3 * (g i'' - g i) - D i - 4 * D i') by lra. field. auto.
Qed.
Definition first (f : nat -> R) (n : nat) (bc : Z) : nat -> R :=
  if (bc =? NATURALBC)%Z then
    let y0 := 3 * (f 1%nat - f 0%nat) / 2 in
    td (expl_rhs f) n (1 / 2) y0 ((3 * (f (n - 1)%nat - f (n - 2)%nat) - ty (expl_rhs f) (1 / 2) y0 (n - 2)) / (2 - tp (1 / 2) (n - 2)))
  else cd (expl_rhs_per f n) n.
Lemma splineexpl_d_val : forall junk f n bc, enough n bc -> splineexpl_d junk f n bc = Val (first f n bc).
Proof.
  intros junk f n bc [[-> H]|[-> H]]; unfold splineexpl_d, first; cbn [Z.eqb NATURALBC PERIODICBC Pos.eqb];
    [destruct (Nat.ltb_spec n 2) | destruct (Nat.ltb_spec n 3)]; auto; lia.
Qed.
Lemma first_rows : forall f n, (3 <= n)%nat ->
  let D := first f n PERIODICBC in
  forall i i' i'', (i < n)%nat -> i' = (if i =? n - 1 then 0 else i + 1)%nat -> i'' = (if i' =? n - 1 then 0 else i' + 1)%nat ->
  D i + 4 * D i' + D i'' = 3 * (f i'' - f i).
Proof.
  intros f n N D i i' i'' I E E'. unfold D, first. cbn [Z.eqb NATURALBC PERIODICBC].
  destruct (Nat.eqb_spec i (n - 1)).
  - subst i i'. destruct (Nat.eqb_spec 0 (n - 1)); [lia|]. cbn in E'. subst i''. rewrite cd_row0 by auto.
    unfold expl_rhs_per. cbn [Nat.eqb]. ring.
  - subst i'. destruct (Nat.eqb_spec (i + 1) (n - 1)).
    + subst i''. replace i with (n - 2)%nat by lia. replace (n - 2 + 1)%nat with (n - 1)%nat by lia. rewrite cd_rowlast by auto.
      unfold expl_rhs_per. destruct (Nat.eqb_spec (n - 1) 0); [lia|]. rewrite Nat.eqb_refl. ring.
    + subst i''. replace (cd (expl_rhs_per f n) n i) with (cd (expl_rhs_per f n) n (i + 1 - 1)) by (f_equal; lia).
      rewrite cd_row by (auto; lia). unfold expl_rhs_per, expl_rhs. destruct (Nat.eqb_spec (i + 1) 0); [lia|].
      destruct (Nat.eqb_spec (i + 1) (n - 1)); [lia|]. replace (i + 1 - 1)%nat with i by lia. ring.
Qed.
Lemma first_espl : forall a f n, axis_ok a -> an a = Z.of_nat n -> enough n (abc a) ->
  espl a (zdata f) (zdata (first f n (abc a))) /\
  (abc a = NATURALBC -> let D := first f n NATURALBC in
     2 * D 0%nat + D 1%nat = 3 * (f 1%nat - f 0%nat) /\ D (n - 2)%nat + 2 * D (n - 1)%nat = 3 * (f (n - 1)%nat - f (n - 2)%nat)).
Proof.
  intros a f n O A E. split.
  - intros i i' i'' C. destruct E as [[B N]|[B N]].
    + destruct C as [(_ & I1 & I2 & I3 & I4)|(B' & _)]; [|rewrite B in B'; discriminate].
      rewrite B. unfold first. cbn [Z.eqb NATURALBC]. unfold zdata.
      replace (Z.to_nat i) with (Z.to_nat i' - 1)%nat by lia. replace (Z.to_nat i'') with (Z.to_nat i' + 1)%nat by lia.
      rewrite td_row by (lra || lia). reflexivity.
    + rewrite B in *. destruct (consec_nat a n i i' i'' A ltac:(lia) B C) as (K1 & K2 & K3). unfold zdata. eapply first_rows; eauto.
  - intros B D. rewrite B in E. destruct E as [[_ N]|[B' N]]; [|discriminate]. unfold D, first. cbn [Z.eqb NATURALBC]. cbv zeta. split.
    + rewrite td_first by lia. field.
    + rewrite td_step by lia. replace (n - 2 + 1)%nat with (n - 1)%nat by lia. rewrite td_last by lia.
      pose proof (tp_bound (1 / 2) ltac:(lra) (n - 2)). field. lra.
Qed.
Section explicit.
Variables (junkd : nat -> R) (junk : Z -> R) (f : nat -> R) (n : nat) (bc : Z) (mn mx : R) (s : interp1D).
Hypothesis EN : enough n bc.
Hypothesis MM : mn < mx.
Hypothesis SET : interp1Dexpl_setup junkd junk f n bc mn mx = Val s.
Let a := mk_axis (Z.of_nat n) bc mn mx.
Let d := first f n bc.
Lemma expl_axis : axis_ok a.
Proof. apply mk_axis_ok; auto. destruct EN as [[-> ?]|[-> ?]]; [left|right]; split; auto; lia. Qed.
Lemma expl_s : i1x s = a /\ asize (i1c s) = (4 * Z.of_nat n)%Z /\
  (forall i, (0 <= i < Z.of_nat n)%Z -> (bc = NATURALBC -> i < Z.of_nat n - 1)%Z ->
     forall k, (0 <= k < 4)%Z -> aget (i1c s) (i * 4 + k)%Z = expl_coeff f d n (Z.to_nat i) k).
Proof.
  revert SET. unfold interp1Dexpl_setup, splineexpl. rewrite splineexpl_d_val by auto. intros E. inversion E. cbn [i1x i1c asize aget]. split; [|split]; auto.
  intros i I B k K. rewrite Z.add_comm. rewrite Z_mod_plus_full, Z_div_plus_full by lia. rewrite (Z.div_small k), (Z.mod_small k) by lia. rewrite Z.add_0_l.
  destruct (_ && _)%bool eqn:Q; auto. exfalso. apply andb_false_iff in Q. destruct Q as [Q|Q].
  - apply Z.leb_gt in Q. lia.
  - apply Z.ltb_ge in Q. destruct EN as [[-> _]|[-> _]]; cbn [Z.eqb NATURALBC PERIODICBC Pos.eqb] in Q; [specialize (B eq_refl)|]; lia.
Qed.
Definition xF := ev a (WH0 (zdata f) (zdata d)).
Definition xF1 := ev a (WH1 a (zdata f) (zdata d)).
Definition xF2 := ev a (WH2 a (zdata f) (zdata d)).
Lemma expl_eval : forall x, (bc = NATURALBC -> mn <= x <= mx) ->
  interp1Dexpl_eval_f s x = Val (xF x) /\ interp1Dexpl_eval_df s x = Val (xF x, xF1 x, xF2 x).
Proof.
  intros x H. destruct expl_s as (X & Z1 & C). pose proof expl_axis as O. pose proof (grid_pos a O) as G.
  destruct (eval_index a x O H) as (_ & I & J).
  assert (Q : outside_e a (wrap a x) = false).
  { unfold outside_e. destruct EN as [[B _]|[B _]].
    - rewrite wrap_nat by auto. specialize (H B). cbn [amin amax a mk_axis]. destruct (Rle_dec mn x); [|lra]. destruct (Rle_dec x mx); [|lra]. apply andb_false_r.
    - cbn [abc a mk_axis]. rewrite B. reflexivity. }
  unfold interp1Dexpl_eval_f, interp1Dexpl_eval_df. rewrite X. cbv zeta. rewrite Q.
  unfold xF, xF1, xF2, ev. cbv zeta. set (i := index_spl a (wrap a x)) in *. set (t := frac a (wrap a x) i).
  change (an a) with (Z.of_nat n) in *.
  assert (R1 : forall k, In k [i * 4 + 0; i * 4 + 1; i * 4 + 2; i * 4 + 3]%Z -> (0 <= k < asize (i1c s))%Z).
  { rewrite Z1. intros k [<-|[<-|[<-|[<-|[]]]]]; lia. }
  rewrite !reading_ok by exact R1.
  assert (IB : (bc = NATURALBC -> i < Z.of_nat n - 1)%Z). { intros B. rewrite jump_nat in J by auto. lia. }
  rewrite !C by (auto; lia). unfold expl_coeff. cbn [Z.eqb Pos.eqb].
  assert (NX : Z.to_nat (i + jump a i 1) = (if (Z.to_nat i =? n - 1) then 0 else Z.to_nat i + 1)%nat).
  { unfold jump. cbn [abc an a mk_axis]. destruct EN as [[B N]|[B N]]; rewrite B; cbn [Z.eqb PERIODICBC NATURALBC Pos.eqb andb].
    - specialize (IB B). destruct (Nat.eqb_spec (Z.to_nat i) (n - 1)); lia.
    - destruct (Z.eqb_spec i (Z.of_nat n - 1)), (Nat.eqb_spec (Z.to_nat i) (n - 1)); lia. }
  unfold WH0, WH1, WH2, H0, H1, H2, zdata. rewrite NX. split; [f_equal; ring|].
  apply (f_equal Val), pair_equal_spec; split; [apply pair_equal_spec; split|]; field; lra.
Qed.
Lemma expl_err : forall x, bc = NATURALBC -> ~ (mn <= x <= mx) -> interp1Dexpl_eval_f s x = Err /\ interp1Dexpl_eval_df s x = Err.
Proof.
  intros x B H. destruct expl_s as (X & _). unfold interp1Dexpl_eval_f, interp1Dexpl_eval_df. rewrite X. cbv zeta.
  assert (K : outside_e a (wrap a x) = true); [|rewrite K; auto].
  unfold outside_e. rewrite wrap_nat by auto. cbn [amin amax abc a mk_axis]. rewrite B. cbn [Z.eqb NATURALBC andb].
  destruct (Rle_dec mn x); auto. destruct (Rle_dec x mx); auto; exfalso; lra.
Qed.
Lemma expl_spec : spline_interpolant n bc mn mx f xF xF1 xF2.
Proof.
  pose proof expl_axis as O. pose proof (grid_pos a O) as G. destruct (first_espl a f n O eq_refl EN) as [S B0].
  change (espl a (zdata f) (zdata d)) in S. destruct (fits_H a (zdata f) (zdata d) ltac:(lra) S) as (F0 & F1 & F2). apply interpolant_of; auto.
  - apply cubic_H. lra.
  - intros. unfold WH0, H0. split; intros; ring.
  - intros B. destruct (B0 B) as [Z1 Z2]. destruct EN as [[_ N]|[B' _]]; [|rewrite B in B'; discriminate].
    rewrite <- B in Z1, Z2. change (first f n bc) with d in Z1, Z2. unfold WH2, H2, zdata.
    replace (Z.to_nat (Z.of_nat n - 2)) with (n - 2)%nat by lia. replace (Z.to_nat (Z.of_nat n - 1)) with (n - 1)%nat by lia.
    change (Z.to_nat 0) with 0%nat. change (Z.to_nat 1) with 1%nat.
    replace (d 1%nat) with (3 * (f 1%nat - f 0%nat) - 2 * d 0%nat) by lra.
    replace (d (n - 2)%nat) with (3 * (f (n - 1)%nat - f (n - 2)%nat) - 2 * d (n - 1)%nat) by lra. split; field; lra.
Qed.
End explicit.
