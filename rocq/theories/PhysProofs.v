(** Proofs about the kinematic helpers. *)
From Coq Require Import Reals ZArith Lra Lia Psatz.
From Verif Require Import Vec PhysModel.
Local Open Scope R_scope.

(** ** Specification: relativistic kinematics.
    A velocity v of norm below c has Lorentz factor g with g^2 (c^2 - v^2) = c^2,
    momentum m g v and kinetic energy (g - 1) m c^2. *)
Definition lorentz (v g : R) : Prop := 0 < g /\ g * g * (CONST_C * CONST_C - v * v) = CONST_C * CONST_C.

Lemma C_pos : 0 < CONST_C.
Proof. unfold CONST_C. lra. Qed.
Lemma C_nz : CONST_C <> 0.
Proof. pose proof C_pos. lra. Qed.
Lemma sqrt_is : forall x y, 0 <= y -> x = y * y -> sqrt x = y.
Proof. intros x y H ->. now apply sqrt_square. Qed.
Global Opaque CONST_C.
Ltac pos := repeat (apply Rmult_lt_0_compat); first [assumption | exact C_pos | lra | nra].
Ltac nz := repeat split; try lra; try nra; try (apply Rgt_not_eq; nra).

Lemma lorentz_unique : forall v g g', lorentz v g -> lorentz v g' -> g = g'.
Proof.
  intros v g g' (P & E) (P' & E'). pose proof C_pos.
  assert (Q : CONST_C * CONST_C - v * v <> 0) by (intros Z; rewrite Z, Rmult_0_r in E; nra).
  assert (S : g * g = g' * g') by (apply (Rmult_eq_reg_r (CONST_C * CONST_C - v * v)); [lra|auto]).
  destruct (Rsqr_eq g g') as [|]; auto; unfold Rsqr; lra.
Qed.
Lemma lorentz_vnorm : forall v, Rabs v < CONST_C -> lorentz v (gamma_vnorm v) /\ 1 <= gamma_vnorm v.
Proof.
  intros v V. pose proof C_pos as C. apply Rabs_def2 in V. destruct V as [V1 V2].
  assert (D : 0 < (1 - v / CONST_C) * (1 + v / CONST_C)).
  { replace ((1 - v / CONST_C) * (1 + v / CONST_C)) with ((CONST_C - v) * (CONST_C + v) * / (CONST_C * CONST_C)) by (field; nz).
    apply Rmult_lt_0_compat; [nra|]. apply Rinv_0_lt_compat. nra. }
  assert (D1 : (1 - v / CONST_C) * (1 + v / CONST_C) <= 1).
  { replace ((1 - v / CONST_C) * (1 + v / CONST_C)) with (1 - Rsqr (v / CONST_C)) by (unfold Rsqr; field; nz). pose proof (Rle_0_sqr (v / CONST_C)). lra. }
  assert (G : gamma_vnorm v * gamma_vnorm v = 1 / ((1 - v / CONST_C) * (1 + v / CONST_C))).
  { unfold gamma_vnorm. apply sqrt_sqrt. apply Rlt_le, Rdiv_lt_0_compat; lra. }
  assert (P : 0 < gamma_vnorm v) by (unfold gamma_vnorm; apply sqrt_lt_R0, Rdiv_lt_0_compat; lra).
  split; [split; auto|].
  - rewrite G. field. split; [lra|]. split; nra.
  - unfold gamma_vnorm. rewrite <- sqrt_1 at 1. apply sqrt_le_1_alt. apply (Rmult_le_reg_r ((1 - v / CONST_C) * (1 + v / CONST_C))); auto.
    unfold Rdiv at 3. rewrite Rmult_assoc, Rinv_l; lra.
Qed.
Lemma vnorm_of_gamma : forall g, 1 <= g -> 0 <= vnorm_gamma g < CONST_C /\ lorentz (vnorm_gamma g) g.
Proof.
  intros g G. pose proof C_pos as C. assert (I : 0 < / (g * g) <= 1).
  { split; [apply Rinv_0_lt_compat; pos|]. rewrite <- Rinv_1. apply Rinv_le_contravar; nra. }
  assert (S : sqrt (1 - 1 / (g * g)) * sqrt (1 - 1 / (g * g)) = 1 - 1 / (g * g)) by (apply sqrt_sqrt; unfold Rdiv; lra).
  assert (S0 : 0 <= sqrt (1 - 1 / (g * g))) by apply sqrt_pos.
  assert (S1 : sqrt (1 - 1 / (g * g)) < 1). { apply Rlt_le_trans with (sqrt 1); [|rewrite sqrt_1; lra]. apply sqrt_lt_1_alt. unfold Rdiv. split; lra. }
  unfold vnorm_gamma. split; [split; nra|]. split; [lra|].
  replace (sqrt (1 - 1 / (g * g)) * CONST_C * (sqrt (1 - 1 / (g * g)) * CONST_C)) with (sqrt (1 - 1 / (g * g)) * sqrt (1 - 1 / (g * g)) * (CONST_C * CONST_C)) by ring.
  rewrite S. field; nz.
Qed.
Lemma gamma_vnorm_inv : forall g, 1 <= g -> gamma_vnorm (vnorm_gamma g) = g.
Proof.
  intros g G. destruct (vnorm_of_gamma g G) as [V L]. eapply lorentz_unique; [|exact L].
  apply lorentz_vnorm. rewrite Rabs_right; lra.
Qed.
Lemma vnorm_gamma_inv : forall v, Rabs v < CONST_C -> vnorm_gamma (gamma_vnorm v) = Rabs v.
Proof.
  intros v V. pose proof C_pos. destruct (lorentz_vnorm v V) as [[P E] G]. unfold vnorm_gamma.
  rewrite (sqrt_is _ (Rabs v / CONST_C)).
  - field; nz.
  - apply Rmult_le_pos; [apply Rabs_pos | left; now apply Rinv_0_lt_compat].
  - replace (Rabs v / CONST_C * (Rabs v / CONST_C)) with (Rsqr (Rabs v) / (CONST_C * CONST_C)) by (unfold Rsqr; field; nz).
    rewrite <- Rsqr_abs. unfold Rsqr. apply (Rmult_eq_reg_r (gamma_vnorm v * gamma_vnorm v * (CONST_C * CONST_C))); [|nra].
    transitivity (gamma_vnorm v * gamma_vnorm v * (CONST_C * CONST_C) - CONST_C * CONST_C); [field; nz|].
    rewrite <- E at 2. field; nz.
Qed.

(** momentum *)
Lemma gamma_pnorm_sq : forall m p, m <> 0 -> gamma_pnorm m p * gamma_pnorm m p = 1 + p * p / (m * m * CONST_C2) /\ 1 <= gamma_pnorm m p.
Proof.
  intros m p M. pose proof C_pos. assert (Q : 0 <= p * p / (m * m * CONST_C2)).
  { apply Rmult_le_pos; [apply Rle_0_sqr|]. left. apply Rinv_0_lt_compat. unfold CONST_C2. pose proof (Rsqr_pos_lt m M). unfold Rsqr in *. apply Rmult_lt_0_compat; [auto|nra]. }
  unfold gamma_pnorm. split; [apply sqrt_sqrt; lra|]. rewrite <- sqrt_1 at 1. apply sqrt_le_1_alt. lra.
Qed.
Lemma vnorm_pnorm_alt : forall m p, 0 < m -> vnorm_pnorm m p = p / (m * gamma_pnorm m p).
Proof.
  intros m p M. destruct (gamma_pnorm_sq m p) as [S G]; [lra|]. pose proof C_pos. unfold vnorm_pnorm. f_equal.
  apply sqrt_is; [nra|]. transitivity (m * m * (gamma_pnorm m p * gamma_pnorm m p)); [|ring]. rewrite S. unfold CONST_C2. field; nz.
Qed.
Lemma vnorm_pnorm_lorentz : forall m p, 0 < m -> lorentz (vnorm_pnorm m p) (gamma_pnorm m p).
Proof.
  intros m p M. destruct (gamma_pnorm_sq m p) as [S G]; [lra|]. pose proof C_pos. split; [lra|].
  rewrite vnorm_pnorm_alt by auto.
  transitivity (gamma_pnorm m p * gamma_pnorm m p * (CONST_C * CONST_C) - p * p / (m * m)); [field; nz|].
  rewrite S. unfold CONST_C2. field; nz.
Qed.
Lemma lorentz_below : forall v g, lorentz v g -> Rabs v < CONST_C.
Proof.
  intros v g (P & E). pose proof C_pos. assert (0 < g * g) by nra.
  assert (0 < CONST_C * CONST_C - v * v). { apply (Rmult_lt_reg_l (g * g)); auto. rewrite E. nra. }
  rewrite <- (Rabs_right CONST_C) by lra. apply Rsqr_lt_abs_0. unfold Rsqr. lra.
Qed.
Lemma pnorm_vnorm_inv : forall m p, 0 < m -> pnorm_vnorm m (vnorm_pnorm m p) = p.
Proof.
  intros m p M. pose proof (vnorm_pnorm_lorentz m p M) as L. unfold pnorm_vnorm.
  rewrite (lorentz_unique (vnorm_pnorm m p) (gamma_vnorm (vnorm_pnorm m p)) (gamma_pnorm m p)); [|apply lorentz_vnorm, (lorentz_below _ _ L)|exact L].
  rewrite vnorm_pnorm_alt by auto. field. destruct L. lra.
Qed.
Lemma pnorm_gamma : forall m v, 0 < m -> Rabs v < CONST_C -> gamma_pnorm m (pnorm_vnorm m v) = gamma_vnorm v.
Proof.
  intros m v M V. destruct (lorentz_vnorm v V) as [[P E] G]. pose proof C_pos. unfold gamma_pnorm, pnorm_vnorm. apply sqrt_is; [lra|].
  apply (Rmult_eq_reg_r (CONST_C * CONST_C)); [|nra]. unfold CONST_C2.
  transitivity (CONST_C * CONST_C + v * v * (gamma_vnorm v * gamma_vnorm v)); [field; nz|]. rewrite <- E at 1. ring.
Qed.
Lemma vnorm_pnorm_inv : forall m v, 0 < m -> Rabs v < CONST_C -> vnorm_pnorm m (pnorm_vnorm m v) = v.
Proof.
  intros m v M V. rewrite vnorm_pnorm_alt, pnorm_gamma by auto. destruct (lorentz_vnorm v V) as [_ G]. unfold pnorm_vnorm. field; nz.
Qed.
(** energy *)
Lemma energy_inv : forall m, 0 < m -> (forall g, gamma_Ekin m (Ekin_gamma m g) = g) /\ (forall e, Ekin_gamma m (gamma_Ekin m e) = e).
Proof.
  intros m M. pose proof C_nz. split; intros; unfold gamma_Ekin, Ekin_gamma, CONST_C2; field; split; lra.
Qed.
(** guiding centre: total momentum and pitch *)
Lemma gamma_ppar_sq : forall m mu ppar B, 0 < m -> 0 <= mu -> 0 <= B ->
  gamma_ppar m mu ppar B * gamma_ppar m mu ppar B = 1 + 2 * mu * B / (m * CONST_C2) + ppar * ppar / (m * m * CONST_C2) /\ 1 <= gamma_ppar m mu ppar B.
Proof.
  intros m mu ppar B M MU HB. pose proof C_pos. assert (K : 0 < CONST_C2) by (unfold CONST_C2; nra).
  assert (Q : 0 <= 2 * mu * B / (m * CONST_C2)) by (apply Rmult_le_pos; [nra|left; apply Rinv_0_lt_compat; pos]).
  assert (Q' : 0 <= ppar * ppar / (m * m * CONST_C2)) by (apply Rmult_le_pos; [apply Rle_0_sqr|left; apply Rinv_0_lt_compat; pos]).
  unfold gamma_ppar. split; [apply sqrt_sqrt; lra|]. rewrite <- sqrt_1 at 1. apply sqrt_le_1_alt. lra.
Qed.
Lemma gc_mu_nonneg : forall m p xi B, 0 < m -> 0 < B -> -1 <= xi <= 1 -> 0 <= gc_mu m p xi B.
Proof.
  intros m p xi B M HB X. unfold gc_mu. apply Rmult_le_pos; [|left; apply Rinv_0_lt_compat; pos].
  apply Rmult_le_pos; [apply Rle_0_sqr | nra].
Qed.
(** total momentum squared = parallel squared + 2 m mu B *)
Lemma gc_p_sq : forall m mu ppar B, 0 < m -> 0 <= mu -> 0 <= B ->
  gc_p m mu ppar B * gc_p m mu ppar B = ppar * ppar + 2 * m * mu * B /\ 0 <= gc_p m mu ppar B.
Proof.
  intros m mu ppar B M MU HB. destruct (gamma_ppar_sq m mu ppar B M MU HB) as [S G]. pose proof C_pos. unfold gc_p. split.
  - set (g := gamma_ppar m mu ppar B) in *. transitivity (m * m * (CONST_C * CONST_C) * (sqrt (g ^ 2 - 1) * sqrt (g ^ 2 - 1))); [ring|].
    rewrite sqrt_sqrt by nra. replace (g ^ 2) with (g * g) by ring. rewrite S. unfold CONST_C2. field; nz.
  - apply Rmult_le_pos; [nra | apply sqrt_pos].
Qed.
Lemma gc_p_inv : forall m p xi B, 0 < m -> 0 <= p -> -1 <= xi <= 1 -> 0 < B -> gc_p m (gc_mu m p xi B) (gc_ppar p xi) B = p.
Proof.
  intros m p xi B M P X HB. destruct (gc_p_sq m (gc_mu m p xi B) (gc_ppar p xi) B M (gc_mu_nonneg m p xi B M HB X) (Rlt_le _ _ HB)) as [S N].
  apply Rsqr_inj; auto. unfold Rsqr. rewrite S. unfold gc_mu, gc_ppar. field; nz.
Qed.
Lemma gc_xi_inv : forall m p xi B, 0 < m -> 0 < p -> -1 <= xi <= 1 -> 0 < B -> gc_xi m (gc_mu m p xi B) (gc_ppar p xi) B = xi.
Proof. intros m p xi B M P X HB. unfold gc_xi. rewrite gc_p_inv by (auto; lra). unfold gc_ppar. field; nz. Qed.
Lemma gc_mu_ppar_inv : forall m mu ppar B, 0 < m -> 0 <= mu -> 0 < B -> gc_p m mu ppar B <> 0 ->
  gc_ppar (gc_p m mu ppar B) (gc_xi m mu ppar B) = ppar /\ gc_mu m (gc_p m mu ppar B) (gc_xi m mu ppar B) B = mu.
Proof.
  intros m mu ppar B M MU HB N. destruct (gc_p_sq m mu ppar B M MU (Rlt_le _ _ HB)) as [S _]. unfold gc_ppar, gc_mu, gc_xi. split; [now field|].
  transitivity ((gc_p m mu ppar B * gc_p m mu ppar B - ppar * ppar) / (2 * B * m)); [field; nz|]. rewrite S. field; nz.
Qed.
Lemma gamma_agree : forall m mu ppar B, 0 < m -> 0 <= mu -> 0 <= B -> gamma_ppar m mu ppar B = gamma_pnorm m (gc_p m mu ppar B).
Proof.
  intros m mu ppar B M MU HB. destruct (gc_p_sq m mu ppar B M MU HB) as [S _]. pose proof C_pos. unfold gamma_ppar, gamma_pnorm. f_equal. rewrite S.
  unfold CONST_C2. field; nz.
Qed.
Lemma gamma_vpar_ok : forall m mu ppar B, 0 < m -> 0 <= mu -> 0 <= B ->
  gamma_vpar m mu (ppar / (m * gamma_ppar m mu ppar B)) B = gamma_ppar m mu ppar B.
Proof.
  intros m mu ppar B M MU HB. destruct (gamma_ppar_sq m mu ppar B M MU HB) as [S G]. pose proof C_pos. unfold gamma_vpar.
  set (g := gamma_ppar m mu ppar B) in *. apply sqrt_is; [lra|]. set (k := 1 + 2 * mu * B / (m * CONST_C2)) in *.
  assert (K : 0 < k). { unfold k. assert (0 <= 2 * mu * B / (m * CONST_C2)); [|lra]. apply Rmult_le_pos; [nra|left; apply Rinv_0_lt_compat; unfold CONST_C2; pos]. }
  assert (E : (1 - ppar / (m * g) / CONST_C) * (1 + ppar / (m * g) / CONST_C) = k / (g * g)).
  { transitivity (1 - ppar * ppar / (m * m * CONST_C2) / (g * g)); [unfold CONST_C2; field; nz|].
    replace (ppar * ppar / (m * m * CONST_C2)) with (g * g - k) by lra. field; nz. }
  rewrite E. field; nz.
Qed.
Lemma ppar_Ekin_inv : forall m mu ppar B, 0 < m -> 0 <= mu -> 0 <= B -> ppar_Ekin m (Ekin_ppar m mu ppar B) mu B = Rabs ppar.
Proof.
  intros m mu ppar B M MU HB. destruct (gamma_ppar_sq m mu ppar B M MU HB) as [S G]. pose proof C_pos. unfold ppar_Ekin.
  change (Ekin_ppar m mu ppar B) with (Ekin_gamma m (gamma_ppar m mu ppar B)). destruct (energy_inv m M) as [-> _].
  apply sqrt_is; [apply Rabs_pos|]. rewrite S. change (Rabs ppar * Rabs ppar) with (Rsqr (Rabs ppar)). rewrite <- Rsqr_abs. unfold Rsqr, CONST_C2. field; nz.
Qed.
Lemma ppar_mu_inv : forall m mu ppar B q, 0 < m -> 0 <= mu -> 0 < B -> q <> 0 -> ppar_mu m mu B q (gyrofreq_ppar m q mu ppar B) = Rabs ppar.
Proof.
  intros m mu ppar B q M MU HB Q. destruct (gamma_ppar_sq m mu ppar B M MU (Rlt_le _ _ HB)) as [S G]. pose proof C_pos. unfold ppar_mu, gyrofreq_ppar.
  set (g := gamma_ppar m mu ppar B) in *. assert (A : 0 < Rabs q) by now apply Rabs_pos_lt.
  assert (W : q * q = Rabs q * Rabs q) by (apply (Rsqr_abs q)).
  assert (E : q * B / (Rabs q * B / (m * g) * m) * (q * B / (Rabs q * B / (m * g) * m)) = g * g).
  { transitivity (q * q / (Rabs q * Rabs q) * (g * g)); [field; nz|]. rewrite W. field; nz. }
  rewrite E, S. replace (sqrt _) with (Rabs ppar / (m * CONST_C)); [field; nz|]. symmetry. apply sqrt_is.
  - apply Rmult_le_pos; [apply Rabs_pos|left; apply Rinv_0_lt_compat; pos].
  - transitivity (Rsqr (Rabs ppar) / (m * m * CONST_C2)); [rewrite <- Rsqr_abs; unfold Rsqr; ring|]. unfold Rsqr, CONST_C2. field; nz.
Qed.
(** the kinetic energy grows with the momentum *)
Lemma Ekin_mono : forall m p p', 0 < m -> 0 <= p < p' -> 0 <= Ekin_pnorm m p < Ekin_pnorm m p'.
Proof.
  intros m p p' M P. destruct (gamma_pnorm_sq m p) as [S G]; [lra|]. pose proof C_pos. assert (K : 0 < CONST_C2) by (unfold CONST_C2; nra).
  assert (L : gamma_pnorm m p < gamma_pnorm m p').
  { unfold gamma_pnorm. apply sqrt_lt_1_alt. split.
    - assert (0 <= p * p / (m * m * CONST_C2)); [|lra]. apply Rmult_le_pos; [nra|left; apply Rinv_0_lt_compat; pos].
    - apply Rplus_lt_compat_l, Rmult_lt_compat_r; [apply Rinv_0_lt_compat; pos | nra]. }
  unfold Ekin_pnorm. assert (0 < m * CONST_C2) by nra. rewrite !Rmult_assoc. split; nra.
Qed.
(** gyroradius: perpendicular momentum over |q| B *)
Lemma gyro_p_parallel : forall q (p B : vec), q <> 0 -> B <> vzero -> gyrolength_p q p B = dot p (unit B) / (Rabs q * norm B).
Proof.
  intros q p B Q HB. pose proof (norm_pos B HB) as N. pose proof (norm_sq B) as S. pose proof (Rabs_pos_lt q Q).
  assert (D : dot p (unit B) = dot p B / norm B). { destruct p as [p1 p2 p3], B as [b1 b2 b3]. unfold dot, unit. cbn [vx vy vz] in *. unfold Rdiv. ring. }
  unfold gyrolength_p. rewrite D, <- S. field; nz.
Qed.
Lemma gyro_ppar : forall m q mu ppar B, 0 < m -> 0 <= mu -> 0 < B -> q <> 0 ->
  gyrolength_ppar m q mu ppar B = sqrt (gamma_ppar m mu ppar B) * (sqrt (2 * m * mu * B) / (Rabs q * B)).
Proof.
  intros m q mu ppar B M MU HB Q. destruct (gamma_ppar_sq m mu ppar B M MU (Rlt_le _ _ HB)) as [S G]. pose proof (Rabs_pos_lt q Q).
  unfold gyrolength_ppar. set (g := gamma_ppar m mu ppar B) in *.
  replace (2 * m * mu * g / B) with (g * (2 * m * mu * B / (B * B))) by (field; nz). rewrite sqrt_mult_alt by lra.
  rewrite sqrt_div_alt by nra. rewrite sqrt_square by lra. field; nz.
Qed.
