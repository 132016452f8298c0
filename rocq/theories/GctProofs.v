From Coq Require Import Reals List Bool Lra Lia Psatz Nsatz.
From Verif Require Import Deriv Vec MathModel MathProofs Math2Model StepFoModel StepFoProofs GsProofs BiosawProofs GctModel.
Import ListNotations.
Local Open Scope R_scope.

Lemma veq : forall a b, vx a = vx b -> vy a = vy b -> vz a = vz b -> a = b.
Proof. intros [a1 a2 a3] [b1 b2 b3]. cbn [vx vy vz]. intros -> -> ->. reflexivity. Qed.
Lemma nzt : forall x, neqb0 x = true <-> x <> 0.
Proof. intros x. unfold neqb0. destruct (Req_EM_T x 0); split; intros H; try discriminate; try tauto; auto. Qed.
Lemma nzf : forall x, neqb0 x = false <-> x = 0.
Proof. intros x. unfold neqb0. destruct (Req_EM_T x 0); split; intros H; try discriminate; try tauto; auto. Qed.

(** ** The basis *)
Definition flat (b : vec) : R := vx b * vx b + vy b * vy b.
Lemma e1_val : forall b, e1 b = V (vy b / sqrt (flat b)) (- vx b / sqrt (flat b)) 0.
Proof.
  intros b. unfold e1, unit, norm, cross, flat. cbn [vx vy vz].
  replace ((vy b * 1 - vz b * 0) * (vy b * 1 - vz b * 0) + (vz b * 0 - vx b * 1) * (vz b * 0 - vx b * 1) + (vx b * 0 - vy b * 0) * (vx b * 0 - vy b * 0)) with (vx b * vx b + vy b * vy b) by ring.
  apply f_equal3; unfold Rdiv; ring.
Qed.
Record frame (b u v : vec) : Prop := FR { f_b : dot b b = 1; f_u : dot u u = 1; f_v : dot v v = 1; f_bu : dot b u = 0; f_bv : dot b v = 0; f_uv : dot u v = 0; f_x : cross b u = v }.
Lemma e_frame : forall b, dot b b = 1 -> flat b <> 0 -> frame b (e1 b) (e2 b).
Proof.
  intros b N F. assert (P : 0 < flat b) by (assert (0 <= flat b) by (unfold flat; nra); lra). pose proof (sqrt_sqrt _ (Rlt_le _ _ P)) as S2. pose proof (sqrt_lt_R0 _ P) as S1.
  unfold e2. rewrite e1_val. set (h := sqrt (flat b)) in *. clearbody h. unfold flat in *.
  assert (U : dot (V (vy b / h) (- vx b / h) 0) (V (vy b / h) (- vx b / h) 0) = 1).
  { unfold dot. cbn [vx vy vz]. transitivity ((vx b * vx b + vy b * vy b) / (h * h)); [field; lra|rewrite S2; field; lra]. }
  assert (BU : dot b (V (vy b / h) (- vx b / h) 0) = 0) by (unfold dot; cbn [vx vy vz]; field; lra).
  constructor; auto.
  - rewrite lagrange, N, U, BU. ring.
  - apply dot_cross_l.
  - apply dot_cross_r.
Qed.
Lemma frame_turn : forall b u v, frame b u v -> cross b v = vscal (-1) u.
Proof. intros b u v [F1 F2 F3 F4 F5 F6 F7]. rewrite <- F7, bac_cab, F1, F4. destruct b, u. vunf. f_equal; ring. Qed.
(** a vector is the sum of its components *)
Lemma frame_sum : forall b u v w, frame b u v -> w = vadd (vscal (dot w b) b) (vadd (vscal (dot w u) u) (vscal (dot w v) v)).
Proof.
  intros b u v w [F1 F2 F3 F4 F5 F6 F7]. subst v. destruct b as [b0 b1 b2], u as [u0 u1 u2], w as [w0 w1 w2]. vunf. apply veq; cbn [vx vy vz]; nsatz.
Qed.
Lemma rhov_val : forall b z, rhov b z = vadd (vscal (cos z) (e1 b)) (vscal (- sin z) (e2 b)).
Proof. intros. unfold rhov. apply veq; unfold vadd, vscal; cbn [vx vy vz]; ring. Qed.
Lemma perpv_val : forall b z, perpv b z = vadd (vscal (- sin z) (e1 b)) (vscal (- cos z) (e2 b)).
Proof. intros. unfold perpv. apply veq; unfold vadd, vscal; cbn [vx vy vz]; ring. Qed.
Lemma dot_add_l : forall a b c, dot (vadd a b) c = dot a c + dot b c. Proof. vring. Qed.
Lemma dot_add_r : forall a b c, dot c (vadd a b) = dot c a + dot c b. Proof. vring. Qed.
Lemma dot_scal_l : forall k a c, dot (vscal k a) c = k * dot a c. Proof. vring. Qed.
Lemma dot_scal_r : forall k a c, dot c (vscal k a) = k * dot c a. Proof. vring. Qed.
Lemma dot_sym : forall a b, dot a b = dot b a. Proof. vring. Qed.
Lemma cross_add_r : forall a b c, cross c (vadd a b) = vadd (cross c a) (cross c b). Proof. vring. Qed.
Lemma cross_scal_r : forall k a c, cross c (vscal k a) = vscal k (cross c a). Proof. vring. Qed.
Lemma vscal_vscal : forall a b v, vscal a (vscal b v) = vscal (a * b) v. Proof. vring. Qed.
Lemma perp_frame : forall b z, dot b b = 1 -> flat b <> 0 -> frame b (perpv b z) (rhov b z).
Proof.
  intros b z N F. pose proof (e_frame b N F) as E. pose proof (frame_turn _ _ _ E) as T. destruct E as [F1 F2 F3 F4 F5 F6 F7]. pose proof (cs1 z) as S.
  assert (F6' : dot (e2 b) (e1 b) = 0) by (rewrite dot_sym; auto).
  rewrite perpv_val, rhov_val. constructor; auto; rewrite ?dot_add_l, ?dot_add_r, ?dot_scal_l, ?dot_scal_r, ?dot_add_r, ?dot_scal_r, ?F2, ?F3, ?F4, ?F5, ?F6, ?F6'; try lra.
  rewrite cross_add_r, !cross_scal_r, F7, T, vscal_vscal. apply veq; unfold vadd, vscal; cbn [vx vy vz]; ring.
Qed.
(** the gyroangle of a unit vector across the field *)
Lemma gyro_angle : forall b n, dot b b = 1 -> flat b <> 0 -> dot b n = 0 -> dot n n = 1 ->
  let z := atan2 (- dot (cross b n) (e2 b)) (dot (cross b n) (e1 b)) in perpv b z = n /\ rhov b z = cross b n.
Proof.
  intros b n N F BN NN z. pose proof (e_frame b N F) as E. pose proof (frame_turn _ _ _ E) as T. set (rho := cross b n) in *.
  assert (RR : dot rho rho = 1) by (unfold rho; rewrite lagrange, N, NN, BN; ring). assert (RB : dot rho b = 0) by (rewrite dot_sym; apply dot_cross_l).
  pose proof (frame_sum _ _ _ rho E) as S. rewrite RB in S.
  destruct (atan2_spec (- dot rho (e2 b)) (dot rho (e1 b))) as [C D]. fold z in C, D.
  assert (H : dot rho (e1 b) * dot rho (e1 b) + - dot rho (e2 b) * - dot rho (e2 b) = 1).
  { transitivity (dot rho (vadd (vscal 0 b) (vadd (vscal (dot rho (e1 b)) (e1 b)) (vscal (dot rho (e2 b)) (e2 b))))); [rewrite !dot_add_r, !dot_scal_r; ring|rewrite <- S; exact RR]. }
  rewrite H, sqrt_1, Rmult_1_l in C, D.
  assert (Q : rhov b z = rho). { rewrite rhov_val, C, D. rewrite S at 3. apply veq; unfold vadd, vscal; cbn [vx vy vz]; ring. }
  split; auto.
  assert (K : n = vscal (-1) (cross b rho)). { unfold rho. rewrite bac_cab, BN, N. apply veq; unfold vsub, vscal; cbn [vx vy vz]; ring. }
  rewrite K, <- Q, rhov_val, perpv_val. rewrite cross_add_r, !cross_scal_r, T. unfold e2. apply veq; unfold vadd, vscal; cbn [vx vy vz]; ring.
Qed.

(** ** Particle to guiding center, spelled out *)
(** the Cartesian field vector *)
Definition bvec (B : nat -> R) (phi : R) : vec := to_xyz (V (B 0%nat) (B 4%nat) (B 8%nat)) phi.
Lemma bnorm_val : forall B phi, bnorm B = norm (bvec B phi).
Proof. intros. unfold bvec. symmetry. apply (norm_eq (to_xyz (V (B 0%nat) (B 4%nat) (B 8%nat)) phi) (V (B 0%nat) (B 4%nat) (B 8%nat))). apply to_xyz_dot. Qed.
Lemma bhat_val : forall B r phi, bhat (bnorm B) (jac_rpz2xyz B r phi) = unit (bvec B phi).
Proof. intros. rewrite (bnorm_val B phi). unfold bhat, unit, bvec, to_xyz, jac_rpz2xyz. reflexivity. Qed.
Lemma unit_dot : forall v, norm v <> 0 -> dot (unit v) (unit v) = 1.
Proof. intros v N. rewrite <- norm_sq, unit_norm; [ring|]. intros E. apply N. now apply norm_zero. Qed.
Lemma dot_unit : forall v w, dot v (unit w) * norm w = dot v w \/ norm w = 0.
Proof. intros v w. destruct (Req_dec (norm w) 0); [tauto|left]. unfold dot, unit. cbn [vx vy vz]. field. auto. Qed.
Lemma sqrt_sq_mul : forall a b, 0 <= a -> 0 <= b -> sqrt (a * a * b) = a * sqrt b.
Proof. intros. rewrite sqrt_mult by nra. rewrite sqrt_square; auto. Qed.
(** perpendicular momentum *)
Definition across (b p : vec) : vec := vsub p (vscal (dot p b) b).
Lemma across_b : forall b p, dot b b = 1 -> dot b (across b p) = 0.
Proof. intros b p H. unfold across. transitivity (dot b p - dot p b * dot b b); [destruct b, p; vunf; ring|rewrite H, (dot_sym b p); ring]. Qed.
Lemma gyro_val : forall m q bn v, 0 < m -> 0 < bn -> q <> 0 -> gyrolen m q bn (dot v v / (2 * m * bn)) = norm v / (bn * Rabs q).
Proof.
  intros m q bn v M BN Q. unfold gyrolen. rewrite (proj2 (nzt q)) by auto.
  replace (2 * m * (dot v v / (2 * m * bn)) / bn) with ((norm v / bn) * (norm v / bn)).
  2:{ replace (norm v / bn * (norm v / bn)) with (norm v * norm v / (bn * bn)) by (field; lra). rewrite norm_sq. field. split; lra. }
  rewrite sqrt_square; [|apply Rmult_le_pos; [apply norm_nonneg|left; now apply Rinv_0_lt_compat]]. field. split; [now apply Rabs_no_R0|lra].
Qed.
(** the signed unit vector and the gyrovector of the code *)
Definition perph (q : R) (v : vec) : vec := let u := unit v in if Rlt_dec q 0 then V (- vx u) (- vy u) (- vz u) else u.
Lemma perph_val : forall q v, perph q v = vscal (if Rlt_dec q 0 then -1 else 1) (unit v).
Proof. intros. unfold perph. destruct (Rlt_dec q 0); apply veq; unfold vscal; cbn [vx vy vz]; ring. Qed.
Lemma perph_dot : forall q v, norm v <> 0 -> dot (perph q v) (perph q v) = 1.
Proof. intros. rewrite perph_val, dot_scal_l, dot_scal_r, unit_dot by auto. destruct (Rlt_dec q 0); ring. Qed.
Lemma perph_b : forall q b v, dot b v = 0 -> dot b (perph q v) = 0.
Proof. intros. rewrite perph_val, unit_scal, !dot_scal_r, H. ring. Qed.

Lemma rpz_back : forall x, rpz2xyz (xyz2rpz x) = x /\ 0 <= vx (xyz2rpz x).
Proof.
  intros x. unfold rpz2xyz, xyz2rpz. cbn [vx vy vz]. destruct (atan2_spec (vy x) (vx x)) as [A B]. split; [apply veq; cbn [vx vy vz]; auto|apply sqrt_pos].
Qed.
Lemma nonvert : forall b, nonvertical b = true <-> flat b <> 0.
Proof. intros. apply nzt. Qed.

Section P2G.
Variables (order : bool) (m q : R) (B : nat -> R) (r phi z pr pphi pz : R).
Let p := to_xyz (V pr pphi pz) phi.
Let b := unit (bvec B phi).
Let w := across b p.
Let bn := bnorm B.
Let X := jac_rpz2xyz B r phi.
Let mu0 := dot w w / (2 * m * bn).
Let rho := cross b (perph q w).
Let first := (order && neqb0 q)%bool.
Lemma p2g_eq : p2g order m q B r phi z pr pphi pz =
  GCO (guard (neqb0 bn && neqb0 (norm w)) (xyz2rpz (vsub (rpz2xyz (V r phi z)) (vscal (gyrolen m q bn mu0) rho))))
      (guard (neqb0 bn && (negb first || neqb0 (norm w) && neqb0 r)) (dot p b + (if order then ppar1 m q bn X (dot p b) mu0 rho (perph q w) else 0)))
      (guard (neqb0 bn && (negb first || neqb0 (norm w) && neqb0 r)) (if order then Rabs (mu0 + mu1 m q bn X (dot p b) mu0 rho (perph q w)) else mu0))
      (guard (neqb0 bn && neqb0 (norm w) && nonvertical b && (negb first || neqb0 r))
        (fmod (2 * PI + (atan2 (- dot rho (e2 b)) (dot rho (e1 b)) + (if order then zeta1 m q bn X (dot p b) mu0 rho (perph q w) else 0))) (2 * PI))).
Proof.
  unfold p2g. cbv zeta. rewrite bhat_val. fold b p bn X.
  change (V (vx p - (vx p * vx b + vy p * vy b + vz p * vz b) * vx b) (vy p - (vx p * vx b + vy p * vy b + vz p * vz b) * vy b) (vz p - (vx p * vx b + vy p * vy b + vz p * vz b) * vz b)) with w.
  change (vx p * vx b + vy p * vy b + vz p * vz b) with (dot p b). fold mu0.
  change (if Rlt_dec q 0 then V (- vx (unit w)) (- vy (unit w)) (- vz (unit w)) else unit w) with (perph q w). fold rho. fold first.
  f_equal. 2:destruct order; [reflexivity|rewrite Rplus_0_r; reflexivity]. destruct order; [reflexivity|rewrite Rplus_0_r; reflexivity].
Qed.
End P2G.

(** ** Where the guiding center is *)
Definition cart (x : vec) : vec := rpz2xyz x.
Lemma sign_abs : forall q, q <> 0 -> (if Rlt_dec q 0 then -1 else 1) / Rabs q = / q.
Proof. intros q Q. destruct (Rlt_dec q 0); [rewrite Rabs_left by lra; field; lra|rewrite Rabs_right by lra; field; lra]. Qed.
Lemma cross_across : forall b p, cross b (across b p) = cross b p.
Proof. intros b p. unfold across. destruct b, p. vunf. f_equal; ring. Qed.
Lemma across_zero : forall b p, norm (across b p) = 0 -> dot b b = 1 -> cross b p = vzero.
Proof. intros b p N D. apply norm_zero in N. rewrite <- cross_across, N. destruct b as [b0 b1 b2]. unfold cross, vzero. cbn [vx vy vz]. f_equal; ring. Qed.
Lemma bn_pos : forall B, bnorm B <> 0 -> 0 < bnorm B.
Proof. intros B H. pose proof (sqrt_pos (B 0%nat * B 0%nat + B 4%nat * B 4%nat + B 8%nat * B 8%nat)). unfold bnorm in *. lra. Qed.
Lemma gc_position : forall order m q B r phi z pr pphi pz, 0 < m -> bnorm B <> 0 ->
  let p := to_xyz (V pr pphi pz) phi in let b := unit (bvec B phi) in
  match o_pos (p2g order m q B r phi z pr pphi pz) with
  | Some P => cross b p <> vzero /\ 0 <= vx P /\ - PI < vy P <= PI /\
              cart P = if neqb0 q then vsub (cart (V r phi z)) (vscal (/ (q * bnorm B)) (cross b p)) else cart (V r phi z)
  | None => cross b p = vzero
  end.
Proof.
  intros order m q B r phi z pr pphi pz M N p b. rewrite p2g_eq. cbn [o_pos]. fold p b. rewrite (proj2 (nzt _) N). cbn [andb].
  assert (BB : dot b b = 1) by (apply unit_dot; now rewrite <- bnorm_val).
  destruct (neqb0 (norm (across b p))) eqn:W; cbn [guard].
  - apply nzt in W. split; [|destruct (rpz_back (vsub (rpz2xyz (V r phi z)) (vscal (gyrolen m q (bnorm B) (dot (across b p) (across b p) / (2 * m * bnorm B))) (cross b (perph q (across b p)))))) as [E P]; split; [exact P|split; [apply atan2_range|]]].
    + intros E. apply W. apply norm_zero. apply dot_zero. rewrite <- cross_across in E. pose proof (lagrange b (across b p)) as L. rewrite E, across_b, BB in L by auto. unfold dot at 1, vzero in L. cbn [vx vy vz] in L. lra.
    + unfold cart. rewrite E. clear E P. destruct (neqb0 q) eqn:Q.
      * apply nzt in Q. rewrite gyro_val by (auto; now apply bn_pos). f_equal. rewrite perph_val, unit_scal, vscal_vscal, cross_scal_r, cross_across, vscal_vscal. f_equal.
        pose proof (sign_abs q Q) as S. set (k := if Rlt_dec q 0 then -1 else 1) in *. clearbody k. transitivity (/ bnorm B * (k / Rabs q)); [field; repeat split; auto; now apply Rabs_no_R0|]. rewrite S. field. auto.
      * unfold gyrolen. rewrite Q. apply veq; unfold vsub, vscal; cbn [vx vy vz]; ring.
  - apply across_zero; [now apply nzf|auto].
Qed.
(** in a uniform field that point moves along the field with the parallel velocity, whatever
    the particle does across it *)
Definition vel (f : R -> vec) (t : R) (d : vec) : Prop := Dx (fun s => vx (f s)) t (vx d) /\ Dx (fun s => vy (f s)) t (vy d) /\ Dx (fun s => vz (f s)) t (vz d).
Lemma gc_centre_moves : forall (x p : R -> vec) gm q B t, gm <> 0 -> q <> 0 -> B <> vzero ->
  vel x t (vscal (/ gm) (p t)) -> vel p t (vscal (q / gm) (cross (p t) B)) ->
  let b := unit B in vel (fun s => vsub (x s) (vscal (/ (q * norm B)) (cross b (p s)))) t (vscal (dot (p t) b / gm) b).
Proof.
  intros x p gm q B t G Q NB [X1 [X2 X3]] [P1 [P2 P3]] b. pose proof (norm_pos B NB) as N.
  assert (EB : B = vscal (norm B) b). { unfold b. rewrite unit_scal, vscal_vscal, Rinv_r by lra. apply veq; unfold vscal; cbn [vx vy vz]; ring. }
  assert (BB : dot b b = 1) by (apply unit_dot; lra). set (n := norm B) in *. rewrite EB in P1, P2, P3. clearbody n b. clear EB NB.
  destruct b as [b0 b1 b2]. unfold dot in BB. cbn [vx vy vz] in BB.
  set (p0 := p t) in *. unfold vel, vsub, vscal, cross, dot in *. cbn [vx vy vz] in *.
  assert (K : forall a c, gm * (q * n) * a = gm * (q * n) * c -> a = c) by (intros a c E; apply (Rmult_eq_reg_l (gm * (q * n))); [exact E|]; repeat apply Rmult_integral_contrapositive_currified; auto; lra).
  repeat split; (eapply d_eq; [apply d_minus; [eassumption|apply d_mult; [apply d_const|apply d_minus; apply d_mult; [apply d_const|eassumption|apply d_const|eassumption]]]|]); cbv beta; apply K; (field_simplify; [|repeat split; auto; lra|repeat split; auto; lra]).
  all: assert (S0 : b0 * b0 = 1 - b1 * b1 - b2 * b2) by lra; ring [S0].
Qed.

(** ** Round trips *)
Lemma trig_Z : forall x n, cos (x - 2 * PI * IZR n) = cos x /\ sin (x - 2 * PI * IZR n) = sin x.
Proof.
  intros x n. destruct (Z_le_dec 0 n) as [H|H].
  - rewrite <- (Z2Nat.id n) by auto. rewrite <- INR_IZR_INZ. set (k := Z.to_nat n). set (y := x - 2 * PI * INR k). replace x with (y + 2 * INR k * PI) by (unfold y; ring). now rewrite cos_period, sin_period.
  - assert (E : IZR n = - INR (Z.to_nat (- n))) by (rewrite INR_IZR_INZ, Z2Nat.id by lia; rewrite opp_IZR; ring). rewrite E. replace (x - 2 * PI * - INR (Z.to_nat (- n))) with (x + 2 * INR (Z.to_nat (- n)) * PI) by ring. now rewrite cos_period, sin_period.
Qed.
Lemma trig_fmod : forall a, cos (fmod (2 * PI + a) (2 * PI)) = cos a /\ sin (fmod (2 * PI + a) (2 * PI)) = sin a.
Proof.
  intros a. destruct (fmod_congr (2 * PI + a) (2 * PI)) as [n E]. rewrite E. replace (2 * PI + a - 2 * PI * IZR n) with (a - 2 * PI * IZR (n - 1)) by (rewrite minus_IZR; ring). apply trig_Z.
Qed.
Lemma v_fmod : forall b a, perpv b (fmod (2 * PI + a) (2 * PI)) = perpv b a /\ rhov b (fmod (2 * PI + a) (2 * PI)) = rhov b a.
Proof. intros b a. destruct (trig_fmod a) as [C S]. unfold perpv, rhov. now rewrite C, S. Qed.
Lemma to_xyz_inv : forall v phi, to_xyz (V (vx v * cos phi + vy v * sin phi) (- vx v * sin phi + vy v * cos phi) (vz v)) phi = v.
Proof.
  intros v phi. pose proof (cs1 phi) as S. unfold to_xyz. apply veq; cbn [vx vy vz]; auto.
  - transitivity (vx v * (sin phi * sin phi + cos phi * cos phi)); [ring|rewrite S; ring].
  - transitivity (vy v * (sin phi * sin phi + cos phi * cos phi)); [ring|rewrite S; ring].
Qed.
Lemma to_xyz_back : forall v phi, let p := to_xyz v phi in V (vx p * cos phi + vy p * sin phi) (- vx p * sin phi + vy p * cos phi) (vz p) = v.
Proof.
  intros v phi p. pose proof (cs1 phi) as S. unfold p, to_xyz. apply veq; cbn [vx vy vz]; auto.
  - transitivity (vx v * (sin phi * sin phi + cos phi * cos phi)); [ring|rewrite S; ring].
  - transitivity (vy v * (sin phi * sin phi + cos phi * cos phi)); [ring|rewrite S; ring].
Qed.
Lemma across_sum : forall b p q, norm (across b p) <> 0 -> vadd (vscal (dot p b) b) (vscal ((if Rlt_dec q 0 then -1 else 1) * norm (across b p)) (perph q (across b p))) = p.
Proof.
  intros b p q N. rewrite perph_val, unit_scal, !vscal_vscal. replace ((if Rlt_dec q 0 then -1 else 1) * norm (across b p) * (if Rlt_dec q 0 then -1 else 1) * / norm (across b p)) with 1 by (destruct (Rlt_dec q 0); field; auto).
  unfold across. apply veq; unfold vadd, vscal, vsub; cbn [vx vy vz]; ring.
Qed.
Lemma momentum_back : forall m q B phi p zeta, 0 < m -> let bb := bvec B phi in let b := unit bb in let w := across b p in
  norm bb <> 0 -> flat b <> 0 -> norm w <> 0 -> perpv b zeta = perph q w ->
  exists v, ppm2p m q B phi (dot p b) (dot w w / (2 * m * norm bb)) zeta = Some v /\ to_xyz v phi = p.
Proof.
  intros m q B phi p zeta M bb b w N F W Z. unfold ppm2p. fold (bvec B phi). fold bb b. rewrite Z. assert (NP : 0 < norm bb) by (pose proof (norm_nonneg bb); lra).
  rewrite (proj2 (nzt _) N), (proj2 (nonvert _) F).
  assert (E : 2 * m * norm bb * (dot w w / (2 * m * norm bb)) = norm w * norm w) by (rewrite norm_sq; field; split; lra). rewrite E. rewrite sqrt_square by apply norm_nonneg.
  destruct (Rlt_dec (norm w * norm w) 0) as [L|_]; [pose proof (Rle_0_sqr (norm w)); unfold Rsqr in *; lra|]. cbn [andb guard].
  eexists. split; [reflexivity|]. etransitivity; [|exact (across_sum b p q W)]. fold w.
  match goal with |- to_xyz (V (vx ?u * _ + _) _ _) phi = _ => rewrite (to_xyz_inv u phi) end.
  apply veq; unfold vadd, vscal; cbn [vx vy vz]; destruct (Rlt_dec q 0); ring.
Qed.
Lemma cross_nz : forall b p, dot b b = 1 -> cross b p <> vzero -> norm (across b p) <> 0.
Proof. intros b p D C E. apply C. now apply across_zero. Qed.
(** zeroth order *)
Lemma round_zero : forall m q B r phi z pr pphi pz, 0 < m -> bnorm B <> 0 -> let b := unit (bvec B phi) in let p := to_xyz (V pr pphi pz) phi in
  flat b <> 0 -> cross b p <> vzero ->
  exists mu zeta, let g := p2g false m q B r phi z pr pphi pz in o_ppar g = Some (dot p b) /\ o_mu g = Some mu /\ o_zeta g = Some zeta /\
  0 < mu /\ 2 * m * bnorm B * mu = dot (cross b p) (cross b p) /\ 0 <= zeta < 2 * PI /\ ppm2p m q B phi (dot p b) mu zeta = Some (V pr pphi pz).
Proof.
  intros m q B r phi z pr pphi pz M N b p F C. assert (BB : dot b b = 1) by (apply unit_dot; now rewrite <- bnorm_val). pose proof (cross_nz b p BB C) as W. pose proof (bn_pos B N) as NP.
  set (w := across b p) in *. set (rho := cross b (perph q w)). set (z0 := atan2 (- dot rho (e2 b)) (dot rho (e1 b))).
  exists (dot w w / (2 * m * bnorm B)), (fmod (2 * PI + z0) (2 * PI)). cbv zeta. rewrite p2g_eq. cbn [o_ppar o_mu o_zeta andb negb orb]. fold b p. fold w. fold rho. fold z0.
  rewrite (proj2 (nzt _) N), (proj2 (nzt _) W), (proj2 (nonvert _) F). cbn [andb guard]. rewrite !Rplus_0_r.
  split; [reflexivity|]. split; [reflexivity|]. split; [reflexivity|]. split; [|split; [|split]].
  - apply Rdiv_lt_0_compat; [rewrite <- norm_sq; pose proof (norm_nonneg w); nra|]. apply Rmult_lt_0_compat; lra.
  - rewrite <- cross_across. fold w. rewrite lagrange, BB. unfold w. rewrite across_b by auto. field. split; lra.
  - apply fmod_range. pose proof PI_RGT_0. lra.
  - destruct (gyro_angle b (perph q w) BB F (perph_b q b w (across_b b p BB)) (perph_dot q w W)) as [Z1 _]. fold rho in Z1. fold z0 in Z1.
    destruct (momentum_back m q B phi p (fmod (2 * PI + z0) (2 * PI)) M) as [v [E T]]; fold b; try (fold w); auto; [now rewrite <- bnorm_val|rewrite (proj1 (v_fmod b z0)); exact Z1|].
    fold b w in E. rewrite (bnorm_val B phi). rewrite E. f_equal. rewrite <- (to_xyz_back v phi). rewrite T. unfold p. apply to_xyz_back.
Qed.

(** the derivatives the code computes vanish *)
Definition still (X : nat -> R) : Prop := forall k, (k < 12)%nat -> (k <> 0 /\ k <> 4 /\ k <> 8)%nat -> X k = 0.
Section Still.
Variables (m q bn : R) (X : nat -> R).
Hypothesis ST : still X.
Local Ltac zz := repeat match goal with |- context [X ?k] => lazymatch k with 0%nat => fail | 4%nat => fail | 8%nat => fail | _ => rewrite (ST k) by lia end end.
Lemma still_grad : gradB bn X = vzero.
Proof. unfold gradB, vzero. cbv zeta. rewrite !(ST 1%nat), !(ST 2%nat), !(ST 3%nat), !(ST 5%nat), !(ST 6%nat), !(ST 7%nat), !(ST 9%nat), !(ST 10%nat), !(ST 11%nat) by lia. f_equal; ring. Qed.
Lemma still_curl : curlB X = vzero.
Proof. unfold curlB, vzero. rewrite !(ST 2%nat), !(ST 3%nat), !(ST 5%nat), !(ST 7%nat), !(ST 9%nat), !(ST 10%nat) by lia. f_equal; ring. Qed.
Lemma still_nabla : forall k, nablab bn X k = 0.
Proof.
  intros k. unfold nablab. rewrite still_grad. cbn [vx vy vz vzero]. rewrite !(ST 1%nat), !(ST 2%nat), !(ST 3%nat), !(ST 5%nat), !(ST 6%nat), !(ST 7%nat), !(ST 9%nat), !(ST 10%nat), !(ST 11%nat) by lia.
  do 9 (destruct k as [|k]; [unfold Rdiv; ring|]). reflexivity.
Qed.
Lemma still_kappa : kappa bn X = vzero.
Proof. unfold kappa. rewrite still_grad. unfold vzero, dot. cbn [vx vy vz]. rewrite !(ST 1%nat), !(ST 2%nat), !(ST 3%nat), !(ST 5%nat), !(ST 6%nat), !(ST 7%nat), !(ST 9%nat), !(ST 10%nat), !(ST 11%nat) by lia. f_equal; unfold Rdiv; ring. Qed.
Lemma still_a : forall rho p, tau bn X + a1ddotgradb rho p (nablab bn X) = 0 /\ a2ddotgradb rho p (nablab bn X) = 0.
Proof. intros. unfold tau, a1ddotgradb, a2ddotgradb. rewrite still_curl, !still_nabla. unfold dot, vzero, Rdiv. cbn [vx vy vz]. split; ring. Qed.
Lemma still_first : forall ppar mu rho p, ppar1 m q bn X ppar mu rho p = 0 /\ mu1 m q bn X ppar mu rho p = 0 /\ zeta1 m q bn X ppar mu rho p = 0.
Proof.
  intros. destruct (still_a rho p) as [A1 A2]. unfold ppar1, mu1, zeta1. rewrite A1, A2, still_kappa, still_grad. destruct (neqb0 q); [|auto].
  unfold Rvec. rewrite !still_nabla. unfold dot, vzero, Rdiv. cbn [vx vy vz]. repeat split; ring.
Qed.
End Still.
Lemma uniform_round : forall order m q B r phi z pr pphi pz, 0 < m -> bnorm B <> 0 -> r <> 0 -> let b := unit (bvec B phi) in let p := to_xyz (V pr pphi pz) phi in
  flat b <> 0 -> cross b p <> vzero -> (order = true -> still (jac_rpz2xyz B r phi)) ->
  exists P mu zeta, p2g order m q B r phi z pr pphi pz = GCO (Some P) (Some (dot p b)) (Some mu) (Some zeta) /\ 0 < mu /\ 0 <= zeta < 2 * PI /\
  forall B', bvec B' (vy P) = bvec B phi -> vx P <> 0 -> (order = true -> still (jac_rpz2xyz B' (vx P) (vy P))) ->
  exists P2, g2p order m q B' (vx P) (vy P) (vz P) (dot p b) mu zeta = GCO (Some P2) (Some (dot p b)) (Some mu) (Some zeta) /\ cart P2 = cart (V r phi z) /\
  forall B2, bvec B2 (vy P2) = bvec B phi -> exists v, ppm2p m q B2 (vy P2) (dot p b) mu zeta = Some v /\ to_xyz v (vy P2) = p.
Proof.
  intros order m q B r phi z pr pphi pz M N R0 b p F C ST. assert (BB : dot b b = 1) by (apply unit_dot; now rewrite <- bnorm_val). pose proof (cross_nz b p BB C) as W. pose proof (bn_pos B N) as NP.
  set (w := across b p) in *. set (rho := cross b (perph q w)). set (z0 := atan2 (- dot rho (e2 b)) (dot rho (e1 b))). set (mu := dot w w / (2 * m * bnorm B)). set (zeta := fmod (2 * PI + z0) (2 * PI)).
  set (x := vsub (rpz2xyz (V r phi z)) (vscal (gyrolen m q (bnorm B) mu) rho)).
  assert (MU : 0 < mu) by (unfold mu; apply Rdiv_lt_0_compat; [rewrite <- norm_sq; pose proof (norm_nonneg w); nra|apply Rmult_lt_0_compat; lra]).
  destruct (gyro_angle b (perph q w) BB F (perph_b q b w (across_b b p BB)) (perph_dot q w W)) as [Z1 Z2]. fold rho in Z1, Z2. fold z0 in Z1, Z2.
  destruct (v_fmod b z0) as [V1 V2]. fold zeta in V1, V2. rewrite Z1 in V1. rewrite Z2 in V2.
  exists (xyz2rpz x), mu, zeta. split; [|split; [exact MU|split; [apply fmod_range; pose proof PI_RGT_0; lra|]]].
  - rewrite p2g_eq. cbv zeta. fold b p. fold w. fold rho. fold mu. fold z0. fold x. rewrite (proj2 (nzt _) N), (proj2 (nzt _) W), (proj2 (nonvert _) F), (proj2 (nzt _) R0). cbn [andb]. rewrite !orb_true_r. cbn [guard].
    destruct order; [|rewrite !Rplus_0_r; reflexivity]. destruct (still_first m q (bnorm B) _ (ST eq_refl) (dot p b) mu rho (perph q w)) as (S1 & S2 & S3). rewrite S1, S2, S3, !Rplus_0_r. rewrite (Rabs_pos_eq mu) by lra. reflexivity.
  - intros B' EB RP ST'. destruct (rpz_back x) as [RB _].
    assert (N' : bnorm B' = bnorm B) by (rewrite (bnorm_val B phi), <- EB; apply bnorm_val).
    exists (xyz2rpz (vadd x (vscal (gyrolen m q (bnorm B) mu) rho))). split; [|split].
    + unfold g2p. cbv zeta. rewrite bhat_val, EB, N'. fold b. rewrite V1, V2. change (V (vx (xyz2rpz x)) (vy (xyz2rpz x)) (vz (xyz2rpz x))) with (xyz2rpz x). rewrite RB.
      rewrite (proj2 (nzt _) N), (proj2 (nonvert _) F), (proj2 (nzt _) RP), (proj2 (nzt mu)) by lra. destruct (Rlt_dec mu 0) as [L|_]; [lra|]. cbn [andb]. rewrite !orb_true_r. cbn [guard andb].
      destruct order; [|reflexivity]. destruct (still_first m q (bnorm B) _ (ST' eq_refl) (dot p b) mu rho (perph q w)) as (S1 & S2 & S3). rewrite S1, S2, S3, !Rminus_0_r, V2. rewrite !(Rabs_pos_eq mu) by lra. reflexivity.
    + unfold cart. destruct (rpz_back (vadd x (vscal (gyrolen m q (bnorm B) mu) rho))) as [RB2 _]. rewrite RB2. unfold x. apply veq; unfold vadd, vsub, vscal; cbn [vx vy vz]; ring.
    + intros B2 EB2. assert (N2 : norm (bvec B phi) = bnorm B) by (symmetry; apply bnorm_val).
      destruct (momentum_back m q B2 (vy (xyz2rpz (vadd x (vscal (gyrolen m q (bnorm B) mu) rho)))) p zeta M) as [v [E T]]; rewrite ?EB2; fold b; try (fold w); auto; [now rewrite N2|].
      rewrite EB2 in E. fold b in E. fold w in E. rewrite N2 in E. fold mu in E. exists v. auto.
Qed.
(** when that happens in a uniform field *)
Lemma uniform_still : forall J r phi z K, r <> 0 -> still J -> cyl_jac J r phi z K -> (still (jac_rpz2xyz K r phi) <-> J 0%nat = 0).
Proof.
  intros J r phi z K R0 U C. split.
  - intros S. pose proof (S 5%nat ltac:(lia) ltac:(lia)) as S5. pose proof (S 6%nat ltac:(lia) ltac:(lia)) as S6. rewrite (rpz2xyz_spec J r phi z K R0 C) in S5, S6 by lia. rewrite (U 5%nat) in S5 by lia. rewrite (U 6%nat) in S6 by lia.
    pose proof (cs1 phi) as T. assert (A : J 0%nat * sin phi = 0) by (replace (J 0%nat * sin phi) with ((0 + 2 * J 0%nat * sin phi / r) * r / 2) by (field; auto); rewrite S5; field). assert (D : J 0%nat * cos phi = 0) by (replace (J 0%nat * cos phi) with (- (0 + - 2 * J 0%nat * cos phi / r) * r / 2) by (field; auto); rewrite S6; field).
    replace (J 0%nat) with (J 0%nat * sin phi * sin phi + J 0%nat * cos phi * cos phi) by (transitivity (J 0%nat * (sin phi * sin phi + cos phi * cos phi)); [ring|rewrite T; ring]). rewrite A, D. ring.
  - intros E k Hk NE. rewrite (rpz2xyz_spec J r phi z K R0 C) by auto. rewrite (U k) by auto. rewrite E. do 12 (destruct k as [|k]; [unfold Rdiv; ring|]). lia.
Qed.

(** ** The field quantities *)
(** the affine field with value and Cartesian Jacobian [X], and its directional derivative *)
Definition aff (X : nat -> R) (y : vec) : vec :=
  V (X 0%nat + X 1%nat * vx y + X 2%nat * vy y + X 3%nat * vz y) (X 4%nat + X 5%nat * vx y + X 6%nat * vy y + X 7%nat * vz y) (X 8%nat + X 9%nat * vx y + X 10%nat * vy y + X 11%nat * vz y).
Definition jv (X : nat -> R) (u : vec) : vec :=
  V (X 1%nat * vx u + X 2%nat * vy u + X 3%nat * vz u) (X 5%nat * vx u + X 6%nat * vy u + X 7%nat * vz u) (X 9%nat * vx u + X 10%nat * vy u + X 11%nat * vz u).
Definition divB (X : nat -> R) : R := X 1%nat + X 6%nat + X 11%nat.
Definition jf (X : nat -> R) (u v : vec) : R := dot u (jv X v).
Lemma d_norm3 : forall F t d, vel F t d -> norm (F t) <> 0 -> Dx (fun s => norm (F s)) t (dot (unit (F t)) d).
Proof.
  intros F t d (D1 & D2 & D3) N. assert (P : 0 < norm (F t)) by (pose proof (norm_nonneg (F t)); lra).
  assert (Q : 0 < vx (F t) * vx (F t) + vy (F t) * vy (F t) + vz (F t) * vz (F t)) by (change (0 < dot (F t) (F t)); rewrite <- norm_sq; nra).
  unfold norm in *. eapply d_eq; [apply d_sqrt; [apply d_plus; [apply d_plus|]; apply d_mult; eassumption|exact Q]|]. cbv beta.
  unfold dot, unit, norm. cbn [vx vy vz]. field. exact N.
Qed.
Lemma aff0 : forall X, aff X vzero = V (X 0%nat) (X 4%nat) (X 8%nat).
Proof. intros. unfold aff, vzero. cbn [vx vy vz]. f_equal; ring. Qed.
Lemma aff_vel : forall X y t d, vel y t d -> vel (fun s => aff X (y s)) t (jv X d).
Proof.
  intros X y t d (D1 & D2 & D3). unfold vel, aff, jv. cbn [vx vy vz]. repeat split; (eapply d_eq; [apply d_plus; [apply d_plus; [apply d_plus; [apply d_const|]|]|]; (apply d_mult; [apply d_const|eassumption])|cbv beta; ring]).
Qed.
Lemma unit_vel : forall F t d, vel F t d -> norm (F t) <> 0 -> let b := unit (F t) in vel (fun s => unit (F s)) t (vscal (/ norm (F t)) (vsub d (vscal (dot b d) b))).
Proof.
  intros F t d D N b. pose proof (d_norm3 F t d D N) as DN. destruct D as (D1 & D2 & D3). fold b in DN. unfold vel, vscal, vsub. cbn [vx vy vz].
  repeat split; (eapply d_eq; [unfold unit; cbn [vx vy vz]; apply d_div; [eassumption|exact DN|exact N]|]); cbv beta; set (k := dot b d); clearbody k; unfold b, unit; cbn [vx vy vz]; field; exact N.
Qed.
Section Field.
Variable X : nat -> R.
Let B0 := V (X 0%nat) (X 4%nat) (X 8%nat).
Let bn := norm B0.
Let b := bhat bn X.
Hypothesis N : bn <> 0.
Lemma b_unit : b = unit B0. Proof. reflexivity. Qed.
Lemma b_one : dot b b = 1. Proof. rewrite b_unit. now apply unit_dot. Qed.
Lemma grad_dot : forall v, dot v (gradB bn X) = jf X b v.
Proof. intros. unfold gradB, jf, jv, dot. fold b. cbn [vx vy vz]. ring. Qed.
Lemma kappa_dot : forall v, dot v (kappa bn X) = (jf X b v - jf X b b * dot b v) / bn.
Proof. intros. unfold kappa. rewrite grad_dot. fold b. unfold jf, jv, dot. cbn [vx vy vz]. field. exact N. Qed.
Lemma curl_dot : forall u v, dot v (cross (curlB X) u) = jf X v u - jf X u v.
Proof. intros. unfold curlB, jf, jv, dot, cross. cbn [vx vy vz]. ring. Qed.
Lemma a1_val : forall rho p, a1ddotgradb rho p (nablab bn X) = - (1 / 2) * (jf X rho p + jf X p rho - jf X b rho * dot b p - jf X b p * dot b rho) / bn.
Proof. intros. rewrite <- !grad_dot. unfold a1ddotgradb, nablab. cbv beta iota zeta. fold b. set (g := gradB bn X). clearbody g. unfold jf, jv, dot. cbn [vx vy vz]. replace (- 0.5) with (- (1 / 2)) by lra. field. exact N. Qed.
Lemma a2_val : forall rho p, a2ddotgradb rho p (nablab bn X) = 1 / 4 * (jf X p p - jf X rho rho - jf X b p * dot b p + jf X b rho * dot b rho) / bn.
Proof. intros. rewrite <- !grad_dot. unfold a2ddotgradb, nablab. cbv beta iota zeta. fold b. set (g := gradB bn X). clearbody g. unfold jf, jv, dot. cbn [vx vy vz]. replace 0.25 with (1 / 4) by lra. field. exact N. Qed.
Lemma jf_trace : forall u v, frame b u v -> jf X b b + jf X u u + jf X v v = divB X.
Proof.
  intros u v [F1 F2 F3 F4 F5 F6 F7]. clear - F1 F2 F4 F7. subst v. generalize b F1 F2 F4. clear. intros [b0 b1 b2]. destruct u as [u0 u1 u2]. unfold jf, jv, divB. vunf. intros F1 F2 F4.
  set (v0 := b1 * u2 - b2 * u1). set (v1 := b2 * u0 - b0 * u2). set (v2 := b0 * u1 - b1 * u0).
  assert (E00 : b0 * b0 + u0 * u0 + v0 * v0 = 1) by (unfold v0; nsatz). assert (E11 : b1 * b1 + u1 * u1 + v1 * v1 = 1) by (unfold v1; nsatz). assert (E22 : b2 * b2 + u2 * u2 + v2 * v2 = 1) by (unfold v2; nsatz).
  assert (E01 : b0 * b1 + u0 * u1 + v0 * v1 = 0) by (unfold v0, v1; nsatz). assert (E02 : b0 * b2 + u0 * u2 + v0 * v2 = 0) by (unfold v0, v2; nsatz). assert (E12 : b1 * b2 + u1 * u2 + v1 * v2 = 0) by (unfold v1, v2; nsatz).
  clearbody v0 v1 v2.
  transitivity (X 1%nat * (b0 * b0 + u0 * u0 + v0 * v0) + X 6%nat * (b1 * b1 + u1 * u1 + v1 * v1) + X 11%nat * (b2 * b2 + u2 * u2 + v2 * v2)
    + (X 2%nat + X 5%nat) * (b0 * b1 + u0 * u1 + v0 * v1) + (X 3%nat + X 9%nat) * (b0 * b2 + u0 * u2 + v0 * v2) + (X 7%nat + X 10%nat) * (b1 * b2 + u1 * u2 + v1 * v2)); [ring|]. rewrite E00, E11, E22, E01, E02, E12. ring.
Qed.
(** the unit vector field: Jacobian, torsion, curvature, double products *)
Lemma unit_field : exists gx gy gz, has_jacobian (fun y => unit (aff X y)) vzero gx gy gz /\
  let n u := V (dot gx u) (dot gy u) (dot gz u) in
  dot b (curl_of gx gy gz) = tau bn X /\
  kappa bn X = vsub (n b) (vscal (/ bn) (cross (curlB X) b)) /\
  (forall rho p, dot b rho = 0 -> dot b p = 0 ->
     a1ddotgradb rho p (nablab bn X) = - (1 / 2) * (dot rho (n p) + dot p (n rho)) /\
     a2ddotgradb rho p (nablab bn X) = 1 / 4 * (dot p (n p) - dot rho (n rho))) /\
  nablab bn X 0%nat + nablab bn X 4%nat + nablab bn X 8%nat = div_of gx gy gz.
Proof.
  assert (NA : norm (aff X vzero) <> 0) by (now rewrite aff0).
  assert (A : forall y u, y 0 = vzero -> vel y 0 u -> vel (fun s => unit (aff X (y s))) 0 (vscal (/ bn) (vsub (jv X u) (vscal (jf X b u) b)))).
  { intros y u Y D. pose proof (unit_vel (fun s => aff X (y s)) 0 (jv X u) (aff_vel X y 0 u D)) as U. cbv beta in U. rewrite Y in U. specialize (U NA). rewrite aff0 in U. exact U. }
  assert (E0 : vel (fun t => V t 0 0) 0 (V 1 0 0)) by (repeat split; cbn [vx vy vz]; [apply d_id|apply d_const|apply d_const]).
  assert (E1 : vel (fun t => V 0 t 0) 0 (V 0 1 0)) by (repeat split; cbn [vx vy vz]; [apply d_const|apply d_id|apply d_const]).
  assert (E2 : vel (fun t => V 0 0 t) 0 (V 0 0 1)) by (repeat split; cbn [vx vy vz]; [apply d_const|apply d_const|apply d_id]).
  destruct (A _ _ eq_refl E0) as (A0 & A1 & A2). destruct (A _ _ eq_refl E1) as (B1 & B2 & B3). destruct (A _ _ eq_refl E2) as (C0 & C1 & C2). clear A E0 E1 E2.
  pose (cv i u := list3 (vscal (/ bn) (vsub (jv X u) (vscal (jf X b u) b))) i).
  exists (V (cv 0%nat (V 1 0 0)) (cv 0%nat (V 0 1 0)) (cv 0%nat (V 0 0 1))), (V (cv 1%nat (V 1 0 0)) (cv 1%nat (V 0 1 0)) (cv 1%nat (V 0 0 1))), (V (cv 2%nat (V 1 0 0)) (cv 2%nat (V 0 1 0)) (cv 2%nat (V 0 0 1))).
  split; [repeat split; assumption|]. clear A0 A1 A2 B1 B2 B3 C0 C1 C2. cbv zeta.
  pose proof b_one as O. 
  split; [|split; [|split]].
  - unfold tau. fold b. unfold curlB, curl_of, cv, list3, vscal, vsub, jf, jv, dot. cbn [vx vy vz]. field. exact N.
  - apply veq.
    1: transitivity (dot (V 1 0 0) (kappa bn X)); [unfold dot; cbn [vx vy vz]; ring|].
    2: transitivity (dot (V 0 1 0) (kappa bn X)); [unfold dot; cbn [vx vy vz]; ring|].
    3: transitivity (dot (V 0 0 1) (kappa bn X)); [unfold dot; cbn [vx vy vz]; ring|].
    all: rewrite kappa_dot; unfold cv, list3, vscal, vsub, cross, curlB, jf, jv, dot; cbn [vx vy vz]; field; exact N.
  - intros rho p R1 P1. rewrite a1_val, a2_val, R1, P1. assert (R1' : dot rho b = 0) by (rewrite dot_sym; auto). assert (P1' : dot p b = 0) by (rewrite dot_sym; auto). clear - R1' P1' N.
    assert (K : forall u v, dot v b = 0 -> dot v (V (dot (V (cv 0%nat (V 1 0 0)) (cv 0%nat (V 0 1 0)) (cv 0%nat (V 0 0 1))) u) (dot (V (cv 1%nat (V 1 0 0)) (cv 1%nat (V 0 1 0)) (cv 1%nat (V 0 0 1))) u) (dot (V (cv 2%nat (V 1 0 0)) (cv 2%nat (V 0 1 0)) (cv 2%nat (V 0 0 1))) u)) = jf X v u / bn).
    { intros u v Z. transitivity ((jf X v u - jf X b u * dot v b) / bn); [|rewrite Z; field; exact N]. clear Z. unfold cv, list3, vscal, vsub, jf, jv, dot. cbn [vx vy vz]. field. exact N. }
    rewrite !K by auto. split; field; exact N.
  - unfold nablab, div_of, gradB. cbv beta iota zeta. fold b. unfold cv, list3, vscal, vsub, jf, jv, dot. cbn [vx vy vz]. field. exact N.
Qed.
(** the curvature of the code is the one of the field lines just when no current crosses the field *)
Lemma curvature_iff : forall k, vel (fun t => unit (aff X (vscal t b))) 0 k -> (kappa bn X = k <-> cross (curlB X) b = vzero).
Proof.
  intros k D. assert (NA : norm (aff X (vscal 0 b)) <> 0) by (unfold vscal; rewrite !Rmult_0_l; fold vzero; now rewrite aff0).
  assert (L : vel (fun t => vscal t b) 0 b) by (repeat split; unfold vscal; cbn [vx vy vz]; (eapply d_eq; [apply d_mult; [apply d_id|apply d_const]|cbv beta; ring])).
  pose proof (unit_vel _ 0 _ (aff_vel X _ 0 b L) NA) as U. cbv beta in U. replace (vscal 0 b) with vzero in U by (unfold vscal, vzero; f_equal; ring). rewrite aff0 in U. fold B0 in U. fold bn in U. rewrite <- b_unit in U.
  assert (EK : k = vscal (/ bn) (vsub (jv X b) (vscal (dot b (jv X b)) b))).
  { destruct D as (D1 & D2 & D3), U as (U1 & U2 & U3). apply veq; eapply d_uniq; eauto. }
  assert (KK : vsub k (kappa bn X) = vscal (/ bn) (cross (curlB X) b)).
  { apply veq.
    1: transitivity (dot (V 1 0 0) k - dot (V 1 0 0) (kappa bn X)); [unfold vsub, dot; cbn [vx vy vz]; ring|].
    2: transitivity (dot (V 0 1 0) k - dot (V 0 1 0) (kappa bn X)); [unfold vsub, dot; cbn [vx vy vz]; ring|].
    3: transitivity (dot (V 0 0 1) k - dot (V 0 0 1) (kappa bn X)); [unfold vsub, dot; cbn [vx vy vz]; ring|].
    all: rewrite kappa_dot, EK; unfold vscal, vsub, cross, curlB, jf, jv, dot; cbn [vx vy vz]; field; exact N. }
  split; intros E.
  - rewrite E in KK. assert (Z : forall c, 0 = / bn * c -> c = 0) by (intros c H; replace c with (bn * (/ bn * c)) by (field; exact N); rewrite <- H; ring).
    unfold vsub in KK. rewrite !Rminus_diag_eq in KK by reflexivity. apply veq; apply Z; [exact (f_equal vx KK)|exact (f_equal vy KK)|exact (f_equal vz KK)].
  - rewrite E in KK. destruct (kappa bn X) as [k0 k1 k2], k as [c0 c1 c2]. unfold vsub, vscal, vzero in KK. cbn [vx vy vz] in KK. rewrite Rmult_0_r in KK.
    pose proof (f_equal vx KK) as Q1. pose proof (f_equal vy KK) as Q2. pose proof (f_equal vz KK) as Q3. cbn [vx vy vz] in Q1, Q2, Q3. apply f_equal3; lra.
Qed.
End Field.

(** ** The first order terms *)
(** the magnetic moment of momentum p in field F *)
Definition mu_at (m : R) (F p : vec) : R := dot (cross (unit F) p) (cross (unit F) p) / (2 * m * norm F).
Definition sgn (q : R) : R := if Rlt_dec q 0 then -1 else 1.
(** momentum with given parallel part, magnetic moment and gyroangle *)
Definition momentum (m q bn : R) (b : vec) (ppar mu zeta : R) : vec := vadd (vscal ppar b) (vscal (sgn q * sqrt (2 * m * bn * mu)) (perpv b zeta)).
Lemma jf_add_l : forall X u v w, jf X (vadd u v) w = jf X u w + jf X v w. Proof. intros. apply dot_add_l. Qed.
Lemma jf_scal_l : forall X k u w, jf X (vscal k u) w = k * jf X u w. Proof. intros. apply dot_scal_l. Qed.
Lemma jf_add_r : forall X u v w, jf X w (vadd u v) = jf X w u + jf X w v. Proof. intros. unfold jf, jv, dot, vadd. cbn [vx vy vz]. ring. Qed.
Lemma jf_scal_r : forall X k u w, jf X w (vscal k u) = k * jf X w u. Proof. intros. unfold jf, jv, dot, vscal. cbn [vx vy vz]. ring. Qed.
Lemma d_dot : forall f g t a c, vel f t a -> vel g t c -> Dx (fun s => dot (f s) (g s)) t (dot a (g t) + dot (f t) c).
Proof.
  intros f g t a c (A1 & A2 & A3) (C1 & C2 & C3). unfold dot. eapply d_eq; [apply d_plus; [apply d_plus|]; apply d_mult; eassumption|]. cbv beta. ring.
Qed.
Lemma perp_vel : forall b z, vel (perpv b) z (vscal (-1) (rhov b z)) /\ vel (rhov b) z (perpv b z).
Proof.
  intros b z. unfold vel, perpv, rhov, vscal. cbn [vx vy vz]. repeat split; der; ring.
Qed.
Lemma cross_sq : forall b p, dot b b = 1 -> dot (cross b p) (cross b p) = dot p p - dot p b * dot p b.
Proof. intros b p H. rewrite lagrange, H, (dot_sym b p). ring. Qed.
Section First.
Variables (m q : R) (X : nat -> R) (ppar mu zeta : R).
Let B0 := V (X 0%nat) (X 4%nat) (X 8%nat).
Let bn := norm B0.
Let b := bhat bn X.
Hypothesis N : bn <> 0.
Hypothesis M : 0 < m.
Hypothesis Q : q <> 0.
Hypothesis FL : flat b <> 0.
Hypothesis MU : 0 <= mu.
Let n := perpv b zeta.
Let rho := rhov b zeta.
Let P := sqrt (2 * m * bn * mu).
Let NP : 0 < bn. Proof. unfold bn in *. pose proof (norm_nonneg B0). lra. Qed.
Let PP : P * P = 2 * m * bn * mu. Proof. apply sqrt_sqrt. apply Rmult_le_pos; auto. pose proof NP. apply Rmult_le_pos; lra. Qed.
Let GY : gyrolen m q bn mu = P / (bn * Rabs q).
Proof.
  unfold gyrolen. rewrite (proj2 (nzt q) Q). pose proof NP as NP'. replace (2 * m * mu / bn) with ((P / bn) * (P / bn)) by (transitivity (P * P / (bn * bn)); [field; lra|rewrite PP; field; lra]).
  rewrite sqrt_square; [field; split; [now apply Rabs_no_R0|lra]|]. apply Rmult_le_pos; [apply sqrt_pos|left; apply Rinv_0_lt_compat; lra].
Qed.
Let SG : sgn q / Rabs q = / q. Proof. apply sign_abs. exact Q. Qed.
Let SG2 : sgn q * sgn q = 1. Proof. unfold sgn. destruct (Rlt_dec q 0); ring. Qed.
Let QA : q = sgn q * Rabs q. Proof. unfold sgn. destruct (Rlt_dec q 0); [rewrite Rabs_left by lra; ring|rewrite Rabs_right by lra; ring]. Qed.
Lemma mu_invariant : forall (y p : R -> vec) gm, gm <> 0 -> y 0 = vzero -> p 0 = momentum m q bn b ppar mu zeta ->
  vel y 0 (vscal (/ gm) (p 0)) -> vel p 0 (vscal (q / gm) (cross (p 0) B0)) ->
  exists d0 d1, Dx (fun t => mu_at m (aff X (y t)) (p t)) 0 d0 /\ Dx (fun s => mu1 m q bn X ppar mu (rhov b s) (perpv b s)) zeta d1 /\
  d0 + q * bn / gm * d1 = - / gm * (ppar * mu / bn * divB X + ppar * ppar / (m * (bn * bn)) * dot (across b (p 0)) (cross (curlB X) b)).
Proof.
  intros y p gm G Y0 P0 DY DP.
  pose proof (b_one X N) as O. fold B0 in O. fold bn in O. fold b in O.
  pose proof (perp_frame b zeta O FL) as FR0. fold n rho in FR0. destruct FR0 as [F1 F2 F3 F4 F5 F6 F7]. pose proof (FR _ _ _ F1 F2 F3 F4 F5 F6 F7) as FR0.
  pose proof (jf_trace X n rho FR0) as TR. fold B0 in TR. fold bn in TR. fold b in TR.
  set (p0 := p 0) in *. pose (G0 := jv X (vscal (/ gm) p0)).
  assert (NA : norm (aff X (y 0)) <> 0) by (rewrite Y0, aff0; exact N).
  pose proof (aff_vel X y 0 _ DY) as DA. fold G0 in DA. pose proof (unit_vel _ 0 _ DA NA) as DU. pose proof (d_norm3 _ 0 _ DA NA) as DN. cbv beta in DU, DN. rewrite Y0, aff0 in DU, DN. fold B0 in DU, DN. fold bn in DU. change (unit B0) with b in DU, DN.
  pose proof (d_dot _ _ 0 _ _ DP DP) as DPP. pose proof (d_dot _ _ 0 _ _ DP DU) as DPB. cbv beta in DPP, DPB. rewrite Y0, aff0 in DPB. change (unit (V (X 0%nat) (X 4%nat) (X 8%nat))) with b in DPB. fold p0 in DPP, DPB.
  assert (EB : B0 = vscal bn b) by (rewrite (b_unit X : b = unit B0), unit_scal, vscal_vscal; fold bn; rewrite Rinv_r by exact N; apply veq; unfold vscal; cbn [vx vy vz]; ring).
  assert (Z1 : dot (vscal (q / gm) (cross p0 B0)) p0 = 0) by (rewrite dot_scal_l, dot_sym, dot_cross_l; ring).
  assert (Z2 : dot (vscal (q / gm) (cross p0 B0)) b = 0) by (rewrite EB, dot_scal_l, cross_scal_r, dot_scal_l, dot_sym, dot_cross_r; ring).
  assert (Z1' : dot p0 (vscal (q / gm) (cross p0 B0)) = 0) by (rewrite dot_sym; exact Z1). rewrite Z1, Z1' in DPP. rewrite Z2 in DPB.
  assert (NR : near 0 (fun t => norm (aff X (y t)) <> 0)) by (eapply near_cont; [exact DN|exact NA]).
  assert (D0 : Dx (fun t => mu_at m (aff X (y t)) (p t)) 0 (((0 + 0) - 2 * dot p0 b * (0 + dot p0 (vscal (/ bn) (vsub G0 (vscal (dot b G0) b)))) - (dot p0 p0 - dot p0 b * dot p0 b) / bn * dot b G0) / (2 * m * bn))).
  { eapply d_near with (f := fun t => (dot (p t) (p t) - dot (p t) (unit (aff X (y t))) * dot (p t) (unit (aff X (y t)))) / (2 * m * norm (aff X (y t)))).
    - eapply near_imp; [|exact NR]. cbv beta. intros t H. unfold mu_at. rewrite cross_sq by (now apply unit_dot). reflexivity.
    - eapply d_eq; [apply d_div; [apply d_minus; [exact DPP|apply d_mult; exact DPB]|apply d_mult; [apply d_const|exact DN]|]|]; cbv beta; rewrite ?Y0, ?aff0; fold B0; fold bn; change (unit B0) with b; fold p0.
      + apply Rmult_integral_contrapositive_currified; lra.
      + field. split; lra. }
  destruct (perp_vel b zeta) as [VN VR]. fold n rho in VN, VR.
  assert (D1 : Dx (fun s => mu1 m q bn X ppar mu (rhov b s) (perpv b s)) zeta (gyrolen m q bn mu / bn * (mu * jf X b n + ppar * ppar / m * (jf X b n / bn)) + ppar * mu / (q * bn) * ((jf X n n - jf X rho rho) / bn))).
  { apply d_ext with (f := fun s => gyrolen m q bn mu / bn * (mu * dot (rhov b s) (gradB bn X) + ppar * ppar / m * dot (rhov b s) (kappa bn X)) - ppar * mu / (q * bn) * (tau bn X + - (1 / 2) * (dot (rhov b s) (jv X (perpv b s)) + dot (perpv b s) (jv X (rhov b s))) / bn)).
    - intros s. unfold mu1. rewrite (proj2 (nzt q) Q). cbv zeta. f_equal.
      + f_equal. unfold dot. cbn [vx vy vz]. field. lra.
      + f_equal. f_equal. destruct (perp_frame b s O FL) as [_ _ _ K1 K2 _ _]. pose proof (a1_val X N (rhov b s) (perpv b s)) as A. fold B0 in A. fold bn in A. fold b in A. rewrite K1, K2 in A. unfold jf in A. rewrite A. field. exact N.
    - assert (C : forall v, vel (fun _ : R => v) zeta vzero) by (intros v; repeat split; cbn [vx vy vz vzero]; apply d_const).
      assert (JV : forall f d, vel f zeta d -> vel (fun s => jv X (f s)) zeta (jv X d)).
      { intros f d (H1 & H2 & H3). unfold vel, jv. cbn [vx vy vz]. repeat split; (eapply d_eq; [apply d_plus; [apply d_plus|]; (apply d_mult; [apply d_const|eassumption])|cbv beta; ring]). }
      eapply d_eq; [apply d_minus; [apply d_mult; [apply d_const|apply d_plus; (apply d_mult; [apply d_const|apply d_dot; [exact VR|apply C]])]|apply d_mult; [apply d_const|apply d_plus; [apply d_const|apply d_div; [apply d_mult; [apply d_const|apply d_plus; apply d_dot; [exact VR|apply JV; exact VN|exact VN|apply JV; exact VR]]|apply d_const|exact N]]]]|].
      cbv beta. fold n rho.
      assert (HZ : forall v, dot v vzero = 0) by (intros v; unfold dot, vzero; cbn [vx vy vz]; ring). rewrite !HZ.
      pose proof (grad_dot X) as GD. fold B0 in GD. fold bn in GD. fold b in GD. rewrite !GD. pose proof (kappa_dot X N n) as KD. fold B0 in KD. fold bn in KD. fold b in KD. rewrite KD, F4.
      change (dot n (jv X n)) with (jf X n n). change (dot rho (jv X (vscal (-1) rho))) with (jf X rho (vscal (-1) rho)). rewrite dot_scal_l. change (dot rho (jv X rho)) with (jf X rho rho). rewrite jf_scal_r. field. repeat split; auto; lra. }
  eexists. eexists. split; [exact D0|]. split; [exact D1|]. clear D0 D1 DY DP DA DU DN DPP DPB NR VN VR Z1 Z2 Z1' NA Y0.
  assert (G1 : forall v, dot v G0 = / gm * jf X v p0) by (intros v; unfold G0; change (dot v (jv X (vscal (/ gm) p0))) with (jf X v (vscal (/ gm) p0)); apply jf_scal_r).
  assert (G2 : dot p0 (vscal (/ bn) (vsub G0 (vscal (dot b G0) b))) = / bn * (dot p0 G0 - dot b G0 * dot p0 b)) by (generalize b; intros; unfold dot, vscal, vsub; cbn [vx vy vz]; ring).
  rewrite G2, !G1. clear G2 G1 G0. unfold momentum in P0. fold n in P0. fold P in P0.
  assert (PB : dot p0 b = ppar) by (rewrite P0, dot_add_l, !dot_scal_l, F1, (dot_sym n b), F4; ring).
  assert (PP0 : dot p0 p0 = ppar * ppar + P * P) by (rewrite P0, !dot_add_l, !dot_add_r, !dot_scal_l, !dot_scal_r, F1, F2, F4, (dot_sym n b), F4; transitivity (ppar * ppar + sgn q * sgn q * (P * P)); [ring|rewrite SG2; ring]).
  assert (AC : across b p0 = vscal (sgn q * P) n) by (unfold across; rewrite PB, P0; apply veq; unfold vsub, vadd, vscal; cbn [vx vy vz]; ring).
  rewrite AC, dot_scal_l, PB, PP0, (curl_dot X b n). rewrite P0, !jf_add_l, !jf_scal_l, !jf_add_r, !jf_scal_r. rewrite GY, <- TR.
  pose proof NP as NP'. pose proof PP as PP'. pose proof SG2 as SS. pose proof QA as QA'. pose proof (Rabs_no_R0 q Q) as QN.
  set (bb := jf X b b). set (b_n := jf X b n). set (n_b := jf X n b). set (nn := jf X n n). set (rr := jf X rho rho). set (s := sgn q) in *. set (aq := Rabs q) in *.
  rewrite QA'. clearbody bb b_n n_b nn rr s aq P bn. clear - NP' PP' SS QN M G.
  assert (S0 : s <> 0) by (intros E; rewrite E in SS; lra). assert (S1 : / s = s) by (apply (Rmult_eq_reg_l s); [rewrite Rinv_r by auto; lra|auto]).
  assert (EM : mu = P * P / (2 * m * bn)) by (rewrite PP'; field; split; lra). rewrite EM. clear EM PP'.
  field_simplify_eq; [|repeat split; auto; lra].
  assert (SS2 : s * s = 1) by exact SS. ring [SS2].
Qed.
(** energy: the first order change of ppar^2/2m + mu |B|, with the field taken at the guiding
    center, is zero *)
Lemma energy_first : exists dB, Dx (fun t => norm (aff X (vscal t (vscal (- gyrolen m q bn mu) rho)))) 0 dB /\
  ppar / m * ppar1 m q bn X ppar mu rho n + bn * mu1 m q bn X ppar mu rho n + mu * dB = 0.
Proof.
  set (u := vscal (- gyrolen m q bn mu) rho).
  assert (L : vel (fun t => vscal t u) 0 u) by (repeat split; unfold vscal; cbn [vx vy vz]; (eapply d_eq; [apply d_mult; [apply d_id|apply d_const]|cbv beta; ring])).
  assert (E0 : vscal 0 u = vzero) by (unfold vscal, vzero; f_equal; ring).
  pose proof (d_norm3 _ 0 _ (aff_vel X _ 0 u L)) as D. cbv beta in D. rewrite E0, aff0 in D. specialize (D N). exists (jf X b u). split; [exact D|]. clear D L E0.
  unfold ppar1, mu1. rewrite (proj2 (nzt q) Q). cbv zeta. set (A := tau bn X + a1ddotgradb rho n (nablab bn X)). clearbody A. unfold u. rewrite jf_scal_r. pose proof (grad_dot X rho) as GD. fold B0 in GD. fold bn in GD. fold b in GD. rewrite <- GD.
  set (g := gradB bn X). set (k := kappa bn X). set (l := gyrolen m q bn mu). clearbody g k l. unfold dot. cbn [vx vy vz]. field. repeat split; auto; lra.
Qed.
End First.
(** the first order result in terms of these *)
Lemma p2g_first : forall m q B r phi z pr pphi pz, 0 < m -> q <> 0 -> r <> 0 -> bnorm B <> 0 -> let b := unit (bvec B phi) in let p := to_xyz (V pr pphi pz) phi in
  let X := jac_rpz2xyz B r phi in let bn := bnorm B in flat b <> 0 -> cross b p <> vzero ->
  exists mu zeta, 0 < mu /\ p = momentum m q bn b (dot p b) mu zeta /\ let g := p2g true m q B r phi z pr pphi pz in
  o_ppar g = Some (dot p b + ppar1 m q bn X (dot p b) mu (rhov b zeta) (perpv b zeta)) /\
  o_mu g = Some (Rabs (mu + mu1 m q bn X (dot p b) mu (rhov b zeta) (perpv b zeta))) /\
  o_zeta g = Some (fmod (2 * PI + (zeta + zeta1 m q bn X (dot p b) mu (rhov b zeta) (perpv b zeta))) (2 * PI)) /\
  b = bhat (norm (V (X 0%nat) (X 4%nat) (X 8%nat))) X /\ bn = norm (V (X 0%nat) (X 4%nat) (X 8%nat)).
Proof.
  intros m q B r phi z pr pphi pz M Q R0 N b p X bn F C. assert (BB : dot b b = 1) by (apply unit_dot; now rewrite <- bnorm_val). pose proof (cross_nz b p BB C) as W. pose proof (bn_pos B N) as NP.
  set (w := across b p) in *. set (rho := cross b (perph q w)). set (z0 := atan2 (- dot rho (e2 b)) (dot rho (e1 b))). set (mu := dot w w / (2 * m * bn)).
  destruct (gyro_angle b (perph q w) BB F (perph_b q b w (across_b b p BB)) (perph_dot q w W)) as [Z1 Z2]. fold rho in Z1, Z2. fold z0 in Z1, Z2.
  assert (MU : 0 < mu) by (unfold mu; apply Rdiv_lt_0_compat; [rewrite <- norm_sq; pose proof (norm_nonneg w); nra|apply Rmult_lt_0_compat; unfold bn; lra]).
  exists mu, z0. split; [exact MU|]. split.
  - unfold momentum. rewrite Z1. assert (E : 2 * m * bn * mu = norm w * norm w) by (rewrite norm_sq; unfold mu, bn; field; split; lra). rewrite E, sqrt_square by apply norm_nonneg. symmetry. apply across_sum. exact W.
  - cbv zeta. rewrite p2g_eq. cbn [o_ppar o_mu o_zeta]. cbv zeta. fold b p. fold w. fold rho. fold bn. fold mu. fold z0. fold X. rewrite Z1, Z2. unfold bn at 1 4 7. rewrite (proj2 (nzt _) N), (proj2 (nzt _) W), (proj2 (nonvert _) F), (proj2 (nzt _) R0). cbn [andb]. rewrite !orb_true_r. cbn [guard]. repeat split; auto.
    unfold bn. rewrite (bnorm_val B phi). reflexivity.
Qed.

(** ** Gyrogauge vector *)
Lemma gauge_true : forall X u, let B0 := V (X 0%nat) (X 4%nat) (X 8%nat) in let bn := norm B0 in let b := bhat bn X in bn <> 0 -> flat b <> 0 ->
  Dx (fun t => dot (e1 (unit (aff X (vscal t u)))) (e2 b)) 0 (vz b * (vx b * vy (jv X u) - vy b * vx (jv X u)) / (bn * flat b)).
Proof.
  intros X u B0 bn b N F.
  assert (L : vel (fun t => vscal t u) 0 u) by (repeat split; unfold vscal; cbn [vx vy vz]; (eapply d_eq; [apply d_mult; [apply d_id|apply d_const]|cbv beta; ring])).
  assert (E0 : vscal 0 u = vzero) by (unfold vscal, vzero; f_equal; ring).
  pose proof (unit_vel _ 0 _ (aff_vel X _ 0 u L)) as D. cbv beta in D. rewrite E0, aff0 in D. specialize (D N). fold B0 in D. change (unit B0) with b in D. fold bn in D. set (d := vscal (/ bn) (vsub (jv X u) (vscal (dot b (jv X u)) b))) in D. destruct D as (D1 & D2 & _).
  set (U := fun t => unit (aff X (vscal t u))) in *. assert (UB : U 0 = b) by (unfold U; rewrite E0, aff0; reflexivity).
  assert (P : 0 < flat b) by (assert (0 <= flat b) by (unfold flat; nra); lra). pose proof (sqrt_sqrt _ (Rlt_le _ _ P)) as S2. pose proof (sqrt_lt_R0 _ P) as S1.
  apply d_ext with (f := fun t => vy (U t) / sqrt (flat (U t)) * vx (e2 b) + - vx (U t) / sqrt (flat (U t)) * vy (e2 b)); [intros t; change (unit (aff X (vscal t u))) with (U t); rewrite e1_val; unfold dot; cbn [vx vy vz]; ring|].
  assert (DS : Dx (fun t => sqrt (flat (U t))) 0 (/ (2 * sqrt (flat b)) * ((vx d * vx b + vx b * vx d) + (vy d * vy b + vy b * vy d)))).
  { rewrite <- UB. unfold flat. eapply d_eq; [apply d_sqrt; [apply d_plus; apply d_mult; eassumption|]|]; cbv beta; rewrite UB; [exact P|]. fold (flat b). reflexivity. }
  eapply d_eq; [apply d_plus; (apply d_mult; [apply d_div; [first [exact D2|apply d_opp; exact D1]|exact DS|cbv beta; rewrite UB; lra]|apply d_const])|]. cbv beta. rewrite UB.
  unfold e2. rewrite e1_val. set (h := sqrt (flat b)) in *. rewrite <- S2. unfold d. set (j := dot b (jv X u)). clearbody h j. set (J := jv X u). clearbody J. unfold cross, vscal, vsub. cbn [vx vy vz]. unfold flat in S2. clear D1 D2 DS UB d U.
  clearbody bn. clear B0. clearbody b. destruct b as [b0 b1 b2]. cbn [vx vy vz] in *. field_simplify_eq; [|repeat split; auto; lra]. assert (E : b0 * b0 = h * h - b1 * b1) by lra. ring [E].
Qed.
Lemma gauge_minus : forall X u, let B0 := V (X 0%nat) (X 4%nat) (X 8%nat) in let bn := norm B0 in let b := bhat bn X in bn <> 0 -> flat b <> 0 -> X 4%nat = 0 -> curlB X = vzero ->
  Dx (fun t => dot (e1 (unit (aff X (vscal t u)))) (e2 b)) 0 (- dot u (Rvec b (nablab bn X))).
Proof.
  intros X u B0 bn b N F Y C. eapply d_eq; [apply gauge_true; auto|]. fold B0. fold bn. fold b.
  assert (BY : vy b = 0) by (unfold b, bhat; cbn [vy]; rewrite Y; unfold Rdiv; ring).
  unfold curlB, vzero in C. pose proof (f_equal vx C) as C1. pose proof (f_equal vz C) as C2. cbn [vx vy vz] in C1, C2. clear C.
  unfold flat in *. rewrite BY in *. assert (BX : vx b <> 0) by (intros E; apply F; rewrite E; ring).
  unfold Rvec, nablab. cbv zeta. fold b. cbv beta iota. rewrite BY. set (g := gradB bn X). clearbody g. unfold jv, dot. cbn [vx vy vz]. replace (X 10%nat) with (X 7%nat) by lra. replace (X 2%nat) with (X 5%nat) by lra. clearbody b. clearbody bn. field. repeat split; auto; nra.
Qed.

(** ** The gyroangle *)
(** turning of the basis per displacement *)
Definition gauge (X : nat -> R) (u : vec) : R :=
  let bn := norm (V (X 0%nat) (X 4%nat) (X 8%nat)) in let b := bhat bn X in vz b * (vx b * vy (jv X u) - vy b * vx (jv X u)) / (bn * flat b).
Lemma gauge_add : forall X u v, gauge X (vadd u v) = gauge X u + gauge X v.
Proof. intros. unfold gauge, jv, vadd, Rdiv. cbn [vx vy vz]. ring. Qed.
Lemma gauge_scal : forall X k u, gauge X (vscal k u) = k * gauge X u.
Proof. intros. unfold gauge, jv, vscal, Rdiv. cbn [vx vy vz]. ring. Qed.
Lemma e1_vel : forall U t d, vel U t d -> dot (U t) (U t) = 1 -> dot (U t) d = 0 -> flat (U t) <> 0 -> exists a, vel (fun s => e1 (U s)) t a /\ dot a (e1 (U t)) = 0 /\ dot a (U t) = - dot d (e1 (U t)) /\
  dot a (e2 (U t)) = vz (U t) * (vx (U t) * vy d - vy (U t) * vx d) / flat (U t).
Proof.
  intros U t d (D1 & D2 & D3) O OD F. set (b := U t) in *.
  assert (P : 0 < flat b) by (assert (0 <= flat b) by (unfold flat; nra); lra). pose proof (sqrt_sqrt _ (Rlt_le _ _ P)) as S2. pose proof (sqrt_lt_R0 _ P) as S1.
  set (h := sqrt (flat b)) in *. pose (k := (vx b * vx d + vy b * vy d) / h).
  assert (DS : Dx (fun s => sqrt (flat (U s))) t k).
  { unfold flat. eapply d_eq; [apply d_sqrt; [apply d_plus; apply d_mult; eassumption|exact P]|]. cbv beta. fold b. fold (flat b). fold h. unfold k. field. lra. }
  exists (V ((vy d * h - vy b * k) / (h * h)) ((- vx d * h - - vx b * k) / (h * h)) 0). split; [|].
  - assert (DY : Dx (fun s => vy (U s) / sqrt (flat (U s))) t ((vy d * h - vy b * k) / (h * h))) by (eapply d_eq; [apply d_div; [exact D2|exact DS|fold b; fold h; lra]|cbv beta; fold b; fold h; field; lra]).
    assert (DXX : Dx (fun s => - vx (U s) / sqrt (flat (U s))) t ((- vx d * h - - vx b * k) / (h * h))) by (eapply d_eq; [apply d_div; [apply d_opp; exact D1|exact DS|fold b; fold h; lra]|cbv beta; fold b; fold h; field; lra]).
    repeat split; cbn [vx vy vz].
    + eapply d_ext; [|exact DY]. intros s. rewrite e1_val. reflexivity.
    + eapply d_ext; [|exact DXX]. intros s. rewrite e1_val. reflexivity.
    + eapply d_ext; [|apply (d_const 0)]. intros s. rewrite e1_val. reflexivity.
  - unfold e2. rewrite e1_val. fold h. rewrite <- S2. unfold k. unfold flat in S2. clear DS D1 D2 D3 k. clearbody h. clearbody b. destruct b as [b0 b1 b2], d as [d0 d1 d2]. unfold dot, cross in *. cbn [vx vy vz] in *.
    assert (E : b0 * b0 = h * h - b1 * b1) by lra. assert (E2 : b2 * d2 = - b0 * d0 - b1 * d1) by lra.
    repeat split; (field_simplify_eq; [|lra]); ring [E E2].
Qed.
Lemma cross_vel : forall f g t a c, vel f t a -> vel g t c -> vel (fun s => cross (f s) (g s)) t (vadd (cross a (g t)) (cross (f t) c)).
Proof.
  intros f g t a c (A1 & A2 & A3) (C1 & C2 & C3). unfold vel, cross, vadd. cbn [vx vy vz]. repeat split; (eapply d_eq; [apply d_minus; apply d_mult; eassumption|cbv beta; ring]).
Qed.
Section Angle.
Variables (m q : R) (X : nat -> R) (ppar mu zeta : R).
Let B0 := V (X 0%nat) (X 4%nat) (X 8%nat).
Let bn := norm B0.
Let b := bhat bn X.
Hypothesis N : bn <> 0.
Hypothesis M : 0 < m.
Hypothesis Q : q <> 0.
Hypothesis FL : flat b <> 0.
Hypothesis MU : 0 < mu.
Let n := perpv b zeta.
Let rho := rhov b zeta.
Let P := sqrt (2 * m * bn * mu).
Lemma zeta_rate : forall (y p : R -> vec) (pp mm Z : R -> R) gm dz, gm <> 0 -> y 0 = vzero -> Z 0 = zeta -> p 0 = momentum m q bn b ppar mu zeta ->
  vel y 0 (vscal (/ gm) (p 0)) -> vel p 0 (vscal (q / gm) (cross (p 0) B0)) ->
  near 0 (fun t => p t = momentum m q (norm (aff X (y t))) (unit (aff X (y t))) (pp t) (mm t) (Z t)) -> Dx Z 0 dz ->
  exists d1, Dx (fun s => zeta1 m q bn X ppar mu (rhov b s) (perpv b s)) zeta d1 /\
  dz - q / gm * (bn - gyrolen m q bn mu * dot rho (gradB bn X)) + q * bn / gm * d1 =
  ppar / gm * (gauge X b + tau bn X / 2) + sgn q * P / gm * (gauge X n - dot n (Rvec b (nablab bn X))) + sgn q * (ppar * ppar) / (P * bn * gm) * dot rho (cross (curlB X) b).
Proof.
  intros y p pp mm Z gm dz G Y0 Z0 P0 DY DP NR DZ.
  pose proof (b_one X N) as O. fold B0 in O. fold bn in O. fold b in O.
  pose proof (perp_frame b zeta O FL) as FR0. fold n rho in FR0. destruct FR0 as [F1 F2 F3 F4 F5 F6 F7].
  assert (NP : 0 < bn) by (unfold bn in *; pose proof (norm_nonneg B0); lra).
  assert (PQ : 0 < 2 * m * bn * mu) by (apply Rmult_lt_0_compat; auto; apply Rmult_lt_0_compat; lra).
  assert (PP : P * P = 2 * m * bn * mu) by (apply sqrt_sqrt; lra). assert (P1 : 0 < P) by (now apply sqrt_lt_R0).
  assert (SS : sgn q * sgn q = 1) by (unfold sgn; destruct (Rlt_dec q 0); ring).
  assert (S0 : sgn q <> 0) by (intros E; rewrite E in SS; lra).
  assert (QA : q = sgn q * Rabs q) by (unfold sgn; destruct (Rlt_dec q 0); [rewrite Rabs_left by lra; ring|rewrite Rabs_right by lra; ring]).
  assert (GY : gyrolen m q bn mu = P / (bn * Rabs q)).
  { unfold gyrolen. rewrite (proj2 (nzt q) Q). replace (2 * m * mu / bn) with ((P / bn) * (P / bn)) by (transitivity (P * P / (bn * bn)); [field; lra|rewrite PP; field; lra]).
    rewrite sqrt_square; [field; split; [now apply Rabs_no_R0|lra]|]. apply Rmult_le_pos; [lra|left; apply Rinv_0_lt_compat; lra]. }
  set (p0 := p 0) in *. pose (v0 := vscal (/ gm) p0).
  assert (NA : norm (aff X (y 0)) <> 0) by (rewrite Y0, aff0; exact N).
  pose proof (aff_vel X y 0 _ DY) as DA. fold v0 in DA. pose proof (unit_vel _ 0 _ DA NA) as DU. pose proof (d_norm3 _ 0 _ DA NA) as DN. cbv beta in DU, DN. rewrite Y0, aff0 in DU, DN. fold B0 in DU, DN. fold bn in DU. change (unit B0) with b in DU, DN.
  set (U := fun s => unit (aff X (y s))) in *. assert (UB : U 0 = b) by (unfold U; rewrite Y0, aff0; reflexivity).
  set (d := vscal (/ bn) (vsub (jv X v0) (vscal (dot b (jv X v0)) b))) in DU.
  assert (BD : dot b d = 0) by (unfold d; rewrite dot_scal_r; transitivity (/ bn * (dot b (jv X v0) - dot b (jv X v0) * dot b b)); [generalize b; intros; unfold dot, vsub, vscal; cbn [vx vy vz]; ring|rewrite O; ring]).
  destruct (e1_vel U 0 d DU) as (a & DE & A1 & A2 & A3); rewrite ?UB; auto. rewrite UB in A1, A2, A3.
  assert (A3' : dot a (e2 b) = gauge X v0).
  { rewrite A3. unfold gauge. fold B0. fold bn. fold b. unfold d. set (j := dot b (jv X v0)). clearbody j. unfold vscal, vsub. cbn [vx vy vz]. field. split; auto. }
  clear A3. pose proof (e_frame b O FL) as EF. pose proof (frame_turn _ _ _ EF) as ET. destruct EF as [E1 E2 E3 E4 E5 E6 E7].
  (* the condition differentiated *)
  assert (NF : near 0 (fun t => flat (U t) <> 0)). { destruct DU as (DU1 & DU2 & _). eapply near_cont with (f := fun t => flat (U t)); [unfold flat; apply d_plus; apply d_mult; eassumption|rewrite UB; exact FL]. }
  assert (NN : near 0 (fun t => norm (aff X (y t)) <> 0)) by (eapply near_cont; [exact DN|exact NA]).
  pose (W := fun t => cos (Z t) * dot (p t) (e1 (U t)) - sin (Z t) * dot (p t) (cross (U t) (e1 (U t)))).
  assert (W0 : near 0 (fun t => 0 = W t)).
  { eapply near_imp; [|exact (near_and _ _ _ NR (near_and _ _ _ NF NN))]. cbv beta. intros t (H1 & H2 & H3). unfold W. assert (OU : dot (U t) (U t) = 1) by (now apply unit_dot). destruct (perp_frame (U t) (Z t) OU H2) as [_ _ _ K1 K2 K3 _].
    transitivity (dot (p t) (rhov (U t) (Z t))).
    - rewrite H1. unfold momentum. fold (U t). rewrite dot_add_l, !dot_scal_l, K2, K3. ring.
    - rewrite rhov_val, dot_add_r, !dot_scal_r. unfold e2. ring. }
  assert (DW : Dx W 0 0) by (eapply d_near; [exact W0|apply d_const]).
  assert (DPE : Dx (fun t => dot (p t) (e1 (U t))) 0 (dot (vscal (q / gm) (cross p0 B0)) (e1 b) + dot p0 a)) by (pose proof (d_dot _ _ 0 _ _ DP DE) as H; cbv beta in H; rewrite UB in H; exact H).
  assert (DPF : Dx (fun t => dot (p t) (cross (U t) (e1 (U t)))) 0 (dot (vscal (q / gm) (cross p0 B0)) (e2 b) + dot p0 (vadd (cross d (e1 b)) (cross b a)))) by (pose proof (d_dot _ _ 0 _ _ DP (cross_vel _ _ 0 _ _ DU DE)) as H; cbv beta in H; rewrite UB in H; exact H).
  assert (DW2 : Dx W 0 ((- sin zeta * dz) * dot p0 (e1 b) + cos zeta * (dot (vscal (q / gm) (cross p0 B0)) (e1 b) + dot p0 a) - ((cos zeta * dz) * dot p0 (e2 b) + sin zeta * (dot (vscal (q / gm) (cross p0 B0)) (e2 b) + dot p0 (vadd (cross d (e1 b)) (cross b a)))))).
  { unfold W. eapply d_eq; [apply d_minus; (apply d_mult; [first [apply d_cos; exact DZ|apply d_sin; exact DZ]|eassumption])|]. cbv beta. rewrite Z0, UB. fold p0. unfold e2. ring. }
  pose proof (d_uniq _ _ _ _ DW DW2) as EQ. clear DW DW2 DPE DPF W W0 NF NN NR DE DU DN DA DP DY DZ NA UB Z0 Y0.
  assert (EB : B0 = vscal bn b) by (rewrite (b_unit X : b = unit B0), unit_scal, vscal_vscal; fold bn; rewrite Rinv_r by exact N; apply veq; unfold vscal; cbn [vx vy vz]; ring).
  unfold momentum in P0. fold n in P0. fold P in P0. set (sg := sgn q) in *.
  assert (PE1 : dot p0 (e1 b) = - (sg * P) * sin zeta) by (rewrite P0, dot_add_l, !dot_scal_l, E4; unfold n; rewrite perpv_val, dot_add_l, !dot_scal_l, E2, (dot_sym (e2 b) (e1 b)), E6; ring).
  assert (PE2 : dot p0 (e2 b) = - (sg * P) * cos zeta) by (rewrite P0, dot_add_l, !dot_scal_l, E5; unfold n; rewrite perpv_val, dot_add_l, !dot_scal_l, E3, E6; ring).
  assert (PB : dot p0 b = ppar) by (rewrite P0, dot_add_l, !dot_scal_l, F1, (dot_sym n b), F4; ring).
  (* components of the derivatives of the basis *)
  assert (EA : a = vadd (vscal (- dot d (e1 b)) b) (vadd (vscal 0 (e1 b)) (vscal (gauge X v0) (e2 b)))) by (rewrite <- A1, <- A2, <- A3'; apply frame_sum; constructor; auto).
  assert (ED : d = vadd (vscal 0 b) (vadd (vscal (dot d (e1 b)) (e1 b)) (vscal (dot d (e2 b)) (e2 b)))) by (rewrite <- BD, (dot_sym b d); apply frame_sum; constructor; auto).
  assert (XE : cross (e2 b) (e1 b) = vscal (-1) b). { pose proof (bac_cab (e1 b) b (e1 b)) as H. rewrite E2, (dot_sym (e1 b) b), E4 in H. fold (e2 b) in H. transitivity (vscal (-1) (cross (e1 b) (e2 b))); [generalize (e1 b) (e2 b); intros; apply veq; unfold cross, vscal; cbn [vx vy vz]; ring|]. rewrite H. apply veq; unfold vsub, vscal; cbn [vx vy vz]; ring. }
  assert (CD : cross d (e1 b) = vscal (- dot d (e2 b)) b).
  { rewrite ED at 1. transitivity (vadd (vscal (dot d (e1 b)) (cross (e1 b) (e1 b))) (vscal (dot d (e2 b)) (cross (e2 b) (e1 b)))); [generalize (e1 b) (e2 b) (dot d (e1 b)); intros; apply veq; unfold cross, vscal, vadd; cbn [vx vy vz]; ring|]. rewrite XE, cross_self. apply veq; unfold vadd, vscal, vzero; cbn [vx vy vz]; ring. }
  assert (CA : cross b a = vscal (- gauge X v0) (e1 b)).
  { rewrite EA, !cross_add_r, !cross_scal_r, cross_self, ET. apply veq; unfold vadd, vscal, vzero; cbn [vx vy vz]; ring. }
  assert (PA : dot p0 a = ppar * - dot d (e1 b) + gauge X v0 * (- (sg * P) * cos zeta)) by (rewrite EA, !dot_add_r, !dot_scal_r, PB, PE1, PE2; ring).
  assert (PC : dot p0 (vadd (cross d (e1 b)) (cross b a)) = - dot d (e2 b) * ppar + - gauge X v0 * (- (sg * P) * sin zeta)) by (rewrite CD, CA, dot_add_r, !dot_scal_r, PB, PE1; ring).
  assert (CR : forall u, dot (cross p0 B0) u = bn * dot p0 (cross b u)) by (intros u; rewrite EB; generalize b; intros; unfold dot, cross, vscal; cbn [vx vy vz]; ring).
  assert (C1 : dot (vscal (q / gm) (cross p0 B0)) (e1 b) = q / gm * (bn * (- (sg * P) * cos zeta))) by (rewrite dot_scal_l, CR, E7, PE2; reflexivity).
  assert (C2 : dot (vscal (q / gm) (cross p0 B0)) (e2 b) = q / gm * (bn * ((sg * P) * sin zeta))) by (rewrite dot_scal_l, CR, ET, dot_scal_r, PE1; ring).
  rewrite C1, C2, PE1, PE2, PA, PC in EQ.
  assert (DR : dot d rho = cos zeta * dot d (e1 b) - sin zeta * dot d (e2 b)) by (unfold rho; rewrite rhov_val, dot_add_r, !dot_scal_r; ring).
  assert (TR := cs1 zeta).
  assert (SOL : sg * P * dz = q / gm * bn * (sg * P) + ppar * dot d rho + sg * P * gauge X v0).
  { rewrite DR. set (ss := sin zeta) in *. set (cc := cos zeta) in *. set (x1 := dot d (e1 b)) in *. set (x2 := dot d (e2 b)) in *. set (gg := gauge X v0) in *. clearbody ss cc x1 x2 gg.
    transitivity ((ss * ss + cc * cc) * (sg * P * dz)); [rewrite TR; ring|].
    transitivity ((ss * ss + cc * cc) * (q / gm * bn * (sg * P)) + ppar * (cc * x1 - ss * x2) + (ss * ss + cc * cc) * (sg * P * gg)); [|rewrite TR; ring]. lra. }
  assert (DRV : dot d rho = / bn * (/ gm * (ppar * jf X rho b + sg * P * jf X rho n))).
  { transitivity (/ bn * (jf X rho v0 - dot b (jv X v0) * dot b rho)); [unfold d; rewrite dot_scal_l; generalize b; intros; unfold jf, dot, vsub, vscal; cbn [vx vy vz]; ring|]. rewrite F5. unfold v0. rewrite jf_scal_r, P0, jf_add_r, !jf_scal_r. ring. }
  assert (GV : gauge X v0 = / gm * (ppar * gauge X b + sg * P * gauge X n)) by (unfold v0; rewrite gauge_scal, P0, gauge_add, !gauge_scal; ring).
  clear EQ C1 C2 CR PC PA CA CD XE EA ED PE1 PE2 A1 A2 A3' BD.
  (* the derivative of the correction *)
  destruct (perp_vel b zeta) as [VN VR]. fold n rho in VN, VR.
  exists (- gyrolen m q bn mu * dot n (Rvec b (nablab bn X)) + ppar / (q * bn) * (- (1 / 2) * (jf X rho n + jf X n rho) / bn) - gyrolen m q bn mu / bn * (jf X b rho + jf X b rho / bn * (ppar * ppar / m / (2 * mu)))).
  split.
  - apply d_ext with (f := fun s => - gyrolen m q bn mu * dot (rhov b s) (Rvec b (nablab bn X)) + ppar / (q * bn) * (1 / 4 * (dot (perpv b s) (jv X (perpv b s)) - dot (rhov b s) (jv X (rhov b s))) / bn) + gyrolen m q bn mu / bn * (dot (perpv b s) (gradB bn X) + ppar * ppar / m / (2 * mu) * dot (perpv b s) (kappa bn X))).
    + intros s. unfold zeta1. rewrite (proj2 (nzt q) Q). cbv zeta. fold b. f_equal; [f_equal; f_equal|f_equal].
      * destruct (perp_frame b s O FL) as [_ _ _ K1 K2 _ _]. pose proof (a2_val X N (rhov b s) (perpv b s)) as A. fold B0 in A. fold bn in A. fold b in A. rewrite K1, K2 in A. unfold jf in A. rewrite A. field. exact N.
      * unfold dot. cbn [vx vy vz]. field. split; lra.
    + assert (C : forall v, vel (fun _ : R => v) zeta vzero) by (intros v; repeat split; cbn [vx vy vz vzero]; apply d_const).
      assert (JV : forall f d, vel f zeta d -> vel (fun s => jv X (f s)) zeta (jv X d)).
      { intros f dd (H1 & H2 & H3). unfold vel, jv. cbn [vx vy vz]. repeat split; (eapply d_eq; [apply d_plus; [apply d_plus|]; (apply d_mult; [apply d_const|eassumption])|cbv beta; ring]). }
      eapply d_eq; [apply d_plus; [apply d_plus; [apply d_mult; [apply d_const|apply d_dot; [exact VR|apply C]]|apply d_mult; [apply d_const|apply d_div; [apply d_mult; [apply d_const|apply d_minus; apply d_dot; [exact VN|apply JV; exact VN|exact VR|apply JV; exact VR]]|apply d_const|exact N]]]|apply d_mult; [apply d_const|apply d_plus; [apply d_dot; [exact VN|apply C]|apply d_mult; [apply d_const|apply d_dot; [exact VN|apply C]]]]]|].
      cbv beta. fold n rho.
      assert (HZ : forall v, dot v vzero = 0) by (intros v; unfold dot, vzero; cbn [vx vy vz]; ring). rewrite !HZ. rewrite !dot_scal_l.
      pose proof (grad_dot X) as GD. fold B0 in GD. fold bn in GD. fold b in GD. rewrite !GD. pose proof (kappa_dot X N rho) as KD. fold B0 in KD. fold bn in KD. fold b in KD. rewrite KD, F5.
      change (dot n (jv X (vscal (-1) rho))) with (jf X n (vscal (-1) rho)). change (dot rho (jv X n)) with (jf X rho n). change (dot n (jv X rho)) with (jf X n rho). rewrite jf_scal_r. field. repeat split; auto; lra.
  - pose proof (grad_dot X) as GD. fold B0 in GD. fold bn in GD. fold b in GD. rewrite GD. rewrite (curl_dot X b rho).
    assert (TA : tau bn X = (jf X rho n - jf X n rho) / bn).
    { rewrite <- (curl_dot X n rho). unfold tau. fold b. f_equal. transitivity (dot (cross n rho) (curlB X)).
      - f_equal. rewrite <- F7, bac_cab, F2, (dot_sym n b), F4. apply veq; unfold vsub, vscal; cbn [vx vy vz]; ring.
      - generalize (curlB X) n rho. intros. unfold dot, cross. cbn [vx vy vz]. ring. }
    rewrite TA. rewrite DRV, GV in SOL. rewrite GY. set (RV := dot n (Rvec b (nablab bn X))). set (gb := gauge X b) in *. set (gn := gauge X n) in *. set (br := jf X b rho). set (rb := jf X rho b) in *. set (rn := jf X rho n) in *. set (nr := jf X n rho) in *. set (aq := Rabs q) in *.
    pose proof (Rabs_no_R0 q Q) as QN. fold aq in QN.
    assert (DZ : dz = q / gm * bn + sg * / P * (ppar * (/ bn * (/ gm * (ppar * rb + sg * P * rn)))) + / gm * (ppar * gb + sg * P * gn)).
    { apply (Rmult_eq_reg_l (sg * P)); [|apply Rmult_integral_contrapositive_currified; lra]. rewrite SOL. field_simplify_eq; [|repeat split; auto; lra]. ring [SS]. }
    rewrite DZ. clear SOL DZ DRV GV GD TA. clearbody RV gb gn br rb rn nr. clear - NP P1 SS S0 QA QN G M MU PP Q N. clearbody sg aq P bn.
    assert (EM : mu = P * P / (2 * m * bn)) by (rewrite PP; field; split; lra). rewrite EM. clear EM PP MU. rewrite QA. clear QA Q. field_simplify_eq; [|repeat split; auto; lra]. ring [SS].
Qed.
End Angle.

(** ** Undefined results *)
Lemma g2p_no_moment : forall m q B r phi z ppar zeta, q <> 0 -> o_pos (g2p true m q B r phi z ppar 0 zeta) = None /\ o_zeta (g2p true m q B r phi z ppar 0 zeta) = None.
Proof.
  intros. unfold g2p. cbv zeta. cbn [o_pos o_zeta]. rewrite (proj2 (nzt q) H), (proj2 (nzf 0) eq_refl). cbn [andb orb negb]. rewrite !andb_false_r. split; reflexivity.
Qed.
Lemma vertical_none : forall order m q B r phi z pr pphi pz ppar mu zeta, flat (bhat (bnorm B) (jac_rpz2xyz B r phi)) = 0 ->
  o_zeta (p2g order m q B r phi z pr pphi pz) = None /\ o_pos (g2p order m q B r phi z ppar mu zeta) = None /\ ppm2p m q B phi ppar mu zeta = None.
Proof.
  intros order m q B r phi z pr pphi pz ppar mu zeta H. assert (NV : nonvertical (unit (bvec B phi)) = false) by (rewrite <- (bhat_val B r phi); apply nzf; exact H).
  split; [|split].
  - rewrite p2g_eq. cbn [o_zeta]. rewrite NV, !andb_false_r. reflexivity.
  - unfold g2p. cbv zeta. cbn [o_pos]. rewrite bhat_val, NV, !andb_false_r. reflexivity.
  - unfold ppm2p. fold (bvec B phi). rewrite NV, !andb_false_r. reflexivity.
Qed.

(** ** A uniform field in which the first order terms do not vanish *)
Definition J11 (k : nat) : R := match k with 0%nat => 1 | 4%nat => 1 | _ => 0 end.
Definition K11 : nat -> R := jac_xyz2rpz J11 1 (PI / 2).
Lemma uniform_wrong : still J11 /\ cyl_jac J11 1 (PI / 2) 0 K11 /\ let p := to_xyz (V 1 (-1) 1) (PI / 2) in let b := unit (bvec K11 (PI / 2)) in
  p = V 1 1 1 /\ dot p b = sqrt 2 /\ o_ppar (p2g true 1 1 K11 1 (PI / 2) 0 1 (-1) 1) = Some (sqrt 2 / 2).
Proof.
  split; [|split; [apply xyz2rpz_correct|]].
  - intros k _ NE. unfold J11. do 9 (destruct k as [|k]; try reflexivity; try lia).
  - assert (R2 : sqrt 2 * sqrt 2 = 2) by (apply sqrt_sqrt; lra). assert (P2 : 0 < sqrt 2) by (apply sqrt_lt_R0; lra).
    assert (KX : forall k, (k < 12)%nat -> jac_rpz2xyz K11 1 (PI / 2) k = J11 k + match k with 5%nat => 2 | _ => 0 end).
    { intros k Hk. unfold K11. rewrite rpz2xyz_exact by (auto; lra). rewrite sin_PI2, cos_PI2. unfold J11 at 2 3. do 12 (destruct k as [|k]; [try lra|]). lia. }
    assert (BV : bvec K11 (PI / 2) = V 1 1 0) by (unfold bvec, K11, jac_xyz2rpz, to_xyz, J11; cbn [vx vy vz]; rewrite sin_PI2, cos_PI2; apply f_equal3; ring).
    assert (BN : bnorm K11 = sqrt 2) by (rewrite (bnorm_val K11 (PI / 2)), BV; unfold norm; cbn [vx vy vz]; f_equal; ring).
    intros p b. assert (EP : p = V 1 1 1) by (unfold p, to_xyz; cbn [vx vy vz]; rewrite sin_PI2, cos_PI2; apply f_equal3; ring).
    assert (EB : b = V (/ sqrt 2) (/ sqrt 2) 0). { unfold b. rewrite BV, unit_scal, <- BV, <- bnorm_val, BN, BV. unfold vscal. cbn [vx vy vz]. apply f_equal3; ring. }
    assert (PB : dot p b = sqrt 2) by (rewrite EP, EB; unfold dot; cbn [vx vy vz]; apply (Rmult_eq_reg_l (sqrt 2)); [|lra]; rewrite R2; field; lra).
    split; [exact EP|]. split; [exact PB|]. rewrite p2g_eq. cbn [o_ppar]. fold p b. rewrite PB, BN.
    assert (W : across b p = V 0 0 1). { unfold across. rewrite PB, EP, EB. unfold vsub, vscal. cbn [vx vy vz]. apply f_equal3; field; lra. }
    assert (NW : norm (V 0 0 1) = 1) by (unfold norm; cbn [vx vy vz]; replace (0 * 0 + 0 * 0 + 1 * 1) with 1 by ring; apply sqrt_1).
    rewrite W. rewrite (proj2 (nzt (sqrt 2))), (proj2 (nzt (norm (V 0 0 1)))), (proj2 (nzt 1)) by (rewrite ?NW; lra). cbn [andb orb negb guard]. f_equal.
    assert (PH : perph 1 (V 0 0 1) = V 0 0 1). { unfold perph. destruct (Rlt_dec 1 0); [lra|]. rewrite unit_scal, NW. unfold vscal. cbn [vx vy vz]. apply f_equal3; field. }
    rewrite PH, EB. unfold ppar1. rewrite (proj2 (nzt 1)) by lra. rewrite gyro_val by lra. rewrite NW, Rabs_R1.
    assert (BH : bhat (sqrt 2) (jac_rpz2xyz K11 1 (PI / 2)) = b) by (rewrite <- BN; apply bhat_val). 
    unfold tau, a1ddotgradb, kappa, nablab, gradB, curlB. cbv zeta. rewrite BH, EB. rewrite !KX by lia. unfold J11, dot, cross. cbn [vx vy vz]. replace (-0.5) with (- (1 / 2)) by lra.
    set (s := sqrt 2) in *. clearbody s. field_simplify_eq; [|lra]. assert (E : s * s = 2) by lra. ring [E].
Qed.
