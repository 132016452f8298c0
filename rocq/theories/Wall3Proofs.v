(** Specifications and proofs for the 3D wall: triangle collision, tree array
    and the fold over candidates. *)
From Coq Require Import Reals List Arith ZArith Lia Lra Psatz Bool.
From Verif Require Import Vec MathModel MathProofs Wall3Model.
Import ListNotations.
Local Open Scope R_scope.

(** ** Specification *)
Definition at_frac (q1 q2 : vec) (w : R) : vec := vadd q1 (vscal w (vsub q2 q1)).
Definition in_triangle (t1 t2 t3 x : vec) : Prop :=
  exists a b c, 0 <= a /\ 0 <= b /\ 0 <= c /\ a + b + c = 1 /\
    x = vadd (vscal a t1) (vadd (vscal b t2) (vscal c t3)).
(** the step q1 -> q2 meets the triangle at the fraction w *)
Definition hits_at (q1 q2 t1 t2 t3 : vec) (w : R) : Prop :=
  0 <= w <= 1 /\ in_triangle t1 t2 t3 (at_frac q1 q2 w).
Definition area2 (t1 t2 t3 : vec) : R := norm (cross (vsub t2 t1) (vsub t3 t1)).
(** cosine-like measure of transversality: unit step direction times normal *)
Definition slant (q1 q2 t1 t2 t3 : vec) : R :=
  Rabs (dot (vsub q2 q1) (cross (vsub t2 t1) (vsub t3 t1))) / norm (vsub q2 q1).

Lemma EPS_pos : 0 < EPS.
Proof. unfold EPS. lra. Qed.
Lemma in_tri_uv : forall t1 t2 t3 x, in_triangle t1 t2 t3 x <->
  exists u v, 0 <= u /\ 0 <= v /\ u + v <= 1 /\ x = vadd t1 (vadd (vscal u (vsub t2 t1)) (vscal v (vsub t3 t1))).
Proof.
  intros t1 t2 t3 x. split.
  - intros (a & b & c & A & B & C & S & ->). exists b, c. repeat split; try lra.
    assert (a = 1 - b - c) by lra. subst a. vring.
  - intros (u & v & U & W & S & ->). exists (1 - u - v), u, v. repeat split; try lra. vring.
Qed.
Lemma mt_key : forall q e12 e13 tq,
  vscal (dot (cross q e13) e12) tq =
  vadd (vscal (dot (cross q e13) tq) e12)
       (vsub (vscal (dot q (cross tq e12)) e13) (vscal (dot (cross tq e12) e13) q)).
Proof. vring. Qed.
Lemma unit_eq : forall Q, unit Q = vscal (/ norm Q) Q.
Proof. intros [x y z]. unfold unit, vscal. cbn [vx vy vz]. f_equal; unfold Rdiv; ring. Qed.
(** Cramer: the three coordinates are determined *)
Lemma mt_unique : forall q e12 e13 tq u v w,
  tq = vadd (vscal u e12) (vsub (vscal v e13) (vscal w q)) ->
  dot (cross q e13) tq = u * dot (cross q e13) e12 /\
  dot q (cross tq e12) = v * dot (cross q e13) e12 /\
  dot (cross tq e12) e13 = w * dot (cross q e13) e12.
Proof. intros. subst tq. vdestr. vunf. repeat split; ring. Qed.

(** Moller-Trumbore for a given direction Q *)
Definition nondeg Q t1 t2 t3 := dot (cross Q (vsub t3 t1)) (vsub t2 t1) <> 0.
Lemma vsub_add : forall a b c, vsub a b = c -> a = vadd b c.
Proof. intros a b c <-. vring. Qed.
Lemma mt_spec : forall q1 Q t1 t2 t3, nondeg Q t1 t2 t3 ->
  (exists w, w <= 1 /\ in_triangle t1 t2 t3 (vadd q1 (vscal w Q)) /\ mt q1 Q t1 t2 t3 = w) \/
  ((forall w, w <= 1 -> ~ in_triangle t1 t2 t3 (vadd q1 (vscal w Q))) /\ mt q1 Q t1 t2 t3 = -1).
Proof.
  intros q1 Q t1 t2 t3 ND. unfold nondeg in ND. unfold mt.
  set (e12 := vsub t2 t1) in *. set (e13 := vsub t3 t1) in *. set (tq := vsub q1 t1).
  assert (NQ : norm Q <> 0).
  { intros K. apply ND. apply norm_zero in K. rewrite K. vring. }
  set (m := norm Q) in *.
  rewrite unit_eq. fold m.
  assert (H1 : forall x, dot (cross (vscal (/ m) Q) e13) x = dot (cross Q e13) x / m) by (intros; unfold Rdiv; clear; vring).
  assert (H2 : forall x, dot (vscal (/ m) Q) x = dot Q x / m) by (intros; unfold Rdiv; clear; vring).
  rewrite !H1, H2. set (D := dot (cross Q e13) e12) in *.
  destruct (Req_EM_T (D / m) 0) as [Z|NZ].
  { exfalso. apply ND. apply Rmult_eq_reg_r with (/ m); [|now apply Rinv_neq_0_compat]. rewrite Rmult_0_l. exact Z. }
  replace (dot (cross Q e13) tq / m / (D / m)) with (dot (cross Q e13) tq / D) by (field; auto).
  replace (dot Q (cross tq e12) / m / (D / m)) with (dot Q (cross tq e12) / D) by (field; auto).
  replace (dot (cross tq e12) e13 / (D / m) / m) with (dot (cross tq e12) e13 / D) by (field; auto).
  set (u := dot (cross Q e13) tq / D). set (v := dot Q (cross tq e12) / D). set (w := dot (cross tq e12) e13 / D).
  assert (K : tq = vadd (vscal u e12) (vsub (vscal v e13) (vscal w Q))).
  { pose proof (mt_key Q e12 e13 tq) as E. fold D in E.
    assert (E' : vscal (/ D) (vscal D tq) = tq). { destruct tq as [a b c]. unfold vscal. cbn [vx vy vz]. f_equal; field; auto. }
    rewrite <- E', E. unfold u, v, w, Rdiv. clear. vring. }
  assert (P : vadd q1 (vscal w Q) = vadd t1 (vadd (vscal u e12) (vscal v e13))).
  { apply vsub_add in K. rewrite K. clear. vring. }
  assert (Un : forall w', in_triangle t1 t2 t3 (vadd q1 (vscal w' Q)) -> w' = w /\ 0 <= u /\ 0 <= v /\ u + v <= 1).
  { intros w' I. apply in_tri_uv in I. destruct I as (u' & v' & U & V' & S & E). fold e12 e13 in E.
    assert (K' : tq = vadd (vscal u' e12) (vsub (vscal v' e13) (vscal w' Q))).
    { unfold tq. clear - E. vdestr. vunf. injection E as E1 E2 E3. f_equal; lra. }
    destruct (mt_unique _ _ _ _ _ _ _ K') as (A & B & C). fold D in A, B, C.
    assert (u' = u) by (unfold u; rewrite A; field; auto).
    assert (v' = v) by (unfold v; rewrite B; field; auto).
    assert (w' = w) by (unfold w; rewrite C; field; auto). subst. auto. }
  assert (Yes : 0 <= u -> 0 <= v -> u + v <= 1 -> in_triangle t1 t2 t3 (vadd q1 (vscal w Q))).
  { intros. apply in_tri_uv. exists u, v. repeat split; auto. }
  destruct (Rle_dec 0 u); [|right; split; auto; intros w' _ I; apply Un in I; lra].
  destruct (Rle_dec u 1); [|right; split; auto; intros w' _ I; apply Un in I; lra].
  destruct (Rle_dec 0 v); [|right; split; auto; intros w' _ I; apply Un in I; lra].
  destruct (Rle_dec (u + v) 1); [|right; split; auto; intros w' _ I; apply Un in I; lra].
  destruct (Rlt_dec 1 w).
  - right. split; auto. intros w' W I. apply Un in I. lra.
  - left. exists w. repeat split; auto. lra.
Qed.
Lemma mt_deg : forall q1 Q t1 t2 t3, ~ nondeg Q t1 t2 t3 -> mt q1 Q t1 t2 t3 = -1.
Proof.
  intros q1 Q t1 t2 t3 H. unfold mt. destruct (Req_EM_T _ _) as [|N]; auto. exfalso. apply H. unfold nondeg. intros K.
  apply N. rewrite unit_eq. rewrite <- (Rmult_0_r (/ norm Q)), <- K. clear. vring.
Qed.
Lemma det_slant : forall q1 q2 t1 t2 t3, Rabs (tri_det q1 q2 t1 t2 t3) = slant q1 q2 t1 t2 t3.
Proof.
  intros. unfold tri_det, slant. rewrite unit_eq. set (Q := vsub q2 q1).
  assert (E : dot (cross (vscal (/ norm Q) Q) (vsub t3 t1)) (vsub t2 t1) = - (dot Q (cross (vsub t2 t1) (vsub t3 t1)) * / norm Q))
    by (generalize (/ norm Q); clear; vring).
  rewrite E, Rabs_Ropp, Rabs_mult. unfold Rdiv. f_equal.
  destruct (Req_dec (norm Q) 0) as [Z|N]; [rewrite Z, Rinv_0, Rabs_R0; auto|].
  apply Rabs_right. pose proof (norm_nonneg Q). apply Rle_ge, Rlt_le, Rinv_0_lt_compat. lra.
Qed.
Lemma slant_nondeg : forall q1 q2 t1 t2 t3, 0 < slant q1 q2 t1 t2 t3 -> nondeg (vsub q2 q1) t1 t2 t3.
Proof.
  intros q1 q2 t1 t2 t3 S K. unfold slant in S.
  assert (E : dot (vsub q2 q1) (cross (vsub t2 t1) (vsub t3 t1)) = - dot (cross (vsub q2 q1) (vsub t3 t1)) (vsub t2 t1)) by (clear; vring).
  rewrite E, K, Ropp_0, Rabs_R0 in S. unfold Rdiv in S. rewrite Rmult_0_l in S. lra.
Qed.
Lemma slant_len : forall q1 q2 t1 t2 t3, 0 < slant q1 q2 t1 t2 t3 -> norm (vsub q2 q1) <> 0.
Proof. intros q1 q2 t1 t2 t3 S K. unfold slant in S. rewrite K in S. unfold Rdiv in S. rewrite Rinv_0, Rmult_0_r in S. lra. Qed.

(** C26 for steps that are not almost parallel to the triangle *)
Theorem tri_exact : forall q1 q2 t1 t2 t3 w, EPS < area2 t1 t2 t3 -> EPS <= slant q1 q2 t1 t2 t3 ->
  (0 <= tri_collision q1 q2 t1 t2 t3 /\ tri_collision q1 q2 t1 t2 t3 = w <-> hits_at q1 q2 t1 t2 t3 w).
Proof.
  intros q1 q2 t1 t2 t3 w A S. pose proof EPS_pos as EP.
  assert (S0 : 0 < slant q1 q2 t1 t2 t3) by lra.
  unfold tri_collision. destruct (Req_EM_T _ _) as [Z|_]; [now apply slant_len in S0|].
  unfold area2 in A. fold (tri_normal t1 t2 t3) in A. destruct (Rlt_dec _ _); [|lra].
  unfold tri_dir. cbv zeta. rewrite det_slant. destruct (Rlt_dec _ _); [lra|].
  pose proof (slant_nondeg _ _ _ _ _ S0) as ND.
  pose proof (mt_spec q1 _ t1 t2 t3 ND) as M. unfold hits_at, at_frac.
  set (Q := vsub q2 q1) in *.
  assert (Un : forall a b, in_triangle t1 t2 t3 (vadd q1 (vscal a Q)) -> in_triangle t1 t2 t3 (vadd q1 (vscal b Q)) -> a = b).
  { intros a b Ia Ib. apply in_tri_uv in Ia, Ib. destruct Ia as (u & v & _ & _ & _ & Ea), Ib as (u' & v' & _ & _ & _ & Eb).
    set (D := dot (cross Q (vsub t3 t1)) (vsub t2 t1)) in ND.
    assert (dot (cross Q (vsub t3 t1)) (vsub t2 t1) <> 0) as ND' by exact ND. clear -Ea Eb ND'.
    apply Rmult_eq_reg_r with (dot (cross Q (vsub t3 t1)) (vsub t2 t1)); auto. clear ND'.
    destruct (mt_unique Q (vsub t2 t1) (vsub t3 t1) (vsub q1 t1) u v a) as (_ & _ & <-).
    { vdestr. vunf. injection Ea as E1 E2 E3. f_equal; lra. }
    destruct (mt_unique Q (vsub t2 t1) (vsub t3 t1) (vsub q1 t1) u' v' b) as (_ & _ & <-).
    { vdestr. vunf. injection Eb as E1 E2 E3. f_equal; lra. }
    reflexivity. }
  destruct M as [(w0 & W & I & E)|[N E]]; rewrite E.
  - split.
    + intros [P <-]. auto.
    + intros [P I']. rewrite (Un w0 w I I') in *. split; [lra|auto].
  - split; [intros [? ?]; lra|]. intros [P I]. exfalso. apply (N w); [lra|auto].
Qed.
(** C26 in general: what is reported lies within 2e-9 of the triangle *)
Theorem tri_sound : forall q1 q2 t1 t2 t3, 0 <= tri_collision q1 q2 t1 t2 t3 ->
  tri_collision q1 q2 t1 t2 t3 <= 1 /\
  exists x, in_triangle t1 t2 t3 x /\ norm (vsub x (at_frac q1 q2 (tri_collision q1 q2 t1 t2 t3))) <= 2 * EPS.
Proof.
  intros q1 q2 t1 t2 t3 H. pose proof EPS_pos as EP. unfold tri_collision in *.
  destruct (Req_EM_T _ _); [lra|]. destruct (Rlt_dec _ _) as [A|]; [|lra].
  set (Q := tri_dir q1 q2 t1 t2 t3) in *.
  destruct (Req_dec (dot (cross Q (vsub t3 t1)) (vsub t2 t1)) 0) as [Z|ND].
  { rewrite mt_deg in H; [lra|]. intros K. now apply K. }
  destruct (mt_spec q1 Q t1 t2 t3 ND) as [(w & W & I & E)|[N E]]; rewrite E in *; [|lra].
  split; auto. exists (vadd q1 (vscal w Q)). split; auto.
  unfold Q, tri_dir. cbv zeta. destruct (Rlt_dec _ _).
  - set (N := tri_normal t1 t2 t3) in *.
    replace (vsub _ _) with (vscal (w * (2 * EPS / norm N)) N).
    + rewrite norm_scal. rewrite Rabs_right.
      * replace (w * (2 * EPS / norm N) * norm N) with (w * (2 * EPS)) by (field; lra). nra.
      * apply Rle_ge. apply Rmult_le_pos; auto. apply Rle_mult_inv_pos; lra.
    + unfold at_frac. clearbody N. clear. vdestr. vunf. unfold Rdiv. f_equal; ring.
  - replace (vsub _ _) with vzero; [|unfold at_frac; clear; vring].
    replace (norm vzero) with 0; [lra|]. unfold norm, vzero. cbn. symmetry. replace (0 * 0 + 0 * 0 + 0 * 0) with 0 by ring. apply sqrt_0.
Qed.
Theorem tri_degenerate : forall q1 q2 t1 t2 t3, area2 t1 t2 t3 <= EPS \/ q1 = q2 -> tri_collision q1 q2 t1 t2 t3 = -1.
Proof.
  intros q1 q2 t1 t2 t3 [H| ->]; unfold tri_collision.
  - destruct (Req_EM_T _ _); auto. unfold area2 in H. fold (tri_normal t1 t2 t3) in H. destruct (Rlt_dec _ _); auto. lra.
  - destruct (Req_EM_T _ _) as [|N]; auto. exfalso. apply N. replace (vsub q2 q2) with vzero by (symmetry; clear; vring).
    unfold norm, vzero. cbn. replace (0 * 0 + 0 * 0 + 0 * 0) with 0 by ring. apply sqrt_0.
Qed.
