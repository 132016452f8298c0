(** Three-dimensional real vectors (the array macros of math.h:24-75) and the
    two-argument arctangent. *)
From Coq Require Import Reals Lra Psatz.
Local Open Scope R_scope.

Record vec := V { vx : R; vy : R; vz : R }.
Definition vadd a b := V (vx a + vx b) (vy a + vy b) (vz a + vz b).
Definition vsub a b := V (vx a - vx b) (vy a - vy b) (vz a - vz b).
Definition vscal k a := V (k * vx a) (k * vy a) (k * vz a).
Definition vzero := V 0 0 0.
(** math.h:32 *)
Definition dot a b := vx a * vx b + vy a * vy b + vz a * vz b.
(** math.h:35-36 *)
Definition cross a b :=
  V (vy a * vz b - vz a * vy b) (vz a * vx b - vx a * vz b) (vx a * vy b - vy a * vx b).
(** math.h:43-49 *)
Definition triple a b c :=
  - (vz a * vy b * vx c) + vy a * vz b * vx c + vz a * vx b * vy c
  - vx a * vz b * vy c - vy a * vx b * vz c + vx a * vy b * vz c.
(** math.h:68 *)
Definition norm a := sqrt (vx a * vx a + vy a * vy a + vz a * vz a).
(** math.h:74-75 *)
Definition unit a := V (vx a / norm a) (vy a / norm a) (vz a / norm a).
(** math.h:101-107 *)
Definition det3 x1 x2 x3 y1 y2 y3 z1 z2 z3 :=
  x1 * (y2 * z3 - y3 * z2) + x2 * (y3 * z1 - y1 * z3) + x3 * (y1 * z2 - y2 * z1).

Ltac vdestr := repeat match goal with a : vec |- _ => destruct a end; cbn [vx vy vz] in *.
Ltac vunf := unfold vadd, vsub, vscal, vzero, dot, cross, triple, det3 in *; cbn [vx vy vz] in *.
Ltac vring := intros; vdestr; vunf; try (f_equal; ring); try ring.

Lemma triple_dot : forall a b c, triple a b c = dot (cross a b) c.
Proof. vring. Qed.
Lemma dot_nonneg : forall a, 0 <= dot a a.
Proof.
  intros [x y z]. unfold dot. cbn. pose proof (Rle_0_sqr x). pose proof (Rle_0_sqr y). pose proof (Rle_0_sqr z).
  unfold Rsqr in *. lra.
Qed.
Lemma norm_sq : forall a, norm a * norm a = dot a a.
Proof. intros a. unfold norm. rewrite sqrt_sqrt; [reflexivity | apply dot_nonneg]. Qed.
Lemma norm_nonneg : forall a, 0 <= norm a.
Proof. intros. apply sqrt_pos. Qed.
Lemma dot_zero : forall a, dot a a = 0 -> a = vzero.
Proof.
  intros [x y z]. unfold dot, vzero. cbn. intros H.
  pose proof (Rle_0_sqr x). pose proof (Rle_0_sqr y). pose proof (Rle_0_sqr z). unfold Rsqr in *.
  f_equal; apply Rsqr_0_uniq; unfold Rsqr; lra.
Qed.
Lemma norm_zero : forall a, norm a = 0 <-> a = vzero.
Proof.
  intros a. split; intros H.
  - apply dot_zero. rewrite <- norm_sq, H. ring.
  - subst. unfold norm, vzero. cbn. replace (0 * 0 + 0 * 0 + 0 * 0) with 0 by ring. apply sqrt_0.
Qed.
Lemma norm_pos : forall a, a <> vzero -> 0 < norm a.
Proof.
  intros a H. destruct (norm_nonneg a); auto. exfalso. apply H. apply norm_zero. auto.
Qed.
Lemma norm_scal : forall k a, norm (vscal k a) = Rabs k * norm a.
Proof.
  intros k a. rewrite <- sqrt_Rsqr_abs. unfold norm. rewrite <- sqrt_mult.
  - f_equal. unfold vscal, Rsqr. cbn. ring.
  - apply Rle_0_sqr.
  - apply dot_nonneg.
Qed.
Lemma norm_eq : forall a b, dot a a = dot b b -> norm a = norm b.
Proof. intros a b H. unfold norm. f_equal. exact H. Qed.
Lemma unit_scal : forall a, unit a = vscal (/ norm a) a.
Proof. intros [x y z]. unfold unit, vscal, Rdiv. cbn. f_equal; ring. Qed.
Lemma unit_norm : forall a, a <> vzero -> norm (unit a) = 1.
Proof.
  intros a H. rewrite unit_scal, norm_scal. pose proof (norm_pos a H).
  rewrite Rabs_right; [apply Rinv_l; lra|]. left. now apply Rinv_0_lt_compat.
Qed.
Lemma cross_self : forall a, cross a a = vzero.
Proof. vring. Qed.
Lemma dot_cross_l : forall a b, dot a (cross a b) = 0.
Proof. vring. Qed.
Lemma dot_cross_r : forall a b, dot b (cross a b) = 0.
Proof. vring. Qed.
Lemma lagrange : forall a b, dot (cross a b) (cross a b) = dot a a * dot b b - dot a b * dot a b.
Proof. vring. Qed.
Lemma bac_cab : forall a b c, cross a (cross b c) = vsub (vscal (dot a c) b) (vscal (dot a b) c).
Proof. vring. Qed.

(** C library atan2 on the reals *)
Definition atan2 (y x : R) : R :=
  if Rlt_dec 0 x then atan (y / x)
  else if Rlt_dec x 0 then (if Rle_dec 0 y then atan (y / x) + PI else atan (y / x) - PI)
  else if Rlt_dec 0 y then PI / 2
  else if Rlt_dec y 0 then - (PI / 2)
  else 0.

Lemma cos_atan_pos : forall t, 0 < cos (atan t).
Proof. intros t. destruct (atan_bound t). apply cos_gt_0; lra. Qed.
Lemma atan_hyp : forall y x, 0 < x -> let h := sqrt (x * x + y * y) in
  h * cos (atan (y / x)) = x /\ h * sin (atan (y / x)) = y.
Proof.
  intros y x Hx h. set (t := atan (y / x)). pose proof (cos_atan_pos (y / x)) as C. fold t in C.
  assert (T : sin t = y / x * cos t).
  { assert (E : tan t = y / x) by apply tan_atan. rewrite <- E. unfold tan. field. lra. }
  pose proof (sin2_cos2 t) as S. unfold Rsqr in S.
  assert (Q : (cos t) * (cos t) * (x * x + y * y) = x * x).
  { rewrite T in S. replace (x * x) with (x * x * 1) at 2 by ring. rewrite <- S. field. lra. }
  assert (P : 0 < x * x + y * y) by nra.
  assert (H : h * cos t = x).
  { apply Rsqr_inj; unfold Rsqr.
    - apply Rmult_le_pos; [apply sqrt_pos | lra].
    - lra.
    - transitivity (h * h * (cos t * cos t)); [ring|]. unfold h. rewrite sqrt_sqrt by lra. lra. }
  split; auto. rewrite T. transitivity (y / x * (h * cos t)); [ring|]. rewrite H. field. lra.
Qed.
Lemma atan2_spec : forall y x, let h := sqrt (x * x + y * y) in
  h * cos (atan2 y x) = x /\ h * sin (atan2 y x) = y.
Proof.
  intros y x h. unfold atan2, h. clear h.
  destruct (Rlt_dec 0 x); [now apply atan_hyp|].
  destruct (Rlt_dec x 0).
  - destruct (atan_hyp (- y) (- x) ltac:(lra)) as [A B].
    replace (- x * - x + - y * - y) with (x * x + y * y) in * by ring.
    replace (- y / - x) with (y / x) in * by (field; lra).
    destruct (Rle_dec 0 y).
    + rewrite neg_cos, neg_sin. lra.
    + replace (atan (y / x) - PI) with (- (PI - atan (y / x))) by ring. rewrite cos_neg, sin_neg.
      rewrite <- Rtrigo_facts.sin_pi_minus. replace (PI - (PI - atan (y / x))) with (atan (y / x)) by ring.
      replace (PI - atan (y / x)) with (- atan (y / x) + PI) by ring. rewrite neg_cos, cos_neg. lra.
  - assert (x = 0) by lra. subst. replace (0 * 0 + y * y) with (Rsqr y) by (unfold Rsqr; ring).
    rewrite sqrt_Rsqr_abs. destruct (Rlt_dec 0 y); [|destruct (Rlt_dec y 0)].
    + rewrite cos_PI2, sin_PI2, Rabs_right by lra. lra.
    + rewrite cos_neg, sin_neg, cos_PI2, sin_PI2, Rabs_left by lra. lra.
    + assert (y = 0) by lra. subst. rewrite Rabs_R0. lra.
Qed.
Lemma atan2_range : forall y x, - PI < atan2 y x <= PI.
Proof.
  intros y x. pose proof PI_RGT_0. unfold atan2. destruct (atan_bound (y / x)).
  destruct (Rlt_dec 0 x); [lra|]. destruct (Rlt_dec x 0).
  - destruct (Rle_dec 0 y).
    + split; [lra|]. assert (atan (y / x) <= 0); [|lra].
      destruct (Req_dec y 0) as [->|]; [unfold Rdiv; rewrite Rmult_0_l, atan_0; lra|].
      left. rewrite <- atan_0. apply atan_increasing. assert (0 < y * / - x) by (apply Rmult_lt_0_compat; [lra | apply Rinv_0_lt_compat; lra]).
      unfold Rdiv. rewrite <- Ropp_inv_permute in * by lra. lra.
    + split; [|lra]. assert (0 < atan (y / x)); [|lra].
      rewrite <- atan_0. apply atan_increasing.
      replace (y / x) with (- y * / - x) by (field; lra). apply Rmult_lt_0_compat; [lra | apply Rinv_0_lt_compat; lra].
  - destruct (Rlt_dec 0 y); [lra|]. destruct (Rlt_dec y 0); lra.
Qed.
(** an angle in (-pi,pi] is determined by its cosine and sine *)
Lemma angle_unique : forall a b, - PI < a <= PI -> - PI < b <= PI -> cos a = cos b -> sin a = sin b -> a = b.
Proof.
  assert (W : forall a b, - PI < a <= PI -> - PI < b <= PI -> a <= b -> cos a = cos b -> sin a = sin b -> a = b).
  { intros a b A B L C S. destruct (Rle_lt_or_eq_dec a b L) as [Q|]; auto. exfalso.
    assert (D : cos (b - a) = 1).
    { rewrite cos_minus, C, S. pose proof (sin2_cos2 b) as T. unfold Rsqr in T. lra. }
    set (u := b - a) in *. assert (0 < u < 2 * PI) by (unfold u; lra).
    assert (E : cos u = 1 - 2 * sin (u / 2) * sin (u / 2)).
    { rewrite <- cos_2a_sin. f_equal. field. }
    assert (0 < sin (u / 2)) by (apply sin_gt_0; lra). nra. }
  intros a b A B C S. destruct (Rle_dec a b); [now apply W | symmetry; apply W; auto; lra].
Qed.
Lemma atan2_polar : forall r p, 0 < r -> - PI < p <= PI -> atan2 (r * sin p) (r * cos p) = p.
Proof.
  intros r p Hr Hp. destruct (atan2_spec (r * sin p) (r * cos p)) as [A B].
  replace (r * cos p * (r * cos p) + r * sin p * (r * sin p)) with (Rsqr r) in *.
  2:{ unfold Rsqr. pose proof (sin2_cos2 p) as T. unfold Rsqr in T.
      replace (r * r) with (r * r * 1) by ring. rewrite <- T. ring. }
  rewrite sqrt_Rsqr in A, B by lra.
  apply Rmult_eq_reg_l in A; [|lra]. apply Rmult_eq_reg_l in B; [|lra].
  apply angle_unique; auto. apply atan2_range.
Qed.
