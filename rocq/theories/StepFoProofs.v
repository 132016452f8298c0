(** Proofs about the full-orbit step. *)
From Coq Require Import Reals ZArith Bool Lra Lia Psatz.
From Verif Require Import Deriv Vec Math2Model Math2Proofs PhysModel PhysProofs StepFoModel.
Local Open Scope R_scope.

(** rotation of u about B *)
Definition rot (d : R) (B u : vec) : vec :=
  vadd u (vscal (2 * d / (1 + d * d * dot B B)) (vadd (cross u B) (vscal d (cross (cross u B) B)))).
Definition kick (q m h : R) (E p : vec) : vec := vadd (vscal (/ (m * CONST_C)) p) (vscal (q * h / (2 * m * CONST_C)) E).
Definition angle (q m h : R) (u : vec) : R := (q * h / (2 * m)) / sqrt (1 + dot u u).
Definition row3 (A B : nat -> R) (a0 a1 a2 b : nat) : R := A a0 * B b + A a1 * B (b + 1)%nat + A a2 * B (b + 2)%nat.
Lemma mm_at : forall A B d1 i j x, (i < d1)%nat -> (j < 3)%nat -> x = (i * 3 + j)%nat -> matmul A B d1 3 3 (fun _ => 0) x =
  row3 A B i (d1 + i) (2 * d1 + i) (j * 3).
Proof.
  intros A B d1 i j x I J ->. unfold matmul. rewrite (proj1 (mat_rows_spec A B d1 3 3 d1 (fun _ => 0))) by auto. cbn [sumn]. unfold row3.
  replace (0 * d1 + i)%nat with i by lia. replace (1 * d1 + i)%nat with (d1 + i)%nat by lia. replace (j * 3 + 0)%nat with (j * 3)%nat by lia. ring.
Qed.
Lemma boris_rot : forall q m h E B p, boris q m h E B p =
  let u := kick q m h E p in vscal (m * CONST_C) (vadd (rot (angle q m h u) B u) (vscal (q * h / (2 * m * CONST_C)) E)).
Proof.
  intros q m h [e1 e2 e3] [b1 b2 b3] [p1 p2 p3]. unfold boris. cbv zeta.
  replace (V (vx (V p1 p2 p3) / (m * CONST_C) + q * h / (2 * m * CONST_C) * vx (V e1 e2 e3))
             (vy (V p1 p2 p3) / (m * CONST_C) + q * h / (2 * m * CONST_C) * vy (V e1 e2 e3))
             (vz (V p1 p2 p3) / (m * CONST_C) + q * h / (2 * m * CONST_C) * vz (V e1 e2 e3))) with (kick q m h (V e1 e2 e3) (V p1 p2 p3))
    by (unfold kick, vadd, vscal; cbn [vx vy vz]; f_equal; unfold Rdiv; ring).
  set (u := kick q m h (V e1 e2 e3) (V p1 p2 p3)). fold (angle q m h u). set (d := angle q m h u). clearbody d. clearbody u. destruct u as [u1 u2 u3].
  rewrite (mm_at _ _ 1 0 0 0), (mm_at _ _ 1 0 1 1), (mm_at _ _ 1 0 2 2) by (try reflexivity; lia). unfold row3. cbn [Nat.mul Nat.add list3 vx vy vz].
  rewrite (mm_at _ _ 3 0 0 0), (mm_at _ _ 3 0 1 1), (mm_at _ _ 3 0 2 2), (mm_at _ _ 3 1 0 3), (mm_at _ _ 3 1 1 4), (mm_at _ _ 3 1 2 5),
    (mm_at _ _ 3 2 0 6), (mm_at _ _ 3 2 1 7), (mm_at _ _ 3 2 2 8) by (try reflexivity; lia).
  unfold row3. cbn [Nat.mul Nat.add list3 vx vy vz]. unfold rot, vadd, vscal, cross, dot. cbn [vx vy vz]. unfold Rdiv. f_equal; ring.
Qed.
Lemma rot_den : forall d B, 0 < 1 + d * d * dot B B.
Proof. intros d B. pose proof (Rle_0_sqr d). pose proof (dot_nonneg B). unfold Rsqr in *. nra. Qed.
Lemma cross_lin : forall a k b B, cross (vadd a (vscal k b)) B = vadd (cross a B) (vscal k (cross b B)).
Proof. vring. Qed.
Lemma cross_twice : forall w B, dot w B = 0 -> cross (cross w B) B = vscal (- dot B B) w.
Proof.
  intros [w1 w2 w3] [b1 b2 b3] H. vunf. f_equal.
  - transitivity (b1 * (w1 * b1 + w2 * b2 + w3 * b3) - (b1 * b1 + b2 * b2 + b3 * b3) * w1); [ring|]. rewrite H. ring.
  - transitivity (b2 * (w1 * b1 + w2 * b2 + w3 * b3) - (b1 * b1 + b2 * b2 + b3 * b3) * w2); [ring|]. rewrite H. ring.
  - transitivity (b3 * (w1 * b1 + w2 * b2 + w3 * b3) - (b1 * b1 + b2 * b2 + b3 * b3) * w3); [ring|]. rewrite H. ring.
Qed.
Lemma dot_lin_l : forall a k b c, dot (vadd a (vscal k b)) c = dot a c + k * dot b c.
Proof. vring. Qed.
Lemma dot_comm : forall a b, dot a b = dot b a.
Proof. vring. Qed.
Lemma rot_norm : forall d B u, dot (rot d B u) (rot d B u) = dot u u /\ dot (rot d B u) B = dot u B.
Proof.
  intros d B u. pose proof (rot_den d B) as N. unfold rot. set (w := cross u B). set (c := cross w B).
  assert (WB : dot w B = 0) by (unfold w; rewrite dot_comm; apply dot_cross_r).
  assert (CB : dot c B = 0) by (unfold c; rewrite dot_comm; apply dot_cross_r).
  assert (UW : dot u w = 0) by apply dot_cross_l. assert (WC : dot w c = 0) by apply dot_cross_l.
  assert (UC : dot u c = - dot w w) by (unfold c, w; clear; vring).
  assert (CC : dot c c = dot w w * dot B B) by (unfold c; rewrite lagrange, WB; ring).
  set (k := 2 * d / (1 + d * d * dot B B)). split.
  - rewrite dot_lin_l, (dot_comm u), dot_lin_l, (dot_comm (vadd w _) (vadd u _)), dot_lin_l.
    rewrite !dot_lin_l, (dot_comm w u), (dot_comm c u), (dot_comm u (vadd w _)), dot_lin_l, (dot_comm w u), (dot_comm c u),
      (dot_comm w (vadd _ _)), (dot_comm c (vadd _ _)), !dot_lin_l, (dot_comm c w), WC, UW, UC, CC. unfold k. field. lra.
  - rewrite !dot_lin_l, WB, CB. ring.
Qed.
Lemma rot_back : forall d B u, rot (- d) B (rot d B u) = u.
Proof.
  intros d B u. pose proof (rot_den d B) as N. unfold rot. set (w := cross u B).
  assert (WB : dot w B = 0) by (unfold w; rewrite dot_comm; apply dot_cross_r).
  rewrite !cross_lin. fold w. rewrite (cross_twice w B WB). set (c := cross w B).
  assert (CC : cross c B = vscal (- dot B B) w) by (apply cross_twice; auto). clearbody w.
  replace (cross (vscal (- dot B B) w) B) with (vscal (- dot B B) c) by (unfold c; clear; vring). rewrite ?CC. clearbody c.
  replace (- d * - d) with (d * d) by ring. set (b := dot B B) in *. clearbody b.
  destruct u as [u1 u2 u3], w as [w1 w2 w3], c as [c1 c2 c3]. vunf. f_equal; field; lra.
Qed.

(** ** The momentum update *)
Lemma dot_scal : forall k a, dot (vscal k a) (vscal k a) = k * k * dot a a.
Proof. vring. Qed.
Lemma vscal_vscal : forall j k a, vscal j (vscal k a) = vscal (j * k) a.
Proof. vring. Qed.
Lemma vscal_1 : forall a, vscal 1 a = a.
Proof. vring. Qed.
Lemma vscal_zero : forall k, vscal k vzero = vzero.
Proof. vring. Qed.
Lemma vadd_zero : forall a, vadd a vzero = a.
Proof. vring. Qed.
Lemma mc_pos : forall m, 0 < m -> 0 < m * CONST_C.
Proof. intros. pose proof C_pos. nra. Qed.
Lemma boris_noE : forall q m h B p, 0 < m ->
  dot (boris q m h vzero B p) (boris q m h vzero B p) = dot p p /\ dot (boris q m h vzero B p) B = dot p B.
Proof.
  intros q m h B p M. pose proof (mc_pos m M). rewrite boris_rot. cbv zeta. unfold kick. rewrite vscal_zero, !vadd_zero. set (u := vscal (/ (m * CONST_C)) p).
  destruct (rot_norm (angle q m h u) B u) as [A A']. set (r := rot _ B u) in *. clearbody r. split.
  - rewrite dot_scal, A. unfold u. rewrite dot_scal. field. nz.
  - replace (dot (vscal (m * CONST_C) r) B) with (m * CONST_C * dot r B) by (clear; vring). rewrite A'.
    replace (dot u B) with (/ (m * CONST_C) * dot p B) by (unfold u; clear; vring). field. nz.
Qed.
Lemma boris_reverse : forall q m h E B p, 0 < m -> boris q m (- h) E B (boris q m h E B p) = p.
Proof.
  intros q m h E B p M. pose proof (mc_pos m M) as MC. rewrite (boris_rot q m (- h)), (boris_rot q m h). cbv zeta. set (u := kick q m h E p). set (r := rot (angle q m h u) B u).
  assert (K : kick q m (- h) E (vscal (m * CONST_C) (vadd r (vscal (q * h / (2 * m * CONST_C)) E))) = r).
  { unfold kick. rewrite vscal_vscal. replace (/ (m * CONST_C) * (m * CONST_C)) with 1 by (field; nz). rewrite vscal_1.
    replace (q * - h / (2 * m * CONST_C)) with (- (q * h / (2 * m * CONST_C))) by (field; nz). clearbody r. clear. vring. }
  rewrite K. assert (A : angle q m (- h) r = - angle q m h u).
  { unfold angle. destruct (rot_norm (angle q m h u) B u) as [N _]. fold r in N. rewrite N.
    assert (0 < sqrt (1 + dot u u)) by (apply sqrt_lt_R0; pose proof (dot_nonneg u); lra). field. nz. }
  rewrite A. unfold r. rewrite rot_back. unfold u, kick.
  replace (q * - h / (2 * m * CONST_C)) with (- (q * h / (2 * m * CONST_C))) by (field; nz).
  generalize (q * h / (2 * m * CONST_C)). intros k. destruct p as [p1 p2 p3], E as [e1 e2 e3]. vunf. f_equal; field; nz.
Qed.
Lemma boris_neutral : forall m h E B p, 0 < m -> boris 0 m h E B p = p.
Proof.
  intros m h E B p M. pose proof (mc_pos m M) as MC. rewrite boris_rot. cbv zeta. unfold kick, angle, rot.
  replace (0 * h / (2 * m * CONST_C)) with 0 by (field; nz).
  replace (0 * h / (2 * m) / _) with 0 by (unfold Rdiv; ring).
  generalize (cross (vadd (vscal (/ (m * CONST_C)) p) (vscal 0 E)) B). intros w. generalize (cross w B). intros c.
  destruct p as [p1 p2 p3], E as [e1 e2 e3], w as [w1 w2 w3], c as [c1 c2 c3]. vunf. f_equal; field; nz.
Qed.
(** the force is the Lorentz force: derivative in the step length at 0 *)
Lemma d_at0 : forall (k : R -> R) a, continuity_pt k 0 -> Dx (fun h => a + h * k h) 0 (k 0).
Proof.
  intros k a K eps E. destruct (K eps E) as (al & A & H). exists (mkposreal al A). intros h Hn Hh. cbn in Hh.
  replace ((a + (0 + h) * k (0 + h) - (a + 0 * k 0)) / h - k 0) with (k h - k 0) by (rewrite Rplus_0_l; field; auto).
  apply (H h). split; [split; [exact I | auto]|]. cbn. unfold R_dist. now rewrite Rminus_0_r.
Qed.
Definition bk (q m h : R) (E B p : vec) : vec :=
  let u := kick q m h E p in
  let s := sqrt (1 + dot u u) in
  let d := angle q m h u in
  vadd (vscal q E) (vscal (q * CONST_C / (s * (1 + d * d * dot B B))) (vadd (cross u B) (vscal d (cross (cross u B) B)))).
Lemma boris_bk : forall q m h E B p, 0 < m -> boris q m h E B p = vadd p (vscal h (bk q m h E B p)).
Proof.
  intros q m h E B p M. pose proof (mc_pos m M) as MC. pose proof C_pos. rewrite boris_rot. cbv zeta. unfold bk. cbv zeta. set (u := kick q m h E p).
  assert (S : 0 < sqrt (1 + dot u u)) by (apply sqrt_lt_R0; pose proof (dot_nonneg u); lra).
  pose proof (rot_den (angle q m h u) B) as N. unfold rot. set (w := vadd (cross u B) _).
  assert (D : 2 * angle q m h u / (1 + angle q m h u * angle q m h u * dot B B) = h * (q / (m * sqrt (1 + dot u u) * (1 + angle q m h u * angle q m h u * dot B B)))).
  { unfold angle at 1. field. nz. }
  rewrite D. clear D. set (n := 1 + angle q m h u * angle q m h u * dot B B) in *. clearbody n. set (r := sqrt (1 + dot u u)) in *. clearbody r. clearbody w.
  unfold u, kick. destruct p as [p1 p2 p3], E as [e1 e2 e3], w as [w1 w2 w3]. vunf. f_equal; field; nz.
Qed.
Definition vc (f : R -> vec) (x : R) : Prop := continuity_pt (fun h => vx (f h)) x /\ continuity_pt (fun h => vy (f h)) x /\ continuity_pt (fun h => vz (f h)) x.
Lemma vc_const : forall a x, vc (fun _ => a) x.
Proof. intros. repeat split; apply continuity_pt_const; intros ? ?; reflexivity. Qed.
Lemma vc_add : forall f g x, vc f x -> vc g x -> vc (fun h => vadd (f h) (g h)) x.
Proof. intros f g x (A & B & C) (D & E & F). repeat split; apply (continuity_pt_plus (fun h => _ (f h)) (fun h => _ (g h))); auto. Qed.
Lemma vc_scal : forall k f x, continuity_pt k x -> vc f x -> vc (fun h => vscal (k h) (f h)) x.
Proof. intros k f x K (A & B & C). repeat split; apply (continuity_pt_mult k (fun h => _ (f h))); auto. Qed.
Lemma vc_dot : forall f g x, vc f x -> vc g x -> continuity_pt (fun h => dot (f h) (g h)) x.
Proof.
  intros f g x (A & B & C) (D & E & F). unfold dot.
  apply (continuity_pt_plus (fun h => vx (f h) * vx (g h) + vy (f h) * vy (g h)) (fun h => vz (f h) * vz (g h))).
  - apply (continuity_pt_plus (fun h => vx (f h) * vx (g h)) (fun h => vy (f h) * vy (g h))).
    + now apply (continuity_pt_mult (fun h => vx (f h)) (fun h => vx (g h))).
    + now apply (continuity_pt_mult (fun h => vy (f h)) (fun h => vy (g h))).
  - now apply (continuity_pt_mult (fun h => vz (f h)) (fun h => vz (g h))).
Qed.
Lemma cp_det : forall a b c d x, continuity_pt a x -> continuity_pt b x -> continuity_pt c x -> continuity_pt d x -> continuity_pt (fun h : R => a h * b h - c h * d h) x.
Proof.
  intros a b c d x A B C D. apply (continuity_pt_minus (fun h => a h * b h) (fun h => c h * d h)); [now apply (continuity_pt_mult a b) | now apply (continuity_pt_mult c d)].
Qed.
Lemma vc_cross : forall f g x, vc f x -> vc g x -> vc (fun h => cross (f h) (g h)) x.
Proof. intros f g x (A & B & C) (D & E & F). repeat split; unfold cross; cbn [vx vy vz]; now apply cp_det with (a := fun h => _ (f h)) (b := fun h => _ (g h)) (c := fun h => _ (f h)) (d := fun h => _ (g h)). Qed.
Lemma cp_id : forall x, continuity_pt (fun h => h) x.
Proof. intros. apply derivable_continuous_pt, derivable_pt_id. Qed.
Lemma cp_c : forall (a x : R), continuity_pt (fun _ => a) x.
Proof. intros. apply continuity_pt_const. intros ? ?. reflexivity. Qed.
Lemma cp_sqrt : forall f x, continuity_pt f x -> 0 < f x -> continuity_pt (fun h => sqrt (f h)) x.
Proof. intros f x F P. apply (continuity_pt_comp f sqrt); auto. apply sqrt_continuity_pt. auto. Qed.
Lemma cp_div : forall f g x, continuity_pt f x -> continuity_pt g x -> g x <> 0 -> continuity_pt (fun h => f h / g h) x.
Proof. intros. apply (continuity_pt_div f g); auto. Qed.
Lemma cp_mult : forall f g x, continuity_pt f x -> continuity_pt g x -> continuity_pt (fun h => f h * g h) x.
Proof. intros. apply (continuity_pt_mult f g); auto. Qed.
Lemma cp_plus : forall f g x, continuity_pt f x -> continuity_pt g x -> continuity_pt (fun h => f h + g h) x.
Proof. intros. apply (continuity_pt_plus f g); auto. Qed.

Definition lorentz_force (q m : R) (E B p : vec) : vec := vadd (vscal q E) (vscal (q / (gamma_pnorm m (norm p) * m)) (cross p B)).
Lemma gamma_u : forall m p, 0 < m -> sqrt (1 + dot (vscal (/ (m * CONST_C)) p) (vscal (/ (m * CONST_C)) p)) = gamma_pnorm m (norm p).
Proof.
  intros m p M. pose proof (mc_pos m M). pose proof C_pos. unfold gamma_pnorm. f_equal. rewrite dot_scal, norm_sq. unfold CONST_C2. field. nz.
Qed.
Lemma bk_0 : forall q m E B p, 0 < m -> bk q m 0 E B p = lorentz_force q m E B p.
Proof.
  intros q m E B p M. pose proof C_pos. unfold bk, lorentz_force. cbv zeta.
  assert (K : kick q m 0 E p = vscal (/ (m * CONST_C)) p).
  { unfold kick. replace (q * 0 / (2 * m * CONST_C)) with 0 by (field; nz). clear. vring. }
  rewrite K. replace (angle q m 0 _) with 0 by (unfold angle, Rdiv; ring). rewrite gamma_u by auto.
  destruct (gamma_pnorm_sq m (norm p)) as [_ G]; [lra|]. set (g := gamma_pnorm m (norm p)) in *. clearbody g.
  generalize (cross (cross (vscal (/ (m * CONST_C)) p) B) B). intros c.
  replace (cross (vscal (/ (m * CONST_C)) p) B) with (vscal (/ (m * CONST_C)) (cross p B)) by (clear; vring).
  generalize (cross p B). intros w. destruct E as [e1 e2 e3], w as [w1 w2 w3], c as [c1 c2 c3]. vunf. f_equal; field; nz.
Qed.
Lemma bk_cont : forall q m E B p, 0 < m -> vc (fun h => bk q m h E B p) 0.
Proof.
  intros q m E B p M. pose proof (mc_pos m M) as MC. pose proof C_pos.
  assert (U : vc (fun h => kick q m h E p) 0).
  { unfold kick. apply (vc_add (fun _ => _)); [apply vc_const|]. apply vc_scal; [|apply vc_const]. apply cp_div; [apply cp_mult; [apply cp_c|apply cp_id]|apply cp_c|nz]. }
  assert (S : continuity_pt (fun h => sqrt (1 + dot (kick q m h E p) (kick q m h E p))) 0).
  { apply cp_sqrt; [apply cp_plus; [apply cp_c|now apply vc_dot]|]. pose proof (dot_nonneg (kick q m 0 E p)). lra. }
  assert (SP : forall h, 0 < sqrt (1 + dot (kick q m h E p) (kick q m h E p))) by (intros h; apply sqrt_lt_R0; pose proof (dot_nonneg (kick q m h E p)); lra).
  assert (A : continuity_pt (fun h => angle q m h (kick q m h E p)) 0).
  { unfold angle. apply cp_div; [|exact S|apply Rgt_not_eq, SP]. apply cp_div; [apply cp_mult; [apply cp_c|apply cp_id]|apply cp_c|nz]. }
  unfold bk. cbv zeta. apply (vc_add (fun _ => _)); [apply vc_const|]. apply vc_scal.
  - apply cp_div; [apply cp_c| |].
    + apply cp_mult; [exact S|]. apply cp_plus; [apply cp_c|]. apply cp_mult; [now apply cp_mult|apply cp_c].
    + apply Rgt_not_eq, Rmult_lt_0_compat; [apply SP|apply rot_den].
  - apply vc_add; [apply vc_cross; [auto|apply vc_const]|]. apply vc_scal; auto. apply vc_cross; [apply vc_cross; [auto|apply vc_const]|apply vc_const].
Qed.
Lemma boris_force : forall q m E B p, 0 < m -> let F := lorentz_force q m E B p in
  Dx (fun h => vx (boris q m h E B p)) 0 (vx F) /\ Dx (fun h => vy (boris q m h E B p)) 0 (vy F) /\ Dx (fun h => vz (boris q m h E B p)) 0 (vz F).
Proof.
  intros q m E B p M F. unfold F. rewrite <- bk_0 by auto. destruct (bk_cont q m E B p M) as (A & B0 & C).
  split; [|split]; (eapply d_ext; [intros h; rewrite boris_bk by auto; unfold vadd, vscal; cbn [vx vy vz]; reflexivity|]);
    [now apply (d_at0 (fun h => vx (bk q m h E B p))) | now apply (d_at0 (fun h => vy (bk q m h E B p))) | now apply (d_at0 (fun h => vz (bk q m h E B p)))].
Qed.

(** ** The whole step *)
(** Cartesian position and momentum of a marker *)
Definition cart_x (p : fom) : vec := V (fr p * cos (fphi p)) (fr p * sin (fphi p)) (fz p).
Definition cart_p (p : fom) : vec := V (vx (fp p) * cos (fphi p) - vy (fp p) * sin (fphi p)) (vx (fp p) * sin (fphi p) + vy (fp p) * cos (fphi p)) (vz (fp p)).
Lemma trig1 : forall a, sin a * sin a + cos a * cos a = 1.
Proof. intros. pose proof (sin2_cos2 a). unfold Rsqr in *. auto. Qed.
Lemma to_xyz_dot : forall v w phi, dot (to_xyz v phi) (to_xyz w phi) = dot v w.
Proof.
  intros [a b c] [d e f] phi. pose proof (trig1 phi) as T. unfold to_xyz, dot. cbn [vx vy vz].
  transitivity ((a * d + b * e) * (sin phi * sin phi + cos phi * cos phi) + c * f); [ring|]. rewrite T. ring.
Qed.
Lemma cart_p_norm : forall p, norm (cart_p p) = norm (fp p).
Proof. intros p. apply norm_eq. apply (to_xyz_dot (fp p) (fp p) (fphi p)). Qed.
(** the new angle is the cumulative angle of the new position *)
Lemma turn : forall R0 phi x y, 0 < R0 ->
  let a := atan2 (R0 * cos phi * y - R0 * sin phi * x) (R0 * cos phi * x + R0 * sin phi * y) in
  sqrt (x * x + y * y) * cos (phi + a) = x /\ sqrt (x * x + y * y) * sin (phi + a) = y.
Proof.
  intros R0 phi x y H a. pose proof (trig1 phi) as T.
  destruct (atan2_spec (R0 * cos phi * y - R0 * sin phi * x) (R0 * cos phi * x + R0 * sin phi * y)) as [A B]. fold a in A, B.
  assert (N : sqrt ((R0 * cos phi * x + R0 * sin phi * y) * (R0 * cos phi * x + R0 * sin phi * y) + (R0 * cos phi * y - R0 * sin phi * x) * (R0 * cos phi * y - R0 * sin phi * x)) = R0 * sqrt (x * x + y * y)).
  { replace (_ + _) with (R0 * R0 * (sin phi * sin phi + cos phi * cos phi) * (x * x + y * y)) by ring. rewrite T, Rmult_1_r.
    rewrite sqrt_mult_alt by nra. now rewrite sqrt_square by lra. }
  rewrite N in A, B. set (r := sqrt (x * x + y * y)) in *.
  assert (A' : r * cos a = cos phi * x + sin phi * y) by (apply (Rmult_eq_reg_l R0); lra).
  assert (B' : r * sin a = cos phi * y - sin phi * x) by (apply (Rmult_eq_reg_l R0); lra).
  rewrite cos_plus, sin_plus. split.
  - transitivity (cos phi * (r * cos a) - sin phi * (r * sin a)); [ring|]. rewrite A', B'. transitivity (x * (sin phi * sin phi + cos phi * cos phi)); [ring|rewrite T; ring].
  - transitivity (sin phi * (r * cos a) + cos phi * (r * sin a)); [ring|]. rewrite A', B'. transitivity (y * (sin phi * sin phi + cos phi * cos phi)); [ring|rewrite T; ring].
Qed.
Lemma ald_off : forall q m g B p r, ald 0 q m g B p = Some r -> r = p.
Proof.
  intros q m g B [p1 p2 p3] r. unfold ald. cbv zeta. destruct (Req_EM_T _ _); [discriminate|]. intros H. injection H as <-. rewrite Rmult_0_r. cbn [vx vy vz]. f_equal; ring.
Qed.
Section whole.
Variables (fields : R -> R -> R -> R -> Z * vec * vec) (evalBdB : R -> R -> R -> R -> Z * (nat -> R)) (evalPsi : R -> R -> R -> R -> Z * R)
          (evalRho : R -> Z * R) (evalAxis : R -> Z * (R * R)).
Notation stp := (fo_step fields evalBdB evalPsi evalRho evalAxis).
Lemma fo_idle : forall h a p, frun p = false -> stp h a p = Some p.
Proof. intros h a p H. unfold fo_step. now rewrite H. Qed.
(** cylindrical coordinates of the point where the fields are evaluated *)
Definition mid (h : R) (p : fom) : vec := drift (fmass p) h (cart_p p) (cart_x p).
Lemma fo_cart : forall h p q, frun p = true -> 0 < fr p -> 0 < fmass p -> stp h 0 p = Some q ->
  exists r1 phi1 z1 e B E, pos_xyz r1 phi1 z1 = mid h p /\ 0 <= r1 /\ - PI < phi1 <= PI /\ fields r1 phi1 z1 (ftime p + h / 2) = (e, B, E) /\
   (e = 0%Z -> cart_p q = boris (fcharge p) (fmass p) h (to_xyz E phi1) (to_xyz B phi1) (cart_p p) /\
               cart_x q = drift (fmass p) h (cart_p q) (mid h p) /\ Rabs (fphi q - fphi p) <= PI) /\
   (e <> 0%Z -> fr q = fr p /\ fphi q = fphi p /\ fz q = fz p /\ fp q = fp p /\ ferr q = e /\ frun q = false) /\
   ftime q = ftime p /\ fmass q = fmass p /\ fcharge q = fcharge p /\ 0 <= fr q.
Proof.
  intros h p q RUN RP MP. unfold fo_step. rewrite RUN. cbv zeta.
  change (to_xyz (fp p) (fphi p)) with (cart_p p). change (pos_xyz (fr p) (fphi p) (fz p)) with (cart_x p). fold (mid h p).
  set (x1 := mid h p). set (r1 := sqrt (vx x1 * vx x1 + vy x1 * vy x1)). set (phi1 := atan2 (vy x1) (vx x1)).
  destruct (fields r1 phi1 (vz x1) (ftime p + h / 2)) as [[e B] E] eqn:F. intros H.
  exists r1, phi1, (vz x1), e, B, E.
  destruct (atan2_spec (vy x1) (vx x1)) as [A1 A2]. fold phi1 r1 in A1, A2.
  split. { unfold pos_xyz. rewrite A1, A2. now destruct x1. }
  split; [apply sqrt_pos|]. split; [apply atan2_range|]. split; [exact F|].
  destruct (Z.eqb_spec e 0) as [->|NE].
  - set (pf := boris (fcharge p) (fmass p) h (to_xyz E phi1) (to_xyz B phi1) (cart_p p)) in *. set (x2 := drift (fmass p) h pf x1) in *.
    set (a := atan2 (vx (cart_x p) * vy x2 - vy (cart_x p) * vx x2) (vx (cart_x p) * vx x2 + vy (cart_x p) * vy x2)) in *.
    destruct (turn (fr p) (fphi p) (vx x2) (vy x2) RP) as [T1 T2].
    change (atan2 (fr p * cos (fphi p) * vy x2 - fr p * sin (fphi p) * vx x2) (fr p * cos (fphi p) * vx x2 + fr p * sin (fphi p) * vy x2)) with a in T1, T2.
    pose proof (trig1 (fphi p + a)) as T. pose proof (atan2_range (vx (cart_x p) * vy x2 - vy (cart_x p) * vx x2) (vx (cart_x p) * vx x2 + vy (cart_x p) * vy x2)) as RG. fold a in RG.
    cbn [fr fphi fz ftime fmass fcharge fp fB frho ftheta ferr frun] in H.
    set (c := cos (fphi p + a)) in *. set (s := sin (fphi p + a)) in *.
    assert (G : fr q = sqrt (vx x2 * vx x2 + vy x2 * vy x2) /\ fphi q = fphi p + a /\ fz q = vz x2 /\ fp q = V (vx pf * c + vy pf * s) (- vx pf * s + vy pf * c) (vz pf) /\
                ftime q = ftime p /\ fmass q = fmass p /\ fcharge q = fcharge p).
    { destruct (evalBdB _ _ _ _) as [e1 BdB]. destruct (if (e1 =? 0)%Z then evalPsi _ _ _ _ else _) as [e2 psi]. destruct (if (e2 =? 0)%Z then evalRho psi else _) as [e3 rho].
      destruct (e3 =? 0)%Z.
      - destruct (evalAxis _) as [e4 [ar az]]. cbn [fr fphi fz ftime fmass fcharge fp fB frho ftheta ferr frun] in H.
        destruct (ald 0 _ _ _ _ _) as [p'|] eqn:AL; [|discriminate]. apply ald_off in AL. subst p'. injection H as <-. cbn. repeat split.
      - cbn [fr fphi fz ftime fmass fcharge fp fB frho ftheta ferr frun] in H.
        destruct (ald 0 _ _ _ _ _) as [p'|] eqn:AL; [|discriminate]. apply ald_off in AL. subst p'. injection H as <-. cbn. repeat split. }
    destruct G as (G1 & G2 & G3 & G4 & G5 & G6 & G7). split; [|split; [|repeat split; auto]].
    + intros _. assert (CP : cart_p q = pf).
      { unfold cart_p. rewrite G2, G4. cbn [vx vy vz]. fold c s. clearbody c s pf. destruct pf as [f1 f2 f3]. cbn [vx vy vz]. f_equal.
        - transitivity (f1 * (s * s + c * c)); [ring|rewrite T; ring].
        - transitivity (f2 * (s * s + c * c)); [ring|rewrite T; ring]. }
      split; [exact CP|]. split.
      * rewrite CP. fold x2. unfold cart_x. rewrite G1, G2, G3. fold c s. rewrite T1, T2. now destruct x2.
      * rewrite G2. replace (fphi p + a - fphi p) with a by ring. apply Rabs_le. lra.
    + congruence.
    + rewrite G1. apply sqrt_pos.
  - cbn [fst snd] in H. assert (Q : (e =? 0)%Z = false) by now apply Z.eqb_neq. rewrite !Q in H.
    destruct (ald 0 _ _ _ _ _) as [p'|] eqn:AL; [|discriminate]. apply ald_off in AL. subst p'. injection H as <-. cbn.
    split; [congruence|]. repeat split; auto. lra.
Qed.
(** any error ends the marker *)
Lemma fo_error : forall h a p q, frun p = true -> stp h a p = Some q -> frun q = true -> ferr q = ferr p.
Proof.
  intros h a p q RUN H. unfold fo_step in H. rewrite RUN in H. cbv zeta in H.
  destruct (fields _ _ _ _) as [[e B] E]. destruct (if (e =? 0)%Z then evalBdB _ _ _ _ else _) as [e1 BdB]. destruct (if (e1 =? 0)%Z then evalPsi _ _ _ _ else _) as [e2 psi].
  destruct (if (e2 =? 0)%Z then evalRho psi else _) as [e3 rho].
  destruct (e3 =? 0)%Z.
  - destruct (evalAxis _) as [e4 [ar az]]. destruct (ald _ _ _ _ _ _); [|discriminate]. injection H as <-. cbn. destruct (e4 =? 0)%Z; [|discriminate]. now destruct (e =? 0)%Z.
  - destruct (ald _ _ _ _ _ _); [|discriminate]. injection H as <-. cbn. destruct (e3 =? 0)%Z; [|discriminate]. now destruct (e =? 0)%Z.
Qed.
End whole.

(** ** Radiation reaction (findings) *)
(** motion along the field radiates nothing; the code changes the momentum, because the
    parallel part is divided by the momentum once more *)
Lemma ald_parallel : forall q m g B k, 0 < m -> k <> 0 -> 0 < norm B ->
  let p := vscal k B in let P := norm p in
  ald 1 q m g B p = Some (vscal (1 - ald_force_chartime q m (norm B) g * ((1 - 1 / P) + (P - 1) * (P - 1) / (m * m * CONST_C2))) p).
Proof.
  intros q m g B k M K NB p P. unfold ald. cbv zeta. fold P.
  assert (PP : P * P = k * k * (norm B * norm B)).
  { unfold P, p. rewrite !norm_sq. clear. destruct B as [b1 b2 b3]. unfold vscal, dot. cbn [vx vy vz]. ring. }
  assert (P0 : 0 < P).
  { unfold P, p. rewrite norm_scal. apply Rmult_lt_0_compat; [now apply Rabs_pos_lt|auto]. }
  destruct (Req_EM_T _ _) as [E|_]; [exfalso; assert (0 < norm B * norm B * P) by (repeat apply Rmult_lt_0_compat; auto); lra|].
  pose proof (norm_sq B) as SB. set (n := norm B) in *. set (t := ald_force_chartime q m n g).
  replace ((vx p * vx B + vy p * vy B + vz p * vz B) / (n * n * P)) with (k / P).
  2:{ unfold p. destruct B as [b1 b2 b3]. unfold vscal, dot in *. cbn [vx vy vz] in *. transitivity (k * (n * n) / (n * n * P)); [field; nz|]. rewrite SB. unfold Rdiv. ring. }
  replace (V (vx p - k / P * vx B) (vy p - k / P * vy B) (vz p - k / P * vz B)) with (vscal (1 - 1 / P) p).
  2:{ unfold p. destruct B as [b1 b2 b3]. unfold vscal. cbn [vx vy vz]. f_equal; field; nz. }
  rewrite dot_scal. replace (dot p p) with (P * P) by (unfold P; apply norm_sq).
  pose proof C_pos. f_equal. clearbody p P t. destruct p as [p1 p2 p3]. unfold vscal. cbn [vx vy vz]. unfold CONST_C2. f_equal; field; nz.
Qed.
(** a marker at rest gets a momentum that is not a number even without radiation reaction *)
Lemma ald_rest : forall a q m g B, ald a q m g B vzero = None.
Proof.
  intros. unfold ald. cbv zeta. assert (N : norm vzero = 0) by (rewrite <- sqrt_0; unfold norm; f_equal; vring). rewrite N.
  destruct (Req_EM_T _ _); auto. exfalso. apply n. ring.
Qed.

(** the radiation reaction does not depend on the length of the step: with a step of
    length zero the momentum still changes *)
Lemma boris_zero_step : forall q m E B p, 0 < m -> boris q m 0 E B p = p.
Proof. intros. rewrite boris_bk by auto. generalize (bk q m 0 E B p). intros w. clear. destruct p as [p1 p2 p3], w as [w1 w2 w3]. unfold vadd, vscal. cbn [vx vy vz]. f_equal; ring. Qed.
Lemma drift_zero : forall m p x, drift m 0 p x = x.
Proof. intros. unfold drift. destruct x as [x1 x2 x3]. cbn [vx vy vz]. f_equal; unfold Rdiv; ring. Qed.
Lemma fo_zero_step : forall fields evalBdB evalPsi evalRho evalAxis p B E BdB psi rho ax,
  frun p = true -> 0 < fr p -> 0 < fmass p ->
  (forall r phi z t, fields r phi z t = (0%Z, B, E)) -> (forall r phi z t, evalBdB r phi z t = (0%Z, BdB)) -> (forall r phi z t, evalPsi r phi z t = (0%Z, psi)) ->
  (forall s, evalRho s = (0%Z, rho)) -> (forall s, evalAxis s = (0%Z, ax)) ->
  forall a, option_map fp (fo_step fields evalBdB evalPsi evalRho evalAxis 0 a p) =
            ald a (fcharge p) (fmass p) (gamma_pnorm (fmass p) (norm (fp p))) (V (BdB 0%nat) (BdB 4%nat) (BdB 8%nat)) (fp p).
Proof.
  intros fields evalBdB evalPsi evalRho evalAxis p B E BdB psi rho [ar az] RUN RP MP F1 F2 F3 F4 F5 a. unfold fo_step. rewrite RUN. cbv zeta. rewrite F1. cbn [Z.eqb].
  rewrite boris_zero_step, !drift_zero by auto. rewrite F2. cbn [Z.eqb]. rewrite F3. cbn [Z.eqb]. rewrite F4. cbn [Z.eqb]. rewrite F5.
  cbn [fr fphi fz ftime fmass fcharge fp fB frho ftheta ferr frun].
  change (to_xyz (fp p) (fphi p)) with (cart_p p). rewrite cart_p_norm. unfold pos_xyz. cbn [vx vy vz].
  replace (fr p * cos (fphi p) * (fr p * sin (fphi p)) - fr p * sin (fphi p) * (fr p * cos (fphi p))) with 0 by ring.
  assert (Z : atan2 0 (fr p * cos (fphi p) * (fr p * cos (fphi p)) + fr p * sin (fphi p) * (fr p * sin (fphi p))) = 0).
  { pose proof (trig1 (fphi p)) as T. unfold atan2. destruct (Rlt_dec 0 _) as [_|N]; [unfold Rdiv; rewrite Rmult_0_l; apply atan_0|]. exfalso. apply N.
    replace (_ + _) with (fr p * fr p * (sin (fphi p) * sin (fphi p) + cos (fphi p) * cos (fphi p))) by ring. rewrite T. nra. }
  rewrite Z, Rplus_0_r.
  assert (P : V (vx (cart_p p) * cos (fphi p) + vy (cart_p p) * sin (fphi p)) (- vx (cart_p p) * sin (fphi p) + vy (cart_p p) * cos (fphi p)) (vz (cart_p p)) = fp p).
  { pose proof (trig1 (fphi p)) as T. unfold cart_p. destruct (fp p) as [a1 a2 a3]. cbn [vx vy vz]. f_equal.
    - transitivity (a1 * (sin (fphi p) * sin (fphi p) + cos (fphi p) * cos (fphi p))); [ring|rewrite T; ring].
    - transitivity (a2 * (sin (fphi p) * sin (fphi p) + cos (fphi p) * cos (fphi p))); [ring|rewrite T; ring]. }
  rewrite P. destruct (ald a _ _ _ _ _); reflexivity.
Qed.

(** ** Consequences for a whole step *)
Section whole2.
Variables (fields : R -> R -> R -> R -> Z * vec * vec) (evalBdB : R -> R -> R -> R -> Z * (nat -> R)) (evalPsi : R -> R -> R -> R -> Z * R)
          (evalRho : R -> Z * R) (evalAxis : R -> Z * (R * R)).
Notation stp := (fo_step fields evalBdB evalPsi evalRho evalAxis).
Lemma to_xyz_zero : forall phi, to_xyz vzero phi = vzero.
Proof. intros. unfold to_xyz, vzero. cbn [vx vy vz]. f_equal; ring. Qed.
Lemma fo_energy : forall h p q, (forall r phi z t, snd (fields r phi z t) = vzero) -> 0 < fr p -> 0 < fmass p -> stp h 0 p = Some q ->
  norm (fp q) = norm (fp p) /\ fmass q = fmass p /\ 0 <= fr q.
Proof.
  intros h p q E0 RP MP H. destruct (frun p) eqn:RUN.
  - destruct (fo_cart fields evalBdB evalPsi evalRho evalAxis h p q RUN RP MP H) as (r1 & phi1 & z1 & e & B & E & X & _ & _ & F & OK & BAD & _ & M & _ & RQ).
    split; [|auto]. destruct (Z.eq_dec e 0) as [Z|Z].
    + destruct (OK Z) as [P _]. rewrite <- (cart_p_norm q), <- (cart_p_norm p), P.
      specialize (E0 r1 phi1 z1 (ftime p + h / 2)). rewrite F in E0. cbn in E0. rewrite E0, to_xyz_zero.
      apply norm_eq. now apply boris_noE.
    + destruct (BAD Z) as (_ & _ & _ & P & _). now rewrite P.
  - rewrite fo_idle in H by auto. injection H as <-. split; [auto|split; [auto|lra]].
Qed.
Lemma fo_neutral : forall h p q, frun p = true -> fcharge p = 0 -> 0 < fr p -> 0 < fmass p -> stp h 0 p = Some q ->
  (forall r phi z t, fst (fst (fields r phi z t)) = 0%Z) ->
  cart_p q = cart_p p /\
  cart_x q = vadd (cart_x p) (vscal (h / (gamma_pnorm (fmass p) (norm (fp p)) * fmass p)) (cart_p p)).
Proof.
  intros h p q RUN Q RP MP H E0.
  destruct (fo_cart fields evalBdB evalPsi evalRho evalAxis h p q RUN RP MP H) as (r1 & phi1 & z1 & e & B & E & X & _ & _ & F & OK & _).
  specialize (E0 r1 phi1 z1 (ftime p + h / 2)). rewrite F in E0. cbn in E0. destruct (OK E0) as (P & XX & _).
  rewrite Q, boris_neutral in P by auto. split; [exact P|]. rewrite XX, P. unfold mid, drift. cbv zeta. rewrite !cart_p_norm.
  destruct (gamma_pnorm_sq (fmass p) (norm (fp p))) as [_ G]; [lra|]. set (g := gamma_pnorm _ _) in *. clearbody g.
  destruct (cart_p p) as [a1 a2 a3], (cart_x p) as [x1 x2 x3]. unfold vadd, vscal. cbn [vx vy vz]. f_equal; field; nz.
Qed.
(** any number of steps *)
Fixpoint fo_steps (hs : list R) (p : fom) : option fom :=
  match hs with nil => Some p | cons h t => match stp h 0 p with Some q => fo_steps t q | None => None end end.
Lemma fo_energy_run : forall hs p q, (forall r phi z t, snd (fields r phi z t) = vzero) -> 0 < fmass p -> 0 < fr p ->
  (forall hs' q', (exists hs'', hs = (hs' ++ hs'')%list) -> fo_steps hs' p = Some q' -> fr q' <> 0) -> fo_steps hs p = Some q ->
  norm (fp q) = norm (fp p) /\ fmass q = fmass p.
Proof.
  induction hs as [|h t IH]; intros p q E0 MP RP NR H; cbn in H.
  - injection H as <-. auto.
  - destruct (stp h 0 p) as [p1|] eqn:S; [|discriminate]. destruct (fo_energy h p p1 E0 RP MP S) as (N & M & R1).
    assert (R2 : 0 < fr p1).
    { destruct R1 as [|R1]; auto. exfalso. apply (NR (h :: nil)%list p1); [now exists t|cbn; now rewrite S|auto]. }
    destruct (IH p1 q E0) as [A B]; auto; [lra| |split; lra].
    intros hs' q' [hs'' ->] H'. apply (NR (h :: hs')%list q'); [now exists hs''|cbn; now rewrite S].
Qed.
End whole2.
