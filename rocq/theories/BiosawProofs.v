(** Specifications and proofs about the coil field. *)
From Coq Require Import Reals List Lra Lia.
From Verif Require Import Deriv Vec GsProofs BiosawModel.
Import ListNotations.
Local Open Scope R_scope.

(** ** Specifications *)
(** Riemann integral *)
Definition integral_is (f : R -> R) (a b v : R) : Prop := exists pr : Riemann_integrable f a b, RiemannInt pr = v.
(** the law of Biot and Savart for a unit current along the segment from [p] to [q], in the
    direction [e] *)
Definition at_t (p q : vec) (t : R) : vec := vadd p (vscal t (vsub q p)).
Definition bs_integrand (p q x e : vec) (t : R) : R :=
  CONST_MU0 / (4 * PI) * (dot e (cross (vsub q p) (vsub x (at_t p q t))) / (norm (vsub x (at_t p q t)) ^ 3)).
Fixpoint chain_integral (x e p : vec) (coil : list vec) (v : R) : Prop :=
  match coil with
  | [] => v = 0
  | q :: coil => exists v1 v2, integral_is (bs_integrand p q x e) 0 1 v1 /\ chain_integral x e q coil v2 /\ v = v1 + v2
  end.
(** [x] is on the line through [p] and [q], or these coincide *)
Definition on_line (p q x : vec) : Prop := p = q \/ exists t, x = at_t p q t.
Fixpoint off_lines (x p : vec) (coil : list vec) : Prop :=
  match coil with [] => True | q :: coil => ~ on_line p q x /\ off_lines x q coil end.

(** ** Closed form *)
Definition bs_closed (p q x : vec) : vec :=
  let L := vsub q p in let P := vsub x p in
  vscal (CONST_MU0 / (4 * PI) * ((dot L L - dot L P) / sqrt (dot P P - 2 * dot L P + dot L L) + dot L P / sqrt (dot P P)) / (dot L L * dot P P - dot L P * dot L P)) (cross L P).
Definition gram (L P : vec) : R := dot L L * dot P P - dot L P * dot L P.
Lemma gram_cross : forall L P, dot (cross L P) (cross L P) = gram L P.
Proof. intros [a b c] [d e f]. unfold gram, dot, cross. cbn [vx vy vz]. ring. Qed.
Lemma gram_nonneg : forall L P, 0 <= gram L P.
Proof. intros. rewrite <- gram_cross. apply dot_nonneg. Qed.
Lemma gram_line : forall p q x, gram (vsub q p) (vsub x p) = 0 <-> on_line p q x.
Proof.
  intros p q x. set (L := vsub q p). set (P := vsub x p). split.
  - intros G. destruct (Req_EM_T (dot L L) 0) as [Z|Z].
    + left. apply dot_zero in Z. unfold L, vsub, vzero in Z. destruct p as [a b c], q as [a' b' c']. cbn [vx vy vz] in Z. injection Z as Z1 Z2 Z3. apply f_equal3; lra.
    + right. exists (dot L P / dot L L). assert (E : vsub P (vscal (dot L P / dot L L) L) = vzero).
      { apply dot_zero. transitivity (gram L P / dot L L); [|rewrite G; unfold Rdiv; ring].
        unfold gram. set (k := dot L P / dot L L). transitivity (dot P P - 2 * k * dot L P + k * k * dot L L); [unfold dot, vsub, vscal; cbn [vx vy vz]; ring|].
        unfold k. field. auto. }
      unfold at_t. fold L. set (k := dot L P / dot L L) in *. clearbody k. clearbody L. unfold P, vsub, vscal, vzero in E. unfold vadd, vscal. destruct x as [x1 x2 x3], p as [p1 p2 p3]. cbn [vx vy vz] in *. injection E as E1 E2 E3. apply f_equal3; lra.
  - intros [->|[t ->]]; unfold L, P, gram, at_t, vadd, vscal, vsub, dot; cbn [vx vy vz]; ring.
Qed.
Lemma gram_pos : forall L P, gram L P <> 0 -> 0 < gram L P /\ 0 < dot L L /\ 0 < dot P P /\ 0 < dot P P - 2 * dot L P + dot L L.
Proof.
  intros L P G. assert (GN : 0 < gram L P) by (destruct (gram_nonneg L P); auto; congruence). pose proof (dot_nonneg L) as A. pose proof (dot_nonneg P) as B. pose proof (dot_nonneg (vsub P L)) as C.
  replace (dot (vsub P L) (vsub P L)) with (dot P P - 2 * dot L P + dot L L) in C by (unfold dot, vsub; cbn [vx vy vz]; ring).
  unfold gram in *. set (ll := dot L L) in *. set (b := dot P P) in *. set (a := dot L P) in *. clearbody ll a b. repeat split; try lra.
  - destruct (Req_EM_T ll 0) as [E|]; [|lra]. rewrite E in *. nra.
  - destruct (Req_EM_T b 0) as [E|]; [|lra]. rewrite E in *. nra.
  - destruct (Req_EM_T (b - 2 * a + ll) 0) as [E|]; [|lra]. assert (b = 2 * a - ll) by lra. subst b. assert (0 < - ((ll - a) * (ll - a))) by (replace (- ((ll - a) * (ll - a))) with (ll * (2 * a - ll) - a * a) by ring; lra). pose proof (Rle_0_sqr (ll - a)) as Q. unfold Rsqr in Q. lra.
Qed.
Lemma nonzero_true : forall x, nonzero x = true <-> x <> 0.
Proof. intros x. unfold nonzero. destruct (Req_EM_T x 0); split; intros; auto; try discriminate; contradiction. Qed.
Lemma segment_closed : forall p q x, segment p q x = if nonzero (gram (vsub q p) (vsub x p)) then Some (bs_closed p q x) else None.
Proof.
  intros p q x. unfold segment. cbv zeta. set (L := vsub q p). set (P := vsub x p).
  change (V (vx q - vx p) (vy q - vy p) (vz q - vz p)) with L. change (V (vx x - vx p) (vy x - vy p) (vz x - vz p)) with P.
  assert (P2 : V (vx x - vx q) (vy x - vy q) (vz x - vz q) = vsub P L) by (unfold P, L, vsub; cbn [vx vy vz]; apply f_equal3; ring). rewrite P2.
  assert (CR : cross P (vsub P L) = cross L P) by (unfold cross, vsub; cbn [vx vy vz]; apply f_equal3; ring). rewrite CR.
  set (s := dot L P / dot L L).
  assert (XS : V (vx p + s * vx L - vx x) (vy p + s * vy L - vy x) (vz p + s * vz L - vz x) = vsub (vscal s L) P) by (clearbody s; unfold P, L, vsub, vscal; cbn [vx vy vz]; apply f_equal3; ring). rewrite XS.
  assert (NC : norm (cross L P) = sqrt (gram L P)) by (unfold norm; f_equal; rewrite <- gram_cross; reflexivity).
  destruct (nonzero (gram L P)) eqn:G.
  - apply nonzero_true in G. destruct (gram_pos L P G) as (GP & LP & PP & D2).
    assert (DD : dot (vsub (vscal s L) P) (vsub (vscal s L) P) = gram L P / dot L L).
    { transitivity (dot P P - 2 * s * dot L P + s * s * dot L L); [unfold dot, vsub, vscal; cbn [vx vy vz]; ring|]. unfold s, gram. field. lra. }
    assert (ND : norm (vsub (vscal s L) P) = sqrt (gram L P) / sqrt (dot L L)) by (unfold norm; fold (dot (vsub (vscal s L) P) (vsub (vscal s L) P)); rewrite DD; apply sqrt_div_alt; auto).
    assert (N2 : norm (vsub P L) = sqrt (dot P P - 2 * dot L P + dot L L)) by (unfold norm; f_equal; unfold dot, vsub; cbn [vx vy vz]; ring).
    assert (N1 : norm P = sqrt (dot P P)) by reflexivity. assert (NL : norm L = sqrt (dot L L)) by reflexivity.
    rewrite NC, ND, N2, N1, NL. clear NC ND N2 N1 NL DD XS. unfold bs_closed. fold L P. fold (gram L P).
    pose proof (sqrt_lt_R0 _ GP) as SG. pose proof (sqrt_lt_R0 _ LP) as SL. pose proof (sqrt_lt_R0 _ PP) as SP. pose proof (sqrt_lt_R0 _ D2) as S2.
    pose proof (sqrt_sqrt (gram L P) ltac:(lra)) as QG. pose proof (sqrt_sqrt (dot L L) ltac:(lra)) as QL.
    assert (I : 0 < sqrt (gram L P) / sqrt (dot L L)) by (apply Rdiv_lt_0_compat; auto).
    rewrite (proj2 (nonzero_true (dot L L))) by lra. rewrite (proj2 (nonzero_true (sqrt (dot P P)))) by lra. rewrite (proj2 (nonzero_true (sqrt (dot P P - _ + _)))) by lra.
    rewrite (proj2 (nonzero_true (_ / _))) by lra. rewrite (proj2 (nonzero_true (sqrt (gram L P)))) by lra. cbn [andb]. f_equal.
    unfold vscal. unfold s. set (c := cross L P). clearbody c. clear CR P2 s. set (a := dot L P) in *.
    set (d2 := sqrt (dot P P - 2 * a + dot L L)) in *. set (d1 := sqrt (dot P P)) in *. set (g := sqrt (gram L P)) in *. set (l := sqrt (dot L L)) in *. clearbody a d2 d1. rewrite <- QG, <- QL. clearbody g l.
    pose proof PI_RGT_0. apply f_equal3; field; repeat split; lra.
  - assert (Z : gram L P = 0) by (destruct (Req_EM_T (gram L P) 0); auto; apply nonzero_true in n; congruence).
    rewrite NC, Z, sqrt_0. replace (nonzero 0) with false by (symmetry; apply Bool.not_true_iff_false; rewrite nonzero_true; lra). rewrite Bool.andb_false_r. reflexivity.
Qed.
Lemma segment_defined : forall p q x, segment p q x = None <-> on_line p q x.
Proof.
  intros p q x. rewrite <- gram_line, segment_closed. destruct (nonzero _) eqn:E.
  - apply nonzero_true in E. split; [discriminate|contradiction].
  - split; auto. intros _. destruct (Req_EM_T (gram (vsub q p) (vsub x p)) 0); auto. apply nonzero_true in n. congruence.
Qed.

(** ** The integral *)
Lemma ftc : forall F f a b, a <= b -> (forall t, Dx F t (f t)) -> continuity f -> integral_is f a b (F b - F a).
Proof.
  intros F f a b AB D C. assert (pr : Riemann_integrable f a b) by (apply continuity_implies_RiemannInt; auto). exists pr.
  assert (d : derivable F) by (intros t; exists (f t); apply D).
  assert (E : forall t, derive F d t = f t) by (intros t; apply (derive_pt_eq_0 F t (f t) (d t)); apply D).
  assert (c : continuity (derive F d)).
  { intros t e He. destruct (C t e He) as (al & A1 & A2). exists al. split; auto. intros y Y. rewrite !E. apply A2. auto. }
  assert (pr2 : Riemann_integrable (derive F d) a b) by (apply continuity_implies_RiemannInt; auto).
  transitivity (RiemannInt pr2); [apply RiemannInt_P18; auto|]. apply (FTC_Riemann (@mkC1 F d c)).
Qed.
Lemma d_cont : forall f x l, Dx f x l -> continuity_pt f x.
Proof. intros f x l D. apply derivable_continuous_pt. exists l. apply D. Qed.
Lemma segment_integral : forall p q x e b, segment p q x = Some b -> integral_is (bs_integrand p q x e) 0 1 (dot e b).
Proof.
  intros p q x e b H. rewrite segment_closed in H. destruct (nonzero _) eqn:G; [|discriminate]. apply nonzero_true in G. assert (B : b = bs_closed p q x) by congruence. subst b. clear H.
  set (L := vsub q p) in *. set (P := vsub x p) in *. destruct (gram_pos L P G) as (GP & LP & PP & D2).
  set (k := CONST_MU0 / (4 * PI)). set (w := dot e (cross L P)). set (a := dot L P) in *. set (ll := dot L L) in *. set (bb := dot P P) in *. set (g := gram L P) in *.
  set (r := fun t => bb - 2 * t * a + t * t * ll). 
  assert (RP : forall t, 0 < r t).
  { intros t. unfold r. apply (Rmult_lt_reg_l ll); [exact LP|]. rewrite Rmult_0_r. replace (ll * (bb - 2 * t * a + t * t * ll)) with (g + (ll * t - a) * (ll * t - a)) by (unfold g, gram; fold a ll bb; ring).
    pose proof (Rle_0_sqr (ll * t - a)) as Q. unfold Rsqr in Q. lra. }
  assert (IN : forall t, bs_integrand p q x e t = k * (w / (sqrt (r t) ^ 3))).
  { intros t. unfold bs_integrand. fold k. fold L. f_equal. f_equal.
    - unfold w, at_t. fold L. unfold P, dot, cross, vsub, vadd, vscal. cbn [vx vy vz]. ring.
    - f_equal. unfold norm, r. f_equal. unfold at_t. fold L. unfold bb, a, ll, P, dot, vsub, vadd, vscal. cbn [vx vy vz]. ring. }
  set (F := fun t => k * w * ((ll * t - a) / (g * sqrt (r t)))).
  assert (V : dot e (bs_closed p q x) = F 1 - F 0).
  { unfold F. transitivity (k * ((ll - a) / sqrt (bb - 2 * a + ll) + a / sqrt bb) / g * w).
    - unfold bs_closed. fold L P. fold a ll bb. fold (gram L P). change (ll * bb - a * a) with g. fold k. set (z := k * _ / g). unfold w, dot, vscal. cbn [vx vy vz]. ring.
    - replace (r 1) with (bb - 2 * a + ll) by (unfold r; ring). replace (r 0) with bb by (unfold r; ring). pose proof (sqrt_lt_R0 _ PP). pose proof (sqrt_lt_R0 _ D2). field. lra. }
  rewrite V.
  assert (DR : forall t, Dx r t (2 * (ll * t - a))) by (intros t; unfold r; der; ring).
  assert (K : integral_is (fun t => k * (w / (sqrt (r t) ^ 3))) 0 1 (F 1 - F 0)).
  { apply ftc; [lra| |].
    - intros t. unfold F. pose proof (RP t) as R0. pose proof (sqrt_lt_R0 _ R0) as SR. pose proof (sqrt_sqrt (r t) ltac:(lra)) as QR.
      eapply d_eq. { apply d_mult; [apply d_const|]. apply d_div; [apply d_minus; [apply d_mult; [apply d_const|apply d_id]|apply d_const]|apply d_mult; [apply d_const|apply d_sqrt; [apply DR|auto]]|apply Rmult_integral_contrapositive; split; lra]. }
      cbv beta. assert (GR : g = ll * (sqrt (r t) * sqrt (r t)) - (ll * t - a) * (ll * t - a)) by (rewrite QR; unfold r, g, gram; fold a ll bb; ring).
      set (s := sqrt (r t)) in *. clearbody s. clear - GR SR GP.
      transitivity (k * w * ((ll * (s * s) - (ll * t - a) * (ll * t - a)) / (g * (s * s * s)))); [field; lra|]. rewrite <- GR. field. lra.
    - intros t. pose proof (sqrt_lt_R0 _ (RP t)) as SR. eapply d_cont. apply d_mult; [apply d_const|]. apply d_div; [apply d_const|apply d_pow; apply d_sqrt; [apply DR|apply RP]|apply pow_nonzero; lra]. }
  destruct K as [pr K].
  exists (@Riemann_integrable_ext _ _ 0 1 (fun t _ => eq_sym (IN t)) pr). rewrite <- K. apply RiemannInt_P18; [lra|]. intros t _. apply IN.
Qed.

(** ** The chain *)
Lemma vadd0 : forall v, vadd vzero v = v.
Proof. intros [a b c]. unfold vadd, vzero. cbn [vx vy vz]. apply f_equal3; ring. Qed.
Lemma vadd_assoc : forall a b c, vadd (vadd a b) c = vadd a (vadd b c).
Proof. intros. unfold vadd. cbn [vx vy vz]. apply f_equal3; ring. Qed.
Lemma coil_loop_none : forall x coil p, coil_loop x p None coil = None.
Proof. intros x. induction coil as [|q coil IH]; intros p; cbn [coil_loop]; auto. Qed.
Lemma coil_loop_acc : forall x coil p a, coil_loop x p (Some a) coil = match biosaw_calc_B x p coil with Some b => Some (vadd a b) | None => None end.
Proof.
  intros x. induction coil as [|q coil IH]; intros p a.
  - cbn [coil_loop biosaw_calc_B]. f_equal. unfold vadd, vzero. destruct a as [u v w]. cbn [vx vy vz]. apply f_equal3; ring.
  - unfold biosaw_calc_B. cbn [coil_loop]. destruct (segment p q x) as [b|]; [|now rewrite coil_loop_none].
    fold (vadd a b) (vadd vzero b). rewrite vadd0, !IH. destruct (biosaw_calc_B x q coil); auto. now rewrite vadd_assoc.
Qed.
Lemma calc_cons : forall x p q coil, biosaw_calc_B x p (q :: coil) =
  match segment p q x, biosaw_calc_B x q coil with Some a, Some b => Some (vadd a b) | _, _ => None end.
Proof.
  intros x p q coil. unfold biosaw_calc_B at 1. cbn [coil_loop]. destruct (segment p q x) as [b|]; [|now rewrite coil_loop_none].
  fold (vadd vzero b). rewrite vadd0. apply coil_loop_acc.
Qed.
Lemma calc_defined : forall x coil p, biosaw_calc_B x p coil <> None <-> off_lines x p coil.
Proof.
  intros x. induction coil as [|q coil IH]; intros p; cbn [off_lines].
  - split; auto. intros _. discriminate.
  - rewrite calc_cons, <- segment_defined, <- (IH q). destruct (segment p q x), (biosaw_calc_B x q coil); split; try tauto; try (intros _; split; congruence); intros [A B]; congruence.
Qed.
Lemma calc_integral : forall x coil p, off_lines x p coil -> exists b, biosaw_calc_B x p coil = Some b /\ forall e, chain_integral x e p coil (dot e b).
Proof.
  intros x. induction coil as [|q coil IH]; intros p O; cbn [chain_integral].
  - exists vzero. split; auto. intros e. unfold dot, vzero. cbn [vx vy vz]. ring.
  - cbn [off_lines] in O. destruct O as [O1 O2]. destruct (IH q O2) as (b & B & I). rewrite <- segment_defined in O1. rewrite calc_cons, B. destruct (segment p q x) as [a|] eqn:S; [|congruence].
    exists (vadd a b). split; auto. intros e. exists (dot e a), (dot e b). split; [|split]; auto. { apply segment_integral; auto. } unfold dot, vadd. cbn [vx vy vz]. ring.
Qed.
(** splitting a segment *)
Lemma on_line_split : forall p q x u, u <> 0 -> u <> 1 -> p <> q ->
  (on_line p (at_t p q u) x <-> on_line p q x) /\ (on_line (at_t p q u) q x <-> on_line p q x).
Proof.
  intros p q x u U0 U1 PQ. rewrite <- !gram_line. set (L := vsub q p). set (P := vsub x p).
  assert (E1 : gram (vsub (at_t p q u) p) P = u * u * gram L P) by (unfold gram, at_t, P, L, dot, vsub, vadd, vscal; cbn [vx vy vz]; ring).
  assert (E2 : gram (vsub q (at_t p q u)) (vsub x (at_t p q u)) = (1 - u) * (1 - u) * gram L P) by (unfold gram, at_t, P, L, dot, vsub, vadd, vscal; cbn [vx vy vz]; ring).
  rewrite E1, E2. split; split; intros H; try (rewrite H; ring); apply Rmult_integral in H; destruct H as [H|H]; auto; apply Rmult_integral in H; destruct H; lra.
Qed.
Lemma segment_split : forall p q x u, u <> 0 -> u <> 1 ->
  segment p q x = match segment p (at_t p q u) x, segment (at_t p q u) q x with Some a, Some b => Some (vadd a b) | _, _ => None end.
Proof.
  intros p q x u U0 U1. rewrite !segment_closed. set (L := vsub q p). set (P := vsub x p).
  assert (L1 : vsub (at_t p q u) p = vscal u L) by (unfold at_t, L, vsub, vadd, vscal; cbn [vx vy vz]; apply f_equal3; ring).
  assert (L2 : vsub q (at_t p q u) = vscal (1 - u) L) by (unfold at_t, L, vsub, vadd, vscal; cbn [vx vy vz]; apply f_equal3; ring).
  assert (P2 : vsub x (at_t p q u) = vsub P (vscal u L)) by (unfold at_t, L, P, vsub, vadd, vscal; cbn [vx vy vz]; apply f_equal3; ring).
  assert (E1 : gram (vscal u L) P = u * u * gram L P) by (unfold gram, dot, vscal; cbn [vx vy vz]; ring).
  assert (E2 : gram (vscal (1 - u) L) (vsub P (vscal u L)) = (1 - u) * (1 - u) * gram L P) by (unfold gram, dot, vsub, vscal; cbn [vx vy vz]; ring).
  unfold bs_closed. rewrite L1, L2, P2. fold L P. fold (gram (vscal u L) P) (gram (vscal (1 - u) L) (vsub P (vscal u L))) (gram L P). rewrite E1, E2.
  destruct (nonzero (gram L P)) eqn:G.
  - apply nonzero_true in G. assert (nonzero (u * u * gram L P) = true) as -> by (apply nonzero_true; repeat apply Rmult_integral_contrapositive_currified; auto).
    assert (nonzero ((1 - u) * (1 - u) * gram L P) = true) as -> by (apply nonzero_true; repeat apply Rmult_integral_contrapositive_currified; auto; lra). f_equal.
    destruct (gram_pos L P G) as (GP & LP & PP & D2).
    assert (GU : gram (vscal u L) P <> 0) by (rewrite E1; repeat apply Rmult_integral_contrapositive_currified; auto).
    destruct (gram_pos (vscal u L) P GU) as (_ & _ & _ & D3).
    set (k := CONST_MU0 / (4 * PI)).
    set (g := gram L P) in *. clearbody g. clear E1 E2 L1 L2 P2 GU.
    replace (dot (vscal u L) (vscal u L)) with (u * u * dot L L) in * by (unfold dot, vscal; cbn [vx vy vz]; ring).
    replace (dot (vscal (1 - u) L) (vscal (1 - u) L)) with ((1 - u) * (1 - u) * dot L L) in * by (unfold dot, vscal; cbn [vx vy vz]; ring).
    replace (dot (vscal u L) P) with (u * dot L P) in * by (unfold dot, vscal; cbn [vx vy vz]; ring).
    replace (dot (vscal (1 - u) L) (vsub P (vscal u L))) with ((1 - u) * (dot L P - u * dot L L)) in * by (unfold dot, vsub, vscal; cbn [vx vy vz]; ring).
    replace (dot (vsub P (vscal u L)) (vsub P (vscal u L))) with (dot P P - 2 * (u * dot L P) + u * u * dot L L) in * by (unfold dot, vsub, vscal; cbn [vx vy vz]; ring).
    replace (cross (vscal u L) P) with (vscal u (cross L P)) by (unfold cross, vscal; cbn [vx vy vz]; apply f_equal3; ring).
    replace (cross (vscal (1 - u) L) (vsub P (vscal u L))) with (vscal (1 - u) (cross L P)) by (unfold cross, vsub, vscal; cbn [vx vy vz]; apply f_equal3; ring).
    set (a := dot L P) in *. set (ll := dot L L) in *. set (b := dot P P) in *. set (c := cross L P). clearbody a ll b c.
    replace (b - 2 * (u * a) + u * u * ll - 2 * ((1 - u) * (a - u * ll)) + (1 - u) * (1 - u) * ll) with (b - 2 * a + ll) by ring.
    pose proof (sqrt_lt_R0 _ PP) as S1. pose proof (sqrt_lt_R0 _ D2) as S2. pose proof (sqrt_lt_R0 _ D3) as S3.
    set (s1 := sqrt b) in *. set (s2 := sqrt (b - 2 * a + ll)) in *. set (s3 := sqrt (b - 2 * (u * a) + u * u * ll)) in *. clearbody s1 s2 s3 k.
    unfold vadd, vscal. cbn [vx vy vz]. assert (1 - u <> 0) by lra. apply f_equal3; field; repeat split; lra.
  - assert (Z : gram L P = 0) by (destruct (Req_EM_T (gram L P) 0); auto; apply nonzero_true in n; congruence). rewrite Z, !Rmult_0_r.
    replace (nonzero 0) with false by (symmetry; apply Bool.not_true_iff_false; rewrite nonzero_true; lra). reflexivity.
Qed.
Lemma last_cons : forall (A : Type) (c : list A) (q p : A), last (q :: c) p = last c q.
Proof. intros A. induction c as [|r c IH]; intros q p; [reflexivity|]. change (last (q :: r :: c) p) with (last (r :: c) p). now rewrite !IH. Qed.
Lemma calc_app : forall x c1 p c2, biosaw_calc_B x p (c1 ++ c2) =
  match biosaw_calc_B x p c1, biosaw_calc_B x (last c1 p) c2 with Some a, Some b => Some (vadd a b) | _, _ => None end.
Proof.
  intros x. induction c1 as [|q c1 IH]; intros p c2.
  - change (biosaw_calc_B x p []) with (Some vzero). cbn [app last]. destruct (biosaw_calc_B x p c2); auto. now rewrite vadd0.
  - change ((q :: c1) ++ c2) with (q :: (c1 ++ c2)). rewrite !calc_cons, IH. replace (last (q :: c1) p) with (last c1 q) by (symmetry; apply last_cons).
    destruct (segment p q x), (biosaw_calc_B x q c1), (biosaw_calc_B x (last c1 q) c2); auto. now rewrite vadd_assoc.
Qed.
Lemma calc_split : forall x p0 c1 q c2 u, u <> 0 -> u <> 1 -> let p := last c1 p0 in
  biosaw_calc_B x p0 (c1 ++ at_t p q u :: q :: c2) = biosaw_calc_B x p0 (c1 ++ q :: c2).
Proof.
  intros x p0 c1 q c2 u U0 U1 p. rewrite !calc_app. fold p. rewrite !calc_cons, (segment_split p q x u U0 U1).
  destruct (biosaw_calc_B x p0 c1), (segment p (at_t p q u) x), (segment (at_t p q u) q x), (biosaw_calc_B x q c2); auto. now rewrite vadd_assoc.
Qed.
Lemma segment_rev : forall p q x, segment q p x = match segment p q x with Some b => Some (vscal (-1) b) | None => None end.
Proof.
  intros p q x. rewrite !segment_closed. unfold bs_closed. set (L := vsub q p). set (P := vsub x p).
  assert (L1 : vsub p q = vscal (-1) L) by (unfold L, vsub, vscal; cbn [vx vy vz]; apply f_equal3; ring).
  assert (P1 : vsub x q = vsub P L) by (unfold L, P, vsub, vscal; cbn [vx vy vz]; apply f_equal3; ring). rewrite L1, P1.
  fold (gram (vscal (-1) L) (vsub P L)) (gram L P).
  replace (gram (vscal (-1) L) (vsub P L)) with (gram L P) by (unfold gram, dot, vsub, vscal; cbn [vx vy vz]; ring). destruct (nonzero _); auto. f_equal.
  replace (cross (vscal (-1) L) (vsub P L)) with (vscal (-1) (cross L P)) by (unfold cross, vsub, vscal; cbn [vx vy vz]; apply f_equal3; ring).
  replace (dot (vscal (-1) L) (vscal (-1) L)) with (dot L L) by (unfold dot, vscal; cbn [vx vy vz]; ring).
  replace (dot (vscal (-1) L) (vsub P L)) with (dot L L - dot L P) by (unfold dot, vsub, vscal; cbn [vx vy vz]; ring).
  replace (dot (vsub P L) (vsub P L)) with (dot P P - 2 * dot L P + dot L L) by (unfold dot, vsub, vscal; cbn [vx vy vz]; ring).
  replace (dot P P - 2 * dot L P + dot L L - 2 * (dot L L - dot L P) + dot L L) with (dot P P) by ring. replace (dot L L - (dot L L - dot L P)) with (dot L P) by ring.
  set (w := cross L P). set (k := CONST_MU0 / (4 * PI)). unfold vscal. cbn [vx vy vz]. unfold Rdiv. apply f_equal3; ring.
Qed.

(** ** Maxwell's equations *)
Definition has_grad (f : vec -> R) (x g : vec) : Prop :=
  Dx (fun t => f (V t (vy x) (vz x))) (vx x) (vx g) /\ Dx (fun t => f (V (vx x) t (vz x))) (vy x) (vy g) /\ Dx (fun t => f (V (vx x) (vy x) t)) (vz x) (vz g).
Definition has_jacobian (F : vec -> vec) (x gx gy gz : vec) : Prop :=
  has_grad (fun y => vx (F y)) x gx /\ has_grad (fun y => vy (F y)) x gy /\ has_grad (fun y => vz (F y)) x gz.
Definition div_of (gx gy gz : vec) : R := vx gx + vy gy + vz gz.
Definition curl_of (gx gy gz : vec) : vec := V (vy gz - vz gy) (vz gx - vx gz) (vx gy - vy gx).
Definition field (p0 : vec) (coil : list vec) (x : vec) : vec := match biosaw_calc_B x p0 coil with Some b => b | None => vzero end.
(** the field of a point charge *)
Definition coulomb (p x : vec) : vec := vscal (/ (norm (vsub x p) ^ 3)) (vsub x p).
Definition gg (k ll a b : R) : R := k * ((ll - a) / sqrt (b - 2 * a + ll) + a / sqrt b) / (ll * b - a * a).
Definition gA (k ll a b d1 d2 : R) : R :=
  k * ((- / d2 + (ll - a) / (d2 * d2 * d2) + / d1) / (ll * b - a * a) + 2 * a * ((ll - a) / d2 + a / d1) / ((ll * b - a * a) * (ll * b - a * a))).
Definition gB (k ll a b d1 d2 : R) : R :=
  k * ((- ((ll - a) / (2 * (d2 * d2 * d2))) - a / (2 * (d1 * d1 * d1))) / (ll * b - a * a) - ll * ((ll - a) / d2 + a / d1) / ((ll * b - a * a) * (ll * b - a * a))).
Lemma gg_d : forall k ll a b t da db, Dx a t da -> Dx b t db -> 0 < b t -> 0 < b t - 2 * a t + ll -> ll * b t - a t * a t <> 0 ->
  Dx (fun s => gg k ll (a s) (b s)) t (gA k ll (a t) (b t) (sqrt (b t)) (sqrt (b t - 2 * a t + ll)) * da + gB k ll (a t) (b t) (sqrt (b t)) (sqrt (b t - 2 * a t + ll)) * db).
Proof.
  intros k ll a b t da db DA DB P1 P2 G. unfold gg. pose proof (sqrt_lt_R0 _ P1) as S1. pose proof (sqrt_lt_R0 _ P2) as S2.
  assert (D2 : Dx (fun s => sqrt (b s - 2 * a s + ll)) t (/ (2 * sqrt (b t - 2 * a t + ll)) * (db - 2 * da))).
  { eapply d_eq; [apply (d_sqrt (fun s => b s - 2 * a s + ll)); [apply d_plus; [apply d_minus; [apply DB|apply d_mult; [apply d_const|apply DA]]|apply d_const]|auto]|]. cbv beta. f_equal. ring. }
  assert (D1 : Dx (fun s => sqrt (b s)) t (/ (2 * sqrt (b t)) * db)) by (apply d_sqrt; auto).
  set (f1 := fun s => sqrt (b s)) in *. set (f2 := fun s => sqrt (b s - 2 * a s + ll)) in *.
  change (Dx (fun s => k * ((ll - a s) / f2 s + a s / f1 s) / (ll * b s - a s * a s)) t
    (gA k ll (a t) (b t) (f1 t) (f2 t) * da + gB k ll (a t) (b t) (f1 t) (f2 t) * db)).
  change (sqrt (b t)) with (f1 t) in *. change (sqrt (b t - 2 * a t + ll)) with (f2 t) in *.
  eapply d_eq. { apply d_div; [apply d_mult; [apply d_const|apply d_plus; apply d_div; [apply d_minus; [apply d_const|apply DA]|apply D2|lra|apply DA|apply D1|lra]]|apply d_minus; [apply d_mult; [apply d_const|apply DB]|apply d_mult; apply DA]|auto]. }
  cbv beta. unfold gA, gB. set (x1 := f1 t) in *. set (x2 := f2 t) in *. set (u := a t) in *. set (v := b t) in *. clearbody x1 x2 u v. clear - S1 S2 G.
  field. repeat split; lra || auto.
Qed.
(** scalar identities behind the curl *)
Lemma curl_L : forall k ll a b d1 d2, 0 < d1 -> 0 < d2 -> b = d1 * d1 -> ll = d2 * d2 - d1 * d1 + 2 * a -> ll * b - a * a <> 0 ->
  gA k ll a b d1 d2 * a + 2 * gB k ll a b d1 d2 * b + 2 * (k * ((ll - a) / d2 + a / d1) / (ll * b - a * a)) = k * - / (d2 * d2 * d2).
Proof. intros k ll a b d1 d2 P1 P2 -> -> G. unfold gA, gB. field. repeat split; lra || auto. Qed.
Lemma curl_P : forall k ll a b d1 d2, 0 < d1 -> 0 < d2 -> b = d1 * d1 -> ll = d2 * d2 - d1 * d1 + 2 * a -> ll * b - a * a <> 0 ->
  - gA k ll a b d1 d2 * ll - 2 * gB k ll a b d1 d2 * a = k * (/ (d2 * d2 * d2) - / (d1 * d1 * d1)).
Proof. intros k ll a b d1 d2 P1 P2 -> -> G. unfold gA, gB. field. repeat split; lra || auto. Qed.
Lemma closed_jacobian : forall p q x, gram (vsub q p) (vsub x p) <> 0 -> exists gx gy gz, has_jacobian (bs_closed p q) x gx gy gz /\ div_of gx gy gz = 0 /\
  curl_of gx gy gz = vscal (CONST_MU0 / (4 * PI)) (vsub (coulomb q x) (coulomb p x)).
Proof.
  intros p q x G. set (k := CONST_MU0 / (4 * PI)). set (L := vsub q p) in *. set (P := vsub x p) in *. destruct (gram_pos L P G) as (GP & LP & PP & D2).
  set (a := dot L P) in *. set (b := dot P P) in *. set (ll := dot L L) in *. set (d1 := sqrt b). set (d2 := sqrt (b - 2 * a + ll)).
  set (A := gA k ll a b d1 d2). set (B := gB k ll a b d1 d2). set (g := gg k ll a b). set (C := cross L P).
  set (W := vadd (vscal A L) (vscal (2 * B) P)).
  exists (vadd (vscal (vx C) W) (vscal g (V 0 (- vz L) (vy L)))), (vadd (vscal (vy C) W) (vscal g (V (vz L) 0 (- vx L)))), (vadd (vscal (vz C) W) (vscal g (V (- vy L) (vx L) 0))).
  split; [|split].
  - assert (H : forall (y : R -> vec) t dy, (forall s, y s = vadd (y t) (vscal (s - t) dy)) -> y t = x ->
      Dx (fun s => gg k ll (dot L (vsub (y s) p)) (dot (vsub (y s) p) (vsub (y s) p))) t (dot W dy)).
    { intros y t dy Y X. eapply d_eq.
      - apply (gg_d k ll (fun s => dot L (vsub (y s) p)) (fun s => dot (vsub (y s) p) (vsub (y s) p)) t (dot L dy) (2 * dot P dy)).
        + apply (d_ext (fun s => dot L P + (s - t) * dot L dy)); [|der; ring]. intros s. rewrite Y, X. unfold P, dot, vsub, vadd, vscal. cbn [vx vy vz]. ring.
        + apply (d_ext (fun s => dot P P + (s - t) * (2 * dot P dy) + (s - t) * (s - t) * dot dy dy)); [|der; ring]. intros s. rewrite Y, X. unfold P, dot, vsub, vadd, vscal. cbn [vx vy vz]. ring.
        + rewrite X. exact PP.
        + rewrite X. exact D2.
        + rewrite X. exact G.
      - cbv beta. rewrite X. fold P. fold a b. fold d1 d2. fold A B. unfold W, dot, vadd, vscal. cbn [vx vy vz]. ring. }
    pose proof (H (fun s => V s (vy x) (vz x)) (vx x) (V 1 0 0) ltac:(intros s; unfold vadd, vscal; cbn [vx vy vz]; apply f_equal3; ring) ltac:(destruct x; reflexivity)) as H1.
    pose proof (H (fun s => V (vx x) s (vz x)) (vy x) (V 0 1 0) ltac:(intros s; unfold vadd, vscal; cbn [vx vy vz]; apply f_equal3; ring) ltac:(destruct x; reflexivity)) as H2.
    pose proof (H (fun s => V (vx x) (vy x) s) (vz x) (V 0 0 1) ltac:(intros s; unfold vadd, vscal; cbn [vx vy vz]; apply f_equal3; ring) ltac:(destruct x; reflexivity)) as H3.
    clear H. assert (CL : forall y, bs_closed p q y = vscal (gg k ll (dot L (vsub y p)) (dot (vsub y p) (vsub y p))) (cross L (vsub y p))) by (intros y; reflexivity).
    assert (XX : V (vx x) (vy x) (vz x) = x) by (destruct x; reflexivity).
    assert (K : forall (f : R -> R) (c : R -> R) t df dc gt ct, Dx f t df -> Dx c t dc -> f t = gt -> c t = ct -> Dx (fun s => f s * c s) t (ct * df + gt * dc)).
    { intros f c t df dc gt ct F C0 E1 E2. eapply d_eq; [apply d_mult; eauto|]. rewrite E1, E2. ring. }
    split; [|split]; (split; [|split]); cbv beta; (eapply d_ext; [intros s; rewrite CL; unfold vscal; cbn [vx vy vz]; reflexivity|]); unfold W in *; cbn [vadd vscal vx vy vz] in *;
      (eapply d_eq; [eapply K; [first [apply H1|apply H2|apply H3]|unfold cross, vsub; cbn [vx vy vz]; der; reflexivity|cbv beta; rewrite XX; reflexivity|cbv beta; rewrite XX; reflexivity]|]);
      fold P; fold C; fold a b; fold g; unfold dot, vadd, vscal; cbn [vx vy vz]; ring.
  - unfold div_of, W, C, cross, vadd, vscal. cbn [vx vy vz]. clearbody A B g L P. ring.
  - assert (S1 : 0 < d1) by (apply sqrt_lt_R0; auto). assert (S2 : 0 < d2) by (apply sqrt_lt_R0; auto).
    assert (Q1 : b = d1 * d1) by (symmetry; apply sqrt_sqrt; lra). assert (Q2 : ll = d2 * d2 - d1 * d1 + 2 * a) by (unfold d2; rewrite sqrt_sqrt by lra; lra).
    pose proof (curl_L k ll a b d1 d2 S1 S2 Q1 Q2 G) as E1. pose proof (curl_P k ll a b d1 d2 S1 S2 Q1 Q2 G) as E2. fold A B in E1, E2.
    change (k * ((ll - a) / d2 + a / d1) / (ll * b - a * a)) with g in E1.
    assert (N1 : norm (vsub x p) = d1) by reflexivity. assert (N2 : norm (vsub x q) = d2).
    { unfold d2, norm. f_equal. unfold a, b, ll, L, P, dot, vsub. cbn [vx vy vz]. ring. }
    unfold coulomb. rewrite N1, N2. fold P. replace (vsub x q) with (vsub P L) by (unfold P, L, vsub; cbn [vx vy vz]; apply f_equal3; ring).
    transitivity (vadd (vscal (A * a + 2 * B * b + 2 * g) L) (vscal (- A * ll - 2 * B * a) P)).
    + unfold a, b, ll. clearbody A B g. unfold curl_of, W, C, cross, dot, vadd, vscal. cbn [vx vy vz]. apply f_equal3; ring.
    + rewrite E1, E2. replace (/ d2 ^ 3) with (/ (d2 * d2 * d2)) by (f_equal; ring). replace (/ d1 ^ 3) with (/ (d1 * d1 * d1)) by (f_equal; ring).
      unfold vadd, vscal, vsub. cbn [vx vy vz]. apply f_equal3; ring.
Qed.
(** off the lines is an open condition along the coordinate axes *)
Lemma near_cont : forall f x l, Dx f x l -> f x <> 0 -> near x (fun t => f t <> 0).
Proof.
  intros f x l D N. destruct (d_cont f x l D (Rabs (f x)) (Rabs_pos_lt _ N)) as (al & A & H). exists (x - al), (x + al). split; [lra|]. intros t T.
  destruct (Req_EM_T t x) as [->|NE]; auto. intros Z. specialize (H t).  assert (Rabs (f t - f x) < Rabs (f x)).
  { apply H. split; [split; [exact I|auto]|]. simpl. unfold R_dist. apply Rabs_def1; lra. }
  rewrite Z in H0. replace (0 - f x) with (- f x) in H0 by ring. rewrite Rabs_Ropp in H0. lra.
Qed.
Lemma near_and : forall x (P Q : R -> Prop), near x P -> near x Q -> near x (fun t => P t /\ Q t).
Proof.
  intros x P Q (a & b & X & H) (a' & b' & X' & H'). exists (Rmax a a'), (Rmin b b'). split.
  - split; [apply Rmax_lub_lt; lra|apply Rmin_glb_lt; lra].
  - intros t [T1 T2]. pose proof (Rmax_l a a'). pose proof (Rmax_r a a'). pose proof (Rmin_l b b'). pose proof (Rmin_r b b'). split; [apply H|apply H']; lra.
Qed.
Lemma near_imp : forall x (P Q : R -> Prop), (forall t, P t -> Q t) -> near x P -> near x Q.
Proof. intros x P Q I (a & b & X & H). exists a, b. auto. Qed.
Definition along (P : vec -> Prop) (x : vec) : Prop :=
  near (vx x) (fun t => P (V t (vy x) (vz x))) /\ near (vy x) (fun t => P (V (vx x) t (vz x))) /\ near (vz x) (fun t => P (V (vx x) (vy x) t)).
Lemma off_open : forall coil p x, off_lines x p coil -> along (fun y => off_lines y p coil) x.
Proof.
  induction coil as [|q coil IH]; intros p x O; cbn [off_lines] in *.
  - repeat split; apply near_all; auto.
  - destruct O as [O1 O2]. destruct (IH q x O2) as (I1 & I2 & I3). rewrite <- gram_line in O1. assert (XX : V (vx x) (vy x) (vz x) = x) by (destruct x; reflexivity).
    split; [|split]; apply near_and; auto.
    + apply (near_imp _ (fun t => gram (vsub q p) (vsub (V t (vy x) (vz x)) p) <> 0)); [intros t T L; apply T, gram_line, L|]. eapply near_cont; [|now rewrite XX].
      unfold gram, dot, vsub. cbn [vx vy vz]. repeat der1.
    + apply (near_imp _ (fun t => gram (vsub q p) (vsub (V (vx x) t (vz x)) p) <> 0)); [intros t T L; apply T, gram_line, L|]. eapply near_cont; [|now rewrite XX].
      unfold gram, dot, vsub. cbn [vx vy vz]. repeat der1.
    + apply (near_imp _ (fun t => gram (vsub q p) (vsub (V (vx x) (vy x) t) p) <> 0)); [intros t T L; apply T, gram_line, L|]. eapply near_cont; [|now rewrite XX].
      unfold gram, dot, vsub. cbn [vx vy vz]. repeat der1.
Qed.
Lemma jacobian_near : forall F G x gx gy gz, along (fun y => F y = G y) x -> has_jacobian F x gx gy gz -> has_jacobian G x gx gy gz.
Proof.
  intros F G x gx gy gz (N1 & N2 & N3) ((A1 & A2 & A3) & (B1 & B2 & B3) & (C1 & C2 & C3)).
  repeat split; (eapply d_near; [|first [exact A1|exact A2|exact A3|exact B1|exact B2|exact B3|exact C1|exact C2|exact C3]]); (eapply near_imp; [|first [exact N1|exact N2|exact N3]]); cbv beta; intros t E; rewrite E; reflexivity.
Qed.
Lemma jacobian_add : forall F G x gx gy gz hx hy hz, has_jacobian F x gx gy gz -> has_jacobian G x hx hy hz ->
  has_jacobian (fun y => vadd (F y) (G y)) x (vadd gx hx) (vadd gy hy) (vadd gz hz).
Proof.
  intros F G x gx gy gz hx hy hz ((A1 & A2 & A3) & (B1 & B2 & B3) & (C1 & C2 & C3)) ((A1' & A2' & A3') & (B1' & B2' & B3') & (C1' & C2' & C3')).
  repeat split; cbn [vadd vx vy vz]; apply d_plus; assumption.
Qed.
(** the field of a coil is free of divergence; its curl is that of the displacement current of
    the charges that an open chain deposits at its ends *)
Lemma coil_maxwell : forall coil p x, off_lines x p coil -> exists gx gy gz, has_jacobian (field p coil) x gx gy gz /\ div_of gx gy gz = 0 /\
  curl_of gx gy gz = vscal (CONST_MU0 / (4 * PI)) (vsub (coulomb (last coil p) x) (coulomb p x)).
Proof.
  induction coil as [|q coil IH]; intros p x O.
  - exists vzero, vzero, vzero. split; [|split].
    + unfold field. cbn [biosaw_calc_B coil_loop]. repeat split; apply d_const.
    + unfold div_of, vzero. cbn [vx vy vz]. ring.
    + unfold curl_of, vzero, vscal, vsub. cbn [vx vy vz last]. apply f_equal3; ring.
  - pose proof (off_open _ _ _ O) as OP. cbn [off_lines] in O. destruct O as [O1 O2]. destruct (IH q x O2) as (gx & gy & gz & J & D & C). rewrite <- gram_line in O1.
    destruct (closed_jacobian p q x O1) as (hx & hy & hz & J' & D' & C'). exists (vadd hx gx), (vadd hy gy), (vadd hz gz). split; [|split].
    + eapply jacobian_near; [|apply jacobian_add; [exact J'|exact J]].
      assert (E : forall y, off_lines y p (q :: coil) -> vadd (bs_closed p q y) (field q coil y) = field p (q :: coil) y).
      { intros y [Y1 Y2]. unfold field. rewrite calc_cons, segment_closed. rewrite <- gram_line in Y1. rewrite (proj2 (nonzero_true _) Y1). apply calc_defined in Y2. destruct (biosaw_calc_B y q coil); congruence. }
      destruct OP as (N1 & N2 & N3). repeat split; (eapply near_imp; [|first [exact N1|exact N2|exact N3]]); cbv beta; intros t; apply E.
    + unfold div_of, vadd in *. cbn [vx vy vz]. lra.
    + rewrite last_cons. transitivity (vadd (curl_of hx hy hz) (curl_of gx gy gz)); [unfold curl_of, vadd; cbn [vx vy vz]; apply f_equal3; ring|].
      rewrite C, C'. unfold vadd, vscal, vsub. cbn [vx vy vz]. apply f_equal3; ring.
Qed.
Lemma closed_coil : forall coil p x, off_lines x p coil -> last coil p = p -> exists gx gy gz, has_jacobian (field p coil) x gx gy gz /\ div_of gx gy gz = 0 /\ curl_of gx gy gz = vzero.
Proof.
  intros coil p x O E. destruct (coil_maxwell coil p x O) as (gx & gy & gz & J & D & C). exists gx, gy, gz. split; [|split]; auto. rewrite C, E. unfold vscal, vsub, vzero. cbn [vx vy vz]. apply f_equal3; ring.
Qed.
(** finding: on the line through a segment but outside it the law gives no field, the code no
    number *)
Lemma on_extension : forall p q u, p <> q -> u < 0 \/ 1 < u -> segment p q (at_t p q u) = None /\ forall e, integral_is (bs_integrand p q (at_t p q u) e) 0 1 0.
Proof.
  intros p q u NE U. split; [apply segment_defined; right; eauto|]. intros e.
  assert (E : forall t, bs_integrand p q (at_t p q u) e t = 0).
  { intros t. unfold bs_integrand. replace (dot e (cross (vsub q p) (vsub (at_t p q u) (at_t p q t)))) with 0; [unfold Rdiv; ring|]. unfold at_t, dot, cross, vsub, vadd, vscal. cbn [vx vy vz]. ring. }
  destruct (ftc (fun _ => 0) (fun _ => 0) 0 1 ltac:(lra) ltac:(intros t; apply d_const) ltac:(intros t; apply (d_cont _ _ _ (d_const 0 t)))) as [pr K].
  exists (@Riemann_integrable_ext _ _ 0 1 (fun t _ => eq_sym (E t)) pr). transitivity (RiemannInt pr); [apply RiemannInt_P18; [lra|]; intros t _; apply E|]. rewrite K. ring.
Qed.
Lemma repeated_point : forall p x, segment p p x = None.
Proof. intros. apply segment_defined. now left. Qed.
