(** Proofs about the guiding-centre collision steps (CollModel). *)
From Coq Require Import Reals ZArith List Bool Lra Psatz Lia.
From Verif Require Import Vec ErrorModel Deriv GsProofs BiosawProofs PhysModel PhysProofs StepFoModel StepFoProofs GcModel Erf CollModel CollProofs.
Import ListNotations.
Local Open Scope R_scope.

(** ** Reflections *)
Lemma reflect_v_spec : forall c v, c <= reflect_v c v /\ reflect_v c v = c + Rabs (v - c).
Proof. intros c v. unfold reflect_v. destruct (Rlt_dec v c); (split; [lra|]); [rewrite Rabs_left by lra; ring|rewrite Rabs_pos_eq by lra; ring]. Qed.
Lemma reflect_xi_spec : forall x, (-1 <= reflect_xi x <= 1 <-> -3 <= x <= 3) /\ (-1 <= x <= 1 -> reflect_xi x = x) /\ (1 < x -> reflect_xi x = 2 - x) /\ (x < -1 -> reflect_xi x = - 2 - x).
Proof.
  intros x. unfold reflect_xi, sgn. destruct (Rle_dec 0 x) as [P|P].
  - rewrite Rabs_pos_eq by lra. destruct (Rlt_dec 1 x); destruct (Rlt_dec 0 x); destruct (Rlt_dec x 0); try lra; repeat split; intros; lra.
  - rewrite Rabs_left by lra. destruct (Rlt_dec 1 (- x)); destruct (Rlt_dec 0 x); destruct (Rlt_dec x 0); try lra; repeat split; intros; lra.
Qed.
(** the displacement is perpendicular to the field, isotropic in that plane *)
Lemma unit_dot1 : forall u, u <> vzero -> dot (unit u) (unit u) = 1.
Proof. intros u U. pose proof (norm_pos u U). transitivity (dot u u / (norm u * norm u)); [unfold unit, dot; cbn [vx vy vz]; field; lra|rewrite <- norm_sq; field; lra]. Qed.
Lemma unit_scal : forall u, u <> vzero -> vscal (norm u) (unit u) = u.
Proof. intros u U. pose proof (norm_pos u U). unfold vscal, unit. destruct u as [a b c]. cbn [vx vy vz]. apply f_equal3; field; lra. Qed.
Lemma shift_law : forall DX B x dW, B <> vzero -> 0 <= DX ->
  dot B (vsub (gc_shift DX B x dW) x) = 0 /\
  (forall e, dot e (vsub (gc_shift DX B x dW) x) = sqrt (2 * DX) * dot (vsub e (vscal (dot e (unit B)) (unit B))) dW).
Proof.
  intros DX B x dW NB P. pose proof (unit_dot1 B NB) as N.
  assert (L : forall e, dot e (vsub (gc_shift DX B x dW) x) = sqrt (2 * DX) * dot (vsub e (vscal (dot e (unit B)) (unit B))) dW).
  { intros e. unfold gc_shift. destruct (unit B) as [n1 n2 n3], dW as [w1 w2 w3], x as [x1 x2 x3], e as [e1 e2 e3]. unfold dot, vsub, vscal. cbn [vx vy vz]. ring. }
  split; [|exact L]. rewrite L. rewrite <- (unit_scal B NB) at 1 2. set (n := unit B) in *. set (k := norm B). clearbody n k. 
  replace (vsub (vscal k n) (vscal (dot (vscal k n) n) n)) with vzero; [unfold dot, vzero; cbn [vx vy vz]; ring|].
  replace (dot (vscal k n) n) with (k * dot n n) by (destruct n as [a b c]; unfold dot, vscal; cbn [vx vy vz]; ring). rewrite N. destruct n as [a b c]. unfold vsub, vscal, vzero. cbn [vx vy vz]. apply f_equal3; ring.
Qed.
(** covariance of the displacement *)
Lemma shift_cov : forall DX n e e', dot n n = 1 -> 0 <= DX ->
  dot (vscal (sqrt (2 * DX)) (vsub e (vscal (dot e n) n))) (vscal (sqrt (2 * DX)) (vsub e' (vscal (dot e' n) n))) = 2 * DX * (dot e e' - dot e n * dot e' n).
Proof.
  intros DX n e e' N P. transitivity (sqrt (2 * DX) * sqrt (2 * DX) * (dot e e' - 2 * (dot e n * dot e' n) + dot e n * dot e' n * dot n n)).
  - destruct n as [n1 n2 n3], e as [e1 e2 e3], e' as [f1 f2 f3]. unfold dot, vsub, vscal. cbn [vx vy vz]. ring.
  - rewrite N, sqrt_sqrt by lra. ring.
Qed.
(** Milstein's correction is half the noise amplitude times its derivative *)
Lemma milstein_correct_v : forall ma qa cl sp v, 0 < ma -> Forall sp_ok sp -> 0 < v -> 0 < acc (Dpara_of ma qa cl v) sp ->
  exists b', Dx (fun u => sqrt (2 * acc (Dpara_of ma qa cl u) sp)) v b' /\ forall K h dW,
    milstein_v v K (acc (Dpara_of ma qa cl v) sp) (acc (dDpara_of ma qa cl v) sp) h dW =
    v + K * h + sqrt (2 * acc (Dpara_of ma qa cl v) sp) * dW + / 2 * (sqrt (2 * acc (Dpara_of ma qa cl v) sp) * b') * (dW * dW - h).
Proof.
  intros ma qa cl sp v M O V P. assert (D : Dx (fun u => acc (Dpara_of ma qa cl u) sp) v (acc (dDpara_of ma qa cl v) sp)).
  { apply acc_d. eapply Forall_impl; [|exact O]. intros s OS. now apply Dpara_d. }
  set (D0 := acc (Dpara_of ma qa cl v) sp) in *. set (D1 := acc (dDpara_of ma qa cl v) sp) in *. assert (S0 : 0 < sqrt (2 * D0)) by (apply sqrt_lt_R0; lra).
  exists (/ (2 * sqrt (2 * D0)) * (2 * D1)). split.
  - eapply d_eq; [apply d_sqrt; [apply d_mult; [apply d_const|exact D]|fold D0; lra]|]. cbv beta. fold D0. ring.
  - intros K h dW. unfold milstein_v. replace (sqrt (2 * D0) * (/ (2 * sqrt (2 * D0)) * (2 * D1))) with D1 by (field; lra). lra.
Qed.
Lemma milstein_correct_xi : forall nu xi, 0 < nu -> -1 < xi < 1 ->
  exists b', Dx (fun y => sqrt ((1 - y * y) * nu)) xi b' /\ forall h dW,
    milstein_xi xi nu h dW = xi - xi * nu * h + sqrt ((1 - xi * xi) * nu) * dW + / 2 * (sqrt ((1 - xi * xi) * nu) * b') * (dW * dW - h).
Proof.
  intros nu xi N X. assert (P : 0 < (1 - xi * xi) * nu) by (apply Rmult_lt_0_compat; [nra|auto]). assert (S0 : 0 < sqrt ((1 - xi * xi) * nu)) by (now apply sqrt_lt_R0).
  exists (/ (2 * sqrt ((1 - xi * xi) * nu)) * (- 2 * xi * nu)). split.
  - eapply d_eq; [apply d_sqrt; [apply d_mult; [apply d_minus; [apply d_const|apply d_mult; apply d_id]|apply d_const]|exact P]|]. cbv beta. ring.
  - intros h dW. unfold milstein_xi. set (b := sqrt ((1 - xi * xi) * nu)) in *. replace (b * (/ (2 * b) * (-2 * xi * nu))) with (- xi * nu) by (field; lra). lra.
Qed.

(** ** Step control of the Milstein scheme *)
Lemma rpow_gt1 : forall k a, 1 < k -> a < 0 -> 0 < Rpower k a < 1.
Proof. intros k a K A. split; [apply exp_pos|]. rewrite <- (Rpower_O k) by lra. apply Rpower_lt; lra. Qed.
Lemma rpow_le1 : forall k a, 0 < k <= 1 -> a < 0 -> 1 <= Rpower k a.
Proof. intros k a K A. unfold Rpower. rewrite <- exp_0. assert (ln k <= 0) by (rewrite <- ln_1; destruct (proj2 K) as [L|L]; [left; now apply ln_increasing|right; now f_equal]). destruct (Req_EM_T (a * ln k) 0) as [->|N]; [lra|left; apply exp_increasing; nra]. Qed.
Lemma mil_hout : forall h kk kd0 kd1, 0 < h -> 0 <= kk -> 0 <= kd0 -> 0 <= kd1 ->
  (kk <= 1 /\ kd0 <= 1 /\ kd1 <= 1 -> exists h', milstein_hout h kk kd0 kd1 = Fin h' /\ 0.8 * h <= h' <= 1.5 * h) /\
  (1 < kk \/ 1 < kd0 \/ 1 < kd1 -> exists h', milstein_hout h kk kd0 kd1 = Fin (- h') /\ 0 < h' < 0.9 * h).
Proof.
  intros h kk kd0 kd1 H K0 K1 K2. set (k := Rmax kk (Rmax kd0 kd1)).
  assert (SQ : forall x, 1 < x -> 0 < 0.8 * h / sqrt x < 0.9 * h).
  { intros x X. assert (1 < sqrt x) by (rewrite <- sqrt_1; apply sqrt_lt_1; lra). split; [apply Rdiv_lt_0_compat; lra|]. apply (Rmult_lt_reg_r (sqrt x)); [lra|]. replace (0.8 * h / sqrt x * sqrt x) with (0.8 * h) by (field; lra). nra. }
  assert (SQ1 : forall x, 0 < x <= 1 -> 0.8 * h <= 0.8 * h / sqrt x).
  { intros x X. assert (0 < sqrt x) by (apply sqrt_lt_R0; lra). assert (sqrt x <= 1) by (rewrite <- sqrt_1; apply sqrt_le_1_alt; lra). apply (Rmult_le_reg_r (sqrt x)); [lra|]. replace (0.8 * h / sqrt x * sqrt x) with (0.8 * h) by (field; lra). nra. }
  assert (SP : forall x, 1 < x -> 0 < 0.9 * h * Rpower x (-2 / 3) < 0.9 * h) by (intros x X; pose proof (rpow_gt1 x (-2 / 3) X ltac:(lra)); nra).
  assert (SP1 : forall x, 0 < x <= 1 -> 0.8 * h <= 0.9 * h * Rpower x (-2 / 3)) by (intros x X; pose proof (rpow_le1 x (-2 / 3) X ltac:(lra)); nra).
  unfold milstein_hout, ge, gt1. split; intros X.
  - destruct X as (X0 & X1 & X2). destruct (Rlt_dec 1 kk); [lra|]. destruct (Rlt_dec 1 kd0); [lra|]. destruct (Rlt_dec 1 kd1); [lra|]. cbn [orb].
    assert (CL : forall e, (e = PInf \/ exists s, e = Fin s /\ 0.8 * h <= s) -> exists h', (if egt e (1.5 * h) then Fin (1.5 * h) else e) = Fin h' /\ 0.8 * h <= h' <= 1.5 * h).
    { intros e [->|(s & -> & L)]; cbn [egt]; [exists (1.5 * h); split; [reflexivity|lra]|]. destruct (Rlt_dec (1.5 * h) s); eexists; (split; [reflexivity|lra]). }
    apply CL. destruct (Rle_dec kd0 kk); destruct (Rle_dec kd1 kk); destruct (Rle_dec kk kd0); destruct (Rle_dec kd1 kd0); cbn [andb]; try lra; unfold pow_neg, emul;
    (destruct (Req_EM_T _ 0); [left; first [reflexivity|destruct (Rlt_dec 0 (0.9 * h)); [reflexivity|lra]]|right; eexists; split; [reflexivity|first [apply SQ1|apply SP1]; lra]]).
  - assert (RJ : ((if Rlt_dec 1 kk then true else false) || (if Rlt_dec 1 kd0 then true else false) || (if Rlt_dec 1 kd1 then true else false))%bool = true).
    { destruct (Rlt_dec 1 kk); [reflexivity|]. destruct (Rlt_dec 1 kd0); [reflexivity|]. destruct (Rlt_dec 1 kd1); [reflexivity|lra]. }
    rewrite RJ. destruct (Rle_dec kd0 kk); destruct (Rle_dec kd1 kk); destruct (Rle_dec kk kd0); destruct (Rle_dec kd1 kd0); cbn [andb]; try lra; unfold pow_neg, emul;
    (destruct (Req_EM_T _ 0); [lra|]); cbn [eopp]; eexists; (split; [reflexivity|first [apply SQ|apply SP]; lra]).
Qed.
Lemma kappas_nonneg : forall tol v K dQ Dpara dDpara xi nu h dW3 dW4, 0 < tol -> 0 <= v -> 0 <= h -> 0 <= nu ->
  0 <= kappa_k tol v K dQ Dpara xi nu h /\ 0 <= kappa_d0 tol v K Dpara dDpara h dW3 /\ 0 <= kappa_d1 tol xi nu h dW4.
Proof.
  intros tol v K dQ Dpara dDpara xi nu h dW3 dW4 T V H N.
  assert (V0 : 0 < mil_v0 v K Dpara h). { unfold mil_v0. pose proof (Rabs_pos K). pose proof (sqrt_pos (2 * Dpara * h)). assert (0 < DBL_EPSILON) by (unfold DBL_EPSILON; apply Rinv_0_lt_compat, pow_lt; lra). nra. }
  assert (DV : forall a b, 0 <= a -> 0 < b -> 0 <= a / b) by (intros a b A B; unfold Rdiv; apply Rmult_le_pos; [auto|left; now apply Rinv_0_lt_compat]).
  assert (H2 : 0 <= h * h) by nra. split; [|split].
  - unfold kappa_k. cbv zeta. destruct (Rlt_dec _ _); rewrite Rmult_assoc; apply Rmult_le_pos; auto; apply DV; try apply Rabs_pos; [apply Rmult_lt_0_compat; lra|lra].
  - unfold kappa_d0. apply DV; [apply Rabs_pos|apply Rmult_lt_0_compat; lra].
  - unfold kappa_d1. apply DV; [|lra]. pose proof (sqrt_pos (1 - xi * xi)). pose proof (sqrt_pos nu). pose proof (Rabs_pos (dW4 + sqrt (h / 3))). repeat apply Rmult_le_pos; auto.
Qed.

(** ** Arrival at the new position *)
Section gc.
Variables (evalFlow : R -> R -> R -> R -> R -> Z * R) (evalPlasma : R -> R -> R -> R -> R -> Z * list psp) (evalBdB : R -> R -> R -> R -> Z * (nat -> R))
  (evalPsi : R -> R -> R -> R -> Z * R) (evalRho : R -> Z * R) (evalAxis : R -> Z * (R * R)).
Notation arrive := (gc_arrive evalBdB evalPsi evalRho evalAxis).
Notation euler := (mccc_gc_euler evalFlow evalPlasma evalBdB evalPsi evalRho evalAxis).
Notation milstein := (mccc_gc_milstein evalFlow evalPlasma evalBdB evalPsi evalRho evalAxis).
Definition gpos (p : gcm) : vec := pos_xyz (gy p 0%nat) (gy p 1%nat) (gy p 2%nat).
(** the marker is unchanged but for the flags *)
Definition flagged (p q : gcm) (e : Z) : Prop := q = Gcm (gy p) (gtime p) (gmass p) (gcharge p) (gB p) (grho p) (gtheta p) e false.
Definition arrived (p q : gcm) (h vf vout xiout : R) (x : vec) : Prop :=
  let m := gmass p in let pout := pnorm_vnorm m vout in
  gpos q = x /\ 0 <= gy q 0%nat /\ Rabs (gy q 1%nat - gy p 1%nat) <= PI /\
  (exists phi, pos_xyz (gy q 0%nat) phi (gy q 2%nat) = x /\ evalBdB (gy q 0%nat) phi (gy q 2%nat) (gtime p + h) = (0%Z, gB q) /\
     exists psi, evalPsi (gy q 0%nat) phi (gy q 2%nat) (gtime p + h) = (0%Z, psi) /\ evalRho psi = (0%Z, grho q)) /\
  gy q 5%nat = gy p 5%nat /\ gtime q = gtime p /\ gmass q = m /\ gcharge q = gcharge p /\
  gy q 4%nat = gc_mu m pout xiout (norm (Bvec (gB q))) /\ gy q 3%nat = pout * xiout + gamma_vnorm vout * m * vf.
Lemma arrive_spec : forall p h vf vout xiout x, grun p = true -> 0 < gy p 0%nat -> 0 < gmass p -> Rabs vout < CONST_C ->
  let q := arrive p h vf vout xiout (gpos p) x in
  (exists e, e <> 0%Z /\ flagged p q e) \/
  (arrived p q h vf vout xiout x /\ exists e a, evalAxis (gy p 1%nat) = (e, a) /\ (e = 0%Z /\ grun q = true /\ gerr q = gerr p \/ e <> 0%Z /\ grun q = false /\ gerr q = e)).
Proof.
  intros p h vf vout xiout x RUN RP M VC q.
  assert (FL : forall e, e <> 0%Z -> gc_flag p e = Gcm (gy p) (gtime p) (gmass p) (gcharge p) (gB p) (grho p) (gtheta p) e false).
  { intros e E. unfold gc_flag. now rewrite (proj2 (Z.eqb_neq e 0) E). }
  assert (MS : forall (e : Z), (e =? 0)%Z = false -> e <> 0%Z) by (intros e E; now apply Z.eqb_neq).
  unfold q, gc_arrive. set (r := sqrt (vx x * vx x + vy x * vy x)). set (ph := atan2 (vy x) (vx x)).
  destruct (evalBdB r ph (vz x) (gtime p + h)) as [e1 D] eqn:EB. destruct (e1 =? 0)%Z eqn:Z1.
  2:{ rewrite Z1, Z1. left. exists e1. split; [auto|unfold flagged; auto]. }
  apply Z.eqb_eq in Z1. subst e1. destruct (evalPsi r ph (vz x) (gtime p + h)) as [e2 psi] eqn:EP. destruct (e2 =? 0)%Z eqn:Z2.
  2:{ rewrite Z2. left. exists e2. split; [auto|unfold flagged; auto]. }
  apply Z.eqb_eq in Z2. subst e2. destruct (evalRho psi) as [e3 rho] eqn:ER. destruct (e3 =? 0)%Z eqn:Z3.
  2:{ left. exists e3. split; [auto|unfold flagged; auto]. }
  apply Z.eqb_eq in Z3. subst e3. right. destruct (evalAxis (gy p 1%nat)) as [e4 [ar az]] eqn:EA.
  unfold gpos at 1 2 3 4 5 6. unfold pos_xyz. cbn [vx vy vz]. destruct (turn (gy p 0%nat) (gy p 1%nat) (vx x) (vy x) RP) as [T1 T2]. fold r in T1, T2.
  set (a := atan2 (gy p 0%nat * cos (gy p 1%nat) * vy x - gy p 0%nat * sin (gy p 1%nat) * vx x) (gy p 0%nat * cos (gy p 1%nat) * vx x + gy p 0%nat * sin (gy p 1%nat) * vy x)) in *.
  split.
  - unfold arrived. cbv zeta. rewrite <- (pnorm_gamma (gmass p) vout) by auto. unfold gpos, pos_xyz, gc_flag, gc_set. cbn [gy gtime gmass gcharge gB grho gtheta]. rewrite T1, T2.
    split; [now destruct x|]. split; [apply sqrt_pos|]. split.
    { replace (gy p 1%nat + a - gy p 1%nat) with a by ring. pose proof (atan2_range (gy p 0%nat * cos (gy p 1%nat) * vy x - gy p 0%nat * sin (gy p 1%nat) * vx x) (gy p 0%nat * cos (gy p 1%nat) * vx x + gy p 0%nat * sin (gy p 1%nat) * vy x)) as RG. fold a in RG. apply Rabs_le. lra. }
    split; [|repeat split; reflexivity]. exists ph. destruct (atan2_spec (vy x) (vx x)) as [A B]. fold ph in A, B. fold r in A, B. split; [rewrite A, B; now destruct x|]. split; [exact EB|]. exists psi. auto.
  - exists e4, (ar, az). split; [reflexivity|]. unfold gc_flag, gc_set. cbn [grun gerr]. destruct (e4 =? 0)%Z eqn:Z4; [left; apply Z.eqb_eq in Z4; auto|right; auto].
Qed.
(** ** The Euler step *)
Section step.
Variables (p : gcm) (vf : R) (sp : list psp).
Hypotheses (RUN : grun p = true) (RP : 0 < gy p 0%nat) (M : 0 < gmass p).
Hypothesis HF : evalFlow (grho p) (gy p 0%nat) (gy p 1%nat) (gy p 2%nat) (gtime p) = (0%Z, vf).
Hypothesis HP : evalPlasma (grho p) (gy p 0%nat) (gy p 1%nat) (gy p 2%nat) (gtime p) = (0%Z, sp).
(** speed, pitch and coefficients of the marker in the plasma frame *)
Definition e_pin := gc_pin p vf.
Definition e_v := vnorm_pnorm (gmass p) (gc_pin p vf).
Definition e_xi := gc_xiin p vf.
Definition e_cl := clog sp (gmass p) (gcharge p) e_v.
Definition e_K := acc (K_of (gmass p) (gcharge p) e_cl e_v) sp.
Definition e_D := acc (Dpara_of (gmass p) (gcharge p) e_cl e_v) sp.
Definition e_dD := acc (dDpara_of (gmass p) (gcharge p) e_cl e_v) sp.
Definition e_dQ := acc (dQ_of (gmass p) (gcharge p) e_cl e_v) sp.
Definition e_nu := acc (nu_of (gmass p) (gcharge p) e_cl e_v) sp.
Definition e_DX := acc (DX_of (gmass p) (gcharge p) e_cl e_v e_xi (gyrofreq_pnorm (gmass p) (gcharge p) (gc_pin p vf) (norm (Bvec (gB p))))) sp.
Definition e_B := to_xyz (Bvec (gB p)) (gy p 1%nat).
Definition e_cut := MCCC_CUTOFF * sqrt (match sp with s :: _ => s_T s | [] => 0 end / gmass p).
Lemma euler_is : forall sw h rnd q, euler sw h rnd p = Some q ->
  let vout := if include_energy sw then reflect_v e_cut (e_v + e_K * h + sqrt (2 * e_D) * (sqrt h * rnd 3%nat)) else e_v in
  let xiout := if include_pitch sw then reflect_xi (e_xi - e_xi * e_nu * h + sqrt ((1 - e_xi * e_xi) * e_nu) * (sqrt h * rnd 4%nat)) else e_xi in
  let x := if include_gcdiff sw then gc_shift e_DX e_B (gpos p) (V (sqrt h * rnd 0%nat) (sqrt h * rnd 1%nat) (sqrt h * rnd 2%nat)) else gpos p in
  e_v <> 0 /\ 0 <= h /\ 0 <= e_D /\ 0 <= e_DX /\ Rabs vout < CONST_C /\ q = arrive p h vf vout xiout (gpos p) x.
Proof.
  intros sw h rnd q H vout xiout x. unfold mccc_gc_euler in H. rewrite RUN, HF in H. cbv iota beta zeta in H. change ((0 =? 0)%Z) with true in H. cbv iota in H. rewrite HP in H. cbv iota beta in H. change ((0 =? 0)%Z) with true in H. cbv iota in H.
  fold e_v e_xi in H. fold e_cl in H. fold e_K e_D e_nu e_DX e_B e_cut in H. fold (gpos p) in H. unfold euler_v, euler_xi in H. fold vout xiout x in H.
  destruct (moving e_v) eqn:E1; [|discriminate]. destruct (le0 h) eqn:E2; [|discriminate]. destruct (le0 e_D) eqn:E3; [|discriminate]. destruct (le0 ((1 - e_xi * e_xi) * e_nu)); [|discriminate]. destruct (le0 e_DX) eqn:E4; [|discriminate]. destruct (below_c vout) eqn:E5; [|discriminate]. cbn [andb] in H.
  unfold moving in E1. destruct (Req_EM_T e_v 0); [discriminate|]. unfold le0 in *. destruct (Rle_dec 0 h); [|discriminate]. destruct (Rle_dec 0 e_D); [|discriminate]. destruct (Rle_dec 0 e_DX); [|discriminate]. unfold below_c in E5. destruct (Rlt_dec _ _); [|discriminate].
  repeat split; auto. assert (SI : forall (A : Type) (a b : A), Some a = Some b -> a = b) by (intros A a b E; now injection E). now apply SI in H.
Qed.
Lemma milstein_is : forall sw hin ha tol dW q hout nu', milstein sw hin ha tol 0%Z dW p = Some (q, hout, nu') ->
  let vout := if include_energy sw then reflect_v e_cut (milstein_v e_v e_K e_D e_dD ha (dW 3%nat)) else e_v in
  let xiout := if include_pitch sw then reflect_xi (milstein_xi e_xi e_nu ha (dW 4%nat)) else e_xi in
  let x := if include_gcdiff sw then gc_shift e_DX e_B (gpos p) (V (dW 0%nat) (dW 1%nat) (dW 2%nat)) else gpos p in
  e_v <> 0 /\ 0 <= ha /\ 0 < e_D /\ 0 <= e_DX /\ 0 <= (1 - e_xi * e_xi) * e_nu /\ 0 <= 1 - e_xi * e_xi /\ Rabs vout < CONST_C /\ nu' = e_nu /\
  hout = milstein_hout hin (kappa_k tol e_v e_K e_dQ e_D e_xi e_nu ha) (kappa_d0 tol e_v e_K e_D e_dD ha (dW 3%nat)) (kappa_d1 tol e_xi e_nu ha (dW 4%nat)) /\
  q = arrive p ha vf vout xiout (gpos p) x.
Proof.
  intros sw hin ha tol dW q hout nu' H vout xiout x. unfold mccc_gc_milstein in H. rewrite RUN, HF in H. cbv iota beta zeta in H. change ((0 =? 0)%Z) with true in H. cbv iota in H. rewrite HP in H. cbv iota beta in H. change ((0 =? 0)%Z) with true in H. cbv iota in H.
  fold e_v e_xi in H. fold e_cl in H. fold e_K e_D e_nu e_DX e_B e_cut e_dD e_dQ in H. fold (gpos p) in H. fold vout xiout x in H.
  set (ho := milstein_hout hin _ _ _) in *. clearbody ho.
  destruct (moving e_v) eqn:E1; [|discriminate]. destruct (le0 ha) eqn:E2; [|discriminate]. destruct (le0 e_D) eqn:E3; [|discriminate]. destruct (moving e_D) eqn:E6; [|discriminate]. destruct (le0 ((1 - e_xi * e_xi) * e_nu)) eqn:E7; [|discriminate]. destruct (le0 (1 - e_xi * e_xi)) eqn:E8; [|discriminate]. destruct (le0 e_DX) eqn:E4; [|discriminate]. destruct (below_c vout) eqn:E5; [|discriminate]. cbn [andb] in H.
  unfold moving in *. destruct (Req_EM_T e_v 0); [discriminate|]. destruct (Req_EM_T e_D 0); [discriminate|]. unfold le0 in *. destruct (Rle_dec 0 ha); [|discriminate]. destruct (Rle_dec 0 e_D); [|discriminate]. destruct (Rle_dec 0 e_DX); [|discriminate].
  destruct (Rle_dec 0 (_ * _)); [|discriminate]. destruct (Rle_dec 0 (1 - _)); [|discriminate]. unfold below_c in E5. destruct (Rlt_dec _ _); [|discriminate].
  assert (SI : forall (A : Type) (a b : A), Some a = Some b -> a = b) by (intros A a b E; now injection E). apply SI in H.
  assert (PI3 : forall (A B C : Type) (a a' : A) (b b' : B) (c c' : C), (a, b, c) = (a', b', c') -> a = a' /\ b = b' /\ c = c') by (intros A B C a a' b b' c c' E; injection E; auto). apply PI3 in H. destruct H as (H1 & H2 & H3).
  repeat split; auto; try lra; now symmetry.
Qed.
(** *** Consequences *)
Lemma e_v_pos : 0 <= gy p 4%nat -> e_v <> 0 -> 0 < e_v < CONST_C.
Proof.
  intros MU N. destruct (gc_p_sq (gmass p) (gy p 4%nat) (gc_ppar_flow p vf) (norm (Bvec (gB p))) M MU (norm_nonneg _)) as [_ P]. fold (gc_pin p vf) in P.
  pose proof (vnorm_pnorm_lorentz (gmass p) (gc_pin p vf) M) as L. apply lorentz_below in L. fold e_v in L. assert (0 <= e_v).
  { unfold e_v. rewrite vnorm_pnorm_alt by auto. destruct (gamma_pnorm_sq (gmass p) (gc_pin p vf) ltac:(lra)) as [_ G]. unfold Rdiv. apply Rmult_le_pos; [auto|left; apply Rinv_0_lt_compat; nra]. }
  rewrite Rabs_pos_eq in L by auto. lra.
Qed.
Lemma arrived_state : forall q h vout xi x, arrived p q h vf vout xi x -> 0 < vout < CONST_C -> 0 < norm (Bvec (gB q)) ->
  let m := gmass p in let w := gy q 3%nat - gamma_vnorm vout * m * vf in let B := norm (Bvec (gB q)) in
  (0 <= gy q 4%nat <-> -1 <= xi <= 1) /\ w * w + 2 * m * gy q 4%nat * B = pnorm_vnorm m vout * pnorm_vnorm m vout /\
  (-1 <= xi <= 1 -> vnorm_pnorm m (gc_p m (gy q 4%nat) w B) = vout /\ gc_xi m (gy q 4%nat) w B = xi).
Proof.
  intros q h vout xi x A VO BP m w B. destruct A as (_ & _ & _ & _ & _ & _ & _ & _ & MU & PP). fold m in MU, PP. fold B in MU, BP.
  assert (VC : Rabs vout < CONST_C) by (rewrite Rabs_pos_eq; lra). destruct (lorentz_vnorm vout VC) as [_ G].
  assert (PO : 0 < pnorm_vnorm m vout) by (unfold pnorm_vnorm; apply Rmult_lt_0_compat; [apply Rmult_lt_0_compat; [exact M|lra]|lra]).
  set (po := pnorm_vnorm m vout) in *. assert (W : w = gc_ppar po xi) by (unfold w, gc_ppar; rewrite PP; ring). rewrite W, MU.
  assert (M' : 0 < m) by exact M. split; [|split].
  - split; [|intros X; apply gc_mu_nonneg; auto]. unfold gc_mu. intros Q. assert (0 <= 1 - xi * xi).
    { apply Rnot_lt_le. intros L. assert (po * po * (1 - xi * xi) < 0) by (assert (0 < po * po) by nra; nra). assert (0 < / (2 * B * m)) by (apply Rinv_0_lt_compat; repeat apply Rmult_lt_0_compat; lra). unfold Rdiv in Q. nra. }
    nra.
  - unfold gc_mu, gc_ppar. field. lra.
  - intros X. rewrite gc_p_inv, gc_xi_inv by (auto; lra). split; [|reflexivity]. unfold po. now apply vnorm_pnorm_inv.
Qed.
(** the step as a whole: either an error and nothing but the flags changed, or the new state *)
Lemma euler_step : forall sw h rnd q, euler sw h rnd p = Some q -> 0 <= gy p 4%nat -> 0 < e_cut -> e_B <> vzero ->
  (exists e, e <> 0%Z /\ flagged p q e) \/
  exists vout xiout, arrived p q h vf vout xiout (gpos q) /\ 0 < vout < CONST_C /\
    dot e_B (vsub (gpos q) (gpos p)) = 0 /\ (include_gcdiff sw = false -> gpos q = gpos p) /\
    (if include_energy sw then e_cut <= vout /\ vout = e_cut + Rabs (e_v + e_K * h + sqrt (2 * e_D) * (sqrt h * rnd 3%nat) - e_cut) else vout = e_v) /\
    (if include_pitch sw then let raw := e_xi - e_xi * e_nu * h + sqrt ((1 - e_xi * e_xi) * e_nu) * (sqrt h * rnd 4%nat) in xiout = reflect_xi raw /\ (0 < norm (Bvec (gB q)) -> (0 <= gy q 4%nat <-> -3 <= raw <= 3))
     else xiout = e_xi).
Proof.
  intros sw h rnd q H MU CP BN. destruct (euler_is sw h rnd q H) as (N0 & H0 & D0 & DX0 & VC & E). pose proof (e_v_pos MU N0) as VP.
  set (vout := if include_energy sw then _ else e_v) in *. set (xiout := if include_pitch sw then _ else e_xi) in *. set (x := if include_gcdiff sw then _ else gpos p) in *.
  destruct (arrive_spec p h vf vout xiout x RUN RP M VC) as [(e & EN & FL)|(A & _)]; [left; exists e; rewrite E; auto|right]. rewrite <- E in A.
  exists vout, xiout. assert (GX : gpos q = x) by apply A. rewrite GX.
  assert (VB : if include_energy sw then e_cut <= vout /\ vout = e_cut + Rabs (e_v + e_K * h + sqrt (2 * e_D) * (sqrt h * rnd 3%nat) - e_cut) else vout = e_v) by (unfold vout; destruct (include_energy sw); [apply reflect_v_spec|reflexivity]).
  assert (VR : 0 < vout < CONST_C). { assert (0 < vout) by (destruct (include_energy sw); [lra|lra]). rewrite Rabs_pos_eq in VC by lra. lra. }
  split; [exact A|]. split; [exact VR|]. split.
  { unfold x. destruct (include_gcdiff sw); [now apply shift_law|]. unfold dot, vsub. cbn [vx vy vz]. ring. }
  split; [intros G; unfold x; now rewrite G|]. split; [exact VB|].
  destruct (include_pitch sw) eqn:IP; [|reflexivity]. cbv zeta. unfold xiout at 1. split; [reflexivity|]. intros BP. destruct (arrived_state q h vout xiout x A VR BP) as (S1 & _ & _). rewrite S1. unfold xiout. apply reflect_xi_spec.
Qed.
Lemma milstein_step : forall sw hin ha tol dW q hout nu', milstein sw hin ha tol 0%Z dW p = Some (q, hout, nu') -> 0 <= gy p 4%nat -> 0 < e_cut -> e_B <> vzero ->
  nu' = e_nu /\
  hout = milstein_hout hin (kappa_k tol e_v e_K e_dQ e_D e_xi e_nu ha) (kappa_d0 tol e_v e_K e_D e_dD ha (dW 3%nat)) (kappa_d1 tol e_xi e_nu ha (dW 4%nat)) /\
  ((exists e, e <> 0%Z /\ flagged p q e) \/
   exists vout xiout, arrived p q ha vf vout xiout (gpos q) /\ 0 < vout < CONST_C /\
    dot e_B (vsub (gpos q) (gpos p)) = 0 /\ (include_gcdiff sw = false -> gpos q = gpos p) /\
    (if include_energy sw then e_cut <= vout /\ vout = e_cut + Rabs (milstein_v e_v e_K e_D e_dD ha (dW 3%nat) - e_cut) else vout = e_v) /\
    (if include_pitch sw then let raw := milstein_xi e_xi e_nu ha (dW 4%nat) in xiout = reflect_xi raw /\ (0 < norm (Bvec (gB q)) -> (0 <= gy q 4%nat <-> -3 <= raw <= 3))
     else xiout = e_xi)).
Proof.
  intros sw hin ha tol dW q hout nu' H MU CP BN. destruct (milstein_is sw hin ha tol dW q hout nu' H) as (N0 & H0 & D0 & DX0 & _ & _ & VC & EN' & EH & E). split; [exact EN'|]. split; [exact EH|]. pose proof (e_v_pos MU N0) as VP.
  set (vout := if include_energy sw then _ else e_v) in *. set (xiout := if include_pitch sw then _ else e_xi) in *. set (x := if include_gcdiff sw then _ else gpos p) in *.
  destruct (arrive_spec p ha vf vout xiout x RUN RP M VC) as [(e & EN & FL)|(A & _)]; [left; exists e; rewrite E; auto|right]. rewrite <- E in A.
  exists vout, xiout. assert (GX : gpos q = x) by apply A. rewrite GX.
  assert (VB : if include_energy sw then e_cut <= vout /\ vout = e_cut + Rabs (milstein_v e_v e_K e_D e_dD ha (dW 3%nat) - e_cut) else vout = e_v) by (unfold vout; destruct (include_energy sw); [apply reflect_v_spec|reflexivity]).
  assert (VR : 0 < vout < CONST_C). { assert (0 < vout) by (destruct (include_energy sw); [lra|lra]). rewrite Rabs_pos_eq in VC by lra. lra. }
  split; [exact A|]. split; [exact VR|]. split.
  { unfold x. destruct (include_gcdiff sw); [now apply shift_law|]. unfold dot, vsub. cbn [vx vy vz]. ring. }
  split; [intros G; unfold x; now rewrite G|]. split; [exact VB|].
  destruct (include_pitch sw) eqn:IP; [|reflexivity]. cbv zeta. unfold xiout at 1. split; [reflexivity|]. intros BP. destruct (arrived_state q ha vout xiout x A VR BP) as (S1 & _ & _). rewrite S1. unfold xiout. apply reflect_xi_spec.
Qed.
(** a step of zero length, or one with all effects off: position and magnetic moment stay, the
    parallel momentum shifts by the difference of two Lorentz factors times the flow *)
Lemma euler_idle : forall sw h rnd q, euler sw h rnd p = Some q -> 0 <= gy p 4%nat -> e_cut <= e_v ->
  h = 0 \/ include_energy sw = false /\ include_pitch sw = false /\ include_gcdiff sw = false ->
  (exists e, e <> 0%Z /\ flagged p q e) \/
  (gpos q = gpos p /\ (0 < norm (Bvec (gB p)) -> norm (Bvec (gB q)) = norm (Bvec (gB p)) ->
    gy q 4%nat = gy p 4%nat /\
    gy q 3%nat - gy p 3%nat = (gamma_pnorm (gmass p) (gc_pin p vf) - gamma_ppar (gmass p) (gy p 4%nat) (gy p 3%nat) (norm (Bvec (gB p)))) * gmass p * vf)).
Proof.
  intros sw h rnd q H MU CV X. destruct (euler_is sw h rnd q H) as (N0 & H0 & D0 & DX0 & VC & E). pose proof (e_v_pos MU N0) as VP.
  set (vout := if include_energy sw then _ else e_v) in *. set (xiout := if include_pitch sw then _ else e_xi) in *. set (x := if include_gcdiff sw then _ else gpos p) in *.
  pose proof (gc_p_sq (gmass p) (gy p 4%nat) (gc_ppar_flow p vf) (norm (Bvec (gB p))) M MU (norm_nonneg _)) as PS. fold (gc_pin p vf) in PS. destruct PS as [PS PN].
  assert (PZ : gc_pin p vf <> 0). { intros Z. apply N0. unfold e_v, vnorm_pnorm. rewrite Z. unfold Rdiv. ring. }
  assert (XI : -1 <= e_xi <= 1).
  { unfold e_xi, gc_xiin, gc_xi. fold (gc_pin p vf). assert (0 <= gmass p * gy p 4%nat * norm (Bvec (gB p))) by (pose proof (norm_nonneg (Bvec (gB p))); repeat apply Rmult_le_pos; lra).
    assert (Q : (gc_ppar_flow p vf / gc_pin p vf) * (gc_ppar_flow p vf / gc_pin p vf) <= 1).
    { replace (gc_ppar_flow p vf / gc_pin p vf * (gc_ppar_flow p vf / gc_pin p vf)) with ((gc_ppar_flow p vf * gc_ppar_flow p vf) / (gc_pin p vf * gc_pin p vf)) by (field; exact PZ).
      apply (Rmult_le_reg_r (gc_pin p vf * gc_pin p vf)); [nra|]. unfold Rdiv. rewrite Rmult_assoc, Rinv_l by nra. nra. }
    nra. }
  assert (XO : xiout = e_xi). { unfold xiout. destruct (include_pitch sw) eqn:IP; [|reflexivity]. destruct X as [->|(_ & X & _)]; [|discriminate]. rewrite sqrt_0. destruct (reflect_xi_spec (e_xi - e_xi * e_nu * 0 + sqrt ((1 - e_xi * e_xi) * e_nu) * (0 * rnd 4%nat))) as (_ & R1 & _). rewrite R1; lra. }
  assert (VO : vout = e_v). { unfold vout. destruct (include_energy sw) eqn:IE; [|reflexivity]. destruct X as [->|(X & _)]; [|discriminate]. rewrite sqrt_0. destruct (reflect_v_spec e_cut (e_v + e_K * 0 + sqrt (2 * e_D) * (0 * rnd 3%nat))) as [_ R1]. rewrite R1. rewrite Rabs_pos_eq; lra. }
  assert (XX : x = gpos p). { unfold x. destruct (include_gcdiff sw) eqn:IG; [|reflexivity]. destruct X as [->|(_ & _ & X)]; [|discriminate]. unfold gc_shift. rewrite sqrt_0. destruct (gpos p) as [x1 x2 x3]. unfold dot. cbn [vx vy vz]. apply f_equal3; ring. }
  destruct (arrive_spec p h vf vout xiout x RUN RP M VC) as [(e & EN & FL)|(A & _)]; [left; exists e; rewrite E; auto|right]. rewrite <- E in A. rewrite VO, XO, XX in A. clear E VC.
  destruct A as (A1 & _ & _ & _ & _ & _ & _ & _ & AM & AP). split; [exact A1|]. intros BP BE.
  destruct (gc_mu_ppar_inv (gmass p) (gy p 4%nat) (gc_ppar_flow p vf) (norm (Bvec (gB p))) M MU BP PZ) as [I1 I2]. fold (gc_pin p vf) in I1, I2. unfold e_v, e_xi in AM, AP. rewrite pnorm_vnorm_inv in AM, AP by auto.
  rewrite BE in AM. fold (gc_xiin p vf) in I1, I2. rewrite I2 in AM. split; [exact AM|]. rewrite AP. unfold gc_ppar in I1. rewrite I1.
  rewrite <- (pnorm_gamma (gmass p) (vnorm_pnorm (gmass p) (gc_pin p vf))) by (auto; apply (lorentz_below _ (gamma_pnorm (gmass p) (gc_pin p vf))); now apply vnorm_pnorm_lorentz). rewrite pnorm_vnorm_inv by auto. unfold gc_ppar_flow. ring.
Qed.
(** with positive Coulomb logarithms the step fails only by reaching the speed of light, silently *)
Lemma euler_runs : forall sw h rnd, 0 <= gy p 4%nat -> gcharge p <> 0 -> 0 < norm (Bvec (gB p)) -> e_v <> 0 -> 0 <= h -> sp <> [] -> Forall (fun s => sp_ok s /\ s_q s <> 0 /\ 0 < e_cl s) sp ->
  (euler sw h rnd p = None <-> include_energy sw = true /\ CONST_C <= reflect_v e_cut (e_v + e_K * h + sqrt (2 * e_D) * (sqrt h * rnd 3%nat))).
Proof.
  intros sw h rnd MU QN BP VN H0 NE OK. pose proof (e_v_pos MU VN) as VP.
  assert (SG : forall s, sp_ok s /\ s_q s <> 0 /\ 0 < e_cl s -> 0 < Dpara_of (gmass p) (gcharge p) e_cl e_v s /\ 0 < Dperp_of (gmass p) (gcharge p) e_cl e_v s /\ 0 < nu_of (gmass p) (gcharge p) e_cl e_v s).
  { intros s (A & B & C). destruct (coef_signs (gmass p) (gcharge p) e_cl M e_v s A (proj1 VP) QN B C) as (_ & _ & X & Y & Z). tauto. }
  pose proof (gc_p_sq (gmass p) (gy p 4%nat) (gc_ppar_flow p vf) (norm (Bvec (gB p))) M MU (norm_nonneg _)) as PS. fold (gc_pin p vf) in PS. destruct PS as [PS PN].
  assert (PZ : gc_pin p vf <> 0). { intros Z. apply VN. unfold e_v, vnorm_pnorm. rewrite Z. unfold Rdiv. ring. }
  assert (XI : 0 <= 1 - e_xi * e_xi <= 1).
  { unfold e_xi, gc_xiin, gc_xi. fold (gc_pin p vf). assert (0 <= gmass p * gy p 4%nat * norm (Bvec (gB p))) by (repeat apply Rmult_le_pos; lra).
    assert (Q : (gc_ppar_flow p vf / gc_pin p vf) * (gc_ppar_flow p vf / gc_pin p vf) <= 1).
    { replace (gc_ppar_flow p vf / gc_pin p vf * (gc_ppar_flow p vf / gc_pin p vf)) with ((gc_ppar_flow p vf * gc_ppar_flow p vf) / (gc_pin p vf * gc_pin p vf)) by (field; exact PZ).
      apply (Rmult_le_reg_r (gc_pin p vf * gc_pin p vf)); [nra|]. unfold Rdiv. rewrite Rmult_assoc, Rinv_l by nra. nra. }
    pose proof (Rle_0_sqr (gc_ppar_flow p vf / gc_pin p vf)). unfold Rsqr in *. lra. }
  assert (D1 : 0 < e_D) by (eapply acc_pos; [exact NE|intros s S0; exact (proj1 (SG s S0))|exact OK]).
  assert (D2 : 0 < e_nu) by (eapply acc_pos; [exact NE|intros s S0; exact (proj2 (proj2 (SG s S0)))|exact OK]).
  assert (D3 : 0 < e_DX).
  { eapply acc_pos; [exact NE| |exact OK]. intros s S0. destruct (SG s S0) as (A & B & _). unfold DX_of, coef_DX.
    assert (W : 0 < gyrofreq_pnorm (gmass p) (gcharge p) (gc_pin p vf) (norm (Bvec (gB p)))).
    { unfold gyrofreq_pnorm. destruct (gamma_pnorm_sq (gmass p) (gc_pin p vf) ltac:(lra)) as [_ G]. apply Rdiv_lt_0_compat; [apply Rmult_lt_0_compat; [now apply Rabs_pos_lt|auto]|nra]. }
    apply Rdiv_lt_0_compat; [|nra]. set (a := Dpara_of _ _ _ _ _) in *. set (b := Dperp_of _ _ _ _ _) in *. clearbody a b. set (y := 1 - e_xi * e_xi) in *. clearbody y.
    assert (0 <= a * y) by (apply Rmult_le_pos; lra). assert (b * y <= b * 1) by (apply Rmult_le_compat_l; lra). lra. }
  unfold mccc_gc_euler. rewrite RUN, HF. cbv iota beta zeta. change ((0 =? 0)%Z) with true. cbv iota. rewrite HP. cbv iota beta. change ((0 =? 0)%Z) with true. cbv iota.
  fold e_v e_xi. fold e_cl. fold e_K e_D e_nu e_DX e_B e_cut. fold (gpos p). unfold euler_v, euler_xi.
  unfold moving. destruct (Req_EM_T e_v 0); [contradiction|]. unfold le0. destruct (Rle_dec 0 h); [|lra]. destruct (Rle_dec 0 e_D); [|lra]. destruct (Rle_dec 0 (_ * e_nu)); [|exfalso; apply n0, Rmult_le_pos; lra]. destruct (Rle_dec 0 e_DX); [|lra]. cbn [andb].
  unfold below_c. destruct (include_energy sw).
  - set (v := e_v + e_K * h + sqrt (2 * e_D) * (sqrt h * rnd 3%nat)). destruct (reflect_v_spec e_cut v) as [RV _].
    assert (0 <= e_cut) by (unfold e_cut; apply Rmult_le_pos; [unfold MCCC_CUTOFF; lra|apply sqrt_pos]). rewrite Rabs_pos_eq by lra. destruct (Rlt_dec _ _); split; try discriminate; try (intros [_ X]; lra); intros _; split; [reflexivity|lra].
  - rewrite Rabs_pos_eq by lra. destruct (Rlt_dec _ _); [|lra]. split; [discriminate|intros [X _]; discriminate].
Qed.
(** so without flow nothing changes, and with flow the parallel momentum stays exactly when the two momenta agree *)
Lemma gamma_inj : forall m a b, 0 < m -> 0 <= a -> 0 <= b -> gamma_pnorm m a = gamma_pnorm m b -> a = b.
Proof.
  intros m a b M0 A B E. destruct (gamma_pnorm_sq m a ltac:(lra)) as [GA _]. destruct (gamma_pnorm_sq m b ltac:(lra)) as [GB _]. rewrite E, GB in GA. pose proof C_pos. assert (0 < m * m * CONST_C2) by (unfold CONST_C2; repeat apply Rmult_lt_0_compat; lra).
  assert (a * a = b * b). { apply (Rmult_eq_reg_r (/ (m * m * CONST_C2))); [|apply Rinv_neq_0_compat; lra]. unfold Rdiv in GA. lra. } nra.
Qed.
Lemma euler_idle_iff : forall sw h rnd q, euler sw h rnd p = Some q -> 0 <= gy p 4%nat -> e_cut <= e_v ->
  h = 0 \/ include_energy sw = false /\ include_pitch sw = false /\ include_gcdiff sw = false -> grun q = true ->
  0 < norm (Bvec (gB p)) -> norm (Bvec (gB q)) = norm (Bvec (gB p)) ->
  (gy q 3%nat = gy p 3%nat <-> vf = 0 \/ gc_pin p vf = gc_p (gmass p) (gy p 4%nat) (gy p 3%nat) (norm (Bvec (gB p)))).
Proof.
  intros sw h rnd q H MU CV X RQ BP BE. destruct (euler_idle sw h rnd q H MU CV X) as [(e & _ & FL)|(_ & A)]; [rewrite FL in RQ; discriminate|]. destruct (A BP BE) as [_ D]. clear A.
  rewrite gamma_agree in D by (auto; lra). 
  destruct (gc_p_sq (gmass p) (gy p 4%nat) (gc_ppar_flow p vf) (norm (Bvec (gB p))) M MU (Rlt_le _ _ BP)) as [_ P1]. fold (gc_pin p vf) in P1. destruct (gc_p_sq (gmass p) (gy p 4%nat) (gy p 3%nat) (norm (Bvec (gB p))) M MU (Rlt_le _ _ BP)) as [_ P2].
  split.
  - intros E. rewrite E, Rminus_diag_eq in D by reflexivity. symmetry in D. apply Rmult_integral in D. destruct D as [D|D]; [|now left]. right. apply Rmult_integral in D. destruct D as [D|D]; [|lra]. apply (gamma_inj (gmass p)); auto. lra.
  - intros [Z|Z]; [rewrite Z, Rmult_0_r in D; lra|]. rewrite Z in D. lra.
Qed.
End step.
End gc.
