(** Proofs about the guiding-centre equations of motion. *)
From Coq Require Import Reals ZArith Lra Lia Psatz Bool.
From Verif Require Import Deriv Vec PhysModel PhysProofs AxisModel GcModel.
Local Open Scope R_scope.

(** ** Guiding-centre equations along a trajectory
    [Y s] is the phase-space position at time s and [b s] the field components the guiding
    centre sees; the components change by the chain rule *)
Definition velocity (r : R) (yd : nat -> R) : vec := V (yd 0%nat) (r * yd 1%nat) (yd 2%nat).
Definition follows (Y : R -> nat -> R) (b : R -> vec) (t : R) (D yd : nat -> R) : Prop :=
  (forall i, (i < 5)%nat -> Dx (fun s => Y s i) t (yd i)) /\ b t = Bvec D /\
  Dx (fun s => vx (b s)) t (D 1%nat * yd 0%nat + D 2%nat * yd 1%nat + D 3%nat * yd 2%nat) /\
  Dx (fun s => vy (b s)) t (D 5%nat * yd 0%nat + D 6%nat * yd 1%nat + D 7%nat * yd 2%nat) /\
  Dx (fun s => vz (b s)) t (D 9%nat * yd 0%nat + D 10%nat * yd 1%nat + D 11%nat * yd 2%nat).

Lemma norm_dot : forall a, sqrt (dot a a) = norm a.
Proof. reflexivity. Qed.
(** the field strength changes by the gradient along the velocity *)
Lemma follows_norm : forall Y b t D yd, follows Y b t D yd -> Y t 0%nat <> 0 -> 0 < norm (Bvec D) ->
  Dx (fun s => norm (b s)) t (dot (gradB D (Y t 0%nat)) (velocity (Y t 0%nat) yd)).
Proof.
  intros Y b t D yd (_ & BT & D1 & D2 & D3) R0 N.
  assert (P : 0 < vx (b t) * vx (b t) + vy (b t) * vy (b t) + vz (b t) * vz (b t)).
  { rewrite BT. apply sqrt_lt_0_alt. rewrite sqrt_0. exact N. }
  unfold norm. eapply d_eq.
  - apply (d_sqrt (fun s => vx (b s) * vx (b s) + vy (b s) * vy (b s) + vz (b s) * vz (b s))); [|exact P].
    apply d_plus; [apply d_plus|]; apply d_mult; eassumption.
  - unfold gradB. rewrite norm_dot. rewrite BT. change (sqrt _) with (norm (Bvec D)). set (n := norm (Bvec D)) in *.
    unfold velocity, dot, Bvec. cbn [vx vy vz]. field. lra.
Qed.

(** the energy rate of any motion of this form: Et is the field doing work *)
Lemma eom_energy : forall m q D Bs Et mu ppar gamma n (g : vec), let Es := vsub Et (vscal (mu / (q * gamma)) g) in
  q <> 0 -> gamma <> 0 -> m <> 0 -> n <> 0 ->
  let Bh := vscal (/ n) (Bvec D) in dot Bh Bs <> 0 ->
  let v := vscal (/ dot Bh Bs) (vadd (vscal (ppar / (gamma * m)) Bs) (cross Es Bh)) in
  mu / gamma * dot g v + ppar / (gamma * m) * (q * dot Bs Es / dot Bh Bs) = q * dot Et v.
Proof.
  intros m q D Bs Et mu ppar gamma n g Es Q G M N Bh P v.
  assert (A : dot Es v = ppar / (gamma * m) * dot Bs Es / dot Bh Bs).
  { unfold v. set (d := dot Bh Bs) in *. clearbody Es Bh d. clear -P. destruct Es as [a1 a2 a3], Bh as [b1 b2 b3], Bs as [c1 c2 c3]. vunf. unfold Rdiv. ring. }
  assert (B : mu / gamma * dot g v = q * (dot Et v - dot Es v)).
  { unfold Es. clearbody v. clear A Es Bh P. destruct Et as [a1 a2 a3], g as [b1 b2 b3], v as [c1 c2 c3]. vunf. field. auto. }
  rewrite B, A. field. repeat split; auto.
Qed.

Section rate.
Variables (m q : R) (D : nat -> R) (Bs Et : vec) (ald : R).
Variables (Y : R -> nat -> R) (b : R -> vec) (t : R).
Let r := Y t 0%nat. Let ppar := Y t 3%nat. Let mu := Y t 4%nat. Let n := norm (Bvec D).
Let gamma := gamma_ppar m mu ppar n.
Let Es := vsub Et (vscal (mu / (q * gamma)) (gradB D r)).
Let yd := eom m q D Bs Es ald (Y t).
Hypothesis F : follows Y b t D yd.
Hypothesis (M : 0 < m) (Q : q <> 0) (R0 : r <> 0) (N : 0 < n) (MU : 0 <= mu) (P : dot (vscal (/ n) (Bvec D)) Bs <> 0).
Lemma gamma_is : 0 < gamma.
Proof.
  unfold gamma, gamma_ppar. apply sqrt_lt_R0. pose proof C_pos. assert (0 < m * CONST_C2) by (unfold CONST_C2; pos).
  assert (0 <= 2 * mu * n / (m * CONST_C2)). { apply Rmult_le_pos; [|left; now apply Rinv_0_lt_compat]. assert (0 <= mu * n) by (apply Rmult_le_pos; lra). lra. }
  assert (0 <= ppar * ppar / (m * m * CONST_C2)). { apply Rmult_le_pos; [nra|]. left. apply Rinv_0_lt_compat. unfold CONST_C2. pos. }
  lra.
Qed.
Lemma hat_is : V (vx (Bvec D) / n) (vy (Bvec D) / n) (vz (Bvec D) / n) = vscal (/ n) (Bvec D).
Proof. unfold vscal. f_equal; unfold Rdiv; ring. Qed.
Lemma velocity_is : velocity r yd = vscal (/ dot (vscal (/ n) (Bvec D)) Bs) (vadd (vscal (ppar / (gamma * m)) Bs) (cross Es (vscal (/ n) (Bvec D)))).
Proof.
  unfold velocity, yd, eom. cbv zeta. change (sqrt (dot (Bvec D) (Bvec D))) with n. fold mu ppar r gamma. rewrite hat_is.
  generalize (cross Es (vscal (/ n) (Bvec D))). intros X. set (d := dot _ Bs) in *. pose proof gamma_is as G.
  clearbody d n Es gamma r ppar. clear -M R0 N P G. destruct X as [x1 x2 x3], Bs as [c1 c2 c3]. unfold vscal, vadd. cbn [vx vy vz]. f_equal; field; repeat split; lra.
Qed.
Lemma energy_rate :
  Dx (fun s => Ekin_ppar m (Y s 4%nat) (Y s 3%nat) (norm (b s))) t
     (q * dot Et (velocity r yd) - ald * ald_force_chartime q m n gamma * (2 * mu * n / (m * CONST_C2)) * (gamma * m * CONST_C2)).
Proof.
  pose proof gamma_is as G. pose proof C_pos as C. destruct F as (FY & BT & _).
  pose proof (follows_norm Y b t D yd F R0 N) as DN. pose proof (FY 3%nat ltac:(lia)) as D3. pose proof (FY 4%nat ltac:(lia)) as D4.
  assert (NT : norm (b t) = n) by (unfold n; now rewrite BT).
  assert (G2 : 0 < 1 + 2 * Y t 4%nat * norm (b t) / (m * CONST_C2) + Y t 3%nat * Y t 3%nat / (m * m * CONST_C2)).
  { rewrite NT. fold mu ppar. unfold gamma, gamma_ppar in G. apply sqrt_lt_0_alt. now rewrite sqrt_0. }
  unfold Ekin_ppar, gamma_ppar. eapply d_eq.
  - eapply d_mult; [eapply d_mult; [eapply d_minus; [eapply d_sqrt; [|exact G2]|apply d_const]|apply d_const]|apply d_const].
    unfold Rdiv. eapply d_plus; [eapply d_plus; [apply d_const|]|].
    + eapply d_mult; [eapply d_mult; [eapply d_mult; [apply d_const|exact D4]|exact DN]|apply d_const].
    + eapply d_mult; [eapply d_mult; [exact D3|exact D3]|apply d_const].
  - cbv beta. rewrite NT. fold mu ppar r. change (sqrt (1 + 2 * mu * n / (m * CONST_C2) + ppar * ppar / (m * m * CONST_C2))) with gamma.
    assert (GG : gamma * gamma = 1 + 2 * mu * n / (m * CONST_C2) + ppar * ppar / (m * m * CONST_C2)).
    { unfold gamma, gamma_ppar. apply sqrt_sqrt. rewrite NT in G2. fold mu ppar in G2. lra. }
    pose proof (eom_energy m q D Bs Et mu ppar gamma n (gradB D r) Q ltac:(lra) ltac:(lra) ltac:(lra) P) as K. cbv zeta in K. fold Es in K.
    rewrite <- velocity_is in K. set (v := velocity r yd) in *. set (gv := dot (gradB D r) v) in *. set (Ev := dot Et v) in *.
    assert (Y3 : yd 3%nat = q * dot Bs Es / dot (vscal (/ n) (Bvec D)) Bs + - (ald_force_chartime q m n gamma * ald) * ppar * (2 * mu * n / (m * CONST_C2))).
    { unfold yd, eom. cbv zeta. change (sqrt (dot (Bvec D) (Bvec D))) with n. fold mu ppar gamma. now rewrite hat_is. }
    assert (Y4 : yd 4%nat = - 2 * (ald_force_chartime q m n gamma * ald) * mu * (1 + 2 * mu * n / (m * CONST_C2))).
    { unfold yd, eom. cbv zeta. change (sqrt (dot (Bvec D) (Bvec D))) with n. fold mu ppar gamma. ring. }
    rewrite Y3, Y4. set (X := q * dot Bs Es / _) in *. set (ta := ald_force_chartime q m n gamma * ald).
    replace (ald * ald_force_chartime q m n gamma) with ta by (unfold ta; ring). clearbody X ta Ev gv gamma. clear -K G C M GG Q N.
    assert (K' : mu * gv = gamma * q * Ev - ppar / m * X).
    { replace (mu * gv) with (gamma * (mu / gamma * gv)) by (field; lra). replace (mu / gamma * gv) with (q * Ev - ppar / (gamma * m) * X) by lra. field. lra. }
    assert (C2 : 0 < CONST_C2) by (unfold CONST_C2; pos).
    transitivity ((mu * gv + ppar / m * X) / gamma - ta * (2 * mu * n / (m * CONST_C2)) * (m * CONST_C2 * (1 + 2 * mu * n / (m * CONST_C2) + ppar * ppar / (m * m * CONST_C2))) / gamma).
    + field. lra.
    + rewrite <- GG, K'. field. lra.
Qed.
End rate.

Lemma Estar_is : forall q mu gamma E D r, q <> 0 -> gamma <> 0 -> Estar q mu gamma E D r = vsub E (vscal (mu / (q * gamma)) (gradB D r)).
Proof. intros. unfold Estar. cbv zeta. destruct (gradB D r) as [g1 g2 g3]. destruct E as [e1 e2 e3]. unfold vsub, vscal. cbn [vx vy vz]. f_equal; field; auto. Qed.
Lemma Estar_mhd_is : forall q mu gamma E D K r, q <> 0 -> gamma <> 0 ->
  Estar_mhd q mu gamma E D K r =
  vsub (vsub (vsub E (V (K 7%nat) (K 8%nat) (K 9%nat))) (vscal (K 1%nat) (Bvec D))) (vscal (mu / (q * gamma)) (gradB D r)).
Proof. intros. unfold Estar_mhd. cbv zeta. destruct (gradB D r) as [g1 g2 g3]. destruct E as [e1 e2 e3]. destruct (Bvec D) as [b1 b2 b3]. unfold vsub, vscal. cbn [vx vy vz]. f_equal; field; auto. Qed.
Lemma gc_gamma_pos : forall m mu ppar n, 0 < m -> 0 <= mu -> 0 <= n -> 0 < gamma_ppar m mu ppar n.
Proof. intros m mu ppar n M MU N. destruct (gamma_ppar_sq m mu ppar n M MU N). lra. Qed.

Lemma gceom_energy : forall m q D E ald Y b t,
  let n := norm (Bvec D) in let y := Y t in let yd := gceom m q D E ald y in
  let gamma := gamma_ppar m (y 4%nat) (y 3%nat) n in
  follows Y b t D yd -> 0 < m -> q <> 0 -> y 0%nat <> 0 -> 0 < n -> 0 <= y 4%nat ->
  dot (vscal (/ n) (Bvec D)) (Bstar q (y 3%nat) D (y 0%nat)) <> 0 ->
  Dx (fun s => Ekin_ppar m (Y s 4%nat) (Y s 3%nat) (norm (b s))) t
     (q * dot E (velocity (y 0%nat) yd) - ald * ald_force_chartime q m n gamma * (2 * y 4%nat * n / (m * CONST_C2)) * (gamma * m * CONST_C2)).
Proof.
  intros m q D E ald Y b t n y yd gamma F M Q R0 N MU P.
  pose proof (gc_gamma_pos m (y 4%nat) (y 3%nat) n M MU (Rlt_le _ _ N)) as G. fold gamma in G.
  unfold yd, gceom in *. rewrite norm_dot in *. fold n gamma in F |- *. rewrite Estar_is in * by lra.
  apply (energy_rate m q D (Bstar q (y 3%nat) D (y 0%nat)) E ald Y b t); auto.
Qed.
Lemma gceom_mhd_energy : forall m q D E K ald Y b t,
  let n := norm (Bvec D) in let y := Y t in let yd := gceom_mhd m q D E K ald y in
  let gamma := gamma_ppar m (y 4%nat) (y 3%nat) n in
  let Et := vsub (vsub E (V (K 7%nat) (K 8%nat) (K 9%nat))) (vscal (K 1%nat) (Bvec D)) in
  follows Y b t D yd -> 0 < m -> q <> 0 -> y 0%nat <> 0 -> 0 < n -> 0 <= y 4%nat ->
  dot (vscal (/ n) (Bvec D)) (Bstar_mhd q (y 3%nat) D K (y 0%nat)) <> 0 ->
  Dx (fun s => Ekin_ppar m (Y s 4%nat) (Y s 3%nat) (norm (b s))) t
     (q * dot Et (velocity (y 0%nat) yd) - ald * ald_force_chartime q m n gamma * (2 * y 4%nat * n / (m * CONST_C2)) * (gamma * m * CONST_C2)).
Proof.
  intros m q D E K ald Y b t n y yd gamma Et F M Q R0 N MU P.
  pose proof (gc_gamma_pos m (y 4%nat) (y 3%nat) n M MU (Rlt_le _ _ N)) as G. fold gamma in G.
  unfold yd, gceom_mhd in *. rewrite norm_dot in *. fold n gamma in F |- *. rewrite Estar_mhd_is in * by lra. fold Et in F |- *.
  apply (energy_rate m q D (Bstar_mhd q (y 3%nat) D K (y 0%nat)) Et ald Y b t); auto.
Qed.

(** ** Toroidal canonical momentum in an axisymmetric field *)
Definition axisymmetric (D : nat -> R) (r psi_r psi_z : R) : Prop :=
  D 2%nat = 0 /\ D 6%nat = 0 /\ D 10%nat = 0 /\ D 0%nat = - psi_z / r /\ D 8%nat = psi_r / r.
Lemma pphi_algebra : forall bphi (Bs Es b : vec) k, vy b = bphi -> dot b Bs <> 0 ->
  let v := vscal (/ dot b Bs) (vadd (vscal k Bs) (cross Es b)) in
  vz Bs * vx v - vx Bs * vz v + dot Bs Es / dot b Bs * bphi = vy Es.
Proof.
  intros bphi Bs Es b k <- P v. unfold v. set (d := dot b Bs) in *.
  assert (DD : d = dot b Bs) by reflexivity. clearbody d. destruct Bs as [c1 c2 c3], Es as [e1 e2 e3], b as [b1 b2 b3]. vunf.
  transitivity (e2 * (b1 * c1 + b2 * c2 + b3 * c3) / d); [field; auto|]. rewrite <- DD. field. auto.
Qed.
Lemma gceom_pphi : forall m q D E Y b psi t psi_r psi_z,
  let n := norm (Bvec D) in let y := Y t in let yd := gceom m q D E 0 y in
  follows Y b t D yd -> Dx psi t (psi_r * yd 0%nat + psi_z * yd 2%nat) -> axisymmetric D (y 0%nat) psi_r psi_z ->
  0 < m -> q <> 0 -> y 0%nat <> 0 -> 0 < n -> 0 <= y 4%nat ->
  dot (vscal (/ n) (Bvec D)) (Bstar q (y 3%nat) D (y 0%nat)) <> 0 ->
  Dx (fun s => ptoroid_gc q (Y s 0%nat) (Y s 3%nat) (psi s) (norm (b s)) (vy (b s))) t (q * (y 0%nat * vy E)).
Proof.
  intros m q D E Y b psi t psi_r psi_z n y yd F DP (A2 & A6 & A10 & A0 & A8) M Q R0 N MU P.
  pose proof (gc_gamma_pos m (y 4%nat) (y 3%nat) n M MU (Rlt_le _ _ N)) as G.
  destruct F as (FY & BT & D1 & D2 & D3). pose proof (follows_norm Y b t D yd (conj FY (conj BT (conj D1 (conj D2 D3)))) R0 N) as DN.
  assert (NT : norm (b t) = n) by (unfold n; now rewrite BT). assert (BP : vy (b t) = D 4%nat) by (now rewrite BT).
  pose proof (FY 0%nat ltac:(lia)) as F0. pose proof (FY 3%nat ltac:(lia)) as F3.
  unfold ptoroid_gc. eapply d_eq.
  - eapply d_plus; [eapply d_mult; [eapply d_mult; [exact F3|exact F0]|eapply d_div; [exact D2|exact DN|rewrite NT; lra]]|].
    eapply d_mult; [apply d_const|exact DP].
  - cbv beta. rewrite NT, BP. fold y in R0 |- *.
    pose proof (velocity_is m q D (Bstar q (y 3%nat) D (y 0%nat)) E 0 Y t M R0 N MU P) as VI. cbv zeta in VI. fold y n in VI. fold (gamma_ppar m (y 4%nat) (y 3%nat) n) in VI.
    set (gamma := gamma_ppar m (y 4%nat) (y 3%nat) n) in *.
    assert (ES : Estar q (y 4%nat) gamma E D (y 0%nat) = vsub E (vscal (y 4%nat / (q * gamma)) (gradB D (y 0%nat)))) by (apply Estar_is; lra).
    assert (YD : eom m q D (Bstar q (y 3%nat) D (y 0%nat)) (vsub E (vscal (y 4%nat / (q * gamma)) (gradB D (y 0%nat)))) 0 y = yd).
    { unfold yd, gceom. rewrite norm_dot. fold n gamma. now rewrite ES. }
    rewrite YD in VI.
    pose proof (pphi_algebra (vy (vscal (/ n) (Bvec D))) (Bstar q (y 3%nat) D (y 0%nat)) (vsub E (vscal (y 4%nat / (q * gamma)) (gradB D (y 0%nat)))) (vscal (/ n) (Bvec D)) (y 3%nat / (gamma * m)) eq_refl P) as K.
    cbv zeta in K. rewrite <- VI in K.
    assert (Y3 : yd 3%nat = q * (dot (Bstar q (y 3%nat) D (y 0%nat)) (vsub E (vscal (y 4%nat / (q * gamma)) (gradB D (y 0%nat)))) / dot (vscal (/ n) (Bvec D)) (Bstar q (y 3%nat) D (y 0%nat)))).
    { rewrite <- YD. unfold eom. cbv zeta. rewrite norm_dot. rewrite (hat_is D). fold n. unfold Rdiv. ring. }
    rewrite Y3. set (X := dot (Bstar _ _ _ _) (vsub _ _) / _) in *.
    unfold velocity, gradB, Bstar, curlB in K |- *. rewrite norm_dot in *. fold n in K |- *. unfold Bvec, vsub, vscal, cross, dot in K |- *. cbn [vx vy vz] in K |- *.
    unfold gradB, Bvec in K. cbv zeta in K. rewrite norm_dot in K. cbn [vx vy vz] in K. change (norm (V (D 0%nat) (D 4%nat) (D 8%nat))) with n in K |- *.
    rewrite A2, A6, A10 in *. clearbody X n. set (y0 := y 0%nat) in *. set (y3 := y 3%nat) in *. set (u := yd 0%nat) in *. set (w := yd 2%nat) in *. set (p := yd 1%nat) in *. set (e := vy E) in *.
    assert (K2 : q * y0 * e = q * y0 * (e - y 4%nat / (q * gamma) * ((D 0%nat * 0 + D 4%nat * 0 + D 8%nat * 0) / (n * y0)))) by (field; repeat split; lra).
    replace (q * (y0 * e)) with (q * y0 * e) by ring. rewrite K2, <- K.
    assert (PR : psi_r = y0 * D 8%nat) by (rewrite A8; field; auto). assert (PZ : psi_z = - (y0 * D 0%nat)) by (rewrite A0; field; auto).
    rewrite PR, PZ. clear -Q R0 N. clearbody y0 y3 u w p. field. repeat split; lra.
Qed.
