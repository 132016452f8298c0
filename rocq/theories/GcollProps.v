(** Properties of the guiding-centre collision steps (src/simulate/mccc). *)
From Coq Require Import Reals Lra Lia ZArith List Bool.
From Verif Require Import Vec ErrorModel Deriv PhysModel PhysProofs StepFoModel StepFoProofs GcModel Erf CollModel CollProofs GcollProofs CollProps.
Import ListNotations.
Local Open Scope R_scope.

(** C50. *)
Theorem gcoll_reflect_speed : forall c v, c <= reflect_v c v /\ reflect_v c v = c + Rabs (v - c).
Proof. exact reflect_v_spec. Qed.
Print Assumptions gcoll_reflect_speed.
Theorem gcoll_reflect_pitch : forall x, (-1 <= reflect_xi x <= 1 <-> -3 <= x <= 3) /\ (-1 <= x <= 1 -> reflect_xi x = x) /\ (1 < x -> reflect_xi x = 2 - x) /\ (x < -1 -> reflect_xi x = - 2 - x).
Proof. exact reflect_xi_spec. Qed.
Print Assumptions gcoll_reflect_pitch.
Theorem gcoll_displacement : forall DX B x dW, B <> vzero -> 0 <= DX ->
  dot B (vsub (gc_shift DX B x dW) x) = 0 /\
  (forall e, dot e (vsub (gc_shift DX B x dW) x) = sqrt (2 * DX) * dot (vsub e (vscal (dot e (unit B)) (unit B))) dW).
Proof. exact shift_law. Qed.
Print Assumptions gcoll_displacement.
Theorem gcoll_displacement_cov : forall DX n e e', dot n n = 1 -> 0 <= DX ->
  dot (vscal (sqrt (2 * DX)) (vsub e (vscal (dot e n) n))) (vscal (sqrt (2 * DX)) (vsub e' (vscal (dot e' n) n))) = 2 * DX * (dot e e' - dot e n * dot e' n).
Proof. exact shift_cov. Qed.
Print Assumptions gcoll_displacement_cov.
Section gc.
Variables (evalFlow : R -> R -> R -> R -> R -> Z * R) (evalPlasma : R -> R -> R -> R -> R -> Z * list psp) (evalBdB : R -> R -> R -> R -> Z * (nat -> R))
  (evalPsi : R -> R -> R -> R -> Z * R) (evalRho : R -> Z * R) (evalAxis : R -> Z * (R * R)).
Notation arrive := (gc_arrive evalBdB evalPsi evalRho evalAxis).
Notation arrived := (arrived evalBdB evalPsi evalRho).
Notation euler := (mccc_gc_euler evalFlow evalPlasma evalBdB evalPsi evalRho evalAxis).
Notation milstein := (mccc_gc_milstein evalFlow evalPlasma evalBdB evalPsi evalRho evalAxis).
Theorem gcoll_arrival : forall p h vf vout xiout x, grun p = true -> 0 < gy p 0%nat -> 0 < gmass p -> Rabs vout < CONST_C ->
  let q := arrive p h vf vout xiout (gpos p) x in
  (exists e, e <> 0%Z /\ flagged p q e) \/
  (arrived p q h vf vout xiout x /\ exists e a, evalAxis (gy p 1%nat) = (e, a) /\ (e = 0%Z /\ grun q = true /\ gerr q = gerr p \/ e <> 0%Z /\ grun q = false /\ gerr q = e)).
Proof. exact (arrive_spec evalBdB evalPsi evalRho evalAxis). Qed.
Section step.
Variables (p : gcm) (vf : R) (sp : list psp).
Hypotheses (RUN : grun p = true) (RP : 0 < gy p 0%nat) (M : 0 < gmass p).
Hypothesis HF : evalFlow (grho p) (gy p 0%nat) (gy p 1%nat) (gy p 2%nat) (gtime p) = (0%Z, vf).
Hypothesis HP : evalPlasma (grho p) (gy p 0%nat) (gy p 1%nat) (gy p 2%nat) (gtime p) = (0%Z, sp).
Notation e_v := (e_v p vf). Notation e_xi := (e_xi p vf). Notation e_K := (e_K p vf sp). Notation e_D := (e_D p vf sp). Notation e_dD := (e_dD p vf sp). Notation e_dQ := (e_dQ p vf sp).
Notation e_nu := (e_nu p vf sp). Notation e_B := (e_B p). Notation e_cut := (e_cut p sp). Notation e_cl := (e_cl p vf sp).
Theorem gcoll_state : forall q h vout xi x, arrived p q h vf vout xi x -> 0 < vout < CONST_C -> 0 < norm (Bvec (gB q)) ->
  let m := gmass p in let w := gy q 3%nat - gamma_vnorm vout * m * vf in let B := norm (Bvec (gB q)) in
  (0 <= gy q 4%nat <-> -1 <= xi <= 1) /\ w * w + 2 * m * gy q 4%nat * B = pnorm_vnorm m vout * pnorm_vnorm m vout /\
  (-1 <= xi <= 1 -> vnorm_pnorm m (gc_p m (gy q 4%nat) w B) = vout /\ gc_xi m (gy q 4%nat) w B = xi).
Proof. exact (arrived_state evalBdB evalPsi evalRho p vf M). Qed.
Theorem gcoll_euler_step : forall sw h rnd q, euler sw h rnd p = Some q -> 0 <= gy p 4%nat -> 0 < e_cut -> e_B <> vzero ->
  (exists e, e <> 0%Z /\ flagged p q e) \/
  exists vout xiout, arrived p q h vf vout xiout (gpos q) /\ 0 < vout < CONST_C /\
    dot e_B (vsub (gpos q) (gpos p)) = 0 /\ (include_gcdiff sw = false -> gpos q = gpos p) /\
    (if include_energy sw then e_cut <= vout /\ vout = e_cut + Rabs (e_v + e_K * h + sqrt (2 * e_D) * (sqrt h * rnd 3%nat) - e_cut) else vout = e_v) /\
    (if include_pitch sw then let raw := e_xi - e_xi * e_nu * h + sqrt ((1 - e_xi * e_xi) * e_nu) * (sqrt h * rnd 4%nat) in xiout = reflect_xi raw /\ (0 < norm (Bvec (gB q)) -> (0 <= gy q 4%nat <-> -3 <= raw <= 3))
     else xiout = e_xi).
Proof. exact (euler_step evalFlow evalPlasma evalBdB evalPsi evalRho evalAxis p vf sp RUN RP M HF HP). Qed.
Theorem gcoll_euler_fails : forall sw h rnd, 0 <= gy p 4%nat -> gcharge p <> 0 -> 0 < norm (Bvec (gB p)) -> e_v <> 0 -> 0 <= h -> sp <> [] -> Forall (fun s => sp_ok s /\ s_q s <> 0 /\ 0 < e_cl s) sp ->
  (euler sw h rnd p = None <-> include_energy sw = true /\ CONST_C <= reflect_v e_cut (e_v + e_K * h + sqrt (2 * e_D) * (sqrt h * rnd 3%nat))).
Proof. exact (euler_runs evalFlow evalPlasma evalBdB evalPsi evalRho evalAxis p vf sp RUN M HF HP). Qed.
Theorem gcoll_idle : forall sw h rnd q, euler sw h rnd p = Some q -> 0 <= gy p 4%nat -> e_cut <= e_v ->
  h = 0 \/ include_energy sw = false /\ include_pitch sw = false /\ include_gcdiff sw = false ->
  (exists e, e <> 0%Z /\ flagged p q e) \/
  (gpos q = gpos p /\ (0 < norm (Bvec (gB p)) -> norm (Bvec (gB q)) = norm (Bvec (gB p)) ->
    gy q 4%nat = gy p 4%nat /\
    gy q 3%nat - gy p 3%nat = (gamma_pnorm (gmass p) (gc_pin p vf) - gamma_ppar (gmass p) (gy p 4%nat) (gy p 3%nat) (norm (Bvec (gB p)))) * gmass p * vf)).
Proof. exact (euler_idle evalFlow evalPlasma evalBdB evalPsi evalRho evalAxis p vf sp RUN RP M HF HP). Qed.
(** finding: with a plasma flow the identity step shifts the parallel momentum *)
Theorem gcoll_idle_flow : forall sw h rnd q, euler sw h rnd p = Some q -> 0 <= gy p 4%nat -> e_cut <= e_v ->
  h = 0 \/ include_energy sw = false /\ include_pitch sw = false /\ include_gcdiff sw = false -> grun q = true ->
  0 < norm (Bvec (gB p)) -> norm (Bvec (gB q)) = norm (Bvec (gB p)) ->
  (gy q 3%nat = gy p 3%nat <-> vf = 0 \/ gc_pin p vf = gc_p (gmass p) (gy p 4%nat) (gy p 3%nat) (norm (Bvec (gB p)))).
Proof. exact (euler_idle_iff evalFlow evalPlasma evalBdB evalPsi evalRho evalAxis p vf sp RUN RP M HF HP). Qed.
Theorem gcoll_milstein_step : forall sw hin ha tol dW q hout nu', milstein sw hin ha tol 0%Z dW p = Some (q, hout, nu') -> 0 <= gy p 4%nat -> 0 < e_cut -> e_B <> vzero ->
  nu' = e_nu /\
  hout = milstein_hout hin (kappa_k tol e_v e_K e_dQ e_D e_xi e_nu ha) (kappa_d0 tol e_v e_K e_D e_dD ha (dW 3%nat)) (kappa_d1 tol e_xi e_nu ha (dW 4%nat)) /\
  ((exists e, e <> 0%Z /\ flagged p q e) \/
   exists vout xiout, arrived p q ha vf vout xiout (gpos q) /\ 0 < vout < CONST_C /\
    dot e_B (vsub (gpos q) (gpos p)) = 0 /\ (include_gcdiff sw = false -> gpos q = gpos p) /\
    (if include_energy sw then e_cut <= vout /\ vout = e_cut + Rabs (milstein_v e_v e_K e_D e_dD ha (dW 3%nat) - e_cut) else vout = e_v) /\
    (if include_pitch sw then let raw := milstein_xi e_xi e_nu ha (dW 4%nat) in xiout = reflect_xi raw /\ (0 < norm (Bvec (gB q)) -> (0 <= gy q 4%nat <-> -3 <= raw <= 3))
     else xiout = e_xi)).
Proof. exact (milstein_step evalFlow evalPlasma evalBdB evalPsi evalRho evalAxis p vf sp RUN RP M HF HP). Qed.
End step.
End gc.
Print Assumptions gcoll_arrival.
Print Assumptions gcoll_state.
Print Assumptions gcoll_euler_step.
Print Assumptions gcoll_euler_fails.
Print Assumptions gcoll_idle.
Print Assumptions gcoll_idle_flow.
Print Assumptions gcoll_milstein_step.
Example reflect_example : reflect_xi 1.2 = 0.8 /\ reflect_xi (-1.2) = -0.8 /\ reflect_xi 3.5 = -1.5 /\ gc_mu 1 1 (reflect_xi 3.5) 1 < 0 /\ reflect_v 2 (-5) = 9.
Proof.
  destruct (reflect_xi_spec 1.2) as (_ & _ & A & _). destruct (reflect_xi_spec (-1.2)) as (_ & _ & _ & B). destruct (reflect_xi_spec 3.5) as (_ & _ & C & _).
  rewrite A, B, C by lra. unfold gc_mu, reflect_v. destruct (Rlt_dec (-5) 2); [|lra]. repeat split; lra.
Qed.
(** a marker at rest in the laboratory, plasma flow 1 m/s, all effects off: it starts to move *)
Definition gstill := Gcm (fun j => if Nat.eqb j 0 then 1 else 0) 0 1 CONST_E0 (fun j => if Nat.eqb j 4 then 1 else 0) 0 0 0 true.
Example flow_pushes : forall rnd, exists q,
  mccc_gc_euler (fun _ _ _ _ _ => (0%Z, 1)) (fun _ _ _ _ _ => (0%Z, gas)) (fun _ _ _ _ => (0%Z, fun j => if Nat.eqb j 4 then 1 else 0)) (fun _ _ _ _ => (0%Z, 0)) (fun _ => (0%Z, 0)) (fun _ => (0%Z, (2, 0)))
    (SW false false false) 1 rnd gstill = Some q /\ grun q = true /\ gy gstill 3%nat = 0 /\ gy q 3%nat <> 0.
Proof.
  intros rnd. set (ef := fun _ _ _ _ _ => (0%Z, 1)). set (ep := fun _ _ _ _ _ => (0%Z, gas)). set (eb := fun _ _ _ _ => (0%Z, fun j => if Nat.eqb j 4 then 1 else 0)). set (es := fun _ _ _ _ => (0%Z, 0)). set (er := fun _ => (0%Z, 0)). set (ea := fun _ => (0%Z, (2, 0))).
  pose proof C_pos as CP. assert (C2 : 0 < CONST_C2) by (unfold CONST_C2; nra). assert (E0 : CONST_E0 <> 0) by (unfold CONST_E0; lra). pose proof PI_RGT_0 as PP.
  assert (N1 : norm (Bvec (gB gstill)) = 1) by (unfold norm, Bvec, gstill; cbn; replace (0 * 0 + 1 * 1 + 0 * 0) with 1 by ring; apply sqrt_1).
  assert (PF : gc_ppar_flow gstill 1 = -1).
  { unfold gc_ppar_flow. rewrite N1. unfold gstill. cbn [gy gmass Nat.eqb]. unfold gamma_ppar. replace (1 + 2 * 0 * 1 / (1 * CONST_C2) + 0 * 0 / (1 * 1 * CONST_C2)) with 1 by (field; lra). rewrite sqrt_1. ring. }
  assert (PI0 : gc_pin gstill 1 = 1).
  { unfold gc_pin. rewrite PF, N1. unfold gstill. cbn [gy gmass Nat.eqb]. destruct (gc_p_sq 1 0 (-1) 1 ltac:(lra) ltac:(lra) ltac:(lra)) as [A B]. nra. }
  assert (EV : / 2 < e_v gstill 1 < CONST_C).
  { unfold e_v. rewrite PI0. cbn [gmass gstill]. split; [|pose proof (lorentz_below _ _ (vnorm_pnorm_lorentz 1 1 ltac:(lra))) as L; rewrite Rabs_pos_eq in L; auto].
    - unfold vnorm_pnorm. unfold Rdiv at 1. rewrite Rmult_1_l. assert (K : / CONST_C2 < 1). { rewrite <- Rinv_1. apply Rinv_lt_contravar; [lra|]. unfold CONST_C2. with_strategy 0 [CONST_C] (unfold CONST_C). lra. }
      assert (0 < / CONST_C2) by (now apply Rinv_0_lt_compat). replace (1 * 1 / CONST_C2) with (/ CONST_C2) by (field; lra). apply Rinv_lt_contravar; [apply Rmult_lt_0_compat; [apply sqrt_lt_R0; lra|lra]|]. rewrite <- (sqrt_square 2) by lra. apply sqrt_lt_1; lra.
    - unfold vnorm_pnorm. unfold Rdiv at 1. apply Rmult_le_pos; [lra|]. left. apply Rinv_0_lt_compat, sqrt_lt_R0. assert (0 < 1 * 1 / CONST_C2) by (apply Rdiv_lt_0_compat; lra). lra. }
  assert (D : debye gas = 1). { unfold debye, gas. cbn [fold_left s_n s_q s_T]. replace (CONST_E0 / (0 + CONST_E0 * 1 * 1 / 1)) with 1 by (field; exact E0). apply sqrt_1. }
  assert (OK : Forall (fun s => sp_ok s /\ s_q s <> 0 /\ 0 < e_cl gstill 1 gas s) gas).
  { constructor; [|constructor]. split; [unfold sp_ok, CONST_E0; cbn; lra|]. split; [cbn; lra|]. unfold e_cl. apply clog_max; [rewrite D; lra|cbn; lra|unfold sp_ok, CONST_E0; cbn; lra|]. rewrite D. set (v := e_v gstill 1) in *. clearbody v. assert (V2 : 0 <= v * v) by nra. split.
    - unfold bcl, gstill. cbn [gmass gcharge s_q s_m s_T]. pose proof PI2_1 as P21. replace (CONST_E0 * 1 / (4 * PI * CONST_E0 * (1 * 1 / (1 + 1)) * (v * v + 2 * 1 / 1))) with (/ (2 * PI * (v * v + 2))) by (field; repeat split; first [exact E0|nra]).
      rewrite Rabs_pos_eq by (left; apply Rinv_0_lt_compat; nra). rewrite <- Rinv_1. apply Rinv_lt_contravar; nra.
    - unfold bqm, gstill. cbn [gmass s_m s_T]. assert (S1 : 1 <= sqrt (v * v + 2 * 1 / 1)) by (rewrite <- sqrt_1 at 1; apply sqrt_le_1_alt; lra). set (k := sqrt (v * v + 2 * 1 / 1)) in *. clearbody k.
      replace (CONST_HBAR / (2 * (1 * 1 / (1 + 1)) * k)) with (CONST_HBAR * / k) by (field; lra). assert (0 < / k <= 1) by (split; [apply Rinv_0_lt_compat; lra|rewrite <- Rinv_1; apply Rinv_le_contravar; lra]).
      assert (0 < CONST_HBAR < / 2) by (unfold CONST_HBAR; lra). rewrite Rabs_pos_eq by nra. nra. }
  destruct (mccc_gc_euler ef ep eb es er ea (SW false false false) 1 rnd gstill) as [q|] eqn:H.
  2:{ pose proof (gcoll_euler_fails ef ep eb es er ea gstill 1 gas eq_refl ltac:(cbn; lra) eq_refl eq_refl (SW false false false) 1 rnd ltac:(cbn; lra) E0 ltac:(rewrite N1; lra) ltac:(lra) ltac:(lra) ltac:(discriminate) OK) as X. apply X in H. destruct H as [H _]. discriminate H. }
  exists q. split; [reflexivity|].
  destruct (euler_is ef ep eb es er ea gstill 1 gas eq_refl eq_refl eq_refl _ _ _ _ H) as (_ & _ & _ & _ & _ & Q). cbn [include_energy include_pitch include_gcdiff] in Q.
  assert (RQ : grun q = true) by (rewrite Q; reflexivity). split; [exact RQ|]. split; [reflexivity|]. intros Z.
  assert (I : 1 = 0 \/ gc_pin gstill 1 = gc_p (gmass gstill) (gy gstill 4%nat) (gy gstill 3%nat) (norm (Bvec (gB gstill)))).
  { apply (gcoll_idle_flow ef ep eb es er ea gstill 1 gas) with (sw := SW false false false) (h := 1) (rnd := rnd) (q := q); try reflexivity; try (cbn; lra); auto.
    - unfold e_cut, gas. cbn [s_T gmass gstill]. unfold MCCC_CUTOFF. replace (1 / 1) with 1 by field. rewrite sqrt_1. lra.
    - rewrite N1. lra.
    - rewrite Q. reflexivity. }
  destruct I as [I|I]; [lra|]. rewrite PI0, N1 in I. cbn [gmass gstill gy Nat.eqb] in I. destruct (gc_p_sq 1 0 0 1 ltac:(lra) ltac:(lra) ltac:(lra)) as [A B]. rewrite <- I in A. lra.
Qed.

(** C80. *)
Theorem milstein_correction_speed : forall ma qa cl sp v, 0 < ma -> Forall sp_ok sp -> 0 < v -> 0 < acc (Dpara_of ma qa cl v) sp ->
  exists b', Dx (fun u => sqrt (2 * acc (Dpara_of ma qa cl u) sp)) v b' /\ forall K h dW,
    milstein_v v K (acc (Dpara_of ma qa cl v) sp) (acc (dDpara_of ma qa cl v) sp) h dW =
    v + K * h + sqrt (2 * acc (Dpara_of ma qa cl v) sp) * dW + / 2 * (sqrt (2 * acc (Dpara_of ma qa cl v) sp) * b') * (dW * dW - h).
Proof. exact milstein_correct_v. Qed.
Print Assumptions milstein_correction_speed.
Theorem milstein_correction_pitch : forall nu xi, 0 < nu -> -1 < xi < 1 ->
  exists b', Dx (fun y => sqrt ((1 - y * y) * nu)) xi b' /\ forall h dW,
    milstein_xi xi nu h dW = xi - xi * nu * h + sqrt ((1 - xi * xi) * nu) * dW + / 2 * (sqrt ((1 - xi * xi) * nu) * b') * (dW * dW - h).
Proof. exact milstein_correct_xi. Qed.
Print Assumptions milstein_correction_pitch.
Theorem milstein_step_control : forall h kk kd0 kd1, 0 < h -> 0 <= kk -> 0 <= kd0 -> 0 <= kd1 ->
  (kk <= 1 /\ kd0 <= 1 /\ kd1 <= 1 -> exists h', milstein_hout h kk kd0 kd1 = Fin h' /\ 0.8 * h <= h' <= 1.5 * h) /\
  (1 < kk \/ 1 < kd0 \/ 1 < kd1 -> exists h', milstein_hout h kk kd0 kd1 = Fin (- h') /\ 0 < h' < 0.9 * h).
Proof. exact mil_hout. Qed.
Print Assumptions milstein_step_control.
Theorem milstein_errors_nonneg : forall tol v K dQ Dpara dDpara xi nu h dW3 dW4, 0 < tol -> 0 <= v -> 0 <= h -> 0 <= nu ->
  0 <= kappa_k tol v K dQ Dpara xi nu h /\ 0 <= kappa_d0 tol v K Dpara dDpara h dW3 /\ 0 <= kappa_d1 tol xi nu h dW4.
Proof. exact kappas_nonneg. Qed.
Print Assumptions milstein_errors_nonneg.
Example hout_example : milstein_hout 1 0 0 0 = Fin (1.5 * 1) /\ milstein_hout 1 4 1 1 = Fin (- (0.4)).
Proof.
  unfold milstein_hout, ge, gt1. split.
  - destruct (Rle_dec 0 0); [|lra]. cbn [andb]. destruct (Req_EM_T 0 0); [|lra]. destruct (Rlt_dec 1 0); [lra|]. reflexivity.
  - destruct (Rle_dec 1 4); [|lra]. cbn [andb]. destruct (Req_EM_T 4 0); [lra|]. destruct (Rlt_dec 1 4); [|lra]. cbn [orb eopp]. f_equal. replace 4 with (2 * 2) by ring. rewrite sqrt_square by lra. lra.
Qed.
