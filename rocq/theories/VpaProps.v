(** C118: the full-orbit step can be undone and preserves phase-space volume. *)
From Coq Require Import Reals ZArith List Bool Lra Lia Psatz.
Import ListNotations.
From Verif Require Import Deriv Vec PhysModel PhysProofs StepFoModel StepFoProofs VpaProofs.
Local Open Scope R_scope.

(** ** Volume *)
(** the momentum update at a fixed position has a derivative everywhere, and its determinant is one *)
Theorem fo_kick_preserves_volume : forall q m h E B p, 0 < m -> exists J, derivative (boris q m h E B) p J /\ determinant J = 1.
Proof. exact kick_volume. Qed.
Print Assumptions fo_kick_preserves_volume.
(** half a step with a fixed momentum is a translation *)
Theorem fo_drift_preserves_volume : forall m h p x a, drift m h p (vadd x a) = vadd (drift m h p x) a.
Proof. exact drift_volume. Qed.
Print Assumptions fo_drift_preserves_volume.

(** ** Going back *)
(** one step, the clock set forward, and the same step backwards: position, cumulative angle and momentum are restored *)
Theorem fo_step_undone : forall fields evalBdB evalPsi evalRho evalAxis h p q p',
  frun p = true -> 0 < fr p -> 0 < fmass p -> fo_step fields evalBdB evalPsi evalRho evalAxis h 0 p = Some q -> frun q = true -> 0 < fr q -> fphi q - fphi p <> PI ->
  fo_step fields evalBdB evalPsi evalRho evalAxis (- h) 0 (at_time (ftime p + h) q) = Some p' -> frun p' = true ->
  fr p' = fr p /\ fphi p' = fphi p /\ fz p' = fz p /\ fp p' = fp p /\ fmass p' = fmass p /\ fcharge p' = fcharge p.
Proof. exact step_back. Qed.
Print Assumptions fo_step_undone.
(** any number of steps of any lengths in any fields, also time-dependent ones, and the same steps backwards in reverse order *)
Theorem fo_run_undone : forall fields evalBdB evalPsi evalRho evalAxis hs p q p', 0 < fmass p ->
  regular fields evalBdB evalPsi evalRho evalAxis hs p -> steps fields evalBdB evalPsi evalRho evalAxis hs p = Some q -> frun q = true ->
  steps fields evalBdB evalPsi evalRho evalAxis (rev (map Ropp hs)) q = Some p' -> frun p' = true ->
  fr p' = fr p /\ fphi p' = fphi p /\ fz p' = fz p /\ ftime p' = ftime p /\ fmass p' = fmass p /\ fcharge p' = fcharge p /\ fp p' = fp p.
Proof. exact steps_back. Qed.
Print Assumptions fo_run_undone.

(** ** Examples *)
(** for the field B = (0, 0, 1) *)
Definition xf (r phi z t : R) : Z * vec * vec := (0%Z, V 0 0 1, vzero).
Definition xb (r phi z t : R) : Z * (nat -> R) := (0%Z, fun i => if Nat.eqb i 8 then 1 else 0).
Definition xstep := fo_step xf xb (fun _ _ _ _ => (0%Z, 0)) (fun _ => (0%Z, 0)) (fun _ => (0%Z, (0, 0))).
Lemma xstep_runs h p : frun p = true -> 0 < fmass p -> fp p <> vzero -> exists q, xstep h 0 p = Some q /\ frun q = true.
Proof.
  intros RUN M NZ. unfold xstep, fo_step, xf, xb. rewrite RUN. cbv zeta. cbn [Z.eqb]. cbn [frun fr fphi fz ftime fmass fcharge fp fB ferr frho ftheta]. unfold ald. cbv zeta. destruct (Req_EM_T _ _) as [E|_].
  - exfalso. match type of E with norm ?b * _ * norm ?v = 0 => assert (NB : norm b = 1) end.
    { unfold norm. cbn. replace (0 * 0 + 0 * 0 + 1 * 1) with 1 by ring. apply sqrt_1. }
    rewrite NB, !Rmult_1_l in E. revert E. match goal with |- norm (V (vx ?b * cos ?a + _) _ _) = 0 -> _ => set (an := a); set (w := b) end. clearbody an. intros E. apply norm_zero in E.
    assert (W : norm w = norm (fp p)).
    { unfold w. match goal with |- norm (boris ?q ?m ?h (to_xyz vzero ?c) ?B ?v) = _ => rewrite (to_xyz_zero c); destruct (boris_noE q m h B v M) as [Q _]; rewrite (norm_eq _ _ Q) end. apply (cart_p_norm p). }
    clearbody w. apply NZ. apply norm_zero. rewrite <- W. apply norm_zero. destruct w as [w1 w2 w3]. unfold vzero in *. cbn [vx vy vz] in E. injection E as A1 A2 A3. pose proof (trig1 an) as T. set (c := cos an) in *. set (s := sin an) in *. clearbody c s.
    f_equal; [| |exact A3].
    + transitivity (w1 * (s * s + c * c)); [rewrite T; ring|]. transitivity (c * (w1 * c + w2 * s) - s * (- w1 * s + w2 * c)); [ring|]. rewrite A1, A2. ring.
    + transitivity (w2 * (s * s + c * c)); [rewrite T; ring|]. transitivity (s * (w1 * c + w2 * s) + c * (- w1 * s + w2 * c)); [ring|]. rewrite A1, A2. ring.
  - eexists. split; reflexivity.
Qed.
(** along the field *)
Definition xm (z t : R) (p : fom) : Prop := frun p = true /\ fr p = 2 /\ fphi p = 0 /\ fz p = z /\ ftime p = t /\ fmass p = 1 /\ fcharge p = 1 /\ fp p = V 0 0 1.
Lemma xm_step h z t p : xm z t p -> exists q z', xstep h 0 p = Some q /\ xm z' t q.
Proof.
  intros (A1 & A2 & A3 & A4 & A5 & A6 & A7 & A8). destruct (xstep_runs h p A1) as (q & ST & RQ); [lra|rewrite A8; unfold vzero; intros H; injection H; lra|]. exists q, (vz (cart_x q)). split; [exact ST|].
  destruct (fo_exact _ _ _ _ _ h p q A1 ltac:(lra) ST RQ) as (B & E & F & CP & CX & PH & TQ & MQ & QQ & FR). unfold xf in F. injection F as <- <-.
  assert (PP : cart_p p = V 0 0 1) by (unfold cart_p; rewrite A8; cbn [vx vy vz]; f_equal; ring).
  assert (XX : cart_x p = V 2 0 z) by (unfold cart_x; rewrite A2, A3, A4, cos_0, sin_0; f_equal; ring).
  assert (BP : forall q m h, 0 < m -> boris q m h vzero (V 0 0 1) (V 0 0 1) = V 0 0 1).
  { intros q0 m h0 M. pose proof (mc_pos m M) as MC. rewrite boris_rot. cbv zeta. unfold rot, kick. set (d := angle _ _ _ _). clearbody d. set (k := 2 * d / _). clearbody k. set (sg := q0 * h0 / _). clearbody sg. set (mc := m * CONST_C) in *. vunf. f_equal; [ring|ring|]. field. lra. }
  rewrite to_xyz_zero, PP in CP. unfold to_xyz in CP. cbn [vx vy vz] in CP. rewrite !Rmult_0_l, Rminus_0_r, Rplus_0_r, BP in CP by lra.
  assert (CXv : vx (cart_x q) = 2 /\ vy (cart_x q) = 0).
  { rewrite CX, CP. unfold mid. rewrite PP, XX. unfold drift. cbv zeta. cbn [vx vy vz]. unfold Rdiv. split; ring. }
  destruct CXv as [X1 X2]. rewrite X1, X2, XX in PH. cbn [vx vy vz] in PH.
  assert (P0 : fphi q = 0). { rewrite PH, A3. unfold atan2. destruct (Rlt_dec 0 _) as [_|N]; [|exfalso; apply N; lra]. replace (_ / _) with 0 by field. rewrite atan_0. ring. }
  unfold xm. repeat split; try congruence.
  - rewrite FR, X1, X2. replace (2 * 2 + 0 * 0) with (2 * 2) by ring. apply sqrt_square. lra.
  - rewrite (of_cart q 0 (V 0 0 1) CP P0). cbn [vx vy vz]. f_equal; ring.
Qed.
Example demo_run : exists p q p', let st := steps xf xb (fun _ _ _ _ => (0%Z, 0)) (fun _ => (0%Z, 0)) (fun _ => (0%Z, (0, 0))) in
  regular xf xb (fun _ _ _ _ => (0%Z, 0)) (fun _ => (0%Z, 0)) (fun _ => (0%Z, (0, 0))) [1; 3] p /\ st [1; 3] p = Some q /\ frun q = true /\ ftime q = 4 /\ st [-3; -1] q = Some p' /\ frun p' = true /\ fz p' = fz p.
Proof.
  set (p := Fom 2 0 5 0 1 1 (V 0 0 1) (fun _ => 0) 0 0 0 true). assert (M0 : xm 5 0 p) by (repeat split).
  assert (NX : forall z t q h, xm z t q -> xm z (t + h) (at_time (ftime q + h) q)) by (intros z t q h (A1 & A2 & A3 & A4 & A5 & A6 & A7 & A8); unfold xm; cbn; rewrite A5; repeat split; assumption).
  destruct (xm_step 1 _ _ _ M0) as (q1 & z1 & S1 & M1). pose proof (NX _ _ _ 1 M1) as M1'. destruct (xm_step 3 _ _ _ M1') as (q2 & z2 & S2 & M2). pose proof (NX _ _ _ 3 M2) as M2'.
  destruct (xm_step (-3) _ _ _ M2') as (q3 & z3 & S3 & M3). pose proof (NX _ _ _ (-3) M3) as M3'. destruct (xm_step (-1) _ _ _ M3') as (q4 & z4 & S4 & M4). pose proof (NX _ _ _ (-1) M4) as M4'.
  assert (T0 : ftime q1 = ftime p) by (destruct M1 as (_ & _ & _ & _ & -> & _); reflexivity).
  assert (T1 : forall q z t s, xm z t q -> ftime (at_time s q) = s) by reflexivity.
  exists p, (at_time (ftime q2 + 3) q2), (at_time (ftime q4 + -1) q4). cbv zeta.
  assert (TT : ftime q2 = 0 + 1 /\ ftime q3 = 0 + 1 + 3 /\ ftime q4 = 0 + 1 + 3 + -3) by (destruct M2 as (_ & _ & _ & _ & -> & _), M3 as (_ & _ & _ & _ & -> & _), M4 as (_ & _ & _ & _ & -> & _); auto). destruct TT as (T2 & T3 & T4).
  assert (REG : regular xf xb (fun _ _ _ _ => (0%Z, 0)) (fun _ => (0%Z, 0)) (fun _ => (0%Z, (0, 0))) [1; 3] p).
  { cbn [regular]. split; [reflexivity|]. split; [cbn; lra|]. intros q Q. fold xstep in Q. rewrite S1 in Q. injection Q as <-. destruct M1 as (B1 & B2 & B3 & B4 & B5 & B6). pose proof PI_RGT_0. split; [rewrite B3; cbn; lra|].
    split; [exact B1|]. split; [cbn; lra|]. intros q Q. fold xstep in Q. rewrite T0 in *. rewrite S2 in Q. injection Q as <-. destruct M2 as (D1 & D2 & D3 & D4). split; [rewrite D3; cbn; lra|]. cbn. split; [exact D1|]. split; [lra|exact I]. }
  assert (FW : steps xf xb (fun _ _ _ _ => (0%Z, 0)) (fun _ => (0%Z, 0)) (fun _ => (0%Z, (0, 0))) [1; 3] p = Some (at_time (ftime q2 + 3) q2)).
  { cbn [steps]. fold xstep. rewrite S1. rewrite <- T0. rewrite S2. cbn [ftime at_time]. rewrite T0, T2. reflexivity. }
  assert (BW : steps xf xb (fun _ _ _ _ => (0%Z, 0)) (fun _ => (0%Z, 0)) (fun _ => (0%Z, (0, 0))) [-3; -1] (at_time (ftime q2 + 3) q2) = Some (at_time (ftime q4 + -1) q4)).
  { cbn [steps]. fold xstep. rewrite S3. cbn [ftime at_time]. rewrite T2. rewrite <- T3. rewrite S4. cbn [ftime at_time]. rewrite T3, T4. reflexivity. }
  assert (R4 : frun (at_time (ftime q4 + -1) q4) = true) by apply M4'. assert (R2 : frun (at_time (ftime q2 + 3) q2) = true) by apply M2'.
  split; [exact REG|]. split; [exact FW|]. split; [exact R2|]. split; [cbn; lra|]. split; [exact BW|]. split; [exact R4|].
  apply (fo_run_undone _ _ _ _ _ [1; 3] p _ _ ltac:(cbn; lra) REG FW R2); [|exact R4]. cbn [map rev app]. replace (- (3)) with (-3) by lra. exact BW.
Qed.
