From Coq Require Import Reals ZArith List Bool String Lra Lia Permutation.
Import ListNotations.
From Verif Require Import Vec PhysModel PhysProofs SimModel SimProofs AxisModel BfModel LwModel LwProofs RfModel.
Import Verif.Vec.
Local Open Scope string_scope.
Local Open Scope R_scope.

Lemma c2_pos : 0 < CONST_C2.
Proof. unfold CONST_C2. apply Rmult_lt_0_compat; exact C_pos. Qed.
Section kick.
Context {Y Mem : Type} (eval_psi : R -> R -> R -> R -> option R) (junk : R).
Notation gc := (marker (rest Y)).
Notation look := (look eval_psi junk).
Notation rf_slot := (rf_slot eval_psi junk).
Notation rf_all := (rf_all eval_psi junk).
Notation rf_module := (rf_module eval_psi junk).
Notation gca_rf_pass := (gca_rf_pass eval_psi junk).
(** the markers that take part *)
Definition heated (p : gc) : Prop := (0 < k_id p)%Z /\ k_run p = true.
Lemma heated_dec p : {heated p} + {~ heated p}.
Proof. unfold heated. destruct (Z_lt_dec 0 (k_id p)), (k_run p); (left; now auto) || (right; intros [? ?]; congruence || lia). Qed.
Lemma heated_test p : ((0 <? k_id p)%Z && k_run p)%bool = true <-> heated p.
Proof. unfold heated. rewrite andb_true_iff, Z.ltb_lt. tauto. Qed.
Lemma slot_idle (K : library Mem) p h m : ~ heated p -> rf_slot K p h m = (p, None, m).
Proof. intros H. unfold RfModel.rf_slot. destruct (_ && _)%bool eqn:E; [|reflexivity]. apply heated_test in E. contradiction. Qed.
Lemma slot_heated (K : library Mem) p h m v m' err dv dt : heated p -> K (k_time p) h (look p) m = (v, m', err, dv, dt) ->
  rf_slot K p h m = (Mk (k_time p) (k_mileage p) (k_cputime p) (v_phi v) (k_rho p) (k_id p) (k_err p) (k_run p)
     (Rest (v_R v) (v_z v) (x_ppar (k_rest p) + v_mass v * dv) (v_mu v) (v_mass v) (v_charge v) (v_weight v) (x_B (k_rest p)) (x_other (k_rest p))),
     Some (if (err =? 7)%Z then - dt else dt), m').
Proof. intros H E. unfold RfModel.rf_slot. apply heated_test in H. rewrite H, E. reflexivity. Qed.
(** what the kick never touches *)
Definition same_books (p q : gc) : Prop := k_time q = k_time p /\ k_mileage q = k_mileage p /\ k_cputime q = k_cputime p /\ k_rho q = k_rho p /\ k_id q = k_id p /\ k_err q = k_err p /\ k_run q = k_run p /\
  x_B (k_rest q) = x_B (k_rest p) /\ x_other (k_rest q) = x_other (k_rest p).
Lemma slot_books (K : library Mem) p h m : same_books p (fst (fst (rf_slot K p h m))).
Proof.
  destruct (heated_dec p) as [H|H].
  - destruct (K (k_time p) h (look p) m) as [[[[v m'] err] dv] dt] eqn:E. rewrite (slot_heated K p h m v m' err dv dt H E). repeat split.
  - rewrite slot_idle by exact H. repeat split.
Qed.
Theorem slots_independent compiled (K : library Mem) (l : list (slot Y Mem)) : List.length (rf_all compiled K l) = List.length l /\
  (forall l' i, nth_error l i = nth_error l' i -> nth_error (rf_all compiled K l) i = nth_error (rf_all compiled K l') i) /\
  (forall i s, nth_error l i = Some s -> exists s', nth_error (rf_all compiled K l) i = Some s' /\ same_books (s_p s) (s_p s') /\ s_hin s' = s_hin s /\ (compiled = false \/ ~ heated (s_p s) -> s' = s)).
Proof.
  unfold RfModel.rf_all. destruct compiled; [|repeat split; auto; intros i s H; exists s; repeat split; auto]. repeat split.
  - apply map_length.
  - intros l' i H. rewrite !nth_error_map, H. reflexivity.
  - intros i s H. rewrite nth_error_map, H. cbn [option_map]. eexists. split; [reflexivity|]. pose proof (slot_books K (s_p s) (s_hin s) (s_mem s)) as B.
    destruct (rf_slot K (s_p s) (s_hin s) (s_mem s)) as [[p ho] m] eqn:E. cbn [s_p s_hin fst] in *. split; [exact B|]. split; [reflexivity|].
    intros [X|X]; [discriminate|]. rewrite slot_idle in E by exact X. injection E as <- <- <-. now destruct s.
Qed.

(** ** What the library is told *)
Section view.
Context (p : gc).
Notation x := (k_rest p).
Notation B := (norm (x_B (k_rest p))).
Hypothesis M : 0 < x_mass x.
Hypothesis MU : 0 <= x_mu x.
Lemma muB : 0 <= 2 * x_mu x * B / x_mass x.
Proof. apply Rmult_le_pos; [|apply Rlt_le, Rinv_0_lt_compat, M]. apply Rmult_le_pos; [lra|apply norm_nonneg]. Qed.
Lemma vp2 : v_vperp (look p) * v_vperp (look p) = 2 * x_mu x * B / x_mass x.
Proof. apply sqrt_sqrt, muB. Qed.
Lemma vn2 : v_speed (look p) * v_speed (look p) = v_vpar (look p) * v_vpar (look p) + v_vperp (look p) * v_vperp (look p).
Proof. rewrite vp2. apply sqrt_sqrt. apply Rplus_le_le_0_compat; [apply Rle_0_sqr|apply muB]. Qed.
Theorem view_facts : x_mass x * v_vpar (look p) = x_ppar x /\ x_mu x * B = x_mass x * (v_vperp (look p) * v_vperp (look p)) / 2 /\
  v_speed (look p) * v_speed (look p) = v_vpar (look p) * v_vpar (look p) + v_vperp (look p) * v_vperp (look p) /\ 0 <= v_speed (look p) /\ 0 <= v_vperp (look p) /\
  v_Ekin (look p) = x_mass x * (v_speed (look p) * v_speed (look p)) / 2 /\
  (v_weight (look p), v_R (look p), v_phi (look p), v_z (look p), v_charge (look p), v_mass (look p), v_mu (look p)) = (x_weight x, x_r x, k_phi p, x_z x, x_charge x, x_mass x, x_mu x) /\
  (forall s, eval_psi (x_r x) (k_phi p) (x_z x) (k_time p) = Some s -> v_psi (look p) = 2 * PI * s) /\ v_isacc (look p) = 0%Z /\ v_acc (look p) = 1.
Proof.
  split; [unfold RfModel.look; cbn [v_vpar]; field; lra|]. split; [rewrite vp2; field; lra|]. split; [exact vn2|]. split; [apply sqrt_pos|]. split; [apply sqrt_pos|].
  split; [rewrite vn2, vp2; unfold RfModel.look; cbn [v_Ekin v_vpar]; field; lra|]. split; [reflexivity|]. split; [intros s E; unfold RfModel.look; cbn [v_psi]; now rewrite E|]. split; [reflexivity|unfold RfModel.look; cbn; lra].
Qed.
(** the marker's Lorentz factor and its relativistic energy *)
Definition gam : R := gamma_ppar (x_mass x) (x_mu x) (x_ppar x) B.
Lemma gam2 : gam * gam = 1 + 2 * v_Ekin (look p) / (x_mass x * CONST_C2).
Proof.
  unfold gam, gamma_ppar. assert (C : 0 < CONST_C2) by (exact c2_pos). rewrite sqrt_sqrt.
  - unfold RfModel.look. cbn [v_Ekin]. field. split; lra.
  - apply Rplus_le_le_0_compat; [apply Rplus_le_le_0_compat; [lra|]|].
    + apply Rmult_le_pos; [|apply Rlt_le, Rinv_0_lt_compat, Rmult_lt_0_compat; assumption]. apply Rmult_le_pos; [lra|apply norm_nonneg].
    + apply Rmult_le_pos; [apply Rle_0_sqr|apply Rlt_le, Rinv_0_lt_compat]. apply Rmult_lt_0_compat; [apply Rmult_lt_0_compat|]; assumption.
Qed.
Lemma Ekin_pos : 0 <= v_Ekin (look p).
Proof. destruct view_facts as (_ & _ & _ & _ & _ & E & _). rewrite E. pose proof (Rle_0_sqr (v_speed (look p))) as S. unfold Rsqr in S. apply Rmult_le_pos; [|lra]. apply Rmult_le_pos; lra. Qed.
Lemma gam1 : 1 <= gam.
Proof.
  assert (C : 0 < x_mass x * CONST_C2) by (apply Rmult_lt_0_compat; [exact M|exact c2_pos]).
  assert (G : 0 <= gam) by apply sqrt_pos. pose proof gam2 as Q. pose proof Ekin_pos as E.
  assert (0 <= 2 * v_Ekin (look p) / (x_mass x * CONST_C2)) by (apply Rmult_le_pos; [lra|apply Rlt_le, Rinv_0_lt_compat, C]). nra.
Qed.
Theorem view_relativity : gam * gam = 1 + 2 * v_Ekin (look p) / (x_mass x * CONST_C2) /\ 1 <= gam /\
  v_gyrof (look p) = Rabs (x_charge x) * B / (x_mass x * gam) /\
  v_Ekin (look p) = (gam + 1) / 2 * Ekin_ppar (x_mass x) (x_mu x) (x_ppar x) B /\
  v_speed (look p) = gam * (sqrt (1 - 1 / (gam * gam)) * CONST_C) /\
  (0 < v_Ekin (look p) -> Ekin_ppar (x_mass x) (x_mu x) (x_ppar x) B < v_Ekin (look p)).
Proof.
  assert (C : 0 < CONST_C2) by (exact c2_pos). pose proof gam2 as Q. pose proof gam1 as G. pose proof Ekin_pos as EP.
  assert (MC : 0 < x_mass x * CONST_C2) by (apply Rmult_lt_0_compat; assumption).
  assert (E2 : 2 * v_Ekin (look p) = (gam * gam - 1) * (x_mass x * CONST_C2)) by (rewrite Q; field; split; lra).
  assert (EK : v_Ekin (look p) = (gam + 1) / 2 * Ekin_ppar (x_mass x) (x_mu x) (x_ppar x) B) by (unfold Ekin_ppar; fold gam; nra).
  split; [exact Q|]. split; [exact G|]. split; [reflexivity|]. split; [exact EK|]. split.
  - destruct view_facts as (_ & _ & _ & SP & _ & E & _).
    assert (S2 : v_speed (look p) * v_speed (look p) = (gam * gam - 1) * CONST_C2).
    { apply (Rmult_eq_reg_l (x_mass x)); [|lra]. transitivity (2 * v_Ekin (look p)); [rewrite E; field|rewrite E2; ring]. }
    assert (I : 0 <= 1 - 1 / (gam * gam)).
    { assert (1 / (gam * gam) <= 1); [|lra]. unfold Rdiv. rewrite Rmult_1_l, <- Rinv_1. apply Rinv_le_contravar; nra. }
    apply Rsqr_inj; [exact SP|repeat apply Rmult_le_pos; [lra|apply sqrt_pos|apply Rlt_le, C_pos]|]. unfold Rsqr. rewrite S2.
    replace (gam * (sqrt (1 - 1 / (gam * gam)) * CONST_C) * (gam * (sqrt (1 - 1 / (gam * gam)) * CONST_C))) with (gam * gam * (sqrt (1 - 1 / (gam * gam)) * sqrt (1 - 1 / (gam * gam))) * CONST_C2) by (unfold CONST_C2; ring).
    rewrite sqrt_sqrt by exact I. field. lra.
  - intros P. assert (GG : 1 < gam). { destruct (Req_dec gam 1) as [X|X]; [rewrite X in E2; lra|lra]. } assert (EP0 : 0 < Ekin_ppar (x_mass x) (x_mu x) (x_ppar x) B). { unfold Ekin_ppar. fold gam. apply Rmult_lt_0_compat; [apply Rmult_lt_0_compat; [lra|exact M]|exact C]. }
    rewrite EK. set (e := Ekin_ppar _ _ _ _) in *. clearbody e. clear - EP0 GG. nra.
Qed.
End view.
(** the flux in the momentum is counted 2 pi times *)
Theorem view_momentum (p : gc) s : let x := k_rest p in eval_psi (x_r x) (k_phi p) (x_z x) (k_time p) = Some s ->
  v_Pphi (look p) = ptoroid_gc (x_charge x) (x_r x) (x_ppar x) s (norm (x_B x)) (vy (x_B x)) + (2 * PI - 1) * (x_charge x * s) /\
  (v_Pphi (look p) = ptoroid_gc (x_charge x) (x_r x) (x_ppar x) s (norm (x_B x)) (vy (x_B x)) <-> x_charge x * s = 0).
Proof.
  cbv zeta. intros E. assert (F : v_Pphi (look p) = ptoroid_gc (x_charge (k_rest p)) (x_r (k_rest p)) (x_ppar (k_rest p)) s (norm (x_B (k_rest p))) (vy (x_B (k_rest p))) + (2 * PI - 1) * (x_charge (k_rest p) * s)).
  { unfold RfModel.look. cbn [v_Pphi]. rewrite E. unfold ptoroid_gc. ring. }
  split; [exact F|]. rewrite F. pose proof PI_RGT_0. assert (P2 : 1 < PI) by (pose proof PI2_1; lra). split; intros H0; [|rewrite H0; ring].
  assert (Q : (2 * PI - 1) * (x_charge (k_rest p) * s) = 0) by lra. apply Rmult_integral in Q. destruct Q; lra.
Qed.
(** along a motion that conserves the canonical momentum *)
Theorem view_momentum_drifts (P : R -> gc) (psi dpsi : R -> R) q :
  (forall t, let x := k_rest (P t) in eval_psi (x_r x) (k_phi (P t)) (x_z x) (k_time (P t)) = Some (psi t) /\ x_charge x = q) ->
  (forall t, derivable_pt_lim psi t (dpsi t)) ->
  (forall t, let x := k_rest (P t) in ptoroid_gc q (x_r x) (x_ppar x) (psi t) (norm (x_B x)) (vy (x_B x)) = ptoroid_gc q (x_r (k_rest (P 0))) (x_ppar (k_rest (P 0))) (psi 0) (norm (x_B (k_rest (P 0)))) (vy (x_B (k_rest (P 0))))) ->
  forall t, derivable_pt_lim (fun t => v_Pphi (look (P t))) t ((2 * PI - 1) * q * dpsi t).
Proof.
  intros E D C t. cbv zeta in *.
  set (c := ptoroid_gc q (x_r (k_rest (P 0))) (x_ppar (k_rest (P 0))) (psi 0) (norm (x_B (k_rest (P 0)))) (vy (x_B (k_rest (P 0))))) in *.
  assert (F : forall u, v_Pphi (look (P u)) = c + (2 * PI - 1) * q * psi u).
  { intros u. destruct (E u) as [E1 E2]. destruct (view_momentum (P u) (psi u) E1) as [V _]. rewrite V, E2, C. ring. }
  assert (G : derivable_pt_lim (fun u => c + (2 * PI - 1) * q * psi u) t (0 + (2 * PI - 1) * q * dpsi t)).
  { apply (derivable_pt_lim_plus (fun _ => c) (fun u => (2 * PI - 1) * q * psi u)); [apply derivable_pt_lim_const|]. apply (derivable_pt_lim_scal psi ((2 * PI - 1) * q)). apply D. }
  rewrite Rplus_0_l in G. intros eps HE. destruct (G eps HE) as [d H]. exists d. intros h H1 H2. rewrite !F. apply H; assumption.
Qed.

(** ** What the marker gets *)
(** a library that changes velocities only and reports the change of the parallel velocity *)
Definition velocity_kick (K : library Mem) : Prop := forall t h v m, let '(v', _, _, dv, _) := K t h v m in
  (v_R v', v_phi v', v_z v', v_mass v', v_charge v', v_weight v') = (v_R v, v_phi v, v_z v, v_mass v, v_charge v, v_weight v) /\ dv = v_vpar v' - v_vpar v.
Theorem kick_result (K : library Mem) (p : gc) h m : heated p -> x_mass (k_rest p) <> 0 -> velocity_kick K ->
  exists v m' err dt, K (k_time p) h (look p) m = (v, m', err, v_vpar v - x_ppar (k_rest p) / x_mass (k_rest p), dt) /\
  rf_slot K p h m = (Mk (k_time p) (k_mileage p) (k_cputime p) (k_phi p) (k_rho p) (k_id p) (k_err p) true
    (Rest (x_r (k_rest p)) (x_z (k_rest p)) (x_mass (k_rest p) * v_vpar v) (v_mu v) (x_mass (k_rest p)) (x_charge (k_rest p)) (x_weight (k_rest p)) (x_B (k_rest p)) (x_other (k_rest p))),
    Some (if Z.eq_dec err 7 then - dt else dt), m').
Proof.
  intros H MZ VK. destruct (K (k_time p) h (look p) m) as [[[[v m'] err] dv] dt] eqn:E. pose proof (VK (k_time p) h (look p) m) as Q. rewrite E in Q. destruct Q as [Q QD].
  rewrite (slot_heated K p h m v m' err dv dt H E). injection Q as Q1 Q2 Q3 Q4 Q5 Q6. exists v, m', err, dt. split; [now rewrite QD|].
  rewrite Q1, Q2, Q3, Q4, Q5, Q6. cbn [v_R v_phi v_z v_mass v_charge v_weight RfModel.look]. destruct H as [_ R1]. rewrite R1.
  replace (x_ppar (k_rest p) + x_mass (k_rest p) * dv) with (x_mass (k_rest p) * v_vpar v); [|rewrite QD; cbn [v_vpar RfModel.look]; field; exact MZ].
  destruct (Z.eq_dec err 7) as [->|NE]; [reflexivity|]. apply Z.eqb_neq in NE. rewrite NE. reflexivity.
Qed.

(** ** In the adaptive loop *)
Definition without_rf (o : options) : options := Opt (o_rev o) (o_orb o) (o_col o) false (o_dphi o) (o_drho o).
Lemma rlt_10 : rlt 1 0 = false. Proof. destruct (rlt_spec 1 0); [lra|reflexivity]. Qed.
Lemma smaller_1 a : a <= 1 -> smaller a 1 = a. Proof. intros H. unfold smaller. destruct (rlt_spec 1 a); [lra|reflexivity]. Qed.
Theorem not_compiled (K : library Mem) o (w : pass (rest Y)) p0 hin m : gca_rf_pass false K o w p0 hin m = (gca_pass (without_rf o) w p0 hin, m).
Proof.
  unfold RfModel.gca_rf_pass. rewrite andb_false_r. f_equal. unfold gca_pass, without_rf, with_rf. cbn [o_rev o_orb o_col o_icrh o_dphi o_drho w_orb w_col w_rf w_cpu w_acc].
  destruct (o_icrh o); [|reflexivity]. unfold RfModel.rf_module.
  destruct (if o_orb o then _ else _) as [[[p1 ho1] hn1] h2]. destruct (if o_col o then _ else _) as [[p2 ho2] hn2].
  unfold check at 1. rewrite rlt_10, andb_false_r. reflexivity.
Qed.
Theorem disabled c (K : library Mem) o (w : pass (rest Y)) p0 hin m : o_icrh o = false -> gca_rf_pass c K o w p0 hin m = (gca_pass o w p0 hin, m).
Proof. intros E. unfold RfModel.gca_rf_pass. rewrite E. f_equal. unfold gca_pass, with_rf. cbn [w_orb w_col w_rf w_cpu w_acc]. rewrite E. reflexivity. Qed.
(** the library is asked after orbit following and collisions accepted their steps, with the step of the pass *)
Lemma rf_input_eq o (w : pass (rest Y)) p0 hin : (o_rev o = false \/ o_orb o = true) -> rf_input o w p0 hin =
  let '(p1, _, hn1) := stage (o_orb o) (fun p => signed (o_rev o) (w_orb w p (dir (o_rev o) * hin))) p0 1 in
  let '(p2, _, _) := stage (o_col o) (fun p => w_col w p hin) p1 hn1 in (p2, hin).
Proof.
  intros H. unfold rf_input, stage, signed.
  assert (D1 : (if o_rev o then - hin else hin) = dir (o_rev o) * hin) by (destruct (o_rev o); cbn; ring).
  assert (D2 : (if o_rev o then - (dir (o_rev o) * hin) else dir (o_rev o) * hin) = hin) by (destruct (o_rev o); cbn; ring).
  rewrite D1. destruct (o_orb o).
  - rewrite D2. destruct (w_orb w p0 _) as [p ho]. destruct (check p _ 1) as [p' hn]. destruct (o_col o); [|reflexivity]. destruct (w_col w p' hin) as [p2 ho2]. destruct (check p2 ho2 hn) as [p3 hn3]. reflexivity.
  - destruct H as [H|H]; [|discriminate]. rewrite H. cbn [dir]. rewrite Rmult_1_l. destruct (o_col o); [|reflexivity]. destruct (w_col w p0 hin) as [p2 ho2]. destruct (check p2 ho2 1) as [p3 hn3]. reflexivity.
Qed.
Definition quiet2 (w : pass (rest Y)) : Prop := quiet (w_orb w) /\ quiet (w_col w).
Definition orb_stage o (w : pass (rest Y)) p0 hin := stage (o_orb o) (fun p => signed (o_rev o) (w_orb w p (dir (o_rev o) * hin))) p0 1.
Lemma both_ran o (w : pass (rest Y)) p0 hin p2 : quiet2 w -> (o_rev o = false \/ o_orb o = true) -> rf_input o w p0 hin = (p2, hin) -> k_run p2 = true ->
  exists p1 ho1 ho2, orb_stage o w p0 hin = (p1, ho1, 1) /\ stage (o_col o) (fun p => w_col w p hin) p1 1 = (p2, ho2, 1) /\ k_run p0 = true /\ 0 <= ho1 /\ 0 <= ho2.
Proof.
  intros [Q1 Q2] H I R. rewrite rf_input_eq in I by exact H. fold (orb_stage o w p0 hin) in I. destruct (orb_stage o w p0 hin) as [[p1 ho1] hn1] eqn:S1.
  destruct (stage (o_col o) (fun p => w_col w p hin) p1 hn1) as [[p2' ho2] hn2] eqn:S2. injection I as ->. unfold orb_stage in S1.
  pose proof (stage_spec _ _ _ _ _ _ _ S1) as T1. pose proof (stage_spec _ _ _ _ _ _ _ S2) as T2.
  destruct T1 as (_ & _ & I1 & Z1 & _ & N1 & _). { intros q. rewrite signed_fst. apply Q1. }
  destruct T2 as (_ & _ & I2 & Z2 & _ & N2 & _). { intros q. apply Q2. }
  destruct (k_run p1) eqn:R1.
  2:{ destruct (Z2 eq_refl) as [E _]. subst. congruence. }
  destruct (N1 eq_refl) as [-> G1]. destruct (N2 R) as [-> G2]. destruct (k_run p0) eqn:R0; [|destruct (Z1 eq_refl) as [E _]; subst; congruence]. exists p1, ho1, ho2. repeat split; auto; congruence.
Qed.
Lemma pass_after o (w : pass (rest Y)) p0 hin p2 f : quiet2 w -> (o_rev o = false \/ o_orb o = true) -> rf_input o w p0 hin = (p2, hin) -> k_run p2 = true ->
  exists ho1 ho2, 0 <= ho1 /\ 0 <= ho2 /\ gca_pass o (with_rf f w) p0 hin =
  let '(p3, hout_rf, hn3) := stage (o_icrh o) (fun p => f p hin) p2 1 in
  if ((0 <? k_id p3)%Z && (k_err p3 =? 0)%Z)%bool then
    let hn4 := if rlt 0 hn3 then
                 let dphi := Rabs (k_phi p0 - k_phi p3) / o_dphi o in
                 let drho := Rabs (k_rho p0 - k_rho p3) / o_drho o in
                 if rlt 1 dphi && rlt drho dphi then - hin / dphi else if rlt 1 drho && rlt dphi drho then - hin / drho else hn3
               else hn3 in
    let p4 := if rlt hn4 0 then p0 else p3 in
    if k_run p4 then
      if rlt hn4 0 then (add_cpu p4 (w_cpu w), - hn4, Rejected)
      else
        let dm := hin * w_acc w in
        let hn5 := smaller (smaller (smaller hn4 ho1) ho2) hout_rf in
        let hn6 := if Req_EM_T hn5 1 then hin else hn5 in
        (add_cpu (advance p4 (dir (o_rev o) * hin * w_acc w) dm) (w_cpu w), hn6, Accepted dm)
    else (p4, hin, Nothing)
  else (p3, hin, Nothing).
Proof.
  intros Q H I R. destruct (both_ran _ _ _ _ _ Q H I R) as (p1 & ho1 & ho2 & S1 & S2 & _ & G1 & G2). exists ho1, ho2. split; [exact G1|]. split; [exact G2|]. rewrite gca_stages by exact H.
  unfold with_rf. cbn [w_orb w_col w_rf w_cpu w_acc]. unfold orb_stage in S1. rewrite S1, S2. reflexivity.
Qed.
(** missing the resonance: the step is taken again from where it started, with the length the library asks for *)
Theorem overshoot (K : library Mem) o (w : pass (rest Y)) p0 hin m p2 v m' dv dt : quiet2 w -> (o_rev o = false \/ o_orb o = true) -> o_icrh o = true -> rf_input o w p0 hin = (p2, hin) -> heated p2 -> k_err p2 = 0%Z ->
  K (k_time p2) hin (look p2) m = (v, m', 7%Z, dv, dt) -> 0 < dt -> gca_rf_pass true K o w p0 hin m = (add_cpu p0 (w_cpu w), dt, Rejected, m').
Proof.
  intros Q H IC I HT NE E D. unfold RfModel.gca_rf_pass. rewrite IC, I. cbn [andb]. rewrite (slot_heated K p2 hin m v m' 7 dv dt HT E). cbn [snd]. f_equal.
  destruct (pass_after o w p0 hin p2 (rf_module true K m) Q H I (proj2 HT)) as (ho1 & ho2 & G1 & G2 & ->). rewrite IC. unfold stage, RfModel.rf_module. rewrite (slot_heated K p2 hin m v m' 7 dv dt HT E).
  change (7 =? 7)%Z with true. cbv iota beta. unfold check. cbn [k_run]. rewrite (proj2 HT). destruct (rlt_spec (- dt) 0); [|lra]. cbn [andb stop k_id k_err].
  destruct HT as [ID R]. apply Z.ltb_lt in ID. rewrite ID, NE. cbn [andb Z.eqb]. destruct (rlt_spec 0 (- dt)); [lra|]. destruct (rlt_spec (- dt) 0); [|lra].
  destruct (both_ran _ _ _ _ _ Q H I R) as (_ & _ & _ & _ & _ & R0 & _ & _). rewrite R0. now rewrite Ropp_involutive.
Qed.
(** otherwise the library rejects nothing: the pass is accepted with the kicked marker when the two limits hold *)
Theorem kicked (K : library Mem) o (w : pass (rest Y)) p0 hin m p2 v m' err dv dt : quiet2 w -> (o_rev o = false \/ o_orb o = true) -> o_icrh o = true -> rf_input o w p0 hin = (p2, hin) -> heated p2 -> k_err p2 = 0%Z ->
  K (k_time p2) hin (look p2) m = (v, m', err, dv, dt) -> err <> 7%Z -> 0 <= dt ->
  Rabs (k_phi p0 - v_phi v) / o_dphi o <= 1 -> Rabs (k_rho p0 - k_rho p2) / o_drho o <= 1 ->
  exists q h', gca_rf_pass true K o w p0 hin m = (add_cpu (advance q (dir (o_rev o) * hin * w_acc w) (hin * w_acc w)) (w_cpu w), h', Accepted (hin * w_acc w), m') /\
    q = fst (fst (rf_slot K p2 hin m)) /\ (h' = hin \/ h' <= dt) /\ (dt = 0 -> h' = 0).
Proof.
  intros Q H IC I HT NE E N7 D LP LR. unfold RfModel.gca_rf_pass. rewrite IC, I. cbn [andb]. rewrite (slot_heated K p2 hin m v m' err dv dt HT E). cbn [fst snd].
  destruct (pass_after o w p0 hin p2 (rf_module true K m) Q H I (proj2 HT)) as (ho1 & ho2 & G1 & G2 & ->). rewrite IC. unfold stage, RfModel.rf_module. rewrite (slot_heated K p2 hin m v m' err dv dt HT E).
  apply Z.eqb_neq in N7. rewrite N7. cbv iota beta. unfold check. cbn [k_run]. rewrite (proj2 HT). destruct (rlt_spec dt 0); [lra|]. cbn [andb k_id k_err].
  destruct HT as [ID R]. apply Z.ltb_lt in ID. rewrite ID, NE. cbn [andb Z.eqb k_phi k_rho]. destruct (rlt_spec 0 1); [|lra]. cbv zeta.
  destruct (rlt_spec 1 (Rabs (k_phi p0 - v_phi v) / o_dphi o)); [lra|]. destruct (rlt_spec 1 (Rabs (k_rho p0 - k_rho p2) / o_drho o)); [lra|]. cbn [andb].
  rewrite rlt_10. cbn [k_run]. eexists. eexists. split; [reflexivity|]. split; [reflexivity|].
  split.
  - destruct (Req_EM_T _ 1); [left; reflexivity|right]. apply smaller_spec.
  - intros ->. set (a := smaller (smaller 1 ho1) ho2). assert (A : 0 <= a). { unfold a. destruct (smaller_spec (smaller 1 ho1) ho2) as (_ & _ & [X|X]); rewrite X; [|exact G2]. destruct (smaller_spec 1 ho1) as (_ & _ & [W|W]); rewrite W; lra. }
    assert (Z0 : smaller a 0 = 0). { unfold smaller. destruct (rlt_spec 0 a); lra. } rewrite Z0. destruct (Req_EM_T 0 1); lra.
Qed.
(** a limit on the change of the angle is checked afterwards: the marker goes back, the memory does not *)
Theorem limit_rejects (K : library Mem) o (w : pass (rest Y)) p0 hin m p2 v m' err dv dt : quiet2 w -> (o_rev o = false \/ o_orb o = true) -> o_icrh o = true -> rf_input o w p0 hin = (p2, hin) -> heated p2 -> k_err p2 = 0%Z ->
  K (k_time p2) hin (look p2) m = (v, m', err, dv, dt) -> err <> 7%Z -> 0 <= dt -> 0 < hin ->
  let dphi := Rabs (k_phi p0 - v_phi v) / o_dphi o in 1 < dphi -> Rabs (k_rho p0 - k_rho p2) / o_drho o < dphi ->
  gca_rf_pass true K o w p0 hin m = (add_cpu p0 (w_cpu w), hin / dphi, Rejected, m').
Proof.
  cbv zeta. intros Q H IC I HT NE E N7 D HP LP LR. unfold RfModel.gca_rf_pass. rewrite IC, I. cbn [andb]. rewrite (slot_heated K p2 hin m v m' err dv dt HT E). cbn [fst snd].
  destruct (pass_after o w p0 hin p2 (rf_module true K m) Q H I (proj2 HT)) as (ho1 & ho2 & G1 & G2 & ->). rewrite IC. unfold stage, RfModel.rf_module. rewrite (slot_heated K p2 hin m v m' err dv dt HT E).
  apply Z.eqb_neq in N7. rewrite N7. cbv iota beta. unfold check. cbn [k_run]. rewrite (proj2 HT). destruct (rlt_spec dt 0); [lra|]. cbn [andb k_id k_err].
  destruct HT as [ID R]. apply Z.ltb_lt in ID. rewrite ID, NE. cbn [andb Z.eqb k_phi k_rho]. destruct (rlt_spec 0 1); [|lra]. cbv zeta.
  destruct (rlt_spec 1 (Rabs (k_phi p0 - v_phi v) / o_dphi o)); [|lra]. destruct (rlt_spec (Rabs (k_rho p0 - k_rho p2) / o_drho o) (Rabs (k_phi p0 - v_phi v) / o_dphi o)); [|lra]. cbn [andb].
  set (d := Rabs (k_phi p0 - v_phi v) / o_dphi o) in *. assert (DP : 0 < hin / d) by (apply Rmult_lt_0_compat; [exact HP|apply Rinv_0_lt_compat; lra]).
  replace (- hin / d) with (- (hin / d)) by (field; lra). destruct (rlt_spec (- (hin / d)) 0); [|lra].
  destruct (both_ran _ _ _ _ _ Q H I R) as (_ & _ & _ & _ & _ & R0 & _ & _). rewrite R0. now rewrite Ropp_involutive.
Qed.
End kick.

(** ** Objects *)
Section objects.
Context {L : Type}.
(** the objects of one slot: the marker (with whether its pointers are to live variables), the memory with the markers whose points it holds, the diagnostics *)
Record obj := Obj { o_mrk : option bool; o_mem : option (list L); o_diag : bool }.
Definition none : obj := Obj None None false.
Definition objects := nat -> obj.
Definition upd (f : objects) (i : nat) (o : obj) : objects := fun j => if Nat.eqb j i then o else f j.
(** when a call is allowed *)
Definition allowed (c : call L) (s : objects) : Prop :=
  match c with
  | NewMarker i => o_mrk (s i) = None
  | UseMarker i => o_mrk (s i) <> None
  | NewMem i => o_mem (s i) = None
  | NewDiag i => o_diag (s i) = false
  | Kick i l => o_mrk (s i) = Some true /\ o_diag (s i) = true /\ exists h, o_mem (s i) = Some h /\ Forall (eq l) h
  | ResetMem i => o_mem (s i) <> None
  | FreeMem i => o_mem (s i) <> None
  | FreeDiag i => o_diag (s i) = true
  | FreeMarker i => o_mrk (s i) <> None
  end.
Definition next (c : call L) (s : objects) : objects :=
  match c with
  | NewMarker i => upd s i (Obj (Some false) (o_mem (s i)) (o_diag (s i)))
  | UseMarker i => upd s i (Obj (Some true) (o_mem (s i)) (o_diag (s i)))
  | NewMem i => upd s i (Obj (o_mrk (s i)) (Some []) (o_diag (s i)))
  | NewDiag i => upd s i (Obj (o_mrk (s i)) (o_mem (s i)) true)
  | Kick i l => upd s i (Obj (Some false) (match o_mem (s i) with Some h => Some (h ++ [l])%list | None => None end) (o_diag (s i)))
  | ResetMem i => upd s i (Obj (o_mrk (s i)) (Some []) (o_diag (s i)))
  | FreeMem i => upd s i (Obj (o_mrk (s i)) None (o_diag (s i)))
  | FreeDiag i => upd s i (Obj (o_mrk (s i)) (o_mem (s i)) false)
  | FreeMarker i => upd s i (Obj None (o_mem (s i)) (o_diag (s i)))
  end.
Fixpoint safe (s : objects) (cs : list (call L)) : Prop := match cs with [] => True | c :: cs => allowed c s /\ safe (next c s) cs end.
Definition final (s : objects) (cs : list (call L)) : objects := fold_left (fun s c => next c s) cs s.
Lemma safe_app a : forall s b, safe s (a ++ b)%list <-> safe s a /\ safe (final s a) b.
Proof. induction a as [|c a IH]; intros s b; cbn [safe List.app final fold_left]; [tauto|]. rewrite IH. unfold final. tauto. Qed.
Lemma final_app a s b : final s (a ++ b)%list = final (final s a) b.
Proof. apply fold_left_app. Qed.
Lemma upd_same f i o : upd f i o i = o. Proof. unfold upd. now rewrite Nat.eqb_refl. Qed.
Lemma upd_other f i o j : j <> i -> upd f i o j = f j. Proof. intros H. unfold upd. apply Nat.eqb_neq in H. now rewrite H. Qed.
(** calls made slot by slot *)
Lemma by_slots (f : nat -> list (call L)) (pre : nat -> obj -> Prop) (g : nat -> obj -> obj) :
  (forall i s, pre i (s i) -> safe s (f i) /\ final s (f i) i = g i (s i) /\ forall j, j <> i -> final s (f i) j = s j) ->
  forall n a s, (forall i, (a <= i < a + n)%nat -> pre i (s i)) ->
  safe s (flat_map f (seq a n)) /\ forall i, final s (flat_map f (seq a n)) i = if ((a <=? i) && (i <? a + n))%nat then g i (s i) else s i.
Proof.
  intros F. induction n as [|n IH]; intros a s P.
  - split; [exact I|]. intros i. change (final s (flat_map f (seq a 0)) i) with (s i). destruct ((a <=? i) && (i <? a + 0))%nat eqn:E1; [|reflexivity]. apply andb_prop in E1. destruct E1 as [E1 E2]. apply Nat.leb_le in E1. apply Nat.ltb_lt in E2. lia.
  - cbn [seq flat_map]. destruct (F a s (P a ltac:(lia))) as (S1 & S2 & S3). destruct (IH (S a) (final s (f a))) as [T1 T2].
    { intros i Hi. rewrite S3 by lia. apply P. lia. }
    split; [apply safe_app; auto|]. intros i. rewrite final_app, T2. destruct (Nat.eq_dec i a) as [->|NE].
    + destruct (S a <=? a)%nat eqn:E1; [apply Nat.leb_le in E1; lia|]. cbn [andb]. destruct (a <=? a)%nat eqn:E2; [|apply Nat.leb_gt in E2; lia]. destruct (a <? a + S n)%nat eqn:E3; [|apply Nat.ltb_ge in E3; lia]. exact S2.
    + rewrite S3 by exact NE. replace (S a <=? i)%nat with (a <=? i)%nat by (destruct (a <=? i)%nat eqn:X, (S a <=? i)%nat eqn:W; auto; repeat (rewrite ?Nat.leb_le, ?Nat.leb_gt in * ); lia). now rewrite <- Nat.add_succ_comm.
Qed.
Variable nsimd : nat.
Definition ready (s : slots L) (st : objects) : Prop := forall i, if (i <? nsimd)%nat then
  exists h, st i = Obj (Some false) (Some h) true /\ forall l, s i = Some l -> Forall (eq l) h else st i = none.
Lemma range i : ((0 <=? i) && (i <? 0 + nsimd))%nat = (i <? nsimd)%nat. Proof. reflexivity. Qed.
Lemma ready_set_up s : safe (fun _ => none) (set_up nsimd) /\ ready s (final (fun _ => none) (set_up nsimd)).
Proof.
  destruct (by_slots (fun i => [NewMarker i; NewMem i; NewDiag i]) (fun _ o => o = none) (fun _ _ => Obj (Some false) (Some []) true)) with (n := nsimd) (a := 0%nat) (s := fun _ : nat => none) as [A B].
  - intros i st E. cbn [safe allowed final fold_left next]. repeat (rewrite upd_same || rewrite E); cbn. repeat split. intros j NE. now rewrite !upd_other.
  - reflexivity.
  - split; [exact A|]. intros i. specialize (B i). rewrite range in B. unfold set_up. rewrite B. destruct (i <? nsimd)%nat; [|reflexivity]. exists []. split; auto.
Qed.
Lemma ready_kicks t s st : ready s st -> safe st (kicks nsimd t s) /\ ready s (final st (kicks nsimd t s)).
Proof.
  intros R.
  destruct (by_slots (fun i => match s i with Some l => if t_runs t i then [UseMarker i; Kick i l] else [] | None => [] end)
    (fun i o => exists h, o = Obj (Some false) (Some h) true /\ forall l, s i = Some l -> Forall (eq l) h)
    (fun i o => match s i with Some l => if t_runs t i then Obj (Some false) (match o_mem o with Some h => Some (h ++ [l])%list | None => None end) true else o | None => o end)) with (n := nsimd) (a := 0%nat) (s := st) as [A B].
  - intros i u (h & E & F). destruct (s i) as [l|]; [|now repeat split]. destruct (t_runs t i); [|now repeat split].
    cbn [safe allowed final fold_left next]. repeat (rewrite upd_same || rewrite E); cbn. split; [|split; [reflexivity|intros j NE; now rewrite !upd_other]].
    split; [discriminate|]. split; [|exact I]. repeat split; auto. exists h. auto.
  - intros i Hi. specialize (R i). destruct (i <? nsimd)%nat eqn:E; [exact R|]. apply Nat.ltb_ge in E. lia.
  - split; [exact A|]. intros i. specialize (B i). rewrite range in B. unfold kicks. rewrite B. specialize (R i). destruct (i <? nsimd)%nat; [|exact R]. destruct R as (h & E & F). rewrite E.
    destruct (s i) as [l|]; [|exists h; split; [reflexivity|discriminate]]. destruct (t_runs t i); [|exists h; auto]. cbn [o_mem]. exists (h ++ [l])%list. split; [reflexivity|].
    intros l' Q. injection Q as <-. apply Forall_app. split; auto.
Qed.
Lemma ready_resets t s st : ready s st -> safe st (resets nsimd t) /\ ready (cycled t s) (final st (resets nsimd t)).
Proof.
  intros R.
  destruct (by_slots (fun i => match t_cycle t i with New _ => [ResetMem i] | _ => [] end)
    (fun i o => exists h, o = Obj (Some false) (Some h) true)
    (fun i o => match t_cycle t i with New _ => Obj (Some false) (Some []) true | _ => o end)) with (n := nsimd) (a := 0%nat) (s := st) as [A B].
  - intros i u (h & E). destruct (t_cycle t i); try now repeat split.
    cbn [safe allowed final fold_left next]. repeat (rewrite upd_same || rewrite E); cbn. split; [split; [discriminate|exact I]|]. split; [reflexivity|]. intros j NE. now rewrite !upd_other.
  - intros i Hi. specialize (R i). destruct (i <? nsimd)%nat eqn:E; [|apply Nat.ltb_ge in E; lia]. destruct R as (h & E' & _). eauto.
  - split; [exact A|]. intros i. specialize (B i). rewrite range in B. unfold resets. rewrite B. specialize (R i). destruct (i <? nsimd)%nat; [|exact R]. destruct R as (h & E & F). unfold cycled.
    destruct (t_cycle t i); [exists h; auto|exists []; auto|exists h; split; [exact E|discriminate]].
Qed.
Lemma ready_loop : forall ts s st, ready s st -> safe st (loop_calls nsimd s ts) /\ exists s', ready s' (final st (loop_calls nsimd s ts)).
Proof.
  induction ts as [|t ts IH]; intros s st R; cbn [loop_calls]; [split; [exact I|exists s; exact R]|].
  destruct (ready_kicks t s st R) as [A1 A2]. destruct (ready_resets t s _ A2) as [B1 B2]. destruct (IH _ _ B2) as [C1 C2].
  rewrite safe_app, final_app, safe_app, final_app. auto.
Qed.
Lemma ready_tear_down s st : ready s st -> safe st (tear_down nsimd) /\ forall i, final st (tear_down nsimd) i = none.
Proof.
  intros R.
  destruct (by_slots (fun i => [FreeMem i; FreeDiag i; FreeMarker i]) (fun i o => exists h, o = Obj (Some false) (Some h) true) (fun _ _ => none)) with (n := nsimd) (a := 0%nat) (s := st) as [A B].
  - intros i u (h & E). cbn [safe allowed final fold_left next]. repeat (rewrite upd_same || rewrite E); cbn. split; [repeat split; discriminate|]. split; [reflexivity|]. intros j NE. now rewrite !upd_other.
  - intros i Hi. specialize (R i). destruct (i <? nsimd)%nat eqn:E; [|apply Nat.ltb_ge in E; lia]. destruct R as (h & E' & _). eauto.
  - split; [exact A|]. intros i. specialize (B i). rewrite range in B. unfold tear_down. rewrite B. specialize (R i). destruct (i <? nsimd)%nat; [reflexivity|exact R].
Qed.
Theorem lifecycle icrh (s : slots L) ts : safe (fun _ => none) (sim_calls nsimd icrh s ts) /\ forall i, final (fun _ => none) (sim_calls nsimd icrh s ts) i = none.
Proof.
  unfold sim_calls. destruct icrh; [|split; [exact I|reflexivity]]. destruct (ready_set_up s) as [A1 A2]. destruct (ready_loop ts s _ A2) as [B1 [s' B2]]. destruct (ready_tear_down s' _ B2) as [C1 C2].
  rewrite safe_app, final_app, safe_app, final_app. auto.
Qed.
End objects.
Arguments none {L}. Arguments obj : clear implicits.

(** ** Query *)
Section query.
Context (reso : view -> R * Z) (wave : R -> R -> R * R * R * R) (r phi z : nat -> R) (mass q vpar : R) (order : list nat) (n : nat) (s s' : store).
Hypothesis P : Permutation order (seq 0 n).
Definition B_failed (B : bfield) (k : nat) : Prop := exists e v, e <> 0%Z /\ B_field_eval_B B (r k) (phi k) (z k) = Out e v.
Theorem query_rfof (f : R -> R -> R -> R) B : (forall v, fst (reso v) = f (v_R v) (v_vpar v) (v_gyrof v)) -> for_all_points order (point_rfof reso wave r phi z mass q vpar B) s = Some s' ->
  kept n (B_failed B) s s' /\
  forall k b, (k < n)%nat -> B_field_eval_B B (r k) (phi k) (z k) = Out 0 b ->
    s' "res_cond" k = f (r k) vpar (q * norm b / mass) /\ (s' "Eplus_real" k, s' "Eminus_real" k, s' "Eplus_imag" k, s' "Eminus_imag" k) = wave (r k) (z k).
Proof.
  intros F E. split.
  - apply (kept_of order n _ s s' _ P E). intros k (e & v & NE & Q). unfold point_rfof. rewrite Q. cbn [if_ok]. rewrite nz by exact NE. reflexivity.
  - intros k b K Q. destruct (reso (manual_view vpar (r k) (q * norm b / mass))) as [om nh] eqn:O. destruct (wave (r k) (z k)) as [[[pr mr] pim] mim] eqn:W.
    assert (BD : point_rfof reso wave r phi z mass q vpar B k = Some [("res_cond", om); ("Eplus_real", pr); ("Eminus_real", mr); ("Eplus_imag", pim); ("Eminus_imag", mim)]).
    { unfold point_rfof. rewrite Q. cbn [if_ok Z.eqb negb]. fold (norm b). rewrite O, W. reflexivity. }
    pose proof (inside_points order n _ s s' P E k _ K BD) as I. rewrite !I. cbn. split; [|reflexivity].
    pose proof (F (manual_view vpar (r k) (q * norm b / mass))) as X. rewrite O in X. cbn [fst manual_view v_R v_vpar v_gyrof] in X. exact X.
Qed.
End query.
(** the gyro frequency of the query and of the simulation *)
Theorem query_frequency {Y : Type} eval_psi junk (p : marker (rest Y)) : let x := k_rest p in let B := norm (x_B x) in let wq := x_charge x * B / x_mass x in let w := v_gyrof (look eval_psi junk p) in
  0 < x_mass x -> 0 <= x_mu x -> 0 < B ->
  (0 < x_charge x -> 0 < w <= wq /\ (w = wq <-> x_ppar x = 0 /\ x_mu x = 0)) /\ (x_charge x < 0 -> wq < 0 < w).
Proof.
  cbv zeta. intros M MU BP. destruct (view_relativity eval_psi junk p M MU) as (G2 & G1 & W & _). rewrite W. clear W. set (x := k_rest p) in *. set (B := norm (x_B x)) in *. set (g := gam p) in *.
  assert (C : 0 < CONST_C2) by (exact c2_pos). assert (MG : 0 < x_mass x * g) by (apply Rmult_lt_0_compat; lra).
  split; intros Q.
  - rewrite Rabs_right by lra. assert (QB : 0 < x_charge x * B) by (apply Rmult_lt_0_compat; assumption).
    assert (S : x_charge x * B / (x_mass x * g) = x_charge x * B / x_mass x * / g) by (field; split; lra).
    assert (WP : 0 < x_charge x * B / x_mass x) by (apply Rmult_lt_0_compat; [exact QB|apply Rinv_0_lt_compat, M]).
    assert (I : 0 < / g <= 1). { split; [apply Rinv_0_lt_compat; lra|]. rewrite <- Rinv_1. apply Rinv_le_contravar; lra. }
    rewrite S. split; [split; [apply Rmult_lt_0_compat; [exact WP|apply I]|]; nra|].
    assert (E : v_Ekin (look eval_psi junk p) = x_ppar x * x_ppar x / (2 * x_mass x) + x_mu x * B) by reflexivity.
    assert (T1 : 0 <= x_ppar x * x_ppar x / (2 * x_mass x)) by (apply Rmult_le_pos; [apply Rle_0_sqr|apply Rlt_le, Rinv_0_lt_compat; lra]).
    assert (T2 : 0 <= x_mu x * B) by (apply Rmult_le_pos; lra).
    split.
    + intros H. assert (/ g = 1) by (apply (Rmult_eq_reg_l (x_charge x * B / x_mass x)); [rewrite Rmult_1_r; exact H|lra]).
      assert (g = 1) by (rewrite <- (Rinv_inv g); rewrite H0; apply Rinv_1). rewrite H1 in G2.
      assert (Z0 : v_Ekin (look eval_psi junk p) = 0).
      { assert (A : 2 * v_Ekin (look eval_psi junk p) / (x_mass x * CONST_C2) = 0) by lra. apply Rmult_integral in A. destruct A as [A|A]; [lra|]. exfalso. apply Rinv_neq_0_compat in A; [exact A|]. assert (0 < x_mass x * CONST_C2) by (apply Rmult_lt_0_compat; assumption). lra. }
      assert (N1 : x_ppar x * x_ppar x / (2 * x_mass x) = 0) by lra. assert (N2 : x_mu x * B = 0) by lra. split.
      * apply Rmult_integral in N1. destruct N1 as [N1|N1]; [apply Rmult_integral in N1; destruct N1; assumption|]. exfalso. apply Rinv_neq_0_compat in N1; [exact N1|lra].
      * apply Rmult_integral in N2. destruct N2; [assumption|lra].
    + intros [P0 U0]. rewrite E, P0, U0 in G2. assert (g = 1); [|rewrite H, Rinv_1; ring]. unfold Rdiv in G2. rewrite !Rmult_0_l, Rplus_0_l, Rmult_0_r, Rmult_0_l, Rplus_0_r in G2. nra.
  - rewrite Rabs_left by exact Q. split.
    + unfold Rdiv. assert (0 < / x_mass x) by (apply Rinv_0_lt_compat, M). assert (0 < (- x_charge x) * B) by (apply Rmult_lt_0_compat; lra). nra.
    + apply Rmult_lt_0_compat; [apply Rmult_lt_0_compat; lra|apply Rinv_0_lt_compat, MG].
Qed.
