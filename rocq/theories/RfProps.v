(** RF heating: what the library is told, what the marker gets, rejected steps, the objects of the library and the query *)
From Coq Require Import Reals ZArith List String Bool Lia Lra Permutation.
From Verif Require Import Vec PhysModel PhysProofs SimModel SimProofs AxisModel BfModel LwModel LwProofs RfModel RfProofs.
Import ListNotations.
Import ListNotations.
Import Verif.Vec.
Local Open Scope string_scope.
Local Open Scope R_scope.

(** ** The kick *)
Section kick.
Context {Y Mem : Type} (eval_psi : R -> R -> R -> R -> option R) (junk : R).
Notation gc := (marker (rest Y)).
Notation look := (look eval_psi junk).
Notation rf_slot := (rf_slot eval_psi junk).
Notation rf_all := (rf_all eval_psi junk).
Notation gca_rf_pass := (gca_rf_pass eval_psi junk).
(** every slot is treated on its own; only running markers with a positive id are touched, and of these never time, mileage, id, error, field or state *)
Theorem rf_slots_independent : forall compiled (K : library Mem) (l : list (slot Y Mem)), List.length (rf_all compiled K l) = List.length l /\
  (forall l' i, nth_error l i = nth_error l' i -> nth_error (rf_all compiled K l) i = nth_error (rf_all compiled K l') i) /\
  (forall i s, nth_error l i = Some s -> exists s', nth_error (rf_all compiled K l) i = Some s' /\ same_books (s_p s) (s_p s') /\ s_hin s' = s_hin s /\ (compiled = false \/ ~ heated (s_p s) -> s' = s)).
Proof. exact (RfProofs.slots_independent eval_psi junk). Qed.
Section view.
Context (p : gc).
Notation x := (k_rest p).
Notation B := (norm (x_B (k_rest p))).
Notation gam := (gam p).
Hypothesis M : 0 < x_mass x.
Hypothesis MU : 0 <= x_mu x.
(** velocities, energy, moment and flux the library is told fit together (nonrelativistically), the others are those of the marker *)
Theorem rf_view : x_mass x * v_vpar (look p) = x_ppar x /\ x_mu x * B = x_mass x * (v_vperp (look p) * v_vperp (look p)) / 2 /\
  v_speed (look p) * v_speed (look p) = v_vpar (look p) * v_vpar (look p) + v_vperp (look p) * v_vperp (look p) /\ 0 <= v_speed (look p) /\ 0 <= v_vperp (look p) /\
  v_Ekin (look p) = x_mass x * (v_speed (look p) * v_speed (look p)) / 2 /\
  (v_weight (look p), v_R (look p), v_phi (look p), v_z (look p), v_charge (look p), v_mass (look p), v_mu (look p)) = (x_weight x, x_r x, k_phi p, x_z x, x_charge x, x_mass x, x_mu x) /\
  (forall s, eval_psi (x_r x) (k_phi p) (x_z x) (k_time p) = Some s -> v_psi (look p) = 2 * PI * s) /\ v_isacc (look p) = 0%Z /\ v_acc (look p) = 1.
Proof. exact (RfProofs.view_facts eval_psi junk p M MU). Qed.
(** finding: the gyro frequency is relativistic while energy and speed are not: with the Lorentz factor g of the marker the energy is (g+1)/2 times and the speed g times its own *)
Theorem rf_view_relativity : gam * gam = 1 + 2 * v_Ekin (look p) / (x_mass x * CONST_C2) /\ 1 <= gam /\
  v_gyrof (look p) = Rabs (x_charge x) * B / (x_mass x * gam) /\
  v_Ekin (look p) = (gam + 1) / 2 * Ekin_ppar (x_mass x) (x_mu x) (x_ppar x) B /\
  v_speed (look p) = gam * (sqrt (1 - 1 / (gam * gam)) * CONST_C) /\
  (0 < v_Ekin (look p) -> Ekin_ppar (x_mass x) (x_mu x) (x_ppar x) B < v_Ekin (look p)).
Proof. exact (RfProofs.view_relativity eval_psi junk p M MU). Qed.
End view.
(** finding: the toroidal momentum is computed from the flux already multiplied by 2 pi *)
Theorem rf_momentum : forall (p : gc) s, let x := k_rest p in eval_psi (x_r x) (k_phi p) (x_z x) (k_time p) = Some s ->
  v_Pphi (look p) = ptoroid_gc (x_charge x) (x_r x) (x_ppar x) s (norm (x_B x)) (vy (x_B x)) + (2 * PI - 1) * (x_charge x * s) /\
  (v_Pphi (look p) = ptoroid_gc (x_charge x) (x_r x) (x_ppar x) s (norm (x_B x)) (vy (x_B x)) <-> x_charge x * s = 0).
Proof. exact (RfProofs.view_momentum eval_psi junk). Qed.
(** so it changes along motions that conserve the canonical momentum *)
Theorem rf_momentum_refuted : forall (P : R -> gc) (psi dpsi : R -> R) q, (forall t, let x := k_rest (P t) in eval_psi (x_r x) (k_phi (P t)) (x_z x) (k_time (P t)) = Some (psi t) /\ x_charge x = q) ->
  (forall t, derivable_pt_lim psi t (dpsi t)) ->
  (forall t, let x := k_rest (P t) in ptoroid_gc q (x_r x) (x_ppar x) (psi t) (norm (x_B x)) (vy (x_B x)) = ptoroid_gc q (x_r (k_rest (P 0))) (x_ppar (k_rest (P 0))) (psi 0) (norm (x_B (k_rest (P 0)))) (vy (x_B (k_rest (P 0))))) ->
  forall t, derivable_pt_lim (fun t => v_Pphi (look (P t))) t ((2 * PI - 1) * q * dpsi t).
Proof. exact (RfProofs.view_momentum_drifts eval_psi junk). Qed.
(** with a library that changes velocities only, the marker ends up with the moment and the parallel velocity of the library *)
Theorem rf_kick_result : forall (K : library Mem) (p : gc) h m, heated p -> x_mass (k_rest p) <> 0 -> velocity_kick K ->
  exists v m' err dt, K (k_time p) h (look p) m = (v, m', err, v_vpar v - x_ppar (k_rest p) / x_mass (k_rest p), dt) /\
  rf_slot K p h m = (Mk (k_time p) (k_mileage p) (k_cputime p) (k_phi p) (k_rho p) (k_id p) (k_err p) true
    (Rest (x_r (k_rest p)) (x_z (k_rest p)) (x_mass (k_rest p) * v_vpar v) (v_mu v) (x_mass (k_rest p)) (x_charge (k_rest p)) (x_weight (k_rest p)) (x_B (k_rest p)) (x_other (k_rest p))),
    Some (if Z.eq_dec err 7 then - dt else dt), m').
Proof. exact (RfProofs.kick_result eval_psi junk). Qed.

(** ** In the adaptive loop *)
(** compiled without the library, asking for heating changes nothing *)
Theorem rf_not_compiled : forall (K : library Mem) o (w : pass (rest Y)) p0 hin m, gca_rf_pass false K o w p0 hin m = (gca_pass (without_rf o) w p0 hin, m).
Proof. exact (RfProofs.not_compiled eval_psi junk). Qed.
(** switched off, neither marker nor memory is touched *)
Theorem rf_disabled : forall c (K : library Mem) o (w : pass (rest Y)) p0 hin m, o_icrh o = false -> gca_rf_pass c K o w p0 hin m = (gca_pass o w p0 hin, m).
Proof. exact (RfProofs.disabled eval_psi junk). Qed.
(** missing the resonance: the step is taken again from where it started, with the length the library asks for *)
Theorem rf_overshoot : forall (K : library Mem) o (w : pass (rest Y)) p0 hin m p2 v m' dv dt, quiet2 w -> (o_rev o = false \/ o_orb o = true) -> o_icrh o = true -> rf_input o w p0 hin = (p2, hin) -> heated p2 -> k_err p2 = 0%Z ->
  K (k_time p2) hin (look p2) m = (v, m', 7%Z, dv, dt) -> 0 < dt -> gca_rf_pass true K o w p0 hin m = (add_cpu p0 (w_cpu w), dt, Rejected, m').
Proof. exact (RfProofs.overshoot eval_psi junk). Qed.
(** otherwise the pass is accepted with the kicked marker and the next step is not longer than the library asks for; finding: a library that leaves the proposed step at its initial value 0 makes the next step 0 *)
Theorem rf_kicked : forall (K : library Mem) o (w : pass (rest Y)) p0 hin m p2 v m' err dv dt, quiet2 w -> (o_rev o = false \/ o_orb o = true) -> o_icrh o = true -> rf_input o w p0 hin = (p2, hin) -> heated p2 -> k_err p2 = 0%Z ->
  K (k_time p2) hin (look p2) m = (v, m', err, dv, dt) -> err <> 7%Z -> 0 <= dt ->
  Rabs (k_phi p0 - v_phi v) / o_dphi o <= 1 -> Rabs (k_rho p0 - k_rho p2) / o_drho o <= 1 ->
  exists q h', gca_rf_pass true K o w p0 hin m = (add_cpu (advance q (dir (o_rev o) * hin * w_acc w) (hin * w_acc w)) (w_cpu w), h', Accepted (hin * w_acc w), m') /\
    q = fst (fst (rf_slot K p2 hin m)) /\ (h' = hin \/ h' <= dt) /\ (dt = 0 -> h' = 0).
Proof. exact (RfProofs.kicked eval_psi junk). Qed.
(** finding: when the limit on the angle rejects the step afterwards, the marker goes back but the memory of the library has advanced *)
Theorem rf_limit_rejects : forall (K : library Mem) o (w : pass (rest Y)) p0 hin m p2 v m' err dv dt, quiet2 w -> (o_rev o = false \/ o_orb o = true) -> o_icrh o = true -> rf_input o w p0 hin = (p2, hin) -> heated p2 -> k_err p2 = 0%Z ->
  K (k_time p2) hin (look p2) m = (v, m', err, dv, dt) -> err <> 7%Z -> 0 <= dt -> 0 < hin ->
  let dphi := Rabs (k_phi p0 - v_phi v) / o_dphi o in 1 < dphi -> Rabs (k_rho p0 - k_rho p2) / o_drho o < dphi ->
  gca_rf_pass true K o w p0 hin m = (add_cpu p0 (w_cpu w), hin / dphi, Rejected, m').
Proof. exact (RfProofs.limit_rejects eval_psi junk). Qed.
End kick.
Print Assumptions rf_slots_independent.
Print Assumptions rf_view.
Print Assumptions rf_view_relativity.
Print Assumptions rf_momentum.
Print Assumptions rf_momentum_refuted.
Print Assumptions rf_kick_result.
Print Assumptions rf_not_compiled.
Print Assumptions rf_disabled.
Print Assumptions rf_overshoot.
Print Assumptions rf_kicked.
Print Assumptions rf_limit_rejects.

(** ** Objects of the library *)
Section objects.
Context {L : Type} (nsimd : nat).
(** over a whole simulation every object is created before use and freed once, nothing is left, no kick follows a pointer to a dead variable, and the memory of a kicked marker holds points of that marker only *)
Theorem rf_lifecycle : forall icrh (s : slots L) ts, safe (fun _ => none) (sim_calls nsimd icrh s ts) /\ forall i, final (fun _ => none) (sim_calls nsimd icrh s ts) i = none.
Proof. exact (RfProofs.lifecycle nsimd). Qed.
End objects.
Print Assumptions rf_lifecycle.

(** ** Query *)
Section query.
Context (reso : view -> R * Z) (wave : R -> R -> R * R * R * R) (r phi z : nat -> R) (mass q vpar : R) (order : list nat) (n : nat) (s s' : store).
Hypothesis P : Permutation order (seq 0 n).
Notation B_failed := (B_failed r phi z).
(** resonance function with the radius, velocity and gyro frequency of the point, wave at the point; nothing where the field fails *)
Theorem rf_query : forall (f : R -> R -> R -> R) B, (forall v, fst (reso v) = f (v_R v) (v_vpar v) (v_gyrof v)) -> for_all_points order (point_rfof reso wave r phi z mass q vpar B) s = Some s' ->
  kept n (B_failed B) s s' /\
  forall k b, (k < n)%nat -> B_field_eval_B B (r k) (phi k) (z k) = Out 0 b ->
    s' "res_cond" k = f (r k) vpar (q * norm b / mass) /\ (s' "Eplus_real" k, s' "Eminus_real" k, s' "Eplus_imag" k, s' "Eminus_imag" k) = wave (r k) (z k).
Proof. exact (RfProofs.query_rfof reso wave r phi z mass q vpar order n s s' P). Qed.
End query.
Print Assumptions rf_query.
(** finding: the frequency of the query is the one of the simulation only for positive markers at rest, and has the other sign for negative charges *)
Theorem rf_query_frequency : forall (Y : Type) eval_psi junk (p : marker (rest Y)), let x := k_rest p in let B := norm (x_B x) in let wq := x_charge x * B / x_mass x in let w := v_gyrof (look eval_psi junk p) in
  0 < x_mass x -> 0 <= x_mu x -> 0 < B ->
  (0 < x_charge x -> 0 < w <= wq /\ (w = wq <-> x_ppar x = 0 /\ x_mu x = 0)) /\ (x_charge x < 0 -> wq < 0 < w).
Proof. exact @RfProofs.query_frequency. Qed.
Print Assumptions rf_query_frequency.

(** ** Examples *)
(** a library that remembers the angles it has seen and kicks the parallel velocity by 1 *)
Definition toy (err : Z) (dt : R) : library (list R) := fun t h v m =>
  (View (v_id v) (v_weight v) (v_R v) (v_phi v) (v_z v) (v_psi v) (v_charge v) (v_mass v) (v_Ekin v) (v_speed v) (v_mu v) (v_Pphi v) (v_vpar v + 1) (v_vperp v) (v_gyrof v) (v_tauB v) (v_vdrift v) (v_acc v) (v_isacc v),
   (m ++ [v_phi v])%list, err, 1, dt).
Definition flux0 : R -> R -> R -> R -> option R := fun r _ _ _ => Some r.
Definition ion (phi : R) : marker (rest Datatypes.unit) := Mk 0 0 0 phi 0 1 0 true (Rest 2 0 4 3 2 1 1 (V 0 5 0) tt).
Definition turner (d : R) : physics (rest Datatypes.unit) := fun p h => if k_run p then (Mk (k_time p) (k_mileage p) (k_cputime p) (k_phi p + d) (k_rho p) (k_id p) (k_err p) (k_run p) (k_rest p), 1/2) else (p, 1/2).
Definition still : physics (rest Datatypes.unit) := fun p h => (p, 1).
Definition heat (d : R) : pass (rest Datatypes.unit) := Pass (turner d) still still 0 1.
Lemma heat_quiet d : quiet2 (heat d).
Proof. split; intros p h; cbn; [|auto]. unfold turner. destruct (k_run p) eqn:E; cbn; repeat split; auto; congruence. Qed.
Lemma ion_heated phi : heated (ion phi). Proof. split; reflexivity. Qed.
Lemma toy_velocity err dt : velocity_kick (toy err dt).
Proof. intros t h v m. cbn. split; [reflexivity|ring]. Qed.
Lemma heat_input d phi : rf_input (Opt false true false true 1 1) (heat d) (ion phi) (1/4) = (ion (phi + d), 1/4).
Proof. unfold rf_input, heat, turner, ion. cbn. unfold check. cbn. destruct (rlt_spec (1/2) 0); [lra|]. reflexivity. Qed.
Example kick_example : rf_slot flux0 0 (toy 0 (1/8)) (ion 1) (1/4) [] = (Mk 0 0 0 1 0 1 0 true (Rest 2 0 6 3 2 1 1 (V 0 5 0) tt), Some (1/8), [1]).
Proof. unfold rf_slot, toy, ion. cbn. f_equal. f_equal. f_equal. f_equal. ring. Qed.
(** finding: the library remembers an angle at which the marker has never been *)
Theorem rf_memory_refuted : exists (K : library (list R)) o (w : pass (rest Datatypes.unit)) p h q h', quiet2 w /\ heated p /\
  gca_rf_pass flux0 0 true K o w p h [k_phi p] = (q, h', Rejected, [k_phi p; k_phi p + 2]) /\ k_phi q = k_phi p /\ k_rest q = k_rest p.
Proof.
  exists (toy 0 1), (Opt false true false true 1 1), (heat 2), (ion 0), (1/4), (add_cpu (ion 0) 0), (1/4 / 2). split; [apply heat_quiet|]. split; [apply ion_heated|]. split; [|split; reflexivity].
  pose proof (rf_limit_rejects flux0 0 (toy 0 1) (Opt false true false true 1 1) (heat 2) (ion 0) (1/4) [0] (ion 2)) as H. cbv zeta in H.
  assert (I : rf_input (Opt false true false true 1 1) (heat 2) (ion 0) (1/4) = (ion 2, 1/4)). { rewrite heat_input. do 2 f_equal. lra. }
  assert (AB : Rabs (0 - 2) / 1 = 2) by (rewrite Rabs_left by lra; lra).
  assert (AR : Rabs (0 - 0) / 1 = 0) by (rewrite Rminus_0_r, Rabs_R0; lra).
  specialize (H (fst (fst (fst (fst (toy 0 1 0 (1/4) (look flux0 0 (ion 2)) [0]))))) ([0; 2]) 0%Z 1 1 (heat_quiet 2) (or_introl eq_refl) eq_refl I (ion_heated 2) eq_refl eq_refl ltac:(discriminate) ltac:(lra) ltac:(lra)).
  cbn [k_phi k_rho ion o_dphi o_drho toy fst v_phi look w_cpu heat] in H. rewrite AB, AR in H. cbn [k_phi ion]. rewrite Rplus_0_l. apply H; lra.
Qed.
Print Assumptions rf_memory_refuted.
Example overshoot_example : gca_rf_pass flux0 0 true (toy 7 (1/16)) (Opt false true false true 1 1) (heat (1/2)) (ion 0) (1/4) [] = (add_cpu (ion 0) 0, 1/16, Rejected, [0 + 1/2]).
Proof.
  pose proof (heat_input (1/2) 0) as I.
  exact (rf_overshoot flux0 0 (toy 7 (1/16)) (Opt false true false true 1 1) (heat (1/2)) (ion 0) (1/4) [] (ion (0 + 1/2)) _ [0 + 1/2] 1 (1/16) (heat_quiet _) (or_introl eq_refl) eq_refl I (ion_heated _) eq_refl eq_refl ltac:(lra)).
Qed.
(** two slots: a kick each, a new marker in slot 0, which is kicked alone *)
Example calls_example : sim_calls 2 true (fun i => Some i) [Turn (fun _ => true) (fun i => if Nat.eqb i 0 then New 7%nat else Empty); Turn (fun _ => true) (fun _ => Keep)] =
  [NewMarker 0; NewMem 0; NewDiag 0; NewMarker 1; NewMem 1; NewDiag 1; UseMarker 0; Kick 0 0; UseMarker 1; Kick 1 1; ResetMem 0; UseMarker 0; Kick 0 7; FreeMem 0; FreeDiag 0; FreeMarker 0; FreeMem 1; FreeDiag 1; FreeMarker 1]%nat.
Proof. reflexivity. Qed.
(** without the reset the second marker would be kicked with the history of the first *)
Example calls_without_reset : ~ safe (fun _ => none) [NewMarker 0; NewMem 0; NewDiag 0; UseMarker 0; Kick 0 0; UseMarker 0; Kick 0 7]%nat.
Proof. cbn. intros (_ & _ & _ & _ & _ & _ & (_ & _ & h & E & F) & _). injection E as <-. inversion_clear F as [|? ? X _]. discriminate. Qed.
(** finding: for electrons the query finds no resonance, the simulation does *)
Theorem rf_query_refuted : exists (f : R -> R -> R -> R) (p : marker (rest Datatypes.unit)), let x := k_rest p in let B := norm (x_B x) in
  f (x_r x) (x_ppar x / x_mass x) (v_gyrof (look flux0 0 p)) = 0 /\ f (x_r x) (x_ppar x / x_mass x) (x_charge x * B / x_mass x) > 0.
Proof.
  exists (fun _ _ w => 5 - w), (Mk 0 0 0 0 0 1 0 true (Rest 2 0 0 0 1 (-1) 1 (V 0 5 0) tt)). cbv zeta. cbn [k_rest x_r x_ppar x_mass x_charge x_B look v_gyrof x_mu].
  assert (N : norm (V 0 5 0) = 5). { unfold norm. cbn [vx vy vz]. replace (0 * 0 + 5 * 5 + 0 * 0) with (5 * 5) by ring. apply sqrt_square. lra. }
  rewrite N. unfold gyrofreq_ppar, gamma_ppar. replace (1 + 2 * 0 * 5 / (1 * CONST_C2) + 0 * 0 / (1 * 1 * CONST_C2)) with 1 by (field; apply Rgt_not_eq, c2_pos). rewrite sqrt_1, Rabs_left by lra. split; field_simplify; lra.
Qed.
Print Assumptions rf_query_refuted.
