(** Time-step bookkeeping: adaptive loops, fixed-step loops, acceleration. *)
From Coq Require Import Reals ZArith List Bool Lra Lia Psatz.
From Verif Require Import SimModel SimProofs.
Import ListNotations.
Local Open Scope R_scope.

(** ** Adaptive guiding centres *)
(** one pass: an accepted step advances mileage and time by exactly the same amount, a
    rejected one restores the marker and leaves a positive, shorter step *)
Theorem adaptive_pass : forall X o (w : pass X) p hin, quiet_pass w -> (o_rev o = false \/ o_orb o = true) -> 0 < hin -> 0 < o_dphi o -> 0 < o_drho o ->
  let '(q, h', e) := gca_pass o w p hin in
  match e with
  | Accepted d => d = hin * w_acc w /\ k_time q = k_time p + dir (o_rev o) * d /\ k_mileage q = k_mileage p + d /\ k_run p = true /\ k_run q = true /\ k_err q = 0%Z /\ 0 <= h' /\
      (h' = hin \/ (h' < 1 /\ In h' (proposals o w p hin))) /\ (h' = hin \/ forall ho, In ho (proposals o w p hin) -> h' <= ho) /\ (forall ho, In ho (proposals o w p hin) -> 0 <= ho) /\
      (let '(dphi, drho) := limits o p q in (dphi <= 1 /\ drho <= 1) \/ dphi = drho)
  | Rejected => q = add_cpu p (w_cpu w) /\ 0 < h' /\ k_run p = true /\ (shrinking o w -> h' < hin)
  | Nothing => k_time q = k_time p /\ k_mileage q = k_mileage p /\ (k_run q = false \/ k_err q <> 0%Z \/ (k_id q <= 0)%Z) /\ h' = hin
  end /\ (k_run p = false -> q = p /\ e = Nothing) /\ k_id q = k_id p.
Proof. exact @gca_spec. Qed.
Print Assumptions adaptive_pass.
(** any number of passes, with whatever the end conditions do in between *)
Theorem adaptive_history : forall X o, (o_rev o = false \/ o_orb o = true) -> 0 < o_dphi o -> 0 < o_drho o -> forall ws p h, 0 < h ->
  Forall (fun wf => @quiet_pass X (fst wf) /\ keeps (snd wf) /\ no_zero (fst wf)) ws ->
  let '(q, h', es) := gca_run o ws p h in
  k_mileage q = k_mileage p + total es /\ k_time q = k_time p + dir (o_rev o) * total es /\ 0 < h'.
Proof. exact @gca_history. Qed.
Print Assumptions adaptive_history.
(** running backwards without orbit following, every second pass undoes the one before *)
Theorem adaptive_reverse_without_orbit_refuted : forall X o (w : pass X) p h, o_rev o = true -> o_orb o = false -> o_col o = false -> o_icrh o = false -> k_run p = true -> k_err p = 0%Z -> (0 < k_id p)%Z ->
  let '(q, h', e) := gca_pass o w p h in
  k_time q = k_time p + h * w_acc w /\ k_mileage q = k_mileage p - h * w_acc w /\ h' = - h /\
  let '(q2, h2, _) := gca_pass o w q h' in k_time q2 = k_time p /\ k_mileage q2 = k_mileage p /\ h2 = h.
Proof. exact @gca_reverse_idle. Qed.
Print Assumptions adaptive_reverse_without_orbit_refuted.

Definition mk (t m phi rho : R) : marker unit := Mk t m 0 phi rho 1 0 true tt.
Definition idle : physics unit := fun p h => (p, 2).
(** an orbit step that moves the marker by (dphi, drho) and proposes ho *)
Definition mover (dphi drho ho : R) : physics unit := fun p h => if k_run p then (Mk (k_time p) (k_mileage p) (k_cputime p) (k_phi p + dphi) (k_rho p + drho) (k_id p) (k_err p) true tt, ho) else (p, ho).
Lemma mover_quiet : forall a b c, quiet (mover a b c).
Proof. intros a b c p h. unfold mover. destruct (k_run p) eqn:E; cbn; repeat split; auto; congruence. Qed.
Lemma idle_quiet : quiet idle.
Proof. intros p h. cbn. auto. Qed.
(** a step twice the allowed length in both senses at once is accepted *)
Theorem adaptive_limits_refuted : exists o (w : pass unit) p hin, quiet_pass w /\ 0 < hin /\ 0 < o_dphi o /\ 0 < o_drho o /\ o_rev o = false /\
  let '(q, _, e) := gca_pass o w p hin in e = Accepted hin /\ Rabs (k_phi p - k_phi q) > o_dphi o /\ Rabs (k_rho p - k_rho q) > o_drho o.
Proof.
  exists (Opt false true false false 1 1), (Pass (mover 2 2 (1/2)) idle idle 0 1), (mk 0 0 0 0), (1/4).
  split; [repeat split; auto using mover_quiet, idle_quiet; apply mover_quiet|]. cbn [o_dphi o_drho o_rev]. repeat (split; [try lra; reflexivity|]).
  unfold gca_pass, mover, mk, check. cbn [o_rev o_orb o_col o_icrh w_orb w_acc w_cpu k_run k_id k_err k_phi k_rho o_dphi o_drho k_time k_mileage k_cputime andb Z.ltb Z.compare Z.eqb].
  destruct (rlt_spec (1/2) 0); [lra|]. destruct (rlt_spec 0 1); [|lra]. cbn [andb k_run k_id k_err k_phi k_rho Z.ltb Z.compare Z.eqb].
  rewrite !Rplus_0_l, !Rminus_0_l, !Rabs_Ropp. assert (A2 : Rabs 2 = 2) by (apply Rabs_right; lra). rewrite !A2.
  destruct (rlt_spec (2/1) (2/1)); [lra|]. rewrite !andb_false_r. destruct (rlt_spec 1 0); [lra|]. cbn [k_run advance add_cpu k_phi k_rho].
  split; [f_equal; ring|]. rewrite Rminus_0_l, Rabs_Ropp, A2. lra.
Qed.
Print Assumptions adaptive_limits_refuted.
(** accepted, then rejected, then accepted with the shorter step *)
Example adaptive_example : let o := Opt true true false false 10 10 in
  let '(q, h, es) := gca_run o [(Pass (mover 0 0 (-(1/2))) idle idle 0 1, fun p => p); (Pass (mover 0 0 (1/8)) idle idle 0 1, fun p => p); (Pass (mover 0 0 (-(1/4))) idle idle 0 2, fun p => p)] (mk 5 0 0 0) (1/4) in
  k_mileage q = 1/4 + 1/4 /\ k_time q = 5 - (1/4 + 1/4) /\ es = [Accepted (1/4); Rejected; Accepted (1/4)] /\ h = 1/4.
Proof.
  cbn zeta.
  assert (P : forall (t m h ho a : R), 0 < h -> 0 < ho -> ho < 1 -> gca_pass (Opt true true false false 10 10) (Pass (mover 0 0 (- ho)) idle idle 0 a) (Mk t m 0 0 0 1 0 true tt) h
     = (Mk (t + -1 * h * a) (m + h * a) 0 0 0 1 0 true tt, ho, Accepted (h * a))).
  { intros. unfold gca_pass, mover, check. cbn [o_rev o_orb o_col o_icrh w_orb w_acc w_cpu k_run k_id k_err k_phi k_rho o_dphi o_drho k_time k_mileage k_cputime andb Z.ltb Z.compare Z.eqb].
    rewrite !Ropp_involutive. destruct (rlt_spec ho 0); [lra|]. cbn [andb k_run k_id k_err k_phi k_rho Z.ltb Z.compare Z.eqb].
    destruct (rlt_spec 0 1); [|lra]. rewrite !Rplus_0_r, !Rminus_0_r, Rabs_R0. unfold Rdiv. rewrite !Rmult_0_l.
    destruct (rlt_spec 1 0); [lra|]. cbn [andb]. destruct (rlt_spec 1 0); [lra|]. cbn [k_run]. unfold smaller.
    destruct (rlt_spec ho 1); [|lra]. destruct (rlt_spec 1 ho); [lra|]. destruct (rlt_spec 1 ho); [lra|]. destruct (Req_EM_T ho 1); [lra|]. unfold advance, add_cpu. cbn. f_equal. f_equal. f_equal. ring. }
  assert (Q : forall (t m h ho a : R), 0 < h -> 0 < ho -> gca_pass (Opt true true false false 10 10) (Pass (mover 0 0 ho) idle idle 0 a) (Mk t m 0 0 0 1 0 true tt) h
     = (Mk t m 0 0 0 1 0 true tt, ho, Rejected)).
  { intros. unfold gca_pass, mover, check. cbn [o_rev o_orb o_col o_icrh w_orb w_acc w_cpu k_run k_id k_err k_phi k_rho o_dphi o_drho k_time k_mileage k_cputime andb Z.ltb Z.compare Z.eqb].
    destruct (rlt_spec (- ho) 0); [|lra]. cbn [andb stop k_run k_id k_err k_phi k_rho Z.ltb Z.compare Z.eqb]. destruct (rlt_spec 0 (- ho)); [lra|]. destruct (rlt_spec (- ho) 0); [|lra]. cbn [k_run].
    unfold add_cpu. cbn. rewrite Rplus_0_r, Ropp_involutive. reflexivity. }
  unfold gca_run, mk. rewrite P by lra. rewrite Q by lra. rewrite P by lra. cbn [k_mileage k_time]. split; [lra|]. split; [lra|]. split; [|reflexivity].
  replace (1 / 4 * 1) with (1 / 4) by lra. replace (1 / 8 * 2) with (1 / 4) by lra. reflexivity.
Qed.

(** ** Field lines: mileage is length over the speed of light, the time stands still *)
Theorem fieldline_pass : forall X c o (w : pass X) p hin, quiet (w_orb w) -> 0 < hin -> 0 < o_dphi o -> 0 < o_drho o ->
  let '(q, h', e) := mla_pass c o w p hin in
  match e with
  | Accepted d => d = hin / c /\ k_time q = k_time p /\ k_mileage q = k_mileage p + d /\ k_run p = true /\ k_run q = true /\ k_err q = 0%Z /\ 0 <= h' /\ (h' = hin \/ h' < 100) /\
      (let '(dphi, drho) := limits o p q in (dphi <= 1 /\ drho <= 1) \/ dphi = drho)
  | Rejected => q = add_cpu p (w_cpu w) /\ 0 < h' /\ k_run p = true /\ ((o_orb o = true -> shrinks (o_rev o) (w_orb w)) -> h' < hin)
  | Nothing => k_time q = k_time p /\ k_mileage q = k_mileage p /\ (k_run q = false \/ k_err q <> 0%Z) /\ h' = hin
  end /\ (k_run p = false -> q = p /\ e = Nothing).
Proof. exact @mla_spec. Qed.
Print Assumptions fieldline_pass.

(** ** Fixed steps *)
Theorem fixed_particle_history : forall X o h ws p, Forall (fun wf => @quiet_pass X (fst wf) /\ keeps (snd wf)) ws ->
  let '(q, n) := fof_run o ws p h in k_mileage q = k_mileage p + INR n * h /\ k_time q = k_time p + dir (o_rev o) * (INR n * h) /\ (n <= length ws)%nat.
Proof. exact @fof_history. Qed.
Print Assumptions fixed_particle_history.
Theorem fixed_particle_pass : forall X o (w : pass X) p hin, quiet_pass w -> let '(q, e) := fof_pass o w p hin in
  k_time q = k_time p + dir (o_rev o) * amount e /\ k_mileage q = k_mileage p + amount e /\ (e = Accepted hin \/ e = Nothing) /\ (e = Accepted hin <-> k_run q = true) /\ (k_run p = false -> q = p).
Proof. exact @fof_spec. Qed.
Print Assumptions fixed_particle_pass.
Theorem fixed_gc_pass : forall X o (w : pass X) p hin hdef, quiet_pass w -> 0 < hin -> let '(q, (h', hdef', recom'), e) := gcf_pass o w p (hin, hdef, 1) in
  hdef' = hdef /\ (k_run q = true -> recom' = 1) /\
  match e with
  | Accepted d => d = (if o_icrh o then hdef else hin) /\ h' = d /\ k_time q = k_time p + dir (o_rev o) * d /\ k_mileage q = k_mileage p + d
  | Rejected => q = p /\ o_icrh o = true /\ 0 < h'
  | Nothing => k_time q = k_time p /\ k_mileage q = k_mileage p /\ k_run q = false
  end.
Proof. exact @gcf_spec. Qed.
Print Assumptions fixed_gc_pass.
(** with RF heating: the step is retried with 1/2 after a rejection, every module runs with
    1/2, and the clock advances by the default 1 *)
Theorem fixed_gc_rf_clock_refuted : exists o (w1 w2 : pass unit) p, quiet_pass w1 /\ quiet_pass w2 /\
  let '(q, hs, e) := gcf_pass o w1 p (1, 1, 1) in e = Rejected /\ hs = (1/2, 1, 1) /\
  let '(q2, _, e2) := gcf_pass o w2 q hs in e2 = Accepted 1 /\ k_time q2 = k_time p + 1 /\ k_phi q2 = k_phi p + 1/2.
Proof.
  set (orb := (fun p h => mover h 0 1 p h) : physics unit). set (rej := (fun p h => (p, -(1/2))) : physics unit).
  exists (Opt false true false true 1 1), (Pass orb idle rej 0 1), (Pass orb idle idle 0 1), (mk 0 0 0 0).
  assert (QO : quiet orb). { intros p h. apply mover_quiet. }
  assert (QR : quiet rej). { intros p h. cbn. auto. }
  split; [repeat split; auto; apply QO || apply QR|]. split; [repeat split; auto; apply QO|].
  unfold gcf_pass at 1. cbn [o_rev o_orb o_col o_icrh w_orb w_rf w_cpu k_run]. unfold orb at 1, mover, rej, mk. cbn [k_run fst]. cbn [andb].
  destruct (rlt_spec (-(1/2)) 0); [|lra]. cbv beta iota. destruct (rlt_spec (-(1/2)) 0); [|lra]. cbv beta iota. cbn [k_run]. split; [reflexivity|]. split; [rewrite Ropp_involutive; reflexivity|].
  unfold gcf_pass. cbn [o_rev o_orb o_col o_icrh w_orb w_rf w_cpu k_run]. unfold orb, mover, idle. cbn [k_run fst]. cbn [andb].
  destruct (rlt_spec 2 0); [lra|]. destruct (rlt_spec 1 0); [lra|]. cbn. split; [reflexivity|]. split; lra.
Qed.
Print Assumptions fixed_gc_rf_clock_refuted.
(** and a marker entering an emptied slot is timed with its predecessor's step *)
Theorem fixed_gc_rf_refill_refuted : exists o (w : pass unit) p, quiet_pass w /\ forall inidt hdef, 0 < inidt ->
  let '(q, _, e) := gcf_pass o w p (gcf_refill inidt (hdef, hdef, 1)) in e = Accepted hdef /\ k_time q = k_time p + hdef /\ k_phi q = k_phi p + inidt.
Proof.
  set (orb := (fun p h => mover h 0 1 p h) : physics unit).
  exists (Opt false true false true 1 1), (Pass orb idle idle 0 1), (mk 0 0 0 0). split; [repeat split; auto; apply mover_quiet|].
  intros inidt hdef HI. unfold gcf_refill, gcf_pass. cbn [o_rev o_orb o_col o_icrh w_orb w_rf w_cpu k_run]. unfold orb, mover, idle, mk. cbn [k_run fst]. cbn [andb].
  destruct (rlt_spec 2 0); [lra|]. destruct (rlt_spec 1 0); [lra|]. cbn. split; [reflexivity|]. split; lra.
Qed.
Print Assumptions fixed_gc_rf_refill_refuted.
Example fixed_example : let o := Opt true true false false 1 1 in let w := Pass (mover 1 0 1) idle idle 0 1 in
  let '(q, n) := fof_run o [(w, fun p => p); (w, stop); (w, fun p => p)] (mk 10 0 0 0) 2 in n = 2%nat /\ k_mileage q = 4 /\ k_time q = 6.
Proof. cbn. repeat split; lra. Qed.

(** ** Acceleration of simulation time *)
Theorem acceleration_at_least_one : forall xs twice first, 1 <= a_acc (fold_left (fun a x => act x a) xs (acc_init twice first)).
Proof. intros. apply acts_ge1. cbn. lra. Qed.
Print Assumptions acceleration_at_least_one.
(** the flags left uninitialised at the start do not influence the factor *)
Theorem acceleration_uninitialised_flags_harmless : forall xs t1 f1 t2 f2, Forall sound xs ->
  a_acc (fold_left (fun a x => act x a) xs (acc_init t1 f1)) = a_acc (fold_left (fun a x => act x a) xs (acc_init t2 f2)).
Proof. intros. apply acts_fresh; auto. right. split; cbn; auto. split; auto. repeat split; auto. Qed.
Print Assumptions acceleration_uninitialised_flags_harmless.
Theorem acceleration_one_orbit : forall s nu pp hs A (f : bool), let T := fold_right Rplus 0 hs in 0 < nu -> 0 < T -> 1 <= A -> Forall (fun h => 0 <= h) hs -> (if f then 0 < pp else pp < 0) ->
  fold_left (fun a x => act x a) (map Step hs ++ [Cross s nu pp]) (Acc A 0 true false f) = Acc (Rmax 1 (s / (T * nu) / A)) 0 true false f.
Proof. exact orbit_acc. Qed.
Print Assumptions acceleration_one_orbit.
Theorem acceleration_bounce_orbit : forall s nu s' nu' pp pp' hs hs' A (f : bool), let T := fold_right Rplus 0 hs + fold_right Rplus 0 hs' in 0 < nu -> 0 < T -> 1 <= A ->
  Forall (fun h => 0 <= h) hs -> Forall (fun h => 0 <= h) hs' -> (if f then pp' < 0 < pp else pp < 0 < pp') ->
  fold_left (fun a x => act x a) (map Step hs ++ [Cross s' nu' pp'] ++ map Step hs' ++ [Cross s nu pp]) (Acc A 0 true false f) = Acc (Rmax 1 (s / (T * nu) / A)) 0 true false f.
Proof. exact bounce_acc. Qed.
Print Assumptions acceleration_bounce_orbit.
(** a periodic orbit does not get a settled factor: it is 1 and K on alternating orbits *)
Theorem acceleration_settles_refuted : forall s nu pp hs, let T := fold_right Rplus 0 hs in let K := s / (T * nu) in
  0 < nu -> 0 < T -> 1 <= K -> Forall (fun h => 0 <= h) hs -> pp <> 0 -> forall n,
  a_acc (orbits s nu pp hs (2 * n) (Acc 1 0 true false (rlt 0 pp))) = 1 /\
  a_acc (orbits s nu pp hs (2 * n + 1) (Acc 1 0 true false (rlt 0 pp))) = K.
Proof. exact orbits_alternate. Qed.
Print Assumptions acceleration_settles_refuted.
Example acceleration_example : a_acc (orbits 20 1 3 [1; 1] 3 (Acc 1 0 true false (rlt 0 3))) = 10 /\ a_acc (orbits 20 1 3 [1; 1] 4 (Acc 1 0 true false (rlt 0 3))) = 1.
Proof.
  destruct (acceleration_settles_refuted 20 1 3 [1; 1]) with (n := 1%nat) as [_ A]; try (cbn; lra); [repeat constructor; lra|].
  destruct (acceleration_settles_refuted 20 1 3 [1; 1]) with (n := 2%nat) as [B _]; try (cbn; lra); [repeat constructor; lra|].
  cbn [Nat.mul Nat.add] in A, B. split; [rewrite A; cbn; lra|exact B].
Qed.
