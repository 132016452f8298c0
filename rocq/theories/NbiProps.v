(** Properties of the beam injection (src/nbi.c, src/bbnbi5.c). *)
From Coq Require Import Reals Lra Lia ZArith List Bool.
From Verif Require Import Vec PhysModel PhysProofs StepFoModel StepFoProofs EndcondModel AtomModel AtomProofs NbiModel NbiProofs.
Import ListNotations.
Local Open Scope R_scope.

(** C44. *)
Theorem beam_shares_exact : forall nprt ps ns, ps <> [] -> shares nprt ps = Some ns -> sumZ ns = nprt /\ length ns = length ps.
Proof. exact shares_exact. Qed.
Print Assumptions beam_shares_exact.
Theorem beam_shares_fair : forall nprt ps, (0 <= nprt)%Z -> Forall (fun p => 0 <= p) ps -> 0 < sumR ps ->
  exists ns, shares nprt ps = Some ns /\ fair (sumR ps) nprt ps ns /\ Forall (fun k => (0 <= k)%Z) ns /\
    IZR (last ns 0%Z) <= last ps 0 / sumR ps * IZR nprt + INR (length ps - 1).
Proof. exact shares_fair. Qed.
Print Assumptions beam_shares_fair.
Theorem beam_ids_exact : forall nprt ps, (0 <= nprt)%Z -> Forall (fun p => 0 <= p) ps -> 0 < sumR ps ->
  exists ns, shares nprt ps = Some ns /\ marker_ids 0 ns = map Z.of_nat (seq 1 (Z.to_nat nprt)) /\ NoDup (marker_ids 0 ns).
Proof. exact beam_ids. Qed.
Print Assumptions beam_ids_exact.
(** finding: a division by zero when no injector has power *)
Theorem beam_no_power_undefined : forall nprt ps, ps <> [] -> (shares nprt ps = None <-> sumR ps = 0).
Proof. exact no_power. Qed.
Print Assumptions beam_no_power_undefined.
Theorem beam_power : forall i n, (0 < n)%Z -> energy i <> 0 -> power i <> 0 -> ef0 i + ef1 i / 2 + ef2 i / 3 <> 0 ->
  (IZR n * weight i n * mean_energy i = power i <-> ef0 i + ef1 i + ef2 i = 1).
Proof. exact power_iff. Qed.
Print Assumptions beam_power.
Theorem beam_energy_fractions : forall i, 0 <= ef0 i -> 0 <= ef1 i -> ef0 i + ef1 i <= 1 -> energy i <> 0 ->
  exactly_on (fun r => pick_energy i r = energy i) 0 (ef0 i) /\
  exactly_on (fun r => pick_energy i r = energy i / 2) (ef0 i) (ef0 i + ef1 i) /\
  exactly_on (fun r => pick_energy i r = energy i / 3) (ef0 i + ef1 i) 1.
Proof. exact pick_energy_law. Qed.
Print Assumptions beam_energy_fractions.
(** finding: an injector below one marker loses its power *)
Theorem beam_small_injector_dropped : forall nprt p p2 ps, (0 <= nprt)%Z -> Forall (fun p => 0 <= p) (p :: p2 :: ps) -> 0 < sumR (p :: p2 :: ps) ->
  p / sumR (p :: p2 :: ps) * IZR nprt < 1 -> exists ns, shares nprt (p :: p2 :: ps) = Some (0%Z :: ns).
Proof. exact small_injector_dropped. Qed.
Print Assumptions beam_small_injector_dropped.
(** an injector without power gets the markers the others lost in the rounding; without any
    injector no marker is filled in, whatever their number *)
Example shares_example : shares 10 [1; 1; 1; 0] = Some [3; 3; 3; 1]%Z /\ marker_ids 0 [3; 3; 3; 1]%Z = [1; 2; 3; 4; 5; 6; 7; 8; 9; 10]%Z /\ shares 5 [] = Some [] /\ shares 5 [0; 0] = None.
Proof.
  assert (K : forall t, t = 3 -> ctrunc (1 / t * IZR 10) = 3%Z) by (intros t ->; apply ctrunc_at; [lia|lra]).
  split; [|split; [reflexivity|split; [reflexivity|]]].
  - unfold shares. cbn [fold_left]. destruct (Req_EM_T _ 0); [lra|]. cbn [share_loop]. rewrite !K by ring. reflexivity.
  - apply no_power; [discriminate|]. unfold sumR. cbn [fold_right]. ring.
Qed.

(** C76. *)
Theorem beamlets_decoded : forall xyz ns idx i n, nth_error ns i = Some n -> exists b, nth_error (nbi_beamlets xyz idx ns) i = Some b /\ nbl b = n /\
  forall j, let o := (idx + bl_offset ns i)%nat in
    bx b j = xyz (o + j)%nat /\ byy b j = xyz (o + n + j)%nat /\ bz b j = xyz (o + 2 * n + j)%nat /\
    bdx b j = xyz (o + 3 * n + j)%nat /\ bdy b j = xyz (o + 4 * n + j)%nat /\ bdz b j = xyz (o + 5 * n + j)%nat.
Proof. exact beamlets_at. Qed.
Print Assumptions beamlets_decoded.
Theorem beamlet_index_safe : forall i u r s g1 g2, 0 <= u -> (0 < nbl (ibl i))%nat -> ((exists x, nbi_inject i u r s g1 g2 = Some x) <-> u < 1).
Proof. exact beamlet_in_range. Qed.
Print Assumptions beamlet_index_safe.
Theorem beam_launch : forall i u r s g1 g2 x v, 0 < imass i -> 0 <= energy i -> (forall j, (j < nbl (ibl i))%nat -> norm (V (bdx (ibl i) j) (bdy (ibl i) j) (bdz (ibl i) j)) = 1) ->
  nbi_inject i u r s g1 g2 = Some (x, v) ->
  exists j, (j < nbl (ibl i))%nat /\ IZR (Z.of_nat j) <= u * INR (nbl (ibl i)) < IZR (Z.of_nat j) + 1 /\
    x = V (bx (ibl i) j) (byy (ibl i) j) (bz (ibl i) j) /\ launched i r s g1 g2 (V (bdx (ibl i) j) (bdy (ibl i) j) (bdz (ibl i) j)) v.
Proof. exact inject_spec. Qed.
Print Assumptions beam_launch.
Theorem beam_launch_angle : forall i r s g1 g2 d v, norm d = 1 -> launched i r s g1 g2 d v ->
  dot v d = norm v * (cos ((if Rlt_dec s (halo_frac i) then halo_h i else div_h i) * g1 / sqrt 2) * cos ((if Rlt_dec s (halo_frac i) then halo_v i else div_v i) * g2 / sqrt 2)).
Proof. exact launched_angle. Qed.
Print Assumptions beam_launch_angle.
Theorem beam_enters_field : forall fails fuel x d t y, enter fails fuel x d t = Some y <->
  exists k, (k < fuel)%nat /\ y = ray x d k /\ fails (xyz2rpz y) t = false /\ forall j, (j < k)%nat -> fails (xyz2rpz (ray x d j)) t = true.
Proof. exact enter_spec. Qed.
Print Assumptions beam_enters_field.
(** finding: a beamlet that misses the field never ends the loop *)
Theorem beam_never_enters : forall fails x d t, (forall fuel, enter fails fuel x d t = None) <-> forall k, fails (xyz2rpz (ray x d k)) t = true.
Proof. exact enter_forever. Qed.
Print Assumptions beam_never_enters.
Theorem beam_marker_sound : forall fails fuel i nprt gen j t0 t1 ut u r s g1 g2 m, 0 < imass i -> 0 <= energy i ->
  (forall j, (j < nbl (ibl i))%nat -> norm (V (bdx (ibl i) j) (bdy (ibl i) j) (bdz (ibl i) j)) = 1) ->
  inject_marker fails fuel i nprt gen j t0 t1 ut u r s g1 g2 = Some m ->
  exists x v k, nbi_inject i u r s g1 g2 = Some (x, v) /\
    pos_xyz (vx (mrpz m)) (vy (mrpz m)) (vz (mrpz m)) = ray x (unit v) k /\ fails (mrpz m) (mtime m) = false /\
    to_xyz (mp m) (vy (mrpz m)) = vscal (gamma_vnorm (norm v) * imass i) v /\
    Ekin_pnorm (mmass m) (norm (mp m)) = pick_energy i r /\
    mcharge m = 0 /\ mweight m = weight i nprt /\ mid m = (gen + Z.of_nat j + 1)%Z /\ mmileage m = 0 /\ mtime m = t0 + ut * (t1 - t0).
Proof. exact marker_spec. Qed.
Print Assumptions beam_marker_sound.
Definition one := INJ 2 1 1 3 6 1 0 0 0 0 0 0 0 (BL 1 (fun _ => 5) (fun _ => 0) (fun _ => 2) (fun _ => 1) (fun _ => 0) (fun _ => 0)).
(** without divergence the launch is along the beamlet *)
Example inject_example : forall r s g1 g2, r < 1 -> exists v, nbi_inject one (/ 2) r s g1 g2 = Some (V 5 0 2, V v 0 0) /\ 0 <= v < CONST_C /\ Ekin_gamma 1 (gamma_vnorm v) = 6.
Proof.
  intros r s g1 g2 R1. destruct (beamlet_in_range one (/ 2) r s g1 g2) as [_ X]; [lra|cbn; lia|]. destruct X as [[x v] X]; [lra|].
  assert (U : norm (V 1 0 0) = 1) by (transitivity (sqrt 1); [unfold norm; cbn [vx vy vz]; f_equal; ring|apply sqrt_1]).
  destruct (inject_spec one (/ 2) r s g1 g2 x v) as (j & _ & _ & Hx & L); cbn [imass energy one ibl nbl bx byy bz bdx bdy bdz] in *; auto; try lra.
  destruct L as (EK & VC & nh & nv & N1 & N2 & O1 & O2 & O3 & _ & _ & Hv). cbn [imass halo_frac halo_h halo_v div_h div_v one] in *.
  exists (norm v). rewrite X, Hx. pose proof (norm_nonneg v) as NN.
  assert (Z1 : (if Rlt_dec s 0 then 0 else 0) * g1 / sqrt 2 = 0) by (destruct (Rlt_dec s 0); unfold Rdiv; ring).
  assert (Z2 : (if Rlt_dec s 0 then 0 else 0) * g2 / sqrt 2 = 0) by (destruct (Rlt_dec s 0); unfold Rdiv; ring).
  rewrite Z1, Z2, sin_0, cos_0 in Hv. split; [|split; [lra|]].
  - f_equal. f_equal. rewrite Hv at 1. unfold vscal, vadd. cbn [vx vy vz]. apply f_equal3; ring.
  - rewrite EK. unfold pick_energy. cbn [ef0 energy one]. destruct (Rlt_dec r 1); lra.
Qed.

(** C77. *)
Section C77.
Variable rho_at : R -> R -> R -> Z + R.
Variable rate_at : R -> R -> R -> R -> Z + R.
Variable hit : R * R * R -> R * R * R -> Z * R.
Variable junk : R.
Notation stp := (trace_step rho_at rate_at hit junk).
Notation trc := (trace rho_at rate_at hit junk).
Theorem beam_straight : forall n p, frun (trc n p) = true -> (forall k, (k < n)%nat -> 0 < fx (trc k p)) ->
  place (trc n p) = vadd (place p) (vscal (INR n * hin) (speed p)) /\ speed (trc n p) = speed p /\ fmile (trc n p) = fmile p + INR n * hin /\
  ftime (trc n p) = ftime p /\ fcharge (trc n p) = fcharge p /\ fend (trc n p) = fend p /\ ferr (trc n p) = ferr p /\ threshold (trc n p) = threshold p.
Proof. exact (straight rho_at rate_at hit junk). Qed.
Theorem beam_flight_ends : forall n p, n <> 0%nat -> 1e-3 < fmile p + INR n * hin -> frun (trc n p) = false.
Proof. exact (flight_ends rho_at rate_at hit junk). Qed.
Theorem beam_survival : forall n p rate, frun (trc n p) = true ->
  (forall k, (k < n)%nat -> rate_at (fx (trc (S k) p)) (fphi (trc (S k) p)) (fz (trc (S k) p)) (frho (trc (S k) p)) = inr (rate k)) ->
  remaining (trc n p) = remaining p * exp (- (hin * sumR (map rate (seq 0 n)))) /\ (n <> 0%nat -> threshold p <= remaining (trc n p)) /\ threshold (trc n p) = threshold p.
Proof. exact (survival rho_at rate_at hit junk). Qed.
Theorem beam_wall_after_plasma : forall n p, shine p = false -> Z.testbit (fend p) 3 = false -> Z.testbit (fend (trc n p)) 3 = true ->
  exists k, (k < n)%nat /\ frho (trc k p) <= 1 /\ 1 < frho (trc (S k) p).
Proof. exact (wall_after_plasma rho_at rate_at hit junk). Qed.
Theorem beam_wall_time : forall n p, (forall k, (k < n)%nat -> frun (trc k p) = true) -> finish_time (trc n p) = ftime p + fmile p + INR n * hin.
Proof. exact (wall_time rho_at rate_at hit junk). Qed.
Theorem beam_step_decided : forall p, frun p = true -> decided rho_at rate_at hit p (stp p).
Proof. exact (step_decided rho_at rate_at hit junk). Qed.
End C77.
Print Assumptions beam_straight.
Print Assumptions beam_flight_ends.
Print Assumptions beam_survival.
Print Assumptions beam_wall_after_plasma.
Print Assumptions beam_wall_time.
Print Assumptions beam_step_decided.
(** ten million steps and one are always enough for a new marker *)
Example flight_bound : forall ra rt hi j p, fmile p = 0 -> frun (trace ra rt hi j (10 * (1000 * 1000) + 1) p) = false.
Proof.
  intros ra rt hi j p M. apply flight_ends; [lia|]. rewrite M, plus_INR, !mult_INR, !(INR_IZR_INZ 1000), (INR_IZR_INZ 10). unfold hin.
  change (Z.of_nat 1000) with 1000%Z. change (Z.of_nat 10) with 10%Z. cbn [INR]. lra.
Qed.
(** in a thick plasma the first step ionises *)
Example ionise_example : let p := FL 1 0 0 (V 1 0 0) 1 0 (/ 2) 0 0 0 0 true 0 1 (/ 2) false in
  let q := trace_step (fun _ _ _ => inr (/ 2)) (fun _ _ _ _ => inr 1e10) (fun _ _ => (7%Z, 0)) 0 p in
  frun q = false /\ fcharge q = CONST_E /\ remaining q = exp (- (1)) /\ Z.testbit (fend q) 11 = true /\ Z.testbit (fend q) 3 = false.
Proof.
  intros p q. pose proof (step_decided (fun _ _ _ => inr (/ 2)) (fun _ _ _ _ => inr 1e10) (fun _ _ => (7%Z, 0)) 0 p eq_refl) as D. fold q in D. unfold decided in D.
  destruct (flown p) as [[r phi] z]. destruct (D r phi z eq_refl) as (_ & D2 & _). destruct (D2 (/ 2) 1e10 eq_refl eq_refl) as (_ & A & _ & _ & B & C & E & _).
  cbn [remaining shine frho threshold fmile fend p] in *. assert (X : 1 * exp (- (1e10 * hin)) = exp (- (1))) by (unfold hin; replace (1e10 * 1e-10) with 1 by lra; ring).
  rewrite X in *. assert (L : exp (- (1)) < / 2) by (rewrite exp_Ropp; apply Rinv_lt_contravar; pose proof (exp_ineq1 1 ltac:(lra)); lra).
  split; [apply B; auto|]. split; [auto|]. split; [exact A|]. split; [apply C; [lia|auto]|].
  destruct (Z.testbit (fend q) 3) eqn:T; auto. apply C in T; [|lia]. cbn in T. destruct T as [T|[[_ [[T|T] _]]|[[T _]|[T _]]]]; try discriminate. lra.
Qed.
