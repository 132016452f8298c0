(** Properties of the Boozer coordinates and the MHD perturbations (src/boozer.c, src/mhd.c, src/mhd/mhd_stat.c, src/mhd/mhd_nonstat.c). *)
From Coq Require Import Reals ZArith List Bool Lra Lia.
From Verif Require Import Deriv Vec ErrorModel MathModel GsProofs MhdModel MhdProofs.
Import ListNotations.
Local Open Scope R_scope.

(** C83, C84, C85. *)
Section eval.
Variable inpoly : R -> R -> bool.
Variable evalpsi : R -> R -> R -> R -> Z * arr.
Variable evalrho : R -> Z * arr.
Variable axis : R -> Z * arr.
Variables thspl nuspl : R -> R -> bool * arr.
Variables psimin psimax : R.
Notation boozer_eval := (boozer_eval inpoly evalpsi evalrho axis thspl nuspl psimin psimax).
Notation mhd_eval_gen := (mhd_eval_gen inpoly evalpsi evalrho axis thspl nuspl psimin psimax).
Notation psi_f := (MhdProofs.psi_f evalpsi).
Notation th_f := (MhdProofs.th_f thspl).
Notation nu_f := (MhdProofs.nu_f nuspl).
Notation rho_f := (MhdProofs.rho_f evalrho).
Notation theta_f := (MhdProofs.theta_f evalpsi thspl).
Notation zeta_f := (MhdProofs.zeta_f evalpsi thspl nuspl).
Notation covered := (MhdProofs.covered inpoly evalpsi evalrho axis thspl nuspl psimin psimax).
Notation smooth := (MhdProofs.smooth evalpsi evalrho thspl nuspl).
Notation near_covered := (MhdProofs.near_covered inpoly evalpsi evalrho axis thspl nuspl psimin psimax).
Notation ptz_f := (MhdProofs.ptz_f inpoly evalpsi evalrho axis thspl nuspl psimin psimax).
Notation out_f := (MhdProofs.out_f inpoly evalpsi evalrho axis thspl nuspl psimin psimax).
Notation stat_covered := (MhdProofs.stat_covered inpoly evalpsi evalrho axis thspl nuspl psimin psimax).
Notation nonstat_covered := (MhdProofs.nonstat_covered inpoly evalpsi evalrho axis thspl nuspl psimin psimax).
(** the coordinates that are returned and the derivatives reported with them *)
Theorem boozer_coordinates : forall junk r0 z0 r f z, covered r0 z0 r f z -> exists p,
  boozer_eval junk r f z = Some (0%Z, true, p) /\ p 0%nat = psi_f r f z /\ p 4%nat = theta_f r0 z0 r f z /\ p 8%nat = wrap2 (zeta_f r0 z0 r f z) /\
  let psi := snd (evalpsi r f z 0) in let th := snd (thspl (psi_f r f z) (thgeo (r - r0) (z - z0))) in let nu := snd (nuspl (psi_f r f z) (theta_f r0 z0 r f z)) in
  let a2 := (r - r0) * (r - r0) + (z - z0) * (z - z0) in
  p 1%nat = psi 1%nat /\ p 2%nat = 0 /\ p 3%nat = psi 3%nat /\
  p 5%nat = th 1%nat * psi 1%nat + th 2%nat * (- (z - z0) / a2) /\ p 6%nat = 0 /\ p 7%nat = th 1%nat * psi 3%nat + th 2%nat * ((r - r0) / a2) /\
  p 9%nat = nu 1%nat * psi 1%nat + nu 2%nat * p 5%nat /\ p 10%nat = 1 /\ p 11%nat = nu 1%nat * psi 3%nat + nu 2%nat * p 7%nat.
Proof. exact (boozer_covered inpoly evalpsi evalrho axis thspl nuspl psimin psimax). Qed.
(** the toroidal angle is in one turn and differs from phi + nu by whole turns *)
Theorem boozer_angle_range : forall junk r0 z0 r f z, covered r0 z0 r f z ->
  0 <= ptz_f junk 8 r f z < 2 * PI /\ exists k, ptz_f junk 8 r f z = zeta_f r0 z0 r f z + 2 * PI * IZR k.
Proof. exact (boozer_ranges inpoly evalpsi evalrho axis thspl nuspl psimin psimax). Qed.
(** the reported derivatives are those of the returned coordinates when the flux does not depend on the toroidal angle *)
Theorem boozer_derivatives : forall junk r0 z0 r f z, near_covered r0 z0 r f z -> smooth r0 z0 r f z -> snd (evalpsi r f z 0) 2%nat = 0 ->
  let p := fun k => ptz_f junk k r f z in
  diff3 (ptz_f junk 0) r f z (p 1%nat) (p 2%nat) (p 3%nat) /\
  diff3 (ptz_f junk 4) r f z (p 5%nat) (p 6%nat) (p 7%nat) /\
  (p 8%nat <> 0 -> diff3 (ptz_f junk 8) r f z (p 9%nat) (p 10%nat) (p 11%nat)).
Proof. exact (boozer_gradients inpoly evalpsi evalrho axis thspl nuspl psimin psimax). Qed.
(** the potentials are sums of travelling waves in the Boozer angles *)
Theorem mhd_potentials : forall junk jrho ds inc r0 z0 r f z t, let ms := chosen inc 0 ds in stat_covered r0 z0 ms r f z t ->
  exists o, mhd_eval_gen stat_mode junk jrho ds r f z t inc = Some (0%Z, o) /\
  let rho := rho_f (psi_f r f z) in
  o 0%nat = sumL (fun d => wave d (snd (malpha d rho) 0%nat) (zeta_f r0 z0 r f z) (theta_f r0 z0 r f z) t) ms /\
  o 5%nat = sumL (fun d => wave d (snd (mphi d rho) 0%nat) (zeta_f r0 z0 r f z) (theta_f r0 z0 r f z) t) ms.
Proof. exact (mhd_waves inpoly evalpsi evalrho axis thspl nuspl psimin psimax). Qed.
(** the reported time derivatives and gradients are those of the reported potentials *)
Theorem mhd_stationary_derivatives : forall junk jrho ds inc r0 z0 r f z t, let ms := chosen inc 0 ds in
  near4 r f z t (stat_covered r0 z0 ms) -> smooth r0 z0 r f z -> r <> 0 -> snd (evalpsi r f z 0) 2%nat = 0 ->
  let rho := rho_f (psi_f r f z) in
  (forall d, In d ms -> Dx (fun x => snd (malpha d x) 0%nat) rho (snd (malpha d rho) 1%nat) /\ Dx (fun x => snd (mphi d x) 0%nat) rho (snd (mphi d rho) 1%nat)) ->
  let o := fun k => out_f stat_mode junk jrho ds inc k in
  diff4 (o 0%nat) r f z t (o 2%nat r f z t) (r * o 3%nat r f z t) (o 4%nat r f z t) (o 1%nat r f z t) /\
  diff4 (o 5%nat) r f z t (o 7%nat r f z t) (r * o 8%nat r f z t) (o 9%nat r f z t) (o 6%nat r f z t).
Proof. exact (stat_gradients inpoly evalpsi evalrho axis thspl nuspl psimin psimax). Qed.
Theorem mhd_derivatives : forall junk jrho ds inc r0 z0 r f z t, let ms := chosen inc 0 ds in
  near4 r f z t (nonstat_covered r0 z0 ms) -> smooth r0 z0 r f z -> r <> 0 -> snd (evalpsi r f z 0) 2%nat = 0 ->
  let rho := rho_f (psi_f r f z) in
  (forall d, In d ms -> diff2 (fun x t => snd (malpha d x t) 0%nat) rho t (snd (malpha d rho t) 1%nat) (snd (malpha d rho t) 2%nat) /\
                        diff2 (fun x t => snd (mphi d x t) 0%nat) rho t (snd (mphi d rho t) 1%nat) (snd (mphi d rho t) 2%nat)) ->
  let o := fun k => out_f nonstat_mode junk jrho ds inc k in
  diff4 (o 0%nat) r f z t (o 2%nat r f z t) (r * o 3%nat r f z t) (o 4%nat r f z t) (o 1%nat r f z t) /\
  diff4 (o 5%nat) r f z t (o 7%nat r f z t) (r * o 8%nat r f z t) (o 9%nat r f z t) (o 6%nat r f z t).
Proof. exact (nonstat_gradients inpoly evalpsi evalrho axis thspl nuspl psimin psimax). Qed.
(** finding: in general the toroidal derivative lacks the part that comes from the flux *)
Theorem mhd_derivatives_any_flux : forall junk jrho ds inc r0 z0 r f z t, let ms := chosen inc 0 ds in
  near4 r f z t (nonstat_covered r0 z0 ms) -> smooth r0 z0 r f z -> r <> 0 ->
  let rho := rho_f (psi_f r f z) in
  (forall d, In d ms -> diff2 (fun x t => snd (malpha d x t) 0%nat) rho t (snd (malpha d rho t) 1%nat) (snd (malpha d rho t) 2%nat) /\
                        diff2 (fun x t => snd (mphi d x t) 0%nat) rho t (snd (mphi d rho t) 1%nat) (snd (mphi d rho t) 2%nat)) ->
  let o := fun k => out_f nonstat_mode junk jrho ds inc k in
  let x := fun d : mode neig => IZR (mn d) * zeta_f r0 z0 r f z - IZR (mm d) * theta_f r0 z0 r f z - momega d * t + mphase d in
  let lo := fun (q : mode neig -> neig) => snd (evalpsi r f z 0) 2%nat * sumL (fun d => left_out d (snd (q d rho t)) (snd (thspl (psi_f r f z) (thgeo (r - r0) (z - z0)))) (snd (nuspl (psi_f r f z) (theta_f r0 z0 r f z)))
    (snd (evalrho (psi_f r f z)) 1%nat) (x d)) ms in
  diff4 (o 0%nat) r f z t (o 2%nat r f z t) (r * o 3%nat r f z t + lo malpha) (o 4%nat r f z t) (o 1%nat r f z t) /\
  diff4 (o 5%nat) r f z t (o 7%nat r f z t) (r * o 8%nat r f z t + lo mphi) (o 9%nat r f z t) (o 6%nat r f z t).
Proof. exact (nonstat_gradients_gen inpoly evalpsi evalrho axis thspl nuspl psimin psimax). Qed.
(** stationary modes are modes whose profiles do not change in time *)
Theorem mhd_stationary_is_constant : forall junk jrho ds inc r f z t,
  match mhd_eval_gen nonstat_mode junk jrho (map lift_mode ds) r f z t inc, mhd_eval_gen stat_mode junk jrho ds r f z t inc with
  | Some (e, o), Some (e', o') => e = e' /\ forall k, o k = o' k
  | None, None => True
  | _, _ => False
  end.
Proof. exact (stat_is_constant inpoly evalpsi evalrho axis thspl nuspl psimin psimax). Qed.
(** outside the region everything is zero, whatever uninitialised memory held *)
Theorem mhd_outside_zero : forall E g junk jrho (ds : list (mode E)) r f z t inc,
  inpoly r z = false \/ (fst (evalpsi r f z 0) = 0%Z /\ fst (evalrho (psi_f r f z)) = 0%Z /\ fst (axis f) = 0%Z /\ ~ psimin < psi_f r f z < psimax) ->
  exists o, mhd_eval_gen g junk jrho ds r f z t inc = Some (0%Z, o) /\ forall k, o k = 0.
Proof. exact (mhd_outside inpoly evalpsi evalrho axis thspl nuspl psimin psimax). Qed.
(** a single profile out of its grid switches off all chosen modes, without an error *)
Theorem mhd_profile_outside_zero : forall junk jrho ds inc r0 z0 r f z t d, covered r0 z0 r f z -> In d (chosen inc 0 ds) ->
  fst (malpha d (rho_f (psi_f r f z))) = true \/ fst (mphi d (rho_f (psi_f r f z))) = true ->
  exists o, mhd_eval_gen stat_mode junk jrho ds r f z t inc = Some (0%Z, o) /\ forall k, o k = 0.
Proof. exact (profile_outside inpoly evalpsi evalrho axis thspl nuspl psimin psimax). Qed.
Theorem mhd_no_such_mode : forall E g junk jrho (ds : list (mode E)) inc r0 z0 r f z t, covered r0 z0 r f z -> inc <> (-1)%Z -> (inc < 0 \/ Z.of_nat (length ds) <= inc)%Z ->
  exists o, mhd_eval_gen g junk jrho ds r f z t inc = Some (0%Z, o) /\ forall k, o k = 0.
Proof. exact (no_such_mode inpoly evalpsi evalrho axis thspl nuspl psimin psimax). Qed.
Theorem mhd_superposition : forall junk jrho ds r0 z0 r f z t k, stat_covered r0 z0 ds r f z t ->
  out_f stat_mode junk jrho ds (-1) k r f z t = sumL (fun i => out_f stat_mode junk jrho ds (Z.of_nat i) k r f z t) (seq 0 (length ds)).
Proof. exact (superposition inpoly evalpsi evalrho axis thspl nuspl psimin psimax). Qed.
End eval.
Print Assumptions boozer_coordinates.
Print Assumptions boozer_angle_range.
Print Assumptions boozer_derivatives.
Print Assumptions mhd_potentials.
Print Assumptions mhd_stationary_derivatives.
Print Assumptions mhd_derivatives.
Print Assumptions mhd_derivatives_any_flux.
Print Assumptions mhd_stationary_is_constant.
Print Assumptions mhd_outside_zero.
Print Assumptions mhd_profile_outside_zero.
Print Assumptions mhd_no_such_mode.
Print Assumptions mhd_superposition.
(** finding: a flux that depends on the toroidal angle gives a wrong toroidal derivative *)
Theorem mhd_nonaxisymmetric_refuted : let o := fun k => out_f ex_in (ex_psi (1/20)) ex_rho ex_axis ex_th ex_nu 0 1 stat_mode (fun _ => 0) (fun _ => 0) [ex_mode 0 0] (-1) k in
  let r := 3 in let f := PI / 2 in let z := 1/2 in
  r * o 3%nat r f z 0 = 0 /\ Dx (fun x => o 0%nat r x z 0) f (- (1/20)) /\
  ~ diff4 (o 0%nat) r f z 0 (o 2%nat r f z 0) (r * o 3%nat r f z 0) (o 4%nat r f z 0) (o 1%nat r f z 0).
Proof. exact nonaxisymmetric_refuted. Qed.
Print Assumptions mhd_nonaxisymmetric_refuted.
(** the magnetic perturbation is the curl of alpha B *)
Theorem mhd_magnetic_perturbation : forall m b r f z t (al : R -> R -> R -> R -> R) F, 0 < r -> field_at F b r f z t ->
  al r f z t = m 0%nat -> diff4 al r f z t (m 2%nat) (r * m 3%nat) (m 4%nat) (m 1%nat) ->
  curl_at (fun i r f z => al r f z t * F i r f z t) r f z (V (pert_of m b r true 0%nat) (pert_of m b r true 1%nat) (pert_of m b r true 2%nat)).
Proof. exact pert_curl. Qed.
Print Assumptions mhd_magnetic_perturbation.
(** the electric perturbation is minus the gradient of the potential minus the time derivative of alpha B *)
Theorem mhd_electric_perturbation : forall m b r f z t (al ph : R -> R -> R -> R -> R) F, 0 < r ->
  (forall i, (i < 3)%nat -> F i r f z t = b (4 * i)%nat /\ Dx (fun x => F i r f z x) t 0) ->
  al r f z t = m 0%nat -> diff4 al r f z t (m 2%nat) (r * m 3%nat) (m 4%nat) (m 1%nat) -> diff4 ph r f z t (m 7%nat) (r * m 8%nat) (m 9%nat) (m 6%nat) ->
  exists pr pf pz a0 a1 a2,
    Dx (fun x => ph x f z t) r pr /\ Dx (fun x => ph r x z t) f pf /\ Dx (fun x => ph r f x t) z pz /\
    Dx (fun x => al r f z x * F 0%nat r f z x) t a0 /\ Dx (fun x => al r f z x * F 1%nat r f z x) t a1 /\ Dx (fun x => al r f z x * F 2%nat r f z x) t a2 /\
    forall only, pert_of m b r only 3%nat = - pr - a0 /\ pert_of m b r only 4%nat = - (pf / r) - a1 /\ pert_of m b r only 5%nat = - pz - a2.
Proof. exact pert_electric. Qed.
Print Assumptions mhd_electric_perturbation.
(** from the position to the perturbed fields *)
Theorem mhd_perturbed_fields : forall inpoly evalpsi evalrho axis thspl nuspl psimin psimax evalBdB junk jrho out0 ds inc r0 z0 r f z t only F b,
  let ms := chosen inc 0 ds in
  near4 r f z t (stat_covered inpoly evalpsi evalrho axis thspl nuspl psimin psimax r0 z0 ms) -> smooth evalpsi evalrho thspl nuspl r0 z0 r f z -> 0 < r -> snd (evalpsi r f z 0) 2%nat = 0 ->
  let rho := rho_f evalrho (psi_f evalpsi r f z) in
  (forall d, In d ms -> Dx (fun x => snd (malpha d x) 0%nat) rho (snd (malpha d rho) 1%nat) /\ Dx (fun x => snd (mphi d x) 0%nat) rho (snd (mphi d rho) 1%nat)) ->
  evalBdB r f z t = (0%Z, b) -> field_at F b r f z t -> (forall i, (i < 3)%nat -> Dx (fun x => F i r f z x) t 0) ->
  let o := fun k => out_f inpoly evalpsi evalrho axis thspl nuspl psimin psimax stat_mode junk jrho ds inc k in
  exists p c pr pf pz a0 a1 a2,
    mhd_perturbations inpoly evalpsi evalrho axis thspl nuspl psimin psimax evalBdB junk jrho out0 (MStat ds) r f z t only inc = Some (0%Z, p) /\
    curl_at (fun i r f z => o 0%nat r f z t * F i r f z t) r f z c /\
    Dx (fun x => o 5%nat x f z t) r pr /\ Dx (fun x => o 5%nat r x z t) f pf /\ Dx (fun x => o 5%nat r f x t) z pz /\
    Dx (fun x => o 0%nat r f z x * F 0%nat r f z x) t a0 /\ Dx (fun x => o 0%nat r f z x * F 1%nat r f z x) t a1 /\ Dx (fun x => o 0%nat r f z x * F 2%nat r f z x) t a2 /\
    p 0%nat = vx c + (if only then 0 else F 0%nat r f z t) /\ p 1%nat = vy c + (if only then 0 else F 1%nat r f z t) /\ p 2%nat = vz c + (if only then 0 else F 2%nat r f z t) /\
    p 3%nat = - pr - a0 /\ p 4%nat = - (pf / r) - a1 /\ p 5%nat = - pz - a2 /\ p 6%nat = o 5%nat r f z t.
Proof. exact perturbations_end_to_end. Qed.
Print Assumptions mhd_perturbed_fields.
Theorem mhd_total_field : forall m b r, pert_of m b r true 6%nat = m 5%nat /\ forall k, pert_of m b r false k = pert_of m b r true k + match k with 0%nat => b 0%nat | 1%nat => b 4%nat | 2%nat => b 8%nat | _ => 0 end.
Proof. exact pert_total. Qed.
Print Assumptions mhd_total_field.
Theorem mhd_no_perturbation : forall m b r, (forall k, m k = 0) -> forall k, pert_of m b r true k = 0.
Proof. exact pert_zero. Qed.
Print Assumptions mhd_no_perturbation.
(** the padding of the angle grid is four cells on either side *)
Theorem boozer_padding : forall n, (9 < n)%Z -> let h := (2 * PI + 2 * padding (IZR n)) / (IZR n - 1) in padding (IZR n) = 4 * h /\ h = 2 * PI / (IZR n - 9).
Proof. exact padding_cells. Qed.
Print Assumptions boozer_padding.
(** finding: an error of the first spline setup is lost when the second one succeeds *)
Theorem boozer_init_masks_error : forall e, boozer_init_err e 0 = 0%Z.
Proof. exact init_masks. Qed.
Print Assumptions boozer_init_masks_error.

(** the circular plasma meets the premises *)
Example circular : near4 3 (PI / 2) (1/2) 0 (stat_covered ex_in (ex_psi 0) ex_rho ex_axis ex_th ex_nu 0 1 3 0 [ex_mode 1 2; ex_mode 3 1]) /\
  smooth (ex_psi 0) ex_rho ex_th ex_nu 3 0 3 (PI / 2) (1/2) /\ snd (ex_psi 0 3 (PI / 2) (1/2) 0) 2%nat = 0 /\
  forall n m x, Dx (fun x => snd (malpha (ex_mode n m) x) 0%nat) x (snd (malpha (ex_mode n m) x) 1%nat).
Proof.
  split; [apply ex_covered; [lra|]; intros d [<-|[<-|[]]]; eauto|]. split; [apply ex_smooth|]. split; [cbn [ex_psi snd]; ring|]. intros. apply d_id.
Qed.
(** one wave there: 1/4 cos (pi/2 - 2 pi/2 - 5 t) *)
Example circular_wave : forall t, exists o, mhd_stat_eval ex_in (ex_psi 0) ex_rho ex_axis ex_th ex_nu 0 1 (fun _ => 0) (fun _ => 0) [ex_mode 1 2] 3 (PI / 2) (1/2) t (-1) = Some (0%Z, o) /\
  o 0%nat = - (1/4) * sin (5 * t).
Proof.
  intros t. pose proof (near4_here _ _ _ _ _ (ex_covered 0 ltac:(lra) [ex_mode 1 2] ltac:(intros d [<-|[]]; eauto))) as [C M].
  destruct (mhd_waves _ _ _ _ _ _ _ _ (fun _ => 0) (fun _ => 0) [ex_mode 1 2] (-1) 3 0 3 (PI / 2) (1/2) t (conj C M)) as (o & O & V & _). exists o. split; [exact O|]. rewrite V, chosen_all.
  cbn [sumL fold_right]. unfold wave, zeta_f, theta_f, nu_f, th_f, rho_f, psi_f. cbn [ex_mode mn mm mamp momega mphase malpha ex_eig ex_rho ex_psi ex_nu ex_th snd].
  rewrite thgeo_up by lra. replace ((3 - 3) / (1/2 - 0)) with 0 by field. rewrite atan_0.
  replace (1 * (PI / 2 + 0) - 2 * (PI / 2 - 0) - 5 * t + 0) with (- (PI / 2 + 5 * t)) by field. rewrite cos_neg, cos_plus, cos_PI2, sin_PI2. field.
Qed.
(** an unknown type of data is an error *)
Example unknown_type : forall j r f z t i, exists e, mhd_eval ex_in (ex_psi 0) ex_rho ex_axis ex_th ex_nu 0 1 j j j MOther r f z t i = Some (e, j) /\ e <> 0%Z.
Proof. intros. eexists. split; [reflexivity|]. vm_compute. discriminate. Qed.
