(** Queries of the external library: fields, flux, species, neutrals, Boozer coordinates and MHD perturbations *)
From Coq Require Import Reals ZArith List String Bool Lia Lra Permutation.
From Verif Require Import Vec Deriv AxisModel SplineModel SplineProofs LintModel GsModel GsProofs BfModel BfProofs NeutralModel NeutralProofs NeutralProps MhdModel MhdProofs MainModel HdfModel HmkModel HinModel HinProofs HuseModel HuseProofs LwModel LwProofs.
Import ListNotations.
Import ListNotations.
Import Verif.Vec.
Local Open Scope string_scope.
Local Open Scope R_scope.

(** ** The loop over the points *)
(** the parallel loops: the result does not depend on the order in which the points are treated *)
Theorem library_order_free : forall body order order' n s, Permutation order (seq 0 n) -> Permutation order' (seq 0 n) ->
  match for_all_points order body s, for_all_points order' body s with
  | Some s1, Some s2 => forall a k, s1 a k = s2 a k
  | None, None => True
  | _, _ => False
  end.
Proof. exact LwProofs.order_free. Qed.
Print Assumptions library_order_free.
(** and the call has defined behaviour exactly when it has at every point *)
Theorem library_defined_iff : forall body order n s, Permutation order (seq 0 n) -> ((exists s', for_all_points order body s = Some s') <-> forall k, (k < n)%nat -> body k <> None).
Proof. exact LwProofs.defined_iff. Qed.
Print Assumptions library_defined_iff.

(** ** Fields *)
Section fields.
Context (r phi z : nat -> R) (order : list nat) (n : nat) (s s' : store).
Hypothesis P : Permutation order (seq 0 n).
Notation field_failed := (LwProofs.field_failed r phi z).
Notation flux_failed := (LwProofs.flux_failed r phi z).
(** the first three arrays are the field and the other nine its partial derivatives; failing points and elements beyond the points keep their values *)
Theorem library_field : forall B, for_all_points order (point_B_dB r phi z B) s = Some s' ->
  kept n (field_failed B) s s' /\
  forall k v F, (k < n)%nat -> B_field_eval_B_dB B (r k) (phi k) (z k) = Out 0 v -> jac_of F (r k) (phi k) (z k) v ->
    V (s' "BR" k) (s' "Bphi" k) (s' "Bz" k) = F (r k) (phi k) (z k) /\
    Dx (fun x => vx (F x (phi k) (z k))) (r k) (s' "BR_dR" k) /\ Dx (fun x => vx (F (r k) x (z k))) (phi k) (s' "BR_dphi" k) /\ Dx (fun x => vx (F (r k) (phi k) x)) (z k) (s' "BR_dz" k) /\
    Dx (fun x => vy (F x (phi k) (z k))) (r k) (s' "Bphi_dR" k) /\ Dx (fun x => vy (F (r k) x (z k))) (phi k) (s' "Bphi_dphi" k) /\ Dx (fun x => vy (F (r k) (phi k) x)) (z k) (s' "Bphi_dz" k) /\
    Dx (fun x => vz (F x (phi k) (z k))) (r k) (s' "Bz_dR" k) /\ Dx (fun x => vz (F (r k) x (z k))) (phi k) (s' "Bz_dphi" k) /\ Dx (fun x => vz (F (r k) (phi k) x)) (z k) (s' "Bz_dz" k).
Proof. exact (LwProofs.query_field r phi z order n s s' P). Qed.
(** for the analytic equilibrium this holds at every point *)
Theorem library_analytic_field : forall g, 0 < gR0 g -> (forall k, (k < n)%nat -> 0 < r k /\ ripple_smooth g (r k) (z k)) ->
  exists s', for_all_points order (point_B_dB r phi z (BF_GS g)) s = Some s' /\
  forall k, (k < n)%nat -> B_field_eval_B (BF_GS g) (r k) (phi k) (z k) = Out 0 (V (s' "BR" k) (s' "Bphi" k) (s' "Bz" k)) /\ jac_of (B_GS_eval_B g) (r k) (phi k) (z k)
    (fun i => nth i [s' "BR" k; s' "BR_dR" k; s' "BR_dphi" k; s' "BR_dz" k; s' "Bphi" k; s' "Bphi_dR" k; s' "Bphi_dphi" k; s' "Bphi_dz" k; s' "Bz" k; s' "Bz_dR" k; s' "Bz_dphi" k; s' "Bz_dz" k] 0).
Proof. exact (LwProofs.query_analytic r phi z order n s P). Qed.
(** flux, gradient, normalised radius and its derivative; finding: where only the radius does not exist the flux is stored nevertheless *)
Theorem library_rho : forall B, for_all_points order (point_rho r phi z B) s = Some s' ->
  kept n (flux_failed B) s s' /\
  forall k p g, (k < n)%nat -> B_field_eval_psi_dpsi B (r k) (phi k) (z k) = Out 0 (p, g) ->
    s' "psi" k = p /\ V (s' "dpsidr" k) (s' "dpsidphi" k) (s' "dpsidz" k) = g /\
    (B <> BF_unknown -> fst (psi_limits B) <> snd (psi_limits B) -> 0 < norm_psi B p ->
       s' "rho" k = sqrt (norm_psi B (s' "psi" k)) /\ Dx (fun x => sqrt (norm_psi B x)) (s' "psi" k) (s' "drhodpsi" k)) /\
    (fst (psi_limits B) <> snd (psi_limits B) -> norm_psi B p < 0 -> s' "rho" k = s "rho" k /\ s' "drhodpsi" k = s "drhodpsi" k).
Proof. exact (LwProofs.query_rho r phi z order n s s' P). Qed.
(** magnetic axis *)
Theorem library_axis : forall B, for_all_points order (point_axis phi B) s = Some s' ->
  kept n (fun k => exists e v, e <> 0%Z /\ B_field_get_axis_rz B (phi k) = Out e v) s s' /\
  forall k v, (k < n)%nat -> B_field_get_axis_rz B (phi k) = Out 0 v -> (s' "Raxis" k, s' "zaxis" k) = v.
Proof. exact (LwProofs.query_axis phi order n s s' P). Qed.
(** electric field *)
Theorem library_E : forall Ef B, for_all_points order (point_E r phi z Ef B) s = Some s' ->
  kept n (fun k => exists e, E_field_eval_E Ef B (r k) (phi k) (z k) = FErr e) s s' /\
  forall k v, (k < n)%nat -> E_field_eval_E Ef B (r k) (phi k) (z k) = FVal v -> V (s' "ER" k) (s' "Ephi" k) (s' "Ez" k) = v.
Proof. exact (LwProofs.query_E r phi z order n s s' P). Qed.
End fields.
Print Assumptions library_field.
Print Assumptions library_analytic_field.
Print Assumptions library_rho.
Print Assumptions library_axis.
Print Assumptions library_E.

(** ** Neutrals *)
Section density.
Context (r phi z : nat -> R) (order : list nat) (n : nat) (s s' : store) (junk : nat -> R) (B : bfield) (nd : neutral).
Hypothesis P : Permutation order (seq 0 n).
Notation known_density := (LwProofs.known_density r phi z junk B nd).
(** with one species the density of that species *)
Theorem library_neutral_density : (neutral_get_n_species nd <= 1)%nat -> for_all_points order (point_density r phi z junk B nd) s = Some s' ->
  forall k f, (k < n)%nat -> known_density k f -> s' "dens" k = f 0%nat.
Proof. exact (LwProofs.query_density r phi z order n s s' junk B nd P). Qed.
(** finding: with several species a single point where the densities are known writes past the array of one element *)
Theorem library_neutral_overflow : (2 <= neutral_get_n_species nd)%nat -> (exists k f, (k < n)%nat /\ known_density k f) ->
  for_all_points order (point_density r phi z junk B nd) s = None.
Proof. exact (LwProofs.query_density_overflow r phi z order n s junk B nd P). Qed.
End density.
Print Assumptions library_neutral_density.
Print Assumptions library_neutral_overflow.
(** two neutral species in a uniform field: every call has undefined behaviour *)
Theorem library_neutral_density_refuted : exists B nd, neutral_get_n_species nd = 2%nat /\ forall r phi z junk order n s, (0 < n)%nat -> Permutation order (seq 0 n) ->
  for_all_points order (point_density r phi z junk B nd) s = None.
Proof.
  exists (BF_TC (BT 1 0 1 (1/3) (V 1 0 0) (fun _ => 0))), (Nt1D (N0_1D_init 3 0 1 2 (fun _ => 5) (fun _ => 7))). split; [reflexivity|]. intros r phi z junk order n s N P.
  assert (RH : exists d, B_field_eval_rho (BF_TC (BT 1 0 1 (1/3) (V 1 0 0) (fun _ => 0))) 1 = Out 0 (1/3, d)).
  { destruct (eval_rho_main (BF_TC (BT 1 0 1 (1/3) (V 1 0 0) (fun _ => 0))) 1) as (Y & _); [cbn; lra|]. unfold norm_psi, rho_slope in Y. cbn [psi_limits tcpsi tcrho fst snd] in Y.
    replace ((1 - (1 - 1/3 * (1/3))) / (1 - 1/3 * (1/3) + 1 - (1 - 1/3 * (1/3)))) with (1/3 * (1/3)) in Y by field. destruct Y as [Y _]; [discriminate|lra|].
    rewrite Y. rewrite sqrt_square by lra. eexists. reflexivity. }
  destruct RH as [d RH].
  destruct (neutral1D_values 3 0 1 2 (fun _ => 5) (fun _ => 7) (1/3) junk) as (f & h & F & _ & _); [lia|lra|lra|].
  apply (LwProofs.query_density_overflow r phi z order n s junk _ _ P); [cbn; lia|]. exists 0%nat, f. split; [exact N|]. exists 1, (1/3), d. split; [reflexivity|]. split; [exact RH|].
  unfold neutral_eval_n0. rewrite F. reflexivity.
Qed.
Print Assumptions library_neutral_density_refuted.

(** ** Boozer coordinates and perturbations *)
Section perturbed.
Variable inpoly : R -> R -> bool.
Variable evalpsi : R -> R -> R -> R -> Z * (nat -> R).
Variable evalrho : R -> Z * (nat -> R).
Variable axis : R -> Z * (nat -> R).
Variables thspl nuspl : R -> R -> bool * (nat -> R).
Variables psimin psimax : R.
Variable evalBdB : R -> R -> R -> R -> Z * (nat -> R).
Notation boozer_eval := (boozer_eval inpoly evalpsi evalrho axis thspl nuspl psimin psimax).
Notation mhd_eval := (mhd_eval inpoly evalpsi evalrho axis thspl nuspl psimin psimax).
Notation psi_f := (MhdProofs.psi_f evalpsi).
Notation rho_f := (MhdProofs.rho_f evalrho).
Notation theta_f := (MhdProofs.theta_f evalpsi thspl).
Notation zeta_f := (MhdProofs.zeta_f evalpsi thspl nuspl).
Notation smooth := (MhdProofs.smooth evalpsi evalrho thspl nuspl).
Notation near_covered := (MhdProofs.near_covered inpoly evalpsi evalrho axis thspl nuspl psimin psimax).
Notation ptz_f := (MhdProofs.ptz_f inpoly evalpsi evalrho axis thspl nuspl psimin psimax).
Notation out_f := (MhdProofs.out_f inpoly evalpsi evalrho axis thspl nuspl psimin psimax).
Notation stat_covered := (MhdProofs.stat_covered inpoly evalpsi evalrho axis thspl nuspl psimin psimax).
Context (r phi z t : nat -> R) (order : list nat) (n : nat) (s s' : store) (junk jrho out0 : nat -> R).
Hypothesis P : Permutation order (seq 0 n).
(** coordinates, their derivatives and rho; points outside keep their values *)
Theorem library_boozer : for_all_points order (point_boozer r phi z (boozer_eval junk) evalrho) s = Some s' ->
  kept n (fun k => exists e ins p, boozer_eval junk (r k) (phi k) (z k) = Some (e, ins, p) /\ (e <> 0%Z \/ ins = false)) s s' /\
  forall k r0 z0, (k < n)%nat -> near_covered r0 z0 (r k) (phi k) (z k) -> smooth r0 z0 (r k) (phi k) (z k) -> snd (evalpsi (r k) (phi k) (z k) 0) 2%nat = 0 ->
    s' "psi" k = psi_f (r k) (phi k) (z k) /\ s' "theta" k = theta_f r0 z0 (r k) (phi k) (z k) /\ (exists m, s' "zeta" k = zeta_f r0 z0 (r k) (phi k) (z k) + 2 * PI * IZR m) /\
    s' "rho" k = rho_f (psi_f (r k) (phi k) (z k)) /\
    diff3 (ptz_f junk 0) (r k) (phi k) (z k) (s' "dpsidr" k) (s' "dpsidphi" k) (s' "dpsidz" k) /\
    diff3 (ptz_f junk 4) (r k) (phi k) (z k) (s' "dthetadr" k) (s' "dthetadphi" k) (s' "dthetadz" k) /\
    (s' "zeta" k <> 0 -> diff3 (ptz_f junk 8) (r k) (phi k) (z k) (s' "dzetadr" k) (s' "dzetadphi" k) (s' "dzetadz" k)).
Proof. exact (LwProofs.query_boozer inpoly evalpsi evalrho axis thspl nuspl psimin psimax r phi z order n s s' junk P). Qed.
(** the potentials are the sums of the waves, and the other arrays their derivatives; finding: dadphi and dPhidphi lack the factor R *)
Theorem library_mhd : forall ds inc, for_all_points order (point_mhd r phi z t (mhd_eval junk jrho out0 (MStat ds)) inc) s = Some s' ->
  forall k r0 z0, (k < n)%nat -> let ms := chosen inc 0 ds in
  near4 (r k) (phi k) (z k) (t k) (stat_covered r0 z0 ms) -> smooth r0 z0 (r k) (phi k) (z k) -> r k <> 0 -> snd (evalpsi (r k) (phi k) (z k) 0) 2%nat = 0 ->
  let rho := rho_f (psi_f (r k) (phi k) (z k)) in
  (forall d, In d ms -> Dx (fun x => snd (malpha d x) 0%nat) rho (snd (malpha d rho) 1%nat) /\ Dx (fun x => snd (mphi d x) 0%nat) rho (snd (mphi d rho) 1%nat)) ->
  let wave_at d a := wave d a (zeta_f r0 z0 (r k) (phi k) (z k)) (theta_f r0 z0 (r k) (phi k) (z k)) (t k) in
  let o := fun i => out_f stat_mode junk jrho ds inc i in
  s' "alpha" k = sumL (fun d => wave_at d (snd (malpha d rho) 0%nat)) ms /\ s' "Phi" k = sumL (fun d => wave_at d (snd (mphi d rho) 0%nat)) ms /\
  s' "alpha" k = o 0%nat (r k) (phi k) (z k) (t k) /\ s' "Phi" k = o 5%nat (r k) (phi k) (z k) (t k) /\
  diff4 (o 0%nat) (r k) (phi k) (z k) (t k) (s' "dadr" k) (r k * s' "dadphi" k) (s' "dadz" k) (s' "dadt" k) /\
  diff4 (o 5%nat) (r k) (phi k) (z k) (t k) (s' "dPhidr" k) (r k * s' "dPhidphi" k) (s' "dPhidz" k) (s' "dPhidt" k).
Proof. exact (LwProofs.query_mhd inpoly evalpsi evalrho axis thspl nuspl psimin psimax r phi z t order n s s' junk jrho out0 P). Qed.
(** finding: the array called dadphi is the derivative divided by R *)
Theorem library_mhd_toroidal : forall ds inc, for_all_points order (point_mhd r phi z t (mhd_eval junk jrho out0 (MStat ds)) inc) s = Some s' ->
  forall k r0 z0 d, (k < n)%nat -> let ms := chosen inc 0 ds in
  near4 (r k) (phi k) (z k) (t k) (stat_covered r0 z0 ms) -> smooth r0 z0 (r k) (phi k) (z k) -> r k <> 0 -> snd (evalpsi (r k) (phi k) (z k) 0) 2%nat = 0 ->
  let rho := rho_f (psi_f (r k) (phi k) (z k)) in
  (forall d, In d ms -> Dx (fun x => snd (malpha d x) 0%nat) rho (snd (malpha d rho) 1%nat) /\ Dx (fun x => snd (mphi d x) 0%nat) rho (snd (mphi d rho) 1%nat)) ->
  Dx (fun x => out_f stat_mode junk jrho ds inc 0%nat (r k) x (z k) (t k)) (phi k) d -> s' "dadphi" k = d / r k.
Proof. exact (LwProofs.query_mhd_toroidal inpoly evalpsi evalrho axis thspl nuspl psimin psimax r phi z t order n s s' junk jrho out0 P). Qed.
(** the perturbation is curl(alpha B), and minus the gradient of the potential minus the time derivative of alpha B *)
Theorem library_perturbation : forall ds inc, for_all_points order (point_pert r phi z t (mhd_perturbations inpoly evalpsi evalrho axis thspl nuspl psimin psimax evalBdB junk jrho out0 (MStat ds)) inc) s = Some s' ->
  forall k r0 z0 F b, (k < n)%nat -> let ms := chosen inc 0 ds in
  near4 (r k) (phi k) (z k) (t k) (stat_covered r0 z0 ms) -> smooth r0 z0 (r k) (phi k) (z k) -> 0 < r k -> snd (evalpsi (r k) (phi k) (z k) 0) 2%nat = 0 ->
  let rho := rho_f (psi_f (r k) (phi k) (z k)) in
  (forall d, In d ms -> Dx (fun x => snd (malpha d x) 0%nat) rho (snd (malpha d rho) 1%nat) /\ Dx (fun x => snd (mphi d x) 0%nat) rho (snd (mphi d rho) 1%nat)) ->
  evalBdB (r k) (phi k) (z k) (t k) = (0%Z, b) -> field_at F b (r k) (phi k) (z k) (t k) -> (forall i, (i < 3)%nat -> Dx (fun x => F i (r k) (phi k) (z k) x) (t k) 0) ->
  let al := out_f stat_mode junk jrho ds inc 0%nat in let ph := out_f stat_mode junk jrho ds inc 5%nat in
  curl_at (fun i r f z => al r f z (t k) * F i r f z (t k)) (r k) (phi k) (z k) (V (s' "mhd_br" k) (s' "mhd_bphi" k) (s' "mhd_bz" k)) /\ s' "mhd_phi" k = ph (r k) (phi k) (z k) (t k) /\
  exists pr pf pz a0 a1 a2,
    Dx (fun x => ph x (phi k) (z k) (t k)) (r k) pr /\ Dx (fun x => ph (r k) x (z k) (t k)) (phi k) pf /\ Dx (fun x => ph (r k) (phi k) x (t k)) (z k) pz /\
    Dx (fun x => al (r k) (phi k) (z k) x * F 0%nat (r k) (phi k) (z k) x) (t k) a0 /\ Dx (fun x => al (r k) (phi k) (z k) x * F 1%nat (r k) (phi k) (z k) x) (t k) a1 /\
    Dx (fun x => al (r k) (phi k) (z k) x * F 2%nat (r k) (phi k) (z k) x) (t k) a2 /\
    s' "mhd_er" k = - pr - a0 /\ s' "mhd_ephi" k = - (pf / r k) - a1 /\ s' "mhd_ez" k = - pz - a2.
Proof. exact (LwProofs.query_perturbation inpoly evalpsi evalrho axis thspl nuspl psimin psimax evalBdB r phi z t order n s s' junk jrho out0 P). Qed.
End perturbed.
Print Assumptions library_boozer.
Print Assumptions library_mhd.
Print Assumptions library_mhd_toroidal.
Print Assumptions library_perturbation.

(** ** From the file *)
(** electrons first, then the ions of the file in SI units, for the three kinds of plasma *)
Theorem library_species_from_file : forall path rd sh tab f qid c s, plasma_file_kind path rd sh tab -> complete f path qid c sh ->
  exists res, read_input rd f qid s = Ok res /\ let sp := plasma_species res in
  sp_n sp = (intd c "nion" + 1)%Z /\ species_row sp 0 = Some (9.1094e-31, - (1.602176565e-19), 0%Z, 0%Z) /\
  (forall i, (Z.of_nat i < intd c "nion")%Z ->
     species_row sp (S i) = Some (1.660538921e-27 * nth i (cr c "mass") 0, IZR (nth i (ci c "charge") 0%Z) * 1.602176565e-19, nth i (ci c "anum") 0%Z, nth i (ci c "znum") 0%Z)) /\
  (forall i, (intd c "nion" < Z.of_nat i)%Z -> (0 < i)%nat -> species_row sp i = None).
Proof. exact LwProofs.species_file. Qed.
Print Assumptions library_species_from_file.
(** the mode data are those of the file, and the eigenfunctions splines through the rows of the datasets *)
Theorem library_modes_from_file : forall f qid c s junk, complete f "/mhd/MHD_STAT_XXXXXXXXXX/" qid c s_M1 -> (2 <= intd c "nrho")%Z -> reald c "rhomin" < reald c "rhomax" ->
  exists res ds, read_input rmhd_stat f qid s = Ok res /\ stat_modes junk res = Some ds /\ Z.of_nat (List.length ds) = intd c "nmode" /\
  (forall i, (Z.of_nat i < intd c "nmode")%Z -> mode_row ds i = Some (nth i (ci c "nmodes") 0%Z, nth i (ci c "mmodes") 0%Z, nth i (cr c "amplitude") 0, nth i (cr c "omega") 0, nth i (cr c "phase") 0) /\
     exists d, nth_error ds i = Some d /\
     eigenfunction (Z.to_nat (intd c "nrho")) (reald c "rhomin") (reald c "rhomax") (fun j => nth (i * Z.to_nat (intd c "nrho") + j) (cr c "alpha") 0) (malpha d) /\
     eigenfunction (Z.to_nat (intd c "nrho")) (reald c "rhomin") (reald c "rhomax") (fun j => nth (i * Z.to_nat (intd c "nrho") + j) (cr c "phi") 0) (mphi d)) /\
  (forall i, (intd c "nmode" <= Z.of_nat i)%Z -> mode_row ds i = None).
Proof. exact LwProofs.modes_file. Qed.
Print Assumptions library_modes_from_file.
Section potentials.
Variable inpoly : R -> R -> bool.
Variable evalpsi : R -> R -> R -> R -> Z * (nat -> R).
Variable evalrho : R -> Z * (nat -> R).
Variable axis : R -> Z * (nat -> R).
Variables thspl nuspl : R -> R -> bool * (nat -> R).
Variables psimin psimax : R.
(** the potentials returned for all modes, in terms of the datasets *)
Theorem library_potentials_from_file : forall f qid c s junk, complete f "/mhd/MHD_STAT_XXXXXXXXXX/" qid c s_M1 -> (2 <= intd c "nrho")%Z -> reald c "rhomin" < reald c "rhomax" ->
  exists res ds Fa Fp, read_input rmhd_stat f qid s = Ok res /\ stat_modes junk res = Some ds /\
  (forall i, (i < Z.to_nat (intd c "nmode"))%nat ->
     (exists F1 F2, spline_interpolant (Z.to_nat (intd c "nrho")) NATURALBC (reald c "rhomin") (reald c "rhomax") (fun j => nth (i * Z.to_nat (intd c "nrho") + j) (cr c "alpha") 0) (Fa i) F1 F2) /\
     (exists F1 F2, spline_interpolant (Z.to_nat (intd c "nrho")) NATURALBC (reald c "rhomin") (reald c "rhomax") (fun j => nth (i * Z.to_nat (intd c "nrho") + j) (cr c "phi") 0) (Fp i) F1 F2)) /\
  forall r phi z t order n st st' jnk jrho out0, Permutation order (seq 0 n) ->
    for_all_points order (point_mhd r phi z t (MhdModel.mhd_eval inpoly evalpsi evalrho axis thspl nuspl psimin psimax jnk jrho out0 (MStat ds)) (-1)) st = Some st' ->
    forall k r0 z0, (k < n)%nat -> MhdProofs.covered inpoly evalpsi evalrho axis thspl nuspl psimin psimax r0 z0 (r k) (phi k) (z k) ->
    let rho := MhdProofs.rho_f evalrho (MhdProofs.psi_f evalpsi (r k) (phi k) (z k)) in
    let theta := MhdProofs.theta_f evalpsi thspl r0 z0 (r k) (phi k) (z k) in let zeta := MhdProofs.zeta_f evalpsi thspl nuspl r0 z0 (r k) (phi k) (z k) in
    reald c "rhomin" <= rho <= reald c "rhomax" ->
    let wv i := nth i (cr c "amplitude") 0 * cos (IZR (nth i (ci c "nmodes") 0%Z) * zeta - IZR (nth i (ci c "mmodes") 0%Z) * theta - nth i (cr c "omega") 0 * t k + nth i (cr c "phase") 0) in
    st' "alpha" k = sumL (fun i => Fa i rho * wv i) (seq 0 (Z.to_nat (intd c "nmode"))) /\ st' "Phi" k = sumL (fun i => Fp i rho * wv i) (seq 0 (Z.to_nat (intd c "nmode"))).
Proof. exact (LwProofs.potentials_file inpoly evalpsi evalrho axis thspl nuspl psimin psimax). Qed.
End potentials.
Print Assumptions library_potentials_from_file.

(** ** Examples *)
(** two points of a uniform field along x, treated in reverse order: at phi = 0 the field is radial *)
Example library_field_ex : exists s', for_all_points [1%nat; 0%nat] (point_B_dB (fun k => 1 + INR k) (fun _ => 0) (fun _ => 0) (BF_TC (BT 5 0 1 1 (V 2 0 3) (fun _ => 0)))) (fun _ _ => 7) = Some s' /\
  s' "BR" 0%nat = 2 /\ s' "BR" 1%nat = 2 /\ s' "Bz" 1%nat = 3 /\ s' "BR" 2%nat = 7.
Proof.
  eexists. split; [reflexivity|]. cbn. rewrite cos_0, sin_0. repeat split; ring.
Qed.
Example library_axis_ex : exists s', for_all_points [0%nat; 1%nat] (point_axis (fun k => INR k) (BF_TC (BT 5 (1/2) 1 1 (V 2 0 3) (fun _ => 0)))) (fun _ _ => 7) = Some s' /\ s' "Raxis" 1%nat = 5 /\ s' "zaxis" 1%nat = 1/2 /\ s' "zaxis" 2%nat = 7.
Proof. eexists. split; [reflexivity|]. cbn. repeat split; reflexivity. Qed.
Example library_species_ex : species_row (Species 2 [2%Z] [1%Z] [1; 2] [3; 4]) 1 = Some (2, 4, 2%Z, 1%Z). Proof. reflexivity. Qed.
Example library_mode_ex : mode_row [Mode 2 3 10 20 30 tt tt; Mode 5 6 11 21 31 tt tt] 1 = Some (5%Z, 6%Z, 11, 21, 31). Proof. reflexivity. Qed.
