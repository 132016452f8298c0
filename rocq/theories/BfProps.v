(** Properties of the tabulated and Cartesian magnetic fields, of the dispatcher and of the
    electric fields (src/Bfield, src/B_field.c, src/Efield, src/E_field.c). *)
From Coq Require Import Reals Lra Lia ZArith List.
From Verif Require Import Deriv Vec AxisModel AxisProofs SplineModel SplineProofs SplineUniq SplineProps Spl2Model Spl2Proofs Spl2Uniq Spl2Props Spl3Model Spl3Proofs Spl3Props LintModel LintProofs LintProps GsModel GsProofs BfModel BfProofs.
Local Open Scope R_scope.

(** C40. *)
Theorem radial_E : forall junk nrho rhomin rhomax reff dvdrho dV, (2 <= nrho)%nat -> rhomin < rhomax -> E_1DS_init junk nrho rhomin rhomax reff dvdrho = Val dV ->
  (forall reff', E_1DS_init junk nrho rhomin rhomax reff' dvdrho = Val dV) /\
  exists F F1 F2, spline_interpolant nrho NATURALBC rhomin rhomax dvdrho F F1 F2 /\
  forall B r phi z, r <> 0 ->
  (forall rho d, B_field_eval_rho_drho B r phi z = Out 0 (rho, d) ->
     (rhomin <= rho <= rhomax -> exists E, E_field_eval_E (EF_1DS dV) B r phi z = FVal E /\ E = vscal (- F rho) (V (vx d) (vy d / r) (vz d))) /\
     (~ (rhomin <= rho <= rhomax) -> E_field_eval_E (EF_1DS dV) B r phi z = FVal vzero)) /\
  (forall e v, e <> 0%Z -> B_field_eval_rho_drho B r phi z = Out e v -> exists e', e' <> 0%Z /\ E_field_eval_E (EF_1DS dV) B r phi z = FErr e').
Proof. exact e1_main. Qed.
Print Assumptions radial_E.
Theorem radial_E_potential : forall junk nrho rhomin rhomax reff dvdrho dV, (2 <= nrho)%nat -> rhomin < rhomax -> E_1DS_init junk nrho rhomin rhomax reff dvdrho = Val dV ->
  forall B (rho : R -> R -> R -> R) d pot r phi z, r <> 0 -> B_field_eval_rho_drho B r phi z = Out 0 (rho r phi z, d) -> rhomin < rho r phi z < rhomax ->
  Dx (fun t => rho t phi z) r (vx d) -> Dx (fun t => rho r t z) phi (vy d) -> Dx (rho r phi) z (vz d) ->
  (forall F F1 F2, spline_interpolant nrho NATURALBC rhomin rhomax dvdrho F F1 F2 -> Dx pot (rho r phi z) (F (rho r phi z))) ->
  exists E, E_field_eval_E (EF_1DS dV) B r phi z = FVal E /\
    Dx (fun t => pot (rho t phi z)) r (- vx E) /\ Dx (fun t => pot (rho r t z)) phi (- (r * vy E)) /\ Dx (fun t => pot (rho r phi t)) z (- vz E).
Proof. exact e1_potential. Qed.
Print Assumptions radial_E_potential.
Theorem cartesian_E : forall e B r phi z, exists v, E_field_eval_E (EF_TC e) B r phi z = FVal v /\ cart phi v = e.
Proof. exact tc_E. Qed.
Print Assumptions cartesian_E.
Theorem unknown_E_fails : forall B r phi z, exists e, e <> 0%Z /\ E_field_eval_E EF_unknown B r phi z = FErr e.
Proof. exact e_unknown. Qed.
Print Assumptions unknown_E_fails.

(** C41. *)
Theorem b2ds_field : forall junk n_r n_z r_min r_max z_min z_max axis_r axis_z psi0 psi1 psi B_r B_phi B_z d, (2 <= n_r)%nat -> (2 <= n_z)%nat -> r_min < r_max -> z_min < z_max ->
  B_2DS_init junk n_r r_min r_max n_z z_min z_max axis_r axis_z psi0 psi1 psi B_r B_phi B_z = IOk d ->
  let surface (f : nat -> R) := surface_interpolant n_r n_z NATURALBC NATURALBC r_min r_max z_min z_max (fun i j => f (j * n_r + i)%nat) in
  let on := on2 r_min r_max z_min z_max in let inside := in2 r_min r_max z_min z_max in
  exists P Pr Pz Prr Pzz Prz BR BRr BRz BRrr BRzz BRrz BP BPr BPz BPrr BPzz BPrz BZ BZr BZz BZrr BZzz BZrz,
  surface psi P Pr Pz Prr Pzz Prz /\ surface B_r BR BRr BRz BRrr BRzz BRrz /\ surface B_phi BP BPr BPz BPrr BPzz BPrz /\ surface B_z BZ BZr BZz BZrr BZzz BZrz /\
  let B r (phi : R) z := flux_field Pr Pz BR BP BZ r z in
  (forall r phi z, on r z ->
     B_field_eval_psi (BF_2DS d) r phi z = Out 0 (P r z) /\
     B_field_eval_psi_dpsi (BF_2DS d) r phi z = Out 0 (P r z, V (Pr r z) 0 (Pz r z)) /\
     (r <> 0 -> B r phi z <> vzero -> B_field_eval_B (BF_2DS d) r phi z = Out 0 (B r phi z) /\
        exists D, B_field_eval_B_dB (BF_2DS d) r phi z = Out 0 D /\ V (D 0%nat) (D 4%nat) (D 8%nat) = B r phi z /\
          divergence D r = BR r z / r + BRr r z + BZz r z /\ (inside r z -> jac_of B r phi z D)) /\
     (r <> 0 -> B r phi z = vzero -> exists e e', e <> 0%Z /\ e' <> 0%Z /\ B_field_eval_B (BF_2DS d) r phi z = Out e (V 1 0 0) /\ exists D, B_field_eval_B_dB (BF_2DS d) r phi z = Out e' D)) /\
  (forall r phi z, ~ on r z -> exists e1 e2 e3 e4 D, (e1 <> 0 /\ e2 <> 0 /\ e3 <> 0 /\ e4 <> 0)%Z /\
     B_field_eval_psi (BF_2DS d) r phi z = Out e1 1 /\ B_field_eval_psi_dpsi (BF_2DS d) r phi z = Out e2 (1, vzero) /\
     B_field_eval_B (BF_2DS d) r phi z = Out e3 (V 1 0 0) /\ B_field_eval_B_dB (BF_2DS d) r phi z = Out e4 D).
Proof. exact b2_main. Qed.
Print Assumptions b2ds_field.
Theorem b2ds_divergence_free : forall junk n_r n_z r_min r_max z_min z_max axis_r axis_z psi0 psi1 psi B_r B_phi B_z d, (2 <= n_r)%nat -> (2 <= n_z)%nat -> r_min < r_max -> z_min < z_max ->
  B_2DS_init junk n_r r_min r_max n_z z_min z_max axis_r axis_z psi0 psi1 psi B_r B_phi B_z = IOk d ->
  (forall k, (k < n_r * n_z)%nat -> B_r k = 0 /\ B_z k = 0) ->
  forall r phi z D, r <> 0 -> r_min < r < r_max -> z_min < z < z_max -> B_field_eval_B_dB (BF_2DS d) r phi z = Out 0 D -> divergence D r = 0.
Proof. exact b2_divfree. Qed.
Print Assumptions b2ds_divergence_free.

(** C42. *)
Theorem field_defaults : forall B r phi z psi e,
  e <> 0%Z ->
  (forall v, B_field_eval_psi B r phi z = Out e v -> v = 1) /\ (forall v, B_field_eval_psi_dpsi B r phi z = Out e v -> v = (1, vzero)) /\
  (forall v, B_field_eval_rho B psi = Out e v -> v = (1, 0)) /\ (forall v, B_field_eval_rho_drho B r phi z = Out e v -> v = (1, vzero)) /\
  (forall v, B_field_eval_B B r phi z = Out e v -> v = V 1 0 0) /\ (forall v, B_field_eval_B_dB B r phi z = Out e v -> v = dB_default) /\
  (forall v, B_field_get_axis_rz B phi = Out e v -> v = (1, 0)).
Proof. exact defaults. Qed.
Print Assumptions field_defaults.
Theorem unknown_field_type_fails : forall r phi z psi,
  is_default 1 (B_field_eval_psi BF_unknown r phi z) /\ is_default (1, vzero) (B_field_eval_psi_dpsi BF_unknown r phi z) /\ is_default (1, 0) (B_field_eval_rho BF_unknown psi) /\
  is_default (1, vzero) (B_field_eval_rho_drho BF_unknown r phi z) /\ is_default (V 1 0 0) (B_field_eval_B BF_unknown r phi z) /\ is_default dB_default (B_field_eval_B_dB BF_unknown r phi z) /\
  is_default (1, 0) (B_field_get_axis_rz BF_unknown phi).
Proof. exact unknown_type. Qed.
Print Assumptions unknown_field_type_fails.
Theorem rho_of_flux : forall B r phi z psi g, spline_or_gs B -> fst (psi_limits B) <> snd (psi_limits B) -> B_field_eval_psi_dpsi B r phi z = Out 0 (psi, g) ->
  (0 < norm_psi B psi -> B_field_eval_rho_drho B r phi z = Out 0 (sqrt (norm_psi B psi), vscal (rho_slope B psi) g)) /\
  (norm_psi B psi = 0 -> ~ stellarator B -> B_field_eval_rho_drho B r phi z = ODiv0) /\
  (norm_psi B psi < 0 \/ (norm_psi B psi = 0 /\ stellarator B) -> exists e, e <> 0%Z /\ B_field_eval_rho_drho B r phi z = Out e (1, vzero)).
Proof. exact rho_main. Qed.
Print Assumptions rho_of_flux.
Theorem rho_fails_with_flux : forall B r phi z e psi g, e <> 0%Z -> B_field_eval_psi_dpsi B r phi z = Out e (psi, g) -> exists e', e' <> 0%Z /\ B_field_eval_rho_drho B r phi z = Out e' (1, vzero).
Proof. exact rho_fails. Qed.
Print Assumptions rho_fails_with_flux.
Theorem rho_of_flux_value : forall B psi, fst (psi_limits B) <> snd (psi_limits B) ->
  (B <> BF_unknown -> 0 < norm_psi B psi -> B_field_eval_rho B psi = Out 0 (sqrt (norm_psi B psi), rho_slope B psi) /\ Dx (fun t => sqrt (norm_psi B t)) psi (rho_slope B psi)) /\
  (B <> BF_unknown -> norm_psi B psi = 0 -> B_field_eval_rho B psi = ODiv0) /\
  (B = BF_unknown \/ norm_psi B psi < 0 -> exists e, e <> 0%Z /\ B_field_eval_rho B psi = Out e (1, 0)).
Proof. exact eval_rho_main. Qed.
Print Assumptions rho_of_flux_value.
Theorem rho_gradient_exact : forall B (line : R -> R * R * R) t0 (psi : R -> R) g rho d (c : vec -> R), spline_or_gs B -> fst (psi_limits B) <> snd (psi_limits B) ->
  In c (vx :: vy :: vz :: nil) ->
  near t0 (fun t => let '(r, phi, z) := line t in B_field_eval_psi_dpsi B r phi z = Out 0 (psi t, g t) /\ B_field_eval_rho_drho B r phi z = Out 0 (rho t, d t)) ->
  Dx psi t0 (c (g t0)) -> Dx rho t0 (c (d t0)).
Proof. exact rho_gradient. Qed.
Print Assumptions rho_gradient_exact.

(** C72. *)
Theorem b3ds_field : forall junk p_n_r p_n_z b_n_r b_n_phi b_n_z p_r_min p_r_max p_z_min p_z_max b_r_min b_r_max b_phi_min b_phi_max b_z_min b_z_max axis_r axis_z psi0 psi1 psi B_r B_phi B_z d,
  (2 <= p_n_r)%nat -> (2 <= p_n_z)%nat -> (2 <= b_n_r)%nat -> (3 <= b_n_phi)%nat -> (2 <= b_n_z)%nat ->
  p_r_min < p_r_max -> p_z_min < p_z_max -> b_r_min < b_r_max -> b_phi_min < b_phi_max -> b_z_min < b_z_max ->
  let volume (f : nat -> R) := volume_interpolant b_n_r b_n_phi b_n_z NATURALBC PERIODICBC NATURALBC b_r_min b_r_max b_phi_min b_phi_max b_z_min b_z_max (fun i j k => f (k * b_n_phi * b_n_r + j * b_n_r + i)%nat) in
  let surface (f : nat -> R) := surface_interpolant p_n_r p_n_z NATURALBC NATURALBC p_r_min p_r_max p_z_min p_z_max (fun i j => f (j * p_n_r + i)%nat) in
  let onP := on2 p_r_min p_r_max p_z_min p_z_max in let onB := on2 b_r_min b_r_max b_z_min b_z_max in
  B_3DS_init junk p_n_r p_r_min p_r_max p_n_z p_z_min p_z_max b_n_r b_r_min b_r_max b_n_phi b_phi_min b_phi_max b_n_z b_z_min b_z_max axis_r axis_z psi0 psi1 psi B_r B_phi B_z = IOk d ->
  exists P Pr Pz Prr Pzz Prz BR BRr BRp BRz BR4 BR5 BR6 BR7 BR8 BR9 BP BPr BPp BPz BP4 BP5 BP6 BP7 BP8 BP9 BZ BZr BZp BZz BZ4 BZ5 BZ6 BZ7 BZ8 BZ9,
  surface psi P Pr Pz Prr Pzz Prz /\ volume B_r BR BRr BRp BRz BR4 BR5 BR6 BR7 BR8 BR9 /\ volume B_phi BP BPr BPp BPz BP4 BP5 BP6 BP7 BP8 BP9 /\ volume B_z BZ BZr BZp BZz BZ4 BZ5 BZ6 BZ7 BZ8 BZ9 /\
  let B := flux_field3 Pr Pz BR BP BZ in
  (forall r phi z, onP r z -> B_field_eval_psi (BF_3DS d) r phi z = Out 0 (P r z) /\ B_field_eval_psi_dpsi (BF_3DS d) r phi z = Out 0 (P r z, V (Pr r z) 0 (Pz r z))) /\
  (forall r phi z, onP r z -> onB r z -> r <> 0 -> B r phi z <> vzero -> B_field_eval_B (BF_3DS d) r phi z = Out 0 (B r phi z) /\
        exists D, B_field_eval_B_dB (BF_3DS d) r phi z = Out 0 D /\ V (D 0%nat) (D 4%nat) (D 8%nat) = B r phi z /\
          divergence D r = BR r phi z / r + BRr r phi z + BPp r phi z / r + BZz r phi z /\ (in2 p_r_min p_r_max p_z_min p_z_max r z -> in2 b_r_min b_r_max b_z_min b_z_max r z -> jac_of B r phi z D)) /\
  (forall r phi z, ~ onP r z -> exists e e', e <> 0%Z /\ e' <> 0%Z /\ B_field_eval_psi (BF_3DS d) r phi z = Out e 1 /\ B_field_eval_psi_dpsi (BF_3DS d) r phi z = Out e' (1, vzero)) /\
  (forall r phi z, ~ onP r z \/ ~ onB r z \/ (r <> 0 /\ B r phi z = vzero) -> exists e e' D, e <> 0%Z /\ e' <> 0%Z /\ B_field_eval_B (BF_3DS d) r phi z = Out e (V 1 0 0) /\ B_field_eval_B_dB (BF_3DS d) r phi z = Out e' D).
Proof. exact b3_main. Qed.
Print Assumptions b3ds_field.
Theorem bsts_field : forall junk p_n_r p_n_phi p_n_z b_n_r b_n_phi b_n_z p_r_min p_r_max p_phi_min p_phi_max p_z_min p_z_max b_r_min b_r_max b_phi_min b_phi_max b_z_min b_z_max
    naxis axis_min axis_max axis_r axis_z psi0 psi1 psi B_r B_phi B_z d,
  (2 <= p_n_r)%nat -> (3 <= p_n_phi)%nat -> (2 <= p_n_z)%nat -> (2 <= b_n_r)%nat -> (3 <= b_n_phi)%nat -> (2 <= b_n_z)%nat ->
  p_r_min < p_r_max -> p_phi_min < p_phi_max -> p_z_min < p_z_max -> b_r_min < b_r_max -> b_phi_min < b_phi_max -> b_z_min < b_z_max ->
  B_STS_init junk p_n_r p_r_min p_r_max p_n_phi p_phi_min p_phi_max p_n_z p_z_min p_z_max b_n_r b_r_min b_r_max b_n_phi b_phi_min b_phi_max b_n_z b_z_min b_z_max
    naxis axis_min axis_max axis_r axis_z psi0 psi1 psi B_r B_phi B_z = IOk d ->
  let volume (f : nat -> R) := volume_interpolant b_n_r b_n_phi b_n_z NATURALBC PERIODICBC NATURALBC b_r_min b_r_max b_phi_min b_phi_max b_z_min b_z_max (fun i j k => f (k * b_n_phi * b_n_r + j * b_n_r + i)%nat) in
  exists P Pr Pp Pz P4 P5 P6 P7 P8 P9 BR BRr BRp BRz BR4 BR5 BR6 BR7 BR8 BR9 BP BPr BPp BPz BP4 BP5 BP6 BP7 BP8 BP9 BZ BZr BZp BZz BZ4 BZ5 BZ6 BZ7 BZ8 BZ9,
  volume_interpolant p_n_r p_n_phi p_n_z NATURALBC PERIODICBC NATURALBC p_r_min p_r_max p_phi_min p_phi_max p_z_min p_z_max (fun i j k => psi (k * p_n_phi * p_n_r + j * p_n_r + i)%nat) P Pr Pp Pz P4 P5 P6 P7 P8 P9 /\
  volume B_r BR BRr BRp BRz BR4 BR5 BR6 BR7 BR8 BR9 /\ volume B_phi BP BPr BPp BPz BP4 BP5 BP6 BP7 BP8 BP9 /\ volume B_z BZ BZr BZp BZz BZ4 BZ5 BZ6 BZ7 BZ8 BZ9 /\
  let B r p z := V (BR r p z) (BP r p z) (BZ r p z) in
  let onP := on2 p_r_min p_r_max p_z_min p_z_max in let onB := on2 b_r_min b_r_max b_z_min b_z_max in
  (forall r phi z, onP r z -> B_field_eval_psi (BF_STS d) r phi z = Out 0 (P r phi z) /\ B_field_eval_psi_dpsi (BF_STS d) r phi z = Out 0 (P r phi z, V (Pr r phi z) (Pp r phi z) (Pz r phi z))) /\
  (forall r phi z, onB r z -> B r phi z <> vzero -> B_field_eval_B (BF_STS d) r phi z = Out 0 (B r phi z) /\
        exists D, B_field_eval_B_dB (BF_STS d) r phi z = Out 0 D /\ V (D 0%nat) (D 4%nat) (D 8%nat) = B r phi z /\
          (in2 b_r_min b_r_max b_z_min b_z_max r z -> jac_of B r phi z D)) /\
  (forall r phi z, ~ onP r z -> exists e e', e <> 0%Z /\ e' <> 0%Z /\ B_field_eval_psi (BF_STS d) r phi z = Out e 1 /\ B_field_eval_psi_dpsi (BF_STS d) r phi z = Out e' (1, vzero)) /\
  (forall r phi z, ~ onB r z \/ B r phi z = vzero -> exists e e' D, e <> 0%Z /\ e' <> 0%Z /\ B_field_eval_B (BF_STS d) r phi z = Out e (V 1 0 0) /\ B_field_eval_B_dB (BF_STS d) r phi z = Out e' D).
Proof. exact sts_main. Qed.
Print Assumptions bsts_field.

(** C73. *)
Theorem cartesian_field : forall b r phi z, exists v, B_field_eval_B (BF_TC b) r phi z = Out 0 v /\ cart phi v = affine b (r * cos phi) (r * sin phi) z.
Proof. exact tc_B. Qed.
Print Assumptions cartesian_field.
Theorem cartesian_field_derivatives : forall b r phi z, r <> 0 -> exists D, B_field_eval_B_dB (BF_TC b) r phi z = Out 0 D /\
  cart phi (V (D 0%nat) (D 4%nat) (D 8%nat)) = tcB b /\
  (forall k c, In (k, c) ((0%nat, vx) :: (4%nat, vy) :: (8%nat, vz) :: nil) ->
     Dx (fun t => c (tc_field b t phi z)) r (D (k + 1)%nat) /\ Dx (fun t => c (tc_field b r phi t)) z (D (k + 3)%nat)) /\
  divergence D r = tcd b 0%nat + tcd b 4%nat + tcd b 8%nat /\
  (jac_of (tc_field b) r phi z D <-> affine b (r * cos phi) (r * sin phi) z = tcB b).
Proof. exact tc_dB. Qed.
Print Assumptions cartesian_field_derivatives.

(** finding: away from the points where the Jacobian annihilates the position the reported
    derivatives do not belong to the reported field *)
Theorem cartesian_field_derivatives_refuted : exists b r phi z D, r <> 0 /\ B_field_eval_B_dB (BF_TC b) r phi z = Out 0 D /\ ~ jac_of (tc_field b) r phi z D /\
  B_field_eval_B (BF_TC b) r phi z = Out 0 (V 1 1 0) /\ V (D 0%nat) (D 4%nat) (D 8%nat) = V 1 0 0.
Proof.
  set (b := BT 1 0 0 (1 / 2) (V 1 0 0) (fun k => match k with 3%nat => 1 | _ => 0 end)). assert (R0 : 1 <> 0) by lra.
  destruct (tc_dB b 1 0 0 R0) as (D & E & _ & _ & _ & J). exists b, 1, 0, 0, D. split; [exact R0|]. split; [exact E|]. split; [|split].
  - intro H. apply J in H. unfold affine, b in H. cbn [tcB tcd vx vy vz] in H. rewrite cos_0, sin_0 in H. injection H as _ H. lra.
  - unfold B_field_eval_B. rewrite tc_eval. unfold cyl, affine, b. cbn [wrapup tcB tcd vx vy vz]. rewrite cos_0, sin_0. apply (f_equal (Out 0)). f_equal; ring.
  - cbn [B_field_eval_B_dB wrapup] in E. injection E as <-. unfold B_TC_eval_B_dB, MathModel.jac_xyz2rpz, b. cbn [tcB tcd vx vy vz]. rewrite cos_0, sin_0. f_equal; ring.
Qed.
Print Assumptions cartesian_field_derivatives_refuted.

(** flux R between R = 1 and 3, axis value 2, toroidal field 2 *)
Definition tpsi (k : nat) : R := if Nat.odd k then 3 else 1.
Definition zeros (k : nat) : R := 0.
Definition twos (k : nat) : R := 2.
Lemma tpsi_lin : forall i j, (i < 2)%nat -> (j < 2)%nat -> let x := 1 + INR i * step 2 NATURALBC 1 3 in let y := -1 + INR j * step 2 NATURALBC (-1) 1 in tpsi (j * 2 + i) = 0 + 1 * x + 0 * y + 0 * x * y.
Proof. intros i j I J. unfold step, cells. cbn [Z.eqb NATURALBC Nat.sub]. destruct i as [|[|i]]; [| |lia]; (destruct j as [|[|j]]; [| |lia]); cbn; lra. Qed.
Lemma const_lin : forall c i j, let x := 1 + INR i * step 2 NATURALBC 1 3 in let y := -1 + INR j * step 2 NATURALBC (-1) 1 in c = c + 0 * x + 0 * y + 0 * x * y.
Proof. intros. cbv zeta. ring. Qed.
Example b2ds_example : forall junk, exists d, B_2DS_init junk 2 1 3 2 (-1) 1 2 0 2 3 tpsi zeros twos zeros = IOk d /\
  (forall r phi z, 1 < r < 3 -> -1 < z < 1 -> B_field_eval_psi_dpsi (BF_2DS d) r phi z = Out 0 (r, V 1 0 0) /\ B_field_eval_B (BF_2DS d) r phi z = Out 0 (V 0 2 (1 / r))) /\
  B_field_eval_rho_drho (BF_2DS d) (9 / 4) 0 0 = Out 0 (1 / 2, V 1 0 0) /\ B_field_eval_rho_drho (BF_2DS d) 2 0 0 = ODiv0 /\
  (exists e, e <> 0%Z /\ B_field_eval_rho_drho (BF_2DS d) (3 / 2) 0 0 = Out e (1, vzero)) /\
  (forall dV, E_1DS_init junk 2 0 1 7 twos = Val dV -> E_field_eval_E (EF_1DS dV) (BF_2DS d) (9 / 4) 0 0 = FVal (V (-2) 0 0)).
Proof.
  intro junk. pose proof (nat_enough 2 (le_n 2)) as EN.
  assert (IN : exists d, B_2DS_init junk 2 1 3 2 (-1) 1 2 0 2 3 tpsi zeros twos zeros = IOk d).
  { unfold B_2DS_init. destruct (interp2Dcomp_setup_ok junk tpsi 2 2 _ _ 1 3 (-1) 1 EN EN) as [p E1]. destruct (interp2Dcomp_setup_ok junk zeros 2 2 _ _ 1 3 (-1) 1 EN EN) as [q E2]. destruct (interp2Dcomp_setup_ok junk twos 2 2 _ _ 1 3 (-1) 1 EN EN) as [w E3].
    rewrite E1, E2, E3. unfold B_2DS_eval_B. cbn [b2psi b2r b2phi b2z].
    destruct (surf_of junk 2 2 1 3 (-1) 1 (le_n 2) (le_n 2) ltac:(lra) ltac:(lra) _ _ E1) as (P & Pr & Pz & Prr & Pzz & Prz & SP & VP & _).
    destruct (surf_of junk 2 2 1 3 (-1) 1 (le_n 2) (le_n 2) ltac:(lra) ltac:(lra) _ _ E2) as (Q & Qr & Qz & Qrr & Qzz & Qrz & SQ & VQ & _).
    destruct (surf_of junk 2 2 1 3 (-1) 1 (le_n 2) (le_n 2) ltac:(lra) ltac:(lra) _ _ E3) as (W & Wr & Wz & Wrr & Wzz & Wrz & SW & VW & _).
    destruct (VP 2 0 ltac:(split; lra)) as [_ ->]. destruct (VQ 2 0 ltac:(split; lra)) as [-> _]. destruct (VW 2 0 ltac:(split; lra)) as [-> _]. cbn [three one]. rewrite divide_nz by lra. cbv zeta.
    rewrite (bilinear_exact 2 2 1 3 (-1) 1 _ _ _ _ _ _ _ 2 0 0 0 (le_n 2) (le_n 2) ltac:(lra) ltac:(lra) SW (fun i j _ _ => const_lin 2 i j) 2 0) by lra.
    destruct (no_field _ (2 + 0 * 2 + 0 * 0 + 0 * 2 * 0) _) eqn:NF; [apply no_field_spec in NF; injection NF as _ NF _; lra|]. eauto. }
  destruct IN as [d IN]. exists d. split; [exact IN|].
  destruct (b2_main junk 2 2 1 3 (-1) 1 2 0 2 3 tpsi zeros twos zeros d (le_n 2) (le_n 2) ltac:(lra) ltac:(lra) IN)
    as (P & Pr & Pz & Prr & Pzz & Prz & BR & BRr & BRz & BRrr & BRzz & BRrz & BP & BPr & BPz & BPrr & BPzz & BPrz & BZ & BZr & BZz & BZrr & BZzz & BZrz & SP & SR & SF & SZ & V & _).
  assert (M : forall r phi z, 1 < r < 3 -> -1 < z < 1 -> B_field_eval_psi_dpsi (BF_2DS d) r phi z = Out 0 (r, {| vx := 1; vy := 0; vz := 0 |}) /\ B_field_eval_B (BF_2DS d) r phi z = Out 0 {| vx := 0; vy := 2; vz := 1 / r |}).
  { intros r phi z I J. destruct (V r phi z ltac:(lra)) as (_ & E & F & _). rewrite E.
    assert (Q1 := bilinear_exact 2 2 1 3 (-1) 1 _ _ _ _ _ _ _ 0 1 0 0 (le_n 2) (le_n 2) ltac:(lra) ltac:(lra) SP tpsi_lin r z ltac:(lra) ltac:(lra)).
    assert (Q2 := bilinear_exact_der 2 2 1 3 (-1) 1 _ _ _ _ _ _ _ 0 1 0 0 (le_n 2) (le_n 2) ltac:(lra) ltac:(lra) SP tpsi_lin r z I J). destruct Q2 as [Q2 Q3].
    assert (Q4 := bilinear_exact 2 2 1 3 (-1) 1 _ _ _ _ _ _ _ 0 0 0 0 (le_n 2) (le_n 2) ltac:(lra) ltac:(lra) SR (fun i j _ _ => const_lin 0 i j) r z ltac:(lra) ltac:(lra)).
    assert (Q5 := bilinear_exact 2 2 1 3 (-1) 1 _ _ _ _ _ _ _ 2 0 0 0 (le_n 2) (le_n 2) ltac:(lra) ltac:(lra) SF (fun i j _ _ => const_lin 2 i j) r z ltac:(lra) ltac:(lra)).
    assert (Q6 := bilinear_exact 2 2 1 3 (-1) 1 _ _ _ _ _ _ _ 0 0 0 0 (le_n 2) (le_n 2) ltac:(lra) ltac:(lra) SZ (fun i j _ _ => const_lin 0 i j) r z ltac:(lra) ltac:(lra)).
    unfold flux_field in F. rewrite Q1, Q2, Q3. rewrite Q2, Q3, Q4, Q5, Q6 in F. split; [apply (f_equal (Out 0)); f_equal; [ring|f_equal; ring]|]. destruct F as [-> _]; [lra|intro H; injection H as _ H _; lra|]. apply (f_equal (Out 0)). f_equal; field; lra. }
  split; [exact M|]. assert (LIM : psi_limits (BF_2DS d) = (2, 3)). { destruct (b2_setups junk 2 2 1 3 (-1) 1 2 0 2 3 tpsi zeros twos zeros d IN) as (? & ? & ? & ? & _ & _ & _ & _ & ->). reflexivity. }
  assert (K : forall r, 1 < r < 3 -> (0 < r - 2 -> B_field_eval_rho_drho (BF_2DS d) r 0 0 = Out 0 (sqrt (r - 2), vscal (1 / (2 * sqrt (r - 2))) {| vx := 1; vy := 0; vz := 0 |})) /\
     (r = 2 -> B_field_eval_rho_drho (BF_2DS d) r 0 0 = ODiv0) /\ (r < 2 -> exists e, e <> 0%Z /\ B_field_eval_rho_drho (BF_2DS d) r 0 0 = Out e (1, vzero))).
  { intros r I. destruct (rho_main (BF_2DS d) r 0 0 r _ Logic.I ltac:(rewrite LIM; cbn; lra) (proj1 (M r 0 0 I ltac:(lra)))) as (A & B & C). unfold rho_slope, norm_psi in *. rewrite LIM in *. cbn [fst snd] in *.
    replace ((r - 2) / (3 - 2)) with (r - 2) in * by field. replace (2 * (3 - 2)) with 2 in * by ring. split; [exact A|]. split; [intro; apply B; [lra|exact (fun x => x)]|intro; apply C; left; lra]. }
  assert (H94 : B_field_eval_rho_drho (BF_2DS d) (9 / 4) 0 0 = Out 0 (1 / 2, {| vx := 1; vy := 0; vz := 0 |})).
  { destruct (K (9 / 4) ltac:(lra)) as [A _]. rewrite A by lra. replace (sqrt (9 / 4 - 2)) with (1 / 2) by (symmetry; apply sqrt_lem_1; lra). unfold vscal. cbn [vx vy vz]. apply (f_equal (Out 0)); f_equal; f_equal; field. }
  split; [exact H94|]. split; [apply K; lra|]. split; [apply K; lra|]. intros dV HV.
  destruct (e1_main junk 2 0 1 7 twos dV (le_n 2) ltac:(lra) HV) as (_ & F & F1 & F2 & SF1 & X).
  destruct (X (BF_2DS d) (9 / 4) 0 0 ltac:(lra)) as (Y & _). destruct (Y _ _ H94) as (W & _). destruct W as (E & -> & ->); [lra|].
  pose proof (line_spline 2 0 1 2 0 (fun _ => 2) (fun _ => 0) (fun _ => 0) (le_n 2) ltac:(lra) (fun x => ltac:(cbv beta; ring)) (fun _ => eq_refl) (fun _ => eq_refl)) as LS.
  rewrite (spline_interpolant_unique 2 NATURALBC 0 1 twos F F1 F2 _ _ _ EN ltac:(lra) SF1 LS) by lra. unfold vscal. cbn [vx vy vz]. apply (f_equal FVal). f_equal; lra.
Qed.

(** a field table on 2 x 3 x 2 points, evaluated at its first point, which is also the axis *)
Definition ramp (k : nat) : R := 5 + INR k.
Example b3ds_example : forall junk, exists d, B_3DS_init junk 2 1 3 2 0 1 2 1 3 3 0 1 2 0 1 1 0 0 1 zeros zeros twos ramp = IOk d /\
  exists e, e <> 0%Z /\ B_field_eval_B (BF_3DS d) 1 0 2 = Out e (V 1 0 0).
Proof.
  intro junk. pose proof (nat_enough 2 (le_n 2)) as EN. pose proof (or_intror (conj eq_refl (le_n 3)) : enough 3 PERIODICBC) as EP.
  assert (IN : exists d, B_3DS_init junk 2 1 3 2 0 1 2 1 3 3 0 1 2 0 1 1 0 0 1 zeros zeros twos ramp = IOk d).
  { unfold B_3DS_init. destruct (interp2Dcomp_setup_ok junk zeros 2 2 _ _ 1 3 0 1 EN EN) as [p E1].
    destruct (interp3Dcomp_setup_ok junk zeros 2 3 2 _ _ _ 1 3 0 1 0 1 EN EP EN) as [q E2]. destruct (interp3Dcomp_setup_ok junk twos 2 3 2 _ _ _ 1 3 0 1 0 1 EN EP EN) as [w E3].
    destruct (interp3Dcomp_setup_ok junk ramp 2 3 2 _ _ _ 1 3 0 1 0 1 EN EP EN) as [u E4]. rewrite E1, E2, E3, E4.
    unfold B_3DS_eval_B. cbn [b3psi b3r b3phi b3z].
    destruct (surf_of junk 2 2 1 3 0 1 (le_n 2) (le_n 2) ltac:(lra) ltac:(lra) _ _ E1) as (P & Pr & Pz & Prr & Pzz & Prz & SP & VP & _).
    destruct (vol_of junk 2 3 2 1 3 0 1 0 1 (le_n 2) (le_n 3) (le_n 2) ltac:(lra) ltac:(lra) ltac:(lra) _ _ E2) as (Q & Q1 & Q2 & Q3 & Q4 & Q5 & Q6 & Q7 & Q8 & Q9 & SQ & VQ & _).
    destruct (vol_of junk 2 3 2 1 3 0 1 0 1 (le_n 2) (le_n 3) (le_n 2) ltac:(lra) ltac:(lra) ltac:(lra) _ _ E3) as (W & W1 & W2 & W3 & W4 & W5 & W6 & W7 & W8 & W9 & SW & VW & _).
    destruct (vol_of junk 2 3 2 1 3 0 1 0 1 (le_n 2) (le_n 3) (le_n 2) ltac:(lra) ltac:(lra) ltac:(lra) _ _ E4) as (U & U1 & U2 & U3 & U4 & U5 & U6 & U7 & U8 & U9 & SU & VU & _).
    destruct (VP 1 0 ltac:(split; lra)) as [_ ->]. destruct (VQ 1 0 0 ltac:(split; lra)) as [-> _]. destruct (VW 1 0 0 ltac:(split; lra)) as [-> _]. destruct (VU 1 0 0 ltac:(split; lra)) as [-> _]. cbn [three one]. rewrite divide_nz by lra. cbv zeta.
    destruct SW as (SW & _). specialize (SW 0%nat 0%nat 0%nat ltac:(lia) ltac:(lia) ltac:(lia)). cbn [INR] in SW. rewrite !Rmult_0_l, !Rplus_0_r in SW. rewrite SW.
    destruct (no_field _ (twos _) _) eqn:NF; [apply no_field_spec in NF; injection NF; unfold twos; intros; lra|]. eauto. }
  destruct IN as [d IN]. exists d. split; [exact IN|].
  pose proof (b3_main junk 2 2 2 3 2 1 3 0 1 1 3 0 1 0 1 1 0 0 1 zeros zeros twos ramp d (le_n 2) (le_n 2) (le_n 2) (le_n 3) (le_n 2) ltac:(lra) ltac:(lra) ltac:(lra) ltac:(lra) ltac:(lra) IN) as H.
  repeat match goal with X : ex _ |- _ => destruct X end. destruct H as (_ & _ & _ & _ & _ & _ & _ & H).
  destruct (H 1 0 2) as (e & _ & _ & E & _ & X & _); [left; unfold on2; lra|]. exists e. now split.
Qed.
Example bsts_example : forall junk, exists d, B_STS_init junk 2 1 3 3 0 1 2 0 1 2 1 3 3 0 1 2 0 1 2 0 1 (Arr 2 (fun _ => 1)) (Arr 2 (fun _ => 0)) 0 1 ramp zeros twos ramp = IOk d /\
  B_field_eval_B (BF_STS d) 1 0 0 = Out 0 (V 0 2 5) /\ B_field_eval_psi (BF_STS d) 1 0 0 = Out 0 5 /\ B_field_get_axis_rz (BF_STS d) 0 = Out 0 (1, 0).
Proof.
  intro junk. pose proof (nat_enough 2 (le_n 2)) as EN. pose proof (or_intror (conj eq_refl (le_n 3)) : enough 3 PERIODICBC) as EP.
  assert (LI : forall c, linint1D_eval_f (linint1D_init (Arr 2 (fun _ => c)) 2 PERIODICBC 0 1) 0 = Val c).
  { intro c. destruct (linint1D_between (linint1D_init (Arr 2 (fun _ => c)) 2 PERIODICBC 0 1) ltac:(apply mk_axis_ok; [lra|right; split; [reflexivity|lia]]) eq_refl c c 0) as (v & E & B).
    - intros i _. cbn. unfold between. lra.
    - intro H. discriminate H.
    - rewrite E. f_equal. unfold between in B. lra. }
  assert (IN : exists p q w u, let d := BS p q w u 0 1 (linint1D_init (Arr 2 (fun _ => 1)) 2 PERIODICBC 0 1) (linint1D_init (Arr 2 (fun _ => 0)) 2 PERIODICBC 0 1) in
     B_STS_init junk 2 1 3 3 0 1 2 0 1 2 1 3 3 0 1 2 0 1 2 0 1 (Arr 2 (fun _ => 1)) (Arr 2 (fun _ => 0)) 0 1 ramp zeros twos ramp = IOk d /\
     B_STS_eval_B d 1 0 0 = FVal (V 0 2 5) /\ B_STS_eval_psi d 1 0 0 = FVal 5).
  { unfold B_STS_init.
    destruct (interp3Dcomp_setup_ok junk zeros 2 3 2 _ _ _ 1 3 0 1 0 1 EN EP EN) as [q E2]. destruct (interp3Dcomp_setup_ok junk twos 2 3 2 _ _ _ 1 3 0 1 0 1 EN EP EN) as [w E3].
    destruct (interp3Dcomp_setup_ok junk ramp 2 3 2 _ _ _ 1 3 0 1 0 1 EN EP EN) as [u E4]. rewrite E2, E3, E4. exists u, q, w, u. cbv zeta.
    unfold B_STS_get_axis_rz. cbn [bsaxr bsaxz]. rewrite !LI.
    unfold B_STS_eval_B, B_STS_eval_psi. cbn [bspsi bsr bsphi bsz].
    destruct (vol_of junk 2 3 2 1 3 0 1 0 1 (le_n 2) (le_n 3) (le_n 2) ltac:(lra) ltac:(lra) ltac:(lra) _ _ E2) as (Q & Q1 & Q2 & Q3 & Q4 & Q5 & Q6 & Q7 & Q8 & Q9 & SQ & VQ & _).
    destruct (vol_of junk 2 3 2 1 3 0 1 0 1 (le_n 2) (le_n 3) (le_n 2) ltac:(lra) ltac:(lra) ltac:(lra) _ _ E3) as (W & W1 & W2 & W3 & W4 & W5 & W6 & W7 & W8 & W9 & SW & VW & _).
    destruct (vol_of junk 2 3 2 1 3 0 1 0 1 (le_n 2) (le_n 3) (le_n 2) ltac:(lra) ltac:(lra) ltac:(lra) _ _ E4) as (U & U1 & U2 & U3 & U4 & U5 & U6 & U7 & U8 & U9 & SU & VU & _).
    destruct (VQ 1 0 0 ltac:(split; lra)) as [-> _]. destruct (VW 1 0 0 ltac:(split; lra)) as [-> _]. destruct (VU 1 0 0 ltac:(split; lra)) as [-> _]. cbn [three one].
    destruct SQ as (SQ & _). specialize (SQ 0%nat 0%nat 0%nat ltac:(lia) ltac:(lia) ltac:(lia)). cbn [INR] in SQ. rewrite !Rmult_0_l, !Rplus_0_r in SQ. rewrite SQ.
    destruct SW as (SW & _). specialize (SW 0%nat 0%nat 0%nat ltac:(lia) ltac:(lia) ltac:(lia)). cbn [INR] in SW. rewrite !Rmult_0_l, !Rplus_0_r in SW. rewrite SW.
    destruct SU as (SU & _). specialize (SU 0%nat 0%nat 0%nat ltac:(lia) ltac:(lia) ltac:(lia)). cbn [INR] in SU. rewrite !Rmult_0_l, !Rplus_0_r in SU. rewrite SU.
    destruct (no_field _ (twos _) _) eqn:NF; [apply no_field_spec in NF; injection NF; unfold twos; intros; lra|]. cbn [code Z.add Z.eqb]. split; [reflexivity|]. unfold zeros, twos, ramp. cbn [Nat.mul Nat.add INR]. split; [apply (f_equal FVal); f_equal; ring|f_equal; ring]. }
  destruct IN as (p & q & w & u & IN). cbv zeta in IN. destruct IN as (IN & A & B). eexists. split; [exact IN|]. unfold B_field_eval_B, B_field_eval_psi, B_field_get_axis_rz, B_STS_get_axis_rz. rewrite A, B. cbn [bsaxr bsaxz]. rewrite !LI. repeat split.
Qed.
