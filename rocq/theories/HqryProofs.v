From Coq Require Import Reals ZArith List String Bool Lia Lra.
Import ListNotations.
From Verif Require Import Vec Deriv AxisModel SplineModel SplineProofs Spl2Proofs Spl3Proofs GsModel GsProofs GsProps BfModel BfProofs BfProps PlasmaModel PlasmaProofs PlasmaProps NeutralModel NeutralProofs NeutralProps.
From Verif Require Import Wall2Model Wall2Proofs Wall2Props Wall3Model Wall3Proofs Wall3GeoProofs Wall3SearchProofs Wall3Props.
From Verif Require Import MainModel HdfModel HmkModel HinModel HinProofs HuseModel HuseProofs HqryModel.
Import Verif.Vec.
Local Open Scope string_scope.
Local Open Scope R_scope.

Ltac fz := match goal with D : delivered ?c ?t ?res |- context [pz ?res ?p] => rewrite (get_z c t res p _ D eq_refl) end.
Ltac fx := match goal with D : delivered ?c ?t ?res |- context [px ?res ?p] => rewrite (get_x c t res p _ _ D eq_refl) end.
Ltac ft := match goal with D : delivered ?c ?t ?res |- context [tabN ?res ?p ?i] => rewrite (get_tab c t res p _ _ i D eq_refl) end.
Ltac fts H := match type of H with context [tabN ?res ?p ?i] => match goal with D : delivered ?c ?t res |- _ => rewrite (get_tab c t res p _ _ i D eq_refl) in H end end; cbn [inSI] in H; try rewrite Rmult_1_l in H.
Ltac si := cbn [inSI]; rewrite ?Rmult_1_l.
Ltac opened path r sh t C := match type of C with complete ?f path ?qid ?c sh =>
  match goal with |- exists res, read_input r f qid ?s = Ok res /\ _ =>
    let fr := fresh "fr" in let RD := fresh "RD" in
    destruct (input_delivered path r sh t f qid c s ltac:(unfold inputs; HuseProofs.pick) C) as (fr & RD & D); exists fr; split; [exact RD|] end end.

(** ** Uniform and analytic fields *)
Theorem field_TC_file f qid c s : complete f "/bfield/B_TC_XXXXXXXXXX/" qid c s_TC ->
  exists res, read_input rB_TC f qid s = Ok res /\
  let B i := nth i (cr c "bxyz") 0 in let J i j := nth (3 * i + j) (cr c "jacobian") 0 in
  forall r phi z, let x := r * cos phi in let y := r * sin phi in
  exists v, B_field_eval_B (BF_TC (call_B_TC res)) r phi z = Out 0 v /\
    cart phi v = V (B 0%nat + (J 0%nat 0%nat * x + J 0%nat 1%nat * y + J 0%nat 2%nat * z)) (B 1%nat + (J 1%nat 0%nat * x + J 1%nat 1%nat * y + J 1%nat 2%nat * z)) (B 2%nat + (J 2%nat 0%nat * x + J 2%nat 1%nat * y + J 2%nat 2%nat * z)).
Proof.
  intros C. opened "/bfield/B_TC_XXXXXXXXXX/" rB_TC s_TC t_TC C. cbv zeta. intros r phi z.
  destruct (cartesian_field (call_B_TC fr) r phi z) as (v & E & K). exists v. split; [exact E|]. rewrite K. unfold affine, call_B_TC. cbn [tcB tcd vx vy vz]. repeat ft. si. reflexivity.
Qed.
Theorem field_E_TC_file f qid c s : complete f "/efield/E_TC_XXXXXXXXXX/" qid c s_ETC ->
  exists res, read_input rE_TC f qid s = Ok res /\
  forall B r phi z, exists v, E_field_eval_E (EF_TC (call_E_TC res)) B r phi z = FVal v /\ cart phi v = V (nth 0 (cr c "exyz") 0) (nth 1 (cr c "exyz") 0) (nth 2 (cr c "exyz") 0).
Proof.
  intros C. opened "/efield/E_TC_XXXXXXXXXX/" rE_TC s_ETC t_ETC C. intros B r phi z.
  destruct (cartesian_E (call_E_TC fr) B r phi z) as (v & E & K). exists v. split; [exact E|]. rewrite K. unfold call_E_TC. repeat ft. si. reflexivity.
Qed.
(** analytic equilibrium: the field comes from the flux, R B_phi is constant and the toroidal current has the profile of the file *)
Theorem field_GS_file f qid c s : complete f "/bfield/B_GS_XXXXXXXXXX/" qid c s_GS -> 0 < reald c "r0" ->
  exists res, read_input rB_GS f qid s = Ok res /\
  let g := BF_GS (call_B_GS res) in let R0 := reald c "r0" in let A := nth 12 (cr c "coefficients") 0 in
  forall r phi z, 0 < r ->
  exists (psi : R -> R -> R) a b v D, (forall r phi z, B_field_eval_psi g r phi z = Out 0 (psi r z)) /\ Dx (fun t => psi t z) r a /\ Dx (psi r) z b /\
    B_field_eval_B g r phi z = Out 0 v /\ vx v = - b / r /\ vz v = a / r /\ ((intd c "nripple" <= 0)%Z -> vy v * r = reald c "bphi0" * R0) /\
    B_field_eval_B_dB g r phi z = Out 0 D /\ D 3%nat - D 9%nat = - (reald c "psimult" / (R0 * R0)) * ((1 - A) / (R0 * R0) * r + A / r) /\
    B_field_get_axis_rz g phi = Out 0 (reald c "raxis", reald c "zaxis").
Proof.
  intros C P. opened "/bfield/B_GS_XXXXXXXXXX/" rB_GS s_GS t_GS C. cbv zeta. intros r phi z R0.
  assert (E0 : gR0 (call_B_GS fr) = reald c "r0") by (unfold call_B_GS; cbn [gR0]; fx; si; reflexivity).
  assert (E1 : gBphi0 (call_B_GS fr) = reald c "bphi0") by (unfold call_B_GS; cbn [gBphi0]; fx; si; reflexivity).
  assert (E2 : gN (call_B_GS fr) = intd c "nripple") by (unfold call_B_GS; cbn [gN]; fz; reflexivity).
  assert (E3 : gmult (call_B_GS fr) = reald c "psimult") by (unfold call_B_GS; cbn [gmult]; fx; si; reflexivity).
  assert (E4 : gc (call_B_GS fr) 12%nat = nth 12 (cr c "coefficients") 0) by (unfold call_B_GS; cbn [gc]; ft; si; reflexivity).
  assert (P' : 0 < gR0 (call_B_GS fr)) by (rewrite E0; exact P).
  destruct (gs_field_from_flux (call_B_GS fr) r phi z P' R0) as (a & b & A & B & V1 & V2 & V3).
  pose proof (gs_toroidal_current (call_B_GS fr) r phi z P' R0) as J. cbv zeta in J. rewrite E0, E3, E4 in J.
  exists (B_GS_eval_psi (call_B_GS fr)), a, b, (B_GS_eval_B (call_B_GS fr) r phi z), (B_GS_eval_B_dB (call_B_GS fr) r phi z).
  repeat split; try assumption.
  - intros N. rewrite V3 by (rewrite E2; exact N). rewrite E0, E1. field. lra.
  - unfold B_field_get_axis_rz, B_GS_get_axis_rz, call_B_GS. cbn [wrapup graxis gzaxis]. repeat fx. si. reflexivity.
Qed.
(** radial electric field: minus the spline through the tabulated dV/drho times the gradient of rho, whatever the effective radius *)
Theorem field_E_1DS_file f qid c s junk : complete f "/efield/E_1DS_XXXXXXXXXX/" qid c s_E1 -> (2 <= intd c "nrho")%Z -> reald c "rhomin" < reald c "rhomax" ->
  exists res, read_input rE_1DS f qid s = Ok res /\ forall dV, call_E_1DS junk res = Val dV ->
  exists F F1 F2, spline_interpolant (Z.to_nat (intd c "nrho")) NATURALBC (reald c "rhomin") (reald c "rhomax") (fun i => nth i (cr c "dvdrho") 0) F F1 F2 /\
  forall B r phi z rho d, r <> 0 -> B_field_eval_rho_drho B r phi z = Out 0 (rho, d) ->
    E_field_eval_E (EF_1DS dV) B r phi z = FVal (if Rle_dec (reald c "rhomin") rho then if Rle_dec rho (reald c "rhomax") then vscal (- F rho) (V (vx d) (vy d / r) (vz d)) else vzero else vzero).
Proof.
  intros C N M. opened "/efield/E_1DS_XXXXXXXXXX/" rE_1DS s_E1 t_E1 C. intros dV. unfold call_E_1DS, pn. fz. repeat fx. si. intros H.
  assert (A1 : (2 <= Z.to_nat (intd c "nrho"))%nat) by lia.
  destruct (radial_E junk _ _ _ _ _ dV A1 M H) as (_ & F & F1 & F2 & S & E). exists F, F1, F2. split.
  - destruct S as (S1 & S2). split; [|exact S2]. intros k K. rewrite (S1 k K). ft. si. reflexivity.
  - intros B r phi z rho d R0 RD'. destruct (E B r phi z R0) as (E1 & _). destruct (E1 rho d RD') as (I & O).
    destruct (Rle_dec (reald c "rhomin") rho); [destruct (Rle_dec rho (reald c "rhomax"))|].
    + destruct I as (v & I & ->); [lra|]. exact I.
    + apply O. lra.
    + apply O. lra.
Qed.

(** ** Tabulated 3D perturbation over an axisymmetric flux *)
Theorem field3D_file f qid c s junk : complete f "/bfield/B_3DS_XXXXXXXXXX/" qid c s_3DS ->
  (2 <= intd c "psi_nr")%Z -> (2 <= intd c "psi_nz")%Z -> (2 <= intd c "b_nr")%Z -> (3 <= intd c "b_nphi")%Z -> (2 <= intd c "b_nz")%Z ->
  reald c "psi_rmin" < reald c "psi_rmax" -> reald c "psi_zmin" < reald c "psi_zmax" ->
  reald c "b_rmin" < reald c "b_rmax" -> reald c "b_phimin" < reald c "b_phimax" -> reald c "b_zmin" < reald c "b_zmax" ->
  exists res, read_input rB_3DS f qid s = Ok res /\ forall d, call_B_3DS junk res = IOk d ->
  (forall i j phi, (i < Z.to_nat (intd c "psi_nr"))%nat -> (j < Z.to_nat (intd c "psi_nz"))%nat ->
     B_field_eval_psi (BF_3DS d) (point (intd c "psi_nr") (reald c "psi_rmin") (reald c "psi_rmax") i) phi (point (intd c "psi_nz") (reald c "psi_zmin") (reald c "psi_zmax") j)
       = Out 0 (nth (j * Z.to_nat (intd c "psi_nr") + i) (cr c "psi") 0)) /\
  (forall i j k, (i < Z.to_nat (intd c "b_nr"))%nat -> (j < Z.to_nat (intd c "b_nphi"))%nat -> (k < Z.to_nat (intd c "b_nz"))%nat ->
     let r := point (intd c "b_nr") (reald c "b_rmin") (reald c "b_rmax") i in let phi := angle (intd c "b_nphi") (reald c "b_phimin") (reald c "b_phimax") j in
     let z := point (intd c "b_nz") (reald c "b_zmin") (reald c "b_zmax") k in
     let b ds := nth (k * Z.to_nat (intd c "b_nphi") * Z.to_nat (intd c "b_nr") + j * Z.to_nat (intd c "b_nr") + i) (cr c ds) 0 in
     reald c "psi_rmin" <= r <= reald c "psi_rmax" -> reald c "psi_zmin" <= z <= reald c "psi_zmax" -> 0 < r -> b "bphi" <> 0 ->
     exists psi g, B_field_eval_psi_dpsi (BF_3DS d) r phi z = Out 0 (psi, g) /\ B_field_eval_B (BF_3DS d) r phi z = Out 0 (V (b "br" - vz g / r) (b "bphi") (b "bz" + vx g / r))).
Proof.
  intros C N1 N2 N3 N4 N5 M1 M2 M3 M4 M5. opened "/bfield/B_3DS_XXXXXXXXXX/" rB_3DS s_3DS t_3DS C. intros d. unfold call_B_3DS, pn. repeat fz. repeat fx. si. intros H. cbv zeta.
  assert (PP : 0 < PI / 180) by (pose proof PI_RGT_0; lra).
  assert (A1 : (2 <= Z.to_nat (intd c "psi_nr"))%nat) by lia. assert (A2 : (2 <= Z.to_nat (intd c "psi_nz"))%nat) by lia. assert (A3 : (2 <= Z.to_nat (intd c "b_nr"))%nat) by lia.
  assert (A4 : (3 <= Z.to_nat (intd c "b_nphi"))%nat) by lia. assert (A5 : (2 <= Z.to_nat (intd c "b_nz"))%nat) by lia.
  assert (M4' : PI / 180 * reald c "b_phimin" < PI / 180 * reald c "b_phimax") by nra.
  destruct (b3ds_field _ _ _ _ _ _ _ _ _ _ _ _ _ _ _ _ _ _ _ _ _ _ _ _ d A1 A2 A3 A4 A5 M1 M2 M3 M4' M5 H)
    as (P & Pr & Pz & Prr & Pzz & Prz & BR & BRr & BRp & BRz & BR4 & BR5 & BR6 & BR7 & BR8 & BR9 & BP & BPr & BPp & BPz & BP4 & BP5 & BP6 & BP7 & BP8 & BP9 & BZ & BZr & BZp & BZz & BZ4 & BZ5 & BZ6 & BZ7 & BZ8 & BZ9 & SP & SR & SB & SZ & EP & EB & _).
  clear H. split.
  - intros i j phi I J. destruct SP as [SP _]. specialize (SP i j I J). rewrite !point_step in SP by assumption. fts SP. rewrite <- SP. apply EP. split; apply point_in; assumption.
  - intros i j k I J K IR IZ R0 B0.
    destruct SR as [SR _]. specialize (SR i j k I J K). rewrite !point_step, !angle_step in SR by assumption. fts SR.
    destruct SB as [SB _]. specialize (SB i j k I J K). rewrite !point_step, !angle_step in SB by assumption. fts SB.
    destruct SZ as [SZ _]. specialize (SZ i j k I J K). rewrite !point_step, !angle_step in SZ by assumption. fts SZ.
    set (r := point (intd c "b_nr") _ _ i) in *. set (phi := angle _ _ _ j) in *. set (z := point (intd c "b_nz") _ _ k) in *.
    exists (P r z), (V (Pr r z) 0 (Pz r z)). split; [apply EP; split; assumption|]. cbn [vx vz].
    destruct (EB r phi z) as [E _]; [split; assumption|split; apply point_in; assumption|lra| |].
    + unfold flux_field3, vzero. intros X. injection X as _ X _. apply B0. rewrite <- SB. exact X.
    + rewrite E. unfold flux_field3. rewrite SR, SB, SZ. reflexivity.
Qed.

(** ** Spline profiles of the plasma: the tabulated values at the grid points *)
Theorem plasma_1DS_file f qid c s junk : complete f "/plasma/plasma_1DS_XXXXXXXXXX/" qid c s_PS -> (2 <= intd c "nrho")%Z -> (0 <= intd c "nion")%Z -> reald c "rhomin" < reald c "rhomax" ->
  exists res d, read_input rplasma_1DS f qid s = Ok res /\ call_plasma_1DS junk res = Some d /\
  forall k i, (0 <= k <= intd c "nion")%Z -> (i < Z.to_nat (intd c "nrho"))%nat ->
  let x := point (intd c "nrho") (reald c "rhomin") (reald c "rhomax") i in
  let n := if Z.eqb k 0 then nth i (cr c "edensity") 0 else nth (Z.to_nat (k - 1) * Z.to_nat (intd c "nrho") + i) (cr c "idensity") 0 in
  let t := nth i (cr c (if Z.eqb k 0 then "etemperature" else "itemperature")) 0 in
  (0 < n -> plasma_1DS_eval_dens d x k = Good n) /\ (0 < t -> plasma_1DS_eval_temp d x k = Good (1.602176565e-19 * t)).
Proof.
  intros C N NI M. destruct (input_delivered "/plasma/plasma_1DS_XXXXXXXXXX/" rplasma_1DS s_PS t_PS f qid c s ltac:(unfold inputs; HuseProofs.pick) C) as (fr & RD & D). exists fr.
  assert (A1 : (2 <= Z.to_nat (intd c "nrho"))%nat) by lia. unfold call_plasma_1DS, pn. repeat fz. repeat fx. si.
  destruct (plasma1DS_profiles junk _ (Z.to_nat (intd c "nion")) _ _ (tabN fr "Te") (tabN fr "Ti") (tabN fr "ne") (tabN fr "vtor") (fun j i => tabN fr "ni" (j * Z.to_nat (intd c "nrho") + i)) A1 M) as (d & I & P & _).
  exists d. split; [exact RD|]. split; [exact I|]. intros k i K Hi. cbv zeta.
  destruct (P k) as (Fn & Ft & Ln & Lt & E); [lia|]. specialize (E _ (point_in _ _ _ i N M Hi)). destruct E as (E1 & E2 & _).
  assert (PT : reald c "rhomin" + INR i * ((reald c "rhomax" - reald c "rhomin") / INR (Z.to_nat (intd c "nrho") - 1)) = point (intd c "nrho") (reald c "rhomin") (reald c "rhomax") i).
  { rewrite <- point_step by exact N. reflexivity. }
  pose proof (plasma1DS_exact_at_nodes _ _ _ _ _ i Ln Hi) as Xn. pose proof (plasma1DS_exact_at_nodes _ _ _ _ _ i Lt Hi) as Xt. rewrite PT in Xn, Xt. unfold dens_tab in Xn. unfold temp_tab in Xt.
  split; intros Q; [rewrite E1, Xn|rewrite E2, Xt]; destruct (Z.eqb k 0); ft; si; try reflexivity; try assumption; try (apply Rmult_lt_0_compat; [lra|exact Q]).
Qed.

(** ** Neutrals in three dimensions: every species gets the values of the first one *)
Theorem neutral3D_file f qid c s : complete f "/neutral/N0_3D_XXXXXXXXXX/" qid c s_N3 -> (2 <= intd c "nr")%Z -> (1 <= intd c "nphi")%Z -> (2 <= intd c "nz")%Z ->
  reald c "rmin" < reald c "rmax" -> reald c "phimin" < reald c "phimax" -> reald c "zmin" < reald c "zmax" ->
  exists res, read_input rN0_3D f qid s = Ok res /\
  let value tab := trilinear (mk_axis (intd c "nr") NATURALBC (reald c "rmin") (reald c "rmax")) (mk_axis (intd c "nphi") PERIODICBC (PI / 180 * reald c "phimin") (PI / 180 * reald c "phimax"))
      (mk_axis (intd c "nz") NATURALBC (reald c "zmin") (reald c "zmax")) (fun i j k => tab ((j * intd c "nz" + k) * intd c "nr" + i)%Z) in
  forall r phi z old, reald c "rmin" <= r < reald c "rmax" -> reald c "zmin" <= z < reald c "zmax" ->
  exists v w, N0_3D_eval_n0 (call_N0_3D res) r phi z old = Some (0%Z, v) /\ N0_3D_eval_t0 (call_N0_3D res) r phi z old = Some (0%Z, w) /\
    forall k, (k < Z.to_nat (intd c "nspecies"))%nat -> value (entryd c "density") r phi z (v k) /\ value (fun i => 1.602176565e-19 * entryd c "temperature" i) r phi z (w k).
Proof.
  intros C N1 N2 N3 M1 M2 M3. opened "/neutral/N0_3D_XXXXXXXXXX/" rN0_3D s_N3 t_N3 C. cbv zeta. intros r phi z old IR IZ. unfold call_N0_3D, pn. repeat fz. repeat fx. si.
  assert (M2' : PI / 180 * reald c "phimin" < PI / 180 * reald c "phimax") by (pose proof PI_RGT_0; nra).
  destruct (neutral3D_values _ _ _ _ _ _ _ _ _ (Z.to_nat (intd c "nspecies")) (tabZ fr "density") (tabZ fr "temperature") r phi z old N1 N2 N3 M1 M2' M3 IR IZ) as (v & w & E1 & E2 & H).
  exists v, w. split; [exact E1|]. split; [exact E2|]. intros k K. destruct (H k K) as [(a1 & a2 & a3 & a4 & a5 & a6 & a7 & a8 & a9 & X1 & X2 & X3 & X4) (b1 & b2 & b3 & b4 & b5 & b6 & b7 & b8 & b9 & Y1 & Y2 & Y3 & Y4)]. split.
  - exists a1, a2, a3, a4, a5, a6, a7, a8, a9. split; [exact X1|]. split; [exact X2|]. split; [exact X3|]. rewrite X4. unfold entry.
    rewrite !(tabZ_of c _ fr _ _ _ _ D (eq_refl : find t_N3 "density" = _)). cbn [inSI]. rewrite !Rmult_1_l. reflexivity.
  - exists b1, b2, b3, b4, b5, b6, b7, b8, b9. split; [exact Y1|]. split; [exact Y2|]. split; [exact Y3|]. rewrite Y4. unfold entry.
    rewrite !(tabZ_of c _ fr _ _ _ _ D (eq_refl : find t_N3 "temperature" = _)). reflexivity.
Qed.

(** ** Walls *)
Theorem wall2D_file f qid c s : complete f "/wall/wall_2D_XXXXXXXXXX/" qid c s_W2 ->
  exists res, read_input rwall_2D f qid s = Ok res /\
  let w := call_wall_2d res in let corner i := (nth i (cr c "r") 0, nth i (cr c "z") 0) in let n := Z.to_nat (intd c "nelements") in
  List.length w = n /\ (forall i, (i < n)%nat -> nth_error w i = Some (corner i)) /\
  forall p1 p2, (forall i, (i < n)%nat -> snd (corner i) <> snd p1 /\ snd (corner i) <> snd p2) ->
    (forall i, (i < n)%nat -> let a := corner i in let b := corner (if Nat.eqb (S i) n then 0 else S i)%nat in parallel p1 p2 a b -> ~ touches p1 p2 a b) ->
    wall_2d_inside (fst p1) (snd p1) w <> wall_2d_inside (fst p2) (snd p2) w -> fst (wall_2d_find_intersection p1 p2 w) <> 0%nat.
Proof.
  intros C. opened "/wall/wall_2D_XXXXXXXXXX/" rwall_2D s_W2 t_W2 C. cbv zeta.
  assert (W : call_wall_2d fr = map (fun i => (nth i (cr c "r") 0, nth i (cr c "z") 0)) (seq 0 (Z.to_nat (intd c "nelements")))).
  { unfold call_wall_2d, pn. fz. apply map_ext. intros i. repeat ft. si. reflexivity. }
  rewrite W. set (n := Z.to_nat (intd c "nelements")). set (g := fun i => (nth i (cr c "r") 0, nth i (cr c "z") 0)).
  assert (L : List.length (map g (seq 0 n)) = n) by (rewrite map_length, seq_length; reflexivity).
  assert (NE : forall i, (i < n)%nat -> nth_error (map g (seq 0 n)) i = Some (g i)).
  { intros i Hi. rewrite nth_error_map. rewrite (nth_error_nth' (seq 0 n) 0%nat) by (rewrite seq_length; exact Hi). cbn [option_map]. rewrite seq_nth by exact Hi. reflexivity. }
  split; [exact L|]. split; [exact NE|]. intros p1 p2 V1 V2. apply wall2d_no_tunnelling.
  - intros v I. apply in_map_iff in I. destruct I as (i & <- & I). apply in_seq in I. apply V1. lia.
  - intros i a b [Sa Sb]. assert (Hi : (i < n)%nat).
    { assert (S i < List.length (map g (seq 0 n) ++ firstn 1 (map g (seq 0 n))))%nat by (apply nth_error_Some; congruence). rewrite app_length, L in H.
      destruct n; cbn in H; [lia|]. lia. }
    rewrite nth_error_app1 in Sa by (rewrite L; exact Hi). rewrite (NE i Hi) in Sa. injection Sa as <-. specialize (V2 i Hi). cbv zeta in V2.
    destruct (Nat.eqb_spec (S i) n) as [E|E].
    + rewrite nth_error_app2 in Sb by (rewrite L; lia). rewrite L, E, Nat.sub_diag in Sb. specialize (NE 0%nat ltac:(lia)). destruct (map g (seq 0 n)); [discriminate|]. cbn in NE, Sb. injection NE as ->. injection Sb as <-. exact V2.
    + rewrite nth_error_app1 in Sb by (rewrite L; lia). rewrite NE in Sb by lia. injection Sb as <-. exact V2.
Qed.
Theorem wall3D_file f qid c s : complete f "/wall/wall_3D_XXXXXXXXXX/" qid c s_W3 ->
  exists res, read_input rwall_3D f qid s = Ok res /\
  let corner m j := V (nth (3 * m + j) (cr c "x1x2x3") 0) (nth (3 * m + j) (cr c "y1y2y3") 0) (nth (3 * m + j) (cr c "z1z2z3") 0) in
  List.length (call_wall_3d res) = Z.to_nat (intd c "nelements") /\
  forall depth junk1 junk2 w S0 r1 p1 z1 r2 p2 z2 m t, wall_3d_init (S depth) (call_wall_3d res) junk1 junk2 = Some w -> (m < Z.to_nat (intd c "nelements"))%nat ->
    let a := corner m 0%nat in let b := corner m 1%nat in let e := corner m 2%nat in
    EPS < S0 -> cell_faces S0 depth (wlo w) (whi w) -> resolved S0 a b e ->
    let q1 := xyz r1 p1 z1 in let q2 := xyz r2 p2 z2 in EPS <= slant q1 q2 a b e -> hits_at q1 q2 a b e t ->
    exists i s, wall_3d_hit_wall r1 p1 z1 r2 p2 z2 w = (S i, s) /\ 0 <= s <= t.
Proof.
  intros C. opened "/wall/wall_3D_XXXXXXXXXX/" rwall_3D s_W3 t_W3 C. cbv zeta.
  set (corner := fun m j => V (nth (3 * m + j) (cr c "x1x2x3") 0) (nth (3 * m + j) (cr c "y1y2y3") 0) (nth (3 * m + j) (cr c "z1z2z3") 0)).
  assert (W : call_wall_3d fr = map (fun m => T (corner m 0%nat) (corner m 1%nat) (corner m 2%nat)) (seq 0 (Z.to_nat (intd c "nelements")))).
  { unfold call_wall_3d, pn. fz. apply map_ext. intros i. unfold corner. cbv zeta. repeat ft. cbn [inSI]. rewrite !Rmult_1_l. reflexivity. }
  split; [rewrite W, map_length, seq_length; reflexivity|].
  intros depth junk1 junk2 w S0 r1 p1 z1 r2 p2 z2 m t WI Hm HS HF HR HL HH.
  assert (NE : nth_error (call_wall_3d fr) m = Some (T (corner m 0%nat) (corner m 1%nat) (corner m 2%nat))).
  { rewrite W, nth_error_map. rewrite (nth_error_nth' (seq 0 (Z.to_nat (intd c "nelements"))) 0%nat) by (rewrite seq_length; exact Hm). cbn [option_map]. rewrite seq_nth by exact Hm. reflexivity. }
  destruct (wall3d_no_tunnelling depth _ junk1 junk2 w S0 r1 p1 z1 r2 p2 z2 m _ t WI NE HS HF HR HL HH) as (_ & i & E & B). eauto.
Qed.
