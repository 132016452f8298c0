(** From the file to the evaluation: fields, spline profiles, 3D neutrals and walls *)
From Coq Require Import Reals ZArith List String Bool Lia Lra.
From Verif Require Import Vec Deriv AxisModel SplineModel SplineProofs GsModel GsProofs BfModel BfProofs PlasmaModel PlasmaProofs NeutralModel NeutralProofs Wall2Model Wall2Proofs Wall3Model Wall3Proofs Wall3GeoProofs Wall3SearchProofs MainModel HdfModel HmkModel HinModel HinProofs HuseModel HuseProofs HqryModel HqryProofs.
Import ListNotations.
Import ListNotations.
Import Verif.Vec.
Local Open Scope string_scope.
Local Open Scope R_scope.

(** Fields *)
(** trivial Cartesian field: everywhere the affine field whose offset and Jacobian, row by row, are the datasets *)
Theorem cartesian_field_from_file : forall f qid c s, complete f "/bfield/B_TC_XXXXXXXXXX/" qid c s_TC ->
  exists res, read_input rB_TC f qid s = Ok res /\
  let B i := nth i (cr c "bxyz") 0 in let J i j := nth (3 * i + j) (cr c "jacobian") 0 in
  forall r phi z, let x := r * cos phi in let y := r * sin phi in
  exists v, B_field_eval_B (BF_TC (call_B_TC res)) r phi z = Out 0 v /\
    cart phi v = V (B 0%nat + (J 0%nat 0%nat * x + J 0%nat 1%nat * y + J 0%nat 2%nat * z)) (B 1%nat + (J 1%nat 0%nat * x + J 1%nat 1%nat * y + J 1%nat 2%nat * z)) (B 2%nat + (J 2%nat 0%nat * x + J 2%nat 1%nat * y + J 2%nat 2%nat * z)).
Proof. exact field_TC_file. Qed.
Print Assumptions cartesian_field_from_file.
(** trivial Cartesian electric field: everywhere the vector of the dataset *)
Theorem cartesian_E_from_file : forall f qid c s, complete f "/efield/E_TC_XXXXXXXXXX/" qid c s_ETC ->
  exists res, read_input rE_TC f qid s = Ok res /\
  forall B r phi z, exists v, E_field_eval_E (EF_TC (call_E_TC res)) B r phi z = FVal v /\ cart phi v = V (nth 0 (cr c "exyz") 0) (nth 1 (cr c "exyz") 0) (nth 2 (cr c "exyz") 0).
Proof. exact field_E_TC_file. Qed.
Print Assumptions cartesian_E_from_file.
(** analytic equilibrium: poloidal field from the flux, R times the toroidal field constant, toroidal current of a Solov'ev profile and the axis, with the numbers of the file *)
Theorem analytic_field_from_file : forall f qid c s, complete f "/bfield/B_GS_XXXXXXXXXX/" qid c s_GS -> 0 < reald c "r0" ->
  exists res, read_input rB_GS f qid s = Ok res /\
  let g := BF_GS (call_B_GS res) in let R0 := reald c "r0" in let A := nth 12 (cr c "coefficients") 0 in
  forall r phi z, 0 < r ->
  exists (psi : R -> R -> R) a b v D, (forall r phi z, B_field_eval_psi g r phi z = Out 0 (psi r z)) /\ Dx (fun t => psi t z) r a /\ Dx (psi r) z b /\
    B_field_eval_B g r phi z = Out 0 v /\ vx v = - b / r /\ vz v = a / r /\ ((intd c "nripple" <= 0)%Z -> vy v * r = reald c "bphi0" * R0) /\
    B_field_eval_B_dB g r phi z = Out 0 D /\ D 3%nat - D 9%nat = - (reald c "psimult" / (R0 * R0)) * ((1 - A) / (R0 * R0) * r + A / r) /\
    B_field_get_axis_rz g phi = Out 0 (reald c "raxis", reald c "zaxis").
Proof. exact field_GS_file. Qed.
Print Assumptions analytic_field_from_file.
(** radial electric field: minus the spline through the dataset times the gradient of rho; the effective radius of the file has no effect *)
Theorem radial_E_from_file : forall f qid c s junk, complete f "/efield/E_1DS_XXXXXXXXXX/" qid c s_E1 -> (2 <= intd c "nrho")%Z -> reald c "rhomin" < reald c "rhomax" ->
  exists res, read_input rE_1DS f qid s = Ok res /\ forall dV, call_E_1DS junk res = Val dV ->
  exists F F1 F2, spline_interpolant (Z.to_nat (intd c "nrho")) NATURALBC (reald c "rhomin") (reald c "rhomax") (fun i => nth i (cr c "dvdrho") 0) F F1 F2 /\
  forall B r phi z rho d, r <> 0 -> B_field_eval_rho_drho B r phi z = Out 0 (rho, d) ->
    E_field_eval_E (EF_1DS dV) B r phi z = FVal (if Rle_dec (reald c "rhomin") rho then if Rle_dec rho (reald c "rhomax") then vscal (- F rho) (V (vx d) (vy d / r) (vz d)) else vzero else vzero).
Proof. exact field_E_1DS_file. Qed.
Print Assumptions radial_E_from_file.
(** three-dimensional field: at the grid points the flux is the dataset, and the field is the three datasets plus the flux part *)
Theorem field3D_from_file : forall f qid c s junk, complete f "/bfield/B_3DS_XXXXXXXXXX/" qid c s_3DS ->
  (2 <= intd c "psi_nr")%Z -> (2 <= intd c "psi_nz")%Z -> (2 <= intd c "b_nr")%Z -> (3 <= intd c "b_nphi")%Z -> (2 <= intd c "b_nz")%Z ->
  reald c "psi_rmin" < reald c "psi_rmax" -> reald c "psi_zmin" < reald c "psi_zmax" ->
  reald c "b_rmin" < reald c "b_rmax" -> reald c "b_phimin" < reald c "b_phimax" -> reald c "b_zmin" < reald c "b_zmax" ->
  exists res, read_input rB_3DS f qid s = Ok res /\ forall d, call_B_3DS junk res = IOk d ->
  (forall i j phi, (i < Z.to_nat (intd c "psi_nr"))%nat -> (j < Z.to_nat (intd c "psi_nz"))%nat ->
     B_field_eval_psi (BF_3DS d) (point (intd c "psi_nr") (reald c "psi_rmin") (reald c "psi_rmax") i) phi (point (intd c "psi_nz") (reald c "psi_zmin") (reald c "psi_zmax") j)
       = Out 0 (nth (j * Z.to_nat (intd c "psi_nr") + i) (cr c "psi") 0)) /\
  (forall i j k, (i < Z.to_nat (intd c "b_nr"))%nat -> (j < Z.to_nat (intd c "b_nphi"))%nat -> (k < Z.to_nat (intd c "b_nz"))%nat ->
     let r := point (intd c "b_nr") (reald c "b_rmin") (reald c "b_rmax") i in let phi := angle (intd c "b_nphi") (reald c "b_phimin") (reald c "b_phimax") j in
     let z := point (intd c "b_nz") (reald c "b_zmin") (reald c "b_zmax") k in
     let b ds := nth (k * Z.to_nat (intd c "b_nphi") * Z.to_nat (intd c "b_nr") + j * Z.to_nat (intd c "b_nr") + i) (cr c ds) 0 in
     reald c "psi_rmin" <= r <= reald c "psi_rmax" -> reald c "psi_zmin" <= z <= reald c "psi_zmax" -> 0 < r -> b "bphi" <> 0 ->
     exists psi g, B_field_eval_psi_dpsi (BF_3DS d) r phi z = Out 0 (psi, g) /\ B_field_eval_B (BF_3DS d) r phi z = Out 0 (V (b "br" - vz g / r) (b "bphi") (b "bz" + vx g / r))).
Proof. exact field3D_file. Qed.
Print Assumptions field3D_from_file.

(** Plasma and neutrals *)
(** spline profiles: at the grid points the positive entries of the datasets, temperatures in joules *)
Theorem plasma_spline_from_file : forall f qid c s junk, complete f "/plasma/plasma_1DS_XXXXXXXXXX/" qid c s_PS -> (2 <= intd c "nrho")%Z -> (0 <= intd c "nion")%Z -> reald c "rhomin" < reald c "rhomax" ->
  exists res d, read_input rplasma_1DS f qid s = Ok res /\ call_plasma_1DS junk res = Some d /\
  forall k i, (0 <= k <= intd c "nion")%Z -> (i < Z.to_nat (intd c "nrho"))%nat ->
  let x := point (intd c "nrho") (reald c "rhomin") (reald c "rhomax") i in
  let n := if Z.eqb k 0 then nth i (cr c "edensity") 0 else nth (Z.to_nat (k - 1) * Z.to_nat (intd c "nrho") + i) (cr c "idensity") 0 in
  let t := nth i (cr c (if Z.eqb k 0 then "etemperature" else "itemperature")) 0 in
  (0 < n -> plasma_1DS_eval_dens d x k = Good n) /\ (0 < t -> plasma_1DS_eval_temp d x k = Good (1.602176565e-19 * t)).
Proof. exact plasma_1DS_file. Qed.
Print Assumptions plasma_spline_from_file.
(** three-dimensional neutrals: every species gets the trilinear interpolation of the first part of the dataset *)
Theorem neutral3D_from_file : forall f qid c s, complete f "/neutral/N0_3D_XXXXXXXXXX/" qid c s_N3 -> (2 <= intd c "nr")%Z -> (1 <= intd c "nphi")%Z -> (2 <= intd c "nz")%Z ->
  reald c "rmin" < reald c "rmax" -> reald c "phimin" < reald c "phimax" -> reald c "zmin" < reald c "zmax" ->
  exists res, read_input rN0_3D f qid s = Ok res /\
  let value tab := trilinear (mk_axis (intd c "nr") NATURALBC (reald c "rmin") (reald c "rmax")) (mk_axis (intd c "nphi") PERIODICBC (PI / 180 * reald c "phimin") (PI / 180 * reald c "phimax"))
      (mk_axis (intd c "nz") NATURALBC (reald c "zmin") (reald c "zmax")) (fun i j k => tab ((j * intd c "nz" + k) * intd c "nr" + i)%Z) in
  forall r phi z old, reald c "rmin" <= r < reald c "rmax" -> reald c "zmin" <= z < reald c "zmax" ->
  exists v w, N0_3D_eval_n0 (call_N0_3D res) r phi z old = Some (0%Z, v) /\ N0_3D_eval_t0 (call_N0_3D res) r phi z old = Some (0%Z, w) /\
    forall k, (k < Z.to_nat (intd c "nspecies"))%nat -> value (entryd c "density") r phi z (v k) /\ value (fun i => 1.602176565e-19 * entryd c "temperature" i) r phi z (w k).
Proof. exact neutral3D_file. Qed.
Print Assumptions neutral3D_from_file.

(** Walls *)
(** the polygon has the corners of the file, and no step from one side to the other passes *)
Theorem wall2D_from_file : forall f qid c s, complete f "/wall/wall_2D_XXXXXXXXXX/" qid c s_W2 ->
  exists res, read_input rwall_2D f qid s = Ok res /\
  let w := call_wall_2d res in let corner i := (nth i (cr c "r") 0, nth i (cr c "z") 0) in let n := Z.to_nat (intd c "nelements") in
  List.length w = n /\ (forall i, (i < n)%nat -> nth_error w i = Some (corner i)) /\
  forall p1 p2, (forall i, (i < n)%nat -> snd (corner i) <> snd p1 /\ snd (corner i) <> snd p2) ->
    (forall i, (i < n)%nat -> let a := corner i in let b := corner (if Nat.eqb (S i) n then 0 else S i)%nat in parallel p1 p2 a b -> ~ touches p1 p2 a b) ->
    wall_2d_inside (fst p1) (snd p1) w <> wall_2d_inside (fst p2) (snd p2) w -> fst (wall_2d_find_intersection p1 p2 w) <> 0%nat.
Proof. exact wall2D_file. Qed.
Print Assumptions wall2D_from_file.
(** the triangles have the corners of the file, and no step through one of them passes *)
Theorem wall3D_from_file : forall f qid c s, complete f "/wall/wall_3D_XXXXXXXXXX/" qid c s_W3 ->
  exists res, read_input rwall_3D f qid s = Ok res /\
  let corner m j := V (nth (3 * m + j) (cr c "x1x2x3") 0) (nth (3 * m + j) (cr c "y1y2y3") 0) (nth (3 * m + j) (cr c "z1z2z3") 0) in
  List.length (call_wall_3d res) = Z.to_nat (intd c "nelements") /\
  forall depth junk1 junk2 w S0 r1 p1 z1 r2 p2 z2 m t, wall_3d_init (S depth) (call_wall_3d res) junk1 junk2 = Some w -> (m < Z.to_nat (intd c "nelements"))%nat ->
    let a := corner m 0%nat in let b := corner m 1%nat in let e := corner m 2%nat in
    EPS < S0 -> cell_faces S0 depth (wlo w) (whi w) -> resolved S0 a b e ->
    let q1 := xyz r1 p1 z1 in let q2 := xyz r2 p2 z2 in EPS <= slant q1 q2 a b e -> hits_at q1 q2 a b e t ->
    exists i s, wall_3d_hit_wall r1 p1 z1 r2 p2 z2 w = (S i, s) /\ 0 <= s <= t.
Proof. exact wall3D_file. Qed.
Print Assumptions wall3D_from_file.

(** ** Examples: a field that grows with x, and a square wall *)
Definition tc_r (n : string) : list R := if String.eqb n "bxyz" then [1; 2; 3] else if String.eqb n "jacobian" then [0; 0; 0; 4; 0; 0; 0; 0; 0] else [0].
Definition tc_c : content := mkcontent (fun _ => []) tc_r.
Definition tc_file : h5 := mkh5 (fun _ => true) (fun _ _ => None) (fun p => match p with [_; _; n] => Some (DReal (tc_r n)) | _ => None end).
Example demo_tc_complete : complete tc_file "/bfield/B_TC_XXXXXXXXXX/" "0123456789" tc_c s_TC.
Proof.
  intros ds b z I. cbn [s_TC In r0] in I.
  repeat (destruct I as [I|I]; [injection I as <- <- <-; eexists; split; [reflexivity|]; cbn; repeat split; repeat constructor; lia|]). destruct I.
Qed.
Example demo_tc s : exists res, read_input rB_TC tc_file "0123456789" s = Ok res /\ B_field_eval_B (BF_TC (call_B_TC res)) 5 0 7 = Out 0 (V 1 22 3).
Proof.
  destruct (cartesian_field_from_file tc_file "0123456789" tc_c s demo_tc_complete) as (res & R & H). exists res. split; [exact R|]. cbv zeta in H. destruct (H 5 0 7) as (v & E & K). rewrite E. f_equal.
  rewrite cos_0, sin_0 in K. unfold cart in K. rewrite cos_0, sin_0 in K. destruct v as [a b e]. cbn [vx vy vz] in K.
  change (V (a * 1 - b * 0) (a * 0 + b * 1) e = V (1 + (0 * (5 * 1) + 0 * (5 * 0) + 0 * 7)) (2 + (4 * (5 * 1) + 0 * (5 * 0) + 0 * 7)) (3 + (0 * (5 * 1) + 0 * (5 * 0) + 0 * 7))) in K.
  injection K as K1 K2 K3. f_equal; lra.
Qed.
Definition sq_r (n : string) : list R := if String.eqb n "r" then [4; 6; 6; 4] else [-1; -1; 1; 1].
Definition sq_i (n : string) : list Z := if String.eqb n "nelements" then [4%Z] else [0%Z; 0%Z; 0%Z; 0%Z].
Definition sq_c : content := mkcontent sq_i sq_r.
Definition sq_file : h5 := mkh5 (fun _ => true) (fun _ _ => None) (fun p => match p with [_; _; n] => Some (if String.eqb n "r" || String.eqb n "z" then DReal (sq_r n) else DInt (sq_i n)) | _ => None end).
Example demo_sq_complete : complete sq_file "/wall/wall_2D_XXXXXXXXXX/" "0123456789" sq_c s_W2.
Proof.
  intros ds b z I. cbn [s_W2 In i0 rr ii] in I.
  repeat (destruct I as [I|I]; [injection I as <- <- <-; eexists; split; [reflexivity|]; cbn; repeat split; repeat constructor; lia|]). destruct I.
Qed.
Example demo_sq s : exists res, read_input rwall_2D sq_file "0123456789" s = Ok res /\ call_wall_2d res = [(4, -1); (6, -1); (6, 1); (4, 1)].
Proof.
  destruct (wall2D_from_file sq_file "0123456789" sq_c s demo_sq_complete) as (res & R & L & N & _). exists res. split; [exact R|].
  pose proof (N 0%nat ltac:(cbn; lia)) as N0. pose proof (N 1%nat ltac:(cbn; lia)) as N1. pose proof (N 2%nat ltac:(cbn; lia)) as N2. pose proof (N 3%nat ltac:(cbn; lia)) as N3.
  change (List.length (call_wall_2d res) = 4%nat) in L. destruct (call_wall_2d res) as [|a [|b [|e [|g [|]]]]]; try discriminate L. cbn in N0, N1, N2, N3. congruence.
Qed.
