(** From the file to the evaluation *)
From Coq Require Import Reals ZArith List String Bool Lia Lra.
From Verif Require Import Vec MainModel HdfModel HmkModel OptModel HinModel HinProofs AxisModel SplineModel SplineProofs BfModel PlasmaModel PlasmaProofs NeutralModel HuseModel HuseProofs HinProps.
Import ListNotations.
Local Open Scope string_scope.
Local Open Scope R_scope.

(** What the file contains is what the evaluation returns *)
(** temperatures in joules and densities interpolate the datasets over the rho of the file, for electrons and every ion species *)
Theorem plasma_from_file : forall f qid c s, complete f "/plasma/plasma_1D_XXXXXXXXXX/" qid c s_P1 -> (1 <= intd c "nrho")%Z ->
  exists res, read_input rplasma_1D f qid s = Ok res /\
  let d := call_plasma_1D res in let n := intd c "nrho" in let rho := entryd c "rho" in
  forall x k, (0 <= k <= intd c "nion")%Z ->
    (range_of n rho x ->
      (exists v, plasma_1D_eval_temp d x k = Good v /\ interpolates rho n (fun i => 1.602176565e-19 * entryd c (if Z.eqb k 0 then "etemperature" else "itemperature") i) x v) /\
      (exists v, plasma_1D_eval_dens d x k = Good v /\ interpolates rho n (fun i => if Z.eqb k 0 then entryd c "edensity" i else entryd c "idensity" ((k - 1) * n + i)%Z) x v)) /\
    (~ range_of n rho x ->
      (exists e, plasma_1D_eval_temp d x k = Fail e /\ e <> 0%Z) /\ (exists e, plasma_1D_eval_dens d x k = Fail e /\ e <> 0%Z)).
Proof. exact plasma_file. Qed.
Print Assumptions plasma_from_file.
(** the same for the first species of the neutrals; the others are the subject of a finding *)
Theorem neutral_from_file : forall f qid c s, complete f "/neutral/N0_1D_XXXXXXXXXX/" qid c s_N1 -> (2 <= intd c "nrho")%Z -> reald c "rhomin" < reald c "rhomax" ->
  exists res, read_input rN0_1D f qid s = Ok res /\
  let n := intd c "nrho" in let grid k := reald c "rhomin" + IZR k * ((reald c "rhomax" - reald c "rhomin") / IZR (n - 1)) in
  forall x old, reald c "rhomin" <= x < reald c "rhomax" -> (1 <= intd c "nspecies")%Z ->
    exists v w, N0_1D_eval_n0 (call_N0_1D res) x old = Some (0%Z, v) /\ N0_1D_eval_t0 (call_N0_1D res) x old = Some (0%Z, w) /\
      interpolates grid n (entryd c "density") x (v 0%nat) /\ interpolates grid n (fun i => 1.602176565e-19 * entryd c "temperature" i) x (w 0%nat).
Proof. exact neutral_file. Qed.
Print Assumptions neutral_from_file.
(** at the grid points the flux and the toroidal field are the entries of the datasets *)
Theorem field2D_from_file : forall f qid c s junk, complete f "/bfield/B_2DS_XXXXXXXXXX/" qid c s_2DS ->
  (2 <= intd c "nr")%Z -> (2 <= intd c "nz")%Z -> reald c "rmin" < reald c "rmax" -> reald c "zmin" < reald c "zmax" ->
  exists res, read_input rB_2DS f qid s = Ok res /\
  forall d i j phi, call_B_2DS junk res = IOk d -> (i < Z.to_nat (intd c "nr"))%nat -> (j < Z.to_nat (intd c "nz"))%nat ->
    let r := point (intd c "nr") (reald c "rmin") (reald c "rmax") i in let z := point (intd c "nz") (reald c "zmin") (reald c "zmax") j in
    let at_ ds := nth (j * Z.to_nat (intd c "nr") + i) (cr c ds) 0 in
    B_field_eval_psi (BF_2DS d) r phi z = Out 0 (at_ "psi") /\
    (0 < r -> at_ "bphi" <> 0 -> exists v, B_field_eval_B (BF_2DS d) r phi z = Out 0 v /\ vphi v = at_ "bphi").
Proof. exact field2D_file. Qed.
Print Assumptions field2D_from_file.
(** at the grid points, with angles in degrees in the file, the flux and all three components are the entries of the datasets *)
Theorem stellarator_from_file : forall f qid c s junk, complete f "/bfield/B_STS_XXXXXXXXXX/" qid c s_STS ->
  (2 <= intd c "psi_nr")%Z -> (3 <= intd c "psi_nphi")%Z -> (2 <= intd c "psi_nz")%Z -> (2 <= intd c "b_nr")%Z -> (3 <= intd c "b_nphi")%Z -> (2 <= intd c "b_nz")%Z ->
  reald c "psi_rmin" < reald c "psi_rmax" -> reald c "psi_phimin" < reald c "psi_phimax" -> reald c "psi_zmin" < reald c "psi_zmax" ->
  reald c "b_rmin" < reald c "b_rmax" -> reald c "b_phimin" < reald c "b_phimax" -> reald c "b_zmin" < reald c "b_zmax" ->
  exists res, read_input rB_STS f qid s = Ok res /\ forall d, call_B_STS junk res = IOk d ->
  let at_ nr nphi ds i j k := nth (k * Z.to_nat (intd c nphi) * Z.to_nat (intd c nr) + j * Z.to_nat (intd c nr) + i) (cr c ds) 0 in
  (forall i j k, (i < Z.to_nat (intd c "psi_nr"))%nat -> (j < Z.to_nat (intd c "psi_nphi"))%nat -> (k < Z.to_nat (intd c "psi_nz"))%nat ->
     B_field_eval_psi (BF_STS d) (point (intd c "psi_nr") (reald c "psi_rmin") (reald c "psi_rmax") i) (angle (intd c "psi_nphi") (reald c "psi_phimin") (reald c "psi_phimax") j)
       (point (intd c "psi_nz") (reald c "psi_zmin") (reald c "psi_zmax") k) = Out 0 (at_ "psi_nr" "psi_nphi" "psi" i j k)) /\
  (forall i j k, (i < Z.to_nat (intd c "b_nr"))%nat -> (j < Z.to_nat (intd c "b_nphi"))%nat -> (k < Z.to_nat (intd c "b_nz"))%nat ->
     let b ds := at_ "b_nr" "b_nphi" ds i j k in V (b "br") (b "bphi") (b "bz") <> V 0 0 0 ->
     B_field_eval_B (BF_STS d) (point (intd c "b_nr") (reald c "b_rmin") (reald c "b_rmax") i) (angle (intd c "b_nphi") (reald c "b_phimin") (reald c "b_phimax") j)
       (point (intd c "b_nz") (reald c "b_zmin") (reald c "b_zmax") k) = Out 0 (V (b "br") (b "bphi") (b "bz"))).
Proof. exact stellarator_file. Qed.
Print Assumptions stellarator_from_file.

(** halfway between the two radial points of the demonstration file *)
Example demo_halfway s : exists res v, read_input rplasma_1D demo_file "0123456789" s = Ok res /\
  plasma_1D_eval_temp (call_plasma_1D res) (1 / 2) 0 = Good v /\ v = 505 * 1.602176565e-19.
Proof.
  destruct (plasma_from_file demo_file "0123456789" demo_c s demo_complete) as (res & R & H); [cbn; lia|].
  exists res. cbv zeta in H. destruct (H (1 / 2) 0%Z) as [[(v & E & k & K & X & I) _] _]; [cbn; lia|unfold range_of; change (0 <= 1 / 2 < 1); lra|].
  exists v. split; [exact R|]. split; [exact E|]. assert (N : intd demo_c "nrho" = 2%Z) by reflexivity. rewrite N in K. assert (k = 0%Z) by lia. subst k.
  change ((v - 1.602176565e-19 * 1000) * (1 - 0) = (1.602176565e-19 * 10 - 1.602176565e-19 * 1000) * (1 / 2 - 0)) in I. lra.
Qed.
