(** Time-dependent plasma profiles from the file to the evaluation *)
From Coq Require Import Reals ZArith List String Bool Lia Lra.
From Verif Require Import Vec AxisModel LintModel PlasmaModel PlasmaProofs PlasmaProps MainModel HdfModel HmkModel HinModel HinProofs HuseModel HuseProofs PtfModel PtfProofs.
Import ListNotations.
Import ListNotations.
Local Open Scope string_scope.
Local Open Scope R_scope.
(** temperatures are interpolated between the entries of the file in radius and time, in joules; the densities are interpolated between entries of other species and times; before the first time an array is read out of bounds, late times use the last slice, outside the radial grid there is an error *)
Theorem timeplasma_from_file : forall f qid c s, complete f "/plasma/plasma_1Dt_XXXXXXXXXX/" qid c s_Pt ->
  (1 <= intd c "nrho")%Z -> (0 <= intd c "nion")%Z -> (2 <= intd c "ntime")%Z -> increasing (entryd c "time") (intd c "ntime") ->
  exists res, read_input rplasma_1Dt f qid s = Ok res /\
  let d := call_plasma_1Dt res in let n := intd c "nrho" in let rho := entryd c "rho" in let m := intd c "ntime" in
  forall x t,
    (range_of n rho x -> t < entryd c "time" 0 -> plasma_1Dt_eval_densandtemp d x t = Bad) /\
    (forall j, range_of n rho x -> inner c j t -> exists g, plasma_1Dt_eval_densandtemp d x t = Good g /\ forall k, (0 <= k <= intd c "nion")%Z ->
       interpolates2 rho n (entryd c "time") j (temp_of_file c k) x t (snd (g k)) /\ interpolates2 rho n (entryd c "time") j (dens_got c k) x t (fst (g k))) /\
    (range_of n rho x -> entryd c "time" (m - 2) <= t -> exists g, plasma_1Dt_eval_densandtemp d x t = Good g /\ forall k, (0 <= k <= intd c "nion")%Z ->
       interpolates rho n (temp_of_file c k (m - 1)) x (snd (g k)) /\ interpolates rho n (dens_got c k (m - 1)) x (fst (g k))) /\
    (~ range_of n rho x -> exists e, plasma_1Dt_eval_densandtemp d x t = Fail e /\ e <> 0%Z).
Proof. exact PtfProofs.plasma_1Dt_file. Qed.
Print Assumptions timeplasma_from_file.
(** the slice taken is always one of the file, and the right one only for the electrons at the first time and for the ions at the last *)
Theorem timeplasma_right_slices : forall c s j, (0 <= intd c "nion")%Z -> (2 <= intd c "ntime")%Z -> (0 <= s <= intd c "nion")%Z -> (0 <= j < intd c "ntime")%Z ->
  (0 <= species_got c s j <= intd c "nion")%Z /\ (0 <= time_got c s j < intd c "ntime")%Z /\
  ((species_got c s j = s /\ time_got c s j = j) <-> (if Z.eqb s 0 then j = 0%Z \/ intd c "nion" = 0%Z else j = intd c "ntime" - 1)%Z).
Proof. exact PtfProofs.got_right. Qed.
Print Assumptions timeplasma_right_slices.
(** the rotation returned: bilinear interpolation plus a term that vanishes only on the diagonal of a cell or if two opposite corners agree *)
Theorem timeplasma_rotation_from_file : forall f qid c s, complete f "/plasma/plasma_1Dt_XXXXXXXXXX/" qid c s_Pt ->
  (1 <= intd c "nrho")%Z -> (2 <= intd c "ntime")%Z -> increasing (entryd c "time") (intd c "ntime") ->
  exists res, read_input rplasma_1Dt f qid s = Ok res /\
  let rho := entryd c "rho" in let time := entryd c "time" in let v := at_time c "vtor" in
  forall x t r old j, range_of (intd c "nrho") rho x -> inner c j t ->
    exists k, (0 <= k /\ k + 1 < intd c "nrho")%Z /\ rho k <= x < rho (k + 1)%Z /\
    let a := (x - rho k) / (rho (k + 1)%Z - rho k) in let b := (t - time j) / (time (j + 1)%Z - time j) in
    plasma_1Dt_eval_flow (call_plasma_1Dt res) x t r old = Good (0%Z, ((1 - a) * (1 - b) * v j k + a * (1 - b) * v j (k + 1)%Z + (1 - a) * b * v (j + 1)%Z k + a * b * v (j + 1)%Z (k + 1)%Z
      + (a - b) * (v (j + 1)%Z k - v j (k + 1)%Z)) * r).
Proof. exact PtfProofs.rotation_file. Qed.
Print Assumptions timeplasma_rotation_from_file.

(** ** Findings *)
(** finding: from the last but one time on, the electron density is that of the last ion species *)
Theorem timeplasma_electrons_late_refuted : forall c k, (1 <= intd c "nion")%Z -> (2 <= intd c "ntime")%Z ->
  dens_got c 0 (intd c "ntime" - 1) k = ion_at c (intd c "nion") (intd c "ntime" - 2) k.
Proof. exact PtfProofs.electrons_late. Qed.
Print Assumptions timeplasma_electrons_late_refuted.
(** finding: at the first time, ion species s has the electron density of time index s *)
Theorem timeplasma_ions_early_refuted : forall c s k, (1 <= s)%Z -> (s < intd c "ntime")%Z -> dens_got c s 0 k = at_time c "edensity" s k.
Proof. exact PtfProofs.ions_early. Qed.
Print Assumptions timeplasma_ions_early_refuted.
(** even if all densities are constant in time and space, the electron density returned is that of the ions *)
Theorem timeplasma_constant_refuted : forall f qid c s n_e n_i, complete f "/plasma/plasma_1Dt_XXXXXXXXXX/" qid c s_Pt ->
  (1 <= intd c "nrho")%Z -> (1 <= intd c "nion")%Z -> (2 <= intd c "ntime")%Z -> increasing (entryd c "time") (intd c "ntime") ->
  (forall j k, (0 <= j < intd c "ntime")%Z -> (0 <= k < intd c "nrho")%Z -> at_time c "edensity" j k = n_e) ->
  (forall i j k, (1 <= i <= intd c "nion")%Z -> (0 <= j < intd c "ntime")%Z -> (0 <= k < intd c "nrho")%Z -> ion_at c i j k = n_i) ->
  exists res, read_input rplasma_1Dt f qid s = Ok res /\
  forall x t, range_of (intd c "nrho") (entryd c "rho") x -> entryd c "time" (intd c "ntime" - 2) <= t ->
    exists g, plasma_1Dt_eval_densandtemp (call_plasma_1Dt res) x t = Good g /\ fst (g 0%Z) = n_i.
Proof. exact PtfProofs.constant_densities. Qed.
Print Assumptions timeplasma_constant_refuted.

(** ** Example: two radii, three times, one ion species, constant densities *)
Definition pt_i (n : string) : list Z := if String.eqb n "nrho" then [2%Z] else if String.eqb n "ntime" then [3%Z] else [1%Z].
Definition pt_r (n : string) : list R :=
  if String.eqb n "rho" then [0; 1] else if String.eqb n "time" then [0; 1; 2] else if String.eqb n "mass" then [1] else
  if String.eqb n "edensity" then [5; 5; 5; 5; 5; 5] else if String.eqb n "idensity" then [7; 7; 7; 7; 7; 7] else [0; 1; 2; 3; 4; 5].
Definition pt_c : content := mkcontent pt_i pt_r.
Definition pt_file : h5 := mkh5 (fun _ => true) (fun _ _ => None)
  (fun p => match p with [_; _; n] => Some (if existsb (String.eqb n) ["nrho"; "ntime"; "nion"; "anum"; "znum"; "charge"] then DInt (pt_i n) else DReal (pt_r n)) | _ => None end).
Example demo_pt_complete : complete pt_file "/plasma/plasma_1Dt_XXXXXXXXXX/" "0123456789" pt_c s_Pt.
Proof.
  intros ds b z I. unfold s_Pt, s_ions, i0, rr, ii in I. cbn [app In] in I.
  repeat (destruct I as [I|I]; [injection I as <- <- <-; eexists; split; [reflexivity|]; cbn; repeat split; repeat constructor; lia|]). destruct I.
Qed.
Lemma pt_increasing : increasing (entryd pt_c "time") (intd pt_c "ntime").
Proof.
  intros i I J. change (intd pt_c "ntime") with 3%Z in *. assert (A : (i = 0 \/ i = 1)%Z) by lia. destruct A as [->| ->]; [change (0 < 1)|change (1 < 2)]; lra.
Qed.
(** five electrons per unit volume in the file, seven in the simulation *)
Example demo_pt s : exists res, read_input rplasma_1Dt pt_file "0123456789" s = Ok res /\
  exists g, plasma_1Dt_eval_densandtemp (call_plasma_1Dt res) (1 / 2) (3 / 2) = Good g /\ fst (g 0%Z) = 7.
Proof.
  destruct (timeplasma_constant_refuted pt_file "0123456789" pt_c s 5 7 demo_pt_complete) as (res & R & H); try (cbn; lia).
  - exact pt_increasing.
  - intros j k J K. change (intd pt_c "ntime") with 3%Z in J. change (intd pt_c "nrho") with 2%Z in K. unfold at_time. change (intd pt_c "nrho") with 2%Z.
    assert (A : (0 <= j * 2 + k < 6)%Z) by lia. generalize dependent (j * 2 + k)%Z. intros q A. assert (B : (q = 0 \/ q = 1 \/ q = 2 \/ q = 3 \/ q = 4 \/ q = 5)%Z) by lia.
    destruct B as [->|[->|[->|[->|[->| ->]]]]]; reflexivity.
  - intros i j k I J K. change (intd pt_c "nion") with 1%Z in I. change (intd pt_c "ntime") with 3%Z in J. change (intd pt_c "nrho") with 2%Z in K. unfold ion_at. change (intd pt_c "nrho") with 2%Z. change (intd pt_c "nion") with 1%Z.
    assert (A : (0 <= (j * 1 + (i - 1)) * 2 + k < 6)%Z) by lia. generalize dependent ((j * 1 + (i - 1)) * 2 + k)%Z. intros q A. assert (B : (q = 0 \/ q = 1 \/ q = 2 \/ q = 3 \/ q = 4 \/ q = 5)%Z) by lia.
    destruct B as [->|[->|[->|[->|[->| ->]]]]]; reflexivity.
  - exists res. split; [exact R|]. apply H; [change (0 <= 1 / 2 < 1); lra|change (1 <= 3 / 2); lra].
Qed.
(** species 2 of 3 at time 1 of 4 gets the density of species 2 at time 0 *)
Example demo_slices : let c := mkcontent (fun n => if String.eqb n "nion" then [3%Z] else [4%Z]) (fun _ => []) in species_got c 2 1 = 3%Z /\ time_got c 2 1 = 0%Z /\ species_got c 1 3 = 1%Z /\ time_got c 1 3 = 3%Z.
Proof. repeat split. Qed.
