From Coq Require Import Reals ZArith List String Bool Lia Lra.
Import ListNotations.
From Verif Require Import Vec AxisModel SplineModel SplineProofs Spl2Proofs Spl3Proofs BfModel BfProofs BfProps PlasmaModel PlasmaProofs PlasmaProps NeutralModel NeutralProofs NeutralProps.
From Verif Require Import MainModel HdfModel HmkModel HinModel HinProofs HuseModel.
Local Open Scope string_scope.
Local Open Scope R_scope.

(** ** Entries of the file *)
Definition intd (c : content) (ds : string) : Z := nth 0 (ci c ds) 0%Z.
Definition reald (c : content) (ds : string) : R := nth 0 (cr c ds) 0.
Definition entryd (c : content) (ds : string) (i : Z) : R := nth (Z.to_nat i) (cr c ds) 0.

Lemma deliv c tab res p w : delivered c tab res -> find tab p = Some w -> holds c w (get res p).
Proof.
  intros D. induction D as [|[k x] [q y] tab res [E H] D IH]; cbn [find]; [discriminate|]. cbn [fst snd] in *. subst q. cbn [get].
  destruct (String.eqb k p); [intros X; injection X as <-; exact H|exact IH].
Qed.
Lemma get_z c tab res p ds : delivered c tab res -> find tab p = Some (WI ds) -> pz res p = intd c ds.
Proof. intros D F. apply (deliv c tab res p _ D) in F. cbn in F. unfold pz, intd. now rewrite F. Qed.
Lemma nth_scaled u l i : nth i (map (fun y => u * y) l) 0 = u * nth i l 0.
Proof. rewrite <- (Rmult_0_r u) at 1. apply (map_nth (fun y => u * y)). Qed.
Lemma get_x c tab res p ds u : delivered c tab res -> find tab p = Some (WR ds u) -> px res p = inSI u * reald c ds.
Proof. intros D F. apply (deliv c tab res p _ D) in F. cbn in F. unfold px, reald. rewrite F. apply nth_scaled. Qed.
Lemma get_tab c tab res p ds u i : delivered c tab res -> find tab p = Some (WR ds u) -> tabN res p i = inSI u * nth i (cr c ds) 0.
Proof. intros D F. apply (deliv c tab res p _ D) in F. cbn in F. unfold tabN. rewrite F. apply nth_scaled. Qed.

(** ** Plasma and neutral profiles *)
Lemma interp_ext2 g g' n t t' x v v' : (forall k, (0 <= k < n)%Z -> g k = g' k) -> (forall k, (0 <= k < n)%Z -> t k = t' k) -> v = v' -> interpolates g n t x v -> interpolates g' n t' x v'.
Proof. intros G T <- (k & K & X & E). exists k. rewrite <- !G, <- !T by lia. auto. Qed.
Lemma tabZ_of c tab res p ds u i : delivered c tab res -> find tab p = Some (WR ds u) -> tabZ res p i = inSI u * entryd c ds i.
Proof. intros D F. exact (get_tab c tab res p ds u (Z.to_nat i) D F). Qed.
Ltac pick := repeat (first [left; reflexivity | right]).
(** grid of the profiles *)
Definition range_of (n : Z) (rho : Z -> R) (x : R) : Prop := rho 0%Z <= x < rho (n - 1)%Z.
Theorem plasma_file f qid c s : complete f "/plasma/plasma_1D_XXXXXXXXXX/" qid c s_P1 -> (1 <= intd c "nrho")%Z ->
  exists res, read_input rplasma_1D f qid s = Ok res /\
  let d := call_plasma_1D res in let n := intd c "nrho" in let rho := entryd c "rho" in
  forall x k, (0 <= k <= intd c "nion")%Z ->
    (range_of n rho x ->
      (exists v, plasma_1D_eval_temp d x k = Good v /\ interpolates rho n (fun i => 1.602176565e-19 * entryd c (if Z.eqb k 0 then "etemperature" else "itemperature") i) x v) /\
      (exists v, plasma_1D_eval_dens d x k = Good v /\ interpolates rho n (fun i => if Z.eqb k 0 then entryd c "edensity" i else entryd c "idensity" ((k - 1) * n + i)%Z) x v)) /\
    (~ range_of n rho x ->
      (exists e, plasma_1D_eval_temp d x k = Fail e /\ e <> 0%Z) /\ (exists e, plasma_1D_eval_dens d x k = Fail e /\ e <> 0%Z)).
Proof.
  intros C N. destruct (input_delivered "/plasma/plasma_1D_XXXXXXXXXX/" rplasma_1D s_P1 t_P1 f qid c s ltac:(unfold inputs; pick) C) as (res & R & D).
  exists res. split; [exact R|]. cbv zeta. unfold call_plasma_1D.
  rewrite (get_z c _ res _ _ D (eq_refl : find t_P1 "nrho" = _)), (get_z c _ res _ _ D (eq_refl : find t_P1 "nion" = _)).
  intros x k K.
  assert (G : forall i, tabZ res "rho" i = entryd c "rho" i) by (intros i; rewrite (tabZ_of c _ res _ _ _ i D (eq_refl : find t_P1 "rho" = _)); cbn [inSI]; ring).
  pose proof (plasma1D_temperature (intd c "nrho") (intd c "nion") (tabZ res "rho") (tabZ res "Te") (tabZ res "Ti") (tabZ res "ne") (tabZ res "ni") (tabZ res "vtor") x k N K) as [T T'].
  pose proof (plasma1D_density (intd c "nrho") (intd c "nion") (tabZ res "rho") (tabZ res "Te") (tabZ res "Ti") (tabZ res "ne") (tabZ res "ni") (tabZ res "vtor") x k N K) as [P P'].
  assert (IN : range_of (intd c "nrho") (entryd c "rho") x <-> inside (intd c "nrho") (tabZ res "rho") x) by (unfold range_of, inside; rewrite !G; tauto).
  split; intros I.
  - apply IN in I. split.
    + destruct (T I) as (v & E & V). exists v. split; [exact E|]. eapply interp_ext2; [| |reflexivity|exact V]; [intros; apply G|]. intros i _. unfold temp_table.
      destruct (Z.eqb k 0); [rewrite (tabZ_of c _ res _ _ _ i D (eq_refl : find t_P1 "Te" = _))|rewrite (tabZ_of c _ res _ _ _ i D (eq_refl : find t_P1 "Ti" = _))]; reflexivity.
    + destruct (P I) as (v & E & V). exists v. split; [exact E|]. eapply interp_ext2; [| |reflexivity|exact V]; [intros; apply G|]. intros i _. unfold dens_table.
      destruct (Z.eqb k 0); [rewrite (tabZ_of c _ res _ _ _ _ D (eq_refl : find t_P1 "ne" = _))|rewrite (tabZ_of c _ res _ _ _ _ D (eq_refl : find t_P1 "ni" = _))]; cbn [inSI]; ring.
  - split; [apply T'|apply P']; rewrite <- IN; exact I.
Qed.

(** the first species of the neutrals *)
Theorem neutral_file f qid c s : complete f "/neutral/N0_1D_XXXXXXXXXX/" qid c s_N1 -> (2 <= intd c "nrho")%Z -> reald c "rhomin" < reald c "rhomax" ->
  exists res, read_input rN0_1D f qid s = Ok res /\
  let n := intd c "nrho" in let grid k := reald c "rhomin" + IZR k * ((reald c "rhomax" - reald c "rhomin") / IZR (n - 1)) in
  forall x old, reald c "rhomin" <= x < reald c "rhomax" -> (1 <= intd c "nspecies")%Z ->
    exists v w, N0_1D_eval_n0 (call_N0_1D res) x old = Some (0%Z, v) /\ N0_1D_eval_t0 (call_N0_1D res) x old = Some (0%Z, w) /\
      interpolates grid n (entryd c "density") x (v 0%nat) /\ interpolates grid n (fun i => 1.602176565e-19 * entryd c "temperature" i) x (w 0%nat).
Proof.
  intros C N M. destruct (input_delivered "/neutral/N0_1D_XXXXXXXXXX/" rN0_1D s_N1 t_N1 f qid c s ltac:(unfold inputs; pick) C) as (res & R & D).
  exists res. split; [exact R|]. cbv zeta. unfold call_N0_1D.
  rewrite (get_z c _ res _ _ D (eq_refl : find t_N1 "n_rho" = _)), (get_x c _ res _ _ _ D (eq_refl : find t_N1 "rho_min" = _)), (get_x c _ res _ _ _ D (eq_refl : find t_N1 "rho_max" = _)).
  unfold pn. rewrite (get_z c _ res _ _ D (eq_refl : find t_N1 "n_species" = _)). cbn [inSI]. rewrite !Rmult_1_l.
  intros x old X S. destruct (neutral1D_values (intd c "nrho") (reald c "rhomin") (reald c "rhomax") (Z.to_nat (intd c "nspecies")) (tabZ res "density") (tabZ res "temperature") x old N M X) as (v & w & E1 & E2 & H).
  exists v, w. split; [exact E1|]. split; [exact E2|]. destruct (H 0%nat ltac:(lia)) as [A B]. split.
  - eapply interp_ext2; [| |reflexivity|exact A]; [reflexivity|]. intros i _. rewrite (tabZ_of c _ res _ _ _ i D (eq_refl : find t_N1 "density" = _)). cbn [inSI]. ring.
  - eapply interp_ext2; [| |reflexivity|exact B]; [reflexivity|]. intros i _. rewrite (tabZ_of c _ res _ _ _ i D (eq_refl : find t_N1 "temperature" = _)). reflexivity.
Qed.

(** ** Magnetic fields at the points where they were tabulated *)
(** point i of n points from mn to mx, both included *)
Definition point (n : Z) (mn mx : R) (i : nat) : R := mn + INR i * ((mx - mn) / (IZR n - 1)).
Lemma point_step n mn mx i : (2 <= n)%Z -> mn + INR i * step (Z.to_nat n) NATURALBC mn mx = point n mn mx i.
Proof.
  intros N. unfold point, step, cells. replace (NATURALBC =? NATURALBC)%Z with true by reflexivity. replace (INR (Z.to_nat n - 1)) with (IZR n - 1); [reflexivity|].
  rewrite minus_INR by lia. rewrite INR_IZR_INZ, Z2Nat.id by lia. cbn [INR]. reflexivity.
Qed.
Lemma point_in n mn mx i : (2 <= n)%Z -> mn < mx -> (i < Z.to_nat n)%nat -> mn <= point n mn mx i <= mx.
Proof.
  intros N M I. unfold point. assert (0 < IZR n - 1) by (apply IZR_le in N; lra). assert (J : INR i <= IZR n - 1). { rewrite INR_IZR_INZ, <- minus_IZR. apply IZR_le. lia. }
  pose proof (pos_INR i). set (h := (mx - mn) / (IZR n - 1)). assert (Hh : h * (IZR n - 1) = mx - mn) by (unfold h; field; lra). assert (0 < h) by (unfold h; apply Rdiv_lt_0_compat; lra). nra.
Qed.
Definition vphi (v : vec) : R := match v with V _ b _ => b end.

Theorem field2D_file f qid c s junk : complete f "/bfield/B_2DS_XXXXXXXXXX/" qid c s_2DS ->
  (2 <= intd c "nr")%Z -> (2 <= intd c "nz")%Z -> reald c "rmin" < reald c "rmax" -> reald c "zmin" < reald c "zmax" ->
  exists res, read_input rB_2DS f qid s = Ok res /\
  forall d i j phi, call_B_2DS junk res = IOk d -> (i < Z.to_nat (intd c "nr"))%nat -> (j < Z.to_nat (intd c "nz"))%nat ->
    let r := point (intd c "nr") (reald c "rmin") (reald c "rmax") i in let z := point (intd c "nz") (reald c "zmin") (reald c "zmax") j in
    let at_ ds := nth (j * Z.to_nat (intd c "nr") + i) (cr c ds) 0 in
    B_field_eval_psi (BF_2DS d) r phi z = Out 0 (at_ "psi") /\
    (0 < r -> at_ "bphi" <> 0 -> exists v, B_field_eval_B (BF_2DS d) r phi z = Out 0 v /\ vphi v = at_ "bphi").
Proof.
  intros C NR NZ MR MZ. destruct (input_delivered "/bfield/B_2DS_XXXXXXXXXX/" rB_2DS s_2DS t_2DS f qid c s ltac:(unfold inputs; pick) C) as (res & R & D).
  exists res. split; [exact R|]. intros d i j phi. unfold call_B_2DS, pn.
  rewrite (get_z c _ res _ _ D (eq_refl : find t_2DS "n_r" = _)), (get_z c _ res _ _ D (eq_refl : find t_2DS "n_z" = _)),
    (get_x c _ res _ _ _ D (eq_refl : find t_2DS "r_min" = _)), (get_x c _ res _ _ _ D (eq_refl : find t_2DS "r_max" = _)),
    (get_x c _ res _ _ _ D (eq_refl : find t_2DS "z_min" = _)), (get_x c _ res _ _ _ D (eq_refl : find t_2DS "z_max" = _)). cbn [inSI]. rewrite !Rmult_1_l.
  intros H I J. cbv zeta.
  assert (A1 : (2 <= Z.to_nat (intd c "nr"))%nat) by lia. assert (A2 : (2 <= Z.to_nat (intd c "nz"))%nat) by lia.
  destruct (b2ds_field _ _ _ _ _ _ _ _ _ _ _ _ _ _ _ d A1 A2 MR MZ H) as (P & Pr & Pz & Prr & Pzz & Prz & BR & BRr & BRz & BRrr & BRzz & BRrz & BP & BPr & BPz & BPrr & BPzz & BPrz & BZ & BZr & BZz & BZrr & BZzz & BZrz & SP & _ & SB & _ & IN & _).
  pose proof (point_in _ _ _ i NR MR I) as Ir. pose proof (point_in _ _ _ j NZ MZ J) as Jz.
  destruct (IN _ phi _ (conj Ir Jz)) as (E1 & _ & E3 & _).
  destruct SP as [SP _]. specialize (SP i j I J). rewrite !point_step in SP by assumption. rewrite (get_tab c _ res _ _ _ _ D (eq_refl : find t_2DS "psi" = _)) in SP. cbn [inSI] in SP. rewrite Rmult_1_l in SP.
  destruct SB as [SB _]. specialize (SB i j I J). rewrite !point_step in SB by assumption. rewrite (get_tab c _ res _ _ _ _ D (eq_refl : find t_2DS "B_phi" = _)) in SB. cbn [inSI] in SB. rewrite Rmult_1_l in SB.
  split; [rewrite E1, SP; reflexivity|]. intros R0 B0.
  destruct E3 as [E3 _]; [lra| |].
  - unfold flux_field, vzero. intros X. injection X as _ X _. rewrite SB in X. auto.
  - eexists. split; [exact E3|]. cbn [vphi flux_field]. exact SB.
Qed.

(** point j of n points of a period that starts at mn and ends at mx, in radians; mn and mx are in degrees *)
Definition angle (n : Z) (mn mx : R) (j : nat) : R := (mn + INR j * ((mx - mn) / IZR n)) * PI / 180.
Lemma angle_step n mn mx j : (3 <= n)%Z -> PI / 180 * mn + INR j * step (Z.to_nat n) PERIODICBC (PI / 180 * mn) (PI / 180 * mx) = angle n mn mx j.
Proof.
  intros N. unfold angle, step, cells. replace (PERIODICBC =? NATURALBC)%Z with false by reflexivity. rewrite (INR_IZR_INZ (Z.to_nat n)), Z2Nat.id by lia.
  assert (IZR n <> 0) by (apply IZR_le in N; lra). field. assumption.
Qed.

Theorem stellarator_file f qid c s junk : complete f "/bfield/B_STS_XXXXXXXXXX/" qid c s_STS ->
  (2 <= intd c "psi_nr")%Z -> (3 <= intd c "psi_nphi")%Z -> (2 <= intd c "psi_nz")%Z -> (2 <= intd c "b_nr")%Z -> (3 <= intd c "b_nphi")%Z -> (2 <= intd c "b_nz")%Z ->
  reald c "psi_rmin" < reald c "psi_rmax" -> reald c "psi_phimin" < reald c "psi_phimax" -> reald c "psi_zmin" < reald c "psi_zmax" ->
  reald c "b_rmin" < reald c "b_rmax" -> reald c "b_phimin" < reald c "b_phimax" -> reald c "b_zmin" < reald c "b_zmax" ->
  exists res, read_input rB_STS f qid s = Ok res /\ forall d, call_B_STS junk res = IOk d ->
  let at_ nr nphi ds i j k := nth (k * Z.to_nat (intd c nphi) * Z.to_nat (intd c nr) + j * Z.to_nat (intd c nr) + i) (cr c ds) 0 in
  (forall i j k, (i < Z.to_nat (intd c "psi_nr"))%nat -> (j < Z.to_nat (intd c "psi_nphi"))%nat -> (k < Z.to_nat (intd c "psi_nz"))%nat ->
     B_field_eval_psi (BF_STS d) (point (intd c "psi_nr") (reald c "psi_rmin") (reald c "psi_rmax") i) (angle (intd c "psi_nphi") (reald c "psi_phimin") (reald c "psi_phimax") j)
       (point (intd c "psi_nz") (reald c "psi_zmin") (reald c "psi_zmax") k) = Out 0 (at_ "psi_nr" "psi_nphi" "psi" i j k)) /\
  (forall i j k, (i < Z.to_nat (intd c "b_nr"))%nat -> (j < Z.to_nat (intd c "b_nphi"))%nat -> (k < Z.to_nat (intd c "b_nz"))%nat ->
     let b ds := at_ "b_nr" "b_nphi" ds i j k in V (b "br") (b "bphi") (b "bz") <> V 0 0 0 ->
     B_field_eval_B (BF_STS d) (point (intd c "b_nr") (reald c "b_rmin") (reald c "b_rmax") i) (angle (intd c "b_nphi") (reald c "b_phimin") (reald c "b_phimax") j)
       (point (intd c "b_nz") (reald c "b_zmin") (reald c "b_zmax") k) = Out 0 (V (b "br") (b "bphi") (b "bz"))).
Proof.
  intros C N1 N2 N3 N4 N5 N6 M1 M2 M3 M4 M5 M6. destruct (input_delivered "/bfield/B_STS_XXXXXXXXXX/" rB_STS s_STS t_STS f qid c s ltac:(unfold inputs; pick) C) as (res & R & D).
  exists res. split; [exact R|]. intros d. unfold call_B_STS, pn.
  rewrite (get_z c _ res _ _ D (eq_refl : find t_STS "p_n_r" = _)), (get_z c _ res _ _ D (eq_refl : find t_STS "p_n_phi" = _)), (get_z c _ res _ _ D (eq_refl : find t_STS "p_n_z" = _)),
    (get_z c _ res _ _ D (eq_refl : find t_STS "b_n_r" = _)), (get_z c _ res _ _ D (eq_refl : find t_STS "b_n_phi" = _)), (get_z c _ res _ _ D (eq_refl : find t_STS "b_n_z" = _)),
    (get_x c _ res _ _ _ D (eq_refl : find t_STS "p_r_min" = _)), (get_x c _ res _ _ _ D (eq_refl : find t_STS "p_r_max" = _)),
    (get_x c _ res _ _ _ D (eq_refl : find t_STS "p_phi_min" = _)), (get_x c _ res _ _ _ D (eq_refl : find t_STS "p_phi_max" = _)),
    (get_x c _ res _ _ _ D (eq_refl : find t_STS "p_z_min" = _)), (get_x c _ res _ _ _ D (eq_refl : find t_STS "p_z_max" = _)),
    (get_x c _ res _ _ _ D (eq_refl : find t_STS "b_r_min" = _)), (get_x c _ res _ _ _ D (eq_refl : find t_STS "b_r_max" = _)),
    (get_x c _ res _ _ _ D (eq_refl : find t_STS "b_phi_min" = _)), (get_x c _ res _ _ _ D (eq_refl : find t_STS "b_phi_max" = _)),
    (get_x c _ res _ _ _ D (eq_refl : find t_STS "b_z_min" = _)), (get_x c _ res _ _ _ D (eq_refl : find t_STS "b_z_max" = _)). cbn [inSI]. rewrite !Rmult_1_l.
  intros H. cbv zeta.
  assert (PP : 0 < PI / 180) by (pose proof PI_RGT_0; lra).
  assert (A1 : (2 <= Z.to_nat (intd c "psi_nr"))%nat) by lia. assert (A2 : (3 <= Z.to_nat (intd c "psi_nphi"))%nat) by lia. assert (A3 : (2 <= Z.to_nat (intd c "psi_nz"))%nat) by lia. assert (A4 : (2 <= Z.to_nat (intd c "b_nr"))%nat) by lia. assert (A5 : (3 <= Z.to_nat (intd c "b_nphi"))%nat) by lia. assert (A6 : (2 <= Z.to_nat (intd c "b_nz"))%nat) by lia. assert (M2' : PI / 180 * reald c "psi_phimin" < PI / 180 * reald c "psi_phimax") by nra. assert (M5' : PI / 180 * reald c "b_phimin" < PI / 180 * reald c "b_phimax") by nra.
  destruct (bsts_field _ _ _ _ _ _ _ _ _ _ _ _ _ _ _ _ _ _ _ _ _ _ _ _ _ _ _ _ _ _ d A1 A2 A3 A4 A5 A6 M1 M2' M3 M4 M5' M6 H)
    as (P & Pr & Pp & Pz & P4 & P5 & P6 & P7 & P8 & P9 & BR & BRr & BRp & BRz & BR4 & BR5 & BR6 & BR7 & BR8 & BR9 & BP & BPr & BPp & BPz & BP4 & BP5 & BP6 & BP7 & BP8 & BP9 & BZ & BZr & BZp & BZz & BZ4 & BZ5 & BZ6 & BZ7 & BZ8 & BZ9 & SP & SR & SB & SZ & EP & EB & _).
  clear H. split; intros i j k I J K.
  - destruct SP as [SP _]. specialize (SP i j k I J K). rewrite !point_step, !angle_step in SP by assumption.
    rewrite (get_tab c _ res _ _ _ _ D (eq_refl : find t_STS "psi" = _)) in SP. cbn [inSI] in SP. rewrite Rmult_1_l in SP.
    rewrite <- SP. apply EP. split; apply point_in; assumption.
  - destruct SR as [SR _]. specialize (SR i j k I J K). rewrite !point_step, !angle_step in SR by assumption.
    rewrite (get_tab c _ res _ _ _ _ D (eq_refl : find t_STS "B_r" = _)) in SR. cbn [inSI] in SR. rewrite Rmult_1_l in SR.
    destruct SB as [SB _]. specialize (SB i j k I J K). rewrite !point_step, !angle_step in SB by assumption.
    rewrite (get_tab c _ res _ _ _ _ D (eq_refl : find t_STS "B_phi" = _)) in SB. cbn [inSI] in SB. rewrite Rmult_1_l in SB.
    destruct SZ as [SZ _]. specialize (SZ i j k I J K). rewrite !point_step, !angle_step in SZ by assumption.
    rewrite (get_tab c _ res _ _ _ _ D (eq_refl : find t_STS "B_z" = _)) in SZ. cbn [inSI] in SZ. rewrite Rmult_1_l in SZ.
    intros NZ. rewrite <- SR, <- SB, <- SZ in NZ |- *. apply EB; [split; apply point_in; assumption|exact NZ].
Qed.
