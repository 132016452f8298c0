(** Time-dependent plasma profiles: what the evaluation returns of the datasets.  In the file
    the densities are arrays over (time, rho) and (time, ion species, rho)
    (a5py/ascot5io/plasma.py:599-607). *)
From Coq Require Import Reals ZArith List String Bool Lia Lra.
Import ListNotations.
From Verif Require Import Vec AxisModel LintModel PlasmaModel PlasmaProofs PlasmaProps.
From Verif Require Import MainModel HdfModel HmkModel HinModel HinProofs HuseModel HuseProofs PtfModel.
Local Open Scope string_scope.
Local Open Scope R_scope.

(** ** Entries of the file *)
(** dataset over (time, rho) *)
Definition at_time (c : content) (ds : string) (j k : Z) : R := entryd c ds (j * intd c "nrho" + k).
(** density of ion species s = 1 ... nion *)
Definition ion_at (c : content) (s j k : Z) : R := entryd c "idensity" ((j * intd c "nion" + (s - 1)) * intd c "nrho" + k).
(** what belongs to species s, 0 for electrons *)
Definition dens_of_file (c : content) (s j k : Z) : R := if Z.eqb s 0 then at_time c "edensity" j k else ion_at c s j k.
Definition temp_of_file (c : content) (s j k : Z) : R := 1.602176565e-19 * at_time c (if Z.eqb s 0 then "etemperature" else "itemperature") j k.
(** what is returned instead: species and time index of the density returned for species s at time index j *)
Definition species_got (c : content) (s j : Z) : Z :=
  let q := (j * (intd c "nion" + 1) + s)%Z in
  if Z.ltb q (intd c "ntime") then 0%Z else (1 + (q - intd c "ntime") mod intd c "nion")%Z.
Definition time_got (c : content) (s j : Z) : Z :=
  let q := (j * (intd c "nion" + 1) + s)%Z in
  if Z.ltb q (intd c "ntime") then q else ((q - intd c "ntime") / intd c "nion")%Z.
Definition dens_got (c : content) (s j k : Z) : R := dens_of_file c (species_got c s j) (time_got c s j) k.

(** a slice that is stored is returned for the right species and time only for the electrons at
    the first time and the ions at the last *)
Theorem got_right : forall c s j, (0 <= intd c "nion")%Z -> (2 <= intd c "ntime")%Z -> (0 <= s <= intd c "nion")%Z -> (0 <= j < intd c "ntime")%Z ->
  (0 <= species_got c s j <= intd c "nion")%Z /\ (0 <= time_got c s j < intd c "ntime")%Z /\
  ((species_got c s j = s /\ time_got c s j = j) <-> (if Z.eqb s 0 then j = 0%Z \/ intd c "nion" = 0%Z else j = intd c "ntime" - 1)%Z).
Proof.
  intros c s j N T S J. unfold species_got, time_got. set (n := intd c "nion") in *. set (m := intd c "ntime") in *. cbv zeta.
  destruct (Z.ltb_spec (j * (n + 1) + s) m) as [L|L].
  - split; [lia|]. split; [split; nia|]. destruct (Z.eqb_spec s 0) as [->|NS]; [|split; [lia|]]; nia.
  - assert (N0 : (1 <= n)%Z) by (destruct (Z.eq_dec n 0) as [E|E]; [rewrite E in *|]; nia).
    set (q := (j * (n + 1) + s - m)%Z). pose proof (Z.div_mod q n ltac:(lia)) as DM. pose proof (Z.mod_pos_bound q n ltac:(lia)) as MB.
    assert (Q : (0 <= q < m * n)%Z) by (unfold q; nia).
    assert (D1 : (0 <= q / n)%Z) by (apply Z.div_pos; lia). assert (D2 : (q / n < m)%Z) by (apply Z.div_lt_upper_bound; lia).
    split; [lia|]. split; [lia|]. set (a := (q / n)%Z) in *. set (b := (q mod n)%Z) in *. clearbody a b.
    destruct (Z.eqb_spec s 0) as [->|NS].
    + split; [lia|]. intros [->|E]; unfold q in *; lia.
    + split.
      * intros [E1 E2]. assert (q = n * j + (s - 1))%Z by (rewrite DM, E2; lia). unfold q in *. nia.
      * intros E. assert (E2 : (n * a + b = n * j + (s - 1))%Z) by (rewrite <- DM; unfold q; nia). assert (a = j) by nia. subst a. split; [nia|reflexivity].
Qed.
Lemma temp_file c res s j k : delivered c t_Pt res -> temp_slice (intd c "nrho") (tabZ res "Te") (tabZ res "Ti") s j k = temp_of_file c s j k.
Proof.
  intros D. unfold temp_slice, temp_of_file, at_time. destruct (Z.eqb s 0);
    [rewrite (tabZ_of c _ res _ _ _ _ D (eq_refl : find t_Pt "Te" = _))|rewrite (tabZ_of c _ res _ _ _ _ D (eq_refl : find t_Pt "Ti" = _))]; cbn [inSI]; reflexivity.
Qed.
Lemma dens_file c res s j k : delivered c t_Pt res -> (0 <= intd c "nion")%Z -> (2 <= intd c "ntime")%Z -> (0 <= s <= intd c "nion")%Z -> (0 <= j < intd c "ntime")%Z ->
  mixed_slice (intd c "nrho") (intd c "ntime") (intd c "nion") (tabZ res "ne") (tabZ res "ni") s j k = dens_got c s j k.
Proof.
  intros D N T S J. unfold mixed_slice, dens_slice, dens_got, species_got, time_got, dens_of_file, at_time, ion_at. set (n := intd c "nion") in *. set (m := intd c "ntime") in *. cbv zeta.
  set (q := (j * (n + 1) + s)%Z). assert (Q : (0 <= q < (n + 1) * m)%Z) by (unfold q; nia).
  destruct (Z.ltb_spec q m) as [L|L].
  - rewrite Z.div_small, Z.mod_small by lia. cbn [Z.eqb]. rewrite (tabZ_of c _ res _ _ _ _ D (eq_refl : find t_Pt "ne" = _)). cbn [inSI]. ring.
  - assert (N0 : (1 <= n)%Z) by (destruct (Z.eq_dec n 0) as [E|E]; [rewrite E in *|]; lia).
    pose proof (Z.div_mod q m ltac:(lia)) as DM. pose proof (Z.mod_pos_bound q m ltac:(lia)) as MB.
    assert (A : (1 <= q / m)%Z) by (apply Z.div_le_lower_bound; lia). destruct (Z.eqb_spec (q / m) 0); [lia|].
    pose proof (Z.div_mod (q - m) n ltac:(lia)) as DM2. pose proof (Z.mod_pos_bound (q - m) n ltac:(lia)) as MB2.
    destruct (Z.eqb_spec (1 + (q - m) mod n) 0); [lia|]. rewrite (tabZ_of c _ res _ _ _ _ D (eq_refl : find t_Pt "ni" = _)). cbn [inSI]. rewrite Rmult_1_l. f_equal.
    set (a := (q / m)%Z) in *. set (b := (q mod m)%Z) in *. set (a' := ((q - m) / n)%Z) in *. set (b' := ((q - m) mod n)%Z) in *. clearbody a b a' b'.
    replace (a' * n + (1 + b' - 1))%Z with (q - m)%Z by lia. rewrite DM. ring.
Qed.

Lemma interp2_ext g g' n tm tm' j T T' x t v : (forall k, (0 <= k < n)%Z -> g k = g' k) -> tm j = tm' j -> tm (j + 1)%Z = tm' (j + 1)%Z ->
  (forall i k, i = j \/ i = (j + 1)%Z -> (0 <= k < n)%Z -> T i k = T' i k) -> interpolates2 g n tm j T x t v -> interpolates2 g' n tm' j T' x t v.
Proof.
  intros G M0 M1 E (u0 & u1 & A & B & C). exists u0, u1. rewrite <- M0, <- M1. split; [|split; [|exact C]]; (eapply interp_ext2; [exact G| |reflexivity|eassumption]); intros k K; apply E; auto.
Qed.
(** ** The file to the evaluation *)
Definition inner (c : content) (j : Z) (t : R) : Prop := (0 <= j /\ j + 2 < intd c "ntime")%Z /\ entryd c "time" j <= t < entryd c "time" (j + 1).
Theorem plasma_1Dt_file : forall f qid c s, complete f "/plasma/plasma_1Dt_XXXXXXXXXX/" qid c s_Pt ->
  (1 <= intd c "nrho")%Z -> (0 <= intd c "nion")%Z -> (2 <= intd c "ntime")%Z -> increasing (entryd c "time") (intd c "ntime") ->
  exists res, read_input rplasma_1Dt f qid s = Ok res /\
  let d := call_plasma_1Dt res in let n := intd c "nrho" in let rho := entryd c "rho" in let m := intd c "ntime" in
  forall x t,
    (range_of n rho x -> t < entryd c "time" 0 -> plasma_1Dt_eval_densandtemp d x t = Bad) /\
    (forall j, range_of n rho x -> inner c j t -> exists g, plasma_1Dt_eval_densandtemp d x t = Good g /\ forall k, (0 <= k <= intd c "nion")%Z ->
       interpolates2 rho n (entryd c "time") j (temp_of_file c k) x t (snd (g k)) /\ interpolates2 rho n (entryd c "time") j (dens_got c k) x t (fst (g k))) /\
    (range_of n rho x -> entryd c "time" (m - 2) <= t -> exists g, plasma_1Dt_eval_densandtemp d x t = Good g /\ forall k, (0 <= k <= intd c "nion")%Z ->
       interpolates rho n (temp_of_file c k (m - 1)) x (snd (g k)) /\ interpolates rho n (dens_got c k (m - 1)) x (fst (g k))) /\
    (~ range_of n rho x -> exists e, plasma_1Dt_eval_densandtemp d x t = Fail e /\ e <> 0%Z).
Proof.
  intros f qid c s C N1 N2 N3 INC. destruct (input_delivered "/plasma/plasma_1Dt_XXXXXXXXXX/" rplasma_1Dt s_Pt t_Pt f qid c s ltac:(unfold inputs; pick) C) as (res & R & D).
  exists res. split; [exact R|]. cbv zeta. unfold call_plasma_1Dt.
  rewrite (get_z c _ res _ _ D (eq_refl : find t_Pt "nrho" = _)), (get_z c _ res _ _ D (eq_refl : find t_Pt "nion" = _)), (get_z c _ res _ _ D (eq_refl : find t_Pt "ntime" = _)).
  assert (G : forall i, tabZ res "rho" i = entryd c "rho" i) by (intros i; rewrite (tabZ_of c _ res _ _ _ i D (eq_refl : find t_Pt "rho" = _)); cbn [inSI]; ring).
  assert (M : forall i, tabZ res "time" i = entryd c "time" i) by (intros i; rewrite (tabZ_of c _ res _ _ _ i D (eq_refl : find t_Pt "time" = _)); cbn [inSI]; ring).
  assert (INC' : increasing (tabZ res "time") (intd c "ntime")) by (intros i A B; rewrite !M; apply INC; assumption).
  intros x t. assert (IN : range_of (intd c "nrho") (entryd c "rho") x <-> inside (intd c "nrho") (tabZ res "rho") x) by (unfold range_of, inside; rewrite !G; tauto).
  set (n := intd c "nrho") in *. set (m := intd c "ntime") in *. set (ni := intd c "nion") in *.
  split; [|split; [|split]].
  - intros I L. apply IN in I. apply (plasma1Dt_profiles n m ni _ _ _ _ _ _ _ x t N1 N2 N3 INC' I). rewrite M. exact L.
  - intros j I J. apply IN in I. destruct (plasma1Dt_profiles n m ni _ _ (tabZ res "Te") (tabZ res "Ti") (tabZ res "ne") (tabZ res "ni") (tabZ res "vtor") x t N1 N2 N3 INC' I) as (_ & H & _).
    destruct (H j) as (g & E & K). { destruct J as [J1 J2]. split; [exact J1|]. rewrite !M. exact J2. }
    exists g. split; [exact E|]. intros k KR. destruct (K k KR) as [K1 K2]. destruct J as [J1 _]. fold m in J1.
    split; (eapply interp2_ext; [intros; apply G|apply M|apply M| |eassumption]); cbv beta; [intros i l _ _; now apply temp_file|intros i l IL _; apply dens_file; try assumption; destruct IL as [->| ->]; fold m; lia].
  - intros I L. apply IN in I. destruct (plasma1Dt_profiles n m ni _ _ (tabZ res "Te") (tabZ res "Ti") (tabZ res "ne") (tabZ res "ni") (tabZ res "vtor") x t N1 N2 N3 INC' I) as (_ & _ & H).
    destruct H as (g & E & K); [rewrite M; exact L|]. exists g. split; [exact E|]. intros k KR. destruct (K k KR) as [K1 K2].
    split; (eapply interp_ext2; [intros; apply G| |reflexivity|eassumption]); cbv beta; [intros l _; now apply temp_file|intros l _; apply dens_file; try assumption; fold m; lia].
  - intros O. destruct (plasma1Dt_outside n m ni (tabZ res "rho") (tabZ res "time") (tabZ res "Te") (tabZ res "Ti") (tabZ res "ne") (tabZ res "ni") (tabZ res "vtor") x t 1 0 N1) as [H _]; [rewrite <- IN; exact O|exact H].
Qed.
(** from the last but one time on, the electron density returned is that of the last ion species at the last but one time *)
Theorem electrons_late : forall c k, (1 <= intd c "nion")%Z -> (2 <= intd c "ntime")%Z ->
  dens_got c 0 (intd c "ntime" - 1) k = ion_at c (intd c "nion") (intd c "ntime" - 2) k.
Proof.
  intros c k N T. unfold dens_got, species_got, time_got. set (n := intd c "nion") in *. set (m := intd c "ntime") in *. cbv zeta.
  destruct (Z.ltb_spec ((m - 1) * (n + 1) + 0) m) as [L|L]; [nia|].
  replace ((m - 1) * (n + 1) + 0 - m)%Z with ((n - 1) + (m - 2) * n)%Z by ring. rewrite Z.mod_add, Z.div_add, Z.mod_small, Z.div_small by lia.
  unfold dens_of_file. destruct (Z.eqb_spec (1 + (n - 1)) 0); [lia|]. f_equal; lia.
Qed.
(** at the first time, the density returned for ion species s is that of the electrons at time index s *)
Theorem ions_early : forall c s k, (1 <= s)%Z -> (s < intd c "ntime")%Z -> dens_got c s 0 k = at_time c "edensity" s k.
Proof.
  intros c s k S T. unfold dens_got, species_got, time_got. cbv zeta. replace (0 * (intd c "nion" + 1) + s)%Z with s by ring.
  destruct (Z.ltb_spec s (intd c "ntime")); [reflexivity|lia].
Qed.
(** constant densities: late in the simulation the electron density is the ion density *)
Theorem constant_densities : forall f qid c s n_e n_i, complete f "/plasma/plasma_1Dt_XXXXXXXXXX/" qid c s_Pt ->
  (1 <= intd c "nrho")%Z -> (1 <= intd c "nion")%Z -> (2 <= intd c "ntime")%Z -> increasing (entryd c "time") (intd c "ntime") ->
  (forall j k, (0 <= j < intd c "ntime")%Z -> (0 <= k < intd c "nrho")%Z -> at_time c "edensity" j k = n_e) ->
  (forall i j k, (1 <= i <= intd c "nion")%Z -> (0 <= j < intd c "ntime")%Z -> (0 <= k < intd c "nrho")%Z -> ion_at c i j k = n_i) ->
  exists res, read_input rplasma_1Dt f qid s = Ok res /\
  forall x t, range_of (intd c "nrho") (entryd c "rho") x -> entryd c "time" (intd c "ntime" - 2) <= t ->
    exists g, plasma_1Dt_eval_densandtemp (call_plasma_1Dt res) x t = Good g /\ fst (g 0%Z) = n_i.
Proof.
  intros f qid c s n_e n_i C N1 N2 N3 INC HE HI. destruct (plasma_1Dt_file f qid c s C N1 ltac:(lia) N3 INC) as (res & R & H). exists res. split; [exact R|].
  intros x t X T. cbv zeta in H. destruct (H x t) as (_ & _ & L & _). destruct (L X T) as (g & E & K). exists g. split; [exact E|].
  destruct (K 0%Z ltac:(lia)) as [_ D]. apply (interpolates_const (entryd c "rho") (intd c "nrho") n_i x). eapply interpolates_ext; [|exact D].
  intros k KR. cbv beta. rewrite electrons_late by lia. apply HI; lia.
Qed.
(** rotation: bilinear in the entries plus an error from exchanged weights *)
Theorem rotation_file : forall f qid c s, complete f "/plasma/plasma_1Dt_XXXXXXXXXX/" qid c s_Pt ->
  (1 <= intd c "nrho")%Z -> (2 <= intd c "ntime")%Z -> increasing (entryd c "time") (intd c "ntime") ->
  exists res, read_input rplasma_1Dt f qid s = Ok res /\
  let rho := entryd c "rho" in let time := entryd c "time" in let v := at_time c "vtor" in
  forall x t r old j, range_of (intd c "nrho") rho x -> inner c j t ->
    exists k, (0 <= k /\ k + 1 < intd c "nrho")%Z /\ rho k <= x < rho (k + 1)%Z /\
    let a := (x - rho k) / (rho (k + 1)%Z - rho k) in let b := (t - time j) / (time (j + 1)%Z - time j) in
    plasma_1Dt_eval_flow (call_plasma_1Dt res) x t r old = Good (0%Z, ((1 - a) * (1 - b) * v j k + a * (1 - b) * v j (k + 1)%Z + (1 - a) * b * v (j + 1)%Z k + a * b * v (j + 1)%Z (k + 1)%Z
      + (a - b) * (v (j + 1)%Z k - v j (k + 1)%Z)) * r).
Proof.
  intros f qid c s C N1 N3 INC. destruct (input_delivered "/plasma/plasma_1Dt_XXXXXXXXXX/" rplasma_1Dt s_Pt t_Pt f qid c s ltac:(unfold inputs; pick) C) as (res & R & D).
  exists res. split; [exact R|]. cbv zeta. unfold call_plasma_1Dt.
  rewrite (get_z c _ res _ _ D (eq_refl : find t_Pt "nrho" = _)), (get_z c _ res _ _ D (eq_refl : find t_Pt "nion" = _)), (get_z c _ res _ _ D (eq_refl : find t_Pt "ntime" = _)).
  assert (G : forall i, tabZ res "rho" i = entryd c "rho" i) by (intros i; rewrite (tabZ_of c _ res _ _ _ i D (eq_refl : find t_Pt "rho" = _)); cbn [inSI]; ring).
  assert (M : forall i, tabZ res "time" i = entryd c "time" i) by (intros i; rewrite (tabZ_of c _ res _ _ _ i D (eq_refl : find t_Pt "time" = _)); cbn [inSI]; ring).
  assert (W : forall i k, vtor_slice (intd c "nrho") (tabZ res "vtor") i k = at_time c "vtor" i k) by (intros i k; unfold vtor_slice, at_time; rewrite (tabZ_of c _ res _ _ _ _ D (eq_refl : find t_Pt "vtor" = _)); cbn [inSI]; ring).
  assert (INC' : increasing (tabZ res "time") (intd c "ntime")) by (intros i A B; rewrite !M; apply INC; assumption).
  intros x t r old j I J. assert (IN : inside (intd c "nrho") (tabZ res "rho") x) by (unfold range_of, inside in *; rewrite !G; exact I).
  destruct (plasma1Dt_rotation (intd c "nrho") (intd c "ntime") (intd c "nion") (tabZ res "rho") (tabZ res "time") (tabZ res "Te") (tabZ res "Ti") (tabZ res "ne") (tabZ res "ni") (tabZ res "vtor") x t r old j N1 N3 INC' IN) as (k & K & X & E).
  { destruct J as [J1 J2]. split; [exact J1|]. rewrite !M. exact J2. }
  cbv zeta in E. rewrite !W, !G, !M in *. exists k. split; [exact K|]. split; [exact X|]. rewrite E. do 3 f_equal. unfold bilin, lin. ring.
Qed.
