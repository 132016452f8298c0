(** The marker input: reading, several groups of one QID, writing and reading back *)
From Coq Require Import Reals ZArith List String Ascii Bool Arith Lia Lra.
From Verif Require Import MainModel MainProofs HdfModel HdfProofs PhysModel HmkModel HmkProofs.
Import ListNotations.
Local Open Scope string_scope.
Local Open Scope R_scope.

(** Reading *)
(** the particles of the file in order, in SI units, with relativistic momentum *)
Theorem marker_particles : forall f qid, String.length qid = 10%nat -> plain qid -> forall n ms, read_particle f qid = (n, Ok ms) ->
  n = Some (Z.of_nat (List.length ms)) /\ count f "prt_" qid (Z.of_nat (List.length ms)) /\
  forall i m, nth_error ms i = Some m -> exists p deg vx vy vz mass q, m = IP p /\
    rval f "prt_" qid "r" i (p_r p) /\ rval f "prt_" qid "phi" i deg /\ p_phi p = rad deg /\ rval f "prt_" qid "z" i (p_z p) /\
    rval f "prt_" qid "vr" i vx /\ rval f "prt_" qid "vphi" i vy /\ rval f "prt_" qid "vz" i vz /\
    rval f "prt_" qid "mass" i mass /\ p_mass p = mass * CONST_U /\ ival f "prt_" qid "charge" i q /\ p_charge p = IZR q * CONST_E /\
    ival f "prt_" qid "anum" i (p_anum p) /\ ival f "prt_" qid "znum" i (p_znum p) /\
    rval f "prt_" qid "weight" i (p_weight p) /\ rval f "prt_" qid "time" i (p_time p) /\ lval f "prt_" qid "id" i (p_id p) /\
    (slow vx vy vz -> momentum (p_mass p) vx vy vz (p_pr p) (p_pphi p) (p_pz p)).
Proof. exact particles_read. Qed.
Print Assumptions marker_particles.
(** the guiding centers *)
Theorem marker_guiding_centers : forall f qid, String.length qid = 10%nat -> plain qid -> forall n ms, read_guiding_center f qid = (n, Ok ms) ->
  n = Some (Z.of_nat (List.length ms)) /\ count f "gc_" qid (Z.of_nat (List.length ms)) /\
  forall i m, nth_error ms i = Some m -> exists g deg ev mass q, m = IGC g /\
    rval f "gc_" qid "r" i (g_r g) /\ rval f "gc_" qid "phi" i deg /\ g_phi g = rad deg /\ rval f "gc_" qid "z" i (g_z g) /\
    rval f "gc_" qid "energy" i ev /\ g_energy g = ev * CONST_E /\ rval f "gc_" qid "pitch" i (g_pitch g) /\ rval f "gc_" qid "zeta" i (g_zeta g) /\
    rval f "gc_" qid "mass" i mass /\ g_mass g = mass * CONST_U /\ ival f "gc_" qid "charge" i q /\ g_charge g = IZR q * CONST_E /\
    ival f "gc_" qid "anum" i (g_anum g) /\ ival f "gc_" qid "znum" i (g_znum g) /\
    rval f "gc_" qid "weight" i (g_weight g) /\ rval f "gc_" qid "time" i (g_time g) /\ lval f "gc_" qid "id" i (g_id g).
Proof. exact gcs_read. Qed.
Print Assumptions marker_guiding_centers.
(** the field lines *)
Theorem marker_field_lines : forall f qid, String.length qid = 10%nat -> plain qid -> forall n ms, read_field_line f qid = (n, Ok ms) ->
  n = Some (Z.of_nat (List.length ms)) /\ count f "fl_" qid (Z.of_nat (List.length ms)) /\
  forall i m, nth_error ms i = Some m -> exists l deg, m = IML l /\
    rval f "fl_" qid "r" i (l_r l) /\ rval f "fl_" qid "phi" i deg /\ l_phi l = rad deg /\ rval f "fl_" qid "z" i (l_z l) /\
    rval f "fl_" qid "pitch" i (l_pitch l) /\ rval f "fl_" qid "weight" i (l_weight l) /\ rval f "fl_" qid "time" i (l_time l) /\ lval f "fl_" qid "id" i (l_id l).
Proof. exact fls_read. Qed.
Print Assumptions marker_field_lines.
(** reading succeeds exactly when every column is there and has as many entries as there are markers *)
Theorem marker_particles_iff : forall f qid, String.length qid = 10%nat -> plain qid -> (exists ms, snd (read_particle f qid) = Ok ms) <-> exists k, count f "prt_" qid (Z.of_nat k) /\ Forall (column f "prt_" qid k) prt_names.
Proof. exact particles_iff. Qed.
Print Assumptions marker_particles_iff.
(** guiding centers *)
Theorem marker_guiding_centers_iff : forall f qid, String.length qid = 10%nat -> plain qid -> (exists ms, snd (read_guiding_center f qid) = Ok ms) <-> exists k, count f "gc_" qid (Z.of_nat k) /\ Forall (column f "gc_" qid k) gc_names.
Proof. exact gcs_iff. Qed.
Print Assumptions marker_guiding_centers_iff.
(** field lines *)
Theorem marker_field_lines_iff : forall f qid, String.length qid = 10%nat -> plain qid -> (exists ms, snd (read_field_line f qid) = Ok ms) <-> exists k, count f "fl_" qid (Z.of_nat k) /\ Forall (column f "fl_" qid k) fl_names.
Proof. exact fls_iff. Qed.
Print Assumptions marker_field_lines_iff.
(** with one group of this QID the markers are those of the group *)
Theorem marker_single_group : forall f qid, String.length qid = 10%nat -> plain qid -> forall x, In x (readers f qid) -> there f qid x -> (forall y, In y (readers f qid) -> there f qid y -> y = x) ->
  match snd (snd x) with
  | Ok l => exists s, marker_read f qid = Ok s /\ m_ok s = true /\ m_p s = Some l
  | Rejected => exists s, marker_read f qid = Ok s /\ m_ok s = false
  | Overflow => marker_read f qid = Overflow
  end.
Proof. exact single_group. Qed.
Print Assumptions marker_single_group.
(** the number and the list of markers agree when every group of this QID can be read *)
Theorem marker_number : forall f qid, String.length qid = 10%nat -> plain qid -> forall s, marker_read f qid = Ok s -> (forall x, In x (readers f qid) -> there f qid x -> snd (snd x) <> Rejected) ->
  match m_p s with Some l => m_ok s = true /\ m_n s = Some (Z.of_nat (List.length l)) | None => m_ok s = false /\ m_n s = None end.
Proof. exact number_agrees. Qed.
Print Assumptions marker_number.
Definition col (t : string) (l : list (string * dset)) (p : path) : option dset :=
  match p with
  | [g; u; n] => if String.eqb g "marker" then if String.eqb u (t ++ "0000000001") then option_map snd (find (fun x => String.eqb (fst x) n) l) else None else None
  | _ => None
  end.
Definition one_prt : list (string * dset) :=
  [("n", DInt [1%Z]); ("r", DReal [6.2]); ("phi", DReal [90]); ("z", DReal [0.5]); ("vr", DReal [0]); ("vphi", DReal [CONST_C * 4 / 5]); ("vz", DReal [0]);
   ("mass", DReal [2]); ("charge", DInt [1%Z]); ("anum", DInt [2%Z]); ("znum", DInt [1%Z]); ("weight", DReal [1]); ("time", DReal [0]); ("id", DInt [1%Z])].
Definition only_n : list (string * dset) := [("n", DInt [5%Z])].
Definition demo_one : h5 := mkh5 (fun p => if in_dec path_dec p [["marker"]; ["marker"; "prt_0000000001"]] then true else false) (fun _ _ => None) (col "prt_" one_prt).
Definition demo_two : h5 := mkh5 (fun p => if in_dec path_dec p [["marker"]; ["marker"; "prt_0000000001"]; ["marker"; "gc_0000000001"]] then true else false) (fun _ _ => None)
  (fun p => match col "prt_" one_prt p with Some d => Some d | None => col "gc_" only_n p end).
Example marker_ex : exists p, read_particle demo_one "0000000001" = (Some 1%Z, Ok [IP p]) /\ p_phi p = PI / 2 /\ p_pphi p = 4 / 3 * (2 * CONST_U) * CONST_C.
Proof.
  exists (prt_of 6.2 90 0.5 0 (CONST_C * 4 / 5) 0 2 1 2 1 1 0 1). split; [reflexivity|]. cbn [p_phi p_pphi prt_of]. split; [field|].
  replace (1 - (0 * 0 + CONST_C * 4 / 5 * (CONST_C * 4 / 5) + 0 * 0) / CONST_C2) with ((3 / 5) * (3 / 5)) by (unfold CONST_C2; field; unfold CONST_C; lra).
  rewrite sqrt_square by lra. field.
Qed.
(** finding: a second group of the same QID that cannot be read leaves its number with the markers of the first, and reading succeeds *)
Theorem marker_number_refuted : exists s p, marker_read demo_two "0000000001" = Ok s /\ m_ok s = true /\ m_p s = Some [p] /\ m_n s = Some 5%Z.
Proof. eexists _, _. split; [reflexivity|]. repeat split; reflexivity. Qed.
Print Assumptions marker_number_refuted.

(** Writing *)
(** everything but the momentum comes back, the charge exactly when it is a whole number of elementary charges; finding: the momentum comes back only for a marker at rest or of mass one kilogram *)
Theorem marker_written_back : forall f ps qid, String.length qid = 10%nat -> plain qid -> free_for f qid -> ps <> [] -> (Z.of_nat (List.length ps) < 2 ^ 31)%Z -> Forall fits ps ->
  exists qs, read_particle (write_particle f ps qid) qid = (Some (Z.of_nat (List.length ps)), Ok (map IP qs)) /\
  Forall2 (fun p q => p_r q = p_r p /\ p_phi q = p_phi p /\ p_z q = p_z p /\ p_mass q = p_mass p /\ p_anum q = p_anum p /\ p_znum q = p_znum p /\
    p_weight q = p_weight p /\ p_time q = p_time p /\ p_id q = p_id p /\ (p_charge q = p_charge p <-> whole_charge p) /\
    (psq p * (1 - p_mass p) < p_mass p * p_mass p * CONST_C2 -> (p_pr q = p_pr p /\ p_pphi q = p_pphi p /\ p_pz q = p_pz p <-> psq p = 0 \/ p_mass p = 1))) ps qs.
Proof. exact written_back. Qed.
Print Assumptions marker_written_back.
(** finding: only then is the stored velocity that of the momentum; below one kilogram it can reach the speed of light *)
Theorem marker_written_velocity : forall f ps qid i p vx vy vz, String.length qid = 10%nat -> plain qid -> free_for f qid -> nth_error ps i = Some p -> 0 < p_mass p ->
  rval (write_particle f ps qid) "prt_" qid "vr" i vx -> rval (write_particle f ps qid) "prt_" qid "vphi" i vy -> rval (write_particle f ps qid) "prt_" qid "vz" i vz ->
  (momentum (p_mass p) vx vy vz (p_pr p) (p_pphi p) (p_pz p) <-> psq p = 0 \/ p_mass p = 1) /\
  (slow vx vy vz <-> psq p * (1 - p_mass p) < p_mass p * p_mass p * CONST_C2).
Proof. exact written_velocity. Qed.
Print Assumptions marker_written_velocity.
(** nothing is written over a group that exists *)
Theorem marker_no_overwrite : forall f ps qid, String.length qid = 10%nat -> plain qid -> grp f ["marker"] = true -> taken f ["marker"; "prt_" ++ qid] = true -> write_particle f ps qid = f.
Proof. exact no_overwrite. Qed.
Print Assumptions marker_no_overwrite.
(** finding: an empty list of markers cannot be read back *)
Theorem marker_empty_refuted : forall f qid, String.length qid = 10%nat -> plain qid -> free_for f qid -> ~ exists ms, snd (read_particle (write_particle f [] qid) qid) = Ok ms.
Proof. exact empty_unreadable. Qed.
Print Assumptions marker_empty_refuted.
Example marker_write_ex : let f := mkh5 (fun p => match p with [] => true | _ => false end) (fun _ _ => None) (fun _ => None) in
  free_for f "0000000001" /\ stored (write_particle f [mkp 6.2 0 0.5 0 0 0 1 0 2 1 1 0 7] "0000000001") "prt_" "0000000001" "id" = Some (DInt [7%Z]).
Proof. cbv zeta. split; [split; [|split; reflexivity]|reflexivity]. intros p x _. destruct p; split; reflexivity. Qed.
(** finding: a deuteron of momentum 2 m c is stored with a velocity above the speed of light *)
Theorem marker_superluminal_refuted : forall f qid m vx vy vz, String.length qid = 10%nat -> plain qid -> free_for f qid -> m = 2 * CONST_U ->
  let p := mkp 6.2 0 0.5 (2 * m * CONST_C) 0 0 m CONST_E 2 1 1 0 1 in let f' := write_particle f [p] qid in
  rval f' "prt_" qid "vr" 0 vx -> rval f' "prt_" qid "vphi" 0 vy -> rval f' "prt_" qid "vz" 0 vz -> ~ slow vx vy vz.
Proof.
  intros f qid m vx vy vz L P F M p f' A B C. destruct (written_velocity f [p] qid 0 p vx vy vz L P F eq_refl) as [_ S]; auto.
  - cbn. subst m. unfold CONST_U. lra.
  - rewrite S. unfold psq, p. cbn [p_pr p_pphi p_pz p_mass]. intros H. assert (0 < CONST_U < 1 / 8) by (unfold CONST_U; lra).
    assert (m0 : 0 < m < 1 / 4) by lra. assert (K := C2_pos).
    replace ((2 * m * CONST_C * (2 * m * CONST_C) + 0 * 0 + 0 * 0) * (1 - m)) with (m * m * CONST_C2 * (4 * (1 - m))) in H by (unfold CONST_C2; ring).
    assert (0 < m * m * CONST_C2) by (apply Rmult_lt_0_compat; nra). nra.
Qed.
Print Assumptions marker_superluminal_refuted.
