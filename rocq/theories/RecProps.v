(** The record mode of the full-orbit loop: guiding centres handed to the diagnostics *)
From Coq Require Import Reals ZArith List Bool Lia Lra.
From Verif Require Import Vec ParticleModel ParticleProofs FogcModel FogcProofs AngleProofs DgModel DistProofs DgProofs RecModel RecProofs.
Import ListNotations.
From Verif Require OrbModel DistModel TcModel.
Import ListNotations.
Local Open Scope R_scope.

Section rec.
Context (eval_B : R -> R -> R -> R -> Z * (rf -> R)) (eval_psi : R -> R -> R -> R -> Z * R) (eval_rho : R -> Z * R) (axis_rz : R -> Z * (R * R))
  (p2g : R -> R -> (rf -> R) -> R -> R -> R -> R -> R -> R -> R * R * R * R * R * R) (unphys : Z).
Notation slotf := (rec_slot eval_B eval_psi eval_rho axis_rz p2g unphys).
Notation bundlef := (rec_bundle eval_B eval_psi eval_rho axis_rz p2g unphys).
Notation convable := (convertible eval_B eval_psi eval_rho axis_rz p2g).
Notation slot_spec := (slot_spec eval_B eval_psi eval_rho axis_rz p2g).
Notation is_centre := (is_centre eval_B eval_psi eval_rho axis_rz p2g).
(** the slots are independent: each is converted as if it were alone *)
Theorem rec_slots_independent : forall (n : nat) (b junk : bundle) (j : nat), same_slot j (bundlef n b junk) (if Nat.ltb j n then slotf b junk j else junk).
Proof. exact (@RecProofs.slots_independent eval_B eval_psi eval_rho axis_rz p2g unphys). Qed.
(** a running particle gives its guiding centre, or a slot that does not run if that cannot be computed; for a particle that does not run only id and running are set *)
Theorem rec_slot_contents : forall (n : nat) (b junk : bundle) (j : nat), unphys <> 0%Z -> (j < n)%nat -> slot_spec b junk (bundlef n b junk) j.
Proof. exact (@RecProofs.rec_spec eval_B eval_psi eval_rho axis_rz p2g unphys). Qed.
Context (E0 c0 : R) (psi : R -> R -> R -> R -> R) (mom : DistModel.gc -> R * R * R) (u : setup).
Notation upd := (rec_update eval_B eval_psi eval_rho axis_rz p2g unphys E0 c0 psi mom u).
(** every bin grows by weight times elapsed time of the running particles whose guiding centre can be computed and lies in the bin *)
Theorem rec_distributions : forall (n : nat) (p p0 jf ji : bundle), unphys <> 0%Z ->
  (forall j, (j < n)%nat -> bze p running j <> 0%Z -> bze p0 running j <> 0%Z /\ bze p0 err j = 0%Z) ->
  exists c : nat -> option DistModel.gc,
    (forall j, (j < n)%nat -> match c j with Some m => bze p running j <> 0%Z /\ is_centre (bre jf phi j) p j m
                              | None => bze p running j = 0%Z \/ forall m, ~ is_centre (bre jf phi j) p j m end) /\
    (forall s t d, wf t (dist_ax u t) -> inrange (map DistModel.an (dist_ax u t)) d ->
       let i := DistModel.index t (dist_ax u t) d in
       d_hist (upd n p p0 jf ji s) t i = d_hist s t i + if dist_on u t then
         sumif (fun j => match c j with Some m => incell (dist_ax u t) d (DistModel.coords_gc E0 c0 psi mom t m) | None => false end)
               (fun j => bre p weight j * (bre p time j - bre p0 time j)) (seq 0 n) else 0).
Proof. exact (@RecProofs.rec_bins eval_B eval_psi eval_rho axis_rz p2g unphys E0 c0 psi mom u). Qed.
(** as long as no particle ends and every guiding centre can be computed, the uninitialised memory of the two bundles does not matter (axis independent of the angle) *)
Theorem rec_uninitialised_harmless : forall (n : nat) (p p0 jf ji jf' ji' : bundle) (s : dg), unphys <> 0%Z -> (forall t t', axis_rz t = axis_rz t') ->
  (forall j, (j < n)%nat -> (bze p running j = 0%Z /\ (bze p id j <= 0)%Z) \/ (bze p running j <> 0%Z /\ convable p jf j /\ bze p0 running j <> 0%Z /\ convable p0 ji j)) ->
  d_orb (upd n p p0 jf ji s) = d_orb (upd n p p0 jf' ji' s) /\ (forall t, d_hist (upd n p p0 jf ji s) t = d_hist (upd n p p0 jf' ji' s) t) /\ d_tc (upd n p p0 jf ji s) = d_tc (upd n p p0 jf' ji' s).
Proof. exact (@RecProofs.rec_junk_free eval_B eval_psi eval_rho axis_rz p2g unphys E0 c0 psi mom u). Qed.

(** ** Findings *)
(** finding: index, end condition and coordinates of a particle that ends are never set, so its last point can be written, with any contents, into the orbit of any other marker *)
Theorem rec_foreign_orbit_refuted : forall (p p0 ji : bundle) (s : dg) (k : nat) (v : OrbModel.fld -> R), unphys <> 0%Z ->
  bze p running 0 = 0%Z -> (0 < bze p id 0)%Z -> orb_on u = true -> OrbModel.interval_mode (orb_cfg u) = true ->
  OrbModel.arr (d_orb s) OrbModel.Fid (k * OrbModel.npnt (orb_cfg u))%nat <> 0 ->
  exists jf, let i := (k * OrbModel.npnt (orb_cfg u) + OrbModel.pnt (d_orb s) k)%nat in let o := d_orb (upd 1 p p0 jf ji s) in
    OrbModel.arr o OrbModel.Fid i = IZR (bze p id 0) /\
    (forall f, In f [OrbModel.Fmil; OrbModel.Fr; OrbModel.Fphi; OrbModel.Fz; OrbModel.Fppar; OrbModel.Fmu; OrbModel.Fzeta; OrbModel.Fw; OrbModel.Fq; OrbModel.Frho; OrbModel.Fth; OrbModel.FBr; OrbModel.FBphi; OrbModel.FBz] ->
       OrbModel.arr o f i = v f).
Proof. exact (@RecProofs.rec_foreign_orbit eval_B eval_psi eval_rho axis_rz p2g unphys E0 c0 psi mom u). Qed.
(** or not at all *)
Theorem rec_end_unrecorded_refuted : forall (p p0 ji : bundle) (s : dg) (k : nat), unphys <> 0%Z ->
  bze p running 0 = 0%Z -> orb_on u = true -> OrbModel.interval_mode (orb_cfg u) = true -> 0 < OrbModel.wint (orb_cfg u) ->
  OrbModel.arr (d_orb s) OrbModel.Fid (k * OrbModel.npnt (orb_cfg u))%nat <> 0 ->
  exists jf, bze jf index 0 = Z.of_nat k /\ d_orb (upd 1 p p0 jf ji s) = d_orb s.
Proof. exact (@RecProofs.rec_end_unrecorded eval_B eval_psi eval_rho axis_rz p2g unphys E0 c0 psi mom u). Qed.
(** or anywhere behind the orbit arrays *)
Theorem rec_out_of_bounds_refuted : forall (p p0 ji : bundle) (s : dg) (k : nat), unphys <> 0%Z ->
  bze p running 0 = 0%Z -> (0 < bze p id 0)%Z -> orb_on u = true -> OrbModel.interval_mode (orb_cfg u) = true -> 
  exists jf i, (k * OrbModel.npnt (orb_cfg u) <= i)%nat /\ OrbModel.arr (d_orb (upd 1 p p0 jf ji s)) OrbModel.Fid i = IZR (bze p id 0).
Proof. exact (@RecProofs.rec_out_of_bounds eval_B eval_psi eval_rho axis_rz p2g unphys E0 c0 psi mom u). Qed.
(** the transport coefficients process the crossings of whichever marker the memory names, under the id of the ended one *)
Theorem rec_foreign_transport_refuted : forall (p p0 ji : bundle) (s : dg) (c : TcModel.tc) (k : nat), unphys <> 0%Z ->
  bze p running 0 = 0%Z -> (0 < bze p id 0)%Z -> tc_on u = true -> d_tc s = Some c ->
  exists jf, d_tc (upd 1 p p0 jf ji s) = TcModel.process (tc_fuel u) (tc_par u) c k (bze p id 0).
Proof. exact (@RecProofs.rec_foreign_transport eval_B eval_psi eval_rho axis_rz p2g unphys E0 c0 psi mom u). Qed.
(** finding: a particle that goes on but whose guiding centre cannot be computed gets orbit points with uninitialised coordinates *)
Theorem rec_junk_point_refuted : forall (p p0 ji : bundle) (s : dg) (v : OrbModel.fld -> R), unphys <> 0%Z ->
  bze p running 0 <> 0%Z -> bze p err 0 = 0%Z -> (forall g, ~ convable p g 0) -> (0 < bze p id 0)%Z -> orb_on u = true -> OrbModel.interval_mode (orb_cfg u) = true ->
  let k := Z.to_nat (bze p index 0) in
  OrbModel.arr (d_orb s) OrbModel.Fid (k * OrbModel.npnt (orb_cfg u))%nat <> 0 -> OrbModel.recd (d_orb s) k + OrbModel.wint (orb_cfg u) <= bre p mileage 0 ->
  exists jf, let i := (k * OrbModel.npnt (orb_cfg u) + OrbModel.pnt (d_orb s) k)%nat in let o := d_orb (upd 1 p p0 jf ji s) in
    OrbModel.arr o OrbModel.Fid i = IZR (bze p id 0) /\ OrbModel.arr o OrbModel.Fmil i = bre p mileage 0 /\
    (forall f, In f [OrbModel.Fr; OrbModel.Fphi; OrbModel.Fz; OrbModel.Fppar; OrbModel.Fmu; OrbModel.Fzeta; OrbModel.Frho; OrbModel.Fth; OrbModel.FBr; OrbModel.FBphi; OrbModel.FBz] ->
       OrbModel.arr o f i = v f).
Proof. exact (@RecProofs.rec_junk_point eval_B eval_psi eval_rho axis_rz p2g unphys E0 c0 psi mom u). Qed.
(** and its crossings may be processed as if it had ended *)
Theorem rec_running_processed_refuted : forall (p p0 ji : bundle) (s : dg) (c : TcModel.tc), unphys <> 0%Z ->
  bze p running 0 <> 0%Z -> bze p err 0 = 0%Z -> (forall g, ~ convable p g 0) -> (0 < bze p id 0)%Z -> tc_on u = true -> d_tc s = Some c -> (forall k, TcModel.dp c k = None \/ 
    exists a l, TcModel.dp c k = Some a /\ TcModel.heap c a = Some l) ->
  exists jf, d_tc (upd 1 p p0 jf ji s) = TcModel.process (tc_fuel u) (tc_par u) c (Z.to_nat (bze p index 0)) (bze p id 0).
Proof. exact (@RecProofs.rec_running_processed eval_B eval_psi eval_rho axis_rz p2g unphys E0 c0 psi mom u). Qed.
End rec.
Print Assumptions rec_slots_independent.
Print Assumptions rec_slot_contents.
Print Assumptions rec_distributions.
Print Assumptions rec_uninitialised_harmless.
Print Assumptions rec_foreign_orbit_refuted.
Print Assumptions rec_end_unrecorded_refuted.
Print Assumptions rec_out_of_bounds_refuted.
Print Assumptions rec_foreign_transport_refuted.
Print Assumptions rec_junk_point_refuted.
Print Assumptions rec_running_processed_refuted.
(** finding: if the axis depends on the toroidal angle, so does the poloidal angle of the guiding centre on the uninitialised memory *)
Theorem rec_angle_refuted : exists eval_B eval_psi eval_rho axis_rz p2g p jf jf', let conv := rec_bundle eval_B eval_psi eval_rho axis_rz p2g 1%Z 1 p in
  bze p running 0 = 1%Z /\ convertible eval_B eval_psi eval_rho axis_rz p2g p jf 0 /\ convertible eval_B eval_psi eval_rho axis_rz p2g p jf' 0 /\
  bre (conv jf) phi 0 = bre (conv jf') phi 0 /\ bre (conv jf) theta 0 <> bre (conv jf') theta 0.
Proof. exact RecProofs.rec_angle_refuted. Qed.
Print Assumptions rec_angle_refuted.

(** ** Examples *)
(** uniform oracles: the guiding centre is the particle position; particle 0 runs, particle 1
    has just ended, slot 2 is idle *)
Definition ex_B (_ _ _ _ : R) : Z * (rf -> R) := (0%Z, fun f => match f with B_phi => 5 | _ => 0 end).
Definition ex_psi (_ _ _ _ : R) : Z * R := (0%Z, 1).
Definition ex_rho (_ : R) : Z * R := (0%Z, 1 / 2).
Definition ex_axis (_ : R) : Z * (R * R) := (0%Z, (6, 0)).
Definition ex_p2g (_ _ : R) (_ : rf -> R) (x y w _ b _ : R) : R * R * R * R * R * R := (x, y, w, b, 1, 0).
Definition ex_p : bundle := mkb (fun f j => match f with r => 8 | weight => 10 | time => 3 | mileage => 3 | p_phi => 4 | _ => 0 end)
  (fun f j => match f with id => match j with 0%nat => 11%Z | 1%nat => 12%Z | _ => (-1)%Z end | index => Z.of_nat j | running => match j with 0%nat => 1%Z | _ => 0%Z end | endcond => match j with 1%nat => 32%Z | _ => 0%Z end | _ => 0%Z end).
Definition ex_junk (k : Z) : bundle := mkb (fun _ _ => 77) (fun f _ => match f with index => k | endcond => 1%Z | _ => 5%Z end).
Definition ex_rec (k : Z) : bundle := rec_bundle ex_B ex_psi ex_rho ex_axis ex_p2g 1%Z 3 ex_p (ex_junk k).
Ltac ex_run := unfold ex_rec, rec_bundle; cbn [seq fold_left]; unfold rec_slot, fo_to_gc, fogc_flag; cbn -[Rle_dec Rlt_dec atan2 IZR];
  destruct (Rle_dec 8 0); [lra|]; destruct (Rlt_dec 1 0); [lra|]; cbn -[Rle_dec Rlt_dec atan2 IZR].
(** the running particle has been converted *)
Example ex_running : bre (ex_rec 0) r 0 = 8 /\ bre (ex_rec 0) ppar 0 = 4 /\ bze (ex_rec 0) id 0 = 11%Z /\ bze (ex_rec 0) index 0 = 0%Z /\ bze (ex_rec 0) running 0 = 1%Z /\ bre (ex_rec 0) time 0 = 3.
Proof. ex_run. repeat split; reflexivity. Qed.
(** the ended one has its id and the index and coordinates of the stack *)
Example ex_ended : bze (ex_rec 0) id 1 = 12%Z /\ bze (ex_rec 0) running 1 = 0%Z /\ bze (ex_rec 0) index 1 = 0%Z /\ bre (ex_rec 0) r 1 = 77 /\ bze (ex_rec 100) index 1 = 100%Z.
Proof. ex_run. repeat split; reflexivity. Qed.
(** the spec of rec_slot_contents applies: slot 0 is convertible, and a slot with a failing field is not *)
Example ex_convertible : convertible ex_B ex_psi ex_rho ex_axis ex_p2g ex_p (ex_junk 0) 0 /\
  (forall g, ~ convertible (fun _ _ _ _ => (3%Z, fun _ => 0)) ex_psi ex_rho ex_axis ex_p2g ex_p g 0).
Proof.
  split; [unfold convertible, centre; cbn; repeat split; lra|]. intros g (_ & H). unfold centre in H. cbn in H. destruct H as (_ & _ & H & _). discriminate.
Qed.
(** the hypothesis of rec_distributions holds when the start of the step is the same bundle with everything running *)
Definition ex_p0 : bundle := mkb (fun f j => match f with time => 1 | mileage => 1 | _ => bre ex_p f j end) (fun f j => match f with running => match j with 2%nat => 0%Z | _ => 1%Z end | endcond => 0%Z | _ => bze ex_p f j end).
Example ex_before : forall j, (j < 3)%nat -> bze ex_p running j <> 0%Z -> bze ex_p0 running j <> 0%Z /\ bze ex_p0 err j = 0%Z.
Proof. intros [|[|[|j]]] J H; try lia; try (exfalso; apply H; reflexivity); split; try reflexivity; discriminate. Qed.
(** with particle 1 idle, the three slots satisfy the hypothesis of rec_uninitialised_harmless *)
Definition ex_q : bundle := mkb (bre ex_p) (fun f j => match f, j with id, 1%nat => (-1)%Z | _, _ => bze ex_p f j end).
Example ex_harmless : forall j, (j < 3)%nat -> (bze ex_q running j = 0%Z /\ (bze ex_q id j <= 0)%Z) \/
  (bze ex_q running j <> 0%Z /\ convertible ex_B ex_psi ex_rho ex_axis ex_p2g ex_q (ex_junk 4) j /\ bze ex_p0 running j <> 0%Z /\ convertible ex_B ex_psi ex_rho ex_axis ex_p2g ex_p0 (ex_junk 5) j).
Proof.
  intros [|[|[|j]]] J; try lia; [right|left; cbn; split; [reflexivity|lia]|left; cbn; split; [reflexivity|lia]].
  split; [discriminate|]. split; [unfold convertible, centre; cbn; repeat split; lra|]. split; [discriminate|]. unfold convertible, centre; cbn; repeat split; lra.
Qed.
(** orbit recording with 2 points per marker, marker 7 already has a point *)
Definition ex_u : setup := Setup true (OrbModel.CFG 2 9 true 1 [] [] []) (fun _ => false) (fun _ => []) true (TcModel.Par 1 true 0) 10.
Definition ex_s : dg := DG (OrbModel.ORB (fun f i => match f with OrbModel.Fid => if Nat.eqb i 14 then 8 else 0 | _ => 0 end) (fun k => if Nat.eqb k 7 then 1%nat else 0%nat) (fun _ => 0)) (fun _ _ => 0) (Some TcModel.tc_init).
Definition ex_lost : bundle := mkb (bre ex_p) (fun f _ => bze ex_p f 1).
Example ex_foreign : exists jf, let o := d_orb (rec_update ex_B ex_psi ex_rho ex_axis ex_p2g 1%Z 1 1 (fun _ _ _ _ => 0) (fun _ => (0, 0, 0)) ex_u 1 ex_lost ex_p0 jf (ex_junk 0) ex_s) in
  OrbModel.arr o OrbModel.Fid 15%nat = 12 /\ OrbModel.arr o OrbModel.Fr 15%nat = 99.
Proof.
  destruct (rec_foreign_orbit_refuted ex_B ex_psi ex_rho ex_axis ex_p2g 1%Z 1 1 (fun _ _ _ _ => 0) (fun _ => (0, 0, 0)) ex_u ex_lost ex_p0 (ex_junk 0) ex_s 7%nat (fun _ => 99)) as (jf & A & B); try reflexivity; [discriminate|cbn; lra|].
  exists jf. cbv zeta. split; [exact A|]. apply B. cbn. tauto.
Qed.
