(** Conversion of a full-orbit slot into a guiding-centre slot (src/particle.c). *)
From Coq Require Import Reals ZArith List Bool Lra Lia.
From Verif Require Import Vec ParticleModel ParticleProofs FogcModel AngleProofs FogcProofs.
Import ListNotations.
Local Open Scope R_scope.

(** C88. *)
Section conv.
Variables (eval_B : R -> R -> R -> R -> Z * (rf -> R)) (eval_psi : R -> R -> R -> R -> Z * R) (eval_rho : R -> Z * R) (axis_rz : R -> Z * (R * R))
  (p2g : R -> R -> (rf -> R) -> R -> R -> R -> R -> R -> R -> R * R * R * R * R * R) (unphys : Z) (cc : R).
Notation conv := (fo_to_gc eval_B eval_psi eval_rho axis_rz p2g unphys).
Notation fo2s := (fo_to_state eval_B eval_psi eval_rho p2g unphys cc).
Notation centre := (FogcProofs.centre p2g).
Notation converted := (FogcProofs.converted eval_B eval_psi eval_rho axis_rz p2g).
Notation convertible := (FogcProofs.convertible eval_B eval_psi eval_rho axis_rz p2g).
(** either the slot holds the guiding centre of the particle, or it is flagged and its phase-space position is untouched *)
Theorem fo_to_gc_converts : forall b j g, unphys <> 0%Z -> let '(e, g') := conv b j g in
  (e = 0%Z /\ bze b err j = 0%Z /\ converted b g g' j) \/ rejected b g g' j e.
Proof. exact (FogcProofs.fogc_spec eval_B eval_psi eval_rho axis_rz p2g unphys). Qed.
(** it succeeds exactly when the guiding centre is physical and everything can be evaluated there *)
Theorem fo_to_gc_succeeds : forall b j g, unphys <> 0%Z -> (fst (conv b j g) = 0%Z <-> convertible b g j).
Proof. exact (FogcProofs.fogc_iff eval_B eval_psi eval_rho axis_rz p2g unphys). Qed.
Theorem fo_to_gc_other_slots : forall b j g, others_kept j g (snd (conv b j g)).
Proof. exact (FogcProofs.fogc_others eval_B eval_psi eval_rho axis_rz p2g unphys). Qed.
(** the detour over the marker state gives the same guiding centre, but leaves the poloidal angle at the particle position *)
Theorem fo_to_gc_agrees_with_state : forall b j g q g2, unphys <> 0%Z -> fst (conv b j g) = 0%Z -> (let '(_, _, _, gpp, _, _) := centre b j in gpp < cc) -> bze b endcond j = 0%Z ->
  let g1 := snd (conv b j g) in let '(e, h) := state_to_gc (fo2s b j q) (bze b index j) g2 j in
  e = 0%Z /\
  (forall f, In f ([r; phi; z; ppar; mu; zeta; mass; charge; time; rho; weight; mileage; cputime] ++ all_B) -> bre h f j = bre g1 f j) /\
  (forall f, In f [id; index; endcond; walltile; err] -> bze h f j = bze g1 f j) /\
  bre h theta j = bre b theta j /\ bze h running j = 1%Z /\ bze g1 running j = bze b running j /\ bze h bounces j = 0%Z /\ bze g1 bounces j = bze g bounces j.
Proof. exact (FogcProofs.fogc_route eval_B eval_psi eval_rho axis_rz p2g unphys cc). Qed.
End conv.
Print Assumptions fo_to_gc_converts.
Print Assumptions fo_to_gc_succeeds.
Print Assumptions fo_to_gc_other_slots.
Print Assumptions fo_to_gc_agrees_with_state.
(** finding: the axis is looked up at the toroidal angle that the slot held before *)
Theorem fo_to_gc_axis_refuted : exists eval_B eval_psi eval_rho axis_rz p2g b g,
  let '(e, g') := fo_to_gc eval_B eval_psi eval_rho axis_rz p2g 1%Z b 0 g in
  e = 0%Z /\ bre b phi 0 = bre g' phi 0 /\ (forall t, fst (axis_rz t) = 0%Z) /\
  at_angle (snd (axis_rz (bre b phi 0%nat))) (bre b r 0%nat) (bre b z 0%nat) (bre b theta 0%nat) /\
  ~ on_axis (snd (axis_rz (bre g' phi 0%nat))) (bre g' r 0%nat) (bre g' z 0%nat) /\
  ~ at_angle (snd (axis_rz (bre g' phi 0%nat))) (bre g' r 0%nat) (bre g' z 0%nat) (bre g' theta 0%nat).
Proof. exact fogc_stale. Qed.
Print Assumptions fo_to_gc_axis_refuted.

(** a particle at (2, 0) whose guiding centre is at (3, 0), with the axis at (2, -1): the angle goes from a
    quarter of a turn to an eighth *)
Example converted_ok : forall g, let b := mkb (fun f _ => match f with r => 2 | theta => PI / 2 | weight => 7 | _ => 0 end) (fun f _ => match f with id => 42%Z | running => 1%Z | _ => 0%Z end) in
  let '(e, g') := fo_to_gc (fun _ _ _ _ => (0%Z, fun _ => 1)) (fun _ _ _ _ => (0%Z, 0)) (fun _ => (0%Z, 1 / 2)) (fun _ => (0%Z, (2, -1))) (fun _ _ _ _ _ _ _ _ _ => (3, 0, 0, 5, 6, 0)) 1%Z b 0 g in
  e = 0%Z /\ bre g' r 0%nat = 3 /\ bre g' ppar 0%nat = 5 /\ bre g' weight 0%nat = 7 /\ bze g' id 0%nat = 42%Z /\ bre g' theta 0%nat = PI / 4.
Proof.
  intros g b. unfold fo_to_gc, fogc_flag. cbn [b bze Z.eqb negb bre]. destruct (Rle_dec 3 0); [lra|]. destruct (Rlt_dec 6 0); [lra|]. cbn [Z.eqb negb].
  cbv [copy_r copy_z fold_left bput bfields bsetr bsetz bre bze upr upz rf_beq zf_beq fst snd upn Nat.eqb]. repeat split.
  replace (atan2 _ _) with (- (PI / 4)); [field|]. unfold atan2. destruct (Rlt_dec 0 _) as [_|F]; [|exfalso; apply F; lra].
  replace (((2 - 2) * (0 - -1) - (0 - -1) * (3 - 2)) / ((2 - 2) * (3 - 2) + (0 - -1) * (0 - -1))) with (- (1)) by field. rewrite atan_opp, atan_1. reflexivity.
Qed.
(** a marker that already has an error *)
Example already_failed : forall g, let b := mkb (fun _ _ => 1) (fun f _ => match f with err => 9%Z | running => 1%Z | _ => 3%Z end) in
  let '(e, g') := fo_to_gc (fun _ _ _ _ => (0%Z, fun _ => 1)) (fun _ _ _ _ => (0%Z, 0)) (fun _ => (0%Z, 1 / 2)) (fun _ => (0%Z, (2, -1))) (fun _ _ _ _ _ _ _ _ _ => (3, 0, 0, 5, 6, 0)) 1%Z b 0 g in
  e = 9%Z /\ bze g' running 0%nat = 0%Z /\ bze g' endcond 0%nat = 0%Z /\ bze g' id 0%nat = 3%Z /\ bre g' r 0%nat = bre g r 0%nat.
Proof. intros g b. repeat split. Qed.
