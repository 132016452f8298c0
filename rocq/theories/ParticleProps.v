(** C11, C12, C13 and C56: marker format conversions.
    [agree_r l p q] ([agree_z]) says the states agree on the listed fields;
    [identity_r], [identity_z] are weight, time, mileage, cputime, theta and
    id, endcond, walltile; field evaluation and guiding-center transformation
    are arbitrary. *)
From Coq Require Import Reals ZArith List Bool Lra Lia.
From Verif Require Import ParticleModel ParticleProofs.
Import ListNotations.
Local Open Scope R_scope.

(** C11: gyro-orbit round trip. *)
Theorem particle_fo_roundtrip :
  forall eval_B eval_psi eval_rho p2g unphys cc p i b j q,
  fst (state_to_fo eval_B eval_psi eval_rho p i b j) = 0%Z ->
  let p' := fo_to_state eval_B eval_psi eval_rho p2g unphys cc
              (snd (state_to_fo eval_B eval_psi eval_rho p i b j)) j q in
  agree_r ([rprt; phiprt; zprt; p_r; p_phi; p_z; mass; charge] ++ identity_r) p' p /\
  agree_z ([anum; znum] ++ identity_z) p' p.
Proof. exact fo_roundtrip. Qed.
Print Assumptions particle_fo_roundtrip.

(** C11: guiding-center round trip ([q] is the state written over, in the
    code the marker's own queue entry, so [anum] and [znum] survive too). *)
Theorem particle_gc_roundtrip :
  forall eval_B g2p ppm unphys p i b j q,
  ze p err = 0%Z ->
  let p' := gc_to_state eval_B g2p ppm unphys (snd (state_to_gc p i b j)) j q in
  agree_r ([r; phi; z; ppar; mu; zeta; mass; charge; rho] ++ identity_r ++ all_B) p' p /\
  agree_z identity_z p' p /\ ze p' anum = ze q anum /\ ze p' znum = ze q znum.
Proof. exact gc_roundtrip. Qed.
Print Assumptions particle_gc_roundtrip.

(** C11: field-line round trip.  The identity is kept; the parallel momentum is
    replaced by its sign, and mass, charge and momentum are erased. *)
Theorem particle_ml_roundtrip :
  forall p i b j q,
  ze p err = 0%Z ->
  let p' := ml_to_state (snd (state_to_ml p i b j)) j q in
  agree_r ([r; phi; z; rho] ++ identity_r ++ all_B) p' p /\
  agree_z identity_z p' p /\
  (re p' ppar = 1 /\ 0 <= re p ppar \/ re p' ppar = -1 /\ re p ppar < 0) /\
  re p' rprt = re p r /\ re p' phiprt = re p phi /\ re p' zprt = re p z /\
  (forall f, In f [p_r; p_phi; p_z; mu; zeta; mass; charge] -> re p' f = 0).
Proof. exact ml_roundtrip. Qed.
Print Assumptions particle_ml_roundtrip.

(** Loading a particle succeeds iff the state has no error and the field, psi
    and rho can be evaluated at the particle position; then the slot holds the
    marker, runs iff it has no end condition and remembers its queue index. *)
Theorem particle_load_fo :
  forall eval_B eval_psi eval_rho p i b j,
  (fst (state_to_fo eval_B eval_psi eval_rho p i b j) = 0%Z <->
     ze p err = 0%Z /\ exists B rh, fo_evals eval_B eval_psi eval_rho p B rh) /\
  (forall B rh, ze p err = 0%Z -> fo_evals eval_B eval_psi eval_rho p B rh ->
     fo_slot p i B rh (snd (state_to_fo eval_B eval_psi eval_rho p i b j)) j) /\
  others_kept j b (snd (state_to_fo eval_B eval_psi eval_rho p i b j)).
Proof.
  intros. split; [apply s2fo_iff | split; [intros; now apply s2fo_slot | apply s2fo_others]].
Qed.
Print Assumptions particle_load_fo.

Theorem particle_load_gc_ml :
  forall p i b j,
  (ze p err = 0%Z ->
     fst (state_to_gc p i b j) = 0%Z /\ gc_slot p i (snd (state_to_gc p i b j)) j /\
     fst (state_to_ml p i b j) = 0%Z /\ ml_slot p i (snd (state_to_ml p i b j)) j) /\
  others_kept j b (snd (state_to_gc p i b j)) /\ others_kept j b (snd (state_to_ml p i b j)).
Proof.
  intros. split; [intros E | split; [apply s2gc_others | apply s2ml_others]].
  destruct (s2gc_slot p i b j E), (s2ml_slot p i b j E); auto.
Qed.
Print Assumptions particle_load_gc_ml.

(** A state with an error is refused and the bundle left alone. *)
Theorem particle_load_error :
  forall eval_B eval_psi eval_rho p i b j, ze p err <> 0%Z ->
  state_to_fo eval_B eval_psi eval_rho p i b j = (ze p err, b) /\
  state_to_gc p i b j = (ze p err, b) /\ state_to_ml p i b j = (ze p err, b).
Proof. exact load_error. Qed.
Print Assumptions particle_load_error.

(** C12: particle and guiding-center errors survive. *)
Theorem particle_error_survives :
  forall eval_B eval_psi eval_rho p2g g2p ppm unphys cc b j q, bze b err j <> 0%Z ->
  ze (fo_to_state eval_B eval_psi eval_rho p2g unphys cc b j q) err = bze b err j /\
  ze (gc_to_state eval_B g2p ppm unphys b j q) err = bze b err j.
Proof. intros. split; [now apply fo2s_err | now apply gc2s_err]. Qed.
Print Assumptions particle_error_survives.

(** C12, finding: a field line's error is always erased (particle.c:1171). *)
Theorem particle_ml_error_erased :
  forall b j q, ze (ml_to_state b j q) err = 0%Z.
Proof. exact ml2s_err. Qed.
Print Assumptions particle_ml_error_erased.

(** A particle written back without error has physical guiding-center
    coordinates and field data of the guiding-center position. *)
Theorem particle_fo_writeback_consistent :
  forall eval_B eval_psi eval_rho p2g unphys cc b j q, bze b err j = 0%Z -> unphys <> 0%Z ->
  let p := fo_to_state eval_B eval_psi eval_rho p2g unphys cc b j q in
  ze p err = 0%Z ->
     0 < re p r /\ 0 <= re p mu /\ re p ppar < cc /\
     exists psi, eval_B (re p r) (re p phi) (re p z) (re p time) = (0%Z, snd (eval_B (re p r) (re p phi) (re p z) (re p time))) /\
       (forall f, In f all_B -> re p f = snd (eval_B (re p r) (re p phi) (re p z) (re p time)) f) /\
       eval_psi (re p r) (re p phi) (re p z) (re p time) = (0%Z, psi) /\ eval_rho psi = (0%Z, re p rho).
Proof. exact fo2s_err0. Qed.
Print Assumptions particle_fo_writeback_consistent.

(** A guiding center written back gains an error iff its particle position has
    R <= 0; a failed field evaluation there is not reported. *)
Theorem particle_gc_writeback_error :
  forall eval_B g2p ppm unphys b j q, bze b err j = 0%Z -> unphys <> 0%Z ->
  (ze (gc_to_state eval_B g2p ppm unphys b j q) err <> 0%Z <->
   re (gc_to_state eval_B g2p ppm unphys b j q) rprt <= 0).
Proof. exact gc2s_err0. Qed.
Print Assumptions particle_gc_writeback_error.

(** C13 *)
Theorem particle_copy_exact :
  forall p1 i p2 j,
  copied p1 i p2 (copy_fo p1 i p2 j) j fo_rfields fo_zfields /\
  copied p1 i p2 (copy_gc p1 i p2 j) j gc_rfields gc_zfields /\
  copied p1 i p2 (copy_ml p1 i p2 j) j ml_rfields ml_zfields.
Proof. intros. split; [apply copy_fo_spec | split; [apply copy_gc_spec | apply copy_ml_spec]]. Qed.
Print Assumptions particle_copy_exact.

(** C56: input markers.  Unphysical input is flagged, with the id kept. *)
Theorem particle_input_rejected :
  forall eval_B eval_psi eval_rho axis_rz p2g g2p ppm unphys atan2 conv ty en m ps,
  unphys <> 0%Z -> ~ valid_input ty en m ->
  let s := input_to_state eval_B eval_psi eval_rho axis_rz p2g g2p ppm unphys atan2 conv ty en m ps in
  ze s err = unphys /\ ze s id = ze m id /\ ze s endcond = 0%Z.
Proof. intros EB EP ER AX P G M U A. exact (input_invalid EB EP ER AX P G M U 0 A). Qed.
Print Assumptions particle_input_rejected.

(** Accepted input carries the user's values and starts fresh. *)
Theorem particle_input_p_accepted :
  forall eval_B eval_psi eval_rho axis_rz p2g g2p ppm unphys atan2 conv en m ps,
  unphys <> 0%Z ->
  let s := input_to_state eval_B eval_psi eval_rho axis_rz p2g g2p ppm unphys atan2 conv TP en m ps in
  ze s err = 0%Z ->
  valid_input TP en m /\ fresh s m /\
  (forall f, In f [p_r; p_phi; p_z; mass; charge] -> re s f = re m f) /\
  re s rprt = re m r /\ re s phiprt = re m phi /\ re s zprt = re m z /\
  ze s anum = ze m anum /\ ze s znum = ze m znum /\ 0 < re s r /\ 0 <= re s mu.
Proof. intros EB EP ER AX P G M U A. exact (input_p_accept EB EP ER AX P G M U 0 A). Qed.
Print Assumptions particle_input_p_accepted.

Theorem particle_input_gc_accepted :
  forall eval_B eval_psi eval_rho axis_rz p2g g2p ppm unphys atan2 conv en m ps,
  unphys <> 0%Z ->
  let s := input_to_state eval_B eval_psi eval_rho axis_rz p2g g2p ppm unphys atan2 conv TGC en m ps in
  ze s err = 0%Z ->
  valid_input TGC en m /\ fresh s m /\
  (forall f, In f [r; phi; z; zeta; mass; charge] -> re s f = re m f) /\
  ze s anum = ze m anum /\ ze s znum = ze m znum /\
  (exists B, eval_B (re m r) (re m phi) (re m z) (re m time) = (0%Z, B) /\
             (forall f, In f all_B -> re s f = B f) /\ conv B = (re s ppar, re s mu)) /\
  0 < re s rprt /\ 0 <= re s mu.
Proof. intros EB EP ER AX P G M U A. exact (input_gc_accept EB EP ER AX P G M U 0 A). Qed.
Print Assumptions particle_input_gc_accepted.

(** Finding: every accepted field line is traced along +B, whatever pitch the
    user gave (particle.c:1698 stores the truth value of pitch >= 0). *)
Theorem particle_input_ml_direction_lost :
  forall eval_B eval_psi eval_rho axis_rz p2g g2p ppm unphys atan2 conv en m ps i b j,
  unphys <> 0%Z ->
  let s := input_to_state eval_B eval_psi eval_rho axis_rz p2g g2p ppm unphys atan2 conv TML en m ps in
  ze s err = 0%Z ->
  fst (state_to_ml s i b j) = 0%Z /\ bre (snd (state_to_ml s i b j)) pitch j = 1.
Proof. intros EB EP ER AX P G M U A. exact (ml_direction_lost EB EP ER AX P G M U 0 A). Qed.
Print Assumptions particle_input_ml_direction_lost.

(** ** Examples *)
Definition B1 : R -> R -> R -> R -> Z * (rf -> R) := fun r phi z t => (0%Z, fun f => match f with B_phi => 5 | _ => r end).
Definition psi1 : R -> R -> R -> R -> Z * R := fun r phi z t => (0%Z, r).
Definition rho1 : R -> Z * R := fun x => (0%Z, x / 2).
Definition ax1 : R -> Z * (R * R) := fun _ => (0%Z, (6, 0)).
Definition tr1 : R -> R -> (rf -> R) -> R -> R -> R -> R -> R -> R -> R * R * R * R * R * R :=
  fun _ _ _ a b c d e f => (a + 1, b, c, d, 2, f).
Definition pm1 : R -> R -> (rf -> R) -> R -> R -> R -> R -> R * R * R := fun _ _ _ a b c d => (b, c, d).
Definition m1 : marker :=
  mkm (fun f => match f with r => 7 | rprt => 7 | weight => 3 | mass => 4 | pitch => -1 | ppar => -5 | _ => 1/2 end)
      (fun f => match f with id => 42 | err => 0 | endcond => 0 | _ => 9 end)%Z.
Definition b0 : bundle := mkb (fun _ _ => 0) (fun _ _ => 0%Z).

(** the load hypothesis holds and the round trip gives back the weight *)
Example ex_fo_load : fst (state_to_fo B1 psi1 rho1 m1 3 b0 2) = 0%Z.
Proof. reflexivity. Qed.
Example ex_fo_roundtrip :
  re (fo_to_state B1 psi1 rho1 tr1 77 100 (snd (state_to_fo B1 psi1 rho1 m1 3 b0 2)) 2 m1) weight = 3 /\
  re (fo_to_state B1 psi1 rho1 tr1 77 100 (snd (state_to_fo B1 psi1 rho1 m1 3 b0 2)) 2 m1) rprt = 7.
Proof.
  destruct (particle_fo_roundtrip B1 psi1 rho1 tr1 77%Z 100 m1 3%Z b0 2%nat m1 ex_fo_load) as [H _].
  split; [rewrite (H weight) | rewrite (H rprt)]; cbn; auto 20.
Qed.
Example ex_ml_sign :
  re (ml_to_state (snd (state_to_ml m1 3 b0 2)) 2 m1) ppar = -1.
Proof.
  destruct (particle_ml_roundtrip m1 3%Z b0 2%nat m1 eq_refl) as (_ & _ & [[_ H] | [H _]] & _); auto.
  cbn in H. lra.
Qed.
(** an error in slot 1 of a field-line bundle disappears, of a particle bundle stays *)
Definition berr : bundle := bsetz b0 1 err 5.
Example ex_err : bze berr err 1 = 5%Z /\ ze (ml_to_state berr 1 m1) err = 0%Z /\
  ze (fo_to_state B1 psi1 rho1 tr1 77 100 berr 1 m1) err = 5%Z.
Proof.
  split; [reflexivity|]. split; [reflexivity|].
  destruct (particle_error_survives B1 psi1 rho1 tr1 tr1 pm1 77%Z 100 berr 1%nat m1) as [H _]; [cbn; discriminate|].
  exact H.
Qed.
Example ex_copy : bre (copy_gc (bsetr b0 4 ppar 9) 4 b0 1) ppar 1 = 9 /\ bre (copy_gc (bsetr b0 4 ppar 9) 4 b0 1) ppar 4 = 0.
Proof. split; reflexivity. Qed.
Definition conv1 : (rf -> R) -> R * R := fun _ => (-1, 2).
(** accepted inputs exist for each kind; an input with id 0 is refused *)
Definition in1 ty m := input_to_state B1 psi1 rho1 ax1 tr1 tr1 pm1 77 (fun y x => y) conv1 ty 1 m m.
Ltac dec := repeat match goal with |- context [Rle_dec ?a ?b] => destruct (Rle_dec a b); [exfalso; lra|] end.
Example ex_in_ml : ze (in1 TML m1) err = 0%Z.
Proof. unfold in1, input_to_state, raise, leb. cbn [re m1]. dec. reflexivity. Qed.
Example ex_in_p : ze (in1 TP m1) err = 0%Z.
Proof.
  unfold in1, input_to_state, raise, leb. cbn [re m1]. dec. cbn. unfold raise, leb. dec.
  destruct (Rlt_dec 2 0); [exfalso; lra|]. reflexivity.
Qed.
Example ex_in_ml_dir : re m1 pitch = -1 /\ bre (snd (state_to_ml (in1 TML m1) 0 b0 0)) pitch 0 = 1.
Proof. split; [reflexivity|]. apply particle_input_ml_direction_lost; [discriminate | apply ex_in_ml]. Qed.
Example ex_in_bad : ze (in1 TP (setz m1 id 0)) err = 77%Z.
Proof. apply particle_input_rejected; [discriminate|]. intros (_ & _ & H & _). cbn in H. lia. Qed.
