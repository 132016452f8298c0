(** C39: neutral inputs. *)
From Coq Require Import Reals List ZArith Bool Lra Lia.
From Verif Require Import AxisModel AxisProofs LintModel LintProofs ErrorModel ErrorProofs PlasmaProofs NeutralModel NeutralProofs.
Import ListNotations.
Local Open Scope R_scope.

(** species s of the input starts at entry s * n; the values returned are those of the first
    species whatever s is *)
Theorem neutral1D_values : forall n mn mx nsp density temperature rho old, (2 <= n)%Z -> mn < mx -> mn <= rho < mx ->
  let d := N0_1D_init n mn mx nsp density temperature in
  exists f g, N0_1D_eval_n0 d rho old = Some (0%Z, f) /\ N0_1D_eval_t0 d rho old = Some (0%Z, g) /\
  forall s, (s < nsp)%nat -> interpolates (ugrid n mn mx) n density rho (f s) /\ interpolates (ugrid n mn mx) n temperature rho (g s).
Proof. intros n mn mx nsp density temperature rho old N M X. exact (n1_in n mn mx nsp density temperature N M rho old X). Qed.
Print Assumptions neutral1D_values.
Theorem neutral1D_outside : forall n mn mx nsp density temperature rho old, (2 <= n)%Z -> mn < mx -> (0 < nsp)%nat -> ~ (mn <= rho <= mx) ->
  let d := N0_1D_init n mn mx nsp density temperature in
  (exists e f, N0_1D_eval_n0 d rho old = Some (e, f) /\ e <> 0%Z /\ forall i, f i = old i) /\ exists e f, N0_1D_eval_t0 d rho old = Some (e, f) /\ e <> 0%Z /\ forall i, f i = old i.
Proof. intros n mn mx nsp density temperature rho old N M P X. exact (n1_out n mn mx nsp density temperature N M rho old P X). Qed.
Print Assumptions neutral1D_outside.
(** exactly at the upper end the evaluation reads past the table *)
Theorem neutral1D_upper_end_refuted : forall n mn mx nsp density temperature old, (2 <= n)%Z -> mn < mx -> (0 < nsp)%nat ->
  let d := N0_1D_init n mn mx nsp density temperature in N0_1D_eval_n0 d mx old = None /\ N0_1D_eval_t0 d mx old = None.
Proof. intros n mn mx nsp density temperature old N M P. exact (n1_end n mn mx nsp density temperature N M old P). Qed.
Print Assumptions neutral1D_upper_end_refuted.
Theorem neutral3D_values : forall nr nphi nz rmn rmx pmn pmx zmn zmx nsp density temperature r phi z old,
  (2 <= nr)%Z -> (1 <= nphi)%Z -> (2 <= nz)%Z -> rmn < rmx -> pmn < pmx -> zmn < zmx -> rmn <= r < rmx -> zmn <= z < zmx ->
  let d := N0_3D_init nr rmn rmx nphi pmn pmx nz zmn zmx nsp density temperature in
  let tri := fun tab => trilinear (mk_axis nr NATURALBC rmn rmx) (mk_axis nphi PERIODICBC pmn pmx) (mk_axis nz NATURALBC zmn zmx) (entry nr nz tab) r phi z in
  exists f g, N0_3D_eval_n0 d r phi z old = Some (0%Z, f) /\ N0_3D_eval_t0 d r phi z old = Some (0%Z, g) /\
  forall s, (s < nsp)%nat -> tri density (f s) /\ tri temperature (g s).
Proof. intros nr nphi nz rmn rmx pmn pmx zmn zmx nsp density temperature r phi z old A B C D E F X Z. exact (n3_in nr nphi nz rmn rmx pmn pmx zmn zmx nsp density temperature A B C D E F r phi z old X Z). Qed.
Print Assumptions neutral3D_values.
Theorem neutral3D_outside : forall nr nphi nz rmn rmx pmn pmx zmn zmx nsp density temperature r phi z old,
  (2 <= nr)%Z -> (1 <= nphi)%Z -> (2 <= nz)%Z -> rmn < rmx -> pmn < pmx -> zmn < zmx -> (0 < nsp)%nat -> ~ (rmn <= r <= rmx) \/ ~ (zmn <= z <= zmx) ->
  let d := N0_3D_init nr rmn rmx nphi pmn pmx nz zmn zmx nsp density temperature in
  (exists e f, N0_3D_eval_n0 d r phi z old = Some (e, f) /\ e <> 0%Z /\ forall i, f i = old i) /\ exists e f, N0_3D_eval_t0 d r phi z old = Some (e, f) /\ e <> 0%Z /\ forall i, f i = old i.
Proof. intros nr nphi nz rmn rmx pmn pmx zmn zmx nsp density temperature r phi z old A B C D E F P X. exact (n3_out nr nphi nz rmn rmx pmn pmx zmn zmx nsp density temperature A B C D E F r phi z old P X). Qed.
Print Assumptions neutral3D_outside.
(** two species with densities 1 and 2: the second one comes back as 1 *)
Theorem neutral1D_second_species_refuted : exists n mn mx density temperature rho old f, mn <= rho < mx /\
  N0_1D_eval_n0 (N0_1D_init n mn mx 2 density temperature) rho old = Some (0%Z, f) /\ ~ interpolates (ugrid n mn mx) n (fun k => density (1 * n + k)%Z) rho (f 1%nat).
Proof.
  set (dens := fun m => if (m <? 3)%Z then 1 else 2).
  destruct (neutral1D_values 3 0 1 2 dens dens (1/3) (fun _ => 0)) as (f & g & F & _ & H); [lia|lra|lra|].
  exists 3%Z, 0, 1, dens, dens, (1/3), (fun _ => 0), f. split; [lra|]. split; [exact F|]. intros C. destruct (H 1%nat ltac:(lia)) as [A _].
  assert (f 1%nat = 1). { apply (interpolates_const (ugrid 3 0 1) 3 1 (1/3)). eapply interpolates_ext; [|exact A]. intros k K. unfold dens. assert (E : (k <? 3)%Z = true) by (apply Z.ltb_lt; lia). now rewrite E. }
  assert (f 1%nat = 2). { apply (interpolates_const (ugrid 3 0 1) 3 2 (1/3)). eapply interpolates_ext; [|exact C]. intros k K. unfold dens. assert (E : (1 * 3 + k <? 3)%Z = false) by (apply Z.ltb_ge; lia). now rewrite E. }
  lra.
Qed.
Print Assumptions neutral1D_second_species_refuted.
(** memory: the release is right exactly for at most one species; otherwise the tables of the
    first species are freed once per species and the others never *)
Theorem neutral_free_iff : forall n, releases (init_mallocs n) (free_calls n (init_blocks n)) <-> (n <= 1)%nat.
Proof. exact free_iff. Qed.
Print Assumptions neutral_free_iff.
Theorem neutral_free_counts : forall n i, (i < n)%nat -> count_occ Nat.eq_dec (free_calls n (init_blocks n)) (b_n0c (init_blocks n) i) = (if (i =? 0)%nat then n else 0)%nat.
Proof. exact free_count. Qed.
Print Assumptions neutral_free_counts.
(** dispatch: on an error only the first species gets the default *)
Theorem neutral_n0_default : forall nd rho r phi z old e f, neutral_eval_n0 nd rho r phi z old = Some (e, f) -> e <> 0%Z -> f 0%nat = 0.
Proof. intros nd rho r phi z old e f H E. apply first_default_spec in H. destruct H as (f0 & _ & [[A _]|(_ & A & _)]); tauto. Qed.
Print Assumptions neutral_n0_default.
Theorem neutral_t0_default : forall nd rho r phi z old e f, neutral_eval_t0 nd rho r phi z old = Some (e, f) -> e <> 0%Z -> f 0%nat = 1.
Proof. intros nd rho r phi z old e f H E. apply first_default_spec in H. destruct H as (f0 & _ & [[A _]|(_ & A & _)]); tauto. Qed.
Print Assumptions neutral_t0_default.
Theorem neutral_default_others_refuted : forall old, exists nd rho r phi z e f, (neutral_get_n_species nd = 2)%nat /\ neutral_eval_n0 nd rho r phi z old = Some (e, f) /\ e <> 0%Z /\ f 1%nat = old 1%nat.
Proof.
  intros old. destruct (neutral1D_outside 2 0 1 2 (fun _ => 1) (fun _ => 1) 5 old) as [(e & f & E & NZ & F) _]; [lia|lra|lia|lra|].
  eexists (Nt1D (N0_1D_init 2 0 1 2 (fun _ => 1) (fun _ => 1))), 5, 0, 0, 0, e, _. split; [reflexivity|]. split; [unfold neutral_eval_n0; rewrite E; reflexivity|]. split; [exact NZ|].
  apply Z.eqb_neq in NZ. rewrite NZ. cbn. apply F.
Qed.
Print Assumptions neutral_default_others_refuted.
Theorem neutral_success_dispatch : forall nd rho r phi z old f, neutral_eval_n0 nd rho r phi z old = Some (0%Z, f) ->
  match nd with Nt1D d => N0_1D_eval_n0 d rho old = Some (0%Z, f) | Nt3D d => N0_3D_eval_n0 d r phi z old = Some (0%Z, f) | Ntother => False end.
Proof.
  intros nd rho r phi z old f H. apply first_default_spec in H. destruct H as (f0 & H & [[_ ->]|(C & _)]); [|congruence]. destruct nd; auto. injection H as H _.
  revert H. apply raise_nonzero. lia.
Qed.
Print Assumptions neutral_success_dispatch.
Example neutral1D_example : exists f g, N0_1D_eval_n0 (N0_1D_init 3 0 4 1 (fun k => 10 * IZR k) (fun _ => 7)) 3 (fun _ => 0) = Some (0%Z, f) /\
  N0_1D_eval_t0 (N0_1D_init 3 0 4 1 (fun k => 10 * IZR k) (fun _ => 7)) 3 (fun _ => 0) = Some (0%Z, g) /\ f 0%nat = 15 /\ g 0%nat = 7.
Proof.
  destruct (neutral1D_values 3 0 4 1 (fun k => 10 * IZR k) (fun _ => 7) 3 (fun _ => 0)) as (f & g & F & G & H); [lia|lra|lra|]. exists f, g. split; [exact F|]. split; [exact G|].
  destruct (H 0%nat ltac:(lia)) as [A B]. split; [|now apply interpolates_const in B].
  eapply (interpolates_unique _ _ _ _ _ _ _ A). exists 1%Z. split; [lia|]. unfold ugrid. cbn. split; lra.
  Unshelve. intros i P Q. unfold ugrid. cbn. assert (IZR i < IZR (i + 1)) by (apply IZR_lt; lia). lra.
Qed.
