(** C37, C38 and spline plasma: plasma profiles. *)
From Coq Require Import Reals List ZArith Bool Lra Lia.
From Verif Require Import AxisModel SplineModel SplineProofs ErrorModel PlasmaModel PlasmaProofs.
Import ListNotations.
Local Open Scope R_scope.

(** ** 1D profiles.  [inside nrho rho x] is rho[0] <= x < rho[nrho-1]. *)
Theorem plasma1D_density : forall nrho nion rho Te Ti ne ni vtor x s, (1 <= nrho)%Z -> (0 <= s <= nion)%Z ->
  let d := plasma_1D_init nrho nion rho Te Ti ne ni vtor in
  (inside nrho rho x -> exists v, plasma_1D_eval_dens d x s = Good v /\ interpolates rho nrho (dens_table nrho ne ni s) x v) /\
  (~ inside nrho rho x -> exists e, plasma_1D_eval_dens d x s = Fail e /\ e <> 0%Z).
Proof. intros nrho nion rho Te Ti ne ni vtor x s N S. apply p1_dens; lia. Qed.
Print Assumptions plasma1D_density.
Theorem plasma1D_temperature : forall nrho nion rho Te Ti ne ni vtor x s, (1 <= nrho)%Z -> (0 <= s <= nion)%Z ->
  let d := plasma_1D_init nrho nion rho Te Ti ne ni vtor in
  (inside nrho rho x -> exists v, plasma_1D_eval_temp d x s = Good v /\ interpolates rho nrho (temp_table Te Ti s) x v) /\
  (~ inside nrho rho x -> exists e, plasma_1D_eval_temp d x s = Fail e /\ e <> 0%Z).
Proof. intros nrho nion rho Te Ti ne ni vtor x s N S. apply p1_temp; lia. Qed.
Print Assumptions plasma1D_temperature.
(** evaluating everything at once gives the same numbers *)
Theorem plasma1D_joint : forall nrho nion rho Te Ti ne ni vtor x, (1 <= nrho)%Z -> (0 <= nion)%Z ->
  let d := plasma_1D_init nrho nion rho Te Ti ne ni vtor in
  (inside nrho rho x -> exists f, plasma_1D_eval_densandtemp d x = Good f /\
     forall s, (0 <= s <= nion)%Z -> plasma_1D_eval_dens d x s = Good (fst (f s)) /\ plasma_1D_eval_temp d x s = Good (snd (f s))) /\
  (~ inside nrho rho x -> exists e, plasma_1D_eval_densandtemp d x = Fail e /\ e <> 0%Z).
Proof. intros nrho nion rho Te Ti ne ni vtor x N S. apply p1_both; lia. Qed.
Print Assumptions plasma1D_joint.
(** consequences of the specification *)
Theorem profile_between_neighbours : forall g n tab x v, interpolates g n tab x v ->
  exists k, (0 <= k /\ k + 1 < n)%Z /\ g k <= x < g (k + 1)%Z /\ Rmin (tab k) (tab (k + 1)%Z) <= v <= Rmax (tab k) (tab (k + 1)%Z).
Proof. exact interpolates_between. Qed.
Print Assumptions profile_between_neighbours.
Theorem profile_exact_at_nodes : forall g n tab k v, increasing g n -> (0 <= k /\ k + 1 < n)%Z -> interpolates g n tab (g k) v -> v = tab k.
Proof. exact interpolates_node. Qed.
Print Assumptions profile_exact_at_nodes.
Theorem profile_unique : forall g n tab x v w, increasing g n -> interpolates g n tab x v -> interpolates g n tab x w -> v = w.
Proof. exact interpolates_unique. Qed.
Print Assumptions profile_unique.
(** the rotation is not interpolated: it is the value at the lower end of the cell *)
Theorem plasma1D_rotation_step : forall nrho nion rho Te Ti ne ni vtor x r old, (1 <= nrho)%Z ->
  let d := plasma_1D_init nrho nion rho Te Ti ne ni vtor in
  (inside nrho rho x -> exists k, (0 <= k /\ k + 1 < nrho)%Z /\ rho k <= x < rho (k + 1)%Z /\ plasma_1D_eval_flow d x r old = Good (0%Z, vtor k * r)) /\
  (~ inside nrho rho x -> exists e, plasma_1D_eval_flow d x r old = Good (e, old * r) /\ e <> 0%Z).
Proof. intros nrho nion rho Te Ti ne ni vtor x r old N. apply p1_flow; lia. Qed.
Print Assumptions plasma1D_rotation_step.
Theorem plasma1D_rotation_interpolated_refuted : exists nrho nion rho Te Ti ne ni vtor x r,
  let d := plasma_1D_init nrho nion rho Te Ti ne ni vtor in increasing rho nrho /\ inside nrho rho x /\
  exists v, plasma_1D_eval_flow d x r 0 = Good (0%Z, v * r) /\ ~ interpolates rho nrho vtor x v.
Proof.
  exists 2%Z, 1%Z, IZR, (fun _ => 1), (fun _ => 1), (fun _ => 1), (fun _ => 1), IZR, (1/2), 1. cbv zeta.
  assert (I : inside 2 IZR (1/2)) by (split; cbn; lra). split; [intros i A B; apply IZR_lt; lia|]. split; [exact I|].
  destruct (plasma1D_rotation_step 2 1 IZR (fun _ => 1) (fun _ => 1) (fun _ => 1) (fun _ => 1) IZR (1/2) 1 0 ltac:(lia)) as [F _]. destruct (F I) as (k & K & X & E).
  assert (k = 0%Z) by lia. subst k. exists (IZR 0). split; [exact E|]. intros (k & K' & _ & H). assert (k = 0%Z) by lia. subst k. cbn in H. lra.
Qed.
Print Assumptions plasma1D_rotation_interpolated_refuted.
Example plasma1D_example : let d := plasma_1D_init 3 1 IZR (fun k => 10 * IZR k) (fun _ => 7) (fun k => 1 + IZR k) (fun k => 2 * IZR k) (fun _ => 0) in
  plasma_1D_eval_dens d (3/2) 1 = Good 3 /\ plasma_1D_eval_temp d (3/2) 0 = Good 15 /\ exists e, plasma_1D_eval_dens d 2 0 = Fail e.
Proof.
  cbv zeta. assert (I : inside 3 IZR (3/2)) by (split; cbn; lra). assert (INC : increasing IZR 3) by (intros i A B; apply IZR_lt; lia).
  split; [|split].
  - destruct (plasma1D_density 3 1 IZR (fun k => 10 * IZR k) (fun _ => 7) (fun k => 1 + IZR k) (fun k => 2 * IZR k) (fun _ => 0) (3/2) 1) as [H _]; try lia. destruct (H I) as (v & -> & V). f_equal.
    apply (interpolates_unique _ _ _ _ _ _ INC V). exists 1%Z. split; [lia|]. split; [cbn; lra|]. cbn. lra.
  - destruct (plasma1D_temperature 3 1 IZR (fun k => 10 * IZR k) (fun _ => 7) (fun k => 1 + IZR k) (fun k => 2 * IZR k) (fun _ => 0) (3/2) 0) as [H _]; try lia. destruct (H I) as (v & -> & V). f_equal.
    apply (interpolates_unique _ _ _ _ _ _ INC V). exists 1%Z. split; [lia|]. split; [cbn; lra|]. cbn. lra.
  - destruct (plasma1D_density 3 1 IZR (fun k => 10 * IZR k) (fun _ => 7) (fun k => 1 + IZR k) (fun k => 2 * IZR k) (fun _ => 0) 2 0) as [_ H]; try lia. destruct H as (e & H & _); [|eauto].
    intros [_ L]. cbn in L. lra.
Qed.

(** ** Time-dependent profiles *)
(** [interior j t]: time j <= t < time (j+1) with j not the last interval.  What is read as
    slice j of the density of species s is [mixed_slice s j]. *)
Theorem plasma1Dt_profiles : forall nrho ntime nion rho time Te Ti ne ni vtor x t, (1 <= nrho)%Z -> (0 <= nion)%Z -> (2 <= ntime)%Z -> increasing time ntime -> inside nrho rho x ->
  let d := plasma_1Dt_init nrho ntime nion rho time Te Ti ne ni vtor in
  let dens := mixed_slice nrho ntime nion ne ni in let temp := temp_slice nrho Te Ti in
  (t < time 0%Z -> plasma_1Dt_eval_densandtemp d x t = Bad) /\
  (forall j, interior ntime time j t -> exists f, plasma_1Dt_eval_densandtemp d x t = Good f /\
     forall s, (0 <= s <= nion)%Z -> interpolates2 rho nrho time j (dens s) x t (fst (f s)) /\ interpolates2 rho nrho time j (temp s) x t (snd (f s))) /\
  (time (ntime - 2)%Z <= t -> exists f, plasma_1Dt_eval_densandtemp d x t = Good f /\
     forall s, (0 <= s <= nion)%Z -> interpolates rho nrho (dens s (ntime - 1)%Z) x (fst (f s)) /\ interpolates rho nrho (temp s (ntime - 1)%Z) x (snd (f s))).
Proof. intros. now apply dt_spec. Qed.
Print Assumptions plasma1Dt_profiles.
Theorem plasma1Dt_outside : forall nrho ntime nion rho time Te Ti ne ni vtor x t r old, (1 <= nrho)%Z -> ~ inside nrho rho x ->
  let d := plasma_1Dt_init nrho ntime nion rho time Te Ti ne ni vtor in
  (exists e, plasma_1Dt_eval_densandtemp d x t = Fail e /\ e <> 0%Z) /\ exists e, plasma_1Dt_eval_flow d x t r old = Good (e, old * r) /\ e <> 0%Z.
Proof. intros. now apply dt_outside. Qed.
Print Assumptions plasma1Dt_outside.
(** which input the evaluation reads as slice j of species s, and when it is the right one *)
Theorem plasma1Dt_density_slice : forall nrho ntime nion ne ni s j, (1 <= nrho)%Z -> (2 <= ntime)%Z -> (0 <= s <= nion)%Z -> (0 <= j < ntime)%Z ->
  exists s' j', (0 <= s' <= nion)%Z /\ (0 <= j' < ntime)%Z /\ (s' * ntime + j' = j * (nion + 1) + s)%Z /\
  (forall k, mixed_slice nrho ntime nion ne ni s j k = dens_slice nrho ntime ne ni s' j' k) /\
  ((s' = s /\ j' = j) <-> (j * nion = s * (ntime - 1))%Z).
Proof.
  intros nrho ntime nion ne ni s j N1 N3 S J. exists ((j * (nion + 1) + s) / ntime)%Z, ((j * (nion + 1) + s) mod ntime)%Z. set (q := (j * (nion + 1) + s)%Z).
  assert (Q : (0 <= q < (nion + 1) * ntime)%Z) by (unfold q; nia). pose proof (Z.div_mod q ntime ltac:(lia)) as DM. pose proof (Z.mod_pos_bound q ntime ltac:(lia)) as MB.
  split; [split; [apply Z.div_pos; lia|]; assert (q / ntime < nion + 1)%Z by (apply Z.div_lt_upper_bound; lia); lia|]. split; [lia|]. split; [lia|]. split; [reflexivity|].
  split.
  - intros [A B]. rewrite A, B in DM. unfold q in DM. nia.
  - intros H. assert (E : q = (ntime * s + j)%Z) by (unfold q; nia). rewrite E. split; [symmetry; apply (Z.div_unique _ _ s j); lia|symmetry; apply (Z.mod_unique _ _ s j); lia].
Qed.
Print Assumptions plasma1Dt_density_slice.
(** two slices, one ion species: the electron density returned is the ion density *)
Theorem plasma1Dt_density_refuted : forall rho time Te Ti vtor (n_e n_i : R) x t, increasing time 2 -> inside 3 rho x -> time 0%Z <= t ->
  exists f, plasma_1Dt_eval_densandtemp (plasma_1Dt_init 3 2 1 rho time Te Ti (fun _ => n_e) (fun _ => n_i) vtor) x t = Good f /\ fst (f 0%Z) = n_i.
Proof.
  intros rho time Te Ti vtor n_e n_i x t T I L.
  destruct (plasma1Dt_profiles 3 2 1 rho time Te Ti (fun _ => n_e) (fun _ => n_i) vtor x t) as (_ & _ & H); try lia; auto. cbn [Z.sub Z.add Z.opp Z.pos_sub Pos.pred_double] in H.
  destruct (H L) as (f & F & G). exists f. split; [exact F|]. destruct (G 0%Z ltac:(lia)) as [D _]. apply (interpolates_const rho 3 n_i x). eapply interpolates_ext; [|exact D]. intros k K. reflexivity.
Qed.
Print Assumptions plasma1Dt_density_refuted.
(** inside the last interval the last slice is returned *)
Theorem plasma1Dt_last_interval_refuted : exists rho time Te Ti ne ni vtor x t, increasing time 2 /\ inside 2 rho x /\ time 0%Z < t < time 1%Z /\
  exists f, plasma_1Dt_eval_densandtemp (plasma_1Dt_init 2 2 0 rho time Te Ti ne ni vtor) x t = Good f /\ ~ interpolates2 rho 2 time 0 (temp_slice 2 Te Ti 0) x t (snd (f 0%Z)).
Proof.
  exists IZR, IZR, (fun m => IZR (m / 2)), IZR, IZR, IZR, IZR, 0, (1/2). assert (T : increasing IZR 2) by (intros i A B; apply IZR_lt; lia). assert (I : inside 2 IZR 0) by (split; cbn; lra).
  split; [exact T|]. split; [exact I|]. split; [cbn; lra|].
  destruct (plasma1Dt_profiles 2 2 0 IZR IZR (fun m => IZR (m / 2)) IZR IZR IZR IZR 0 (1/2)) as (_ & _ & H); try lia; auto. cbn [Z.sub Z.add Z.opp Z.pos_sub Pos.pred_double] in H.
  destruct (H ltac:(cbn; lra)) as (f & F & G). exists f. split; [exact F|]. destruct (G 0%Z ltac:(lia)) as [_ D]. clear H G.
  assert (V : snd (f 0%Z) = 1). { apply (interpolates_const IZR 2 1 0). eapply interpolates_ext; [|exact D]. intros k K. unfold temp_slice. cbn [Z.eqb]. assert (k = 0 \/ k = 1)%Z as [->| ->] by lia; reflexivity. }
  rewrite V. intros (u0 & u1 & U0 & U1 & E).
  assert (u0 = 0). { apply (interpolates_const IZR 2 0 0). eapply interpolates_ext; [|exact U0]. intros k K. unfold temp_slice. cbn [Z.eqb]. assert (k = 0 \/ k = 1)%Z as [->| ->] by lia; reflexivity. }
  assert (u1 = 1). { apply (interpolates_const IZR 2 1 0). eapply interpolates_ext; [|exact U1]. intros k K. unfold temp_slice. cbn [Z.eqb]. assert (k = 0 \/ k = 1)%Z as [->| ->] by lia; reflexivity. }
  subst. cbn in E. lra.
Qed.
Print Assumptions plasma1Dt_last_interval_refuted.
(** rotation: bilinear value plus an error from exchanged weights *)
Theorem plasma1Dt_rotation : forall nrho ntime nion rho time Te Ti ne ni vtor x t r old j, (1 <= nrho)%Z -> (2 <= ntime)%Z -> increasing time ntime -> inside nrho rho x -> interior ntime time j t ->
  let d := plasma_1Dt_init nrho ntime nion rho time Te Ti ne ni vtor in let v := vtor_slice nrho vtor in
  exists k, (0 <= k /\ k + 1 < nrho)%Z /\ rho k <= x < rho (k + 1)%Z /\
  let tr := (x - rho k) / (rho (k + 1)%Z - rho k) in let tw := (t - time j) / (time (j + 1)%Z - time j) in
  plasma_1Dt_eval_flow d x t r old = Good (0%Z, (bilin (v j k) (v j (k + 1)%Z) (v (j + 1)%Z k) (v (j + 1)%Z (k + 1)%Z) tr tw
     + (tr - tw) * (v (j + 1)%Z k - v j (k + 1)%Z)) * r).
Proof. intros. now apply dt_flow. Qed.
Print Assumptions plasma1Dt_rotation.
(** the printed summary stays inside the density table only for enough data *)
Theorem plasma1Dt_init_report_in_bounds_iff : forall nrho ntime nion, (1 <= nrho)%Z -> (1 <= ntime)%Z -> (1 <= nion)%Z ->
  ((forall m, In m (plasma_1Dt_init_reads nrho ntime nion) -> (0 <= m < (nion + 1) * nrho * ntime)%Z) <-> (ntime + 4 * nrho <= nion * nrho * ntime)%Z).
Proof. exact init_reads_spec. Qed.
Print Assumptions plasma1Dt_init_report_in_bounds_iff.
(** three slices: halfway between the first two the temperature is the mean of the two *)
Example plasma1Dt_example : let d := plasma_1Dt_init 2 3 1 IZR IZR (fun m => IZR (m / 2)) (fun _ => 3) IZR IZR IZR in
  exists f, plasma_1Dt_eval_densandtemp d (1/4) (1/2) = Good f /\ snd (f 0%Z) = 1/2 /\ snd (f 1%Z) = 3.
Proof.
  cbv zeta. assert (T : increasing IZR 3) by (intros i A B; apply IZR_lt; lia). assert (I : inside 2 IZR (1/4)) by (split; cbn; lra).
  destruct (plasma1Dt_profiles 2 3 1 IZR IZR (fun m => IZR (m / 2)) (fun _ => 3) IZR IZR IZR (1/4) (1/2)) as (_ & H & _); try lia; auto.
  destruct (H 0%Z) as (f & F & G); [split; [lia|cbn; lra]|]. exists f. split; [exact F|].
  assert (C : forall c u j, (forall k, (0 <= k < 2)%Z -> temp_slice 2 (fun m => IZR (m / 2)) (fun _ => 3) 0 j k = c) -> interpolates IZR 2 (temp_slice 2 (fun m => IZR (m / 2)) (fun _ => 3) 0 j) (1/4) u -> u = c).
  { intros c u j E U. apply (interpolates_const IZR 2 c (1/4)). eapply interpolates_ext; [|exact U]. exact E. }
  destruct (G 0%Z ltac:(lia)) as [_ (u0 & u1 & U0 & U1 & E)]. destruct (G 1%Z ltac:(lia)) as [_ (w0 & w1 & W0 & W1 & E')].
  apply (interpolates_const IZR 2 3) in W0. apply (interpolates_const IZR 2 3) in W1. subst w0 w1.
  apply (C 0) in U0; [|intros k K; assert (k = 0 \/ k = 1)%Z as [->| ->] by lia; reflexivity]. apply (C 1) in U1; [|intros k K; assert (k = 0 \/ k = 1)%Z as [->| ->] by lia; reflexivity]. subst.
  cbn in E, E'. lra.
Qed.

(** ** Spline profiles: positive, exact at the grid, defined on the closed interval *)
Theorem plasma1DS_profiles : forall junk nrho nion rhomin rhomax Te Ti ne vtor ni, (2 <= nrho)%nat -> rhomin < rhomax ->
  exists d, plasma_1DS_init junk nrho rhomin rhomax nion Te Ti ne ni vtor = Some d /\
  (forall s, (0 <= s <= Z.of_nat nion)%Z -> exists Fn Ft, log_spline nrho rhomin rhomax (dens_tab ne ni s) Fn /\ log_spline nrho rhomin rhomax (temp_tab Te Ti s) Ft /\
     (forall x, rhomin <= x <= rhomax -> plasma_1DS_eval_dens d x s = Good (exp (Fn x)) /\ plasma_1DS_eval_temp d x s = Good (exp (Ft x)) /\
        exists f, plasma_1DS_eval_densandtemp d x = Good f /\ f s = (exp (Fn x), exp (Ft x)))) /\
  (forall s x, (0 <= s <= Z.of_nat nion)%Z -> ~ (rhomin <= x <= rhomax) -> exists e1 e2 e3, e1 <> 0%Z /\ e2 <> 0%Z /\ e3 <> 0%Z /\
      plasma_1DS_eval_dens d x s = Fail e1 /\ plasma_1DS_eval_temp d x s = Fail e2 /\ plasma_1DS_eval_densandtemp d x = Fail e3) /\
  (exists F F1 F2, spline_interpolant nrho NATURALBC rhomin rhomax vtor F F1 F2 /\ forall x r old, (rhomin <= x <= rhomax -> plasma_1DS_eval_flow d x r old = Good (0%Z, F x * r)) /\
      (~ (rhomin <= x <= rhomax) -> plasma_1DS_eval_flow d x r old = Good (0%Z, old * r))).
Proof. intros. now apply ds_spec. Qed.
Print Assumptions plasma1DS_profiles.
Theorem plasma1DS_exact_at_nodes : forall nrho rhomin rhomax tab F k, log_spline nrho rhomin rhomax tab F -> (k < nrho)%nat -> 0 < tab k ->
  exp (F (rhomin + INR k * ((rhomax - rhomin) / INR (nrho - 1)))) = tab k.
Proof. exact log_spline_node. Qed.
Print Assumptions plasma1DS_exact_at_nodes.
(** constant profiles come back as they are at the nodes; outside the grid the rotation is
    reported as a success with whatever was in the output *)
Example plasma1DS_example : exists d, plasma_1DS_init (fun _ => 0) 5 0 4 1 (fun _ => 2) (fun _ => 3) (fun _ => 5) (fun _ _ => 7) (fun _ => 1) = Some d /\
  plasma_1DS_eval_dens d 3 1 = Good 7 /\ plasma_1DS_eval_temp d 2 0 = Good 2 /\ plasma_1DS_eval_flow d 9 2 11 = Good (0%Z, 22).
Proof.
  destruct (plasma1DS_profiles (fun _ => 0) 5 1 0 4 (fun _ => 2) (fun _ => 3) (fun _ => 5) (fun _ => 1) (fun _ _ => 7)) as (d & D & P & _ & Q); [lia|lra|]. exists d. split; [exact D|]. split; [|split].
  - destruct (P 1%Z ltac:(lia)) as (Fn & Ft & A & B & C). destruct (C 3) as (-> & _ & _); [lra|]. f_equal. pose proof (plasma1DS_exact_at_nodes _ _ _ _ _ 3 A ltac:(lia)) as E. cbn in E.
    rewrite <- E by lra. f_equal. f_equal. lra.
  - destruct (P 0%Z ltac:(lia)) as (Fn & Ft & A & B & C). destruct (C 2) as (_ & -> & _); [lra|]. f_equal. pose proof (plasma1DS_exact_at_nodes _ _ _ _ _ 2 B ltac:(lia)) as E. cbn in E.
    rewrite <- E by lra. f_equal. f_equal. lra.
  - destruct Q as (F & _ & _ & _ & Q). destruct (Q 9 2 11) as [_ ->]; [f_equal; f_equal; lra|lra].
Qed.

(** ** Dispatch: a failure is reported with the default values, a success carries the
    type-specific value *)
Theorem plasma_temperature_dispatch : forall p x t s old e v, p <> Tother -> plasma_eval_temp p x t s old = Good (e, v) ->
  (e = 0%Z /\ temp_of p x t s = Good v) \/ (e <> 0%Z /\ temp_of p x t s = Fail e /\ v = 1e20).
Proof. exact temp_dispatch. Qed.
Print Assumptions plasma_temperature_dispatch.
Theorem plasma_density_dispatch : forall p x t s old e v, p <> Tother -> plasma_eval_dens p x t s old = Good (e, v) ->
  (e = 0%Z /\ dens_of p x t s = Good v) \/ (e <> 0%Z /\ dens_of p x t s = Fail e /\ v = 1e20).
Proof. exact dens_dispatch. Qed.
Print Assumptions plasma_density_dispatch.
Theorem plasma_joint_dispatch : forall p x t e f, plasma_eval_densandtemp p x t = Good (e, f) ->
  (e = 0%Z /\ p <> Tother /\ both_of p x t = Good f) \/ (e <> 0%Z /\ (forall s, f s = (1e20, 1e3)) /\ (p = Tother \/ both_of p x t = Fail e)).
Proof. exact both_dispatch. Qed.
Print Assumptions plasma_joint_dispatch.
Theorem plasma_flow_dispatch : forall p x t r old e v, plasma_eval_flow p x t r old = Good (e, v) -> e <> 0%Z -> v = 0.
Proof. exact flow_dispatch. Qed.
Print Assumptions plasma_flow_dispatch.
(** an unknown plasma type: density alone and temperature alone report success and return
    nothing, the joint evaluation reports an error *)
Theorem plasma_unknown_type_refuted : forall x t s old, plasma_eval_temp Tother x t s old = Good (0%Z, old) /\ plasma_eval_dens Tother x t s old = Good (0%Z, old) /\
  exists e f, plasma_eval_densandtemp Tother x t = Good (e, f) /\ e <> 0%Z.
Proof.
  intros x t s old. split; [reflexivity|]. split; [reflexivity|]. eexists _, _. split; [reflexivity|]. apply ErrorProofs.raise_nonzero. lia.
Qed.
Print Assumptions plasma_unknown_type_refuted.
(** spline rotation outside the grid is reported as a success *)
Theorem plasma_spline_rotation_error_refuted : exists d, forall x t r old, ~ (0 <= x <= 1) -> plasma_eval_flow (T1DS d) x t r old = Good (0%Z, old * r).
Proof.
  destruct (plasma1DS_profiles (fun _ => 0) 2 0 0 1 (fun _ => 1) (fun _ => 1) (fun _ => 1) (fun _ => 1) (fun _ _ => 1)) as (d & _ & _ & _ & F & _ & _ & _ & Q); [lia|lra|].
  exists d. intros x t r old X. unfold plasma_eval_flow. cbv zeta. destruct (Q x r old) as [_ H]. rewrite H by auto. reflexivity.
Qed.
Print Assumptions plasma_spline_rotation_error_refuted.
