(** Properties of the fusion reactions and the fusion source (src/boschhale.c, src/afsi.c). *)
From Coq Require Import Reals Lra Lia ZArith List Bool.
From Verif Require Import Vec PhysModel PhysProofs StepFoProofs AtomModel AtomProofs DistModel DistProofs AfsiModel AfsiProofs.
Import ListNotations.
Local Open Scope R_scope.

(** C45. *)
Theorem fusion_products_cm : forall m1 m2 mp1 mp2 Q v1 v2 u3 u4 w1 w2, 0 < m1 -> 0 < m2 -> 0 < mp1 -> 0 < mp2 -> 0 <= Q + cm_energy m1 m2 v1 v2 -> 0 <= u4 <= 1 ->
  product_velocities m1 m2 mp1 mp2 Q v1 v2 u3 u4 = (w1, w2) ->
  let c := vcm m1 m2 v1 v2 in
  vadd (vscal mp1 (vsub w1 c)) (vscal mp2 (vsub w2 c)) = vzero /\
  kin mp1 (vsub w1 c) + kin mp2 (vsub w2 c) = Q + cm_energy m1 m2 v1 v2 /\
  vsub w2 c = vscal (norm (vsub w2 c)) (V (sqrt (1 - (2 * u4 - 1) * (2 * u4 - 1)) * cos (2 * PI * u3)) (sqrt (1 - (2 * u4 - 1) * (2 * u4 - 1)) * sin (2 * PI * u3)) (2 * u4 - 1)).
Proof. exact products. Qed.
Print Assumptions fusion_products_cm.
Theorem fusion_cm_energy : forall m1 m2 v1 v2, 0 < m1 -> 0 < m2 -> cm_energy m1 m2 v1 v2 = 0.5 * (m1 * m2) / (m1 + m2) * vcom2 v1 v2.
Proof. exact cm_energy_reduced. Qed.
Print Assumptions fusion_cm_energy.
Theorem fusion_lab_momentum : forall m1 m2 mp1 mp2 Q v1 v2 u3 u4 w1 w2, 0 < m1 -> 0 < m2 -> 0 < mp1 -> 0 < mp2 -> 0 <= Q + cm_energy m1 m2 v1 v2 -> 0 <= u4 <= 1 ->
  product_velocities m1 m2 mp1 mp2 Q v1 v2 u3 u4 = (w1, w2) ->
  vsub (vadd (vscal m1 v1) (vscal m2 v2)) (vadd (vscal mp1 w1) (vscal mp2 w2)) = vscal (m1 + m2 - mp1 - mp2) (vcm m1 m2 v1 v2).
Proof. exact lab_momentum. Qed.
Print Assumptions fusion_lab_momentum.
(** finding: the mass defect makes the laboratory momentum differ unless the centre of mass is at rest *)
Theorem fusion_lab_momentum_iff : forall r v1 v2 u3 u4 w1 w2, 0 <= u4 <= 1 -> let s := boschhale_reaction r in
  product_velocities (rm1 s) (rm2 s) (pm1 s) (pm2 s) (qval s) v1 v2 u3 u4 = (w1, w2) ->
  (vadd (vscal (pm1 s) w1) (vscal (pm2 s) w2) = vadd (vscal (rm1 s) v1) (vscal (rm2 s) v2) <-> vcm (rm1 s) (rm2 s) v1 v2 = vzero).
Proof. exact lab_momentum_iff. Qed.
Print Assumptions fusion_lab_momentum_iff.
Theorem fusion_reactant_speed : forall m ppar pperp u, m <> 0 -> dot (vreact m ppar pperp u) (vreact m ppar pperp u) = (ppar * ppar + pperp * pperp) / (m * m).
Proof. exact react_speed. Qed.
Print Assumptions fusion_reactant_speed.
Theorem fusion_product_momentum : forall m v, 0 < m -> let c := product_coords PPARPPERP m v in fst c = m * vz v /\ 0 <= snd c /\ fst c * fst c + snd c * snd c = m * m * dot v v.
Proof. exact coords_pp. Qed.
Print Assumptions fusion_product_momentum.
(** finding: the stored energy mixes a relativistic formula with the classical speed *)
Theorem fusion_product_energy_pitch : forall m v, 0 < m -> 0 < norm v < CONST_C -> let c := product_coords EKINXI m v in -1 <= snd c <= 1 /\ kin m v < fst c.
Proof. exact coords_ex. Qed.
Print Assumptions fusion_product_energy_pitch.
(** two deuterons at rest: the products fly apart along the axis with the momentum of the
    released energy *)
Example products_example : forall Q, 0 <= Q -> exists k, 0 <= k /\ k * k = Q / 3 /\ product_velocities 2 2 1 2 Q vzero vzero 0 1 = (V 0 0 (-2 * k), V 0 0 k).
Proof.
  intros Q HQ. exists (sqrt (Q / 3)). split; [apply sqrt_pos|]. split; [apply sqrt_sqrt; lra|]. unfold product_velocities, vzero. cbn [vx vy vz].
  replace (2 * (1 - 0.5)) with 1 by lra. rewrite acos_1, sin_0, cos_0. replace ((2 * 0 + 2 * 0) / (2 + 2)) with 0 by field.
  match goal with |- context [sqrt ?x] => replace x with (Q / 3) by lra end. f_equal; apply f_equal3; field.
Qed.

(** C46. *)
Theorem beam_sampler_parallel_exact : forall n1 n2, (0 < n1)%nat -> (0 < n2)%nat ->
  ((forall a b, (a < n1)%nat -> (b < n2)%nat -> decode PPARPPERP n1 n2 (a * n2 + b) = (a, b)) <-> n1 = n2).
Proof. exact decode_pp. Qed.
Print Assumptions beam_sampler_parallel_exact.
Theorem beam_sampler_parallel_cell : forall n1 n2 a b, (b < n2)%nat -> snd (decode PPARPPERP n1 n2 (a * n2 + b)) = b /\
  (decode PPARPPERP n1 n2 (a * n2 + b) = (a, b) <-> ((a * n2 + b) / n1 = (a * n2 + b) / n2)%nat).
Proof. exact decode_pp_cell. Qed.
Print Assumptions beam_sampler_parallel_cell.
Theorem beam_sampler_energy_refuted : forall n1 n2, (0 < n1)%nat -> (0 < n2)%nat ->
  ((forall a b, (a < n1)%nat -> (b < n2)%nat -> decode EKINXI n1 n2 (a * n2 + b) = (a, b)) <-> n1 = 1%nat /\ n2 = 1%nat).
Proof. exact decode_ex. Qed.
Print Assumptions beam_sampler_energy_refuted.
Theorem beam_sampler_outside : forall a1 a2, amin a1 < amax a1 -> amin a2 < amax a2 -> (0 < an a1)%Z -> (0 < an a2)%Z ->
  let n1 := Z.to_nat (an a1) in let n2 := Z.to_nat (an a2) in
  ((an a2 < an a1)%Z -> exists j, (j < n1 * n2)%nat /\ amax a2 < centre a2 (snd (decode EKINXI n1 n2 j))) /\
  ((an a1 < an a2)%Z -> exists j, (j < n1 * n2)%nat /\ amax a1 < centre a1 (fst (decode PPARPPERP n1 n2 j))).
Proof. exact decode_outside. Qed.
Print Assumptions beam_sampler_outside.
Theorem beam_sampler_cells : forall h b cp1 cp2 i0 i1 i2, let n1 := Z.to_nat (an (h_ax h cp1)) in let n2 := Z.to_nat (an (h_ax h cp2)) in
  length (cell_bins h b cp1 cp2 i0 i1 i2) = (n1 * n2)%nat /\
  forall k1 k2, (k1 < n1)%nat -> (k2 < n2)%nat -> nth (k1 * n2 + k2) (cell_bins h b cp1 cp2 i0 i1 i2) 0 = b (beam_index h cp1 cp2 i0 i1 i2 (Z.of_nat k1) (Z.of_nat k2)).
Proof. exact cell_bins_at. Qed.
Print Assumptions beam_sampler_cells.
Theorem beam_sampler_law : forall bins j, Forall (fun x => 0 <= x) bins -> 0 < sumR bins -> (j < length bins)%nat ->
  exactly_on (fun u => sample_cell bins u = Some j) (sumR (firstn j bins) / sumR bins) (sumR (firstn (S j) bins) / sumR bins).
Proof. exact sample_law. Qed.
Print Assumptions beam_sampler_law.
Theorem beam_sampler_found : forall bins u, Forall (fun x => 0 <= x) bins -> 0 < sumR bins -> 0 <= u <= 1 ->
  (sample_cell bins u = None <-> u = 1) /\ forall j, sample_cell bins u = Some j -> 0 < nth j bins 0.
Proof. exact sample_found. Qed.
Print Assumptions beam_sampler_found.
Theorem beam_sampler_density : forall vol l, cell_density vol l = sumR l / vol.
Proof. exact density_sum. Qed.
Print Assumptions beam_sampler_density.
Theorem beam_sampler_energy_momentum : forall m a1 a2 k, 0 < m -> 0 <= centre a1 (fst k) -> -1 <= centre a2 (snd k) <= 1 -> let p := beam_momentum EKINXI m a1 a2 k in
  let pn := sqrt (fst p * fst p + snd p * snd p) in Ekin_pnorm m pn = centre a1 (fst k) /\ fst p = centre a2 (snd k) * pn.
Proof. exact beam_momentum_ex. Qed.
Print Assumptions beam_sampler_energy_momentum.
Theorem beam_sampler_position : forall h cp1 cp2 s i0 i1 i2 ip1 ip2, beam_axes h = Some (cp1, cp2, s) ->
  beam_index h cp1 cp2 i0 i1 i2 ip1 ip2 = hist_index h (digits_of [(0%nat, i0); (1%nat, i1); (2%nat, i2); (cp1, ip1); (cp2, ip2)]).
Proof. exact beam_position. Qed.
Print Assumptions beam_sampler_position.
(** finding: read outside the array for flux-coordinate histograms *)
Theorem beam_sampler_flux_outside : forall req i0 i1 i2 ip1 ip2 cp1 cp2, NoDup (map fst req) -> (forall p, In p req -> (0 < an (snd p))%Z) ->
  an (h_ax (hist_init req) 0) = 0%Z -> (1 <= i0)%Z -> (0 <= i1)%Z -> (0 <= i2)%Z -> (0 <= ip1)%Z -> (0 <= ip2)%Z ->
  (h_nbin (hist_init req) <= beam_index (hist_init req) cp1 cp2 i0 i1 i2 ip1 ip2)%Z.
Proof. exact flux_beam_outside. Qed.
Print Assumptions beam_sampler_flux_outside.
(** a 3 by 2 momentum grid: the cell (1, 0), stored at 2, is taken for the cell (0, 0); an
    energy-pitch grid of the same shape puts it in pitch bin 1 *)
Example decode_example : decode PPARPPERP 3 2 2 = (0, 0)%nat /\ decode EKINXI 3 2 2 = (0, 1)%nat /\ decode EKINXI 3 2 5 = (1, 2)%nat.
Proof. repeat split. Qed.
Example sample_example : sample_cell [1; 0; 3] (/ 2) = Some 2%nat /\ sample_cell [1; 0; 3] (/ 8) = Some 0%nat /\ sample_cell [1; 0; 3] 1 = None.
Proof.
  assert (F : Forall (fun x => 0 <= x) [1; 0; 3]) by (repeat constructor; lra). assert (T : sumR [1; 0; 3] = 4) by (unfold sumR; cbn [fold_right]; ring).
  split; [|split].
  - apply sample_law; auto; try (rewrite T); try (cbn; lia); try lra. cbn [firstn]. unfold sumR. cbn [fold_right]. lra.
  - apply sample_law; auto; try (rewrite T); try (cbn; lia); try lra. cbn [firstn]. unfold sumR. cbn [fold_right]. lra.
  - apply sample_found; auto; try (rewrite T); try lra.
Qed.

(** C47. *)
Theorem reaction_charge : forall r, let s := boschhale_reaction r in rq1 s + rq2 s = pq1 s + pq2 s.
Proof. exact charge_conserved. Qed.
Print Assumptions reaction_charge.
Theorem reaction_nucleons : forall r, let s := boschhale_reaction r in (nucleons (rm1 s) + nucleons (rm2 s) = nucleons (pm1 s) + nucleons (pm2 s))%Z.
Proof. exact nucleons_conserved. Qed.
Print Assumptions reaction_nucleons.
Theorem reaction_energy : forall r, let s := boschhale_reaction r in Rabs (qval s - (rm1 s + rm2 s - pm1 s - pm2 s) * CONST_C2) < 0.8e6 * CONST_E.
Proof. exact q_value. Qed.
Print Assumptions reaction_energy.
Theorem cross_section_sign : forall r E, let k := E / (1e3 * CONST_E) in
  (k <= threshold_keV r -> boschhale_sigma r E = 0) /\ (threshold_keV r < k -> 0 < boschhale_sigma r E).
Proof. exact sigma_sign. Qed.
Print Assumptions cross_section_sign.
Theorem cross_section_zero_iff : forall r E, boschhale_sigma r E = 0 <-> E <= threshold_keV r * (1e3 * CONST_E).
Proof. exact sigma_zero_iff. Qed.
Print Assumptions cross_section_zero_iff.
Theorem cross_section_fit : forall r E E2, 0 < E -> E2 = (if Rlt_dec (Emax (sigma_fit r E)) E then Emax (sigma_fit r E) else E) ->
  den (sigma_fit r E) E2 <> 0 /\ 0 < num (sigma_fit r E) E2 / den (sigma_fit r E) E2.
Proof. exact fit_positive. Qed.
Print Assumptions cross_section_fit.
Theorem reactivity_positive : forall junk r T, 0 < T <= 100 -> 0 < theta_of (sigmav_fit r) T /\ 0 < boschhale_sigmav junk r T.
Proof. exact sigmav_pos. Qed.
Print Assumptions reactivity_positive.
Example sigma_example : boschhale_sigma DT_He4n (0.4e3 * CONST_E) = 0 /\ 0 < boschhale_sigma DT_He4n (64e3 * CONST_E) /\ 0 < boschhale_sigma DHe3_He4p (0.4e3 * CONST_E) /\ 0 < boschhale_sigma DD_Tp (1e9 * CONST_E).
Proof.
  pose proof E_pos as P.
  assert (K : forall a, a * CONST_E / (1e3 * CONST_E) = a / 1e3) by (intros; field; lra).
  split; [apply sigma_sign; rewrite K; cbn; lra|]. split; [apply sigma_sign; rewrite K; cbn; lra|]. split; apply sigma_sign; rewrite K; cbn; lra.
Qed.

(** C78. *)
Theorem fusion_deposit : forall h c0 c1 c2 cp1 cp2 s i0 i1 i2 b x1 x2 w, prod_axes h = Some (c0, c1, c2, cp1, cp2, s) ->
  let a1 := h_ax h cp1 in let a2 := h_ax h cp2 in
  amin a1 < amax a1 -> amin a2 < amax a2 -> (0 < an a1)%Z -> (0 < an a2)%Z ->
  (amin a1 <= x1 < amax a1 /\ amin a2 <= x2 < amax a2 -> exists k1 k2, (0 <= k1 < an a1)%Z /\ (0 <= k2 < an a2)%Z /\
     amin a1 + IZR k1 * width a1 <= x1 < amin a1 + IZR (k1 + 1) * width a1 /\ amin a2 + IZR k2 * width a2 <= x2 < amin a2 + IZR (k2 + 1) * width a2 /\
     deposit h c0 c1 c2 cp1 cp2 i0 i1 i2 b x1 x2 w = addto b (hist_index h (digits_of [(c0, i0); (c1, i1); (c2, i2); (cp1, k1); (cp2, k2)])) w) /\
  (~ (amin a1 <= x1 < amax a1 /\ amin a2 <= x2 < amax a2) -> deposit h c0 c1 c2 cp1 cp2 i0 i1 i2 b x1 x2 w = b).
Proof. exact deposit_spec. Qed.
Print Assumptions fusion_deposit.
Theorem fusion_deposit_position : forall h c0 c1 c2 cp1 cp2 s i0 i1 i2 ip1 ip2, prod_axes h = Some (c0, c1, c2, cp1, cp2, s) ->
  (i0 * h_stride h c0 + i1 * h_stride h c1 + i2 * h_stride h c2 + ip1 * h_stride h cp1 + ip2 * h_stride h cp2)%Z =
  hist_index h (digits_of [(c0, i0); (c1, i1); (c2, i2); (cp1, ip1); (cp2, ip2)]).
Proof. exact product_position. Qed.
Print Assumptions fusion_deposit_position.
Theorem fusion_thermal : forall ti m u1 u2 u3 u4, 0 <= ti -> 0 <= m -> 0 < u1 <= 1 -> 0 < u2 <= 1 -> 0 <= u4 <= 1 ->
  let p := thermal_momentum ti m u1 u2 u3 u4 in
  let E := - ti * (ln u1 + ln u2 * (cos (u3 * PI / 2) * cos (u3 * PI / 2))) in
  0 <= E /\ fst p * fst p + snd p * snd p = 2 * m * E /\ 0 <= snd p /\ fst p = (1 - 2 * u4) * sqrt (2 * m * E).
Proof. exact thermal_spec. Qed.
Print Assumptions fusion_thermal.
Theorem fusion_rate : forall r m1 m2 d1 d2 v1 v2 vol n, 0 < m1 -> 0 < m2 -> (0 < n)%nat ->
  INR n * fusion_weight r m1 m2 d1 d2 (vcom2 v1 v2) vol n = vol * (d1 * d2) * (norm (vsub v1 v2) * boschhale_sigma r (cm_energy m1 m2 v1 v2)) /\
  (0 <= d1 -> 0 <= d2 -> 0 <= vol -> 0 <= fusion_weight r m1 m2 d1 d2 (vcom2 v1 v2) vol n).
Proof. exact weight_rate. Qed.
Print Assumptions fusion_rate.
(** a product on the lower edge is counted, one on the upper edge is not *)
Example deposit_example : let h := hist_init [(0%nat, AX 0 1 2); (1%nat, AX 0 1 1); (2%nat, AX 0 1 1); (5%nat, AX (-1) 1 4); (6%nat, AX 0 1 2)] in
  deposit h 0 1 2 5 6 1 0 0 (fun _ => 0) (-1) (/ 2) 3 9%Z = 3 /\ deposit h 0 1 2 5 6 1 0 0 (fun _ => 0) 1 (/ 2) 3 = (fun _ => 0).
Proof.
  intros h. assert (X1 : h_ax h 5 = AX (-1) 1 4) by reflexivity. assert (X2 : h_ax h 6 = AX 0 1 2) by reflexivity.
  assert (P : prod_axes h = Some (0, 1, 2, 5, 6, PPARPPERP)%nat) by reflexivity.
  destruct (deposit_spec h _ _ _ _ _ _ 1 0 0 (fun _ => 0) (-1) (/ 2) 3 P) as [A _]; rewrite ?X1, ?X2; cbn [amin amax an]; try lra; try lia.
  destruct (deposit_spec h _ _ _ _ _ _ 1 0 0 (fun _ => 0) 1 (/ 2) 3 P) as [_ B]; rewrite ?X1, ?X2; cbn [amin amax an]; try lra; try lia.
  rewrite X1, X2 in A, B. cbn [amin amax an] in A, B. split; [|apply B; lra].
  destruct A as (k1 & k2 & K1 & K2 & L1 & L2 & ->); [lra|]. unfold width in *. cbn [amin amax an] in *. rewrite !plus_IZR in *.
  assert (k1 = 0)%Z as -> by (assert (k1 < 1)%Z by (apply lt_IZR; lra); lia). assert (k2 = 1)%Z as -> by (assert (0 < k2)%Z by (apply lt_IZR; lra); lia).
  change (hist_index h (digits_of [(0%nat, 1%Z); (1%nat, 0%Z); (2%nat, 0%Z); (5%nat, 0%Z); (6%nat, 1%Z)])) with 9%Z. unfold addto. rewrite Z.eqb_refl. ring.
Qed.
