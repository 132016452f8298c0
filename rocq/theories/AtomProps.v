(** Properties of the atomic reactions and their data (src/simulate/atomic.c, src/asigma.c,
    src/asigma/asigma_loc.c, src/suzuki.c). *)
From Coq Require Import Reals Lra Lia ZArith List Bool Permutation.
From Verif Require Import Deriv Vec ErrorModel AxisModel SplineModel SplineProofs Spl2Model Spl3Model PhysModel AtomModel AtomProofs.
Import ListNotations.
Local Open Scope R_scope.

(** C43. *)
Theorem atomic_charge_in_range : forall q dt ri rr z rnd, (0 <= q <= z)%Z ->
  (0 <= atomic_react q dt ri rr z rnd <= z /\ -1 <= atomic_react q dt ri rr z rnd - q <= 1)%Z.
Proof. exact react_range. Qed.
Print Assumptions atomic_charge_in_range.
Theorem atomic_probabilities : forall r ri rr dt, 0 <= ri -> 0 <= rr -> 0 <= dt -> r = ri \/ r = rr -> 0 <= prob r ri rr dt <= 1.
Proof. exact prob_01. Qed.
Print Assumptions atomic_probabilities.
Theorem atomic_probability_sum : forall ri rr dt, 0 <= ri -> 0 <= rr -> prob ri ri rr dt + prob rr ri rr dt = 1 - exp (- (ri + rr) * dt).
Proof. exact prob_sum. Qed.
Print Assumptions atomic_probability_sum.
Theorem atomic_partially_stripped : forall q z dt ri rr, (0 < q < z)%Z -> 0 <= ri -> 0 <= rr -> 0 <= dt ->
  let pi := prob ri ri rr dt in let pr := prob rr ri rr dt in
  exactly_on (fun rnd => atomic_react q dt ri rr z rnd = q + 1)%Z 0 pi /\
  exactly_on (fun rnd => atomic_react q dt ri rr z rnd = q - 1)%Z pi (pi + pr) /\
  exactly_on (fun rnd => atomic_react q dt ri rr z rnd = q)%Z (pi + pr) 1.
Proof. exact react_partial_charge. Qed.
Print Assumptions atomic_partially_stripped.
Theorem atomic_neutral : forall z dt ri rr, (0 < z)%Z -> 0 <= ri -> 0 <= rr -> 0 <= dt ->
  exactly_on (fun rnd => atomic_react 0 dt ri rr z rnd = 1)%Z 0 (prob ri ri rr dt) /\
  exactly_on (fun rnd => atomic_react 0 dt ri rr z rnd = 0)%Z (prob ri ri rr dt) 1.
Proof. exact react_neutral. Qed.
Print Assumptions atomic_neutral.
Theorem atomic_fully_stripped : forall z dt ri rr, (0 < z)%Z -> 0 <= ri -> 0 <= rr -> 0 <= dt ->
  exactly_on (fun rnd => atomic_react z dt ri rr z rnd = z - 1)%Z 0 (1 - exp (- (ri + rr) * dt)) /\
  exactly_on (fun rnd => atomic_react z dt ri rr z rnd = z)%Z (1 - exp (- (ri + rr) * dt)) 1.
Proof. exact react_stripped. Qed.
Print Assumptions atomic_fully_stripped.
(** finding: a sampled ionisation takes charge away from a stripped marker *)
Theorem atomic_stripped_ionisation_recombines : forall z dt ri rnd, (0 < z)%Z -> 0 <= ri -> rnd < 1 - exp (- ri * dt) ->
  atomic_react z dt ri 0 z rnd = (z - 1)%Z.
Proof. exact react_stripped_ionises_down. Qed.
Print Assumptions atomic_stripped_ionisation_recombines.
Theorem atomic_survival_multiplicative : forall ri rr a b, 0 <= ri -> 0 <= rr -> survive ri rr (a + b) = survive ri rr a * survive ri rr b.
Proof. exact survive_mult. Qed.
Print Assumptions atomic_survival_multiplicative.
Theorem atomic_branching : forall ri rr dt, 0 <= ri -> 0 <= rr -> prob ri ri rr dt * rr = prob rr ri rr dt * ri.
Proof. exact branching. Qed.
Print Assumptions atomic_branching.
Theorem atomic_probability_rate : forall ri rr, 0 <= ri -> 0 <= rr -> Dx (prob ri ri rr) 0 ri /\ Dx (prob rr ri rr) 0 rr.
Proof. exact prob_rate. Qed.
Print Assumptions atomic_probability_rate.
Theorem atomic_rates_sound : forall u z a m d x q E b e ri rr, 0 <= n_e b -> atomic_rates u z a m d x q E b = Some (e, ri, rr) ->
  0 <= ri /\ 0 <= rr /\ (e = 0%Z -> (q = 0 \/ q = 1)%Z) /\ (q <> 0%Z -> ri = 0) /\ (q <> 1%Z -> rr = 0).
Proof. exact rates_sound. Qed.
Print Assumptions atomic_rates_sound.
Theorem atomic_rates_unsupported : forall u z a m d x q E b, q <> 0%Z -> q <> 1%Z -> exists e, e <> 0%Z /\ atomic_rates u z a m d x q E b = Some (e, 0, 0).
Proof. exact rates_unsupported. Qed.
Print Assumptions atomic_rates_unsupported.
Theorem atomic_lane_step : forall u d x bg h rnd p p' q, carries p q -> atomic_fo_lane u d x bg h rnd p = Some p' ->
  exists q', carries p' q' /\ (-1 <= q' - q <= 1)%Z /\ same_marker p p' /\
    (running p' = false -> charge p' = charge p) /\ (running p = false -> p' = p) /\ (running p' = true -> running p = true /\ lerr p' = lerr p /\ (q = 0 \/ q = 1)%Z).
Proof. exact lane_step. Qed.
Print Assumptions atomic_lane_step.
Theorem atomic_many_steps : forall u d x l p p' q, carries p q -> steps u d x l p = Some p' ->
  exists q', carries p' q' /\ same_marker p p' /\ (Z.abs (q' - q) <= Z.of_nat (length l))%Z.
Proof. exact steps_charge. Qed.
Print Assumptions atomic_many_steps.
Theorem atomic_charge_exchange_law : forall u d x b h p c, running p = true -> carries p 1 -> 0 <= h -> 0 <= c ->
  asigma_eval_cx u (lznum p) (lanum p) (Ekin_pnorm (mass p) (norm (V (pr p) (pphi p) (pz p)))) (T_0 b) (species (ions b) (n_0 b)) x d = Some (0%Z, c) ->
  exactly_on (fun rnd => exists p', atomic_fo_lane u d x (inr b) h rnd p = Some p' /\ carries p' 0 /\ running p' = true) 0 (1 - exp (- c * h)) /\
  exactly_on (fun rnd => atomic_fo_lane u d x (inr b) h rnd p = Some p) (1 - exp (- c * h)) 1.
Proof. exact lane_cx. Qed.
Print Assumptions atomic_charge_exchange_law.
Theorem atomic_ionisation_law : forall u d x b h p c, running p = true -> carries p 0 -> (0 < lznum p)%Z -> 0 <= h -> 0 <= c -> 0 <= n_e b ->
  asigma_eval_bms u (lznum p) (lanum p) (Ekin_pnorm (mass p) (norm (V (pr p) (pphi p) (pz p)))) (mass p) (T_e b) (species (ions b) (n_i b)) x d = Some (0%Z, c) ->
  exactly_on (fun rnd => exists p', atomic_fo_lane u d x (inr b) h rnd p = Some p' /\ carries p' 1 /\ running p' = true) 0 (1 - exp (- (c * n_e b) * h)) /\
  exactly_on (fun rnd => atomic_fo_lane u d x (inr b) h rnd p = Some p) (1 - exp (- (c * n_e b) * h)) 1.
Proof. exact lane_bms. Qed.
Print Assumptions atomic_ionisation_law.
Definition cold := BULK 1 1 [(2%Z, 1%Z)] [1] [1] 1.
Definition deut (c : R) := LANE true 0 c 1 1 2 0 0 0.
Example react_example : atomic_react 1 1 0 1 1 (/ 2) = 0%Z /\ atomic_react 1 1 0 1 1 (3 / 4) = 1%Z /\ atomic_react 0 1 1 0 1 (/ 2) = 1%Z /\ atomic_react 6 1 1 0 6 (/ 2) = 5%Z.
Proof.
  assert (H : / 4 < exp (- (1) * 1) < / 2).
  { replace (- (1) * 1) with (- (1)) by ring. rewrite exp_Ropp. pose proof exp_le_3 as E3. assert (2 < exp 1) by (pose proof (exp_ineq1 1 ltac:(lra)); lra).
    split; apply Rinv_lt_contravar; lra. }
  unfold atomic_react. rewrite !prob_sum by lra. unfold prob. replace (0 + 1) with 1 by ring. replace (1 + 0) with 1 by ring.
  repeat match goal with |- context [Req_EM_T ?a ?b] => destruct (Req_EM_T a b); try lra end. unfold Rdiv. rewrite Rinv_1, !Rmult_1_l.
  cbn [Z.ltb Z.compare Pos.compare Pos.compare_cont]. repeat match goal with |- context [Rlt_dec ?a ?b] => destruct (Rlt_dec a b); try lra end; cbn [andb]; repeat split; try reflexivity; try lra.
Qed.
(** a marker without atomic data is stopped with its charge intact; a doubly charged one has no rates *)
Example lane_example : forall h rnd, (exists e, e <> 0%Z /\ atomic_fo_lane 0 None false (inr cold) h rnd (deut (IZR 1 * CONST_E)) = Some (LANE false e (IZR 1 * CONST_E) 1 1 2 0 0 0)) /\
  atomic_fo_lane 0 None false (inl 7%Z) h rnd (deut 0) = Some (LANE false 7 0 1 1 2 0 0 0).
Proof.
  intros. split; [|reflexivity]. unfold atomic_fo_lane. cbn [running deut]. assert (C : carries (deut (IZR 1 * CONST_E)) 1) by (split; [reflexivity|cbn; lia]).
  pose proof (carries_round _ _ C) as Q. cbn [charge deut] in *. rewrite Q. unfold atomic_rates. cbn [Z.eqb Pos.eqb]. unfold asigma_eval_cx. eexists. split; [|reflexivity]. discriminate.
Qed.

(** C74. *)
(** every dispatcher result passes through [clean] *)
Theorem asigma_results_clean : forall a e v, clean a = Some (e, v) -> 0 <= v /\ (e <> 0%Z -> v = 0).
Proof. exact clean_sound. Qed.
Print Assumptions asigma_results_clean.
Theorem asigma_nonnegative : forall u d x e v,
  (forall z a zz aa E t, asigma_eval_sigma u z a zz aa E t x d = Some (e, v) -> 0 <= v /\ (e <> 0%Z -> v = 0)) /\
  (forall z a zz aa E Te T0 n t, asigma_eval_sigmav u z a zz aa E Te T0 n t x d = Some (e, v) -> 0 <= v /\ (e <> 0%Z -> v = 0)) /\
  (forall z a E T l, asigma_eval_cx u z a E T l x d = Some (e, v) -> 0 <= v /\ (e <> 0%Z -> v = 0)) /\
  (forall z a E m T l, asigma_eval_bms u z a E m T l x d = Some (e, v) -> 0 <= v /\ (e <> 0%Z -> v = 0)).
Proof. intros. repeat split; try (intros; eapply clean_sound; eassumption); intros; eapply (clean_sound _ _ _ H); auto. Qed.
Print Assumptions asigma_nonnegative.
Theorem asigma_unknown_type : forall u x,
  (forall z a zz aa E t, exists e, e <> 0%Z /\ asigma_eval_sigma u z a zz aa E t x None = Some (e, 0)) /\
  (forall z a E T l, exists e, e <> 0%Z /\ asigma_eval_cx u z a E T l x None = Some (e, 0)) /\
  (forall z a E m T l, exists e, e <> 0%Z /\ asigma_eval_bms u z a E m T l x None = Some (e, 0)).
Proof. intros. repeat split; intros; eexists; (split; [|reflexivity]); discriminate. Qed.
Print Assumptions asigma_unknown_type.
Theorem asigma_sigma_value : forall u z a zz aa E t x rs r v, last_match (matches z a zz aa t) rs r -> (t = sigma_ioniz \/ t = sigma_recomb \/ t = sigma_CX) ->
  ev1 (t1 r) E = Val v -> asigma_eval_sigma u z a zz aa E t x (Some rs) = Some (0%Z, Rmax 0 v).
Proof. exact sigma_value. Qed.
Print Assumptions asigma_sigma_value.
Theorem asigma_sigmav_value : forall u z a zz aa E Te T0 ni t x rs r v, last_match (matches z a zz aa t) rs r -> (t = sigmav_ioniz \/ t = sigmav_recomb \/ t = sigmav_CX) ->
  ev2 (t2 r) (E / CONST_E) (T0 / CONST_E) = Val v -> asigma_eval_sigmav u z a zz aa E Te T0 ni t x (Some rs) = Some (0%Z, Rmax 0 v).
Proof. exact sigmav_value. Qed.
Print Assumptions asigma_sigmav_value.
Theorem asigma_cx_sum : forall u rs z a E T x l vs, Forall2 (cx_value rs z a E T x) l vs ->
  asigma_eval_cx u z a E T l x (Some rs) = Some (0%Z, Rmax 0 (weighted vs l)).
Proof. exact cx_sum. Qed.
Print Assumptions asigma_cx_sum.
Theorem asigma_cx_error : forall u rs z a E T x l, (forall sp, In sp l -> (exists v, cx_value rs z a E T x sp v) \/ cx_fails rs z a E T x sp) ->
  (exists sp, In sp l /\ cx_fails rs z a E T x sp) -> exists e, e <> 0%Z /\ asigma_eval_cx u z a E T l x (Some rs) = Some (e, 0).
Proof. exact cx_error. Qed.
Print Assumptions asigma_cx_error.
Theorem asigma_bms_sum : forall u rs z a E m Te x l vss, Forall2 (bms_values rs z a E Te x) l vss -> (exists vs, In vs vss /\ vs <> []) -> ne_of l <> 0 ->
  asigma_eval_bms u z a E m Te l x (Some rs) =
    Some (0%Z, Rmax 0 (sumR (map (fun '(vs, sp) => sumR vs * (IZR (znum sp) * dens sp)) (combine vss l)) / ne_of l)).
Proof. exact bms_sum. Qed.
Print Assumptions asigma_bms_sum.
Theorem asigma_bms_mean : forall u rs z a E m Te x l vs lo hi, Forall2 (fun sp v => bms_values rs z a E Te x sp [v] /\ lo <= v <= hi) l vs -> l <> [] ->
  Forall (fun sp => 0 <= IZR (znum sp) * dens sp) l -> 0 < ne_of l -> 0 <= lo ->
  exists v, asigma_eval_bms u z a E m Te l x (Some rs) = Some (0%Z, v) /\ lo <= v <= hi.
Proof. exact bms_mean. Qed.
Print Assumptions asigma_bms_mean.
(** finding: two tables for the same pair are added up *)
Theorem asigma_bms_double_count : forall u rs z a E m Te x l vss v, Forall2 (bms_values rs z a E Te x) l vss -> (exists vs, In vs vss /\ vs <> []) -> ne_of l <> 0 ->
  asigma_eval_bms u z a E m Te l x (Some rs) = Some (0%Z, v) -> asigma_eval_bms u z a E m Te l x (Some (rs ++ rs)) = Some (0%Z, 2 * v).
Proof. exact bms_double. Qed.
Print Assumptions asigma_bms_double_count.
(** finding: one reads the table at E/a of the fast, the other of the bulk species *)
Theorem asigma_bms_energy_per_nucleon : forall u z a zz aa E m Te T0 n x r v v', z1 r = z -> z2 r = zz -> rtype r = sigmav_BMS -> IZR zz * n <> 0 ->
  ev3 (t3 r) (E / CONST_E / IZR a) (IZR zz * n) (Te / CONST_E) = Val v -> ev3 (t3 r) (E / CONST_E / IZR aa) (IZR zz * n) (Te / CONST_E) = Val v' ->
  asigma_eval_bms u z a E m Te [((aa, zz), n)] x (Some [r]) = Some (0%Z, Rmax 0 v) /\
  asigma_eval_sigmav u z a zz aa E Te T0 n sigmav_BMS x (Some [r]) = Some (0%Z, Rmax 0 v').
Proof. exact bms_energies. Qed.
Print Assumptions asigma_bms_energy_per_nucleon.
(** every one-dimensional reaction is built from the first data of the array *)
Theorem asigma_init_nodes : forall junk sigma ds i d, nth_error ds i = Some d -> (1 < dne d)%nat -> (dnn d <= 1)%nat -> (dnT d <= 1)%nat -> demin d < demax d ->
  exists r, nth_error (fst (asigma_loc_init junk sigma ds)) i = Some r /\ rtype r = dtype d /\
    forall j, (j < dne d)%nat -> ev1 (t1 r) (demin d + INR j * ((demax d - demin d) / INR (dne d - 1))) = Val (sigma j).
Proof. exact init_nodes. Qed.
Print Assumptions asigma_init_nodes.
Theorem asigma_init_single : forall junk sigma d, reads_own_data junk sigma [d].
Proof. exact init_single. Qed.
Print Assumptions asigma_init_single.
Theorem asigma_init_offset_refuted : forall junk sigma, sigma 0%nat <> sigma 2%nat -> ~ reads_own_data junk sigma two_tables.
Proof. exact init_offset_refuted. Qed.
Print Assumptions asigma_init_offset_refuted.
Theorem asigma_init_last_error : forall junk sigma ds d, snd (asigma_loc_init junk sigma (ds ++ [d])) = snd (asigma_loc_init junk sigma [d]).
Proof. exact init_error. Qed.
Print Assumptions asigma_init_last_error.
Theorem asigma_init_error_refuted : forall junk sigma d0 d, (dne d0 <= 1)%nat -> (dnn d0 <= 1)%nat -> (dnT d0 <= 1)%nat -> (1 < dne d)%nat -> (dnn d <= 1)%nat -> (dnT d <= 1)%nat ->
  snd (asigma_loc_init junk sigma [d0]) = true /\ snd (asigma_loc_init junk sigma [d0; d]) = false.
Proof. exact init_error_refuted. Qed.
Print Assumptions asigma_init_error_refuted.
Definition cx_reac (t : res interp2D) : reac := RC 1 2 1 2 sigmav_CX Oob t Oob.
(** the later of two reactions counts, and a missing one is an error *)
Example cx_example : forall t s v, ev2 (Val t) (1 / CONST_E) (1 / CONST_E) = Val v -> 0 <= v ->
  asigma_eval_cx 0 1 2 1 1 [((2%Z, 1%Z), 5)] false (Some [cx_reac (Val s); cx_reac (Val t)]) = Some (0%Z, v * 5) /\
  exists e, e <> 0%Z /\ asigma_eval_cx 0 1 2 1 1 [((2%Z, 1%Z), 5); ((12%Z, 6%Z), 1)] false (Some [cx_reac (Val t)]) = Some (e, 0).
Proof.
  intros t s v H P. assert (L : forall a, last_match (matches 1 2 1 2 sigmav_CX) (a ++ [cx_reac (Val t)]) (cx_reac (Val t))) by (intro a; exists a, []; repeat split).
  split.
  - rewrite (cx_sum 0 _ 1 2 1 1 false [((2%Z, 1%Z), 5)] [v]).
    + do 2 f_equal. unfold weighted, sumR, dens. cbn [combine map fold_right snd]. rewrite Rmax_right; lra.
    + constructor; [|constructor]. exists (cx_reac (Val t)). split; [apply (L [_])|]. left. exact H.
  - apply (cx_error 0 [cx_reac (Val t)] 1 2 1 1 false).
    + intros sp [<-|[<-|[]]].
      * left. exists v. exists (cx_reac (Val t)). split; [apply (L [])|]. left. exact H.
      * right. left. intros r (a & b & E & M & _). destruct a as [|? [|? ?]]; cbn in E; try discriminate. injection E as <- _. discriminate M.
    + exists ((12%Z, 6%Z), 1). split; [cbn; auto|]. left. intros r (a & b & E & M & _). destruct a as [|? [|? ?]]; cbn in E; try discriminate. injection E as <- _. discriminate M.
Qed.

(** C75. *)
(** the whole function, for species within the tables *)
Theorem suzuki_value : forall E v ne te l, suzuki_safe l ->
  let Ek := keV E in
  suzuki_sigmav E v ne te l =
    if (match hydrogens l with [] => false | _ => true end) && (if Rlt_dec Ek 10000 then true else false)
    then SzOk (fit_H (table_A Ek) Ek ne (te / CONST_E) l * (1 + (zeff l - 1) * fit_Z (table_B Ek) Ek ne (te / CONST_E) l) * 1e-4 * v)
    else SzErr (if Rlt_dec Ek 10000 then error_raise ERR_INPUT_EVALUATION 173 EF_SUZUKI else error_raise ERR_INPUT_EVALUATION 189 EF_SUZUKI).
Proof. exact suzuki_eq. Qed.
Print Assumptions suzuki_value.
Theorem suzuki_impurity_expansion : forall B logE logN U, term_Z B logE logN U =
  sum_f_R0 (fun i => sum_f_R0 (fun j => sum_f_R0 (fun k => nth (4 * i + 2 * j + k) B 0 * logE ^ i * logN ^ j * U ^ k) 1) 1) 2.
Proof. exact term_Z_expansion. Qed.
Print Assumptions suzuki_impurity_expansion.
Theorem suzuki_hydrogen_product : forall A0 A1 A2 A3 A4 A5 A6 A7 A8 A9 E logE N U, term_H [A0; A1; A2; A3; A4; A5; A6; A7; A8; A9] E logE N U =
  A0 * 1e-16 / E * poly [1; A1; A2] logE * (1 + Rpower (1 - exp (- A3 * N)) A4 * poly [A5; A6; A7] logE) * poly [1; A8; A9] U.
Proof. exact term_H_product. Qed.
Print Assumptions suzuki_hydrogen_product.
Theorem suzuki_out_of_tables : forall E v ne te l, suzuki_sigmav E v ne te l = SzOob <-> ~ suzuki_safe l.
Proof. exact suzuki_oob. Qed.
Print Assumptions suzuki_out_of_tables.
Theorem suzuki_errors : forall E v ne te l, suzuki_safe l -> ((exists e, e <> 0%Z /\ suzuki_sigmav E v ne te l = SzErr e) <-> (hydrogens l = [] \/ 10000 <= keV E)).
Proof. exact suzuki_error. Qed.
Print Assumptions suzuki_errors.
Theorem suzuki_order_irrelevant : forall E v ne te l l', Permutation l l' -> suzuki_sigmav E v ne te l = suzuki_sigmav E v ne te l'.
Proof. exact suzuki_perm. Qed.
Print Assumptions suzuki_order_irrelevant.
Theorem suzuki_effective_charge : forall l lo hi, 0 <= lo -> (forall i, In i l -> 0 <= dens i /\ lo <= IZR (znum i) <= hi) -> 0 < ne_of l -> lo <= zeff l <= hi.
Proof. exact zeff_bounds. Qed.
Print Assumptions suzuki_effective_charge.
Theorem suzuki_isotope_split : forall E v ne te a n1 n2 l, suzuki_safe ((a, 1%Z, n1) :: (a, 1%Z, n2) :: l) ->
  suzuki_sigmav E v ne te ((a, 1%Z, n1) :: (a, 1%Z, n2) :: l) = suzuki_sigmav E v ne te ((a, 1%Z, n1 + n2) :: l).
Proof. exact suzuki_merge. Qed.
Print Assumptions suzuki_isotope_split.
Theorem suzuki_isotope_mean : forall E v ne te l lo hi, (length l <= 3)%nat -> l <> [] -> (forall i, In i l -> znum i = 1%Z /\ (1 <= anum i <= 3)%Z /\ 0 < dens i) ->
  (forall i, In i l -> exists s, suzuki_sigmav E v ne te [i] = SzOk s /\ lo <= s <= hi) ->
  exists s, suzuki_sigmav E v ne te l = SzOk s /\ lo <= s <= hi.
Proof. exact suzuki_mix. Qed.
Print Assumptions suzuki_isotope_mean.
(** finding: below 9 keV per nucleon the high-energy tables are used and no error is raised *)
Theorem suzuki_low_energy : forall E v ne te l, suzuki_safe l -> hydrogens l <> [] -> keV E < 9 ->
  suzuki_sigmav E v ne te l = SzOk (fit_H A_highE (keV E) ne (te / CONST_E) l * (1 + (zeff l - 1) * fit_Z B_highE (keV E) ne (te / CONST_E) l) * 1e-4 * v).
Proof. exact suzuki_low. Qed.
Print Assumptions suzuki_low_energy.
(** finding: an impurity of zero density reads row -1 of the table *)
Theorem suzuki_absent_impurity_refuted : forall E v ne te l i, In i l -> znum i <> 1%Z -> (forall j, In j l -> znum j <> 1%Z -> dens j = 0) ->
  0 < sumR (map dens (hydrogens l)) -> suzuki_sigmav E v ne te l = SzOob.
Proof. exact suzuki_absent_impurity. Qed.
Print Assumptions suzuki_absent_impurity_refuted.
Example suzuki_example :
  suzuki_safe [((2%Z, 1%Z), 1); ((3%Z, 1%Z), 1); ((12%Z, 6%Z), / 10)] /\ zeff [((2%Z, 1%Z), 1); ((3%Z, 1%Z), 1); ((12%Z, 6%Z), / 10)] = 28 / 13 /\
  (forall E v ne te, suzuki_sigmav E v ne te [((2%Z, 1%Z), 1); ((12%Z, 6%Z), 0)] = SzOob) /\
  (forall E v ne te, suzuki_sigmav E v ne te [((2%Z, 1%Z), 1); ((40%Z, 18%Z), / 100)] = SzOob).
Proof.
  assert (Z1 : zeff [((2%Z, 1%Z), 1); ((3%Z, 1%Z), 1); ((12%Z, 6%Z), / 10)] = 28 / 13) by (unfold zeff, sumR, dens, znum; cbn [map fold_right fst snd]; lra).
  split; [|split; [exact Z1|split]].
  - split; [cbn; lia|split].
    + intros i [<-|[<-|[<-|[]]]] H; cbn in *; lia.
    + intros i [<-|[<-|[<-|[]]]] H; cbn in H; try congruence. rewrite Z1. exists 6%Z, 1, 5. split; [cbn; auto|]. split; [reflexivity|lra].
  - intros. apply (suzuki_absent_impurity _ _ _ _ _ ((12%Z, 6%Z), 0)); cbn; auto; try lia; [intros j [<-|[<-|[]]]; cbn; try reflexivity; congruence|]. unfold sumR, dens; cbn; lra.
  - intros. apply suzuki_oob. intros (_ & _ & T). destruct (T ((40%Z, 18%Z), / 100)) as (z & lo & hi & J & E0 & _); [cbn; auto|cbn; lia|].
    cbn in J. repeat (destruct J as [J|J]; [injection J as <- <- <-; discriminate E0|]). destruct J.
Qed.
