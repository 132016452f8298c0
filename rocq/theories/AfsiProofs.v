(** Specifications and proofs for the fusion reactions and the fusion source. *)
From Coq Require Import Reals List ZArith Bool Lra Lia.
From Verif Require Import Vec PhysModel PhysProofs StepFoProofs AtomModel AtomProofs DistModel DistProofs AfsiModel.
Import ListNotations.
Local Open Scope R_scope.

(** ** reactions *)
Lemma charge_conserved : forall r, let s := boschhale_reaction r in rq1 s + rq2 s = pq1 s + pq2 s.
Proof. intros []; cbn; ring. Qed.
Definition nucleons (m : R) : Z := roundR (m / CONST_U).
Lemma round_at : forall x k, (0 <= k)%Z -> IZR k - / 2 < x < IZR k + / 2 -> 0 <= x -> roundR x = k.
Proof.
  intros x k K H P. unfold roundR. destruct (Rle_dec 0 x); [|lra]. assert (up (x + / 2) = k + 1)%Z; [|lia]. symmetry. apply tech_up; rewrite plus_IZR; lra.
Qed.
Lemma nucleons_at : forall m k, (0 <= k)%Z -> (IZR k - / 2) * CONST_U < m < (IZR k + / 2) * CONST_U -> 0 <= m -> nucleons m = k.
Proof.
  intros m k K H P. assert (U : 0 < CONST_U) by (unfold CONST_U; lra). apply round_at; auto.
  - split; [apply Rmult_lt_reg_r with CONST_U | apply Rmult_lt_reg_r with CONST_U]; auto; unfold Rdiv; rewrite Rmult_assoc, Rinv_l by lra; lra.
  - apply Rmult_le_pos; auto. left. now apply Rinv_0_lt_compat.
Qed.
Lemma nucleons_conserved : forall r, let s := boschhale_reaction r in (nucleons (rm1 s) + nucleons (rm2 s) = nucleons (pm1 s) + nucleons (pm2 s))%Z.
Proof.
  assert (D : nucleons 3.344e-27 = 2%Z) by (apply nucleons_at; unfold CONST_U; try lia; lra).
  assert (T : nucleons 5.008e-27 = 3%Z) by (apply nucleons_at; unfold CONST_U; try lia; lra).
  assert (H : nucleons 6.645e-27 = 4%Z) by (apply nucleons_at; unfold CONST_U; try lia; lra).
  assert (N : nucleons 1.675e-27 = 1%Z) by (apply nucleons_at; unfold CONST_U; try lia; lra).
  assert (P : nucleons 1.673e-27 = 1%Z) by (apply nucleons_at; unfold CONST_U; try lia; lra).
  intros []; cbn [boschhale_reaction rm1 rm2 pm1 pm2]; rewrite ?D, ?T, ?H, ?N, ?P; reflexivity.
Qed.
(** the released energy is the mass defect to within 0.8 MeV *)
Lemma q_value : forall r, let s := boschhale_reaction r in Rabs (qval s - (rm1 s + rm2 s - pm1 s - pm2 s) * CONST_C2) < 0.8e6 * CONST_E.
Proof.
  assert (C : CONST_C = 299792458) by exact eq_refl.
  intros []; cbn [boschhale_reaction rm1 rm2 pm1 pm2 qval]; unfold CONST_C2; rewrite C; unfold CONST_E; apply Rabs_def1; lra.
Qed.
(** ** cross section *)
Lemma bern_pos : forall a b x, a <= x <= b -> let u := x - a in let v := b - x in
  0 <= u /\ 0 <= v /\ 0 <= u * u * u * u /\ 0 <= u * u * u * v /\ 0 <= u * u * v * v /\ 0 <= u * v * v * v /\ 0 <= v * v * v * v /\
  0 <= u * u * u /\ 0 <= u * u * v /\ 0 <= u * v * v /\ 0 <= v * v * v.
Proof. intros. assert (0 <= u /\ 0 <= v) as [U W] by (unfold u, v; lra). clearbody u v. repeat split; auto; repeat apply Rmult_le_pos; auto. Qed.
Ltac bern a b x := let H := fresh in pose proof (bern_pos a b x) as H; cbv zeta in H; specialize (H ltac:(lra));
  destruct H as (? & ? & ? & ? & ? & ? & ? & ? & ? & ? & ?); nra.
Definition den (c : sfit) (E : R) : R := 1 + E * (B0 c + E * (B1 c + E * (B2 c + E * B3 c))).
Definition num (c : sfit) (E : R) : R := A0 c + E * (A1 c + E * (A2 c + E * (A3 c + E * A4 c))).
(** the S factor is positive, with a denominator that does not vanish, on the fitted range *)
Lemma fit_positive : forall r E E2, 0 < E -> E2 = (if Rlt_dec (Emax (sigma_fit r E)) E then Emax (sigma_fit r E) else E) ->
  den (sigma_fit r E) E2 <> 0 /\ 0 < num (sigma_fit r E) E2 / den (sigma_fit r E) E2.
Proof.
  assert (PP : forall a b, 0 < a -> 0 < b -> b <> 0 /\ 0 < a / b) by (intros; split; [lra|]; apply Rmult_lt_0_compat; auto; now apply Rinv_0_lt_compat).
  assert (NN : forall a b, a < 0 -> b < 0 -> b <> 0 /\ 0 < a / b).
  { intros a b A B. split; [lra|]. replace (a / b) with ((- a) / (- b)) by (field; lra). apply Rmult_lt_0_compat; [lra|]. apply Rinv_0_lt_compat. lra. }
  intros r E E2 P H. unfold num, den, sigma_fit in *. destruct r.
  - destruct (Rle_dec E 530); cbn [Emax A0 A1 A2 A3 A4 B0 B1 B2 B3] in *.
    + destruct (Rlt_dec 4700 E); [lra|]. subst E2. apply PP; [assert (0 < E * E * E) by (repeat apply Rmult_lt_0_compat; auto); assert (0 < E * E) by (apply Rmult_lt_0_compat; auto); nra|].
      destruct (Rle_dec E (265/4)); [bern 0 (265/4) E|]. destruct (Rle_dec E (265/2)); [bern (265/4) (265/2) E|]. destruct (Rle_dec E 265); [bern (265/2) 265 E | bern 265 530 E].
    + apply NN; [lra|]. assert (530 <= E2 <= 4700) by (destruct (Rlt_dec 4700 E); lra). clear H P. bern 530 4700 E2.
  - destruct (Rle_dec E 900); cbn [Emax A0 A1 A2 A3 A4 B0 B1 B2 B3] in *.
    + destruct (Rlt_dec 4800 E); [lra|]. subst E2. apply PP; [assert (0 < E * E) by (apply Rmult_lt_0_compat; auto); nra|].
      destruct (Rle_dec E 225); [bern 0 225 E|]. destruct (Rle_dec E 450); [bern 225 450 E | bern 450 900 E].
    + apply NN; [lra|]. assert (900 <= E2 <= 4800) by (destruct (Rlt_dec 4800 E); lra). clear H P. bern 900 4800 E2.
  - cbn [Emax A0 A1 A2 A3 A4 B0 B1 B2 B3] in *. assert (0 <= E2 <= 5000) by (destruct (Rlt_dec 5000 E); lra). clear H P. apply PP; [bern 0 5000 E2|lra].
  - cbn [Emax A0 A1 A2 A3 A4 B0 B1 B2 B3] in *. assert (0 <= E2 <= 4900) by (destruct (Rlt_dec 4900 E); lra). clear H P. apply PP; [bern 0 4900 E2|lra].
Qed.
(** threshold energies in keV *)
Definition threshold_keV (r : reaction) : R := match r with DHe3_He4p => 0.3 | _ => 0.5 end.
Lemma sigma_sign : forall r E, let k := E / (1e3 * CONST_E) in
  (k <= threshold_keV r -> boschhale_sigma r E = 0) /\ (threshold_keV r < k -> 0 < boschhale_sigma r E).
Proof.
  intros r E k. unfold boschhale_sigma. fold k. cbv zeta. clearbody k. clear E.
  assert (T : Emin (sigma_fit r k) = threshold_keV r) by (unfold sigma_fit, threshold_keV; destruct r; try destruct (Rle_dec _ _); reflexivity).
  split; intros H; unfold sigma_of; rewrite T; destruct (Rle_dec k (threshold_keV r)); try lra.
  assert (K : 0.3 < k) by (unfold threshold_keV in H; destruct r; lra).
  destruct (fit_positive r k _ ltac:(lra) eq_refl) as [_ S]. unfold num, den in S. set (E2 := if Rlt_dec _ k then _ else k) in *.
  assert (E2P : 0.3 <= E2 /\ 0 <= BG (sigma_fit r k) <= 70).
  { unfold E2, sigma_fit. clear S E2 T. destruct r; try destruct (Rle_dec k _); cbn [Emax BG]; destruct (Rlt_dec _ k); lra. }
  assert (SQ : / 2 <= sqrt E2). { replace (/ 2) with (sqrt (/ 2 * / 2)) by (apply sqrt_square; lra). apply sqrt_le_1_alt. lra. }
  destruct (Rlt_dec 700 _) as [U|U].
  { exfalso. assert (BG (sigma_fit r k) / sqrt E2 <= 140); [|lra]. apply Rmult_le_reg_r with (sqrt E2); [lra|]. unfold Rdiv. rewrite Rmult_assoc, Rinv_l by lra. lra. }
  apply Rmult_lt_0_compat; [|lra]. apply Rmult_lt_0_compat; [exact S|]. apply Rinv_0_lt_compat. apply Rmult_lt_0_compat; [lra|apply exp_pos].
Qed.
(** so the underflow guard is never the reason for a zero *)
Lemma sigma_zero_iff : forall r E, boschhale_sigma r E = 0 <-> E <= threshold_keV r * (1e3 * CONST_E).
Proof.
  intros r E. pose proof E_pos as P. destruct (sigma_sign r E) as [A B]. set (k := E / (1e3 * CONST_E)) in *.
  assert (Q : E = k * (1e3 * CONST_E)) by (unfold k; field; lra). split; intros H.
  - apply Rnot_lt_le. intros L. assert (threshold_keV r < k) by (apply Rmult_lt_reg_r with (1e3 * CONST_E); lra). specialize (B H0). lra.
  - apply A. apply Rmult_le_reg_r with (1e3 * CONST_E); lra.
Qed.
(** ** reactivity *)
Lemma sigmav_pos : forall junk r T, 0 < T <= 100 -> 0 < theta_of (sigmav_fit r) T /\ 0 < boschhale_sigmav junk r T.
Proof.
  intros junk r T H. assert (TH : 0 < theta_of (sigmav_fit r) T).
  { unfold theta_of. set (c := sigmav_fit r). set (n := T * (C2 c + T * (C4 c + T * C6 c))). set (d := 1 + T * (C3 c + T * (C5 c + T * C7 c))).
    assert (0 < d /\ n < d) as [D N].
    { unfold n, d, c. assert (0 <= T <= 100) by lra. destruct r; cbn [sigmav_fit C2 C3 C4 C5 C6 C7]; split; bern 0 100 T. }
    clearbody n d. apply Rmult_lt_0_compat; [lra|]. apply Rinv_0_lt_compat. replace (1 - n / d) with ((d - n) / d) by (field; lra).
    apply Rmult_lt_0_compat; [lra|]. now apply Rinv_0_lt_compat. }
  split; auto. unfold boschhale_sigmav. set (c := sigmav_fit r) in *. set (th := theta_of c T) in *. clearbody th.
  assert (0 < C1 c /\ 0 < vBG c /\ 0 < MRC2 c) as (P1 & P2 & P3) by (unfold c; destruct r; cbn; lra).
  assert (X : 0 < vBG c * vBG c / (4 * th)) by (apply Rmult_lt_0_compat; [nra|]; apply Rinv_0_lt_compat; lra).
  destruct (Rlt_dec 0 _); [|contradiction]. assert (0 < Rpower (vBG c * vBG c / (4 * th)) (1 / 3)) by apply exp_pos. set (xi := Rpower _ _) in *.
  repeat apply Rmult_lt_0_compat; auto; try lra; try apply exp_pos.
  apply sqrt_lt_R0. apply Rmult_lt_0_compat; auto. apply Rinv_0_lt_compat. repeat apply Rmult_lt_0_compat; lra.
Qed.
(** ** reaction products *)
Definition vcm (m1 m2 : R) (v1 v2 : vec) : vec := vscal (/ (m1 + m2)) (vadd (vscal m1 v1) (vscal m2 v2)).
Definition kin (m : R) (v : vec) : R := m / 2 * dot v v.
Definition cm_energy (m1 m2 : R) (v1 v2 : vec) : R := kin m1 (vsub v1 (vcm m1 m2 v1 v2)) + kin m2 (vsub v2 (vcm m1 m2 v1 v2)).
Lemma cm_energy_reduced : forall m1 m2 v1 v2, 0 < m1 -> 0 < m2 -> cm_energy m1 m2 v1 v2 = 0.5 * (m1 * m2) / (m1 + m2) * vcom2 v1 v2.
Proof.
  intros m1 m2 [a b c] [a' b' c'] P1 P2. unfold cm_energy, kin, vcm, vcom2, dot, vsub, vadd, vscal. cbn [vx vy vz]. replace 0.5 with (/ 2) by lra. field. lra.
Qed.
Lemma products : forall m1 m2 mp1 mp2 Q v1 v2 u3 u4 w1 w2, 0 < m1 -> 0 < m2 -> 0 < mp1 -> 0 < mp2 -> 0 <= Q + cm_energy m1 m2 v1 v2 -> 0 <= u4 <= 1 ->
  product_velocities m1 m2 mp1 mp2 Q v1 v2 u3 u4 = (w1, w2) ->
  let c := vcm m1 m2 v1 v2 in
  vadd (vscal mp1 (vsub w1 c)) (vscal mp2 (vsub w2 c)) = vzero /\
  kin mp1 (vsub w1 c) + kin mp2 (vsub w2 c) = Q + cm_energy m1 m2 v1 v2 /\
  vsub w2 c = vscal (norm (vsub w2 c)) (V (sqrt (1 - (2 * u4 - 1) * (2 * u4 - 1)) * cos (2 * PI * u3)) (sqrt (1 - (2 * u4 - 1) * (2 * u4 - 1)) * sin (2 * PI * u3)) (2 * u4 - 1)).
Proof.
  intros m1 m2 mp1 mp2 Q v1 v2 u3 u4 w1 w2 P1 P2 P3 P4 EK U H c. unfold product_velocities in H. cbv zeta in H.
  set (cc := V ((m1 * vx v1 + m2 * vx v2) / (m1 + m2)) _ _) in H. assert (CC : cc = c) by (unfold cc, c, vcm, vscal, vadd; cbn [vx vy vz]; f_equal; unfold Rdiv; ring). rewrite CC in H. clear CC cc.
  set (ek := Q + _ + _) in H. assert (EE : ek = Q + cm_energy m1 m2 v1 v2).
  { unfold ek, cm_energy, kin, dot, vsub. fold c. cbn [vx vy vz]. replace 0.5 with (/ 2) by lra. unfold Rdiv. ring. }
  rewrite <- EE in *. clearbody ek. set (th := acos _) in H. set (ph := 2 * PI * u3) in *.
  replace (1.0) with 1 in H by lra. replace 2.0 with 2 in H by lra.
  set (vn := sqrt _) in H. set (d := V (sin th * cos ph) (sin th * sin ph) (cos th)).
  assert (D1 : dot d d = 1).
  { unfold d, dot. cbn [vx vy vz]. pose proof (trig1 th). pose proof (trig1 ph). transitivity (sin th * sin th * (sin ph * sin ph + cos ph * cos ph) + cos th * cos th); [ring|]. rewrite H1. lra. }
  assert (W1 : vsub w1 c = vscal (- (mp2 / mp1) * vn) d /\ vsub w2 c = vscal vn d).
  { cbv zeta in H. cbn [vx vy vz] in H. assert (PI2 : forall (A B : Type) (a a' : A) (b b' : B), (a, b) = (a', b') -> a' = a /\ b' = b) by (intros; split; congruence).
    apply PI2 in H. destruct H as [-> ->]. unfold vsub, vscal, d. cbn [vx vy vz]. split; apply f_equal3; ring. }
  destruct W1 as [W1 W2]. rewrite W1, W2.
  assert (VN : 0 <= vn) by apply sqrt_pos.
  assert (ND : norm d = 1) by (unfold norm; change (sqrt (dot d d) = 1); rewrite D1; apply sqrt_1).
  split; [|split].
  - unfold vadd, vscal, vzero. cbn [vx vy vz]. apply f_equal3; field; lra.
  - unfold kin. rewrite !dot_scal, D1. assert (V2 : vn * vn = 2 * ek / (mp2 * (1 + mp2 / mp1))).
    { apply sqrt_sqrt. apply Rmult_le_pos; [lra|]. left. apply Rinv_0_lt_compat. assert (0 < mp2 / mp1) by (apply Rmult_lt_0_compat; auto; now apply Rinv_0_lt_compat). nra. }
    transitivity ((mp2 * mp2 / mp1 + mp2) / 2 * (vn * vn)); [field; lra|]. rewrite V2. field. split; [lra|]. split; [nra|lra].
  - rewrite norm_scal, ND, Rabs_right by lra. rewrite Rmult_1_r. f_equal. unfold d. unfold th. replace (2 * (u4 - 0.5)) with (2 * u4 - 1) by lra. rewrite cos_acos, sin_acos by lra. reflexivity.
Qed.
(** in the laboratory frame the momentum changes by the mass defect times the velocity of the
    centre of mass *)
Lemma lab_momentum : forall m1 m2 mp1 mp2 Q v1 v2 u3 u4 w1 w2, 0 < m1 -> 0 < m2 -> 0 < mp1 -> 0 < mp2 -> 0 <= Q + cm_energy m1 m2 v1 v2 -> 0 <= u4 <= 1 ->
  product_velocities m1 m2 mp1 mp2 Q v1 v2 u3 u4 = (w1, w2) ->
  vsub (vadd (vscal m1 v1) (vscal m2 v2)) (vadd (vscal mp1 w1) (vscal mp2 w2)) = vscal (m1 + m2 - mp1 - mp2) (vcm m1 m2 v1 v2).
Proof.
  intros m1 m2 mp1 mp2 Q v1 v2 u3 u4 w1 w2 P1 P2 P3 P4 EK U H. destruct (products m1 m2 mp1 mp2 Q v1 v2 u3 u4 w1 w2 P1 P2 P3 P4 EK U H) as (A & _).
  assert (M : vadd (vscal m1 v1) (vscal m2 v2) = vscal (m1 + m2) (vcm m1 m2 v1 v2)) by (unfold vcm, vscal, vadd; cbn [vx vy vz]; apply f_equal3; field; lra).
  rewrite M. set (c := vcm m1 m2 v1 v2) in *. clearbody c. destruct w1 as [a b d], w2 as [a' b' d'], c as [x y z]. unfold vadd, vscal, vsub, vzero in *. cbn [vx vy vz] in *.
  injection A as A1 A2 A3. apply f_equal3; lra.
Qed.
Lemma react_speed : forall m ppar pperp u, m <> 0 -> dot (vreact m ppar pperp u) (vreact m ppar pperp u) = (ppar * ppar + pperp * pperp) / (m * m).
Proof.
  intros. unfold vreact, dot. cbn [vx vy vz]. pose proof (trig1 (2 * PI * u)) as T. transitivity (((sin (2 * PI * u) * sin (2 * PI * u) + cos (2 * PI * u) * cos (2 * PI * u)) * pperp * pperp + ppar * ppar) / (m * m)); [field; auto|]. rewrite T. field. auto.
Qed.
Lemma coords_pp : forall m v, 0 < m -> let c := product_coords PPARPPERP m v in fst c = m * vz v /\ 0 <= snd c /\ fst c * fst c + snd c * snd c = m * m * dot v v.
Proof.
  intros m v P. cbn [product_coords fst snd]. split; [ring|]. split; [apply Rmult_le_pos; [apply sqrt_pos|lra]|].
  assert (Q : sqrt (vx v * vx v + vy v * vy v) * sqrt (vx v * vx v + vy v * vy v) = vx v * vx v + vy v * vy v) by (apply sqrt_sqrt; nra).
  transitivity (m * m * (vz v * vz v + sqrt (vx v * vx v + vy v * vy v) * sqrt (vx v * vx v + vy v * vy v))); [ring|]. rewrite Q. unfold dot. ring.
Qed.
(** the stored energy is the relativistic one of the non-relativistic speed: it is above the
    energy that was balanced in the reaction *)
Lemma coords_ex : forall m v, 0 < m -> 0 < norm v < CONST_C -> let c := product_coords EKINXI m v in -1 <= snd c <= 1 /\ kin m v < fst c.
Proof.
  intros m v P [N1 N2]. cbn [product_coords fst snd]. pose proof (norm_sq v) as NS. split.
  - assert (vz v * vz v <= norm v * norm v) by (rewrite NS; unfold dot; nra). assert (- norm v <= vz v <= norm v) by nra.
    unfold Rdiv. split; apply Rmult_le_reg_r with (norm v); auto; rewrite Rmult_assoc, Rinv_l by lra; lra.
  - assert (A : Rabs (norm v) < CONST_C) by (rewrite Rabs_right; lra). destruct (lorentz_vnorm _ A) as [[_ L] G]. set (g := gamma_vnorm (norm v)) in *. unfold Ekin_gamma, kin. rewrite <- NS.
    pose proof C_pos as CP. unfold CONST_C2.
    assert (GL : g * g * (CONST_C * CONST_C - norm v * norm v) = CONST_C * CONST_C).
    { exact L. }
    set (n := norm v) in *. clearbody n g. apply Rmult_lt_reg_l with (2 / m); [apply Rmult_lt_0_compat; [lra|now apply Rinv_0_lt_compat]|].
    replace (2 / m * (m / 2 * (n * n))) with (n * n) by (field; lra). replace (2 / m * ((g - 1) * m * (CONST_C * CONST_C))) with (2 * (g - 1) * (CONST_C * CONST_C)) by (field; lra).
    assert (G1 : 1 < g). { destruct (Req_EM_T g 1) as [->|]; [nra|lra]. }
    assert (n * n * (g * g) = (g * g - 1) * (CONST_C * CONST_C)) by lra.
    apply Rmult_lt_reg_r with (g * g); [nra|]. rewrite H. assert (0 < (g - 1) * (g - 1) * (2 * g + 1)) by (repeat apply Rmult_lt_0_compat; lra).
    assert (0 < (CONST_C * CONST_C) * ((g - 1) * (g - 1) * (2 * g + 1))) by (apply Rmult_lt_0_compat; [apply Rmult_lt_0_compat; auto|auto]). lra.
Qed.
(** ** sampling the beam reactant *)
Lemma decode_row : forall n2 a b, (b < n2)%nat -> ((a * n2 + b) / n2 = a /\ (a * n2 + b) mod n2 = b)%nat.
Proof. intros n2 a b H. split; [rewrite Nat.div_add_l, Nat.div_small by lia; lia | rewrite Nat.add_comm, Nat.mod_add, Nat.mod_small by lia; lia]. Qed.
(** cell (a, b) is stored at a * n2 + b *)
Lemma decode_pp : forall n1 n2, (0 < n1)%nat -> (0 < n2)%nat ->
  ((forall a b, (a < n1)%nat -> (b < n2)%nat -> decode PPARPPERP n1 n2 (a * n2 + b) = (a, b)) <-> n1 = n2).
Proof.
  intros n1 n2 H1 H2. split.
  - intros H. destruct (lt_eq_lt_dec n1 n2) as [[L|E]|L]; auto; exfalso.
    + specialize (H 0%nat n1 H1 L). cbn [decode] in H. injection H as H _. change (0 * n2 + n1)%nat with n1 in H. rewrite Nat.div_same in H by lia. discriminate.
    + destruct (Nat.eq_dec n1 1) as [->|N]; [lia|]. specialize (H 1%nat 0%nat ltac:(lia) H2). cbn [decode] in H. injection H as H _. rewrite Nat.div_small in H by lia. discriminate.
  - intros <- a b A B. cbn [decode]. destruct (decode_row n1 a b B) as [-> ->]. reflexivity.
Qed.
Lemma decode_pp_cell : forall n1 n2 a b, (b < n2)%nat -> snd (decode PPARPPERP n1 n2 (a * n2 + b)) = b /\
  (decode PPARPPERP n1 n2 (a * n2 + b) = (a, b) <-> ((a * n2 + b) / n1 = (a * n2 + b) / n2)%nat).
Proof. intros n1 n2 a b B. cbn [decode snd]. destruct (decode_row n2 a b B) as [-> ->]. split; auto. split; intros H; congruence. Qed.
Lemma decode_ex : forall n1 n2, (0 < n1)%nat -> (0 < n2)%nat ->
  ((forall a b, (a < n1)%nat -> (b < n2)%nat -> decode EKINXI n1 n2 (a * n2 + b) = (a, b)) <-> n1 = 1%nat /\ n2 = 1%nat).
Proof.
  intros n1 n2 H1 H2. split.
  - intros H. destruct (Nat.eq_dec n2 1) as [->|N2].
    + split; auto. destruct (Nat.eq_dec n1 1) as [|N1]; auto. specialize (H 1%nat 0%nat ltac:(lia) H2). cbn [decode] in H. injection H as _ H. change ((1 * 1 + 0) / 1)%nat with 1%nat in H. discriminate.
    + specialize (H 0%nat 1%nat H1 ltac:(lia)). cbn [decode] in H. injection H as _ H. change (0 * n2 + 1)%nat with 1%nat in H. rewrite Nat.div_small in H by lia. discriminate.
  - intros [-> ->] a b A B. replace a with 0%nat by lia. replace b with 0%nat by lia. reflexivity.
Qed.
Lemma centre_above : forall a k, amin a < amax a -> (0 < an a)%Z -> (an a <= Z.of_nat k)%Z -> amax a < centre a k.
Proof.
  intros a k H N K. unfold centre. assert (0 < IZR (an a)) by now apply IZR_lt. assert (IZR (an a) <= INR k) by (rewrite INR_IZR_INZ; now apply IZR_le).
  apply Rmult_lt_reg_r with (IZR (an a)); auto. replace ((amin a + (INR k + 0.5) * (amax a - amin a) / IZR (an a)) * IZR (an a)) with (amin a * IZR (an a) + (INR k + 0.5) * (amax a - amin a)) by (field; lra). nra.
Qed.
(** with more first than second bins some cell gets a pitch, and with fewer some cell gets a
    parallel momentum, beyond the end of its axis *)
Lemma decode_outside : forall a1 a2, amin a1 < amax a1 -> amin a2 < amax a2 -> (0 < an a1)%Z -> (0 < an a2)%Z ->
  let n1 := Z.to_nat (an a1) in let n2 := Z.to_nat (an a2) in
  ((an a2 < an a1)%Z -> exists j, (j < n1 * n2)%nat /\ amax a2 < centre a2 (snd (decode EKINXI n1 n2 j))) /\
  ((an a1 < an a2)%Z -> exists j, (j < n1 * n2)%nat /\ amax a1 < centre a1 (fst (decode PPARPPERP n1 n2 j))).
Proof.
  intros a1 a2 H1 H2 N1 N2 n1 n2. split; intros L.
  - exists (n2 * n2)%nat. assert (n2 < n1)%nat by (unfold n1, n2; lia). assert (0 < n2)%nat by (unfold n2; lia). split; [nia|]. cbn [decode snd]. rewrite Nat.div_mul by lia. apply centre_above; auto. unfold n2. lia.
  - exists (n1 * n1)%nat. assert (n1 < n2)%nat by (unfold n1, n2; lia). assert (0 < n1)%nat by (unfold n1; lia). split; [nia|]. cbn [decode fst]. rewrite Nat.div_mul by lia. apply centre_above; auto. unfold n1. lia.
Qed.
(** right bin centres give the energy and pitch of the bin *)
Lemma beam_momentum_ex : forall m a1 a2 k, 0 < m -> 0 <= centre a1 (fst k) -> -1 <= centre a2 (snd k) <= 1 -> let p := beam_momentum EKINXI m a1 a2 k in
  let pn := sqrt (fst p * fst p + snd p * snd p) in Ekin_pnorm m pn = centre a1 (fst k) /\ fst p = centre a2 (snd k) * pn.
Proof.
  intros m a1 a2 k M E P. cbn [beam_momentum fst snd]. set (e := centre a1 (fst k)) in *. set (x := centre a2 (snd k)) in *. clearbody e x.
  replace 1.0 with 1 by lra. pose proof C_pos as CP. set (g := gamma_Ekin m e). set (pn := sqrt (g * g - 1) * m * CONST_C).
  assert (MC : 0 < m * CONST_C2) by (unfold CONST_C2; repeat apply Rmult_lt_0_compat; auto).
  assert (G : 1 <= g) by (unfold g, gamma_Ekin; assert (0 <= e / (m * CONST_C2)) by (apply Rmult_le_pos; auto; left; now apply Rinv_0_lt_compat); lra).
  assert (SX : sqrt (1 - x * x) * sqrt (1 - x * x) = 1 - x * x) by (apply sqrt_sqrt; nra).
  assert (PN : 0 <= pn) by (unfold pn; apply Rmult_le_pos; [apply Rmult_le_pos; [apply sqrt_pos|lra]|lra]).
  replace (x * pn * (x * pn) + sqrt (1 - x * x) * pn * (sqrt (1 - x * x) * pn)) with (pn * pn) by (transitivity (pn * pn * (x * x + sqrt (1 - x * x) * sqrt (1 - x * x))); [rewrite SX; ring|ring]).
  rewrite sqrt_square by auto. split; auto.
  assert (GP : gamma_pnorm m pn = g).
  { destruct (gamma_pnorm_sq m pn ltac:(lra)) as [A B]. assert (S : sqrt (g * g - 1) * sqrt (g * g - 1) = g * g - 1) by (apply sqrt_sqrt; nra).
    assert (pn * pn / (m * m * CONST_C2) = g * g - 1) by (unfold pn, CONST_C2; transitivity (sqrt (g * g - 1) * sqrt (g * g - 1)); [field; split; lra|exact S]).
    rewrite H in A. nra. }
  unfold Ekin_pnorm. rewrite GP. destruct (energy_inv m M) as [_ EI]. exact (EI e).
Qed.
Lemma density_sum : forall vol l, cell_density vol l = sumR l / vol.
Proof.
  intros vol l. unfold cell_density. assert (G : forall l a, fold_left (fun a x => a + x / vol) l a = a + sumR l / vol).
  { unfold sumR. clear l. induction l as [|x l IH]; intros a; cbn [fold_left fold_right]; [unfold Rdiv; ring|]. rewrite IH. unfold Rdiv. ring. }
  rewrite G. ring.
Qed.
Lemma running_last : forall l a, l <> [] -> last (running_sums a l) 0 = a + sumR l.
Proof.
  induction l as [|x l IH]; intros a H; [congruence|]. cbn [running_sums]. destruct l as [|y l]; [unfold sumR; cbn; ring|].
  change (last (a + x :: running_sums (a + x) (y :: l)) 0) with (last (running_sums (a + x) (y :: l)) 0). rewrite IH by discriminate. unfold sumR. cbn [fold_right]. ring.
Qed.
Lemma sumR_nonneg : forall l, Forall (fun x => 0 <= x) l -> 0 <= sumR l.
Proof. unfold sumR. induction 1; cbn; lra. Qed.
Lemma sumR_cons : forall x l, sumR (x :: l) = x + sumR l.
Proof. reflexivity. Qed.
Lemma first_above_spec : forall l a r k j, Forall (fun x => 0 <= x) l -> a <= r ->
  (first_above (running_sums a l) r k = Some j <-> (k <= j < k + length l)%nat /\ a + sumR (firstn (j - k) l) <= r < a + sumR (firstn (S (j - k)) l)).
Proof.
  induction l as [|x l IH]; intros a r k j F L; cbn [running_sums first_above length].
  - split; [discriminate|]. lia.
  - inversion F; subst. destruct (Rlt_dec r (a + x)) as [Q|Q].
    + split.
      * intros H. injection H as <-. rewrite Nat.sub_diag. unfold sumR. cbn. split; [lia|lra].
      * intros [J K]. destruct (Nat.eq_dec j k) as [->|N]; auto. exfalso. destruct (j - k)%nat as [|m] eqn:M; [lia|]. rewrite firstn_cons, sumR_cons in K.
        assert (0 <= sumR (firstn m l)). { apply sumR_nonneg. apply Forall_forall. intros y Y. rewrite Forall_forall in H2. apply H2. revert Y. clear. revert l. induction m; intros [|z l] Y; cbn in Y; try contradiction. destruct Y; [left; auto|right; auto]. }
        lra.
    + rewrite IH by (auto; lra). split.
      * intros [J K]. split; [lia|]. replace (j - k)%nat with (S (j - S k)) by lia. rewrite !firstn_cons, !sumR_cons. lra.
      * intros [J K]. destruct (Nat.eq_dec j k) as [->|N].
        { exfalso. rewrite Nat.sub_diag in K. unfold sumR in K. cbn in K. lra. }
        split; [lia|]. replace (j - k)%nat with (S (j - S k)) in K by lia. rewrite !firstn_cons, !sumR_cons in K. lra.
Qed.
(** every cell is drawn on an interval of the length of its share *)
Lemma sample_law : forall bins j, Forall (fun x => 0 <= x) bins -> 0 < sumR bins -> (j < length bins)%nat ->
  exactly_on (fun u => sample_cell bins u = Some j) (sumR (firstn j bins) / sumR bins) (sumR (firstn (S j) bins) / sumR bins).
Proof.
  intros bins j F T J u U. unfold sample_cell. assert (bins <> []) by (intros ->; cbn in J; lia). rewrite running_last by auto. rewrite first_above_spec by (auto; nra).
  rewrite Nat.sub_0_r. rewrite !Rplus_0_l. split.
  - intros [_ [A B]]. split; [apply Rmult_le_reg_r with (sumR bins) | apply Rmult_lt_reg_r with (sumR bins)]; auto; unfold Rdiv; rewrite Rmult_assoc, Rinv_l by lra; lra.
  - intros [A B]. split; [lia|]. split.
    + apply Rmult_le_compat_r with (r := sumR bins) in A; [|lra]. unfold Rdiv in A. rewrite Rmult_assoc, Rinv_l in A by lra. lra.
    + apply Rmult_lt_compat_r with (r := sumR bins) in B; [|lra]. unfold Rdiv in B. rewrite Rmult_assoc, Rinv_l in B by lra. lra.
Qed.
Lemma first_above_none : forall l r k, first_above l r k = None <-> Forall (fun x => x <= r) l.
Proof.
  induction l as [|x l IH]; intros r k; cbn [first_above]; [split; auto|]. destruct (Rlt_dec r x).
  - split; [discriminate|]. intros H. inversion H; subst. lra.
  - rewrite IH. split; intros H; [constructor; auto; lra | now inversion H].
Qed.
Lemma running_le : forall l a, Forall (fun x => 0 <= x) l -> Forall (fun x => x <= a + sumR l) (running_sums a l).
Proof.
  induction l as [|x l IH]; intros a F; cbn [running_sums]; constructor; inversion F; subst.
  - pose proof (sumR_nonneg l H2). unfold sumR in *. cbn [fold_right]. lra.
  - eapply Forall_impl; [|apply IH; auto]. intros y Y. unfold sumR in *. cbn [fold_right] in *. lra.
Qed.
(** a number below one always finds a cell with a positive bin; one never does *)
Lemma sample_found : forall bins u, Forall (fun x => 0 <= x) bins -> 0 < sumR bins -> 0 <= u <= 1 ->
  (sample_cell bins u = None <-> u = 1) /\ forall j, sample_cell bins u = Some j -> 0 < nth j bins 0.
Proof.
  intros bins u F T U. assert (NE : bins <> []) by (intros ->; unfold sumR in T; cbn in T; lra). unfold sample_cell. rewrite running_last by auto. rewrite Rplus_0_l. split.
  - rewrite first_above_none. split.
    + intros H. destruct (Req_EM_T u 1) as [|N]; auto. exfalso. assert (L : In (sumR bins) (running_sums 0 bins)).
      { rewrite <- (Rplus_0_l (sumR bins)), <- running_last by auto. destruct bins; [congruence|]. cbn [running_sums]. apply exists_last in NE as _. generalize (running_sums (0 + r) bins) as q. intros q. destruct (exists_last (l := (0 + r) :: q) ltac:(discriminate)) as (q' & z & ->). rewrite last_last. apply in_or_app. right. left. auto. }
      rewrite Forall_forall in H. specialize (H _ L). nra.
    + intros ->. rewrite Rmult_1_l. pose proof (running_le bins 0 F) as Q. now rewrite Rplus_0_l in Q.
  - intros j H. rewrite first_above_spec in H by (auto; nra). destruct H as [J [A B]]. rewrite Nat.sub_0_r in *. assert (sumR (firstn (S j) bins) = sumR (firstn j bins) + nth j bins 0).
    { assert (L : (j < length bins)%nat) by lia. revert L. clear. revert j. induction bins as [|x l IH]; intros j L; [cbn in L; lia|]. destruct j; [unfold sumR; cbn; ring|].
      cbn [length] in L. change (firstn (S (S j)) (x :: l)) with (x :: firstn (S j) l). change (firstn (S j) (x :: l)) with (x :: firstn j l). cbn [nth]. unfold sumR in *. cbn [fold_right]. rewrite IH by lia. ring. }
    lra.
Qed.
(** ** positions in the histograms *)
Definition digits_of (cs : list (nat * Z)) (i : nat) : Z := match find (fun c => Nat.eqb (fst c) i) cs with Some c => snd c | None => 0%Z end.
Lemma beam_position : forall h cp1 cp2 s i0 i1 i2 ip1 ip2, beam_axes h = Some (cp1, cp2, s) ->
  beam_index h cp1 cp2 i0 i1 i2 ip1 ip2 = hist_index h (digits_of [(0%nat, i0); (1%nat, i1); (2%nat, i2); (cp1, ip1); (cp2, ip2)]).
Proof.
  intros h cp1 cp2 s i0 i1 i2 ip1 ip2 H. unfold beam_axes in H.
  destruct (negb (an (h_ax h 5) =? 0)%Z); [injection H as <- <- _|destruct (negb (an (h_ax h 10) =? 0)%Z); [injection H as <- <- _|discriminate]];
    unfold beam_index, hist_index, digits_of; cbn [seq fold_left find fst snd Nat.eqb]; ring.
Qed.
Lemma product_position : forall h c0 c1 c2 cp1 cp2 s i0 i1 i2 ip1 ip2, prod_axes h = Some (c0, c1, c2, cp1, cp2, s) ->
  (i0 * h_stride h c0 + i1 * h_stride h c1 + i2 * h_stride h c2 + ip1 * h_stride h cp1 + ip2 * h_stride h cp2)%Z =
  hist_index h (digits_of [(c0, i0); (c1, i1); (c2, i2); (cp1, ip1); (cp2, ip2)]).
Proof.
  intros h c0 c1 c2 cp1 cp2 s i0 i1 i2 ip1 ip2 H. unfold prod_axes in H.
  destruct (negb (an (h_ax h 0) =? 0)%Z); [|destruct (negb (an (h_ax h 3) =? 0)%Z); [|discriminate]];
  (destruct (negb (an (h_ax h 5) =? 0)%Z); [|destruct (negb (an (h_ax h 10) =? 0)%Z); [|discriminate]]); injection H as <- <- <- <- <- _;
    unfold hist_index, digits_of; cbn [seq fold_left find fst snd Nat.eqb]; ring.
Qed.
(** a product is counted exactly when both coordinates are inside their axes, in its own bin *)
Lemma deposit_spec : forall h c0 c1 c2 cp1 cp2 s i0 i1 i2 b x1 x2 w, prod_axes h = Some (c0, c1, c2, cp1, cp2, s) ->
  let a1 := h_ax h cp1 in let a2 := h_ax h cp2 in
  amin a1 < amax a1 -> amin a2 < amax a2 -> (0 < an a1)%Z -> (0 < an a2)%Z ->
  (amin a1 <= x1 < amax a1 /\ amin a2 <= x2 < amax a2 -> exists k1 k2, (0 <= k1 < an a1)%Z /\ (0 <= k2 < an a2)%Z /\
     amin a1 + IZR k1 * width a1 <= x1 < amin a1 + IZR (k1 + 1) * width a1 /\ amin a2 + IZR k2 * width a2 <= x2 < amin a2 + IZR (k2 + 1) * width a2 /\
     deposit h c0 c1 c2 cp1 cp2 i0 i1 i2 b x1 x2 w = addto b (hist_index h (digits_of [(c0, i0); (c1, i1); (c2, i2); (cp1, k1); (cp2, k2)])) w) /\
  (~ (amin a1 <= x1 < amax a1 /\ amin a2 <= x2 < amax a2) -> deposit h c0 c1 c2 cp1 cp2 i0 i1 i2 b x1 x2 w = b).
Proof.
  intros h c0 c1 c2 cp1 cp2 s i0 i1 i2 b x1 x2 w H a1 a2 L1 L2 N1 N2. unfold deposit. fold a1 a2. rewrite !hbin_bin by auto.
  pose proof (bin_box a1 x1 L1 N1) as Q1. pose proof (bin_box a2 x2 L2 N2) as Q2.
  pose proof (proj1 (bin_spec a1 x1 _ L1 N1) eq_refl) as R1. pose proof (proj1 (bin_spec a2 x2 _ L2 N2) eq_refl) as R2.
  rewrite (product_position h c0 c1 c2 cp1 cp2 s _ _ _ _ _ H).
  destruct (_ && _)%bool eqn:E.
  - rewrite !andb_true_iff, !Z.leb_le, !Z.ltb_lt in E. split.
    + intros _. exists (bin a1 x1), (bin a2 x2). repeat split; try lia; try apply R1; try apply R2.
    + intros N. exfalso. apply N. split; [apply Q1|apply Q2]; lia.
  - split; auto. intros [I1 I2]. apply Q1 in I1. apply Q2 in I2. exfalso. apply not_true_iff_false in E. apply E. rewrite !andb_true_iff, !Z.leb_le, !Z.ltb_lt. lia.
Qed.
Lemma strides_prod : forall ax k, (k <= 15)%nat -> strides_down ax k = prod (map (fun i => size1 (an (ax i))) (seq (16 - k) k)).
Proof.
  intros ax. induction k as [|k IH]; intros K; [reflexivity|]. replace (16 - S k)%nat with (15 - k)%nat by lia.
  cbn [strides_down seq map]. replace (S (15 - k)) with (16 - k)%nat by lia. unfold prod in *. cbn [fold_right]. rewrite <- IH by lia. destruct k; [cbn [strides_down]|]; reflexivity.
Qed.
(** finding: in a histogram over flux coordinates the beam sampler reads outside the bins in
    every radial cell but the first *)
Lemma flux_beam_outside : forall req i0 i1 i2 ip1 ip2 cp1 cp2, NoDup (map fst req) -> (forall p, In p req -> (0 < an (snd p))%Z) ->
  an (h_ax (hist_init req) 0) = 0%Z -> (1 <= i0)%Z -> (0 <= i1)%Z -> (0 <= i2)%Z -> (0 <= ip1)%Z -> (0 <= ip2)%Z ->
  (h_nbin (hist_init req) <= beam_index (hist_init req) cp1 cp2 i0 i1 i2 ip1 ip2)%Z.
Proof.
  intros req i0 i1 i2 ip1 ip2 cp1 cp2 ND NZ A0 I0 I1 I2 I3 I4.
  rewrite hist_nbin by (auto; intros p P; specialize (NZ p P); lia).
  assert (SZ : forall i, (1 <= size1 (an (h_ax (hist_init req) i)))%Z).
  { intros i. unfold size1, hist_init. cbn [h_ax]. destruct (in_dec Nat.eq_dec i (map fst req)) as [I|I].
    - apply in_map_iff in I. destruct I as ([j a] & <- & I). cbn [fst]. rewrite (hist_axis_once req j a ND I). cbn [fst]. specialize (NZ _ I). cbn [snd] in NZ. destruct (Z.eqb_spec (an a) 0); lia.
    - rewrite (hist_axis_none req i I). cbn. lia. }
  assert (ST : forall k, (1 <= strides_down (h_ax (hist_init req)) k)%Z).
  { induction k as [|k IH]; [cbn; lia|]. cbn [strides_down]. specialize (SZ (15 - k)%nat). destruct k; nia. }
  assert (S0 : h_stride (hist_init req) 0 = prod (sizes (hist_init req))).
  { unfold sizes. change (seq 0 16) with (0%nat :: seq 1 15). rewrite map_cons. rewrite A0. change (size1 0) with 1%Z.
    transitivity (prod (map (fun i => size1 (an (h_ax (hist_init req) i))) (seq 1 15))); [|unfold prod; cbn [fold_right]; lia].
    exact (strides_prod (h_ax (hist_init req)) 15 ltac:(lia)). }
  unfold beam_index. rewrite S0. assert (P : forall i, (1 <= h_stride (hist_init req) i)%Z) by (intros; apply ST).
  pose proof (P 1%nat). pose proof (P 2%nat). pose proof (P cp1). pose proof (P cp2).
  assert (0 <= prod (sizes (hist_init req)))%Z by (rewrite <- S0; specialize (P 0%nat); lia).
  assert (0 <= i1 * h_stride (hist_init req) 1)%Z by nia. assert (0 <= i2 * h_stride (hist_init req) 2)%Z by nia.
  assert (0 <= ip1 * h_stride (hist_init req) cp1)%Z by nia. assert (0 <= ip2 * h_stride (hist_init req) cp2)%Z by nia. nia.
Qed.
(** ** thermal reactants *)
Lemma thermal_spec : forall ti m u1 u2 u3 u4, 0 <= ti -> 0 <= m -> 0 < u1 <= 1 -> 0 < u2 <= 1 -> 0 <= u4 <= 1 ->
  let p := thermal_momentum ti m u1 u2 u3 u4 in
  let E := - ti * (ln u1 + ln u2 * (cos (u3 * PI / 2) * cos (u3 * PI / 2))) in
  0 <= E /\ fst p * fst p + snd p * snd p = 2 * m * E /\ 0 <= snd p /\ fst p = (1 - 2 * u4) * sqrt (2 * m * E).
Proof.
  intros ti m u1 u2 u3 u4 T M U1 U2 U4. cbn [thermal_momentum fst snd]. replace (0.5 * u3 * PI) with (u3 * PI / 2) by lra. set (c := cos _). replace 1.0 with 1 by lra. set (x := 1 - 2 * u4).
  assert (L : forall u, 0 < u <= 1 -> ln u <= 0) by (intros u U; destruct (Req_EM_T u 1) as [->|]; [rewrite ln_1; lra|]; left; rewrite <- ln_1; apply ln_increasing; lra).
  pose proof (L u1 U1) as La. pose proof (L u2 U2) as Lb. set (E := - ti * (ln u1 + ln u2 * (c * c))). replace (- ti * (ln u1 + ln u2 * c * c)) with E by (unfold E; ring).
  assert (P : 0 <= E) by (unfold E; assert (0 <= c * c) by nra; assert (ln u2 * (c * c) <= 0) by nra; nra). clearbody E.
  assert (X : -1 <= x <= 1) by (unfold x; lra). clearbody x. replace (2 * E * m) with (2 * m * E) by ring. replace ((1 - x * x) * 2 * E * m) with ((1 - x * x) * (2 * m * E)) by ring.
  assert (ME : 0 <= 2 * m * E) by nra. split; auto. split; [|split; [apply sqrt_pos|reflexivity]].
  assert (A : sqrt (2 * m * E) * sqrt (2 * m * E) = 2 * m * E) by now apply sqrt_sqrt.
  assert (B : sqrt ((1 - x * x) * (2 * m * E)) * sqrt ((1 - x * x) * (2 * m * E)) = (1 - x * x) * (2 * m * E)) by (apply sqrt_sqrt; apply Rmult_le_pos; nra).
  rewrite B. transitivity (x * x * (sqrt (2 * m * E) * sqrt (2 * m * E)) + (1 - x * x) * (2 * m * E)); [ring|]. rewrite A. ring.
Qed.
Lemma grid_at : forall (f : nat -> nat -> R) n2 n1 s, length (flat_map (fun a => map (f a) (seq 0 n2)) (seq s n1)) = (n1 * n2)%nat /\
  forall a b, (a < n1)%nat -> (b < n2)%nat -> nth (a * n2 + b) (flat_map (fun a => map (f a) (seq 0 n2)) (seq s n1)) 0 = f (s + a)%nat b.
Proof.
  intros f n2. induction n1 as [|n1 IH]; intros s; cbn [seq flat_map]; [split; [reflexivity|lia]|]. destruct (IH (S s)) as [A B]. split.
  - rewrite app_length, map_length, seq_length, A. lia.
  - intros a b La Lb. destruct a as [|a].
    + rewrite app_nth1 by (rewrite map_length, seq_length; lia). change (0 * n2 + b)%nat with b. rewrite (nth_indep _ 0 (f s 0%nat)) by (rewrite map_length, seq_length; lia).
      rewrite map_nth, seq_nth by lia. f_equal; lia.
    + rewrite app_nth2 by (rewrite map_length, seq_length; nia). rewrite map_length, seq_length. replace (S a * n2 + b - n2)%nat with (a * n2 + b)%nat by lia. rewrite B by lia. f_equal. lia.
Qed.
Lemma cell_bins_at : forall h b cp1 cp2 i0 i1 i2, let n1 := Z.to_nat (an (h_ax h cp1)) in let n2 := Z.to_nat (an (h_ax h cp2)) in
  length (cell_bins h b cp1 cp2 i0 i1 i2) = (n1 * n2)%nat /\
  forall k1 k2, (k1 < n1)%nat -> (k2 < n2)%nat -> nth (k1 * n2 + k2) (cell_bins h b cp1 cp2 i0 i1 i2) 0 = b (beam_index h cp1 cp2 i0 i1 i2 (Z.of_nat k1) (Z.of_nat k2)).
Proof. intros. unfold cell_bins. exact (grid_at (fun x y => b (beam_index h cp1 cp2 i0 i1 i2 (Z.of_nat x) (Z.of_nat y))) n2 n1 0). Qed.
Lemma dot_self_nonneg : forall v, 0 <= dot v v.
Proof. intros [a b c]. unfold dot. cbn [vx vy vz]. pose proof (Rle_0_sqr a). pose proof (Rle_0_sqr b). pose proof (Rle_0_sqr c). unfold Rsqr in *. lra. Qed.
Lemma lab_momentum_iff : forall r v1 v2 u3 u4 w1 w2, 0 <= u4 <= 1 -> let s := boschhale_reaction r in
  product_velocities (rm1 s) (rm2 s) (pm1 s) (pm2 s) (qval s) v1 v2 u3 u4 = (w1, w2) ->
  (vadd (vscal (pm1 s) w1) (vscal (pm2 s) w2) = vadd (vscal (rm1 s) v1) (vscal (rm2 s) v2) <-> vcm (rm1 s) (rm2 s) v1 v2 = vzero).
Proof.
  intros r v1 v2 u3 u4 w1 w2 U s H. assert (P : 0 < rm1 s /\ 0 < rm2 s /\ 0 < pm1 s /\ 0 < pm2 s /\ 0 < qval s /\ 0 < rm1 s + rm2 s - pm1 s - pm2 s) by (unfold s; pose proof E_pos; destruct r; cbn [boschhale_reaction rm1 rm2 pm1 pm2 qval]; repeat split; lra).
  clearbody s. clear r. destruct P as (P1 & P2 & P3 & P4 & P5 & P6). assert (EK : 0 <= qval s + cm_energy (rm1 s) (rm2 s) v1 v2).
  { unfold cm_energy, kin. set (a := vsub v1 _). set (b := vsub v2 _). pose proof (dot_self_nonneg a). pose proof (dot_self_nonneg b). clearbody a b.
    assert (0 <= rm1 s / 2 * dot a a) by (apply Rmult_le_pos; lra). assert (0 <= rm2 s / 2 * dot b b) by (apply Rmult_le_pos; lra). lra. }
  pose proof (lab_momentum _ _ _ _ _ _ _ _ _ _ _ P1 P2 P3 P4 EK U H) as L. set (c := vcm _ _ v1 v2) in *. set (d := rm1 s + rm2 s - pm1 s - pm2 s) in *.
  set (x := vadd (vscal (rm1 s) v1) _) in *. set (y := vadd (vscal (pm1 s) w1) _) in *. clearbody x y c d. clear - L P6.
  destruct x as [x1 x2 x3], y as [y1 y2 y3], c as [c1 c2 c3]. unfold vsub, vscal, vzero in *. cbn [vx vy vz] in *. injection L as L1 L2 L3. split; intros H; injection H as -> -> ->.
  - apply f_equal3; apply Rmult_eq_reg_l with d; lra.
  - apply f_equal3; lra.
Qed.
(** ** the rate *)
Lemma weight_rate : forall r m1 m2 d1 d2 v1 v2 vol n, 0 < m1 -> 0 < m2 -> (0 < n)%nat ->
  INR n * fusion_weight r m1 m2 d1 d2 (vcom2 v1 v2) vol n = vol * (d1 * d2) * (norm (vsub v1 v2) * boschhale_sigma r (cm_energy m1 m2 v1 v2)) /\
  (0 <= d1 -> 0 <= d2 -> 0 <= vol -> 0 <= fusion_weight r m1 m2 d1 d2 (vcom2 v1 v2) vol n).
Proof.
  intros r m1 m2 d1 d2 v1 v2 vol n P1 P2 N. unfold fusion_weight. cbv zeta. rewrite <- (cm_energy_reduced m1 m2 v1 v2 P1 P2).
  replace (sqrt (vcom2 v1 v2)) with (norm (vsub v1 v2)) by (unfold norm, vcom2, vsub, dot; cbn [vx vy vz]; reflexivity).
  pose proof (norm_nonneg (vsub v1 v2)) as NN. set (w := norm _) in *. clearbody w.
  assert (S : 0 <= boschhale_sigma r (cm_energy m1 m2 v1 v2)).
  { destruct (Rle_dec (cm_energy m1 m2 v1 v2 / (1e3 * CONST_E)) (threshold_keV r)) as [L|L].
    - rewrite (proj1 (sigma_sign r _) L). lra.
    - left. apply sigma_sign. lra. }
  set (g := boschhale_sigma _ _) in *. clearbody g. assert (I : 0 < INR n) by (apply lt_0_INR; auto). split; [field; lra|].
  intros D1 D2 V. apply Rmult_le_pos; auto. apply Rmult_le_pos; [|left; apply Rinv_0_lt_compat; auto]. repeat apply Rmult_le_pos; auto.
Qed.
