From Coq Require Import Reals ZArith Bool List Lra Lia Psatz.
Import ListNotations.
From Verif Require Import Vec PhysModel PhysProofs IdtModel.
Local Open Scope R_scope.

(** ** Specification: a charge in a uniform field *)
Definition vderiv (p : R -> vec) (t : R) (d : vec) : Prop :=
  derivable_pt_lim (fun s => vx (p s)) t (vx d) /\ derivable_pt_lim (fun s => vy (p s)) t (vy d) /\ derivable_pt_lim (fun s => vz (p s)) t (vz d).
Definition lorentz_factor (m : R) (p : vec) : R := sqrt (1 + dot p p / ((m * CONST_C) * (m * CONST_C))).
(** dp/dt = q v x B with v = p / (gamma m) *)
Definition gyrates (m q : R) (B : vec) (p : R -> vec) : Prop :=
  forall t, vderiv p t (vscal q (cross (vscal (/ (m * lorentz_factor m (p t))) (p t)) B)).
(** T is the smallest time after which the momentum is what it was *)
Definition period (p : R -> vec) (T : R) : Prop := 0 < T /\ (forall t, p (t + T) = p t) /\ forall t s, 0 < s < T -> p (t + s) <> p t.
(** magnetic moment and parallel momentum of a momentum *)
Definition gc_of (m : R) (B p : vec) (mu ppar : R) : Prop := ppar = dot p B / norm B /\ mu = (dot p p - ppar * ppar) / (2 * m * norm B).

(** ** Proofs *)
Lemma const_of f : (forall t, derivable_pt_lim f t 0) -> forall a b, f a = f b.
Proof.
  intros H. assert (pr : derivable f) by (intros t; exists 0; apply H).
  apply (null_derivative_1 f pr). intros t. apply derive_pt_eq_0. apply H.
Qed.
Lemma lim_eq f t a b : derivable_pt_lim f t a -> a = b -> derivable_pt_lim f t b.
Proof. now intros H <-. Qed.
Lemma lim_ext (f g : R -> R) t a : (forall x, f x = g x) -> derivable_pt_lim f t a -> derivable_pt_lim g t a.
Proof. intros E H e P. destruct (H e P) as [d Q]. exists d. intros h N S. rewrite <- !E. now apply Q. Qed.
Lemma lim_mul f g t a b : derivable_pt_lim f t a -> derivable_pt_lim g t b -> derivable_pt_lim (fun s => f s * g s) t (a * g t + f t * b).
Proof. apply derivable_pt_lim_mult. Qed.
Lemma lim_add f g t a b : derivable_pt_lim f t a -> derivable_pt_lim g t b -> derivable_pt_lim (fun s => f s + g s) t (a + b).
Proof. apply derivable_pt_lim_plus. Qed.
Lemma lim_sub f g t a b : derivable_pt_lim f t a -> derivable_pt_lim g t b -> derivable_pt_lim (fun s => f s - g s) t (a - b).
Proof. apply derivable_pt_lim_minus. Qed.
Lemma lim_k k f t a : derivable_pt_lim f t a -> derivable_pt_lim (fun s => k * f s) t (k * a).
Proof. apply derivable_pt_lim_scal. Qed.
Lemma lim_cos w t : derivable_pt_lim (fun s => cos (w * s)) t (- w * sin (w * t)).
Proof.
  eapply lim_eq; [apply (derivable_pt_lim_comp (fun s => w * s) cos t w (- sin (w * t))); [|apply derivable_pt_lim_cos]|ring].
  eapply lim_eq; [apply (lim_k w (fun s => s) t 1), derivable_pt_lim_id|ring].
Qed.
Lemma lim_sin w t : derivable_pt_lim (fun s => sin (w * s)) t (w * cos (w * t)).
Proof.
  eapply lim_eq; [apply (derivable_pt_lim_comp (fun s => w * s) sin t w (cos (w * t))); [|apply derivable_pt_lim_sin]|ring].
  eapply lim_eq; [apply (lim_k w (fun s => s) t 1), derivable_pt_lim_id|ring].
Qed.
(** two functions that turn into each other *)
Lemma turning f g w : (forall t, derivable_pt_lim f t (w * g t)) -> (forall t, derivable_pt_lim g t (- w * f t)) ->
  forall t s, f (t + s) = f t * cos (w * s) + g t * sin (w * s) /\ g (t + s) = g t * cos (w * s) - f t * sin (w * s).
Proof.
  intros F G.
  assert (A : forall a b, f a * cos (w * a) - g a * sin (w * a) = f b * cos (w * b) - g b * sin (w * b)).
  { apply const_of. intros t. eapply lim_eq; [apply (lim_sub (fun s => f s * cos (w * s)) (fun s => g s * sin (w * s)) t); apply lim_mul; [apply F|apply lim_cos|apply G|apply lim_sin]|]. cbn beta. ring. }
  assert (B : forall a b, f a * sin (w * a) + g a * cos (w * a) = f b * sin (w * b) + g b * cos (w * b)).
  { apply const_of. intros t. eapply lim_eq; [apply (lim_add (fun s => f s * sin (w * s)) (fun s => g s * cos (w * s)) t); apply lim_mul; [apply F|apply lim_sin|apply G|apply lim_cos]|]. cbn beta. ring. }
  intros t s. specialize (A (t + s) t). specialize (B (t + s) t).
  assert (CS : forall x, sin x * sin x + cos x * cos x = 1) by (intros x; pose proof (sin2_cos2 x) as Q; unfold Rsqr in Q; lra).
  pose proof (CS (w * (t + s))) as U. pose proof (CS (w * t)) as U'.
  set (ft := f (t + s)) in *. set (gt := g (t + s)) in *. set (c := cos (w * (t + s))) in *. set (d := sin (w * (t + s))) in *. set (c0 := cos (w * t)) in *. set (d0 := sin (w * t)) in *.
  assert (E1 : cos (w * s) = c * c0 + d * d0) by (replace (w * s) with (w * (t + s) - w * t) by ring; unfold c, c0, d, d0; apply cos_minus).
  assert (E2 : sin (w * s) = d * c0 - c * d0) by (replace (w * s) with (w * (t + s) - w * t) by ring; unfold c, c0, d, d0; apply sin_minus).
  rewrite E1, E2. split.
  - transitivity (ft * (d * d + c * c)); [rewrite U; ring|]. transitivity (c * (ft * c - gt * d) + d * (ft * d + gt * c)); [ring|]. rewrite A, B. ring.
  - transitivity (gt * (d * d + c * c)); [rewrite U; ring|]. transitivity (c * (ft * d + gt * c) - d * (ft * c - gt * d)); [ring|]. rewrite A, B. ring.
Qed.
Lemma cos_below x : 0 < x < 2 * PI -> cos x < 1.
Proof.
  intros H. replace x with (2 * (x / 2)) by field. rewrite cos_2a_sin. assert (0 < sin (x / 2)) by (apply sin_gt_0; lra). nra.
Qed.
Lemma turn_abs w s : cos (w * s) = cos (Rabs w * s) /\ (sin (Rabs w * s) = 0 -> sin (w * s) = 0).
Proof.
  unfold Rabs. destruct (Rcase_abs w); [|tauto]. replace (- w * s) with (- (w * s)) by ring. rewrite cos_neg, sin_neg. split; [reflexivity|lra].
Qed.

Section motion.
Variables (m q : R) (B : vec) (p : R -> vec).
Hypotheses (M : 0 < m) (Q : q <> 0) (HB : B <> vzero) (G : gyrates m q B p).
Let k t := q / (m * lorentz_factor m (p t)).
Lemma comps t : derivable_pt_lim (fun s => vx (p s)) t (k t * vx (cross (p t) B)) /\ derivable_pt_lim (fun s => vy (p s)) t (k t * vy (cross (p t) B)) /\ derivable_pt_lim (fun s => vz (p s)) t (k t * vz (cross (p t) B)).
Proof.
  destruct (G t) as (X & Y & W). unfold k, Rdiv. repeat split; eapply lim_eq; try eassumption; unfold vscal, cross; cbn [vx vy vz]; ring.
Qed.
Lemma dot_const s t : dot (p s) (p s) = dot (p t) (p t).
Proof.
  revert s t. apply const_of. intros t. destruct (comps t) as (X & Y & W). unfold dot.
  eapply lim_eq; [apply (lim_add (fun s => vx (p s) * vx (p s) + vy (p s) * vy (p s)) (fun s => vz (p s) * vz (p s)) t); [apply (lim_add (fun s => vx (p s) * vx (p s)) (fun s => vy (p s) * vy (p s)) t)|]; apply lim_mul; eassumption|].
  unfold cross. cbn [vx vy vz]. cbn beta. ring.
Qed.
Lemma k_const t : k t = k 0.
Proof. unfold k, lorentz_factor. now rewrite (dot_const t 0). Qed.
Lemma along_const s t : dot (p s) B = dot (p t) B.
Proof.
  revert s t. apply const_of. intros t. destruct (comps t) as (X & Y & W). unfold dot.
  apply (lim_ext (fun s => vx B * vx (p s) + vy B * vy (p s) + vz B * vz (p s))); [intros; ring|].
  eapply lim_eq; [apply (lim_add (fun s => vx B * vx (p s) + vy B * vy (p s)) (fun s => vz B * vz (p s)) t); [apply (lim_add (fun s => vx B * vx (p s)) (fun s => vy B * vy (p s)) t)|]; apply lim_k; eassumption|].
  unfold cross. cbn [vx vy vz]. cbn beta. ring.
Qed.
Let b := norm B.
Let w := k 0 * b.
Let D := dot (p 0) B.
Lemma turn_one (c : vec -> R) : (c = vx \/ c = vy \/ c = vz) ->
  let f := fun t => dot B B * c (p t) - c B * D in let g := fun t => b * c (cross (p t) B) in
  (forall t, derivable_pt_lim f t (w * g t)) /\ (forall t, derivable_pt_lim g t (- w * f t)).
Proof.
  intros C f g. assert (BB : b * b = dot B B) by apply norm_sq. split; intros t.
  - unfold f. assert (X0 : derivable_pt_lim (fun s => c (p s)) t (k 0 * c (cross (p t) B))).
    { destruct (comps t) as (X & Y & W). rewrite k_const in X, Y, W. destruct C as [E|[E|E]]; subst c; assumption. }
    eapply lim_eq; [apply (lim_sub (fun s => dot B B * c (p s)) (fun _ => c B * D) t (dot B B * (k 0 * c (cross (p t) B))) 0); [apply lim_k, X0|apply derivable_pt_lim_const]|].
    unfold g, w. rewrite <- BB. ring.
  - unfold g, w. destruct (comps t) as (X & Y & W). rewrite k_const in X, Y, W.
    assert (DD : D = dot (p t) B) by apply along_const. unfold f. rewrite DD, <- BB.
    assert (E : forall e, derivable_pt_lim (fun s => c (cross (p s) B)) t e -> e = - (k 0 * (dot B B * c (p t) - c B * dot (p t) B)) -> derivable_pt_lim (fun s => b * c (cross (p s) B)) t (- (k 0 * b) * (b * b * c (p t) - c B * dot (p t) B))).
    { intros e L Ee. eapply lim_eq; [apply lim_k, L|]. rewrite Ee, <- BB. ring. }
    destruct C as [C|[C|C]]; subst c; unfold cross in *; cbn [vx vy vz] in *.
    + eapply E; [apply (lim_ext (fun s => vz B * vy (p s) - vy B * vz (p s))); [intros; ring|]; apply lim_sub; apply lim_k; eassumption|]. unfold dot. ring.
    + eapply E; [apply (lim_ext (fun s => vx B * vz (p s) - vz B * vx (p s))); [intros; ring|]; apply lim_sub; apply lim_k; eassumption|]. unfold dot. ring.
    + eapply E; [apply (lim_ext (fun s => vy B * vx (p s) - vx B * vy (p s))); [intros; ring|]; apply lim_sub; apply lim_k; eassumption|]. unfold dot. ring.
Qed.
Lemma turn_all (c : vec -> R) t s : (c = vx \/ c = vy \/ c = vz) ->
  dot B B * c (p (t + s)) - c B * D = (dot B B * c (p t) - c B * D) * cos (w * s) + b * c (cross (p t) B) * sin (w * s) /\
  b * c (cross (p (t + s)) B) = b * c (cross (p t) B) * cos (w * s) - (dot B B * c (p t) - c B * D) * sin (w * s).
Proof.
  intros C. destruct (turn_one c C) as [F H].
  exact (turning (fun t => dot B B * c (p t) - c B * D) (fun t => b * c (cross (p t) B)) w F H t s).
Qed.
Lemma vec_eq (a c : vec) : vx a = vx c -> vy a = vy c -> vz a = vz c -> a = c.
Proof. destruct a, c; cbn; congruence. Qed.
Lemma b_pos : 0 < b. Proof. now apply norm_pos. Qed.
Lemma BB_pos : 0 < dot B B. Proof. rewrite <- norm_sq. pose proof b_pos. unfold b in *. nra. Qed.
Lemma factor_pos : 1 <= lorentz_factor m (p 0).
Proof.
  unfold lorentz_factor. rewrite <- sqrt_1 at 1. apply sqrt_le_1_alt. pose proof (dot_nonneg (p 0)). pose proof C_pos.
  assert (0 <= dot (p 0) (p 0) / (m * CONST_C * (m * CONST_C))); [|lra]. apply Rmult_le_pos; auto. left. apply Rinv_0_lt_compat. assert (0 < m * CONST_C) by nra. nra.
Qed.
Lemma w_nz : w <> 0.
Proof. pose proof b_pos. pose proof factor_pos. unfold w, k, Rdiv. apply Rmult_integral_contrapositive_currified; [|lra]. apply Rmult_integral_contrapositive_currified; auto. apply Rinv_neq_0_compat. nra. Qed.
Lemma freq : Rabs w = Rabs q * norm B / (m * lorentz_factor m (p 0)).
Proof.
  pose proof factor_pos. unfold w, k, Rdiv. rewrite !Rabs_mult, (Rabs_pos_eq b) by (left; apply b_pos). rewrite (Rabs_pos_eq (/ _)) by (left; apply Rinv_0_lt_compat; nra). fold b. ring.
Qed.
Lemma motion_period : cross (p 0) B <> vzero -> period p (2 * PI / Rabs w).
Proof.
  intros NZ. pose proof (Rabs_pos_lt w w_nz) as W. pose proof PI_RGT_0. pose proof BB_pos as BBp. pose proof b_pos as Bp. split; [apply Rdiv_lt_0_compat; lra|]. split.
  - intros t. assert (E : Rabs w * (2 * PI / Rabs w) = 2 * PI) by (field; lra). destruct (turn_abs w (2 * PI / Rabs w)) as [C S]. rewrite E in C, S. rewrite cos_2PI in C. specialize (S sin_2PI).
    assert (P : forall c, c = vx \/ c = vy \/ c = vz -> c (p (t + 2 * PI / Rabs w)) = c (p t)).
    { intros c Cc. destruct (turn_all c t (2 * PI / Rabs w) Cc) as [T _]. rewrite C, S in T. apply Rmult_eq_reg_l with (dot B B); lra. }
    apply vec_eq; apply P; auto.
  - intros t s [S0 S1] E. assert (C1 : cos (w * s) < 1).
    { destruct (turn_abs w s) as [-> _]. apply cos_below. split; [nra|]. apply Rlt_le_trans with (Rabs w * (2 * PI / Rabs w)); [now apply Rmult_lt_compat_l|right; field; lra]. }
    pose proof (sin2_cos2 (w * s)) as U. unfold Rsqr in U.
    (* the part across the field never vanishes *)
    assert (N : forall c, c = vx \/ c = vy \/ c = vz -> c (cross (p t) B) = 0 /\ dot B B * c (p t) - c B * D = 0).
    { intros c Cc. destruct (turn_all c t s Cc) as [T1 T2]. rewrite E in T1, T2.
      set (f := dot B B * c (p t) - c B * D) in *. set (g := b * c (cross (p t) B)) in *. set (x := cos (w * s)) in *. set (y := sin (w * s)) in *.
      assert (F0 : (1 - x) * f = 0) by (assert (2 * (1 - x) * f = (1 - x) * (f - f * x - g * y) + y * (g - g * x + f * y) + f * (1 - x * x - y * y)) as Z1 by ring; nra).
      assert (G0 : (1 - x) * g = 0) by (assert (2 * (1 - x) * g = (1 - x) * (g - g * x + f * y) - y * (f - f * x - g * y) + g * (1 - x * x - y * y)) as Z1 by ring; nra).
      split; [|nra]. assert (g = 0) by nra. unfold g in *. nra. }
    apply NZ. assert (Z0 : forall c, c = vx \/ c = vy \/ c = vz -> c (cross (p 0) B) = 0).
    { intros c Cc. destruct (N c Cc) as [N1 N2]. destruct (turn_all c t (0 - t) Cc) as [_ T]. replace (t + (0 - t)) with 0 in T by ring. rewrite N1, N2 in T. nra. }
    apply vec_eq; unfold vzero; cbn [vx vy vz]; apply Z0; auto.
Qed.
End motion.

Lemma factor_pnorm m p : gamma_pnorm m (norm p) = lorentz_factor m p.
Proof. unfold gamma_pnorm, lorentz_factor. rewrite norm_sq. do 2 f_equal. unfold CONST_C2. f_equal. ring. Qed.
Lemma factor_ppar m B p mu ppar : 0 < m -> B <> vzero -> gc_of m B p mu ppar -> gamma_ppar m mu ppar (norm B) = lorentz_factor m p.
Proof.
  intros M HB [E1 E2]. pose proof (norm_pos B HB). pose proof C_pos. unfold gamma_ppar, lorentz_factor. f_equal. rewrite E2. unfold CONST_C2. field. repeat split; lra.
Qed.
Lemma over_some x y : y <> 0 -> over x y = Some (x / y).
Proof. intros. unfold over. destruct (Req_EM_T y 0); congruence. Qed.

Section steps.
Variables (o : idt_opt) (m q : R) (B : vec) (p : R -> vec).
Hypotheses (U : usrdef_use o = false) (N : (0 < gyrodef_nstep o)%Z) (M : 0 < m) (Q : q <> 0) (HB : B <> vzero) (G : gyrates m q B p) (NZ : cross (p 0) B <> vzero).
Lemma freq_pos : 0 < Rabs q * norm B / (m * lorentz_factor m (p 0)).
Proof. pose proof (factor_pos m p M). pose proof (norm_pos B HB). apply Rdiv_lt_0_compat; [apply Rmult_lt_0_compat; auto; now apply Rabs_pos_lt|nra]. Qed.
Lemma nstep_pos : 0 < IZR (gyrodef_nstep o). Proof. now apply IZR_lt. Qed.
Lemma fo_step : exists h, fo_fixed_inidt o m q B (p 0) = Some h /\ period p (IZR (gyrodef_nstep o) * h).
Proof.
  pose proof freq_pos as F. pose proof nstep_pos. unfold fo_fixed_inidt, gyrofreq_pnorm. rewrite U, factor_pnorm. rewrite (over_some (2 * PI) (Rabs q * norm B / (m * lorentz_factor m (p 0)))) by lra. cbn [obind]. rewrite over_some by lra.
  eexists. split; [reflexivity|]. replace (IZR _ * _) with (2 * PI / (Rabs q * norm B / (m * lorentz_factor m (p 0)))).
  - rewrite <- freq by auto. now apply motion_period.
  - set (z := Rabs q * norm B / (m * lorentz_factor m (p 0))) in *. field. split; lra.
Qed.
Lemma gc_step mu ppar : gc_of m B (p 0) mu ppar -> exists h, gc_fixed_inidt o m q mu ppar B = Some h /\ period p (IZR (gyrodef_nstep o) * h).
Proof.
  intros GC. pose proof freq_pos as F. pose proof nstep_pos. unfold gc_fixed_inidt, gyrofreq_ppar. rewrite U, (factor_ppar m B (p 0) mu ppar M HB GC). rewrite (over_some (2 * PI) (Rabs q * norm B / (m * lorentz_factor m (p 0)))) by lra. cbn [obind]. rewrite over_some by lra.
  eexists. split; [reflexivity|]. replace (IZR _ * _) with (2 * PI / (Rabs q * norm B / (m * lorentz_factor m (p 0)))).
  - rewrite <- freq by auto. now apply motion_period.
  - set (z := Rabs q * norm B / (m * lorentz_factor m (p 0))) in *. field. split; lra.
Qed.
End steps.
(** the adaptive step is the least of the limits that apply *)
Definition limits (o : idt_opt) (T : R) : list R := 1 :: (if orbfol o then [T] else []) ++ (if clmbcol o then [1 / 100] else []).
Lemma gca_step o m q B p mu ppar : usrdef_use o = false -> 0 < m -> q <> 0 -> B <> vzero -> gyrates m q B p -> cross (p 0) B <> vzero -> gc_of m B (p 0) mu ppar ->
  exists T, period p T /\ In (gc_adaptive_inidt o m q mu ppar B) (limits o T) /\ forall x, In x (limits o T) -> gc_adaptive_inidt o m q mu ppar B <= x.
Proof.
  intros U M Q HB G NZ GC. pose proof (freq_pos m q B p M Q HB) as F. exists (2 * PI / (Rabs q * norm B / (m * lorentz_factor m (p 0)))).
  split; [rewrite <- freq by auto; now apply motion_period|].
  unfold gc_adaptive_inidt, gyrofreq_ppar, limits. rewrite U, (factor_ppar m B (p 0) mu ppar M HB GC). rewrite (over_some (2 * PI) (Rabs q * norm B / (m * lorentz_factor m (p 0)))) by lra.
  set (T := 2 * PI / _). replace (over 1 (100 * 1)) with (Some (1 / 100)) by (rewrite over_some by lra; f_equal; field). unfold DUMMY_TIMESTEP_VAL, least.
  destruct (orbfol o), (clmbcol o); cbn [In app]; try destruct (Rlt_dec T 1); repeat match goal with |- context [Rlt_dec ?a ?b] => destruct (Rlt_dec a b) end;
    (split; [tauto|]); intros x I; repeat (destruct I as [I|I]; [subst x; lra|]); destruct I.
Qed.
Lemma user_step o m q B p mu ppar : usrdef_use o = true ->
  fo_fixed_inidt o m q B p = Some (usrdef_val o) /\ gc_fixed_inidt o m q mu ppar B = Some (usrdef_val o) /\ gc_adaptive_inidt o m q mu ppar B = usrdef_val o.
Proof. intros U. unfold fo_fixed_inidt, gc_fixed_inidt, gc_adaptive_inidt. rewrite U. auto. Qed.
(** no step exists exactly for neutrals, without field or for a count of zero *)
Lemma fo_step_none o m q B p : usrdef_use o = false -> 0 < m -> fo_fixed_inidt o m q B p = None <-> q = 0 \/ B = vzero \/ gyrodef_nstep o = 0%Z.
Proof.
  intros U M. unfold fo_fixed_inidt, gyrofreq_pnorm. rewrite U, factor_pnorm. pose proof (factor_pos m (fun _ => p) M) as F. cbn beta in F.
  assert (E : Rabs q * norm B / (m * lorentz_factor m p) = 0 <-> q = 0 \/ B = vzero).
  { split.
    - intros E. destruct (Req_EM_T q 0); auto. right. apply norm_zero. destruct (Req_EM_T (norm B) 0) as [|NB]; auto. exfalso. revert E.
      unfold Rdiv. apply Rmult_integral_contrapositive_currified; [apply Rmult_integral_contrapositive_currified; auto; now apply Rabs_no_R0|apply Rinv_neq_0_compat; nra].
    - intros [E|E]; [rewrite E, Rabs_R0|apply norm_zero in E; rewrite E]; unfold Rdiv; ring. }
  unfold over at 1. destruct (Req_EM_T _ 0) as [Z0|Z0]; cbn [obind]; [split; intros; [tauto|reflexivity]|].
  unfold over. destruct (Req_EM_T (IZR _) 0) as [Z1|Z1].
  - split; auto. intros _. right. right. now apply eq_IZR in Z1.
  - split; [discriminate|]. intros [H|[H|H]]; [tauto|tauto|]. rewrite H in Z1. now destruct Z1.
Qed.
(** with collisions the documentation promises a hundredth of the collision time *)
Lemma gca_collisions m q B mu ppar nu : 1 < nu -> 1 / (100 * nu) < gc_adaptive_inidt (mkidt false 0 1 false true) m q mu ppar B.
Proof.
  intros N. unfold gc_adaptive_inidt, DUMMY_TIMESTEP_VAL, least, over. cbn [usrdef_use orbfol clmbcol]. destruct (Req_EM_T (100 * 1) 0); [lra|].
  assert (1 / (100 * nu) < 1 / 100). { unfold Rdiv. rewrite !Rmult_1_l. apply Rinv_lt_contravar; lra. }
  destruct (Rlt_dec _ _); lra.
Qed.
(** a momentum that gyrates *)
Definition helix (w a z : R) (t : R) : vec := V (a * cos (w * t)) (- a * sin (w * t)) z.
Lemma helix_gyrates m q Bz a z : 0 < m -> gyrates m q (V 0 0 Bz) (helix (q * Bz / (m * lorentz_factor m (V a 0 z))) a z).
Proof.
  intros M t. set (w := _ / _). assert (L : lorentz_factor m (helix w a z t) = lorentz_factor m (V a 0 z)).
  { unfold lorentz_factor, helix, dot. cbn [vx vy vz]. do 3 f_equal. pose proof (sin2_cos2 (w * t)) as S. unfold Rsqr in S.
    transitivity (a * a * (sin (w * t) * sin (w * t) + cos (w * t) * cos (w * t)) + z * z); [ring|]. rewrite S. ring. }
  rewrite L. pose proof (factor_pos m (fun _ => V a 0 z) M) as F. cbn beta in F. assert (NZ : m * lorentz_factor m (V a 0 z) <> 0) by nra.
  unfold vderiv, helix, vscal, cross. cbn [vx vy vz]. repeat split.
  - eapply lim_eq; [apply lim_k, lim_cos|]. unfold w. field. split; [nra|lra] || (split; lra).
  - eapply lim_eq; [apply lim_k, lim_sin|]. unfold w. field. split; lra.
  - eapply lim_eq; [apply derivable_pt_lim_const|]. ring.
Qed.
