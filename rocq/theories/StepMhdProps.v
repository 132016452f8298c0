(** Properties of the full-orbit and field-line steps with MHD perturbations (src/simulate/step/step_fo_vpa.c, step_ml_cashkarp.c). *)
From Coq Require Import Reals ZArith Bool List Lra.
From Verif Require Import ErrorModel Vec PhysModel StepFoModel StepFoProofs GcModel RkProofs GcStepProofs StepMhdModel StepMhdProofs.
Import ListNotations.
Local Open Scope R_scope.

(** C86. *)
(** the step with perturbations is the plain step in the perturbed fields, without radiation reaction whatever aldforce is (finding: the switch is ignored) *)
Theorem fo_mhd_step_is_plain_step : forall fields evalBdB evalPsi evalRho evalAxis h a p q,
  fo_step fields evalBdB evalPsi evalRho evalAxis h 0 p = Some q -> fo_step_mhd fields evalBdB evalPsi evalRho evalAxis h a p = q.
Proof. exact fo_mhd_is_plain. Qed.
Print Assumptions fo_mhd_step_is_plain_step.
(** a zero perturbation changes nothing *)
Theorem fo_mhd_unperturbed_is_plain : forall evalB evalE pert evalBdB evalPsi evalRho evalAxis h a p q,
  (forall r f z t e B, evalB r f z t = (e, B) -> e = 0%Z -> pert r f z t = (0%Z, B, vzero)) ->
  fo_step (plain_fields evalB evalE) evalBdB evalPsi evalRho evalAxis h 0 p = Some q ->
  fo_step_mhd (mhd_fields evalB evalE pert) evalBdB evalPsi evalRho evalAxis h a p = q.
Proof. exact fo_mhd_unperturbed. Qed.
Print Assumptions fo_mhd_unperturbed_is_plain.
(** finding: the radiation reaction cannot be switched on *)
Theorem fo_mhd_ignores_ald_refuted : forall fields evalBdB evalPsi evalRho evalAxis h a b p,
  fo_step_mhd fields evalBdB evalPsi evalRho evalAxis h a p = fo_step_mhd fields evalBdB evalPsi evalRho evalAxis h b p.
Proof. exact fo_mhd_total. Qed.
Print Assumptions fo_mhd_ignores_ald_refuted.
(** the field line is that of the field frozen at the time of the marker *)
Theorem ml_mhd_step_is_cash_karp : forall pert evalBdB evalPsi evalRho evalAxis junk B h tol p hn, (forall r phi z t, pert r phi z t = (0%Z, B r phi z t)) -> mrun p = true ->
  let f := fun (s : R) (y : nat -> R) => ml_k (direction (mpitch p)) (y 0%nat) (B (y 0%nat) (y 1%nat) (y 2%nat) (mtime p)) in
  let y5 := runge_kutta cash_karp (tb cash_karp) f (mtime p) h (my p) in let y4 := runge_kutta cash_karp cash_karp4 f (mtime p) h (my p) in
  my (fst (ml_step_mhd pert evalBdB evalPsi evalRho evalAxis junk h tol p hn)) = y5 /\
  snd (ml_step_mhd pert evalBdB evalPsi evalRho evalAxis junk h tol p hn) = ml_hnext h (ml_err h (my p) (f (mtime p) (my p)) y5 y4) tol.
Proof. exact ml_mhd_is_rk. Qed.
Print Assumptions ml_mhd_step_is_cash_karp.
Theorem ml_mhd_unperturbed_is_plain : forall pert evalB evalBdB evalPsi evalRho evalAxis junk (B : R -> R -> R -> vec) h tol p hn,
  (forall r phi z t, evalB r phi z t = (0%Z, B r phi z)) -> (forall r phi z t, pert r phi z t = (0%Z, B r phi z)) ->
  V (mB p 0%nat) (mB p 4%nat) (mB p 8%nat) = B (my p 0%nat) (my p 1%nat) (my p 2%nat) ->
  ml_step_mhd pert evalBdB evalPsi evalRho evalAxis junk h tol p hn = ml_step evalB evalBdB evalPsi evalRho evalAxis junk h tol p hn.
Proof. exact ml_mhd_unperturbed. Qed.
Print Assumptions ml_mhd_unperturbed_is_plain.
(** errors while following a field line are never reported *)
Theorem ml_mhd_error_reported_refuted : forall pert evalBdB evalPsi evalRho evalAxis junk h tol p hn,
  merr (fst (ml_step_mhd pert evalBdB evalPsi evalRho evalAxis junk h tol p hn)) = merr p /\ mrun (fst (ml_step_mhd pert evalBdB evalPsi evalRho evalAxis junk h tol p hn)) = mrun p.
Proof. exact ml_mhd_no_error. Qed.
Print Assumptions ml_mhd_error_reported_refuted.

(** a magnetic perturbation of a vertical field tilts the field line: slope 1/2 *)
Example ml_tilted : forall evalBdB evalPsi evalRho evalAxis junk h tol t, let p := Mlm (fun _ => 1) t 1 (fun _ => 0) 0 0 0 true in
  let y := my (fst (ml_step_mhd (fun _ _ _ _ => (0%Z, V 3 0 4)) evalBdB evalPsi evalRho evalAxis junk h tol p (Fin 0))) in
  y 0%nat = 1 + 3 / 5 * h /\ y 2%nat = 1 + 4 / 5 * h.
Proof.
  intros. destruct (ml_mhd_step_is_cash_karp (fun _ _ _ _ => (0%Z, V 3 0 4)) evalBdB evalPsi evalRho evalAxis junk (fun _ _ _ _ => V 3 0 4) h tol p (Fin 0)) as [A _]; auto.
  assert (N : norm (V 3 0 4) = 5) by (unfold norm, dot; cbn [vx vy vz]; replace (3 * 3 + 0 * 0 + 4 * 4) with (5 * 5) by ring; apply sqrt_square; lra).
  assert (D : direction (mpitch p) = 1) by (unfold direction; cbn [mpitch p]; destruct (Rlt_dec 1 0); lra).
  unfold y. rewrite A. split.
  - rewrite (ck5_poly _ _ _ _ 0%nat (3/5) 0 0 0 0); [cbn [my p]; field|]. intros s z. unfold ml_k. rewrite N, D. cbn [vx]. field.
  - rewrite (ck5_poly _ _ _ _ 2%nat (4/5) 0 0 0 0); [cbn [my p]; field|]. intros s z. unfold ml_k. rewrite N, D. cbn [vz]. field.
Qed.
(** a perturbation that cannot be evaluated ends the marker where it is *)
Example fo_mhd_failed : forall evalB evalE evalBdB evalPsi evalRho evalAxis h a p, frun p = true ->
  (forall r f z t, fst (evalB r f z t) = 0%Z /\ fst (evalE r f z t) = 0%Z) ->
  let q := fo_step_mhd (mhd_fields evalB evalE (fun _ _ _ _ => (5%Z, vzero, vzero))) evalBdB evalPsi evalRho evalAxis h a p in
  fr q = fr p /\ fp q = fp p /\ ferr q = 5%Z /\ frun q = false.
Proof.
  intros evalB evalE evalBdB evalPsi evalRho evalAxis h a p RUN H q. unfold q, fo_step_mhd. rewrite RUN. cbv zeta. unfold mhd_fields.
  match goal with |- context [evalB ?r ?f ?z ?t] => destruct (H r f z t) as [HB HE]; destruct (evalB r f z t) as [e B]; destruct (evalE r f z t) as [e' E] end.
  cbn [fst] in *. subst e e'. cbn [Z.eqb]. cbn. auto.
Qed.
