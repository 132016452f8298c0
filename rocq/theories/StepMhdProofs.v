(** Proofs about the full-orbit and field-line steps with MHD perturbations. *)
From Coq Require Import Reals ZArith Bool Lra.
From Verif Require Import ErrorModel Vec PhysModel StepFoModel StepFoProofs GcModel RkProofs GcStepProofs StepMhdModel.
Local Open Scope R_scope.

(** without radiation reaction the step with perturbations is the plain step in the perturbed fields *)
Lemma fo_mhd_is_plain : forall fields evalBdB evalPsi evalRho evalAxis h a p q,
  fo_step fields evalBdB evalPsi evalRho evalAxis h 0 p = Some q -> fo_step_mhd fields evalBdB evalPsi evalRho evalAxis h a p = q.
Proof.
  intros fields evalBdB evalPsi evalRho evalAxis h a p q. unfold fo_step, fo_step_mhd. destruct (frun p); [|intros E; injection E as <-; reflexivity].
  cbv zeta. set (x1 := drift (fmass p) h (to_xyz (fp p) (fphi p)) (pos_xyz (fr p) (fphi p) (fz p))). clearbody x1.
  destruct (fields _ _ _ _) as [[err B] E]. set (p' := if (err =? 0)%Z then boris _ _ _ _ _ _ else _). clearbody p'.
  set (x2 := drift (fmass p) h p' x1). clearbody x2.
  match goal with |- context [fr (if (err =? 0)%Z then ?a else p)] => set (q1 := if (err =? 0)%Z then a else p) end. clearbody q1.
  destruct (if (err =? 0)%Z then evalBdB (fr q1) (fphi q1) (fz q1) (ftime p + h) else (err, fun _ => 0)) as [err1 BdB].
  destruct (if (err1 =? 0)%Z then evalPsi (fr q1) (fphi q1) (fz q1) (ftime p + h) else (err1, 0)) as [err2 psi].
  destruct (if (err2 =? 0)%Z then evalRho psi else (err2, 0)) as [err3 rho].
  match goal with |- context [match (if (err3 =? 0)%Z then ?a else _) with _ => _ end] => destruct (if (err3 =? 0)%Z then a else (err3, q1)) as [err4 q2] end.
  destruct (ald 0 _ _ _ _ _) as [v|] eqn:AL; [|discriminate]. apply ald_off in AL. subst v. intros Q. injection Q as <-. reflexivity.
Qed.
(** it is defined where the plain one is not: at rest and where the field vanishes *)
Lemma fo_mhd_total : forall fields evalBdB evalPsi evalRho evalAxis h a b p,
  fo_step_mhd fields evalBdB evalPsi evalRho evalAxis h a p = fo_step_mhd fields evalBdB evalPsi evalRho evalAxis h b p.
Proof. reflexivity. Qed.
(** a perturbation that is zero changes nothing *)
Lemma mhd_fields_zero : forall evalB evalE pert r f z t,
  (forall e B, evalB r f z t = (e, B) -> e = 0%Z -> pert r f z t = (0%Z, B, vzero)) ->
  fst (fst (mhd_fields evalB evalE pert r f z t)) = fst (fst (plain_fields evalB evalE r f z t)) /\
  (fst (fst (plain_fields evalB evalE r f z t)) = 0%Z -> mhd_fields evalB evalE pert r f z t = plain_fields evalB evalE r f z t).
Proof.
  intros evalB evalE pert r f z t H. unfold mhd_fields, plain_fields. destruct (evalB r f z t) as [e B] eqn:EB. destruct (Z.eqb_spec e 0) as [->|N].
  - destruct (evalE r f z t) as [e' E]. destruct (Z.eqb_spec e' 0) as [->|N'].
    + rewrite (H 0%Z B eq_refl eq_refl). cbn [fst]. split; auto. intros _. rewrite vadd_zero. reflexivity.
    + cbn [fst]. split; [reflexivity|]. intros Q. contradiction.
  - cbn [fst]. split; [reflexivity|]. intros Q. contradiction.
Qed.
(** the step only looks at the fields where they can be evaluated *)
Lemma fo_mhd_fields_ext : forall f g evalBdB evalPsi evalRho evalAxis h a p,
  (forall r phi z t, fst (fst (f r phi z t)) = fst (fst (g r phi z t)) /\ (fst (fst (g r phi z t)) = 0%Z -> f r phi z t = g r phi z t)) ->
  fo_step_mhd f evalBdB evalPsi evalRho evalAxis h a p = fo_step_mhd g evalBdB evalPsi evalRho evalAxis h a p.
Proof.
  intros f g evalBdB evalPsi evalRho evalAxis h a p H. unfold fo_step_mhd. destruct (frun p); auto.
  cbv zeta. set (x1 := drift (fmass p) h (to_xyz (fp p) (fphi p)) (pos_xyz (fr p) (fphi p) (fz p))). clearbody x1.
  destruct (H (sqrt (vx x1 * vx x1 + vy x1 * vy x1)) (atan2 (vy x1) (vx x1)) (vz x1) (ftime p + h / 2)) as [H1 H2].
  destruct (f (sqrt (vx x1 * vx x1 + vy x1 * vy x1)) _ _ _) as [[e B] E]. destruct (g (sqrt (vx x1 * vx x1 + vy x1 * vy x1)) _ _ _) as [[e' B'] E'].
  cbn [fst] in *. subst e'. destruct (Z.eqb_spec e 0) as [->|N]; [|reflexivity].
  specialize (H2 eq_refl). injection H2 as -> ->. reflexivity.
Qed.
Lemma fo_mhd_unperturbed : forall evalB evalE pert evalBdB evalPsi evalRho evalAxis h a p q,
  (forall r f z t e B, evalB r f z t = (e, B) -> e = 0%Z -> pert r f z t = (0%Z, B, vzero)) ->
  fo_step (plain_fields evalB evalE) evalBdB evalPsi evalRho evalAxis h 0 p = Some q ->
  fo_step_mhd (mhd_fields evalB evalE pert) evalBdB evalPsi evalRho evalAxis h a p = q.
Proof.
  intros evalB evalE pert evalBdB evalPsi evalRho evalAxis h a p q H S. rewrite <- (fo_mhd_is_plain _ _ _ _ _ _ a _ _ S).
  apply fo_mhd_fields_ext. intros r f z t. apply mhd_fields_zero. intros e B. apply H.
Qed.

(** the field-line step follows the field of the time of the marker *)
Lemma ml_mhd_is_rk : forall pert evalBdB evalPsi evalRho evalAxis junk B h tol p hn, (forall r phi z t, pert r phi z t = (0%Z, B r phi z t)) -> mrun p = true ->
  let f := fun (s : R) (y : nat -> R) => ml_k (direction (mpitch p)) (y 0%nat) (B (y 0%nat) (y 1%nat) (y 2%nat) (mtime p)) in
  let y5 := runge_kutta cash_karp (tb cash_karp) f (mtime p) h (my p) in let y4 := runge_kutta cash_karp cash_karp4 f (mtime p) h (my p) in
  my (fst (ml_step_mhd pert evalBdB evalPsi evalRho evalAxis junk h tol p hn)) = y5 /\
  snd (ml_step_mhd pert evalBdB evalPsi evalRho evalAxis junk h tol p hn) = ml_hnext h (ml_err h (my p) (f (mtime p) (my p)) y5 y4) tol.
Proof.
  intros pert evalBdB evalPsi evalRho evalAxis junk B h tol p hn EB RUN f y5 y4.
  assert (EV : forall s b y, mhd_stage pert (direction (mpitch p)) (mtime p) (0%Z, b) y = (0%Z, B (y 0%nat) (y 1%nat) (y 2%nat) (mtime p), f s y)) by (intros s b y; unfold mhd_stage; cbn [fst Z.eqb]; now rewrite EB).
  unfold ml_step_mhd. rewrite RUN. clear EB. clearbody f.
  pose proof (cashkarp_is f (mtime p) h (my p)) as CK. fold y5 y4 in CK. unfold cashkarp, next in CK. cbn [Z.eqb] in CK.
  rewrite (EV (mtime p)). cbv beta iota zeta. set (k1 := f (mtime p) (my p)) in *.
  rewrite (EV (mtime p + 1 / 5 * h)). cbv beta iota zeta. set (k2 := f _ (fun j => my p j + h * (1 / 5 * k1 j))) in *.
  rewrite (EV (mtime p + 3 / 10 * h)). cbv beta iota zeta. set (k3 := f _ (fun j => my p j + h * (3 / 40 * k1 j + 9 / 40 * k2 j))) in *.
  rewrite (EV (mtime p + 3 / 5 * h)). cbv beta iota zeta. set (k4 := f _ (fun j => my p j + h * (3 / 10 * k1 j + -9 / 10 * k2 j + 6 / 5 * k3 j))) in *.
  rewrite (EV (mtime p + h)). cbv beta iota zeta. set (k5 := f _ (fun j => my p j + h * (-11 / 54 * k1 j + 5 / 2 * k2 j + -70 / 27 * k3 j + 35 / 27 * k4 j))) in *.
  rewrite (EV (mtime p + 7 / 8 * h)). cbv beta iota zeta.
  set (k6 := f _ (fun j => my p j + h * (1631 / 55296 * k1 j + 175 / 512 * k2 j + 575 / 13824 * k3 j + 44275 / 110592 * k4 j + 253 / 4096 * k5 j))) in *.
  injection CK as C5 C4. rewrite C5, C4. clearbody y5 y4.
  repeat match goal with |- context [let '(_, _) := ?x in _] => destruct x end. cbn [fst snd my].
  split; reflexivity.
Qed.
(** in a static field without perturbation it is the plain step *)
Lemma ml_mhd_unperturbed : forall pert evalB evalBdB evalPsi evalRho evalAxis junk (B : R -> R -> R -> vec) h tol p hn,
  (forall r phi z t, evalB r phi z t = (0%Z, B r phi z)) -> (forall r phi z t, pert r phi z t = (0%Z, B r phi z)) ->
  V (mB p 0%nat) (mB p 4%nat) (mB p 8%nat) = B (my p 0%nat) (my p 1%nat) (my p 2%nat) ->
  ml_step_mhd pert evalBdB evalPsi evalRho evalAxis junk h tol p hn = ml_step evalB evalBdB evalPsi evalRho evalAxis junk h tol p hn.
Proof.
  intros pert evalB evalBdB evalPsi evalRho evalAxis junk B h tol p hn EB EP B0. unfold ml_step_mhd, ml_step. destruct (mrun p); [|reflexivity].
  set (f := fun y : nat -> R => ml_k (direction (mpitch p)) (y 0%nat) (B (y 0%nat) (y 1%nat) (y 2%nat))).
  assert (EV : forall t b y, mhd_stage pert (direction (mpitch p)) t (0%Z, b) y = (0%Z, B (y 0%nat) (y 1%nat) (y 2%nat), f y)) by (intros t b y; unfold mhd_stage; cbn [fst Z.eqb]; now rewrite EP).
  assert (EW : forall t y, ml_eval evalB junk (direction (mpitch p)) 0 t y = (0%Z, f y)) by (intros t y; unfold ml_eval; cbn [Z.eqb]; now rewrite EB).
  assert (K1 : ml_k (direction (mpitch p)) (my p 0%nat) (V (mB p 0%nat) (mB p 4%nat) (mB p 8%nat)) = f (my p)) by (rewrite B0; reflexivity).
  rewrite K1. clearbody f. do 6 (rewrite EV; cbv beta iota zeta). do 5 (rewrite EW; cbv beta iota zeta). reflexivity.
Qed.
(** errors are not reported either *)
Lemma ml_mhd_no_error : forall pert evalBdB evalPsi evalRho evalAxis junk h tol p hn,
  merr (fst (ml_step_mhd pert evalBdB evalPsi evalRho evalAxis junk h tol p hn)) = merr p /\ mrun (fst (ml_step_mhd pert evalBdB evalPsi evalRho evalAxis junk h tol p hn)) = mrun p.
Proof.
  intros. unfold ml_step_mhd. destruct (mrun p) eqn:RUN; [|auto]. cbv zeta.
  repeat match goal with |- context [let '(_, _) := ?x in _] => destruct x end. cbn. auto.
Qed.
