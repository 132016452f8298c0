(** The error function as an integral, its derivative and bounds. *)
From Coq Require Import Reals Lra.
From Verif Require Import Deriv.
Local Open Scope R_scope.

Definition gauss (t : R) : R := exp (- (t * t)).
Lemma gauss_d : forall t, Dx gauss t (- 2 * t * gauss t).
Proof. intros t. unfold gauss. der. ring. Qed.
Lemma gauss_cont : forall t, continuity_pt gauss t.
Proof. intros t. apply derivable_continuous_pt. exists (- 2 * t * gauss t). apply gauss_d. Qed.
Lemma gauss_int : forall a b, Riemann_integrable gauss a b.
Proof.
  intros a b. destruct (Rle_dec a b).
  - apply continuity_implies_RiemannInt; auto. intros; apply gauss_cont.
  - apply RiemannInt_P1, continuity_implies_RiemannInt; [lra|]. intros; apply gauss_cont.
Qed.
(** erf x is 2 / sqrt pi times the integral of exp (- t^2) from 0 to x *)
Definition erf (x : R) : R := 2 / sqrt PI * RiemannInt (gauss_int 0 x).
Lemma erf_0 : erf 0 = 0.
Proof. unfold erf. rewrite RiemannInt_P9. ring. Qed.
Lemma erf_d : forall x, Dx erf x (2 / sqrt PI * gauss x).
Proof.
  intros x. unfold erf.
  assert (D : Dx (fun x => RiemannInt (gauss_int 0 x)) x (gauss x)).
  { set (a := x - 1). set (b := x + 1). assert (h : a <= b) by (unfold a, b; lra).
    assert (C0 : forall y, a <= y <= b -> continuity_pt gauss y) by (intros; apply gauss_cont).
    pose proof (RiemannInt_P28 (f := gauss) (a := a) (b := b) (x := x) h C0 ltac:(unfold a, b; lra)) as P.
    apply (derivable_pt_lim_locally_ext (fun y => RiemannInt (gauss_int 0 a) + primitive h (FTC_P1 h C0) y) _ x a b); [unfold a, b; lra| |].
    - intros y Y. unfold primitive. destruct (Rle_dec a y) as [r|]; [|lra]. destruct (Rle_dec y b) as [r0|]; [|lra]. apply RiemannInt_P26.
    - eapply d_eq; [apply d_plus; [apply d_const|exact P]|]. ring. }
  eapply d_eq; [apply d_mult; [apply d_const|exact D]|]. cbv beta. ring.
Qed.
(** a function with derivative bounds *)
Lemma mono_from0 : forall f f' x, 0 < x -> f 0 = 0 -> (forall t, Dx f t (f' t)) -> (forall t, 0 < t -> 0 < f' t) -> 0 < f x.
Proof.
  intros f f' x X F0 D P. destruct (MVT_cor2 f f' 0 x X ltac:(intros; apply D)) as (c & E & C). rewrite F0 in E. specialize (P c ltac:(lra)). nra.
Qed.
Lemma mono_from0' : forall f f' x, 0 <= x -> f 0 = 0 -> (forall t, Dx f t (f' t)) -> (forall t, 0 < t -> 0 <= f' t) -> 0 <= f x.
Proof.
  intros f f' x [X|<-] F0 D P; [|lra]. destruct (MVT_cor2 f f' 0 x X ltac:(intros; apply D)) as (c & E & C). rewrite F0 in E. specialize (P c ltac:(lra)). nra.
Qed.
Lemma sqrtPI_pos : 0 < sqrt PI.
Proof. apply sqrt_lt_R0, PI_RGT_0. Qed.
Lemma gauss_pos : forall t, 0 < gauss t.
Proof. intros. apply exp_pos. Qed.
Lemma gauss_0 : gauss 0 = 1.
Proof. unfold gauss. replace (- (0 * 0)) with 0 by ring. apply exp_0. Qed.
Lemma gauss_even : forall t, gauss (- t) = gauss t.
Proof. intros. unfold gauss. f_equal. ring. Qed.
Lemma gauss_le1 : forall t, gauss t <= 1.
Proof. intros. unfold gauss. rewrite <- exp_0. destruct (Req_EM_T t 0) as [->|N]; [right; f_equal; ring|left; apply exp_increasing; nra]. Qed.
(** 1 - t^2 <= exp (- t^2) *)
Lemma gauss_ge : forall t, 1 - t * t <= gauss t.
Proof. intros. unfold gauss. pose proof (exp_ineq1_le (- (t * t))). lra. Qed.
Lemma erf_pos : forall x, 0 < x -> 0 < erf x.
Proof.
  intros x X. apply (mono_from0 erf (fun t => 2 / sqrt PI * gauss t)); auto using erf_0, erf_d. intros t _. apply Rmult_lt_0_compat; [apply Rdiv_lt_0_compat; [lra|apply sqrtPI_pos]|apply gauss_pos].
Qed.
Lemma erf_le : forall x, 0 <= x -> erf x <= 2 / sqrt PI * x.
Proof.
  intros x X. assert (0 <= (fun t => 2 / sqrt PI * t - erf t) x); [|cbv beta in *; lra].
  pose proof sqrtPI_pos. apply (mono_from0' (fun t => 2 / sqrt PI * t - erf t) (fun t => 2 / sqrt PI * (1 - gauss t))); auto.
  - rewrite erf_0. ring.
  - intros t. eapply d_eq; [apply d_minus; [apply d_mult; [apply d_const|apply d_id]|apply erf_d]|]. cbv beta. ring.
  - intros t _. pose proof (gauss_le1 t). apply Rmult_le_pos; [left; apply Rdiv_lt_0_compat; lra|lra].
Qed.
Lemma erf_ge : forall x, 0 <= x -> 2 / sqrt PI * (x - x * x * x / 3) <= erf x.
Proof.
  intros x X. assert (0 <= (fun t => erf t - 2 / sqrt PI * (t - t * t * t / 3)) x); [|cbv beta in *; lra].
  pose proof sqrtPI_pos. apply (mono_from0' (fun t => erf t - 2 / sqrt PI * (t - t * t * t / 3)) (fun t => 2 / sqrt PI * (gauss t - (1 - t * t)))); auto.
  - rewrite erf_0. lra.
  - intros t. eapply d_eq; [apply d_minus; [apply erf_d|apply d_mult; [apply d_const|apply d_minus; [apply d_id|apply d_div; [repeat der1|apply d_const|lra]]]]|]. cbv beta. field. lra.
  - intros t _. pose proof (gauss_ge t). apply Rmult_le_pos; [left; apply Rdiv_lt_0_compat; lra|lra].
Qed.
