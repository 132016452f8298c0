(** Specifications and proofs about the analytic equilibrium. *)
From Coq Require Import Reals List ZArith Bool Lra Lia.
From Verif Require Import Deriv Vec ErrorModel GsModel.
Local Open Scope R_scope.

(** the flux in normalised coordinates *)
Definition psiN (C : nat -> R) (r z : R) : R :=
  let L := ln r in
  (1 - C 12%nat) * (r * r * r * r / 8) + C 12%nat * (r * r * L / 2) + C 0%nat + C 1%nat * (r * r) + C 2%nat * (r * r * L - z * z)
  + C 3%nat * (r * r * r * r - 4 * (r * r) * (z * z))
  + C 4%nat * (3 * (r * r * r * r) * L - 9 * (r * r) * (z * z) - 12 * (r * r) * L * (z * z) + 2 * (z * z * z * z))
  + C 5%nat * (r * r * r * r * r * r - 12 * (r * r * r * r) * (z * z) + 8 * (r * r) * (z * z * z * z))
  + C 6%nat * (8 * (z * z * z * z * z * z) - 140 * (r * r) * (z * z * z * z) - 120 * (r * r) * L * (z * z * z * z) + 180 * (r * r * r * r) * L * (z * z) + 75 * (r * r * r * r) * (z * z) - 15 * (r * r * r * r * r * r) * L)
  + C 7%nat * z + C 8%nat * (z * (r * r)) + C 9%nat * (z * z * z - 3 * z * (r * r) * L) + C 10%nat * (3 * z * (r * r * r * r) - 4 * (z * z * z) * (r * r))
  + C 11%nat * (8 * (z * z * z * z * z) - 45 * z * (r * r * r * r) - 80 * (z * z * z) * (r * r) * L + 60 * z * (r * r * r * r) * L).
Lemma psi_scaled : forall g r z, B_GS_eval_psi g r z = gmult g * psiN (gc g) (r / gR0 g) ((z - gz0 g) / gR0 g).
Proof. intros g r z. unfold psiN, B_GS_eval_psi. cbv zeta. rewrite !Rmult_1_r. reflexivity. Qed.
Lemma psiN_dr : forall C r z, 0 < r -> Dx (fun t => psiN C t z) r (poly_r C r z).
Proof. intros C r z P. unfold psiN, poly_r. cbv zeta. der; try lra. set (L := ln r). field. lra. Qed.
Lemma psiN_dz : forall C r z, Dx (fun t => psiN C r t) z (poly_z C r z).
Proof. intros C r z. unfold psiN, poly_z. cbv zeta. der; lra. Qed.

(** the polynomials are linear combinations; their own derivatives *)
Definition poly_zr (C : nat -> R) (r z : R) : R :=
  let L := ln r in
  C 3%nat * (-16 * r * z) + C 4%nat * (-60 * r * z - 48 * r * L * z) + C 5%nat * (-96 * (r * r * r) * z + 64 * r * (z * z * z))
  + C 6%nat * (-1600 * r * (z * z * z) - 960 * r * L * (z * z * z) + 1440 * (r * r * r) * L * z + 960 * (r * r * r) * z)
  + C 8%nat * (2 * r) + C 9%nat * (-6 * r * L - 3 * r) + C 10%nat * (12 * (r * r * r) - 24 * (z * z) * r)
  + C 11%nat * (-120 * (r * r * r) - 480 * (z * z) * r * L - 240 * (z * z) * r + 240 * (r * r * r) * L).
Definition poly_zz (C : nat -> R) (r z : R) : R :=
  let L := ln r in
  C 2%nat * (-2) + C 3%nat * (-8 * (r * r)) + C 4%nat * (-18 * (r * r) - 24 * (r * r) * L + 24 * (z * z)) + C 5%nat * (-24 * (r * r * r * r) + 96 * (r * r) * (z * z))
  + C 6%nat * (240 * (z * z * z * z) - 1680 * (r * r) * (z * z) - 1440 * (r * r) * L * (z * z) + 360 * (r * r * r * r) * L + 150 * (r * r * r * r))
  + C 9%nat * (6 * z) + C 10%nat * (-24 * z * (r * r)) + C 11%nat * (160 * (z * z * z) - 480 * z * (r * r) * L).
Definition poly_rr (C : nat -> R) (r z : R) : R :=
  let L := ln r in
  (1 - C 12%nat) * (3 * (r * r) / 2) + C 12%nat * (3 / 2 + L) + C 1%nat * 2 + C 2%nat * (2 * L + 3) + C 3%nat * (12 * (r * r) - 8 * (z * z))
  + C 4%nat * (36 * (r * r) * L + 21 * (r * r) - 54 * (z * z) - 24 * L * (z * z)) + C 5%nat * (30 * (r * r * r * r) - 144 * (r * r) * (z * z) + 16 * (z * z * z * z))
  + C 6%nat * (-640 * (z * z * z * z) - 240 * L * (z * z * z * z) + 2160 * (r * r) * L * (z * z) + 2160 * (r * r) * (z * z) - 450 * (r * r * r * r) * L - 165 * (r * r * r * r))
  + C 8%nat * (2 * z) + C 9%nat * (-6 * z * L - 9 * z) + C 10%nat * (36 * z * (r * r) - 8 * (z * z * z))
  + C 11%nat * (-120 * z * (r * r) - 160 * (z * z * z) * L - 240 * (z * z * z) + 720 * z * (r * r) * L).
Lemma poly_zr_d : forall C r z, 0 < r -> Dx (fun t => poly_z C t z) r (poly_zr C r z).
Proof. intros C r z P. unfold poly_z, poly_zr. cbv zeta. der; try lra. set (L := ln r). field. lra. Qed.
Lemma poly_rz_d : forall C r z, 0 < r -> Dx (fun t => poly_r C r t) z (poly_zr C r z).
Proof. intros C r z P. unfold poly_r, poly_zr. cbv zeta. der; try lra. Qed.
Lemma poly_zz_d : forall C r z, 0 < r -> Dx (fun t => poly_z C r t) z (poly_zz C r z).
Proof. intros C r z P. unfold poly_z, poly_zz. cbv zeta. der; try lra. Qed.
Lemma poly_rr_d : forall C r z, 0 < r -> Dx (fun t => poly_r C t z) r (poly_rr C r z).
Proof. intros C r z P. unfold poly_r, poly_rr. cbv zeta. der; try lra. set (L := ln r). field. lra. Qed.
(** the flux function solves the Grad-Shafranov equation with the Solov'ev source *)
Lemma grad_shafranov_poly : forall C r z, r <> 0 -> poly_rr C r z - poly_r C r z / r + poly_zz C r z = (1 - C 12%nat) * (r * r) + C 12%nat.
Proof. intros C r z P. unfold poly_rr, poly_r, poly_zz. cbv zeta. set (L := ln r). field. exact P. Qed.

(** ** Partial derivatives of atan2 away from the negative half axis *)
Definition near (x : R) (P : R -> Prop) : Prop := exists a b, a < x < b /\ forall t, a < t < b -> P t.
Lemma d_near : forall f g x l, near x (fun t => f t = g t) -> Dx f x l -> Dx g x l.
Proof. intros f g x l (a & b & X & E) H. eapply derivable_pt_lim_locally_ext; eauto. Qed.
Lemma near_all : forall x (P : R -> Prop), (forall t, P t) -> near x P.
Proof. intros x P H. exists (x - 1), (x + 1). split; [lra|auto]. Qed.
Lemma near_pos : forall x (P : R -> Prop), 0 < x -> (forall t, 0 < t -> P t) -> near x P.
Proof. intros x P X H. exists 0, (x + 1). split; [lra|]. intros t T. apply H. lra. Qed.
Lemma near_neg : forall x (P : R -> Prop), x < 0 -> (forall t, t < 0 -> P t) -> near x P.
Proof. intros x P X H. exists (x - 1), 0. split; [lra|]. intros t T. apply H. lra. Qed.
Lemma near_nz : forall x (P : R -> Prop), x <> 0 -> (forall t, t <> 0 -> P t) -> near x P.
Proof. intros x P X H. destruct (Rtotal_order x 0) as [L|[L|L]]; [apply near_neg|lra|apply near_pos]; auto; intros t T; apply H; lra. Qed.
Lemma atan2_up : forall y x, 0 < y -> atan2 y x = PI / 2 - atan (x / y).
Proof.
  intros y x Y. destruct (atan_hyp x y Y) as [A B]. cbv zeta in A, B. set (h := sqrt (y * y + x * x)) in *. set (q := atan (x / y)) in *.
  assert (0 < h) by (apply sqrt_lt_R0; nra). pose proof (atan_bound (x / y)) as Q. fold q in Q.
  rewrite <- (atan2_polar h (PI / 2 - q)) by lra. rewrite sin_shift, cos_shift. rewrite A, B. reflexivity.
Qed.
Lemma atan2_down : forall y x, y < 0 -> atan2 y x = - (PI / 2) - atan (x / y).
Proof.
  intros y x Y. destruct (atan_hyp x (- y) ltac:(lra)) as [A B]. cbv zeta in A, B. set (h := sqrt (- y * - y + x * x)) in *. replace (x / - y) with (- (x / y)) in * by (field; lra).
  rewrite atan_opp in A, B. set (q := atan (x / y)) in *.
  assert (0 < h) by (apply sqrt_lt_R0; nra). pose proof (atan_bound (x / y)) as Q. fold q in Q.
  rewrite <- (atan2_polar h (- (PI / 2) - q)) by lra. replace (- (PI / 2) - q) with (- (PI / 2 - - q)) by ring. rewrite sin_neg, cos_neg, sin_shift, cos_shift. f_equal; lra.
Qed.
Lemma atan2_right : forall y x, 0 < x -> atan2 y x = atan (y / x).
Proof. intros y x X. unfold atan2. destruct (Rlt_dec 0 x); [reflexivity|lra]. Qed.
Lemma sumsq_nz : forall x y, x <> 0 \/ y <> 0 -> 0 < x * x + y * y.
Proof. intros x y [H|H]; nra. Qed.
Lemma atan2_dx : forall y x, 0 < x \/ y <> 0 -> Dx (fun t => atan2 y t) x (- y / (x * x + y * y)).
Proof.
  intros y x H. assert (S : 0 < x * x + y * y) by (apply sumsq_nz; destruct H; [left; lra|auto]).
  destruct (Rtotal_order y 0) as [L|[L|L]].
  - apply (d_near (fun t => - (PI / 2) - atan (t / y))); [apply near_all; intros t; now rewrite atan2_down|]. der; try lra. field. split; nra.
  - destruct H as [H|H]; [|lra]. apply (d_near (fun t => atan (y / t))); [apply near_pos; auto; intros t T; now rewrite atan2_right|]. der; try lra. field. split; nra.
  - apply (d_near (fun t => PI / 2 - atan (t / y))); [apply near_all; intros t; now rewrite atan2_up|]. der; try lra. field. split; nra.
Qed.
Lemma atan2_dy : forall y x, 0 < x \/ y <> 0 -> Dx (fun t => atan2 t x) y (x / (x * x + y * y)).
Proof.
  intros y x H. assert (S : 0 < x * x + y * y) by (apply sumsq_nz; destruct H; [left; lra|auto]).
  destruct (Rtotal_order y 0) as [L|[L|L]].
  - apply (d_near (fun t => - (PI / 2) - atan (x / t))); [apply near_neg; auto; intros t T; now rewrite atan2_down|]. der; try lra. field. split; nra.
  - destruct H as [H|H]; [|lra]. apply (d_near (fun t => atan (t / x))); [apply near_all; intros t; now rewrite atan2_right|]. der; try lra. field. split; nra.
  - apply (d_near (fun t => PI / 2 - atan (x / t))); [apply near_pos; auto; intros t T; now rewrite atan2_up|]. der; try lra. field. split; nra.
Qed.

(** ** The ripple amplitude as a function of the distances from its centre *)
Definition amp (a0 alpha d0 x y : R) : R := d0 * exp (-0.5 * atan2 y x * atan2 y x) * cpow (sqrt (x * x + y * y) / a0) alpha.
Definition amp' (a0 alpha d0 x y : R) : R := d0 * exp (-0.5 * atan2 y x * atan2 y x) * exp (alpha * ln (sqrt (x * x + y * y) / a0)).
Lemma amp_eq : forall a0 alpha d0 x y, 0 < a0 -> x <> 0 \/ y <> 0 -> amp a0 alpha d0 x y = amp' a0 alpha d0 x y.
Proof.
  intros a0 alpha d0 x y A H. unfold amp, amp', cpow. pose proof (sumsq_nz x y H) as S. apply sqrt_lt_R0 in S. assert (0 < sqrt (x * x + y * y) / a0) by (apply Rmult_lt_0_compat; [lra|apply Rinv_0_lt_compat; lra]).
  destruct (Req_EM_T _ 0) as [E|E]; [lra|reflexivity].
Qed.
Section amp_deriv.
Context (a0 alpha d0 x y : R).
Hypothesis A : 0 < a0.
Hypothesis H : 0 < x \/ y <> 0.
Let rad := sqrt (x * x + y * y).
Lemma rad_pos : 0 < x * x + y * y /\ 0 < rad /\ rad * rad = x * x + y * y.
Proof.
  assert (S : 0 < x * x + y * y) by (apply sumsq_nz; destruct H; [left; lra|auto]). split; [exact S|]. split; [now apply sqrt_lt_R0|]. apply sqrt_sqrt. lra.
Qed.
Lemma amp_dx : Dx (fun t => amp a0 alpha d0 t y) x (amp a0 alpha d0 x y * (x / rad * (alpha / rad) + y / (rad * rad) * atan2 y x)).
Proof.
  destruct rad_pos as (S & P & Q). assert (NZ : x <> 0 \/ y <> 0) by (destruct H; [left; lra|auto]).
  apply (d_near (fun t => amp' a0 alpha d0 t y)). { destruct H as [H0|H0]; [apply near_pos; auto; intros t T; symmetry; apply amp_eq; auto; left; lra|apply near_all; intros t; symmetry; apply amp_eq; auto]. }
  rewrite amp_eq by auto. unfold amp'. assert (0 < rad / a0) by (apply Rmult_lt_0_compat; [lra|apply Rinv_0_lt_compat; lra]).
  eapply d_eq.
  - apply d_mult; [apply d_mult; [apply d_const|apply d_exp; apply d_mult; [apply d_mult; [apply d_const|apply (atan2_dx y x H)]|apply (atan2_dx y x H)]]|].
    apply d_exp. apply d_mult; [apply d_const|]. apply d_ln; [|exact H0]. apply d_div; [|apply d_const|cbv beta; lra]. apply d_sqrt; [|exact S]. apply d_plus; [apply d_mult; apply d_id|apply d_const].
  - cbv beta. fold rad. rewrite Rmult_0_l. replace (- y / (x * x + y * y)) with (- y / (rad * rad)) by (now rewrite Q).
    set (e1 := exp _). set (e2 := exp _). set (th := atan2 y x). replace (-0.5) with (- (1 / 2)) by lra. field. lra.
Qed.
Lemma amp_dy : Dx (fun t => amp a0 alpha d0 x t) y (amp a0 alpha d0 x y * (y / rad * (alpha / rad) - x / (rad * rad) * atan2 y x)).
Proof.
  destruct rad_pos as (S & P & Q). assert (NZ : x <> 0 \/ y <> 0) by (destruct H; [left; lra|auto]).
  apply (d_near (fun t => amp' a0 alpha d0 x t)). { destruct H as [H0|H0]; [apply near_all; intros t; symmetry; apply amp_eq; auto; left; lra|apply near_nz; auto; intros t T; symmetry; apply amp_eq; auto]. }
  rewrite amp_eq by auto. unfold amp'. assert (0 < rad / a0) by (apply Rmult_lt_0_compat; [lra|apply Rinv_0_lt_compat; lra]).
  eapply d_eq.
  - apply d_mult; [apply d_mult; [apply d_const|apply d_exp; apply d_mult; [apply d_mult; [apply d_const|apply (atan2_dy y x H)]|apply (atan2_dy y x H)]]|].
    apply d_exp. apply d_mult; [apply d_const|]. apply d_ln; [|exact H0]. apply d_div; [|apply d_const|cbv beta; lra]. apply d_sqrt; [|exact S]. apply d_plus; [apply d_const|apply d_mult; apply d_id].
  - cbv beta. fold rad. rewrite Rmult_0_l. replace (x / (x * x + y * y)) with (x / (rad * rad)) by (now rewrite Q).
    set (e1 := exp _). set (e2 := exp _). set (th := atan2 y x). replace (-0.5) with (- (1 / 2)) by lra. field. lra.
Qed.
End amp_deriv.

(** ** The flux, its derivatives and the field *)
Section field.
Context (g : gs) (r phi z : R).
Hypothesis P0 : 0 < gR0 g.
Hypothesis Pr : 0 < r.
Let R0 := gR0 g.
Let rn := r / R0.
Let zn := (z - gz0 g) / R0.
Definition psi_r : R := gmult g / R0 * poly_r (gc g) rn zn.
Definition psi_z : R := gmult g / R0 * poly_z (gc g) rn zn.
Lemma rn_pos : 0 < rn. Proof. apply Rmult_lt_0_compat; [exact Pr|now apply Rinv_0_lt_compat]. Qed.
Lemma psi_r_d : Dx (fun t => B_GS_eval_psi g t z) r psi_r.
Proof.
  apply (d_ext (fun t => gmult g * psiN (gc g) (t / R0) zn)); [intro t; symmetry; apply psi_scaled|].
  eapply d_eq. { apply d_mult; [apply d_const|]. apply (d_comp (fun t => t / R0) (fun u => psiN (gc g) u zn)); [|apply psiN_dr, rn_pos]. apply d_div; [apply d_id|apply d_const|fold R0 in P0; lra]. }
  unfold psi_r. fold R0 in P0. cbv beta. fold rn. generalize (poly_r (gc g) rn zn); intro q. field. lra.
Qed.
Lemma psi_z_d : Dx (fun t => B_GS_eval_psi g r t) z psi_z.
Proof.
  apply (d_ext (fun t => gmult g * psiN (gc g) rn ((t - gz0 g) / R0))); [intro t; symmetry; apply psi_scaled|].
  eapply d_eq. { apply d_mult; [apply d_const|]. apply (d_comp (fun t => (t - gz0 g) / R0) (fun u => psiN (gc g) rn u)); [|apply psiN_dz]. apply d_div; [apply d_minus; [apply d_id|apply d_const]|apply d_const|fold R0 in P0; lra]. }
  unfold psi_z. fold R0 in P0. cbv beta. fold zn. generalize (poly_z (gc g) rn zn); intro q. field. lra.
Qed.
Lemma eval_B_poloidal : vx (B_GS_eval_B g r phi z) = - psi_z / r /\ vz (B_GS_eval_B g r phi z) = psi_r / r.
Proof.
  unfold B_GS_eval_B. cbv zeta. fold R0. fold zn. fold rn. unfold psi_r, psi_z. fold R0 in P0.
  assert (E : rn = r / R0) by reflexivity. generalize (poly_r (gc g) rn zn), (poly_z (gc g) rn zn). intros a b.
  destruct (0 <? gN g)%Z; [destruct (ripple_delta g (rn * R0) (zn * R0)) as [[? ?] ?]|]; cbn [vx vz]; rewrite E; split; field; lra.
Qed.
Lemma eval_psi_dpsi_val : B_GS_eval_psi_dpsi g r z = (B_GS_eval_psi g r z, V (R0 / r * psi_r) 0 (R0 / r * psi_z)).
Proof.
  unfold B_GS_eval_psi_dpsi. cbv zeta. fold R0. fold zn. fold rn. unfold psi_r, psi_z. fold R0 in P0.
  generalize (poly_r (gc g) rn zn), (poly_z (gc g) rn zn). intros a b. assert (E : rn = r / R0) by reflexivity. rewrite E. f_equal. apply (f_equal2 (fun u v => V u 0 v)); field; lra.
Qed.
End field.

(** ** The twelve entries of the field and its derivatives *)
(** the derivatives are matched against the field itself, component by component *)
Definition jac_of (B : R -> R -> R -> vec) (r phi z : R) (D : nat -> R) : Prop :=
  V (D 0%nat) (D 4%nat) (D 8%nat) = B r phi z /\
  (forall k c, In (k, c) ((0%nat, vx) :: (4%nat, vy) :: (8%nat, vz) :: nil) ->
     Dx (fun t => c (B t phi z)) r (D (k + 1)%nat) /\ Dx (fun t => c (B r t z)) phi (D (k + 2)%nat) /\ Dx (fun t => c (B r phi t)) z (D (k + 3)%nat)).

Section dB.
Context (g : gs) (r phi z : R).
Hypothesis P0 : 0 < gR0 g.
Hypothesis Pr : 0 < r.
Let R0 := gR0 g.
Let rn := r / R0.
Let zn := (z - gz0 g) / R0.
Let D := B_GS_eval_B_dB g r phi z.
Lemma dB_pol : D 0%nat = - psi_z g r z / r /\ D 8%nat = psi_r g r z / r /\
  D 1%nat = psi_z g r z / (r * r) - gmult g / (R0 * R0) * poly_zr (gc g) rn zn / r /\ D 3%nat = - (gmult g / (R0 * R0) * poly_zz (gc g) rn zn) / r /\
  D 9%nat = gmult g / (R0 * R0) * poly_rr (gc g) rn zn / r - psi_r g r z / (r * r) /\ D 11%nat = gmult g / (R0 * R0) * poly_zr (gc g) rn zn / r /\ D 2%nat = 0 /\ D 10%nat = 0.
Proof.
  assert (Z : z - gz0 g = zn * R0) by (unfold zn, R0; field; lra). assert (Rr : r = rn * R0) by (unfold rn, R0; field; lra).
  pose proof (rn_pos g r P0 Pr) as Q. fold R0 in Q. fold rn in Q. fold R0 in P0.
  unfold D, B_GS_eval_B_dB. cbv zeta. fold R0. destruct (ripple_delta g r (z - gz0 g)) as [[? ?] ?].
  unfold psi_r, psi_z. fold R0. fold rn. fold zn. rewrite Z. rewrite !Rr. clearbody R0 rn zn. clear Z Rr D Pr. unfold poly_zr, poly_zz, poly_rr, poly_r, poly_z. cbv zeta. replace 1.5 with (3 / 2) by lra. 
  generalize (ln rn) as L. intro L. generalize (gmult g) as m. intro m. generalize (gc g) as C. intro C.
  repeat match goal with |- context [C ?n] => let c := fresh "c" in set (c := C n); clearbody c end.
  repeat split; try reflexivity; field; lra.
Qed.
End dB.

Definition ripple (g : gs) (r phi z : R) : R :=
  if (0 <? gN g)%Z then amp (ga0 g) (galpha g) (gdelta g) (r - gR0 g) (z - 2 * gz0 g) * cos (IZR (gN g) * phi) else 0.
Lemma eval_B_tor : forall g r phi z, 0 < gR0 g -> 0 < r -> vy (B_GS_eval_B g r phi z) = gBphi0 g * gR0 g / r * (1 + ripple g r phi z).
Proof.
  intros g r phi z P0 Pr. unfold B_GS_eval_B, ripple, amp, ripple_delta. cbv zeta.
  destruct (0 <? gN g)%Z; cbn [vy]; [|field; lra].
  replace (r / gR0 g * gR0 g) with r by (field; lra). replace ((z - gz0 g) / gR0 g * gR0 g - gz0 g) with (z - 2 * gz0 g) by (field; lra).
  generalize (gdelta g * exp (-0.5 * atan2 (z - 2 * gz0 g) (r - gR0 g) * atan2 (z - 2 * gz0 g) (r - gR0 g)) *
   cpow (sqrt ((r - gR0 g) * (r - gR0 g) + (z - 2 * gz0 g) * (z - 2 * gz0 g)) / ga0 g) (galpha g)). intro d. field. lra.
Qed.
(** where the ripple is smooth: off the half line inboard of its centre *)
Definition ripple_smooth (g : gs) (r z : R) : Prop := (0 <? gN g)%Z = true -> 0 < ga0 g /\ gBphi0 g <> 0 /\ (gR0 g < r \/ z <> 2 * gz0 g).
Lemma d_shift : forall f c x l, Dx f (x - c) l -> Dx (fun t => f (t - c)) x l.
Proof. intros f c x l H. eapply d_eq; [apply (d_comp (fun t => t - c) f); [apply d_minus; [apply d_id|apply d_const]|exact H]|ring]. Qed.

Section dBt.
Context (g : gs) (r phi z : R).
Hypothesis P0 : 0 < gR0 g.
Hypothesis Pr : 0 < r.
Let R0 := gR0 g.
Let D := B_GS_eval_B_dB g r phi z.
Hypothesis SM : ripple_smooth g r z.
Lemma dB_tor :
  D 4%nat = gBphi0 g * R0 / r * (1 + ripple g r phi z) /\
  Dx (fun t => gBphi0 g * R0 / t * (1 + ripple g t phi z)) r (D 5%nat) /\
  Dx (fun t => gBphi0 g * R0 / r * (1 + ripple g r t z)) phi (D 6%nat) /\
  Dx (fun t => gBphi0 g * R0 / r * (1 + ripple g r phi t)) z (D 7%nat).
Proof.
  unfold ripple_smooth in SM. unfold D, B_GS_eval_B_dB, ripple, ripple_delta. cbv zeta. fold R0. fold R0 in SM, P0.
  replace (z - gz0 g - gz0 g) with (z - 2 * gz0 g) by ring.
  destruct (0 <? gN g)%Z.
  - destruct (SM eq_refl) as (A & B & C). clear SM.
    assert (S : 0 < r - R0 \/ z - 2 * gz0 g <> 0) by (destruct C; [left|right]; lra).
    pose proof (amp_dx (ga0 g) (galpha g) (gdelta g) (r - R0) (z - 2 * gz0 g) A S) as DX. pose proof (amp_dy (ga0 g) (galpha g) (gdelta g) (r - R0) (z - 2 * gz0 g) A S) as DY.
    apply (d_shift (fun t => amp (ga0 g) (galpha g) (gdelta g) t (z - 2 * gz0 g)) R0) in DX. apply (d_shift (fun t => amp (ga0 g) (galpha g) (gdelta g) (r - R0) t) (2 * gz0 g)) in DY.
    destruct (rad_pos (r - R0) (z - 2 * gz0 g) S) as (_ & PP & _).
    change (gdelta g * exp (-0.5 * atan2 (z - 2 * gz0 g) (r - R0) * atan2 (z - 2 * gz0 g) (r - R0)) *
      cpow (sqrt ((r - R0) * (r - R0) + (z - 2 * gz0 g) * (z - 2 * gz0 g)) / ga0 g) (galpha g)) with (amp (ga0 g) (galpha g) (gdelta g) (r - R0) (z - 2 * gz0 g)).
    set (am := amp (ga0 g) (galpha g) (gdelta g) (r - R0) (z - 2 * gz0 g)) in *.
    set (rad := sqrt ((r - R0) * (r - R0) + (z - 2 * gz0 g) * (z - 2 * gz0 g))) in *. set (th := atan2 (z - 2 * gz0 g) (r - R0)) in *.
    set (N := IZR (gN g)). clearbody N. split; [|split; [|split]].
    + field. lra.
    + eapply d_eq. { apply d_mult; [apply d_div; [apply d_const|apply d_id|cbv beta; lra]|]. apply d_plus; [apply d_const|]. apply d_mult; [exact DX|apply d_const]. }
      cbv beta. fold am. field. repeat split; lra.
    + eapply d_eq. { apply d_mult; [apply d_const|]. apply d_plus; [apply d_const|]. apply d_mult; [apply d_const|]. apply d_cos. apply d_mult; [apply d_const|apply d_id]. }
      cbv beta. field; lra.
    + eapply d_eq. { apply d_mult; [apply d_const|]. apply d_plus; [apply d_const|]. apply d_mult; [exact DY|apply d_const]. }
      cbv beta. field. repeat split; lra.
  - clear SM. split; [field; lra|]. split.
    { eapply d_eq; [apply d_mult; [apply d_div; [apply d_const|apply d_id|cbv beta; lra]|apply d_const]|]. cbv beta. field. lra. }
    split; apply d_const.
Qed.
End dBt.

Lemma d_scale : forall f c x l, Dx f x l -> Dx (fun t => c * f t) x (c * l).
Proof. intros f c x l H. eapply d_eq; [apply (d_mult (fun _ => c) f x 0 l); [apply d_const|exact H]|cbv beta; ring]. Qed.
Lemma gs_jacobian_l : forall g r phi z, 0 < gR0 g -> 0 < r -> ripple_smooth g r z -> jac_of (B_GS_eval_B g) r phi z (B_GS_eval_B_dB g r phi z).
Proof.
  intros g r phi z P0 Pr SM. destruct (dB_pol g r phi z P0 Pr) as (E0 & E8 & E1 & E3 & E9 & E11 & E2 & E10). destruct (dB_tor g r phi z P0 Pr SM) as (E4 & D5 & D6 & D7).
  destruct (eval_B_poloidal g r phi z P0 Pr) as (X & Z). pose proof (eval_B_tor g r phi z P0 Pr) as Y.
  split. { destruct (B_GS_eval_B g r phi z) as [a b c]. cbn [vx vy vz] in X, Y, Z. rewrite E0, E4, E8, X, Y, Z. reflexivity. }
  pose proof (rn_pos g r P0 Pr) as RP.
  assert (Rsc : Dx (fun t => t / gR0 g) r (/ gR0 g)) by (der; try lra; field; lra).
  assert (Zsc : Dx (fun t => (t - gz0 g) / gR0 g) z (/ gR0 g)) by (der; try lra; field; lra).
  intros k c [K|[K|[K|[]]]]; injection K as <- <-; cbn [Nat.add].
  - split; [|split].
    + apply (d_near (fun t => - (gmult g / gR0 g * poly_z (gc g) (t / gR0 g) ((z - gz0 g) / gR0 g)) / t)). { apply near_pos; auto. intros t T. symmetry. apply (eval_B_poloidal g t phi z P0 T). }
      rewrite E1. eapply d_eq. { apply d_div; [apply d_opp, d_scale; apply (d_comp (fun t => t / gR0 g) (fun u => poly_z (gc g) u ((z - gz0 g) / gR0 g)) r (/ gR0 g)); [exact Rsc|apply poly_zr_d; exact RP]|apply d_id|lra]. }
      unfold psi_z. cbv beta. generalize (poly_z (gc g) (r / gR0 g) ((z - gz0 g) / gR0 g)), (poly_zr (gc g) (r / gR0 g) ((z - gz0 g) / gR0 g)). intros. field. lra.
    + rewrite E2. eapply d_ext; [|apply (d_const (- psi_z g r z / r))]. intros t. symmetry. apply (eval_B_poloidal g r t z P0 Pr).
    + eapply d_ext. { intros t. symmetry. apply (eval_B_poloidal g r phi t P0 Pr). }
      unfold psi_z. rewrite E3. eapply d_eq. { apply d_div; [apply d_opp, d_scale; apply (d_comp (fun t => (t - gz0 g) / gR0 g) (fun u => poly_z (gc g) (r / gR0 g) u) z (/ gR0 g)); [exact Zsc|apply poly_zz_d; exact RP]|apply d_const|lra]. }
      cbv beta. field; lra.
  - split; [|split].
    + apply (d_near (fun t => gBphi0 g * gR0 g / t * (1 + ripple g t phi z))); [|exact D5]. apply near_pos; auto. intros t T. symmetry. now apply eval_B_tor.
    + eapply d_ext; [|exact D6]. intros t. symmetry. now apply eval_B_tor.
    + eapply d_ext; [|exact D7]. intros t. symmetry. now apply eval_B_tor.
  - split; [|split].
    + apply (d_near (fun t => gmult g / gR0 g * poly_r (gc g) (t / gR0 g) ((z - gz0 g) / gR0 g) / t)). { apply near_pos; auto. intros t T. symmetry. apply (eval_B_poloidal g t phi z P0 T). }
      rewrite E9. eapply d_eq. { apply d_div; [apply d_scale; apply (d_comp (fun t => t / gR0 g) (fun u => poly_r (gc g) u ((z - gz0 g) / gR0 g)) r (/ gR0 g)); [exact Rsc|apply poly_rr_d; exact RP]|apply d_id|lra]. }
      unfold psi_r. cbv beta. generalize (poly_r (gc g) (r / gR0 g) ((z - gz0 g) / gR0 g)), (poly_rr (gc g) (r / gR0 g) ((z - gz0 g) / gR0 g)). intros. field. lra.
    + rewrite E10. eapply d_ext; [|apply (d_const (psi_r g r z / r))]. intros t. symmetry. apply (eval_B_poloidal g r t z P0 Pr).
    + eapply d_ext. { intros t. symmetry. apply (eval_B_poloidal g r phi t P0 Pr). }
      unfold psi_r. rewrite E11. eapply d_eq. { apply d_div; [apply d_scale; apply (d_comp (fun t => (t - gz0 g) / gR0 g) (fun u => poly_r (gc g) (r / gR0 g) u) z (/ gR0 g)); [exact Zsc|apply poly_rz_d; exact RP]|apply d_const|lra]. }
      cbv beta. field; lra.
Qed.

(** ** Statements used by the properties *)
(** the field is grad psi x e_phi / R plus the vacuum toroidal field *)
Lemma gs_flux_l : forall g r phi z, 0 < gR0 g -> 0 < r -> exists a b,
  Dx (fun t => B_GS_eval_psi g t z) r a /\ Dx (fun t => B_GS_eval_psi g r t) z b /\
  vx (B_GS_eval_B g r phi z) = - b / r /\ vz (B_GS_eval_B g r phi z) = a / r /\ ((gN g <= 0)%Z -> vy (B_GS_eval_B g r phi z) = gBphi0 g * gR0 g / r).
Proof.
  intros g r phi z P0 Pr. exists (psi_r g r z), (psi_z g r z). split; [now apply psi_r_d|]. split; [now apply psi_z_d|]. destruct (eval_B_poloidal g r phi z P0 Pr) as [A B]. split; [exact A|]. split; [exact B|].
  intros N. rewrite eval_B_tor by auto. unfold ripple. rewrite (proj2 (Z.ltb_ge 0 (gN g))) by exact N. ring.
Qed.
Lemma gs_dpsi_l : forall g r z a b, 0 < gR0 g -> 0 < r -> Dx (fun t => B_GS_eval_psi g t z) r a -> Dx (fun t => B_GS_eval_psi g r t) z b ->
  B_GS_eval_psi_dpsi g r z = (B_GS_eval_psi g r z, V (gR0 g / r * a) 0 (gR0 g / r * b)).
Proof.
  intros g r z a b P0 Pr A B. rewrite (d_uniq _ _ _ _ A (psi_r_d g r z P0 Pr)), (d_uniq _ _ _ _ B (psi_z_d g r z P0)). now apply eval_psi_dpsi_val.
Qed.
Lemma gs_rho_l : forall g r z, 0 < gR0 g -> 0 < r -> gpsi1 g <> gpsi0 g ->
  let u := fun r z => (B_GS_eval_psi g r z - gpsi0 g) / (gpsi1 g - gpsi0 g) in
  match B_GS_eval_rho_drho g r z with
  | None => u r z < 0
  | Some (rho, d) => 0 <= rho /\ rho * rho = u r z /\ vy d = 0 /\
      (0 < rho -> forall a b, Dx (fun t => sqrt (u t z)) r a -> Dx (fun t => sqrt (u r t)) z b -> vx d = gR0 g / r * a /\ vz d = gR0 g / r * b)
  end.
Proof.
  intros g r z P0 Pr NE u. unfold B_GS_eval_rho_drho. rewrite eval_psi_dpsi_val by auto. cbv zeta. fold (u r z). destruct (Rlt_dec (u r z) 0) as [L|L]; [exact L|].
  split; [apply sqrt_pos|]. split; [apply sqrt_sqrt; lra|]. split; [reflexivity|]. intros Q a b A B. cbn [vx vz].
  assert (U : 0 < u r z). { destruct (Rle_lt_or_eq_dec 0 (u r z)) as [W|W]; [lra|exact W|]. rewrite <- W, sqrt_0 in Q. lra. }
  assert (DA : Dx (fun t => sqrt (u t z)) r (/ (2 * sqrt (u r z)) * (psi_r g r z / (gpsi1 g - gpsi0 g)))).
  { apply (d_sqrt (fun t => u t z) r); [|exact U]. unfold u. eapply d_eq; [apply d_div; [apply d_minus; [apply psi_r_d; auto|apply d_const]|apply d_const|cbv beta; lra]|]. cbv beta. field. lra. }
  assert (DB : Dx (fun t => sqrt (u r t)) z (/ (2 * sqrt (u r z)) * (psi_z g r z / (gpsi1 g - gpsi0 g)))).
  { apply (d_sqrt (fun t => u r t) z); [|exact U]. unfold u. eapply d_eq; [apply d_div; [apply d_minus; [apply psi_z_d; auto|apply d_const]|apply d_const|cbv beta; lra]|]. cbv beta. field. lra. }
  rewrite (d_uniq _ _ _ _ A DA), (d_uniq _ _ _ _ B DB). split; field; repeat split; lra.
Qed.
Definition divergence (D : nat -> R) (r : R) : R := D 0%nat / r + D 1%nat + D 6%nat / r + D 11%nat.
Lemma gs_div_l : forall g r phi z, 0 < gR0 g -> 0 < r -> divergence (B_GS_eval_B_dB g r phi z) r = B_GS_eval_B_dB g r phi z 6%nat / r.
Proof.
  intros g r phi z P0 Pr. unfold divergence. destruct (dB_pol g r phi z P0 Pr) as (E0 & E8 & E1 & E3 & E9 & E11 & E2 & E10). rewrite E0, E1, E11. generalize (poly_zr (gc g) (r / gR0 g) ((z - gz0 g) / gR0 g)). intro q. field. lra.
Qed.
Lemma gs_div0_l : forall g r phi z, 0 < gR0 g -> 0 < r -> (gN g <= 0)%Z -> divergence (B_GS_eval_B_dB g r phi z) r = 0.
Proof.
  intros g r phi z P0 Pr N. rewrite gs_div_l by auto. replace (B_GS_eval_B_dB g r phi z 6%nat) with 0; [unfold Rdiv; ring|]. unfold B_GS_eval_B_dB. cbv zeta. destruct (ripple_delta g r (z - gz0 g)) as [[? ?] ?]. rewrite (proj2 (Z.ltb_ge 0 (gN g))) by exact N. reflexivity.
Qed.
Lemma gs_current_l : forall g r phi z, 0 < gR0 g -> 0 < r ->
  let D := B_GS_eval_B_dB g r phi z in
  D 3%nat - D 9%nat = - (gmult g / (gR0 g * gR0 g)) * ((1 - gc g 12%nat) / (gR0 g * gR0 g) * r + gc g 12%nat / r).
Proof.
  intros g r phi z P0 Pr D. destruct (dB_pol g r phi z P0 Pr) as (E0 & E8 & E1 & E3 & E9 & E11 & E2 & E10). unfold D. rewrite E3, E9. unfold psi_r.
  pose proof (rn_pos g r P0 Pr) as RP. pose proof (grad_shafranov_poly (gc g) (r / gR0 g) ((z - gz0 g) / gR0 g) ltac:(lra)) as GS.
  set (a := poly_rr _ _ _) in *. set (b := poly_r _ _ _) in *. set (c := poly_zz _ _ _) in *.
  replace a with ((1 - gc g 12%nat) * (r / gR0 g * (r / gR0 g)) + gc g 12%nat + b / (r / gR0 g) - c) by lra. field. lra.
Qed.

(** concrete equilibria *)
Definition one_coef (k : nat) (j : nat) : R := if Nat.eqb j k then 1 else 0.
Lemma ln1 : ln (1 / 1) = 0. Proof. replace (1 / 1) with 1 by field. apply ln_1. Qed.
Definition gs_quad : gs := GS 1 0 1 0 1 0 1 1 (one_coef 1) 0 1 0 0.
Lemma gs_quad_psi : forall r z, B_GS_eval_psi gs_quad r z = r * r * r * r / 8 + r * r.
Proof. intros. unfold B_GS_eval_psi. cbn -[ln Rdiv]. field. Qed.
Lemma gs_dpsi_refuted_l : exists g r z a, 0 < gR0 g /\ 0 < r /\ Dx (fun t => B_GS_eval_psi g t z) r a /\ vx (snd (B_GS_eval_psi_dpsi g r z)) <> a.
Proof.
  exists gs_quad, 2, 0, 8. assert (D : Dx (fun t => B_GS_eval_psi gs_quad t 0) 2 8).
  { eapply d_ext; [intro t; symmetry; apply gs_quad_psi|]. der; try lra. }
  split; [cbn; lra|]. split; [lra|]. split; [exact D|].
  destruct (gs_flux_l gs_quad 2 0 0 ltac:(cbn; lra) ltac:(lra)) as (a & b & A & B & _). rewrite (gs_dpsi_l gs_quad 2 0 8 b) by (auto; cbn; lra). cbn. lra.
Qed.
(** one coil pair, pattern exponent 4 *)
Definition gs_rip (z0 : R) : gs := GS 1 z0 1 0 1 0 1 1 (one_coef 1) 1 1 4 1.
Lemma rip_at : forall z0 r z, 1 < r \/ z <> 2 * z0 -> 0 < r ->
  amp 1 4 1 (r - 1) (z - 2 * z0) = exp (-0.5 * atan2 (z - 2 * z0) (r - 1) * atan2 (z - 2 * z0) (r - 1)) * ((r - 1) * (r - 1) + (z - 2 * z0) * (z - 2 * z0)) ^ 2.
Proof.
  intros z0 r z H P. rewrite amp_eq; [|lra|destruct H; [left; lra|right; lra]]. unfold amp'. rewrite Rmult_1_l. f_equal.
  assert (S : 0 < (r - 1) * (r - 1) + (z - 2 * z0) * (z - 2 * z0)) by (apply sumsq_nz; destruct H; [left; lra|right; lra]).
  replace 4 with (INR 4) by (cbn; lra). pose proof (sqrt_lt_R0 _ S) as Q. set (s := sqrt _) in *. replace (s / 1) with s by field. rewrite <- (Rpower_pow 2) by exact S.
  change (exp (INR 4 * ln s)) with (Rpower s (INR 4)). rewrite Rpower_pow by exact Q. rewrite Rpower_pow by exact S. replace ((r - 1) * (r - 1) + (z - 2 * z0) * (z - 2 * z0)) with (s * s) by (apply sqrt_sqrt; lra). ring.
Qed.
Lemma gs_ripple_div_refuted_l : exists g r phi z, 0 < gR0 g /\ 0 < r /\ ripple_smooth g r z /\ divergence (B_GS_eval_B_dB g r phi z) r <> 0.
Proof.
  exists (gs_rip 0), 2, (PI / 2), 0. split; [cbn; lra|]. split; [lra|]. split. { intros _. cbn. repeat split; try lra. }
  rewrite gs_div_l by (cbn; lra). assert (E : B_GS_eval_B_dB (gs_rip 0) 2 (PI / 2) 0 6%nat = - (1 * 1 / 2) * amp 1 4 1 (2 - 1) (0 - 2 * 0) * 1 * sin (1 * (PI / 2))).
  { unfold B_GS_eval_B_dB, ripple_delta, amp. cbv zeta. cbn [gN gs_rip]. change (0 <? 1)%Z with true. cbn [gR0 gz0 ga0 galpha gdelta gBphi0 gs_rip]. replace (0 - 0 - 0) with (0 - 2 * 0) by ring. set (q := 1 * exp _ * _). ring. }
  rewrite E, rip_at by lra. rewrite atan2_right by lra. replace ((0 - 2 * 0) / (2 - 1)) with 0 by field. rewrite atan_0. replace (-0.5 * 0 * 0) with 0 by ring. rewrite exp_0, !Rmult_1_l, sin_PI2. lra.
Qed.
(** the ripple pattern is centred at twice the height of the machine centre *)
Lemma gs_ripple_centre_l : forall g r phi d, 0 < gR0 g -> gR0 g < r -> vy (B_GS_eval_B g r phi (2 * gz0 g + d)) = vy (B_GS_eval_B g r phi (2 * gz0 g - d)).
Proof.
  intros g r phi d P0 Pr. rewrite !eval_B_tor by lra. unfold ripple. destruct (0 <? gN g)%Z; [|reflexivity]. replace (amp (ga0 g) (galpha g) (gdelta g) (r - gR0 g) (2 * gz0 g - d - 2 * gz0 g)) with (amp (ga0 g) (galpha g) (gdelta g) (r - gR0 g) (2 * gz0 g + d - 2 * gz0 g)); [reflexivity|].
  unfold amp. rewrite !atan2_right by lra. replace (2 * gz0 g - d - 2 * gz0 g) with (- d) by ring. replace (2 * gz0 g + d - 2 * gz0 g) with d by ring. replace (- d / (r - gR0 g)) with (- (d / (r - gR0 g))) by (field; lra). rewrite atan_opp.
  replace (- d * - d) with (d * d) by ring. set (u := atan _). replace (-0.5 * - u * - u) with (-0.5 * u * u) by ring. reflexivity.
Qed.
Lemma gs_ripple_midplane_refuted_l : exists g r phi d, 0 < gR0 g /\ gR0 g < r /\ 0 < ga0 g /\ vy (B_GS_eval_B g r phi (gz0 g + d)) <> vy (B_GS_eval_B g r phi (gz0 g - d)).
Proof.
  exists (gs_rip 1), 2, 0, 1. split; [cbn; lra|]. split; [cbn; lra|]. split; [cbn; lra|]. rewrite !eval_B_tor by (cbn; lra). unfold ripple. cbn [gN gs_rip gz0 gR0 gBphi0 ga0 galpha gdelta]. change (0 <? 1)%Z with true. cbv iota.
  rewrite !rip_at by lra. rewrite Rmult_0_r, cos_0. rewrite !atan2_right by lra. replace ((1 + 1 - 2 * 1) / (2 - 1)) with 0 by field. rewrite atan_0. replace (-0.5 * 0 * 0) with 0 by ring. rewrite exp_0.
  replace ((1 - 1 - 2 * 1) / (2 - 1)) with (-2) by field. pose proof (atan_bound (-2)) as [A B]. set (t := atan (-2)) in *.
  assert (PI <= 4) by apply PI_4. assert (t * t <= 4) by nra.
  assert (E : exp 1 * exp 1 <= 9). { pose proof exp_le_3. pose proof (exp_pos 1). nra. } rewrite <- exp_plus in E.
  assert (F : exp (-2) <= exp (-0.5 * t * t)). { destruct (Rle_lt_or_eq_dec (-2) (-0.5 * t * t)) as [W|W]; [lra|left; now apply exp_increasing|rewrite <- W; lra]. }
  assert (G : exp (1 + 1) * exp (-2) = 1). { rewrite <- exp_plus. replace (1 + 1 + -2) with 0 by ring. apply exp_0. }
  pose proof (exp_pos (-2)). assert (1 / 9 <= exp (-2)) by nra. set (u := exp (-0.5 * t * t)) in *. intro X. lra.
Qed.
