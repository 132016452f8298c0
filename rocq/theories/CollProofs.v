(** Proofs about the collision coefficients (CollModel, mccc_coefs.h) and the particle step. *)
From Coq Require Import Reals ZArith List Bool Lra Psatz Lia.
From Verif Require Import Vec ErrorModel Deriv GsProofs BiosawProofs PhysModel PhysProofs StepFoModel StepFoProofs GcModel Erf CollModel.
Import ListNotations.
Local Open Scope R_scope.

Ltac pz := repeat split; first [lra | apply Rgt_not_eq; repeat apply Rmult_lt_0_compat; lra].

(** ** Special functions *)
Lemma mufun_nz : forall x, x <> 0 -> mu0 x = (erf x - 2 * x * gauss x / sqrt PI) / (x * x) /\ mu1 x = erf x - mu0 x / 2 /\ dmu0 x = 4 * gauss x / sqrt PI - 2 * mu0 x / x.
Proof.
  intros x X. unfold mu0, mu1, dmu0, mufun. destruct (Req_EM_T x 0); [contradiction|]. cbn [fst snd]. cbv zeta.
  replace (- x * x) with (- (x * x)) by ring. fold (gauss x). repeat split; lra.
Qed.
(** the third special function is the derivative of the first *)
Lemma mu0_d : forall x, x <> 0 -> Dx mu0 x (dmu0 x).
Proof.
  intros x X. pose proof sqrtPI_pos. apply (d_near (fun t => (erf t - 2 * t * gauss t / sqrt PI) / (t * t))).
  { apply near_nz; auto. intros t T. symmetry. now apply mufun_nz. }
  eapply d_eq; [apply d_div; [apply d_minus; [apply erf_d|apply d_div; [apply d_mult; [apply d_mult; [apply d_const|apply d_id]|apply gauss_d]|apply d_const|lra]]|apply d_mult; apply d_id|nra]|]. cbv beta.
  destruct (mufun_nz x X) as (E0 & _ & E2). rewrite E2, E0. field. split; [lra|auto].
Qed.
Lemma mu1_d : forall x, x <> 0 -> Dx mu1 x (2 / sqrt PI * gauss x - dmu0 x / 2).
Proof.
  intros x X. apply (d_near (fun t => erf t - mu0 t / 2)). { apply near_nz; auto. intros t T. symmetry. now apply mufun_nz. }
  eapply d_eq; [apply d_minus; [apply erf_d|apply d_div; [apply mu0_d; auto|apply d_const|lra]]|]. cbv beta. field. pose proof sqrtPI_pos. lra.
Qed.
(** numerators: N0 = erf - 2 x e / sqrt pi has derivative 4 x^2 e / sqrt pi *)
Lemma n0_pos : forall x, 0 < x -> 0 < erf x - 2 * x * gauss x / sqrt PI.
Proof.
  intros x X. pose proof sqrtPI_pos. apply (mono_from0 (fun x => erf x - 2 * x * gauss x / sqrt PI) (fun t => 4 * (t * t) * gauss t / sqrt PI)); auto.
  - rewrite erf_0. field. lra.
  - intros t. eapply d_eq; [apply d_minus; [apply erf_d|apply d_div; [apply d_mult; [apply d_mult; [apply d_const|apply d_id]|apply gauss_d]|apply d_const|lra]]|]. cbv beta. field. lra.
  - intros t T. pose proof (gauss_pos t). apply Rdiv_lt_0_compat; auto. apply Rmult_lt_0_compat; [nra|auto].
Qed.
Lemma mu0_pos : forall x, 0 < x -> 0 < mu0 x.
Proof. intros x X. destruct (mufun_nz x ltac:(lra)) as (E & _ & _). rewrite E. apply Rdiv_lt_0_compat; [now apply n0_pos|nra]. Qed.
(** N1 = 2 x^2 erf - N0 has derivative 4 x erf *)
Lemma mu1_pos : forall x, 0 < x -> 0 < mu1 x.
Proof.
  intros x X. pose proof sqrtPI_pos. destruct (mufun_nz x ltac:(lra)) as (E0 & E1 & _). rewrite E1, E0.
  assert (P : 0 < (fun x => 2 * (x * x) * erf x - (erf x - 2 * x * gauss x / sqrt PI)) x).
  { apply (mono_from0 (fun x => 2 * (x * x) * erf x - (erf x - 2 * x * gauss x / sqrt PI)) (fun t => 4 * t * erf t)); auto.
    - rewrite erf_0. field. lra.
    - intros t. eapply d_eq; [apply d_minus; [apply d_mult; [apply d_mult; [apply d_const|apply d_mult; apply d_id]|apply erf_d]|apply d_minus; [apply erf_d|apply d_div; [apply d_mult; [apply d_mult; [apply d_const|apply d_id]|apply gauss_d]|apply d_const|lra]]]|]. cbv beta. field. lra.
    - intros t T. pose proof (erf_pos t T). nra. }
  cbv beta in P. replace (erf x - (erf x - 2 * x * gauss x / sqrt PI) / (x * x) / 2) with ((2 * (x * x) * erf x - (erf x - 2 * x * gauss x / sqrt PI)) / (2 * (x * x))) by (field; split; lra).
  apply Rdiv_lt_0_compat; [auto|nra].
Qed.
(** the coefficients at zero speed are the limits: |mu0 x / x - 4/(3 sqrt pi)| <= 4 x^2/(5 sqrt pi) *)
Lemma mu0_small : forall x, 0 < x -> 0 <= 4 / (3 * sqrt PI) - mu0 x / x <= 4 * (x * x) / (5 * sqrt PI).
Proof.
  intros x X. pose proof sqrtPI_pos. destruct (mufun_nz x ltac:(lra)) as (E0 & _ & _). rewrite E0.
  assert (D : forall t, Dx (fun x => erf x - 2 * x * gauss x / sqrt PI) t (4 * (t * t) * gauss t / sqrt PI)).
  { intros t. eapply d_eq; [apply d_minus; [apply erf_d|apply d_div; [apply d_mult; [apply d_mult; [apply d_const|apply d_id]|apply gauss_d]|apply d_const|lra]]|]. cbv beta. field. lra. }
  assert (U : 0 <= (fun x => 4 * (x * x * x) / (3 * sqrt PI) - (erf x - 2 * x * gauss x / sqrt PI)) x).
  { apply (mono_from0' (fun x => 4 * (x * x * x) / (3 * sqrt PI) - (erf x - 2 * x * gauss x / sqrt PI)) (fun t => 4 * (t * t) * (1 - gauss t) / sqrt PI)); [lra| | |].
    - rewrite erf_0. field. lra.
    - intros t. eapply d_eq; [apply d_minus; [apply d_div; [apply d_mult; [apply d_const|apply d_mult; [apply d_mult; apply d_id|apply d_id]]|apply d_const|lra]|apply D]|]. cbv beta. field. lra.
    - intros t _. pose proof (gauss_le1 t). unfold Rdiv. apply Rmult_le_pos; [|left; now apply Rinv_0_lt_compat]. apply Rmult_le_pos; [pose proof (Rle_0_sqr t); unfold Rsqr in *; lra|lra]. }
  assert (L : 0 <= (fun x => (erf x - 2 * x * gauss x / sqrt PI) - 4 * (x * x * x) / (3 * sqrt PI) + 4 * (x * x * x * (x * x)) / (5 * sqrt PI)) x).
  { apply (mono_from0' (fun x => (erf x - 2 * x * gauss x / sqrt PI) - 4 * (x * x * x) / (3 * sqrt PI) + 4 * (x * x * x * (x * x)) / (5 * sqrt PI)) (fun t => 4 * (t * t) * (gauss t - (1 - t * t)) / sqrt PI)); [lra| | |].
    - rewrite erf_0. field. lra.
    - intros t. eapply d_eq; [apply d_plus; [apply d_minus; [apply D|apply d_div; [apply d_mult; [apply d_const|apply d_mult; [apply d_mult; apply d_id|apply d_id]]|apply d_const|lra]]|apply d_div; [apply d_mult; [apply d_const|apply d_mult; [apply d_mult; [apply d_mult; apply d_id|apply d_id]|apply d_mult; apply d_id]]|apply d_const|lra]]|]. cbv beta. field. lra.
    - intros t _. pose proof (gauss_ge t). unfold Rdiv. apply Rmult_le_pos; [|left; now apply Rinv_0_lt_compat]. apply Rmult_le_pos; [pose proof (Rle_0_sqr t); unfold Rsqr in *; lra|lra]. }
  cbv beta in U, L. set (n := erf x - 2 * x * gauss x / sqrt PI) in *. assert (X3 : 0 < / (x * x * x)) by (apply Rinv_0_lt_compat; repeat apply Rmult_lt_0_compat; lra).
  replace (n / (x * x) / x) with (n * / (x * x * x)) by (field; lra).
  replace (4 / (3 * sqrt PI)) with (4 * (x * x * x) / (3 * sqrt PI) * / (x * x * x)) by (field; lra).
  replace (4 * (x * x) / (5 * sqrt PI)) with (4 * (x * x * x * (x * x)) / (5 * sqrt PI) * / (x * x * x)) by (field; lra).
  split; [rewrite <- Rmult_minus_distr_r; apply Rmult_le_pos; lra|]. rewrite <- Rmult_minus_distr_r. apply Rmult_le_compat_r; lra.
Qed.

(** ** One species *)
Definition sp_ok (s : psp) : Prop := 0 < s_m s /\ 0 < s_n s /\ 0 < s_T s.
Lemma vth_ok : forall s, sp_ok s -> 0 < vth s /\ vth s * vth s = 2 * s_T s / s_m s.
Proof.
  intros s (M & _ & T). unfold vth. assert (0 < 2 * s_T s / s_m s) by (apply Rdiv_lt_0_compat; lra). split; [now apply sqrt_lt_R0|apply sqrt_sqrt; lra].
Qed.
Lemma cab_sign : forall qa qb nb cl, qa <> 0 -> qb <> 0 -> 0 < nb -> 0 < cl -> 0 < cab qa qb nb cl.
Proof.
  intros qa qb nb cl A B N L. unfold cab. pose proof PI_RGT_0. assert (0 < CONST_E0) by (unfold CONST_E0; lra).
  assert (0 < qa * qa) by nra. assert (0 < qb * qb) by nra. apply Rdiv_lt_0_compat.
  - replace (nb * qa * qa * qb * qb * cl) with (nb * (qa * qa) * (qb * qb) * cl) by ring. apply Rmult_lt_0_compat; [apply Rmult_lt_0_compat; [apply Rmult_lt_0_compat|]|]; auto.
  - apply Rmult_lt_0_compat; [apply Rmult_lt_0_compat; [lra|auto]|auto].
Qed.
Section one.
Variables (ma qa : R) (cl : psp -> R).
Hypothesis M : 0 < ma.
Notation Q := (Q_of ma qa cl). Notation dQ := (dQ_of ma qa cl). Notation F := (F_of ma qa cl). Notation K := (K_of ma qa cl).
Notation Dp := (Dpara_of ma qa cl). Notation Dt := (Dperp_of ma qa cl). Notation dDp := (dDpara_of ma qa cl).
(** derivative of Dperp *)
Definition dDperp_of (v : R) (s : psp) : R :=
  cab qa (s_q s) (s_n s) (cl s) / (2 * ma * ma) * (((2 / sqrt PI * gauss (v / vth s) - dmu0 (v / vth s) / 2) / vth s) / v - mu1 (v / vth s) / (v * v)).
Lemma scaled_d : forall f f' b v, b <> 0 -> Dx f (v / b) f' -> Dx (fun u => f (u / b)) v (f' / b).
Proof. intros f f' b v B D. eapply d_eq; [apply (d_comp (fun u => u / b) f); [apply d_div; [apply d_id|apply d_const|exact B]|exact D]|]. cbv beta. field. auto. Qed.
Lemma ratio_nz : forall v s, sp_ok s -> 0 < v -> v / vth s <> 0.
Proof. intros v s O V. destruct (vth_ok s O). assert (0 < v / vth s) by (apply Rdiv_lt_0_compat; lra). lra. Qed.
Lemma Q_d : forall v s, sp_ok s -> 0 < v -> Dx (fun u => Q u s) v (dQ v s).
Proof.
  intros v s O V. destruct (vth_ok s O) as [B _]. destruct O as (O1 & O2 & O3). pose proof (mu0_d _ (ratio_nz v s (conj O1 (conj O2 O3)) V)) as D. apply scaled_d in D; [|lra].
  unfold Q_of, dQ_of, coef_Q, coef_dQ. eapply d_eq; [apply d_div; [apply d_mult; [apply d_const|exact D]|apply d_const|pz]|]. cbv beta. field. pz.
Qed.
Lemma Dpara_d : forall v s, sp_ok s -> 0 < v -> Dx (fun u => Dp u s) v (dDp v s).
Proof.
  intros v s O V. destruct (vth_ok s O) as [B _]. pose proof (mu0_d _ (ratio_nz v s O V)) as D. apply scaled_d in D; [|lra].
  unfold Dpara_of, dDpara_of, coef_Dpara, coef_dDpara.
  apply (d_near (fun u => cab qa (s_q s) (s_n s) (cl s) * mu0 (u / vth s) / (2 * ma * ma * u))). { apply near_pos; auto. intros t T. now destruct (Rlt_dec 0 t). }
  eapply d_eq; [apply d_div; [apply d_mult; [apply d_const|exact D]|apply d_mult; [apply d_const|apply d_id]|pz]|]. cbv beta. field. pz.
Qed.
Lemma Dperp_d : forall v s, sp_ok s -> 0 < v -> Dx (fun u => Dt u s) v (dDperp_of v s).
Proof.
  intros v s O V. destruct (vth_ok s O) as [B _]. pose proof (mu1_d _ (ratio_nz v s O V)) as D. apply scaled_d in D; [|lra].
  unfold Dperp_of, dDperp_of, coef_Dperp.
  apply (d_near (fun u => cab qa (s_q s) (s_n s) (cl s) * mu1 (u / vth s) / (2 * ma * ma * u))). { apply near_pos; auto. intros t T. now destruct (Rlt_dec 0 t). }
  eapply d_eq; [apply d_div; [apply d_mult; [apply d_const|exact D]|apply d_mult; [apply d_const|apply d_id]|pz]|]. cbv beta. field. pose proof sqrtPI_pos. pz.
Qed.
(** Einstein relation *)
Lemma einstein : forall v s, sp_ok s -> 0 < v -> Q v s = - (ma * v / s_T s) * Dp v s.
Proof.
  intros v s O V. destruct (vth_ok s O) as [B B2]. destruct O as (O1 & O2 & O3). unfold Q_of, Dpara_of, coef_Q, coef_Dpara. destruct (Rlt_dec 0 v); [|lra].
  replace (ma * s_m s * vth s * vth s) with (ma * s_m s * (vth s * vth s)) by ring. rewrite B2. field. pz.
Qed.
(** particle and guiding-centre drag *)
Lemma F_rel : forall v s, sp_ok s -> 0 < v -> F v s = Q v s + dDp v s + 2 * (Dp v s - Dt v s) / v.
Proof.
  intros v s O V. destruct (vth_ok s O) as [B B2]. pose proof (ratio_nz v s O V) as N. destruct O as (O1 & O2 & O3). unfold F_of, Q_of, dDpara_of, Dpara_of, Dperp_of, coef_F, coef_Q, coef_dDpara, coef_Dpara, coef_Dperp. destruct (Rlt_dec 0 v); [|lra].
  destruct (mufun_nz (v / vth s) N) as (E0 & E1 & E2). rewrite E1, E2, E0. pose proof sqrtPI_pos. field. pz.
Qed.
Lemma K_rel : forall v s, K v s = Q v s + dDp v s + 2 * Dp v s / v.
Proof. reflexivity. Qed.
Lemma coef_signs : forall v s, sp_ok s -> 0 < v -> qa <> 0 -> s_q s <> 0 -> 0 < cl s -> F v s < 0 /\ Q v s < 0 /\ 0 < Dp v s /\ 0 < Dt v s /\ 0 < nu_of ma qa cl v s.
Proof.
  intros v s O V A SB L. destruct (vth_ok s O) as [B B2]. destruct O as (O1 & O2 & O3). pose proof (cab_sign qa (s_q s) (s_n s) (cl s) A SB O2 L) as C.
  assert (X : 0 < v / vth s) by (apply Rdiv_lt_0_compat; lra). pose proof (mu0_pos _ X) as P0. pose proof (mu1_pos _ X) as P1.
  assert (D1 : 0 < Dp v s). { unfold Dpara_of, coef_Dpara. destruct (Rlt_dec 0 v); [|lra]. apply Rdiv_lt_0_compat; [now apply Rmult_lt_0_compat|repeat apply Rmult_lt_0_compat; lra]. }
  assert (D2 : 0 < Dt v s). { unfold Dperp_of, coef_Dperp. destruct (Rlt_dec 0 v); [|lra]. apply Rdiv_lt_0_compat; [now apply Rmult_lt_0_compat|repeat apply Rmult_lt_0_compat; lra]. }
  repeat split; auto.
  - unfold F_of, coef_F. assert (G : 0 < 1 / s_m s + 1 / ma) by (pose proof (Rdiv_lt_0_compat 1 _ Rlt_0_1 O1); pose proof (Rdiv_lt_0_compat 1 _ Rlt_0_1 M); lra).
    set (c := cab qa (s_q s) (s_n s) (cl s)) in *. clearbody c. set (g := 1 / s_m s + 1 / ma) in *. clearbody g. set (m0 := mu0 (v / vth s)) in *. clearbody m0.
    assert (0 < g * c * m0 / (ma * vth s * vth s)) by (apply Rdiv_lt_0_compat; repeat apply Rmult_lt_0_compat; lra).
    replace (- g * c * m0 / (ma * vth s * vth s)) with (- (g * c * m0 / (ma * vth s * vth s))) by (field; pz). lra.
  - rewrite einstein by (try split; auto). assert (0 < ma * v / s_T s) by (apply Rdiv_lt_0_compat; nra). nra.
  - unfold nu_of, coef_nu. apply Rdiv_lt_0_compat; nra.
Qed.
(** the zero-speed values are the limits at small speed *)
Lemma Dpara_small : forall v s, sp_ok s -> 0 < v ->
  Rabs (Dp v s - Dp 0 s) <= Rabs (cab qa (s_q s) (s_n s) (cl s)) / (2 * ma * ma * vth s) * (4 * ((v / vth s) * (v / vth s)) / (5 * sqrt PI)).
Proof.
  intros v s O V. destruct (vth_ok s O) as [B B2]. pose proof sqrtPI_pos. assert (X : 0 < v / vth s) by (apply Rdiv_lt_0_compat; lra). pose proof (mu0_small _ X) as P.
  unfold Dpara_of, coef_Dpara. destruct (Rlt_dec 0 v); [|lra]. destruct (Rlt_dec 0 0); [lra|]. set (c := cab qa (s_q s) (s_n s) (cl s)).
  replace (c * mu0 (v / vth s) / (2 * ma * ma * v) - c * 4 / (6 * sqrt PI * ma * ma * vth s)) with (- (c / (2 * ma * ma * vth s) * (4 / (3 * sqrt PI) - mu0 (v / vth s) / (v / vth s)))) by (field; pz).
  rewrite Rabs_Ropp, Rabs_mult. rewrite (Rabs_pos_eq (4 / _ - _)) by lra. unfold Rdiv at 1. rewrite Rabs_mult. rewrite (Rabs_pos_eq (/ _)) by (left; apply Rinv_0_lt_compat; repeat apply Rmult_lt_0_compat; lra).
  apply Rmult_le_compat_l; [|lra]. apply Rmult_le_pos; [apply Rabs_pos|left; apply Rinv_0_lt_compat; repeat apply Rmult_lt_0_compat; lra].
Qed.
End one.

(** ** All species *)
Lemma acc_app : forall f l a, fold_left (fun a s => a + f s) l a = a + acc f l.
Proof. intros f l. unfold acc. induction l as [|s l IH]; intros a; cbn [fold_left]; [ring|]. rewrite IH, (IH (0 + f s)). ring. Qed.
Lemma acc_cons : forall f s l, acc f (s :: l) = f s + acc f l.
Proof. intros. unfold acc at 1. cbn [fold_left]. rewrite acc_app. ring. Qed.
Lemma acc_nil : forall f, acc f [] = 0.
Proof. reflexivity. Qed.
Lemma acc_ext : forall (P : psp -> Prop) f g l, (forall s, P s -> f s = g s) -> Forall P l -> acc f l = acc g l.
Proof. intros P f g l E A. induction A as [|s l H A IH]; [reflexivity|]. rewrite !acc_cons, IH, (E s H). reflexivity. Qed.
Lemma acc_plus : forall f g l, acc (fun s => f s + g s) l = acc f l + acc g l.
Proof. intros. induction l as [|s l IH]; [rewrite !acc_nil; ring|rewrite !acc_cons, IH; ring]. Qed.
Lemma acc_scal : forall k f l, acc (fun s => k * f s) l = k * acc f l.
Proof. intros. induction l as [|s l IH]; [rewrite !acc_nil; ring|rewrite !acc_cons, IH; ring]. Qed.
Lemma acc_d : forall (f : R -> psp -> R) f' l v, Forall (fun s => Dx (fun u => f u s) v (f' s)) l -> Dx (fun u => acc (f u) l) v (acc f' l).
Proof.
  intros f f' l v A. induction A as [|s l H A IH].
  - apply (d_ext (fun _ => 0)); [intros; reflexivity|]. apply d_const.
  - apply (d_ext (fun u => f u s + acc (f u) l)); [intros; now rewrite acc_cons|]. rewrite acc_cons. now apply d_plus.
Qed.
Lemma acc_pos : forall (P : psp -> Prop) f l, l <> [] -> (forall s, P s -> 0 < f s) -> Forall P l -> 0 < acc f l.
Proof.
  intros P f l N E A. destruct A as [|s l H A]; [contradiction|]. clear N. rewrite acc_cons. enough (0 <= acc f l) by (pose proof (E s H); lra).
  induction A as [|s' l H' A IH]; [rewrite acc_nil; lra|]. rewrite acc_cons. pose proof (E s' H'). lra.
Qed.

(** *** The operator of a plasma in which all species have temperature T *)
Section plasma.
Variables (ma qa T : R) (cl : psp -> R) (sp : list psp).
Hypothesis M : 0 < ma.
Hypothesis ok : Forall (fun s => sp_ok s /\ s_T s = T) sp.
Lemma ok1 : Forall sp_ok sp.
Proof. eapply Forall_impl; [|exact ok]. intros s [H _]; exact H. Qed.
Notation Q v := (acc (Q_of ma qa cl v) sp). Notation F v := (acc (F_of ma qa cl v) sp). Notation K v := (acc (K_of ma qa cl v) sp).
Notation Dp v := (acc (Dpara_of ma qa cl v) sp). Notation Dt v := (acc (Dperp_of ma qa cl v) sp). Notation dDp v := (acc (dDpara_of ma qa cl v) sp).
Notation dQ v := (acc (dQ_of ma qa cl v) sp). Notation nu v := (acc (nu_of ma qa cl v) sp).
Lemma sum_Q : forall v, 0 < v -> Q v = - (ma * v / T) * Dp v.
Proof. intros v V. rewrite <- acc_scal. apply (acc_ext (fun s => sp_ok s /\ s_T s = T)); auto. intros s [O E]. rewrite <- E. now apply einstein. Qed.
Lemma sum_Dd : forall v, 0 < v -> Dx (fun u => Dp u) v (dDp v).
Proof. intros v V. apply acc_d. eapply Forall_impl; [|apply ok1]. intros s O. now apply Dpara_d. Qed.
Lemma sum_Qd : forall v, 0 < v -> Dx (fun u => Q u) v (dQ v).
Proof. intros v V. apply acc_d. eapply Forall_impl; [|apply ok1]. intros s O. now apply Q_d. Qed.
Lemma sum_F : forall v, 0 < v -> F v = Q v + dDp v + 2 * (Dp v - Dt v) / v.
Proof.
  intros v V. transitivity (acc (fun s => Q_of ma qa cl v s + (dDpara_of ma qa cl v s + (2 / v * Dpara_of ma qa cl v s + (- (2 / v)) * Dperp_of ma qa cl v s))) sp).
  - apply (acc_ext sp_ok); [|apply ok1]. intros s O. rewrite (F_rel ma qa cl M v s O V). field. lra.
  - rewrite !acc_plus, !acc_scal. field. lra.
Qed.
Lemma sum_K : forall v, 0 < v -> K v = Q v + dDp v + 2 * Dp v / v.
Proof.
  intros v V. transitivity (acc (fun s => Q_of ma qa cl v s + (dDpara_of ma qa cl v s + (2 / v * Dpara_of ma qa cl v s))) sp).
  - apply (acc_ext sp_ok); [|apply ok1]. intros s O. rewrite K_rel. field. lra.
  - rewrite !acc_plus, !acc_scal. field. lra.
Qed.
Lemma sum_nu : forall v, nu v = 2 * Dt v / (v * v).
Proof. intros v. transitivity (acc (fun s => (2 / (v * v)) * Dperp_of ma qa cl v s) sp); [|rewrite acc_scal; unfold Rdiv; ring]. apply (acc_ext sp_ok); [|apply ok1]. intros s O. unfold nu_of, coef_nu, Rdiv. ring. Qed.
(** guiding centres: in the speed the probability flux K p - (D p)' of the Maxwellian
    p = v^2 exp (- ma v^2 / 2 T) vanishes *)
Definition maxwell_speed (v : R) : R := v * v * exp (- (ma * (v * v) / (2 * T))).
Lemma T_nz : forall v, 0 < v -> sp <> [] -> 0 < T.
Proof. intros v V N. destruct ok as [|s l [(_ & _ & H) E] _]; [congruence|now subst]. Qed.
Lemma gc_stationary : forall v, 0 < v -> sp <> [] -> Dx (fun u => Dp u * maxwell_speed u) v (K v * maxwell_speed v).
Proof.
  intros v V N. pose proof (T_nz v V N). unfold maxwell_speed.
  eapply d_eq; [apply d_mult; [apply sum_Dd; auto|apply d_mult; [apply d_mult; apply d_id|apply d_exp, d_opp, d_div; [apply d_mult; [apply d_const|apply d_mult; apply d_id]|apply d_const|lra]]]|]. cbv beta.
  rewrite sum_K, sum_Q by auto. field. split; lra.
Qed.
(** and in the pitch that of the uniform distribution, at every speed *)
Lemma pitch_stationary : forall v xi, Dx (fun y => (1 - y * y) * nu v / 2) xi (- xi * nu v).
Proof. intros v xi. eapply d_eq; [apply d_div; [apply d_mult; [apply d_minus; [apply d_const|apply d_mult; apply d_id]|apply d_const]|apply d_const|lra]|]. cbv beta. field. Qed.
(** *** particles: the flux in velocity space *)
Definition comp (i : nat) (u : vec) : R := match i with 0%nat => vx u | 1%nat => vy u | _ => vz u end.
(** entry of the tensor A uu + B (1 - uu), u the direction *)
Definition entry (i j : nat) (A B : R) (u : vec) : R :=
  let d := if Nat.eqb i j then 1 else 0 in
  A * (comp i u / norm u * (comp j u / norm u)) + B * (d - comp i u / norm u * (comp j u / norm u)).
Definition maxwell (u : vec) : R := exp (- (ma * dot u u / (2 * T))).
(** sum over j of the derivative of the j-th function along axis j *)
Definition divergence (f : nat -> vec -> R) (u : vec) (d : R) : Prop :=
  exists d0 d1 d2, Dx (fun t => f 0%nat (V t (vy u) (vz u))) (vx u) d0 /\ Dx (fun t => f 1%nat (V (vx u) t (vz u))) (vy u) d1 /\ Dx (fun t => f 2%nat (V (vx u) (vy u) t)) (vz u) d2 /\ d = d0 + d1 + d2.
Lemma d_norm : forall x y z, 0 < norm (V x y z) ->
  Dx (fun t => norm (V t y z)) x (x / norm (V x y z)) /\ Dx (fun t => norm (V x t z)) y (y / norm (V x y z)) /\ Dx (fun t => norm (V x y t)) z (z / norm (V x y z)).
Proof.
  intros x y z N. assert (P : 0 < x * x + y * y + z * z). { pose proof (norm_sq (V x y z)) as E. unfold dot in E. cbn [vx vy vz] in E. nra. }
  unfold norm in *. cbn [vx vy vz] in *. repeat split.
  - eapply d_eq; [apply d_sqrt; [apply d_plus; [apply d_plus; [apply d_mult; apply d_id|apply d_const]|apply d_const]|exact P]|]. cbv beta. field. lra.
  - eapply d_eq; [apply d_sqrt; [apply d_plus; [apply d_plus; [apply d_const|apply d_mult; apply d_id]|apply d_const]|exact P]|]. cbv beta. field. lra.
  - eapply d_eq; [apply d_sqrt; [apply d_plus; [apply d_const|apply d_mult; apply d_id]|exact P]|]. cbv beta. field. lra.
Qed.
Lemma d_entry : forall (n f g A B : R -> R) x n' f' g' A' B' d, Dx n x n' -> Dx f x f' -> Dx g x g' -> Dx A (n x) A' -> Dx B (n x) B' -> n x <> 0 ->
  Dx (fun t => A (n t) * (f t / n t * (g t / n t)) + B (n t) * (d - f t / n t * (g t / n t))) x
     (A' * n' * (f x * g x) / (n x * n x) + (A (n x) - B (n x)) * ((f' * g x + f x * g') / (n x * n x) - 2 * f x * g x * n' / (n x * n x * n x)) + B' * n' * (d - f x * g x / (n x * n x))).
Proof.
  intros n f g A B x n' f' g' A' B' d N F0 G0 A0 B0 Z.
  assert (P : Dx (fun t => f t / n t * (g t / n t)) x ((f' * g x + f x * g') / (n x * n x) - 2 * f x * g x * n' / (n x * n x * n x))).
  { eapply d_eq; [apply d_mult; apply d_div; eauto|]. cbv beta. field. auto. }
  eapply d_eq; [apply d_plus; [apply d_mult; [apply (d_comp n A); eauto|exact P]|apply d_mult; [apply (d_comp n B); eauto|apply d_minus; [apply d_const|exact P]]]|]. cbv beta. field. auto.
Qed.
Lemma radial_div : forall (A B : R -> R) A' B' u i, u <> vzero -> Dx A (norm u) A' -> Dx B (norm u) B' -> (i < 3)%nat ->
  divergence (fun j w => entry i j (A (norm w)) (B (norm w)) w) u ((A' + 2 * (A (norm u) - B (norm u)) / norm u) * (comp i u / norm u)).
Proof.
  intros A B A' B' u i U DA DB I. pose proof (norm_pos u U) as N. pose proof (norm_sq u) as NS. destruct u as [x y z]. cbn [vx vy vz]. destruct (d_norm x y z N) as (N1 & N2 & N3).
  assert (NZ : norm (V x y z) <> 0) by lra. unfold divergence, entry. cbn [vx vy vz]. unfold dot in NS. cbn [vx vy vz] in NS.
  assert (E : forall a, (A' + 2 * (A (norm (V x y z)) - B (norm (V x y z))) / norm (V x y z)) * (a / norm (V x y z)) =
    A' * a * (x * x + y * y + z * z) / (norm (V x y z) * norm (V x y z) * norm (V x y z)) + (A (norm (V x y z)) - B (norm (V x y z))) * (4 * a / (norm (V x y z) * norm (V x y z)) - 2 * a * (x * x + y * y + z * z) / (norm (V x y z) * norm (V x y z) * norm (V x y z) * norm (V x y z))) + B' * (a / norm (V x y z) - a * (x * x + y * y + z * z) / (norm (V x y z) * norm (V x y z) * norm (V x y z)))).
  { intros a. rewrite <- NS. field. lra. }
  destruct i as [|[|[|]]]; [| | |lia]; cbn [comp Nat.eqb vx vy vz] in *; rewrite E; clear E NS;
  do 3 eexists; (split; [eapply (d_entry (fun t => norm (V t y z)) _ _ A B); [exact N1|first [apply d_id|apply d_const]|first [apply d_id|apply d_const]|exact DA|exact DB|exact NZ]|]);
  (split; [eapply (d_entry (fun t => norm (V x t z)) _ _ A B); [exact N2|first [apply d_id|apply d_const]|first [apply d_id|apply d_const]|exact DA|exact DB|exact NZ]|]);
  (split; [eapply (d_entry (fun t => norm (V x y t)) _ _ A B); [exact N3|first [apply d_id|apply d_const]|first [apply d_id|apply d_const]|exact DA|exact DB|exact NZ]|]);
  cbv beta; field; lra.
Qed.
(** the flux F u f - div (D f) of the Maxwellian vanishes in each component *)
Lemma fo_stationary : forall u i, u <> vzero -> sp <> [] -> (i < 3)%nat ->
  divergence (fun j w => entry i j (Dp (norm w)) (Dt (norm w)) w * maxwell w) u (F (norm u) * (comp i u / norm u) * maxwell u).
Proof.
  intros u i U N I. pose proof (norm_pos u U) as P. pose proof (T_nz (norm u) P N) as TP.
  set (m := fun r => exp (- (ma * (r * r) / (2 * T)))).
  assert (Mm : forall w, maxwell w = m (norm w)) by (intros w; unfold maxwell, m; now rewrite norm_sq).
  assert (Dm : Dx m (norm u) (- (ma * norm u / T) * m (norm u))).
  { unfold m. eapply d_eq; [apply d_exp, d_opp, d_div; [apply d_mult; [apply d_const|apply d_mult; apply d_id]|apply d_const|lra]|]. cbv beta. field. lra. }
  assert (DT : Dx (fun r => Dt r) (norm u) (acc (dDperp_of ma qa cl (norm u)) sp)). { apply acc_d. eapply Forall_impl; [|apply ok1]. intros s O. now apply Dperp_d. }
  pose proof (d_mult _ _ _ _ _ (sum_Dd (norm u) P) Dm) as DA. pose proof (d_mult _ _ _ _ _ DT Dm) as DB. cbv beta in DA, DB.
  destruct (radial_div (fun r => Dp r * m r) (fun r => Dt r * m r) _ _ u i U DA DB I) as (d0 & d1 & d2 & D0 & D1 & D2 & E).
  exists d0, d1, d2. split; [|split; [|split]].
  - eapply d_ext; [|exact D0]. intros t. cbv beta. unfold entry. rewrite Mm. ring.
  - eapply d_ext; [|exact D1]. intros t. cbv beta. unfold entry. rewrite Mm. ring.
  - eapply d_ext; [|exact D2]. intros t. cbv beta. unfold entry. rewrite Mm. ring.
  - rewrite <- E, Mm. rewrite sum_F, sum_Q by auto. cbv beta. field. lra.
Qed.
End plasma.
Lemma other_temperature : forall ma qa T cl sp, 0 < ma -> Forall (fun s => sp_ok s /\ s_T s = T) sp -> forall T' v, 0 < v -> 0 < T' -> sp <> [] ->
  Dx (fun u => acc (Dpara_of ma qa cl u) sp * maxwell_speed ma T' u) v
     ((acc (K_of ma qa cl v) sp + acc (Dpara_of ma qa cl v) sp * (ma * v) * (1 / T - 1 / T')) * maxwell_speed ma T' v).
Proof.
  intros ma qa T cl sp M O T' v V TP N. assert (0 < T) by (eapply T_nz; eauto). unfold maxwell_speed.
  eapply d_eq; [apply d_mult; [eapply sum_Dd; eauto|apply d_mult; [apply d_mult; apply d_id|apply d_exp, d_opp, d_div; [apply d_mult; [apply d_const|apply d_mult; apply d_id]|apply d_const|lra]]]|]. cbv beta.
  erewrite sum_K, sum_Q by eauto. field. repeat split; lra.
Qed.

(** ** Coulomb logarithm *)
Lemma clog_max : forall sp ma qa va s, 0 < debye sp -> 0 < ma -> sp_ok s ->
  clog sp ma qa va s = ln (debye sp / Rmax (bcl ma qa va s) (bqm ma va s)) /\ 0 < bqm ma va s /\
  (0 < clog sp ma qa va s <-> bcl ma qa va s < debye sp /\ bqm ma va s < debye sp).
Proof.
  intros sp ma qa va s D M (O1 & O2 & O3).
  assert (B : 0 < bqm ma va s).
  { unfold bqm. apply Rabs_pos_lt. assert (0 < CONST_HBAR) by (unfold CONST_HBAR; lra). assert (0 < ma * s_m s / (ma + s_m s)) by (apply Rdiv_lt_0_compat; nra).
    assert (0 < va * va + 2 * s_T s / s_m s) by (assert (0 < 2 * s_T s / s_m s) by (apply Rdiv_lt_0_compat; lra); pose proof (Rle_0_sqr va); unfold Rsqr in *; lra).
    assert (0 < sqrt (va * va + 2 * s_T s / s_m s)) by (now apply sqrt_lt_R0). apply Rgt_not_eq. apply Rdiv_lt_0_compat; auto. apply Rmult_lt_0_compat; [apply Rmult_lt_0_compat; [lra|auto]|auto]. }
  assert (E : clog sp ma qa va s = ln (debye sp / Rmax (bcl ma qa va s) (bqm ma va s))).
  { unfold clog. destruct (Rlt_dec (bqm ma va s) (bcl ma qa va s)); [rewrite Rmax_left by lra|rewrite Rmax_right by lra]; reflexivity. }
  split; [exact E|]. split; [exact B|]. rewrite E. set (b := Rmax _ _). assert (0 < b) by (pose proof (Rmax_r (bcl ma qa va s) (bqm ma va s)); unfold b; lra).
  assert (W : 0 < ln (debye sp / b) <-> b < debye sp).
  { split; intros H0.
    - rewrite <- ln_1 in H0. apply ln_lt_inv in H0; [|lra|apply Rdiv_lt_0_compat; lra]. apply (Rmult_lt_reg_r (/ b)); [now apply Rinv_0_lt_compat|]. rewrite Rinv_r by lra. exact H0.
    - rewrite <- ln_1. apply ln_increasing; [lra|]. apply (Rmult_lt_reg_r b); auto. unfold Rdiv. rewrite Rmult_assoc, Rinv_l by lra. lra. }
  rewrite W. unfold b. split; intros H0; [split; eapply Rle_lt_trans; eauto; [apply Rmax_l|apply Rmax_r]|]. apply Rmax_lub_lt; tauto.
Qed.
Lemma debye_pos : forall sp, Forall sp_ok sp -> Exists (fun s => s_q s <> 0) sp -> 0 < debye sp.
Proof.
  intros sp O X. unfold debye. apply sqrt_lt_R0. apply Rdiv_lt_0_compat; [unfold CONST_E0; lra|]. change (0 < acc (fun s => s_n s * s_q s * s_q s / s_T s) sp).
  assert (P : forall s, sp_ok s -> 0 <= s_n s * s_q s * s_q s / s_T s).
  { intros s (O1 & O2 & O3). unfold Rdiv. apply Rmult_le_pos; [|left; now apply Rinv_0_lt_compat]. rewrite Rmult_assoc. apply Rmult_le_pos; [lra|]. apply (Rle_0_sqr (s_q s)). }
  assert (PA : forall l, Forall sp_ok l -> 0 <= acc (fun s => s_n s * s_q s * s_q s / s_T s) l).
  { intros l A. induction A as [|s l H A IH]; [rewrite acc_nil; lra|rewrite acc_cons; pose proof (P s H); lra]. }
  induction X as [s l H|s l H IH]; inversion_clear O as [|? ? O1 O2]; rewrite acc_cons.
  - pose proof (PA l O2). enough (0 < s_n s * s_q s * s_q s / s_T s) by lra. destruct O1 as (? & ? & ?). apply Rdiv_lt_0_compat; auto. rewrite Rmult_assoc. apply Rmult_lt_0_compat; auto. nra.
  - pose proof (P s O1). specialize (IH O2). lra.
Qed.

(** ** The particle step *)
Definition gam (p : fom) : R := gamma_pnorm (fmass p) (norm (fp p)).
Definition mrest (p q : fom) : Prop := fr q = fr p /\ fphi q = fphi p /\ fz q = fz p /\ ftime q = ftime p /\ fmass q = fmass p /\ fcharge q = fcharge p /\ fB q = fB p /\ frho q = frho p /\ ftheta q = ftheta p.
(** velocity of the marker and flow velocity along the field, Cartesian *)
Definition vel (p : fom) : vec := vscal (/ (gam p * fmass p)) (cart_p p).
Definition flow (p : fom) (vf : R) : vec := vscal vf (to_xyz (unit (Bvec (fB p))) (fphi p)).
Lemma rel_is : forall p vf, 0 < fmass p -> fo_relative p vf = vsub (vel p) (flow p vf).
Proof.
  intros p vf M. assert (G : 1 <= gam p) by (apply gamma_pnorm_sq; lra).
  unfold fo_relative, vel, flow, vsub, vscal, to_xyz, unit, cart_p. cbn [vx vy vz].
  change (sqrt (vx (fp p) * vx (fp p) + vy (fp p) * vy (fp p) + vz (fp p) * vz (fp p))) with (norm (fp p)). fold (gam p).
  change (sqrt (fB p 0%nat * fB p 0%nat + fB p 4%nat * fB p 4%nat + fB p 8%nat * fB p 8%nat)) with (norm (Bvec (fB p))).
  change (vx (Bvec (fB p))) with (fB p 0%nat). change (vy (Bvec (fB p))) with (fB p 4%nat). change (vz (Bvec (fB p))) with (fB p 8%nat).
  apply f_equal3; unfold Rdiv; ring.
Qed.
Lemma lab_rel : forall p vf k, 0 < fmass p -> norm (fo_lab p vf k) < CONST_C ->
  let q := fo_set p (vscal (gamma_vnorm (norm (fo_lab p vf k)) * fmass p) (fo_lab p vf k)) (ferr p) (frun p) in
  fo_relative q vf = k /\ gam q = gamma_vnorm (norm (fo_lab p vf k)) /\ vel q = to_xyz (fo_lab p vf k) (fphi p).
Proof.
  intros p vf k M L q. set (v := fo_lab p vf k) in *. pose proof (norm_nonneg v) as NN. assert (A : Rabs (norm v) < CONST_C) by (rewrite Rabs_pos_eq; auto).
  destruct (lorentz_vnorm (norm v) A) as [_ G1]. set (g := gamma_vnorm (norm v)) in *.
  assert (G : gam q = g).
  { unfold gam, q. cbn [fmass fp fo_set]. rewrite norm_scal, (Rabs_pos_eq (g * fmass p)) by nra. replace (g * fmass p * norm v) with (pnorm_vnorm (fmass p) (norm v)) by (unfold pnorm_vnorm; fold g; ring). now apply pnorm_gamma. }
  assert (VQ : vel q = to_xyz v (fphi p)).
  { unfold vel. rewrite G. unfold q, cart_p, to_xyz, vscal. cbn [fo_set fmass fp fphi vx vy vz]. apply f_equal3; field; split; lra. }
  split; [|split; auto]. rewrite rel_is by exact M. rewrite VQ. unfold flow, q. cbn [fo_set fB fphi]. unfold v, fo_lab. pose proof (trig1 (fphi p)) as T. set (s := sin (fphi p)) in *. set (c := cos (fphi p)) in *.
  change (sqrt (fB p 0%nat * fB p 0%nat + fB p 4%nat * fB p 4%nat + fB p 8%nat * fB p 8%nat)) with (norm (Bvec (fB p))).
  unfold vsub, vscal, to_xyz, unit. cbn [vx vy vz]. fold s c. change (vx (Bvec (fB p))) with (fB p 0%nat). change (vy (Bvec (fB p))) with (fB p 4%nat). change (vz (Bvec (fB p))) with (fB p 8%nat).
  destruct k as [k1 k2 k3]. cbn [vx vy vz]. apply f_equal3; unfold Rdiv; [transitivity (k1 * (s * s + c * c)); [ring|rewrite T; ring]|transitivity (k2 * (s * s + c * c)); [ring|rewrite T; ring]|ring].
Qed.
(** undoing the change of frame *)
Lemma lab_rel0 : forall p vf, 0 < fmass p -> fo_lab p vf (fo_relative p vf) = vscal (/ (gam p * fmass p)) (fp p).
Proof.
  intros p vf M. rewrite rel_is by auto. unfold fo_lab, vel, flow. pose proof (trig1 (fphi p)) as T. 
  change (sqrt (fB p 0%nat * fB p 0%nat + fB p 4%nat * fB p 4%nat + fB p 8%nat * fB p 8%nat)) with (norm (Bvec (fB p))).
  unfold vsub, vscal, to_xyz, unit, cart_p. cbn [vx vy vz]. change (vx (Bvec (fB p))) with (fB p 0%nat). change (vy (Bvec (fB p))) with (fB p 4%nat). change (vz (Bvec (fB p))) with (fB p 8%nat).
  set (s := sin (fphi p)) in *. set (c := cos (fphi p)) in *. set (i := / (gam p * fmass p)). set (n := norm (Bvec (fB p))). clearbody i n. destruct (fp p) as [p1 p2 p3]. cbn [vx vy vz].
  apply f_equal3; unfold Rdiv.
  - transitivity (i * p1 * (s * s + c * c) - vf * fB p 0%nat * / n * (s * s + c * c) + vf * fB p 0%nat * / n); [ring|rewrite T; ring].
  - transitivity (i * p2 * (s * s + c * c) - vf * fB p 4%nat * / n * (s * s + c * c) + vf * fB p 4%nat * / n); [ring|rewrite T; ring].
  - ring.
Qed.
(** the velocity step is the drift plus noise linear in the random numbers, with the covariance of the diffusion tensor *)
Lemma kick_law : forall F Dp Dt h u, 0 <= Dp -> 0 <= Dt -> 0 <= h -> u <> vzero ->
  exists W : vec -> vec,
    (forall rnd e, dot e (vsub (fo_kick F Dp Dt h u rnd) u) = F * h * dot e (unit u) + dot (W e) rnd) /\
    (forall e e', dot (W e) (W e') = 2 * h * (Dp * (dot e (unit u) * dot e' (unit u)) + Dt * (dot e e' - dot e (unit u) * dot e' (unit u)))).
Proof.
  intros F Dp Dt h u HP HT HH U. assert (N : dot (unit u) (unit u) = 1).
  { pose proof (norm_pos u U). transitivity (dot u u / (norm u * norm u)); [unfold unit, dot; cbn [vx vy vz]; field; lra|rewrite <- norm_sq; field; lra]. }
  set (n := unit u) in *. set (a := sqrt (2 * Dp)). set (b := sqrt (2 * Dt)). set (k := sqrt h).
  assert (A2 : a * a = 2 * Dp) by (apply sqrt_sqrt; lra). assert (B2 : b * b = 2 * Dt) by (apply sqrt_sqrt; lra). assert (K2 : k * k = h) by (now apply sqrt_sqrt).
  exists (fun e => vscal k (vadd (vscal (a * dot e n) n) (vscal b (vsub e (vscal (dot e n) n))))). split.
  - intros rnd e. unfold fo_kick. fold n a b k. destruct n as [n1 n2 n3], rnd as [r1 r2 r3], e as [e1 e2 e3], u as [u1 u2 u3]. unfold dot, vsub, vadd, vscal. cbn [vx vy vz]. ring.
  - intros e e'. transitivity (k * k * (a * a * (dot e n * dot e' n) * dot n n + b * b * (dot e e' - 2 * (dot e n * dot e' n) + dot e n * dot e' n * dot n n) + a * b * (2 * (dot e n * dot e' n) - 2 * (dot e n * dot e' n) * dot n n))).
    + destruct n as [n1 n2 n3], e as [e1 e2 e3], e' as [f1 f2 f3]. unfold dot, vsub, vadd, vscal. cbn [vx vy vz]. ring.
    + rewrite N, A2, B2, K2. ring.
Qed.
Lemma kick_0 : forall F Dp Dt u rnd, fo_kick F Dp Dt 0 u rnd = u.
Proof. intros F Dp Dt u rnd. unfold fo_kick. rewrite sqrt_0. destruct u as [u1 u2 u3]. unfold dot. cbn [vx vy vz]. apply f_equal3; ring. Qed.
Section fostep.
Variables (evalFlow : R -> R -> R -> R -> R -> Z * R) (evalPlasma : R -> R -> R -> R -> R -> Z * list psp).
Notation stp := (mccc_fo_euler evalFlow evalPlasma).
Lemma fo_coll_idle : forall h rnd p, frun p = false -> stp h rnd p = Some p.
Proof. intros h rnd p H. unfold mccc_fo_euler. now rewrite H. Qed.
Lemma fo_coll_error : forall h rnd p e vf e' sp, frun p = true ->
  evalFlow (frho p) (fr p) (fphi p) (fz p) (ftime p) = (e, vf) -> evalPlasma (frho p) (fr p) (fphi p) (fz p) (ftime p) = (e', sp) -> e <> 0%Z \/ e' <> 0%Z ->
  exists q, stp h rnd p = Some q /\ mrest p q /\ fp q = fp p /\ frun q = false /\ ferr q = (if (e =? 0)%Z then e' else e).
Proof.
  intros h rnd p e vf e' sp R H H' X. unfold mccc_fo_euler. rewrite R, H, H'. destruct (Z.eqb_spec e 0) as [->|N].
  - assert (E : (e' =? 0)%Z = false) by (apply Z.eqb_neq; destruct X; congruence). rewrite E. eexists. split; [reflexivity|]. unfold mrest, fo_set. cbn. repeat split; reflexivity.
  - rewrite (proj2 (Z.eqb_neq e 0) N). eexists. split; [reflexivity|]. unfold mrest, fo_set. cbn. repeat split; reflexivity.
Qed.
(** coefficients of the step *)
Definition fo_u (p : fom) : R -> vec := fun vf => vsub (vel p) (flow p vf).
Lemma fo_coll_step : forall h rnd p q vf sp, frun p = true -> 0 < fmass p ->
  evalFlow (frho p) (fr p) (fphi p) (fz p) (ftime p) = (0%Z, vf) -> evalPlasma (frho p) (fr p) (fphi p) (fz p) (ftime p) = (0%Z, sp) ->
  stp h rnd p = Some q ->
  let u := vsub (vel p) (flow p vf) in let cl := clog sp (fmass p) (fcharge p) (norm u) in
  let F := acc (F_of (fmass p) (fcharge p) cl (norm u)) sp in let Dp := acc (Dpara_of (fmass p) (fcharge p) cl (norm u)) sp in let Dt := acc (Dperp_of (fmass p) (fcharge p) cl (norm u)) sp in
  u <> vzero /\ 0 <= h /\ 0 <= Dp /\ 0 <= Dt /\ mrest p q /\ ferr q = ferr p /\ frun q = true /\ norm (vel q) < CONST_C /\
  vsub (vel q) (flow q vf) = fo_kick F Dp Dt h u rnd.
Proof.
  intros h rnd p q vf sp RUN M HF HP H u cl F Dp Dt. unfold mccc_fo_euler in H. rewrite RUN, HF in H. cbv iota beta zeta in H. change ((0 =? 0)%Z) with true in H. cbv iota in H. rewrite HP in H. cbv iota beta in H. change ((0 =? 0)%Z) with true in H. cbv iota in H.
  rewrite rel_is in H by auto. fold u in H. fold cl in H. fold F Dp Dt in H. set (k := fo_kick F Dp Dt h u rnd) in *.
  assert (some_inj : forall (A : Type) (a b : A), Some a = Some b -> a = b) by (intros A a b E; now injection E).
  destruct (moving (norm u)) eqn:E1; [|discriminate]. destruct (le0 h) eqn:E2; [|discriminate]. destruct (le0 Dp) eqn:E3; [|discriminate]. destruct (le0 Dt) eqn:E4; [|discriminate]. destruct (below_c (norm (fo_lab p vf k))) eqn:E5; [|discriminate]. cbn [andb] in H.
  unfold moving in E1. destruct (Req_EM_T (norm u) 0) as [|N0]; [discriminate|]. unfold le0 in *. destruct (Rle_dec 0 h); [|discriminate]. destruct (Rle_dec 0 Dp); [|discriminate]. destruct (Rle_dec 0 Dt); [|discriminate].
  unfold below_c in E5. destruct (Rlt_dec _ _) as [L|]; [|discriminate]. rewrite Rabs_pos_eq in L by apply norm_nonneg.
  apply some_inj in H. assert (HQ : q = fo_set p (vscal (gamma_vnorm (norm (fo_lab p vf k)) * fmass p) (fo_lab p vf k)) (ferr p) (frun p)).
  { rewrite <- H, RUN. apply (f_equal (fun w => fo_set p w (ferr p) true)). unfold vscal. apply f_equal3; ring. }
  destruct (lab_rel p vf k M L) as (A & B & C). rewrite <- HQ in A, B, C.
  assert (MQ : fmass q = fmass p) by (now rewrite HQ).
  split; [intros Z; apply N0; now apply norm_zero|]. do 3 (split; [assumption|]). split; [rewrite HQ; unfold mrest, fo_set; cbn; repeat split; reflexivity|]. split; [now rewrite HQ|]. split; [rewrite HQ; exact RUN|].
  split; [rewrite C; rewrite (norm_eq _ (fo_lab p vf k)); [exact L|apply to_xyz_dot]|]. rewrite <- rel_is by (now rewrite MQ). exact A.
Qed.
(** no time, no change *)
Lemma fo_coll_0 : forall rnd p q vf sp, frun p = true -> 0 < fmass p ->
  evalFlow (frho p) (fr p) (fphi p) (fz p) (ftime p) = (0%Z, vf) -> evalPlasma (frho p) (fr p) (fphi p) (fz p) (ftime p) = (0%Z, sp) ->
  stp 0 rnd p = Some q -> q = p.
Proof.
  intros rnd p q vf sp RUN M HF HP H. unfold mccc_fo_euler in H. rewrite RUN, HF in H. cbv iota beta zeta in H. change ((0 =? 0)%Z) with true in H. cbv iota in H. rewrite HP in H. cbv iota beta in H. change ((0 =? 0)%Z) with true in H. cbv iota in H.
  rewrite kick_0, lab_rel0 in H by auto. destruct (_ && _)%bool; [|discriminate]. assert (some_inj : forall (A : Type) (a b : A), Some a = Some b -> a = b) by (intros A a b E; now injection E). apply some_inj in H. rewrite <- H. clear H.
  assert (G : 1 <= gam p) by (apply gamma_pnorm_sq; lra). assert (NV : norm (vscal (/ (gam p * fmass p)) (fp p)) = vnorm_pnorm (fmass p) (norm (fp p))).
  { rewrite norm_scal, Rabs_pos_eq by (left; apply Rinv_0_lt_compat; nra). rewrite vnorm_pnorm_alt by auto. fold (gam p). unfold Rdiv. rewrite Rmult_comm. f_equal. f_equal. ring. }
  rewrite NV. assert (GV : gamma_vnorm (vnorm_pnorm (fmass p) (norm (fp p))) = gam p).
  { pose proof (vnorm_pnorm_lorentz (fmass p) (norm (fp p)) M) as L. pose proof (lorentz_below _ _ L) as LB. destruct (lorentz_vnorm _ LB) as [L2 _]. eapply lorentz_unique; eauto. }
  rewrite GV. destruct p as [r ph z t m c [p1 p2 p3] B rho th e run]. unfold fo_set, vscal. cbn [fp vx vy vz fmass fr fphi fz ftime fcharge fB frho ftheta ferr frun] in *. subst run. f_equal. apply f_equal3; field; split; lra.
Qed.
(** with positive Coulomb logarithms the step fails only by reaching the speed of light, silently *)
Lemma fo_coll_fail : forall h rnd p vf sp, frun p = true -> 0 < fmass p -> fcharge p <> 0 ->
  evalFlow (frho p) (fr p) (fphi p) (fz p) (ftime p) = (0%Z, vf) -> evalPlasma (frho p) (fr p) (fphi p) (fz p) (ftime p) = (0%Z, sp) ->
  let u := vsub (vel p) (flow p vf) in let cl := clog sp (fmass p) (fcharge p) (norm u) in
  u <> vzero -> 0 <= h -> sp <> [] -> Forall (fun s => sp_ok s /\ s_q s <> 0 /\ 0 < cl s) sp ->
  let F := acc (F_of (fmass p) (fcharge p) cl (norm u)) sp in let Dp := acc (Dpara_of (fmass p) (fcharge p) cl (norm u)) sp in let Dt := acc (Dperp_of (fmass p) (fcharge p) cl (norm u)) sp in
  (stp h rnd p = None <-> CONST_C <= norm (vadd (fo_kick F Dp Dt h u rnd) (flow p vf))).
Proof.
  intros h rnd p vf sp RUN M QN HF HP u cl U H0 NE OK F Dp Dt. pose proof (norm_pos u U) as NU.
  assert (SG : forall s, sp_ok s /\ s_q s <> 0 /\ 0 < cl s -> 0 < Dpara_of (fmass p) (fcharge p) cl (norm u) s /\ 0 < Dperp_of (fmass p) (fcharge p) cl (norm u) s).
  { intros s (A & B & C). destruct (coef_signs (fmass p) (fcharge p) cl M (norm u) s A NU QN B C) as (_ & _ & X & Y & _). tauto. }
  assert (PP : 0 < Dp) by (eapply acc_pos; [exact NE|intros s S0; exact (proj1 (SG s S0))|exact OK]). assert (PT : 0 < Dt) by (eapply acc_pos; [exact NE|intros s S0; exact (proj2 (SG s S0))|exact OK]).
  assert (NL : forall k, norm (fo_lab p vf k) = norm (vadd k (flow p vf))).
  { intros k. apply norm_eq. rewrite <- (to_xyz_dot (fo_lab p vf k) (fo_lab p vf k) (fphi p)). replace (to_xyz (fo_lab p vf k) (fphi p)) with (vadd k (flow p vf)); [reflexivity|].
    unfold fo_lab, flow. pose proof (trig1 (fphi p)) as T. change (sqrt (fB p 0%nat * fB p 0%nat + fB p 4%nat * fB p 4%nat + fB p 8%nat * fB p 8%nat)) with (norm (Bvec (fB p))).
    unfold vadd, vscal, to_xyz, unit. cbn [vx vy vz]. change (vx (Bvec (fB p))) with (fB p 0%nat). change (vy (Bvec (fB p))) with (fB p 4%nat). change (vz (Bvec (fB p))) with (fB p 8%nat).
    set (s := sin (fphi p)) in *. set (c := cos (fphi p)) in *. set (n := norm (Bvec (fB p))). clearbody n. destruct k as [k1 k2 k3]. cbn [vx vy vz]. apply f_equal3; unfold Rdiv; [|  |ring].
    - transitivity (k1 * (s * s + c * c) + vf * (fB p 0%nat * / n * c - fB p 4%nat * / n * s)); [rewrite T; ring|ring].
    - transitivity (k2 * (s * s + c * c) + vf * (fB p 0%nat * / n * s + fB p 4%nat * / n * c)); [rewrite T; ring|ring]. }
  unfold mccc_fo_euler. rewrite RUN, HF. cbv iota beta zeta. change ((0 =? 0)%Z) with true. cbv iota. rewrite HP. cbv iota beta. change ((0 =? 0)%Z) with true. cbv iota.
  rewrite rel_is by auto. fold u. fold cl. fold F Dp Dt. set (k := fo_kick F Dp Dt h u rnd). rewrite <- NL.
  unfold moving. destruct (Req_EM_T (norm u) 0); [lra|]. unfold le0. destruct (Rle_dec 0 h); [|lra]. destruct (Rle_dec 0 Dp); [|lra]. destruct (Rle_dec 0 Dt); [|lra]. cbn [andb].
  unfold below_c. rewrite Rabs_pos_eq by apply norm_nonneg. destruct (Rlt_dec _ _); split; intros X; try discriminate; try reflexivity; lra.
Qed.
End fostep.
(** ** Impact parameters and spatial diffusion *)
(** at the classical distance the Coulomb energy is mr vbar, the quantum one is half the reduced wavelength *)
Lemma impact : forall ma qa va s, 0 < ma -> sp_ok s -> let mr := / (/ ma + / s_m s) in let u := sqrt (va * va + 2 * s_T s / s_m s) in
  4 * PI * CONST_E0 * bcl ma qa va s * (mr * (u * u)) = Rabs (qa * s_q s) /\ 2 * (mr * u) * bqm ma va s = CONST_HBAR.
Proof.
  intros ma qa va s M (O1 & O2 & O3) mr u. assert (P : 0 < va * va + 2 * s_T s / s_m s) by (assert (0 < 2 * s_T s / s_m s) by (apply Rdiv_lt_0_compat; lra); pose proof (Rle_0_sqr va); unfold Rsqr in *; lra).
  assert (U : 0 < u) by (now apply sqrt_lt_R0). assert (U2 : u * u = va * va + 2 * s_T s / s_m s) by (apply sqrt_sqrt; lra).
  assert (E : mr = ma * s_m s / (ma + s_m s)) by (unfold mr; field; repeat split; lra). assert (MR : 0 < mr) by (rewrite E; apply Rdiv_lt_0_compat; nra). pose proof PI_RGT_0. assert (0 < CONST_E0) by (unfold CONST_E0; lra).
  unfold bcl, bqm. rewrite <- E, <- U2. rewrite (sqrt_square u) by lra. clearbody mr u. split.
  - unfold Rdiv. rewrite Rabs_mult. rewrite (Rabs_pos_eq (/ _)) by (left; apply Rinv_0_lt_compat; apply Rmult_lt_0_compat; [apply Rmult_lt_0_compat; [apply Rmult_lt_0_compat; lra|lra]|nra]). field. repeat split; lra.
  - assert (0 < CONST_HBAR) by (unfold CONST_HBAR; lra). set (hb := CONST_HBAR) in *. clearbody hb. rewrite Rabs_pos_eq; [field; repeat split; lra|]. left. apply Rdiv_lt_0_compat; [auto|]. apply Rmult_lt_0_compat; lra.
Qed.
(** the spatial diffusion is the velocity diffusion across the field, averaged over the gyration
    (two gyro-phases a quarter turn apart suffice), over the gyrofrequency squared *)
Lemma DX_average : forall v xi zeta A B w, 0 < v -> -1 <= xi <= 1 -> w <> 0 ->
  let u z := V (v * sqrt (1 - xi * xi) * cos z) (v * sqrt (1 - xi * xi) * sin z) (v * xi) in
  coef_DX xi A B w * (w * w) = (entry 0 0 A B (u zeta) + entry 0 0 A B (u (zeta + PI / 2))) / 2.
Proof.
  intros v xi zeta A B w V0 X W u. assert (S0 : 0 <= 1 - xi * xi) by nra. assert (SS := sqrt_sqrt _ S0). set (k := sqrt (1 - xi * xi)) in *. clearbody k.
  assert (N : forall z, norm (u z) = v).
  { intros z. unfold norm, u. cbn [vx vy vz]. transitivity (sqrt (v * v)); [f_equal|apply sqrt_square; lra]. pose proof (trig1 z) as T. transitivity (v * v * (k * k * (sin z * sin z + cos z * cos z) + xi * xi)); [ring|]. rewrite T, SS. ring. }
  unfold entry. rewrite !N. cbn [Nat.eqb comp]. unfold u. cbn [vx]. replace (cos (zeta + PI / 2)) with (- sin zeta) by (rewrite cos_plus, cos_PI2, sin_PI2; ring).
  pose proof (trig1 zeta) as T. set (s := sin zeta) in *. set (c := cos zeta) in *. clearbody s c. unfold coef_DX. replace 0.5 with (/ 2) by lra.
  transitivity ((2 * B + (A - B) * (k * k) * (s * s + c * c)) / 2); [rewrite T, SS; field; lra|field; lra].
Qed.
