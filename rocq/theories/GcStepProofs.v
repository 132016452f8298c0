(** Proofs about step control and the guiding-centre and field-line steps. *)
From Coq Require Import Reals ZArith List Lra Lia Psatz Bool FunctionalExtensionality.
From Verif Require Import MathModel MathProofs ErrorModel AxisModel Vec PhysModel PhysProofs GcModel GcProofs RkProofs.
Import ListNotations.
Local Open Scope R_scope.

(** ** Step control *)
Lemma Rpower_ge1 : forall x a, 0 < x <= 1 -> a <= 0 -> 1 <= Rpower x a.
Proof.
  intros x a [X X1] A. unfold Rpower. assert (ln x <= 0).
  { rewrite <- ln_1. destruct X1 as [X1| ->]; [left; now apply ln_increasing|right; auto]. }
  assert (0 <= a * ln x) by nra. pose proof (exp_ineq1_le (a * ln x)). lra.
Qed.
Lemma Rpower_lt1 : forall x a, 1 < x -> a < 0 -> 0 < Rpower x a < 1.
Proof.
  intros x a X A. unfold Rpower. split; [apply exp_pos|]. assert (0 < ln x) by (rewrite <- ln_1; apply ln_increasing; lra).
  rewrite <- exp_0. apply exp_increasing. nra.
Qed.
Lemma ratio_le : forall err tol, 0 < tol -> (err / tol <= 1 <-> err <= tol).
Proof.
  intros err tol T. split; intros H.
  - apply (Rmult_le_compat_r tol) in H; [|lra]. unfold Rdiv in H. rewrite Rmult_assoc, Rinv_l in H by lra. lra.
  - apply (Rmult_le_reg_r tol); [lra|]. unfold Rdiv. rewrite Rmult_assoc, Rinv_l by lra. lra.
Qed.
Lemma ratio_nonneg : forall err tol, 0 < tol -> 0 <= err -> 0 <= err / tol.
Proof. intros. apply Rmult_le_pos; auto. left. now apply Rinv_0_lt_compat. Qed.
Lemma gc_accept : forall h err tol, 0 < h -> 0 < tol -> 0 <= err <= tol -> exists x, gc_hnext h err tol = Fin x /\ 0.85 * h <= x <= 1.5 * h /\
  (0 < err -> x = Rmin (1.5 * h) (0.85 * h * Rpower (err / tol) (- 0.2))) /\ (err = 0 -> x = 1.5 * h).
Proof.
  intros h err tol H T E. unfold gc_hnext. cbv zeta. destruct (Rle_dec _ 1) as [_|N]; [|exfalso; apply N; apply ratio_le; lra].
  pose proof (ratio_nonneg err tol T (proj1 E)) as E0. assert (E1 : err / tol <= 1) by (apply ratio_le; lra).
  unfold pow_neg. destruct (Req_EM_T _ 0) as [Z|NZ].
  - cbn [emul]. destruct (Rlt_dec 0 (0.85 * h)); [|lra]. cbn. exists (1.5 * h). repeat split; try lra.
    intros P. exfalso. assert (0 < err / tol) by (apply Rmult_lt_0_compat; [lra|now apply Rinv_0_lt_compat]). lra.
  - cbn [emul egt]. assert (1 <= Rpower (err / tol) (- 0.2)) by (apply Rpower_ge1; lra). set (w := Rpower _ _) in *.
    destruct (Rlt_dec _ _) as [L|L].
    + exists (1.5 * h). repeat split; try lra. intros _. rewrite Rmin_left; lra.
    + exists (0.85 * h * w). split; auto. split; [nra|]. split.
      * intros _. rewrite Rmin_right; lra.
      * intros ->. exfalso. apply NZ. unfold Rdiv. ring.
Qed.
Lemma reject_ext : forall h err tol, 0 < tol -> tol < err -> let w := Rpower (err / tol) (- 0.25) in
  gc_hnext h err tol = Fin (- (0.85 * h * w)) /\ ml_hnext h err tol = Fin (- (0.85 * h * w)) /\ 0 < w < 1.
Proof.
  intros h err tol T E w. assert (1 < err / tol). { apply Rnot_le_lt. intros Q. apply (proj1 (ratio_le err tol T)) in Q. lra. }
  assert (W : 0 < w < 1) by (apply Rpower_lt1; lra).
  unfold gc_hnext, ml_hnext. cbv zeta. destruct (Rle_dec _ 1) as [L|_]; [lra|]. unfold pow_neg. destruct (Req_EM_T _ 0); [lra|]. cbn [emul].
  fold w. split; [|split]; [f_equal; lra|f_equal; lra|exact W].
Qed.
Lemma gc_reject : forall h err tol, 0 < h -> 0 < tol -> tol < err -> exists x, gc_hnext h err tol = Fin (- x) /\ 0 < x < 0.85 * h.
Proof.
  intros h err tol H T E. destruct (reject_ext h err tol T E) as (A & _ & W). set (w := Rpower _ _) in *. exists (0.85 * h * w). split; [exact A|]. split; nra.
Qed.
Lemma gc_accept_iff : forall h err tol, 0 < h -> 0 < tol -> 0 <= err -> (eneg (gc_hnext h err tol) = false <-> err <= tol).
Proof.
  intros h err tol H T E. destruct (Rle_lt_dec err tol) as [L|L].
  - destruct (gc_accept h err tol H T (conj E L)) as (x & -> & X & _). cbn. destruct (Rlt_dec x 0); [lra|tauto].
  - destruct (gc_reject h err tol H T L) as (x & -> & X). cbn. destruct (Rlt_dec (- x) 0); [|lra]. split; [discriminate|lra].
Qed.
(** backwards in time (h < 0) the limiter works the wrong way round *)
Lemma gc_accept_back : forall h err tol, h < 0 -> 0 < tol -> 0 <= err <= tol ->
  gc_hnext h err tol = MInf \/ exists x, gc_hnext h err tol = Fin x /\ x <= 1.5 * h.
Proof.
  intros h err tol H T E. unfold gc_hnext. cbv zeta. destruct (Rle_dec _ 1) as [_|N]; [|exfalso; apply N; apply ratio_le; lra].
  unfold pow_neg. destruct (Req_EM_T _ 0) as [Z|NZ].
  - cbn [emul]. destruct (Rlt_dec 0 (0.85 * h)); [lra|]. destruct (Rlt_dec (0.85 * h) 0); [|lra]. cbn. now left.
  - cbn [emul egt]. right. destruct (Rlt_dec _ _) as [L|L]; eexists; split; try reflexivity; lra.
Qed.
(** the field-line step has no limiter *)
Lemma ml_accept : forall h err tol, 0 < h -> 0 < tol -> 0 < err <= tol -> exists x, ml_hnext h err tol = Fin x /\ 0.85 * h <= x /\ x = 0.85 * h * Rpower (err / tol) (- 0.2).
Proof.
  intros h err tol H T E. unfold ml_hnext. cbv zeta. assert (E1 : err / tol <= 1) by (apply ratio_le; lra). destruct (Rle_dec _ 1) as [_|N]; [|lra].
  assert (E0 : 0 < err / tol) by (apply Rmult_lt_0_compat; [lra|now apply Rinv_0_lt_compat]).
  unfold pow_neg. destruct (Req_EM_T _ 0); [lra|]. cbn. eexists. split; [reflexivity|]. split; auto.
  assert (1 <= Rpower (err / tol) (- 0.2)) by (apply Rpower_ge1; lra). nra.
Qed.
Lemma ml_unbounded : forall h tol K, 0 < h -> 0 < tol -> 1 <= K -> exists err x, 0 < err <= tol /\ ml_hnext h err tol = Fin x /\ x = K * (0.85 * h).
Proof.
  intros h tol K H T HK. exists (tol * Rpower K (- 5)), (K * (0.85 * h)). 
  assert (P : 0 < Rpower K (- 5)) by apply exp_pos.
  assert (P1 : Rpower K (- 5) <= 1).
  { destruct HK as [HK| <-]; [left; apply Rpower_lt1; lra|]. unfold Rpower. rewrite ln_1, Rmult_0_r, exp_0. lra. }
  assert (E : 0 < tol * Rpower K (- 5) <= tol) by nra. split; [exact E|].
  destruct (ml_accept h (tol * Rpower K (- 5)) tol H T E) as (x & -> & _ & ->). split; auto. f_equal.
  replace (tol * Rpower K (- 5) / tol) with (Rpower K (- 5)) by (field; lra). rewrite Rpower_mult. replace (- 5 * - 0.2) with 1 by lra. rewrite Rpower_1 by lra. ring.
Qed.

(** ** zeta *)
Lemma trunc_spec : forall x, (0 <= x -> 0 <= x - IZR (trunc x) < 1) /\ (x < 0 -> -1 < x - IZR (trunc x) <= 0).
Proof.
  intros x. unfold trunc. destruct (Rle_dec 0 x) as [H|H]; split; intros G; try lra.
  - pose proof (base_Int_part x). lra.
  - rewrite opp_IZR. pose proof (base_Int_part (- x)). lra.
Qed.
Lemma wrap_zeta_spec : forall z, 0 <= wrap_zeta z < 2 * PI /\ exists k, wrap_zeta z = z + 2 * PI * IZR k.
Proof.
  intros z. pose proof PI_RGT_0 as PP. unfold wrap_zeta, cfmod. cbv zeta. set (t := trunc (z / (2 * PI))).
  assert (Z : z = 2 * PI * (z / (2 * PI))) by (field; lra). set (w := z / (2 * PI)) in *.
  destruct (trunc_spec w) as [A B]. fold t in A, B.
  assert (Q : z - IZR t * (2 * PI) = 2 * PI * (w - IZR t)) by (rewrite Z at 1; ring).
  destruct (Rlt_dec _ 0) as [N|N].
  - split; [|exists (1 - t)%Z; rewrite minus_IZR; ring]. rewrite Q in *. destruct (Rle_lt_dec 0 w) as [W|W]; [specialize (A W)|specialize (B W)]; nra.
  - split; [|exists (- t)%Z; rewrite opp_IZR; ring]. rewrite Q in *. destruct (Rle_lt_dec 0 w) as [W|W]; [specialize (A W)|specialize (B W)]; nra.
Qed.
(** it does not matter whether the fmod of the C library (towards zero) or the one of
    math.c (downwards) is linked *)
Lemma wrap_zeta_fmod : forall z, wrap_zeta z = fmod z (2 * PI).
Proof.
  intros z. destruct (wrap_zeta_spec z) as (R & k & E). pose proof PI_RGT_0.
  rewrite (fmod_unique z (2 * PI) (- k)); rewrite ?opp_IZR; lra.
Qed.

(** ** Guiding-centre steps *)
Lemma raise_nz : forall t l f, (0 < l)%Z -> (l < 1000)%Z -> error_raise t l f <> 0%Z.
Proof.
  intros t l f L1 L2. unfold error_raise, raise_code, u64. cbv zeta.
  assert (0 < type_code t < 9)%Z by (destruct t; cbn; lia). assert (0 < file_code f < 29)%Z by (destruct f; cbn; lia).
  repeat rewrite (Z.mod_small); nia.
Qed.
Section gc.
Variables (evalBdB : R -> R -> R -> R -> Z * (nat -> R)) (evalE : R -> R -> R -> R -> Z * vec) (evalMhd : R -> R -> R -> R -> Z * (nat -> R))
          (evalPsi : R -> R -> R -> R -> Z * R) (evalRho : R -> Z * R) (evalAxis : R -> Z * (R * R)) (junk : R).
Notation rk4s := (gc_rk4 evalBdB evalE evalMhd evalPsi evalRho evalAxis).
Notation cks := (gc_cashkarp evalBdB evalE evalMhd evalPsi evalRho evalAxis junk).
Notation rhsf := (gc_rhs evalBdB evalE evalMhd).
Notation evE := (eval_E' evalE evalMhd).
Notation fin := (gc_finish evalBdB evalPsi evalRho evalAxis).

Lemma finish_spec : forall h p q e, let r := fin h p q e in
  gy r = gy q /\ gtime r = gtime q /\ gmass r = gmass q /\ gcharge r = gcharge q /\
  (e <> 0%Z -> gerr r = e /\ grun r = false /\ gB r = gB q /\ grho r = grho q /\ gtheta r = gtheta q) /\
  (grun q = true -> grun r = true -> e = 0%Z /\ gerr r = gerr q /\ exists psi rho ax,
     evalBdB (gy q 0%nat) (gy q 1%nat) (gy q 2%nat) (gtime p + h) = (0%Z, gB r) /\
     evalPsi (gy q 0%nat) (gy q 1%nat) (gy q 2%nat) (gtime p + h) = (0%Z, psi) /\ evalRho psi = (0%Z, rho) /\ grho r = rho /\
     evalAxis (gy q 1%nat) = (0%Z, ax) /\ Rabs (gtheta r - gtheta q) <= PI).
Proof.
  intros h p q e r. unfold r, gc_finish. cbv zeta. unfold next.
  destruct (Z.eqb_spec e 0) as [->|NE].
  - destruct (evalBdB _ _ _ _) as [e1 D] eqn:EB.
    destruct (Z.eqb_spec e1 0) as [->|N1]; cbn [negb].
    + destruct (evalPsi _ _ _ _) as [e2 psi] eqn:EP.
      destruct (Z.eqb_spec e2 0) as [->|N2].
      * destruct (evalRho psi) as [e3 rho] eqn:ER. destruct (Z.eqb_spec e3 0) as [->|N3].
        -- destruct (evalAxis _) as [e4 [ar az]] eqn:EA. cbn. repeat (split; [reflexivity|]). split; [congruence|].
           destruct (Z.eqb_spec e4 0) as [->|N4]; [|discriminate]. intros RQ _. split; auto. split; auto. exists psi, rho, (ar, az).
           repeat (split; auto). match goal with |- Rabs (gtheta q + ?a - gtheta q) <= _ => replace (gtheta q + a - gtheta q) with a by ring; pose proof (atan2_range ((gy p 0%nat - ar) * (gy q 2%nat - az) - (gy p 2%nat - az) * (gy q 0%nat - ar)) ((gy p 0%nat - ar) * (gy q 0%nat - ar) + (gy p 2%nat - az) * (gy q 2%nat - az))) as RG end.
           apply Rabs_le. lra.
        -- cbn. destruct (Z.eqb_spec e3 0); [congruence|]. repeat (split; [reflexivity|]). split; [congruence|]. discriminate.
      * cbn. destruct (Z.eqb_spec e2 0); [congruence|]. cbn. destruct (Z.eqb_spec e2 0); [congruence|]. repeat (split; [reflexivity|]). split; [congruence|]. discriminate.
    + cbn. destruct (Z.eqb_spec e1 0); [congruence|]. cbn. destruct (Z.eqb_spec e1 0); [congruence|]. cbn. destruct (Z.eqb_spec e1 0); [congruence|].
      repeat (split; [reflexivity|]). split; [congruence|]. discriminate.
  - apply Z.eqb_neq in NE. rewrite NE. cbn. rewrite NE. cbn. rewrite NE. cbn. rewrite NE. repeat (split; [reflexivity|]). split; [auto|]. discriminate.
Qed.
Lemma next_4 : forall e (x : Z * (nat -> R)), snd x 4%nat = 0 -> snd (next e x) 4%nat = 0.
Proof. intros e x H. unfold next. now destruct (e =? 0)%Z. Qed.
Lemma eom_4 : forall m q D Bs Es y, eom m q D Bs Es 0 y 4%nat = 0.
Proof. intros. unfold eom. cbv zeta. ring. Qed.
Lemma evE_4 : forall mhd m q D t y, snd (evE mhd m q 0 D t y) 4%nat = 0.
Proof.
  intros mhd m q D t y. unfold eval_E'. destruct mhd; [unfold eval_E_mhd|unfold eval_E]; destruct (evalE _ _ _ _) as [e E]; apply next_4.
  - destruct (evalMhd _ _ _ _) as [e' K]. apply next_4. unfold snd, gceom_mhd. apply eom_4.
  - unfold snd, gceom. apply eom_4.
Qed.
Lemma rhs_4 : forall mhd m q t y, snd (rhsf mhd m q 0 t y) 4%nat = 0.
Proof. intros mhd m q t y. unfold gc_rhs. destruct (evalBdB _ _ _ _) as [e D]. apply next_4. apply evE_4. Qed.
Lemma rk4_4 : forall f0 (f : rhs) t h y, snd f0 4%nat = 0 -> (forall s z, snd (f s z) 4%nat = 0) -> snd (rk4 f0 f t h y) 4%nat = y 4%nat.
Proof.
  intros [e1 k1] f t h y F0 F. unfold rk4. cbn [snd] in F0.
  destruct (next e1 _) as [e2 k2] eqn:E2. assert (F2 : k2 4%nat = 0) by (change k2 with (snd (e2, k2)); rewrite <- E2; now apply next_4).
  destruct (next e2 _) as [e3 k3] eqn:E3. assert (F3 : k3 4%nat = 0) by (change k3 with (snd (e3, k3)); rewrite <- E3; now apply next_4).
  destruct (next e3 _) as [e4 k4] eqn:E4. assert (F4 : k4 4%nat = 0) by (change k4 with (snd (e4, k4)); rewrite <- E4; now apply next_4).
  cbn [snd]. rewrite F0, F2, F3, F4. field.
Qed.
Lemma ck_4 : forall f0 (f : rhs) t h y, snd f0 4%nat = 0 -> (forall s z, snd (f s z) 4%nat = 0) -> snd (fst (cashkarp f0 f t h y)) 4%nat = y 4%nat.
Proof.
  intros [e1 k1] f t h y F0 F. unfold cashkarp. cbn [snd] in F0.
  destruct (next e1 _) as [e2 k2] eqn:E2. assert (F2 : k2 4%nat = 0) by (change k2 with (snd (e2, k2)); rewrite <- E2; now apply next_4).
  destruct (next e2 _) as [e3 k3] eqn:E3. assert (F3 : k3 4%nat = 0) by (change k3 with (snd (e3, k3)); rewrite <- E3; now apply next_4).
  destruct (next e3 _) as [e4 k4] eqn:E4. assert (F4 : k4 4%nat = 0) by (change k4 with (snd (e4, k4)); rewrite <- E4; now apply next_4).
  destruct (next e4 _) as [e5 k5] eqn:E5. assert (F5 : k5 4%nat = 0) by (change k5 with (snd (e5, k5)); rewrite <- E5; now apply next_4).
  destruct (next e5 _) as [e6 k6] eqn:E6. assert (F6 : k6 4%nat = 0) by (change k6 with (snd (e6, k6)); rewrite <- E6; now apply next_4).
  cbn [snd fst]. rewrite F0, F3, F4, F6. field.
Qed.
(** what a fixed step does in every case *)
Lemma rk4_step : forall mhd h ald p, let q := rk4s mhd h ald p in
  gtime q = gtime p /\ gmass q = gmass p /\ gcharge q = gcharge p /\
  (grun p = false -> q = p) /\
  (ald = 0 -> gy q 4%nat = gy p 4%nat) /\
  (grun p = true -> grun q = true -> gerr q = gerr p) /\
  (grun p = true ->
     let '(e, y) := rk4 (evE mhd (gmass p) (gcharge p) ald (gB p) (gtime p) (gy p)) (rhsf mhd (gmass p) (gcharge p) ald) (gtime p) h (gy p) in
     (e <> 0%Z -> gy q = gy p /\ gerr q = e /\ grun q = false) /\
     (grun q = true -> gy q = gy (set_y p y) /\ 0 < y 0%nat /\ 0 <= y 4%nat)).
Proof.
  intros mhd h ald p q. unfold q, gc_rk4. destruct (grun p) eqn:RUN.
  2:{ repeat (split; [auto; fail|]). discriminate. }
  destruct (rk4 _ _ _ _ _) as [e y] eqn:E. set (e' := if mhd then _ else _).
  assert (EE : e <> 0%Z -> e' = e). { intros N. unfold e'. apply Z.eqb_neq in N. rewrite N. cbn. now destruct mhd. }
  assert (E0 : e' = 0%Z -> e = 0%Z /\ 0 < y 0%nat /\ 0 <= y 4%nat).
  { unfold e'. destruct (Z.eqb_spec e 0) as [->|N]; cbn [negb].
    - destruct mhd.
      + destruct (Rle_dec (y 0%nat) 0); [intros H; exfalso; apply raise_nz in H; lia|]. destruct (Rle_dec CONST_C _); [intros H; exfalso; apply raise_nz in H; lia|].
        destruct (Rlt_dec (y 4%nat) 0); [intros H; exfalso; apply raise_nz in H; lia|]. intros _. repeat split; lra.
      + destruct (Rle_dec (y 0%nat) 0); [intros H; exfalso; apply raise_nz in H; lia|].
        destruct (Rlt_dec (y 4%nat) 0); [intros H; exfalso; apply raise_nz in H; lia|]. intros _. repeat split; lra.
    - destruct mhd; congruence. }
  destruct (finish_spec h p (if (e' =? 0)%Z then set_y p y else p) e') as (A1 & A2 & A3 & A4 & A5 & A6).
  set (q' := fin h p _ e') in *.
  assert (B : forall (T : Type) (f : gcm -> T), f (set_y p y) = f p -> f (if (e' =? 0)%Z then set_y p y else p) = f p) by (intros T f H; now destruct (e' =? 0)%Z).
  rewrite (B _ gtime) in A2 by reflexivity. rewrite (B _ gmass) in A3 by reflexivity. rewrite (B _ gcharge) in A4 by reflexivity. rewrite (B _ grun) in A6 by reflexivity. rewrite (B _ gerr) in A6 by reflexivity.
  repeat (split; [assumption|]). split; [discriminate|]. split; [|split; [|split]].
  - intros AZ. rewrite A1. destruct (e' =? 0)%Z; auto. cbn. change (y 4%nat) with (snd (e, y) 4%nat). rewrite <- E. subst ald. apply rk4_4; [apply evE_4|intros; apply rhs_4].
  - intros _ RQ. destruct (A6 RUN RQ) as (_ & G & _). exact G.
  - intros N. rewrite (EE N) in *. destruct (A5 N) as (G1 & G2 & _). apply Z.eqb_neq in N. rewrite N in A1. auto.
  - intros RQ. destruct (A6 RUN RQ) as (Z & _). destruct (E0 Z) as (_ & G). rewrite Z in A1. cbn [Z.eqb] in A1. auto.
Qed.
Lemma ck_step : forall mhd h tol ald p hn0, let '(q, hn) := cks mhd h tol ald p hn0 in
  gtime q = gtime p /\ gmass q = gmass p /\ gcharge q = gcharge p /\
  (grun p = false -> q = p /\ hn = hn0) /\
  (ald = 0 -> gy q 4%nat = gy p 4%nat) /\
  (grun p = true -> grun q = true -> gerr q = gerr p) /\
  (grun p = true -> grun q = false -> hn = Fin h) /\
  (grun p = true ->
     let '(e, k1, y5, y4) := cashkarp (evE mhd (gmass p) (gcharge p) ald (gB p) (gtime p) (gy p)) (rhsf mhd (gmass p) (gcharge p) ald) (gtime p) h (gy p) in
     (e <> 0%Z -> gy q = gy p /\ gerr q = e /\ grun q = false) /\
     (grun q = true -> hn = gc_hnext h (gc_err h (gy p) k1 y5 y4) tol /\
        (forall j, j <> 5%nat -> gy q j = y5 j) /\ gy q 5%nat = wrap_zeta (if mhd then junk else y5 5%nat) /\
        (mhd = false -> 0 < y5 0%nat /\ 0 <= y5 4%nat))).
Proof.
  intros mhd h tol ald p hn0. unfold gc_cashkarp. destruct (grun p) eqn:RUN.
  2:{ repeat (split; [auto; fail|]). split; [discriminate|]. discriminate. }
  destruct (cashkarp _ _ _ _ _) as [[[e k1] y5] y4] eqn:E. set (y5' := if mhd then _ else y5).
  set (hn := if (e =? 0)%Z then _ else hn0). set (e' := if mhd then e else _).
  assert (EE : e <> 0%Z -> e' = e). { intros N. unfold e'. apply Z.eqb_neq in N. rewrite N. cbn. now destruct mhd. }
  assert (E0 : e' = 0%Z -> e = 0%Z /\ (mhd = false -> 0 < y5 0%nat /\ 0 <= y5 4%nat)).
  { unfold e', y5'. destruct mhd; [intros ->; split; auto; discriminate|]. destruct (Z.eqb_spec e 0) as [->|N]; cbn [negb]; [|congruence].
    destruct (esmall hn _); [intros H; exfalso; apply raise_nz in H; lia|].
    destruct (Rle_dec _ 0); [intros H; exfalso; apply raise_nz in H; lia|].
    destruct (Rlt_dec _ 0); [intros H; exfalso; apply raise_nz in H; lia|]. intros _. split; [reflexivity|intros _]. fold y5'. split; [now apply Rnot_le_lt|now apply Rnot_lt_le]. }
  destruct (finish_spec h p (if (e' =? 0)%Z then set_y p y5' else p) e') as (A1 & A2 & A3 & A4 & A5 & A6).
  set (q' := fin h p _ e') in *.
  assert (B : forall (T : Type) (f : gcm -> T), f (set_y p y5') = f p -> f (if (e' =? 0)%Z then set_y p y5' else p) = f p) by (intros T f H; now destruct (e' =? 0)%Z).
  rewrite (B _ gtime) in A2 by reflexivity. rewrite (B _ gmass) in A3 by reflexivity. rewrite (B _ gcharge) in A4 by reflexivity. rewrite (B _ grun) in A6 by reflexivity. rewrite (B _ gerr) in A6 by reflexivity.
  repeat (split; [assumption|]). split; [discriminate|]. split; [|split; [|split; [|split]]].
  - intros AZ. rewrite A1. destruct (e' =? 0)%Z; auto. cbn. unfold y5'.
    assert (Q : y5 4%nat = gy p 4%nat).
    { change (y5 4%nat) with (snd (fst (e, k1, y5, y4)) 4%nat). rewrite <- E. subst ald. apply ck_4; [apply evE_4|intros; apply rhs_4]. }
    now destruct mhd.
  - intros _ RQ. destruct (A6 RUN RQ) as (_ & G & _). exact G.
  - intros _ RQ. unfold failed. now rewrite RQ.
  - intros N. rewrite (EE N) in *. destruct (A5 N) as (G1 & G2 & _). apply Z.eqb_neq in N. rewrite N in A1. auto.
  - intros RQ. destruct (A6 RUN RQ) as (Z & _). destruct (E0 Z) as (Z' & G). rewrite Z in A1. cbn [Z.eqb] in A1.
    unfold failed. rewrite RQ. cbn [negb]. unfold hn, y5' in *. rewrite Z'. cbn [Z.eqb]. split; [now destruct mhd|]. split; [|split; [|exact G]].
    + intros j NJ. rewrite A1. cbn. apply Nat.eqb_neq in NJ. rewrite NJ. destruct mhd; auto. now rewrite NJ.
    + rewrite A1. cbn. now destruct mhd.
Qed.
End gc.

(** ** Field lines *)
Lemma direction_sq : forall p, direction p * direction p = 1.
Proof. intros p. unfold direction. destruct (Rlt_dec p 0); ring. Qed.
Lemma ml_unit_speed : forall dir r B, dir * dir = 1 -> r <> 0 -> 0 < norm B ->
  let v := V (ml_k dir r B 0%nat) (r * ml_k dir r B 1%nat) (ml_k dir r B 2%nat) in v = vscal dir (unit B) /\ norm v = 1.
Proof.
  intros dir r B DD R0 N v. assert (DN : dir <> 0) by (intros ->; lra).
  assert (E : v = vscal dir (unit B)).
  { unfold v, ml_k, unit, vscal. cbv zeta. cbn [vx vy vz].
    assert (I : / dir = dir) by (apply (Rmult_eq_reg_l dir); auto; rewrite Rinv_r; auto).
    f_equal; unfold Rdiv; rewrite !Rinv_mult, I; field; lra. }
  split; [exact E|]. rewrite E, norm_scal, unit_norm.
  - rewrite Rmult_1_r. unfold Rabs. destruct (Rcase_abs dir); nra.
  - intros ->. rewrite (proj2 (norm_zero vzero)) in N by reflexivity. lra.
Qed.
Section ml.
Variables (evalB : R -> R -> R -> R -> Z * vec) (evalBdB : R -> R -> R -> R -> Z * (nat -> R)) (evalPsi : R -> R -> R -> R -> Z * R)
          (evalRho : R -> Z * R) (evalAxis : R -> Z * (R * R)) (junk : nat -> R).
Notation mls := (ml_step evalB evalBdB evalPsi evalRho evalAxis junk).
(** errors of the field evaluation never reach the marker *)
Lemma ml_no_error : forall h tol p hn, merr (fst (mls h tol p hn)) = merr p /\ mrun (fst (mls h tol p hn)) = mrun p.
Proof.
  intros h tol p hn. unfold ml_step. destruct (mrun p) eqn:RUN; [|auto]. cbv zeta.
  repeat match goal with |- context [let '(_, _) := ?x in _] => destruct x end. cbn. auto.
Qed.
Lemma ml_is_rk : forall B h tol p hn, (forall r phi z t, evalB r phi z t = (0%Z, B r phi z t)) -> mrun p = true ->
  V (mB p 0%nat) (mB p 4%nat) (mB p 8%nat) = B (my p 0%nat) (my p 1%nat) (my p 2%nat) (mtime p) ->
  let f := fun s (y : nat -> R) => ml_k (direction (mpitch p)) (y 0%nat) (B (y 0%nat) (y 1%nat) (y 2%nat) s) in
  let y5 := runge_kutta cash_karp (tb cash_karp) f (mtime p) h (my p) in let y4 := runge_kutta cash_karp cash_karp4 f (mtime p) h (my p) in
  my (fst (mls h tol p hn)) = y5 /\ snd (mls h tol p hn) = ml_hnext h (ml_err h (my p) (f (mtime p) (my p)) y5 y4) tol.
Proof.
  intros B h tol p hn EB RUN B0 f y5 y4.
  assert (EV : forall t y, ml_eval evalB junk (direction (mpitch p)) 0 t y = (0%Z, f t y)) by (intros t y; unfold ml_eval; cbn [Z.eqb]; now rewrite EB).
  assert (K1 : ml_k (direction (mpitch p)) (my p 0%nat) (V (mB p 0%nat) (mB p 4%nat) (mB p 8%nat)) = f (mtime p) (my p)) by (rewrite B0; reflexivity).
  unfold ml_step. rewrite RUN, K1. clear K1 B0 EB. clearbody f.
  pose proof (cashkarp_is f (mtime p) h (my p)) as CK. fold y5 y4 in CK. unfold cashkarp, next in CK. cbn [Z.eqb] in CK.
  set (k1 := f (mtime p) (my p)) in *. rewrite EV. cbv beta iota zeta. set (k2 := f _ (fun j => my p j + h * (1 / 5 * k1 j))) in *.
  rewrite EV. cbv beta iota zeta. set (k3 := f _ (fun j => my p j + h * (3 / 40 * k1 j + 9 / 40 * k2 j))) in *. rewrite EV. cbv beta iota zeta.
  set (k4 := f _ (fun j => my p j + h * (3 / 10 * k1 j + -9 / 10 * k2 j + 6 / 5 * k3 j))) in *. rewrite EV. cbv beta iota zeta.
  set (k5 := f _ (fun j => my p j + h * (-11 / 54 * k1 j + 5 / 2 * k2 j + -70 / 27 * k3 j + 35 / 27 * k4 j))) in *. rewrite EV. cbv beta iota zeta.
  set (k6 := f _ (fun j => my p j + h * (1631 / 55296 * k1 j + 175 / 512 * k2 j + 575 / 13824 * k3 j + 44275 / 110592 * k4 j + 253 / 4096 * k5 j))) in *.
  injection CK as C5 C4. rewrite C5, C4. clearbody y5 y4.
  repeat match goal with |- context [let '(_, _) := ?x in _] => destruct x end. cbn [fst snd my].
  split; reflexivity.
Qed.
End ml.
