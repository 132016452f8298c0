(** The cumulative poloidal angle of the orbit steps and of the collision step
    (StepFoModel, GcModel, CollModel) against the geometric angle about the
    magnetic axis. *)
From Coq Require Import Reals Ranalysis5 Lra Lia ZArith List Bool.
From Verif Require Import Deriv Vec BiosawProofs AxisModel PhysModel StepFoModel GcModel GcStepProofs CollModel.
Import ListNotations.
Local Open Scope R_scope.

(** ** Specification *)
(** the point (r, z) lies in the direction [th] from the axis *)
Definition at_angle (ax : R * R) (r z th : R) : Prop :=
  exists d, 0 < d /\ r - fst ax = d * cos th /\ z - snd ax = d * sin th.
Definition on_axis (ax : R * R) (r z : R) : Prop := r = fst ax /\ z = snd ax.
(** a continuous choice of the angle along the straight segment between two points *)
Definition lift (ax : R * R) (r0 z0 r1 z1 : R) (L : R -> R) : Prop :=
  forall s, 0 <= s <= 1 -> continuity_pt L s /\ at_angle ax (r0 + s * (r1 - r0)) (z0 + s * (z1 - z0)) (L s).
Definition misses (ax : R * R) (r0 z0 r1 z1 : R) : Prop :=
  forall s, 0 <= s <= 1 -> ~ on_axis ax (r0 + s * (r1 - r0)) (z0 + s * (z1 - z0)).
(** what is expected of the angle when the marker moves from one point to another *)
Definition follows (ax : R * R) (r0 z0 th0 r1 z1 th1 : R) : Prop :=
  - PI < th1 - th0 <= PI /\
  (at_angle ax r0 z0 th0 -> ~ on_axis ax r1 z1 -> at_angle ax r1 z1 th1) /\
  (at_angle ax r0 z0 th0 -> misses ax r0 z0 r1 z1 ->
   (exists L, lift ax r0 z0 r1 z1 L /\ L 0 = th0) /\
   (forall L, lift ax r0 z0 r1 z1 L -> L 0 = th0 -> L 1 = th1)).

(** ** Angles *)
Lemma sq_add : forall a, sin a * sin a + cos a * cos a = 1.
Proof. intros a. pose proof (sin2_cos2 a) as T. unfold Rsqr in T. exact T. Qed.
Lemma atan2_half : forall y x, 0 < x + sqrt (x * x + y * y) -> atan2 y x = 2 * atan (y / (x + sqrt (x * x + y * y))).
Proof.
  intros y x P. destruct (atan2_spec y x) as [A B]. set (h := sqrt (x * x + y * y)) in *.
  assert (HP : 0 <= h) by apply sqrt_pos.
  assert (HH : h * h = x * x + y * y) by (apply sqrt_sqrt; nra).
  assert (H0 : 0 < h). { destruct (Rle_lt_or_eq_dec 0 h HP) as [|E]; auto. exfalso. rewrite <- E in HH. nra. }
  set (t := atan (y / (x + h))). destruct (atan_bound (y / (x + h))) as [L U]. fold t in L, U.
  pose proof (cos_atan_pos (y / (x + h))) as C. fold t in C.
  assert (T : sin t * (x + h) = y * cos t).
  { assert (E : tan t = y / (x + h)) by apply tan_atan. unfold tan in E.
    apply (Rmult_eq_reg_r (/ (x + h) * / cos t)).
    - transitivity (sin t / cos t); [field; lra|]. rewrite E. field. lra.
    - apply Rmult_integral_contrapositive_currified; apply Rinv_neq_0_compat; lra. }
  pose proof (sq_add t) as Q.
  assert (K : cos t * cos t * (2 * h) = x + h).
  { apply (Rmult_eq_reg_r (x + h)); [|lra].
    transitivity (cos t * cos t * (2 * (h * h) + 2 * x * h)); [ring|]. rewrite HH.
    transitivity ((cos t * cos t) * ((x + h) * (x + h)) + (cos t * y) * (cos t * y)).
    - replace ((x + h) * (x + h)) with (x * x + 2 * x * h + h * h) by ring. rewrite HH. ring.
    - replace (cos t * y) with (sin t * (x + h)) by lra.
      transitivity ((sin t * sin t + cos t * cos t) * ((x + h) * (x + h))); [ring|rewrite Q; ring]. }
  apply angle_unique.
  - apply atan2_range.
  - lra.
  - rewrite cos_2a_cos. apply (Rmult_eq_reg_l h); [|lra]. rewrite A. lra.
  - rewrite sin_2a. apply (Rmult_eq_reg_l h); [|lra]. rewrite B.
    apply (Rmult_eq_reg_r (cos t)); [|lra].
    transitivity (sin t * (cos t * cos t * (2 * h))); [rewrite K; lra | ring].
Qed.
Lemma angle_turn : forall ax r0 z0 th r1 z1, at_angle ax r0 z0 th -> ~ on_axis ax r1 z1 ->
  at_angle ax r1 z1 (th + atan2 ((r0 - fst ax) * (z1 - snd ax) - (z0 - snd ax) * (r1 - fst ax))
                                ((r0 - fst ax) * (r1 - fst ax) + (z0 - snd ax) * (z1 - snd ax))).
Proof.
  intros [a b] r0 z0 th r1 z1 (d & D & X & Y) N. unfold on_axis in N. unfold at_angle. cbn [fst snd] in *. rewrite X, Y.
  set (x := r1 - a) in *. set (y := z1 - b) in *.
  assert (P : 0 < x * x + y * y).
  { destruct (Req_dec x 0) as [E|E]; [|nra]. destruct (Req_dec y 0) as [F|F]; [|nra].
    exfalso. apply N. unfold x, y in E, F. split; lra. }
  pose proof (sq_add th) as T.
  destruct (atan2_spec (d * cos th * y - d * sin th * x) (d * cos th * x + d * sin th * y)) as [A B].
  set (u := atan2 (d * cos th * y - d * sin th * x) (d * cos th * x + d * sin th * y)) in *.
  assert (NN : sqrt ((d * cos th * x + d * sin th * y) * (d * cos th * x + d * sin th * y) + (d * cos th * y - d * sin th * x) * (d * cos th * y - d * sin th * x)) = d * sqrt (x * x + y * y)).
  { replace (_ + _) with (d * d * (sin th * sin th + cos th * cos th) * (x * x + y * y)) by ring. rewrite T, Rmult_1_r.
    rewrite sqrt_mult_alt by nra. now rewrite sqrt_square by lra. }
  rewrite NN in A, B. set (h := sqrt (x * x + y * y)) in *.
  assert (A' : h * cos u = cos th * x + sin th * y) by (apply (Rmult_eq_reg_l d); lra).
  assert (B' : h * sin u = cos th * y - sin th * x) by (apply (Rmult_eq_reg_l d); lra).
  exists h. split; [apply sqrt_lt_R0; lra|]. rewrite cos_plus, sin_plus. split; symmetry.
  - transitivity (cos th * (h * cos u) - sin th * (h * sin u)); [ring|]. rewrite A', B'. transitivity (x * (sin th * sin th + cos th * cos th)); [ring|rewrite T; ring].
  - transitivity (sin th * (h * cos u) + cos th * (h * sin u)); [ring|]. rewrite A', B'. transitivity (y * (sin th * sin th + cos th * cos th)); [ring|rewrite T; ring].
Qed.
(** a continuous function with cosine one does not move *)
Lemma stay : forall (D : R -> R) T, 0 <= T -> (forall s, 0 <= s <= T -> continuity_pt D s) -> (forall s, 0 <= s <= T -> cos (D s) = 1) ->
  D 0 = 0 -> D T = 0.
Proof.
  assert (W : forall (D : R -> R) T, 0 <= T -> (forall s, 0 <= s <= T -> continuity_pt D s) -> (forall s, 0 <= s <= T -> cos (D s) = 1) -> D 0 = 0 -> ~ 0 < D T).
  { intros D T TP C E Z P. assert (T0 : 0 < T) by (destruct (Rle_lt_or_eq_dec 0 T TP) as [|Q]; auto; subst; lra).
    pose proof PI_RGT_0 as PP. pose proof (Rmin_l (D T) PI). pose proof (Rmin_r (D T) PI).
    assert (0 < Rmin (D T) PI) by (apply Rmin_pos; auto). set (c := Rmin (D T) PI / 2).
    destruct (IVT_interv (fun s => D s - c) 0 T) as (s & S & Q); unfold c; try lra.
    - intros a A. apply continuity_pt_minus; [now apply C|]. apply continuity_pt_const. now intros u v.
    - assert (K : D s = c) by lra. pose proof (E s S) as F. rewrite K in F.
      rewrite <- cos_0 in F. assert (cos c < cos 0); [|lra]. apply cos_decreasing_1; unfold c; lra. }
  intros D T TP C E Z. destruct (Rtotal_order (D T) 0) as [L|[|G]]; auto; exfalso; [|now apply (W D T)].
  apply (W (fun s => - D s) T); auto; try lra.
  - intros s S. apply continuity_pt_opp. now apply C.
  - intros s S. rewrite cos_neg. now apply E.
Qed.
Lemma at_angle_cos : forall ax r z a b, at_angle ax r z a -> at_angle ax r z b -> cos (a - b) = 1.
Proof.
  intros ax r z a b (d & D & X & Y) (e & P & X' & Y'). rewrite X in X'. rewrite Y in Y'.
  pose proof (sq_add a) as Ta. pose proof (sq_add b) as Tb.
  assert (E : d = e).
  { assert (d * d = e * e); [|nra].
    transitivity (d * d * (sin a * sin a + cos a * cos a)); [rewrite Ta; ring|].
    transitivity ((d * cos a) * (d * cos a) + (d * sin a) * (d * sin a)); [ring|]. rewrite X', Y'.
    transitivity (e * e * (sin b * sin b + cos b * cos b)); [ring|rewrite Tb; ring]. }
  subst e. apply Rmult_eq_reg_l in X'; [|lra]. apply Rmult_eq_reg_l in Y'; [|lra].
  rewrite cos_minus, X', Y'. lra.
Qed.
Lemma lift_unique : forall ax r0 z0 r1 z1 L M, lift ax r0 z0 r1 z1 L -> lift ax r0 z0 r1 z1 M -> L 0 = M 0 -> L 1 = M 1.
Proof.
  intros ax r0 z0 r1 z1 L M HL HM E. assert (L 1 - M 1 = 0); [|lra].
  apply (stay (fun s => L s - M s)); try lra.
  - intros s S. apply continuity_pt_minus; [now apply HL | now apply HM].
  - intros s S. eapply at_angle_cos; [apply HL | apply HM]; auto.
Qed.
Section chord.
Variables (ax : R * R) (r0 z0 th0 r1 z1 : R).
Hypothesis START : at_angle ax r0 z0 th0.
Hypothesis MISS : misses ax r0 z0 r1 z1.
Let x0 := r0 - fst ax. Let y0 := z0 - snd ax.
Let X s := x0 * (r0 + s * (r1 - r0) - fst ax) + y0 * (z0 + s * (z1 - z0) - snd ax).
Let Y s := x0 * (z0 + s * (z1 - z0) - snd ax) - y0 * (r0 + s * (r1 - r0) - fst ax).
Definition chord_angle (s : R) : R := th0 + 2 * atan (Y s / (X s + sqrt (X s * X s + Y s * Y s))).
Lemma start_sq : 0 < x0 * x0 + y0 * y0.
Proof.
  pose proof (MISS 0 ltac:(lra)) as N. unfold on_axis in N. destruct (Req_dec x0 0) as [E|E]; [|nra]. destruct (Req_dec y0 0) as [F|F]; [|nra].
  exfalso. apply N. unfold x0, y0 in E, F. split; lra.
Qed.
Lemma chord_den : forall s, 0 <= s <= 1 -> 0 < X s + sqrt (X s * X s + Y s * Y s).
Proof.
  intros s S. pose proof start_sq as P. pose proof (sqrt_pos (X s * X s + Y s * Y s)) as H.
  assert (HH : sqrt (X s * X s + Y s * Y s) * sqrt (X s * X s + Y s * Y s) = X s * X s + Y s * Y s) by (apply sqrt_sqrt; nra).
  set (h := sqrt _) in *. destruct (Rlt_dec 0 (X s)) as [|NX]; [lra|].
  destruct (Req_dec (Y s) 0) as [E|E]; [|nra]. exfalso.
  (* the segment lies on the line through the axis and passes it *)
  set (u := r1 - r0). set (v := z1 - z0).
  assert (XS : X s = (x0 * x0 + y0 * y0) + s * (x0 * u + y0 * v)) by (unfold X, x0, y0, u, v; ring).
  assert (YS : Y s = s * (x0 * v - y0 * u)) by (unfold Y, x0, y0, u, v; ring).
  assert (S0 : 0 < s). { destruct (Rle_lt_or_eq_dec 0 s) as [|Q]; auto; [lra|]. subst s. lra. }
  assert (CR : x0 * v - y0 * u = 0) by (apply (Rmult_eq_reg_l s); lra).
  set (m := x0 * u + y0 * v) in *. set (n := x0 * x0 + y0 * y0) in *.
  assert (M : m < 0) by nra.
  assert (Q1 : 0 < n / - m) by (apply Rdiv_lt_0_compat; lra).
  assert (Q2 : n / - m <= s).
  { apply (Rmult_le_reg_r (- m)); [lra|]. replace (n / - m * - m) with n by (field; lra). lra. }
  assert (XX : x0 * m = u * n) by (unfold m, n; transitivity (x0 * x0 * u + y0 * (x0 * v)); [ring|]; replace (x0 * v) with (y0 * u) by lra; ring).
  assert (YY : y0 * m = v * n) by (unfold m, n; transitivity (x0 * (y0 * u) + y0 * y0 * v); [ring|]; replace (y0 * u) with (x0 * v) by lra; ring).
  apply (MISS (n / - m)); [lra|]. split.
  - transitivity (fst ax + (x0 + n / - m * u)); [unfold x0, u; ring|].
    replace (n / - m * u) with (- x0); [ring|]. transitivity (- (x0 * m) / m); [field; lra|]. rewrite XX. field. lra.
  - transitivity (snd ax + (y0 + n / - m * v)); [unfold y0, v; ring|].
    replace (n / - m * v) with (- y0); [ring|]. transitivity (- (y0 * m) / m); [field; lra|]. rewrite YY. field. lra.
Qed.
Lemma chord_lift : lift ax r0 z0 r1 z1 chord_angle.
Proof.
  intros s S. pose proof (chord_den s S) as D. split.
  - assert (P : 0 < X s * X s + Y s * Y s).
    { destruct (Rle_lt_dec (X s * X s + Y s * Y s) 0) as [L|]; auto. exfalso.
      rewrite (sqrt_neg_0 _ L) in D. assert (X s * X s <= 0) by nra. nra. }
    assert (DX : exists l, Dx X s l) by (eexists; unfold X; repeat der1; apply d_id).
    assert (DY : exists l, Dx Y s l) by (eexists; unfold Y; repeat der1; apply d_id).
    destruct DX as [lx DX]. destruct DY as [ly DY].
    eapply d_cont. unfold chord_angle. apply d_plus; [apply d_const|]. apply d_mult; [apply d_const|]. apply d_atan.
    apply d_div; [exact DY| |lra]. apply d_plus; [exact DX|]. apply (d_sqrt (fun t => X t * X t + Y t * Y t)); [|exact P].
    apply d_plus; [eapply (d_mult X X) | eapply (d_mult Y Y)]; eassumption.
  - unfold chord_angle. rewrite <- atan2_half by exact D. apply (angle_turn ax r0 z0 th0); auto.
Qed.
Lemma chord_0 : chord_angle 0 = th0.
Proof.
  unfold chord_angle. replace (Y 0) with 0 by (unfold Y, x0, y0; ring). unfold Rdiv at 1. rewrite Rmult_0_l, atan_0. ring.
Qed.
Lemma chord_1 : chord_angle 1 = th0 + atan2 (x0 * (z1 - snd ax) - y0 * (r1 - fst ax)) (x0 * (r1 - fst ax) + y0 * (z1 - snd ax)).
Proof.
  unfold chord_angle. rewrite <- atan2_half by (apply chord_den; lra). f_equal. f_equal; unfold X, Y; ring.
Qed.
End chord.
Lemma follows_turn : forall ax r0 z0 th r1 z1,
  follows ax r0 z0 th r1 z1 (th + atan2 ((r0 - fst ax) * (z1 - snd ax) - (z0 - snd ax) * (r1 - fst ax))
                                        ((r0 - fst ax) * (r1 - fst ax) + (z0 - snd ax) * (z1 - snd ax))).
Proof.
  intros ax r0 z0 th r1 z1. split; [|split].
  - match goal with |- - PI < th + ?a - th <= PI => replace (th + a - th) with a by ring end. apply atan2_range.
  - intros A N. now apply angle_turn.
  - intros A M. split.
    + exists (chord_angle ax r0 z0 th r1 z1). split; [now apply chord_lift | apply chord_0].
    + intros L HL E. pose proof (chord_lift ax r0 z0 th r1 z1 A M) as H. pose proof (chord_1 ax r0 z0 th r1 z1 M) as C1.
      rewrite <- C1. eapply lift_unique; [exact HL | exact H|]. rewrite E. symmetry. apply chord_0.
Qed.
(** ** Chains of moves *)
Lemma follows_chain : forall ax (r z th : nat -> R) n,
  (forall k, (k < n)%nat -> follows ax (r k) (z k) (th k) (r (S k)) (z (S k)) (th (S k)) /\ misses ax (r k) (z k) (r (S k)) (z (S k))) ->
  at_angle ax (r 0%nat) (z 0%nat) (th 0%nat) ->
  at_angle ax (r n) (z n) (th n) /\
  forall L, (forall k, (k < n)%nat -> lift ax (r k) (z k) (r (S k)) (z (S k)) (fun s => L (INR k + s))) -> L 0 = th 0%nat -> L (INR n) = th n.
Proof.
  intros ax r z th n. induction n as [|n IH]; intros H A; [split; auto|].
  destruct IH as [IA IL]; [intros k K; apply H; lia | auto|]. destruct (H n ltac:(lia)) as [(_ & F2 & F3) M]. split.
  - apply F2; auto. intros [E F]. apply (M 1 ltac:(lra)). split; lra.
  - intros L HL E. destruct (F3 IA M) as [_ U]. rewrite S_INR.
    apply (U (fun s => L (INR n + s))); [apply HL; lia|]. rewrite Rplus_0_r. apply IL; auto.
Qed.

(** ** Orbit steps *)
Ltac dead e N := rewrite <- Z.eqb_neq in N; repeat (rewrite N; cbv iota beta);
  try (match goal with |- match ?x with Some _ => _ | None => _ end = _ -> _ => destruct x; [|discriminate] end; let H := fresh in intros H; injection H as <-);
  cbn [frun grun gc_flag]; try rewrite N; discriminate.
Section fo.
Variables (fields : R -> R -> R -> R -> Z * vec * vec) (evalBdB : R -> R -> R -> R -> Z * (nat -> R)) (evalPsi : R -> R -> R -> R -> Z * R)
          (evalRho : R -> Z * R) (evalAxis : R -> Z * (R * R)).
Lemma fo_follows : forall h a p q, frun p = true -> fo_step fields evalBdB evalPsi evalRho evalAxis h a p = Some q -> frun q = true ->
  exists ax, evalAxis (fphi q) = (0%Z, ax) /\ follows ax (fr p) (fz p) (ftheta p) (fr q) (fz q) (ftheta q).
Proof.
  intros h a p q RUN. unfold fo_step. rewrite RUN. cbv zeta.
  destruct (fields _ _ _ _) as [[e B] E]. destruct (Z.eqb_spec e 0) as [->|N0]; [|dead e N0].
  set (x2 := drift _ _ _ _). set (ph := fphi p + _). cbn [fr fphi fz ftime fmass fcharge fp fB frho ftheta ferr frun].
  destruct (evalBdB _ _ _ _) as [e1 D]. destruct (Z.eqb_spec e1 0) as [->|N1]; [|dead e1 N1].
  destruct (evalPsi _ _ _ _) as [e2 psi]. destruct (Z.eqb_spec e2 0) as [->|N2]; [|dead e2 N2].
  destruct (evalRho psi) as [e3 rho]. destruct (Z.eqb_spec e3 0) as [->|N3]; [|dead e3 N3].
  destruct (evalAxis ph) as [e4 [ar az]] eqn:EA. cbn [fr fphi fz ftime fmass fcharge fp fB frho ftheta ferr frun].
  destruct (ald _ _ _ _ _ _) as [p'|]; [|discriminate]. intros H. injection H as <-.
  cbn [fr fphi fz ftime fmass fcharge fp fB frho ftheta ferr frun]. destruct (Z.eqb_spec e4 0) as [->|N4]; [|discriminate]. intros _.
  exists (ar, az). split; [exact EA|]. apply (follows_turn (ar, az)).
Qed.
End fo.
Section gc.
Variables (evalBdB : R -> R -> R -> R -> Z * (nat -> R)) (evalE : R -> R -> R -> R -> Z * vec) (evalMhd : R -> R -> R -> R -> Z * (nat -> R))
          (evalPsi : R -> R -> R -> R -> Z * R) (evalRho : R -> Z * R) (evalAxis : R -> Z * (R * R)) (junk : R).
Definition gfollows (axphi : R) (p q : gcm) : Prop := exists ax, evalAxis axphi = (0%Z, ax) /\
  follows ax (gy p 0%nat) (gy p 2%nat) (gtheta p) (gy q 0%nat) (gy q 2%nat) (gtheta q).
Lemma finish_follows : forall h p q e, gtheta q = gtheta p -> (e <> 0%Z \/ grun q = true) ->
  let r := gc_finish evalBdB evalPsi evalRho evalAxis h p q e in grun r = true -> gfollows (gy r 1%nat) p r.
Proof.
  intros h p q e TH RQ r. unfold r, gc_finish, next. cbv zeta.
  destruct (Z.eqb_spec e 0) as [->|NE]. 2: dead e NE.
  cbn [negb]. destruct (evalBdB _ _ _ _) as [e1 D].
  destruct (Z.eqb_spec e1 0) as [->|N1]. 2: dead e1 N1.
  destruct (evalPsi _ _ _ _) as [e2 psi]. destruct (Z.eqb_spec e2 0) as [->|N2]. 2: dead e2 N2.
  destruct (evalRho psi) as [e3 rho]. destruct (Z.eqb_spec e3 0) as [->|N3]. 2: dead e3 N3.
  destruct (evalAxis _) as [e4 [ar az]] eqn:EA. cbn. destruct (Z.eqb_spec e4 0) as [->|N4]; [|discriminate]. intros _.
  exists (ar, az). cbn [gy gtheta]. split; [exact EA|]. rewrite TH. apply (follows_turn (ar, az)).
Qed.
Lemma gc_rk4_follows : forall mhd h ald p, let q := gc_rk4 evalBdB evalE evalMhd evalPsi evalRho evalAxis mhd h ald p in
  grun p = true -> grun q = true -> gfollows (gy q 1%nat) p q.
Proof.
  intros mhd h ald p q RUN. unfold q, gc_rk4. rewrite RUN. cbv zeta. destruct (rk4 _ _ _ _ _) as [e y]. clear q.
  match goal with |- context [gc_finish _ _ _ _ h p (if (?a =? 0)%Z then _ else _) ?b] => set (e' := a) end.
  apply finish_follows; destruct (e' =? 0)%Z; cbn; auto.
Qed.
Lemma gc_cashkarp_follows : forall mhd h tol ald p hn, let q := fst (gc_cashkarp evalBdB evalE evalMhd evalPsi evalRho evalAxis junk mhd h tol ald p hn) in
  grun p = true -> grun q = true -> gfollows (gy q 1%nat) p q.
Proof.
  intros mhd h tol ald p hn q RUN. unfold q, gc_cashkarp. rewrite RUN. cbv zeta. destruct (cashkarp _ _ _ _ _) as [[[e k1] rk5] rk4]. clear q. cbn [fst].
  match goal with |- context [gc_finish _ _ _ _ h p (if (?a =? 0)%Z then _ else _) ?b] => set (e' := a) end.
  apply finish_follows; destruct (e' =? 0)%Z; cbn; auto.
Qed.
(** collisions: the axis is looked up at the toroidal angle before the collision *)
Variable evalFlow : R -> R -> R -> R -> R -> Z * R.
Variable evalPlasma : R -> R -> R -> R -> R -> Z * list psp.
Lemma arrive_follows : forall p h vf vo xo x0 x, grun p = true -> let q := gc_arrive evalBdB evalPsi evalRho evalAxis p h vf vo xo x0 x in
  grun q = true -> gfollows (gy p 1%nat) p q.
Proof.
  intros p h vf vo xo x0 x RUN q. unfold q, gc_arrive. cbv zeta. clear q.
  destruct (evalBdB _ _ _ _) as [e1 D]. destruct (if (e1 =? 0)%Z then _ else _) as [e2 psi]. destruct (if (e2 =? 0)%Z then _ else _) as [e3 rho].
  destruct (Z.eqb_spec e3 0) as [->|N3]. 2:{ cbn. rewrite (proj2 (Z.eqb_neq e3 0) N3). discriminate. }
  destruct (evalAxis _) as [e4 [ar az]] eqn:EA. cbn. destruct (Z.eqb_spec e4 0) as [->|N4]; [|discriminate]. intros _.
  exists (ar, az). split; [exact EA|]. cbn [gy gtheta]. apply (follows_turn (ar, az)).
Qed.
Lemma euler_follows : forall sw h rnd p q, grun p = true -> mccc_gc_euler evalFlow evalPlasma evalBdB evalPsi evalRho evalAxis sw h rnd p = Some q ->
  grun q = true -> gfollows (gy p 1%nat) p q.
Proof.
  intros sw h rnd p q RUN. unfold mccc_gc_euler. rewrite RUN. destruct (evalFlow _ _ _ _ _) as [e vf]. destruct (if (e =? 0)%Z then _ else _) as [e' sp].
  destruct (Z.eqb_spec e' 0) as [->|N]. 2:{ intros H. injection H as <-. cbn. rewrite (proj2 (Z.eqb_neq e' 0) N). discriminate. }
  cbv zeta. match goal with |- (if ?c then _ else _) = _ -> _ => destruct c end; [|discriminate]. intros H. injection H as <-. apply arrive_follows; auto.
Qed.
Lemma milstein_follows : forall sw hin ha tol ew dW p q ho nu, grun p = true ->
  mccc_gc_milstein evalFlow evalPlasma evalBdB evalPsi evalRho evalAxis sw hin ha tol ew dW p = Some (q, ho, nu) ->
  grun q = true -> gfollows (gy p 1%nat) p q.
Proof.
  intros sw hin ha tol ew dW p q ho nu RUN. unfold mccc_gc_milstein. rewrite RUN. destruct (evalFlow _ _ _ _ _) as [e vf]. destruct (if (e =? 0)%Z then _ else _) as [e' sp].
  cbv zeta. set (e2 := if (e' =? 0)%Z then ew else e'). destruct (Z.eqb_spec e2 0) as [E|N]. 2:{ intros H. injection H as <- <- <-. cbn. rewrite (proj2 (Z.eqb_neq e2 0) N). discriminate. }
  match goal with |- (if ?c then _ else _) = _ -> _ => destruct c end; [|discriminate]. intros H. injection H as <- <- <-. apply arrive_follows; auto.
Qed.
(** ** Executions *)
(** one operation on a guiding centre: an orbit step, a collision step, or anything that
    moves neither the position in the poloidal plane nor the angle *)
Inductive gmove (p q : gcm) : Prop :=
| mv_rk4 : forall mhd h ald, q = gc_rk4 evalBdB evalE evalMhd evalPsi evalRho evalAxis mhd h ald p -> gmove p q
| mv_cashkarp : forall mhd h tol ald hn, q = fst (gc_cashkarp evalBdB evalE evalMhd evalPsi evalRho evalAxis junk mhd h tol ald p hn) -> gmove p q
| mv_euler : forall sw h rnd, mccc_gc_euler evalFlow evalPlasma evalBdB evalPsi evalRho evalAxis sw h rnd p = Some q -> gmove p q
| mv_milstein : forall sw hin ha tol ew dW ho nu, mccc_gc_milstein evalFlow evalPlasma evalBdB evalPsi evalRho evalAxis sw hin ha tol ew dW p = Some (q, ho, nu) -> gmove p q
| mv_idle : gy q 0%nat = gy p 0%nat -> gy q 2%nat = gy p 2%nat -> gtheta q = gtheta p -> gmove p q.
Lemma follows_idle : forall ax r z th, follows ax r z th r z th.
Proof.
  intros ax r z th. pose proof PI_RGT_0. split; [lra|]. split; [auto|]. intros A M.
  assert (C : lift ax r z r z (fun _ => th)).
  { intros s S. split; [apply continuity_pt_const; now intros u v|]. replace (r + s * (r - r)) with r by ring. now replace (z + s * (z - z)) with z by ring. }
  split; [exists (fun _ => th); auto|]. intros L HL E. change th with ((fun _ : R => th) 1). eapply lift_unique; eauto.
Qed.
Lemma gmove_follows : forall ax p q, (forall phi, evalAxis phi = (0%Z, ax)) -> gmove p q -> grun p = true -> grun q = true ->
  follows ax (gy p 0%nat) (gy p 2%nat) (gtheta p) (gy q 0%nat) (gy q 2%nat) (gtheta q).
Proof.
  intros ax p q AX M RP RQ.
  assert (G : (exists phi, gfollows phi p q) \/ (gy q 0%nat = gy p 0%nat /\ gy q 2%nat = gy p 2%nat /\ gtheta q = gtheta p)).
  { destruct M; subst; auto; left; eexists; [eapply gc_rk4_follows | eapply gc_cashkarp_follows | eapply euler_follows | eapply milstein_follows]; eauto. }
  destruct G as [(phi & ax' & E & F)|(E1 & E2 & E3)].
  - rewrite AX in E. injection E as <-. exact F.
  - rewrite E1, E2, E3. apply follows_idle.
Qed.
Lemma gc_turns : forall ax (p : nat -> gcm) n, (forall phi, evalAxis phi = (0%Z, ax)) ->
  (forall k, (k < n)%nat -> gmove (p k) (p (S k)) /\ misses ax (gy (p k) 0%nat) (gy (p k) 2%nat) (gy (p (S k)) 0%nat) (gy (p (S k)) 2%nat)) ->
  (forall k, (k <= n)%nat -> grun (p k) = true) -> at_angle ax (gy (p 0%nat) 0%nat) (gy (p 0%nat) 2%nat) (gtheta (p 0%nat)) ->
  at_angle ax (gy (p n) 0%nat) (gy (p n) 2%nat) (gtheta (p n)) /\
  forall L, (forall k, (k < n)%nat -> lift ax (gy (p k) 0%nat) (gy (p k) 2%nat) (gy (p (S k)) 0%nat) (gy (p (S k)) 2%nat) (fun s => L (INR k + s))) ->
    L 0 = gtheta (p 0%nat) -> L (INR n) = gtheta (p n).
Proof.
  intros ax p n AX H RUN A. apply (follows_chain ax (fun k => gy (p k) 0%nat) (fun k => gy (p k) 2%nat) (fun k => gtheta (p k))); auto.
  intros k K. destruct (H k K) as [M N]. split; [|exact N]. apply gmove_follows; auto; apply RUN; lia.
Qed.
End gc.
Section ml.
Variables (evalB : R -> R -> R -> R -> Z * vec) (evalBdB : R -> R -> R -> R -> Z * (nat -> R)) (evalPsi : R -> R -> R -> R -> Z * R)
          (evalRho : R -> Z * R) (evalAxis : R -> Z * (R * R)) (junk : nat -> R).
Lemma ml_follows : forall h tol p hn, let q := fst (ml_step evalB evalBdB evalPsi evalRho evalAxis junk h tol p hn) in mrun p = true ->
  follows (snd (evalAxis (my q 1%nat))) (my p 0%nat) (my p 2%nat) (mtheta p) (my q 0%nat) (my q 2%nat) (mtheta q).
Proof.
  intros h tol p hn q RUN. unfold q, ml_step. rewrite RUN. cbv zeta. clear q.
  repeat (let H := fresh in destruct (ml_eval _ _ _ _ _ _) as [? ?] eqn:H; clear H).
  destruct (if (_ =? 0)%Z then evalBdB _ _ _ _ else _) as [e7 D]. destruct (if (_ =? 0)%Z then evalPsi _ _ _ _ else _) as [e8 psi]. destruct (if (_ =? 0)%Z then evalRho _ else _) as [e9 rho].
  match goal with |- context [evalAxis (my p 1%nat + ?x)] => destruct (evalAxis (my p 1%nat + x)) as [e [ar az]] eqn:EA end. cbn [fst my mtheta]. rewrite EA. cbn [snd]. apply (follows_turn (ar, az)).
Qed.
End ml.

(** an axis that depends on the toroidal angle: the marker keeps its position in the poloidal
    plane and its angle, but not its direction from the axis *)
Lemma moving_axis : exists evalB evalBdB evalPsi evalRho evalAxis junk h tol p hn,
  let q := fst (ml_step evalB evalBdB evalPsi evalRho evalAxis junk h tol p hn) in
  mrun p = true /\ mrun q = true /\ (forall phi, fst (evalAxis phi) = 0%Z) /\ at_angle (snd (evalAxis (my p 1%nat))) (my p 0%nat) (my p 2%nat) (mtheta p) /\
  ~ on_axis (snd (evalAxis (my q 1%nat))) (my q 0%nat) (my q 2%nat) /\
  ~ at_angle (snd (evalAxis (my q 1%nat))) (my q 0%nat) (my q 2%nat) (mtheta q).
Proof.
  exists (fun _ _ _ _ => (0%Z, V 0 1 0)), (fun _ _ _ _ => (0%Z, fun j => if Nat.eqb j 4 then 1 else 0)), (fun _ _ _ _ => (0%Z, 0)), (fun _ => (0%Z, 0)),
    (fun phi => (0%Z, (1, sin phi))), (fun _ => 0), PI, 1,
    (Mlm (fun j => match j with 0%nat => 2 | _ => 0 end) 0 1 (fun j => if Nat.eqb j 4 then 1 else 0) 0 0 0 true), NaN.
  cbv zeta. unfold ml_step. cbn [mrun]. cbv zeta. unfold ml_eval. cbn [Z.eqb fst snd my mtime mpitch mB mtheta mrun merr Nat.eqb].
  assert (N : norm (V 0 1 0) = 1). { unfold norm, dot. cbn [vx vy vz]. replace (0 * 0 + 1 * 1 + 0 * 0) with (1 * 1) by ring. apply sqrt_square. lra. }
  assert (D : direction 1 = 1) by (unfold direction; destruct (Rlt_dec 1 0); lra).
  unfold ml_k. rewrite N, D. cbn [vx vy vz].
  replace (2 + PI * (37 / 378 * (0 / (1 * 1)) + 250 / 621 * (0 / (1 * 1)) + 125 / 594 * (0 / (1 * 1)) + 512 / 1771 * (0 / (1 * 1)))) with 2 by field.
  replace (0 + PI * (37 / 378 * (0 / (1 * 1)) + 250 / 621 * (0 / (1 * 1)) + 125 / 594 * (0 / (1 * 1)) + 512 / 1771 * (0 / (1 * 1)))) with 0 by field.
  split; [reflexivity|]. split; [reflexivity|]. split; [reflexivity|].
  split. { exists 1. cbn [fst snd]. rewrite sin_0, cos_0. lra. }
  match goal with |- context [sin ?x] => replace x with (PI / 2) by field end. rewrite sin_PI2.
  split. { intros [E _]. cbn in E. lra. }
  replace (atan2 _ _) with 0. 2:{ unfold atan2. destruct (Rlt_dec 0 _) as [_|F]; [|exfalso; apply F; lra]. replace (_ / _) with 0 by field. now rewrite atan_0. }
  intros (d & DP & _ & Y). cbn [snd] in Y. rewrite Rplus_0_l, sin_0 in Y. lra.
Qed.
