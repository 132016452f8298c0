(** The full-orbit step is reversible and its parts preserve phase-space volume: specification and proofs. *)
From Coq Require Import Reals ZArith Bool List Lra Lia Psatz.
Import ListNotations.
From Verif Require Import Deriv Vec Math2Model PhysModel PhysProofs StepFoModel StepFoProofs.
Local Open Scope R_scope.

(** ** Volume in momentum space *)
(** [J] is the derivative of [F] at [p]: linear, and along every direction the derivative of every component *)
Definition linear (J : vec -> vec) : Prop := forall a k b, J (vadd a (vscal k b)) = vadd (J a) (vscal k (J b)).
Definition derivative (F : vec -> vec) (p : vec) (J : vec -> vec) : Prop := linear J /\ forall e,
  derivable_pt_lim (fun s => vx (F (vadd p (vscal s e)))) 0 (vx (J e)) /\ derivable_pt_lim (fun s => vy (F (vadd p (vscal s e)))) 0 (vy (J e)) /\
  derivable_pt_lim (fun s => vz (F (vadd p (vscal s e)))) 0 (vz (J e)).
Definition e1 := V 1 0 0. Definition e2 := V 0 1 0. Definition e3 := V 0 0 1.
(** the volume of the image of the unit cube *)
Definition determinant (J : vec -> vec) : R := triple (J e1) (J e2) (J e3).

Lemma rot_linear d B : linear (rot d B).
Proof. intros a k b. unfold rot. clear. destruct a, b, B. vunf. set (c := _ / _). f_equal; ring. Qed.
Lemma rot_frame d B : cross (rot d B e1) (rot d B e2) = rot d B e3 /\ cross (rot d B e2) (rot d B e3) = rot d B e1 /\ cross (rot d B e3) (rot d B e1) = rot d B e2.
Proof.
  pose proof (rot_den d B) as N. destruct B as [b1 b2 b3]. unfold rot, e1, e2, e3. vunf. unfold dot in N. cbn [vx vy vz] in N.
  repeat split; f_equal; field; lra.
Qed.
Lemma rot_comps d B u : rot d B u = vadd (vscal (vx u) (rot d B e1)) (vadd (vscal (vy u) (rot d B e2)) (vscal (vz u) (rot d B e3))).
Proof. unfold rot, e1, e2, e3. destruct u, B. vunf. set (c := _ / _). f_equal; ring. Qed.
(** a rotation whose angle depends on the vector it turns, but with a change of the angle proportional to the vector *)
Lemma det_turn d B u c : let v := rot d B u in determinant (fun e => vadd (rot d B e) (vscal (c * dot u e) (cross v B))) = 1.
Proof.
  intros v. destruct (rot_frame d B) as (F1 & F2 & F3). pose proof (rot_comps d B u) as UC. fold v in UC.
  destruct (rot_norm d B e1) as [N1 _]. unfold determinant. set (r1 := rot d B e1) in *. set (r2 := rot d B e2) in *. set (r3 := rot d B e3) in *. set (z := vscal c (cross v B)).
  assert (N : dot r1 r1 = 1) by (rewrite N1; unfold dot, e1; cbn; ring).
  assert (Z : dot z v = 0) by (unfold z; clear; destruct v, B; vunf; ring).
  transitivity (triple r1 r2 r3 + vx u * dot z (cross r2 r3) + vy u * dot z (cross r3 r1) + vz u * dot z (cross r1 r2)).
  { unfold z. clearbody r1 r2 r3 v. clear. destruct u, r1, r2, r3, v, B. unfold triple, e1, e2, e3. vunf. ring. }
  rewrite F1, F2, F3. assert (T : triple r1 r2 r3 = 1) by (transitivity (dot (cross r2 r3) r1); [clearbody r1 r2 r3; clear; destruct r1, r2, r3; vunf; ring|rewrite F2; exact N]).
  rewrite T. transitivity (1 + dot z v); [clearbody z; rewrite UC; clearbody r1 r2 r3; clear; destruct u, z, r1, r2, r3; vunf; ring|]. rewrite Z. ring.
Qed.

(** the derivative of the momentum update along a line *)
Lemma d_pair (A C : R -> R) A' C' a a' b b' u u' : Dx A 0 A' -> Dx C 0 C' ->
  Dx (fun s => u + s * u' + A s * ((a + s * a') + C s * (b + s * b'))) 0 (u' + A' * (a + C 0 * b) + A 0 * (a' + C' * b + C 0 * b')).
Proof.
  intros DA DC. assert (L : forall x y, Dx (fun s => x + s * y) 0 y).
  { intros x y. eapply d_eq; [apply d_plus; [apply d_const|apply d_mult; [apply d_id|apply d_const]]|cbv beta; ring]. }
  eapply d_eq; [apply d_plus; [apply L|apply d_mult; [exact DA|apply d_plus; [apply L|apply d_mult; [exact DC|apply L]]]]|]. cbv beta. ring.
Qed.
Lemma rot_derivative k B u : let d := k / sqrt (1 + dot u u) in let v := rot d B u in
  derivative (fun u => rot (k / sqrt (1 + dot u u)) B u) u (fun e => vadd (rot d B e) (vscal (- (d / (1 + dot u u)) * (2 / (1 + d * d * dot B B)) * dot u e) (cross v B))).
Proof.
  intros d v. split.
  { intros a j b. rewrite rot_linear. clearbody v. clear. set (c := - _ * _). set (ra := rot d B a). set (rb := rot d B b). clearbody c ra rb. destruct a, b, u, v, B, ra, rb. vunf. f_equal; ring. }
  intros e. pose proof (dot_nonneg u) as U0. assert (P : 0 < 1 + dot u u) by lra. pose proof (sqrt_lt_R0 _ P) as SP.
  assert (DN : Dx (fun s => 1 + dot (vadd u (vscal s e)) (vadd u (vscal s e))) 0 (2 * dot u e)).
  { eapply d_ext; [intros s; symmetry; instantiate (1 := fun s => 1 + dot u u + s * (2 * dot u e) + s * s * dot e e); cbv beta; destruct u, e; vunf; ring|].
    eapply d_eq; [apply d_plus; [apply d_plus; [apply d_const|apply d_mult; [apply d_id|apply d_const]]|apply d_mult; [apply d_mult; apply d_id|apply d_const]]|cbv beta; ring]. }
  assert (Z0 : vadd u (vscal 0 e) = u) by (destruct u, e; vunf; f_equal; ring).
  set (del := fun s => k / sqrt (1 + dot (vadd u (vscal s e)) (vadd u (vscal s e)))).
  assert (D0 : del 0 = d) by (unfold del, d; now rewrite Z0).
  assert (SQ : sqrt (1 + dot u u) * sqrt (1 + dot u u) = 1 + dot u u) by (apply sqrt_sqrt; lra).
  assert (DD : Dx del 0 (- (d / (1 + dot u u)) * dot u e)).
  { unfold del. eapply d_eq; [apply d_div; [apply d_const|apply d_sqrt; [exact DN|rewrite Z0; exact P]|rewrite Z0; lra]|]. cbv beta. rewrite Z0. unfold d. set (rt := sqrt (1 + dot u u)) in *. rewrite <- SQ. field. lra. }
  set (c' := - (d / (1 + dot u u)) * dot u e) in *. pose proof (rot_den d B) as N.
  assert (DA : Dx (fun s => 2 * del s / (1 + del s * del s * dot B B)) 0 (2 * c' * (1 - d * d * dot B B) / ((1 + d * d * dot B B) * (1 + d * d * dot B B)))).
  { eapply d_eq; [apply d_div; [apply d_mult; [apply d_const|exact DD]|apply d_plus; [apply d_const|apply d_mult; [apply d_mult; exact DD|apply d_const]]|rewrite D0; lra]|]. cbv beta. rewrite D0. field. lra. }
  assert (W : forall s, rot (del s) B (vadd u (vscal s e)) = vadd (vadd u (vscal s e)) (vscal (2 * del s / (1 + del s * del s * dot B B)) (vadd (vadd (cross u B) (vscal s (cross e B))) (vscal (del s) (vadd (cross (cross u B) B) (vscal s (cross (cross e B) B))))))).
  { intros s. unfold rot. rewrite !cross_lin. reflexivity. }
  assert (K : forall f : vec -> R, (forall x y, f (vadd x y) = f x + f y) -> (forall j x, f (vscal j x) = j * f x) ->
    Dx (fun s => f (rot (del s) B (vadd u (vscal s e)))) 0 (f (vadd (rot d B e) (vscal (- (d / (1 + dot u u)) * (2 / (1 + d * d * dot B B)) * dot u e) (cross v B))))).
  { intros f FA FS. assert (WW : forall s, f u + s * f e + 2 * del s / (1 + del s * del s * dot B B) * ((f (cross u B) + s * f (cross e B)) + del s * (f (cross (cross u B) B) + s * f (cross (cross e B) B))) = f (rot (del s) B (vadd u (vscal s e)))).
    { intros s. rewrite W. repeat rewrite ?FA, ?FS. ring. }
    eapply d_ext; [exact WW|].
    eapply d_eq; [apply (d_pair (fun s => 2 * del s / (1 + del s * del s * dot B B)) del); [exact DA|exact DD]|]. cbv beta. rewrite D0.
    rewrite FA, FS. unfold rot at 1. rewrite FA, FS, FA, FS.
    assert (VB : f (cross v B) = f (cross u B) + 2 * d / (1 + d * d * dot B B) * (f (cross (cross u B) B) - d * dot B B * f (cross u B))).
    { unfold v, rot. rewrite cross_lin, FA, FS, cross_lin, FA, FS. rewrite (cross_twice (cross u B) B) by (rewrite dot_comm; apply dot_cross_r).
      rewrite FS. ring. }
    rewrite VB. unfold c'. field. lra. }
  split; [|split]; [apply (K vx)|apply (K vy)|apply (K vz)]; reflexivity.
Qed.
Lemma derivative_ext F G p J : (forall x, F x = G x) -> derivative F p J -> derivative G p J.
Proof. intros E (L & D). split; [exact L|]. intros e. destruct (D e) as (A & B & C). split; [|split]; (eapply d_ext; [|eassumption]); intros s; cbv beta; now rewrite E. Qed.
Theorem kick_volume : forall q m h E B p, 0 < m -> exists J, derivative (boris q m h E B) p J /\ determinant J = 1.
Proof.
  intros q m h E B p M. pose proof (mc_pos m M) as MC. set (u := kick q m h E p). set (k := q * h / (2 * m)).
  exists (fun e => vadd (rot (k / sqrt (1 + dot u u)) B e) (vscal (- (k / sqrt (1 + dot u u) / (1 + dot u u)) * (2 / (1 + k / sqrt (1 + dot u u) * (k / sqrt (1 + dot u u)) * dot B B)) * dot u e) (cross (rot (k / sqrt (1 + dot u u)) B u) B))).
  split; [|apply det_turn]. destruct (rot_derivative k B u) as [L D]. split; [exact L|]. intros e. cbv zeta in D.
  assert (K : forall s, boris q m h E B (vadd p (vscal s e)) = let w := vadd u (vscal s (vscal (/ (m * CONST_C)) e)) in vscal (m * CONST_C) (vadd (rot (k / sqrt (1 + dot w w)) B w) (vscal (q * h / (2 * m * CONST_C)) E))).
  { intros s. rewrite boris_rot. cbv zeta. replace (kick q m h E (vadd p (vscal s e))) with (vadd u (vscal s (vscal (/ (m * CONST_C)) e))); [reflexivity|]. unfold u, kick. destruct p, e, E. vunf. f_equal; ring. }
  cbv zeta in K. destruct (D (vscal (/ (m * CONST_C)) e)) as (D1 & D2 & D3).
  set (d := k / sqrt (1 + dot u u)) in *. set (c := - (d / (1 + dot u u)) * (2 / (1 + d * d * dot B B))) in *. set (v := cross (rot d B u) B) in *.
  assert (S : vadd (rot d B (vscal (/ (m * CONST_C)) e)) (vscal (c * dot u (vscal (/ (m * CONST_C)) e)) v) = vscal (/ (m * CONST_C)) (vadd (rot d B e) (vscal (c * dot u e) v))).
  { replace (vscal (/ (m * CONST_C)) e) with (vadd vzero (vscal (/ (m * CONST_C)) e)) at 1 by (destruct e; vunf; f_equal; ring). rewrite rot_linear.
    replace (rot d B vzero) with vzero by (unfold rot; destruct B; vunf; f_equal; ring). set (re := rot d B e). clearbody re v. clearbody c. destruct e, u, re, v. vunf. f_equal; ring. }
  rewrite S in D1, D2, D3.
  assert (Q : forall f : R -> R, forall a, Dx f 0 (/ (m * CONST_C) * a) -> forall x, Dx (fun s => m * CONST_C * (f s + x)) 0 a).
  { intros f a F x. eapply d_eq; [apply d_mult; [apply d_const|apply d_plus; [exact F|apply d_const]]|]. cbv beta. set (mc := m * CONST_C) in *. field. lra. }
  split; [|split]; (eapply d_ext; [intros s; rewrite K; unfold vscal at 1, vadd at 1; cbn [vx vy vz]; reflexivity|]); apply Q; assumption.
Qed.
(** ** Volume in space *)
Theorem drift_volume : forall m h p x a, drift m h p (vadd x a) = vadd (drift m h p x) a.
Proof. intros m h p x a. unfold drift. cbv zeta. destruct p, x, a. vunf. f_equal; ring. Qed.

(** ** Going back *)
Lemma atan2_opp y x : atan2 y x <> PI -> atan2 (- y) x = - atan2 y x.
Proof.
  unfold atan2. intros H. replace (- y / x) with (- (y / x)) by (unfold Rdiv; ring). rewrite atan_opp.
  destruct (Rlt_dec 0 x); [reflexivity|]. destruct (Rlt_dec x 0).
  - destruct (Rle_dec 0 y) as [P|P]; destruct (Rle_dec 0 (- y)) as [Q|Q]; try lra. exfalso. apply H. replace y with 0 by lra. unfold Rdiv. rewrite Rmult_0_l, atan_0. ring.
  - destruct (Rlt_dec 0 y), (Rlt_dec y 0), (Rlt_dec 0 (- y)), (Rlt_dec (- y) 0); lra.
Qed.
Lemma drift_back m h p x : drift m (- h) p (drift m h p x) = x.
Proof. unfold drift. cbv zeta. destruct x as [x1 x2 x3]. cbn [vx vy vz]. f_equal; unfold Rdiv; ring. Qed.
(** the clock of the marker is set by the simulation loop after the step *)
Definition at_time (t : R) (p : fom) : fom := Fom (fr p) (fphi p) (fz p) t (fmass p) (fcharge p) (fp p) (fB p) (frho p) (ftheta p) (ferr p) (frun p).
Section back.
Variables (fields : R -> R -> R -> R -> Z * vec * vec) (evalBdB : R -> R -> R -> R -> Z * (nat -> R)) (evalPsi : R -> R -> R -> R -> Z * R)
          (evalRho : R -> Z * R) (evalAxis : R -> Z * (R * R)).
Notation stp := (fo_step fields evalBdB evalPsi evalRho evalAxis).
Lemma fo_exact h p q : frun p = true -> 0 < fr p -> stp h 0 p = Some q -> frun q = true ->
  let x1 := mid h p in let phi1 := atan2 (vy x1) (vx x1) in exists B E, fields (sqrt (vx x1 * vx x1 + vy x1 * vy x1)) phi1 (vz x1) (ftime p + h / 2) = (0%Z, B, E) /\
  cart_p q = boris (fcharge p) (fmass p) h (to_xyz E phi1) (to_xyz B phi1) (cart_p p) /\ cart_x q = drift (fmass p) h (cart_p q) x1 /\
  fphi q = fphi p + atan2 (vx (cart_x p) * vy (cart_x q) - vy (cart_x p) * vx (cart_x q)) (vx (cart_x p) * vx (cart_x q) + vy (cart_x p) * vy (cart_x q)) /\
  ftime q = ftime p /\ fmass q = fmass p /\ fcharge q = fcharge p /\ fr q = sqrt (vx (cart_x q) * vx (cart_x q) + vy (cart_x q) * vy (cart_x q)).
Proof.
  intros RUN RP. unfold fo_step. rewrite RUN. cbv zeta.
  change (to_xyz (fp p) (fphi p)) with (cart_p p). change (pos_xyz (fr p) (fphi p) (fz p)) with (cart_x p). fold (mid h p).
  set (x1 := mid h p). set (r1 := sqrt (vx x1 * vx x1 + vy x1 * vy x1)). set (phi1 := atan2 (vy x1) (vx x1)).
  destruct (fields r1 phi1 (vz x1) (ftime p + h / 2)) as [[e B] E] eqn:F. intros H RQ.
  assert (e = 0%Z).
  { destruct (Z.eqb_spec e 0) as [->|NE]; [reflexivity|]. exfalso. cbn [fst snd] in H. assert (Q : (e =? 0)%Z = false) by now apply Z.eqb_neq. rewrite !Q in H.
    destruct (ald 0 _ _ _ _ _) as [p'|]; [|discriminate]. injection H as <-. cbn in RQ. discriminate. }
  subst e. exists B, E. split; [reflexivity|]. cbn [Z.eqb] in H.
  set (pf := boris (fcharge p) (fmass p) h (to_xyz E phi1) (to_xyz B phi1) (cart_p p)) in *. set (x2 := drift (fmass p) h pf x1) in *.
  set (a := atan2 (vx (cart_x p) * vy x2 - vy (cart_x p) * vx x2) (vx (cart_x p) * vx x2 + vy (cart_x p) * vy x2)) in *.
  destruct (turn (fr p) (fphi p) (vx x2) (vy x2) RP) as [T1 T2].
  change (atan2 (fr p * cos (fphi p) * vy x2 - fr p * sin (fphi p) * vx x2) (fr p * cos (fphi p) * vx x2 + fr p * sin (fphi p) * vy x2)) with a in T1, T2.
  pose proof (trig1 (fphi p + a)) as T. cbn [fr fphi fz ftime fmass fcharge fp fB frho ftheta ferr frun] in H.
  set (c := cos (fphi p + a)) in *. set (s := sin (fphi p + a)) in *.
  assert (G : fr q = sqrt (vx x2 * vx x2 + vy x2 * vy x2) /\ fphi q = fphi p + a /\ fz q = vz x2 /\ fp q = V (vx pf * c + vy pf * s) (- vx pf * s + vy pf * c) (vz pf) /\
              ftime q = ftime p /\ fmass q = fmass p /\ fcharge q = fcharge p).
  { destruct (evalBdB _ _ _ _) as [e1' BdB]. destruct (if (e1' =? 0)%Z then evalPsi _ _ _ _ else _) as [e2' psi]. destruct (if (e2' =? 0)%Z then evalRho psi else _) as [e3' rho].
    destruct (e3' =? 0)%Z.
    - destruct (evalAxis _) as [e4 [ar az]]. cbn [fr fphi fz ftime fmass fcharge fp fB frho ftheta ferr frun] in H.
      destruct (ald 0 _ _ _ _ _) as [p'|] eqn:AL; [|discriminate]. apply ald_off in AL. subst p'. injection H as <-. cbn. repeat split.
    - cbn [fr fphi fz ftime fmass fcharge fp fB frho ftheta ferr frun] in H.
      destruct (ald 0 _ _ _ _ _) as [p'|] eqn:AL; [|discriminate]. apply ald_off in AL. subst p'. injection H as <-. cbn. repeat split. }
  destruct G as (G1 & G2 & G3 & G4 & G5 & G6 & G7).
  assert (CP : cart_p q = pf).
  { unfold cart_p. rewrite G2, G4. cbn [vx vy vz]. fold c s. clearbody c s pf. destruct pf as [f1 f2 f3]. cbn [vx vy vz]. f_equal.
    - transitivity (f1 * (s * s + c * c)); [ring|rewrite T; ring].
    - transitivity (f2 * (s * s + c * c)); [ring|rewrite T; ring]. }
  assert (CX : cart_x q = x2) by (unfold cart_x; rewrite G1, G2, G3; fold c s; rewrite T1, T2; now destruct x2).
  rewrite CP, CX. repeat split; assumption.
Qed.
Lemma step_back_same h p q m p' : frun p = true -> 0 < fr p -> 0 < fmass p -> stp h 0 p = Some q -> frun q = true -> 0 < fr q -> fphi q - fphi p <> PI ->
  fr m = fr q /\ fphi m = fphi q /\ fz m = fz q /\ fmass m = fmass q /\ fcharge m = fcharge q /\ fp m = fp q -> ftime m = ftime p + h -> frun m = true -> stp (- h) 0 m = Some p' -> frun p' = true ->
  fr p' = fr p /\ fphi p' = fphi p /\ fz p' = fz p /\ fp p' = fp p /\ fmass p' = fmass p /\ fcharge p' = fcharge p.
Proof.
  intros RUN RP MP ST RQ RQ0 NPI (Q1 & Q2 & Q3 & Q4 & Q5 & Q6) TM RM ST' RP'.
  destruct (fo_exact h p q RUN RP ST RQ) as (B & E & F & CP & CX & PH & TQ & MQ & QQ & _).
  destruct (fo_exact (- h) m p' RM ltac:(lra) ST' RP') as (B' & E' & F' & CP' & CX' & PH' & TQ' & MQ' & QQ' & FR').
  assert (XM : cart_x m = cart_x q) by (unfold cart_x; now rewrite Q1, Q2, Q3). assert (PM : cart_p m = cart_p q) by (unfold cart_p; now rewrite Q2, Q6).
  rewrite ?XM, ?PM, ?TM, ?Q4, ?Q5, ?Q2 in *.
  assert (MID : mid (- h) m = mid h p) by (unfold mid at 1; rewrite XM, PM, Q4, MQ, CX; apply drift_back).
  rewrite MID in *. replace (ftime p + h + - h / 2) with (ftime p + h / 2) in F' by field. rewrite F in F'. injection F' as <- <-.
  rewrite MQ, QQ in *.
  assert (P : cart_p p' = cart_p p) by (rewrite CP', CP; apply boris_reverse; exact MP).
  assert (X : cart_x p' = cart_x p) by (rewrite CX', P; apply drift_back).
  rewrite X in *.
  assert (A : fphi p' = fphi p).
  { rewrite PH', PH. match goal with |- _ + ?a + ?b = _ => assert (b = - a); [|lra] end.
    match goal with |- atan2 ?y ?x = - atan2 ?y2 ?x2 => replace y with (- y2) by ring; replace x with x2 by ring; apply atan2_opp end.
    intros Q. rewrite Q in PH. lra. }
  assert (FP : fr p' = fr p).
  { rewrite FR'. unfold cart_x. cbn [vx vy vz]. pose proof (trig1 (fphi p)) as T. replace (_ + _) with (fr p * fr p * (sin (fphi p) * sin (fphi p) + cos (fphi p) * cos (fphi p))) by ring. rewrite T, Rmult_1_r. apply sqrt_square. lra. }
  split; [exact FP|]. split; [exact A|]. split; [change (vz (cart_x p') = vz (cart_x p)); now rewrite X|]. split; [|split; assumption].
  pose proof (f_equal vx P) as P1. pose proof (f_equal vy P) as P2. pose proof (f_equal vz P) as P3. unfold cart_p in P1, P2, P3. cbn [vx vy vz] in P1, P2, P3. rewrite A in P1, P2.
  pose proof (trig1 (fphi p)) as T. set (c := cos (fphi p)) in *. set (s := sin (fphi p)) in *. clearbody c s.
  destruct (fp p') as [a1 a2 a3]. destruct (fp p) as [b1 b2 b3]. cbn [vx vy vz] in *. subst a3. f_equal.
  - transitivity (a1 * (s * s + c * c)); [rewrite T; ring|]. transitivity (b1 * (s * s + c * c)); [|rewrite T; ring]. transitivity ((a1 * c - a2 * s) * c + (a1 * s + a2 * c) * s); [ring|]. rewrite P1, P2. ring.
  - transitivity (a2 * (s * s + c * c)); [rewrite T; ring|]. transitivity (b2 * (s * s + c * c)); [|rewrite T; ring]. transitivity ((a1 * s + a2 * c) * c - (a1 * c - a2 * s) * s); [ring|]. rewrite P1, P2. ring.
Qed.
(** after a step and with the clock set forward, the same step backwards restores position, angle and momentum *)
Theorem step_back : forall h p q p', frun p = true -> 0 < fr p -> 0 < fmass p -> stp h 0 p = Some q -> frun q = true -> 0 < fr q -> fphi q - fphi p <> PI ->
  stp (- h) 0 (at_time (ftime p + h) q) = Some p' -> frun p' = true ->
  fr p' = fr p /\ fphi p' = fphi p /\ fz p' = fz p /\ fp p' = fp p /\ fmass p' = fmass p /\ fcharge p' = fcharge p.
Proof. intros h p q p' RUN RP MP ST RQ RQ0 NPI ST' RP'. apply (step_back_same h p q (at_time (ftime p + h) q) p'); try assumption; [repeat split|reflexivity]. Qed.
(** what the step depends on *)
Definition same (p q : fom) : Prop := fr p = fr q /\ fphi p = fphi q /\ fz p = fz q /\ ftime p = ftime q /\ fmass p = fmass q /\ fcharge p = fcharge q /\ fp p = fp q.
Lemma of_cart p phi v : cart_p p = v -> fphi p = phi -> fp p = V (vx v * cos phi + vy v * sin phi) (vy v * cos phi - vx v * sin phi) (vz v).
Proof.
  intros <- <-. unfold cart_p. cbn [vx vy vz]. pose proof (trig1 (fphi p)) as T. set (c := cos (fphi p)) in *. set (s := sin (fphi p)) in *. clearbody c s.
  destruct (fp p) as [a1 a2 a3]. cbn [vx vy vz]. f_equal.
  - transitivity (a1 * (s * s + c * c)); [rewrite T; ring|ring].
  - transitivity (a2 * (s * s + c * c)); [rewrite T; ring|ring].
Qed.
(** steps of the lengths hs, each followed by setting the clock *)
Fixpoint steps (hs : list R) (p : fom) : option fom :=
  match hs with [] => Some p | h :: hs => match stp h 0 p with Some q => steps hs (at_time (ftime p + h) q) | None => None end end.
(** the marker runs, stays off the axis and never jumps to the opposite side of it *)
Fixpoint regular (hs : list R) (p : fom) : Prop := frun p = true /\ 0 < fr p /\ match hs with [] => True | h :: hs => forall q, stp h 0 p = Some q -> fphi q - fphi p <> PI /\ regular hs (at_time (ftime p + h) q) end.
Lemma steps_app l1 l2 p : steps (l1 ++ l2) p = match steps l1 p with Some q => steps l2 q | None => None end.
Proof. revert p. induction l1 as [|h l IH]; intros p; [reflexivity|]. cbn [app steps]. destruct (stp h 0 p); [apply IH|reflexivity]. Qed.
Lemma steps_back_gen : forall hs p q q' p', 0 < fmass p -> regular hs p -> steps hs p = Some q -> same q' q -> frun q' = true ->
  steps (rev (map Ropp hs)) q' = Some p' -> frun p' = true -> same p' p.
Proof.
  induction hs as [|h hs IH]; intros p q q' p' M G ST SM RQ BK RP; cbn [steps map rev] in *.
  { injection ST as <-. injection BK as <-. exact SM. }
  destruct G as (R0 & F0 & G). destruct (stp h 0 p) as [q1|] eqn:S1; [|discriminate]. destruct (G q1 eq_refl) as (NP & G1). rewrite steps_app in BK. destruct (steps (rev (map Ropp hs)) q') as [m|] eqn:SB; [|discriminate].
  cbn [steps] in BK. destruct (stp (- h) 0 m) as [w|] eqn:SW; [|discriminate]. injection BK as <-.
  assert (RW : frun w = true) by exact RP. assert (RM : frun m = true). { destruct (frun m) eqn:Q; [reflexivity|]. rewrite (fo_idle fields evalBdB evalPsi evalRho evalAxis (- h) 0 m Q) in SW. injection SW as <-. congruence. }
  assert (RF : frun q1 = true /\ 0 < fr q1) by (destruct hs; destruct G1 as (A & B & _); split; assumption). destruct RF as [RQ1 FQ1].
  destruct (fo_exact h p q1 R0 F0 S1 RQ1) as (_ & _ & _ & _ & _ & _ & TQ & MQ & _).
  assert (SMP : same m (at_time (ftime p + h) q1)) by (apply (IH _ q q' m); try assumption; cbn [fmass at_time]; lra).
  assert (TM : ftime m = ftime p + h) by apply SMP.
  (* the step from m follows the step from the forward state; it is the step back *)
  destruct SMP as (E1 & E2 & E3 & E4 & E5 & E6 & E7). cbn [fr fphi fz ftime fmass fcharge fp at_time] in E1, E2, E3, E4, E5, E6, E7.
  assert (FM : fr m = fr q1 /\ fphi m = fphi q1 /\ fz m = fz q1 /\ fmass m = fmass q1 /\ fcharge m = fcharge q1 /\ fp m = fp q1) by (repeat split; assumption).
  destruct (step_back_same h p q1 m w R0 F0 M S1 RQ1 FQ1 NP FM TM RM SW RW) as (K1 & K2 & K3 & K4 & K5 & K6).
  unfold same. cbn [fr fphi fz ftime fmass fcharge fp at_time]. repeat split; try assumption. rewrite TM. ring.
Qed.
Theorem steps_back : forall hs p q p', 0 < fmass p -> regular hs p -> steps hs p = Some q -> frun q = true -> steps (rev (map Ropp hs)) q = Some p' -> frun p' = true -> same p' p.
Proof. intros hs p q p' M G ST RQ BK RP. apply (steps_back_gen hs p q q p'); try assumption. unfold same. repeat split. Qed.
End back.
