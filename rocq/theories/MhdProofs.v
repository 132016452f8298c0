(** Specification and proofs for the Boozer coordinates and the MHD perturbations. *)
From Coq Require Import Reals List ZArith Bool Lra Lia.
From Verif Require GctProofs.
From Verif Require Import Deriv Vec ErrorModel MathModel MathProofs GsProofs BiosawProofs MhdModel.
Import ListNotations.
Local Open Scope R_scope.

(** ** Differentiability along every smooth curve *)
Definition diff2 (F : R -> R -> R) (x y a b : R) : Prop :=
  forall cx cy s x' y', cx s = x -> cy s = y -> Dx cx s x' -> Dx cy s y' -> Dx (fun u => F (cx u) (cy u)) s (a * x' + b * y').
Definition diff3 (F : R -> R -> R -> R) (x y z a b c : R) : Prop :=
  forall cx cy cz s x' y' z', cx s = x -> cy s = y -> cz s = z -> Dx cx s x' -> Dx cy s y' -> Dx cz s z' ->
  Dx (fun u => F (cx u) (cy u) (cz u)) s (a * x' + b * y' + c * z').
Definition diff4 (F : R -> R -> R -> R -> R) (x y z t a b c d : R) : Prop :=
  forall cx cy cz ct s x' y' z' t', cx s = x -> cy s = y -> cz s = z -> ct s = t -> Dx cx s x' -> Dx cy s y' -> Dx cz s z' -> Dx ct s t' ->
  Dx (fun u => F (cx u) (cy u) (cz u) (ct u)) s (a * x' + b * y' + c * z' + d * t').
Definition near4 (x y z t : R) (P : R -> R -> R -> R -> Prop) : Prop :=
  exists d, 0 < d /\ forall x1 y1 z1 t1, Rabs (x1 - x) < d -> Rabs (y1 - y) < d -> Rabs (z1 - z) < d -> Rabs (t1 - t) < d -> P x1 y1 z1 t1.

Lemma near_close : forall f s l d, Dx f s l -> 0 < d -> near s (fun u => Rabs (f u - f s) < d).
Proof.
  intros f s l d D P. destruct (d_cont f s l D d P) as (al & A & H). exists (s - al), (s + al). split; [lra|]. intros u U.
  destruct (Req_EM_T u s) as [->|NE]. { unfold Rminus. rewrite Rplus_opp_r, Rabs_R0. auto. }
  apply (H u). split; [split; [exact I|auto]|]. simpl. unfold R_dist. apply Rabs_def1; lra.
Qed.
Lemma near_curve : forall P cx cy cz ct s x' y' z' t', near4 (cx s) (cy s) (cz s) (ct s) P ->
  Dx cx s x' -> Dx cy s y' -> Dx cz s z' -> Dx ct s t' -> near s (fun u => P (cx u) (cy u) (cz u) (ct u)).
Proof.
  intros P cx cy cz ct s x' y' z' t' (d & D & H) A B C E.
  eapply near_imp; [|apply near_and; [apply (near_close _ _ _ d A D)|apply near_and; [apply (near_close _ _ _ d B D)|apply near_and; [apply (near_close _ _ _ d C D)|apply (near_close _ _ _ d E D)]]]].
  cbv beta. intros u (U1 & U2 & U3 & U4). auto.
Qed.
Lemma near_here : forall x P, near x P -> P x.
Proof. intros x P (a & b & X & H). auto. Qed.
Lemma near4_here : forall x y z t P, near4 x y z t P -> P x y z t.
Proof. intros x y z t P (d & D & H). apply H; unfold Rminus; rewrite Rplus_opp_r, Rabs_R0; auto. Qed.
Lemma near_gt : forall f x l, Dx f x l -> 0 < f x -> near x (fun u => 0 < f u).
Proof.
  intros f x l D P. eapply near_imp; [|apply (near_close f x l (f x) D P)]. cbv beta. intros u U. apply Rabs_def2 in U. lra.
Qed.

(** ** The geometric angle *)
Definition thgeo (x y : R) : R := fmod (atan2 y x + 2 * PI) (2 * PI).
Lemma thgeo_up : forall x y, 0 < y -> thgeo x y = PI / 2 - atan (x / y).
Proof.
  intros x y Y. unfold thgeo. rewrite atan2_up by auto. pose proof (atan_bound (x / y)). pose proof PI_RGT_0.
  rewrite (fmod_unique _ _ 1); lra.
Qed.
Lemma thgeo_down : forall x y, y < 0 -> thgeo x y = 3 * PI / 2 - atan (x / y).
Proof.
  intros x y Y. unfold thgeo. rewrite atan2_down by auto. pose proof (atan_bound (x / y)). pose proof PI_RGT_0.
  rewrite (fmod_unique _ _ 0); lra.
Qed.
Lemma thgeo_left : forall x y, x < 0 -> thgeo x y = PI + atan (y / x).
Proof.
  intros x y X. unfold thgeo, atan2. pose proof (atan_bound (y / x)). pose proof PI_RGT_0.
  destruct (Rlt_dec 0 x); [lra|]. destruct (Rlt_dec x 0); [|lra]. destruct (Rle_dec 0 y).
  - rewrite (fmod_unique _ _ 1); lra.
  - rewrite (fmod_unique _ _ 0); lra.
Qed.
(** off the half line where the angle starts *)
Lemma thgeo_diff : forall x y, y <> 0 \/ x < 0 -> diff2 thgeo x y (- y / (x * x + y * y)) (x / (x * x + y * y)).
Proof.
  intros x y N cx cy s x' y' EX EY DX DY. assert (S : 0 < x * x + y * y) by (apply sumsq_nz; destruct N; [auto|left; lra]).
  destruct (Rtotal_order y 0) as [L|[L|L]].
  - apply (d_near (fun u => 3 * PI / 2 - atan (cx u / cy u))).
    + eapply near_imp; [|apply (near_gt (fun u => - cy u) s (- y'))]; [cbv beta; intros u U; symmetry; apply thgeo_down; lra|apply d_opp; auto|cbv beta; lra].
    + eapply d_eq; [apply d_minus; [apply d_const|apply d_atan; apply d_div; eauto; lra]|]. cbv beta. rewrite EX, EY. field. split; nra.
  - destruct N as [N|N]; [lra|]. apply (d_near (fun u => PI + atan (cy u / cx u))).
    + eapply near_imp; [|apply (near_gt (fun u => - cx u) s (- x'))]; [cbv beta; intros u U; symmetry; apply thgeo_left; lra|apply d_opp; auto|cbv beta; lra].
    + eapply d_eq; [apply d_plus; [apply d_const|apply d_atan; apply d_div; eauto; lra]|]. cbv beta. rewrite EX, EY. field. split; nra.
  - apply (d_near (fun u => PI / 2 - atan (cx u / cy u))).
    + eapply near_imp; [|apply (near_gt cy s y')]; [cbv beta; intros u U; symmetry; apply thgeo_up; lra|auto|lra].
    + eapply d_eq; [apply d_minus; [apply d_const|apply d_atan; apply d_div; eauto; lra]|]. cbv beta. rewrite EX, EY. field. split; nra.
Qed.

(** ** Sums over the modes *)
Fixpoint chosen {E} (inc i : Z) (ds : list (mode E)) : list (mode E) :=
  match ds with
  | [] => []
  | d :: ds => if ((inc =? -1) || (inc =? i))%Z then d :: chosen inc (i + 1) ds else chosen inc (i + 1) ds
  end.
Definition sumL {A} (f : A -> R) (l : list A) : R := fold_right (fun x s => f x + s) 0 l.
Lemma loop_spec : forall E (f : mode E -> bool * arr) inc ds i acc,
  fst (modes_loop f inc i ds acc) = (fst acc || existsb (fun d => fst (f d)) (chosen inc i ds))%bool /\
  forall k, snd (modes_loop f inc i ds acc) k = snd acc k + sumL (fun d => snd (f d) k) (chosen inc i ds).
Proof.
  intros E f inc. induction ds as [|d ds IH]; intros i acc.
  - cbn. split; [now rewrite orb_false_r|intros; lra].
  - cbn [modes_loop chosen]. unfold MHD_INCLUDE_ALL. destruct (inc =? -1)%Z, (inc =? i)%Z; cbn [negb andb orb];
    (match goal with |- context [modes_loop f inc (i + 1) ds ?a] => destruct (IH (i + 1)%Z a) as [A B] end; split; [rewrite A|intros k; rewrite B]); cbn [fst snd existsb sumL fold_right]; auto;
    try (now rewrite <- orb_assoc); try (fold (sumL (fun d0 => snd (f d0) k) (chosen inc (i + 1) ds)); lra).
Qed.
Lemma chosen_all : forall E (ds : list (mode E)) i, chosen (-1) i ds = ds.
Proof. induction ds; intros; cbn; [auto|]. now rewrite IHds. Qed.
Lemma chosen_none : forall E (ds : list (mode E)) inc i, inc <> (-1)%Z -> (inc < i)%Z -> chosen inc i ds = [].
Proof.
  induction ds; intros inc i N L; cbn; [auto|]. destruct (Z.eqb_spec inc (-1)); [contradiction|]. destruct (Z.eqb_spec inc i); [lia|]. apply IHds; lia.
Qed.
Lemma chosen_one : forall E (ds : list (mode E)) inc i, (0 <= i <= inc)%Z ->
  chosen inc i ds = match nth_error ds (Z.to_nat (inc - i)) with Some d => [d] | None => [] end.
Proof.
  induction ds; intros inc i L; cbn [chosen]. { destruct (Z.to_nat (inc - i)); reflexivity. }
  destruct (Z.eqb_spec inc (-1)); [lia|]. destruct (Z.eqb_spec inc i) as [->|N]; cbn [orb].
  - rewrite Z.sub_diag. cbn. f_equal. apply chosen_none; lia.
  - rewrite IHds by lia. replace (Z.to_nat (inc - i)) with (S (Z.to_nat (inc - (i + 1)))) by lia. reflexivity.
Qed.

(** ** Phases and whole turns *)
Lemma cos_turns : forall x k, cos (x + 2 * PI * IZR k) = cos x /\ sin (x + 2 * PI * IZR k) = sin x.
Proof.
  intros x k. replace (x + 2 * PI * IZR k) with (x - 2 * PI * IZR (- k)) by (rewrite opp_IZR; ring). apply GctProofs.trig_Z.
Qed.
Definition wrap2 (x : R) : R := fmod (fmod x (2 * PI) + 2 * PI) (2 * PI).
Lemma wrap2_congr : forall x, exists k, wrap2 x = x + 2 * PI * IZR k.
Proof.
  intros x. unfold wrap2. destruct (fmod_congr x (2 * PI)) as [a A]. destruct (fmod_congr (fmod x (2 * PI) + 2 * PI) (2 * PI)) as [b B].
  exists (1 - a - b)%Z. rewrite B, A, !minus_IZR. ring.
Qed.
Lemma wrap2_range : forall x, 0 <= wrap2 x < 2 * PI.
Proof. intros x. apply fmod_range. pose proof PI_RGT_0. lra. Qed.
(** an integer mode number makes the phase independent of the branch *)
Lemma phase_turns : forall n x y, cos (IZR n * wrap2 x + y) = cos (IZR n * x + y) /\ sin (IZR n * wrap2 x + y) = sin (IZR n * x + y).
Proof.
  intros n x y. destruct (wrap2_congr x) as [k E]. rewrite E.
  replace (IZR n * (x + 2 * PI * IZR k) + y) with (IZR n * x + y + 2 * PI * IZR (n * k)) by (rewrite mult_IZR; ring). apply cos_turns.
Qed.

(** ** One mode along a curve *)
(** amplitude times cosine of the phase, with the branch of the toroidal angle left free *)
Definition wave {E} (d : mode E) (a zeta theta t : R) : R := mamp d * a * cos (IZR (mn d) * zeta - IZR (mm d) * theta - momega d * t + mphase d).
Lemma wave_wrap : forall E (d : mode E) a x theta t, wave d a (wrap2 x) theta t = wave d a x theta t.
Proof.
  intros E d a x theta t. unfold wave. f_equal.
  pose proof (phase_turns (mn d) x (- IZR (mm d) * theta - momega d * t + mphase d)) as [A _].
  replace (IZR (mn d) * wrap2 x - IZR (mm d) * theta - momega d * t + mphase d) with (IZR (mn d) * wrap2 x + (- IZR (mm d) * theta - momega d * t + mphase d)) by ring.
  rewrite A. f_equal. ring.
Qed.
Lemma wave_d : forall E (d : mode E) a zeta theta t s a' zeta' theta' t', Dx a s a' -> Dx zeta s zeta' -> Dx theta s theta' -> Dx t s t' ->
  let x := IZR (mn d) * zeta s - IZR (mm d) * theta s - momega d * t s + mphase d in
  Dx (fun u => wave d (a u) (zeta u) (theta u) (t u)) s
     (mamp d * (a' * cos x + a s * sin x * (IZR (mm d) * theta' - IZR (mn d) * zeta' + momega d * t'))).
Proof.
  intros E d a zeta theta t s a' zeta' theta' t' A B C D x. unfold wave.
  eapply d_eq; [apply d_mult; [apply d_mult; [apply d_const|exact A]|apply d_cos; apply d_plus; [apply d_minus; [apply d_minus; [apply d_mult; [apply d_const|exact B]|apply d_mult; [apply d_const|exact C]]|apply d_mult; [apply d_const|exact D]]|apply d_const]]|].
  cbv beta. fold x. ring.
Qed.
Lemma sumL_d : forall A (f : A -> R -> R) (g : A -> R) s l, (forall x, In x l -> Dx (f x) s (g x)) -> Dx (fun u => sumL (fun x => f x u) l) s (sumL g l).
Proof.
  intros A f g s. induction l as [|x l IH]; intros H; [exact (d_const 0 s)|].
  change (Dx (fun u => f x u + sumL (fun x => f x u) l) s (g x + sumL g l)). apply d_plus; [apply H; left; auto|]. apply IH. intros y Y. apply H. right. auto.
Qed.
Lemma sumL_ext : forall A (f g : A -> R) l, (forall x, In x l -> f x = g x) -> sumL f l = sumL g l.
Proof. intros A f g. induction l as [|x l IH]; intros H; [reflexivity|]. cbn. rewrite H by (left; auto). f_equal. apply IH. intros; apply H; right; auto. Qed.
Lemma sumL_lin : forall A (f g h k w : A -> R) a b c d l, (forall x, In x l -> w x = a * f x + b * g x + c * h x + d * k x) ->
  sumL w l = a * sumL f l + b * sumL g l + c * sumL h l + d * sumL k l.
Proof. intros A f g h k w a b c d. induction l as [|x l IH]; intros H; [cbn; ring|]. cbn. rewrite H by (left; auto). fold (sumL w l). rewrite IH by (intros; apply H; right; auto). unfold sumL. ring. Qed.

Lemma sumL_lin5 : forall A (f g h k e w : A -> R) a b c d j l, (forall x, In x l -> w x = a * f x + b * g x + c * h x + d * k x + j * e x) ->
  sumL w l = a * sumL f l + b * sumL g l + c * sumL h l + d * sumL k l + j * sumL e l.
Proof. intros A f g h k e w a b c d j. induction l as [|x l IH]; intros H; [cbn; ring|]. cbn. rewrite H by (left; auto). fold (sumL w l). rewrite IH by (intros; apply H; right; auto). unfold sumL. ring. Qed.

Section eval.
Variable inpoly : R -> R -> bool.
Variable evalpsi : R -> R -> R -> R -> Z * arr.
Variable evalrho : R -> Z * arr.
Variable axis : R -> Z * arr.
Variables thspl nuspl : R -> R -> bool * arr.
Variables psimin psimax : R.
Notation boozer_eval := (boozer_eval inpoly evalpsi evalrho axis thspl nuspl psimin psimax).
Notation mhd_eval_gen := (mhd_eval_gen inpoly evalpsi evalrho axis thspl nuspl psimin psimax).

(** the inputs as functions of the position *)
Definition psi_f (r f z : R) : R := snd (evalpsi r f z 0) 0%nat.
Definition th_f (x y : R) : R := snd (thspl x y) 0%nat.
Definition nu_f (x y : R) : R := snd (nuspl x y) 0%nat.
Definition rho_f (x : R) : R := snd (evalrho x) 0%nat.
Definition theta_f (r0 z0 r f z : R) : R := th_f (psi_f r f z) (thgeo (r - r0) (z - z0)).
Definition zeta_f (r0 z0 r f z : R) : R := f + nu_f (psi_f r f z) (theta_f r0 z0 r f z).

(** a position where every input can be evaluated *)
Definition covered (r0 z0 r f z : R) : Prop :=
  inpoly r z = true /\ fst (evalpsi r f z 0) = 0%Z /\ fst (evalrho (psi_f r f z)) = 0%Z /\
  fst (axis f) = 0%Z /\ snd (axis f) 0%nat = r0 /\ snd (axis f) 1%nat = z0 /\
  psimin < psi_f r f z < psimax /\ fst (thspl (psi_f r f z) (thgeo (r - r0) (z - z0))) = false /\
  fst (nuspl (psi_f r f z) (theta_f r0 z0 r f z)) = false /\ (r - r0 <> 0 \/ z - z0 <> 0).

Lemma boozer_covered : forall junk r0 z0 r f z, covered r0 z0 r f z -> exists p,
  boozer_eval junk r f z = Some (0%Z, true, p) /\ p 0%nat = psi_f r f z /\ p 4%nat = theta_f r0 z0 r f z /\ p 8%nat = wrap2 (zeta_f r0 z0 r f z) /\
  let psi := snd (evalpsi r f z 0) in let th := snd (thspl (psi_f r f z) (thgeo (r - r0) (z - z0))) in let nu := snd (nuspl (psi_f r f z) (theta_f r0 z0 r f z)) in
  let a2 := (r - r0) * (r - r0) + (z - z0) * (z - z0) in
  p 1%nat = psi 1%nat /\ p 2%nat = 0 /\ p 3%nat = psi 3%nat /\
  p 5%nat = th 1%nat * psi 1%nat + th 2%nat * (- (z - z0) / a2) /\ p 6%nat = 0 /\ p 7%nat = th 1%nat * psi 3%nat + th 2%nat * ((r - r0) / a2) /\
  p 9%nat = nu 1%nat * psi 1%nat + nu 2%nat * p 5%nat /\ p 10%nat = 1 /\ p 11%nat = nu 1%nat * psi 3%nat + nu 2%nat * p 7%nat.
Proof.
  intros junk r0 z0 r f z (A & B & C & D & E & F & G & H & I & J). unfold MhdModel.boozer_eval. rewrite A.
  unfold zeta_f, nu_f, theta_f, th_f, psi_f in *. destruct (evalpsi r f z 0) as [e psi]. cbn [fst snd] in *. subst e. cbn [Z.eqb]. rewrite C. cbn [Z.eqb].
  destruct (axis f) as [e rz]. cbn [fst snd] in *. subst e. rewrite E, F. cbn [Z.eqb andb]. unfold ltb.
  destruct (Rlt_dec (psi 0%nat) psimax); [|lra]. destruct (Rlt_dec psimin (psi 0%nat)); [|lra]. cbn [andb].
  fold (thgeo (r - r0) (z - z0)). destruct (thspl (psi 0%nat) (thgeo (r - r0) (z - z0))) as [e1 th]. cbn [fst snd] in *. subst e1.
  destruct (nuspl (psi 0%nat) (th 0%nat)) as [e2 nu] eqn:NU. cbn [fst snd] in *. subst e2.
  unfold is0. destruct (Req_EM_T _ 0) as [Z0|Z0]. { exfalso. assert (0 < (r - r0) * (r - r0) + (z - z0) * (z - z0)) by (apply sumsq_nz; auto). lra. }
  cbn [orb]. eexists. split; [reflexivity|]. cbn [ptz_of]. repeat split; auto.
Qed.

(** the inputs are differentiable at the position and report their derivatives; off the half line where the angle starts *)
Record smooth (r0 z0 r f z : R) : Prop := Smooth {
  sm_psi : diff3 psi_f r f z (snd (evalpsi r f z 0) 1%nat) (snd (evalpsi r f z 0) 2%nat) (snd (evalpsi r f z 0) 3%nat);
  sm_th : diff2 th_f (psi_f r f z) (thgeo (r - r0) (z - z0)) (snd (thspl (psi_f r f z) (thgeo (r - r0) (z - z0))) 1%nat) (snd (thspl (psi_f r f z) (thgeo (r - r0) (z - z0))) 2%nat);
  sm_nu : diff2 nu_f (psi_f r f z) (theta_f r0 z0 r f z) (snd (nuspl (psi_f r f z) (theta_f r0 z0 r f z)) 1%nat) (snd (nuspl (psi_f r f z) (theta_f r0 z0 r f z)) 2%nat);
  sm_rho : Dx rho_f (psi_f r f z) (snd (evalrho (psi_f r f z)) 1%nat);
  sm_cut : z - z0 <> 0 \/ r - r0 < 0 }.
Definition near_covered (r0 z0 r f z : R) : Prop := near4 r f z 0 (fun r f z _ => covered r0 z0 r f z).

Lemma theta_diff : forall r0 z0 r f z, smooth r0 z0 r f z ->
  let psi := snd (evalpsi r f z 0) in let th := snd (thspl (psi_f r f z) (thgeo (r - r0) (z - z0))) in
  let a2 := (r - r0) * (r - r0) + (z - z0) * (z - z0) in
  diff3 (theta_f r0 z0) r f z (th 1%nat * psi 1%nat + th 2%nat * (- (z - z0) / a2)) (th 1%nat * psi 2%nat) (th 1%nat * psi 3%nat + th 2%nat * ((r - r0) / a2)).
Proof.
  intros r0 z0 r f z [P T N _ C] psi th a2 cr cf cz s r' f' z' E1 E2 E3 D1 D2 D3. subst r f z.
  assert (S1 : Dx (fun u => cr u - r0) s r') by (eapply d_eq; [apply d_minus; [exact D1|apply d_const]|ring]).
  assert (S3 : Dx (fun u => cz u - z0) s z') by (eapply d_eq; [apply d_minus; [exact D3|apply d_const]|ring]).
  unfold theta_f. eapply d_eq; [apply (T (fun u => psi_f (cr u) (cf u) (cz u)) (fun u => thgeo (cr u - r0) (cz u - z0))); auto|].
  - apply P; eauto.
  - apply (thgeo_diff _ _ C (fun u => cr u - r0) (fun u => cz u - z0)); first [reflexivity|eassumption].
  - fold psi th. fold a2. ring.
Qed.
Lemma zeta_diff : forall r0 z0 r f z, smooth r0 z0 r f z ->
  let psi := snd (evalpsi r f z 0) in let th := snd (thspl (psi_f r f z) (thgeo (r - r0) (z - z0))) in let nu := snd (nuspl (psi_f r f z) (theta_f r0 z0 r f z)) in
  let a2 := (r - r0) * (r - r0) + (z - z0) * (z - z0) in
  diff3 (zeta_f r0 z0) r f z (nu 1%nat * psi 1%nat + nu 2%nat * (th 1%nat * psi 1%nat + th 2%nat * (- (z - z0) / a2)))
    (1 + (nu 1%nat + nu 2%nat * th 1%nat) * psi 2%nat) (nu 1%nat * psi 3%nat + nu 2%nat * (th 1%nat * psi 3%nat + th 2%nat * ((r - r0) / a2))).
Proof.
  intros r0 z0 r f z S psi th nu a2 cr cf cz s r' f' z' E1 E2 E3 D1 D2 D3. pose proof (theta_diff _ _ _ _ _ S) as TD. cbv zeta in TD. destruct S as [P T N _ C]. subst r f z.
  unfold zeta_f. eapply d_eq; [apply d_plus; [exact D2|apply (N (fun u => psi_f (cr u) (cf u) (cz u)) (fun u => theta_f r0 z0 (cr u) (cf u) (cz u))); auto]|].
  - apply P; eauto.
  - apply TD; eauto.
  - fold psi th nu. fold a2. ring.
Qed.

(** reported coordinates as functions of the position *)
Definition ptz_f (junk : arr) (k : nat) (r f z : R) : R := match boozer_eval junk r f z with Some (_, _, p) => p k | None => 0 end.
Lemma wrap2_unique : forall x k, 0 <= x + 2 * PI * IZR k < 2 * PI -> wrap2 x = x + 2 * PI * IZR k.
Proof.
  intros x k H. destruct (wrap2_congr x) as [j J]. pose proof (wrap2_range x) as W. rewrite J in *. pose proof PI_RGT_0 as P.
  assert (A : 2 * PI * (IZR j - IZR k) < 2 * PI * 1) by lra. assert (B : 2 * PI * -1 < 2 * PI * (IZR j - IZR k)) by lra.
  apply Rmult_lt_reg_l in A; [|lra]. apply Rmult_lt_reg_l in B; [|lra]. rewrite <- minus_IZR in A, B.
  apply (lt_IZR _ 1) in A. apply (lt_IZR (-1)) in B. replace j with k by lia. reflexivity.
Qed.
Lemma wrap2_d : forall g s l, Dx g s l -> wrap2 (g s) <> 0 -> Dx (fun u => wrap2 (g u)) s l.
Proof.
  intros g s l D N. destruct (wrap2_congr (g s)) as [k K]. pose proof (wrap2_range (g s)) as W.
  assert (P : 0 < Rmin (wrap2 (g s)) (2 * PI - wrap2 (g s))) by (apply Rmin_glb_lt; lra).
  apply (d_near (fun u => g u + 2 * PI * IZR k)).
  - eapply near_imp; [|apply (near_close g s l _ D P)]. cbv beta. intros u U. symmetry. apply wrap2_unique.
    pose proof (Rmin_l (wrap2 (g s)) (2 * PI - wrap2 (g s))). pose proof (Rmin_r (wrap2 (g s)) (2 * PI - wrap2 (g s))). apply Rabs_def2 in U. lra.
  - eapply d_eq; [apply d_plus; [exact D|apply d_const]|ring].
Qed.
Lemma boozer_gradients : forall junk r0 z0 r f z, near_covered r0 z0 r f z -> smooth r0 z0 r f z -> snd (evalpsi r f z 0) 2%nat = 0 ->
  let p := fun k => ptz_f junk k r f z in
  diff3 (ptz_f junk 0) r f z (p 1%nat) (p 2%nat) (p 3%nat) /\
  diff3 (ptz_f junk 4) r f z (p 5%nat) (p 6%nat) (p 7%nat) /\
  (p 8%nat <> 0 -> diff3 (ptz_f junk 8) r f z (p 9%nat) (p 10%nat) (p 11%nat)).
Proof.
  intros junk r0 z0 r f z NC S AX p.
  assert (V : forall r f z, covered r0 z0 r f z -> ptz_f junk 0 r f z = psi_f r f z /\ ptz_f junk 4 r f z = theta_f r0 z0 r f z /\ ptz_f junk 8 r f z = wrap2 (zeta_f r0 z0 r f z)).
  { intros r1 f1 z1 C. destruct (boozer_covered junk _ _ _ _ _ C) as (q & Q & A & B & D & _). unfold ptz_f. rewrite Q. auto. }
  pose proof (near4_here _ _ _ _ _ NC) as C0. destruct (boozer_covered junk _ _ _ _ _ C0) as (q & Q & A0 & A4 & A8 & R). cbv zeta in R.
  assert (PQ : forall k, p k = q k) by (intros k; unfold p, ptz_f; rewrite Q; reflexivity). rewrite !PQ.
  destruct R as (Q1 & Q2 & Q3 & Q5 & Q6 & Q7 & Q9 & Q10 & Q11).
  assert (NV : forall cr cf cz s r' f' z', cr s = r -> cf s = f -> cz s = z -> Dx cr s r' -> Dx cf s f' -> Dx cz s z' -> near s (fun u => covered r0 z0 (cr u) (cf u) (cz u))).
  { intros cr cf cz s r' f' z' E1 E2 E3 D1 D2 D3. subst r f z. apply (near_curve (fun r f z _ => covered r0 z0 r f z) cr cf cz (fun _ => 0) s r' f' z' 0); auto. apply d_const. }
  split; [|split].
  - intros cr cf cz s r' f' z' E1 E2 E3 D1 D2 D3. apply (d_near (fun u => psi_f (cr u) (cf u) (cz u))).
    + eapply near_imp; [|eapply NV; eauto]. cbv beta. intros u U. symmetry. apply V. auto.
    + eapply d_eq; [apply (sm_psi _ _ _ _ _ S); eauto|]. rewrite Q1, Q2, Q3, AX. reflexivity.
  - intros cr cf cz s r' f' z' E1 E2 E3 D1 D2 D3. apply (d_near (fun u => theta_f r0 z0 (cr u) (cf u) (cz u))).
    + eapply near_imp; [|eapply NV; eauto]. cbv beta. intros u U. symmetry. apply V. auto.
    + pose proof (theta_diff _ _ _ _ _ S) as TD. cbv zeta in TD. eapply d_eq; [apply TD; eauto|]. rewrite Q5, Q6, Q7, AX. ring.
  - intros N cr cf cz s r' f' z' E1 E2 E3 D1 D2 D3. apply (d_near (fun u => wrap2 (zeta_f r0 z0 (cr u) (cf u) (cz u)))).
    + eapply near_imp; [|eapply NV; eauto]. cbv beta. intros u U. symmetry. apply V. auto.
    + pose proof (zeta_diff _ _ _ _ _ S) as TD. cbv zeta in TD. apply (wrap2_d (fun u => zeta_f r0 z0 (cr u) (cf u) (cz u))).
      * eapply d_eq; [apply TD; eauto|]. rewrite Q9, Q10, Q11, Q5, Q7, AX. ring.
      * rewrite E1, E2, E3. rewrite <- A8. auto.
Qed.
Lemma boozer_ranges : forall junk r0 z0 r f z, covered r0 z0 r f z ->
  0 <= ptz_f junk 8 r f z < 2 * PI /\ exists k, ptz_f junk 8 r f z = zeta_f r0 z0 r f z + 2 * PI * IZR k.
Proof.
  intros junk r0 z0 r f z C. destruct (boozer_covered junk _ _ _ _ _ C) as (q & Q & _ & _ & D & _). unfold ptz_f. rewrite Q, D. split; [apply wrap2_range|apply wrap2_congr].
Qed.

(** *** Perturbation potentials *)
(** the part of the toroidal derivative that is left out when the flux depends on the toroidal angle *)
Definition left_out {E} (d : mode E) (a th nu : arr) (rho1 x : R) : R :=
  mamp d * (a 1%nat * rho1 * cos x + a 0%nat * sin x * (IZR (mm d) * th 1%nat - IZR (mn d) * (nu 1%nat + nu 2%nat * th 1%nat))).

Lemma mode_diff : forall E (d : mode E) (A : R -> R -> arr) r0 z0 r f z t p,
  smooth r0 z0 r f z -> r <> 0 ->
  let psi := snd (evalpsi r f z 0) in let th := snd (thspl (psi_f r f z) (thgeo (r - r0) (z - z0))) in let nu := snd (nuspl (psi_f r f z) (theta_f r0 z0 r f z)) in
  let a2 := (r - r0) * (r - r0) + (z - z0) * (z - z0) in
  p 1%nat = psi 1%nat -> p 2%nat = 0 -> p 3%nat = psi 3%nat ->
  p 5%nat = th 1%nat * psi 1%nat + th 2%nat * (- (z - z0) / a2) -> p 6%nat = 0 -> p 7%nat = th 1%nat * psi 3%nat + th 2%nat * ((r - r0) / a2) ->
  p 9%nat = nu 1%nat * psi 1%nat + nu 2%nat * p 5%nat -> p 10%nat = 1 -> p 11%nat = nu 1%nat * psi 3%nat + nu 2%nat * p 7%nat ->
  p 4%nat = theta_f r0 z0 r f z -> p 8%nat = wrap2 (zeta_f r0 z0 r f z) ->
  let rho := rho_f (psi_f r f z) in let rho1 := snd (evalrho (psi_f r f z)) 1%nat in let a := A rho t in
  diff2 (fun x t => A x t 0%nat) rho t (a 1%nat) (a 2%nat) ->
  let T := nonstat_terms d a a rho1 p r t in
  diff4 (fun r f z t => wave d (A (rho_f (psi_f r f z)) t 0%nat) (zeta_f r0 z0 r f z) (theta_f r0 z0 r f z) t) r f z t
    (T 2%nat) (r * T 3%nat + psi 2%nat * left_out d a th nu rho1 (mhdarg d p t)) (T 4%nat) (T 1%nat).
Proof.
  intros E d A r0 z0 r f z t p S R psi th nu a2 P1 P2 P3 P5 P6 P7 P9 P10 P11 P4 P8 rho rho1 a DA T cr cf cz ct s r' f' z' t' E1 E2 E3 E4 D1 D2 D3 D4.
  pose proof (theta_diff _ _ _ _ _ S) as TD. pose proof (zeta_diff _ _ _ _ _ S) as ZD. cbv zeta in TD, ZD. fold psi th nu a2 in TD, ZD.
  pose proof (sm_psi _ _ _ _ _ S cr cf cz s r' f' z' E1 E2 E3 D1 D2 D3) as PD. fold psi in PD.
  specialize (TD cr cf cz s r' f' z' E1 E2 E3 D1 D2 D3). specialize (ZD cr cf cz s r' f' z' E1 E2 E3 D1 D2 D3).
  assert (RD : Dx (fun u => rho_f (psi_f (cr u) (cf u) (cz u))) s (rho1 * (psi 1%nat * r' + psi 2%nat * f' + psi 3%nat * z'))).
  { apply (d_comp (fun u => psi_f (cr u) (cf u) (cz u)) rho_f); auto. rewrite E1, E2, E3. apply (sm_rho _ _ _ _ _ S). }
  assert (AD : Dx (fun u => A (rho_f (psi_f (cr u) (cf u) (cz u))) (ct u) 0%nat) s (a 1%nat * (rho1 * (psi 1%nat * r' + psi 2%nat * f' + psi 3%nat * z')) + a 2%nat * t')).
  { apply (DA (fun u => rho_f (psi_f (cr u) (cf u) (cz u))) ct); auto. rewrite E1, E2, E3. reflexivity. }
  pose proof (wave_d E d _ _ _ _ s _ _ _ _ AD ZD TD D4) as W. cbv zeta beta in W. rewrite E1, E2, E3, E4 in W. fold rho in W. fold a in W.
  set (x := IZR (mn d) * zeta_f r0 z0 r f z - IZR (mm d) * theta_f r0 z0 r f z - momega d * t + mphase d) in W.
  assert (X : cos (mhdarg d p t) = cos x /\ sin (mhdarg d p t) = sin x).
  { unfold mhdarg. rewrite P8, P4. pose proof (phase_turns (mn d) (zeta_f r0 z0 r f z) (- IZR (mm d) * theta_f r0 z0 r f z - momega d * t + mphase d)) as [X1 X2].
    set (w := wrap2 (zeta_f r0 z0 r f z)) in *. clearbody w. unfold x.
    replace (IZR (mn d) * w - IZR (mm d) * theta_f r0 z0 r f z - momega d * t + mphase d) with (IZR (mn d) * w + (- IZR (mm d) * theta_f r0 z0 r f z - momega d * t + mphase d)) by ring.
    rewrite X1, X2. split; f_equal; ring. }
  eapply d_eq; [exact W|]. unfold T, nonstat_terms, stat_terms, grad1, left_out. cbn [Nat.add]. destruct X as [-> ->].
  rewrite P11, P9, P10, P7, P5, P1, P2, P3, P6. clearbody x.
  assert (a2 <> 0). { assert (0 < a2); [|lra]. apply sumsq_nz. destruct (sm_cut _ _ _ _ _ S); [auto|left; lra]. }
  field. auto.
Qed.

(** outputs as functions of the position and time *)
Definition out_f {E} (f : arr -> arr -> R -> R -> mode E -> bool * arr) (junk jrho : arr) (ds : list (mode E)) (inc : Z) (k : nat) (r ph z t : R) : R :=
  match mhd_eval_gen f junk jrho ds r ph z t inc with Some (_, o) => o k | None => 0 end.
(** the perturbation is defined here: coordinates and the profiles of the chosen modes *)
Definition stat_covered (r0 z0 : R) (ms : list (mode seig)) (r f z t : R) : Prop :=
  covered r0 z0 r f z /\ forall d, In d ms -> fst (malpha d (rho_f (psi_f r f z))) = false /\ fst (mphi d (rho_f (psi_f r f z))) = false.
Definition nonstat_covered (r0 z0 : R) (ms : list (mode neig)) (r f z t : R) : Prop :=
  covered r0 z0 r f z /\ forall d, In d ms -> fst (malpha d (rho_f (psi_f r f z)) t) = false /\ fst (mphi d (rho_f (psi_f r f z)) t) = false.

Lemma eval_covered : forall E g junk jrho (ds : list (mode E)) inc r0 z0 r f z t, covered r0 z0 r f z ->
  exists p, boozer_eval junk r f z = Some (0%Z, true, p) /\
  (forall k, out_f g junk jrho ds inc k r f z t =
    if existsb (fun d => fst (g p (snd (evalrho (psi_f r f z))) r t d)) (chosen inc 0 ds) then 0
    else sumL (fun d => snd (g p (snd (evalrho (psi_f r f z))) r t d) k) (chosen inc 0 ds)) /\
  exists o, mhd_eval_gen g junk jrho ds r f z t inc = Some (0%Z, o).
Proof.
  intros E g junk jrho ds inc r0 z0 r f z t C. destruct (boozer_covered junk _ _ _ _ _ C) as (p & Q & A0 & _). exists p. split; auto.
  unfold out_f, MhdModel.mhd_eval_gen. rewrite Q. cbn [Z.eqb andb]. rewrite A0. destruct C as (_ & _ & C & _).
  destruct (evalrho (psi_f r f z)) as [e rho]. cbn [fst snd] in *. subst e.
  destruct (loop_spec E (g p rho r t) inc ds 0 (false, fun _ => 0)) as [L1 L2].
  destruct (modes_loop (g p rho r t) inc 0 ds (false, fun _ => 0)) as [ie o]. cbn [fst snd orb negb] in *. split; [|eexists; reflexivity].
  intros k. rewrite <- L1. destruct ie; auto. rewrite L2. ring.
Qed.
Lemma existsb_none : forall A (f : A -> bool) l, (forall x, In x l -> f x = false) -> existsb f l = false.
Proof. intros A f. induction l; intros H; cbn; auto. rewrite H by (left; auto). apply IHl. intros; apply H; right; auto. Qed.

Lemma nonstat_mode_eq : forall p rho r t d, nonstat_mode p rho r t d =
  ((fst (malpha d (rho 0%nat) t) || fst (mphi d (rho 0%nat) t))%bool, nonstat_terms d (snd (malpha d (rho 0%nat) t)) (snd (mphi d (rho 0%nat) t)) (rho 1%nat) p r t).
Proof. intros p rho r t d. unfold nonstat_mode. destruct (malpha d (rho 0%nat) t), (mphi d (rho 0%nat) t). reflexivity. Qed.
Lemma stat_mode_eq : forall p rho r t d, stat_mode p rho r t d =
  ((fst (malpha d (rho 0%nat)) || fst (mphi d (rho 0%nat)))%bool, stat_terms d (snd (malpha d (rho 0%nat))) (snd (mphi d (rho 0%nat))) (rho 1%nat) p r t).
Proof. intros p rho r t d. unfold stat_mode. destruct (malpha d (rho 0%nat)), (mphi d (rho 0%nat)). reflexivity. Qed.
Lemma nonstat_gradients_gen : forall junk jrho ds inc r0 z0 r f z t, let ms := chosen inc 0 ds in
  near4 r f z t (nonstat_covered r0 z0 ms) -> smooth r0 z0 r f z -> r <> 0 ->
  let rho := rho_f (psi_f r f z) in
  (forall d, In d ms -> diff2 (fun x t => snd (malpha d x t) 0%nat) rho t (snd (malpha d rho t) 1%nat) (snd (malpha d rho t) 2%nat) /\
                        diff2 (fun x t => snd (mphi d x t) 0%nat) rho t (snd (mphi d rho t) 1%nat) (snd (mphi d rho t) 2%nat)) ->
  let o := fun k => out_f nonstat_mode junk jrho ds inc k in
  let x := fun d : mode neig => IZR (mn d) * zeta_f r0 z0 r f z - IZR (mm d) * theta_f r0 z0 r f z - momega d * t + mphase d in
  let lo := fun (q : mode neig -> neig) => snd (evalpsi r f z 0) 2%nat * sumL (fun d => left_out d (snd (q d rho t)) (snd (thspl (psi_f r f z) (thgeo (r - r0) (z - z0)))) (snd (nuspl (psi_f r f z) (theta_f r0 z0 r f z)))
    (snd (evalrho (psi_f r f z)) 1%nat) (x d)) ms in
  diff4 (o 0%nat) r f z t (o 2%nat r f z t) (r * o 3%nat r f z t + lo malpha) (o 4%nat r f z t) (o 1%nat r f z t) /\
  diff4 (o 5%nat) r f z t (o 7%nat r f z t) (r * o 8%nat r f z t + lo mphi) (o 9%nat r f z t) (o 6%nat r f z t).
Proof.
  intros junk jrho ds inc r0 z0 r f z t ms NC S R rho DM o x lo.
  pose proof (near4_here _ _ _ _ _ NC) as C0.
  assert (OUT : forall r f z t, nonstat_covered r0 z0 ms r f z t -> exists p, boozer_eval junk r f z = Some (0%Z, true, p) /\
     forall k, o k r f z t = sumL (fun d => nonstat_terms d (snd (malpha d (rho_f (psi_f r f z)) t)) (snd (mphi d (rho_f (psi_f r f z)) t)) (snd (evalrho (psi_f r f z)) 1%nat) p r t k) ms).
  { intros r1 f1 z1 t1 [C M]. destruct (eval_covered neig nonstat_mode junk jrho ds inc _ _ _ _ _ t1 C) as (p & Q & O & _). exists p. split; auto. intros k. unfold o. rewrite O. fold ms.
    rewrite existsb_none.
    - apply sumL_ext. intros d D. rewrite nonstat_mode_eq. reflexivity.
    - intros d D. destruct (M d D) as [M1 M2]. rewrite nonstat_mode_eq. fold (rho_f (psi_f r1 f1 z1)). cbn [fst]. now rewrite M1, M2. }
  destruct (OUT _ _ _ _ C0) as (p & Q & O0). destruct C0 as [C0 _].
  destruct (boozer_covered junk _ _ _ _ _ C0) as (p' & Q' & A0 & A4 & A8 & PR). assert (p' = p) by congruence. subst p'. cbv zeta in PR.
  destruct PR as (P1 & P2 & P3 & P5 & P6 & P7 & P9 & P10 & P11).
  assert (WV : forall r f z t, nonstat_covered r0 z0 ms r f z t ->
     o 0%nat r f z t = sumL (fun d => wave d (snd (malpha d (rho_f (psi_f r f z)) t) 0%nat) (zeta_f r0 z0 r f z) (theta_f r0 z0 r f z) t) ms /\
     o 5%nat r f z t = sumL (fun d => wave d (snd (mphi d (rho_f (psi_f r f z)) t) 0%nat) (zeta_f r0 z0 r f z) (theta_f r0 z0 r f z) t) ms).
  { intros r1 f1 z1 t1 C. destruct (OUT _ _ _ _ C) as (p1 & Q1 & O1). destruct C as [C _]. destruct (boozer_covered junk _ _ _ _ _ C) as (p2 & Q2 & _ & B4 & B8 & _).
    assert (p2 = p1) by congruence. subst p2. split; rewrite O1; apply sumL_ext; intros d D; rewrite <- wave_wrap; unfold nonstat_terms, stat_terms, wave, mhdarg; rewrite B4, B8; ring. }
  assert (NV : forall cr cf cz ct s r' f' z' t', cr s = r -> cf s = f -> cz s = z -> ct s = t -> Dx cr s r' -> Dx cf s f' -> Dx cz s z' -> Dx ct s t' -> near s (fun u => nonstat_covered r0 z0 ms (cr u) (cf u) (cz u) (ct u))).
  { intros cr cf cz ct s r' f' z' t' E1 E2 E3 E4 D1 D2 D3 D4. subst r f z t. eapply near_curve; eauto. }
  assert (XL : forall (d : mode neig) a th nu rho1, left_out d a th nu rho1 (x d) = left_out d a th nu rho1 (mhdarg d p t)).
  { intros d a th nu rho1. unfold left_out, mhdarg, x. rewrite A8, A4.
    pose proof (phase_turns (mn d) (zeta_f r0 z0 r f z) (- IZR (mm d) * theta_f r0 z0 r f z - momega d * t + mphase d)) as [X1 X2].
    set (w := wrap2 (zeta_f r0 z0 r f z)) in *. clearbody w.
    replace (IZR (mn d) * w - IZR (mm d) * theta_f r0 z0 r f z - momega d * t + mphase d) with (IZR (mn d) * w + (- IZR (mm d) * theta_f r0 z0 r f z - momega d * t + mphase d)) by ring.
    rewrite X1, X2. replace (IZR (mn d) * zeta_f r0 z0 r f z + (- IZR (mm d) * theta_f r0 z0 r f z - momega d * t + mphase d)) with (IZR (mn d) * zeta_f r0 z0 r f z - IZR (mm d) * theta_f r0 z0 r f z - momega d * t + mphase d) by ring. reflexivity. }
  split; intros cr cf cz ct s r' f' z' t' E1 E2 E3 E4 D1 D2 D3 D4.
  - eapply d_near; [eapply near_imp; [|eapply NV; eauto]; cbv beta; intros u U; symmetry; apply (WV _ _ _ _ U)|].
    eapply d_eq; [apply (sumL_d _ (fun d u => wave d (snd (malpha d (rho_f (psi_f (cr u) (cf u) (cz u))) (ct u)) 0%nat) (zeta_f r0 z0 (cr u) (cf u) (cz u)) (theta_f r0 z0 (cr u) (cf u) (cz u)) (ct u))); intros d D; destruct (DM d D) as [DD _];
      apply (mode_diff neig d (fun x t => snd (malpha d x t)) r0 z0 r f z t p S R P1 P2 P3 P5 P6 P7 P9 P10 P11 A4 A8 DD cr cf cz ct s r' f' z' t' E1 E2 E3 E4 D1 D2 D3 D4)|].
    rewrite !O0. unfold lo. set (KK := snd (evalpsi r f z 0) 2%nat).
    match goal with |- _ = ?A1 * r' + (r * ?A2 + KK * ?A3) * f' + ?A4 * z' + ?A5 * t' => transitivity (r' * A1 + (r * f') * A2 + z' * A4 + t' * A5 + (KK * f') * A3); [|ring] end.
    apply sumL_lin5. intros d D. rewrite (XL d). unfold nonstat_terms, stat_terms. unfold rho, neig in *. fold KK. field; exact R.
  - eapply d_near; [eapply near_imp; [|eapply NV; eauto]; cbv beta; intros u U; symmetry; apply (WV _ _ _ _ U)|].
    eapply d_eq; [apply (sumL_d _ (fun d u => wave d (snd (mphi d (rho_f (psi_f (cr u) (cf u) (cz u))) (ct u)) 0%nat) (zeta_f r0 z0 (cr u) (cf u) (cz u)) (theta_f r0 z0 (cr u) (cf u) (cz u)) (ct u))); intros d D; destruct (DM d D) as [_ DD];
      apply (mode_diff neig d (fun x t => snd (mphi d x t)) r0 z0 r f z t p S R P1 P2 P3 P5 P6 P7 P9 P10 P11 A4 A8 DD cr cf cz ct s r' f' z' t' E1 E2 E3 E4 D1 D2 D3 D4)|].
    rewrite !O0. unfold lo. set (KK := snd (evalpsi r f z 0) 2%nat).
    match goal with |- _ = ?A1 * r' + (r * ?A2 + KK * ?A3) * f' + ?A4 * z' + ?A5 * t' => transitivity (r' * A1 + (r * f') * A2 + z' * A4 + t' * A5 + (KK * f') * A3); [|ring] end.
    apply sumL_lin5. intros d D. rewrite (XL d). unfold nonstat_terms, stat_terms. unfold rho, neig in *. fold KK. field; exact R.
Qed.
Lemma nonstat_gradients : forall junk jrho ds inc r0 z0 r f z t, let ms := chosen inc 0 ds in
  near4 r f z t (nonstat_covered r0 z0 ms) -> smooth r0 z0 r f z -> r <> 0 -> snd (evalpsi r f z 0) 2%nat = 0 ->
  let rho := rho_f (psi_f r f z) in
  (forall d, In d ms -> diff2 (fun x t => snd (malpha d x t) 0%nat) rho t (snd (malpha d rho t) 1%nat) (snd (malpha d rho t) 2%nat) /\
                        diff2 (fun x t => snd (mphi d x t) 0%nat) rho t (snd (mphi d rho t) 1%nat) (snd (mphi d rho t) 2%nat)) ->
  let o := fun k => out_f nonstat_mode junk jrho ds inc k in
  diff4 (o 0%nat) r f z t (o 2%nat r f z t) (r * o 3%nat r f z t) (o 4%nat r f z t) (o 1%nat r f z t) /\
  diff4 (o 5%nat) r f z t (o 7%nat r f z t) (r * o 8%nat r f z t) (o 9%nat r f z t) (o 6%nat r f z t).
Proof.
  intros junk jrho ds inc r0 z0 r f z t ms NC S R AX rho DM o.
  pose proof (nonstat_gradients_gen junk jrho ds inc r0 z0 r f z t NC S R DM) as G. cbv zeta in G. rewrite AX, !Rmult_0_l, !Rplus_0_r in G. exact G.
Qed.

(** stationary profiles are profiles that do not change *)
Definition lift (a : seig) : neig := fun x _ => (fst (a x), fun k => if Nat.eqb k 2 then 0 else snd (a x) k).
Definition lift_mode (d : mode seig) : mode neig := Mode (mn d) (mm d) (mamp d) (momega d) (mphase d) (lift (malpha d)) (lift (mphi d)).
Lemma lift_terms : forall p rho r t d, fst (nonstat_mode p rho r t (lift_mode d)) = fst (stat_mode p rho r t d) /\
  forall k, snd (nonstat_mode p rho r t (lift_mode d)) k = snd (stat_mode p rho r t d) k.
Proof.
  intros p rho r t d. unfold nonstat_mode, stat_mode, lift_mode, lift, nonstat_terms, stat_terms, grad1, mhdarg. cbn [malpha mphi mn mm mamp momega mphase].
  destruct (malpha d (rho 0%nat)) as [e1 a], (mphi d (rho 0%nat)) as [e2 q]. cbn [fst snd]. split; auto.
  intros k. do 10 (destruct k as [|k]; [cbn [Nat.eqb]; ring|]). reflexivity.
Qed.
Lemma lift_loop : forall p rho r t inc ds i acc acc', fst acc = fst acc' -> (forall k, snd acc k = snd acc' k) ->
  fst (modes_loop (nonstat_mode p rho r t) inc i (map lift_mode ds) acc) = fst (modes_loop (stat_mode p rho r t) inc i ds acc') /\
  forall k, snd (modes_loop (nonstat_mode p rho r t) inc i (map lift_mode ds) acc) k = snd (modes_loop (stat_mode p rho r t) inc i ds acc') k.
Proof.
  intros p rho r t inc. induction ds as [|d ds IH]; intros i acc acc' A B; [cbn; auto|]. cbn [map modes_loop].
  destruct (negb (inc =? MHD_INCLUDE_ALL)%Z && negb (inc =? i)%Z)%bool; [apply IH; auto|].
  destruct (lift_terms p rho r t d) as [L1 L2]. apply IH; cbn [fst snd]; [rewrite A, L1; auto|]. intros k. rewrite B, L2. auto.
Qed.
Lemma stat_is_constant : forall junk jrho ds inc r f z t,
  match mhd_eval_gen nonstat_mode junk jrho (map lift_mode ds) r f z t inc, mhd_eval_gen stat_mode junk jrho ds r f z t inc with
  | Some (e, o), Some (e', o') => e = e' /\ forall k, o k = o' k
  | None, None => True
  | _, _ => False
  end.
Proof.
  intros junk jrho ds inc r f z t. unfold MhdModel.mhd_eval_gen. destruct (boozer_eval junk r f z) as [[[e ins] p]|]; auto.
  destruct (if ((e =? 0)%Z && ins)%bool then evalrho (p 0%nat) else (e, jrho)) as [e1 rho].
  destruct (lift_loop p rho r t inc ds 0 (false, fun _ => 0) (false, fun _ => 0) eq_refl (fun _ => eq_refl)) as [L1 L2].
  destruct (modes_loop (nonstat_mode p rho r t) inc 0 (map lift_mode ds) (false, fun _ => 0)) as [i1 o1].
  destruct (modes_loop (stat_mode p rho r t) inc 0 ds (false, fun _ => 0)) as [i2 o2]. cbn [fst snd] in *. subst i2. split; auto.
  intros k. destruct (negb ins || i1)%bool; auto.
Qed.
Lemma out_stat : forall junk jrho ds inc k r f z t, out_f stat_mode junk jrho ds inc k r f z t = out_f nonstat_mode junk jrho (map lift_mode ds) inc k r f z t.
Proof.
  intros junk jrho ds inc k r f z t. unfold out_f. pose proof (stat_is_constant junk jrho ds inc r f z t) as H.
  destruct (mhd_eval_gen nonstat_mode junk jrho (map lift_mode ds) r f z t inc) as [[e o]|], (mhd_eval_gen stat_mode junk jrho ds r f z t inc) as [[e' o']|]; try contradiction; auto.
  symmetry. apply H.
Qed.
Lemma chosen_map : forall ds inc i, chosen inc i (map lift_mode ds) = map lift_mode (chosen inc i ds).
Proof. induction ds as [|d ds IH]; intros inc i; [reflexivity|]. cbn [map chosen]. rewrite IH. destruct ((inc =? -1) || (inc =? i))%Z; reflexivity. Qed.

Lemma stat_gradients : forall junk jrho ds inc r0 z0 r f z t, let ms := chosen inc 0 ds in
  near4 r f z t (stat_covered r0 z0 ms) -> smooth r0 z0 r f z -> r <> 0 -> snd (evalpsi r f z 0) 2%nat = 0 ->
  let rho := rho_f (psi_f r f z) in
  (forall d, In d ms -> Dx (fun x => snd (malpha d x) 0%nat) rho (snd (malpha d rho) 1%nat) /\ Dx (fun x => snd (mphi d x) 0%nat) rho (snd (mphi d rho) 1%nat)) ->
  let o := fun k => out_f stat_mode junk jrho ds inc k in
  diff4 (o 0%nat) r f z t (o 2%nat r f z t) (r * o 3%nat r f z t) (o 4%nat r f z t) (o 1%nat r f z t) /\
  diff4 (o 5%nat) r f z t (o 7%nat r f z t) (r * o 8%nat r f z t) (o 9%nat r f z t) (o 6%nat r f z t).
Proof.
  intros junk jrho ds inc r0 z0 r f z t ms NC S R AX rho DM o.
  destruct (nonstat_gradients junk jrho (map lift_mode ds) inc r0 z0 r f z t) as [A B]; auto.
  - rewrite chosen_map. destruct NC as (e & E & NC). exists e. split; auto. intros x1 y1 z1 t1 X1 Y1 Z1 T1. destruct (NC x1 y1 z1 t1 X1 Y1 Z1 T1) as [C M]. split; auto.
    intros d' D. apply in_map_iff in D. destruct D as (d & <- & D). apply M in D. exact D.
  - rewrite chosen_map. intros d' D. apply in_map_iff in D. destruct D as (d & <- & D). destruct (DM d D) as [D1 D2]. fold rho.
    split; intros cx cy s x' y' EX EY DX DY; cbn [lift_mode lift malpha mphi fst snd Nat.eqb].
    + eapply d_eq; [apply (d_comp cx (fun x => snd (malpha d x) 0%nat) s); [exact DX|rewrite EX; exact D1]|]. ring.
    + eapply d_eq; [apply (d_comp cx (fun x => snd (mphi d x) 0%nat) s); [exact DX|rewrite EX; exact D2]|]. ring.
  - unfold o. rewrite !out_stat. split; intros cx cy cz ct s x' y' z' t' E1 E2 E3 E4 D1 D2 D3 D4.
    + eapply d_ext; [|apply (A cx cy cz ct s x' y' z' t'); auto]. intros u. cbv beta. symmetry. apply out_stat.
    + eapply d_ext; [|apply (B cx cy cz ct s x' y' z' t'); auto]. intros u. cbv beta. symmetry. apply out_stat.
Qed.

(** *** What is evaluated, and when zeros come out *)
Lemma mhd_waves : forall junk jrho ds inc r0 z0 r f z t, let ms := chosen inc 0 ds in stat_covered r0 z0 ms r f z t ->
  exists o, mhd_eval_gen stat_mode junk jrho ds r f z t inc = Some (0%Z, o) /\
  let rho := rho_f (psi_f r f z) in
  o 0%nat = sumL (fun d => wave d (snd (malpha d rho) 0%nat) (zeta_f r0 z0 r f z) (theta_f r0 z0 r f z) t) ms /\
  o 5%nat = sumL (fun d => wave d (snd (mphi d rho) 0%nat) (zeta_f r0 z0 r f z) (theta_f r0 z0 r f z) t) ms.
Proof.
  intros junk jrho ds inc r0 z0 r f z t ms [C M]. destruct (eval_covered seig stat_mode junk jrho ds inc _ _ _ _ _ t C) as (p & Q & O & (o & OE)). exists o. split; auto.
  unfold out_f in O. rewrite OE in O. fold ms in O.
  assert (NE : existsb (fun d => fst (stat_mode p (snd (evalrho (psi_f r f z))) r t d)) ms = false).
  { apply existsb_none. intros d D. destruct (M d D) as [M1 M2]. rewrite stat_mode_eq. fold (rho_f (psi_f r f z)). cbn [fst]. now rewrite M1, M2. }
  rewrite NE in O. destruct (boozer_covered junk _ _ _ _ _ C) as (p2 & Q2 & _ & B4 & B8 & _). assert (p2 = p) by congruence. subst p2.
  split; rewrite O; apply sumL_ext; intros d D; rewrite <- wave_wrap; rewrite stat_mode_eq; fold (rho_f (psi_f r f z));
    unfold stat_terms, wave, mhdarg; cbn [snd]; rewrite B4, B8; unfold seig in *; ring.
Qed.
(** outside the tabulated region, or where a profile cannot be evaluated, the outputs are zero whatever the uninitialised arrays held *)
Lemma mhd_outside : forall E g junk jrho (ds : list (mode E)) r f z t inc,
  inpoly r z = false \/ (fst (evalpsi r f z 0) = 0%Z /\ fst (evalrho (psi_f r f z)) = 0%Z /\ fst (axis f) = 0%Z /\ ~ psimin < psi_f r f z < psimax) ->
  exists o, mhd_eval_gen g junk jrho ds r f z t inc = Some (0%Z, o) /\ forall k, o k = 0.
Proof.
  intros E g junk jrho ds r f z t inc H.
  assert (B : boozer_eval junk r f z = Some (0%Z, false, junk)).
  { unfold MhdModel.boozer_eval. destruct H as [->|(A & B & C & D)]; auto. unfold psi_f in *. destruct (inpoly r z); auto.
    destruct (evalpsi r f z 0) as [e psi]. cbn [fst snd] in *. subst e. cbn [Z.eqb]. rewrite B. cbn [Z.eqb]. destruct (axis f) as [e rz]. cbn [fst] in *. subst e. cbn [Z.eqb].
    unfold ltb. destruct (Rlt_dec (psi 0%nat) psimax), (Rlt_dec psimin (psi 0%nat)); cbn [andb]; auto. exfalso. apply D. auto. }
  unfold MhdModel.mhd_eval_gen. rewrite B. cbn [Z.eqb andb]. destruct (modes_loop (g junk jrho r t) inc 0 ds (false, fun _ => 0)). cbn [negb orb]. eexists. split; [reflexivity|]. auto.
Qed.
Lemma profile_outside : forall junk jrho ds inc r0 z0 r f z t d, covered r0 z0 r f z -> In d (chosen inc 0 ds) ->
  fst (malpha d (rho_f (psi_f r f z))) = true \/ fst (mphi d (rho_f (psi_f r f z))) = true ->
  exists o, mhd_eval_gen stat_mode junk jrho ds r f z t inc = Some (0%Z, o) /\ forall k, o k = 0.
Proof.
  intros junk jrho ds inc r0 z0 r f z t d C D H. destruct (eval_covered seig stat_mode junk jrho ds inc _ _ _ _ _ t C) as (p & Q & O & (o & OE)). exists o. split; auto.
  unfold out_f in O. rewrite OE in O. intros k. rewrite O.
  assert (X : existsb (fun d => fst (stat_mode p (snd (evalrho (psi_f r f z))) r t d)) (chosen inc 0 ds) = true).
  2: { unfold seig in *. rewrite X. reflexivity. }
  apply existsb_exists. exists d. split; auto. rewrite stat_mode_eq. fold (rho_f (psi_f r f z)). cbn [fst]. unfold seig in *. destruct H as [->| ->]; [reflexivity|apply orb_true_r].
Qed.
(** asking for a mode that does not exist gives zeros and no error *)
Lemma no_such_mode : forall E g junk jrho (ds : list (mode E)) inc r0 z0 r f z t, covered r0 z0 r f z -> inc <> (-1)%Z -> (inc < 0 \/ Z.of_nat (length ds) <= inc)%Z ->
  exists o, mhd_eval_gen g junk jrho ds r f z t inc = Some (0%Z, o) /\ forall k, o k = 0.
Proof.
  intros E g junk jrho ds inc r0 z0 r f z t C N L. destruct (eval_covered E g junk jrho ds inc _ _ _ _ _ t C) as (p & Q & O & (o & OE)). exists o. split; auto.
  unfold out_f in O. rewrite OE in O. intros k. rewrite O.
  assert (X : chosen inc 0 ds = []); [|rewrite X; reflexivity].
  destruct L as [L|L]; [apply chosen_none; auto|]. rewrite chosen_one by lia. rewrite Z.sub_0_r. destruct (nth_error ds (Z.to_nat inc)) eqn:NE; auto.
  assert (nth_error ds (Z.to_nat inc) <> None) by congruence. apply nth_error_Some in H. lia.
Qed.
(** all modes together give the sum of the modes one by one *)
Lemma chosen_concat : forall E (ds : list (mode E)), flat_map (fun i => chosen (Z.of_nat i) 0 ds) (seq 0 (length ds)) = ds.
Proof.
  intros E ds. assert (G : forall ds : list (mode E), flat_map (fun i => match nth_error ds i with Some d => [d] | None => [] end) (seq 0 (length ds)) = ds).
  { induction ds0 as [|d l IH]; [reflexivity|]. cbn [length seq flat_map nth_error]. cbn [app]. f_equal. rewrite <- seq_shift. rewrite flat_map_concat_map, map_map, <- flat_map_concat_map. exact IH. }
  rewrite <- (G ds) at 2. rewrite !flat_map_concat_map. f_equal. apply map_ext. intros i. rewrite chosen_one by lia. rewrite Z.sub_0_r, Nat2Z.id. reflexivity.
Qed.
Lemma sumL_app : forall A (f : A -> R) l m, sumL f (l ++ m) = sumL f l + sumL f m.
Proof. intros A f. induction l as [|x l IH]; intros m; [change (sumL f m = 0 + sumL f m); ring|]. change (f x + sumL f (l ++ m) = f x + sumL f l + sumL f m). rewrite IH. ring. Qed.
Lemma sumL_flat : forall A B (f : A -> R) (g : B -> list A) l, sumL f (flat_map g l) = sumL (fun i => sumL f (g i)) l.
Proof. intros A B f g. induction l as [|x l IH]; [reflexivity|]. cbn [flat_map]. rewrite sumL_app, IH. reflexivity. Qed.
Lemma superposition : forall junk jrho ds r0 z0 r f z t k, stat_covered r0 z0 ds r f z t ->
  out_f stat_mode junk jrho ds (-1) k r f z t = sumL (fun i => out_f stat_mode junk jrho ds (Z.of_nat i) k r f z t) (seq 0 (length ds)).
Proof.
  intros junk jrho ds r0 z0 r f z t k [C M]. destruct (eval_covered _ stat_mode junk jrho ds (-1) _ _ _ _ _ t C) as (p & Q & O & _). rewrite O.
  assert (NE : forall d, In d ds -> fst (stat_mode p (snd (evalrho (psi_f r f z))) r t d) = false).
  { intros d D. destruct (M d D) as [M1 M2]. rewrite stat_mode_eq. fold (rho_f (psi_f r f z)). cbn [fst]. unfold seig in *. now rewrite M1, M2. }
  rewrite existsb_none by (intros d D; apply NE; rewrite chosen_all in D; auto). rewrite chosen_all.
  rewrite <- (chosen_concat _ ds) at 1. rewrite sumL_flat. apply sumL_ext. intros i I.
  destruct (eval_covered _ stat_mode junk jrho ds (Z.of_nat i) _ _ _ _ _ t C) as (p2 & Q2 & O2 & _). assert (p2 = p) by congruence. subst p2. rewrite O2.
  rewrite existsb_none; auto. intros d D. apply NE. rewrite chosen_one in D by lia. destruct (nth_error ds (Z.to_nat (Z.of_nat i - 0))) eqn:NN; [|contradiction]. destruct D as [<-|[]]. eapply nth_error_In; eauto.
Qed.
End eval.

(** ** Perturbed fields *)
(** reported field components and their partial derivatives agree, order of B_dB: B_r and its r, phi, z derivatives, then B_phi, B_z *)
Definition field_at (F : nat -> R -> R -> R -> R -> R) (b : arr) (r f z t : R) : Prop :=
  forall i, (i < 3)%nat -> F i r f z t = b (4 * i)%nat /\
    Dx (fun x => F i x f z t) r (b (4 * i + 1)%nat) /\ Dx (fun x => F i r x z t) f (b (4 * i + 2)%nat) /\ Dx (fun x => F i r f x t) z (b (4 * i + 3)%nat).
(** curl in cylindrical coordinates *)
Definition curl_at (A : nat -> R -> R -> R -> R) (r f z : R) (c : vec) : Prop :=
  exists dzf dpz dzr drz drrf dpr,
    Dx (fun x => A 2%nat r x z) f dpz /\ Dx (fun x => A 1%nat r f x) z dzf /\
    Dx (fun x => A 0%nat r f x) z dzr /\ Dx (fun x => A 2%nat x f z) r drz /\
    Dx (fun x => x * A 1%nat x f z) r drrf /\ Dx (fun x => A 0%nat r x z) f dpr /\
    vx c = dpz / r - dzf /\ vy c = dzr - drz /\ vz c = (drrf - dpr) / r.

Lemma pert_curl : forall m b r f z t (al : R -> R -> R -> R -> R) F, 0 < r -> field_at F b r f z t ->
  al r f z t = m 0%nat -> diff4 al r f z t (m 2%nat) (r * m 3%nat) (m 4%nat) (m 1%nat) ->
  curl_at (fun i r f z => al r f z t * F i r f z t) r f z (V (pert_of m b r true 0%nat) (pert_of m b r true 1%nat) (pert_of m b r true 2%nat)).
Proof.
  intros m b r f z t al F RP FA A0 AD.
  destruct (FA 0%nat) as (F0 & F01 & F02 & F03); [lia|]. destruct (FA 1%nat) as (F1 & F11 & F12 & F13); [lia|]. destruct (FA 2%nat) as (F2 & F21 & F22 & F23); [lia|].
  cbn [Nat.mul Nat.add] in *.
  assert (Ar : Dx (fun x => al x f z t) r (m 2%nat)). { eapply d_eq; [apply (AD (fun x => x) (fun _ => f) (fun _ => z) (fun _ => t) r 1 0 0 0); auto; first [apply d_id|apply d_const]|ring]. }
  assert (Af : Dx (fun x => al r x z t) f (r * m 3%nat)). { eapply d_eq; [apply (AD (fun _ => r) (fun x => x) (fun _ => z) (fun _ => t) f 0 1 0 0); auto; first [apply d_id|apply d_const]|ring]. }
  assert (Az : Dx (fun x => al r f x t) z (m 4%nat)). { eapply d_eq; [apply (AD (fun _ => r) (fun _ => f) (fun x => x) (fun _ => t) z 0 0 1 0); auto; first [apply d_id|apply d_const]|ring]. }
  do 6 eexists. repeat split.
  - apply d_mult; [exact Af|exact F22].
  - apply d_mult; [exact Az|exact F13].
  - apply d_mult; [exact Az|exact F03].
  - apply d_mult; [exact Ar|exact F21].
  - apply d_mult; [apply d_id|apply d_mult; [exact Ar|exact F11]].
  - apply d_mult; [exact Af|exact F02].
  - cbv beta. rewrite A0, F2, F1. unfold pert_of. cbn [vx vy vz cross]. field. lra.
  - cbv beta. rewrite A0, F2, F0. unfold pert_of. cbn [vx vy vz cross]. ring.
  - cbv beta. rewrite A0, F0, F1. unfold pert_of. cbn [vx vy vz cross]. field. lra.
Qed.
(** electric field: minus the gradient of the potential minus the time derivative of alpha B *)
Lemma pert_electric : forall m b r f z t (al ph : R -> R -> R -> R -> R) F, 0 < r ->
  (forall i, (i < 3)%nat -> F i r f z t = b (4 * i)%nat /\ Dx (fun x => F i r f z x) t 0) ->
  al r f z t = m 0%nat -> diff4 al r f z t (m 2%nat) (r * m 3%nat) (m 4%nat) (m 1%nat) -> diff4 ph r f z t (m 7%nat) (r * m 8%nat) (m 9%nat) (m 6%nat) ->
  exists pr pf pz a0 a1 a2,
    Dx (fun x => ph x f z t) r pr /\ Dx (fun x => ph r x z t) f pf /\ Dx (fun x => ph r f x t) z pz /\
    Dx (fun x => al r f z x * F 0%nat r f z x) t a0 /\ Dx (fun x => al r f z x * F 1%nat r f z x) t a1 /\ Dx (fun x => al r f z x * F 2%nat r f z x) t a2 /\
    forall only, pert_of m b r only 3%nat = - pr - a0 /\ pert_of m b r only 4%nat = - (pf / r) - a1 /\ pert_of m b r only 5%nat = - pz - a2.
Proof.
  intros m b r f z t al ph F RP FA A0 AD PD.
  destruct (FA 0%nat) as (F0 & F01); [lia|]. destruct (FA 1%nat) as (F1 & F11); [lia|]. destruct (FA 2%nat) as (F2 & F21); [lia|]. cbn [Nat.mul Nat.add] in *.
  assert (At : Dx (fun x => al r f z x) t (m 1%nat)). { eapply d_eq; [apply (AD (fun _ => r) (fun _ => f) (fun _ => z) (fun x => x) t 0 0 0 1); auto; first [apply d_id|apply d_const]|ring]. }
  exists (m 7%nat), (r * m 8%nat), (m 9%nat). do 3 eexists. split; [|split; [|split; [|split; [|split; [|split]]]]].
  - eapply d_eq; [apply (PD (fun x => x) (fun _ => f) (fun _ => z) (fun _ => t) r 1 0 0 0); auto; first [apply d_id|apply d_const]|ring].
  - eapply d_eq; [apply (PD (fun _ => r) (fun x => x) (fun _ => z) (fun _ => t) f 0 1 0 0); auto; first [apply d_id|apply d_const]|ring].
  - eapply d_eq; [apply (PD (fun _ => r) (fun _ => f) (fun x => x) (fun _ => t) z 0 0 1 0); auto; first [apply d_id|apply d_const]|ring].
  - apply d_mult; [exact At|exact F01].
  - apply d_mult; [exact At|exact F11].
  - apply d_mult; [exact At|exact F21].
  - intros only. cbv beta. rewrite F0, F1, F2. unfold pert_of. cbn [vx vy vz]. repeat split; [ring|field; lra|ring].
Qed.
Lemma pert_total : forall m b r, pert_of m b r true 6%nat = m 5%nat /\ forall k, pert_of m b r false k = pert_of m b r true k + match k with 0%nat => b 0%nat | 1%nat => b 4%nat | 2%nat => b 8%nat | _ => 0 end.
Proof. intros m b r. split; [reflexivity|]. intros k. do 7 (destruct k as [|k]; [unfold pert_of; cbn [vx vy vz]; ring|]). cbn. ring. Qed.
(** from the position to the fields *)
Lemma perturbations_end_to_end : forall inpoly evalpsi evalrho axis thspl nuspl psimin psimax evalBdB junk jrho out0 ds inc r0 z0 r f z t only F b,
  let ms := chosen inc 0 ds in
  near4 r f z t (stat_covered inpoly evalpsi evalrho axis thspl nuspl psimin psimax r0 z0 ms) -> smooth evalpsi evalrho thspl nuspl r0 z0 r f z -> 0 < r -> snd (evalpsi r f z 0) 2%nat = 0 ->
  let rho := rho_f evalrho (psi_f evalpsi r f z) in
  (forall d, In d ms -> Dx (fun x => snd (malpha d x) 0%nat) rho (snd (malpha d rho) 1%nat) /\ Dx (fun x => snd (mphi d x) 0%nat) rho (snd (mphi d rho) 1%nat)) ->
  evalBdB r f z t = (0%Z, b) -> field_at F b r f z t -> (forall i, (i < 3)%nat -> Dx (fun x => F i r f z x) t 0) ->
  let o := fun k => out_f inpoly evalpsi evalrho axis thspl nuspl psimin psimax stat_mode junk jrho ds inc k in
  exists p c pr pf pz a0 a1 a2,
    mhd_perturbations inpoly evalpsi evalrho axis thspl nuspl psimin psimax evalBdB junk jrho out0 (MStat ds) r f z t only inc = Some (0%Z, p) /\
    curl_at (fun i r f z => o 0%nat r f z t * F i r f z t) r f z c /\
    Dx (fun x => o 5%nat x f z t) r pr /\ Dx (fun x => o 5%nat r x z t) f pf /\ Dx (fun x => o 5%nat r f x t) z pz /\
    Dx (fun x => o 0%nat r f z x * F 0%nat r f z x) t a0 /\ Dx (fun x => o 0%nat r f z x * F 1%nat r f z x) t a1 /\ Dx (fun x => o 0%nat r f z x * F 2%nat r f z x) t a2 /\
    p 0%nat = vx c + (if only then 0 else F 0%nat r f z t) /\ p 1%nat = vy c + (if only then 0 else F 1%nat r f z t) /\ p 2%nat = vz c + (if only then 0 else F 2%nat r f z t) /\
    p 3%nat = - pr - a0 /\ p 4%nat = - (pf / r) - a1 /\ p 5%nat = - pz - a2 /\ p 6%nat = o 5%nat r f z t.
Proof.
  intros inpoly evalpsi evalrho axis thspl nuspl psimin psimax evalBdB junk jrho out0 ds inc r0 z0 r f z t only F b ms NC S RP AX rho DM EB FA FT o.
  destruct (stat_gradients inpoly evalpsi evalrho axis thspl nuspl psimin psimax junk jrho ds inc r0 z0 r f z t NC S ltac:(lra) AX DM) as [GA GP].
  destruct (mhd_waves inpoly evalpsi evalrho axis thspl nuspl psimin psimax junk jrho ds inc r0 z0 r f z t (near4_here _ _ _ _ _ NC)) as (m & EM & _).
  assert (OM : forall k, o k r f z t = m k) by (intros k; unfold o, out_f; rewrite EM; reflexivity).
  cbv zeta beta in GA, GP. fold (o 0%nat) (o 1%nat) (o 2%nat) (o 3%nat) (o 4%nat) (o 5%nat) (o 6%nat) (o 7%nat) (o 8%nat) (o 9%nat) in GA, GP.
  assert (GA' : diff4 (o 0%nat) r f z t (m 2%nat) (r * m 3%nat) (m 4%nat) (m 1%nat)) by (rewrite <- !OM; exact GA).
  assert (GP' : diff4 (o 5%nat) r f z t (m 7%nat) (r * m 8%nat) (m 9%nat) (m 6%nat)) by (rewrite <- !OM; exact GP).
  pose proof (pert_curl m b r f z t (o 0%nat) F RP FA (OM 0%nat) GA') as CC.
  assert (FA' : forall i, (i < 3)%nat -> F i r f z t = b (4 * i)%nat /\ Dx (fun x => F i r f z x) t 0) by (intros i I; split; [apply (FA i I)|apply FT; auto]).
  destruct (pert_electric m b r f z t (o 0%nat) (o 5%nat) F RP FA' (OM 0%nat) GA' GP') as (pr & pf & pz & a0 & a1 & a2 & E1 & E2 & E3 & E4 & E5 & E6 & EE).
  exists (pert_of m b r only), (V (pert_of m b r true 0%nat) (pert_of m b r true 1%nat) (pert_of m b r true 2%nat)), pr, pf, pz, a0, a1, a2.
  split. { unfold mhd_perturbations, mhd_eval, mhd_stat_eval. rewrite EM. cbn [Z.eqb]. rewrite EB. cbn [Z.eqb]. reflexivity. }
  split; [exact CC|]. do 6 (split; [assumption|]). cbn [vx vy vz].
  destruct (FA' 0%nat) as [F0 _]; [lia|]. destruct (FA' 1%nat) as [F1 _]; [lia|]. destruct (FA' 2%nat) as [F2 _]; [lia|]. cbn [Nat.mul Nat.add] in F0, F1, F2. rewrite F0, F1, F2.
  destruct (EE only) as (Q3 & Q4 & Q5). repeat split; auto.
  - destruct only; [ring|]. apply (proj2 (pert_total m b r) 0%nat).
  - destruct only; [ring|]. apply (proj2 (pert_total m b r) 1%nat).
  - destruct only; [ring|]. apply (proj2 (pert_total m b r) 2%nat).
  - unfold pert_of. rewrite OM. reflexivity.
Qed.
(** no perturbation: the background *)
Lemma pert_zero : forall m b r, (forall k, m k = 0) -> forall k, pert_of m b r true k = 0.
Proof. intros m b r H k. do 7 (destruct k as [|k]; [unfold pert_of; cbn [vx vy vz cross]; rewrite ?H; unfold Rdiv; ring|]). reflexivity. Qed.

(** ** Setup *)
(** with padding the angle grid has cells of the size 2 pi over the number of intervals without padding *)
Lemma padding_cells : forall n, (9 < n)%Z -> let h := (2 * PI + 2 * padding (IZR n)) / (IZR n - 1) in padding (IZR n) = 4 * h /\ h = 2 * PI / (IZR n - 9).
Proof.
  intros n N. apply (IZR_lt 9) in N. unfold padding. cbv zeta. split; field; lra.
Qed.
Lemma init_masks : forall e, boozer_init_err e 0 = 0%Z.
Proof. reflexivity. Qed.

(** ** A circular plasma as an example *)
(** flux (r-3)^2 + z^2 + eps cos phi, angle equal to the geometric angle, no toroidal shift, radius equal to the flux *)
Definition ex_psi (eps r f z t : R) : Z * arr :=
  (0%Z, fun k => match k with 0%nat => (r - 3) * (r - 3) + z * z + eps * cos f | 1%nat => 2 * (r - 3) | 2%nat => - eps * sin f | 3%nat => 2 * z | _ => 0 end).
Definition ex_rho (x : R) : Z * arr := (0%Z, fun k => match k with 0%nat => x | 1%nat => 1 | _ => 0 end).
Definition ex_axis (f : R) : Z * arr := (0%Z, fun k => match k with 0%nat => 3 | _ => 0 end).
Definition ex_th (x y : R) : bool * arr := (false, fun k => match k with 0%nat => y | 2%nat => 1 | _ => 0 end).
Definition ex_nu (x y : R) : bool * arr := (false, fun _ => 0).
Definition ex_in (r z : R) : bool := true.
Definition ex_eig (x : R) : bool * arr := (false, fun k => match k with 0%nat => x | 1%nat => 1 | _ => 0 end).
Definition ex_mode (n m : Z) : mode seig := Mode n m 1 5 0 ex_eig ex_eig.

Lemma ex_covered : forall eps, 0 <= eps <= 1/20 -> forall ms, (forall d, In d ms -> exists n m, d = ex_mode n m) ->
  near4 3 (PI / 2) (1/2) 0 (stat_covered ex_in (ex_psi eps) ex_rho ex_axis ex_th ex_nu 0 1 3 0 ms).
Proof.
  intros eps EP ms M. exists (1/4). split; [lra|]. intros r f z t R F Z T. apply Rabs_def2 in R, Z. split.
  - unfold covered. cbn [ex_psi ex_rho ex_axis ex_th ex_nu ex_in psi_f fst snd]. pose proof (COS_bound f) as CB.
    assert (0 <= (r - 3) * (r - 3)) by apply Rle_0_sqr.
    assert (0 <= (1/4 - (r - 3)) * (1/4 + (r - 3))) by (apply Rmult_le_pos; lra).
    assert (0 < (z - 1/4) * (z + 1/4)) by (apply Rmult_lt_0_compat; lra). assert (0 < (3/4 - z) * (3/4 + z)) by (apply Rmult_lt_0_compat; lra).
    assert (0 <= eps * (1 - cos f)) by (apply Rmult_le_pos; lra). assert (0 <= eps * (1 + cos f)) by (apply Rmult_le_pos; lra).
    repeat split; try lra.
  - intros d D. destruct (M d D) as (n & m & ->). split; reflexivity.
Qed.
Lemma ex_smooth : forall eps, smooth (ex_psi eps) ex_rho ex_th ex_nu 3 0 3 (PI / 2) (1/2).
Proof.
  intros eps. constructor.
  - intros cr cf cz s r' f' z' E1 E2 E3 D1 D2 D3. cbn [ex_psi psi_f fst snd].
    eapply d_eq; [apply d_plus; [apply d_plus; [apply d_mult; apply d_minus; eauto; apply d_const|apply d_mult; eauto]|apply d_mult; [apply d_const|apply d_cos; eauto]]|].
    cbv beta. rewrite E1, E2, E3. ring.
  - intros cx cy s x' y' E1 E2 D1 D2. unfold th_f. cbn [ex_th snd]. eapply d_eq; [exact D2|ring].
  - intros cx cy s x' y' E1 E2 D1 D2. unfold nu_f. cbn [ex_nu snd]. eapply d_eq; [apply d_const|ring].
  - unfold rho_f. cbn [ex_rho snd]. apply d_id.
  - left. lra.
Qed.

(** with a flux that depends on the toroidal angle the toroidal derivative is wrong *)
Lemma nonaxisymmetric_refuted :
  let o := fun k => out_f ex_in (ex_psi (1/20)) ex_rho ex_axis ex_th ex_nu 0 1 stat_mode (fun _ => 0) (fun _ => 0) [ex_mode 0 0] (-1) k in
  let r := 3 in let f := PI / 2 in let z := 1/2 in
  r * o 3%nat r f z 0 = 0 /\ Dx (fun x => o 0%nat r x z 0) f (- (1/20)) /\
  ~ diff4 (o 0%nat) r f z 0 (o 2%nat r f z 0) (r * o 3%nat r f z 0) (o 4%nat r f z 0) (o 1%nat r f z 0).
Proof.
  cbv zeta. set (o := fun k => out_f ex_in (ex_psi (1/20)) ex_rho ex_axis ex_th ex_nu 0 1 stat_mode (fun _ => 0) (fun _ => 0) [ex_mode 0 0] (-1) k).
  assert (V3 : 3 * o 3%nat 3 (PI / 2) (1/2) 0 = 0).
  { assert (C : covered ex_in (ex_psi (1/20)) ex_rho ex_axis ex_th ex_nu 0 1 3 0 3 (PI / 2) (1/2)).
    { pose proof (near4_here _ _ _ _ _ (ex_covered (1/20) ltac:(lra) [] (fun d D => match D with end))) as [C _]. exact C. }
    destruct (eval_covered _ _ _ _ _ _ _ _ _ stat_mode (fun _ => 0) (fun _ => 0) [ex_mode 0 0] (-1) _ _ _ _ _ 0 C) as (p & Q & O & _).
    destruct (boozer_covered _ _ _ _ _ _ _ _ (fun _ => 0) _ _ _ _ _ C) as (q & Q2 & _ & _ & _ & PR). assert (q = p) by congruence. subst q. cbv zeta in PR. destruct PR as (_ & P2 & _).
    unfold o. rewrite O, chosen_all. unfold stat_mode. cbn [orb existsb ex_mode malpha mphi ex_eig fst snd sumL fold_right].
    unfold stat_terms, grad1. cbn [Nat.add]. rewrite P2. change (mm (ex_mode 0 0)) with 0%Z. change (mn (ex_mode 0 0)) with 0%Z. ring. }
  assert (OV : forall r f z t, stat_covered ex_in (ex_psi (1/20)) ex_rho ex_axis ex_th ex_nu 0 1 3 0 [ex_mode 0 0] r f z t ->
     o 0%nat r f z t = ((r - 3) * (r - 3) + z * z + 1/20 * cos f) * cos (5 * t)).
  { intros r f z t C. destruct (mhd_waves _ _ _ _ _ _ _ _ (fun _ => 0) (fun _ => 0) [ex_mode 0 0] (-1) _ _ _ _ _ _ C) as (w & W & W0 & _). unfold o, out_f. rewrite W, W0.
    rewrite chosen_all. cbn [sumL fold_right]. unfold wave, rho_f, psi_f. cbn [ex_mode mn mm mamp momega mphase malpha ex_eig ex_rho ex_psi snd].
    replace (0 * zeta_f (ex_psi (1/20)) ex_th ex_nu 3 0 r f z - 0 * theta_f (ex_psi (1/20)) ex_th 3 0 r f z - 5 * t + 0) with (- (5 * t)) by ring. rewrite cos_neg. ring. }
  assert (NC : near4 3 (PI / 2) (1/2) 0 (stat_covered ex_in (ex_psi (1/20)) ex_rho ex_axis ex_th ex_nu 0 1 3 0 [ex_mode 0 0])).
  { apply ex_covered; [lra|]. intros d [<-|[]]. exists 0%Z, 0%Z. reflexivity. }
  assert (D : Dx (fun x => o 0%nat 3 x (1/2) 0) (PI / 2) (- (1/20))).
  { apply (d_near (fun x => ((3 - 3) * (3 - 3) + (1/2) * (1/2) + 1/20 * cos x) * cos (5 * 0))).
    - eapply near_imp; [|apply (near_curve _ (fun _ => 3) (fun x => x) (fun _ => 1/2) (fun _ => 0) (PI / 2) 0 1 0 0 NC); first [apply d_const|apply d_id]]. cbv beta. intros u U. symmetry. apply OV. exact U.
    - eapply d_eq; [apply d_mult; [apply d_plus; [apply d_const|apply d_mult; [apply d_const|apply d_cos; apply d_id]]|apply d_const]|]. cbv beta.
      rewrite sin_PI2, Rmult_0_r, cos_0. lra. }
  split; [exact V3|]. split; [exact D|]. intros W.
  assert (D2 : Dx (fun x => o 0%nat 3 x (1/2) 0) (PI / 2) 0).
  { eapply d_eq; [apply (W (fun _ => 3) (fun x => x) (fun _ => 1/2) (fun _ => 0) (PI / 2) 0 1 0 0); auto; first [apply d_const|apply d_id]|]. rewrite V3. ring. }
  pose proof (d_uniq _ _ _ _ D D2). lra.
Qed.
