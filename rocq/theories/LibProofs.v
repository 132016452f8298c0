(** Proofs about the library queries. *)
From Coq Require Import Reals ZArith List Bool Lra Lia Psatz Classical.
Import ListNotations.
From Verif Require Import Vec LibModel Deriv MhdProofs.
Local Open Scope R_scope.

(** ** Loops *)
Lemma loop_S : forall {A} n (body : nat -> A -> A) s, loop (S n) body s = body n (loop n body s).
Proof. intros. unfold loop. rewrite seq_S, fold_left_app. reflexivity. Qed.
(** [f] stores exactly the values that [W] prescribes and keeps everything else *)
Definition writes (f : (nat -> R) -> nat -> R) (W : nat -> R -> Prop) : Prop :=
  forall s m, (forall x, W m x -> f s m = x) /\ ((forall x, ~ W m x) -> f s m = s m).
Lemma put_writes : forall k x, writes (fun a => put a k x) (fun m y => m = k /\ y = x).
Proof.
  intros k x s m. unfold put. destruct (Nat.eqb_spec m k) as [->|N]; split.
  - intros y [_ ->]. reflexivity.
  - intros F. exfalso. apply (F x). auto.
  - intros y [E _]. contradiction.
  - auto.
Qed.
Lemma loop_writes : forall n body W,
  (forall k, (k < n)%nat -> writes (body k) (W k)) ->
  (forall k k' m x x', (k < n)%nat -> (k' < n)%nat -> W k m x -> W k' m x' -> k = k') ->
  writes (loop n body) (fun m x => exists k, (k < n)%nat /\ W k m x).
Proof.
  induction n as [|n IH]; intros body W H D s m.
  - split; [intros x (k & K & _); lia | intros _; reflexivity].
  - rewrite loop_S. destruct (H n ltac:(lia) (loop n body s) m) as [H1 H2].
    destruct (IH body W (fun k K => H k ltac:(lia)) (fun k k' m x x' K K' => D k k' m x x' ltac:(lia) ltac:(lia)) s m) as [I1 I2].
    split.
    + intros x (k & K & Wk). destruct (Nat.eq_dec k n) as [->|N]; [auto|].
      rewrite H2; [apply I1; exists k; split; [lia|auto]|]. intros y Y. apply N. eapply D; eauto.
    + intros F. rewrite H2; [apply I2; intros x (k & K & Wk); apply (F x); exists k; split; [lia|auto]|].
      intros x Wn. apply (F x). exists n. auto.
Qed.
Lemma loop_pair : forall {A B} n (body : nat -> A * B -> A * B) f g,
  (forall k a b, body k (a, b) = (f k a, g k b)) -> forall a b, loop n body (a, b) = (loop n f a, loop n g b).
Proof. induction n as [|n IH]; intros body f g H a b; [reflexivity|]. rewrite !loop_S, (IH _ f g), H by auto. reflexivity. Qed.
Lemma skip_writes : forall (c : bool) f W, writes f W -> writes (fun s => if c then s else f s) (fun m x => c = false /\ W m x).
Proof.
  intros c f W H s m. destruct c; split; auto.
  - intros x [F _]. discriminate.
  - intros x [_ G]. apply H, G.
  - intros F. apply H. intros x G. apply (F x). auto.
Qed.
Lemma writes_ext : forall f g W, (forall s, f s = g s) -> writes f W -> writes g W.
Proof. intros f g W E H s m. rewrite <- E. apply H. Qed.

(** ** Mapping (rho, theta) to (R, z) *)
Section rhotheta.
Variables (axis : R -> Z * (R * R)) (eval_rho : R -> R -> R -> Z * R).
Section ray.
Variables (ar az ph co si : R).
(** the point at distance [c] along the ray, whether rho is available there, and its rho *)
Definition ray_r c := ar + c * co.
Definition ray_z c := az + c * si.
Definition has_rho c := 0 <= ray_r c /\ fst (eval_rho (ray_r c) ph (ray_z c)) = 0%Z.
Definition rho_at c := snd (eval_rho (ray_r c) ph (ray_z c)).

Lemma bisect_sound : forall n rh tol a b x y, a <= b -> bisect eval_rho n ar az ph co si rh tol a b = Some (x, y) ->
  exists c, a <= c <= b /\ x = ray_r c /\ y = ray_z c /\ has_rho c /\ Rabs (rh - rho_at c) < tol.
Proof.
  induction n as [|n IH]; intros rh tol a b x y AB H; [discriminate|]. cbn [bisect] in H.
  set (c := 1 / 2 * (a + b)) in *. assert (C : a <= c <= b) by (unfold c; lra).
  assert (G1 : bisect eval_rho n ar az ph co si rh tol a c = Some (x, y) -> exists c0, a <= c0 <= b /\ x = ray_r c0 /\ y = ray_z c0 /\ has_rho c0 /\ Rabs (rh - rho_at c0) < tol).
  { intros E. destruct (IH _ _ _ _ _ _ (proj1 C) E) as (c0 & c1 & c2). exists c0. split; [lra|exact c2]. }
  destruct (Rlt_dec (ar + c * co) 0) as [|P]; [auto|].
  destruct (eval_rho (ar + c * co) ph (az + c * si)) as [e v] eqn:E.
  destruct (Z.eqb_spec e 0) as [->|]; cbn [negb] in H; [|auto].
  destruct (Rlt_dec (Rabs (rh - v)) tol) as [T|]; [|destruct (Rlt_dec rh v); [auto|]].
  - inversion H. exists c. unfold has_rho, rho_at, ray_r, ray_z. rewrite E. cbn [fst snd]. repeat split; auto; lra.
  - destruct (IH _ _ _ _ _ _ (proj2 C) H) as (c0 & c1 & c2). exists c0. split; [lra|exact c2].
Qed.

Lemma bisect_complete : forall rh tol L M d K delta,
  (forall c, 0 <= c <= L -> has_rho c) ->
  (forall c c', 0 <= c <= c' -> c' <= M -> has_rho c -> has_rho c' -> rho_at c <= rho_at c') ->
  (forall c c', 0 <= c <= c' -> c' <= L -> rho_at c' - rho_at c <= K * (c' - c)) ->
  0 <= K -> 0 < tol -> d + delta <= L -> rho_at d = rh -> 
  forall n a b, 0 <= a <= d -> d <= b -> b <= M -> (b - a) <= delta * 2 ^ (S n) -> K * (b - a) < tol * 2 ^ (S n) ->
  exists x y, bisect eval_rho (S n) ar az ph co si rh tol a b = Some (x, y).
Proof.
  intros rh tol L M d K delta OK MON LIP K0 T0 DL RH. induction n as [|n IH]; intros a b A B BM W1 W2.
  all: cbn [bisect]; set (c := 1 / 2 * (a + b)); assert (C : a <= c <= b /\ c - a = (b - a) / 2 /\ b - c = (b - a) / 2) by (unfold c; lra); destruct C as (C & C1 & C2).
  - cbn [pow] in W1, W2. assert (CL : 0 <= c <= L) by lra. destruct (OK c CL) as [O1 O2]. pose proof (OK c CL) as OC. assert (OD : has_rho d) by (apply OK; lra). unfold ray_r, ray_z in O1, O2.
    destruct (Rlt_dec (ar + c * co) 0); [lra|]. pose proof (eq_refl (rho_at c)) as V. unfold rho_at at 1, ray_r, ray_z in V.
    destruct (eval_rho (ar + c * co) ph (az + c * si)) as [e v]. cbn [fst snd] in O2, V. subst e v. cbn [Z.eqb negb].
    destruct (Rlt_dec (Rabs (rh - rho_at c)) tol) as [|F]; [eauto|]. exfalso. apply F. rewrite <- RH.
    destruct (Rle_dec c d) as [CD|CD].
    + pose proof (MON c d ltac:(lra) ltac:(lra) OC OD). pose proof (LIP c d ltac:(lra) ltac:(lra)). rewrite Rabs_right by lra. nra.
    + pose proof (MON d c ltac:(lra) ltac:(lra) OD OC). pose proof (LIP d c ltac:(lra) ltac:(lra)). rewrite Rabs_left1 by lra. nra.
  - assert (P0 : 0 < 2 ^ S n) by (apply pow_lt; lra). change (2 ^ S (S n)) with (2 * 2 ^ S n) in W1, W2.
    assert (LEFT : d <= c -> exists x y, bisect eval_rho (S n) ar az ph co si rh tol a c = Some (x, y)).
    { intros DC. apply IH; try lra; nra. }
    assert (dL : 0 <= d <= L). { split; [lra|]. assert (0 <= delta * (2 * 2 ^ S n)) by lra. assert (0 <= delta) by nra. lra. }
    assert (OD : has_rho d) by (apply OK; lra).
    destruct (Rlt_dec (ar + c * co) 0) as [NG|NG].
    { apply LEFT. destruct (Rle_dec d c); [auto|]. destruct (OK c ltac:(lra)) as [O _]. unfold ray_r in O. lra. }
    destruct (eval_rho (ar + c * co) ph (az + c * si)) as [e v] eqn:E.
    destruct (Z.eqb_spec e 0) as [->|N0]; cbn [negb].
    2:{ apply LEFT. destruct (Rle_dec d c); [auto|]. destruct (OK c ltac:(lra)) as [_ O]. unfold ray_r, ray_z in O. rewrite E in O. cbn in O. contradiction. }
    assert (V : rho_at c = v) by (unfold rho_at, ray_r, ray_z; rewrite E; reflexivity).
    assert (OC : has_rho c) by (unfold has_rho, ray_r, ray_z; rewrite E; cbn [fst]; split; [lra|auto]).
    destruct (Rlt_dec (Rabs (rh - v)) tol) as [|F]; [eauto|].
    destruct (Rlt_dec rh v) as [G|G].
    + apply LEFT. destruct (Rle_dec d c); [auto|]. pose proof (MON c d ltac:(lra) ltac:(lra) OC OD). lra.
    + apply IH; try lra; try nra. split; [lra|]. destruct (Rle_dec c d); [auto|].
      pose proof (MON d c ltac:(lra) ltac:(lra) OD OC). exfalso. apply F. replace (rh - v) with 0 by lra. rewrite Rabs_R0. lra.
Qed.
End ray.

(** every result lies on the ray from the axis, at most 5 m away; it has the wanted rho within the tolerance,
    unless the wanted rho is smaller than the one on the axis *)
Lemma rt_sound : forall rh th ph maxiter tol x y, rhotheta1 axis eval_rho rh th ph maxiter tol = Some (x, y) ->
  exists ar az, axis ph = (0%Z, (ar, az)) /\ fst (eval_rho ar ph az) = 0%Z /\
  ((x = ar /\ y = az /\ rh < snd (eval_rho ar ph az)) \/
   (snd (eval_rho ar ph az) <= rh /\ exists c, 0 <= c <= 5 /\ x = ar + c * cos th /\ y = az + c * sin th /\
    0 <= x /\ fst (eval_rho x ph y) = 0%Z /\ Rabs (rh - snd (eval_rho x ph y)) < tol)).
Proof.
  intros rh th ph n tol x y H. unfold rhotheta1 in H. destruct (axis ph) as [e [ar az]].
  destruct (Z.eqb_spec e 0) as [->|]; cbn [negb] in H; [|discriminate].
  exists ar, az. split; [reflexivity|]. destruct (eval_rho ar ph az) as [e v0].
  destruct (Z.eqb_spec e 0) as [->|]; cbn [negb] in H; [|discriminate]. cbn [fst snd]. split; [reflexivity|].
  destruct (Rgt_dec v0 rh) as [G|G]. { inversion H. left. auto. }
  right. split; [lra|]. apply bisect_sound in H; [|lra]. destruct H as (c & C & -> & -> & [O1 O2] & T). exists c. unfold ray_r, ray_z, rho_at in *. repeat split; auto; lra.
Qed.
(** if rho grows along the ray, at most at the rate [K], and the point looked for is at least [delta] away from
    the end of the region where rho is known, then it is found after log2(5/delta) and log2(5 K/tol) iterations *)
Lemma rt_complete : forall rh th ph ar az L d K delta tol n,
  let has := has_rho ar az ph (cos th) (sin th) in let rho := rho_at ar az ph (cos th) (sin th) in
  axis ph = (0%Z, (ar, az)) -> (forall c, 0 <= c <= L -> has c) ->
  (forall c c', 0 <= c <= c' -> c' <= 5 -> has c -> has c' -> rho c <= rho c') ->
  (forall c c', 0 <= c <= c' -> c' <= L -> rho c' - rho c <= K * (c' - c)) ->
  0 <= K -> 0 < tol -> 0 < delta -> 0 <= d <= 5 -> d + delta <= L -> rho d = rh ->
  (1 <= n)%nat -> 5 <= delta * 2 ^ n -> K * 5 < tol * 2 ^ n ->
  exists x y, rhotheta1 axis eval_rho rh th ph n tol = Some (x, y).
Proof.
  intros rh th ph ar az L d K delta tol n has rho AX OK MON LIP K0 T0 D0 D5 DL RH N W1 W2.
  assert (O0 : has 0) by (apply OK; lra). assert (OD : has d) by (apply OK; lra). pose proof (MON 0 d ltac:(lra) ltac:(lra) O0 OD) as M0.
  unfold has, has_rho, ray_r, ray_z in O0. unfold rho at 1, rho_at, ray_r, ray_z in M0. rewrite !Rmult_0_l, !Rplus_0_r in O0, M0.
  unfold rhotheta1. rewrite AX. cbn [Z.eqb negb]. destruct O0 as [_ O0]. destruct (eval_rho ar ph az) as [e v]. cbn [fst snd] in O0, M0. subst e. cbn [Z.eqb negb].
  destruct (Rgt_dec v rh); [lra|]. destruct n as [|n]; [lia|].
  eapply (bisect_complete ar az ph (cos th) (sin th) rh tol L 5 d K delta); eauto; lra.
Qed.
(** the position is accurate when rho grows at least at the rate [g] *)
Lemma rt_accurate : forall rh th ph ar az d g tol n x y,
  let has := has_rho ar az ph (cos th) (sin th) in let rho := rho_at ar az ph (cos th) (sin th) in
  axis ph = (0%Z, (ar, az)) -> 0 < g -> (forall c c', 0 <= c <= c' -> c' <= 5 -> has c -> has c' -> g * (c' - c) <= rho c' - rho c) ->
  has 0 -> has d -> 0 <= d <= 5 -> rho d = rh -> rhotheta1 axis eval_rho rh th ph n tol = Some (x, y) ->
  exists c, 0 <= c <= 5 /\ x = ar + c * cos th /\ y = az + c * sin th /\ g * Rabs (c - d) < tol.
Proof.
  intros rh th ph ar az d g tol n x y has rho AX G GR O0 OD D5 RH H. destruct (rt_sound _ _ _ _ _ _ _ H) as (ar' & az' & AX' & F & C).
  rewrite AX in AX'. inversion AX'. subst ar' az'. clear AX'.
  destruct C as [(X & Y & LT)|(_ & c & C & X & Y & P & F' & T)].
  - exfalso. pose proof (GR 0 d ltac:(lra) ltac:(lra) O0 OD) as M. unfold rho at 2, rho_at, ray_r, ray_z in M. rewrite !Rmult_0_l, !Rplus_0_r in M. nra.
  - exists c. repeat split; auto; try lra. assert (OC : has c) by (unfold has, has_rho, ray_r, ray_z; rewrite <- X, <- Y; auto).
    assert (E : snd (eval_rho x ph y) = rho c) by (unfold rho, rho_at, ray_r, ray_z; rewrite <- X, <- Y; auto). rewrite E, <- RH in T.
    apply Rabs_def2 in T. destruct (Rle_dec c d).
    + pose proof (GR c d ltac:(lra) ltac:(lra) OC OD). rewrite Rabs_left1 by lra. lra.
    + pose proof (GR d c ltac:(lra) ltac:(lra) OD OC). rewrite Rabs_right by lra. lra.
Qed.
(** each entry depends on its own query only, and a failed one keeps what was there *)
Lemma rt_array : forall n rho theta phi maxiter tol r z j,
  let '(r', z') := rhotheta2rz axis eval_rho n rho theta phi maxiter tol (r, z) in
  (r' j, z' j) = if Nat.ltb j n then match rhotheta1 axis eval_rho (rho j) (theta j) (phi j) maxiter tol with Some p => p | None => (r j, z j) end else (r j, z j).
Proof.
  intros n rho theta phi maxiter tol r z j. unfold rhotheta2rz. induction n as [|n IH]; [reflexivity|]. rewrite loop_S.
  destruct (loop n _ (r, z)) as [r1 z1]. destruct (Nat.ltb_spec j (S n)).
  - destruct (Nat.ltb_spec j n).
    + destruct (rhotheta1 _ _ (rho n) _ _ _ _) as [[x y]|]; [|exact IH]. unfold put. destruct (Nat.eqb_spec j n); [lia|exact IH].
    + assert (j = n) by lia. subst j. destruct (rhotheta1 _ _ (rho n) _ _ _ _) as [[x y]|]; [|exact IH]. unfold put. rewrite Nat.eqb_refl. reflexivity.
  - destruct (Nat.ltb_spec j n); [lia|]. destruct (rhotheta1 _ _ (rho n) _ _ _ _) as [[x y]|]; [|exact IH]. unfold put. destruct (Nat.eqb_spec j n); [lia|exact IH].
Qed.
End rhotheta.
(** finding: a flux surface more than 5 m away from the axis is never found, whatever the number of iterations *)
Lemma rt_far : exists axis eval_rho, eval_rho 16 0 0 = (0%Z, 1) /\ axis 0 = (0%Z, (10, 0)) /\
  (forall r p z, fst (eval_rho r p z) = 0%Z) /\ forall n, rhotheta1 axis eval_rho 1 0 0 n (1 / 10) = None.
Proof.
  exists (fun _ => (0%Z, (10, 0))), (fun r _ z => (0%Z, sqrt ((r - 10) * (r - 10) + z * z) / 6)).
  assert (E : forall c, 0 <= c -> sqrt ((10 + c * 1 - 10) * (10 + c * 1 - 10) + (0 + c * 0) * (0 + c * 0)) = c).
  { intros c C. replace ((10 + c * 1 - 10) * (10 + c * 1 - 10) + (0 + c * 0) * (0 + c * 0)) with (c * c) by ring. now apply sqrt_square. }
  split. { f_equal. replace ((16 - 10) * (16 - 10) + 0 * 0) with (6 * 6) by ring. rewrite sqrt_square by lra. field. }
  split; [reflexivity|]. split; [reflexivity|]. intros n.
  destruct (rhotheta1 _ _ _ _ _ _ _) as [[x y]|] eqn:H; [exfalso|reflexivity].
  apply rt_sound in H. destruct H as (ar & az & AX & _ & H). inversion AX. subst ar az. cbn [fst snd] in H.
  destruct H as [(_ & _ & F)|(_ & c & C & X & Y & _ & _ & T)].
  - replace ((10 - 10) * (10 - 10) + 0 * 0) with 0 in F by ring. rewrite sqrt_0 in F. lra.
  - rewrite cos_0 in X. rewrite sin_0 in Y. subst x y. rewrite E in T by lra. apply Rabs_def2 in T. lra.
Qed.

(** ** Gradient descent *)
Definition nrm2 (a b : R) : R := sqrt (a * a + b * b).
Lemma nrm2_pos : forall a b, 0 <= nrm2 a b.
Proof. intros. apply sqrt_pos. Qed.
Lemma nrm2_sq : forall a b, nrm2 a b * nrm2 a b = a * a + b * b.
Proof. intros. unfold nrm2. apply sqrt_sqrt. nra. Qed.
Lemma nrm2_scal : forall k a b, nrm2 (k * a) (k * b) = Rabs k * nrm2 a b.
Proof.
  intros. unfold nrm2. replace (k * a * (k * a) + k * b * (k * b)) with (Rsqr k * (a * a + b * b)) by (unfold Rsqr; ring).
  rewrite sqrt_mult, sqrt_Rsqr_abs; auto; [apply Rle_0_sqr|nra].
Qed.
Lemma nrm2_CS : forall a b c d, Rabs (a * c + b * d) <= nrm2 a b * nrm2 c d.
Proof.
  intros.
  assert (H : Rsqr (a * c + b * d) <= Rsqr (nrm2 a b * nrm2 c d)).
  { unfold Rsqr. replace (nrm2 a b * nrm2 c d * (nrm2 a b * nrm2 c d)) with ((nrm2 a b * nrm2 a b) * (nrm2 c d * nrm2 c d)) by ring. rewrite !nrm2_sq.
    replace ((a * a + b * b) * (c * c + d * d)) with ((a * c + b * d) * (a * c + b * d) + (a * d - b * c) * (a * d - b * c)) by ring. pose proof (Rle_0_sqr (a * d - b * c)) as Q. unfold Rsqr in Q. lra. }
  apply Rsqr_le_abs_0 in H. rewrite (Rabs_right (nrm2 a b * nrm2 c d)) in H; auto.
  apply Rle_ge, Rmult_le_pos; apply nrm2_pos.
Qed.

Section descent.
Variable eval_psi : R -> R -> R -> Z * (R * R * R * R).
Lemma gd_terminates : forall fuel ph step tol maxiter iter r z, (0 <= iter < maxiter)%Z -> (Z.to_nat (maxiter - iter) <= fuel)%nat ->
  descend eval_psi fuel ph step tol maxiter iter r z <> None.
Proof.
  induction fuel as [|fuel IH]; intros ph step tol maxiter iter r z I F; [lia|]. cbn [descend].
  destruct (eval_psi r ph z) as [e [[[p dr] dp] dz]]. destruct (negb (e =? 0)%Z); [discriminate|].
  destruct (Rlt_dec _ tol). { destruct (eval_psi _ ph _) as [? [[[? ?] ?] ?]]. discriminate. }
  destruct (Z.eqb_spec (iter + 1) maxiter); [discriminate|]. apply IH; lia.
Qed.
Lemma gd_fuel : forall fuel fuel' ph step tol maxiter iter r z o, (fuel <= fuel')%nat ->
  descend eval_psi fuel ph step tol maxiter iter r z = Some o -> descend eval_psi fuel' ph step tol maxiter iter r z = Some o.
Proof.
  induction fuel as [|fuel IH]; intros fuel' ph step tol maxiter iter r z o F H; [discriminate|]. destruct fuel' as [|fuel']; [lia|]. cbn [descend] in *.
  destruct (eval_psi r ph z) as [e [[[p dr] dp] dz]]. destruct (negb (e =? 0)%Z); auto.
  destruct (Rlt_dec _ tol); auto. destruct (Z.eqb_spec (iter + 1) maxiter); auto. apply IH; auto. lia.
Qed.

(** a region in which psi and its gradient are known, and which the descent does not leave *)
Variables (ph : R) (D : R -> R -> Prop) (psi gr gz : R -> R -> R).
Hypothesis KNOWN : forall r z, D r z -> exists dp, eval_psi r ph z = (0%Z, (psi r z, gr r z, dp, gz r z)).
Hypothesis GRAD : forall r z, D r z -> diff2 psi r z (gr r z) (gz r z).
Variables (L step : R).
Hypothesis LIP : forall r z r' z', D r z -> D r' z' -> nrm2 (gr r' z' - gr r z) (gz r' z' - gz r z) <= L * nrm2 (r' - r) (z' - z).
Hypothesis STEP : 0 < step /\ 0 <= L /\ L * step <= 1.
Hypothesis STAY : forall r z t, D r z -> 0 <= t <= step -> D (r - t * gr r z) (z - t * gz r z).

(** one step lowers psi by at least half of what the gradient promises *)
Lemma descent_lemma : forall r z, D r z ->
  psi (r - step * gr r z) (z - step * gz r z) <= psi r z - step / 2 * (gr r z * gr r z + gz r z * gz r z).
Proof.
  intros r z DD. set (a := gr r z). set (b := gz r z). set (G := a * a + b * b).
  set (g := fun t => - (gr (r - t * a) (z - t * b) * a + gz (r - t * a) (z - t * b) * b)).
  set (h := fun t => psi (r - t * a) (z - t * b) + (t * G - L * (t * t) / 2 * G)).
  destruct STEP as (S0 & L0 & LS).
  assert (HD : forall t, 0 <= t <= step -> derivable_pt_lim h t (g t + (G - L * t * G))).
  { intros t T. unfold h. apply d_plus.
    - eapply d_eq; [apply (GRAD _ _ (STAY r z t DD T) (fun t => r - t * a) (fun t => z - t * b) t (- a) (- b)); auto; der; ring|]. fold a b. unfold g. ring.
    - der. field. }
  destruct (MVT_cor2 h (fun t => g t + (G - L * t * G)) 0 step S0 HD) as (t & E & T).
  assert (g t <= - G + L * t * G).
  { unfold g. pose proof (LIP r z (r - t * a) (z - t * b) DD (STAY r z t DD ltac:(lra))) as LP. fold a b in LP.
    replace (r - t * a - r) with ((- t) * a) in LP by ring. replace (z - t * b - z) with ((- t) * b) in LP by ring.
    rewrite nrm2_scal, Rabs_Ropp, (Rabs_right t) in LP by lra.
    pose proof (nrm2_CS (gr (r - t * a) (z - t * b) - a) (gz (r - t * a) (z - t * b) - b) a b) as CS.
    pose proof (nrm2_pos a b) as NP. pose proof (nrm2_sq a b) as NS. fold G in NS.
    set (X := gr (r - t * a) (z - t * b)) in *. set (Y := gz (r - t * a) (z - t * b)) in *.
    assert (B1 : Rabs ((X - a) * a + (Y - b) * b) <= L * t * G).
    { eapply Rle_trans; [exact CS|]. rewrite <- NS. nra. }
    replace ((X - a) * a + (Y - b) * b) with (X * a + Y * b - G) in B1 by (unfold G; ring). pose proof (Rle_abs (- (X * a + Y * b - G))) as RA. rewrite Rabs_Ropp in RA. lra. }
  assert (h step <= h 0) by nra. unfold h in H0. replace (r - 0 * a) with r in H0 by ring. replace (z - 0 * b) with z in H0 by ring.
  assert (0 <= G) by (unfold G; nra). fold G. assert (L * step * (step * G) <= 1 * (step * G)) by (apply Rmult_le_compat_r; [apply Rmult_le_pos; lra|lra]). lra.
Qed.

Variables (m tol : R).
Hypothesis BELOW : forall r z, D r z -> m <= psi r z.
Hypothesis TOL : 0 < tol.
(** what the descent returns: a point one step after one whose gradient is below tol/step *)
Definition settled (r0 z0 : R) (o : option R * (R * R)) : Prop :=
  exists r z, D r z /\ psi r z <= psi r0 z0 /\ step * nrm2 (gr r z) (gz r z) < tol /\
  let r' := r - step * gr r z in let z' := z - step * gz r z in
  D r' z' /\ psi r' z' <= psi r z /\ o = (Some (psi r z + tol * (gr r' z' + gz r' z')), (r', z')).
Lemma gd_converges : forall n r z maxiter iter, D r z -> 2 * step * (psi r z - m) < INR n * (tol * tol) -> (maxiter <= 0 \/ iter + Z.of_nat n <= maxiter)%Z -> (0 <= iter)%Z ->
  exists o, descend eval_psi n ph step tol maxiter iter r z = Some o /\ settled r z o.
Proof.
  induction n as [|n IH]; intros r z maxiter iter DD W MX I0.
  - pose proof (BELOW r z DD). cbn [INR] in W. destruct STEP. nra.
  - cbn [descend]. destruct (KNOWN r z DD) as [dp ->]. cbn [Z.eqb negb].
    set (r' := r - step * gr r z). set (z' := z - step * gz r z). destruct STEP as (S0 & _ & _).
    assert (D' : D r' z') by (apply STAY; [auto|lra]).
    pose proof (descent_lemma r z DD) as DL. fold r' z' in DL.
    assert (E : sqrt ((r' - r) * (r' - r) + (z' - z) * (z' - z)) = step * nrm2 (gr r z) (gz r z)).
    { change (nrm2 (r' - r) (z' - z) = step * nrm2 (gr r z) (gz r z)). unfold r', z'.
      replace (r - step * gr r z - r) with ((- step) * gr r z) by ring. replace (z - step * gz r z - z) with ((- step) * gz r z) by ring.
      rewrite nrm2_scal, Rabs_Ropp, Rabs_right by lra. reflexivity. }
    rewrite E. pose proof (nrm2_sq (gr r z) (gz r z)) as NS. pose proof (nrm2_pos (gr r z) (gz r z)) as NP. rewrite <- NS in DL. set (N := nrm2 (gr r z) (gz r z)) in *.
    destruct (Rlt_dec (step * N) tol) as [C|C].
    + destruct (KNOWN r' z' D') as [dp' ->]. eexists. split; [reflexivity|]. exists r, z. fold N r' z'. repeat split; auto; try lra.
      * nra.
      * f_equal. f_equal. ring.
    + assert (DEC : 2 * step * psi r' z' <= 2 * step * psi r z - tol * tol).
      { assert (tol * tol <= (step * N) * (step * N)) by (apply Rmult_le_compat; lra). assert (2 * step * psi r' z' <= 2 * step * (psi r z - step / 2 * (N * N))) by (apply Rmult_le_compat_l; lra). nra. }
      rewrite S_INR in W. destruct (Z.eqb_spec (iter + 1) maxiter) as [Q|Q].
      * exfalso. assert (n = 0)%nat by lia. subst n. cbn [INR] in W. pose proof (BELOW r' z' D'). nra.
      * destruct (IH r' z' maxiter (iter + 1)%Z D' ltac:(lra) ltac:(lia) ltac:(lia)) as (o & O1 & (r1 & z1 & Q1 & Q2 & Q3)).
        exists o. split; [exact O1|]. exists r1, z1. split; [auto|]. split; [nra|exact Q3].
Qed.
(** if psi grows quadratically away from the axis (rx, zx), the returned point is close to it *)
Lemma gd_near_axis : forall r0 z0 psi0 r z rx zx g, settled r0 z0 (psi0, (r, z)) -> 0 < g ->
  (forall r z, D r z -> g * (nrm2 (r - rx) (z - zx) * nrm2 (r - rx) (z - zx)) <= gr r z * (r - rx) + gz r z * (z - zx)) ->
  g * step * nrm2 (r - rx) (z - zx) < tol + g * step * tol.
Proof.
  intros r0 z0 psi0 r z rx zx g (r1 & z1 & D1 & _ & N1 & D' & _ & E) G CV. destruct STEP as (S0 & L0 & LS).
  inversion E. subst r z. clear E. set (r' := r1 - step * gr r1 z1) in *. set (z' := z1 - step * gz r1 z1) in *.
  pose proof (CV r1 z1 D1) as C. pose proof (nrm2_CS (gr r1 z1) (gz r1 z1) (r1 - rx) (z1 - zx)) as CS. pose proof (Rle_abs (gr r1 z1 * (r1 - rx) + gz r1 z1 * (z1 - zx))) as RA.
  set (N := nrm2 (gr r1 z1) (gz r1 z1)) in *. set (M := nrm2 (r1 - rx) (z1 - zx)) in *. assert (M0 : 0 <= M) by apply nrm2_pos.
  assert (GM : g * M <= N). { destruct (Req_dec M 0) as [->|]; [rewrite Rmult_0_r; apply nrm2_pos|]. apply Rmult_le_reg_r with M; [lra|]. lra. }
  assert (TRI : nrm2 (r' - rx) (z' - zx) <= M + step * N).
  { assert (TR : forall a b c d, nrm2 (a + c) (b + d) <= nrm2 a b + nrm2 c d).
    { intros a b c d. apply Rsqr_incr_0_var; [|pose proof (nrm2_pos a b); pose proof (nrm2_pos c d); lra]. unfold Rsqr. rewrite nrm2_sq.
      replace ((nrm2 a b + nrm2 c d) * (nrm2 a b + nrm2 c d)) with (nrm2 a b * nrm2 a b + nrm2 c d * nrm2 c d + 2 * (nrm2 a b * nrm2 c d)) by ring. rewrite !nrm2_sq.
      pose proof (nrm2_CS a b c d). pose proof (Rle_abs (a * c + b * d)). lra. }
    unfold r', z'. replace (r1 - step * gr r1 z1 - rx) with ((r1 - rx) + (- step) * gr r1 z1) by ring. replace (z1 - step * gz r1 z1 - zx) with ((z1 - zx) + (- step) * gz r1 z1) by ring.
    eapply Rle_trans; [apply TR|]. rewrite nrm2_scal, Rabs_Ropp, Rabs_right by lra. fold M N. lra. }
  assert (g * step * nrm2 (r' - rx) (z' - zx) <= g * step * (M + step * N)) by (apply Rmult_le_compat_l; nra).
  assert (0 < g * step) by nra. assert (g * step * M <= step * N) by nra. nra.
Qed.
End descent.
(** climbing on psi is descending on -psi *)
Definition minus_psi (eval_psi : R -> R -> R -> Z * (R * R * R * R)) : R -> R -> R -> Z * (R * R * R * R) :=
  fun r ph z => let '(e, (p, dr, dp, dz)) := eval_psi r ph z in (e, (- p, - dr, - dp, - dz)).
Definition minus_result {A} (o : option (option R * A)) : option (option R * A) := option_map (fun '(p, x) => (option_map Ropp p, x)) o.
Lemma gd_ascent : forall eval_psi fuel r z ph step tol maxiter,
  gradient_descent eval_psi fuel r z ph step tol maxiter true = minus_result (gradient_descent (minus_psi eval_psi) fuel r z ph step tol maxiter false).
Proof.
  intros eval_psi fuel r z ph step tol maxiter. unfold gradient_descent. generalize 0%Z. revert r z.
  induction fuel as [|fuel IH]; intros r z iter; [reflexivity|]. cbn [descend]. unfold minus_psi at 1.
  destruct (eval_psi r ph z) as [e [[[p dr] dp] dz]]. destruct (negb (e =? 0)%Z); [reflexivity|].
  replace (r - -1 * step * dr) with (r - step * - dr) by ring. replace (z - -1 * step * dz) with (z - step * - dz) by ring.
  destruct (Rlt_dec _ tol).
  - unfold minus_psi. destruct (eval_psi (r - step * - dr) ph (z - step * - dz)) as [? [[[? ?] ?] ?]]. cbn. do 3 f_equal. ring.
  - destruct (_ =? _)%Z; [reflexivity|]. apply IH.
Qed.
Lemma gd3_ascent : forall eval_psi fuel r z ph a b step tol maxiter,
  gradient_descent_3d eval_psi fuel r z ph a b step tol maxiter true = minus_result (gradient_descent_3d (minus_psi eval_psi) fuel r z ph a b step tol maxiter false).
Proof.
  intros eval_psi fuel r z ph a b step tol maxiter. unfold gradient_descent_3d. generalize 0%Z. revert r z ph.
  induction fuel as [|fuel IH]; intros r z ph iter; [reflexivity|]. cbn [descend3]. unfold minus_psi at 1.
  destruct (eval_psi r ph z) as [e [[[p dr] dp] dz]]. destruct (negb (e =? 0)%Z); [reflexivity|].
  replace (r - -1 * step * dr) with (r - step * - dr) by ring. replace (z - -1 * step * dz) with (z - step * - dz) by ring.
  replace (ph - -1 * step / r * dp) with (ph - step / r * - dp) by (unfold Rdiv; ring). cbv zeta.
  set (np := if Rlt_dec (if Rgt_dec (ph - step / r * - dp) b then b else ph - step / r * - dp) a then a else if Rgt_dec (ph - step / r * - dp) b then b else ph - step / r * - dp).
  destruct (Rlt_dec _ tol).
  - unfold minus_psi. destruct (eval_psi (r - step * - dr) np (z - step * - dz)) as [? [[[? ?] ?] ?]]. cbn. do 3 f_equal. unfold Rdiv. ring.
  - destruct (_ =? _)%Z; [reflexivity|]. apply IH.
Qed.
(** finding: with a maximum number of iterations that is not positive the loop need not end *)
Lemma gd_endless : forall maxiter, (maxiter <= 0)%Z -> forall fuel,
  gradient_descent (fun r _ _ => (0%Z, (r, 1, 0, 0))) fuel 5 0 0 1 (1 / 2) maxiter false = None.
Proof.
  intros maxiter M fuel. unfold gradient_descent.
  assert (H : forall fuel r z iter, (0 <= iter)%Z -> descend (fun r _ _ => (0%Z, (r, 1, 0, 0))) fuel 0 1 (1 / 2) maxiter iter r z = None).
  { clear fuel. induction fuel as [|fuel IH]; intros r z iter I; [reflexivity|]. cbn [descend Z.eqb negb].
    assert (Q : sqrt ((r - 1 * 1 - r) * (r - 1 * 1 - r) + (z - 1 * 0 - z) * (z - 1 * 0 - z)) = 1) by (replace ((r - 1 * 1 - r) * (r - 1 * 1 - r) + (z - 1 * 0 - z) * (z - 1 * 0 - z)) with 1 by ring; apply sqrt_1).
    rewrite Q. destruct (Rlt_dec 1 (1 / 2)) as [C|C]; [lra|]. destruct (Z.eqb_spec (iter + 1) maxiter); [lia|]. apply IH. lia. }
  apply H. lia.
Qed.
(** finding: the padding has no definite sign, so that the value taken for the axis can exceed the minimum *)
Lemma gd_padding : exists eval_psi, (forall r ph z, eval_psi r ph z = (0%Z, ((r - 2) * (r - 2) + z * z, 2 * (r - 2), 0, 2 * z))) /\
  exists r p r', gradient_descent eval_psi 1 r 0 0 (1 / 4) (1 / 10) 9 false = Some (Some p, r') /\ 0 < p /\
  exists r p r', gradient_descent eval_psi 1 r 0 0 (1 / 4) (1 / 10) 9 false = Some (Some p, r') /\ p < 0.
Proof.
  exists (fun r _ z => (0%Z, ((r - 2) * (r - 2) + z * z, 2 * (r - 2), 0, 2 * z))). split; [reflexivity|].
  assert (H : forall d, -1 / 10 < d < 1 / 10 -> gradient_descent (fun r _ z => (0%Z, ((r - 2) * (r - 2) + z * z, 2 * (r - 2), 0, 2 * z))) 1 (2 + d) 0 0 (1 / 4) (1 / 10) 9 false = Some (Some (d * d + d / 10), (2 + d / 2, 0))).
  { intros d B. unfold gradient_descent. cbn [descend Z.eqb negb].
    replace (2 + d - 1 / 4 * (2 * (2 + d - 2))) with (2 + d / 2) by field. replace (0 - 1 / 4 * (2 * 0)) with 0 by field.
    destruct (Rlt_dec _ (1 / 10)) as [_|C].
    - do 3 f_equal. field.
    - exfalso. apply C. replace ((2 + d / 2 - (2 + d)) * (2 + d / 2 - (2 + d)) + (0 - 0) * (0 - 0)) with (Rsqr (d / 2)) by (unfold Rsqr; field).
      rewrite sqrt_Rsqr_abs. apply Rabs_def1; lra. }
  exists (2 + 1 / 20), (1 / 20 * (1 / 20) + 1 / 20 / 10), (2 + 1 / 20 / 2, 0). split; [apply H; lra|]. split; [lra|].
  exists (2 + -1 / 20), (-1 / 20 * (-1 / 20) + -1 / 20 / 10), (2 + -1 / 20 / 2, 0). split; [apply H; lra|]. lra.
Qed.
Lemma gd3_terminates : forall eval_psi fuel a b step tol maxiter iter r z ph, (0 <= iter < maxiter)%Z -> (Z.to_nat (maxiter - iter) <= fuel)%nat ->
  descend3 eval_psi fuel a b step tol maxiter iter r z ph <> None.
Proof.
  intros eval_psi. induction fuel as [|fuel IH]; intros a b step tol maxiter iter r z ph I F; [lia|]. cbn [descend3].
  destruct (eval_psi r ph z) as [e [[[p dr] dp] dz]]. destruct (negb (e =? 0)%Z); [discriminate|]. cbv zeta.
  match goal with |- context [Rlt_dec (sqrt ?x) tol] => destruct (Rlt_dec (sqrt x) tol) end. { destruct (eval_psi _ _ _) as [? [[[? ?] ?] ?]]. discriminate. }
  destruct (Z.eqb_spec (iter + 1) maxiter); [discriminate|]. apply IH; lia.
Qed.
(** the search does not leave the sector *)
Lemma gd3_sector : forall eval_psi fuel a b step tol maxiter iter r z ph p r' z' ph', a <= b -> a <= ph <= b ->
  descend3 eval_psi fuel a b step tol maxiter iter r z ph = Some (p, (r', z', ph')) -> a <= ph' <= b.
Proof.
  intros eval_psi. induction fuel as [|fuel IH]; intros a b step tol maxiter iter r z ph p r' z' ph' AB P H; [discriminate|]. cbn [descend3] in H.
  destruct (eval_psi r ph z) as [e [[[q dr] dp] dz]]. destruct (negb (e =? 0)%Z). { inversion H. subst. auto. } cbv zeta in H.
  set (np := if Rlt_dec (if Rgt_dec (ph - step / r * dp) b then b else ph - step / r * dp) a then a else if Rgt_dec (ph - step / r * dp) b then b else ph - step / r * dp) in *.
  assert (NP : a <= np <= b). { unfold np. destruct (Rgt_dec (ph - step / r * dp) b); [destruct (Rlt_dec b a)|destruct (Rlt_dec (ph - step / r * dp) a)]; lra. }
  destruct (Rlt_dec _ tol). { destruct (eval_psi (r - step * dr) np _) as [? [[[? ?] ?] ?]]. inversion H. subst. auto. }
  destruct (_ =? _)%Z. { inversion H. subst. auto. }
  eapply IH; eauto.
Qed.
(** one iteration: a step in R and z, and one in phi that is cut off at the nearer end of the sector *)
Lemma gd3_step : forall (eval_psi : R -> R -> R -> Z * (R * R * R * R)) r ph z a b step tol p dr dp dz, a <= b -> eval_psi r ph z = (0%Z, (p, dr, dp, dz)) ->
  exists o, gradient_descent_3d eval_psi 1 r z ph a b step tol 1 false = Some (o, (r - step * dr, z - step * dz, Rmax a (Rmin b (ph - step / r * dp)))).
Proof.
  intros eval_psi r ph z a b step tol p dr dp dz AB E. unfold gradient_descent_3d. cbn [descend3]. rewrite E. cbn [Z.eqb negb]. cbv zeta.
  set (np := if Rlt_dec (if Rgt_dec (ph - step / r * dp) b then b else ph - step / r * dp) a then a else if Rgt_dec (ph - step / r * dp) b then b else ph - step / r * dp).
  assert (NP : Rmax a (Rmin b (ph - step / r * dp)) = np).
  { unfold np, Rmax, Rmin. destruct (Rle_dec b (ph - step / r * dp)), (Rgt_dec (ph - step / r * dp) b); try lra.
    - destruct (Rle_dec a b); [|lra]. destruct (Rlt_dec b a); lra.
    - destruct (Rle_dec a b); [|lra]. destruct (Rlt_dec (ph - step / r * dp) a); lra.
    - destruct (Rle_dec a (ph - step / r * dp)), (Rlt_dec (ph - step / r * dp) a); lra. }
  rewrite NP. clearbody np. destruct (Rlt_dec _ tol); [|cbn; eauto]. destruct (eval_psi (r - step * dr) np _) as [? [[[? ?] ?] ?]]. eauto.
Qed.
(** finding: the toroidal part of the step is R times too long for a step along the gradient, which has the components
    (dpsi/dR, 1/R dpsi/dphi, dpsi/dz) *)
Lemma gd3_direction : forall (eval_psi : R -> R -> R -> Z * (R * R * R * R)) r ph z a b step tol p dr dp dz, 0 < r -> step <> 0 -> eval_psi r ph z = (0%Z, (p, dr, dp, dz)) ->
  a <= ph - step / r * dp <= b ->
  exists o r' z' ph', gradient_descent_3d eval_psi 1 r z ph a b step tol 1 false = Some (o, (r', z', ph')) /\
  r' - r = - step * dr /\ z' - z = - step * dz /\ r * (ph' - ph) = - step * (dp / r) * r /\
  ((exists k, r' - r = k * dr /\ r * (ph' - ph) = k * (dp / r)) <-> dr = 0 \/ dp = 0 \/ r = 1).
Proof.
  intros eval_psi r ph z a b step tol p dr dp dz R0 S0 E B. unfold gradient_descent_3d. cbn [descend3]. rewrite E. cbn [Z.eqb negb].
  destruct (Rgt_dec (ph - step / r * dp) b); [lra|]. destruct (Rlt_dec (ph - step / r * dp) a); [lra|].
  assert (X : exists o, (if Rlt_dec (sqrt ((r - step * dr - r) * (r - step * dr - r) + (z - step * dz - z) * (z - step * dz - z) + r * (ph - step / r * dp - ph) * r * (ph - step / r * dp - ph))) tol
    then let '(_, (_, dr', dp', dz')) := eval_psi (r - step * dr) (ph - step / r * dp) (z - step * dz) in
       Some (Some (p + tol * (dr' + dp' / (r - step * dr) + dz')), (r - step * dr, z - step * dz, ph - step / r * dp))
    else if (0 + 1 =? 1)%Z then Some (None, (r - step * dr, z - step * dz, ph - step / r * dp))
    else descend3 eval_psi 0 a b step tol 1 (0 + 1) (r - step * dr) (z - step * dz) (ph - step / r * dp)) = Some (o, (r - step * dr, z - step * dz, ph - step / r * dp))).
  { destruct (Rlt_dec _ tol); [|cbn; eauto]. destruct (eval_psi (r - step * dr) _ _) as [? [[[? ?] ?] ?]]. eauto. }
  destruct X as [o X]. exists o. do 3 eexists. split; [exact X|]. split; [ring|]. split; [ring|]. split; [field; lra|].
  split.
  - intros (k & K1 & K2). destruct (Req_dec dr 0); [auto|]. destruct (Req_dec dp 0); [auto|]. right. right.
    assert (KE : k = - step) by (apply Rmult_eq_reg_r with dr; lra). rewrite KE in K2.
    assert (Q : r * (ph - step / r * dp - ph) = - step * dp) by (field; lra). rewrite Q in K2.
    assert (step * dp * (r - 1) = 0). { apply Rmult_eq_reg_r with (/ r); [|apply Rinv_neq_0_compat; lra]. rewrite Rmult_0_l. transitivity (step * dp - step * (dp / r)); [field; lra|lra]. }
    apply Rmult_integral in H1. destruct H1 as [H1|H1]; [|lra]. apply Rmult_integral in H1. tauto.
  - intros [ -> | [ -> | -> ] ].
    + exists (- step * r). split; [ring|field; lra].
    + exists (- step). split; [ring|field; lra].
    + exists (- step). split; [ring|field].
Qed.

(** ** Safety factor and Jacobian *)
Lemma boozer_fun_spec : forall ptz B r q, r <> 0 ->
  let gpsi := V (ptz 1%nat) (ptz 2%nat / r) (ptz 3%nat) in let gth := V (ptz 5%nat) (ptz 6%nat / r) (ptz 7%nat) in let gze := V (ptz 9%nat) (ptz 10%nat / r) (ptz 11%nat) in
  B = cross gpsi (vsub gze (vscal q gth)) -> vy (cross gpsi gth) <> 0 -> dot gpsi (cross gth gze) <> 0 ->
  let '(q', jac, jacB2) := boozer_fun ptz B r in
  q' = q /\ jac * dot B gth = 1 /\ jac * dot B gze = q /\ jacB2 = jac * dot B B.
Proof.
  intros ptz B r q R0 gpsi gth gze EB N1 N2. unfold boozer_fun. cbv zeta. fold gpsi gth gze. clearbody gpsi gth gze. subst B.
  assert (J : dot (cross gth gze) gpsi = dot gpsi (cross gth gze)) by (unfold dot; ring). rewrite J.
  unfold norm. rewrite Rmult_assoc, sqrt_sqrt by nra.
  destruct gpsi as [a1 a2 a3], gth as [b1 b2 b3], gze as [c1 c2 c3]. unfold dot, cross, vsub, vscal in *. cbn [vx vy vz] in *.
  repeat split; field; auto.
Qed.

(** ** Array layouts *)
Lemma background_writes : forall eval e nspec neval d t,
  let '(d', t') := background eval e nspec neval (d, t) in
  forall k i, (k < neval)%nat -> (i < nspec)%nat ->
  d' (k + i * neval)%nat = (if (fst (eval k) =? 0)%Z then fst (snd (eval k) i) else d (k + i * neval)%nat) /\
  t' (k + i * neval)%nat = (if (fst (eval k) =? 0)%Z then snd (snd (eval k) i) / e else t (k + i * neval)%nat).
Proof.
  intros eval e nspec neval d t.
  set (f := fun (pick : R * R -> R) k a => if negb (fst (eval k) =? 0)%Z then a else loop nspec (fun i a => put a (k + i * neval) (pick (snd (eval k) i))) a).
  assert (E : background eval e nspec neval (d, t) = (loop neval (f fst) d, loop neval (f (fun p => snd p / e)) t)).
  { unfold background. apply loop_pair. intros k a b. unfold f. destruct (eval k) as [er v]. cbn [fst snd]. destruct (negb (er =? 0)%Z); [reflexivity|].
    apply (loop_pair nspec _ (fun i a => put a (k + i * neval) (fst (v i))) (fun i a => put a (k + i * neval) (snd (v i) / e))). reflexivity. }
  rewrite E. clear E.
  assert (W : forall pick, writes (loop neval (f pick)) (fun m x => exists k, (k < neval)%nat /\ (negb (fst (eval k) =? 0)%Z = false /\ exists i, (i < nspec)%nat /\ m = (k + i * neval)%nat /\ x = pick (snd (eval k) i)))).
  { intros pick. apply loop_writes.
    - intros k K. apply skip_writes. apply loop_writes; [intros i I; apply put_writes|]. intros i i' m x x' I I' [M _] [M' _]. nia.
    - intros k k' m x x' K K' (_ & i & I & M & _) (_ & i' & I' & M' & _). rewrite M in M'.
      assert (i = i') by nia. nia. }
  assert (Q : forall pick a k i, (k < neval)%nat -> (i < nspec)%nat -> loop neval (f pick) a (k + i * neval)%nat = if (fst (eval k) =? 0)%Z then pick (snd (eval k) i) else a (k + i * neval)%nat).
  { intros pick a k i K I. destruct (W pick a (k + i * neval)%nat) as [W1 W2]. destruct (Z.eqb_spec (fst (eval k)) 0) as [EE|EE].
    - apply W1. exists k. split; [auto|]. split; [rewrite EE; reflexivity|]. exists i. auto.
    - apply W2. intros x (k' & K' & F & i' & I' & M & _). assert (k = k') by (assert (i = i') by nia; nia). subst k'. destruct (Z.eqb_spec (fst (eval k)) 0); [contradiction|discriminate]. }
  intros k i K I. split; apply Q; auto.
Qed.
Lemma coll_index : forall nspec nv neval ib k iv ib' k' iv', (ib < nspec)%nat -> (k < neval)%nat -> (iv < nv)%nat -> (ib' < nspec)%nat -> (k' < neval)%nat -> (iv' < nv)%nat ->
  (ib * nv * neval + nv * k + iv = ib' * nv * neval + nv * k' + iv')%nat -> ib = ib' /\ k = k' /\ iv = iv'.
Proof.
  intros nspec nv neval ib k iv ib' k' iv' B K I B' K' I' E.
  assert (E' : (nv * (ib * neval + k) + iv = nv * (ib' * neval + k') + iv')%nat) by lia.
  destruct (Nat.div_mod_unique nv (ib * neval + k) (ib' * neval + k') iv iv' I I' E') as [Q ->].
  assert (Q' : (neval * ib + k = neval * ib' + k')%nat) by lia.
  destruct (Nat.div_mod_unique neval ib ib' k k' K K' Q') as [-> ->]. auto.
Qed.
Lemma collcoefs_writes : forall eval nspec nv neval out ib k iv, (ib < nspec)%nat -> (k < neval)%nat -> (iv < nv)%nat ->
  collcoefs eval nspec nv neval out (ib * nv * neval + nv * k + iv)%nat = if (fst (eval k) =? 0)%Z then snd (eval k) iv ib else out (ib * nv * neval + nv * k + iv)%nat.
Proof.
  intros eval nspec nv neval out ib k iv B K I.
  set (f := fun k a => if negb (fst (eval k) =? 0)%Z then a else loop nv (fun iv out => loop nspec (fun ib out => put out (ib * nv * neval + nv * k + iv) (snd (eval k) iv ib)) out) a).
  assert (E : forall k s, (let '(err, v) := eval k in if negb (err =? 0)%Z then s else loop nv (fun iv out => loop nspec (fun ib out => put out (ib * nv * neval + nv * k + iv) (v iv ib)) out) s) = f k s).
  { intros k0 s. unfold f. destruct (eval k0) as [er v]. reflexivity. }
  assert (W : writes (collcoefs eval nspec nv neval) (fun m x => exists k, (k < neval)%nat /\ (negb (fst (eval k) =? 0)%Z = false /\ exists iv, (iv < nv)%nat /\ exists ib, (ib < nspec)%nat /\ m = (ib * nv * neval + nv * k + iv)%nat /\ x = snd (eval k) iv ib))).
  { unfold collcoefs. apply loop_writes.
    - intros k0 K0. eapply writes_ext; [intros s; symmetry; apply E|]. unfold f. apply skip_writes. apply loop_writes.
      + intros iv0 I0. apply loop_writes; [intros ib0 B0; apply put_writes|]. intros i i' m x x' J J' [M _] [M' _]. rewrite M in M'. eapply coll_index in M'; eauto. tauto.
      + intros i i' m x x' J J' (b & B0 & M & _) (b' & B0' & M' & _). rewrite M in M'. eapply coll_index in M'; eauto. tauto.
    - intros k0 k' m x x' K0 K' (_ & i & J & b & B0 & M & _) (_ & i' & J' & b' & B0' & M' & _). rewrite M in M'. eapply coll_index in M'; eauto. tauto. }
  destruct (W out (ib * nv * neval + nv * k + iv)%nat) as [W1 W2]. destruct (Z.eqb_spec (fst (eval k)) 0) as [EE|EE].
  - apply W1. exists k. split; [auto|]. split; [rewrite EE; reflexivity|]. exists iv. split; [auto|]. exists ib. auto.
  - apply W2. intros x (k' & K' & F & iv' & I' & ib' & B' & M & _). eapply coll_index in M; eauto. destruct M as (_ & <- & _). destruct (Z.eqb_spec (fst (eval k)) 0); [contradiction|discriminate].
Qed.
Lemma ratecoeff_writes : forall eval nv neval out k j, (k < neval)%nat -> (j < nv)%nat ->
  ratecoeff eval nv neval out (nv * k + j)%nat = if (fst (eval k) =? 0)%Z && (fst (snd (eval k) j) =? 0)%Z then snd (snd (eval k) j) else out (nv * k + j)%nat.
Proof.
  intros eval nv neval out k j K J.
  set (f := fun k a => if negb (fst (eval k) =? 0)%Z then a else loop nv (fun j out => if negb (fst (snd (eval k) j) =? 0)%Z then out else put out (nv * k + j) (snd (snd (eval k) j))) a).
  assert (E : forall n k s, (fun j0 (out0 : nat -> R) => let '(e, x) := snd (eval k) j0 in if negb (e =? 0)%Z then out0 else put out0 (nv * k + j0) x) n s = if negb (fst (snd (eval k) n) =? 0)%Z then s else put s (nv * k + n) (snd (snd (eval k) n))).
  { intros n k0 s. cbv beta. destruct (snd (eval k0) n) as [er v]. reflexivity. }
  assert (W : writes (ratecoeff eval nv neval) (fun m x => exists k, (k < neval)%nat /\ (negb (fst (eval k) =? 0)%Z = false /\ exists j, (j < nv)%nat /\ (negb (fst (snd (eval k) j) =? 0)%Z = false /\ m = (nv * k + j)%nat /\ x = snd (snd (eval k) j))))).
  { unfold ratecoeff. apply loop_writes.
    - intros k0 K0. eapply (writes_ext (fun s => if negb (fst (eval k0) =? 0)%Z then s else loop nv (fun j0 (out0 : nat -> R) => let '(e, x) := snd (eval k0) j0 in if negb (e =? 0)%Z then out0 else put out0 (nv * k0 + j0) x) s)).
      { intros s. destruct (eval k0) as [er v]. reflexivity. }
      apply skip_writes. apply loop_writes.
      + intros j0 J0. eapply writes_ext; [intros s; symmetry; apply (E j0 k0 s)|]. apply skip_writes, put_writes.
      + intros i i' m x x' I I' (_ & M & _) (_ & M' & _). lia.
    - intros k0 k' m x x' K0 K' (_ & i & I & _ & M & _) (_ & i' & I' & _ & M' & _). rewrite M in M'. eapply (Nat.div_mod_unique nv) in M'; tauto. }
  destruct (W out (nv * k + j)%nat) as [W1 W2]. destruct (Z.eqb_spec (fst (eval k)) 0) as [EE|EE]; [destruct (Z.eqb_spec (fst (snd (eval k) j)) 0) as [EJ|EJ]|]; cbn [andb].
  - apply W1. exists k. split; [auto|]. split; [rewrite EE; reflexivity|]. exists j. rewrite EJ. auto.
  - apply W2. intros x (k' & K' & F & j' & J' & F' & M & _). eapply (Nat.div_mod_unique nv) in M; auto. destruct M as [<- <-]. destruct (Z.eqb_spec (fst (snd (eval k) j)) 0); [contradiction|discriminate].
  - apply W2. intros x (k' & K' & F & j' & J' & F' & M & _). eapply (Nat.div_mod_unique nv) in M; auto. destruct M as [<- <-]. destruct (Z.eqb_spec (fst (eval k)) 0); [contradiction|discriminate].
Qed.
