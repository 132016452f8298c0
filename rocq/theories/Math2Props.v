(** C20, C58-C61: quadrature, matrix product, unique counts and small
    geometric helpers. *)
From Coq Require Import Reals ZArith List Bool Lia Lra Psatz.
From Verif Require Import Deriv Vec Math2Model Math2Proofs.
Import ListNotations.
Local Open Scope R_scope.

(** C20: exact for polynomials up to degree five, whatever the tolerance *)
Theorem math_simpson_exact : forall c F a b eps, (forall x, Dx F x (poly5 c x)) ->
  fst (simpson (poly5 c) a b eps) = F b - F a.
Proof. exact simpson_exact. Qed.
Print Assumptions math_simpson_exact.
(** C20: at most 2^22 + 1 evaluations, all between the limits *)
Theorem math_simpson_terminates : forall f a b eps, (length (snd (simpson f a b eps)) <= 2 ^ 22 + 1)%nat.
Proof. exact simpson_evals. Qed.
Print Assumptions math_simpson_terminates.
Theorem math_simpson_domain : forall f a b eps, a <= b -> forall x, In x (snd (simpson f a b eps)) -> a <= x <= b.
Proof. exact simpson_inside. Qed.
Print Assumptions math_simpson_domain.
(** C20: the tolerance is relative: scaling the integrand changes neither the
    refinement nor the relative result *)
Theorem math_simpson_homogeneous : forall k f a b eps, k <> 0 ->
  simpson (fun x => k * f x) a b eps = (k * fst (simpson f a b eps), snd (simpson f a b eps)).
Proof. exact simpson_scale. Qed.
Print Assumptions math_simpson_homogeneous.
Theorem math_simpson_orientation : forall f a b eps, fst (simpson f b a eps) = - fst (simpson f a b eps).
Proof. exact simpson_swap. Qed.
Print Assumptions math_simpson_orientation.

Example math_simpson_example :
  fst (simpson (poly5 (fun k => match k with 4%nat => 5 | 1%nat => 2 | _ => 0 end)) 0 2 (1 / 1000)) = 36.
Proof.
  rewrite (simpson_exact _ _ 0 2 (1 / 1000) (anti5_deriv _)). unfold anti5. field.
Qed.
(** degree six is not exact: with a loose tolerance the first estimate for
    x^6 on [0,1] is accepted *)
Example math_simpson_degree6_refuted : fst (simpson (fun x => x ^ 6) 0 1 1) <> 1 / 7.
Proof.
  rewrite simpson_accept; cbv beta; [lra|].
  rewrite Rabs_left by lra. rewrite Rabs_right by lra. lra.
Qed.

(** C58: layout of the matrix product: inputs column by column, output row by
    row; exactly the d1*d3 output entries are written *)
Theorem math_matmul_entries : forall A B d1 d2 d3 C i j, (i < d1)%nat -> (j < d3)%nat ->
  matmul A B d1 d2 d3 C (i * d3 + j)%nat = sumn d2 (fun k => A (i + k * d1)%nat * B (k + j * d2)%nat).
Proof.
  intros A B d1 d2 d3 C i j Hi Hj. unfold matmul. rewrite (proj1 (mat_rows_spec A B d1 d2 d3 d1 C)) by auto.
  induction d2; auto. clear. generalize (S d2) at 1 3. intros m.
  generalize (S d2). intros d. induction m; cbn; auto. rewrite IHm. f_equal. rewrite (Nat.add_comm i), (Nat.add_comm m). reflexivity.
Qed.
Print Assumptions math_matmul_entries.
Theorem math_matmul_frame : forall A B d1 d2 d3 C x, (d1 * d3 <= x)%nat -> matmul A B d1 d2 d3 C x = C x.
Proof. intros A B d1 d2 d3 C. exact (proj2 (mat_rows_spec A B d1 d2 d3 d1 C)). Qed.
Print Assumptions math_matmul_frame.
(** read row by row as documented, square matrices give (B A)^T, not A B *)
Example math_matmul_rowwise_refuted :
  let A i := nth i [0; 1; 0; 0] 0 in let B i := nth i [0; 0; 1; 0] 0 in
  let C := matmul A B 2 2 2 (fun _ => 7) in
  (forall i j, (i < 2)%nat -> (j < 2)%nat -> C (i * 2 + j)%nat = sumn 2 (fun k => B (j * 2 + k)%nat * A (k * 2 + i)%nat)) /\
  C 0%nat = 0 /\ sumn 2 (fun k => A (0 * 2 + k)%nat * B (k * 2 + 0)%nat) = 1.
Proof.
  cbv zeta. split; [|split].
  - intros i j Hi Hj. destruct i as [|[|]], j as [|[|]]; try lia; cbn; ring.
  - cbn. ring.
  - cbn. ring.
Qed.

(** C59 *)
Theorem math_uniquecount_correct : forall inp u0 c0,
  let '(u, c) := uniquecount inp u0 c0 in
  exists k, (k <= length inp)%nat /\
    (forall i, (i < k)%nat -> In (u i) inp /\ c i = occ (u i) inp) /\
    (forall i j, (i < k)%nat -> (j < k)%nat -> u i = u j -> i = j) /\
    (forall v, In v inp -> exists i, (i < k)%nat /\ u i = v) /\
    (forall i, (k <= i < length inp)%nat -> u i = 0%Z /\ c i = 0%Z).
Proof. exact uniquecount_spec. Qed.
Print Assumptions math_uniquecount_correct.
Theorem math_uniquecount_total : forall inp u0 c0,
  sumZ (length inp) (snd (uniquecount inp u0 c0)) = Z.of_nat (length inp).
Proof. exact uniquecount_total. Qed.
Print Assumptions math_uniquecount_total.
Example math_uniquecount_example :
  let '(u, c) := uniquecount [5; 0; 5; 3; 5; 0]%Z (fun _ => 9%Z) (fun _ => 9%Z) in
  map u (seq 0 7) = [5; 0; 3; 0; 0; 0; 9]%Z /\ map c (seq 0 7) = [3; 2; 1; 0; 0; 0; 9]%Z.
Proof. vm_compute. split; reflexivity. Qed.

(** C60 *)
Theorem math_linspace_spec : forall vec a b n, (2 <= n)%nat ->
  linspace vec a b n 0%nat = a /\ linspace vec a b n (n - 1)%nat = b /\
  (forall i, (i + 1 < n)%nat -> linspace vec a b n (i + 1)%nat - linspace vec a b n i = (b - a) / (INR n - 1)) /\
  (forall i, (n <= i)%nat -> linspace vec a b n i = vec i).
Proof. exact linspace_spec. Qed.
Print Assumptions math_linspace_spec.
Theorem math_linspace_one : forall vec a b, linspace vec a b 1 0%nat = b.
Proof. intros vec a b. exact (upd_same R vec 0%nat b). Qed.
Print Assumptions math_linspace_one.
Theorem math_ipow_spec : forall a p, ipow a p = (a ^ Z.of_nat p)%Z.
Proof. exact ipow_spec. Qed.
Print Assumptions math_ipow_spec.
Example math_linspace_example : map (linspace (fun _ => 0) 1 3 3) [0; 1; 2]%nat = [1; 2; 3].
Proof.
  unfold linspace. cbn [Nat.eqb map]. rewrite !lin_fill_spec. cbn [Nat.ltb Nat.leb INR].
  repeat (f_equal; try field).
Qed.
Example math_ipow_example : ipow (-3) 5 = (-243)%Z.
Proof. reflexivity. Qed.

(** C61: the plane test never says yes; barycentric coordinates are the
    oblique coordinates in the plane along the normal *)
Theorem math_point_on_plane_never : forall q t1 t2 t3, point_on_plane q t1 t2 t3 = 0%Z.
Proof. exact plane_zero. Qed.
Print Assumptions math_point_on_plane_never.
Theorem math_barycentric_correct : forall AP AB AC n, triple AB AC n <> 0 ->
  (exists u, AP = vadd (vadd (vscal (fst (barycentric AP AB AC n)) AB) (vscal (snd (barycentric AP AB AC n)) AC)) (vscal u n)) /\
  (forall s t u, AP = vadd (vadd (vscal s AB) (vscal t AC)) (vscal u n) -> barycentric AP AB AC n = (s, t)).
Proof. exact bary_spec. Qed.
Print Assumptions math_barycentric_correct.
Theorem math_position_round_trip : forall p, rpz2xyz (xyz2rpz p) = p.
Proof. exact pos_round_trip. Qed.
Print Assumptions math_position_round_trip.
Theorem math_position_round_trip_cyl : forall r p z, 0 < r -> - PI < p <= PI ->
  xyz2rpz (rpz2xyz (V r p z)) = V r p z.
Proof. exact pos_round_trip'. Qed.
Print Assumptions math_position_round_trip_cyl.
(** the origin is on the plane through (1,0,0), (0,1,0), (-1,-1,0) *)
Example math_point_on_plane_refuted :
  let q := V 0 0 0 in let a := V 1 0 0 in let b := V 0 1 0 in let c := V (-1) (-1) 0 in
  q = vscal (1 / 3) (vadd (vadd a b) c) /\ point_on_plane q a b c = 0%Z.
Proof. cbv zeta. split; [unfold vscal, vadd; cbn; f_equal; field | apply plane_zero]. Qed.
Example math_barycentric_example : barycentric (V 2 3 4) (V 1 0 0) (V 0 1 0) (V 0 0 2) = (2, 3).
Proof.
  apply (proj2 (bary_spec (V 2 3 4) (V 1 0 0) (V 0 1 0) (V 0 0 2) ltac:(unfold triple; cbn; lra)) 2 3 2).
  unfold vadd, vscal. cbn. f_equal; ring.
Qed.
Example math_position_example : rpz2xyz (V 2 (PI / 2) 1) = V 0 2 1.
Proof. unfold rpz2xyz. cbn. rewrite cos_PI2, sin_PI2. f_equal; ring. Qed.
