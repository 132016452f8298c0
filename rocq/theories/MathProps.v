(** C16-C19: coordinate and Jacobian transforms, fmod, sorted search, point in
    polygon. *)
From Coq Require Import Reals ZArith List Bool Lia Lra Psatz.
From Verif Require Import Deriv MathModel MathProofs.
Import ListNotations.
Local Open Scope R_scope.

(** C16: vectors *)
Theorem math_vec_round_trip : forall v phi,
  vec_xyz2rpz (vec_rpz2xyz v phi) phi = v /\ vec_rpz2xyz (vec_xyz2rpz v phi) phi = v.
Proof. exact vec_inverse. Qed.
Print Assumptions math_vec_round_trip.

Theorem math_vec_isometry : forall u v phi,
  dotv (vec_rpz2xyz u phi) (vec_rpz2xyz v phi) = dotv u v /\
  dotv (vec_xyz2rpz u phi) (vec_xyz2rpz v phi) = dotv u v.
Proof. exact vec_dot. Qed.
Print Assumptions math_vec_isometry.

(** C16: Cartesian to cylindrical Jacobian: true values and partial
    derivatives of the cylindrical components. *)
Theorem math_jac_xyz2rpz_correct : forall J r phi z, cyl_jac J r phi z (jac_xyz2rpz J r phi).
Proof. exact xyz2rpz_correct. Qed.
Print Assumptions math_jac_xyz2rpz_correct.

(** C16: cylindrical to Cartesian Jacobian: from the true cylindrical data of
    a field with Cartesian data J, entries 5 and 6 come out wrong. *)
Theorem math_jac_rpz2xyz_error : forall J r phi z K, r <> 0 -> cyl_jac J r phi z K ->
  forall k, (k < 12)%nat ->
  jac_rpz2xyz K r phi k =
  J k + match k with 5%nat => 2 * J 0%nat * sin phi / r | 6%nat => - 2 * J 0%nat * cos phi / r | _ => 0 end.
Proof. exact rpz2xyz_spec. Qed.
Print Assumptions math_jac_rpz2xyz_error.

Theorem math_jac_rpz2xyz_correct_iff : forall J r phi z K, r <> 0 -> cyl_jac J r phi z K ->
  ((forall k, (k < 12)%nat -> jac_rpz2xyz K r phi k = J k) <-> J 0%nat = 0).
Proof. exact rpz2xyz_iff. Qed.
Print Assumptions math_jac_rpz2xyz_correct_iff.

Theorem math_jac_round_trip : forall K r phi k, r <> 0 -> (k < 12)%nat ->
  jac_xyz2rpz (jac_rpz2xyz K r phi) r phi k =
  K k - 2 * (K 0%nat * cos phi - K 4%nat * sin phi) * match k with 2%nat => sin phi | 6%nat => cos phi | _ => 0 end.
Proof. exact xyz2rpz_rpz2xyz. Qed.
Print Assumptions math_jac_round_trip.

(** C16: the cylindrical divergence and curl formulas on the true data. *)
Theorem math_jac_div_curl : forall J r phi z K, r <> 0 -> cyl_jac J r phi z K ->
  J 1%nat + J 6%nat + J 11%nat = K 0%nat / r + K 1%nat + K 6%nat / r + K 11%nat /\
  vec_xyz2rpz (J 10%nat - J 7%nat, J 3%nat - J 9%nat, J 5%nat - J 2%nat) phi =
  (K 10%nat / r - K 7%nat, K 3%nat - K 9%nat, K 4%nat / r + K 5%nat - K 2%nat / r).
Proof. exact div_curl_cyl. Qed.
Print Assumptions math_jac_div_curl.

(** The vacuum toroidal field B_phi = 1/r at r = 1, phi = -pi/2 has zero curl
    but the transformed Jacobian has curl_z = -2. *)
Example math_jac_rpz2xyz_refuted :
  let K k := match k with 4%nat => 1 | 5%nat => -1 | _ => 0 end in
  let X := jac_rpz2xyz K 1 (- (PI / 2)) in X 5%nat - X 2%nat = -2.
Proof.
  cbv zeta. unfold jac_rpz2xyz. rewrite cos_neg, sin_neg, cos_PI2, sin_PI2. field.
Qed.
(** the same field through the correct direction *)
Example math_jac_xyz2rpz_example :
  let J k := match k with 0%nat => 1 | 5%nat => 1 | 2%nat => 1 | _ => 0 end in
  let K := jac_xyz2rpz J 1 (- (PI / 2)) in K 4%nat = 1 /\ K 5%nat = -1 /\ K 0%nat = 0 /\ K 1%nat = 0.
Proof.
  cbv zeta. unfold jac_xyz2rpz. rewrite cos_neg, sin_neg, cos_PI2, sin_PI2. repeat split; field.
Qed.
Example math_vec_example : vec_rpz2xyz (3, 4, 5) (PI / 2) = (-4, 3, 5).
Proof. unfold vec_rpz2xyz. rewrite cos_PI2, sin_PI2. apply f_equal2; [apply f_equal2|]; ring. Qed.

(** C17 *)
Theorem math_fmod_range : forall x y, 0 < y -> 0 <= fmod x y < y.
Proof. exact fmod_range. Qed.
Print Assumptions math_fmod_range.
Theorem math_fmod_congruent : forall x y, exists n, fmod x y = x - y * IZR n.
Proof. exact fmod_congr. Qed.
Print Assumptions math_fmod_congruent.
(** any representative in [0,y) is the result; n = 0 gives the identity *)
Theorem math_fmod_unique : forall x y n, 0 < y -> 0 <= x - y * IZR n < y -> fmod x y = x - y * IZR n.
Proof. exact fmod_unique. Qed.
Print Assumptions math_fmod_unique.
Theorem math_fmod_negative_period : forall x y, y < 0 -> y < fmod x y <= 0.
Proof. exact fmod_neg. Qed.
Print Assumptions math_fmod_negative_period.
Example math_fmod_example : fmod (-1) 3 = 2 /\ fmod 7 3 = 1 /\ fmod 2 3 = 2 /\ fmod 6 3 = 0 /\ fmod 1 (-3) = -2.
Proof.
  repeat split.
  - rewrite (fmod_unique (-1) 3 (-1)); lra.
  - rewrite (fmod_unique 7 3 2); lra.
  - rewrite (fmod_unique 2 3 0); lra.
  - rewrite (fmod_unique 6 3 2); lra.
  - unfold fmod. rewrite (floor_unique (1 / -3) (-1)); lra.
Qed.

(** C18 *)
Theorem math_rsearch_finds : forall key base num, increasing base num ->
  forall i, fst (rsearch key base num) = Some i <-> (S i < num)%nat /\ base i <= key < base (S i).
Proof. exact rsearch_spec. Qed.
Print Assumptions math_rsearch_finds.
Theorem math_rsearch_none : forall key base num, increasing base num -> (0 < num)%nat ->
  (fst (rsearch key base num) = None <-> ~ (base 0%nat <= key < base (num - 1)%nat)).
Proof. exact rsearch_none. Qed.
Print Assumptions math_rsearch_none.
(** every comparison reads base[i] and base[i+1]; both exist *)
Theorem math_rsearch_reads_inside : forall key base num, increasing base num ->
  forall i, In i (snd (rsearch key base num)) -> (S i < num)%nat.
Proof. exact rsearch_reads. Qed.
Print Assumptions math_rsearch_reads_inside.
(** so the comparison meets the precondition the C standard puts on bsearch *)
Theorem math_rcomp_partitions : forall key base num, increasing base num ->
  forall i j, (i < j)%nat -> (S j < num)%nat ->
  (rcomp key base i = Lt -> rcomp key base j = Lt) /\ (rcomp key base j = Gt -> rcomp key base i = Gt) /\
  (rcomp key base i = Eq -> rcomp key base j = Lt) /\ (rcomp key base j = Eq -> rcomp key base i = Gt).
Proof. exact rcomp_partitioned. Qed.
Print Assumptions math_rcomp_partitions.

Lemma incr_INR : forall n, increasing (fun i => INR i) n.
Proof. intros n i j H. apply lt_INR. lia. Qed.
Example math_rsearch_example :
  fst (rsearch (5 / 2) INR 5) = Some 2%nat /\ fst (rsearch 3 INR 5) = Some 3%nat /\
  fst (rsearch 4 INR 5) = None /\ fst (rsearch (-1) INR 5) = None.
Proof.
  repeat split.
  - apply rsearch_spec; [apply incr_INR|]. split; [lia|]. cbn; lra.
  - apply rsearch_spec; [apply incr_INR|]. split; [lia|]. cbn; lra.
  - apply rsearch_none; [apply incr_INR|lia|]. cbn; lra.
  - apply rsearch_none; [apply incr_INR|lia|]. cbn; lra.
Qed.

(** C19 *)
Theorem math_point_in_polygon_parity : forall r z l, (forall a, In a l -> snd a <> z) ->
  (point_in_polygon r z l = 1%nat <->
   exists n, counts (fun e => meets_ray r z (fst e) (snd e)) (edges l) n /\ Nat.Odd n).
Proof. exact pip_iff. Qed.
Print Assumptions math_point_in_polygon_parity.
Theorem math_point_in_polygon_boolean : forall r z l,
  point_in_polygon r z l = 0%nat \/ point_in_polygon r z l = 1%nat.
Proof. exact pip_01. Qed.
Print Assumptions math_point_in_polygon_boolean.
Theorem math_point_in_polygon_reverse : forall r z l, point_in_polygon r z (rev l) = point_in_polygon r z l.
Proof. intros r z l. exact (f_equal (fun n => Nat.modulo n 2) (hits_rev r z l)). Qed.
Print Assumptions math_point_in_polygon_reverse.
Theorem math_point_in_polygon_translate : forall r z l dr dz,
  point_in_polygon (r + dr) (z + dz) (map (shift dr dz) l) = point_in_polygon r z l.
Proof. intros r z l dr dz. exact (f_equal (fun n => Nat.modulo n 2) (hits_shift r z l dr dz)). Qed.
Print Assumptions math_point_in_polygon_translate.
(** points right of, or left of, every vertex are outside a closed polygon *)
Theorem math_point_in_polygon_right : forall r z l, (forall a, In a l -> fst a <= r) -> point_in_polygon r z l = 0%nat.
Proof. intros r z l H. exact (f_equal (fun n => Nat.modulo n 2) (hits_right r z l H)). Qed.
Print Assumptions math_point_in_polygon_right.
Theorem math_point_in_polygon_left : forall r z a l,
  (forall x, In x (a :: l) -> snd x <> z /\ r < fst x) ->
  last (a :: l) a = a -> point_in_polygon r z (a :: l) = 0%nat.
Proof. exact pip_left. Qed.
Print Assumptions math_point_in_polygon_left.
Theorem math_point_in_polygon_rectangle : forall r0 r1 z0 z1 r z, r0 < r1 -> z0 < z1 ->
  (point_in_polygon r z (rectangle r0 r1 z0 z1) = 1%nat <-> r0 <= r < r1 /\ z0 < z < z1).
Proof. exact pip_rectangle. Qed.
Print Assumptions math_point_in_polygon_rectangle.

Example math_point_in_polygon_example :
  point_in_polygon 1 1 (rectangle 0 2 0 3) = 1%nat /\ point_in_polygon 3 1 (rectangle 0 2 0 3) = 0%nat.
Proof.
  split; [apply pip_rectangle; lra|].
  destruct (pip_01 3 1 (rectangle 0 2 0 3)) as [|H]; auto. apply pip_rectangle in H; lra.
Qed.
(** the centre of a diamond is reported outside: two vertices share its height *)
Example math_point_in_polygon_vertex_refuted :
  point_in_polygon 0 0 [(1, 0); (0, 1); (-1, 0); (0, -1); (1, 0)] = 0%nat /\
  point_in_polygon 0 (1 / 2) [(1, 0); (0, 1); (-1, 0); (0, -1); (1, 0)] = 1%nat.
Proof.
  unfold point_in_polygon. cbn [hits]. unfold crosses. cbn [fst snd].
  split; repeat (match goal with |- context [Rlt_dec ?a ?b] => destruct (Rlt_dec a b); try lra end); reflexivity.
Qed.
