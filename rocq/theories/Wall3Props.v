(** Properties of the 3D wall. *)
From Coq Require Import Reals List Arith ZArith Lra Lia.
From Verif Require Import Vec MathModel MathProofs Wall3Model Wall3Proofs Wall3TreeProofs Wall3GeoProofs Wall3SearchProofs.
Import ListNotations.
Local Open Scope R_scope.

(** C26.  Unless the step is almost parallel to the triangle, a collision is
    reported exactly when the step meets the triangle, at that fraction *)
Theorem wall3d_collision_exact : forall q1 q2 t1 t2 t3 w, EPS < area2 t1 t2 t3 -> EPS <= slant q1 q2 t1 t2 t3 ->
  (0 <= tri_collision q1 q2 t1 t2 t3 /\ tri_collision q1 q2 t1 t2 t3 = w <-> hits_at q1 q2 t1 t2 t3 w).
Proof. exact tri_exact. Qed.
Print Assumptions wall3d_collision_exact.
(** in every case a reported collision is within 2e-9 of the triangle *)
Theorem wall3d_collision_sound : forall q1 q2 t1 t2 t3, 0 <= tri_collision q1 q2 t1 t2 t3 ->
  tri_collision q1 q2 t1 t2 t3 <= 1 /\
  exists x, in_triangle t1 t2 t3 x /\ norm (vsub x (at_frac q1 q2 (tri_collision q1 q2 t1 t2 t3))) <= 2 * EPS.
Proof. exact tri_sound. Qed.
Print Assumptions wall3d_collision_sound.
Theorem wall3d_collision_degenerate : forall q1 q2 t1 t2 t3, area2 t1 t2 t3 <= EPS \/ q1 = q2 -> tri_collision q1 q2 t1 t2 t3 = -1.
Proof. exact tri_degenerate. Qed.
Print Assumptions wall3d_collision_degenerate.

(** C27.  The accelerated search returns the first collision among the
    triangles of the visited cells *)
Theorem wall3d_search_first : forall r1 p1 z1 r2 p2 z2 w,
  let q1 := xyz r1 p1 z1 in let q2 := xyz r2 p2 z2 in
  let L := visited w q1 q2 in
  (fst (wall_3d_hit_wall r1 p1 z1 r2 p2 z2 w) = 0%nat /\ (forall i, In i L -> coll (wtris w) q1 q2 i < 0)) \/
  (exists i, wall_3d_hit_wall r1 p1 z1 r2 p2 z2 w = (S i, coll (wtris w) q1 q2 i) /\ In i L /\ 0 <= coll (wtris w) q1 q2 i <= 1 /\
     forall j, In j L -> 0 <= coll (wtris w) q1 q2 j -> coll (wtris w) q1 q2 i <= coll (wtris w) q1 q2 j).
Proof. exact search_min. Qed.
Print Assumptions wall3d_search_first.
(** in terms of the geometry *)
Theorem wall3d_search_first_hit : forall r1 p1 z1 r2 p2 z2 w,
  let q1 := xyz r1 p1 z1 in let q2 := xyz r2 p2 z2 in
  let hit i s := exists x, nth_error (wtris w) i = Some x /\ hits_at q1 q2 (ta x) (tb x) (tc x) s in
  (forall x, In x (wtris w) -> EPS < area2 (ta x) (tb x) (tc x) /\ EPS <= slant q1 q2 (ta x) (tb x) (tc x)) ->
  (forall i s, hit i s -> In i (visited w q1 q2)) ->
  (fst (wall_3d_hit_wall r1 p1 z1 r2 p2 z2 w) = 0%nat /\ forall i s, ~ hit i s) \/
  (exists i s, wall_3d_hit_wall r1 p1 z1 r2 p2 z2 w = (S i, s) /\ hit i s /\ forall j s', hit j s' -> s <= s').
Proof. exact search_first_hit. Qed.
Print Assumptions wall3d_search_first_hit.
Theorem wall3d_full_search_first : forall r1 p1 z1 r2 p2 z2 w,
  let q1 := xyz r1 p1 z1 in let q2 := xyz r2 p2 z2 in let n := length (wtris w) in
  (fst (wall_3d_hit_wall_full r1 p1 z1 r2 p2 z2 w) = 0%nat /\ (forall i, (i < n)%nat -> coll (wtris w) q1 q2 i <= 0)) \/
  (exists i, wall_3d_hit_wall_full r1 p1 z1 r2 p2 z2 w = (S i, coll (wtris w) q1 q2 i) /\ (i < n)%nat /\ 0 < coll (wtris w) q1 q2 i <= 1 /\
     forall j, (j < n)%nat -> 0 < coll (wtris w) q1 q2 j -> coll (wtris w) q1 q2 i <= coll (wtris w) q1 q2 j).
Proof. exact full_min. Qed.
Print Assumptions wall3d_full_search_first.
(** the integer array returns the lists it was built from and the build stays
    inside its allocation *)
Theorem wall3d_tree_array : forall junk ls,
  (forall c, (c < length ls)%nat -> cell_ids (tree_array junk ls) c = nth c ls []) /\
  (forall j, (2 * length ls + total ls <= j)%nat -> tree_array junk ls j = junk j).
Proof. intros. split; [apply tree_array_read | apply tree_array_bounds]. Qed.
Print Assumptions wall3d_tree_array.
(** initialisation never meets a missing list and stores, for every grid cell,
    the triangles accepted by all boxes that lead to the cell *)
Theorem wall3d_init_lists : forall d ts junk1 junk2, ts <> [] ->
  exists w, wall_3d_init (S d) ts junk1 junk2 = Some w /\ wtris w = ts /\ wngrid w = (2 ^ d)%nat /\
    wlo w = fst (bounds ts) /\ whi w = snd (bounds ts) /\
    forall ix iy iz, (ix < 2 ^ d /\ iy < 2 ^ d /\ iz < 2 ^ d)%nat ->
      cell_ids (wtree w) (cell_index (2 ^ d) ix iy iz) = listed d (wlo w) (whi w) ts ix iy iz.
Proof. exact init_ok. Qed.
Print Assumptions wall3d_init_lists.

(** the box test accepts every triangle that meets the box and is not almost
    parallel to one of its faces or edges *)
Theorem wall3d_box_test_complete : forall S0 t1 t2 t3 b1 b2 x, EPS < S0 -> faces_at_least S0 b1 b2 -> resolved S0 t1 t2 t3 ->
  in_triangle t1 t2 t3 x -> in_box b1 b2 x -> tri_in_cube t1 t2 t3 b1 b2 = true.
Proof. exact cube_complete. Qed.
Print Assumptions wall3d_box_test_complete.
(** end to end: whatever the depth, a step that meets such a triangle is
    reported as a hit, no later than that triangle *)
Theorem wall3d_no_tunnelling : forall d ts junk1 junk2 w S0 r1 p1 z1 r2 p2 z2 m x s,
  wall_3d_init (S d) ts junk1 junk2 = Some w -> nth_error ts m = Some x ->
  EPS < S0 -> cell_faces S0 d (wlo w) (whi w) -> resolved S0 (ta x) (tb x) (tc x) ->
  let q1 := xyz r1 p1 z1 in let q2 := xyz r2 p2 z2 in
  EPS <= slant q1 q2 (ta x) (tb x) (tc x) -> hits_at q1 q2 (ta x) (tb x) (tc x) s ->
  In m (visited w q1 q2) /\
  exists i, wall_3d_hit_wall r1 p1 z1 r2 p2 z2 w = (S i, coll ts q1 q2 i) /\ 0 <= coll ts q1 q2 i <= s.
Proof. exact accel_complete. Qed.
Print Assumptions wall3d_no_tunnelling.

(** C28 *)
Theorem octree_point_reaches_leaf : forall d lo hi ts p, vlt lo hi -> strictly_in lo hi p ->
  ~ on_plane d (vx lo) (vx hi) (vx p) -> ~ on_plane d (vy lo) (vy hi) (vy p) -> ~ on_plane d (vz lo) (vz hi) (vz p) ->
  exists i j k, vin_cell d lo hi i j k p /\
    (forall i' j' k', vin_cell d lo hi i' j' k' p -> i' = i /\ j' = j /\ k' = k) /\
    exists ids, octree_get (add_all (octree_create (S d) lo hi) ts) p = Some ids /\
      (forall m, In m ids -> (m < length ts)%nat) /\
      forall m x, nth_error ts m = Some x ->
        (exists v, (v = ta x \/ v = tb x \/ v = tc x) /\ strictly_in (cell_lo d lo hi i j k) (cell_hi d lo hi i j k) v) ->
        In m ids.
Proof. exact octree_leaf. Qed.
Print Assumptions octree_point_reaches_leaf.
Theorem octree_point_on_plane : forall d lo hi ts p, vlt lo hi ->
  on_plane d (vx lo) (vx hi) (vx p) \/ on_plane d (vy lo) (vy hi) (vy p) \/ on_plane d (vz lo) (vz hi) (vz p) ->
  octree_get (add_all (octree_create (S d) lo hi) ts) p = None.
Proof. exact octree_plane_none. Qed.
Print Assumptions octree_point_on_plane.

(** ** Examples *)
Definition flat := T (V 0 (-1) 0) (V 2 (-1) 0) (V 1 1 0).
Lemma flat_normal : tri_normal (ta flat) (tb flat) (tc flat) = V 0 0 4.
Proof. unfold tri_normal, flat, cross, vsub. cbn. f_equal; ring. Qed.
Lemma flat_area : area2 (ta flat) (tb flat) (tc flat) = 4.
Proof. unfold area2. fold (tri_normal (ta flat) (tb flat) (tc flat)). rewrite flat_normal, (proj2 (proj2 (norm_axis 4))). apply Rabs_right. lra. Qed.
Lemma flat_hit : forall z1 z2 w, z1 <> z2 -> hits_at (V 1 0 z1) (V 1 0 z2) (ta flat) (tb flat) (tc flat) w ->
  tri_collision (V 1 0 z1) (V 1 0 z2) (ta flat) (tb flat) (tc flat) = w.
Proof.
  intros z1 z2 w N H. apply wall3d_collision_exact in H; [tauto | rewrite flat_area; unfold EPS; lra |].
  unfold slant. fold (tri_normal (ta flat) (tb flat) (tc flat)). rewrite flat_normal. unfold vsub, dot. cbn [vx vy vz].
  replace (1 - 1) with 0 by ring. replace (0 - 0) with 0 by ring.
  rewrite (proj2 (proj2 (norm_axis (z2 - z1)))). replace (0 * 0 + 0 * 0 + (z2 - z1) * 4) with ((z2 - z1) * 4) by ring.
  rewrite Rabs_mult, (Rabs_right 4) by lra. assert (0 < Rabs (z2 - z1)) by (apply Rabs_pos_lt; lra).
  replace (_ / _) with 4 by (field; lra). unfold EPS. lra.
Qed.
Example wall3d_collision_example :
  tri_collision (V 1 0 (-1)) (V 1 0 3) (ta flat) (tb flat) (tc flat) = 1 / 4.
Proof.
  apply flat_hit; [lra|]. split; [lra|]. exists (1 / 4), (1 / 4), (1 / 2). unfold at_frac, flat, vadd, vscal, vsub. cbn.
  repeat split; try lra. f_equal; lra.
Qed.
(** a step that starts on a triangle is a hit for the accelerated search but
    not for the exhaustive one *)
Example wall3d_start_on_wall_refuted : exists w, wall_3d_init 1 [flat] (fun _ => None) (fun _ => 0%nat) = Some w /\
  wall_3d_hit_wall 1 0 0 1 0 1 w = (1%nat, 0) /\ fst (wall_3d_hit_wall_full 1 0 0 1 0 1 w) = 0%nat.
Proof.
  destruct (wall3d_init_lists 0 [flat] (fun _ => None) (fun _ => 0%nat)) as (w & E & Wt & Wn & Wl & Wh & CI); [discriminate|].
  exists w. split; auto.
  assert (Q : forall z, xyz 1 0 z = V 1 0 z) by (intros; unfold xyz; rewrite cos_0, sin_0; f_equal; ring).
  assert (T0 : hits_at (V 1 0 0) (V 1 0 1) (ta flat) (tb flat) (tc flat) 0).
  { split; [lra|]. exists (1 / 4), (1 / 4), (1 / 2). unfold at_frac, flat, vadd, vscal, vsub. cbn. repeat split; try lra. f_equal; lra. }
  assert (C0 : coll (wtris w) (V 1 0 0) (V 1 0 1) 0 = 0) by (rewrite Wt; apply flat_hit; [lra|auto]).
  assert (V0 : In 0%nat (visited w (V 1 0 0) (V 1 0 1))).
  { pose proof (bounds_vlt [flat] ltac:(discriminate)) as L. pose proof L as (L1 & L2 & L3).
    pose proof (tri_in_bounds [flat] flat _ (or_introl eq_refl) (proj2 T0)) as (Bx & By' & Bz).
    destruct (cell_in 0 _ _ _ L1 Bx) as (ix & X1 & X2 & X3). destruct (cell_in 0 _ _ _ L2 By') as (iy & Y1 & Y2 & Y3).
    destruct (cell_in 0 _ _ _ L3 Bz) as (iz & Z1 & Z2 & Z3).
    apply visited_cell with (s := 0) (ix := ix) (iy := iy) (iz := iz); rewrite ?Wn, ?Wl, ?Wh; auto; [lra |].
    rewrite CI by auto. unfold listed. cbn. auto. }
  split.
  - destruct (wall3d_search_first 1 0 0 1 0 1 w) as [[Z A]|(i & A & B & D & M)]; rewrite ?Q in *.
    + specialize (A _ V0). lra.
    + rewrite A. specialize (M _ V0). rewrite C0 in M. assert (coll (wtris w) (V 1 0 0) (V 1 0 1) i = 0) by lra.
      rewrite H. f_equal. f_equal. destruct i; auto. exfalso.
      unfold coll in H. rewrite Wt in H. cbn [nth] in H. rewrite wall3d_collision_degenerate in H; [lra|].
      left. unfold area2. replace (norm _) with 0; [unfold EPS; lra|]. symmetry. apply norm_zero. destruct i; cbn; unfold cross, vsub, vzero; cbn; f_equal; ring.
  - destruct (wall3d_full_search_first 1 0 0 1 0 1 w) as [[Z A]|(i & A & B & D & M)]; auto; rewrite ?Q in *. exfalso.
    rewrite Wt in B. cbn in B. assert (i = 0%nat) by lia. subst i. rewrite C0 in D. lra.
Qed.
(** the hypotheses of the no-tunnelling theorem can be met *)
Definition slab := T (V 0 0 0) (V 1 2 3) (V 2 (-1) 1).
Lemma norm_le4 : forall x y z, x * x + y * y + z * z <= 16 -> norm (V x y z) <= 4.
Proof. intros. unfold norm. cbn [vx vy vz]. rewrite <- (sqrt_Rsqr 4) by lra. apply sqrt_le_1_alt. unfold Rsqr. lra. Qed.
Lemma slab_steep : forall p q, (norm (vsub q p) <= 4) -> (forall k, 1 <= Rabs (co k (vsub q p))) -> p <> q -> steep 1 p q.
Proof. intros p q N A NE. split; auto. intros k. specialize (A k). unfold EPS. pose proof (norm_nonneg (vsub q p)). lra. Qed.
Lemma slab_resolved : resolved 1 (ta slab) (tb slab) (tc slab).
Proof.
  unfold slab. cbn [ta tb tc]. split.
  - intros k. unfold tri_normal, cross, vsub. cbn [vx vy vz].
    assert (E5 : EPS <= 5) by (unfold EPS; lra).
    destruct k; cbn [co vx vy vz]; (eapply Rle_trans; [apply E5|]);
    match goal with |- _ <= Rabs ?a => first [replace a with 5 by ring; rewrite Rabs_right; lra | replace a with (-5) by ring; rewrite Rabs_left; lra] end.
  - assert (AB : forall a, 1 <= a \/ a <= -1 -> 1 <= Rabs a) by (intros a [H|H]; [rewrite Rabs_right | rewrite Rabs_left]; lra).
    split; [|split]; (apply slab_steep; [unfold vsub; cbn [vx vy vz]; apply norm_le4; lra
      | intros []; unfold vsub; cbn [co vx vy vz]; apply AB; lra | intros K; injection K; lra]).
Qed.
Example wall3d_no_tunnelling_example : exists w i, wall_3d_init 2 [flat; slab] (fun _ => None) (fun _ => 0%nat) = Some w /\
  wall_3d_hit_wall 1 0 (4 / 3) 1 0 (-2) w = (S i, coll [flat; slab] (V 1 0 (4 / 3)) (V 1 0 (-2)) i).
Proof.
  destruct (wall3d_init_lists 1 [flat; slab] (fun _ => None) (fun _ => 0%nat)) as (w & E & Wt & Wn & Wl & Wh & CI); [discriminate|].
  assert (Q : forall z, xyz 1 0 z = V 1 0 z) by (intros; unfold xyz; rewrite cos_0, sin_0; f_equal; ring).
  assert (HS : hits_at (V 1 0 (4 / 3)) (V 1 0 (-2)) (ta slab) (tb slab) (tc slab) (1 / 10)).
  { split; [lra|]. exists (2 / 5), (1 / 5), (2 / 5). unfold at_frac, slab, vadd, vscal, vsub. cbn. repeat split; try lra. f_equal; lra. }
  destruct (wall3d_no_tunnelling 1 [flat; slab] (fun _ => None) (fun _ => 0%nat) w 1 1 0 (4 / 3) 1 0 (-2) 1 slab (1 / 10)) as (_ & i & A & _);
    auto; rewrite ?Q; auto.
  - unfold EPS. lra.
  - rewrite Wl, Wh. unfold cell_faces, pow2. cbn [Nat.pow Nat.mul Nat.add INR]. cbv zeta.
    destruct (bounds_ok [flat; slab] slab (or_intror (or_introl eq_refl)) (ta slab) (or_introl eq_refl)) as (A1 & A2 & A3).
    destruct (bounds_ok [flat; slab] slab (or_intror (or_introl eq_refl)) (tb slab) (or_intror (or_introl eq_refl))) as (B1 & B2 & B3).
    destruct (bounds_ok [flat; slab] slab (or_intror (or_introl eq_refl)) (tc slab) (or_intror (or_intror eq_refl))) as (C1 & C2 & C3).
    generalize dependent (bounds [flat; slab]). intros b _ _ A1 A2 A3 B1 B2 B3 C1 C2 C3.
    unfold slab in A1, A2, A3, B1, B2, B3, C1, C2, C3. cbn [ta tb tc vx vy vz] in *.
    repeat split; (rewrite <- (Rmult_1_l 1) at 1; apply Rmult_le_compat); try lra.
  - apply slab_resolved.
  - unfold slant, slab, dot, vsub, cross. cbn [ta tb tc vx vy vz]. replace (1 - 1) with 0 by ring. replace (0 - 0) with 0 by ring.
    rewrite (proj2 (proj2 (norm_axis _))). replace (Rabs (-2 - 4 / 3)) with (10 / 3) by (rewrite Rabs_left; lra).
    match goal with |- _ <= Rabs ?a / _ => replace a with (50 / 3) by field end. rewrite Rabs_right by lra. unfold EPS. lra.
  - exists w, i. rewrite <- !Q. split; auto.
Qed.
Example octree_example : octree_get (add_all (octree_create 2 (V 0 0 0) (V 2 2 2)) []) (V 1 (1 / 2) (1 / 2)) = None /\
  octree_get (add_all (octree_create 2 (V 0 0 0) (V 2 2 2)) []) (V (3 / 2) (1 / 2) (1 / 2)) = Some [].
Proof.
  assert (L : vlt (V 0 0 0) (V 2 2 2)) by (repeat split; cbn; lra). split.
  - apply octree_point_on_plane; auto. left. exists 1%nat. split; [cbn; lia|]. unfold pow2. cbn. lra.
  - rewrite (octree_lookup 1 _ _ [] 1 0 0); auto. repeat split; cbn; try lia; unfold pow2; cbn; lra.
Qed.
