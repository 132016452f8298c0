(** The accelerated wall search. *)
From Coq Require Import Reals List Arith ZArith Lia Lra Psatz Bool.
From Verif Require Import Vec MathModel MathProofs Wall3Model Wall3Proofs Wall3TreeProofs Wall3GeoProofs.
Import ListNotations.
Local Open Scope R_scope.

(** ** The running minimum *)
Definition is_min (L : list nat) (c : nat -> R) (ok : R -> Prop) (st : nat * R) : Prop :=
  (st = (0%nat, 1.1) /\ forall i, In i L -> ok (c i) -> 1.1 <= c i) \/
  (exists i, In i L /\ st = (S i, c i) /\ ok (c i) /\ c i < 1.1 /\ forall j, In j L -> ok (c j) -> c i <= c j).
Lemma fold_min : forall ts q1 q2 L,
  is_min L (coll ts q1 q2) (fun w => 0 <= w) (fold_left (hit_step ts q1 q2) L (0%nat, 1.1)).
Proof.
  intros ts q1 q2 L. induction L as [|y L IH] using rev_ind; [left; split; auto; easy|].
  rewrite fold_left_app. cbn [fold_left]. set (st := fold_left _ _ _) in *. unfold hit_step. cbv zeta.
  assert (App : forall (P : nat -> Prop), (forall i, In i L -> P i) -> P y -> forall i, In i (L ++ [y]) -> P i).
  { intros P A B i I. apply in_app_iff in I. destruct I as [I|[<-|[]]]; auto. }
  destruct IH as [[-> N]|(i & I & -> & O & Lt & M)]; cbn [snd].
  - destruct (Rle_dec 0 (coll ts q1 q2 y)) as [P|P].
    + destruct (Rlt_dec _ 1.1) as [Q|Q].
      * right. exists y. split; [apply in_app_iff; right; now left|]. repeat split; auto.
        apply (App (fun j => 0 <= coll ts q1 q2 j -> coll ts q1 q2 y <= coll ts q1 q2 j)); [|lra].
        intros j J Oj. specialize (N j J Oj). lra.
      * left. split; auto. apply (App (fun j => 0 <= coll ts q1 q2 j -> 1.1 <= coll ts q1 q2 j)); auto. intros; lra.
    + left. split; auto. apply (App (fun j => 0 <= coll ts q1 q2 j -> 1.1 <= coll ts q1 q2 j)); auto. intros; lra.
  - destruct (Rle_dec 0 (coll ts q1 q2 y)) as [P|P]; [destruct (Rlt_dec (coll ts q1 q2 y) _) as [Q|Q]|].
    + right. exists y. split; [apply in_app_iff; right; now left|]. repeat split; auto; [lra|].
      apply (App (fun j => 0 <= coll ts q1 q2 j -> coll ts q1 q2 y <= coll ts q1 q2 j)); [|lra].
      intros j J Oj. specialize (M j J Oj). lra.
    + right. exists i. split; [apply in_app_iff; now left|]. repeat split; auto.
      apply (App (fun j => 0 <= coll ts q1 q2 j -> coll ts q1 q2 i <= coll ts q1 q2 j)); auto. intros; lra.
    + right. exists i. split; [apply in_app_iff; now left|]. repeat split; auto.
      apply (App (fun j => 0 <= coll ts q1 q2 j -> coll ts q1 q2 i <= coll ts q1 q2 j)); auto. intros; lra.
Qed.
Lemma fold_min_full : forall ts q1 q2 L,
  is_min L (coll ts q1 q2) (fun w => 0 < w) (fold_left (full_step ts q1 q2) L (0%nat, 1.1)).
Proof.
  intros ts q1 q2 L. induction L as [|y L IH] using rev_ind; [left; split; auto; easy|].
  rewrite fold_left_app. cbn [fold_left]. set (st := fold_left _ _ _) in *. unfold full_step. cbv zeta.
  assert (App : forall (P : nat -> Prop), (forall i, In i L -> P i) -> P y -> forall i, In i (L ++ [y]) -> P i).
  { intros P A B i I. apply in_app_iff in I. destruct I as [I|[<-|[]]]; auto. }
  destruct IH as [[-> N]|(i & I & -> & O & Lt & M)]; cbn [snd].
  - destruct (Rlt_dec 0 (coll ts q1 q2 y)) as [P|P].
    + destruct (Rlt_dec _ 1.1) as [Q|Q].
      * right. exists y. split; [apply in_app_iff; right; now left|]. repeat split; auto.
        apply (App (fun j => 0 < coll ts q1 q2 j -> coll ts q1 q2 y <= coll ts q1 q2 j)); [|lra].
        intros j J Oj. specialize (N j J Oj). lra.
      * left. split; auto. apply (App (fun j => 0 < coll ts q1 q2 j -> 1.1 <= coll ts q1 q2 j)); auto. intros; lra.
    + left. split; auto. apply (App (fun j => 0 < coll ts q1 q2 j -> 1.1 <= coll ts q1 q2 j)); auto. intros; lra.
  - destruct (Rlt_dec 0 (coll ts q1 q2 y)) as [P|P]; [destruct (Rlt_dec (coll ts q1 q2 y) _) as [Q|Q]|].
    + right. exists y. split; [apply in_app_iff; right; now left|]. repeat split; auto; [lra|].
      apply (App (fun j => 0 < coll ts q1 q2 j -> coll ts q1 q2 y <= coll ts q1 q2 j)); [|lra].
      intros j J Oj. specialize (M j J Oj). lra.
    + right. exists i. split; [apply in_app_iff; now left|]. repeat split; auto.
      apply (App (fun j => 0 < coll ts q1 q2 j -> coll ts q1 q2 i <= coll ts q1 q2 j)); auto. intros; lra.
    + right. exists i. split; [apply in_app_iff; now left|]. repeat split; auto.
      apply (App (fun j => 0 < coll ts q1 q2 j -> coll ts q1 q2 i <= coll ts q1 q2 j)); auto. intros; lra.
Qed.
Lemma coll_le1 : forall ts q1 q2 i, coll ts q1 q2 i <= 1.
Proof.
  intros. unfold coll. destruct (Rle_dec 0 (tri_collision q1 q2 (ta (nth i ts tri0)) (tb (nth i ts tri0)) (tc (nth i ts tri0)))) as [H|H].
  - now apply tri_sound in H.
  - lra.
Qed.
Theorem search_min : forall r1 p1 z1 r2 p2 z2 w,
  let q1 := xyz r1 p1 z1 in let q2 := xyz r2 p2 z2 in
  let L := visited w q1 q2 in
  (fst (wall_3d_hit_wall r1 p1 z1 r2 p2 z2 w) = 0%nat /\ (forall i, In i L -> coll (wtris w) q1 q2 i < 0)) \/
  (exists i, wall_3d_hit_wall r1 p1 z1 r2 p2 z2 w = (S i, coll (wtris w) q1 q2 i) /\ In i L /\ 0 <= coll (wtris w) q1 q2 i <= 1 /\
     forall j, In j L -> 0 <= coll (wtris w) q1 q2 j -> coll (wtris w) q1 q2 i <= coll (wtris w) q1 q2 j).
Proof.
  intros r1 p1 z1 r2 p2 z2 w q1 q2 L. unfold wall_3d_hit_wall. fold q1 q2 L. cbv zeta.
  destruct (fold_min (wtris w) q1 q2 L) as [[-> N]|(i & I & -> & O & Lt & M)].
  - left. split; auto. intros i I. destruct (Rlt_dec (coll (wtris w) q1 q2 i) 0); auto.
    specialize (N i I). pose proof (coll_le1 (wtris w) q1 q2 i). lra.
  - right. exists i. repeat split; auto. apply coll_le1.
Qed.
Theorem full_min : forall r1 p1 z1 r2 p2 z2 w,
  let q1 := xyz r1 p1 z1 in let q2 := xyz r2 p2 z2 in let n := length (wtris w) in
  (fst (wall_3d_hit_wall_full r1 p1 z1 r2 p2 z2 w) = 0%nat /\ (forall i, (i < n)%nat -> coll (wtris w) q1 q2 i <= 0)) \/
  (exists i, wall_3d_hit_wall_full r1 p1 z1 r2 p2 z2 w = (S i, coll (wtris w) q1 q2 i) /\ (i < n)%nat /\ 0 < coll (wtris w) q1 q2 i <= 1 /\
     forall j, (j < n)%nat -> 0 < coll (wtris w) q1 q2 j -> coll (wtris w) q1 q2 i <= coll (wtris w) q1 q2 j).
Proof.
  intros r1 p1 z1 r2 p2 z2 w q1 q2 n. unfold wall_3d_hit_wall_full. fold q1 q2 n. cbv zeta.
  destruct (fold_min_full (wtris w) q1 q2 (seq 0 n)) as [[-> N]|(i & I & -> & O & Lt & M)].
  - left. split; auto. intros i I. destruct (Rle_dec (coll (wtris w) q1 q2 i) 0); auto.
    specialize (N i). rewrite in_seq in N. pose proof (coll_le1 (wtris w) q1 q2 i). assert (1.1 <= coll (wtris w) q1 q2 i) by (apply N; [lia|lra]). lra.
  - right. exists i. apply in_seq in I. repeat split; auto; [lia|apply coll_le1|]. intros j J. apply M. apply in_seq. lia.
Qed.

(** ** Which cells are visited *)
Lemma span_in : forall a b k, In k (span a b) <-> (Z.min a b <= k <= Z.max a b)%Z.
Proof.
  intros a b k. unfold span. rewrite in_map_iff. split.
  - intros (i & <- & I). apply in_seq in I. destruct (Z.ltb_spec (b - a) 0); lia.
  - intros H. destruct (Z.ltb_spec (b - a) 0).
    + exists (Z.to_nat (a - k)). rewrite in_seq. split; lia.
    + exists (Z.to_nat (k - a)). rewrite in_seq. split; lia.
Qed.
Lemma cell_mono : forall lo hi n x y, lo < hi -> (0 < n)%nat -> x <= y -> (cell_of lo hi n x <= cell_of lo hi n y)%Z.
Proof.
  intros lo hi n x y L N H. unfold cell_of. apply lt_0_INR in N.
  assert (g : 0 < (hi - lo) / INR n) by (apply Rdiv_lt_0_compat; lra).
  assert (Q : (x - lo) / ((hi - lo) / INR n) <= (y - lo) / ((hi - lo) / INR n)).
  { unfold Rdiv at 1 3. apply Rmult_le_compat_r; [left; now apply Rinv_0_lt_compat | lra]. }
  destruct (floor_spec ((x - lo) / ((hi - lo) / INR n))) as [A _]. destruct (floor_spec ((y - lo) / ((hi - lo) / INR n))) as [_ B].
  unfold floorR in *. assert (IZR (Int_part ((x - lo) / ((hi - lo) / INR n))) < IZR (Int_part ((y - lo) / ((hi - lo) / INR n)) + 1)) by (rewrite plus_IZR; lra).
  apply lt_IZR in H0. lia.
Qed.
Lemma cell_between : forall lo hi n a b s, lo < hi -> (0 < n)%nat -> 0 <= s <= 1 ->
  In (cell_of lo hi n (a + s * (b - a))) (span (cell_of lo hi n a) (cell_of lo hi n b)).
Proof.
  intros lo hi n a b s L N S. apply span_in.
  destruct (Rle_dec a b) as [Q|Q].
  - pose proof (cell_mono lo hi n a (a + s * (b - a)) L N ltac:(nra)). pose proof (cell_mono lo hi n (a + s * (b - a)) b L N ltac:(nra)). lia.
  - pose proof (cell_mono lo hi n b (a + s * (b - a)) L N ltac:(nra)). pose proof (cell_mono lo hi n (a + s * (b - a)) a L N ltac:(nra)). lia.
Qed.
(** the cell of a point inside the root box *)
Lemma cell_in : forall d lo hi x, lo < hi -> lo <= x < hi -> exists i, (i < 2 ^ d)%nat /\ cell_of lo hi (2 ^ d) x = Z.of_nat i /\
  lo + INR i * ((hi - lo) / pow2 d) <= x < lo + (INR i + 1) * ((hi - lo) / pow2 d).
Proof.
  intros d lo hi x L [A B]. pose proof (pow2_pos d) as P. unfold cell_of. fold (pow2 d). set (g := (hi - lo) / pow2 d) in *.
  assert (g0 : 0 < g) by (apply Rdiv_lt_0_compat; lra).
  assert (Hi : hi = lo + pow2 d * g) by (unfold g; field; lra).
  destruct (floor_spec ((x - lo) / g)) as [F1 F2]. unfold floorR in *. set (z := Int_part ((x - lo) / g)) in *.
  assert (q : (x - lo) / g * g = x - lo) by (field; lra).
  assert (Z0 : (0 <= z)%Z).
  { assert (- 1 < IZR z) by (assert (0 <= (x - lo) / g) by (apply Rle_mult_inv_pos; lra); lra). apply lt_IZR in H. lia. }
  assert (ZI : INR (Z.to_nat z) = IZR z) by (rewrite INR_IZR_INZ, Z2Nat.id; auto).
  assert (Zl : IZR z < pow2 d) by nra. rewrite <- ZI in Zl. unfold pow2 in Zl. apply INR_lt in Zl.
  exists (Z.to_nat z). split; auto. split; [now rewrite Z2Nat.id|]. rewrite ZI. split; nra.
Qed.
Lemma visited_cell : forall w q1 q2 s ix iy iz i, (0 < wngrid w)%nat -> vlt (wlo w) (whi w) -> 0 <= s <= 1 ->
  let x := at_frac q1 q2 s in let n := wngrid w in
  cell_of (vx (wlo w)) (vx (whi w)) n (vx x) = Z.of_nat ix -> cell_of (vy (wlo w)) (vy (whi w)) n (vy x) = Z.of_nat iy ->
  cell_of (vz (wlo w)) (vz (whi w)) n (vz x) = Z.of_nat iz -> (ix < n /\ iy < n /\ iz < n)%nat ->
  In i (cell_ids (wtree w) (cell_index n ix iy iz)) -> In i (visited w q1 q2).
Proof.
  intros w q1 q2 s ix iy iz i N (L1 & L2 & L3) S x n Cx Cy Cz (Bx & By' & Bz) I. unfold visited. fold n. cbv zeta.
  assert (Sx : In (Z.of_nat ix) (span (cell_of (vx (wlo w)) (vx (whi w)) n (vx q1)) (cell_of (vx (wlo w)) (vx (whi w)) n (vx q2))))
    by (rewrite <- Cx; unfold x, at_frac, vadd, vscal, vsub; cbn [vx]; apply cell_between; auto).
  assert (Sy : In (Z.of_nat iy) (span (cell_of (vy (wlo w)) (vy (whi w)) n (vy q1)) (cell_of (vy (wlo w)) (vy (whi w)) n (vy q2))))
    by (rewrite <- Cy; unfold x, at_frac, vadd, vscal, vsub; cbn [vy]; apply cell_between; auto).
  assert (Sz : In (Z.of_nat iz) (span (cell_of (vz (wlo w)) (vz (whi w)) n (vz q1)) (cell_of (vz (wlo w)) (vz (whi w)) n (vz q2))))
    by (rewrite <- Cz; unfold x, at_frac, vadd, vscal, vsub; cbn [vz]; apply cell_between; auto).
  apply in_flat_map. exists (Z.of_nat ix). split; auto. apply in_flat_map. exists (Z.of_nat iy). split; auto.
  apply in_flat_map. exists (Z.of_nat iz). split; auto.
  assert (G : forall k, (k < n)%nat -> in_grid n (Z.of_nat k) = true).
  { intros k K. unfold in_grid. apply andb_true_iff. split; [apply Z.leb_le | apply Z.ltb_lt]; lia. }
  rewrite !G by auto. cbn [andb]. rewrite !Nat2Z.id. auto.
Qed.

(** ** Initialisation *)
Definition vmean_ok (lo hi : vec) (ts : list tri) : Prop :=
  forall x, In x ts -> forall v, v = ta x \/ v = tb x \/ v = tc x ->
  (vx lo + 1 / 10 <= vx v <= vx hi - 1 / 10) /\ (vy lo + 1 / 10 <= vy v <= vy hi - 1 / 10) /\ (vz lo + 1 / 10 <= vz v <= vz hi - 1 / 10).
Lemma vle_trans : forall a b c, vle a b -> vle b c -> vle a c.
Proof. unfold vle. intros a b c (A & B & C) (D & E & F). repeat split; lra. Qed.
Lemma fold_vmin : forall l v x, In x (v :: l) -> vle (fold_left vmin l v) x.
Proof.
  induction l as [|a l IH]; intros v x [<-|I]; cbn [fold_left]; try (destruct I; fail).
  - repeat split; lra.
  - eapply vle_trans.
    + apply (IH (vmin v a) (vmin v a)). now left.
    + unfold vle, vmin; cbn [vx vy vz]; repeat split; apply Rmin_l.
  - destruct I as [<-|I].
    + eapply vle_trans.
      * apply (IH (vmin v a) (vmin v a)). now left.
      * unfold vle, vmin; cbn [vx vy vz]; repeat split; apply Rmin_r.
    + apply IH. now right.
Qed.
Lemma fold_vmax : forall l v x, In x (v :: l) -> vle x (fold_left vmax l v).
Proof.
  induction l as [|a l IH]; intros v x [<-|I]; cbn [fold_left]; try (destruct I; fail).
  - repeat split; lra.
  - apply vle_trans with (vmax v a).
    + unfold vle, vmax; cbn [vx vy vz]; repeat split; apply Rmax_l.
    + apply (IH (vmax v a) (vmax v a)). now left.
  - destruct I as [<-|I].
    + apply vle_trans with (vmax v a).
      * unfold vle, vmax; cbn [vx vy vz]; repeat split; apply Rmax_r.
      * apply (IH (vmax v a) (vmax v a)). now left.
    + apply IH. now right.
Qed.
Lemma bounds_ok : forall ts, vmean_ok (fst (bounds ts)) (snd (bounds ts)) ts.
Proof.
  intros ts x I v V'. unfold bounds.
  assert (M : In v (vertices ts)). { apply in_flat_map. exists x. split; auto. cbn. intuition. }
  destruct (vertices ts) as [|v0 l] eqn:E; [easy|]. cbn [fst snd].
  destruct (fold_vmin (v0 :: l) v0 v) as (A1 & A2 & A3); [now right|].
  destruct (fold_vmax (v0 :: l) v0 v) as (B1 & B2 & B3); [now right|].
  unfold vsub, vadd, pad. cbn [vx vy vz]. repeat split; lra.
Qed.
Lemma bounds_vlt : forall ts, ts <> [] -> vlt (fst (bounds ts)) (snd (bounds ts)).
Proof.
  intros [|x ts] N; [congruence|]. destruct (bounds_ok (x :: ts) x (or_introl eq_refl) (ta x) (or_introl eq_refl)) as (A & B & C).
  repeat split; lra.
Qed.
Lemma tri_in_bounds : forall ts x p, In x ts -> in_triangle (ta x) (tb x) (tc x) p ->
  let lo := fst (bounds ts) in let hi := snd (bounds ts) in
  vx lo <= vx p < vx hi /\ vy lo <= vy p < vy hi /\ vz lo <= vz p < vz hi.
Proof.
  intros ts x p I (a & b & c & A & B & C & S & ->) lo hi.
  destruct (bounds_ok ts x I (ta x)) as (A1 & A2 & A3); auto.
  destruct (bounds_ok ts x I (tb x)) as (B1 & B2 & B3); auto.
  destruct (bounds_ok ts x I (tc x)) as (C1 & C2 & C3); auto.
  fold lo in A1, A2, A3, B1, B2, B3, C1, C2, C3. fold hi in A1, A2, A3, B1, B2, B3, C1, C2, C3.
  assert (K : forall l h u v w, l + 1 / 10 <= u <= h - 1 / 10 -> l + 1 / 10 <= v <= h - 1 / 10 -> l + 1 / 10 <= w <= h - 1 / 10 ->
     l <= a * u + (b * v + c * w) < h).
  { intros l h u v w U V' W. assert (c = 1 - a - b) by lra. subst c. split; nra. }
  unfold vadd, vscal. cbn [vx vy vz]. split; [|split]; apply K; auto.
Qed.
Lemma all_some_map : forall A B (f : A -> option B) (g : A -> B) l, (forall k, In k l -> f k = Some (g k)) ->
  all_some (map f l) = Some (map g l).
Proof.
  intros A B f g. induction l as [|x l IH]; intros H; auto. cbn [map all_some]. rewrite (H x) by now left.
  rewrite IH; auto. intros. apply H. now right.
Qed.
Lemma centre_cell : forall d lo hi ix iy iz, vlt lo hi -> (ix < 2 ^ d /\ iy < 2 ^ d /\ iz < 2 ^ d)%nat ->
  vin_cell d lo hi ix iy iz (centre lo hi (2 ^ d) (ix, iy, iz)).
Proof.
  intros d lo hi ix iy iz (L1 & L2 & L3) (X & Y & Z). unfold vin_cell, in_cell, centre. fold (pow2 d). cbn [vx vy vz].
  pose proof (pow2_pos d).
  assert (g1 : 0 < (vx hi - vx lo) / pow2 d) by (apply Rdiv_lt_0_compat; lra).
  assert (g2 : 0 < (vy hi - vy lo) / pow2 d) by (apply Rdiv_lt_0_compat; lra).
  assert (g3 : 0 < (vz hi - vz lo) / pow2 d) by (apply Rdiv_lt_0_compat; lra).
  repeat split; auto; lra.
Qed.
(** the lists stored for each grid cell *)
Definition listed (d : nat) (lo hi : vec) (ts : list tri) (ix iy iz : nat) : list nat :=
  filter (fun m => forallb (boxok (nth m ts tri0)) (boxes d lo hi ix iy iz)) (seq 0 (length ts)).
Theorem init_ok : forall d ts junk1 junk2, ts <> [] ->
  exists w, wall_3d_init (S d) ts junk1 junk2 = Some w /\ wtris w = ts /\ wngrid w = (2 ^ d)%nat /\
    wlo w = fst (bounds ts) /\ whi w = snd (bounds ts) /\
    forall ix iy iz, (ix < 2 ^ d /\ iy < 2 ^ d /\ iz < 2 ^ d)%nat ->
      cell_ids (wtree w) (cell_index (2 ^ d) ix iy iz) = listed d (wlo w) (whi w) ts ix iy iz.
Proof.
  intros d ts junk1 junk2 N. unfold wall_3d_init. pose proof (bounds_vlt ts N) as L.
  destruct (bounds ts) as [lo hi] eqn:E. cbn [fst snd] in *.
  replace (S d - 1)%nat with d by lia. set (n := (2 ^ d)%nat). unfold init_octree. cbv zeta.
  set (tree := add_all (octree_create (S d) lo hi) ts). set (tl := tri_list tree lo hi n junk1).
  assert (TL : forall ix iy iz, (ix < n /\ iy < n /\ iz < n)%nat -> tl (cell_index n ix iy iz) = Some (listed d lo hi ts ix iy iz)).
  { intros ix iy iz (X & Y & Z). unfold tl. rewrite tri_list_at by auto. unfold tree. apply octree_lookup; auto. apply centre_cell; auto. }
  rewrite (all_some_map _ _ tl (fun k => match tl k with Some l => l | None => [] end)).
  2:{ intros k K. apply in_seq in K. destruct (cell_index_onto n k) as (a & b & c & B & <-); [lia|]. now rewrite TL. }
  eexists. split; [reflexivity|]. cbn [wtris wngrid wlo whi wtree]. repeat split; auto.
  intros ix iy iz B. rewrite tree_array_read.
  - destruct B as (X & Y & Z). pose proof (cell_index_lt n ix iy iz X Y Z) as Lt.
    rewrite nth_indep with (d' := match tl 0%nat with Some l => l | None => [] end) by (rewrite map_length, seq_length; auto).
    rewrite (map_nth (fun k => match tl k with Some l => l | None => [] end)).
    rewrite seq_nth by auto. rewrite Nat.add_0_l. now rewrite TL.
  - rewrite map_length, seq_length. destruct B as (X & Y & Z). now apply cell_index_lt.
Qed.

(** ** The accelerated search misses no well resolved triangle *)
Definition cell_faces (S0 : R) (d : nat) (lo hi : vec) :=
  let gx := (vx hi - vx lo) / pow2 d in let gy := (vy hi - vy lo) / pow2 d in let gz := (vz hi - vz lo) / pow2 d in
  S0 <= gx * gy /\ S0 <= gy * gz /\ S0 <= gx * gz.
Lemma box_detect : forall S0 d lo hi ix iy iz b x p, EPS < S0 -> cell_faces S0 d lo hi -> vlt lo hi ->
  (ix < 2 ^ d /\ iy < 2 ^ d /\ iz < 2 ^ d)%nat -> In b (boxes d lo hi ix iy iz) ->
  resolved S0 (ta x) (tb x) (tc x) -> in_triangle (ta x) (tb x) (tc x) p ->
  vle (cell_lo d lo hi ix iy iz) p -> vle p (cell_hi d lo hi ix iy iz) -> boxok x b = true.
Proof.
  intros S0 d lo hi ix iy iz b x p SE (F1 & F2 & F3) L Rg I Rs T (P1 & P2 & P3) (P4 & P5 & P6).
  destruct (boxes_contain d lo hi ix iy iz b L Rg I) as ((A1 & A2 & A3) & (B1 & B2 & B3)).
  assert (OE : 0 < OEPS) by (unfold OEPS; lra). destruct L as (L1 & L2 & L3). pose proof (pow2_pos d).
  set (gx := (vx hi - vx lo) / pow2 d) in *. set (gy := (vy hi - vy lo) / pow2 d) in *. set (gz := (vz hi - vz lo) / pow2 d) in *.
  assert (Gx : 0 < gx) by (apply Rdiv_lt_0_compat; lra). assert (Gy : 0 < gy) by (apply Rdiv_lt_0_compat; lra).
  assert (Gz : 0 < gz) by (apply Rdiv_lt_0_compat; lra).
  unfold cell_lo, cell_hi in *. cbn [vx vy vz] in *. fold gx gy gz in A1, A2, A3, B1, B2, B3, P1, P2, P3, P4, P5, P6.
  unfold boxok. apply cube_complete with (S0 := S0) (x := p); auto.
  - unfold faces_at_least, grow1, grow2. cbn [vx vy vz]. repeat split; try lra.
    + eapply Rle_trans; [apply F1|]. apply Rmult_le_compat; lra.
    + eapply Rle_trans; [apply F2|]. apply Rmult_le_compat; lra.
    + eapply Rle_trans; [apply F3|]. apply Rmult_le_compat; lra.
  - intros []; unfold grow1, grow2; cbn [co vx vy vz]; lra.
Qed.
Theorem accel_complete : forall d ts junk1 junk2 w S0 r1 p1 z1 r2 p2 z2 m x s,
  wall_3d_init (S d) ts junk1 junk2 = Some w -> nth_error ts m = Some x ->
  EPS < S0 -> cell_faces S0 d (wlo w) (whi w) -> resolved S0 (ta x) (tb x) (tc x) ->
  let q1 := xyz r1 p1 z1 in let q2 := xyz r2 p2 z2 in
  EPS <= slant q1 q2 (ta x) (tb x) (tc x) -> hits_at q1 q2 (ta x) (tb x) (tc x) s ->
  In m (visited w q1 q2) /\
  exists i, wall_3d_hit_wall r1 p1 z1 r2 p2 z2 w = (S i, coll ts q1 q2 i) /\ 0 <= coll ts q1 q2 i <= s.
Proof.
  intros d ts junk1 junk2 w S0 r1 p1 z1 r2 p2 z2 m x s In0 Nm SE CF Rs q1 q2 Sl H.
  assert (NE : ts <> []) by (intros ->; destruct m; discriminate).
  destruct (init_ok d ts junk1 junk2 NE) as (w' & E & Wt & Wn & Wl & Wh & CI). rewrite In0 in E. injection E as <-.
  pose proof (bounds_vlt ts NE) as L. rewrite <- Wl, <- Wh in L.
  pose proof (nth_error_In _ _ Nm) as Ix.
  assert (V0 : In m (visited w q1 q2)).
  { destruct H as [Hs T]. pose proof (tri_in_bounds ts x _ Ix T) as (Bx & By' & Bz). rewrite <- Wl, <- Wh in Bx, By', Bz.
    destruct L as (L1 & L2 & L3).
    destruct (cell_in d _ _ _ L1 Bx) as (ix & X1 & X2 & X3). destruct (cell_in d _ _ _ L2 By') as (iy & Y1 & Y2 & Y3).
    destruct (cell_in d _ _ _ L3 Bz) as (iz & Z1 & Z2 & Z3). rewrite <- Wn in X2, Y2, Z2.
    apply visited_cell with (s := s) (ix := ix) (iy := iy) (iz := iz); auto.
    - rewrite Wn. apply Nat.neq_0_lt_0, Nat.pow_nonzero. lia.
    - repeat split; auto.
    - rewrite Wn. auto.
    - rewrite Wn, CI by auto. unfold listed. apply filter_In. split.
      + apply in_seq. assert (m < length ts)%nat by (apply nth_error_Some; congruence). lia.
      + apply forallb_forall. intros b B. rewrite (nth_error_nth _ _ tri0 Nm).
        apply box_detect with (S0 := S0) (d := d) (lo := wlo w) (hi := whi w) (ix := ix) (iy := iy) (iz := iz) (p := at_frac q1 q2 s); auto.
        * repeat split; auto.
        * unfold vle, cell_lo. cbn [vx vy vz]. repeat split; lra.
        * unfold vle, cell_hi. cbn [vx vy vz]. repeat split; lra. }
  split; auto.
  apply (tri_exact q1 q2 _ _ _ s) in H; auto; [|apply oblique_area; apply Rs]. destruct H as [H0 H1].
  assert (C : coll ts q1 q2 m = s). { unfold coll. cbv zeta. rewrite (nth_error_nth _ _ tri0 Nm). auto. }
  destruct (search_min r1 p1 z1 r2 p2 z2 w) as [[Z A]|(i & A & B & D & M)]; fold q1 q2 in A; try fold q1 q2 in B; try fold q1 q2 in D; try fold q1 q2 in M.
  - specialize (A m V0). rewrite Wt in A. rewrite C in A. lra.
  - exists i. rewrite Wt in *. split; auto. split; [lra|]. rewrite <- C. apply M; auto. rewrite C. lra.
Qed.

(** first hit in terms of the geometry: all triangles transversal, those hit listed in visited cells *)
Theorem search_first_hit : forall r1 p1 z1 r2 p2 z2 w,
  let q1 := xyz r1 p1 z1 in let q2 := xyz r2 p2 z2 in
  let hit i s := exists x, nth_error (wtris w) i = Some x /\ hits_at q1 q2 (ta x) (tb x) (tc x) s in
  (forall x, In x (wtris w) -> EPS < area2 (ta x) (tb x) (tc x) /\ EPS <= slant q1 q2 (ta x) (tb x) (tc x)) ->
  (forall i s, hit i s -> In i (visited w q1 q2)) ->
  (fst (wall_3d_hit_wall r1 p1 z1 r2 p2 z2 w) = 0%nat /\ forall i s, ~ hit i s) \/
  (exists i s, wall_3d_hit_wall r1 p1 z1 r2 p2 z2 w = (S i, s) /\ hit i s /\ forall j s', hit j s' -> s <= s').
Proof.
  intros r1 p1 z1 r2 p2 z2 w q1 q2 hit TR VI.
  assert (HC : forall i s, hit i s -> 0 <= coll (wtris w) q1 q2 i /\ coll (wtris w) q1 q2 i = s).
  { intros i s (x & N & H). unfold coll. rewrite (nth_error_nth _ _ tri0 N). destruct (TR x (nth_error_In _ _ N)). apply tri_exact; auto. }
  destruct (search_min r1 p1 z1 r2 p2 z2 w) as [[Z A]|(i & A & I & C & M)]; fold q1 q2 in A.
  - left. split; auto. intros i s H. specialize (A i (VI i s H)). destruct (HC i s H). fold q1 q2 in A. lra.
  - right. exists i, (coll (wtris w) q1 q2 i). split; auto. fold q1 q2 in C. split.
    + destruct (nth_error (wtris w) i) as [x|] eqn:N.
      * exists x. split; auto. destruct (TR x (nth_error_In _ _ N)). apply tri_exact; auto.
        revert C. unfold coll. rewrite (nth_error_nth _ _ tri0 N). tauto.
      * exfalso. apply nth_error_None in N. revert C. unfold coll. rewrite nth_overflow by auto.
        rewrite tri_degenerate; [lra|]. left. unfold area2. replace (norm _) with 0; [unfold EPS; lra|].
        symmetry. apply norm_zero. cbn. unfold cross, vsub, vzero. cbn. f_equal; ring.
    + intros j s' H. destruct (HC j s' H) as [B <-]. apply M; auto. eapply VI; eauto.
Qed.
