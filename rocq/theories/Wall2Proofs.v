(** Specifications and proofs for the 2D wall. *)
From Coq Require Import Reals List Arith Lia Lra Psatz Bool.
From Verif Require Import MathModel MathProofs Wall2Model.
Import ListNotations.
Local Open Scope R_scope.

(** ** Specification *)
(** wall segment number i (counted from 0) of the closed polygon w *)
Definition is_segment (w : list (R * R)) (i : nat) (a b : R * R) : Prop :=
  nth_error (w ++ firstn 1 w) i = Some a /\ nth_error (w ++ firstn 1 w) (S i) = Some b.
Definition along (p q : R * R) (t : R) : R * R :=
  (fst p + t * (fst q - fst p), snd p + t * (snd q - snd p)).
Definition on_segment (a b x : R * R) : Prop := exists u, 0 <= u <= 1 /\ x = along a b u.
(** the step p1 -> p2 meets the segment ab at the fraction t of the step *)
Definition meets_at (p1 p2 a b : R * R) (t : R) : Prop :=
  0 <= t <= 1 /\ on_segment a b (along p1 p2 t).
Definition parallel (p1 p2 a b : R * R) : Prop :=
  (fst p2 - fst p1) * (snd b - snd a) = (snd p2 - snd p1) * (fst b - fst a).

(** ** Segments *)
Lemma is_segment_iff : forall w i a b, is_segment w i a b <->
  (i < length w)%nat /\ a = seg_a w i /\ b = seg_b w i.
Proof.
  intros w i a b. unfold is_segment, seg_a, seg_b.
  assert (L : length (w ++ firstn 1 w) = (length w + Nat.min 1 (length w))%nat) by (rewrite app_length, firstn_length; auto).
  split.
  - intros [A B]. assert (K : (S i < length (w ++ firstn 1 w))%nat) by (apply nth_error_Some; congruence).
    rewrite L in K. split; [lia|]. rewrite nth_error_app1 in A by lia.
    apply nth_error_nth with (d := (0, 0)) in A. split; auto.
    destruct (Nat.eqb_spec i (length w - 1)).
    + subst i. rewrite nth_error_app2 in B by lia. replace (S (length w - 1) - length w)%nat with 0%nat in B by lia.
      destruct w; [discriminate|]. cbn in B. injection B as <-. reflexivity.
    + rewrite nth_error_app1 in B by lia. apply nth_error_nth with (d := (0, 0)) in B. auto.
  - intros (I & -> & ->). rewrite nth_error_app1 by lia. split.
    + now apply nth_error_nth'.
    + destruct (Nat.eqb_spec i (length w - 1)).
      * subst i. rewrite nth_error_app2 by lia. replace (S (length w - 1) - length w)%nat with 0%nat by lia.
        destruct w; [cbn in I; lia|]. reflexivity.
      * rewrite nth_error_app1 by lia. apply nth_error_nth'. lia.
Qed.

(** ** One segment *)
Definition acc2d (p1 p2 a b : R * R) : option R :=
  let (r1, z1) := p1 in let (r2, z2) := p2 in let (r3, z3) := a in let (r4, z4) := b in
  let div := (r1 - r2) * (z3 - z4) - (z1 - z2) * (r3 - r4) in
  let t := ((r1 - r3) * (z3 - z4) - (z1 - z3) * (r3 - r4)) / div in
  let u := ((r1 - r3) * (z1 - z2) - (z1 - z3) * (r1 - r2)) / div in
  if Req_EM_T div 0 then None else
  if Rle_dec 0 t then if Rle_dec t 1 then if Rle_dec 0 u then if Rle_dec u 1 then Some t
  else None else None else None else None.
Lemma step2d_acc : forall p1 p2 w st i, step2d p1 p2 w st i =
  match acc2d p1 p2 (seg_a w i) (seg_b w i) with
  | Some t => if Rlt_dec t (snd st) then (S i, t) else st
  | None => st
  end.
Proof.
  intros [r1 z1] [r2 z2] w st i. unfold step2d, acc2d. destruct (seg_a w i) as [r3 z3], (seg_b w i) as [r4 z4].
  destruct (Req_EM_T _ _); auto. destruct (Rle_dec _ _); auto. destruct (Rle_dec _ _); auto.
  destruct (Rle_dec _ _); auto. destruct (Rle_dec _ _); auto.
Qed.
Lemma acc2d_spec : forall p1 p2 a b t,
  acc2d p1 p2 a b = Some t <-> (~ parallel p1 p2 a b /\ meets_at p1 p2 a b t).
Proof.
  intros [r1 z1] [r2 z2] [r3 z3] [r4 z4] t. unfold acc2d, parallel, meets_at, on_segment, along. cbn [fst snd].
  set (D := (r1 - r2) * (z3 - z4) - (z1 - z2) * (r3 - r4)).
  set (T := ((r1 - r3) * (z3 - z4) - (z1 - z3) * (r3 - r4)) / D).
  set (U := ((r1 - r3) * (z1 - z2) - (z1 - z3) * (r1 - r2)) / D).
  destruct (Req_EM_T D 0) as [Q|Q].
  { split; [discriminate|]. intros [P _]. exfalso. apply P. unfold D in Q. lra. }
  assert (NP : ~ (r2 - r1) * (z4 - z3) = (z2 - z1) * (r4 - r3)) by (intros K; apply Q; unfold D; lra).
  assert (X : (r1 + T * (r2 - r1), z1 + T * (z2 - z1)) = (r3 + U * (r4 - r3), z3 + U * (z4 - z3))).
  { unfold T, U. f_equal; apply Rmult_eq_reg_r with D; auto; unfold D; field; auto. }
  assert (Un : forall t u, (r1 + t * (r2 - r1), z1 + t * (z2 - z1)) = (r3 + u * (r4 - r3), z3 + u * (z4 - z3)) -> t = T /\ u = U).
  { intros t' u' E. injection E as E1 E2. unfold T, U.
    split; apply Rmult_eq_reg_r with D; auto; unfold Rdiv; rewrite Rmult_assoc, Rinv_l, Rmult_1_r by auto; unfold D.
    - assert (A1 : r1 - r3 = u' * (r4 - r3) - t' * (r2 - r1)) by lra.
      assert (A2 : z1 - z3 = u' * (z4 - z3) - t' * (z2 - z1)) by lra. rewrite A1, A2. ring.
    - assert (A1 : r1 - r3 = u' * (r4 - r3) - t' * (r2 - r1)) by lra.
      assert (A2 : z1 - z3 = u' * (z4 - z3) - t' * (z2 - z1)) by lra. rewrite A1, A2. ring. }
  split.
  - destruct (Rle_dec 0 T); [|discriminate]. destruct (Rle_dec T 1); [|discriminate].
    destruct (Rle_dec 0 U); [|discriminate]. destruct (Rle_dec U 1); [|discriminate].
    intros E. injection E as <-. split; auto. split; [lra|]. exists U. split; [lra|auto].
  - intros (_ & Ht & u & Hu & E). destruct (Un _ _ E) as [-> ->].
    destruct (Rle_dec 0 T); [|lra]. destruct (Rle_dec T 1); [|lra].
    destruct (Rle_dec 0 U); [|lra]. destruct (Rle_dec U 1); [|lra]. auto.
Qed.

(** ** The loop *)
Definition best (p1 p2 : R * R) (w : list (R * R)) (k : nat) (st : nat * R) : Prop :=
  (st = (0%nat, 2) /\ forall i t, (i < k)%nat -> acc2d p1 p2 (seg_a w i) (seg_b w i) <> Some t) \/
  (exists i t, st = (S i, t) /\ (i < k)%nat /\ acc2d p1 p2 (seg_a w i) (seg_b w i) = Some t /\
     forall j s, (j < k)%nat -> acc2d p1 p2 (seg_a w j) (seg_b w j) = Some s ->
       t <= s /\ ((j < i)%nat -> t < s)).
Lemma acc2d_01 : forall p1 p2 a b t, acc2d p1 p2 a b = Some t -> 0 <= t <= 1.
Proof. intros. apply acc2d_spec in H. destruct H as [_ [H _]]. auto. Qed.
Lemma loop2d : forall p1 p2 w k, best p1 p2 w k (fold_left (step2d p1 p2 w) (seq 0 k) (0%nat, 2)).
Proof.
  intros p1 p2 w. induction k.
  - left. split; auto. intros. lia.
  - rewrite seq_S, fold_left_app. cbn [fold_left]. rewrite Nat.add_0_l.
    set (st := fold_left _ _ _) in *. rewrite step2d_acc.
    destruct (acc2d p1 p2 (seg_a w k) (seg_b w k)) as [t|] eqn:A.
    + pose proof (acc2d_01 _ _ _ _ _ A) as T.
      destruct IHk as [[-> N]|(i & t0 & -> & I & E & M)]; cbn [snd].
      * destruct (Rlt_dec t 2); [|lra]. right. exists k, t. repeat split; auto.
        -- destruct (Nat.eq_dec j k); [subst; rewrite A in H0; injection H0 as <-; lra | elim (N j s); auto; lia].
        -- intros. elim (N j s); auto.
      * destruct (Rlt_dec t t0).
        -- right. exists k, t. repeat split; auto.
           ++ destruct (Nat.eq_dec j k); [subst; rewrite A in H0; injection H0 as <-; lra|]. destruct (M j s); auto; [lia|lra].
           ++ intros. destruct (M j s); auto. lra.
        -- right. exists i, t0. split; auto. split; [lia|]. split; auto. intros j s J F.
           destruct (Nat.eq_dec j k); [subst; rewrite A in F; injection F as <-; split; [lra|lia]|]. apply M; auto. lia.
    + destruct IHk as [[-> N]|(i & t0 & -> & I & E & M)].
      * left. split; auto. intros j s J. destruct (Nat.eq_dec j k); [subst; congruence | apply N; lia].
      * right. exists i, t0. split; auto. split; [lia|]. split; auto. intros j s J F.
        destruct (Nat.eq_dec j k); [subst; congruence | apply M; auto; lia].
Qed.

Theorem find_hit : forall p1 p2 w i t, wall_2d_find_intersection p1 p2 w = (S i, t) ->
  exists a b, is_segment w i a b /\ ~ parallel p1 p2 a b /\ meets_at p1 p2 a b t /\
  forall j c d s, is_segment w j c d -> ~ parallel p1 p2 c d -> meets_at p1 p2 c d s ->
    t <= s /\ ((j < i)%nat -> t < s).
Proof.
  intros p1 p2 w i t H. unfold wall_2d_find_intersection in H.
  destruct (loop2d p1 p2 w (length w)) as [[E _]|(i' & t' & E & I & A & M)]; rewrite E in H; [discriminate|].
  injection H as -> ->. apply acc2d_spec in A as A'. destruct A' as [N Mt].
  exists (seg_a w i), (seg_b w i). split; [apply is_segment_iff; auto|]. split; auto. split; auto.
  intros j c d s Sg NP Mc. apply is_segment_iff in Sg. destruct Sg as (J & -> & ->).
  apply M; auto. apply acc2d_spec. auto.
Qed.
Theorem find_none : forall p1 p2 w,
  (fst (wall_2d_find_intersection p1 p2 w) = 0%nat <->
   forall i a b t, is_segment w i a b -> ~ parallel p1 p2 a b -> ~ meets_at p1 p2 a b t) /\
  (fst (wall_2d_find_intersection p1 p2 w) = 0%nat -> snd (wall_2d_find_intersection p1 p2 w) = 2).
Proof.
  intros p1 p2 w. unfold wall_2d_find_intersection.
  destruct (loop2d p1 p2 w (length w)) as [[E N]|(i' & t' & E & I & A & M)]; rewrite E; cbn [fst snd].
  - split; auto. split; auto. intros _ i a b t Sg NP Mt. apply is_segment_iff in Sg. destruct Sg as (J & -> & ->).
    apply (N i t J). apply acc2d_spec. auto.
  - split; [|discriminate]. split; [discriminate|]. intros K. exfalso. apply acc2d_spec in A. destruct A.
    apply (K i' (seg_a w i') (seg_b w i') t'); auto. apply is_segment_iff. auto.
Qed.
Theorem find_range : forall p1 p2 w, (fst (wall_2d_find_intersection p1 p2 w) <= length w)%nat.
Proof.
  intros p1 p2 w. unfold wall_2d_find_intersection.
  destruct (loop2d p1 p2 w (length w)) as [[E N]|(i' & t' & E & I & A & M)]; rewrite E; cbn [fst]; lia.
Qed.

(** ** Inside test *)
Lemma fold_hits : forall r z w l n,
  fold_left (fun hits i =>
     let wz1 := snd (seg_a w i) - z in let wz2 := snd (seg_b w i) - z in
     let wr1 := fst (seg_a w i) - r in let wr2 := fst (seg_b w i) - r in
     if Rlt_dec (wz1 * wz2) 0 then
       (let ri := wr1 + (wz1 * (wr2 - wr1)) / (wz1 - wz2) in
        if Rlt_dec 0 ri then S hits else hits)
     else hits) l n =
  (n + length (filter (fun i => crosses r z (seg_a w i) (seg_b w i)) l))%nat.
Proof.
  induction l; intros n; cbn [fold_left filter]; [cbn; lia|].
  cbv zeta in *. rewrite IHl. unfold crosses at 2.
  destruct (Rlt_dec _ _); cbn [length]; try lia. destruct (Rlt_dec _ _); cbn [length]; lia.
Qed.
Lemma edges_nth : forall l, edges l = map (fun i => (nth i l (0, 0), nth (S i) l (0, 0))) (seq 0 (length l - 1)).
Proof.
  induction l as [|a [|b l] IH]; auto.
  change (edges (a :: b :: l)) with ((a, b) :: edges (b :: l)). rewrite IH.
  replace (length (a :: b :: l) - 1)%nat with (S (length (b :: l) - 1)) by (cbn; lia).
  cbn [seq map]. f_equal. rewrite <- seq_shift, map_map. reflexivity.
Qed.
Definition closed_up (w : list (R * R)) := w ++ firstn 1 w.
Lemma seg_edges : forall w, edges (closed_up w) = map (fun i => (seg_a w i, seg_b w i)) (seq 0 (length w)).
Proof.
  intros w. rewrite edges_nth. unfold closed_up. rewrite app_length, firstn_length.
  destruct w as [|v w]; [reflexivity|]. set (l := v :: w) in *.
  assert (L : (1 <= length l)%nat) by (cbn; lia).
  replace (length l + Nat.min 1 (length l) - 1)%nat with (length l) by lia.
  apply map_ext_in. intros i I. apply in_seq in I. unfold seg_a, seg_b.
  rewrite app_nth1 by lia. f_equal. destruct (Nat.eqb_spec i (length l - 1)).
  - subst i. rewrite app_nth2 by lia. replace (S (length l - 1) - length l)%nat with 0%nat by lia. reflexivity.
  - rewrite app_nth1 by lia. auto.
Qed.
Theorem inside_pip : forall r z w, wall_2d_inside r z w = point_in_polygon r z (closed_up w).
Proof.
  intros r z w. unfold wall_2d_inside, point_in_polygon. rewrite fold_hits, Nat.add_0_l. f_equal.
  rewrite hits_edges, seg_edges. generalize (seq 0 (length w)) as l. induction l; auto.
  cbn [map filter fst snd]. destruct (crosses _ _ _ _); cbn [length]; auto.
Qed.

(** ** A step from inside to outside cannot tunnel through the wall *)
Definition touches (p1 p2 a b : R * R) : Prop := exists t, meets_at p1 p2 a b t.
(** side of the line through p1 p2, for z increasing from p1 to p2: positive to
    the right *)
Definition side (p1 p2 x : R * R) : R :=
  (fst x - fst p1) * (snd p2 - snd p1) - (fst p2 - fst p1) * (snd x - snd p1).

Lemma along_along : forall a b u v s, along (along a b u) (along a b v) s = along a b (u + s * (v - u)).
Proof. intros [a1 a2] [b1 b2] u v s. unfold along. cbn [fst snd]. f_equal; ring. Qed.
(** two points of the edge in the strip of the step lie on the same side *)
Lemma strip_side : forall p1 p2 a b u v, snd p1 < snd p2 -> 0 <= u <= 1 -> 0 <= v <= 1 ->
  snd p1 <= snd (along a b u) <= snd p2 -> snd p1 <= snd (along a b v) <= snd p2 ->
  ~ touches p1 p2 a b ->
  0 < side p1 p2 (along a b u) * side p1 p2 (along a b v).
Proof.
  intros p1 p2 a b u v Z Hu Hv Su Sv NT.
  destruct (Rlt_dec 0 (side p1 p2 (along a b u) * side p1 p2 (along a b v))) as [|Q]; auto. exfalso. apply NT.
  set (A := along a b u) in *. set (B := along a b v) in *.
  (* the point of AB on the line *)
  assert (E : exists s, 0 <= s <= 1 /\ side p1 p2 (along A B s) = 0).
  { assert (L : forall s, side p1 p2 (along A B s) = side p1 p2 A + s * (side p1 p2 B - side p1 p2 A))
      by (intros s; unfold side, along; cbn [fst snd]; ring).
    set (x := side p1 p2 A) in *. set (y := side p1 p2 B) in *.
    destruct (Req_dec x y) as [e|n].
    - assert (x = 0) by (rewrite <- e in Q; nra). exists 0. split; [lra|]. rewrite L. lra.
    - exists (x / (x - y)). assert (D : x - y <> 0) by lra.
      split; [|rewrite L; field; auto].
      destruct (Rlt_dec 0 (x - y)).
      + split; [apply Rle_mult_inv_pos; auto; nra|]. apply Rmult_le_reg_r with (x - y); auto.
        unfold Rdiv. rewrite Rmult_assoc, Rinv_l by auto. nra.
      + replace (x / (x - y)) with ((- x) / (y - x)) by (field; lra).
        split; [apply Rle_mult_inv_pos; nra|]. apply Rmult_le_reg_r with (y - x); [lra|].
        unfold Rdiv. rewrite Rmult_assoc, Rinv_l by lra. nra. }
  destruct E as (s & Hs & E0).
  set (X := along A B s) in *.
  assert (SX : snd p1 <= snd X <= snd p2) by (unfold X, along; cbn [snd]; nra).
  exists ((snd X - snd p1) / (snd p2 - snd p1)). assert (D : 0 < snd p2 - snd p1) by lra. split.
  - split; [apply Rle_mult_inv_pos; lra|]. apply Rmult_le_reg_r with (snd p2 - snd p1); auto.
    unfold Rdiv. rewrite Rmult_assoc, Rinv_l by lra. lra.
  - exists (u + s * (v - u)). split; [nra|]. rewrite <- along_along. fold A B X.
    clearbody X. destruct X as [x1 x2]. unfold along. cbn [fst snd] in *. f_equal; [|field; lra].
    unfold side in E0. cbn [fst snd] in E0. apply Rmult_eq_reg_r with (snd p2 - snd p1); [|lra].
    transitivity (fst p1 * (snd p2 - snd p1) + (x2 - snd p1) * (fst p2 - fst p1)); [field; lra|]. lra.
Qed.

Definition bto (x : bool) : nat := if x then 1 else 0.
(** right of the step and in its strip *)
Definition omega (p1 p2 x : R * R) : bool :=
  if Rlt_dec (snd p1) (snd x) then if Rlt_dec (snd x) (snd p2) then
    if Rlt_dec 0 (side p1 p2 x) then true else false else false else false.
(** crossing the ray of a point at the height of the point *)
Lemma crosses_side : forall p1 p2 p a b, snd p1 < snd p2 -> p = p1 \/ p = p2 ->
  forall u, 0 <= u <= 1 -> snd (along a b u) = snd p -> snd a <> snd p -> snd b <> snd p ->
  crosses (fst p) (snd p) a b = if Rlt_dec 0 (side p1 p2 (along a b u)) then true else false.
Proof.
  intros p1 p2 p a b Z P u Hu E Na Nb.
  assert (S : side p1 p2 (along a b u) = (fst (along a b u) - fst p) * (snd p2 - snd p1)).
  { unfold side. rewrite E. destruct P as [->| ->]; ring. }
  assert (C : crosses (fst p) (snd p) a b = true <-> fst p < fst (along a b u)).
  { rewrite crosses_iff by auto. unfold meets_ray. unfold along in *. cbn [fst snd] in *. split.
    - intros (t & T & H1 & H2). assert (t = u); [|subst; lra].
      assert (N : snd b - snd a <> 0) by (intros K; apply Na; nra).
      apply Rmult_eq_reg_r with (snd b - snd a); auto. lra.
    - intros H. exists u. repeat split; try lra. }
  rewrite S. destruct (Rlt_dec 0 _) as [Q|Q].
  - apply C. nra.
  - destruct (crosses _ _ _ _); auto. exfalso. apply Q. assert (fst p < fst (along a b u)) by now apply C. nra.
Qed.
Lemma crosses_no : forall r z a b, 0 <= (snd a - z) * (snd b - z) -> crosses r z a b = false.
Proof. intros. unfold crosses. destruct (Rlt_dec _ _); auto. lra. Qed.
Lemma height_frac : forall a b z, (snd a - z) * (snd b - z) < 0 -> exists u, 0 <= u <= 1 /\ snd (along a b u) = z.
Proof.
  intros a b z H. assert (N : snd b - snd a <> 0).
  { intros K. assert (E : snd b = snd a) by lra. rewrite E in H. pose proof (Rle_0_sqr (snd a - z)) as Q. unfold Rsqr in Q. lra. }
  exists ((z - snd a) / (snd b - snd a)). split; [|unfold along; cbn [snd]; field; auto].
  destruct (Rlt_dec 0 (snd b - snd a)).
  - split; [apply Rle_mult_inv_pos; auto; nra|]. apply Rmult_le_reg_r with (snd b - snd a); auto.
    unfold Rdiv. rewrite Rmult_assoc, Rinv_l by auto. nra.
  - replace ((z - snd a) / (snd b - snd a)) with ((snd a - z) / (snd a - snd b)) by (field; lra).
    split; [apply Rle_mult_inv_pos; nra|]. apply Rmult_le_reg_r with (snd a - snd b); [lra|].
    unfold Rdiv. rewrite Rmult_assoc, Rinv_l by lra. nra.
Qed.
Lemma along0 : forall a b, along a b 0 = a.
Proof. intros [] []. unfold along. cbn. f_equal; ring. Qed.
Lemma along1 : forall a b, along a b 1 = b.
Proof. intros [] []. unfold along. cbn. f_equal; ring. Qed.
(** sign agreement of two points in the strip *)
Definition gpos (p1 p2 x : R * R) : bool := if Rlt_dec 0 (side p1 p2 x) then true else false.
Lemma gpos_eq : forall p1 p2 x y, 0 < side p1 p2 x * side p1 p2 y -> gpos p1 p2 x = gpos p1 p2 y.
Proof. intros. unfold gpos. destruct (Rlt_dec _ _), (Rlt_dec _ _); auto; exfalso; nra. Qed.

Lemma edge_balance : forall p1 p2 a b, snd p1 < snd p2 ->
  snd a <> snd p1 -> snd a <> snd p2 -> snd b <> snd p1 -> snd b <> snd p2 ->
  ~ touches p1 p2 a b ->
  xorb (crosses (fst p1) (snd p1) a b) (crosses (fst p2) (snd p2) a b) =
  xorb (omega p1 p2 a) (omega p1 p2 b).
Proof.
  intros p1 p2 a b Z A1 A2 B1 B2 NT.
  (* what each height contributes *)
  assert (C1 : (snd a - snd p1) * (snd b - snd p1) < 0 -> exists u, 0 <= u <= 1 /\ snd (along a b u) = snd p1 /\
     crosses (fst p1) (snd p1) a b = gpos p1 p2 (along a b u)).
  { intros H. destruct (height_frac _ _ _ H) as (u & U & E). exists u. split; auto. split; auto.
    apply crosses_side with (p1 := p1) (p2 := p2); auto. }
  assert (C2 : (snd a - snd p2) * (snd b - snd p2) < 0 -> exists u, 0 <= u <= 1 /\ snd (along a b u) = snd p2 /\
     crosses (fst p2) (snd p2) a b = gpos p1 p2 (along a b u)).
  { intros H. destruct (height_frac _ _ _ H) as (u & U & E). exists u. split; auto. split; auto.
    apply crosses_side with (p1 := p1) (p2 := p2); auto. }
  assert (Sd : forall u v, 0 <= u <= 1 -> 0 <= v <= 1 -> snd p1 <= snd (along a b u) <= snd p2 ->
    snd p1 <= snd (along a b v) <= snd p2 -> gpos p1 p2 (along a b u) = gpos p1 p2 (along a b v)).
  { intros. apply gpos_eq. apply strip_side; auto. }
  assert (Oa : omega p1 p2 a = if Rlt_dec (snd p1) (snd a) then if Rlt_dec (snd a) (snd p2) then gpos p1 p2 (along a b 0) else false else false)
    by (rewrite along0; reflexivity).
  assert (Ob : omega p1 p2 b = if Rlt_dec (snd p1) (snd b) then if Rlt_dec (snd b) (snd p2) then gpos p1 p2 (along a b 1) else false else false)
    by (rewrite along1; reflexivity).
  pose proof (f_equal snd (along0 a b)) as S0. pose proof (f_equal snd (along1 a b)) as S1.
  rewrite Oa, Ob.
  destruct (Rlt_dec (snd p1) (snd a)), (Rlt_dec (snd a) (snd p2)), (Rlt_dec (snd p1) (snd b)), (Rlt_dec (snd b) (snd p2)); try (exfalso; lra);
  repeat match goal with
  | |- context [crosses (fst p1) (snd p1) a b] =>
      first [ rewrite (crosses_no (fst p1) (snd p1)) by nra
            | destruct C1 as (u1 & U1 & E1 & ->); [nra|] ]
  end;
  repeat match goal with
  | |- context [crosses (fst p2) (snd p2) a b] =>
      first [ rewrite (crosses_no (fst p2) (snd p2)) by nra
            | destruct C2 as (u2 & U2 & E2 & ->); [nra|] ]
  end; try reflexivity;
  try (rewrite (Sd 0 1) by lra; now destruct (gpos p1 p2 (along a b 1)));
  try (rewrite (Sd u1 u2) by lra; now destruct (gpos p1 p2 (along a b u2)));
  try (rewrite (Sd u1 0) by lra; now destruct (gpos p1 p2 (along a b 0)));
  try (rewrite (Sd u1 1) by lra; now destruct (gpos p1 p2 (along a b 1)));
  try (rewrite (Sd u2 0) by lra; now destruct (gpos p1 p2 (along a b 0)));
  try (rewrite (Sd u2 1) by lra; now destruct (gpos p1 p2 (along a b 1))).
Qed.

Lemma edge_balance_flat : forall p1 p2 a b, snd p1 = snd p2 ->
  snd a <> snd p1 -> snd b <> snd p1 -> ~ touches p1 p2 a b ->
  crosses (fst p1) (snd p1) a b = crosses (fst p2) (snd p2) a b.
Proof.
  intros p1 p2 a b Z A B NT. rewrite <- Z.
  apply eq_true_iff_eq. rewrite !crosses_iff by auto.
  assert (K : forall t, 0 <= t <= 1 -> (1 - t) * snd a + t * snd b = snd p1 ->
     ~ (fst p1 <= (1 - t) * fst a + t * fst b <= fst p2) /\ ~ (fst p2 <= (1 - t) * fst a + t * fst b <= fst p1)).
  { intros t T E. set (x := (1 - t) * fst a + t * fst b).
    assert (M : forall s, 0 <= s <= 1 -> fst p1 + s * (fst p2 - fst p1) = x -> False).
    { intros s Hs Ex. apply NT. exists s. split; auto. exists t. split; auto. unfold along. f_equal; [unfold x in Ex; lra|].
      rewrite <- Z. lra. }
    split; intros H.
    - destruct (Req_dec (fst p1) (fst p2)) as [e|n]; [apply (M 0); lra|].
      apply (M ((x - fst p1) / (fst p2 - fst p1))); [|field; lra].
      split; [apply Rle_mult_inv_pos; lra|]. apply Rmult_le_reg_r with (fst p2 - fst p1); [lra|].
      unfold Rdiv. rewrite Rmult_assoc, Rinv_l by lra. lra.
    - destruct (Req_dec (fst p1) (fst p2)) as [e|n]; [apply (M 0); lra|].
      apply (M ((fst p1 - x) / (fst p1 - fst p2))); [|field; lra].
      split; [apply Rle_mult_inv_pos; lra|]. apply Rmult_le_reg_r with (fst p1 - fst p2); [lra|].
      unfold Rdiv. rewrite Rmult_assoc, Rinv_l by lra. lra. }
  split; intros (t & T & E & L); destruct (K t T E) as [K1 K2]; exists t; repeat split; try lra.
Qed.

(** sums over a closed chain *)
Lemma xor_chain : forall (f : (R * R) -> (R * R) -> bool) (g : R * R -> bool) l a,
  (forall x y, In (x, y) (edges (a :: l)) -> f x y = xorb (g x) (g y)) ->
  fold_right (fun e acc => xorb (f (fst e) (snd e)) acc) false (edges (a :: l)) = xorb (g a) (g (last (a :: l) a)).
Proof.
  intros f g. induction l as [|b l]; intros a H.
  - cbn. now rewrite xorb_nilpotent.
  - change (edges (a :: b :: l)) with ((a, b) :: edges (b :: l)) in *. cbn [fold_right fst snd].
    rewrite IHl by (intros; apply H; now right). rewrite H by now left.
    change (last (a :: b :: l) a) with (last (b :: l) a). rewrite (last_indep _ (b :: l) a b) by discriminate.
    destruct (g a), (g b), (g (last (b :: l) b)); reflexivity.
Qed.
Lemma closed_last : forall v w, last (closed_up (v :: w)) v = v.
Proof. intros. unfold closed_up. cbn [firstn]. apply last_last. Qed.
Lemma parity_odd : forall r z l, Nat.odd (hits r z l) = fold_right (fun e acc => xorb (crosses r z (fst e) (snd e)) acc) false (edges l).
Proof.
  intros r z. induction l as [|a [|b l] IH]; auto.
  change (edges (a :: b :: l)) with ((a, b) :: edges (b :: l)). cbn [fold_right fst snd].
  change (hits r z (a :: b :: l)) with (bto (crosses r z a b) + hits r z (b :: l))%nat.
  rewrite <- IH, Nat.odd_add. now destruct (crosses r z a b).
Qed.
Lemma fold_xor : forall (f g : (R * R) * (R * R) -> bool) l,
  fold_right (fun e acc => xorb (xorb (f e) (g e)) acc) false l =
  xorb (fold_right (fun e acc => xorb (f e) acc) false l) (fold_right (fun e acc => xorb (g e) acc) false l).
Proof.
  induction l; auto. cbn [fold_right]. rewrite IHl.
  generalize (fold_right (fun e acc => xorb (f e) acc) false l), (fold_right (fun e acc => xorb (g e) acc) false l).
  intros x y. destruct (f a), (g a), x, y; auto.
Qed.
Lemma inside_odd : forall r z w, wall_2d_inside r z w = bto (Nat.odd (hits r z (closed_up w))).
Proof.
  intros. rewrite inside_pip. unfold point_in_polygon. rewrite <- Nat.bit0_mod.
  rewrite Nat.bit0_odd. now destruct (Nat.odd _).
Qed.
Lemma closed_in : forall w x, In x (closed_up w) -> In x w.
Proof. intros [|v w] x; auto. unfold closed_up. cbn [firstn]. rewrite in_app_iff. cbn. intuition. Qed.

Lemma no_touch_up : forall p1 p2 w, snd p1 < snd p2 ->
  (forall v, In v w -> snd v <> snd p1 /\ snd v <> snd p2) ->
  (forall a b, In (a, b) (edges (closed_up w)) -> ~ touches p1 p2 a b) ->
  wall_2d_inside (fst p1) (snd p1) w = wall_2d_inside (fst p2) (snd p2) w.
Proof.
  intros p1 p2 w Z V NT. rewrite !inside_odd, !parity_odd. f_equal. apply xorb_eq. rewrite <- fold_xor.
  destruct w as [|v w]; [reflexivity|].
  change (closed_up (v :: w)) with (v :: (w ++ [v])) in *.
  rewrite (xor_chain (fun x y => xorb (crosses (fst p1) (snd p1) x y) (crosses (fst p2) (snd p2) x y)) (omega p1 p2)).
  - pose proof (closed_last v w) as L. change (closed_up (v :: w)) with (v :: (w ++ [v])) in L. rewrite L. apply xorb_nilpotent.
  - intros x y E. pose proof (edges_in _ _ _ E) as [Ix Iy].
    assert (Cx : In x (v :: w)) by (apply (closed_in (v :: w)); exact Ix).
    assert (Cy : In y (v :: w)) by (apply (closed_in (v :: w)); exact Iy).
    destruct (V x Cx), (V y Cy). apply edge_balance; auto.
Qed.
Lemma no_touch_flat : forall p1 p2 w, snd p1 = snd p2 ->
  (forall v, In v w -> snd v <> snd p1) ->
  (forall a b, In (a, b) (edges (closed_up w)) -> ~ touches p1 p2 a b) ->
  wall_2d_inside (fst p1) (snd p1) w = wall_2d_inside (fst p2) (snd p2) w.
Proof.
  intros p1 p2 w Z V NT. rewrite !inside_odd, !parity_odd. f_equal.
  assert (Q : forall a b, In (a, b) (edges (closed_up w)) -> crosses (fst p1) (snd p1) a b = crosses (fst p2) (snd p2) a b).
  { intros a b E. pose proof (edges_in _ _ _ E) as [Ix Iy]. apply edge_balance_flat; auto; apply V; now apply closed_in. }
  clear NT. induction (edges (closed_up w)) as [|[x y] l]; auto. cbn [fold_right fst snd].
  rewrite (Q x y) by now left. rewrite IHl; auto. intros. apply Q. now right.
Qed.
Lemma touches_sym : forall p1 p2 a b, touches p1 p2 a b -> touches p2 p1 a b.
Proof.
  intros p1 p2 a b (t & T & u & U & E). exists (1 - t). split; [lra|]. exists u. split; auto. rewrite <- E.
  unfold along. f_equal; ring.
Qed.
Theorem no_tunnel : forall p1 p2 w,
  (forall v, In v w -> snd v <> snd p1 /\ snd v <> snd p2) ->
  (forall i a b, is_segment w i a b -> parallel p1 p2 a b -> ~ touches p1 p2 a b) ->
  wall_2d_inside (fst p1) (snd p1) w <> wall_2d_inside (fst p2) (snd p2) w ->
  fst (wall_2d_find_intersection p1 p2 w) <> 0%nat.
Proof.
  intros p1 p2 w V PT D F. apply D. destruct (find_none p1 p2 w) as [[N _] _]. specialize (N F).
  assert (NT : forall a b, In (a, b) (edges (closed_up w)) -> ~ touches p1 p2 a b).
  { intros a b E. rewrite seg_edges in E. apply in_map_iff in E. destruct E as (i & Eq & I). apply in_seq in I.
    injection Eq as <- <-. assert (Sg : is_segment w i (seg_a w i) (seg_b w i)) by (apply is_segment_iff; repeat split; lia).
    destruct (Req_dec ((fst p2 - fst p1) * (snd (seg_b w i) - snd (seg_a w i))) ((snd p2 - snd p1) * (fst (seg_b w i) - fst (seg_a w i)))) as [P|P].
    - apply (PT i); auto.
    - intros (t & M). apply (N i _ _ t Sg P M). }
  destruct (Rtotal_order (snd p1) (snd p2)) as [L|[E|L]].
  - now apply no_touch_up.
  - apply no_touch_flat; auto. intros v I. now apply V.
  - symmetry. apply no_touch_up; auto.
    + intros v I. destruct (V v I). auto.
    + intros a b E T. apply (NT a b E). now apply touches_sym.
Qed.
