(** Properties of the 2D wall. *)
From Coq Require Import Reals List Arith Lra Lia.
From Verif Require Import MathModel MathProofs Wall2Model Wall2Proofs.
Import ListNotations.
Local Open Scope R_scope.

(** C25.  A reported tile is a wall segment met by the step at the reported
    fraction; no other segment that is not parallel to the step is met earlier
    and ties go to the smallest tile *)
Theorem wall2d_hit_is_first : forall p1 p2 w i t, wall_2d_find_intersection p1 p2 w = (S i, t) ->
  exists a b, is_segment w i a b /\ ~ parallel p1 p2 a b /\ meets_at p1 p2 a b t /\
  forall j c d s, is_segment w j c d -> ~ parallel p1 p2 c d -> meets_at p1 p2 c d s ->
    t <= s /\ ((j < i)%nat -> t < s).
Proof. exact find_hit. Qed.
Print Assumptions wall2d_hit_is_first.
(** no tile is reported exactly when no such segment is met *)
Theorem wall2d_no_hit : forall p1 p2 w,
  (fst (wall_2d_find_intersection p1 p2 w) = 0%nat <->
   forall i a b t, is_segment w i a b -> ~ parallel p1 p2 a b -> ~ meets_at p1 p2 a b t) /\
  (fst (wall_2d_find_intersection p1 p2 w) = 0%nat -> snd (wall_2d_find_intersection p1 p2 w) = 2).
Proof. exact find_none. Qed.
Print Assumptions wall2d_no_hit.
Theorem wall2d_tile_range : forall r1 phi1 z1 r2 phi2 z2 w,
  (fst (wall_2d_hit_wall r1 phi1 z1 r2 phi2 z2 w) <= length w)%nat /\
  wall_2d_hit_wall r1 phi1 z1 r2 phi2 z2 w = wall_2d_find_intersection (r1, z1) (r2, z2) w.
Proof. intros. split; [apply find_range | reflexivity]. Qed.
Print Assumptions wall2d_tile_range.

(** the inside test is the parity of the wall segments met by a horizontal ray *)
Theorem wall2d_inside_parity : forall r z w, (forall v, In v w -> snd v <> z) ->
  (wall_2d_inside r z w = 1%nat <->
   exists n, counts (fun e => meets_ray r z (fst e) (snd e)) (edges (closed_up w)) n /\ Nat.Odd n).
Proof.
  intros r z w H. rewrite inside_pip. apply pip_iff. intros a I. apply H. now apply closed_in.
Qed.
Print Assumptions wall2d_inside_parity.

(** a step between a point inside and a point outside the wall is always
    reported as a hit, unless it runs along a wall segment it touches *)
Theorem wall2d_no_tunnelling : forall p1 p2 w,
  (forall v, In v w -> snd v <> snd p1 /\ snd v <> snd p2) ->
  (forall i a b, is_segment w i a b -> parallel p1 p2 a b -> ~ touches p1 p2 a b) ->
  wall_2d_inside (fst p1) (snd p1) w <> wall_2d_inside (fst p2) (snd p2) w ->
  fst (wall_2d_find_intersection p1 p2 w) <> 0%nat.
Proof. exact no_tunnel. Qed.
Print Assumptions wall2d_no_tunnelling.

Definition square4 : list (R * R) := [(0, 0); (4, 0); (4, 4); (0, 4)].
Lemma run4 : forall p1 p2 a b c d, acc2d p1 p2 (0, 0) (4, 0) = a -> acc2d p1 p2 (4, 0) (4, 4) = b ->
  acc2d p1 p2 (4, 4) (0, 4) = c -> acc2d p1 p2 (0, 4) (0, 0) = d ->
  wall_2d_find_intersection p1 p2 square4 =
  let upd st r i := match r with Some t => if Rlt_dec t (snd st) then (i, t) else st | None => st end in
  upd (upd (upd (upd (0%nat, 2) a 1%nat) b 2%nat) c 3%nat) d 4%nat.
Proof.
  intros p1 p2 a b c d <- <- <- <-. unfold wall_2d_find_intersection. cbn [length square4 seq fold_left].
  rewrite !step2d_acc. reflexivity.
Qed.
Ltac none2 := match goal with |- ?x = None => let E := fresh in destruct x eqn:E; auto; exfalso;
  apply acc2d_spec in E; destruct E as [? [? (? & ? & E)]]; unfold parallel, along in *; cbn in *; injection E; intros; try lra; nra end.
Ltac some2 u0 := apply acc2d_spec; split; [unfold parallel; cbn; lra | split; [lra | exists u0; split; [lra | unfold along; cbn; f_equal; lra]]].
Example wall2d_hit_example : wall_2d_find_intersection (2, 2) (6, 3) square4 = (2%nat, 1 / 2).
Proof.
  rewrite (run4 _ _ None (Some (1 / 2)) None None); [cbn; destruct (Rlt_dec _ _); [auto|lra] | none2 | some2 (5 / 8) | none2 | none2].
Qed.
Example wall2d_miss_example : wall_2d_find_intersection (1, 2) (3, 3) square4 = (0%nat, 2).
Proof. rewrite (run4 _ _ None None None None); [reflexivity | none2 ..]. Qed.
(** a corner belongs to two tiles; the first one is reported *)
Example wall2d_corner_example : wall_2d_find_intersection (3, 3) (5, 5) square4 = (2%nat, 1 / 2).
Proof.
  rewrite (run4 _ _ None (Some (1 / 2)) (Some (1 / 2)) None); [| none2 | some2 1 | some2 0 | none2].
  cbn. destruct (Rlt_dec (1 / 2) 2); [|lra]. cbn. destruct (Rlt_dec _ _); [lra|auto].
Qed.
Example wall2d_inside_example : wall_2d_inside 2 1 square4 = 1%nat /\ wall_2d_inside 5 1 square4 = 0%nat.
Proof.
  cbv [wall_2d_inside square4 length seq fold_left seg_a seg_b Nat.eqb Nat.sub nth snd fst].
  split; repeat (match goal with |- context [Rlt_dec ?a ?b] => destruct (Rlt_dec a b); try (exfalso; lra) end); reflexivity.
Qed.
(** a step along a wall segment and a step of zero length on the wall are
    missed *)
Example wall2d_parallel_refuted :
  wall_2d_find_intersection (1, 0) (2, 0) square4 = (0%nat, 2) /\
  meets_at (1, 0) (2, 0) (0, 0) (4, 0) 0 /\
  wall_2d_find_intersection (0, 1) (0, 1) square4 = (0%nat, 2) /\
  meets_at (0, 1) (0, 1) (0, 4) (0, 0) 0.
Proof.
  split; [rewrite (run4 _ _ None None None None); [reflexivity | none2 ..]|]. split.
  { split; [lra|]. exists (1 / 4). split; [lra|]. unfold along. cbn. f_equal; lra. }
  split; [rewrite (run4 _ _ None None None None); [reflexivity | none2 ..]|].
  split; [lra|]. exists (3 / 4). split; [lra|]. unfold along. cbn. f_equal; lra.
Qed.
