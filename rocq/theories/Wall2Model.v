(** Model of src/wall/wall_2d.c: the axisymmetric wall.  The wall is the list
    of its (r,z) vertices; arithmetic is exact. *)
From Coq Require Import Reals List.
From Verif Require Import MathModel.
Import ListNotations.
Local Open Scope R_scope.

(** the end points selected in wall_2d.c:91-102 and 155-166: the last vertex is
    joined to the first *)
Definition seg_a (w : list (R * R)) (i : nat) : R * R := nth i w (0, 0).
Definition seg_b (w : list (R * R)) (i : nat) : R * R :=
  if Nat.eqb i (length w - 1) then nth 0 w (0, 0) else nth (S i) w (0, 0).

(** wall_2d.c:87-111 *)
Definition wall_2d_inside (r z : R) (w : list (R * R)) : nat :=
  Nat.modulo (fold_left (fun hits i =>
     let wz1 := snd (seg_a w i) - z in let wz2 := snd (seg_b w i) - z in
     let wr1 := fst (seg_a w i) - r in let wr2 := fst (seg_b w i) - r in
     if Rlt_dec (wz1 * wz2) 0 then
       (let ri := wr1 + (wz1 * (wr2 - wr1)) / (wz1 - wz2) in
        if Rlt_dec 0 ri then S hits else hits)
     else hits) (seq 0 (length w)) 0%nat) 2.

(** wall_2d.c:168-174.  A zero divisor makes t and u infinite or undefined and
    all the comparisons that involve them cannot hold together, so nothing is
    stored. *)
Definition step2d (p1 p2 : R * R) (w : list (R * R)) (st : nat * R) (i : nat) : nat * R :=
  let (r1, z1) := p1 in let (r2, z2) := p2 in
  let (r3, z3) := seg_a w i in let (r4, z4) := seg_b w i in
  let div := (r1 - r2) * (z3 - z4) - (z1 - z2) * (r3 - r4) in
  let t := ((r1 - r3) * (z3 - z4) - (z1 - z3) * (r3 - r4)) / div in
  let u := ((r1 - r3) * (z1 - z2) - (z1 - z3) * (r1 - r2)) / div in
  if Req_EM_T div 0 then st else
  if Rle_dec 0 t then if Rle_dec t 1 then if Rle_dec 0 u then if Rle_dec u 1 then
  if Rlt_dec t (snd st) then (S i, t) else st
  else st else st else st else st.
(** wall_2d.c:149-179; result (tile, w_coll) *)
Definition wall_2d_find_intersection (p1 p2 : R * R) (w : list (R * R)) : nat * R :=
  fold_left (step2d p1 p2 w) (seq 0 (length w)) (0%nat, 2).
(** wall_2d.c:129-132; the toroidal angles are not used *)
Definition wall_2d_hit_wall (r1 phi1 z1 r2 phi2 z2 : R) (w : list (R * R)) : nat * R :=
  wall_2d_find_intersection (r1, z1) (r2, z2) w.
