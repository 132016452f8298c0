(** Model of the coil field: src/biosaw.c.

    Exact arithmetic; CONST_PI is taken to be pi.  A division by zero makes the C result
    infinite or not a number; here the result is [None] from then on, because the component is
    accumulated.  The loop over query points and the OpenMP pragma are left out; the points do
    not influence each other. *)
From Coq Require Import Reals List.
From Verif Require Import Vec.
Import ListNotations.
Local Open Scope R_scope.

(** consts.h *)
Definition CONST_MU0 : R := 1.25663706212e-6.
Definition nonzero (x : R) : bool := if Req_EM_T x 0 then false else true.
(** biosaw.c:45-83, the contribution of the segment from [p1] to [p2] *)
Definition segment (p1 p2 x : vec) : option vec :=
  let p1p2 := V (vx p2 - vx p1) (vy p2 - vy p1) (vz p2 - vz p1) in
  let p1x := V (vx x - vx p1) (vy x - vy p1) (vz x - vz p1) in
  let p2x := V (vx x - vx p2) (vy x - vy p2) (vz x - vz p2) in
  let d1 := norm p1x in
  let d2 := norm p2x in
  let l := norm p1p2 in
  let s := dot p1p2 p1x / dot p1p2 p1p2 in
  let h := s * l in
  let xs := V (vx p1 + s * vx p1p2 - vx x) (vy p1 + s * vy p1p2 - vy x) (vz p1 + s * vz p1p2 - vz x) in
  let d := norm xs in
  let abs_B := CONST_MU0 / (4 * PI) * ((l - h) / d2 + h / d1) / d in
  let dir_B := cross p1x p2x in
  if (nonzero (dot p1p2 p1p2) && nonzero d1 && nonzero d2 && nonzero d && nonzero (norm dir_B))%bool then
    Some (V (abs_B * vx dir_B / norm dir_B) (abs_B * vy dir_B / norm dir_B) (abs_B * vz dir_B / norm dir_B))
  else None.
(** biosaw.c:33-85 for one query point: [p2] is the last coil point read, [acc] the sum so far *)
Fixpoint coil_loop (x p2 : vec) (acc : option vec) (coil : list vec) : option vec :=
  match coil with
  | [] => acc
  | q :: coil =>
      coil_loop x q (match acc, segment p2 q x with Some a, Some b => Some (V (vx a + vx b) (vy a + vy b) (vz a + vz b)) | _, _ => None end) coil
  end.
(** the first coil point is read before the loop, so there has to be one *)
Definition biosaw_calc_B (x p0 : vec) (coil : list vec) : option vec := coil_loop x p0 (Some vzero) coil.
