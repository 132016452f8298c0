(** Model of src/wall/wall_3d.c and src/octree.c: triangle collisions, the
    octree, its flattening to an integer array and the accelerated search.
    Arithmetic is exact; a division by zero (infinite or undefined u, v) fails
    the acceptance test as it does in IEEE arithmetic. *)
From Coq Require Import Reals List Arith ZArith Bool.
From Verif Require Import Vec.
Import ListNotations.
Local Open Scope R_scope.

(** wall_3d.h:11 *)
Definition EPS : R := / 10 ^ 9.

(** wall_3d.c:559-584 once the direction Q12 has been chosen *)
Definition mt (q1 Q t1 t2 t3 : vec) : R :=
  let e12 := vsub t2 t1 in let e13 := vsub t3 t1 in
  let q12 := unit Q in
  let h := cross q12 e13 in
  let det := dot h e12 in
  let tq := vsub q1 t1 in
  let n := cross tq e12 in
  if Req_EM_T det 0 then -1 else
  let u := dot h tq / det in
  let v := dot q12 n / det in
  if Rle_dec 0 u then if Rle_dec u 1 then if Rle_dec 0 v then if Rle_dec (u + v) 1 then
    let w := dot n e13 / det / norm Q in
    if Rlt_dec 1 w then -1 else w
  else -1 else -1 else -1 else -1.
(** wall_3d.c:527-588 *)
Definition tri_det (q1 q2 t1 t2 t3 : vec) : R :=
  dot (cross (unit (vsub q2 q1)) (vsub t3 t1)) (vsub t2 t1).
Definition tri_normal (t1 t2 t3 : vec) : vec := cross (vsub t2 t1) (vsub t3 t1).
Definition tri_dir (q1 q2 t1 t2 t3 : vec) : vec :=
  let N := tri_normal t1 t2 t3 in
  let area := norm N in
  if Rlt_dec (Rabs (tri_det q1 q2 t1 t2 t3)) EPS then
    V (vx q2 - vx q1 + 2 * EPS * vx N / area) (vy q2 - vy q1 + 2 * EPS * vy N / area)
      (vz q2 - vz q1 + 2 * EPS * vz N / area)
  else vsub q2 q1.
Definition tri_collision (q1 q2 t1 t2 t3 : vec) : R :=
  if Req_EM_T (norm (vsub q2 q1)) 0 then -1 else
  if Rlt_dec EPS (norm (tri_normal t1 t2 t3)) then mt q1 (tri_dir q1 q2 t1 t2 t3) t1 t2 t3
  else -1.

Definition ge0 (x : R) : bool := if Rle_dec 0 x then true else false.
(** wall_3d.c:602-609 *)
Definition quad_collision (q1 q2 t1 t2 t3 t4 : vec) : bool :=
  ge0 (tri_collision q1 q2 t1 t2 t3) || ge0 (tri_collision q1 q2 t1 t3 t4).

Definition leb (a b : R) : bool := if Rle_dec a b then true else false.
Definition ltb (a b : R) : bool := if Rlt_dec a b then true else false.
(** wall_3d.c:447-510 *)
Definition tri_in_cube (t1 t2 t3 b1 b2 : vec) : bool :=
  let c000 := V (vx b1) (vy b1) (vz b1) in
  let c100 := V (vx b2) (vy b1) (vz b1) in
  let c010 := V (vx b1) (vy b2) (vz b1) in
  let c110 := V (vx b2) (vy b2) (vz b1) in
  let c001 := V (vx b1) (vy b1) (vz b2) in
  let c101 := V (vx b2) (vy b1) (vz b2) in
  let c011 := V (vx b1) (vy b2) (vz b2) in
  let c111 := V (vx b2) (vy b2) (vz b2) in
  if leb (vx b1) (vx t1) && leb (vx t1) (vx b2) && leb (vy b1) (vy t1) && leb (vy t1) (vy b2)
     && leb (vz b1) (vz t1) && leb (vz t1) (vz b2) then true else
  if ltb (vx b1) (vx t2) && leb (vx t2) (vx b2) && leb (vy b1) (vy t2) && leb (vy t2) (vy b2)
     && leb (vz b1) (vz t2) && leb (vz t2) (vz b2) then true else
  if leb (vx b1) (vx t3) && leb (vx t3) (vx b2) && leb (vy b1) (vy t3) && leb (vy t3) (vy b2)
     && leb (vz b1) (vz t3) && leb (vz t3) (vz b2) then true else
  if existsb (fun e => ge0 (tri_collision (fst e) (snd e) t1 t2 t3))
     [(c000, c100); (c000, c010); (c110, c010); (c110, c100); (c000, c001); (c010, c011);
      (c100, c101); (c110, c111); (c001, c101); (c001, c011); (c111, c011); (c111, c101)] then true else
  let quads q1 q2 :=
       quad_collision q1 q2 c000 c100 c110 c010 || quad_collision q1 q2 c000 c010 c011 c001
    || quad_collision q1 q2 c000 c100 c101 c001 || quad_collision q1 q2 c010 c110 c111 c011
    || quad_collision q1 q2 c100 c101 c111 c110 || quad_collision q1 q2 c001 c101 c111 c011 in
  if quads t1 t2 then true else if quads t3 t2 then true else if quads t1 t3 then true else false.

(** ** octree.c *)
(** A node stores its enlarged bounding box; the eight children n000 ... n111
    are indexed by three booleans (x, y, z). *)
Inductive octree :=
| OLeaf (bb1 bb2 : vec) (ids : list nat)
| ONode (bb1 bb2 : vec) (child : bool -> bool -> bool -> octree).
Definition obb1 t := match t with OLeaf a _ _ => a | ONode a _ _ => a end.
Definition obb2 t := match t with OLeaf _ b _ => b | ONode _ b _ => b end.
(** octree.c:50 *)
Definition OEPS : R := / 10 ^ 6.
Definition grow1 (lo : vec) : vec := V (vx lo - OEPS) (vy lo - OEPS) (vz lo - OEPS).
Definition grow2 (hi : vec) : vec := V (vx hi + OEPS) (vy hi + OEPS) (vz hi + OEPS).
Definition midp (lo hi : vec) : vec := V ((vx hi + vx lo) / 2) ((vy hi + vy lo) / 2) ((vz hi + vz lo) / 2).
(** bounds handed to the child (octree.c:61-68) *)
Definition child_lo (lo hi : vec) (a b c : bool) : vec := let m := midp lo hi in
  V (if a then vx m else vx lo) (if b then vy m else vy lo) (if c then vz m else vz lo).
Definition child_hi (lo hi : vec) (a b c : bool) : vec := let m := midp lo hi in
  V (if a then vx hi else vx m) (if b then vy hi else vy m) (if c then vz hi else vz m).
(** octree.c:46-82 *)
Fixpoint octree_create (depth : nat) (lo hi : vec) : octree :=
  match depth with
  | 0%nat => OLeaf (grow1 lo) (grow2 hi) []
  | S d => match d with
           | 0%nat => OLeaf (grow1 lo) (grow2 hi) []
           | _ => ONode (grow1 lo) (grow2 hi)
                    (fun a b c => octree_create d (child_lo lo hi a b c) (child_hi lo hi a b c))
           end
  end.
(** octree.c:123-146; list_int_add appends (list.c:48-59) *)
Fixpoint octree_add (t : octree) (t1 t2 t3 : vec) (id : nat) : octree :=
  match t with
  | OLeaf b1 b2 l => OLeaf b1 b2 (l ++ [id])
  | ONode b1 b2 ch => ONode b1 b2 (fun a b c =>
      let n := ch a b c in
      if tri_in_cube t1 t2 t3 (obb1 n) (obb2 n) then octree_add n t1 t2 t3 id else n)
  end.
(** octree.c:164-194: at most one of the eight tests can hold and it fixes, in
    each direction, on which side of the middle the point lies *)
Definition which (p m : R) : option bool :=
  if Rlt_dec p m then Some false else if Rlt_dec m p then Some true else None.
Fixpoint octree_get (t : octree) (p : vec) : option (list nat) :=
  match t with
  | OLeaf _ _ l => Some l
  | ONode b1 b2 ch =>
      match which (vx p) ((vx b1 + vx b2) / 2), which (vy p) ((vy b1 + vy b2) / 2),
            which (vz p) ((vz b1 + vz b2) / 2) with
      | Some a, Some b, Some c => octree_get (ch a b c) p
      | _, _, _ => None
      end
  end.

(** ** wall_3d.c:45-110 and 229-304 *)
Record tri := T { ta : vec; tb : vec; tc : vec }.
Definition vertices (ts : list tri) : list vec := flat_map (fun t => [ta t; tb t; tc t]) ts.
Definition vmin (a b : vec) := V (Rmin (vx a) (vx b)) (Rmin (vy a) (vy b)) (Rmin (vz a) (vz b)).
Definition vmax (a b : vec) := V (Rmax (vx a) (vx b)) (Rmax (vy a) (vy b)) (Rmax (vz a) (vz b)).
Definition pad : vec := V (1 / 10) (1 / 10) (1 / 10).
Record wall3 := W3 { wlo : vec; whi : vec; wdepth : nat; wngrid : nat; wtris : list tri; wtree : nat -> nat }.
Definition bounds (ts : list tri) : vec * vec :=
  match vertices ts with
  | [] => (vzero, vzero)
  | v :: _ => (vsub (fold_left vmin (vertices ts) v) pad, vadd (fold_left vmax (vertices ts) v) pad)
  end.

(** octree with all triangles (wall_3d.c:238-256) *)
Definition tri0 := T vzero vzero vzero.
Definition add_all (tree : octree) (ts : list tri) : octree :=
  fold_left (fun t i => let x := nth i ts tri0 in octree_add t (ta x) (tb x) (tc x) i) (seq 0 (length ts)) tree.

Definition cell_index (n ix iy iz : nat) : nat := (ix * n * n + iy * n + iz)%nat.
Definition cells (n : nat) : list (nat * nat * nat) :=
  flat_map (fun ix => flat_map (fun iy => map (fun iz => (ix, iy, iz)) (seq 0 n)) (seq 0 n)) (seq 0 n).
(** wall_3d.c:267-269 *)
Definition centre (lo hi : vec) (n : nat) (c : nat * nat * nat) : vec :=
  let '(ix, iy, iz) := c in
  let gx := (vx hi - vx lo) / INR n in let gy := (vy hi - vy lo) / INR n in let gz := (vz hi - vz lo) / INR n in
  V (vx lo + INR ix * gx + 0.5 * gx) (vy lo + INR iy * gy + 0.5 * gy) (vz lo + INR iz * gz + 0.5 * gz).
Definition upd {A} (f : nat -> A) (i : nat) (v : A) : nat -> A := fun j => if Nat.eqb j i then v else f j.
(** wall_3d.c:263-274 *)
Definition tri_list (tree : octree) (lo hi : vec) (n : nat) (junk : nat -> option (list nat)) : nat -> option (list nat) :=
  fold_left (fun f c => let '(ix, iy, iz) := c in upd f (cell_index n ix iy iz) (octree_get tree (centre lo hi n c)))
    (cells n) junk.
(** wall_3d.c:285-301 *)
Fixpoint write_ids (a : nat -> nat) (pos : nat) (l : list nat) : nat -> nat :=
  match l with [] => a | x :: r => write_ids (upd a pos x) (S pos) r end.
Fixpoint write_lists (a : nat -> nat) (i next : nat) (ls : list (list nat)) : nat -> nat :=
  match ls with
  | [] => a
  | l :: r => let a1 := upd a i next in
              let a2 := upd a1 next (length l) in
              let a3 := write_ids a2 (S next) l in
              write_lists a3 (S i) (next + (length l + 1)) r
  end.
Definition tree_array (junk : nat -> nat) (ls : list (list nat)) : nat -> nat := write_lists junk 0 (length ls) ls.
(** a missing list (NULL) would be dereferenced by list_int_size *)
Fixpoint all_some {A} (l : list (option A)) : option (list A) :=
  match l with
  | [] => Some []
  | None :: _ => None
  | Some x :: r => match all_some r with Some s => Some (x :: s) | None => None end
  end.
Definition init_octree (lo hi : vec) (depth n : nat) (ts : list tri) (junk1 : nat -> option (list nat)) (junk2 : nat -> nat)
  : option (nat -> nat) :=
  let tree := add_all (octree_create depth lo hi) ts in
  let tl := tri_list tree lo hi n junk1 in
  match all_some (map tl (seq 0 (n * n * n))) with
  | Some ls => Some (tree_array junk2 ls)
  | None => None
  end.
(** wall_3d.c:45-103; the depth is a compile-time constant *)
Definition wall_3d_init (depth : nat) (ts : list tri) (junk1 : nat -> option (list nat)) (junk2 : nat -> nat) : option wall3 :=
  let (lo, hi) := bounds ts in
  let n := (2 ^ (depth - 1))%nat in
  match init_octree lo hi depth n ts junk1 junk2 with
  | Some a => Some (W3 lo hi depth n ts a)
  | None => None
  end.

(** ** wall_3d.c:322-384 *)
Definition cell_of (lo hi : R) (n : nat) (x : R) : Z := Int_part ((x - lo) / ((hi - lo) / INR n)).
(** the loop i = 0 .. |b-a| with index a + i*copysign(1, b-a) *)
Definition span (a b : Z) : list Z :=
  map (fun i => (a + Z.of_nat i * (if (b - a <? 0)%Z then -1 else 1))%Z) (seq 0 (S (Z.abs_nat (b - a)))).
Definition in_grid (n : nat) (i : Z) : bool := ((0 <=? i)%Z && (i <? Z.of_nat n)%Z).
Definition cell_ids (a : nat -> nat) (c : nat) : list nat :=
  let il := a c in map (fun l => a (il + l + 1)%nat) (seq 0 (a il)).
Definition visited (w : wall3) (q1 q2 : vec) : list nat :=
  let n := wngrid w in
  flat_map (fun ix => flat_map (fun iy => flat_map (fun iz =>
    if in_grid n ix && in_grid n iy && in_grid n iz
    then cell_ids (wtree w) (cell_index n (Z.to_nat ix) (Z.to_nat iy) (Z.to_nat iz)) else [])
    (span (cell_of (vz (wlo w)) (vz (whi w)) n (vz q1)) (cell_of (vz (wlo w)) (vz (whi w)) n (vz q2))))
    (span (cell_of (vy (wlo w)) (vy (whi w)) n (vy q1)) (cell_of (vy (wlo w)) (vy (whi w)) n (vy q2))))
    (span (cell_of (vx (wlo w)) (vx (whi w)) n (vx q1)) (cell_of (vx (wlo w)) (vx (whi w)) n (vx q2))).
Definition coll (ts : list tri) (q1 q2 : vec) (i : nat) : R :=
  let x := nth i ts tri0 in tri_collision q1 q2 (ta x) (tb x) (tc x).
Definition hit_step (ts : list tri) (q1 q2 : vec) (st : nat * R) (i : nat) : nat * R :=
  let w := coll ts q1 q2 i in
  if Rle_dec 0 w then if Rlt_dec w (snd st) then (S i, w) else st else st.
Definition xyz (r phi z : R) : vec := V (r * cos phi) (r * sin phi) z.
Definition wall_3d_hit_wall (r1 phi1 z1 r2 phi2 z2 : R) (w : wall3) : nat * R :=
  let q1 := xyz r1 phi1 z1 in let q2 := xyz r2 phi2 z2 in
  fold_left (hit_step (wtris w) q1 q2) (visited w q1 q2) (0%nat, 1.1).
(** wall_3d.c:402-434 *)
Definition full_step (ts : list tri) (q1 q2 : vec) (st : nat * R) (i : nat) : nat * R :=
  let w := coll ts q1 q2 i in
  if Rlt_dec 0 w then if Rlt_dec w (snd st) then (S i, w) else st else st.
Definition wall_3d_hit_wall_full (r1 phi1 z1 r2 phi2 z2 : R) (w : wall3) : nat * R :=
  let q1 := xyz r1 phi1 z1 in let q2 := xyz r2 phi2 z2 in
  fold_left (full_step (wtris w) q1 q2) (seq 0 (length (wtris w))) (0%nat, 1.1).
