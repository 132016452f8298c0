(** Model of src/math.c and src/math.h: coordinate and Jacobian transforms,
    fmod, sorted search and point in polygon.  Arrays are functions of the
    index; real arithmetic is exact. *)
From Coq Require Import Reals ZArith List Bool.
Import ListNotations.
Local Open Scope R_scope.

(** math.c:22-24; floor x is the integer part *)
Definition floorR (x : R) : R := IZR (Int_part x).
Definition fmod (x y : R) : R := x - y * floorR (x / y).

(** math.h:87-97 *)
Definition vec_rpz2xyz (v : R * R * R) (phi : R) : R * R * R :=
  let '(a, b, c) := v in (a * cos phi - b * sin phi, a * sin phi + b * cos phi, c).
Definition vec_xyz2rpz (v : R * R * R) (phi : R) : R * R * R :=
  let '(a, b, c) := v in (a * cos phi + b * sin phi, - a * sin phi + b * cos phi, c).
(** math.h:82-83 *)
Definition pos_rpz2xyz (v : R * R * R) : R * R * R :=
  let '(r, p, z) := v in (r * cos p, r * sin p, z).

(** math.c:44-83.  Layout [B, d1 B, d2 B, d3 B] for the three components. *)
Definition jac_rpz2xyz (rpz : nat -> R) (r phi : R) : nat -> R :=
  let c := cos phi in
  let s := sin phi in
  let t0 := rpz 1%nat * c - rpz 5%nat * s in
  let t1 := rpz 2%nat * c - rpz 6%nat * s in
  let t2 := rpz 3%nat * c - rpz 7%nat * s in
  let u0 := rpz 1%nat * s + rpz 5%nat * c in
  let u1 := rpz 2%nat * s + rpz 6%nat * c in
  let u2 := rpz 3%nat * s + rpz 7%nat * c in
  fun k => match k with
  | 0%nat => rpz 0%nat * c - rpz 4%nat * s
  | 4%nat => rpz 0%nat * s + rpz 4%nat * c
  | 8%nat => rpz 8%nat
  | 1%nat => t0 * c - t1 * s / r + (rpz 0%nat * s + rpz 4%nat * c) * s / r
  | 2%nat => t0 * s + t1 * c / r - (rpz 0%nat * s + rpz 4%nat * c) * c / r
  | 3%nat => t2
  | 5%nat => u0 * c - u1 * s / r + (rpz 0%nat * c - rpz 4%nat * s) * s / r
  | 6%nat => u0 * s + u1 * c / r - (rpz 0%nat * c - rpz 4%nat * s) * c / r
  | 7%nat => u2
  | 9%nat => rpz 9%nat * c - rpz 10%nat * s / r
  | 10%nat => rpz 9%nat * s + rpz 10%nat * c / r
  | 11%nat => rpz 11%nat
  | _ => 0
  end.

(** math.c:104-144 *)
Definition jac_xyz2rpz (xyz : nat -> R) (r phi : R) : nat -> R :=
  let c := cos phi in
  let s := sin phi in
  let t0 := xyz 1%nat * c + xyz 5%nat * s in
  let t1 := xyz 2%nat * c + xyz 6%nat * s in
  let t2 := xyz 3%nat * c + xyz 7%nat * s in
  let u0 := - xyz 1%nat * s + xyz 5%nat * c in
  let u1 := - xyz 2%nat * s + xyz 6%nat * c in
  let u2 := - xyz 3%nat * s + xyz 7%nat * c in
  fun k => match k with
  | 0%nat => xyz 0%nat * c + xyz 4%nat * s
  | 4%nat => - xyz 0%nat * s + xyz 4%nat * c
  | 8%nat => xyz 8%nat
  | 1%nat => t0 * c + t1 * s
  | 2%nat => - t0 * s * r + t1 * c * r - xyz 0%nat * s + xyz 4%nat * c
  | 3%nat => t2
  | 5%nat => u0 * c + u1 * s
  | 6%nat => - u0 * s * r + u1 * c * r - xyz 0%nat * c - xyz 4%nat * s
  | 7%nat => u2
  | 9%nat => xyz 9%nat * c + xyz 10%nat * s
  | 10%nat => - xyz 9%nat * s * r + xyz 10%nat * c * r
  | 11%nat => xyz 11%nat
  | _ => 0
  end.

(** math.c:381-390: comparison of a key with array cell [i] *)
Definition rcomp (key : R) (base : nat -> R) (i : nat) : comparison :=
  if Rle_dec (base i) key then
    (if Rlt_dec key (base (S i)) then Eq else if Rlt_dec (base i) key then Gt else Lt)
  else Lt.

(** C library bsearch (binary search over [l,u)), with the list of indices
    whose cells are compared. *)
Fixpoint bsearch (fuel : nat) (cmp : nat -> comparison) (l u : nat) : option nat * list nat :=
  match fuel with
  | O => (None, [])
  | S fuel =>
      if Nat.ltb l u then
        let m := ((l + u) / 2)%nat in
        match cmp m with
        | Eq => (Some m, [m])
        | Lt => let '(x, tr) := bsearch fuel cmp l m in (x, m :: tr)
        | Gt => let '(x, tr) := bsearch fuel cmp (S m) u in (x, m :: tr)
        end
      else (None, [])
  end.

(** math.c:405-407 *)
Definition rsearch (key : R) (base : nat -> R) (num : nat) : option nat * list nat :=
  bsearch num (rcomp key base) 0 (num - 1).

(** math.c:427-444; the polygon is the list of (r,z) points *)
Definition crosses (r z : R) (a b : R * R) : bool :=
  let z1 := snd a - z in let z2 := snd b - z in
  let r1 := fst a - r in let r2 := fst b - r in
  if Rlt_dec (z1 * z2) 0 then
    (if Rlt_dec 0 (r1 + (z1 * (r2 - r1)) / (z1 - z2)) then true else false)
  else false.
Fixpoint hits (r z : R) (l : list (R * R)) : nat :=
  match l with
  | a :: ((b :: _) as t) => ((if crosses r z a b then 1 else 0) + hits r z t)%nat
  | _ => 0%nat
  end.
Definition point_in_polygon (r z : R) (l : list (R * R)) : nat := (hits r z l mod 2)%nat.
