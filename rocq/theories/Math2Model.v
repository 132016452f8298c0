(** Model of the remaining helpers of src/math.c: adaptive Simpson rule, matrix
    product, linspace, integer power, unique counts, plane test, barycentric
    coordinates and Cartesian/cylindrical positions. *)
From Coq Require Import Reals ZArith List Bool.
From Verif Require Import Vec.
Import ListNotations.
Local Open Scope R_scope.

(** math.c:449-464; also returns the points at which f is evaluated.  [bottom]
    counts down to zero. *)
Fixpoint simpson_helper (f : R -> R) (a b eps S fa fb fc : R) (bottom : nat) : R * list R :=
  let c := (a + b) / 2 in
  let h := b - a in
  let d := (a + c) / 2 in
  let e := (c + b) / 2 in
  let fd := f d in
  let fe := f e in
  let Sleft := (h / 12) * (fa + 4 * fd + fc) in
  let Sright := (h / 12) * (fc + 4 * fe + fb) in
  let S2 := Sleft + Sright in
  match bottom with
  | O => (S2 + (S2 - S) / 15, [d; e])
  | S bot =>
      if Rle_dec (Rabs (S2 - S)) (eps * Rabs S) then (S2 + (S2 - S) / 15, [d; e])
      else
        let '(l, tl) := simpson_helper f a c eps Sleft fa fc fd bot in
        let '(r, tr) := simpson_helper f c b eps Sright fc fb fe bot in
        (l + r, d :: e :: tl ++ tr)
  end.

(** math.c:232-238, math.h:19 *)
Definition max_depth : nat := 20.
Definition simpson (f : R -> R) (a b eps : R) : R * list R :=
  let c := (a + b) / 2 in
  let h := b - a in
  let fa := f a in
  let fb := f b in
  let fc := f c in
  let S := (h / 6) * (fa + 4 * fc + fb) in
  let '(v, t) := simpson_helper f a b eps S fa fb fc max_depth in
  (v, a :: b :: c :: t).

(** sum over k < n, accumulated from 0 upwards *)
Fixpoint sumn (n : nat) (g : nat -> R) : R :=
  match n with O => 0 | S m => sumn m g + g m end.

Definition upd {A} (a : nat -> A) (i : nat) (v : A) : nat -> A := fun j => if Nat.eqb j i then v else a j.

(** math.c:159-170 *)
Fixpoint mat_row (A B : nat -> R) (d1 d2 d3 i n : nat) (C : nat -> R) : nat -> R :=
  match n with
  | O => C
  | S j => upd (mat_row A B d1 d2 d3 i j C) (i * d3 + j)
               (sumn d2 (fun k => A (k * d1 + i)%nat * B (j * d2 + k)%nat))
  end.
Fixpoint mat_rows (A B : nat -> R) (d1 d2 d3 n : nat) (C : nat -> R) : nat -> R :=
  match n with
  | O => C
  | S i => mat_row A B d1 d2 d3 i d3 (mat_rows A B d1 d2 d3 i C)
  end.
Definition matmul (A B : nat -> R) (d1 d2 d3 : nat) (C : nat -> R) : nat -> R := mat_rows A B d1 d2 d3 d1 C.

(** math.c:205-211; machine overflow is not modelled *)
Fixpoint ipow (a : Z) (p : nat) : Z := match p with O => 1%Z | S q => (ipow a q * a)%Z end.

(** math.c:251-261 *)
Fixpoint lin_fill (a d : R) (n : nat) (vec : nat -> R) : nat -> R :=
  match n with O => vec | S i => upd (lin_fill a d i vec) i (a + INR i * d) end.
Definition linspace (vec : nat -> R) (a b : R) (n : nat) : nat -> R :=
  if Nat.eqb n 1 then upd vec 0 b
  else lin_fill a ((b - a) / (INR n - 1)) n vec.

(** math.c:276-301 *)
Definition uc_clear (n : nat) (a : nat -> Z) : nat -> Z := fun i => if Nat.ltb i n then 0%Z else a i.
(** the inner loop over j < n_unique *)
Fixpoint uc_scan (test : Z) (unique count : nat -> Z) (m : nat) : bool * (nat -> Z) :=
  match m with
  | O => (true, count)
  | S j => let '(isu, cnt) := uc_scan test unique count j in
           if Z.eqb test (unique j) then (false, upd cnt j (cnt j + 1)%Z) else (isu, cnt)
  end.
Definition uc_step (test : Z) (st : (nat -> Z) * (nat -> Z) * nat) : (nat -> Z) * (nat -> Z) * nat :=
  let '(unique, count, nu) := st in
  let '(isu, cnt) := uc_scan test unique count nu in
  if isu then (upd unique nu test, upd cnt nu 1%Z, S nu) else (unique, cnt, nu).
Definition uniquecount (inp : list Z) (unique count : nat -> Z) : (nat -> Z) * (nat -> Z) :=
  let n := length inp in
  let '(u, c, _) := fold_left (fun st x => uc_step x st) inp (uc_clear n unique, uc_clear n count, 0%nat) in
  (u, c).

(** math.c:324-344 *)
Definition neqb0 (x : R) : bool := if Req_EM_T x 0 then false else true.
Definition point_on_plane (q t1 t2 t3 : vec) : Z :=
  let val := 0%Z in
  if neqb0 (det3 (vx q - vx t1) (vy q - vy t1) (vz q - vz t1)
                 (vx t2 - vx t1) (vy t2 - vy t1) (vz t2 - vz t1)
                 (vx t3 - vx t1) (vy t3 - vy t1) (vz t3 - vz t1)) then val
  else if neqb0 (det3 (vx q - vx t1) (vy q - vy t1) (vz q - vz t1)
                      (vx q - vx t2) (vy q - vy t2) (vz q - vz t2)
                      (vx q - vx t3) (vy q - vy t3) (vz q - vz t3)) then val
  else val.

(** math.c:360-367 *)
Definition barycentric (AP AB AC n : vec) : R * R :=
  let n0 := unit n in
  let area := triple AB AC n0 in
  (triple AP AC n0 / area, triple AB AP n0 / area).

(** math.h:78-79 and 82-83 *)
Definition xyz2rpz (p : vec) : vec := V (sqrt (vx p * vx p + vy p * vy p)) (atan2 (vy p) (vx p)) (vz p).
Definition rpz2xyz (p : vec) : vec := V (vx p * cos (vy p)) (vx p * sin (vy p)) (vz p).
