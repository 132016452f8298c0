(** Grid axes and array accesses shared by src/linint/ and src/spline/.
    Exact arithmetic; the conversion to int is not limited to 32 bits. *)
From Coq Require Import Reals List ZArith Bool.
Import ListNotations.
Local Open Scope R_scope.

(** interp.h:36-39 *)
Definition NATURALBC : Z := 0.
Definition PERIODICBC : Z := 1.

(** C conversion real -> int (towards zero) and C fmod *)
Definition trunc (x : R) : Z := if Rle_dec 0 x then Int_part x else (- Int_part (- x))%Z.
Definition cfmod (x y : R) : R := x - IZR (trunc (x / y)) * y.

(** one coordinate direction of the interp/linint structs *)
Record axis := Axis { an : Z; abc : Z; amin : R; amax : R; agrid : R }.
(** linint1D.c:25, interp1Dcomp.c:74 and so on *)
Definition grid_step (n bc : Z) (mn mx : R) : R :=
  (mx - mn) / IZR (n - 1 * (if (bc =? NATURALBC)%Z then 1 else 0)).
Definition mk_axis (n bc : Z) (mn mx : R) : axis := Axis n bc mn mx (grid_step n bc mn mx).

(** folding of a periodic coordinate (linint1D.c:50-53, interp1Dcomp.c:126-129) *)
Definition wrap (a : axis) (x : R) : R :=
  if (abc a =? PERIODICBC)%Z then
    let y := cfmod (x - amin a) (amax a - amin a) + amin a in
    y + (if Rlt_dec y (amin a) then 1 else 0) * (amax a - amin a)
  else x.
(** cell index; the spline routines step back at the upper end *)
Definition index_lin (a : axis) (x : R) : Z := trunc ((x - amin a) / agrid a).
Definition index_spl (a : axis) (x : R) : Z :=
  trunc ((x - amin a) / agrid a - 1 * (if Req_EM_T x (amax a) then 1 else 0)).
Definition frac (a : axis) (x : R) (i : Z) : R := (x - (amin a + IZR i * agrid a)) / agrid a.
(** index jump to the next node, with the given stride *)
Definition jump (a : axis) (i stride : Z) : Z :=
  if ((abc a =? PERIODICBC)%Z && (i =? an a - 1)%Z)%bool then (- (an a - 1) * stride)%Z else stride.
Definition outside (a : axis) (x : R) (i : Z) : bool :=
  if ((abc a =? PERIODICBC)%Z && (i =? an a - 1)%Z)%bool then false
  else ((abc a =? NATURALBC)%Z &&
        negb (if Rle_dec (amin a) x then if Rle_dec x (amax a) then true else false else false))%bool.

(** an array access outside the allocation is a separate outcome *)
Record arr := Arr { asize : Z; aget : Z -> R }.
Inductive res (A : Type) := Err | Oob | Val (a : A).
Arguments Err {A}. Arguments Oob {A}. Arguments Val {A} a.
Definition inb (a : arr) (i : Z) : bool := ((0 <=? i)%Z && (i <? asize a)%Z)%bool.
Definition reading {A} (a : arr) (idx : list Z) (v : A) : res A := if forallb (inb a) idx then Val v else Oob.
