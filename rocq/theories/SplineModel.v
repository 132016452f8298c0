(** Model of src/spline/splinecomp.c, splineexpl.c, interp1Dcomp.c and
    interp1Dexpl.c.  The arrays of the elimination are written once, in
    increasing order, and read only at earlier positions; they become recursive
    functions of the position.  Allocation is assumed to succeed. *)
From Coq Require Import Reals List Arith ZArith Bool.
From Verif Require Import AxisModel.
Import ListNotations.
Local Open Scope R_scope.

Section solve.
(** right-hand side of the linear system *)
Variable rhs : nat -> R.
Variable n : nat.

(** Thomas algorithm, forward sweep (splinecomp.c:46-52, splineexpl.c:46-52) *)
Variables p0 y0 : R.
Fixpoint tp (i : nat) : R := match i with 0%nat => p0 | S j => 1 / (4 - tp j) end.
Fixpoint ty (i : nat) : R := match i with 0%nat => y0 | S j => (rhs (S j) - ty j) / (4 - tp j) end.
(** back substitution (splinecomp.c:55-59); [tback last k] is D[n-1-k] *)
Fixpoint tback (last : R) (k : nat) : R :=
  match k with 0%nat => last | S j => let i := (n - 1 - S j)%nat in ty i - tp i * tback last j end.

(** Elimination for the cyclic system (splinecomp.c:85-113, splineexpl.c:80-108):
    state after the iteration i of the loop; pyl is Y[n-1] *)
Record pst := P { pp : R; pr : R; py : R; pl : R; pd : R; pyl : R }.
Fixpoint psweep (i : nat) : pst :=
  match i with
  | 0%nat => P (1 / 4) (1 / 4) (rhs 0 / 4) 1 4 (rhs (n - 1))
  | S j => let s := psweep j in
           P (1 / (4 - pp s)) (- pr s / (4 - pp s)) ((rhs (S j) - py s) / (4 - pp s))
             (- pl s * pp s) (pd s - pl s * pr s) (pyl s - pl s * py s)
  end.
Definition pfin := psweep (n - 3).
Definition pblast := 1 - pl pfin * pp pfin.
Definition pdlast := pd pfin - pl pfin * pr pfin.
Definition pylast := pyl pfin - pl pfin * py pfin.
Definition pp2 := (1 - pr pfin) / (4 - pp pfin).
Definition py2 := (rhs (n - 2) - py pfin) / (4 - pp pfin).
Definition dlast := (pylast - pblast * py2) / (pdlast - pblast * pp2).
Definition dlast2 := py2 - pp2 * dlast.
(** [pback k] is D[n-2-k] *)
Fixpoint pback (k : nat) : R :=
  match k with
  | 0%nat => dlast2
  | S j => let s := psweep (n - 2 - S j) in py s - pp s * pback j - pr s * dlast
  end.
Definition periodic_solution (i : nat) : R := if (i =? n - 1)%nat then dlast else pback (n - 2 - i).
End solve.

(** splinecomp.c:35-43 and 77-82 *)
Definition comp_rhs (f : nat -> R) (i : nat) : R := 6 * (f (i + 1)%nat - 2 * f i + f (i - 1)%nat).
Definition comp_rhs_per (f : nat -> R) (n i : nat) : R :=
  if (i =? 0)%nat then 6 * (f 1%nat - 2 * f 0%nat + f (n - 1)%nat)
  else if (i =? n - 1)%nat then 6 * (f 0%nat - 2 * f (n - 1)%nat + f (n - 2)%nat)
  else comp_rhs f i.
(** splinecomp.c:22-130: the second derivatives in units of the grid step.
    Fewer than two (natural) or three (periodic) values make the routine write
    outside its work arrays; with another boundary condition D is not written *)
Definition splinecomp (junk : nat -> R) (f : nat -> R) (n : nat) (bc : Z) : res (nat -> R) :=
  if (bc =? NATURALBC)%Z then
    if (n <? 2)%nat then Oob else
    Val (fun i => tback (comp_rhs f) n 0 (0 / 2) 0 (n - 1 - i))
  else if (bc =? PERIODICBC)%Z then
    if (n <? 3)%nat then Oob else Val (periodic_solution (comp_rhs_per f n) n)
  else Val junk.

(** splineexpl.c:36-43 and 77-82 *)
Definition expl_rhs (f : nat -> R) (i : nat) : R := 3 * (f (i + 1)%nat - f (i - 1)%nat).
Definition expl_rhs_per (f : nat -> R) (n i : nat) : R :=
  if (i =? 0)%nat then 3 * (f 1%nat - f (n - 1)%nat)
  else if (i =? n - 1)%nat then 3 * (f 0%nat - f (n - 2)%nat)
  else expl_rhs f i.
(** the first derivatives of splineexpl.c:22-113 *)
Definition splineexpl_d (junk : nat -> R) (f : nat -> R) (n : nat) (bc : Z) : res (nat -> R) :=
  if (bc =? NATURALBC)%Z then
    if (n <? 2)%nat then Oob else
    let y0 := 3 * (f 1%nat - f 0%nat) / 2 in
    let last := (3 * (f (n - 1)%nat - f (n - 2)%nat) - ty (expl_rhs f) (1 / 2) y0 (n - 2)) / (2 - tp (1 / 2) (n - 2)) in
    Val (fun i => tback (expl_rhs f) n (1 / 2) y0 last (n - 1 - i))
  else if (bc =? PERIODICBC)%Z then
    if (n <? 3)%nat then Oob else Val (periodic_solution (expl_rhs_per f n) n)
  else Val junk.
(** the coefficients of a cell (splineexpl.c:118-131); the closing cell of the
    periodic case is stored separately *)
Definition expl_coeff (f d : nat -> R) (n i : nat) (k : Z) : R :=
  let i' := if (i =? n - 1)%nat then 0%nat else (i + 1)%nat in
  if (k =? 0)%Z then f i else if (k =? 1)%Z then d i
  else if (k =? 2)%Z then 3 * (f i' - f i) - 2 * d i - d i'
  else 2 * (f i - f i') + d i + d i'.
(** number of cells *)
Definition ncell (n bc : Z) : Z := (n - 1 * (if (bc =? NATURALBC)%Z then 1 else 0))%Z.
(** the array c as left by splineexpl; the last node of a natural spline is not
    written *)
Definition splineexpl (junkd : nat -> R) (junk : Z -> R) (f : nat -> R) (n : nat) (bc : Z) : res (Z -> R) :=
  match splineexpl_d junkd f n bc with
  | Val d => Val (fun m => let i := (m / 4)%Z in
               if ((0 <=? i)%Z && (i <? Z.of_nat n - (if (bc =? PERIODICBC)%Z then 0 else 1))%Z)%bool
               then expl_coeff f d n (Z.to_nat i) (m mod 4) else junk m)
  | Oob => Oob
  | Err => Err
  end.

(** ** interp1Dcomp.c *)
Record interp1D := I1 { i1x : axis; i1c : arr }.
(** interp1Dcomp.c:25-56 and 97-109 *)
Definition valid_bc (bc : Z) : bool := ((bc =? PERIODICBC)%Z || (bc =? NATURALBC)%Z)%bool.
Definition interp1Dcomp_setup (junk : nat -> R) (f : nat -> R) (n : nat) (bc : Z) (mn mx : R) : res interp1D :=
  if valid_bc bc then
    let h := grid_step (Z.of_nat n) bc mn mx in
    match splinecomp junk f n bc with
    | Val d => Val (I1 (mk_axis (Z.of_nat n) bc mn mx)
        (Arr (2 * Z.of_nat n) (fun m => let i := Z.to_nat (m / 2) in
           if (m mod 2 =? 0)%Z then f i else d i / (h * h))))
    | Oob => Oob
    | Err => Err
    end
  else Err.
(** interp1Dcomp.c:123-161 *)
Definition interp1Dcomp_eval_f (s : interp1D) (x0 : R) : res R :=
  let c := aget (i1c s) in
  let x := wrap (i1x s) x0 in
  let ix := index_spl (i1x s) x in
  let dx := frac (i1x s) x ix in
  let dx3 := dx * (dx * dx - 1) in
  let dxi := 1 - dx in
  let dxi3 := dxi * (dxi * dxi - 1) in
  let xg2 := agrid (i1x s) * agrid (i1x s) in
  let n := (ix * 2)%Z in
  let x1 := jump (i1x s) ix 2 in
  if outside (i1x s) x ix then Err else
  reading (i1c s) [n + 0; n + x1 + 0; n + 1; n + x1 + 1]%Z
    (dxi * c (n + 0)%Z + dx * c (n + x1 + 0)%Z + (xg2 / 6) * (dxi3 * c (n + 1)%Z + dx3 * c (n + x1 + 1)%Z)).
(** interp1Dcomp.c:181-232 *)
Definition interp1Dcomp_eval_df (s : interp1D) (x0 : R) : res (R * R * R) :=
  let c := aget (i1c s) in
  let x := wrap (i1x s) x0 in
  let ix := index_spl (i1x s) x in
  let dx := frac (i1x s) x ix in
  let dx3 := dx * (dx * dx - 1) in
  let dx3dx := 3 * dx * dx - 1 in
  let dxi := 1 - dx in
  let dxi3 := dxi * (dxi * dxi - 1) in
  let dxi3dx := -3 * dxi * dxi + 1 in
  let xg := agrid (i1x s) in
  let xg2 := xg * xg in
  let xgi := 1 / xg in
  let n := (ix * 2)%Z in
  let x1 := jump (i1x s) ix 2 in
  if outside (i1x s) x ix then Err else
  reading (i1c s) [n + 0; n + x1 + 0; n + 1; n + x1 + 1]%Z
    (dxi * c (n + 0)%Z + dx * c (n + x1 + 0)%Z + (xg2 / 6) * (dxi3 * c (n + 1)%Z + dx3 * c (n + x1 + 1)%Z),
     xgi * (c (n + x1 + 0)%Z - c (n + 0)%Z) + (xg / 6) * (dx3dx * c (n + x1 + 1)%Z + dxi3dx * c (n + 1)%Z),
     dxi * c (n + 1)%Z + dx * c (n + x1 + 1)%Z).

(** ** interp1Dexpl.c *)
(** interp1Dexpl.c:24-70; the array has 4 n elements *)
Definition interp1Dexpl_setup (junkd : nat -> R) (junk : Z -> R) (f : nat -> R) (n : nat) (bc : Z) (mn mx : R) : res interp1D :=
  match splineexpl junkd junk f n bc with
  | Val c => Val (I1 (mk_axis (Z.of_nat n) bc mn mx) (Arr (4 * Z.of_nat n) c))
  | Oob => Oob
  | Err => Err
  end.
(** the range check has no branch for the closing cell *)
Definition outside_e (a : axis) (x : R) : bool :=
  ((abc a =? NATURALBC)%Z &&
   negb (if Rle_dec (amin a) x then if Rle_dec x (amax a) then true else false else false))%bool.
(** interp1Dexpl.c:81-116 *)
Definition interp1Dexpl_eval_f (s : interp1D) (x0 : R) : res R :=
  let c := aget (i1c s) in
  let x := wrap (i1x s) x0 in
  let ix := index_spl (i1x s) x in
  let dx := frac (i1x s) x ix in
  let dx2 := dx * dx in
  let dx3 := dx2 * dx in
  let n := (ix * 4)%Z in
  if outside_e (i1x s) x then Err else
  reading (i1c s) [n + 0; n + 1; n + 2; n + 3]%Z
    (c (n + 0)%Z + dx * c (n + 1)%Z + dx2 * c (n + 2)%Z + dx3 * c (n + 3)%Z).
(** interp1Dexpl.c:131-169 *)
Definition interp1Dexpl_eval_df (s : interp1D) (x0 : R) : res (R * R * R) :=
  let c := aget (i1c s) in
  let x := wrap (i1x s) x0 in
  let ix := index_spl (i1x s) x in
  let dx := frac (i1x s) x ix in
  let dx2 := dx * dx in
  let dx3 := dx2 * dx in
  let xgi := 1 / agrid (i1x s) in
  let n := (ix * 4)%Z in
  if outside_e (i1x s) x then Err else
  reading (i1c s) [n + 0; n + 1; n + 2; n + 3]%Z
    (c (n + 0)%Z + dx * c (n + 1)%Z + dx2 * c (n + 2)%Z + dx3 * c (n + 3)%Z,
     xgi * (c (n + 1)%Z + 2 * dx * c (n + 2)%Z + 3 * dx2 * c (n + 3)%Z),
     xgi * xgi * (2 * c (n + 2)%Z + 6 * dx * c (n + 3)%Z)).
