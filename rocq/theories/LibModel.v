(** Input queries of the external library, src/libascot.c.

    The field routines are oracles that return an error code (0 = success) together with the values the
    caller sees. The loops over points are parallel in C ([#pragma omp parallel for]); every iteration
    writes only its own output elements, so the sequential order used here is one of the possible ones. *)
From Coq Require Import Reals ZArith List Bool.
Import ListNotations.
From Verif Require Import Vec.
Local Open Scope R_scope.

(** store one array element *)
Definition put (a : nat -> R) (k : nat) (x : R) : nat -> R := fun i => if Nat.eqb i k then x else a i.
(** for(int k = 0; k < n; k++) body *)
Definition loop {A} (n : nat) (body : nat -> A -> A) (s : A) : A := fold_left (fun s k => body k s) (seq 0 n) s.

Section rhotheta.
(** B_field_get_axis_rz(phi) and the rho of B_field_eval_rho_drho(r, phi, z) *)
Variables (axis : R -> Z * (R * R)) (eval_rho : R -> R -> R -> Z * R).

(** the loop of libascot.c:197-222: [None] = left without a result *)
Fixpoint bisect (n : nat) (ar az ph co si rh tol a b : R) : option (R * R) :=
  match n with
  | O => None
  | S n =>
    let c := 1 / 2 * (a + b) in
    let rj := ar + c * co in let zj := az + c * si in
    if Rlt_dec rj 0 then bisect n ar az ph co si rh tol a c
    else let '(e, v) := eval_rho rj ph zj in
    if negb (e =? 0)%Z then bisect n ar az ph co si rh tol a c
    else if Rlt_dec (Rabs (rh - v)) tol then Some (rj, zj)
    else if Rlt_dec rh v then bisect n ar az ph co si rh tol a c
    else bisect n ar az ph co si rh tol c b
  end.

(** one point of libascot_B_field_rhotheta2rz, libascot.c:179-222 *)
Definition rhotheta1 (rh th ph : R) (maxiter : nat) (tol : R) : option (R * R) :=
  let '(e, (ar, az)) := axis ph in
  if negb (e =? 0)%Z then None else
  let '(e, v0) := eval_rho ar ph az in
  if negb (e =? 0)%Z then None else
  if Rgt_dec v0 rh then Some (ar, az) else
  bisect maxiter ar az ph (cos th) (sin th) rh tol 0 5.

(** libascot_B_field_rhotheta2rz, libascot.c:173-223 *)
Definition rhotheta2rz (n : nat) (rho theta phi : nat -> R) (maxiter : nat) (tol : R) (rz : (nat -> R) * (nat -> R)) : (nat -> R) * (nat -> R) :=
  loop n (fun j '(r, z) => match rhotheta1 (rho j) (theta j) (phi j) maxiter tol with
    | None => (r, z) | Some (x, y) => (put r j x, put z j y) end) rz.
End rhotheta.

Section descent.
(** B_field_eval_psi_dpsi(r, phi, z) at t = 0: psi and its R, phi and z derivatives *)
Variable eval_psi : R -> R -> R -> Z * (R * R * R * R).

(** libascot_B_field_gradient_descent, libascot.c:241-284. The loop has no bound of its own ([iter] runs up to
    [maxiter], which is never reached when it is not positive), hence the fuel; [None] = out of fuel.
    The result is the value stored in psi[0], if any, and the final (R, z). [step] has its sign already.
    The first evaluation (line 252) has no effect. The overflow of [iter] is not modelled. *)
Fixpoint descend (fuel : nat) (ph step tol : R) (maxiter iter : Z) (r z : R) : option (option R * (R * R)) :=
  match fuel with
  | O => None
  | S fuel =>
    let '(e, (p, dr, _, dz)) := eval_psi r ph z in
    if negb (e =? 0)%Z then Some (None, (r, z)) else
    let nr := r - step * dr in let nz := z - step * dz in
    if Rlt_dec (sqrt ((nr - r) * (nr - r) + (nz - z) * (nz - z))) tol then
      let '(_, (_, dr', _, dz')) := eval_psi nr ph nz in
      Some (Some (p + (tol * dr' + tol * dz')), (nr, nz))
    else if (iter + 1 =? maxiter)%Z then Some (None, (nr, nz))
    else descend fuel ph step tol maxiter (iter + 1) nr nz
  end.
Definition gradient_descent (fuel : nat) (r z ph step tol : R) (maxiter : Z) (ascent : bool) :=
  descend fuel ph (if ascent then -1 * step else step) tol maxiter 0 r z.

(** libascot_B_field_gradient_descent_3d, libascot.c:304-364; the position is (R, z, phi) *)
Fixpoint descend3 (fuel : nat) (phimin phimax step tol : R) (maxiter iter : Z) (r z ph : R) : option (option R * (R * R * R)) :=
  match fuel with
  | O => None
  | S fuel =>
    let '(e, (p, dr, dp, dz)) := eval_psi r ph z in
    if negb (e =? 0)%Z then Some (None, (r, z, ph)) else
    let nr := r - step * dr in let nz := z - step * dz in let np := ph - step / r * dp in
    let np := if Rgt_dec np phimax then phimax else np in
    let np := if Rlt_dec np phimin then phimin else np in
    if Rlt_dec (sqrt ((nr - r) * (nr - r) + (nz - z) * (nz - z) + r * (np - ph) * r * (np - ph))) tol then
      let '(_, (_, dr', dp', dz')) := eval_psi nr np nz in
      Some (Some (p + (tol * (dr' + dp' / nr + dz'))), (nr, nz, np))
    else if (iter + 1 =? maxiter)%Z then Some (None, (nr, nz, np))
    else descend3 fuel phimin phimax step tol maxiter (iter + 1) nr nz np
  end.
Definition gradient_descent_3d (fuel : nat) (r z ph phimin phimax step tol : R) (maxiter : Z) (ascent : bool) :=
  descend3 fuel phimin phimax (if ascent then -1 * step else step) tol maxiter 0 r z ph.
End descent.

(** libascot_boozer_eval_fun, libascot.c:581-621, for a point inside the Boozer region: the safety factor, the
    Jacobian and the Jacobian times B^2. [ptz] are the 12 values of boozer_eval_psithetazeta, [B] the field. *)
Definition boozer_fun (ptz : nat -> R) (B : vec) (r : R) : R * R * R :=
  let gpsi := V (ptz 1%nat) (ptz 2%nat / r) (ptz 3%nat) in
  let gth := V (ptz 5%nat) (ptz 6%nat / r) (ptz 7%nat) in
  let gze := V (ptz 9%nat) (ptz 10%nat / r) (ptz 11%nat) in
  let q := (vy (cross gpsi gze) - vy B) / vy (cross gpsi gth) in
  let jac := -1 / dot (cross gth gze) gpsi in
  (q, jac, jac * norm B * norm B).

(** libascot_plasma_eval_background, libascot.c:451-476: species [i] of point [k] is stored at [k + i*Neval] *)
Definition background (eval : nat -> Z * (nat -> R * R)) (e : R) (nspec neval : nat) (dt : (nat -> R) * (nat -> R)) : (nat -> R) * (nat -> R) :=
  loop neval (fun k dt => let '(err, v) := eval k in if negb (err =? 0)%Z then dt else
    loop nspec (fun i '(d, t) => (put d (k + i * neval) (fst (v i)), put t (k + i * neval) (snd (v i) / e))) dt) dt.

(** one output array of libascot_eval_collcoefs, libascot.c:780-856: element [ib*Nv*Neval + Nv*k + iv] *)
Definition collcoefs (eval : nat -> Z * (nat -> nat -> R)) (nspec nv neval : nat) (out : nat -> R) : nat -> R :=
  loop neval (fun k out => let '(err, v) := eval k in if negb (err =? 0)%Z then out else
    loop nv (fun iv out => loop nspec (fun ib out => put out (ib * nv * neval + nv * k + iv) (v iv ib)) out) out) out.

(** libascot_eval_ratecoeff, libascot.c:879-940: element [Nv*k + j]; an entry whose evaluation fails keeps its value *)
Definition ratecoeff (eval : nat -> Z * (nat -> Z * R)) (nv neval : nat) (out : nat -> R) : nat -> R :=
  loop neval (fun k out => let '(err, v) := eval k in if negb (err =? 0)%Z then out else
    loop nv (fun j out => let '(e, x) := v j in if negb (e =? 0)%Z then out else put out (nv * k + j) x) out) out.
