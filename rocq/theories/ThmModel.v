(** What zeros of drand48 do to the sampler of thermal fusion reactants, and the sampler of math.c.
    Source: src/afsi.c:74, 530-542; src/math.c:188-200. *)
From Coq Require Import ZArith List Reals Bool.
Import ListNotations.
From Verif Require Import AfsiModel RejModel.
Local Open Scope R_scope.

(** afsi.c:531-541 from generator state [st]: the four draws in program order.  log(0) is minus infinity, and so is its product with
    r3 * r3, since the argument of the cosine is less than pi/2: the energy is then infinite, and [None] stands for the momenta *)
Definition thermal_draw (ti mass : R) (st : Z) : option (R * R) * Z :=
  let st := d48_next st in let u1 := d48_uniform_of st in
  let st := d48_next st in let u2 := d48_uniform_of st in
  let st := d48_next st in let u3 := d48_uniform_of st in
  let st := d48_next st in let u4 := d48_uniform_of st in
  (if Req_EM_T u1 0 then None else if Req_EM_T u2 0 then None else Some (thermal_momentum ti mass u1 u2 u3 u4), st).
(** afsi.c:530-542: the loop over [n] samples *)
Fixpoint thermal_loop (ti mass : R) (n : nat) (st : Z) : list (option (R * R)) * Z :=
  match n with
  | O => ([], st)
  | S n => let (p, st) := thermal_draw ti mass st in
    let (rest, st) := thermal_loop ti mass n st in (p :: rest, st)
  end.

(** math.c:188-200 *)
Definition normal_rand (fuel : nat) (st : Z) : option (R * Z) :=
  match polar d48_next d48_uniform_of fuel st with
  | None => None
  | Some (v1, v2, st) => let s := v1 * v1 + v2 * v2 in Some (v1 * sqrt (-2 * ln s / s), st)
  end.

(** ** A run between two thermal species on one thread *)
(** afsi.c:521-543: density and samples; [None] = the plasma could not be evaluated, otherwise density and temperature *)
Definition thermal_reactant (n : nat) (mass : R) (pl : option (R * R)) (st : Z) : R * (list (option (R * R)) * Z) :=
  match pl with
  | None => (0, ([], st))
  | Some (ni, ti) => (ni, thermal_loop ti mass n st)
  end.
(** afsi.c:315-316, 346-347 for each of the [n] pairs (afsi.c:155-160): what is computed from the numbers is in AfsiModel *)
Definition products_state (n : nat) (st : Z) : Z := Nat.iter n (fun st => d48_next (d48_next (d48_next (d48_next st)))) st.
(** afsi.c:142-160, 401-421 for one cell: [None] = the field could not be evaluated; the samples of both species *)
Definition thermal_cell (n : nat) (m1 m2 : R) (c : option (option (R * R) * option (R * R))) (st : Z) : list (option (R * R)) * Z :=
  match c with
  | None => ([], st)
  | Some (p1, p2) =>
    let '(density1, (s1, st)) := thermal_reactant n m1 p1 st in
    let '(density2, (s2, st)) := thermal_reactant n m2 p2 st in
    ((s1 ++ s2)%list, if Req_EM_T density1 0 then st else if Req_EM_T density2 0 then st else products_state n st)
  end.
(** afsi.c:122-134 *)
Fixpoint thermal_run (n : nat) (m1 m2 : R) (cells : list (option (option (R * R) * option (R * R)))) (st : Z) : list (option (R * R)) * Z :=
  match cells with
  | [] => ([], st)
  | c :: cells => let (s, st) := thermal_cell n m1 m2 c st in
    let (rest, st) := thermal_run n m1 m2 cells st in ((s ++ rest)%list, st)
  end.
